(** Model of the halo list readers (halo_list.py). A line is the list of its
    whitespace-separated numbers (floats as rationals). *)
From Coq Require Import List Arith ZArith QArith Bool.
From Verif Require Import QLib.
Import ListNotations.
Local Open Scope nat_scope.

Definition line : Type := list Q.
Record halo := Halo { pos : list Q; pos_cm : list Q; vel : list Q; ang : list Q; vel_disp : list Q;
                      m : Q; mp : Q; solar_masses : Q }.
Inductive result := Raised | Read (complete : bool) (halos : list halo).

Definition slice (a b : nat) (l : line) : line := firstn (b - a) (skipn a l).
(** [vals[-3]] *)
Definition third_last (l : line) : option Q := if length l <? 3 then None else nth_error l (length l - 3).

Section Reader.
  (** [conv.M_grid*const.solar_masses_per_gram] *)
  Variable unit : Q.
  Variable min_mass : Q.
  Variable max_mass : option Q.
  Variable max_number : Z.
  Variable startline : Z.
  (** [HaloCubeP3MFull] skips lines with a single number (line 230-233). *)
  Variable skip_single : bool.

  (** [max_select_grid_mass] is only assigned if [max_select_mass] is truthy: [Some None]
      stands for the unassigned local that is then read (lines 202-205, 492-495). *)
  Definition in_window (g : Q) : option bool :=
    if Qltb (min_mass / unit)%Q g then
      match max_mass with
      | None => Some true
      | Some x => if Qeq_bool x 0 then None else Some (Qltb g (x / unit)%Q)
      end
    else Some false.

  (** [halo.pos], ... (lines 519-530); reading column 18 raises if there are fewer. *)
  Definition make_halo (l : line) (g : Q) : option halo :=
    match nth_error l 16, nth_error l 17, nth_error l 18 with
    | Some a, Some b, Some _ =>
        Some (Halo (slice 0 3 l) (slice 3 6 l) (slice 6 9 l) (slice 9 12 l) (slice 12 15 l) a b (g * unit)%Q)
    | _, _, _ => None
    end.

  (** The loop of [read_from_file] (lines 207-251, 497-532). *)
  Fixpoint read_lines (number : Z) (halos : list halo) (ls : list line) : result :=
    match ls with
    | [] => Read true halos
    | l :: r =>
        if (number <? startline)%Z then read_lines (number + 1) halos r
        else if (0 <=? max_number)%Z && (max_number <=? Z.of_nat (length halos))%Z then Read false halos
        else if skip_single && Nat.eqb (length l) 1 then read_lines (number + 1) halos r
        else match third_last l with
             | None => Raised
             | Some g =>
                 match in_window g with
                 | None => Raised
                 | Some false => read_lines (number + 1) halos r
                 | Some true =>
                     match make_halo l g with
                     | None => Raised
                     | Some h => read_lines (number + 1) (halos ++ [h]) r
                     end
                 end
             end
    end.
End Reader.
(** [HaloList.read_from_file], [HaloCubeP3MFull.read_from_file] (without the unit changes
    of the latter). *)
Definition HaloList_read unit min_mass max_mass max_number startline ls : result :=
  read_lines unit min_mass max_mass max_number startline false 1 [] ls.
Definition HaloCubeP3MFull_read unit min_mass max_mass max_number startline ls : result :=
  read_lines unit min_mass max_mass max_number startline true 1 [] ls.

(** [HaloRockstar.read_from_file] (lines 53-100), the lines after the header:
    [if len(self.halos) > max_select_number: append else: break]. It always returns True.
    [make] turns a line into a halo. *)
Fixpoint rockstar_lines {H : Type} (make : line -> H) (max_number : Z) (halos : list H) (ls : list line) : list H :=
  match ls with
  | [] => halos
  | l :: r => if (max_number <? Z.of_nat (length halos))%Z then rockstar_lines make max_number (halos ++ [make l]) r
              else halos
  end.
Definition HaloRockstar_read {H : Type} (make : line -> H) (max_number : Z) (data : list line) : list H * bool :=
  (rockstar_lines make max_number [] data, true).

(** [_reposition] (lines 276-282, 331-341), one coordinate. *)
Definition reposition (box x : Q) : Q :=
  if Qltb x 0 then (box + x)%Q else if Qltb box x then (x - box)%Q else x.
