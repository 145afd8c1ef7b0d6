(** CubeP3M halo catalogues: [HaloCubeP3M] (halo_list.py:284-424) and the units of [HaloCubeP3MFull] (141-174, 236-250, 276-282).
    Exact reals. A file is a list of 4-byte words; [f32], [i32] read one as a number. *)
From Coq Require Import String Ascii List Arith ZArith Bool Reals.
From Verif Require Import ConstModel.
Import ListNotations.
Local Open Scope nat_scope.

Inductive outcome (A : Type) := Returned (a : A) | Raised (e : string).
Arguments Returned {A}. Arguments Raised {A}.
Definition bind {A B} (o : outcome A) (f : A -> outcome B) : outcome B := match o with Returned a => f a | Raised e => Raised e end.

(** * Units *)
(** [10**(conv.gridmass_to_msol(m))] with NaN as [None]: the logarithm of zero is minus infinity. *)
Definition msol (v : conv) (m : R) : option R :=
  if Rlt_dec m 0 then None else if Req_EM_T m 0 then Some 0%R else Some (Rpower 10 (gridmass_to_msol v m)).
(** [_reposition] (276-282, 331-341), one coordinate. *)
Definition reposition (box x : R) : R := if Rlt_dec x 0 then (box + x)%R else if Rlt_dec box x then (x - box)%R else x.
Definition scale_opt (a : R) (o : option R) : option R := option_map (fun x => x * a)%R o.
(** [conv.gridpos_to_mpc(conv.gridvel_to_kms(l, z))] as a mass, times [h*h] (241, 409). *)
Definition angular (v : conv) (h z l : R) : option R := scale_opt h (scale_opt h (msol v (gridpos_to_mpc v (gridvel_to_kms v l z)))).

Record halo := Halo { pos : list R; m : option R; r : R; pos_cm : list R; vel : list R; l : list (option R); vel_disp : R }.
(** Lines 403-410. [h] is [const.h]. *)
Definition cosmological (v : conv) (h z : R) (a : halo) : halo :=
  Halo (map (fun x => reposition (boxsize v) (gridpos_to_mpc v x * h)) (pos a))
       (match m a with Some x => scale_opt h (msol v x) | None => None end)
       (gridpos_to_mpc v (r a) * h)
       (map (fun x => reposition (boxsize v) (gridpos_to_mpc v x * h)) (pos_cm a))
       (map (fun x => gridvel_to_kms v x z) (vel a))
       (map (fun o => match o with Some x => angular v h z x | None => None end) (l a))
       (gridvel_to_kms v (vel_disp a) z).

(** * One file *)
Section Words.
Context {W : Type} (f32 : W -> R) (i32 : W -> Z).
Definition floats (ws : list W) : list R := map f32 ws.
Definition norm (xs : list R) : R := sqrt (fold_right Rplus 0%R (map (fun x => x * x)%R xs)).
(** Lines 378-401: [np.fromfile] returns what is left if that is less than [count]; taking four numbers apart and reshaping 300 raise then. *)
Definition read_record (vir pid : bool) (ws : list W) : outcome (halo * list W) :=
  let p := firstn 3 ws in
  let ws1 := skipn 3 ws in
  match firstn 4 ws1 with
  | [mass_vir; mass_odc; r_vir; r_odc] =>
      let ws2 := skipn 4 ws1 in let ws3 := skipn 3 ws2 in let ws4 := skipn 3 ws3 in let ws5 := skipn 3 ws4 in let ws6 := skipn 3 ws5 in
      let rest := skipn 3 ws6 in
      let a := Halo (floats p) (Some (f32 (if vir then mass_vir else mass_odc))) (f32 (if vir then r_vir else r_odc))
                 (floats (firstn 3 ws2)) (floats (firstn 3 ws3)) (map Some (floats (firstn 3 ws4))) (norm (floats (firstn 3 ws5))) in
      if pid then
        let xv := firstn 300 (skipn 100 rest) in
        if length xv =? 300 then Returned (a, skipn 400 rest) else Raised "ValueError"
      else Returned (a, skipn 6 rest)
  | _ => Raised "ValueError"
  end.
Fixpoint read_records (vir pid : bool) (n : nat) (ws : list W) : outcome (list halo) :=
  match n with
  | O => Returned []
  | S n' => bind (read_record vir pid ws) (fun p => bind (read_records vir pid n' (snd p)) (fun hs => Returned (fst p :: hs)))
  end.
(** [_get_header] (325-329) and the loop: the number of haloes claimed, and the haloes. *)
Definition read_node (vir pid : bool) (ws : list W) : outcome (Z * list halo) :=
  match ws with
  | [] => Raised "IndexError"
  | n :: _ :: _ :: rest => bind (read_records vir pid (Z.to_nat (i32 n)) rest) (fun hs => Returned (i32 n, hs))
  | _ => Raised "ValueError"
  end.

(** * A directory *)
(** [file dir k] are the words of [dir/node<k>/<z>halo<k>.dat]; [count dir] is how many names match [dir/node*]. *)
Context (file : string -> nat -> option (list W)) (count : string -> nat).
Fixpoint read_nodes (vir pid : bool) (dir : string) (ks : list nat) : outcome (Z * list halo) :=
  match ks with
  | [] => Returned (0%Z, [])
  | k :: r =>
      match file dir k with
      | None => Raised "FileNotFoundError"
      | Some ws => bind (read_node vir pid ws) (fun a => bind (read_nodes vir pid dir r) (fun b => Returned (fst a + fst b, snd a ++ snd b)%Z))
      end
  end.
(** [if filespath[-1] != '/'] (319). *)
Fixpoint ends_with_slash (s : string) : bool :=
  match s with EmptyString => false | String c EmptyString => Ascii.eqb c "/" | String _ s' => ends_with_slash s' end.
Definition directory (s : string) : string := if ends_with_slash s then s else s ++ "/".
(** [HaloCubeP3M(filespath, z, node, mass_def, pid_flag, cosm_unit)] (310-323, 344-412): [nhalo] and [halos]. *)
Definition HaloCubeP3M (v : conv) (h : R) (filespath : option string) (z : option R) (node : option nat) (vir pid cosm : bool) : outcome (Z * list halo) :=
  match z with
  | None => Raised "NameError"
  | Some z =>
      if Req_EM_T z 0 then Raised "NameError"
      else match filespath with
      | None | Some EmptyString => Raised "NameError"
      | Some s =>
          let dir := directory s in
          bind (read_nodes vir pid dir (match node with Some k => [k] | None => seq 0 (count dir) end)) (fun p =>
          Returned (fst p, if cosm then map (cosmological v h z) (snd p) else snd p))
      end
  end.
End Words.

(** * [HaloCubeP3MFull] *)
(** The constructor (158-170): the simulation constants, and the attributes [box_len] and [nbox_fine], each of which may be missing. The
    ValueError of line 161 is made but not raised. *)
Definition full_init (c : const) (v : conv) (box_len output_len : option R) : outcome (conv * option R * option R) :=
  let given := match box_len with
    | None => Returned (v, None, None)
    | Some b => let (v', raised) := set_sim_constants b c v in if raised then Raised "Exception" else Returned (v', Some b, Some (nbox_fine v'))
    end in
  bind given (fun a => let '(v', b, n) := a in Returned (v', match output_len with Some o => Some o | None => b end, n)).
(** A position (238-239). *)
Definition full_position (box_len nbox : option R) (x : R) : outcome R :=
  match box_len, nbox with Some b, Some n => Returned (reposition b (x * b / n)%R) | _, _ => Raised "AttributeError" end.
