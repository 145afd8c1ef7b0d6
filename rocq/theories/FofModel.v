(** Model of the friends-of-friends search (Friends_of_Friends.py) and of the
    labelling behind [fof] and the Betti numbers (bubble_stats.py, topology.py). *)
From Coq Require Import List Arith ZArith Bool Lia.
Import ListNotations.
Local Open Scope nat_scope.

(** n-dimensional array index. *)
Definition coord : Type := list Z.
Definition coord_eqb (a b : coord) : bool := if list_eq_dec Z.eq_dec a b then true else false.
Definition mem_coord (c : coord) (l : list coord) : bool := existsb (coord_eqb c) l.

(** [cycle_through_options] (Friends_of_Friends.py:24-29): for each axis, the index
    one below and one above. *)
Fixpoint options (c : coord) : list coord :=
  match c with
  | [] => []
  | x :: c' => ((x + -1)%Z :: c') :: ((x + 1)%Z :: c') :: map (cons x) (options c')
  end.

(** [out_map] is an integer array, zero at first. *)
Definition labels : Type := coord -> nat.
Definition set_label (m : labels) (c : coord) (g : nat) : labels := fun d => if coord_eqb d c then g else m d.

Section Search.
  Variable nbrs : coord -> list coord.
  (** [poss_set] (line 33) *)
  Variable poss : list coord.

  Record state := St { lab : labels; queue : list coord; size : nat }.

  (** [recursive_search] (lines 35-41). *)
  Definition visit (g : nat) (s : state) (t : coord) : state :=
    if mem_coord t poss && Nat.eqb (lab s t) 0
    then St (set_label (lab s) t g) (queue s ++ [t]) (S (size s))
    else s.
  Definition recursive_search (g : nat) (p : coord) (s : state) : state :=
    fold_left (visit g) (nbrs p) s.

  (** [while not q.empty(): s = recursive_search(q.get(), group, s)] (lines 52-53).
      [q] is a [multiprocessing.Queue]: an item that was [put] travels through a
      feeder thread, so [q.empty()] may answer True although the item has not been
      taken out yet. [late] lists the answers of that kind: at each call with a
      non-empty queue a [true] means "reported empty". [fuel] bounds the number of
      iterations; [None] if it runs out. *)
  Fixpoint drain (fuel : nat) (late : list bool) (g : nat) (s : state) : option (state * list bool) :=
    match queue s with
    | [] => Some (s, late)
    | p :: q =>
        match late with
        | true :: late' => Some (s, late')
        | _ =>
            match fuel with
            | 0 => None
            | S fuel' => drain fuel' (tl late) g (recursive_search g p (St (lab s) q (size s)))
            end
        end
    end.

  (** The loop over the candidate points (lines 47-54). [iter] is what the [for] loop
      gets out of [possibilities]. The group number comes from the counter [c]. *)
  Fixpoint groups (late : list bool) (iter : list coord) (m : labels) (q : list coord)
           (g : nat) (sizes : list nat) : option (labels * list nat) :=
    match iter with
    | [] => Some (m, sizes)
    | p :: iter' =>
        if Nat.eqb (m p) 0 then
          match drain (S (length q + length poss)) late g (St (set_label m p g) (q ++ [p]) 1) with
          | None => None
          | Some (s, late') => groups late' iter' (lab s) (queue s) (S g) (sizes ++ [size s])
          end
        else groups late iter' m q g sizes
    end.
End Search.

(** [np.where(array > threshold)]: C order; [above] is [array > threshold]. *)
Fixpoint all_coords (shape : list nat) : list coord :=
  match shape with
  | [] => [[]]
  | n :: shape' => flat_map (fun i => map (cons (Z.of_nat i)) (all_coords shape')) (seq 0 n)
  end.
Definition where_above (shape : list nat) (above : coord -> bool) : list coord :=
  filter above (all_coords shape).

(** [FoF_search] (lines 17-56) as shipped: [possibilities] is a [zip] object, and
    [set(possibilities)] on line 33 uses it up, so the [for] loop gets no points. *)
Definition FoF_search (shape : list nat) (above : coord -> bool) (late : list bool)
  : option (labels * list nat) :=
  groups options (where_above shape above) late [] (fun _ => 0) [] 1 [].

(** The same code with the points kept in a list (what Python 2's [zip] returned). *)
Definition FoF_search_list (shape : list nat) (above : coord -> bool) (late : list bool)
  : option (labels * list nat) :=
  let poss := where_above shape above in
  groups options poss late poss (fun _ => 0) [] 1 [].

(** [skimage.measure.label(A, connectivity=r)] is outside the repository. It is
    assumed to number the connected components of the non-zero cells, where two cells
    are neighbours if they differ by at most one step along every axis and along at
    most [r] axes. Modelled by the same search with that neighbourhood. *)
Fixpoint options_r (r : nat) (c : coord) : list coord :=
  match c with
  | [] => [[]]
  | x :: c' => map (cons x) (options_r r c')
      ++ match r with
         | 0 => []
         | S r' => map (cons (x + -1)%Z) (options_r r' c') ++ map (cons (x + 1)%Z) (options_r r' c')
         end
  end.
Definition label (r : nat) (shape : list nat) (A : coord -> bool) : option (labels * list nat) :=
  let poss := where_above shape A in
  groups (options_r r) poss [] poss (fun _ => 0) [] 1 [].

(** [fof] (bubble_stats.py:17-51) when skimage is present; [A] is [data >= xth].
    [np.unique(out_map, return_counts=True)[1][1:]]: the counts of all labels that
    occur, in increasing order, without the first. *)
Definition unique_counts (shape : list nat) (m : labels) (n : nat) : list nat :=
  filter (fun k => negb (Nat.eqb k 0))
         (map (fun g => length (filter (fun c => Nat.eqb (m c) g) (all_coords shape))) (seq 0 (S n))).
Definition fof (r : nat) (shape : list nat) (A : coord -> bool) : option (labels * list nat) :=
  match label r shape A with
  | None => None
  | Some (m, sizes) => Some (m, tl (unique_counts shape m (length sizes)))
  end.

(** [betti0], [betti2] (topology.py:76-116): number of labels; connectivity 1 for
    [neighbors] 6 or 4, else 2. [A] is [data > thres]. *)
Definition connectivity (neighbors : Z) : nat :=
  if (Z.eqb neighbors 6 || Z.eqb neighbors 4)%bool then 1 else 2.
Definition label_num (r : nat) (shape : list nat) (A : coord -> bool) : option nat :=
  option_map (fun x => length (snd x)) (label r shape A).
Definition betti0 (shape : list nat) (neighbors : Z) (A : coord -> bool) : option nat :=
  label_num (connectivity neighbors) shape A.
Definition betti2 (shape : list nat) (neighbors : Z) (A : coord -> bool) : option nat :=
  label_num (connectivity neighbors) shape (fun c => negb (A c)).
