(** Watershed size distribution: bubble_stats.py:600-629 of [watershed_bsd]. *)
From Coq Require Import List ZArith Reals.
Import ListNotations.
Local Open Scope R_scope.

(** [np.unique(labels[labels>0])]: sorted, without repetitions. [labels] lists the label of every voxel. *)
Fixpoint insert_unique (v : Z) (l : list Z) : list Z :=
  match l with [] => [v] | w :: r => if (v <? w)%Z then v :: l else if (v =? w)%Z then l else w :: insert_unique v r end.
Definition unique_labels (labels : list Z) : list Z := fold_right insert_unique [] (filter (fun v => (0 <? v)%Z) labels).
(** [np.cbrt(3*v/4/np.pi)] (line 612), for positive [v]. The code applies it to [uniq[0]], the labels. *)
Definition radius (v : R) : R := Rpower (3 * v / 4 / PI) (1 / 3).
Definition r_list (labels : list Z) : list R := map (fun v => radius (IZR v)) (unique_labels labels).
Fixpoint largest (l : list R) : R := match l with [] => 0 | [v] => v | v :: r => Rmax v (largest r) end.
(** Line 613: [np.arange(0, int(r_list.max()+2), 1)-0.5]. *)
Definition edges (rs : list R) : list R := map (fun k => INR k - 0.5) (seq 0 (Z.to_nat (Int_part (largest rs + 2)))).
(** [np.histogram]: half-open bins, the last one closed. *)
Definition in_bin (es : list R) (k : nat) (v : R) : bool :=
  let lo := nth k es 0 in let hi := nth (S k) es 0 in
  if Rle_dec lo v then (if Rlt_dec v hi then true else if Req_EM_T v hi then Nat.eqb (S (S k)) (length es) else false) else false.
Definition histogram (es : list R) (rs : list R) : list R := map (fun k => INR (length (filter (in_bin es k) rs))) (seq 0 (length es - 1)).
Definition total (l : list R) : R := fold_right Rplus 0 l.
(** Lines 615-619: sizes, [R*dF/dR] and [dF/dR]. [None]: no region (error in [max]) or division of zero by zero. *)
Definition watershed_bsd (labels : list Z) (boxsize : R) (n : nat) : option (list R * list R * list R) :=
  match unique_labels labels with
  | [] => None
  | _ => let rs := r_list labels in let es := edges rs in let h := histogram es rs in
      if Req_EM_T (total h) 0 then None else
      let mid := map (fun k => nth (S k) es 0 / 2 + nth k es 0 / 2) (seq 0 (length es - 1)) in
      let f := map (fun v => v / total h) h in
      Some (map (fun r => r * boxsize / INR n) mid, map (fun p => fst p * snd p) (combine mid f), f)
  end.
