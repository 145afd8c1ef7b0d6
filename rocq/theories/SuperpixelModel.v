(** Model of superpixels.py: per-label operators, the superpixel map and the stitching by
    a threshold. Arrays are flattened ([data.flatten()], [labels.flatten()]). *)
From Coq Require Import List Arith ZArith Bool Reals.
From Verif Require Import RLib StatsModel.
Import ListNotations.

(** [np.unique(y, return_counts=1)]: the distinct labels in ascending order, and how often
    each occurs. *)
Fixpoint insert_label (x : Z) (l : list Z) : list Z :=
  match l with
  | [] => [x]
  | y :: r => if Z.ltb x y then x :: l else if Z.eqb x y then l else y :: insert_label x r
  end.
Definition unique (y : list Z) : list Z := fold_right insert_label [] y.
Definition counts (y : list Z) : list nat := map (fun e => count_occ Z.eq_dec y e) (unique y).

(** [num[i]]: a negative index counts from the end, one out of range is an IndexError. *)
Definition py_index {A} (l : list A) (i : Z) : option A :=
  if Z.ltb i 0 then (if Z.ltb (i + Z.of_nat (length l)) 0 then None
                     else nth_error l (Z.to_nat (i + Z.of_nat (length l))))
  else nth_error l (Z.to_nat i).

(** superpixels.py:131-138 (numba_functions.py:31-35): the loop over [elems]. *)
Fixpoint operator_loop {A B} (op : list A -> B) (num : list nat) (x1 : list A) (idx_low : nat) (elems : list Z)
  : option (list B) :=
  match elems with
  | [] => Some []
  | i :: r =>
      match py_index num i with
      | None => None
      | Some n =>
          let idx_high := (idx_low + n)%nat in
          match operator_loop op num x1 idx_high r with
          | None => None
          | Some out => Some (op (firstn (idx_high - idx_low) (skipn idx_low x1)) :: out)
          end
      end
  end.
(** superpixels.py:117-139 (numba_functions.py:24-36). [order] is what [y.argsort()]
    returned: numpy's default sort is not stable, so any sorting permutation may come back. *)
Definition apply_operator_labelled_data {A B} (op : list A -> B) (d : A) (order : list nat)
           (data : list A) (labels : list Z) : option (list B) :=
  let x1 := map (fun k => nth k data d) order in
  operator_loop op (counts labels) x1 0 (unique labels).

(** superpixels.py:219-233: [for i in range(mns.size): sp_map[labels==i] = mns[i]]. *)
Definition superpixel_map (mns : list R) (labels : list Z) : list R :=
  fold_left (fun sp i => map (fun p => if Z.eqb (snd p) (Z.of_nat i) then nth i mns 0%R else fst p) (combine sp labels))
            (seq 0 (length mns)) (map (fun _ => 0%R) labels).

(** superpixels.py:38-49 with [stitch='mean']: [y1] by position in [np.unique(y)], but read
    by label; [not thres] is true for [None] and for zero. *)
Definition label_mean (data : list R) (labels : list Z) (e : Z) : R :=
  mean (map fst (filter (fun p => Z.eqb (snd p) e) (combine data labels))).
Fixpoint all_some {A} (l : list (option A)) : option (list A) :=
  match l with
  | [] => Some []
  | None :: _ => None
  | Some a :: r => match all_some r with None => None | Some s => Some (a :: s) end
  end.
Definition binary_stitch (data : list R) (labels : list Z) (thres : option R) : option (list bool) :=
  let y1 := map (label_mean data labels) (unique labels) in
  let t := match thres with
           | None => mean data
           | Some t => if Req_EM_T t 0 then mean data else t
           end in
  match all_some (map (fun e => py_index y1 e) labels) with
  | None => None
  | Some y2 => Some (map (fun v => if Rlt_dec v t then true else false) y2)
  end.
