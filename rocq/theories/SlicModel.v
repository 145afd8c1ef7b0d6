(** Superpixel labels and the regions stitched from them: [slic_cube], [boundaries], [get_superpixel_means],
    [get_superpixel_sigmas], [stitch_superpixels] (superpixels.py:10-30, 50-56, 73-117, 141-159, 220-233) and
    [bubbles_from_slic] (identify_regions.py:12-36). Exact reals. *)
From Coq Require Import String List Arith ZArith Bool Reals.
From Verif Require Import RLib StatsModel SuperpixelModel.
Import ListNotations.

Inductive outcome (A : Type) := Returned (a : A) | Raised (e : string).
Arguments Returned {A}. Arguments Raised {A}.
Definition bind {A B} (o : outcome A) (f : A -> outcome B) : outcome B := match o with Returned a => f a | Raised e => Raised e end.

(** An array: its shape, and its entries in C order. *)
Record array (A : Type) := { shape : list nat; flat : list A }.
Arguments shape {A}. Arguments flat {A}. Arguments Build_array {A}.

(** * [slic] of scikit-image, as it is called here *)
(** By the keywords it accepts: no [max_num_iter] yet, both that and [multichannel], or no [multichannel] any more. *)
Inductive version := Oldest | Both | Newest.
(** [segment] is the algorithm: the shape of the grid and the channels of each of its cells give the label of each cell. *)
Section Slic.
Context (segment : list nat -> list (list R) -> outcome (list Z)).
(** Groups of [n] consecutive entries. *)
Fixpoint groups {A} (fuel n : nat) (l : list A) : list (list A) :=
  match fuel with O => [] | S k => firstn n l :: groups k n (skipn n l) end.
Definition cells_of (s : list nat) : nat := fold_right Nat.mul 1%nat s.
(** Without channels, and with the last axis as that of the channels, which is the default and refuses images of two axes. *)
Definition grey (c : array R) : outcome (array Z) := bind (segment (shape c) (map (fun v => [v]) (flat c))) (fun l => Returned (Build_array (shape c) l)).
Definition channels_last (c : array R) : outcome (array Z) :=
  if (length (shape c) <=? 2)%nat then Raised "ValueError"
  else let s := removelast (shape c) in bind (segment s (groups (cells_of s) (last (shape c) 0%nat) (flat c))) (fun l => Returned (Build_array s l)).
Definition slic (v : version) (multichannel : option bool) (c : array R) : outcome (array Z) :=
  match v, multichannel with
  | Oldest, _ => Raised "TypeError"
  | Both, Some false => grey c
  | Newest, Some _ => Raised "TypeError"
  | _, _ => channels_last c
  end.
(** [slic_cube] (10-30). [cmap] maps a number to red, green and blue; the fourth entry is deleted again. *)
Definition coloured (cmap : R -> R * R * R) (c : array R) : array R :=
  Build_array (shape c ++ [3%nat]) (flat_map (fun x => let '(r, g, b) := cmap x in [r; g; b]) (flat c)).
Definition slic_cube (v : version) (cmap : option (R -> R * R * R)) (cube : array R) : outcome (array Z) :=
  let c := match cmap with Some f => coloured f cube | None => cube end in
  match slic v (Some (match cmap with Some _ => true | None => false end)) c with
  | Returned l => Returned l
  | Raised _ => slic v None c
  end.

(** * Means and sigmas (141-159) *)
(** [argsort] is [y.argsort()]; an IndexError of [num[i]] is the only failure. *)
Context (argsort : list Z -> list nat).
Definition np_std (l : list R) : R := sqrt (rsum (map (fun x => (x - mean l) ^ 2)%R l) / INR (length l)).
Definition per_label (op : list R -> R) (v : version) (data : array R) (labels : option (array Z)) : outcome (list R) :=
  bind (match labels with Some l => Returned l | None => slic_cube v None data end) (fun l =>
  match apply_operator_labelled_data op 0%R (argsort (flat l)) (flat data) (flat l) with Some m => Returned m | None => Raised "IndexError" end).
Definition get_superpixel_means := per_label mean.
Definition get_superpixel_sigmas := per_label np_std.

(** * Stitching *)
(** What [stitch_using_histogram] finds (73-97): a threshold, the zeros of line 99, or an error. *)
Inductive answer := Threshold (t : R) | Zeros | Failure.
Context (find_threshold : list R -> answer).
(** [sp_map[labels==i] = mns[i]] (231-232) where the labels have the first axes of the data: the mask selects whole rows. *)
Definition rows (data : array R) (labels : array Z) : list Z :=
  let m := (length (flat data) / length (flat labels))%nat in flat_map (fun z => repeat z m) (flat labels).
Definition stitch_superpixels (v : version) (data : array R) (labels : array Z) : outcome (array bool) :=
  bind (get_superpixel_means v data (Some labels)) (fun mns =>
  match find_threshold mns with
  | Threshold t => Returned (Build_array (shape data) (map (fun x => if Rlt_dec x t then true else false) (superpixel_map mns (rows data labels))))
  | Zeros => Returned (Build_array (shape data) (map (fun _ => false) (flat data)))
  | Failure => Raised "ValueError"
  end).
(** [bubbles_from_slic] (identify_regions.py:34-36). *)
Definition bubbles_from_slic (v : version) (data : array R) : outcome (array bool) :=
  bind (slic_cube v None data) (fun labels => stitch_superpixels v data labels).
End Slic.

(** * [boundaries] (50-56) *)
Definition largest (l : list R) : R := match l with [] => 0%R | x :: r => fold_left Rmax r x end.
(** [marked] is [bd[:,:,0]==1] for the boundaries found by [mark_boundaries]. *)
Definition boundaries (sl : array R) (lab : array Z) (marked : list bool) (mark : bool) (factor : R) : outcome (array R) :=
  if negb ((length (shape sl) =? 2)%nat && (length (shape lab) =? 2)%nat) then Raised "AssertionError"
  else
    let top := (largest (flat sl) * factor)%R in
    if (length (flat sl) =? 0)%nat then Raised "ValueError"
    else if mark then Returned (Build_array (shape sl) (map (fun p : R * bool => let (x, m) := p in if m then top else x) (combine (flat sl) marked)))
    else Returned (Build_array (shape sl) (top :: tl (flat sl))).
