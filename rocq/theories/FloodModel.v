(** Watershed segmentation: [_watershed], bubble_stats.py:556-567. *)
From Coq Require Import List Arith ZArith Bool.
From Verif Require Import FofModel.
Import ListNotations.
Local Open Scope nat_scope.

(** [mask = np.zeros(distance.shape, dtype=bool); mask[tuple(coords.T)] = True] (lines 562-563).
    [coords] is what [peak_local_max] found (line 561): an argument here, whatever the footprint, [threshold_rel] and [h]. *)
Definition peak_mask (coords : list coord) : coord -> bool := fun c => mem_coord c coords.

(** [markers, _ = ndimage.label(mask)] (line 564): face neighbours. SciPy's numbering of the clusters may differ from
    [label]'s; only that it is a labelling is used. *)
Definition markers (shape : list nat) (coords : list coord) : option labels :=
  match label 1 shape (peak_mask coords) with Some (m, _) => Some m | None => None end.

(** skimage's [watershed(image, markers, mask=image)] (line 565) with its default connectivity 1: markers off the mask are
    dropped, the marked cells are put on a heap, and each cell taken from it hands its label to the face neighbours that are in the mask
    and have none, which go on the heap. The heap's order (height, then age) is an arbitrary [pick] here: the place, in
    the list of waiting cells, of the cell taken next. *)
Section Flood.
  Variable pick : labels -> list coord -> nat.
  (** the cells of the array that are in the mask *)
  Variable cells : list coord.

  Definition spread (g : nat) (s : labels * list coord) (t : coord) : labels * list coord :=
    if mem_coord t cells && Nat.eqb (fst s t) 0 then (set_label (fst s) t g, snd s ++ [t]) else s.

  Fixpoint flood (fuel : nat) (out : labels) (heap : list coord) : labels :=
    match fuel, heap with
    | S fuel', q0 :: q =>
        let k := pick out heap mod length heap in
        let c := nth k heap q0 in
        let s := fold_left (spread (out c)) (options_r 1 c) (out, firstn k heap ++ skipn (S k) heap) in
        flood fuel' (fst s) (snd s)
    | _, _ => out
    end.
End Flood.

(** [_watershed] (lines 556-567). Each cell of the mask goes on the heap at most once, so their number bounds the steps.
    The distance transform (lines 557-558) only decides [coords] and [pick]. *)
Definition watershed_labels (pick : labels -> list coord -> nat) (shape : list nat) (image : coord -> bool) (coords : list coord) : option labels :=
  match markers shape coords with
  | None => None
  | Some m =>
      let cells := where_above shape image in
      let seeds := fun c => if mem_coord c cells then m c else 0 in
      Some (flood pick cells (length cells) seeds (filter (fun c => negb (Nat.eqb (seeds c) 0)) cells))
  end.
(** The label of every voxel, in C order, as [watershed_bsd] reads it (lines 608-612). *)
Definition flat (shape : list nat) (out : labels) : list Z := map (fun c => Z.of_nat (out c)) (all_coords shape).
