(** Scores and estimates from superpixels: superpixels.py:32-36, 58-112, 163-218. Arrays are flattened; exact reals. *)
From Coq Require Import List Arith ZArith Bool Reals.
From Verif Require Import RLib StatsModel SuperpixelModel.
Import ListNotations.
Local Open Scope R_scope.

(** [see_label] (32-36). *)
Definition see_label (out_map : list Z) (label : Z) : list R := map (fun z => if Z.eqb z label then 1 else 0) out_map.

(** [under_segmentation_error] (58-71); a cell is the pair of its superpixel and its true region. *)
Definition size_of (cells : list (Z * Z)) (j : Z) : R := INR (length (filter (fun c => Z.eqb (fst c) j) cells)).
Definition overlap (cells : list (Z * Z)) (i j : Z) : R := INR (length (filter (fun c => Z.eqb (snd c) i && Z.eqb (fst c) j) cells)).
Definition leaking (cells : list (Z * Z)) (b : R) : R :=
  rsum (map (fun i => rsum (map (fun j => if Rlt_dec (b * size_of cells j) (overlap cells i j) then size_of cells j else 0) (unique (map fst cells)))) (unique (map snd cells))).
Definition under_segmentation_error (cells : list (Z * Z)) (b : R) : R := (leaking cells b - INR (length cells)) / INR (length cells).

(** [get_superpixel_n_pixels] (163-170). *)
Definition n_pixels (labels : list Z) : list nat := counts labels.

(** A superpixel: mean, sigma, number of pixels. *)
Definition row := (R * R * R)%type.
Definition r_mean (r : row) : R := fst (fst r).
Definition r_sigma (r : row) : R := snd (fst r).
Definition r_n (r : row) : R := snd r.
(** [get_combined_mean_std] (206-211). *)
Definition combined_mean (rs : list row) : R := rsum (map (fun r => r_mean r * r_n r) rs) / rsum (map r_n rs).
Definition combined_var (rs : list row) : R := rsum (map (fun r => (r_n r - 1) * r_sigma r ^ 2 + r_n r * (r_mean r - combined_mean rs) ^ 2) rs) / (rsum (map r_n rs) - 1).
Definition get_combined_mean_std (rs : list row) : R * R := (combined_mean rs, sqrt (combined_var rs)).
(** [SNRs < t] (197-198) as IEEE comparison: a vanishing sigma gives an infinity of the sign of the mean, or nan. *)
Definition snr_below (t : R) (r : row) : bool :=
  if Req_EM_T (r_sigma r) 0 then (if Rlt_dec (r_mean r) 0 then true else false) else (if Rlt_dec (r_mean r / r_sigma r) t then true else false).
(** [get_superpixel_SNRs] (172-184) and [mean_estimate] (190-204). Without all three arrays the superpixels of None are asked for, which raises;
    with [pixels] a list is indexed by an array, which raises. [order] is any reordering (argsort). *)
Definition get_superpixel_SNRs (means sigmas ns : option (list R)) (pixels : bool) (order : list row -> list row) : option (list row) :=
  match means, sigmas, ns with
  | Some m, Some s, Some n => if pixels then None else Some (order (combine (combine m s) n))
  | _, _, _ => None
  end.
Definition mean_estimate (means sigmas ns : option (list R)) (order : list row -> list row) (thres : R) : option (R * R) :=
  match get_superpixel_SNRs means sigmas ns false order with
  | None => None
  | Some rs =>
      let t := if Rle_dec thres 0 then thres else - thres in
      let sel := map (fun r => (Rabs (r_mean r), r_sigma r, r_n r)) (filter (snr_below t) rs) in
      match sel with [] => Some (0, 0) | _ => Some (get_combined_mean_std sel) end
  end.
(** [xfrac_mass_estimate] and [xfrac_volume_estimate] (213-217). *)
Definition xfrac_mass_estimate (dT z : R) : R := 1 - dT / 27 / sqrt ((1 + z) / 10).
Definition xfrac_volume_estimate (binary : list bool) : R := mean (map (fun v : bool => if v then 1 else 0) binary).

(** The threshold of [stitch_using_histogram] (73-105) for given counts and edges. [argrelextrema] with [np.greater]: strict local maxima, never at the ends. *)
Definition gt (l : list R) (i j : nat) : bool := if Rlt_dec (nth j l 0) (nth i l 0) then true else false.
Definition extrema (l : list R) : list nat := filter (fun i => (1 <=? i)%nat && (S i <? length l)%nat && gt l i (i - 1) && gt l i (S i)) (seq 0 (length l)).
Fixpoint argmax_from (l : list R) (best : R) (at_ pos : nat) : nat :=
  match l with [] => at_ | v :: r => if Rlt_dec best v then argmax_from r v pos (S pos) else argmax_from r best at_ (S pos) end.
(** None for an empty array (a ValueError). *)
Definition argmax (l : list R) : option nat := match l with [] => None | v :: r => Some (argmax_from r v 0 1) end.
Inductive answer := Threshold (t : R) | Otsu | Zeros | Error.
Definition histogram_threshold (h edges : list R) (all_equal : bool) : answer :=
  match argmax h with
  | None => Error
  | Some bla =>
      let peaks := if (bla =? 0)%nat then extrema (0 :: h) else extrema h in
      if (length peaks =? 1)%nat then
        let x1 := nth 0 edges 0 in let y1 := nth 0 h 0 in let y0 := nth bla h 0 in let x0 := nth bla edges 0 in
        let m0 := (y0 - y1) / (x0 - x1) in
        let d2 := map (fun i => Rabs ((nth i h 0 - y1) - m0 * (nth i edges 0 - x1))) (seq 0 bla) in
        match argmax d2 with None => Error | Some k => Threshold (nth k edges 0 / 2 + nth (k + 1) edges 0 / 2) end
      else if all_equal then Zeros else Otsu
  end.
