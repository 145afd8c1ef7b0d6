(** Segmentation metrics and loss: segmentation.py:22-92. Exact reals; a cell is the pair of its true and predicted value, [eps] is Keras' epsilon. *)
From Coq Require Import List Reals.
From Verif Require Import RLib.
Import ListNotations.
Local Open Scope R_scope.

Definition sum (f : R * R -> R) (l : list (R * R)) : R := rsum (map f l).
(** [iou] (53-59). *)
Definition intersection (l : list (R * R)) : R := sum (fun c => Rabs (fst c * snd c)) l.
Definition iou (l : list (R * R)) : R :=
  let u := sum fst l + sum snd l - intersection l in if Req_EM_T u 0 then 1 else intersection l / u.
(** [dice_coef] (61-66), along one row of the last axis. *)
Definition dice_coef (smooth : R) (l : list (R * R)) : R :=
  (2 * intersection l + smooth) / (sum (fun c => fst c ^ 2) l + sum (fun c => snd c ^ 2) l + smooth).
(** [precision] and [recall] (68-84). *)
Definition clip (lo hi v : R) : R := Rmin (Rmax v lo) hi.
Definition clipped (eps : R) (l : list (R * R)) : list (R * R) := map (fun c => (clip eps (1 - eps) (fst c), clip eps (1 - eps) (snd c))) l.
Definition precision (eps : R) (l : list (R * R)) : R :=
  let l := clipped eps l in let TP := sum (fun c => snd c * fst c) l in let FP := sum (fun c => snd c * (1 - fst c)) l in TP / (TP + FP + eps).
Definition recall (eps : R) (l : list (R * R)) : R :=
  let l := clipped eps l in let TP := sum (fun c => snd c * fst c) l in let FN := sum (fun c => (1 - snd c) * fst c) l in TP / (TP + FN + eps).
(** [r2score] (86-92). *)
Definition mean (f : R * R -> R) (l : list (R * R)) : R := sum f l / INR (length l).
Definition r2score (eps : R) (l : list (R * R)) : R :=
  1 - sum (fun c => (fst c - snd c) ^ 2) l / (sum (fun c => (fst c - mean fst l) ^ 2) l + eps).
(** [sigmoid_balanced_cross_entropy_with_logits] (36-42) for one label and logit. *)
Definition sigmoid_balanced (beta label logit : R) : R :=
  let relu := if Rle_dec 0 logit then logit else 0 in let neg_abs := if Rle_dec 0 logit then - logit else logit in
  relu * (1 - beta) - logit * label * (1 - beta) + ln (1 + exp neg_abs) * ((1 - beta) * (1 - label) + beta * label).
(** [balanced_cross_entropy] (44-51). *)
Definition beta_of (eps : R) (l : list (R * R)) : R := Rmax (mean (fun c => 1 - fst c) l) eps.
Definition logit (eps p : R) : R := let p := clip eps (1 - eps) p in ln (p / (1 - p)).
Definition balanced_cross_entropy (eps : R) (l : list (R * R)) : R := mean (fun c => sigmoid_balanced (beta_of eps l) (fst c) (logit eps (snd c))) l.
