(** Model of [fftconvolve] (fft_functions.py:34-175), in any number of dimensions, for real
    arrays. FFTs are their defining sums; NumPy and JAX back ends compute the same thing. *)
From Coq Require Import List Arith ZArith Reals Bool.
From Verif Require Import RLib FourierModel.
Import ListNotations.
Local Open Scope R_scope.

Fixpoint map2 (f : nat -> nat -> nat) (a b : list nat) : list nat :=
  match a, b with x :: a', y :: b' => f x y :: map2 f a' b' | _, _ => [] end.
Fixpoint zmap2 (f : Z -> nat -> nat) (p : list Z) (s : list nat) : list nat :=
  match p, s with x :: p', n :: s' => f x n :: zmap2 f p' s' | _, _ => [] end.

(** Reading outside the array gives zero, as with [rfftn(x, s=fsize)]. *)
Fixpoint inside (shape i : list nat) : bool :=
  match shape, i with
  | [], [] => true
  | n :: sh, k :: i' => Nat.ltb k n && inside sh i'
  | _, _ => false
  end.
Definition zero_pad (shape : list nat) (x : array) : array := fun i => if inside shape i then x i else 0.

(** [irfftn(rfftn(x, s) * rfftn(y, s), s)]: the inverse transform of the product of the
    transforms; real for real arrays. *)
Definition product_re (s : list nat) (x y : array) (j : list nat) : R :=
  fft_re s x j * fft_re s y j - fft_im s x j * fft_im s y j.
Definition product_im (s : list nat) (x y : array) (j : list nat) : R :=
  fft_re s x j * fft_im s y j + fft_im s x j * fft_re s y j.
Definition ifft_of_product (s : list nat) (x y : array) (i : list nat) : R :=
  rsum (map (fun j => product_re s x y j * cos (2 * PI * phase s j i) - product_im s x y j * sin (2 * PI * phase s j i)) (indices s))
  / ncells s.

(** [np.roll(ret, shift)]: cell i comes from cell i - shift, periodically. *)
Definition roll (s : list nat) (shift : list Z) (x : array) : array :=
  fun i => x (zmap2 (fun p n => Z.to_nat (p mod Z.of_nat n)) (map (fun q => (Z.of_nat (fst q) - snd q)%Z) (combine i shift)) s).
(** [ret[start:start+size]] *)
Definition crop (start : list nat) (x : array) : array := fun i => x (map2 Nat.add i start).

Inductive boundary := Circular | Constant | Reflect | Nearest | Mirror | Wrap.
Inductive mode := Same | Full | Valid.

(** The cell that [np.pad] reads for coordinate [k] along an axis of size [n] (lines 139-141). *)
Definition pad_source (b : boundary) (k : Z) (n : nat) : nat :=
  let m := Z.of_nat n in
  match b with
  | Wrap => Z.to_nat (k mod m)
  | Nearest => Z.to_nat (Z.max 0 (Z.min (m - 1) k))
  | Reflect => let r := (k mod (2 * (m - 1)))%Z in Z.to_nat (if (r <? m)%Z then r else (2 * (m - 1) - r)%Z)
  | Mirror => let r := (k mod (2 * m))%Z in Z.to_nat (if (r <? m)%Z then r else (2 * m - 1 - r)%Z)
  | _ => Z.to_nat k
  end.
(** [np.pad(in1, (before, after), mode)] *)
Definition pad (b : boundary) (s1 before : list nat) (x : array) : array :=
  fun i => x (zmap2 (pad_source b) (map (fun q => (Z.of_nat (fst q) - Z.of_nat (snd q))%Z) (combine i before)) s1).

Definition any_smaller (a b : list nat) : bool := existsb (fun q => Nat.ltb (fst q) (snd q)) (combine a b).
(** The whole function: output shape and array, [None] for the ValueError of line 62. The
    boundary is ignored for [mode='valid'] and the mode for [boundary='circular']. *)
Definition fftconvolve (s1 s2 : list nat) (x y : array) (m : mode) (b : boundary) : option (list nat * array) :=
  let b := match m with Valid => Constant | _ => b end in
  if match m with Valid => any_smaller s1 s2 | _ => false end then None else
  match b with
  | Circular =>
      let f := map2 Nat.max s1 s2 in
      Some (f, roll f (map (fun n => (- Z.of_nat n / 2)%Z) s2) (ifft_of_product f (zero_pad s1 x) (zero_pad s2 y)))
  | Constant =>
      let f := map2 (fun a b => (a + b - 1)%nat) s1 s2 in
      let ret := ifft_of_product f (zero_pad s1 x) (zero_pad s2 y) in
      let start := match m with Full => map (fun _ => 0%nat) s1 | Same => map (fun n => (n / 2)%nat) s2 | Valid => map (fun n => (n - 1)%nat) s2 end in
      let size := match m with Full => map2 (fun a b => (a + b - 1)%nat) s1 s2 | Same => s1 | Valid => map2 (fun a b => (a - b + 1)%nat) s1 s2 end in
      Some (size, crop start ret)
  | _ =>
      let before := match m with Full => map (fun n => (n - 1)%nat) s2 | _ => map (fun n => (n / 2)%nat) s2 end in
      let after := match m with Full => map (fun n => (n - 1)%nat) s2 | _ => map (fun n => (n - 1 - n / 2)%nat) s2 end in
      let sp := map2 Nat.add (map2 Nat.add s1 before) after in
      let f := map2 (fun a b => (a + b - 1)%nat) sp s2 in
      let ret := ifft_of_product f (zero_pad sp (pad b s1 before x)) (zero_pad s2 y) in
      let size := match m with Full => map2 (fun a b => (a + b - 1)%nat) s1 s2 | _ => s1 end in
      Some (size, crop (map (fun n => (n - 1)%nat) s2) ret)
  end.
