(** [make_gaussian_random_field] (gaussian_random_field.py:13-64), over exact reals. The draws are an
    argument; the FFT is its defining sum. *)
From Coq Require Import List Arith Reals.
From Verif Require Import RLib KGridModel FourierModel DftLib.
Import ListNotations.
Local Open Scope R_scope.

(** |k| of a cell: [_get_k] in two and three dimensions (power_spectrum.py:461-477). *)
Definition grid_k (s : list nat) (box : list R) (i : list nat) : R :=
  match s, box, i with
  | [n1; n2], [L1; L2], [x; y] => sqrt (get_k_1d n1 L1 x ^ 2 + get_k_1d n2 L2 y ^ 2)
  | [n1; n2; n3], [L1; L2; L3], [x; y; z] => get_kmag_3d n1 n2 n3 L1 L2 L3 x y z
  | _, _, _ => 0
  end.
(** [k[k==0] = np.abs(k)[k!=0].min()/10] (line 47) *)
Definition is_zero (x : R) : bool := if Req_EM_T x 0 then true else false.
Definition least (l : list R) : R := match l with [] => 0 | x :: r => fold_right Rmin x r end.
Definition k_used (s : list nat) (box : list R) (i : list nat) : R :=
  let k := grid_k s box i in
  if is_zero k then least (filter (fun x => negb (is_zero x)) (map (grid_k s box) (indices s))) / 10 else k.
(** lines 30-64; [None] is a failed assertion. [g]: the normal variates of the real and the imaginary part,
    by cell. [fftshift] puts cell [shift_sources s j] into FFT position [j]. *)
Definition make_gaussian_random_field (s : list nat) (box : list R) (ps : R -> R) (g : array * array) : option array :=
  if ((Nat.eqb (length s) 2 || Nat.eqb (length s) 3) && Nat.eqb (length box) (length s))%bool then
    let amp := fun i => sqrt (ps (k_used s box i) / ps_scale s box) in
    let map_ft := (fun i => fst g i * amp i, fun i => snd g i * amp i) in
    Some (ifft_re s (fun j => fst map_ft (shift_sources s j)) (fun j => snd map_ft (shift_sources s j)))
  else None.
