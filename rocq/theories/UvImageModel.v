(** Images seen through an incomplete uv coverage: [apply_uv_response_on_image] and
    [apply_uv_response_on_coeval] (radio_telescope_noise.py:528-552, 656-681), over exact reals.
    The FFTs are their defining sums ([FourierModel], [DftLib]). *)
From Coq Require Import List Arith Reals.
From Verif Require Import RLib FourierModel DftLib.
Import ListNotations.
Local Open Scope R_scope.

(** [img_arr[uv_map==0] = 0] *)
Definition masked (uv F : array) : array := fun j => if Req_EM_T (uv j) 0 then 0 else F j.
(** [np.real(ifft2(img_arr))]; None is the failed assertion on the shapes. *)
Definition response (s : list nat) (uv x : array) : array :=
  ifft_re s (masked uv (fft_re s x)) (masked uv (fft_im s x)).
Definition apply_uv_response_on_image (s s_uv : list nat) (x uv : array) : option array :=
  if list_eq_dec Nat.eq_dec s s_uv then Some (response s uv x) else None.
(** [apply_uv_response_on_coeval] with a given [uv_map]: slice k along the last axis of an
    [n] x [m] x [l] cube, for k < l. *)
Definition apply_uv_response_on_coeval (n m l : nat) (s_uv : list nat) (cube : nat -> nat -> nat -> R) (uv : array) : option (nat -> nat -> nat -> R) :=
  match l with
  | O => Some cube
  | _ => if list_eq_dec Nat.eq_dec [n; m] s_uv
         then Some (fun i j k => response [n; m] uv (fun a => cube (nth 0 a 0%nat) (nth 1 a 0%nat) k) [i; j])
         else None
  end.
