(** Model of the whole of [get_lightcone_subvolume] (lightcone.py:358-428). The index range is
    [subvolume_range] of LcModel.v. Redshifts, frequencies and distances are rationals; the
    distance functions of cosmo.py are parameters. *)
From Coq Require Import List Arith ZArith QArith Bool.
From Verif Require Import LcModel.
Import ListNotations.
Local Open Scope Q_scope.

(** cosmo.py:242-252 and 255-265. *)
Definition z_to_nu (nu0 z : Q) : Q := nu0 / (1 + z).
Definition nu_to_z (nu0 nu : Q) : Q := nu0 / nu - 1.

(** A slice is the list of its cells. [subtract_mean_signal(subbox, los_axis=2)]
    (statistics.py:75-85) subtracts from each slice its own mean. *)
Definition qsum (l : list Q) : Q := fold_right Qplus 0 l.
Definition slice_mean (l : list Q) : Q := qsum l / inject_Z (Z.of_nat (length l)).
Definition center_slice (l : list Q) : list Q := map (fun x => x - slice_mean l) l.

(** [a[low:high]] along the last axis; Python cuts at the ends of the array. *)
Definition cut {A} (low high : nat) (l : list A) : list A := firstn (high - low) (skipn low l).

Record answer := Answer { subbox : list (list Q); box_dims : Q * Q * Q; sub_redshifts : list Q }.

(** Lines 384-400. The assertion of line 384 counts the dimensions of the list, not its
    non-empty entries, so it always holds; [None] is the TypeError of [None/2.].
    Result: the two end redshifts and the two end distances. *)
Definition ends (nu0 : Q) (z_to_cdist cdist_to_z : Q -> Q) (central_z : Q) (depth_mhz depth_mpc : option Q) : option (Q * Q * Q * Q) :=
  let central_nu := z_to_nu nu0 central_z in
  match depth_mpc, depth_mhz with
  | Some d, _ =>
      let central_dist := z_to_cdist (nu_to_z nu0 central_nu) in
      let min_cdist := central_dist - d / 2 in
      let max_cdist := central_dist + d / 2 in
      Some (cdist_to_z min_cdist, cdist_to_z max_cdist, min_cdist, max_cdist)
  | None, Some d =>
      let min_freq := central_nu - d / 2 in
      let max_freq := central_nu + d / 2 in
      Some (nu_to_z nu0 max_freq, nu_to_z nu0 min_freq,
            z_to_cdist (nu_to_z nu0 max_freq), z_to_cdist (nu_to_z nu0 min_freq))
  | None, None => None
  end.

(** Lines 402-428. [LB] is [conv.LB]. *)
Definition get_lightcone_subvolume (nu0 LB : Q) (z_to_cdist cdist_to_z : Q -> Q) (lightcone : list (list Q)) (redshifts : list Q)
    (central_z : Q) (depth_mhz depth_mpc : option Q) (odd_num_cells subtract_mean : bool) (fov : option Q) (verbose : bool) : option answer :=
  match ends nu0 z_to_cdist cdist_to_z central_z depth_mhz depth_mpc with
  | None => None
  | Some (low_z, high_z, min_cdist, max_cdist) =>
      match subvolume_range redshifts low_z high_z odd_num_cells verbose with
      | None => None
      | Some (a, b) =>
          let s := cut a b lightcone in
          let side := match fov with Some f => f | None => LB end in
          Some (Answer (if subtract_mean then map center_slice s else s) (side, side, max_cdist - min_cdist) (cut a b redshifts))
      end
  end.
