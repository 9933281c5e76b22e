(** Model of /repo/spaudiopy/io.py, part 2: SOFA sets in the spherical harmonic domain.
    np.linalg.pinv is a parameter. *)
From Verif Require Import Base M_utils M_sig M_process M_sph M_io.
Open Scope R_scope.

(** the rows of an array with two axes as a matrix *)
Definition ear_mat (rows : list (list R)) (taps : nat) : mat :=
  Mat (length rows) taps (fun g i => nth i (nth g rows []) 0).
(** io.py:330-355 sofa_to_sh with sh_type='real': the left and right matrix of the
    stacked result and the sampling rate *)
Definition sofa_to_sh (pinv : mat -> mat) (s : sofa) (N_sph : nat) : res (mat * mat * Z) :=
  let* h := load_sofa_hrirs s in
  let* Y := sh_matrix N_sph (h_azi h) (h_zen h) in
  let Y_pinv := pinv Y in
  let* l := matmul Y_pinv (ear_mat (h_left h) (h_taps h)) in
  let* r := matmul Y_pinv (ear_mat (h_right h) (h_taps h)) in
  Ok (l, r, h_fs h).
