(** Model of the message that sph.check_cond_sht prints. *)
From Verif Require Import Base M_utils M_sig M_sph0 M_sph M_grids.
Open Scope R_scope.

(** sph.py:431-432 the limit if none is given: N_sph + N_sph / 2 *)
Definition cond_limit (N : nat) (lim : option R) : R := match lim with Some l => l | None => INR N + INR N / 2 end.
(** sph.py:429-439 check_cond_sht with sh_type='real', [lim] a number (grids.py:48
    passes infinity, and nothing is printed).  The result, and whether "High condition number!" is
    printed (lines 437-438). *)
Definition check_cond_says (cond : mat -> R) (N : nat) (azi zen : list R) (lim : option R) : res (R * bool) :=
  let* c := check_cond_sht cond N azi zen in
  Ok (c, Rltb (cond_limit N lim) c).
(** sph.py:429-439 with sh_type='complex'; line 435 takes the conjugate *)
Definition check_cond_says_c (ccond : cmat -> R) (N : nat) (azi zen : list R) (lim : option R) : res (R * bool) :=
  let* Y := sh_matrix_c N azi zen in
  let* YY := cmatmul (cadj Y) Y in
  Ok (ccond YY, Rltb (cond_limit N lim) (ccond YY)).
