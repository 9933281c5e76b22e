(** Properties of Gauss-Legendre quadrature and of grids.gauss on top of it (C112). *)
From Verif Require Import Base M_utils M_sig M_sph0 M_sph S_sph S_grids S_parsa M_grids M_lgauss S_lgauss X_sph X_gl.
Open Scope R_scope.

(** ** C112 *)
Theorem C112_leggauss : forall ev n,
  is_eigvalsh (legcompanion (n + 1)) (ev (legcompanion (n + 1))) ->
  exists x g, leggauss ev (n + 1) = Ok (x, g) /\ legendre_roots (n + 1) x /\ gauss_weights (n + 1) x g /\ integrates_powers (2 * n + 1) x g /\
    (forall i, (i < n + 1)%nat -> 0 < nth i g 0) /\
    (forall i, (i < n + 1)%nat -> nth (n - i) x 0 = - nth i x 0 /\ nth (n - i) g 0 = nth i g 0).
Proof. exact f_leggauss. Qed.
Print Assumptions C112_leggauss.
Theorem C112_sharp : forall ev n x g,
  is_eigvalsh (legcompanion (n + 1)) (ev (legcompanion (n + 1))) -> leggauss ev (n + 1) = Ok (x, g) ->
  forall g', ~ integrates_powers (2 * n + 2) x g'.
Proof. exact f_sharp. Qed.
Print Assumptions C112_sharp.
Theorem C112_divisors : forall ev n,
  is_eigvalsh (legcompanion (n + 1)) (ev (legcompanion (n + 1))) ->
  let c := repeat 0 (n + 1) ++ [1] in forall y, In y (ev (legcompanion (n + 1))) ->
  legval c y = 0 /\ 0 < legval (legder c) y * legval (skipn 1 c) y.
Proof. exact f_divisors. Qed.
Print Assumptions C112_divisors.
Theorem C112_degree_zero : forall ev,
  leggauss ev 0 = Err ValueError.
Proof. exact f_degree_zero. Qed.
Print Assumptions C112_degree_zero.
Theorem C112_series : forall c x,
  legval c x = rsum (length c) (fun k => nth k c 0 * eval_legendre k x) /\ derivable_pt_lim (legval c) x (legval (legder c) x).
Proof. exact f_series. Qed.
Print Assumptions C112_series.
Theorem C112_contract_met : forall n,
  (exists w, is_eigvalsh (legcompanion n) w) /\ forall w w', is_eigvalsh (legcompanion n) w -> is_eigvalsh (legcompanion n) w' -> w = w'.
Proof. exact f_contract. Qed.
Print Assumptions C112_contract_met.
Theorem C112_grid : forall ev n,
  is_eigvalsh (legcompanion (n + 1)) (ev (legcompanion (n + 1))) ->
  exists azi zen w, gauss_np ev n = Ok (azi, zen, w) /\ length azi = ((n + 1) * (2 * n + 2))%nat /\ exact_for sh_real (2 * n + 1) azi zen w /\
    forall k, (k < length azi)%nat -> 0 < nth k w 0.
Proof. exact f_grid. Qed.
Print Assumptions C112_grid.
Theorem C112_legendre_determined : forall n P,
  is_legendre n P -> forall x, -1 <= x <= 1 -> P x = eval_legendre n x.
Proof. exact f_legendre. Qed.
Print Assumptions C112_legendre_determined.
Example C112_nonvacuous : exists ev, is_eigvalsh (legcompanion 2) (ev (legcompanion 2)) /\ leggauss ev 2 = Ok ([- (1 / sqrt 3); 1 / sqrt 3], [1; 1]).
Proof. exact ex_leggauss. Qed.
