(** Least-squares transforms of noisy samples (C130). *)
From Verif Require Import Base M_utils M_sig M_sph0 M_sph S_utils S_sph S_grids S_svd S_order S_noise X_sph X_noise X_noise2.
Open Scope R_scope.

(** ** C130 *)
Theorem C130_noise : forall lstsq N azi zen w b F f E g,
  lstsq_contract lstsq -> exact_for sh_real (2 * N) azi zen w -> (forall x, In x w -> 0 < x <= b) -> nr F = ((N + 1) ^ 2)%nat ->
  inverse_sht F azi zen None None = Ok f -> sum_of f E g ->
  exists X, sht_lstsq lstsq g N azi zen None = Ok X /\ nr X = nr F /\ nc X = nc F /\
    forall j, (j < nc F)%nat -> rsum (nr F) (fun i => (ent X i j - ent F i j) ^ 2) <= b * col_energy E j.
Proof. exact f_noise. Qed.
Print Assumptions C130_noise.
Theorem C130_size : forall lstsq N azi zen w b g,
  lstsq_contract lstsq -> exact_for sh_real (2 * N) azi zen w -> (forall x, In x w -> 0 < x <= b) -> nr g = length azi ->
  exists X, sht_lstsq lstsq g N azi zen None = Ok X /\ nr X = ((N + 1) ^ 2)%nat /\ nc X = nc g /\ forall j, (j < nc g)%nat -> col_energy X j <= b * col_energy g j.
Proof. exact f_noise_size. Qed.
Print Assumptions C130_size.
Theorem C130_designs : forall lstsq N azi zen g,
  lstsq_contract lstsq -> exact_for sh_real (2 * N) azi zen (equal_weights (length azi)) -> nr g = length azi ->
  exists X X', sht_lstsq lstsq g N azi zen None = Ok X /\ sht g N azi zen None None = Ok X' /\ meq X X'.
Proof. exact f_noise_designs. Qed.
Print Assumptions C130_designs.
Theorem C130_distance : forall N azi zen w g,
  exact_for sh_real (2 * N) azi zen w -> nr g = length azi ->
  exists X, sht g N azi zen (Some w) None = Ok X /\ nr X = ((N + 1) ^ 2)%nat /\ nc X = nc g /\
  forall F f j, nr F = ((N + 1) ^ 2)%nat -> nc F = nc g -> (j < nc g)%nat -> inverse_sht F azi zen None None = Ok f ->
    rsum (length azi) (fun q => nth q w 0 * (ent g q j - ent f q j) ^ 2) =
    rsum (length azi) (fun q => nth q w 0 * ent g q j ^ 2) - col_energy X j + rsum ((N + 1) ^ 2) (fun i => (ent X i j - ent F i j) ^ 2).
Proof. exact f_noise_distance. Qed.
Print Assumptions C130_distance.
Theorem C130_best : forall N azi zen w g X,
  exact_for sh_real (2 * N) azi zen w -> (forall x, In x w -> 0 <= x) -> nr g = length azi -> sht g N azi zen (Some w) None = Ok X ->
  (forall j, (j < nc g)%nat -> col_energy X j <= rsum (length azi) (fun q => nth q w 0 * ent g q j ^ 2)) /\
  (forall F f h j, nr F = ((N + 1) ^ 2)%nat -> nc F = nc g -> (j < nc g)%nat -> inverse_sht F azi zen None None = Ok f -> inverse_sht X azi zen None None = Ok h ->
    rsum (length azi) (fun q => nth q w 0 * (ent g q j - ent h q j) ^ 2) <= rsum (length azi) (fun q => nth q w 0 * (ent g q j - ent f q j) ^ 2)).
Proof. exact f_noise_best. Qed.
Print Assumptions C130_best.
Example C130_nonvacuous : (exists lstsq, lstsq_contract lstsq) /\ exact_for sh_real (2 * 1) octa_azi octa_zen (equal_weights (length octa_azi)) /\ (forall x, In x (equal_weights (length octa_azi)) -> 0 < x <= 4 * PI / 6) /\
  exists F f E g, nr F = ((1 + 1) ^ 2)%nat /\ nc F = 1%nat /\ inverse_sht F octa_azi octa_zen None None = Ok f /\ sum_of f E g /\ col_energy E 0 = 1.
Proof. exact ex_noise. Qed.
