(** Condition numbers of the transform: check_cond_sht (C129). *)
From Verif Require Import Base M_utils M_sig M_sph0 M_sph M_grids M_cond S_utils S_sph S_grids S_svd S_order S_sph3 S_cond X_cond X_cond2.
Open Scope R_scope.

(** ** C129 *)
Theorem C129_message : forall cond N azi zen lim l,
  cond_contract cond -> length zen = length azi -> limit_is N lim l -> l <= 200 ->
  exists Y c printed, sh_matrix N azi zen = Ok Y /\ check_cond_says cond N azi zen lim = Ok (c, printed) /\
    (printed = false <-> regular (gram Y) /\ amplifies_within (gram Y) l).
Proof. exact f_cond_message. Qed.
Print Assumptions C129_message.
Theorem C129_grids : forall cond N azi zen w a b lim,
  cond_contract cond -> exact_for sh_real (2 * N) azi zen w -> 0 < a -> (forall x, In x w -> a <= x <= b) ->
  exists c printed, check_cond_says cond N azi zen lim = Ok (c, printed) /\ 1 <= c <= b / a.
Proof. exact f_cond_grid. Qed.
Print Assumptions C129_grids.
Theorem C129_designs : forall cond N azi zen lim l,
  cond_contract cond -> exact_for sh_real (2 * N) azi zen (equal_weights (length azi)) -> limit_is N lim l ->
  exists printed, check_cond_says cond N azi zen lim = Ok (1, printed) /\ (printed = true <-> l < 1).
Proof. exact f_cond_design. Qed.
Print Assumptions C129_designs.
Theorem C129_silent : forall cond N azi zen,
  cond_contract cond -> (1 <= N)%nat -> exact_for sh_real (2 * N) azi zen (equal_weights (length azi)) -> check_cond_says cond N azi zen None = Ok (1, false).
Proof. exact f_cond_silent. Qed.
Print Assumptions C129_silent.
Theorem C129_order_zero : forall cond azi zen,
  cond_contract cond -> length zen = length azi -> zeniths zen -> (0 < length azi)%nat -> check_cond_says cond 0 azi zen None = Ok (1, true).
Proof. exact f_cond_zero_refuted. Qed.
Print Assumptions C129_order_zero.
Theorem C129_few_points : forall cond N azi zen lim l,
  cond_contract cond -> length zen = length azi -> (length azi < (N + 1) ^ 2)%nat -> limit_is N lim l -> l <= 200 ->
  exists c, check_cond_says cond N azi zen lim = Ok (c, true) /\ 200 < c.
Proof. exact f_cond_few. Qed.
Print Assumptions C129_few_points.
Theorem C129_complex : forall ccond N azi zen lim l,
  ccond_contract ccond -> exact_for sh_real (2 * N) azi zen (equal_weights (length azi)) -> limit_is N lim l ->
  exists printed, check_cond_says_c ccond N azi zen lim = Ok (1, printed) /\ (printed = true <-> l < 1).
Proof. exact f_cond_complex. Qed.
Print Assumptions C129_complex.
Theorem C129_same : forall cond ccond N azi zen lim l,
  cond_contract cond -> ccond_contract ccond -> length zen = length azi -> limit_is N lim l ->
  exists c c' printed printed', check_cond_says cond N azi zen lim = Ok (c, printed) /\ check_cond_says_c ccond N azi zen lim = Ok (c', printed') /\
    (c = c' \/ 200 < c /\ 200 < c') /\ (l <= 200 -> printed = printed').
Proof. exact f_cond_same. Qed.
Print Assumptions C129_same.
Theorem C129_contract : exists ccond, ccond_contract ccond.
Proof. exact ccond_exists. Qed.
Print Assumptions C129_contract.
Example C129_nonvacuous : exists cond ccond azi zen, cond_contract cond /\ ccond_contract ccond /\ exact_for sh_real (2 * 1) azi zen (equal_weights (length azi)) /\ length azi = 6%nat /\ zeniths zen /\ (length azi < (2 + 1) ^ 2)%nat /\ limit_is 2 None 3.
Proof. exact ex_cond. Qed.
