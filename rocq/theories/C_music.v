(** How many directions sh_music and sh_lcmv can tell apart (C116). *)
From Verif Require Import Base M_utils M_sph0 M_sph M_parsa S_linalg S_sph S_grids S_parsa S_eig S_music P_music P_music2 X_music.
Open Scope R_scope.

(** ** C116 *)
Theorem C116_independent : forall N azi zen Y, length zen = length azi -> zeniths zen -> distinct azi zen -> (length azi <= 2 * N + 1)%nat -> sh_matrix N azi zen = Ok Y ->
  independent (length azi) ((N + 1) ^ 2) (ent Y).
Proof. exact f_independent. Qed.
Print Assumptions C116_independent.
Theorem C116_circle_dependent : forall N azi zen Y ze, length zen = length azi -> (forall g, (g < length azi)%nat -> nth g zen 0 = ze) -> (2 * N + 1 < length azi)%nat -> sh_matrix N azi zen = Ok Y ->
  ~ independent (length azi) ((N + 1) ^ 2) (ent Y).
Proof. exact f_circle_dependent. Qed.
Print Assumptions C116_circle_dependent.
Theorem C116_spectrum : forall N sa sz p sg cov w V, sources_in_noise sh_real N sa sz p sg cov -> is_eigh cov w V -> (length sa <= 2 * N + 1)%nat ->
  length w = ((N + 1) ^ 2)%nat /\ (forall k, (k < length w - length sa)%nat -> nth k w 0 = sg) /\ (forall k, (length w - length sa <= k < length w)%nat -> sg < nth k w 0).
Proof. exact f_spectrum. Qed.
Print Assumptions C116_spectrum.
Theorem C116_separate_sources : forall eigh N sa sz p sg cov, exact_eigh eigh -> sources_in_noise sh_real N sa sz p sg cov -> (1 <= length sa < (N + 1) ^ 2)%nat ->
  exists P Q, separate_cov eigh cov (Some (Z.of_nat (length sa))) = Ok (P, Q) /\ nr P = nr cov /\ nc P = nr cov /\ nr Q = nr cov /\ nc Q = nr cov /\
    forall n m n' m', (n <= N)%nat -> degree n m -> (n' <= N)%nat -> degree n' m' ->
      ent P (acn n m) (acn n' m') = rsum (length sa) (fun s => nth s p 0 * (sh_real n m (nth s sa 0) (nth s sz 0) * sh_real n' m' (nth s sa 0) (nth s sz 0))) /\
      ent Q (acn n m) (acn n' m') = sg * delta (acn n m) (acn n' m').
Proof. exact f_separate_sources. Qed.
Print Assumptions C116_separate_sources.
Theorem C116_music_exact : forall eigh cov azi zen N (sa sz p : list R) sg, exact_eigh eigh -> sources_in_noise sh_real N sa sz p sg cov -> (1 <= length sa <= 2 * N)%nat ->
  length zen = length azi -> zeniths zen ->
  exists P, sh_music eigh cov (Z.of_nat (length sa)) azi zen = Ok P /\ length P = length azi /\
    forall g, (g < length azi)%nat -> (nth g P 0 = 100000000000 <-> exists s, (s < length sa)%nat /\ dirv azi zen g = dirv sa sz s).
Proof. exact f_music_exact. Qed.
Print Assumptions C116_music_exact.
Theorem C116_music_ghosts : forall eigh cov azi zen N (sa sz p : list R) sg ze, exact_eigh eigh -> sources_in_noise sh_real N sa sz p sg cov -> length sa = (2 * N + 1)%nat ->
  (forall s, (s < length sa)%nat -> nth s sz 0 = ze) -> length zen = length azi ->
  exists P, sh_music eigh cov (Z.of_nat (length sa)) azi zen = Ok P /\ length P = length azi /\
    forall g, (g < length azi)%nat -> nth g zen 0 = ze -> nth g P 0 = 100000000000.
Proof. exact f_music_ghosts. Qed.
Print Assumptions C116_music_ghosts.
Theorem C116_music_exact_refuted : exists eigh cov N sa sz p sg azi zen P g, exact_eigh eigh /\ sources_in_noise sh_real N sa sz p sg cov /\ length sa = (2 * N + 1)%nat /\
  length zen = length azi /\ zeniths zen /\ sh_music eigh cov (Z.of_nat (length sa)) azi zen = Ok P /\ (g < length azi)%nat /\
  nth g P 0 = 100000000000 /\ ~ exists s, (s < length sa)%nat /\ dirv azi zen g = dirv sa sz s.
Proof. exact f_music_refuted2. Qed.
Print Assumptions C116_music_exact_refuted.
Theorem C116_lcmv_iff : forall inv cov azi zen c N Y,
  inv_contract inv -> is_symmetric cov -> pos_def cov -> nr cov = ((N + 1) ^ 2)%nat -> length zen = length azi -> length c = length azi -> sh_matrix N azi zen = Ok Y ->
  ((exists w, sh_lcmv inv cov azi zen c = Ok w) <-> independent (length azi) (nr cov) (ent Y)).
Proof. exact lcmv_iff. Qed.
Print Assumptions C116_lcmv_iff.
Theorem C116_lcmv_distinct : forall inv cov azi zen c N,
  inv_contract inv -> is_symmetric cov -> pos_def cov -> nr cov = ((N + 1) ^ 2)%nat -> length zen = length azi -> length c = length azi ->
  zeniths zen -> distinct azi zen -> (length azi <= 2 * N + 1)%nat -> exists w, sh_lcmv inv cov azi zen c = Ok w.
Proof. exact lcmv_distinct. Qed.
Print Assumptions C116_lcmv_distinct.
Theorem C116_lcmv_circle : forall inv cov azi zen c N ze,
  inv_contract inv -> nr cov = ((N + 1) ^ 2)%nat -> length zen = length azi ->
  (forall g, (g < length azi)%nat -> nth g zen 0 = ze) -> (2 * N + 1 < length azi)%nat -> exists e, sh_lcmv inv cov azi zen c = Err e.
Proof. exact lcmv_circle. Qed.
Print Assumptions C116_lcmv_circle.
Example C116_nonvacuous : exists cov, sources_in_noise sh_real 1 [0; PI / 2] (repeat (PI / 2) 2) [1; 2] 1 cov.
Proof. exact ex_two_sources. Qed.
Example C116_nonvacuous_circle : exists cov, sources_in_noise sh_real 1 [0; PI / 2; PI] (repeat (PI / 2) 3) [1; 1; 1] 1 cov.
Proof. exact ex_three_sources. Qed.
Example C116_nonvacuous_lcmv : distinct [0; PI / 2; PI] [PI / 2; PI / 2; PI / 2].
Proof. exact distinct3. Qed.
