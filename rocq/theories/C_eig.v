(** The spectrum of sh_music (C43); existence of eigenvalue decompositions and what the
    spectral methods of parsa.py owe to the choice of eigenvectors (C115). *)
From Verif Require Import Base M_utils M_sph0 M_sph M_parsa S_sph S_grids S_parsa S_eig X_parsa P_eig1 P_eig2 X_eig.
Open Scope R_scope.

(** ** C43 *)
Theorem C43_value : forall eigh cov num azi zen N w v, eigh cov = (w, v) -> is_eigh cov w v -> nr cov = ((N + 1) ^ 2)%nat -> length zen = length azi ->
  exists P, sh_music eigh cov (Z.of_nat num) azi zen = Ok P /\ length P = length azi /\
    forall g, (g < length azi)%nat -> nth g P 0 = 1 / (rsum (noise_count (nr cov) num) (fun k => field_value sh_real N (colv v (nr cov) k) (nth g azi 0) (nth g zen 0) ^ 2) + 1 / 100000000000).
Proof. exact f_music_value. Qed.
Print Assumptions C43_value.
(** ** C115 *)
Theorem C115_eigh_exists : forall A, (exists w V, is_eigh A w V) <-> is_symmetric A.
Proof. exact f_eigh_exists. Qed.
Print Assumptions C115_eigh_exists.
Theorem C115_eigenvalues_unique : forall A w V w' V', is_eigh A w V -> is_eigh A w' V' -> w = w'.
Proof. exact eigenvalues_unique. Qed.
Print Assumptions C115_eigenvalues_unique.
Theorem C115_spectral_functions : forall A w V w' V' f i j, is_eigh A w V -> is_eigh A w' V' -> (i < nr A)%nat -> (j < nr A)%nat ->
  rsum (nr A) (fun k => ent V i k * f (nth k w 0) * ent V j k) = rsum (nr A) (fun k => ent V' i k * f (nth k w' 0) * ent V' j k).
Proof. exact f_spectral. Qed.
Print Assumptions C115_spectral_functions.
Theorem C115_separate_determined : forall eigh eigh' cov k, exact_eigh eigh -> exact_eigh eigh' -> is_symmetric cov ->
  same_parts (separate_cov eigh cov k) (separate_cov eigh' cov k).
Proof. exact f_separate_determined. Qed.
Print Assumptions C115_separate_determined.
Theorem C115_count_determined : forall eigh ev ev' cov a w v, exact_eigh eigh -> exact_eigvalsh ev -> exact_eigvalsh ev' -> is_symmetric cov -> eigh cov = (w, v) ->
  estimate_num_sources ev cov a None = estimate_num_sources ev' cov a None /\ estimate_num_sources ev cov a None = estimate_num_sources ev cov a (Some w).
Proof. exact f_count_determined. Qed.
Print Assumptions C115_count_determined.
Theorem C115_music_determined : forall cov num N w V, is_symmetric cov -> nr cov = ((N + 1) ^ 2)%nat -> is_eigh cov w V ->
  ((forall eigh eigh' azi zen, exact_eigh eigh -> exact_eigh eigh' -> length zen = length azi -> sh_music eigh cov (Z.of_nat num) azi zen = sh_music eigh' cov (Z.of_nat num) azi zen) <->
   separated_at w num).
Proof. exact f_music_determined. Qed.
Print Assumptions C115_music_determined.
Theorem C115_music_determined_refuted : exists cov eigh eigh' azi zen, is_symmetric cov /\ nr cov = 4%nat /\ exact_eigh eigh /\ exact_eigh eigh' /\ length zen = length azi /\
  sh_music eigh cov 1 azi zen <> sh_music eigh' cov 1 azi zen.
Proof. exact f_music_refuted. Qed.
Print Assumptions C115_music_determined_refuted.
Example C115_nonvacuous : exists cov w V, is_symmetric cov /\ nr cov = 4%nat /\ is_eigh cov w V /\ separated_at w 1 /\ ~ separated_at w 2 /\ ~ separated_at w 3.
Proof. exact ex_separated. Qed.
Example C115_nonvacuous_solver : (exists eigh, exact_eigh eigh) /\ exists ev, exact_eigvalsh ev.
Proof. exact f_eigh_functions. Qed.
