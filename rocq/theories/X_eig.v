(** Final forms and examples of the properties of the spectral methods. *)
From Coq Require Import ClassicalEpsilon Classical.
From Verif Require Import Base BaseFacts M_utils M_sph0 M_sph M_parsa S_sph S_grids S_parsa S_eig P_parsa3 X_parsa P_eig1 P_eig2.
Open Scope R_scope.

Lemma f_eigh_exists : forall A, (exists w V, is_eigh A w V) <-> is_symmetric A.
Proof.
  intros A. split; [|apply spectral]. intros (w & V & SQ & _ & _ & _ & E). split; [exact SQ|]. intros i j Hi Hj. rewrite !E by assumption. apply rsum_ext. intros. ring.
Qed.
Lemma f_eigh_functions : (exists eigh, exact_eigh eigh) /\ exists ev, exact_eigvalsh ev.
Proof.
  split; [exact eigh_function|]. destruct eigh_function as (e & H). exists (fun A => fst (e A)). intros A S. destruct (e A) as [w V] eqn:E. exists V. exact (H A w V S E).
Qed.
Lemma f_spectral : forall A w V w' V' f i j, is_eigh A w V -> is_eigh A w' V' -> (i < nr A)%nat -> (j < nr A)%nat ->
  rsum (nr A) (fun k => ent V i k * f (nth k w 0) * ent V j k) = rsum (nr A) (fun k => ent V' i k * f (nth k w' 0) * ent V' j k).
Proof. intros A w V w' V' f i j H H' Hi Hj. exact (spectral_fun A w w' V V' H H' f i j Hi Hj). Qed.
Lemma f_separate_determined : forall eigh eigh' cov k, exact_eigh eigh -> exact_eigh eigh' -> is_symmetric cov ->
  same_parts (separate_cov eigh cov k) (separate_cov eigh' cov k).
Proof. exact separate_determined. Qed.
Lemma f_count_determined : forall eigh ev ev' cov a w v, exact_eigh eigh -> exact_eigvalsh ev -> exact_eigvalsh ev' -> is_symmetric cov -> eigh cov = (w, v) ->
  estimate_num_sources ev cov a None = estimate_num_sources ev' cov a None /\ estimate_num_sources ev cov a None = estimate_num_sources ev cov a (Some w).
Proof. intros eigh ev ev' cov a w v H H1 H2 S E. split; [apply count_determined; assumption|exact (count_same eigh ev cov a w v H H1 S E)]. Qed.
Lemma f_music_value : forall eigh cov num azi zen N w v, eigh cov = (w, v) -> is_eigh cov w v -> nr cov = ((N + 1) ^ 2)%nat -> length zen = length azi ->
  exists P, sh_music eigh cov (Z.of_nat num) azi zen = Ok P /\ length P = length azi /\
    forall g, (g < length azi)%nat -> nth g P 0 = 1 / (rsum (noise_count (nr cov) num) (fun k => field_value sh_real N (colv v (nr cov) k) (nth g azi 0) (nth g zen 0) ^ 2) + 1 / 100000000000).
Proof. exact music_value. Qed.
Lemma f_music_determined : forall cov num N w V, is_symmetric cov -> nr cov = ((N + 1) ^ 2)%nat -> is_eigh cov w V ->
  ((forall eigh eigh' azi zen, exact_eigh eigh -> exact_eigh eigh' -> length zen = length azi -> sh_music eigh cov (Z.of_nat num) azi zen = sh_music eigh' cov (Z.of_nat num) azi zen) <->
   separated_at w num).
Proof. exact music_determined. Qed.
Lemma meye_eigh n : is_eigh (meye n) (repeat 1 n) (meye n).
Proof.
  assert (D : forall i j, ent (meye n) i j = delta i j) by (intros; unfold meye, mdiag, delta; cbn [ent]; destruct (Nat.eqb i j); reflexivity).
  split; [reflexivity|]. split; [apply repeat_length|]. split; [intros i j H; rewrite repeat_length in H; rewrite !nth_repeat_in by lia; apply Rle_refl|]. change (nr (meye n)) with n. split.
  - split; [reflexivity|]. split; [reflexivity|]. split; intros a b Ha Hb.
    + rewrite (rsum_ext n _ (fun i => delta a i * delta i b)) by (intros; rewrite !D, (delta_sym a i); reflexivity). apply (rsum_delta_l n a (fun i => delta i b) Ha).
    + rewrite (rsum_ext n _ (fun i => delta a i * delta i b)) by (intros; rewrite !D, (delta_sym i b); reflexivity). apply (rsum_delta_l n a (fun i => delta i b) Ha).
  - intros i j Hi Hj. rewrite (rsum_ext n _ (fun k => delta i k * delta k j)) by (intros k Hk; rewrite nth_repeat_in by exact Hk; rewrite Rmult_1_r, (D i k), (D j k), (delta_sym k j); reflexivity). rewrite D. symmetry. apply (rsum_delta_l n i (fun k => delta k j) Hi).
Qed.
(** a diffuse sound field: which noise space sh_music finds is up to the solver *)
Lemma f_music_refuted : exists cov eigh eigh' azi zen, is_symmetric cov /\ nr cov = 4%nat /\ exact_eigh eigh /\ exact_eigh eigh' /\ length zen = length azi /\
  sh_music eigh cov 1 azi zen <> sh_music eigh' cov 1 azi zen.
Proof.
  exists (meye 4). assert (S : is_symmetric (meye 4)) by (apply f_eigh_exists; eexists; eexists; apply meye_eigh). apply NNPP. intros C.
  assert (D : separated_at (repeat 1 4) 1).
  { apply (f_music_determined (meye 4) 1 1 (repeat 1 4) (meye 4) S eq_refl (meye_eigh 4)). intros eigh eigh' azi zen X X' HL. apply NNPP. intros NE. apply C. exists eigh, eigh', azi, zen. split; [exact S|]. split; [reflexivity|]. auto. }
  unfold separated_at in D. cbn [repeat length nth Nat.sub] in D. destruct D as [D|[D|D]]; [discriminate|lia|lra].
Qed.
Lemma ex_separated : exists cov w V, is_symmetric cov /\ nr cov = 4%nat /\ is_eigh cov w V /\ separated_at w 1 /\ ~ separated_at w 2 /\ ~ separated_at w 3.
Proof.
  destruct ex_music as (Ys & H & _). exists src_cov, [1; 1; 1; 2], src_vec. split; [apply f_eigh_exists; eauto|]. split; [reflexivity|]. split; [exact H|].
  unfold separated_at. cbn [length nth Nat.sub]. split; [right; right; lra|]. split; intros [D|[D|D]]; try discriminate; try lia; lra.
Qed.
