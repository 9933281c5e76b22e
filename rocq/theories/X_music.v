(** Final forms and examples of the properties of MUSIC and LCMV with several directions. *)
From Verif Require Import Base BaseFacts M_utils M_sph0 M_sph M_parsa S_linalg S_sph S_grids S_parsa S_eig S_music P_sph7 P_sph9 P_parsa3 P_parsa4 P_eig1 P_eig2 P_music P_music2.
Open Scope R_scope.

Lemma distinct3 : distinct [0; PI / 2; PI] [PI / 2; PI / 2; PI / 2].
Proof.
  intros s t Hs Ht E. cbn [length] in Hs, Ht. unfold dirv, sph2cart in E.
  destruct s as [|[|[|s]]]; try lia; destruct t as [|[|[|t]]]; try lia; try reflexivity; exfalso; cbn [nth] in E; injection E; intros; rewrite ?sin_PI2, ?cos_PI2, ?sin_0, ?cos_0, ?sin_PI, ?cos_PI in *; lra.
Qed.
Lemma distinct2 : distinct [0; PI / 2] [PI / 2; PI / 2].
Proof.
  intros s t Hs Ht E. cbn [length] in Hs, Ht. unfold dirv, sph2cart in E.
  destruct s as [|[|s]]; try lia; destruct t as [|[|t]]; try lia; try reflexivity; exfalso; cbn [nth] in E; injection E; intros; rewrite ?sin_PI2, ?cos_PI2, ?sin_0, ?cos_0, ?sin_PI, ?cos_PI in *; lra.
Qed.
Lemma zen3 k : zeniths (repeat (PI / 2) k).
Proof. intros x H. apply repeat_spec in H. subst x. pose proof PI_RGT_0. lra. Qed.

(** entries of the covariance through the steering matrix *)
Lemma sources_open N sa sz p sg cov : sources_in_noise sh_real N sa sz p sg cov ->
  exists Ys, sh_matrix N sa sz = Ok Ys /\ is_symmetric cov /\
    forall i j, (i < nr cov)%nat -> (j < nr cov)%nat -> ent cov i j = sg * delta i j + rsum (length sa) (fun s => nth s p 0 * (ent Ys s i * ent Ys s j)).
Proof.
  intros (HS & HP & Zs & D & PP & KN & SQ & H). destruct (sh_matrix_ok N sa sz HS) as (Ys & ES & _ & _ & HY). exists Ys. split; [exact ES|].
  assert (HM : forall i j, (i < nr cov)%nat -> (j < nr cov)%nat -> ent cov i j = sg * delta i j + rsum (length sa) (fun s => nth s p 0 * (ent Ys s i * ent Ys s j))).
  { intros i j Hi Hj. rewrite KN in Hi, Hj. destruct (acn_decomp N i Hi) as (n & k & Hn & Hk & ->). destruct (acn_decomp N j Hj) as (n' & k' & Hn' & Hk' & ->).
    destruct (acn_of n k Hk) as [E1 D1]. destruct (acn_of n' k' Hk') as [E2 D2]. rewrite E1, E2 at 1. rewrite H by assumption. rewrite <- E1, <- E2. f_equal. apply rsum_ext. intros s Hs. rewrite !HY by assumption. reflexivity. }
  split; [|exact HM]. split; [auto|]. intros i j Hi Hj. rewrite !HM by assumption. rewrite delta_sym. f_equal. apply rsum_ext. intros. ring.
Qed.
Lemma sources_exist N sa sz p sg : length sz = length sa -> length p = length sa -> zeniths sz -> distinct sa sz -> (forall x, In x p -> 0 < x) -> exists cov, sources_in_noise sh_real N sa sz p sg cov.
Proof.
  intros HS HP Zs D PP. destruct (sh_matrix_ok N sa sz HS) as (Ys & ES & _ & _ & HY).
  exists (Mat ((N + 1) ^ 2) ((N + 1) ^ 2) (fun i j => sg * delta i j + rsum (length sa) (fun s => nth s p 0 * (ent Ys s i * ent Ys s j)))).
  do 7 (split; [first [assumption|reflexivity]|]). intros n m n' m' Hn D1 Hn' D2. cbn [ent]. f_equal. apply rsum_ext. intros s Hs. f_equal.
  destruct (acn_eq n m D1) as (k & -> & Hk & <-). destruct (acn_eq n' m' D2) as (k' & -> & Hk' & <-). rewrite !HY by assumption. reflexivity.
Qed.
Lemma f_independent : forall N azi zen Y, length zen = length azi -> zeniths zen -> distinct azi zen -> (length azi <= 2 * N + 1)%nat -> sh_matrix N azi zen = Ok Y ->
  independent (length azi) ((N + 1) ^ 2) (ent Y).
Proof. intros N azi zen Y HL Z D L EY. exact (steering_independent N azi zen Y HL Z EY D L). Qed.
Lemma f_circle_dependent : forall N azi zen Y ze, length zen = length azi -> (forall g, (g < length azi)%nat -> nth g zen 0 = ze) -> (2 * N + 1 < length azi)%nat -> sh_matrix N azi zen = Ok Y ->
  ~ independent (length azi) ((N + 1) ^ 2) (ent Y).
Proof. intros N azi zen Y ze HL CZ L EY. exact (circle_dependent N azi zen Y ze HL EY CZ L). Qed.
Lemma f_music_exact : forall eigh cov azi zen N (sa sz p : list R) sg, exact_eigh eigh -> sources_in_noise sh_real N sa sz p sg cov -> (1 <= length sa <= 2 * N)%nat ->
  length zen = length azi -> zeniths zen ->
  exists P, sh_music eigh cov (Z.of_nat (length sa)) azi zen = Ok P /\ length P = length azi /\
    forall g, (g < length azi)%nat -> (nth g P 0 = 100000000000 <-> exists s, (s < length sa)%nat /\ dirv azi zen g = dirv sa sz s).
Proof.
  intros eigh cov azi zen N sa sz p sg X SN H1 HL Z. destruct (sources_open N sa sz p sg cov SN) as (Ys & ES & SY & HM). destruct SN as (HS & HP & Zs & D & PP & KN & SQ & _).
  destruct (eigh cov) as [w v] eqn:E. pose proof (X cov w v SY E) as HE. destruct (music_open eigh cov (Z.of_nat (length sa)) azi zen N w v E HE KN HL) as (P & EP & LP & _).
  exists P. split; [exact EP|]. split; [exact LP|]. exact (music_only_sources eigh cov azi zen N P w v sa sz p sg Ys E HE KN HL HS HP Z Zs PP H1 D ES HM EP).
Qed.
Lemma f_music_ghosts : forall eigh cov azi zen N (sa sz p : list R) sg ze, exact_eigh eigh -> sources_in_noise sh_real N sa sz p sg cov -> length sa = (2 * N + 1)%nat ->
  (forall s, (s < length sa)%nat -> nth s sz 0 = ze) -> length zen = length azi ->
  exists P, sh_music eigh cov (Z.of_nat (length sa)) azi zen = Ok P /\ length P = length azi /\
    forall g, (g < length azi)%nat -> nth g zen 0 = ze -> nth g P 0 = 100000000000.
Proof.
  intros eigh cov azi zen N sa sz p sg ze X SN H1 CZ HL. destruct (sources_open N sa sz p sg cov SN) as (Ys & ES & SY & HM). destruct SN as (HS & HP & Zs & D & PP & KN & SQ & _).
  destruct (eigh cov) as [w v] eqn:E. pose proof (X cov w v SY E) as HE. destruct (music_open eigh cov (Z.of_nat (length sa)) azi zen N w v E HE KN HL) as (P & EP & LP & _).
  exists P. split; [exact EP|]. split; [exact LP|]. exact (music_circle eigh cov azi zen N P w v sa sz p sg Ys ze E HE KN HL HS HP Zs PP H1 D CZ ES HM EP).
Qed.
(** one source more than 2N: a peak where there is no source *)
Lemma f_music_refuted2 : exists eigh cov N sa sz p sg azi zen P g, exact_eigh eigh /\ sources_in_noise sh_real N sa sz p sg cov /\ length sa = (2 * N + 1)%nat /\
  length zen = length azi /\ zeniths zen /\ sh_music eigh cov (Z.of_nat (length sa)) azi zen = Ok P /\ (g < length azi)%nat /\
  nth g P 0 = 100000000000 /\ ~ exists s, (s < length sa)%nat /\ dirv azi zen g = dirv sa sz s.
Proof.
  destruct eigh_function as (eigh & X). destruct (sources_exist 1 [0; PI / 2; PI] (repeat (PI / 2) 3) [1; 1; 1] 1 eq_refl eq_refl (zen3 3) distinct3) as (cov & SN); [intros x [<-|[<-|[<-|[]]]]; lra|].
  destruct (f_music_ghosts eigh cov [3 * (PI / 2)] [PI / 2] 1 _ _ _ 1 (PI / 2) X SN eq_refl ltac:(intros s Hs; apply nth_repeat_in; exact Hs) eq_refl) as (P & EP & LP & H).
  exists eigh, cov, 1%nat, [0; PI / 2; PI], (repeat (PI / 2) 3), [1; 1; 1], 1, [3 * (PI / 2)], [PI / 2], P, 0%nat.
  do 2 (split; [assumption|]). split; [reflexivity|]. split; [reflexivity|]. split; [exact (zen3 1)|]. split; [exact EP|]. split; [cbn; lia|]. split; [apply H; [cbn; lia|reflexivity]|].
  intros (s & Hs & E). cbn [length] in Hs. unfold dirv, sph2cart in E. cbn [nth repeat] in E.
  assert (S3 : sin (3 * (PI / 2)) = -1) by apply sin_3PI2. rewrite S3 in E.
  destruct s as [|[|[|s]]]; try lia; cbn [nth] in E; injection E; intros; rewrite ?sin_PI2, ?cos_PI2, ?sin_0, ?cos_0, ?sin_PI, ?cos_PI in *; lra.
Qed.
Lemma ex_two_sources : exists cov, sources_in_noise sh_real 1 [0; PI / 2] (repeat (PI / 2) 2) [1; 2] 1 cov.
Proof. apply (sources_exist 1 [0; PI / 2] (repeat (PI / 2) 2) [1; 2] 1 eq_refl eq_refl (zen3 2) distinct2). intros x [<-|[<-|[]]]; lra. Qed.
Lemma ex_three_sources : exists cov, sources_in_noise sh_real 1 [0; PI / 2; PI] (repeat (PI / 2) 3) [1; 1; 1] 1 cov.
Proof. apply (sources_exist 1 [0; PI / 2; PI] (repeat (PI / 2) 3) [1; 1; 1] 1 eq_refl eq_refl (zen3 3) distinct3). intros x [<-|[<-|[<-|[]]]]; lra. Qed.
Lemma f_spectrum : forall N sa sz p sg cov w V, sources_in_noise sh_real N sa sz p sg cov -> is_eigh cov w V -> (length sa <= 2 * N + 1)%nat ->
  length w = ((N + 1) ^ 2)%nat /\ (forall k, (k < length w - length sa)%nat -> nth k w 0 = sg) /\ (forall k, (length w - length sa <= k < length w)%nat -> sg < nth k w 0).
Proof.
  intros N sa sz p sg cov w V SN HE L. destruct (sources_open N sa sz p sg cov SN) as (Ys & ES & SY & HM). destruct SN as (HS & HP & Zs & D & PP & KN & SQ & _).
  assert (NN : (2 * N + 1 <= (N + 1) ^ 2)%nat) by (rewrite sq2; nia). assert (LW : length w = nr cov) by apply HE. rewrite LW. split; [exact KN|].
  assert (PQ : forall s, (s < length sa)%nat -> 0 < nth s p 0) by (intros s Hs; apply PP, nth_In; congruence). split.
  - intros k Hk. destruct HE as (SQ' & _ & AS & (RV & CV & O1 & O2) & HA).
    apply (low_eigenvalues (nr cov) (length sa) (ent cov) (fun k => nth k w 0) (ent V) (ent Ys) (fun s => nth s p 0) sg); auto. intros i j Hij. apply AS. lia.
  - intros k Hk. assert (IND : independent (length sa) (nr cov) (ent Ys)) by (rewrite KN; apply (steering_independent N sa sz Ys HS Zs ES D L)).
    apply (signal_above cov w V (length sa) (fun s => nth s p 0) (ent Ys) sg HE PQ IND ltac:(lia) HM k Hk).
Qed.
Lemma f_separate_sources : forall eigh N sa sz p sg cov, exact_eigh eigh -> sources_in_noise sh_real N sa sz p sg cov -> (1 <= length sa < (N + 1) ^ 2)%nat ->
  exists P Q, separate_cov eigh cov (Some (Z.of_nat (length sa))) = Ok (P, Q) /\ nr P = nr cov /\ nc P = nr cov /\ nr Q = nr cov /\ nc Q = nr cov /\
    forall n m n' m', (n <= N)%nat -> degree n m -> (n' <= N)%nat -> degree n' m' ->
      ent P (acn n m) (acn n' m') = rsum (length sa) (fun s => nth s p 0 * (sh_real n m (nth s sa 0) (nth s sz 0) * sh_real n' m' (nth s sa 0) (nth s sz 0))) /\
      ent Q (acn n m) (acn n' m') = sg * delta (acn n m) (acn n' m').
Proof.
  intros eigh N sa sz p sg cov X SN L. destruct (sources_open N sa sz p sg cov SN) as (Ys & ES & SY & HM). pose proof SN as (HS & HP & Zs & D & PP & KN & SQ & HC).
  destruct (eigh cov) as [w v] eqn:E. pose proof (X cov w v SY E) as HE. assert (HK : (- Z.of_nat (nr cov) <= Z.of_nat (length sa) < Z.of_nat (nr cov))%Z) by lia.
  destruct (separate_open eigh cov _ w v E HE HK) as (P & Q & EP & P1 & P2 & Q1 & Q2 & HQ & HPP).
  destruct (separate_sum eigh cov _ w v E HE HK) as (P' & Q' & EP' & SP). rewrite EP in EP'. injection EP' as <- <-.
  exists P, Q. split; [exact EP|]. do 4 (split; [assumption|]). 
  assert (PQ : forall s, (s < length sa)%nat -> 0 < nth s p 0) by (intros s Hs; apply PP, nth_In; congruence).
  assert (LO : forall k, (k < nr cov - length sa)%nat -> nth k w 0 = sg).
  { intros k Hk. destruct HE as (SQ' & LW & AS & (RV & CV & O1 & O2) & HA).
    apply (low_eigenvalues (nr cov) (length sa) (ent cov) (fun k => nth k w 0) (ent v) (ent Ys) (fun s => nth s p 0) sg); auto. intros i j Hij. apply AS. lia. }
  assert (QE : forall i j, (i < nr cov)%nat -> (j < nr cov)%nat -> ent Q i j = sg * delta i j).
  { intros i j Hi Hj. rewrite HQ by assumption. destruct HE as (_ & _ & _ & (_ & _ & O1 & O2) & _). rewrite <- (O2 i j Hi Hj). rewrite <- rsum_scal. unfold vdv. apply rsum_ext. intros k Hk.
    assert (U : upper w (norm_idx (nr cov) (- Z.of_nat (length sa))) (nth (Z.to_nat (if (- (Z.of_nat (length sa) + 1) <? 0)%Z then - (Z.of_nat (length sa) + 1) + Z.of_nat (nr cov) else - (Z.of_nat (length sa) + 1))) w 0) k = sg); [|rewrite U; ring].
    unfold upper. rewrite nidx_pos by lia. rewrite Nat2Z.id. destruct (Nat.ltb_spec k (nr cov - length sa)) as [B|B]; [apply LO; exact B|]. apply LO. destruct (Z.ltb_spec (- (Z.of_nat (length sa) + 1)) 0); lia. }
  intros n m n' m' Hn D1 Hn' D2. destruct (acn_bijective N) as (_ & AL & _). pose proof (AL n m Hn D1) as I1. pose proof (AL n' m' Hn' D2) as I2. rewrite <- KN in I1, I2.
  split; [|apply QE; assumption]. destruct SP as (_ & _ & _ & _ & SP). specialize (SP _ _ I1 ltac:(rewrite SQ; exact I2)). rewrite QE in SP by assumption. rewrite (HC n m n' m' Hn D1 Hn' D2) in SP. lra.
Qed.
