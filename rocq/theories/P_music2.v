(** How many directions beamformers and MUSIC can tell apart. *)
From Verif Require Import Base BaseFacts M_utils M_sph0 M_sph M_parsa S_linalg S_sph S_grids S_parsa S_eig S_music P_sph5 P_sph7 P_sph9 P_sph10 P_parsa2 P_parsa3 P_parsa4 P_svd2 P_eig1 P_music.
Open Scope R_scope.

(** ** harmonics on a circle of latitude *)
Definition trig (m : Z) (az : R) : R := if (m <? 0)%Z then sin (INR (Z.abs_nat m) * az) else cos (INR (Z.abs_nat m) * az).
Definition lat (n : nat) (m : Z) (ze : R) : R :=
  (if (m =? 0)%Z then 1 else sqrt 2 * (-1) ^ Z.abs_nat m) * (sqrt ((2 * INR n + 1) / (4 * PI) * (INR (fact (n - Z.abs_nat m)) / INR (fact (n + Z.abs_nat m)))) * lpmv (Z.abs_nat m) n (cos ze)).
Lemma sh_lat n m az ze : sh_real n m az ze = lat n m ze * trig m az.
Proof.
  unfold sh_real, lat, trig, sph_harm. destruct (Z.eqb_spec m 0) as [->|D].
  - change (0 <? 0)%Z with false. change (Z.abs_nat 0) with O. cbv iota. cbn [fst]. ring.
  - replace (Z.abs m <? 0)%Z with false by (symmetry; apply Z.ltb_ge; lia). replace (Z.abs_nat (Z.abs m)) with (Z.abs_nat m) by lia. destruct (Z.ltb_spec m 0); cbn [fst snd]; ring.
Qed.
Lemma circle_kernel N azi zen Y ze : length zen = length azi -> sh_matrix N azi zen = Ok Y -> (forall g, (g < length azi)%nat -> nth g zen 0 = ze) -> (2 * N + 1 < length azi)%nat ->
  exists x : nat -> R, (exists g, (g < length azi)%nat /\ x g <> 0) /\ forall j, (j < (N + 1) ^ 2)%nat -> rsum (length azi) (fun g => x g * ent Y g j) = 0.
Proof.
  intros HL EY CZ L. destruct (sh_matrix_ok N azi zen HL) as (Y' & E' & _ & _ & HY). rewrite EY in E'. injection E' as <-.
  destruct (kernel (2 * N + 1) (length azi) (fun q g => trig (Z.of_nat q - Z.of_nat N) (nth g azi 0)) L) as (x & NZ & K). exists x. split; [exact NZ|].
  intros j Hj. destruct (acn_decomp N j Hj) as (n & i & Hn & Hi & ->). specialize (K (i + N - n)%nat ltac:(lia)).
  rewrite (rsum_ext _ _ (fun g => lat n (Z.of_nat i - Z.of_nat n) ze * (trig (Z.of_nat (i + N - n) - Z.of_nat N) (nth g azi 0) * x g))).
  - rewrite rsum_scal, K. ring.
  - intros g Hg. rewrite HY by assumption. rewrite CZ, sh_lat by exact Hg. replace (Z.of_nat (i + N - n) - Z.of_nat N)%Z with (Z.of_nat i - Z.of_nat n)%Z by lia. ring.
Qed.
Theorem circle_dependent N azi zen Y ze : length zen = length azi -> sh_matrix N azi zen = Ok Y -> (forall g, (g < length azi)%nat -> nth g zen 0 = ze) -> (2 * N + 1 < length azi)%nat ->
  ~ independent (length azi) ((N + 1) ^ 2) (ent Y).
Proof.
  intros HL EY CZ L I. destruct (circle_kernel N azi zen Y ze HL EY CZ L) as (x & (g & Hg & NZ) & K). apply NZ. apply (I x K g Hg).
Qed.
(** a further direction of the circle is a combination of 2N + 1 of its directions *)
Lemma circle_combination N sa sz Ys azi zen Y g ze : length sz = length sa -> length zen = length azi -> zeniths sz -> sh_matrix N sa sz = Ok Ys -> sh_matrix N azi zen = Ok Y ->
  distinct sa sz -> length sa = (2 * N + 1)%nat -> (forall s, (s < length sa)%nat -> nth s sz 0 = ze) -> (g < length azi)%nat -> nth g zen 0 = ze ->
  exists x, forall j, (j < (N + 1) ^ 2)%nat -> ent Y g j = rsum (length sa) (fun s => x s * ent Ys s j).
Proof.
  intros HS HL Zs ES EY D LS CZ Hg GZ.
  destruct (sh_matrix_ok N sa sz HS) as (Y' & E' & _ & _ & HYs). rewrite ES in E'. injection E' as <-.
  destruct (sh_matrix_ok N azi zen HL) as (Y' & E' & _ & _ & HY). rewrite EY in E'. injection E' as <-.
  assert (LL : length (sz ++ [ze]) = length (sa ++ [nth g azi 0])) by (rewrite !app_length; cbn [length]; lia).
  destruct (sh_matrix_ok N (sa ++ [nth g azi 0]) (sz ++ [ze]) LL) as (Ya & EYa & _ & _ & HYa).
  assert (LA : length (sa ++ [nth g azi 0]) = S (length sa)) by (rewrite app_length; cbn [length]; lia).
  destruct (circle_kernel N _ _ Ya ze LL EYa) as (x & (s0 & Hs0 & NZ) & K).
  { intros s Hs. rewrite LA in Hs. destruct (Nat.eq_dec s (length sa)) as [->|NE]; [rewrite app_nth2, HS, Nat.sub_diag by lia; reflexivity|]. rewrite app_nth1 by lia. apply CZ. lia. }
  { rewrite LA. lia. }
  rewrite LA in K, Hs0.
  assert (R1 : forall s j, (s < length sa)%nat -> (j < (N + 1) ^ 2)%nat -> ent Ya s j = ent Ys s j).
  { intros s j Hs Hj. destruct (acn_decomp N j Hj) as (n & i & Hn & Hi & ->). rewrite HYa, HYs by (try assumption; lia). rewrite !app_nth1 by lia. reflexivity. }
  assert (R2 : forall j, (j < (N + 1) ^ 2)%nat -> ent Ya (length sa) j = ent Y g j).
  { intros j Hj. destruct (acn_decomp N j Hj) as (n & i & Hn & Hi & ->). rewrite HYa, HY by (try assumption; lia). rewrite app_nth2, Nat.sub_diag by lia. rewrite app_nth2, HS, Nat.sub_diag by lia. cbn [nth]. rewrite GZ. reflexivity. }
  assert (K' : forall j, (j < (N + 1) ^ 2)%nat -> rsum (length sa) (fun s => x s * ent Ys s j) + x (length sa) * ent Y g j = 0).
  { intros j Hj. rewrite <- (K j Hj). cbn [rsum]. rewrite R2 by exact Hj. f_equal. apply rsum_ext. intros s Hs. rewrite R1 by assumption. reflexivity. }
  assert (XN : x (length sa) <> 0).
  { intros X0. destruct (Nat.eq_dec s0 (length sa)) as [->|NE]; [exact (NZ X0)|]. apply NZ. apply (steering_independent N sa sz Ys HS Zs ES D ltac:(lia) x); [|lia]. intros j Hj. specialize (K' j Hj). rewrite X0 in K'. lra. }
  exists (fun s => - x s / x (length sa)). intros j Hj. specialize (K' j Hj).
  rewrite (rsum_ext _ _ (fun s => - / x (length sa) * (x s * ent Ys s j))) by (intros; unfold Rdiv; ring). rewrite rsum_scal.
  replace (rsum (length sa) (fun s => x s * ent Ys s j)) with (- (x (length sa) * ent Y g j)) by lra. field. exact XN.
Qed.
(** 2N + 1 sources on a circle of latitude make MUSIC peak all along it *)
Theorem music_circle eigh cov azi zen N P w v (sa sz p : list R) sg Ys ze : eigh cov = (w, v) -> is_eigh cov w v -> nr cov = ((N + 1) ^ 2)%nat ->
  length zen = length azi -> length sz = length sa -> length p = length sa -> zeniths sz -> (forall x, In x p -> 0 < x) -> length sa = (2 * N + 1)%nat -> distinct sa sz ->
  (forall s, (s < length sa)%nat -> nth s sz 0 = ze) -> sh_matrix N sa sz = Ok Ys ->
  (forall i j, (i < nr cov)%nat -> (j < nr cov)%nat -> ent cov i j = sg * delta i j + rsum (length sa) (fun s => nth s p 0 * (ent Ys s i * ent Ys s j))) ->
  sh_music eigh cov (Z.of_nat (length sa)) azi zen = Ok P ->
  forall g, (g < length azi)%nat -> nth g zen 0 = ze -> nth g P 0 = 100000000000.
Proof.
  intros E HE KN HL HS HP Zs PP LS D CZ ES HM EP g Hg GZ. destruct (sh_matrix_ok N azi zen HL) as (Y & EY & _).
  apply (music_peak eigh cov (length sa) azi zen N P w v g E HE KN HL EP ltac:(lia) Hg). intros k Hk. rewrite (field_steer N azi zen Y) by assumption. rewrite <- KN.
  destruct (circle_combination N sa sz Ys azi zen Y g ze HS HL Zs ES EY D LS CZ Hg GZ) as (x & HX).
  rewrite (rsum_ext _ _ (fun j => rsum (length sa) (fun s => x s * (ent Ys s j * ent v j k)))).
  - rewrite rsum_swap. apply rsum_0. intros s Hs. rewrite rsum_scal. destruct HE as (SQ & LW & AS & (RV & CV & O1 & O2) & HA).
    assert (NO : rsum (nr cov) (fun j => ent Ys s j * ent v j k) = 0); [|rewrite NO; ring]. apply (noise_orthogonal (nr cov) (length sa) (ent cov) (fun k => nth k w 0) (ent v) (ent Ys) (fun s => nth s p 0) sg); auto.
    + intros i j Hij. apply AS. lia.
    + intros t Ht. apply PP, nth_In. congruence.
  - intros j Hj. rewrite nth_map_seq by exact Hj. rewrite HX by (rewrite <- KN; exact Hj). rewrite <- rsum_scal. apply rsum_ext. intros. ring.
Qed.

(** ** LCMV *)
Lemma lcmv_independent inv cov azi zen c w N Y : inv_contract inv -> sh_lcmv inv cov azi zen c = Ok w -> nr cov = ((N + 1) ^ 2)%nat -> sh_matrix N azi zen = Ok Y ->
  independent (length azi) (nr cov) (ent Y).
Proof.
  intros HI E KN EY x H g Hg. destruct (lcmv_open _ _ _ _ _ _ HI E) as (N' & Y' & X & G & SQ & HL & HC & KN' & EY' & HX & HG & _).
  assert (N' = N) by (rewrite !sq2 in *; nia). subst N'. rewrite EY in EY'. injection EY' as <-.
  destruct HG as (_ & _ & _ & G4 & G5). cbn [nr ent] in G4, G5. set (m := length azi) in *.
  transitivity (rsum m (fun h => delta h g * x h)); [rewrite (rsum_ext m _ (fun h => delta g h * x h)) by (intros; rewrite delta_sym; reflexivity); symmetry; apply (rsum_delta_l m g x Hg)|].
  rewrite (rsum_ext m _ (fun h => rsum m (fun q => x h * gram (nr cov) (ent X) (ent Y) h q * ent G q g))) by (intros h Hh; rewrite <- (G4 h g) by assumption; rewrite Rmult_comm, <- rsum_scal; apply rsum_ext; intros; ring).
  rewrite rsum_swap. apply rsum_0. intros q Hq. rewrite rsum_scal_r. replace (rsum m (fun h => x h * gram (nr cov) (ent X) (ent Y) h q)) with 0; [ring|].
  unfold gram. symmetry.
  rewrite (rsum_ext m _ (fun h => rsum (nr cov) (fun j => rsum (nr cov) (fun k => ent X k j * ent Y q j * (x h * ent Y h k))))).
  - rewrite rsum_swap. apply rsum_0. intros j Hj. rewrite rsum_swap. apply rsum_0. intros k Hk. rewrite rsum_scal, H by exact Hk. ring.
  - intros h Hh. rewrite <- rsum_scal. apply rsum_ext. intros j Hj. rewrite <- rsum_scal_r, <- rsum_scal. apply rsum_ext. intros. ring.
Qed.
Theorem lcmv_iff inv cov azi zen c N Y : inv_contract inv -> is_symmetric cov -> pos_def cov -> nr cov = ((N + 1) ^ 2)%nat -> length zen = length azi -> length c = length azi -> sh_matrix N azi zen = Ok Y ->
  ((exists w, sh_lcmv inv cov azi zen c = Ok w) <-> independent (length azi) (nr cov) (ent Y)).
Proof.
  intros HI SC PD KN HL HC EY. split; [intros (w & E); exact (lcmv_independent inv cov azi zen c w N Y HI E KN EY)|apply (lcmv_exists inv cov azi zen c N Y HI SC PD KN HL HC EY)].
Qed.
Theorem lcmv_distinct inv cov azi zen c N : inv_contract inv -> is_symmetric cov -> pos_def cov -> nr cov = ((N + 1) ^ 2)%nat -> length zen = length azi -> length c = length azi ->
  zeniths zen -> distinct azi zen -> (length azi <= 2 * N + 1)%nat -> exists w, sh_lcmv inv cov azi zen c = Ok w.
Proof.
  intros HI SC PD KN HL HC Z D L. destruct (sh_matrix_ok N azi zen HL) as (Y & EY & _). apply (lcmv_exists inv cov azi zen c N Y HI SC PD KN HL HC EY). rewrite KN. exact (steering_independent N azi zen Y HL Z EY D L).
Qed.
Theorem lcmv_circle inv cov azi zen c N ze : inv_contract inv -> nr cov = ((N + 1) ^ 2)%nat -> length zen = length azi ->
  (forall g, (g < length azi)%nat -> nth g zen 0 = ze) -> (2 * N + 1 < length azi)%nat -> exists e, sh_lcmv inv cov azi zen c = Err e.
Proof.
  intros HI KN HL CZ L. destruct (sh_lcmv inv cov azi zen c) as [w|e] eqn:E; [exfalso|exists e; reflexivity]. destruct (sh_matrix_ok N azi zen HL) as (Y & EY & _).
  apply (circle_dependent N azi zen Y ze HL EY CZ L). rewrite <- KN. exact (lcmv_independent inv cov azi zen c w N Y HI E KN EY).
Qed.
