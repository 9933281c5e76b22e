(** Which results of the spectral methods are determined by the covariance. *)
From Coq Require Import ClassicalEpsilon.
From Verif Require Import Base BaseFacts M_utils M_sph0 M_sph M_parsa M_lgauss S_lgauss S_sph S_grids S_parsa S_eig P_sph7 P_sph11 P_parsa2 P_parsa3 X_gl P_eig1.
Open Scope R_scope.

Lemma eigh_two eigh eigh' cov : exact_eigh eigh -> exact_eigh eigh' -> is_symmetric cov ->
  exists w v v', eigh cov = (w, v) /\ eigh' cov = (w, v') /\ is_eigh cov w v /\ is_eigh cov w v'.
Proof.
  intros H H' S. destruct (eigh cov) as [w v] eqn:E. destruct (eigh' cov) as [w' v'] eqn:E'. pose proof (H _ _ _ S E) as A. pose proof (H' _ _ _ S E') as A'.
  pose proof (eigenvalues_unique _ _ _ _ _ A A') as Q. subst w'. exists w, v, v'. auto.
Qed.
Lemma same_splits A P Q P' Q' : splits A P Q -> splits A P' Q' -> meq P P' -> meq Q Q'.
Proof.
  intros (A1 & A2 & A3 & A4 & A5) (B1 & B2 & B3 & B4 & B5) (C1 & C2 & C3). split; [congruence|]. split; [congruence|]. intros i j Hi Hj.
  rewrite A3 in Hi. rewrite A4 in Hj. pose proof (A5 i j Hi Hj). pose proof (B5 i j Hi Hj). rewrite (C3 i j) in H by congruence. lra.
Qed.
Lemma cut_fun (A V : mat) w (s : nat) f i j : is_eigh A w V -> (s <= nr A)%nat -> (forall l, (l < s)%nat -> f (nth l w 0) = 0) ->
  rsum (nr A) (fun k => ent V i k * f (nth k w 0) * ent V j k) = rsum (nr A - s) (fun l => ent V i (s + l) * f (nth (s + l) w 0) * ent V j (s + l)).
Proof.
  intros H Hs Z. replace (nr A) with (s + (nr A - s))%nat at 1 by lia. rewrite rsum_app, rsum_0; [ring|]. intros l Hl. rewrite Z by exact Hl. ring.
Qed.
Theorem separate_determined eigh eigh' cov k : exact_eigh eigh -> exact_eigh eigh' -> is_symmetric cov ->
  same_parts (separate_cov eigh cov k) (separate_cov eigh' cov k).
Proof.
  intros H H' S. destruct (eigh_two eigh eigh' cov H H' S) as (w & v & v' & E & E' & A & A').
  assert (K : forall k, same_parts (separate_cov eigh cov (Some k)) (separate_cov eigh' cov (Some k))).
  { clear k. intros k. destruct (Z_lt_dec k (Z.of_nat (nr cov))) as [HK|HK]; [destruct (Z_le_dec (- Z.of_nat (nr cov)) k) as [HL|HL]|].
    - destruct (separate_open eigh cov k w v E A (conj HL HK)) as (P & Q & ES & P1 & P2 & Q1 & Q2 & HQ & HP).
      destruct (separate_open eigh' cov k w v' E' A' (conj HL HK)) as (P' & Q' & ES' & P1' & P2' & Q1' & Q2' & HQ' & HP').
      destruct (separate_sum eigh cov k w v E A (conj HL HK)) as (P0 & Q0 & EE & SP). rewrite ES in EE. injection EE as <- <-.
      destruct (separate_sum eigh' cov k w v' E' A' (conj HL HK)) as (P0 & Q0 & EE & SP'). rewrite ES' in EE. injection EE as <- <-.
      rewrite ES, ES'. cbn [same_parts].
      assert (M : meq P P'); [|split; [exact M|exact (same_splits cov P Q P' Q' SP SP' M)]].
      split; [congruence|]. split; [congruence|]. intros i j Hi Hj. rewrite P1 in Hi. rewrite P2 in Hj. rewrite HP, HP' by assumption. clear HP HP' HQ HQ'.
      set (r := nth (Z.to_nat (if (- (k + 1) <? 0)%Z then (- (k + 1) + Z.of_nat (nr cov))%Z else (- (k + 1))%Z)) w 0). set (s := norm_idx (nr cov) (- k)).
      pose proof (norm_idx_le (nr cov) (- k)) as SL. fold s in SL.
      assert (LW : length w = nr cov) by apply A. assert (AS : ascending w) by apply A.
      destruct (Z.eq_dec k 0) as [K0|K0].
      + assert (S0 : s = 0%nat) by (unfold s, norm_idx; rewrite K0; cbn; lia).
        transitivity (rsum (nr cov) (fun q => ent v i q * (fun x => x - r) (nth q w 0) * ent v j q)); [rewrite S0, Nat.sub_0_r; reflexivity|].
        rewrite (spectral_fun cov w w v v' A A' (fun x => x - r) i j Hi Hj). rewrite S0, Nat.sub_0_r. reflexivity.
      + assert (RS : (1 <= s)%nat /\ r = nth (s - 1) w 0).
        { unfold s, r, norm_idx. destruct (Z.ltb_spec (- k) 0); destruct (Z.ltb_spec (- (k + 1)) 0); split; try lia; f_equal; lia. }
        destruct RS as [S1 RS].
        assert (C : forall V, is_eigh cov w V -> rsum (nr cov - s) (fun l => ent V i (s + l) * (nth (s + l) w 0 - r) * ent V j (s + l)) = rsum (nr cov) (fun q => ent V i q * Rmax (nth q w 0 - r) 0 * ent V j q)).
        { intros V HV. rewrite (cut_fun cov V w s (fun x => Rmax (x - r) 0) i j HV SL).
          - apply rsum_ext. intros l Hl. rewrite Rmax_left; [reflexivity|]. rewrite RS. assert (nth (s - 1) w 0 <= nth (s + l) w 0) by (apply AS; lia). lra.
          - intros l Hl. apply Rmax_right. rewrite RS. assert (nth l w 0 <= nth (s - 1) w 0) by (apply AS; lia). lra. }
        rewrite (C v A), (C v' A'). apply (spectral_fun cov w w v v' A A' (fun x => Rmax (x - r) 0) i j Hi Hj).
    - rewrite (separate_rejects eigh cov k w v E A), (separate_rejects eigh' cov k w v' E' A') by lia. reflexivity.
    - rewrite (separate_rejects eigh cov k w v E A), (separate_rejects eigh' cov k w v' E' A') by lia. reflexivity. }
  destruct k as [k|]; [apply K|]. pose proof (separate_default eigh cov w v E A) as D. pose proof (separate_default eigh' cov w v' E' A') as D'.
  destruct (count_from_eigenvalues w None) as [n|e]; [|rewrite D, D'; reflexivity]. destruct D as [-> _]. destruct D' as [-> _]. apply K.
Qed.
Theorem count_determined ev ev' cov a w : exact_eigvalsh ev -> exact_eigvalsh ev' -> is_symmetric cov ->
  estimate_num_sources ev cov a w = estimate_num_sources ev' cov a w.
Proof.
  intros H H' S. destruct (H cov S) as (V & HV). destruct (H' cov S) as (V' & HV'). unfold estimate_num_sources. destruct w as [w|]; [reflexivity|].
  rewrite (eigenvalues_unique _ _ _ _ _ HV HV'). reflexivity.
Qed.
Theorem count_same eigh ev cov a w v : exact_eigh eigh -> exact_eigvalsh ev -> is_symmetric cov -> eigh cov = (w, v) ->
  estimate_num_sources ev cov a None = estimate_num_sources ev cov a (Some w).
Proof.
  intros H H' S E. destruct (H' cov S) as (V' & HV'). unfold estimate_num_sources. rewrite (eigenvalues_unique _ _ _ _ _ (H _ _ _ S E) HV'). reflexivity.
Qed.

(** ** sh_music *)
Lemma norm_noise n num : norm_idx n (- Z.of_nat num) = noise_count n num.
Proof. unfold norm_idx, noise_count. destruct num as [|p]; [cbn; lia|]. destruct (Z.ltb_spec (- Z.of_nat (S p)) 0); lia. Qed.
Theorem music_value eigh cov num azi zen N w v : eigh cov = (w, v) -> is_eigh cov w v -> nr cov = ((N + 1) ^ 2)%nat -> length zen = length azi ->
  exists P, sh_music eigh cov (Z.of_nat num) azi zen = Ok P /\ length P = length azi /\
    forall g, (g < length azi)%nat -> nth g P 0 = 1 / (rsum (noise_count (nr cov) num) (fun k => field_value sh_real N (colv v (nr cov) k) (nth g azi 0) (nth g zen 0) ^ 2) + 1 / 100000000000).
Proof. intros E H KN HL. destruct (music_open eigh cov (Z.of_nat num) azi zen N w v E H KN HL) as (P & EP & LP & HP). exists P. split; [exact EP|]. split; [exact LP|]. intros g Hg. rewrite HP by exact Hg. rewrite norm_noise. reflexivity. Qed.
(** value of an eigenvector in a direction, as a sum over the row of the steering matrix *)
Lemma colv_field N azi zen Y g v n k : length zen = length azi -> sh_matrix N azi zen = Ok Y -> (g < length azi)%nat -> n = ((N + 1) ^ 2)%nat ->
  field_value sh_real N (colv v n k) (nth g azi 0) (nth g zen 0) = rsum n (fun j => ent v j k * ent Y g j).
Proof.
  intros HL E Hg ->. rewrite (field_steer N azi zen Y g _ HL E Hg). apply rsum_ext. intros j Hj. unfold colv. rewrite nth_map_seq by exact Hj. reflexivity.
Qed.
Lemma square_sum n (y : nat -> R) (V : mat) (c : nat -> R) :
  rsum n (fun k => c k * rsum n (fun j => ent V j k * y j) ^ 2) = rsum n (fun i => rsum n (fun j => y i * rsum n (fun k => ent V i k * c k * ent V j k) * y j)).
Proof.
  transitivity (rsum n (fun k => rsum n (fun i => rsum n (fun j => y i * (ent V i k * c k * ent V j k) * y j)))).
  - apply rsum_ext. intros k Hk. cbn [pow]. rewrite Rmult_1_r, rsum_mult, <- rsum_scal. apply rsum_ext. intros i Hi. rewrite <- rsum_scal. apply rsum_ext. intros. ring.
  - rewrite rsum_swap. apply rsum_ext. intros i Hi. rewrite rsum_swap. apply rsum_ext. intros j Hj. rewrite <- rsum_scal, <- rsum_scal_r. reflexivity.
Qed.
Lemma noise_sum A V V' w num (y : nat -> R) : is_eigh A w V -> is_eigh A w V' -> separated_at w num ->
  rsum (noise_count (nr A) num) (fun k => rsum (nr A) (fun j => ent V j k * y j) ^ 2) = rsum (noise_count (nr A) num) (fun k => rsum (nr A) (fun j => ent V' j k * y j) ^ 2).
Proof.
  intros H H' SEP. assert (LW : length w = nr A) by apply H. assert (AS : ascending w) by apply H. unfold separated_at in SEP. rewrite LW in SEP.
  destruct num as [|p]; [reflexivity|]. cbn [noise_count]. destruct SEP as [Q|[Q|G]]; [discriminate|replace (nr A - S p)%nat with 0%nat by lia; reflexivity|].
  set (n := nr A) in G, LW. destruct (Nat.eq_dec (n - S p) 0) as [Z|Z]; [fold n; rewrite Z; reflexivity|].
  set (m := (n - S p)%nat) in G, Z. set (t := nth (m - 1) w 0).
  set (f := fun x => if Rle_dec x t then 1 else 0).
  assert (C : forall U, rsum (nr A - S p) (fun k => rsum (nr A) (fun j => ent U j k * y j) ^ 2) = rsum (nr A) (fun k => f (nth k w 0) * rsum (nr A) (fun j => ent U j k * y j) ^ 2)).
  { intros U. fold n m. transitivity (rsum (m + (n - m)) (fun k => f (nth k w 0) * rsum n (fun j => ent U j k * y j) ^ 2)); [|f_equal; lia].
    rewrite rsum_app, (rsum_0 (n - m)).
    - rewrite Rplus_0_r. apply rsum_ext. intros k Hk. unfold f. destruct (Rle_dec (nth k w 0) t) as [L|L]; [ring|]. exfalso. apply L. apply AS. lia.
    - intros k Hk. unfold f. destruct (Rle_dec (nth (m + k) w 0) t) as [L|L]; [|ring]. exfalso. assert (nth m w 0 <= nth (m + k) w 0) by (apply AS; lia). unfold t in L. lra. }
  rewrite (C V), (C V'). rewrite !square_sum. apply rsum_ext. intros i Hi. apply rsum_ext. intros j Hj. rewrite (spectral_fun A w w V V' H H' f i j Hi Hj). reflexivity.
Qed.
Theorem music_same eigh eigh' cov num azi zen N w V : exact_eigh eigh -> exact_eigh eigh' -> is_symmetric cov -> nr cov = ((N + 1) ^ 2)%nat -> length zen = length azi ->
  is_eigh cov w V -> separated_at w num -> sh_music eigh cov (Z.of_nat num) azi zen = sh_music eigh' cov (Z.of_nat num) azi zen.
Proof.
  intros H H' S KN HL HV SEP. destruct (eigh_two eigh eigh' cov H H' S) as (w' & v & v' & E & E' & A & A'). rewrite (eigenvalues_unique _ _ _ _ _ HV A) in SEP.
  destruct (music_value eigh cov num azi zen N w' v E A KN HL) as (P & EP & LP & HP). destruct (music_value eigh' cov num azi zen N w' v' E' A' KN HL) as (P' & EP' & LP' & HP').
  rewrite EP, EP'. f_equal. apply (nth_ext P P' 0 0); [congruence|]. intros g Hg. rewrite LP in Hg. rewrite HP, HP' by exact Hg. f_equal. f_equal.
  destruct (sh_matrix_ok N azi zen HL) as (Y & EY & _).
  rewrite (rsum_ext _ (fun k => field_value sh_real N (colv v (nr cov) k) (nth g azi 0) (nth g zen 0) ^ 2) (fun k => rsum (nr cov) (fun j => ent v j k * ent Y g j) ^ 2)) by (intros; rewrite (colv_field N azi zen Y g) by auto; reflexivity).
  rewrite (rsum_ext _ (fun k => field_value sh_real N (colv v' (nr cov) k) (nth g azi 0) (nth g zen 0) ^ 2) (fun k => rsum (nr cov) (fun j => ent v' j k * ent Y g j) ^ 2)) by (intros; rewrite (colv_field N azi zen Y g) by auto; reflexivity).
  apply (noise_sum cov v v' w' num (fun j => ent Y g j) A A' SEP).
Qed.

(** ** without separation *)
Definition rot (n p q : nat) (c s : R) (V : mat) : mat :=
  Mat n n (fun i k => if Nat.eqb k p then c * ent V i p + s * ent V i q else if Nat.eqb k q then - s * ent V i p + c * ent V i q else ent V i k).
Lemma rsum_two n p q (g : nat -> R) : (p < n)%nat -> (q < n)%nat -> p <> q ->
  rsum n g = g p + g q + rsum n (fun k => if Nat.eqb k p then 0 else if Nat.eqb k q then 0 else g k).
Proof.
  intros Hp Hq NE. rewrite (rsum_ext n g (fun k => delta p k * g k + delta q k * g k + (if Nat.eqb k p then 0 else if Nat.eqb k q then 0 else g k))).
  - rewrite !rsum_plus, rsum_delta_l, rsum_delta_l by assumption. reflexivity.
  - intros k Hk. unfold delta. rewrite (Nat.eqb_sym p k), (Nat.eqb_sym q k). destruct (Nat.eqb_spec k p); destruct (Nat.eqb_spec k q); subst; try ring. contradiction.
Qed.
Lemma rot_sum n p q c s V (d : nat -> R) i j : (p < n)%nat -> (q < n)%nat -> p <> q -> c * c + s * s = 1 -> d p = d q ->
  rsum n (fun k => ent (rot n p q c s V) i k * d k * ent (rot n p q c s V) j k) = rsum n (fun k => ent V i k * d k * ent V j k).
Proof.
  intros Hp Hq NE CS D. rewrite (rsum_two n p q (fun k => ent (rot n p q c s V) i k * d k * ent (rot n p q c s V) j k) Hp Hq NE), (rsum_two n p q (fun k => ent V i k * d k * ent V j k) Hp Hq NE). f_equal.
  - cbn [ent rot]. rewrite !Nat.eqb_refl. rewrite (proj2 (Nat.eqb_neq q p)) by auto. rewrite D.
    transitivity ((c * c + s * s) * (d q * (ent V i p * ent V j p + ent V i q * ent V j q))); [ring|rewrite CS; ring].
  - apply rsum_ext. intros k Hk. cbn [ent rot]. destruct (Nat.eqb k p); [reflexivity|]. destruct (Nat.eqb k q); reflexivity.
Qed.
Lemma rot_eigh A w V p q c s : is_eigh A w V -> (p < nr A)%nat -> (q < nr A)%nat -> p <> q -> c * c + s * s = 1 -> nth p w 0 = nth q w 0 -> is_eigh A w (rot (nr A) p q c s V).
Proof.
  intros (SQ & LW & AS & (RV & CV & O1 & O2) & E) Hp Hq NE CS D. split; [exact SQ|]. split; [exact LW|]. split; [exact AS|]. split.
  - split; [reflexivity|]. split; [reflexivity|]. split; intros a b Ha Hb.
    + set (al := fun a => if Nat.eqb a p then c else if Nat.eqb a q then - s else 0). set (be := fun a => if Nat.eqb a p then s else if Nat.eqb a q then c else 0). set (ga := fun a => if Nat.eqb a p then 0 else if Nat.eqb a q then 0 else 1).
      assert (X : forall i a, ent (rot (nr A) p q c s V) i a = al a * ent V i p + be a * ent V i q + ga a * ent V i a).
      { intros i k. cbn [ent rot]. unfold al, be, ga. destruct (Nat.eqb k p); [ring|]. destruct (Nat.eqb k q); ring. }
      rewrite (rsum_ext (nr A) _ (fun i => al a * al b * (ent V i p * ent V i p) + al a * be b * (ent V i p * ent V i q) + al a * ga b * (ent V i p * ent V i b)
        + be a * al b * (ent V i q * ent V i p) + be a * be b * (ent V i q * ent V i q) + be a * ga b * (ent V i q * ent V i b)
        + ga a * al b * (ent V i a * ent V i p) + ga a * be b * (ent V i a * ent V i q) + ga a * ga b * (ent V i a * ent V i b))) by (intros i Hi; rewrite !X; ring).
      rewrite !rsum_plus, !rsum_scal, !O1 by assumption. unfold al, be, ga, delta. rewrite !Nat.eqb_refl, (proj2 (Nat.eqb_neq p q)), (proj2 (Nat.eqb_neq q p)) by auto.
      destruct (Nat.eqb_spec a p) as [->|N1]; destruct (Nat.eqb_spec b p) as [->|N2].
      * rewrite Nat.eqb_refl. lra.
      * rewrite (proj2 (Nat.eqb_neq p b)) by auto. destruct (Nat.eqb_spec b q) as [->|N3]; [rewrite ?Nat.eqb_refl, ?(proj2 (Nat.eqb_neq q p)) by auto; lra|]. rewrite (proj2 (Nat.eqb_neq q b)) by auto. ring.
      * rewrite (proj2 (Nat.eqb_neq a p)) by auto. destruct (Nat.eqb_spec a q) as [->|N3]; [rewrite ?(proj2 (Nat.eqb_neq q p)) by auto; lra|]. ring.
      * destruct (Nat.eqb_spec a q) as [->|N3]; destruct (Nat.eqb_spec b q) as [->|N4].
        -- rewrite ?Nat.eqb_refl. lra.
        -- rewrite ?(proj2 (Nat.eqb_neq p b)), ?(proj2 (Nat.eqb_neq q b)) by auto. ring.
        -- rewrite ?(proj2 (Nat.eqb_neq a q)), ?(proj2 (Nat.eqb_neq a p)) by auto. ring.
        -- ring.
    + rewrite <- (O2 a b Ha Hb). rewrite (rsum_ext (nr A) _ (fun k => ent (rot (nr A) p q c s V) a k * (fun _ => 1) k * ent (rot (nr A) p q c s V) b k)) by (intros; ring).
      rewrite (rot_sum (nr A) p q c s V (fun _ => 1) a b Hp Hq NE CS eq_refl). apply rsum_ext. intros. ring.
  - intros i j Hi Hj. rewrite (rot_sum (nr A) p q c s V (fun k => nth k w 0) i j Hp Hq NE CS D). apply E; assumption.
Qed.
Lemma override cov w V : is_eigh cov w V -> exists eigh, exact_eigh eigh /\ eigh cov = (w, V).
Proof.
  intros H. destruct eigh_function as (e0 & H0). exists (fun A => if excluded_middle_informative (A = cov) then (w, V) else e0 A). split.
  - intros A w' V' S. destruct (excluded_middle_informative (A = cov)) as [->|NE]; [intros Q; injection Q as <- <-; exact H|apply H0; exact S].
  - destruct (excluded_middle_informative (cov = cov)) as [_|NE]; [reflexivity|contradiction].
Qed.
Lemma grid_exists N : exists azi zen Y w, length zen = length azi /\ sh_matrix N azi zen = Ok Y /\ nr Y = length azi /\ nc Y = ((N + 1) ^ 2)%nat /\ orthonormal_on Y w.
Proof.
  destruct (f_contract (N + 1)) as [(w0 & W0) _]. destruct (f_grid (fun _ => w0) N W0) as (azi & zen & w & _ & _ & EX & _).
  assert (EX2 : exact_for sh_real (2 * N) azi zen w).
  { destruct EX as (a & b & c & d & e). split; [exact a|]. split; [exact b|]. split; [exact c|]. split; [exact d|]. intros n m Hn. apply e. lia. }
  destruct (gram_grid N azi zen w EX2) as (Y & EY & RY & CY & O). exists azi, zen, Y, w. split; [apply EX|]. auto.
Qed.
Theorem music_separated cov num N w V : is_symmetric cov -> nr cov = ((N + 1) ^ 2)%nat -> is_eigh cov w V ->
  (forall eigh eigh' azi zen, exact_eigh eigh -> exact_eigh eigh' -> length zen = length azi -> sh_music eigh cov (Z.of_nat num) azi zen = sh_music eigh' cov (Z.of_nat num) azi zen) ->
  separated_at w num.
Proof.
  intros S KN H D. assert (LW : length w = nr cov) by apply H. assert (AS : ascending w) by apply H. unfold separated_at. rewrite LW.
  destruct num as [|p0]; [auto|]. destruct (le_lt_dec (nr cov) (Datatypes.S p0)) as [L|L]; [auto|]. right. right.
  set (m := (nr cov - Datatypes.S p0)%nat). destruct (Rlt_le_dec (nth (m - 1) w 0) (nth m w 0)) as [G|G]; [exact G|exfalso].
  assert (TIE : nth (m - 1) w 0 = nth m w 0) by (apply Rle_antisym; [apply AS; lia|exact G]).
  destruct (grid_exists N) as (azi & zen & Y & wt & HL & EY & RY & CY & OY).
  set (F := fun k g => rsum (nr cov) (fun j => ent V j k * ent Y g j)).
  assert (R1 : forall c s g, (g < length azi)%nat -> c * c + s * s = 1 -> (c * F (m - 1)%nat g + s * F m g) ^ 2 = F (m - 1)%nat g ^ 2).
  { intros c s g Hg CS. pose proof (rot_eigh cov w V (m - 1) m c s H ltac:(lia) ltac:(lia) ltac:(lia) CS TIE) as HR. set (V' := rot (nr cov) (m - 1) m c s V) in *.
    destruct (override cov w V H) as (e1 & X1 & E1). destruct (override cov w V' HR) as (e2 & X2 & E2).
    destruct (music_value e1 cov (Datatypes.S p0) azi zen N w V E1 H KN HL) as (P & EP & LP & HP). destruct (music_value e2 cov (Datatypes.S p0) azi zen N w V' E2 HR KN HL) as (P' & EP' & LP' & HP').
    specialize (D e1 e2 azi zen X1 X2 HL). rewrite EP, EP' in D. injection D as D. specialize (HP g Hg). specialize (HP' g Hg). rewrite D, HP' in HP. clear HP'.
    cbn [noise_count] in HP. fold m in HP.
    rewrite (rsum_ext m (fun k => field_value sh_real N (colv V (nr cov) k) (nth g azi 0) (nth g zen 0) ^ 2) (fun k => F k g ^ 2)) in HP by (intros; rewrite (colv_field N azi zen Y g) by auto; reflexivity).
    rewrite (rsum_ext m (fun k => field_value sh_real N (colv V' (nr cov) k) (nth g azi 0) (nth g zen 0) ^ 2) (fun k => rsum (nr cov) (fun j => ent V' j k * ent Y g j) ^ 2)) in HP by (intros; rewrite (colv_field N azi zen Y g) by auto; reflexivity).
    assert (EQ : rsum m (fun k => rsum (nr cov) (fun j => ent V' j k * ent Y g j) ^ 2) = rsum m (fun k => F k g ^ 2)).
    { assert (N1 : 0 <= rsum m (fun k => rsum (nr cov) (fun j => ent V' j k * ent Y g j) ^ 2)) by (apply rsum_nonneg; intros; apply pow2_ge_0).
      assert (N2 : 0 <= rsum m (fun k => F k g ^ 2)) by (apply rsum_nonneg; intros; apply pow2_ge_0).
      unfold Rdiv at 1 3 in HP. rewrite !Rmult_1_l in HP. apply (f_equal Rinv) in HP. rewrite !Rinv_inv in HP. lra. }
    assert (LAST : forall h : nat -> R, rsum m h = rsum (m - 1) h + h (m - 1)%nat). { intros h. replace (rsum m h) with (rsum (Datatypes.S (m - 1)) h) by (f_equal; lia). reflexivity. }
    rewrite !LAST in EQ.
    rewrite (rsum_ext (m - 1) (fun k => rsum (nr cov) (fun j => ent V' j k * ent Y g j) ^ 2) (fun k => F k g ^ 2)) in EQ.
    - assert (T : rsum (nr cov) (fun j => ent V' j (m - 1) * ent Y g j) = c * F (m - 1)%nat g + s * F m g).
      { unfold F. rewrite <- !rsum_scal, <- rsum_plus. apply rsum_ext. intros j Hj. unfold V'. cbn [ent rot]. rewrite Nat.eqb_refl. ring. }
      rewrite T in EQ. lra.
    - intros k Hk. f_equal. apply rsum_ext. intros j Hj. unfold V'. cbn [ent rot]. rewrite (proj2 (Nat.eqb_neq k (m - 1))), (proj2 (Nat.eqb_neq k m)) by lia. reflexivity. }
  assert (Z : forall g, (g < length azi)%nat -> F (m - 1)%nat g = 0).
  { intros g Hg. pose proof (R1 0 1 g Hg ltac:(ring)) as A1. pose proof (R1 (3 / 5) (4 / 5) g Hg ltac:(lra)) as A2. pose proof (R1 (3 / 5) (- (4 / 5)) g Hg ltac:(lra)) as A3.
    set (x := F (m - 1)%nat g) in *. set (y := F m g) in *. assert (x * y = 0) by nra. assert (x ^ 2 = 0) by (assert (x ^ 2 * y ^ 2 = 0) by (transitivity ((x * y) * (x * y)); [ring|rewrite H0; ring]); nra).
    apply Rsqr_0_uniq. rewrite Rsqr_pow2. assumption. }
  assert (ONE : rsum (nr cov) (fun i => ent V i (m - 1) * ent V i (m - 1)) = 0).
  { transitivity (rsum (nr Y) (fun g => nth g wt 0 * (F (m - 1)%nat g * F (m - 1)%nat g))); [|apply rsum_0; intros g Hg; rewrite Z by congruence; ring].
    symmetry. unfold F. rewrite (rsum_ext (nr Y) _ (fun g => rsum (nr cov) (fun i => rsum (nr cov) (fun j => ent V i (m - 1) * ent V j (m - 1) * (nth g wt 0 * (ent Y g i * ent Y g j)))))) by (intros g Hg; rewrite rsum_mult, <- rsum_scal; apply rsum_ext; intros; rewrite <- rsum_scal; apply rsum_ext; intros; ring).
    rewrite rsum_swap. apply rsum_ext. intros i Hi. rewrite rsum_swap.
    rewrite (rsum_ext (nr cov) _ (fun j => delta i j * (ent V i (m - 1) * ent V j (m - 1)))) by (intros j Hj; rewrite rsum_scal, OY by (rewrite CY, <- KN; assumption); ring).
    apply (rsum_delta_l (nr cov) i (fun j => ent V i (m - 1) * ent V j (m - 1)) Hi). }
  destruct H as (_ & _ & _ & (_ & _ & O1 & _) & _). rewrite O1, delta_same in ONE by lia. lra.
Qed.
Theorem music_determined cov num N w V : is_symmetric cov -> nr cov = ((N + 1) ^ 2)%nat -> is_eigh cov w V ->
  ((forall eigh eigh' azi zen, exact_eigh eigh -> exact_eigh eigh' -> length zen = length azi -> sh_music eigh cov (Z.of_nat num) azi zen = sh_music eigh' cov (Z.of_nat num) azi zen) <->
   separated_at w num).
Proof.
  intros S KN H. split; [apply (music_separated cov num N w V S KN H)|]. intros SEP eigh eigh' azi zen X X' HL. exact (music_same eigh eigh' cov num azi zen N w V X X' S KN HL H SEP).
Qed.
