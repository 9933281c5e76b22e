(** Interaural time differences from the responses to the ears. *)
From Coq Require Import Lra Lia.
From Verif Require Import Base BaseFacts M_utils M_sig M_sph0 M_sph M_parsa3 M_process3 S_process3 M_zp S_zp S_process S_process4 S_butter S_chain P_utils M_process M_process4 P_sig P_ff2 P_ff4 X_process X_ff X_but P_chain1.
Open Scope R_scope.

Lemma half_lag n : (0 < n)%nat -> (n - 1 - (n - 1) / 2 = n / 2)%nat.
Proof. intros H. pose proof (Nat.div_mod n 2 ltac:(lia)). pose proof (Nat.div_mod (n - 1) 2 ltac:(lia)). pose proof (Nat.mod_upper_bound n 2 ltac:(lia)). pose proof (Nat.mod_upper_bound (n - 1) 2 ltac:(lia)). lia. Qed.
Lemma corr_lag l r n j : length l = n -> length r = n -> (0 < n)%nat -> (j < n)%nat ->
  nth j (corr_same (map (fun x => x ^ 2) l) (map (fun x => x ^ 2) r)) 0 = energy_corr l r (Z.of_nat j - Z.of_nat (n / 2)).
Proof.
  intros L R0 N J. unfold corr_same. rewrite map_length, R0. rewrite nth_map_seq by exact J. unfold corr_full, energy_corr. rewrite map_length, R0. apply rsum_ext. intros i I. pose proof (half_lag n N) as HL. assert (HM : ((n - 1) / 2 <= n - 1)%nat) by (apply Nat.div_le_upper_bound; lia). cbv zeta. set (hn := (n / 2)%nat) in *. set (hm := ((n - 1) / 2)%nat) in *. clearbody hn hm.
  destruct (Nat.leb_spec (n - 1) (i + (j + hm))) as [K|K]; destruct (Z.leb_spec 0 (Z.of_nat i + (Z.of_nat j - Z.of_nat hn))) as [K'|K']; try lia; [|reflexivity].
  assert (EQ : Z.to_nat (Z.of_nat i + (Z.of_nat j - Z.of_nat hn)) = (i + (j + hm) - (n - 1))%nat) by lia. rewrite EQ. rewrite (nth_map_in _ r i 0 0) by lia. f_equal. set (m := (i + (j + hm) - (n - 1))%nat). destruct (Nat.lt_ge_cases m n) as [M|M]; [apply (nth_map_in (fun x => x ^ 2)); lia|]. rewrite !nth_overflow by (rewrite ?map_length; lia). ring.
Qed.
Lemma itd_peak l r n fs : length l = n -> length r = n -> (0 < n)%nat -> exists m, first_peak (energy_corr l r) n m /\ itd1 l r fs = Ok (- IZR m / fs).
Proof.
  intros L R0 N. unfold itd1. cbv zeta. set (c := corr_same (map (fun x => x ^ 2) l) (map (fun x => x ^ 2) r)). assert (LC : length c = n) by (unfold c, corr_same; rewrite map_length, seq_length, map_length; exact R0). destruct (argmax_spec c) as (k & E & K & MX & ST); [intros Z; rewrite Z in LC; cbn in LC; lia|]. rewrite E. cbn [bind].
  assert (G : forall j, (j < n)%nat -> nth j c 0 = energy_corr l r (Z.of_nat j - Z.of_nat (n / 2))) by (intros j J; apply corr_lag; assumption). assert (H2 : (n / 2 <= n)%nat) by (apply Nat.div_le_upper_bound; lia). exists (Z.of_nat k - Z.of_nat (n / 2))%Z. split.
  - split; [lia|]. intros q Q. replace q with (Z.of_nat (Z.to_nat (q + Z.of_nat (n / 2))) - Z.of_nat (n / 2))%Z by lia. rewrite <- !G by lia. split; [apply MX; lia|]. intros Lt. apply ST. lia.
  - rewrite L. f_equal. rewrite minus_IZR, <- !INR_IZR_INZ. reflexivity.
Qed.
Lemma peak_unique c n m m' : first_peak c n m -> first_peak c n m' -> m = m'.
Proof.
  intros [I H] [I' H']. destruct (Z.lt_trichotomy m m') as [L|[E|L]]; [|exact E|]; exfalso.
  - destruct (H' m I) as [_ S]. specialize (S L). destruct (H m' I') as [S' _]. lra.
  - destruct (H m' I') as [_ S]. specialize (S L). destruct (H' m I) as [S' _]. lra.
Qed.
Lemma itd_iff l r n fs d : length l = n -> length r = n -> (0 < n)%nat -> (itd1 l r fs = Ok d <-> exists m, first_peak (energy_corr l r) n m /\ d = - IZR m / fs).
Proof.
  intros L R0 N. destruct (itd_peak l r n fs L R0 N) as (m & P & E). rewrite E. split.
  - intros [= <-]. exists m. split; [exact P|reflexivity].
  - intros (m' & P' & ->). rewrite (peak_unique _ _ _ _ P P'). reflexivity.
Qed.
Lemma corr_scale gl gr l r m : energy_corr (map (fun x => gl * x) l) (map (fun x => gr * x) r) m = gl ^ 2 * gr ^ 2 * energy_corr l r m.
Proof.
  unfold energy_corr. rewrite map_length, <- rsum_scal. apply rsum_ext. intros i I. cbv zeta. destruct (0 <=? Z.of_nat i + m)%Z; [|ring]. assert (G : forall (g : R) (x : list R) k, nth k (map (fun v => g * v) x) 0 = g * nth k x 0). { intros g x k. destruct (Nat.lt_ge_cases k (length x)) as [H|H]; [apply (nth_map_in (fun v => g * v)); exact H|]. rewrite !nth_overflow by (rewrite ?map_length; exact H). ring. } rewrite !G. ring.
Qed.
Lemma peak_scale c c' n m q : 0 < q -> (forall k, c' k = q * c k) -> first_peak c n m -> first_peak c' n m.
Proof. intros Q E [I H]. split; [exact I|]. intros k K. destruct (H k K) as [A B]. rewrite !E. split; [apply Rmult_le_compat_l; lra|intros L; apply Rmult_lt_compat_l; [lra|apply B; exact L]]. Qed.
Lemma corr_swap l r n m : length l = n -> length r = n -> energy_corr r l (- m) = energy_corr l r m.
Proof.
  intros L R0. unfold energy_corr. rewrite L, R0. cbv zeta.
  (* both are sums over the pairs (i, k) with k - i = m *)
  transitivity (rsum n (fun k => rsum n (fun i => if (Z.of_nat k - Z.of_nat i =? m)%Z then nth k l 0 ^ 2 * nth i r 0 ^ 2 else 0))).
  - apply rsum_ext. intros k K. destruct (Z.leb_spec 0 (Z.of_nat k + - m)) as [P|P].
    + destruct (Nat.lt_ge_cases (Z.to_nat (Z.of_nat k + - m)) n) as [Q|Q].
      * rewrite (rsum_single n (Z.to_nat (Z.of_nat k + - m)) (fun i => if (Z.of_nat k - Z.of_nat i =? m)%Z then nth k l 0 ^ 2 * nth i r 0 ^ 2 else 0) Q); [|intros i I Ni; destruct (Z.eqb_spec (Z.of_nat k - Z.of_nat i) m); [lia|reflexivity]]. destruct (Z.eqb_spec (Z.of_nat k - Z.of_nat (Z.to_nat (Z.of_nat k + - m))) m); [ring|lia].
      * rewrite nth_overflow by lia. rewrite rsum_0; [ring|]. intros i I. destruct (Z.eqb_spec (Z.of_nat k - Z.of_nat i) m); [lia|reflexivity].
    + symmetry. apply rsum_0. intros i I. destruct (Z.eqb_spec (Z.of_nat k - Z.of_nat i) m); [lia|reflexivity].
  - rewrite rsum_swap. apply rsum_ext. intros i I. destruct (Z.leb_spec 0 (Z.of_nat i + m)) as [P|P].
    + destruct (Nat.lt_ge_cases (Z.to_nat (Z.of_nat i + m)) n) as [Q|Q].
      * rewrite (rsum_single n (Z.to_nat (Z.of_nat i + m)) (fun k => if (Z.of_nat k - Z.of_nat i =? m)%Z then nth k l 0 ^ 2 * nth i r 0 ^ 2 else 0) Q); [|intros k K Nk; destruct (Z.eqb_spec (Z.of_nat k - Z.of_nat i) m); [lia|reflexivity]]. destruct (Z.eqb_spec (Z.of_nat (Z.to_nat (Z.of_nat i + m)) - Z.of_nat i) m); [ring|lia].
      * rewrite (nth_overflow l) by lia. rewrite rsum_0; [ring|]. intros k K. destruct (Z.eqb_spec (Z.of_nat k - Z.of_nat i) m); [lia|reflexivity].
    + apply rsum_0. intros k K. destruct (Z.eqb_spec (Z.of_nat k - Z.of_nat i) m); [lia|reflexivity].
Qed.
Lemma peak_swap c c' n m : (2 * Z.abs m < Z.of_nat n)%Z -> (forall k, c' (- k)%Z = c k) -> (forall k, (Z.abs k <= Z.of_nat (n / 2))%Z -> k <> m -> c k < c m) -> first_peak c n m /\ first_peak c' n (- m).
Proof.
  intros B E D. pose proof (Nat.div_mod n 2 ltac:(lia)) as DM. pose proof (Nat.mod_upper_bound n 2 ltac:(lia)). set (hn := (n / 2)%nat) in *. assert (I : (- Z.of_nat hn <= m < Z.of_nat n - Z.of_nat hn)%Z) by lia. assert (I' : (- Z.of_nat hn <= - m < Z.of_nat n - Z.of_nat hn)%Z) by lia. split; (split; [assumption|]); intros k K.
  - destruct (Z.eq_dec k m) as [->|N]; [split; [lra|lia]|]. assert (c k < c m) by (apply D; [lia|exact N]). split; [lra|intros _; assumption].
  - rewrite E. replace (c' k) with (c (- k)%Z) by (rewrite <- E; f_equal; lia). destruct (Z.eq_dec k (- m)) as [->|N]; [rewrite Z.opp_involutive; split; [lra|lia]|]. assert (c (- k)%Z < c m) by (apply D; lia). split; [lra|intros _; assumption].
Qed.

(** ** the whole function *)
Lemma mapM_total {A B} (f : A -> res B) (l : list A) d : (forall i, (i < length l)%nat -> exists y, f (nth i l d) = Ok y) -> exists ys, mapM f l = Ok ys.
Proof.
  induction l as [|x l IH]; intros Hl; [exists []; reflexivity|]. destruct (Hl 0%nat ltac:(cbn; lia)) as (y & Y). destruct IH as (ys & YS); [intros i I; apply (Hl (Datatypes.S i)); cbn; lia|]. exists (y :: ys). cbn [mapM]. cbn [nth] in Y. rewrite Y. cbn [bind]. rewrite YS. reflexivity.
Qed.
Lemma ff_some w1 w2 b a x y : butter_ba w1 w2 = Ok (b, a) -> filtfilt b a x = Ok y -> (0 < length y)%nat.
Proof.
  intros E H. destruct (ba_sos _ _ _ _ E) as (f & ES & _). destruct (f_but_filter _ _ _ _ _ E ES) as [_ T]. rewrite (ff_len _ _ _ _ H). destruct (Nat.lt_ge_cases 15 (length x)) as [K|K]; [lia|]. rewrite (proj1 (T x K)) in H. discriminate.
Qed.
Lemma f_itd : forall rs h f1 f2 up n v F, F = (up * h_fs h)%Z -> length (h_left h) = n -> length (h_right h) = n ->
  (forall i x y, (i < n)%nat -> rs (h_fs h) F (nth i (h_left h) []) = Ok x -> rs (h_fs h) F (nth i (h_right h) []) = Ok y -> length x = length y) ->
  (itds_from_hrirs rs h (f1, f2) up = Ok v <->
   exists b a, butter_ba (2 * f1 / IZR F) (2 * f2 / IZR F) = Ok (b, a) /\ length v = n /\
     forall i, (i < n)%nat -> exists x y l r m, rs (h_fs h) F (nth i (h_left h) []) = Ok x /\ rs (h_fs h) F (nth i (h_right h) []) = Ok y /\
       filtfilt b a x = Ok l /\ filtfilt b a y = Ok r /\ first_peak (energy_corr l r) (length l) m /\ nth i v 0 = - IZR m / IZR F).
Proof.
  intros rs h f1 f2 up n v F EF L R0 EQ. unfold itds_from_hrirs, band. cbn [fst snd]. cbv zeta. rewrite <- EF. set (w1 := 2 * f1 / IZR F). set (w2 := 2 * f2 / IZR F). split.
  - destruct (mapM (rs (h_fs h) F) (h_left h)) as [xs|] eqn:EX; [|discriminate]. destruct (mapM (rs (h_fs h) F) (h_right h)) as [ys|] eqn:EY; [|discriminate]. cbn [bind].
    destruct (butter_sos w1 w2) as [f|] eqn:E; [|discriminate]. destruct (sos_ba _ _ _ E) as (b & a & EB & S). cbn [bind]. destruct (mapM (sosfiltfilt f) xs) as [ls|] eqn:EL; [|discriminate]. destruct (mapM (sosfiltfilt f) ys) as [qs|] eqn:ER; [|discriminate]. cbn [bind]. intros EV. pose proof (proj1 (mapM_pts _ _ _ [] []) EX) as [LX HX]. pose proof (proj1 (mapM_pts _ _ _ [] []) EY) as [LY HY]. pose proof (proj1 (mapM_pts _ _ _ [] []) EL) as [LL HL]. pose proof (proj1 (mapM_pts _ _ _ [] []) ER) as [LR HR]. pose proof (proj1 (mapM_pts _ _ _ ([], []) 0) EV) as [LV HV]. rewrite combine_length in LV, HV.
    exists b, a. split; [exact EB|]. split; [lia|]. intros i I. specialize (HX i ltac:(lia)). specialize (HY i ltac:(lia)). specialize (HL i ltac:(lia)). specialize (HR i ltac:(lia)). specialize (HV i ltac:(lia)). rewrite combine_nth in HV by lia. cbn [fst snd] in HV. apply S in HL. apply S in HR. pose proof (ff_some _ _ _ _ _ _ EB HL) as P. pose proof (ff_len _ _ _ _ HL) as Q1. pose proof (ff_len _ _ _ _ HR) as Q2. pose proof (EQ i _ _ I HX HY) as Q3. apply (itd_iff _ _ (length (nth i ls []))) in HV; [|reflexivity|lia|exact P]. destruct HV as (m & PM & D). exists (nth i xs []), (nth i ys []), (nth i ls []), (nth i qs []), m. tauto.
  - intros (b & a & EB & LV & H). destruct (ba_sos _ _ _ _ EB) as (f & E & S).
    destruct (mapM_total (rs (h_fs h) F) (h_left h) []) as (xs & EX); [intros i I; destruct (H i ltac:(lia)) as (x & y & l & r & m & A & _); exists x; exact A|]. destruct (mapM_total (rs (h_fs h) F) (h_right h) []) as (ys & EY); [intros i I; destruct (H i ltac:(lia)) as (x & y & l & r & m & _ & A & _); exists y; exact A|]. rewrite EX, EY. cbn [bind]. rewrite E. cbn [bind]. pose proof (proj1 (mapM_pts _ _ _ [] []) EX) as [LX HX]. pose proof (proj1 (mapM_pts _ _ _ [] []) EY) as [LY HY].
    assert (G : forall i, (i < n)%nat -> exists l r m, filtfilt b a (nth i xs []) = Ok l /\ filtfilt b a (nth i ys []) = Ok r /\ length l = length r /\ first_peak (energy_corr l r) (length l) m /\ nth i v 0 = - IZR m / IZR F).
    { intros i I. destruct (H i I) as (x & y & l & r & m & A & B & C & D & P & Q). pose proof (HX i ltac:(lia)) as HXi. pose proof (HY i ltac:(lia)) as HYi. rewrite A in HXi. injection HXi as HXi. rewrite B in HYi. injection HYi as HYi. rewrite <- HXi, <- HYi. exists l, r, m. split; [exact C|]. split; [exact D|]. split; [rewrite (ff_len _ _ _ _ C), (ff_len _ _ _ _ D); exact (EQ i _ _ I A B)|]. split; assumption. }
    destruct (mapM_total (sosfiltfilt f) xs []) as (ls & EL); [intros i I; destruct (G i ltac:(lia)) as (l & r & m & A & _); exists l; apply S; exact A|]. destruct (mapM_total (sosfiltfilt f) ys []) as (qs & ER); [intros i I; destruct (G i ltac:(lia)) as (l & r & m & _ & A & _); exists r; apply S; exact A|]. rewrite EL, ER. cbn [bind]. pose proof (proj1 (mapM_pts _ _ _ [] []) EL) as [LL HL]. pose proof (proj1 (mapM_pts _ _ _ [] []) ER) as [LR HR].
    apply (mapM_pts _ _ _ ([], []) 0). rewrite combine_length. split; [lia|]. intros i I. rewrite combine_nth by lia. cbn [fst snd]. destruct (G i ltac:(lia)) as (l & r & m & A & B & Q & P & V). pose proof (HL i ltac:(lia)) as HLi. pose proof (HR i ltac:(lia)) as HRi. apply S in HLi. apply S in HRi. rewrite A in HLi. injection HLi as HLi. rewrite B in HRi. injection HRi as HRi. rewrite <- HLi, <- HRi. apply (itd_iff _ _ (length l)); [reflexivity|lia|apply (ff_some _ _ _ _ _ _ EB A)|]. exists m. split; [exact P|exact V].
Qed.
Lemma f_itd_band_error : forall rs h f1 f2 up F x y, F = (up * h_fs h)%Z -> mapM (rs (h_fs h) F) (h_left h) = Ok x -> mapM (rs (h_fs h) F) (h_right h) = Ok y ->
  ~ (0 < 2 * f1 / IZR F /\ 2 * f1 / IZR F < 2 * f2 / IZR F /\ 2 * f2 / IZR F < 1) -> itds_from_hrirs rs h (f1, f2) up = Err ValueError.
Proof. intros rs h f1 f2 up F x y EF X Y N. unfold itds_from_hrirs, band. cbn [fst snd]. cbv zeta. rewrite <- EF, X, Y. cbn [bind]. rewrite (proj2 (proj2 (f_defined _ _) N)). reflexivity. Qed.
Lemma f_itd_defined : forall rs h f1 f2 up n F, F = (up * h_fs h)%Z -> length (h_left h) = n -> length (h_right h) = n ->
  0 < f1 -> f1 < f2 -> 2 * f2 < IZR F ->
  (forall i, (i < n)%nat -> exists x y, rs (h_fs h) F (nth i (h_left h) []) = Ok x /\ rs (h_fs h) F (nth i (h_right h) []) = Ok y /\ length x = length y /\ (15 < length x)%nat) ->
  exists v, itds_from_hrirs rs h (f1, f2) up = Ok v.
Proof.
  intros rs h f1 f2 up n F EF L R0 P1 P2 P3 H. assert (PF : 0 < IZR F) by lra. assert (B : 0 < 2 * f1 / IZR F /\ 2 * f1 / IZR F < 2 * f2 / IZR F /\ 2 * f2 / IZR F < 1). { split; [apply Rdiv_lt_0_compat; lra|]. split; [apply Rmult_lt_compat_r; [apply Rinv_0_lt_compat; exact PF|lra]|]. apply (Rmult_lt_reg_r (IZR F)); [exact PF|]. unfold Rdiv. rewrite Rmult_assoc, Rinv_l by lra. lra. }
  destruct (proj1 (f_defined _ _) B) as (b & a & f & EB & ES). pose proof (proj1 (f_but_filter _ _ _ _ _ EB ES)) as T.
  assert (G : forall i, (i < n)%nat -> exists d, exists x y l r m, rs (h_fs h) F (nth i (h_left h) []) = Ok x /\ rs (h_fs h) F (nth i (h_right h) []) = Ok y /\ filtfilt b a x = Ok l /\ filtfilt b a y = Ok r /\ first_peak (energy_corr l r) (length l) m /\ d = - IZR m / IZR F).
  { intros i I. destruct (H i I) as (x & y & A & D & Q & K). destruct (T x K) as (l & X & _). destruct (T y ltac:(lia)) as (r & Y & _). destruct (itd_peak l r (length l) (IZR F) eq_refl) as (m & PM & _); [rewrite (ff_len _ _ _ _ X), (ff_len _ _ _ _ Y); lia|rewrite (ff_len _ _ _ _ X); lia|]. exists (- IZR m / IZR F), x, y, l, r, m. tauto. }
  assert (C : forall k, (k <= n)%nat -> exists v, length v = k /\ forall i, (i < k)%nat -> exists x y l r m, rs (h_fs h) F (nth i (h_left h) []) = Ok x /\ rs (h_fs h) F (nth i (h_right h) []) = Ok y /\ filtfilt b a x = Ok l /\ filtfilt b a y = Ok r /\ first_peak (energy_corr l r) (length l) m /\ nth i v 0 = - IZR m / IZR F).
  { induction k as [|k IH]; intros K; [exists []; split; [reflexivity|lia]|]. destruct (IH ltac:(lia)) as (v & LV & HV). destruct (G k ltac:(lia)) as (d & D). exists (v ++ [d]). split; [rewrite app_length; cbn; lia|]. intros i I. destruct (Nat.eq_dec i k) as [->|N]; [rewrite app_nth2 by lia; rewrite LV, Nat.sub_diag; exact D|rewrite app_nth1 by lia; apply HV; lia]. }
  destruct (C n (le_n n)) as (v & LV & HV). exists v. apply (f_itd rs h f1 f2 up n v F EF L R0).
  - intros i x y I A D. destruct (H i I) as (x' & y' & A' & D' & Q & _). rewrite A' in A. rewrite D' in D. injection A as <-. injection D as <-. exact Q.
  - exists b, a. tauto.
Qed.
Lemma f_itd_bound : forall rs h f1 f2 up n v F i x, F = (up * h_fs h)%Z -> length (h_left h) = n -> length (h_right h) = n ->
  (forall i x y, (i < n)%nat -> rs (h_fs h) F (nth i (h_left h) []) = Ok x -> rs (h_fs h) F (nth i (h_right h) []) = Ok y -> length x = length y) ->
  itds_from_hrirs rs h (f1, f2) up = Ok v -> (i < n)%nat -> rs (h_fs h) F (nth i (h_left h) []) = Ok x -> (0 < F)%Z -> Rabs (nth i v 0) <= INR (length x) / 2 / IZR F.
Proof.
  intros rs h f1 f2 up n v F i x EF L R0 EQ H I X PF. apply (f_itd rs h f1 f2 up n v F EF L R0 EQ) in H. destruct H as (b & a & EB & LV & H). destruct (H i I) as (x' & y & l & r & m & A & B & C & D & [P _] & V). rewrite X in A. injection A as <-. apply IZR_lt in PF. rewrite V, (ff_len _ _ _ _ C) in *. unfold Rdiv. rewrite Rabs_mult, Rabs_Ropp. rewrite (Rabs_pos_eq (/ IZR F)) by (left; apply Rinv_0_lt_compat; exact PF). apply Rmult_le_compat_r; [left; apply Rinv_0_lt_compat; exact PF|]. assert (Z2 : (2 * Z.abs m <= Z.of_nat (length x))%Z). { pose proof (Nat.div_mod (length x) 2 ltac:(lia)). pose proof (Nat.mod_upper_bound (length x) 2 ltac:(lia)). lia. } apply IZR_le in Z2. rewrite mult_IZR, abs_IZR, <- INR_IZR_INZ in Z2. lra.
Qed.
Lemma f_itd_gain : forall rs h h' gl gr f1 f2 up n v F, F = (up * h_fs h)%Z -> length (h_left h) = n -> length (h_right h) = n -> length (h_left h') = n -> length (h_right h') = n -> h_fs h' = h_fs h ->
  (forall i x y, (i < n)%nat -> rs (h_fs h) F (nth i (h_left h) []) = Ok x -> rs (h_fs h) F (nth i (h_right h) []) = Ok y -> length x = length y) ->
  (forall c x y, rs (h_fs h) F x = Ok y -> rs (h_fs h) F (map (fun t => c * t) x) = Ok (map (fun t => c * t) y)) ->
  (forall i, (i < n)%nat -> gl i <> 0 /\ gr i <> 0 /\ nth i (h_left h') [] = map (fun x => gl i * x) (nth i (h_left h) []) /\ nth i (h_right h') [] = map (fun x => gr i * x) (nth i (h_right h) [])) ->
  itds_from_hrirs rs h (f1, f2) up = Ok v -> itds_from_hrirs rs h' (f1, f2) up = Ok v.
Proof.
  intros rs h h' gl gr f1 f2 up n v F EF L R0 L' R' FS EQ HOM G H. pose proof H as H0. apply (f_itd rs h f1 f2 up n v F EF L R0 EQ) in H. destruct H as (b & a & EB & LV & H). apply (f_itd rs h' f1 f2 up n v F); [rewrite FS; exact EF|exact L'|exact R'| |].
  - intros i x y I X Y. destruct (H i I) as (x0 & y0 & l & r & m & A & B & _). destruct (G i I) as (_ & _ & G1 & G2). rewrite FS, G1, (HOM _ _ _ A) in X. rewrite FS, G2, (HOM _ _ _ B) in Y. injection X as <-. injection Y as <-. rewrite !map_length. exact (EQ i _ _ I A B).
  - rewrite FS. exists b, a. split; [exact EB|]. split; [exact LV|]. intros i I. destruct (H i I) as (x & y & l & r & m & A & B & C & D & P & V). destruct (G i I) as (N1 & N2 & G1 & G2). exists (map (fun t => gl i * t) x), (map (fun t => gr i * t) y), (map (fun t => gl i * t) l), (map (fun t => gr i * t) r), m. rewrite G1, G2. split; [apply HOM; exact A|]. split; [apply HOM; exact B|]. split; [apply ff_scale; exact C|]. split; [apply ff_scale; exact D|]. split; [|exact V]. rewrite map_length. apply (peak_scale (energy_corr l r) _ _ _ (gl i ^ 2 * gr i ^ 2)); [apply Rmult_lt_0_compat; rewrite <- Rsqr_pow2; apply Rsqr_pos_lt; assumption|apply corr_scale|exact P].
Qed.
Lemma f_itd_swap : forall rs h h' f1 f2 up n v F, F = (up * h_fs h)%Z -> length (h_left h) = n -> length (h_right h) = n -> h_fs h' = h_fs h -> h_left h' = h_right h -> h_right h' = h_left h ->
  (forall i x y, (i < n)%nat -> rs (h_fs h) F (nth i (h_left h) []) = Ok x -> rs (h_fs h) F (nth i (h_right h) []) = Ok y -> length x = length y) ->
  itds_from_hrirs rs h (f1, f2) up = Ok v ->
  exists v', itds_from_hrirs rs h' (f1, f2) up = Ok v' /\ length v' = n /\
    forall i x y b a l r m, (i < n)%nat -> rs (h_fs h) F (nth i (h_left h) []) = Ok x -> rs (h_fs h) F (nth i (h_right h) []) = Ok y ->
      butter_ba (2 * f1 / IZR F) (2 * f2 / IZR F) = Ok (b, a) -> filtfilt b a x = Ok l -> filtfilt b a y = Ok r ->
      (2 * Z.abs m < Z.of_nat (length l))%Z -> (forall k, (2 * Z.abs k <= Z.of_nat (length l))%Z -> k <> m -> energy_corr l r k < energy_corr l r m) ->
      nth i v 0 = - IZR m / IZR F /\ nth i v' 0 = - nth i v 0.
Proof.
  intros rs h h' f1 f2 up n v F EF L R0 FS EL ER EQ H. pose proof H as H0. apply (f_itd rs h f1 f2 up n v F EF L R0 EQ) in H. destruct H as (b & a & EB & LV & H).
  assert (EQ' : forall i x y, (i < n)%nat -> rs (h_fs h') F (nth i (h_left h') []) = Ok x -> rs (h_fs h') F (nth i (h_right h') []) = Ok y -> length x = length y) by (rewrite FS, EL, ER; intros i x y I X Y; symmetry; exact (EQ i y x I Y X)).
  destruct (ba_sos _ _ _ _ EB) as (f & ES & _).
  assert (EX : exists v', itds_from_hrirs rs h' (f1, f2) up = Ok v').
  { assert (C : forall k, (k <= n)%nat -> exists v', length v' = k /\ forall i, (i < k)%nat -> exists x y l r m, rs (h_fs h) F (nth i (h_right h) []) = Ok x /\ rs (h_fs h) F (nth i (h_left h) []) = Ok y /\ filtfilt b a x = Ok l /\ filtfilt b a y = Ok r /\ first_peak (energy_corr l r) (length l) m /\ nth i v' 0 = - IZR m / IZR F).
    { induction k as [|k IH]; intros K; [exists []; split; [reflexivity|lia]|]. destruct (IH ltac:(lia)) as (v' & LV' & HV). destruct (H k ltac:(lia)) as (x & y & l & r & m & A & B & C & D & _). pose proof (EQ k _ _ ltac:(lia) A B) as Q. destruct (itd_peak r l (length r) (IZR F) eq_refl) as (m' & PM & _); [rewrite (ff_len _ _ _ _ C), (ff_len _ _ _ _ D); lia|apply (ff_some _ _ _ _ _ _ EB D)|]. exists (v' ++ [- IZR m' / IZR F]). split; [rewrite app_length; cbn; lia|]. intros i I. destruct (Nat.eq_dec i k) as [->|N]; [|rewrite app_nth1 by lia; apply HV; lia]. rewrite app_nth2 by lia. rewrite LV', Nat.sub_diag. exists y, x, r, l, m'. tauto. }
    destruct (C n (le_n n)) as (v' & LV' & HV). exists v'. apply (f_itd rs h' f1 f2 up n v' F); [rewrite FS; exact EF|rewrite EL; exact R0|rewrite ER; exact L|exact EQ'|]. rewrite FS, EL, ER. exists b, a. tauto. }
  destruct EX as (v' & EV). exists v'. split; [exact EV|]. apply (f_itd rs h' f1 f2 up n v' F) in EV; [|rewrite FS; exact EF|rewrite EL; exact R0|rewrite ER; exact L|exact EQ']. rewrite FS, EL, ER in EV. destruct EV as (b' & a' & EB' & LV' & HV). split; [exact LV'|]. rewrite EB in EB'. injection EB' as <- <-.
  intros i x y b' a' l r m I X Y EB' A B M D. rewrite EB in EB'. injection EB' as <- <-. destruct (H i I) as (x1 & y1 & l1 & r1 & m1 & X1 & Y1 & A1 & B1 & P1 & V1). destruct (HV i I) as (y2 & x2 & r2 & l2 & m2 & Y2 & X2 & B2 & A2 & P2 & V2). rewrite X in X1, X2. injection X1 as <-. injection X2 as <-. rewrite Y in Y1, Y2. injection Y1 as <-. injection Y2 as <-. rewrite A in A1, A2. injection A1 as <-. injection A2 as <-. rewrite B in B1, B2. injection B1 as <-. injection B2 as <-.
  assert (Q : length l = length r) by (rewrite (ff_len _ _ _ _ A), (ff_len _ _ _ _ B); exact (EQ i _ _ I X Y)). destruct (peak_swap (energy_corr l r) (energy_corr r l) (length l) m M) as [S1 S2]; [intros k; apply (corr_swap l r (length l)); [reflexivity|symmetry; exact Q]|intros k K N; apply D; [|exact N]; pose proof (Nat.div_mod (length l) 2 ltac:(lia)); lia|]. rewrite <- Q in P2. rewrite V1, V2, (peak_unique _ _ _ _ P1 S1), (peak_unique _ _ _ _ P2 S2). split; [reflexivity|]. rewrite opp_IZR. unfold Rdiv. ring.
Qed.
(** nothing left in one ear after the band-pass: the delay reported is not 0 *)
Lemma f_itd_silent : forall rs h f1 f2 up n v F i x y b a l r, F = (up * h_fs h)%Z -> length (h_left h) = n -> length (h_right h) = n ->
  (forall i x y, (i < n)%nat -> rs (h_fs h) F (nth i (h_left h) []) = Ok x -> rs (h_fs h) F (nth i (h_right h) []) = Ok y -> length x = length y) ->
  itds_from_hrirs rs h (f1, f2) up = Ok v -> (i < n)%nat -> rs (h_fs h) F (nth i (h_left h) []) = Ok x -> rs (h_fs h) F (nth i (h_right h) []) = Ok y ->
  butter_ba (2 * f1 / IZR F) (2 * f2 / IZR F) = Ok (b, a) -> filtfilt b a x = Ok l -> filtfilt b a y = Ok r ->
  (forall t, In t l -> t = 0) \/ (forall t, In t r -> t = 0) -> nth i v 0 = INR (length x / 2) / IZR F.
Proof.
  intros rs h f1 f2 up n v F i x y b a l r EF L R0 EQ H I X Y EB A B Z. apply (f_itd rs h f1 f2 up n v F EF L R0 EQ) in H. destruct H as (b' & a' & EB' & LV & H). rewrite EB in EB'. injection EB' as <- <-. destruct (H i I) as (x1 & y1 & l1 & r1 & m & X1 & Y1 & A1 & B1 & P & V). rewrite X in X1. injection X1 as <-. rewrite Y in Y1. injection Y1 as <-. rewrite A in A1. injection A1 as <-. rewrite B in B1. injection B1 as <-. pose proof (ff_some _ _ _ _ _ _ EB A) as PL. pose proof (ff_len _ _ _ _ A) as Q.
  assert (N0 : forall s k, (forall t, In t s -> t = 0) -> nth k s 0 = 0) by (intros s k Hs; destruct (Nat.lt_ge_cases k (length s)) as [K|K]; [apply Hs, nth_In; exact K|apply nth_overflow; exact K]).
  assert (C0 : forall k, energy_corr l r k = 0) by (intros k; unfold energy_corr; apply rsum_0; intros j J; cbv zeta; destruct (0 <=? Z.of_nat j + k)%Z; [|reflexivity]; destruct Z as [Z|Z]; rewrite (N0 _ _ Z); ring).
  assert (S1 : first_peak (energy_corr l r) (length l) (- Z.of_nat (length l / 2))). { assert (K : (length l / 2 < length l)%nat) by (apply Nat.div_lt; lia). split; [lia|]. intros k K'. rewrite !C0. split; [lra|lia]. }
  rewrite V, (peak_unique _ _ _ _ P S1), Q, opp_IZR, <- INR_IZR_INZ. unfold Rdiv. ring.
Qed.
(** the right ear hears what the left ear hears, at any level: no delay *)
Lemma f_itd_copy : forall rs h f1 f2 up n v F i c x b a l, F = (up * h_fs h)%Z -> length (h_left h) = n -> length (h_right h) = n ->
  (forall i x y, (i < n)%nat -> rs (h_fs h) F (nth i (h_left h) []) = Ok x -> rs (h_fs h) F (nth i (h_right h) []) = Ok y -> length x = length y) ->
  (forall c x y, rs (h_fs h) F x = Ok y -> rs (h_fs h) F (map (fun t => c * t) x) = Ok (map (fun t => c * t) y)) ->
  itds_from_hrirs rs h (f1, f2) up = Ok v -> (i < n)%nat -> c <> 0 -> nth i (h_right h) [] = map (fun t => c * t) (nth i (h_left h) []) ->
  rs (h_fs h) F (nth i (h_left h) []) = Ok x -> butter_ba (2 * f1 / IZR F) (2 * f2 / IZR F) = Ok (b, a) -> filtfilt b a x = Ok l -> (exists t, In t l /\ t <> 0) -> nth i v 0 = 0.
Proof.
  intros rs h f1 f2 up n v F i c x b a l EF L R0 EQ HOM H I C0 CP X EB A NZ. apply (f_itd rs h f1 f2 up n v F EF L R0 EQ) in H. destruct H as (b' & a' & EB' & LV & H). rewrite EB in EB'. injection EB' as <- <-. destruct (H i I) as (x1 & y1 & l1 & r1 & m & X1 & Y1 & A1 & B1 & P & V). rewrite X in X1. injection X1 as <-. rewrite CP, (HOM _ _ _ X) in Y1. injection Y1 as <-. rewrite A in A1. injection A1 as <-. rewrite (ff_scale _ _ c _ _ A) in B1. injection B1 as <-.
  assert (PL : (15 < length l)%nat). { destruct (ba_sos _ _ _ _ EB) as (f & ES & _). destruct (f_but_filter _ _ _ _ _ EB ES) as [_ T]. rewrite (ff_len _ _ _ _ A). destruct (Nat.lt_ge_cases 15 (length x)) as [K|K]; [lia|]. rewrite (proj1 (T x K)) in A. discriminate. }
  assert (E : itd1 l (map (fun t => c * t) l) (IZR F) = Ok ((INR 0 - INR 0) / IZR F)).
  { apply (itd_final (length l) 0 0 1 c l); [| |lra|exact C0|exact NZ|].
    - split; [reflexivity|]. split; [lia|]. split; [intros j J; cbn [Nat.add]; ring|intros j J [K|K]; lia].
    - split; [apply map_length|]. split; [lia|]. split; [intros j J; cbn [Nat.add]; apply (nth_map_in (fun t => c * t)); exact J|intros j J [K|K]; lia].
    - assert (2 <= length l / 2)%nat by (apply Nat.div_le_lower_bound; lia). lia. }
  apply (itd_iff _ _ (length l)) in E; [|reflexivity|apply map_length|lia]. destruct E as (m' & P' & V'). rewrite V, (peak_unique _ _ _ _ P P'), <- V'. unfold Rdiv. ring.
Qed.
