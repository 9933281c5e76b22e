(** Interaural level differences from the responses to the ears. *)
From Coq Require Import Lra Lia.
From Verif Require Import Base BaseFacts M_utils M_sig M_sph0 M_sph M_parsa3 M_process3 S_process3 M_zp S_zp S_process4 S_butter S_chain P_utils M_process M_process4 P_sig P_ff2 P_ff4 X_ff X_but.
Open Scope R_scope.

Lemma mapM_pts {A B} (f : A -> res B) (l : list A) (r : list B) d e : mapM f l = Ok r <-> length r = length l /\ forall i, (i < length l)%nat -> f (nth i l d) = Ok (nth i r e).
Proof.
  split.
  - intros H. apply mapM_inv in H. induction H as [|a b l r HA _ [IL IH]]; [split; [reflexivity|cbn; lia]|]. split; [cbn; lia|]. intros [|i] I; [exact HA|]. cbn in *. apply IH. lia.
  - revert r. induction l as [|a l IH]; intros [|b r] [L H]; try discriminate; [reflexivity|]. cbn [mapM]. pose proof (H 0%nat ltac:(cbn; lia)) as H0. cbn [nth] in H0. rewrite H0. cbn [bind]. rewrite (IH r); [reflexivity|]. split; [cbn in L; lia|]. intros i I. apply (H (S i)). cbn. lia.
Qed.
(** the band-pass on one response *)
Lemma ff_len b a x w : filtfilt b a x = Ok w -> length w = length x.
Proof. intros H. apply ff_iff in H. apply (proj2 H). Qed.
Lemma ff_scale b a c x w : filtfilt b a x = Ok w -> filtfilt b a (map (fun v => c * v) x) = Ok (map (fun v => c * v) w).
Proof.
  intros H. pose proof (f_linear b a c 0 x x w w eq_refl H H) as G. assert (E : forall l : list R, map (fun p => c * fst p + 0 * snd p) (combine l l) = map (fun v => c * v) l). { induction l as [|v l IH]; [reflexivity|]. cbn [combine map fst snd]. rewrite IH. f_equal. ring. } rewrite !E in G. exact G.
Qed.
Lemma rms_loud l : rms1 l = loud l.
Proof. unfold rms1, loud. do 2 f_equal. f_equal. apply map_ext. intros x. ring. Qed.
Lemma loud_ge0 l : 0 <= loud l.
Proof. apply sqrt_pos. Qed.
Lemma lsum_sq_scale c l : lsum (map (fun x => x * x) (map (fun v => c * v) l)) = c ^ 2 * lsum (map (fun x => x * x) l).
Proof. induction l as [|v l IH]; cbn [map lsum]; [unfold lsum; cbn; ring|]. unfold lsum in *. cbn [map fold_right]. rewrite IH. ring. Qed.
Lemma lsum_sq_ge0 l : 0 <= lsum (map (fun x => x * x) l).
Proof. induction l as [|v l IH]; [unfold lsum; cbn; lra|]. unfold lsum in *. cbn [map fold_right]. nra. Qed.
Lemma loud_scale c l : loud (map (fun v => c * v) l) = Rabs c * loud l.
Proof.
  unfold loud. rewrite map_length, lsum_sq_scale. unfold Rdiv. rewrite Rmult_assoc. pose proof (lsum_sq_ge0 l). rewrite sqrt_mult_alt by apply pow2_ge_0. f_equal. replace (c ^ 2) with (Rsqr c) by (unfold Rsqr; ring). apply sqrt_Rsqr_abs.
Qed.
Lemma level_db l r : ild_db l r (level_diff true l r).
Proof.
  unfold ild_db, level_diff, np_div. rewrite !rms_loud. pose proof (loud_ge0 l). pose proof (loud_ge0 r). split.
  - intros L R0. rewrite (proj2 (Reqb_false _ _) R0). unfold db. assert (Q : loud l / loud r > 0) by (apply Rdiv_lt_0_compat; lra). rewrite Rabs_pos_eq by lra. rewrite (proj2 (Reqb_false _ _)) by lra. unfold M_utils.log10, Rdiv. rewrite ln_mult by (try apply Rinv_0_lt_compat; lra). rewrite ln_Rinv by lra. reflexivity.
  - intros Z. destruct (Reqb (loud r) 0) eqn:E; [reflexivity|]. apply Reqb_false in E. destruct Z as [Z|Z]; [|contradiction]. rewrite Z. unfold Rdiv. rewrite Rmult_0_l. apply db_zero.
Qed.
Lemma ild_db_unique l r v v' : ild_db l r v -> ild_db l r v' -> v = v'.
Proof. intros [A B] [A' B']. destruct (Req_dec (loud l) 0) as [E|E]; [rewrite B, B' by (left; exact E); reflexivity|]. destruct (Req_dec (loud r) 0) as [F|F]; [rewrite B, B' by (right; exact F); reflexivity|]. rewrite A, A' by assumption. reflexivity. Qed.
(** one value of the level difference *)
Definition level_is (todb : bool) (l r : list R) (v : option R) : Prop := if todb then ild_db l r v else v = Some (loud l - loud r).
Lemma level_ok todb l r : level_is todb l r (level_diff todb l r).
Proof. destruct todb; [apply level_db|]. unfold level_is, level_diff. rewrite !rms_loud. reflexivity. Qed.
Lemma level_unique todb l r v v' : level_is todb l r v -> level_is todb l r v' -> v = v'.
Proof. destruct todb; [apply ild_db_unique|]. cbn. congruence. Qed.
Lemma sos_ba w1 w2 l : butter_sos w1 w2 = Ok l -> exists b a, butter_ba w1 w2 = Ok (b, a) /\ forall x w, sosfiltfilt l x = Ok w <-> filtfilt b a x = Ok w.
Proof. intros H. destruct (sos_design _ _ _ H) as (_ & _ & _ & k & p & q & b & a & D). pose proof (P_but3.d_ba _ _ _ _ _ _ _ _ D) as E. exists b, a. split; [exact E|]. apply (f_but_sections w1 w2 b a l E H). Qed.
Lemma ba_sos w1 w2 b a : butter_ba w1 w2 = Ok (b, a) -> exists l, butter_sos w1 w2 = Ok l /\ forall x w, sosfiltfilt l x = Ok w <-> filtfilt b a x = Ok w.
Proof. intros H. destruct (ba_design _ _ _ _ H) as (_ & _ & _ & k & p & q & l & D). pose proof (P_but3.d_sos _ _ _ _ _ _ _ _ D) as E. exists l. split; [exact E|]. apply (f_but_sections w1 w2 b a l H E). Qed.

Lemma f_ild : forall h f1 f2 todb n v, length (h_left h) = n -> length (h_right h) = n ->
  (ilds_from_hrirs h (f1, f2) todb = Ok v <->
   exists b a, butter_ba (2 * f1 / IZR (h_fs h)) (2 * f2 / IZR (h_fs h)) = Ok (b, a) /\ length v = n /\
     forall i, (i < n)%nat -> exists l r, filtfilt b a (nth i (h_left h) []) = Ok l /\ filtfilt b a (nth i (h_right h) []) = Ok r /\
       if todb then ild_db l r (nth i v None) else nth i v None = Some (loud l - loud r)).
Proof.
  intros h f1 f2 todb n v L R0. unfold ilds_from_hrirs, band. cbn [fst snd]. set (w1 := 2 * f1 / IZR (h_fs h)). set (w2 := 2 * f2 / IZR (h_fs h)). split.
  - destruct (butter_sos w1 w2) as [f|] eqn:E; [|discriminate]. destruct (sos_ba _ _ _ E) as (b & a & EB & S). cbn [bind]. destruct (mapM (sosfiltfilt f) (h_left h)) as [ls|] eqn:EL; [|discriminate]. destruct (mapM (sosfiltfilt f) (h_right h)) as [rs|] eqn:ER; [|discriminate]. cbn [bind]. intros [= <-]. pose proof (proj1 (mapM_pts _ _ _ [] []) EL) as [LL HL]. pose proof (proj1 (mapM_pts _ _ _ [] []) ER) as [LR HR].
    exists b, a. split; [exact EB|]. split; [rewrite map_length, combine_length; lia|]. intros i I. exists (nth i ls []), (nth i rs []). split; [apply S, HL; lia|]. split; [apply S, HR; lia|]. rewrite (nth_map_in _ _ i None ([], [])) by (rewrite combine_length; lia). rewrite combine_nth by lia. cbn [fst snd]. apply level_ok.
  - intros (b & a & EB & LV & H). destruct (ba_sos _ _ _ _ EB) as (f & E & S). rewrite E. cbn [bind].
    assert (EX : forall (g : hrirs -> list (list R)), length (g h) = n -> (forall i, (i < n)%nat -> exists y, filtfilt b a (nth i (g h) []) = Ok y) -> exists ys, mapM (sosfiltfilt f) (g h) = Ok ys).
    { intros g Lg Hg. assert (forall l : list (list R), (forall i, (i < length l)%nat -> exists y, filtfilt b a (nth i l []) = Ok y) -> exists ys, mapM (sosfiltfilt f) l = Ok ys) as G; [|apply G; rewrite Lg; exact Hg]. induction l as [|x l IH]; intros Hl; [exists []; reflexivity|]. destruct (Hl 0%nat ltac:(cbn; lia)) as (y & Y). destruct IH as (ys & YS); [intros i I; apply (Hl (Datatypes.S i)); cbn; lia|]. exists (y :: ys). cbn [mapM]. cbn [nth] in Y. apply S in Y. rewrite Y. cbn [bind]. rewrite YS. reflexivity. }
    destruct (EX h_left L) as (ls & EL); [intros i I; destruct (H i I) as (l & r & A & _); exists l; exact A|]. destruct (EX h_right R0) as (rs & ER); [intros i I; destruct (H i I) as (l & r & _ & A & _); exists r; exact A|]. rewrite EL, ER. cbn [bind]. f_equal. pose proof (proj1 (mapM_pts _ _ _ [] []) EL) as [LL HL]. pose proof (proj1 (mapM_pts _ _ _ [] []) ER) as [LR HR].
    apply (nth_ext _ _ None None); [rewrite map_length, combine_length; lia|]. rewrite map_length, combine_length. intros i I. rewrite (nth_map_in _ _ i None ([], [])) by (rewrite combine_length; lia). rewrite combine_nth by lia. cbn [fst snd]. destruct (H i ltac:(lia)) as (l & r & A & B & C). specialize (HL i ltac:(lia)). specialize (HR i ltac:(lia)). apply S in HL. apply S in HR. rewrite A in HL. injection HL as <-. rewrite B in HR. injection HR as <-. apply (level_unique todb l r); [apply level_ok|exact C].
Qed.
Lemma f_ild_defined : forall h f1 f2 todb n, length (h_left h) = n -> length (h_right h) = n ->
  0 < 2 * f1 / IZR (h_fs h) -> 2 * f1 / IZR (h_fs h) < 2 * f2 / IZR (h_fs h) -> 2 * f2 / IZR (h_fs h) < 1 ->
  (forall i, (i < n)%nat -> (15 < length (nth i (h_left h) []))%nat /\ (15 < length (nth i (h_right h) []))%nat) ->
  exists v, ilds_from_hrirs h (f1, f2) todb = Ok v.
Proof.
  intros h f1 f2 todb n L R0 A B C H. destruct (proj1 (f_defined _ _) (conj A (conj B C))) as (b & a & f & EB & ES). pose proof (proj1 (f_but_filter _ _ _ _ _ EB ES)) as T.
  assert (G : forall l : list (list R), (forall i, (i < length l)%nat -> (15 < length (nth i l []))%nat) -> exists ys, mapM (sosfiltfilt f) l = Ok ys). { induction l as [|x l IH]; intros Hl; [exists []; reflexivity|]. destruct (T x (Hl 0%nat ltac:(cbn; lia))) as (y & _ & Y). destruct IH as (ys & YS); [intros i I; apply (Hl (S i)); cbn; lia|]. exists (y :: ys). cbn [mapM]. rewrite Y. cbn [bind]. rewrite YS. reflexivity. }
  destruct (G (h_left h)) as (ls & EL); [rewrite L; intros i I; apply (H i I)|]. destruct (G (h_right h)) as (rs & ER); [rewrite R0; intros i I; apply (H i I)|]. unfold ilds_from_hrirs, band. cbn [fst snd]. rewrite ES. cbn [bind]. rewrite EL, ER. eexists. reflexivity.
Qed.
Lemma f_ild_band_error : forall h f1 f2 todb, ~ (0 < 2 * f1 / IZR (h_fs h) /\ 2 * f1 / IZR (h_fs h) < 2 * f2 / IZR (h_fs h) /\ 2 * f2 / IZR (h_fs h) < 1) -> ilds_from_hrirs h (f1, f2) todb = Err ValueError.
Proof. intros h f1 f2 todb N. unfold ilds_from_hrirs, band. cbn [fst snd]. rewrite (proj2 (proj2 (f_defined _ _) N)). reflexivity. Qed.
Lemma f_ild_short_error : forall h f1 f2 todb x, In x (h_left h) \/ In x (h_right h) -> (length x <= 15)%nat -> ilds_from_hrirs h (f1, f2) todb = Err ValueError.
Proof.
  intros h f1 f2 todb x I L. unfold ilds_from_hrirs, band. cbn [fst snd]. set (w1 := 2 * f1 / IZR (h_fs h)). set (w2 := 2 * f2 / IZR (h_fs h)). destruct (zpk_cases w1 w2) as [(A & B & C)|[N E]]; [|rewrite (proj2 (proj2 (f_defined _ _) N)); reflexivity]. destruct (proj1 (f_defined _ _) (conj A (conj B C))) as (b & a & f & EB & ES). destruct (f_but_filter _ _ _ _ _ EB ES) as [T1 T2]. rewrite ES. cbn [bind].
  assert (G : forall l : list (list R), (exists ys, mapM (sosfiltfilt f) l = Ok ys /\ ~ In x l) \/ mapM (sosfiltfilt f) l = Err ValueError).
  { induction l as [|y l IH]; [left; exists []; split; [reflexivity|intros []]|]. cbn [mapM]. destruct (Nat.lt_ge_cases 15 (length y)) as [K|K]; [|rewrite (proj2 (T2 y K)); right; reflexivity]. destruct (T1 y K) as (w & _ & Y). rewrite Y. cbn [bind]. destruct IH as [(ys & E & N)|E]; rewrite E; cbn [bind]; [|right; reflexivity]. left. exists (w :: ys). split; [reflexivity|]. intros [<-|J]; [lia|contradiction]. }
  destruct (G (h_left h)) as [(ys & E & N)|E]; rewrite E; cbn [bind]; [|reflexivity]. destruct (G (h_right h)) as [(zs & E' & N')|E']; rewrite E'; cbn [bind]; [|reflexivity]. destruct I; contradiction.
Qed.
Lemma f_ild_default_error : forall h todb, (h_fs h <= 40000)%Z -> ilds_from_hrirs h (1000, 20000) todb = Err ValueError.
Proof.
  intros h todb L. apply f_ild_band_error. intros (A & B & C). apply IZR_le in L. destruct (Rlt_le_dec 0 (IZR (h_fs h))) as [P|P].
  - apply (Rmult_lt_compat_r (IZR (h_fs h))) in C; [|exact P]. unfold Rdiv in C. rewrite Rmult_assoc, Rinv_l in C by lra. lra.
  - destruct P as [P|P]; [|rewrite P in A; unfold Rdiv in A; rewrite Rinv_0 in A; lra]. apply Rinv_lt_0_compat in P. unfold Rdiv in A. nra.
Qed.
Lemma f_ild_swap : forall h h' f1 f2 todb n v, length (h_left h) = n -> length (h_right h) = n -> h_fs h' = h_fs h -> h_left h' = h_right h -> h_right h' = h_left h ->
  ilds_from_hrirs h (f1, f2) todb = Ok v -> ilds_from_hrirs h' (f1, f2) todb = Ok (map (option_map Ropp) v).
Proof.
  intros h h' f1 f2 todb n v L R0 EF EL ER H. apply (f_ild h f1 f2 todb n v L R0) in H. destruct H as (b & a & EB & LV & H). apply (f_ild h' f1 f2 todb n); [rewrite EL; exact R0|rewrite ER; exact L|]. rewrite EF, EL, ER. exists b, a. split; [exact EB|]. split; [rewrite map_length; exact LV|]. intros i I. destruct (H i I) as (l & r & A & B & C). exists r, l. split; [exact B|]. split; [exact A|]. rewrite (nth_map_in _ _ i None None) by lia. destruct todb.
  - destruct C as [C1 C2]. split; [intros P Q; rewrite C1 by assumption; cbn [option_map]; f_equal; unfold Rdiv; ring|intros Z; rewrite C2 by tauto; reflexivity].
  - rewrite C. cbn [option_map]. f_equal. ring.
Qed.
Lemma f_ild_gain : forall h h' gl gr f1 f2 n v, length (h_left h) = n -> length (h_right h) = n -> length (h_left h') = n -> length (h_right h') = n -> h_fs h' = h_fs h ->
  (forall i, (i < n)%nat -> gl i <> 0 /\ gr i <> 0 /\ nth i (h_left h') [] = map (fun x => gl i * x) (nth i (h_left h) []) /\ nth i (h_right h') [] = map (fun x => gr i * x) (nth i (h_right h) [])) ->
  ilds_from_hrirs h (f1, f2) true = Ok v ->
  exists v', ilds_from_hrirs h' (f1, f2) true = Ok v' /\ length v' = n /\
    forall i, (i < n)%nat -> nth i v' None = option_map (fun d => d + 20 * (ln (Rabs (gl i) / Rabs (gr i)) / ln 10)) (nth i v None).
Proof.
  intros h h' gl gr f1 f2 n v L R0 L' R' EF G H. apply (f_ild h f1 f2 true n v L R0) in H. destruct H as (b & a & EB & LV & H). set (v' := map (fun i => option_map (fun d => d + 20 * (ln (Rabs (gl i) / Rabs (gr i)) / ln 10)) (nth i v None)) (seq 0 n)). assert (NV : forall i, (i < n)%nat -> nth i v' None = option_map (fun d => d + 20 * (ln (Rabs (gl i) / Rabs (gr i)) / ln 10)) (nth i v None)) by (intros i I; unfold v'; rewrite (nth_map_in _ _ i None 0%nat) by (rewrite seq_length; exact I); rewrite seq_nth by exact I; reflexivity).
  exists v'. split; [|split; [unfold v'; rewrite map_length; apply seq_length|exact NV]]. apply (f_ild h' f1 f2 true n); [exact L'|exact R'|]. rewrite EF. exists b, a. split; [exact EB|]. split; [unfold v'; rewrite map_length; apply seq_length|]. intros i I. destruct (H i I) as (l & r & A & B & C). destruct (G i I) as (G1 & G2 & G3 & G4). exists (map (fun x => gl i * x) l), (map (fun x => gr i * x) r). rewrite G3, G4. split; [apply ff_scale; exact A|]. split; [apply ff_scale; exact B|]. rewrite NV by exact I. destruct C as [C1 C2].
  pose proof (Rabs_pos_lt _ G1) as P1. pose proof (Rabs_pos_lt _ G2) as P2. pose proof (loud_ge0 l). pose proof (loud_ge0 r). unfold ild_db. rewrite !loud_scale. split.
  - intros Q1 Q2. assert (loud l <> 0) by (intros Z; apply Q1; rewrite Z; ring). assert (loud r <> 0) by (intros Z; apply Q2; rewrite Z; ring). rewrite C1 by assumption. cbn [option_map]. f_equal. pose proof (Rinv_0_lt_compat _ P2) as P3. unfold Rdiv. rewrite (ln_mult (Rabs (gl i)) (/ Rabs (gr i))), (ln_mult (Rabs (gl i)) (loud l)), (ln_mult (Rabs (gr i)) (loud r)), ln_Rinv by lra. ring.
  - intros Z. rewrite C2; [reflexivity|]. destruct Z as [Z|Z]; apply Rmult_integral in Z; [left|right]; lra.
Qed.
Lemma f_ild_offset : forall h h' cl cr f1 f2 todb n v, length (h_left h) = n -> length (h_right h) = n -> length (h_left h') = n -> length (h_right h') = n -> h_fs h' = h_fs h ->
  (forall i, (i < n)%nat -> nth i (h_left h') [] = map (fun x => x + cl i) (nth i (h_left h) []) /\ nth i (h_right h') [] = map (fun x => x + cr i) (nth i (h_right h) [])) ->
  ilds_from_hrirs h (f1, f2) todb = Ok v -> ilds_from_hrirs h' (f1, f2) todb = Ok v.
Proof.
  intros h h' cl cr f1 f2 todb n v L R0 L' R' EF G H. apply (f_ild h f1 f2 todb n v L R0) in H. destruct H as (b & a & EB & LV & H). apply (f_ild h' f1 f2 todb n); [exact L'|exact R'|]. rewrite EF. exists b, a. split; [exact EB|]. split; [exact LV|]. intros i I. destruct (H i I) as (l & r & A & B & C). destruct (G i I) as (G3 & G4). exists l, r. rewrite G3, G4. split; [apply (f_but_offset _ _ _ _ _ _ _ EB); exact A|]. split; [apply (f_but_offset _ _ _ _ _ _ _ EB); exact B|exact C].
Qed.
(** the right ear hears what the left ear hears, [c] times as loud *)
Lemma f_ild_copy : forall h c f1 f2 n v i b a l, length (h_left h) = n -> length (h_right h) = n -> (i < n)%nat -> c <> 0 -> nth i (h_right h) [] = map (fun x => c * x) (nth i (h_left h) []) ->
  butter_ba (2 * f1 / IZR (h_fs h)) (2 * f2 / IZR (h_fs h)) = Ok (b, a) -> filtfilt b a (nth i (h_left h) []) = Ok l -> loud l <> 0 ->
  ilds_from_hrirs h (f1, f2) true = Ok v -> nth i v None = Some (- (20 * (ln (Rabs c) / ln 10))).
Proof.
  intros h c f1 f2 n v i b' a' l' L R0 I C E EB' A' Z H. apply (f_ild h f1 f2 true n v L R0) in H. destruct H as (b & a & EB & LV & H). rewrite EB' in EB. injection EB as <- <-. destruct (H i I) as (l & r & A & B & [C1 C2]). rewrite A' in A. injection A as <-. rewrite E in B. rewrite (ff_scale _ _ c _ _ A') in B. injection B as <-. rewrite loud_scale in *. pose proof (Rabs_pos_lt _ C) as P. pose proof (loud_ge0 l'). rewrite C1; [|exact Z|apply Rmult_integral_contrapositive_currified; lra]. f_equal. rewrite ln_mult by lra. unfold Rdiv. ring.
Qed.
