(** SDM and SOFA files. *)
From Coq Require Import String.
From Verif Require Import Base BaseFacts M_utils S_utils M_sig M_process S_process M_sph S_sph S_grids M_io M_io2 S_io S_io2 S_lsq P_sig P_utils P_utils2 P_lsq X_io2.
Open Scope R_scope.

(** * SDM *)
Lemma nan_filled d a : shape (nan_to d a) = shape a /\ filled d (data a) (data (nan_to d a)).
Proof. split; [reflexivity|]. unfold filled, nan_to. cbn [data]. induction (data a) as [|[x|] l IH]; cbn [map]; constructor; auto. Qed.
Lemma filled_no_nan d v w : filled d v w -> ~ In None w.
Proof. induction 1 as [|x y v w E F IH]; intro H; [exact H|]. destruct H as [H|H]; [destruct x; congruence|auto]. Qed.
Lemma first_ok {A} (a b : option A) v : first_key a b = Ok v <-> stored a b v.
Proof. unfold first_key, stored, key. destruct a as [x|], b as [y|]; split; intro H; try discriminate; try (injection H as ->); auto; destruct H as [H|[H1 H2]]; congruence. Qed.
Lemma first_err {A} (a b : option A) : a = None -> b = None -> first_key a b = Err KeyError.
Proof. intros -> ->. reflexivity. Qed.
Lemma sdm_ok m h azi zen fs init : stored (k_href m) (k_p m) h -> stored (k_sazi m) (k_phi m) azi -> stored (k_szen m) (k_theta m) zen -> k_sfs m = Some fs ->
  exists a z, load_sdm m init = Ok (squeeze h, a, z, py_int fs) /\ shape a = shape (squeeze azi) /\ shape z = shape (squeeze zen) /\
    (init = true -> filled 0 (data azi) (data a) /\ filled (PI / 2) (data zen) (data z)) /\ (init = false -> data a = data azi /\ data z = data zen).
Proof.
  intros H A Z0 F. unfold load_sdm. rewrite (proj2 (first_ok _ _ _) H). cbn [bind]. rewrite (proj2 (first_ok _ _ _) A). cbn [bind]. rewrite (proj2 (first_ok _ _ _) Z0). cbn [bind]. rewrite F. cbn [key bind].
  do 2 eexists. split; [reflexivity|]. destruct init.
  - destruct (nan_filled 0 (squeeze azi)) as [S1 F1]. destruct (nan_filled (PI / 2) (squeeze zen)) as [S2 F2]. split; [exact S1|]. split; [exact S2|]. split; [intros _; split; assumption|discriminate].
  - split; [reflexivity|]. split; [reflexivity|]. split; [discriminate|]. intros _. split; reflexivity.
Qed.
Lemma sdm_missing m init : (k_href m = None /\ k_p m = None) \/ (k_sazi m = None /\ k_phi m = None) \/ (k_szen m = None /\ k_theta m = None) \/ k_sfs m = None ->
  load_sdm m init = Err KeyError.
Proof.
  intro H. unfold load_sdm, first_key, key. destruct (k_href m), (k_p m), (k_sazi m), (k_phi m), (k_szen m), (k_theta m), (k_sfs m); cbn [bind]; try reflexivity;
    exfalso; destruct H as [[H1 H2]|[[H1 H2]|[[H1 H2]|H]]]; discriminate.
Qed.

(** * SOFA *)
Lemma flat_nth {A} m (f : nat -> list A) k d i j : (forall g, (g < m)%nat -> length (f g) = k) -> (i < m)%nat -> (j < k)%nat -> nth (i * k + j) (flat_map f (seq 0 m)) d = nth j (f i) d.
Proof.
  intros L Hi Hj. assert (G : forall n s, (s + n <= m)%nat -> forall i, (i < n)%nat -> nth (i * k + j) (flat_map f (seq s n)) d = nth j (f (s + i)%nat) d).
  { induction n as [|n IH]; intros s B i' Hi'; [lia|]. cbn [seq flat_map]. destruct i' as [|i'].
    - rewrite app_nth1 by (rewrite L by lia; lia). rewrite Nat.add_0_r. reflexivity.
    - rewrite app_nth2 by (rewrite L by lia; lia). rewrite L by lia. replace (S i' * k + j - k)%nat with (i' * k + j)%nat by lia. rewrite IH by lia. f_equal. f_equal. lia. }
  rewrite (G m 0%nat) by lia. reflexivity.
Qed.
Lemma flat_len {A} m (f : nat -> list A) k : (forall g, (g < m)%nat -> length (f g) = k) -> length (flat_map f (seq 0 m)) = (m * k)%nat.
Proof.
  intro L. assert (G : forall n s, (s + n <= m)%nat -> length (flat_map f (seq s n)) = (n * k)%nat).
  { induction n as [|n IH]; intros s B; [reflexivity|]. cbn [seq flat_map]. rewrite app_length, IH, L by lia. lia. }
  apply G. lia.
Qed.
Lemma col_ok m n d j : (j < n)%nat -> nd_col (Nd [m; n] d) j = Ok (map (fun i => nth (i * n + j) d 0) (seq 0 m)).
Proof. intro H. unfold nd_col. cbn [shape data]. rewrite (proj2 (Nat.ltb_lt j n) H). reflexivity. Qed.
Lemma ear_ok m t d e : (e < 2)%nat -> length d = (m * 2 * t)%nat -> exists r, nd_ear (Nd [m; 2%nat; t] d) e = Ok (Nd [m; t] r) /\ length r = (m * t)%nat /\
  forall g i, (g < m)%nat -> (i < t)%nat -> nth (g * t + i) r 0 = nth ((g * 2 + e) * t + i) d 0.
Proof.
  intros He L. unfold nd_ear. cbn [shape data]. rewrite (proj2 (Nat.ltb_lt e 2) He). eexists. split; [reflexivity|].
  assert (LL : forall g, (g < m)%nat -> length (firstn t (skipn ((g * 2 + e) * t) d)) = t).
  { intros g Hg. rewrite firstn_length, skipn_length, L. assert ((g * 2 + e + 1) * t <= m * 2 * t)%nat by (apply Nat.mul_le_mono_r; lia). nia. }
  split; [apply flat_len; exact LL|]. intros g i Hg Hi. rewrite (flat_nth m _ t) by assumption. rewrite nth_firstn by exact Hi. apply nth_skipn.
Qed.
Lemma mean_seq m (f : nat -> R) : mean (map f (seq 0 m)) = rsum m f / INR m.
Proof. unfold mean. rewrite map_length, seq_length, lsum_map_seq. reflexivity. Qed.
Lemma sofa_ok s m t ir pos rate : sofa_file s m t ir pos rate -> (2 <= m)%nat -> t <> 1%nat -> length ir = (m * 2 * t)%nat -> length pos = (m * 3)%nat ->
  (spread m pos < 1 / 10 /\ (forall g, (g < m)%nat -> PI / 2 - sofa_ele pos g * (PI / 180) > - (10 / 1000000)) ->
   exists h, load_sofa_hrirs s = Ok h /\ h_fs h = py_int rate /\ num_grid_points h = m /\ h_taps h = t /\ length (h_left h) = m /\ length (h_right h) = m /\ length (h_azi h) = m /\ length (h_zen h) = m /\
     (forall g, (g < m)%nat -> nth g (h_azi h) 0 = sofa_azi pos g * (PI / 180) /\ nth g (h_zen h) 0 = PI / 2 - sofa_ele pos g * (PI / 180)) /\
     forall g i, (g < m)%nat -> (i < t)%nat -> nth i (nth g (h_left h) []) 0 = nth (g * 2 * t + i) ir 0 /\ nth i (nth g (h_right h) []) 0 = nth ((g * 2 + 1) * t + i) ir 0) /\
  (~ (spread m pos < 1 / 10 /\ (forall g, (g < m)%nat -> PI / 2 - sofa_ele pos g * (PI / 180) > - (10 / 1000000))) -> load_sofa_hrirs s = Err AssertionError).
Proof.
  intros (ER & EI & EP) M T LI LP. unfold load_sofa_hrirs. rewrite ER, EI, EP. cbn [key bind].
  assert (SI : squeeze (Nd [m; 2%nat; t] ir) = Nd [m; 2%nat; t] ir).
  { unfold squeeze. cbn [shape data filter Nat.eqb negb]. rewrite (proj2 (Nat.eqb_neq m 1)), (proj2 (Nat.eqb_neq t 1)) by lia. reflexivity. }
  rewrite SI, squeeze2 by lia. rewrite !col_ok by lia. cbn [bind]. rewrite map_length, seq_length.
  rewrite (proj2 (Nat.eqb_neq m 0)) by lia. rewrite !map_map, !mean_seq. cbn [negb andb].
  assert (SE : rsum m (fun x => Rabs (nth (x * 3 + 2) pos 0 - rsum m (fun i => nth (i * 3 + 2) pos 0) / INR m)) / INR m = spread m pos) by reflexivity. rewrite SE.
  assert (RB : Rltb (spread m pos) (1 / 10) = true <-> spread m pos < 1 / 10) by apply Rltb_true.
  set (zen := map (fun x => PI / 2 - np_deg2rad (nth (x * 3 + 1) pos 0)) (seq 0 m)).
  assert (ZB : forallb (fun z => Rltb (- (10 / 1000000)) z) zen = true <-> forall g, (g < m)%nat -> PI / 2 - sofa_ele pos g * (PI / 180) > - (10 / 1000000)).
  { rewrite forallb_forall. split.
    - intros H g Hg. apply Rltb_true. apply H. unfold zen. apply in_map_iff. exists g. split; [reflexivity|]. apply in_seq. lia.
    - intros H z Hz. unfold zen in Hz. apply in_map_iff in Hz. destruct Hz as (g & <- & Hg). apply in_seq in Hg. apply Rltb_true. apply H. lia. }
  split.
  - intros [C1 C2]. rewrite (proj2 RB C1). cbn [assert_ bind]. rewrite (proj2 ZB C2). cbn [assert_ bind].
    destruct (ear_ok m t ir 0 ltac:(lia) LI) as (rl & EL & LL & NL). destruct (ear_ok m t ir 1 ltac:(lia) LI) as (rr & ERR & LR & NR). rewrite EL, ERR. cbn [bind]. rewrite !squeeze2 by lia.
    unfold hrirs_of_nd, nd_len, nd_rows. cbn [shape data bind]. rewrite Nat.eqb_refl. cbn [assert_ bind]. unfold hrirs_init. cbn [rows cols]. rewrite !rows_of_length, Nat.eqb_refl. cbn [assert_ bind].
    unfold arr1, zen. rewrite !map_length, seq_length. rewrite !asarray_vec by lia. cbn [bind data]. rewrite !map_length, seq_length, !Nat.eqb_refl. cbn [assert_ bind].
    eexists. split; [reflexivity|]. cbn [h_fs num_grid_points h_taps h_azi h_zen h_left h_right]. do 3 (split; [reflexivity|]). do 2 (split; [apply rows_of_length|]). do 2 (split; [rewrite map_length, seq_length; reflexivity|]).
    split.
    + intros g Hg. split; (rewrite (nth_map_seq _ _ _ _ Hg) || (erewrite nth_map_in by (rewrite seq_length; exact Hg); rewrite seq_nth by exact Hg)); unfold np_deg2rad, sofa_azi, sofa_ele; cbn [Nat.add]; rewrite ?Nat.add_0_r; reflexivity.
    + intros g i Hg Hi. rewrite !rows_of_nth by assumption. rewrite NL, NR by assumption. rewrite Nat.add_0_r. split; reflexivity.
  - intro NC. destruct (Rltb (spread m pos) (1 / 10)) eqn:B1; [|reflexivity]. cbn [assert_ bind]. destruct (forallb _ zen) eqn:B2; [|reflexivity]. exfalso. apply NC. split; [apply RB; reflexivity|apply ZB; reflexivity].
Qed.
Lemma sofa_single s t ir pos rate : sofa_file s 1 t ir pos rate -> load_sofa_hrirs s = Err IndexError.
Proof. intros (ER & EI & EP). unfold load_sofa_hrirs. rewrite ER, EI, EP. reflexivity. Qed.
Lemma sofa_missing s : sf_rate s = None \/ sf_ir s = None \/ sf_pos s = None -> load_sofa_hrirs s = Err KeyError.
Proof. intro H. unfold load_sofa_hrirs, key. destruct (sf_rate s), (sf_ir s), (sf_pos s); cbn [bind]; try reflexivity. exfalso. destruct H as [H|[H|H]]; discriminate. Qed.
Lemma sofa_sh pinv s h N : load_sofa_hrirs s = Ok h -> length (h_azi h) = length (h_left h) -> length (h_right h) = length (h_left h) -> length (h_zen h) = length (h_left h) ->
  exists Y, sh_matrix N (h_azi h) (h_zen h) = Ok Y /\ nr Y = length (h_left h) /\ nc Y = ((N + 1) ^ 2)%nat /\ (penrose Y (pinv Y) ->
  exists l r, sofa_to_sh pinv s N = Ok (l, r, h_fs h) /\ nr l = ((N + 1) ^ 2)%nat /\ nr r = ((N + 1) ^ 2)%nat /\ nc l = h_taps h /\ nc r = h_taps h /\
    forall i, (i < h_taps h)%nat -> best_fit Y (fun g => nth i (nth g (h_left h) []) 0) (fun k => ent l k i) /\ best_fit Y (fun g => nth i (nth g (h_right h) []) 0) (fun k => ent r k i) /\
      (left_invertible Y -> forall v, ((forall g, (g < nr Y)%nat -> nth i (nth g (h_left h) []) 0 = rsum (nc Y) (fun k => ent Y g k * v k)) -> forall k, (k < nc Y)%nat -> ent l k i = v k) /\
        ((forall g, (g < nr Y)%nat -> nth i (nth g (h_right h) []) 0 = rsum (nc Y) (fun k => ent Y g k * v k)) -> forall k, (k < nc Y)%nat -> ent r k i = v k))).
Proof.
  intros E LA LR LZ. unfold sofa_to_sh. rewrite E. cbn [bind].
  assert (SH : exists Y, sh_matrix N (h_azi h) (h_zen h) = Ok Y /\ nr Y = length (h_left h) /\ nc Y = ((N + 1) ^ 2)%nat).
  { unfold sh_matrix, dirs_ok. rewrite LA, LZ, Nat.eqb_refl. cbn [orb]. eexists. split; [reflexivity|]. cbn [nr nc]. auto. }
  destruct SH as (Y & -> & NY & CY). exists Y. split; [reflexivity|]. split; [exact NY|]. split; [exact CY|]. intro PY. cbn [bind]. pose proof PY as (RP & CP & _).
  unfold matmul, ear_mat. cbn [nr nc ent]. rewrite CP, NY, LR, Nat.eqb_refl. cbn [bind]. do 2 eexists. split; [reflexivity|]. cbn [nr nc ent]. rewrite RP. do 2 (split; [exact CY|]). do 2 (split; [reflexivity|]).
  intros i Hi. rewrite <- NY. split; [exact (pinv_fit Y (pinv Y) _ PY)|]. split; [exact (pinv_fit Y (pinv Y) _ PY)|]. intros LI v. split; intro Q; exact (pinv_exact Y (pinv Y) _ PY v LI Q).
Qed.
