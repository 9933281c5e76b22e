(** Modal weights: final forms and examples. *)
From Verif Require Import Base BaseFacts M_utils M_sig M_sph0 M_sph S_sph P_sph1 P_sph3 P_sph12 S_parsa P_gl1 P_gl2 P_gl3 P_gl5 S_lgauss S_modal P_modal P_modal2 P_modal3.
Open Scope R_scope.
Local Arguments eval_legendre : simpl never.

Theorem f_hyper : forall N, let h := hypercardioid_modal_weights N in
  length h = (N + 1)%nat /\ unit_response h /\ beam_energy h (4 * PI / (INR N + 1) ^ 2) /\
  forall c e, length c = (N + 1)%nat -> unit_response c -> beam_energy c e ->
    4 * PI / (INR N + 1) ^ 2 <= e /\ (e = 4 * PI / (INR N + 1) ^ 2 -> c = h).
Proof.
  intros N h. split; [apply hyper_len|]. split; [apply hyper_unit|]. split.
  - rewrite <- hyper_en. apply energy_ex. rewrite hyper_len. lia.
  - intros c e L U E. rewrite (energy_val c e ltac:(lia) E). apply hyper_best; assumption.
Qed.
Theorem f_cardioid : forall N, let c := cardioid_modal_weights N in
  length c = (N + 1)%nat /\ beam c (fun t => ((1 + cos t) / 2) ^ N) /\ beam_energy c (4 * PI / (2 * INR N + 1)) /\
  (forall c', length c' = (N + 1)%nat -> beam c' (fun t => ((1 + cos t) / 2) ^ N) -> c' = c) /\
  forall n, (n <= N)%nat -> nth n c 0 = 4 * PI * (INR (fact N) * INR (fact (N + 1)) / (INR (fact (N + n + 1)) * INR (fact (N - n)))) / (INR N + 1).
Proof.
  intros N c. assert (L : length c = (N + 1)%nat) by apply card_len.
  assert (B : beam c (fun t => ((1 + cos t) / 2) ^ N)).
  { intros t. rewrite (beam_amp c ltac:(lia) t). unfold c. rewrite cardioid_amp. reflexivity. }
  split; [exact L|]. split; [exact B|]. split; [rewrite <- cardioid_en; apply energy_ex; fold c; lia|]. split.
  - intros c' L' B'. apply (beam_inj c' c (fun t => ((1 + cos t) / 2) ^ N)); auto; lia.
  - intros n Hn. unfold c. rewrite card_nth by exact Hn. unfold cf. rewrite (proj2 (Nat.leb_le n N)) by exact Hn.
    replace (N + 1)%nat with (S N) by lia. rewrite fact_S_INR. field. pose proof (pos_INR N). repeat split; try apply INR_fact_neq_0. lra.
Qed.
Lemma roots_list n x : legendre_roots n x -> roots n (fun i => nth i x 0).
Proof.
  intros (L & A & B & P & IL & Z). split; [|intros i j H; apply A; exact H].
  intros i Hi. assert (I : In (nth i x 0) x) by (apply nth_In; lia). pose proof (B _ I) as R0. split; [|exact R0].
  rewrite <- (legendre_unique n P IL) by lra. apply Z. exact I.
Qed.
Theorem f_longest : forall N x c e m, legendre_roots (N + 1) x -> length c = (N + 1)%nat -> beam_energy c e -> beam_moment c m ->
  Rabs m <= nth N x 0 * e /\
  (m = nth N x 0 * e <-> exists k, forall n, (n <= N)%nat -> nth n c 0 = k * eval_legendre n (nth N x 0)).
Proof.
  intros N x c e m RX L E M. apply roots_list in RX. replace (N + 1)%nat with (S N) in RX by lia.
  rewrite (energy_val c e ltac:(lia) E). split; [exact (moment_bound N (fun i => nth i x 0) c RX L m M)|]. split.
  - intros ->. exact (moment_best N (fun i => nth i x 0) c RX L M).
  - intros K. exact (moment_unique c _ _ ltac:(lia) M (at_top N (fun i => nth i x 0) c RX L K)).
Qed.
Theorem f_maxre : forall N, let r := cos (1379 / 10 * PI / 180 / (INR N + 151 / 100)) in
  let K := rsum (N + 1) (fun n => (2 * INR n + 1) * eval_legendre n r ^ 2) in
  maxre_modal_weights N false = Ok (Some (map (fun n => eval_legendre n r) (seq 0 (N + 1)))) /\
  exists c e m, maxre_modal_weights N true = Ok (Some c) /\ length c = (N + 1)%nat /\ unit_response c /\ 0 < nth 0 c 0 /\
    (forall n, (n <= N)%nat -> nth n c 0 = nth 0 c 0 * eval_legendre n r) /\
    beam_energy c e /\ beam_moment c m /\ 0 < e /\
    m / e = r - (INR N + 1) * eval_legendre N r * eval_legendre (N + 1) r / K.
Proof.
  intros N r K. split.
  { unfold maxre_modal_weights, unit_amp. rewrite maxre_list. unfold at_r. do 2 f_equal. apply map_ext. intros n. apply Rmult_1_l. }
  destruct (maxre_true N) as (a & PA & E & U). change (r_code N) with r in *. set (c := at_r N (/ a) r) in *.
  assert (KE : K = kern (S N) r r).
  { unfold K, kern. replace (N + 1)%nat with (S N) by lia. apply rsum_ext. intros. ring. }
  pose proof (kern_pos N r) as KP. pose proof PI_RGT_0 as PP.
  assert (LC : length c = (N + 1)%nat) by apply at_r_len.
  assert (C0 : nth 0 c 0 = / a) by (unfold c, at_r; rewrite nth_map_seq by lia; rewrite L_0; ring).
  assert (EN : en c = (/ a) ^ 2 / (4 * PI) * kern (S N) r r) by apply at_r_energy.
  exists c, (en c), ((/ a) ^ 2 / (4 * PI) * (r * kern (S N) r r - (INR N + 1) * eval_legendre N r * eval_legendre (S N) r)).
  assert (IA : 0 < / a) by (apply Rinv_0_lt_compat; exact PA).
  assert (Q : 0 < (/ a) ^ 2 / (4 * PI)) by (apply Rdiv_lt_0_compat; [apply pow_lt; exact IA|lra]).
  repeat split; auto.
  - rewrite C0. exact IA.
  - intros n Hn. rewrite C0. unfold c, at_r. rewrite nth_map_seq by lia. reflexivity.
  - apply energy_ex. lia.
  - apply at_r_moment.
  - rewrite EN. apply Rmult_lt_0_compat; lra.
  - rewrite EN, KE. replace (N + 1)%nat with (S N) by lia. field. repeat split; lra.
Qed.
Lemma butter_list N k n_c : butterworth_modal_weights N k n_c false = Ok (Some (map (fun n => 1 / sqrt (1 + (INR n / n_c) ^ (2 * k))) (seq 0 (N + 1)))).
Proof. reflexivity. Qed.
Lemma butter_term k y : 0 < 1 / sqrt (1 + y ^ (2 * k)) /\ (1 / sqrt (1 + y ^ (2 * k))) ^ 2 * (1 + y ^ (2 * k)) = 1.
Proof.
  assert (P : 0 < 1 + y ^ (2 * k)) by (rewrite pow_mult; pose proof (pow_le (y ^ 2) k (pow2_ge_0 y)); lra).
  pose proof (sqrt_lt_R0 _ P) as Q. split; [apply Rdiv_lt_0_compat; lra|].
  replace (1 + y ^ (2 * k)) with (sqrt (1 + y ^ (2 * k)) * sqrt (1 + y ^ (2 * k))) at 2 by (apply sqrt_sqrt; lra). field. lra.
Qed.
Theorem f_butter : forall N k n_c, n_c <> 0 -> exists b c, butterworth_modal_weights N k n_c false = Ok (Some b) /\
  butterworth_modal_weights N k n_c true = Ok (Some c) /\ length b = (N + 1)%nat /\ length c = (N + 1)%nat /\ unit_response c /\
  (exists a, 0 < a /\ forall n, nth n c 0 = a * nth n b 0) /\
  (forall n, (n <= N)%nat -> 0 < nth n b 0 /\ nth n b 0 ^ 2 * (1 + (INR n / n_c) ^ (2 * k)) = 1) /\
  (forall i j, (i <= j <= N)%nat -> nth j b 0 <= nth i b 0).
Proof.
  intros N k n_c H. set (b := map (fun n => 1 / sqrt (1 + (INR n / n_c) ^ (2 * k))) (seq 0 (N + 1))).
  assert (LB : length b = (N + 1)%nat) by (unfold b; rewrite map_length, seq_length; reflexivity).
  assert (NB : forall n, (n <= N)%nat -> nth n b 0 = 1 / sqrt (1 + (INR n / n_c) ^ (2 * k))) by (intros n Hn; unfold b; rewrite nth_map_seq by lia; reflexivity).
  assert (PB : 0 < response0 b).
  { apply response0_pos; [lia|]. intros y Iy. unfold b in Iy. apply in_map_iff in Iy. destruct Iy as (n & <- & _). apply butter_term. }
  destruct (unit_amp_ok N b LB ltac:(lra)) as [E U].
  exists b, (map (fun x => x / response0 b) b). split; [reflexivity|]. split; [exact E|]. split; [exact LB|]. split; [rewrite map_length; exact LB|]. split; [exact U|]. split; [|split].
  - exists (/ response0 b). split; [apply Rinv_0_lt_compat; exact PB|]. intros n. destruct (Nat.lt_ge_cases n (length b)) as [L|G].
    + rewrite (nth_map_in (fun x => x / response0 b) b n 0 0) by exact L. unfold Rdiv. ring.
    + rewrite !nth_overflow by (rewrite ?map_length; exact G). ring.
  - intros n Hn. rewrite NB by exact Hn. apply butter_term.
  - intros i j Hij. rewrite !NB by lia.
    assert (PW : (INR i / n_c) ^ (2 * k) <= (INR j / n_c) ^ (2 * k)).
    { rewrite !pow_mult. apply pow_incr. split; [apply pow2_ge_0|]. unfold Rdiv. rewrite !Rpow_mult_distr. apply Rmult_le_compat_r; [apply pow2_ge_0|]. apply pow_incr. split; [apply pos_INR|apply le_INR; lia]. }
    assert (P1 : 0 <= (INR i / n_c) ^ (2 * k)) by (rewrite pow_mult; apply pow_le, pow2_ge_0).
    unfold Rdiv. rewrite !Rmult_1_l. apply Rinv_le_contravar; [apply sqrt_lt_R0; unfold Rdiv in P1; lra|]. apply sqrt_le_1_alt. unfold Rdiv in PW. lra.
Qed.
Theorem f_unity : forall w, let a := rsum (length w) (fun n => (2 * INR n + 1) / (4 * PI) * nth n w 0) in
  (a = 0 -> unity_gain w = None) /\ (a <> 0 -> unity_gain w = Some (map (fun x => x / a) w)).
Proof.
  intros w a. unfold unity_gain. fold a. split; intros H; [rewrite (proj2 (Reqb_true a 0) H)|rewrite (proj2 (Reqb_false a 0) H)]; reflexivity.
Qed.
(** first order: the weights 1, 1/sqrt 3 have the longest energy vector *)
Theorem ex_longest : legendre_roots 2 [- (1 / sqrt 3); 1 / sqrt 3] /\ (exists e, beam_energy [1; 1 / sqrt 3] e) /\ exists m, beam_moment [1; 1 / sqrt 3] m.
Proof.
  assert (Q : sqrt 3 * sqrt 3 = 3) by (apply sqrt_sqrt; lra). assert (QP : 0 < sqrt 3) by (apply sqrt_lt_R0; lra).
  assert (Q1 : 1 < sqrt 3) by (rewrite <- sqrt_1; apply sqrt_lt_1; lra).
  assert (I1 : 0 < 1 / sqrt 3 < 1) by (split; [apply Rdiv_lt_0_compat; lra|apply (Rmult_lt_reg_r (sqrt 3)); [exact QP|]; unfold Rdiv; rewrite Rmult_assoc, Rinv_l by lra; lra]).
  assert (I2 : (1 / sqrt 3) * (1 / sqrt 3) * 3 = 1) by (replace ((1 / sqrt 3) * (1 / sqrt 3) * 3) with (3 / (sqrt 3 * sqrt 3)) by (field; lra); rewrite Q; field).
  split; [|split].
  - split; [reflexivity|]. split; [|split].
    + intros i j H. assert (i = 0%nat /\ j = 1%nat) as [-> ->] by lia. cbn [nth]. lra.
    + intros y [<-|[<-|[]]]; lra.
    + exists (eval_legendre 2). split; [apply legendre_is|]. intros y. pose proof (L_S 0 y) as E. rewrite L_1, L_0 in E. simpl INR in E. split.
      * intros Z. rewrite Z in E. assert (F : (y - 1 / sqrt 3) * (y + 1 / sqrt 3) = 0) by nra. apply Rmult_integral in F. cbn [In]. destruct F as [F|F]; [right; left|left]; lra.
      * intros [<-|[<-|[]]]; nra.
  - eexists. apply energy_ex. cbn [length]. lia.
  - eexists.
    assert (X : [1; 1 / sqrt 3] = at_r 1 1 (1 / sqrt 3)) by (unfold at_r; cbn [seq Nat.add map]; rewrite L_0, L_1; f_equal; [ring|f_equal; ring]).
    rewrite X. apply at_r_moment.
Qed.
