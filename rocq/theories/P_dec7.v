(** ALLRAP and ALLRAD. *)
From Verif Require Import Base BaseFacts M_utils M_sph0 M_sig M_process M_sph M_grids M_decoder M_decoder2
  S_utils S_sph S_decoder S_decoder2 P_utils P_sig P_sph7 P_sph9 P_sph10 P_sph11 P_sph12 P_sph13 P_dec1 P_dec2 P_dec3 P_dec6.
Open Scope R_scope.

(** ** columns that stay *)
Definition keep_of (imag : option (list nat)) (n : nat) : list nat :=
  match imag with None => seq 0 n | Some idx => np_delete idx (seq 0 n) end.
Lemma existsb_eqb i l : existsb (Nat.eqb i) l = true <-> In i l.
Proof.
  rewrite existsb_exists. split; [intros [x [I E]]; apply Nat.eqb_eq in E; subst; exact I|intro I; exists i; split; [exact I|apply Nat.eqb_refl]].
Qed.
Lemma delete_kept idx n : forall i, kept_from i (fun k => In k idx) n (delete_from i idx (seq i n)).
Proof.
  induction n as [|n IH]; intro i; cbn; [reflexivity|]. destruct (existsb (Nat.eqb i) idx) eqn:E.
  - left. split; [apply existsb_eqb; exact E|apply IH].
  - right. split; [intro I; apply existsb_eqb in I; congruence|]. eexists. split; [reflexivity|apply IH].
Qed.
Lemma seq_kept n : forall i, kept_from i (fun _ => False) n (seq i n).
Proof. induction n as [|n IH]; intro i; cbn; [reflexivity|]. right. split; [tauto|]. eexists. split; [reflexivity|apply IH]. Qed.
Lemma keep_real imag n : real_ls imag n (keep_of imag n).
Proof. unfold real_ls, keep_of, np_delete. destruct imag; [apply delete_kept|apply seq_kept]. Qed.
Lemma kept_in bad n : forall i l x, kept_from i bad n l -> In x l -> (i <= x < i + n)%nat /\ ~ bad x.
Proof.
  induction n as [|n IH]; intros i l x; cbn.
  - intros -> [].
  - intros [[B K]|[B [t [-> K]]]] I.
    + apply (IH _ _ x) in K; [|exact I]. destruct K; split; [lia|assumption].
    + destruct I as [<-|I]; [split; [lia|exact B]|]. apply (IH _ _ x) in K; [|exact I]. destruct K; split; [lia|assumption].
Qed.
Lemma kept_nth bad n i l b : kept_from i bad n l -> (b < length l)%nat -> (i <= nth b l 0%nat < i + n)%nat.
Proof. intros K Hb. apply (kept_in bad n i l (nth b l 0%nat) K). apply nth_In. exact Hb. Qed.
Lemma kept_unique bad n : forall i l l', kept_from i bad n l -> kept_from i bad n l' -> l = l'.
Proof.
  induction n as [|n IH]; intros i l l'; cbn; [congruence|].
  intros [[B K]|[B [t [-> K]]]] [[B' K']|[B' [t' [-> K']]]]; try contradiction; [eauto|]. f_equal. eauto.
Qed.
Lemma del_cols_ent imag G : nr (del_cols imag G) = nr G /\ nc (del_cols imag G) = length (keep_of imag (nc G)) /\
  forall a b, (b < length (keep_of imag (nc G)))%nat -> ent (del_cols imag G) a b = ent G a (nth b (keep_of imag (nc G)) 0%nat).
Proof.
  unfold del_cols, keep_of. destruct imag; cbn [nr nc ent]; [auto|]. rewrite seq_length. repeat split. intros a b Hb.
  rewrite seq_nth by exact Hb. reflexivity.
Qed.
Lemma del_rows_ent imag G : nc (del_rows imag G) = nc G /\ nr (del_rows imag G) = length (keep_of imag (nr G)) /\
  forall a b, (a < length (keep_of imag (nr G)))%nat -> ent (del_rows imag G) a b = ent G (nth a (keep_of imag (nr G)) 0%nat) b.
Proof.
  unfold del_rows, keep_of. destruct imag; cbn [nr nc ent]; [auto|]. rewrite seq_length. repeat split. intros a b Hb.
  rewrite seq_nth by exact Hb. reflexivity.
Qed.

(** ** weights *)
Lemma maxre_weights_ok N : exists a, unity_gain (max_rE_weights N) = Some a /\ length a = (N + 1)%nat /\ unit_response a /\
  (forall n, (n <= N)%nat -> nth n a 0 = nth 0 a 0 * max_rE N n) /\ 0 < nth 0 a 0.
Proof.
  pose proof (maxre_response_pos N) as P. unfold unity_gain. fold (response0 (max_rE_weights N)).
  rewrite (proj2 (Reqb_false _ 0)) by lra. set (r := response0 (max_rE_weights N)) in *.
  eexists. split; [reflexivity|].
  assert (LW : length (max_rE_weights N) = (N + 1)%nat) by (unfold max_rE_weights; rewrite map_length, seq_length; reflexivity).
  assert (NT : forall n, (n <= N)%nat -> nth n (map (fun x => x / r) (max_rE_weights N)) 0 = max_rE N n / r).
  { intros n Hn. rewrite (nth_map_in (fun x => x / r) (max_rE_weights N) n 0 0) by lia. f_equal.
    unfold max_rE_weights. rewrite nth_map_seq by lia. unfold max_rE, np_deg2rad. reflexivity. }
  assert (E0 : max_rE N 0 = 1) by reflexivity.
  split; [rewrite map_length; exact LW|]. split.
  - apply (unity_gain_unit (max_rE_weights N)). unfold unity_gain. fold (response0 (max_rE_weights N)). fold r.
    rewrite (proj2 (Reqb_false r 0)) by lra. reflexivity.
  - split.
    + intros n Hn. rewrite !NT by lia. rewrite E0. field. lra.
    + rewrite NT by lia. rewrite E0. apply Rdiv_lt_0_compat; lra.
Qed.

(** ** panning function *)
Lemma cos_angle_range u v : -1 <= cos_angle u v <= 1.
Proof.
  unfold cos_angle. pose proof (norm3_nonneg u). pose proof (norm3_nonneg v).
  destruct (Req_dec (norm3 u * norm3 v) 0) as [Z|Z].
  - rewrite Z. unfold Rdiv. rewrite Rinv_0, Rmult_0_r. lra.
  - assert (P : 0 < norm3 u * norm3 v) by (assert (0 <= norm3 u * norm3 v) by (apply Rmult_le_pos; assumption); lra).
    pose proof (dot3_norms u v) as A. pose proof (dot3_norms (scal3 (-1) u) v) as B.
    replace (dot3 (scal3 (-1) u) v) with (- dot3 u v) in B by (unfold dot3, scal3, vx, vy, vz; cbn [fst snd]; ring).
    replace (norm3 (scal3 (-1) u)) with (norm3 u) in B by (unfold norm3; f_equal; unfold dot3, scal3, vx, vy, vz; cbn [fst snd]; ring).
    set (c := norm3 u * norm3 v) in *. split.
    + apply Rmult_le_reg_r with c; [exact P|]. replace (dot3 u v / c * c) with (dot3 u v) by (field; lra). lra.
    + apply Rmult_le_reg_r with c; [exact P|]. replace (dot3 u v / c * c) with (dot3 u v) by (field; lra). lra.
Qed.
Lemma pattern_harmonics N a u v au zu av zv : length a = (N + 1)%nat -> 0 <= zu <= PI -> 0 <= zv <= PI ->
  aims u (sph2cart au zu 1) -> aims v (sph2cart av zv 1) ->
  pattern a (cos_angle u v) = rsum (N + 1) (fun n => rsum (2 * n + 1) (fun i =>
     sh_real n (Z.of_nat i - Z.of_nat n) au zu * nth n a 0 * sh_real n (Z.of_nat i - Z.of_nat n) av zv)).
Proof.
  intros LA ZU ZV AU AV. pose proof (aims_cos u v _ _ (unit_dir au zu) (unit_dir av zv) AU AV) as D.
  pose proof (cos_angle_range u v) as CR.
  pose proof (dirac_pattern a (acos (cos_angle u v)) au zu av zv ZU ZV) as P. rewrite cos_acos in P by lra. specialize (P D).
  unfold dirac_at in P. rewrite cos_acos in P by lra. transitivity (rsum (length a) (fun n => nth n a 0 * (2 * INR n + 1) / (4 * PI) * eval_legendre n (cos_angle u v))).
  { unfold pattern. apply rsum_ext. intros n _. unfold Rdiv. ring. }
  rewrite P, LA. apply rsum_ext. intros n _. rewrite <- rsum_scal. apply rsum_ext. intros. ring.
Qed.

(** sum over channels with per-order weights *)
Lemma acn_weighted N a (f g : nat -> R) : length a = (N + 1)%nat ->
  rsum ((N + 1) ^ 2) (fun k => f k * nth k (repeat_per_order a) 0 * g k)
  = rsum (N + 1) (fun n => rsum (2 * n + 1) (fun i => f (n * n + i)%nat * nth n a 0 * g (n * n + i)%nat)).
Proof.
  intro LA. rewrite sq2, rsum_acn. apply rsum_ext. intros n Hn. apply rsum_ext. intros i Hi. rewrite rpo_nth by lia. reflexivity.
Qed.
Lemma panning_pattern N a (src kp : list V3) : length a = (N + 1)%nat -> (forall p, In p src -> p <> (0, 0, 0)) -> (forall p, In p kp -> p <> (0, 0, 0)) ->
  exists G, panning_matrix N a src kp = Ok (Some G) /\ nr G = length src /\ nc G = length kp /\
    forall i k, (i < length src)%nat -> (k < length kp)%nat -> ent G i k = pattern a (cos_angle (nth i src (0, 0, 0)) (nth k kp (0, 0, 0))).
Proof.
  intros LA NS NK. destruct (dirs_ok_angles src NS) as (azs & zes & DS & AS). destruct (dirs_ok_angles kp NK) as (azk & zek & DK & AK).
  destruct (panning_ok N a src kp _ _ _ _ LA DS DK) as (Ys & Yk & G & ES & EK & EG & RG & CG & EN).
  exists G. split; [exact EG|]. split; [exact RG|]. split; [exact CG|]. intros i k Hi Hk. rewrite EN by assumption.
  destruct AS as [L1 [L2 AS]]. destruct AK as [L3 [L4 AK]]. destruct (AS i Hi) as [Zi Ai]. destruct (AK k Hk) as [Zk Ak].
  destruct (sh_matrix_ok N azs zes ltac:(congruence)) as (Y1 & E1 & _ & _ & N1). rewrite ES in E1. injection E1 as <-.
  destruct (sh_matrix_ok N azk zek ltac:(congruence)) as (Y2 & E2 & _ & _ & N2). rewrite EK in E2. injection E2 as <-.
  rewrite (acn_weighted N a (ent Ys i) (ent Yk k) LA).
  rewrite (pattern_harmonics N a _ _ _ _ _ _ LA Zi Zk Ai Ak). apply rsum_ext. intros n Hn. apply rsum_ext. intros m Hm.
  rewrite N1, N2 by lia. reflexivity.
Qed.
Lemma cos_angle_unit u v : u <> (0, 0, 0) -> v <> (0, 0, 0) -> cos_angle (unit3 u) v = cos_angle u v.
Proof.
  intros A B. pose proof (norm3_pos u A). pose proof (norm3_pos v B).
  assert (N : norm3 (unit3 u) = 1).
  { unfold norm3. rewrite <- sqrt_1. f_equal. pose proof (norm3_sq u) as Q.
    replace (dot3 (unit3 u) (unit3 u)) with (dot3 u u / (norm3 u * norm3 u)).
    - rewrite Q. field. rewrite <- Q. nra.
    - unfold dot3, unit3, scal3, vx, vy, vz. cbn [fst snd]. unfold vx, vy, vz. field. lra. }
  unfold cos_angle. rewrite N. unfold unit3. replace (dot3 (scal3 (/ norm3 u) u) v) with (dot3 u v / norm3 u).
  - field. split; lra.
  - unfold dot3, scal3, vx, vy, vz. cbn [fst snd]. unfold vx, vy, vz. field. lra.
Qed.

(** ** kernel gains *)
Definition gk_mat (kp : list V3) (h : hull) (rows : list (list R)) : mat := mat_of_rows (length kp) (length (h_points h)) rows.
Lemma mat_of_rows_ent n m rows i j : ent (mat_of_rows n m rows) i j = nth j (nth i rows []) 0.
Proof. reflexivity. Qed.

Section Allra.
Variables (lstsq3 : M3 -> M3) (s : setup) (h : hull) (kp : list V3) (Nk : nat) (N : nat).
Hypothesis (SA : s_ambi s = Some h) (SK : s_kernel s = Some (kp, Nk)) (KN : forall p, In p kp -> p <> (0, 0, 0)).
Let keep := keep_of (h_imag h) (length (h_points h)).

Lemma allrap_ok jobs sched rows h' (src : list V3) N_sph : vbap_hull lstsq3 jobs sched kp h (POrd 2) None = (Ok rows, h') ->
  order_or N_sph s = Some N -> (forall p, In p src -> p <> (0, 0, 0)) ->
  exists G a, allrap lstsq3 jobs sched src s N_sph = (Ok (Some G), set_ambi s h') /\ unity_gain (max_rE_weights N) = Some a /\
    nr G = length src /\ nc G = length keep /\
    forall i l, (i < length src)%nat -> (l < length keep)%nat -> ent G i l
      = 4 * PI / INR (length kp) * rsum (length kp) (fun k => pattern a (cos_angle (nth i src (0, 0, 0)) (nth k kp (0, 0, 0))) * nth (nth l keep 0%nat) (nth k rows []) 0).
Proof.
  intros V O NS. destruct (maxre_weights_ok N) as (a & UG & LA & _).
  assert (NU : forall p, In p (map unit3 src) -> p <> (0, 0, 0)).
  { intros p Ip. apply in_map_iff in Ip. destruct Ip as [q [<- Iq]]. apply unit3_nonzero. apply NS. exact Iq. }
  destruct (panning_pattern N a (map unit3 src) kp LA NU KN) as (G & EG & RG & CG & EN). rewrite map_length in *.
  unfold allrap, ambi_kernel, kernel_gains. rewrite SA, SK, V. cbn [bind]. rewrite O, UG. cbn [orsome]. rewrite unit_rows_ok by exact NS.
  cbn [orsome]. rewrite EG. cbn [bind orsome].
  destruct (del_cols_ent (h_imag h) (gk_mat kp h rows)) as (DR & DC & DE). unfold gk_mat in *.
  set (Gk := mat_of_rows (length kp) (length (h_points h)) rows) in *. cbn [Gk mat_of_rows nr nc] in DR. change (nc Gk) with (length (h_points h)) in DC, DE. fold keep in DC, DE.
  rewrite matmul_ok by (rewrite DR; cbn [mscal nc]; exact CG). cbn [bind].
  eexists. exists a. split; [reflexivity|]. split; [reflexivity|]. cbn [nr nc mscal ent]. split; [exact RG|]. split; [exact DC|].
  intros i l Hi Hl. rewrite CG. rewrite <- rsum_scal. apply rsum_ext. intros k Hk. rewrite EN, DE by assumption.
  rewrite (nth_map_in unit3 src i (0, 0, 0) (0, 0, 0) Hi).
  rewrite cos_angle_unit by (try (apply NS, nth_In; exact Hi); apply KN, nth_In; exact Hk). cbn [Gk mat_of_rows ent]. ring.
Qed.

Lemma allrad_ok jobs sched rows h' F N_sph : vbap_hull lstsq3 jobs sched kp h (POrd 2) None = (Ok rows, h') ->
  order_or N_sph s = Some N -> nr F = ((N + 1) ^ 2)%nat ->
  exists LS a azk zek, allrad lstsq3 jobs sched F s N_sph = (Ok (Some LS), set_ambi s h') /\ unity_gain (max_rE_weights N) = Some a /\
    angles_of kp azk zek /\ nr LS = length keep /\ nc LS = nc F /\
    forall l t, (l < length keep)%nat -> (t < nc F)%nat -> ent LS l t
      = 4 * PI / INR (length kp) * rsum (length kp) (fun k => nth (nth l keep 0%nat) (nth k rows []) 0 *
           rsum (N + 1) (fun n => rsum (2 * n + 1) (fun i => sh_real n (Z.of_nat i - Z.of_nat n) (nth k azk 0) (nth k zek 0) * nth n a 0 * ent F (n * n + i) t))).
Proof.
  intros V O RF. destruct (maxre_weights_ok N) as (a & UG & LA & _).
  destruct (dirs_ok_angles kp KN) as (azk & zek & DK & AK). assert (AK' := AK). destruct AK' as [L3 [L4 _]].
  destruct (sh_matrix_ok N azk zek ltac:(congruence)) as (Yk & EK & RK & CK & NK).
  unfold allrad, ambi_kernel, kernel_gains, same_order. rewrite SA, SK, O. cbn [bind]. rewrite RF, order_of_sq, Z.eqb_refl. cbn [bind].
  rewrite V. cbn [bind]. rewrite UG. cbn [orsome]. rewrite DK. cbn [orsome fst snd]. rewrite EK. cbn [bind].
  set (Gk := mat_of_rows (length kp) (length (h_points h)) rows).
  assert (LR : length (repeat_per_order a) = ((N + 1) ^ 2)%nat) by (rewrite rpo_length, LA, sq2; reflexivity).
  rewrite matmul_ok by (cbn [mscal mtr nc nr Gk mat_of_rows]; congruence). cbn [bind].
  rewrite matmul_ok by (cbn [nc nr vdiag mdiag]; congruence). cbn [bind].
  match goal with |- context [del_rows _ ?D] => set (D0 := D) end.
  destruct (del_rows_ent (h_imag h) D0) as (DC & DR & DE). change (nr D0) with (length (h_points h)) in DR, DE. fold keep in DR, DE.
  change (nc D0) with (length (repeat_per_order a)) in DC. rewrite LR in DC.
  rewrite matmul_ok by congruence. cbn [bind]. eexists. exists a, azk, zek. split; [reflexivity|]. split; [reflexivity|]. split; [exact AK|].
  cbn [nr nc ent]. split; [exact DR|]. split; [reflexivity|]. intros l t Hl Ht. rewrite DC.
  set (q := nth l keep 0%nat).
  transitivity (rsum ((N + 1) ^ 2) (fun c => rsum (length kp) (fun k => 4 * PI / INR (length kp) * (nth q (nth k rows []) 0 * (ent Yk k c * nth c (repeat_per_order a) 0 * ent F c t))))).
  - apply rsum_ext. intros c Hc. rewrite DE by exact Hl. fold q. unfold D0. cbn [ent nc].
    rewrite CK, <- LR. rewrite (vdiag_f (fun k0 => rsum (nc (mscal (4 * PI / INR (length kp)) (mtr Gk))) (fun k1 => ent (mscal (4 * PI / INR (length kp)) (mtr Gk)) q k1 * ent Yk k1 k0))) by lia.
    cbn [nc mscal mtr Gk mat_of_rows nr].
    rewrite Rmult_assoc, <- rsum_scal_r. apply rsum_ext. intros k Hk. cbn [mscal mtr ent Gk mat_of_rows]. ring.
  - rewrite rsum_swap. rewrite <- rsum_scal. apply rsum_ext. intros k Hk.
    rewrite rsum_scal. f_equal. rewrite rsum_scal. f_equal.
    rewrite (acn_weighted N a (ent Yk k) (fun c => ent F c t) LA). apply rsum_ext. intros n Hn. apply rsum_ext. intros i Hi.
    rewrite NK by lia. reflexivity.
Qed.
End Allra.
