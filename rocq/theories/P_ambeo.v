(** A-to-B format conversion and the stereo downmix. *)
From Coq Require Import Lra Lia String.
From Verif Require Import Base BaseFacts M_utils S_utils P_utils M_sig P_sig M_process M_sph0 M_sph S_linalg S_sph P_sph1 P_sph2 P_sph3 P_sph4 P_sph5 P_sph6 P_sph7 P_sph8 P_sph9 P_sph10 M_process3 S_process3 P_lfilter.
Open Scope R_scope.

Lemma soundfield_any (sig : mat) W : nr sig = 4%nat -> (0 < nc sig)%nat ->
  exists B, soundfield_to_b sig W = Ok B /\ nr B = 4%nat /\ nc B = nc sig /\
    forall t, ent B 0 t = w_default W * b_of (ent sig) 0 t /\ ent B 1 t = b_of (ent sig) 1 t /\ ent B 2 t = b_of (ent sig) 2 t /\ ent B 3 t = b_of (ent sig) 3 t.
Proof.
  intros R4 Hn. unfold soundfield_to_b.
  set (dirs := map _ tetrahedron). set (ta := map _ dirs). set (tz := map _ dirs).
  assert (LT : length tz = length ta) by (unfold tz, ta; rewrite !map_length; auto).
  assert (LA : length ta = 4%nat) by reflexivity.
  assert (DD : forall j, (j < 4)%nat -> 0 <= nth j tz 0 <= PI /\ sph2cart (nth j ta 0) (nth j tz 0) 1 = nth j tetrahedron (0, 0, 0)).
  { intros j Hj. assert (HI : In (nth j tetrahedron (0, 0, 0)) tetrahedron) by (apply nth_In; simpl; auto).
    destruct (tetra_dir _ HI) as (azi & zen & r & E & HZ & S).
    assert (ET : nth j dirs (0, None, 0) = (azi, Some zen, r)).
    { unfold dirs. rewrite (nth_indep _ _ ((fun v => cart2sph (vx v) (vy v) (vz v) false false) (0, 0, 0))) by (rewrite map_length; simpl; auto).
      rewrite (map_nth (fun v => cart2sph (vx v) (vy v) (vz v) false false)). auto. }
    assert (LD : length dirs = 4%nat) by reflexivity.
    assert (E1 : nth j ta 0 = azi).
    { unfold ta. rewrite (nth_map_in _ _ _ _ (0, None, 0)) by (rewrite LD; auto). rewrite ET. reflexivity. }
    assert (E2 : nth j tz 0 = zen).
    { unfold tz. rewrite (nth_map_in _ _ _ _ (0, None, 0)) by (rewrite LD; auto). rewrite ET. reflexivity. }
    rewrite E1, E2. auto. }
  clearbody ta tz. clear dirs.
  destruct (sh_matrix_ok 1 ta tz LT) as (Y & EY & YR & YC & _). rewrite LA in YR.
  assert (YV : forall j, (j < 4)%nat -> let u := nth j tetrahedron (0, 0, 0) in
     ent Y j 0 = / sqrt (4 * PI) /\ ent Y j 1 = sqrt 3 / sqrt (4 * PI) * vy u /\ ent Y j 2 = sqrt 3 / sqrt (4 * PI) * vz u /\ ent Y j 3 = sqrt 3 / sqrt (4 * PI) * vx u).
  { intros j Hj u. destruct (DD j Hj) as [HZ ES]. destruct (acn4 1 ta tz Y ltac:(lia) LT EY j ltac:(lia)) as (A0 & A1 & A2 & A3).
    destruct (sh1 (nth j ta 0) (nth j tz 0) (sin_nonneg _ HZ)) as (B0 & B1 & B2 & B3). rewrite ES in B1, B2, B3. fold u in B1, B2, B3.
    rewrite A0, A1, A2, A3. auto. }
  unfold sht. rewrite EY. cbn [bind]. rewrite matmul_ok by (cbn [nc nr mtr mscal]; congruence). cbn [bind]. set (F := Mat _ _ _).
  destruct (b_entry F W) as (B & EB & R1 & R2 & HB); [unfold F; cbn [nr mtr mscal nc]; rewrite YC; reflexivity|unfold F; cbn [nc]; auto|].
  exists B. split; [auto|]. split; [auto|]. split; [rewrite R2; reflexivity|]. intros t. destruct (HB t) as (H0 & H1 & H2 & H3).
  rewrite H0, H1, H2, H3. unfold F. cbn [ent mtr mscal nc nr]. rewrite YR. cbn [rsum].
  destruct (YV 0%nat ltac:(lia)) as (a0 & a1 & a2 & a3). destruct (YV 1%nat ltac:(lia)) as (b0 & b1 & b2 & b3).
  destruct (YV 2%nat ltac:(lia)) as (c0 & c1 & c2 & c3). destruct (YV 3%nat ltac:(lia)) as (d0 & d1 & d2 & d3).
  rewrite a0, a1, a2, a3, b0, b1, b2, b3, c0, c1, c2, c3, d0, d1, d2, d3. unfold tetrahedron. cbn [map nth].
  unfold scal3, vx, vy, vz; cbn [fst snd]. destruct s4 as [P4 Q4]. destruct s3 as [P3 Q3].
  replace (INR 4) with 4 by (simpl; ring). unfold b_of.
  assert (QP : PI = sqrt (4 * PI) * sqrt (4 * PI) / 4) by (rewrite Q4; field).
  set (r := sqrt (4 * PI)) in *. set (q := sqrt 3) in *. clearbody r q. rewrite QP.
  split; [field; lra|]. split; [|split]; field; split; lra.
Qed.
Definition brow (s : nat -> nat -> R) (n i : nat) : list R := map (b_of s i) (seq 0 n).
Lemma get4 A n s : capsules A n s -> exists rows, get_signals A = Ok (n, rows) /\ length rows = 4%nat /\ forall i t, (i < 4)%nat -> (t < n)%nat -> nth t (nth i rows []) 0 = s i t.
Proof.
  intros [L H]. exists (map m_sig (channels A)). unfold get_signals. destruct (channels A) as [|c [|c1 [|c2 [|c3 [|]]]]]; try discriminate. destruct (H 0%nat) as [L0 H0]; [lia|]. destruct (H 1%nat) as [L1 H1]; [lia|]. destruct (H 2%nat) as [L2 H2]; [lia|]. destruct (H 3%nat) as [L3 H3]; [lia|]. cbn [nth] in *.
  cbn [forallb]. unfold mono_len. rewrite L0, L1, L2, L3, !Nat.eqb_refl. cbn [andb]. split; [reflexivity|]. split; [reflexivity|]. intros i t I T. destruct i as [|[|[|[|i]]]]; [| | | |lia]; cbn [map nth]; auto.
Qed.
Lemma unfiltered d A n s : capsules A n s -> (0 < n)%nat ->
  ambeo_a2b d A None = Ok (AmbiB (Multi (map (fun i => Mono (brow s n i) (mu_fs A)) [0; 1; 2; 3]%nat) (mu_fs A) 4) (brow s n 0) (brow s n 1) (brow s n 2) (brow s n 3)).
Proof.
  intros C N. destruct (get4 A n s C) as (rows & G & L & R0). unfold ambeo_a2b. rewrite G. cbn [bind]. destruct (soundfield_any (signal_mat (n, rows)) None L N) as (B & E & BR & BC & HB). rewrite E. cbn [bind].
  assert (RW : forall i, (i < 4)%nat -> mat_row B i = brow s n i).
  { intros i I. unfold mat_row, brow. rewrite BC. cbn [signal_mat nc fst]. apply map_ext_in. intros t T. apply in_seq in T. destruct (HB t) as (B0 & B1 & B2 & B3). cbn [w_default] in B0. assert (Q : forall j, (j < 4)%nat -> ent (signal_mat (n, rows)) j t = s j t) by (intros j J; cbn [signal_mat ent snd]; apply R0; [exact J|lia]). destruct i as [|[|[|[|i]]]]; [| | | |lia]; [rewrite B0, Rmult_1_l|rewrite B1|rewrite B2|rewrite B3]; unfold b_of; rewrite !Q by lia; reflexivity. }
  unfold ambib_init, multi_init. cbn [map mapM]. rewrite !mono_init_arr1. cbn [bind]. cbn [channels m_sig]. rewrite !asarray_arr1. cbn [bind length data arr1]. rewrite !RW by lia. reflexivity.
Qed.
Lemma f_ambeo : forall d A n s, capsules A n s -> (0 < n)%nat ->
  exists x, ambeo_a2b d A None = Ok x /\ mu_fs (base x) = mu_fs A /\ map m_sig (channels (base x)) = [aW x; aX x; aY x; aZ x] /\ forall i, (i < 4)%nat -> sampled n (b_of s i) (attribute x i).
Proof.
  intros d A n s C N. eexists. split; [apply (unfiltered d A n s C N)|]. split; [reflexivity|]. split; [reflexivity|]. intros i I.
  assert (Q : forall j, sampled n (b_of s j) (brow s n j)) by (intros j; split; [unfold brow; rewrite map_length, seq_length; reflexivity|intros t T; unfold brow; rewrite (nth_map_seq (b_of s j)) by exact T; reflexivity]). destruct i as [|[|[|[|i]]]]; [| | | |lia]; apply Q.
Qed.
(** only four channels of one length, not empty *)
Lemma f_ambeo_inv : forall d A f x, ambeo_a2b d A f = Ok x -> exists n, (0 < n)%nat /\ capsules A n (fun i t => nth t (m_sig (nth i (channels A) (Mono [] 0))) 0).
Proof.
  intros d A f x E. unfold ambeo_a2b in E. destruct (get_signals A) as [g|] eqn:G; [|discriminate]. cbn [bind] in E. destruct (soundfield_to_b (signal_mat g) None) as [B|] eqn:S; [|discriminate]. clear E.
  unfold soundfield_to_b in S. set (ta := map _ _) in S. set (tz := map _ _) in S. assert (LT : length tz = length ta) by (unfold tz, ta; rewrite !map_length; auto). assert (LA : length ta = 4%nat) by reflexivity. destruct (sh_matrix_ok 1 ta tz LT) as (Y & EY & YR & YC & _). unfold sht in S. rewrite EY in S. cbn [bind] in S. unfold matmul in S. cbn [nc nr mtr mscal] in S. rewrite YR, LA in S. destruct (Nat.eqb_spec 4 (nr (signal_mat g))) as [R4|]; [|discriminate]. cbn [bind] in S. unfold sh_to_b, apply_columns in S. cbn [nc] in S. destruct (Nat.eqb_spec (nc (signal_mat g)) 0) as [|N0]; [discriminate|].
  unfold get_signals in G. destruct (channels A) as [|c cs] eqn:EC; [injection G as <-; discriminate|]. destruct (forallb _ cs) eqn:F; [|discriminate]. injection G as <-. cbn [signal_mat nc nr fst snd] in *. exists (mono_len c). split; [lia|]. unfold capsules. rewrite EC. assert (R5 : length (c :: cs) = 4%nat) by (rewrite <- (map_length m_sig (c :: cs)); symmetry; exact R4). split; [exact R5|]. intros i I. split; [|reflexivity].
  rewrite forallb_forall in F. destruct i as [|i]; [reflexivity|]. cbn [nth]. specialize (F (nth i cs (Mono [] 0))). apply Nat.eqb_eq, F, nth_In. cbn [length] in R5. lia.
Qed.
Lemma f_filtered : forall d A n s name b0 a0 b1 a1, capsules A n s -> (0 < n)%nat -> d name = Some [b0; a0; b1; a1] -> nth 0 a0 0 <> 0 -> nth 0 a1 0 <> 0 -> b0 <> [] -> b1 <> [] ->
  exists u x, ambeo_a2b d A None = Ok u /\ ambeo_a2b d A (Some name) = Ok x /\ base x = base u /\ difference_equation b0 a0 (aW u) (aW x) /\ forall i, (1 <= i < 4)%nat -> difference_equation b1 a1 (attribute u i) (attribute x i).
Proof.
  intros d A n s name b0 a0 b1 a1 C N D A0 A1 B0 B1. pose proof (unfiltered d A n s C N) as U. set (u := AmbiB _ _ _ _ _) in U. assert (NE : forall i, brow s n i <> []) by (intros i H; apply (f_equal (@length R)) in H; unfold brow in H; rewrite map_length, seq_length in H; cbn in H; lia).
  destruct (lfilter_ok b0 a0 (brow s n 0) A0 B0 (or_introl (NE 0%nat))) as (w & Ew & Dw). destruct (lfilter_ok b1 a1 (brow s n 1) A1 B1 (or_introl (NE 1%nat))) as (x & Ex & Dx). destruct (lfilter_ok b1 a1 (brow s n 2) A1 B1 (or_introl (NE 2%nat))) as (y & Ey & Dy). destruct (lfilter_ok b1 a1 (brow s n 3) A1 B1 (or_introl (NE 3%nat))) as (z & Ez & Dz).
  exists u, (AmbiB (base u) w x y z). split; [exact U|]. split.
  - unfold ambeo_a2b in *. destruct (get_signals A) as [g|]; [|discriminate]. cbn [bind] in *. destruct (soundfield_to_b (signal_mat g) None) as [B|]; [|discriminate]. cbn [bind] in *. destruct (ambib_init _ _) as [q|]; [|discriminate]. cbn [bind] in *. injection U as ->. rewrite D. cbn [four bind]. unfold u. cbn [aW aX aY aZ]. rewrite Ew. cbn [bind]. rewrite Ex. cbn [bind]. rewrite Ey. cbn [bind]. rewrite Ez. reflexivity.
  - split; [reflexivity|]. split; [exact Dw|]. intros i I. destruct i as [|[|[|[|i]]]]; try lia; assumption.
Qed.
(** what the other methods see is not filtered *)
Lemma f_filtered_channels : forall d A name u x, ambeo_a2b d A None = Ok u -> ambeo_a2b d A (Some name) = Ok x -> base x = base u.
Proof.
  intros d A name u x U E. unfold ambeo_a2b in *. destruct (get_signals A) as [g|]; [|discriminate]. cbn [bind] in *. destruct (soundfield_to_b (signal_mat g) None) as [B|]; [|discriminate]. cbn [bind] in *. destruct (ambib_init _ _) as [q|]; [|discriminate]. cbn [bind] in *. injection U as ->. destruct (d name) as [l|]; [|discriminate]. destruct (four l) as [[[b0 a0] [b1 a1]]|]; [|discriminate]. cbn [bind] in E.
  destruct (lfilter b0 a0 (aW u)); [|discriminate]. cbn [bind] in E. destruct (lfilter b1 a1 (aX u)); [|discriminate]. cbn [bind] in E. destruct (lfilter b1 a1 (aY u)); [|discriminate]. cbn [bind] in E. destruct (lfilter b1 a1 (aZ u)); [|discriminate]. cbn [bind] in E. injection E as <-. reflexivity.
Qed.
(** filtering the capsules instead: W with one filter, X, Y, Z with the other *)
Definition bw (i j : nat) : R :=
  match i with
  | 0%nat => PI
  | 1%nat => PI / sqrt 3 * match j with 0%nat | 1%nat => 1 | _ => -1 end
  | 2%nat => PI / sqrt 3 * match j with 0%nat | 2%nat => 1 | _ => -1 end
  | _ => PI / sqrt 3 * match j with 0%nat | 3%nat => 1 | _ => -1 end
  end.
Lemma b_of_sum s i t : b_of s i t = rsum 4 (fun j => bw i j * s j t).
Proof. destruct i as [|[|[|i]]]; cbn; ring. Qed.
Lemma f_capsule_filters : forall d A n s name b0 a0 b1 a1 A0 A1 f0 f1 x, capsules A n s -> (0 < n)%nat -> d name = Some [b0; a0; b1; a1] -> ambeo_a2b d A (Some name) = Ok x ->
  capsules A0 n f0 -> (forall i, (i < 4)%nat -> lfilter b0 a0 (m_sig (nth i (channels A) (Mono [] 0))) = Ok (m_sig (nth i (channels A0) (Mono [] 0)))) ->
  capsules A1 n f1 -> (forall i, (i < 4)%nat -> lfilter b1 a1 (m_sig (nth i (channels A) (Mono [] 0))) = Ok (m_sig (nth i (channels A1) (Mono [] 0)))) ->
  exists x0 x1, ambeo_a2b d A0 None = Ok x0 /\ ambeo_a2b d A1 None = Ok x1 /\ aW x = aW x0 /\ aX x = aX x1 /\ aY x = aY x1 /\ aZ x = aZ x1.
Proof.
  intros d A n s name b0 a0 b1 a1 A0 A1 f0 f1 x C N D E C0 F0 C1 F1. pose proof (unfiltered d A n s C N) as U. set (u := AmbiB _ _ _ _ _) in U. eexists _, _. split; [apply (unfiltered d A0 n f0 C0 N)|]. split; [apply (unfiltered d A1 n f1 C1 N)|]. cbn [aW aX aY aZ].
  assert (G : forall b a A' f i y, capsules A' n f -> (forall j, (j < 4)%nat -> lfilter b a (m_sig (nth j (channels A) (Mono [] 0))) = Ok (m_sig (nth j (channels A') (Mono [] 0)))) -> lfilter b a (brow s n i) = Ok y -> y = brow f n i).
  { intros b a A' f i y [_ C'] F Y. destruct C as [_ C]. destruct (f_linear b a n (fun j => m_sig (nth j (channels A) (Mono [] 0))) (fun j => m_sig (nth j (channels A') (Mono [] 0))) (bw i) 4 (brow s n i) y) as [LY HY].
    - intros j J. split; [apply C; exact J|apply F; exact J].
    - unfold brow. rewrite map_length, seq_length. reflexivity.
    - intros t T. unfold brow. rewrite (nth_map_seq (b_of s i)) by exact T. rewrite b_of_sum. apply rsum_ext. intros j J. rewrite (proj2 (C j J) t T). reflexivity.
    - exact Y.
    - apply nth_ext with (d := 0) (d' := 0); [rewrite LY; unfold brow; rewrite map_length, seq_length; reflexivity|]. intros t T. rewrite LY in T. rewrite HY by exact T. unfold brow. rewrite (nth_map_seq (b_of f i)) by exact T. rewrite b_of_sum. apply rsum_ext. intros j J. rewrite (proj2 (C' j J) t T). reflexivity. }
  unfold ambeo_a2b in *. destruct (get_signals A) as [g|]; [|discriminate]. cbn [bind] in *. destruct (soundfield_to_b (signal_mat g) None) as [B|]; [|discriminate]. cbn [bind] in *. destruct (ambib_init _ _) as [q|]; [|discriminate]. cbn [bind] in *. injection U as ->. rewrite D in E. cbn [four bind] in E. unfold u in E. cbn [aW aX aY aZ] in E.
  destruct (lfilter b0 a0 (brow s n 0)) as [w|] eqn:Ew; [|discriminate]. cbn [bind] in E. destruct (lfilter b1 a1 (brow s n 1)) as [x1|] eqn:Ex; [|discriminate]. cbn [bind] in E. destruct (lfilter b1 a1 (brow s n 2)) as [y1|] eqn:Ey; [|discriminate]. cbn [bind] in E. destruct (lfilter b1 a1 (brow s n 3)) as [z1|] eqn:Ez; [|discriminate]. cbn [bind] in E. injection E as <-. cbn [aW aX aY aZ].
  split; [exact (G _ _ _ _ _ _ C0 F0 Ew)|]. split; [exact (G _ _ _ _ _ _ C1 F1 Ex)|]. split; [exact (G _ _ _ _ _ _ C1 F1 Ey)|exact (G _ _ _ _ _ _ C1 F1 Ez)].
Qed.
