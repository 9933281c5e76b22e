(** Signals in memory: which arrays share samples. *)
From Coq Require Import String.
From Verif Require Import Base BaseFacts P_utils2 P_sig S_sig M_utils M_sig M_process M_sph0 M_sph M_grids M_decoder M_decoder2 M_decoder3 M_parsa2 M_io M_sig2 S_sig2 P_sig2a P_sig2b P_sig2c P_sig2d P_sig2e P_sig2f.
Open Scope R_scope.

(** * Writing *)
Definition addr (v : arr) (i : nat) : nat * nat := (v_buf v, v_off v + v_step v * i)%nat.
Lemma write_ok m a v i x : nth_error (arrs m) a = Some v -> (i < v_len v)%nat ->
  write a i x m = (Ok tt, Mem (upd (bufs m) (v_buf v) (upd (nth (v_buf v) (bufs m) []) (v_off v + v_step v * i) x)) (arrs m) (objs m)).
Proof. intros E H. unfold write, get_arr, pbind. rewrite E. apply Nat.ltb_lt in H. rewrite H. reflexivity. Qed.
Lemma write_nth m a v i x b w k : sound m -> nth_error (arrs m) a = Some v -> (i < v_len v)%nat -> nth_error (arrs m) b = Some w -> (k < v_len w)%nat ->
  (addr w k = addr v i -> nth k (samples (snd (write a i x m)) b) 0 = x) /\ (addr w k <> addr v i -> nth k (samples (snd (write a i x m)) b) 0 = nth k (samples m b) 0).
Proof.
  intros S Ea Hi Eb Hk. rewrite (write_ok m a v i x Ea Hi). cbn [snd]. unfold samples. cbn [arrs bufs]. rewrite Eb, !view_nth by exact Hk. destruct (proj1 S a v Ea) as (Bv & _ & Iv). destruct (proj1 S b w Eb) as (Bw & _ & Iw). split.
  - intros A. unfold addr in A. injection A as A1 A2. rewrite A1, A2, nth_upd_same by exact Bv. apply nth_upd_same. apply Iv, Hi.
  - intros A. destruct (Nat.eq_dec (v_buf v) (v_buf w)) as [Q|Q].
    + rewrite Q, nth_upd_same by exact Bw. rewrite nth_upd_other; [reflexivity|]. intros H. apply A. unfold addr. congruence.
    + rewrite nth_upd_other by exact Q. reflexivity.
Qed.
Lemma write_length m a i x b : length (samples (snd (write a i x m)) b) = length (samples m b).
Proof.
  unfold write, get_arr, pbind. destruct (nth_error (arrs m) a) as [v|]; [|reflexivity]. destruct (Nat.ltb i (v_len v)); [|reflexivity]. cbn [snd]. unfold samples. cbn [arrs]. destruct (nth_error (arrs m) b) as [w|]; [|reflexivity]. cbn [bufs]. rewrite !view_length. reflexivity.
Qed.
Lemma samples_len m b w : nth_error (arrs m) b = Some w -> length (samples m b) = v_len w.
Proof. intros E. unfold samples. rewrite E. apply view_length. Qed.
(** a write through one array, seen in another that starts [j] samples later *)
Lemma write_window m a v w b i k x : sound m -> nth_error (arrs m) a = Some v -> nth_error (arrs m) b = Some w -> (i < v_len v)%nat -> (k < v_len w)%nat -> addr w k = addr v i -> v_step w = v_step v ->
  samples (snd (write a i x m)) b = upd (samples m b) k x.
Proof.
  intros S Ea Eb Hi Hk A St. apply nth_ext with (d := 0) (d' := 0); [rewrite write_length, length_upd; reflexivity|]. intros j Hj. rewrite write_length, (samples_len m b w Eb) in Hj. destruct (write_nth m a v i x b w j S Ea Hi Eb Hj) as (W1 & W2). destruct (Nat.eq_dec j k) as [->|N].
  - rewrite (W1 A), nth_upd_same; [reflexivity|]. rewrite (samples_len m b w Eb). exact Hk.
  - rewrite nth_upd_other by congruence. apply W2. intros A'. apply N. unfold addr in *. pose proof (proj1 (proj2 (proj1 S b w Eb))) as Ps. assert (Q : (v_off w + v_step w * j = v_off w + v_step w * k)%nat) by congruence. nia.
Qed.
Lemma write_apart m a b i x : sound m -> ~ share m a b -> samples (snd (write a i x m)) b = samples m b.
Proof.
  intros S N. destruct (nth_error (arrs m) a) as [v|] eqn:Ea; [|unfold write, get_arr, pbind; rewrite Ea; reflexivity]. destruct (Nat.lt_ge_cases i (v_len v)) as [Hi|Hi].
  - destruct (nth_error (arrs m) b) as [w|] eqn:Eb; [|rewrite (write_ok m a v i x Ea Hi); unfold samples; cbn [snd arrs]; rewrite Eb; reflexivity].
    apply nth_ext with (d := 0) (d' := 0); [apply write_length|]. intros j Hj. rewrite write_length, (samples_len m b w Eb) in Hj. apply (write_nth m a v i x b w j S Ea Hi Eb Hj). intros A. apply N. unfold addr in A. injection A as A1 A2. exists v, w, i, j. repeat split; try assumption; symmetry; assumption.
  - unfold write, get_arr, pbind. rewrite Ea. apply Nat.ltb_ge in Hi. rewrite Hi. reflexivity.
Qed.
(** the views behind arguments and attributes *)
Lemma as_1d_view m a v : nth_error (arrs m) a = Some v -> exists s m', as_1d (PRef a) m = (Ok s, m') /\ nth_error (arrs m') s = Some v /\ bufs m' = bufs m /\ objs m' = objs m /\ exists t, arrs m' = arrs m ++ t.
Proof.
  intros E. unfold as_1d, get_arr, pbind. rewrite E. destruct (Nat.eqb (v_len v) 1).
  - eexists _, _. split; [reflexivity|]. cbn [bufs arrs objs]. split; [rewrite nth_error_app2, Nat.sub_diag by lia; reflexivity|]. split; [reflexivity|]. split; [reflexivity|]. exists [v]. reflexivity.
  - exists a, m. split; [reflexivity|]. split; [exact E|]. split; [reflexivity|]. split; [reflexivity|]. exists []. symmetry. apply app_nil_r.
Qed.
Lemma mono_new_view m a v f : nth_error (arrs m) a = Some v -> exists s m', mono_new f (PRef a) m = (Ok (length (objs m)), m') /\ nth_error (objs m') (length (objs m)) = Some (OMono s f) /\ nth_error (arrs m') s = Some v /\ bufs m' = bufs m /\ (exists t, arrs m' = arrs m ++ t) /\ objs m' = objs m ++ [OMono s f].
Proof.
  intros E. destruct (as_1d_view m a v E) as (s & m1 & E1 & V & B & O & T). exists s, (Mem (bufs m1) (arrs m1) (objs m1 ++ [OMono s f])). unfold mono_new. rewrite (pbind_ok _ _ _ _ _ E1). unfold new_obj. rewrite O. split; [reflexivity|]. cbn [bufs arrs objs].
  split; [rewrite nth_error_app2, Nat.sub_diag by lia; reflexivity|]. split; [exact V|]. split; [exact B|]. split; [exact T|reflexivity].
Qed.
Lemma prefix_nth {A} (l l' : list A) i x : nth_error l i = Some x -> nth_error (l ++ l') i = Some x.
Proof. intros E. rewrite nth_error_app1; [exact E|]. apply nth_error_Some. rewrite E. discriminate. Qed.
Lemma monos_views f l : forall m vs, Forall2 (fun a v => nth_error (arrs m) a = Some v) l vs ->
  exists ss m', pmap (mono_new f) (map PRef l) m = (Ok (seq (length (objs m)) (length l)), m') /\ objs m' = objs m ++ map (fun s => OMono s f) ss /\ length ss = length l /\ Forall2 (fun s v => nth_error (arrs m') s = Some v) ss vs /\ bufs m' = bufs m /\ exists t, arrs m' = arrs m ++ t.
Proof.
  induction l as [|a l IH]; intros m vs F; inversion F as [|? v ? vs' E F']; subst.
  - exists [], m. split; [reflexivity|]. split; [symmetry; apply app_nil_r|]. split; [reflexivity|]. split; [constructor|]. split; [reflexivity|]. exists []. symmetry. apply app_nil_r.
  - destruct (mono_new_view m a v f E) as (s & m1 & E1 & O1 & V1 & B1 & (t1 & T1) & Q1). destruct (IH m1 vs') as (ss & m2 & E2 & O2 & L2 & V2 & B2 & (t2 & T2)).
    { clear -F' T1. induction F'; constructor; [rewrite T1; apply prefix_nth; assumption|assumption]. }
    exists (s :: ss), m2. assert (L : length (objs m1) = S (length (objs m))) by (rewrite Q1, app_length; cbn; lia). rewrite L in E2.
    split; [cbn [map pmap length seq]; rewrite (pbind_ok _ _ _ _ _ E1), (pbind_ok _ _ _ _ _ E2); reflexivity|]. split; [rewrite O2, Q1, <- app_assoc; reflexivity|]. split; [cbn; lia|].
    split; [constructor; [rewrite T2; apply prefix_nth, V1|exact V2]|]. split; [congruence|]. exists (t1 ++ t2). rewrite T2, T1, app_assoc. reflexivity.
Qed.
Lemma flat_arrays (ss : list nat) f (os tl : list obj) : flat_map (fun c => match nth_error (os ++ map (fun s => OMono s f) ss ++ tl) c with Some y => held_arrs y | None => [] end) (seq (length os) (length ss)) = ss.
Proof.
  revert os. induction ss as [|s ss IH]; intros os; [reflexivity|]. cbn [length seq flat_map map]. rewrite nth_error_app2, Nat.sub_diag by lia. cbn [app nth_error held_arrs]. f_equal. specialize (IH (os ++ [OMono s f])). rewrite app_length, Nat.add_1_r in IH. rewrite <- IH at 2. rewrite <- app_assoc. reflexivity.
Qed.
Lemma chs_views f l m vs : Forall2 (fun a v => nth_error (arrs m) a = Some v) l vs ->
  exists ss m', multi_chs (map PRef l) (Some f) m = (Ok (seq (length (objs m)) (length l), f), m') /\ objs m' = objs m ++ map (fun s => OMono s f) ss /\ length ss = length l /\ Forall2 (fun s v => nth_error (arrs m') s = Some v) ss vs /\ bufs m' = bufs m /\ exists t, arrs m' = arrs m ++ t.
Proof. intros F. destruct (monos_views f l m vs F) as (ss & m1 & E1 & Q). exists ss, m1. split; [|exact Q]. unfold multi_chs. rewrite (pbind_ok _ _ _ _ _ E1). reflexivity. Qed.
Lemma multi_views f l m vs : Forall2 (fun a v => nth_error (arrs m) a = Some v) l vs ->
  exists m', multi_new (map PRef l) (Some f) m = (Ok (length (objs m) + length l)%nat, m') /\ Forall2 (fun s v => nth_error (arrs m') s = Some v) (arrays_of m' (length (objs m) + length l)) vs /\ bufs m' = bufs m /\ (exists t, arrs m' = arrs m ++ t).
Proof.
  intros F. destruct (chs_views f l m vs F) as (ss & m1 & E1 & O1 & L1 & V1 & B1 & T1). unfold multi_new. rewrite (pbind_ok _ _ _ _ _ E1). unfold new_obj. cbn [fst snd].
  assert (LO : length (objs m1) = (length (objs m) + length l)%nat) by (rewrite O1, app_length, map_length, L1; reflexivity). rewrite LO. eexists. split; [reflexivity|]. cbn [bufs arrs]. split; [|split; [exact B1|exact T1]].
  unfold arrays_of. cbn [objs]. rewrite nth_error_app2, LO, Nat.sub_diag by lia. cbn [nth_error held_objs held_arrs]. rewrite app_nil_r, O1, <- app_assoc, <- L1, flat_arrays. exact V1.
Qed.
Lemma Forall2_prefix (l : list nat) (vs t t' : list arr) : Forall2 (fun s v => nth_error t s = Some v) l vs -> Forall2 (fun s v => nth_error (t ++ t') s = Some v) l vs.
Proof. intros F. induction F; constructor; [apply prefix_nth; assumption|assumption]. Qed.
(** W, X, Y, Z: the views of the channels again *)
Lemma attr_view m c s f v : nth_error (objs m) c = Some (OMono s f) -> nth_error (arrs m) s = Some v ->
  exists w m', (let! s := sig_of c in as_1d (PRef s)) m = (Ok w, m') /\ nth_error (arrs m') w = Some v /\ bufs m' = bufs m /\ objs m' = objs m /\ exists t, arrs m' = arrs m ++ t.
Proof. intros E V. rewrite (pbind_ok _ _ _ _ _ (sig_of_ok m c s f E)). exact (as_1d_view m s v V). Qed.
Lemma ambi_views f l m vs : length l = 4%nat -> Forall2 (fun a v => nth_error (arrs m) a = Some v) l vs ->
  exists m', ambi_new (map PRef l) (Some f) m = (Ok (length (objs m) + 4)%nat, m') /\ Forall2 (fun s v => nth_error (arrs m') s = Some v) (arrays_of m' (length (objs m) + 4)) (vs ++ vs) /\ bufs m' = bufs m /\ (exists t, arrs m' = arrs m ++ t).
Proof.
  intros L4 F. destruct (chs_views f l m vs F) as (ss & m1 & E1 & O1 & L1 & V1 & B1 & (t1 & T1)). rewrite L4 in *. destruct ss as [|s0 [|s1 [|s2 [|s3 [|]]]]]; try discriminate L1. destruct l as [|a0 [|a1 [|a2 [|a3 [|]]]]]; try discriminate L4.
  inversion V1 as [|? v0 ? vs0 G0 V1']; subst. inversion V1' as [|? v1 ? vs1 G1 V2']; subst. inversion V2' as [|? v2 ? vs2 G2 V3']; subst. inversion V3' as [|? v3 ? vs3 G3 V4']; subst. inversion V4'; subst. clear V1' V2' V3' V4'.
  set (n := length (objs m)) in *. assert (ON : forall k s, nth_error [s0; s1; s2; s3] k = Some s -> nth_error (objs m1) (n + k) = Some (OMono s f)) by (intros k s H; rewrite O1, nth_error_app2 by (unfold n; lia); replace (n + k - length (objs m))%nat with k by (unfold n; lia); rewrite nth_error_map, H; reflexivity).
  destruct (attr_view m1 n s0 f v0) as (w & m2 & Ew & Gw & B2 & O2 & (t2 & T2)); [rewrite <- (Nat.add_0_r n) at 1; apply ON; reflexivity|exact G0|].
  destruct (attr_view m2 (S n) s1 f v1) as (x & m3 & Ex & Gx & B3 & O3 & (t3 & T3)); [rewrite O2, <- (Nat.add_1_r n); apply ON; reflexivity|rewrite T2; apply prefix_nth; exact G1|].
  destruct (attr_view m3 (S (S n)) s2 f v2) as (y & m4 & Ey & Gy & B4 & O4 & (t4 & T4)); [rewrite O3, O2; replace (S (S n)) with (n + 2)%nat by lia; apply ON; reflexivity|rewrite T3, T2; apply prefix_nth, prefix_nth; exact G2|].
  destruct (attr_view m4 (S (S (S n))) s3 f v3) as (z & m5 & Ez & Gz & B5 & O5 & (t5 & T5)); [rewrite O4, O3, O2; replace (S (S (S n))) with (n + 3)%nat by lia; apply ON; reflexivity|rewrite T4, T3, T2; do 3 apply prefix_nth; exact G3|].
  assert (EA : ambi_obj (map PRef [a0; a1; a2; a3]) (Some f) m = (Ok (OAmbi [n; S n; S (S n); S (S (S n))] f 4 w x y z), m5)).
  { unfold ambi_obj. rewrite (pbind_ok _ _ _ _ _ E1). cbn [fst snd seq]. rewrite (pbind_ok _ _ _ _ _ Ew), (pbind_ok _ _ _ _ _ Ex), (pbind_ok _ _ _ _ _ Ey), (pbind_ok _ _ _ _ _ Ez). reflexivity. }
  unfold ambi_new. rewrite (pbind_ok _ _ _ _ _ EA). unfold new_obj. assert (O5' : objs m5 = objs m1) by congruence. assert (LO : length (objs m5) = (n + 4)%nat) by (rewrite O5', O1, app_length; reflexivity). rewrite LO. eexists. split; [reflexivity|]. cbn [bufs arrs objs].
  split; [|split; [congruence|exists (t1 ++ t2 ++ t3 ++ t4 ++ t5); rewrite T5, T4, T3, T2, T1, !app_assoc; reflexivity]].
  unfold arrays_of. cbn [objs]. rewrite nth_error_app2, LO, Nat.sub_diag by lia. cbn [nth_error held_objs]. pose proof (flat_arrays [s0; s1; s2; s3] f (objs m) [OAmbi [n; S n; S (S n); S (S (S n))] f 4 w x y z]) as FA. fold n in FA. cbn [length seq] in FA. rewrite O5', O1, <- app_assoc, FA. cbn [held_arrs app].
  assert (P5 : forall s v, nth_error (arrs m1) s = Some v -> nth_error (arrs m5) s = Some v) by (intros s v H; rewrite T5, T4, T3, T2; do 4 apply prefix_nth; exact H).
  repeat apply Forall2_cons; try (apply P5; assumption); try apply Forall2_nil.
  - rewrite T5, T4, T3. do 3 apply prefix_nth. exact Gw.
  - rewrite T5, T4. do 2 apply prefix_nth. exact Gx.
  - rewrite T5. apply prefix_nth. exact Gy.
  - exact Gz.
Qed.
(** the columns of a file *)
Lemma cols_views n c l m : exists m', new_cols n c l m = (Ok (seq (length (arrs m)) c), m') /\ Forall2 (fun a v => nth_error (arrs m') a = Some v) (seq (length (arrs m)) c) (map (fun j => Arr (length (bufs m)) j c n) (seq 0 c)) /\ objs m' = objs m /\ bufs m' = bufs m ++ [l].
Proof.
  rewrite new_cols_spec. eexists. split; [reflexivity|]. cbn [bufs arrs objs]. split; [|split; reflexivity].
  generalize (fun j => Arr (length (bufs m)) j c n) as G. intros G. assert (Q : forall k p, (k + p <= c)%nat -> Forall2 (fun a v => nth_error (arrs m ++ map G (seq 0 c)) a = Some v) (seq (length (arrs m) + k) p) (map G (seq k p))).
  { intros k p. revert k. induction p as [|p IH]; intros k H; [constructor|]. cbn [seq map]. constructor; [|specialize (IH (S k)); rewrite Nat.add_succ_r in IH; apply IH; lia].
    rewrite nth_error_app2 by lia. replace (length (arrs m) + k - length (arrs m))%nat with k by lia. rewrite nth_error_map, (nth_error_nth' _ 0%nat) by (rewrite seq_length; lia). cbn [option_map]. rewrite seq_nth by lia. reflexivity. }
  specialize (Q 0%nat c (Nat.le_refl c)). rewrite Nat.add_0_r in Q. exact Q.
Qed.
Lemma cols_disjoint b c n i j k p : (i < c)%nat -> (j < c)%nat -> addr (Arr b i c n) k = addr (Arr b j c n) p -> i = j /\ k = p.
Proof. intros Hi Hj A. unfold addr in A. cbn [v_buf v_off v_step] in A. injection A as A. assert (k = p) by nia. subst. split; [nia|reflexivity]. Qed.
