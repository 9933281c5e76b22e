(** Cascades of second-order sections. *)
From Coq Require Import Lra Lia.
From Verif Require Import Base BaseFacts M_utils M_sig M_process M_sph0 M_sph M_process3 S_process3 P_sig P_lfilter M_process4 S_process4 P_ff1 P_ff2.
Open Scope R_scope.

(** ** polynomials in the delay *)
Lemma rtriangle n : forall f : nat -> nat -> R, rsum n (fun i => rsum (S i) (fun k => f k (i - k)%nat)) = rsum n (fun k => rsum (n - k) (f k)).
Proof.
  induction n as [|n IH]; intros f; [reflexivity|]. change (rsum (S n) (fun i => rsum (S i) (fun k => f k (i - k)%nat))) with (rsum n (fun i => rsum (S i) (fun k => f k (i - k)%nat)) + rsum (S n) (fun k => f k (n - k)%nat)). rewrite IH. change (rsum (S n) (fun k => rsum (S n - k) (f k))) with (rsum n (fun k => rsum (S n - k) (f k)) + rsum (S n - n) (f n)).
  rewrite (rsum_ext n (fun k => rsum (S n - k) (f k)) (fun k => rsum (n - k) (f k) + f k (n - k)%nat)) by (intros k K; replace (S n - k)%nat with (S (n - k)) by lia; reflexivity). rewrite rsum_plus. replace (S n - n)%nat with 1%nat by lia. cbn [rsum]. rewrite Nat.sub_diag. ring.
Qed.
Lemma taps_times p q f n : taps p (taps q f) n = taps (times p q) f n.
Proof.
  unfold taps. set (N := (length p + length q - 1)%nat). assert (LT : length (times p q) = N) by (unfold times; rewrite map_length, seq_length; reflexivity). rewrite LT.
  transitivity (rsum N (fun i => rsum (N - i) (fun j => nth i p 0 * nth j q 0 * f (n - Z.of_nat (i + j))%Z))).
  - destruct (Nat.eq_dec (length p) 0) as [P0|P0].
    { rewrite P0. cbn [rsum]. symmetry. apply rsum_0. intros i I. apply rsum_0. intros j J. rewrite (nth_overflow p) by lia. ring. }
    destruct (Nat.eq_dec (length q) 0) as [Q0|Q0].
    { rewrite (rsum_0 (length p)) by (intros i I; rewrite Q0; cbn [rsum]; ring). symmetry. apply rsum_0. intros i I. apply rsum_0. intros j J. rewrite (nth_overflow q) by lia. ring. }
    replace N with (length p + (length q - 1))%nat by (unfold N; lia). rewrite rsum_app. rewrite (rsum_0 (length q - 1)) by (intros i I; apply rsum_0; intros j J; rewrite (nth_overflow p) by lia; ring). rewrite Rplus_0_r. apply rsum_ext. intros i I.
    replace (length p + (length q - 1) - i)%nat with (length q + (length p - 1 - i))%nat by lia. rewrite rsum_app. rewrite (rsum_0 (length p - 1 - i)) by (intros j J; rewrite (nth_overflow q) by lia; ring). rewrite Rplus_0_r, <- rsum_scal. apply rsum_ext. intros j J. replace (n - Z.of_nat i - Z.of_nat j)%Z with (n - Z.of_nat (i + j))%Z by lia. ring.
  - rewrite <- (rtriangle N (fun i j => nth i p 0 * nth j q 0 * f (n - Z.of_nat (i + j))%Z)). apply rsum_ext. intros k K. unfold times. rewrite (nth_map_seq (fun n => rsum (S n) (fun k => nth k p 0 * nth (n - k) q 0))) by exact K. rewrite <- rsum_scal_r. apply rsum_ext. intros i I. replace (i + (k - i))%nat with k by lia. reflexivity.
Qed.
Lemma taps_comm p q f n : taps p (taps q f) n = taps q (taps p f) n.
Proof.
  unfold taps. rewrite (rsum_ext (length p) _ (fun i => rsum (length q) (fun j => nth i p 0 * (nth j q 0 * f (n - Z.of_nat i - Z.of_nat j)%Z)))) by (intros; rewrite rsum_scal; reflexivity). rewrite rsum_swap. apply rsum_ext. intros j J. rewrite <- rsum_scal. apply rsum_ext. intros i I. replace (n - Z.of_nat j - Z.of_nat i)%Z with (n - Z.of_nat i - Z.of_nat j)%Z by lia. ring.
Qed.
Lemma taps_ext p f g n : (forall m, (m <= n)%Z -> f m = g m) -> taps p f n = taps p g n.
Proof. intros H. apply rsum_ext. intros k K. rewrite H by lia. reflexivity. Qed.
Lemma taps_const p c n : taps p (fun _ => c) n = c * lsum p.
Proof. unfold taps. rewrite rsum_scal_r, lsum_nth. ring. Qed.
Lemma lsum_times p q : lsum (times p q) = lsum p * lsum q.
Proof.
  pose proof (taps_times p q (fun _ => 1) 0) as H. rewrite taps_const in H. rewrite (taps_ext p (taps q (fun _ => 1)) (fun _ => lsum q)) in H by (intros; rewrite taps_const; ring). rewrite taps_const in H. lra.
Qed.
Lemma nth0_times p q : p <> [] -> q <> [] -> nth 0 (times p q) 0 = nth 0 p 0 * nth 0 q 0.
Proof.
  intros P Q. unfold times. rewrite (nth_map_seq (fun n => rsum (S n) (fun k => nth k p 0 * nth (n - k) q 0))) by (destruct p; [congruence|]; destruct q; [congruence|]; cbn [length]; lia). cbn. ring.
Qed.
Lemma length_times p q : length (times p q) = (length p + length q - 1)%nat.
Proof. unfold times. rewrite map_length, seq_length. reflexivity. Qed.

(** ** one section after the other *)
Definition rests (b a : list R) (c : R) (x y : list R) : Prop :=
  length y = length x /\ forall n : nat, (n < length x)%nat -> taps a (held (dc_gain b a * c) y) (Z.of_nat n) = taps b (held c x) (Z.of_nat n).
Lemma rests_Z b a c x y : lsum a <> 0 -> rests b a c x y -> forall n : Z, (n < Z.of_nat (length x))%Z -> taps a (held (dc_gain b a * c) y) n = taps b (held c x) n.
Proof.
  intros S [L H] n N. destruct (Z.lt_ge_cases n 0) as [G|G].
  - rewrite (taps_ext a _ (fun _ => dc_gain b a * c)) by (intros m M; unfold held; destruct (Z.ltb_spec m 0); [reflexivity|lia]). rewrite (taps_ext b _ (fun _ => c)) by (intros m M; unfold held; destruct (Z.ltb_spec m 0); [reflexivity|lia]). rewrite !taps_const. unfold dc_gain. field. exact S.
  - rewrite <- (Z2Nat.id n) by exact G. apply H. lia.
Qed.
Lemma rests_cascade b1 a1 b2 a2 c x y z : lsum a1 <> 0 -> lsum a2 <> 0 -> rests b1 a1 c x y -> rests b2 a2 (dc_gain b1 a1 * c) y z -> rests (times b1 b2) (times a1 a2) c x z.
Proof.
  intros S1 S2 H1 H2. pose proof (rests_Z _ _ _ _ _ S1 H1) as E1. pose proof (rests_Z _ _ _ _ _ S2 H2) as E2. destruct H1 as [L1 _]. destruct H2 as [L2 _]. split; [congruence|]. intros n N.
  assert (G : dc_gain (times b1 b2) (times a1 a2) * c = dc_gain b2 a2 * (dc_gain b1 a1 * c)) by (unfold dc_gain; rewrite !lsum_times; field; split; assumption). rewrite G.
  rewrite <- !taps_times. rewrite (taps_ext a1 _ (taps b2 (held (dc_gain b1 a1 * c) y))) by (intros m M; apply E2; lia). rewrite taps_comm. rewrite (taps_ext b2 _ (taps b1 (held c x))) by (intros m M; apply E1; lia). apply taps_comm.
Qed.
Lemma sos_cons s l z0 z1 zs x : sosfilt (s :: l) ((z0, z1) :: zs) x = sosfilt l zs (df2t (s_b s) (s_a s) [z0; z1] x).
Proof.
  revert z0 z1 zs. induction x as [|u x IH]; intros z0 z1 zs; [reflexivity|]. cbn [sosfilt sos_step df2t]. cbn [fst snd]. rewrite IH. change (nth 0 [z0; z1] 0 + nth 0 (s_b s) 0 * u) with (z0 + s0 s * u). replace (s0 s * u + z0) with (z0 + s0 s * u) by ring. set (y := z0 + s0 s * u).
  assert (E : df2t_next (s_b s) (s_a s) [z0; z1] u y = [s1 s * u - t1 s * y + z1; s2 s * u - t2 s * y]). { unfold df2t_next. cbn [length seq map nth s_b s_a]. f_equal; [ring|]. f_equal. ring. }
  rewrite E. reflexivity.
Qed.
Lemma sos_nil zs x : sosfilt [] zs x = x.
Proof. revert zs. induction x as [|u x IH]; intros zs; [reflexivity|]. cbn [sosfilt sos_step fst snd]. rewrite IH. reflexivity. Qed.
Definition sections_b (l : list sos) : list R := fold_right (fun s acc => times (s_b s) acc) [1] l.
Definition sections_a (l : list sos) : list R := fold_right (fun s acc => times (s_a s) acc) [1] l.
Lemma sections_len l : length (sections_b l) = (2 * length l + 1)%nat /\ length (sections_a l) = (2 * length l + 1)%nat.
Proof. induction l as [|s l [IB IA]]; [split; reflexivity|]. cbn [sections_b sections_a fold_right]. fold (sections_b l) (sections_a l). rewrite !length_times. rewrite IB, IA. cbn [s_b s_a length]. lia. Qed.
Lemma sections_ne l : sections_b l <> [] /\ sections_a l <> [].
Proof. destruct (sections_len l) as [B A]. split; intros E; rewrite E in *; cbn in *; lia. Qed.
Lemma unit_norm (l : list R) : map (fun c => c / 1) l = l.
Proof. induction l as [|u l IH]; [reflexivity|]. cbn [map]. rewrite IH. f_equal. field. Qed.
Lemma section_rests s z c x : t0 s = 1 -> lfilter_zi (s_b s) (s_a s) = Ok z -> rests (s_b s) (s_a s) c x (df2t (s_b s) (s_a s) [c * nth 0 z 0; c * nth 1 z 0] x) /\ lsum (s_a s) <> 0.
Proof.
  intros T EZ. assert (A : nth 0 (s_a s) 0 <> 0) by (cbn; lra). destruct (zi_ok _ _ _ A EZ) as (LZ & _ & S). split; [|exact S]. cbn in LZ. destruct z as [|z0 [|z1 [|]]]; try discriminate. cbn [nth].
  apply (run_from_rest (s_b s) (s_a s) x c [z0; z1] _ A EZ). unfold lfilter_from. change (s_a s) with [t0 s; t1 s; t2 s] at 1. change (s_b s) with [s0 s; s1 s; s2 s] at 1. cbn iota beta. destruct (Req_EM_T (t0 s) 0); [lra|]. cbv zeta.
  change (Nat.max (length (s_a s)) (length (s_b s))) with 3%nat. change (Nat.eqb (length (map (fun z => z * c) [z0; z1])) (3 - 1)) with true. cbn iota. rewrite T, !unit_norm. change (pad_to 3 (s_b s)) with (s_b s). change (pad_to 3 (s_a s)) with (s_a s). cbn [map]. rewrite (Rmult_comm z0 c), (Rmult_comm z1 c). reflexivity.
Qed.
Lemma sos_rests l : forall scale zs c x, (forall s, In s l -> t0 s = 1) -> sosfilt_zi scale l = Ok zs ->
  rests (sections_b l) (sections_a l) (scale * c) x (sosfilt l (map (fun z => (fst z * c, snd z * c)) zs) x) /\ lsum (sections_a l) <> 0 /\ nth 0 (sections_a l) 0 = 1 /\ forall s, In s l -> lsum (s_a s) <> 0.
Proof.
  induction l as [|s l IH]; intros scale zs c x T EZ.
  - cbn in EZ. injection EZ as <-. cbn [map]. rewrite sos_nil. cbn [sections_b sections_a fold_right]. split; [|cbn; repeat split; try lra; tauto]. split; [reflexivity|]. intros n N. unfold dc_gain. cbn [lsum fold_right]. unfold taps. cbn [length rsum nth]. unfold held. destruct (Z.ltb_spec (Z.of_nat n - Z.of_nat 0) 0); [lia|]. ring.
  - cbn [sosfilt_zi] in EZ. destruct (lfilter_zi (s_b s) (s_a s)) as [z|] eqn:E1; [|discriminate]. cbn [bind] in EZ. destruct (sosfilt_zi (scale * (lsum (s_b s) / lsum (s_a s))) l) as [zs'|] eqn:E2; [|discriminate]. cbn [bind] in EZ. injection EZ as <-. cbn [map fst snd]. rewrite sos_cons.
    destruct (section_rests s z (scale * c) x (T s (or_introl eq_refl)) E1) as [H1 S1]. replace (scale * nth 0 z 0 * c) with (scale * c * nth 0 z 0) by ring. replace (scale * nth 1 z 0 * c) with (scale * c * nth 1 z 0) by ring.
    set (y := df2t _ _ _ x) in *. destruct (IH _ _ c y (fun s' I => T s' (or_intror I)) E2) as (H2 & S2 & N2 & A2). cbn [sections_b sections_a fold_right]. fold (sections_b l) (sections_a l). split; [|split; [rewrite lsum_times; apply Rmult_integral_contrapositive_currified; assumption|split; [rewrite nth0_times by (try apply sections_ne; discriminate); rewrite N2; cbn; rewrite (T s (or_introl eq_refl)); ring|intros s' [<-|I]; [exact S1|apply A2; exact I]]]].
    apply (rests_cascade _ _ _ _ _ _ y); try assumption. replace (dc_gain (s_b s) (s_a s) * (scale * c)) with (scale * (lsum (s_b s) / lsum (s_a s)) * c) by (unfold dc_gain; ring). exact H2.
Qed.
Lemma sos_zi_exists l : forall scale, (forall s, In s l -> t0 s = 1 /\ lsum (s_a s) <> 0) -> exists zs, sosfilt_zi scale l = Ok zs.
Proof.
  induction l as [|s l IH]; intros scale H; [eexists; reflexivity|]. cbn [sosfilt_zi]. destruct (H s (or_introl eq_refl)) as [T S]. destruct (zi_exists (s_b s) (s_a s) ltac:(cbn; lra) ltac:(cbn; lia) S) as [z E]. rewrite E. cbn [bind]. destruct (IH (scale * (lsum (s_b s) / lsum (s_a s))) (fun s' I => H s' (or_intror I))) as [zs EZ]. rewrite EZ. cbn [bind]. eexists. reflexivity.
Qed.
Definition sos_taps (l : list sos) : nat := (2 * length l + 1 - Nat.min (count_zero s2 l) (count_zero t2 l))%nat.
Definition sos_ready (l : list sos) (x : list R) : Prop := (forall s, In s l -> t0 s = 1 /\ lsum (s_a s) <> 0) /\ (3 * sos_taps l < length x)%nat.
Lemma validate_spec l : validate_sos l = Ok tt <-> forall s, In s l -> t0 s = 1.
Proof.
  unfold validate_sos. destruct (forallb _ l) eqn:E.
  - split; [|reflexivity]. intros _ s I. rewrite forallb_forall in E. specialize (E s I). apply Reqb_true in E. exact E.
  - split; [discriminate|]. intros H. exfalso. assert (F : forallb (fun s => Reqb (t0 s) 1) l = true) by (apply forallb_forall; intros s I; apply Reqb_true; apply H; exact I). congruence.
Qed.
Lemma sosff_inv l x w : sosfiltfilt l x = Ok w -> sos_ready l x /\ forward_backward (sections_b l) (sections_a l) (3 * sos_taps l) x w.
Proof.
  unfold sosfiltfilt. destruct (validate_sos l) as [[]|] eqn:EV; [|discriminate]. cbn [bind]. fold (sos_taps l). destruct (validate_pad x _) as [[e ext]|] eqn:EP; [|discriminate]. cbn [bind]. destruct (sosfilt_zi 1 l) as [zi|] eqn:EZ; [|discriminate]. cbn [bind]. cbv zeta. intros H. injection H as <-.
  pose proof (proj1 (validate_spec l) EV) as T. destruct (pad_ok _ _ _ _ EP) as (E & L & LE & X). set (y := sosfilt l (map (fun z => (fst z * nth 0 ext 0, snd z * nth 0 ext 0)) zi) ext). set (v := sosfilt l (map (fun z => (fst z * nth (length y - 1) y 0, snd z * nth (length y - 1) y 0)) zi) (rev y)).
  destruct (sos_rests l 1 zi (nth 0 ext 0) ext T EZ) as (HY & S & N & SA). destruct (sos_rests l 1 zi (nth (length y - 1) y 0) (rev y) T EZ) as (HV & _). fold y in HY. fold v in HV. rewrite Rmult_1_l in HY, HV. pose proof (proj1 HY) as LY. pose proof (proj1 HV) as LV. rewrite rev_length in LV.
  split; [split; [intros s I; split; [apply T|apply SA]; exact I|lia]|]. destruct (trim_ok e (length x) (rev v) ltac:(rewrite rev_length; lia)) as [LW HW]. split; [exact LW|]. exists ext, y, (rev v). rewrite <- E. split; [exact LE|]. split; [exact X|]. split; [exact HY|]. split; [|exact HW]. rewrite rev_involutive.
  assert (R0 : nth 0 (rev y) 0 = nth (length y - 1) y 0) by (rewrite rev_nth by lia; reflexivity). unfold from_rest. rewrite R0. exact HV.
Qed.
Lemma sosff_exists l x : sos_ready l x -> exists w, sosfiltfilt l x = Ok w.
Proof.
  intros [H L]. unfold sosfiltfilt. rewrite (proj2 (validate_spec l)) by (intros s I; apply H; exact I). cbn [bind]. fold (sos_taps l). destruct (pad_exists x _ L) as [ext EP]. rewrite EP. cbn [bind]. destruct (sos_zi_exists l 1 H) as [zs EZ]. rewrite EZ. cbn [bind]. eexists. reflexivity.
Qed.
