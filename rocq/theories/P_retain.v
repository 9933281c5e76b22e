(** Panning with imaginary loudspeakers, VBIP. *)
From Verif Require Import Base BaseFacts M_utils M_sph0 M_sig M_process M_sph M_grids M_decoder M_decoder2
  S_utils S_sph S_grids S_decoder S_decoder2 S_retain P_utils P_sig P_dec1 P_dec2 P_dec3 X_dec1 P_dec7 P_dec10 X_dec2.
Open Scope R_scope.

Lemma delete_nth idx (l : list R) : forall i, delete_from i idx l = map (fun j => nth (j - i) l 0) (delete_from i idx (seq i (length l))).
Proof.
  induction l as [|x t IH]; intro i; cbn [delete_from length seq map]; [reflexivity|].
  assert (E : map (fun j => nth (j - i) (x :: t) 0) (delete_from (S i) idx (seq (S i) (length t))) = map (fun j => nth (j - S i) t 0) (delete_from (S i) idx (seq (S i) (length t)))).
  { apply map_ext_in. intros j I. pose proof (kept_in _ _ _ _ j (delete_kept idx (length t) (S i)) I) as [B _].
    replace (j - i)%nat with (S (j - S i)) by lia. reflexivity. }
  destruct (existsb (Nat.eqb i) idx); [rewrite E; apply IH|]. cbn [map]. rewrite E, Nat.sub_diag. cbn [nth]. f_equal. apply IH.
Qed.
Lemma delete_only idx n reals (full : list R) : real_ls (Some idx) n reals -> length full = n -> only reals full (np_delete idx full).
Proof.
  intros RL <-. rewrite (real_is _ _ _ RL). unfold keep_of, np_delete. rewrite (delete_nth idx full 0). split; [apply map_length|].
  intros l Hl. rewrite (nth_map_in _ _ _ _ 0%nat) by exact Hl. rewrite Nat.sub_0_r. reflexivity.
Qed.
Lemma hull_kept lstsq3 jobs sched src h o vs : let h' := snd (vbap_hull lstsq3 jobs sched src h o vs) in
  h_points h' = h_points h /\ h_valid h' = h_valid h /\ h_d h' = h_d h /\ h_a h' = h_a h /\ h_imag h' = h_imag h.
Proof.
  unfold vbap_hull. destruct (h_vbase h) as [b|]; [cbn [snd]; auto|]. destruct (invert_triplets _ _ _) as [b|e]; cbn [bind snd]; auto.
Qed.

(** ** rows *)
Lemma retain_rows lstsq3 o jobs sched src s h idx reals : lstsq3_contract lstsq3 -> norm_order o ->
  s_ambi s = Some h -> h_imag h = Some idx -> fresh_hull h -> real_ls (Some idx) (length (h_points h)) reals ->
  (1 <= jobs)%Z -> fair (length src) sched ->
  exists rows s', vbap lstsq3 jobs sched src s o None true = (Ok rows, s') /\
    Forall2 (fun v r => exists full, panning_row o h (h_valid h) v full /\ only reals full r) src rows /\
    s_hull s' = s_hull s /\ s_kernel s' = s_kernel s /\ s_order s' = s_order s /\
    exists h', s_ambi s' = Some h' /\ h_points h' = h_points h /\ h_valid h' = h_valid h /\ h_imag h' = Some idx.
Proof.
  intros LC NO SA HI (V & WF & IR & IN) RL J FA.
  destruct (vbap_rows_final lstsq3 o jobs sched src h None LC NO V WF IR IN J FA) as (rows & E & F2).
  pose proof (hull_kept lstsq3 jobs sched src h o None) as HK. unfold vbap. rewrite SA, HI.
  destruct (vbap_hull lstsq3 jobs sched src h o None) as [r h']. cbn [fst snd] in *. subst r. cbn [bind].
  eexists _, _. split; [reflexivity|]. cbn [in_force] in F2. split.
  - clear FA. induction F2 as [|v r src rows P F2 IH]; cbn [map]; constructor; [|apply IH].
    exists r. split; [exact P|]. apply (delete_only idx (length (h_points h))); [exact RL|apply P].
  - cbn. destruct HK as (A & B & _ & _ & C). rewrite HI in C. repeat split; auto. exists h'. auto.
Qed.

Lemma retain_errors lstsq3 jobs sched src s o :
  (forall vs, vbap lstsq3 jobs sched src s o (Some vs) true = (Err AssertionError, s)) /\
  (s_ambi s = None -> vbap lstsq3 jobs sched src s o None true = (Err ValueError, s)) /\
  (forall h, s_ambi s = Some h -> h_imag h = None -> vbap lstsq3 jobs sched src s o None true = (Err ValueError, s)).
Proof.
  unfold vbap. split; [reflexivity|]. split; [intros ->; reflexivity|]. intros h -> ->. reflexivity.
Qed.

(** ** energy *)
Lemma kept_sum bad (dec : forall k, {bad k} + {~ bad k}) (f : nat -> R) n : forall i l, kept_from i bad n l ->
  rsum (length l) (fun k => f (nth k l 0%nat)) = rsum n (fun j => if dec (i + j)%nat then 0 else f (i + j)%nat).
Proof.
  induction n as [|n IH]; intros i l; cbn [kept_from]; [intros ->; reflexivity|].
  rewrite rsum_shift. rewrite Nat.add_0_r. intros [[B K]|[B [t [-> K]]]].
  - destruct (dec i) as [_|]; [|contradiction]. rewrite (IH _ _ K), Rplus_0_l. apply rsum_ext. intros j _. rewrite Nat.add_succ_r. reflexivity.
  - destruct (dec i) as [|_]; [contradiction|]. cbn [length]. rewrite rsum_shift. cbn [nth]. f_equal. rewrite (IH _ _ K). apply rsum_ext. intros j _. rewrite Nat.add_succ_r. reflexivity.
Qed.
Lemma only_energy idx n reals full row : real_ls (Some idx) n reals -> only reals full row ->
  total_energy row + energy_on idx n full = rsum n (fun j => nth j full 0 ^ 2).
Proof.
  intros RL (L & E). unfold total_energy. rewrite L. rewrite (rsum_ext _ _ (fun k => nth (nth k reals 0%nat) full 0 ^ 2)) by (intros k Hk; rewrite E by exact Hk; reflexivity).
  rewrite (kept_sum _ (fun k => in_dec Nat.eq_dec k idx) (fun j => nth j full 0 ^ 2) n 0 reals RL).
  unfold energy_on. rewrite <- rsum_plus. apply rsum_ext. intros j _. cbn [Nat.add]. destruct (in_dec Nat.eq_dec j idx); ring.
Qed.
Lemma retain_energy h idx reals v full row : fresh_hull h -> (forall d, In d (h_d h) -> dist_gain d (h_a h) = 1) ->
  real_ls (Some idx) (length (h_points h)) reals -> panning_row (POrd 2) h (h_valid h) v full -> only reals full row ->
  (exists f, In f (h_valid h) /\ inside_cone (h_points h) f v) ->
  total_energy row + energy_on idx (length (h_points h)) full = 1 /\ total_energy row <= 1.
Proof.
  intros FH D RL P O C. rewrite (only_energy idx (length (h_points h)) reals full row RL O), (row_energy h v full FH D P C). split; [reflexivity|].
  pose proof (only_energy idx (length (h_points h)) reals full row RL O) as E. rewrite (row_energy h v full FH D P C) in E.
  assert (0 <= energy_on idx (length (h_points h)) full); [|lra]. unfold energy_on. apply rsum_nonneg. intros j _. destruct (in_dec _ _ _); [apply pow2_ge_0|lra].
Qed.

(** ** at an imaginary loudspeaker *)
Definition tri (p q r : V3) := dot3 p (cross3 q r).
Lemma combine3 p q r a b c : tri p q r <> 0 -> add3 (scal3 a p) (add3 (scal3 b q) (scal3 c r)) = (0, 0, 0) -> a = 0 /\ b = 0 /\ c = 0.
Proof.
  intros T E. destruct p as [[p1 p2] p3], q as [[q1 q2] q3], r as [[r1 r2] r3].
  unfold tri, dot3, cross3, add3, scal3, vx, vy, vz in *. cbn [fst snd] in *. injection E as E1 E2 E3.
  set (t := p1 * (q2 * r3 - q3 * r2) + p2 * (q3 * r1 - q1 * r3) + p3 * (q1 * r2 - q2 * r1)) in *.
  assert (A : a * t = 0).
  { replace (a * t) with ((a * p1 + (b * q1 + c * r1)) * (q2 * r3 - q3 * r2) + (a * p2 + (b * q2 + c * r2)) * (q3 * r1 - q1 * r3) + (a * p3 + (b * q3 + c * r3)) * (q1 * r2 - q2 * r1)) by (unfold t; ring).
    rewrite E1, E2, E3. ring. }
  assert (B : b * t = 0).
  { replace (b * t) with ((a * p1 + (b * q1 + c * r1)) * (r2 * p3 - r3 * p2) + (a * p2 + (b * q2 + c * r2)) * (r3 * p1 - r1 * p3) + (a * p3 + (b * q3 + c * r3)) * (r1 * p2 - r2 * p1)) by (unfold t; ring).
    rewrite E1, E2, E3. ring. }
  assert (C : c * t = 0).
  { replace (c * t) with ((a * p1 + (b * q1 + c * r1)) * (p2 * q3 - p3 * q2) + (a * p2 + (b * q2 + c * r2)) * (p3 * q1 - p1 * q3) + (a * p3 + (b * q3 + c * r3)) * (p1 * q2 - p2 * q1)) by (unfold t; ring).
    rewrite E1, E2, E3. ring. }
  split; [|split]; [destruct (Rmult_integral _ _ A)|destruct (Rmult_integral _ _ B)|destruct (Rmult_integral _ _ C)]; auto; contradiction.
Qed.
Lemma on_vertex ps f g i k : independent ps f -> In i (fv f) -> combines ps f g (scal3 k (nth i ps (0, 0, 0))) ->
  forall j, j <> i -> on_face f g j = 0.
Proof.
  destruct f as [[a b] c]. intros I HI E j J. destruct (independent_distinct _ _ _ _ I) as (n1 & n2 & n3). unfold independent in I. unfold combines in E.
  set (A := nth a ps (0, 0, 0)) in *. set (B := nth b ps (0, 0, 0)) in *. set (C := nth c ps (0, 0, 0)) in *.
  assert (Z : forall u v w : R, add3 (scal3 (vx g - u) A) (add3 (scal3 (vy g - v) B) (scal3 (vz g - w) C))
    = sub3 (add3 (scal3 (vx g) A) (add3 (scal3 (vy g) B) (scal3 (vz g) C))) (add3 (scal3 u A) (add3 (scal3 v B) (scal3 w C)))).
  { intros. unfold add3, sub3, scal3, vx, vy, vz. cbn [fst snd]. f_equal; [f_equal|]; ring. }
  assert (K : forall u v w, scal3 k (nth i ps (0, 0, 0)) = add3 (scal3 u A) (add3 (scal3 v B) (scal3 w C)) -> vx g - u = 0 /\ vy g - v = 0 /\ vz g - w = 0).
  { intros u v w Ek. apply (combine3 A B C); [exact I|]. rewrite Z, <- E, <- Ek. unfold sub3, scal3, vx, vy, vz. cbn [fst snd]. f_equal; [f_equal|]; ring. }
  unfold on_face, delta. cbn [fv In] in HI. destruct HI as [<-|[<-|[<-|[]]]].
  - destruct (K k 0 0) as (_ & Hy & Hz). { fold A. unfold add3, scal3, vx, vy, vz. cbn [fst snd]. f_equal; [f_equal|]; ring. }
    destruct (Nat.eqb_spec j a); [contradiction|]. replace (vy g) with 0 by lra. replace (vz g) with 0 by lra. ring.
  - destruct (K 0 k 0) as (Hx & _ & Hz). { fold B. unfold add3, scal3, vx, vy, vz. cbn [fst snd]. f_equal; [f_equal|]; ring. }
    destruct (Nat.eqb_spec j b); [contradiction|]. replace (vx g) with 0 by lra. replace (vz g) with 0 by lra. ring.
  - destruct (K 0 0 k) as (Hx & Hy & _). { fold C. unfold add3, scal3, vx, vy, vz. cbn [fst snd]. f_equal; [f_equal|]; ring. }
    destruct (Nat.eqb_spec j c); [contradiction|]. replace (vx g) with 0 by lra. replace (vy g) with 0 by lra. ring.
Qed.
Lemma at_imaginary o h idx reals i k full row : fresh_hull h -> real_ls (Some idx) (length (h_points h)) reals -> In i idx ->
  let v := scal3 k (nth i (h_points h) (0, 0, 0)) in
  (forall f g, In f (h_valid h) -> pans o (h_points h) f v g -> In i (fv f)) ->
  panning_row o h (h_valid h) v full -> only reals full row -> forall x, In x row -> x = 0.
Proof.
  intros (V & WF & IR & IN) RL Ii v FC P (L & E) x Ix. destruct (In_nth _ _ 0 Ix) as (l & Hl & <-). rewrite L in Hl. rewrite E by exact Hl.
  pose proof (kept_in _ _ _ _ _ RL (nth_In reals 0%nat Hl)) as ((_ & B) & NI). set (j := nth l reals 0%nat) in *. cbn [Nat.add] in B.
  destruct P as (Lf & [(n & g & Hn & P & _ & Ef)|(_ & Ef)]); [|apply Ef; exact B].
  rewrite Ef by exact B. pose proof (nth_In (h_valid h) (0, 0, 0)%nat Hn) as If. set (f := nth n (h_valid h) (0, 0, 0)%nat) in *.
  destruct P as (U & T & q & Q & Cq). rewrite (on_vertex (h_points h) f g i (q * k)); [ring| | | |].
  - apply (proj1 (Forall_forall _ _) IN f If).
  - apply (FC f g If). split; [exact U|]. split; [exact T|]. exists q. auto.
  - unfold v in Cq. replace (scal3 (q * k) (nth i (h_points h) (0, 0, 0))) with (scal3 q (scal3 k (nth i (h_points h) (0, 0, 0)))); [exact Cq|].
    unfold scal3, vx, vy, vz. cbn [fst snd]. f_equal; [f_equal|]; ring.
  - intros ->. contradiction.
Qed.

(** ** after ambisonics_setup *)
Lemma retain_after chull lstsq3 nd s im order Nk s1 o jobs sched src : lstsq3_contract lstsq3 -> norm_order o ->
  ambisonics_setup chull lstsq3 nd s true im order (Some Nk) = (Ok tt, s1) ->
  (forall h, s_ambi s1 = Some h -> Forall (in_range (length (h_points h))) (h_valid h) /\ Forall (independent (h_points h)) (h_valid h)) ->
  (1 <= jobs)%Z -> fair (length src) sched ->
  exists h rows s2, s_ambi s1 = Some h /\ vbap lstsq3 jobs sched src s1 o None true = (Ok rows, s2) /\ s_hull s2 = s_hull s /\
    Forall2 (fun v r => exists full, panning_row o h (h_valid h) v full /\ r = firstn (length (h_points (s_hull s))) full) src rows.
Proof.
  intros LC NO AS HF J FA. pose proof (setup_ok _ _ _ _ _ _ _ _ _ AS) as (SH & kp & _ & _ & _ & h & added & SA & HP & VB & WF & RL & _).
  destruct (HF h SA) as (IR & IN).
  assert (HI : exists idx, h_imag h = Some idx).
  { unfold ambisonics_setup in AS. destruct (match order with Some n => Ok n | None => _ end) as [n|]; [|discriminate].
    destruct im as [ps|].
    - destruct (load_n_design _ _) as [kp'|]; [|discriminate]. injection AS as <-. cbn [s_ambi] in SA. injection SA as <-. cbn. eauto.
    - destruct (find_imaginary_loudspeaker (s_hull s)) as [[p|]|]; cbn [bind] in AS; try discriminate.
      destruct (load_n_design _ _) as [kp'|]; [|discriminate]. injection AS as <-. cbn [s_ambi] in SA. injection SA as <-. cbn. eauto. }
  destruct HI as (idx & HI). rewrite HI in RL. pose proof (proj2 (RL _) eq_refl) as R0.
  destruct (retain_rows lstsq3 o jobs sched src s1 h idx _ LC NO SA HI (conj VB (conj WF (conj IR IN))) R0 J FA) as (rows & s2 & E & F2 & H2 & _).
  exists h, rows, s2. split; [exact SA|]. split; [exact E|]. split; [congruence|]. clear E FA. induction F2 as [|v r src rows (full & P & L & N) F2 IH]; constructor; [|exact IH].
  exists full. split; [exact P|]. rewrite seq_length in L, N. apply (nth_ext _ _ 0 0).
  - rewrite firstn_length. destruct P as (-> & _). rewrite HP, app_length. lia.
  - intros l Hl. rewrite L in Hl. rewrite N by exact Hl. rewrite seq_nth by exact Hl. cbn [Nat.add]. symmetry. rewrite <- (firstn_skipn (length (h_points (s_hull s))) full) at 2.
    rewrite app_nth1; [reflexivity|]. rewrite firstn_length. destruct P as (-> & _). rewrite HP, app_length. lia.
Qed.

(** ** VBIP *)
Lemma vbip_roots o g : norm_order o -> roots_of g (vbip_row o g).
Proof.
  intros NO. unfold vbip_row. set (g2 := map sqrt _). assert (L2 : length g2 = length g) by (unfold g2; rewrite !map_length; reflexivity).
  assert (E : forall j, (j < length g)%nat -> nth j g2 0 = sqrt (Rmax 0 (nth j g 0))).
  { intros j Hj. unfold g2. rewrite (nth_map_in _ _ _ _ 0) by (rewrite map_length; exact Hj). rewrite (nth_map_in _ _ _ _ 0) by exact Hj. f_equal.
    destruct (Rltb (nth j g 0) 0) eqn:T; [apply Rltb_true in T; rewrite Rmax_left; lra|apply Rltb_false in T; rewrite Rmax_right; lra]. }
  destruct (Rltb 0 (vnorm o g2)) eqn:T.
  - apply Rltb_true in T. split; [rewrite map_length; exact L2|]. exists (/ vnorm o g2). split; [apply Rinv_0_lt_compat, T|]. intros j Hj.
    rewrite (nth_map_in _ _ _ _ 0) by (rewrite L2; exact Hj). rewrite E by exact Hj. unfold Rdiv. ring.
  - split; [exact L2|]. exists 1. split; [lra|]. intros j Hj. rewrite E by exact Hj. ring.
Qed.
Lemma vbip_values lstsq3 jobs sched src s o vs ro rows s' : norm_order o ->
  vbip lstsq3 jobs sched src s o vs ro = (Ok rows, s') ->
  exists gains, vbap lstsq3 jobs sched src s (POrd 2) vs ro = (Ok gains, s') /\ Forall2 roots_of gains rows.
Proof.
  intros NO. unfold vbip. destruct (vbap lstsq3 jobs sched src s (POrd 2) vs ro) as [r s1].
  destruct r as [g|e]; cbn [bind]; [|discriminate]. intros E. injection E as <- <-. exists g. split; [reflexivity|].
  induction g as [|x t IH]; cbn; constructor; [apply vbip_roots, NO|exact IH].
Qed.
Lemma sum_on_face a b c g n (w : nat -> R) : (a < n)%nat -> (b < n)%nat -> (c < n)%nat -> a <> b -> b <> c -> a <> c ->
  rsum n (fun j => on_face (a, b, c) g j * w j) = vx g * w a + vy g * w b + vz g * w c.
Proof.
  intros A B C n1 n2 n3. rewrite (rsum_three n a b c) by (auto; intros j ja jb jc; unfold on_face, delta;
    repeat match goal with |- context [Nat.eqb ?u ?v] => destruct (Nat.eqb_spec u v); try congruence end; ring).
  unfold on_face, delta. rewrite !Nat.eqb_refl. repeat match goal with |- context [Nat.eqb ?u ?v] => destruct (Nat.eqb_spec u v); try congruence end. ring.
Qed.
Lemma vbip_intensity o h vs v full r : norm_order o -> hull_wf h -> Forall (in_range (length (h_points h))) vs -> Forall (independent (h_points h)) vs ->
  (forall d, In d (h_d h) -> 0 < d) ->
  panning_row o h vs v full -> (forall j, (j < length full)%nat -> 0 <= nth j full 0) -> (exists f, In f vs /\ inside_cone (h_points h) f v) ->
  roots_of full r -> exists k, 0 < k /\ intensity h r = scal3 k v.
Proof.
  intros NO WF IR IN D (Lf & [(i & g & Hi & P & _ & Ef)|(N & _)]) NN (f0 & If0 & Cf0) (Lr & c & Pc & Er).
  2:{ exfalso. destruct (cone_pans o NO (h_points h) f0 v) as (g & Pg); auto; [|exact (N f0 g If0 Pg)]. apply (proj1 (Forall_forall _ _) IN f0 If0). }
  pose proof (proj1 (Forall_forall _ _) IR _ (nth_In vs (0,0,0)%nat Hi)) as R0. pose proof (proj1 (Forall_forall _ _) IN _ (nth_In vs (0,0,0)%nat Hi)) as I.
  destruct P as (_ & _ & q & Q & C). destruct (nth i vs (0, 0, 0)%nat) as [[a b] cc]. destruct R0 as (Ra & Rb & Rc).
  destruct (independent_distinct _ _ _ _ I) as (n1 & n2 & n3).
  assert (W : forall j, (j < length (h_points h))%nat -> nth j r 0 ^ 2 / dist_gain (nth j (h_d h) 0) (h_a h) = c ^ 2 * on_face (a, b, cc) g j).
  { intros j Hj. rewrite Er by (rewrite Lf; exact Hj). pose proof (NN j) as Nj. rewrite Lf in Nj. specialize (Nj Hj). rewrite Rmax_right by exact Nj.
    rewrite Rpow_mult_distr, pow2_sqrt by exact Nj. rewrite Ef by exact Hj.
    assert (DG : dist_gain (nth j (h_d h) 0) (h_a h) <> 0).
    { unfold dist_gain. assert (0 < nth j (h_d h) 0) by (apply D, nth_In; rewrite WF; exact Hj). destruct (Req_EM_T _ 0); [lra|]. pose proof (exp_pos (h_a h * ln (nth j (h_d h) 0))). lra. }
    field. exact DG. }
  exists (c ^ 2 * q). split; [apply Rmult_lt_0_compat; [apply pow_lt, Pc|exact Q]|].
  assert (G : forall w : V3 -> R, rsum (length r) (fun j => nth j r 0 ^ 2 / dist_gain (nth j (h_d h) 0) (h_a h) * w (nth j (h_points h) (0, 0, 0)))
    = c ^ 2 * (vx g * w (nth a (h_points h) (0, 0, 0)) + vy g * w (nth b (h_points h) (0, 0, 0)) + vz g * w (nth cc (h_points h) (0, 0, 0)))).
  { intros w. rewrite Lr, Lf. rewrite (rsum_ext _ _ (fun j => c ^ 2 * (on_face (a, b, cc) g j * w (nth j (h_points h) (0, 0, 0))))).
    - rewrite rsum_scal. f_equal. apply (sum_on_face a b cc g (length (h_points h)) (fun j => w (nth j (h_points h) (0, 0, 0)))); auto.
    - intros j Hj. rewrite W by exact Hj. ring. }
  unfold intensity. rewrite (G vx), (G vy), (G vz). unfold combines in C.
  replace (scal3 (c ^ 2 * q) v) with (scal3 (c ^ 2) (scal3 q v)) by (unfold scal3, vx, vy, vz; cbn [fst snd]; f_equal; [f_equal|]; ring).
  rewrite C. unfold add3, scal3, vx, vy, vz. cbn [fst snd]. f_equal; [f_equal|]; ring.
Qed.
