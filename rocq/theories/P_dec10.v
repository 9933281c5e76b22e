(** Characteristic order, Ambisonics setup, loudspeaker signals. *)
From Verif Require Import Base BaseFacts M_utils M_sph0 M_sig M_process M_sph M_grids M_decoder M_decoder2
  S_utils S_sph S_grids S_decoder S_decoder2 P_utils P_sig P_proc2 P_sph7 P_sph9 P_sph13 P_grids3 P_dec1 P_dec6 P_dec7.
Open Scope R_scope.

Lemma norm3_scal k (v : V3) : 0 <= k -> norm3 (scal3 k v) = k * norm3 v.
Proof.
  intro K. unfold norm3. replace (dot3 (scal3 k v) (scal3 k v)) with ((k * k) * dot3 v v) by (destruct v as [[a b] c]; unfold dot3, scal3, vx, vy, vz; cbn; ring).
  rewrite sqrt_mult_alt by nra. rewrite sqrt_square by exact K. reflexivity.
Qed.
Lemma vsum_norm g (p : list V3) : (forall u, In u p -> norm3 u <= 1) -> (forall x, In x g -> 0 <= x) ->
  norm3 (vsum (map (fun ab => scal3 (fst ab) (snd ab)) (combine g p))) <= lsum g.
Proof.
  revert p. induction g as [|x g IH]; intros p HP HG.
  - cbn. unfold norm3, dot3, vx, vy, vz. cbn. rewrite !Rmult_0_l, !Rplus_0_l, sqrt_0. lra.
  - assert (G0 : 0 <= lsum (x :: g)) by (apply lsum_nonneg; exact HG).
    destruct p as [|q p]; [cbn [combine map]; cbn; unfold norm3, dot3, vx, vy, vz; cbn; rewrite !Rmult_0_l, !Rplus_0_l, sqrt_0; exact G0|].
    cbn [combine map]. cbn [vsum fold_right fst snd]. fold (vsum (map (fun ab => scal3 (fst ab) (snd ab)) (combine g p))). eapply Rle_trans; [apply norm3_add|]. change (lsum (x :: g)) with (x + lsum g).
    apply Rplus_le_compat.
    + rewrite norm3_scal by (apply HG; left; reflexivity). pose proof (HP q (or_introl eq_refl)). pose proof (HG x (or_introl eq_refl)). nra.
    + apply IH; intros; [apply HP|apply HG]; right; assumption.
Qed.
Lemma rE_mag_range (p : list V3) g : (forall u, In u p -> norm3 u <= 1) -> 0 <= snd (r_E_row p g) <= 1.
Proof.
  intro HP. unfold r_E_row. destruct (Reqb _ 0) eqn:E; [cbn; lra|]. apply Reqb_false in E. cbn [snd].
  set (g2 := map (fun x => x * x) g) in *.
  assert (P0 : forall x, In x g2 -> 0 <= x) by (intros x I; apply in_map_iff in I; destruct I as [y [<- _]]; apply Rle_0_sqr).
  pose proof (lsum_nonneg g2 P0) as E0. pose proof (vsum_norm g2 p HP P0) as VN.
  change (sqrt (dot3 ?v ?v)) with (norm3 v). assert (0 < lsum g2) by lra. assert (I : 0 < / lsum g2) by (apply Rinv_0_lt_compat; assumption).
  rewrite norm3_scal by (unfold Rdiv; lra). split; [apply Rmult_le_pos; [unfold Rdiv; lra|apply sqrt_pos]|].
  apply Rle_trans with (1 / lsum g2 * lsum g2); [apply Rmult_le_compat_l; [unfold Rdiv; lra|exact VN]|]. unfold Rdiv. rewrite Rmult_1_l, Rinv_l by lra. lra.
Qed.
Lemma acos_range01 x : 0 <= x <= 1 -> 0 <= acos x <= PI / 2.
Proof.
  intro H. pose proof (acos_bound x). split; [tauto|]. destruct (Rle_dec (acos x) (PI / 2)) as [|G]; [assumption|]. exfalso.
  assert (C : cos (acos x) < cos (PI / 2)) by (apply cos_decreasing_1; pose proof PI_RGT_0; lra).
  rewrite cos_acos in C by lra. rewrite cos_PI2 in C. lra.
Qed.
Lemma zceil_le_iff x m : (zceil x <= m)%Z <-> x <= IZR m.
Proof.
  split; intro H.
  - apply Rnot_lt_le. intro L. apply zceil_lt_iff in L. lia.
  - apply Z.nlt_ge. intro L. apply zceil_lt_iff in L. lra.
Qed.

(** the characteristic order in terms of its energy vectors *)
Lemma char_order_inv lstsq3 h n : characteristic_ambisonic_order lstsq3 h = Ok n ->
  exists ps gains, mapO proj (h_points h) = Some ps /\
    fst (vbap_hull lstsq3 1 [] (map (fun c => match proj c with Some p => p | None => (0, 0, 0) end) (h_centroids h)) (set_points h ps) (POrd 2) (Some (h_encloses h))) = Ok gains /\
    gains <> [] /\
    let avg := lsum (map (fun g => 2 * acos (snd (r_E_row ps g)) * (180 / PI)) gains) / INR (length gains) in
    0 < avg <= 180 /\ n = zceil (2 * (1379 / 10) / avg - 151 / 100).
Proof.
  unfold characteristic_ambisonic_order. destruct (mapO proj (h_points h)) as [ps|] eqn:EP; [|discriminate].
  destruct (fst (vbap_hull _ _ _ _ _ _ _)) as [gains|] eqn:EG; [|discriminate]. cbn [bind].
  unfold r_E. destruct (assert_ _) eqn:EA; [|discriminate]. cbn [bind].
  assert (U : forall u, In u ps -> norm3 u <= 1).
  { intros w Iu. apply (@In_nth V3 ps w (0,0,0)) in Iu. destruct Iu as (i & Hi & <-). pose proof (mapO_inv _ _ _ EP) as F2.
    destruct (Forall2_nth (A:=V3) (B:=V3) _ _ _ (0,0,0) (0,0,0) F2) as [L E]. assert (Hi' : (i < length (h_points h))%nat) by (rewrite L; exact Hi).
    specialize (E i Hi'). cbn beta in E. unfold proj in E. rewrite project_spec in E. destruct (Req_EM_T _ 0) as [|NZ]; [discriminate|].
    injection E as <-. unfold norm3. rewrite norm3_unit; [rewrite sqrt_1; lra|]. intro E0. apply NZ. rewrite E0. unfold dot3, vx, vy, vz. cbn. ring. }
  assert (M : forall gs, mapO (fun x => np_acos (snd x)) (map (r_E_row ps) gs) = Some (map (fun g => acos (snd (r_E_row ps g))) gs)).
  { induction gs as [|g gs IH]; [reflexivity|]. cbn [map mapO]. rewrite IH. pose proof (rE_mag_range ps g U) as B. unfold np_acos at 1.
    rewrite (proj2 (Rleb_true _ _)) by lra. rewrite (proj2 (Rleb_true _ _)) by lra. reflexivity. }
  rewrite M. rewrite !map_length. destruct gains as [|g0 gs] eqn:EGS; [cbn [length Nat.eqb]; discriminate|]. rewrite <- EGS in *.
  assert (LP : (0 < length gains)%nat) by (rewrite EGS; cbn; lia). destruct (Nat.eqb_spec (length gains) 0) as [|_]; [lia|].
  rewrite map_map. set (sp := map _ gains). destruct (Reqb (lsum sp / INR (length gains)) 0) eqn:Z0; [discriminate|]. apply Reqb_false in Z0.
  intro E. injection E as <-. exists ps, gains. split; [reflexivity|]. split; [exact EG|]. split; [rewrite EGS; discriminate|]. split; [|reflexivity].
  pose proof PI_RGT_0. pose proof (lt_0_INR _ LP) as LR.
  assert (B : forall x, In x sp -> 0 <= x <= 180).
  { intros x I. apply in_map_iff in I. destruct I as [g [<- _]]. pose proof (acos_range01 _ (rE_mag_range ps g U)) as A.
    assert (0 < 180 / PI) by (apply Rdiv_lt_0_compat; lra). assert (PI * (180 / PI) = 180) by (field; lra). nra. }
  assert (S0 : 0 <= lsum sp) by (apply lsum_nonneg; intros x I; apply B; exact I).
  assert (S1 : lsum sp <= 180 * INR (length gains)).
  { replace (length gains) with (length sp) by (apply map_length). clear - B. induction sp as [|x l IH]; [cbn; lra|].
    change (lsum (x :: l)) with (x + lsum l). cbn [length]. rewrite S_INR. pose proof (B x (or_introl eq_refl)).
    assert (lsum l <= 180 * INR (length l)) by (apply IH; intros; apply B; right; assumption). lra. }
  assert (Q : 0 <= lsum sp / INR (length gains)) by (apply Rmult_le_pos; [exact S0|apply Rlt_le, Rinv_0_lt_compat, LR]).
  change (0 < lsum sp / INR (length gains) <= 180). split; [lra|]. apply (Rmult_le_reg_r (INR (length gains))); [exact LR|]. unfold Rdiv. rewrite Rmult_assoc, Rinv_l, Rmult_1_r by lra. exact S1.
Qed.
Lemma char_order_pos lstsq3 h n : characteristic_ambisonic_order lstsq3 h = Ok n -> (1 <= n)%Z.
Proof.
  intro E. destruct (char_order_inv _ _ _ E) as (ps & gains & _ & _ & _ & [A0 A1] & ->). set (avg := _ / INR (length gains)) in *. clearbody avg.
  assert (0 < zceil (2 * (1379 / 10) / avg - 151 / 100))%Z; [|lia]. apply zceil_lt_iff.
  assert (2 * (1379 / 10) / 180 <= 2 * (1379 / 10) / avg).
  { unfold Rdiv. apply Rmult_le_compat_l; [lra|]. apply Rinv_le_contravar; lra. }
  lra.
Qed.
(** least order whose max-rE angle does not exceed half the average spread *)
Lemma char_order_least (avg : R) (m : Z) : 0 < avg -> (0 <= m)%Z ->
  ((zceil (2 * (1379 / 10) / avg - 151 / 100) <= m)%Z <-> 1379 / 10 / (IZR m + 151 / 100) <= avg / 2).
Proof.
  intros A Mp. assert (0 <= IZR m) by (apply (IZR_le 0 m); exact Mp). rewrite zceil_le_iff. split; intro H0.
  - apply (Rmult_le_reg_r (IZR m + 151 / 100)); [lra|]. unfold Rdiv at 1. rewrite Rmult_assoc, Rinv_l, Rmult_1_r by lra.
    assert (2 * (1379 / 10) <= avg * (IZR m + 151 / 100)); [|lra].
    apply (Rmult_le_reg_r (/ avg)); [apply Rinv_0_lt_compat; lra|]. replace (avg * (IZR m + 151 / 100) * / avg) with (IZR m + 151 / 100) by (field; lra).
    unfold Rdiv in H0 |- *. lra.
  - assert (1379 / 10 <= avg / 2 * (IZR m + 151 / 100)).
    { apply (Rmult_le_compat_r (IZR m + 151 / 100)) in H0; [|lra]. unfold Rdiv at 1 in H0. rewrite Rmult_assoc, Rinv_l, Rmult_1_r in H0 by lra. exact H0. }
    assert (2 * (1379 / 10) / avg <= IZR m + 151 / 100); [|lra].
    apply (Rmult_le_reg_r avg); [lra|]. unfold Rdiv at 1. rewrite Rmult_assoc, Rinv_l, Rmult_1_r by lra. lra.
Qed.
Lemma get_order_ok lstsq3 s z : s_order s = None -> characteristic_ambisonic_order lstsq3 (s_hull s) = Ok z ->
  get_characteristic_order lstsq3 s = Ok (Z.to_nat z) /\ (1 <= Z.to_nat z)%nat.
Proof.
  intros O E. pose proof (char_order_pos _ _ _ E) as P. unfold get_characteristic_order. rewrite O, E. cbn [bind].
  destruct (Z.ltb_spec z 1); [lia|]. split; [reflexivity|lia].
Qed.

(** ** ambisonics_setup *)
Lemma kept_prefix : forall n i k (bad : nat -> Prop), (forall j, (i <= j < i + n + k)%nat -> (bad j <-> (i + n <= j)%nat)) ->
  forall l, kept_from i bad (n + k) l <-> l = seq i n.
Proof.
  induction n as [|n IH]; intros i k bad H l.
  - cbn [Nat.add seq]. revert i H l. induction k as [|k IHk]; intros i H l; [cbn; tauto|]. cbn [kept_from]. rewrite (IHk (S i)).
    + split; [intros [[_ E]|[N _]]; [exact E|exfalso; apply N, H; lia]|intros ->; left; split; [apply H; lia|reflexivity]].
    + intros j Hj. rewrite H by lia. lia.
  - cbn [Nat.add seq kept_from]. split.
    + intros [[B _]|[_ (t & -> & KT)]]; [apply H in B; lia|]. apply (IH (S i) k bad) in KT; [rewrite KT; reflexivity|]. intros j Hj. rewrite H by lia. lia.
    + intros ->. right. split; [rewrite H by lia; lia|]. exists (seq (S i) n). split; [reflexivity|]. apply (IH (S i) k bad); [|reflexivity]. intros j Hj. rewrite H by lia. lia.
Qed.
Lemma setup_ok chull lstsq3 nd s upd im order Nk s' : ambisonics_setup chull lstsq3 nd s upd im order (Some Nk) = (Ok tt, s') ->
  s_hull s' = s_hull s /\
  exists kp, s_kernel s' = Some (kp, Nk) /\ load_n_design nd (2 * Z.of_nat Nk) = Ok kp /\
  (exists n, s_order s' = Some n /\ (order = Some n \/ order = None /\ get_characteristic_order lstsq3 s = Ok n)) /\
  exists h added, s_ambi s' = Some h /\ h_points h = h_points (s_hull s) ++ added /\ h_vbase h = None /\ hull_wf h /\
    (forall l, real_ls (h_imag h) (length (h_points h)) l <-> l = seq 0 (length (h_points (s_hull s)))) /\
    match upd, im with
    | false, _ => added = []
    | true, Some ps => added = ps
    | true, None => exists p, find_imaginary_loudspeaker (s_hull s) = Ok (Some p) /\ added = [p]
    end.
Proof.
  unfold ambisonics_setup. destruct (match order with Some n => Ok n | None => get_characteristic_order lstsq3 s end) as [n|e] eqn:EO; [|discriminate].
  assert (OO : order = Some n \/ order = None /\ get_characteristic_order lstsq3 s = Ok n) by (destruct order; [left; congruence|right; auto]).
  match goal with |- context [match ?X with Ok _ => _ | Err _ => _ end] => destruct X as [[als idx]|e] eqn:EA; [|discriminate] end.
  destruct (load_n_design nd (2 * Z.of_nat Nk)) as [kp|e] eqn:EK; [|discriminate]. intro E. injection E as <-. cbn [s_hull s_kernel s_order s_ambi].
  split; [reflexivity|]. exists kp. split; [reflexivity|]. split; [reflexivity|]. split; [exists n; auto|].
  set (pts := h_points (s_hull s)) in *. exists (set_imag (hull_of_points chull als) idx).
  assert (X : exists added, als = pts ++ added /\
     match upd, im with false, _ => added = [] /\ idx = None | true, Some ps => added = ps /\ idx = Some (seq (length pts) (length ps))
                      | true, None => idx = Some [length pts] /\ exists p, find_imaginary_loudspeaker (s_hull s) = Ok (Some p) /\ added = [p] end).
  { destruct upd; [|injection EA as <- <-; exists []; rewrite app_nil_r; auto]. destruct im as [ps|]; [injection EA as <- <-; exists ps; auto|].
    destruct (find_imaginary_loudspeaker (s_hull s)) as [[p|]|e]; try discriminate. cbn [bind] in EA. injection EA as <- <-. exists [p]. eauto. }
  destruct X as (added & -> & X). exists added. cbn [set_imag h_points hull_of_points h_vbase h_imag]. split; [reflexivity|]. split; [reflexivity|]. split; [reflexivity|].
  split; [unfold hull_wf; cbn [set_imag hull_of_points h_d h_points]; apply map_length|]. split.
  - intro l. unfold real_ls. rewrite app_length. apply kept_prefix. intros j Hj. destruct upd; [|destruct X as [-> ->]; cbn [length] in *; split; [tauto|lia]].
    destruct im as [ps|]; [destruct X as [-> ->]; rewrite in_seq; lia|]. destruct X as (-> & p & _ & ->). cbn [In length] in *. lia.
  - destruct upd; [|tauto]. destruct im; tauto.
Qed.
Lemma setup_none chull lstsq3 nd s upd im order : exists e, fst (ambisonics_setup chull lstsq3 nd s upd im order None) = Err e.
Proof. unfold ambisonics_setup. destruct (match order with Some n => Ok n | None => _ end); eexists; reflexivity. Qed.

(** ** loudspeaker_signals *)
Lemma ls_signals_spec h G sig : (nc G = length (h_points h) ->
   (forall x, sig = Some x -> length x = nr G \/ length x = 1%nat \/ nr G = 1%nat) ->
   exists out, loudspeaker_signals h G sig = Ok out /\ nr out = nc G /\
     nc out = match sig with None => nr G | Some x => if Nat.eqb (length x) 1 then nr G else length x end /\
     forall l t, (l < nc G)%nat -> (t < nc out)%nat ->
       ent out l t = (match sig with None => 1 | Some x => if Nat.eqb (length x) 1 then nth 0 x 0 else nth t x 0 end)
                     * ent G (if Nat.eqb (nr G) 1 then 0%nat else t) l).
Proof.
  intros C HS. unfold loudspeaker_signals. rewrite C, Nat.eqb_refl. cbn [assert_ bind]. destruct sig as [x|].
  - destruct (Nat.eqb_spec (length x) (nr G)) as [E|E].
    + eexists. split; [reflexivity|]. cbn [nr nc ent]. split; [auto|]. rewrite E. split; [destruct (Nat.eqb_spec (nr G) 1); auto|].
      intros l t Hl Ht. destruct (Nat.eqb_spec (nr G) 1) as [E1|E1]; [|reflexivity]. rewrite E1 in Ht. replace t with 0%nat by lia. reflexivity.
    + destruct (Nat.eqb_spec (length x) 1) as [E1|E1].
      * eexists. split; [reflexivity|]. cbn [nr nc ent]. split; [auto|]. split; [auto|]. intros l t Hl Ht. destruct (Nat.eqb_spec (nr G) 1); [congruence|reflexivity].
      * destruct (HS x eq_refl) as [|[|E2]]; try contradiction. rewrite E2. cbn [Nat.eqb]. eexists. split; [reflexivity|]. cbn [nr nc ent]. repeat split; auto.
  - rewrite repeat_length, Nat.eqb_refl. eexists. split; [reflexivity|]. cbn [nr nc ent]. split; [auto|]. split; [auto|]. intros l t Hl Ht.
    rewrite nth_repeat_in by exact Ht. destruct (Nat.eqb_spec (nr G) 1) as [E1|E1]; [|reflexivity]. rewrite E1 in Ht. replace t with 0%nat by lia. reflexivity.
Qed.
Lemma ls_signals_bad h G sig : nc G <> length (h_points h) -> loudspeaker_signals h G sig = Err AssertionError.
Proof. intro H. unfold loudspeaker_signals. destruct (Nat.eqb_spec (nc G) (length (h_points h))); [contradiction|reflexivity]. Qed.
Lemma ls_signals_mismatch h G x : nc G = length (h_points h) -> length x <> nr G -> length x <> 1%nat -> nr G <> 1%nat -> loudspeaker_signals h G (Some x) = Err ValueError.
Proof.
  intros C A B D. unfold loudspeaker_signals. rewrite C, Nat.eqb_refl. cbn [assert_ bind].
  destruct (Nat.eqb_spec (length x) (nr G)); [contradiction|]. destruct (Nat.eqb_spec (length x) 1); [contradiction|]. destruct (Nat.eqb_spec (nr G) 1); [contradiction|]. reflexivity.
Qed.
