(** Final forms for vbap, its cache, vbip and nearest_loudspeaker. *)
From Verif Require Import Base BaseFacts M_utils M_sig M_process M_decoder S_utils S_decoder P_utils P_sig P_dec1 P_dec2.
Open Scope R_scope.

Lemma vbap_hull_jobs lstsq3 jobs sched src h o vs : (1 <= jobs)%Z ->
  (forall bases ws, vbap_rows o bases (in_force h vs) (length (h_points h)) src = Ok ws ->
     complete sched ws (repeat (repeat 0 (length (h_points h))) (length src))) ->
  vbap_hull lstsq3 jobs sched src h o vs = vbap_hull lstsq3 1 [] src h o vs.
Proof.
  intros J H. unfold vbap_hull. fold (in_force h vs).
  destruct (match h_vbase h with Some b => _ | None => _ end) as [[bases h']|e]; [|reflexivity].
  cbn [Z.eqb Pos.eqb orb].
  destruct ((jobs =? 1)%Z || Nat.ltb (length src) 10)%bool; [reflexivity|].
  destruct (Z.ltb_spec jobs 1); [lia|]. rewrite par_seq by (intros ws E; exact (H bases ws E)). reflexivity.
Qed.
Lemma vbap_hull_counts lstsq3 jobs sched src h o vs : (1 <= jobs)%Z ->
  (forall i, (i < length src)%nat -> (3 <= count_occ Nat.eq_dec sched i)%nat) ->
  vbap_hull lstsq3 jobs sched src h o vs = vbap_hull lstsq3 1 [] src h o vs.
Proof.
  intros J H. apply vbap_hull_jobs; [exact J|]. intros bases ws E. apply count_complete.
  intros i Hi. pose proof (mapM_length _ _ _ E) as Lw. rewrite Lw in Hi. specialize (H i Hi).
  apply mapM_inv in E.
  assert (G : In (nth i ws []) ws) by (apply nth_In; lia).
  assert (F : Forall (fun w => (length w <= 3)%nat) ws).
  { clear -E. induction E; constructor; auto. eapply row_writes_le; eauto. }
  rewrite Forall_forall in F. specialize (F _ G). lia.
Qed.

Section Vbap.
Variables (lstsq3 : M3 -> M3) (o : nord).
Hypotheses (LC : lstsq3_contract lstsq3) (NO : norm_order o).
(** fresh hull *)
Lemma vbap_fresh src h vs : h_vbase h = None -> hull_wf h ->
  Forall (in_range (length (h_points h))) (in_force h vs) -> Forall (independent (h_points h)) (in_force h vs) ->
  exists rows, vbap_hull lstsq3 1 [] src h o vs
      = (Ok rows, set_vbase h (Some (map (base_of lstsq3 (h_points h)) (in_force h vs)))) /\
    Forall2 (panning_row o h (in_force h vs)) src rows.
Proof.
  intros V WF IR IN. unfold vbap_hull. fold (in_force h vs). rewrite V, invert_ok by exact IR. cbn [bind Z.eqb Pos.eqb orb].
  destruct (vbap_seq_rows lstsq3 o LC NO h (in_force h vs) src WF IR IN) as [rows [E P]].
  exists rows. rewrite E. auto.
Qed.
End Vbap.

Lemma vbap_scale lstsq3 jobs sched src h o vs ks : norm_order o -> length ks = length src -> (forall k, In k ks -> 0 < k) ->
  vbap_hull lstsq3 jobs sched (map (fun x => scal3 (fst x) (snd x)) (combine ks src)) h o vs
  = vbap_hull lstsq3 jobs sched src h o vs.
Proof.
  intros NO E K. unfold vbap_hull.
  destruct (match h_vbase h with Some b => _ | None => _ end) as [[bases h']|e]; [|reflexivity].
  set (v := match vs with Some v => v | None => h_valid h end). set (L := length (h_points h)).
  assert (Ls : length (map (fun x : R * V3 => scal3 (fst x) (snd x)) (combine ks src)) = length src)
    by (rewrite map_length, combine_length; lia).
  assert (R : vbap_rows o bases v L (map (fun x : R * V3 => scal3 (fst x) (snd x)) (combine ks src)) = vbap_rows o bases v L src).
  { clear Ls. revert src E. induction ks as [|k ks IH]; intros [|s src] E; cbn in E; try discriminate; [reflexivity|].
    cbn [combine map]. unfold vbap_rows. cbn [mapM fst snd].
    rewrite find_face_scale by (auto; apply K; left; auto).
    unfold vbap_rows in IH. rewrite IH; [reflexivity| |lia]. intros k' I. apply K. right. exact I. }
  unfold vbap_seq, vbap_par. rewrite Ls, R. reflexivity.
Qed.

(** * Histories *)
Lemma set_vbase_same h : set_vbase h (h_vbase h) = h.
Proof. destruct h. reflexivity. Qed.
Lemma pop_fields h l : h_points (pop_triangles h l) = h_points h /\ h_d (pop_triangles h l) = h_d h /\
  h_a (pop_triangles h l) = h_a h /\ h_vbase (pop_triangles h l) = h_vbase h.
Proof. destruct h, l as [[n|] [p|] [q|] [b|]]; cbn; auto. Qed.
Definition cache_ok (lstsq3 : M3 -> M3) (vs0 : list face) (h : hull) : Prop :=
  h_vbase h = None \/ exists b, h_vbase h = Some b /\ invert_triplets lstsq3 vs0 (h_points h) = Ok b.
Lemma vbap_state lstsq3 jobs sched src h o vs :
  snd (vbap_hull lstsq3 jobs sched src h o vs) =
  match h_vbase h with
  | Some _ => h
  | None => match invert_triplets lstsq3 (in_force h vs) (h_points h) with Ok b => set_vbase h (Some b) | Err _ => h end
  end.
Proof.
  unfold vbap_hull. fold (in_force h vs). destruct (h_vbase h); [reflexivity|].
  destruct (invert_triplets lstsq3 (in_force h vs) (h_points h)); reflexivity.
Qed.
Lemma step_cache lstsq3 vs0 h c : cache_ok lstsq3 vs0 h ->
  match c with CVbap _ _ vs => in_force h vs = vs0 | CPop _ => True end -> cache_ok lstsq3 vs0 (step lstsq3 h c).
Proof.
  intros C U. destruct c as [src o vs|l]; cbn [step].
  - rewrite vbap_state. destruct (h_vbase h) eqn:V; [exact C|].
    rewrite U. destruct (invert_triplets lstsq3 vs0 (h_points h)) eqn:E; [|exact C].
    right. eexists. split; [reflexivity|]. exact E.
  - destruct (pop_fields h l) as [P [_ [_ V]]]. unfold cache_ok. rewrite V, P. exact C.
Qed.
Lemma run_cache lstsq3 vs0 cs : forall h, cache_ok lstsq3 vs0 h -> all_use lstsq3 vs0 h cs -> cache_ok lstsq3 vs0 (run lstsq3 h cs).
Proof.
  induction cs as [|c t IH]; intros h C U; cbn; [exact C|]. destruct U as [U1 U2]. apply IH; [|exact U2].
  apply step_cache; auto.
Qed.
Lemma cached_same lstsq3 jobs sched src h o vs : cache_ok lstsq3 (in_force h vs) h ->
  fst (vbap_hull lstsq3 jobs sched src h o vs) = fst (vbap_hull lstsq3 jobs sched src (set_vbase h None) o vs).
Proof.
  intros [V|[b [V E]]].
  - replace (set_vbase h None) with h; [reflexivity|]. rewrite <- V. symmetry. apply set_vbase_same.
  - unfold vbap_hull. fold (in_force h vs). cbn [set_vbase h_vbase h_points h_valid h_d h_a]. fold (in_force h vs).
    rewrite V. cbn [h_valid h_points]. fold (in_force h vs). rewrite E. reflexivity.
Qed.
Lemma history_independent lstsq3 jobs sched h cs src o vs vs0 :
  h_vbase h = None -> all_use lstsq3 vs0 h cs -> in_force (run lstsq3 h cs) vs = vs0 ->
  fst (vbap_hull lstsq3 jobs sched src (run lstsq3 h cs) o vs)
  = fst (vbap_hull lstsq3 jobs sched src (set_vbase (run lstsq3 h cs) None) o vs).
Proof.
  intros V U F. apply cached_same. rewrite F. apply run_cache; [left; exact V|exact U].
Qed.

(** after a first call with [vs0], gains found on face i of [vs0] go to face i of [vs1] *)
Lemma stale_rows lstsq3 o o0 jobs sched src0 h vs0 vs1 s i g : lstsq3_contract lstsq3 -> norm_order o ->
  h_vbase h = None -> hull_wf h -> Forall (in_range (length (h_points h))) vs0 -> Forall (independent (h_points h)) vs0 ->
  (i < length vs0)%nat -> pans o (h_points h) (nth i vs0 (0,0,0)%nat) s g ->
  (forall j g', (j < i)%nat -> ~ pans o (h_points h) (nth j vs0 (0,0,0)%nat) s g') ->
  let h1 := snd (vbap_hull lstsq3 jobs sched src0 h o0 (Some vs0)) in
  ((length vs1 <= i)%nat -> fst (vbap_hull lstsq3 1 [] [s] h1 o (Some vs1)) = Err IndexError) /\
  ((i < length vs1)%nat -> in_range (length (h_points h)) (nth i vs1 (0,0,0)%nat) -> independent (h_points h) (nth i vs1 (0,0,0)%nat) ->
   exists row, fst (vbap_hull lstsq3 1 [] [s] h1 o (Some vs1)) = Ok [row] /\ length row = length (h_points h) /\
     forall j, (j < length (h_points h))%nat ->
       nth j row 0 = dist_gain (nth j (h_d h) 0) (h_a h) * on_face (nth i vs1 (0,0,0)%nat) g j).
Proof.
  intros LC NO V WF IR IN Hi P A. cbn zeta. rewrite vbap_state, V. cbn [in_force]. rewrite invert_ok by exact IR.
  set (bs := map _ vs0). unfold vbap_hull. cbn [set_vbase h_vbase h_points h_d h_a Z.eqb Pos.eqb orb].
  assert (FG : forall k g0, (k < length vs0)%nat ->
     (face_gains o (nth k bs eye3) s = Some g0 <-> pans o (h_points h) (nth k vs0 (0,0,0)%nat) s g0)).
  { intros k g0 Hk. unfold bs. rewrite (nth_map_in _ _ _ _ (0,0,0)%nat) by exact Hk.
    apply face_gains_pans; auto. rewrite Forall_forall in IN. apply IN, nth_In, Hk. }
  assert (FF : find_face o bs 0 s = Some (i, g)).
  { destruct (find_face_spec o bs 0 s) as [[k [g0 [Hk [F [G N]]]]]|[F N]].
    - cbn in F. unfold bs in Hk. rewrite map_length in Hk.
      assert (k = i).
      { destruct (lt_eq_lt_dec k i) as [[lt|e]|gt]; auto; exfalso.
        - apply (A k g0 lt). apply FG; auto.
        - pose proof (proj2 (FG i g Hi) P) as Gi. rewrite (N i gt) in Gi. discriminate. }
      subst k. pose proof (proj2 (FG i g Hi) P) as Gi. rewrite Gi in G. injection G as <-. exact F.
    - exfalso. pose proof (proj2 (FG i g Hi) P) as Gi. unfold bs in N. rewrite map_length in N.
      unfold bs in Gi. rewrite (N i Hi) in Gi. discriminate. }
  unfold vbap_seq, vbap_rows. cbn [mapM]. rewrite FF. cbn [row_writes]. split.
  - intro Lv. rewrite (proj2 (nth_error_None vs1 i) Lv). reflexivity.
  - intros Hv R I. rewrite (nth_error_nth' vs1 (0,0,0)%nat Hv).
    destruct (nth i vs1 (0,0,0)%nat) as [[a b] c]. destruct R as [Ra [Rb Rc]].
    pose proof Ra as Ra'. pose proof Rb as Rb'. pose proof Rc as Rc'.
    apply Nat.ltb_lt in Ra', Rb', Rc'. rewrite Ra', Rb', Rc'. cbn [andb bind map fst]. eexists. split; [reflexivity|].
    destruct (independent_distinct _ _ _ _ I) as [n1 [n2 n3]].
    assert (Lr : length (h_d h) = length (write_row (repeat 0 (length (h_points h))) [(a, vx g); (b, vy g); (c, vz g)]))
      by (rewrite length_write_row, repeat_length; exact WF).
    split; [rewrite length_scale_row by exact Lr; rewrite length_write_row, repeat_length; reflexivity|].
    intros j Hj. rewrite nth_scale_row by exact Lr. rewrite row3_entry by auto. reflexivity.
Qed.

(** * VBIP *)
Lemma vbip_row_spec o g : norm_order o ->
  length (vbip_row o g) = length g /\ (forall x, In x (vbip_row o g) -> 0 <= x) /\
  ((forall x, In x (vbip_row o g) -> x = 0) \/ unit_norm o (vbip_row o g)) /\
  (forall j, (j < length g)%nat -> (0 < nth j (vbip_row o g) 0 <-> 0 < nth j g 0)).
Proof.
  intro NO. unfold vbip_row. set (g2 := map sqrt _).
  assert (L2 : length g2 = length g) by (unfold g2; rewrite !map_length; reflexivity).
  assert (N2 : forall x, In x g2 -> 0 <= x).
  { intros x I. unfold g2 in I. apply in_map_iff in I. destruct I as [y [<- _]]. apply sqrt_pos. }
  assert (S2 : forall j, (j < length g)%nat -> (0 < nth j g2 0 <-> 0 < nth j g 0)).
  { intros j Hj. unfold g2. rewrite (nth_map_in _ _ _ _ 0) by (rewrite map_length; exact Hj).
    rewrite (nth_map_in _ _ _ _ 0) by exact Hj. destruct (Rltb (nth j g 0) 0) eqn:T.
    - apply Rltb_true in T. rewrite sqrt_0. lra.
    - apply Rltb_false in T. split; intro H.
      + destruct (Req_EM_T (nth j g 0) 0) as [e|]; [rewrite e, sqrt_0 in H; lra|lra].
      + apply sqrt_lt_R0, H. }
  pose proof (vnorm_nonneg o g2 NO) as NN. destruct (Rltb 0 (vnorm o g2)) eqn:T.
  - apply Rltb_true in T. assert (K : 0 < / vnorm o g2) by (apply Rinv_0_lt_compat, T).
    assert (E : map (fun x => x / vnorm o g2) g2 = map (Rmult (/ vnorm o g2)) g2)
      by (apply map_ext; intro; unfold Rdiv; ring).
    split; [rewrite map_length; exact L2|]. split; [|split].
    + intros x I. apply in_map_iff in I. destruct I as [y [<- Iy]]. unfold Rdiv. apply Rmult_le_pos; [apply N2, Iy|lra].
    + right. apply unit_norm_iff; [exact NO|]. rewrite E, vnorm_scale by assumption. field. lra.
    + intros j Hj. rewrite <- S2 by exact Hj. rewrite (nth_map_in _ _ _ _ 0) by (rewrite L2; exact Hj).
      unfold Rdiv. split; intro H.
      * destruct (Req_EM_T (nth j g2 0) 0) as [e|n]; [rewrite e in H; lra|].
        assert (0 <= nth j g2 0) by (apply N2, nth_In; lia). lra.
      * apply Rmult_lt_0_compat; auto.
  - apply Rltb_false in T. assert (Z0 : vnorm o g2 = 0) by lra. split; [exact L2|]. split; [exact N2|]. split; [|exact S2].
    left. apply (proj1 (vnorm_zero o g2 NO) Z0).
Qed.

(** * Nearest loudspeaker *)
Definition dists_ok (h : hull) : Prop := h_d h = map norm3 (h_points h).
Lemma nth_directions ps j : (j < length ps)%nat ->
  nth j (map (fun x : V3 * R => scal3 (/ snd x) (fst x)) (combine ps (map norm3 ps))) (0,0,0)
  = scal3 (/ norm3 (nth j ps (0,0,0))) (nth j ps (0,0,0)).
Proof.
  intro H. rewrite (nth_map_in _ _ _ _ ((0,0,0), 0)) by (rewrite combine_length, map_length; lia).
  rewrite combine_nth by (rewrite map_length; reflexivity). cbn [fst snd].
  rewrite (nth_map_in _ _ _ _ (0,0,0)) by exact H. reflexivity.
Qed.
Lemma nearest_row_spec h src : h_d h = map norm3 (h_points h) -> h_points h <> [] -> src <> (0, 0, 0) ->
  (forall p, In p (h_points h) -> p <> (0, 0, 0)) ->
  exists i row, nearest_row h src = Ok row /\ length row = length (h_points h) /\ (i < length (h_points h))%nat /\
    (forall j, (j < length (h_points h))%nat ->
       angle src (nth i (h_points h) (0,0,0)) <= angle src (nth j (h_points h) (0,0,0)) /\
       ((j < i)%nat -> angle src (nth i (h_points h) (0,0,0)) < angle src (nth j (h_points h) (0,0,0)))) /\
    (forall j, (j < length (h_points h))%nat ->
       nth j row 0 = if Nat.eqb j i then dist_gain (norm3 (nth i (h_points h) (0,0,0))) (h_a h) else 0).
Proof.
  intros D NE S0 P0. unfold nearest_row. rewrite D. set (ps := h_points h) in *.
  set (ds := map (fun x : V3 * R => _) _).
  assert (Lds : length ds = length ps) by (unfold ds; rewrite map_length, combine_length, map_length; lia).
  destruct (argmax_spec (map (dot3 src) ds)) as [i [E [Hi [Mx St]]]].
  { destruct ds as [|x t]; [|cbn; discriminate]. destruct ps; [contradiction|cbn in Lds; lia]. }
  rewrite map_length, Lds in Hi. rewrite map_length, Lds in Mx. rewrite E. cbn [bind].
  assert (V : forall j, (j < length ps)%nat -> nth j (map (dot3 src) ds) 0 =
     norm3 src * (dot3 src (nth j ps (0,0,0)) / (norm3 src * norm3 (nth j ps (0,0,0))))).
  { intros j Hj. rewrite (nth_map_in (dot3 src) ds j 0 (0,0,0)) by (rewrite Lds; exact Hj). unfold ds. rewrite nth_directions by exact Hj.
    assert (norm3 (nth j ps (0,0,0)) > 0) by (apply norm3_pos, P0, nth_In, Hj).
    assert (norm3 src > 0) by (apply norm3_pos, S0).
    replace (dot3 src (scal3 (/ norm3 (nth j ps (0,0,0))) (nth j ps (0,0,0))))
      with (/ norm3 (nth j ps (0,0,0)) * dot3 src (nth j ps (0,0,0)))
      by (generalize (/ norm3 (nth j ps (0,0,0))), (nth j ps (0,0,0)); intros r p; clear; crush3; ring).
    field. split; lra. }
  assert (SP : 0 < norm3 src) by (apply norm3_pos, S0).
  assert (B : forall j, (j < length ps)%nat -> -1 <= dot3 src (nth j ps (0,0,0)) / (norm3 src * norm3 (nth j ps (0,0,0))) <= 1).
  { intros j Hj. apply dot_norm_quot; auto. apply P0, nth_In, Hj. }
  eexists i, _. split; [reflexivity|]. split; [rewrite length_upd, repeat_length; reflexivity|]. split; [exact Hi|]. split.
  - intros j Hj. unfold angle. split.
    + apply acos_decr; auto. specialize (Mx j Hj). rewrite !V in Mx by assumption.
      apply Rmult_le_reg_l with (norm3 src); assumption.
    + intro Hji. specialize (St j Hji). rewrite !V in St by assumption.
      apply Rmult_lt_reg_l in St; [|exact SP].
      destruct (Rlt_le_dec (acos (dot3 src (nth i ps (0,0,0)) / (norm3 src * norm3 (nth i ps (0,0,0)))))
                           (acos (dot3 src (nth j ps (0,0,0)) / (norm3 src * norm3 (nth j ps (0,0,0)))))) as [|Le]; auto.
      exfalso. pose proof (proj1 (acos_decr _ _ (B j Hj) (B i Hi)) Le) as Le'. apply (Rlt_irrefl _ (Rlt_le_trans _ _ _ St Le')).
  - intros j Hj. rewrite nth_upd, repeat_length. fold ps. apply Nat.ltb_lt in Hi as Hi'. rewrite Hi', andb_true_r.
    rewrite Nat.eqb_sym. destruct (Nat.eqb j i); [|apply nth_repeat0].
    rewrite (nth_map_in norm3 ps i 0 (0,0,0)) by exact Hi. rewrite dist_gain_pow. apply Rmult_1_l.
Qed.
