(** Final forms and concrete cases for the panning theorems. *)
From Verif Require Import Base BaseFacts M_utils M_sig M_process M_decoder S_utils S_decoder P_utils P_sig P_dec1 P_dec2 P_dec3 P_dec4 P_dec5.
Open Scope R_scope.

Lemma vbap_rows_final lstsq3 o jobs sched src h vs : lstsq3_contract lstsq3 -> norm_order o ->
  h_vbase h = None -> hull_wf h ->
  Forall (in_range (length (h_points h))) (in_force h vs) -> Forall (independent (h_points h)) (in_force h vs) ->
  (1 <= jobs)%Z -> (forall i, (i < length src)%nat -> (3 <= count_occ Nat.eq_dec sched i)%nat) ->
  exists rows, fst (vbap_hull lstsq3 jobs sched src h o vs) = Ok rows /\ Forall2 (panning_row o h (in_force h vs)) src rows.
Proof.
  intros LC NO V WF IR IN J S. rewrite vbap_hull_counts by assumption.
  destruct (vbap_fresh lstsq3 o LC NO src h vs V WF IR IN) as [rows [E P]]. exists rows. rewrite E. auto.
Qed.
Lemma unit_norm_nonzero o l : norm_order o -> unit_norm o l -> exists x, In x l /\ x <> 0.
Proof.
  intros NO U. apply unit_norm_iff in U; auto.
  destruct (Exists_dec (fun x => x <> 0) l) as [E|E].
  - intro x. destruct (Req_EM_T x 0); [right|left]; auto.
  - apply Exists_exists in E. exact E.
  - exfalso. assert (vnorm o l = 0); [|lra]. apply vnorm_zero; auto. intros x I.
    destruct (Req_EM_T x 0); auto. exfalso. apply E. apply Exists_exists. eauto.
Qed.
Lemma cone_active lstsq3 o h vs src row : lstsq3_contract lstsq3 -> norm_order o ->
  Forall (in_range (length (h_points h))) vs -> Forall (independent (h_points h)) vs -> hull_wf h -> (forall d, In d (h_d h) -> 0 < d) ->
  panning_row o h vs src row -> (exists f, In f vs /\ inside_cone (h_points h) f src) ->
  exists j, (j < length (h_points h))%nat /\ nth j row 0 <> 0.
Proof.
  intros LC NO IR IN WF D [_ [[i [g [Hi [P [_ E]]]]]|[N _]]] [f [If Cf]].
  - pose proof P as [U _]. destruct (unit_norm_nonzero o _ NO U) as [x [Ix Nx]].
    pose proof (proj1 (Forall_forall _ _) IR _ (nth_In vs (0,0,0)%nat Hi)) as R.
    pose proof (proj1 (Forall_forall _ _) IN _ (nth_In vs (0,0,0)%nat Hi)) as I.
    destruct (nth i vs (0,0,0)%nat) as [[a b] c]. destruct R as [Ra [Rb Rc]].
    destruct (independent_distinct _ _ _ _ I) as [n1 [n2 n3]].
    assert (DG : forall j, (j < length (h_points h))%nat -> dist_gain (nth j (h_d h) 0) (h_a h) <> 0).
    { intros j Hj. unfold dist_gain. destruct (Req_EM_T (nth j (h_d h) 0) 0) as [e|].
      - assert (0 < nth j (h_d h) 0) by (apply D, nth_In; rewrite WF; exact Hj). lra.
      - pose proof (exp_pos (h_a h * ln (nth j (h_d h) 0))). lra. }
    assert (G : forall j, (j < length (h_points h))%nat -> on_face (a, b, c) g j = x -> nth j row 0 <> 0).
    { intros j Hj O. rewrite E by exact Hj. rewrite O. apply Rmult_integral_contrapositive. split; auto. }
    destruct Ix as [Ex|[Ex|[Ex|[]]]]; [exists a|exists b|exists c]; (split; [assumption|]); apply G; auto; unfold on_face;
      rewrite !delta_same || idtac; unfold delta; rewrite ?Nat.eqb_refl;
      repeat match goal with |- context [Nat.eqb ?u ?v] => destruct (Nat.eqb_spec u v); try congruence end; lra.
  - exfalso. destruct (cone_pans o NO (h_points h) f src) as [g P]; auto; [|apply (N f g If P)].
    rewrite Forall_forall in IN. apply IN, If.
Qed.

(** * A concrete inverse *)
Definition adj_lstsq (V : M3) : M3 := mscal3 (/ det3 V) (adj3 V).
Lemma adj_contract : lstsq3_contract adj_lstsq.
Proof. intros V D. unfold adj_lstsq. rewrite mm_mscal, adj_right, mscal_mscal, Rinv_l, mscal_1 by exact D. reflexivity. Qed.

(** loudspeakers on +x, +y, +z and -x, two triangles *)
Definition ex_points : list V3 := [(1, 0, 0); (0, 1, 0); (0, 0, 1); (-1, 0, 0)].
Definition ex_faces : list face := [(0, 1, 2); (1, 2, 3)]%nat.
Definition ex_hull : hull := Hull ex_points [1; 1; 1; 1] 1 (0, 0, 0) ex_faces
  (map (centroid ex_points) ex_faces) (map (face_area ex_points) ex_faces) (map (face_normal ex_points) ex_faces)
  ex_faces ex_faces None None.
Lemma ex_range : Forall (in_range (length (h_points ex_hull))) ex_faces.
Proof. repeat constructor. Qed.
Lemma ex_indep : Forall (independent (h_points ex_hull)) ex_faces.
Proof.
  repeat constructor; unfold independent, dot3, cross3, vx, vy, vz; cbn [h_points ex_hull ex_points nth fst snd]; lra.
Qed.
Lemma ex_wf : hull_wf ex_hull.
Proof. reflexivity. Qed.
Lemma ex_cone : inside_cone ex_points (0, 1, 2)%nat (1, 2, 2).
Proof.
  split.
  - intro E. injection E. lra.
  - exists (1, 2, 2). unfold vx, vy, vz. cbn [fst snd]. split; [lra|]. split; [lra|]. split; [lra|].
    unfold combines, ex_points. cbn [nth]. unfold add3, scal3, vx, vy, vz. cbn [fst snd]. tuple3; ring.
Qed.
Lemma ex_pans : pans (POrd 2) ex_points (0, 1, 2)%nat (1, 2, 2) (1/3, 2/3, 2/3).
Proof.
  split; [|split].
  - apply unit_norm_two. unfold vx, vy, vz. cbn. field.
  - unfold vx, vy, vz. cbn. lra.
  - exists (1/3). split; [lra|]. unfold combines, ex_points. cbn [nth]. unfold add3, scal3, vx, vy, vz. cbn [fst snd]. tuple3; field.
Qed.
Lemma ex_not_pans g : ~ pans (POrd 2) ex_points (1, 2, 3)%nat (1, 2, 2) g.
Proof.
  intros [U [[_ [_ T]] [k [K C]]]]. destruct g as [[x y] z].
  unfold combines, ex_points in C. cbn [nth] in C. unfold add3, scal3, vx, vy, vz in C. cbn [fst snd] in C.
  unfold vx, vy, vz in *. cbn [fst snd] in *. injection C as C1 C2 C3.
  apply unit_norm_two in U. cbn in U. assert (z = - k) by lra. assert (x = 2 * k) by lra. assert (y = 2 * k) by lra. subst. nra.
Qed.

(** vbap, remove the first triangle, vbap again: a source in front right is sent
    to the loudspeaker at -x *)
Lemma stale_example lstsq3 : lstsq3_contract lstsq3 -> exists h l src row row',
  h_vbase h = None /\ hull_wf h /\ Forall (independent (h_points h)) (h_valid h) /\
  let h1 := pop_triangles (snd (vbap_hull lstsq3 1 [] src h (POrd 2) None)) l in
  fst (vbap_hull lstsq3 1 [] src h1 (POrd 2) None) = Ok [row] /\
  fst (vbap_hull lstsq3 1 [] src (set_vbase h1 None) (POrd 2) None) = Ok [row'] /\
  nth 3 (h_points h) (0,0,0) = (-1, 0, 0) /\ src = [(1, 2, 2)] /\ nth 3 row 0 = 2/3 /\ (forall j, nth j row' 0 = 0).
Proof.
  intro LC.
  set (l := Limits None None None (Some [0%nat])).
  set (h1 := pop_triangles (snd (vbap_hull lstsq3 1 [] [(1,2,2)] ex_hull (POrd 2) None)) l).
  assert (V1 : h_valid h1 = [(1, 2, 3)]%nat).
  { unfold h1. rewrite vbap_state. cbn [h_vbase ex_hull]. rewrite invert_ok by apply ex_range. reflexivity. }
  assert (P1 : h_points h1 = ex_points).
  { unfold h1. rewrite vbap_state. cbn [h_vbase ex_hull]. rewrite invert_ok by apply ex_range. reflexivity. }
  assert (D1 : h_d h1 = [1; 1; 1; 1]).
  { unfold h1. rewrite vbap_state. cbn [h_vbase ex_hull]. rewrite invert_ok by apply ex_range. reflexivity. }
  destruct (stale_rows lstsq3 (POrd 2) (POrd 2) 1 [] [(1,2,2)] ex_hull ex_faces [(1,2,3)%nat] (1,2,2) 0 (1/3,2/3,2/3)) as [_ H];
    [exact LC|cbn; lra|reflexivity|exact ex_wf|exact ex_range|exact ex_indep|cbn; lia|exact ex_pans|intros; lia|].
  destruct H as [row [E [Lr R]]]; [cbn; lia|repeat constructor| |].
  { pose proof ex_indep as I. inversion I; subst. inversion H2; subst. assumption. }
  assert (EQ : fst (vbap_hull lstsq3 1 [] [(1, 2, 2)] h1 (POrd 2) None) = Ok [row]).
  { rewrite <- E. unfold h1. rewrite !vbap_state. cbn [h_vbase ex_hull]. cbn [in_force h_valid]. 
    rewrite !invert_ok by apply ex_range. reflexivity. }
  assert (WF' : hull_wf (set_vbase h1 None)) by (unfold hull_wf; cbn [set_vbase h_d h_points]; rewrite P1, D1; reflexivity).
  destruct (vbap_fresh lstsq3 (POrd 2) LC ltac:(cbn; lra) [(1,2,2)] (set_vbase h1 None) None eq_refl WF') as [rows [Er Pr]].
  { cbn [in_force h_valid set_vbase h_points]. rewrite V1, P1. repeat constructor. }
  { cbn [in_force h_valid set_vbase h_points]. rewrite V1, P1. pose proof ex_indep as I. inversion I; subst. exact H2. }
  inversion Pr as [|? row' ? rest Pr' Pn]; subst. inversion Pn; subst.
  exists ex_hull, l, [(1,2,2)], row, row'. split; [reflexivity|]. split; [exact ex_wf|]. split; [exact ex_indep|].
  cbn zeta. fold h1. split; [exact EQ|]. split; [rewrite Er; reflexivity|]. split; [reflexivity|]. split; [reflexivity|]. split.
  - rewrite R by (cbn; lia). cbn [ex_hull h_d h_a nth]. unfold dist_gain. destruct (Req_EM_T 1 0); [lra|]. rewrite ln_1, Rmult_0_r, exp_0.
    unfold on_face, delta, vx, vy, vz. cbn. field.
  - cbn [in_force h_valid set_vbase] in Pr'. rewrite V1 in Pr'. destruct Pr' as [Lr' [[i [g [Hi [Pp _]]]]|[_ Z0]]].
    + exfalso. cbn in Hi. assert (i = 0)%nat by lia. subst i. cbn [nth h_points set_vbase] in Pp. rewrite P1 in Pp. apply (ex_not_pans g Pp).
    + intro j. destruct (lt_dec j (length row')) as [Hj|Hj]; [apply Z0; rewrite <- Lr'; exact Hj|apply nth_overflow; lia].
Qed.

(** a row of gains on loudspeakers *)
Lemma vbip_rows lstsq3 jobs sched src s o vs ro rows s' : norm_order o ->
  vbip lstsq3 jobs sched src s o vs ro = (Ok rows, s') ->
  exists gains, vbap lstsq3 jobs sched src s (POrd 2) vs ro = (Ok gains, s') /\
  Forall2 (fun g r => length r = length g /\ (forall x, In x r -> 0 <= x) /\
    ((forall x, In x r -> x = 0) \/ unit_norm o r) /\
    (forall j, (j < length g)%nat -> (0 < nth j r 0 <-> 0 < nth j g 0))) gains rows.
Proof.
  intros NO. unfold vbip. destruct (vbap lstsq3 jobs sched src s (POrd 2) vs ro) as [r s1].
  destruct r as [g|e]; cbn [bind]; [|intro E; discriminate E]. intro E. injection E as <- <-. exists g. split; [reflexivity|].
  induction g as [|x t IH]; cbn; [constructor|]. constructor; [apply vbip_row_spec, NO|exact IH].
Qed.
Lemma vbip_unit o g : norm_order o -> (exists j, (j < length g)%nat /\ 0 < nth j g 0) -> unit_norm o (vbip_row o g).
Proof.
  intros NO [j [Hj P]]. destruct (vbip_row_spec o g NO) as [L [_ [[Z0|U] S]]]; auto. exfalso.
  apply S in P; auto. rewrite (Z0 (nth j (vbip_row o g) 0)) in P; [lra|]. apply nth_In. rewrite L. exact Hj.
Qed.

(** * Triangulations *)
Lemma ex_triangulated : triangulated ex_hull.
Proof.
  unfold triangulated, ex_hull, ex_faces. cbn [h_simplices h_valid h_centroids h_normals h_areas h_points].
  split; [|split; [|split; [|split; [|auto]]]].
  - repeat constructor; cbn; intuition discriminate.
  - repeat constructor; discriminate.
  - intros f g If Ig S. cbn in If, Ig. destruct If as [<-|[<-|[]]], Ig as [<-|[<-|[]]]; auto; exfalso.
    + specialize (S 0%nat). cbn in S. destruct S as [S _]. destruct S; auto; lia.
    + specialize (S 0%nat). cbn in S. destruct S as [_ S]. destruct S; auto; lia.
  - apply subseq_refl.
Qed.
Lemma ex_surface : surface ex_faces.
Proof.
  split; [repeat constructor; discriminate|]. intros u v N. unfold shared, ex_faces.
  cbn [filter]. destruct (_ && _)%bool; destruct (_ && _)%bool; cbn; lia.
Qed.
