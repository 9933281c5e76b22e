(** Final forms and concrete cases: exact convex hulls. *)
From Coq Require Import Lra Lia Psatz Classical Permutation.
From Verif Require Import Base BaseFacts M_decoder S_decoder S_misc P_dec1 P_dec2 P_dec3 X_dec1 X_dec2 P_misc X_misc S_cover S_cover2 P_cover1 P_cover2 P_cover3 X_cover.
Open Scope R_scope.

Lemma f_hull : forall ps vs, general ps -> surrounded ps -> exact_hull ps vs ->
  vs <> [] /\ Forall (in_range (length ps)) vs /\ Forall (independent ps) vs /\ encloses ps vs /\ closed_surface vs /\ goes_on ps vs.
Proof.
  intros ps vs GE SU H. destruct (hull_indep ps GE SU vs H) as (A & B). split; [now apply (hull_ne ps)|]. split; [exact B|]. split; [exact A|].
  split; [now apply (hull_encloses ps)|]. split; [now apply (hull_closed ps)|now apply (hull_goes_on ps)].
Qed.
Lemma sort_corners vs a b c : corners (sort_vertices vs) a b c <-> corners vs a b c.
Proof.
  assert (R : forall f, exists x y z, f = (x, y, z) /\ (sort_face f = (z, y, x) \/ sort_face f = (y, x, z) \/ sort_face f = (x, z, y))).
  { intros [[x y] z]. exists x, y, z. split; [reflexivity|]. unfold sort_face. destruct (argmin3 z y x) as [|[|k]]; auto. }
  unfold sort_vertices. induction vs as [|f vs IH]; [unfold corners; cbn; tauto|].
  assert (S : forall g l x y z, corners (g :: l) x y z <-> corners [g] x y z \/ corners l x y z) by (intros g l x y z; unfold corners; cbn [In]; tauto).
  cbn [map]. rewrite S, (S f), IH. destruct (R f) as (x & y & z & -> & E).
  assert (Q : corners [sort_face (x, y, z)] a b c <-> corners [(x, y, z)] a b c); [|tauto].
  destruct E as [-> | [-> | ->]]; unfold corners; cbn [In]; split; intro H; repeat match goal with H : _ \/ _ |- _ => destruct H as [H|H] end; try contradiction; injection H as <- <- <-; tauto.
Qed.
Lemma f_sorted : forall ps vs, exact_hull ps (sort_vertices vs) <-> exact_hull ps vs.
Proof. intros ps vs. unfold exact_hull. split; intros H a b c; rewrite <- H; [symmetry|]; apply sort_corners. Qed.
Lemma init_wf chull ps o : hull_wf (setup_init chull ps o).
Proof. unfold hull_wf, setup_init, hull_of_points. cbn [h_d h_points]. now rewrite map_length. Qed.
Lemma init_d chull ps o : (forall p, In p (h_points (setup_init chull ps o)) -> p <> (0, 0, 0)) -> forall d, In d (h_d (setup_init chull ps o)) -> 0 < d.
Proof.
  unfold setup_init, hull_of_points. cbn [h_d h_points]. intros H d Hd. apply in_map_iff in Hd. destruct Hd as (p & <- & Hp). specialize (H p Hp).
  apply sqrt_lt_R0. pose proof (dot_pos p H) as P. unfold dot3 in P. lra.
Qed.
Lemma f_setup : forall lstsq3 chull ps o order jobs sched src, let h := setup_init chull ps o in
  lstsq3_contract lstsq3 -> norm_order order -> exact_hull (h_points h) (chull (h_points h)) -> general (h_points h) -> surrounded (h_points h) ->
  (forall p, In p (h_points h) -> p <> (0, 0, 0)) -> h_encloses h = h_simplices h ->
  (1 <= jobs)%Z -> (forall i, (i < length src)%nat -> (3 <= count_occ Nat.eq_dec sched i)%nat) -> (forall v, In v src -> v <> (0, 0, 0)) ->
  exists rows, fst (vbap_hull lstsq3 jobs sched src h order None) = Ok rows /\ length rows = length src /\
    forall row, In row rows -> exists j, (j < length (h_points h))%nat /\ nth j row 0 <> 0.
Proof.
  intros lstsq3 chull ps o order jobs sched src h LC NO EH GE SU NZ AL J S NS.
  assert (E2 : exact_hull (h_points h) (h_simplices h)) by (apply f_sorted; exact EH).
  assert (VE : in_force h None = h_simplices h) by (cbn [in_force]; rewrite <- AL; reflexivity).
  destruct (f_hull _ _ GE SU E2) as (NE & IR & IN & _ & _ & GO).
  apply (f_active lstsq3 order jobs sched src h None); auto; try (rewrite VE; assumption); [apply init_wf|apply init_d; exact NZ].
Qed.
Lemma f_centred : forall lstsq3 chull ps o order jobs sched src, let h := setup_init chull ps o in
  lstsq3_contract lstsq3 -> norm_order order -> exact_hull (h_points h) (chull (h_points h)) -> general (h_points h) -> surrounded (h_points h) ->
  (forall p, In p (h_points h) -> p <> (0, 0, 0)) -> mean_of (h_points h) (0, 0, 0) ->
  (1 <= jobs)%Z -> (forall i, (i < length src)%nat -> (3 <= count_occ Nat.eq_dec sched i)%nat) -> (forall v, In v src -> v <> (0, 0, 0)) ->
  exists rows, fst (vbap_hull lstsq3 jobs sched src h order None) = Ok rows /\ length rows = length src /\
    forall row, In row rows -> exists j, (j < length (h_points h))%nat /\ nth j row 0 <> 0.
Proof.
  intros lstsq3 chull ps o order jobs sched src h LC NO EH GE SU NZ ME J S NS. apply f_setup; auto. fold h.
  destruct (f_kept chull ps o) as (_ & _ & K & E & _). fold h in K, E. rewrite E. now apply K.
Qed.
Lemma corners_app vs vs' a b c : corners (vs ++ vs') a b c <-> corners vs a b c \/ corners vs' a b c.
Proof. unfold corners. rewrite !in_app_iff. tauto. Qed.
Lemma same_hull o h vs vs' src row row' : norm_order o -> exact_hull (h_points h) vs -> exact_hull (h_points h) vs' -> general (h_points h) -> surrounded (h_points h) ->
  src <> (0, 0, 0) -> hull_wf h -> (forall d, In d (h_d h) -> 0 < d) ->
  panning_row o h vs src row -> panning_row o h vs' src row' -> (forall x, In x row -> 0 <= x) -> (forall x, In x row' -> 0 <= x) -> row = row'.
Proof.
  intros NO EH EH' GE SU NZ WF DP (L1 & H1) (L2 & H2) P1 P2.
  assert (EW : exact_hull (h_points h) (vs ++ vs')) by (intros x y z; rewrite corners_app, (EH x y z), (EH' x y z); tauto).
  destruct (f_hull _ _ GE SU EW) as (_ & IR & IN & EN & _).
  destruct (f_hull _ _ GE SU EH) as (NE1 & _ & IN1 & _ & _ & GO1). destruct (f_hull _ _ GE SU EH') as (NE2 & _ & IN2 & _ & _ & GO2).
  assert (DG : forall j, (j < length (h_points h))%nat -> 0 < dist_gain (nth j (h_d h) 0) (h_a h)) by (intros j Hj; apply dist_gain_pos, DP, nth_In; rewrite WF; exact Hj).
  assert (Q1 : forall j, (j < length (h_points h))%nat -> 0 <= nth j row 0) by (intros j Hj; apply P1, nth_In; lia).
  assert (Q2 : forall j, (j < length (h_points h))%nat -> 0 <= nth j row' 0) by (intros j Hj; apply P2, nth_In; lia).
  apply (nth_ext _ _ 0 0); [lia|]. rewrite L1. intros j Hj.
  assert (DI : forall f, In f (vs ++ vs') -> in_range (length (h_points h)) f /\ distinct f).
  { intros f Hf. rewrite Forall_forall in IR, IN. split; [now apply IR|]. pose proof (IN f Hf) as I. destruct f as [[a b] c]. apply (indep_distinct (h_points h)), I. }
  destruct H1 as [(i & g & Hi & Pg & _ & E1)|(N1 & E1)]; destruct H2 as [(i' & g' & Hi' & Pg' & _ & E2)|(N2 & E2)].
  - set (f := nth i vs (0,0,0)%nat) in *. set (f' := nth i' vs' (0,0,0)%nat) in *.
    assert (If : In f (vs ++ vs')) by (apply in_or_app; left; apply nth_In; exact Hi). assert (If' : In f' (vs ++ vs')) by (apply in_or_app; right; apply nth_In; exact Hi').
    destruct (DI f If) as (Rf & Df). destruct (DI f' If') as (Rf' & Df').
    destruct (vertex_gains f _ h row g Rf Df DG Q1 E1) as (G1 & G2 & G3). destruct (vertex_gains f' _ h row' g' Rf' Df' DG Q2 E2) as (G1' & G2' & G3').
    destruct Pg as (U & _ & k & K & C). destruct Pg' as (U' & _ & k' & K' & C').
    assert (IK : 0 < / k) by now apply Rinv_0_lt_compat. assert (IK' : 0 < / k') by now apply Rinv_0_lt_compat.
    apply (combines_scal _ _ (/ k)) in C. apply (combines_scal _ _ (/ k')) in C'.
    assert (SS : forall q (w : V3), q <> 0 -> scal3 (/ q) (scal3 q w) = w) by (intros q [[w1 w2] w3] Q; v3; apply v3_eq; field; exact Q).
    rewrite SS in C, C' by lra.
    assert (GS : forall jj, on_face f (scal3 (/ k) g) jj = on_face f' (scal3 (/ k') g') jj).
    { apply (gains_same (h_points h) (vs ++ vs') f f' _ _ src IN EN If If'); try assumption; unfold scal3, vx, vy, vz; cbn [fst snd]; apply Rmult_le_pos; try assumption; lra. }
    assert (OF : forall jj, on_face f g jj = (k / k') * on_face f' g' jj).
    { intro jj. pose proof (GS jj) as X. rewrite !on_face_scal in X. replace (k / k' * on_face f' g' jj) with (k * (/ k' * on_face f' g' jj)) by (field; lra). rewrite <- X. field. lra. }
    assert (R1 : k / k' = 1) by (apply (unit_ratio o (length (h_points h)) f f' g g'); try assumption; now apply Rdiv_lt_0_compat).
    rewrite E1, E2 by assumption. rewrite OF, R1. ring.
  - exfalso. destruct (around _ _ src NE2 IN2 GO2 NZ) as (f & If & Cf). destruct (cone_pans o NO _ f src (proj1 (Forall_forall _ _) IN2 f If) Cf) as (q & Q). exact (N2 f q If Q).
  - exfalso. destruct (around _ _ src NE1 IN1 GO1 NZ) as (f & If & Cf). destruct (cone_pans o NO _ f src (proj1 (Forall_forall _ _) IN1 f If) Cf) as (q & Q). exact (N1 f q If Q).
  - rewrite E1, E2 by assumption. reflexivity.
Qed.
(** which list of the faces the hull code returns does not matter *)
Lemma f_same_sound : forall chull chull' ps o order src row row', let h := setup_init chull ps o in let h' := setup_init chull' ps o in
  norm_order order -> exact_hull (h_points h) (chull (h_points h)) -> exact_hull (h_points h) (chull' (h_points h)) -> general (h_points h) -> surrounded (h_points h) ->
  (forall p, In p (h_points h) -> p <> (0, 0, 0)) -> h_encloses h = h_simplices h -> h_encloses h' = h_simplices h' -> src <> (0, 0, 0) ->
  panning_row order h (h_valid h) src row -> panning_row order h' (h_valid h') src row' -> (forall x, In x row -> 0 <= x) -> (forall x, In x row' -> 0 <= x) -> row = row'.
Proof.
  intros chull chull' ps o order src row row' h h' NO EH EH' GE SU NZ AL AL' NS P P' N N'.
  apply (same_hull order h (h_valid h) (h_valid h') src row row'); auto; [| |apply init_wf|apply init_d; exact NZ].
  - replace (h_valid h) with (h_simplices h) by (rewrite <- AL; reflexivity). apply f_sorted. exact EH.
  - replace (h_valid h') with (h_simplices h') by (rewrite <- AL'; reflexivity). apply f_sorted. exact EH'.
Qed.

(** * Tetrahedra *)
Lemma tet_cases (P : nat -> Prop) : P 0%nat -> P 1%nat -> P 2%nat -> P 3%nat -> forall d, (d < 4)%nat -> P d.
Proof. intros. destruct d as [|[|[|[|d]]]]; auto; lia. Qed.
Definition tet0 : list V3 := [(1, 1, 1); (1, -1, -1); (-1, 1, -1); (-1, -1, 1)].
Lemma tet_general p q r s : tdet (sub3 q p) (sub3 r p) (sub3 s p) <> 0 -> general [p; q; r; s].
Proof.
  intro H. split; [cbn; lia|]. cbn [length]. intros a b c d A B C D ab ac ad bc bd cd. 
  assert (G : forall t, t = tdet (sub3 q p) (sub3 r p) (sub3 s p) \/ t = - tdet (sub3 q p) (sub3 r p) (sub3 s p) -> t <> 0) by (intros t [-> | ->]; lra).
  apply G. clear G H. revert a b c d A B C D ab ac ad bc bd cd.
  intros a b c d A B C D; revert a A b B c C d D. 
  do 4 (refine (tet_cases _ _ _ _ _)); intros; try congruence; cbn [nth]; clear; (left; v3; ring) || (right; v3; ring).
Qed.
Lemma tet_exact p q r s : let ps := [p; q; r; s] in 
  supports ps 0 1 2 -> supports ps 0 1 3 -> supports ps 0 2 3 -> supports ps 1 2 3 -> exact_hull ps tetra.
Proof.
  intros ps S0 S1 S2 S3.
  assert (SW1 : forall a b c, supports ps a b c -> supports ps b a c).
  { intros a b c (A & B & C & ab & bc & ac & n & k & E1 & E2 & E3 & H). repeat (split; [auto; fail|]). exists n, k. repeat (split; [assumption|]). intros d Hd; auto. }
  assert (SW2 : forall a b c, supports ps a b c -> supports ps a c b).
  { intros a b c (A & B & C & ab & bc & ac & n & k & E1 & E2 & E3 & H). repeat (split; [auto; fail|]). exists n, k. repeat (split; [assumption|]). intros d Hd; auto. }
  intros a b c. split.
  - unfold corners, tetra. cbn [In]. intro H. repeat match goal with H : _ \/ _ |- _ => destruct H as [H|H] end; try contradiction; injection H as <- <- <-; auto.
  - intros (A & B & C & ab & bc & ac & _). cbn [length ps] in A, B, C. revert a A b B c C ab bc ac.
    do 3 (refine (tet_cases _ _ _ _ _)); intros; try congruence; unfold corners, tetra; cbn [In]; auto 20.
Qed.
Ltac supp n k := unfold supports; cbn [length]; repeat (split; [lia|]); exists n, k; unfold dot3, vx, vy, vz; cbn [nth fst snd]; repeat (split; [lra|]);
  refine (tet_cases _ _ _ _ _); intros; try congruence; cbn [nth fst snd]; lra.
Lemma tet0_exact : exact_hull tet0 tetra.
Proof. apply tet_exact; [supp (1, 1, -1) 1|supp (1, -1, 1) 1|supp (-1, 1, 1) 1|supp (-1, -1, -1) 1]. Qed.
Lemma tet0_general : general tet0.
Proof. apply tet_general. unfold tdet, sub3, dot3, cross3, vx, vy, vz; cbn [fst snd]. lra. Qed.
Lemma tet0_surrounded : surrounded tet0.
Proof.
  intros n N. destruct (classic (exists i, (i < length tet0)%nat /\ 0 < dot3 n (nth i tet0 (0, 0, 0)))) as [|H]; [assumption|]. exfalso. apply N.
  assert (V : forall i, (i < 4)%nat -> dot3 n (nth i tet0 (0, 0, 0)) <= 0) by (intros i Hi; apply Rnot_lt_le; intro P; apply H; exists i; auto).
  pose proof (V 0%nat ltac:(lia)) as V0. pose proof (V 1%nat ltac:(lia)) as V1. pose proof (V 2%nat ltac:(lia)) as V2. pose proof (V 3%nat ltac:(lia)) as V3'. clear V H N.
  destruct n as [[x y] z]. unfold tet0, dot3, vx, vy, vz in *. cbn [nth fst snd] in *. apply v3_eq; lra.
Qed.
Lemma ex_tet : let h := setup_init (fun _ => tetra) tet0 None in h_points h = tet0 /\ exact_hull (h_points h) tetra /\ general (h_points h) /\ surrounded (h_points h) /\
  (forall p, In p (h_points h) -> p <> (0, 0, 0)) /\ mean_of (h_points h) (0, 0, 0) /\ h_encloses h = h_simplices h.
Proof.
  intro h. assert (E : h_points h = tet0) by (unfold h, setup_init, hull_of_points; cbn [h_points]; apply no_shift).
  assert (ME : mean_of (h_points h) (0, 0, 0)) by (rewrite E; unfold mean_of, tet0, vx, vy, vz; cbn; repeat split; try lia; lra).
  split; [exact E|]. split; [rewrite E; exact tet0_exact|]. split; [rewrite E; exact tet0_general|]. split; [rewrite E; exact tet0_surrounded|].
  split; [rewrite E; intros p Hp; cbn in Hp; destruct Hp as [<-|[<-|[<-|[<-|[]]]]]; intro X; injection X; lra|]. split; [exact ME|].
  destruct (f_kept (fun _ => tetra) tet0 None) as (_ & _ & K & E' & _). fold h in K, E'. rewrite E'. now apply K.
Qed.

(** * Faces that the constructor drops *)
Lemma lean_exact : exact_hull leaning1 tetra.
Proof. apply tet_exact; [supp (0, 0, -1) 1|supp (0, -1, 10) 3|supp (-1, 0, 10) 3|supp (1, 1, -17) 291]. Qed.
Lemma lean_general : general leaning1.
Proof. apply tet_general. unfold tdet, sub3, dot3, cross3, vx, vy, vz; cbn [fst snd]. lra. Qed.
Lemma lean_surrounded : surrounded leaning1.
Proof.
  intros n N. destruct (classic (exists i, (i < length leaning1)%nat /\ 0 < dot3 n (nth i leaning1 (0, 0, 0)))) as [|H]; [assumption|]. exfalso. apply N.
  assert (V : forall i, (i < 4)%nat -> dot3 n (nth i leaning1 (0, 0, 0)) <= 0) by (intros i Hi; apply Rnot_lt_le; intro P; apply H; exists i; auto).
  pose proof (V 0%nat ltac:(lia)) as V0. pose proof (V 1%nat ltac:(lia)) as V1. pose proof (V 2%nat ltac:(lia)) as V2. pose proof (V 3%nat ltac:(lia)) as V3'. clear V H N.
  destruct n as [[x y] z]. unfold leaning1, dot3, vx, vy, vz in *. cbn [nth fst snd] in *. apply v3_eq; lra.
Qed.
Definition lean_src : V3 := (0, 0, -1).
Definition lean_hull : hull := setup_init (fun _ => tetra) leaning1 None.
Lemma lean_points : h_points lean_hull = leaning1.
Proof. unfold lean_hull, setup_init, hull_of_points. cbn [h_points]. apply no_shift. Qed.
Lemma lean_valid f : In f (h_valid lean_hull) -> f = (0, 3, 1)%nat \/ f = (0, 3, 2)%nat \/ f = (1, 3, 2)%nat.
Proof.
  unfold lean_hull, setup_init, hull_of_points. cbn [h_valid]. rewrite no_shift, filter_In. intros (I & H). cbn in I. destruct I as [<-|[<-|[<-|[<-|[]]]]]; auto.
  exfalso. revert H. unfold listener_inside. rewrite Bool.negb_true_iff, Rltb_false. unfold centroid, fpts, pt, vmean, vsum3, leaning1, dot3, sub3, add3, vx, vy, vz. cbn. lra.
Qed.
Lemma lean_silent f g : In f (h_valid lean_hull) -> ~ pans (POrd 2) leaning1 f lean_src g.
Proof.
  intros Hf (U & (T1 & T2 & T3) & k & K & C). apply unit_norm_two in U. destruct g as [[x y] z]. unfold vx, vy, vz in *. cbn in U. cbn [fst snd] in *.
  apply lean_valid in Hf. unfold combines, leaning1, lean_src in C. destruct Hf as [-> | [-> | ->]]; cbn [nth] in C; unfold add3, scal3, vx, vy, vz in C; cbn [fst snd] in C; injection C as C1 C2 C3; nra.
Qed.
Lemma f_dropped_refuted : forall lstsq3, lstsq3_contract lstsq3 -> exists chull ps src row, let h := setup_init chull ps None in
  h_points h = ps /\ exact_hull ps (chull ps) /\ general ps /\ surrounded ps /\ (forall p, In p ps -> p <> (0, 0, 0)) /\ src <> (0, 0, 0) /\
  fst (vbap_hull lstsq3 1 [] [src] h (POrd 2) None) = Ok [row] /\ forall j, nth j row 0 = 0.
Proof.
  intros lstsq3 LC. 
  destruct (f_hull _ _ lean_general lean_surrounded (proj2 (f_sorted _ _) lean_exact)) as (_ & IR & IN & _).
  assert (SUB : forall f, In f (h_valid lean_hull) -> In f (sort_vertices tetra)) by (intros f Hf; apply lean_valid in Hf; cbn; intuition auto).
  assert (IR' : Forall (in_range (length (h_points lean_hull))) (h_valid lean_hull)) by (rewrite lean_points; apply Forall_forall; intros f Hf; apply (proj1 (Forall_forall _ _) IR), SUB, Hf).
  assert (IN' : Forall (independent (h_points lean_hull)) (h_valid lean_hull)) by (rewrite lean_points; apply Forall_forall; intros f Hf; apply (proj1 (Forall_forall _ _) IN), SUB, Hf).
  destruct (vbap_fresh lstsq3 (POrd 2) LC Rlt_0_2 [lean_src] lean_hull None eq_refl (init_wf _ _ _) IR' IN') as (rows & E & F).
  inversion F as [|? row ? ? P F']; subst. inversion F'; subst. exists (fun _ => tetra), leaning1, lean_src, row. cbv zeta. fold lean_hull.
  split; [exact lean_points|]. split; [exact lean_exact|]. split; [exact lean_general|]. split; [exact lean_surrounded|].
  split; [intros p Hp; cbn in Hp; destruct Hp as [<-|[<-|[<-|[<-|[]]]]]; intro X; injection X; lra|]. split; [intro X; injection X; lra|]. split; [change (fst (vbap_hull lstsq3 1 [] [lean_src] lean_hull (POrd 2) None) = Ok [row]); rewrite E; reflexivity|].
  destruct P as (L & [(i & g & Hi & Pg & _)|(_ & V)]).
  - exfalso. rewrite lean_points in Pg. exact (lean_silent _ g (nth_In _ _ Hi) Pg).
  - intro j. destruct (lt_dec j (length (h_points lean_hull))) as [Hj|Hj]; [now apply V|apply nth_overflow; lia].
Qed.
