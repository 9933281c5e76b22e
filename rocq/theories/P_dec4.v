(** pop_triangles, rim detection, face orientation. *)
From Verif Require Import Base BaseFacts M_utils M_sig M_process M_decoder S_utils S_decoder P_utils P_sig P_dec1 P_dec2 P_dec3.
Open Scope R_scope.

(** * Sequences *)
Lemma subseq_refl {A} (l : list A) : subseq l l.
Proof. induction l; constructor; auto. Qed.
Lemma subseq_in {A} (l1 l2 : list A) x : subseq l1 l2 -> In x l1 -> In x l2.
Proof.
  induction 1; cbn; intro I; [contradiction| |right; auto]. destruct I as [->|I]; [left; auto|right; auto].
Qed.
Lemma subseq_trans {A} (l1 l2 l3 : list A) : subseq l1 l2 -> subseq l2 l3 -> subseq l1 l3.
Proof.
  intros H1 H2. revert l1 H1. induction H2 as [l|a m1 m2 H IH|a m1 m2 H IH]; intros l1 H1.
  - inversion H1; subst. constructor.
  - inversion H1; subst; [constructor|apply sub_keep; auto|apply sub_drop; auto].
  - apply sub_drop. auto.
Qed.
Lemma subseq_filter {A} (p : A -> bool) l : subseq (filter p l) l.
Proof. induction l; cbn; [constructor|]. destruct (p a); constructor; auto. Qed.
Lemma filter_subseq_id {A} (p : A -> bool) l1 l2 : subseq l1 l2 -> NoDup l2 ->
  (forall x, In x l2 -> (p x = true <-> In x l1)) -> filter p l2 = l1.
Proof.
  induction 1 as [l|a l1 l2 H IH|a l1 l2 H IH]; intros N Q; cbn.
  - clear N. assert (E : forall x, In x l -> p x = false).
    { intros x I. destruct (p x) eqn:T; auto. apply (Q x I) in T. destruct T. }
    clear Q. induction l as [|x t IH]; cbn; [reflexivity|]. rewrite E by (left; auto). apply IH. intros; apply E; right; auto.
  - inversion N as [|? ? Na N2]; subst. assert (T : p a = true) by (apply Q; left; auto). rewrite T. f_equal.
    apply IH; auto. intros x I. rewrite (Q x (or_intror I)). cbn. split; [intros [->|J]; auto; contradiction|auto].
  - inversion N as [|? ? Na N2]; subst. assert (T : p a = false).
    { destruct (p a) eqn:T; auto. apply (Q a (or_introl eq_refl)) in T. exfalso. apply Na. apply (subseq_in _ _ _ H T). }
    rewrite T. apply IH; auto. intros x I. apply Q. right. exact I.
Qed.
Lemma filter_filter {A} (p q : A -> bool) l : filter p (filter q l) = filter (fun x => (q x && p x)%bool) l.
Proof. induction l; cbn; [reflexivity|]. destruct (q a); cbn; [destruct (p a)|]; rewrite IHl; reflexivity. Qed.
Lemma filter_map {A B} (g : A -> B) (p : B -> bool) l : filter p (map g l) = map g (filter (fun x => p (g x)) l).
Proof. induction l; cbn; [reflexivity|]. destruct (p (g a)); cbn; rewrite IHl; reflexivity. Qed.
Lemma filter_ext_all {A} (p q : A -> bool) l : (forall x, In x l -> p x = q x) -> filter p l = filter q l.
Proof. induction l; cbn; intro H; [reflexivity|]. rewrite H by auto. rewrite IHl by auto. reflexivity. Qed.
Lemma filter_all {A} (p : A -> bool) l : (forall x, In x l -> p x = true) -> filter p l = l.
Proof. induction l; cbn; intro H; [reflexivity|]. rewrite H by auto. rewrite IHl by auto. reflexivity. Qed.

(** * Membership *)
Lemma mem_in u l : existsb (Nat.eqb u) l = true <-> In u l.
Proof.
  rewrite existsb_exists. split.
  - intros [x [I E]]. apply Nat.eqb_eq in E. subst. exact I.
  - intro I. exists u. split; auto. apply Nat.eqb_refl.
Qed.
Lemma isin_three s g : isin_sum s g = 3%nat <-> (forall v, In v (fv g) -> In v s).
Proof.
  destruct g as [[a b] c]. unfold isin_sum. cbn [fv filter].
  assert (M : forall x, existsb (Nat.eqb x) s = true <-> In x s) by (intro; apply mem_in).
  pose proof (M a) as Ma. pose proof (M b) as Mb. pose proof (M c) as Mc.
  assert (E : (forall v, In v [a; b; c] -> In v s) <-> In a s /\ In b s /\ In c s).
  { cbn. split; [intro H; repeat split; apply H; auto|intros [A [B C]] v [<-|[<-|[<-|[]]]]; auto]. }
  rewrite E.
  destruct (existsb (Nat.eqb a) s), (existsb (Nat.eqb b) s), (existsb (Nat.eqb c) s); cbn;
    (split; [intro H; try discriminate H; tauto|]); intros [A [B C]]; try reflexivity; exfalso;
    try (assert (false = true) by tauto; discriminate).
Qed.
Lemma contained_same f g : distinct f -> distinct g -> (forall v, In v (fv g) -> In v (fv f)) -> same_vertices f g.
Proof.
  destruct f as [[a b] c], g as [[x y] z]. cbn [distinct fv]. intros [d1 [d2 d3]] [e1 [e2 e3]] H v. split; [|apply H].
  pose proof (H x ltac:(cbn; auto)) as Hx. pose proof (H y ltac:(cbn; auto)) as Hy. pose proof (H z ltac:(cbn; auto)) as Hz.
  cbn in *. intuition (subst; auto; try congruence).
Qed.
Lemma is_valid_spec valid f : Forall distinct valid -> distinct f ->
  (is_simplex_valid valid f = true <-> exists g, In g valid /\ same_vertices f g).
Proof.
  intros D Df. unfold is_simplex_valid. rewrite existsb_exists. rewrite Forall_forall in D. split.
  - intros [g [I E]]. exists g. split; auto. apply Nat.eqb_eq in E. apply contained_same; auto. apply isin_three, E.
  - intros [g [I E]]. exists g. split; auto. apply Nat.eqb_eq. apply isin_three. intros v Iv. apply E, Iv.
Qed.

(** * Angles *)
Lemma sub3_zero u v : sub3 u v = (0, 0, 0) -> u = v.
Proof. destruct u as [[? ?] ?], v as [[? ?] ?]. cbn. intro E. unfold sub3, vx, vy, vz in E. cbn in E. injection E as E1 E2 E3. tuple3; lra. Qed.
Lemma norm3_0 : norm3 (0, 0, 0) = 0.
Proof. unfold norm3, dot3, vx, vy, vz. cbn. rewrite !Rmult_0_l, !Rplus_0_r. apply sqrt_0. Qed.
Lemma v3_dec (u v : V3) : u = v \/ u <> v.
Proof. destruct u as [[a b] c], v as [[x y] z]. destruct (Req_EM_T a x), (Req_EM_T b y), (Req_EM_T c z); subst; auto; right; intro E; injection E; auto. Qed.
Lemma angle_between_angle u v o : sub3 u o <> (0,0,0) -> sub3 v o <> (0,0,0) ->
  angle_between u v (Some o) = Some (angle (sub3 u o) (sub3 v o)).
Proof.
  intros Hu Hv. unfold angle_between, angle. pose proof (dot_norm_quot _ _ Hu Hv) as B.
  apply norm3_pos in Hu, Hv. rewrite np_div_ok by nra. cbn [obind].
  unfold clip. rewrite Rmax_right by lra. rewrite Rmin_right by lra. apply np_acos_ok. exact B.
Qed.
Lemma angle_between_zero u v o : sub3 u o = (0,0,0) \/ sub3 v o = (0,0,0) -> angle_between u v (Some o) = None.
Proof.
  intro H. unfold angle_between. replace (norm3 (sub3 u o) * norm3 (sub3 v o)) with 0.
  - unfold np_div. rewrite (proj2 (Reqb_true 0 0)) by reflexivity. reflexivity.
  - destruct H as [->| ->]; rewrite norm3_0; ring.
Qed.
Lemma deg2rad_small x : 0 <= x < 360 -> deg2rad x = x * PI / 180.
Proof. intro H. unfold deg2rad. rewrite pymod_id by lra. field. Qed.
Lemma exceeds_wider lim u v o : 0 <= lim < 360 ->
  (exceeds (angle_between u v (Some o)) lim = true <-> wider lim (sub3 u o) (sub3 v o)).
Proof.
  intro L. unfold wider. destruct (v3_dec (sub3 u o) (0,0,0)) as [e|nu].
  - rewrite angle_between_zero by auto. cbn. split; [discriminate|]. intros [H _]. contradiction.
  - destruct (v3_dec (sub3 v o) (0,0,0)) as [e|nv].
    + rewrite angle_between_zero by auto. cbn. split; [discriminate|]. intros [_ [H _]]. contradiction.
    + rewrite angle_between_angle by auto. cbn [exceeds]. rewrite Rltb_true, deg2rad_small by exact L. tauto.
Qed.

(** * One call *)
Definition opt_ok {A} (o : option A) (p : A -> bool) : bool := match o with Some a => p a | None => true end.
Definition keepsb (h : hull) (l : limits) (f : face) : bool :=
  (opt_ok (l_normal l) (fun x => negb (exceeds (angle_between (centroid (h_points h) f) (face_normal (h_points h) f) (Some (h_listener h))) x)) &&
   opt_ok (l_aperture l) (fun x => negb (wide_aperture h x f)) && opt_ok (l_opening l) (fun x => negb (wide_opening h x f)) &&
   opt_ok (l_black l) (fun bl => negb (blacklisted bl f)))%bool.
Lemma nwider lim u v o : 0 <= lim < 360 ->
  (negb (exceeds (angle_between u v (Some o)) lim) = true <-> ~ wider lim (sub3 u o) (sub3 v o)).
Proof.
  intro L. rewrite <- (exceeds_wider lim u v o L). destruct (exceeds _ lim); cbn; split; intro H; auto; try discriminate.
Qed.
Lemma keepsb_keeps h l f : sane l -> (keepsb h l f = true <-> keeps h l f).
Proof.
  intros [S1 [S2 S3]]. destruct f as [[a b] c]. unfold keepsb, keeps. rewrite !andb_true_iff. unfold vert.
  assert (E1 : opt_ok (l_normal l) (fun x => negb (exceeds (angle_between (centroid (h_points h) (a,b,c)) (face_normal (h_points h) (a,b,c)) (Some (h_listener h))) x)) = true
    <-> (forall x, l_normal l = Some x -> ~ wider x (sub3 (centroid (h_points h) (a,b,c)) (h_listener h)) (sub3 (face_normal (h_points h) (a,b,c)) (h_listener h)))).
  { destruct (l_normal l) as [x|]; cbn [opt_ok]; [|split; [intros _ x; discriminate|auto]].
    rewrite nwider by (apply S1; reflexivity). split; [intros H y E; injection E as <-; exact H|intro H; apply H; reflexivity]. }
  assert (E2 : opt_ok (l_aperture l) (fun x => negb (wide_aperture h x (a,b,c))) = true <->
    (forall x, l_aperture l = Some x ->
     ~ wider x (sub3 (nth a (h_points h) (0,0,0)) (h_listener h)) (sub3 (nth b (h_points h) (0,0,0)) (h_listener h)) /\
     ~ wider x (sub3 (nth b (h_points h) (0,0,0)) (h_listener h)) (sub3 (nth c (h_points h) (0,0,0)) (h_listener h)) /\
     ~ wider x (sub3 (nth a (h_points h) (0,0,0)) (h_listener h)) (sub3 (nth c (h_points h) (0,0,0)) (h_listener h)))).
  { destruct (l_aperture l) as [x|]; cbn [opt_ok]; [|split; [intros _ x; discriminate|auto]].
    unfold wide_aperture, fpts, pt. rewrite !negb_orb, !andb_true_iff, !nwider by (apply S2; reflexivity).
    split; [intros H y E; injection E as <-; tauto|intro H; specialize (H x eq_refl); tauto]. }
  assert (E3 : opt_ok (l_opening l) (fun x => negb (wide_opening h x (a,b,c))) = true <->
    (forall x, l_opening l = Some x ->
     ~ wider x (sub3 (nth b (h_points h) (0,0,0)) (nth a (h_points h) (0,0,0))) (sub3 (nth c (h_points h) (0,0,0)) (nth a (h_points h) (0,0,0))) /\
     ~ wider x (sub3 (nth a (h_points h) (0,0,0)) (nth b (h_points h) (0,0,0))) (sub3 (nth c (h_points h) (0,0,0)) (nth b (h_points h) (0,0,0))) /\
     ~ wider x (sub3 (nth a (h_points h) (0,0,0)) (nth c (h_points h) (0,0,0))) (sub3 (nth b (h_points h) (0,0,0)) (nth c (h_points h) (0,0,0))))).
  { destruct (l_opening l) as [x|]; cbn [opt_ok]; [|split; [intros _ x; discriminate|auto]].
    unfold wide_opening, fpts, pt. rewrite !negb_orb, !andb_true_iff, !nwider by (apply S3; reflexivity).
    split; [intros H y E; injection E as <-; tauto|intro H; specialize (H x eq_refl); tauto]. }
  assert (E4 : opt_ok (l_black l) (fun bl => negb (blacklisted bl (a,b,c))) = true <->
    (forall bl, l_black l = Some bl -> exists e, In e bl /\ ~ In e [a; b; c])).
  { destruct (l_black l) as [bl|]; cbn [opt_ok]; [|split; [intros _ x; discriminate|auto]].
    assert (G : negb (blacklisted bl (a,b,c)) = true <-> exists e, In e bl /\ ~ In e [a; b; c]).
    { unfold blacklisted. induction bl as [|e t IH]; cbn [forallb].
      - cbn. split; [discriminate|]. intros [e [[] _]].
      - rewrite negb_andb, orb_true_iff, IH. pose proof (mem_in e (fv (a,b,c))) as M. cbn [fv] in *.
        destruct (existsb (Nat.eqb e) [a;b;c]) eqn:T; cbn [negb].
        + split; [intros [X|[x [I J]]]; [discriminate|exists x; split; [right|]; auto]|].
          intros [x [[<-|I] J]]; [exfalso; apply J, M; reflexivity|right; eauto].
        + split; [intros _; exists e; split; [left; auto|]|auto]. intro I. apply M in I. discriminate. }
    rewrite G. split; [intros H y E; injection E as <-; exact H|intro H; apply H; reflexivity]. }
  rewrite E1, E2, E3, E4. tauto.
Qed.

Lemma triangulated_set h v : triangulated h -> subseq v (h_simplices h) -> triangulated (set_valid h v).
Proof. intros [A [B [C [D E]]]] S. unfold triangulated. cbn. tauto. Qed.
Lemma combine_map3 {A B C} (f : A -> B) (g : A -> C) l :
  combine (combine l (map f l)) (map g l) = map (fun x => (x, f x, g x)) l.
Proof. induction l; cbn; [reflexivity|]. f_equal. exact IHl. Qed.
Lemma valid_in h f : triangulated h -> In f (h_simplices h) -> (is_simplex_valid (h_valid h) f = true <-> In f (h_valid h)).
Proof.
  intros [_ [D [U [S _]]]] I. rewrite Forall_forall in D.
  rewrite is_valid_spec; [|apply Forall_forall; intros g J; apply D; apply (subseq_in _ _ _ S J)|apply D, I].
  split.
  - intros [g [J E]]. rewrite (U f g I (subseq_in _ _ _ S J) E). exact J.
  - intro J. exists f. split; auto. intro v. tauto.
Qed.
Lemma check_normals_filter h lim : triangulated h ->
  check_normals h lim = filter (fun f => negb (exceeds (angle_between (centroid (h_points h) f) (face_normal (h_points h) f) (Some (h_listener h))) lim)) (h_valid h).
Proof.
  intro T. pose proof T as [ND [D [U [S [EC [EN EA]]]]]]. unfold check_normals. rewrite EC, EN, combine_map3, filter_map.
  rewrite map_map. cbn [fst snd]. rewrite map_id. rewrite <- filter_filter.
  rewrite (filter_subseq_id _ _ _ S ND); [reflexivity|]. intros x I. apply valid_in; auto.
Qed.
Lemma pop_filter h l : triangulated h -> pop_triangles h l = set_valid h (filter (keepsb h l) (h_valid h)).
Proof.
  intro T. unfold pop_triangles.
  assert (E1 : opt_set (l_normal l) check_normals h = set_valid h (filter (fun f => opt_ok (l_normal l) (fun x => negb (exceeds (angle_between (centroid (h_points h) f) (face_normal (h_points h) f) (Some (h_listener h))) x))) (h_valid h))).
  { destruct (l_normal l) as [x|]; cbn [opt_set opt_ok]; [rewrite check_normals_filter by exact T; reflexivity|].
    rewrite filter_all by auto. destruct h; reflexivity. }
  rewrite E1.
  assert (E2 : forall v, opt_set (l_aperture l) check_aperture (set_valid h v) = set_valid h (filter (fun f => opt_ok (l_aperture l) (fun x => negb (wide_aperture h x f))) v)).
  { intro v. destruct (l_aperture l) as [x|]; cbn [opt_set opt_ok]; [reflexivity|]. rewrite filter_all by auto. reflexivity. }
  rewrite E2.
  assert (E3 : forall v, opt_set (l_opening l) check_opening (set_valid h v) = set_valid h (filter (fun f => opt_ok (l_opening l) (fun x => negb (wide_opening h x f))) v)).
  { intro v. destruct (l_opening l) as [x|]; cbn [opt_set opt_ok]; [reflexivity|]. rewrite filter_all by auto. reflexivity. }
  rewrite E3.
  assert (E4 : forall v, opt_set (l_black l) apply_blacklist (set_valid h v) = set_valid h (filter (fun f => opt_ok (l_black l) (fun bl => negb (blacklisted bl f))) v)).
  { intro v. destruct (l_black l) as [x|]; cbn [opt_set opt_ok]; [reflexivity|]. rewrite filter_all by auto. reflexivity. }
  rewrite E4. f_equal. rewrite !filter_filter. apply filter_ext_all. intros f _. unfold keepsb. rewrite !andb_assoc. reflexivity.
Qed.
Lemma keepsb_set h v l f : keepsb (set_valid h v) l f = keepsb h l f.
Proof. reflexivity. Qed.
Lemma keeps_set h v l f : keeps (set_valid h v) l f <-> keeps h l f.
Proof. destruct f as [[a b] c]. unfold keeps, vert. cbn. tauto. Qed.

(** * Any sequence of calls *)
Lemma pops_filter ls : forall h, triangulated h ->
  triangulated (fold_left pop_triangles ls h) /\
  fold_left pop_triangles ls h = set_valid h (filter (fun f => forallb (fun l => keepsb h l f) ls) (h_valid h)).
Proof.
  induction ls as [|l t IH]; intros h T; cbn [fold_left forallb].
  - split; [exact T|]. rewrite filter_all by auto. destruct h; reflexivity.
  - rewrite pop_filter by exact T.
    assert (T' : triangulated (set_valid h (filter (keepsb h l) (h_valid h)))).
    { apply triangulated_set; auto. eapply subseq_trans; [apply subseq_filter|]. destruct T as [_ [_ [_ [S _]]]]. exact S. }
    destruct (IH _ T') as [A B]. split; [exact A|]. rewrite B. cbn [h_valid set_valid h_points h_d h_a h_listener h_simplices h_centroids h_areas h_normals h_encloses h_vbase h_imag].
    rewrite filter_filter. reflexivity.
Qed.
Lemma pops_spec ls h : triangulated h -> Forall sane ls ->
  subseq (h_valid (fold_left pop_triangles ls h)) (h_valid h) /\
  (forall f, In f (h_valid (fold_left pop_triangles ls h)) <-> In f (h_valid h) /\ forall l, In l ls -> keeps h l f).
Proof.
  intros T S. destruct (pops_filter ls h T) as [_ ->]. cbn [h_valid set_valid]. split; [apply subseq_filter|].
  intro f. rewrite filter_In, forallb_forall. rewrite Forall_forall in S.
  split; intros [I H]; split; auto; intros l Il; apply (keepsb_keeps h l f (S l Il)); auto.
Qed.
Lemma pop_idempotent h l : triangulated h -> pop_triangles (pop_triangles h l) l = pop_triangles h l.
Proof.
  intro T. change (fold_left pop_triangles [l; l] h = pop_triangles h l).
  destruct (pops_filter [l; l] h T) as [_ ->]. rewrite pop_filter by exact T. f_equal. apply filter_ext_all. intros f _. cbn.
  destruct (keepsb h l f); reflexivity.
Qed.
Lemma blacklist_empty h n a p : triangulated h -> h_valid (pop_triangles h (Limits n a p (Some []))) = [].
Proof.
  intro T. rewrite pop_filter by exact T. cbn [h_valid set_valid].
  rewrite (filter_ext_all _ (fun _ => false)); [|intros f _; unfold keepsb; cbn; apply andb_false_r].
  induction (h_valid h); auto.
Qed.
(** limits are taken modulo 360 degrees *)
Lemma pop_periodic h x k : pop_triangles h (Limits None (Some (x + 360 * IZR k)) None None) = pop_triangles h (Limits None (Some x) None None).
Proof.
  unfold pop_triangles. cbn [l_normal l_aperture l_opening l_black opt_set]. f_equal. unfold check_aperture.
  apply filter_ext_all. intros f _. unfold wide_aperture, exceeds. rewrite deg2rad_periodic. reflexivity.
Qed.

(** * Hull construction *)
Lemma init_triangulated chull ps : let fs := sort_vertices (chull ps) in
  NoDup fs -> Forall distinct fs -> (forall f g, In f fs -> In g fs -> same_vertices f g -> f = g) ->
  triangulated (hull_of_points chull ps).
Proof.
  cbn zeta. intros A B C. unfold triangulated, hull_of_points. cbn [h_simplices h_valid h_points h_centroids h_normals h_areas].
  repeat split; auto. apply subseq_filter.
Qed.

(** * Faces *)
Lemma sort_face_spec f : reversed f (sort_face f) /\
  (let '(a, b, c) := sort_face f in (a <= b)%nat /\ (a <= c)%nat).
Proof.
  destruct f as [[a b] c]. unfold reversed, sort_face, argmin3.
  destruct (Nat.leb_spec c b), (Nat.leb_spec c a), (Nat.leb_spec b a); cbn [andb]; split; auto; lia.
Qed.
Lemma normal_cases (ps : list V3) a b c : let p := nth a ps (0,0,0) in let q := nth b ps (0,0,0) in let r := nth c ps (0,0,0) in
  exists s, (s = 1 \/ s = -1) /\ face_normal ps (a, b, c) = scal3 s (cross3 (sub3 q p) (sub3 r p)).
Proof.
  cbn zeta. unfold face_normal, fpts, pt. destruct (Rltb _ _).
  - exists (-1). auto.
  - exists 1. split; auto. generalize (cross3 (sub3 (nth b ps (0,0,0)) (nth a ps (0,0,0))) (sub3 (nth c ps (0,0,0)) (nth a ps (0,0,0)))).
    intro n. clear. crush3. tuple3; ring.
Qed.
Lemma normal_outward ps f : dot3 (face_normal ps f) (sub3 (vmean ps) (centroid ps f)) <= 1 / 100000.
Proof.
  destruct f as [[a b] c]. unfold face_normal, centroid, fpts, pt.
  set (p := nth a ps _). set (q := nth b ps _). set (r := nth c ps _). set (m := vmean ps). set (ce := vmean [p; q; r]).
  set (n := cross3 (sub3 q p) (sub3 r p)). clearbody p q r m ce n.
  replace (sub3 (add3 ce n) ce) with n by (clear; crush3; tuple3; ring).
  destruct (Rltb _ _) eqn:T.
  - apply Rltb_true in T. replace (dot3 (scal3 (-1) n) (sub3 m ce)) with (- dot3 n (sub3 m ce)) by (clear; crush3; ring). lra.
  - apply Rltb_false in T. lra.
Qed.
Lemma normal_flip (ps : list V3) a b c : let p := nth a ps (0,0,0) in let q := nth b ps (0,0,0) in let r := nth c ps (0,0,0) in
  let n := cross3 (sub3 q p) (sub3 r p) in
  face_normal ps (a, b, c) = if Rlt_dec (1 / 100000) (dot3 n (sub3 (vmean ps) (centroid ps (a, b, c)))) then scal3 (-1) n else n.
Proof.
  cbn zeta. unfold face_normal, centroid, fpts, pt.
  set (p := nth a ps _). set (q := nth b ps _). set (r := nth c ps _). set (m := vmean ps). set (ce := vmean [p; q; r]).
  set (n := cross3 (sub3 q p) (sub3 r p)). clearbody p q r m ce n.
  replace (sub3 (add3 ce n) ce) with n by (clear; crush3; tuple3; ring). unfold Rltb.
  replace (10 / 1000000) with (1 / 100000) by field. destruct (Rlt_dec _ _); reflexivity.
Qed.
Lemma norm3_pm s v : s = 1 \/ s = -1 -> norm3 (scal3 s v) = norm3 v.
Proof. intro H. unfold norm3. f_equal. destruct v as [[? ?] ?]. unfold scal3, dot3, vx, vy, vz. cbn. destruct H as [-> | ->]; ring. Qed.
Lemma normal_length ps f : norm3 (face_normal ps f) = 2 * face_area ps f.
Proof.
  destruct f as [[a b] c]. destruct (normal_cases ps a b c) as [s [S ->]]. rewrite norm3_pm by exact S.
  unfold face_area, fpts, pt, area_triangle. field.
Qed.
Lemma normal_orthogonal (ps : list V3) a b c : dot3 (face_normal ps (a,b,c)) (sub3 (nth b ps (0,0,0)) (nth a ps (0,0,0))) = 0 /\
  dot3 (face_normal ps (a,b,c)) (sub3 (nth c ps (0,0,0)) (nth a ps (0,0,0))) = 0.
Proof.
  destruct (normal_cases ps a b c) as [s [S ->]].
  generalize (nth a ps (0,0,0)), (nth b ps (0,0,0)), (nth c ps (0,0,0)). intros p q r. clear. split; crush3; ring.
Qed.
