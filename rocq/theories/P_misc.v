(** Proofs about check_listener_inside, HRIRs, levels and resample_signal. *)
From Coq Require Import Lra Lia.
From Verif Require Import Base BaseFacts M_utils S_utils P_utils X_utils M_sig S_sig P_sig X_sig M_process M_sph M_decoder P_parsa3 M_misc S_misc.
Open Scope R_scope.

(** * check_listener_inside *)
Lemma norm3_sq v : norm3 v * norm3 v = dot3 v v.
Proof. unfold norm3. apply sqrt_sqrt. unfold dot3. pose proof (Rle_0_sqr (vx v)). pose proof (Rle_0_sqr (vy v)). pose proof (Rle_0_sqr (vz v)). unfold Rsqr in *. lra. Qed.
Lemma cosine (l b c : V3) : dist l b * dist l b = dist l c * dist l c + dist b c * dist b c - 2 * dot3 (sub3 l c) (sub3 b c).
Proof. unfold dist. rewrite !norm3_sq. unfold dot3, sub3, vx, vy, vz. cbn [fst snd]. ring. Qed.
Lemma filter_combine_map {A B} (g : A -> B) (P : A * B -> bool) l : map fst (filter P (combine l (map g l))) = filter (fun x => P (x, g x)) l.
Proof. induction l as [|x l IH]; [reflexivity|]. cbn [map combine filter]. destruct (P (x, g x)); cbn [map fst]; rewrite IH; reflexivity. Qed.

Lemma filter_all {A} (P : A -> bool) l : forallb P l = true -> filter P l = l.
Proof. induction l as [|x l IH]; [reflexivity|]. cbn. destruct (P x); [|discriminate]. cbn. intros H. rewrite IH; auto. Qed.
Lemma check_filter chull ps o pos : let h := setup_init chull ps o in
  check_listener_inside h pos = filter (listener_inside (h_points h) (match pos with Some p => p | None => (0, 0, 0) end)) (h_simplices h).
Proof. intros h. subst h. unfold check_listener_inside, setup_init, hull_of_points. cbn [h_listener h_points h_simplices h_centroids]. rewrite filter_combine_map. reflexivity. Qed.
Theorem kept_faces chull ps o : let h := setup_init chull ps o in let b := vmean (h_points h) in
  (forall pos, exists keep, check_listener_inside h pos = filter keep (h_simplices h)) /\
  (forall l f, In f (check_listener_inside h (Some l)) <-> In f (h_simplices h) /\
     let c := centroid (h_points h) f in dist l b ^ 2 <= dist l c ^ 2 + dist b c ^ 2) /\
  check_listener_inside h (Some b) = h_simplices h /\
  h_encloses h = check_listener_inside h (Some (0, 0, 0)) /\ h_encloses h = check_listener_inside h None /\ h_valid h = h_encloses h.
Proof.
  intros h b. split; [intros pos; eexists; apply check_filter|]. split.
  - intros l f. unfold h. rewrite check_filter, filter_In. fold h. cbv zeta. apply and_iff_compat_l. unfold listener_inside. fold b. pose proof (cosine l b (centroid (h_points h) f)) as E.
    rewrite Bool.negb_true_iff. rewrite Rltb_false. rewrite <- !Rsqr_pow2. unfold Rsqr. set (d := dot3 _ _) in *. split; intros H; lra.
  - split; [|split; [|split]].
    + unfold h. rewrite check_filter. fold h. fold b. rewrite (filter_all _ (h_simplices h)); [reflexivity|]. apply forallb_forall. intros f _. unfold listener_inside. fold b. apply Bool.negb_true_iff, Rltb_false.
      unfold dot3. set (v := sub3 b (centroid (h_points h) f)). pose proof (Rle_0_sqr (vx v)). pose proof (Rle_0_sqr (vy v)). pose proof (Rle_0_sqr (vz v)). unfold Rsqr in *. lra.
    + unfold h. rewrite check_filter. reflexivity.
    + unfold h. rewrite check_filter. reflexivity.
    + reflexivity.
Qed.
(** where the barycentre lies straight above the centroid the test is that of the plane *)
Theorem upright_faces chull ps o : let h := setup_init chull ps o in
  forall a b c n lam l, let p i := nth i (h_points h) (0, 0, 0) in In (a, b, c) (h_simplices h) ->
    dot3 n (sub3 (p b) (p a)) = 0 -> dot3 n (sub3 (p c) (p a)) = 0 -> 0 < lam ->
    sub3 (vmean (h_points h)) (centroid (h_points h) (a, b, c)) = scal3 lam n ->
    (In (a, b, c) (check_listener_inside h (Some l)) <-> dot3 n (p a) <= dot3 n l).
Proof.
  intros h a b c n lam l p Hin Hb Hc Hl E. unfold h. rewrite check_filter, filter_In. fold h. unfold listener_inside. rewrite E, Bool.negb_true_iff, Rltb_false.
  assert (D : dot3 (sub3 l (centroid (h_points h) (a, b, c))) (scal3 lam n) = lam * (dot3 n l - dot3 n (p a))).
  { unfold centroid, fpts, pt, vmean, vsum3. fold (p a) (p b) (p c). revert Hb Hc. generalize (p a) (p b) (p c). intros [[ax ay] az] [[bx by_] bz] [[cx cy] cz]. destruct n as [[nx ny] nz], l as [[lx ly] lz].
    unfold dot3, scal3, sub3, add3, vx, vy, vz. cbn [fold_right fst snd length]. replace (INR 3) with 3 by (cbn; lra). intros Hb Hc.
    assert (X : nx * (ax + (bx + (cx + 0))) + ny * (ay + (by_ + (cy + 0))) + nz * (az + (bz + (cz + 0))) = 3 * (nx * ax + ny * ay + nz * az)) by lra.
    replace ((lx - (ax + (bx + (cx + 0))) / 3) * (lam * nx) + (ly - (ay + (by_ + (cy + 0))) / 3) * (lam * ny) + (lz - (az + (bz + (cz + 0))) / 3) * (lam * nz)) with
      (lam * (nx * lx + ny * ly + nz * lz - (nx * (ax + (bx + (cx + 0))) + ny * (ay + (by_ + (cy + 0))) + nz * (az + (bz + (cz + 0)))) / 3)) by field. rewrite X. field. }
  rewrite D. split; [intros [_ H]; nra|]. intros H. split; auto. nra.
Qed.

Definition tetra : list face := [(0, 1, 2); (0, 1, 3); (0, 2, 3); (1, 2, 3)]%nat.
Definition leaning1 : list V3 := [(-13, -13, -1); (287, -13, -1); (-13, 287, -1); (987, 987, 99)].
Definition leaning2 : list V3 := [(-3, -3, 1); (3, -3, 1); (-3, 3, 1); (17, 17, 3)].
Lemma no_shift ps : map (fun p => sub3 p (0, 0, 0)) ps = ps.
Proof. rewrite <- (map_id ps) at 2. apply map_ext. intros [[x y] z]. unfold sub3, vx, vy, vz. cbn. repeat f_equal; ring. Qed.
Ltac side n d := exists n, d; split; [intros X; injection X; intros; lra|]; unfold dot3, vx, vy, vz; cbn; repeat (split; [lra|]);
  intros p Hp; repeat (destruct Hp as [<-|Hp]); try contradiction; cbn; lra.
Lemma support1 f : In f (sort_vertices tetra) -> supporting leaning1 f.
Proof.
  intros [<-|[<-|[<-|[<-|[]]]]].
  - side (0, 0, -1) 1.
  - side (0, -1, 10) 3.
  - side (-1, 0, 10) 3.
  - side (1, 1, -17) 291.
Qed.
Lemma support2 f : In f (sort_vertices tetra) -> supporting leaning2 f.
Proof.
  intros [<-|[<-|[<-|[<-|[]]]]].
  - side (0, 0, -1) (-1).
  - side (0, -1, 10) 13.
  - side (-1, 0, 10) 13.
  - side (1, 1, -17) (-17).
Qed.
Theorem inside_dropped : exists chull ps, let h := setup_init chull ps None in h_points h = ps /\
  (forall f, In f (h_simplices h) -> supporting ps f) /\ strictly_inside ps (0, 0, 0) /\
  exists f, In f (h_simplices h) /\ ~ In f (h_encloses h).
Proof.
  exists (fun _ => tetra), leaning1. unfold setup_init, hull_of_points. rewrite no_shift. cbn [h_points h_simplices h_encloses]. split; auto. split; [apply support1|]. split.
  - exists [97 / 100; 1 / 100; 1 / 100; 1 / 100]. split; auto. split; [intros a; cbn; intuition lra|]. split; [cbn; lra|]. unfold leaning1. cbn [combination]. unfold add3, scal3, vx, vy, vz. cbn [fst snd]. repeat f_equal; lra.
  - exists (0, 2, 1)%nat. split; [left; reflexivity|]. rewrite filter_In. intros [_ H]. revert H. unfold listener_inside. rewrite Bool.negb_true_iff, Rltb_false. unfold centroid, fpts, pt, vmean, vsum3, leaning1, dot3, sub3, add3, vx, vy, vz. cbn. lra.
Qed.
Theorem outside_kept : exists chull ps, let h := setup_init chull ps None in h_points h = ps /\
  (forall f, In f (h_simplices h) -> supporting ps f) /\ strictly_outside ps (0, 0, 0) /\ h_simplices h <> [] /\ h_encloses h = h_simplices h.
Proof.
  exists (fun _ => tetra), leaning2. unfold setup_init, hull_of_points. rewrite no_shift. cbn [h_points h_simplices h_encloses]. split; auto. split; [apply support2|]. split; [|split; [discriminate|]].
  - exists (0, 0, 1). unfold leaning2, dot3, vx, vy, vz. intros p Hp. cbn in Hp. repeat (destruct Hp as [<-|Hp]); try contradiction; cbn; lra.
  - rewrite filter_all; [reflexivity|]. apply forallb_forall. intros f Hf. unfold listener_inside. rewrite Bool.negb_true_iff, Rltb_false. cbn in Hf.
    repeat (destruct Hf as [<-|Hf]); try contradiction; unfold centroid, fpts, pt, vmean, vsum3, leaning2, dot3, sub3, add3, vx, vy, vz; cbn; lra.
Qed.
