(** Properties of the panning part of decoder.py. *)
From Verif Require Import Base BaseFacts M_utils M_sig M_process M_decoder S_utils S_decoder P_utils P_sig P_dec1 P_dec2 P_dec3 P_dec4 P_dec5 X_dec1.
Open Scope R_scope.

(** * C44 *)
Theorem C44_gains_point_at_source : forall lstsq3 o jobs sched src h vs,
  lstsq3_contract lstsq3 -> norm_order o -> h_vbase h = None -> hull_wf h ->
  Forall (in_range (length (h_points h))) (in_force h vs) -> Forall (independent (h_points h)) (in_force h vs) ->
  (1 <= jobs)%Z -> (forall i, (i < length src)%nat -> (3 <= count_occ Nat.eq_dec sched i)%nat) ->
  exists rows, fst (vbap_hull lstsq3 jobs sched src h o vs) = Ok rows /\
    Forall2 (panning_row o h (in_force h vs)) src rows.
Proof. exact vbap_rows_final. Qed.
Print Assumptions C44_gains_point_at_source.
Theorem C44_active_inside : forall lstsq3 o h vs src row, lstsq3_contract lstsq3 -> norm_order o ->
  Forall (in_range (length (h_points h))) vs -> Forall (independent (h_points h)) vs -> hull_wf h -> (forall d, In d (h_d h) -> 0 < d) ->
  panning_row o h vs src row -> (exists f, In f vs /\ inside_cone (h_points h) f src) ->
  exists j, (j < length (h_points h))%nat /\ nth j row 0 <> 0.
Proof. exact cone_active. Qed.
Print Assumptions C44_active_inside.
Theorem C44_scale_invariant : forall lstsq3 jobs sched src h o vs ks,
  norm_order o -> length ks = length src -> (forall k, In k ks -> 0 < k) ->
  vbap_hull lstsq3 jobs sched (map (fun x => scal3 (fst x) (snd x)) (combine ks src)) h o vs
  = vbap_hull lstsq3 jobs sched src h o vs.
Proof. exact vbap_scale. Qed.
Print Assumptions C44_scale_invariant.
Theorem C44_two_norm : forall l, unit_norm (POrd 2) l <-> lsum (map (fun x => x * x) l) = 1.
Proof. exact unit_norm_two. Qed.
Print Assumptions C44_two_norm.
Example C44_nonvacuous : lstsq3_contract adj_lstsq /\ norm_order (POrd 2) /\ h_vbase ex_hull = None /\ hull_wf ex_hull /\
  Forall (in_range (length (h_points ex_hull))) (h_valid ex_hull) /\ Forall (independent (h_points ex_hull)) (h_valid ex_hull) /\
  inside_cone (h_points ex_hull) (0, 1, 2)%nat (1, 2, 2) /\ pans (POrd 2) (h_points ex_hull) (0, 1, 2)%nat (1, 2, 2) (1/3, 2/3, 2/3).
Proof. exact (conj adj_contract (conj Rlt_0_2 (conj eq_refl (conj ex_wf (conj ex_range (conj ex_indep (conj ex_cone ex_pans))))))). Qed.

(** * C45 *)
Theorem C45_any_interleaving : forall lstsq3 jobs sched src h o vs, (1 <= jobs)%Z ->
  (forall bases ws, vbap_rows o bases (in_force h vs) (length (h_points h)) src = Ok ws ->
     complete sched ws (repeat (repeat 0 (length (h_points h))) (length src))) ->
  vbap_hull lstsq3 jobs sched src h o vs = vbap_hull lstsq3 1 [] src h o vs.
Proof. exact vbap_hull_jobs. Qed.
Print Assumptions C45_any_interleaving.
Theorem C45_fair_schedules_complete : forall lstsq3 jobs sched src h o vs, (1 <= jobs)%Z ->
  (forall i, (i < length src)%nat -> (3 <= count_occ Nat.eq_dec sched i)%nat) ->
  vbap_hull lstsq3 jobs sched src h o vs = vbap_hull lstsq3 1 [] src h o vs.
Proof. exact vbap_hull_counts. Qed.
Print Assumptions C45_fair_schedules_complete.
(** two interleaved workers, with a third write still missing in between *)
Example C45_nonvacuous : let tasks := [[(0%nat, 1); (1%nat, 2)]; [(1%nat, 3)]] in
  complete [1; 0; 0]%nat tasks [[0; 0]; [0; 0]] /\ snd (pool_exec [1; 0; 0]%nat tasks [[0; 0]; [0; 0]]) = [[1; 2]; [0; 3]] /\
  ~ complete [1; 0]%nat tasks [[0; 0]; [0; 0]].
Proof.
  cbn. split; [|split; [reflexivity|]].
  - intros t [<-|[<-|[]]]; reflexivity.
  - intro H. specialize (H [(1%nat, 2)]). cbn in H. discriminate H. auto.
Qed.

(** * C46 *)
Theorem C46_history_independent : forall lstsq3 jobs sched h cs src o vs vs0,
  h_vbase h = None -> all_use lstsq3 vs0 h cs -> in_force (run lstsq3 h cs) vs = vs0 ->
  fst (vbap_hull lstsq3 jobs sched src (run lstsq3 h cs) o vs)
  = fst (vbap_hull lstsq3 jobs sched src (set_vbase (run lstsq3 h cs) None) o vs).
Proof. exact history_independent. Qed.
Print Assumptions C46_history_independent.
Theorem C46_stale_cache : forall lstsq3 o o0 jobs sched src0 h vs0 vs1 s i g, lstsq3_contract lstsq3 -> norm_order o ->
  h_vbase h = None -> hull_wf h -> Forall (in_range (length (h_points h))) vs0 -> Forall (independent (h_points h)) vs0 ->
  (i < length vs0)%nat -> pans o (h_points h) (nth i vs0 (0,0,0)%nat) s g ->
  (forall j g', (j < i)%nat -> ~ pans o (h_points h) (nth j vs0 (0,0,0)%nat) s g') ->
  let h1 := snd (vbap_hull lstsq3 jobs sched src0 h o0 (Some vs0)) in
  ((length vs1 <= i)%nat -> fst (vbap_hull lstsq3 1 [] [s] h1 o (Some vs1)) = Err IndexError) /\
  ((i < length vs1)%nat -> in_range (length (h_points h)) (nth i vs1 (0,0,0)%nat) -> independent (h_points h) (nth i vs1 (0,0,0)%nat) ->
   exists row, fst (vbap_hull lstsq3 1 [] [s] h1 o (Some vs1)) = Ok [row] /\ length row = length (h_points h) /\
     forall j, (j < length (h_points h))%nat ->
       nth j row 0 = dist_gain (nth j (h_d h) 0) (h_a h) * on_face (nth i vs1 (0,0,0)%nat) g j).
Proof. exact stale_rows. Qed.
Print Assumptions C46_stale_cache.
(** history dependence: the same call on the same geometry, with and without an
    earlier call; the source in direction (1,2,2) is sent to the loudspeaker at -x *)
Theorem C46_history_independence_refuted : forall lstsq3, lstsq3_contract lstsq3 -> exists h l src row row',
  h_vbase h = None /\ hull_wf h /\ Forall (independent (h_points h)) (h_valid h) /\
  let h1 := pop_triangles (snd (vbap_hull lstsq3 1 [] src h (POrd 2) None)) l in
  fst (vbap_hull lstsq3 1 [] src h1 (POrd 2) None) = Ok [row] /\
  fst (vbap_hull lstsq3 1 [] src (set_vbase h1 None) (POrd 2) None) = Ok [row'] /\
  nth 3 (h_points h) (0,0,0) = (-1, 0, 0) /\ src = [(1, 2, 2)] /\ nth 3 row 0 = 2/3 /\ (forall j, nth j row' 0 = 0).
Proof. exact stale_example. Qed.
Print Assumptions C46_history_independence_refuted.
Example C46_nonvacuous : let cs := [CVbap [(1, 2, 2)] (POrd 2) None; CPop (Limits None None None (Some [7%nat])); CVbap [(0, 1, 0)] PInf None] in
  all_use adj_lstsq ex_faces ex_hull cs /\ in_force (run adj_lstsq ex_hull cs) None = ex_faces.
Proof. cbn. auto. Qed.

(** * C47 *)
Theorem C47_nonnegative_unit_norm : forall lstsq3 jobs sched src s o vs ro rows s', norm_order o ->
  vbip lstsq3 jobs sched src s o vs ro = (Ok rows, s') ->
  exists gains, vbap lstsq3 jobs sched src s (POrd 2) vs ro = (Ok gains, s') /\
  Forall2 (fun g r => length r = length g /\ (forall x, In x r -> 0 <= x) /\
    ((forall x, In x r -> x = 0) \/ unit_norm o r) /\
    (forall j, (j < length g)%nat -> (0 < nth j r 0 <-> 0 < nth j g 0))) gains rows.
Proof. exact vbip_rows. Qed.
Print Assumptions C47_nonnegative_unit_norm.
Theorem C47_unit_norm_when_active : forall o g, norm_order o -> (exists j, (j < length g)%nat /\ 0 < nth j g 0) -> unit_norm o (vbip_row o g).
Proof. exact vbip_unit. Qed.
Print Assumptions C47_unit_norm_when_active.
Example C47_nonvacuous : exists j, (j < length [1/3; 2/3; 2/3; 0])%nat /\ 0 < nth j [1/3; 2/3; 2/3; 0] 0.
Proof. exists 1%nat. cbn. split; [lia|lra]. Qed.

(** * C48 *)
Theorem C48_pops_remove_exactly : forall ls h, triangulated h -> Forall sane ls ->
  subseq (h_valid (fold_left pop_triangles ls h)) (h_valid h) /\
  (forall f, In f (h_valid (fold_left pop_triangles ls h)) <-> In f (h_valid h) /\ forall l, In l ls -> keeps h l f).
Proof. exact pops_spec. Qed.
Print Assumptions C48_pops_remove_exactly.
Theorem C48_idempotent : forall h l, triangulated h -> pop_triangles (pop_triangles h l) l = pop_triangles h l.
Proof. exact pop_idempotent. Qed.
Print Assumptions C48_idempotent.
Theorem C48_simplex_valid_is_membership : forall valid f, Forall distinct valid -> distinct f ->
  (is_simplex_valid valid f = true <-> exists g, In g valid /\ same_vertices f g).
Proof. exact is_valid_spec. Qed.
Print Assumptions C48_simplex_valid_is_membership.
Theorem C48_empty_blacklist_removes_all : forall h n a p, triangulated h -> h_valid (pop_triangles h (Limits n a p (Some []))) = [].
Proof. exact blacklist_empty. Qed.
Print Assumptions C48_empty_blacklist_removes_all.
Theorem C48_limits_wrap_around : forall h x k,
  pop_triangles h (Limits None (Some (x + 360 * IZR k)) None None) = pop_triangles h (Limits None (Some x) None None).
Proof. exact pop_periodic. Qed.
Print Assumptions C48_limits_wrap_around.
Theorem C48_constructor_triangulates : forall chull ps, let fs := sort_vertices (chull ps) in
  NoDup fs -> Forall distinct fs -> (forall f g, In f fs -> In g fs -> same_vertices f g -> f = g) ->
  triangulated (hull_of_points chull ps).
Proof. exact init_triangulated. Qed.
Print Assumptions C48_constructor_triangulates.
(** blacklisting loudspeaker 0 removes the first of the two triangles *)
Example C48_nonvacuous : triangulated ex_hull /\ sane (Limits None None None (Some [0%nat])) /\
  h_valid (pop_triangles ex_hull (Limits None None None (Some [0%nat]))) = [(1, 2, 3)]%nat.
Proof.
  split; [exact ex_triangulated|]. split; [|reflexivity]. unfold sane. cbn. repeat split; discriminate.
Qed.

(** * C49 *)
Theorem C49_rim_edges : forall vs e, Forall distinct vs -> (In e (rim_edges vs) <-> on_rim vs e).
Proof. exact rim_edges_spec. Qed.
Print Assumptions C49_rim_edges.
Theorem C49_rim_vertices_even : forall vs v, surface vs -> (exists e, on_rim vs e /\ (fst e = v \/ snd e = v)) ->
  (2 <= count_occ Nat.eq_dec (rim_entries vs) v)%nat /\ Nat.even (count_occ Nat.eq_dec (rim_entries vs) v) = true.
Proof. exact rim_vertex_even. Qed.
Print Assumptions C49_rim_vertices_even.
(** hence NotImplementedError ("More than one rim found") never occurs, and
    RuntimeError exactly when there is no rim; otherwise the result is the
    area-weighted mean normal, reversed, over the cube of the mean distance *)
Theorem C49_outcome : forall h, triangulated h -> surface (h_valid h) ->
  find_imaginary_loudspeaker h =
  match rim_edges (h_valid h) with
  | [] => Err RuntimeError
  | _ => let n := vsum3 (map (fun f => scal3 (face_area (h_points h) f) (face_normal (h_points h) f)) (h_valid h)) in
         let d := lsum (map (fun f : face => let '(a, b, c) := f in (nth a (h_d h) 0 + nth b (h_d h) 0 + nth c (h_d h) 0) / 3) (h_valid h))
                  / INR (length (h_valid h)) in
         Ok (if Req_EM_T (d ^ 3) 0 then None else Some (scal3 (- (1 / d ^ 3)) n))
  end.
Proof. exact find_imaginary_spec. Qed.
Print Assumptions C49_outcome.
(** two triangles that share no vertex have two separate rims, and the check lets
    them pass *)
Theorem C49_two_rims_undetected_refuted : exists vs, surface vs /\ rim_edges vs <> [] /\
  (forall e e', In e (rim_edges (firstn 1 vs)) -> In e' (rim_edges (skipn 1 vs)) -> fst e <> fst e' /\ fst e <> snd e' /\ snd e <> fst e' /\ snd e <> snd e') /\
  (forall e, In e (rim_edges vs) <-> In e (rim_edges (firstn 1 vs)) \/ In e (rim_edges (skipn 1 vs))) /\
  forallb (fun c => Nat.leb 2 c) (rim_counts vs) = true.
Proof.
  exists [(0, 1, 2); (3, 4, 5)]%nat. split; [|split; [discriminate|split; [|split; [|reflexivity]]]].
  - split; [repeat constructor; discriminate|]. intros u v N. unfold shared. cbn [filter].
    destruct (_ && _)%bool; destruct (_ && _)%bool; cbn; lia.
  - intros e e' I J. cbn in I, J. repeat (destruct I as [<-|I]; [repeat (destruct J as [<-|J]; [cbn; lia|]); destruct J|]). destruct I.
  - intro e. cbn. tauto.
Qed.
Print Assumptions C49_two_rims_undetected_refuted.
Example C49_nonvacuous : triangulated ex_hull /\ surface (h_valid ex_hull) /\
  rim_edges (h_valid ex_hull) = [(0, 1); (0, 2); (2, 3); (1, 3)]%nat /\ on_rim (h_valid ex_hull) (0, 1)%nat.
Proof.
  split; [exact ex_triangulated|]. split; [exact ex_surface|]. split; [reflexivity|].
  apply C49_rim_edges; [apply ex_surface|]. cbn. auto.
Qed.

(** * C52 *)
Theorem C52_nearest_only : forall h src, h_d h = map norm3 (h_points h) -> h_points h <> [] -> src <> (0, 0, 0) ->
  (forall p, In p (h_points h) -> p <> (0, 0, 0)) ->
  exists i row, nearest_row h src = Ok row /\ length row = length (h_points h) /\ (i < length (h_points h))%nat /\
    (forall j, (j < length (h_points h))%nat ->
       angle src (nth i (h_points h) (0,0,0)) <= angle src (nth j (h_points h) (0,0,0)) /\
       ((j < i)%nat -> angle src (nth i (h_points h) (0,0,0)) < angle src (nth j (h_points h) (0,0,0)))) /\
    (forall j, (j < length (h_points h))%nat ->
       nth j row 0 = if Nat.eqb j i then dist_gain (norm3 (nth i (h_points h) (0,0,0))) (h_a h) else 0).
Proof. exact nearest_row_spec. Qed.
Print Assumptions C52_nearest_only.
Theorem C52_row_per_source : forall src h rows, nearest_loudspeaker src h = Ok rows -> Forall2 (fun s r => nearest_row h s = Ok r) src rows.
Proof. intros src h rows. exact (mapM_inv (nearest_row h) src rows). Qed.
Print Assumptions C52_row_per_source.
Example C52_nonvacuous : h_d ex_hull = map norm3 (h_points ex_hull) /\ h_points ex_hull <> [] /\
  (forall p, In p (h_points ex_hull) -> p <> (0, 0, 0)).
Proof.
  split; [|split; [discriminate|]].
  - assert (N : forall x y z, x * x + y * y + z * z = 1 -> norm3 (x, y, z) = 1).
    { intros x y z E. unfold norm3, dot3, vx, vy, vz. cbn [fst snd]. rewrite E. apply sqrt_1. }
    cbn. rewrite !N by ring. reflexivity.
  - intros p [<-|[<-|[<-|[<-|[]]]]] E; injection E; intros; lra.
Qed.

(** * C54 *)
Theorem C54_sort_vertices : forall l, length (sort_vertices l) = length l /\
  Forall2 (fun f g => reversed f g /\ let '(a, b, c) := g in (a <= b)%nat /\ (a <= c)%nat) l (sort_vertices l).
Proof.
  intro l. split; [apply map_length|]. unfold sort_vertices. induction l as [|f t IH]; cbn; constructor; [apply sort_face_spec|exact IH].
Qed.
Print Assumptions C54_sort_vertices.
Theorem C54_normals_do_not_point_inward : forall ps f, dot3 (face_normal ps f) (sub3 (vmean ps) (centroid ps f)) <= 1 / 100000.
Proof. exact normal_outward. Qed.
Print Assumptions C54_normals_do_not_point_inward.
Theorem C54_normal_or_reverse : forall (ps : list V3) a b c,
  let p := nth a ps (0,0,0) in let q := nth b ps (0,0,0) in let r := nth c ps (0,0,0) in
  let n := cross3 (sub3 q p) (sub3 r p) in
  face_normal ps (a, b, c) = if Rlt_dec (1 / 100000) (dot3 n (sub3 (vmean ps) (centroid ps (a, b, c)))) then scal3 (-1) n else n.
Proof. exact normal_flip. Qed.
Print Assumptions C54_normal_or_reverse.
Theorem C54_normal_length : forall ps f, norm3 (face_normal ps f) = 2 * face_area ps f.
Proof. exact normal_length. Qed.
Print Assumptions C54_normal_length.
Theorem C54_normal_orthogonal : forall (ps : list V3) a b c,
  dot3 (face_normal ps (a,b,c)) (sub3 (nth b ps (0,0,0)) (nth a ps (0,0,0))) = 0 /\
  dot3 (face_normal ps (a,b,c)) (sub3 (nth c ps (0,0,0)) (nth a ps (0,0,0))) = 0.
Proof. exact normal_orthogonal. Qed.
Print Assumptions C54_normal_orthogonal.
Example C54_nonvacuous : sort_vertices [(0, 1, 2); (5, 3, 4)]%nat = [(0, 2, 1); (3, 5, 4)]%nat /\ reversed (5, 3, 4)%nat (3, 5, 4)%nat.
Proof. split; [reflexivity|cbn; auto]. Qed.
