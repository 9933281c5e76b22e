(** Final forms and concrete cases: layouts around the listener. *)
From Coq Require Import Lra Lia Psatz Permutation.
From Verif Require Import Base BaseFacts M_utils M_sph0 M_sig M_process M_sph M_grids M_decoder M_decoder2 M_process2 M_plot S_utils S_sph S_grids S_decoder S_decoder2 S_plot S_retain P_dec1 P_dec2 P_dec3 P_plot6 X_sph X_dec1 X_dec2 X_plot P_retain S_cover P_cover1 P_cover2.
Open Scope R_scope.

Lemma f_around : forall ps vs src, vs <> [] -> Forall (independent ps) vs -> goes_on ps vs -> src <> (0, 0, 0) ->
  exists f, In f vs /\ inside_cone ps f src.
Proof. exact around. Qed.
Lemma f_convex : forall ps vs, Forall (independent ps) vs -> encloses ps vs -> closed_surface vs -> goes_on ps vs.
Proof. exact convex_on. Qed.
Lemma f_active : forall lstsq3 o jobs sched src h vs,
  lstsq3_contract lstsq3 -> norm_order o -> h_vbase h = None -> hull_wf h -> (forall d, In d (h_d h) -> 0 < d) ->
  Forall (in_range (length (h_points h))) (in_force h vs) -> Forall (independent (h_points h)) (in_force h vs) ->
  (1 <= jobs)%Z -> (forall i, (i < length src)%nat -> (3 <= count_occ Nat.eq_dec sched i)%nat) ->
  in_force h vs <> [] -> goes_on (h_points h) (in_force h vs) -> (forall v, In v src -> v <> (0, 0, 0)) ->
  exists rows, fst (vbap_hull lstsq3 jobs sched src h o vs) = Ok rows /\ length rows = length src /\
    forall row, In row rows -> exists j, (j < length (h_points h))%nat /\ nth j row 0 <> 0.
Proof.
  intros lstsq3 o jobs sched src h vs LC NO V WF DP IR IN J S NE GO NZ.
  destruct (vbap_rows_final lstsq3 o jobs sched src h vs LC NO V WF IR IN J S) as (rows & E & F). exists rows. split; [exact E|].
  split; [clear - F; induction F; cbn; congruence|].
  clear E S. induction F as [|v row src rows P F IH]; [intros row []|]. intros r [<-|Hr].
  - apply (cone_active lstsq3 o h (in_force h vs) v row LC NO IR IN WF DP P). apply around; auto. apply NZ. left; reflexivity.
  - apply IH; [|exact Hr]. intros w Hw. apply NZ. right. exact Hw.
Qed.
Lemma grid_dir_nz q : grid_dir q <> (0, 0, 0).
Proof.
  destruct q as [a z]. unfold grid_dir, sph2cart. cbn [fst snd]. intro E. injection E as E1 E2 E3.
  pose proof (sin2_cos2 a) as A. pose proof (sin2_cos2 z) as Z. unfold Rsqr in *. 
  assert (C : cos z = 0) by nra. rewrite C in Z. assert (S : sin z <> 0) by nra.
  assert (cos a = 0) by nra. assert (sin a = 0) by nra. nra.
Qed.
Lemma f_performance : forall s lstsq3 pinv svd sa se,
  ls_ok (s_hull s) -> lstsq3_contract lstsq3 -> h_vbase (s_hull s) = None ->
  Forall (in_range (length (h_points (s_hull s)))) (h_valid (s_hull s)) -> Forall (independent (h_points (s_hull s))) (h_valid (s_hull s)) ->
  h_valid (s_hull s) <> [] -> goes_on (h_points (s_hull s)) (h_valid (s_hull s)) ->
  exists ms s', decoder_performance lstsq3 pinv svd s RVbap sa se None = (Ok (Some ms), s') /\ length ms = length (perf_grid sa se) /\
  forall i d, (i < length (perf_grid sa se))%nat ->
    let dir := grid_dir (nth i (perf_grid sa se) (0, 0)) in let h := s_hull s in
    exists row, panning_row (POrd 2) h (h_valid h) dir row /\ nth i ms d = perf_measure h dir row /\ energy_at h row = 1 /\ pm_error (nth i ms d) <> None.
Proof.
  intros s lstsq3 pinv svd sa se HL LC V IR IN NE GO. destruct (f_vbap s lstsq3 pinv svd sa se HL LC V IR IN) as (ms & s' & E & L & H).
  exists ms, s'. split; [exact E|]. split; [exact L|]. intros i d Hi. destruct (H i d Hi) as (row & P & M & C & _). exists row. split; [exact P|]. split; [exact M|].
  apply C. apply around; auto. apply grid_dir_nz.
Qed.
Lemma kernel_nz s h kp : ambi_ready s h kp -> forall p, In p kp -> p <> (0, 0, 0).
Proof. intros (_ & _ & H). exact H. Qed.
Lemma f_allrap2 : forall lstsq3 jobs sched (src : list V3) s N_sph h kp N azk zek,
  lstsq3_contract lstsq3 -> ambi_ready s h kp -> fresh_hull h ->
  order_in_force N_sph s N -> (1 <= jobs)%Z -> fair (length kp) sched -> (forall p, In p src -> p <> (0, 0, 0)) ->
  h_imag h = None -> (forall d, In d (h_d h) -> dist_gain d (h_a h) = 1) ->
  h_valid h <> [] -> goes_on (h_points h) (h_valid h) ->
  angles_of kp azk zek -> exact_for sh_real (2 * N) azk zek (equal_weights (length kp)) -> (0 < length kp)%nat -> (0 < length src)%nat ->
  exists G s', allrap2 lstsq3 jobs sched src s N_sph = (Ok (Some G), s') /\ nr G = length src /\ nc G = length (h_points h) /\
    forall i, (i < length src)%nat ->
    rsum (nc G) (fun l => ent G i l ^ 2) = rsum (N + 1) (fun n => (2 * INR n + 1) * max_rE N n ^ 2) / rsum (N + 1) (fun n => (2 * INR n + 2) * max_rE N n ^ 2).
Proof.
  intros lstsq3 jobs sched src s N_sph h kp N azk zek LC AR FH OF J FA NS HI DG NE GO AK EX KP SP.
  assert (C : forall p, In p kp -> exists f, In f (h_valid h) /\ inside_cone (h_points h) f p).
  { intros p Hp. apply around; auto; [apply FH|]. exact (kernel_nz s h kp AR p Hp). }
  destruct (allrap2_final lstsq3 jobs sched src s N_sph h kp N azk zek 0 LC AR FH OF J FA NS HI DG C AK EX KP SP) as (G & s' & E & RG & CG & _).
  exists G, s'. split; [exact E|]. split; [exact RG|]. split; [exact CG|]. intros i Hi.
  destruct (allrap2_final lstsq3 jobs sched src s N_sph h kp N azk zek i LC AR FH OF J FA NS HI DG C AK EX KP Hi) as (G' & s2 & E' & _ & _ & V & _).
  rewrite E in E'. injection E' as <- _. exact V.
Qed.
Lemma f_retain : forall h idx reals v full row,
  fresh_hull h -> (forall d, In d (h_d h) -> dist_gain d (h_a h) = 1) ->
  real_ls (Some idx) (length (h_points h)) reals -> panning_row (POrd 2) h (h_valid h) v full -> only reals full row ->
  h_valid h <> [] -> goes_on (h_points h) (h_valid h) -> v <> (0, 0, 0) ->
  total_energy row + energy_on idx (length (h_points h)) full = 1.
Proof.
  intros h idx reals v full row FH DG RL P O NE GO NZ. apply (retain_energy h idx reals v full row FH DG RL P O). apply around; auto. apply FH.
Qed.
Lemma f_unique : forall ps vs f g u v src, Forall (independent ps) vs -> encloses ps vs -> In f vs -> In g vs ->
  0 <= vx u -> 0 <= vy u -> 0 <= vz u -> 0 <= vx v -> 0 <= vy v -> 0 <= vz v -> combines ps f u src -> combines ps g v src ->
  forall j, on_face f u j = on_face g v j.
Proof. exact gains_same. Qed.
Lemma f_order : forall o h vs vs' src row row', norm_order o -> Forall (in_range (length (h_points h))) vs -> Forall (independent (h_points h)) vs ->
  hull_wf h -> (forall d, In d (h_d h) -> 0 < d) -> encloses (h_points h) vs -> Permutation vs vs' ->
  panning_row o h vs src row -> panning_row o h vs' src row' -> (forall x, In x row -> 0 <= x) -> (forall x, In x row' -> 0 <= x) -> row = row'.
Proof. exact same_row. Qed.

(** * The octahedron *)
Definition oct8 : list face := [(0, 2, 4); (1, 2, 4); (0, 3, 4); (1, 3, 4); (0, 2, 5); (1, 2, 5); (0, 3, 5); (1, 3, 5)]%nat.
Definition oct_hull (vs : list face) : hull := Hull octahedron [1; 1; 1; 1; 1; 1] 1 (0, 0, 0) oct8
  (map (centroid octahedron) oct8) (map (face_area octahedron) oct8) (map (face_normal octahedron) oct8) vs vs None None.
Lemma oct_range : Forall (in_range 6) oct8.
Proof. repeat constructor. Qed.
Lemma oct_indep : Forall (independent octahedron) oct8.
Proof. repeat apply Forall_cons; try apply Forall_nil; unfold independent, dot3, cross3, vx, vy, vz; cbn [octahedron nth fst snd]; lra. Qed.
Lemma corners_mem vs a b c : corners vs a b c -> exists f, In f vs /\ (forall x, In x (fv f) <-> x = a \/ x = b \/ x = c).
Proof.
  unfold corners. intros [H|[H|[H|[H|[H|H]]]]]; (eexists; split; [exact H|]); unfold fv; cbn; intro x; intuition congruence.
Qed.
Lemma oct_encloses : encloses octahedron oct8.
Proof.
  intros a b c H.
  assert (W : forall f, In f oct8 -> exists n k, 0 < k /\ (forall x, In x (fv f) -> dot3 n (nth x octahedron (0,0,0)) = k) /\
            forall d, (d < 6)%nat -> ~ In d (fv f) -> dot3 n (nth d octahedron (0,0,0)) < k).
  { intros f Hf. cbn in Hf.
    assert (G : forall x y z, (x = 1 \/ x = -1) -> (y = 1 \/ y = -1) -> (z = 1 \/ z = -1) ->
       f = ((if Rlt_dec 0 x then 0 else 1), (if Rlt_dec 0 y then 2 else 3), (if Rlt_dec 0 z then 4 else 5))%nat ->
       exists n k, 0 < k /\ (forall i, In i (fv f) -> dot3 n (nth i octahedron (0,0,0)) = k) /\ forall d, (d < 6)%nat -> ~ In d (fv f) -> dot3 n (nth d octahedron (0,0,0)) < k).
    { intros x y z X Y Z ->. exists (x, y, z), 1. split; [lra|].
      destruct X as [-> | ->], Y as [-> | ->], Z as [-> | ->]; repeat (destruct Rlt_dec; try lra); unfold fv, dot3, vx, vy, vz; (split;
        [intros i [<-|[<-|[<-|[]]]]; cbn [octahedron nth fst snd]; ring
        |intros d Hd N; cbn in N; destruct d as [|[|[|[|[|[|d]]]]]]; try lia; cbn [octahedron nth fst snd]; try lra; exfalso; apply N; auto]). }
    destruct Hf as [<-|[<-|[<-|[<-|[<-|[<-|[<-|[<-|[]]]]]]]]];
      [apply (G 1 1 1)|apply (G (-1) 1 1)|apply (G 1 (-1) 1)|apply (G (-1) (-1) 1)|apply (G 1 1 (-1))|apply (G (-1) 1 (-1))|apply (G 1 (-1) (-1))|apply (G (-1) (-1) (-1))];
      auto; repeat (destruct Rlt_dec; try lra); reflexivity. }
  destruct (corners_mem _ _ _ _ H) as (f & Hf & Mf). destruct (W f Hf) as (n & k & K & V & O). exists n, k. split; [exact K|].
  split; [apply V, Mf; auto|]. split; [apply V, Mf; auto|]. split; [apply V, Mf; auto|].
  intros d e g Hd da db dc. apply O.
  - destruct (corners_mem _ _ _ _ Hd) as (f' & Hf' & Mf'). pose proof (proj1 (Forall_forall _ _) oct_range f' Hf') as R. destruct f' as [[x y] z]. destruct R as (R1 & R2 & R3).
    destruct (proj2 (Mf' d) (or_introl eq_refl)) as [<-|[<-|[<-|[]]]]; assumption.
  - intro I. apply Mf in I. tauto.
Qed.
Lemma oct_closed : closed_surface oct8.
Proof.
  intros a b c H. unfold corners, oct8 in H. cbn [In] in H.
  assert (G : forall d, (d = 1 - c \/ d = 5 - c \/ d = 9 - c)%nat -> d <> c -> corners oct8 a b d -> exists d, d <> c /\ corners oct8 a b d) by (intros d _ N C; exists d; auto).
  repeat match goal with H : _ \/ _ |- _ => destruct H as [H|H] end; try contradiction; injection H as <- <- <-;
    first [apply (G 1%nat); [lia|discriminate|unfold corners, oct8; cbn [In]; auto 20; fail]
          |apply (G 0%nat); [lia|discriminate|unfold corners, oct8; cbn [In]; auto 20; fail]
          |apply (G 2%nat); [lia|discriminate|unfold corners, oct8; cbn [In]; auto 20; fail]
          |apply (G 3%nat); [lia|discriminate|unfold corners, oct8; cbn [In]; auto 20; fail]
          |apply (G 4%nat); [lia|discriminate|unfold corners, oct8; cbn [In]; auto 20; fail]
          |apply (G 5%nat); [lia|discriminate|unfold corners, oct8; cbn [In]; auto 20; fail]].
Qed.
Lemma oct_goes_on : goes_on octahedron oct8.
Proof. exact (convex_on octahedron oct8 oct_indep oct_encloses oct_closed). Qed.
Lemma oct_d : forall d, In d [1; 1; 1; 1; 1; 1] -> 0 < d.
Proof. intros d H. cbn in H. repeat destruct H as [<-|H]; try lra; contradiction. Qed.
Lemma oct_wf vs : hull_wf (oct_hull vs).
Proof. reflexivity. Qed.
Lemma oct_dist j a : (j < 6)%nat -> dist_gain (nth j [1; 1; 1; 1; 1; 1] 0) a = 1.
Proof.
  intro H. replace (nth j [1; 1; 1; 1; 1; 1] 0) with 1 by (destruct j as [|[|[|[|[|[|j]]]]]]; try reflexivity; lia).
  unfold dist_gain. destruct (Req_EM_T 1 0); [lra|]. rewrite ln_1, Rmult_0_r. apply exp_0.
Qed.
Lemma oct_ls_ok : ls_ok (oct_hull oct8).
Proof.
  split; [|exact octa_nz]. cbn [h_d h_points oct_hull octahedron map]. unfold norm3, dot3, vx, vy, vz; cbn [fst snd].
  repeat match goal with |- context [sqrt ?e] => replace (sqrt e) with 1 by (symmetry; apply sqrt_lem_1; lra) end. reflexivity.
Qed.
Lemma ex_oct : let h := oct_hull oct8 in
  ls_ok h /\ hull_wf h /\ h_vbase h = None /\ (forall d, In d (h_d h) -> 0 < d) /\ Forall (in_range (length (h_points h))) (h_valid h) /\
  Forall (independent (h_points h)) (h_valid h) /\ encloses (h_points h) (h_valid h) /\ closed_surface (h_valid h) /\ goes_on (h_points h) (h_valid h).
Proof.
  cbn [h_vbase h_d h_points h_valid oct_hull]. split; [exact oct_ls_ok|]. repeat (split; [first [apply oct_wf|reflexivity|exact oct_d|exact oct_range|exact oct_indep|exact oct_encloses|exact oct_closed]|]). exact oct_goes_on.
Qed.

(** * A hole *)
Lemma hole_silent f g : In f (tl oct8) -> ~ pans (POrd 2) octahedron f (1, 1, 1) g.
Proof.
  intros Hf (U & (T1 & T2 & T3) & k & K & C). apply unit_norm_two in U. destruct g as [[x y] z]. unfold vx, vy, vz in *. cbn in U. cbn [fst snd] in *.
  cbn in Hf. repeat destruct Hf as [<-|Hf]; try contradiction;
    unfold combines, octahedron in C; cbn [nth] in C; unfold add3, scal3, vx, vy, vz in C; cbn [fst snd] in C; injection C as C1 C2 C3;
    (assert (X : x = k \/ x = - k) by (first [left; lra|right; lra])); (assert (Y : y = k \/ y = - k) by (first [left; lra|right; lra])); (assert (Z : z = k \/ z = - k) by (first [left; lra|right; lra]));
    assert (KK : 3 * (k * k) = 1) by (destruct X as [-> | ->], Y as [-> | ->], Z as [-> | ->]; lra); assert (KB : k < 1 / 100000) by lra; nra.
Qed.
Lemma f_hole : forall lstsq3, lstsq3_contract lstsq3 -> exists h src row, h_vbase h = None /\ hull_wf h /\ (forall d, In d (h_d h) -> 0 < d) /\
  Forall (independent (h_points h)) (h_valid h) /\ h_valid h <> [] /\ encloses (h_points h) (h_valid h) /\ src <> (0, 0, 0) /\
  fst (vbap_hull lstsq3 1 [] [src] h (POrd 2) None) = Ok [row] /\ forall j, nth j row 0 = 0.
Proof.
  intros lstsq3 LC. set (h := oct_hull (tl oct8)).
  assert (SUB : forall f, In f (tl oct8) -> In f oct8) by (intros f Hf; right; exact Hf).
  assert (IR : Forall (in_range (length (h_points h))) (tl oct8)) by (apply Forall_forall; intros f Hf; apply (proj1 (Forall_forall _ _) oct_range), SUB, Hf).
  assert (IN : Forall (independent (h_points h)) (tl oct8)) by (apply Forall_forall; intros f Hf; apply (proj1 (Forall_forall _ _) oct_indep), SUB, Hf).
  destruct (vbap_fresh lstsq3 (POrd 2) LC Rlt_0_2 [(1, 1, 1)] h None eq_refl (oct_wf _) IR IN) as (rows & E & F).
  inversion F as [|? row ? ? P F']; subst. inversion F'; subst. exists h, (1, 1, 1), row.
  split; [reflexivity|]. split; [apply oct_wf|]. split; [exact oct_d|]. split; [exact IN|]. split; [discriminate|]. split.
  { intros a b c H. assert (CS : forall x y z, corners (tl oct8) x y z -> corners oct8 x y z) by (unfold corners; intros x y z [Hx|[Hx|[Hx|[Hx|[Hx|Hx]]]]]; apply SUB in Hx; tauto).
    destruct (oct_encloses a b c (CS _ _ _ H)) as (n & k & K & A & B & D & O). exists n, k. repeat (split; [assumption|]). intros d e f Hd. apply (O d e f), CS, Hd. }
  split; [intro X; injection X; lra|]. split; [rewrite E; reflexivity|].
  destruct P as (L & [(i & g & Hi & Pg & _)|(_ & V)]).
  - exfalso. exact (hole_silent _ g (nth_In _ _ Hi) Pg).
  - intro j. destruct (lt_dec j (length (h_points h))) as [Hj|Hj]; [now apply V|apply nth_overflow; lia].
Qed.

(** * The tolerance of the panner and the order of the faces *)
Definition near_side : V3 := (-1, 1000000, 0).
Definition oct8' : list face := [(1, 2, 4); (0, 2, 4); (0, 3, 4); (1, 3, 4); (0, 2, 5); (1, 2, 5); (0, 3, 5); (1, 3, 5)]%nat.
Definition near_k : R := / sqrt (1 + 1000000 * 1000000).
Lemma near_k_props : 0 < near_k /\ near_k < 1 / 100000 /\ near_k * near_k * (1 + 1000000 * 1000000) = 1.
Proof.
  assert (S0 : 0 < sqrt (1 + 1000000 * 1000000)) by (apply sqrt_lt_R0; lra). pose proof (sqrt_sqrt (1 + 1000000 * 1000000) ltac:(lra)) as SS.
  assert (K0 : 0 < near_k) by now apply Rinv_0_lt_compat.
  assert (KK : near_k * near_k * (1 + 1000000 * 1000000) = 1) by (unfold near_k; apply (Rmult_eq_reg_l (sqrt (1 + 1000000 * 1000000) * sqrt (1 + 1000000 * 1000000))); [|rewrite SS; lra]; transitivity (1 + 1000000 * 1000000); [field; lra|lra]).
  split; [exact K0|]. split; [|exact KK]. destruct (Rlt_or_le near_k (1 / 100000)) as [|G]; [assumption|]. nra.
Qed.
Lemma near_pans1 : pans (POrd 2) octahedron (0, 2, 4)%nat near_side (- near_k, 1000000 * near_k, 0).
Proof.
  destruct near_k_props as (K0 & KB & KK). split; [apply unit_norm_two; unfold vx, vy, vz; cbn; lra|]. split; [unfold vx, vy, vz; cbn; lra|].
  exists near_k. split; [exact K0|]. unfold combines, octahedron, near_side. cbn [nth]. unfold add3, scal3, vx, vy, vz. cbn [fst snd]. apply v3_eq; ring.
Qed.
Lemma near_pans2 : pans (POrd 2) octahedron (1, 2, 4)%nat near_side (near_k, 1000000 * near_k, 0).
Proof.
  destruct near_k_props as (K0 & KB & KK). split; [apply unit_norm_two; unfold vx, vy, vz; cbn; lra|]. split; [unfold vx, vy, vz; cbn; lra|].
  exists near_k. split; [exact K0|]. unfold combines, octahedron, near_side. cbn [nth]. unfold add3, scal3, vx, vy, vz. cbn [fst snd]. apply v3_eq; ring.
Qed.
Lemma first_face h vs src row g0 : (0 < length vs)%nat -> pans (POrd 2) (h_points h) (nth 0 vs (0,0,0)%nat) src g0 -> panning_row (POrd 2) h vs src row ->
  exists g, pans (POrd 2) (h_points h) (nth 0 vs (0,0,0)%nat) src g /\
    forall j, (j < length (h_points h))%nat -> nth j row 0 = dist_gain (nth j (h_d h) 0) (h_a h) * on_face (nth 0 vs (0,0,0)%nat) g j.
Proof.
  intros L P0 (_ & [(i & g & Hi & Pg & B & V)|(N & _)]).
  - destruct i as [|i]; [exists g; auto|]. exfalso. exact (B 0%nat g0 ltac:(lia) P0).
  - exfalso. exact (N _ g0 (nth_In _ _ L) P0).
Qed.
Lemma f_order_refuted : forall lstsq3, lstsq3_contract lstsq3 -> exists h vs vs' src row row', h_vbase h = None /\ hull_wf h /\ (forall d, In d (h_d h) -> 0 < d) /\
  Forall (independent (h_points h)) vs /\ encloses (h_points h) vs /\ closed_surface vs /\ Permutation vs vs' /\
  fst (vbap_hull lstsq3 1 [] [src] h (POrd 2) (Some vs)) = Ok [row] /\ fst (vbap_hull lstsq3 1 [] [src] h (POrd 2) (Some vs')) = Ok [row'] /\
  nth 0 row 0 < 0 /\ nth 1 row 0 = 0 /\ nth 0 row' 0 = 0 /\ 0 < nth 1 row' 0.
Proof.
  intros lstsq3 LC. set (h := oct_hull oct8). assert (PM : Permutation oct8 oct8') by apply perm_swap.
  assert (IR' : Forall (in_range (length (h_points h))) oct8') by (apply (Permutation_Forall PM), oct_range).
  assert (IN' : Forall (independent (h_points h)) oct8') by (apply (Permutation_Forall PM), oct_indep).
  destruct (vbap_fresh lstsq3 (POrd 2) LC Rlt_0_2 [near_side] h (Some oct8) eq_refl (oct_wf _) oct_range oct_indep) as (rows & E & F).
  destruct (vbap_fresh lstsq3 (POrd 2) LC Rlt_0_2 [near_side] h (Some oct8') eq_refl (oct_wf _) IR' IN') as (rows' & E' & F').
  inversion F as [|? row ? ? P F0]; subst. inversion F0; subst. inversion F' as [|? row' ? ? P' F0']; subst. inversion F0'; subst.
  exists h, oct8, oct8', near_side, row, row'. split; [reflexivity|]. split; [apply oct_wf|]. split; [exact oct_d|]. split; [exact oct_indep|].
  split; [exact oct_encloses|]. split; [exact oct_closed|]. split; [exact PM|]. split; [rewrite E; reflexivity|]. split; [rewrite E'; reflexivity|].
  destruct (first_face h oct8 near_side row _ ltac:(cbn; lia) near_pans1 P) as (g & (_ & _ & k & K & C) & V).
  destruct (first_face h oct8' near_side row' _ ltac:(cbn; lia) near_pans2 P') as (g' & (_ & _ & k' & K' & C') & V').
  cbn [oct8 oct8' nth] in *. destruct g as [[x y] z]. destruct g' as [[x' y'] z'].
  unfold combines, near_side in C, C'; cbn [h_points h oct_hull octahedron nth] in C, C'; unfold add3, scal3, vx, vy, vz in C, C'; cbn [fst snd] in C, C'.
  injection C as C1 C2 C3. injection C' as C1' C2' C3'.
  rewrite !V, !V' by (cbn; lia). cbn [h_d h_a h oct_hull]. rewrite !oct_dist by lia. unfold on_face, delta, vx, vy, vz; cbn [Nat.eqb fst snd]. lra.
Qed.
Definition oct_setup : setup := Setup (oct_hull oct8) (Some (oct_hull oct8)) (Some (octahedron, 1%nat)) (Some 1%nat).
Lemma ex_oct_ambi : let h := oct_hull oct8 in ambi_ready oct_setup h octahedron /\ fresh_hull h /\ order_in_force None oct_setup 1 /\
  h_imag h = None /\ (forall d, In d (h_d h) -> dist_gain d (h_a h) = 1) /\ h_valid h <> [] /\ goes_on (h_points h) (h_valid h) /\
  angles_of octahedron octa_azi octa_zen /\ exact_for sh_real (2 * 1) octa_azi octa_zen (equal_weights (length octahedron)).
Proof.
  split; [split; [reflexivity|]; split; [exists 1%nat; reflexivity|exact octa_nz]|]. split; [split; [reflexivity|]; split; [apply oct_wf|]; split; [exact oct_range|exact oct_indep]|].
  split; [right; auto|]. split; [reflexivity|]. split; [exact octa_dist|]. split; [discriminate|]. split; [exact oct_goes_on|]. exact (conj octa_angles octa_grid).
Qed.
