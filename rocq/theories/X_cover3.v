(** Final forms and concrete cases: panning gains move continuously. *)
From Coq Require Import Lra Lia Psatz Permutation.
From Verif Require Import Base BaseFacts M_utils M_sph0 M_sig M_process M_sph M_grids M_decoder M_decoder2 M_process2 M_plot S_utils S_sph S_grids S_decoder S_decoder2 S_plot S_retain X_sph S_misc P_dec1 P_dec2 P_dec3 X_dec1 X_dec2 S_cover S_cover2 P_cover1 P_cover2 P_cover3 X_cover X_cover2 P_cover4.
Open Scope R_scope.

Lemma f_continuous : forall lstsq3 o h vs src e,
  lstsq3_contract lstsq3 -> norm_order o -> h_vbase h = None -> hull_wf h -> (forall d, In d (h_d h) -> 0 < d) ->
  Forall (in_range (length (h_points h))) (in_force h vs) -> Forall (independent (h_points h)) (in_force h vs) ->
  in_force h vs <> [] -> encloses (h_points h) (in_force h vs) -> closed_surface (in_force h vs) -> src <> (0, 0, 0) -> 0 < e ->
  exists d, 0 < d /\ forall jobs sched srcs rows i i', (1 <= jobs)%Z -> (forall k, (k < length srcs)%nat -> (3 <= count_occ Nat.eq_dec sched k)%nat) ->
    fst (vbap_hull lstsq3 jobs sched srcs h o vs) = Ok rows -> (i < length srcs)%nat -> (i' < length srcs)%nat ->
    nth i srcs (0, 0, 0) = src -> norm3 (sub3 (nth i' srcs (0, 0, 0)) src) < d ->
    (forall x, In x (nth i rows []) -> 0 <= x) -> (forall x, In x (nth i' rows []) -> 0 <= x) ->
    forall j, Rabs (nth j (nth i' rows []) 0 - nth j (nth i rows []) 0) < e.
Proof.
  intros lstsq3 o h vs src e LC NO V WF DP IR IN NE EN CS NZ E.
  destruct (rows_near o h (in_force h vs) src e NO IR IN WF DP EN NE (f_convex _ _ IN EN CS) NZ E) as (d & D & H). exists d. split; [exact D|].
  intros jobs sched srcs rows i i' J S R Hi Hi' Ei Ei' P P'. destruct (vbap_rows_final lstsq3 o jobs sched srcs h vs LC NO V WF IR IN J S) as (rows0 & R0 & F). rewrite R in R0. injection R0 as <-.
  assert (N : forall k, (k < length srcs)%nat -> panning_row o h (in_force h vs) (nth k srcs (0, 0, 0)) (nth k rows [])).
  { clear - F. induction F as [|a b l l' A F IH]; intros k Hk; [cbn in Hk; lia|]. destruct k as [|k]; [exact A|apply IH; cbn in Hk; lia]. }
  apply (H (nth i' srcs (0, 0, 0))); auto. rewrite <- Ei. now apply N.
Qed.
Lemma f_continuous_setup : forall lstsq3 chull ps q o src e, let h := setup_init chull ps q in
  lstsq3_contract lstsq3 -> norm_order o -> exact_hull (h_points h) (chull (h_points h)) -> general (h_points h) -> surrounded (h_points h) ->
  (forall p, In p (h_points h) -> p <> (0, 0, 0)) -> h_encloses h = h_simplices h -> src <> (0, 0, 0) -> 0 < e ->
  exists d, 0 < d /\ forall jobs sched srcs rows i i', (1 <= jobs)%Z -> (forall k, (k < length srcs)%nat -> (3 <= count_occ Nat.eq_dec sched k)%nat) ->
    fst (vbap_hull lstsq3 jobs sched srcs h o None) = Ok rows -> (i < length srcs)%nat -> (i' < length srcs)%nat ->
    nth i srcs (0, 0, 0) = src -> norm3 (sub3 (nth i' srcs (0, 0, 0)) src) < d ->
    (forall x, In x (nth i rows []) -> 0 <= x) -> (forall x, In x (nth i' rows []) -> 0 <= x) ->
    forall j, Rabs (nth j (nth i' rows []) 0 - nth j (nth i rows []) 0) < e.
Proof.
  intros lstsq3 chull ps q o src e h LC NO EH GE SU NZ AL NS E.
  assert (E2 : exact_hull (h_points h) (h_simplices h)) by (apply f_sorted; exact EH).
  assert (VE : in_force h None = h_simplices h) by (cbn [in_force]; rewrite <- AL; reflexivity).
  destruct (f_hull _ _ GE SU E2) as (NE & IR & IN & EN & CS & _).
  apply f_continuous; auto; try (rewrite VE; assumption); [apply init_wf|apply init_d; exact NZ].
Qed.

(** * The tolerance of the panner *)
Definition tol : R := 1 / 100000.
Definition tol_b : R := sqrt (1 - tol * tol).
Definition at_tol : V3 := (- tol, tol_b, 0).
Lemma tol_b_props : 0 < tol_b /\ tol * tol + tol_b * tol_b = 1.
Proof. assert (0 < 1 - tol * tol) by (unfold tol; lra). split; [apply sqrt_lt_R0; assumption|]. unfold tol_b. rewrite sqrt_sqrt by lra. ring. Qed.
Lemma at_tol_1 g : ~ pans (POrd 2) octahedron (0, 2, 4)%nat at_tol g.
Proof.
  destruct tol_b_props as (B0 & B). intros (U & (T1 & T2 & T3) & k & K & C). apply unit_norm_two in U. destruct g as [[x y] z]. unfold vx, vy, vz in *. cbn in U. cbn [fst snd] in *.
  unfold combines, octahedron, at_tol in C. cbn [nth] in C. unfold add3, scal3, vx, vy, vz in C. cbn [fst snd] in C. injection C as C1 C2 C3. fold tol in T1.
  assert (X : x = - (k * tol)) by lra. assert (Y : y = k * tol_b) by lra. assert (Z : z = 0) by lra. subst x y z.
  assert (KK : k * k = 1) by (transitivity (k * k * (tol * tol + tol_b * tol_b)); [rewrite B; ring|lra]). assert (k = 1) by nra. subst k. lra.
Qed.
Lemma at_tol_2 : pans (POrd 2) octahedron (1, 2, 4)%nat at_tol (tol, tol_b, 0).
Proof.
  destruct tol_b_props as (B0 & B). assert (0 < tol) by (unfold tol; lra). split; [apply unit_norm_two; unfold vx, vy, vz; cbn; lra|]. split; [unfold vx, vy, vz; cbn; lra|].
  exists 1. split; [lra|]. unfold combines, octahedron, at_tol. cbn [nth]. unfold add3, scal3, vx, vy, vz. cbn [fst snd]. apply v3_eq; ring.
Qed.
Definition below_tol (a : R) : V3 := (- a, tol_b, 0).
Lemma below_pans a : 0 < a < tol -> exists k, 1 <= k /\ pans (POrd 2) octahedron (0, 2, 4)%nat (below_tol a) (- (k * a), k * tol_b, 0).
Proof.
  intros [A0 A1]. destruct tol_b_props as (B0 & B). set (k := / sqrt (a * a + tol_b * tol_b)).
  assert (P : 0 < a * a + tol_b * tol_b) by nra. pose proof (sqrt_lt_R0 _ P) as SP. pose proof (sqrt_sqrt _ (Rlt_le _ _ P)) as SS.
  assert (K0 : 0 < k) by now apply Rinv_0_lt_compat.
  assert (KK : k * k * (a * a + tol_b * tol_b) = 1) by (rewrite <- SS at 1; unfold k; field; lra).
  assert (K1 : 1 <= k) by (destruct (Rle_or_lt 1 k) as [|L]; [assumption|]; exfalso; assert (a * a < tol * tol) by nra; assert (k * k < 1) by nra; nra).
  assert (KT : k * a < tol).
  { destruct (Rlt_or_le (k * a) tol) as [|G]; [assumption|]. exfalso. assert (X : tol * tol <= k * a * (k * a)) by (assert (0 < tol) by (unfold tol; lra); nra).
    assert (Y : k * k * (tol_b * tol_b) <= tol_b * tol_b) by lra. assert (BB : 0 < tol_b * tol_b) by nra. assert (k * k <= 1) by (apply (Rmult_le_reg_r (tol_b * tol_b)); lra). assert (k = 1) by nra. subst. nra. }
  exists k. split; [exact K1|]. split; [apply unit_norm_two; unfold vx, vy, vz; cbn; lra|]. split; [unfold vx, vy, vz; cbn [fst snd]; fold tol; assert (0 < tol) by (unfold tol; lra); assert (0 < k * tol_b) by nra; lra|].
  exists k. split; [exact K0|]. unfold combines, octahedron, below_tol. cbn [nth]. unfold add3, scal3, vx, vy, vz. cbn [fst snd]. apply v3_eq; ring.
Qed.
Lemma f_continuous_refuted : exists h src e, h_vbase h = None /\ hull_wf h /\ (forall d, In d (h_d h) -> 0 < d) /\ Forall (in_range (length (h_points h))) (h_valid h) /\
  Forall (independent (h_points h)) (h_valid h) /\ h_valid h <> [] /\ encloses (h_points h) (h_valid h) /\ closed_surface (h_valid h) /\ src <> (0, 0, 0) /\ 0 < e /\
  forall lstsq3 d, lstsq3_contract lstsq3 -> 0 < d -> exists src' row row', norm3 (sub3 src' src) < d /\
    fst (vbap_hull lstsq3 1 [] [src; src'] h (POrd 2) None) = Ok [row; row'] /\ e <= Rabs (nth 0 row' 0 - nth 0 row 0).
Proof.
  set (h := oct_hull oct8). destruct tol_b_props as (B0 & B). assert (T0 : 0 < tol) by (unfold tol; lra). exists h, at_tol, (tol / 2).
  split; [reflexivity|]. split; [apply oct_wf|]. split; [exact oct_d|]. split; [exact oct_range|]. split; [exact oct_indep|]. split; [discriminate|]. split; [exact oct_encloses|]. split; [exact oct_closed|].
  split; [intro X; injection X; intros; lra|]. split; [lra|]. intros lstsq3 d LC D.
  set (a := Rmax (tol / 2) (tol - d / 2)). assert (A1 : tol / 2 <= a) by apply Rmax_l. assert (A2 : tol - d / 2 <= a) by apply Rmax_r. assert (A3 : a < tol) by (apply Rmax_lub_lt; lra).
  destruct (below_pans a) as (k & K1 & PB); [lra|].
  destruct (vbap_fresh lstsq3 (POrd 2) LC Rlt_0_2 [at_tol; below_tol a] h None eq_refl (oct_wf _) oct_range oct_indep) as (rows & E & F).
  inversion F as [|? row ? ? P F1]; subst. inversion F1 as [|? row' ? ? P' F2]; subst. inversion F2; subst.
  exists (below_tol a), row, row'. split.
  { unfold norm3, below_tol, at_tol, sub3, dot3, vx, vy, vz. cbn [fst snd]. replace ((- a - - tol) * (- a - - tol) + (tol_b - tol_b) * (tol_b - tol_b) + (0 - 0) * (0 - 0)) with (Rsqr (tol - a)) by (unfold Rsqr; ring).
    rewrite sqrt_Rsqr by lra. lra. }
  split; [change (fst (vbap_hull lstsq3 1 [] [at_tol; below_tol a] h (POrd 2) None) = Ok [row; row']); rewrite E; reflexivity|].
  destruct (first_face h oct8 (below_tol a) row' _ ltac:(cbn; lia) PB P') as (g' & Pg' & V').
  assert (R0 : nth 0 row 0 = 0).
  { destruct P as (_ & [(i & g & Hi & Pg & BF & V)|(N & V)]); [|apply V; cbn; lia]. rewrite V by (cbn; lia). cbn [h_d h_a h oct_hull]. rewrite oct_dist by lia.
    destruct i as [|[|i]]; [exfalso; exact (at_tol_1 g Pg)| |exfalso; exact (BF 1%nat _ ltac:(lia) at_tol_2)]. cbn [in_force h_valid h oct_hull oct8 nth]. unfold on_face, delta. cbn [Nat.eqb]. ring. }
  rewrite R0, Rminus_0_r, V' by (cbn; lia). cbn [h_d h_a h oct_hull]. rewrite oct_dist by lia. cbn [oct8 nth] in *. unfold on_face, delta. cbn [Nat.eqb].
  destruct (pans_id octahedron (POrd 2) (0, 2, 4)%nat (below_tol a) g' Rlt_0_2) as (G' & _); [exact (proj1 (Forall_forall _ _) oct_indep _ (or_introl eq_refl))|intro X; injection X; intros; lra|exact Pg'|].
  destruct (pans_id octahedron (POrd 2) (0, 2, 4)%nat (below_tol a) _ Rlt_0_2 (proj1 (Forall_forall _ _) oct_indep _ (or_introl eq_refl)) ltac:(intro X; injection X; intros; lra) PB) as (G & _).
  rewrite G', <- G. unfold vx, vy, vz. cbn [fst snd]. replace (1 * (1 * - (k * a) + 0 * (k * tol_b) + 0 * 0)) with (- (k * a)) by ring. rewrite Rabs_Ropp, Rabs_right by nra. nra.
Qed.

(** a source in the middle of a triangle of the octahedron *)
Definition third : R := / sqrt 3.
Lemma ex_continuous : let h := oct_hull oct8 in hull_wf h /\ (forall d, In d (h_d h) -> 0 < d) /\ encloses (h_points h) (h_valid h) /\ closed_surface (h_valid h) /\
  panning_row (POrd 2) h (h_valid h) (1, 1, 1) [third; 0; third; 0; third; 0] /\ forall x, In x [third; 0; third; 0; third; 0] -> 0 <= x.
Proof.
  intro h. assert (S3 : 0 < sqrt 3) by (apply sqrt_lt_R0; lra). assert (T : 0 < third) by now apply Rinv_0_lt_compat.
  assert (TT : 3 * (third * third) = 1) by (unfold third; rewrite <- (sqrt_sqrt 3) at 1 by lra; field; lra).
  split; [apply oct_wf|]. split; [exact oct_d|]. split; [exact oct_encloses|]. split; [exact oct_closed|]. split.
  - split; [reflexivity|]. left. exists 0%nat, (third, third, third). split; [cbn; lia|]. split.
    + split; [apply unit_norm_two; unfold vx, vy, vz; cbn; lra|]. split; [unfold vx, vy, vz; cbn; lra|]. exists third. split; [exact T|].
      unfold combines, octahedron. cbn [h h_points h_valid oct_hull oct8 octahedron nth]. unfold add3, scal3, vx, vy, vz. cbn [fst snd]. apply v3_eq; ring.
    + split; [intros j g' Hj; lia|]. intros j Hj. cbn [h h_d h_a oct_hull]. rewrite oct_dist by exact Hj. cbn in Hj.
      destruct j as [|[|[|[|[|[|j]]]]]]; try lia; cbn [h h_valid oct_hull oct8 nth]; unfold on_face, delta, vx, vy, vz; cbn [Nat.eqb fst snd]; ring.
  - intros x Hx. cbn in Hx. repeat (destruct Hx as [<-|Hx]; [lra|]). contradiction.
Qed.
