(** Panning with imaginary loudspeakers and VBIP: examples and counterexamples. *)
From Coq Require Import Lra Lia.
From Verif Require Import Base BaseFacts M_utils M_sph0 M_sig M_process M_sph M_grids M_decoder M_decoder2 M_process2 M_plot
  S_utils S_sph S_grids S_decoder S_decoder2 S_plot S_retain P_utils P_sig P_dec1 P_dec2 P_dec3 X_dec1 P_dec7 P_dec10 X_dec2 P_grids3 X_sph P_plot5 P_plot6 X_plot P_retain P_retain2.
Open Scope R_scope.

(** the octahedron with its lowest loudspeaker imaginary *)
Definition im_faces : list face := [(0, 2, 4); (0, 3, 4); (1, 2, 4); (1, 3, 4); (0, 2, 5); (0, 3, 5); (1, 2, 5); (1, 3, 5)]%nat.
Definition im_points : list V3 := [(1, 0, 0); (-1, 0, 0); (0, 1, 0); (0, -1, 0); (0, 0, 1); (0, 0, -1)].
Definition im_hull : hull := Hull im_points [1; 1; 1; 1; 1; 1] 1 (0, 0, 0) im_faces
  (map (centroid im_points) im_faces) (map (face_area im_points) im_faces) (map (face_normal im_points) im_faces) im_faces im_faces None (Some [5%nat]).
Definition im_setup : setup := Setup ex_hull (Some im_hull) None None.
Lemma im_fresh : fresh_hull im_hull.
Proof.
  split; [reflexivity|]. split; [reflexivity|]. split; [repeat constructor|].
  repeat constructor; unfold independent, dot3, cross3, vx, vy, vz; cbn [h_points im_hull im_points nth fst snd]; lra.
Qed.
Lemma im_reals : real_ls (Some [5%nat]) (length (h_points im_hull)) [0; 1; 2; 3; 4]%nat.
Proof.
  unfold real_ls. cbn [length h_points im_hull im_points kept_from].
  do 5 (right; split; [intros [E|[]]; discriminate|eexists; split; [reflexivity|]]). left. split; [left; reflexivity|reflexivity].
Qed.
Lemma im_dist : forall d, In d (h_d im_hull) -> dist_gain d (h_a im_hull) = 1.
Proof.
  intros d I. assert (d = 1) by (cbn in I; intuition). subst d. unfold dist_gain. destruct (Req_EM_T 1 0); [lra|]. rewrite ln_1, Rmult_0_r. apply exp_0.
Qed.
Lemma im_cone : exists f, In f (h_valid im_hull) /\ inside_cone (h_points im_hull) f (0, 0, -1).
Proof.
  exists (0, 2, 5)%nat. split; [cbn; tauto|]. split; [intro E; injection E as E; lra|]. exists (0, 0, 1). unfold combines, add3, scal3, vx, vy, vz. cbn [fst snd nth h_points im_hull im_points].
  repeat split; try lra. f_equal; [f_equal|]; ring.
Qed.
Lemma low_faces f g : In f (h_valid im_hull) -> pans (POrd 2) (h_points im_hull) f (scal3 1 (nth 5 (h_points im_hull) (0, 0, 0))) g -> In 5%nat (fv f).
Proof.
  intros I (U & (T1 & T2 & T3) & k & K & C). apply unit_norm_two in U. cbn [map lsum fold_right] in U. destruct g as [[gx gy] gz]. unfold vx, vy, vz in *. cbn [fst snd] in *.
  cbn [h_valid im_hull im_faces In] in I.
  assert (KK : forall x y z : R, x * x + (y * y + (z * z + 0)) = 1 -> x = 0 -> y = 0 -> z = - k -> - (1 / 100000) < z -> False).
  { intros x y z H -> -> -> Hz. assert (k * k <= k * 1) by (apply Rmult_le_compat_l; lra). lra. }
  repeat (destruct I as [<-|I]; [first [solve [cbn; tauto]|exfalso; unfold combines, add3, scal3, vx, vy, vz in C; cbn [fst snd nth h_points im_hull im_points] in C; injection C as C1 C2 C3; apply (KK gx gy gz); lra]|]).
  destruct I.
Qed.
(** the docstring of vbip: the amplitude does not fade out with retain_outside *)
Definition low_dir : V3 := (0, 0, -1).
Lemma vbip_silent : exists lstsq3 s h v row s', lstsq3_contract lstsq3 /\ s_ambi s = Some h /\ fresh_hull h /\ (exists idx, h_imag h = Some idx) /\
  (exists f, In f (h_valid h) /\ inside_cone (h_points h) f v) /\
  vbip lstsq3 1 [] [v] s (POrd 2) None true = (Ok [row], s') /\ length row = 5%nat /\ forall x, In x row -> x = 0.
Proof.
  destruct (retain_rows adj_lstsq (POrd 2) 1 [0; 0; 0]%nat [low_dir] im_setup im_hull [5%nat] _ adj_contract Rlt_0_2 eq_refl eq_refl im_fresh im_reals) as (rows & s' & E & F2 & _); [lia| |].
  { intros i Hi. cbn in Hi. assert (i = 0%nat) by lia. subst. cbn. lia. }
  inversion F2 as [|? g ? rest (full & P & O) F0 E1 E2]; subst. inversion F0; subst.
  assert (V0 : low_dir = scal3 1 (nth 5 (h_points im_hull) (0, 0, 0))) by (unfold low_dir, scal3, vx, vy, vz; cbn [fst snd nth h_points im_hull im_points]; f_equal; [f_equal|]; ring).
  assert (Z : forall x, In x g -> x = 0).
  { apply (at_imaginary (POrd 2) im_hull [5%nat] [0; 1; 2; 3; 4]%nat 5 1 full g im_fresh im_reals); [cbn; tauto|apply low_faces| |exact O]. rewrite <- V0. exact P. }
  exists adj_lstsq, im_setup, im_hull, low_dir, (vbip_row (POrd 2) g), s'. split; [exact adj_contract|]. split; [reflexivity|]. split; [exact im_fresh|]. split; [eexists; reflexivity|]. split; [exact im_cone|].
  pose proof (vbip_roots (POrd 2) g Rlt_0_2) as (Lr & c & _ & Er). destruct O as (Lo & _). split; [|split].
  - unfold vbip. assert (E' : vbap adj_lstsq 1 [] [low_dir] im_setup (POrd 2) None true = vbap adj_lstsq 1 [0; 0; 0]%nat [low_dir] im_setup (POrd 2) None true) by reflexivity.
    rewrite E', E. reflexivity.
  - rewrite Lr, Lo. reflexivity.
  - intros x Ix. destruct (In_nth _ _ 0 Ix) as (j & Hj & <-). rewrite Lr in Hj. rewrite Er by exact Hj. rewrite (Z (nth j g 0)) by (apply nth_In; exact Hj). rewrite Rmax_left by lra. rewrite sqrt_0. ring.
Qed.

(** three loudspeakers, one of them twice as far away *)
Definition far_points : list V3 := [(2, 0, 0); (0, 1, 0); (0, 0, 1)].
Definition far_faces : list face := [(0, 1, 2)]%nat.
Definition far3_hull : hull := Hull far_points [2; 1; 1] 1 (0, 0, 0) far_faces (map (centroid far_points) far_faces) (map (face_area far_points) far_faces) (map (face_normal far_points) far_faces) far_faces far_faces None None.
Lemma far_norms : norm3 (2, 0, 0) = 2 /\ norm3 (0, 1, 0) = 1 /\ norm3 (0, 0, 1) = 1.
Proof.
  unfold norm3, dot3, vx, vy, vz. cbn [fst snd]. split; [|split].
  - replace (2 * 2 + 0 * 0 + 0 * 0) with (2 * 2) by ring. apply sqrt_square. lra.
  - replace (0 * 0 + 1 * 1 + 0 * 0) with 1 by ring. apply sqrt_1.
  - replace (0 * 0 + 0 * 0 + 1 * 1) with 1 by ring. apply sqrt_1.
Qed.
Lemma far_fresh : fresh_hull far3_hull.
Proof.
  split; [reflexivity|]. split; [reflexivity|]. split; [repeat constructor|].
  repeat constructor; unfold independent, dot3, cross3, vx, vy, vz; cbn [h_points far3_hull far_points nth fst snd]; lra.
Qed.
Lemma far_cone : inside_cone far_points (0, 1, 2)%nat (1, 1, 1).
Proof.
  split; [intro E; injection E as E; lra|]. exists (1 / 2, 1, 1). unfold combines, add3, scal3, vx, vy, vz. cbn [fst snd nth far_points]. repeat split; try lra. f_equal; [f_equal|]; field.
Qed.
Lemma vbip_far : exists lstsq3 s v row s', lstsq3_contract lstsq3 /\ ls_ok (s_hull s) /\ fresh_hull (s_hull s) /\
  (exists f, In f (h_valid (s_hull s)) /\ inside_cone (h_points (s_hull s)) f v) /\
  vbip lstsq3 1 [] [v] s (POrd 2) None false = (Ok [row], s') /\ unit_norm (POrd 2) row /\
  ~ exists k, energy_vector (s_hull s) row = scal3 k v.
Proof.
  set (v := (1, 1, 1) : V3). destruct far_fresh as (VB & WF & IR & IN).
  destruct (vbap_rows_final adj_lstsq (POrd 2) 1 [0; 0; 0]%nat [v] far3_hull None adj_contract Rlt_0_2 VB WF IR IN) as (rows & E & F2); [lia| |].
  { intros i Hi. cbn in Hi. assert (i = 0%nat) by lia. subst. cbn. lia. }
  assert (E' : fst (vbap_hull adj_lstsq 1 [] [v] far3_hull (POrd 2) None) = Ok rows) by exact E.
  destruct (vbap_hull adj_lstsq 1 [] [v] far3_hull (POrd 2) None) as [r h'] eqn:EV. cbn [fst] in E'. subst r.
  inversion F2 as [|? full ? rest P F0 E1 E2]; subst. inversion F0; subst. clear F2 F0 E.
  set (s := Setup far3_hull None None None). exists adj_lstsq, s, v, (vbip_row (POrd 2) full), (set_hull s h').
  split; [exact adj_contract|]. destruct far_norms as (N1 & N2 & N3).
  assert (LS : ls_ok (s_hull s)).
  { unfold ls_ok. cbn [s s_hull far3_hull h_d h_points far_points map]. rewrite N1, N2, N3. split; [reflexivity|]. intros p [<-|[<-|[<-|[]]]] EE; injection EE; intros; lra. }
  split; [exact LS|]. split; [exact far_fresh|]. split; [exists (0, 1, 2)%nat; split; [cbn; tauto|exact far_cone]|].
  split; [unfold vbip, vbap; cbn [s s_hull]; rewrite EV; reflexivity|].
  destruct P as (Lf & [(i & g & Hi & (U & T & k & K & C) & _ & Ef)|(N & _)]).
  2:{ exfalso. destruct (cone_pans (POrd 2) Rlt_0_2 far_points (0, 1, 2)%nat v) as (g & Pg); [|exact far_cone|exact (N (0, 1, 2)%nat g (or_introl eq_refl) Pg)]. inversion IN; assumption. }
  cbn in Hi. assert (i = 0%nat) by lia. subst i. cbn [nth in_force h_valid far3_hull far_faces] in *.
  destruct g as [[gx gy] gz]. unfold combines, add3, scal3, vx, vy, vz in C. cbn [fst snd nth h_points far_points] in C. injection C as C1 C2 C3.
  assert (G : forall j, (j < 3)%nat -> nth j full 0 = k).
  { intros j Hj. rewrite Ef by exact Hj. cbn [far3_hull h_d h_a]. assert (D1 : dist_gain 1 1 = 1) by (unfold dist_gain; destruct (Req_EM_T 1 0); [lra|]; rewrite ln_1, Rmult_0_r; apply exp_0).
    assert (D2 : dist_gain 2 1 = 2) by (unfold dist_gain; destruct (Req_EM_T 2 0); [lra|]; rewrite Rmult_1_l; apply exp_ln; lra).
    destruct j as [|[|[|j]]]; [| | |lia]; cbn [nth]; rewrite ?D1, ?D2; unfold on_face, delta, vx, vy, vz; cbn [Nat.eqb fst snd]; lra. }
  cbn [length h_points far3_hull far_points] in Lf.
  pose proof (vbip_roots (POrd 2) full Rlt_0_2) as (Lr & c & Pc & Er). rewrite Lf in Lr, Er.
  assert (V3' : forall j, (j < 3)%nat -> nth j (vbip_row (POrd 2) full) 0 = c * sqrt k) by (intros j Hj; rewrite Er, G by exact Hj; rewrite Rmax_right by lra; reflexivity).
  split; [apply vbip_unit; [exact Rlt_0_2|exists 0%nat; rewrite Lf, G by lia; split; [lia|exact K]]|].
  set (t := c * sqrt k) in *. assert (Pt : 0 < t) by (apply Rmult_lt_0_compat; [exact Pc|apply sqrt_lt_R0, K]). set (row := vbip_row (POrd 2) full) in *.
  intros (q & Q). unfold energy_vector in Q. cbn [s s_hull far3_hull h_points far_points length] in Q. cbn [s_hull s] in Q.
  assert (A0 : at_listener (s_hull s) row 0 = t / 2) by (unfold at_listener; cbn [s s_hull far3_hull h_points far_points nth h_a]; rewrite N1, V3' by lia; rewrite Rpower_1 by lra; reflexivity).
  assert (A1 : at_listener (s_hull s) row 1 = t) by (unfold at_listener; cbn [s s_hull far3_hull h_points far_points nth h_a]; rewrite N2, V3' by lia; rewrite Rpower_1 by lra; field).
  assert (A2 : at_listener (s_hull s) row 2 = t) by (unfold at_listener; cbn [s s_hull far3_hull h_points far_points nth h_a]; rewrite N3, V3' by lia; rewrite Rpower_1 by lra; field).
  assert (EN : energy_at (s_hull s) row = 9 / 4 * (t * t)) by (unfold energy_at; cbn [s s_hull far3_hull h_points far_points length rsum]; change far3_hull with (s_hull s); rewrite A0, A1, A2; field).
  assert (X0 : vx (scal3 q v) = q) by (unfold v, scal3, vx, vy, vz; cbn [fst snd]; ring). assert (Y0 : vy (scal3 q v) = q) by (unfold v, scal3, vx, vy, vz; cbn [fst snd]; ring).
  rewrite <- Q in X0, Y0. unfold vx at 1 in X0. unfold vy at 1 in Y0. cbn [fst snd rsum] in X0, Y0. change far3_hull with (s_hull s) in X0, Y0. rewrite EN, A0, A1, A2 in X0, Y0.
  unfold ls_dir in X0, Y0. cbn [s s_hull far3_hull h_points far_points nth] in X0, Y0. rewrite N1, N2, N3 in X0, Y0. unfold scal3, vx, vy, vz in X0, Y0. cbn [fst snd] in X0, Y0.
  assert (TT : 0 < t * t) by (apply Rmult_lt_0_compat; exact Pt).
  assert (X1 : q = 1 / 9) by (rewrite <- X0; field; lra). assert (Y1 : q = 4 / 9) by (rewrite <- Y0; field; lra). lra.
Qed.
Lemma ex_retain : fresh_hull im_hull /\ real_ls (Some [5%nat]) (length (h_points im_hull)) [0; 1; 2; 3; 4]%nat /\ s_ambi im_setup = Some im_hull /\ h_imag im_hull = Some [5%nat] /\
  (forall d, In d (h_d im_hull) -> dist_gain d (h_a im_hull) = 1) /\ (exists f, In f (h_valid im_hull) /\ inside_cone (h_points im_hull) f (0, 0, -1)) /\
  (forall f g, In f (h_valid im_hull) -> pans (POrd 2) (h_points im_hull) f (scal3 1 (nth 5 (h_points im_hull) (0, 0, 0))) g -> In 5%nat (fv f)).
Proof. split; [exact im_fresh|]. split; [exact im_reals|]. split; [reflexivity|]. split; [reflexivity|]. split; [exact im_dist|]. split; [exact im_cone|exact low_faces]. Qed.
Lemma ex_after : let r := ambisonics_setup (fun _ => octa_faces) adj_lstsq (fun _ => octahedron) octa_setup true (Some [(0, 0, -1)]) (Some 1%nat) (Some 1%nat) in
  fst r = Ok tt /\ forall h, s_ambi (snd r) = Some h -> Forall (in_range (length (h_points h))) (h_valid h) /\ Forall (independent (h_points h)) (h_valid h).
Proof.
  cbn zeta. split; [reflexivity|]. intros h E. cbn [ambisonics_setup bind snd s_ambi] in E.
  pose proof octa_fresh as (_ & _ & IR & IN).
  assert (Q : exists vs, h_points h = octahedron ++ [(0, 0, -1)] /\ h_valid h = vs /\ incl vs (sort_vertices octa_faces)).
  { unfold ambisonics_setup in E. cbn [bind] in E. destruct (load_n_design _ _) as [kp|] eqn:L; [|cbn in L; discriminate]. cbn [snd s_ambi] in E. injection E as <-.
    eexists. split; [reflexivity|]. split; [reflexivity|]. cbn [set_imag h_valid hull_of_points]. intros f I. apply filter_In in I. destruct I as (I & _). exact I. }
  destruct Q as (vs & HP & HV & IC). rewrite HP, HV. split; apply Forall_forall; intros f I; apply IC in I; cbn in I; destruct I as [<-|[<-|[]]]; cbn.
  - repeat split; lia.
  - repeat split; lia.
  - unfold independent, dot3, cross3, vx, vy, vz; cbn; lra.
  - unfold independent, dot3, cross3, vx, vy, vz; cbn; lra.
Qed.
Lemma ex_intensity : let h := im_hull in hull_wf h /\ Forall (in_range (length (h_points h))) (h_valid h) /\ Forall (independent (h_points h)) (h_valid h) /\
  (forall d, In d (h_d h) -> 0 < d) /\ panning_row (POrd 2) h (h_valid h) (0, 0, -1) [0; 0; 0; 0; 0; 1] /\
  (exists f, In f (h_valid h) /\ inside_cone (h_points h) f (0, 0, -1)) /\ roots_of [0; 0; 0; 0; 0; 1] [0; 0; 0; 0; 0; 1].
Proof.
  cbn zeta. destruct im_fresh as (_ & W & IR & IN). split; [exact W|]. split; [exact IR|]. split; [exact IN|].
  split; [intros d D; cbn in D; repeat (destruct D as [<-|D]; [lra|]); destruct D|]. split; [|split; [exact im_cone|]].
  - split; [reflexivity|]. left. exists 4%nat, (0, 0, 1). split; [cbn; lia|]. split; [|split].
    + split; [|split; [unfold vx, vy, vz; cbn [fst snd]; lra|]].
      * apply unit_norm_two. cbn [map lsum fold_right vx vy vz fst snd]. ring.
      * exists 1. split; [lra|]. cbn. unfold add3, scal3, vx, vy, vz. cbn [fst snd]. f_equal; [f_equal|]; ring.
    + intros j g' Hj P. assert (I : In 5%nat (fv (nth j (h_valid im_hull) (0, 0, 0)%nat))).
      { apply (low_faces _ g'); [apply nth_In; cbn; lia|]. replace (scal3 1 (nth 5 (h_points im_hull) (0, 0, 0))) with ((0, 0, -1) : V3); [exact P|].
        cbn. unfold scal3, vx, vy, vz. cbn [fst snd]. f_equal; [f_equal|]; ring. }
      do 4 (destruct j as [|j]; [cbn in I; repeat (destruct I as [I|I]; [discriminate|]); destruct I|]). lia.
    + intros j Hj. rewrite im_dist by (apply nth_In; cbn in Hj |- *; lia). cbn in Hj.
      do 6 (destruct j as [|j]; [cbn; unfold delta; cbn; unfold vx, vy, vz; cbn [fst snd]; ring|]). lia.
  - split; [reflexivity|]. exists 1. split; [lra|]. intros j Hj. cbn in Hj.
    do 6 (destruct j as [|j]; [cbn [nth]; rewrite Rmax_right by lra; rewrite ?sqrt_0, ?sqrt_1; ring|]). lia.
Qed.
