(** Final forms and examples for layout files. *)
From Coq Require Import String.
From Verif Require Import Base BaseFacts M_utils M_sph0 M_sig M_process M_sph M_grids M_decoder M_decoder2 M_io
  S_utils S_sph S_grids S_process S_decoder S_decoder2 S_io P_utils P_sig P_proc4 P_sph5 P_sph7 P_sph8 P_sph9 P_sph10 P_sph11 P_sph12 P_sph13 P_grids3 X_sph
  P_dec1 P_dec2 P_dec3 P_dec4 P_dec5 X_dec1 P_dec6 P_dec7 P_dec8 P_dec9 P_dec10 X_dec2 P_parsa3 P_io5 P_io6 P_io7.
Open Scope R_scope.

(** * One triangle of the octahedron *)
Definition tri (ar : list R) (no : list V3) : hull := Hull octahedron [1; 1; 1; 1; 1; 1] 1 (0, 0, 0) [(0, 2, 4)%nat]
  (map (centroid octahedron) [(0, 2, 4)%nat]) ar no [(0, 2, 4)%nat] [(0, 2, 4)%nat] None None.
Lemma zceil_ge x : x <= IZR (zceil x).
Proof. apply zceil_le_iff. apply Z.le_refl. Qed.
Lemma tri_order ar no : exists n, characteristic_ambisonic_order adj_lstsq (tri ar no) = Ok n /\ (1 <= n)%Z.
Proof.
  assert (IR : Forall (in_range 6) (h_encloses (tri ar no))) by (repeat constructor; cbn; lia).
  assert (IN : Forall (independent octahedron) (h_encloses (tri ar no))).
  { repeat constructor; unfold independent, dot3, cross3, vx, vy, vz; cbn [octahedron nth fst snd]; lra. }
  assert (MU : map unit3 octahedron = octahedron) by (unfold octahedron; cbn [map]; rewrite !norm3_one by ring; reflexivity).
  unfold characteristic_ambisonic_order.
  assert (MP : mapO proj (h_points (tri ar no)) = Some octahedron).
  { cbn [h_points tri octahedron mapO]. rewrite !proj_one by ring. reflexivity. }
  rewrite MP. change (set_points (tri ar no) octahedron) with (tri ar no).
  set (src := map _ (h_centroids (tri ar no))).
  assert (SR : exists q, src = [q] /\ exists k, 0 < k /\ q = scal3 k (1, 1, 1)).
  { unfold src, tri. cbn [h_centroids map]. eexists. split; [reflexivity|]. unfold centroid, octahedron. cbn [nth].
    match goal with |- context [proj ?v] => replace v with (scal3 (1/3) (1, 1, 1)) end.
    2:{ unfold fpts, vmean, vsum3, pt. cbn [nth fold_right length]. unfold scal3, add3, vx, vy, vz. cbn [fst snd INR]. tuple3; field. }
    unfold scal3, vx, vy, vz. cbn [fst snd]. unfold proj, vx, vy, vz. cbn [fst snd]. rewrite project_spec. destruct (Req_EM_T _ 0) as [Z0|_].
    - unfold dot3, vx, vy, vz in Z0. cbn [fst snd] in Z0. lra.
    - unfold unit3. set (n := norm3 _). assert (NP : 0 < n). { unfold n, norm3, dot3, vx, vy, vz. cbn [fst snd]. apply sqrt_lt_R0. lra. }
      exists (1 / n * (1 / 3)). split; [apply Rmult_lt_0_compat; [apply Rdiv_lt_0_compat; lra|lra]|]. unfold scal3, vx, vy, vz. cbn [fst snd]. tuple3; field; lra. }
  destruct SR as (q & SQ & k & K & Eq). rewrite SQ.
  destruct (vbap_rows_final adj_lstsq (POrd 2) 1 [0; 0; 0]%nat [q] (tri ar no) (Some (h_encloses (tri ar no))) adj_contract Rlt_0_2 eq_refl eq_refl IR IN ltac:(lia)) as (rows & EV & F2).
  { intros i Hi. cbn [length] in Hi. replace i with 0%nat by lia. cbn. lia. }
  change (vbap_hull adj_lstsq 1 [0; 0; 0]%nat [q] (tri ar no) (POrd 2) (Some (h_encloses (tri ar no)))) with (vbap_hull adj_lstsq 1 [] [q] (tri ar no) (POrd 2) (Some (h_encloses (tri ar no)))) in EV.
  rewrite EV. cbn [bind]. inversion F2 as [|? row ? rs PR F2' E1 E2]. subst rows. inversion F2'. subst rs.
  assert (RW : exists s, s * s = 1 / 3 /\ row = [s; 0; s; 0; s; 0]).
  { destruct PR as [LR [[i [g [Hi [[U [P [k' [K' C]]]] [_ E]]]]]|[N _]]].
    - cbn in Hi. replace i with 0%nat in * by lia. cbn [in_force tri h_encloses nth] in C, E. cbn [h_points tri] in *.
      unfold combines in C. cbn [octahedron nth] in C. rewrite Eq in C. unfold add3, scal3, vx, vy, vz in C. cbn [fst snd] in C. destruct g as [[g1 g2] g3]. cbn [fst snd] in C.
      injection C as C1 C2 C3. apply (proj1 (unit_norm_two _)) in U. unfold vx, vy, vz in U. cbn in U.
      exists (k' * k). assert (g1 = k' * k) by lra. assert (g2 = k' * k) by lra. assert (g3 = k' * k) by lra. subst g1 g2 g3. split; [lra|].
      assert (DG : dist_gain 1 1 = 1) by (unfold dist_gain; destruct (Req_EM_T 1 0); [lra|]; rewrite ln_1, Rmult_0_r; apply exp_0).
      cbn [length octahedron] in LR. destruct row as [|r0 [|r1 [|r2 [|r3 [|r4 [|r5 [|]]]]]]]; try discriminate LR.
      pose proof (E 0%nat ltac:(cbn; lia)) as E0. pose proof (E 1%nat ltac:(cbn; lia)) as E1'. pose proof (E 2%nat ltac:(cbn; lia)) as E2'.
      pose proof (E 3%nat ltac:(cbn; lia)) as E3. pose proof (E 4%nat ltac:(cbn; lia)) as E4. pose proof (E 5%nat ltac:(cbn; lia)) as E5.
      cbn [nth h_d h_a tri] in E0, E1', E2', E3, E4, E5. rewrite DG in E0, E1', E2', E3, E4, E5. unfold on_face, delta, vx, vy, vz in E0, E1', E2', E3, E4, E5.
      cbn [Nat.eqb fst snd] in E0, E1', E2', E3, E4, E5. rewrite E0, E1', E2', E3, E4, E5. repeat (apply f_equal2; [ring|]). reflexivity.
    - exfalso. destruct (cone_pans (POrd 2) Rlt_0_2 octahedron (0, 2, 4)%nat q) as [g P].
      + inversion IN; assumption.
      + rewrite Eq. split; [unfold scal3, vx, vy, vz; cbn [fst snd]; intro Z0; injection Z0; intros; lra|].
        exists (k, k, k). unfold vx, vy, vz. cbn [fst snd]. repeat (split; [lra|]). unfold combines. cbn [octahedron nth]. unfold add3, scal3, vx, vy, vz. cbn [fst snd]. tuple3; ring.
      + apply (N (0, 2, 4)%nat g); [cbn; auto|exact P]. }
  destruct RW as (t & T & ->). rewrite (rE_rows octahedron) by reflexivity. cbn [bind map].
  assert (RE : r_E_row octahedron [t; 0; t; 0; t; 0] = (Some (1/3, 1/3, 1/3), sqrt (1 / 3))).
  { unfold r_E_row. cbn [map]. rewrite T. replace (lsum [1 / 3; 0 * 0; 1 / 3; 0 * 0; 1 / 3; 0 * 0]) with 1 by (cbn; field).
    destruct (Reqb 1 0) eqn:Z0; [apply Reqb_true in Z0; lra|].
    set (v := vsum _). assert (V : v = (1/3, 1/3, 1/3)).
    { unfold v, vsum, octahedron. cbn [combine map fold_right fst snd]. unfold add3, scal3, vx, vy, vz. cbn [fst snd]. tuple3; field. }
    rewrite V. unfold scal3, vx, vy, vz. cbn [fst snd]. apply f_equal2.
    - f_equal. tuple3; field.
    - f_equal. unfold dot3, vx, vy, vz. cbn [fst snd]. field. }
  rewrite RE. cbn [mapO snd].
  assert (S13 : 0 < sqrt (1 / 3) < 1). { split; [apply sqrt_lt_R0; lra|]. rewrite <- sqrt_1 at 2. apply sqrt_lt_1; lra. }
  unfold np_acos. rewrite (proj2 (Rleb_true _ _)) by lra. rewrite (proj2 (Rleb_true _ _)) by lra. cbn [andb map length Nat.eqb].
  set (avg := lsum _ / INR 1).
  assert (AC : 0 < acos (sqrt (1 / 3)) < PI / 2).
  { destruct (acos_bound (sqrt (1 / 3))) as [A0 A1]. pose proof (cos_acos (sqrt (1/3)) ltac:(lra)) as C. pose proof PI_RGT_0. split.
    - destruct A0 as [|A0]; [assumption|]. exfalso. rewrite <- A0, cos_0 in C. lra.
    - destruct (Rlt_le_dec (acos (sqrt (1 / 3))) (PI / 2)) as [L|L]; [exact L|exfalso]. assert (cos (acos (sqrt (1 / 3))) <= 0) by (apply cos_le_0; lra). lra. }
  pose proof PI_RGT_0 as PP. assert (AV : 0 < avg < 180).
  { unfold avg, lsum. cbn [fold_right INR]. split.
    - assert (0 < 180 / PI) by (apply Rdiv_lt_0_compat; lra). assert (0 < 2 * acos (sqrt (1 / 3)) * (180 / PI)) by (apply Rmult_lt_0_compat; lra). lra.
    - assert (0 < 180 / PI) by (apply Rdiv_lt_0_compat; lra). assert (E : 180 = 2 * (PI / 2) * (180 / PI)) by (field; lra). set (c := 180 / PI) in *. clearbody c.
      assert (2 * acos (sqrt (1 / 3)) * c < 2 * (PI / 2) * c) by (apply Rmult_lt_compat_r; lra). lra. }
  destruct (Reqb avg 0) eqn:Z0; [apply Reqb_true in Z0; lra|]. eexists. split; [reflexivity|].
  assert (Q : 151 / 100 < 2 * (1379 / 10) / avg). { apply Rmult_lt_reg_r with avg; [lra|]. unfold Rdiv. rewrite !Rmult_assoc, Rinv_l by lra. lra. }
  set (xx := 2 * (1379 / 10) / avg - 151 / 100) in *. assert (X0 : 0 < xx) by (unfold xx; lra). pose proof (zceil_ge xx) as ZG. assert (ZP : 0 < IZR (zceil xx)) by lra. apply lt_IZR in ZP. lia.
Qed.

(** * Files *)
Definition tri_chull (_ : list V3) : list face := [(4, 2, 0)%nat].
Lemma tri_of_octahedron : exists ar no, hull_of_points tri_chull octahedron = tri ar no.
Proof.
  assert (SV : sort_vertices (tri_chull octahedron) = [(0, 2, 4)%nat]) by reflexivity. unfold hull_of_points. rewrite SV. unfold tri. do 2 eexists.
  assert (LI : listener_inside octahedron (0, 0, 0) (0, 2, 4)%nat = true).
  { unfold listener_inside. replace (centroid octahedron (0, 2, 4)%nat) with ((1/3, 1/3, 1/3) : V3).
    2:{ unfold centroid, fpts, vmean, vsum3, pt, octahedron. cbn [nth fold_right length]. unfold scal3, add3, vx, vy, vz. cbn [fst snd INR]. tuple3; field. }
    replace (vmean octahedron) with ((0, 0, 0) : V3).
    2:{ unfold vmean, vsum3, octahedron. cbn [fold_right length]. unfold scal3, add3, vx, vy, vz. cbn [fst snd INR]. tuple3; field. }
    unfold dot3, sub3, vx, vy, vz. cbn [fst snd]. destruct (Rltb _ 0) eqn:B; [apply Rltb_true in B; lra|reflexivity]. }
  assert (D1 : forall x, x = 1 -> sqrt x = 1) by (intros x ->; apply sqrt_1).
  assert (LD : map (fun p => sqrt (vx p ^ 2 + vy p ^ 2 + vz p ^ 2)) octahedron = [1; 1; 1; 1; 1; 1]).
  { unfold octahedron. cbn [map]. unfold vx, vy, vz. cbn [fst snd]. repeat (apply f_equal2; [apply D1; ring|]). reflexivity. }
  cbn [filter]. rewrite LI, LD. reflexivity.
Qed.
Lemma tri_loads nd file imag azi ele rad : file <> [] ->
  mapM (fun e => key (j_azi e)) file = Ok azi -> mapM (fun e => key (j_ele e)) file = Ok ele -> mapM (fun e => key (j_rad e)) file = Ok rad ->
  match mapO j_imag file with Some l => l | None => map (fun _ => false) azi end = imag ->
  masked (map negb imag) (map ls_position (combine (map snd azi) (combine (map snd ele) (map snd rad)))) = octahedron ->
  exists l, load_layout tri_chull adj_lstsq nd file None (Some 50%nat) = Ok l.
Proof.
  intros NE EA EE ER EI OC. unfold load_layout. rewrite EA, EE, ER. cbn [bind]. rewrite EI, OC. destruct file as [|e t]; [congruence|].
  unfold ambisonics_setup, get_characteristic_order. cbn [s_order s_hull].
  assert (SI : setup_init tri_chull octahedron None = hull_of_points tri_chull octahedron).
  { unfold setup_init. f_equal. rewrite <- (map_id octahedron) at 2. apply map_ext. intro p. apply sub3_0. }
  rewrite SI. destruct tri_of_octahedron as (ar & no & ->). destruct (tri_order ar no) as (n & -> & N1). cbn [bind]. rewrite (proj2 (Z.ltb_ge n 1) N1).
  assert (LN : load_n_design nd (2 * Z.of_nat 50) = Ok (nd 100%Z)) by reflexivity. rewrite LN. cbn [bind]. eexists. reflexivity.
Qed.
