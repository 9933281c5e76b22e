(** Transfer functions, polar diagrams, hulls, balloons, bars. *)
From Coq Require Import Permutation.
From Verif Require Import Base BaseFacts M_utils M_sig M_process M_sph M_grids M_decoder M_decoder2 M_decoder3 M_parsa3 M_decoder4 M_process2 M_plot S_sph S_decoder S_sph2 S_plot P_utils P_proc1 P_sig P_sph13 P_dec4 P_plot2.
Open Scope R_scope.

Lemma Rdiv_0 x : 0 / x = 0. Proof. unfold Rdiv. apply Rmult_0_l. Qed.
(** ** transfer function *)
Lemma unwrap_still l : forall prev, - (PI / 2) < prev < PI / 2 -> (forall x, In x l -> - (PI / 2) < x < PI / 2) -> unwrap_from prev 0 l = l.
Proof.
  induction l as [|x l IH]; intros prev P H; cbn [unwrap_from]; [reflexivity|]. pose proof (H x (or_introl eq_refl)) as Hx.
  assert (E : unwrap_step (x - prev) = 0). { unfold unwrap_step. replace (Rltb (Rabs (x - prev)) PI) with true; [reflexivity|]. symmetry. apply Rltb_true. apply Rabs_def1; lra. }
  rewrite E, !Rplus_0_r, IH; auto. intros y Iy. apply H. right. exact Iy.
Qed.
Lemma unwrap_right l : (forall x, In x l -> - (PI / 2) < x < PI / 2) -> np_unwrap l = l.
Proof. intros H. destruct l as [|x l]; [reflexivity|]. cbn [np_unwrap]. f_equal. apply unwrap_still; [apply H; left; reflexivity|]. intros y I. apply H. right. exact I. Qed.
Lemma angle_right z : 0 < fst z -> - (PI / 2) < M_decoder4.angle z < PI / 2.
Proof. intros P. unfold M_decoder4.angle, arctan2. replace (Rltb 0 (fst z)) with true by (symmetry; apply Rltb_true; exact P). pose proof (atan_bound (snd z / fst z)). lra. Qed.
Lemma clip_right z : 0 < fst (cclip (1 / 100000000000000) z).
Proof.
  unfold cclip. destruct (Rltb (fst z) _) eqn:E; [cbn; lra|]. apply Rltb_false in E. destruct (Reqb (fst z) _); cbn [fst]; lra.
Qed.
Lemma cabs_polar z : z = (cabs z * cos (M_decoder4.angle z), cabs z * sin (M_decoder4.angle z)).
Proof.
  destruct z as [a b]. unfold cabs, M_decoder4.angle. cbn [fst snd]. destruct (arctan2_polar b a) as (A & B). cbn zeta in *. replace (a ^ 2 + b ^ 2) with (a * a + b * b) by ring. rewrite A, B. reflexivity.
Qed.
Lemma cabs_pos z : 0 < fst z -> 0 < cabs z.
Proof. intros P. unfold cabs. apply sqrt_lt_R0. nra. Qed.
Lemma db_floor : decibel (1 / 100000000000000) = -280.
Proof.
  unfold decibel. replace (1 / 100000000000000) with (/ 10 ^ 14) by (cbn; field). rewrite ln_Rinv by (apply pow_lt; lra). rewrite <- (Rpower_pow 14) by lra. unfold Rpower. rewrite ln_exp. cbn [INR]. field.
  assert (0 < ln 10) by (rewrite <- ln_1; apply ln_increasing; lra). lra.
Qed.
Lemma transfer_ok freq H : length freq = length H -> exists mag ph, transfer_function freq H = Ok (mag, ph) /\ length mag = length H /\ length ph = length H /\
  forall k, (k < length H)%nat -> let z := nth k H (0, 0) in
    (1 / 100000000000000 < fst z -> exists r p, nth k mag NaN = Fin (decibel r) /\ nth k ph 0 = p /\ 0 < r /\ - (PI / 2) < p < PI / 2 /\ z = (r * cos p, r * sin p)) /\
    (fst z < 1 / 100000000000000 -> nth k mag NaN = Fin (-280) /\ nth k ph 0 = 0) /\
    (fst z = 1 / 100000000000000 -> exists r p, nth k mag NaN = Fin (decibel r) /\ nth k ph 0 = p /\ 0 < r /\ - (PI / 2) < p < PI / 2 /\ (fst z, Rmax 0 (snd z)) = (r * cos p, r * sin p)).
Proof.
  intros L. unfold transfer_function. rewrite map_length, L, Nat.eqb_refl. cbn [bind]. set (H' := map (cclip (1 / 100000000000000)) H).
  assert (LH : @length C2 H' = @length C2 H) by (unfold H'; apply map_length).
  rewrite unwrap_right. 2:{ intros x I. apply in_map_iff in I. destruct I as (z & <- & I). apply angle_right. unfold H' in I. apply in_map_iff in I. destruct I as (w & <- & _). apply clip_right. }
  eexists _, _. split; [reflexivity|]. rewrite !map_length. split; [exact LH|]. split; [exact LH|]. intros k Hk. set (z := nth k H (0, 0)).
  assert (KH : (k < @length C2 H')%nat) by (rewrite LH; exact Hk). assert (Z : nth k H' (0, 0) = cclip (1 / 100000000000000) z) by (unfold H', z; apply nth_map_in; exact Hk).
  rewrite (nth_map_in (fun z0 => val_db (cabs z0)) H' k NaN (0, 0) KH). rewrite (nth_map_in M_decoder4.angle H' k 0 (0, 0) KH). change (@nth (R * R) k H' (0, 0)) with (@nth C2 k H' (0, 0)). rewrite Z. pose proof (clip_right z) as CP. pose proof (cabs_pos _ CP) as AP.
  assert (DB : val_db (cabs (cclip (1 / 100000000000000) z)) = Fin (decibel (cabs (cclip (1 / 100000000000000) z)))) by (rewrite val_db_pos by lra; rewrite Rabs_pos_eq by lra; reflexivity).
  rewrite DB. split; [|split]; intros X.
  - assert (E : cclip (1 / 100000000000000) z = z). { unfold cclip. replace (Rltb (fst z) (1 / 100000000000000)) with false by (symmetry; apply Rltb_false; lra). replace (Reqb (fst z) (1 / 100000000000000)) with false by (symmetry; apply Reqb_false; lra). reflexivity. }
    rewrite E in *. exists (cabs z), (M_decoder4.angle z). split; [reflexivity|]. split; [reflexivity|]. split; [exact AP|]. split; [apply angle_right; exact CP|apply cabs_polar].
  - assert (E : cclip (1 / 100000000000000) z = (1 / 100000000000000, 0)). { unfold cclip. replace (Rltb (fst z) (1 / 100000000000000)) with true by (symmetry; apply Rltb_true; lra). reflexivity. }
    rewrite E. assert (A : cabs (1 / 100000000000000, 0) = 1 / 100000000000000). { unfold cabs. cbn [fst snd]. replace ((1 / 100000000000000) ^ 2 + 0 ^ 2) with (Rsqr (1 / 100000000000000)) by (unfold Rsqr; ring). apply sqrt_Rsqr. lra. }
    rewrite A, db_floor. split; [reflexivity|]. unfold M_decoder4.angle, arctan2. cbn [fst snd]. replace (Rltb 0 (1 / 100000000000000)) with true by (symmetry; apply Rltb_true; lra). rewrite Rdiv_0. apply atan_0.
  - assert (E : cclip (1 / 100000000000000) z = (fst z, Rmax 0 (snd z))). { unfold cclip. replace (Rltb (fst z) (1 / 100000000000000)) with false by (symmetry; apply Rltb_false; lra). replace (Reqb (fst z) (1 / 100000000000000)) with true by (symmetry; apply Reqb_true; lra). rewrite (Rmax_comm 0). reflexivity. }
    rewrite E in *. exists (cabs (fst z, Rmax 0 (snd z))), (M_decoder4.angle (fst z, Rmax 0 (snd z))). split; [reflexivity|]. split; [reflexivity|]. split; [exact AP|]. split; [apply angle_right; exact CP|apply cabs_polar].
Qed.
Lemma transfer_mismatch freq H : length freq <> length H -> transfer_function freq H = Err ValueError.
Proof. intros L. unfold transfer_function. rewrite map_length. apply Nat.eqb_neq in L. unfold C2 in *. rewrite L. reflexivity. Qed.

(** ** polar *)
Lemma polar_ok theta r (todb : bool) rlim : length theta = length r -> exists fig, M_plot.polar theta r todb rlim = Ok fig /\ po_theta fig = theta /\
  length (po_pos fig) = length r /\ length (po_neg fig) = length r /\
  (forall i, (i < length r)%nat ->
     (0 <= nth i r 0 -> nth i (po_pos fig) NaN = drawn todb (nth i r 0) /\ nth i (po_neg fig) NaN = NaN) /\
     (nth i r 0 < 0 -> nth i (po_pos fig) NaN = NaN /\ nth i (po_neg fig) NaN = drawn todb (- nth i r 0))) /\
  po_rlim fig = match rlim with Some (lo, hi) => (lo, hi + (if todb then 1 / 2 else 3 / 100)) | None => if todb then (-40, 1 / 2) else (0, 103 / 100) end.
Proof.
  intros L. unfold M_plot.polar. rewrite L, Nat.eqb_refl. cbn [bind]. eexists. split; [reflexivity|]. cbn [po_theta po_pos po_neg po_rlim]. rewrite !map_length. split; [reflexivity|]. split; [reflexivity|]. split; [reflexivity|].
  assert (DV : forall x, (if todb then val_db x else Fin x) = drawn todb x). { intros x. unfold drawn. destruct todb; [|reflexivity]. destruct (Req_EM_T x 0) as [->|N]; [apply val_db_0|apply val_db_pos; exact N]. }
  split.
  - intros i Hi. rewrite !map_map. rewrite (nth_map_in _ _ _ NaN 0) by exact Hi. rewrite (nth_map_in _ _ _ NaN 0) by exact Hi. set (x := nth i r 0). split; intros X.
    + replace (Rltb x 0) with false by (symmetry; apply Rltb_false; lra). replace (Rleb 0 x) with true by (symmetry; apply Rleb_true; lra). split; [apply DV|reflexivity].
    + replace (Rltb x 0) with true by (symmetry; apply Rltb_true; lra). replace (Rleb 0 x) with false by (symmetry; apply Rleb_false; lra). split; [reflexivity|]. rewrite Rabs_left by exact X. apply DV.
  - destruct rlim as [[lo hi]|]; [destruct todb; reflexivity|]. destruct todb; cbn [fst snd]; f_equal; lra.
Qed.

(** ** hull *)
Lemma filter_perm {A} (p : A -> bool) l : Permutation (filter p l ++ filter (fun x => negb (p x)) l) l.
Proof.
  induction l as [|x l IH]; [reflexivity|]. cbn [filter]. destruct (p x); cbn [negb app].
  - constructor. exact IH.
  - etransitivity; [symmetry; apply Permutation_middle|]. constructor. exact IH.
Qed.
Lemma hull_faces h ss mark color lim fig : Forall distinct (h_valid h) -> Forall distinct (faces_of h ss) -> plot_hull h ss mark color lim = Ok fig ->
  Permutation (hf_valid fig ++ hf_invalid fig) (faces_of h ss) /\
  (mark = true -> (forall f, In f (hf_valid fig) -> exists g, In g (h_valid h) /\ same_vertices f g) /\ (forall f, In f (hf_invalid fig) -> ~ exists g, In g (h_valid h) /\ same_vertices f g)) /\
  (mark = false -> hf_valid fig = faces_of h ss).
Proof.
  intros DV DS E. unfold plot_hull in E. fold (faces_of h ss) in E. set (l := faces_of h ss) in *.
  assert (Q : exists vi, (if mark then match l with [] => Err IndexError | _ => Ok (filter (is_simplex_valid (h_valid h)) l, filter (fun f => negb (is_simplex_valid (h_valid h) f)) l) end else Ok (l, [])) = Ok vi /\ hf_valid fig = fst vi /\ hf_invalid fig = snd vi).
  { destruct (if mark then _ else _) as [vi|]; [|discriminate]. exists vi. split; [reflexivity|]. cbn [bind] in E. destruct (match color with Some _ => _ | None => _ end); [|discriminate]. cbn [bind] in E. destruct (match lim with Some _ => _ | None => _ end); [|discriminate]. cbn [bind] in E. injection E as <-. auto. }
  destruct Q as (vi & EV & -> & ->). destruct mark.
  - assert (V : vi = (filter (is_simplex_valid (h_valid h)) l, filter (fun f => negb (is_simplex_valid (h_valid h) f)) l)) by (destruct l; [discriminate|]; injection EV as <-; reflexivity).
    rewrite V. cbn [fst snd]. split; [apply filter_perm|]. split; [|discriminate]. intros _. split; intros f I; apply filter_In in I; destruct I as (I & B).
    + apply is_valid_spec in B; auto. apply (proj1 (Forall_forall _ _) DS f I).
    + intros X. apply is_valid_spec in X; auto; [|apply (proj1 (Forall_forall _ _) DS f I)]. rewrite X in B. discriminate.
  - injection EV as <-. cbn [fst snd]. rewrite app_nil_r. split; [reflexivity|]. split; [discriminate|reflexivity].
Qed.
(** the colours go with the right faces if no face is left out *)
Lemma hull_colors h ss mark c lim fig : plot_hull h ss mark (Some c) lim = Ok fig -> hf_valid fig = faces_of h ss -> hf_color fig = Some c.
Proof.
  intros E V. unfold plot_hull in E. fold (faces_of h ss) in E. set (l := faces_of h ss) in *. destruct (if mark then _ else _) as [vi|]; [|discriminate]. cbn [bind] in E.
  destruct (Nat.eqb_spec (length c) (length l)) as [Q|]; [|discriminate]. cbn [assert_ bind] in E. destruct (match lim with Some _ => _ | None => _ end); [|discriminate]. cbn [bind] in E. injection E as <-. cbn [hf_valid hf_color] in *. rewrite V, <- Q, firstn_all. reflexivity.
Qed.
Lemma hull_color_len h ss mark c lim : length c <> length (faces_of h ss) -> exists e, plot_hull h ss mark (Some c) lim = Err e.
Proof.
  intros N. unfold plot_hull. fold (faces_of h ss). destruct (if mark then _ else _) as [vi|e]; [|exists e; reflexivity]. cbn [bind]. apply Nat.eqb_neq in N. rewrite N. exists AssertionError. reflexivity.
Qed.
Lemma hull_lim h ss mark color fig p : plot_hull h ss mark color None = Ok fig -> In p (h_points h) ->
  Rabs (vx p) < hf_lim fig /\ Rabs (vy p) < hf_lim fig /\ Rabs (vz p) < hf_lim fig.
Proof.
  intros E I. unfold plot_hull in E. destruct (if mark then _ else _) as [vi|]; [|discriminate]. cbn [bind] in E. destruct (match color with Some _ => _ | None => _ end); [|discriminate]. cbn [bind] in E.
  destruct (np_max _) as [m|] eqn:M; [|discriminate]. cbn [bind] in E. injection E as <-. cbn [hf_lim]. apply np_max_spec in M. destruct M as (_ & M).
  pose proof (Rmax_l m 1). pose proof (Rmax_r m 1). assert (Q : forall x, In x [Rabs (vx p); Rabs (vy p); Rabs (vz p)] -> x < 11 / 10 * Rmax m 1).
  { intros x X. assert (x <= m) by (apply M; apply in_flat_map; exists p; auto). lra. }
  split; [|split]; apply Q; cbn; auto.
Qed.
Lemma aspect_ok x y z : let l := aspect_limits None x y z in
  (forall q, In q [x; y; z] -> fst l <= fst q /\ snd q <= snd l) /\ (exists q, In q [x; y; z] /\ fst l = fst q) /\ (exists q, In q [x; y; z] /\ snd l = snd q).
Proof.
  cbn zeta. unfold aspect_limits. cbn [fst snd In]. split; [|split].
  - intros q [<-|[<-|[<-|[]]]]; unfold Rmin, Rmax; repeat destruct (Rle_dec _ _); lra.
  - unfold Rmin. destruct (Rle_dec (fst x) (fst y)); destruct (Rle_dec _ (fst z)); eauto 6.
  - unfold Rmax. destruct (Rle_dec (snd x) (snd y)); destruct (Rle_dec _ (snd z)); eauto 6.
Qed.

(** ** balloons *)
Lemma sph_polar azi zen r : sph2cart azi zen r = scal3 r (sph2cart azi zen 1).
Proof. unfold sph2cart, scal3, vx, vy, vz. cbn [fst snd]. f_equal; [f_equal|]; ring. Qed.
Lemma check_pos full step : 0 <= full -> 0 < step -> check_count full step = Ok tt.
Proof.
  intros F S. unfold check_count. replace (Reqb step 0) with false by (symmetry; apply Reqb_false; lra).
  destruct (py_int_nonneg (full / step)) as (A & _); [apply Rmult_le_pos; [exact F|apply Rlt_le, Rinv_0_lt_compat, S]|]. destruct (Z.ltb_spec (py_int (full / step)) 0); [lia|reflexivity].
Qed.
Lemma steps_pos sa se : 0 < sa -> 0 < se -> check_steps sa se = Ok tt.
Proof. intros A B. unfold check_steps. rewrite check_pos by lra. cbn [bind]. apply check_pos; lra. Qed.
Lemma steps_zero sa se : check_steps 0 se = Err ZeroDivisionError /\ (0 < sa -> check_steps sa 0 = Err ZeroDivisionError).
Proof.
  assert (Z : forall f, check_count f 0 = Err ZeroDivisionError) by (intros f; unfold check_count; replace (Reqb 0 0) with true by (symmetry; apply Reqb_true; reflexivity); reflexivity).
  unfold check_steps. split; [rewrite Z; reflexivity|]. intros A. rewrite check_pos by lra. apply Z.
Qed.
Lemma count_neg full step : step < 0 -> - step <= full -> check_count full step = Err ValueError.
Proof.
  intros S F. unfold check_count. replace (Reqb step 0) with false by (symmetry; apply Reqb_false; lra). assert (Q : full / step <= -1).
  { assert (E : full / step * step = full) by (field; lra). apply Rnot_lt_le. intros H. nra. }
  unfold py_int. replace (Rleb 0 (full / step)) with false by (symmetry; apply Rleb_false; lra). destruct (base_Int_part (- (full / step))) as (A & B). assert (0 < Int_part (- (full / step)))%Z by (apply lt_IZR; lra).
  destruct (Z.ltb_spec (- Int_part (- (full / step))) 0); [reflexivity|lia].
Qed.
Lemma steps_negative sa se : (sa < 0 -> - sa <= 360 -> check_steps sa se = Err ValueError) /\ (0 < sa -> se < 0 -> - se <= 180 -> check_steps sa se = Err ValueError).
Proof. unfold check_steps. split; intros; [rewrite count_neg by assumption; reflexivity|]. rewrite check_pos by lra. apply count_neg; assumption. Qed.
Lemma whole_count full step k : 0 <= full -> 0 < step -> whole_steps full step k -> Z.to_nat (py_int (full / step)) = k.
Proof.
  intros F S [A B]. destruct (py_int_nonneg (full / step)) as (P & Q1 & Q2); [apply Rmult_le_pos; [exact F|apply Rlt_le, Rinv_0_lt_compat, S]|].
  assert (E : full / step * step = full) by (field; lra). assert (INR k <= full / step < INR k + 1) by (split; [apply Rmult_le_reg_r with step|apply Rmult_lt_reg_r with step]; lra).
  rewrite INR_IZR_INZ in H. assert (py_int (full / step) < Z.of_nat k + 1)%Z by (apply lt_IZR; rewrite plus_IZR; lra). assert (Z.of_nat k < py_int (full / step) + 1)%Z by (apply lt_IZR; rewrite plus_IZR; lra). lia.
Qed.
Lemma nth_lin a b k i : (i < k)%nat -> nth i (linspace a b k) 0 = a + INR i * ((b - a) / INR (k - 1)).
Proof. intros H. unfold linspace. rewrite nth_map_seq by exact H. reflexivity. Qed.
Lemma balloon_ok N a sa se : 0 < sa -> 0 < se -> length a = ((N + 1) ^ 2)%nat -> exists pts, sh_coeffs a sa se = Ok pts /\ length pts = length (balloon_grid sa se) /\
  forall i d, (i < length (balloon_grid sa se))%nat -> let '(azi, zen) := nth i (balloon_grid sa se) (0, 0) in
    let v := field_value sh_real N a azi zen in
    fst (nth i pts d) = scal3 (Rabs v) (sph2cart azi zen 1) /\ snd (nth i pts d) = if Rlt_dec v 0 then PI else 0.
Proof.
  intros SA SE La. unfold sh_coeffs. rewrite steps_pos by assumption. cbn [bind]. set (grid := balloon_grid sa se). destruct (inverse_sht_col a N (map fst grid) (map snd grid) La) as (f & Ef & Rf & Cf & Hf); [rewrite !map_length; reflexivity|].
  rewrite Ef. cbn [bind]. eexists. split; [reflexivity|]. rewrite map_length, combine_length, seq_length, Nat.min_id. split; [reflexivity|]. intros i d Hi.
  destruct (nth i grid (0, 0)) as [azi zen] eqn:G. rewrite (nth_map_in _ _ _ _ (0%nat, (0, 0))) by (rewrite combine_length, seq_length, Nat.min_id; exact Hi). rewrite combine_nth by apply seq_length. rewrite seq_nth by exact Hi. rewrite G. cbn [fst snd Nat.add].
  rewrite map_length in Hf. rewrite Hf by exact Hi. rewrite (nth_map_in _ _ _ _ (0, 0)) by exact Hi. rewrite (nth_map_in _ _ _ _ (0, 0)) by exact Hi. rewrite G. cbn [fst snd]. set (v := field_value sh_real N a azi zen).
  split; [apply sph_polar|]. unfold arctan2. destruct (Rlt_dec v 0) as [V|V].
  - replace (Rltb 0 v) with false by (symmetry; apply Rltb_false; lra). replace (Rltb v 0) with true by (symmetry; apply Rltb_true; lra). replace (Rleb 0 0) with true by (symmetry; apply Rleb_true; lra). rewrite Rdiv_0, atan_0. lra.
  - replace (Rltb v 0) with false by (symmetry; apply Rltb_false; lra). replace (Rltb 0 0) with false by (symmetry; apply Rltb_false; lra). destruct (Rltb 0 v); [rewrite Rdiv_0; apply atan_0|reflexivity].
Qed.
Lemma sf_ok f azi zen : length azi = length f -> length zen = length f -> f <> [] -> exists pts lo hi, spherical_function f azi zen = Ok (pts, f, (lo, hi)) /\
  length pts = length f /\ (forall i, (i < length f)%nat -> nth i pts (0, 0, 0) = scal3 (Rabs (nth i f 0)) (sph2cart (nth i azi 0) (nth i zen 0) 1) /\ lo <= nth i f 0 <= hi) /\
  lo <= 0 /\ 1 <= hi.
Proof.
  intros LA LZ NE. unfold spherical_function. rewrite LA, LZ, Nat.eqb_refl. cbn [andb]. destruct (np_max_ok f NE) as (mx & EX). rewrite EX. cbn [bind].
  destruct (np_max_ok (map Ropp f)) as (mn & EM); [destruct f; [congruence|discriminate]|]. rewrite EM. cbn [bind]. apply np_max_spec in EX, EM. destruct EX as (_ & EX), EM as (_ & EM).
  eexists _, _, _. split; [reflexivity|]. assert (LC : length (combine azi zen) = length f) by (rewrite combine_length; lia). split; [rewrite map_length, combine_length; lia|]. split; [|split; [apply Rmin_l|apply Rmax_l]].
  intros i Hi. split.
  - rewrite (nth_map_in _ _ _ _ (0, (0, 0))) by (rewrite combine_length; lia). rewrite combine_nth by lia. rewrite combine_nth by lia. cbn [fst snd]. apply sph_polar.
  - pose proof (nth_In f 0 Hi) as I. pose proof (EX _ I). pose proof (EM _ (in_map Ropp _ _ I)). pose proof (Rmin_r 0 (- mn)). pose proof (Rmax_r 1 mx). lra.
Qed.

(** ** bars *)
Lemma nth_flat_block {A B} (f : A -> list B) l g d e q r : (forall x, In x l -> length (f x) = g) -> (q < length l)%nat -> (r < g)%nat -> nth (q * g + r) (flat_map f l) e = nth r (f (nth q l d)) e.
Proof.
  revert q. induction l as [|x l IH]; intros q H Hq Hr; cbn [length] in Hq; [lia|]. cbn [flat_map]. pose proof (H x (or_introl eq_refl)) as Lx. destruct q as [|q].
  - cbn [Nat.mul Nat.add nth]. apply app_nth1. lia.
  - rewrite app_nth2 by (rewrite Lx; cbn; lia). rewrite Lx. replace (S q * g + r - g)%nat with (q * g + r)%nat by (cbn; lia). cbn [nth]. apply IH; [intros; apply H; right; assumption|lia|exact Hr].
Qed.
Lemma length_flat_block {A B} (f : A -> list B) l g : (forall x, In x l -> length (f x) = g) -> length (flat_map f l) = (length l * g)%nat.
Proof. induction l as [|x l IH]; intros H; [reflexivity|]. cbn [flat_map length]. rewrite app_length, IH by (intros; apply H; right; assumption). rewrite (H x (or_introl eq_refl)). cbn. lia. Qed.
Lemma balloon_points sa se na ne : 0 < sa -> 0 < se -> whole_steps 360 sa na -> whole_steps 180 se ne -> length (balloon_grid sa se) = (ne * na)%nat /\
  forall j i, (j < ne)%nat -> (i < na)%nat -> nth (j * na + i) (balloon_grid sa se) (0, 0) =
    (INR i * (2 * PI / INR (na - 1)), 1 / 10000000 + INR j * ((PI - 2 / 10000000) / INR (ne - 1))).
Proof.
  intros A B HA HE. unfold balloon_grid. rewrite (whole_count 360 sa na) by (lra || assumption). rewrite (whole_count 180 se ne) by (lra || assumption).
  assert (L : forall a b k, length (linspace a b k) = k) by (intros; unfold linspace; rewrite map_length, seq_length; reflexivity).
  split; [rewrite (length_flat_block _ _ na) by (intros; rewrite map_length; apply L); rewrite L; reflexivity|].
  intros j i Hj Hi. rewrite (nth_flat_block _ _ na 0) by (try (intros; rewrite map_length; apply L); rewrite ?L; assumption). rewrite (nth_map_in _ _ _ _ 0) by (rewrite L; exact Hi). rewrite !nth_lin by assumption. apply f_equal2; [rewrite Rminus_0_r, Rplus_0_l; reflexivity|]. replace (PI - 1 / 10000000 - 1 / 10000000) with (PI - 2 / 10000000) by lra. reflexivity.
Qed.
Lemma bar_ok x L g : x <> [] -> (0 < L)%nat -> (0 < g)%nat -> (forall r, In r x -> length r = L) -> exists cells ticks, sh_bar x g = Ok (cells, ticks) /\
  length ticks = (length x / g * g)%nat /\ (forall r, (r < length ticks)%nat -> nth r ticks 0 = bar_tick g r) /\
  length cells = (length ticks * L)%nat /\
  forall r l, (r < length ticks)%nat -> (l < L)%nat -> nth (r * L + l) cells (0, 0%nat, 0) = (bar_tick g r, l, nth l (nth r x []) 0).
Proof.
  intros NE HL HG HX. unfold sh_bar. assert (E : match x with r :: _ => length r | [] => 0%nat end = L) by (destruct x as [|r t]; [congruence|]; apply HX; left; reflexivity). rewrite E.
  replace (Nat.eqb L 0) with false by (symmetry; apply Nat.eqb_neq; lia). replace (Nat.eqb g 0) with false by (symmetry; apply Nat.eqb_neq; lia).
  set (ticks := flat_map _ (seq 0 (length x / g))). eexists _, ticks. split; [reflexivity|].
  assert (LB : forall i, In i (seq 0 (length x / g)) -> length (map (fun d => INR i + d) (linspace (- (1 / 4)) (1 / 4) g)) = g) by (intros; unfold linspace; rewrite !map_length, seq_length; reflexivity).
  assert (LT : length ticks = (length x / g * g)%nat) by (unfold ticks; rewrite (length_flat_block _ _ g LB), seq_length; reflexivity).
  assert (LE : (length ticks <= length x)%nat) by (rewrite LT, Nat.mul_comm; apply Nat.mul_div_le; lia).
  assert (NT : forall r, (r < length ticks)%nat -> nth r ticks 0 = bar_tick g r).
  { intros r Hr. pose proof (Nat.div_mod r g ltac:(lia)) as DM. pose proof (Nat.mod_upper_bound r g ltac:(lia)) as MB. rewrite LT in Hr. assert (QB : (r / g < length x / g)%nat) by (apply Nat.div_lt_upper_bound; [lia|rewrite Nat.mul_comm; exact Hr]).
    rewrite DM at 1. rewrite (Nat.mul_comm g). unfold ticks. rewrite (nth_flat_block _ _ g 0%nat) by (rewrite ?seq_length; assumption). rewrite seq_nth by exact QB. cbn [Nat.add].
    unfold linspace. rewrite map_map. rewrite nth_map_seq by exact MB. unfold bar_tick. destruct (Nat.eqb_spec g 1) as [->|G1].
    - replace (r mod 1)%nat with 0%nat by (symmetry; apply Nat.mod_1_r). cbn [INR]. lra.
    - field. apply not_0_INR. lia. }
  split; [exact LT|]. split; [exact NT|].
  assert (LC : forall q : R * list R, In q (combine ticks x) -> length (map (fun l => (fst q, l, nth l (snd q) 0)) (seq 0 L)) = L) by (intros; rewrite map_length, seq_length; reflexivity).
  split; [rewrite (length_flat_block _ _ L LC), combine_length, Nat.min_l by exact LE; reflexivity|]. intros r l Hr Hl. rewrite (nth_flat_block _ _ L (0, []) _ r l LC) by (assumption || (rewrite combine_length, Nat.min_l by exact LE; exact Hr)).
  rewrite nth_map_seq by exact Hl. rewrite <- NT by exact Hr.
  assert (CN : nth r (combine ticks x) (0, []) = (nth r ticks 0, nth r x [])).
  { clear -Hr LE. clearbody ticks. revert x r Hr LE. induction ticks as [|t ticks IH]; intros x r Hr LE; cbn [length] in *; [lia|]. destruct x as [|y x]; cbn [length] in LE; [lia|]. destruct r; cbn [combine nth]; [reflexivity|]. apply IH; lia. }
  rewrite CN. reflexivity.
Qed.
(** Steps that do not describe a grid: zero (int(360 / 0)) and negative ones (linspace with a negative count). *)
Lemma balloon_steps a sa se : sh_coeffs a 0 se = Err ZeroDivisionError /\ (0 < sa -> sh_coeffs a sa 0 = Err ZeroDivisionError) /\
  (sa < 0 -> - sa <= 360 -> sh_coeffs a sa se = Err ValueError) /\ (0 < sa -> se < 0 -> - se <= 180 -> sh_coeffs a sa se = Err ValueError).
Proof.
  destruct (steps_zero sa se) as (A & B). destruct (steps_negative sa se) as (C & D). unfold sh_coeffs. repeat split; intros.
  - rewrite A; reflexivity.
  - rewrite B by assumption; reflexivity.
  - rewrite C by assumption; reflexivity.
  - rewrite D by assumption; reflexivity.
Qed.
