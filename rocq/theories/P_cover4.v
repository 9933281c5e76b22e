(** Panning gains move continuously with the source. *)
From Coq Require Import Lra Lia Psatz Ranalysis Classical.
From Verif Require Import Base BaseFacts M_decoder S_decoder S_cover P_dec1 P_cover1 P_cover2.
Open Scope R_scope.

(** * Continuity in three variables *)
Definition near3 (s : V3) (d : R) (t : V3) : Prop := Rabs (vx t - vx s) < d /\ Rabs (vy t - vy s) < d /\ Rabs (vz t - vz s) < d.
Definition cont3 (F : V3 -> R) (s : V3) : Prop := forall e, 0 < e -> exists d, 0 < d /\ forall t, near3 s d t -> Rabs (F t - F s) < e.
Lemma near3_le s d d' t : d <= d' -> near3 s d t -> near3 s d' t.
Proof. unfold near3. intuition lra. Qed.
Lemma cont_comp f F s : continuity_pt f (F s) -> cont3 F s -> cont3 (fun t => f (F t)) s.
Proof.
  intros C H e E. destruct (C e E) as (a & A & K). destruct (H a A) as (d & D & N). exists d. split; [exact D|]. intros t T.
  destruct (Req_dec (F t) (F s)) as [->|NE]; [rewrite Rminus_diag_eq, Rabs_R0 by reflexivity; exact E|].
  apply (K (F t)). split; [split; [exact I|auto]|]. cbn. unfold R_dist. now apply N.
Qed.
Lemma cont_const c s : cont3 (fun _ => c) s.
Proof. intros e E. exists 1. split; [lra|]. intros t _. rewrite Rminus_diag_eq, Rabs_R0 by reflexivity. exact E. Qed.
Lemma cont_x s : cont3 (fun t => vx t) s.
Proof. intros e E. exists e. split; [exact E|]. intros t (H & _). exact H. Qed.
Lemma cont_y s : cont3 (fun t => vy t) s.
Proof. intros e E. exists e. split; [exact E|]. intros t (_ & H & _). exact H. Qed.
Lemma cont_z s : cont3 (fun t => vz t) s.
Proof. intros e E. exists e. split; [exact E|]. intros t (_ & _ & H). exact H. Qed.
Lemma cont_plus F G s : cont3 F s -> cont3 G s -> cont3 (fun t => F t + G t) s.
Proof.
  intros HF HG e E. destruct (HF (e / 2) ltac:(lra)) as (d1 & D1 & N1). destruct (HG (e / 2) ltac:(lra)) as (d2 & D2 & N2).
  exists (Rmin d1 d2). split; [now apply Rmin_glb_lt|]. intros t T.
  pose proof (N1 t (near3_le _ _ _ _ (Rmin_l _ _) T)). pose proof (N2 t (near3_le _ _ _ _ (Rmin_r _ _) T)).
  replace (F t + G t - (F s + G s)) with ((F t - F s) + (G t - G s)) by ring. pose proof (Rabs_triang (F t - F s) (G t - G s)). lra.
Qed.
Lemma cont_mult_const c F s : cont3 F s -> cont3 (fun t => c * F t) s.
Proof. intro H. apply (cont_comp (fun x => c * x) F s); [|exact H]. reg. Qed.
Lemma cont_ext F G s : (forall t, F t = G t) -> cont3 F s -> cont3 G s.
Proof. intros E H e P. destruct (H e P) as (d & D & N). exists d. split; [exact D|]. intros t T. rewrite <- !E. now apply N. Qed.
Lemma cont_mult F G s : cont3 F s -> cont3 G s -> cont3 (fun t => F t * G t) s.
Proof.
  intros HF HG.
  apply (cont_ext (fun t => / 2 * ((F t + G t) * (F t + G t)) + (- / 2 * (F t * F t) + - / 2 * (G t * G t)))); [intro t; field|].
  assert (SQ : forall H, cont3 H s -> cont3 (fun t => H t * H t) s) by (intros H HH; apply (cont_comp (fun x => x * x) H s); [reg|exact HH]).
  apply cont_plus; [apply cont_mult_const, SQ, cont_plus; assumption|]. apply cont_plus; apply cont_mult_const, SQ; assumption.
Qed.
Lemma cont_comp3 K (U : V3 -> V3) s : cont3 K (U s) -> cont3 (fun t => vx (U t)) s -> cont3 (fun t => vy (U t)) s -> cont3 (fun t => vz (U t)) s -> cont3 (fun t => K (U t)) s.
Proof.
  intros HK X Y Z e E. destruct (HK e E) as (d & D & N). destruct (X d D) as (d1 & D1 & N1). destruct (Y d D) as (d2 & D2 & N2). destruct (Z d D) as (d3 & D3 & N3).
  exists (Rmin d1 (Rmin d2 d3)). pose proof (Rmin_l d1 (Rmin d2 d3)). pose proof (Rmin_r d1 (Rmin d2 d3)). pose proof (Rmin_l d2 d3). pose proof (Rmin_r d2 d3).
  split; [repeat apply Rmin_glb_lt; assumption|]. intros t T. apply N. repeat split; [apply N1|apply N2|apply N3]; (eapply near3_le; [|exact T]); lra.
Qed.
Lemma cont_dot n s : cont3 (fun t => dot3 n t) s.
Proof. unfold dot3. apply cont_plus; [apply cont_plus|]; apply cont_mult_const; [apply cont_x|apply cont_y|apply cont_z]. Qed.

(** * Norms *)
Lemma cont_ln x : 0 < x -> continuity_pt ln x.
Proof. intro X. apply derivable_continuous_pt. exists (/ x). now apply derivable_pt_lim_ln. Qed.
Lemma cont_abs_pow p x : 0 < p -> continuity_pt (abs_pow p) x.
Proof.
  intros P. destruct (Req_dec x 0) as [->|X].
  - intros e E. exists (exp (ln e / p)). split; [apply exp_pos|]. cbn. unfold R_dist. intros y ((_ & N) & D). rewrite Rminus_0_r in D. rewrite abs_pow_0, Rminus_0_r. unfold abs_pow.
    destruct (Req_EM_T y 0) as [->|Y]; [rewrite Rabs_R0; exact E|]. rewrite Rabs_right by (left; apply exp_pos). rewrite <- (exp_ln e E) at 1. apply exp_increasing.
    apply (ln_increasing _ _ (Rabs_pos_lt y Y)) in D. rewrite ln_exp in D. apply Rmult_lt_compat_l with (r := p) in D; [|exact P]. replace (p * (ln e / p)) with (ln e) in D by (field; lra). exact D.
  - assert (C : continuity_pt (fun y => exp (p * ln (Rabs y))) x).
    { apply (continuity_pt_comp (fun y => p * ln (Rabs y)) exp); [|apply derivable_continuous_pt, derivable_pt_exp].
      apply (continuity_pt_comp (fun y => ln (Rabs y)) (fun z => p * z)); [|reg].
      apply (continuity_pt_comp Rabs ln); [apply Rcontinuity_abs|apply cont_ln, Rabs_pos_lt, X]. }
    intros e E. destruct (C e E) as (a & A & K). exists (Rmin a (Rabs x)). pose proof (Rabs_pos_lt x X). split; [now apply Rmin_glb_lt|].
    cbn. unfold R_dist. intros y (N & D). pose proof (Rmin_l a (Rabs x)). pose proof (Rmin_r a (Rabs x)).
    assert (Y : y <> 0) by (intros ->; rewrite Rminus_0_l, Rabs_Ropp in D; lra). unfold abs_pow. destruct (Req_EM_T y 0); [contradiction|]. destruct (Req_EM_T x 0); [contradiction|].
    apply (K y). split; [exact N|]. cbn. unfold R_dist. lra.
Qed.
Definition pow_sum (p : R) (u : V3) : R := abs_pow p (vx u) + abs_pow p (vy u) + abs_pow p (vz u).
Definition max_abs (u : V3) : R := Rmax (Rabs (vx u)) (Rmax (Rabs (vy u)) (Rabs (vz u))).
(** what makes the norm 1 *)
Definition scale_of (o : nord) (u : V3) : R := match o with POrd p => exp (- / p * ln (pow_sum p u)) | PInf => / max_abs u end.
Lemma abs_pow_ge p x : 0 <= abs_pow p x.
Proof. unfold abs_pow. destruct (Req_EM_T x 0); [lra|left; apply exp_pos]. Qed.
Lemma abs_pow_gt p x : x <> 0 -> 0 < abs_pow p x.
Proof. intro X. unfold abs_pow. destruct (Req_EM_T x 0); [contradiction|apply exp_pos]. Qed.
Lemma pow_sum_pos p (u : V3) : u <> (0, 0, 0) -> 0 < pow_sum p u.
Proof.
  intro N. unfold pow_sum. pose proof (abs_pow_ge p (vx u)). pose proof (abs_pow_ge p (vy u)). pose proof (abs_pow_ge p (vz u)).
  destruct u as [[x y] z]. unfold vx, vy, vz in *. cbn [fst snd] in *.
  destruct (Req_dec x 0) as [X|X]; [destruct (Req_dec y 0) as [Y|Y]; [destruct (Req_dec z 0) as [Z|Z]; [subst; contradiction|pose proof (abs_pow_gt p z Z)]|pose proof (abs_pow_gt p y Y)]|pose proof (abs_pow_gt p x X)]; lra.
Qed.
Lemma max_abs_pos (u : V3) : u <> (0, 0, 0) -> 0 < max_abs u.
Proof.
  intro N. unfold max_abs. destruct u as [[x y] z]. unfold vx, vy, vz. cbn [fst snd].
  pose proof (Rmax_l (Rabs x) (Rmax (Rabs y) (Rabs z))). pose proof (Rmax_r (Rabs x) (Rmax (Rabs y) (Rabs z))). pose proof (Rmax_l (Rabs y) (Rabs z)). pose proof (Rmax_r (Rabs y) (Rabs z)).
  destruct (Req_dec x 0) as [X|X]; [destruct (Req_dec y 0) as [Y|Y]; [destruct (Req_dec z 0) as [Z|Z]; [subst; contradiction|pose proof (Rabs_pos_lt z Z)]|pose proof (Rabs_pos_lt y Y)]|pose proof (Rabs_pos_lt x X)]; lra.
Qed.
Lemma scale_unique o u k : norm_order o -> u <> (0, 0, 0) -> 0 < k -> unit_norm o [vx (scal3 k u); vy (scal3 k u); vz (scal3 k u)] -> k = scale_of o u.
Proof.
  intros NO N K U. destruct o as [p|]; cbn [unit_norm scale_of map lsum] in *.
  - cbn in NO. assert (S : exp (p * ln k) * pow_sum p u = 1).
    { unfold pow_sum. rewrite !Rmult_plus_distr_l, <- !abs_pow_mul by exact K. unfold scal3, vx, vy, vz in *. cbn in *. lra. }
    pose proof (pow_sum_pos p u N) as P. apply (f_equal ln) in S. rewrite ln_mult, ln_exp, ln_1 in S by (auto using exp_pos).
    rewrite <- (exp_ln k K) at 1. f_equal. apply (Rmult_eq_reg_l p); [|lra]. replace (p * (- / p * ln (pow_sum p u))) with (- ln (pow_sum p u)) by (field; lra). lra.
  - pose proof (max_abs_pos u N) as P. destruct U as (M & x & Ix & X). cbn [In] in M, Ix. unfold scal3, vx, vy, vz in M, Ix. cbn [fst snd] in M, Ix. fold (vx u) (vy u) (vz u) in M, Ix.
    assert (A : forall c, Rabs (k * c) = k * Rabs c) by (intro c; rewrite Rabs_mult, (Rabs_right k) by lra; reflexivity).
    assert (B : k * max_abs u = 1).
    { apply Rle_antisym.
      - unfold max_abs. pose proof (M (k * vx u) ltac:(auto)) as M1. pose proof (M (k * vy u) ltac:(auto)) as M2. pose proof (M (k * vz u) ltac:(auto)) as M3'. rewrite A in M1, M2, M3'.
        unfold Rmax. repeat destruct Rle_dec; lra.
      - assert (G : forall c, Rabs c <= max_abs u -> Rabs (k * c) = 1 -> 1 <= k * max_abs u) by (intros c C E; rewrite A in E; nra). unfold max_abs in *.
        pose proof (Rmax_l (Rabs (vx u)) (Rmax (Rabs (vy u)) (Rabs (vz u)))). pose proof (Rmax_r (Rabs (vx u)) (Rmax (Rabs (vy u)) (Rabs (vz u)))). pose proof (Rmax_l (Rabs (vy u)) (Rabs (vz u))). pose proof (Rmax_r (Rabs (vy u)) (Rabs (vz u))).
        destruct Ix as [<-|[<-|[<-|[]]]]; [apply (G (vx u))|apply (G (vy u))|apply (G (vz u))]; try assumption; lra. }
    apply (Rmult_eq_reg_r (max_abs u)); [|lra]. rewrite B. field. lra.
Qed.
Lemma cont_max F G s : cont3 F s -> cont3 G s -> cont3 (fun t => Rmax (F t) (G t)) s.
Proof.
  intros HF HG. apply (cont_ext (fun t => / 2 * (F t + G t + Rabs (F t + -1 * G t)))).
  - intro t. unfold Rmax, Rabs. destruct Rle_dec; destruct Rcase_abs; lra.
  - apply cont_mult_const, cont_plus; [now apply cont_plus|]. apply (cont_comp Rabs (fun t => F t + -1 * G t)); [apply Rcontinuity_abs|]. apply cont_plus; [assumption|now apply cont_mult_const].
Qed.
Lemma cont_scale o (u : V3) : norm_order o -> u <> (0, 0, 0) -> cont3 (scale_of o) u.
Proof.
  intros NO N. destruct o as [p|]; cbn [scale_of]; unfold scale_of.
  - cbn in NO. apply (cont_comp (fun x => exp (- / p * ln x)) (pow_sum p)).
    + apply (continuity_pt_comp (fun x => - / p * ln x) exp); [|apply derivable_continuous_pt, derivable_pt_exp].
      apply (continuity_pt_comp ln (fun z => - / p * z)); [apply cont_ln; now apply pow_sum_pos|reg].
    + unfold pow_sum. apply cont_plus; [apply cont_plus|];
        [apply (cont_comp (abs_pow p) (fun t => vx t))|apply (cont_comp (abs_pow p) (fun t => vy t))|apply (cont_comp (abs_pow p) (fun t => vz t))]; auto using cont_abs_pow, cont_x, cont_y, cont_z.
  - apply (cont_comp (fun x => / x) max_abs).
    + apply (continuity_pt_inv (fun x => x)); [reg|]. pose proof (max_abs_pos u N). lra.
    + unfold max_abs. assert (AB : forall F, cont3 F u -> cont3 (fun t => Rabs (F t)) u) by (intros F H; apply (cont_comp Rabs F); [apply Rcontinuity_abs|exact H]).
      apply cont_max; [apply AB, cont_x|]. apply cont_max; [apply AB, cont_y|apply AB, cont_z].
Qed.

(** * The gains of one face *)
Section Face.
Variable ps : list V3.
Notation pt i := (@nth V3 i ps (0, 0, 0)).
Definition raw_gains (f : face) (t : V3) : V3 :=
  let '(a, b, c) := f in let D := tdet (pt a) (pt b) (pt c) in
  (/ D * dot3 (cross3 (pt b) (pt c)) t, / D * dot3 (cross3 (pt c) (pt a)) t, / D * dot3 (cross3 (pt a) (pt b)) t).
Definition unit_gains (o : nord) (f : face) (t : V3) : V3 := scal3 (scale_of o (raw_gains f t)) (raw_gains f t).
Lemma raw_id f t g : independent ps f -> combines ps f g t -> g = raw_gains f t.
Proof.
  destruct f as [[a b] c]. unfold independent, combines, raw_gains. change (dot3 (pt a) (cross3 (pt b) (pt c))) with (tdet (pt a) (pt b) (pt c)).
  generalize (pt a) (pt b) (pt c). intros A B C D ->. destruct g as [[x y] z]. change (vx (x, y, z)) with x. change (vy (x, y, z)) with y. change (vz (x, y, z)) with z.
  apply v3_eq; (apply (Rmult_eq_reg_l (tdet A B C)); [|exact D]); rewrite <- Rmult_assoc, Rinv_r, Rmult_1_l by exact D; clear D; v3; ring.
Qed.
Lemma raw_nz f (t : V3) : independent ps f -> t <> (0, 0, 0) -> raw_gains f t <> (0, 0, 0).
Proof.
  destruct f as [[a b] c]. unfold independent, raw_gains. change (dot3 (pt a) (cross3 (pt b) (pt c))) with (tdet (pt a) (pt b) (pt c)). 
  generalize (pt a) (pt b) (pt c). intros A B C D T E. apply T. rewrite (cramer A B C t D).
  injection E as E1 E2 E3. assert (ID : / tdet A B C <> 0) by now apply Rinv_neq_0_compat.
  apply Rmult_integral in E1, E2, E3. destruct E1 as [E1|E1]; [contradiction|]. destruct E2 as [E2|E2]; [contradiction|]. destruct E3 as [E3|E3]; [contradiction|].
  replace (tdet t B C) with (dot3 (cross3 B C) t) by (clear; v3; ring). replace (tdet A t C) with (dot3 (cross3 C A) t) by (clear; v3; ring). replace (tdet A B t) with (dot3 (cross3 A B) t) by (clear; v3; ring).
  rewrite E1, E2, E3. unfold Rdiv. rewrite Rmult_0_l. clear. v3. apply v3_eq; ring.
Qed.
Lemma raw_scal f k t : raw_gains f (scal3 k t) = scal3 k (raw_gains f t).
Proof. destruct f as [[a b] c]. unfold raw_gains. generalize (pt a) (pt b) (pt c). intros A B C. generalize (/ tdet A B C). intro q. v3. apply v3_eq; ring. Qed.
Lemma cont_raw f s : cont3 (fun t => vx (raw_gains f t)) s /\ cont3 (fun t => vy (raw_gains f t)) s /\ cont3 (fun t => vz (raw_gains f t)) s.
Proof. destruct f as [[a b] c]. unfold raw_gains, vx, vy, vz. cbn [fst snd]. repeat split; apply cont_mult_const, cont_dot. Qed.
Lemma cont_unit o f (s : V3) : norm_order o -> independent ps f -> s <> (0, 0, 0) ->
  cont3 (fun t => vx (unit_gains o f t)) s /\ cont3 (fun t => vy (unit_gains o f t)) s /\ cont3 (fun t => vz (unit_gains o f t)) s.
Proof.
  intros NO IN N. destruct (cont_raw f s) as (X & Y & Z).
  assert (K : cont3 (fun t => scale_of o (raw_gains f t)) s) by (apply cont_comp3; auto; apply cont_scale; [exact NO|now apply raw_nz]).
  unfold unit_gains. repeat split; [apply (cont_ext (fun t => scale_of o (raw_gains f t) * vx (raw_gains f t)))|apply (cont_ext (fun t => scale_of o (raw_gains f t) * vy (raw_gains f t)))|apply (cont_ext (fun t => scale_of o (raw_gains f t) * vz (raw_gains f t)))];
    try (intro t; reflexivity); apply cont_mult; assumption.
Qed.
Lemma pans_id o f (t : V3) g : norm_order o -> independent ps f -> t <> (0, 0, 0) -> pans o ps f t g -> g = unit_gains o f t /\ exists k, 0 < k /\ g = scal3 k (raw_gains f t).
Proof.
  intros NO IN N (U & _ & k & K & C). apply (raw_id f _ _ IN) in C. rewrite raw_scal in C. split; [|exists k; auto].
  subst g. unfold unit_gains. f_equal. apply scale_unique; auto. now apply raw_nz.
Qed.
End Face.

(** * The rows *)
(** two faces that pan a source without negative gains give the same gains *)
Lemma pans_same o ps vs f f' src g g' : norm_order o -> Forall (in_range (length ps)) vs -> Forall (independent ps) vs -> encloses ps vs -> In f vs -> In f' vs ->
  pans o ps f src g -> pans o ps f' src g' -> 0 <= vx g /\ 0 <= vy g /\ 0 <= vz g -> 0 <= vx g' /\ 0 <= vy g' /\ 0 <= vz g' -> forall j, on_face f g j = on_face f' g' j.
Proof.
  intros NO IR IN EN If If' (U & _ & k & K & C) (U' & _ & k' & K' & C') (G1 & G2 & G3) (G1' & G2' & G3') j.
  assert (DI : forall f, In f vs -> in_range (length ps) f /\ distinct f).
  { intros x Hx. rewrite Forall_forall in IR, IN. split; [now apply IR|]. pose proof (IN x Hx) as I. destruct x as [[a b] c]. apply (indep_distinct ps), I. }
  destruct (DI f If) as (Rf & Df). destruct (DI f' If') as (Rf' & Df').
  assert (IK : 0 < / k) by now apply Rinv_0_lt_compat. assert (IK' : 0 < / k') by now apply Rinv_0_lt_compat.
  apply (combines_scal _ _ (/ k)) in C. apply (combines_scal _ _ (/ k')) in C'.
  assert (SS : forall q (w : V3), q <> 0 -> scal3 (/ q) (scal3 q w) = w) by (intros q [[w1 w2] w3] Q; v3; apply v3_eq; field; exact Q).
  rewrite SS in C, C' by lra.
  assert (GS : forall jj, on_face f (scal3 (/ k) g) jj = on_face f' (scal3 (/ k') g') jj).
  { apply (gains_same ps vs f f' _ _ src IN EN If If'); try assumption; unfold scal3, vx, vy, vz; cbn [fst snd]; apply Rmult_le_pos; try assumption; lra. }
  assert (OF : forall jj, on_face f g jj = (k / k') * on_face f' g' jj).
  { intro jj. pose proof (GS jj) as X. rewrite !on_face_scal in X. replace (k / k' * on_face f' g' jj) with (k * (/ k' * on_face f' g' jj)) by (field; lra). rewrite <- X. field. lra. }
  assert (R1 : k / k' = 1) by (apply (unit_ratio o (length ps) f f' g g'); try assumption; now apply Rdiv_lt_0_compat).
  rewrite OF, R1. ring.
Qed.
Lemma nonneg_scal k (u : V3) : 0 < k -> 0 <= vx (scal3 k u) /\ 0 <= vy (scal3 k u) /\ 0 <= vz (scal3 k u) -> 0 <= vx u /\ 0 <= vy u /\ 0 <= vz u.
Proof. intros K (X & Y & Z). unfold scal3, vx, vy, vz in *. cbn [fst snd] in *. repeat split; apply (Rmult_le_reg_l k); lra. Qed.
Lemma cont_neg F s : cont3 F s -> F s < 0 -> exists d, 0 < d /\ forall t, near3 s d t -> F t < 0.
Proof. intros C N. destruct (C (- F s) ltac:(lra)) as (d & D & H). exists d. split; [exact D|]. intros t T. specialize (H t T). apply Rabs_def2 in H. lra. Qed.
(** near [s], a face that pans without negative gains also pans [s] so, with gains close by *)
Lemma face_near o ps f (s : V3) e : norm_order o -> independent ps f -> s <> (0, 0, 0) -> 0 < e -> exists d, 0 < d /\
  forall (t : V3) g, t <> (0, 0, 0) -> near3 s d t -> pans o ps f t g -> 0 <= vx g /\ 0 <= vy g /\ 0 <= vz g ->
  exists g', pans o ps f s g' /\ (0 <= vx g' /\ 0 <= vy g' /\ 0 <= vz g') /\ near3 g' e g.
Proof.
  intros NO IN N E. set (u := raw_gains ps f s).
  destruct (classic (0 <= vx u /\ 0 <= vy u /\ 0 <= vz u)) as [NN|NN].
  - assert (CS : combines ps f u s).
    { unfold u. destruct f as [[a b] c]. unfold combines, raw_gains. unfold independent in IN. change (dot3 (nth a ps (0,0,0)) (cross3 (nth b ps (0,0,0)) (nth c ps (0,0,0)))) with (tdet (nth a ps (0,0,0)) (nth b ps (0,0,0)) (nth c ps (0,0,0))) in IN.
      revert IN. generalize (@nth V3 a ps (0,0,0)) (@nth V3 b ps (0,0,0)) (@nth V3 c ps (0,0,0)). intros A B C D. rewrite (cramer A B C s D) at 1. unfold comb, Rdiv.
      replace (tdet s B C) with (dot3 (cross3 B C) s) by (clear; v3; ring). replace (tdet A s C) with (dot3 (cross3 C A) s) by (clear; v3; ring). replace (tdet A B s) with (dot3 (cross3 A B) s) by (clear; v3; ring).
      generalize (/ tdet A B C). intro q. clear. v3. apply v3_eq; ring. }
    destruct (cone_pans o NO ps f s IN) as (g' & P'); [split; [exact N|]; exists u; tauto|].
    destruct (pans_id ps o f s g' NO IN N P') as (E' & k & K & Eg).
    assert (NN' : 0 <= vx g' /\ 0 <= vy g' /\ 0 <= vz g').
    { rewrite Eg. fold u. unfold scal3, vx, vy, vz in *. cbn [fst snd] in *. destruct NN as (N1 & N2 & N3). repeat split; apply Rmult_le_pos; lra. }
    destruct (cont_unit ps o f s NO IN N) as (X & Y & Z). destruct (X e E) as (d1 & D1 & H1). destruct (Y e E) as (d2 & D2 & H2). destruct (Z e E) as (d3 & D3 & H3).
    exists (Rmin d1 (Rmin d2 d3)). pose proof (Rmin_l d1 (Rmin d2 d3)). pose proof (Rmin_r d1 (Rmin d2 d3)). pose proof (Rmin_l d2 d3). pose proof (Rmin_r d2 d3).
    split; [repeat apply Rmin_glb_lt; assumption|]. intros t g Nt T P _. exists g'. split; [exact P'|]. split; [exact NN'|].
    destruct (pans_id ps o f t g NO IN Nt P) as (-> & _). rewrite E'. repeat split; [apply H1|apply H2|apply H3]; (eapply near3_le; [|exact T]); lra.
  - destruct (cont_raw ps f s) as (X & Y & Z).
    assert (D : exists d, 0 < d /\ forall t, near3 s d t -> vx (raw_gains ps f t) < 0 \/ vy (raw_gains ps f t) < 0 \/ vz (raw_gains ps f t) < 0).
    { destruct (Rlt_dec (vx u) 0) as [L|L1]; [destruct (cont_neg _ s X L) as (d & D & H); exists d; auto|].
      destruct (Rlt_dec (vy u) 0) as [L|L2]; [destruct (cont_neg _ s Y L) as (d & D & H); exists d; auto|].
      destruct (Rlt_dec (vz u) 0) as [L|L3]; [destruct (cont_neg _ s Z L) as (d & D & H); exists d; auto|]. exfalso. apply NN. lra. }
    destruct D as (d & D & H). exists d. split; [exact D|]. intros t g Nt T P G. exfalso. destruct (pans_id ps o f t g NO IN Nt P) as (_ & k & K & ->).
    apply (nonneg_scal k _ K) in G. destruct G as (G1 & G2 & G3). destruct (H t T) as [L|[L|L]]; lra.
Qed.
Lemma faces_near o ps vs (s : V3) e : norm_order o -> Forall (independent ps) vs -> s <> (0, 0, 0) -> 0 < e -> exists d, 0 < d /\
  forall f (t : V3) g, In f vs -> t <> (0, 0, 0) -> near3 s d t -> pans o ps f t g -> 0 <= vx g /\ 0 <= vy g /\ 0 <= vz g ->
  exists g', pans o ps f s g' /\ (0 <= vx g' /\ 0 <= vy g' /\ 0 <= vz g') /\ near3 g' e g.
Proof.
  intros NO IN N E. induction IN as [|f vs If IN IH]; [exists 1; split; [lra|]; intros f t g []|].
  destruct IH as (d1 & D1 & H1). destruct (face_near o ps f s e NO If N E) as (d2 & D2 & H2). exists (Rmin d1 d2). split; [now apply Rmin_glb_lt|].
  intros f' t g [<-|Hf] Nt T P G; [apply (H2 t g); auto; eapply near3_le; [apply Rmin_r|exact T]|apply (H1 f' t g); auto; eapply near3_le; [apply Rmin_l|exact T]].
Qed.
Lemma on_face_near f g g' e j : distinct f -> 0 < e -> near3 g' e g -> Rabs (on_face f g j - on_face f g' j) < e.
Proof.
  destruct f as [[a b] c]. intros (n1 & n2 & n3) E (X & Y & Z). destruct (on_face_vals a b c g n1 n2 n3) as (Ea & Eb & Ec). destruct (on_face_vals a b c g' n1 n2 n3) as (Ea' & Eb' & Ec').
  destruct (Nat.eq_dec j a) as [->|ja]; [now rewrite Ea, Ea'|]. destruct (Nat.eq_dec j b) as [->|jb]; [now rewrite Eb, Eb'|]. destruct (Nat.eq_dec j c) as [->|jc]; [now rewrite Ec, Ec'|].
  rewrite !on_face_off by assumption. rewrite Rminus_diag_eq, Rabs_R0 by reflexivity. exact E.
Qed.
Lemma near_norm (s t : V3) d : norm3 (sub3 t s) < d -> near3 s d t.
Proof.
  intro H. assert (A : forall w : V3, Rabs (vx w) <= norm3 w /\ Rabs (vy w) <= norm3 w /\ Rabs (vz w) <= norm3 w).
  { intros [[x y] z]. unfold norm3, dot3, vx, vy, vz. cbn [fst snd]. rewrite <- !sqrt_Rsqr_abs. unfold Rsqr. repeat split; apply sqrt_le_1_alt; nra. }
  destruct (A (sub3 t s)) as (X & Y & Z). repeat split; (eapply Rle_lt_trans; [|exact H]); [exact X|exact Y|exact Z].
Qed.
Lemma largest (l : list R) : exists m, 0 < m /\ forall x, In x l -> x <= m.
Proof.
  induction l as [|a l (m & M & H)]; [exists 1; split; [lra|]; intros x []|]. exists (Rmax a m). pose proof (Rmax_l a m). pose proof (Rmax_r a m).
  split; [lra|]. intros x [<-|Hx]; [assumption|]. specialize (H x Hx). lra.
Qed.
Lemma rows_near o h vs (src : V3) e : norm_order o -> Forall (in_range (length (h_points h))) vs -> Forall (independent (h_points h)) vs ->
  hull_wf h -> (forall d, In d (h_d h) -> 0 < d) -> encloses (h_points h) vs -> vs <> [] -> goes_on (h_points h) vs -> src <> (0, 0, 0) -> 0 < e ->
  exists d, 0 < d /\ forall (src' : V3) row row', norm3 (sub3 src' src) < d -> panning_row o h vs src row -> panning_row o h vs src' row' ->
    (forall x, In x row -> 0 <= x) -> (forall x, In x row' -> 0 <= x) -> forall j, Rabs (nth j row' 0 - nth j row 0) < e.
Proof.
  intros NO IR IN WF DP EN NE GO NZ E.
  set (D := fun j => dist_gain (nth j (h_d h) 0) (h_a h)).
  assert (DG : forall j, (j < length (h_points h))%nat -> 0 < D j) by (intros j Hj; apply dist_gain_pos, DP, nth_In; rewrite WF; exact Hj).
  destruct (largest (map D (seq 0 (length (h_points h))))) as (m & M & HM).
  assert (HM' : forall j, (j < length (h_points h))%nat -> D j <= m) by (intros j Hj; apply HM, in_map, in_seq; lia). clear HM.
  destruct (faces_near o (h_points h) vs src (e / m) NO IN NZ) as (d & D0 & H); [now apply Rdiv_lt_0_compat|].
  exists (Rmin d (norm3 src)).
  assert (NS : 0 < norm3 src). { unfold norm3. apply sqrt_lt_R0. destruct src as [[x y] z]. unfold dot3, vx, vy, vz. cbn [fst snd]. destruct (Req_dec x 0) as [->|]; [destruct (Req_dec y 0) as [->|]; [destruct (Req_dec z 0) as [->|]; [contradiction|]|]|]; nra. }
  split; [now apply Rmin_glb_lt|]. intros src' row row' DS (L1 & H1) (L2 & H2) P1 P2 j.
  assert (NZ' : src' <> (0, 0, 0)).
  { intros ->. pose proof (Rmin_r d (norm3 src)) as MR. assert (X : norm3 (sub3 (0, 0, 0) src) = norm3 src) by (clear; unfold norm3; f_equal; v3; ring). lra. }
  assert (T : near3 src d src') by (apply near_norm; pose proof (Rmin_l d (norm3 src)); lra). clear DS.
  destruct (lt_dec j (length (h_points h))) as [Hj|Hj]; [|rewrite !nth_overflow by lia; rewrite Rminus_diag_eq, Rabs_R0 by reflexivity; exact E].
  assert (Q1 : forall i, (i < length (h_points h))%nat -> 0 <= nth i row 0) by (intros i Hi; apply P1, nth_In; lia).
  assert (Q2 : forall i, (i < length (h_points h))%nat -> 0 <= nth i row' 0) by (intros i Hi; apply P2, nth_In; lia).
  assert (CO : forall v : V3, v <> (0, 0, 0) -> exists f g, In f vs /\ pans o (h_points h) f v g).
  { intros v Nv. destruct (around (h_points h) vs v NE IN GO Nv) as (f & If & C). destruct (cone_pans o NO (h_points h) f v (proj1 (Forall_forall _ _) IN f If) C) as (g & G). exists f, g. auto. }
  assert (DI : forall f, In f vs -> in_range (length (h_points h)) f /\ distinct f).
  { intros x Hx. rewrite Forall_forall in IR, IN. split; [now apply IR|]. pose proof (IN x Hx) as I. destruct x as [[a b] c]. apply (indep_distinct (h_points h)), I. }
  destruct H1 as [(i & g & Hi & Pg & _ & E1)|(N1 & _)]; [|exfalso; destruct (CO src NZ) as (f & g & If & Pf); exact (N1 f g If Pf)].
  destruct H2 as [(i' & g' & Hi' & Pg' & _ & E2)|(N2 & _)]; [|exfalso; destruct (CO src' NZ') as (f & g' & If & Pf); exact (N2 f g' If Pf)].
  set (f := nth i vs (0,0,0)%nat) in *. set (f' := nth i' vs (0,0,0)%nat) in *.
  assert (If : In f vs) by (apply nth_In; exact Hi). assert (If' : In f' vs) by (apply nth_In; exact Hi').
  destruct (DI f If) as (Rf & Df). destruct (DI f' If') as (Rf' & Df').
  pose proof (vertex_gains f _ h row g Rf Df DG Q1 E1) as G. pose proof (vertex_gains f' _ h row' g' Rf' Df' DG Q2 E2) as G'.
  destruct (H f' src' g' If' NZ' T Pg' G') as (g2 & Pg2 & G2 & NR).
  pose proof (pans_same o (h_points h) vs f f' src g g2 NO IR IN EN If If' Pg Pg2 G G2 j) as SE.
  rewrite E1, E2 by exact Hj. fold (D j). rewrite SE. replace (D j * on_face f' g' j - D j * on_face f' g2 j) with (D j * (on_face f' g' j - on_face f' g2 j)) by ring.
  rewrite Rabs_mult, (Rabs_right (D j)) by (left; now apply DG).
  pose proof (on_face_near f' g' g2 (e / m) j Df' ltac:(now apply Rdiv_lt_0_compat) NR) as B. pose proof (HM' j Hj) as HB. pose proof (DG j Hj) as DJ. pose proof (Rabs_pos (on_face f' g' j - on_face f' g2 j)) as AP.
  apply Rle_lt_trans with (m * Rabs (on_face f' g' j - on_face f' g2 j)); [apply Rmult_le_compat_r; lra|].
  apply Rlt_le_trans with (m * (e / m)); [apply Rmult_lt_compat_l; assumption|]. right. field. lra.
Qed.
