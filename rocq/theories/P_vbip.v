(** Intensity panning on layouts around the listener: the gains depend continuously on the
    gains of amplitude panning. *)
From Coq Require Import Lra Lia Psatz Ranalysis.
From Verif Require Import Base BaseFacts M_decoder S_decoder S_plot S_retain P_dec1 P_dec2 P_dec3 P_plot3 P_retain P_retain2 P_cover4.
Open Scope R_scope.

(** * Continuity in the entries of a list *)
Definition near (d : R) (g g' : list R) : Prop := length g' = length g /\ forall j, Rabs (nth j g' 0 - nth j g 0) < d.
Definition contl (F : list R -> R) (g : list R) : Prop := forall e, 0 < e -> exists d, 0 < d /\ forall g', near d g g' -> Rabs (F g' - F g) < e.
Lemma near_le d d' g g' : d <= d' -> near d g g' -> near d' g g'.
Proof. intros H (A & B). split; [exact A|]. intros j. specialize (B j). lra. Qed.
Lemma near_tail d x g x' g' : near d (x :: g) (x' :: g') -> Rabs (x' - x) < d /\ near d g g'.
Proof. intros (L & H). split; [exact (H 0%nat)|]. split; [cbn in L; lia|]. intros j. exact (H (S j)). Qed.
Lemma contl_comp f F g : continuity_pt f (F g) -> contl F g -> contl (fun x => f (F x)) g.
Proof.
  intros C H e E. destruct (C e E) as (a & A & K). destruct (H a A) as (d & D & N). exists d. split; [exact D|]. intros t T.
  destruct (Req_dec (F t) (F g)) as [->|NE]; [rewrite Rminus_diag_eq, Rabs_R0 by reflexivity; exact E|].
  apply (K (F t)). split; [split; [exact I|auto]|]. cbn. unfold R_dist. now apply N.
Qed.
Lemma contl_nth j g : contl (fun x => nth j x 0) g.
Proof. intros e E. exists e. split; [exact E|]. intros t (_ & H). apply H. Qed.
Lemma contl_plus F G s : contl F s -> contl G s -> contl (fun t => F t + G t) s.
Proof.
  intros HF HG e E. destruct (HF (e / 2) ltac:(lra)) as (d1 & D1 & N1). destruct (HG (e / 2) ltac:(lra)) as (d2 & D2 & N2).
  exists (Rmin d1 d2). split; [now apply Rmin_glb_lt|]. intros t T.
  pose proof (N1 t (near_le _ _ _ _ (Rmin_l _ _) T)). pose proof (N2 t (near_le _ _ _ _ (Rmin_r _ _) T)).
  replace (F t + G t - (F s + G s)) with ((F t - F s) + (G t - G s)) by ring. pose proof (Rabs_triang (F t - F s) (G t - G s)). lra.
Qed.
Lemma contl_ext F G s : (forall t, F t = G t) -> contl F s -> contl G s.
Proof. intros E H e P. destruct (H e P) as (d & D & N). exists d. split; [exact D|]. intros t T. rewrite <- !E. now apply N. Qed.
Lemma contl_mult F G s : contl F s -> contl G s -> contl (fun t => F t * G t) s.
Proof.
  intros HF HG.
  apply (contl_ext (fun t => / 2 * ((F t + G t) * (F t + G t)) + (- / 2 * (F t * F t) + - / 2 * (G t * G t)))); [intro t; field|].
  assert (SQ : forall c H, contl H s -> contl (fun t => c * (H t * H t)) s) by (intros c H HH; apply (contl_comp (fun x => c * (x * x)) H s); [reg|exact HH]).
  apply contl_plus; [apply SQ, contl_plus; assumption|]. apply contl_plus; apply SQ; assumption.
Qed.
(** folding a list with a function that is continuous in both arguments *)
Lemma contl_fold (c : R -> R -> R) f z g : (forall x a, In x g -> forall e, 0 < e -> exists d, 0 < d /\ forall x' a', Rabs (x' - x) < d -> Rabs (a' - a) < d -> Rabs (c (f x') a' - c (f x) a) < e) ->
  contl (fun l => fold_right c z (map f l)) g.
Proof.
  intros H. induction g as [|x g IH]; intros e E.
  - exists 1. split; [lra|]. intros g' (L & _). destruct g'; [|discriminate]. cbn. rewrite Rminus_diag_eq, Rabs_R0 by reflexivity. exact E.
  - destruct (H x (fold_right c z (map f g)) (or_introl eq_refl) e E) as (d1 & D1 & N1).
    destruct (IH ltac:(intros; apply H; [right|]; assumption) d1 D1) as (d2 & D2 & N2).
    exists (Rmin d1 d2). split; [now apply Rmin_glb_lt|]. intros [|x' g'] T; [destruct T; discriminate|].
    apply near_tail in T. destruct T as (T1 & T2). cbn [map fold_right]. apply N1; [pose proof (Rmin_l d1 d2); lra|].
    apply N2. eapply near_le; [apply Rmin_r|exact T2].
Qed.
Lemma cont_step (f : R -> R) x e : continuity_pt f x -> 0 < e -> exists d, 0 < d /\ forall x', Rabs (x' - x) < d -> Rabs (f x' - f x) < e.
Proof.
  intros C E. destruct (C e E) as (a & A & K). exists a. split; [exact A|]. intros x' H.
  destruct (Req_dec x' x) as [->|N]; [rewrite Rminus_diag_eq, Rabs_R0 by reflexivity; exact E|]. apply (K x'). split; [split; [exact I|auto]|exact H].
Qed.
Lemma contl_sum f g : (forall x, continuity_pt f x) -> contl (fun l => lsum (map f l)) g.
Proof.
  intros C. unfold lsum. apply contl_fold. intros x a _ e E. destruct (cont_step f x (e / 2) (C x) ltac:(lra)) as (d & D & N).
  exists (Rmin d (e / 2)). split; [apply Rmin_glb_lt; lra|]. intros x' a' X A. pose proof (Rmin_l d (e / 2)). pose proof (Rmin_r d (e / 2)).
  specialize (N x' ltac:(lra)). replace (f x' + a' - (f x + a)) with ((f x' - f x) + (a' - a)) by ring. pose proof (Rabs_triang (f x' - f x) (a' - a)). lra.
Qed.
Lemma contl_max f g : (forall x, continuity_pt f x) -> contl (fun l => fold_right Rmax 0 (map f l)) g.
Proof.
  intros C. apply contl_fold. intros x a _ e E. destruct (cont_step f x e (C x) E) as (d & D & N).
  exists (Rmin d e). split; [apply Rmin_glb_lt; lra|]. intros x' a' X A. pose proof (Rmin_l d e). pose proof (Rmin_r d e).
  specialize (N x' ltac:(lra)). assert (Rabs (a' - a) < e) as A2 by lra. clear - N A2. apply Rabs_def2 in N. apply Rabs_def2 in A2. apply Rabs_def1;
    unfold Rmax; destruct (Rle_dec _ _), (Rle_dec _ _); lra.
Qed.

(** * The rows of vbip *)
Definition root (x : R) : R := sqrt (Rmax 0 x).
Lemma root_cont x : continuity_pt root x.
Proof.
  unfold root. apply (continuity_pt_comp (fun y => Rmax 0 y) sqrt).
  - intros e E. exists e. split; [exact E|]. intros y (_ & D). cbn in *. unfold R_dist in *. apply Rabs_def2 in D. apply Rabs_def1; unfold Rmax; destruct (Rle_dec 0 y), (Rle_dec 0 x); lra.
  - apply continuity_pt_sqrt. apply Rmax_l.
Qed.
Lemma clip_root g : map sqrt (map (fun x => if Rltb x 0 then 0 else x) g) = map root g.
Proof.
  rewrite map_map. apply map_ext. intros x. unfold root. f_equal. unfold Rltb. destruct (Rlt_dec x 0); [rewrite Rmax_left by lra|rewrite Rmax_right by lra]; reflexivity.
Qed.
Lemma norm_cont o g : norm_order o -> contl (fun l => vnorm o (map root l)) g.
Proof.
  intros NO. destruct o as [p|].
  - cbn [norm_order] in NO. assert (Q : 0 < 1 / p) by (apply Rdiv_lt_0_compat; lra).
    apply (contl_ext (fun l => abs_pow (1 / p) (lsum (map (fun x => abs_pow p (root x)) l)))).
    + intros l. rewrite vnorm_p by exact NO. rewrite map_map. rewrite <- (np_pow_abs (1 / p)) by exact Q. f_equal. apply Rabs_right, Rle_ge, lsum_nonneg.
      intros y Y. apply in_map_iff in Y. destruct Y as (x & <- & _). apply abs_pow_nonneg.
    + apply (contl_comp (abs_pow (1 / p)) (fun l => lsum (map (fun x => abs_pow p (root x)) l))); [apply cont_abs_pow; exact Q|].
      apply (contl_sum (fun x => abs_pow p (root x))). intros x. apply (continuity_pt_comp root (abs_pow p)); [apply root_cont|apply cont_abs_pow; exact NO].
  - cbn [vnorm]. apply (contl_ext (fun l => fold_right Rmax 0 (map (fun x => Rabs (root x)) l))); [intros l; rewrite map_map; reflexivity|].
    apply (contl_max (fun x => Rabs (root x))). intros x. apply (continuity_pt_comp root Rabs); [apply root_cont|apply Rcontinuity_abs].
Qed.
Lemma norm_pos o g : norm_order o -> (exists j, (j < length g)%nat /\ 0 < nth j g 0) -> 0 < vnorm o (map root g).
Proof.
  intros NO (j & J & P). destruct (Rle_lt_or_eq_dec _ _ (vnorm_nonneg o (map root g) NO)) as [L|E]; [exact L|]. exfalso. symmetry in E. pose proof (proj1 (vnorm_zero o (map root g) NO) E) as E0. clear E. rename E0 into E.
  assert (root (nth j g 0) = 0) as Z by (apply E, in_map, nth_In; exact J). unfold root in Z. rewrite Rmax_right in Z by lra. pose proof (sqrt_lt_R0 _ P). lra.
Qed.
Lemma vbip_value o g j : nth j (vbip_row o g) 0 = if Rlt_dec 0 (vnorm o (map root g)) then root (nth j g 0) * / vnorm o (map root g) else root (nth j g 0).
Proof.
  assert (R0 : root 0 = 0) by (unfold root; rewrite Rmax_left by lra; apply sqrt_0).
  assert (N0 : nth j (map root g) 0 = root (nth j g 0)) by (rewrite <- R0 at 1; apply map_nth).
  unfold vbip_row. rewrite clip_root. cbv zeta. unfold Rltb. destruct (Rlt_dec 0 (vnorm o (map root g))) as [L|L]; [|exact N0].
  set (n := vnorm o (map root g)) in *. rewrite <- N0. replace 0 with (0 / n) at 1 by (unfold Rdiv; ring). apply (map_nth (fun x => x / n)).
Qed.
Lemma every_near (P : nat -> R -> Prop) n : (forall j d d', d <= d' -> P j d' -> P j d) -> (forall j, (j < n)%nat -> exists d, 0 < d /\ P j d) -> exists d, 0 < d /\ forall j, (j < n)%nat -> P j d.
Proof.
  intros M H. induction n as [|n IH]; [exists 1; split; [lra|intros; lia]|]. destruct (IH ltac:(intros; apply H; lia)) as (d1 & D1 & N1). destruct (H n ltac:(lia)) as (d2 & D2 & N2).
  exists (Rmin d1 d2). split; [now apply Rmin_glb_lt|]. intros j J. destruct (Nat.eq_dec j n) as [->|E]; [apply (M n _ d2); [apply Rmin_r|exact N2]|apply (M j _ d1); [apply Rmin_l|apply N1; lia]].
Qed.
Lemma vbip_near o g e : norm_order o -> (exists j, (j < length g)%nat /\ 0 < nth j g 0) -> 0 < e ->
  exists d, 0 < d /\ forall g', near d g g' -> forall j, Rabs (nth j (vbip_row o g') 0 - nth j (vbip_row o g) 0) < e.
Proof.
  intros NO A E. pose proof (norm_pos o g NO A) as NP. set (N := fun l => vnorm o (map root l)) in *. change (vnorm o (map root g)) with (N g) in NP.
  destruct (norm_cont o g NO (N g) NP) as (d0 & D0 & H0). fold (N g) in H0.
  assert (C : forall j, contl (fun l => root (nth j l 0) * / N l) g).
  { intros j. apply contl_mult.
    - apply (contl_comp root (fun l => nth j l 0)); [apply root_cont|apply contl_nth].
    - apply (contl_comp Rinv N); [|apply norm_cont; exact NO]. apply continuity_pt_inv; [reg|lra]. }
  destruct (every_near (fun j d => forall g', near d g g' -> Rabs (root (nth j g' 0) * / N g' - root (nth j g 0) * / N g) < e) (length g)) as (d1 & D1 & H1).
  - intros j d d' L H g' Q. apply H. eapply near_le; [exact L|exact Q].
  - intros j J. destruct (C j e E) as (d & D & H). exists d. split; [exact D|exact H].
  - exists (Rmin d0 d1). split; [now apply Rmin_glb_lt|]. intros g' Q j. rewrite !vbip_value. fold (N g) (N g').
    assert (0 < N g') as NP'. { specialize (H0 g' (near_le _ _ _ _ (Rmin_l _ _) Q)). change (Rabs (N g' - N g) < N g) in H0. apply Rabs_def2 in H0. lra. }
    destruct (Rlt_dec 0 (N g)) as [_|]; [|contradiction]. destruct (Rlt_dec 0 (N g')) as [_|]; [|contradiction].
    destruct (Nat.lt_ge_cases j (length g)) as [J|J]; [apply H1; [exact J|eapply near_le; [apply Rmin_r|exact Q]]|].
    destruct Q as (LQ & _). rewrite !(nth_overflow) by lia. assert (R0 : root 0 = 0) by (unfold root; rewrite Rmax_left by lra; apply sqrt_0). rewrite R0, !Rmult_0_l, Rminus_diag_eq, Rabs_R0 by reflexivity. exact E.
Qed.
