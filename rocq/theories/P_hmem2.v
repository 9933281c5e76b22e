(** Sets of HRIRs in memory: what programs keep. *)
From Coq Require Import Lra Lia.
From Verif Require Import Base BaseFacts M_utils M_sig M_process M_parsa2 M_process2 M_misc M_hmem S_hmem P_sig P_dec11 P_dec13 P_parsa8 P_hmem1.
Open Scope R_scope.

Lemma mat_put m a x x' b V S : nth_error (mats m) a = Some x -> mat_at (HMem (upd (mats m) a x') V S) b = if Nat.eqb b a then x' else mat_at m b.
Proof.
  intros E. pose proof (some_lt _ _ _ E) as L. unfold mat_at. cbn [mats]. destruct (Nat.eqb_spec b a) as [->|N]; [apply nth_upd_same, L|apply nth_upd_other; congruence].
Qed.
Lemma vec_put m a x x' b M S : nth_error (vecs m) a = Some x -> vec_at (HMem M (upd (vecs m) a x') S) b = if Nat.eqb b a then x' else vec_at m b.
Proof.
  intros E. pose proof (some_lt _ _ _ E) as L. unfold vec_at. cbn [vecs]. destruct (Nat.eqb_spec b a) as [->|N]; [apply nth_upd_same, L|apply nth_upd_other; congruence].
Qed.
Lemma okset_sets M V S S' s : okset (HMem M V S) s -> okset (HMem M V S') s.
Proof. exact (fun H => H). Qed.
Lemma Forall_upd {A} (P : A -> Prop) l i a : Forall P l -> P a -> Forall P (upd l i a).
Proof. intros H B. revert i. induction H as [|x l X H IH]; intros [|i]; cbn [upd]; constructor; auto. Qed.
Lemma okmem_step m c : okmem m -> okmem (snd (hstep c m)).
Proof.
  intros OK. pose proof (step_eff m c OK) as F. destruct OK as (OM & OS). destruct F as [xm xv W|a x x' _ E R C W|a x x' _ E L|xm xv s _ W K _ _ _|xm xv o s _ W _ K _ _ _]; split; cbn [mats ext].
  - apply Forall_app; split; assumption.
  - cbn [sets ext]. apply (Forall_impl _ (fun s => okset_ext m xm xv s)), OS.
  - apply Forall_upd; [exact OM|]. apply W. rewrite Forall_forall in OM. apply OM, (nth_error_In _ _ E).
  - cbn [sets]. apply (Forall_impl _ (P := okset m)); [|exact OS]. intros s (A & B & C' & D & E1 & E2 & E3 & E4). unfold okset. rewrite !(mat_put m a x x' _ _ _ E). cbn [mats]. rewrite length_upd.
    assert (Q : forall b, length (rows (if Nat.eqb b a then x' else mat_at m b)) = length (rows (mat_at m b))). { intros b. destruct (Nat.eqb_spec b a) as [->|]; [|reflexivity]. rewrite R. unfold mat_at. rewrite (some_nth _ _ _ _ E). reflexivity. }
    rewrite !Q. repeat split; assumption.
  - exact OM.
  - cbn [sets]. apply (Forall_impl _ (P := okset m)); [|exact OS]. intros s (A & B & C' & D & E1 & E2 & E3 & E4). unfold okset. rewrite !(vec_put m a x x' _ _ _ E). cbn [vecs]. rewrite length_upd.
    assert (Q : forall b, length (if Nat.eqb b a then x' else vec_at m b) = length (vec_at m b)). { intros b. destruct (Nat.eqb_spec b a) as [->|]; [|reflexivity]. rewrite L. unfold vec_at. rewrite (some_nth _ _ _ _ E). reflexivity. }
    rewrite !Q. repeat split; assumption.
  - apply Forall_app; split; assumption.
  - cbn [sets]. apply Forall_app. split; [apply (Forall_impl _ (fun s => okset_ext m xm xv s)), OS|constructor; [exact K|constructor]].
  - apply Forall_app; split; assumption.
  - cbn [sets]. apply Forall_upd; [apply (Forall_impl _ (fun s => okset_ext m xm xv s)), OS|exact K].
Qed.
Lemma okmem_run cs : forall m, okmem m -> okmem (hrun m cs).
Proof. induction cs as [|c cs IH]; intros m OK; [exact OK|]. cbn [hrun fold_left]. apply IH, okmem_step, OK. Qed.
Lemma okmem_reached m : reached m -> okmem m.
Proof. intros (cs & ->). apply okmem_run. split; constructor. Qed.
Lemma reached_step m c : reached m -> reached (snd (hstep c m)).
Proof. intros (cs & ->). exists (cs ++ [c]). unfold hrun. rewrite fold_left_app. reflexivity. Qed.
Lemma reached_run m cs : reached m -> reached (hrun m cs).
Proof. intros (ds & ->). exists (ds ++ cs). unfold hrun. rewrite fold_left_app. reflexivity. Qed.

(** ** Frame *)
Lemma content_eq m m' o s : nth_error (sets m) o = Some s -> nth_error (sets m') o = Some s -> mat_at m' (s_left s) = mat_at m (s_left s) -> mat_at m' (s_right s) = mat_at m (s_right s) ->
  vec_at m' (s_azi s) = vec_at m (s_azi s) -> vec_at m' (s_zen s) = vec_at m (s_zen s) -> content m' o = content m o.
Proof. intros E E' A B C D. unfold content. rewrite E, E', A, B, C, D. reflexivity. Qed.
Lemma frame_step m c o s : okmem m -> nth_error (sets m) o = Some s -> spares m c o -> nth_error (sets (snd (hstep c m))) o = Some s /\ content (snd (hstep c m)) o = content m o.
Proof.
  intros OK E SP. destruct (okmem_at m o s OK E) as (L1 & L2 & L3 & L4 & _). pose proof (some_lt _ _ _ E) as LO.
  assert (X : forall xm xv S, nth_error S o = Some s -> nth_error (sets (HMem (mats m ++ xm) (vecs m ++ xv) S)) o = Some s /\ content (HMem (mats m ++ xm) (vecs m ++ xv) S) o = content m o).
  { intros xm xv S ES. split; [exact ES|]. apply (content_eq m _ o s); [exact E|exact ES| | | |]; [apply (mat_ext m xm xv _ L1)|apply (mat_ext m xm xv _ L2)|apply (vec_ext m xm xv _ L3)|apply (vec_ext m xm xv _ L4)]. }
  destruct (step_eff m c OK) as [xm xv W|a x x' H EX R C W|a x x' H EX L|xm xv t _ W K _ _ _|xm xv p t H W _ K _ _ _].
  - apply (X xm xv (sets m) E).
  - cbn [sets]. split; [exact E|]. assert (N : ~ holds2 m o a). { destruct c; cbn in H, SP; try contradiction; [subst; exact SP|]. destruct H as (t & ET & <-). apply (SP t ET). }
    apply (content_eq m _ o s); [exact E|exact E| | |reflexivity|reflexivity]; rewrite (mat_put m a x x' _ _ _ EX); match goal with |- context [Nat.eqb ?b a] => destruct (Nat.eqb_spec b a) as [Q|Q] end; try reflexivity; exfalso; apply N; exists s; split; auto.
  - cbn [sets]. split; [exact E|]. assert (N : ~ holds1 m o a). { destruct H as (i & v & ->). exact SP. }
    apply (content_eq m _ o s); [exact E|exact E|reflexivity|reflexivity| |]; rewrite (vec_put m a x x' _ _ _ EX); match goal with |- context [Nat.eqb ?b a] => destruct (Nat.eqb_spec b a) as [Q|Q] end; try reflexivity; exfalso; apply N; exists s; split; auto.
  - apply X. rewrite nth_error_app1 by exact LO. exact E.
  - apply X. rewrite nth_error_upd_ne; [exact E|]. destruct c; cbn in H, SP; try contradiction; congruence.
Qed.
Lemma frame cs : forall m o, reached m -> (o < length (sets m))%nat -> all_spare m cs o -> content (hrun m cs) o = content m o.
Proof.
  induction cs as [|c cs IH]; intros m o RE LO H; [reflexivity|]. destruct H as (H1 & H2). destruct (lt_some _ _ LO) as (s & E).
  destruct (frame_step m c o s (okmem_reached m RE) E H1) as (E' & C). cbn [hrun fold_left]. rewrite <- C. apply IH; [apply reached_step, RE|apply (some_lt _ _ _ E')|exact H2].
Qed.

(** ** Sets that share nothing *)
Lemma holds2_same m m' o s a : nth_error (sets m) o = Some s -> nth_error (sets m') o = Some s -> holds2 m' o a -> holds2 m o a.
Proof. intros E E' (t & ET & H). rewrite E' in ET. injection ET as <-. exists s. auto. Qed.
Lemma holds1_same m m' o s a : nth_error (sets m) o = Some s -> nth_error (sets m') o = Some s -> holds1 m' o a -> holds1 m o a.
Proof. intros E E' (t & ET & H). rewrite E' in ET. injection ET as <-. exists s. auto. Qed.
Lemma holds2_lt m o a : okmem m -> holds2 m o a -> (a < length (mats m))%nat.
Proof. intros OK (s & E & H). destruct (okmem_at m o s OK E) as (A & B & _). destruct H as [<-|<-]; assumption. Qed.
Lemma holds1_lt m o a : okmem m -> holds1 m o a -> (a < length (vecs m))%nat.
Proof. intros OK (s & E & H). destruct (okmem_at m o s OK E) as (_ & _ & A & B & _). destruct H as [<-|<-]; assumption. Qed.
(** what a set holds after a step: what it held, or what the command says *)
Lemma step_holds m c p a : okmem m -> (holds2 (snd (hstep c m)) p a -> holds2 m p a \/ (changes c p \/ makes c) /\ src2 m c a) /\ (holds1 (snd (hstep c m)) p a -> holds1 m p a \/ (changes c p \/ makes c) /\ src1 m c a).
Proof.
  intros OK. destruct (step_eff m c OK) as [xm xv W|b x x' H EX R C W|b x x' H EX L|xm xv t MK W K S2 S1 _|xm xv o t CH W LO K S2 S1 _].
  1-3: split; intros (s & E & Q); left; exists s; split; assumption.
  - split; intros (s & E & Q); cbn [sets] in E; (destruct (Nat.lt_ge_cases p (length (sets m))) as [LP|LP]; [rewrite nth_error_app1 in E by exact LP; left; exists s; auto|]); rewrite nth_error_app2 in E by exact LP;
      (destruct (p - length (sets m))%nat as [|k]; [|destruct k; discriminate E]); injection E as <-; right; (split; [right; exact MK|]); auto.
  - split; intros (s & E & Q); cbn [sets] in E; (destruct (Nat.eq_dec o p) as [<-|NP]; [|rewrite nth_error_upd_ne in E by exact NP; left; exists s; auto]);
      destruct (lt_some _ _ LO) as (u & EU); rewrite (nth_error_upd_eq _ _ _ _ EU) in E; injection E as <-; right; (split; [left; exact CH|]); auto.
Qed.
Lemma foreign_spares m M o c s : okmem M -> nth_error (sets m) o = Some s -> nth_error (sets M) o = Some s -> alone M o -> foreign m o c -> spares M c o.
Proof.
  intros OK E EM AL F. destruct c as [x|l|l r a z fs|p|p l r|p t mode|a i j v|a i v|p e k j v|p azi zen]; cbn [foreign spares] in *; try exact I.
  - exact (proj1 F).
  - exact F.
  - intros H. apply F, (holds2_same m M o s); assumption.
  - intros H. apply F, (holds1_same m M o s); assumption.
  - intros t ET H. apply (proj1 (AL p (if e then s_right t else s_left t) F)). split; [exact H|]. exists t. split; [exact ET|]. destruct e; auto.
Qed.
Lemma foreign_alone m M o c s : okmem M -> nth_error (sets m) o = Some s -> nth_error (sets M) o = Some s -> alone M o -> foreign m o c -> alone (snd (hstep c M)) o.
Proof.
  intros OK E EM AL F p a NP. destruct (frame_step M c o s OK EM (foreign_spares m M o c s OK E EM AL F)) as (ES & _). destruct (step_holds M c p a OK) as (H2 & H1).
  split; intros (A & B).
  - pose proof (holds2_same M _ o s a EM ES A) as AM. pose proof (holds2_same m M o s a E EM AM) as Am. pose proof (holds2_lt M o a OK AM) as LT. destruct (H2 B) as [B'|(CM & SR)]; [apply (proj1 (AL p a NP)); auto|].
    destruct c as [x|l|l r u z fs|q|q l r|q t mode|b i j v|b i v|q e k j v|q azi zen]; cbn [src2 foreign changes makes] in *; try contradiction; try lia.
    + destruct F as (F1 & F2 & _). destruct SR as [->| ->]; auto.
    + destruct F as (_ & F1 & F2). destruct SR as [->| ->]; auto.
    + destruct CM as [<-|[]]. destruct SR as [SR|SR]; [apply (proj1 (AL q a NP)); auto|lia].
  - pose proof (holds1_same M _ o s a EM ES A) as AM. pose proof (holds1_same m M o s a E EM AM) as Am. pose proof (holds1_lt M o a OK AM) as LT. destruct (H1 B) as [B'|(CM & SR)]; [apply (proj2 (AL p a NP)); auto|].
    destruct c as [x|l|l r u z fs|q|q l r|q t mode|b i j v|b i v|q e k j v|q azi zen]; cbn [src1 foreign changes makes] in *; try contradiction; try lia.
    + destruct F as (_ & _ & F1 & F2). destruct SR as [->|[->|SR]]; [exact (F1 Am)|exact (F2 Am)|lia].
    + destruct CM as [<-|[]]. apply (proj2 (AL q a NP)); auto.
    + destruct CM as [<-|[]]. apply (proj2 (AL q a NP)); auto.
Qed.
Lemma private_run cs : forall m M o s, okmem M -> nth_error (sets m) o = Some s -> nth_error (sets M) o = Some s -> alone M o -> Forall (foreign m o) cs -> content (hrun M cs) o = content M o.
Proof.
  induction cs as [|c cs IH]; intros m M o s OK E EM AL F; [reflexivity|]. inversion_clear F as [|? ? F1 F2]. destruct (frame_step M c o s OK EM (foreign_spares m M o c s OK E EM AL F1)) as (ES & CE).
  cbn [hrun fold_left]. rewrite <- CE. apply (IH m _ o s); [apply okmem_step, OK|exact E|exact ES|apply (foreign_alone m M o c s); assumption|exact F2].
Qed.
Lemma private m o cs : reached m -> (o < length (sets m))%nat -> alone m o -> Forall (foreign m o) cs -> content (hrun m cs) o = content m o.
Proof. intros RE LO AL F. destruct (lt_some _ _ LO) as (s & E). apply (private_run cs m m o s); try assumption. apply okmem_reached, RE. Qed.
(** ** What a set that shares nothing does to the others: nothing *)
Lemma keeps_spares m o p c : alone m o -> p <> o -> keeps_to m o c -> spares m c p.
Proof.
  intros AL NP F. destruct c as [x|l|l r a z fs|q|q l r|q t mode|a i j v|a i v|q e k j v|q azi zen]; cbn [keeps_to spares] in *; try exact I; try contradiction.
  - congruence.
  - intros H. apply (proj1 (AL p a NP)). auto.
  - intros H. apply (proj2 (AL p a NP)). auto.
  - subst q. intros s E H. apply (proj1 (AL p (if e then s_right s else s_left s) NP)). split; [|exact H]. exists s. split; [exact E|]. destruct e; auto.
Qed.
Lemma keeps_alone m o c : okmem m -> (o < length (sets m))%nat -> alone m o -> keeps_to m o c -> alone (snd (hstep c m)) o.
Proof.
  intros OK LO AL F p a NP. destruct (step_holds m c p a OK) as (P2 & P1). destruct (step_holds m c o a OK) as (O2 & O1).
  assert (NO : forall S, makes c -> sets (snd (hstep c m)) = S -> nth_error S o = nth_error (sets m) o).
  { intros S MK <-. destruct (lt_some _ _ LO) as (s & E). rewrite E. apply (frame_step m c o s OK E). destruct c; cbn in *; try contradiction; exact I. }
  split; intros (A & B).
  - destruct (P2 B) as [B'|(CM & SR)].
    + destruct (O2 A) as [A'|(CM & SR)]; [apply (proj1 (AL p a NP)); auto|]. pose proof (holds2_lt m p a OK B') as LT. destruct c; cbn [keeps_to src2 changes makes] in *; try contradiction; try lia. destruct SR as [SR|SR]; [subst; apply (proj1 (AL p a NP)); auto|lia].
    + destruct c; cbn [keeps_to src2 changes makes] in *; try contradiction.
      * assert (A' : holds2 m o a) by (destruct A as (s & E & Q); exists s; rewrite <- (NO _ I eq_refl); auto). pose proof (holds2_lt m o a OK A'). lia.
      * destruct CM as [CM|[]]. congruence.
  - destruct (P1 B) as [B'|(CM & SR)].
    + destruct (O1 A) as [A'|(CM & SR)]; [apply (proj2 (AL p a NP)); auto|]. pose proof (holds1_lt m p a OK B') as LT. destruct c; cbn [keeps_to src1 changes makes] in *; try contradiction; try lia. subst. apply (proj2 (AL p a NP)); auto.
    + destruct c; cbn [keeps_to src1 changes makes] in *; try contradiction.
      * assert (A' : holds1 m o a) by (destruct A as (s & E & Q); exists s; rewrite <- (NO _ I eq_refl); auto). pose proof (holds1_lt m o a OK A'). lia.
      * destruct CM as [CM|[]]. congruence.
Qed.
Lemma step_sets m c : okmem m -> (length (sets m) <= length (sets (snd (hstep c m))))%nat.
Proof. intros OK. destruct (step_eff m c OK); cbn [sets ext]; rewrite ?app_length, ?length_upd; lia. Qed.
Lemma harmless cs : forall m o p, reached m -> (o < length (sets m))%nat -> (p < length (sets m))%nat -> p <> o -> alone m o -> all_keep_to m cs o -> content (hrun m cs) p = content m p.
Proof.
  induction cs as [|c cs IH]; intros m o p RE LO LP NP AL F; [reflexivity|]. destruct F as (F1 & F2). pose proof (okmem_reached m RE) as OK. destruct (lt_some _ _ LP) as (s & E).
  destruct (frame_step m c p s OK E (keeps_spares m o p c AL NP F1)) as (ES & CE). pose proof (step_sets m c OK). cbn [hrun fold_left]. rewrite <- CE. apply (IH _ o); try lia; [apply reached_step, RE|apply keeps_alone; assumption|exact F2].
Qed.
(** ** Counts *)
Lemma reached_fits m o h : reached m -> content m o = Some h -> matches h.
Proof.
  intros RE. unfold content. destruct (nth_error (sets m) o) as [s|] eqn:E; [|discriminate]. intros H. injection H as <-. destruct (okmem_at m o s (okmem_reached m RE) E) as (_ & _ & _ & _ & A & B & C & D). repeat split; assumption.
Qed.
Lemma taps_step m c : okmem m -> same_taps m c -> Forall (tapset m) (sets m) -> Forall (tapset (snd (hstep c m))) (sets (snd (hstep c m))).
Proof.
  intros OK ST T. assert (OS : forall s, In s (sets m) -> okset m s) by (destruct OK as (_ & OS); rewrite Forall_forall in OS; exact OS).
  assert (X : forall xm xv, Forall (tapset (ext m xm xv)) (sets m)).
  { intros xm xv. rewrite Forall_forall in *. intros s IN. destruct (OS s IN) as (L1 & L2 & _). unfold tapset. rewrite !mat_ext by assumption. apply T, IN. }
  destruct (step_eff m c OK) as [xm xv W|a x x' H EX R C W|a x x' H EX L|xm xv t MK W K S2 S1 TT|xm xv o t CH W LO K S2 S1 TT]; cbn [sets ext].
  - apply X.
  - apply (Forall_impl _ (P := tapset m)); [|exact T]. intros s (A & B). unfold tapset. rewrite !(mat_put m a x x' _ _ _ EX).
    assert (Q : forall b, cols (if Nat.eqb b a then x' else mat_at m b) = cols (mat_at m b)). { intros b. destruct (Nat.eqb_spec b a) as [->|]; [|reflexivity]. rewrite C. unfold mat_at. rewrite (some_nth _ _ _ _ EX). reflexivity. }
    rewrite !Q. split; assumption.
  - exact T.
  - apply Forall_app. split; [apply (X xm xv)|constructor; [apply TT; assumption|constructor]].
  - apply Forall_upd; [apply (X xm xv)|apply TT; assumption].
Qed.
Lemma taps_run cs : forall m, okmem m -> all_same m cs -> Forall (tapset m) (sets m) -> Forall (tapset (hrun m cs)) (sets (hrun m cs)).
Proof. induction cs as [|c cs IH]; intros m OK S T; [exact T|]. destruct S as (S1 & S2). cbn [hrun fold_left]. apply IH; [apply okmem_step, OK|exact S2|apply taps_step; assumption]. Qed.
Lemma run_sized cs o h : all_same hempty cs -> content (hrun hempty cs) o = Some h -> sized h.
Proof.
  intros S. assert (OK : okmem hempty) by (split; constructor). assert (T : Forall (tapset hempty) (sets hempty)) by constructor. pose proof (taps_run cs hempty OK S T) as TR. pose proof (okmem_run cs hempty OK) as OR.
  unfold content. destruct (nth_error (sets (hrun hempty cs)) o) as [s|] eqn:E; [|discriminate]. intros H. injection H as <-. rewrite Forall_forall in TR. destruct (TR s (nth_error_In _ _ E)) as (T1 & T2). destruct (okmem_at _ o s OR E) as (L1 & L2 & _).
  assert (W : forall a x, (a < length (mats (hrun hempty cs)))%nat -> In x (rows (mat_at (hrun hempty cs) a)) -> length x = cols (mat_at (hrun hempty cs) a)).
  { intros a x LA IN. destruct OR as (OM & _). rewrite Forall_forall in OM. specialize (OM (mat_at (hrun hempty cs) a) (nth_In _ _ LA)). unfold arr2_wf in OM. rewrite Forall_forall in OM. apply OM, IN. }
  intros x [IN|IN]; cbn [h_left h_right h_taps] in *; [rewrite (W _ _ L1 IN)|rewrite (W _ _ L2 IN)]; assumption.
Qed.
