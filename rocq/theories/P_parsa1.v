(** Quadratic forms, inverses of positive definite matrices, constrained minimum
    variance (helpers for C38 and C39). *)
From Coq Require Import Lra Lia.
From Verif Require Import Base BaseFacts M_utils M_sig M_sph M_parsa S_linalg S_sph S_parsa P_linalg P_sph7 P_sph9.
Open Scope R_scope.

(** ** Functions in place of lists *)
Definition qf (n : nat) (S : nat -> nat -> R) (x y : nat -> R) : R := rsum n (fun i => rsum n (fun j => x i * S i j * y j)).
Lemma power_qf S x : power S x = qf (nr S) (ent S) (fun i => nth i x 0) (fun i => nth i x 0).
Proof. reflexivity. Qed.
Lemma qf_ext n S S' x x' y y' : (forall i j, (i < n)%nat -> (j < n)%nat -> S i j = S' i j) -> (forall i, (i < n)%nat -> x i = x' i) ->
  (forall i, (i < n)%nat -> y i = y' i) -> qf n S x y = qf n S' x' y'.
Proof. intros A B C. apply rsum_ext. intros i Hi. apply rsum_ext. intros j Hj. rewrite A, B, C; auto. Qed.
Lemma qf_alt n S x y : qf n S x y = rsum n (fun i => x i * rsum n (fun j => S i j * y j)).
Proof. apply rsum_ext. intros i _. rewrite <- rsum_scal. apply rsum_ext. intros; ring. Qed.
Lemma qf_sym n S x y : (forall i j, (i < n)%nat -> (j < n)%nat -> S i j = S j i) -> qf n S x y = qf n S y x.
Proof. intros H. unfold qf. rewrite rsum_swap. apply rsum_ext. intros i Hi. apply rsum_ext. intros j Hj. rewrite (H j i) by auto. ring. Qed.
Lemma qf_square n S x d : (forall i j, (i < n)%nat -> (j < n)%nat -> S i j = S j i) ->
  qf n S (fun i => x i + d i) (fun i => x i + d i) = qf n S x x + 2 * qf n S d x + qf n S d d.
Proof.
  intros H. assert (E : qf n S (fun i => x i + d i) (fun i => x i + d i) = qf n S x x + qf n S x d + qf n S d x + qf n S d d).
  { unfold qf. rewrite <- !rsum_plus. apply rsum_ext. intros i _. rewrite <- !rsum_plus. apply rsum_ext. intros j _. ring. }
  rewrite E, (qf_sym n S x d H). ring.
Qed.
Definition pdf (n : nat) (S : nat -> nat -> R) : Prop := forall x, (exists i, (i < n)%nat /\ x i <> 0) -> 0 < qf n S x x.
Lemma pos_def_pdf S : pos_def S -> pdf (nr S) (ent S).
Proof.
  intros H x (i & Hi & Hx). specialize (H (map x (seq 0 (nr S)))). rewrite map_length, seq_length in H. specialize (H eq_refl).
  assert (E : qf (nr S) (ent S) x x = power S (map x (seq 0 (nr S)))).
  { rewrite power_qf. apply qf_ext; auto; intros k Hk; rewrite nth_map_seq; auto. }
  rewrite E. apply H. exists i. split; auto. rewrite nth_map_seq by auto. auto.
Qed.
Lemma pdf_pos_def S : pdf (nr S) (ent S) -> pos_def S.
Proof. intros H x Hx E. rewrite power_qf. apply H. auto. Qed.
Lemma pdf_zero n S x : pdf n S -> qf n S x x = 0 -> forall i, (i < n)%nat -> x i = 0.
Proof.
  intros H E i Hi. destruct (Req_dec (x i) 0) as [|N]; auto. exfalso. assert (0 < qf n S x x) by (apply H; eauto). lra.
Qed.
Lemma pdf_nonneg n S x : pdf n S -> 0 <= qf n S x x.
Proof.
  intros H. destruct (Req_dec (qf n S x x) 0) as [E|N]; [lra|]. apply Rlt_le, H.
  assert (D : forall m, (exists i, (i < m)%nat /\ x i <> 0) \/ forall i, (i < m)%nat -> x i = 0).
  { induction m as [|m IH]; [right; intros; lia|]. destruct IH as [(i & A & B)|IH]; [left; exists i; split; auto; lia|].
    destruct (Req_dec (x m) 0) as [E|E]; [|left; exists m; auto]. right. intros i Hi. destruct (Nat.eq_dec i m); [subst; auto|apply IH; lia]. }
  destruct (D n) as [|Z]; auto. exfalso. apply N. apply rsum_0. intros i Hi. apply rsum_0. intros j Hj. rewrite (Z i Hi). ring.
Qed.

(** ** A positive definite matrix has an inverse *)
Lemma choice_below (P : nat -> (nat -> R) -> Prop) n : (forall j, (j < n)%nat -> exists x, P j x) ->
  exists x : nat -> nat -> R, forall j, (j < n)%nat -> P j (x j).
Proof.
  induction n as [|n IH]; intros H.
  - exists (fun _ _ => 0). intros; lia.
  - destruct IH as (x & Hx); [intros; apply H; lia|]. destruct (H n) as (y & Hy); [lia|].
    exists (fun j => if Nat.eqb j n then y else x j). intros j Hj. destruct (Nat.eqb_spec j n); [subst; auto|apply Hx; lia].
Qed.
Lemma pd_inverse A : is_symmetric A -> pos_def A -> exists X, is_inverse A X.
Proof.
  intros (SQ & SY) PD. set (n := nr A) in *. pose proof (pos_def_pdf A PD) as P. fold n in P.
  assert (C : forall j, (j < n)%nat -> exists x : nat -> R, forall i, (i < n)%nat -> rsum n (fun k => ent A i k * x k) = delta i j).
  { intros j Hj. destruct (projection_exists n (ent A) n (fun q => delta q j)) as (x & Hx). exists x.
    set (d := fun q => rsum n (fun c => ent A q c * x c) - delta q j).
    assert (Z : forall i, (i < n)%nat -> d i = 0).
    { apply (pdf_zero n (ent A)); auto. rewrite qf_alt. apply rsum_0. intros i Hi.
      assert (E : rsum n (fun k => ent A i k * d k) = 0); [|rewrite E; ring].
      rewrite <- (Hx i Hi). apply rsum_ext. intros k Hk. rewrite (SY i k) by auto. reflexivity. }
    intros i Hi. specialize (Z i Hi). unfold d in Z. lra. }
  destruct (choice_below _ n C) as (x & Hx).
  set (X := Mat n n (fun k j => x j k)).
  assert (R1 : forall i j, (i < n)%nat -> (j < n)%nat -> rsum n (fun k => ent A i k * ent X k j) = delta i j) by (intros; apply Hx; auto).
  exists X. unfold is_inverse. fold n. split; auto. split; auto. split; auto. split; auto.
  (* symmetric *)
  assert (XS : forall i j, (i < n)%nat -> (j < n)%nat -> ent X i j = ent X j i).
  { intros i j Hi Hj. transitivity (rsum n (fun a => rsum n (fun b => ent X a i * ent A a b * ent X b j))).
    - rewrite rsum_swap. rewrite <- (rsum_delta_l n i (fun b => ent X b j)) by auto. apply rsum_ext. intros b Hb.
      rewrite <- (R1 b i Hb Hi) || idtac. rewrite rsum_scal_r. f_equal. rewrite delta_sym, <- (R1 b i) by auto. apply rsum_ext. intros a Ha.
      rewrite (SY a b) by auto. ring.
    - rewrite <- (rsum_delta_l n j (fun a => ent X a i)) by auto. apply rsum_ext. intros a Ha. rewrite delta_sym, <- (R1 a j) by auto.
      rewrite <- rsum_scal_r. apply rsum_ext. intros b Hb. ring. }
  intros i j Hi Hj. rewrite delta_sym, <- (R1 j i) by auto. apply rsum_ext. intros k Hk. rewrite (XS i k), (SY k j) by auto. ring.
Qed.
Lemma inverse_symmetric A X : is_symmetric A -> is_inverse A X -> forall i j, (i < nr A)%nat -> (j < nr A)%nat -> ent X i j = ent X j i.
Proof.
  intros (SQ & SY) (_ & RX & CX & R1 & R2) i j Hi Hj. set (n := nr A) in *.
  transitivity (rsum n (fun a => rsum n (fun b => ent X a i * ent A a b * ent X b j))).
  - rewrite rsum_swap. rewrite <- (rsum_delta_l n i (fun b => ent X b j)) by auto. apply rsum_ext. intros b Hb.
    rewrite rsum_scal_r. f_equal. rewrite delta_sym, <- (R1 b i) by auto. apply rsum_ext. intros a Ha. rewrite (SY a b) by auto. ring.
  - rewrite <- (rsum_delta_l n j (fun a => ent X a i)) by auto. apply rsum_ext. intros a Ha. rewrite delta_sym, <- (R1 a j) by auto.
    rewrite <- rsum_scal_r. apply rsum_ext. intros b Hb. ring.
Qed.
Lemma inverse_pdf A X : is_symmetric A -> pos_def A -> is_inverse A X -> pdf (nr A) (ent X).
Proof.
  intros SA PD HI x (i & Hi & Nx). pose proof (inverse_symmetric A X SA HI) as XS. pose proof (pos_def_pdf A PD) as P.
  destruct HI as (SQ & RX & CX & R1 & R2). destruct SA as (_ & SY). set (n := nr A) in *.
  set (y := fun k => rsum n (fun j => ent X k j * x j)).
  assert (AY : forall k, (k < n)%nat -> rsum n (fun j => ent A k j * y j) = x k).
  { intros k Hk. rewrite <- (rsum_delta_l n k x) by auto. unfold y.
    rewrite (rsum_ext n _ (fun j => rsum n (fun l => ent A k j * ent X j l * x l))).
    - rewrite rsum_swap. apply rsum_ext. intros l Hl. rewrite rsum_scal_r. rewrite R1 by auto. reflexivity.
    - intros j Hj. rewrite <- rsum_scal. apply rsum_ext. intros; ring. }
  assert (E : qf n (ent X) x x = qf n (ent A) y y).
  { rewrite !qf_alt. fold y. transitivity (rsum n (fun k => y k * x k)); [apply rsum_ext; intros; unfold y; ring|].
    apply rsum_ext. intros k Hk. rewrite AY by auto. reflexivity. }
  rewrite E. apply P. destruct (Req_dec (qf n (ent A) y y) 0) as [Z|Z].
  - exfalso. pose proof (pdf_zero n (ent A) y P Z) as Z'. apply Nx. rewrite <- AY by auto. apply rsum_0. intros j Hj. rewrite Z' by auto. ring.
  - assert (D : forall m, (exists i, (i < m)%nat /\ y i <> 0) \/ forall i, (i < m)%nat -> y i = 0).
    { induction m as [|m IH]; [right; intros; lia|]. destruct IH as [(k & A1 & B)|IH]; [left; exists k; split; auto; lia|].
      destruct (Req_dec (y m) 0) as [E'|E']; [|left; exists m; auto]. right. intros k Hk. destruct (Nat.eq_dec k m); [subst; auto|apply IH; lia]. }
    destruct (D n) as [|Z']; auto. exfalso. apply Nx. rewrite <- AY by auto. apply rsum_0. intros j Hj. rewrite Z' by auto. ring.
Qed.

(** ** Minimum power under linear constraints: if S w is a combination of the
    constraint vectors, w beats every x that meets the same constraints *)
Lemma constrained_minimum n m (S : nat -> nat -> R) (Y : nat -> nat -> R) (lam w x : nat -> R) :
  (forall i j, (i < n)%nat -> (j < n)%nat -> S i j = S j i) -> pdf n S ->
  (forall i, (i < n)%nat -> rsum n (fun j => S i j * w j) = rsum m (fun g => lam g * Y g i)) ->
  (forall g, (g < m)%nat -> rsum n (fun i => x i * Y g i) = rsum n (fun i => w i * Y g i)) ->
  qf n S w w <= qf n S x x /\ (qf n S x x = qf n S w w -> forall i, (i < n)%nat -> x i = w i).
Proof.
  intros SY P HL HC. set (d := fun i => x i - w i).
  assert (E : qf n S x x = qf n S w w + qf n S d d).
  { transitivity (qf n S (fun i => w i + d i) (fun i => w i + d i)); [apply qf_ext; auto; intros; unfold d; ring|].
    rewrite qf_square by auto. assert (Z : qf n S d w = 0); [|rewrite Z; ring]. rewrite qf_alt.
    rewrite (rsum_ext n _ (fun i => rsum m (fun g => lam g * (d i * Y g i)))).
    - rewrite rsum_swap. apply rsum_0. intros g Hg. rewrite rsum_scal.
      rewrite (rsum_ext n _ (fun i => x i * Y g i - w i * Y g i)) by (intros; unfold d; ring). rewrite rsum_minus, HC by auto. ring.
    - intros i Hi. rewrite HL by auto. rewrite <- rsum_scal. apply rsum_ext. intros; ring. }
  split.
  - pose proof (pdf_nonneg n S d P). lra.
  - intros Q i Hi. assert (qf n S d d = 0) by lra. pose proof (pdf_zero n S d P H i Hi) as Z. unfold d in Z. lra.
Qed.
