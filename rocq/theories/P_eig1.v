(** Every symmetric matrix has an eigenvalue decomposition. *)
From Coq Require Import Permutation ClassicalEpsilon.
From Verif Require Import Base BaseFacts S_sph S_grids S_parsa S_eig S_decoder2 P_grids3 P_parsa6 P_svd1 P_svd2 P_svd3.
Open Scope R_scope.

Lemma root_unique n (P1 P2 : fm) : (forall i j, (i < n)%nat -> (j < n)%nat -> P1 i j = P1 j i) -> (forall i j, (i < n)%nat -> (j < n)%nat -> P2 i j = P2 j i) ->
  (forall i j, (i < n)%nat -> (j < n)%nat -> mm n P1 P1 i j = mm n P2 P2 i j) ->
  (forall x, 0 <= rsum n (fun a => rsum n (fun b => x a * P1 a b * x b))) ->
  (forall x, rsum n (fun a => rsum n (fun b => x a * P1 a b * x b)) = 0 -> forall a, (a < n)%nat -> x a = 0) ->
  (forall x, 0 <= rsum n (fun a => rsum n (fun b => x a * P2 a b * x b))) ->
  forall i j, (i < n)%nat -> (j < n)%nat -> P1 i j = P2 i j.
Proof.
  intros SY1 SY2 SQ N1 Z1 N2. set (X := fun i j => P1 i j - P2 i j).
  assert (XS : forall i j, (i < n)%nat -> (j < n)%nat -> X i j = X j i) by (intros; unfold X; rewrite SY1, SY2 by assumption; reflexivity).
  assert (XE : forall i j, (i < n)%nat -> (j < n)%nat -> mm n P1 X i j + mm n X P2 i j = 0).
  { intros i j Hi Hj. transitivity (mm n P1 P1 i j - mm n P2 P2 i j); [|rewrite SQ by assumption; ring]. unfold mm, X. rewrite <- rsum_plus, <- rsum_minus. apply rsum_ext. intros. ring. }
  assert (T1 : rsum n (fun c => rsum n (fun a => rsum n (fun b => X a c * P1 a b * X b c))) + rsum n (fun c => rsum n (fun a => rsum n (fun b => X a c * P2 a b * X b c))) = 0).
  { transitivity (rsum n (fun a => rsum n (fun c => X a c * (mm n P1 X a c + mm n X P2 a c)))).
    - rewrite (rsum_ext n (fun a => rsum n (fun c => X a c * (mm n P1 X a c + mm n X P2 a c))) (fun a => rsum n (fun c => X a c * mm n P1 X a c) + rsum n (fun c => X a c * mm n X P2 a c))) by (intros; rewrite <- rsum_plus; apply rsum_ext; intros; ring). rewrite rsum_plus. f_equal.
      + rewrite rsum_swap. apply rsum_ext. intros a Ha. apply rsum_ext. intros c Hc. unfold mm. rewrite <- rsum_scal. apply rsum_ext. intros. ring.
      + apply rsum_ext. intros a Ha. apply rsum_ext. intros c Hc. unfold mm. rewrite <- rsum_scal. apply rsum_ext. intros b Hb. rewrite (XS c a), (XS b a), (SY2 c b) by assumption. ring.
    - apply rsum_0. intros a Ha. apply rsum_0. intros c Hc. rewrite XE by assumption. ring. }
  assert (A1 : 0 <= rsum n (fun c => rsum n (fun a => rsum n (fun b => X a c * P1 a b * X b c)))) by (apply rsum_nonneg; intros c Hc; apply (N1 (fun a => X a c))).
  assert (A2 : 0 <= rsum n (fun c => rsum n (fun a => rsum n (fun b => X a c * P2 a b * X b c)))) by (apply rsum_nonneg; intros c Hc; apply (N2 (fun a => X a c))).
  assert (TZ : rsum n (fun c => rsum n (fun a => rsum n (fun b => X a c * P1 a b * X b c))) = 0) by lra.
  intros a c Ha Hc. assert (X0 : X a c = 0); [|unfold X in X0; lra].
  apply (Z1 (fun a => X a c)); [|exact Ha]. exact (rsum_nonneg_0 n _ (fun c _ => N1 (fun a => X a c)) TZ c Hc).
Qed.
(** a symmetric matrix, made positive *)
Lemma shift_pos n (A : fm) : exists c, forall x, rsum n (fun j => x j ^ 2) <= rsum n (fun a => rsum n (fun b => x a * (A a b + c * delta a b) * x b)).
Proof.
  set (M := rsum n (fun a => rsum n (fun b => Rabs (A a b)))). exists (1 + M). intros x. set (r := rsum n (fun j => x j ^ 2)).
  assert (XB : forall a, (a < n)%nat -> x a ^ 2 <= r) by (intros a Ha; apply (rsum_ge_term n (fun j => x j ^ 2) a); [intros; apply pow2_ge_0|exact Ha]).
  assert (E : rsum n (fun a => rsum n (fun b => x a * (A a b + (1 + M) * delta a b) * x b)) = rsum n (fun a => rsum n (fun b => x a * A a b * x b)) + (1 + M) * r).
  { unfold r. rewrite <- rsum_scal, <- rsum_plus. apply rsum_ext. intros a Ha. rewrite (rsum_ext n _ (fun b => x a * A a b * x b + delta a b * ((1 + M) * x a * x b))) by (intros; ring).
    rewrite rsum_plus. f_equal. rewrite (rsum_delta_l n a (fun b => (1 + M) * x a * x b) Ha). ring. }
  rewrite E. assert (L : - (M * r) <= rsum n (fun a => rsum n (fun b => x a * A a b * x b))).
  { replace (- (M * r)) with (rsum n (fun a => rsum n (fun b => - (Rabs (A a b) * r)))).
    - apply rsum_le. intros a Ha. apply rsum_le. intros b Hb. specialize (XB a Ha) as Xa. specialize (XB b Hb) as Xb.
      assert (P : Rabs (x a * x b) <= r). { apply Rabs_le. nra. }
      replace (x a * A a b * x b) with (A a b * (x a * x b)) by ring.
      pose proof (Rabs_mult (A a b) (x a * x b)) as Q. pose proof (Rle_abs (- (A a b * (x a * x b)))) as T. rewrite Rabs_Ropp, Q in T. pose proof (Rabs_pos (A a b)). nra.
    - unfold M. rewrite (rsum_ext n _ (fun a => - r * rsum n (fun b => Rabs (A a b)))) by (intros; rewrite <- rsum_scal; apply rsum_ext; intros; ring). rewrite rsum_scal. ring. }
  lra.
Qed.
(** indices in the order of their keys *)
Lemma sort_exists (f : nat -> R) n : exists l, Permutation l (seq 0 n) /\ forall i j, (i <= j < length l)%nat -> f (nth i l 0%nat) <= f (nth j l 0%nat).
Proof.
  assert (I : forall l x, (forall i j, (i <= j < length l)%nat -> f (nth i l 0%nat) <= f (nth j l 0%nat)) -> exists m, Permutation m (x :: l) /\ forall i j, (i <= j < length m)%nat -> f (nth i m 0%nat) <= f (nth j m 0%nat)).
  { induction l as [|y l IH]; intros x H.
    - exists [x]. split; [reflexivity|]. intros i j Hij. cbn [length] in Hij. replace i with 0%nat by lia. replace j with 0%nat by lia. apply Rle_refl.
    - destruct (Rle_dec (f x) (f y)) as [L|L].
      + exists (x :: y :: l). split; [reflexivity|]. intros [|i] [|j] Hij; try lia; cbn [nth]; [apply Rle_refl| |].
        * eapply Rle_trans; [exact L|]. apply (H 0%nat j). cbn [length] in Hij |- *. lia.
        * apply (H i j). cbn [length] in Hij |- *. lia.
      + destruct (IH x) as (m & P & S).
        { intros i j Hij. apply (H (Datatypes.S i) (Datatypes.S j)). cbn [length]. lia. }
        exists (y :: m). split; [transitivity (y :: x :: l); [apply perm_skip; exact P|apply perm_swap]|].
        intros [|i] [|j] Hij; try lia; cbn [nth]; [apply Rle_refl| |apply S; cbn [length] in Hij; lia].
        assert (IN : In (nth j m 0%nat) (x :: l)) by (apply (Permutation_in _ P), nth_In; cbn [length] in Hij; lia).
        destruct IN as [<-|IN]; [lra|]. destruct (In_nth _ _ 0%nat IN) as (q & Hq & <-). apply (H 0%nat (Datatypes.S q)). cbn [length]. lia. }
  enough (forall l, exists m, Permutation m l /\ forall i j, (i <= j < length m)%nat -> f (nth i m 0%nat) <= f (nth j m 0%nat)) by auto.
  induction l as [|x l (m & P & S)]; [exists []; split; [reflexivity|cbn [length]; intros; lia]|].
  destruct (I m x S) as (m' & P' & S'). exists m'. split; [|exact S']. transitivity (x :: m); [exact P'|apply perm_skip; exact P].
Qed.
Lemma rsum_perm l n (g : nat -> R) : Permutation l (seq 0 n) -> rsum n (fun k => g (nth k l 0%nat)) = rsum n g.
Proof.
  intros P. assert (L : length l = n) by (rewrite (Permutation_length P), seq_length; reflexivity).
  assert (E : forall m, rsum (length m) (fun k => g (nth k m 0%nat)) = lsum (map g m)).
  { intros m. rewrite lsum_nth, map_length. apply rsum_ext. intros k Hk. symmetry. apply (nth_map_in g m k 0 0%nat Hk). }
  rewrite <- L at 1. rewrite E. rewrite (lsum_perm _ _ (Permutation_map g P)). rewrite <- E, seq_length. apply rsum_ext. intros k Hk. rewrite seq_nth by exact Hk. reflexivity.
Qed.
Theorem spectral : forall A, is_symmetric A -> exists w V, is_eigh A w V.
Proof.
  intros A [SQ SY]. set (n := nr A) in *. destruct (shift_pos n (ent A)) as (c & PD). set (B := fun a b => ent A a b + c * delta a b) in *.
  destruct (svd_exists_f n n B) as (U & sv & V & OU & OV & L & PS & E). rewrite Nat.min_id in L. rewrite L in E.
  set (P := fun i j => rsum n (fun k => V k i * nth k sv 0 * V k j)).
  assert (BS : forall i j, (i < n)%nat -> (j < n)%nat -> B i j = B j i) by (intros; unfold B; rewrite SY, delta_sym by assumption; reflexivity).
  assert (BP : forall i j, (i < n)%nat -> (j < n)%nat -> B i j = P i j).
  { apply root_unique.
    - exact BS.
    - intros i j _ _. apply rsum_ext. intros. ring.
    - intros i j Hi Hj. transitivity (rsum n (fun k => (V k i * nth k sv 0) * (nth k sv 0 * V k j))).
      + unfold mm. rewrite (rsum_ext n _ (fun q => rsum n (fun k => (V k i * nth k sv 0) * trf U k q) * rsum n (fun l => trf U l q * (nth l sv 0 * V l j)))).
        * apply (diag_rows n n (trf U) _ _ (orth_tr _ _ OU) (le_n n)).
        * intros q Hq. rewrite (BS i q), (E q i), (E q j) by assumption. unfold trf. f_equal; apply rsum_ext; intros; ring.
      + symmetry. unfold mm, P. rewrite (rsum_ext n _ (fun q => rsum n (fun k => (V k i * nth k sv 0) * V k q) * rsum n (fun l => V l q * (nth l sv 0 * V l j)))) by (intros; f_equal; apply rsum_ext; intros; ring).
        apply (diag_rows n n V _ _ OV (le_n n)).
    - intros x. eapply Rle_trans; [|apply PD]. apply rsum_nonneg. intros; apply pow2_ge_0.
    - intros x Z a Ha. specialize (PD x). fold B in PD. change (rsum n (fun a => rsum n (fun b => x a * B a b * x b)) = 0) in Z.
      assert (Q : rsum n (fun j => x j ^ 2) = 0). { apply Rle_antisym; [rewrite <- Z; exact PD|apply rsum_nonneg; intros; apply pow2_ge_0]. }
      pose proof (rsum_nonneg_0 n _ (fun j _ => pow2_ge_0 (x j)) Q a Ha) as W. cbn beta in W. apply Rsqr_0_uniq. rewrite Rsqr_pow2. exact W.
    - intros x. unfold P. rewrite (rsum_ext n _ (fun a => rsum n (fun k => rsum n (fun b => nth k sv 0 * (V k a * x a * (V k b * x b)))))).
      + rewrite rsum_swap. apply rsum_nonneg. intros k Hk. rewrite (rsum_ext n _ (fun a => nth k sv 0 * rsum n (fun b => V k a * x a * (V k b * x b)))) by (intros; rewrite rsum_scal; reflexivity).
        rewrite rsum_scal, <- rsum_mult. apply Rmult_le_pos; [apply PS, nth_In; lia|]. apply Rle_0_sqr.
      + intros a Ha. rewrite rsum_swap. apply rsum_ext. intros b Hb. rewrite <- rsum_scal, <- rsum_scal_r. apply rsum_ext. intros. ring. }
  destruct (sort_exists (fun k => nth k sv 0 - c) n) as (l & PL & SL). assert (LL : length l = n) by (rewrite (Permutation_length PL), seq_length; reflexivity).
  assert (RG : forall k, (k < n)%nat -> (nth k l 0 < n)%nat).
  { intros k Hk. assert (IN : In (nth k l 0%nat) (seq 0 n)) by (apply (Permutation_in _ PL), nth_In; lia). apply in_seq in IN. lia. }
  assert (ND : NoDup l) by (apply (Permutation_NoDup (Permutation_sym PL)), seq_NoDup).
  exists (map (fun k => nth k sv 0 - c) l), (Mat n n (fun i k => V (nth k l 0%nat) i)). split; [exact SQ|]. fold n. split; [rewrite map_length; exact LL|]. split; [|split].
  - intros i j Hij. rewrite map_length in Hij. rewrite !(nth_map_in _ _ _ _ 0%nat) by lia. apply SL. exact Hij.
  - destruct OV as [O1 O2]. split; [reflexivity|]. split; [reflexivity|]. cbn [ent]. split; intros a b Ha Hb.
    + rewrite O2 by (apply RG; assumption). unfold delta. destruct (Nat.eqb_spec a b) as [->|NE]; [rewrite Nat.eqb_refl; reflexivity|].
      destruct (Nat.eqb_spec (nth a l 0%nat) (nth b l 0%nat)) as [Q|Q]; [|reflexivity]. exfalso. apply NE. apply (proj1 (NoDup_nth l 0%nat) ND); [lia|lia|exact Q].
    + rewrite (rsum_perm l n (fun k => V k a * V k b) PL). apply O1; assumption.
  - intros i j Hi Hj. cbn [ent].
    rewrite (rsum_ext n _ (fun k => V (nth k l 0%nat) i * (nth (nth k l 0%nat) sv 0 - c) * V (nth k l 0%nat) j)) by (intros k Hk; rewrite (nth_map_in _ _ _ _ 0%nat) by lia; reflexivity).
    rewrite (rsum_perm l n (fun k => V k i * (nth k sv 0 - c) * V k j) PL).
    rewrite (rsum_ext n _ (fun k => V k i * nth k sv 0 * V k j - c * (V k i * V k j))) by (intros; ring). rewrite rsum_minus, rsum_scal. destruct OV as [O1 _]. rewrite O1 by assumption.
    change (rsum n (fun k => V k i * nth k sv 0 * V k j)) with (P i j). rewrite <- BP by assumption. unfold B. ring.
Qed.
Theorem eigh_function : exists eigh, exact_eigh eigh.
Proof.
  assert (X : forall A, exists r : list R * mat, is_symmetric A -> is_eigh A (fst r) (snd r)).
  { intros A. destruct (excluded_middle_informative (is_symmetric A)) as [S|S]; [destruct (spectral A S) as (w & V & H); exists (w, V); auto|exists ([], A); contradiction]. }
  exists (fun A => proj1_sig (constructive_indefinite_description _ (X A))). intros A w V S. destruct (constructive_indefinite_description _ (X A)) as [r H]. cbn [proj1_sig]. intros ->. exact (H S).
Qed.

(** ** what does not depend on the choice of eigenvectors *)
Section Two.
Variables (A : mat) (w w' : list R) (V V' : mat).
Hypothesis (H : is_eigh A w V) (H' : is_eigh A w' V').
Let n := nr A.
Let W (k l : nat) : R := rsum n (fun i => ent V i k * ent V' i l).
Lemma W_eig k l : (k < n)%nat -> (l < n)%nat -> (nth k w 0 - nth l w' 0) * W k l = 0.
Proof.
  intros Hk Hl. destruct H as (_ & _ & _ & (_ & _ & O1 & O2) & E). destruct H' as (_ & _ & _ & (_ & _ & O1' & O2') & E'). fold n in O1, O2, E, O1', O2', E'.
  assert (X1 : forall j, (j < n)%nat -> rsum n (fun i => ent V i k * ent A i j) = nth k w 0 * ent V j k).
  { intros j Hj. rewrite (rsum_ext n _ (fun i => rsum n (fun q => nth q w 0 * ent V j q * (ent V i k * ent V i q)))) by (intros i Hi; rewrite E by assumption; rewrite <- rsum_scal; apply rsum_ext; intros; ring).
    rewrite rsum_swap. rewrite (rsum_ext n _ (fun q => delta k q * (nth q w 0 * ent V j q))) by (intros q Hq; rewrite rsum_scal, O1 by assumption; ring). apply (rsum_delta_l n k (fun q => nth q w 0 * ent V j q) Hk). }
  assert (X2 : forall i, (i < n)%nat -> rsum n (fun j => ent A i j * ent V' j l) = nth l w' 0 * ent V' i l).
  { intros i Hi. rewrite (rsum_ext n _ (fun j => rsum n (fun q => ent V' i q * nth q w' 0 * (ent V' j l * ent V' j q)))) by (intros j Hj; rewrite E' by assumption; rewrite <- rsum_scal_r; apply rsum_ext; intros; ring).
    rewrite rsum_swap. rewrite (rsum_ext n _ (fun q => delta l q * (ent V' i q * nth q w' 0))) by (intros q Hq; rewrite rsum_scal, O1' by assumption; ring). rewrite (rsum_delta_l n l (fun q => ent V' i q * nth q w' 0) Hl). ring. }
  assert (S1 : rsum n (fun j => rsum n (fun i => ent V i k * ent A i j) * ent V' j l) = nth k w 0 * W k l).
  { unfold W. rewrite <- rsum_scal. apply rsum_ext. intros j Hj. rewrite X1 by exact Hj. ring. }
  assert (S2 : rsum n (fun j => rsum n (fun i => ent V i k * ent A i j) * ent V' j l) = nth l w' 0 * W k l).
  { rewrite (rsum_ext n _ (fun j => rsum n (fun i => ent V i k * (ent A i j * ent V' j l)))) by (intros; rewrite <- rsum_scal_r; apply rsum_ext; intros; ring).
    rewrite rsum_swap. unfold W. rewrite <- rsum_scal. apply rsum_ext. intros i Hi. rewrite rsum_scal, X2 by exact Hi. ring. }
  rewrite S1 in S2. lra.
Qed.
Lemma W_right k j : (k < n)%nat -> (j < n)%nat -> rsum n (fun l => W k l * ent V' j l) = ent V j k.
Proof.
  intros Hk Hj. destruct H' as (_ & _ & _ & (_ & _ & O1' & O2') & _). fold n in O1', O2'. unfold W.
  rewrite (rsum_ext n _ (fun l => rsum n (fun i => ent V i k * (ent V' j l * ent V' i l)))) by (intros; rewrite <- rsum_scal_r; apply rsum_ext; intros; ring).
  rewrite rsum_swap. rewrite (rsum_ext n _ (fun i => delta j i * ent V i k)) by (intros i Hi; rewrite rsum_scal, O2' by assumption; ring). apply (rsum_delta_l n j (fun i => ent V i k) Hj).
Qed.
Lemma W_left l i : (l < n)%nat -> (i < n)%nat -> rsum n (fun k => ent V i k * W k l) = ent V' i l.
Proof.
  intros Hl Hi. destruct H as (_ & _ & _ & (_ & _ & O1 & O2) & _). fold n in O1, O2. unfold W.
  rewrite (rsum_ext n _ (fun k => rsum n (fun q => ent V' q l * (ent V i k * ent V q k)))) by (intros; rewrite <- rsum_scal; apply rsum_ext; intros; ring).
  rewrite rsum_swap. rewrite (rsum_ext n _ (fun q => delta i q * ent V' q l)) by (intros q Hq; rewrite rsum_scal, O2 by assumption; ring). apply (rsum_delta_l n i (fun q => ent V' q l) Hi).
Qed.
Theorem spectral_fun (f : R -> R) i j : (i < n)%nat -> (j < n)%nat ->
  rsum n (fun k => ent V i k * f (nth k w 0) * ent V j k) = rsum n (fun l => ent V' i l * f (nth l w' 0) * ent V' j l).
Proof.
  intros Hi Hj. transitivity (rsum n (fun k => rsum n (fun l => ent V i k * (f (nth k w 0) * W k l) * ent V' j l))).
  - apply rsum_ext. intros k Hk. rewrite <- (W_right k j Hk Hj). rewrite <- rsum_scal. apply rsum_ext. intros. ring.
  - rewrite rsum_swap. apply rsum_ext. intros l Hl. rewrite <- (W_left l i Hl Hi). rewrite Rmult_assoc, <- rsum_scal_r. apply rsum_ext. intros k Hk.
    assert (F : f (nth k w 0) * W k l = f (nth l w' 0) * W k l). { pose proof (W_eig k l Hk Hl) as Q. apply Rmult_integral in Q. destruct Q as [Q| ->]; [|ring]. replace (nth l w' 0) with (nth k w 0) by lra. reflexivity. }
    rewrite F. ring.
Qed.
Lemma eig_le r : (r < n)%nat -> nth r w' 0 <= nth r w 0.
Proof.
  intros Hr. destruct (Rle_dec (nth r w' 0) (nth r w 0)) as [L|L]; [exact L|exfalso]. apply Rnot_le_lt in L.
  assert (LI : left_invertible (Mat r (S r) (fun l k => W k l))).
  { exists (Mat (S r) r (fun k l => W k l)). cbn [nr nc]. intros a b Ha Hb. unfold mprod. cbn [ent].
    assert (OW : rsum n (fun l => W a l * W b l) = delta a b).
    { destruct H as (_ & _ & _ & (_ & _ & O1 & O2) & _). fold n in O1, O2. rewrite <- (O1 a b) by lia.
      transitivity (rsum n (fun l => rsum n (fun i => W a l * ent V' i l * ent V i b))).
      - apply rsum_ext. intros l Hl. unfold W at 2. rewrite <- rsum_scal. apply rsum_ext. intros. ring.
      - rewrite rsum_swap. apply rsum_ext. intros i Hi. rewrite rsum_scal_r. rewrite W_right by lia. reflexivity. }
    rewrite <- OW. replace n with (r + (n - r))%nat by lia. rewrite rsum_app. rewrite (rsum_0 (n - r)); [ring|]. intros q Hq.
    assert (Z : W a (r + q) = 0).
    { pose proof (W_eig a (r + q) ltac:(lia) ltac:(lia)) as Q. apply Rmult_integral in Q. destruct Q as [Q|Q]; [|exact Q]. exfalso.
      destruct H as (_ & LW & AS & _). destruct H' as (_ & LW' & AS' & _). fold n in LW, LW'. pose proof (AS a r ltac:(lia)). pose proof (AS' r (r + q)%nat ltac:(lia)). lra. }
    rewrite Z. ring. }
  apply svd_rank in LI. cbn [nr nc] in LI. lia.
Qed.
End Two.
Theorem eigenvalues_unique : forall A w V w' V', is_eigh A w V -> is_eigh A w' V' -> w = w'.
Proof.
  intros A w V w' V' H H'. assert (L : length w = nr A) by apply H. assert (L' : length w' = nr A) by apply H'. apply (nth_ext w w' 0 0); [congruence|]. intros i Hi. rewrite L in Hi.
  apply Rle_antisym; [apply (eig_le A w' w V' V H' H i Hi)|apply (eig_le A w w' V V' H H' i Hi)].
Qed.
