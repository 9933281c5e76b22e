(** The pseudo-inverse exists and is unique; the EPAD matrix is unique at full rank. *)
From Verif Require Import Base BaseFacts S_sph S_grids S_decoder2 S_svd P_grids3 P_svd1 P_svd2.
From Coq Require Import ClassicalEpsilon.
Open Scope R_scope.

Lemma diag_rows n p V a b : orth n V -> (p <= n)%nat ->
  rsum n (fun c => rsum p (fun k => a k * V k c) * rsum p (fun l => V l c * b l)) = rsum p (fun k => a k * b k).
Proof.
  intros [_ O] Hp. rewrite (rsum_ext n _ (fun c => rsum p (fun k => rsum p (fun l => a k * b l * (V k c * V l c))))) by (intros; rewrite rsum_mult; apply rsum_ext; intros; apply rsum_ext; intros; ring).
  rewrite rsum_swap. apply rsum_ext. intros k Hk. rewrite rsum_swap. rewrite (rsum_ext p _ (fun l => delta k l * (a k * b l))) by (intros l Hl; rewrite rsum_scal, O by lia; ring).
  apply (rsum_delta_l p k (fun l => a k * b l) Hk).
Qed.
(** the pseudo-inverse out of a singular value decomposition *)
Definition spinv (Y U : mat) (sv : list R) (VH : mat) : mat :=
  Mat (nc Y) (nr Y) (fun i j => rsum (length sv) (fun k => ent VH k i * (if Req_EM_T (nth k sv 0) 0 then 0 else / nth k sv 0) * ent U j k)).
Theorem spinv_penrose : forall Y U sv VH, is_svd Y U sv VH -> penrose Y (spinv Y U sv VH).
Proof.
  intros Y U sv VH ((RU & CU & U1 & U2) & (RV & CV & V1 & V2) & L & _ & E). set (p := length sv) in *.
  assert (OU : orth (nr Y) (ent U)) by (split; assumption). assert (OV : orth (nc Y) (ent VH)) by (split; assumption).
  assert (PM : (p <= nr Y)%nat) by lia. assert (PN : (p <= nc Y)%nat) by lia.
  set (t := fun k => if Req_EM_T (nth k sv 0) 0 then 0 else / nth k sv 0). set (e := fun k => nth k sv 0 * t k).
  assert (E1 : forall k, e k * nth k sv 0 = nth k sv 0) by (intros; unfold e, t; destruct (Req_EM_T _ _) as [->|]; [ring|field; assumption]).
  assert (E2 : forall k, e k * t k = t k) by (intros; unfold e, t; destruct (Req_EM_T _ _) as [->|]; [ring|field; assumption]).
  assert (AP : forall i j, (i < nr Y)%nat -> (j < nr Y)%nat -> mprod (nc Y) Y (spinv Y U sv VH) i j = rsum p (fun k => ent U i k * e k * ent U j k)).
  { intros i j Hi Hj. unfold mprod. rewrite (rsum_ext (nc Y) _ (fun c => rsum p (fun k => (ent U i k * nth k sv 0) * ent VH k c) * rsum p (fun l => ent VH l c * (t l * ent U j l)))).
    - rewrite (diag_rows (nc Y) p (ent VH) (fun k => ent U i k * nth k sv 0) (fun l => t l * ent U j l) OV PN). apply rsum_ext. intros. unfold e. ring.
    - intros c Hc. rewrite E by assumption. f_equal. cbn [spinv ent]. apply rsum_ext. intros. fold (t i0). ring. }
  assert (PA : forall i j, (i < nc Y)%nat -> (j < nc Y)%nat -> mprod (nr Y) (spinv Y U sv VH) Y i j = rsum p (fun k => ent VH k i * e k * ent VH k j)).
  { intros i j Hi Hj. unfold mprod. rewrite (rsum_ext (nr Y) _ (fun c => rsum p (fun k => (ent VH k i * t k) * trf (ent U) k c) * rsum p (fun l => trf (ent U) l c * (nth l sv 0 * ent VH l j)))).
    - rewrite (diag_rows (nr Y) p (trf (ent U)) (fun k => ent VH k i * t k) (fun l => nth l sv 0 * ent VH l j) (orth_tr _ _ OU) PM). apply rsum_ext. intros. unfold e. ring.
    - intros c Hc. rewrite (E c j) by assumption. f_equal. apply rsum_ext. intros. unfold trf. ring. }
  split; [reflexivity|]. split; [reflexivity|]. split; [|split; [|split]].
  - intros i j Hi Hj. rewrite (rsum_ext (nr Y) _ (fun c => rsum p (fun k => (ent U i k * e k) * trf (ent U) k c) * rsum p (fun l => trf (ent U) l c * (nth l sv 0 * ent VH l j)))).
    + rewrite (diag_rows (nr Y) p (trf (ent U)) (fun k => ent U i k * e k) (fun l => nth l sv 0 * ent VH l j) (orth_tr _ _ OU) PM). rewrite (E i j) by assumption. apply rsum_ext. intros k Hk. rewrite <- (E1 k) at 2. ring.
    + intros c Hc. rewrite AP, (E c j) by assumption. f_equal. apply rsum_ext. intros. unfold trf. ring.
  - intros i j Hi Hj. rewrite (rsum_ext (nc Y) _ (fun c => rsum p (fun k => (ent VH k i * e k) * ent VH k c) * rsum p (fun l => ent VH l c * (t l * ent U j l)))).
    + rewrite (diag_rows (nc Y) p (ent VH) (fun k => ent VH k i * e k) (fun l => t l * ent U j l) OV PN). cbn [spinv ent]. apply rsum_ext. intros k Hk. fold (t k). rewrite <- (E2 k) at 2. ring.
    + intros c Hc. rewrite PA by assumption. f_equal. cbn [spinv ent]. apply rsum_ext. intros q Hq. fold (t q). ring.
  - intros i j Hi Hj. rewrite !AP by assumption. apply rsum_ext. intros. ring.
  - intros i j Hi Hj. rewrite !PA by assumption. apply rsum_ext. intros. ring.
Qed.
Theorem penrose_exists : forall Y, exists P, penrose Y P.
Proof. intros Y. destruct (svd_exists Y) as (U & sv & VH & H). exists (spinv Y U sv VH). apply spinv_penrose. exact H. Qed.

Lemma mm_sym2 n A B i j : (forall k, (k < n)%nat -> A i k = A k i) -> (forall k, (k < n)%nat -> B k j = B j k) -> mm n A B i j = mm n B A j i.
Proof. intros H K. apply rsum_ext. intros k Hk. rewrite H, K by exact Hk. ring. Qed.
Lemma mprod_mm n A B i j : mprod n A B i j = mm n (ent A) (ent B) i j. Proof. reflexivity. Qed.
Theorem penrose_unique : forall Y P Q, penrose Y P -> penrose Y Q -> meq P Q.
Proof.
  intros Y P Q (RP & CP & P1 & P2 & P3 & P4) (RQ & CQ & Q1 & Q2 & Q3 & Q4).
  set (m := nr Y) in *. set (n := nc Y) in *. set (A := ent Y) in *. set (p := ent P) in *. set (q := ent Q) in *.
  change (forall i j, (i < m)%nat -> (j < n)%nat -> mm m (mm n A p) A i j = A i j) in P1. change (forall i j, (i < m)%nat -> (j < n)%nat -> mm m (mm n A q) A i j = A i j) in Q1.
  change (forall i j, (i < n)%nat -> (j < m)%nat -> mm n (mm m p A) p i j = p i j) in P2. change (forall i j, (i < n)%nat -> (j < m)%nat -> mm n (mm m q A) q i j = q i j) in Q2.
  change (forall i j, (i < m)%nat -> (j < m)%nat -> mm n A p i j = mm n A p j i) in P3. change (forall i j, (i < m)%nat -> (j < m)%nat -> mm n A q i j = mm n A q j i) in Q3.
  change (forall i j, (i < n)%nat -> (j < n)%nat -> mm m p A i j = mm m p A j i) in P4. change (forall i j, (i < n)%nat -> (j < n)%nat -> mm m q A i j = mm m q A j i) in Q4.
  assert (AE : forall i j, (i < m)%nat -> (j < m)%nat -> mm n A p i j = mm n A q i j).
  { intros i j Hi Hj. rewrite (mm_ext n A (mm m (mm n A q) A) p p) by (intros; try reflexivity; symmetry; apply Q1; assumption). rewrite (mm_assoc m n (mm n A q) A p).
    rewrite (Q3 i j) by assumption. rewrite (mm_ext n A (mm m (mm n A p) A) q q j i) by (intros; try reflexivity; symmetry; apply P1; assumption). rewrite (mm_assoc m n (mm n A p) A q).
    apply mm_sym2; intros k Hk; [apply Q3|apply P3]; assumption. }
  assert (BE : forall i j, (i < n)%nat -> (j < n)%nat -> mm m p A i j = mm m q A i j).
  { intros i j Hi Hj. rewrite (mm_ext m p p A (mm m (mm n A q) A)) by (intros; try reflexivity; symmetry; apply Q1; assumption).
    rewrite (mm_ext m p p (mm m (mm n A q) A) (mm n A (mm m q A))) by (intros; try reflexivity; apply mm_assoc). rewrite <- (mm_assoc m n p A (mm m q A)).
    rewrite (Q4 i j) by assumption. rewrite (mm_ext m q q A (mm m (mm n A p) A) j i) by (intros; try reflexivity; symmetry; apply P1; assumption).
    rewrite (mm_ext m q q (mm m (mm n A p) A) (mm n A (mm m p A)) j i) by (intros; try reflexivity; apply mm_assoc). rewrite <- (mm_assoc m n q A (mm m p A)).
    apply mm_sym2; intros k Hk; [apply P4|apply Q4]; assumption. }
  split; [congruence|]. split; [congruence|]. intros i j Hi Hj. rewrite RP in Hi. rewrite CP in Hj. fold p q.
  rewrite <- P2, <- Q2 by assumption. rewrite (mm_ext n (mm m p A) (mm m q A) p p) by (intros; try reflexivity; apply BE; assumption).
  rewrite !mm_assoc. apply mm_ext; [reflexivity|]. intros k Hk. apply AE; assumption.
Qed.
Theorem pinv_function : exists pinv, exact_pinv pinv.
Proof. exists (fun Y => proj1_sig (constructive_indefinite_description _ (penrose_exists Y))). intros Y. destruct (constructive_indefinite_description _ (penrose_exists Y)) as [P H]. exact H. Qed.
Theorem svd_function : exists svd, exact_svd svd.
Proof.
  assert (X : forall Y, exists r : mat * list R * mat, is_svd Y (fst (fst r)) (snd (fst r)) (snd r)) by (intros Y; destruct (svd_exists Y) as (U & sv & VH & H); exists (U, sv, VH); exact H).
  exists (fun Y => proj1_sig (constructive_indefinite_description _ (X Y))). intros Y U sv VH. destruct (constructive_indefinite_description _ (X Y)) as [r H]. cbn [proj1_sig]. intros ->. exact H.
Qed.
(** a decomposition of one matrix extends to all *)
Theorem svd_extend : forall Y U sv VH, is_svd Y U sv VH -> exists svd, exact_svd svd /\ svd Y = (U, sv, VH).
Proof.
  intros Y U sv VH H. destruct svd_function as [f Hf]. exists (fun Z => if excluded_middle_informative (Z = Y) then (U, sv, VH) else f Z). split.
  - intros Z U' sv' VH'. destruct (excluded_middle_informative (Z = Y)) as [->|]; [intros E; injection E as <- <- <-; exact H|apply Hf].
  - destruct (excluded_middle_informative (Y = Y)); [reflexivity|contradiction].
Qed.

(** ** U eye VH: unique when Y has full rank *)
Definition uev (Y U VH : mat) : mat := Mat (nr Y) (nc Y) (fun i j => rsum (Nat.min (nr Y) (nc Y)) (fun k => ent U i k * ent VH k j)).
Lemma svd_pos Y U sv VH : is_svd Y U sv VH -> (nc Y <= nr Y)%nat -> left_invertible Y -> forall k, (k < nc Y)%nat -> 0 < nth k sv 0.
Proof.
  intros ((RU & CU & U1 & U2) & (RV & CV & V1 & V2) & L & PS & E) LE [X HX] k Hk. set (p := length sv) in *. assert (Lp : p = nc Y) by lia. assert (Kp : (k < p)%nat) by lia.
  destruct (PS (nth k sv 0) (nth_In sv 0 Kp)) as [H|H]; [exact H|]. exfalso.
  assert (YV : forall i, (i < nr Y)%nat -> rsum (nc Y) (fun j => ent Y i j * ent VH k j) = 0).
  { intros i Hi. rewrite (rsum_ext (nc Y) _ (fun j => rsum p (fun q => ent U i q * nth q sv 0 * (ent VH q j * ent VH k j)))) by (intros; rewrite E by assumption; rewrite <- rsum_scal_r; apply rsum_ext; intros; ring).
    rewrite rsum_swap. rewrite (rsum_ext p _ (fun q => delta k q * (ent U i q * nth q sv 0))) by (intros q Hq; rewrite rsum_scal, V2 by lia; rewrite delta_sym; ring).
    rewrite (rsum_delta_l p k (fun q => ent U i q * nth q sv 0)) by lia. rewrite <- H. ring. }
  assert (Z : forall a, (a < nc Y)%nat -> ent VH k a = 0).
  { intros a Ha. rewrite <- (rsum_delta_l (nc Y) a (ent VH k) Ha). rewrite (rsum_ext (nc Y) _ (fun b => rsum (nr Y) (fun q => ent X a q * (ent Y q b * ent VH k b)))) by (intros b Hb; rewrite <- HX by assumption; unfold mprod; rewrite <- rsum_scal_r; apply rsum_ext; intros; ring).
    rewrite rsum_swap. apply rsum_0. intros q Hq. rewrite rsum_scal, YV by exact Hq. ring. }
  pose proof (V2 k k Hk Hk) as O. rewrite delta_same in O. rewrite (rsum_0 (nc Y)) in O by (intros j Hj; rewrite Z by exact Hj; ring). lra.
Qed.
Theorem uev_unique_tall : forall Y U1 s1 V1 U2 s2 V2, is_svd Y U1 s1 V1 -> is_svd Y U2 s2 V2 -> (nc Y <= nr Y)%nat -> left_invertible Y -> meq (uev Y U1 V1) (uev Y U2 V2).
Proof.
  intros Y U1 s1 V1 U2 s2 V2 S1 S2 LE LI. set (n := nc Y) in *. set (m := nr Y) in *.
  (* facts about one decomposition *)
  assert (F : forall U s V, is_svd Y U s V -> exists D P Pi : fm,
     (forall i j, D i j = ent (uev Y U V) i j) /\
     (forall i j, (i < m)%nat -> (j < n)%nat -> ent Y i j = mm n D P i j) /\
     (forall i j, P i j = P j i) /\
     (forall i j, (i < n)%nat -> (j < n)%nat -> mm m (trf D) D i j = delta i j) /\
     (forall i j, (i < n)%nat -> (j < n)%nat -> mm n P Pi i j = delta i j) /\
     (forall x, 0 <= rsum n (fun a => rsum n (fun b => x a * P a b * x b))) /\
     (forall x, rsum n (fun a => rsum n (fun b => x a * P a b * x b)) = 0 -> forall a, (a < n)%nat -> x a = 0)).
  { intros U s V SV. pose proof (svd_pos Y U s V SV LE LI) as PS. destruct SV as ((RU & CU & A1 & A2) & (RV & CV & B1 & B2) & L & _ & E).
    fold m in RU, CU, A1, A2, L, E. fold n in RV, CV, B1, B2, L, E, PS. assert (Lp : length s = n) by lia. rewrite Lp in E.
    assert (OU : orth m (ent U)) by (split; assumption). assert (OV : orth n (ent V)) by (split; assumption).
    exists (ent (uev Y U V)), (fun i j => rsum n (fun k => (ent V k i * nth k s 0) * ent V k j)), (fun i j => rsum n (fun k => (ent V k i * / nth k s 0) * ent V k j)).
    assert (Q : forall x, rsum n (fun a => rsum n (fun b => x a * rsum n (fun k => (ent V k a * nth k s 0) * ent V k b) * x b)) = rsum n (fun k => nth k s 0 * rsum n (fun a => ent V k a * x a) ^ 2)).
    { intros x. rewrite (rsum_ext n _ (fun a => rsum n (fun k => rsum n (fun b => nth k s 0 * (ent V k a * x a * (ent V k b * x b)))))).
      - rewrite rsum_swap. apply rsum_ext. intros k Hk. rewrite (rsum_ext n _ (fun a => nth k s 0 * rsum n (fun b => ent V k a * x a * (ent V k b * x b)))) by (intros; rewrite rsum_scal; reflexivity).
        rewrite rsum_scal. f_equal. rewrite <- rsum_mult. ring.
      - intros a Ha. rewrite rsum_swap. apply rsum_ext. intros b Hb. rewrite <- rsum_scal, <- rsum_scal_r. apply rsum_ext. intros. ring. }
    split; [reflexivity|]. split; [|split; [|split; [|split; [|split]]]].
    - intros i j Hi Hj. rewrite E by assumption. unfold mm. cbn [uev ent]. fold m n. replace (Nat.min m n) with n by lia.
      rewrite (rsum_ext n (fun k => rsum n (fun k0 => ent U i k0 * ent V k0 k) * rsum n (fun k0 => ent V k0 k * nth k0 s 0 * ent V k0 j)) (fun c => rsum n (fun k => ent U i k * ent V k c) * rsum n (fun l => ent V l c * (nth l s 0 * ent V l j)))) by (intros; f_equal; apply rsum_ext; intros; ring).
      rewrite (diag_rows n n (ent V) (fun k => ent U i k) (fun l => nth l s 0 * ent V l j) OV (le_n n)). apply rsum_ext. intros. ring.
    - intros i j. apply rsum_ext. intros. ring.
    - intros i j Hi Hj. unfold mm, trf. cbn [uev ent]. fold m n. replace (Nat.min m n) with n by lia.
      rewrite (rsum_ext m _ (fun c => rsum n (fun k => ent V k i * trf (ent U) k c) * rsum n (fun l => trf (ent U) l c * ent V l j))) by (intros; unfold trf; f_equal; apply rsum_ext; intros; ring).
      rewrite (diag_rows m n (trf (ent U)) (fun k => ent V k i) (fun l => ent V l j) (orth_tr _ _ OU) LE). apply B1; assumption.
    - intros i j Hi Hj. unfold mm.
      rewrite (rsum_ext n (fun k => rsum n (fun k0 => ent V k0 i * nth k0 s 0 * ent V k0 k) * rsum n (fun k0 => ent V k0 k * / nth k0 s 0 * ent V k0 j)) (fun c => rsum n (fun k => (ent V k i * nth k s 0) * ent V k c) * rsum n (fun l => ent V l c * (/ nth l s 0 * ent V l j)))) by (intros; f_equal; apply rsum_ext; intros; ring).
      rewrite (diag_rows n n (ent V) (fun k => ent V k i * nth k s 0) (fun l => / nth l s 0 * ent V l j) OV (le_n n)). rewrite <- (B1 i j Hi Hj). apply rsum_ext. intros k Hk. field. specialize (PS k Hk). lra.
    - intros x. rewrite Q. apply rsum_nonneg. intros k Hk. apply Rmult_le_pos; [specialize (PS k Hk); lra|apply pow2_ge_0].
    - intros x Z. rewrite Q in Z. assert (VX : forall k, (k < n)%nat -> rsum n (fun a => ent V k a * x a) = 0).
      { intros k Hk. pose proof (rsum_nonneg_0 n _ (fun k Hk => Rmult_le_pos _ _ (Rlt_le _ _ (PS k Hk)) (pow2_ge_0 _)) Z k Hk) as W. cbn beta in W. specialize (PS k Hk). apply Rmult_integral in W. destruct W as [W|W]; [lra|]. apply Rsqr_0_uniq. rewrite Rsqr_pow2. exact W. }
      intros a Ha. rewrite <- (rsum_delta_l n a x Ha). rewrite (rsum_ext n _ (fun b => rsum n (fun k => ent V k a * (ent V k b * x b)))) by (intros b Hb; rewrite <- (B1 a b) by assumption; rewrite <- rsum_scal_r; apply rsum_ext; intros; ring).
      rewrite rsum_swap. apply rsum_0. intros k Hk. rewrite rsum_scal, VX by exact Hk. ring. }
  destruct (F _ _ _ S1) as (D1 & P1 & I1 & ED1 & Y1 & SY1 & O1 & IV1 & N1 & Z1). destruct (F _ _ _ S2) as (D2 & P2 & I2 & ED2 & Y2 & SY2 & O2 & IV2 & N2 & Z2). clear F.
  (* the squares agree *)
  assert (G : forall D P, (forall i j, (i < m)%nat -> (j < n)%nat -> ent Y i j = mm n D P i j) -> (forall i j, P i j = P j i) -> (forall i j, (i < n)%nat -> (j < n)%nat -> mm m (trf D) D i j = delta i j) ->
     forall i j, (i < n)%nat -> (j < n)%nat -> mm m (trf (ent Y)) (ent Y) i j = mm n P P i j).
  { intros D P EY SY O i j Hi Hj. transitivity (mm m (mm n P (trf D)) (mm n D P) i j); [apply mm_ext; intros k Hk; [unfold trf; rewrite EY by assumption; unfold mm; apply rsum_ext; intros; rewrite (SY i i0); ring|apply EY; assumption]|].
    rewrite mm_assoc. apply mm_ext; [reflexivity|]. intros k Hk. rewrite <- mm_assoc. rewrite (mm_ext n _ delta P P) by (try reflexivity; intros; apply O; assumption). apply mm_delta_l. exact Hk. }
  assert (SQ : forall i j, (i < n)%nat -> (j < n)%nat -> mm n P1 P1 i j = mm n P2 P2 i j).
  { intros i j Hi Hj. rewrite <- (G D1 P1 Y1 SY1 O1 i j Hi Hj). apply (G D2 P2 Y2 SY2 O2 i j Hi Hj). }
  set (X := fun i j => P1 i j - P2 i j). assert (XS : forall i j, X i j = X j i) by (intros; unfold X; rewrite SY1, SY2; reflexivity).
  assert (XE : forall i j, (i < n)%nat -> (j < n)%nat -> mm n P1 X i j + mm n X P2 i j = 0).
  { intros i j Hi Hj. transitivity (mm n P1 P1 i j - mm n P2 P2 i j); [|rewrite SQ by assumption; ring]. unfold mm, X. rewrite <- rsum_plus, <- rsum_minus. apply rsum_ext. intros. ring. }
  assert (T1 : rsum n (fun c => rsum n (fun a => rsum n (fun b => X a c * P1 a b * X b c))) + rsum n (fun c => rsum n (fun a => rsum n (fun b => X a c * P2 a b * X b c))) = 0).
  { transitivity (rsum n (fun a => rsum n (fun c => X a c * (mm n P1 X a c + mm n X P2 a c)))).
    - rewrite (rsum_ext n (fun a => rsum n (fun c => X a c * (mm n P1 X a c + mm n X P2 a c))) (fun a => rsum n (fun c => X a c * mm n P1 X a c) + rsum n (fun c => X a c * mm n X P2 a c))) by (intros; rewrite <- rsum_plus; apply rsum_ext; intros; ring). rewrite rsum_plus. f_equal.
      + rewrite rsum_swap. apply rsum_ext. intros a Ha. apply rsum_ext. intros c Hc. unfold mm. rewrite <- rsum_scal. apply rsum_ext. intros. ring.
      + apply rsum_ext. intros a Ha. apply rsum_ext. intros c Hc. unfold mm. rewrite <- rsum_scal. apply rsum_ext. intros b Hb. rewrite (XS c a), (XS b a), (SY2 c b). ring.
    - apply rsum_0. intros a Ha. apply rsum_0. intros c Hc. rewrite XE by assumption. ring. }
  assert (A1 : 0 <= rsum n (fun c => rsum n (fun a => rsum n (fun b => X a c * P1 a b * X b c)))) by (apply rsum_nonneg; intros c Hc; apply (N1 (fun a => X a c))).
  assert (A2 : 0 <= rsum n (fun c => rsum n (fun a => rsum n (fun b => X a c * P2 a b * X b c)))) by (apply rsum_nonneg; intros c Hc; apply (N2 (fun a => X a c))).
  assert (TZ : rsum n (fun c => rsum n (fun a => rsum n (fun b => X a c * P1 a b * X b c))) = 0) by lra.
  assert (X0 : forall a c, (a < n)%nat -> (c < n)%nat -> X a c = 0).
  { intros a c Ha Hc. apply (Z1 (fun a => X a c)); [|exact Ha]. exact (rsum_nonneg_0 n _ (fun c _ => N1 (fun a => X a c)) TZ c Hc). }
  split; [reflexivity|]. split; [reflexivity|]. intros i j Hi Hj. cbn [uev nr nc] in Hi, Hj. fold m in Hi. fold n in Hj. rewrite <- ED1, <- ED2.
  assert (DP : forall k, (k < n)%nat -> mm n D1 P1 i k = mm n D2 P1 i k).
  { intros k Hk. rewrite <- Y1, Y2 by assumption. apply mm_ext; [reflexivity|]. intros q Hq. specialize (X0 q k Hq Hk). unfold X in X0. lra. }
  rewrite <- (mm_delta_r n D1 i j Hj), <- (mm_delta_r n D2 i j Hj).
  transitivity (mm n (mm n D1 P1) I1 i j).
  - rewrite mm_assoc. apply mm_ext; [reflexivity|]. intros k Hk. symmetry. apply IV1; assumption.
  - transitivity (mm n (mm n D2 P1) I1 i j); [apply mm_ext; [exact DP|reflexivity]|]. rewrite mm_assoc. apply mm_ext; [reflexivity|]. intros k Hk. apply IV1; assumption.
Qed.
Lemma svd_tr Y U s V : is_svd Y U s V -> is_svd (mtr Y) (mtr V) s (mtr U).
Proof.
  intros ((RU & CU & A1 & A2) & (RV & CV & B1 & B2) & L & P & E). split; [|split; [|split; [|split]]].
  - split; [exact CV|]. split; [exact RV|]. split; [exact B2|exact B1].
  - split; [exact CU|]. split; [exact RU|]. split; [exact A2|exact A1].
  - rewrite L. cbn [mtr nr nc]. apply Nat.min_comm.
  - exact P.
  - intros i j Hi Hj. cbn [mtr nr nc ent] in *. rewrite E by assumption. apply rsum_ext. intros. ring.
Qed.
Theorem svd_rank Y : left_invertible Y -> (nc Y <= nr Y)%nat.
Proof.
  intros [X HX]. destruct (Nat.le_gt_cases (nc Y) (nr Y)) as [H|H]; [exact H|exfalso].
  destruct (svd_exists Y) as (U & sv & VH & (RU & CU & U1 & U2) & (RV & CV & V1 & V2) & L & PS & E).
  set (k := nr Y) in *. assert (Hk : (k < nc Y)%nat) by exact H.
  assert (YV : forall i, (i < nr Y)%nat -> rsum (nc Y) (fun j => ent Y i j * ent VH k j) = 0).
  { intros i Hi. rewrite (rsum_ext (nc Y) _ (fun j => rsum (length sv) (fun q => ent U i q * nth q sv 0 * (ent VH q j * ent VH k j)))) by (intros; rewrite E by assumption; rewrite <- rsum_scal_r; apply rsum_ext; intros; ring).
    rewrite rsum_swap. apply rsum_0. intros q Hq. rewrite rsum_scal, V2 by lia. replace (delta q k) with 0; [ring|]. unfold delta. destruct (Nat.eqb_spec q k); [lia|reflexivity]. }
  assert (Z : forall a, (a < nc Y)%nat -> ent VH k a = 0).
  { intros a Ha. rewrite <- (rsum_delta_l (nc Y) a (ent VH k) Ha). rewrite (rsum_ext (nc Y) _ (fun b => rsum (nr Y) (fun q => ent X a q * (ent Y q b * ent VH k b)))) by (intros b Hb; rewrite <- HX by assumption; unfold mprod; rewrite <- rsum_scal_r; apply rsum_ext; intros; ring).
    rewrite rsum_swap. apply rsum_0. intros q Hq. rewrite rsum_scal, YV by exact Hq. ring. }
  pose proof (V2 k k Hk Hk) as O. rewrite delta_same in O. rewrite (rsum_0 (nc Y)) in O by (intros j Hj; rewrite Z by exact Hj; ring). lra.
Qed.
Theorem uev_unique : forall Y U1 s1 V1 U2 s2 V2, is_svd Y U1 s1 V1 -> is_svd Y U2 s2 V2 -> full_rank Y -> meq (uev Y U1 V1) (uev Y U2 V2).
Proof.
  intros Y U1 s1 V1 U2 s2 V2 A B [H|H].
  - apply (uev_unique_tall Y U1 s1 V1 U2 s2 V2 A B); [apply svd_rank; exact H|exact H].
  - pose proof (uev_unique_tall (mtr Y) _ _ _ _ _ _ (svd_tr _ _ _ _ A) (svd_tr _ _ _ _ B) (svd_rank _ H) H) as (_ & _ & M). split; [reflexivity|]. split; [reflexivity|].
    intros i j Hi Hj. specialize (M j i Hj Hi). cbn [uev mtr nr nc ent] in M |- *. rewrite (Nat.min_comm (nc Y)) in M.
    rewrite (rsum_ext _ (fun k => ent U1 i k * ent V1 k j) (fun k => ent V1 k j * ent U1 i k)) by (intros; ring). rewrite M. apply rsum_ext. intros; ring.
Qed.
(** without full rank another decomposition gives another matrix *)
Theorem uev_not_unique : forall Y U s V k, is_svd Y U s V -> (k < length s)%nat -> nth k s 0 = 0 -> exists U', is_svd Y U' s V /\ ~ meq (uev Y U V) (uev Y U' V).
Proof.
  intros Y U s V k ((RU & CU & A1 & A2) & (RV & CV & B1 & B2) & L & P & E) Hk Z.
  set (f := fun c => if Nat.eqb c k then -1 else 1). assert (FF : forall c, f c * f c = 1) by (intros c; unfold f; destruct (Nat.eqb c k); ring).
  exists (Mat (nr Y) (nr Y) (fun i c => f c * ent U i c)). split.
  - split; [|split; [|split; [|split]]]; try assumption.
    + split; [reflexivity|]. split; [reflexivity|]. cbn [ent]. split; intros i j Hi Hj.
      * rewrite (rsum_ext _ _ (fun c => f i * f j * (ent U c i * ent U c j))) by (intros; ring). rewrite rsum_scal, A1 by assumption. unfold delta. destruct (Nat.eqb_spec i j) as [->|]; [rewrite FF; ring|ring].
      * rewrite (rsum_ext _ _ (fun c => (f c * f c) * (ent U i c * ent U j c))) by (intros; ring). rewrite <- (A2 i j Hi Hj). apply rsum_ext. intros. rewrite FF. ring.
    + split; [exact RV|]. split; [exact CV|]. split; assumption.
    + intros i j Hi Hj. rewrite E by assumption. apply rsum_ext. intros c Hc. cbn [ent]. unfold f. destruct (Nat.eqb_spec c k) as [->|]; [rewrite Z; ring|ring].
  - intros (_ & _ & M). cbn [uev nr nc ent] in M. rewrite <- L in M.
    assert (D0 : forall i j, (i < nr Y)%nat -> (j < nc Y)%nat -> ent U i k * ent V k j = 0).
    { intros i j Hi Hj. specialize (M i j Hi Hj). assert (W : rsum (length s) (fun c => ent U i c * ent V c j) - rsum (length s) (fun c => f c * ent U i c * ent V c j) = 0) by (rewrite M; ring).
      rewrite <- rsum_minus in W. rewrite (rsum_ext _ _ (fun c => delta k c * (2 * (ent U i c * ent V c j)))) in W by (intros c Hc; unfold f, delta; rewrite (Nat.eqb_sym k c); destruct (Nat.eqb c k); ring).
      rewrite (rsum_delta_l _ k (fun c => 2 * (ent U i c * ent V c j)) Hk) in W. lra. }
    assert (Hm : (k < nr Y)%nat) by lia. assert (Hn : (k < nc Y)%nat) by lia.
    pose proof (A1 k k Hm Hm) as OU. pose proof (B2 k k Hn Hn) as OV. rewrite delta_same in OU, OV.
    assert (T : rsum (nr Y) (fun i => ent U i k * ent U i k) * rsum (nc Y) (fun j => ent V k j * ent V k j) = 0).
    { rewrite rsum_mult. apply rsum_0. intros i Hi. apply rsum_0. intros j Hj. replace (ent U i k * ent U i k * (ent V k j * ent V k j)) with ((ent U i k * ent V k j) * (ent U i k * ent V k j)) by ring. rewrite D0 by assumption. ring. }
    rewrite OU, OV in T. lra.
Qed.
(** full rank from positive singular values *)
Theorem full_rank_svd : forall Y U s V, is_svd Y U s V -> (forall k, (k < length s)%nat -> 0 < nth k s 0) -> full_rank Y.
Proof.
  assert (T : forall Y U s V, is_svd Y U s V -> (nc Y <= nr Y)%nat -> (forall k, (k < length s)%nat -> 0 < nth k s 0) -> left_invertible Y).
  { intros Y U s V ((RU & CU & A1 & A2) & (RV & CV & B1 & B2) & L & P & E) LE PS. assert (Lp : length s = nc Y) by lia. rewrite Lp in *.
    exists (Mat (nc Y) (nr Y) (fun a i => rsum (nc Y) (fun k => ent V k a * / nth k s 0 * ent U i k))). intros a b Ha Hb. unfold mprod. cbn [ent].
    rewrite (rsum_ext (nr Y) _ (fun c => rsum (nc Y) (fun k => (ent V k a * / nth k s 0) * trf (ent U) k c) * rsum (nc Y) (fun l => trf (ent U) l c * (nth l s 0 * ent V l b)))).
    - rewrite (diag_rows (nr Y) (nc Y) (trf (ent U)) (fun k => ent V k a * / nth k s 0) (fun l => nth l s 0 * ent V l b)); [|split; assumption|exact LE].
      rewrite <- (B1 a b Ha Hb). apply rsum_ext. intros k Hk. field. specialize (PS k Hk). lra.
    - intros c Hc. rewrite E by assumption. f_equal. apply rsum_ext. intros. unfold trf. ring. }
  intros Y U s V H PS. destruct (Nat.le_ge_cases (nc Y) (nr Y)) as [LE|LE].
  - left. apply (T Y U s V H LE PS).
  - right. apply (T (mtr Y) (mtr V) s (mtr U)); [apply svd_tr; exact H|exact LE|exact PS].
Qed.
Theorem not_full_rank : forall Y, ~ full_rank Y -> forall U s V, is_svd Y U s V -> exists k, (k < length s)%nat /\ nth k s 0 = 0.
Proof.
  intros Y NF U s V H. apply Classical_Prop.NNPP. intros NX. apply NF. apply (full_rank_svd Y U s V H). intros k Hk.
  destruct H as (_ & _ & _ & P & _). destruct (P (nth k s 0) (nth_In s 0 Hk)) as [Q|Q]; [exact Q|]. exfalso. apply NX. exists k. split; [exact Hk|symmetry; exact Q].
Qed.
