(** Linear algebra over the complex numbers: least squares and Moore-Penrose inverses. *)
From Coq Require Import Lra Lia Ring.
From Verif Require Import Base BaseFacts M_utils M_sig M_process M_sph0 M_sph S_linalg S_sph P_sph1 P_sph7 P_sph9 P_sph11 M_parsa3 M_process3 S_zp P_cplx M_io M_io2 M_io3 M_sph3 S_sph3 S_grids P_csph1 P_csph2 P_csph3.
Open Scope R_scope.
Add Ring C2ring_csph4 : cring.

Lemma csum_mul_r n c f : csum n (fun k => cmul (f k) c) = cmul (csum n f) c.
Proof. rewrite (csum_ext' n _ (fun k => cmul c (f k))) by (intros; ring). rewrite csum_mul. ring. Qed.
Lemma cassoc n m (a : nat -> C2) (b : nat -> nat -> C2) (c : nat -> C2) :
  csum n (fun k => cmul (a k) (csum m (fun l => cmul (b k l) (c l)))) = csum m (fun l => cmul (csum n (fun k => cmul (a k) (b k l))) (c l)).
Proof.
  transitivity (csum n (fun k => csum m (fun l => cmul (cmul (a k) (b k l)) (c l)))).
  - apply csum_ext'. intros k _. rewrite <- csum_mul. apply csum_ext'. intros l _. ring.
  - rewrite csum_swap. apply csum_ext'. intros l _. apply csum_mul_r.
Qed.
Lemma cnorm2_ge0 z : 0 <= cnorm2 z.
Proof. unfold cnorm2. pose proof (pow2_ge_0 (fst z)). pose proof (pow2_ge_0 (snd z)). lra. Qed.
Lemma cnorm2_0 z : cnorm2 z = 0 -> z = cre 0.
Proof. unfold cnorm2. intros H. pose proof (pow2_ge_0 (fst z)). pose proof (pow2_ge_0 (snd z)). apply ceq; cbn; nra. Qed.
Lemma cnorm2_csum_0 n f : rsum n (fun q => cnorm2 (f q)) = 0 -> forall q, (q < n)%nat -> f q = cre 0.
Proof.
  intros H q Hq. apply cnorm2_0. apply Rle_antisym; [|apply cnorm2_ge0]. rewrite <- H. apply Rle_trans with (rsum n (fun i => if Nat.eqb i q then cnorm2 (f i) else 0)).
  - rewrite (rsum_single n q); auto; [rewrite Nat.eqb_refl; lra|]. intros i _ D. destruct (Nat.eqb_spec i q); congruence.
  - apply rsum_le. intros i _. destruct (Nat.eqb i q); [lra|apply cnorm2_ge0].
Qed.

(** ** normal equations and least squares *)
Definition capply (A : cmat) (c : nat -> C2) (q : nat) : C2 := csum (cnc A) (fun k => cmul (cent A q k) (c k)).
Definition cnormal (A : cmat) (t c : nat -> C2) : Prop :=
  forall i, (i < cnc A)%nat -> csum (cnr A) (fun q => cmul (cconj (cent A q i)) (cadd (capply A c q) (cscal (-1) (t q)))) = cre 0.
Lemma capply_sub A c d q : cadd (capply A c q) (cscal (-1) (capply A d q)) = capply A (fun k => cadd (c k) (cscal (-1) (d k))) q.
Proof. unfold capply. rewrite cscal_cre, <- csum_mul, <- csum_add. apply csum_ext'. intros k _. rewrite cscal_cre. ring. Qed.
(** the residual is orthogonal to the range *)
Lemma orth A t c d : cnormal A t c -> csum (cnr A) (fun q => cmul (cconj (capply A d q)) (cadd (capply A c q) (cscal (-1) (t q)))) = cre 0.
Proof.
  intros H. transitivity (csum (cnc A) (fun i => cmul (cconj (d i)) (csum (cnr A) (fun q => cmul (cconj (cent A q i)) (cadd (capply A c q) (cscal (-1) (t q))))))).
  - transitivity (csum (cnr A) (fun q => csum (cnc A) (fun i => cmul (cconj (d i)) (cmul (cconj (cent A q i)) (cadd (capply A c q) (cscal (-1) (t q))))))).
    + apply csum_ext'. intros q _. unfold capply at 1. rewrite cconj_csum, <- csum_mul_r. apply csum_ext'. intros i _. rewrite cconj_mul. ring.
    + rewrite csum_swap. apply csum_ext'. intros i _. apply csum_mul.
  - apply csum_zero. intros i Hi. rewrite (H i Hi). ring.
Qed.
Lemma pythagoras (a b : C2) : cnorm2 (cadd a b) = cnorm2 a + cnorm2 b + 2 * fst (cmul (cconj a) b).
Proof. unfold cnorm2, cadd, cmul, cconj. cbn [fst snd]. ring. Qed.
Lemma normal_best A t c : cnormal A t c -> cbest_fit A t c.
Proof.
  intros H d. unfold csquares. set (e := fun k => cadd (d k) (cscal (-1) (c k))).
  assert (E : forall q, cadd (csum (cnc A) (fun k => cmul (cent A q k) (d k))) (cscal (-1) (t q)) = cadd (capply A e q) (cadd (capply A c q) (cscal (-1) (t q)))).
  { intros q. fold (capply A d q). unfold e. rewrite <- capply_sub. rewrite !cscal_cre. replace (cre (-1)) with (copp (cre 1)) by (apply ceq; cbn; ring). ring. }
  rewrite (rsum_ext (cnr A) (fun q => cnorm2 (cadd (csum (cnc A) (fun k => cmul (cent A q k) (d k))) (cscal (-1) (t q))))
    (fun q => cnorm2 (capply A e q) + cnorm2 (cadd (capply A c q) (cscal (-1) (t q))) + 2 * fst (cmul (cconj (capply A e q)) (cadd (capply A c q) (cscal (-1) (t q)))))) by (intros q _; rewrite E; apply pythagoras).
  rewrite !rsum_plus, rsum_scal. pose proof (f_equal fst (orth A t c e H)) as O. unfold csum in O. cbn [fst cre] in O. rewrite O.
  assert (0 <= rsum (cnr A) (fun q => cnorm2 (capply A e q))) by (apply rsum_nonneg; intros; apply cnorm2_ge0). unfold capply at 2. lra.
Qed.
(** with full column rank there is one solution *)
Lemma left_zero A d : cleft_invertible A -> (forall q, (q < cnr A)%nat -> capply A d q = cre 0) -> forall i, (i < cnc A)%nat -> d i = cre 0.
Proof.
  intros (X & HX) H i Hi. transitivity (csum (cnc A) (fun k => cmul (cre (delta i k)) (d k))); [symmetry; apply csum_delta; auto|].
  rewrite (csum_ext' (cnc A) _ (fun k => cmul (csum (cnr A) (fun q => cmul (cent X i q) (cent A q k))) (d k))) by (intros k Hk; unfold cre; rewrite <- (HX i k Hi Hk); reflexivity).
  rewrite <- cassoc. apply csum_zero. intros q Hq. fold (capply A d q). rewrite H by auto. ring.
Qed.
Lemma normal_unique A t c c' : cleft_invertible A -> cnormal A t c -> cnormal A t c' -> forall i, (i < cnc A)%nat -> c i = c' i.
Proof.
  intros HL H H' i Hi. set (e := fun k => cadd (c k) (cscal (-1) (c' k))).
  assert (Z : e i = cre 0).
  { revert i Hi. apply left_zero; auto. apply cnorm2_csum_0.
    assert (O1 := orth A t c e H). assert (O2 := orth A t c' e H').
    assert (E : csum (cnr A) (fun q => cmul (cconj (capply A e q)) (capply A e q)) = cre 0).
    { transitivity (csub (cre 0) (cre 0)); [|ring]. rewrite <- O1 at 1. rewrite <- O2.
      match goal with |- _ = csub (csum _ ?f) (csum _ ?g) => transitivity (cadd (csum (cnr A) f) (cmul (cre (-1)) (csum (cnr A) g))) end.
      - rewrite <- csum_mul, <- csum_add. apply csum_ext'. intros q _. unfold e at 2. rewrite <- capply_sub. rewrite !cscal_cre. replace (cre (-1)) with (copp (cre 1)) by (apply ceq; cbn; ring). ring.
      - apply ceq; unfold cadd, cmul, csub, cre; cbn [fst snd]; ring. }
    apply (f_equal fst) in E. unfold csum in E. cbn [fst cre] in E. rewrite <- E. apply rsum_ext. intros q _. rewrite cnorm2_conj. reflexivity. }
  unfold e in Z. apply (f_equal (fun z => (fst z, snd z))) in Z. unfold cadd, cscal, cre in Z. cbn [fst snd] in Z. injection Z as Z1 Z2. apply ceq; lra.
Qed.
Lemma exact_normal A t c : (forall q, (q < cnr A)%nat -> t q = capply A c q) -> cnormal A t c.
Proof.
  intros H i Hi. apply csum_zero. intros q Hq. rewrite H by auto. rewrite cscal_cre. replace (cre (-1)) with (copp (cre 1)) by (apply ceq; cbn; ring). ring.
Qed.

(** ** Penrose inverses *)
Lemma cconj_prod n A B i j : cconj (cprod n A B i j) = csum n (fun k => cmul (cconj (cent A i k)) (cconj (cent B k j))).
Proof. unfold cprod. rewrite cconj_csum. apply csum_ext'. intros. apply cconj_mul. Qed.
Theorem penrose_unique A P P' : cpenrose A P -> cpenrose A P' -> forall i j, (i < cnc A)%nat -> (j < cnr A)%nat -> cent P i j = cent P' i j.
Proof.
  assert (AP : forall P P', cpenrose A P -> cpenrose A P' -> forall i j, (i < cnr A)%nat -> (j < cnr A)%nat -> cprod (cnc A) A P i j = cprod (cnc A) A P' i j).
  { clear P P'. intros P P' (_ & _ & A1 & A2 & A3 & A4) (_ & _ & B1 & B2 & B3 & B4) i j Hi Hj.
    (* AP = (AP')(AP) and (AP)(AP') = AP' *)
    assert (E1 : cprod (cnc A) A P i j = csum (cnr A) (fun k => cmul (cprod (cnc A) A P' i k) (cprod (cnc A) A P k j))).
    { unfold cprod at 1. unfold cprod at 2. rewrite cassoc. apply csum_ext'. intros l Hl. rewrite B1 by auto. reflexivity. }
    assert (E2 : cprod (cnc A) A P' j i = csum (cnr A) (fun k => cmul (cprod (cnc A) A P j k) (cprod (cnc A) A P' k i))).
    { unfold cprod at 1. unfold cprod at 2. rewrite cassoc. apply csum_ext'. intros l Hl. rewrite A1 by auto. reflexivity. }
    rewrite E1. rewrite (B3 i j) by auto. rewrite E2, cconj_csum. apply csum_ext'. intros k Hk. rewrite cconj_mul.
    rewrite <- (A3 k j) by auto. rewrite <- (B3 i k) by auto. ring. }
  intros HP HP' i j Hi Hj. assert (APe := AP P P' HP HP').
  destruct HP as (RP & CP & A1 & A2 & A3 & A4). destruct HP' as (RP' & CP' & B1 & B2 & B3 & B4).
  assert (PA : forall i j, (i < cnc A)%nat -> (j < cnc A)%nat -> cprod (cnr A) P A i j = cprod (cnr A) P' A i j).
  { intros a b Ha Hb.
    assert (E1 : cprod (cnr A) P A a b = csum (cnc A) (fun k => cmul (cprod (cnr A) P A a k) (cprod (cnr A) P' A k b))).
    { symmetry. unfold cprod at 2. transitivity (csum (cnr A) (fun l => cmul (csum (cnc A) (fun k => cmul (cprod (cnr A) P A a k) (cent P' k l))) (cent A l b))); [apply cassoc|].
      unfold cprod at 1. transitivity (csum (cnr A) (fun l => cmul (csum (cnr A) (fun q => cmul (cent P a q) (cprod (cnc A) A P' q l))) (cent A l b))).
      - apply csum_ext'. intros l Hl. f_equal. symmetry. unfold cprod. rewrite cassoc. reflexivity.
      - rewrite <- cassoc. unfold cprod. apply csum_ext'. intros q Hq. f_equal. apply (B1 q b); auto. }
    assert (E2 : cprod (cnr A) P' A b a = csum (cnc A) (fun k => cmul (cprod (cnr A) P' A b k) (cprod (cnr A) P A k a))).
    { symmetry. unfold cprod at 2. transitivity (csum (cnr A) (fun l => cmul (csum (cnc A) (fun k => cmul (cprod (cnr A) P' A b k) (cent P k l))) (cent A l a))); [apply cassoc|].
      unfold cprod at 1. transitivity (csum (cnr A) (fun l => cmul (csum (cnr A) (fun q => cmul (cent P' b q) (cprod (cnc A) A P q l))) (cent A l a))).
      - apply csum_ext'. intros l Hl. f_equal. symmetry. unfold cprod. rewrite cassoc. reflexivity.
      - rewrite <- cassoc. unfold cprod. apply csum_ext'. intros q Hq. f_equal. apply (A1 q a); auto. }
    rewrite E1, (B4 a b) by auto. rewrite E2, cconj_csum. apply csum_ext'. intros k Hk. rewrite cconj_mul, <- (A4 a k), <- (B4 k b) by auto. ring. }
  rewrite <- (A2 i j) by auto. rewrite <- (B2 i j) by auto.
  transitivity (csum (cnc A) (fun k => cmul (cprod (cnr A) P' A i k) (cent P k j))); [apply csum_ext'; intros k Hk; rewrite PA by auto; reflexivity|].
  unfold cprod. rewrite <- !cassoc. apply csum_ext'. intros q Hq. f_equal. apply (APe q j); auto.
Qed.
(** applied to a target it solves the normal equations *)
Lemma penrose_normal A P t : cpenrose A P -> cnormal A t (fun k => csum (cnr A) (fun q => cmul (cent P k q) (t q))).
Proof.
  intros (RP & CP & A1 & A2 & A3 & A4) i Hi.
  assert (E : forall q, capply A (fun k => csum (cnr A) (fun q => cmul (cent P k q) (t q))) q = csum (cnr A) (fun l => cmul (cprod (cnc A) A P q l) (t l))) by (intros q; unfold capply; rewrite cassoc; reflexivity).
  transitivity (cadd (csum (cnr A) (fun q => cmul (cconj (cent A q i)) (csum (cnr A) (fun l => cmul (cprod (cnc A) A P q l) (t l))))) (cmul (cre (-1)) (csum (cnr A) (fun q => cmul (cconj (cent A q i)) (t q))))).
  - rewrite <- csum_mul, <- csum_add. apply csum_ext'. intros q _. rewrite E, cscal_cre. ring.
  - rewrite cassoc. rewrite (csum_ext' (cnr A) (fun l => cmul (csum (cnr A) (fun k => cmul (cconj (cent A k i)) (cprod (cnc A) A P k l))) (t l)) (fun l => cmul (cconj (cent A l i)) (t l))).
    + replace (cre (-1)) with (copp (cre 1)) by (apply ceq; cbn; ring). ring.
    + intros l Hl. f_equal. rewrite <- (A1 l i) by auto. rewrite cconj_csum. apply csum_ext'. intros k Hk. rewrite cconj_mul, <- (A3 k l) by auto. ring.
Qed.
Lemma penrose_left A P : cpenrose A P -> cleft_invertible A -> forall a b, (a < cnc A)%nat -> (b < cnc A)%nat -> cprod (cnr A) P A a b = cre (delta a b).
Proof.
  intros HP HL a b Ha Hb. pose proof (penrose_normal A P (fun q => cent A q b) HP) as N1.
  assert (N2 : cnormal A (fun q => cent A q b) (fun k => cre (delta b k))).
  { apply exact_normal. intros q Hq. unfold capply. rewrite (csum_ext' (cnc A) _ (fun k => cmul (cre (delta b k)) (cent A q k))) by (intros; ring). symmetry. apply (csum_delta (cnc A) b (fun k => cent A q k)). auto. }
  transitivity (cre (delta b a)); [apply (normal_unique A _ _ _ HL N1 N2 a Ha)|]. f_equal. unfold delta. rewrite Nat.eqb_sym. reflexivity.
Qed.
Lemma penrose_projection A P : cpenrose A P -> forall a b, (a < cnc A)%nat -> (b < cnc A)%nat ->
  csum (cnc A) (fun k => cmul (cprod (cnr A) P A a k) (cprod (cnr A) P A k b)) = cprod (cnr A) P A a b.
Proof.
  intros (RP & CP & A1 & A2 & A3 & A4) a b Ha Hb. unfold cprod at 2. transitivity (csum (cnr A) (fun l => cmul (csum (cnc A) (fun k => cmul (cprod (cnr A) P A a k) (cent P k l))) (cent A l b))); [apply cassoc|].
  unfold cprod at 2. apply csum_ext'. intros l Hl. rewrite A2 by auto. reflexivity.
Qed.
