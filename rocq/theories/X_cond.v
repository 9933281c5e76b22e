(** Condition numbers of the transform and the message of check_cond_sht. *)
From Coq Require Import Lra Lia.
From Verif Require Import Base BaseFacts M_utils M_sig P_sig M_sph0 M_sph M_grids M_cond S_utils S_sph S_grids S_svd P_sph7 P_sph11 P_grids2 P_grids3 P_svd3 X_sph S_sph3 P_cplx P_csph1 P_csph2 S_order P_order X_order S_cond.
Open Scope R_scope.

Lemma sq0 k : (0 < (k + 1) ^ 2)%nat.
Proof. cbn [Nat.pow]. lia. Qed.
Lemma limit_value N lim l : limit_is N lim l -> cond_limit N lim = l.
Proof. destruct lim as [l'|]; cbn; intros H; lra. Qed.

Lemma says cond N azi zen lim Y : sh_matrix N azi zen = Ok Y -> check_cond_says cond N azi zen lim = Ok (cond (gram Y), Rltb (cond_limit N lim) (cond (gram Y))).
Proof. intros E. unfold check_cond_says, check_cond_sht. rewrite E. cbn [bind]. rewrite matmul_ok by reflexivity. reflexivity. Qed.
Lemma f_cond_message cond N azi zen lim l : cond_contract cond -> length zen = length azi -> limit_is N lim l -> l <= 200 ->
  exists Y c printed, sh_matrix N azi zen = Ok Y /\ check_cond_says cond N azi zen lim = Ok (c, printed) /\
    (printed = false <-> regular (gram Y) /\ amplifies_within (gram Y) l).
Proof.
  intros HC L HL B. destruct (sh_matrix_ok N azi zen L) as (Y & E & RY & CY & _). exists Y, (cond (gram Y)), (Rltb (cond_limit N lim) (cond (gram Y))).
  split; [exact E|]. split; [apply says; exact E|]. rewrite (limit_value _ _ _ HL). destruct (HC (gram Y) eq_refl) as (C1 & C2); [cbn [gram nc]; rewrite CY; apply sq0|].
  split.
  - intros P. assert (P' : cond (gram Y) <= l). { apply Rnot_lt_le. intros G. apply Rltb_true in G. congruence. }
    assert (RG : regular (gram Y)) by (destruct (Classical_Prop.classic (regular (gram Y))) as [G|G]; [exact G|apply C2 in G; lra]).
    split; [exact RG|]. apply (amplifies_mono _ (cond (gram Y))); [exact P'|apply C1; exact RG].
  - intros (RG & A). apply C1 in A; [|exact RG]. destruct (Rltb l (cond (gram Y))) eqn:P; [|reflexivity]. apply Rltb_true in P. lra.
Qed.
Lemma within_one A K : (0 < nc A)%nat -> regular A -> amplifies_within A K -> 1 <= K.
Proof.
  intros N R (K0 & H). set (e := fun j : nat => delta 0 j). specialize (H e e).
  assert (E1 : sumsq (nc A) e = 1). { unfold sumsq, e. rewrite rsum_delta_l by exact N. reflexivity. }
  assert (E2 : 0 < sumsq (nr A) (act A e)).
  { pose proof (sumsq_pos (nr A) (act A e)) as [P|P]; [exact P|]. exfalso. symmetry in P. pose proof (R e (sumsq_zero _ _ P) 0%nat N) as Z. unfold e, delta in Z. cbn in Z. lra. }
  rewrite E1 in H. apply Rnot_lt_le. intros G. assert (K ^ 2 < 1) by nra. nra.
Qed.
Lemma f_cond_grid cond N azi zen w a b lim : cond_contract cond -> exact_for sh_real (2 * N) azi zen w -> 0 < a -> (forall x, In x w -> a <= x <= b) ->
  exists c printed, check_cond_says cond N azi zen lim = Ok (c, printed) /\ 1 <= c <= b / a.
Proof.
  intros HC EX HA HW. pose proof EX as (L1 & L2 & Z & S & _). destruct (gram_grid N azi zen w EX) as (Y & E & RY & CY & O).
  assert (W : forall q, (q < nr Y)%nat -> a <= nth q w 0 <= b) by (intros q Hq; apply HW, nth_In; congruence).
  assert (AB : a <= b). { destruct w as [|x w']; [cbn in S; pose proof PI_RGT_0; lra|]. specialize (HW x (or_introl eq_refl)). lra. }
  assert (NC : (0 < nc (gram Y))%nat) by (cbn [gram nc]; rewrite CY; apply sq0).
  assert (RG : regular (gram Y)) by (apply regular_gram, (quad_regular Y w a b O W)). destruct (HC (gram Y) eq_refl NC) as (C1 & _). destruct (C1 RG) as (CA & CM).
  exists (cond (gram Y)), (Rltb (cond_limit N lim) (cond (gram Y))). split; [apply says; exact E|]. split; [apply (within_one _ _ NC RG CA)|apply CM, (quad_within Y w a b O HA W AB)].
Qed.
Lemma f_cond_design cond N azi zen lim l : cond_contract cond -> exact_for sh_real (2 * N) azi zen (equal_weights (length azi)) -> limit_is N lim l ->
  exists printed, check_cond_says cond N azi zen lim = Ok (1, printed) /\ (printed = true <-> l < 1).
Proof.
  intros HC EX HL. pose proof EX as (_ & _ & _ & S & _). set (v := 4 * PI / INR (length azi)).
  assert (Q : (0 < length azi)%nat). { destruct (length azi) as [|q] eqn:Eq; [|lia]. cbn in S. pose proof PI_RGT_0. lra. }
  assert (V : 0 < v) by (apply Rdiv_lt_0_compat; [pose proof PI_RGT_0; lra|apply lt_0_INR; exact Q]).
  destruct (f_cond_grid cond N azi zen _ v v lim HC EX V) as (c & p & E & C); [intros x Hx; apply repeat_spec in Hx; subst x; fold v; lra|].
  assert (C1 : c = 1) by (replace (v / v) with 1 in C by (field; lra); lra). subst c. exists p. split; [exact E|].
  destruct (sh_matrix_ok N azi zen (proj1 EX)) as (Y & EY & _). rewrite (says cond N azi zen lim Y EY), (limit_value _ _ _ HL) in E. injection E as E1 E2. rewrite E1 in E2. rewrite <- E2. split; [apply Rltb_true|apply Rltb_true].
Qed.
Lemma f_cond_silent cond N azi zen : cond_contract cond -> (1 <= N)%nat -> exact_for sh_real (2 * N) azi zen (equal_weights (length azi)) -> check_cond_says cond N azi zen None = Ok (1, false).
Proof.
  intros HC HN EX. destruct (f_cond_design cond N azi zen None (3 * INR N / 2) HC EX) as (p & E & P); [cbn; lra|]. rewrite E. destruct p; [|reflexivity].
  assert (1 <= INR N) by (apply (le_INR 1); exact HN). pose proof (proj1 P eq_refl). lra.
Qed.
(** the message at order 0, for every grid, of the best condition number there is *)
Lemma f_cond_zero_refuted cond azi zen : cond_contract cond -> length zen = length azi -> zeniths zen -> (0 < length azi)%nat -> check_cond_says cond 0 azi zen None = Ok (1, true).
Proof.
  intros HC L Z Q. assert (EX : exact_for sh_real (2 * 0) azi zen (equal_weights (length azi))).
  { split; [exact L|]. split; [unfold equal_weights; apply repeat_length|]. split; [exact Z|]. split; [|intros n m Hn; lia].
    unfold equal_weights. assert (P : forall x k, lsum (repeat x k) = INR k * x). { intros x k. induction k as [|k IH]; [cbn; ring|]. rewrite S_INR. cbn [repeat lsum fold_right]. fold (lsum (repeat x k)). rewrite IH. ring. }
    rewrite P. field. apply not_0_INR. lia. }
  destruct (f_cond_design cond 0 azi zen None 0 HC EX) as (p & E & P); [cbn; lra|]. rewrite E. rewrite (proj2 P) by lra. reflexivity.
Qed.
Lemma f_cond_few cond N azi zen lim l : cond_contract cond -> length zen = length azi -> (length azi < (N + 1) ^ 2)%nat -> limit_is N lim l -> l <= 200 ->
  exists c, check_cond_says cond N azi zen lim = Ok (c, true) /\ 200 < c.
Proof.
  intros HC L Q HL B. destruct (sh_matrix_ok N azi zen L) as (Y & E & RY & CY & _). rewrite (says cond N azi zen lim Y E), (limit_value _ _ _ HL).
  destruct (HC (gram Y) eq_refl) as (_ & C2); [cbn [gram nc]; rewrite CY; apply sq0|].
  assert (C : 200 < cond (gram Y)).
  { apply C2. intros RG. destruct (penrose_exists Y) as (P & HP). pose proof (regular_left Y P (gram_regular Y RG) HP) as LI. apply svd_rank in LI. rewrite CY, RY in LI. lia. }
  exists (cond (gram Y)). split; [|exact C]. rewrite (proj2 (Rltb_true _ _)) by lra. reflexivity.
Qed.

(** ** complex harmonics *)
Section Tight.
Variables (A : cmat) (g : R).
Hypothesis HS : cnr A = cnc A.
Hypothesis HN : (0 < cnc A)%nat.
Hypothesis G0 : 0 < g.
Hypothesis HA : forall a b, (a < cnc A)%nat -> (b < cnc A)%nat -> cent A a b = cre (g * delta a b).
Lemma tight_act x a : (a < cnc A)%nat -> cact A x a = cscal g (x a).
Proof.
  intros Ha. unfold cact. rewrite (csum_ext' _ _ (fun j => cmul (cre g) (cmul (cre (delta a j)) (x j)))).
  - rewrite csum_mul, csum_delta by exact Ha. rewrite cscal_cre. reflexivity.
  - intros j Hj. rewrite HA by assumption. unfold cre, cmul. cbn [fst snd]. f_equal; ring.
Qed.
Lemma tight_sumsq x : csumsq (cnr A) (cact A x) = g ^ 2 * csumsq (cnc A) x.
Proof.
  rewrite HS. unfold csumsq. rewrite <- rsum_scal. apply rsum_ext. intros a Ha. rewrite tight_act by exact Ha. unfold cnorm2, cscal. cbn [fst snd]. ring.
Qed.
Lemma tight_cond cond : ccond_contract cond -> cond A = 1.
Proof.
  intros HC. destruct (HC A HS HN) as (C1 & _).
  assert (R : cregular A).
  { intros x Z j Hj. specialize (Z j ltac:(rewrite HS; exact Hj)). rewrite tight_act in Z by exact Hj. unfold cscal in Z. injection Z as Z1 Z2. apply Rmult_integral in Z1. apply Rmult_integral in Z2. destruct (x j) as [u v]. cbn [fst snd] in *. f_equal; lra. }
  destruct (C1 R) as ((K0 & CA) & CM). apply Rle_antisym.
  - apply CM. split; [lra|]. intros x y. rewrite !tight_sumsq. right. ring.
  - set (e := fun j : nat => cre (delta 0 j)). specialize (CA e e). rewrite !tight_sumsq in CA.
    assert (E1 : csumsq (cnc A) e = 1). { unfold csumsq, e, cnorm2, cre. cbn [fst snd]. rewrite (rsum_ext _ _ (fun i => delta 0 i * delta 0 i)) by (intros; ring). rewrite rsum_delta_l by exact HN. reflexivity. }
    rewrite E1 in CA. apply Rnot_lt_le. intros L. assert (G2 : 0 < g ^ 2) by (apply pow_lt; exact G0). assert (cond A ^ 2 < 1) by nra. nra.
Qed.
End Tight.
Lemma f_cond_complex ccond N azi zen lim l : ccond_contract ccond -> exact_for sh_real (2 * N) azi zen (equal_weights (length azi)) -> limit_is N lim l ->
  exists printed, check_cond_says_c ccond N azi zen lim = Ok (1, printed) /\ (printed = true <-> l < 1).
Proof.
  intros HC EX HL. pose proof EX as (L & _ & _ & S & _). set (v := 4 * PI / INR (length azi)).
  assert (Q : (0 < length azi)%nat). { destruct (length azi) as [|q] eqn:Eq; [|lia]. cbn in S. pose proof PI_RGT_0. lra. }
  assert (V : 0 < v) by (apply Rdiv_lt_0_compat; [pose proof PI_RGT_0; lra|apply lt_0_INR; exact Q]).
  destruct (gram_grid N azi zen _ EX) as (Y & E & RY & CY & O). destruct (unitary_of N azi zen _ Y L E O) as (Yc & Ec & Rc & Cc & U).
  unfold check_cond_says_c. rewrite Ec. cbn [bind]. rewrite cmatmul_ok by reflexivity. cbn [bind]. rewrite (limit_value _ _ _ HL).
  set (G := CMat _ _ _). assert (CG : ccond G = 1).
  { apply (tight_cond G (/ v)); [reflexivity|cbn; rewrite Cc; apply sq0|apply Rinv_0_lt_compat; exact V| |exact HC].
    intros a b Ha Hb. cbn [G cnc cent cadj cnr] in *. specialize (U a b Ha Hb).
    rewrite (csum_ext' _ _ (fun j => cmul (cre v) (cmul (cconj (cent Yc j a)) (cent Yc j b)))) in U.
    - rewrite csum_mul in U. set (z := csum (cnr Yc) _) in *. destruct z as [z1 z2]. unfold cmul, cre in *. cbn [fst snd] in *. injection U as U1 U2.
      assert (z1 = / v * delta a b) by (rewrite <- U1; field; lra). assert (z2 = 0) by nra. subst. reflexivity.
    - intros j Hj. rewrite cscal_cre. unfold equal_weights. rewrite Rc in Hj. fold v. rewrite nth_repeat_in by exact Hj. reflexivity. }
  rewrite CG. exists (Rltb l 1). split; [reflexivity|apply Rltb_true].
Qed.

(** ** condition numbers of complex arrays exist: real arrays of twice the size *)
Definition emb (A : cmat) : mat := Mat (cnr A + cnr A) (cnc A + cnc A) (fun i j =>
  if Nat.ltb i (cnr A) then (if Nat.ltb j (cnc A) then fst (cent A i j) else - snd (cent A i (j - cnc A)))
  else (if Nat.ltb j (cnc A) then snd (cent A (i - cnr A) j) else fst (cent A (i - cnr A) (j - cnc A)))).
Definition tow (n : nat) (x : nat -> R) (i : nat) : C2 := (x i, x (n + i)%nat).
Definition row (n : nat) (z : nat -> C2) (i : nat) : R := if Nat.ltb i n then fst (z i) else snd (z (i - n)%nat).
Lemma tow_row n z i : (i < n)%nat -> tow n (row n z) i = z i.
Proof. intros H. unfold tow, row. destruct (Nat.ltb_spec i n); [|lia]. destruct (Nat.ltb_spec (n + i) n); [lia|]. replace (n + i - n)%nat with i by lia. destruct (z i); reflexivity. Qed.
Lemma act_emb A x i : (i < cnr A)%nat -> (act (emb A) x i, act (emb A) x (cnr A + i)%nat) = cact A (tow (cnc A) x) i.
Proof.
  intros Hi. unfold act, cact, csum, emb, tow, cmul. cbn [nc ent fst snd]. rewrite !rsum_app. f_equal; rewrite <- rsum_plus; apply rsum_ext; intros j Hj.
  - destruct (Nat.ltb_spec i (cnr A)); [|lia]. destruct (Nat.ltb_spec j (cnc A)); [|lia]. destruct (Nat.ltb_spec (cnc A + j) (cnc A)); [lia|]. replace (cnc A + j - cnc A)%nat with j by lia. ring.
  - destruct (Nat.ltb_spec (cnr A + i) (cnr A)); [lia|]. destruct (Nat.ltb_spec j (cnc A)); [|lia]. destruct (Nat.ltb_spec (cnc A + j) (cnc A)); [lia|]. replace (cnc A + j - cnc A)%nat with j by lia. replace (cnr A + i - cnr A)%nat with i by lia. ring.
Qed.
Lemma sumsq_tow n x : sumsq (n + n) x = csumsq n (tow n x).
Proof. unfold sumsq, csumsq, tow, cnorm2. cbn [fst snd]. rewrite rsum_app, <- rsum_plus. apply rsum_ext. intros; ring. Qed.
Lemma csumsq_ext n x y : (forall i, (i < n)%nat -> x i = y i) -> csumsq n x = csumsq n y.
Proof. intros H. apply rsum_ext. intros i Hi. rewrite H by exact Hi. reflexivity. Qed.
Lemma cact_ext A x y i : (forall j, (j < cnc A)%nat -> x j = y j) -> cact A x i = cact A y i.
Proof. intros H. apply csum_ext'. intros j Hj. rewrite H by exact Hj. reflexivity. Qed.
Lemma sumsq_act A x : sumsq (nr (emb A)) (act (emb A) x) = csumsq (cnr A) (cact A (tow (cnc A) x)).
Proof. cbn [emb nr]. fold (emb A). rewrite sumsq_tow. apply csumsq_ext. intros i Hi. unfold tow at 1. apply act_emb. exact Hi. Qed.
Lemma amp_emb A K : amplifies_within (emb A) K <-> camplifies_within A K.
Proof.
  split; intros (K0 & H); (split; [exact K0|]); intros x y.
  - specialize (H (row (cnc A) x) (row (cnc A) y)). rewrite !sumsq_act in H. cbn [emb nc] in H. rewrite !sumsq_tow in H.
    rewrite (csumsq_ext (cnc A) _ _ (tow_row (cnc A) x)), (csumsq_ext (cnc A) _ _ (tow_row (cnc A) y)) in H.
    rewrite (csumsq_ext (cnr A) (cact A (tow (cnc A) (row (cnc A) x))) (cact A x)) in H by (intros; apply cact_ext, tow_row). rewrite (csumsq_ext (cnr A) (cact A (tow (cnc A) (row (cnc A) y))) (cact A y)) in H by (intros; apply cact_ext, tow_row). exact H.
  - rewrite !sumsq_act. cbn [emb nc]. rewrite !sumsq_tow. apply H.
Qed.
Lemma reg_emb A : regular (emb A) <-> cregular A.
Proof.
  split; intros H.
  - intros z Z j Hj. assert (E : forall i, (i < nr (emb A))%nat -> act (emb A) (row (cnc A) z) i = 0).
    { apply sumsq_zero. rewrite sumsq_act. apply rsum_0. intros i Hi. rewrite (cact_ext A _ z i (tow_row (cnc A) z)), Z by exact Hi. unfold cnorm2. cbn [fst snd]. ring. }
    rewrite <- (tow_row (cnc A) z j Hj). unfold tow. rewrite !(H _ E) by (cbn [emb nc]; lia). reflexivity.
  - intros x Z. apply sumsq_zero. cbn [emb nc]. rewrite sumsq_tow. apply rsum_0. intros j Hj. rewrite (H (tow (cnc A) x)); [unfold cnorm2; cbn [fst snd]; ring| |exact Hj].
    intros i Hi. rewrite <- act_emb by exact Hi. rewrite !Z by (cbn [emb nr]; lia). reflexivity.
Qed.
Lemma ccond_exists : exists ccond, ccond_contract ccond.
Proof.
  destruct cond_exists as (cond & HC). exists (fun A => cond (emb A)). intros A S N. destruct (HC (emb A)) as (C1 & C2); [cbn [emb nr nc]; lia|cbn [emb nc]; lia|]. split.
  - intros R. apply reg_emb in R. destruct (C1 R) as (D1 & D2). split; [apply amp_emb; exact D1|]. intros K HK. apply D2, amp_emb. exact HK.
  - intros R. apply C2. intros G. apply R, reg_emb. exact G.
Qed.
Lemma ex_cond : exists cond ccond azi zen, cond_contract cond /\ ccond_contract ccond /\ exact_for sh_real (2 * 1) azi zen (equal_weights (length azi)) /\ length azi = 6%nat /\ zeniths zen /\ (length azi < (2 + 1) ^ 2)%nat /\ limit_is 2 None 3.
Proof.
  destruct cond_exists as (cond & HC). destruct ccond_exists as (ccond & HD). exists cond, ccond, octa_azi, octa_zen. assert (G : exact_for sh_real (2 * 1) octa_azi octa_zen (equal_weights (length octa_azi))) by exact octa_grid.
  split; [exact HC|]. split; [exact HD|]. split; [exact G|]. split; [reflexivity|]. split; [apply G|]. split; [cbn; lia|cbn; lra].
Qed.
