(** The unitary matrix between the two bases; least squares and the pseudo-inverse in
    the complex basis. *)
From Coq Require Import Lra Lia Ring.
From Verif Require Import Base BaseFacts M_utils S_utils P_utils M_sig P_sig M_process M_sph0 M_sph S_linalg S_sph
  P_sph1 P_sph2 P_sph3 P_sph4 P_sph5 P_sph6 P_sph7 P_sph8 P_sph9 P_sph10 P_sph11 P_sph12 P_sph13 M_parsa3 M_process3 S_zp P_cplx M_io M_io2 M_io3 M_sph3 S_sph3 S_grids P_csph1 P_csph2 P_csph3 P_csph4.
Open Scope R_scope.
Add Ring C2ring_csph6 : cring.

Definition ubasis (b a : nat) : C2 :=
  let n := Nat.sqrt a in let m := (Z.of_nat (a - n * n) - Z.of_nat n)%Z in
  (cs_re m * delta b (acn n (Z.abs m)), cs_im m * delta b (acn n (- Z.abs m))).
Lemma ubasis_acn b n m : degree n m -> ubasis b (acn n m) = (cs_re m * delta b (acn n (Z.abs m)), cs_im m * delta b (acn n (- Z.abs m))).
Proof.
  intros D. rewrite (acn_pos n m) by auto. unfold degree in D. unfold ubasis.
  assert (SQ : Nat.sqrt (n * n + Z.to_nat (m + Z.of_nat n)) = n) by (apply Nat.sqrt_unique; nia). rewrite SQ.
  replace (Z.of_nat (n * n + Z.to_nat (m + Z.of_nat n) - n * n) - Z.of_nat n)%Z with m by lia. reflexivity.
Qed.
Lemma acn_split N a : (a < (N + 1) ^ 2)%nat -> exists n m, (n <= N)%nat /\ degree n m /\ a = acn n m.
Proof.
  intros H. destruct (acn_decomp N a H) as (n & k & Hn & Hk & ->). exists n, (Z.of_nat k - Z.of_nat n)%Z. split; auto. split; [unfold degree; lia|]. rewrite acn_at; auto.
Qed.
Lemma delta_sym a b : delta a b = delta b a.
Proof. unfold delta. rewrite Nat.eqb_sym. reflexivity. Qed.
Lemma ubasis_cols N a b : (a < (N + 1) ^ 2)%nat -> (b < (N + 1) ^ 2)%nat ->
  csum ((N + 1) ^ 2) (fun j => cmul (cconj (ubasis j a)) (ubasis j b)) = cre (delta a b).
Proof.
  intros Ha Hb. destruct (acn_decomp N a Ha) as (n & k & Hn & Hk & ->). destruct (acn_decomp N b Hb) as (n' & k' & Hn' & Hk' & ->).
  rewrite <- kd_delta by auto. rewrite <- (acn_at n k), <- (acn_at n' k') by auto.
  pose proof (gram_c ((N + 1) ^ 2) N (fun _ => 1) (fun n m j => delta j (acn n m)) (fun n m j => ubasis j (acn n m))) as G.
  unfold cre. rewrite <- G; auto; try (unfold degree; lia).
  - apply csum_ext'. intros j Hj. apply ceq; unfold cscal; cbn [fst snd]; ring.
  - intros p m j Hp D Hj. apply ubasis_acn; auto.
  - intros p m p' m' Hp Hp' D D'. rewrite (rsum_single ((N + 1) ^ 2) (acn p m) (fun j => 1 * (delta j (acn p m) * delta j (acn p' m')))).
    + rewrite delta_same. destruct (deg_index p m D) as (i & Hi & ->). destruct (deg_index p' m' D') as (i' & Hi' & ->). rewrite kd_delta by auto. rewrite !acn_at by auto. ring.
    + apply acn_lt; auto.
    + intros j Hj Dj. rewrite (delta_diff j (acn p m)) by auto. ring.
Qed.
Lemma ubasis_rows N b b' : (b < (N + 1) ^ 2)%nat -> (b' < (N + 1) ^ 2)%nat ->
  csum ((N + 1) ^ 2) (fun a => cmul (ubasis b a) (cconj (ubasis b' a))) = cre (delta b b').
Proof.
  intros Hb Hb'. transitivity (csum ((N + 1) ^ 2) (fun a => cmul (cre (delta b a)) (cre (delta b' a)))).
  - rewrite !csum_acn. apply csum_ext'. intros n Hn.
    rewrite (csum_ext' (2 * n + 1) _ (fun k => (fun m => cmul (ubasis b (acn n m)) (cconj (ubasis b' (acn n m)))) (Z.of_nat k - Z.of_nat n)%Z)) by (intros k Hk; cbv beta; rewrite acn_at by auto; reflexivity).
    rewrite (csum_ext' (2 * n + 1) (fun k => cmul (cre (delta b (n * n + k))) _) (fun k => (fun m => cmul (cre (delta b (acn n m))) (cre (delta b' (acn n m)))) (Z.of_nat k - Z.of_nat n)%Z)) by (intros k Hk; cbv beta; rewrite acn_at by auto; reflexivity).
    rewrite (csum_sym n (fun m => cmul (ubasis b (acn n m)) (cconj (ubasis b' (acn n m))))), (csum_sym n (fun m => cmul (cre (delta b (acn n m))) (cre (delta b' (acn n m))))). f_equal.
    + rewrite !ubasis_acn by (unfold degree; lia). cbn [Z.abs Z.opp]. unfold cs_re, cs_im. cbn [Z.eqb]. apply ceq; unfold cmul, cconj, cre; cbn [fst snd]; ring.
    + apply csum_ext'. intros i Hi. rewrite !ubasis_acn by (unfold degree; lia). rewrite !Z.abs_opp, !(Z.abs_eq (Z.of_nat (S i))) by lia. unfold cs_re, cs_im.
      destruct (Z.eqb_spec (Z.of_nat (S i)) 0); [lia|]. destruct (Z.eqb_spec (- Z.of_nat (S i)) 0); [lia|]. destruct (Z.ltb_spec (Z.of_nat (S i)) 0); [lia|]. destruct (Z.ltb_spec (- Z.of_nat (S i)) 0); [|lia].
      pose proof (m1sq (Z.abs_nat (Z.of_nat (S i)))) as M1. set (e := (-1) ^ Z.abs_nat (Z.of_nat (S i))) in *. assert (H2 : / sqrt 2 * / sqrt 2 = / 2) by (rewrite <- Rinv_mult, s2sq; reflexivity).
      unfold Rdiv. set (h := / sqrt 2) in *. set (x := delta b (acn n (Z.of_nat (S i)))). set (y := delta b (acn n (- Z.of_nat (S i)))). set (x' := delta b' (acn n (Z.of_nat (S i)))). set (y' := delta b' (acn n (- Z.of_nat (S i)))).
      apply ceq; unfold cmul, cconj, cre, cadd; cbn [fst snd].
      * transitivity ((e * e + 1) * (h * h) * (x * x' + y * y')); [ring|]. rewrite M1, H2. field.
      * transitivity ((e * e - 1) * (h * h) * (y * x' - x * y')); [ring|]. rewrite M1. ring.
  - rewrite (csum_delta ((N + 1) ^ 2) b (fun a => cre (delta b' a))) by auto. rewrite delta_sym. reflexivity.
Qed.
Lemma matrix_basis N azi zen Y Yc : sh_matrix N azi zen = Ok Y -> sh_matrix_c N azi zen = Ok Yc -> forall q a, (a < (N + 1) ^ 2)%nat ->
  cent Yc q a = csum ((N + 1) ^ 2) (fun b => cmul (cre (ent Y q b)) (ubasis b a)).
Proof.
  intros EY Ec q a Ha. assert (D : dirs_ok azi zen = true) by (unfold sh_matrix in EY; destruct (dirs_ok azi zen); auto; discriminate).
  destruct (matrices N azi zen D) as (Y2 & Yc2 & EY2 & Ec2 & _ & _ & _ & _ & HM). rewrite EY in EY2. rewrite Ec in Ec2. injection EY2 as <-. injection Ec2 as <-.
  destruct (acn_split N a Ha) as (n & m & Hn & Dm & ->). rewrite HM by auto.
  assert (L1 : (acn n (Z.abs m) < (N + 1) ^ 2)%nat) by (apply acn_lt; auto using deg_abs). assert (L2 : (acn n (- Z.abs m) < (N + 1) ^ 2)%nat) by (apply acn_lt; auto using deg_abs, deg_opp).
  transitivity (csum ((N + 1) ^ 2) (fun b => cadd (cmul (cre (delta (acn n (Z.abs m)) b)) (cre (cs_re m * ent Y q b))) (cmul (cre (delta (acn n (- Z.abs m)) b)) (0, cs_im m * ent Y q b)))).
  - rewrite csum_add, (csum_delta ((N + 1) ^ 2) _ (fun b => cre (cs_re m * ent Y q b))), (csum_delta ((N + 1) ^ 2) _ (fun b => (0, cs_im m * ent Y q b))) by auto.
    apply ceq; unfold cadd, cre; cbn [fst snd]; ring.
  - apply csum_ext'. intros b Hb. rewrite ubasis_acn by auto. rewrite (delta_sym b), (delta_sym b (acn n (- Z.abs m))). apply ceq; unfold cadd, cre, cmul; cbn [fst snd]; ring.
Qed.
(** coefficients in the complex basis *)
Definition to_c (K : nat) (F : nat -> R) (a : nat) : C2 := csum K (fun b => cmul (cconj (ubasis b a)) (cre (F b))).
Lemma same_to_c N F G : nr F = ((N + 1) ^ 2)%nat -> cnr G = ((N + 1) ^ 2)%nat -> cnc G = nc F ->
  (forall i j, (i < (N + 1) ^ 2)%nat -> (j < nc F)%nat -> cent G i j = to_c ((N + 1) ^ 2) (fun b => ent F b j) i) -> same_functions N F G.
Proof.
  intros RF RG CG H.
  assert (S1 : same_functions N (Mat ((N + 1) ^ 2) (nc F) (fun i j => rsum ((N + 1) ^ 2) (fun q => delta q i * ent F q j))) (CMat ((N + 1) ^ 2) (nc F) (fun i j => to_c ((N + 1) ^ 2) (fun b => ent F b j) i))).
  { apply (same_of N (Mat ((N + 1) ^ 2) ((N + 1) ^ 2) (fun q i => delta q i)) (CMat ((N + 1) ^ 2) ((N + 1) ^ 2) ubasis) _ _ ((N + 1) ^ 2) (nc F) (fun q j => ent F q j)); auto.
    intros q n m Hn D. cbn [ent cent]. apply ubasis_acn. auto. }
  destruct S1 as (_ & _ & _ & S1). split; auto. split; auto. split; auto. intros n j Hn Hj. destruct (S1 n j Hn Hj) as [A0 A1].
  assert (E : forall m, degree n m -> ent F (acn n m) j = rsum ((N + 1) ^ 2) (fun q => delta q (acn n m) * ent F q j)).
  { intros m D. rewrite (rsum_single ((N + 1) ^ 2) (acn n m) (fun q => delta q (acn n m) * ent F q j)).
    - rewrite delta_same. ring.
    - apply acn_lt; auto.
    - intros i _ Di. rewrite delta_diff by auto. ring. }
  cbn [ent cent] in A0, A1. split.
  - rewrite H by (auto; apply acn_lt; auto; unfold degree; lia). rewrite A0. rewrite (E 0%Z) by (unfold degree; lia). reflexivity.
  - intros m Hm. destruct (A1 m Hm) as [B1 B2]. rewrite !H by (auto; apply acn_lt; auto; unfold degree; lia). rewrite B1, B2. rewrite (E m), (E (- m)%Z) by (unfold degree; lia). auto.
Qed.
Lemma ucancel N (x y : nat -> C2) : 
  csum ((N + 1) ^ 2) (fun a => cmul (csum ((N + 1) ^ 2) (fun b => cmul (x b) (ubasis b a))) (csum ((N + 1) ^ 2) (fun b => cmul (cconj (ubasis b a)) (y b)))) = csum ((N + 1) ^ 2) (fun b => cmul (x b) (y b)).
Proof.
  rewrite (cassoc ((N + 1) ^ 2) ((N + 1) ^ 2) (fun a => csum ((N + 1) ^ 2) (fun b => cmul (x b) (ubasis b a))) (fun a b => cconj (ubasis b a)) y). apply csum_ext'. intros b Hb. f_equal.
  rewrite <- (cassoc ((N + 1) ^ 2) ((N + 1) ^ 2) x ubasis (fun a => cconj (ubasis b a))).
  rewrite (csum_ext' _ _ (fun k => cmul (cre (delta b k)) (x k))) by (intros k Hk; rewrite ubasis_rows by auto; rewrite delta_sym; ring).
  apply (csum_delta ((N + 1) ^ 2) b x). auto.
Qed.
Lemma cre_prod n f g : csum n (fun k => cmul (cre (f k)) (cre (g k))) = cre (rsum n (fun k => f k * g k)).
Proof. rewrite <- csum_cre. apply csum_ext'. intros. rewrite cre_mul. reflexivity. Qed.
(** applying the complex matrix to complex coefficients: the real matrix on the real ones *)
Lemma apply_to_c N azi zen Y Yc F q : sh_matrix N azi zen = Ok Y -> sh_matrix_c N azi zen = Ok Yc ->
  csum ((N + 1) ^ 2) (fun a => cmul (cent Yc q a) (to_c ((N + 1) ^ 2) F a)) = cre (rsum ((N + 1) ^ 2) (fun b => ent Y q b * F b)).
Proof.
  intros EY Ec. rewrite (csum_ext' _ _ (fun a => cmul (csum ((N + 1) ^ 2) (fun b => cmul (cre (ent Y q b)) (ubasis b a))) (to_c ((N + 1) ^ 2) F a))) by (intros a Ha; rewrite (matrix_basis N azi zen Y Yc EY Ec) by auto; reflexivity).
  unfold to_c. rewrite (ucancel N (fun b => cre (ent Y q b)) (fun b => cre (F b))). apply cre_prod.
Qed.
Definition pinv_c (K J : nat) (Q : mat) : cmat := CMat K J (fun a q => to_c K (fun b => ent Q b q) a).
Theorem penrose_c N azi zen Y Yc Q : sh_matrix N azi zen = Ok Y -> sh_matrix_c N azi zen = Ok Yc -> penrose Y Q -> cpenrose Yc (pinv_c ((N + 1) ^ 2) (length azi) Q).
Proof.
  intros EY Ec (RQ & CQ & A1 & A2 & A3 & A4). assert (D : dirs_ok azi zen = true) by (unfold sh_matrix in EY; destruct (dirs_ok azi zen); auto; discriminate).
  destruct (matrices N azi zen D) as (Y2 & Yc2 & EY2 & Ec2 & RY & Rc & CY & Cc & _). rewrite EY in EY2. rewrite Ec in Ec2. injection EY2 as <-. injection Ec2 as <-.
  rewrite RY, CY in *. set (K := ((N + 1) ^ 2)%nat) in *. set (J := length azi) in *.
  assert (HU : forall q a, (a < K)%nat -> cent Yc q a = csum K (fun b => cmul (cre (ent Y q b)) (ubasis b a))) by (apply (matrix_basis N azi zen Y Yc EY Ec)).
  assert (P1 : forall i j, cprod K Yc (pinv_c K J Q) i j = cre (mprod K Y Q i j)).
  { intros i j. unfold cprod, pinv_c. cbn [cent]. unfold K. rewrite (apply_to_c N azi zen Y Yc (fun b => ent Q b j) i EY Ec). reflexivity. }
  assert (P2 : forall a a', (a' < K)%nat -> cprod J (pinv_c K J Q) Yc a a' = csum K (fun b => cmul (cconj (ubasis b a)) (csum K (fun b' => cmul (cre (mprod J Q Y b b')) (ubasis b' a'))))).
  { intros a a' Ha'. unfold cprod, pinv_c, to_c. cbn [cent]. rewrite <- (cassoc K J (fun b => cconj (ubasis b a)) (fun b q => cre (ent Q b q)) (fun q => cent Yc q a')). apply csum_ext'. intros b Hb. f_equal.
    rewrite (csum_ext' J _ (fun q => cmul (cre (ent Q b q)) (csum K (fun b' => cmul (cre (ent Y q b')) (ubasis b' a'))))) by (intros q Hq; rewrite HU by auto; reflexivity).
    rewrite (cassoc J K (fun q => cre (ent Q b q)) (fun q b' => cre (ent Y q b')) (fun b' => ubasis b' a')). apply csum_ext'. intros b' Hb'. f_equal. apply cre_prod. }
  unfold cpenrose. rewrite Rc, Cc. fold K J. split; [reflexivity|]. split; [reflexivity|]. split; [|split; [|split]].
  - intros i j Hi Hj. rewrite (csum_ext' J _ (fun k => cmul (cre (mprod K Y Q i k)) (csum K (fun b => cmul (cre (ent Y k b)) (ubasis b j))))) by (intros k Hk; rewrite P1, HU by auto; reflexivity).
    rewrite (cassoc J K (fun k => cre (mprod K Y Q i k)) (fun k b => cre (ent Y k b)) (fun b => ubasis b j)). rewrite HU by auto. apply csum_ext'. intros b Hb. f_equal. rewrite cre_prod, A1 by auto. reflexivity.
  - intros a j Ha Hj. rewrite (csum_ext' K _ (fun k => cmul (csum K (fun b => cmul (cconj (ubasis b a)) (csum K (fun b' => cmul (cre (mprod J Q Y b b')) (ubasis b' k))))) (to_c K (fun b => ent Q b j) k))) by (intros k Hk; rewrite P2 by auto; reflexivity).
    rewrite <- (cassoc K K (fun b => cconj (ubasis b a)) (fun b k => csum K (fun b' => cmul (cre (mprod J Q Y b b')) (ubasis b' k))) (to_c K (fun b => ent Q b j))).
    unfold pinv_c. cbn [cent]. unfold to_c at 2. apply csum_ext'. intros b Hb. f_equal. unfold to_c, K. rewrite (ucancel N (fun b' => cre (mprod J Q Y b b')) (fun b' => cre (ent Q b' j))). fold K. rewrite cre_prod, A2 by auto. reflexivity.
  - intros i j Hi Hj. rewrite !P1, A3 by auto. apply ceq; unfold cconj, cre; cbn [fst snd]; ring.
  - intros a a' Ha Ha'. rewrite !P2 by auto. rewrite cconj_csum.
    transitivity (csum K (fun b => csum K (fun b' => cmul (cconj (ubasis b a)) (cmul (cre (mprod J Q Y b b')) (ubasis b' a'))))).
    + apply csum_ext'. intros b Hb. rewrite csum_mul. reflexivity.
    + rewrite csum_swap. apply csum_ext'. intros b' Hb'. rewrite cconj_mul, cconj_inv, cconj_csum, <- csum_mul. apply csum_ext'. intros b Hb. rewrite A4 by auto. rewrite cconj_mul.
      replace (cconj (cre (mprod J Q Y b' b))) with (cre (mprod J Q Y b' b)) by (apply ceq; unfold cconj, cre; cbn; ring). ring.
Qed.
Lemma left_c N azi zen Y Yc : sh_matrix N azi zen = Ok Y -> sh_matrix_c N azi zen = Ok Yc -> left_invertible Y -> cleft_invertible Yc.
Proof.
  intros EY Ec (X & HX). assert (D : dirs_ok azi zen = true) by (unfold sh_matrix in EY; destruct (dirs_ok azi zen); auto; discriminate).
  destruct (matrices N azi zen D) as (Y2 & Yc2 & EY2 & Ec2 & RY & Rc & CY & Cc & _). rewrite EY in EY2. rewrite Ec in Ec2. injection EY2 as <-. injection Ec2 as <-.
  rewrite RY, CY in HX. exists (pinv_c ((N + 1) ^ 2) (length azi) X). rewrite Cc, Rc. intros a b Ha Hb. unfold cprod, pinv_c, to_c. cbn [cent].
  rewrite <- (cassoc ((N + 1) ^ 2) (length azi) (fun k => cconj (ubasis k a)) (fun k q => cre (ent X k q)) (fun q => cent Yc q b)).
  fold (cre (delta a b)). rewrite <- (ubasis_cols N a b Ha Hb). apply csum_ext'. intros k Hk. f_equal.
  rewrite (csum_ext' (length azi) _ (fun q => cmul (cre (ent X k q)) (csum ((N + 1) ^ 2) (fun b' => cmul (cre (ent Y q b')) (ubasis b' b))))) by (intros q Hq; rewrite (matrix_basis N azi zen Y Yc EY Ec) by auto; reflexivity).
  rewrite (cassoc (length azi) ((N + 1) ^ 2) (fun q => cre (ent X k q)) (fun q b' => cre (ent Y q b')) (fun b' => ubasis b' b)).
  rewrite (csum_ext' ((N + 1) ^ 2) _ (fun b' => cmul (cre (delta k b')) (ubasis b' b))) by (intros b' Hb'; rewrite cre_prod; pose proof (HX k b' Hk Hb') as E; unfold mprod in E; rewrite E; reflexivity).
  apply (csum_delta ((N + 1) ^ 2) k (fun i => ubasis i b)). auto.
Qed.
(** the SOFA set *)
Theorem sofa_c rpinv cpinv s h N l r fs Y Yc : load_sofa_hrirs s = Ok h -> sh_matrix N (h_azi h) (h_zen h) = Ok Y -> sh_matrix_c N (h_azi h) (h_zen h) = Ok Yc ->
  penrose Y (rpinv Y) -> cpenrose Yc (cpinv Yc) -> sofa_to_sh rpinv s N = Ok (l, r, fs) ->
  exists lc rc, sofa_to_sh_c cpinv s N = Ok (lc, rc, fs) /\ same_functions N l lc /\ same_functions N r rc.
Proof.
  intros E EY Ec HP HC ES. unfold sofa_to_sh in ES. unfold sofa_to_sh_c. rewrite E in ES |- *. cbn [bind] in ES |- *. rewrite EY in ES. rewrite Ec. cbn [bind] in ES |- *.
  assert (D : dirs_ok (h_azi h) (h_zen h) = true) by (unfold sh_matrix in EY; destruct (dirs_ok (h_azi h) (h_zen h)); auto; discriminate).
  destruct (matrices N (h_azi h) (h_zen h) D) as (Y2 & Yc2 & EY2 & Ec2 & RY & Rc & CY & Cc & _). rewrite EY in EY2. rewrite Ec in Ec2. injection EY2 as <-. injection Ec2 as <-.
  pose proof (penrose_unique Yc _ _ HC (penrose_c N (h_azi h) (h_zen h) Y Yc (rpinv Y) EY Ec HP)) as UQ. rewrite Rc, Cc in UQ.
  destruct HP as (RP & CP & _). destruct HC as (RPc & CPc & _).
  assert (ONE : forall B M, matmul (rpinv Y) B = Ok M -> exists Mc, cmatmul (cpinv Yc) (cmat_of B) = Ok Mc /\ same_functions N M Mc).
  { intros B M EM. unfold matmul in EM. destruct (Nat.eqb_spec (nc (rpinv Y)) (nr B)) as [EB|]; [|discriminate]. injection EM as <-. rewrite cmatmul_ok by (cbn [cmat_of cnr]; congruence). eexists. split; [reflexivity|].
    apply same_to_c; cbn [nr nc ent cnr cnc cent cmat_of]; try congruence. intros i j Hi Hj. rewrite CPc, Rc, CP, RY.
    rewrite (csum_ext' _ _ (fun k => cmul (to_c ((N + 1) ^ 2) (fun b => ent (rpinv Y) b k) i) (cre (ent B k j)))) by (intros k Hk; rewrite UQ by auto; reflexivity).
    unfold to_c. rewrite <- (cassoc ((N + 1) ^ 2) (length (h_azi h)) (fun b => cconj (ubasis b i)) (fun b k => cre (ent (rpinv Y) b k)) (fun k => cre (ent B k j))). apply csum_ext'. intros b Hb. f_equal. apply cre_prod. }
  destruct (matmul (rpinv Y) (ear_mat (h_left h) (h_taps h))) as [ml|] eqn:EL; [|discriminate]. destruct (matmul (rpinv Y) (ear_mat (h_right h) (h_taps h))) as [mr|] eqn:ER; [|discriminate].
  cbn [bind] in ES. injection ES as <- <- <-. destruct (ONE _ _ EL) as (lc & El & Sl). destruct (ONE _ _ ER) as (rc & Er & Sr). exists lc, rc. rewrite El. cbn [bind]. rewrite Er. cbn [bind]. auto.
Qed.

(** ** Least squares *)
Lemma lstsq_c_fit lstsq f N azi zen : clstsq_contract lstsq -> length zen = length azi -> cnr f = length azi ->
  exists Yc X, sh_matrix_c N azi zen = Ok Yc /\ sht_lstsq_c lstsq f N azi zen None = Ok X /\ cnr X = ((N + 1) ^ 2)%nat /\ cnc X = cnc f /\
    forall j, (j < cnc f)%nat -> cbest_fit Yc (fun q => cent f q j) (fun k => cent X k j) /\
      (cleft_invertible Yc -> forall v, (forall q, (q < length azi)%nat -> cent f q j = cfield N v (nth q azi 0) (nth q zen 0)) -> forall k, (k < (N + 1) ^ 2)%nat -> cent X k j = v k).
Proof.
  intros HC D Rf.
  destruct (sh_matrix_c_ok N azi zen ltac:(auto)) as (Yc & Ec & Rc & Cc & HY). destruct (HC Yc f) as [HC1 _]. destruct (HC1 ltac:(congruence)) as (X & EX & RX & CX & HX).
  exists Yc, X. split; auto. split; [unfold sht_lstsq_c; rewrite Ec; exact EX|]. split; [congruence|]. split; auto. intros j Hj.
  assert (NO : cnormal Yc (fun q => cent f q j) (fun k => cent X k j)) by (intros i Hi; apply (HX i j Hi Hj)). split; [apply normal_best; auto|].
  intros HL v Hv k Hk. apply (normal_unique Yc (fun q => cent f q j) (fun k => cent X k j) v HL NO); [|congruence].
  apply exact_normal. intros q Hq. rewrite Hv by congruence. unfold capply, cfield. rewrite Cc, csum_acn. apply csum_ext'. intros n Hn. apply csum_ext'. intros i Hi. rewrite HY by (auto; lia). ring.
Qed.
(** of a real function, with full rank: the same function as the real transform *)
Lemma lstsq_c_real rl cl f N azi zen Y : lstsq_contract rl -> clstsq_contract cl -> sh_matrix N azi zen = Ok Y -> left_invertible Y -> nr f = length azi ->
  exists F G, sht_lstsq rl f N azi zen None = Ok F /\ sht_lstsq_c cl (cmat_of f) N azi zen None = Ok G /\ same_functions N F G.
Proof.
  intros HR HC EY HL Rf. assert (D : dirs_ok azi zen = true) by (unfold sh_matrix in EY; destruct (dirs_ok azi zen); auto; discriminate).
  destruct (matrices N azi zen D) as (Y2 & Yc & EY2 & Ec & RY & Rc & CY & Cc & _). rewrite EY in EY2. injection EY2 as <-.
  destruct (HR Y f) as [HR1 _]. destruct (HR1 ltac:(congruence)) as (F & EF & RF & CF & HF). destruct (HC Yc (cmat_of f)) as [HC1 _]. destruct (HC1 ltac:(cbn [cmat_of cnr]; congruence)) as (G & EG & RG & CG & HG).
  exists F, G. split; [unfold sht_lstsq; rewrite EY; exact EF|]. split; [unfold sht_lstsq_c; rewrite Ec; exact EG|]. cbn [cmat_of cnc] in CG.
  apply same_to_c; try congruence. intros i j Hi Hj. rewrite CF in Hj.
  apply (normal_unique Yc (fun q => cre (ent f q j)) (fun k => cent G k j) (to_c ((N + 1) ^ 2) (fun b => ent F b j)) (left_c N azi zen Y Yc EY Ec HL)); [| |congruence].
  - intros k Hk. apply (HG k j Hk ltac:(cbn [cmat_of cnc]; auto)).
  - intros k Hk. rewrite Cc in Hk. unfold capply. rewrite Rc, Cc.
    rewrite (csum_ext' (length azi) _ (fun q => cmul (csum ((N + 1) ^ 2) (fun b => cmul (cconj (ubasis b k)) (cre (ent Y q b)))) (cre (rsum ((N + 1) ^ 2) (fun b => ent Y q b * ent F b j) - ent f q j)))).
    + rewrite <- (cassoc ((N + 1) ^ 2) (length azi) (fun b => cconj (ubasis b k)) (fun b q => cre (ent Y q b)) (fun q => cre (rsum ((N + 1) ^ 2) (fun b => ent Y q b * ent F b j) - ent f q j))).
      apply csum_zero. intros b Hb. rewrite cre_prod. pose proof (HF b j ltac:(congruence) Hj) as E. rewrite RY, CY in E. rewrite E. ring.
    + intros q Hq. rewrite (apply_to_c N azi zen Y Yc (fun b => ent F b j) q EY Ec). rewrite (matrix_basis N azi zen Y Yc EY Ec) by auto. rewrite cconj_csum. f_equal.
      * apply csum_ext'. intros b Hb. rewrite cconj_mul. replace (cconj (cre (ent Y q b))) with (cre (ent Y q b)) by (apply ceq; unfold cconj, cre; cbn; ring). ring.
      * apply ceq; unfold cadd, cscal, cre; cbn [fst snd]; ring.
Qed.
