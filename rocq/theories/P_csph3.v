(** Real and complex coefficients of the same functions. *)
From Coq Require Import Lra Lia Ring.
From Verif Require Import Base BaseFacts M_utils S_utils P_utils M_sig P_sig M_process M_sph0 M_sph S_linalg S_sph
  P_sph1 P_sph2 P_sph3 P_sph4 P_sph5 P_sph6 P_sph7 P_sph8 P_sph9 P_sph10 P_sph11 P_sph13 M_parsa3 M_process3 S_zp P_cplx M_io M_io2 M_io3 M_sph3 S_sph3 P_csph1 P_csph2.
Open Scope R_scope.
Add Ring C2ring_csph3 : cring.

(** sums over -n..n *)
Lemma csum_sym n (g : Z -> C2) : csum (2 * n + 1) (fun k => g (Z.of_nat k - Z.of_nat n)%Z) =
  cadd (g 0%Z) (csum n (fun j => cadd (g (Z.of_nat (S j))) (g (- Z.of_nat (S j))%Z))).
Proof.
  replace (2 * n + 1)%nat with (n + S n)%nat by lia. rewrite csum_app, csum_shift, csum_add.
  rewrite (csum_rev n (fun k => g (Z.of_nat k - Z.of_nat n)%Z)).
  rewrite (csum_ext' n (fun k => g (Z.of_nat (n - 1 - k) - Z.of_nat n)%Z) (fun j => g (- Z.of_nat (S j))%Z)) by (intros i Hi; f_equal; lia).
  rewrite (csum_ext' n (fun k => g (Z.of_nat (n + S k) - Z.of_nat n)%Z) (fun j => g (Z.of_nat (S j)))) by (intros i Hi; f_equal; lia).
  replace (Z.of_nat (n + 0) - Z.of_nat n)%Z with 0%Z by lia. ring.
Qed.

Lemma acn_pos n m : degree n m -> acn n m = (n * n + Z.to_nat (m + Z.of_nat n))%nat.
Proof. unfold degree, acn. intros H. nia. Qed.
Lemma acn_at n k : (k < 2 * n + 1)%nat -> acn n (Z.of_nat k - Z.of_nat n) = (n * n + k)%nat.
Proof. intros H. destruct (acn_of n k H) as [E _]. auto. Qed.
Lemma acn_lt N n m : (n <= N)%nat -> degree n m -> (acn n m < (N + 1) ^ 2)%nat.
Proof. intros H D. rewrite acn_pos by auto. apply acn_bound; auto. unfold degree in D. lia. Qed.
Lemma deg_opp n m : degree n m -> degree n (- m). Proof. unfold degree. lia. Qed.
Lemma deg_abs n m : degree n m -> degree n (Z.abs m). Proof. unfold degree. lia. Qed.

(** the two matrices *)
Lemma matrices N azi zen : dirs_ok azi zen = true ->
  exists Y Yc, sh_matrix N azi zen = Ok Y /\ sh_matrix_c N azi zen = Ok Yc /\ nr Y = length azi /\ cnr Yc = length azi /\ nc Y = ((N + 1) ^ 2)%nat /\ cnc Yc = ((N + 1) ^ 2)%nat /\
    forall q n m, (n <= N)%nat -> degree n m -> cent Yc q (acn n m) = (cs_re m * ent Y q (acn n (Z.abs m)), cs_im m * ent Y q (acn n (- Z.abs m))).
Proof.
  intros D. unfold sh_matrix, sh_matrix_c. rewrite D. eexists. eexists. split; [reflexivity|]. split; [reflexivity|]. cbn [nr nc ent cnr cnc cent].
  split; auto. split; auto. split; auto. split; auto. intros q n m Hn Dm.
  rewrite !acn_pos by (auto using deg_opp, deg_abs). unfold degree in Dm. rewrite !acn_nth by lia.
  replace (Z.of_nat (Z.to_nat (m + Z.of_nat n)) - Z.of_nat n)%Z with m by lia.
  replace (Z.of_nat (Z.to_nat (Z.abs m + Z.of_nat n)) - Z.of_nat n)%Z with (Z.abs m) by lia.
  replace (Z.of_nat (Z.to_nat (- Z.abs m + Z.of_nat n)) - Z.of_nat n)%Z with (- Z.abs m)%Z by lia. apply basis_parts.
Qed.

Lemma same_of N (Y : mat) (Yc : cmat) (F : mat) (G : cmat) Q S (c : nat -> nat -> R) :
  (forall q n m, (n <= N)%nat -> degree n m -> cent Yc q (acn n m) = (cs_re m * ent Y q (acn n (Z.abs m)), cs_im m * ent Y q (acn n (- Z.abs m)))) ->
  nr F = ((N + 1) ^ 2)%nat -> nc F = S -> cnr G = ((N + 1) ^ 2)%nat -> cnc G = S ->
  (forall i j, ent F i j = rsum Q (fun q => ent Y q i * c q j)) ->
  (forall i j, cent G i j = csum Q (fun q => cmul (cconj (cent Yc q i)) (cre (c q j)))) -> same_functions N F G.
Proof.
  intros HM RF CF RG CG HF HG. split; auto. split; auto. split; [congruence|]. intros n j Hn Hj.
  assert (V : forall m, degree n m -> cent G (acn n m) j = (cs_re m * ent F (acn n (Z.abs m)) j, - cs_im m * ent F (acn n (- Z.abs m)) j)).
  { intros m Dm. rewrite HG, !HF. unfold csum. rewrite <- !rsum_scal. f_equal; apply rsum_ext; intros q _; rewrite HM by auto; unfold cmul, cconj, cre; cbn [fst snd]; ring. }
  split.
  - rewrite V by (unfold degree; lia). unfold cs_re, cs_im. cbn [Z.eqb Z.abs Z.opp]. f_equal; ring.
  - intros m Hm. split.
    + rewrite V by (unfold degree; lia). unfold cs_re, cs_im. destruct (Z.eqb_spec m 0); [lia|]. destruct (Z.ltb_spec m 0); [lia|]. rewrite (Z.abs_eq m) by lia.
      rewrite Zabs2Nat.abs_nat_nonneg by lia. unfold cscal. cbn [fst snd]. f_equal; ring.
    + rewrite V by (unfold degree; lia). unfold cs_re, cs_im. destruct (Z.eqb_spec (- m) 0); [lia|]. destruct (Z.ltb_spec (- m) 0); [|lia]. rewrite (Z.abs_neq (- m)), Z.opp_involutive by lia.
      unfold cscal. cbn [fst snd]. f_equal; ring.
Qed.

Definition weights_fit (w : option (list R)) (Q : nat) : Prop := match w with Some l => length l = Q | None => True end.
Theorem real_functions f N azi zen w : dirs_ok azi zen = true -> nr f = length azi -> weights_fit w (length azi) ->
  exists F G, sht f N azi zen w None = Ok F /\ sht_c (cmat_of f) N azi zen w None = Ok G /\ nc F = nc f /\ same_functions N F G.
Proof.
  intros D R0 W. destruct (matrices N azi zen D) as (Y & Yc & EY & Ec & RY & Rc & CY & Cc & HM). destruct w as [w|].
  - cbn [weights_fit] in W. destruct (sht_weights_ok f N azi zen w Y EY ltac:(congruence) ltac:(congruence)) as (F & EF & RF & CF & HF).
    destruct (sht_c_weights (cmat_of f) N azi zen w Yc Ec ltac:(cbn [cmat_of cnr]; congruence) ltac:(cbn [cmat_of cnr]; congruence)) as (G & EG & RG & CG & HG).
    exists F, G. split; auto. split; auto. split; auto. apply (same_of N Y Yc F G (nr f) (nc f) (fun q j => nth q w 0 * ent f q j)); auto; try congruence.
    intros i j. rewrite HG. cbn [cmat_of cnr cent]. apply csum_ext'. intros q _. rewrite cre_mul. reflexivity.
  - destruct (sht_default f N azi zen Y EY ltac:(congruence)) as (F & EF & RF & CF & HF).
    destruct (sht_c_default (cmat_of f) N azi zen Yc Ec ltac:(cbn [cmat_of cnr]; congruence) ltac:(cbn [cmat_of cnr]; congruence)) as (G & EG & RG & CG & HG).
    exists F, G. split; auto. split; auto. split; auto. apply (same_of N Y Yc F G (nr f) (nc f) (fun q j => 4 * PI / INR (nr f) * ent f q j)); auto; try congruence.
    intros i j. rewrite HG. cbn [cmat_of cnr cent]. apply csum_ext'. intros q Hq. rewrite nth_equal_weights by lia. rewrite cre_mul, R0. reflexivity.
Qed.

Theorem sources_c sig N azi zen : dirs_ok azi zen = true -> nr sig = length azi ->
  exists F G, src_to_sh sig azi zen N = Ok F /\ src_to_sh_c sig azi zen N = Ok G /\ nc F = nc sig /\ same_functions N F G.
Proof.
  intros D R0. destruct (matrices N azi zen D) as (Y & Yc & EY & Ec & RY & Rc & CY & Cc & HM). unfold src_to_sh, src_to_sh_c. rewrite EY, Ec. cbn [bind].
  rewrite matmul_ok by (cbn [mtr nc]; congruence). rewrite cmatmul_ok by (cbn [cadj cnc cmat_of cnr]; congruence).
  eexists. eexists. split; [reflexivity|]. split; [reflexivity|]. split; [reflexivity|].
  apply (same_of N Y Yc _ _ (length azi) (nc sig) (fun q j => ent sig q j)); auto; cbn [nr nc ent cnr cnc cent mtr cadj cmat_of]; intros; rewrite ?RY, ?Rc; reflexivity.
Qed.
Theorem sources_mismatch sig N azi zen : dirs_ok azi zen = true -> nr sig <> length azi -> src_to_sh_c sig azi zen N = Err ValueError.
Proof.
  intros D R0. destruct (matrices N azi zen D) as (Y & Yc & EY & Ec & RY & Rc & CY & Cc & HM). unfold src_to_sh_c. rewrite Ec. cbn [bind]. unfold cmatmul. cbn [cadj cnc cmat_of cnr].
  rewrite Rc. destruct (Nat.eqb_spec (length azi) (nr sig)); [congruence|reflexivity].
Qed.

Lemma hermitian N F G n m j : same_functions N F G -> (n <= N)%nat -> (j < nc F)%nat -> (0 <= m <= Z.of_nat n)%Z ->
  cent G (acn n (- m)) j = cscal ((-1) ^ Z.to_nat m) (cconj (cent G (acn n m) j)).
Proof.
  intros (_ & _ & _ & H) Hn Hj Hm. destruct (H n j Hn Hj) as [H0 H1]. destruct (Z.eq_dec m 0) as [->|D].
  - change (- 0)%Z with 0%Z. rewrite H0. apply ceq; unfold cscal, cconj; cbn; ring.
  - destruct (H1 m ltac:(lia)) as [E1 E2]. rewrite E1, E2. pose proof (m1sq (Z.to_nat m)) as M1. pose proof s2pos. set (e := (-1) ^ Z.to_nat m) in *.
    apply ceq; unfold cscal, cconj; cbn [fst snd].
    + transitivity (e * e * (/ sqrt 2 * ent F (acn n m) j)); [rewrite M1; ring|field; lra].
    + transitivity (e * e * (/ sqrt 2 * ent F (acn n (- m)) j)); [rewrite M1; ring|field; lra].
Qed.

(** synthesis *)
Lemma same_value N F G j azi zen : same_functions N F G -> (j < nc F)%nat ->
  cfield N (fun k => cent G k j) azi zen = (rsum (N + 1) (fun n => rsum (2 * n + 1) (fun k => ent F (n * n + k) j * sh_real n (Z.of_nat k - Z.of_nat n) azi zen)), 0).
Proof.
  intros (_ & _ & _ & H) Hj. fold (cre (rsum (N + 1) (fun n => rsum (2 * n + 1) (fun k => ent F (n * n + k) j * sh_real n (Z.of_nat k - Z.of_nat n) azi zen)))).
  rewrite <- csum_cre. unfold cfield. apply csum_ext'. intros n Hn. rewrite <- csum_cre. destruct (H n j ltac:(lia) Hj) as [H0 H1].
  rewrite (csum_ext' (2 * n + 1) _ (fun k => (fun m => cmul (cent G (acn n m) j) (sph_harm m n azi zen)) (Z.of_nat k - Z.of_nat n)%Z)) by (intros k Hk; cbv beta; rewrite acn_at by auto; reflexivity).
  rewrite (csum_ext' (2 * n + 1) (fun k => cre _) (fun k => (fun m => cre (ent F (acn n m) j * sh_real n m azi zen)) (Z.of_nat k - Z.of_nat n)%Z)) by (intros k Hk; cbv beta; rewrite acn_at by auto; reflexivity).
  rewrite (csum_sym n (fun m => cmul (cent G (acn n m) j) (sph_harm m n azi zen))), (csum_sym n (fun m => cre (ent F (acn n m) j * sh_real n m azi zen))). f_equal.
  - rewrite H0, basis_zero. apply ceq; unfold cmul, cre; cbn [fst snd]; ring.
  - apply csum_ext'. intros i Hi. destruct (H1 (Z.of_nat (S i)) ltac:(lia)) as [E1 E2]. rewrite E1, E2. rewrite basis_pos, basis_neg by lia.
    pose proof (m1sq (Z.to_nat (Z.of_nat (S i)))) as M1. set (e := (-1) ^ Z.to_nat (Z.of_nat (S i))) in *. pose proof s2pos as P2. assert (H2 : / sqrt 2 * / sqrt 2 = / 2) by (rewrite <- Rinv_mult, s2sq; reflexivity).
    set (a := ent F (acn n (Z.of_nat (S i))) j). set (b := ent F (acn n (- Z.of_nat (S i))) j). set (x := sh_real n (Z.of_nat (S i)) azi zen). set (y := sh_real n (- Z.of_nat (S i)) azi zen).
    set (h := / sqrt 2) in *. apply ceq; unfold cadd, cmul, cscal, cre, Rdiv; cbn [fst snd]; fold h.
    + transitivity ((e * e + 1) * (h * h) * (a * x + b * y)); [ring|]. rewrite M1, H2. field.
    + transitivity ((e * e - 1) * (h * h) * (a * y - b * x)); [ring|]. rewrite M1. ring.
Qed.
Theorem same_synthesis N F G azi zen f : same_functions N F G -> length zen = length azi -> inverse_sht F azi zen None None = Ok f ->
  exists g, inverse_sht_all G azi zen = Ok g /\ cmeq g (cmat_of f).
Proof.
  intros H L Ef. pose proof H as (RG & RF & CG & _). destruct (inverse_all G N azi zen RG L) as (Yc & g & Ec & Eg & Rg & Cg & _ & Hg). exists g. split; auto.
  destruct (sh_matrix_ok N azi zen L) as (Y & EY & RY & CY & HY).
  destruct (inverse_sht_ok F N azi zen Y EY CY ltac:(lia)) as (f' & Ef' & Rf & Cf & Hf). rewrite (inverse_sht_infers F N azi zen RF) in Ef. rewrite Ef in Ef'. injection Ef' as <-.
  split; [cbn [cmat_of cnr]; congruence|]. split; [cbn [cmat_of cnc]; congruence|]. intros i j Hi Hj. rewrite Hg by congruence. rewrite (same_value N F G j) by (auto; congruence).
  cbn [cmat_of cent]. f_equal. rewrite Hf, sq2, rsum_acn. apply rsum_ext. intros n Hn. apply rsum_ext. intros k Hk. rewrite HY by (auto; try lia; congruence). ring.
Qed.
