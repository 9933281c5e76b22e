(** Complex spherical harmonics in terms of the real ones; orthonormality. *)
From Coq Require Import Lra Lia Ring.
From Verif Require Import Base BaseFacts M_utils S_utils P_utils M_sig P_sig M_sph0 M_sph S_linalg S_sph
  P_sph1 P_sph2 P_sph3 P_sph4 P_sph5 P_sph6 P_sph7 P_sph8 P_sph9 P_sph10 P_sph11 M_parsa3 M_process3 S_zp P_cplx S_sph3.
Open Scope R_scope.
Add Ring C2ring_csph : cring.

Lemma s2pos : 0 < sqrt 2. Proof. apply sqrt_lt_R0. lra. Qed.
Lemma s2sq : sqrt 2 * sqrt 2 = 2. Proof. apply sqrt_sqrt. lra. Qed.
Lemma m1sq n : (-1) ^ n * (-1) ^ n = 1.
Proof. rewrite <- Rpow_mult_distr. replace (-1 * -1) with 1 by ring. apply pow1. Qed.

(** real and imaginary part of Y_n^m are multiples of real harmonics *)
Definition cs_re (m : Z) : R := if (m =? 0)%Z then 1 else if (m <? 0)%Z then / sqrt 2 else (-1) ^ Z.abs_nat m / sqrt 2.
Definition cs_im (m : Z) : R := if (m =? 0)%Z then 0 else if (m <? 0)%Z then - / sqrt 2 else (-1) ^ Z.abs_nat m / sqrt 2.
Lemma basis_parts n m azi zen : sph_harm m n azi zen = (cs_re m * sh_real n (Z.abs m) azi zen, cs_im m * sh_real n (- Z.abs m) azi zen).
Proof.
  pose proof s2pos as P2. pose proof s2sq as S2. pose proof (m1sq (Z.abs_nat m)) as M1.
  assert (NZ : sqrt 2 <> 0) by lra.
  unfold cs_re, cs_im, sh_real, sph_harm. destruct (Z.eqb_spec m 0) as [->|D].
  - cbn [Z.abs Z.opp Z.eqb Z.abs_nat Z.ltb Z.compare fst snd]. change (INR 0) with 0. rewrite Rmult_0_l, sin_0, cos_0. f_equal; ring.
  - set (p := Z.abs_nat m) in *. set (e := (-1) ^ p) in *. 
    destruct (Z.eqb_spec (Z.abs m) 0) as [|_]; [lia|]. destruct (Z.eqb_spec (- Z.abs m) 0) as [|_]; [lia|].
    destruct (Z.ltb_spec (Z.abs m) 0) as [|_]; [lia|]. destruct (Z.ltb_spec (- Z.abs m) 0) as [_|]; [|lia].
    replace (Z.abs_nat (Z.abs m)) with p by lia. replace (Z.abs_nat (- Z.abs m)) with p by lia.
    replace (Z.abs (Z.abs m)) with (Z.abs m) by lia. replace (Z.abs (- Z.abs m)) with (Z.abs m) by lia.
    replace (Z.abs_nat (Z.abs m)) with p by lia. destruct (Z.ltb_spec (Z.abs m) 0) as [|_]; [lia|]. cbn [fst snd]. fold e.
    destruct (Z.ltb_spec m 0) as [L|L]; cbn [fst snd]; fold e; f_equal; try (field; auto).
    + match goal with |- ?x = _ => transitivity (e * e * x); [rewrite M1; ring|field; auto] end.
    + match goal with |- ?x = _ => transitivity (e * e * x); [rewrite M1; ring|field; auto] end.
Qed.

(** the usual statement *)
Lemma basis_zero n azi zen : sph_harm 0 n azi zen = (sh_real n 0 azi zen, 0).
Proof. rewrite basis_parts. unfold cs_re, cs_im. cbn [Z.eqb Z.abs]. f_equal; ring. Qed.
Lemma basis_pos n m azi zen : (1 <= m)%Z -> sph_harm m n azi zen = cscal ((-1) ^ Z.to_nat m / sqrt 2) (sh_real n m azi zen, sh_real n (- m) azi zen).
Proof.
  intros H. rewrite basis_parts. unfold cs_re, cs_im. destruct (Z.eqb_spec m 0); [lia|]. destruct (Z.ltb_spec m 0); [lia|]. rewrite (Z.abs_eq m) by lia.
  rewrite Zabs2Nat.abs_nat_nonneg by lia. reflexivity.
Qed.
Lemma basis_neg n m azi zen : (1 <= m)%Z -> sph_harm (- m) n azi zen = cscal (/ sqrt 2) (sh_real n m azi zen, - sh_real n (- m) azi zen).
Proof.
  intros H. rewrite basis_parts. unfold cs_re, cs_im. destruct (Z.eqb_spec (- m) 0); [lia|]. destruct (Z.ltb_spec (- m) 0); [|lia]. rewrite (Z.abs_neq (- m)) by lia. rewrite Z.opp_involutive.
  unfold cscal. cbn [fst snd]. f_equal. ring.
Qed.

(** orthonormality from that of the real harmonics *)
Lemma gram_c (Q N : nat) (w : nat -> R) (R0 : nat -> Z -> nat -> R) (Y : nat -> Z -> nat -> C2) :
  (forall n m j, (n <= N)%nat -> degree n m -> (j < Q)%nat -> Y n m j = (cs_re m * R0 n (Z.abs m) j, cs_im m * R0 n (- Z.abs m)%Z j)) ->
  (forall n m n' m', (n <= N)%nat -> (n' <= N)%nat -> degree n m -> degree n' m' -> rsum Q (fun j => w j * (R0 n m j * R0 n' m' j)) = kd n m n' m') ->
  forall n m n' m', (n <= N)%nat -> (n' <= N)%nat -> degree n m -> degree n' m' ->
    csum Q (fun j => cscal (w j) (cmul (cconj (Y n m j)) (Y n' m' j))) = (kd n m n' m', 0).
Proof.
  intros HY HG n m n' m' Hn Hn' D D'. pose proof s2pos as P2. pose proof s2sq as S2. unfold degree in *.
  assert (G1 := HG n (Z.abs m) n' (Z.abs m') Hn Hn' ltac:(unfold degree; lia) ltac:(unfold degree; lia)).
  assert (G2 := HG n (- Z.abs m)%Z n' (- Z.abs m')%Z Hn Hn' ltac:(unfold degree; lia) ltac:(unfold degree; lia)).
  assert (G3 := HG n (Z.abs m) n' (- Z.abs m')%Z Hn Hn' ltac:(unfold degree; lia) ltac:(unfold degree; lia)).
  assert (G4 := HG n (- Z.abs m)%Z n' (Z.abs m') Hn Hn' ltac:(unfold degree; lia) ltac:(unfold degree; lia)).
  assert (E : csum Q (fun j => cscal (w j) (cmul (cconj (Y n m j)) (Y n' m' j))) =
    (cs_re m * cs_re m' * rsum Q (fun j => w j * (R0 n (Z.abs m) j * R0 n' (Z.abs m') j)) + cs_im m * cs_im m' * rsum Q (fun j => w j * (R0 n (- Z.abs m)%Z j * R0 n' (- Z.abs m')%Z j)),
     cs_re m * cs_im m' * rsum Q (fun j => w j * (R0 n (Z.abs m) j * R0 n' (- Z.abs m')%Z j)) - cs_im m * cs_re m' * rsum Q (fun j => w j * (R0 n (- Z.abs m)%Z j * R0 n' (Z.abs m') j)))).
  { unfold Rminus. rewrite Ropp_mult_distr_l, Ropp_mult_distr_l. unfold csum. rewrite <- !rsum_scal, <- !rsum_plus. f_equal; apply rsum_ext; intros j Hj; rewrite !HY by auto; unfold cscal, cmul, cconj; cbn [fst snd]; ring. }
  rewrite E, G1, G2, G3, G4. clear E G1 G2 G3 G4. unfold kd, zdelta, cs_re, cs_im.
  assert (H2 : / sqrt 2 * / sqrt 2 = / 2) by (rewrite <- Rinv_mult, S2; reflexivity).
  destruct (Nat.eqb_spec n n') as [<-|]; [|f_equal; ring].
  destruct (Z.eqb_spec m 0) as [->|M0]; destruct (Z.eqb_spec m' 0) as [->|M0'].
  - cbn. f_equal; ring.
  - destruct (Z.eqb_spec (Z.abs 0) (Z.abs m')); [lia|]. destruct (Z.eqb_spec (- Z.abs 0) (- Z.abs m')); [lia|]. destruct (Z.eqb_spec (Z.abs 0) (- Z.abs m')); [lia|]. destruct (Z.eqb_spec (- Z.abs 0) (Z.abs m')); [lia|]. destruct (Z.eqb_spec 0 m'); [lia|]. f_equal; ring.
  - destruct (Z.eqb_spec (Z.abs m) (Z.abs 0)); [lia|]. destruct (Z.eqb_spec (- Z.abs m) (- Z.abs 0)); [lia|]. destruct (Z.eqb_spec (Z.abs m) (- Z.abs 0)); [lia|]. destruct (Z.eqb_spec (- Z.abs m) (Z.abs 0)); [lia|]. destruct (Z.eqb_spec m 0); [lia|]. f_equal; ring.
  - destruct (Z.eqb_spec (Z.abs m) (- Z.abs m')); [lia|]. destruct (Z.eqb_spec (- Z.abs m) (Z.abs m')); [lia|].
    destruct (Z.eqb_spec (Z.abs m) (Z.abs m')) as [A|A].
    + destruct (Z.eqb_spec (- Z.abs m) (- Z.abs m')); [|lia].
      pose proof (m1sq (Z.abs_nat m)) as M1. assert (NA : Z.abs_nat m' = Z.abs_nat m) by lia. rewrite NA.
      destruct (Z.ltb_spec m 0); destruct (Z.ltb_spec m' 0); destruct (Z.eqb_spec m m'); try lia; unfold Rdiv; f_equal; try ring; set (ee := (-1) ^ Z.abs_nat m) in *.
      * nra.
      * transitivity (ee * ee * (/ sqrt 2 * / sqrt 2) + ee * ee * (/ sqrt 2 * / sqrt 2)); [ring|]. rewrite M1, H2. lra.
    + destruct (Z.eqb_spec (- Z.abs m) (- Z.abs m')); [lia|]. destruct (Z.eqb_spec m m'); [subst; lia|]. f_equal; ring.
Qed.

(** ** the matrices *)
Lemma sh_matrix_c_ok N azi zen : length zen = length azi ->
  exists Y, sh_matrix_c N azi zen = Ok Y /\ cnr Y = length azi /\ cnc Y = ((N + 1) ^ 2)%nat /\
    forall i n k, (i < length azi)%nat -> (n <= N)%nat -> (k < 2 * n + 1)%nat ->
      cent Y i (n * n + k) = sph_harm (Z.of_nat k - Z.of_nat n) n (nth i azi 0) (nth i zen 0).
Proof.
  intros L. unfold sh_matrix_c, dirs_ok. rewrite L, Nat.eqb_refl. cbn [orb]. eexists. split; [reflexivity|]. cbn [cnr cnc cent]. split; auto. split; auto.
  intros i n k Hi Hn Hk. rewrite acn_nth by auto. rewrite (bc1_eq zen i (length azi)) by auto. reflexivity.
Qed.
Lemma kd_delta n k n' k' : (k < 2 * n + 1)%nat -> (k' < 2 * n' + 1)%nat ->
  kd n (Z.of_nat k - Z.of_nat n) n' (Z.of_nat k' - Z.of_nat n') = delta (n * n + k) (n' * n' + k').
Proof.
  intros Hi Hi'. unfold kd, delta, zdelta. destruct (Nat.eqb_spec n n') as [->|D].
  - destruct (Z.eqb_spec (Z.of_nat k - Z.of_nat n') (Z.of_nat k' - Z.of_nat n')); destruct (Nat.eqb_spec (n' * n' + k) (n' * n' + k')); auto; lia.
  - destruct (Nat.eqb_spec (n * n + k) (n' * n' + k')) as [E'|]; auto. apply acn_uniq in E'; auto. lia.
Qed.
Lemma deg_index n m : degree n m -> exists k, (k < 2 * n + 1)%nat /\ m = (Z.of_nat k - Z.of_nat n)%Z.
Proof. intros D. destruct (acn_eq n m D) as (k & _ & K & E). eauto. Qed.

Theorem unitary_of N azi zen w Y : length zen = length azi -> sh_matrix N azi zen = Ok Y -> orthonormal_on Y w ->
  exists Yc, sh_matrix_c N azi zen = Ok Yc /\ cnr Yc = length azi /\ cnc Yc = ((N + 1) ^ 2)%nat /\ unitary_on Yc w.
Proof.
  intros L EY O. destruct (sh_matrix_ok N azi zen L) as (Y' & E' & R' & C' & H'). rewrite EY in E'. injection E' as <-.
  destruct (sh_matrix_c_ok N azi zen L) as (Yc & Ec & Rc & Cc & Hc). exists Yc. split; auto. split; auto. split; auto.
  intros a b Ha Hb. rewrite Cc in *. rewrite Rc.
  destruct (acn_decomp N a Ha) as (n & k & Hn & Hk & ->). destruct (acn_decomp N b Hb) as (n' & k' & Hn' & Hk' & ->). rewrite <- (kd_delta n k n' k') by auto.
  rewrite <- (gram_c (length azi) N (fun j => nth j w 0) (fun n m j => sh_real n m (nth j azi 0) (nth j zen 0)) (fun n m j => sph_harm m n (nth j azi 0) (nth j zen 0))); auto.
  - apply csum_ext'. intros j Hj. rewrite !Hc by auto. reflexivity.
  - intros n1 m1 j _ _ _. apply basis_parts.
  - intros n1 m1 n2 m2 H1 H2 D1 D2. destruct (deg_index n1 m1 D1) as (k1 & K1 & ->). destruct (deg_index n2 m2 D2) as (k2 & K2 & ->). rewrite kd_delta by auto.
    assert (I1 : forall n k, (n <= N)%nat -> (k < 2 * n + 1)%nat -> (n * n + k < nc Y)%nat).
    { intros q x Hq Hx. rewrite C', sq2. assert ((q + 1) * (q + 1) <= (N + 1) * (N + 1))%nat by (apply Nat.mul_le_mono; lia). lia. }
    rewrite <- (O (n1 * n1 + k1)%nat (n2 * n2 + k2)%nat) by auto. rewrite R'. apply rsum_ext. intros j Hj. rewrite !H' by auto. reflexivity.
  - unfold degree. lia.
  - unfold degree. lia.
Qed.
