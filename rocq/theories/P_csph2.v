(** The transforms with complex harmonics. *)
From Coq Require Import Lra Lia Ring.
From Verif Require Import Base BaseFacts M_utils S_utils P_utils M_sig P_sig M_process M_sph0 M_sph S_linalg S_sph
  P_sph1 P_sph2 P_sph3 P_sph4 P_sph5 P_sph6 P_sph7 P_sph8 P_sph9 P_sph10 P_sph11 M_parsa3 M_process3 S_zp P_cplx M_io M_io2 M_io3 M_sph3 S_sph3 P_csph1.
Open Scope R_scope.
Add Ring C2ring_csph2 : cring.

Lemma cconj_mul a b : cconj (cmul a b) = cmul (cconj a) (cconj b).
Proof. apply ceq; unfold cconj, cmul; cbn; ring. Qed.
Lemma cconj_add a b : cconj (cadd a b) = cadd (cconj a) (cconj b).
Proof. apply ceq; unfold cconj, cadd; cbn; ring. Qed.
Lemma cconj_csum n f : cconj (csum n f) = csum n (fun i => cconj (f i)).
Proof. induction n as [|n IH]; [apply ceq; cbn; ring|]. rewrite !csum_S, cconj_add, IH. reflexivity. Qed.
Lemma cconj_inv a : cconj (cconj a) = a.
Proof. apply ceq; unfold cconj; cbn; ring. Qed.
Lemma cscal_cre s a : cscal s a = cmul (cre s) a. Proof. apply cscal_mul. Qed.
Lemma csum_single n k f : (k < n)%nat -> (forall i, (i < n)%nat -> i <> k -> f i = cre 0) -> csum n f = f k.
Proof.
  intros K H. apply ceq; unfold csum; cbn [fst snd]; [apply (rsum_single n k (fun i => fst (f i)))|apply (rsum_single n k (fun i => snd (f i)))]; auto; intros i Hi D; rewrite (H i Hi D); reflexivity.
Qed.
Lemma csum_delta n k f : (k < n)%nat -> csum n (fun i => cmul (cre (delta k i)) (f i)) = f k.
Proof.
  intros K. rewrite (csum_single n k) by (auto; intros i _ D; rewrite delta_diff by auto; ring). rewrite delta_same. ring.
Qed.
Lemma csum_acn N f : csum ((N + 1) ^ 2) f = csum (N + 1) (fun n => csum (2 * n + 1) (fun k => f (n * n + k)%nat)).
Proof. apply ceq; unfold csum; cbn [fst snd]; rewrite sq2, rsum_acn; reflexivity. Qed.
Lemma acn_bound N n k : (n <= N)%nat -> (k < 2 * n + 1)%nat -> (n * n + k < (N + 1) ^ 2)%nat.
Proof. intros H K. rewrite sq2. assert ((n + 1) * (n + 1) <= (N + 1) * (N + 1))%nat by (apply Nat.mul_le_mono; lia). lia. Qed.

(** ** what the functions return *)
Lemma cmatmul_ok a b : cnc a = cnr b -> cmatmul a b = Ok (CMat (cnr a) (cnc b) (fun i j => csum (cnc a) (fun k => cmul (cent a i k) (cent b k j)))).
Proof. intros H. unfold cmatmul. rewrite H, Nat.eqb_refl. reflexivity. Qed.
Lemma sht_c_weights f N azi zen w Y : sh_matrix_c N azi zen = Ok Y -> length w = cnr f -> cnr Y = cnr f ->
  exists F, sht_c f N azi zen (Some w) None = Ok F /\ cnr F = cnc Y /\ cnc F = cnc f /\
    forall i j, cent F i j = csum (cnr f) (fun q => cmul (cconj (cent Y q i)) (cmul (cre (nth q w 0)) (cent f q j))).
Proof.
  intros EY L R0. unfold sht_c. rewrite EY. cbn [bind]. rewrite cmatmul_ok by auto. cbn [bind cnc].
  rewrite cmatmul_ok by (cbn [cnc cnr cadj]; congruence). eexists. split; [reflexivity|]. cbn [cnr cnc cadj cent].
  split; auto. split; auto. intros i j. rewrite R0. apply csum_ext'. intros q Hq. f_equal. rewrite L.
  rewrite (csum_single (cnr f) q); auto.
  - rewrite Nat.eqb_refl. reflexivity.
  - intros k _ D. destruct (Nat.eqb_spec q k); [congruence|]. fold (cre 0). ring.
Qed.
Lemma sht_c_default f N azi zen Y : sh_matrix_c N azi zen = Ok Y -> cnr Y = cnr f -> cnr f = length azi ->
  exists F, sht_c f N azi zen None None = Ok F /\ cnr F = cnc Y /\ cnc F = cnc f /\
    forall i j, cent F i j = csum (cnr f) (fun q => cmul (cconj (cent Y q i)) (cmul (cre (nth q (equal_weights (length azi)) 0)) (cent f q j))).
Proof.
  intros EY R0 LA. unfold sht_c. rewrite EY. cbn [bind]. rewrite cmatmul_ok by (cbn [cnc cnr cadj]; congruence). eexists. split; [reflexivity|].
  cbn [cnr cnc cadj cent]. split; auto. split; auto. intros i j. rewrite R0. apply csum_ext'. intros q Hq. rewrite nth_equal_weights by lia. rewrite LA.
  apply ceq; unfold cmul, cconj, cscal, cre; cbn [fst snd]; ring.
Qed.
Lemma inverse_all F N azi zen : cnr F = ((N + 1) ^ 2)%nat -> length zen = length azi ->
  exists Y f, sh_matrix_c N azi zen = Ok Y /\ inverse_sht_all F azi zen = Ok f /\ cnr f = length azi /\ cnc f = cnc F /\
    (forall i j, cent f i j = csum ((N + 1) ^ 2) (fun k => cmul (cent Y i k) (cent F k j))) /\
    (forall i j, (i < length azi)%nat -> cent f i j = cfield N (fun k => cent F k j) (nth i azi 0) (nth i zen 0)).
Proof.
  intros R0 L. destruct (sh_matrix_c_ok N azi zen L) as (Y & EY & RY & CY & HY). exists Y.
  unfold inverse_sht_all. pose proof (sq_ge1 N) as G1. destruct (cnr F) as [|K] eqn:EK; [lia|]. rewrite R0, order_of_sq, Nat2Z.id.
  unfold inverse_sht_c. rewrite EY. cbn [bind]. rewrite cmatmul_ok by (cbn [cnr]; rewrite EK, R0, CY, Nat.min_id; reflexivity). eexists. split; [reflexivity|]. split; [reflexivity|]. cbn [cnr cnc cent]. rewrite CY.
  split; auto. split; auto. split; auto. intros i j Hi. unfold cfield. rewrite csum_acn. apply csum_ext'. intros n Hn. apply csum_ext'. intros k Hk.
  rewrite HY by (auto; lia). ring.
Qed.
Lemma inverse_c_ok F N azi zen : ((N + 1) ^ 2 <= cnr F)%nat -> length zen = length azi ->
  exists f, inverse_sht_c F N azi zen = Ok f /\ cnr f = length azi /\ cnc f = cnc F /\
    (forall i j, (i < length azi)%nat -> cent f i j = cfield N (fun k => cent F k j) (nth i azi 0) (nth i zen 0)).
Proof.
  intros R0 L. destruct (sh_matrix_c_ok N azi zen L) as (Y & EY & RY & CY & HY). unfold inverse_sht_c. rewrite EY. cbn [bind].
  rewrite cmatmul_ok by (cbn [cnr]; rewrite CY, Nat.min_l; auto). eexists. split; [reflexivity|]. cbn [cnr cnc cent]. rewrite CY.
  split; auto. split; auto. intros i j Hi. unfold cfield. rewrite csum_acn. apply csum_ext'. intros n Hn. apply csum_ext'. intros k Hk.
  rewrite HY by (auto; lia). ring.
Qed.
Lemma inverse_c_few F N azi zen : (cnr F < (N + 1) ^ 2)%nat -> length zen = length azi -> inverse_sht_c F N azi zen = Err ValueError.
Proof.
  intros R0 L. destruct (sh_matrix_c_ok N azi zen L) as (Y & EY & RY & CY & HY). unfold inverse_sht_c. rewrite EY. cbn [bind]. unfold cmatmul. cbn [cnr]. rewrite CY, Nat.min_r by lia.
  destruct (Nat.eqb_spec ((N + 1) ^ 2) (cnr F)); [lia|reflexivity].
Qed.

(** ** inversion *)
Lemma gram_apply Y w F N : cnc Y = ((N + 1) ^ 2)%nat -> unitary_on Y w -> forall i j, (i < (N + 1) ^ 2)%nat ->
  csum (cnr Y) (fun q => cmul (cconj (cent Y q i)) (cmul (cre (nth q w 0)) (csum ((N + 1) ^ 2) (fun k => cmul (cent Y q k) (cent F k j))))) = cent F i j.
Proof.
  intros C U i j Hi. transitivity (csum (cnr Y) (fun q => csum ((N + 1) ^ 2) (fun k => cmul (cscal (nth q w 0) (cmul (cconj (cent Y q i)) (cent Y q k))) (cent F k j)))).
  - apply csum_ext'. intros q _. rewrite <- csum_mul, <- csum_mul. apply csum_ext'. intros k _. rewrite cscal_cre. ring.
  - rewrite csum_swap. transitivity (csum ((N + 1) ^ 2) (fun k => cmul (cre (delta i k)) (cent F k j))).
    + apply csum_ext'. intros k Hk. unfold cre. rewrite <- (U i k) by (rewrite C; auto). rewrite <- (csum_ext' _ (fun q => cmul (cent F k j) (cscal (nth q w 0) (cmul (cconj (cent Y q i)) (cent Y q k))))) by (intros; ring). rewrite csum_mul. ring.
    + apply (csum_delta ((N + 1) ^ 2) i (fun k => cent F k j)). auto.
Qed.
Theorem sht_c_inverts N azi zen w Y F : length zen = length azi -> sh_matrix N azi zen = Ok Y -> length w = length azi -> orthonormal_on Y w -> cnr F = ((N + 1) ^ 2)%nat ->
  exists f F', inverse_sht_all F azi zen = Ok f /\ sht_c f N azi zen (Some w) None = Ok F' /\ cmeq F' F.
Proof.
  intros L EY Lw O R0. destruct (unitary_of N azi zen w Y L EY O) as (Yc & Ec & Rc & Cc & U).
  destruct (inverse_all F N azi zen R0 L) as (Y' & f & E' & Ef & Rf & Cf & Hf & _). rewrite Ec in E'. injection E' as <-.
  destruct (sht_c_weights f N azi zen w Yc Ec ltac:(congruence) ltac:(congruence)) as (F' & EF & RF & CF & HF). exists f, F'. split; auto. split; auto.
  split; [congruence|]. split; [congruence|]. intros i j Hi Hj. rewrite HF, Rf, <- Rc. rewrite <- (gram_apply Yc w F N Cc U i j) by congruence.
  apply csum_ext'. intros q _. rewrite Hf. reflexivity.
Qed.
Theorem sht_c_inverts_default N azi zen Y F : length zen = length azi -> sh_matrix N azi zen = Ok Y -> orthonormal_on Y (equal_weights (length azi)) -> cnr F = ((N + 1) ^ 2)%nat ->
  exists f F', inverse_sht_all F azi zen = Ok f /\ sht_c f N azi zen None None = Ok F' /\ cmeq F' F.
Proof.
  intros L EY O R0. destruct (unitary_of N azi zen _ Y L EY O) as (Yc & Ec & Rc & Cc & U).
  destruct (inverse_all F N azi zen R0 L) as (Y' & f & E' & Ef & Rf & Cf & Hf & _). rewrite Ec in E'. injection E' as <-.
  destruct (sht_c_default f N azi zen Yc Ec ltac:(congruence) ltac:(congruence)) as (F' & EF & RF & CF & HF). exists f, F'. split; auto. split; auto.
  split; [congruence|]. split; [congruence|]. intros i j Hi Hj. rewrite HF, Rf, <- Rc. rewrite <- (gram_apply Yc _ F N Cc U i j) by congruence.
  apply csum_ext'. intros q _. rewrite Hf, Rc. reflexivity.
Qed.

(** ** Parseval *)
Lemma cnorm2_conj z : cmul (cconj z) z = cre (cnorm2 z).
Proof. apply ceq; unfold cmul, cconj, cre, cnorm2; cbn [fst snd]; ring. Qed.
Theorem parseval_c N azi zen w Y F f : length zen = length azi -> sh_matrix N azi zen = Ok Y -> orthonormal_on Y w -> cnr F = ((N + 1) ^ 2)%nat ->
  inverse_sht_all F azi zen = Ok f -> forall j, rsum (length azi) (fun q => nth q w 0 * cnorm2 (cent f q j)) = rsum ((N + 1) ^ 2) (fun k => cnorm2 (cent F k j)).
Proof.
  intros L EY O R0 Ef j. destruct (unitary_of N azi zen w Y L EY O) as (Yc & Ec & Rc & Cc & U).
  destruct (inverse_all F N azi zen R0 L) as (Y' & f' & E' & Ef' & Rf & Cf & Hf & _). rewrite Ec in E'. injection E' as <-. rewrite Ef in Ef'. injection Ef' as <-.
  assert (E : cre (rsum (length azi) (fun q => nth q w 0 * cnorm2 (cent f q j))) = cre (rsum ((N + 1) ^ 2) (fun k => cnorm2 (cent F k j)))).
  { rewrite <- !csum_cre. transitivity (csum (cnr Yc) (fun q => csum ((N + 1) ^ 2) (fun i => cmul (cconj (cent F i j)) (cmul (cconj (cent Yc q i)) (cmul (cre (nth q w 0)) (csum ((N + 1) ^ 2) (fun k => cmul (cent Yc q k) (cent F k j)))))))).
    - rewrite Rc. apply csum_ext'. intros q _. rewrite cre_mul, <- cnorm2_conj. rewrite !Hf. rewrite cconj_csum.
      transitivity (cmul (cmul (cre (nth q w 0)) (csum ((N + 1) ^ 2) (fun k => cmul (cent Yc q k) (cent F k j)))) (csum ((N + 1) ^ 2) (fun i => cconj (cmul (cent Yc q i) (cent F i j))))); [ring|].
      rewrite <- csum_mul. apply csum_ext'. intros i _. rewrite cconj_mul. ring.
    - rewrite csum_swap. apply csum_ext'. intros i Hi. rewrite csum_mul. rewrite (gram_apply Yc w F N Cc U i j Hi). apply cnorm2_conj. }
  injection E as E. exact E.
Qed.

(** ** linearity *)
Theorem sht_c_linear f g N azi zen w a b Ff Fg : cnr f = cnr g -> cnc f = cnc g ->
  sht_c f N azi zen w None = Ok Ff -> sht_c g N azi zen w None = Ok Fg ->
  exists F, sht_c (CMat (cnr f) (cnc f) (fun i j => cadd (cmul a (cent f i j)) (cmul b (cent g i j)))) N azi zen w None = Ok F /\
    cnr F = cnr Ff /\ cnc F = cnc Ff /\ forall i j, cent F i j = cadd (cmul a (cent Ff i j)) (cmul b (cent Fg i j)).
Proof.
  intros R0 C0. unfold sht_c. destruct (sh_matrix_c N azi zen) as [Y|]; [|discriminate]. cbn [bind]. unfold cmatmul. cbn [cnr cnc cadj cent]. rewrite R0, C0.
  destruct w as [w|].
  - destruct (Nat.eqb (length w) (cnr g)); [|discriminate]. cbn [bind cnr cnc cent]. destruct (Nat.eqb (cnr Y) (length w)); [|discriminate].
    intros [= <-] [= <-]. eexists. split; [reflexivity|]. cbn [cnr cnc cent]. split; auto. split; auto. intros i j.
    rewrite <- !csum_mul, <- csum_add. apply csum_ext'. intros q _. 
    transitivity (cmul (cconj (cent Y q i)) (cadd (cmul a (csum (length w) (fun k => cmul (if Nat.eqb q k then (nth q w 0, 0) else (0, 0)) (cent f k j)))) (cmul b (csum (length w) (fun k => cmul (if Nat.eqb q k then (nth q w 0, 0) else (0, 0)) (cent g k j)))))).
    + f_equal. rewrite <- !csum_mul, <- csum_add. apply csum_ext'. intros k _. ring.
    + ring.
  - destruct (Nat.eqb (cnr Y) (cnr g)); [|discriminate].
    intros [= <-] [= <-]. eexists. split; [reflexivity|]. cbn [cnr cnc cent]. split; auto. split; auto. intros i j.
    rewrite <- !csum_mul, <- csum_add. apply csum_ext'. intros q _. ring.
Qed.
