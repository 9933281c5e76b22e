(** Final forms and examples: complex spherical harmonics. *)
From Coq Require Import Lra Lia Ring.
From Verif Require Import Base BaseFacts M_utils S_utils P_utils M_sig P_sig M_process M_sph0 M_sph S_linalg S_sph P_linalg
  P_sph1 P_sph2 P_sph3 P_sph4 P_sph5 P_sph6 P_sph7 P_sph8 P_sph9 P_sph10 P_sph11 P_sph12 P_sph13 X_sph M_parsa3 M_process3 S_zp P_cplx M_io M_io2 M_io3 M_sph3 S_sph3 S_grids P_grids3 P_csph1 P_csph2 P_csph3 P_csph4 P_csph5 P_csph6 P_csph7 P_csph8 X_io6.
Open Scope R_scope.
Add Ring C2ring_xcsph : cring.

Lemma f_basis n azi zen : sph_harm 0 n azi zen = (sh_real n 0 azi zen, 0) /\
  forall m, (1 <= m)%Z -> sph_harm m n azi zen = cscal ((-1) ^ Z.to_nat m / sqrt 2) (sh_real n m azi zen, sh_real n (- m) azi zen) /\
    sph_harm (- m) n azi zen = cscal (/ sqrt 2) (sh_real n m azi zen, - sh_real n (- m) azi zen).
Proof. split; [apply basis_zero|]. intros m Hm. split; [apply basis_pos|apply basis_neg]; auto. Qed.
Lemma f_orthonormal N azi zen w : exact_for sh_real (2 * N) azi zen w ->
  exists Yc, sh_matrix_c N azi zen = Ok Yc /\ cnr Yc = length azi /\ cnc Yc = ((N + 1) ^ 2)%nat /\ unitary_on Yc w.
Proof.
  intros H. destruct (gram_grid N azi zen w H) as (Y & E & R & C & O). destruct H as (L & _). apply (unitary_of N azi zen w Y); auto.
Qed.
Lemma f_inverts N azi zen w F : exact_for sh_real (2 * N) azi zen w -> cnr F = ((N + 1) ^ 2)%nat ->
  exists f F', inverse_sht_all F azi zen = Ok f /\ sht_c f N azi zen (Some w) None = Ok F' /\ cmeq F' F.
Proof.
  intros H HF. destruct (gram_grid N azi zen w H) as (Y & E & R & C & O). destruct H as (L & Lw & _). apply (sht_c_inverts N azi zen w Y F); auto.
Qed.
Lemma f_inverts_default N azi zen F : exact_for sh_real (2 * N) azi zen (equal_weights (length azi)) -> cnr F = ((N + 1) ^ 2)%nat ->
  exists f F', inverse_sht_all F azi zen = Ok f /\ sht_c f N azi zen None None = Ok F' /\ cmeq F' F.
Proof.
  intros H HF. destruct (gram_grid N azi zen _ H) as (Y & E & R & C & O). destruct H as (L & Lw & _). apply (sht_c_inverts_default N azi zen Y F); auto.
Qed.
Lemma f_parseval N azi zen w F : exact_for sh_real (2 * N) azi zen w -> cnr F = ((N + 1) ^ 2)%nat ->
  exists f, inverse_sht_all F azi zen = Ok f /\ forall j, rsum (length azi) (fun q => nth q w 0 * cnorm2 (cent f q j)) = rsum ((N + 1) ^ 2) (fun k => cnorm2 (cent F k j)).
Proof.
  intros H HF. destruct (gram_grid N azi zen w H) as (Y & E & R & C & O). destruct H as (L & Lw & _). destruct (inverse_all F N azi zen HF L) as (Yc & f & _ & Ef & _). exists f. split; auto. apply (parseval_c N azi zen w Y F f); auto.
Qed.
Lemma f_linear f g N azi zen w a b Ff Fg : cnr f = cnr g -> cnc f = cnc g ->
  sht_c f N azi zen w None = Ok Ff -> sht_c g N azi zen w None = Ok Fg ->
  exists F, sht_c (CMat (cnr f) (cnc f) (fun i j => cadd (cmul a (cent f i j)) (cmul b (cent g i j)))) N azi zen w None = Ok F /\
    cnr F = cnr Ff /\ cnc F = cnc Ff /\ forall i j, cent F i j = cadd (cmul a (cent Ff i j)) (cmul b (cent Fg i j)).
Proof. apply sht_c_linear. Qed.
Lemma f_value F N azi zen : length zen = length azi ->
  (((N + 1) ^ 2 <= cnr F)%nat -> exists f, inverse_sht_c F N azi zen = Ok f /\ cnr f = length azi /\ cnc f = cnc F /\
    forall i j, (i < length azi)%nat -> cent f i j = cfield N (fun k => cent F k j) (nth i azi 0) (nth i zen 0)) /\
  ((cnr F < (N + 1) ^ 2)%nat -> inverse_sht_c F N azi zen = Err ValueError) /\
  (cnr F = ((N + 1) ^ 2)%nat -> inverse_sht_all F azi zen = inverse_sht_c F N azi zen) /\
  (cnr F = 0%nat -> exists f, inverse_sht_all F azi zen = Ok f /\ cnr f = length azi /\ cnc f = cnc F /\ forall i j, cent f i j = (0, 0)).
Proof.
  intros L. split; [intros H; apply (inverse_c_ok F N azi zen); auto|]. split; [intros H; apply inverse_c_few; auto|].
  split; intros R0; unfold inverse_sht_all.
  - pose proof (sq_ge1 N). destruct (cnr F) eqn:E; [lia|]. rewrite R0, order_of_sq, Nat2Z.id. reflexivity.
  - rewrite R0. unfold dirs_ok. rewrite L, Nat.eqb_refl. cbn [orb]. eexists. split; [reflexivity|]. cbn [cnr cnc cent]. auto.
Qed.
Lemma f_real_functions f N azi zen w : length zen = length azi -> nr f = length azi -> match w with Some l => length l = length azi | None => True end ->
  exists F G, sht f N azi zen w None = Ok F /\ sht_c (cmat_of f) N azi zen w None = Ok G /\ nc F = nc f /\ same_functions N F G.
Proof. intros L R0 W. apply (real_functions f N azi zen w); auto. unfold dirs_ok. rewrite L, Nat.eqb_refl. reflexivity. Qed.
Lemma f_hermitian N F G n m j : same_functions N F G -> (n <= N)%nat -> (j < nc F)%nat -> (0 <= m <= Z.of_nat n)%Z ->
  cent G (acn n (- m)) j = cscal ((-1) ^ Z.to_nat m) (cconj (cent G (acn n m) j)).
Proof. apply hermitian. Qed.
Lemma f_same_value N F G j azi zen : same_functions N F G -> (j < nc F)%nat ->
  cfield N (fun k => cent G k j) azi zen = (rsum (N + 1) (fun n => rsum (2 * n + 1) (fun k => ent F (n * n + k) j * sh_real n (Z.of_nat k - Z.of_nat n) azi zen)), 0).
Proof. apply same_value. Qed.
Lemma f_synthesis N F G azi zen f : same_functions N F G -> length zen = length azi -> inverse_sht F azi zen None None = Ok f ->
  exists g, inverse_sht_all G azi zen = Ok g /\ cmeq g (cmat_of f).
Proof. apply same_synthesis. Qed.
Lemma f_sources sig N azi zen : length zen = length azi ->
  (nr sig = length azi -> exists F G, src_to_sh sig azi zen N = Ok F /\ src_to_sh_c sig azi zen N = Ok G /\ nc F = nc sig /\ same_functions N F G) /\
  (nr sig <> length azi -> src_to_sh_c sig azi zen N = Err ValueError).
Proof.
  intros L. assert (D : dirs_ok azi zen = true) by (unfold dirs_ok; rewrite L, Nat.eqb_refl; reflexivity). split; intros H; [apply sources_c; auto|apply sources_mismatch; auto].
Qed.
Lemma f_sources_value sig N azi zen : length zen = length azi -> nr sig = length azi -> (forall z, In z zen -> 0 <= z <= PI) ->
  exists G, src_to_sh_c sig azi zen N = Ok G /\ cnr G = ((N + 1) ^ 2)%nat /\ cnc G = nc sig /\
    forall t az ze (d : nat -> R), (t < nc sig)%nat -> 0 <= ze <= PI ->
      (forall s, (s < length azi)%nat -> dot3 (sph2cart az ze 1) (sph2cart (nth s azi 0) (nth s zen 0) 1) = cos (d s)) ->
      exists v, bandlimited_dirac N (map d (seq 0 (length azi))) None = Ok v /\
        cfield N (fun k => cent G k t) az ze = (rsum (length azi) (fun s => ent sig s t * nth s v 0), 0).
Proof. apply sources_value. Qed.
Lemma f_lstsq lstsq f N azi zen : clstsq_contract lstsq -> length zen = length azi -> cnr f = length azi ->
  exists Yc X, sh_matrix_c N azi zen = Ok Yc /\ sht_lstsq_c lstsq f N azi zen None = Ok X /\ cnr X = ((N + 1) ^ 2)%nat /\ cnc X = cnc f /\
    forall j, (j < cnc f)%nat -> cbest_fit Yc (fun q => cent f q j) (fun k => cent X k j) /\
      (cleft_invertible Yc -> forall v, (forall q, (q < length azi)%nat -> cent f q j = cfield N v (nth q azi 0) (nth q zen 0)) -> forall k, (k < (N + 1) ^ 2)%nat -> cent X k j = v k).
Proof. apply lstsq_c_fit. Qed.
Lemma f_lstsq_real rl cl f N azi zen Y : lstsq_contract rl -> clstsq_contract cl -> sh_matrix N azi zen = Ok Y -> left_invertible Y -> nr f = length azi ->
  exists Yc F G, sh_matrix_c N azi zen = Ok Yc /\ cleft_invertible Yc /\ sht_lstsq rl f N azi zen None = Ok F /\ sht_lstsq_c cl (cmat_of f) N azi zen None = Ok G /\ same_functions N F G.
Proof.
  intros H1 H2 EY HL R0. destruct (lstsq_c_real rl cl f N azi zen Y H1 H2 EY HL R0) as (F & G & A & B & C).
  assert (D : dirs_ok azi zen = true) by (unfold sh_matrix in EY; destruct (dirs_ok azi zen); auto; discriminate).
  destruct (matrices N azi zen D) as (Y2 & Yc & _ & Ec & _). exists Yc, F, G. split; auto. split; auto. apply (left_c N azi zen Y Yc); auto.
Qed.
Lemma ex_complex : exact_for sh_real (2 * 1) octa_azi octa_zen (equal_weights (length octa_azi)) /\ length octa_zen = length octa_azi /\
  (exists F G, same_functions 1 F G /\ nr F = 4%nat /\ nc F = 1%nat /\ ent F 0 0 = 1 /\ ent F 1 0 = 2 /\ ent F 2 0 = 3 /\ ent F 3 0 = 4).
Proof.
  split; [exact octa_grid|]. split; [reflexivity|].
  set (F := Mat 4 1 (fun i _ => INR (i + 1))). exists F, (CMat 4 1 (fun i j => to_c 4 (fun b => ent F b j) i)). split; [|cbn; repeat split; ring].
  apply (same_to_c 1); try reflexivity.
Qed.
Lemma ex_lstsq : (exists rl, lstsq_contract rl) /\ (exists cl, clstsq_contract cl) /\ exists Y, sh_matrix 1 octa_azi octa_zen = Ok Y /\ left_invertible Y.
Proof. split; [exact lstsq_exists|]. split; [exact clstsq_exists|]. destruct octa_penrose as (Y & E & H & _). exists Y. auto. Qed.

(** ** Filter banks *)
Lemma f_perfect pinv N azi zen c Y : length zen = length azi -> zeniths zen -> (0 < length azi)%nat ->
  sh_matrix N azi zen = Ok Y -> sector_grid Y (length azi) -> length c = (N + 1)%nat -> (forall x, In x c -> x <> 0) ->
  exists A B P, design_sph_filterbank_c pinv N azi zen c MPerfect = Ok (Some (A, B)) /\
    cnr A = length azi /\ cnc A = ((N + 1) ^ 2)%nat /\ cnr B = ((N + 1) ^ 2)%nat /\ cnc B = length azi /\
    cmatmul B A = Ok P /\ cidentity ((N + 1) ^ 2) (1, 0) P.
Proof. apply fbc_perfect. Qed.
Lemma f_energy pinv N azi zen c Y : length zen = length azi -> zeniths zen -> (0 < length azi)%nat ->
  sh_matrix N azi zen = Ok Y -> sector_grid Y (length azi) -> length c = (N + 1)%nat -> (forall x, In x c -> x <> 0) ->
  exists A B P, design_sph_filterbank_c pinv N azi zen c MEnergy = Ok (Some (A, B)) /\
    cnr A = length azi /\ cnc A = ((N + 1) ^ 2)%nat /\ cnr B = ((N + 1) ^ 2)%nat /\ cnc B = length azi /\
    cmatmul B A = Ok P /\
    cidentity ((N + 1) ^ 2) (nth 0 c 0 * sqrt (INR (length azi)) / sqrt (rsum (N + 1) (fun n => (2 * INR n + 1) * (nth n c 0 * nth n c 0))), 0) P.
Proof. apply fbc_energy. Qed.
Lemma f_other_modes pinv N azi zen c : length zen = length azi -> length c = (N + 1)%nat ->
  forall m, m = MAmplitude \/ m = MOther -> design_sph_filterbank_c pinv N azi zen c m = Err ValueError.
Proof. apply fbc_mode_error. Qed.
Lemma f_pinv pinv N azi zen c : length zen = length azi -> length c = (N + 1)%nat ->
  exists A, design_sph_filterbank_c pinv N azi zen c MPinv = Ok (Some (A, pinv A)) /\ cnr A = length azi /\ cnc A = ((N + 1) ^ 2)%nat /\
    (forall i n m, (i < length azi)%nat -> (n <= N)%nat -> degree n m -> cent A i (acn n m) = cscal (nth n c 0) (sph_harm m n (nth i azi 0) (nth i zen 0))) /\
    (cpenrose A (pinv A) -> exists P, cmatmul (pinv A) A = Ok P /\ cnr P = ((N + 1) ^ 2)%nat /\ cnc P = ((N + 1) ^ 2)%nat /\
       (forall a b, (a < (N + 1) ^ 2)%nat -> (b < (N + 1) ^ 2)%nat -> cent P a b = cconj (cent P b a) /\ csum ((N + 1) ^ 2) (fun k => cmul (cent P a k) (cent P k b)) = cent P a b) /\
       (cleft_invertible A -> cidentity ((N + 1) ^ 2) (1, 0) P)).
Proof. apply fbc_pinv. Qed.
Lemma sector_cpinv N azi zen c Y A : length zen = length azi -> (0 < length azi)%nat -> sh_matrix N azi zen = Ok Y -> sector_grid Y (length azi) -> (forall x, In x c -> x <> 0) -> length c = (N + 1)%nat ->
  cnr A = length azi -> cnc A = ((N + 1) ^ 2)%nat ->
  (forall i n m, (i < length azi)%nat -> (n <= N)%nat -> degree n m -> cent A i (acn n m) = cscal (nth n c 0) (sph_harm m n (nth i azi 0) (nth i zen 0))) ->
  exists X, cpenrose A X /\ forall i n m, (i < length azi)%nat -> (n <= N)%nat -> degree n m ->
    cent X (acn n m) i = cscal (4 * PI / INR (length azi) / nth n c 0) (cconj (sph_harm m n (nth i azi 0) (nth i zen 0))).
Proof.
  intros L HJ EY HG Hc Lc RA CA HA. destruct (sector_c N azi zen Y L HJ EY HG) as (Yc & Ec & R & C & HGc).
  destruct (sh_matrix_c_ok N azi zen L) as (Y2 & E2 & _ & _ & HY). rewrite Ec in E2. injection E2 as <-.
  set (J := length azi) in *. set (K := ((N + 1) ^ 2)%nat) in *. set (b := 4 * PI / INR J).
  set (X := CMat K J (fun a q => cscal (b / nth (Nat.sqrt a) c 0) (cconj (cent Yc q a)))). exists X.
  assert (SQ : forall n k, (k < 2 * n + 1)%nat -> Nat.sqrt (n * n + k) = n) by (intros n k Hk; apply Nat.sqrt_unique; nia).
  assert (NZ : forall n, (n <= N)%nat -> nth n c 0 <> 0) by (intros q Hq; apply Hc, nth_In; lia).
  assert (HA' : forall q n k, (q < J)%nat -> (n <= N)%nat -> (k < 2 * n + 1)%nat -> cent A q (n * n + k) = cscal (nth n c 0) (cent Yc q (n * n + k))).
  { intros q n k Hq Hn Hk. rewrite <- (acn_at n k) by auto. rewrite (HA q n) by (auto; unfold degree; lia). rewrite acn_at by auto. rewrite (HY q n k) by auto. reflexivity. }
  assert (NJ : INR J <> 0) by (apply not_0_INR; lia). pose proof PI_neq0 as NP.
  assert (XA : forall a a', (a < K)%nat -> (a' < K)%nat -> cprod J X A a a' = cre (delta a a')).
  { intros a a' Ha Ha'. destruct (acn_decomp N a Ha) as (n & k & Hn & Hk & ->). destruct (acn_decomp N a' Ha') as (n' & k' & Hn' & Hk' & ->).
    unfold cprod, X. cbn [cent]. rewrite SQ by auto.
    rewrite (csum_ext' _ _ (fun q => cmul (cre (b / nth n c 0 * nth n' c 0)) (cmul (cconj (cent Yc q (n * n + k))) (cent Yc q (n' * n' + k'))))) by (intros q Hq; rewrite HA' by auto; apply ceq; unfold cmul, cconj, cscal, cre; cbn [fst snd]; ring).
    rewrite csum_mul, HGc by auto. rewrite <- cre_mul. f_equal. pose proof (NZ n Hn). unfold b. destruct (Nat.eq_dec n n') as [<-|D].
    - field. auto.
    - rewrite delta_diff; [ring|]. intros E. apply acn_uniq in E; auto. lia. }
  assert (AX : forall i j, (i < J)%nat -> (j < J)%nat -> cprod K A X i j = csum K (fun a => cmul (cre b) (cmul (cent Yc i a) (cconj (cent Yc j a))))).
  { intros i j Hi Hj. unfold cprod. apply csum_ext'. intros a Ha. destruct (acn_decomp N a Ha) as (n & k & Hn & Hk & ->). rewrite HA' by auto. unfold X. cbn [cent]. rewrite SQ by auto.
    pose proof (NZ n Hn). apply ceq; unfold cmul, cconj, cscal, cre; cbn [fst snd]; field; auto. }
  split.
  - unfold cpenrose. rewrite RA, CA. fold K J. split; [reflexivity|]. split; [reflexivity|]. split; [|split; [|split]].
    + intros i j Hi Hj. unfold cprod at 1. rewrite <- (cassoc K J (fun k => cent A i k) (fun k l => cent X k l) (fun l => cent A l j)).
      rewrite (csum_ext' K _ (fun k => cmul (cre (delta j k)) (cent A i k))) by (intros k Hk; fold (cprod J X A k j); rewrite XA by auto; rewrite delta_sym; ring). apply (csum_delta K j (fun k => cent A i k)). auto.
    + intros i j Hi Hj. rewrite (csum_ext' K _ (fun k => cmul (cre (delta i k)) (cent X k j))) by (intros k Hk; rewrite XA by auto; reflexivity). apply (csum_delta K i (fun k => cent X k j)). auto.
    + intros i j Hi Hj. rewrite !AX by auto. rewrite cconj_csum. apply csum_ext'. intros a Ha. apply ceq; unfold cmul, cconj, cre; cbn [fst snd]; ring.
    + intros i j Hi Hj. rewrite !XA by auto. rewrite delta_sym. apply ceq; unfold cconj, cre; cbn [fst snd]; ring.
  - intros i n m Hi Hn D. rewrite acn_pos by auto. unfold degree in D. unfold X. cbn [cent]. rewrite SQ by lia. rewrite HY by (auto; lia). do 3 f_equal. lia.
Qed.
Lemma f_pinv_sectors pinv N azi zen c Y : length zen = length azi -> (0 < length azi)%nat -> sh_matrix N azi zen = Ok Y -> sector_grid Y (length azi) ->
  length c = (N + 1)%nat -> (forall x, In x c -> x <> 0) ->
  exists A, design_sph_filterbank_c pinv N azi zen c MPinv = Ok (Some (A, pinv A)) /\
    (cpenrose A (pinv A) -> (forall i n m, (i < length azi)%nat -> (n <= N)%nat -> degree n m ->
        cent (pinv A) (acn n m) i = cscal (4 * PI / INR (length azi) / nth n c 0) (cconj (sph_harm m n (nth i azi 0) (nth i zen 0)))) /\
      exists P, cmatmul (pinv A) A = Ok P /\ cidentity ((N + 1) ^ 2) (1, 0) P) /\ exists X, cpenrose A X.
Proof.
  intros L HJ EY HG Lc Hc. destruct (fbc_pinv pinv N azi zen c L Lc) as (A & E & RA & CA & HA & H). exists A. split; auto.
  destruct (sector_cpinv N azi zen c Y A) as (X & HX & VX); auto. split; [|eauto]. intros HP. split.
  - intros i n m Hi Hn D. rewrite <- VX by auto. apply (penrose_unique A (pinv A) X HP HX); rewrite ?RA, ?CA; auto. apply acn_lt; auto.
  - destruct (H HP) as (P & EP & _ & _ & _ & HI). exists P. split; auto. apply HI. apply (fbc_full_rank N azi zen c Y A); auto.
Qed.
(** the same for the real design *)
Lemma f_pinv_real pinv N azi zen c : length zen = length azi -> length c = (N + 1)%nat ->
  exists A, design_sph_filterbank pinv N azi zen c MPinv = Ok (Some (A, pinv A)) /\ nr A = length azi /\ nc A = ((N + 1) ^ 2)%nat /\
    (forall i n m, (i < length azi)%nat -> (n <= N)%nat -> degree n m -> ent A i (acn n m) = nth n c 0 * sh_real n m (nth i azi 0) (nth i zen 0)) /\
    (penrose A (pinv A) -> exists P, matmul (pinv A) A = Ok P /\ nr P = ((N + 1) ^ 2)%nat /\ nc P = ((N + 1) ^ 2)%nat /\
       (forall a b, (a < (N + 1) ^ 2)%nat -> (b < (N + 1) ^ 2)%nat -> ent P a b = ent P b a /\ rsum ((N + 1) ^ 2) (fun k => ent P a k * ent P k b) = ent P a b) /\
       (left_invertible A -> is_identity ((N + 1) ^ 2) P)).
Proof.
  intros L Lc. destruct (sh_matrix_ok N azi zen L) as (Y & EY & R & C & HY). destruct (fb_pieces N azi zen c Y EY R C Lc) as (A & S & EA & ES & RA & CA & RS & CS & HE).
  exists A. unfold design_sph_filterbank. rewrite EY. cbn [bind]. rewrite EA. cbn [bind]. split; auto. split; auto. split; auto. split.
  - intros i n m Hi Hn D. rewrite acn_pos by auto. unfold degree in D. destruct (HE i n (Z.to_nat (m + Z.of_nat n)) Hn ltac:(lia)) as [E _]. rewrite E, HY by (auto; lia). do 2 f_equal. lia.
  - intros HP. pose proof HP as (RP & CP & A1 & A2 & A3 & A4). rewrite matmul_ok by congruence. eexists. split; [reflexivity|]. cbn [nr nc ent]. rewrite RP, CA, CP. split; auto. split; auto. split.
    + intros a b Ha Hb. split.
      * apply (A4 a b); rewrite CA; auto.
      * change (rsum ((N + 1) ^ 2) (fun k => mprod (nr A) (pinv A) A a k * rsum (nr A) (fun l => ent (pinv A) k l * ent A l b)) = mprod (nr A) (pinv A) A a b).
        transitivity (rsum ((N + 1) ^ 2) (fun k => rsum (nr A) (fun l => mprod (nr A) (pinv A) A a k * ent (pinv A) k l * ent A l b))).
        -- apply rsum_ext. intros k Hk. rewrite <- rsum_scal. apply rsum_ext. intros; ring.
        -- rewrite rsum_swap. unfold mprod at 2. apply rsum_ext. intros l Hl. rewrite rsum_scal_r. rewrite <- CA, A2; auto. congruence.
    + intros HL. split; [reflexivity|]. split; [reflexivity|]. intros i j Hi Hj. cbn [ent]. apply (P_grids3.penrose_left A (pinv A) HP HL); rewrite CA; auto.
Qed.
Lemma f_sofa rpinv cpinv s h N l r fs Y Yc : load_sofa_hrirs s = Ok h -> sh_matrix N (h_azi h) (h_zen h) = Ok Y -> sh_matrix_c N (h_azi h) (h_zen h) = Ok Yc ->
  penrose Y (rpinv Y) -> cpenrose Yc (cpinv Yc) -> sofa_to_sh rpinv s N = Ok (l, r, fs) ->
  exists lc rc, sofa_to_sh_c cpinv s N = Ok (lc, rc, fs) /\ same_functions N l lc /\ same_functions N r rc.
Proof. apply sofa_c. Qed.
Lemma f_product t_design N1 N2 a b v : let N := (N1 + N2)%nat in
  let azi := map (fun u => fst (vec2dir u)) v in
  let zen := map (fun u => match snd (vec2dir u) with Some z => z | None => 0 end) v in
  length a = ((N1 + 1) ^ 2)%nat -> length b = ((N2 + 1) ^ 2)%nat ->
  t_design (2 * Z.of_nat N)%Z = Ok v -> (forall u, In u v -> dot3 u u = 1) ->
  exact_for sh_real (2 * N) azi zen (equal_weights (length v)) ->
  exists c, sh_mult_c t_design a b = Ok c /\ length c = ((N + 1) ^ 2)%nat /\
    forall az ze, 0 <= ze <= PI -> cfield N (fun k => nth k c (0, 0)) az ze = cmul (cfield N1 (fun k => (nth k a 0, 0)) az ze) (cfield N2 (fun k => (nth k b 0, 0)) az ze).
Proof. apply sh_mult_c_product. Qed.

Lemma octa_sector : exists Y, sh_matrix 1 octa_azi octa_zen = Ok Y /\ sector_grid Y (length octa_azi).
Proof. apply (exact_sector 1); [cbn; lia|exact octa_grid]. Qed.
Lemma ex_bank : exists Y, length octa_zen = length octa_azi /\ zeniths octa_zen /\ (0 < length octa_azi)%nat /\ sh_matrix 1 octa_azi octa_zen = Ok Y /\ sector_grid Y (length octa_azi) /\
  length [1; 1 / 2] = (1 + 1)%nat /\ forall x, In x [1; 1 / 2] -> x <> 0.
Proof.
  destruct octa_sector as (Y & E & H). exists Y. split; auto. split; [destruct octa_grid as (_ & _ & Z & _); exact Z|]. split; [cbn; lia|]. split; auto. split; auto. split; auto. intros x [<-|[<-|[]]]; lra.
Qed.
(** a pseudo-inverse in the complex basis, by that of the real matrix *)
Lemma ex_cpinv : exists h rpinv cpinv Y Yc l r fs, load_sofa_hrirs (sofa_example (-90)) = Ok h /\ sh_matrix 1 (h_azi h) (h_zen h) = Ok Y /\ sh_matrix_c 1 (h_azi h) (h_zen h) = Ok Yc /\
  penrose Y (rpinv Y) /\ cpenrose Yc (cpinv Yc) /\ cleft_invertible Yc /\ sofa_to_sh rpinv (sofa_example (-90)) 1 = Ok (l, r, fs).
Proof.
  destruct ex_sofa_sh as (h & pinv & Y & L & EY & HP & HL).
  assert (D : dirs_ok (h_azi h) (h_zen h) = true) by (unfold sh_matrix in EY; destruct (dirs_ok (h_azi h) (h_zen h)); auto; discriminate).
  destruct (matrices 1 (h_azi h) (h_zen h) D) as (Y2 & Yc & _ & Ec & _).
  destruct (f_sofa_sh pinv (sofa_example (-90)) h 1 L) as (Y3 & EY3 & _ & _ & H). rewrite EY in EY3. injection EY3 as <-. destruct (H HP) as (l & r & E & _).
  exists h, pinv, (fun _ => pinv_c 4 (length (h_azi h)) (pinv Y)), Y, Yc, l, r, (h_fs h). split; auto. split; auto. split; auto. split; auto. split; [exact (penrose_c 1 (h_azi h) (h_zen h) Y Yc (pinv Y) EY Ec HP)|]. split; auto.
  apply (left_c 1 (h_azi h) (h_zen h) Y Yc); auto.
Qed.
Lemma ex_product : length [1; 2; 3; 4] = ((1 + 1) ^ 2)%nat /\ length [5] = ((0 + 1) ^ 2)%nat /\
  (forall u, In u octahedron -> dot3 u u = 1) /\
  exact_for sh_real (2 * (1 + 0)) (map (fun u => fst (vec2dir u)) octahedron)
    (map (fun u => match snd (vec2dir u) with Some z => z | None => 0 end) octahedron) (equal_weights (length octahedron)).
Proof. split; auto. split; auto. exact octa_vec2dir. Qed.

Lemma f_matrices_real pinv N azi zen c : length zen = length azi -> zeniths zen -> (0 < length azi)%nat -> length c = (N + 1)%nat ->
  ((forall x, In x c -> x <> 0) -> exists A B B', design_sph_filterbank pinv N azi zen c MPerfect = Ok (Some (A, B)) /\ design_sph_filterbank pinv N azi zen c MEnergy = Ok (Some (A, B')) /\
    nr A = length azi /\ nc A = ((N + 1) ^ 2)%nat /\ nr B = ((N + 1) ^ 2)%nat /\ nc B = length azi /\ nr B' = ((N + 1) ^ 2)%nat /\ nc B' = length azi /\
    forall i n m, (i < length azi)%nat -> (n <= N)%nat -> degree n m ->
      ent A i (acn n m) = nth n c 0 * sh_real n m (nth i azi 0) (nth i zen 0) /\
      ent B (acn n m) i = 4 * PI / (INR (length azi) * nth n c 0) * sh_real n m (nth i azi 0) (nth i zen 0) /\
      ent B' (acn n m) i = 4 * PI * nth 0 c 0 / (sqrt (INR (length azi) * rsum (N + 1) (fun n => (2 * INR n + 1) * (nth n c 0 * nth n c 0))) * nth n c 0) * sh_real n m (nth i azi 0) (nth i zen 0)) /\
  (In 0 c -> design_sph_filterbank pinv N azi zen c MPerfect = Ok None /\ design_sph_filterbank pinv N azi zen c MEnergy = Ok None).
Proof. apply bank_real. Qed.
Lemma f_matrices pinv N azi zen c : length zen = length azi -> zeniths zen -> (0 < length azi)%nat -> length c = (N + 1)%nat ->
  ((forall x, In x c -> x <> 0) -> exists A B B', design_sph_filterbank_c pinv N azi zen c MPerfect = Ok (Some (A, B)) /\ design_sph_filterbank_c pinv N azi zen c MEnergy = Ok (Some (A, B')) /\
    cnr A = length azi /\ cnc A = ((N + 1) ^ 2)%nat /\ cnr B = ((N + 1) ^ 2)%nat /\ cnc B = length azi /\ cnr B' = ((N + 1) ^ 2)%nat /\ cnc B' = length azi /\
    forall i n m, (i < length azi)%nat -> (n <= N)%nat -> degree n m ->
      cent A i (acn n m) = cscal (nth n c 0) (sph_harm m n (nth i azi 0) (nth i zen 0)) /\
      cent B (acn n m) i = cscal (4 * PI / (INR (length azi) * nth n c 0)) (cconj (sph_harm m n (nth i azi 0) (nth i zen 0))) /\
      cent B' (acn n m) i = cscal (4 * PI * nth 0 c 0 / (sqrt (INR (length azi) * rsum (N + 1) (fun n => (2 * INR n + 1) * (nth n c 0 * nth n c 0))) * nth n c 0)) (cconj (sph_harm m n (nth i azi 0) (nth i zen 0)))) /\
  (In 0 c -> design_sph_filterbank_c pinv N azi zen c MPerfect = Ok None /\ design_sph_filterbank_c pinv N azi zen c MEnergy = Ok None).
Proof. apply bank_complex. Qed.
(** one sector, seen by the omnidirectional harmonic *)
Lemma ex_matrices : forall pinv : mat -> mat, length [PI / 2] = length [0] /\ zeniths [PI / 2] /\ (0 < length [0])%nat /\ length [2; 1] = (1 + 1)%nat /\
  exists A B B', design_sph_filterbank pinv 1 [0] [PI / 2] [2; 1] MPerfect = Ok (Some (A, B)) /\ design_sph_filterbank pinv 1 [0] [PI / 2] [2; 1] MEnergy = Ok (Some (A, B')) /\
    ent A 0 0 = 2 / sqrt (4 * PI) /\ ent B 0 0 = sqrt (4 * PI) / 2 /\ ent B' 0 0 = sqrt (4 * PI) / sqrt 7.
Proof.
  intros pinv. pose proof PI_RGT_0 as PP. assert (Z : zeniths [PI / 2]) by (intros x [<-|[]]; lra). do 2 (split; auto). split; [cbn; lia|]. split; auto.
  destruct (bank_real pinv 1 [0] [PI / 2] [2; 1] eq_refl Z ltac:(cbn; lia) eq_refl) as [H _].
  destruct (H ltac:(intros x [<-|[<-|[]]]; lra)) as (A & B & B' & E & E' & _ & _ & _ & _ & _ & _ & HE). exists A, B, B'. do 2 (split; auto).
  destruct (HE 0%nat 0%nat 0%Z ltac:(cbn; lia) ltac:(lia) ltac:(unfold degree; lia)) as (EA & EB & EB'). change (acn 0 0) with 0%nat in *.
  assert (T : INR (length [0]) * rsum (1 + 1) (fun n => (2 * INR n + 1) * (nth n [2; 1] 0 * nth n [2; 1] 0)) = 7) by (cbn; lra).
  rewrite EA, EB, EB', T. clear T. cbn [nth length].
  rewrite sh_real_Yz, Yz00 by (rewrite sin_PI2; lra). destruct s4 as [P4 Q4]. assert (0 < sqrt 7) by (apply sqrt_lt_R0; lra).
  change (INR 1) with 1.
  assert (Q : 4 * PI = sqrt (4 * PI) * sqrt (4 * PI)) by (symmetry; apply Q4).
  revert P4 Q. generalize (sqrt (4 * PI)) as s. intros s P4 Q. rewrite Q. split; [field; lra|]. split; [field; lra|]. field; lra.
Qed.
Lemma f_factor : forall (w : list C2) (J : nat) w0, nth_error w 0 = Some w0 -> w0 <> (0, 0) -> (0 < J)%nat ->
  (exists b, reconstruction_factor_c w J MAmplitude = Ok (Some b) /\ cmul b (cscal (INR J) w0) = (sqrt (4 * PI), 0)) /\
  (exists b, reconstruction_factor_c w J MEnergy = Ok (Some (b, 0)) /\ b * INR J * rsum (length w) (fun i => fst (nth i w (0, 0)) ^ 2 + snd (nth i w (0, 0)) ^ 2) = 4 * PI).
Proof.
  intros [|x w] J w0 E W HJ; [discriminate|]. injection E as ->. assert (IJ : 0 < INR J) by (apply lt_0_INR; lia).
  assert (D : 0 < fst w0 * fst w0 + snd w0 * snd w0).
  { destruct w0 as [a b]. cbn [fst snd]. destruct (Req_dec a 0) as [->|]; [|nra]. destruct (Req_dec b 0) as [->|]; [contradiction|nra]. }
  split.
  - unfold reconstruction_factor_c, cdiv_np, cscal at 1 2 3 4. cbn [fst snd].
    set (d := INR J * fst w0 * (INR J * fst w0) + INR J * snd w0 * (INR J * snd w0)).
    assert (Dd : 0 < d) by (replace d with (INR J * INR J * (fst w0 * fst w0 + snd w0 * snd w0)) by (unfold d; ring); apply Rmult_lt_0_compat; [nra|exact D]). destruct (Reqb d 0) eqn:Q; [apply Reqb_true in Q; lra|].
    eexists. split; [reflexivity|]. unfold cmul, cscal, cconj. cbn [fst snd]. unfold d in *. destruct w0 as [a b]. cbn [fst snd] in *.
    apply f_equal2; field; intros Z; apply (Rlt_irrefl 0); rewrite <- Z at 2; nra.
  - unfold reconstruction_factor_c. set (l := w0 :: w).
    assert (Sm : csum (length l) (fun i => cmul (cconj (nth i l (0, 0))) (nth i l (0, 0))) = (rsum (length l) (fun i => fst (nth i l (0, 0)) ^ 2 + snd (nth i l (0, 0)) ^ 2), 0)).
    { unfold csum, cmul, cconj. cbn [fst snd]. apply f_equal2; [apply rsum_ext; intros; ring|]. apply rsum_0. intros. ring. }
    rewrite Sm. set (e := rsum _ _).
    assert (Ep : 0 < e).
    { unfold e, l. cbn [length]. rewrite rsum_shift. cbn [nth]. assert (0 <= rsum (length w) (fun i => fst (nth i w (0, 0)) ^ 2 + snd (nth i w (0, 0)) ^ 2)) by (apply rsum_nonneg; intros; apply Rplus_le_le_0_compat; apply pow2_ge_0). apply Rplus_lt_le_0_compat; [|exact H]. rewrite <- !Rsqr_pow2. exact D. }
    unfold cdiv_np, cscal, cmul, cconj. cbn [fst snd]. set (d := _ + _). assert (Dd : 0 < d) by (replace d with (INR J * INR J * (e * e)) by (unfold d; ring); repeat apply Rmult_lt_0_compat; assumption).
    destruct (Reqb d 0) eqn:Q; [apply Reqb_true in Q; lra|]. exists (4 * PI / (INR J * e)). split; [|field; lra].
    do 2 f_equal. replace d with (INR J * INR J * (e * e)) by (unfold d; ring). apply f_equal2; field; lra.
Qed.
