(** Properties of transforms with complex spherical harmonics (C106, C107). *)
From Verif Require Import Base M_utils M_sig M_process M_sph0 M_sph S_sph X_sph M_io M_io2 M_io3 X_io6 M_sph3 S_sph3 S_grids X_csph.
Open Scope R_scope.


(** ** C106 *)

Theorem C106_basis : forall n azi zen,
  sph_harm 0 n azi zen = (sh_real n 0 azi zen, 0) /\
  forall m, (1 <= m)%Z -> sph_harm m n azi zen = cscal ((-1) ^ Z.to_nat m / sqrt 2) (sh_real n m azi zen, sh_real n (- m) azi zen) /\
    sph_harm (- m) n azi zen = cscal (/ sqrt 2) (sh_real n m azi zen, - sh_real n (- m) azi zen).
Proof. exact f_basis. Qed.
Print Assumptions C106_basis.
Theorem C106_orthonormal : forall N azi zen w,
  exact_for sh_real (2 * N) azi zen w ->
  exists Yc, sh_matrix_c N azi zen = Ok Yc /\ cnr Yc = length azi /\ cnc Yc = ((N + 1) ^ 2)%nat /\ unitary_on Yc w.
Proof. exact f_orthonormal. Qed.
Print Assumptions C106_orthonormal.
Theorem C106_inverts : forall N azi zen w F,
  exact_for sh_real (2 * N) azi zen w -> cnr F = ((N + 1) ^ 2)%nat ->
  exists f F', inverse_sht_all F azi zen = Ok f /\ sht_c f N azi zen (Some w) None = Ok F' /\ cmeq F' F.
Proof. exact f_inverts. Qed.
Print Assumptions C106_inverts.
Theorem C106_inverts_default : forall N azi zen F,
  exact_for sh_real (2 * N) azi zen (equal_weights (length azi)) -> cnr F = ((N + 1) ^ 2)%nat ->
  exists f F', inverse_sht_all F azi zen = Ok f /\ sht_c f N azi zen None None = Ok F' /\ cmeq F' F.
Proof. exact f_inverts_default. Qed.
Print Assumptions C106_inverts_default.
Theorem C106_parseval : forall N azi zen w F,
  exact_for sh_real (2 * N) azi zen w -> cnr F = ((N + 1) ^ 2)%nat ->
  exists f, inverse_sht_all F azi zen = Ok f /\ forall j, rsum (length azi) (fun q => nth q w 0 * cnorm2 (cent f q j)) = rsum ((N + 1) ^ 2) (fun k => cnorm2 (cent F k j)).
Proof. exact f_parseval. Qed.
Print Assumptions C106_parseval.
Theorem C106_linear : forall f g N azi zen w a b Ff Fg,
  cnr f = cnr g -> cnc f = cnc g ->
  sht_c f N azi zen w None = Ok Ff -> sht_c g N azi zen w None = Ok Fg ->
  exists F, sht_c (CMat (cnr f) (cnc f) (fun i j => cadd (cmul a (cent f i j)) (cmul b (cent g i j)))) N azi zen w None = Ok F /\
    cnr F = cnr Ff /\ cnc F = cnc Ff /\ forall i j, cent F i j = cadd (cmul a (cent Ff i j)) (cmul b (cent Fg i j)).
Proof. exact f_linear. Qed.
Print Assumptions C106_linear.
Theorem C106_value : forall F N azi zen,
  length zen = length azi ->
  (((N + 1) ^ 2 <= cnr F)%nat -> exists f, inverse_sht_c F N azi zen = Ok f /\ cnr f = length azi /\ cnc f = cnc F /\
    forall i j, (i < length azi)%nat -> cent f i j = cfield N (fun k => cent F k j) (nth i azi 0) (nth i zen 0)) /\
  ((cnr F < (N + 1) ^ 2)%nat -> inverse_sht_c F N azi zen = Err ValueError) /\
  (cnr F = ((N + 1) ^ 2)%nat -> inverse_sht_all F azi zen = inverse_sht_c F N azi zen) /\
  (cnr F = 0%nat -> exists f, inverse_sht_all F azi zen = Ok f /\ cnr f = length azi /\ cnc f = cnc F /\ forall i j, cent f i j = (0, 0)).
Proof. exact f_value. Qed.
Print Assumptions C106_value.
Theorem C106_real_functions : forall f N azi zen w,
  length zen = length azi -> nr f = length azi -> match w with Some l => length l = length azi | None => True end ->
  exists F G, sht f N azi zen w None = Ok F /\ sht_c (cmat_of f) N azi zen w None = Ok G /\ nc F = nc f /\ same_functions N F G.
Proof. exact f_real_functions. Qed.
Print Assumptions C106_real_functions.
Theorem C106_symmetry : forall N F G n m j,
  same_functions N F G -> (n <= N)%nat -> (j < nc F)%nat -> (0 <= m <= Z.of_nat n)%Z ->
  cent G (acn n (- m)) j = cscal ((-1) ^ Z.to_nat m) (cconj (cent G (acn n m) j)).
Proof. exact f_hermitian. Qed.
Print Assumptions C106_symmetry.
Theorem C106_same_value : forall N F G j azi zen,
  same_functions N F G -> (j < nc F)%nat ->
  cfield N (fun k => cent G k j) azi zen = (rsum (N + 1) (fun n => rsum (2 * n + 1) (fun k => ent F (n * n + k) j * sh_real n (Z.of_nat k - Z.of_nat n) azi zen)), 0).
Proof. exact f_same_value. Qed.
Print Assumptions C106_same_value.
Theorem C106_synthesis : forall N F G azi zen f,
  same_functions N F G -> length zen = length azi -> inverse_sht F azi zen None None = Ok f ->
  exists g, inverse_sht_all G azi zen = Ok g /\ cmeq g (cmat_of f).
Proof. exact f_synthesis. Qed.
Print Assumptions C106_synthesis.
Theorem C106_sources : forall sig N azi zen,
  length zen = length azi ->
  (nr sig = length azi -> exists F G, src_to_sh sig azi zen N = Ok F /\ src_to_sh_c sig azi zen N = Ok G /\ nc F = nc sig /\ same_functions N F G) /\
  (nr sig <> length azi -> src_to_sh_c sig azi zen N = Err ValueError).
Proof. exact f_sources. Qed.
Print Assumptions C106_sources.
Theorem C106_sources_value : forall sig N azi zen,
  length zen = length azi -> nr sig = length azi -> (forall z, In z zen -> 0 <= z <= PI) ->
  exists G, src_to_sh_c sig azi zen N = Ok G /\ cnr G = ((N + 1) ^ 2)%nat /\ cnc G = nc sig /\
    forall t az ze (d : nat -> R), (t < nc sig)%nat -> 0 <= ze <= PI ->
      (forall s, (s < length azi)%nat -> dot3 (sph2cart az ze 1) (sph2cart (nth s azi 0) (nth s zen 0) 1) = cos (d s)) ->
      exists v, bandlimited_dirac N (map d (seq 0 (length azi))) None = Ok v /\
        cfield N (fun k => cent G k t) az ze = (rsum (length azi) (fun s => ent sig s t * nth s v 0), 0).
Proof. exact f_sources_value. Qed.
Print Assumptions C106_sources_value.
Theorem C106_least_squares : forall lstsq f N azi zen,
  clstsq_contract lstsq -> length zen = length azi -> cnr f = length azi ->
  exists Yc X, sh_matrix_c N azi zen = Ok Yc /\ sht_lstsq_c lstsq f N azi zen None = Ok X /\ cnr X = ((N + 1) ^ 2)%nat /\ cnc X = cnc f /\
    forall j, (j < cnc f)%nat -> cbest_fit Yc (fun q => cent f q j) (fun k => cent X k j) /\
      (cleft_invertible Yc -> forall v, (forall q, (q < length azi)%nat -> cent f q j = cfield N v (nth q azi 0) (nth q zen 0)) -> forall k, (k < (N + 1) ^ 2)%nat -> cent X k j = v k).
Proof. exact f_lstsq. Qed.
Print Assumptions C106_least_squares.
Theorem C106_least_squares_real : forall rl cl f N azi zen Y,
  lstsq_contract rl -> clstsq_contract cl -> sh_matrix N azi zen = Ok Y -> left_invertible Y -> nr f = length azi ->
  exists Yc F G, sh_matrix_c N azi zen = Ok Yc /\ cleft_invertible Yc /\ sht_lstsq rl f N azi zen None = Ok F /\ sht_lstsq_c cl (cmat_of f) N azi zen None = Ok G /\ same_functions N F G.
Proof. exact f_lstsq_real. Qed.
Print Assumptions C106_least_squares_real.
Example C106_nonvacuous : exact_for sh_real (2 * 1) octa_azi octa_zen (equal_weights (length octa_azi)) /\ length octa_zen = length octa_azi /\
  (exists F G, same_functions 1 F G /\ nr F = 4%nat /\ nc F = 1%nat /\ ent F 0 0 = 1 /\ ent F 1 0 = 2 /\ ent F 2 0 = 3 /\ ent F 3 0 = 4).
Proof. exact ex_complex. Qed.
Example C106_least_squares_nonvacuous : (exists rl, lstsq_contract rl) /\ (exists cl, clstsq_contract cl) /\ exists Y, sh_matrix 1 octa_azi octa_zen = Ok Y /\ left_invertible Y.
Proof. exact ex_lstsq. Qed.

(** ** C107 *)

Theorem C107_perfect : forall pinv N azi zen c Y,
  length zen = length azi -> zeniths zen -> (0 < length azi)%nat ->
  sh_matrix N azi zen = Ok Y -> sector_grid Y (length azi) -> length c = (N + 1)%nat -> (forall x, In x c -> x <> 0) ->
  exists A B P, design_sph_filterbank_c pinv N azi zen c MPerfect = Ok (Some (A, B)) /\
    cnr A = length azi /\ cnc A = ((N + 1) ^ 2)%nat /\ cnr B = ((N + 1) ^ 2)%nat /\ cnc B = length azi /\
    cmatmul B A = Ok P /\ cidentity ((N + 1) ^ 2) (1, 0) P.
Proof. exact f_perfect. Qed.
Print Assumptions C107_perfect.
Theorem C107_energy : forall pinv N azi zen c Y,
  length zen = length azi -> zeniths zen -> (0 < length azi)%nat ->
  sh_matrix N azi zen = Ok Y -> sector_grid Y (length azi) -> length c = (N + 1)%nat -> (forall x, In x c -> x <> 0) ->
  exists A B P, design_sph_filterbank_c pinv N azi zen c MEnergy = Ok (Some (A, B)) /\
    cnr A = length azi /\ cnc A = ((N + 1) ^ 2)%nat /\ cnr B = ((N + 1) ^ 2)%nat /\ cnc B = length azi /\
    cmatmul B A = Ok P /\
    cidentity ((N + 1) ^ 2) (nth 0 c 0 * sqrt (INR (length azi)) / sqrt (rsum (N + 1) (fun n => (2 * INR n + 1) * (nth n c 0 * nth n c 0))), 0) P.
Proof. exact f_energy. Qed.
Print Assumptions C107_energy.
Theorem C107_matrices : forall pinv N azi zen c,
  length zen = length azi -> zeniths zen -> (0 < length azi)%nat -> length c = (N + 1)%nat ->
  ((forall x, In x c -> x <> 0) -> exists A B B', design_sph_filterbank_c pinv N azi zen c MPerfect = Ok (Some (A, B)) /\ design_sph_filterbank_c pinv N azi zen c MEnergy = Ok (Some (A, B')) /\
    cnr A = length azi /\ cnc A = ((N + 1) ^ 2)%nat /\ cnr B = ((N + 1) ^ 2)%nat /\ cnc B = length azi /\ cnr B' = ((N + 1) ^ 2)%nat /\ cnc B' = length azi /\
    forall i n m, (i < length azi)%nat -> (n <= N)%nat -> degree n m ->
      cent A i (acn n m) = cscal (nth n c 0) (sph_harm m n (nth i azi 0) (nth i zen 0)) /\
      cent B (acn n m) i = cscal (4 * PI / (INR (length azi) * nth n c 0)) (cconj (sph_harm m n (nth i azi 0) (nth i zen 0))) /\
      cent B' (acn n m) i = cscal (4 * PI * nth 0 c 0 / (sqrt (INR (length azi) * rsum (N + 1) (fun n => (2 * INR n + 1) * (nth n c 0 * nth n c 0))) * nth n c 0)) (cconj (sph_harm m n (nth i azi 0) (nth i zen 0)))) /\
  (In 0 c -> design_sph_filterbank_c pinv N azi zen c MPerfect = Ok None /\ design_sph_filterbank_c pinv N azi zen c MEnergy = Ok None).
Proof. exact f_matrices. Qed.
Print Assumptions C107_matrices.
Theorem C107_other_modes : forall pinv N azi zen c,
  length zen = length azi -> length c = (N + 1)%nat ->
  forall m, m = MAmplitude \/ m = MOther -> design_sph_filterbank_c pinv N azi zen c m = Err ValueError.
Proof. exact f_other_modes. Qed.
Print Assumptions C107_other_modes.
Theorem C107_pinv : forall pinv N azi zen c,
  length zen = length azi -> length c = (N + 1)%nat ->
  exists A, design_sph_filterbank_c pinv N azi zen c MPinv = Ok (Some (A, pinv A)) /\ cnr A = length azi /\ cnc A = ((N + 1) ^ 2)%nat /\
    (forall i n m, (i < length azi)%nat -> (n <= N)%nat -> degree n m -> cent A i (acn n m) = cscal (nth n c 0) (sph_harm m n (nth i azi 0) (nth i zen 0))) /\
    (cpenrose A (pinv A) -> exists P, cmatmul (pinv A) A = Ok P /\ cnr P = ((N + 1) ^ 2)%nat /\ cnc P = ((N + 1) ^ 2)%nat /\
       (forall a b, (a < (N + 1) ^ 2)%nat -> (b < (N + 1) ^ 2)%nat -> cent P a b = cconj (cent P b a) /\ csum ((N + 1) ^ 2) (fun k => cmul (cent P a k) (cent P k b)) = cent P a b) /\
       (cleft_invertible A -> cidentity ((N + 1) ^ 2) (1, 0) P)).
Proof. exact f_pinv. Qed.
Print Assumptions C107_pinv.
Theorem C107_pinv_sectors : forall pinv N azi zen c Y,
  length zen = length azi -> (0 < length azi)%nat -> sh_matrix N azi zen = Ok Y -> sector_grid Y (length azi) ->
  length c = (N + 1)%nat -> (forall x, In x c -> x <> 0) ->
  exists A, design_sph_filterbank_c pinv N azi zen c MPinv = Ok (Some (A, pinv A)) /\
    (cpenrose A (pinv A) -> (forall i n m, (i < length azi)%nat -> (n <= N)%nat -> degree n m ->
        cent (pinv A) (acn n m) i = cscal (4 * PI / INR (length azi) / nth n c 0) (cconj (sph_harm m n (nth i azi 0) (nth i zen 0)))) /\
      exists P, cmatmul (pinv A) A = Ok P /\ cidentity ((N + 1) ^ 2) (1, 0) P) /\ exists X, cpenrose A X.
Proof. exact f_pinv_sectors. Qed.
Print Assumptions C107_pinv_sectors.
Theorem C107_pinv_real : forall pinv N azi zen c,
  length zen = length azi -> length c = (N + 1)%nat ->
  exists A, design_sph_filterbank pinv N azi zen c MPinv = Ok (Some (A, pinv A)) /\ nr A = length azi /\ nc A = ((N + 1) ^ 2)%nat /\
    (forall i n m, (i < length azi)%nat -> (n <= N)%nat -> degree n m -> ent A i (acn n m) = nth n c 0 * sh_real n m (nth i azi 0) (nth i zen 0)) /\
    (penrose A (pinv A) -> exists P, matmul (pinv A) A = Ok P /\ nr P = ((N + 1) ^ 2)%nat /\ nc P = ((N + 1) ^ 2)%nat /\
       (forall a b, (a < (N + 1) ^ 2)%nat -> (b < (N + 1) ^ 2)%nat -> ent P a b = ent P b a /\ rsum ((N + 1) ^ 2) (fun k => ent P a k * ent P k b) = ent P a b) /\
       (left_invertible A -> is_identity ((N + 1) ^ 2) P)).
Proof. exact f_pinv_real. Qed.
Print Assumptions C107_pinv_real.
Theorem C107_sofa : forall rpinv cpinv s h N l r fs Y Yc,
  load_sofa_hrirs s = Ok h -> sh_matrix N (h_azi h) (h_zen h) = Ok Y -> sh_matrix_c N (h_azi h) (h_zen h) = Ok Yc ->
  penrose Y (rpinv Y) -> cpenrose Yc (cpinv Yc) -> sofa_to_sh rpinv s N = Ok (l, r, fs) ->
  exists lc rc, sofa_to_sh_c cpinv s N = Ok (lc, rc, fs) /\ same_functions N l lc /\ same_functions N r rc.
Proof. exact f_sofa. Qed.
Print Assumptions C107_sofa.
Theorem C107_product : forall t_design N1 N2 a b v,
  let N := (N1 + N2)%nat in
  let azi := map (fun u => fst (vec2dir u)) v in
  let zen := map (fun u => match snd (vec2dir u) with Some z => z | None => 0 end) v in
  length a = ((N1 + 1) ^ 2)%nat -> length b = ((N2 + 1) ^ 2)%nat ->
  t_design (2 * Z.of_nat N)%Z = Ok v -> (forall u, In u v -> dot3 u u = 1) ->
  exact_for sh_real (2 * N) azi zen (equal_weights (length v)) ->
  exists c, sh_mult_c t_design a b = Ok c /\ length c = ((N + 1) ^ 2)%nat /\
    forall az ze, 0 <= ze <= PI -> cfield N (fun k => nth k c (0, 0)) az ze = cmul (cfield N1 (fun k => (nth k a 0, 0)) az ze) (cfield N2 (fun k => (nth k b 0, 0)) az ze).
Proof. exact f_product. Qed.
Print Assumptions C107_product.
Theorem C107_factor : forall (w : list C2) (J : nat) w0, nth_error w 0 = Some w0 -> w0 <> (0, 0) -> (0 < J)%nat ->
  (exists b, reconstruction_factor_c w J MAmplitude = Ok (Some b) /\ cmul b (cscal (INR J) w0) = (sqrt (4 * PI), 0)) /\
  (exists b, reconstruction_factor_c w J MEnergy = Ok (Some (b, 0)) /\ b * INR J * rsum (length w) (fun i => fst (nth i w (0, 0)) ^ 2 + snd (nth i w (0, 0)) ^ 2) = 4 * PI).
Proof. exact f_factor. Qed.
Print Assumptions C107_factor.
Example C107_nonvacuous : exists Y, length octa_zen = length octa_azi /\ zeniths octa_zen /\ (0 < length octa_azi)%nat /\ sh_matrix 1 octa_azi octa_zen = Ok Y /\ sector_grid Y (length octa_azi) /\
  length [1; 1 / 2] = (1 + 1)%nat /\ forall x, In x [1; 1 / 2] -> x <> 0.
Proof. exact ex_bank. Qed.
Example C107_pinv_nonvacuous : exists h rpinv cpinv Y Yc l r fs, load_sofa_hrirs (sofa_example (-90)) = Ok h /\ sh_matrix 1 (h_azi h) (h_zen h) = Ok Y /\ sh_matrix_c 1 (h_azi h) (h_zen h) = Ok Yc /\
  penrose Y (rpinv Y) /\ cpenrose Yc (cpinv Yc) /\ cleft_invertible Yc /\ sofa_to_sh rpinv (sofa_example (-90)) 1 = Ok (l, r, fs).
Proof. exact ex_cpinv. Qed.
Example C107_product_nonvacuous : length [1; 2; 3; 4] = ((1 + 1) ^ 2)%nat /\ length [5] = ((0 + 1) ^ 2)%nat /\
  (forall u, In u octahedron -> dot3 u u = 1) /\
  exact_for sh_real (2 * (1 + 0)) (map (fun u => fst (vec2dir u)) octahedron)
    (map (fun u => match snd (vec2dir u) with Some z => z | None => 0 end) octahedron) (equal_weights (length octahedron)).
Proof. exact ex_product. Qed.

(** ** C16 *)

Theorem C16_matrices : forall pinv N azi zen c,
  length zen = length azi -> zeniths zen -> (0 < length azi)%nat -> length c = (N + 1)%nat ->
  ((forall x, In x c -> x <> 0) -> exists A B B', design_sph_filterbank pinv N azi zen c MPerfect = Ok (Some (A, B)) /\ design_sph_filterbank pinv N azi zen c MEnergy = Ok (Some (A, B')) /\
    nr A = length azi /\ nc A = ((N + 1) ^ 2)%nat /\ nr B = ((N + 1) ^ 2)%nat /\ nc B = length azi /\ nr B' = ((N + 1) ^ 2)%nat /\ nc B' = length azi /\
    forall i n m, (i < length azi)%nat -> (n <= N)%nat -> degree n m ->
      ent A i (acn n m) = nth n c 0 * sh_real n m (nth i azi 0) (nth i zen 0) /\
      ent B (acn n m) i = 4 * PI / (INR (length azi) * nth n c 0) * sh_real n m (nth i azi 0) (nth i zen 0) /\
      ent B' (acn n m) i = 4 * PI * nth 0 c 0 / (sqrt (INR (length azi) * rsum (N + 1) (fun n => (2 * INR n + 1) * (nth n c 0 * nth n c 0))) * nth n c 0) * sh_real n m (nth i azi 0) (nth i zen 0)) /\
  (In 0 c -> design_sph_filterbank pinv N azi zen c MPerfect = Ok None /\ design_sph_filterbank pinv N azi zen c MEnergy = Ok None).
Proof. exact f_matrices_real. Qed.
Print Assumptions C16_matrices.
Example C16_matrices_nonvacuous : forall pinv : mat -> mat, length [PI / 2] = length [0] /\ zeniths [PI / 2] /\ (0 < length [0])%nat /\ length [2; 1] = (1 + 1)%nat /\
  exists A B B', design_sph_filterbank pinv 1 [0] [PI / 2] [2; 1] MPerfect = Ok (Some (A, B)) /\ design_sph_filterbank pinv 1 [0] [PI / 2] [2; 1] MEnergy = Ok (Some (A, B')) /\
    ent A 0 0 = 2 / sqrt (4 * PI) /\ ent B 0 0 = sqrt (4 * PI) / 2 /\ ent B' 0 0 = sqrt (4 * PI) / sqrt 7.
Proof. exact ex_matrices. Qed.
