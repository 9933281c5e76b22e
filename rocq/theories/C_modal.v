(** Properties of modal weights (C113); values of the transforms, of B-format
    conversion and of energy vectors (C14, C15, C19). *)
From Verif Require Import Base M_utils M_sig M_sph0 M_sph S_sph S_parsa S_lgauss S_modal X_sph X_modal P_sphv.
Open Scope R_scope.

(** ** C113 *)
Theorem C113_hypercardioid : forall N, let h := hypercardioid_modal_weights N in
  length h = (N + 1)%nat /\ unit_response h /\ beam_energy h (4 * PI / (INR N + 1) ^ 2) /\
  forall c e, length c = (N + 1)%nat -> unit_response c -> beam_energy c e ->
    4 * PI / (INR N + 1) ^ 2 <= e /\ (e = 4 * PI / (INR N + 1) ^ 2 -> c = h).
Proof. exact f_hyper. Qed.
Print Assumptions C113_hypercardioid.
Theorem C113_cardioid : forall N, let c := cardioid_modal_weights N in
  length c = (N + 1)%nat /\ beam c (fun t => ((1 + cos t) / 2) ^ N) /\ beam_energy c (4 * PI / (2 * INR N + 1)) /\
  (forall c', length c' = (N + 1)%nat -> beam c' (fun t => ((1 + cos t) / 2) ^ N) -> c' = c) /\
  forall n, (n <= N)%nat -> nth n c 0 = 4 * PI * (INR (fact N) * INR (fact (N + 1)) / (INR (fact (N + n + 1)) * INR (fact (N - n)))) / (INR N + 1).
Proof. exact f_cardioid. Qed.
Print Assumptions C113_cardioid.
Theorem C113_longest : forall N x c e m, legendre_roots (N + 1) x -> length c = (N + 1)%nat -> beam_energy c e -> beam_moment c m ->
  Rabs m <= nth N x 0 * e /\
  (m = nth N x 0 * e <-> exists k, forall n, (n <= N)%nat -> nth n c 0 = k * eval_legendre n (nth N x 0)).
Proof. exact f_longest. Qed.
Print Assumptions C113_longest.
Theorem C113_max_rE : forall N, let r := cos (1379 / 10 * PI / 180 / (INR N + 151 / 100)) in
  let K := rsum (N + 1) (fun n => (2 * INR n + 1) * eval_legendre n r ^ 2) in
  maxre_modal_weights N false = Ok (Some (map (fun n => eval_legendre n r) (seq 0 (N + 1)))) /\
  exists c e m, maxre_modal_weights N true = Ok (Some c) /\ length c = (N + 1)%nat /\ unit_response c /\ 0 < nth 0 c 0 /\
    (forall n, (n <= N)%nat -> nth n c 0 = nth 0 c 0 * eval_legendre n r) /\
    beam_energy c e /\ beam_moment c m /\ 0 < e /\
    m / e = r - (INR N + 1) * eval_legendre N r * eval_legendre (N + 1) r / K.
Proof. exact f_maxre. Qed.
Print Assumptions C113_max_rE.
Theorem C113_butterworth : forall N k n_c, n_c <> 0 -> exists b c, butterworth_modal_weights N k n_c false = Ok (Some b) /\
  butterworth_modal_weights N k n_c true = Ok (Some c) /\ length b = (N + 1)%nat /\ length c = (N + 1)%nat /\ unit_response c /\
  (exists a, 0 < a /\ forall n, nth n c 0 = a * nth n b 0) /\
  (forall n, (n <= N)%nat -> 0 < nth n b 0 /\ nth n b 0 ^ 2 * (1 + (INR n / n_c) ^ (2 * k)) = 1) /\
  (forall i j, (i <= j <= N)%nat -> nth j b 0 <= nth i b 0).
Proof. exact f_butter. Qed.
Print Assumptions C113_butterworth.
Theorem C113_unity_gain : forall w, let a := rsum (length w) (fun n => (2 * INR n + 1) / (4 * PI) * nth n w 0) in
  (a = 0 -> unity_gain w = None) /\ (a <> 0 -> unity_gain w = Some (map (fun x => x / a) w)).
Proof. exact f_unity. Qed.
Print Assumptions C113_unity_gain.
Example C113_nonvacuous : legendre_roots 2 [- (1 / sqrt 3); 1 / sqrt 3] /\ (exists e, beam_energy [1; 1 / sqrt 3] e) /\ exists m, beam_moment [1; 1 / sqrt 3] m.
Proof. exact ex_longest. Qed.
(** ** C14, C15, C19 *)
Theorem C14_value : forall F W,
  nr F = 4%nat -> (0 < nc F)%nat -> exists B, sh_to_b F W = Ok B /\ nr B = 4%nat /\ nc B = nc F /\
  forall t, ent B 0 t = sqrt (4 * PI) * (match W with Some w => w | None => 1 end * ent F 0 t) /\
    ent B 1 t = sqrt (4 * PI) * (ent F 3 t / sqrt 3) /\ ent B 2 t = sqrt (4 * PI) * (ent F 1 t / sqrt 3) /\ ent B 3 t = sqrt (4 * PI) * (ent F 2 t / sqrt 3).
Proof. exact sh_to_b_value. Qed.
Print Assumptions C14_value.
Theorem C15_sht_value : forall f N azi zen w, length zen = length azi -> nr f = length azi ->
  let coefficient := fun u n m s => rsum (length azi) (fun q => nth q u 0 * sh_real n m (nth q azi 0) (nth q zen 0) * ent f q s) in
  (length w = length azi -> exists F, sht f N azi zen (Some w) None = Ok F /\ nr F = ((N + 1) ^ 2)%nat /\ nc F = nc f /\
     forall n m s, (n <= N)%nat -> degree n m -> ent F (acn n m) s = coefficient w n m s) /\
  (length w <> length azi -> sht f N azi zen (Some w) None = Err ValueError) /\
  exists F, sht f N azi zen None None = Ok F /\ nr F = ((N + 1) ^ 2)%nat /\ nc F = nc f /\
     forall n m s, (n <= N)%nat -> degree n m -> ent F (acn n m) s = coefficient (equal_weights (length azi)) n m s.
Proof. exact f_sht. Qed.
Print Assumptions C15_sht_value.
Theorem C15_sht_given_value : forall f N azi zen w Y, nr f = nr Y ->
  (length w = nr f -> exists F, sht f N azi zen (Some w) (Some Y) = Ok F /\ nr F = nc Y /\ nc F = nc f /\
     forall k s, (k < nc Y)%nat -> ent F k s = rsum (nr Y) (fun q => nth q w 0 * ent Y q k * ent f q s)) /\
  (length w <> nr f -> sht f N azi zen (Some w) (Some Y) = Err ValueError) /\
  exists F, sht f N azi zen None (Some Y) = Ok F /\ nr F = nc Y /\ nc F = nc f /\
     forall k s, (k < nc Y)%nat -> ent F k s = rsum (nr Y) (fun q => 4 * PI / INR (nr Y) * ent Y q k * ent f q s).
Proof. exact f_sht_given. Qed.
Print Assumptions C15_sht_given_value.
Theorem C15_inverse_value : forall F N azi zen, length zen = length azi -> nr F = ((N + 1) ^ 2)%nat ->
  exists f, inverse_sht F azi zen None None = Ok f /\ nr f = length azi /\ nc f = nc F /\
    forall q s, (q < length azi)%nat -> ent f q s = field_value sh_real N (map (fun k => ent F k s) (seq 0 (nr F))) (nth q azi 0) (nth q zen 0).
Proof. exact f_inverse. Qed.
Print Assumptions C15_inverse_value.
Theorem C15_inverse_given_value : forall F Y azi zen N, (nr F <= (N + 1) ^ 2)%nat -> nc Y = nr F ->
  exists f, inverse_sht F azi zen (Some N) (Some Y) = Ok f /\ nr f = nr Y /\ nc f = nc F /\ forall q s, ent f q s = rsum (nc Y) (fun k => ent Y q k * ent F k s).
Proof. exact f_inverse_given. Qed.
Print Assumptions C15_inverse_given_value.
Theorem C19_value : forall p g,
  length p = length g -> (exists x, In x g /\ x <> 0) ->
  let E := rsum (length g) (fun i => nth i g 0 ^ 2) in
  let mean := fun f : V3 -> R => rsum (length g) (fun i => nth i g 0 ^ 2 * f (nth i p (0, 0, 0))) / E in
  0 < E /\ r_E_row p g = (Some (mean vx, mean vy, mean vz), norm3 (mean vx, mean vy, mean vz)).
Proof. exact rE_value. Qed.
Print Assumptions C19_value.
