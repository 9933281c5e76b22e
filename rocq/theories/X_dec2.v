(** Final forms and examples for the Ambisonic part of decoder.py. *)
From Verif Require Import Base BaseFacts M_utils M_sph0 M_sig M_process M_sph M_grids M_decoder M_decoder2
  S_utils S_sph S_grids S_decoder S_decoder2 P_utils P_sig P_sph5 P_sph7 P_sph8 P_sph9 P_sph10 P_sph11 P_sph12 P_sph13 P_grids3 X_sph
  P_dec1 P_dec2 P_dec3 P_dec4 P_dec5 X_dec1 P_dec6 P_dec7 P_dec8 P_dec9 P_dec10.
Open Scope R_scope.

Lemma order_force N_sph s N : order_in_force N_sph s N -> order_or N_sph s = Some N.
Proof. intros [->|[-> O]]; [reflexivity|exact O]. Qed.
Lemma kernel_panned lstsq3 h kp jobs sched : lstsq3_contract lstsq3 -> fresh_hull h -> (1 <= jobs)%Z -> fair (length kp) sched ->
  exists rows h', vbap_hull lstsq3 jobs sched kp h (POrd 2) None = (Ok rows, h') /\ Forall2 (panning_row (POrd 2) h (h_valid h)) kp rows.
Proof.
  intros LC (V & WF & IR & IN) J FA. destruct (vbap_rows_final lstsq3 (POrd 2) jobs sched kp h None LC Rlt_0_2 V WF IR IN J FA) as (rows & E & F2).
  destruct (vbap_hull lstsq3 jobs sched kp h (POrd 2) None) as [r h']. cbn [fst] in E. subst r. exists rows, h'. auto.
Qed.
Lemma real_is imag n l : real_ls imag n l -> l = keep_of imag n.
Proof. intro H. exact (kept_unique _ _ _ _ _ H (keep_real imag n)). Qed.
Lemma panning_row_len o h vs kp rows k : Forall2 (panning_row o h vs) kp rows -> (k < length kp)%nat -> panning_row o h vs (@nth V3 k kp (0, 0, 0)) (nth k rows []).
Proof. intros F2 Hk. destruct (Forall2_nth (A:=V3) _ _ _ (0, 0, 0) [] F2) as [_ N]. apply N. exact Hk. Qed.

Lemma allrap_final lstsq3 jobs sched (src : list V3) s N_sph h kp N reals : lstsq3_contract lstsq3 -> ambi_ready s h kp -> fresh_hull h ->
  order_in_force N_sph s N -> (1 <= jobs)%Z -> fair (length kp) sched -> (forall p, In p src -> p <> (0, 0, 0)) ->
  real_ls (h_imag h) (length (h_points h)) reals ->
  exists G s' a rows, allrap lstsq3 jobs sched src s N_sph = (Ok (Some G), s') /\
    length a = (N + 1)%nat /\ unit_response a /\ (exists c, 0 < c /\ forall n, (n <= N)%nat -> nth n a 0 = c * max_rE N n) /\
    Forall2 (panning_row (POrd 2) h (h_valid h)) kp rows /\ nr G = length src /\ nc G = length reals /\
    forall i l, (i < length src)%nat -> (l < length reals)%nat -> ent G i l
      = 4 * PI / INR (length kp) * rsum (length kp) (fun k => pattern a (cos_angle (nth i src (0, 0, 0)) (nth k kp (0, 0, 0))) * nth (nth l reals 0%nat) (nth k rows []) 0).
Proof.
  intros LC (SA & [Nk SK] & KN) FH OF J FA NS RL. destruct (kernel_panned lstsq3 h kp jobs sched LC FH J FA) as (rows & h' & V & F2).
  rewrite (real_is _ _ _ RL). destruct (allrap_ok lstsq3 s h kp Nk N SA SK KN jobs sched rows h' src N_sph V (order_force _ _ _ OF) NS) as (G & a & E & UG & RG & CG & NG).
  destruct (maxre_weights_ok N) as (a' & UG' & LA & UR & MR & P0). rewrite UG in UG'. injection UG' as <-.
  exists G, (set_ambi s h'), a, rows. split; [exact E|]. split; [exact LA|]. split; [exact UR|]. split; [exists (nth 0 a 0); auto|]. auto.
Qed.
Lemma allrad_final lstsq3 jobs sched jobs' sched' (src : list V3) azi zen sig s N_sph h kp N rows : ambi_ready s h kp ->
  fst (vbap_hull lstsq3 1 [] kp h (POrd 2) None) = Ok rows -> order_in_force N_sph s N ->
  (1 <= jobs)%Z -> fair (length kp) sched -> (1 <= jobs')%Z -> fair (length kp) sched' ->
  angles_of src azi zen -> nr sig = length src ->
  exists F G LS s1 s2 s3, src_to_sh sig azi zen N = Ok F /\ allrap lstsq3 jobs sched src s N_sph = (Ok (Some G), s1) /\
    allrad lstsq3 jobs' sched' F s N_sph = (Ok (Some LS), s2) /\ allrad lstsq3 jobs' sched' F s1 N_sph = (Ok (Some LS), s3) /\
    product (mtr G) sig LS.
Proof.
  intros (SA & [Nk SK] & KN) V OF. apply (allrad_encoded lstsq3 s h kp Nk N SA SK KN jobs sched jobs' sched' rows); [exact V|apply order_force; exact OF].
Qed.
Lemma allrad2_final lstsq3 jobs sched F s N_sph h kp N : lstsq3_contract lstsq3 -> ambi_ready s h kp -> fresh_hull h ->
  order_in_force N_sph s N -> (1 <= jobs)%Z -> fair (length kp) sched -> nr F = ((N + 1) ^ 2)%nat ->
  exists LS G azk zek s1, allrap2 lstsq3 jobs sched kp s (Some N) = (Ok (Some G), s1) /\
    allrad2 lstsq3 jobs sched F s N_sph = (Ok (Some LS), s1) /\ angles_of kp azk zek /\ nr LS = nc G /\ nc LS = nc F /\
    forall l t, (l < nc G)%nat -> (t < nc F)%nat -> ent LS l t
      = 4 * PI / INR (length kp) * rsum (length kp) (fun k => ent G k l *
           field_value sh_real N (map (fun c => ent F c t) (seq 0 ((N + 1) ^ 2))) (nth k azk 0) (nth k zek 0)).
Proof.
  intros LC (SA & [Nk SK] & KN) FH OF J FA RF. destruct (kernel_panned lstsq3 h kp jobs sched LC FH J FA) as (rows & h' & V & F2).
  exact (allrad2_ok lstsq3 s h kp Nk N SA SK KN jobs sched rows h' F N_sph V (order_force _ _ _ OF) RF).
Qed.
Lemma rsum_three n (a b c : nat) (f : nat -> R) : (a < n)%nat -> (b < n)%nat -> (c < n)%nat -> a <> b -> b <> c -> a <> c ->
  (forall j, j <> a -> j <> b -> j <> c -> f j = 0) -> rsum n f = f a + f b + f c.
Proof.
  intros A B C ab bc ac Z.
  rewrite (rsum_ext n f (fun j => delta a j * f a + delta b j * f b + delta c j * f c)).
  - rewrite !rsum_plus. rewrite (rsum_delta_l n a (fun _ => f a) A), (rsum_delta_l n b (fun _ => f b) B), (rsum_delta_l n c (fun _ => f c) C). reflexivity.
  - intros j Hj. unfold delta. destruct (Nat.eqb_spec a j); [subst; destruct (Nat.eqb_spec b j); [congruence|]; destruct (Nat.eqb_spec c j); [congruence|]; ring|].
    destruct (Nat.eqb_spec b j); [subst; destruct (Nat.eqb_spec c j); [congruence|]; ring|]. destruct (Nat.eqb_spec c j); [subst; ring|].
    rewrite Z by congruence. ring.
Qed.
Lemma row_energy h src row : fresh_hull h -> (forall d, In d (h_d h) -> dist_gain d (h_a h) = 1) ->
  panning_row (POrd 2) h (h_valid h) src row -> (exists f, In f (h_valid h) /\ inside_cone (h_points h) f src) ->
  rsum (length (h_points h)) (fun j => nth j row 0 ^ 2) = 1.
Proof.
  intros (V & WF & IR & IN) D [_ [[i [g [Hi [[U _] [_ E]]]]]|[N _]]] [f [If Cf]].
  - pose proof (proj1 (Forall_forall _ _) IR _ (nth_In (h_valid h) (0,0,0)%nat Hi)) as R.
    pose proof (proj1 (Forall_forall _ _) IN _ (nth_In (h_valid h) (0,0,0)%nat Hi)) as I.
    destruct (nth i (h_valid h) (0,0,0)%nat) as [[a b] c]. destruct R as [Ra [Rb Rc]].
    destruct (independent_distinct _ _ _ _ I) as [n1 [n2 n3]].
    rewrite (rsum_ext _ _ (fun j => on_face (a, b, c) g j ^ 2)).
    + rewrite (rsum_three _ a b c) by (auto; intros j ja jb jc; unfold on_face, delta;
        repeat match goal with |- context [Nat.eqb ?u ?v] => destruct (Nat.eqb_spec u v); try congruence end; ring).
      pose proof (proj1 (unit_norm_two _) U) as U2. cbn in U2. unfold on_face, delta. rewrite !Nat.eqb_refl.
      repeat match goal with |- context [Nat.eqb ?u ?v] => destruct (Nat.eqb_spec u v); try congruence end. lra.
    + intros j Hj. rewrite E by exact Hj. rewrite D by (apply nth_In; rewrite WF; exact Hj). rewrite Rmult_1_l. reflexivity.
  - exfalso. destruct (cone_pans (POrd 2) Rlt_0_2 (h_points h) f src) as [g P]; auto; [|apply (N f g If P)].
    rewrite Forall_forall in IN. apply IN, If.
Qed.
Lemma allrap2_final lstsq3 jobs sched (src : list V3) s N_sph h kp N azk zek i : lstsq3_contract lstsq3 -> ambi_ready s h kp -> fresh_hull h ->
  order_in_force N_sph s N -> (1 <= jobs)%Z -> fair (length kp) sched -> (forall p, In p src -> p <> (0, 0, 0)) ->
  h_imag h = None -> (forall d, In d (h_d h) -> dist_gain d (h_a h) = 1) ->
  (forall p, In p kp -> exists f, In f (h_valid h) /\ inside_cone (h_points h) f p) ->
  angles_of kp azk zek -> exact_for sh_real (2 * N) azk zek (equal_weights (length kp)) -> (0 < length kp)%nat -> (i < length src)%nat ->
  exists G s', allrap2 lstsq3 jobs sched src s N_sph = (Ok (Some G), s') /\ nr G = length src /\ nc G = length (h_points h) /\
    let e := rsum (nc G) (fun l => ent G i l ^ 2) in
    e = rsum (N + 1) (fun n => (2 * INR n + 1) * max_rE N n ^ 2) / rsum (N + 1) (fun n => (2 * INR n + 2) * max_rE N n ^ 2) /\ e < 1.
Proof.
  intros LC (SA & [Nk SK] & KN) FH OF J FA NS IM D CO AK EX KP Hi. destruct (kernel_panned lstsq3 h kp jobs sched LC FH J FA) as (rows & h' & V & F2).
  assert (KE : keep_of (h_imag h) (length (h_points h)) = seq 0 (length (h_points h))) by (rewrite IM; reflexivity).
  destruct (allrap2_energy lstsq3 s h kp Nk N SA SK KN jobs sched rows h' src N_sph azk zek i V (order_force _ _ _ OF) NS AK EX KP) as (G & E & RG & CG & EN); [|exact Hi|].
  - rewrite KE, seq_length. intros k Hk. rewrite <- (row_energy h (@nth V3 k kp (0, 0, 0)) (nth k rows []) FH D (panning_row_len _ _ _ _ _ _ F2 Hk)).
    + apply rsum_ext. intros l Hl. rewrite seq_nth by exact Hl. reflexivity.
    + apply CO, (@nth_In V3), Hk.
  - rewrite KE, seq_length in CG. exists G, (set_ambi s h'). split; [exact E|]. split; [exact RG|]. split; [exact CG|]. cbn zeta.
    split; [exact EN|]. rewrite EN. apply allrap2_ratio.
Qed.

(** ** plain decoders *)
Lemma col_energy_F N F LS D c t : isometry c D -> product D (first_rows ((N + 1) ^ 2) F) LS -> ((N + 1) ^ 2 <= nr F)%nat -> (t < nc F)%nat ->
  col_energy LS t = c * rsum ((N + 1) ^ 2) (fun k => ent F k t * ent F k t).
Proof.
  intros I P RF Ht. rewrite (isometry_energy c D _ LS t I P Ht). rewrite first_rows_energy by exact RF. reflexivity.
Qed.
Lemma dims_product D N F LS : product D (first_rows ((N + 1) ^ 2) F) LS -> nr LS = nr D /\ nc LS = nc F.
Proof. intros (_ & A & B & _). auto. Qed.
Lemma ls_pos N h Y : ls_matrix N h = Ok (Some Y) -> ((N + 1) ^ 2 <= length (h_points h))%nat -> (0 < length (h_points h))%nat.
Proof. intros _ H. pose proof (sq_ge1 N). lia. Qed.
Lemma epad_final lstsq3 svd F s N Y U sv VH : ls_matrix N (s_hull s) = Ok (Some Y) -> svd Y = (U, sv, VH) -> is_svd Y U sv VH ->
  ((N + 1) ^ 2 <= nr F)%nat -> ((N + 1) ^ 2 <= length (h_points (s_hull s)))%nat ->
  exists LS, epad lstsq3 svd F s (Some N) = Ok (Some LS) /\ nr LS = length (h_points (s_hull s)) /\ nc LS = nc F /\
    (forall t, (t < nc F)%nat -> col_energy LS t = 4 * PI / INR ((N + 1) ^ 2) * rsum ((N + 1) ^ 2) (fun k => ent F k t * ent F k t)) /\
    exists D, nr D = nr Y /\ nc D = nc Y /\ product D (first_rows ((N + 1) ^ 2) F) LS /\
      let M := fun a b => rsum (nr Y) (fun l => ent D l a * ent Y l b) in
      (forall a b, (a < nc Y)%nat -> (b < nc Y)%nat -> M a b = M b a) /\
      (forall x, 0 <= rsum (nc Y) (fun a => rsum (nc Y) (fun b => x a * M a b * x b))).
Proof.
  intros EY ES SV RF RL. destruct (ls_matrix_dims _ _ _ EY) as [RY CY]. pose proof (ls_pos _ _ _ EY RL) as LP.
  destruct (epad_ok lstsq3 svd F s N Y U sv VH EY ES SV RF) as (LS & E & P). exists LS. split; [exact E|].
  destruct (dims_product _ _ _ _ P) as [R C]. split; [exact R|]. split; [exact C|]. split.
  - intros t Ht. exact (col_energy_F N F LS _ _ t (epad_isometry N _ Y U sv VH LP RY CY SV RL) P RF Ht).
  - exists (epad_D N (length (h_points (s_hull s))) U VH). split; [exact (eq_sym RY)|]. split; [exact (eq_sym CY)|]. split; [exact P|].
    rewrite RY. exact (epad_polar N _ Y U sv VH LP RY CY SV).
Qed.
(** uniform layouts *)
Lemma uniform_final lstsq3 pinv svd F s N Y U sv VH : ls_matrix N (s_hull s) = Ok (Some Y) -> (0 < length (h_points (s_hull s)))%nat ->
  sector_grid Y (length (h_points (s_hull s))) -> penrose Y (pinv Y) -> svd Y = (U, sv, VH) -> is_svd Y U sv VH -> ((N + 1) ^ 2 <= nr F)%nat ->
  exists LS, sad lstsq3 F s (Some N) = Ok (Some LS) /\ nr LS = length (h_points (s_hull s)) /\ nc LS = nc F /\
    (forall t, (t < nc F)%nat -> col_energy LS t = 4 * PI / INR ((N + 1) ^ 2) * rsum ((N + 1) ^ 2) (fun k => ent F k t * ent F k t)) /\
    (exists M, mad lstsq3 pinv F s (Some N) = Ok (Some M) /\ meq M LS) /\
    (exists M, epad lstsq3 svd F s (Some N) = Ok (Some M) /\ meq M LS).
Proof.
  intros EY LP G PE ES SV RF. destruct (ls_matrix_dims _ _ _ EY) as [RY CY].
  destruct (sad_ok lstsq3 F s N Y EY RF) as (LS & E & P). destruct (mad_ok lstsq3 pinv F s N Y EY PE RF) as (LM & EM & PM).
  destruct (epad_ok lstsq3 svd F s N Y U sv VH EY ES SV RF) as (LE & EE & PEE).
  pose proof (sector_same N _ Y U sv VH (pinv Y) LP RY CY G SV PE) as SM. set (L := length (h_points (s_hull s))) in *.
  destruct (dims_product _ _ _ _ P) as [R C]. cbn [sad_D mscal nr] in R.
  exists LS. split; [exact E|]. split; [congruence|]. split; [exact C|]. split.
  - intros t Ht. exact (col_energy_F N F LS _ _ t (sad_isometry N L Y LP RY G) P RF Ht).
  - pose proof PE as (PR & PC & _).
    destruct P as (P1 & P2 & P3 & P4). destruct PM as (M1 & M2 & M3 & M4). destruct PEE as (Q1 & Q2 & Q3 & Q4).
    cbn [sad_D mad_D epad_D mscal mtr nr nc] in P1, P2, P3, M1, M2, M3, Q1, Q2, Q3.
    split; [exists LM|exists LE]; (split; [assumption|]); unfold meq; (split; [congruence|split; [congruence|]]); intros i j Hi Hj.
    + assert (Li : (i < L)%nat) by congruence. assert (Hj' : (j < nc F)%nat) by congruence.
      rewrite M4 by (cbn [mad_D mscal mtr nr]; congruence). rewrite P4 by (cbn [sad_D mscal nr]; congruence).
      cbn [mad_D sad_D mscal mtr nc]. rewrite PR. apply rsum_ext. intros k Hk. f_equal. exact (proj2 (SM i k Li Hk)).
    + assert (Li : (i < L)%nat) by congruence. assert (Hj' : (j < nc F)%nat) by congruence.
      rewrite Q4 by (cbn [epad_D nr]; congruence). rewrite P4 by (cbn [sad_D mscal nr]; congruence).
      cbn [epad_D sad_D mscal nc]. rewrite <- CY. apply rsum_ext. intros k Hk. f_equal. exact (proj1 (SM i k Li Hk)).
Qed.
Lemma mad_final lstsq3 pinv F s N Y : ls_matrix N (s_hull s) = Ok (Some Y) -> left_invertible Y -> penrose Y (pinv Y) -> ((N + 1) ^ 2 <= nr F)%nat ->
  let L := length (h_points (s_hull s)) in
  exists LS, mad lstsq3 pinv F s (Some N) = Ok (Some LS) /\ nr LS = L /\ nc LS = nc F /\
    (forall c t, (c < (N + 1) ^ 2)%nat -> (t < nc F)%nat -> rsum L (fun l => ent Y l c * ent LS l t) = sqrt (INR L) / (INR N + 1) * ent F c t) /\
    (forall X t, (t < nc F)%nat -> (forall c, (c < (N + 1) ^ 2)%nat -> rsum L (fun l => ent Y l c * X l) = sqrt (INR L) / (INR N + 1) * ent F c t) ->
       col_energy LS t <= rsum L (fun l => X l * X l)).
Proof.
  intros EY LI PE RF L. destruct (ls_matrix_dims _ _ _ EY) as [RY CY]. fold L in RY.
  destruct (mad_ok lstsq3 pinv F s N Y EY PE RF) as (LS & E & P). fold L in P. pose proof PE as (PR & PC & _).
  assert (SQ : sqrt (INR L / INR ((N + 1) ^ 2)) = sqrt (INR L) / (INR N + 1)).
  { pose proof (pos_INR N). rewrite sqrt_div_alt by apply INR_sq_pos. f_equal. rewrite Nat.pow_2_r, mult_INR, plus_INR. cbn [INR]. apply sqrt_square. lra. }
  assert (FR : nr (first_rows ((N + 1) ^ 2) F) = nc Y) by (cbn [first_rows nr]; lia).
  destruct (dims_product _ _ _ _ P) as [R C]. cbn [mad_D mscal mtr nr] in R.
  exists LS. split; [exact E|]. split; [congruence|]. split; [exact C|]. split.
  - intros c t Hc Ht. rewrite <- SQ. exact (mad_matches N L Y (pinv Y) _ LS RY PE LI FR P c t ltac:(lia) Ht).
  - intros X t Ht HX. apply (mad_least N L Y (pinv Y) _ LS X t RY PE LI FR P Ht). intros c Hc. rewrite SQ. apply HX. lia.
Qed.
Lemma epad_plane_wave lstsq3 svd s N Y U sv VH (v : V3) azi zen : ls_matrix N (s_hull s) = Ok (Some Y) -> svd Y = (U, sv, VH) -> is_svd Y U sv VH ->
  ((N + 1) ^ 2 <= length (h_points (s_hull s)))%nat -> angles_of [v] [azi] [zen] ->
  exists F LS, src_to_sh (Mat 1 1 (fun _ _ => 1)) [azi] [zen] N = Ok F /\ epad lstsq3 svd F s (Some N) = Ok (Some LS) /\
    rsum (length (h_points (s_hull s))) (fun l => ent LS l 0 ^ 2) = 1.
Proof.
  intros EY ES SV RL A. destruct (plane_wave_energy v azi zen N A) as (F & E & R & C & S1).
  destruct (epad_final lstsq3 svd F s N Y U sv VH EY ES SV ltac:(lia) RL) as (LS & EL & RLS & CL & EN & _).
  exists F, LS. split; [exact E|]. split; [exact EL|]. specialize (EN 0%nat ltac:(lia)). rewrite S1 in EN. unfold col_energy in EN. rewrite RLS in EN.
  transitivity (4 * PI / INR ((N + 1) ^ 2) * (INR ((N + 1) ^ 2) / (4 * PI))).
  - rewrite <- EN. apply rsum_ext. intros. ring.
  - pose proof PI_RGT_0. pose proof (INR_sq_pos N). field. split; lra.
Qed.
Lemma default_order lstsq3 s F n : s_order s = Some (S n) \/ (s_order s = None /\ get_characteristic_order lstsq3 s = Ok (S n)) ->
  forall pinv svd, sad lstsq3 F s None = sad lstsq3 F s (Some (S n)) /\ mad lstsq3 pinv F s None = mad lstsq3 pinv F s (Some (S n)) /\
    epad lstsq3 svd F s None = epad lstsq3 svd F s (Some (S n)).
Proof.
  intros H pinv svd. assert (E : decoder_order lstsq3 s None F = decoder_order lstsq3 s (Some (S n)) F).
  { unfold decoder_order. destruct H as [->|[-> E]]; [reflexivity|]. rewrite E. reflexivity. }
  unfold sad, mad, epad. rewrite E. auto.
Qed.
Lemma too_few lstsq3 pinv svd s F N : (nr F < (N + 1) ^ 2)%nat ->
  sad lstsq3 F s (Some N) = Err AssertionError /\ mad lstsq3 pinv F s (Some N) = Err AssertionError /\ epad lstsq3 svd F s (Some N) = Err AssertionError.
Proof. intro H. unfold sad, mad, epad, decoder_order. cbn [bind]. rewrite order_lt by exact H. auto. Qed.

(** ** characteristic order *)
Lemma char_order_final lstsq3 h n : characteristic_ambisonic_order lstsq3 h = Ok n ->
  lstsq3_contract lstsq3 -> h_vbase h = None -> hull_wf h -> Forall (in_range (length (h_points h))) (h_encloses h) ->
  (forall ps, length ps = length (h_points h) -> (forall i, (i < length ps)%nat -> nth i ps (0,0,0) = unit3 (nth i (h_points h) (0,0,0))) -> Forall (independent ps) (h_encloses h)) ->
  exists ps rows, length ps = length (h_points h) /\ (forall i, (i < length ps)%nat -> nth i ps (0,0,0) = unit3 (nth i (h_points h) (0,0,0))) /\
    Forall2 (panning_row (POrd 2) (set_points h ps) (h_encloses h)) (map (fun c => if Req_EM_T (dot3 c c) 0 then (0,0,0) else unit3 c) (h_centroids h)) rows /\
    rows <> [] /\
    let spread := lsum (map (fun g => 2 * acos (snd (r_E_row ps g)) * (180 / PI)) rows) / INR (length rows) in
    0 < spread <= 180 /\
    forall m, (0 <= m)%Z -> ((n <= m)%Z <-> 1379 / 10 / (IZR m + 151 / 100) <= spread / 2).
Proof.
  intros E LC V WF IR IN. destruct (char_order_inv _ _ _ E) as (ps & rows & EP & EG & NE & SP & ->).
  destruct (Forall2_nth (A:=V3) (B:=V3) _ _ _ (0,0,0) (0,0,0) (mapO_inv _ _ _ EP)) as [LP NP].
  assert (UN : forall i, (i < length ps)%nat -> nth i ps (0,0,0) = unit3 (nth i (h_points h) (0,0,0))).
  { intros i Hi. assert (Hi' : (i < length (h_points h))%nat) by (rewrite LP; exact Hi). specialize (NP i Hi'). cbn beta in NP. unfold proj in NP. rewrite project_spec in NP.
    destruct (Req_EM_T _ 0); [discriminate|]. injection NP as NP. rewrite <- NP. destruct (@nth V3 i (h_points h) (0,0,0)) as [[x y] z]. reflexivity. }
  exists ps, rows. split; [auto|]. split; [exact UN|]. split; [|split; [exact NE|]].
  - assert (WF' : hull_wf (set_points h ps)) by (unfold hull_wf; cbn [set_points h_d h_points]; rewrite <- LP; exact WF).
    destruct (vbap_rows_final lstsq3 (POrd 2) 1 (concat (map (fun i => [i; i; i]) (seq 0 (length (h_centroids h)))))
      (map (fun c => match proj c with Some p => p | None => (0, 0, 0) end) (h_centroids h)) (set_points h ps) (Some (h_encloses h)) LC Rlt_0_2 V WF') as (rows' & E' & F2).
    + cbn [in_force set_points h_points]. rewrite <- LP. exact IR.
    + cbn [in_force set_points h_points]. apply IN; auto.
    + lia.
    + rewrite map_length. intros i Hi. set (n := length (h_centroids h)) in *. clearbody n. clear - Hi.
      assert (X : forall k j, (j <= i < j + k)%nat -> (3 <= count_occ Nat.eq_dec (concat (map (fun i => [i; i; i]) (seq j k))) i)%nat).
      { induction k as [|k IH]; intros j Hj; [lia|]. cbn [seq map concat app]. destruct (Nat.eq_dec j i) as [->|D].
        - rewrite !count_occ_cons_eq by reflexivity. lia.
        - rewrite !count_occ_cons_neq by exact D. apply IH. lia. }
      apply X. lia.
    + assert (J1 : forall sch, vbap_hull lstsq3 1 sch (map (fun c => match proj c with Some p => p | None => (0, 0, 0) end) (h_centroids h)) (set_points h ps) (POrd 2) (Some (h_encloses h))
         = vbap_hull lstsq3 1 [] (map (fun c => match proj c with Some p => p | None => (0, 0, 0) end) (h_centroids h)) (set_points h ps) (POrd 2) (Some (h_encloses h))) by (intro; reflexivity).
      rewrite J1, EG in E'. injection E' as <-. cbn [in_force] in F2.
      rewrite (map_ext _ (fun c => match proj c with Some p => p | None => (0, 0, 0) end)); [exact F2|].
      intros [[x y] z]. unfold proj. rewrite project_spec. unfold vx, vy, vz. cbn [fst snd]. destruct (Req_EM_T _ 0); reflexivity.
  - cbn zeta in SP |- *. destruct SP as [SP ->] || idtac. destruct SP as [A B]. split; [split; [exact A|exact B]|]. intros m Hm. apply char_order_least; assumption.
Qed.

(** * Examples *)
Definition octa_faces : list face := [(0, 2, 4); (1, 3, 5)]%nat.
Definition octa_hull : hull := Hull octahedron [1; 1; 1; 1; 1; 1] 1 (0, 0, 0) octa_faces
  (map (centroid octahedron) octa_faces) (map (face_area octahedron) octa_faces) (map (face_normal octahedron) octa_faces)
  octa_faces octa_faces None None.
Definition octa_setup : setup := Setup octa_hull (Some octa_hull) (Some (octahedron, 1%nat)) (Some 1%nat).
Lemma octa_nz : forall p, In p octahedron -> p <> (0, 0, 0).
Proof. intros p Hp E. unfold octahedron in Hp. cbn in Hp. repeat destruct Hp as [<-|Hp]; try (injection E; intros; lra). destruct Hp. Qed.
Lemma octa_ready : ambi_ready octa_setup octa_hull octahedron.
Proof. split; [reflexivity|]. split; [exists 1%nat; reflexivity|]. exact octa_nz. Qed.
Lemma octa_fresh : fresh_hull octa_hull.
Proof.
  split; [reflexivity|]. split; [reflexivity|]. split.
  - repeat constructor; cbn; lia.
  - repeat constructor; unfold independent, dot3, cross3, vx, vy, vz; cbn [h_points octa_hull octahedron nth fst snd]; lra.
Qed.
Lemma octa_dist : forall d, In d (h_d octa_hull) -> dist_gain d (h_a octa_hull) = 1.
Proof.
  intros d Hd. assert (d = 1) as -> by (cbn in Hd; repeat destruct Hd as [<-|Hd]; auto; destruct Hd).
  unfold dist_gain. destruct (Req_EM_T 1 0); [lra|]. rewrite ln_1, Rmult_0_r. apply exp_0.
Qed.
Lemma octa_cones : forall p, In p octahedron -> exists f, In f (h_valid octa_hull) /\ inside_cone (h_points octa_hull) f p.
Proof.
  intros p Hp. pose proof (octa_nz p Hp) as NZ. unfold octahedron in Hp. cbn in Hp.
  repeat destruct Hp as [<-|Hp]; [exists (0, 2, 4)%nat|exists (1, 3, 5)%nat|exists (0, 2, 4)%nat|exists (1, 3, 5)%nat|exists (0, 2, 4)%nat|exists (1, 3, 5)%nat|destruct Hp];
    (split; [cbn; auto|]); (split; [exact NZ|]);
    [exists (1, 0, 0)|exists (1, 0, 0)|exists (0, 1, 0)|exists (0, 1, 0)|exists (0, 0, 1)|exists (0, 0, 1)];
    unfold vx, vy, vz; cbn [fst snd]; repeat (split; [lra|]); unfold combines; cbn [h_points octa_hull octahedron nth]; unfold add3, scal3, vx, vy, vz; cbn [fst snd]; tuple3; ring.
Qed.
Lemma octa_angles : angles_of octahedron octa_azi octa_zen.
Proof.
  split; [reflexivity|]. split; [reflexivity|]. pose proof PI_RGT_0. intros i Hi. cbn [length octahedron] in Hi.
  unfold octa_azi, octa_zen, octahedron.
  do 6 (destruct i as [|i]; [cbn [nth]; split; [lra|exists 1; split; [lra|]; unfold sph2cart; rewrite ?cos_PI2, ?sin_PI2, ?cos_PI, ?sin_PI, ?cos_0, ?sin_0, ?cos_3PI2, ?sin_3PI2; unfold scal3, vx, vy, vz; cbn [fst snd]; tuple3; ring]|]).
  lia.
Qed.

(** tetrahedron, order 1: a square system *)
Definition tetra : list V3 := [(1, 1, 1); (1, -1, -1); (-1, 1, -1); (-1, -1, 1)].
Definition tetra_hull : hull := Hull tetra (map norm3 tetra) 1 (0, 0, 0) [] [] [] [] [] [] None None.
Definition tetra_setup : setup := Setup tetra_hull None None (Some 1%nat).
Definition tetra_pinv (Y : mat) : mat := mscal PI (mtr Y).
Definition tetra_svd (Y : mat) : mat * list R * mat := (mscal (sqrt PI) Y, repeat (/ sqrt PI) 4, meye 4).
Lemma tetra_Y : exists Y c, ls_matrix 1 tetra_hull = Ok (Some Y) /\ nr Y = 4%nat /\ nc Y = 4%nat /\ c * c = / (4 * PI) /\
  forall i, (i < 4)%nat -> ent Y i 0 = c /\ ent Y i 1 = c * vy (nth i tetra (0,0,0)) /\ ent Y i 2 = c * vz (nth i tetra (0,0,0)) /\ ent Y i 3 = c * vx (nth i tetra (0,0,0)).
Proof.
  assert (NZ : forall p, In p (h_points tetra_hull) -> p <> (0, 0, 0)).
  { intros p Hp E. cbn in Hp. repeat destruct Hp as [<-|Hp]; try (injection E; intros; lra). destruct Hp. }
  destruct (ls_matrix_ok 1 tetra_hull NZ) as (Y & E & RY & CY & NY). destruct (dirs_ok_angles _ NZ) as (azi & zen & _ & A).
  exists Y, (/ sqrt (4 * PI)). split; [exact E|]. split; [exact RY|]. split; [exact CY|]. pose proof PI_RGT_0.
  assert (SP : 0 < sqrt (4 * PI)) by (apply sqrt_lt_R0; lra). split.
  { rewrite <- Rinv_mult, sqrt_sqrt by lra. reflexivity. }
  intros i Hi. pose proof A as (_ & _ & A'). destruct (A' i Hi) as [Zn AM]. pose proof (aims_unit _ _ (unit_dir _ _) AM) as (_ & U & _).
  pose proof (NY azi zen i 0%nat 0%nat A Hi ltac:(lia) ltac:(lia)) as Y0.
  pose proof (NY azi zen i 1%nat 0%nat A Hi ltac:(lia) ltac:(lia)) as Y1.
  pose proof (NY azi zen i 1%nat 1%nat A Hi ltac:(lia) ltac:(lia)) as Y2.
  pose proof (NY azi zen i 1%nat 2%nat A Hi ltac:(lia) ltac:(lia)) as Y3.
  cbn [Nat.mul Nat.add] in Y0, Y1, Y2, Y3.
  change (Z.of_nat 0 - Z.of_nat 0)%Z with 0%Z in Y0. change (Z.of_nat 0 - Z.of_nat 1)%Z with (-1)%Z in Y1.
  change (Z.of_nat 1 - Z.of_nat 1)%Z with 0%Z in Y2. change (Z.of_nat 2 - Z.of_nat 1)%Z with 1%Z in Y3.
  rewrite sh_real_Yz in Y0, Y1, Y2, Y3 by (apply sin_nonneg; exact Zn). rewrite U in Y0, Y1, Y2, Y3. rewrite Yz00 in Y0.
  destruct (Yz1 (unit3 (nth i (h_points tetra_hull) (0,0,0)))) as (B1 & B2 & B3). rewrite B1 in Y1. rewrite B2 in Y2. rewrite B3 in Y3.
  assert (N3 : norm3 (nth i tetra (0,0,0)) = sqrt 3).
  { unfold norm3, dot3, vx, vy, vz. do 4 (destruct i as [|i]; [cbn [nth tetra fst snd]; f_equal; ring|]). lia. }
  assert (Q3 : sqrt (3 / (4 * PI)) = sqrt 3 * / sqrt (4 * PI)) by (apply sqrt_div_alt; lra).
  assert (P3 : 0 < sqrt 3) by (apply sqrt_lt_R0; lra).
  rewrite Y0, Y1, Y2, Y3. cbn [h_points tetra_hull]. unfold unit3. rewrite N3, Q3.
  split; [reflexivity|]. unfold scal3, vx, vy, vz. cbn [fst snd]. repeat split; field; split; lra.
Qed.
Lemma tetra_ok : exists Y, ls_matrix 1 (s_hull tetra_setup) = Ok (Some Y) /\ sector_grid Y 4 /\ left_invertible Y /\ penrose Y (tetra_pinv Y) /\
  is_svd Y (mscal (sqrt PI) Y) (repeat (/ sqrt PI) 4) (meye 4).
Proof.
  destruct tetra_Y as (Y & c & E & RY & CY & CC & NY). exists Y. split; [exact E|]. pose proof PI_RGT_0.
  assert (G : sector_grid Y 4).
  { intros a b Ha Hb. rewrite CY in Ha, Hb. cbn [rsum].
    destruct (NY 0%nat ltac:(lia)) as (A0 & A1 & A2 & A3). destruct (NY 1%nat ltac:(lia)) as (B0 & B1 & B2 & B3).
    destruct (NY 2%nat ltac:(lia)) as (C0 & C1 & C2 & C3). destruct (NY 3%nat ltac:(lia)) as (D0 & D1 & D2 & D3).
    unfold vx, vy, vz in *. cbn [nth tetra fst snd] in *. replace (INR 4 / (4 * PI)) with (4 * (c * c)) by (rewrite CC; simpl; field; lra).
    destruct a as [|[|[|[|a]]]]; [| | | |lia]; (destruct b as [|[|[|[|b]]]]; [| | | |lia]);
    rewrite ?A0, ?A1, ?A2, ?A3, ?B0, ?B1, ?B2, ?B3, ?C0, ?C1, ?C2, ?C3, ?D0, ?D1, ?D2, ?D3; unfold delta; cbn [Nat.eqb]; ring. }
  assert (HR : forall i j, (i < 4)%nat -> (j < 4)%nat -> rsum 4 (fun k => ent Y i k * ent Y j k) = / PI * delta i j).
  { intros i j Hi Hj. cbn [rsum].
    destruct (NY 0%nat ltac:(lia)) as (A0 & A1 & A2 & A3). destruct (NY 1%nat ltac:(lia)) as (B0 & B1 & B2 & B3).
    destruct (NY 2%nat ltac:(lia)) as (C0 & C1 & C2 & C3). destruct (NY 3%nat ltac:(lia)) as (D0 & D1 & D2 & D3).
    unfold vx, vy, vz in *. cbn [nth tetra fst snd] in *. replace (/ PI) with (4 * (c * c)) by (rewrite CC; field; lra).
    destruct i as [|[|[|[|i]]]]; [| | | |lia]; (destruct j as [|[|[|[|j]]]]; [| | | |lia]);
    rewrite ?A0, ?A1, ?A2, ?A3, ?B0, ?B1, ?B2, ?B3, ?C0, ?C1, ?C2, ?C3, ?D0, ?D1, ?D2, ?D3; unfold delta; cbn [Nat.eqb]; ring. }
  split; [exact G|]. split; [exact (sector_left Y 4 ltac:(lia) RY G)|].
  assert (SP : sqrt PI * sqrt PI = PI) by (apply sqrt_sqrt; lra). assert (S0 : 0 < sqrt PI) by (apply sqrt_lt_R0; lra).
  assert (LG : forall a b, (a < 4)%nat -> (b < 4)%nat -> rsum 4 (fun l => ent Y l a * ent Y l b) = / PI * delta a b).
  { intros a b Ha Hb. rewrite G by (rewrite CY; assumption). replace (INR 4 / (4 * PI)) with (/ PI) by (simpl; field; lra). reflexivity. }
  split.
  - assert (PY : forall a b, (a < 4)%nat -> (b < 4)%nat -> mprod 4 (tetra_pinv Y) Y a b = delta a b).
    { intros a b Ha Hb. unfold mprod, tetra_pinv. cbn [mscal mtr ent]. rewrite (rsum_ext 4 _ (fun k => PI * (ent Y k a * ent Y k b))) by (intros; ring).
      rewrite rsum_scal, LG by assumption. field. lra. }
    assert (YP : forall a b, (a < 4)%nat -> (b < 4)%nat -> mprod 4 Y (tetra_pinv Y) a b = delta a b).
    { intros a b Ha Hb. unfold mprod, tetra_pinv. cbn [mscal mtr ent]. rewrite (rsum_ext 4 _ (fun k => PI * (ent Y a k * ent Y b k))) by (intros; ring).
      rewrite rsum_scal, HR by assumption. field. lra. }
    unfold penrose. rewrite RY, CY. split; [exact CY|]. split; [exact RY|].
    split; [intros i j Hi Hj; rewrite (rsum_ext 4 _ (fun k => delta i k * ent Y k j)) by (intros k Hk; rewrite YP by assumption; reflexivity); exact (rsum_delta_l 4 i (fun k => ent Y k j) Hi)|].
    split; [intros i j Hi Hj; rewrite (rsum_ext 4 _ (fun k => delta i k * ent (tetra_pinv Y) k j)) by (intros k Hk; rewrite PY by assumption; reflexivity); exact (rsum_delta_l 4 i (fun k => ent (tetra_pinv Y) k j) Hi)|].
    split; intros i j Hi Hj; [rewrite !YP by assumption|rewrite !PY by assumption]; apply delta_sym.
  - unfold is_svd, orthogonal. rewrite RY, CY. cbn [mscal meye nr nc ent]. split.
    { split; [exact RY|]. split; [exact CY|]. split; intros i j Hi Hj.
      - rewrite (rsum_ext 4 _ (fun k => PI * (ent Y k i * ent Y k j))) by (intros; rewrite <- SP at 3; ring). rewrite rsum_scal, LG by assumption. field. lra.
      - rewrite (rsum_ext 4 _ (fun k => PI * (ent Y i k * ent Y j k))) by (intros; rewrite <- SP at 3; ring). rewrite rsum_scal, HR by assumption. field. lra. }
    split.
    { split; [reflexivity|]. split; [reflexivity|]. split; intros i j Hi Hj.
      - change (rsum 4 (fun k => delta k i * delta k j) = delta i j).
        rewrite (rsum_ext 4 _ (fun k => delta i k * delta k j)) by (intros k Hk; rewrite (delta_sym k i); reflexivity). exact (rsum_delta_l 4 i (fun k => delta k j) Hi).
      - change (rsum 4 (fun k => delta i k * delta j k) = delta i j). rewrite (rsum_delta_l 4 i (fun k => delta j k) Hi). apply delta_sym. }
    split; [reflexivity|]. split; [intros x Hx; apply repeat_spec in Hx; subst x; left; apply Rinv_0_lt_compat; exact S0|].
    intros i j Hi Hj. rewrite repeat_length.
    rewrite (rsum_ext 4 _ (fun k => ent Y i k * delta k j)).
    + symmetry. exact (rsum_delta_r 4 j (fun k => ent Y i k) Hj).
    + intros k Hk. rewrite nth_repeat_in by exact Hk. change (sqrt PI * ent Y i k * / sqrt PI * delta k j = ent Y i k * delta k j). field. lra.
Qed.

(** one triangle of the octahedron: the energy vector of its centre has length
    1/sqrt 3, so an order is found *)
Definition tri_hull : hull := Hull octahedron [1; 1; 1; 1; 1; 1] 1 (0, 0, 0) [(0, 2, 4)%nat]
  (map (centroid octahedron) [(0, 2, 4)%nat]) [] [] [(0, 2, 4)%nat] [(0, 2, 4)%nat] None None.
Lemma norm3_one x y z : x * x + y * y + z * z = 1 -> unit3 (x, y, z) = (x, y, z).
Proof.
  intro E. unfold unit3. replace (norm3 (x, y, z)) with 1 by (unfold norm3, dot3, vx, vy, vz; cbn [fst snd]; rewrite E, sqrt_1; reflexivity).
  unfold scal3, vx, vy, vz. cbn [fst snd]. tuple3; field.
Qed.
Lemma proj_one x y z : x * x + y * y + z * z = 1 -> proj (x, y, z) = Some (x, y, z).
Proof.
  intro E. unfold proj. rewrite project_spec. unfold vx, vy, vz. cbn [fst snd]. destruct (Req_EM_T _ 0) as [Z0|_].
  - unfold dot3, vx, vy, vz in Z0. cbn [fst snd] in Z0. lra.
  - f_equal. apply norm3_one. exact E.
Qed.
Lemma tri_ok : hull_wf tri_hull /\ h_vbase tri_hull = None /\ Forall (in_range (length (h_points tri_hull))) (h_encloses tri_hull) /\
  Forall (independent (map unit3 octahedron)) (h_encloses tri_hull) /\ exists n, characteristic_ambisonic_order adj_lstsq tri_hull = Ok n.
Proof.
  split; [reflexivity|]. split; [reflexivity|].
  assert (IR : Forall (in_range 6) (h_encloses tri_hull)) by (repeat constructor; cbn; lia). split; [exact IR|].
  assert (MU : map unit3 octahedron = octahedron) by (unfold octahedron; cbn [map]; rewrite !norm3_one by ring; reflexivity).
  assert (IN : Forall (independent octahedron) (h_encloses tri_hull)).
  { repeat constructor; unfold independent, dot3, cross3, vx, vy, vz; cbn [octahedron nth fst snd]; lra. }
  rewrite MU. split; [exact IN|].
  unfold characteristic_ambisonic_order.
  assert (MP : mapO proj (h_points tri_hull) = Some octahedron).
  { cbn [h_points tri_hull octahedron mapO]. rewrite !proj_one by ring. reflexivity. }
  rewrite MP. change (set_points tri_hull octahedron) with tri_hull.
  set (src := map _ (h_centroids tri_hull)).
  assert (SR : exists q, src = [q] /\ exists k, 0 < k /\ q = scal3 k (1, 1, 1)).
  { unfold src, tri_hull. cbn [h_centroids map]. eexists. split; [reflexivity|]. unfold centroid, octahedron. cbn [nth].
    match goal with |- context [proj ?v] => replace v with (scal3 (1/3) (1, 1, 1)) end.
    2:{ unfold fpts, vmean, vsum3, pt. cbn [nth fold_right length]. unfold scal3, add3, vx, vy, vz. cbn [fst snd INR]. tuple3; field. }
    unfold scal3, vx, vy, vz. cbn [fst snd]. unfold proj, vx, vy, vz. cbn [fst snd]. rewrite project_spec. destruct (Req_EM_T _ 0) as [Z0|_].
    - unfold dot3, vx, vy, vz in Z0. cbn [fst snd] in Z0. lra.
    - unfold unit3. set (n := norm3 _). assert (NP : 0 < n). { unfold n, norm3, dot3, vx, vy, vz. cbn [fst snd]. apply sqrt_lt_R0. lra. }
      exists (1 / n * (1 / 3)). split; [apply Rmult_lt_0_compat; [apply Rdiv_lt_0_compat; lra|lra]|]. unfold scal3, vx, vy, vz. cbn [fst snd]. tuple3; field; lra. }
  destruct SR as (q & SQ & k & K & Eq). rewrite SQ.
  destruct (vbap_rows_final adj_lstsq (POrd 2) 1 [0; 0; 0]%nat [q] tri_hull (Some (h_encloses tri_hull)) adj_contract Rlt_0_2 eq_refl eq_refl IR IN ltac:(lia)) as (rows & EV & F2).
  { intros i Hi. cbn [length] in Hi. replace i with 0%nat by lia. cbn. lia. }
  change (vbap_hull adj_lstsq 1 [0; 0; 0]%nat [q] tri_hull (POrd 2) (Some (h_encloses tri_hull))) with (vbap_hull adj_lstsq 1 [] [q] tri_hull (POrd 2) (Some (h_encloses tri_hull))) in EV.
  rewrite EV. cbn [bind]. inversion F2 as [|? row ? rs PR F2' E1 E2]. subst rows. inversion F2'. subst rs.
  assert (RW : exists s, s * s = 1 / 3 /\ row = [s; 0; s; 0; s; 0]).
  { destruct PR as [LR [[i [g [Hi [[U [P [k' [K' C]]]] [_ E]]]]]|[N _]]].
    - cbn in Hi. replace i with 0%nat in * by lia. cbn [in_force tri_hull h_encloses nth] in C, E. cbn [h_points tri_hull] in *.
      unfold combines in C. cbn [octahedron nth] in C. rewrite Eq in C. unfold add3, scal3, vx, vy, vz in C. cbn [fst snd] in C. destruct g as [[g1 g2] g3]. cbn [fst snd] in C.
      injection C as C1 C2 C3. apply (proj1 (unit_norm_two _)) in U. unfold vx, vy, vz in U. cbn in U.
      exists (k' * k). assert (g1 = k' * k) by lra. assert (g2 = k' * k) by lra. assert (g3 = k' * k) by lra. subst g1 g2 g3. split; [lra|].
      assert (DG : dist_gain 1 1 = 1) by (unfold dist_gain; destruct (Req_EM_T 1 0); [lra|]; rewrite ln_1, Rmult_0_r; apply exp_0).
      cbn [length octahedron] in LR. destruct row as [|r0 [|r1 [|r2 [|r3 [|r4 [|r5 [|]]]]]]]; try discriminate LR.
      pose proof (E 0%nat ltac:(cbn; lia)) as E0. pose proof (E 1%nat ltac:(cbn; lia)) as E1'. pose proof (E 2%nat ltac:(cbn; lia)) as E2'.
      pose proof (E 3%nat ltac:(cbn; lia)) as E3. pose proof (E 4%nat ltac:(cbn; lia)) as E4. pose proof (E 5%nat ltac:(cbn; lia)) as E5.
      cbn [nth h_d h_a tri_hull] in E0, E1', E2', E3, E4, E5. rewrite DG in E0, E1', E2', E3, E4, E5. unfold on_face, delta, vx, vy, vz in E0, E1', E2', E3, E4, E5.
      cbn [Nat.eqb fst snd] in E0, E1', E2', E3, E4, E5. rewrite E0, E1', E2', E3, E4, E5. repeat (apply f_equal2; [ring|]). reflexivity.
    - exfalso. destruct (cone_pans (POrd 2) Rlt_0_2 octahedron (0, 2, 4)%nat q) as [g P].
      + inversion IN; assumption.
      + rewrite Eq. split; [unfold scal3, vx, vy, vz; cbn [fst snd]; intro Z0; injection Z0; intros; lra|].
        exists (k, k, k). unfold vx, vy, vz. cbn [fst snd]. repeat (split; [lra|]). unfold combines. cbn [octahedron nth]. unfold add3, scal3, vx, vy, vz. cbn [fst snd]. tuple3; ring.
      + apply (N (0, 2, 4)%nat g); [cbn; auto|exact P]. }
  destruct RW as (t & T & ->). rewrite (rE_rows octahedron) by reflexivity. cbn [bind map].
  assert (RE : r_E_row octahedron [t; 0; t; 0; t; 0] = (Some (1/3, 1/3, 1/3), sqrt (1 / 3))).
  { unfold r_E_row. cbn [map]. rewrite T. replace (lsum [1 / 3; 0 * 0; 1 / 3; 0 * 0; 1 / 3; 0 * 0]) with 1 by (cbn; field).
    destruct (Reqb 1 0) eqn:Z0; [apply Reqb_true in Z0; lra|].
    set (v := vsum _). assert (V : v = (1/3, 1/3, 1/3)).
    { unfold v, vsum, octahedron. cbn [combine map fold_right fst snd]. unfold add3, scal3, vx, vy, vz. cbn [fst snd]. tuple3; field. }
    rewrite V. unfold scal3, vx, vy, vz. cbn [fst snd]. apply f_equal2.
    - f_equal. tuple3; field.
    - f_equal. unfold dot3, vx, vy, vz. cbn [fst snd]. field. }
  rewrite RE. cbn [mapO snd].
  assert (S13 : 0 < sqrt (1 / 3) < 1). { split; [apply sqrt_lt_R0; lra|]. rewrite <- sqrt_1 at 2. apply sqrt_lt_1; lra. }
  unfold np_acos. rewrite (proj2 (Rleb_true _ _)) by lra. rewrite (proj2 (Rleb_true _ _)) by lra. cbn [andb map length Nat.eqb].
  set (avg := lsum _ / INR 1). destruct (Reqb avg 0) eqn:Z0; [|eexists; reflexivity]. exfalso. apply Reqb_true in Z0.
  assert (AP : 0 < acos (sqrt (1 / 3))).
  { destruct (acos_bound (sqrt (1 / 3))) as [A0 _]. destruct A0 as [|A0]; [assumption|]. exfalso. pose proof (cos_acos (sqrt (1/3)) ltac:(lra)) as C. rewrite <- A0, cos_0 in C. lra. }
  pose proof PI_RGT_0. unfold avg in Z0. cbn in Z0. assert (0 < 180 / PI) by (apply Rdiv_lt_0_compat; lra).
  assert (0 < 2 * acos (sqrt (1 / 3)) * (180 / PI)) by (apply Rmult_lt_0_compat; lra). lra.
Qed.
Lemma unit_energy_refuted : exists lstsq3 s h kp src azk zek N G s', lstsq3_contract lstsq3 /\ ambi_ready s h kp /\ fresh_hull h /\ h_imag h = None /\
  (forall d, In d (h_d h) -> dist_gain d (h_a h) = 1) /\ (forall p, In p kp -> exists f, In f (h_valid h) /\ inside_cone (h_points h) f p) /\
  angles_of kp azk zek /\ exact_for sh_real (2 * N) azk zek (equal_weights (length kp)) /\
  allrap2 lstsq3 1 [] src s (Some N) = (Ok (Some G), s') /\ rsum (nc G) (fun l => ent G 0 l ^ 2) <> 1.
Proof.
  destruct (allrap2_final adj_lstsq 1 [0;0;0;1;1;1;2;2;2;3;3;3;4;4;4;5;5;5]%nat [(1, 2, 3)] octa_setup (Some 1%nat) octa_hull octahedron 1 octa_azi octa_zen 0
    adj_contract octa_ready octa_fresh (or_introl eq_refl) ltac:(lia)) as (G & s' & E & _ & _ & _ & LT).
  - intros i Hi. cbn [length octahedron] in Hi. do 6 (destruct i as [|i]; [cbn; lia|]). lia.
  - intros p [<-|[]] Z0. injection Z0. intros. lra.
  - reflexivity.
  - exact octa_dist.
  - exact octa_cones.
  - exact octa_angles.
  - exact octa_grid.
  - cbn; lia.
  - cbn; lia.
  - exists adj_lstsq, octa_setup, octa_hull, octahedron, [(1, 2, 3)], octa_azi, octa_zen, 1%nat, G, s'.
    split; [exact adj_contract|]. split; [exact octa_ready|]. split; [exact octa_fresh|]. split; [reflexivity|]. split; [exact octa_dist|]. split; [exact octa_cones|].
    split; [exact octa_angles|]. split; [exact octa_grid|]. split; [exact E|]. lra.
Qed.
Lemma none_kernel_refuted : exists chull lstsq3 nd s, s_order s = Some 1%nat /\
  fst (ambisonics_setup chull lstsq3 nd s false None None None) = Err TypeError /\
  fst (ambisonics_setup chull lstsq3 nd s false None None (Some 1%nat)) = Ok tt.
Proof. exists (fun _ => octa_faces), adj_lstsq, (fun _ => octahedron), octa_setup. repeat split. Qed.
