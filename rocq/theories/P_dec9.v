(** SAD, MAD and EPAD. *)
From Verif Require Import Base BaseFacts M_utils M_sph0 M_sig M_process M_sph M_grids M_decoder M_decoder2
  S_utils S_sph S_grids S_decoder S_decoder2 P_utils P_sig P_sph7 P_sph9 P_sph10 P_sph11 P_sph12 P_sph13 P_grids3 P_dec6 P_dec7 P_dec8.
Open Scope R_scope.

Lemma ls_matrix_ok N h : (forall p, In p (h_points h) -> p <> (0, 0, 0)) -> exists Y, ls_matrix N h = Ok (Some Y) /\
  nr Y = length (h_points h) /\ nc Y = ((N + 1) ^ 2)%nat /\
  forall azi zen i n k, angles_of (h_points h) azi zen -> (i < length (h_points h))%nat -> (n <= N)%nat -> (k < 2 * n + 1)%nat ->
    ent Y i (n * n + k) = sh_real n (Z.of_nat k - Z.of_nat n) (nth i azi 0) (nth i zen 0).
Proof.
  intro NZ. destruct (dirs_ok_angles _ NZ) as (azi & zen & D & A). assert (A' := A). destruct A' as [L1 [L2 _]].
  destruct (sh_matrix_ok N azi zen ltac:(congruence)) as (Y & E & RY & CY & NY).
  exists Y. unfold ls_matrix. rewrite D. cbn [orsome fst snd]. rewrite E. cbn [bind]. split; [reflexivity|]. split; [congruence|]. split; [exact CY|].
  intros azi' zen' i n k A' Hi Hn Hk. rewrite NY by lia. apply (angles_sh (h_points h)); assumption.
Qed.
Lemma ls_matrix_dims N h Y : ls_matrix N h = Ok (Some Y) -> nr Y = length (h_points h) /\ nc Y = ((N + 1) ^ 2)%nat.
Proof.
  intro E. assert (NZ : forall p, In p (h_points h) -> p <> (0, 0, 0)).
  { unfold ls_matrix in E. destruct (dirs (h_points h)) as [[a z]|] eqn:D; [|discriminate]. exact (dirs_inv _ _ _ D). }
  destruct (ls_matrix_ok N h NZ) as (Y' & E' & R & C & _). rewrite E in E'. injection E' as <-. auto.
Qed.
Lemma order_le N n : ((N + 1) ^ 2 <= n)%nat -> (Z.of_nat N <=? order_of n)%Z = true.
Proof.
  intro H. apply Z.leb_le. pose proof (sq_ge1 N). rewrite order_of_sqrt by lia.
  assert (N + 1 <= Nat.sqrt n)%nat; [|lia]. rewrite <- (sqrt_sq_nat N). apply Nat.sqrt_le_mono. exact H.
Qed.
Lemma order_lt N n : (n < (N + 1) ^ 2)%nat -> (Z.of_nat N <=? order_of n)%Z = false.
Proof.
  intro H. apply Z.leb_gt. destruct n as [|n].
  - unfold order_of. cbn [INR]. rewrite sqrt_0. replace (0 - 1) with (-1) by ring.
    assert (E : py_int (-1) = (-1)%Z); [|rewrite E; lia]. unfold py_int. rewrite (proj2 (Rleb_false 0 (-1))) by lra.
    replace (Int_part (- -1)) with 1%Z; [reflexivity|]. symmetry. apply int_part_unique. simpl. lra.
  - rewrite order_of_sqrt by lia. pose proof (Nat.sqrt_spec' (S n)) as [A B]. rewrite sq2 in H.
    assert (Nat.sqrt (S n) < N + 1)%nat; [|lia]. destruct (Nat.lt_ge_cases (Nat.sqrt (S n)) (N + 1)) as [|G]; auto.
    assert ((N + 1) * (N + 1) <= Nat.sqrt (S n) * Nat.sqrt (S n))%nat by (apply Nat.mul_le_mono; assumption). lia.
Qed.

Lemma decode_ok N h F (f : mat -> res mat) Y D : ls_matrix N h = Ok (Some Y) -> f Y = Ok D -> nc D = ((N + 1) ^ 2)%nat -> ((N + 1) ^ 2 <= nr F)%nat ->
  exists LS, decode_with N h F f = Ok (Some LS) /\ product D (first_rows ((N + 1) ^ 2) F) LS.
Proof.
  intros EY ED CD RF. unfold decode_with. rewrite EY. cbn [bind orsome]. rewrite ED. cbn [bind].
  assert (M : Nat.min ((N + 1) ^ 2) (nr F) = ((N + 1) ^ 2)%nat) by lia.
  rewrite matmul_ok by (cbn [first_rows nr]; congruence). cbn [bind]. eexists. split; [reflexivity|].
  unfold product. cbn [nr nc ent first_rows]. rewrite M. auto.
Qed.
Lemma isometry_energy c D F LS t : isometry c D -> product D F LS -> (t < nc F)%nat -> col_energy LS t = c * col_energy F t.
Proof.
  intros I (E1 & E2 & E3 & E4) Ht. unfold col_energy. rewrite E2.
  rewrite (rsum_ext (nr D) _ (fun l => rsum (nc D) (fun a => rsum (nc D) (fun b => ent F a t * ent F b t * (ent D l a * ent D l b))))).
  - rewrite rsum_swap. rewrite <- rsum_scal. rewrite E1. apply rsum_ext. intros a Ha. rewrite rsum_swap.
    rewrite (rsum_ext (nr F) _ (fun b => delta a b * (c * ent F a t * ent F b t))).
    + rewrite (rsum_delta_l (nr F) a (fun b => c * ent F a t * ent F b t) Ha). ring.
    + intros b Hb. rewrite rsum_scal. rewrite I by lia. ring.
  - intros l Hl. rewrite E4 by assumption. rewrite rsum_mult. apply rsum_ext. intros a Ha. apply rsum_ext. intros b Hb. ring.
Qed.
Lemma first_rows_energy k F t : (k <= nr F)%nat -> col_energy (first_rows k F) t = rsum k (fun i => ent F i t * ent F i t).
Proof. intro H. unfold col_energy, first_rows. cbn [nr ent]. replace (Nat.min k (nr F)) with k by lia. reflexivity. Qed.
Lemma INR_sq_pos N : 0 < INR ((N + 1) ^ 2). Proof. apply lt_0_INR. pose proof (sq_ge1 N). lia. Qed.

(** ** SAD *)
Lemma sqrt_sq_mult a b : 0 <= a -> 0 <= b -> sqrt a * sqrt b * (sqrt a * sqrt b) = a * b.
Proof. intros A B. replace (sqrt a * sqrt b * (sqrt a * sqrt b)) with ((sqrt a * sqrt a) * (sqrt b * sqrt b)) by ring. rewrite !sqrt_sqrt by assumption. reflexivity. Qed.
Lemma frac_nonneg a b : 0 <= a -> 0 < b -> 0 <= a / b.
Proof. intros A B. apply Rmult_le_pos; [exact A|]. apply Rlt_le, Rinv_0_lt_compat, B. Qed.
Definition sad_D (N L : nat) (Y : mat) : mat := mscal (sqrt (4 * PI / INR L)) (mscal (sqrt (4 * PI / INR ((N + 1) ^ 2))) Y).
Lemma sad_ok lstsq3 F s N Y : ls_matrix N (s_hull s) = Ok (Some Y) -> ((N + 1) ^ 2 <= nr F)%nat ->
  exists LS, sad lstsq3 F s (Some N) = Ok (Some LS) /\ product (sad_D N (length (h_points (s_hull s))) Y) (first_rows ((N + 1) ^ 2) F) LS.
Proof.
  intros EY RF. destruct (ls_matrix_dims _ _ _ EY) as [RY CY]. unfold sad, decoder_order. cbn [bind]. rewrite order_le by exact RF. cbn [assert_ bind].
  destruct (decode_ok N (s_hull s) F (fun Y => Ok (sad_D N (length (h_points (s_hull s))) Y)) Y _ EY eq_refl) as (LS & E & P); [exact CY|exact RF|].
  exists LS. split; [exact E|exact P].
Qed.
Lemma sad_isometry N L Y : (0 < L)%nat -> nr Y = L -> sector_grid Y L -> isometry (4 * PI / INR ((N + 1) ^ 2)) (sad_D N L Y).
Proof.
  intros LP RY G a b Ha Hb. cbn [sad_D mscal nr nc ent] in *. rewrite RY. pose proof PI_RGT_0. pose proof (lt_0_INR _ LP). pose proof (INR_sq_pos N).
  rewrite (rsum_ext L _ (fun l => (4 * PI / INR L) * (4 * PI / INR ((N + 1) ^ 2)) * (ent Y l a * ent Y l b))).
  - rewrite rsum_scal, G by assumption. field. repeat split; lra.
  - intros l Hl. pose proof (sqrt_sq_mult (4 * PI / INR L) (4 * PI / INR ((N + 1) ^ 2)) ltac:(apply frac_nonneg; lra) ltac:(apply frac_nonneg; lra)) as SQ.
    rewrite <- SQ. ring.
Qed.

(** ** MAD *)
Definition mad_D (N L : nat) (P : mat) : mat := mscal (sqrt (INR L / INR ((N + 1) ^ 2))) (mtr P).
Lemma mad_ok lstsq3 pinv F s N Y : ls_matrix N (s_hull s) = Ok (Some Y) -> penrose Y (pinv Y) -> ((N + 1) ^ 2 <= nr F)%nat ->
  exists LS, mad lstsq3 pinv F s (Some N) = Ok (Some LS) /\ product (mad_D N (length (h_points (s_hull s))) (pinv Y)) (first_rows ((N + 1) ^ 2) F) LS.
Proof.
  intros EY PE RF. destruct (ls_matrix_dims _ _ _ EY) as [RY CY]. unfold mad, decoder_order. cbn [bind]. rewrite order_le by exact RF. cbn [assert_ bind].
  destruct (decode_ok N (s_hull s) F (fun Y => Ok (mad_D N (length (h_points (s_hull s))) (pinv Y))) Y _ EY eq_refl) as (LS & E & P).
  - cbn [mad_D mscal mtr nc]. destruct PE as [R _]. congruence.
  - exact RF.
  - exists LS. split; [exact E|exact P].
Qed.
Lemma sector_left Y L : (0 < L)%nat -> nr Y = L -> sector_grid Y L -> left_invertible Y.
Proof.
  intros LP RY G. pose proof PI_RGT_0. pose proof (lt_0_INR _ LP). exists (mscal (4 * PI / INR L) (mtr Y)). intros a b Ha Hb.
  unfold mprod. cbn [mscal mtr ent]. rewrite RY.
  rewrite (rsum_ext L _ (fun k => 4 * PI / INR L * (ent Y k a * ent Y k b))) by (intros; ring).
  rewrite rsum_scal, G by assumption. field. split; lra.
Qed.
(** the pseudo-inverse on such layouts *)
Lemma sector_pinv Y P L : (0 < L)%nat -> nr Y = L -> sector_grid Y L -> penrose Y P ->
  forall a l, (a < nc Y)%nat -> (l < L)%nat -> ent P a l = 4 * PI / INR L * ent Y l a.
Proof.
  intros LP RY G PE a l Ha Hl. pose proof PI_RGT_0. pose proof (lt_0_INR _ LP).
  pose proof (penrose_left Y P PE (sector_left Y L LP RY G)) as PL.
  destruct PE as (R & C & P1 & P2 & P3 & P4). rewrite RY in *.
  (* P = P (Y P) = P (Y P)^T = P P^T Y^T;  Y^T Y P = Y^T  *)
  assert (YP : forall b m, (b < nc Y)%nat -> (m < L)%nat -> rsum L (fun k => ent Y k b * mprod (nc Y) Y P k m) = ent Y m b).
  { intros b m Hb Hm. rewrite <- (P1 m b Hm Hb). apply rsum_ext. intros k Hk. rewrite (P3 k m Hk Hm). ring. }
  specialize (YP a l Ha Hl).
  rewrite (rsum_ext L _ (fun k => rsum (nc Y) (fun b => ent P b l * (ent Y k a * ent Y k b)))) in YP.
  2:{ intros k Hk. unfold mprod. rewrite <- rsum_scal. apply rsum_ext. intros. ring. }
  rewrite rsum_swap in YP.
  rewrite (rsum_ext (nc Y) _ (fun b => delta a b * (INR L / (4 * PI) * ent P b l))) in YP.
  2:{ intros b Hb. rewrite rsum_scal. rewrite G by assumption. ring. }
  rewrite (rsum_delta_l (nc Y) a (fun b => INR L / (4 * PI) * ent P b l) Ha) in YP. rewrite <- YP. field. split; lra.
Qed.
Lemma mad_isometry N L Y P : (0 < L)%nat -> nr Y = L -> sector_grid Y L -> penrose Y P -> isometry (4 * PI / INR ((N + 1) ^ 2)) (mad_D N L P).
Proof.
  intros LP RY G PE a b Ha Hb. pose proof (sector_pinv Y P L LP RY G PE) as SP. destruct PE as (R & C & _).
  cbn [mad_D mscal mtr nr nc ent] in *. rewrite C, RY. rewrite R in Ha, Hb. pose proof PI_RGT_0. pose proof (lt_0_INR _ LP). pose proof (INR_sq_pos N).
  pose proof (sqrt_sqrt (INR L / INR ((N + 1) ^ 2)) ltac:(apply frac_nonneg; lra)) as SQ.
  rewrite (rsum_ext L _ (fun l => INR L / INR ((N + 1) ^ 2) * (4 * PI / INR L) * (4 * PI / INR L) * (ent Y l a * ent Y l b))).
  - rewrite rsum_scal, G by assumption. field. repeat split; lra.
  - intros l Hl. rewrite !SP by assumption. set (x := sqrt _) in *. rewrite <- SQ. ring.
Qed.
(** mode matching: re-encoding the loudspeaker signals gives the input *)
Lemma mad_matches N L Y P F LS : nr Y = L -> penrose Y P -> left_invertible Y -> nr F = nc Y -> product (mad_D N L P) F LS ->
  forall c t, (c < nc Y)%nat -> (t < nc F)%nat -> rsum L (fun l => ent Y l c * ent LS l t) = sqrt (INR L / INR ((N + 1) ^ 2)) * ent F c t.
Proof.
  intros RY PE LI RF (E1 & E2 & E3 & E4) c t Hc Ht. pose proof (penrose_left Y P PE LI) as PL. destruct PE as (R & C & _).
  cbn [mad_D mscal mtr nr nc ent] in *. rewrite C, RY in *. rewrite R in *.
  rewrite (rsum_ext L _ (fun l => rsum (nc Y) (fun k => sqrt (INR L / INR ((N + 1) ^ 2)) * ent F k t * (ent P k l * ent Y l c)))).
  - rewrite rsum_swap. rewrite (rsum_ext (nc Y) _ (fun k => (sqrt (INR L / INR ((N + 1) ^ 2)) * ent F k t) * delta k c)).
    + exact (rsum_delta_r (nc Y) c (fun k => sqrt (INR L / INR ((N + 1) ^ 2)) * ent F k t) Hc).
    + intros k Hk. rewrite rsum_scal. f_equal. exact (PL k c Hk Hc).
  - intros l Hl. rewrite E4 by assumption. rewrite <- rsum_scal. apply rsum_ext. intros. ring.
Qed.
(** and no other loudspeaker signals that match have less energy *)
Lemma mad_least N L Y P F LS X t : nr Y = L -> penrose Y P -> left_invertible Y -> nr F = nc Y -> product (mad_D N L P) F LS -> (t < nc F)%nat ->
  (forall c, (c < nc Y)%nat -> rsum L (fun l => ent Y l c * X l) = sqrt (INR L / INR ((N + 1) ^ 2)) * ent F c t) ->
  col_energy LS t <= rsum L (fun l => X l * X l).
Proof.
  intros RY PE LI RF PR Ht HX. pose proof (mad_matches N L Y P F LS RY PE LI RF PR) as MM.
  pose proof PE as (R & C & P1 & P2 & P3 & P4). pose proof PR as (E1 & E2 & E3 & E4). cbn [mad_D mscal mtr nr nc ent] in E1, E2, E3, E4. rewrite C, RY, ?R in *.
  set (z := fun l => X l - ent LS l t).
  assert (Z0 : forall b, (b < nc Y)%nat -> rsum L (fun q => z q * ent Y q b) = 0).
  { intros b Hb. unfold z. rewrite (rsum_ext L _ (fun q => ent Y q b * X q - ent Y q b * ent LS q t)) by (intros; ring).
    rewrite rsum_minus, HX, MM by assumption. ring. }
  (* LS is in the span of the rows of P, which lie in the range of Y *)
  assert (PZ : forall k, (k < nc Y)%nat -> rsum L (fun l => z l * ent P k l) = 0).
  { intros k Hk. rewrite (rsum_ext L _ (fun l => rsum L (fun m => ent P k m * (z l * mprod (nc Y) Y P l m)))).
    2:{ intros l Hl. rewrite <- (P2 k l Hk Hl).
        rewrite (rsum_ext (nc Y) _ (fun q => rsum L (fun m => ent P k m * (ent Y m q * ent P q l)))) by (intros q Hq; unfold mprod; rewrite <- rsum_scal_r; apply rsum_ext; intros; ring).
        rewrite rsum_swap. rewrite <- rsum_scal. apply rsum_ext. intros m Hm. rewrite rsum_scal. rewrite (P3 l m Hl Hm). unfold mprod. ring. }
    rewrite rsum_swap. apply rsum_0. intros m Hm. rewrite rsum_scal.
    rewrite (rsum_ext L _ (fun l => rsum (nc Y) (fun q => ent P q m * (z l * ent Y l q)))) by (intros l Hl; unfold mprod; rewrite <- rsum_scal; apply rsum_ext; intros; ring).
    rewrite rsum_swap. rewrite (rsum_0 (nc Y)); [ring|]. intros q Hq. rewrite rsum_scal, Z0 by exact Hq. ring. }
  assert (OR : rsum L (fun l => z l * ent LS l t) = 0).
  { rewrite (rsum_ext L _ (fun l => rsum (nc Y) (fun k => sqrt (INR L / INR ((N + 1) ^ 2)) * ent F k t * (z l * ent P k l)))).
    - rewrite rsum_swap. apply rsum_0. intros k Hk. rewrite rsum_scal, PZ by exact Hk. ring.
    - intros l Hl. rewrite E4 by assumption. rewrite <- rsum_scal. apply rsum_ext. intros. ring. }
  unfold col_energy. rewrite E2.
  assert (EX : rsum L (fun l => X l * X l) = rsum L (fun l => ent LS l t * ent LS l t) + 2 * rsum L (fun l => z l * ent LS l t) + rsum L (fun l => z l * z l)).
  { rewrite <- rsum_scal, <- !rsum_plus. apply rsum_ext. intros. unfold z. ring. }
  rewrite EX, OR. pose proof (rsum_sq_nonneg L z). lra.
Qed.

(** ** EPAD *)
Definition epad_D (N L : nat) (U VH : mat) : mat :=
  Mat L ((N + 1) ^ 2) (fun i j => sqrt (INR L / INR ((N + 1) ^ 2)) * (sqrt (4 * PI / INR L) * rsum (Nat.min L ((N + 1) ^ 2)) (fun k => ent U i k * ent VH k j))).
Lemma eye_rect_l U n m i k : nc U = n -> (k < m)%nat -> rsum n (fun q => ent U i q * ent (eye_rect n m) q k) = if Nat.ltb k n then ent U i k else 0.
Proof.
  intros C Hk. cbn [eye_rect ent]. destruct (Nat.ltb_spec k n) as [H|H].
  - rewrite (rsum_single n k); [rewrite Nat.eqb_refl; ring|exact H|]. intros j Hj D. destruct (Nat.eqb_spec j k); [contradiction|ring].
  - apply rsum_0. intros j Hj. destruct (Nat.eqb_spec j k); [lia|ring].
Qed.
Lemma rsum_cut L K f : rsum K (fun k => if Nat.ltb k L then f k else 0) = rsum (Nat.min L K) f.
Proof.
  destruct (Nat.le_gt_cases L K) as [H|H].
  - replace (Nat.min L K) with L by lia. replace K with (L + (K - L))%nat by lia. rewrite rsum_app.
    rewrite (rsum_0 (K - L)); [rewrite Rplus_0_r; apply rsum_ext; intros i Hi; destruct (Nat.ltb_spec i L); [reflexivity|lia]|].
    intros i Hi. destruct (Nat.ltb_spec (L + i) L); [lia|reflexivity].
  - replace (Nat.min L K) with K by lia. apply rsum_ext. intros i Hi. destruct (Nat.ltb_spec i L); [reflexivity|lia].
Qed.
Lemma epad_ok lstsq3 svd F s N Y U sv VH : ls_matrix N (s_hull s) = Ok (Some Y) -> svd Y = (U, sv, VH) -> is_svd Y U sv VH -> ((N + 1) ^ 2 <= nr F)%nat ->
  exists LS, epad lstsq3 svd F s (Some N) = Ok (Some LS) /\ product (epad_D N (length (h_points (s_hull s))) U VH) (first_rows ((N + 1) ^ 2) F) LS.
Proof.
  intros EY ES SV RF. destruct (ls_matrix_dims _ _ _ EY) as [RY CY]. set (L := length (h_points (s_hull s))) in *.
  destruct SV as ((RU & CU & _) & (RV & CV & _) & _). rewrite RY in *. rewrite CY in *.
  unfold epad, decoder_order. cbn [bind]. rewrite order_le by exact RF. cbn [assert_ bind]. fold L.
  assert (E1 : matmul U (eye_rect L ((N + 1) ^ 2)) = Ok (Mat L ((N + 1) ^ 2) (fun i j => rsum L (fun k => ent U i k * ent (eye_rect L ((N + 1) ^ 2)) k j)))).
  { rewrite matmul_ok by exact CU. rewrite RU, CU. reflexivity. }
  set (M1 := Mat L ((N + 1) ^ 2) (fun i j => rsum L (fun k => ent U i k * ent (eye_rect L ((N + 1) ^ 2)) k j))) in *.
  assert (E2 : matmul M1 VH = Ok (Mat L ((N + 1) ^ 2) (fun i j => rsum ((N + 1) ^ 2) (fun k => ent M1 i k * ent VH k j)))).
  { rewrite matmul_ok by (symmetry; exact RV). rewrite CV. reflexivity. }
  set (M2 := Mat L ((N + 1) ^ 2) (fun i j => rsum ((N + 1) ^ 2) (fun k => ent M1 i k * ent VH k j))) in *.
  match goal with |- context [decode_with N (s_hull s) F ?g] => set (f := g) end.
  destruct (decode_ok N (s_hull s) F f Y (mscal (sqrt (INR L / INR ((N + 1) ^ 2))) (mscal (sqrt (4 * PI / INR L)) M2)) EY) as (LS & E & P).
  - unfold f. rewrite ES, E1. cbn [bind]. rewrite E2. reflexivity.
  - reflexivity.
  - exact RF.
  - exists LS. split; [exact E|]. destruct P as (P1 & P2 & P3 & P4). unfold product. cbn [epad_D nr nc ent]. cbn [mscal nr nc ent M2] in P1, P2, P3, P4.
    repeat (split; [assumption|]). intros i j Hi Hj. rewrite P4 by assumption. apply rsum_ext. intros k Hk. f_equal. f_equal. f_equal.
    rewrite <- rsum_cut. apply rsum_ext. intros q Hq. unfold M1. cbn [ent]. rewrite eye_rect_l by assumption. destruct (Nat.ltb q L); [reflexivity|ring].
Qed.
Lemma epad_isometry N L Y U sv VH : (0 < L)%nat -> nr Y = L -> nc Y = ((N + 1) ^ 2)%nat -> is_svd Y U sv VH -> ((N + 1) ^ 2 <= L)%nat ->
  isometry (4 * PI / INR ((N + 1) ^ 2)) (epad_D N L U VH).
Proof.
  intros LP RY CY ((RU & CU & U1 & U2) & (RV & CV & V1 & V2) & _) LE a b Ha Hb. rewrite RY in *. rewrite CY in *.
  cbn [epad_D nr nc ent] in *. pose proof PI_RGT_0. pose proof (lt_0_INR _ LP). pose proof (INR_sq_pos N).
  set (K := ((N + 1) ^ 2)%nat) in *. replace (Nat.min L K) with K by lia.
  pose proof (sqrt_sq_mult (INR L / INR K) (4 * PI / INR L) ltac:(apply frac_nonneg; lra) ltac:(apply frac_nonneg; lra)) as SQ.
  replace (INR L / INR K * (4 * PI / INR L)) with (4 * PI / INR K) in SQ by (field; split; lra).
  rewrite (rsum_ext L _ (fun l => 4 * PI / INR K * rsum K (fun k => rsum K (fun q => ent VH k a * ent VH q b * (ent U l k * ent U l q))))).
  - rewrite rsum_scal. f_equal. rewrite rsum_swap. rewrite <- (V1 a b Ha Hb). apply rsum_ext. intros k Hk. rewrite rsum_swap.
    rewrite (rsum_ext K _ (fun q => delta k q * (ent VH k a * ent VH q b))).
    + exact (rsum_delta_l K k (fun q => ent VH k a * ent VH q b) Hk).
    + intros q Hq. rewrite rsum_scal, U1 by lia. ring.
  - intros l Hl. rewrite <- SQ. set (x := rsum K (fun k => ent U l k * ent VH k a)). set (y := rsum K (fun k => ent U l k * ent VH k b)).
    assert (XY : rsum K (fun k => rsum K (fun q => ent VH k a * ent VH q b * (ent U l k * ent U l q))) = x * y).
    { unfold x, y. rewrite rsum_mult. apply rsum_ext. intros k Hk. apply rsum_ext. intros. ring. }
    rewrite XY. ring.
Qed.
(** D^T Y is symmetric and positive semidefinite: D is the isometric factor of the
    polar decomposition of Y *)
Lemma epad_DtY N L Y U sv VH : (0 < L)%nat -> nr Y = L -> nc Y = ((N + 1) ^ 2)%nat -> is_svd Y U sv VH ->
  forall a b, (a < nc Y)%nat -> (b < nc Y)%nat ->
  rsum L (fun l => ent (epad_D N L U VH) l a * ent Y l b)
  = sqrt (INR L / INR ((N + 1) ^ 2)) * sqrt (4 * PI / INR L) * rsum (length sv) (fun k => nth k sv 0 * (ent VH k a * ent VH k b)).
Proof.
  intros LP RY CY ((RU & CU & U1 & U2) & (RV & CV & V1 & V2) & LS & SP & EY) a b Ha Hb. rewrite RY in *. rewrite CY in *. cbn [epad_D ent].
  set (K := ((N + 1) ^ 2)%nat) in *. set (c := sqrt (INR L / INR K)). set (d := sqrt (4 * PI / INR L)). rewrite <- LS.
  rewrite (rsum_ext L _ (fun l => c * d * rsum (length sv) (fun k => rsum (length sv) (fun q => ent VH k a * (nth q sv 0 * ent VH q b) * (ent U l k * ent U l q))))).
  - rewrite rsum_scal. f_equal. rewrite rsum_swap. apply rsum_ext. intros k Hk. rewrite rsum_swap.
    rewrite (rsum_ext (length sv) _ (fun q => delta k q * (ent VH k a * (nth q sv 0 * ent VH q b)))).
    + rewrite (rsum_delta_l (length sv) k (fun q => ent VH k a * (nth q sv 0 * ent VH q b)) Hk). ring.
    + intros q Hq. rewrite rsum_scal, U1 by lia. ring.
  - intros l Hl. rewrite (EY l b Hl Hb).
    transitivity (c * d * (rsum (length sv) (fun k => ent U l k * ent VH k a) * rsum (length sv) (fun k => ent U l k * nth k sv 0 * ent VH k b))); [ring|].
    f_equal. rewrite rsum_mult. apply rsum_ext. intros k Hk. apply rsum_ext. intros. ring.
Qed.
Lemma epad_polar N L Y U sv VH : (0 < L)%nat -> nr Y = L -> nc Y = ((N + 1) ^ 2)%nat -> is_svd Y U sv VH ->
  let M := fun a b => rsum L (fun l => ent (epad_D N L U VH) l a * ent Y l b) in
  (forall a b, (a < nc Y)%nat -> (b < nc Y)%nat -> M a b = M b a) /\
  (forall x, 0 <= rsum (nc Y) (fun a => rsum (nc Y) (fun b => x a * M a b * x b))).
Proof.
  intros LP RY CY SV. pose proof (epad_DtY N L Y U sv VH LP RY CY SV) as E. cbn zeta. split.
  - intros a b Ha Hb. rewrite !E by assumption. f_equal. apply rsum_ext. intros. ring.
  - intro x. destruct SV as (_ & _ & _ & SP & _).
    set (c := sqrt (INR L / INR ((N + 1) ^ 2)) * sqrt (4 * PI / INR L)) in *.
    assert (C0 : 0 <= c) by (apply Rmult_le_pos; apply sqrt_pos).
    rewrite (rsum_ext (nc Y) _ (fun a => rsum (length sv) (fun k => rsum (nc Y) (fun b => c * nth k sv 0 * ((x a * ent VH k a) * (x b * ent VH k b)))))).
    + rewrite rsum_swap. apply rsum_nonneg. intros k Hk.
      rewrite (rsum_ext (nc Y) _ (fun a => c * nth k sv 0 * ((x a * ent VH k a) * rsum (nc Y) (fun b => x b * ent VH k b)))).
      * rewrite rsum_scal, rsum_scal_r. apply Rmult_le_pos; [apply Rmult_le_pos; [exact C0|apply SP, nth_In; exact Hk]|apply Rle_0_sqr].
      * intros a Ha. rewrite <- !rsum_scal. reflexivity.
    + intros a Ha. rewrite rsum_swap. apply rsum_ext. intros b Hb. rewrite E by assumption.
      transitivity (x a * x b * (c * rsum (length sv) (fun k => nth k sv 0 * (ent VH k a * ent VH k b)))); [ring|].
      rewrite <- !rsum_scal. apply rsum_ext. intros. ring.
Qed.
(** singular values of such a layout *)
Lemma sector_sv Y U sv VH L : (0 < L)%nat -> nr Y = L -> sector_grid Y L -> is_svd Y U sv VH -> forall k, (k < length sv)%nat ->
  nth k sv 0 = sqrt (INR L / (4 * PI)).
Proof.
  intros LP RY G ((RU & CU & U1 & U2) & (RV & CV & V1 & V2) & LS & SP & EY) k Hk. rewrite RY in *. set (K := nc Y) in *.
  assert (Y1 : forall i, (i < L)%nat -> rsum K (fun j => ent Y i j * ent VH k j) = ent U i k * nth k sv 0).
  { intros i Hi. rewrite (rsum_ext K _ (fun j => rsum (length sv) (fun q => ent U i q * nth q sv 0 * (ent VH q j * ent VH k j)))).
    - rewrite rsum_swap. rewrite (rsum_ext (length sv) _ (fun q => ent U i q * nth q sv 0 * delta q k)).
      + exact (rsum_delta_r (length sv) k (fun q => ent U i q * nth q sv 0) Hk).
      + intros q Hq. rewrite rsum_scal, V2 by lia. reflexivity.
    - intros j Hj. rewrite EY by assumption. rewrite <- rsum_scal_r. apply rsum_ext. intros. ring. }
  assert (SQ : nth k sv 0 * nth k sv 0 = INR L / (4 * PI)).
  { transitivity (rsum L (fun i => rsum K (fun j => ent Y i j * ent VH k j) * rsum K (fun j => ent Y i j * ent VH k j))).
    - rewrite (rsum_ext L _ (fun i => nth k sv 0 * nth k sv 0 * (ent U i k * ent U i k))) by (intros i Hi; rewrite Y1 by exact Hi; ring).
      rewrite rsum_scal, U1 by lia. rewrite delta_same. ring.
    - rewrite (rsum_ext L _ (fun i => rsum K (fun j => rsum K (fun m => ent VH k j * ent VH k m * (ent Y i j * ent Y i m))))).
      + rewrite rsum_swap. rewrite (rsum_ext K _ (fun j => INR L / (4 * PI) * (ent VH k j * ent VH k j))).
        * rewrite rsum_scal, V2 by lia. rewrite delta_same. ring.
        * intros j Hj. rewrite rsum_swap. rewrite (rsum_ext K _ (fun m => delta j m * (ent VH k j * ent VH k m * (INR L / (4 * PI))))).
          -- rewrite (rsum_delta_l K j (fun m => ent VH k j * ent VH k m * (INR L / (4 * PI))) Hj). ring.
          -- intros m Hm. rewrite rsum_scal, G by assumption. ring.
      + intros i Hi. rewrite rsum_mult. apply rsum_ext. intros. apply rsum_ext. intros. ring. }
  rewrite <- SQ. symmetry. apply sqrt_square. apply SP, nth_In, Hk.
Qed.
(** the three decoders coincide on layouts with Y^T Y = L/(4 pi) I *)
Lemma sector_same N L Y U sv VH P : (0 < L)%nat -> nr Y = L -> nc Y = ((N + 1) ^ 2)%nat -> sector_grid Y L -> is_svd Y U sv VH -> penrose Y P ->
  forall l a, (l < L)%nat -> (a < nc Y)%nat -> ent (epad_D N L U VH) l a = ent (sad_D N L Y) l a /\ ent (mad_D N L P) l a = ent (sad_D N L Y) l a.
Proof.
  intros LP RY CY G SV PE l a Hl Ha. pose proof (sector_sv Y U sv VH L LP RY G SV) as SS. pose proof PI_RGT_0. pose proof (lt_0_INR _ LP). pose proof (INR_sq_pos N).
  pose proof (sector_pinv Y P L LP RY G PE a l Ha Hl) as SP.
  destruct SV as (_ & _ & LS & _ & EY). rewrite RY, CY in *. cbn [epad_D sad_D mad_D mscal mtr ent]. set (K := ((N + 1) ^ 2)%nat) in *.
  assert (D1 : sqrt (INR L / INR K) = sqrt (INR L / (4 * PI)) * sqrt (4 * PI / INR K)).
  { rewrite <- sqrt_mult_alt by (apply frac_nonneg; lra). f_equal. field. split; lra. }
  assert (D2 : sqrt (INR L / (4 * PI)) * sqrt (4 * PI / INR L) = 1).
  { rewrite <- sqrt_mult_alt by (apply frac_nonneg; lra). rewrite <- sqrt_1. f_equal. field. split; lra. }
  assert (D3 : sqrt (INR L / (4 * PI)) * (4 * PI / INR L) = sqrt (4 * PI / INR L)).
  { pose proof (sqrt_sqrt (4 * PI / INR L) ltac:(apply frac_nonneg; lra)) as Q. set (y := sqrt (4 * PI / INR L)) in *. set (x := sqrt (INR L / (4 * PI))) in *. rewrite <- Q. transitivity (x * y * y); [ring|]. rewrite D2. ring. }
  split.
  - rewrite (EY l a Hl Ha). rewrite <- LS.
    rewrite (rsum_ext (length sv) (fun k => ent U l k * nth k sv 0 * ent VH k a) (fun k => sqrt (INR L / (4 * PI)) * (ent U l k * ent VH k a))) by (intros k Hk; rewrite SS by exact Hk; ring).
    rewrite rsum_scal. set (x := rsum _ _). rewrite D1. ring.
  - rewrite SP, D1. set (y := sqrt (4 * PI / INR K)). transitivity (sqrt (INR L / (4 * PI)) * (4 * PI / INR L) * (y * ent Y l a)); [ring|]. rewrite D3. reflexivity.
Qed.

(** ** plane wave *)
Lemma unsoeld n azi zen : 0 <= zen <= PI ->
  rsum (2 * n + 1) (fun i => sh_real n (Z.of_nat i - Z.of_nat n) azi zen * sh_real n (Z.of_nat i - Z.of_nat n) azi zen) = (2 * INR n + 1) / (4 * PI).
Proof.
  intro Zn. pose proof (dirac_pattern (repeat 0 n ++ [1]) 0 azi zen azi zen Zn Zn) as P.
  rewrite cos_0 in P. specialize (P (unit_dir azi zen)). unfold dirac_at in P. rewrite app_length, repeat_length in P. cbn [length] in P.
  replace (n + 1)%nat with (S n) in P by lia. cbn [rsum] in P. rewrite cos_0, legendre_one in P.
  assert (NN : nth n (repeat 0 n ++ [1]) 0 = 1).
  { rewrite app_nth2; rewrite repeat_length; [|lia]. rewrite Nat.sub_diag. reflexivity. }
  assert (N0 : forall i, (i < n)%nat -> nth i (repeat 0 n ++ [1]) 0 = 0).
  { intros i Hi. rewrite app_nth1 by (rewrite repeat_length; exact Hi). apply nth_repeat_in. exact Hi. }
  rewrite NN in P. rewrite (rsum_0 n (fun n0 => nth n0 _ 0 * (2 * INR n0 + 1) / (4 * PI) * eval_legendre n0 1)) in P by (intros i Hi; rewrite N0 by exact Hi; unfold Rdiv; ring).
  rewrite (rsum_0 n (fun n0 => nth n0 _ 0 * rsum (2 * n0 + 1) _)) in P by (intros i Hi; rewrite N0 by exact Hi; ring).
  transitivity (0 + 1 * rsum (2 * n + 1) (fun i => sh_real n (Z.of_nat i - Z.of_nat n) azi zen * sh_real n (Z.of_nat i - Z.of_nat n) azi zen)); [ring|].
  rewrite <- P. field. apply PI_neq0.
Qed.
Lemma order_sum N : rsum (N + 1) (fun n => 2 * INR n + 1) = INR ((N + 1) ^ 2).
Proof.
  induction N as [|N IH]; [cbn; ring|]. replace (S N + 1)%nat with (S (N + 1)) by lia. cbn [rsum]. rewrite IH.
  rewrite !Nat.pow_2_r. rewrite !mult_INR, !S_INR. ring.
Qed.
Lemma plane_wave_energy (v : V3) azi zen N : angles_of [v] [azi] [zen] ->
  exists F, src_to_sh (Mat 1 1 (fun _ _ => 1)) [azi] [zen] N = Ok F /\ nr F = ((N + 1) ^ 2)%nat /\ nc F = 1%nat /\
    rsum ((N + 1) ^ 2) (fun c => ent F c 0 * ent F c 0) = INR ((N + 1) ^ 2) / (4 * PI).
Proof.
  intro A. destruct (src_to_sh_ok (Mat 1 1 (fun _ _ => 1)) [v] [azi] [zen] N A eq_refl) as (F & E & RF & CF & NF).
  exists F. split; [exact E|]. split; [exact RF|]. split; [exact CF|]. rewrite sq2, rsum_acn. rewrite <- sq2.
  destruct A as [_ [_ A]]. destruct (A 0%nat ltac:(cbn; lia)) as [Zn _]. cbn [nth] in Zn.
  rewrite (rsum_ext (N + 1) _ (fun n => / (4 * PI) * (2 * INR n + 1))).
  - rewrite rsum_scal, order_sum. unfold Rdiv. ring.
  - intros n Hn. transitivity (rsum (2 * n + 1) (fun i => sh_real n (Z.of_nat i - Z.of_nat n) azi zen * sh_real n (Z.of_nat i - Z.of_nat n) azi zen)).
    + apply rsum_ext. intros i Hi. rewrite NF by lia. cbn [length rsum nth ent]. ring.
    + rewrite unsoeld by exact Zn. unfold Rdiv. ring.
Qed.
