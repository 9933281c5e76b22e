(** Products of functions with complex harmonics; sources; solutions of least squares. *)
From Coq Require Import Lra Lia Ring ClassicalEpsilon.
From Verif Require Import Base BaseFacts M_utils S_utils P_utils M_sig P_sig M_process M_sph0 M_sph S_linalg S_sph P_linalg
  P_sph1 P_sph2 P_sph3 P_sph4 P_sph5 P_sph6 P_sph7 P_sph8 P_sph9 P_sph10 P_sph11 P_sph12 P_sph13 X_sph M_parsa3 M_process3 S_zp P_cplx M_io M_io2 M_io3 M_sph3 S_sph3 S_grids P_csph1 P_csph2 P_csph3 P_csph4 P_csph6.
Open Scope R_scope.
Add Ring C2ring_csph7 : cring.
Notation synth := (field_value sh_real).

Lemma at_direction N az ze : exists Y Yc, sh_matrix N [az] [ze] = Ok Y /\ sh_matrix_c N [az] [ze] = Ok Yc /\
  (forall v, cfield N v az ze = csum ((N + 1) ^ 2) (fun a => cmul (cent Yc 0 a) (v a))) /\
  (forall c, synth N c az ze = rsum ((N + 1) ^ 2) (fun b => ent Y 0 b * nth b c 0)).
Proof.
  destruct (sh_matrix_ok N [az] [ze] eq_refl) as (Y & EY & _ & _ & HY). destruct (sh_matrix_c_ok N [az] [ze] eq_refl) as (Yc & Ec & _ & _ & HYc). exists Y, Yc. split; auto. split; auto. split.
  - intros v. unfold cfield. rewrite csum_acn. apply csum_ext'. intros n Hn. apply csum_ext'. intros k Hk. rewrite HYc by (cbn [length]; lia). cbn [nth]. ring.
  - intros c. unfold field_value. rewrite sq2, rsum_acn. apply rsum_ext. intros n Hn. apply rsum_ext. intros k Hk. rewrite HY by (cbn [length]; lia). cbn [nth]. ring.
Qed.
Definition parts (K : nat) (p : C2 -> R) (D : nat -> C2) : list R := map (fun b => p (D b)) (seq 0 K).
Lemma synth_parts N az ze Y D : sh_matrix N [az] [ze] = Ok Y -> (forall c, synth N c az ze = rsum ((N + 1) ^ 2) (fun b => ent Y 0 b * nth b c 0)) ->
  csum ((N + 1) ^ 2) (fun b => cmul (cre (ent Y 0 b)) (D b)) = (synth N (parts ((N + 1) ^ 2) fst D) az ze, synth N (parts ((N + 1) ^ 2) snd D) az ze).
Proof.
  intros EY H. rewrite !H. unfold parts, csum. f_equal; apply rsum_ext; intros b Hb; rewrite nth_map_seq by auto; unfold cmul, cre; cbn [fst snd]; ring.
Qed.
(** any function in the complex basis, by two real expansions, and back *)
Lemma field_real N v : exists D, forall az ze, cfield N v az ze = (synth N (parts ((N + 1) ^ 2) fst D) az ze, synth N (parts ((N + 1) ^ 2) snd D) az ze).
Proof.
  exists (fun b => csum ((N + 1) ^ 2) (fun a => cmul (ubasis b a) (v a))). intros az ze. destruct (at_direction N az ze) as (Y & Yc & EY & Ec & H1 & H2).
  rewrite <- (synth_parts N az ze Y) by auto. rewrite H1. rewrite (cassoc ((N + 1) ^ 2) ((N + 1) ^ 2) (fun b => cre (ent Y 0 b)) ubasis v).
  apply csum_ext'. intros a Ha. rewrite (matrix_basis N [az] [ze] Y Yc EY Ec) by auto. reflexivity.
Qed.
Lemma field_of N D : exists v, forall az ze, cfield N v az ze = (synth N (parts ((N + 1) ^ 2) fst D) az ze, synth N (parts ((N + 1) ^ 2) snd D) az ze).
Proof.
  exists (fun a => csum ((N + 1) ^ 2) (fun b => cmul (cconj (ubasis b a)) (D b))). intros az ze. destruct (at_direction N az ze) as (Y & Yc & EY & Ec & H1 & H2).
  rewrite <- (synth_parts N az ze Y) by auto. rewrite H1. rewrite <- (ucancel N (fun b => cre (ent Y 0 b)) D).
  apply csum_ext'. intros a Ha. rewrite (matrix_basis N [az] [ze] Y Yc EY Ec) by auto. reflexivity.
Qed.
Lemma synth_mul N1 N2 a b : exists c, length c = ((N1 + N2 + 1) ^ 2)%nat /\ forall az ze, 0 <= sin ze -> synth (N1 + N2) c az ze = synth N1 a az ze * synth N2 b az ze.
Proof.
  destruct (span_mul N1 N2 _ _ (synth_span N1 a) (synth_span N2 b)) as (d & Hd).
  exists (map (fun j => let (l, m) := nth j (acn_list (N1 + N2)) (O, 0%Z) in d l m) (seq 0 ((N1 + N2 + 1) ^ 2))). split; [rewrite map_length, seq_length; auto|].
  intros az ze Hz. rewrite !synth_Yz by auto. rewrite (Hd (sph2cart az ze 1) (unit_dir az ze)). apply rsum_ext. intros l Hl. unfold zs. apply rsum_ext. intros k Hk. 
  replace (Z.to_nat (Z.of_nat k - Z.of_nat l + Z.of_nat l)) with k by lia. f_equal.
  rewrite nth_map_seq by (apply acn_bound; lia). rewrite acn_nth by (auto; lia). reflexivity.
Qed.
Lemma cfield_mul N1 N2 u v : exists w, forall az ze, 0 <= sin ze -> cfield (N1 + N2) w az ze = cmul (cfield N1 u az ze) (cfield N2 v az ze).
Proof.
  destruct (field_real N1 u) as (D & HD). destruct (field_real N2 v) as (E & HE).
  set (K1 := ((N1 + 1) ^ 2)%nat) in *. set (K2 := ((N2 + 1) ^ 2)%nat) in *.
  destruct (synth_mul N1 N2 (parts K1 fst D) (parts K2 fst E)) as (rr & Lrr & Hrr). destruct (synth_mul N1 N2 (parts K1 snd D) (parts K2 snd E)) as (ii & Lii & Hii).
  destruct (synth_mul N1 N2 (parts K1 fst D) (parts K2 snd E)) as (ri & Lri & Hri). destruct (synth_mul N1 N2 (parts K1 snd D) (parts K2 fst E)) as (ir & Lir & Hir).
  destruct (field_of (N1 + N2) (fun b => (nth b rr 0 - nth b ii 0, nth b ri 0 + nth b ir 0))) as (w & Hw). exists w. intros az ze Hz. rewrite Hw, HD, HE.
  unfold cmul. cbn [fst snd]. rewrite <- Hrr, <- Hii, <- Hri, <- Hir by auto. destruct (at_direction (N1 + N2) az ze) as (Y & Yc & EY & Ec & _ & H2). rewrite !H2.
  f_equal; [unfold Rminus; rewrite <- (Rmult_1_l (rsum _ (fun b => _ * nth b ii 0))), Ropp_mult_distr_l, <- rsum_scal, <- rsum_plus|rewrite <- rsum_plus]; apply rsum_ext; intros b Hb; unfold parts; rewrite nth_map_seq by auto; cbn [fst snd]; ring.
Qed.

Theorem sh_mult_c_product t_design N1 N2 a b v : let N := (N1 + N2)%nat in
  let azi := map (fun u => fst (vec2dir u)) v in
  let zen := map (fun u => match snd (vec2dir u) with Some z => z | None => 0 end) v in
  length a = ((N1 + 1) ^ 2)%nat -> length b = ((N2 + 1) ^ 2)%nat ->
  t_design (2 * Z.of_nat N)%Z = Ok v -> (forall u, In u v -> dot3 u u = 1) ->
  exact_for sh_real (2 * N) azi zen (equal_weights (length v)) ->
  exists c, sh_mult_c t_design a b = Ok c /\ length c = ((N + 1) ^ 2)%nat /\
    forall az ze, 0 <= ze <= PI -> cfield N (fun k => nth k c (0, 0)) az ze = cmul (cfield N1 (fun k => (nth k a 0, 0)) az ze) (cfield N2 (fun k => (nth k b 0, 0)) az ze).
Proof.
  intros N azi zen La Lb ET HU HX. unfold sh_mult_c. rewrite La, Lb, !order_of_sq.
  replace (Z.of_nat N1 + Z.of_nat N2)%Z with (Z.of_nat N) by (unfold N; lia). rewrite ET. cbn [bind]. rewrite !map_map. fold azi zen.
  assert (Lz : length zen = length azi) by (unfold zen, azi; rewrite !map_length; auto).
  assert (LA : length azi = length v) by (unfold azi; apply map_length).
  destruct (inverse_all (CMat ((N1 + 1) ^ 2) 1 (fun i _ => (nth i a 0, 0))) N1 azi zen eq_refl Lz) as (Y1 & fa & _ & Ea & Ra & Ca & _ & Ha). rewrite Ea. cbn [bind].
  destruct (inverse_all (CMat ((N2 + 1) ^ 2) 1 (fun i _ => (nth i b 0, 0))) N2 azi zen eq_refl Lz) as (Y2 & fb & _ & Eb & Rb & Cb & _ & Hb). rewrite Eb. cbn [bind].
  rewrite Nat2Z.id. destruct (gram_grid N azi zen _ HX) as (Y & EY & RY & CY & HO).
  destruct (unitary_of N azi zen _ Y Lz EY HO) as (Yc & Ec & Rc & Cc & U).
  set (f := CMat (cnr fa) (cnc fa) (fun i j => cmul (cent fa i j) (cent fb i j))). cbn [cnc] in Ca.
  destruct (sht_c_default f N azi zen Yc Ec ltac:(unfold f; cbn [cnr]; congruence) ltac:(auto)) as (F & EF & RF & CF & HF). rewrite EF. cbn [bind].
  eexists. split; [reflexivity|]. rewrite map_length, seq_length. split; [congruence|]. intros az ze Hz.
  destruct (cfield_mul N1 N2 (fun k => (nth k a 0, 0)) (fun k => (nth k b 0, 0))) as (w & Hw). fold N in Hw.
  rewrite <- Hw by (apply sin_nonneg; auto). destruct (at_direction N az ze) as (Y1' & Yc1 & _ & _ & HC & _). rewrite !HC. apply csum_ext'. intros i Hi. f_equal.
  rewrite nth_map_seq by congruence. rewrite HF. change (w i) with (cent (CMat ((N + 1) ^ 2) 1 (fun k _ => w k)) i 0%nat). rewrite <- (gram_apply Yc _ (CMat ((N + 1) ^ 2) 1 (fun k _ => w k)) N Cc U i 0%nat Hi).
  change (cnr f) with (cnr fa). rewrite Ra, Rc. apply csum_ext'. intros q Hq. f_equal. rewrite LA. f_equal.
  unfold f. cbn [cent]. rewrite Ha, Hb by auto. cbn [cent]. destruct HX as (_ & _ & HZ & _ & _).
  rewrite <- Hw by (apply zeniths_nth; auto; lia). cbn [cent]. 
  destruct (sh_matrix_c_ok N azi zen Lz) as (Yc2 & Ec2 & _ & _ & HY). rewrite Ec in Ec2. injection Ec2 as <-.
  unfold cfield. rewrite csum_acn. apply csum_ext'. intros n Hn. apply csum_ext'. intros k Hk. rewrite HY by (auto; lia). ring.
Qed.

(** a mixture of sources: each a band-limited peak at its direction *)
Lemma sources_value sig N azi zen : length zen = length azi -> nr sig = length azi -> (forall z, In z zen -> 0 <= z <= PI) ->
  exists G, src_to_sh_c sig azi zen N = Ok G /\ cnr G = ((N + 1) ^ 2)%nat /\ cnc G = nc sig /\
    forall t az ze (d : nat -> R), (t < nc sig)%nat -> 0 <= ze <= PI ->
      (forall s, (s < length azi)%nat -> dot3 (sph2cart az ze 1) (sph2cart (nth s azi 0) (nth s zen 0) 1) = cos (d s)) ->
      exists v, bandlimited_dirac N (map d (seq 0 (length azi))) None = Ok v /\
        cfield N (fun k => cent G k t) az ze = (rsum (length azi) (fun s => ent sig s t * nth s v 0), 0).
Proof.
  intros L R0 HZ. destruct (sources_c sig N azi zen) as (F & G & EF & EG & CF & SF); auto; [unfold dirs_ok; rewrite L, Nat.eqb_refl; auto|].
  exists G. split; auto. pose proof SF as (RG & RF & CG & _). split; auto. split; [congruence|]. intros t az ze d Ht Hz Hd.
  rewrite dirac_default. destruct (dirac_final N (map d (seq 0 (length azi))) (repeat 1 (N + 1))) as (v & Ev & Lv & Hv); [apply repeat_length|]. exists v. split; auto.
  rewrite (same_value N F G t az ze SF) by congruence. f_equal.
  destruct (sh_matrix_ok N azi zen L) as (Y & EY & RY & CY & HY). unfold src_to_sh in EF. rewrite EY in EF. cbn [bind] in EF. rewrite matmul_ok in EF by (cbn [mtr nc]; congruence). injection EF as <-. cbn [ent mtr nc].
  transitivity (rsum (length azi) (fun s => ent sig s t * rsum (N + 1) (fun n => rsum (2 * n + 1) (fun k => sh_real n (Z.of_nat k - Z.of_nat n) az ze * sh_real n (Z.of_nat k - Z.of_nat n) (nth s azi 0) (nth s zen 0))))).
  - transitivity (rsum (N + 1) (fun n => rsum (2 * n + 1) (fun k => rsum (length azi) (fun s => ent sig s t * (sh_real n (Z.of_nat k - Z.of_nat n) az ze * sh_real n (Z.of_nat k - Z.of_nat n) (nth s azi 0) (nth s zen 0)))))).
    + apply rsum_ext. intros n Hn. apply rsum_ext. intros k Hk. rewrite RY, <- rsum_scal_r. apply rsum_ext. intros s Hs. rewrite HY by (auto; lia). ring.
    + transitivity (rsum (N + 1) (fun n => rsum (length azi) (fun s => rsum (2 * n + 1) (fun k => ent sig s t * (sh_real n (Z.of_nat k - Z.of_nat n) az ze * sh_real n (Z.of_nat k - Z.of_nat n) (nth s azi 0) (nth s zen 0)))))).
      * apply rsum_ext. intros n Hn. apply rsum_swap.
      * rewrite rsum_swap. apply rsum_ext. intros s Hs. rewrite <- rsum_scal. apply rsum_ext. intros n Hn. rewrite rsum_scal. reflexivity.
  - apply rsum_ext. intros s Hs. f_equal. rewrite (Hv s az ze (nth s azi 0) (nth s zen 0)); auto.
    + apply rsum_ext. intros n Hn. rewrite nth_repeat_in by auto. ring.
    + rewrite map_length, seq_length; auto.
    + apply HZ, nth_In. lia.
    + rewrite nth_map_seq by auto. auto.
Qed.

(** np.linalg.lstsq over the complex numbers has a solution: the real block problem *)
Lemma clstsq_solution (A B : cmat) : exists X, cnr X = cnc A /\ cnc X = cnc B /\
  forall i j, (i < cnc A)%nat -> (j < cnc B)%nat ->
    csum (cnr A) (fun q => cmul (cconj (cent A q i)) (cadd (csum (cnc A) (fun k => cmul (cent A q k) (cent X k j))) (cscal (-1) (cent B q j)))) = (0, 0).
Proof.
  set (m := cnr A). set (n := cnc A).
  set (A2 := Mat (m + m) (n + n) (fun q k => if q <? m then (if k <? n then fst (cent A q k) else - snd (cent A q (k - n))) else (if k <? n then snd (cent A (q - m) k) else fst (cent A (q - m) (k - n))))%nat).
  set (B2 := Mat (m + m) (cnc B) (fun q j => if (q <? m)%nat then fst (cent B q j) else snd (cent B (q - m) j))).
  destruct (lstsq_solution A2 B2 eq_refl) as (X2 & RX & CX & HX). cbn [A2 B2 nr nc] in HX, RX, CX.
  exists (CMat n (cnc B) (fun k j => (ent X2 k j, ent X2 (n + k)%nat j))). cbn [cnr cnc cent]. split; auto. split; auto. intros i j Hi Hj.
  assert (LT : forall a b, (a < b)%nat -> (a <? b)%nat = true) by (intros; apply Nat.ltb_lt; auto). assert (GE : forall a b, (b + a <? b)%nat = false) by (intros; apply Nat.ltb_ge; lia).
  assert (SB : forall a b, (b + a - b)%nat = a) by (intros; lia).
  pose proof (HX i j ltac:(lia) Hj) as E1. pose proof (HX (n + i)%nat j ltac:(lia) Hj) as E2. cbn [A2 B2 nr nc ent] in E1, E2.
  rewrite rsum_app in E1, E2.
  set (X := fun k => (ent X2 k j, ent X2 (n + k)%nat j)) in *.
  assert (TOP : forall q, (q < m)%nat -> rsum (n + n) (fun k => (if q <? m then (if k <? n then fst (cent A q k) else - snd (cent A q (k - n))) else (if k <? n then snd (cent A (q - m) k) else fst (cent A (q - m) (k - n))))%nat * ent X2 k j) = fst (csum n (fun k => cmul (cent A q k) (X k)))).
  { intros q Hq. rewrite rsum_app, LT by auto. unfold csum. cbn [fst]. rewrite <- rsum_plus. apply rsum_ext. intros k Hk. rewrite LT, GE, SB by auto. unfold X, cmul. cbn [fst snd]. ring. }
  assert (BOT : forall q, (q < m)%nat -> rsum (n + n) (fun k => (if m + q <? m then (if k <? n then fst (cent A (m + q)%nat k) else - snd (cent A (m + q)%nat (k - n))) else (if k <? n then snd (cent A (m + q - m) k) else fst (cent A (m + q - m) (k - n))))%nat * ent X2 k j) = snd (csum n (fun k => cmul (cent A q k) (X k)))).
  { intros q Hq. rewrite rsum_app, GE, SB. unfold csum. cbn [snd]. rewrite <- rsum_plus. apply rsum_ext. intros k Hk. rewrite LT, GE, SB by auto. unfold X, cmul. cbn [fst snd]. ring. }
  apply ceq.
  - rewrite <- E1. unfold csum at 1. cbn [fst]. rewrite <- rsum_plus. apply rsum_ext. intros q Hq. rewrite TOP, BOT by auto. rewrite !GE, !SB, !LT by auto. unfold cmul at 1, cconj, cadd, cscal. cbn [fst snd]. fold (X 0%nat). change (fun k => cmul (cent A q k) (ent X2 k j, ent X2 (n + k)%nat j)) with (fun k => cmul (cent A q k) (X k)). ring.
  - rewrite <- E2. unfold csum at 1. cbn [snd]. rewrite <- rsum_plus. apply rsum_ext. intros q Hq. rewrite TOP, BOT by auto. rewrite !GE, !SB, !LT by auto. unfold cmul at 1, cconj, cadd, cscal. cbn [fst snd]. change (fun k => cmul (cent A q k) (ent X2 k j, ent X2 (n + k)%nat j)) with (fun k => cmul (cent A q k) (X k)). ring.
Qed.
Lemma clstsq_exists : exists lstsq, clstsq_contract lstsq.
Proof.
  assert (H : forall A B : cmat, {r : res cmat | (cnr A = cnr B -> exists X, r = Ok X /\ cnr X = cnc A /\ cnc X = cnc B /\
      forall i j, (i < cnc A)%nat -> (j < cnc B)%nat ->
        csum (cnr A) (fun q => cmul (cconj (cent A q i)) (cadd (csum (cnc A) (fun k => cmul (cent A q k) (cent X k j))) (cscal (-1) (cent B q j)))) = (0, 0)) /\
    (cnr A <> cnr B -> r = Err LinAlgError)}).
  { intros A B. apply constructive_indefinite_description. destruct (Nat.eq_dec (cnr A) (cnr B)) as [E|E].
    - destruct (clstsq_solution A B) as (X & HX). exists (Ok X). split; [intros _; exists X; split; auto|intros; contradiction].
    - exists (Err LinAlgError). split; [intros; contradiction|reflexivity]. }
  exists (fun A B => proj1_sig (H A B)). intros A B. exact (proj2_sig (H A B)).
Qed.
