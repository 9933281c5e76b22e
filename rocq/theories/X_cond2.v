(** Condition numbers for complex harmonics are those for real ones. *)
From Coq Require Import Lra Lia.
From Verif Require Import Base BaseFacts M_utils M_sig P_sig M_sph0 M_sph M_grids M_cond S_utils S_sph S_grids S_svd P_sph7 P_sph9 P_sph11 P_grids2 P_grids3 P_svd3 X_sph S_sph3 P_cplx P_csph1 P_csph2 P_csph3 P_csph4 S_order P_order X_order S_cond X_cond.
Open Scope R_scope.

Definition hh : R := / sqrt 2.
Lemma hh2 : hh * hh = / 2.
Proof. unfold hh. rewrite <- Rinv_mult, sqrt_sqrt by lra. reflexivity. Qed.
(** c (x + s i y) *)
Definition pm (c s : R) (x y : C2) : C2 := (c * (fst x - s * snd y), c * (snd x + s * fst y)).
Definition cc (m : Z) : R := if (m <? 0)%Z then hh else (-1) ^ Z.to_nat m * hh.
Definition ss (m : Z) : R := if (m <? 0)%Z then 1 else -1.
(** coefficients in the complex basis of the functions with coefficients b in the real one *)
Definition sv (b : nat -> C2) (n : nat) (m : Z) : C2 :=
  if (m =? 0)%Z then b (acn n 0) else pm (cc m) (ss m) (b (acn n (Z.abs m))) (b (acn n (- Z.abs m))).
Definition tc (b : nat -> C2) (j : nat) : C2 := let n := Nat.sqrt j in sv b n (Z.of_nat j - Z.of_nat (n * n) - Z.of_nat n).
Lemma sqrt_at n k : (k < 2 * n + 1)%nat -> Nat.sqrt (n * n + k) = n.
Proof. intros H. apply Nat.sqrt_unique. lia. Qed.
Lemma tc_at b n k : (k < 2 * n + 1)%nat -> tc b (n * n + k)%nat = sv b n (Z.of_nat k - Z.of_nat n).
Proof. intros H. unfold tc. rewrite sqrt_at by exact H. cbv zeta. f_equal. lia. Qed.
Lemma sv_pos b n m : (1 <= m)%Z -> sv b n m = pm ((-1) ^ Z.to_nat m * hh) (-1) (b (acn n m)) (b (acn n (- m))).
Proof. intros H. unfold sv, cc, ss. destruct (Z.eqb_spec m 0); [lia|]. destruct (Z.ltb_spec m 0); [lia|]. rewrite Z.abs_eq by lia. reflexivity. Qed.
Lemma sv_neg b n m : (1 <= m)%Z -> sv b n (- m) = pm hh 1 (b (acn n m)) (b (acn n (- m))).
Proof. intros H. unfold sv, cc, ss. destruct (Z.eqb_spec (- m) 0); [lia|]. destruct (Z.ltb_spec (- m) 0); [|lia]. rewrite Z.abs_neq, Z.opp_involutive by lia. reflexivity. Qed.
Lemma sv_zero b n : sv b n 0 = b (acn n 0).
Proof. reflexivity. Qed.

Lemma value_order n b azi zen : csum (2 * n + 1) (fun k => cmul (sph_harm (Z.of_nat k - Z.of_nat n) n azi zen) (tc b (n * n + k)%nat)) =
  csum (2 * n + 1) (fun k => cmul (cre (sh_real n (Z.of_nat k - Z.of_nat n) azi zen)) (b (n * n + k)%nat)).
Proof.
  rewrite (csum_ext' (2 * n + 1) _ (fun k => (fun m => cmul (sph_harm m n azi zen) (sv b n m)) (Z.of_nat k - Z.of_nat n)%Z)) by (intros k Hk; cbv beta; rewrite tc_at by auto; reflexivity).
  rewrite (csum_ext' (2 * n + 1) (fun k => cmul (cre _) _) (fun k => (fun m => cmul (cre (sh_real n m azi zen)) (b (acn n m))) (Z.of_nat k - Z.of_nat n)%Z)) by (intros k Hk; cbv beta; rewrite acn_at by auto; reflexivity).
  rewrite (csum_sym n (fun m => cmul (sph_harm m n azi zen) (sv b n m))), (csum_sym n (fun m => cmul (cre (sh_real n m azi zen)) (b (acn n m)))). f_equal.
  - rewrite sv_zero, basis_zero. reflexivity.
  - apply csum_ext'. intros i Hi. rewrite sv_pos, sv_neg, basis_pos, basis_neg by lia.
    pose proof (m1sq (Z.to_nat (Z.of_nat (S i)))) as M1. set (e := (-1) ^ Z.to_nat (Z.of_nat (S i))) in *. pose proof hh2 as H2. fold hh. unfold Rdiv. fold hh.
    destruct (b (acn n (Z.of_nat (S i)))) as [p1 p2]. destruct (b (acn n (- Z.of_nat (S i)))) as [q1 q2]. set (x := sh_real n (Z.of_nat (S i)) azi zen). set (y := sh_real n (- Z.of_nat (S i)) azi zen).
    apply ceq; unfold cadd, cmul, cscal, cre, pm; cbn [fst snd].
    + transitivity ((e * e + 1) * (hh * hh) * (p1 * x + q1 * y) + (e * e - 1) * (hh * hh) * (q2 * x - p2 * y)); [ring|]. rewrite M1, H2. field.
    + transitivity ((e * e + 1) * (hh * hh) * (p2 * x + q2 * y) + (e * e - 1) * (hh * hh) * (p1 * y - q1 * x)); [ring|]. rewrite M1, H2. field.
Qed.
Lemma norm_order n b : rsum (2 * n + 1) (fun k => cnorm2 (tc b (n * n + k)%nat)) = rsum (2 * n + 1) (fun k => cnorm2 (b (n * n + k)%nat)).
Proof.
  assert (E : csum (2 * n + 1) (fun k => cre (cnorm2 (tc b (n * n + k)%nat))) = csum (2 * n + 1) (fun k => cre (cnorm2 (b (n * n + k)%nat)))).
  { rewrite (csum_ext' (2 * n + 1) _ (fun k => (fun m => cre (cnorm2 (sv b n m))) (Z.of_nat k - Z.of_nat n)%Z)) by (intros k Hk; cbv beta; rewrite tc_at by auto; reflexivity).
    rewrite (csum_ext' (2 * n + 1) (fun k => cre (cnorm2 (b _))) (fun k => (fun m => cre (cnorm2 (b (acn n m)))) (Z.of_nat k - Z.of_nat n)%Z)) by (intros k Hk; cbv beta; rewrite acn_at by auto; reflexivity).
    rewrite (csum_sym n (fun m => cre (cnorm2 (sv b n m)))), (csum_sym n (fun m => cre (cnorm2 (b (acn n m))))). f_equal.
    apply csum_ext'. intros i Hi. rewrite sv_pos, sv_neg by lia. pose proof (m1sq (Z.to_nat (Z.of_nat (S i)))) as M1. set (e := (-1) ^ Z.to_nat (Z.of_nat (S i))) in *. pose proof hh2 as H2.
    destruct (b (acn n (Z.of_nat (S i)))) as [p1 p2]. destruct (b (acn n (- Z.of_nat (S i)))) as [q1 q2].
    apply ceq; unfold cadd, cre, cnorm2, pm; cbn [fst snd]; [|ring].
    transitivity (e * e * (hh * hh) * ((p1 + q2) ^ 2 + (p2 - q1) ^ 2) + hh * hh * ((p1 - q2) ^ 2 + (p2 + q1) ^ 2)); [ring|]. rewrite M1, H2. field. }
  rewrite !csum_cre in E. injection E as E. exact E.
Qed.
Lemma norm_tc N b : csumsq ((N + 1) ^ 2) (tc b) = csumsq ((N + 1) ^ 2) b.
Proof. unfold csumsq. replace ((N + 1) ^ 2)%nat with ((N + 1) * (N + 1))%nat by (cbn [Nat.pow]; lia). rewrite !rsum_acn. apply rsum_ext. intros n _. apply norm_order. Qed.
(** the way back *)
Definition bv (a : nat -> C2) (n : nat) (m : Z) : C2 :=
  let u := a (acn n (Z.abs m)) in let v := a (acn n (- Z.abs m)) in let e := (-1) ^ Z.to_nat (Z.abs m) in
  if (m =? 0)%Z then a (acn n 0) else if (m <? 0)%Z then (- (hh * (e * snd u - snd v)), hh * (e * fst u - fst v)) else (hh * (e * fst u + fst v), hh * (e * snd u + snd v)).
Definition tb (a : nat -> C2) (j : nat) : C2 := let n := Nat.sqrt j in bv a n (Z.of_nat j - Z.of_nat (n * n) - Z.of_nat n).
Lemma tb_at a n m : degree n m -> tb a (acn n m) = bv a n m.
Proof. intros D. destruct (acn_eq n m D) as (k & -> & Hk & <-). unfold tb. rewrite sqrt_at by exact Hk. cbv zeta. f_equal. lia. Qed.
Lemma tc_tb N a j : (j < (N + 1) ^ 2)%nat -> tc (tb a) j = a j.
Proof.
  intros Hj. destruct (acn_decomp N j Hj) as (n & k & Hn & Hk & ->). rewrite tc_at by exact Hk. rewrite <- (acn_at n k Hk). set (m := (Z.of_nat k - Z.of_nat n)%Z). assert (D : degree n m) by (unfold degree, m; lia).
  pose proof (m1sq (Z.to_nat (Z.abs m))) as M1. pose proof hh2 as H2.
  assert (D1 : degree n (Z.abs m)) by (unfold degree in *; lia). assert (D2 : degree n (- Z.abs m)) by (unfold degree in *; lia).
  unfold sv. destruct (Z.eqb_spec m 0) as [Z0|Z0].
  - rewrite tb_at by (unfold degree; lia). rewrite Z0. reflexivity.
  - rewrite !tb_at by assumption. unfold bv. rewrite !Z.abs_opp, !Z.abs_involutive.
    destruct (Z.eqb_spec (Z.abs m) 0); [lia|]. destruct (Z.ltb_spec (Z.abs m) 0); [lia|]. destruct (Z.eqb_spec (- Z.abs m) 0); [lia|]. destruct (Z.ltb_spec (- Z.abs m) 0); [|lia].
    set (e := (-1) ^ Z.to_nat (Z.abs m)) in *. unfold cc, ss. destruct (Z.ltb_spec m 0).
    + rewrite (Z.abs_neq m) by lia. rewrite Z.opp_involutive. destruct (a (acn n (- m))) as [u1 u2]. destruct (a (acn n m)) as [v1 v2]. apply ceq; unfold pm; cbn [fst snd].
      * transitivity (2 * (hh * hh) * v1); [ring|]. rewrite H2. field.
      * transitivity (2 * (hh * hh) * v2); [ring|]. rewrite H2. field.
    + replace (Z.to_nat m) with (Z.to_nat (Z.abs m)) by lia. fold e. rewrite (Z.abs_eq m) by lia. destruct (a (acn n m)) as [u1 u2]. destruct (a (acn n (- m))) as [v1 v2]. apply ceq; unfold pm; cbn [fst snd].
      * transitivity (2 * (e * e) * (hh * hh) * u1); [ring|]. rewrite M1, H2. field.
      * transitivity (2 * (e * e) * (hh * hh) * u2); [ring|]. rewrite M1, H2. field.
Qed.
Lemma csum_pm Q c s f g : csum Q (fun q => pm c s (f q) (g q)) = pm c s (csum Q f) (csum Q g).
Proof.
  unfold csum, pm. cbn [fst snd]. f_equal.
  - rewrite rsum_scal. f_equal. rewrite (rsum_ext Q _ (fun q => fst (f q) + - s * snd (g q))) by (intros; ring). rewrite rsum_plus, rsum_scal. ring.
  - rewrite rsum_scal. f_equal. rewrite rsum_plus, rsum_scal. ring.
Qed.

Section Same.
Variables (N : nat) (azi zen : list R) (Y : mat) (Yc : cmat).
Hypothesis RY : nr Y = length azi.
Hypothesis CY : nc Y = ((N + 1) ^ 2)%nat.
Hypothesis Rc : cnr Yc = length azi.
Hypothesis Cc : cnc Yc = ((N + 1) ^ 2)%nat.
Hypothesis HY : forall q n k, (q < length azi)%nat -> (n <= N)%nat -> (k < 2 * n + 1)%nat -> ent Y q (n * n + k) = sh_real n (Z.of_nat k - Z.of_nat n) (nth q azi 0) (nth q zen 0).
Hypothesis Hc : forall q n k, (q < length azi)%nat -> (n <= N)%nat -> (k < 2 * n + 1)%nat -> cent Yc q (n * n + k) = sph_harm (Z.of_nat k - Z.of_nat n) n (nth q azi 0) (nth q zen 0).
Let G := CMat (cnc Yc) (cnc Yc) (fun i j => csum (cnr Yc) (fun q => cmul (cconj (cent Yc q i)) (cent Yc q j))).
Definition parts (x y : nat -> R) (i : nat) : C2 := (x i, y i).
Lemma apply_c b q : (q < length azi)%nat -> csum (cnc Yc) (fun j => cmul (cent Yc q j) (tc b j)) = csum (nc Y) (fun j => cmul (cre (ent Y q j)) (b j)).
Proof.
  intros Hq. rewrite Cc, CY, !csum_acn. apply csum_ext'. intros n Hn.
  rewrite (csum_ext' _ _ (fun k => cmul (sph_harm (Z.of_nat k - Z.of_nat n) n (nth q azi 0) (nth q zen 0)) (tc b (n * n + k)%nat))) by (intros k Hk; rewrite Hc by (auto; lia); reflexivity).
  rewrite value_order. apply csum_ext'. intros k Hk. rewrite HY by (auto; lia). reflexivity.
Qed.
Lemma adjoint_c (u : nat -> C2) i : (i < (N + 1) ^ 2)%nat ->
  csum (length azi) (fun q => cmul (cconj (cent Yc q i)) (u q)) = tc (fun i => csum (length azi) (fun q => cmul (cre (ent Y q i)) (u q))) i.
Proof.
  intros Hi. destruct (acn_decomp N i Hi) as (n & k & Hn & Hk & ->). rewrite tc_at by exact Hk. set (m := (Z.of_nat k - Z.of_nat n)%Z). assert (D : degree n m) by (unfold degree, m; lia).
  rewrite (csum_ext' _ _ (fun q => cmul (cconj (sph_harm m n (nth q azi 0) (nth q zen 0))) (u q))) by (intros q Hq; rewrite Hc by auto; reflexivity).
  assert (V : forall m', degree n m' -> csum (length azi) (fun q => cmul (cre (ent Y q (acn n m'))) (u q)) = csum (length azi) (fun q => cmul (cre (sh_real n m' (nth q azi 0) (nth q zen 0))) (u q))).
  { intros m' D'. destruct (acn_eq n m' D') as (k' & -> & Hk' & <-). apply csum_ext'. intros q Hq. rewrite HY by auto. reflexivity. }
  unfold sv. destruct (Z.eqb_spec m 0) as [->|Z0].
  - rewrite V by (unfold degree; lia). apply csum_ext'. intros q Hq. rewrite basis_zero. apply ceq; unfold cmul, cconj, cre; cbn [fst snd]; ring.
  - rewrite !V by (unfold degree in *; lia). rewrite <- csum_pm. apply csum_ext'. intros q Hq. unfold cc, ss. destruct (Z.ltb_spec m 0).
    + replace m with (- Z.abs m)%Z at 1 by lia. rewrite basis_neg by lia. fold hh. apply ceq; unfold cmul, cconj, cscal, cre, pm; cbn [fst snd]; ring.
    + rewrite (Z.abs_eq m) by lia. rewrite basis_pos by lia. unfold Rdiv. fold hh. apply ceq; unfold cmul, cconj, cscal, cre, pm; cbn [fst snd]; ring.
Qed.
Lemma csum_parts n (c : nat -> R) x y : csum n (fun j => cmul (cre (c j)) (parts x y j)) = (rsum n (fun j => c j * x j), rsum n (fun j => c j * y j)).
Proof. unfold csum, parts, cmul, cre. cbn [fst snd]. f_equal; apply rsum_ext; intros; ring. Qed.
Lemma tc_ext b b' j : (forall i, (i < (N + 1) ^ 2)%nat -> b i = b' i) -> (j < (N + 1) ^ 2)%nat -> tc b j = tc b' j.
Proof.
  intros H Hj. destruct (acn_decomp N j Hj) as (n & k & Hn & Hk & ->). rewrite !tc_at by exact Hk. unfold sv.
  rewrite !H by (apply acn_lt; [exact Hn|unfold degree; lia]). reflexivity.
Qed.
Lemma gram_c x y i : (i < (N + 1) ^ 2)%nat -> cact G (tc (parts x y)) i = tc (parts (act (gram Y) x) (act (gram Y) y)) i.
Proof.
  intros Hi. unfold cact, G. cbn [cnc cent].
  rewrite <- (cassoc (cnr Yc) (cnc Yc) (fun q => cconj (cent Yc q i)) (fun q j => cent Yc q j) (tc (parts x y))). rewrite Rc.
  rewrite (csum_ext' _ _ (fun q => cmul (cconj (cent Yc q i)) (parts (act Y x) (act Y y) q))).
  - rewrite adjoint_c by exact Hi. apply tc_ext; [|exact Hi]. intros i' Hi'. rewrite csum_parts. unfold parts. rewrite !act_gram, RY. reflexivity.
  - intros q Hq. rewrite apply_c by exact Hq. rewrite csum_parts. reflexivity.
Qed.
Lemma csumsq_parts n x y : csumsq n (parts x y) = sumsq n x + sumsq n y.
Proof. unfold csumsq, sumsq, parts, cnorm2. cbn [fst snd]. rewrite <- rsum_plus. apply rsum_ext. intros; ring. Qed.
Lemma size_in x y : csumsq (cnc G) (tc (parts x y)) = sumsq (nc (gram Y)) x + sumsq (nc (gram Y)) y.
Proof. cbn [G cnc gram nc]. rewrite Cc, CY, norm_tc. apply csumsq_parts. Qed.
Lemma size_out x y : csumsq (cnr G) (cact G (tc (parts x y))) = sumsq (nr (gram Y)) (act (gram Y) x) + sumsq (nr (gram Y)) (act (gram Y) y).
Proof.
  cbn [G cnr gram nr]. fold (gram Y). fold G. rewrite Cc, CY. rewrite (csumsq_ext _ _ (tc (parts (act (gram Y) x) (act (gram Y) y)))) by (intros; apply gram_c; assumption).
  rewrite norm_tc. apply csumsq_parts.
Qed.
Lemma all_parts (a : nat -> C2) : exists x y, forall j, (j < cnc G)%nat -> a j = tc (parts x y) j.
Proof.
  exists (fun i => fst (tb a i)), (fun i => snd (tb a i)). intros j Hj. cbn [G cnc] in Hj. rewrite Cc in Hj. rewrite <- (tc_tb N a j Hj) at 1. apply tc_ext; [|exact Hj]. intros i _. unfold parts. destruct (tb a i); reflexivity.
Qed.
Lemma zero_sumsq n : sumsq n (fun _ => 0) = 0.
Proof. apply rsum_0. intros; ring. Qed.
Lemma zero_act A : sumsq (nr A) (act A (fun _ => 0)) = 0.
Proof. apply rsum_0. intros i _. unfold act. rewrite rsum_0 by (intros; ring). ring. Qed.
Lemma same_amp K : camplifies_within G K <-> amplifies_within (gram Y) K.
Proof.
  split; intros (K0 & H); (split; [exact K0|]); intros x y.
  - specialize (H (tc (parts x (fun _ => 0))) (tc (parts y (fun _ => 0)))). rewrite !size_in, !size_out, !zero_sumsq, !zero_act, !Rplus_0_r in H. exact H.
  - destruct (all_parts x) as (x1 & x2 & X). destruct (all_parts y) as (y1 & y2 & Z).
    rewrite (csumsq_ext (cnc G) x _ X), (csumsq_ext (cnc G) y _ Z).
    rewrite (csumsq_ext (cnr G) (cact G x) (cact G (tc (parts x1 x2)))) by (intros; apply cact_ext, X). rewrite (csumsq_ext (cnr G) (cact G y) (cact G (tc (parts y1 y2)))) by (intros; apply cact_ext, Z).
    rewrite !size_in, !size_out. pose proof (H x1 y1). pose proof (H x1 y2). pose proof (H x2 y1). pose proof (H x2 y2). nra.
Qed.
Lemma csumsq_zero n x : csumsq n x = 0 -> forall i, (i < n)%nat -> x i = (0, 0).
Proof.
  intros H i Hi. assert (P : forall j, 0 <= cnorm2 (x j)) by (intros j; unfold cnorm2; nra). pose proof (rsum_nonneg_0 n (fun i => cnorm2 (x i)) (fun j _ => P j) H i Hi) as E. cbv beta in E. unfold cnorm2 in E. destruct (x i) as [u v]. cbn [fst snd] in E. f_equal; nra.
Qed.
Lemma same_reg : cregular G <-> regular (gram Y).
Proof.
  split; intros H.
  - intros x Z0. apply sumsq_zero. set (z := fun _ : nat => 0).
    assert (E : csumsq (cnc G) (tc (parts x z)) = 0).
    { apply rsum_0. intros j Hj. rewrite (H (tc (parts x z))); [unfold cnorm2; cbn [fst snd]; ring| |exact Hj]. apply csumsq_zero. rewrite size_out. unfold z. rewrite zero_act. rewrite Rplus_0_r. apply rsum_0. intros i Hi. rewrite Z0 by exact Hi. ring. }
    rewrite size_in in E. unfold z in E. rewrite zero_sumsq in E. lra.
  - intros a Z0. destruct (all_parts a) as (x & y & X). apply csumsq_zero. rewrite (csumsq_ext _ _ _ X), size_in.
    assert (E : csumsq (cnr G) (cact G (tc (parts x y))) = 0).
    { apply rsum_0. intros i Hi. rewrite <- (cact_ext G a _ i X), Z0 by exact Hi. unfold cnorm2. cbn [fst snd]. ring. }
    rewrite size_out in E. pose proof (sumsq_pos (nr (gram Y)) (act (gram Y) x)). pose proof (sumsq_pos (nr (gram Y)) (act (gram Y) y)).
    assert (E1 : sumsq (nr (gram Y)) (act (gram Y) x) = 0) by lra. assert (E2 : sumsq (nr (gram Y)) (act (gram Y) y) = 0) by lra.
    pose proof (H x (sumsq_zero _ _ E1)) as V1. pose proof (H y (sumsq_zero _ _ E2)) as V2. unfold sumsq. rewrite !rsum_0; [ring| |]; intros i Hi; [rewrite V2 by exact Hi|rewrite V1 by exact Hi]; ring.
Qed.
Lemma same_cond cond ccond : cond_contract cond -> ccond_contract ccond -> cond (gram Y) = ccond G \/ 200 < cond (gram Y) /\ 200 < ccond G.
Proof.
  intros HA HB. destruct (HA (gram Y) eq_refl) as (A1 & A2); [cbn [gram nc]; rewrite CY; apply sq0|]. destruct (HB G eq_refl) as (B1 & B2); [cbn [G cnc]; rewrite Cc; apply sq0|].
  destruct (Classical_Prop.classic (regular (gram Y))) as [R|R].
  - left. destruct (A1 R) as (A3 & A4). destruct (B1 (proj2 same_reg R)) as (B3 & B4). apply Rle_antisym; [apply A4, same_amp; exact B3|apply B4, same_amp; exact A3].
  - right. split; [apply A2; exact R|apply B2; intros C; apply R, same_reg; exact C].
Qed.
End Same.
Lemma f_cond_same cond ccond N azi zen lim l : cond_contract cond -> ccond_contract ccond -> length zen = length azi -> limit_is N lim l ->
  exists c c' printed printed', check_cond_says cond N azi zen lim = Ok (c, printed) /\ check_cond_says_c ccond N azi zen lim = Ok (c', printed') /\
    (c = c' \/ 200 < c /\ 200 < c') /\ (l <= 200 -> printed = printed').
Proof.
  intros HA HB L HL. destruct (sh_matrix_ok N azi zen L) as (Y & E & RY & CY & HY). destruct (sh_matrix_c_ok N azi zen L) as (Yc & Ec & Rc & Cc & Hc).
  pose proof (same_cond N azi zen Y Yc RY CY Rc Cc HY Hc cond ccond HA HB) as S.
  set (G := CMat _ _ _) in S. exists (cond (gram Y)), (ccond G), (Rltb l (cond (gram Y))), (Rltb l (ccond G)). rewrite (says cond N azi zen lim Y E), (limit_value _ _ _ HL).
  split; [reflexivity|]. split; [|split; [exact S|]].
  - unfold check_cond_says_c. rewrite Ec. cbn [bind]. rewrite cmatmul_ok by reflexivity. cbn [bind]. rewrite (limit_value _ _ _ HL). reflexivity.
  - intros B. destruct S as [->|(S1 & S2)]; [reflexivity|]. rewrite !(proj2 (Rltb_true _ _)) by lra. reflexivity.
Qed.
