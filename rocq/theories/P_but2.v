(** Butterworth band-pass filters of order 2: the design, the poles and the gain. *)
From Coq Require Import Lra Lia Ring.
From Verif Require Import Base BaseFacts M_utils M_sig M_sph0 M_sph M_parsa3 M_process3 S_process3 M_zp S_zp P_lfilter P_cplx P_zp1 S_process4 M_process M_process4 P_ff3 P_ff5 P_but1.
Open Scope R_scope.

Lemma tan_range w : 0 < w < 1 -> 0 < tan (PI * w / 2).
Proof. intros H. pose proof PI_RGT_0. apply tan_gt_0; nra. Qed.
Lemma tan_order w w' : 0 < w -> w < w' -> w' < 1 -> tan (PI * w / 2) < tan (PI * w' / 2).
Proof. intros A B C. pose proof PI_RGT_0. apply tan_increasing; nra. Qed.
Definition star (z : C2) : C2 := (fst z, - snd z).
Lemma bil_star s : bilinear1 (star s) = star (bilinear1 s).
Proof. unfold bilinear1, cdiv, star, cadd, csub2, c_of. cbn [fst snd]. f_equal; [f_equal|rewrite <- Ropp_div; f_equal]; try ring; f_equal; ring. Qed.
(** the analog poles q + r, q - r, and their conjugates *)
Record analog (wo2 h : R) (s s' : C2) : Prop := {
  an_sum : fst s + fst s' = - 2 * h /\ snd s + snd s' = 2 * h;
  an_prod : fst s * fst s' - snd s * snd s' = wo2 /\ fst s * snd s' + snd s * fst s' = 0;
  an_left : fst s < 0 /\ fst s' < 0;
  an_im : snd s <> 0 /\ snd s' <> 0 }.
Lemma butter_form w1 w2 : 0 < w1 -> w1 < w2 -> w2 < 1 ->
  let T1 := tan (PI * w1 / 2) in let T2 := tan (PI * w2 / 2) in
  exists h s s', h ^ 2 = 2 * (T2 - T1) ^ 2 /\ 0 < h /\ analog (16 * (T1 * T2)) h s s' /\
    butter_zpk w1 w2 = Ok (Zpk [(1, 0); (1, 0); (-1, 0); (-1, 0)] [bilinear1 s; star (bilinear1 s); bilinear1 s'; star (bilinear1 s')]
      (256 * (T2 - T1) ^ 2 / (nrm (csub2 (c_of 4) s) * nrm (csub2 (c_of 4) s')))).
Proof.
  intros A B C T1 T2. assert (P1 : 0 < T1) by (apply tan_range; lra). assert (P2 : T1 < T2) by (apply tan_order; lra). set (h := 2 * (T2 - T1) * (1 / sqrt 2)). assert (Q2 : 0 < sqrt 2) by (apply sqrt_lt_R0; lra). assert (HP : 0 < h) by (unfold h; apply Rmult_lt_0_compat; [lra|apply Rdiv_lt_0_compat; lra]).
  assert (HS : h ^ 2 = 2 * (T2 - T1) ^ 2). { unfold h. pose proof (sqrt_sqrt 2 ltac:(lra)) as S2. replace ((2 * (T2 - T1) * (1 / sqrt 2)) ^ 2) with (4 * (T2 - T1) ^ 2 * / (sqrt 2 * sqrt 2)) by (field; lra). rewrite S2. field. }
  set (q := (- h, h) : C2). set (wo2 := 16 * (T1 * T2)). assert (W0 : 0 < wo2) by (unfold wo2; assert (0 < T1 * T2) by (apply Rmult_lt_0_compat; lra); lra). set (z := csub2 (cmul q q) (c_of wo2)). assert (ZS : snd z = - 2 * h ^ 2) by (unfold z, csub2, cmul, c_of, q; cbn [fst snd]; ring). assert (ZF : fst z = - wo2) by (unfold z, csub2, cmul, c_of, q; cbn [fst snd]; ring). assert (Z0 : snd z < 0) by (rewrite ZS; pose proof (pow_lt h 2 HP); lra).
  set (r := c_sqrt z). destruct (csqrt_parts z) as [E1 E2]. destruct (csqrt_sign z Z0) as [S1 S2]. fold r in E1, E2, S1, S2. rewrite ZF in E1. rewrite ZS in E2. assert (E3 : fst r * - snd r = h * h) by (replace (h * h) with (h ^ 2) by ring; lra). assert (AL : fst r < h). { destruct (Rlt_le_dec (fst r) h) as [K|K]; [exact K|]. assert (- snd r <= h). { destruct (Rle_lt_dec (- snd r) h) as [J|J]; [exact J|]. exfalso. assert (h * h < fst r * - snd r) by (apply Rle_lt_trans with (fst r * h); [apply Rmult_le_compat_r; lra|apply Rmult_lt_compat_l; lra]). lra. } assert (snd r * snd r <= h * h) by nra. assert (h * h <= fst r * fst r) by nra. lra. } set (s := cadd q r). set (s' := csub2 q r).
  assert (AN : analog wo2 h s s').
  { constructor; unfold s, s', cadd, csub2, q; cbn [fst snd].
    - lra.
    - split; [|ring_simplify; nra]. nra.
    - lra.
    - split; [|lra]. intros K. assert (K1 : snd r = - h) by lra. rewrite K1 in E1, E3. assert (fst r = h) by nra. nra. }
  exists h, s, s'. split; [exact HS|]. split; [exact HP|]. split; [exact AN|].
  unfold butter_zpk, Rltb. destruct (Rlt_dec 0 w1); [|lra]. destruct (Rlt_dec 0 w2); [|lra]. destruct (Rlt_dec w1 w2); [|lra]. destruct (Rlt_dec w1 1); [|lra]. destruct (Rlt_dec w2 1); [|lra]. cbn [andb negb]. cbv zeta. fold T1 T2.
  assert (EW : sqrt (2 * 2 * T1 * (2 * 2 * T2)) ^ 2 = wo2). { replace (2 * 2 * T1 * (2 * 2 * T2)) with wo2 by (unfold wo2; ring). replace (sqrt wo2 ^ 2) with (sqrt wo2 * sqrt wo2) by ring. apply sqrt_sqrt. lra. }
  assert (EP : lp2bp_poles buttap2 (sqrt (2 * 2 * T1 * (2 * 2 * T2))) (2 * 2 * T2 - 2 * 2 * T1) = [s; star s; s'; star s']).
  { unfold lp2bp_poles, buttap2. cbn [map app]. rewrite EW. unfold cexpi. replace (PI * -1 / 4) with (- (PI / 4)) by field. replace (PI * 1 / 4) with (PI / 4) by field. rewrite cos_neg, sin_neg, cos_PI4, sin_PI4.
    replace (cscal ((2 * 2 * T2 - 2 * 2 * T1) / 2) (cscal (-1) (1 / sqrt 2, - (1 / sqrt 2)))) with q by (unfold cscal, q, h; cbn [fst snd]; f_equal; field; lra).
    replace (cscal ((2 * 2 * T2 - 2 * 2 * T1) / 2) (cscal (-1) (1 / sqrt 2, 1 / sqrt 2))) with (star q) by (unfold cscal, q, h, star; cbn [fst snd]; f_equal; field; lra).
    fold z. replace (csub2 (cmul (star q) (star q)) (c_of wo2)) with (fst z, - snd z) by (unfold z, csub2, cmul, c_of, star; cbn [fst snd]; f_equal; ring). rewrite csqrt_conj by exact Z0. fold r. fold s s'.
    replace (cadd (star q) (fst r, - snd r)) with (star s) by (unfold s, star, cadd; cbn [fst snd]; f_equal; ring). replace (csub2 (star q) (fst r, - snd r)) with (star s') by (unfold s', star, csub2; cbn [fst snd]; f_equal; ring). reflexivity. }
  rewrite EP. cbn [repeat map length app Nat.sub]. rewrite !bil_star. f_equal. f_equal.
  - replace (bilinear1 (0, 0)) with ((1, 0) : C2) by (unfold bilinear1, cdiv, cadd, csub2, c_of; cbn [fst snd]; f_equal; field). reflexivity.
  - unfold bilinear_gain, cprod. cbn [map fold_left]. set (u := csub2 (c_of 4) s). set (u' := csub2 (c_of 4) s'). replace (csub2 (c_of 4) (star s)) with (star u) by (unfold u, csub2, c_of, star; cbn [fst snd]; f_equal; ring). replace (csub2 (c_of 4) (star s')) with (star u') by (unfold u', csub2, c_of, star; cbn [fst snd]; f_equal; ring).
    replace (cmul (cmul (cmul (cmul (1, 0) u) (star u)) u') (star u')) with ((nrm u * nrm u', 0) : C2) by (unfold nrm, cmul, star; cbn [fst snd]; f_equal; ring). replace (cmul (cmul (1, 0) (csub2 (c_of 4) (0, 0))) (csub2 (c_of 4) (0, 0))) with ((16, 0) : C2) by (unfold csub2, cmul, c_of; cbn [fst snd]; f_equal; ring).
    assert (U0 : 0 < nrm u) by (apply nrm_pos; left; unfold u, csub2, c_of; cbn [fst snd]; destruct (an_left _ _ _ _ AN); lra). assert (U0' : 0 < nrm u') by (apply nrm_pos; left; unfold u', csub2, c_of; cbn [fst snd]; destruct (an_left _ _ _ _ AN); lra). unfold cdiv. cbn [fst snd]. field. split; lra.
Qed.
Lemma bil_inside s : fst s < 0 -> cabs (bilinear1 s) < 1.
Proof.
  intros H. assert (D : 0 < nrm (csub2 (c_of 4) s)) by (apply nrm_pos; left; unfold csub2, c_of; cbn [fst snd]; lra). assert (E : nrm (bilinear1 s) * nrm (csub2 (c_of 4) s) = nrm (cadd (c_of 4) s)). { unfold nrm in *. unfold bilinear1, cdiv, cadd, csub2, c_of in *. cbn [fst snd] in *. field. lra. }
  assert (L : nrm (cadd (c_of 4) s) < nrm (csub2 (c_of 4) s)) by (unfold nrm, cadd, csub2, c_of; cbn [fst snd]; nra). assert (N : nrm (bilinear1 s) < 1) by nra. rewrite nrm_abs in N. pose proof (cabs_ge0 (bilinear1 s)). nra.
Qed.
Lemma bil_im s : fst s < 0 -> snd s <> 0 -> nrm (bilinear1 s) <> 0.
Proof.
  intros H I. assert (D : 0 < nrm (csub2 (c_of 4) s)) by (apply nrm_pos; left; unfold csub2, c_of; cbn [fst snd]; lra). assert (E : nrm (bilinear1 s) * nrm (csub2 (c_of 4) s) = nrm (cadd (c_of 4) s)). { unfold nrm in *. unfold bilinear1, cdiv, cadd, csub2, c_of in *. cbn [fst snd] in *. field. lra. }
  intros K. rewrite K, Rmult_0_l in E. assert (0 < nrm (cadd (c_of 4) s)) by (apply nrm_pos; right; unfold cadd, c_of; cbn [fst snd]; lra). lra.
Qed.
(** distance of a point of the unit circle to a pole *)
Lemma bil_dist s n c : fst s < 0 -> n ^ 2 + c ^ 2 = 1 ->
  nrm (csub2 (c ^ 2 - n ^ 2, 2 * n * c) (bilinear1 s)) * nrm (csub2 (c_of 4) s) = 4 * nrm (- fst s * c, 4 * n - snd s * c).
Proof.
  intros H E. assert (D : 0 < nrm (csub2 (c_of 4) s)) by (apply nrm_pos; left; unfold csub2, c_of; cbn [fst snd]; lra). rewrite <- nrm_mul.
  replace (cmul (csub2 (c ^ 2 - n ^ 2, 2 * n * c) (bilinear1 s)) (csub2 (c_of 4) s)) with (cmul (2 * c, 2 * n) (- fst s * c, 4 * n - snd s * c)).
  - rewrite nrm_mul. unfold nrm at 1. cbn [fst snd]. replace ((2 * c) ^ 2 + (2 * n) ^ 2) with (4 * (n ^ 2 + c ^ 2)) by ring. rewrite E. ring.
  - assert (M : cmul (bilinear1 s) (csub2 (c_of 4) s) = cadd (c_of 4) s). { unfold nrm in D. unfold bilinear1, cdiv, cmul, cadd, csub2, c_of in *. cbn [fst snd] in *. f_equal; field; lra. }
    replace (cmul (csub2 (c ^ 2 - n ^ 2, 2 * n * c) (bilinear1 s)) (csub2 (c_of 4) s)) with (csub2 (cmul (c ^ 2 - n ^ 2, 2 * n * c) (csub2 (c_of 4) s)) (cmul (bilinear1 s) (csub2 (c_of 4) s))) by (unfold cmul, csub2; cbn [fst snd]; f_equal; ring). rewrite M. unfold cmul, csub2, cadd, c_of. cbn [fst snd]. assert (E4 : c ^ 2 = 1 - n ^ 2) by lra. f_equal; rewrite ?E4; ring_simplify; rewrite ?E4; ring.
Qed.
Lemma four_dist wo2 h s s' n c : analog wo2 h s s' ->
  nrm (- fst s * c, 4 * n - snd s * c) * nrm (- fst s * c, 4 * n + snd s * c) * (nrm (- fst s' * c, 4 * n - snd s' * c) * nrm (- fst s' * c, 4 * n + snd s' * c)) =
  (wo2 * c ^ 2 - 16 * n ^ 2) ^ 4 + 4 * (8 * h * n * c) ^ 4.
Proof.
  intros [[A1 A2] [B1 B2] _ _].
  assert (X : nrm (- fst s * c, 4 * n - snd s * c) * nrm (- fst s' * c, 4 * n - snd s' * c) = (wo2 * c ^ 2 - 16 * n ^ 2 + 8 * h * n * c) ^ 2 + (8 * h * n * c) ^ 2).
  { rewrite <- nrm_mul. unfold nrm, cmul. cbn [fst snd]. f_equal; f_equal.
    - rewrite <- B1. transitivity ((fst s * fst s' - snd s * snd s') * c ^ 2 - 16 * n ^ 2 + 4 * n * c * (snd s + snd s')); [ring|rewrite A2; ring].
    - transitivity (- 4 * n * c * (fst s + fst s') + c ^ 2 * (fst s * snd s' + snd s * fst s')); [ring|rewrite A1, B2; ring]. }
  assert (Y : nrm (- fst s * c, 4 * n + snd s * c) * nrm (- fst s' * c, 4 * n + snd s' * c) = (wo2 * c ^ 2 - 16 * n ^ 2 - 8 * h * n * c) ^ 2 + (8 * h * n * c) ^ 2).
  { rewrite <- nrm_mul. unfold nrm, cmul. cbn [fst snd]. f_equal; f_equal.
    - rewrite <- B1. transitivity ((fst s * fst s' - snd s * snd s') * c ^ 2 - 16 * n ^ 2 - 4 * n * c * (snd s + snd s')); [ring|rewrite A2; ring].
    - transitivity (- 4 * n * c * (fst s + fst s') - c ^ 2 * (fst s * snd s' + snd s * fst s')); [ring|rewrite A1, B2; ring]. }
  match goal with |- ?p * ?p' * (?r * ?r') = _ => replace (p * p' * (r * r')) with ((p * r) * (p' * r')) by ring end. rewrite X, Y. ring.
Qed.
