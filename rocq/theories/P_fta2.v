(** Roots, factors and uniqueness of the factors. *)
From Coq Require Import Lra Lia Ring ClassicalEpsilon Permutation.
From Verif Require Import Base BaseFacts M_utils M_sig M_sph0 M_sph M_parsa3 M_process3 M_zp S_zp P_utils P_cplx P_svd1 P_zp1 P_fta1.
Open Scope R_scope.
Add Ring C2ring_fta2 : cring.

Lemma moivre r f n : cpow (r * cos f, r * sin f) n = (r ^ n * cos (INR n * f), r ^ n * sin (INR n * f)).
Proof.
  induction n as [|n IH]; [cbn [cpow pow]; change (INR 0) with 0; rewrite Rmult_0_l, cos_0, sin_0; f_equal; ring|].
  rewrite cpow_S, IH, S_INR. replace ((INR n + 1) * f) with (INR n * f + f) by ring. rewrite cos_plus, sin_plus. apply ceq; unfold cmul; cbn [fst snd pow]; ring.
Qed.
Lemma polar_form z : exists f, z = (cabs z * cos f, cabs z * sin f).
Proof.
  destruct (Req_dec (cabs z) 0) as [E|N].
  - exists 0. rewrite E. rewrite (cabs_0 z E). unfold cre. f_equal; ring.
  - exists (arctan2 (snd z) (fst z)). destruct (arctan2_polar (snd z) (fst z)) as [A B].
    assert (S : cabs z = sqrt (fst z * fst z + snd z * snd z)) by (unfold cabs; f_equal; ring). cbv zeta in A, B. rewrite <- S in A, B. apply ceq; cbn [fst snd]; symmetry; assumption.
Qed.
Lemma croot z n : (0 < n)%nat -> exists w, cpow w n = z.
Proof.
  intros Hn. destruct (Req_dec (cabs z) 0) as [E|N].
  - exists (cre 0). rewrite (cabs_0 z E). destruct n; [lia|]. rewrite cpow_S. ring.
  - destruct (polar_form z) as [f F]. assert (P : 0 < cabs z) by (pose proof (cabs_ge0 z); lra). assert (NI : INR n <> 0) by (apply not_0_INR; lia).
    exists (Rpower (cabs z) (/ INR n) * cos (f / INR n), Rpower (cabs z) (/ INR n) * sin (f / INR n)). rewrite moivre.
    rewrite <- Rpower_pow by (apply exp_pos). rewrite Rpower_mult, Rinv_l, Rpower_1 by assumption. replace (INR n * (f / INR n)) with f by (field; exact NI). symmetry. exact F.
Qed.
(** the first coefficient that is not zero *)
Lemma first_nonzero l : last l (cre 0) <> cre 0 -> exists j b r, l = repeat (cre 0) j ++ b :: r /\ b <> cre 0.
Proof.
  induction l as [|c t IH]; intros N; [exfalso; apply N; reflexivity|]. destruct (classic (c = cre 0)) as [->|C].
  - destruct t as [|c' t]; [exfalso; apply N; reflexivity|]. destruct (IH N) as (j & b & r & E & B). exists (S j), b, r. split; [cbn [repeat app]; rewrite E; reflexivity|exact B].
  - exists 0%nat, c, t. split; [reflexivity|exact C].
Qed.
Lemma eval_zeros j l z : ceval (repeat (cre 0) j ++ l) z = cmul (cpow z j) (ceval l z).
Proof. induction j as [|j IH]; cbn [repeat app ceval cpow]; [change (1, 0) with (cre 1); ring|]. rewrite IH. ring. Qed.
Lemma eval_bound l r : 0 <= r -> exists B, 0 <= B /\ forall z, cabs z <= r -> cabs (ceval l z) <= B.
Proof.
  intros R0. induction l as [|c t (B & B0 & H)].
  - exists 0. split; [lra|]. intros z _. cbn [ceval]. rewrite cabs_cre, Rabs_R0. lra.
  - exists (cabs c + r * B). split; [pose proof (cabs_ge0 c); nra|]. intros z Hz. cbn [ceval]. eapply Rle_trans; [apply cabs_tri|]. rewrite cabs_mul. specialize (H z Hz).
    pose proof (cabs_ge0 z). pose proof (cabs_ge0 (ceval t z)). nra.
Qed.
Lemma cdiv_exists a b : b <> cre 0 -> exists q, cmul b q = a.
Proof.
  intros N. pose proof (cabs_pos b N) as P. pose proof (cabs_sq b) as S. assert (D : fst b ^ 2 + snd b ^ 2 <> 0) by nra.
  exists ((fst a * fst b + snd a * snd b) / (fst b ^ 2 + snd b ^ 2), (snd a * fst b - fst a * snd b) / (fst b ^ 2 + snd b ^ 2)).
  apply ceq; unfold cmul; cbn [fst snd]; field; exact D.
Qed.
Lemma smaller a t : a <> cre 0 -> last t (cre 0) <> cre 0 -> exists w, cabs (ceval (a :: t) w) < cabs a.
Proof.
  intros A N. destruct (first_nonzero t N) as (j & b & r & -> & B). destruct (cdiv_exists (copp a) b B) as [q Q].
  destruct (croot q (S j) ltac:(lia)) as [om OM]. destruct (eval_bound r (cabs om) (cabs_ge0 om)) as (K & K0 & HK). pose proof (cabs_pos a A) as PA.
  set (s := / (cabs om ^ (S (S j)) * K / cabs a + 2)). pose proof (cabs_ge0 om) as GO.
  assert (D : 0 <= cabs om ^ (S (S j)) * K / cabs a) by (apply Rmult_le_pos; [apply Rmult_le_pos; [apply pow_le; exact GO|exact K0]|apply Rlt_le, Rinv_0_lt_compat; exact PA]).
  assert (S0 : 0 < s) by (apply Rinv_0_lt_compat; lra). assert (S1 : s < 1) by (unfold s; rewrite <- Rinv_1; apply Rinv_lt_contravar; lra).
  assert (SK : s * (cabs om ^ (S (S j)) * K) < cabs a).
  { replace (cabs om ^ (S (S j)) * K) with ((cabs om ^ (S (S j)) * K / cabs a) * cabs a) by (field; lra). set (d := cabs om ^ (S (S j)) * K / cabs a) in *.
    assert (s * d < 1); [|nra]. assert (s * (d + 2) = 1) by (unfold s; apply Rinv_l; lra). nra. }
  exists (cmul (cre s) om). cbn [ceval]. rewrite eval_zeros. cbn [ceval]. rewrite cpow_mul, cpow_cre.
  replace (cadd a (cmul (cmul (cre s) om) (cmul (cmul (cre (s ^ j)) (cpow om j)) (cadd b (cmul (cmul (cre s) om) (ceval r (cmul (cre s) om)))))))
    with (cadd (cmul (cre (1 - s ^ S j)) a) (cmul (cre (s ^ S (S j))) (cmul (cpow om (S (S j))) (ceval r (cmul (cre s) om))))).
  2:{ rewrite !cpow_S in *. change (s ^ S (S j)) with (s * (s * s ^ j)). change (s ^ S j) with (s * s ^ j). rewrite !cre_mul. unfold Rminus. rewrite cre_add.
      replace (cre (- (s * s ^ j))) with (copp (cmul (cre s) (cre (s ^ j)))) by (rewrite <- cre_mul; apply ceq; unfold copp, cre; cbn [fst snd]; ring).
      replace (cmul (copp (cmul (cre s) (cre (s ^ j)))) a) with (cmul (cmul (cre s) (cre (s ^ j))) (copp a)) by ring. 
      set (rr := ceval r (cmul (cre s) om)).
      replace (cmul (cadd (cre 1) (copp (cmul (cre s) (cre (s ^ j))))) a) with (cadd a (cmul (cmul (cre s) (cre (s ^ j))) (copp a))) by ring.
      rewrite <- Q, <- OM. ring. }
  assert (SJ : 0 < s ^ S j < 1).
  { split; [apply pow_lt; exact S0|]. apply pow_lt_1_compat; [lra|lia]. }
  eapply Rle_lt_trans; [apply cabs_tri|]. rewrite !cabs_mul, !cabs_cre, cabs_pow.
  rewrite (Rabs_right (1 - s ^ S j)) by lra. rewrite (Rabs_right (s ^ S (S j))) by (change (s ^ S (S j)) with (s * s ^ S j); nra).
  assert (HR : cabs (ceval r (cmul (cre s) om)) <= K) by (apply HK; rewrite cabs_mul, cabs_cre, Rabs_right by lra; nra).
  assert (PO : 0 <= cabs om ^ S (S j)) by (apply pow_le; exact GO). change (s ^ S (S j)) with (s * s ^ S j).
  assert (T : cabs om ^ S (S j) * cabs (ceval r (cmul (cre s) om)) <= cabs om ^ S (S j) * K) by (apply Rmult_le_compat_l; assumption).
  set (X := cabs om ^ S (S j) * cabs (ceval r (cmul (cre s) om))) in *. assert (SX : s * X < cabs a) by (apply Rle_lt_trans with (s * (cabs om ^ S (S j) * K)); [apply Rmult_le_compat_l; lra|exact SK]).
  assert (G : s ^ S j * (s * X) < s ^ S j * cabs a) by (apply Rmult_lt_compat_l; [lra|exact SX]). lra.
Qed.
Theorem root_exists l : (2 <= length l)%nat -> last l (cre 0) <> cre 0 -> exists z, ceval l z = cre 0.
Proof.
  intros L N. destruct (least l L N) as [z H]. exists z. apply Classical_Prop.NNPP. intros C.
  pose proof (pshift_length z l) as PL. pose proof (pshift_last z l (cre 0)) as PT. pose proof (pshift_eval z l (cre 0)) as P0.
  destruct (pshift z l) as [|a t] eqn:E; [cbn in PL; lia|]. destruct t as [|b t]; [cbn in PL; lia|].
  assert (A : a = ceval l z) by (replace (cadd z (cre 0)) with z in P0 by ring; rewrite <- P0; cbn [ceval]; ring).
  destruct (smaller a (b :: t)) as [w W]; [rewrite A; exact C|intros Q; apply N; rewrite <- PT; exact Q|].
  rewrite <- E, pshift_eval in W. specialize (H (cadd z w)). rewrite !n2_abs in H. rewrite A in W. pose proof (cabs_ge0 (ceval l (cadd z w))). nra.
Qed.
Theorem factors n : forall l, length l = S n -> last l (cre 0) <> cre 0 -> exists rs, length rs = n /\ forall z, ceval l z = cmul (last l (cre 0)) (product rs z).
Proof.
  induction n as [|n IH]; intros l L N.
  - destruct l as [|c [|c' t]]; cbn in L; try lia. exists []. split; [reflexivity|]. intros z. rewrite product_nil. cbn [ceval last]. ring.
  - destruct (root_exists l ltac:(lia) N) as [r R0]. pose proof (pshift_length r l) as PL. pose proof (pshift_last r l (cre 0)) as PT. pose proof (pshift_eval r l) as PE.
    destruct (pshift r l) as [|a s] eqn:E; [cbn in PL; lia|].
    assert (A : a = cre 0) by (rewrite <- R0; specialize (PE (cre 0)); replace (cadd r (cre 0)) with r in PE by ring; rewrite <- PE; cbn [ceval]; ring).
    destruct s as [|b s]; [cbn in PL; lia|]. change (last (a :: b :: s) (cre 0)) with (last (b :: s) (cre 0)) in PT.
    set (q := pshift (copp r) (b :: s)). destruct (IH q) as (rs & LR & HR).
    + unfold q. rewrite pshift_length. cbn in PL |- *. lia.
    + unfold q. rewrite pshift_last, PT. exact N.
    + exists (r :: rs). split; [cbn; lia|]. intros z. rewrite product_cons. specialize (PE (csub z r)). replace (cadd r (csub z r)) with z in PE by ring. rewrite <- PE.
      change (ceval (a :: b :: s) (csub z r)) with (cadd a (cmul (csub z r) (ceval (b :: s) (csub z r)))). rewrite A.
      specialize (HR z). unfold q in HR. rewrite pshift_last, PT, pshift_eval in HR. replace (cadd (copp r) z) with (csub z r) in HR by ring. rewrite HR. ring.
Qed.
Lemma poly_eval p z : polynomial p z = ceval (map cre (rev p)) z.
Proof.
  induction p as [|c p IH] using rev_ind; [apply poly_nil|]. rewrite poly_snoc, rev_unit. cbn [map ceval]. rewrite IH. ring.
Qed.
Theorem all_roots_exist p : p <> [] -> nth 0 p 0 <> 0 -> exists rs, all_roots p rs.
Proof.
  intros NE N. destruct p as [|c t]; [contradiction|]. cbn [nth] in N. set (l := map cre (rev (c :: t))).
  assert (LL : last l (cre 0) = cre c) by (unfold l; cbn [rev]; rewrite map_app; cbn [map]; apply last_last).
  destruct (factors (length t) l) as (rs & LR & HR).
  - unfold l. rewrite map_length, rev_length. reflexivity.
  - rewrite LL. intros E. apply N. injection E as E. exact E.
  - exists rs. split; [cbn; lia|]. intros z. rewrite poly_eval. fold l. rewrite HR, LL, cscal_mul. reflexivity.
Qed.
Theorem eig_exists : exists eig, forall p, solves_for eig p.
Proof.
  exists (fun s => epsilon (inhabits []) (all_roots s)). intros p k n s _ N _ L. apply epsilon_spec. apply all_roots_exist; [|exact N]. intros ->. cbn in L. lia.
Qed.
(** uniqueness *)
Fixpoint expand (rs : list C2) : list C2 :=
  match rs with [] => [cre 1] | r :: t => padd (cre 0 :: expand t) (map (cmul (copp r)) (expand t)) end.
Lemma expand_eval rs z : ceval (expand rs) z = product rs z.
Proof.
  induction rs as [|r t IH]; [rewrite product_nil; cbn [expand ceval]; ring|]. rewrite product_cons. cbn [expand]. rewrite padd_eval by (rewrite map_length; cbn [length]; lia).
  rewrite scale_eval. cbn [ceval]. rewrite IH. ring.
Qed.
Lemma cmul_0 a b : cmul a b = cre 0 -> a = cre 0 \/ b = cre 0.
Proof.
  intros E. assert (Q : cabs a * cabs b = 0) by (rewrite <- cabs_mul, E, cabs_cre; apply Rabs_R0). destruct (Rmult_integral _ _ Q) as [H|H]; [left|right]; apply cabs_0; exact H.
Qed.
Lemma product_zero rs z : product rs z = cre 0 -> In z rs.
Proof.
  induction rs as [|r t IH]; intros E.
  - rewrite product_nil in E. injection E as E. lra.
  - rewrite product_cons in E. destruct (cmul_0 _ _ E) as [H|H]; [left|right; apply IH; exact H]. unfold csub, cre in H. injection H as H1 H2. apply ceq; lra.
Qed.
Lemma cancel r a b : (forall z, cmul (csub z r) (product a z) = cmul (csub z r) (product b z)) -> forall z, product a z = product b z.
Proof.
  intros H z. destruct (classic (z = r)) as [->|N].
  - assert (CV : forall l, Un_cv (fun k => fst (product l (fst r + / (INR k + 1), snd r))) (fst (product l r)) /\ Un_cv (fun k => snd (product l (fst r + / (INR k + 1), snd r))) (snd (product l r))).
    { intros l. assert (C0 : Un_cv (fun k => fst r + / (INR k + 1)) (fst r)).
      { intros e E. destruct (archimed_cor1 e E) as (M & HM & M0). exists M. intros k Hk. unfold R_dist. replace (fst r + / (INR k + 1) - fst r) with (/ (INR k + 1)) by ring.
        assert (0 < INR M) by (apply lt_0_INR; exact M0). assert (INR M <= INR k) by (apply le_INR; lia). rewrite Rabs_right by (apply Rle_ge, Rlt_le, Rinv_0_lt_compat; lra).
        eapply Rle_lt_trans; [|exact HM]. apply Rinv_le_contravar; lra. }
      destruct (eval_cv (expand l) (fun k => (fst r + / (INR k + 1), snd r)) r C0 (cv_const _)) as [A B].
      split; [apply (Un_cv_ext (fun k => fst (ceval (expand l) (fst r + / (INR k + 1), snd r)))); [intros; rewrite expand_eval; reflexivity|rewrite <- expand_eval; exact A]
             |apply (Un_cv_ext (fun k => snd (ceval (expand l) (fst r + / (INR k + 1), snd r)))); [intros; rewrite expand_eval; reflexivity|rewrite <- expand_eval; exact B]]. }
    assert (EQ : forall k, product a (fst r + / (INR k + 1), snd r) = product b (fst r + / (INR k + 1), snd r)).
    { intros k. specialize (H (fst r + / (INR k + 1), snd r)). assert (P : 0 < / (INR k + 1)) by (apply Rinv_0_lt_compat; pose proof (pos_INR k); lra).
      assert (Z : cmul (csub (fst r + / (INR k + 1), snd r) r) (csub (product a (fst r + / (INR k + 1), snd r)) (product b (fst r + / (INR k + 1), snd r))) = cre 0).
      { transitivity (csub (cmul (csub (fst r + / (INR k + 1), snd r) r) (product a (fst r + / (INR k + 1), snd r))) (cmul (csub (fst r + / (INR k + 1), snd r) r) (product b (fst r + / (INR k + 1), snd r)))); [ring|]. rewrite H. ring. }
      destruct (cmul_0 _ _ Z) as [Q|Q]; unfold csub, cre in Q; cbn [fst snd] in Q; injection Q as Q1 Q2; [exfalso; lra|apply ceq; lra]. }
    destruct (CV a) as [A1 A2], (CV b) as [B1 B2]. apply ceq.
    + apply (UL_sequence _ _ _ A1). apply (Un_cv_ext (fun k => fst (product b (fst r + / (INR k + 1), snd r)))); [intros; rewrite EQ; reflexivity|exact B1].
    + apply (UL_sequence _ _ _ A2). apply (Un_cv_ext (fun k => snd (product b (fst r + / (INR k + 1), snd r)))); [intros; rewrite EQ; reflexivity|exact B2].
  - specialize (H z). assert (Z : cmul (csub z r) (csub (product a z) (product b z)) = cre 0).
    { transitivity (csub (cmul (csub z r) (product a z)) (cmul (csub z r) (product b z))); [ring|]. rewrite H. ring. }
    destruct (cmul_0 _ _ Z) as [Q|Q]; unfold csub, cre in Q; injection Q as Q1 Q2; [exfalso; apply N; apply ceq; lra|apply ceq; lra].
Qed.
Theorem roots_unique a : forall b, (forall z, product a z = product b z) -> Permutation a b.
Proof.
  induction a as [|r a IH]; intros b H.
  - destruct b as [|s b]; [constructor|]. exfalso. specialize (H s). rewrite product_nil, (product_root (s :: b) s) in H by (left; reflexivity). injection H as H. lra.
  - assert (I : In r b) by (apply product_zero; rewrite <- H; apply product_root; left; reflexivity). destruct (in_split r b I) as (b1 & b2 & ->).
    apply Permutation_cons_app. apply IH. apply (cancel r). intros z. specialize (H z). rewrite product_cons, product_app, product_cons in H. rewrite H, product_app. ring.
Qed.
