(** Roots exist and are determined: final forms and examples. *)
From Coq Require Import Lra Lia Ring ClassicalEpsilon Permutation.
From Verif Require Import Base BaseFacts M_utils M_sig M_sph0 M_sph M_parsa3 M_process3 S_process3 M_zp M_comp S_zp S_comp P_proc1 P_cplx P_zp1 P_zp2 P_zp3 X_zp P_fta1 P_fta2.
Open Scope R_scope.
Add Ring C2ring_fta3 : cring.

Lemma f_exist : forall p, p <> [] -> nth 0 p 0 <> 0 -> exists rs, all_roots p rs.
Proof. exact all_roots_exist. Qed.
Lemma f_solver : exists eig, forall p, solves_for eig p.
Proof. exact eig_exists. Qed.
Lemma cre_inj_mul c x y : c <> 0 -> cscal c x = cscal c y -> x = y.
Proof. intros C E. apply (f_equal (cscal (/ c))) in E. unfold cscal in E. cbn [fst snd] in E. injection E as E1 E2. apply ceq; [rewrite <- (Rmult_1_l (fst x)), <- (Rmult_1_l (fst y))|rewrite <- (Rmult_1_l (snd x)), <- (Rmult_1_l (snd y))]; rewrite <- (Rinv_l c C); lra. Qed.
Lemma f_unique : forall p a b, nth 0 p 0 <> 0 -> all_roots p a -> all_roots p b -> Permutation a b.
Proof.
  intros p a b N [_ A] [_ B]. apply roots_unique. intros z. apply (cre_inj_mul (nth 0 p 0)); [exact N|]. rewrite <- A, <- B. reflexivity.
Qed.
Lemma lead_split p : (exists c, In c p /\ c <> 0) -> exists k u t, p = repeat 0 k ++ u :: t /\ u <> 0.
Proof.
  intros (c & I & C). destruct (drop_spec p) as (k & E & [D|D]).
  - rewrite D, app_nil_r in E. rewrite E in I. apply repeat_spec in I. contradiction.
  - destruct (drop_zeros p) as [|u t]; [cbn in D; lra|]. exists k, u, t. split; [exact E|exact D].
Qed.
Lemma f_determined : forall e1 e2 p, solves_for e1 p -> solves_for e2 p -> Permutation (np_roots e1 p) (np_roots e2 p).
Proof.
  intros e1 e2 p S1 S2. destruct (classic (exists c, In c p /\ c <> 0)) as [NZ|Z].
  - destruct (lead_split p NZ) as (k & u & t & -> & U). destruct (roots_all e1 k u t U S1) as [_ A], (roots_all e2 k u t U S2) as [_ B].
    apply roots_unique. intros z. apply (cre_inj_mul u); [exact U|]. rewrite <- A, <- B. reflexivity.
  - assert (E : p = repeat 0 (length p)).
    { clear S1 S2. induction p as [|c p IH]; [reflexivity|]. cbn [length repeat]. rewrite <- IH by (intros (d & I & D); apply Z; exists d; split; [right; exact I|exact D]).
      destruct (Req_dec c 0) as [->|C]; [reflexivity|]. exfalso. apply Z. exists c. split; [left; reflexivity|exact C]. }
    rewrite E. destruct (roots_none e1 (length p)) as [-> _], (roots_none e2 (length p)) as [-> _]. constructor.
Qed.
Lemma f_points : forall eig p z, solves_for eig p -> (exists c, In c p /\ c <> 0) -> (In z (np_roots eig p) <-> polynomial p z = (0, 0)).
Proof.
  intros eig p z S NZ. split; [intros I; apply (roots_zero eig p z NZ S I)|]. intros H. destruct (lead_split p NZ) as (k & u & t & -> & U).
  destruct (roots_all eig k u t U S) as [_ A]. rewrite A, cscal_mul in H. destruct (cmul_0 _ _ H) as [Q|Q]; [apply (f_equal fst) in Q; cbn in Q; contradiction|]. apply P_fta2.product_zero. exact Q.
Qed.
(** no routine is named *)
Lemma f_stability : forall b a, nth 0 a 0 <> 0 -> b <> [] -> (forall z, polynomial a z = (0, 0) -> polynomial b z <> (0, 0)) ->
  (stable b a <-> forall z, polynomial a z = (0, 0) -> cabs z < 1).
Proof.
  intros b a A B C. destruct eig_exists as [eig S]. assert (NZ : exists c, In c a /\ c <> 0) by (exists (nth 0 a 0); split; [apply nth_In; destruct a; cbn in *; [lra|lia]|exact A]).
  pose proof (fun z => f_points eig a z (S a) NZ) as P. rewrite (f_stable_iff eig b a (S a) A B).
  - split; intros H z Hz; apply H; apply P; exact Hz.
  - intros z Hz. apply C. apply P. exact Hz.
Qed.
(** symmetric about the real axis *)
Lemma mirror_mul x y : mirror (cmul x y) = cmul (mirror x) (mirror y).
Proof. apply ceq; unfold mirror, cmul; cbn [fst snd]; ring. Qed.
Lemma mirror_mirror x : mirror (mirror x) = x.
Proof. apply ceq; unfold mirror; cbn [fst snd]; ring. Qed.
Lemma product_mirror l z : product (map mirror l) z = mirror (product l (mirror z)).
Proof.
  induction l as [|r l IH]; [apply ceq; unfold mirror, product; cbn; ring|]. cbn [map]. rewrite !product_cons, IH, mirror_mul. f_equal. apply ceq; unfold mirror, csub; cbn [fst snd]; ring.
Qed.
Lemma poly_mirror p z : polynomial p (mirror z) = mirror (polynomial p z).
Proof.
  induction p as [|c p IH] using rev_ind; [rewrite !poly_nil; apply ceq; unfold mirror, cre; cbn [fst snd]; ring|]. rewrite !poly_snoc, IH, <- mirror_mul. apply ceq; unfold mirror, cadd, cre; cbn [fst snd]; ring.
Qed.
Lemma f_mirror : forall eig p, solves_for eig p -> Permutation (map mirror (np_roots eig p)) (np_roots eig p).
Proof.
  intros eig p S. destruct (classic (exists c, In c p /\ c <> 0)) as [NZ|Z].
  - destruct (lead_split p NZ) as (k & u & t & -> & U). destruct (roots_all eig k u t U S) as [_ A].
    apply roots_unique. intros z. apply (cre_inj_mul u); [exact U|]. rewrite <- A, product_mirror.
    replace (cscal u (mirror (product (np_roots eig (repeat 0 k ++ u :: t)) (mirror z)))) with (mirror (cscal u (product (np_roots eig (repeat 0 k ++ u :: t)) (mirror z)))) by (apply ceq; unfold mirror, cscal; cbn [fst snd]; ring).
    rewrite <- A, poly_mirror, mirror_mirror. reflexivity.
  - assert (E : p = repeat 0 (length p)).
    { clear S. induction p as [|c p IH]; [reflexivity|]. cbn [length repeat]. rewrite <- IH by (intros (d & I & D); apply Z; exists d; split; [right; exact I|exact D]).
      destruct (Req_dec c 0) as [->|C]; [reflexivity|]. exfalso. apply Z. exists c. split; [left; reflexivity|exact C]. }
    rewrite E. destruct (roots_none eig (length p)) as [-> _]. constructor.
Qed.
(** the modulus is the leading coefficient times the distances to the drawn points *)
Lemma product_distance l z : cabs (product l z) = rproduct (map (distance z) l).
Proof.
  induction l as [|r l IH]; [rewrite product_nil, cabs_cre; apply Rabs_R1|]. rewrite product_cons, cabs_mul, IH. reflexivity.
Qed.
Lemma f_distances : forall eig k c t z, c <> 0 -> solves_for eig (repeat 0 k ++ c :: t) ->
  cabs (polynomial (repeat 0 k ++ c :: t) z) = Rabs c * rproduct (map (distance z) (np_roots eig (repeat 0 k ++ c :: t))).
Proof. intros eig k c t z C S. destruct (roots_all eig k c t C S) as [_ A]. rewrite A, cscal_mul, cabs_mul, cabs_cre, product_distance. reflexivity. Qed.
(** what np.linalg.eigvals is given *)
Lemma f_companion : forall p z, nth 0 p 0 <> 0 -> (2 <= length p)%nat -> (eigenvalue (companion p) z <-> polynomial p z = (0, 0)).
Proof.
  intros p z N L. destruct p as [|c t]; [cbn in L; lia|]. cbn [nth] in N. set (n := length t). assert (N1 : (1 <= n)%nat) by (unfold n; cbn in L; lia).
  assert (POL : polynomial (c :: t) z = cadd (cmul (cre c) (cpow z n)) (csum n (fun j => cmul (cre (nth j t 0)) (cpow z (n - 1 - j))))).
  { rewrite poly_cons. f_equal. unfold polynomial. apply csum_ext'. intros j Hj. rewrite cscal_mul. reflexivity. }
  assert (ROW0 : forall v, csum n (fun j => cscal (ent (companion (c :: t)) 0 j) (v j)) = cmul (cre (- / c)) (csum n (fun j => cmul (cre (nth j t 0)) (v j)))).
  { intros v. rewrite <- csum_mul. apply csum_ext'. intros j Hj. cbn [companion ent Nat.eqb nth]. rewrite cscal_mul. replace (- nth j t 0 / c) with (- / c * nth j t 0) by (unfold Rdiv; ring). rewrite cre_mul. ring. }
  assert (ROWS : forall v i, (S i < n)%nat -> csum n (fun j => cscal (ent (companion (c :: t)) (S i) j) (v j)) = v i).
  { intros v i Hi. replace n with (i + (1 + (n - i - 1)))%nat at 1 by lia. rewrite !csum_app, csum_S, csum_O.
    rewrite !csum_zero.
    - cbn [companion ent Nat.eqb]. replace (i + 0)%nat with i by lia. rewrite Nat.eqb_refl, cscal_mul. change (cre 0) with (0, 0). apply ceq; unfold cadd, cmul, cre; cbn [fst snd]; ring.
    - intros j Hj. cbn [companion ent Nat.eqb]. destruct (Nat.eqb_spec (i + (1 + j)) i); [lia|]. rewrite cscal_mul. apply ceq; unfold cmul, cre; cbn [fst snd]; ring.
    - intros j Hj. cbn [companion ent Nat.eqb]. destruct (Nat.eqb_spec j i); [lia|]. rewrite cscal_mul. apply ceq; unfold cmul, cre; cbn [fst snd]; ring. }
  assert (DIM : nr (companion (c :: t)) = n /\ nc (companion (c :: t)) = n) by (unfold n; cbn [companion nr nc length]; lia). destruct DIM as [DR DC].
  unfold eigenvalue. rewrite DR, DC. split.
  - intros (v & (i0 & I0 & V0) & H).
    assert (BACK : forall d, (d < n)%nat -> v (n - 1 - d)%nat = cmul (cpow z d) (v (n - 1)%nat)).
    { induction d as [|d IH]; intros Hd; [rewrite Nat.sub_0_r; cbn [cpow]; change (1, 0) with (cre 1); ring|].
      pose proof (ROWS v (n - 1 - S d)%nat ltac:(lia)) as Q. replace (S (n - 1 - S d)) with (n - 1 - d)%nat in Q by lia. rewrite (H (n - 1 - d)%nat) in Q by lia. rewrite <- Q, IH by lia. rewrite cpow_S. ring. }
    pose proof (H 0%nat ltac:(lia)) as H0. rewrite ROW0 in H0.
    assert (LAST : v (n - 1)%nat <> cre 0).
    { intros E. apply V0. replace i0 with (n - 1 - (n - 1 - i0))%nat by lia. rewrite BACK by lia. rewrite E. apply ceq; unfold cmul, cre; cbn [fst snd]; ring. }
    rewrite (csum_ext' n (fun j => cmul (cre (nth j t 0)) (v j)) (fun j => cmul (v (n - 1)%nat) (cmul (cre (nth j t 0)) (cpow z (n - 1 - j))))) in H0.
    2:{ intros j Hj. replace j with (n - 1 - (n - 1 - j))%nat at 2 by lia. rewrite BACK by lia. ring. }
    rewrite csum_mul in H0. pose proof (BACK (n - 1)%nat ltac:(lia)) as B0. replace (n - 1 - (n - 1))%nat with 0%nat in B0 by lia. rewrite B0 in H0.
    rewrite POL. set (S := csum n (fun j => cmul (cre (nth j t 0)) (cpow z (n - 1 - j)))) in *. replace n with (Datatypes.S (n - 1)) by lia. rewrite cpow_S.
    assert (Q : cmul (v (n - 1)%nat) (cadd (cmul (cre c) (cmul z (cpow z (n - 1)))) S) = cre 0).
    { replace (cmul (v (n - 1)%nat) (cadd (cmul (cre c) (cmul z (cpow z (n - 1)))) S)) with (cadd (cmul (cre c) (cmul z (cmul (cpow z (n - 1)) (v (n - 1)%nat)))) (cmul (v (n - 1)%nat) S)) by ring.
      rewrite <- H0. replace (cmul (cre c) (cmul (cre (- / c)) (cmul (v (n - 1)%nat) S))) with (cmul (cre (c * - / c)) (cmul (v (n - 1)%nat) S)) by (rewrite cre_mul; ring).
      replace (c * - / c) with (-1) by (field; exact N). apply ceq; unfold cadd, cmul, cre; cbn [fst snd]; ring. }
    destruct (cmul_0 _ _ Q) as [E|E]; [contradiction|exact E].
  - intros E. exists (fun i => cpow z (n - 1 - i)). split.
    + exists (n - 1)%nat. split; [lia|]. replace (n - 1 - (n - 1))%nat with 0%nat by lia. cbn [cpow]. intros Q. injection Q as Q. lra.
    + intros [|i] Hi.
      * rewrite ROW0. rewrite POL in E. set (S := csum n (fun j => cmul (cre (nth j t 0)) (cpow z (n - 1 - j)))) in *. replace n with (Datatypes.S (n - 1)) in E by lia. rewrite cpow_S in E. rewrite Nat.sub_0_r.
        assert (Q : S = cmul (cre (- c)) (cmul z (cpow z (n - 1)))).
        { replace S with (csub (cadd (cmul (cre c) (cmul z (cpow z (n - 1)))) S) (cmul (cre c) (cmul z (cpow z (n - 1))))) by ring. rewrite E. apply ceq; unfold csub, cmul, cre; cbn [fst snd]; ring. }
        rewrite Q. replace (cmul (cre (- / c)) (cmul (cre (- c)) (cmul z (cpow z (n - 1))))) with (cmul (cre (- / c * - c)) (cmul z (cpow z (n - 1)))) by (rewrite cre_mul; ring).
        replace (- / c * - c) with 1 by (field; exact N). ring.
      * rewrite (ROWS (fun i => cpow z (n - 1 - i)) i Hi). replace (n - 1 - i)%nat with (S (n - 1 - S i)) by lia. rewrite cpow_S. reflexivity.
Qed.
(** ** an example: z^2 + 1 *)
Lemma ex_i : nth 0 [1; 0; 1] 0 <> 0 /\ (2 <= @length R [1; 0; 1]%R)%nat /\ all_roots [1; 0; 1] [(0, 1); (0, -1)] /\ polynomial [1; 0; 1] (0, 1) = (0, 0).
Proof.
  split; [cbn; lra|]. split; [cbn; lia|]. assert (P : forall z, polynomial [1; 0; 1] z = cadd (cmul z z) (cre 1)).
  { intros z. rewrite !poly_cons, poly_nil. cbn [length cpow]. change (1, 0) with (cre 1). apply ceq; unfold cadd, cmul, cre; cbn [fst snd]; ring. }
  split; [split; [reflexivity|]|]; [|rewrite P; apply ceq; unfold cadd, cmul, cre; cbn [fst snd]; ring]. intros z. rewrite P, !product_cons, product_nil, cscal_mul. cbn [nth]. apply ceq; unfold cadd, cmul, csub, cre; cbn [fst snd]; ring.
Qed.
Lemma ex_resonator : nth 0 [1; -1; 1/2] 0 <> 0 /\ stable [1] [1; -1; 1/2].
Proof.
  split; [cbn; lra|]. apply f_stability; [cbn; lra|discriminate| |].
  - intros z _ E. rewrite poly_cons, poly_nil in E. apply (f_equal fst) in E. cbn in E. lra.
  - intros z E. rewrite !poly_cons, poly_nil in E. cbn [length cpow] in E. pose proof (f_equal fst E) as E1. pose proof (f_equal snd E) as E2. unfold cadd, cmul, cre in E1, E2. cbn [fst snd] in E1, E2.
    apply Rsqr_incrst_0; [|apply cabs_ge0|lra]. unfold Rsqr. rewrite cabs_sq. destruct z as [x y]. cbn [fst snd] in *.
    assert (F1 : x * x - y * y - x + 1 / 2 = 0) by lra. assert (F2 : y * (2 * x - 1) = 0) by lra. destruct (Rmult_integral _ _ F2) as [Y|X]; [subst y; nra|]. assert (x = 1 / 2) by lra. subst x. nra.
Qed.
