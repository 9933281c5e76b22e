(** numpy's Legendre series; eigenvalues of the companion matrix. *)
From Coq Require Import Lra Lia.
From Verif Require Import Base BaseFacts M_sph0 S_sph S_parsa M_grids M_lgauss S_lgauss P_sph1 P_sph4 P_sph12 P_grids1 P_gl1 P_gl2.
Open Scope R_scope.
Local Arguments eval_legendre : simpl never.
Local Arguments LD : simpl never.
Local Arguments scl : simpl never.

(** ** series *)
Definition series (b : nat -> R -> R) (c : list R) (x : R) : R := rsum (length c) (fun k => nth k c 0 * b k x).
Lemma series_snoc b c a x : series b (c ++ [a]) x = series b c x + a * b (length c) x.
Proof.
  unfold series. rewrite app_length, Nat.add_comm. cbn [length Nat.add rsum]. rewrite app_nth2, Nat.sub_diag by lia. cbn [nth]. f_equal.
  apply rsum_ext. intros i Hi. rewrite app_nth1 by exact Hi. reflexivity.
Qed.
Lemma clenshaw_ok x rest : forall c0 c1, let m := length rest in
  clenshaw x rest (m + 2) c0 c1 = series eval_legendre (rev rest) x + c0 * eval_legendre m x + c1 * eval_legendre (S m) x.
Proof.
  induction rest as [|c r IH]; intros c0 c1 m.
  - unfold m. cbn. rewrite L_0, L_1. unfold series. cbn. ring.
  - unfold m. cbn [length clenshaw rev]. replace (S (length r) + 2 - 1)%nat with (length r + 2)%nat by lia. cbv zeta in IH. rewrite IH, series_snoc, rev_length.
    set (k := length r). pose proof (pos_INR k) as P. pose proof (L_S k x) as E.
    replace (INR (k + 2 - 1)) with (INR k + 1) by (replace (k + 2 - 1)%nat with (S k) by lia; rewrite S_INR; ring).
    replace (INR (k + 2)) with (INR k + 2) by (rewrite plus_INR; reflexivity).
    replace (INR (2 * (k + 2) - 1)) with (2 * INR k + 3) by (replace (2 * (k + 2) - 1)%nat with (2 * k + 3)%nat by lia; rewrite plus_INR, mult_INR; simpl; ring).
    replace (c1 * eval_legendre (S (S k)) x) with (c1 / (INR k + 2) * ((INR k + 2) * eval_legendre (S (S k)) x)) by (field; lra). rewrite E. field. lra.
Qed.
Lemma legval_ok c x : legval c x = series eval_legendre c x.
Proof.
  unfold legval. pose proof (rev_involutive c) as RI. pose proof (rev_length c) as RL. destruct (rev c) as [|a [|b r]].
  - rewrite <- RI. reflexivity.
  - rewrite <- RI. unfold series. cbn [rev app length rsum nth]. rewrite L_0. ring.
  - cbn [length] in RL. rewrite <- RL. replace (S (S (length r))) with (length r + 2)%nat by lia. rewrite clenshaw_ok, <- RI. cbn [rev]. rewrite !series_snoc, app_length, rev_length.
    replace (length r + length [b])%nat with (S (length r)) by (cbn; lia). ring.
Qed.
Lemma legder_rev_ok x : forall j l, length l = S j -> length (legder_rev j l) = j /\ series eval_legendre (rev (legder_rev j l)) x = series LD (rev l) x.
Proof.
  induction j as [|j IH]; intros l Hl.
  - destruct l as [|a [|? ?]]; try discriminate. split; [reflexivity|]. unfold series. cbn. rewrite LD_0. ring.
  - destruct l as [|a [|b l']]; try discriminate. cbn [length] in Hl. cbn [legder_rev].
    destruct l' as [|c t].
    + assert (j = 0)%nat by (cbn in Hl; lia). subst j. split; [reflexivity|]. unfold series. cbn. rewrite LD_0, LD_1, L_0. ring.
    + destruct (IH (b :: c + a :: t)) as (IL & IE); [cbn in Hl |- *; lia|]. split; [cbn [length]; rewrite IL; reflexivity|].
      cbn [rev]. rewrite series_snoc, IE, rev_length, IL. cbn [rev]. rewrite !series_snoc, !app_length, rev_length. cbn [length]. cbn [length] in Hl.
      replace (length t) with (j - 1)%nat by lia. destruct j as [|j]; [lia|]. replace (S j - 1)%nat with j by lia.
      replace (j + 1 + 1)%nat with (S (S j)) by lia. replace (j + 1)%nat with (S j) by lia. pose proof (LD_up j x) as U. rewrite U.
      replace (INR (2 * S (S j) - 1)) with (2 * INR j + 3) by (replace (2 * S (S j) - 1)%nat with (2 * j + 3)%nat by lia; rewrite plus_INR, mult_INR; simpl; ring). ring.
Qed.
Lemma legder_ok c x : legval (legder c) x = series LD c x.
Proof.
  rewrite legval_ok. unfold legder. destruct (Nat.leb_spec (length c) 1) as [H|H].
  - destruct c as [|a [|? ?]]; [reflexivity| |cbn in H; lia]. unfold series. cbn. rewrite LD_0. ring.
  - rewrite (proj2 (legder_rev_ok x (length c - 1) (rev c) ltac:(rewrite rev_length; lia))), rev_involutive. reflexivity.
Qed.
Lemma series_unit b n x : series b (repeat 0 n ++ [1]) x = b n x.
Proof.
  rewrite series_snoc, repeat_length. unfold series. rewrite rsum_0; [ring|]. intros i _. rewrite nth_repeat. ring.
Qed.

(** ** eigenvectors of the companion matrix *)
Lemma scl_pos i : 0 < scl i.
Proof. unfold scl. apply Rdiv_lt_0_compat; [lra|]. apply sqrt_lt_R0. pose proof (pos_INR i). lra. Qed.
Lemma scl_sq i : scl i * scl i * (2 * INR i + 1) = 1.
Proof.
  pose proof (pos_INR i) as P. unfold scl. pose proof (sqrt_sqrt (2 * INR i + 1) ltac:(lra)) as E. assert (0 < sqrt (2 * INR i + 1)) by (apply sqrt_lt_R0; lra).
  rewrite <- E at 3. field. lra.
Qed.
Lemma eigh_vector A w V k : is_eigh A w V -> (k < nr A)%nat -> forall i, (i < nr A)%nat -> rsum (nr A) (fun j => ent A i j * ent V j k) = nth k w 0 * ent V i k.
Proof.
  intros (_ & _ & _ & (_ & _ & C & _) & E) Hk i Hi.
  rewrite (rsum_ext (nr A) _ (fun j => rsum (nr A) (fun l => (ent V i l * nth l w 0) * (ent V j l * ent V j k)))).
  - rewrite rsum_swap. rewrite (rsum_single (nr A) k); [|exact Hk|].
    + rewrite rsum_scal, (C k k Hk Hk). unfold delta. rewrite Nat.eqb_refl. ring.
    + intros l Hl N. rewrite rsum_scal, (C l k Hl Hk). unfold delta. destruct (Nat.eqb_spec l k); [contradiction|ring].
  - intros j Hj. rewrite E by assumption. rewrite <- rsum_scal_r. apply rsum_ext. intros. ring.
Qed.
Lemma comp_row n i f : (i < n)%nat -> rsum n (fun j => ent (legcompanion n) i j * f j) =
  (if Nat.ltb (S i) n then INR (S i) * scl i * scl (S i) * f (S i) else 0) + match i with O => 0 | S k => INR (S k) * scl k * scl (S k) * f k end.
Proof.
  intros Hi. cbn [ent legcompanion].
  rewrite (rsum_ext n _ (fun j => (if Nat.eqb j (S i) then INR (S i) * scl i * scl (S i) * f j else 0) + (if Nat.eqb i (S j) then INR (S j) * scl j * scl (S j) * f j else 0))).
  - rewrite rsum_plus. f_equal.
    + destruct (Nat.ltb_spec (S i) n) as [L|G].
      * rewrite (rsum_single n (S i)); [rewrite Nat.eqb_refl; reflexivity|exact L|]. intros j _ N. destruct (Nat.eqb_spec j (S i)); [contradiction|reflexivity].
      * apply rsum_0. intros j Hj. destruct (Nat.eqb_spec j (S i)); [lia|reflexivity].
    + destruct i as [|k].
      * apply rsum_0. intros j Hj. reflexivity.
      * rewrite (rsum_single n k); [rewrite Nat.eqb_refl; reflexivity|lia|]. intros j _ N. destruct (Nat.eqb_spec (S k) (S j)); [lia|reflexivity].
  - intros j Hj. destruct (Nat.eqb_spec j (S i)) as [->|N1]; [destruct (Nat.eqb_spec i (S (S i))); [lia|ring]|]. destruct (Nat.eqb_spec i (S j)); ring.
Qed.
(** an eigenvector consists of Legendre polynomials *)
Lemma comp_vector n v l : (0 < n)%nat -> (forall i, (i < n)%nat -> rsum n (fun j => ent (legcompanion n) i j * v j) = l * v i) ->
  (forall i, (i < n)%nat -> v i * scl i = v 0%nat * eval_legendre i l) /\ v 0%nat * eval_legendre n l = 0.
Proof.
  intros Hn E. assert (S0 : scl 0 = 1) by (unfold scl; simpl INR; replace (2 * 0 + 1) with 1 by ring; rewrite sqrt_1; field).
  assert (ST : forall i, (i < n)%nat -> (INR i + 1) * (if Nat.ltb (S i) n then v (S i) * scl (S i) else 0) = (2 * INR i + 1) * l * (v i * scl i) - match i with O => 0 | S k => (INR k + 1) * (v k * scl k) end).
  { intros i Hi. specialize (E i Hi). rewrite comp_row in E by exact Hi. pose proof (scl_sq i) as Q. pose proof (scl_pos i) as P.
    assert (E2 : (2 * INR i + 1) * scl i * (l * v i) = (2 * INR i + 1) * scl i * ((if Nat.ltb (S i) n then INR (S i) * scl i * scl (S i) * v (S i) else 0) + match i with O => 0 | S k => INR (S k) * scl k * scl (S k) * v k end)) by (rewrite E; reflexivity).
    replace ((2 * INR i + 1) * l * (v i * scl i)) with ((2 * INR i + 1) * scl i * (l * v i)) by ring. rewrite E2, Rmult_plus_distr_l.
    assert (A1 : (2 * INR i + 1) * scl i * (if Nat.ltb (S i) n then INR (S i) * scl i * scl (S i) * v (S i) else 0) = (INR i + 1) * (if Nat.ltb (S i) n then v (S i) * scl (S i) else 0)).
    { destruct (Nat.ltb (S i) n); [|ring]. rewrite S_INR. transitivity (scl i * scl i * (2 * INR i + 1) * ((INR i + 1) * (v (S i) * scl (S i)))); [ring|]. rewrite Q. ring. }
    assert (A2 : (2 * INR i + 1) * scl i * match i with O => 0 | S k => INR (S k) * scl k * scl (S k) * v k end = match i with O => 0 | S k => (INR k + 1) * (v k * scl k) end).
    { destruct i as [|k]; [ring|]. rewrite (S_INR k) in Q |- *. transitivity (scl (S k) * scl (S k) * (2 * (INR k + 1) + 1) * ((INR k + 1) * (v k * scl k))); [ring|]. rewrite Q. ring. }
    rewrite A1, A2. ring. }
  assert (V : forall i, (i < n)%nat -> v i * scl i = v 0%nat * eval_legendre i l).
  { assert (B : forall i, ((i < n)%nat -> v i * scl i = v 0%nat * eval_legendre i l) /\ ((S i < n)%nat -> v (S i) * scl (S i) = v 0%nat * eval_legendre (S i) l)).
    { induction i as [|i [I1 I2]].
      - split; [intros _; rewrite S0, L_0; ring|]. intros H. pose proof (ST 0%nat Hn) as T. cbv iota in T. destruct (Nat.ltb_spec 1 n); [|lia]. simpl (INR 0) in T. rewrite S0 in T. rewrite L_1. lra.
      - split; [exact I2|]. intros H. specialize (I1 ltac:(lia)). specialize (I2 ltac:(lia)). pose proof (ST (S i) ltac:(lia)) as T. cbv iota in T. destruct (Nat.ltb_spec (S (S i)) n); [|lia].
        rewrite I1, I2 in T. rewrite S_INR in T. pose proof (L_S i l) as LL. pose proof (pos_INR i).
        apply (Rmult_eq_reg_l (INR i + 2)); [|lra]. replace ((INR i + 2) * (v (S (S i)) * scl (S (S i)))) with ((INR i + 1 + 1) * (v (S (S i)) * scl (S (S i)))) by ring. rewrite T.
        replace ((INR i + 2) * (v 0%nat * eval_legendre (S (S i)) l)) with (v 0%nat * ((INR i + 2) * eval_legendre (S (S i)) l)) by ring. rewrite LL. ring. }
    intros i. apply B. }
  split; [exact V|]. destruct n as [|[|n]]; [lia| |].
  - pose proof (ST 0%nat Hn) as T. cbv iota in T. rewrite Nat.ltb_irrefl in T. simpl (INR 0) in T. rewrite S0 in T. rewrite L_1. lra.
  - pose proof (ST (S n) ltac:(lia)) as T. cbv iota in T. rewrite Nat.ltb_irrefl, (V (S n)), (V n), S_INR in T by lia. pose proof (L_S n l) as LL. pose proof (pos_INR n).
    apply (Rmult_eq_reg_l (INR n + 2)); [|lra]. replace ((INR n + 2) * (v 0%nat * eval_legendre (S (S n)) l)) with (v 0%nat * ((INR n + 2) * eval_legendre (S (S n)) l)) by ring. rewrite LL. lra.
Qed.
Lemma eig_roots n w : is_eigvalsh (legcompanion n) w -> length w = n /\ roots n (fun i => nth i w 0).
Proof.
  intros (V & EH). assert (EH' := EH). destruct EH' as (_ & LW & ASC & (_ & _ & C & _) & _). cbn [nr legcompanion] in LW, C. split; [exact LW|].
  assert (VK : forall k, (k < n)%nat -> (forall i, (i < n)%nat -> ent V i k * scl i = ent V 0%nat k * eval_legendre i (nth k w 0)) /\ ent V 0%nat k * eval_legendre n (nth k w 0) = 0).
  { intros k Hk. apply (comp_vector n (fun i => ent V i k)); [lia|]. intros i Hi. apply (eigh_vector (legcompanion n) w V k EH Hk i Hi). }
  assert (IP : forall k m, (k < n)%nat -> (m < n)%nat -> nth k w 0 = nth m w 0 -> ent V 0%nat k * ent V 0%nat m * kern n (nth k w 0) (nth k w 0) = delta k m).
  { intros k m Hk Hm E. rewrite <- (C k m Hk Hm). unfold kern. rewrite rsum_scal_l. apply rsum_ext. intros i Hi.
    pose proof (proj1 (VK k Hk) i Hi) as A. pose proof (proj1 (VK m Hm) i Hi) as B. rewrite <- E in B. pose proof (scl_sq i) as Q.
    transitivity ((2 * INR i + 1) * (ent V i k * scl i) * (ent V i m * scl i)); [rewrite A, B; ring|].
    transitivity (scl i * scl i * (2 * INR i + 1) * (ent V i k * ent V i m)); [ring|]. rewrite Q. ring. }
  assert (NZ : forall k, (k < n)%nat -> ent V 0%nat k <> 0).
  { intros k Hk E. pose proof (IP k k Hk Hk eq_refl) as I. rewrite E in I. unfold delta in I. rewrite Nat.eqb_refl in I. lra. }
  assert (Z : forall k, (k < n)%nat -> eval_legendre n (nth k w 0) = 0).
  { intros k Hk. destruct (VK k Hk) as (_ & E). apply Rmult_integral in E. destruct E as [E|E]; [destruct (NZ k Hk E)|exact E]. }
  split.
  - intros i Hi. split; [apply Z; exact Hi|]. destruct (roots_exist n) as (x & HX). destruct (roots_all n x HX _ (Z i Hi)) as (j & Hj & E). rewrite E. apply HX. exact Hj.
  - intros i j H. destruct (Rle_lt_or_eq_dec _ _ (ASC i j ltac:(lia))) as [L|E]; [exact L|]. exfalso.
    pose proof (IP i j ltac:(lia) ltac:(lia) E) as I. unfold delta in I. destruct (Nat.eqb_spec i j) as [|_]; [lia|].
    apply Rmult_integral in I. destruct I as [I|I]; [apply Rmult_integral in I; destruct I as [I|I]; [apply (NZ i)|apply (NZ j)]; auto; lia|].
    destruct n as [|n]; [lia|]. pose proof (kern_pos n (nth i w 0)). lra.
Qed.

(** ** the companion matrix has a spectral decomposition *)
Lemma lspan_mul i j : lspan (S (i + j)) (fun x => eval_legendre i x * eval_legendre j x).
Proof.
  assert (B : lspan (S (i + j)) (fun x => eval_legendre i x * eval_legendre j x) /\ lspan (S (i + S j)) (fun x => eval_legendre i x * eval_legendre (S j) x)); [|apply B].
  induction j as [|j [I1 I2]].
  - split; [apply (lspan_ext _ (eval_legendre i)); [intros; rewrite L_0; ring|apply lspan_L; lia]|].
    apply (lspan_ext _ (fun x => x * eval_legendre i x)); [intros; rewrite L_1; ring|]. replace (i + 1)%nat with (S i) by lia. apply lspan_x, lspan_L. lia.
  - split; [exact I2|]. pose proof (pos_INR j).
    apply (lspan_ext _ (fun x => (2 * INR j + 3) / (INR j + 2) * (x * (eval_legendre i x * eval_legendre (S j) x)) + - ((INR j + 1) / (INR j + 2)) * (eval_legendre i x * eval_legendre j x))).
    + intros x. apply (Rmult_eq_reg_l (INR j + 2)); [|lra]. replace ((INR j + 2) * (eval_legendre i x * eval_legendre (S (S j)) x)) with (eval_legendre i x * ((INR j + 2) * eval_legendre (S (S j)) x)) by ring. rewrite L_S. field. lra.
    + apply lspan_lin; [|apply (lspan_mono (S (i + j))); [lia|exact I1]]. replace (S (i + S (S j))) with (S (S (i + S j))) by lia.
      apply (lspan_x _ (fun x => eval_legendre i x * eval_legendre (S j) x)). exact I2.
Qed.
Lemma pint_norm i : pint (fun x => eval_legendre i x * eval_legendre i x) (2 / (2 * INR i + 1)).
Proof.
  induction i as [|i IH].
  - replace (2 / (2 * INR 0 + 1)) with (2 * delta 0 0) by (unfold delta; simpl; field). apply (pint_ext (eval_legendre 0)); [intros; rewrite L_0; ring|apply pint_L].
  - pose proof (pos_INR i) as P. rewrite S_INR.
    (* x L_{i+1} expanded upwards, L_{i+1} expanded downwards *)
    set (lower := fun x => match i with O => 0 | S k => (INR k + 1) * (eval_legendre k x * eval_legendre (S i) x) end).
    assert (PL : pint lower 0).
    { unfold lower. destruct i as [|k]; [apply pint_0|]. replace 0 with ((INR k + 1) * 0) by ring. apply (pint_scal (INR k + 1) (fun x => eval_legendre k x * eval_legendre (S (S k)) x)). apply pint_orth. lia. }
    assert (E : forall x, eval_legendre (S i) x * eval_legendre (S i) x =
      (2 * INR i + 1) / (INR i + 1) * ((INR i + 2) / (2 * INR i + 3) * (eval_legendre i x * eval_legendre (S (S i)) x) + (INR i + 1) / (2 * INR i + 3) * (eval_legendre i x * eval_legendre i x)) + - / (INR i + 1) * lower x).
    { intros x. pose proof (legendre_rec i x) as A. pose proof (L_S i x) as U.
      apply (Rmult_eq_reg_l (INR i + 1)); [|lra]. replace ((INR i + 1) * (eval_legendre (S i) x * eval_legendre (S i) x)) with ((INR i + 1) * eval_legendre (S i) x * eval_legendre (S i) x) by ring. rewrite A.
      replace ((INR i + 2) / (2 * INR i + 3) * (eval_legendre i x * eval_legendre (S (S i)) x)) with (((INR i + 2) * eval_legendre (S (S i)) x) / (2 * INR i + 3) * eval_legendre i x) by (field; lra). rewrite U.
      unfold lower. destruct i as [|k]; [cbv iota; field; simpl; lra|]. rewrite S_INR in *. field. lra. }
    apply (pint_ext _ _ _ (fun x => eq_sym (E x))).
    replace (2 / (2 * (INR i + 1) + 1)) with ((2 * INR i + 1) / (INR i + 1) * ((INR i + 2) / (2 * INR i + 3) * 0 + (INR i + 1) / (2 * INR i + 3) * (2 / (2 * INR i + 1))) + - / (INR i + 1) * 0) by (field; lra).
    apply pint_lin; [|exact PL]. apply pint_lin; [apply pint_orth; lia|exact IH].
Qed.
Lemma eig_exists n x : roots n x -> is_eigvalsh (legcompanion n) (map x (seq 0 n)).
Proof.
  intros H. destruct n as [|n].
  { exists (Mat 0 0 (fun _ _ => 0)). split; [reflexivity|]. split; [reflexivity|]. split; [intros i j Hj; cbn [seq map length] in Hj; lia|]. split; [|cbn [nr legcompanion]; intros; lia]. split; [reflexivity|]. split; [reflexivity|]. split; cbn [nr legcompanion]; intros; lia. }
  set (N := S n). set (K := fun k => kern N (x k) (x k)).
  assert (KP : forall k, 1 <= K k) by (intros k; apply kern_pos).
  assert (SK : forall k, sqrt (K k) * sqrt (K k) = K k) by (intros k; apply sqrt_sqrt; pose proof (KP k); lra).
  assert (SP : forall k, 0 < sqrt (K k)) by (intros k; apply sqrt_lt_R0; pose proof (KP k); lra).
  set (V := Mat N N (fun j k => eval_legendre j (x k) / scl j / sqrt (K k))).
  assert (SI : forall i, / scl i * / scl i = 2 * INR i + 1).
  { intros i. pose proof (scl_pos i). pose proof (scl_sq i) as Q. apply (Rmult_eq_reg_l (scl i * scl i)); [|nra]. rewrite Q. field. lra. }
  assert (DI := roots_distinct N x H).
  assert (ZI : forall i, (i < N)%nat -> eval_legendre N (x i) = 0) by (intros i Hi; apply H; exact Hi).
  assert (CO : forall a b, (a < N)%nat -> (b < N)%nat -> rsum N (fun i => ent V i a * ent V i b) = delta a b).
  { intros a b Ha Hb. cbn [ent V].
    rewrite (rsum_ext N _ (fun i => (/ sqrt (K a) * / sqrt (K b)) * ((2 * INR i + 1) * eval_legendre i (x a) * eval_legendre i (x b)))).
    - rewrite rsum_scal. fold (kern N (x a) (x b)). unfold delta. destruct (Nat.eqb_spec a b) as [->|Nab].
      + fold (K b). rewrite <- (SK b) at 3. pose proof (SP b). field. lra.
      + rewrite kern_off; [ring|apply ZI; exact Ha|apply ZI; exact Hb|]. intros E. apply Nab, DI; auto.
    - intros i Hi. rewrite <- SI. pose proof (scl_pos i). pose proof (SP a). pose proof (SP b). field. lra. }
  assert (RO : forall a b, (a < N)%nat -> (b < N)%nat -> rsum N (fun k => ent V a k * ent V b k) = delta a b).
  { intros a b Ha Hb. cbn [ent V].
    rewrite (rsum_ext N _ (fun k => (/ scl a * / scl b / 2) * (gw n x k * (eval_legendre a (x k) * eval_legendre b (x k))))).
    - rewrite rsum_scal. pose proof (quad_span n x DI ZI (fun y => eval_legendre a y * eval_legendre b y)) as QS.
      assert (PI1 := QS ltac:(apply (lspan_mono (S (a + b))); [unfold N in *; lia|apply lspan_mul])). unfold N. unfold delta. destruct (Nat.eqb_spec a b) as [->|Nab].
      + rewrite (pint_unique _ _ _ PI1 (pint_norm b)). pose proof (pos_INR b). unfold Rdiv. rewrite <- Rmult_assoc. replace (/ scl b * / scl b * / 2 * 2) with (/ scl b * / scl b) by (pose proof (scl_pos b); field; lra). rewrite SI. field. lra.
      + rewrite (pint_unique _ _ _ PI1 (pint_orth a b Nab)). ring.
    - intros k Hk. unfold gw. fold N (K k). replace (2 / K k) with (2 / (sqrt (K k) * sqrt (K k))) by (rewrite SK; reflexivity). pose proof (scl_pos a). pose proof (scl_pos b). pose proof (SP k). field. lra. }
  exists V. split; [reflexivity|]. split; [rewrite map_length, seq_length; reflexivity|]. split.
  { intros i j. rewrite map_length, seq_length. intros Hj. rewrite !(nth_map_seq x N) by (unfold N in *; lia). destruct (Nat.eq_dec i j) as [->|Nij]; [lra|left; apply H; fold N; lia]. }
  split; [split; [reflexivity|]; split; [reflexivity|]; split; assumption|]. cbn [nr legcompanion]. intros i j Hi Hj.
  assert (EV : forall k, (k < N)%nat -> rsum N (fun l => ent (legcompanion N) i l * ent V l k) = x k * ent V i k).
  { intros k Hk. rewrite comp_row by exact Hi. cbn [ent V]. pose proof (SP k) as Pk.
    assert (LL : (if Nat.ltb (S i) N then INR (S i) * scl i * scl (S i) * (eval_legendre (S i) (x k) / scl (S i) / sqrt (K k)) else 0) = INR (S i) * scl i * eval_legendre (S i) (x k) / sqrt (K k)).
    { destruct (Nat.ltb_spec (S i) N) as [L|G]; [pose proof (scl_pos (S i)); field; lra|]. replace (S i) with N by lia. rewrite ZI by exact Hk. field. lra. }
    rewrite LL. pose proof (legendre_rec i (x k)) as LR. rewrite <- S_INR in LR. pose proof (scl_pos i) as Pi. pose proof (SI i) as Qi.
    replace (INR (S i) * scl i * eval_legendre (S i) (x k) / sqrt (K k)) with (scl i / sqrt (K k) * (INR (S i) * eval_legendre (S i) (x k))) by (field; lra). rewrite LR, <- Qi.
    destruct i as [|m]; [field; lra|]. pose proof (scl_pos m). field. lra. }
  rewrite (rsum_ext N _ (fun k => rsum N (fun l => ent (legcompanion N) i l * (ent V l k * ent V j k)))).
  - rewrite rsum_swap. rewrite (rsum_single N j); [|exact Hj|].
    + rewrite rsum_scal, (RO j j Hj Hj). unfold delta. rewrite Nat.eqb_refl. ring.
    + intros l Hl Nl. rewrite rsum_scal, (RO l j Hl Hj). unfold delta. destruct (Nat.eqb_spec l j); [contradiction|ring].
  - intros k Hk. rewrite (nth_map_seq x N) by exact Hk.
    rewrite (rsum_ext N (fun l => ent (legcompanion N) i l * (ent V l k * ent V j k)) (fun l => (ent (legcompanion N) i l * ent V l k) * ent V j k)) by (intros; ring). rewrite rsum_scal_r, EV by exact Hk. ring.
Qed.
