(** The roots of Legendre polynomials: existence, order, symmetry. *)
From Coq Require Import Lra Lia.
From Verif Require Import Base BaseFacts M_sph0 S_sph P_sph1 P_sph4 P_sph12 P_grids1 P_gl1.
Open Scope R_scope.

Lemma L_cont n : continuity (eval_legendre n).
Proof. intros x. apply derivable_continuous_pt. exists (LD n x). apply L_deriv. Qed.
Lemma L_at_1 n : eval_legendre n 1 = 1. Proof. apply legendre_one. Qed.
Lemma L_at_m1 n : eval_legendre n (-1) = (-1) ^ n.
Proof. replace (-1) with (- (1)) at 1 by ring. rewrite L_neg, L_at_1. ring. Qed.
(** sign of a product of differences *)
Lemma sign_prod n x y i : (i <= n)%nat -> (forall j, (j < i)%nat -> x j < y) -> (forall j, (i <= j < n)%nat -> y < x j) ->
  0 < (-1) ^ (n - i) * rprod n (fun j => y - x j).
Proof.
  intros Hi L. revert Hi. induction n as [|n IH]; intros Hi G; [replace (0 - i)%nat with 0%nat by lia; cbn; lra|].
  cbn [rprod]. destruct (Nat.eq_dec i (S n)) as [->|N].
  - replace (S n - S n)%nat with 0%nat by lia. cbn [pow].
    assert (P : forall m, (m <= S n)%nat -> 0 < rprod m (fun j => y - x j)).
    { induction m as [|m IHm]; intros Hm; [cbn; lra|]. cbn [rprod]. apply Rmult_lt_0_compat; [apply IHm; lia|]. specialize (L m ltac:(lia)). lra. }
    specialize (P (S n) ltac:(lia)). cbn [rprod] in P. lra.
  - specialize (IH ltac:(lia) ltac:(intros; apply G; lia)). specialize (G n ltac:(lia)). replace (S n - i)%nat with (S (n - i)) by lia. cbn [pow].
    replace (-1 * (-1) ^ (n - i) * (rprod n (fun j => y - x j) * (y - x n))) with (((-1) ^ (n - i) * rprod n (fun j => y - x j)) * (x n - y)) by ring.
    apply Rmult_lt_0_compat; lra.
Qed.
(** [x] are roots of L_n in ascending order within (-1,1) *)
Definition roots (n : nat) (x : nat -> R) : Prop :=
  (forall i, (i < n)%nat -> eval_legendre n (x i) = 0 /\ -1 < x i < 1) /\ forall i j, (i < j < n)%nat -> x i < x j.
Lemma roots_distinct n x : roots n x -> distinct n x.
Proof. intros (_ & A) i j Hi Hj E. destruct (Nat.lt_trichotomy i j) as [L|[L|L]]; [specialize (A i j ltac:(lia)); lra|exact L|specialize (A j i ltac:(lia)); lra]. Qed.
Lemma roots_factor n x : roots n x -> exists l, 0 < l /\ forall y, eval_legendre n y = l * rprod n (fun i => y - x i).
Proof.
  intros H. destruct (lspan_factor n (eval_legendre n) x) as (l & E); [apply lspan_L; lia|apply roots_distinct; exact H|intros i Hi; apply H; exact Hi|].
  exists l. split; [|exact E]. pose proof (E 1) as E1. rewrite L_at_1 in E1.
  pose proof (sign_prod n x 1 n ltac:(lia) ltac:(intros j Hj; apply H; exact Hj) ltac:(intros; lia)) as P. rewrite Nat.sub_diag in P. cbn [pow] in P. nra.
Qed.
Lemma roots_all n x : roots n x -> forall y, eval_legendre n y = 0 -> exists i, (i < n)%nat /\ y = x i.
Proof.
  intros H y Z. destruct (roots_factor n x H) as (l & P & E). rewrite E in Z. apply Rmult_integral in Z. destruct Z as [Z|Z]; [lra|].
  clear -Z. induction n as [|n IH]; cbn [rprod] in Z; [lra|]. apply Rmult_integral in Z. destruct Z as [Z|Z].
  - destruct (IH Z) as (i & Hi & E). exists i. split; [lia|exact E].
  - exists n. split; [lia|lra].
Qed.
(** the roots of L_n separate those of L_{n+1} *)
Definition laced (n : nat) (x z : nat -> R) : Prop := forall i, (i < n)%nat -> z i < x i < z (S i).
Lemma asc_le n x : (forall i, (S i < n)%nat -> x i < x (S i)) -> forall i j, (i < j < n)%nat -> x i < x j.
Proof. intros H i j Hj. induction j as [|j IH]; [lia|]. destruct (Nat.eq_dec i j) as [->|N]; [apply H; lia|]. specialize (IH ltac:(lia)). specialize (H j ltac:(lia)). lra. Qed.
Lemma ivt_root f a b s : continuity f -> a < b -> 0 < s * f a -> s * f b < 0 -> exists y, a < y < b /\ f y = 0.
Proof.
  intros C AB A B. assert (C' : continuity (fun y => - s * f y)) by (apply (continuity_scal f (- s)); exact C).
  destruct (IVT (fun y => - s * f y) a b C' AB) as (y & Hy & Z); [lra|lra|]. exists y.
  assert (s <> 0) by (intros ->; lra). assert (F : f y = 0) by (apply Rmult_integral in Z; destruct Z; [lra|assumption]).
  split; [|exact F]. split.
  - destruct (Req_dec a y) as [->|]; [rewrite F in A; lra|lra].
  - destruct (Req_dec y b) as [<-|]; [rewrite F in B; lra|lra].
Qed.
Lemma next_roots n x z : roots n x -> roots (S n) z -> laced n x z -> exists y, roots (S (S n)) y /\ laced (S n) z y.
Proof.
  intros HX HZ LC. destruct (roots_factor n x HX) as (l & Pl & El).
  set (e := fun i => match i with O => -1 | S k => if Nat.ltb k (S n) then z k else 1 end).
  assert (Se : forall i, (i <= S (S n))%nat -> 0 < (-1) ^ (S (S n) - i) * eval_legendre (S (S n)) (e i)).
  { intros [|i] Hi.
    - cbn [e]. rewrite L_at_m1, Nat.sub_0_r, <- Rpow_mult_distr. replace (-1 * -1) with 1 by ring. rewrite pow1. lra.
    - unfold e. destruct (Nat.ltb_spec i (S n)) as [Li|Gi].
      + pose proof (L_S n (z i)) as E. rewrite (proj1 (proj1 HZ i Li)) in E. rewrite El in E.
        assert (SP : 0 < (-1) ^ (n - i) * rprod n (fun j => z i - x j)).
        { apply sign_prod; [lia| |].
          - intros j Hj. pose proof (LC j ltac:(lia)) as (_ & A). destruct (Nat.eq_dec (S j) i) as [<-|N]; [exact A|]. pose proof (proj2 HZ (S j) i ltac:(lia)). lra.
          - intros j Hj. pose proof (LC j ltac:(lia)) as (A & _). destruct (Nat.eq_dec i j) as [->|N]; [exact A|]. pose proof (proj2 HZ i j ltac:(lia)). lra. }
        pose proof (pos_INR n) as P. replace (S (S n) - S i)%nat with (S (n - i)) by lia. cbn [pow].
        assert (EE : eval_legendre (S (S n)) (z i) = - ((INR n + 1) / (INR n + 2) * l * rprod n (fun j => z i - x j))).
        { apply (Rmult_eq_reg_l (INR n + 2)); [|lra]. rewrite E. field. lra. }
        rewrite EE. replace (-1 * (-1) ^ (n - i) * - ((INR n + 1) / (INR n + 2) * l * rprod n (fun j => z i - x j))) with ((INR n + 1) / (INR n + 2) * l * ((-1) ^ (n - i) * rprod n (fun j => z i - x j))) by ring.
        apply Rmult_lt_0_compat; [|exact SP]. apply Rmult_lt_0_compat; [apply Rdiv_lt_0_compat; lra|exact Pl].
      + replace (S (S n) - S i)%nat with 0%nat by lia. rewrite L_at_1. cbn. lra. }
  assert (Ae : forall i, (i < S (S n))%nat -> e i < e (S i)).
  { intros [|i] Hi; unfold e.
    - cbn. apply HZ. lia.
    - destruct (Nat.ltb_spec i (S n)); [|lia]. destruct (Nat.ltb_spec (S i) (S n)); [apply HZ; lia|apply HZ; lia]. }
  destruct (fin_choice (fun i y => e i < y < e (S i) /\ eval_legendre (S (S n)) y = 0) 0 (S (S n))) as (y & Y).
  { intros i Hi. pose proof (Se i ltac:(lia)) as S1. pose proof (Se (S i) ltac:(lia)) as S2.
    replace (S (S n) - i)%nat with (S (S (S n) - S i)) in S1 by lia. cbn [pow] in S1.
    apply (ivt_root (eval_legendre (S (S n))) (e i) (e (S i)) (- (-1) ^ (S (S n) - S i))); [apply L_cont|apply Ae; exact Hi| |].
    - replace (- (-1) ^ (S (S n) - S i)) with (-1 * (-1) ^ (S (S n) - S i)) by ring. exact S1.
    - lra. }
  assert (EZ : forall i, (i < S n)%nat -> e (S i) = z i) by (intros i Hi; unfold e; destruct (Nat.ltb_spec i (S n)); [reflexivity|lia]).
  exists y. assert (LY : laced (S n) z y).
  { intros i Hi. pose proof (Y i ltac:(lia)) as (A & _). pose proof (Y (S i) ltac:(lia)) as (B & _). rewrite (EZ i Hi) in A, B. lra. }
  split; [|exact LY]. split.
  - intros i Hi. destruct (Y i Hi) as ((A & B) & Z0). split; [exact Z0|].
    assert (LE : forall k, (k <= S (S n))%nat -> -1 <= e k <= 1).
    { intros [|k] Hk; unfold e; [lra|]. destruct (Nat.ltb_spec k (S n)) as [Lk|]; [|lra]. pose proof (proj2 (proj1 HZ k Lk)). lra. }
    pose proof (LE i ltac:(lia)). pose proof (LE (S i) ltac:(lia)). lra.
  - apply asc_le. intros i Hi. pose proof (LY i ltac:(lia)). lra.
Qed.
Lemma roots_exist n : exists x, roots n x.
Proof.
  assert (B : exists x z, roots n x /\ roots (S n) z /\ laced n x z); [|destruct B as (x & z & H & _); exists x; exact H].
  induction n as [|n (x & z & HX & HZ & LC)].
  - exists (fun _ => 0), (fun _ => 0). split; [split; intros; lia|]. split; [|intros i Hi; lia]. split; [intros i Hi; rewrite L_1; lra|intros; lia].
  - destruct (next_roots n x z HX HZ LC) as (y & HY & LY). exists z, y. auto.
Qed.
(** ascending roots are unique *)
Lemma roots_unique n x y : roots n x -> roots n y -> forall i, (i < n)%nat -> x i = y i.
Proof.
  intros HX HY.
  (* each root of one is a root of the other; compare positions *)
  assert (G : forall x y, roots n x -> roots n y -> forall i, (i < n)%nat -> x i <= y i).
  { clear. intros x y HX HY.
    assert (K : forall i, (i < n)%nat -> exists k, (k < n)%nat /\ y i = x k) by (intros i Hi; apply (roots_all n x HX); apply HY; exact Hi).
    assert (MON : forall a b, (a <= b < n)%nat -> x a <= x b) by (intros a b H; destruct (Nat.eq_dec a b) as [->|]; [lra|left; apply HX; lia]).
    assert (R : forall i, (i < n)%nat -> exists k, (i <= k < n)%nat /\ y i = x k).
    { induction i as [|i IH]; intros Hi; [destruct (K 0%nat Hi) as (k & Hk & E); exists k; split; [lia|exact E]|].
      destruct (IH ltac:(lia)) as (k & Hk & E). destruct (K (S i) Hi) as (k' & Hk' & E'). exists k'. split; [|exact E'].
      pose proof (proj2 HY i (S i) ltac:(lia)) as L. rewrite E, E' in L. destruct (Nat.le_gt_cases k' k) as [B|B]; [specialize (MON k' k ltac:(lia)); lra|lia]. }
    intros i Hi. destruct (R i Hi) as (k & Hk & E). rewrite E. apply MON. lia. }
  intros i Hi. apply Rle_antisym; apply G; auto.
Qed.
Lemma roots_sym n x : roots n x -> forall i, (i < n)%nat -> x (n - 1 - i)%nat = - x i.
Proof.
  intros H i Hi. assert (H' : roots n (fun i => - x (n - 1 - i)%nat)).
  { split.
    - intros j Hj. destruct (proj1 H (n - 1 - j)%nat ltac:(lia)) as (Z & B). split; [rewrite L_neg, Z; ring|lra].
    - intros a b Hab. pose proof (proj2 H (n - 1 - b)%nat (n - 1 - a)%nat ltac:(lia)). lra. }
  pose proof (roots_unique n x _ H H' i Hi). cbv beta in *. lra.
Qed.
