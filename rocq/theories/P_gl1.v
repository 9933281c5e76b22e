(** Legendre polynomials: expansions, division, orthogonality, Gauss quadrature. *)
From Coq Require Import Lra Lia.
From Verif Require Import Base BaseFacts M_sph0 S_sph P_sph1 P_sph4 P_sph12 P_grids1.
Open Scope R_scope.

Lemma rsum_scal_l n c f : c * rsum n f = rsum n (fun i => c * f i).
Proof. symmetry. apply rsum_scal. Qed.
Definition LD (n : nat) (x : R) : R := Q n 1 x 1.
Lemma L_0 x : eval_legendre 0 x = 1. Proof. reflexivity. Qed.
Lemma L_1 x : eval_legendre 1 x = x. Proof. pose proof (legendre_rec 0 x) as E. cbv iota in E. rewrite L_0 in E. simpl INR in E. lra. Qed.
Lemma L_S n x : (INR n + 2) * eval_legendre (S (S n)) x = (2 * INR n + 3) * x * eval_legendre (S n) x - (INR n + 1) * eval_legendre n x.
Proof. pose proof (legendre_rec (S n) x) as E. cbv iota in E. rewrite S_INR in E. lra. Qed.
Lemma LD_0 x : LD 0 x = 0. Proof. reflexivity. Qed.
Lemma L_deriv n x : derivable_pt_lim (eval_legendre n) x (LD n x).
Proof. apply (dpl_ext (fun x => Q n 0 x 1)); [intros y; symmetry; apply legendre_Q|apply Q_x_deriv]. Qed.
Lemma LD_up n x : LD (S (S n)) x = (2 * INR n + 3) * eval_legendre (S n) x + LD n x.
Proof. pose proof (Q_up (S n) 0 x 1) as U. rewrite Qp_S, <- legendre_Q, S_INR in U. fold (LD (S (S n)) x) (LD n x) in U. lra. Qed.
Lemma LD_1 x : LD 1 x = 1.
Proof. pose proof (Q_up 0 0 x 1) as U. rewrite <- legendre_Q, L_0 in U. fold (LD 1 x) in U. unfold Qp in U. simpl INR in U. lra. Qed.
Lemma LD_b n x : x * LD (S n) x - LD n x = (INR n + 1) * eval_legendre (S n) x.
Proof. pose proof (Q_b (S n) 0 x 1) as B. rewrite Qp_S, <- legendre_Q, S_INR in B. fold (LD (S n) x) (LD n x) in B. simpl (INR 0) in B. lra. Qed.
Lemma LD_c n x : (1 - x * x) * LD (S n) x = (INR n + 1) * (eval_legendre n x - x * eval_legendre (S n) x).
Proof. pose proof (Q_c (S n) 0 x 1) as B. rewrite Qp_S, <- !legendre_Q, S_INR in B. fold (LD (S n) x) in B. simpl (INR 0) in B. lra. Qed.
Lemma LD_rec n x : (INR n + 2) * LD (S (S n)) x = (2 * INR n + 3) * (eval_legendre (S n) x + x * LD (S n) x) - (INR n + 1) * LD n x.
Proof. pose proof (LD_up n x) as U. pose proof (LD_b n x) as B. rewrite U. replace (x * LD (S n) x) with (LD n x + (INR n + 1) * eval_legendre (S n) x) by lra. ring. Qed.
Lemma L_neg n x : eval_legendre n (- x) = (-1) ^ n * eval_legendre n x.
Proof.
  assert (B : eval_legendre n (- x) = (-1) ^ n * eval_legendre n x /\ eval_legendre (S n) (- x) = (-1) ^ S n * eval_legendre (S n) x).
  { induction n as [|n [I1 I2]]; [rewrite !L_0, !L_1; simpl; split; ring|]. split; [exact I2|].
    pose proof (L_S n x) as E. pose proof (L_S n (- x)) as E'. rewrite I1, I2 in E'. pose proof (pos_INR n).
    apply (Rmult_eq_reg_l (INR n + 2)); [|lra]. rewrite E'. replace ((INR n + 2) * ((-1) ^ S (S n) * eval_legendre (S (S n)) x)) with ((-1) ^ S (S n) * ((INR n + 2) * eval_legendre (S (S n)) x)) by ring. rewrite E. cbn [pow]. ring. }
  apply B.
Qed.
(** Legendre's equation as a derivative *)
Lemma L_ode n x : derivable_pt_lim (fun x => (1 - x * x) * LD n x) x (- (INR n * (INR n + 1)) * eval_legendre n x).
Proof.
  destruct n as [|n].
  - apply (dpl_ext (fun _ => 0)); [intros y; rewrite LD_0; ring|]. eapply dpl_val; [|apply derivable_pt_lim_const]. simpl. ring.
  - apply (dpl_ext (fun x => (INR n + 1) * (eval_legendre n x - x * eval_legendre (S n) x))); [intros y; symmetry; apply LD_c|].
    pose proof (derivable_pt_lim_scal _ (INR n + 1) x _ (derivable_pt_lim_minus _ _ x _ _ (L_deriv n x) (derivable_pt_lim_mult _ _ x _ _ (derivable_pt_lim_id x) (L_deriv (S n) x)))) as K.
    eapply dpl_val; [|exact K]. unfold id. pose proof (LD_b n x) as B. rewrite S_INR.
    replace (LD n x - (1 * eval_legendre (S n) x + x * LD (S n) x)) with (- (INR n + 1 + 1) * eval_legendre (S n) x) by lra. ring.
Qed.

(** ** combinations of the first Legendre polynomials *)
Definition lspan (n : nat) (f : R -> R) : Prop := exists c : nat -> R, forall x, f x = rsum n (fun k => c k * eval_legendre k x).
Lemma lspan_ext n f g : (forall x, f x = g x) -> lspan n f -> lspan n g.
Proof. intros E (c & H). exists c. intros x. rewrite <- E. apply H. Qed.
Lemma lspan_lin n a b f g : lspan n f -> lspan n g -> lspan n (fun x => a * f x + b * g x).
Proof.
  intros (c & H) (d & K). exists (fun k => a * c k + b * d k). intros x. rewrite H, K, !rsum_scal_l, <- rsum_plus.
  apply rsum_ext. intros. ring.
Qed.
Lemma lspan_0 n : lspan n (fun _ => 0).
Proof. exists (fun _ => 0). intros x. symmetry. apply rsum_0. intros. ring. Qed.
Lemma lspan_L n k : (k < n)%nat -> lspan n (eval_legendre k).
Proof.
  intros H. exists (fun j => delta j k). intros x. symmetry. rewrite (rsum_single n k); [unfold delta; rewrite Nat.eqb_refl; ring|exact H|].
  intros i _ Ni. unfold delta. destruct (Nat.eqb_spec i k); [contradiction|ring].
Qed.
Lemma lspan_sum n m f : (forall k, (k < m)%nat -> lspan n (f k)) -> lspan n (fun x => rsum m (fun k => f k x)).
Proof.
  induction m as [|m IH]; intros H; [apply lspan_0|].
  apply (lspan_ext n (fun x => 1 * rsum m (fun k => f k x) + 1 * f m x)); [intros x; cbn [rsum]; ring|]. apply lspan_lin; [apply IH; intros; apply H; lia|apply H; lia].
Qed.
Lemma lspan_scal n a f : lspan n f -> lspan n (fun x => a * f x).
Proof. intros H. apply (lspan_ext n (fun x => a * f x + 0 * f x)); [intros; ring|]. apply lspan_lin; exact H. Qed.
Lemma lspan_mono n m f : (n <= m)%nat -> lspan n f -> lspan m f.
Proof. intros H (c & E). apply (lspan_ext m (fun x => rsum n (fun k => c k * eval_legendre k x))); [intros; symmetry; apply E|]. apply lspan_sum. intros k Hk. apply lspan_scal, lspan_L. lia. Qed.
Lemma lspan_x n f : lspan n f -> lspan (S n) (fun x => x * f x).
Proof.
  intros (c & E). apply (lspan_ext (S n) (fun x => rsum n (fun k => c k * (x * eval_legendre k x)))).
  { intros x. rewrite E, rsum_scal_l. apply rsum_ext. intros. ring. }
  apply (lspan_sum (S n) n (fun k x => c k * (x * eval_legendre k x))). intros k Hk. apply lspan_scal. destruct k as [|k].
  - apply (lspan_ext _ (eval_legendre 1)); [intros x; rewrite L_0, L_1; ring|apply lspan_L; lia].
  - pose proof (pos_INR k) as P. apply (lspan_ext _ (fun x => (INR k + 2) / (2 * INR k + 3) * eval_legendre (S (S k)) x + (INR k + 1) / (2 * INR k + 3) * eval_legendre k x)).
    + intros x. pose proof (L_S k x) as E'. replace ((INR k + 2) / (2 * INR k + 3) * eval_legendre (S (S k)) x) with ((INR k + 2) * eval_legendre (S (S k)) x / (2 * INR k + 3)) by (field; lra). rewrite E'. field. lra.
    + apply lspan_lin; apply lspan_L; lia.
Qed.
Lemma lspan_pow k : lspan (S k) (fun x => x ^ k).
Proof. induction k as [|k IH]; [apply (lspan_ext 1 (eval_legendre 0)); [reflexivity|apply lspan_L; lia]|]. apply (lspan_x (S k) (fun x => x ^ k)). exact IH. Qed.
Lemma lspan_1 f : lspan 1 f -> exists l, forall x, f x = l.
Proof. intros (c & E). exists (c 0%nat). intros x. rewrite E. cbn [rsum]. rewrite L_0. ring. Qed.
Lemma lspan_top n f : lspan (S n) f -> exists c r, lspan n r /\ forall x, f x = c * eval_legendre n x + r x.
Proof. intros (c & E). exists (c n), (fun x => rsum n (fun k => c k * eval_legendre k x)). split; [exists c; reflexivity|]. intros x. rewrite E. cbn [rsum]. ring. Qed.

Lemma fin_choice {A} (P : nat -> A -> Prop) (d : A) n : (forall i, (i < n)%nat -> exists a, P i a) -> exists f, forall i, (i < n)%nat -> P i (f i).
Proof.
  induction n as [|n IH]; intros H; [exists (fun _ => d); intros; lia|]. destruct IH as (f & F); [intros; apply H; lia|]. destruct (H n) as (a & Pa); [lia|].
  exists (fun i => if Nat.eqb i n then a else f i). intros i Hi. destruct (Nat.eqb_spec i n) as [->|]; [exact Pa|apply F; lia].
Qed.
(** division by a linear factor *)
Lemma L_div r k : exists g, lspan k g /\ forall x, eval_legendre k x - eval_legendre k r = (x - r) * g x.
Proof.
  assert (B : (exists g, lspan k g /\ forall x, eval_legendre k x - eval_legendre k r = (x - r) * g x) /\
              (exists g, lspan (S k) g /\ forall x, eval_legendre (S k) x - eval_legendre (S k) r = (x - r) * g x)); [|apply B].
  induction k as [|k [(g & G & E) I2]].
  - split; [exists (fun _ => 0); split; [apply lspan_0|intros; rewrite !L_0; ring]|].
    exists (eval_legendre 0). split; [apply lspan_L; lia|]. intros. rewrite !L_1, L_0. ring.
  - split; [exact I2|]. destruct I2 as (g1 & G1 & E1). pose proof (pos_INR k) as P.
    exists (fun x => (2 * INR k + 3) / (INR k + 2) * (1 * (x * g1 x) + eval_legendre (S k) r * eval_legendre 0 x) + - ((INR k + 1) / (INR k + 2)) * g x). split.
    + apply lspan_lin; [|apply (lspan_mono k); [lia|exact G]]. apply lspan_lin; [apply lspan_x; exact G1|apply lspan_L; lia].
    + intros x. rewrite L_0. apply (Rmult_eq_reg_l (INR k + 2)); [|lra]. rewrite Rmult_minus_distr_l, !L_S.
      transitivity ((2 * INR k + 3) * (x * (eval_legendre (S k) x - eval_legendre (S k) r) + (x - r) * eval_legendre (S k) r) - (INR k + 1) * (eval_legendre k x - eval_legendre k r)); [ring|].
      rewrite E1, E. field. lra.
Qed.
Lemma lspan_div n f r : lspan (S n) f -> f r = 0 -> exists g, lspan n g /\ forall x, f x = (x - r) * g x.
Proof.
  intros (c & E) Z. destruct (fin_choice (fun k g => lspan k g /\ forall x, eval_legendre k x - eval_legendre k r = (x - r) * g x) (fun _ : R => 0) (S n)) as (g & G); [intros i _; apply L_div|].
  exists (fun x => rsum (S n) (fun k => c k * g k x)). split.
  - apply (lspan_sum n (S n) (fun k x => c k * g k x)). intros k Hk. apply lspan_scal. apply (lspan_mono k); [lia|apply G; exact Hk].
  - intros x. transitivity (f x - f r); [rewrite Z; ring|]. rewrite !E.
    transitivity (rsum (S n) (fun k => c k * (eval_legendre k x - eval_legendre k r))).
    + replace (rsum (S n) (fun k => c k * eval_legendre k x) - rsum (S n) (fun k => c k * eval_legendre k r)) with (rsum (S n) (fun k => c k * eval_legendre k x) + (-1) * rsum (S n) (fun k => c k * eval_legendre k r)) by ring.
      rewrite rsum_scal_l, <- rsum_plus. apply rsum_ext. intros. ring.
    + rewrite rsum_scal_l. apply rsum_ext. intros k Hk. rewrite (proj2 (G k Hk)). ring.
Qed.
Definition distinct (n : nat) (x : nat -> R) : Prop := forall i j, (i < n)%nat -> (j < n)%nat -> x i = x j -> i = j.
Fixpoint rprod (n : nat) (f : nat -> R) : R := match n with O => 1 | S k => rprod k f * f k end.
Lemma lspan_zero n : forall f x, lspan n f -> distinct n x -> (forall i, (i < n)%nat -> f (x i) = 0) -> forall y, f y = 0.
Proof.
  induction n as [|n IH]; intros f x (c & E) D Z y; [rewrite E; reflexivity|].
  destruct (lspan_div n f (x n)) as (g & G & EG); [exists c; exact E|apply Z; lia|].
  rewrite EG, (IH g x G); [ring|intros i j Hi Hj; apply D; lia|].
  intros i Hi. assert (H := Z i ltac:(lia)). rewrite EG in H. apply Rmult_integral in H. destruct H as [H|H]; [|exact H].
  assert (i = n) by (apply D; [lia|lia|lra]). lia.
Qed.
Lemma lspan_factor n : forall f x, lspan (S n) f -> distinct n x -> (forall i, (i < n)%nat -> f (x i) = 0) -> exists l, forall y, f y = l * rprod n (fun i => y - x i).
Proof.
  induction n as [|n IH]; intros f x S0 D Z.
  - destruct (lspan_1 f S0) as (l & E). exists l. intros y. rewrite E. cbn. ring.
  - destruct (lspan_div (S n) f (x n) S0) as (g & G & EG); [apply Z; lia|].
    destruct (IH g x G) as (l & E); [intros i j Hi Hj; apply D; lia| |].
    + intros i Hi. assert (H := Z i ltac:(lia)). rewrite EG in H. apply Rmult_integral in H. destruct H as [H|H]; [|exact H].
      assert (i = n) by (apply D; [lia|lia|lra]). lia.
    + exists l. intros y. rewrite EG, E. cbn [rprod]. ring.
Qed.
(** division by a Legendre polynomial *)
Lemma L_divL n m : exists q r, lspan (S m) q /\ lspan n r /\ forall x, eval_legendre (n + m) x = q x * eval_legendre n x + r x.
Proof.
  assert (B : (exists q r, lspan (S m) q /\ lspan n r /\ forall x, eval_legendre (n + m) x = q x * eval_legendre n x + r x) /\
              (exists q r, lspan (S (S m)) q /\ lspan n r /\ forall x, eval_legendre (n + S m) x = q x * eval_legendre n x + r x)); [|apply B].
  induction m as [|m [(q0 & r0 & Q0 & R0 & E0) I2]].
  - split.
    + exists (eval_legendre 0), (fun _ => 0). split; [apply lspan_L; lia|]. split; [apply lspan_0|]. intros. rewrite Nat.add_0_r, L_0. ring.
    + replace (n + 1)%nat with (S n) by lia. destruct n as [|n].
      * exists (eval_legendre 1), (fun _ => 0). split; [apply lspan_L; lia|]. split; [apply lspan_0|]. intros. rewrite L_0. ring.
      * pose proof (pos_INR n). exists (fun x => (2 * INR n + 3) / (INR n + 2) * eval_legendre 1 x), (fun x => - ((INR n + 1) / (INR n + 2)) * eval_legendre n x).
        split; [apply lspan_scal, lspan_L; lia|]. split; [apply lspan_scal, lspan_L; lia|]. intros x. apply (Rmult_eq_reg_l (INR n + 2)); [|lra].
        rewrite L_S, L_1. field. lra.
  - split; [exact I2|]. destruct I2 as (q1 & r1 & Q1 & R1 & E1). destruct (lspan_top n _ (lspan_x n r1 R1)) as (c & r' & R' & E').
    pose proof (pos_INR (n + m)) as P. set (k := (n + m)%nat) in *.
    exists (fun x => (2 * INR k + 3) / (INR k + 2) * (1 * (x * q1 x) + c * eval_legendre 0 x) + - ((INR k + 1) / (INR k + 2)) * q0 x),
           (fun x => (2 * INR k + 3) / (INR k + 2) * r' x + - ((INR k + 1) / (INR k + 2)) * r0 x).
    split; [|split].
    + apply lspan_lin; [|apply (lspan_mono (S m)); [lia|exact Q0]]. apply lspan_lin; [apply lspan_x; exact Q1|apply lspan_L; lia].
    + apply lspan_lin; assumption.
    + intros x. replace (n + S (S m))%nat with (S (S k)) by (unfold k; lia). replace (n + S m)%nat with (S k) in E1 by (unfold k; lia).
      apply (Rmult_eq_reg_l (INR k + 2)); [|lra]. rewrite L_S, E1, E0, L_0.
      transitivity ((2 * INR k + 3) * (x * q1 x * eval_legendre n x + x * r1 x) - (INR k + 1) * (q0 x * eval_legendre n x + r0 x)); [ring|]. rewrite E'. field. lra.
Qed.

(** ** integrals over [-1, 1] by antiderivatives *)
Definition pint (f : R -> R) (v : R) : Prop := exists F, (forall x, derivable_pt_lim F x (f x)) /\ v = F 1 - F (-1).
Lemma pint_unique g u v : pint g u -> pint g v -> u = v.
Proof.
  intros [G [DG ->]] [H [DH ->]].
  assert (D : forall t, derivable_pt_lim (fun t => G t - H t) t 0).
  { intros t. eapply dpl_val; [|exact (derivable_pt_lim_minus G H t _ _ (DG t) (DH t))]. ring. }
  assert (pr : derivable (fun t => G t - H t)) by (intros t; exists 0; apply D).
  assert (C : constant (fun t => G t - H t)) by (apply (null_derivative_1 _ pr); intros t; apply derive_pt_eq_0, D).
  specialize (C 1 (-1)). cbv beta in C. lra.
Qed.
Lemma pint_lin a c f g u v : pint f u -> pint g v -> pint (fun t => a * f t + c * g t) (a * u + c * v).
Proof.
  intros [F [DF ->]] [G [DG ->]]. exists (fun t => a * F t + c * G t). split; [|ring]. intros t.
  exact (derivable_pt_lim_plus _ _ t _ _ (derivable_pt_lim_scal F a t _ (DF t)) (derivable_pt_lim_scal G c t _ (DG t))).
Qed.
Lemma pint_ext f g u : (forall t, f t = g t) -> pint f u -> pint g u.
Proof. intros E [F [DF H]]. exists F. split; auto. intros t. rewrite <- E. apply DF. Qed.
Lemma pint_0 : pint (fun _ => 0) 0.
Proof. exists (fun _ => 0). split; [intros; apply derivable_pt_lim_const|ring]. Qed.
Lemma pint_scal a f u : pint f u -> pint (fun t => a * f t) (a * u).
Proof. intros H. replace (a * u) with (a * u + 0 * u) by ring. apply (pint_ext (fun t => a * f t + 0 * f t)); [intros; ring|]. apply pint_lin; exact H. Qed.
Lemma pint_sum m f u : (forall k, (k < m)%nat -> pint (f k) (u k)) -> pint (fun t => rsum m (fun k => f k t)) (rsum m u).
Proof.
  induction m as [|m IH]; intros H; [apply pint_0|]. cbn [rsum].
  replace (rsum m u + u m) with (1 * rsum m u + 1 * u m) by ring. apply (pint_ext (fun t => 1 * rsum m (fun k => f k t) + 1 * f m t)); [intros; ring|].
  apply pint_lin; [apply IH; intros; apply H; lia|apply H; lia].
Qed.
Lemma pint_pow k : pint (fun t => t ^ k) ((1 - (-1) ^ (k + 1)) / (INR k + 1)).
Proof.
  pose proof (pos_INR k) as P. exists (fun t => / (INR k + 1) * t ^ S k). split.
  - intros t. eapply dpl_val; [|exact (derivable_pt_lim_scal _ (/ (INR k + 1)) t _ (derivable_pt_lim_pow t (S k)))]. rewrite S_INR. simpl pred. field. lra.
  - rewrite pow1. replace (k + 1)%nat with (S k) by lia. field. lra.
Qed.
Lemma ind_apart j n : j <> n -> INR j * (INR j + 1) - INR n * (INR n + 1) <> 0.
Proof.
  intros N E. assert (E' : (INR j - INR n) * (INR j + INR n + 1) = 0) by (rewrite <- E; ring). apply Rmult_integral in E'. pose proof (pos_INR j). pose proof (pos_INR n).
  destruct E' as [E'|E']; [|lra]. apply N, INR_eq. lra.
Qed.
Lemma pint_orth j n : j <> n -> pint (fun x => eval_legendre j x * eval_legendre n x) 0.
Proof.
  intros N. pose proof (ind_apart j n N) as A. set (a := INR j * (INR j + 1) - INR n * (INR n + 1)) in *.
  exists (fun x => / a * (((1 - x * x) * LD n x) * eval_legendre j x - ((1 - x * x) * LD j x) * eval_legendre n x)). split; [|replace (1 - 1 * 1) with 0 by ring; replace (1 - -1 * -1) with 0 by ring; ring].
  intros x. pose proof (derivable_pt_lim_scal _ (/ a) x _ (derivable_pt_lim_minus _ _ x _ _
    (derivable_pt_lim_mult _ _ x _ _ (L_ode n x) (L_deriv j x)) (derivable_pt_lim_mult _ _ x _ _ (L_ode j x) (L_deriv n x)))) as K.
  eapply dpl_val; [|exact K]. apply (Rmult_eq_reg_l a); [|exact A]. rewrite <- Rmult_assoc, Rinv_r by exact A. unfold a. ring.
Qed.
Lemma pint_span n f : lspan n f -> pint (fun x => f x * eval_legendre n x) 0.
Proof.
  intros (c & E). apply (pint_ext (fun x => rsum n (fun k => c k * (eval_legendre k x * eval_legendre n x)))).
  { intros x. rewrite E, <- rsum_scal_r. apply rsum_ext. intros. ring. }
  replace 0 with (rsum n (fun _ => 0)) by (apply rsum_0; reflexivity).
  apply (pint_sum n (fun k x => c k * (eval_legendre k x * eval_legendre n x)) (fun _ => 0)). intros k Hk.
  replace 0 with (c k * 0) by ring. apply pint_scal, pint_orth. lia.
Qed.
Lemma pint_L k : pint (eval_legendre k) (2 * delta 0 k).
Proof.
  destruct k as [|k].
  - apply (pint_ext (fun t => t ^ 0)); [reflexivity|]. pose proof (pint_pow 0) as P. simpl in P. replace (2 * delta 0 0) with ((1 - -1 * 1) / (0 + 1)); [exact P|]. unfold delta. simpl. field.
  - replace (2 * delta 0 (S k)) with 0 by (unfold delta; simpl; ring). apply (pint_ext (fun x => eval_legendre 0 x * eval_legendre (S k) x)); [intros; rewrite L_0; ring|]. apply pint_orth. lia.
Qed.

(** ** the kernel of Christoffel and Darboux *)
Definition kern (n : nat) (x y : R) : R := rsum n (fun j => (2 * INR j + 1) * eval_legendre j x * eval_legendre j y).
Lemma kern_cd n x y : (x - y) * kern (S n) x y = (INR n + 1) * (eval_legendre (S n) x * eval_legendre n y - eval_legendre n x * eval_legendre (S n) y).
Proof.
  induction n as [|n IH]; [unfold kern; cbn [rsum]; rewrite !L_0, !L_1; simpl INR; ring|].
  replace (kern (S (S n)) x y) with (kern (S n) x y + (2 * INR (S n) + 1) * eval_legendre (S n) x * eval_legendre (S n) y) by reflexivity.
  rewrite Rmult_plus_distr_l, IH, S_INR. pose proof (L_S n x) as Ex. pose proof (L_S n y) as Ey.
  replace ((INR n + 1 + 1) * (eval_legendre (S (S n)) x * eval_legendre (S n) y - eval_legendre (S n) x * eval_legendre (S (S n)) y))
    with ((INR n + 2) * eval_legendre (S (S n)) x * eval_legendre (S n) y - eval_legendre (S n) x * ((INR n + 2) * eval_legendre (S (S n)) y)) by ring.
  rewrite Ex, Ey. ring.
Qed.
Lemma kern_diag n x : kern (S n) x x = (INR n + 1) * (LD (S n) x * eval_legendre n x - LD n x * eval_legendre (S n) x).
Proof.
  induction n as [|n IH]; [unfold kern; cbn [rsum]; rewrite !L_0, L_1, LD_0, LD_1; simpl INR; ring|].
  replace (kern (S (S n)) x x) with (kern (S n) x x + (2 * INR (S n) + 1) * eval_legendre (S n) x * eval_legendre (S n) x) by reflexivity.
  rewrite IH, S_INR. pose proof (L_S n x) as Ex. pose proof (LD_rec n x) as Ey.
  replace ((INR n + 1 + 1) * (LD (S (S n)) x * eval_legendre (S n) x - LD (S n) x * eval_legendre (S (S n)) x))
    with ((INR n + 2) * LD (S (S n)) x * eval_legendre (S n) x - LD (S n) x * ((INR n + 2) * eval_legendre (S (S n)) x)) by ring.
  rewrite Ex, Ey. ring.
Qed.
Lemma kern_pos n x : 1 <= kern (S n) x x.
Proof.
  unfold kern. rewrite rsum_shift, L_0. simpl (INR 0). assert (0 <= rsum n (fun j => (2 * INR (S j) + 1) * eval_legendre (S j) x * eval_legendre (S j) x)); [|lra].
  apply rsum_nonneg. intros i _. rewrite Rmult_assoc. apply Rmult_le_pos; [pose proof (pos_INR (S i)); lra|apply Rle_0_sqr].
Qed.
Lemma kern_off n x y : eval_legendre n x = 0 -> eval_legendre n y = 0 -> x <> y -> kern n x y = 0.
Proof.
  destruct n as [|n]; [rewrite L_0; lra|]. intros A B N. pose proof (kern_cd n x y) as C. rewrite A, B in C.
  apply (Rmult_eq_reg_l (x - y)); [|lra]. rewrite C. ring.
Qed.
Lemma kern_int n x : pint (kern (S n) x) 2.
Proof.
  replace 2 with (rsum (S n) (fun j => ((2 * INR j + 1) * eval_legendre j x) * (2 * delta 0 j))).
  - apply (pint_sum (S n) (fun j y => (2 * INR j + 1) * eval_legendre j x * eval_legendre j y)). intros k _. apply pint_scal, pint_L.
  - rewrite (rsum_single (S n) 0); [rewrite L_0; unfold delta; simpl; ring|lia|]. intros i _ N. unfold delta. destruct (Nat.eqb_spec 0 i); [congruence|ring].
Qed.

(** ** Gauss quadrature *)
Section Quad.
Variables (n : nat) (x : nat -> R).
Hypothesis DX : distinct (S n) x.
Hypothesis ZX : forall i, (i < S n)%nat -> eval_legendre (S n) (x i) = 0.
Definition gw (i : nat) : R := 2 / kern (S n) (x i) (x i).
Lemma gw_pos i : 0 < gw i.
Proof. unfold gw. pose proof (kern_pos n (x i)). apply Rdiv_lt_0_compat; lra. Qed.
Lemma interp f : lspan (S n) f -> forall y, f y = rsum (S n) (fun i => f (x i) * (kern (S n) (x i) y / kern (S n) (x i) (x i))).
Proof.
  intros Sf. assert (Z : forall y, 1 * f y + -1 * rsum (S n) (fun i => f (x i) * (kern (S n) (x i) y / kern (S n) (x i) (x i))) = 0); [|intros y; specialize (Z y); lra].
  apply (lspan_zero (S n) (fun y => 1 * f y + -1 * rsum (S n) (fun i => f (x i) * (kern (S n) (x i) y / kern (S n) (x i) (x i)))) x); [|exact DX|].
  - apply lspan_lin; [exact Sf|]. apply (lspan_sum (S n) (S n) (fun i y => f (x i) * (kern (S n) (x i) y / kern (S n) (x i) (x i)))). intros i _.
    apply (lspan_ext _ (fun y => f (x i) / kern (S n) (x i) (x i) * kern (S n) (x i) y)); [intros y; field; pose proof (kern_pos n (x i)); lra|].
    apply lspan_scal. exists (fun j => (2 * INR j + 1) * eval_legendre j (x i)). reflexivity.
  - intros i Hi. rewrite (rsum_single (S n) i); [field; pose proof (kern_pos n (x i)); lra|exact Hi|].
    intros j Hj N. rewrite (kern_off (S n) (x j) (x i)); [field; pose proof (kern_pos n (x j)); lra|apply ZX; exact Hj|apply ZX; exact Hi|].
    intros E. apply N. apply DX; auto.
Qed.
Lemma quad_low f : lspan (S n) f -> pint f (rsum (S n) (fun i => gw i * f (x i))).
Proof.
  intros Sf. apply (pint_ext (fun y => rsum (S n) (fun i => (f (x i) / kern (S n) (x i) (x i)) * kern (S n) (x i) y))).
  { intros y. rewrite (interp f Sf y). apply rsum_ext. intros i _. field. pose proof (kern_pos n (x i)); lra. }
  rewrite (rsum_ext (S n) (fun i => gw i * f (x i)) (fun i => (f (x i) / kern (S n) (x i) (x i)) * 2)) by (intros i _; unfold gw; field; pose proof (kern_pos n (x i)); lra).
  apply (pint_sum (S n) (fun i y => f (x i) / kern (S n) (x i) (x i) * kern (S n) (x i) y) (fun i => f (x i) / kern (S n) (x i) (x i) * 2)). intros i _. apply pint_scal, kern_int.
Qed.
Lemma quad_L k : (k < 2 * S n)%nat -> pint (eval_legendre k) (rsum (S n) (fun i => gw i * eval_legendre k (x i))).
Proof.
  intros Hk. destruct (Nat.lt_ge_cases k (S n)) as [L|G]; [apply quad_low, lspan_L; exact L|].
  destruct (L_divL (S n) (k - S n)) as (q & r & Sq & Sr & E). replace (S n + (k - S n))%nat with k in E by lia.
  apply (pint_ext (fun y => 1 * (q y * eval_legendre (S n) y) + 1 * r y)); [intros y; rewrite E; ring|].
  replace (rsum (S n) (fun i => gw i * eval_legendre k (x i))) with (1 * 0 + 1 * rsum (S n) (fun i => gw i * r (x i))).
  - apply pint_lin; [apply pint_span; apply (lspan_mono (S (k - S n))); [lia|exact Sq]|apply quad_low; exact Sr].
  - rewrite Rmult_0_r, Rplus_0_l, Rmult_1_l. apply rsum_ext. intros i Hi. rewrite E, ZX by exact Hi. ring.
Qed.
Lemma quad_span f : lspan (2 * S n) f -> pint f (rsum (S n) (fun i => gw i * f (x i))).
Proof.
  intros (c & E). apply (pint_ext (fun y => rsum (2 * S n) (fun k => c k * eval_legendre k y))); [intros; symmetry; apply E|].
  replace (rsum (S n) (fun i => gw i * f (x i))) with (rsum (2 * S n) (fun k => c k * rsum (S n) (fun i => gw i * eval_legendre k (x i)))).
  - apply (pint_sum (2 * S n) (fun k y => c k * eval_legendre k y) (fun k => c k * rsum (S n) (fun i => gw i * eval_legendre k (x i)))). intros k Hk. apply pint_scal, quad_L. exact Hk.
  - rewrite (rsum_ext (S n) (fun i => gw i * f (x i)) (fun i => rsum (2 * S n) (fun k => gw i * (c k * eval_legendre k (x i))))) by (intros i _; rewrite E, rsum_scal_l; reflexivity).
    rewrite rsum_swap. apply rsum_ext. intros k _. rewrite rsum_scal_l. apply rsum_ext. intros. ring.
Qed.
Lemma quad_pow k : (k <= 2 * n + 1)%nat -> rsum (S n) (fun i => gw i * x i ^ k) = (1 - (-1) ^ (k + 1)) / (INR k + 1).
Proof. intros H. apply (pint_unique (fun t => t ^ k)); [|apply pint_pow]. apply (quad_span (fun t => t ^ k)). apply (lspan_mono (S k)); [lia|apply lspan_pow]. Qed.
End Quad.
