(** Solid harmonics, part 2: real solid harmonics, their gradients (lowering) and
    the harmonic part of a coordinate times a harmonic (raising). *)
From Verif Require Import Base BaseFacts M_sph0 P_sph1.

(** (Re, Im) of (x + i y)^m *)
Fixpoint ck (m : nat) (x y : R) : R := match m with O => 1 | S k => x * ck k x y - y * sk k x y end
with sk (m : nat) (x y : R) : R := match m with O => 0 | S k => x * sk k x y + y * ck k x y end.

Lemma ck_S m x y : ck (S m) x y = x * ck m x y - y * sk m x y. Proof. reflexivity. Qed.
Lemma sk_S m x y : sk (S m) x y = x * sk m x y + y * ck m x y. Proof. reflexivity. Qed.

(** derivative of ck, sk in direction (wx, wy) *)
Definition dck (m : nat) (x y wx wy : R) : R :=
  match m with O => 0 | S k => INR m * (wx * ck k x y - wy * sk k x y) end.
Definition dsk (m : nat) (x y wx wy : R) : R :=
  match m with O => 0 | S k => INR m * (wx * sk k x y + wy * ck k x y) end.

Lemma ck_deriv (fx fy : R -> R) t wx wy m :
  derivable_pt_lim fx t wx -> derivable_pt_lim fy t wy ->
  derivable_pt_lim (fun t => ck m (fx t) (fy t)) t (dck m (fx t) (fy t) wx wy) /\
  derivable_pt_lim (fun t => sk m (fx t) (fy t)) t (dsk m (fx t) (fy t) wx wy).
Proof.
  intros Hx Hy. induction m as [|m [IC IS]].
  - split; apply derivable_pt_lim_const.
  - pose proof (derivable_pt_lim_minus _ _ _ _ _ (derivable_pt_lim_mult _ _ _ _ _ Hx IC) (derivable_pt_lim_mult _ _ _ _ _ Hy IS)) as F.
    pose proof (derivable_pt_lim_plus _ _ _ _ _ (derivable_pt_lim_mult _ _ _ _ _ Hx IS) (derivable_pt_lim_mult _ _ _ _ _ Hy IC)) as G.
    cbv beta in F, G. split.
    + eapply dpl_val; [|exact F]. unfold dck, dsk. rewrite S_INR. destruct m; [simpl; ring|].
      rewrite (ck_S m), (sk_S m). ring.
    + eapply dpl_val; [|exact G]. unfold dck, dsk. rewrite S_INR. destruct m; [simpl; ring|].
      rewrite (ck_S m), (sk_S m). ring.
Qed.

(** unnormalised solid harmonics of order l, degree m >= 0: cosine and sine type *)
Definition Hc (l m : nat) (v : V3) : R := Q l m (vz v) (dot3 v v) * ck m (vx v) (vy v).
Definition Hs (l m : nat) (v : V3) : R := Q l m (vz v) (dot3 v v) * sk m (vx v) (vy v).
(** their derivatives at v in direction w *)
Definition dHc (l m : nat) (w v : V3) : R :=
  (vz w * Q l (S m) (vz v) (dot3 v v) - dot3 v w * Qp l (S m) (vz v) (dot3 v v)) * ck m (vx v) (vy v)
  + Q l m (vz v) (dot3 v v) * dck m (vx v) (vy v) (vx w) (vy w).
Definition dHs (l m : nat) (w v : V3) : R :=
  (vz w * Q l (S m) (vz v) (dot3 v v) - dot3 v w * Qp l (S m) (vz v) (dot3 v v)) * sk m (vx v) (vy v)
  + Q l m (vz v) (dot3 v v) * dsk m (vx v) (vy v) (vx w) (vy w).

(** directional derivative of a function on R^3 *)
Definition ddir (f : V3 -> R) (v w : V3) (d : R) : Prop :=
  derivable_pt_lim (fun t => f (add3 v (scal3 t w))) 0 d.

Lemma lin_deriv a b : derivable_pt_lim (fun t => a + t * b) 0 b.
Proof.
  apply dpl_val with (0 + (1 * b + 0 * 0)); [ring|].
  apply (derivable_pt_lim_plus (fct_cte a) (fun t => t * b)).
  - apply derivable_pt_lim_const.
  - apply (derivable_pt_lim_mult id (fct_cte b)); [apply derivable_pt_lim_id|apply derivable_pt_lim_const].
Qed.
Lemma add3_scal0 v w : add3 v (scal3 0 w) = v.
Proof. destruct v as [[a b] c], w as [[d e] f]. unfold add3, scal3, vx, vy, vz. simpl. f_equal; [f_equal|]; ring. Qed.
Lemma dot_deriv v w : derivable_pt_lim (fun t => dot3 (add3 v (scal3 t w)) (add3 v (scal3 t w))) 0 (2 * dot3 v w).
Proof.
  apply dpl_ext with (fun t => (vx v + t * vx w) * (vx v + t * vx w) + (vy v + t * vy w) * (vy v + t * vy w) + (vz v + t * vz w) * (vz v + t * vz w)).
  { intros y. unfold dot3, add3, scal3, vx, vy, vz. simpl. ring. }
  pose proof (lin_deriv (vx v) (vx w)) as X. pose proof (lin_deriv (vy v) (vy w)) as Y. pose proof (lin_deriv (vz v) (vz w)) as Z.
  pose proof (derivable_pt_lim_plus _ _ _ _ _ (derivable_pt_lim_plus _ _ _ _ _ (derivable_pt_lim_mult _ _ _ _ _ X X) (derivable_pt_lim_mult _ _ _ _ _ Y Y)) (derivable_pt_lim_mult _ _ _ _ _ Z Z)) as F.
  eapply dpl_val; [|exact F]. cbv beta. unfold dot3. ring.
Qed.

Lemma Hc_deriv l m v w : ddir (Hc l m) v w (dHc l m w v).
Proof.
  unfold ddir, Hc.
  pose proof (Q_deriv (fun t => vz v + t * vz w) (fun t => dot3 (add3 v (scal3 t w)) (add3 v (scal3 t w))) 0 _ _ l m
     (lin_deriv _ _) (dot_deriv v w)) as DQ.
  destruct (ck_deriv (fun t => vx v + t * vx w) (fun t => vy v + t * vy w) 0 _ _ m (lin_deriv _ _) (lin_deriv _ _)) as [DC _].
  pose proof (derivable_pt_lim_mult _ _ _ _ _ DQ DC) as F.
  eapply dpl_val; [|eapply dpl_ext; [|exact F]].
  - cbv beta. rewrite !add3_scal0, !Rmult_0_l, !Rplus_0_r. unfold dHc. field.
  - intros y. reflexivity.
Qed.
Lemma Hs_deriv l m v w : ddir (Hs l m) v w (dHs l m w v).
Proof.
  unfold ddir, Hs.
  pose proof (Q_deriv (fun t => vz v + t * vz w) (fun t => dot3 (add3 v (scal3 t w)) (add3 v (scal3 t w))) 0 _ _ l m
     (lin_deriv _ _) (dot_deriv v w)) as DQ.
  destruct (ck_deriv (fun t => vx v + t * vx w) (fun t => vy v + t * vy w) 0 _ _ m (lin_deriv _ _) (lin_deriv _ _)) as [_ DC].
  pose proof (derivable_pt_lim_mult _ _ _ _ _ DQ DC) as F.
  eapply dpl_val; [|eapply dpl_ext; [|exact F]].
  - cbv beta. rewrite !add3_scal0, !Rmult_0_l, !Rplus_0_r. unfold dHs. field.
  - intros y. reflexivity.
Qed.

(** * brackets *)
Lemma br1 L m z s : (2 * INR L + 1) * Q L m z s + s * Qp L (S m) z s = Q (S L) (S m) z s.
Proof. rewrite Q_up. ring. Qed.
Lemma br2 L k z s :
  (2 * INR L + 1) * ((s - z * z) * Q L (S k) z s) + s * ((s - z * z) * Qp L (S (S k)) z s) - 2 * s * (INR k + 1) * Q L (S k) z s =
  - ((INR L - INR k) * (INR L - INR k + 1) * Q (S L) k z s).
Proof.
  rewrite Q_rho. pose proof (Q_6 L k z s) as E.
  assert (s * (2 * (INR k + 1) * Q L (S k) z s - (s - z * z) * Qp L (S (S k)) z s) =
          s * ((INR L + INR k + 1) * (INR L + INR k) * Qp L k z s)) by (rewrite E; ring).
  lra.
Qed.
Lemma brz L m z s : (m <= L)%nat ->
  (2 * INR L + 1) * (z * Q L m z s) - s * (Q L (S m) z s - z * Qp L (S m) z s) = (INR L - INR m + 1) * Q (S L) m z s.
Proof. intros H. rewrite (Q_rec L m z s H). rewrite (Qp_a L m). ring. Qed.
Lemma gz l m z s : Q l (S m) z s - z * Qp l (S m) z s = (INR l + INR m) * Qp l m z s.
Proof. rewrite (Qp_a l m). ring. Qed.

(** trigonometric part *)
Lemma t1 k x y : x * ck (S k) x y + y * sk (S k) x y = (x * x + y * y) * ck k x y.
Proof. rewrite ck_S, sk_S. ring. Qed.
Lemma t2 k x y : x * sk (S k) x y - y * ck (S k) x y = (x * x + y * y) * sk k x y.
Proof. rewrite ck_S, sk_S. ring. Qed.

Section unnormalised.
  Variables (w v : V3).
  Let x := vx v. Let y := vy v. Let z := vz v. Let s := dot3 v v.
  Let wx := vx w. Let wy := vy w. Let wz := vz w.
  Let c (k : nat) := ck k x y. Let g (k : nat) := sk k x y.

  Lemma rho_eq : x * x + y * y = s - z * z.
  Proof. unfold s, dot3, x, y, z. ring. Qed.

  (** raising, cosine type *)
  Lemma raise_c0 L :
    (2 * INR L + 1) * (dot3 v w * Hc L 0 v) - s * dHc L 0 w v =
    wz * (INR L + 1) * Hc (S L) 0 v + (wx * Hc (S L) 1 v + wy * Hs (S L) 1 v).
  Proof.
    unfold Hc, Hs, dHc, dck. fold x y z s. simpl ck. simpl sk.
    replace (dot3 v w) with (x * wx + y * wy + z * wz) by reflexivity. fold wz.
    rewrite <- (br1 L 0 z s).
    pose proof (brz L 0 z s ltac:(lia)) as E. simpl INR in E. rewrite Rminus_0_r in E.
    transitivity (wz * ((2 * INR L + 1) * (z * Q L 0 z s) - s * (Q L 1 z s - z * Qp L 1 z s)) +
       (wx * x + wy * y) * ((2 * INR L + 1) * Q L 0 z s + s * Qp L 1 z s)); [ring|].
    rewrite E. ring.
  Qed.
  Lemma raise_c L k : (S k <= L)%nat ->
    (2 * INR L + 1) * (dot3 v w * Hc L (S k) v) - s * dHc L (S k) w v =
    wz * (INR L - INR (S k) + 1) * Hc (S L) (S k) v + / 2 * (wx * Hc (S L) (S (S k)) v + wy * Hs (S L) (S (S k)) v)
    - / 2 * ((INR L - INR k) * (INR L - INR k + 1)) * (wx * Hc (S L) k v - wy * Hs (S L) k v).
  Proof.
    intros H. unfold Hc, Hs, dHc, dck. fold x y z s.
    replace (dot3 v w) with (x * wx + y * wy + z * wz) by reflexivity. fold wx wy wz.
    pose proof (brz L (S k) z s H) as EZ. pose proof (br1 L (S k) z s) as E1. pose proof (br2 L k z s) as E2.
    transitivity (wz * ck (S k) x y * ((INR L - INR (S k) + 1) * Q (S L) (S k) z s)
      + / 2 * (wx * ck (S (S k)) x y + wy * sk (S (S k)) x y) * Q (S L) (S (S k)) z s
      + / 2 * (wx * ck k x y - wy * sk k x y) * (- ((INR L - INR k) * (INR L - INR k + 1) * Q (S L) k z s))); [|ring].
    rewrite <- EZ, <- E1, <- E2. rewrite S_INR. rewrite <- rho_eq.
    assert (PX : x * ck (S k) x y = / 2 * (ck (S (S k)) x y + (x * x + y * y) * ck k x y)).
    { rewrite (ck_S (S k)), <- t1. field. }
    assert (PY : y * ck (S k) x y = / 2 * (sk (S (S k)) x y - (x * x + y * y) * sk k x y)).
    { rewrite (sk_S (S k)), <- t2. field. }
    transitivity (((2 * INR L + 1) * Q L (S k) z s + s * Qp L (S (S k)) z s) * (wx * (x * ck (S k) x y) + wy * (y * ck (S k) x y))
       + wz * ck (S k) x y * ((2 * INR L + 1) * (z * Q L (S k) z s) - s * (Q L (S (S k)) z s - z * Qp L (S (S k)) z s))
       - s * (INR k + 1) * Q L (S k) z s * (wx * ck k x y - wy * sk k x y)); [ring|].
    rewrite PX, PY. set (cc := ck (S (S k)) x y). set (gg := sk (S (S k)) x y). set (q := Q L (S (S k)) z s). field.
  Qed.
  Lemma raise_s L k : (S k <= L)%nat ->
    (2 * INR L + 1) * (dot3 v w * Hs L (S k) v) - s * dHs L (S k) w v =
    wz * (INR L - INR (S k) + 1) * Hs (S L) (S k) v + / 2 * (wx * Hs (S L) (S (S k)) v - wy * Hc (S L) (S (S k)) v)
    - / 2 * ((INR L - INR k) * (INR L - INR k + 1)) * (wx * Hs (S L) k v + wy * Hc (S L) k v).
  Proof.
    intros H. unfold Hc, Hs, dHs, dsk. fold x y z s.
    replace (dot3 v w) with (x * wx + y * wy + z * wz) by reflexivity. fold wx wy wz.
    pose proof (brz L (S k) z s H) as EZ. pose proof (br1 L (S k) z s) as E1. pose proof (br2 L k z s) as E2.
    transitivity (wz * sk (S k) x y * ((INR L - INR (S k) + 1) * Q (S L) (S k) z s)
      + / 2 * (wx * sk (S (S k)) x y - wy * ck (S (S k)) x y) * Q (S L) (S (S k)) z s
      + / 2 * (wx * sk k x y + wy * ck k x y) * (- ((INR L - INR k) * (INR L - INR k + 1) * Q (S L) k z s))); [|ring].
    rewrite <- EZ, <- E1, <- E2. rewrite S_INR. rewrite <- rho_eq.
    assert (PX : x * sk (S k) x y = / 2 * (sk (S (S k)) x y + (x * x + y * y) * sk k x y)).
    { rewrite (sk_S (S k)), <- t2. field. }
    assert (PY : y * sk (S k) x y = / 2 * (- ck (S (S k)) x y + (x * x + y * y) * ck k x y)).
    { rewrite (ck_S (S k)), <- t1. field. }
    transitivity (((2 * INR L + 1) * Q L (S k) z s + s * Qp L (S (S k)) z s) * (wx * (x * sk (S k) x y) + wy * (y * sk (S k) x y))
       + wz * sk (S k) x y * ((2 * INR L + 1) * (z * Q L (S k) z s) - s * (Q L (S (S k)) z s - z * Qp L (S (S k)) z s))
       - s * (INR k + 1) * Q L (S k) z s * (wx * sk k x y + wy * ck k x y)); [ring|].
    rewrite PX, PY. set (cc := ck (S (S k)) x y). set (gg := sk (S (S k)) x y). set (q := Q L (S (S k)) z s). field.
  Qed.

  (** lowering (gradients) *)
  Lemma lower_c0 L :
    dHc (S L) 0 w v = wz * (INR L + 1) * Hc L 0 v - (wx * Hc L 1 v + wy * Hs L 1 v).
  Proof.
    unfold Hc, Hs, dHc, dck. fold x y z s. simpl ck. simpl sk.
    replace (dot3 v w) with (x * wx + y * wy + z * wz) by reflexivity. fold wz.
    pose proof (gz (S L) 0 z s) as E. rewrite !Qp_S in *. rewrite S_INR in E. simpl INR in E. rewrite Rplus_0_r in E.
    transitivity (wz * (Q (S L) 1 z s - z * Q L 1 z s) - (x * wx + y * wy) * Q L 1 z s); [ring|].
    rewrite E. ring.
  Qed.
  Lemma lower_c L k :
    dHc (S L) (S k) w v = wz * (INR L + INR k + 2) * Hc L (S k) v
      + / 2 * ((INR L + INR k + 2) * (INR L + INR k + 1)) * (wx * Hc L k v - wy * Hs L k v)
      - / 2 * (wx * Hc L (S (S k)) v + wy * Hs L (S (S k)) v).
  Proof.
    unfold Hc, Hs, dHc, dck. fold x y z s.
    replace (dot3 v w) with (x * wx + y * wy + z * wz) by reflexivity. fold wx wy wz.
    pose proof (gz (S L) (S k) z s) as E. pose proof (Q_6 (S L) k z s) as E6. rewrite !Qp_S in *. rewrite !S_INR in *.
    assert (PX : x * ck (S k) x y = / 2 * (ck (S (S k)) x y + (x * x + y * y) * ck k x y)).
    { rewrite (ck_S (S k)), <- t1. field. }
    assert (PY : y * ck (S k) x y = / 2 * (sk (S (S k)) x y - (x * x + y * y) * sk k x y)).
    { rewrite (sk_S (S k)), <- t2. field. }
    transitivity (wz * ck (S k) x y * (Q (S L) (S (S k)) z s - z * Q L (S (S k)) z s)
      - Q L (S (S k)) z s * (wx * (x * ck (S k) x y) + wy * (y * ck (S k) x y))
      + (INR k + 1) * Q (S L) (S k) z s * (wx * ck k x y - wy * sk k x y)); [ring|].
    rewrite PX, PY, E. rewrite rho_eq.
    transitivity (wz * ck (S k) x y * ((INR L + 1 + (INR k + 1)) * Q L (S k) z s)
      - / 2 * Q L (S (S k)) z s * (wx * ck (S (S k)) x y + wy * sk (S (S k)) x y)
      + / 2 * (wx * ck k x y - wy * sk k x y) * (2 * (INR k + 1) * Q (S L) (S k) z s - (s - z * z) * Q L (S (S k)) z s)); [field|].
    rewrite E6. field.
  Qed.
  Lemma lower_s L k :
    dHs (S L) (S k) w v = wz * (INR L + INR k + 2) * Hs L (S k) v
      + / 2 * ((INR L + INR k + 2) * (INR L + INR k + 1)) * (wx * Hs L k v + wy * Hc L k v)
      - / 2 * (wx * Hs L (S (S k)) v - wy * Hc L (S (S k)) v).
  Proof.
    unfold Hc, Hs, dHs, dsk. fold x y z s.
    replace (dot3 v w) with (x * wx + y * wy + z * wz) by reflexivity. fold wx wy wz.
    pose proof (gz (S L) (S k) z s) as E. pose proof (Q_6 (S L) k z s) as E6. rewrite !Qp_S in *. rewrite !S_INR in *.
    assert (PX : x * sk (S k) x y = / 2 * (sk (S (S k)) x y + (x * x + y * y) * sk k x y)).
    { rewrite (sk_S (S k)), <- t2. field. }
    assert (PY : y * sk (S k) x y = / 2 * (- ck (S (S k)) x y + (x * x + y * y) * ck k x y)).
    { rewrite (ck_S (S k)), <- t1. field. }
    transitivity (wz * sk (S k) x y * (Q (S L) (S (S k)) z s - z * Q L (S (S k)) z s)
      - Q L (S (S k)) z s * (wx * (x * sk (S k) x y) + wy * (y * sk (S k) x y))
      + (INR k + 1) * Q (S L) (S k) z s * (wx * sk k x y + wy * ck k x y)); [ring|].
    rewrite PX, PY, E. rewrite rho_eq.
    transitivity (wz * sk (S k) x y * ((INR L + 1 + (INR k + 1)) * Q L (S k) z s)
      - / 2 * Q L (S (S k)) z s * (wx * sk (S (S k)) x y - wy * ck (S (S k)) x y)
      + / 2 * (wx * sk k x y + wy * ck k x y) * (2 * (INR k + 1) * Q (S L) (S k) z s - (s - z * z) * Q L (S (S k)) z s)); [field|].
    rewrite E6. field.
  Qed.
End unnormalised.
