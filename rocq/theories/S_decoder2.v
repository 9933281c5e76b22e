(** Specifications for the Ambisonic part of decoder.py. *)
From Verif Require Import Base M_utils M_sph0 M_decoder S_utils S_sph S_decoder.
Open Scope R_scope.

(** [v] points in the direction of the unit vector [d] *)
Definition aims (v : V3) (d : V3) : Prop := exists k, 0 < k /\ v = scal3 k d.
(** [azi], [zen] are angles of the vectors [ps] *)
Definition angles_of (ps : list V3) (azi zen : list R) : Prop :=
  length azi = length ps /\ length zen = length ps /\
  forall i, (i < length ps)%nat -> 0 <= nth i zen 0 <= PI /\ aims (nth i ps (0, 0, 0)) (sph2cart (nth i azi 0) (nth i zen 0) 1).
(** cosine of the angle between two directions *)
Definition cos_angle (u v : V3) : R := dot3 u v / (norm3 u * norm3 v).
(** axisymmetric pattern with modal weights [a] at an angle with cosine [c]; the
    Legendre polynomials are characterised in C17/C70 *)
Definition pattern (a : list R) (c : R) : R :=
  rsum (length a) (fun n => nth n a 0 * ((2 * INR n + 1) / (4 * PI)) * eval_legendre n c).
(** max-rE weights up to a factor: P_n(cos(137.9 deg / (N + 1.51))) *)
Definition max_rE (N n : nat) : R := eval_legendre n (cos (1379 / 10 * PI / 180 / (INR N + 151 / 100))).
(** [P] is the matrix product of [A] and [B] *)
Definition product (A B P : mat) : Prop :=
  nc A = nr B /\ nr P = nr A /\ nc P = nc B /\
  forall i j, (i < nr A)%nat -> (j < nc B)%nat -> ent P i j = rsum (nc A) (fun k => ent A i k * ent B k j).
Definition col_energy (M : mat) (j : nat) : R := rsum (nr M) (fun i => ent M i j * ent M i j).
(** positions [0..n) that are not listed *)
Fixpoint kept_from (i : nat) (bad : nat -> Prop) (n : nat) (l : list nat) : Prop :=
  match n with
  | O => l = []
  | S k => (bad i /\ kept_from (S i) bad k l) \/ (~ bad i /\ exists t, l = i :: t /\ kept_from (S i) bad k t)
  end.
(** loudspeakers that exist: all but the imaginary ones, in order *)
Definition real_ls (imag : option (list nat)) (n : nat) (l : list nat) : Prop :=
  kept_from 0 (fun i => match imag with Some idx => In i idx | None => False end) n l.

(** singular value decomposition Y = U diag(S) VH with square orthogonal U, VH *)
Definition orthogonal (n : nat) (U : mat) : Prop :=
  nr U = n /\ nc U = n /\
  (forall i j, (i < n)%nat -> (j < n)%nat -> rsum n (fun k => ent U k i * ent U k j) = delta i j) /\
  (forall i j, (i < n)%nat -> (j < n)%nat -> rsum n (fun k => ent U i k * ent U j k) = delta i j).
Definition is_svd (Y U : mat) (sv : list R) (VH : mat) : Prop :=
  orthogonal (nr Y) U /\ orthogonal (nc Y) VH /\ length sv = Nat.min (nr Y) (nc Y) /\ (forall x, In x sv -> 0 <= x) /\
  forall i j, (i < nr Y)%nat -> (j < nc Y)%nat ->
    ent Y i j = rsum (length sv) (fun k => ent U i k * nth k sv 0 * ent VH k j).
(** D^T D = c I *)
Definition isometry (c : R) (D : mat) : Prop :=
  forall a b, (a < nc D)%nat -> (b < nc D)%nat -> rsum (nr D) (fun l => ent D l a * ent D l b) = c * delta a b.

(** every worker gets to finish its three steps *)
Definition fair (n : nat) (sched : list nat) : Prop := forall i, (i < n)%nat -> (3 <= count_occ Nat.eq_dec sched i)%nat.
(** a setup after ambisonics_setup: hull and kernel, no kernel point at the origin *)
Definition ambi_ready (s : setup) (h : hull) (kp : list V3) : Prop :=
  s_ambi s = Some h /\ (exists Nk, s_kernel s = Some (kp, Nk)) /\ forall p, In p kp -> p <> (0, 0, 0).
(** a hull on which vbap has not run yet, with regular triangles *)
Definition fresh_hull (h : hull) : Prop :=
  h_vbase h = None /\ hull_wf h /\ Forall (in_range (length (h_points h))) (h_valid h) /\
  Forall (independent (h_points h)) (h_valid h).
(** the order in force: the argument or else the order of the setup *)
Definition order_in_force (N_sph : option nat) (s : setup) (N : nat) : Prop :=
  N_sph = Some N \/ N_sph = None /\ s_order s = Some N.
