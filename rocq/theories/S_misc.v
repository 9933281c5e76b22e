(** Specifications for the properties of C_misc.v. *)
From Verif Require Import Base M_utils M_sig.
Open Scope R_scope.

(** * Points and hulls *)
(** every triangle lies in a plane that has all points on one side *)
Definition supporting (ps : list V3) (f : nat * nat * nat) : Prop :=
  let '(a, b, c) := f in
  exists n d, n <> (0, 0, 0) /\
    dot3 n (nth a ps (0,0,0)) = d /\ dot3 n (nth b ps (0,0,0)) = d /\ dot3 n (nth c ps (0,0,0)) = d /\
    forall p, In p ps -> dot3 n p <= d.
(** a combination of all points with positive weights *)
Fixpoint combination (w : list R) (ps : list V3) : V3 :=
  match w, ps with a :: w', p :: ps' => add3 (scal3 a p) (combination w' ps') | _, _ => (0, 0, 0) end.
Definition strictly_inside (ps : list V3) (q : V3) : Prop :=
  exists w, length w = length ps /\ (forall a, In a w -> 0 < a) /\ fold_right Rplus 0 w = 1 /\ combination w ps = q.
(** a plane separates the point from all others *)
Definition strictly_outside (ps : list V3) (q : V3) : Prop :=
  exists n, forall p, In p ps -> dot3 n q < dot3 n p.
Definition dist (p q : V3) : R := norm3 (sub3 p q).

(** * Levels *)
Definition power_sum (l : list (R * R)) : R := fold_right Rplus 0 (map (fun z => fst z ^ 2 + snd z ^ 2) l).
(** root-mean-square *)
Definition rms_of (l : list (R * R)) (r : R) : Prop := 0 <= r /\ r ^ 2 * INR (length l) = power_sum l.

(** * Sets of responses *)
(** the [n]-th element, counted from the end when negative *)
Definition item {A : Type} (l : list A) (k : Z) (x : A) : Prop :=
  exists i, nth_error l i = Some x /\ (k = Z.of_nat i \/ k = Z.of_nat i - Z.of_nat (length l))%Z.
(** [k] is the first of the directions closest to the given one *)
Definition first_closest (h : hrirs) (azi zen : R) (k : nat) : Prop :=
  exists ak zk, nth_error (h_azi h) k = Some ak /\ nth_error (h_zen h) k = Some zk /\
    forall j a z, nth_error (h_azi h) j = Some a -> nth_error (h_zen h) j = Some z ->
      exists d d', haversine azi zen ak zk 1 = Some d /\ haversine azi zen a z 1 = Some d' /\ d <= d' /\ ((j < k)%nat -> d < d').
(** an object that a constructor could have made *)
Definition sound (h : hrirs) : Prop := length (h_azi h) = length (h_zen h) /\ length (h_left h) = length (h_azi h) /\ length (h_right h) = length (h_azi h) /\ num_grid_points h = length (h_azi h).
(** the last of the pairs whose row counts fit *)
Fixpoint last_fitting (n : nat) (us : list (arr2 R * arr2 R)) (d : list (list R) * list (list R) * nat) : list (list R) * list (list R) * nat :=
  match us with
  | [] => d
  | (l, r) :: t => last_fitting n t (if (Nat.eqb (length (rows l)) n && Nat.eqb (length (rows r)) n)%bool then (rows l, rows r, cols l) else d)
  end.
(** the width of band [i]: its own, or the only one *)
Definition band_width (width : list R) (n i : nat) : R := if Nat.eqb (length width) n then nth i width 0 else nth 0 width 0.
(** the mean of some points *)
Definition mean_of (ps : list V3) (m : V3) : Prop :=
  (0 < length ps)%nat /\ INR (length ps) * vx m = fold_right Rplus 0 (map vx ps) /\ INR (length ps) * vy m = fold_right Rplus 0 (map vy ps) /\ INR (length ps) * vz m = fold_right Rplus 0 (map vz ps).
