(** Specifications for the properties of utils.py: plain geometry, written
    without reference to the model. *)
From Verif Require Import Base.
Open Scope R_scope.

(** A linear map of space is a rotation iff it keeps all lengths and angles and
    the handedness (cross products). *)
Definition is_rotation (m : M3) : Prop :=
  (forall u v, dot3 (mv3 m u) (mv3 m v) = dot3 u v) /\
  (forall u v, mv3 m (cross3 u v) = cross3 (mv3 m u) (mv3 m v)).

(** [th] is the angle between [u] and [v]. *)
Definition is_angle (th : R) (u v : V3) : Prop :=
  0 <= th <= PI /\ dot3 u v = norm3 u * norm3 v * cos th.

(** rotation by [th] about the unit axis [k], right hand rule *)
Definition turned (k : V3) (th : R) (v : V3) : V3 :=
  add3 (add3 (scal3 (cos th) v) (scal3 (sin th) (cross3 k v)))
       (scal3 ((1 - cos th) * dot3 k v) k).

Definition unit3 (v : V3) : V3 := scal3 (/ norm3 v) v.

(** [a] equals [b] up to a whole number of periods [p] *)
Definition congr (p a b : R) : Prop := exists k : Z, a = b + IZR k * p.

(** the flat index of element (i,j) of a row-major array with [n] columns *)
Definition at2 {A : Type} (n : nat) (d : list A) (i j : nat) : option A :=
  nth_error d (i * n + j).
