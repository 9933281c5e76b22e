(** Specification: exact convex hulls of points in general position. *)
From Verif Require Import Base M_decoder S_decoder S_cover.
Open Scope R_scope.

(** three points of the list whose plane has all others strictly below it *)
Definition supports (ps : list V3) (a b c : nat) : Prop :=
  (a < length ps)%nat /\ (b < length ps)%nat /\ (c < length ps)%nat /\ a <> b /\ b <> c /\ a <> c /\
  exists n k, dot3 n (nth a ps (0,0,0)) = k /\ dot3 n (nth b ps (0,0,0)) = k /\ dot3 n (nth c ps (0,0,0)) = k /\
    forall d, (d < length ps)%nat -> d <> a -> d <> b -> d <> c -> dot3 n (nth d ps (0,0,0)) < k.
(** at least four points, no four of them in a plane *)
Definition general (ps : list V3) : Prop :=
  (4 <= length ps)%nat /\
  forall a b c d, (a < length ps)%nat -> (b < length ps)%nat -> (c < length ps)%nat -> (d < length ps)%nat ->
    a <> b -> a <> c -> a <> d -> b <> c -> b <> d -> c <> d ->
    let p i := nth i ps (0, 0, 0) in dot3 (sub3 (p b) (p a)) (cross3 (sub3 (p c) (p a)) (sub3 (p d) (p a))) <> 0.
(** the origin is in the interior of the convex hull: there are points in every half space *)
Definition surrounded (ps : list V3) : Prop :=
  forall n, n <> (0, 0, 0) -> exists i, (i < length ps)%nat /\ 0 < dot3 n (nth i ps (0, 0, 0)).
(** the faces of the convex hull, in any order and orientation *)
Definition exact_hull (ps : list V3) (vs : list face) : Prop :=
  forall a b c, corners vs a b c <-> supports ps a b c.
