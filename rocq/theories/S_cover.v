(** Specification: triangles around the listener. *)
From Verif Require Import Base M_decoder S_decoder.
Open Scope R_scope.

(** [a], [b], [c] are the corners of a face of [vs], in some order *)
Definition corners (vs : list face) (a b c : nat) : Prop :=
  In (a, b, c) vs \/ In (b, c, a) vs \/ In (c, a, b) vs \/ In (b, a, c) vs \/ In (a, c, b) vs \/ In (c, b, a) vs.
(** six times the signed volume of the listener and three positions *)
Definition volume (ps : list V3) (a b c : nat) : R :=
  dot3 (nth a ps (0,0,0)) (cross3 (nth b ps (0,0,0)) (nth c ps (0,0,0))).
(** across each side of each face another face goes on: its third corner lies
    on the other side of the plane through the listener and the side *)
Definition goes_on (ps : list V3) (vs : list face) : Prop :=
  forall a b c, corners vs a b c -> exists d, corners vs a b d /\ volume ps a b c * volume ps a b d < 0.
(** a convex polyhedron of triangles with the listener inside: the plane of each
    face has the listener and every corner that does not belong to the face below it *)
Definition encloses (ps : list V3) (vs : list face) : Prop :=
  forall a b c, corners vs a b c -> exists n k, 0 < k /\
    dot3 n (nth a ps (0,0,0)) = k /\ dot3 n (nth b ps (0,0,0)) = k /\ dot3 n (nth c ps (0,0,0)) = k /\
    forall d e f, corners vs d e f -> d <> a -> d <> b -> d <> c -> dot3 n (nth d ps (0,0,0)) < k.
(** without a rim: each side of each face is a side of another one *)
Definition closed_surface (vs : list face) : Prop :=
  forall a b c, corners vs a b c -> exists d, d <> c /\ corners vs a b d.
