(** Roots of filters: existence and uniqueness (C119). *)
From Coq Require Import Permutation.
From Verif Require Import Base M_utils M_sig M_sph0 M_sph M_parsa3 M_process3 M_zp M_comp S_zp S_comp X_fta.
Open Scope R_scope.

(** ** C119 *)
Theorem C119_roots_exist : forall p, p <> [] -> nth 0 p 0 <> 0 -> exists rs, all_roots p rs.
Proof. exact f_exist. Qed.
Print Assumptions C119_roots_exist.
Theorem C119_solver_exists : exists eig, forall p, solves_for eig p.
Proof. exact f_solver. Qed.
Print Assumptions C119_solver_exists.
Theorem C119_roots_unique : forall p a b, nth 0 p 0 <> 0 -> all_roots p a -> all_roots p b -> Permutation a b.
Proof. exact f_unique. Qed.
Print Assumptions C119_roots_unique.
Theorem C119_drawing_determined : forall e1 e2 p, solves_for e1 p -> solves_for e2 p -> Permutation (np_roots e1 p) (np_roots e2 p).
Proof. exact f_determined. Qed.
Print Assumptions C119_drawing_determined.
Theorem C119_drawn_points : forall eig p z, solves_for eig p -> (exists c, In c p /\ c <> 0) -> (In z (np_roots eig p) <-> polynomial p z = (0, 0)).
Proof. exact f_points. Qed.
Print Assumptions C119_drawn_points.
Theorem C119_symmetric : forall eig p, solves_for eig p -> Permutation (map mirror (np_roots eig p)) (np_roots eig p).
Proof. exact f_mirror. Qed.
Print Assumptions C119_symmetric.
Theorem C119_distances : forall eig k c t z, c <> 0 -> solves_for eig (repeat 0 k ++ c :: t) ->
  cabs (polynomial (repeat 0 k ++ c :: t) z) = Rabs c * rproduct (map (distance z) (np_roots eig (repeat 0 k ++ c :: t))).
Proof. exact f_distances. Qed.
Print Assumptions C119_distances.
Theorem C119_companion : forall p z, nth 0 p 0 <> 0 -> (2 <= length p)%nat -> (eigenvalue (companion p) z <-> polynomial p z = (0, 0)).
Proof. exact f_companion. Qed.
Print Assumptions C119_companion.
Theorem C119_stability : forall b a, nth 0 a 0 <> 0 -> b <> [] -> (forall z, polynomial a z = (0, 0) -> polynomial b z <> (0, 0)) ->
  (stable b a <-> forall z, polynomial a z = (0, 0) -> cabs z < 1).
Proof. exact f_stability. Qed.
Print Assumptions C119_stability.
Example C119_nonvacuous : nth 0 [1; 0; 1] 0 <> 0 /\ (2 <= @length R [1; 0; 1]%R)%nat /\ all_roots [1; 0; 1] [(0, 1); (0, -1)] /\ polynomial [1; 0; 1] (0, 1) = (0, 0).
Proof. exact ex_i. Qed.
Example C119_nonvacuous_stability : nth 0 [1; -1; 1/2] 0 <> 0 /\ stable [1] [1; -1; 1/2].
Proof. exact ex_resonator. Qed.
