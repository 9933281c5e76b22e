(** Specification vocabulary for zeros, poles and stability. *)
From Verif Require Import Base M_utils M_sig M_sph0 M_sph M_parsa3 M_process3.
Open Scope R_scope.

Fixpoint cpow (z : C2) (n : nat) : C2 := match n with O => (1, 0) | S m => cmul z (cpow z m) end.
(** p_0 z^(n-1) + ... + p_(n-1) *)
Definition polynomial (p : list R) (z : C2) : C2 := csum (length p) (fun k => cscal (nth k p 0) (cpow z (length p - 1 - k))).
(** (z - r_1) (z - r_2) ... *)
Definition product (rs : list C2) (z : C2) : C2 := fold_right (fun r acc => cmul (fst z - fst r, snd z - snd r) acc) (1, 0) rs.
(** [rs] are all roots, each as often as its multiplicity *)
Definition all_roots (p : list R) (rs : list C2) : Prop :=
  length rs = (length p - 1)%nat /\ forall z, polynomial p z = cscal (nth 0 p 0) (product rs z).
(** the first and the last coefficient are not zero: what numpy hands to the eigenvalue
    solver *)
Definition solves_for (eig : list R -> list C2) (p : list R) : Prop :=
  forall k n s, p = repeat 0 k ++ s ++ repeat 0 n -> nth 0 s 0 <> 0 -> nth (length s - 1) s 0 <> 0 -> (2 <= length s)%nat -> all_roots s (eig s).
(** bounded input, bounded output *)
Definition bounded_by (b a : list R) (K : R) : Prop :=
  forall x y X, lfilter b a x = Ok y -> (forall i, (i < length x)%nat -> Rabs (nth i x 0) <= X) -> forall i, (i < length x)%nat -> Rabs (nth i y 0) <= K * X.
Definition stable (b a : list R) : Prop := exists K, bounded_by b a K.
(** the filter's answer to an impulse, [N] samples of it *)
Definition impulse (N : nat) : list R := 1 :: repeat 0 (N - 1).
Definition inside (r : R) (l : list C2) : Prop := forall p, In p l -> cabs p < r.
