(** Specification vocabulary: condition numbers of complex arrays, and the limit of
    check_cond_sht. *)
From Verif Require Import Base M_sig M_sph S_sph3.
Open Scope R_scope.

Definition cact (A : cmat) (x : nat -> C2) (i : nat) : C2 := csum (cnc A) (fun j => cmul (cent A i j) (x j)).
Definition csumsq (n : nat) (x : nat -> C2) : R := rsum n (fun i => cnorm2 (x i)).
Definition cregular (A : cmat) : Prop :=
  forall x, (forall i, (i < cnr A)%nat -> cact A x i = (0, 0)) -> forall j, (j < cnc A)%nat -> x j = (0, 0).
Definition camplifies_within (A : cmat) (K : R) : Prop :=
  0 <= K /\ forall x y, csumsq (cnr A) (cact A x) * csumsq (cnc A) y <= K ^ 2 * (csumsq (cnr A) (cact A y) * csumsq (cnc A) x).
(** np.linalg.cond of square complex arrays, as [cond_contract] for real ones *)
Definition ccond_contract (cond : cmat -> R) : Prop :=
  forall A, cnr A = cnc A -> (0 < cnc A)%nat ->
    (cregular A -> camplifies_within A (cond A) /\ forall K, camplifies_within A K -> cond A <= K) /\
    (~ cregular A -> 200 < cond A).
(** the limit in force: as given, or 3/2 of the order *)
Definition limit_is (N : nat) (lim : option R) (l : R) : Prop := match lim with Some l' => l = l' | None => 2 * l = 3 * INR N end.
