(** Specification vocabulary for recursive filters and B-format conversion. *)
From Verif Require Import Base M_sig.
Open Scope R_scope.

(** sample n - k of a signal that was silent before it began *)
Definition past (x : list R) (n k : nat) : R := if Nat.leb k n then nth (n - k) x 0 else 0.
(** a_0 y_n + a_1 y_{n-1} + ... = b_0 x_n + b_1 x_{n-1} + ... *)
Definition difference_equation (b a x y : list R) : Prop :=
  length y = length x /\
  forall n, (n < length x)%nat -> rsum (length a) (fun k => nth k a 0 * past y n k) = rsum (length b) (fun k => nth k b 0 * past x n k).
(** four microphone signals of one length *)
Definition capsules (A : multi) (n : nat) (s : nat -> nat -> R) : Prop :=
  length (channels A) = 4%nat /\ forall i, (i < 4)%nat -> length (m_sig (nth i (channels A) (Mono [] 0))) = n /\
    forall t, (t < n)%nat -> nth t (m_sig (nth i (channels A) (Mono [] 0))) 0 = s i t.
(** front-left-up, front-right-down, back-left-down, back-right-up to B format *)
Definition b_of (s : nat -> nat -> R) (i t : nat) : R :=
  match i with
  | 0%nat => PI * (s 0%nat t + s 1%nat t + s 2%nat t + s 3%nat t)
  | 1%nat => PI / sqrt 3 * (s 0%nat t + s 1%nat t - s 2%nat t - s 3%nat t)
  | 2%nat => PI / sqrt 3 * (s 0%nat t - s 1%nat t + s 2%nat t - s 3%nat t)
  | _ => PI / sqrt 3 * (s 0%nat t - s 1%nat t - s 2%nat t + s 3%nat t)
  end.
(** a signal of length n with given samples *)
Definition sampled (n : nat) (f : nat -> R) (x : list R) : Prop := length x = n /\ forall t, (t < n)%nat -> nth t x 0 = f t.
Definition attribute (s : ambib) (i : nat) : list R := match i with 0%nat => aW s | 1%nat => aX s | 2%nat => aY s | _ => aZ s end.
