(** Specifications of exact eigenvalue decompositions. *)
From Verif Require Import Base S_parsa.
Open Scope R_scope.

(** numpy's eigh and eigvalsh on symmetric matrices, without rounding *)
Definition exact_eigh (eigh : mat -> list R * mat) : Prop := forall A w V, is_symmetric A -> eigh A = (w, V) -> is_eigh A w V.
Definition exact_eigvalsh (ev : mat -> list R) : Prop := forall A, is_symmetric A -> exists V, is_eigh A (ev A) V.
(** [num] eigenvalues are separated from the others: the numbers of noise and signal
    eigenvectors do not split a repeated eigenvalue *)
Definition separated_at (w : list R) (num : nat) : Prop :=
  num = O \/ (length w <= num)%nat \/ nth (length w - num - 1) w 0 < nth (length w - num) w 0.
(** the same error, or the same two parts *)
Definition same_parts (a b : res (mat * mat)) : Prop :=
  match a, b with Ok (P, Q), Ok (P', Q') => meq P P' /\ meq Q Q' | Err e, Err e' => e = e' | _, _ => False end.
(** column [k] of the eigenvectors, as SH coefficients *)
Definition colv (v : mat) (n k : nat) : list R := map (fun i => ent v i k) (seq 0 n).
(** number of noise eigenvectors sh_music uses for [num] sources: all but the last [num],
    but none at all for [num] = 0 (the slice [:-0]) *)
Definition noise_count (n num : nat) : nat := match num with O => O | _ => (n - num)%nat end.
