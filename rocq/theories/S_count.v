(** Specifications of the source count for sources in noise (C120). *)
From Verif Require Import Base M_utils M_sph0 S_sph S_music.
Open Scope R_scope.

(** inner product of the harmonics up to order [N] at the directions [u] and [v] *)
Definition overlap (N : nat) (u v : V3) : R := rsum (N + 1) (fun n => (2 * INR n + 1) / (4 * PI) * eval_legendre n (dot3 u v)).
(** variance of the eigenvalues caused by sources of powers [p] at the directions (sa, sz) *)
Definition spread (N : nat) (sa sz p : list R) : R :=
  rsum (length sa) (fun s => rsum (length sa) (fun t => nth s p 0 * nth t p 0 * overlap N (dirv sa sz s) (dirv sa sz t) ^ 2)) / INR ((N + 1) ^ 2)
  - (lsum p / (4 * PI)) ^ 2.
(** the threshold for [L] eigenvalues: the argument, or its default 1 + 2/L *)
Definition limit_for (L : nat) (a0 : option R) : R := match a0 with Some a => a | None => 1 + 2 / INR L end.
