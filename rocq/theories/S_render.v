(** Specifications for rendering with post equalisation (C125). *)
From Verif Require Import Base S_parsa3.
Open Scope R_scope.

(** a signal of [S] samples after the distance [d] with the exponent [a] *)
Definition delivered (S : nat) (a d : R) (f : nat -> R) : list R := map (fun u => f u / Rpower d a) (seq 0 S).
(** what the gains [g] of a source at rest lose in band [b]: the loudspeakers add up in
    amplitude, the equaliser expects power *)
Definition lowered (b L : nat) (g : nat -> R) : R := 1 - / (share b * rsum L g + (1 - share b)).
(** the pressure without that part of the three lowest bands *)
Definition thinned (irs : nat -> list R) (p : list R) (L : nat) (g : nat -> R) (u : nat) : R :=
  nth u p 0 - rsum 3 (fun b => lowered b L g * centred (irs b) (sig_at p) (Z.of_nat u)).
