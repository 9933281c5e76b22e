(** Specification vocabulary for forward-backward filters and band-pass filters. *)
From Verif Require Import Base.
Open Scope R_scope.

(** a signal over all integer times that stays at [c] before time 0 *)
Definition held (c : R) (x : list R) (m : Z) : R := if (m <? 0)%Z then c else nth (Z.to_nat m) x 0.
(** p_0 f(n) + p_1 f(n-1) + ... *)
Definition taps (p : list R) (f : Z -> R) (n : Z) : R := rsum (length p) (fun k => nth k p 0 * f (n - Z.of_nat k)%Z).
(** the gain at frequency zero *)
Definition dc_gain (b a : list R) : R := lsum b / lsum a.
(** [y] is the output of the filter b / a for the input [x], when the input has been at its
    first value, and the output at rest, for all time before *)
Definition from_rest (b a x y : list R) : Prop :=
  length y = length x /\
  forall n : nat, (n < length x)%nat ->
    taps a (held (dc_gain b a * nth 0 x 0) y) (Z.of_nat n) = taps b (held (nth 0 x 0) x) (Z.of_nat n).
(** the signal turned by half a turn about its first and its last sample *)
Definition turned (x : list R) (m : Z) : R :=
  let N := Z.of_nat (length x) in
  let at_ k := nth (Z.to_nat k) x 0 in
  if (m <? 0)%Z then 2 * at_ 0%Z - at_ (- m)%Z
  else if (m <? N)%Z then at_ m
  else 2 * at_ (N - 1)%Z - at_ (2 * (N - 1) - m)%Z.
(** [w] is [x] filtered by b / a forwards, then backwards, with [e] samples added on either
    side *)
Definition forward_backward (b a : list R) (e : nat) (x w : list R) : Prop :=
  length w = length x /\
  exists ext y v : list R,
    length ext = (length x + 2 * e)%nat /\
    (forall i, (i < length ext)%nat -> nth i ext 0 = turned x (Z.of_nat i - Z.of_nat e)) /\
    from_rest b a ext y /\ from_rest b a (rev y) (rev v) /\
    forall i, (i < length x)%nat -> nth i w 0 = nth (e + i) v 0.
(** product of polynomials *)
Definition times (p q : list R) : list R :=
  map (fun n => rsum (S n) (fun k => nth k p 0 * nth (n - k) q 0)) (seq 0 (length p + length q - 1)).
(** sum of p_k e^(-i k t), and its squared modulus *)
Definition response (p : list R) (t : R) : R * R :=
  (rsum (length p) (fun k => nth k p 0 * cos (INR k * t)), - rsum (length p) (fun k => nth k p 0 * sin (INR k * t))).
Definition power (p : list R) (t : R) : R := fst (response p t) ^ 2 + snd (response p t) ^ 2.
