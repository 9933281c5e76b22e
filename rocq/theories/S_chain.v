(** Specification vocabulary for interaural differences. *)
From Verif Require Import Base.
Open Scope R_scope.

(** root of the mean square *)
Definition loud (l : list R) : R := sqrt (lsum (map (fun x => x * x) l) / INR (length l)).
(** the level difference in dB exists if neither ear is silent *)
Definition ild_db (l r : list R) (v : option R) : Prop :=
  (loud l <> 0 -> loud r <> 0 -> v = Some (20 * ((ln (loud l) - ln (loud r)) / ln 10))) /\
  (loud l = 0 \/ loud r = 0 -> v = None).
(** sum of the products of the squares of [l], [m] samples later, and of [r] *)
Definition energy_corr (l r : list R) (m : Z) : R :=
  rsum (length r) (fun i =>
    let k := (Z.of_nat i + m)%Z in
    if (0 <=? k)%Z then nth (Z.to_nat k) l 0 ^ 2 * nth i r 0 ^ 2 else 0).
(** the first of the lags where [c] is largest, among the n lags around 0 *)
Definition first_peak (c : Z -> R) (n : nat) (m : Z) : Prop :=
  let inside k := (- Z.of_nat (n / 2) <= k < Z.of_nat n - Z.of_nat (n / 2))%Z in
  inside m /\ forall k, inside k -> c k <= c m /\ ((k < m)%Z -> c k < c m).
