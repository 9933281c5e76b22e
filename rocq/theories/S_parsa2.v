(** Specifications for parsa.py, part 2. *)
From Coq Require Import Permutation.
From Verif Require Import Base M_utils M_sig M_parsa2.
Open Scope R_scope.

(** the tasks 0 .. n-1 are dealt out to the workers, each to exactly one of them *)
Definition dealt (deal : list (list nat)) (n : nat) : Prop := Permutation (concat deal) (seq 0 n).

(** * Rendering *)
(** grid point [k] is the first of those closest to (azi, zen) on the sphere *)
Definition closest (hr : hrirs) (azi zen : R) (k : nat) : Prop :=
  exists ak zk, nth_error (h_azi hr) k = Some ak /\ nth_error (h_zen hr) k = Some zk /\
    forall j a z, nth_error (h_azi hr) j = Some a -> nth_error (h_zen hr) j = Some z ->
      exists d d', haversine azi zen ak zk 1 = Some d /\ haversine azi zen a z 1 = Some d' /\
        d <= d' /\ ((j < k)%nat -> d < d').
(** number of samples rendered: zip stops at the shortest list *)
Definition zipped (p phi theta : list R) : nat := Nat.min (length p) (Nat.min (length phi) (length theta)).
(** sample [n] when sample [i] of [p], for i < K, starts the response [h i] *)
Definition moving_conv (K : nat) (p : list R) (h : nat -> list R) (n : nat) : R :=
  rsum K (fun i => if (i <=? n)%nat then nth i p 0 * nth (n - i) (h i) 0 else 0).
Definition combination (a b : R) (p q : list R) : list R :=
  map (fun i => a * nth i p 0 + b * nth i q 0) (seq 0 (length p)).

(** * Pseudo intensity *)
(** the window length 2h+1 *)
Definition odd (h : nat) : Z := Z.of_nat (2 * h + 1).
(** Hann window of [n] points *)
Definition hann (n k : nat) : R := Rsqr (sin (PI * INR k / INR (n - 1))).
(** windowed product of two signals, window of 2h+1 points centred at sample [j] *)
Definition windowed_product (h : nat) (W V : list R) (j : nat) : R :=
  rsum (2 * h + 1) (fun k => hann (2 * h + 1) k * nth (j - h + k) W 0 * nth (j - h + k) V 0).
(** the samples the loop visits on a signal of [n] samples *)
Definition visited (n h j : nat) : Prop := (h <= j)%nat /\ (j + h + 1 < n)%nat.
(** weighted sum of the numbers f(j-s) .. f(j+s) that exist, s = (length w - 1)/2 *)
Definition smoothed (w : list R) (n : nat) (f : nat -> R) (j : nat) : R :=
  rsum (length w) (fun m =>
    if ((m <=? j + (length w - 1) / 2) && (j + (length w - 1) / 2 - m <? n))%nat%bool
    then nth m w 0 * f (j + (length w - 1) / 2 - m)%nat else 0).
(** the smoothing window of 2s+1 points *)
Definition hann_weights (s : nat) : list R :=
  if (s =? 0)%nat then [1] else map (hann (2 * s + 1)) (seq 0 (2 * s + 1)).
(** smoothing over [so] points, none for so <= 0 *)
Definition smoothing (so : Z) (n : nat) (f : nat -> R) (j : nat) : R :=
  if (0 <? so)%Z then smoothed (hann_weights (Z.to_nat (so / 2))) n f j else f j.
(** the windowed product where the loop visits, zero elsewhere *)
Definition masked (h n : nat) (W V : list R) (j : nat) : R :=
  if ((h <=? j) && (j + h + 1 <? n))%nat%bool then windowed_product h W V j else 0.
(** all channels have at least [n] samples *)
Definition long (b : bformat) (n : nat) : Prop :=
  (n <= length (bW b))%nat /\ (n <= length (bX b))%nat /\ (n <= length (bY b))%nat /\ (n <= length (bZ b))%nat.
(** the four channels of [a], unfiltered *)
Definition bands (a : ambib) : bformat := BFormat (aW a) (aX a) (aY a) (aZ a).
(** the four channels of [a], each passed through the filter if there is one *)
Definition filtered (bp : option (list R -> res (list R))) (a : ambib) (b : bformat) : Prop :=
  match bp with
  | None => b = bands a
  | Some f => f (aW a) = Ok (bW b) /\ f (aX a) = Ok (bX b) /\ f (aY a) = Ok (bY b) /\ f (aZ a) = Ok (bZ b)
  end.
(** the channels of [a] carry [sig], the directional ones weighted with the unit vector
    [u] and the omnidirectional one with [c] *)
Definition plane_wave (a : ambib) (sig : list R) (c : R) (u : V3) : Prop :=
  aW a = map (fun x => c * x) sig /\ aX a = map (fun x => vx u * x) sig /\
  aY a = map (fun x => vy u * x) sig /\ aZ a = map (fun x => vz u * x) sig.

(** * Stereo *)
Definition gain_left (phi : R) : R := (1 + sin phi) / 2.

(** * Loudspeakers *)
(** signal of loudspeaker [c] at the listener *)
Definition arriving (p : list R) (gains : mat) (a d : R) (c : nat) : list R :=
  map (fun i => nth i p 0 * ent gains i c / Rpower d a) (seq 0 (length p)).
(** at each time one loudspeaker plays *)
Definition one_at_a_time (gains : mat) (s : nat -> nat) : Prop :=
  forall i c, (i < nr gains)%nat -> (c < nc gains)%nat -> ent gains i c = if (c =? s i)%nat then 1 else 0.
