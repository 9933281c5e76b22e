(** Specifications for the filters of the post equalizers. *)
From Verif Require Import Base S_process S_parsa3.
Open Scope R_scope.

(** the smallest power of two that is not below [nt] *)
Definition next_power (nt M : nat) : Prop :=
  exists e, M = (2 ^ e)%nat /\ (nt <= M)%nat /\ forall e', (nt <= 2 ^ e')%nat -> (e <= e')%nat.
(** [f] is the broken line through the gains [g], equally spaced over [0,1] *)
Definition broken_line (g : list R) (f : R -> R) : Prop :=
  forall j s, (j + 1 < length g)%nat -> 0 <= s <= 1 ->
    f ((INR j + s) / INR (length g - 1)) = (1 - s) * nth j g 0 + s * nth (j + 1) g 0.
(** Hamming window of [nt] points *)
Definition hamming_at (nt t : nat) : R :=
  if Nat.eqb nt 1 then 1 else 54 / 100 - 46 / 100 * cos (2 * PI * INR t / INR (nt - 1)).
(** gains at the points k / M, mirrored *)
Definition mirrored (M : nat) (f : R -> R) (k : nat) : R := f (INR (Nat.min k (2 * M - k)) / INR M).
(** [h] is the windowed linear phase filter with the gains [g] *)
Definition windowed_design (nt : nat) (g h : list R) : Prop :=
  length h = nt /\ exists M f, next_power nt M /\ broken_line g f /\
  forall t, (t < nt)%nat -> nth t h 0 = hamming_at nt t * kernel (2 * M) (mirrored M f) (Z.of_nat t - Z.of_nat ((nt - 1) / 2)).
(** energy of a filter *)
Definition energy (h : list R) : R := rsum (length h) (fun t => Rsqr (nth t h 0)).

(** * The gains of the filter bank *)
(** the sine slope, sharpened [l] times *)
Fixpoint steep (l : nat) (x : R) : R := match l with O => x | S i => sin (PI / 2 * steep i x) end.
(** angle of the crossfade at line [k] with half width [P], in bin [j]: 0 below, PI/2 above *)
Definition crossfade (l k P j : nat) : R :=
  if Nat.ltb (j + P) k then 0 else if Nat.leb (k + P) j then PI / 2
  else PI / 2 * ((1 + steep l ((INR j - INR k) / INR P)) / 2).
(** band [r] of M+1 bands rises with crossfade r-1 and falls with crossfade r *)
Definition band_gain (l M : nat) (k P : nat -> nat) (r j : nat) : R :=
  (match r with O => 1 | S i => sin (crossfade l (k i) (P i) j) end) *
  (if Nat.ltb r M then cos (crossfade l (k r) (P r) j) else 1).
(** limits and centre of band [r]: the first reaches down to 0, the last up to half the rate *)
Definition band_limit (n f_low fs : R) (M r : nat) : R * R * R :=
  let lo i := centre n f_low i / half_step n in
  match r with
  | O => (0, sqrt (lo 0%nat), lo 0%nat)
  | S i => if Nat.eqb r M then (lo i, sqrt (lo i * (fs / 2)), fs / 2) else (lo i, centre n f_low i, centre n f_low i * half_step n)
  end.
