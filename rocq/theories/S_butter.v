(** Specification vocabulary for band-pass filters. *)
From Verif Require Import Base.
Open Scope R_scope.

(** the power gain of a Butterworth band-pass of order 2 between the frequencies [w1] and
    [w2], as parts of half the sampling rate, at [t] radians per sample: 1 / (1 + x^4) with
    x = (f^2 - f1 f2) / (f (f2 - f1)) on the frequency axis f = tan (t / 2), written
    without fractions that have no value at 0 and at half the sampling rate *)
Definition band_gain (w1 w2 t : R) : R :=
  let f1 := tan (PI * w1 / 2) in
  let f2 := tan (PI * w2 / 2) in
  let u := sin (t / 2) ^ 2 - f1 * f2 * cos (t / 2) ^ 2 in
  let v := (f2 - f1) * sin (t / 2) * cos (t / 2) in
  v ^ 4 / (u ^ 4 + v ^ 4).
