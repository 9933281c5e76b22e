(** Specifications for decoder.py, part 3. *)
From Verif Require Import Base M_utils M_sig M_decoder M_decoder3.
Open Scope R_scope.

(** * Shared arrays *)
(** location [l] holds a 1-D float array of [n] numbers *)
Definition float_array (h : heap) (l n : nat) : Prop :=
  exists c, nth_error h l = Some c /\ a_shape c = [n] /\ length (a_data c) = n /\ a_int c = false.
(** number [i] of the array at location [l] *)
Definition num (h : heap) (l i : nat) : R :=
  match nth_error h l with Some c => nth i (a_data c) 0 | None => 0 end.
(** point [i] of three coordinate arrays *)
Definition pos (h : heap) (lx ly lz i : nat) : V3 := (num h lx i, num h ly i, num h lz i).
(** the caller's arrays are as before *)
Definition arrays_kept (h h' : heap) : Prop :=
  forall l, (l < length h)%nat -> nth_error h' l = nth_error h l.
(** the number [o] is written as a list of ints or floats *)
Definition listed (b : bool) (o : V3) : arg := ALst [(b, vx o); (b, vy o); (b, vz o)].
(** an offset that is zero, in whatever form *)
Definition no_offset (h : heap) (a : option arg) : Prop :=
  match a with
  | None => True
  | Some (ALst xs) => forall x, In x xs -> snd x = 0
  | Some (ARef l) => forall c x, nth_error h l = Some c -> In x (a_data c) -> x = 0
  end.

(** * Convolution: sum over all pairs of samples that meet at [n] *)
Definition conv_sum (x h : list R) (n : nat) : R :=
  rsum (length x) (fun i => rsum (length h) (fun j =>
    if (i + j =? n)%nat then nth i x 0 * nth j h 0 else 0)).
Definition abs_sum (x : list R) : R := rsum (length x) (fun i => Rabs (nth i x 0)).

(** an HRIR set as its constructor leaves it, with both ears [T] taps long and a
    non-empty grid *)
Definition hrir_set (hr : hrirs) (T : nat) : Prop :=
  (1 <= T)%nat /\ h_azi hr <> [] /\ length (h_zen hr) = length (h_azi hr) /\
  length (h_left hr) = length (h_azi hr) /\ length (h_right hr) = length (h_azi hr) /\
  h_taps hr = T /\
  Forall (fun r => length r = T) (h_left hr) /\ Forall (fun r => length r = T) (h_right hr).
(** loudspeaker [c] stands, seen from the listener, at azimuth [az c], zenith [ze c]
    and distance [di c], and [hl c], [hh c] are the responses nearest to that
    direction after turning the head *)
Definition rendered_from (h : hull) (ori : R * R) (hr : hrirs)
    (az ze di : nat -> R) (hl hh : nat -> list R) : Prop :=
  forall c, (c < length (h_points h))%nat ->
    let q := sub3 (@nth V3 c (h_points h) (0, 0, 0)) (h_listener h) in
    q = sph2cart (az c) (ze c) (di c) /\ 0 < di c /\ - PI < az c <= PI /\ 0 <= ze c <= PI /\
    cart2sph (vx q) (vy q) (vz q) false false = (az c, Some (ze c), di c) /\
    nearest_hrirs hr (az c - fst ori) (ze c - snd ori) = Ok (hl c, hh c).
(** what loudspeaker [c] radiates: its signal, attenuated with distance *)
Definition radiated (ls : arr2 R) (a : R) (di : nat -> R) (c : nat) : list R :=
  map (fun v => v / Rpower (di c) a) (nth c (rows ls) []).
(** some sample exceeds -100 dB *)
Definition heard (x : list R) : Prop := exists v, In v x /\ 1 / 100000 < Rabs v.
Definition rect {A} (a : arr2 A) : Prop := Forall (fun r => length r = cols a) (rows a).

(** a (K, n) array of reals and entry access *)
Definition entry2 (n : nat) (d : list R) (k i : nat) : R := nth (k * n + i) d 0.
Definition entry3 (K T : nat) (d : list R) (e k j : nat) : R := nth ((e * K + k) * T + j) d 0.
(** the points of three coordinate arrays *)
Definition points_of (h : heap) (lx ly lz n : nat) : list V3 := map (pos h lx ly lz) (seq 0 n).
Definition distinct3 (a b c : nat) : Prop := a <> b /\ a <> c /\ b <> c.
Definition offset_sum (os : list (bool * V3)) : V3 := vsum3 (map snd os).
