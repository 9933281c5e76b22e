(** Specifications for parsa.py, part 3: post equalization. *)
From Verif Require Import Base S_process S_parsa2.
Open Scope R_scope.

(** * Signals on all of Z *)
(** [x] continued with zeros *)
Definition sig_at (x : list R) (u : Z) : R := if (0 <=? u)%Z then nth (Z.to_nat u) x 0 else 0.
(** sample [j] of the windowed block of [bs] samples that starts at [s] *)
Definition block (bs : nat) (x : list R) (s : Z) (j : nat) : R := hann (bs + 1) j * sig_at x (s + Z.of_nat j).
(** magnitude of bin [k] of an [n]-point spectrum of the [m] numbers [f] *)
Definition magnitude (n m : nat) (f : nat -> R) (k : nat) : R :=
  sqrt (Rsqr (rsum m (fun j => f j * cos (2 * PI * INR (j * k) / INR n))) +
        Rsqr (rsum m (fun j => f j * sin (2 * PI * INR (j * k) / INR n)))).
(** the filter with real, zero-phase gains [g] on [n] bins: its impulse response, and
    the response to the [m] numbers [f] *)
Definition kernel (n : nat) (g : nat -> R) (v : Z) : R :=
  / INR n * rsum n (fun k => g k * cos (2 * PI * INR k * IZR v / INR n)).
Definition zero_phase (n m : nat) (g f : nat -> R) (v : Z) : R :=
  rsum m (fun j => f j * kernel n g (v - Z.of_nat j)).

(** * Gains *)
(** magnitudes at the listener: added coherently and incoherently *)
Definition together (L : nat) (att : nat -> R) (m : nat -> R) : R := rsum L (fun l => att l * m l).
Definition in_power (L : nat) (att : nat -> R) (m : nat -> R) : R := sqrt (rsum L (fun l => Rsqr (att l * m l))).
Definition at_least (e x : R) : R := if Rle_dec x e then e else x.
(** share of the coherent sum in band [b] *)
Definition share (b : nat) : R := match b with O => 1 | 1%nat => / 2 | 2%nat => / 4 | _ => 0 end.
Definition reference (b : nat) (coh inc : R) : R :=
  share b * at_least (1 / 10 ^ 9) coh + (1 - share b) * at_least (1 / 10 ^ 9) inc.
Definition limited (soft : bool) (x : R) : R :=
  if soft then (if Rle_dec x 1 then x else 1 + tanh (x - 1)) else x.

(** * sdm_post_equalization *)
(** block size of a band whose lower edge (for the first: centre) is [f] *)
Definition even_ceiling (b z : Z) : Prop := (b <= z < b + 2)%Z /\ (z mod 2 = 0)%Z.
Definition band_freq (b : nat) : R :=
  match b with O => sqrt (625 / 10 / sqrt 2) | S i => 625 / 10 * 2 ^ i / sqrt 2 end.
(** seven periods, rounded, then up to an even number *)
Definition band_size (fs : Z) (b : nat) (bs : nat) : Prop :=
  exists r, is_round r (7 * IZR fs / band_freq b) /\ even_ceiling r (Z.of_nat bs).
(** gain of bin [k] in the block that starts at [s] *)
Definition eq_gain (b : nat) (soft : bool) (bs L : nat) (att : nat -> R) (p : list R) (x : nat -> list R) (s : Z) (k : nat) : R :=
  let n := (2 * bs - 1)%nat in
  let mags l := magnitude n bs (block bs (x l) s) k in
  limited soft (magnitude n bs (block bs p s) k / reference b (together L att mags) (in_power L att mags)).
(** what the block that starts at [s] contributes to sample [v] *)
Definition eq_piece (b : nat) (soft : bool) (bs L : nat) (att : nat -> R) (p : list R) (x : nat -> list R) (l : nat) (s v : Z) : R :=
  if (Z.abs (v - s) <? Z.of_nat bs)%Z
  then zero_phase (2 * bs - 1) bs (eq_gain b soft bs L att p x s) (block bs (x l) s) (v - s) else 0.
(** blocks of [bs] samples, half overlapping, on a signal of [S] samples between [pad]
    zeros on each side *)
Definition blocks (bs pad S : nat) : nat := ((S + 2 * pad - bs) / (bs / 2) + 1)%nat.
Definition block_start (bs pad i : nat) : Z := (Z.of_nat (i * (bs / 2)) - Z.of_nat pad)%Z.
(** the equalized band *)
Definition eq_band (b : nat) (soft : bool) (bs pad S L : nat) (att : nat -> R) (p : list R) (x : nat -> list R) (l : nat) (v : Z) : R :=
  rsum (blocks bs pad S) (fun i => eq_piece b soft bs L att p x l (block_start bs pad i) v).
(** an odd-length filter, centred *)
Definition centred (h : list R) (f : Z -> R) (v : Z) : R :=
  rsum (length h) (fun t => nth t h 0 * f (v + Z.of_nat ((length h - 1) / 2) - Z.of_nat t)%Z).
(** a filter design that is linear in the gains and turns gains of one into the unit impulse *)
Definition linear_design (fw : nat -> list R -> res (list R)) : Prop :=
  exists D : nat -> nat -> nat -> nat -> R, forall nt g, Nat.odd nt = true -> (2 <= length g)%nat ->
    fw nt g = Ok (map (fun t => rsum (length g) (fun j => nth j g 0 * D nt (length g) j t)) (seq 0 nt)) /\
    forall t, (t < nt)%nat -> rsum (length g) (fun j => D nt (length g) j t) = if (t =? (nt - 1) / 2)%nat then 1 else 0.
(** loudspeaker signal [l] at sample [u], for every u: the filtered bands together *)
Definition eq_out (irs : nat -> list R) (nb : nat) (bs : nat -> nat) (soft : bool) (pad S L : nat) (att : nat -> R)
    (p : list R) (x : nat -> list R) (l : nat) (u : Z) : R :=
  rsum nb (fun b => centred (irs b) (eq_band b soft (bs b) pad S L att p x l) u).
(** the windows of the blocks that contain sample [v] *)
Definition window_sum (bs pad S : nat) (v : Z) : R :=
  rsum (blocks bs pad S) (fun i => let j := (v - block_start bs pad i)%Z in
    if (0 <=? j)%Z && (j <? Z.of_nat bs)%Z then hann (bs + 1) (Z.to_nat j) else 0).

(** * sdm_post_equalization2 *)
(** level in a band with the gains [g] on the bins 0 .. [n]-1 *)
Definition band_level (n : nat) (g : list R) (m : nat -> R) : R := sqrt (rsum n (fun k => Rsqr (nth k g 0 * m k))).
(** at most one; one if there is nothing *)
Definition ratio_gain (lp ls : R) : R :=
  if Req_EM_T ls 0 then 1 else if Rle_dec (lp / ls) 1 then lp / ls else 1.
(** gain of band [b] in the block that starts at [s] *)
Definition eq2_gain (b : nat) (g : list R) (bs L : nat) (att : nat -> R) (p : list R) (x : nat -> list R) (s : Z) : R :=
  let n := (bs / 2 + 1)%nat in
  let mags k l := magnitude bs bs (block bs (x l) s) k in
  let lp := band_level n g (magnitude bs bs (block bs p s)) in
  share b * ratio_gain lp (band_level n g (fun k => together L att (mags k)))
  + (1 - share b) * ratio_gain lp (band_level n g (fun k => in_power L att (mags k))).
(** filtering forwards and backwards *)
Definition twice (h : list R) (f : Z -> R) (v : Z) : R :=
  rsum (length h) (fun t => nth t h 0 * rsum (length h) (fun r => nth r h 0 * f (v + Z.of_nat t - Z.of_nat r)%Z)).
(** the block that starts at [s], at sample [v] *)
Definition block_at (bs : nat) (x : list R) (s v : Z) : R :=
  if (s <=? v)%Z && (v <? s + Z.of_nat bs)%Z then block bs x s (Z.to_nat (v - s)) else 0.
Definition eq2_out (nb : nat) (gs : nat -> list R) (irs : nat -> list R) (bs S L : nat) (att : nat -> R) (p : list R)
    (x : nat -> list R) (l : nat) (u : Z) : R :=
  rsum (blocks bs bs S) (fun i => rsum nb (fun b =>
    eq2_gain b (gs b) bs L att p x (block_start bs bs i) * twice (irs b) (block_at bs (x l) (block_start bs bs i)) u)).
(** falling weights of [k] points *)
Definition fall (k m : nat) : R := hann (2 * k + 1) (k + m) / rsum k (fun m => hann (2 * k + 1) (k + m)).
(** [Sm i] are the smoothed gains for the gains [G i] of [n] blocks; at most [order] points *)
Definition smoothing (n order : nat) (G Sm : nat -> R) : Prop :=
  forall i, (i < n)%nat -> let k := Nat.min order i in
    Sm i = if (i =? 0)%nat then G 0%nat
           else fall k 0 * G i + rsum (k - 1) (fun m => fall k (m + 1) * Sm (i - (m + 1))%nat).
(** the squared magnitudes of the filters add up to one: as autocorrelations *)
Definition power_complementary (nb nt : nat) (irs : nat -> list R) : Prop :=
  forall k : Z, rsum nb (fun b => rsum nt (fun t => rsum nt (fun r =>
    if (Z.of_nat t - Z.of_nat r =? k)%Z then nth t (irs b) 0 * nth r (irs b) 0 else 0))) = if (k =? 0)%Z then 1 else 0.
