(** Model of scipy.signal.firwin2 as parsa.py:684 and parsa.py:835 call it: gains on
    np.linspace(0, 1, len(gain)), Hamming window, everything else by default. *)
From Verif Require Import Base M_process M_sph M_parsa3 M_decoder4.
Open Scope R_scope.

(** np.linspace(0, 1, n) *)
Definition unit_grid (n : nat) : list R := map (fun i => INR i * (1 / INR (n - 1))) (seq 0 n).
(** np.interp(x, xp, fp) for increasing xp: [j] is the last point that is not above
    [x] *)
Definition np_interp (x : R) (xp fp : list R) : R :=
  match length (filter (fun p => Rleb p x) xp) with
  | O => nth 0 fp 0
  | S j => if Nat.eqb (S j) (length xp) then nth j fp 0
           else (nth (S j) fp 0 - nth j fp 0) / (nth (S j) xp 0 - nth j xp 0) * (x - nth j xp 0) + nth j fp 0
  end.
(** firwin2(numtaps, np.linspace(0, 1, len(gain)), gain).  No frequency: freq[0]
    raises; one: the last is not 1.  The other checks of the frequencies hold.  An even
    number of taps needs the last gain 0; log(0, 2) raises.  The number of points is
    1 + 2 ** ceil(log2(numtaps)). *)
Definition firwin2 (numtaps : nat) (gain : list R) : res (list R) :=
  if Nat.eqb (length gain) 0 then Err IndexError else
  if Nat.eqb (length gain) 1 then Err ValueError else
  if Nat.even numtaps && negb (Reqb (nth (length gain - 1) gain 0) 0) then Err ValueError else
  if Nat.eqb numtaps 0 then Err ValueError else
  let x := unit_grid (1 + 2 ^ Nat.log2_up numtaps) in
  let fx := map (fun v => np_interp v (unit_grid (length gain)) gain) x in
  let fx2 := map (fun q => let a := - ((INR numtaps - 1) / 2) * PI * fst q in
                           (snd q * cos a, snd q * sin a)) (combine x fx) in
  let out_full := irfft fx2 in
  Ok (map (fun q => fst q * snd q) (combine (firstn numtaps out_full) (hamming (Z.of_nat numtaps)))).
