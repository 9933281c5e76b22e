(** Model of spaudiopy/parsa.py, part 3: the two post equalizations.
    scipy.signal.firwin2 is a parameter: [firwin2 ntaps g] for the gains [g] on
    np.linspace(0, 1, len(g)); M_firwin.v defines it.  Rows of an array with two axes are lists.  A
    loudspeaker of distance zero, whose attenuation numpy makes inf, gives [None];
    fs is positive. *)
From Verif Require Import Base M_utils M_sig M_process M_decoder M_decoder3 M_parsa2.
Open Scope R_scope.

(** * Spectra *)
(** np.fft.fft(x, n) of a real signal: cut or padded with zeros to [n] samples *)
Definition fft (x : list R) (n : nat) : list (R * R) :=
  map (fun k => (rsum n (fun j => nth j x 0 * cos (2 * PI * INR (j * k) / INR n)),
                 - rsum n (fun j => nth j x 0 * sin (2 * PI * INR (j * k) / INR n))))
      (seq 0 n).
(** np.real(np.fft.ifft(Y)) *)
Definition ifft_re (Y : list (R * R)) : list R :=
  let n := length Y in
  map (fun t => / INR n * rsum n (fun k =>
         fst (nth k Y (0, 0)) * cos (2 * PI * INR (k * t) / INR n)
         - snd (nth k Y (0, 0)) * sin (2 * PI * INR (k * t) / INR n)))
      (seq 0 n).
(** np.fft.rfft(x): the bins 0 .. n // 2 *)
Definition rfft (x : list R) : list (R * R) := firstn (length x / 2 + 1) (fft x (length x)).
(** np.abs *)
Definition cabs (z : R * R) : R := sqrt (fst z ^ 2 + snd z ^ 2).
(** np.roll(x, d), d >= 0 *)
Definition np_roll (x : list R) (d : nat) : list R :=
  let n := length x in map (fun t => nth ((t + (n - d mod n)) mod n) x 0) (seq 0 n).

(** * Common parts *)
(** np.hstack([pad, x, pad]) *)
Definition padded (n : nat) (x : list R) : list R := repeat 0 n ++ x ++ repeat 0 n.
(** [out[a:b] += v] *)
Definition iadd_slice (out : list R) (a b : Z) (v : list R) : res (list R) :=
  let* s := iadd (slice out a b) v in
  slice_set out a b s.
Definition mat_rows (m : mat) : list (list R) := rows (arr2_of m).
Definition rows_mat (nr nc : nat) (l : list (list R)) : mat := Mat nr nc (fun i j => nth j (nth i l []) 0).
(** 1 / ls_distance**a *)
Definition attenuations (d : list R) (a : R) : option (list R) :=
  if existsb (fun x => Reqb (np_pow x a) 0) d then None else Some (map (fun x => 1 / np_pow x a) d).
(** np.abs(np.diag(1 / ls_distance**a) @ H) *)
Definition origin_mags (att : list R) (H : list (list (R * R))) : res (list (list R)) :=
  if Nat.eqb (length att) (length H)
  then Ok (map (fun q => map (fun z => cabs (fst q * fst z, fst q * snd z)) (snd q)) (combine att H))
  else Err ValueError.
(** np.sum(.., axis=0) and np.sqrt(np.sum(..**2, axis=0)) at bin [k] *)
Definition coherent (o : list (list R)) (k : nat) : R := lsum (map (fun r => nth k r 0) o).
Definition incoherent (o : list (list R)) (k : nat) : R := sqrt (lsum (map (fun r => nth k r 0 ^ 2) o)).
(** the filters *)
Definition band_filters (firwin2 : nat -> list R -> res (list R)) (ntaps : Z) (gs : list (list R)) : res (list (list R)) :=
  let* _ := assert_ (negb (ntaps mod 2 =? 0)%Z) in
  if (ntaps <? 0)%Z then Err ValueError else
  mapM (fun g => let* h := firwin2 (Z.to_nat ntaps) g in
                 if Nat.eqb (length h) (Z.to_nat ntaps) then Ok h else Err ValueError) gs.
(** np.hanning(blocksize + 1)[0: -1] *)
Definition block_window (bs : nat) : list R := slice (np_hanning (Z.of_nat bs + 1)) 0 (-1).
(** [x[start:start + blocksize]] under the window *)
Definition block_of (bs : nat) (x : list R) (start : nat) : res (list R) :=
  bmul (block_window bs) (slice x (Z.of_nat start) (Z.of_nat start + Z.of_nat bs)).

(** * parsa.py:634-783 sdm_post_equalization *)
(** lines 669-675: block size for the frequency [f] *)
Definition band_blocksize (fs : Z) (f : R) : Z := (zceil (IZR (np_round (7 / f * IZR fs)) / 2) * 2)%Z.
Definition band_blocksizes (fs : Z) (ff : list (R * R * R)) : list Z :=
  match ff with
  | [] => []
  | f0 :: t => band_blocksize fs (snd (fst f0)) :: map (fun f => band_blocksize fs (fst (fst f))) t
  end.
(** lines 729-743: the reference the pressure is divided by; 10e-10 *)
Definition mixed (band : nat) (coh inc : R) : R :=
  let c := Rmax coh (10 / 10 ^ 10) in
  let i := Rmax inc (10 / 10 ^ 10) in
  match band with
  | O => c
  | 1%nat => 5 / 10 * c + 5 / 10 * i
  | 2%nat => 25 / 100 * c + 75 / 100 * i
  | _ => i
  end.
(** lines 711-757: one block; the rows X *)
Definition equalized_block (band : nat) (soft_clip : bool) (att : list R) (bs : nat)
    (p : list R) (xs : list (list R)) (start : nat) : res (list (list R)) :=
  let* block_p := block_of bs p start in
  let* block_sdm := mapM (fun x => block_of bs x start) xs in
  let nfft := (bs + bs - 1)%nat in
  let H_p := fft block_p nfft in
  let H_sdm := map (fun b => fft b nfft) block_sdm in
  let* o := origin_mags att H_sdm in
  let mag := map (fun k => cabs (nth k H_p (0, 0)) / mixed band (coherent o k) (incoherent o k)) (seq 0 nfft) in
  let mag := if soft_clip then gain_clipping mag 1 else mag in
  let Y := map (fun H => map (fun q => (fst (fst q) * snd q, snd (fst q) * snd q)) (combine H mag)) H_sdm in
  let X := map ifft_re Y in
  let* _ := assert_ (negb (Nat.eqb (nfft mod 2) 0)) in
  Ok (map (fun x => np_roll x (length x / 2)) X).
(** lines 700-764: the blocks of one band are added to the rows [bufs]; zp_delay is
    half the length of X *)
Fixpoint equalize_band (fuel : nat) (band : nat) (soft_clip : bool) (att : list R) (bs padsize : nat)
    (p : list R) (xs : list (list R)) (n start : nat) (bufs : list (list R)) : res (list (list R)) :=
  match fuel with
  | O => Err OutOfFuel
  | S fuel' =>
      if (start + bs <=? n)%nat then
        let* X := equalized_block band soft_clip att bs p xs start in
        let nfft := (bs + bs - 1)%nat in
        let a := (Z.of_nat padsize + Z.of_nat start - Z.of_nat (nfft / 2))%Z in
        let* bufs' := mapM (fun q => iadd_slice (fst q) a (a + Z.of_nat nfft) (snd q)) (combine bufs X) in
        equalize_band fuel' band soft_clip att bs padsize p xs n (start + bs / 2) bufs'
      else Ok bufs
  end.
(** lines 704-771: one band, filtered *)
Definition band_rows (fuel : nat) (soft_clip : bool) (att : list R) (padsize : nat)
    (p : list R) (xs : list (list R)) (n : nat) (b : nat * (Z * list R)) : res (list (list R)) :=
  let bs := Z.to_nat (fst (snd b)) in
  let* bufs := equalize_band fuel (fst b) soft_clip att bs padsize p xs n 0
                 (map (fun _ => repeat 0 (n + 2 * padsize)) xs) in
  Ok (map (fun row => convolve_same row (snd (snd b))) bufs).
(** line 774: the sum over the bands *)
Definition sum_rows (L n : nat) (bands : list (list (list R))) : list (list R) :=
  map (fun l => map (fun j => lsum (map (fun b => nth j (nth l b []) 0) bands)) (seq 0 n)) (seq 0 L).
(** the result and whether the warning of lines 777-779 is given.  The columns that
    are inspected are [:2 * padsize] and the one column [2 * padsize]. *)
Definition loud (t : R) (l : list R) : bool := existsb (fun v => Rltb t (Rabs v)) l.
Definition sdm_post_equalization (firwin2 : nat -> list R -> res (list R)) (fuel : nat)
    (ls_sigs : mat) (sdm_p : list R) (fs : Z) (d : list R) (a : R) (soft_clip : bool)
    : res (option (mat * bool)) :=
  let* fb := frac_octave_filterbank fuel 1 (2 ^ 16) fs (625 / 10) (Some 16000) Amplitude (5 / 10) 3 in
  let (filter_gs, ff) := fb in
  let sizes := band_blocksizes fs ff in
  let padsize := fold_left Z.max sizes 0%Z in
  let* irs := band_filters firwin2 (padsize / 2 - 1) filter_gs in
  let pad := Z.to_nat padsize in
  let xs := map (padded pad) (mat_rows ls_sigs) in
  let p := padded pad sdm_p in
  let n := (nc ls_sigs + 2 * pad)%nat in
  let* _ := assert_ (Nat.eqb (length p) n) in
  match attenuations d a with
  | None => Ok None
  | Some att =>
      let* bands := mapM (band_rows fuel soft_clip att pad p xs n)
                         (combine (seq 0 (length irs)) (combine sizes irs)) in
      let comp := sum_rows (nr ls_sigs) (n + 2 * pad) bands in
      let* firsts := mapM (fun row => index row (2 * padsize)) comp in
      let warned := (existsb (fun row => loud (10 / 10 ^ 5) (slice row 0 (2 * padsize))) comp
                     || loud (10 / 10 ^ 5) firsts)%bool in
      let out := map (fun row => slice row (2 * padsize) (- (2 * padsize))) comp in
      let* _ := assert_ (forallb (fun row => Nat.eqb (length row) (nc ls_sigs)) out) in
      Ok (Some (rows_mat (nr ls_sigs) (nc ls_sigs) out, warned))
  end.

(** * parsa.py:786-946 sdm_post_equalization2 *)
(** process.py:547-557 subband_levels with power=False for the rows [gs] times the
    magnitudes [m] *)
Definition subband_level (fs : Z) (width : R) (x : list R) : R :=
  sqrt (1 / width * IZR fs / 2 * lsum (map (fun v => Rabs v ^ 2) x)).
Definition subband_levels (fs : Z) (widths : list R) (gs : list (list R)) (m : list R) : res (list R) :=
  let* xs := mapM (fun g => bmul g m) gs in
  Ok (map (fun q => subband_level fs (fst q) (snd q)) (combine widths xs)).
(** lines 872-881: 0/0 is NaN and replaced by 1, x/0 is inf and clipped to 1 *)
Definition clipped_gain (lp ls : R) : R := if Reqb ls 0 then 1 else Rmin (lp / ls) 1.
(** lines 884-890 *)
Definition mixed_gains (coh inc : list R) : res (list R) :=
  match coh, inc with
  | c0 :: c1 :: c2 :: _, _ :: i1 :: i2 :: t =>
      Ok (c0 :: (5 / 10 * c1 + 5 / 10 * i1) :: (25 / 100 * c2 + 75 / 100 * i2) :: t)
  | _, _ => Err IndexError
  end.
(** lines 893-904: [hist] is band_gains_list *)
Definition smooth_step (w : list R) (hist : list (list R)) (acc : res (list R)) (i : nat) : res (list R) :=
  let* g := acc in
  let* wi := index w (Z.of_nat i) in
  let* old := index hist (- Z.of_nat i) in
  iadd g (map (fun v => wi * v) old).
Definition smooth_gains (order : Z) (hist : list (list R)) (g : list R) : res (list R) :=
  match hist with
  | [] => Ok g
  | _ =>
      let k := Z.min order (Z.of_nat (length hist)) in
      let w := slice (np_hanning (k * 2 + 1)) (- (k + 1)) (-1) in
      let w := map (fun x => x / lsum w) w in
      let* w0 := index w 0 in
      fold_left (smooth_step w hist) (seq 1 (Z.to_nat k - 1)) (Ok (map (fun v => w0 * v) g))
  end.
(** lines 848-890: the gains of one block and the windowed blocks *)
Definition block_gains (fs : Z) (gs : list (list R)) (widths : list R) (att : list R)
    (block_p : list R) (block_sdm : list (list R)) : res (list R) :=
  let p_mag := map (fun z => sqrt (cabs z ^ 2)) (rfft block_p) in
  let* o := origin_mags att (map rfft block_sdm) in
  let bins := seq 0 (length p_mag) in
  let* L_p := subband_levels fs widths gs p_mag in
  let* L_inc := subband_levels fs widths gs (map (incoherent o) bins) in
  let* L_coh := subband_levels fs widths gs (map (coherent o) bins) in
  let gain L := map (fun q => clipped_gain (fst q) (snd q)) (combine L_p L) in
  mixed_gains (gain L_coh) (gain L_inc).
(** lines 909-934: one loudspeaker; convolution, gain, and the convolution backwards *)
Definition filtered_twice (bs : nat) (block : list R) (q : R * list R) : list R :=
  rev (convolve (rev (map (fun v => fst q * v) (convolve block (snd q)))) (snd q)).
Definition block_output (bs : nat) (irs : list (list R)) (gains : list R) (block : list R) : list R :=
  let Xs := map (filtered_twice bs block) (combine gains irs) in
  map (fun t => lsum (map (fun X => nth t X 0) Xs)) (seq 0 (bs + 2 * (length (nth 0 irs []) - 1))).
Fixpoint equalize2_loop (fuel : nat) (fs : Z) (gs : list (list R)) (widths : list R) (irs : list (list R))
    (att : list R) (order : Z) (bs : nat) (p : list R) (xs : list (list R)) (n start : nat)
    (bufs : list (list R)) (hist : list (list R)) : res (list (list R) * list (list R)) :=
  match fuel with
  | O => Err OutOfFuel
  | S fuel' =>
      if (start + bs <=? n)%nat then
        let* block_p := block_of bs p start in
        let* block_sdm := mapM (fun x => block_of bs x start) xs in
        let* gains := block_gains fs gs widths att block_p block_sdm in
        let* smoothed := smooth_gains order hist gains in
        let e := (Z.of_nat (length (nth 0 irs [])) - 1)%Z in
        let a := (Z.of_nat start + Z.of_nat bs - e)%Z in
        let b := (Z.of_nat start + 2 * Z.of_nat bs + e)%Z in
        let* bufs' := mapM (fun q => iadd_slice (fst q) a b (block_output bs irs gains (snd q)))
                           (combine bufs block_sdm) in
        equalize2_loop fuel' fs gs widths irs att order bs p xs n (start + bs / 2) bufs' (hist ++ [smoothed])
      else Ok (bufs, hist)
  end.
(** [None] also if a band has no width *)
Definition sdm_post_equalization2 (firwin2 : nat -> list R -> res (list R)) (fuel : nat)
    (ls_sigs : mat) (sdm_p : list R) (fs : Z) (d : list R) (a : R) (bs : nat) (order : Z)
    : res (option (mat * list (list R) * bool)) :=
  let xs := map (padded bs) (mat_rows ls_sigs) in
  let p := padded bs sdm_p in
  let n := (nc ls_sigs + 2 * bs)%nat in
  let* _ := assert_ (Nat.eqb (length p) n) in
  let* fb := frac_octave_filterbank fuel 1 (bs / 2 + 1) fs (625 / 10) (Some 16000) Energy (5 / 10) 3 in
  let (filter_gs, ff) := fb in
  let* irs := band_filters firwin2 (Z.of_nat bs + 1) filter_gs in
  let widths := map (fun f => snd f - fst (fst f)) ff in
  match attenuations d a with
  | None => Ok None
  | Some att =>
      if existsb (fun w => Rleb w 0) widths then Ok None else
      let* r := equalize2_loop fuel fs filter_gs widths irs att order bs p xs n 0
                  (map (fun _ => repeat 0 (n + 2 * bs)) xs) [] in
      let (comp, hist) := r in
      let two := (2 * Z.of_nat bs)%Z in
      let* firsts := mapM (fun row => index row two) comp in
      let warned := Rltb (10 / 1000) (lsum (map (fun row => lsum (map Rabs (slice row 0 two))) comp)
                                      + lsum (map Rabs firsts)) in
      let out := map (fun row => slice row two (- two)) comp in
      let* _ := assert_ (forallb (fun row => Nat.eqb (length row) (nc ls_sigs)) out) in
      Ok (Some (rows_mat (nr ls_sigs) (nc ls_sigs) out, slice hist 2 (-2), warned))
  end.
