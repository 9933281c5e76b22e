(** Model of spaudiopy/process.py, part 4: Butterworth band-pass filters, forward-backward
    filtering, interaural level and time differences. *)
From Verif Require Import Base M_utils M_sig M_process M_sph0 M_sph M_parsa2 M_parsa3 M_process3 M_zp.
Open Scope R_scope.

(** * scipy.signal.filtfilt(b, a, x), as parsa.py:446-449 calls it *)
(** scipy/signal/_arraytools.py odd_ext(x, n): the signal turned by half a turn about its
    end points, [n] samples on either side *)
Definition odd_ext (x : list R) (n : nat) : res (list R) :=
  if Nat.ltb n 1 then Ok x
  else if Nat.ltb (length x - 1) n then Err ValueError
  else let left_end := nth 0 x 0 in
       let right_end := nth (length x - 1) x 0 in
       Ok (map (fun k => 2 * left_end - nth (n - k) x 0) (seq 0 n) ++ x ++
           map (fun k => 2 * right_end - nth (length x - 2 - k) x 0) (seq 0 n)).
(** _validate_pad('odd', None, x, ntaps): the length of the extension and the extended
    signal *)
Definition validate_pad (x : list R) (ntaps : nat) : res (nat * list R) :=
  let edge := (ntaps * 3)%nat in
  if Nat.leb (length x) edge then Err ValueError
  else let* ext := odd_ext x edge in Ok (edge, ext).
(** lfilter_zi(b, a): the state at rest under a constant input 1, the solution of
    zi = A zi + B with the companion matrix (singular: the coefficients of [a] sum to 0),
    in the closed form that scipy's comment gives; one coefficient only: companion
    raises.  a = [0.] divides by zero, which is outside the model: ZeroDivisionError
    stands in. *)
Fixpoint drop_lead (a : list R) : list R :=
  match a with
  | a0 :: (_ :: _) as t => if Req_EM_T a0 0 then drop_lead t else a
  | _ => a
  end.
Definition rest_state (n : nat) (b a : list R) : list R :=
  let z0 := rsum (n - 1) (fun i => nth (S i) b 0 - nth (S i) a 0 * nth 0 b 0) / lsum a in
  map (fun k => rsum (S k) (fun j => nth j a 0) * z0 - rsum k (fun j => nth (S j) b 0 - nth (S j) a 0 * nth 0 b 0))
      (seq 0 (n - 1)).
Definition lfilter_zi (b a : list R) : res (list R) :=
  match drop_lead a with
  | [] => Err ValueError
  | (a0 :: _) as a' =>
      if Req_EM_T a0 0 then Err ZeroDivisionError
      else let n := Nat.max (length a') (length b) in
           let b1 := pad_to n (map (fun c => c / a0) b) in
           let a1 := pad_to n (map (fun c => c / a0) a') in
           if Nat.leb n 1 then Err ValueError
           else if Req_EM_T (lsum a1) 0 then Err LinAlgError
           else Ok (rest_state n b1 a1)
  end.
(** lfilter(b, a, x, zi=z): [lfilter] of M_process3.v from a given state, whose length is
    checked.  With one coefficient in [a] scipy adds the state to a convolution, which are
    the sums of the same loop. *)
Definition lfilter_from (b a x z : list R) : res (list R) :=
  match a, b with
  | [], _ | _, [] => Err ValueError
  | a0 :: _, _ =>
      if Req_EM_T a0 0 then Err (if Nat.eqb (length a) 1 then ZeroDivisionError else ValueError)
      else let n := Nat.max (length a) (length b) in
           if Nat.eqb (length z) (n - 1)
           then Ok (df2t (pad_to n (map (fun c => c / a0) b)) (pad_to n (map (fun c => c / a0) a)) z x)
           else Err ValueError
  end.
(** y[edge:-edge] if edge > 0 *)
Definition trim_edges (edge : nat) (y : list R) : list R :=
  if Nat.ltb 0 edge then firstn (length y - 2 * edge) (skipn edge y) else y.
Definition filtfilt (b a x : list R) : res (list R) :=
  let* p := validate_pad x (Nat.max (length a) (length b)) in
  let '(edge, ext) := p in
  let* zi := lfilter_zi b a in
  let* y := lfilter_from b a ext (map (fun z => z * nth 0 ext 0) zi) in
  let* w := lfilter_from b a (rev y) (map (fun z => z * nth (length y - 1) y 0) zi) in
  Ok (trim_edges edge (rev w)).

(** * scipy.signal.sosfiltfilt(sos, x), as process.py:218-219 and 260-261 call it *)
(** one row (b0, b1, b2, a0, a1, a2) *)
Record sos : Type := Sos { s0 : R; s1 : R; s2 : R; t0 : R; t1 : R; t2 : R }.
Definition s_b (s : sos) : list R := [s0 s; s1 s; s2 s].
Definition s_a (s : sos) : list R := [t0 s; t1 s; t2 s].
(** _validate_sos; the shape (n, 6) is that of the record *)
Definition validate_sos (l : list sos) : res unit :=
  if forallb (fun s => Reqb (t0 s) 1) l then Ok tt else Err ValueError.
(** _sosfilt: for every sample through all sections, each a transposed direct form II
    with two delays *)
Fixpoint sos_step (l : list sos) (zs : list (R * R)) (x : R) : list (R * R) * R :=
  match l, zs with
  | s :: l', (z0, z1) :: zs' =>
      let y := s0 s * x + z0 in
      let r := sos_step l' zs' y in
      ((s1 s * x - t1 s * y + z1, s2 s * x - t2 s * y) :: fst r, snd r)
  | _, _ => ([], x)
  end.
Fixpoint sosfilt (l : list sos) (zs : list (R * R)) (x : list R) : list R :=
  match x with
  | [] => []
  | u :: t => let r := sos_step l zs u in snd r :: sosfilt l (fst r) t
  end.
(** sosfilt_zi: each section rests at the level the sections before it pass on *)
Fixpoint sosfilt_zi (scale : R) (l : list sos) : res (list (R * R)) :=
  match l with
  | [] => Ok []
  | s :: l' =>
      let* z := lfilter_zi (s_b s) (s_a s) in
      let* zs := sosfilt_zi (scale * (lsum (s_b s) / lsum (s_a s))) l' in
      Ok ((scale * nth 0 z 0, scale * nth 1 z 0) :: zs)
  end.
Definition count_zero (f : sos -> R) (l : list sos) : nat := length (filter (fun s => Reqb (f s) 0) l).
Definition sosfiltfilt (l : list sos) (x : list R) : res (list R) :=
  let* _ := validate_sos l in
  let ntaps := (2 * length l + 1 - Nat.min (count_zero s2 l) (count_zero t2 l))%nat in
  let* p := validate_pad x ntaps in
  let '(edge, ext) := p in
  let* zi := sosfilt_zi 1 l in
  let at_ c := map (fun z => (fst z * c, snd z * c)) zi in
  let y := sosfilt l (at_ (nth 0 ext 0)) ext in
  let w := sosfilt l (at_ (nth (length y - 1) y 0)) (rev y) in
  Ok (trim_edges edge (rev w)).

(** * scipy.signal.butter(2, (lo, hi), 'bandpass', fs=fs), process.py:216, 259 and, with
      lo/(fs/2), hi/(fs/2), parsa.py:444-445 *)
Definition cexpi (t : R) : C2 := (cos t, sin t).
Definition c_of (x : R) : C2 := (x, 0).
Definition csub2 (a b : C2) : C2 := (fst a - fst b, snd a - snd b).
Definition cdiv (a b : C2) : C2 :=
  let d := fst b ^ 2 + snd b ^ 2 in
  ((fst a * fst b + snd a * snd b) / d, (snd a * fst b - fst a * snd b) / d).
Definition cprod (l : list C2) : C2 := fold_left cmul l (1, 0).
(** np.sqrt on complex numbers *)
Definition c_sqrt (z : C2) : C2 :=
  (sqrt ((cabs z + fst z) / 2), (if Rltb (snd z) 0 then -1 else 1) * sqrt ((cabs z - fst z) / 2)).
(** buttap(2): -exp(1j pi m / 4), m = -1, 1; no zeros, gain 1 *)
Definition buttap2 : list C2 := map (fun m => cscal (-1) (cexpi (PI * m / 4))) [-1; 1].
(** lp2bp_zpk: two zeros at the origin, gain bw^2 *)
Definition lp2bp_poles (p : list C2) (wo bw : R) : list C2 :=
  let p_lp := map (cscal (bw / 2)) p in
  let root q := c_sqrt (csub2 (cmul q q) (c_of (wo ^ 2))) in
  map (fun q => cadd q (root q)) p_lp ++ map (fun q => csub2 q (root q)) p_lp.
(** bilinear_zpk with fs = 2 *)
Definition bilinear1 (p : C2) : C2 := cdiv (cadd (c_of 4) p) (csub2 (c_of 4) p).
Definition bilinear_gain (z p : list C2) (k : R) : R :=
  k * fst (cdiv (cprod (map (csub2 (c_of 4)) z)) (cprod (map (csub2 (c_of 4)) p))).
(** iirfilter(2, Wn, btype='bandpass', ftype='butter'): zeros, poles and gain.
    Edges outside (0, 1) are a ValueError; so are edges in the wrong order in recent
    versions (older ones go on with a negative bandwidth, which is outside the model). *)
Record zpk : Type := Zpk { zpk_z : list C2; zpk_p : list C2; zpk_k : R }.
Definition butter_zpk (w_lo w_hi : R) : res zpk :=
  if negb (Rltb 0 w_lo && Rltb 0 w_hi) then Err ValueError
  else if negb (Rltb w_lo w_hi) then Err ValueError
  else if negb (Rltb w_lo 1 && Rltb w_hi 1) then Err ValueError
  else
    let warp w := 2 * 2 * tan (PI * w / 2) in
    let bw := warp w_hi - warp w_lo in
    let wo := sqrt (warp w_lo * warp w_hi) in
    let p := lp2bp_poles buttap2 wo bw in
    let z := repeat (0, 0) 2 in
    Ok (Zpk (map bilinear1 z ++ repeat (-1, 0) (length p - length z)) (map bilinear1 p) (bilinear_gain z p (bw ^ 2))).
(** np.poly: the coefficients of the product of (x - r), highest power first; zpk2tf
    keeps the real parts of roots in conjugate pairs *)
Definition np_poly (roots : list C2) : list C2 :=
  fold_left (fun a r => map (fun k => csub2 (nth k a (0, 0)) (if Nat.eqb k 0 then (0, 0) else cmul r (nth (k - 1) a (0, 0))))
                            (seq 0 (S (length a)))) roots [(1, 0)].
Definition real_poly (roots : list C2) : list R := map fst (np_poly roots).
(** zpk2tf *)
Definition butter_ba (w_lo w_hi : R) : res (list R * list R) :=
  let* d := butter_zpk w_lo w_hi in
  Ok (map (fun c => zpk_k d * c) (real_poly (zpk_z d)), real_poly (zpk_p d)).
(** zpk2sos for zeros at 1, 1, -1, -1 and two conjugate pairs of poles, each given by one
    member.  The pair nearer to the unit circle goes last, first in the order of real
    parts if there is a draw; it takes the two zeros nearer to it; the gain goes to the
    first section. *)
Definition sos_of (k z : R) (p : C2) : sos :=
  let a := real_poly [p; (fst p, - snd p)] in
  let b := real_poly [(z, 0); (z, 0)] in
  Sos (k * nth 0 b 0) (k * nth 1 b 0) (k * nth 2 b 0) (nth 0 a 0) (nth 1 a 0) (nth 2 a 0).
Definition pole_le (p q : C2) : bool :=
  Rltb (fst p) (fst q) || (Reqb (fst p) (fst q) && Rleb (Rabs (snd p)) (Rabs (snd q))).
Definition pair_sos (k : R) (p q : C2) : list sos :=
  let '(a, b) := if pole_le p q then (p, q) else (q, p) in
  let '(worst, other) := if Rleb (Rabs (1 - cabs a)) (Rabs (1 - cabs b)) then (a, b) else (b, a) in
  let z := if Rltb 0 (fst worst) then 1 else -1 in
  [sos_of k (- z) other; sos_of 1 z worst].
Definition butter_sos (w_lo w_hi : R) : res (list sos) :=
  let* d := butter_zpk w_lo w_hi in
  Ok (pair_sos (zpk_k d) (nth 0 (zpk_p d) (0, 0)) (nth 2 (zpk_p d) (0, 0))).
(** Wn = 2 f / fs *)
Definition band (f_cut : R * R) (fs : R) : R * R := (2 * fst f_cut / fs, 2 * snd f_cut / fs).

(** * process.py:197-228 ilds_from_hrirs, one value per direction; [None]: not finite.  An
      empty grid gives no values. *)
Definition level_diff (todb : bool) (l r : list R) : option R :=
  if todb then
    match np_div (rms1 l) (rms1 r) with Some q => db q false | None => None end
  else Some (rms1 l - rms1 r).
Definition ilds_from_hrirs (h : hrirs) (f_cut : R * R) (todb : bool) : res (list (option R)) :=
  let w := band f_cut (IZR (h_fs h)) in
  let* f := butter_sos (fst w) (snd w) in
  let* l := mapM (sosfiltfilt f) (h_left h) in
  let* r := mapM (sosfiltfilt f) (h_right h) in
  Ok (map (fun p => level_diff todb (fst p) (snd p)) (combine l r)).
(** * process.py:231-271 itds_from_hrirs.  [resample] is resampy.resample on one row
      (resample_hrirs with one process is in M_process.v); the two ears have responses of
      one length. *)
Definition itds_from_hrirs (resample : Z -> Z -> list R -> res (list R)) (h : hrirs) (f_cut : R * R) (upsample : Z) : res (list R) :=
  let fs_rs := (upsample * h_fs h)%Z in
  let* l := mapM (resample (h_fs h) fs_rs) (h_left h) in
  let* r := mapM (resample (h_fs h) fs_rs) (h_right h) in
  let w := band f_cut (IZR fs_rs) in
  let* f := butter_sos (fst w) (snd w) in
  let* l := mapM (sosfiltfilt f) l in
  let* r := mapM (sosfiltfilt f) r in
  mapM (fun p => itd1 (fst p) (snd p) (IZR fs_rs)) (combine l r).
(** * parsa.py:400-486 pseudo_intensity with its band-pass, lines 441-449; the cut-offs are
      Python numbers *)
Definition bandpass_of (f_bp : R * R) (fs : Z) : res (list R -> res (list R)) :=
  if (fs =? 0)%Z then Err ZeroDivisionError else
  let* c := butter_ba (fst f_bp / (IZR fs / 2)) (snd f_bp / (IZR fs / 2)) in
  Ok (filtfilt (fst c) (snd c)).
Definition pseudo_intensity_bp (f_bp : R * R) (a : ambib) (win_len smoothing_order jobs : Z)
    (deal : list (list nat)) (sched : list nat) : res (list (R * option R * R)) :=
  let* _ := assert_ (win_len mod 2 =? 1)%Z in
  let* f := bandpass_of f_bp (mu_fs (base a)) in
  pseudo_intensity (Some f) a win_len smoothing_order jobs deal sched.
