(** Model of some smaller functions: check_listener_inside (decoder.py), HRIRs
    (sig.py), subband_levels and resample_signal (process.py), rms (utils.py). *)
From Verif Require Import Base M_utils M_sig M_process M_sph M_decoder.
Open Scope R_scope.

(** * Hulls *)
(** decoder.py:385-401 check_listener_inside with an explicit position, or that of
    the hull.  hull.barycenter is calculate_barycenter (380-382), set by the
    constructor (line 93).  Printing is not modelled. *)
Definition check_listener_inside (h : hull) (position : option V3) : list face :=
  let l := match position with Some p => p | None => h_listener h end in
  map fst (filter (fun x => negb (Rltb (dot3 (sub3 l (snd x)) (sub3 (vmean (h_points h)) (snd x))) 0))
                  (combine (h_simplices h) (h_centroids h))).

(** * HRIRs *)
(** sig.py:277-279 __len__ *)
Definition hrirs_len (h : hrirs) : nat := h_taps h.
(** sig.py:281-283 __getitem__ with an integer *)
Definition hrirs_getitem (h : hrirs) (k : Z) : res (list R * list R) :=
  let* l := index (h_left h) k in
  let* r := index (h_right h) k in
  Ok (l, r).
(** sig.py:289-305 update_hrirs: __init__ on the same object.  Its assertions all
    come before the first assignment; an exception leaves the object as it was. *)
Definition update_hrirs (h : hrirs) (left right : arr2 R) : hrirs * res unit :=
  match hrirs_init left right (arr1 (h_azi h)) (arr1 (h_zen h)) (h_fs h) with
  | Ok h' => (h', Ok tt)
  | Err e => (h, Err e)
  end.
(** sig.py:331-351 nearest_idx for arrays of directions.  utils.sph2cart (57-65)
    broadcasts: x and y have the common shape of both arguments, z that of the
    zeniths; np.stack wants equal shapes.  squeeze makes one index a scalar. *)
Definition nearest_idx_all (h : hrirs) (azi zen : nd R) : res (nd nat) :=
  let* a := asarray_1d azi in
  let* z := asarray_1d zen in
  let n := length (data z) in
  let* az := if Nat.eqb (length (data a)) n then Ok (data a)
             else match data a with [x] => Ok (repeat x n) | _ => Err ValueError end in
  match h_azi h with
  | [] => Err ValueError
  | _ => let* ks := mapM (fun p => nearest_idx h (fst p) (snd p)) (combine az (data z)) in
         Ok (squeeze (Nd [n] ks))
  end.
(** sig.py:308-329 nearest_hrirs is nearest_idx, then __getitem__: an array of
    indices selects rows, one index a row. *)
Definition nearest_hrirs_all (h : hrirs) (azi zen : nd R) : res (nd R * nd R) :=
  let* k := nearest_idx_all h azi zen in
  let pick m := let* rs := mapM (fun i => index m (Z.of_nat i)) (data k) in Ok (concat rs) in
  let* l := pick (h_left h) in
  let* r := pick (h_right h) in
  Ok (Nd (shape k ++ [h_taps h]) l, Nd (shape k ++ [match h_right h with x :: _ => length x | [] => 0%nat end]) r).

(** * Levels *)
(** utils.py:222-232 rms of a matrix of complex numbers along an axis; the result
    is complex as well.  Real data have zero imaginary parts.  The mean over
    nothing is NaN and not modelled: the axis must not be empty. *)
Inductive axis2 : Set := Rows | Cols. (* axis 0: over the rows; axis 1 or -1: over the columns *)
Definition lane (x : cmat) (ax : axis2) (i : nat) : list C2 :=
  match ax with
  | Cols => map (fun j => cent x i j) (seq 0 (cnc x))
  | Rows => map (fun j => cent x j i) (seq 0 (cnr x))
  end.
Definition lanes (x : cmat) (ax : axis2) : nat := match ax with Cols => cnr x | Rows => cnc x end.
Definition cabs2 (z : C2) : R := fst z * fst z + snd z * snd z.
Definition rms_axis (x : cmat) (ax : axis2) : list C2 :=
  map (fun i => let l := lane x ax i in (sqrt (lsum (map cabs2 l) / INR (length l)), 0)) (seq 0 (lanes x ax)).

(** process.py:547-557 subband_levels for a matrix.  [width] and the energies
    broadcast against each other.  [N] is the number of columns whatever the axis;
    1/N of a Python integer raises when it is 0.  [None]: an infinite or undefined
    level (a width of zero, a root of a negative number). *)
Definition subband_level (w fs e : R) (N : nat) (power : bool) : option R :=
  if Reqb w 0 then None
  else if power then Some (1 / INR N * 1 / w * fs / 2 * e)
  else let v := 1 / w * fs / 2 * e in if Rltb v 0 then None else Some (sqrt v).
Definition subband_levels_axis (x : cmat) (width : list R) (fs : R) (power : bool) (ax : axis2) : res (list (option R)) :=
  let n := lanes x ax in
  let* _ := if (power && Nat.eqb (cnc x) 0)%bool then Err ZeroDivisionError else Ok tt in
  let e i := lsum (map cabs2 (lane x ax i)) in
  if Nat.eqb (length width) n then Ok (map (fun i => subband_level (nth i width 0) fs (e i) (cnc x) power) (seq 0 n))
  else match width with
  | [w] => Ok (map (fun i => subband_level w fs (e i) (cnc x) power) (seq 0 n))
  | _ => if Nat.eqb n 1 then Ok (map (fun w => subband_level w fs (e 0%nat) (cnc x) power) width) else Err ValueError
  end.

(** * Resampling *)
Section Resample.
(** resampy.resample on one signal: an oracle.  It may raise. *)
Variable resampler : Z -> Z -> list R -> res (list R).
(** process.py:76-96 resample_signal of a matrix; the signals lie along the axis.
    Resampling no signals is not modelled. *)
Definition resample_signal2 (x : arr2 R) (fs fs_new : Z) (ax : axis2) : res (nd R) :=
  let sigs := match ax with Cols => rows x | Rows => map (fun j => map (fun r => nth j r 0) (rows x)) (seq 0 (cols x)) end in
  let* rs := mapM (resampler fs fs_new) sigs in
  match rs with
  | [] => Err NotImplementedError
  | r :: _ =>
      match ax with
      | Cols => Ok (squeeze (Nd [length rs; length r] (concat rs)))
      | Rows => Ok (squeeze (Nd [length r; length rs] (concat (map (fun i => map (fun s => nth i s 0) rs) (seq 0 (length r))))))
      end
  end.
(** np.atleast_2d of a vector is one row *)
Definition resample_signal_vec (x : list R) (fs fs_new : Z) (ax : axis2) : res (nd R) :=
  resample_signal2 (Arr2 [x] (length x)) fs fs_new ax.
End Resample.
