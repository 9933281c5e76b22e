(** Model of /repo/spaudiopy/plot.py: the numbers that are handed to matplotlib.
    Figures, axes, tick labels and colours of colour maps are not modelled; a call
    returns the data of its curves, points and faces.  transfer_function, polar and
    freq_resp take float arrays. *)
From Coq Require Import String.
From Verif Require Import Base M_utils M_sig M_process M_sph M_grids M_decoder M_decoder2 M_decoder3 M_parsa3 M_decoder4 M_process2.
Open Scope R_scope.

(** a float that may be minus infinity or NaN *)
Inductive val : Type := Fin (x : R) | NInf | NaN.
(** utils.db *)
Definition val_db (x : R) : val := match db x false with Some y => Fin y | None => NInf end.
(** np.linspace(a, b, num) *)
Definition linspace (a b : R) (num : nat) : list R :=
  map (fun i => a + INR i * ((b - a) / INR (num - 1))) (seq 0 num).
(** np.arange(a, b, step) *)
Definition arange (a b step : R) : list R :=
  map (fun i => a + INR i * step) (seq 0 (Z.to_nat (zceil ((b - a) / step)))).

(** * Spectra *)
(** plot.py:44-58, one signal; [bins] is the length of the first signal.  np.fft
    rejects an empty signal. *)
Definition spec_mag (bins : nat) (scale_mag : bool) (s : list R) : res (list R) :=
  if Nat.eqb (List.length s) 0 then Err ValueError else
  let mag := map (fun z => cabs z / INR bins) (rfft s) in
  let mag := match mag with [] => [] | m0 :: t => m0 :: map (fun m => m * 2) t end in
  Ok (if scale_mag then map (fun m => m * INR bins / 2) mag else mag).

(** text of a legend entry; [Octaves n] is "n/8 octave smoothing" *)
Inductive label : Type := Text (s : string) | NoLabel | Octaves (n : Z).
Inductive labels_arg : Type := LNone | LStr (s : string) | LList (l : list label) | LTuple (l : list label).
Record curves : Type := Curves {
  cu_freq : list R; cu_mag : list (list val); cu_ylim : R * R; cu_legend : option (list label) }.
Inductive ylim_arg : Type := YRange (d : R) | YPair (lo hi : R).
(** np.max of a list of arrays *)
Definition fin (v : val) : R := match v with Fin x => x | _ => 0 end.
Definition all_fin (l : list val) : bool := forallb (fun v => match v with Fin _ => true | _ => false end) l.
Definition of_opt (o : option R) : val := match o with Some x => Fin x | None => NaN end.
(** plot.py:90-97 *)
Definition to_db (a : list R) : list R := map (fun x => fin (val_db (clip_lo (1 / 100000000000000) (Rabs x)))) a.
(** plot.py:82-85, 104-111: labels of the curves, legend, and the caller's list
    afterwards *)
Definition legend (labels : labels_arg) (n_curves : nat) (smoothing_n : option R) : res (option (list label) * labels_arg) :=
  let add n := Octaves (py_int n) in
  match labels, smoothing_n with
  | LNone, None => Ok (None, LNone)
  | LNone, Some n => Ok (Some (repeat NoLabel n_curves ++ [add n])%list, LNone)
  | LStr s, None => Ok (Some [Text s], LStr s)
  | LStr s, Some n => Ok (Some [Text s; add n], LStr s)
  | LList l, None => Ok (Some l, LList l)
  | LList l, Some n => Ok (Some (l ++ [add n])%list, LList (l ++ [add n])%list)
  | LTuple l, None => Ok (Some l, LTuple l)
  | LTuple l, Some _ => Err AttributeError
  end.
(** plot.py:64-125 freq_resp: the curves, and the caller's label list afterwards.
    NaN limits are rejected by matplotlib. *)
Definition freq_resp (freq : list R) (mag : list (list R)) (todb : bool) (smoothing_n : option R)
    (ylim : ylim_arg) (labels : labels_arg) : res (curves * labels_arg) :=
  let* _ := assert_ (forallb (fun a => Nat.eqb (List.length a) (List.length freq)) mag) in
  let mag := if todb then map to_db mag else mag in
  let* mag := match smoothing_n with
              | None => Ok (map (map Fin) mag)
              | Some n => mapM (fun a => let* s := frac_octave_smoothing (arr1 a) n true in Ok (map of_opt s)) mag
              end in
  let* lg := legend labels (List.length mag) smoothing_n in
  let* yl := match ylim with
             | YPair lo hi => Ok (lo, hi)
             | YRange d =>
                 if all_fin (concat mag)
                 then let* m := np_max (map fin (concat mag)) in Ok (m - d, m)
                 else Err ValueError
             end in
  Ok (Curves freq mag yl (fst lg), snd lg).
(** plot.py:25-61 spectrum of a list of signals *)
Definition spectrum (x : list (list R)) (fs : R) (scale_mag todb : bool) (smoothing_n : option R)
    (ylim : ylim_arg) (labels : labels_arg) : res (curves * labels_arg) :=
  match x with
  | [] => Err IndexError
  | x0 :: _ =>
      let bins := List.length x0 in
      if (Nat.eqb bins 0 || Reqb fs 0)%bool then Err ZeroDivisionError else
      let* specs := mapM (spec_mag bins scale_mag) x in
      freq_resp (rfftfreq bins fs) specs todb smoothing_n ylim labels
  end.

(** np.clip(z, lo, None): complex numbers are ordered by their real part first *)
Definition cclip (lo : R) (z : C2) : C2 :=
  if Rltb (fst z) lo then (lo, 0)
  else if Reqb (fst z) lo then (fst z, Rmax (snd z) 0) else z.
(** plot.py:128-149 transfer_function: magnitude in dB and phase *)
Definition transfer_function (freq : list R) (H : list C2) : res (list val * list R) :=
  let H := map (cclip (1 / 100000000000000)) H in
  let* _ := if Nat.eqb (List.length freq) (List.length H) then Ok tt else Err ValueError in
  Ok (map (fun z => val_db (cabs z)) H, np_unwrap (map angle H)).

(** plot.py:836-871 polar: the two curves and the limits of the radius axis *)
Record polar_fig : Type := PolarFig { po_theta : list R; po_pos : list val; po_neg : list val; po_rlim : R * R }.
Definition polar (theta r : list R) (todb : bool) (rlim : option (R * R)) : res polar_fig :=
  let* _ := if Nat.eqb (List.length theta) (List.length r) then Ok tt else Err ValueError in
  let rpos := map (fun x => if Rltb x 0 then NaN else Fin x) r in
  let rneg := map (fun x => if Rleb 0 x then NaN else Fin x) r in
  let shown v := match v with Fin x => if todb then val_db x else Fin x | v => v end in
  let absval v := match v with Fin x => Fin (Rabs x) | v => v end in
  let lim := match rlim with Some l => l | None => if todb then (-40, 0) else (0, 1) end in
  Ok (PolarFig theta (map shown rpos) (map shown (map absval rneg))
               (fst lim, snd lim + (if todb then 1 / 2 else 3 / 100))).

(** * Maps over azimuth and zenith *)
(** [a[a > pi] = g(a[a > pi])] in place; an integer array truncates what it is given *)
Definition wrap_in_place (g : R -> R) (l : nat) : act unit :=
  do c <- fetch l;
  store l (set_data c (map (fun v => if Rltb PI v then (if a_int c then IZR (py_int (g v)) else g v) else v) (a_data c))).
Record map_fig : Type := MapFig { mf_azi : list R; mf_zen : list R; mf_val : list val }.
(** plot.py:539-590 spherical_function_map, f real *)
Definition spherical_function_map (f azi zen : arg) (todb : bool) : act map_fig :=
  do lf <- asarray_1d_ref f;
  do la <- asarray_1d_ref azi;
  do lz <- asarray_1d_ref zen;
  do u <- wrap_in_place (fun v => v - 2 * PI) la;
  do cf <- fetch lf;
  do ca <- fetch la;
  do cz <- fetch lz;
  if (Nat.eqb (List.length (a_data ca)) (List.length (a_data cz)) && Nat.eqb (List.length (a_data ca)) (List.length (a_data cf)))%bool
  then ret (MapFig (a_data ca) (a_data cz) (map (fun x => if todb then val_db x else Fin x) (a_data cf)))
  else raise ValueError.

(** an argument that is an array or one number *)
Inductive shade : Type := SArr (l : list R) | SNum (x : R).
(** [None]: a size that is NaN *)
Record doa_point : Type := DoaPoint { dp_azi : R; dp_zen : R; dp_size : option R; dp_color : R; dp_alpha : R }.
Fixpoint zip5 (a b : list R) (c : list (option R)) (d e : list R) : list doa_point :=
  match a, b, c, d, e with
  | x :: a', y :: b', z :: c', u :: d', v :: e' => DoaPoint x y z u v :: zip5 a' b' c' d' e'
  | _, _, _, _, _ => []
  end.
(** plot.py:1038-1043: p / max(p) clipped below, or ones, times [size] (an int or a
    float); ones_like of an integer array does not take a float factor *)
Definition doa_sizes (azi : cell) (p : option (list R)) (size : bool * R) : res (list (option R)) :=
  match p with
  | Some p =>
      let* m := np_max p in
      Ok (map (fun x => if Reqb m 0 then (if Reqb x 0 then None else Some (1 / 100000000000000 * snd size))
                        else Some (clip_lo (1 / 100000000000000) (x / m) * snd size)) p)
  | None => if (a_int azi && negb (fst size))%bool then Err TypeError
            else Ok (map (fun _ => Some (1 * snd size)) (a_data azi))
  end.
(** plot.py:1009-1095 doa on arrays in memory: the points in the order they are
    drawn.  A one-element array for several points, which matplotlib repeats, is
    not modelled. *)
Definition doa (azi zen : nat) (p : option (list R)) (size : bool * R) (c alpha : option shade) (fs : option R) : act (list doa_point) :=
  do u <- wrap_in_place (fun v => pymod v (- PI)) azi;
  do ca <- fetch azi;
  do cz <- fetch zen;
  let n := List.length (a_data ca) in
  match (let* s := doa_sizes ca p size in
         let* col := match c, fs with
                     | None, Some f => if Reqb f 0 then Err ZeroDivisionError
                                      else Ok (map (fun k => INR k * (INR n / f / INR n) * 1000) (seq 0 n))
                     | None, None => Ok (repeat 1 n)
                     | Some (SArr l), _ => Ok l
                     | Some (SNum _), _ => Err TypeError
                     end in
         let* al := match alpha with
                    | None => Ok (repeat (35 / 100 * 1) n)
                    | Some (SArr l) => Ok l
                    | Some (SNum _) => Err TypeError
                    end in
         if (Nat.eqb (List.length (a_data cz)) n && Nat.eqb (List.length s) n && Nat.eqb (List.length col) n && Nat.eqb (List.length al) n)%bool
         then Ok (zip5 (rev (a_data ca)) (rev (a_data cz)) (rev s) (rev col) (rev al))
         else Err ValueError) with
  | Ok pts => ret pts
  | Err e => raise e
  end.

(** np.fmod(x, m), m > 0: the sign of x *)
Definition fmod (x m : R) : R := x - m * IZR (py_int (x / m)).
(** plot.py:1128-1150 hrirs_ild_itd: azimuths, zeniths, level and time differences
    (ms) with their colour limits; [ilds] and [itds] are what
    process.ilds_from_hrirs and itds_from_hrirs return *)
Definition sym_lim (l : list R) (given : option R) : res (R * R) :=
  match given with
  | Some m => Ok (- m, m)
  | None => let* m := np_max (map Rabs l) in Ok (- m, m)
  end.
Record ild_fig : Type := IldFig { if_azi : list R; if_zen : list R; if_ild : list R; if_itd : list R;
  if_ild_lim : R * R; if_itd_lim : R * R }.
Definition hrirs_ild_itd (azi zen ilds itds : list R) (pclims : option R * option R) : res ild_fig :=
  let ms := map (fun t => 1000 * t) itds in
  let* l1 := sym_lim ilds (fst pclims) in
  let* l2 := sym_lim ms (snd pclims) in
  Ok (IldFig (map (fun a => fmod (a + PI) (2 * PI) - PI) azi) zen ilds ms l1 l2).

(** * RMS map *)
(** the limits of the colours: the default argument (a list that all calls share), a
    list or a tuple *)
Inductive clim_arg : Type := CDefault | CList (lo hi : option R) | CTuple (lo hi : option R).
Record rms_fig : Type := RmsFig { rf_azi : list R; rf_zen : list R; rf_rms : list val; rf_vmin : option R; rf_vmax : option R }.
(** columns [a, b) of an array *)
Definition col_block (F : mat) (a b : nat) : mat := Mat (nr F) (Nat.min b (nc F) - a) (fun i j => ent F i (a + j)%nat).
(** utils.rms(f, axis=1); [None]: mean of nothing *)
Definition rms_rows (f : mat) : option (list R) :=
  if Nat.eqb (nc f) 0 then None else Some (map (fun i => Rabs (rms (map (ent f i) (seq 0 (nc f))))) (seq 0 (nr f))).
(** plot.py:488-498 *)
Definition mem_block : nat := (2 ^ 16)%nat.
Fixpoint rms_loop (fuel block : nat) (B F : mat) (start : nat) : res (list (option (list R))) :=
  match fuel with
  | O => Err OutOfFuel
  | S k =>
      if Nat.leb (start + block) (nc F)
      then let* f := matmul B (col_block F start (start + block)) in
           let* t := rms_loop k block B F (start + block) in
           Ok (rms_rows f :: t)
      else Ok []
  end.
Definition rms_mean (l : list (list R)) (i : nat) : R :=
  sqrt (lsum (map (fun r => nth i r 0 ^ 2) l) / INR (List.length l)).
Definition rms_values (block : nat) (B F : mat) : res (option (list R)) :=
  if Nat.ltb block (nc F)
  then let* l := rms_loop (S (nc F)) block B F 0 in
       Ok (match all_some l with Some l => Some (map (rms_mean l) (seq 0 (nr B))) | None => None end)
  else let* f := matmul B F in Ok (rms_rows f).
(** plot.py:447-536 sh_rms_map of a real signal with at least one channel:
    the figure, the default list and the caller's limits afterwards.  [ndesign] is
    grids.load_n_design. *)
Definition sh_rms_map (ndesign : Z -> res (list V3)) (dflt : option R * option R) (F : mat) (todb : bool)
    (w_n : option (list R)) (n_plot : Z) (clim : clim_arg) : res (option rms_fig) * (option R * option R) * clim_arg :=
  match (let N := Z.to_nat (order_of (nr F)) in
         let* vp := ndesign n_plot in
         orsome (dirs vp) (fun d =>
           let azi := (fst d ++ [PI; 0; - PI; PI; 0; - PI])%list in
           let zen := (snd d ++ [0; 0; 0; PI; PI; PI])%list in
           let* Y := sh_matrix N azi zen in
           let w := match w_n with Some w => w | None => hypercardioid_modal_weights N end in
           let* B := matmul Y (vdiag (repeat_per_order w)) in
           let* v := rms_values mem_block B F in
           Ok (Some (azi, zen, match v with
                               | Some l => map (fun x => if todb then val_db x else Fin x) l
                               | None => repeat NaN (List.length azi)
                               end)))) with
  | Err e => (Err e, dflt, clim)
  | Ok None => (Ok None, dflt, clim)
  | Ok (Some (azi, zen, v)) =>
      let set lo := match lo with Some x => Some x | None => if todb then None else Some 0 end in
      match clim with
      | CDefault => let lo := set (fst dflt) in (Ok (Some (RmsFig azi zen v lo (snd dflt))), (lo, snd dflt), CDefault)
      | CList lo hi => (Ok (Some (RmsFig azi zen v (set lo) hi)), dflt, CList (set lo) hi)
      | CTuple (Some lo) hi => (Ok (Some (RmsFig azi zen v (Some lo) hi)), dflt, clim)
      | CTuple None hi => (Err TypeError, dflt, clim)
      end
  end.

(** * Decoder performance *)
Inductive renderer : Type := RVbap | RVbip | RAllrap | RAllrap2 | RNls | RAllrad | RAllrad2 | REpad | RMad | RSad | ROther.
(** plot.py:889-895: the grid, azimuth running fastest *)
Definition perf_grid (azi_steps ele_steps : R) : list (R * R) :=
  let da := np_deg2rad azi_steps in
  let de := np_deg2rad ele_steps in
  flat_map (fun th => map (fun ph => (ph, th)) (arange (- PI) (PI + da) da)) (arange 0 (PI + de) de).
Definition mat_rows (G : mat) : list (list R) := map (fun i => map (ent G i) (seq 0 (nc G))) (seq 0 (nr G)).
(** plot.py:897-935: the gains, one row per direction.  [None]: NaN *)
Definition rows_opt (r : res (option mat)) (tr : bool) : res (option (list (list R))) :=
  let* o := r in Ok (option_map (fun G => mat_rows (if tr then mtr G else G)) o).
Definition perf_gains (lstsq3 : M3 -> M3) (pinv : mat -> mat) (svd : mat -> mat * list R * mat) (s : setup) (r : renderer)
    (grid : list (R * R)) (N_sph : option nat) : res (option (list (list R))) * setup :=
  let src := map (fun g => sph2cart (fst g) (snd g) 1) grid in
  let plain (x : res (list (list R)) * setup) :=
    match N_sph with
    | Some _ => (Err TypeError, s)
    | None => (let* g := fst x in Ok (Some g), snd x)
    end in
  let with_sh (f : nat -> mat -> res (option mat) * setup) :=
    match (let* N := match N_sph with Some n => Ok n | None => get_characteristic_order lstsq3 s end in
           let* Y := sh_matrix N (map fst grid) (map snd grid) in Ok (N, mtr Y)) with
    | Err e => (Err e, s)
    | Ok (N, Y_in) => let (g, s') := f N Y_in in (rows_opt g true, s')
    end in
  match r with
  | RVbap => plain (vbap lstsq3 1 [] src s (POrd 2) None false)
  | RVbip => plain (vbip lstsq3 1 [] src s (POrd 2) None false)
  | RAllrap => let (g, s') := allrap lstsq3 1 [] src s N_sph in (rows_opt g false, s')
  | RAllrap2 => let (g, s') := allrap2 lstsq3 1 [] src s N_sph in (rows_opt g false, s')
  | RNls => plain (nearest_loudspeaker src (s_hull s), s)
  | RAllrad => with_sh (fun N Y => allrad lstsq3 1 [] Y s (Some N))
  | RAllrad2 => with_sh (fun N Y => allrad2 lstsq3 1 [] Y s (Some N))
  | REpad => with_sh (fun N Y => (epad lstsq3 svd Y s (Some N), s))
  | RMad => with_sh (fun N Y => (mad lstsq3 pinv Y s (Some N), s))
  | RSad => with_sh (fun N Y => (sad lstsq3 Y s (Some N), s))
  | ROther => (Err ValueError, s)
  end.
(** plot.py:937-952: amplitude, energy, spread and angular error (degrees; [None]:
    NaN, where all gains are 0) of one direction.  A loudspeaker at the listener,
    which divides by zero, is not modelled. *)
Record measures : Type := Measures { pm_amplitude : R; pm_energy : R; pm_spread : R; pm_error : option R }.
Definition perf_measure (h : hull) (dir : V3) (g : list R) : measures :=
  let ls := map (fun x => scal3 (/ snd x) (fst x)) (combine (h_points h) (h_d h)) in
  let (rE, mag) := r_E_row ls (map (fun x => fst x / np_pow (snd x) (h_a h)) (combine g (h_d h))) in
  Measures (lsum g) (lsum (map (fun x => x ^ 2) g))
           (2 * acos (clip 0 1 mag) * 180 / PI)
           (option_map (fun v => acos (clip (-1) 1 (dot3 dir (scal3 (/ clip_lo (1 / 100000000000000) mag) v))) * (180 / PI)) rE).
(** plot.py:874-1006 decoder_performance: the measures on the grid; r_E asserts one
    gain per loudspeaker *)
Definition decoder_performance (lstsq3 : M3 -> M3) (pinv : mat -> mat) (svd : mat -> mat * list R * mat) (s : setup) (r : renderer)
    (azi_steps ele_steps : R) (N_sph : option nat) : res (option (list measures)) * setup :=
  let grid := perf_grid azi_steps ele_steps in
  let (g, s') := perf_gains lstsq3 pinv svd s r grid N_sph in
  (let* G := g in
   orsome G (fun G =>
     let* _ := assert_ (forallb (fun row => Nat.eqb (List.length row) (List.length (h_points (s_hull s)))) G) in
     Ok (Some (map (fun q => perf_measure (s_hull s') (sph2cart (fst (fst q)) (snd (fst q)) 1) (snd q)) (combine grid G)))), s').

(** * Hulls, balloons and bars *)
(** plot.py:674-779 hull of a LoudspeakerSetup: the faces drawn solid with the value
    that colours each (set_facecolors colours the k-th face with the k-th value),
    the faces drawn dashed, the axis limit.  An empty mask is a float array and no
    index. *)
Record hull_fig : Type := HullFig { hf_valid : list face; hf_color : option (list R); hf_invalid : list face; hf_lim : R }.
Definition plot_hull (h : hull) (simplices : option (list face)) (mark_invalid : bool) (color : option (list R)) (ax_lim : option R) : res hull_fig :=
  let ss := match simplices with Some l => l | None => h_simplices h end in
  let* vi := if mark_invalid then
               match ss with
               | [] => Err IndexError
               | _ => Ok (filter (is_simplex_valid (h_valid h)) ss, filter (fun f => negb (is_simplex_valid (h_valid h) f)) ss)
               end
             else Ok (ss, []) in
  let* col := match color with
              | None => Ok None
              | Some c => let* _ := assert_ (Nat.eqb (List.length c) (List.length ss)) in
                          Ok (Some (firstn (List.length (fst vi)) c))
              end in
  let* lim := match ax_lim with
              | Some l => Ok l
              | None => let* m := np_max (flat_map (fun p => [Rabs (vx p); Rabs (vy p); Rabs (vz p)]) (h_points h)) in
                        Ok (11 / 10 * Rmax m 1)
              end in
  Ok (HullFig (fst vi) col (snd vi) lim).

(** plot.py:1186-1216 set_aspect_equal3d: the common limits *)
Definition aspect_limits (given : option (R * R)) (x y z : R * R) : R * R :=
  match given with
  | Some l => l
  | None => (Rmin (Rmin (fst x) (fst y)) (fst z), Rmax (Rmax (snd x) (snd y)) (snd z))
  end.

(** plot.py:202-254 spherical_function, f real: points, their colours and the limits
    of the colours *)
Definition spherical_function (f azi zen : list R) : res (list V3 * list R * (R * R)) :=
  if (Nat.eqb (List.length f) (List.length azi) && Nat.eqb (List.length f) (List.length zen))%bool then
    let* mx := np_max f in
    let* mn := np_max (map Ropp f) in
    Ok (map (fun q => sph2cart (fst (snd q)) (snd (snd q)) (Rabs (fst q))) (combine f (combine azi zen)), f,
        (Rmin 0 (- mn), Rmax 1 mx))
  else Err ValueError.
(** plot.py:271-288 sh_coeffs: grid, surface points and phases *)
(** [int(full / step)] and np.linspace with that many points: a step of 0 is a
    ZeroDivisionError, a negative number of points a ValueError *)
Definition check_count (full step : R) : res unit :=
  if Reqb step 0 then Err ZeroDivisionError
  else if (py_int (full / step) <? 0)%Z then Err ValueError else Ok tt.
Definition check_steps (azi_steps el_steps : R) : res unit :=
  let* _ := check_count 360 azi_steps in check_count 180 el_steps.
Definition balloon_grid (azi_steps el_steps : R) : list (R * R) :=
  flat_map (fun th => map (fun ph => (ph, th)) (linspace 0 (2 * PI) (Z.to_nat (py_int (360 / azi_steps)))))
           (linspace (1 / 10000000) (PI - 1 / 10000000) (Z.to_nat (py_int (180 / el_steps)))).
Definition sh_coeffs (F : list R) (azi_steps el_steps : R) : res (list (V3 * R)) :=
  let* _ := check_steps azi_steps el_steps in
  let grid := balloon_grid azi_steps el_steps in
  let* f := inverse_sht (Mat (List.length F) 1 (fun i _ => nth i F 0)) (map fst grid) (map snd grid) None None in
  Ok (map (fun q => let v := ent f (fst q) 0 in
                    (sph2cart (fst (snd q)) (snd (snd q)) (Rabs v), arctan2 0 v))
          (combine (seq 0 (List.length grid)) grid)).
Definition sh_coeffs_c (F : list C2) (azi_steps el_steps : R) : res (list (V3 * R)) :=
  let* _ := check_steps azi_steps el_steps in
  let grid := balloon_grid azi_steps el_steps in
  let* f := inverse_sht_c (CMat (List.length F) 1 (fun i _ => nth i F (0, 0))) (Z.to_nat (order_of (List.length F))) (map fst grid) (map snd grid) in
  Ok (map (fun q => let v := cent f (fst q) 0%nat in
                    (sph2cart (fst (snd q)) (snd (snd q)) (cabs v), angle v))
          (combine (seq 0 (List.length grid)) grid)).

(** plot.py:593-671 sh_bar: the cells (x, y, value) in drawing order, and the ticks;
    [x] are the rows of val_plot, all of the same length *)
Definition sh_bar (x : list (list R)) (num_groups : nat) : res (list (R * nat * R) * list R) :=
  let L := match x with r :: _ => List.length r | [] => 0%nat end in
  if Nat.eqb L 0 then Err ValueError else
  if Nat.eqb num_groups 0 then Err ZeroDivisionError else
  let ticks := flat_map (fun i => map (fun d => INR i + d) (linspace (- (1 / 4)) (1 / 4) num_groups)) (seq 0 (List.length x / num_groups)) in
  Ok (flat_map (fun q => map (fun l => (fst q, l, nth l (snd q) 0)) (seq 0 L)) (combine ticks x), ticks).
