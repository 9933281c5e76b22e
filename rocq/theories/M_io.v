(** Model of spaudiopy/io.py.
    Files are values: an audio file is its rate and its samples, a layout file the
    list of its loudspeaker entries, a MAT file its keys.  Printed messages are left
    out, warnings are booleans where a property speaks about them. *)
From Coq Require Import String.
From Verif Require Import Base M_utils M_sig M_process M_sph0 M_sph M_grids M_decoder M_decoder2 M_decoder3 M_parsa2.
Open Scope R_scope.

(** * Audio files *)
(** an audio file: sampling rate and samples, (frames, channels) *)
Record audio : Type := Audio { au_fs : Z; au_data : mat }.
Definition disk : Type := string -> option audio.
Definition put (d : disk) (name : string) (a : audio) : disk :=
  fun n => if String.eqb n name then Some a else d n.
(** what soundfile and the operating system decide.  [expanduser] is
    os.path.expanduser; [stored] is what becomes of a sample in a file of the given
    subtype (single precision for 'FLOAT'); [accepts] tells the channel counts and
    rates the file format takes. *)
Record system : Type := System {
  expanduser : string -> string; stored : string -> R -> R; accepts : nat -> Z -> bool }.

(** the columns of an array, the rows of its transpose *)
Definition columns (m : mat) : list (list R) := map (fun j => map (fun i => ent m i j) (seq 0 (nr m))) (seq 0 (nc m)).
(** sf.read: a file with one channel comes as a 1-D array.  libsndfile's error is a
    RuntimeError. *)
Inductive sfdata : Type := D1 (x : list R) | D2 (m : mat).
Definition sf_read (d : disk) (name : string) : res (sfdata * Z) :=
  match d name with
  | None => Err RuntimeError
  | Some a => Ok (if Nat.eqb (nc (au_data a)) 1 then D1 (nth 0 (columns (au_data a)) []) else D2 (au_data a), au_fs a)
  end.
(** sf.write of a 1-D or 2-D array *)
Definition col_mat (x : list R) : mat := Mat (length x) 1 (fun i _ => nth i x 0).
Definition sf_write (y : system) (subtype : string) (d : disk) (name : string) (a : sfdata) (fs : Z) : res disk :=
  let m := match a with D1 x => col_mat x | D2 m => m end in
  if accepts y (nc m) fs then Ok (put d name (Audio fs (mmap (stored y subtype) m))) else Err RuntimeError.

(** io.py:30-70 load_audio.  [filenames] is a string or a list of strings. *)
Inductive fnames : Type := One (n : string) | Many (l : list string).
Definition name_list (f : fnames) : list string := match f with One n => [n] | Many l => l end.
Inductive sigobj : Type := SMono (m : mono) | SMulti (m : multi).
Definition load_file (y : system) (d : disk) (n : string) : res (list (list R) * Z) :=
  let* r := sf_read d (expanduser y n) in
  Ok (match fst r with D2 m => columns m | D1 x => [x] end, snd r).
Definition load_audio (y : system) (d : disk) (f : fnames) (fs : option Z) : res sigobj :=
  let* files := mapM (load_file y d) (name_list f) in
  let loaded_data := concat (map fst files) in
  let loaded_fs := map snd files in
  let* _ := assert_ (forallb (fun x => Z.eqb x (nth 0 loaded_fs 0%Z)) loaded_fs) in
  let* f0 := index loaded_fs 0 in
  let* fs := match fs with
             | Some v => if Z.eqb v f0 then Ok v else Err ValueError
             | None => Ok f0
             end in
  match loaded_data with
  | [x] => let* m := mono_init (Nd [1%nat; length x] x) fs in Ok (SMono m)
  | l => let* m := multi_init (map arr1 l) (Some fs) in Ok (SMulti m)
  end.

(** io.py:73-111 save_audio.  The result is the new disk and whether the two warnings
    (more channels than frames, clipping) are given.  Line 87 asks whether the module
    [sig] is a MonoSignal, which it is not: the check of fs never runs. *)
Inductive savable : Type :=
  | VMono (m : mono) | VMulti (m : multi) | VAmbi (a : ambib) | VArr (a : nd R) | VOther.
Definition module_is_mono : bool := false.
Definition rate_of (s : savable) : res Z :=
  match s with VMono m => Ok (m_fs m) | VMulti m => Ok (mu_fs m) | VAmbi a => Ok (mu_fs (base a)) | _ => Err AttributeError end.
(** get_signals().T; an object without channels gives an empty 1-D array *)
Definition signals_T (m : multi) : res (nd R) :=
  let* g := get_signals m in
  match snd g with
  | [] => Ok (Nd [0%nat] [])
  | l => Ok (Nd [fst g; length l] (flat_map (fun i => map (fun x => nth i x 0) l) (seq 0 (fst g))))
  end.
Definition save_data (s : savable) (fs : option Z) : res (nd R * Z) :=
  match s with
  | VMono m => Ok (arr1 (m_sig m), m_fs m)
  | VMulti m => let* a := signals_T m in Ok (a, mu_fs m)
  | VAmbi b => let* a := signals_T (base b) in Ok (a, mu_fs (base b))
  | VArr a => match fs with None => Err ValueError | Some f => Ok (a, f) end
  | VOther => Err NotImplementedError
  end.
Definition max_abs (l : list R) : res R := np_max (map Rabs l).
(** the array as sf.write sees it; a 0-d array has no shape[1] *)
Definition as_sf (a : nd R) : res sfdata :=
  match shape a with
  | [] => Err IndexError
  | [_] => Ok (D1 (data a))
  | n :: c :: _ => Ok (D2 (Mat n c (fun i j => nth (i * c + j) (data a) 0)))
  end.
Definition save_audio (y : system) (subtype : string) (d : disk) (s : savable) (name : string) (fs : option Z)
    : res (disk * (bool * bool)) :=
  let* _ := if module_is_mono then
              match fs with
              | None => Ok tt
              | Some f => let* r := rate_of s in assert_ (Z.eqb r f)
              end
            else Ok tt in
  let* q := save_data s fs in
  let (a, data_fs) := q in
  let* many := match shape a with
               | [] | [_] => Ok false
               | [n; c] => Ok (Nat.ltb n c)
               | _ => Err AssertionError
               end in
  let* p := max_abs (data a) in
  let* x := as_sf a in
  let* d' := sf_write y subtype d (expanduser y name) x data_fs in
  Ok (d', (many, Rltb 1 p)).

(** * HRIRs *)
(** [a[np.arange(len(a)), idx] = v]: negative indices count from the end *)
Definition set_taps (a : list (list R)) (idx : list Z) (v : list R) : res (list (list R)) :=
  mapM (fun q => let '(row, (i, x)) := q in
          let n := Z.of_nat (length row) in
          let j := if (i <? 0)%Z then (i + n)%Z else i in
          if ((0 <=? j) && (j <? n))%Z%bool then Ok (upd row (Z.to_nat j) x) else Err IndexError)
       (combine a (combine idx v)).
(** io.py:141-157 load_hrirs(fs, 'dummy') before the constructor *)
Definition dummy_a (s : R) (q : R * R) : R := 5 / 10 * (1 + cos (fst q + s * (PI / 2))) * sin (snd q).
Definition dummy_tap (fs : Z) (a : R) : Z := py_int (a * (75 / 100 / 1000) * IZR fs + 10).
Definition dummy_ear (fs : Z) (near far : list R) : res (list (list R)) :=
  let h := repeat (repeat 0 256) (length near) in
  let* h := set_taps h (map (dummy_tap fs) far) (map (fun _ => 1) far) in
  let h := map (fun q => map (fun v => v * (snd q + 1 / 10)) (fst q)) (combine h near) in
  set_taps h (map (fun a => py_int (a * 5)) near) (map (fun row => nth 0 row 0) h).
Definition load_hrirs_dummy (leggauss : nat -> list R * list R) (fs : Z) : res hrirs :=
  let '(azi, zen, _) := gauss leggauss 15 in
  let a_l := map (dummy_a (-1)) (combine azi zen) in
  let a_r := map (dummy_a 1) (combine azi zen) in
  let* hrir_l := dummy_ear fs a_l a_r in
  let* hrir_r := dummy_ear fs a_r a_l in
  let* h := hrirs_init (Arr2 hrir_l 256) (Arr2 hrir_r 256) (arr1 azi) (arr1 zen) fs in
  let* _ := assert_ (Z.eqb (h_fs h) fs) in
  Ok h.

(** a MAT file with the keys that load_hrirs reads; the rates are converted with int() *)
Record hrirmat : Type := HrirMat {
  k_left : option (nd R); k_right : option (nd R); k_fs : option R; k_rate : option R;
  k_azi : option (nd R); k_zen : option (nd R) }.
Definition key {A} (o : option A) : res A := match o with Some a => Ok a | None => Err KeyError end.
(** len(a) and the conversion to rows for the constructor, sig.py:259-263 *)
Definition nd_len (a : nd R) : res nat := match shape a with [] => Err TypeError | n :: _ => Ok n end.
Definition nd_rows (a : nd R) : res (arr2 R) :=
  match shape a with [m; n] => Ok (Arr2 (rows_of m n (data a)) n) | _ => Err AssertionError end.
Definition hrirs_of_nd (left right azi zen : nd R) (fs : Z) : res hrirs :=
  let* nl := nd_len left in
  let* n_r := nd_len right in
  let* _ := assert_ (Nat.eqb nl n_r) in
  let* l := nd_rows left in
  let* r := nd_rows right in
  hrirs_init l r azi zen fs.
(** io.py:177-190 *)
Definition hrirs_of_mat (m : hrirmat) (fs : Z) : res hrirs :=
  let* l := key (k_left m) in
  let* r := key (k_right m) in
  let* hrir_fs := match k_fs m with Some f => Ok f | None => key (k_rate m) end in
  let* azi := key (k_azi m) in
  let* zen := key (k_zen m) in
  let* h := hrirs_of_nd (squeeze l) (squeeze r) (squeeze azi) (squeeze zen) (py_int hrir_fs) in
  let* _ := assert_ (Z.eqb (h_fs h) fs) in
  Ok h.
(** io.py:114-190 load_hrirs.  [default fs] is the file of the default set for that
    rate, [make] is what get_default_hrirs leaves there or its exception. *)
Inductive hrirname : Type := Dummy | Default | File (m : option hrirmat).
Definition load_hrirs (leggauss : nat -> list R * list R) (default : Z -> option hrirmat) (make : res (Z -> option hrirmat))
    (fs : Z) (n : hrirname) : res hrirs :=
  match n with
  | Dummy => load_hrirs_dummy leggauss fs
  | Default =>
      if existsb (Z.eqb fs) [44100; 48000; 96000]%Z then
        match default fs with
        | Some m => hrirs_of_mat m fs
        | None =>
            let* d := make in
            match d fs with Some m => hrirs_of_mat m fs | None => Err FileNotFoundError end
        end
      else Err NotImplementedError
  | File (Some m) => hrirs_of_mat m fs
  | File None => Err FileNotFoundError
  end.

(** * Binaural room impulse responses for the SSR *)
(** io.py:431-432 and 496-497, with filename[-4:] *)
Definition wav_name (n : string) : string :=
  let k := String.length n in
  if String.eqb (substring (k - 4) (k - (k - 4)) n) ".wav" then n else append n ".wav".
(** np.deg2rad *)
Definition np_deg2rad (x : R) : R := x * (PI / 180).
(** [rows[i, :] = v] *)
Definition set_row (w : nat) (v : list R) (rows : list (list R)) (i : nat) : res (list (list R)) :=
  let* v := if Nat.eqb (length v) w then Ok v
            else match v with [x] => Ok (repeat x w) | _ => Err ValueError end in
  if Nat.ltb i (length rows) then Ok (upd rows i v) else Err IndexError.
(** io.py:441-444, 457-460 and 504-507: the pair of one angle *)
Definition set_pair (w angle : nat) (ir : list R * list R) (rows : list (list R)) : res (list (list R)) :=
  let* rows := set_row w (fst ir) rows (2 * angle) in
  set_row w (snd ir) rows (2 * angle + 1).
(** the loop over the angles; [None] stands for an array with NaN *)
Fixpoint fill_loop (w : nat) (ir : nat -> res (option (list R * list R))) (angles : list nat) (rows : list (list R))
    : res (option (list (list R))) :=
  match angles with
  | [] => Ok (Some rows)
  | a :: t =>
      let* q := ir a in
      match q with
      | None => Ok None
      | Some q => let* rows := set_pair w a q rows in fill_loop w ir t rows
      end
  end.
(** io.py:462-465 and 509-512: normalized rows *)
Definition normalize_rows (rows : list (list R)) : res (list (list R)) :=
  let* p := max_abs (concat rows) in
  Ok (if Rltb 1 p then map (map (fun x => x / p)) rows else rows).
(** io.py:468 and 515: the transposed array is saved *)
Definition save_rows (y : system) (subtype : string) (d : disk) (name : string) (fs : Z) (w : nat) (rows : list (list R)) : res disk :=
  let a := Nd [w; length rows] (flat_map (fun i => map (fun x => nth i x 0) rows) (seq 0 w)) in
  let* r := save_audio y subtype d (VArr a) name (Some fs) in
  Ok (fst r).
Definition finish_brirs (y : system) (subtype : string) (d : disk) (name : string) (fs : Z) (w : nat)
    (rows : option (list (list R))) : res (option disk) :=
  match rows with
  | None => Ok None
  | Some rows =>
      let* rows := normalize_rows rows in
      let* d' := save_rows y subtype d (wav_name name) fs w rows in
      Ok (Some d')
  end.
(** io.py:403-468 write_ssr_brirs_loudspeaker.  [default] is load_hrirs(fs=fs),
    [cpus] the number of processors; [cs] and [order] are the chunk size of the pool
    and the order in which chunks finish.  np.zeros with a negative size is not
    modelled (no samples and no taps). *)
Definition write_ssr_brirs_loudspeaker (y : system) (subtype : string) (default : res hrirs) (cpus : Z) (cs : nat) (order : list nat)
    (d : disk) (name : string) (ls : arr2 R) (h : hull) (fs : Z) (hr : option hrirs) (jobs : option Z) : res (option disk) :=
  let* hr := match hr with Some x => Ok x | None => default end in
  let* _ := assert_ (Z.eqb (h_fs hr) fs) in
  let jobs := match jobs with Some j => j | None => cpus end in
  let w := (cols ls + h_taps hr - 1)%nat in
  let rows := repeat (repeat 0 w) 720 in
  let f a := binauralize h ls fs (np_deg2rad (INR a), 0) hr in
  let* rows :=
    (if Z.eqb jobs 1 then fill_loop w f (seq 0 360) rows
     else if Z.ltb 1 jobs then
       let* results := pool_starmap f cs (seq 0 360) order in
       fill_loop w (fun a => match nth a results None with Some r => Ok r | None => Err TypeError end) (seq 0 360) rows
     else Ok (Some rows)) in
  finish_brirs y subtype d name fs w rows.
(** io.py:471-515 write_ssr_brirs_sdm.  render_bsdm runs with its default
    jobs_count=1; len(hrirs) and len(sdm_p) are not both 0. *)
Definition write_ssr_brirs_sdm (y : system) (subtype : string) (default : res hrirs)
    (d : disk) (name : string) (p phi theta : list R) (fs : Z) (hr : option hrirs) : res (option disk) :=
  let* hr := match hr with Some x => Ok x | None => default end in
  let* _ := assert_ (Z.eqb (h_fs hr) fs) in
  let w := (length p + h_taps hr - 1)%nat in
  let f (a : nat) :=
    let* r := render_bsdm p (map (fun t => t - np_deg2rad (INR a)) phi) theta hr 1 (fun _ => O) [] [] in
    Ok (Some r) in
  let* rows := fill_loop w f (seq 0 360) (repeat (repeat 0 w) 720) in
  finish_brirs y subtype d name fs w rows.

(** * Loudspeaker layouts *)
(** a JSON number: int (true) or float, and its value *)
Definition num : Type := (bool * R)%type.
(** one loudspeaker of a layout file; the keys may be missing.  NaN and values of
    another type are not modelled. *)
Record entry : Type := Entry {
  j_azi : option num; j_ele : option num; j_rad : option num;
  j_imag : option bool; j_chan : option Z; j_gain : option num }.
(** np.array of numbers: dtype (int or not) and values *)
Definition np_array (l : list num) : bool * list R :=
  (match l with [] => false | _ => forallb fst l end, map snd l).
(** a LoudspeakerSetup with its ls_gains *)
Record layout : Type := Layout { lo_setup : setup; lo_int : bool; lo_gains : list R }.
(** a[mask] *)
Definition masked {A} (mask : list bool) (l : list A) : list A :=
  map snd (filter fst (combine mask l)).
(** io.py:544-546 and 552-554 for one loudspeaker *)
Definition ls_position (q : R * (R * R)) : V3 :=
  sph2cart (deg2rad (fst q)) (deg2rad (90 - fst (snd q))) (snd (snd q)).
(** io.py:518-558 load_layout on the entries of the file.  Without entries isImaginary
    is a float array, which [~] rejects.  The default of N_kernel is 50. *)
Definition load_layout (chull : list V3 -> list face) (lstsq3 : M3 -> M3) (ndesign : Z -> list V3)
    (file : list entry) (listener : option V3) (N_kernel : option nat) : res layout :=
  let* azi := mapM (fun e => key (j_azi e)) file in
  let* ele := mapM (fun e => key (j_ele e)) file in
  let* r := mapM (fun e => key (j_rad e)) file in
  let gains := match mapO j_gain file with
               | Some g => np_array g
               | None => (fst (np_array azi), map (fun _ => 1) azi)
               end in
  let imag := match mapO j_imag file with Some l => l | None => map (fun _ => false) azi end in
  match file with
  | [] => Err TypeError
  | _ =>
      let pos := map ls_position (combine (map snd azi) (combine (map snd ele) (map snd r))) in
      let real_pos := masked (map negb imag) pos in
      let s := Setup (setup_init chull real_pos listener) None None None in
      let imag_pos := masked imag pos in
      let (r, s') := ambisonics_setup chull lstsq3 ndesign s true (Some imag_pos) None N_kernel in
      let* _ := r in
      Ok (Layout s' (fst gains) (snd gains))
  end.

(** Python's round(x, 2) *)
Definition round2 (x : R) : R := IZR (np_round (x * 100)) / 100.
(** [i in np.asarray(idx)]; nothing is in an array that holds None *)
Definition marked (h : hull) (i : nat) : bool :=
  match h_imag h with Some l => existsb (Nat.eqb i) l | None => false end.
(** io.py:576-590, one loudspeaker; [None]: the zenith is NaN *)
Definition save_entry (l : layout) (h : hull) (i : nat) : res (option entry) :=
  let p := nth i (h_points h) (0, 0, 0) in
  let '(azi, zen, r) := cart2sph (vx p) (vy p) (vz p) false false in
  let* gain := (if marked h i then Ok (false, 0) else let* g := index (lo_gains l) (Z.of_nat i) in Ok (lo_int l, g)) in
  Ok (match zen with
      | None => None
      | Some zen =>
          Some (Entry (Some (false, round2 (rad2deg azi))) (Some (false, round2 (90 - rad2deg zen)))
                      (Some (false, round2 r)) (Some (marked h i)) (Some (Z.of_nat i + 1)%Z) (Some gain))
      end).
(** io.py:561-593 save_layout.  json.dump knows Python's numbers and numpy's float64
    but not numpy's int64 (TypeError).  The names and the date are left out.
    [Ok None]: a file with NaN is written. *)
Definition save_layout (l : layout) : res (option (list entry)) :=
  match s_ambi (lo_setup l) with
  | None => Err ValueError
  | Some h =>
      let n := length (h_points h) in
      let* es := mapM (save_entry l h) (seq 0 n) in
      if (lo_int l && negb (forallb (marked h) (seq 0 n)))%bool then Err TypeError
      else Ok (mapO (fun e => e) es)
  end.

(** * Other loaders *)
(** a float that may be NaN *)
Definition fnum : Type := option R.
(** the keys of an SDM file *)
Record sdmmat : Type := SdmMat {
  k_href : option (nd fnum); k_p : option (nd fnum); k_sazi : option (nd fnum); k_phi : option (nd fnum);
  k_szen : option (nd fnum); k_theta : option (nd fnum); k_sfs : option R }.
Definition first_key {A} (a b : option A) : res A := match a with Some v => Ok v | None => key b end.
Definition nan_to (v : R) (a : nd fnum) : nd fnum :=
  Nd (shape a) (map (fun x => match x with Some y => Some y | None => Some v end) (data a)).
(** io.py:358-400 load_sdm.  [a[np.isnan(a)] = v] also works on 0-d arrays. *)
Definition load_sdm (m : sdmmat) (init_nan : bool) : res (nd fnum * nd fnum * nd fnum * Z) :=
  let* h := first_key (k_href m) (k_p m) in
  let* azi := first_key (k_sazi m) (k_phi m) in
  let* zen := first_key (k_szen m) (k_theta m) in
  let azi := if init_nan then nan_to 0 (squeeze azi) else squeeze azi in
  let zen := if init_nan then nan_to (PI / 2) (squeeze zen) else squeeze zen in
  let* fs := key (k_sfs m) in
  Ok (squeeze h, azi, zen, py_int fs).

(** a SOFA file: sampling rate, impulse responses (M, R, N) and positions (M, C).
    load_sofa_data (io.py:283-291) squeezes every array. *)
Record sofa : Type := Sofa { sf_rate : option R; sf_ir : option (nd R); sf_pos : option (nd R) }.
(** [a[:, j]] of a 2-D array and [a[:, e, :]] of a 3-D array *)
Definition nd_col (a : nd R) (j : nat) : res (list R) :=
  match shape a with
  | [m; n] => if Nat.ltb j n then Ok (map (fun i => nth (i * n + j) (data a) 0) (seq 0 m)) else Err IndexError
  | _ => Err IndexError
  end.
Definition nd_ear (a : nd R) (e : nat) : res (nd R) :=
  match shape a with
  | [m; n; k] =>
      if Nat.ltb e n
      then Ok (Nd [m; k] (flat_map (fun i => firstn k (skipn ((i * n + e) * k) (data a))) (seq 0 m)))
      else Err IndexError
  | _ => Err IndexError
  end.
Definition mean (l : list R) : R := lsum l / INR (length l).
(** io.py:293-327 load_sofa_hrirs.  The mean of an empty array is NaN and fails the
    comparison. *)
Definition load_sofa_hrirs (s : sofa) : res hrirs :=
  let* fs := key (sf_rate s) in
  let* irs := key (sf_ir s) in
  let* grid := key (sf_pos s) in
  let irs := squeeze irs in
  let grid := squeeze grid in
  let* rad := nd_col grid 2 in
  let m := mean rad in
  let* _ := assert_ (negb (Nat.eqb (length rad) 0) && Rltb (mean (map (fun v => Rabs (v - m)) rad)) (1 / 10)) in
  let* azi := nd_col grid 0 in
  let* ele := nd_col grid 1 in
  let azi := map np_deg2rad azi in
  let zen := map (fun v => PI / 2 - np_deg2rad v) ele in
  let* _ := assert_ (forallb (fun z => Rltb (- (10 / 1000000)) z) zen) in
  let* l := nd_ear irs 0 in
  let* r := nd_ear irs 1 in
  hrirs_of_nd (squeeze l) (squeeze r) (arr1 azi) (arr1 zen) (py_int fs).
