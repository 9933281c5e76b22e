(** Model of spaudiopy/io.py, part 3: making the default set of HRIRs. *)
From Coq Require Import String.
From Verif Require Import Base M_utils M_sig M_process M_sph0 M_sph M_grids M_decoder M_decoder2 M_decoder3 M_decoder4 M_parsa2 M_io.
Open Scope R_scope.

(** io.py:232-235: what is read from the FABIAN file, a positive rate and the complex
    coefficients (harmonics, bins) of both ears *)
Record fabian : Type := Fabian { fb_rate : Z; fb_left : cmat; fb_right : cmat }.
(** io.py:217-229: [found] is the file at its place, [download] what is there after
    fetching it, or the exception of that *)
Definition fabian_file (found : option fabian) (download : res (option fabian)) : res fabian :=
  match found with
  | Some f => Ok f
  | None => let* d := download in match d with Some f => Ok f | None => Err FileNotFoundError end
  end.
(** io.py:238-239; with one of the two missing, scipy's sph_harm gets None: TypeError *)
Definition default_grid (leggauss : nat -> list R * list R) (azi zen : option (list R)) : res (list R * list R) :=
  match azi, zen with
  | None, None => Ok (fst (gauss leggauss 35))
  | Some a, Some z => Ok (a, z)
  | _, _ => Err TypeError
  end.
(** sph.py:190-219 inverse_sht, complex, the order taken from the number of rows *)
Definition inverse_sht_all (F : cmat) (azi zen : list R) : res cmat :=
  match cnr F with
  | O => if dirs_ok azi zen then Ok (CMat (length azi) (cnc F) (fun _ _ => (0, 0))) else Err ValueError
  | _ => inverse_sht_c F (Z.to_nat (order_of (cnr F))) azi zen
  end.
(** np.fft.irfft(H) along the last axis; ValueError with fewer than two bins *)
Definition irfft_rows (H : cmat) : res (list (list R)) :=
  if Nat.leb (cnc H) 1 then Err ValueError
  else Ok (map (fun i => irfft (map (cent H i) (seq 0 (cnc H)))) (seq 0 (cnr H))).
(** a 2-D array from rows, ValueError if their lengths differ *)
Definition rows_nd (n : nat) (l : list (list R)) : res (nd R) :=
  if forallb (fun r => Nat.eqb (length r) n) l then Ok (Nd [length l; n] (concat l)) else Err ValueError.
Definition known (l : list (list (option R))) : list (list R) := map (map (fun o => match o with Some v => v | None => 0 end)) l.
Definition width {A} (l : list (list A)) : nat := match l with r :: _ => length r | [] => 0%nat end.
(** savemat of one set; 1-D arrays become rows *)
Definition hrir_set (l r : list (list R)) (azi zen : list R) (fs : Z) : res hrirmat :=
  let* a := rows_nd (width l) l in
  let* b := rows_nd (width r) r in
  Ok (HrirMat (Some a) (Some b) (Some (IZR fs)) None (Some (Nd [1%nat; length azi] azi)) (Some (Nd [1%nat; length zen] zen))).

(** io.py:193-280 get_default_hrirs.  [resampler] is resampy.resample on one row, [cpus],
    [cs] and the [orders] are those of the process pool.  The result is what the three
    files hold afterwards; files that are there already are replaced. *)
Definition get_default_hrirs (leggauss : nat -> list R * list R) (resampler : Z -> Z -> list R -> res (list R))
    (cpus : Z) (cs : nat) (orders : nat -> list nat) (found : option fabian) (download : res (option fabian))
    (grid_azi grid_zen : option (list R)) (jobs_count : option Z) : res (Z -> option hrirmat) :=
  let* file := fabian_file found download in
  let rate := fb_rate file in
  let* g := default_grid leggauss grid_azi grid_zen in
  let (azi, zen) := g in
  let* Hl := inverse_sht_all (fb_left file) azi zen in
  let* Hr := inverse_sht_all (fb_right file) azi zen in
  let* _ := assert_ (Nat.eqb (cnr Hl) (cnr Hr) && Nat.eqb (cnc Hl) (cnc Hr)) in
  let* l := irfft_rows Hl in
  let* r := irfft_rows Hr in
  let taps := Z.of_nat (2 * (cnc Hl - 1)) in
  let jobs := match jobs_count with Some j => j | None => cpus end in
  let at_rate (fs : Z) (k : nat) :=
    let* q := resample_hrirs (resampler rate fs) (mapM (resampler rate fs)) l r taps rate fs jobs cs (orders k) (orders (S k)) in
    Ok (known (fst (fst q)), known (snd (fst q))) in
  let* q48 := at_rate 48000%Z 0%nat in
  let* q96 := at_rate 96000%Z 2%nat in
  let* m44 := hrir_set l r azi zen 44100 in
  let* m48 := hrir_set (fst q48) (snd q48) azi zen 48000 in
  let* m96 := hrir_set (fst q96) (snd q96) azi zen 96000 in
  Ok (fun fs => if Z.eqb fs 44100 then Some m44 else if Z.eqb fs 48000 then Some m48 else if Z.eqb fs 96000 then Some m96 else None).
