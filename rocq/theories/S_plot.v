(** Specification of what plot.py draws. *)
From Verif Require Import Base M_utils M_sig M_sph M_decoder M_decoder3 M_plot S_decoder2 S_decoder3 S_ctf.
Open Scope R_scope.

(** ** spectra *)
(** [x] is the sum of a mean [c0], of sinusoids with k = 1, 2, ... < n/2 periods and,
    if [n] is even, of an alternating part [cN] *)
Definition partials (n : nat) (c0 : R) (A phi : nat -> R) (cN : R) (x : list R) : Prop :=
  length x = n /\ forall t, (t < n)%nat ->
    nth t x 0 = c0 + rsum ((n - 1) / 2) (fun i => A (S i) * cos (2 * PI * INR (S i * t) / INR n + phi (S i)))
                + (if Nat.even n then cN * (-1) ^ t else 0).
(** amplitude drawn for bin [k]: that of the partial; the alternating part counts twice *)
Definition amplitude (n : nat) (c0 : R) (A : nat -> R) (cN : R) (k : nat) : R :=
  if Nat.eqb k 0 then Rabs c0 else if Nat.eqb (2 * k) n then 2 * Rabs cN else Rabs (A k).
Definition decibel (x : R) : R := 20 * (ln x / ln 10).
(** what the axis shows for the magnitude [a] *)
Definition on_axis (todb : bool) (a : R) : R := if todb then decibel (Rmax (1 / 100000000000000) (Rabs a)) else a.
(** [top] is the largest of the drawn values *)
Definition highest (top : R) (m : list (list val)) : Prop :=
  (exists r, In r m /\ In (Fin top) r) /\ forall r v, In r m -> In v r -> exists y, v = Fin y /\ y <= top.
Definition limits_ok (ylim : ylim_arg) (cu : curves) : Prop :=
  match ylim with
  | YPair lo hi => cu_ylim cu = (lo, hi)
  | YRange d => exists top, highest top (cu_mag cu) /\ cu_ylim cu = (top - d, top)
  end.
Definition legend_of (labels : labels_arg) : option (list label) :=
  match labels with LNone => None | LStr s => Some [Text s] | LList l => Some l | LTuple l => Some l end.
(** the curve [c] drawn for the magnitudes [a]: as they are, or their mean over 1/n octave *)
Definition curve_of (todb : bool) (smoothing_n : option R) (a : list R) (c : list val) : Prop :=
  match smoothing_n with
  | None => c = map (fun x => Fin (on_axis todb x)) a
  | Some n => length c = length a /\ forall i, (i < length a)%nat ->
      exists v, nth i c NaN = Fin v /\ octave_mean true n (length a) (fun k => on_axis todb (nth k a 0)) i v
  end.
(** the legend, and the caller's labels afterwards; smoothing adds an entry *)
Definition legend_ok (labels : labels_arg) (smoothing_n : option R) (cu : curves) (labels' : labels_arg) : Prop :=
  match smoothing_n with
  | None => cu_legend cu = legend_of labels /\ labels' = labels
  | Some n =>
      cu_legend cu = Some ((match legend_of labels with Some l => l | None => repeat NoLabel (length (cu_mag cu)) end) ++ [Octaves (py_int n)]) /\
      labels' = match labels with LList l => LList (l ++ [Octaves (py_int n)]) | _ => labels end
  end.
Definition is_tuple (labels : labels_arg) : bool := match labels with LTuple _ => true | _ => false end.

(** ** directions on a map *)
Definition same_direction (a b : R) : Prop := cos a = cos b /\ sin a = sin b.
(** the magnitude [x], in dB or not *)
Definition drawn (todb : bool) (x : R) : val :=
  if todb then (if Req_EM_T x 0 then NInf else Fin (decibel (Rabs x))) else Fin x.
(** [m] is the largest of [l] *)
Definition largest (m : R) (l : list R) : Prop := In m l /\ forall x, In x l -> x <= m.
(** what [doa] is given: powers [p] with the largest [m], colours, opacities, a sampling rate *)
Definition doa_args (n : nat) (p : option (list R)) (m : R) (c alpha : option shade) (fs : option R) : Prop :=
  match p with Some p => length p = n /\ largest m p /\ 0 < m | None => True end /\
  match c with Some (SArr l) => length l = n | Some (SNum _) => False | None => True end /\
  match alpha with Some (SArr l) => length l = n | Some (SNum _) => False | None => True end /\
  match fs with Some f => 0 < f | None => True end.
Definition doa_size (p : option (list R)) (m size : R) (i : nat) : R :=
  match p with Some p => size * Rmax (1 / 100000000000000) (nth i p 0 / m) | None => size end.
(** without colours, the time of the sample in ms *)
Definition doa_color (c : option shade) (fs : option R) (i : nat) : R :=
  match c, fs with Some (SArr l), _ => nth i l 0 | _, Some f => 1000 * (INR i / f) | _, None => 1 end.
Definition doa_alpha (alpha : option shade) (i : nat) : R :=
  match alpha with Some (SArr l) => nth i l 0 | _ => 35 / 100 end.

(** ** RMS map *)
(** beam with modal weights [w] in direction (azi, zen), sample [t] *)
Definition beam (N : nat) (w : list R) (F : mat) (azi zen : R) (t : nat) : R :=
  rsum (N + 1) (fun n => nth n w 0 * rsum (2 * n + 1) (fun k =>
    sh_real n (Z.of_nat k - Z.of_nat n) azi zen * ent F (n * n + k) t)).
Definition root_mean_square (T : nat) (b : nat -> R) : R := sqrt (rsum T (fun t => b t ^ 2) / INR T).
(** maximum directivity weights *)
Definition weights_drawn (N : nat) (w_n : option (list R)) : list R :=
  match w_n with Some w => w | None => repeat (4 * PI / INR ((N + 1) ^ 2)) (N + 1) end.
(** the figure shows, at the directions of the design and at the poles, the RMS of
    the first [T] samples of the beams *)
Definition shows_rms (F : mat) (N T : nat) (w : list R) (todb : bool) (vp : list V3) (fig : rms_fig) : Prop :=
  length (rf_azi fig) = (length vp + 6)%nat /\ length (rf_zen fig) = (length vp + 6)%nat /\
  length (rf_rms fig) = (length vp + 6)%nat /\
  (forall i, (i < length vp)%nat -> 0 <= nth i (rf_zen fig) 0 <= PI /\
     aims (nth i vp (0, 0, 0)) (sph2cart (nth i (rf_azi fig) 0) (nth i (rf_zen fig) 0) 1)) /\
  (forall i, (length vp <= i < length vp + 6)%nat ->
     nth i (rf_zen fig) 0 = if Nat.ltb i (length vp + 3) then 0 else PI) /\
  (forall i, (i < length vp + 6)%nat ->
     nth i (rf_rms fig) NaN = drawn todb (root_mean_square T (beam N w F (nth i (rf_azi fig) 0) (nth i (rf_zen fig) 0)))).
(** the samples that count: all, or, of more than 2^16, whole blocks of 2^16 *)
Definition samples_used (S : nat) : nat := if Nat.leb S (2 ^ 16) then S else (S / 2 ^ 16 * 2 ^ 16)%nat.
(** coefficients of a plane wave from (azi, zen) with the signal [s] *)
Definition plane_wave (N S : nat) (azi zen : R) (s : nat -> R) (F : mat) : Prop :=
  nr F = ((N + 1) ^ 2)%nat /\ nc F = S /\
  forall n k t, (n <= N)%nat -> (k < 2 * n + 1)%nat -> (t < S)%nat -> ent F (n * n + k) t = s t * sh_real n (Z.of_nat k - Z.of_nat n) azi zen.
(** the calls so far: whether in dB, and whether with the default limits *)
Definition call : Type := (mat * bool * option (list R) * Z * clim_arg)%type.
Fixpoint calls (ndesign : Z -> res (list V3)) (dflt : option R * option R) (l : list call) : option R * option R :=
  match l with
  | [] => dflt
  | (F, todb, w, n, c) :: t => calls ndesign (snd (fst (sh_rms_map ndesign dflt F todb w n c))) t
  end.
(** a call that draws a figure *)
Definition drew (ndesign : Z -> res (list V3)) (c : call) : bool :=
  match c with (F, todb, w, n, cl) => match fst (fst (sh_rms_map ndesign (None, None) F todb w n cl)) with Ok (Some _) => true | _ => false end end.
(** the lower limit of the colours: 0 unless in dB *)
Definition clim_low (todb : bool) (lo : option R) : option R := match lo with Some x => Some x | None => if todb then None else Some 0 end.

(** ** decoder performance *)
(** a direction of the grid *)
Definition grid_dir (q : R * R) : V3 := sph2cart (fst q) (snd q) 1.
(** loudspeaker positions and distances as a setup stores them, none at the origin *)
Definition ls_ok (h : hull) : Prop :=
  h_d h = map norm3 (h_points h) /\ forall p, In p (h_points h) -> p <> (0, 0, 0).
(** direction and share of energy of loudspeaker [l], its gain [g] freed of the
    compensation of its distance *)
Definition ls_dir (h : hull) (l : nat) : V3 :=
  let p := nth l (h_points h) (0, 0, 0) in scal3 (/ norm3 p) p.
Definition at_listener (h : hull) (g : list R) (l : nat) : R := nth l g 0 / Rpower (norm3 (nth l (h_points h) (0, 0, 0))) (h_a h).
Definition energy_at (h : hull) (g : list R) : R := rsum (length (h_points h)) (fun l => at_listener h g l ^ 2).
(** the energy vector *)
Definition energy_vector (h : hull) (g : list R) : V3 :=
  (rsum (length (h_points h)) (fun l => at_listener h g l ^ 2 * vx (ls_dir h l)) / energy_at h g,
   rsum (length (h_points h)) (fun l => at_listener h g l ^ 2 * vy (ls_dir h l)) / energy_at h g,
   rsum (length (h_points h)) (fun l => at_listener h g l ^ 2 * vz (ls_dir h l)) / energy_at h g).
Definition degrees (x : R) : R := x * 180 / PI.

(** ** hulls *)
Definition faces_of (h : hull) (simplices : option (list face)) : list face := match simplices with Some l => l | None => h_simplices h end.

(** ** bars *)
(** cell [l] of row [r] stands at its group plus its place in the group *)
Definition bar_tick (num_groups r : nat) : R :=
  INR (r / num_groups) + (if Nat.eqb num_groups 1 then - (1 / 4) else - (1 / 4) + INR (r mod num_groups) * (1 / 2 / INR (num_groups - 1))).
(** [k] whole steps fit into [full] *)
Definition whole_steps (full step : R) (k : nat) : Prop := INR k * step <= full < (INR k + 1) * step.
