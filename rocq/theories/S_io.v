(** Specifications for the properties of io.py. *)
From Coq Require Import String.
From Verif Require Import Base M_utils M_sig M_process M_decoder M_decoder2 M_io.
Open Scope R_scope.

(** * Audio files *)
(** [chans] are the channels of the file [a], each from its first to its last sample *)
Definition holds (a : audio) (chans : list (list R)) : Prop :=
  length chans = nc (au_data a) /\
  forall k, (k < nc (au_data a))%nat ->
    length (nth k chans []) = nr (au_data a) /\
    forall i, (i < nr (au_data a))%nat -> nth i (nth k chans []) 0 = ent (au_data a) i k.
(** the signal object for given channels: one channel makes a MonoSignal *)
Definition signal_of (rate : Z) (chans : list (list R)) : sigobj :=
  match chans with
  | [x] => SMono (Mono x rate)
  | _ => SMulti (Multi (map (fun x => Mono x rate) chans) rate (length chans))
  end.
(** some sample is larger than 1 *)
Definition clips (chans : list (list R)) : Prop := exists x v, In x chans /\ In v x /\ 1 < Rabs v.

(** * The dummy HRIRs *)
(** weight of an ear for a direction: side 1 is left, -1 right *)
Definition ear (side azi zen : R) : R := (1 + side * sin azi) / 2 * sin zen.
(** [row] has [n] taps and is a single pulse of height [v] at tap [t] *)
Definition one_pulse (n : nat) (row : list R) (t : nat) (v : R) : Prop :=
  length row = n /\ (t < n)%nat /\ nth t row 0 = v /\ forall i, (i < n)%nat -> i <> t -> nth i row 0 = 0.
(** the tap that a delay of up to 0.75 ms, ten samples later, falls on *)
Definition delay_tap (fs : Z) (a : R) (t : nat) : Prop :=
  INR t <= 10 + a * (75 / 100000) * IZR fs < INR t + 1.

(** * BRIR files for the SoundScape Renderer *)
(** a file with 720 channels: left and right response of the head angle [g] degrees
    are channels 2g and 2g+1, all multiplied with one factor that is at most 1 and no
    smaller than necessary to keep every sample within [-1, 1].  [st] is what storing
    does to a sample. *)
Definition brir_file (st : R -> R) (fs : Z) (w : nat) (ir : nat -> list R * list R) (a : audio) : Prop :=
  au_fs a = fs /\ nc (au_data a) = 720%nat /\ nr (au_data a) = w /\
  exists c, 0 < c <= 1 /\
    (forall g i, (g < 360)%nat -> (i < w)%nat ->
       ent (au_data a) i (2 * g) = st (c * nth i (fst (ir g)) 0) /\
       ent (au_data a) i (2 * g + 1) = st (c * nth i (snd (ir g)) 0)) /\
    (forall g i, (g < 360)%nat -> (i < w)%nat ->
       Rabs (c * nth i (fst (ir g)) 0) <= 1 /\ Rabs (c * nth i (snd (ir g)) 0) <= 1) /\
    (c = 1 \/ exists g i, (g < 360)%nat /\ (i < w)%nat /\
       (Rabs (c * nth i (fst (ir g)) 0) = 1 \/ Rabs (c * nth i (snd (ir g)) 0) = 1)).
(** an optional argument and what None stands for *)
Definition given {A} (o : option A) (dflt : res A) (x : A) : Prop :=
  o = Some x \/ o = None /\ dflt = Ok x.
(** the disk [d'] is [d] with one file written *)
Definition only_written (d d' : disk) (file : string) (a : audio) : Prop :=
  d' file = Some a /\ forall n, n <> file -> d' n = d n.
(** the head turned to the left by [g] degrees *)
Definition turned (g : nat) : R * R := (INR g * (PI / 180), 0).
(** shape of a vector of [n] numbers, as MATLAB stores it or not *)
Definition vector_shape (n : nat) (s : list nat) : Prop := s = [n] \/ s = [1; n]%nat \/ s = [n; 1]%nat.

(** * Loudspeaker layouts *)
(** the point at azimuth [azi], elevation [ele] (in degrees) and distance [r] *)
Definition place (azi ele r : R) : V3 :=
  (r * cos (ele * (PI / 180)) * cos (azi * (PI / 180)), r * cos (ele * (PI / 180)) * sin (azi * (PI / 180)), r * sin (ele * (PI / 180))).
(** [y] is a multiple of 1/100 closest to [x] *)
Definition rounded (x y : R) : Prop := (exists k : Z, y = IZR k / 100) /\ Rabs (y - x) <= 1 / 200.
Definition dist3 (p q : V3) : R := norm3 (sub3 p q).
(** the file entry [e] puts its loudspeaker at [p] *)
Definition at_position (e : entry) (p : V3) : Prop :=
  exists a el r, j_azi e = Some a /\ j_ele e = Some el /\ j_rad e = Some r /\ p = place (snd a) (snd el) (snd r).
(** flags and gains of the entries of a file; a key missing in one entry is ignored in
    all of them *)
Definition flags_of (file : list entry) (flags : list bool) : Prop :=
  Forall2 (fun e b => j_imag e = Some b) file flags \/
  (exists e, In e file /\ j_imag e = None) /\ flags = map (fun _ => false) file.
Definition gains_of (file : list entry) (gains : list R) : Prop :=
  Forall2 (fun e g => exists k, j_gain e = Some (k, g)) file gains \/
  (exists e, In e file /\ j_gain e = None) /\ gains = map (fun _ => 1) file.
(** the elements of [l] whose flag is [b], in their order *)
Definition chosen {A} (b : bool) (flags : list bool) (l : list A) : list A :=
  map snd (filter (fun q => Bool.eqb (fst q) b) (combine flags l)).
(** loudspeaker [i] of a hull is an imaginary one *)
Definition imaginary (h : hull) (i : nat) : Prop := exists l, h_imag h = Some l /\ In i l.
(** the entry [e] describes loudspeaker [i] at [p], with angles and distance rounded to
    two decimals; its gain is [g] unless it is imaginary *)
Definition describes (h : hull) (gains : list R) (i : nat) (p : V3) (e : entry) : Prop :=
  exists azi ele azi' ele' r' b g, p = place azi ele (norm3 p) /\ 0 <= azi < 360 /\ -90 <= ele <= 90 /\
    rounded azi azi' /\ rounded ele ele' /\ rounded (norm3 p) r' /\
    e = Entry (Some (false, azi')) (Some (false, ele')) (Some (false, r')) (Some b) (Some (Z.of_nat i + 1)%Z) (Some (false, g)) /\
    (b = true <-> imaginary h i) /\ (b = true -> g = 0) /\ (b = false -> nth_error gains i = Some g).
(** [n] real loudspeakers followed by [m] imaginary ones *)
Definition split_hull (h : hull) (n m : nat) : Prop :=
  length (h_points h) = (n + m)%nat /\ (h_imag h = Some (seq n m) \/ h_imag h = None /\ m = 0%nat).
(** angles and distance of an entry that come back unchanged from Cartesian coordinates *)
Definition stable (e : entry) : Prop :=
  exists a el r, j_azi e = Some (false, a) /\ j_ele e = Some (false, el) /\ j_rad e = Some (false, r) /\
    a < 360 /\ (-90 < el < 90 \/ a = 0) /\ 0 < r.
