(** Specification vocabulary for RMS maps of complex signals. *)
From Verif Require Import Base M_utils M_sig M_process M_sph0 M_sph M_decoder M_plot S_utils S_sph S_decoder S_plot S_sph3 S_decoder2.
Open Scope R_scope.

(** the harmonics drawn with *)
Definition harmonic (ty : shtype) (n : nat) (m : Z) (azi zen : R) : C2 :=
  match ty with ShComplex => sph_harm m n azi zen | _ => (sh_real n m azi zen, 0) end.
(** which ones: as asked for, otherwise complex ones for complex arrays *)
Definition type_drawn (cplx : bool) (sh_type : option shtype) : shtype :=
  match sh_type, cplx with Some t, _ => t | None, true => ShComplex | None, false => ShReal end.
(** beam with modal weights [w] in direction (azi, zen), sample [t] *)
Definition cbeam (ty : shtype) (N : nat) (w : list R) (F : cmat) (azi zen : R) (t : nat) : C2 :=
  csum (N + 1) (fun n => cscal (nth n w 0) (csum (2 * n + 1) (fun k =>
    cmul (harmonic ty n (Z.of_nat k - Z.of_nat n) azi zen) (cent F (n * n + k)%nat t)))).
(** root of the mean of the squared moduli *)
Definition croot_mean_square (T : nat) (b : nat -> C2) : R := sqrt (rsum T (fun t => cnorm2 (b t)) / INR T).
(** the figure shows, at the directions of the design and at the poles, the RMS of
    the first [T] samples of the beams *)
Definition cshows_rms (ty : shtype) (F : cmat) (N T : nat) (w : list R) (todb : bool) (vp : list V3) (fig : rms_fig) : Prop :=
  length (rf_azi fig) = (length vp + 6)%nat /\ length (rf_zen fig) = (length vp + 6)%nat /\
  length (rf_rms fig) = (length vp + 6)%nat /\
  (forall i, (i < length vp)%nat -> 0 <= nth i (rf_zen fig) 0 <= PI /\
     aims (nth i vp (0, 0, 0)) (sph2cart (nth i (rf_azi fig) 0) (nth i (rf_zen fig) 0) 1)) /\
  (forall i, (length vp <= i < length vp + 6)%nat ->
     nth i (rf_zen fig) 0 = if Nat.ltb i (length vp + 3) then 0 else PI) /\
  (forall i, (i < length vp + 6)%nat ->
     nth i (rf_rms fig) NaN = drawn todb (croot_mean_square T (cbeam ty N w F (nth i (rf_azi fig) 0) (nth i (rf_zen fig) 0)))).
(** coefficients of a plane wave from (azi, zen) with the signal [s]: the conjugate
    harmonics, as sph.src_to_sh encodes *)
Definition cplane_wave (ty : shtype) (N S : nat) (azi zen : R) (s : nat -> C2) (F : cmat) : Prop :=
  cnr F = ((N + 1) ^ 2)%nat /\ cnc F = S /\
  forall n k t, (n <= N)%nat -> (k < 2 * n + 1)%nat -> (t < S)%nat ->
    cent F (n * n + k)%nat t = cmul (s t) (cconj (harmonic ty n (Z.of_nat k - Z.of_nat n) azi zen)).
