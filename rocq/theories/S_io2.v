(** Specifications for SDM and SOFA files. *)
From Verif Require Import Base M_utils M_sig M_io.
Open Scope R_scope.

(** [v] without NaN: [d] where there was one *)
Definition filled (d : R) (v w : list fnum) : Prop :=
  Forall2 (fun x y => match x with Some r => y = Some r | None => y = Some d end) v w.
(** the values of the key [a], or of [b] if the file has no [a] *)
Definition stored {A} (a b : option A) (v : A) : Prop := a = Some v \/ a = None /\ b = Some v.
(** a SOFA file with [m] measurements of two ears, [t] taps each, in the given arrays *)
Definition sofa_file (s : sofa) (m t : nat) (ir pos : list R) (rate : R) : Prop :=
  sf_rate s = Some rate /\ sf_ir s = Some (Nd [m; 2%nat; t] ir) /\ sf_pos s = Some (Nd [m; 3%nat] pos).
(** azimuth, elevation (degrees) and distance of measurement [g] *)
Definition sofa_azi (pos : list R) (g : nat) : R := nth (g * 3) pos 0.
Definition sofa_ele (pos : list R) (g : nat) : R := nth (g * 3 + 1) pos 0.
Definition sofa_dist (pos : list R) (g : nat) : R := nth (g * 3 + 2) pos 0.
(** mean absolute deviation of the distances *)
Definition spread (m : nat) (pos : list R) : R :=
  rsum m (fun g => Rabs (sofa_dist pos g - rsum m (sofa_dist pos) / INR m)) / INR m.
