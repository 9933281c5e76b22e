(** Specifications for modal weights: beams by their response over the angle to
    the steering direction. *)
From Verif Require Import Base M_sph.
Open Scope R_scope.

(** [D t] is the response at angle [t] of the beam with modal weights [c], as
    sph.bandlimited_dirac evaluates it *)
Definition beam (c : list R) (D : R -> R) : Prop := forall t, bandlimited_dirac (length c - 1) [t] (Some c) = Ok [D t].
(** integral over the sphere of a function of the angle to the axis *)
Definition sphere_integral (f : R -> R) (v : R) : Prop :=
  exists F, (forall t, derivable_pt_lim F t (2 * PI * f t * sin t)) /\ v = F PI - F 0.
(** energy of a beam and the component of its energy vector along its axis *)
Definition beam_energy (c : list R) (e : R) : Prop := exists D, beam c D /\ sphere_integral (fun t => D t ^ 2) e.
Definition beam_moment (c : list R) (m : R) : Prop := exists D, beam c D /\ sphere_integral (fun t => D t ^ 2 * cos t) m.
