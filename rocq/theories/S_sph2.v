(** Specifications for scattering on a sphere. *)
From Verif Require Import Base M_sph M_sph2.
Open Scope R_scope.

(** [f] solves the spherical Bessel equation of order [n] away from 0, with
    derivative [d] *)
Definition solves_bessel (n : nat) (f d : R -> R) : Prop :=
  exists dd : R -> R, forall z, z <> 0 ->
    derivable_pt_lim f z (d z) /\ derivable_pt_lim d z (dd z) /\
    z ^ 2 * dd z + 2 * z * d z + (z ^ 2 - INR n * (INR n + 1)) * f z = 0.
(** 1 3 5 ... (2n+1) *)
Fixpoint odds (n : nat) : R := match n with O => 1 | S m => INR (2 * m + 3) * odds m end.
(** the number, where there is one *)
Definition num (o : option R) : R := match o with Some x => x | None => 0 end.
(** [b] is the amplitude at [kr] of the order-[n] part of a plane wave plus an
    outgoing wave whose amplitude [a] makes the radial velocity vanish at [kr]:
    b = 4 pi i^n (j_n + a (j_n - i y_n)) *)
Definition rigid_scatter (n : nat) (j y : R -> R) (kr : R) (b : C2) : Prop :=
  exists a : C2,
    let re z := j z + (fst a * j z + snd a * y z) in
    let im z := snd a * j z - fst a * y z in
    derivable_pt_lim re kr 0 /\ derivable_pt_lim im kr 0 /\
    b = cmul (cscal (4 * PI) (cos (INR n * (PI / 2)), sin (INR n * (PI / 2)))) (re kr, im kr).
(** squared size of the order-[n] amplitude on a rigid sphere, over (4 pi)^2:
    1 / (kr^4 |h_n'|^2), for the derivatives [j'], [y'] at [kr] *)
Definition scatter_power (jd yd : R) (kr : R) : R := 1 / (kr ^ 4 * (jd ^ 2 + yd ^ 2)).
(** sum of the powers of orders 0 ... N, weighted *)
Definition order_sum (N : nat) (w p : nat -> R) : R := rsum (S N) (fun n => w n * (2 * INR n + 1) * p n).
(** the diffuse field pressure of orders 0 ... N at one kr; no number at 0 *)
Definition diffuse_pressure (N : nat) (w p : nat -> R) (kr : R) : option R :=
  if Req_EM_T kr 0 then None else if Rlt_dec (order_sum N w p) 0 then None else Some (sqrt (order_sum N w p)).
(** the scatter power of the rigid sphere *)
Definition sphere_power (kr : R) (n : nat) : R := scatter_power (spherical_jn n kr true) (num (spherical_yn n kr true)) kr.
(** weights given or all ones *)
Definition weight (w : option (list R)) (n : nat) : R := match w with Some w => nth n w 0 | None => 1 end.
Definition enough (N : nat) (w : option (list R)) : Prop := match w with Some w => (N < length w)%nat | None => True end.
(** frequencies in Hz to wave number times radius, speed of sound 343 m/s *)
Definition krs (f : list R) (r_0 : R) : list R := map (fun x => 2 * PI * x / 343 * r_0) f.
(** [m] is the smallest order not below the last kr *)
Definition full_order (f : list R) (r_0 : R) (m : nat) : Prop := INR m - 1 < last (krs f r_0) 0 <= INR m.
(** [g] holds a number satisfying [P] *)
Definition is_num (g : option flt) (P : R -> Prop) : Prop := match g with Some (Num x) => P x | _ => False end.
