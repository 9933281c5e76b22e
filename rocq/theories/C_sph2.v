(** Properties of sph.py, part 2: scattering on a sphere (C81, C82). *)
From Coq Require Import Lra Lia.
From Verif Require Import Base M_utils M_sig M_process M_sph M_sph2 S_sph2 P_sph16 X_sph2.
Open Scope R_scope.


(** ** C81 *)

Theorem C81_bessel : forall (n : nat),
  solves_bessel n (fun z => spherical_jn n z false) (fun z => spherical_jn n z true) /\
  solves_bessel n (fun z => num (spherical_yn n z false)) (fun z => num (spherical_yn n z true)) /\
  (forall z, z <> 0 -> spherical_jn n z false * num (spherical_yn n z true) - spherical_jn n z true * num (spherical_yn n z false) = 1 / z ^ 2) /\
  (forall z, 0 <= z -> Rabs (spherical_jn n z false) <= z ^ n / odds n) /\
  (forall z, z <> 0 -> spherical_jn 0 z false = sin z / z /\ spherical_yn 0 z false = Some (- cos z / z)).
Proof. exact f_bessel. Qed.
Print Assumptions C81_bessel.
Theorem C81_hankel : forall n z d,
  z <> 0 -> spherical_hn2 n z d = Some (spherical_jn n z d, - num (spherical_yn n z d)).
Proof. exact f_hankel. Qed.
Print Assumptions C81_hankel.
Theorem C81_rigid : forall n kr b,
  kr <> 0 ->
  (mode_strength n kr Rigid = Ok (Some b) <-> rigid_scatter n (fun z => spherical_jn n z false) (fun z => num (spherical_yn n z false)) kr b).
Proof. exact f_rigid. Qed.
Print Assumptions C81_rigid.
Theorem C81_rigid_size : forall n kr,
  kr <> 0 ->
  exists b, mode_strength n kr Rigid = Ok (Some b) /\ fst b ^ 2 + snd b ^ 2 = (4 * PI) ^ 2 * sphere_power kr n /\ 0 < sphere_power kr n.
Proof. exact f_rigid_size. Qed.
Print Assumptions C81_rigid_size.
Theorem C81_order_zero : forall kr,
  kr <> 0 -> sphere_power kr 0 = 1 / (1 + kr ^ 2).
Proof. exact f_order0. Qed.
Print Assumptions C81_order_zero.
Theorem C81_rigid_at_zero : forall n,
  mode_strength n 0 Rigid = Ok None.
Proof. exact f_rigid_zero. Qed.
Print Assumptions C81_rigid_at_zero.
Theorem C81_open : forall n kr,
  exists b, mode_strength n kr Open = Ok (Some b) /\
    b = (4 * PI * cos (INR n * (PI / 2)) * spherical_jn n kr false, 4 * PI * sin (INR n * (PI / 2)) * spherical_jn n kr false).
Proof. exact f_open. Qed.
Print Assumptions C81_open.
Theorem C81_unknown : forall n kr,
  mode_strength n kr OtherSphere = Err ValueError.
Proof. exact f_other. Qed.
Print Assumptions C81_unknown.
Example C81_nonvacuous :
  exists b, mode_strength 0 1 Rigid = Ok (Some b) /\ fst b ^ 2 + snd b ^ 2 = 8 * PI ^ 2 /\
    rigid_scatter 0 (fun z => spherical_jn 0 z false) (fun z => num (spherical_yn 0 z false)) 1 b.
Proof. exact f_mode_ex. Qed.

(** ** C82 *)

Theorem C82_pressure : forall N kr w,
  enough N w ->
  pressure_on_sphere (Z.of_nat N) kr w = Ok (map (fun k => diffuse_pressure N (weight w) (sphere_power k) k) kr).
Proof. exact f_pressure. Qed.
Print Assumptions C82_pressure.
Theorem C82_weights_short : forall N kr w,
  (length w <= N)%nat -> pressure_on_sphere (Z.of_nat N) kr (Some w) = Err IndexError.
Proof. exact pressure_short. Qed.
Print Assumptions C82_weights_short.
Theorem C82_gain : forall N f r_0 w m,
  enough N w -> f <> [] -> full_order f r_0 m ->
  exists g, binaural_coloration_compensation N f r_0 w = Ok g /\ length g = length f /\
    forall i x, nth_error f i = Some x -> forall k, k = 2 * PI * x / 343 * r_0 ->
      (k = 0 -> nth_error g i = Some (Num 1)) /\
      (k <> 0 -> 0 < order_sum N (weight w) (sphere_power k) ->
        nth_error g i = Some (Num (sqrt (order_sum m (fun _ => 1) (sphere_power k) / order_sum N (weight w) (sphere_power k))))) /\
      (k <> 0 -> (forall n, (n <= N)%nat -> weight w n = 0) -> nth_error g i = Some Infinite).
Proof. exact f_gain. Qed.
Print Assumptions C82_gain.
Theorem C82_boost : forall N f r_0 w m g i,
  enough N w -> f <> [] -> full_order f r_0 m -> (N <= m)%nat ->
  (forall n, (n <= N)%nat -> 0 <= weight w n <= 1) -> (exists n, (n <= N)%nat /\ 0 < weight w n) ->
  binaural_coloration_compensation N f r_0 w = Ok g -> (i < length f)%nat -> is_num (nth_error g i) (fun x => 1 <= x).
Proof. exact f_boost. Qed.
Print Assumptions C82_boost.
Theorem C82_unity : forall f r_0 m g i,
  f <> [] -> full_order f r_0 m ->
  binaural_coloration_compensation m f r_0 None = Ok g -> (i < length f)%nat -> nth_error g i = Some (Num 1).
Proof. exact f_unity. Qed.
Print Assumptions C82_unity.
Theorem C82_cut : forall N f r_0 m g i x,
  f <> [] -> full_order f r_0 m -> (m < N)%nat ->
  binaural_coloration_compensation N f r_0 None = Ok g -> nth_error f i = Some x -> x <> 0 -> r_0 <> 0 -> is_num (nth_error g i) (fun y => 0 < y < 1).
Proof. exact f_cut. Qed.
Print Assumptions C82_cut.
Theorem C82_taper_short : forall N f r_0 w,
  f <> [] -> (exists m, full_order f r_0 m) -> (length w <= N)%nat -> binaural_coloration_compensation N f r_0 (Some w) = Err IndexError.
Proof. exact f_short. Qed.
Print Assumptions C82_taper_short.
Theorem C82_empty : forall N r_0 w,
  binaural_coloration_compensation N [] r_0 w = Err IndexError.
Proof. exact f_empty. Qed.
Print Assumptions C82_empty.
Theorem C82_unsorted_refuted : exists f g i x, nth_error f i = Some x /\ INR 1 < 2 * PI * x / 343 * (875 / 10000) /\
  binaural_coloration_compensation 1 f (875 / 10000) None = Ok g /\ is_num (nth_error g i) (fun y => 0 < y < 1).
Proof. exact f_unsorted_refuted. Qed.
Print Assumptions C82_unsorted_refuted.
Example C82_nonvacuous : exists g, binaural_coloration_compensation 0 [0; 343 / (2 * PI)] 1 None = Ok g /\ nth_error g 0 = Some (Num 1) /\
  is_num (nth_error g 1) (fun y => 1 <= y).
Proof. exact f_gain_ex. Qed.
