(** The filters of the post equalizers and the gains of the filter bank (C117, C24). *)
From Verif Require Import Base M_utils M_sig M_process M_parsa3 M_firwin S_process S_parsa2 S_parsa3 S_firwin X_parsa3 P_firwin2 X_firwin.
Open Scope R_scope.

(** ** C24: every gain and every limit *)
Theorem C24_gains : forall n N_out fs f_low f_high mode overlap slope M k P,
  1 <= n -> (1 <= N_out)%nat -> (0 < fs)%Z -> 0 < f_low -> 0 <= overlap <= 1 / 2 ->
  band_count n f_low (match f_high with None => IZR (fs / 2) | Some f => Rmin f (IZR (fs / 2)) end) M ->
  transitions N_out (IZR fs) n f_low overlap M k P -> separated N_out M k P -> mode <> OtherMode ->
  exists fuel0, forall fuel, (fuel0 <= fuel)%nat -> exists g ff,
    frac_octave_filterbank fuel n N_out fs f_low f_high mode overlap slope = Ok (g, ff) /\
    length g = S M /\ length ff = S M /\ forall r, (r < S M)%nat -> nth r ff (0, 0, 0) = band_limit n f_low (IZR fs) M r /\ length (nth r g []) = N_out /\
    forall j, (j < N_out)%nat ->
      nth j (nth r g []) 0 = match mode with Amplitude => Rsqr (band_gain slope M k P r j) | _ => band_gain slope M k P r j end.
Proof. exact f_bank. Qed.
Print Assumptions C24_gains.
(** ** C117 *)
Theorem C117_design : forall nt g h,
  Nat.odd nt = true -> (2 <= length g)%nat -> firwin2 nt g = Ok h <-> windowed_design nt g h.
Proof. exact f_design. Qed.
Print Assumptions C117_design.
Theorem C117_symmetric : forall nt g h t,
  Nat.odd nt = true -> firwin2 nt g = Ok h -> (t < nt)%nat -> nth (nt - 1 - t) h 0 = nth t h 0.
Proof. exact f_symmetric. Qed.
Print Assumptions C117_symmetric.
Theorem C117_errors : forall nt g,
  (length g = 0%nat -> firwin2 nt g = Err IndexError) /\ (length g = 1%nat -> firwin2 nt g = Err ValueError) /\
  ((2 <= length g)%nat -> Nat.even nt = true -> nth (length g - 1) g 0 <> 0 -> firwin2 nt g = Err ValueError).
Proof. exact f_errors. Qed.
Print Assumptions C117_errors.
Theorem C117_linear : linear_design firwin2.
Proof. exact firwin2_linear. Qed.
Print Assumptions C117_linear.
Theorem C117_power : forall nb nt n gs irs,
  Nat.odd nt = true -> (2 <= n)%nat -> (forall b, (b < nb)%nat -> length (gs b) = n /\ firwin2 nt (gs b) = Ok (irs b)) ->
  (forall j, (j < n)%nat -> rsum nb (fun b => Rsqr (nth j (gs b) 0)) = 1) ->
  rsum nb (fun b => energy (irs b)) <= 1 /\
  ((n <= nt)%nat -> (exists j b, (j + 1 < n)%nat /\ (b < nb)%nat /\ nth j (gs b) 0 <> nth (j + 1) (gs b) 0) -> rsum nb (fun b => energy (irs b)) < 1).
Proof. exact f_power. Qed.
Print Assumptions C117_power.
Theorem C117_first_identity : forall ls p fs d a soft bs l0,
  (32000 <= fs <= 1000000)%Z -> (forall b, (b < 10)%nat -> band_size fs b (bs b)) ->
  (bs 0 mod 4 = 0)%nat ->
  length p = nc ls -> length d = nr ls -> (forall l, (l < nr ls)%nat -> 0 < nth l d 0) ->
  (l0 < nr ls)%nat -> (forall u, (u < nc ls)%nat -> ent ls l0 u = Rpower (nth l0 d 0) a * nth u p 0) ->
  (forall l u, (l < nr ls)%nat -> l <> l0 -> ent ls l u = 0) ->
  (forall b s k, (b < 10)%nat -> let m := magnitude (2 * bs b - 1) (bs b) (block (bs b) p s) k in m = 0 \/ 1 / 10 ^ 9 <= m) ->
  exists fuel0, forall fuel, (fuel0 <= fuel)%nat ->
    exists out warned, sdm_post_equalization firwin2 fuel ls p fs d a soft = Ok (Some (out, warned)) /\
      nr out = nr ls /\ nc out = nc ls /\ forall l u, (l < nr ls)%nat -> (u < nc ls)%nat -> ent out l u = ent ls l u.
Proof. exact f_identity. Qed.
Print Assumptions C117_first_identity.
Theorem C117_second_filters : forall fs bs k P,
  (32000 <= fs)%Z -> transitions (bs / 2 + 1) (IZR fs) 1 (625 / 10) (5 / 10) 9 k P ->
  separated (bs / 2 + 1) 9 k P -> Nat.even bs = true -> (2 <= bs)%nat ->
  exists gs irs fuel0, (forall fuel, (fuel0 <= fuel)%nat ->
      exists ff, frac_octave_filterbank fuel 1 (bs / 2 + 1) fs (625 / 10) (Some 16000) Energy (5 / 10) 3 = Ok (gs, ff)) /\
    (forall b, (b < 10)%nat -> windowed_design (bs + 1) (nth b gs []) (irs b) /\ firwin2 (bs + 1) (nth b gs []) = Ok (irs b)) /\
    rsum 10 (fun b => energy (irs b)) <= 1 /\
    ((1 <= k 8)%nat -> rsum 10 (fun b => energy (irs b)) < 1 /\ ~ power_complementary 10 (bs + 1) irs).
Proof. exact f_second. Qed.
Print Assumptions C117_second_filters.
Theorem C117_second_identity_refuted : forall ls p fs d a bs k P order l0 u0,
  (32000 <= fs)%Z -> transitions (bs / 2 + 1) (IZR fs) 1 (625 / 10) (5 / 10) 9 k P ->
  separated (bs / 2 + 1) 9 k P -> length p = nc ls -> Nat.even bs = true -> (2 <= bs)%nat ->
  length d = nr ls -> (forall l, (l < nr ls)%nat -> 0 < nth l d 0) -> (1 <= order)%nat ->
  (l0 < nr ls)%nat -> (forall u, (u < nc ls)%nat -> ent ls l0 u = Rpower (nth l0 d 0) a * nth u p 0) ->
  (forall l u, (l < nr ls)%nat -> l <> l0 -> ent ls l u = 0) ->
  (1 <= k 8)%nat -> (u0 < nc ls)%nat -> nth u0 p 0 <> 0 -> (forall u, u <> u0 -> nth u p 0 = 0) ->
  exists fuel0, forall fuel, (fuel0 <= fuel)%nat ->
    exists out warned, sdm_post_equalization2 firwin2 fuel ls p fs d a bs (Z.of_nat order) =
        Ok (Some (out, repeat (repeat 1 10) (blocks bs bs (nc ls) - 4), warned)) /\
      0 <= ent out l0 u0 / ent ls l0 u0 < 1.
Proof. exact f_loss. Qed.
Print Assumptions C117_second_identity_refuted.
Example C117_nonvacuous : exists a, firwin2 3 [1; 0] = Ok [a; 1 / 2; a] /\ 0 < a.
Proof. exact ex_three. Qed.
Example C117_nonvacuous_second : transitions (4096 / 2 + 1) 48000 1 (625 / 10) (5 / 10) 9 line half_width /\ separated (4096 / 2 + 1) 9 line half_width /\ (1 <= line 8)%nat /\
  exists fuel out warned, sdm_post_equalization2 firwin2 fuel (loud_mat 1) (loud_p 1) 48000 [1; 2] 1 4096 5 =
      Ok (Some (out, repeat (repeat 1 10) (blocks 4096 4096 4 - 4), warned)) /\ ent (loud_mat 1) 0 0 = 1 /\ 0 <= ent out 0 0 < 1.
Proof. exact ex_4096. Qed.
