(** Properties of parsa.py, part 3: the post equalizations (C40, C41). *)
From Coq Require Import Lra Lia.
From Verif Require Import Base M_utils M_sig M_process M_decoder M_decoder3 M_parsa2 M_parsa3
  S_process S_decoder3 S_parsa2 S_parsa3 P_parsa13 P_parsa14 P_parsa15 P_parsa16 P_parsa18 P_parsa19 X_parsa3.
Open Scope R_scope.


(** ** C40 *)

Theorem C40_output : forall firwin2 ls p fs d a soft bs,
  (32000 <= fs <= 1000000)%Z -> (forall b, (b < 10)%nat -> band_size fs b (bs b)) ->
  (bs 0 mod 4 = 0)%nat -> (forall nt g, Nat.odd nt = true -> (2 <= length g)%nat -> exists h, firwin2 nt g = Ok h /\ length h = nt) ->
  length p = nc ls -> length d = nr ls -> (forall l, (l < nr ls)%nat -> 0 < nth l d 0) ->
  exists gs irs fuel0, length gs = 10%nat /\ (forall b, (b < 10)%nat -> length (nth b gs []) = (2 ^ 16)%nat) /\
    (forall j, (j < 2 ^ 16)%nat -> (forall b, (b < 10)%nat -> 0 <= nth j (nth b gs []) 0 <= 1) /\
       rsum 10 (fun b => nth j (nth b gs []) 0) = 1) /\
    (forall b, (b < 10)%nat -> firwin2 (bs 0 / 2 - 1)%nat (nth b gs []) = Ok (irs b) /\ length (irs b) = (bs 0 / 2 - 1)%nat) /\
    forall fuel, (fuel0 <= fuel)%nat ->
      (exists ff, frac_octave_filterbank fuel 1 (2 ^ 16) fs (625 / 10) (Some 16000) Amplitude (5 / 10) 3 = Ok (gs, ff)) /\
      exists out warned, sdm_post_equalization firwin2 fuel ls p fs d a soft = Ok (Some (out, warned)) /\
        nr out = nr ls /\ nc out = nc ls /\
        let F := eq_out irs 10 bs soft (bs 0%nat) (nc ls) (nr ls) (fun l => / Rpower (nth l d 0) a) p
                   (fun l => map (ent ls l) (seq 0 (nc ls))) in
        (forall l u, (l < nr ls)%nat -> (u < nc ls)%nat -> ent out l u = F l (Z.of_nat u)) /\
        (warned = true <-> exists l v, (l < nr ls)%nat /\ (- 2 * Z.of_nat (bs 0%nat) <= v <= 0)%Z /\ 1 / 10 ^ 4 < Rabs (F l v)).
Proof. exact post_eq_final. Qed.
Print Assumptions C40_output.
Theorem C40_windows : forall h pad S v,
  (1 <= h)%nat -> (2 * h <= pad)%nat -> (0 <= v < Z.of_nat S)%Z -> window_sum (2 * h) pad S v = 1.
Proof. exact windows_one. Qed.
Print Assumptions C40_windows.
Theorem C40_taps : forall firwin2 ls p fs d a soft bs,
  (32000 <= fs <= 1000000)%Z -> (forall b, (b < 10)%nat -> band_size fs b (bs b)) ->
  (bs 0 mod 4 <> 0)%nat -> exists fuel0, forall fuel, (fuel0 <= fuel)%nat ->
  sdm_post_equalization firwin2 fuel ls p fs d a soft = Err AssertionError.
Proof. exact post_eq_taps. Qed.
Print Assumptions C40_taps.
Theorem C40_rates : forall fs,
  fs = 44100%Z \/ fs = 48000%Z -> forall bs, (forall b, (b < 10)%nat -> band_size fs b (bs b)) -> (bs 0 mod 4 = 0)%nat.
Proof. exact rates_ok. Qed.
Print Assumptions C40_rates.
Theorem C40_sizes_exist : forall fs,
  (0 < fs)%Z -> exists bs : nat -> nat, forall b, band_size fs b (bs b).
Proof. exact rate_exists. Qed.
Print Assumptions C40_sizes_exist.
Theorem C40_96k_refuted : forall firwin2 ls p d a soft,
  exists fuel0, forall fuel, (fuel0 <= fuel)%nat ->
  sdm_post_equalization firwin2 fuel ls p 96000 d a soft = Err AssertionError.
Proof. exact rate_96k. Qed.
Print Assumptions C40_96k_refuted.
Theorem C40_identity : forall firwin2 ls p fs d a soft bs l0,
  (32000 <= fs <= 1000000)%Z -> (forall b, (b < 10)%nat -> band_size fs b (bs b)) ->
  (bs 0 mod 4 = 0)%nat -> linear_design firwin2 ->
  length p = nc ls -> length d = nr ls -> (forall l, (l < nr ls)%nat -> 0 < nth l d 0) ->
  (l0 < nr ls)%nat -> (forall u, (u < nc ls)%nat -> ent ls l0 u = Rpower (nth l0 d 0) a * nth u p 0) ->
  (forall l u, (l < nr ls)%nat -> l <> l0 -> ent ls l u = 0) ->
  (forall b s k, (b < 10)%nat -> let m := magnitude (2 * bs b - 1) (bs b) (block (bs b) p s) k in m = 0 \/ 1 / 10 ^ 9 <= m) ->
  exists fuel0, forall fuel, (fuel0 <= fuel)%nat ->
    exists out warned, sdm_post_equalization firwin2 fuel ls p fs d a soft = Ok (Some (out, warned)) /\
      nr out = nr ls /\ nc out = nc ls /\ forall l u, (l < nr ls)%nat -> (u < nc ls)%nat -> ent out l u = ent ls l u.
Proof. exact post_eq_identity. Qed.
Print Assumptions C40_identity.
Theorem C40_boost : forall b bs L att p x s k,
  0 <= eq_gain b true bs L att p x s k < 2.
Proof. exact boost_limited. Qed.
Print Assumptions C40_boost.
Theorem C40_tail_unnoticed_refuted : exists firwin2 ls p d bs fuel0,
  (forall nt g, Nat.odd nt = true -> (2 <= length g)%nat -> exists h, firwin2 nt g = Ok h /\ length h = nt) /\
  (forall b, (b < 10)%nat -> band_size 48000 b (bs b)) /\
  forall fuel, (fuel0 <= fuel)%nat -> exists gs ff out irs,
    frac_octave_filterbank fuel 1 (2 ^ 16) 48000 (625 / 10) (Some 16000) Amplitude (5 / 10) 3 = Ok (gs, ff) /\
    (forall b, (b < 10)%nat -> firwin2 (bs 0 / 2 - 1)%nat (nth b gs []) = Ok (irs b)) /\
    sdm_post_equalization firwin2 fuel ls p 48000 d 1 true = Ok (Some (out, false)) /\
    1 / 2 <= eq_out irs 10 bs true (bs 0%nat) (nc ls) (nr ls) (fun l => / Rpower (nth l d 0) 1) p
               (fun l => map (ent ls l) (seq 0 (nc ls))) 0 (Z.of_nat (nc ls)).
Proof. exact f_tail. Qed.
Print Assumptions C40_tail_unnoticed_refuted.
Theorem C40_false_alarm_refuted : exists firwin2 ls p d bs fuel0, linear_design firwin2 /\
  (forall b, (b < 10)%nat -> band_size 48000 b (bs b)) /\
  forall fuel, (fuel0 <= fuel)%nat -> exists gs ff out irs,
    frac_octave_filterbank fuel 1 (2 ^ 16) 48000 (625 / 10) (Some 16000) Amplitude (5 / 10) 3 = Ok (gs, ff) /\
    (forall b, (b < 10)%nat -> firwin2 (bs 0 / 2 - 1)%nat (nth b gs []) = Ok (irs b)) /\
    sdm_post_equalization firwin2 fuel ls p 48000 d 1 true = Ok (Some (out, true)) /\
    forall l v, (l < nr ls)%nat -> (v < 0 \/ Z.of_nat (nc ls) <= v)%Z ->
      eq_out irs 10 bs true (bs 0%nat) (nc ls) (nr ls) (fun l => / Rpower (nth l d 0) 1) p
               (fun l => map (ent ls l) (seq 0 (nc ls))) l v = 0.
Proof. exact f_alarm. Qed.
Print Assumptions C40_false_alarm_refuted.
Example C40_nonvacuous : exists bs A, (forall b, (b < 10)%nat -> band_size 48000 b (bs b)) /\ (bs 0 mod 4 = 0)%nat /\ 0 < A /\ linear_design middle_design /\
  (forall b s k, (b < 10)%nat -> let m := magnitude (2 * bs b - 1) (bs b) (block (bs b) (loud_p A) s) k in m = 0 \/ 1 / 10 ^ 9 <= m) /\
  exists fuel out warned, sdm_post_equalization middle_design fuel (loud_mat A) (loud_p A) 48000 [1; 2] 1 true = Ok (Some (out, warned)) /\
    ent out 0 0 = A /\ ent out 0 1 = 0 /\ ent out 1 0 = 0.
Proof. exact ex_post_eq. Qed.

(** ** C41 *)

Theorem C41_output : forall firwin2 ls p fs d a bs k P order,
  (32000 <= fs)%Z -> transitions (bs / 2 + 1) (IZR fs) 1 (625 / 10) (5 / 10) 9 k P ->
  separated (bs / 2 + 1) 9 k P -> length p = nc ls -> Nat.even bs = true -> (2 <= bs)%nat ->
  (forall nt g, Nat.odd nt = true -> (2 <= length g)%nat -> exists h, firwin2 nt g = Ok h /\ length h = nt) ->
  length d = nr ls -> (forall l, (l < nr ls)%nat -> 0 < nth l d 0) -> (1 <= order)%nat ->
  let att l := / Rpower (nth l d 0) a in let x l := map (ent ls l) (seq 0 (nc ls)) in
  exists gs irs fuel0, length gs = 10%nat /\ (forall b, (b < 10)%nat -> length (nth b gs []) = (bs / 2 + 1)%nat) /\
    (forall j, (j < bs / 2 + 1)%nat -> (forall b, (b < 10)%nat -> 0 <= nth j (nth b gs []) 0 <= 1) /\
       rsum 10 (fun b => nth j (nth b gs []) 0 ^ 2) = 1) /\
    (forall b, (b < 10)%nat -> firwin2 (bs + 1)%nat (nth b gs []) = Ok (irs b) /\ length (irs b) = (bs + 1)%nat) /\
    forall fuel, (fuel0 <= fuel)%nat ->
      (exists ff, frac_octave_filterbank fuel 1 (bs / 2 + 1) fs (625 / 10) (Some 16000) Energy (5 / 10) 3 = Ok (gs, ff)) /\
      exists out Sm warned, sdm_post_equalization2 firwin2 fuel ls p fs d a bs (Z.of_nat order) =
          Ok (Some (out, map (fun i => map (fun b => Sm b (i + 2)%nat) (seq 0 10)) (seq 0 (blocks bs bs (nc ls) - 4)), warned)) /\
        nr out = nr ls /\ nc out = nc ls /\
        (forall b, (b < 10)%nat -> smoothing (blocks bs bs (nc ls)) order (fun i => eq2_gain b (nth b gs []) bs (nr ls) att p x (block_start bs bs i)) (Sm b) /\
           forall i, (i < blocks bs bs (nc ls))%nat -> 0 <= Sm b i <= 1) /\
        let F := eq2_out 10 (fun b => nth b gs []) irs bs (nc ls) (nr ls) att p x in
        (forall l u, (l < nr ls)%nat -> (u < nc ls)%nat -> ent out l u = F l (Z.of_nat u)) /\
        (warned = true <-> 1 / 100 < rsum (nr ls) (fun l => rsum (2 * bs + 1) (fun j => Rabs (F l (Z.of_nat j - 2 * Z.of_nat bs)%Z)))).
Proof. exact f2_output. Qed.
Print Assumptions C41_output.
Theorem C41_identity : forall firwin2 ls p fs d a bs k P order l0,
  (32000 <= fs)%Z -> transitions (bs / 2 + 1) (IZR fs) 1 (625 / 10) (5 / 10) 9 k P ->
  separated (bs / 2 + 1) 9 k P -> length p = nc ls -> Nat.even bs = true -> (2 <= bs)%nat ->
  (forall nt g, Nat.odd nt = true -> (2 <= length g)%nat -> exists h, firwin2 nt g = Ok h /\ length h = nt) ->
  length d = nr ls -> (forall l, (l < nr ls)%nat -> 0 < nth l d 0) -> (1 <= order)%nat ->
  (l0 < nr ls)%nat -> (forall u, (u < nc ls)%nat -> ent ls l0 u = Rpower (nth l0 d 0) a * nth u p 0) ->
  (forall l u, (l < nr ls)%nat -> l <> l0 -> ent ls l u = 0) ->
  exists gs irs fuel0, (forall b, (b < 10)%nat -> firwin2 (bs + 1)%nat (nth b gs []) = Ok (irs b)) /\
    forall fuel, (fuel0 <= fuel)%nat ->
    (exists ff, frac_octave_filterbank fuel 1 (bs / 2 + 1) fs (625 / 10) (Some 16000) Energy (5 / 10) 3 = Ok (gs, ff)) /\
    exists out warned, sdm_post_equalization2 firwin2 fuel ls p fs d a bs (Z.of_nat order) =
        Ok (Some (out, repeat (repeat 1 10) (blocks bs bs (nc ls) - 4), warned)) /\
      nr out = nr ls /\ nc out = nc ls /\
      (forall l u, (l < nr ls)%nat -> (u < nc ls)%nat ->
         ent out l u = rsum 10 (fun b => twice (irs b) (sig_at (map (ent ls l) (seq 0 (nc ls)))) (Z.of_nat u))) /\
      (power_complementary 10 (bs + 1) irs -> forall l u, (l < nr ls)%nat -> (u < nc ls)%nat -> ent out l u = ent ls l u).
Proof. exact post_eq2_identity. Qed.
Print Assumptions C41_identity.
Theorem C41_no_boost : forall b g bs L att p x s,
  0 <= eq2_gain b g bs L att p x s <= 1.
Proof. exact eq2_gain_range. Qed.
Print Assumptions C41_no_boost.
Theorem C41_smoothing_weights : forall k,
  (1 <= k)%nat -> (forall m, 0 <= fall k m) /\ rsum k (fall k) = 1.
Proof. exact fall_convex. Qed.
Print Assumptions C41_smoothing_weights.
Theorem C41_odd_blocks_rejected : forall firwin2 ls p fs d a bs k P order,
  (32000 <= fs)%Z -> transitions (bs / 2 + 1) (IZR fs) 1 (625 / 10) (5 / 10) 9 k P ->
  separated (bs / 2 + 1) 9 k P -> length p = nc ls -> Nat.odd bs = true -> exists fuel0, forall fuel, (fuel0 <= fuel)%nat ->
  sdm_post_equalization2 firwin2 fuel ls p fs d a bs order = Err AssertionError.
Proof. exact f2_odd. Qed.
Print Assumptions C41_odd_blocks_rejected.
Theorem C41_order_rejected : forall firwin2 ls p fs d a bs k P order,
  (32000 <= fs)%Z -> transitions (bs / 2 + 1) (IZR fs) 1 (625 / 10) (5 / 10) 9 k P ->
  separated (bs / 2 + 1) 9 k P -> length p = nc ls -> Nat.even bs = true -> (2 <= bs)%nat ->
  (forall nt g, Nat.odd nt = true -> (2 <= length g)%nat -> exists h, firwin2 nt g = Ok h /\ length h = nt) ->
  length d = nr ls -> (forall l, (l < nr ls)%nat -> 0 < nth l d 0) ->
  (order <= 0)%Z -> exists fuel0, forall fuel, (fuel0 <= fuel)%nat ->
  sdm_post_equalization2 firwin2 fuel ls p fs d a bs order = Err IndexError.
Proof. exact f2_order. Qed.
Print Assumptions C41_order_rejected.
Example C41_nonvacuous : transitions (4096 / 2 + 1) 48000 1 (625 / 10) (5 / 10) 9 line half_width /\ separated (4096 / 2 + 1) 9 line half_width /\
  exists fuel out warned, sdm_post_equalization2 middle_design fuel (loud_mat 1) (loud_p 1) 48000 [1; 2] 1 4096 5 =
      Ok (Some (out, repeat (repeat 1 10) (blocks 4096 4096 4 - 4), warned)) /\
    ent out 0 0 = 1 /\ ent out 0 1 = 0 /\ ent out 1 0 = 0.
Proof. exact ex_post_eq2. Qed.
