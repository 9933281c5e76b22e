(** Final forms and examples for firwin2 and the gains of the filter bank. *)
From Verif Require Import Base BaseFacts M_utils M_sig M_process M_sph M_parsa3 M_decoder4 M_firwin S_process S_parsa2 S_parsa3 S_firwin
  P_parsa13 P_parsa14 P_parsa19 P_firwin P_fbank P_firwin2 P_firwin3 X_parsa3.
Require Import Lra Lia.
Open Scope R_scope.

Lemma next_unique nt M M' : next_power nt M -> next_power nt M' -> M = M'.
Proof. intros (e & -> & L & U) (e' & -> & L' & U'). f_equal. apply Nat.le_antisymm; auto. Qed.
Lemma line_unique g f f' x : (2 <= length g)%nat -> broken_line g f -> broken_line g f' -> 0 <= x <= 1 -> f x = f' x.
Proof. intros N B B' X. destruct (on_piece (length g) x N X) as (j & s & J & S & ->). rewrite B, B' by assumption. reflexivity. Qed.
Lemma design_unique nt g h h' : (1 <= nt)%nat -> (2 <= length g)%nat -> windowed_design nt g h -> windowed_design nt g h' -> h = h'.
Proof.
  intros T N (L & M & f & P & B & V) (L' & M' & f' & P' & B' & V'). apply (nth_ext _ _ 0 0); [congruence|]. intros t Ht. rewrite L in Ht.
  rewrite V, V' by exact Ht. rewrite <- (next_unique nt M M' P P'). f_equal. apply kernel_ext. intros k K. unfold mirrored.
  apply (line_unique g); auto. assert (0 < INR M) by (apply lt_0_INR; lia). split.
  - apply Rmult_le_pos; [apply pos_INR|left; apply Rinv_0_lt_compat; assumption].
  - apply (Rmult_le_reg_r (INR M)); [assumption|]. unfold Rdiv. rewrite Rmult_assoc, Rinv_l, Rmult_1_l, Rmult_1_r by lra. apply le_INR. lia.
Qed.
Lemma f_design nt g h : Nat.odd nt = true -> (2 <= length g)%nat -> firwin2 nt g = Ok h <-> windowed_design nt g h.
Proof.
  intros O N. destruct (firwin2_design nt g O N) as (h' & E & W). rewrite E. split; [intros [= <-]; exact W|]. intros W'. f_equal.
  apply (design_unique nt g); auto. destruct nt; [discriminate|lia].
Qed.
Lemma f_symmetric nt g h t : Nat.odd nt = true -> firwin2 nt g = Ok h -> (t < nt)%nat -> nth (nt - 1 - t) h 0 = nth t h 0.
Proof.
  intros O E T. destruct (Nat.lt_ge_cases (length g) 2) as [L|L].
  - unfold firwin2 in E. destruct g as [|x [|y g]]; [discriminate|discriminate|cbn in L; lia].
  - rewrite firwin2_value in E by assumption. injection E as <-. rewrite !nth_map_seq by lia. apply design_sym; assumption.
Qed.
Lemma f_errors nt g : (length g = 0%nat -> firwin2 nt g = Err IndexError) /\ (length g = 1%nat -> firwin2 nt g = Err ValueError) /\
  ((2 <= length g)%nat -> Nat.even nt = true -> nth (length g - 1) g 0 <> 0 -> firwin2 nt g = Err ValueError).
Proof.
  unfold firwin2. split; [intros ->; reflexivity|]. split; [intros ->; reflexivity|]. intros N E Z.
  destruct (Nat.eqb_spec (length g) 0); [lia|]. destruct (Nat.eqb_spec (length g) 1); [lia|]. rewrite E.
  unfold Reqb. destruct (Req_EM_T (nth (length g - 1) g 0) 0); [contradiction|]. reflexivity.
Qed.
Lemma f_power nb nt n gs irs : Nat.odd nt = true -> (2 <= n)%nat -> (forall b, (b < nb)%nat -> length (gs b) = n /\ firwin2 nt (gs b) = Ok (irs b)) ->
  (forall j, (j < n)%nat -> rsum nb (fun b => Rsqr (nth j (gs b) 0)) = 1) ->
  rsum nb (fun b => energy (irs b)) <= 1 /\
  ((n <= nt)%nat -> (exists j b, (j + 1 < n)%nat /\ (b < nb)%nat /\ nth j (gs b) 0 <> nth (j + 1) (gs b) 0) -> rsum nb (fun b => energy (irs b)) < 1).
Proof.
  intros O N H S. assert (A : forall b, (b < nb)%nat -> length (gs b) = n) by (intros; apply H; assumption).
  assert (B : forall b, (b < nb)%nat -> firwin2 nt (gs b) = Ok (irs b)) by (intros; apply H; assumption).
  split; [apply (power_le nb nt n gs irs); assumption|]. intros L (j & b & J & Hb & NE).
  apply (power_lt nb nt n gs irs O N A B S j b); auto. destruct (log2_next nt ltac:(lia)) as (e & _ & HM & _). lia.
Qed.
Lemma f_bank n N_out fs f_low f_high mode overlap slope M k P :
  1 <= n -> (1 <= N_out)%nat -> (0 < fs)%Z -> 0 < f_low -> 0 <= overlap <= 1 / 2 ->
  band_count n f_low (match f_high with None => IZR (fs / 2) | Some f => Rmin f (IZR (fs / 2)) end) M ->
  transitions N_out (IZR fs) n f_low overlap M k P -> separated N_out M k P -> mode <> OtherMode ->
  exists fuel0, forall fuel, (fuel0 <= fuel)%nat -> exists g ff,
    frac_octave_filterbank fuel n N_out fs f_low f_high mode overlap slope = Ok (g, ff) /\
    length g = S M /\ length ff = S M /\ forall r, (r < S M)%nat -> nth r ff (0, 0, 0) = band_limit n f_low (IZR fs) M r /\ length (nth r g []) = N_out /\
    forall j, (j < N_out)%nat ->
      nth j (nth r g []) 0 = match mode with Amplitude => Rsqr (band_gain slope M k P r j) | _ => band_gain slope M k P r j end.
Proof.
  intros Hn HN Hfs Hf Ho HM HT HS Hm. destruct (filterbank_gains n N_out fs f_low f_high mode overlap slope M k P) as (f0 & Q); auto.
  destruct (P_proc4.filterbank_ok n N_out fs f_low f_high mode overlap slope M k P) as (f1 & g & ff & E & _); auto.
  exists (f0 + f1)%nat. intros fuel F. exists g, ff. split; [apply E; lia|]. apply (Q fuel g ff); [lia|apply E; lia].
Qed.
Lemma f_identity ls p fs d a soft bs l0 : (32000 <= fs <= 1000000)%Z -> (forall b, (b < 10)%nat -> band_size fs b (bs b)) ->
  (bs 0 mod 4 = 0)%nat ->
  length p = nc ls -> length d = nr ls -> (forall l, (l < nr ls)%nat -> 0 < nth l d 0) ->
  (l0 < nr ls)%nat -> (forall u, (u < nc ls)%nat -> ent ls l0 u = Rpower (nth l0 d 0) a * nth u p 0) ->
  (forall l u, (l < nr ls)%nat -> l <> l0 -> ent ls l u = 0) ->
  (forall b s k, (b < 10)%nat -> let m := magnitude (2 * bs b - 1) (bs b) (block (bs b) p s) k in m = 0 \/ 1 / 10 ^ 9 <= m) ->
  exists fuel0, forall fuel, (fuel0 <= fuel)%nat ->
    exists out warned, sdm_post_equalization firwin2 fuel ls p fs d a soft = Ok (Some (out, warned)) /\
      nr out = nr ls /\ nc out = nc ls /\ forall l u, (l < nr ls)%nat -> (u < nc ls)%nat -> ent out l u = ent ls l u.
Proof. intros. apply (post_eq_identity firwin2 ls p fs d a soft bs l0); auto. apply firwin2_linear. Qed.
Lemma f_second fs bs k P : (32000 <= fs)%Z -> transitions (bs / 2 + 1) (IZR fs) 1 (625 / 10) (5 / 10) 9 k P ->
  separated (bs / 2 + 1) 9 k P -> Nat.even bs = true -> (2 <= bs)%nat ->
  exists gs irs fuel0, (forall fuel, (fuel0 <= fuel)%nat ->
      exists ff, frac_octave_filterbank fuel 1 (bs / 2 + 1) fs (625 / 10) (Some 16000) Energy (5 / 10) 3 = Ok (gs, ff)) /\
    (forall b, (b < 10)%nat -> windowed_design (bs + 1) (nth b gs []) (irs b) /\ firwin2 (bs + 1) (nth b gs []) = Ok (irs b)) /\
    rsum 10 (fun b => energy (irs b)) <= 1 /\
    ((1 <= k 8)%nat -> rsum 10 (fun b => energy (irs b)) < 1 /\ ~ power_complementary 10 (bs + 1) irs).
Proof.
  intros Hf Ht Hs Hb Hb2. destruct (P_parsa18.bank2 (Mat 0 0 (fun _ _ => 0)) [] fs bs k P Hf Ht Hs eq_refl) as (f0 & g & E & Lg & Lr & V).
  assert (Hg : forall fuel, (f0 <= fuel)%nat -> exists ff, frac_octave_filterbank fuel 1 (bs / 2 + 1) fs (625 / 10) (Some 16000) Energy (5 / 10) 3 = Ok (g, ff)).
  { intros fuel F. eexists. apply E. exact F. }
  pose proof (odd_taps bs Hb) as O. pose proof (two_bins bs Hb2) as T.
  exists g, (fun b => match firwin2 (bs + 1) (nth b g []) with Ok h => h | _ => [] end), f0.
  assert (Hi : forall b, (b < 10)%nat -> firwin2 (bs + 1) (nth b g []) = Ok ((fun b => match firwin2 (bs + 1) (nth b g []) with Ok h => h | _ => [] end) b)).
  { intros b B. destruct (firwin2_total (bs + 1) (nth b g []) O) as (h & Eh & _); [rewrite Lr by exact B; exact T|]. cbv beta. rewrite Eh. reflexivity. }
  split; [exact Hg|]. split; [|split].
  - intros b B. split; [|apply Hi; exact B]. apply f_design; [exact O|rewrite Lr by exact B; exact T|apply Hi; exact B].
  - eapply second_gain_le; eauto.
  - intros K. split; [eapply second_loss; eauto|eapply second_not_complementary; eauto].
Qed.
Lemma f_loss ls p fs d a bs k P order l0 u0 : (32000 <= fs)%Z -> transitions (bs / 2 + 1) (IZR fs) 1 (625 / 10) (5 / 10) 9 k P ->
  separated (bs / 2 + 1) 9 k P -> length p = nc ls -> Nat.even bs = true -> (2 <= bs)%nat ->
  length d = nr ls -> (forall l, (l < nr ls)%nat -> 0 < nth l d 0) -> (1 <= order)%nat ->
  (l0 < nr ls)%nat -> (forall u, (u < nc ls)%nat -> ent ls l0 u = Rpower (nth l0 d 0) a * nth u p 0) ->
  (forall l u, (l < nr ls)%nat -> l <> l0 -> ent ls l u = 0) ->
  (1 <= k 8)%nat -> (u0 < nc ls)%nat -> nth u0 p 0 <> 0 -> (forall u, u <> u0 -> nth u p 0 = 0) ->
  exists fuel0, forall fuel, (fuel0 <= fuel)%nat ->
    exists out warned, sdm_post_equalization2 firwin2 fuel ls p fs d a bs (Z.of_nat order) =
        Ok (Some (out, repeat (repeat 1 10) (blocks bs bs (nc ls) - 4), warned)) /\
      0 <= ent out l0 u0 / ent ls l0 u0 < 1.
Proof. intros. apply (impulse_loss ls p fs d a bs k P order l0); assumption. Qed.

(** * Examples *)
Lemma line_8 : (1 <= line 8)%nat.
Proof. apply Nat.leb_le. vm_compute. reflexivity. Qed.
Lemma ex_any n k P : transitions (n / 2 + 1) 48000 1 (625 / 10) (5 / 10) 9 k P -> separated (n / 2 + 1) 9 k P -> Nat.even n = true -> (2 <= n)%nat -> (1 <= k 8)%nat ->
  exists fuel out warned, sdm_post_equalization2 firwin2 fuel (loud_mat 1) (loud_p 1) 48000 [1; 2] 1 n 5 =
      Ok (Some (out, repeat (repeat 1 10) (blocks n n 4 - 4), warned)) /\ ent (loud_mat 1) 0 0 = 1 /\ 0 <= ent out 0 0 < 1.
Proof.
  intros T S E G K. destruct (f_loss (loud_mat 1) (loud_p 1) 48000 [1; 2] 1 n k P 5 0 0) as (f0 & Q); auto; try lia.
  - intros [|[|l]] L; cbn in *; try lra; lia.
  - cbn. lia.
  - intros u U. cbn [ent loud_mat Nat.eqb nth]. rewrite Rpower_1 by lra. ring.
  - intros [|l] u L NE; [lia|]. reflexivity.
  - cbn. lia.
  - cbn. lra.
  - intros u NE. rewrite nth_loud. rewrite (proj2 (Nat.eqb_neq _ _) NE). reflexivity.
  - destruct (Q f0 (le_n _)) as (out & w & A & B). exists f0, out, w. split; [exact A|]. split; [reflexivity|].
    replace (ent (loud_mat 1) 0 0) with 1 in B by reflexivity. lra.
Qed.
Lemma ex_4096 : transitions (4096 / 2 + 1) 48000 1 (625 / 10) (5 / 10) 9 line half_width /\ separated (4096 / 2 + 1) 9 line half_width /\ (1 <= line 8)%nat /\
  exists fuel out warned, sdm_post_equalization2 firwin2 fuel (loud_mat 1) (loud_p 1) 48000 [1; 2] 1 4096 5 =
      Ok (Some (out, repeat (repeat 1 10) (blocks 4096 4096 4 - 4), warned)) /\ ent (loud_mat 1) 0 0 = 1 /\ 0 <= ent out 0 0 < 1.
Proof.
  exact (conj (proj1 bands_4096) (conj (proj2 bands_4096) (conj line_8 (ex_any 4096 line half_width (proj1 bands_4096) (proj2 bands_4096) even_4096 two_4096 line_8)))).
Qed.
(** three taps, gains falling from one to zero *)
Lemma ex_three : exists a, firwin2 3 [1; 0] = Ok [a; 1 / 2; a] /\ 0 < a.
Proof.
  assert (L2 : (2 <= length [1; 0])%nat) by (cbn; lia).
  assert (F : forall k, (k < 8)%nat -> mirrored 4 (fun x => np_interp x (unit_grid 2) [1; 0]) k = 1 - INR (Nat.min k (8 - k)) / 4).
  { intros k K. unfold mirrored. change (2 * 4)%nat with 8%nat. set (m := Nat.min k (8 - k)).
    assert (M1 : 0 <= INR m <= 4). { split; [apply pos_INR|]. replace 4 with (INR 4) by (cbn; lra). apply le_INR. unfold m. lia. }
    pose proof (interp_line [1; 0] L2 0%nat (INR m / 4) ltac:(cbn; lia) ltac:(lra)) as Q. cbv beta in Q. cbn [length Nat.sub nth Nat.add] in Q.
    replace ((INR 0 + INR m / 4) / INR 1) with (INR m / INR 4) in Q by (cbn; field). rewrite Q. field. }
  exists (design_at 3 2 [1; 0] 0). split.
  - rewrite firwin2_value by (reflexivity || exact L2). change (length [1; 0]) with 2%nat. cbn [map seq]. f_equal. f_equal. f_equal.
    + unfold design_at. change (2 ^ Nat.log2_up 3)%nat with 4%nat. cbv zeta. replace (hamming_at 3 1) with 1 by (symmetry; exact (hamming_mid 1)). change (2 * 4)%nat with 8%nat. change (Z.of_nat 1 - Z.of_nat ((3 - 1) / 2))%Z with 0%Z.
      unfold kernel. rewrite (rsum_ext 8 _ (fun k => 1 - INR (Nat.min k (8 - k)) / 4)).
      * cbn [rsum Nat.min Nat.sub]. replace (INR 8) with 8 by (cbn; lra). simpl. field.
      * intros k K. rewrite F by exact K. replace (2 * PI * INR k * 0 / INR 8) with 0 by (unfold Rdiv; ring). rewrite cos_0. ring.
    + f_equal. exact (design_sym 3 2 [1; 0] 0 eq_refl ltac:(lia)).
  - unfold design_at. change (2 ^ Nat.log2_up 3)%nat with 4%nat. cbv zeta. change (2 * 4)%nat with 8%nat. change (Z.of_nat 0 - Z.of_nat ((3 - 1) / 2))%Z with (-1)%Z.
    apply Rmult_lt_0_compat.
    + unfold hamming_at. cbn [Nat.eqb]. simpl (INR 0). replace (2 * PI * 0 / INR (3 - 1)) with 0 by (unfold Rdiv; ring). rewrite cos_0. lra.
    + unfold kernel. apply Rmult_lt_0_compat; [apply Rinv_0_lt_compat, lt_0_INR; lia|].
      rewrite (rsum_ext 8 _ (fun k => (1 - INR (Nat.min k (8 - k)) / 4) * cos (INR k * (PI / 4)))).
      2:{ intros k K. rewrite F by exact K. f_equal. rewrite <- cos_neg. f_equal. replace (INR 8) with 8 by (cbn; lra). cbn [IZR IPR]. field. }
      replace 8%nat with (1 + 7)%nat by reflexivity. cbn [rsum Nat.min Nat.sub Nat.add].
      pose proof cos_PI4 as C1. pose proof cos_PI2 as C2.
      assert (D3 : cos (3 * (PI / 4)) = - (1 / sqrt 2)) by (replace (3 * (PI / 4)) with (PI - PI / 4) by field; rewrite cos_minus, cos_PI, sin_PI, C1; ring).
      assert (D4 : cos (4 * (PI / 4)) = -1) by (replace (4 * (PI / 4)) with PI by field; apply cos_PI).
      assert (D5 : cos (5 * (PI / 4)) = - (1 / sqrt 2)) by (replace (5 * (PI / 4)) with (PI + PI / 4) by field; rewrite cos_plus, cos_PI, sin_PI, C1; ring).
      assert (D6 : cos (6 * (PI / 4)) = 0) by (replace (6 * (PI / 4)) with (PI + PI / 2) by field; rewrite cos_plus, cos_PI, sin_PI, C2; ring).
      assert (D7 : cos (7 * (PI / 4)) = 1 / sqrt 2) by (replace (7 * (PI / 4)) with (2 * PI - PI / 4) by field; rewrite cos_minus, cos_2PI, sin_2PI, C1; ring).
      replace (INR 7) with 7 by (cbn; lra). replace (INR 6) with 6 by (cbn; lra). replace (INR 5) with 5 by (cbn; lra). replace (INR 4) with 4 by (cbn; lra).
      replace (INR 3) with 3 by (cbn; lra). replace (INR 2) with 2 by (cbn; lra). replace (INR 1) with 1 by reflexivity. replace (INR 0) with 0 by reflexivity.
      rewrite D3, D4, D5, D6, D7. replace (0 * (PI / 4)) with 0 by ring. replace (1 * (PI / 4)) with (PI / 4) by ring. replace (2 * (PI / 4)) with (PI / 2) by field.
      rewrite cos_0, C1, C2. assert (0 < 1 / sqrt 2) by (apply Rdiv_lt_0_compat; [lra|apply sqrt_lt_R0; lra]). lra.
Qed.
