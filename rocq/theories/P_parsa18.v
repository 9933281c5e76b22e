(** Second post equalization: the result. *)
From Verif Require Import Base BaseFacts M_utils M_sig M_process M_decoder M_decoder3 M_parsa2 M_parsa3
  S_process S_decoder3 S_parsa2 S_parsa3 P_sig P_dec13 P_proc4 P_proc5 P_parsa3 P_parsa7 P_parsa8 P_parsa9 P_parsa10 P_parsa11 P_parsa12 P_parsa13 P_parsa14
  P_parsa15 P_parsa16 P_parsa17.
Open Scope R_scope.

Lemma eq2_gain_ext b g bs L att att' p x x' s : (forall l, (l < L)%nat -> att l = att' l) -> (forall l, (l < L)%nat -> x l = x' l) ->
  eq2_gain b g bs L att p x s = eq2_gain b g bs L att' p x' s.
Proof.
  intros Ea Ex. unfold eq2_gain.
  assert (forall k, together L att (fun l => magnitude bs bs (block bs (x l) s) k) = together L att' (fun l => magnitude bs bs (block bs (x' l) s) k)) as T.
  { intros k. unfold together. apply rsum_ext. intros l Hl. rewrite Ea, Ex by exact Hl. reflexivity. }
  assert (forall k, in_power L att (fun l => magnitude bs bs (block bs (x l) s) k) = in_power L att' (fun l => magnitude bs bs (block bs (x' l) s) k)) as I.
  { intros k. unfold in_power. f_equal. apply rsum_ext. intros l Hl. rewrite Ea, Ex by exact Hl. reflexivity. }
  assert (forall f f' n, (forall k, f k = f' k) -> band_level n g f = band_level n g f') as BL.
  { intros f f' n E. unfold band_level. f_equal. apply rsum_ext. intros k K. rewrite E. reflexivity. }
  f_equal; f_equal; f_equal; apply BL; assumption.
Qed.

Lemma widths_pos fs : (32000 <= fs)%Z -> let ff := fo_limits 1 (IZR fs) (map (centre 1 (625 / 10)) (seq 0 9)) in
  let w := map (fun f : R * R * R => snd f - fst (fst f)) ff in
  length w = 10%nat /\ forall b, (b < 10)%nat -> 0 < nth b w 0.
Proof.
  intros Hf ff w. destruct (limits_entries 1 (IZR fs) (625 / 10) 9 ltac:(lia)) as (A & B & Lo & Hi & La). fold ff in A, B, Lo, Hi, La.
  assert (length ff = 10%nat) as Lf.
  { unfold ff. rewrite length_limits; [rewrite map_length, seq_length; reflexivity|discriminate]. }
  split; [unfold w; rewrite map_length; exact Lf|]. intros b Hb. unfold w. rewrite (nth_map_in _ _ _ _ (0, 0, 0)) by lia.
  pose proof sqrt2_bounds as [S1 S2]. pose proof (sqrt_sqrt 2 ltac:(lra)) as Q2.
  replace (snd _) with (lim_hi (nth b ff (0, 0, 0))) by (destruct (nth b ff (0, 0, 0)) as [[? ?] ?]; reflexivity).
  replace (fst _) with (lim_lo (nth b ff (0, 0, 0))) by (destruct (nth b ff (0, 0, 0)) as [[? ?] ?]; reflexivity).
  destruct b as [|b].
  - rewrite A, B, half_step_1, centre_pow. cbn [pow]. assert (0 < 625 / 10 * 1 / sqrt 2); [|lra]. apply Rdiv_lt_0_compat; lra.
  - rewrite Lo by lia. destruct (Nat.eq_dec b 8) as [->|N8].
    + rewrite La, half_step_1, centre_pow. apply IZR_le in Hf. assert (625 / 10 * 2 ^ 8 / sqrt 2 < 16000); [|lra].
      apply Rmult_lt_reg_r with (sqrt 2); [lra|]. unfold Rdiv. rewrite !Rmult_assoc, Rinv_l by lra. cbn. nra.
    + rewrite Hi by lia. rewrite half_step_1, centre_pow. assert (0 < 625 / 10 * 2 ^ b) as P by (apply Rmult_lt_0_compat; [lra|apply pow_lt; lra]).
      assert (625 / 10 * 2 ^ b / sqrt 2 < 625 / 10 * 2 ^ b * sqrt 2); [|lra].
      apply Rmult_lt_reg_r with (sqrt 2); [lra|]. unfold Rdiv. rewrite (Rmult_assoc (_ * _) (/ _)), Rinv_l by lra. nra.
Qed.

Section Final.
Variables (firwin2 : nat -> list R -> res (list R)) (ls : mat) (p : list R) (fs : Z) (d : list R) (a : R) (bs : nat) (k P : nat -> nat).
Hypothesis (Hf : (32000 <= fs)%Z) (Ht : transitions (bs / 2 + 1) (IZR fs) 1 (625 / 10) (5 / 10) 9 k P) (Hs : separated (bs / 2 + 1) 9 k P)
  (Hp : length p = nc ls).
Lemma bank2 : exists fuel0 g, (forall fuel, (fuel0 <= fuel)%nat ->
    frac_octave_filterbank fuel 1 (bs / 2 + 1) fs (625 / 10) (Some 16000) Energy (5 / 10) 3 =
      Ok (g, fo_limits 1 (IZR fs) (map (centre 1 (625 / 10)) (seq 0 9)))) /\
    length g = 10%nat /\ (forall r, (r < 10)%nat -> length (nth r g []) = (bs / 2 + 1)%nat) /\
    forall j, (j < bs / 2 + 1)%nat -> (forall r, (r < 10)%nat -> 0 <= nth j (nth r g []) 0 <= 1) /\ rsum 10 (fun r => nth j (nth r g []) 0 ^ 2) = 1.
Proof.
  destruct (filterbank_ok 1 (bs / 2 + 1) fs (625 / 10) (Some 16000) Energy (5 / 10) 3 9 k P) as (fuel0 & g & ff & E & Lg & Lr & Eff & V); auto; try lra; try lia.
  - apply nine_bands. lia.
  - discriminate.
  - exists fuel0, g. rewrite <- Eff. split; [exact E|]. split; [exact Lg|]. split; [exact Lr|]. intros j J. apply V. exact J.
Qed.
Lemma post_eq2_odd order : Nat.odd bs = true -> exists fuel0, forall fuel, (fuel0 <= fuel)%nat ->
  sdm_post_equalization2 firwin2 fuel ls p fs d a bs order = Err AssertionError.
Proof.
  intros O. destruct bank2 as (f0 & g & E & _). exists f0. intros fuel F. unfold sdm_post_equalization2.
  rewrite length_padded, Hp, Nat.eqb_refl. cbn [assert_ bind]. rewrite E by exact F. cbn [bind]. unfold band_filters.
  apply Nat.odd_spec in O. destruct O as [m ->]. replace (Z.of_nat (2 * m + 1) + 1)%Z with ((Z.of_nat m + 1) * 2)%Z by lia. rewrite Z.mod_mul by lia. reflexivity.
Qed.
Hypothesis (Hb : Nat.even bs = true) (Hb2 : (2 <= bs)%nat)
  (Hfw : forall nt g, Nat.odd nt = true -> (2 <= length g)%nat -> exists h, firwin2 nt g = Ok h /\ length h = nt)
  (Hd : length d = nr ls) (Hd0 : forall l, (l < nr ls)%nat -> 0 < nth l d 0).
Lemma filters2 g : length g = 10%nat -> (forall r, (r < 10)%nat -> length (nth r g []) = (bs / 2 + 1)%nat) ->
  exists irs, band_filters firwin2 (Z.of_nat bs + 1) g = Ok irs /\ length irs = 10%nat /\
    forall b, (b < 10)%nat -> firwin2 (bs + 1)%nat (nth b g []) = Ok (nth b irs []) /\ length (nth b irs []) = (bs + 1)%nat.
Proof.
  intros Lg Lr. assert (Z.to_nat (Z.of_nat bs + 1) = (bs + 1)%nat) as Nt by lia.
  destruct (mapM_nth_ex [] [] (fun g => let* h := firwin2 (Z.to_nat (Z.of_nat bs + 1)) g in
                 if Nat.eqb (length h) (Z.to_nat (Z.of_nat bs + 1)) then Ok h else Err ValueError)
    (fun b h => firwin2 (bs + 1)%nat (nth b g []) = Ok h /\ length h = (bs + 1)%nat) g 0) as (irs & Ei & Li & Ni).
  { intros b B. cbn [Nat.add]. rewrite Nt. destruct (Hfw (bs + 1)%nat (nth b g [])) as (h & Eh & Lh).
    - rewrite Nat.add_1_r, Nat.odd_succ. exact Hb.
    - rewrite Lr by lia. pose proof (Nat.div_le_lower_bound bs 2 1 ltac:(lia) ltac:(lia)). lia.
    - exists h. rewrite Eh. cbn [bind]. rewrite Lh, Nat.eqb_refl. auto. }
  exists irs. cbn [Nat.add] in Ni. rewrite Lg in Li, Ni. split; [|auto]. unfold band_filters.
  apply Nat.even_spec in Hb. destruct Hb as [m Em]. replace ((Z.of_nat bs + 1) mod 2)%Z with 1%Z.
  2:{ replace (Z.of_nat bs + 1)%Z with (1 + Z.of_nat m * 2)%Z by lia. rewrite Z.mod_add by lia. reflexivity. }
  cbn [Z.eqb negb assert_ bind]. destruct (Z.ltb_spec (Z.of_nat bs + 1) 0); [lia|]. exact Ei.
Qed.
Let S := nc ls.
Let L := nr ls.
Let att l := / Rpower (nth l d 0) a.
Let x l := map (ent ls l) (seq 0 S).

Lemma att_list : let l := map (fun v => / Rpower v a) d in length l = length (mat_rows ls) /\ (forall j, 0 <= nth j l 0) /\ forall j, (j < L)%nat -> nth j l 0 = att j.
Proof.
  cbv zeta. rewrite map_length, length_mat_rows. split; [exact Hd|]. split.
  - intros j. destruct (Nat.lt_ge_cases j (length d)) as [Y|Y].
    + rewrite (nth_map_in _ _ _ _ 0) by exact Y. left. apply Rinv_0_lt_compat, exp_pos.
    + rewrite nth_overflow by (rewrite map_length; exact Y). lra.
  - intros j J. rewrite (nth_map_in _ _ _ _ 0) by (unfold L in J; lia). reflexivity.
Qed.
Lemma widths_flag w : length w = 10%nat -> (forall b, (b < 10)%nat -> 0 < nth b w 0) -> existsb (fun v => Rleb v 0) w = false.
Proof.
  intros Lw Pw. apply Bool.not_true_is_false. intros E. apply existsb_exists in E. destruct E as (v & I & E). apply Rleb_true in E.
  destruct (In_nth _ _ 0 I) as (b & B & Eb). specialize (Pw b ltac:(lia)). lra.
Qed.

Lemma post_eq2_order order : (order <= 0)%Z -> exists fuel0, forall fuel, (fuel0 <= fuel)%nat ->
  sdm_post_equalization2 firwin2 fuel ls p fs d a bs order = Err IndexError.
Proof.
  intros O. destruct bank2 as (f0 & g & E & Lg & Lr & V). destruct (filters2 g Lg Lr) as (irs & Ei & Li & Ni).
  exists (f0 + 2)%nat. intros fuel F. unfold sdm_post_equalization2. fold S.
  rewrite length_padded, Hp. fold S. rewrite Nat.eqb_refl. cbn [assert_ bind]. rewrite E by lia. cbn [bind]. rewrite Ei. cbn [bind].
  rewrite attenuations_ok by (rewrite Hd; exact Hd0). destruct (widths_pos fs Hf) as [Lw Pw]. set (w := map _ (fo_limits _ _ _)) in *.
  rewrite (widths_flag w Lw Pw). destruct att_list as (La & Pa & _). set (al := map _ d) in *.
  assert (exists h, bs = 2 * h)%nat as [h Eh] by (apply Nat.even_spec in Hb; exact Hb).
  rewrite Eh. rewrite (order_zero fs g w al irs h S 1 p (mat_rows ls)); try reflexivity; try lia; auto.
  - intros b B. rewrite <- Eh. apply Lr. lia.
  - intros b B. apply Pw. lia.
  - intros b B. rewrite <- Eh. apply Ni. lia.
  - intros l Hl. rewrite length_mat_rows in Hl. rewrite nth_mat_rows by exact Hl. rewrite map_length, seq_length. reflexivity.
  - rewrite !map_length. reflexivity.
  - intros l Hl. rewrite map_map, (nth_map_in _ _ _ _ []) by exact Hl. rewrite repeat_length. lia.
Qed.

Lemma post_eq2_final order : (1 <= order)%nat ->
  exists gs irs fuel0, length gs = 10%nat /\ (forall b, (b < 10)%nat -> length (nth b gs []) = (bs / 2 + 1)%nat) /\
    (forall j, (j < bs / 2 + 1)%nat -> (forall b, (b < 10)%nat -> 0 <= nth j (nth b gs []) 0 <= 1) /\
       rsum 10 (fun b => nth j (nth b gs []) 0 ^ 2) = 1) /\
    (forall b, (b < 10)%nat -> firwin2 (bs + 1)%nat (nth b gs []) = Ok (irs b) /\ length (irs b) = (bs + 1)%nat) /\
    forall fuel, (fuel0 <= fuel)%nat ->
      (exists ff, frac_octave_filterbank fuel 1 (bs / 2 + 1) fs (625 / 10) (Some 16000) Energy (5 / 10) 3 = Ok (gs, ff)) /\
      exists out Sm warned, sdm_post_equalization2 firwin2 fuel ls p fs d a bs (Z.of_nat order) =
          Ok (Some (out, map (fun i => map (fun b => Sm b (i + 2)%nat) (seq 0 10)) (seq 0 (blocks bs bs S - 4)), warned)) /\
        nr out = L /\ nc out = S /\
        (forall b, (b < 10)%nat -> smoothing (blocks bs bs S) order (fun i => eq2_gain b (nth b gs []) bs L att p x (block_start bs bs i)) (Sm b) /\
           forall i, (i < blocks bs bs S)%nat -> 0 <= Sm b i <= 1) /\
        let F := eq2_out 10 (fun b => nth b gs []) irs bs S L att p x in
        (forall l u, (l < L)%nat -> (u < S)%nat -> ent out l u = F l (Z.of_nat u)) /\
        (warned = true <-> 1 / 100 < rsum L (fun l => rsum (2 * bs + 1) (fun j => Rabs (F l (Z.of_nat j - 2 * Z.of_nat bs)%Z)))).
Proof.
  intros Ho. destruct bank2 as (f0 & g & E & Lg & Lr & V). destruct (filters2 g Lg Lr) as (irs & Ei & Li & Ni).
  exists g, (fun b => nth b irs []), (f0 + (blocks bs bs S + 1))%nat. split; [exact Lg|]. split; [exact Lr|]. split; [exact V|]. split; [exact Ni|].
  intros fuel Hfu. split; [eexists; apply E; lia|].
  unfold sdm_post_equalization2. fold S.
  rewrite length_padded, Hp. fold S. rewrite Nat.eqb_refl. cbn [assert_ bind]. rewrite E by lia. cbn [bind]. rewrite Ei. cbn [bind].
  rewrite attenuations_ok by (rewrite Hd; exact Hd0). destruct (widths_pos fs Hf) as [Lw Pw]. set (w := map _ (fo_limits _ _ _)) in *.
  rewrite (widths_flag w Lw Pw). destruct att_list as (La & Pa & Na). set (al := map _ d) in *.
  assert (exists h, bs = 2 * h)%nat as [h Eh] by (apply Nat.even_spec in Hb; exact Hb).
  assert (length (mat_rows ls) = L) as LL by apply length_mat_rows.
  assert (forall l, (l < L)%nat -> nth l (mat_rows ls) [] = x l) as Nx by (intros l Hl; rewrite nth_mat_rows by exact Hl; reflexivity).
  assert (forall b i, (b < 10)%nat -> eq2_gain b (nth b g []) (2 * h) (length (mat_rows ls)) (fun l => nth l al 0) p (fun l => nth l (mat_rows ls) []) (Z.of_nat (i * h) - Z.of_nat (2 * h)) =
     eq2_gain b (nth b g []) bs L att p x (block_start bs bs i)) as GE.
  { intros b i Hb10. unfold block_start. rewrite Eh. rewrite LL. replace (2 * h / 2)%nat with h by (rewrite Nat.mul_comm, Nat.div_mul; lia).
    apply eq2_gain_ext; [exact Na|exact Nx]. }
  destruct (blocks_bound h bs S ltac:(lia) ltac:(lia)) as [Bd1 Bd2]. rewrite <- Eh in Bd1, Bd2.
  destruct (loop2 fs g w al irs h S order p (mat_rows ls)) with (N := (S + 4 * bs)%nat) (m := blocks bs bs S) (fuel := fuel) (i := 0%nat)
    (bufs := map (fun _ : list R => repeat 0 (S + 2 * bs + 2 * bs)) (map (padded bs) (mat_rows ls))) (hist := @nil (list R)) as (comp & hist & E2 & Lh & Sh & Lc & Nc); try lia; auto.
  - intros b B. rewrite <- Eh. apply Lr. lia.
  - intros b B. apply Pw. lia.
  - intros b B. rewrite <- Eh. apply Ni. lia.
  - intros l Hl. rewrite Nx by lia. unfold x. rewrite map_length, seq_length. reflexivity.
  - intros j J. specialize (Bd2 j J). cbn [Nat.add]. lia.
  - rewrite !map_length. reflexivity.
  - intros l Hl. rewrite map_map, (nth_map_in _ _ _ _ []) by exact Hl. rewrite repeat_length. lia.
  - rewrite <- Eh in E2. rewrite Nat.mul_0_l in E2. rewrite E2. cbn [bind]. cbn [Nat.add] in Lh, Sh, Nc.
    set (F := eq2_out 10 (fun b => nth b g []) (fun b => nth b irs []) bs S L att p x). rewrite LL in Lc, Nc.
    set (N := (S + 4 * bs)%nat) in *.
    assert (forall l, (l < L)%nat -> length (nth l comp []) = N /\ forall q, (q < N)%nat -> nth q (nth l comp []) 0 = F l (Z.of_nat q - 2 * Z.of_nat bs)%Z) as Nk.
    { intros l Hl. destruct (Nc l Hl) as [A1 A2]. split; [exact A1|]. intros q Hq. rewrite A2 by exact Hq. rewrite map_map, (nth_map_in _ _ _ _ []) by lia.
      rewrite nth_repeat_in by (unfold N in *; lia). rewrite Rplus_0_l. unfold F, eq2_out. apply rsum_ext. intros i I. rewrite Lg. apply rsum_ext. intros b B.
      rewrite <- LL at 1. rewrite GE by exact B. f_equal. rewrite Nx by exact Hl. rewrite Eh. unfold block_start. replace (2 * h / 2)%nat with h by (rewrite Nat.mul_comm, Nat.div_mul; lia). reflexivity. }
    clear Nc E2.
    assert (forall r, In r comp -> exists l, (l < L)%nat /\ nth l comp [] = r) as Ik.
    { intros r I. destruct (In_nth _ _ [] I) as (l & Q & Er). exists l. split; [lia|exact Er]. }
    replace (2 * Z.of_nat bs)%Z with (Z.of_nat (2 * bs)) in * by lia.
    rewrite (mapM_ok _ (fun row => nth (2 * bs) row 0)).
    2:{ intros r I. destruct (Ik r I) as (l & Hl & <-). destruct (Nk l Hl) as [Q _]. rewrite (index_ok _ _ 0) by (rewrite Q; unfold N; lia).
        destruct (Z.ltb_spec (Z.of_nat (2 * bs)) 0); [lia|]. rewrite Nat2Z.id. reflexivity. }
    cbn [bind].
    set (out := map (fun row => slice row _ _) comp).
    assert (forall l, (l < L)%nat -> length (nth l out []) = S /\ forall u, (u < S)%nat -> nth u (nth l out []) 0 = F l (Z.of_nat u)) as No.
    { intros l Hl. unfold out. rewrite (nth_map_in _ _ _ _ []) by lia. destruct (Nk l Hl) as [Q1 Q2].
      rewrite length_slice, Q1. assert (norm_idx N (- Z.of_nat (2 * bs)) = S + 2 * bs)%nat as X1.
      { unfold norm_idx, N. destruct (Z.ltb_spec (- Z.of_nat (2 * bs)) 0); lia. }
      rewrite X1, norm_idx_nat by (unfold N; lia). split; [lia|]. intros u U.
      rewrite nth_slice by (rewrite Q1, X1, norm_idx_nat; unfold N; lia). rewrite Q1, norm_idx_nat by (unfold N; lia).
      rewrite Q2 by (unfold N; lia). f_equal. lia. }
    replace (forallb _ out) with true.
    2:{ symmetry. apply forallb_forall. intros r I. destruct (In_nth _ _ [] I) as (l & Q & <-). unfold out in Q. rewrite map_length in Q.
        apply Nat.eqb_eq. apply No. lia. }
    cbn [assert_ bind]. exists (rows_mat L S out), (fun b i => nth b (nth i hist []) 0). eexists.
    assert (forall b, (b < 10)%nat -> smoothing (blocks bs bs S) order (fun i => eq2_gain b (nth b g []) bs L att p x (block_start bs bs i)) (fun i => nth b (nth i hist []) 0)) as SM.
    { intros b B i I. destruct (Sh i I) as [_ Q]. cbv zeta. rewrite (Q b) by lia. destruct (Nat.eqb_spec i 0); cbv zeta; rewrite GE by exact B; reflexivity. }
    split; [|split; [reflexivity|split; [reflexivity|split; [|cbv zeta; split]]]].
    + f_equal. f_equal. f_equal. f_equal.
      assert (length (slice hist 2 (-2)) = (blocks bs bs S - 4)%nat) as Lsl.
      { rewrite length_slice, Lh. change 2%Z with (Z.of_nat 2). assert (3 <= blocks bs bs S)%nat as B3.
        { unfold blocks. assert (2 <= (S + 2 * bs - bs) / (bs / 2))%nat; [|lia]. apply Nat.div_le_lower_bound; rewrite Eh; replace (2 * h / 2)%nat with h by (rewrite Nat.mul_comm, Nat.div_mul; lia); lia. }
        rewrite norm_idx_nat by lia. unfold norm_idx. destruct (Z.ltb_spec (-2) 0); lia. }
      apply (nth_ext _ _ [] []); [rewrite map_length, seq_length; exact Lsl|]. intros i I. rewrite Lsl in I. rewrite nth_map_seq by exact I.
      rewrite nth_slice by (rewrite length_slice in Lsl; rewrite Lsl; exact I).
      change 2%Z with (Z.of_nat 2) at 1. rewrite norm_idx_nat by lia.
      destruct (Sh (i + 2)%nat ltac:(lia)) as [Q _]. rewrite (Nat.add_comm 2 i). apply (nth_ext _ _ 0 0); [rewrite map_length, seq_length; lia|].
      intros b B. rewrite nth_map_seq by lia. reflexivity.
    + intros b B. split; [apply SM; exact B|]. apply (smoothing_range _ order (fun i => eq2_gain b (nth b g []) bs L att p x (block_start bs bs i))); [exact Ho| |apply SM; exact B].
      intros i I. apply eq2_gain_range.
    + intros l u Hl Hu. cbn [ent rows_mat]. apply No; assumption.
    + rewrite Rltb_true. replace (10 / 1000) with (1 / 100) by lra. rewrite (lsum_map_nth []), map_map, (lsum_map_nth []), Lc, <- rsum_plus.
      rewrite (rsum_ext L _ (fun l => rsum (2 * bs + 1) (fun j => Rabs (F l (Z.of_nat j - Z.of_nat (2 * bs))%Z)))); [reflexivity|].
      intros l Hl. destruct (Nk l Hl) as [Q1 Q2]. rewrite Nat.add_1_r. cbn [rsum]. rewrite Q2 by (unfold N; lia). f_equal.
      rewrite (lsum_map_nth 0). change (slice (nth l comp []) 0) with (slice (nth l comp []) (Z.of_nat 0)).
      rewrite length_slice, Q1, !norm_idx_nat by (unfold N; lia). rewrite Nat.sub_0_r. apply rsum_ext. intros j J.
      rewrite nth_slice by (rewrite Q1, !norm_idx_nat; unfold N; lia). rewrite Q1, norm_idx_nat by lia. cbn [Nat.add]. rewrite Q2 by (unfold N; lia). reflexivity.
Qed.
End Final.
