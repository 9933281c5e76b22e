(** Post equalization: bands, sum, shape, warning. *)
From Verif Require Import Base BaseFacts M_utils M_sig M_process M_decoder M_decoder3 M_parsa2 M_parsa3
  S_decoder3 S_parsa2 S_parsa3 P_sig P_dec13 P_parsa7 P_parsa8 P_parsa9 P_parsa10.
Open Scope R_scope.

Lemma mapM_nth_ex {A B} (da : A) (db : B) (f : A -> res B) (P : nat -> B -> Prop) : forall l k,
  (forall i, (i < length l)%nat -> exists y, f (nth i l da) = Ok y /\ P (k + i)%nat y) ->
  exists ys, mapM f l = Ok ys /\ length ys = length l /\ forall i, (i < length l)%nat -> P (k + i)%nat (nth i ys db).
Proof.
  induction l as [|a l IH]; intros k H; cbn [mapM].
  - exists []. split; [reflexivity|]. split; [reflexivity|]. intros i I. cbn in I. lia.
  - destruct (H 0%nat ltac:(cbn; lia)) as (y & E & Y). cbn [nth] in E. rewrite E. cbn [bind].
    destruct (IH (1 + k)%nat) as (ys & Es & Ls & Ps).
    { intros i I. destruct (H (1 + i)%nat ltac:(cbn; lia)) as (z & Ez & Pz). exists z. split; [exact Ez|].
      replace (1 + k + i)%nat with (k + (1 + i))%nat by lia. exact Pz. }
    rewrite Es. cbn [bind]. exists (y :: ys). split; [reflexivity|]. split; [cbn; lia|].
    intros [|i] I; cbn [nth]; [exact Y|]. replace (k + Datatypes.S i)%nat with (1 + k + i)%nat by lia. apply Ps. cbn in I. lia.
Qed.

(** nothing outside the buffer *)
Lemma eq_band_outside b soft h pad S L att p x l v : (1 <= h)%nat -> (2 * h <= pad)%nat ->
  (v < - 2 * Z.of_nat pad \/ Z.of_nat S + 2 * Z.of_nat pad <= v)%Z -> eq_band b soft (2 * h) pad S L att p x l v = 0.
Proof.
  intros H B V. unfold eq_band. apply rsum_0. intros i I. unfold eq_piece.
  destruct (Z.ltb_spec (Z.abs (v - block_start (2 * h) pad i)) (Z.of_nat (2 * h))) as [Y|Y]; [|reflexivity].
  exfalso. destruct (blocks_bound h pad S H ltac:(lia)) as [_ Q]. specialize (Q i I). unfold block_start in Y.
  replace (2 * h / 2)%nat with h in Y by (rewrite Nat.mul_comm, Nat.div_mul; lia). lia.
Qed.
Lemma smoothed_centred w n (off : Z) (f : Z -> R) q : (forall v, (v < - off \/ Z.of_nat n - off <= v)%Z -> f v = 0) ->
  smoothed w n (fun i => f (Z.of_nat i - off)%Z) q = centred w f (Z.of_nat q - off).
Proof.
  intros H. unfold smoothed, centred. apply rsum_ext. intros m M. set (c := ((length w - 1) / 2)%nat).
  destruct (Nat.leb_spec m (q + c)); cbn [andb].
  - destruct (Nat.ltb_spec (q + c - m) n).
    + do 2 f_equal. lia.
    + rewrite H by lia. lra.
  - rewrite H by lia. lra.
Qed.

Lemma nth_mat_rows m l : (l < nr m)%nat -> nth l (mat_rows m) [] = map (ent m l) (seq 0 (nc m)).
Proof. intros H. unfold mat_rows, arr2_of. cbn [rows]. rewrite nth_map_seq by exact H. reflexivity. Qed.
Lemma length_mat_rows m : length (mat_rows m) = nr m.
Proof. unfold mat_rows, arr2_of. cbn [rows]. rewrite map_length, seq_length. reflexivity. Qed.

Lemma attenuations_ok d a : (forall l, (l < length d)%nat -> 0 < nth l d 0) ->
  attenuations d a = Some (map (fun x => / Rpower x a) d).
Proof.
  intros H. unfold attenuations.
  assert (forall x, In x d -> np_pow x a = Rpower x a /\ 0 < Rpower x a) as P.
  { intros x I. destruct (In_nth _ _ 0 I) as (l & L & <-). specialize (H l L). split; [|apply exp_pos].
    unfold np_pow. rewrite (proj2 (Reqb_false _ _)) by lra. reflexivity. }
  replace (existsb (fun x => Reqb (np_pow x a) 0) d) with false.
  - f_equal. apply map_ext_in. intros x I. destruct (P x I) as [-> _]. unfold Rdiv. lra.
  - symmetry. apply not_true_is_false. intro E. apply existsb_exists in E. destruct E as (x & I & E).
    apply Reqb_true in E. destruct (P x I) as [Q R0]. lra.
Qed.

Section Whole.
Variables (firwin2 : nat -> list R -> res (list R)) (fuel : nat) (ls : mat) (p : list R) (fs : Z) (d : list R) (a : R) (soft : bool)
  (g : list (list R)) (ff : list (R * R * R)) (bss : list nat) (pad : nat) (irs : list (list R)).
Let L := nr ls.
Let S := nc ls.
Let x (l : nat) := map (ent ls l) (seq 0 S).
Let att (l : nat) := / Rpower (nth l d 0) a.
Hypothesis Hfb : frac_octave_filterbank fuel 1 (2 ^ 16) fs (625 / 10) (Some 16000) Amplitude (5 / 10) 3 = Ok (g, ff).
Hypothesis Hbs : band_blocksizes fs ff = map Z.of_nat bss.
Hypothesis Hev : forall b, (b < length bss)%nat -> exists h, (1 <= h)%nat /\ nth b bss 0%nat = (2 * h)%nat /\ (2 * h <= pad)%nat.
Hypothesis Hpad : fold_left Z.max (map Z.of_nat bss) 0%Z = Z.of_nat pad.
Hypothesis Hirs : band_filters firwin2 (Z.of_nat pad / 2 - 1) g = Ok irs.
Hypothesis Hli : length irs = length bss.
Hypothesis Hir : forall b, (b < length bss)%nat -> (1 <= length (nth b irs []))%nat.
Hypothesis Hp : length p = S.
Hypothesis Hd : length d = L.
Hypothesis Hd0 : forall l, (l < L)%nat -> 0 < nth l d 0.
Hypothesis Hfu : forall b, (b < length bss)%nat -> (blocks (nth b bss 0%nat) pad S < fuel)%nat.
Let F := eq_out (fun b => nth b irs []) (length bss) (fun b => nth b bss 0%nat) soft pad S L att p x.

Lemma band_x b bs w bufs att' : (b < length bss)%nat -> att' = map (fun x => / Rpower x a) d -> nth b bss 0%nat = bs -> nth b irs [] = w ->
  band_rows fuel soft att' pad (padded pad p) (map (padded pad) (mat_rows ls)) (S + 2 * pad) (b, (Z.of_nat bs, w)) = Ok bufs ->
  forall l q, (l < L)%nat -> (q < S + 4 * pad)%nat ->
    nth q (nth l bufs []) 0 = centred w (eq_band b soft bs pad S L att p x l) (Z.of_nat q - 2 * Z.of_nat pad).
Proof.
  intros B -> <- <- E l q Hl Hq. destruct (Hev b B) as (h & H1 & H2 & H3). rewrite H2 in E |- *.
  destruct (band_ok h pad S p (mat_rows ls) (map (fun x => / Rpower x a) d) H1 Hp) with (b := b) (soft := soft) (fuel := fuel) (w := nth b irs [])
    as (bufs' & E' & L' & N').
  - intros l' Hl'. rewrite length_mat_rows in Hl'. rewrite nth_mat_rows by exact Hl'. rewrite map_length, seq_length. reflexivity.
  - rewrite map_length, length_mat_rows. exact Hd.
  - intros l'. destruct (Nat.lt_ge_cases l' (length d)) as [Y|Y].
    + rewrite (nth_map_in _ _ _ _ 0) by exact Y. left. apply Rinv_0_lt_compat, exp_pos.
    + rewrite nth_overflow by (rewrite map_length; exact Y). lra.
  - exact H3.
  - rewrite <- H2. apply Hfu. exact B.
  - apply Hir. exact B.
  - pose proof (eq_trans (eq_sym E') E) as Q. injection Q as ->. rewrite length_mat_rows in N', L'. destruct (N' l Hl) as [_ N2].
    rewrite N2 by exact Hq. fold L.
    rewrite <- (smoothed_centred _ (S + 4 * pad) (2 * Z.of_nat pad) (eq_band b soft (2 * h) pad S L att p x l)).
    + apply smoothed_ext. intros i I. unfold eq_band. apply rsum_ext. intros j J. unfold eq_piece.
      destruct (_ <? _)%Z; [|reflexivity].
      assert (forall s l', (l' < L)%nat -> block (2 * h) (nth l' (mat_rows ls) []) s = block (2 * h) (x l') s) as Bq.
      { intros s l' Hl'. rewrite nth_mat_rows by exact Hl'. reflexivity. }
      rewrite Bq by exact Hl. unfold zero_phase. apply rsum_ext. intros j' J'. f_equal. unfold kernel. f_equal. apply rsum_ext. intros k K. f_equal.
      unfold eq_gain. f_equal. f_equal. f_equal.
      * unfold together. apply rsum_ext. intros l' Hl'. rewrite Bq by exact Hl'. f_equal.
        rewrite (nth_map_in _ _ _ _ 0) by (rewrite Hd; exact Hl'). reflexivity.
      * unfold in_power. f_equal. apply rsum_ext. intros l' Hl'. rewrite Bq by exact Hl'. do 2 f_equal.
        rewrite (nth_map_in _ _ _ _ 0) by (rewrite Hd; exact Hl'). reflexivity.
    + intros v V. apply eq_band_outside; [exact H1|exact H3|lia].
Qed.

Lemma post_eq_ok : exists out warned, sdm_post_equalization firwin2 fuel ls p fs d a soft = Ok (Some (out, warned)) /\
  nr out = L /\ nc out = S /\ (forall l u, (l < L)%nat -> (u < S)%nat -> ent out l u = F l (Z.of_nat u)) /\
  (warned = true <-> exists l v, (l < L)%nat /\ (- 2 * Z.of_nat pad <= v <= 0)%Z /\ 1 / 10 ^ 4 < Rabs (F l v)).
Proof.
  unfold sdm_post_equalization. rewrite Hfb. cbn [bind]. rewrite Hbs, Hpad, Hirs. cbn [bind]. rewrite Nat2Z.id.
  rewrite length_padded, Hp. fold S. rewrite Nat.eqb_refl. cbn [assert_ bind]. rewrite attenuations_ok by (rewrite Hd; exact Hd0).
  set (att' := map _ d).
  destruct (Nat.eq_dec pad 0) as [P0|P0].
  { (* no bands *) exfalso.
    assert (length bss = 0)%nat as Z0. { destruct (length bss) as [|m] eqn:Q; [reflexivity|]. destruct (Hev 0%nat ltac:(lia)) as (h & H1 & _ & H3). lia. }
    unfold band_filters in Hirs. rewrite P0 in Hirs. cbn in Hirs. discriminate. }
  assert (length (combine (seq 0 (length irs)) (combine (map Z.of_nat bss) irs)) = length bss) as Lc.
  { rewrite !combine_length, seq_length, map_length. lia. }
  destruct (mapM_nth_ex (0%nat, (0%Z, [])) [] (band_rows fuel soft att' pad (padded pad p) (map (padded pad) (mat_rows ls)) (S + 2 * pad))
    (fun b bufs => forall l q, (l < L)%nat -> (q < S + 4 * pad)%nat ->
       nth q (nth l bufs []) 0 = centred (nth b irs []) (eq_band b soft (nth b bss 0%nat) pad S L att p x l) (Z.of_nat q - 2 * Z.of_nat pad))
    (combine (seq 0 (length irs)) (combine (map Z.of_nat bss) irs)) 0) as (bands & Eb & Lb & Nb).
  { intros b B. rewrite Lc in B. cbn [Nat.add]. rewrite nth_combine by (rewrite combine_length, seq_length, map_length; lia).
    rewrite nth_combine by (rewrite map_length; lia). rewrite seq_nth by lia. cbn [Nat.add].
    rewrite (nth_map_in Z.of_nat bss _ _ 0%nat) by exact B.
    destruct (Hev b B) as (h & H1 & H2 & H3).
    destruct (band_ok h pad S p (mat_rows ls) att' H1 Hp) with (b := b) (soft := soft) (fuel := fuel) (w := nth b irs [])
      as (bufs' & E' & _).
    - intros l' Hl'. rewrite length_mat_rows in Hl'. rewrite nth_mat_rows by exact Hl'. rewrite map_length, seq_length. reflexivity.
    - unfold att'. rewrite map_length, length_mat_rows. exact Hd.
    - intros l'. unfold att'. destruct (Nat.lt_ge_cases l' (length d)) as [Y|Y].
      + rewrite (nth_map_in _ _ _ _ 0) by exact Y. left. apply Rinv_0_lt_compat, exp_pos.
      + rewrite nth_overflow by (rewrite map_length; exact Y). lra.
    - exact H3.
    - rewrite <- H2. apply Hfu. exact B.
    - apply Hir. exact B.
    - rewrite <- H2 in E'. exists bufs'. split; [exact E'|]. intros l q Hl Hq. apply (band_x b (nth b bss 0%nat) (nth b irs []) bufs' att'); auto. }
  rewrite Eb. cbn [bind]. rewrite Lc in Lb, Nb. cbn [Nat.add] in Nb. fold L.
  replace (S + 2 * pad + 2 * pad)%nat with (S + 4 * pad)%nat by lia. set (N := (S + 4 * pad)%nat) in *.
  set (comp := sum_rows L N bands).
  assert (length comp = L) as Lk by (unfold comp, sum_rows; rewrite map_length, seq_length; reflexivity).
  assert (forall l, (l < L)%nat -> length (nth l comp []) = N /\
    forall q, (q < N)%nat -> nth q (nth l comp []) 0 = F l (Z.of_nat q - 2 * Z.of_nat pad)) as Nk.
  { intros l Hl. unfold comp, sum_rows. rewrite nth_map_seq by exact Hl. split; [rewrite map_length, seq_length; reflexivity|].
    intros q Hq. rewrite nth_map_seq by exact Hq. rewrite (lsum_map_nth []), Lb. unfold F, eq_out. apply rsum_ext. intros b B. apply Nb; assumption. }
  assert (forall r, In r comp -> exists l, (l < L)%nat /\ nth l comp [] = r) as Ik.
  { intros r I. destruct (In_nth _ _ [] I) as (l & Q & E). exists l. split; [lia|exact E]. }
  clearbody comp. replace (2 * Z.of_nat pad)%Z with (Z.of_nat (2 * pad)) by lia.
  rewrite (mapM_ok _ (fun row => nth (2 * pad) row 0)).
  2:{ intros r I. destruct (Ik r I) as (l & Hl & <-). destruct (Nk l Hl) as [Q _]. unfold index. rewrite Q.
      destruct (Z.ltb_spec (Z.of_nat (2 * pad)) 0); [lia|]. rewrite Nat2Z.id.
      destruct (Z.leb_spec 0 (Z.of_nat (2 * pad))); [|lia]. destruct (Z.ltb_spec (Z.of_nat (2 * pad)) (Z.of_nat N)); [|unfold N in *; lia]. cbn [andb].
      destruct (nth_error (nth l comp []) (2 * pad)) as [v|] eqn:Ev.
      - rewrite (nth_error_nth _ _ _ Ev). reflexivity.
      - apply nth_error_None in Ev. unfold N in *. lia. }
  cbn [bind].
  set (out := map (fun row => slice row _ _) comp).
  assert (forall l, (l < L)%nat -> length (nth l out []) = S /\ forall u, (u < S)%nat -> nth u (nth l out []) 0 = F l (Z.of_nat u)) as No.
  { intros l Hl. unfold out. rewrite (nth_map_in _ _ _ _ []) by lia. destruct (Nk l Hl) as [Q1 Q2].
    rewrite length_slice, Q1. assert (norm_idx N (- Z.of_nat (2 * pad)) = S + 2 * pad)%nat as X1.
    { unfold norm_idx, N. destruct (Z.ltb_spec (- Z.of_nat (2 * pad)) 0); lia. }
    rewrite X1, norm_idx_nat by (unfold N; lia). split; [lia|]. intros u U.
    rewrite nth_slice by (rewrite Q1, X1, norm_idx_nat; unfold N; lia). rewrite Q1, norm_idx_nat by (unfold N; lia).
    rewrite Q2 by (unfold N; lia). f_equal. lia. }
  replace (forallb _ out) with true.
  2:{ symmetry. apply forallb_forall. intros r I. destruct (In_nth _ _ [] I) as (l & Q & <-). unfold out in Q. rewrite map_length in Q.
      apply Nat.eqb_eq. apply No. lia. }
  cbn [assert_ bind]. eexists _, _. split; [reflexivity|]. split; [reflexivity|]. split; [reflexivity|]. split.
  { intros l u Hl Hu. cbn [ent rows_mat]. apply No; assumption. }
  replace (10 / 10 ^ 5) with (1 / 10 ^ 4) by (cbn; lra). unfold loud. split.
  - intros E. apply orb_true_iff in E. destruct E as [E|E].
    + apply existsb_exists in E. destruct E as (r & I & E). destruct (Ik r I) as (l & Hl & <-). destruct (Nk l Hl) as [Q1 Q2].
      apply existsb_exists in E. destruct E as (v & Iv & E). apply Rltb_true in E.
      destruct (In_nth _ _ 0 Iv) as (q & Hq & <-). rewrite length_slice, Q1 in Hq.
      change 0%Z with (Z.of_nat 0) in Hq. rewrite !norm_idx_nat in Hq by (unfold N; lia).
      change 0%Z with (Z.of_nat 0) in E. rewrite nth_slice in E by (rewrite Q1, !norm_idx_nat; unfold N; lia).
      rewrite Q1, norm_idx_nat in E by lia. rewrite Q2 in E by (unfold N; lia).
      exists l, (Z.of_nat (0 + q) - 2 * Z.of_nat pad)%Z. split; [exact Hl|]. split; [lia|exact E].
    + apply existsb_exists in E. destruct E as (v & Iv & E). apply Rltb_true in E. apply in_map_iff in Iv. destruct Iv as (r & <- & I).
      destruct (Ik r I) as (l & Hl & <-). destruct (Nk l Hl) as [Q1 Q2]. rewrite Q2 in E by (unfold N; lia).
      exists l, 0%Z. split; [exact Hl|]. split; [lia|]. replace (Z.of_nat (2 * pad) - 2 * Z.of_nat pad)%Z with 0%Z in E by lia. exact E.
  - intros (l & v & Hl & V & E). apply orb_true_iff. destruct (Nk l Hl) as [Q1 Q2].
    assert (In (nth l comp []) comp) as I by (apply nth_In; lia).
    destruct (Z.eq_dec v 0) as [->|V0].
    + right. apply existsb_exists. exists (nth (2 * pad) (nth l comp []) 0). split; [apply in_map_iff; exists (nth l comp []); auto|].
      apply Rltb_true. rewrite Q2 by (unfold N; lia). replace (Z.of_nat (2 * pad) - 2 * Z.of_nat pad)%Z with 0%Z by lia. exact E.
    + left. apply existsb_exists. exists (nth l comp []). split; [exact I|]. apply existsb_exists.
      set (q := Z.to_nat (v + 2 * Z.of_nat pad)). exists (nth q (nth l comp []) 0). split.
      * change (slice (nth l comp []) 0) with (slice (nth l comp []) (Z.of_nat 0)).
        assert (q < length (slice (nth l comp []) (Z.of_nat 0) (Z.of_nat (2 * pad))))%nat as Hq.
        { rewrite length_slice, Q1, !norm_idx_nat; unfold N, q; lia. }
        assert (nth q (nth l comp []) 0 = nth q (slice (nth l comp []) (Z.of_nat 0) (Z.of_nat (2 * pad))) 0) as Y.
        { rewrite nth_slice by (rewrite Q1, !norm_idx_nat; unfold N, q; lia). rewrite Q1, norm_idx_nat by lia. reflexivity. }
        rewrite Y. apply nth_In. exact Hq.
      * apply Rltb_true. rewrite Q2 by (unfold N, q; lia). replace (Z.of_nat q - 2 * Z.of_nat pad)%Z with v by (unfold q; lia). exact E.
Qed.
End Whole.
