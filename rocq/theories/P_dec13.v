(** Binaural rendering. *)
From Verif Require Import Base BaseFacts M_utils M_sig M_process M_decoder M_decoder3 S_utils S_decoder3 P_utils P_sig X_utils.
Open Scope R_scope.

(** ** convolution *)
Lemma conv_inner x (h : list R) i n :
  rsum (length h) (fun j => if (i + j =? n)%nat then nth i x 0 * nth j h 0 else 0)
  = if (i <=? n)%nat then nth i x 0 * nth (n - i) h 0 else 0.
Proof.
  destruct (Nat.leb_spec i n) as [H|H].
  - destruct (Nat.lt_ge_cases (n - i) (length h)) as [G|G].
    + rewrite (rsum_single (length h) (n - i)).
      * replace (i + (n - i) =? n)%nat with true by (symmetry; apply Nat.eqb_eq; lia). reflexivity.
      * exact G.
      * intros j Hj Hne. replace (i + j =? n)%nat with false by (symmetry; apply Nat.eqb_neq; lia). reflexivity.
    + rewrite rsum_0. { rewrite (nth_overflow h) by lia. ring. }
      intros j Hj. replace (i + j =? n)%nat with false by (symmetry; apply Nat.eqb_neq; lia). reflexivity.
  - apply rsum_0. intros j Hj. replace (i + j =? n)%nat with false by (symmetry; apply Nat.eqb_neq; lia). reflexivity.
Qed.
Lemma conv_at_sum a h n : conv_at a h n = conv_sum a h n.
Proof.
  unfold conv_at, conv_sum. set (f := fun i => if (i <=? n)%nat then nth i a 0 * nth (n - i) h 0 else 0).
  rewrite (rsum_ext (length a) _ f) by (intros; apply conv_inner).
  rewrite (rsum_ext (S n) _ f) by (intros i Hi; unfold f; destruct (Nat.leb_spec i n); [reflexivity|lia]).
  rewrite <- (rsum_extend (S n) (max (S n) (length a)) f).
  - apply rsum_extend; [lia|]. intros i Hi. unfold f. destruct (i <=? n)%nat; [|reflexivity]. rewrite nth_overflow by lia. ring.
  - lia.
  - intros i Hi. unfold f. destruct (Nat.leb_spec i n); [lia|reflexivity].
Qed.
Lemma conv_sum_cut a h n : (length a + length h - 1 <= n)%nat -> conv_sum a h n = 0.
Proof.
  intros H. unfold conv_sum. apply rsum_0. intros i Hi. apply rsum_0. intros j Hj.
  replace (i + j =? n)%nat with false by (symmetry; apply Nat.eqb_neq; lia). reflexivity.
Qed.
Lemma conv_sum_cut' a n h : length h = 0%nat -> conv_sum a h n = 0.
Proof. intros H. unfold conv_sum. apply rsum_0. intros i Hi. rewrite H. reflexivity. Qed.
Lemma nth_convolve a h n : nth n (convolve a h) 0 = conv_sum a h n.
Proof.
  destruct a as [|x a].
  { unfold convolve. destruct n; reflexivity. }
  destruct h as [|y h].
  { unfold convolve. rewrite conv_sum_cut' by reflexivity. destruct n; reflexivity. }
  unfold convolve. destruct (Nat.lt_ge_cases n (length (x :: a) + length (y :: h) - 1)) as [H|H].
  - rewrite nth_map_seq by exact H. apply conv_at_sum.
  - rewrite nth_overflow by (rewrite map_length, seq_length; exact H). symmetry. apply conv_sum_cut, H.
Qed.

Lemma conv_sum_lin a b x y z h n : length x = length z -> length y = length z ->
  (forall i, (i < length z)%nat -> nth i z 0 = a * nth i x 0 + b * nth i y 0) ->
  conv_sum z h n = a * conv_sum x h n + b * conv_sum y h n.
Proof.
  intros Lx Ly H. unfold conv_sum. rewrite Lx, Ly, <- !rsum_scal, <- rsum_plus. apply rsum_ext. intros i Hi.
  rewrite <- !rsum_scal, <- rsum_plus. apply rsum_ext. intros j Hj.
  destruct (i + j =? n)%nat; [|ring]. rewrite H by exact Hi. ring.
Qed.
Lemma abs_sum_part h n : rsum n (fun j => Rabs (nth j h 0)) <= abs_sum h.
Proof.
  unfold abs_sum. destruct (Nat.le_ge_cases n (length h)) as [H|H].
  - replace (length h) with (n + (length h - n))%nat by lia. rewrite rsum_app.
    match goal with |- _ <= _ + ?r => assert (0 <= r) by (apply rsum_nonneg; intros; apply Rabs_pos) end. lra.
  - rewrite (rsum_extend (length h) n); [apply Rle_refl|exact H|].
    intros i Hi. rewrite nth_overflow by lia. apply Rabs_R0.
Qed.
Lemma conv_sum_bound x h n e : 0 <= e -> (forall v, In v x -> Rabs v <= e) -> Rabs (conv_sum x h n) <= e * abs_sum h.
Proof.
  intros He H. rewrite <- conv_at_sum. unfold conv_at.
  eapply Rle_trans; [apply rsum_abs|].
  rewrite (rsum_rev (S n)).
  apply Rle_trans with (rsum (S n) (fun j => e * Rabs (nth j h 0))).
  - apply rsum_le. intros i Hi. replace (n - (S n - 1 - i))%nat with i by lia. rewrite Rabs_mult.
    apply Rmult_le_compat_r; [apply Rabs_pos|].
    destruct (Nat.lt_ge_cases (S n - 1 - i) (length x)) as [G|G].
    + apply H, nth_In, G.
    + rewrite nth_overflow by exact G. rewrite Rabs_R0. exact He.
  - rewrite rsum_scal. apply Rmult_le_compat_l; [exact He|]. apply abs_sum_part.
Qed.

(** ** the channel loop *)
Lemma iadd_same a b : length b = length a -> exists c, iadd a b = Ok c /\ length c = length a /\
  forall n, (n < length a)%nat -> nth n c 0 = nth n a 0 + nth n b 0.
Proof.
  intros H. unfold iadd. rewrite H, Nat.eqb_refl. eexists. split; [reflexivity|].
  split; [rewrite map_length, combine_length; lia|]. intros n Hn.
  rewrite nth_map_in with (d' := (0, 0)) by (rewrite combine_length; lia).
  rewrite combine_nth by auto. reflexivity.
Qed.
Lemma gate_empty : gate_open [] = false. Proof. reflexivity. Qed.
Lemma length_conv_nonempty a h : a <> [] -> h <> [] -> length (convolve a h) = (length a + length h - 1)%nat.
Proof. intros Ha Hh. rewrite length_convolve. destruct a, h; try congruence; reflexivity. Qed.

Lemma bin_loop_ok hr ori S T : (1 <= T)%nat -> forall chs hl hh accl accr,
  (forall c, (c < length chs)%nat ->
     nearest_hrirs hr (fst (snd (nth c chs ([], (0, 0)))) - fst ori) (snd (snd (nth c chs ([], (0, 0)))) - snd ori) = Ok (hl c, hh c) /\
     length (hl c) = T /\ length (hh c) = T /\ length (fst (nth c chs ([], (0, 0)))) = S) ->
  length accl = (S + T - 1)%nat -> length accr = (S + T - 1)%nat ->
  exists l r, bin_loop hr ori (accl, accr) chs = Ok (l, r) /\ length l = (S + T - 1)%nat /\ length r = (S + T - 1)%nat /\
    forall n, (n < S + T - 1)%nat ->
      nth n l 0 = nth n accl 0 + rsum (length chs) (fun c => if gate_open (fst (nth c chs ([], (0, 0)))) then conv_sum (fst (nth c chs ([], (0, 0)))) (hl c) n else 0) /\
      nth n r 0 = nth n accr 0 + rsum (length chs) (fun c => if gate_open (fst (nth c chs ([], (0, 0)))) then conv_sum (fst (nth c chs ([], (0, 0)))) (hh c) n else 0).
Proof.
  intros HT. induction chs as [|[sg dir] chs IH]; intros hl hh accl accr H Ll Lr.
  - exists accl, accr. split; [reflexivity|]. split; [exact Ll|]. split; [exact Lr|]. intros n Hn. cbn [length rsum]. split; ring.
  - cbn [bin_loop bin_channel]. destruct (H 0%nat) as (N0 & T1 & T2 & S0); [cbn; lia|]. cbn [nth fst snd] in N0, S0.
    assert (HS : forall c, (c < length chs)%nat ->
      nearest_hrirs hr (fst (snd (nth c chs ([], (0, 0)))) - fst ori) (snd (snd (nth c chs ([], (0, 0)))) - snd ori) = Ok (hl (Datatypes.S c), hh (Datatypes.S c)) /\
      length (hl (Datatypes.S c)) = T /\ length (hh (Datatypes.S c)) = T /\ length (fst (nth c chs ([], (0, 0)))) = S).
    { intros c Hc. apply (H (Datatypes.S c)). cbn. lia. }
    destruct (gate_open sg) eqn:G.
    + rewrite N0. cbn [bind fst snd].
      assert (Hs : sg <> []) by (intros ->; discriminate).
      assert (C1 : length (convolve sg (hl 0%nat)) = length accl).
      { rewrite length_conv_nonempty, S0, T1, Ll; auto. intros E. rewrite E in T1. cbn in T1. lia. }
      assert (C2 : length (convolve sg (hh 0%nat)) = length accr).
      { rewrite length_conv_nonempty, S0, T2, Lr; auto. intros E. rewrite E in T2. cbn in T2. lia. }
      destruct (iadd_same accl (convolve sg (hl 0%nat)) C1) as (l1 & E1 & L1 & A1). rewrite E1. cbn [bind].
      destruct (iadd_same accr (convolve sg (hh 0%nat)) C2) as (r1 & E2 & L2 & A2). rewrite E2. cbn [bind].
      destruct (IH (fun c => hl (Datatypes.S c)) (fun c => hh (Datatypes.S c)) l1 r1 HS) as (l & r & E & Ml & Mr & A); [lia|lia|].
      exists l, r. split; [exact E|]. split; [exact Ml|]. split; [exact Mr|]. intros n Hn. destruct (A n Hn) as [B1 B2].
      cbn [length]. rewrite !rsum_shift. cbn [nth fst snd]. rewrite G, B1, B2, A1, A2, !nth_convolve by lia. split; ring.
    + cbn [bind].
      destruct (IH (fun c => hl (Datatypes.S c)) (fun c => hh (Datatypes.S c)) accl accr HS Ll Lr) as (l & r & E & Ml & Mr & A).
      exists l, r. split; [exact E|]. split; [exact Ml|]. split; [exact Mr|]. intros n Hn. destruct (A n Hn) as [B1 B2].
      cbn [length]. rewrite !rsum_shift. cbn [nth fst snd]. rewrite G, B1, B2. split; ring.
Qed.

Lemma gate_heard x : gate_open x = true <-> heard x.
Proof.
  unfold gate_open, heard. rewrite existsb_exists.
  split; intros (v & Hv & H); exists v; split; auto.
  - apply Rltb_true in H. lra.
  - apply Rltb_true. lra.
Qed.

Lemma directions_exist h ori hr T : hrir_set hr T -> (forall p, In p (h_points h) -> p <> h_listener h) ->
  exists az ze di hl hh, rendered_from h ori hr az ze di hl hh.
Proof.
  intros (HT & Ne & Lz & Ll & Lr & _) Hp.
  set (q := fun c => sub3 (@nth V3 c (h_points h) (0, 0, 0)) (h_listener h)).
  set (s := fun c => cart2sph (vx (q c)) (vy (q c)) (vz (q c)) false false).
  set (az := fun c => fst (fst (s c))). set (ze := fun c => match snd (fst (s c)) with Some z => z | None => 0 end).
  set (di := fun c => snd (s c)).
  set (nh := fun c => match nearest_hrirs hr (az c - fst ori) (ze c - snd ori) with Ok p => p | Err _ => ([], []) end).
  exists az, ze, di, (fun c => fst (nh c)), (fun c => snd (nh c)).
  intros c Hc. cbv zeta. fold (q c).
  assert (Q0 : (vx (q c), vy (q c), vz (q c)) <> (0, 0, 0)).
  { intros E. apply (Hp (@nth V3 c (h_points h) (0, 0, 0))); [apply (@nth_In V3), Hc|].
    unfold q in E. revert E. destruct (@nth V3 c (h_points h) (0, 0, 0)) as [[a b] d], (h_listener h) as [[a' b'] d'].
    unfold sub3. cbn [vx vy vz fst snd]. intros E. injection E as E1 E2 E3.
    replace a with a' by lra. replace b with b' by lra. replace d with d' by lra. reflexivity. }
  destruct (cart_sph_cart (vx (q c)) (vy (q c)) (vz (q c)) false false Q0) as (a & z & r & E & B); [discriminate|].
  destruct (cart2sph_ranges _ _ _ _ _ _ _ _ E) as (R1 & R2 & R3 & R4).
  assert (Ea : az c = a) by (unfold az, s; rewrite E; reflexivity).
  assert (Ez : ze c = z) by (unfold ze, s; rewrite E; reflexivity).
  assert (Ed : di c = r) by (unfold di, s; rewrite E; reflexivity).
  assert (Eq : q c = (vx (q c), vy (q c), vz (q c))) by (destruct (q c) as [[? ?] ?]; reflexivity).
  rewrite Ea, Ez, Ed.
  split; [rewrite B; exact Eq|]. split.
  { destruct R2 as [R2|R2]; [exact R2|]. exfalso. apply Q0. rewrite <- B, <- R2. unfold sph2cart. f_equal; [f_equal|]; ring. }
  split; [exact R1|]. split; [exact R4|]. split; [exact E|].
  destruct (nearest_hrirs_spec hr (a - fst ori) (z - snd ori)) as (k & l & rr & _ & N & _ & _); auto.
  unfold nh. rewrite Ea, Ez, N. reflexivity.
Qed.

Lemma nearest_taps hr T azi zen l r : hrir_set hr T -> nearest_hrirs hr azi zen = Ok (l, r) -> length l = T /\ length r = T.
Proof.
  intros (HT & Ne & Lz & Ll & Lr & _ & Fl & Fr) E.
  destruct (nearest_hrirs_spec hr azi zen) as (k & l' & r' & _ & N & N1 & N2); auto.
  rewrite N in E. injection E as <- <-. rewrite Forall_forall in Fl, Fr.
  split; [apply Fl|apply Fr]; eapply nth_error_In; eauto.
Qed.

Lemma superposition h ls fs ori hr T az ze di hl hh : hrir_set hr T -> rendered_from h ori hr az ze di hl hh ->
  h_fs hr = fs -> length (rows ls) = length (h_points h) -> rect ls ->
  exists l r, binauralize h ls fs ori hr = Ok (Some (l, r)) /\
    length l = (cols ls + T - 1)%nat /\ length r = (cols ls + T - 1)%nat /\
    forall n, (n < cols ls + T - 1)%nat ->
      nth n l 0 = rsum (length (h_points h)) (fun c => if gate_open (radiated ls (h_a h) di c) then conv_sum (radiated ls (h_a h) di c) (hl c) n else 0) /\
      nth n r 0 = rsum (length (h_points h)) (fun c => if gate_open (radiated ls (h_a h) di c) then conv_sum (radiated ls (h_a h) di c) (hh c) n else 0).
Proof.
  intros HS HR Hfs HL Hrect. unfold binauralize. rewrite Hfs, Z.eqb_refl. cbn [assert_ bind].
  rewrite HL, Nat.eqb_refl. cbn [assert_ bind].
  set (L := length (h_points h)) in *.
  set (dirs := map (fun c => ((az c, ze c), di c)) (seq 0 L)).
  match goal with |- context[mapM ?f ?l] => assert (M : mapM f l = Ok dirs) end.
  { assert (Ep : h_points h = map (fun c => @nth V3 c (h_points h) (0, 0, 0)) (seq 0 L)).
    { apply (@nth_ext V3) with (d := (0,0,0)) (d' := (0,0,0)); [now rewrite map_length, seq_length|].
      intros k Hk. rewrite (nth_map_in (fun c => @nth V3 c (h_points h) (0, 0, 0)) (seq 0 L) k _ O) by (rewrite seq_length; exact Hk).
      rewrite seq_nth by exact Hk. reflexivity. }
    rewrite Ep, map_map. unfold dirs.
    assert (G : forall l, (forall c, In c l -> (c < L)%nat) ->
      mapM (fun s : R * option R * R => match snd (fst s) with Some z => Ok ((fst (fst s), z), snd s) | None => Err ValueError end)
        (map (fun c => let q := sub3 (@nth V3 c (h_points h) (0, 0, 0)) (h_listener h) in cart2sph (vx q) (vy q) (vz q) false false) l)
      = Ok (map (fun c => ((az c, ze c), di c)) l)).
    { induction l as [|c l IH]; intros Hl; cbn [map mapM]; [reflexivity|].
      destruct (HR c (Hl c (or_introl eq_refl))) as (_ & _ & _ & _ & E & _). cbv zeta in E, IH. cbv zeta. rewrite E. cbn [snd fst bind].
      rewrite IH by (intros; apply Hl; right; auto). reflexivity. }
    apply G. intros c Hc. apply in_seq in Hc. lia. }
  rewrite M.
  set (chs := map _ (combine (rows ls) dirs)).
  assert (Lc : length chs = L).
  { unfold chs. rewrite map_length, combine_length. unfold dirs. rewrite map_length, seq_length. lia. }
  assert (Nc : forall c, (c < L)%nat -> nth c chs ([], (0, 0)) = (radiated ls (h_a h) di c, (az c, ze c))).
  { intros c Hc. unfold chs. rewrite nth_map_in with (d' := ([], ((0, 0), 0))) by (rewrite combine_length; unfold dirs; rewrite map_length, seq_length; lia).
    rewrite combine_nth by (unfold dirs; rewrite map_length, seq_length; lia). unfold dirs. rewrite nth_map_seq by exact Hc.
    cbn [fst snd]. f_equal. unfold radiated. apply map_ext. intros v.
    destruct (HR c Hc) as (_ & Hd & _). unfold np_pow.
    replace (Reqb (di c) 0) with false by (symmetry; apply Reqb_false; lra). unfold Rdiv. ring. }
  destruct HS as (HT & HS'). assert (HS : hrir_set hr T) by (split; auto).
  destruct HS' as (_ & _ & _ & _ & Et & _). rewrite Et.
  destruct (bin_loop_ok hr ori (cols ls) T HT chs hl hh (repeat 0 (cols ls + T - 1)) (repeat 0 (cols ls + T - 1))) as (l & r & E & L1 & L2 & A).
  - intros c Hc. rewrite Lc in Hc. rewrite (Nc c Hc). cbn [fst snd].
    destruct (HR c Hc) as (_ & _ & _ & _ & _ & N). destruct (nearest_taps _ _ _ _ _ _ HS N) as [T1 T2].
    split; [exact N|]. split; [exact T1|]. split; [exact T2|]. unfold radiated. rewrite map_length.
    unfold rect in Hrect. rewrite Forall_forall in Hrect. apply Hrect, nth_In. lia.
  - apply repeat_length.
  - apply repeat_length.
  - exists l, r. rewrite E. cbn [bind]. split; [reflexivity|]. split; [exact L1|]. split; [exact L2|].
    intros n Hn. destruct (A n Hn) as [A1 A2]. rewrite A1, A2, Lc.
    assert (Z0 : nth n (repeat 0 (cols ls + T - 1)) 0 = 0) by (apply nth_repeat). rewrite Z0.
    split; rewrite Rplus_0_l; apply rsum_ext; intros c Hc; rewrite (Nc c Hc); reflexivity.
Qed.

