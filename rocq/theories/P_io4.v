(** BRIR files: filling, normalizing and writing the rows. *)
From Coq Require Import String.
From Verif Require Import Base BaseFacts M_utils M_sig M_process M_decoder M_decoder2 M_decoder3 M_parsa2 M_io S_io P_sig P_proc1 P_parsa7 P_io1 P_io2.
Open Scope R_scope.

(** ** rows *)
Lemma set_row_ok w v rows i : length v = w -> (i < length rows)%nat -> set_row w v rows i = Ok (upd rows i v).
Proof. intros L I. unfold set_row. rewrite (proj2 (Nat.eqb_eq _ _) L). cbn [bind]. rewrite (proj2 (Nat.ltb_lt _ _) I). reflexivity. Qed.
Lemma set_pair_ok w a q rows : length (fst q) = w -> length (snd q) = w -> (2 * a + 1 < length rows)%nat ->
  set_pair w a q rows = Ok (upd (upd rows (2 * a) (fst q)) (2 * a + 1) (snd q)).
Proof.
  intros L1 L2 I. unfold set_pair. rewrite set_row_ok by (exact L1 || lia). cbn [bind]. apply set_row_ok; [exact L2|]. rewrite length_upd. exact I.
Qed.
(** what is left of the loop after some angles *)
Definition filled (a k : nat) (ir : nat -> list R * list R) (rows rows' : list (list R)) : Prop :=
  length rows' = length rows /\
  (forall j, (a <= j < a + k)%nat -> nth (2 * j) rows' [] = fst (ir j) /\ nth (2 * j + 1) rows' [] = snd (ir j)) /\
  (forall p, (p < 2 * a \/ 2 * (a + k) <= p)%nat -> nth p rows' [] = nth p rows []).
Lemma fill_loop_ok w f ir k : forall a rows, (forall j, (a <= j < a + k)%nat -> f j = Ok (Some (ir j)) /\ length (fst (ir j)) = w /\ length (snd (ir j)) = w) ->
  (2 * (a + k) <= length rows)%nat -> exists rows', fill_loop w f (seq a k) rows = Ok (Some rows') /\ filled a k ir rows rows'.
Proof.
  induction k as [|k IH]; intros a rows H L.
  - exists rows. split; [reflexivity|]. split; [reflexivity|]. split; [intros j Hj; lia|reflexivity].
  - cbn [seq fill_loop]. destruct (H a ltac:(lia)) as (E & L1 & L2). rewrite E. cbn [bind]. rewrite set_pair_ok by (assumption || lia). cbn [bind].
    set (r1 := upd (upd rows (2 * a) (fst (ir a))) (2 * a + 1) (snd (ir a))).
    assert (LR : length r1 = length rows) by (unfold r1; rewrite !length_upd; reflexivity).
    destruct (IH (S a) r1) as (r2 & E2 & F1 & F2 & F3); [intros j Hj; apply H; lia|lia|].
    exists r2. split; [exact E2|]. split; [lia|]. split.
    + intros j Hj. destruct (Nat.eq_dec j a) as [->|D]; [|apply F2; lia]. rewrite !F3 by lia. unfold r1. split.
      * rewrite nth_upd_other by lia. apply nth_upd_same. lia.
      * apply nth_upd_same. rewrite length_upd. lia.
    + intros p Hp. rewrite F3 by lia. unfold r1. rewrite !nth_upd_other by lia. reflexivity.
Qed.
Lemma fill_loop_inv w f l : forall rows rows', fill_loop w f l rows = Ok (Some rows') -> forall j, In j l -> exists q, f j = Ok (Some q).
Proof.
  induction l as [|a l IH]; intros rows rows' E j Hj; [destruct Hj|]. cbn [fill_loop] in E. destruct (f a) as [[q|]|e] eqn:Fa; cbn [bind] in E; try discriminate.
  destruct (set_pair w a q rows) as [r1|]; [|discriminate]. cbn [bind] in E. destruct Hj as [<-|Hj]; [eauto|]. exact (IH _ _ E j Hj).
Qed.
Lemma fill_loop_ext w f g l : (forall j, In j l -> f j = g j) -> forall rows, fill_loop w f l rows = fill_loop w g l rows.
Proof.
  induction l as [|a l IH]; intros H rows; [reflexivity|]. cbn [fill_loop]. rewrite (H a (or_introl eq_refl)). destruct (g a) as [[q|]|e]; cbn [bind]; try reflexivity.
  destruct (set_pair w a q rows) as [r|]; [|reflexivity]. cbn [bind]. apply IH. intros j Hj. apply H. right. exact Hj.
Qed.
Lemma fill_loop_err w f l e : (forall j q, In j l -> f j = Ok (Some q) -> length (fst q) = w /\ length (snd q) = w) ->
  forall rows a, In a l -> f a = Err e -> (forall j, In j l -> f j <> Ok None) -> exists e', fill_loop w f l rows = Err e'.
Proof.
  induction l as [|b l IH]; intros Hq rows a Ha Ea N; [destruct Ha|]. cbn [fill_loop]. destruct (f b) as [[q|]|e'] eqn:Fb; cbn [bind].
  - destruct (set_pair w b q rows) as [r|]; cbn [bind]; [|eauto]. destruct Ha as [->|Ha]; [congruence|].
    apply (IH ltac:(intros; eapply Hq; [right|]; eassumption) r a Ha Ea). intros j Hj. apply N. right. exact Hj.
  - exfalso. apply (N b (or_introl eq_refl)). exact Fb.
  - eauto.
Qed.

(** ** writing the rows *)
Lemma in_rows_pairs (rows : list (list R)) k ir w : length rows = (2 * k)%nat ->
  (forall j, (j < k)%nat -> nth (2 * j) rows [] = fst (ir j) /\ nth (2 * j + 1) rows [] = snd (ir j) /\ length (fst (ir j)) = w /\ length (snd (ir j)) = w) ->
  (forall x, In x rows -> length x = w) /\
  (forall v, In v (concat rows) -> exists g i, (g < k)%nat /\ (i < w)%nat /\ (v = nth i (fst (ir g)) 0 \/ v = nth i (snd (ir g)) 0)) /\
  (forall g i, (g < k)%nat -> (i < w)%nat -> In (nth i (fst (ir g)) 0) (concat rows) /\ In (nth i (snd (ir g)) 0) (concat rows)).
Proof.
  intros L H. assert (HP : forall p, (p < length rows)%nat -> exists g, (g < k)%nat /\ (nth p rows [] = fst (ir g) \/ nth p rows [] = snd (ir g))).
  { intros p Hp. pose proof (Nat.div_mod p 2 ltac:(lia)) as D. pose proof (Nat.mod_upper_bound p 2 ltac:(lia)) as M. exists (p / 2)%nat. split; [lia|].
    destruct (H (p / 2)%nat ltac:(lia)) as (A & B & _). destruct (Nat.eq_dec (p mod 2) 0) as [Z0|Z0].
    - left. rewrite <- A. f_equal. lia.
    - right. rewrite <- B. f_equal. lia. }
  split; [|split].
  - intros x Hx. destruct (In_nth _ _ [] Hx) as (p & Hp & <-). destruct (HP p Hp) as (g & Hg & [-> | ->]); apply (H g Hg).
  - intros v Hv. apply in_concat in Hv. destruct Hv as (x & Hx & Hv). destruct (In_nth _ _ [] Hx) as (p & Hp & <-). destruct (HP p Hp) as (g & Hg & EQ).
    destruct (H g Hg) as (_ & _ & L1 & L2). destruct (In_nth _ _ 0 Hv) as (i & Hi & <-). exists g, i. split; [exact Hg|]. destruct EQ as [EQ|EQ]; rewrite EQ in *; split; auto; lia.
  - intros g i Hg Hi. destruct (H g Hg) as (A & B & L1 & L2). rewrite <- A, <- B. split; apply in_concat.
    + exists (nth (2 * g) rows []). split; [apply nth_In; lia|]. apply nth_In. rewrite A. lia.
    + exists (nth (2 * g + 1) rows []). split; [apply nth_In; lia|]. apply nth_In. rewrite B. lia.
Qed.
Lemma save_rows_ok y st d name fs w rows : length rows = 720%nat -> (forall x, In x rows -> length x = w) -> (0 < w)%nat -> accepts y 720 fs = true ->
  exists a, save_rows y st d name fs w rows = Ok (put d (expanduser y name) a) /\ au_fs a = fs /\ holds a (map (map (stored y st)) rows).
Proof.
  intros L LW W A. unfold save_rows. change (flat_map _ (seq 0 w)) with (frames w rows). assert (N : (0 < length rows)%nat) by (rewrite L; lia).
  destruct (save_2d y st d (VArr (Nd [w; length rows] (frames w rows))) name (Some fs) fs w rows eq_refl LW W N) as (a & c & E & F & H & _); [rewrite L; exact A|].
  rewrite E. cbn [bind fst]. exists a. auto.
Qed.
Lemma finish_ok y st d name fs w rows ir : length rows = 720%nat ->
  (forall j, (j < 360)%nat -> nth (2 * j) rows [] = fst (ir j) /\ nth (2 * j + 1) rows [] = snd (ir j) /\ length (fst (ir j)) = w /\ length (snd (ir j)) = w) ->
  (0 < w)%nat -> accepts y 720 fs = true ->
  exists a, finish_brirs y st d name fs w (Some rows) = Ok (Some (put d (expanduser y (wav_name name)) a)) /\ brir_file (stored y st) fs w ir a.
Proof.
  intros L H W A. destruct (in_rows_pairs rows 360 ir w L H) as (LW & I1 & I2).
  unfold finish_brirs, normalize_rows. destruct (max_abs_ok (concat rows)) as (p & P).
  { intro Z0. destruct (I2 0%nat 0%nat ltac:(lia) W) as [X _]. rewrite Z0 in X. destruct X. }
  rewrite P. cbn [bind]. destruct (np_max_spec _ _ P) as [Pin Pmax].
  assert (PM : forall v, In v (concat rows) -> Rabs v <= p) by (intros v Hv; apply Pmax, in_map, Hv).
  assert (PP : 0 <= p). { apply in_map_iff in Pin. destruct Pin as (v & <- & _). apply Rabs_pos. }
  set (c := if Rltb 1 p then / p else 1).
  assert (C : 0 < c <= 1). { unfold c. destruct (Rltb 1 p) eqn:B; [|lra]. apply Rltb_true in B. split; [apply Rinv_0_lt_compat; lra|]. rewrite <- Rinv_1. apply Rinv_le_contravar; lra. }
  set (rows' := if Rltb 1 p then map (map (fun x => x / p)) rows else rows).
  assert (LR : length rows' = 720%nat) by (unfold rows'; destruct (Rltb 1 p); [rewrite map_length|]; exact L).
  assert (LW' : forall x, In x rows' -> length x = w).
  { unfold rows'. destruct (Rltb 1 p); [|exact LW]. intros x Hx. apply in_map_iff in Hx. destruct Hx as (u & <- & Hu). rewrite map_length. apply LW. exact Hu. }
  assert (V : forall k i, (k < 720)%nat -> (i < w)%nat -> nth i (nth k rows' []) 0 = c * nth i (nth k rows []) 0).
  { intros k i Hk Hi. unfold rows', c. destruct (Rltb 1 p); [|ring]. rewrite (nth_map_in _ _ k [] []) by (rewrite L; exact Hk).
    rewrite (nth_map_in _ _ i 0 0) by (rewrite (LW _ (nth_In _ _ ltac:(rewrite L; exact Hk))); exact Hi). unfold Rdiv. ring. }
  destruct (save_rows_ok y st d (wav_name name) fs w rows' LR LW' W A) as (a & E & F & HL & HV). rewrite E. cbn [bind].
  rewrite map_length, LR in HL. exists a. split; [reflexivity|]. split; [exact F|]. split; [congruence|].
  assert (NR : nr (au_data a) = w).
  { destruct (HV 0%nat ltac:(rewrite <- HL; apply Nat.lt_0_succ)) as [Q _]. rewrite (nth_map_in _ _ 0 [] []) in Q by (rewrite LR; apply Nat.lt_0_succ). rewrite map_length in Q.
    rewrite <- Q. apply LW'. apply nth_In. rewrite LR. apply Nat.lt_0_succ. }
  split; [exact NR|]. exists c. split; [exact C|].
  assert (ENT : forall k i, (k < 720)%nat -> (i < w)%nat -> ent (au_data a) i k = stored y st (c * nth i (nth k rows []) 0)).
  { intros k i Hk Hi. destruct (HV k ltac:(rewrite <- HL; exact Hk)) as [_ Q]. rewrite <- Q by (rewrite NR; exact Hi).
    rewrite (nth_map_in _ _ k [] []) by (rewrite LR; exact Hk). rewrite (nth_map_in _ _ i 0 0) by (rewrite (LW' _ (nth_In _ _ ltac:(rewrite LR; exact Hk))); exact Hi). rewrite V by assumption. reflexivity. }
  assert (SM : forall v, In v (concat rows) -> Rabs (c * v) <= 1).
  { intros v Hv. rewrite Rabs_mult, (Rabs_right c) by lra. pose proof (PM v Hv) as B. pose proof (Rabs_pos v) as B0. unfold c. destruct (Rltb 1 p) eqn:BT.
    - apply Rltb_true in BT. apply (Rmult_le_reg_l p); [lra|]. rewrite <- Rmult_assoc, Rinv_r by lra. lra.
    - apply Rltb_false in BT. lra. }
  split.
  - intros g i Hg Hi. destruct (H g Hg) as (HA & HB & _). rewrite !ENT by (exact Hi || lia). rewrite HA, HB. split; reflexivity.
  - split.
    + intros g i Hg Hi. destruct (I2 g i Hg Hi) as [X Y]. split; apply SM; assumption.
    + unfold c. destruct (Rltb 1 p) eqn:BT; [right|left; reflexivity]. apply Rltb_true in BT. apply in_map_iff in Pin. destruct Pin as (v & EV & HvI).
      destruct (I1 v HvI) as (g & i & Hg & Hi & Q). exists g, i. split; [exact Hg|]. split; [exact Hi|].
      assert (ONE : Rabs (/ p * v) = 1) by (rewrite Rabs_mult, EV, (Rabs_right (/ p)) by (left; apply Rinv_0_lt_compat; lra); field; lra).
      destruct Q as [<- | <-]; [left|right]; exact ONE.
Qed.

(** ** lengths of the responses *)
Lemma iadd_length a b c : iadd a b = Ok c -> length c = length a.
Proof.
  unfold iadd. destruct (Nat.eqb_spec (length b) (length a)) as [E|E].
  - intro Q. injection Q as <-. rewrite map_length, combine_length. lia.
  - destruct b as [|v [|]]; try discriminate. intro Q. injection Q as <-. apply map_length.
Qed.
Lemma bin_loop_length hr ori l : forall acc out, bin_loop hr ori acc l = Ok out -> length (fst out) = length (fst acc) /\ length (snd out) = length (snd acc).
Proof.
  induction l as [|[sg di] l IH]; intros acc out E; cbn [bin_loop] in E; [injection E as <-; auto|].
  destruct (bin_channel hr ori acc (sg, di)) as [acc'|] eqn:B; [|discriminate]. cbn [bind] in E. destruct (IH _ _ E) as [A1 A2].
  unfold bin_channel in B. destruct (gate_open sg); [|injection B as <-; auto].
  destruct (nearest_hrirs hr (fst di - fst ori) (snd di - snd ori)) as [hh|]; [|discriminate]. cbn [bind] in B.
  destruct (iadd (fst acc) (convolve sg (fst hh))) as [l1|] eqn:E1; [|discriminate]. cbn [bind] in B.
  destruct (iadd (snd acc) (convolve sg (snd hh))) as [r1|] eqn:E2; [|discriminate]. cbn [bind] in B. injection B as <-. cbn [fst snd] in *.
  apply iadd_length in E1. apply iadd_length in E2. lia.
Qed.
Lemma binauralize_length h ls fs ori hr q : binauralize h ls fs ori hr = Ok (Some q) ->
  length (fst q) = (cols ls + h_taps hr - 1)%nat /\ length (snd q) = (cols ls + h_taps hr - 1)%nat.
Proof.
  unfold binauralize. destruct (h_fs hr =? fs)%Z; [|discriminate]. cbn [assert_ bind]. destruct (Nat.eqb _ _); [|discriminate]. cbn [assert_ bind].
  destruct (mapM _ _) as [dirs|]; [|discriminate]. destruct (bin_loop _ _ _ _) as [out|] eqn:B; [|discriminate]. cbn [bind]. intro Q. injection Q as <-.
  destruct (bin_loop_length _ _ _ _ _ B) as [A1 A2]. cbn [fst snd] in *. rewrite repeat_length in *. auto.
Qed.
Lemma slice_set_length (l : list R) a b v l' : slice_set l a b v = Ok l' -> length v = length (slice l a b) -> length l' = length l.
Proof.
  unfold slice_set, slice. set (a' := norm_idx (length l) a). set (b' := norm_idx (length l) b). intros E L. rewrite firstn_length, skipn_length in L.
  assert (NA : (a' <= length l)%nat). { unfold a', norm_idx. destruct (a <? 0)%Z eqn:T; [apply Z.ltb_lt in T|apply Z.ltb_ge in T]; lia. }
  assert (NB : (b' <= length l)%nat). { unfold b', norm_idx. destruct (b <? 0)%Z eqn:T; [apply Z.ltb_lt in T|apply Z.ltb_ge in T]; lia. }
  destruct (Nat.eqb_spec (length v) (Nat.max a' b' - a')) as [E1|E1].
  - injection E as <-. rewrite !app_length, firstn_length, skipn_length. lia.
  - exfalso. apply E1. lia.
Qed.
Lemma iadd_at_length out i v o : iadd_at out i v = Ok o -> length o = length out.
Proof.
  unfold iadd_at. destruct (iadd _ v) as [s|] eqn:E; [|discriminate]. cbn [bind]. intro Q. apply (slice_set_length _ _ _ _ _ Q). apply iadd_length in E. exact E.
Qed.
Lemma bsdm_loop_length hr ds : forall i acc out, bsdm_loop hr i ds acc = Ok out -> length (fst out) = length (fst acc) /\ length (snd out) = length (snd acc).
Proof.
  induction ds as [|[p [ph th]] ds IH]; intros i acc out E; cbn [bsdm_loop] in E; [injection E as <-; auto|].
  destruct (nearest_hrirs hr ph th) as [hh|]; [|discriminate]. cbn [bind] in E.
  destruct (iadd_at (fst acc) i _) as [l1|] eqn:E1; [|discriminate]. cbn [bind] in E.
  destruct (iadd_at (snd acc) i _) as [r1|] eqn:E2; [|discriminate]. cbn [bind] in E. destruct (IH _ _ _ E) as [A1 A2]. cbn [fst snd] in *.
  apply iadd_at_length in E1. apply iadd_at_length in E2. lia.
Qed.
Lemma bsdm_length p phi theta hr lo de sc q : render_bsdm p phi theta hr 1 lo de sc = Ok q -> (0 < length p + h_taps hr)%nat ->
  length (fst q) = (length p + h_taps hr - 1)%nat /\ length (snd q) = (length p + h_taps hr - 1)%nat.
Proof.
  unfold render_bsdm, np_zeros. intros E W. destruct (Z.ltb_spec (Z.of_nat (length p) + Z.of_nat (h_taps hr) - 1) 0) as [H|H]; [lia|]. cbn [bind] in E.
  change (1 =? 1)%Z with true in E. cbv iota in E. destruct (bsdm_loop_length _ _ _ _ _ E) as [A1 A2]. cbn [fst snd] in *. rewrite repeat_length in *. lia.
Qed.
