(** Signals in memory: the methods do to an object what they do to its value. *)
From Coq Require Import String.
From Verif Require Import Base BaseFacts P_utils2 P_sig S_sig M_utils M_sig M_process M_sph0 M_sph M_grids M_decoder M_decoder2 M_decoder3 M_parsa2 M_io M_sig2 S_sig2 P_sig2a P_sig2b P_sig2c P_sig2d.
Open Scope R_scope.

(** every memory a call leaves is sound *)
Lemma sound_inb m : sound m <-> inb m /\ mch m /\ forall o x, nth_error (objs m) o = Some x -> forall a, In a (held_arrs x) -> (a < length (arrs m))%nat.
Proof.
  split.
  - intros (A & B). split; [exact A|]. split; intros o x E; destruct (B o x E) as (B1 & B2 & B3); [split; assumption|exact B1].
  - intros (A & B & C). split; [exact A|]. intros o x E. destruct (B o x E). split; [exact (C o x E)|]. split; assumption.
Qed.
Definition one : sides := Sides (fun _ => true) (fun _ => true) (fun _ => true).
Lemma sound_apart m : sound m -> apart one m.
Proof.
  intros (A & B). split.
  - intros a v E. destruct (A a v E). split; [assumption|reflexivity].
  - intros o x E. destruct (B o x E) as (B1 & B2 & _). split; [intros a Ha; split; [auto|reflexivity]|]. intros c Hc. split; [exact (is_mono_lt m c (B2 c Hc))|reflexivity].
Qed.
Lemma sound_step rs y d m c : sound m -> exists_in m c -> sound (snd (perform rs y d c m)).
Proof.
  intros S (U1 & U2). pose proof (sound_apart m S) as A. apply sound_inb in S. destruct S as (B & C & _).
  destruct (st_perform rs y d c [] [] m B C (sk_nil m)) as (B' & C' & _). apply sound_inb. split; [exact B'|]. split; [exact C'|].
  destruct (good_perform true one rs y d c m) as (((_ & A') & _) & _).
  - split; [exact A|]. repeat split; reflexivity.
  - split; intros x Hx; (split; [auto|reflexivity]).
  - intros o x E a Ha. exact (proj1 (proj1 (A' o x E) a Ha)).
Qed.

(** * Memory grows, samples stay *)
Definition wext (m m' : mem) : Prop := (exists t, bufs m' = bufs m ++ t) /\ (exists t, arrs m' = arrs m ++ t).
Lemma wext_refl m : wext m m. Proof. split; exists []; symmetry; apply app_nil_r. Qed.
Lemma wext_trans a b c : wext a b -> wext b c -> wext a c.
Proof. intros ((x & A) & (y & B)) ((x' & A') & (y' & B')). split; [exists (x ++ x'); rewrite A', A, app_assoc|exists (y ++ y'); rewrite B', B, app_assoc]; reflexivity. Qed.
Lemma wext_len m m' a : wext m m' -> (a < length (arrs m))%nat -> (a < length (arrs m'))%nat.
Proof. intros (_ & (t & E)). rewrite E, app_length. lia. Qed.
Lemma samples_wext m m' a : closed m -> wext m m' -> (a < length (arrs m))%nat -> samples m' a = samples m a.
Proof. intros C ((x & A) & (y & B)) Ha. unfold samples. rewrite B, nth_error_app1 by exact Ha. destruct (nth_error (arrs m) a) as [v|] eqn:E; [|reflexivity]. rewrite A, app_nth1 by exact (C a v E). reflexivity. Qed.
Lemma ext_wext m m' : ext m m' -> wext m m'. Proof. intros (x & y & z & A & B & _). split; eauto. Qed.

(** * One array *)
Lemma view_length b v : length (view_of b v) = v_len v. Proof. unfold view_of. rewrite map_length, seq_length. reflexivity. Qed.
Lemma view_nth b v i d : (i < v_len v)%nat -> nth i (view_of b v) d = nth (v_off v + v_step v * i) b 0.
Proof. intros H. rewrite (nth_indep _ d 0) by (rewrite view_length; exact H). unfold view_of. rewrite (nth_map_seq _ (v_len v)) by exact H. reflexivity. Qed.
Lemma nth_firstn_skipn (l : list R) a n k : (k < n)%nat -> (a + k < length l)%nat -> nth k (firstn n (skipn a l)) 0 = nth (a + k) l 0.
Proof.
  intros H1 H2. assert (E : forall (q : list R) j n, (j < n)%nat -> nth j (firstn n q) 0 = nth j q 0).
  { induction q as [|x q IH]; intros [|j] [|p] Hj; try lia; try reflexivity. cbn. apply IH. lia. }
  rewrite E by exact H1. clear -H2. revert a H2. induction l as [|x l IH]; intros [|a] H; cbn in *; try lia; try reflexivity. apply IH. lia.
Qed.
Lemma view_sub b v i j : view_of b (sub_view v i j) = slice (view_of b v) i j.
Proof.
  unfold slice. rewrite view_length. pose proof (norm_idx_le (v_len v) i) as Hi. pose proof (norm_idx_le (v_len v) j) as Hj. apply nth_ext with (d := 0) (d' := 0).
  - rewrite view_length, firstn_length, skipn_length, view_length. cbn [sub_view v_len]. lia.
  - intros k Hk. rewrite view_length in Hk. rewrite view_nth by exact Hk. cbn [sub_view v_len v_off v_step] in *. rewrite nth_firstn_skipn, view_nth by (rewrite ?view_length; lia). f_equal. ring.
Qed.
Lemma sub_spec m a i j : closed m -> (a < length (arrs m))%nat -> exists m', sub a i j m = (Ok (length (arrs m)), m') /\ ext m m' /\ closed m' /\ objs m' = objs m /\ samples m' (length (arrs m)) = slice (samples m a) i j /\ (length (arrs m) < length (arrs m'))%nat.
Proof.
  intros C Ha. unfold sub, get_arr, pbind. destruct (nth_error (arrs m) a) as [v|] eqn:E; [|apply nth_error_None in E; lia]. unfold new_view. eexists. split; [reflexivity|]. split; [|split; [|split; [|split]]].
  - exists [], [sub_view v i j], []. rewrite !app_nil_r. auto.
  - intros b w Eb. cbn [arrs bufs] in *. apply nth_error_snoc in Eb. destruct Eb as [(_ & ->)|Eb]; [exact (C a v E)|exact (C b w Eb)].
  - reflexivity.
  - unfold samples. cbn [arrs bufs]. rewrite nth_error_app2, Nat.sub_diag by lia. cbn [nth_error]. rewrite E. apply view_sub.
  - cbn [arrs]. rewrite app_length. cbn. lia.
Qed.
Lemma as_1d_spec m x : closed m -> (forall a, In a (parg_arrs x) -> (a < length (arrs m))%nat) ->
  exists s m', as_1d x m = (Ok s, m') /\ ext m m' /\ closed m' /\ objs m' = objs m /\ samples m' s = parg_val m x /\ (s < length (arrs m'))%nat.
Proof.
  intros C Hx. destruct x as [a|l].
  - specialize (Hx a (or_introl eq_refl)). unfold as_1d, get_arr, pbind. destruct (nth_error (arrs m) a) as [v|] eqn:E; [|apply nth_error_None in E; lia]. destruct (Nat.eqb (v_len v) 1).
    + unfold new_view. eexists _, _. split; [reflexivity|]. split; [|split; [|split; [|split]]].
      * exists [], [v], []. rewrite !app_nil_r. auto.
      * intros b w Eb. cbn [arrs bufs] in *. apply nth_error_snoc in Eb. destruct Eb as [(_ & ->)|Eb]; [exact (C a v E)|exact (C b w Eb)].
      * reflexivity.
      * unfold samples at 1. cbn [arrs bufs]. rewrite nth_error_app2, Nat.sub_diag by lia. cbn [nth_error]. unfold parg_val, samples. rewrite E. reflexivity.
      * cbn [arrs]. rewrite app_length. cbn. lia.
    + exists a, m. split; [reflexivity|]. split; [apply ext_refl|]. split; [exact C|]. split; [reflexivity|]. split; [reflexivity|exact Hx].
  - destruct (new_arr_spec l m C) as (m' & E & X & C' & O & SS & L). exists (length (arrs m)), m'. split; [exact E|]. auto.
Qed.

(** * One channel *)
Definition inr_ (m : mem) : Prop := forall o s f, nth_error (objs m) o = Some (OMono s f) -> (s < length (arrs m))%nat.
Definition ready (m : mem) : Prop := closed m /\ inr_ m.
Definition touches (p : prog unit) (c : nat) (F : mono -> mono) (m : mem) : Prop :=
  exists m', p m = (Ok tt, m') /\ wext m m' /\ ready m' /\ (forall o, o <> c -> nth_error (objs m') o = nth_error (objs m) o) /\ is_mono m' c /\ channel_at m' c = F (channel_at m c).
Lemma set_signal_spec m c s f x : ready m -> nth_error (objs m) c = Some (OMono s f) -> (forall a, In a (parg_arrs x) -> (a < length (arrs m))%nat) ->
  touches (set_signal c x) c (fun q => Mono (parg_val m x) (m_fs q)) m.
Proof.
  intros (C & I) E Hx. destruct (as_1d_spec m x C Hx) as (t & m1 & E1 & X & C1 & O1 & S1 & L1). assert (Lc : (c < length (objs m))%nat) by (apply nth_error_Some; rewrite E; discriminate).
  unfold touches, set_signal, pbind. rewrite E1. unfold get_obj. rewrite O1, E. unfold set_obj. eexists. split; [reflexivity|]. rewrite O1. pose proof (ext_wext _ _ X) as W. split; [split; [exact (proj1 W)|exact (proj2 W)]|]. split; [split; [exact C1|]|].
  - intros o s' f' Eo. cbn [arrs objs] in *. destruct (Nat.eq_dec c o) as [<-|N].
    + rewrite nth_error_upd_same in Eo by exact Lc. injection Eo as <- _. exact L1.
    + rewrite nth_error_upd_other in Eo by exact N. exact (wext_len _ _ _ W (I o s' f' Eo)).
  - cbn [objs]. split; [intros o No; apply nth_error_upd_other; congruence|]. split; [eexists _, _; cbn [objs]; apply nth_error_upd_same; exact Lc|].
    unfold channel_at. cbn [objs]. rewrite nth_error_upd_same by exact Lc. rewrite E. cbn [m_fs]. f_equal. rewrite <- S1. reflexivity.
Qed.
Lemma touches_ext p c F G m : (forall q, F q = G q) -> touches p c F m -> touches p c G m.
Proof. intros H (m' & A & B & C & D & E & K). exists m'. rewrite <- H. auto 10. Qed.
Lemma ready_ext m m' : closed m' -> ext m m' -> objs m' = objs m -> ready m -> ready m'.
Proof. intros C X O (_ & I). split; [exact C|]. intros o s f E. rewrite O in E. exact (wext_len _ _ _ (ext_wext _ _ X) (I o s f E)). Qed.
Lemma cut_spec m c g a b : ready m -> is_mono m c -> touches (cut g a b c) c (fun q => Mono (trim_slice (m_sig q) g a b) (m_fs q)) m.
Proof.
  intros Rm (s & f & E). destruct Rm as (C & I). pose proof (I c s f E) as Ls. destruct (sub_spec m s (py_int (a * IZR g)) (py_int (b * IZR g)) C Ls) as (m1 & E1 & X & C1 & O1 & S1 & L1).
  destruct (set_signal_spec m1 c s f (PRef (length (arrs m))) (ready_ext _ _ C1 X O1 (conj C I))) as (m2 & E2 & W & R2 & K & M & V); [rewrite O1; exact E|intros q [<-|[]]; exact L1|].
  exists m2. unfold cut. unfold pbind at 1. unfold sig_of, get_obj, pbind at 1. rewrite E. cbn [pret]. unfold pret. unfold pbind. rewrite E1, E2. split; [reflexivity|]. split; [exact (wext_trans _ _ _ (ext_wext _ _ X) W)|]. split; [exact R2|]. split; [intros o No; rewrite K by exact No; rewrite O1; reflexivity|].
  split; [exact M|]. rewrite V. cbn [parg_val]. rewrite S1. unfold channel_at. rewrite O1, E. reflexivity.
Qed.
Lemma read_spec m a : (a < length (arrs m))%nat -> read a m = (Ok (samples m a), m).
Proof. intros H. unfold read, get_arr, pbind. destruct (nth_error (arrs m) a) eqn:E; [reflexivity|]. apply nth_error_None in E. lia. Qed.
Lemma conv_one_spec m c h : ready m -> is_mono m c -> (forall a, In a (parg_arrs h) -> (a < length (arrs m))%nat) -> touches (conv_one c h) c (fun q => Mono (convolve (m_sig q) (parg_val m h)) (m_fs q)) m.
Proof.
  intros (C & I) (s & f & E) Hh. destruct (as_1d_spec m h C Hh) as (t & m1 & E1 & X1 & C1 & O1 & S1 & L1).
  assert (Ls : (s < length (arrs m1))%nat) by exact (wext_len _ _ _ (ext_wext _ _ X1) (I c s f E)).
  destruct (new_arr_spec (convolve (samples m1 s) (parg_val m h)) m1 C1) as (m2 & E2 & X2 & C2 & O2 & S2 & L2).
  destruct (set_signal_spec m2 c s f (PRef (length (arrs m1))) (ready_ext _ _ C2 X2 O2 (ready_ext _ _ C1 X1 O1 (conj C I)))) as (m3 & E3 & W & R3 & K & M & V); [rewrite O2, O1; exact E|intros q [<-|[]]; exact L2|].
  exists m3. unfold conv_one, pbind. rewrite E1, read_spec by exact L1. unfold sig_of, get_obj, pbind. rewrite O1, E. unfold pret. rewrite (read_spec m1 s Ls), S1, E2, E3. split; [reflexivity|].
  split; [exact (wext_trans _ _ _ (wext_trans _ _ _ (ext_wext _ _ X1) (ext_wext _ _ X2)) W)|]. split; [exact R3|]. split; [intros o No; rewrite K by exact No; rewrite O2, O1; reflexivity|]. split; [exact M|].
  rewrite V. cbn [parg_val]. rewrite S2. unfold channel_at. rewrite O2, O1, E. cbn [m_sig m_fs]. f_equal. f_equal. apply samples_ext; [exact C|exact X1|exact (I c s f E)].
Qed.

(** * The channels *)
Lemma channel_kept m m' o : wext m m' -> ready m -> nth_error (objs m') o = nth_error (objs m) o -> channel_at m' o = channel_at m o.
Proof. intros W (C & I) E. unfold channel_at. rewrite E. destruct (nth_error (objs m) o) as [[s f| |]|] eqn:Eo; try reflexivity. f_equal. apply samples_wext; [exact C|exact W|exact (I o s f Eo)]. Qed.
Definition touched (m m' : mem) (cs : list nat) (new : list mono) : Prop :=
  wext m m' /\ ready m' /\ (forall o, ~ In o cs -> nth_error (objs m') o = nth_error (objs m) o) /\ (forall c, In c cs -> is_mono m' c) /\ map (channel_at m') cs = new.
Lemma touched_cons m m1 m2 c cs x l : ready m -> ~ In c cs -> wext m m1 -> ready m1 -> (forall o, o <> c -> nth_error (objs m1) o = nth_error (objs m) o) -> is_mono m1 c -> channel_at m1 c = x -> touched m1 m2 cs l -> touched m m2 (c :: cs) (x :: l).
Proof.
  intros Rm N W1 R1 K1 M1 V1 (W2 & R2 & K2 & M2 & V2). split; [exact (wext_trans _ _ _ W1 W2)|]. split; [exact R2|]. split; [|split].
  - intros o No. rewrite K2 by (intros H; apply No; right; exact H). apply K1. intros ->. apply No. left. reflexivity.
  - intros d [<-|Hd]; [|auto]. destruct M1 as (s & f & E). exists s, f. rewrite (K2 c N). exact E.
  - cbn [map]. f_equal; [|exact V2]. rewrite (channel_kept m1 m2 c W2 R1 (K2 c N)). exact V1.
Qed.
Lemma still_mono m m1 c d : (forall o, o <> c -> nth_error (objs m1) o = nth_error (objs m) o) -> d <> c -> is_mono m d -> is_mono m1 d.
Proof. intros K N (s & f & E). exists s, f. rewrite K by exact N. exact E. Qed.
Lemma cuts_spec (G : nat -> prog unit) F cs : NoDup cs -> forall m, ready m -> (forall c, In c cs -> is_mono m c) -> (forall c m, In c cs -> ready m -> is_mono m c -> touches (G c) c F m) ->
  exists m', pmap G cs m = (Ok (map (fun _ => tt) cs), m') /\ touched m m' cs (map F (map (channel_at m) cs)).
Proof.
  induction 1 as [|c cs N ND IH]; intros m Rm Hm HG.
  - exists m. split; [reflexivity|]. split; [apply wext_refl|]. split; [exact Rm|]. split; [auto|]. split; [intros c []|reflexivity].
  - destruct (HG c m (or_introl eq_refl) Rm (Hm c (or_introl eq_refl))) as (m1 & E1 & W1 & R1 & K1 & M1 & V1).
    destruct (IH m1 R1) as (m2 & E2 & T); [intros d Hd; apply (still_mono m m1 c d K1); [intros ->; contradiction|apply Hm; right; exact Hd]|intros; apply HG; [right|..]; assumption|].
    exists m2. split; [cbn [pmap]; unfold pbind; rewrite E1, E2; reflexivity|]. cbn [map]. apply (touched_cons m m1); try assumption.
    replace (map F (map (channel_at m) cs)) with (map F (map (channel_at m1) cs)); [exact T|]. f_equal. apply map_ext_in. intros d Hd. apply channel_kept; [exact W1|exact Rm|]. apply K1. intros ->. contradiction.
Qed.
Lemma conv_zip_touch cs : NoDup cs -> forall hs m, ready m -> (forall c, In c cs -> is_mono m c) -> (forall a, In a (flat_map parg_arrs hs) -> (a < length (arrs m))%nat) ->
  exists m' l, conv_chs cs hs m = (Ok tt, m') /\ conv_zip (map (channel_at m) cs) (map (fun h => arr1 (parg_val m h)) hs) = Ok l /\ touched m m' cs l.
Proof.
  induction 1 as [|c cs N ND IH]; intros hs m Rm Hm Ha.
  - exists m, []. destruct hs; (split; [reflexivity|]; split; [reflexivity|]; split; [apply wext_refl|]; split; [exact Rm|]; split; [auto|]; split; [intros c []|reflexivity]).
  - destruct hs as [|h hs].
    + exists m, (map (channel_at m) (c :: cs)). split; [reflexivity|]. split; [reflexivity|]. split; [apply wext_refl|]. split; [exact Rm|]. split; [auto|]. split; [exact Hm|reflexivity].
    + destruct (conv_one_spec m c h Rm (Hm c (or_introl eq_refl)) (fun a H => Ha a (in_or_app _ _ _ (or_introl H)))) as (m1 & E1 & W1 & R1 & K1 & M1 & V1).
      destruct (IH hs m1 R1) as (m2 & l & E2 & Z2 & T); [intros d Hd; apply (still_mono m m1 c d K1); [intros ->; contradiction|apply Hm; right; exact Hd]|intros a H; apply (wext_len _ _ _ W1), Ha; apply in_or_app; right; exact H|].
      exists m2, (channel_at m1 c :: l). split; [cbn [conv_chs]; unfold pbind; rewrite E1, E2; reflexivity|]. split; [|apply (touched_cons m m1); try assumption; reflexivity].
      cbn [map conv_zip]. unfold mono_conv. rewrite asarray_arr1. cbn [bind]. rewrite mono_set_arr1. cbn [bind data arr1]. rewrite V1.
      replace (map (channel_at m) cs) with (map (channel_at m1) cs) by (apply map_ext_in; intros d Hd; apply channel_kept; [exact W1|exact Rm|]; apply K1; intros ->; contradiction).
      replace (map (fun h0 => arr1 (parg_val m h0)) hs) with (map (fun h0 => arr1 (parg_val m1 h0)) hs).
      * rewrite Z2. reflexivity.
      * apply map_ext_in. intros g Hg. f_equal. destruct g as [a|q]; [|reflexivity]. cbn [parg_val]. apply samples_wext; [exact (proj1 Rm)|exact W1|]. apply Ha. apply in_or_app. right. apply in_flat_map. exists (PRef a). split; [exact Hg|left; reflexivity].
Qed.
