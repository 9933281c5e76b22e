(** Signals in memory: a caller touches only what is theirs. *)
From Coq Require Import String.
From Verif Require Import Base BaseFacts M_utils M_sig M_process M_sph0 M_sph M_grids M_decoder M_decoder2 M_decoder3 M_parsa2 M_io M_sig2 S_sig2.
Open Scope R_scope.

Section Frame.
Variables (s : bool) (L : sides).
Definition fresh (m : mem) : Prop :=
  (forall b, (length (bufs m) <= b)%nat -> sb L b = s) /\ (forall a, (length (arrs m) <= a)%nat -> sa L a = s) /\ (forall o, (length (objs m) <= o)%nat -> so L o = s).
Definition inv (m : mem) : Prop := apart L m /\ fresh m.
Definition frame (m m' : mem) : Prop :=
  (length (bufs m) <= length (bufs m'))%nat /\ (exists t, arrs m' = arrs m ++ t) /\ (length (objs m) <= length (objs m'))%nat /\
  (forall b, (b < length (bufs m))%nat -> sb L b <> s -> nth_error (bufs m') b = nth_error (bufs m) b) /\
  (forall o, (o < length (objs m))%nat -> so L o <> s -> nth_error (objs m') o = nth_error (objs m) o).
Definition know (la lo : list nat) (m : mem) : Prop :=
  (forall a, In a la -> (a < length (arrs m))%nat /\ sa L a = s) /\ (forall o, In o lo -> (o < length (objs m))%nat /\ so L o = s).
Definition good {A} (p : prog A) (la lo : list nat) (ra ro : A -> list nat) : Prop :=
  forall m, inv m -> know la lo m -> inv (snd (p m)) /\ frame m (snd (p m)) /\ forall a, fst (p m) = Ok a -> know (ra a) (ro a) (snd (p m)).

Lemma frame_refl m : frame m m.
Proof. split; [lia|]. split; [exists []; symmetry; apply app_nil_r|]. split; [lia|]. auto. Qed.
Lemma frame_trans m1 m2 m3 : frame m1 m2 -> frame m2 m3 -> frame m1 m3.
Proof.
  intros (A1 & (t1 & A2) & A3 & A4 & A5) (B1 & (t2 & B2) & B3 & B4 & B5). split; [lia|]. split; [exists (t1 ++ t2); rewrite B2, A2, app_assoc; reflexivity|]. split; [lia|]. split.
  - intros b Hb Hs. rewrite B4 by (auto; lia). apply A4; auto.
  - intros o Ho Hs. rewrite B5 by (auto; lia). apply A5; auto.
Qed.
Lemma know_frame la lo m m' : frame m m' -> know la lo m -> know la lo m'.
Proof.
  intros (_ & (t & A2) & A3 & _) (K1 & K2). split.
  - intros a Ha. destruct (K1 a Ha) as (B & C). split; [rewrite A2, app_length; lia|exact C].
  - intros o Ho. destruct (K2 o Ho) as (B & C). split; [lia|exact C].
Qed.
Lemma know_app la lo la' lo' m : know la lo m -> know la' lo' m -> know (la ++ la') (lo ++ lo') m.
Proof. intros (A & B) (C & D). split; intros x Hx; apply in_app_or in Hx; destruct Hx; auto. Qed.
Lemma know_incl la lo la' lo' m : incl la' la -> incl lo' lo -> know la lo m -> know la' lo' m.
Proof. intros A B (C & D). split; intros x Hx; auto. Qed.

Lemma good_ret {A} (a : A) la lo ra ro : incl (ra a) la -> incl (ro a) lo -> good (pret a) la lo ra ro.
Proof. intros Ia Io m I K. unfold pret. cbn [fst snd]. split; [exact I|]. split; [apply frame_refl|]. intros b [= <-]. exact (know_incl _ _ _ _ _ Ia Io K). Qed.
Lemma good_raise {A} e la lo (ra ro : A -> list nat) : good (praise e) la lo ra ro.
Proof. intros m I K. unfold praise. cbn [fst snd]. split; [exact I|]. split; [apply frame_refl|]. discriminate. Qed.
Lemma good_lift {A} (r : res A) la lo : good (plift r) la lo (fun _ => []) (fun _ => []).
Proof. intros m I K. unfold plift. cbn [fst snd]. split; [exact I|]. split; [apply frame_refl|]. intros a _. split; intros x []. Qed.
Lemma good_bind {A B} (p : prog A) (f : A -> prog B) la lo ra ro ra' ro' :
  good p la lo ra ro -> (forall a, good (f a) (ra a ++ la) (ro a ++ lo) ra' ro') -> good (pbind p f) la lo ra' ro'.
Proof.
  intros Hp Hf m I K. unfold pbind. destruct (Hp m I K) as (I1 & F1 & K1). destruct (p m) as [r m1]. cbn [fst snd] in *. destruct r as [a|e].
  - specialize (K1 a eq_refl). destruct (Hf a m1 I1 (know_app _ _ _ _ _ K1 (know_frame _ _ _ _ F1 K))) as (I2 & F2 & K2).
    split; [exact I2|]. split; [exact (frame_trans _ _ _ F1 F2)|exact K2].
  - cbn [fst snd]. split; [exact I1|]. split; [exact F1|]. discriminate.
Qed.
Lemma good_weak {A} (p : prog A) la lo la' lo' ra ro ra' ro' : good p la' lo' ra' ro' -> incl la' la -> incl lo' lo -> (forall a, incl (ra a) (ra' a)) -> (forall a, incl (ro a) (ro' a)) -> good p la lo ra ro.
Proof.
  intros H A1 A2 A3 A4 m I K. destruct (H m I (know_incl _ _ _ _ _ A1 A2 K)) as (I1 & F1 & K1). split; [exact I1|]. split; [exact F1|].
  intros a Ha. exact (know_incl _ _ _ _ _ (A3 a) (A4 a) (K1 a Ha)).
Qed.
Lemma good_pmap {A B} (f : A -> prog B) l la lo (ra ro : B -> list nat) : (forall x, In x l -> good (f x) la lo ra ro) ->
  good (pmap f l) la lo (flat_map ra) (flat_map ro).
Proof.
  induction l as [|x t IH]; intros H.
  - apply good_ret; intros y [].
  - cbn [pmap]. apply good_bind with (ra := ra) (ro := ro); [apply H; left; reflexivity|]. intros y.
    apply good_bind with (ra := flat_map ra) (ro := flat_map ro).
    + apply (good_weak _ _ _ la lo _ _ (flat_map ra) (flat_map ro)); [apply IH; intros; apply H; right; assumption| | | |]; try (intros; apply incl_refl); apply incl_appr, incl_refl.
    + intros r. apply good_ret; cbn [flat_map]; apply incl_app; [apply incl_appr, incl_appl, incl_refl|apply incl_appl, incl_refl|apply incl_appr, incl_appl, incl_refl|apply incl_appl, incl_refl].
Qed.

Lemma good_get_arr a la lo : good (get_arr a) la lo (fun _ => []) (fun _ => []).
Proof. intros m I K. unfold get_arr. destruct (nth_error (arrs m) a); (split; [exact I|]; split; [apply frame_refl|]; intros v _; split; intros x []). Qed.
Lemma good_get_obj o la lo : In o lo -> good (get_obj o) la lo held_arrs held_objs.
Proof.
  intros Ho m I K. unfold get_obj. destruct (nth_error (objs m) o) as [x|] eqn:E; (split; [exact I|]; split; [apply frame_refl|]; cbn [fst snd]); [|discriminate].
  intros y [= <-]. destruct I as ((_ & I) & _). destruct (I o x E) as (I1 & I2). destruct K as (_ & K). destruct (K o Ho) as (_ & Ks). split; intros z Hz; [destruct (I1 z Hz)|destruct (I2 z Hz)]; split; congruence.
Qed.
Lemma good_look {A} (f : obj -> prog A) o la lo ra ro : (forall x, good (f x) la lo ra ro) -> good (let! x := get_obj o in f x) la lo ra ro.
Proof.
  intros H m I K. unfold pbind, get_obj. destruct (nth_error (objs m) o) as [x|]; [exact (H x m I K)|]. split; [exact I|]. split; [apply frame_refl|]. discriminate.
Qed.
Lemma good_look_sig o la lo : good (sig_of o) la lo (fun _ => []) (fun _ => []).
Proof. apply good_look. intros [a f|cs f n|cs f n w x y z]; [|apply good_raise|apply good_raise]. apply good_ret; apply incl_nil_l. Qed.
Lemma good_look_fs o la lo : good (fs_of o) la lo (fun _ => []) (fun _ => []).
Proof. apply good_look. intros x. apply good_ret; apply incl_nil_l. Qed.
Lemma nth_error_upd_same {A} (l : list A) i x : (i < length l)%nat -> nth_error (upd l i x) i = Some x.
Proof. revert i. induction l as [|y t IH]; intros [|i] H; cbn in *; try lia; [reflexivity|]. apply IH. lia. Qed.
Lemma nth_error_upd_other {A} (l : list A) i j x : i <> j -> nth_error (upd l i x) j = nth_error l j.
Proof. revert i j. induction l as [|y t IH]; intros [|i] [|j] H; cbn; try reflexivity; try lia. apply IH. lia. Qed.
Lemma nth_error_snoc {A} (l : list A) x i y : nth_error (l ++ [x]) i = Some y -> (i = length l /\ y = x) \/ nth_error l i = Some y.
Proof.
  intros E. destruct (Nat.lt_ge_cases i (length l)) as [H|H]; [right; rewrite nth_error_app1 in E by exact H; exact E|].
  rewrite nth_error_app2 in E by exact H. left. destruct (i - length l)%nat as [|k] eqn:D; cbn in E; [|destruct k; discriminate]. injection E as <-. split; [lia|reflexivity].
Qed.
Lemma good_set_obj o x la lo : In o lo -> incl (held_arrs x) la -> incl (held_objs x) lo -> good (set_obj o x) la lo (fun _ => []) (fun _ => []).
Proof.
  intros Ho HA HO m ((I1 & I2) & (F1 & F2 & F3)) (K1 & K2). unfold set_obj. cbn [fst snd]. destruct (K2 o Ho) as (Ho' & Hs). split; [|split].
  - split; [split|].
    + cbn [arrs bufs objs]. exact I1.
    + cbn [arrs bufs objs]. intros o' y E. rewrite length_upd. destruct (Nat.eq_dec o o') as [<-|N].
      * rewrite nth_error_upd_same in E by exact Ho'. injection E as <-. split; intros z Hz; [destruct (K1 z (HA z Hz))|destruct (K2 z (HO z Hz))]; split; congruence.
      * rewrite nth_error_upd_other in E by exact N. exact (I2 o' y E).
    + split; [exact F1|]. split; [exact F2|]. cbn [objs]. rewrite length_upd. exact F3.
  - split; [cbn; lia|]. split; [exists []; cbn; symmetry; apply app_nil_r|]. cbn [objs bufs]. rewrite length_upd. split; [lia|]. split; [auto|].
    intros o' Ho'' N. apply nth_error_upd_other. intros ->. contradiction.
  - intros _ _. split; intros z [].
Qed.
Lemma good_new_obj x la lo : incl (held_arrs x) la -> incl (held_objs x) lo -> good (new_obj x) la lo (fun _ => []) (fun o => [o]).
Proof.
  intros HA HO m ((I1 & I2) & (F1 & F2 & F3)) (K1 & K2). unfold new_obj. cbn [fst snd]. split; [|split].
  - split; [split|].
    + exact I1.
    + cbn [arrs bufs objs]. rewrite app_length. cbn [length]. intros o y E. apply nth_error_snoc in E. destruct E as [(-> & ->)|E].
      * rewrite (F3 (length (objs m))) by lia. split; intros z Hz; [destruct (K1 z (HA z Hz))|destruct (K2 z (HO z Hz))]; split; auto; lia.
      * destruct (I2 o y E) as (A & B). split; intros z Hz; [exact (A z Hz)|destruct (B z Hz); split; [lia|assumption]].
    + split; [exact F1|]. split; [exact F2|]. cbn [objs]. rewrite app_length. intros z Hz. apply F3. lia.
  - split; [cbn; lia|]. split; [exists []; cbn; symmetry; apply app_nil_r|]. cbn [objs bufs]. rewrite app_length. split; [lia|]. split; [auto|]. intros z Hz _. apply nth_error_app1. exact Hz.
  - intros z [= <-]. split; [intros ? []|]. intros q [<-|[]]. cbn [objs]. rewrite app_length. cbn [length]. split; [lia|]. apply F3. lia.
Qed.
(** a view of a buffer that belongs to the caller *)
Definition mine_buf (b : nat) (m : mem) : Prop := (b < length (bufs m))%nat /\ sb L b = s.
Lemma new_view_ok v m : inv m -> mine_buf (v_buf v) m -> inv (snd (new_view v m)) /\ frame m (snd (new_view v m)) /\ know [length (arrs m)] [] (snd (new_view v m)) /\ mine_buf (v_buf v) (snd (new_view v m)).
Proof.
  intros ((I1 & I2) & (F1 & F2 & F3)) (B1 & B2). unfold new_view. cbn [fst snd]. split; [|split; [|split]].
  - split; [split|].
    + cbn [arrs bufs]. intros a w E. apply nth_error_snoc in E. destruct E as [(-> & ->)|E]; [|exact (I1 a w E)]. split; [exact B1|]. rewrite B2. symmetry. apply F2. lia.
    + cbn [arrs objs]. intros o y E. destruct (I2 o y E) as (A & B). split; [|exact B]. intros a Ha. destruct (A a Ha). rewrite app_length. split; [lia|assumption].
    + split; [exact F1|]. split; [cbn [arrs]; intros z; rewrite app_length; intros Hz; apply F2; lia|exact F3].
  - split; [cbn; lia|]. split; [eexists; reflexivity|]. split; [cbn; lia|]. split; auto.
  - split; [|intros ? []]. intros a [<-|[]]. cbn [arrs]. rewrite app_length. cbn [length]. split; [lia|]. apply F2. lia.
  - split; assumption.
Qed.
Lemma new_buf_ok l m : inv m -> inv (snd (new_buf l m)) /\ frame m (snd (new_buf l m)) /\ mine_buf (length (bufs m)) (snd (new_buf l m)).
Proof.
  intros ((I1 & I2) & (F1 & F2 & F3)). unfold new_buf. cbn [fst snd]. split; [|split].
  - split; [split|].
    + cbn [arrs bufs]. intros a w E. destruct (I1 a w E). rewrite app_length. split; [lia|assumption].
    + exact I2.
    + split; [cbn [bufs]; intros z; rewrite app_length; intros Hz; apply F1; lia|]. split; [exact F2|exact F3].
  - split; [cbn; rewrite app_length; lia|]. split; [exists []; symmetry; apply app_nil_r|]. split; [cbn; lia|]. cbn [bufs]. split; [|auto]. intros b Hb _. apply nth_error_app1. exact Hb.
  - unfold mine_buf. cbn [bufs]. rewrite app_length. cbn [length]. split; [lia|]. apply F1. lia.
Qed.
Lemma mine_frame b m m' : frame m m' -> mine_buf b m -> mine_buf b m'.
Proof. intros (A & _) (B & C). split; [lia|exact C]. Qed.
Lemma arr_mine a v m : inv m -> nth_error (arrs m) a = Some v -> sa L a = s -> mine_buf (v_buf v) m.
Proof. intros ((I & _) & _) E S. destruct (I a v E) as (A & B). split; [exact A|congruence]. Qed.
Lemma good_new_arr l la lo : good (new_arr l) la lo (fun a => [a]) (fun _ => []).
Proof.
  intros m I K. unfold new_arr, pbind. destruct (new_buf_ok l m I) as (I1 & F1 & B1). unfold new_buf in *. cbn [fst snd] in *.
  destruct (new_view_ok (Arr (length (bufs m)) 0 1 (length l)) _ I1 B1) as (I2 & F2 & K2 & _). split; [exact I2|]. split; [exact (frame_trans _ _ _ F1 F2)|].
  unfold new_view. cbn [fst]. intros a [= <-]. exact K2.
Qed.
(** views of a new buffer *)
Lemma good_views l n (f : nat -> nat -> arr) la lo : (forall b i, v_buf (f b i) = b) -> good (let! b := new_buf l in pmap (fun i => new_view (f b i)) (seq 0 n)) la lo (fun r => r) (fun _ => []).
Proof.
  intros Hf m I K. unfold pbind at 1 2 3 4. destruct (new_buf_ok l m I) as (I1 & F1 & B1). unfold new_buf in *. cbn [fst snd] in *. set (m1 := Mem (bufs m ++ [l]) (arrs m) (objs m)) in *. set (b := length (bufs m)) in *.
  assert (G : forall q k, inv q -> mine_buf b q -> let r := pmap (fun i => new_view (f b i)) (seq k n) q in inv (snd r) /\ frame q (snd r) /\ forall a, fst r = Ok a -> know a [] (snd r)).
  { clear - Hf. induction n as [|n IH]; intros q k I B.
    - cbn. split; [exact I|]. split; [apply frame_refl|]. intros a [= <-]. split; intros x [].
    - cbn [seq pmap]. unfold pbind. destruct (new_view_ok (f b k) q I) as (I2 & F2 & K2 & B2); [rewrite Hf; exact B|]. rewrite Hf in B2. unfold new_view in *. cbn [fst snd] in *.
      specialize (IH _ (S k) I2 B2). destruct (pmap _ (seq (S k) n) _) as [r q2]. cbn [fst snd] in *. destruct IH as (I3 & F3 & K3). unfold pret. destruct r as [r|e]; cbn [fst snd].
      + split; [exact I3|]. split; [exact (frame_trans _ _ _ F2 F3)|]. intros a [= <-]. apply (know_incl ([length (arrs q)] ++ r) ([] ++ [])); [apply incl_refl|apply incl_refl|]. apply know_app; [exact (know_frame _ _ _ _ F3 K2)|apply K3; reflexivity].
      + split; [exact I3|]. split; [exact (frame_trans _ _ _ F2 F3)|]. discriminate. }
  destruct (G m1 0%nat I1 B1) as (I2 & F2 & K2). split; [exact I2|]. split; [exact (frame_trans _ _ _ F1 F2)|exact K2].
Qed.
Lemma good_new_rows n c l la lo : good (new_rows n c l) la lo (fun r => r) (fun _ => []).
Proof. exact (good_views l n (fun b r => Arr b (r * c) 1 c) la lo (fun _ _ => eq_refl)). Qed.
Lemma good_new_cols n c l la lo : good (new_cols n c l) la lo (fun r => r) (fun _ => []).
Proof. exact (good_views l c (fun b j => Arr b j c n) la lo (fun _ _ => eq_refl)). Qed.
Lemma good_sub a i j la lo : In a la -> good (sub a i j) la lo (fun a => [a]) (fun _ => []).
Proof.
  intros Ha m I K. unfold sub, pbind, get_arr. destruct (nth_error (arrs m) a) as [v|] eqn:E; cbn [fst snd]; [|split; [exact I|]; split; [apply frame_refl|discriminate]].
  destruct K as (K & _). destruct (K a Ha) as (_ & Sa). destruct (new_view_ok (sub_view v i j) m I (arr_mine a v m I E Sa)) as (I2 & F2 & K2 & _). split; [exact I2|]. split; [exact F2|]. unfold new_view. cbn [fst]. intros x [= <-]. exact K2.
Qed.
Lemma good_read a la lo : good (read a) la lo (fun _ => []) (fun _ => []).
Proof. intros m I K. unfold read, pbind, get_arr. destruct (nth_error (arrs m) a); cbn [fst snd]; (split; [exact I|]; split; [apply frame_refl|]; intros x _; split; intros ? []). Qed.
Lemma good_write a i x la lo : In a la -> good (write a i x) la lo (fun _ => []) (fun _ => []).
Proof.
  intros Ha m I K. unfold write, pbind, get_arr. destruct (nth_error (arrs m) a) as [v|] eqn:E; cbn [fst snd]; [|split; [exact I|]; split; [apply frame_refl|discriminate]].
  destruct (Nat.ltb i (v_len v)); [|cbn [fst snd praise]; split; [exact I|]; split; [apply frame_refl|discriminate]]. cbn [fst snd]. destruct K as (K & _). destruct (K a Ha) as (_ & Sa). destruct (arr_mine a v m I E Sa) as (_ & Sb).
  destruct I as ((I1 & I2) & (F1 & F2 & F3)). split; [|split].
  - split; [split; [|exact I2]|].
    + cbn [arrs bufs]. rewrite length_upd. exact I1.
    + split; [cbn [bufs]; rewrite length_upd; exact F1|]. split; assumption.
  - split; [cbn; rewrite length_upd; lia|]. split; [exists []; symmetry; apply app_nil_r|]. split; [cbn; lia|]. cbn [bufs objs]. split; [|auto]. intros b Hb N. apply nth_error_upd_other. intros <-. contradiction.
  - intros _ _. split; intros ? [].
Qed.

Ltac inc := try (intros ?; apply incl_refl); cbn; auto with datatypes; repeat first [apply incl_nil_l | apply incl_refl | apply incl_cons; [cbn; tauto|] | solve [intros ?x; cbn; tauto]].
Lemma good_as_1d x la lo : incl (parg_arrs x) la -> good (as_1d x) la lo (fun a => [a]) (fun _ => []).
Proof.
  intros H. destruct x as [a|l]; [|apply good_new_arr]. assert (Ha : In a la) by (apply H; left; reflexivity). cbn [as_1d].
  intros m I K. unfold pbind, get_arr. destruct (nth_error (arrs m) a) as [v|] eqn:E; cbn [fst snd]; [|split; [exact I|]; split; [apply frame_refl|discriminate]].
  destruct K as (K & _). destruct (K a Ha) as (La & Sa). destruct (Nat.eqb (v_len v) 1).
  - destruct (new_view_ok v m I (arr_mine a v m I E Sa)) as (I2 & F2 & K2 & _). split; [exact I2|]. split; [exact F2|]. unfold new_view. cbn [fst]. intros y [= <-]. exact K2.
  - unfold pret. cbn [fst snd]. split; [exact I|]. split; [apply frame_refl|]. intros y [= <-]. split; [|intros ? []]. intros z [<-|[]]. auto.
Qed.
Lemma good_mono_new fs x la lo : incl (parg_arrs x) la -> good (mono_new fs x) la lo (fun _ => []) (fun o => [o]).
Proof. intros H. eapply good_bind; [apply good_as_1d, H|]. intros a. cbn beta. apply good_new_obj; cbn; inc. Qed.
Lemma good_multi_chs xs fs la lo : incl (flat_map parg_arrs xs) la -> good (multi_chs xs fs) la lo (fun _ => []) (fun q => fst q).
Proof.
  intros H. destruct fs as [f|]; cbn [multi_chs]; [|apply good_raise]. eapply good_bind; [apply good_pmap with (ra := fun _ => []) (ro := fun o => [o])|].
  - intros x Hx. apply good_mono_new. intros a Ha. apply H, in_flat_map. eauto.
  - intros cs. apply good_ret; cbn [fst]; [inc|]. intros o Ho. apply in_or_app. left. apply in_flat_map. exists o. split; [exact Ho|left; reflexivity].
Qed.
Lemma good_multi_new xs fs la lo : incl (flat_map parg_arrs xs) la -> good (multi_new xs fs) la lo (fun _ => []) (fun o => [o]).
Proof. intros H. eapply good_bind; [apply good_multi_chs, H|]. intros q. apply good_new_obj; cbn; [inc|apply incl_appl, incl_refl]. Qed.
Lemma good_sig_of o la lo : In o lo -> good (sig_of o) la lo (fun a => [a]) (fun _ => []).
Proof. intros H. eapply good_bind; [apply good_get_obj, H|]. intros [f a|cs f n|cs f n w x y z]; [|apply good_raise|apply good_raise]. apply good_ret; cbn; inc. Qed.
Lemma good_fs_of o la lo : In o lo -> good (fs_of o) la lo (fun _ => []) (fun _ => []).
Proof. intros H. eapply good_bind; [apply good_get_obj, H|]. intros x. apply good_ret; inc. Qed.
Lemma good_ambi_obj xs fs la lo : incl (flat_map parg_arrs xs) la -> good (ambi_obj xs fs) la lo held_arrs held_objs.
Proof.
  intros H. eapply good_bind; [apply good_multi_chs, H|]. intros q. destruct (fst q) as [|c0 [|c1 [|c2 [|c3 [|]]]]]; try apply good_raise. cbn zeta.
  assert (G : forall c la' lo', In c lo' -> good (let! s := sig_of c in as_1d (PRef s)) la' lo' (fun a => [a]) (fun _ => [])).
  { intros c la' lo' Hc. eapply good_bind; [apply good_sig_of, Hc|]. intros a. apply good_as_1d. cbn. inc. }
  eapply good_bind; [apply G; cbn; tauto|]. intros w. eapply good_bind; [apply G; cbn; tauto|]. intros x. eapply good_bind; [apply G; cbn; tauto|]. intros y. eapply good_bind; [apply G; cbn; tauto|]. intros z.
  apply good_ret; cbn; inc.
Qed.
Lemma good_ambi_new xs fs la lo : incl (flat_map parg_arrs xs) la -> good (ambi_new xs fs) la lo (fun _ => []) (fun o => [o]).
Proof. intros H. eapply good_bind; [apply good_ambi_obj, H|]. intros x. apply good_new_obj; apply incl_appl, incl_refl. Qed.
Lemma good_set_signal o x la lo : incl (parg_arrs x) la -> In o lo -> good (set_signal o x) la lo (fun _ => []) (fun _ => []).
Proof.
  intros H Ho. eapply good_bind; [apply good_as_1d, H|]. intros a. eapply good_bind; [apply good_get_obj; cbn; exact Ho|]. intros [f t|cs f n|cs f n w u y z].
  - apply good_set_obj; cbn; auto; inc.
  - apply good_ret; inc.
  - apply good_ret; inc.
Qed.
Lemma good_len_of o la lo : In o lo -> good (len_of o) la lo (fun _ => []) (fun _ => []).
Proof.
  intros H. assert (G : forall a la' lo', good (let! v := get_arr a in pret (v_len v)) la' lo' (fun _ => []) (fun _ => [])).
  { intros. eapply good_bind; [apply good_get_arr|]. intros v. apply good_ret; inc. }
  eapply good_bind; [apply good_get_obj, H|]. intros [t f|cs f n|cs f n w u y z].
  - apply G.
  - cbn [chs_of]. destruct cs as [|c cs]; [apply good_raise|]. eapply good_bind; [apply good_sig_of; cbn; tauto|]. intros a. apply G.
  - cbn [chs_of]. destruct cs as [|c cs]; [apply good_raise|]. eapply good_bind; [apply good_sig_of; cbn; tauto|]. intros a. apply G.
Qed.
Lemma good_cut fs a b o la lo : In o lo -> good (cut fs a b o) la lo (fun _ => []) (fun _ => []).
Proof. intros H. eapply good_bind; [apply good_sig_of, H|]. intros t. eapply good_bind; [apply good_sub; cbn; tauto|]. intros t'. apply good_set_signal; cbn; auto. inc. Qed.
Lemma good_unit {A} (p : prog A) la lo ra ro : good p la lo ra ro -> good p la lo (fun _ => []) (fun _ => []).
Proof. intros H. eapply good_weak; [exact H| | | |]; try apply incl_refl; intros; apply incl_nil_l. Qed.
Lemma good_quiet {A} (p : prog A) la lo ra ro : good p la lo ra ro -> good (quiet p) la lo (fun _ => []) (fun _ => []).
Proof. intros H. eapply good_bind; [exact H|]. intros a. apply good_ret; inc. Qed.
Lemma chs_held x : chs_of x = held_objs x.
Proof. destruct x; reflexivity. Qed.
Lemma good_trim_obj o a b t la lo : In o lo -> good (trim_obj o a b t) la lo (fun _ => []) (fun _ => []).
Proof.
  intros H. eapply good_bind; [apply good_len_of, H|]. intros n. eapply good_bind; [apply good_fs_of; exact H|]. intros fs. eapply good_bind; [apply good_lift|]. intros u0.
  eapply good_bind; [apply good_get_obj; exact H|]. set (st := match t with Some d => a + d | None => b end). intros x.
  assert (G : forall cs la' lo', incl cs lo' -> good (let! _ := pmap (fun c => let! f := fs_of c in cut f a st c) cs in pret tt) la' lo' (fun _ => []) (fun _ => [])).
  { intros cs la' lo' Hc. apply good_quiet with (ra := flat_map (fun _ => [])) (ro := flat_map (fun _ => [])). apply good_pmap. intros c Hi. eapply good_bind; [apply good_fs_of, Hc, Hi|]. intros f. apply good_cut. cbn. apply Hc, Hi. }
  destruct x as [t' f|cs f k|cs f k w u y z]; [apply good_cut; cbn; exact H| |]; apply G; cbn [chs_of held_objs]; apply incl_appl, incl_refl.
Qed.
Lemma good_conv_one o h la lo : incl (parg_arrs h) la -> In o lo -> good (conv_one o h) la lo (fun _ => []) (fun _ => []).
Proof.
  intros H Ho. eapply good_bind; [apply good_as_1d, H|]. intros t. eapply good_bind; [apply good_read|]. intros hv. eapply good_bind; [apply good_sig_of; cbn; exact Ho|]. intros a.
  eapply good_bind; [apply good_read|]. intros x. eapply good_bind; [apply good_new_arr|]. intros r. apply good_set_signal; cbn; auto. inc.
Qed.
Lemma good_conv_chs cs : forall hs la lo, incl (flat_map parg_arrs hs) la -> incl cs lo -> good (conv_chs cs hs) la lo (fun _ => []) (fun _ => []).
Proof.
  induction cs as [|c cs IH]; intros [|h hs] la lo H1 H2; cbn [conv_chs]; try (apply good_ret; inc).
  eapply good_bind; [apply good_conv_one|].
  - intros a Ha. apply H1. cbn [flat_map]. apply in_or_app. auto.
  - apply H2. left. reflexivity.
  - intros u0. apply IH; cbn [app].
    + intros a Ha. apply H1. cbn [flat_map]. apply in_or_app. auto.
    + intros a Ha. apply H2. right. exact Ha.
Qed.
Lemma good_conv_obj o hs la lo : incl (flat_map parg_arrs hs) la -> In o lo -> good (conv_obj o hs) la lo (fun _ => []) (fun _ => []).
Proof.
  intros H Ho. eapply good_bind; [apply good_get_obj, Ho|]. intros [t f|cs f n|cs f n w u y z].
  - destruct hs as [|h [|h2 hs]]; try apply good_raise. apply good_conv_one; [|cbn; exact Ho]. cbn [flat_map] in H. rewrite app_nil_r in H. apply incl_appr, H.
  - apply good_conv_chs; [apply incl_appr, H|apply incl_appl, incl_refl].
  - apply good_conv_chs; [apply incl_appr, H|apply incl_appl, incl_refl].
Qed.
Lemma good_stacked o la lo : In o lo -> good (stacked o) la lo (fun _ => []) (fun _ => []).
Proof.
  intros H. eapply good_bind; [apply good_get_obj, H|]. intros x. eapply good_bind; [apply good_pmap with (ra := fun _ => []) (ro := fun _ => [])|].
  - intros c Hc. eapply good_bind; [apply good_sig_of; rewrite chs_held in Hc; apply in_or_app; left; exact Hc|]. intros a. apply good_read.
  - intros [|r t]; [apply good_ret; inc|]. destruct (forallb _ t); [apply good_ret; inc|apply good_raise].
Qed.
Lemma good_signals o la lo : In o lo -> good (get_signals_obj o) la lo (fun r => r) (fun _ => []).
Proof. intros H. eapply good_bind; [apply good_stacked, H|]. intros l. apply good_new_rows. Qed.
Lemma good_resample rs o f la lo : In o lo -> good (resample_obj rs o f) la lo (fun _ => []) (fun _ => []).
Proof.
  intros H. eapply good_bind; [apply good_fs_of, H|]. intros fs. destruct (Z.eqb f fs); [apply good_ret; inc|]. eapply good_bind; [apply good_get_obj; exact H|]. intros x.
  assert (U : forall r la' lo', good (unpack_rows r) la' lo' (flat_map parg_arrs) (fun _ => [])).
  { intros r la' lo'. assert (Z : forall l, flat_map parg_arrs (map PRef l) = l) by (induction l as [|u l IH]; cbn; [reflexivity|f_equal; exact IH]).
    assert (N : forall (l : list (list R)), flat_map parg_arrs (map PLst l) = []) by (induction l as [|u l IH]; cbn; auto).
    assert (N1 : forall (l : list R), flat_map parg_arrs (map (fun x => PLst [x]) l) = []) by (induction l as [|u l IH]; cbn; auto).
    assert (Q : forall rr : list (list R), good (if negb (forallb (fun r => Nat.eqb (length r) (row_len rr)) rr) then praise ValueError else if Nat.eqb (row_len rr) 1 then pret (map PLst rr) else let! l := new_rows (length rr) (row_len rr) (concat rr) in pret (map PRef l)) la' lo' (flat_map parg_arrs) (fun _ => [])).
    { intros rr. destruct (negb _); [apply good_raise|]. destruct (Nat.eqb (row_len rr) 1); [apply good_ret; [rewrite N|]; inc|]. eapply good_bind; [apply good_new_rows|]. intros l. apply good_ret; [rewrite Z; apply incl_appl, incl_refl|inc]. }
    destruct r as [|r [|r2 t]]; cbn [unpack_rows]; [apply Q| |apply Q]. destruct r as [|a [|b r]]; [|apply good_raise|]; (apply good_ret; [rewrite N1|]; inc). }
  assert (M : good (let! l := stacked o in match l with [] => praise ValueError | _ => let! rr := plift (mapM (rs fs f) l) in let! args := unpack_rows rr in
       match x with OAmbi _ _ _ _ _ _ _ => let! y := ambi_obj args (Some f) in set_obj o y | _ => let! q := multi_chs args (Some f) in set_obj o (OMulti (fst q) (snd q) (length (fst q))) end end)
       (held_arrs x ++ la) (held_objs x ++ lo) (fun _ => []) (fun _ => [])).
  { eapply good_bind; [apply good_stacked; apply in_or_app; right; exact H|]. intros l. destruct l as [|r t]; [apply good_raise|]. eapply good_bind; [apply good_lift|]. intros rr. eapply good_bind; [apply U|]. intros args. cbn [app].
    assert (MM : good (let! q := multi_chs args (Some f) in set_obj o (OMulti (fst q) (snd q) (length (fst q)))) (flat_map parg_arrs args ++ held_arrs x ++ la) (held_objs x ++ lo) (fun _ => []) (fun _ => [])).
    { eapply good_bind; [apply good_multi_chs; apply incl_appl, incl_refl|]. intros q. apply good_set_obj; cbn; [apply in_or_app; right; apply in_or_app; right; exact H|inc|apply incl_appl, incl_refl]. }
    assert (MA : good (let! y := ambi_obj args (Some f) in set_obj o y) (flat_map parg_arrs args ++ held_arrs x ++ la) (held_objs x ++ lo) (fun _ => []) (fun _ => [])).
    { eapply good_bind; [apply good_ambi_obj; apply incl_appl, incl_refl|]. intros y. apply good_set_obj; [apply in_or_app; right; apply in_or_app; right; exact H|apply incl_appl, incl_refl|apply incl_appl, incl_refl]. }
    destruct x; assumption. }
  destruct x as [t g|cs g n|cs g n w u y z]; [|exact M|exact M].
  eapply good_bind; [apply good_read|]. intros v. eapply good_bind; [apply good_lift|]. intros r. eapply good_bind; [apply good_new_arr|]. intros q. apply good_set_obj; cbn; auto; inc.
Qed.
(** copies: the memo holds the caller's names *)
Definition memo_vals (k : memo) : list nat := map snd k.
Lemma seen_in k a b : seen k a = Some b -> In b (memo_vals k).
Proof. induction k as [|[x y] t IH]; cbn; [discriminate|]. destruct (Nat.eqb a x); [intros [= <-]; left; reflexivity|]. intros E. right. apply IH, E. Qed.
Lemma good_copy_arr a k la lo : incl (memo_vals k) la -> good (copy_arr a k) la lo (fun q => fst q :: memo_vals (snd q)) (fun _ => []).
Proof.
  intros H. unfold copy_arr. destruct (seen k a) as [b|] eqn:E.
  - apply good_ret; cbn [fst snd]; [|inc]. apply incl_cons; [apply H, (seen_in k a), E|exact H].
  - eapply good_bind; [apply good_read|]. intros v. eapply good_bind; [apply good_new_arr|]. intros b. apply good_ret; [|inc]. cbn. intros z [<-|[<-|Hz]]; [left; reflexivity|left; reflexivity|right; apply H, Hz].
Qed.
Lemma good_copy_chs cs : forall ko ka la lo, incl (memo_vals ko) lo -> incl (memo_vals ka) la -> good (copy_chs cs ko ka) la lo (fun r => memo_vals (snd r)) (fun r => fst r).
Proof.
  induction cs as [|c cs IH]; intros ko ka la lo H2 H3; cbn [copy_chs].
  - apply good_ret; cbn [fst snd]; [exact H3|apply incl_nil_l].
  - destruct (seen ko c) as [d|] eqn:E.
    + eapply good_bind; [apply (IH ko ka la lo H2 H3)|]. intros r. apply good_ret; cbn [fst snd]; [apply incl_appl, incl_refl|]. apply incl_cons; [apply in_or_app; right; apply H2, (seen_in ko c), E|apply incl_appl, incl_refl].
    + eapply good_bind; [apply good_look_sig|]. intros a. eapply good_bind; [apply good_look_fs|]. intros f.
      eapply good_bind; [apply good_copy_arr; cbn; exact H3|]. intros q. eapply good_bind; [apply good_new_obj; cbn; [|inc]; apply incl_cons; [left; reflexivity|apply incl_nil_l]|]. intros d.
      eapply good_bind; [apply IH|].
      * cbn. apply incl_cons; [left; reflexivity|apply incl_tl, H2].
      * cbn. intros z Hz. right. apply in_or_app. left. exact Hz.
      * intros r. apply good_ret; cbn [fst snd]; [apply incl_appl, incl_refl|]. cbn. apply incl_cons; [apply in_or_app; right; left; reflexivity|apply incl_appl, incl_refl].
Qed.
(** whoever owns what is copied: the copy is the caller's *)
Lemma good_copy_obj o la lo : good (copy_obj o) la lo (fun _ => []) (fun o => [o]).
Proof.
  apply good_look. intros [t f|cs f n|cs f n w u y z].
  - eapply good_bind; [apply good_copy_arr; inc|]. intros q. apply good_new_obj; cbn; inc.
  - eapply good_bind; [apply good_copy_chs; apply incl_nil_l|]. intros r. apply good_new_obj; cbn; [inc|apply incl_appl, incl_refl].
  - eapply good_bind; [apply good_copy_chs; apply incl_nil_l|]. intros r.
    eapply good_bind; [apply good_copy_arr; apply incl_appl, incl_refl|]. intros q1.
    eapply good_bind; [apply good_copy_arr; cbn; apply incl_tl, incl_appl, incl_refl|]. intros q2.
    eapply good_bind; [apply good_copy_arr; cbn; apply incl_tl, incl_appl, incl_refl|]. intros q3.
    eapply good_bind; [apply good_copy_arr; cbn; apply incl_tl, incl_appl, incl_refl|]. intros q4.
    apply good_new_obj; cbn [held_arrs held_objs].
    + intros x [<-|[<-|[<-|[<-|[]]]]]; repeat (first [left; reflexivity | right; apply in_or_app; right | apply in_or_app; left; left; reflexivity | apply in_or_app; right]).
    + cbn [app]. apply incl_appl, incl_refl.
Qed.
Lemma good_trim_audio0 o a b la lo : good (trim_audio_obj o a b) la lo (fun _ => []) (fun o => [o]).
Proof.
  eapply good_bind; [apply good_copy_obj|]. intros d. eapply good_bind; [apply good_len_of; left; reflexivity|]. intros n. eapply good_bind; [apply good_fs_of; left; reflexivity|]. intros fs.
  eapply good_bind; [apply good_lift|]. intros u0. eapply good_bind; [apply good_get_obj; left; reflexivity|]. intros x.
  assert (G : forall cs k la' lo', incl cs lo' -> In d lo' -> good (let! _ := pmap (fun c => cut fs a b c) (firstn k cs) in if Nat.ltb (length cs) k then praise IndexError else pret d) la' lo' (fun _ => []) (fun o => [o])).
  { intros cs k la' lo' Hc Hd. eapply good_bind; [apply good_pmap with (ra := fun _ => []) (ro := fun _ => [])|].
    - intros c Hi. apply good_cut, Hc. rewrite <- (firstn_skipn k cs). apply in_or_app. left. exact Hi.
    - intros l. destruct (Nat.ltb (length cs) k); [apply good_raise|]. apply good_ret; [inc|]. apply incl_cons; [apply in_or_app; right; exact Hd|apply incl_nil_l]. }
  destruct x as [t f|cs f k|cs f k w u y z]; [apply good_raise| |]; (apply G; [apply incl_appl, incl_refl|cbn; apply in_or_app; right; left; reflexivity]).
Qed.
Lemma good_trim_audio o a b la lo : In o lo -> good (trim_audio_obj o a b) la lo (fun _ => []) (fun o => [o]).
Proof. intros _. apply good_trim_audio0. Qed.
Lemma map_PRef l : flat_map parg_arrs (map PRef l) = l.
Proof. induction l as [|u l IH]; cbn; [reflexivity|f_equal; exact IH]. Qed.
Lemma good_sh_to_b o la lo : In o lo -> good (sh_to_b_obj o) la lo (fun _ => []) (fun o => [o]).
Proof.
  intros H. eapply good_bind; [apply good_get_obj, H|]. intros x.
  assert (G : good (let! c := copy_obj o in let! l := stacked c in let! B := plift (sh_to_b (rows_mat l) None) in let! rows := new_rows (nr B) (nc B) (flat_mat B) in let! fs := fs_of o in ambi_new (map PRef rows) (Some fs))
    (held_arrs x ++ la) (held_objs x ++ lo) (fun _ => []) (fun o => [o])).
  { eapply good_bind; [apply good_copy_obj|]. intros c. eapply good_bind; [apply good_stacked; left; reflexivity|]. intros l. eapply good_bind; [apply good_lift|]. intros B.
    eapply good_bind; [apply good_new_rows|]. intros rows. eapply good_bind; [apply good_fs_of; cbn; right; apply in_or_app; right; exact H|]. intros fs. apply good_ambi_new. rewrite map_PRef. cbn. apply incl_appl, incl_refl. }
  destruct x; [apply good_raise|exact G|exact G].
Qed.
Lemma good_from_file y d k n fs la lo : good (from_file y d k n fs) la lo (fun _ => []) (fun o => [o]).
Proof.
  eapply good_bind; [apply good_lift|]. intros q. eapply good_bind; [apply good_lift|]. intros f. destruct k, (fst q) as [x|B]; try apply good_raise.
  - eapply good_bind; [apply good_new_arr|]. intros a. apply good_mono_new. cbn. inc.
  - eapply good_bind; [apply good_new_cols|]. intros l. apply good_multi_new. rewrite map_PRef. apply incl_appl, incl_refl.
  - eapply good_bind; [apply good_new_cols|]. intros l. apply good_ambi_new. rewrite map_PRef. apply incl_appl, incl_refl.
Qed.
Lemma good_perform rs y d c : good (perform rs y d c) (call_arrs c) (call_objs c) (fun _ => []) (fun _ => []).
Proof.
  destruct c; cbn [perform call_arrs call_objs].
  - eapply good_quiet, good_new_arr.
  - apply good_write. left. reflexivity.
  - eapply good_quiet, good_sub. left. reflexivity.
  - eapply good_quiet. eapply good_bind; [apply good_sig_of; left; reflexivity|]. intros a. apply good_sub. left. reflexivity.
  - eapply good_quiet, good_mono_new, incl_refl.
  - eapply good_quiet, good_multi_new, incl_refl.
  - eapply good_quiet, good_ambi_new, incl_refl.
  - apply good_set_signal; [apply incl_refl|left; reflexivity].
  - apply good_trim_obj. left. reflexivity.
  - apply good_conv_obj; [apply incl_refl|left; reflexivity].
  - apply good_resample. left. reflexivity.
  - eapply good_quiet, good_copy_obj.
  - eapply good_quiet, good_trim_audio. left. reflexivity.
  - eapply good_quiet, good_signals. left. reflexivity.
  - eapply good_quiet, good_sh_to_b. left. reflexivity.
  - eapply good_quiet, good_from_file.
Qed.
End Frame.
