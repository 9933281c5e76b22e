(** Audio files: writing. *)
From Coq Require Import String.
From Verif Require Import Base BaseFacts M_utils M_sig M_process M_decoder M_decoder2 M_io S_io P_sig P_proc1 P_io1.
Open Scope R_scope.

(** frames of a list of channels *)
Definition frames (k : nat) (l : list (list R)) : list R := flat_map (fun i => map (fun x => nth i x 0) l) (seq 0 k).
Lemma flat_map_seq_length (f : nat -> list R) c k a : (forall i, length (f i) = c) -> length (flat_map f (seq a k)) = (k * c)%nat.
Proof. intro H. revert a. induction k as [|k IH]; intro a; [reflexivity|]. cbn [seq flat_map]. rewrite app_length, H, IH. lia. Qed.
Lemma flat_map_seq_nth (f : nat -> list R) c k a i j d : (forall i, length (f i) = c) -> (i < k)%nat -> (j < c)%nat ->
  nth (i * c + j) (flat_map f (seq a k)) d = nth j (f (a + i)%nat) d.
Proof.
  intro H. revert a i. induction k as [|k IH]; intros a i Hi Hj; [lia|]. cbn [seq flat_map]. destruct i as [|i].
  - rewrite app_nth1 by (rewrite H; lia). rewrite Nat.mul_0_l, Nat.add_0_l, Nat.add_0_r. reflexivity.
  - rewrite app_nth2 by (rewrite H; lia). rewrite H. replace (S i * c + j - c)%nat with (i * c + j)%nat by lia. rewrite IH by lia.
    f_equal. f_equal. lia.
Qed.
Lemma frames_length k l : length (frames k l) = (k * length l)%nat.
Proof. apply flat_map_seq_length. intro i. apply map_length. Qed.
Lemma nth_frames k l i j : (i < k)%nat -> (j < length l)%nat -> nth (i * length l + j) (frames k l) 0 = nth i (nth j l []) 0.
Proof.
  intros Hi Hj. unfold frames. rewrite flat_map_seq_nth; [|intro; apply map_length|exact Hi|exact Hj].
  rewrite (nth_map_in _ _ j 0 []) by exact Hj. reflexivity.
Qed.
Lemma in_frames k l v : (forall x, In x l -> length x = k) -> In v (frames k l) <-> exists x, In x l /\ In v x.
Proof.
  intro H. unfold frames. rewrite in_flat_map. split.
  - intros (i & Hi & Hv). apply in_seq in Hi. apply in_map_iff in Hv. destruct Hv as (x & <- & Hx). exists x. split; [exact Hx|]. apply nth_In. rewrite (H x Hx). lia.
  - intros (x & Hx & Hv). destruct (In_nth _ _ 0 Hv) as (i & Hi & E). exists i. split; [apply in_seq; rewrite (H x Hx) in Hi; lia|].
    apply in_map_iff. exists x. auto.
Qed.
Lemma max_abs_clip l m : max_abs l = Ok m -> (Rltb 1 m = true <-> exists v, In v l /\ 1 < Rabs v).
Proof.
  intro E. destruct (np_max_spec _ _ E) as [I B]. rewrite Rltb_true. split.
  - intro L. apply in_map_iff in I. destruct I as (v & <- & Hv). exists v. auto.
  - intros (v & Hv & L). apply (Rlt_le_trans _ (Rabs v)); [exact L|]. apply B. apply in_map. exact Hv.
Qed.
Lemma max_abs_ok l : l <> [] -> exists m, max_abs l = Ok m.
Proof. intro H. apply np_max_ok. destruct l; [congruence|discriminate]. Qed.

Lemma put_same d n a : put d n a n = Some a.
Proof. unfold put. rewrite String.eqb_refl. reflexivity. Qed.
Lemma put_other d n a m : m <> n -> put d n a m = d m.
Proof. intro H. unfold put. destruct (String.eqb_spec m n); [contradiction|reflexivity]. Qed.

(** ** two-dimensional data *)
Lemma save_2d y st d s name fs rate k l : save_data s fs = Ok (Nd [k; length l] (frames k l), rate) ->
  (forall x, In x l -> length x = k) -> (0 < k)%nat -> (0 < length l)%nat -> accepts y (length l) rate = true ->
  exists a c, save_audio y st d s name fs = Ok (put d (expanduser y name) a, (Nat.ltb k (length l), c)) /\
    au_fs a = rate /\ holds a (map (map (stored y st)) l) /\ (c = true <-> clips l).
Proof.
  intros E L K N A. unfold save_audio, module_is_mono. cbn [bind]. rewrite E. cbn [bind shape data].
  destruct (max_abs_ok (frames k l)) as (m & M).
  { intro Z0. pose proof (frames_length k l) as F. rewrite Z0 in F. cbn [length] in F. symmetry in F. apply Nat.mul_eq_0 in F. lia. }
  rewrite M. cbn [bind as_sf shape]. unfold sf_write. cbn [nc]. rewrite A. cbn [bind].
  eexists. eexists. split; [reflexivity|]. split; [reflexivity|]. split.
  - split; [apply map_length|]. cbn [au_data mmap nc nr ent data]. intros j Hj. rewrite (nth_map_in _ _ j [] []) by exact Hj.
    assert (LJ : length (nth j l []) = k) by (apply L, nth_In, Hj). split; [rewrite map_length; exact LJ|].
    intros i Hi. rewrite (nth_map_in _ _ i 0 0) by lia. rewrite nth_frames by assumption. reflexivity.
  - rewrite (max_abs_clip _ _ M). unfold clips. split.
    + intros (v & Hv & V). apply in_frames in Hv; [|exact L]. destruct Hv as (x & Hx & Hv). eauto.
    + intros (x & v & Hx & Hv & V). exists v. split; [|exact V]. apply in_frames; [exact L|]. eauto.
Qed.
(** ** one-dimensional data *)
Lemma save_1d y st d s name fs rate x : save_data s fs = Ok (arr1 x, rate) -> x <> [] -> accepts y 1 rate = true ->
  exists a c, save_audio y st d s name fs = Ok (put d (expanduser y name) a, (false, c)) /\
    au_fs a = rate /\ holds a [map (stored y st) x] /\ (c = true <-> clips [x]).
Proof.
  intros E X A. unfold save_audio, module_is_mono. cbn [bind]. rewrite E. unfold arr1. cbn [bind shape data].
  destruct (max_abs_ok x X) as (m & M). rewrite M. cbn [bind as_sf shape data]. unfold sf_write. cbn [nc col_mat]. rewrite A. cbn [bind].
  eexists. eexists. split; [reflexivity|]. split; [reflexivity|]. split.
  - split; [reflexivity|]. cbn [au_data mmap col_mat nc nr ent]. intros j Hj. replace j with 0%nat by lia. cbn [nth]. split; [apply map_length|].
    intros i Hi. rewrite (nth_map_in _ _ i 0 0) by exact Hi. reflexivity.
  - rewrite (max_abs_clip _ _ M). unfold clips. split.
    + intros (v & Hv & V). exists x, v. cbn [In]. auto.
    + intros (z & v & [->|[]] & Hv & V). eauto.
Qed.

(** ** the signal objects *)
Lemma get_signals_ok m k : (forall c, In c (channels m) -> length (m_sig c) = k) -> channels m <> [] ->
  get_signals m = Ok (k, map m_sig (channels m)).
Proof.
  intros L N. unfold get_signals. destruct (channels m) as [|c cs] eqn:E; [congruence|].
  assert (F : forallb (fun d => Nat.eqb (mono_len d) (mono_len c)) cs = true).
  { apply forallb_forall. intros x Hx. apply Nat.eqb_eq. unfold mono_len. rewrite (L x (or_intror Hx)), (L c (or_introl eq_refl)). reflexivity. }
  rewrite F. unfold mono_len. rewrite (L c (or_introl eq_refl)). reflexivity.
Qed.
Lemma signals_T_ok m k : (forall c, In c (channels m) -> length (m_sig c) = k) -> channels m <> [] ->
  signals_T m = Ok (Nd [k; length (map m_sig (channels m))] (frames k (map m_sig (channels m)))).
Proof.
  intros L N. unfold signals_T. rewrite (get_signals_ok m k L N). cbn [bind fst snd].
  destruct (channels m) as [|c cs]; [congruence|]. reflexivity.
Qed.
Lemma signals_T_ragged m c c' : In c (channels m) -> In c' (channels m) -> length (m_sig c) <> length (m_sig c') -> signals_T m = Err ValueError.
Proof.
  intros I I' N. unfold signals_T, get_signals. destruct (channels m) as [|b cs] eqn:E; [destruct I|].
  destruct (forallb (fun d => Nat.eqb (mono_len d) (mono_len b)) cs) eqn:F; [|reflexivity]. exfalso. rewrite forallb_forall in F.
  assert (G : forall x, In x (b :: cs) -> length (m_sig x) = length (m_sig b)).
  { intros x [->|Hx]; [reflexivity|]. apply F in Hx. apply Nat.eqb_eq in Hx. exact Hx. }
  apply N. rewrite (G c I), (G c' I'). reflexivity.
Qed.
(** ** reading back *)
Lemma read_back y d name a chans fs : holds a chans -> (fs = None \/ fs = Some (au_fs a)) ->
  load_audio y (put d (expanduser y name) a) (One name) fs = Ok (signal_of (au_fs a) chans).
Proof.
  intros H O. apply load_audio_iff. exists [a], [chans], (au_fs a). cbn [name_list concat].
  split; [constructor; [apply put_same|constructor]|]. split; [constructor; [exact H|constructor]|]. split; [discriminate|].
  split; [intros b [<-|[]]; reflexivity|]. split; [exact O|]. rewrite app_nil_r. reflexivity.
Qed.
