(** Signals in memory: sharing, final forms; examples. *)
From Coq Require Import String.
From Verif Require Import Base BaseFacts P_utils2 P_sig S_sig X_sig X_io1 M_utils M_sig M_process M_sph0 M_sph M_grids M_decoder M_decoder2 M_decoder3 M_parsa2 M_io M_sig2 S_sig2 P_sig2a P_sig2b P_sig2c P_sig2d P_sig2e P_sig2f P_sig2g X_sig2.
Open Scope R_scope.

(** a trimmed signal is a window onto the array it had before *)
Lemma x_trim_is_a_window : forall m o s f a b t m1 q k x, sound m -> nth_error (objs m) o = Some (OMono s f) -> trim_obj o a b t m = (Ok tt, m1) -> value m1 o = Some (SvMono q) -> (k < length (m_sig q))%nat ->
  exists m2, write s (norm_idx (length (samples m s)) (py_int (a * IZR f)) + k) x m1 = (Ok tt, m2) /\ value m2 o = Some (SvMono (Mono (upd (m_sig q) k x) f)).
Proof.
  intros m o s f a b t m1 q k x S E T V Hk. pose proof (sound_ready m S) as Rm. pose proof (proj2 Rm o s f E) as Ls. destruct (nth_error (arrs m) s) as [v|] eqn:Ev; [|apply nth_error_None in Ev; lia]. rewrite (samples_len m s v Ev).
  assert (S1 : sound m1). { pose proof (sound_step (fun _ _ l => Ok l) any_system (fun _ => None) m (KTrim o a b t) S) as Q. cbn [perform] in Q. rewrite T in Q. apply Q. split; [intros z []|]. intros z [<-|[]]. apply nth_error_Some. rewrite E. discriminate. }
  unfold trim_obj in T. rewrite (pbind_ok _ _ _ _ _ (len_mono m o s f Rm E)), (pbind_ok _ _ _ _ _ (fs_of_ok m o _ E)) in T. destruct (Rltb a _); cbn [assert_] in T; [|rewrite (pbind_err _ _ _ _ _ (plift_eq _ _)) in T; discriminate]. rewrite (pbind_ok _ _ _ _ _ (plift_eq _ _)) in T. cbn zeta in T. rewrite (pbind_ok _ _ _ _ _ (get_obj_ok m o _ E)) in T.
  set (stop := match t with Some z => a + z | None => b end) in T. set (i := py_int (a * IZR f)) in *. set (j := py_int (stop * IZR f)) in *. unfold cut in T. rewrite (pbind_ok _ _ _ _ _ (sig_of_ok m o s f E)) in T. fold i j in T.
  unfold sub in T. assert (GA : get_arr s m = (Ok v, m)) by (unfold get_arr; rewrite Ev; reflexivity).
  assert (ES : (let! v0 := get_arr s in new_view (sub_view v0 i j)) m = (Ok (length (arrs m)), Mem (bufs m) (arrs m ++ [sub_view v i j]) (objs m))) by (rewrite (pbind_ok _ _ _ _ _ GA); reflexivity).
  rewrite (pbind_ok _ _ _ _ _ ES) in T. set (mm := Mem _ _ _) in T. assert (EV : nth_error (arrs mm) (length (arrs m)) = Some (sub_view v i j)) by (unfold mm; cbn [arrs]; rewrite nth_error_app2, Nat.sub_diag by lia; reflexivity).
  destruct (as_1d_view mm (length (arrs m)) _ EV) as (p & m3 & E3 & V3 & B3 & O3 & (tt_ & T3)). unfold set_signal in T. rewrite (pbind_ok _ _ _ _ _ E3) in T. assert (E' : nth_error (objs m3) o = Some (OMono s f)) by (rewrite O3; exact E). rewrite (pbind_ok _ _ _ _ _ (get_obj_ok m3 o _ E')) in T. unfold set_obj in T. injection T as <-.
  assert (Lo : (o < length (objs m3))%nat) by (apply nth_error_Some; rewrite E'; discriminate). unfold value in V. cbn [objs] in V. rewrite nth_error_upd_same in V by exact Lo. injection V as <-. cbn [m_sig] in *.
  set (m1 := Mem (bufs m3) (arrs m3) (upd (objs m3) o (OMono p f))) in *. assert (Ev1 : nth_error (arrs m1) s = Some v) by (unfold m1; cbn [arrs]; rewrite T3; unfold mm; cbn [arrs]; do 2 apply prefix_nth; exact Ev).
  assert (Ep1 : nth_error (arrs m1) p = Some (sub_view v i j)) by exact V3. rewrite (samples_len m1 p _ Ep1) in Hk. pose proof (norm_idx_le (v_len v) i). pose proof (norm_idx_le (v_len v) j). assert (Hi : (norm_idx (v_len v) i + k < v_len v)%nat) by (cbn [sub_view v_len] in Hk; lia).
  eexists. split; [apply (write_ok m1 s v _ x Ev1 Hi)|]. pose proof (write_window m1 s v (sub_view v i j) p (norm_idx (v_len v) i + k) k x S1 Ev1 Ep1 Hi Hk) as W. rewrite (write_ok m1 s v _ x Ev1 Hi) in W. cbn [snd] in W.
  assert (A0 : addr (sub_view v i j) k = addr v (norm_idx (v_len v) i + k)) by (unfold addr; cbn [sub_view v_buf v_off v_step]; f_equal; ring). unfold value. cbn [objs]. replace (nth_error (objs m1) o) with (Some (OMono p f)) by (symmetry; apply nth_error_upd_same; exact Lo). pose proof (W A0 eq_refl) as W'. cbv beta iota. rewrite W'. reflexivity.
Qed.

(** two arrays share what their views share *)
Lemma share_views m a b v w : nth_error (arrs m) a = Some v -> nth_error (arrs m) b = Some w -> (share m a b <-> exists i j, (i < v_len v)%nat /\ (j < v_len w)%nat /\ addr v i = addr w j).
Proof.
  intros Ea Eb. split.
  - intros (v' & w' & i & j & Ea' & Eb' & Hi & Hj & B & A). rewrite Ea in Ea'. rewrite Eb in Eb'. injection Ea' as <-. injection Eb' as <-. exists i, j. split; [exact Hi|]. split; [exact Hj|]. unfold addr. congruence.
  - intros (i & j & Hi & Hj & A). unfold addr in A. injection A as B A. exists v, w, i, j. repeat split; assumption.
Qed.
Lemma Forall2_nth_arr m l vs i : Forall2 (fun a v => nth_error (arrs m) a = Some v) l vs -> (i < length l)%nat -> exists v, nth_error vs i = Some v /\ nth_error (arrs m) (nth i l 0%nat) = Some v.
Proof. intros F. revert i. induction F as [|a v l vs E F IH]; intros [|i] H; cbn in H; try lia; [exists v; split; [reflexivity|exact E]|]. apply IH. lia. Qed.
Lemma arrays_exist m l : (forall a, In a l -> (a < length (arrs m))%nat) -> exists vs, Forall2 (fun a v => nth_error (arrs m) a = Some v) l vs.
Proof.
  induction l as [|a l IH]; intros H; [exists []; constructor|]. destruct IH as (vs & F); [intros; apply H; right; assumption|]. destruct (nth_error (arrs m) a) as [v|] eqn:E; [exists (v :: vs); constructor; assumption|]. apply nth_error_None in E. pose proof (H a (or_introl eq_refl)). lia.
Qed.
Lemma Forall2_len {A B} (P : A -> B -> Prop) l vs : Forall2 P l vs -> length l = length vs. Proof. induction 1; cbn; congruence. Qed.
(** channels share samples exactly where the arrays given for them do *)
Lemma x_channels_share : forall m l f, (forall a, In a l -> (a < length (arrs m))%nat) ->
  exists o m1, multi_new (map PRef l) (Some f) m = (Ok o, m1) /\ length (arrays_of m1 o) = length l /\
    forall i j, (i < length l)%nat -> (j < length l)%nat -> (share m1 (nth i (arrays_of m1 o) 0%nat) (nth j (arrays_of m1 o) 0%nat) <-> share m (nth i l 0%nat) (nth j l 0%nat)).
Proof.
  intros m l f H. destruct (arrays_exist m l H) as (vs & F). destruct (multi_views f l m vs F) as (m1 & E & F1 & B1 & T1). eexists _, m1. split; [exact E|]. pose proof (Forall2_len _ _ _ F) as L0. pose proof (Forall2_len _ _ _ F1) as L1. split; [congruence|].
  intros i j Hi Hj. destruct (Forall2_nth_arr m l vs i F Hi) as (v & Nv & Ev). destruct (Forall2_nth_arr m l vs j F Hj) as (w & Nw & Ew). destruct (Forall2_nth_arr m1 _ vs i F1) as (v' & Nv' & Ev'); [congruence|]. destruct (Forall2_nth_arr m1 _ vs j F1) as (w' & Nw' & Ew'); [congruence|].
  rewrite Nv in Nv'. rewrite Nw in Nw'. injection Nv' as <-. injection Nw' as <-. rewrite (share_views m1 _ _ v w Ev' Ew'), (share_views m _ _ v w Ev Ew). tauto.
Qed.
(** channels read from a file: one buffer, but never a common sample; each of W, X, Y, Z
    is its channel's samples again *)
Lemma x_file_channels : forall y d name fs m o m1, from_file y d CMulti name fs m = (Ok o, m1) ->
  forall i j, (i < length (arrays_of m1 o))%nat -> (j < length (arrays_of m1 o))%nat -> i <> j ->
    ~ share m1 (nth i (arrays_of m1 o) 0%nat) (nth j (arrays_of m1 o) 0%nat) /\
    (forall v w, nth_error (arrs m1) (nth i (arrays_of m1 o) 0%nat) = Some v -> nth_error (arrs m1) (nth j (arrays_of m1 o) 0%nat) = Some w -> v_buf v = v_buf w).
Proof.
  intros y d name fs m o m1 E i j Hi Hj N. unfold from_file in E. destruct (sf_read d (expanduser y name)) as [q|e] eqn:Eq; [|rewrite (pbind_err _ _ _ _ _ (plift_eq _ _)) in E; discriminate]. rewrite (pbind_ok _ _ _ _ _ (plift_eq _ _)) in E.
  destruct (file_rate fs (snd q)) as [f|e]; [|rewrite (pbind_err _ _ _ _ _ (plift_eq _ _)) in E; discriminate]. rewrite (pbind_ok _ _ _ _ _ (plift_eq _ _)) in E. destruct (fst q) as [|B]; [discriminate|].
  destruct (cols_views (nr B) (nc B) (flat_mat B) m) as (m0 & E0 & F0 & O0 & B0). rewrite (pbind_ok _ _ _ _ _ E0) in E. destruct (multi_views f _ m0 _ F0) as (m1' & E1 & F1 & _). rewrite E1 in E. injection E as <- <-. set (al := arrays_of m1' _) in *.
  pose proof (Forall2_len _ _ _ F1) as L1. rewrite map_length, seq_length in L1. destruct (Forall2_nth_arr m1' al _ i F1 Hi) as (v & Nv & Ev). destruct (Forall2_nth_arr m1' al _ j F1 Hj) as (w & Nw & Ew).
  assert (G : forall k z, (k < nc B)%nat -> nth_error (map (fun j => Arr (length (bufs m)) j (nc B) (nr B)) (seq 0 (nc B))) k = Some z -> z = Arr (length (bufs m)) k (nc B) (nr B)) by (intros k z Hk H; rewrite nth_error_map, (nth_error_nth' _ 0%nat), seq_nth in H by (rewrite ?seq_length; exact Hk); cbn in H; congruence).
  rewrite L1 in Hi, Hj. apply G in Nv; [|exact Hi]. apply G in Nw; [|exact Hj]. subst v w. split.
  - rewrite (share_views m1' _ _ _ _ Ev Ew). intros (k & p & _ & _ & A). apply N. exact (proj1 (cols_disjoint _ _ _ _ _ _ _ Hi Hj A)).
  - intros v w E2 E3. rewrite Ev in E2. rewrite Ew in E3. injection E2 as <-. injection E3 as <-. reflexivity.
Qed.
Lemma x_ambi_attributes : forall m l f o m1, length l = 4%nat -> (forall a, In a l -> (a < length (arrs m))%nat) -> ambi_new (map PRef l) (Some f) m = (Ok o, m1) ->
  length (arrays_of m1 o) = 8%nat /\ forall i, (i < 4)%nat -> nth_error (arrs m1) (nth (4 + i) (arrays_of m1 o) 0%nat) = nth_error (arrs m1) (nth i (arrays_of m1 o) 0%nat) /\ nth_error (arrs m1) (nth i (arrays_of m1 o) 0%nat) = nth_error (arrs m) (nth i l 0%nat).
Proof.
  intros m l f o m1 L4 H E. destruct (arrays_exist m l H) as (vs & F). destruct (ambi_views f l m vs L4 F) as (m1' & E1 & F1 & B1 & T1). rewrite E1 in E. injection E as <- <-. pose proof (Forall2_len _ _ _ F) as L0. pose proof (Forall2_len _ _ _ F1) as L1. rewrite app_length in L1. split; [lia|].
  intros i Hi. destruct (Forall2_nth_arr m l vs i F) as (v & Nv & Ev); [lia|]. destruct (Forall2_nth_arr m1' _ _ i F1) as (v1 & Nv1 & Ev1); [lia|]. destruct (Forall2_nth_arr m1' _ _ (4 + i) F1) as (v2 & Nv2 & Ev2); [lia|].
  rewrite nth_error_app1 in Nv1 by lia. rewrite nth_error_app2 in Nv2 by lia. replace (4 + i - length vs)%nat with i in Nv2 by lia. rewrite Ev, Ev1, Ev2. split; congruence.
Qed.
(** what get_signals returns is new *)
Lemma x_signals_are_new : forall m o l m1, sound m -> get_signals_obj o m = (Ok l, m1) -> forall a b, In a l -> (b < length (arrs m))%nat -> ~ share m1 a b.
Proof.
  intros m o l m1 S E a b Ha Hb. unfold get_signals_obj in E.
  destruct (stacked o m) as [[rows|e] m0] eqn:ES; [|rewrite (pbind_err _ _ _ _ _ ES) in E; discriminate]. assert (m0 = m).
  { destruct (nth_error (objs m) o) as [x|] eqn:Eo; [rewrite (stacked_spec m o x S Eo) in ES; congruence|]. unfold stacked, pbind, get_obj in ES. rewrite Eo in ES. discriminate. }
  subst m0. rewrite (pbind_ok _ _ _ _ _ ES), new_rows_spec in E. injection E as <- <-. intros (v & w & i & j & Ea & Eb & _ & _ & B & _). cbn [arrs] in Ea, Eb. apply in_seq in Ha. rewrite nth_error_app2 in Ea by lia. apply nth_error_In, in_map_iff in Ea. destruct Ea as (r & <- & _). rewrite nth_error_app1 in Eb by exact Hb. pose proof (proj1 (proj1 S b w Eb)). cbn [v_buf] in B. lia.
Qed.

(** * Where "a signal owns its samples" fails *)
Lemma f_ownership : exists m a f o m1 m2 i x, sound m /\ mono_new f (PRef a) m = (Ok o, m1) /\ write a i x m1 = (Ok tt, m2) /\ value m2 o <> value m1 o.
Proof.
  pose (m := Mem [[1; 2]] [Arr 0 0 1 2] []). assert (S : sound m).
  { split; [|intros o x E; destruct o; discriminate]. intros [|[|a]] v E; try discriminate. injection E as <-. cbn. split; [lia|]. split; [lia|]. intros; lia. }
  destruct (x_array_is_kept m 0 1%Z 0 7 S ltac:(cbn; lia)) as (o & m1 & m2 & E1 & V1 & W & V2). exists m, 0%nat, 1%Z, o, m1, m2, 0%nat, 7. split; [exact S|]. split; [exact E1|]. split; [exact W|]. rewrite V1, V2. cbn. intros H. injection H. lra.
Qed.

(** * Examples *)
(** a = np.array([1, 2, 3]); b = np.array([5, 6]); s = MultiSignal([a, a], fs=1) *)
Definition idle (_ _ : Z) (l : list R) : res (list R) := Ok l.
Definition ex_calls : list call := [KArray [1; 2; 3]; KArray [5; 6]; KMulti [PRef 0; PRef 0] (Some 1%Z)].
Definition ex_mem : mem := Mem [[1; 2; 3]; [5; 6]] [Arr 0 0 1 3; Arr 1 0 1 2] [OMono 0 1; OMono 0 1; OMulti [0; 1]%nat 1 2].
Definition ex_val : sigval := SvMulti (Multi [Mono [1; 2; 3] 1; Mono [1; 2; 3] 1] 1 2).
Lemma ex_reached : perform_all idle any_system (fun _ => None) ex_calls no_mem = (Ok tt, ex_mem). Proof. reflexivity. Qed.
Lemma ex_history : exists L', history idle any_system (fun _ => None) (old_new no_mem) no_mem (map (pair true) ex_calls) L' ex_mem.
Proof.
  eexists. cbn [map ex_calls]. eapply history_call; [split; [intros a []|intros o []]|]. eapply history_call; [split; [intros a []|intros o []]|]. eapply history_call; [split; [intros a [<-|[<-|[]]]; split; [cbn; lia|reflexivity| cbn; lia|reflexivity]|intros o []]|]. apply history_start.
Qed.
Lemma ex_sound : sound ex_mem. Proof. destruct ex_history as (L' & H). exact (x_reachable_sound _ _ _ _ _ _ _ _ H no_mem_sound). Qed.
(** a copy of it, then a write into the copy's one array, then a copy of the copy *)
Lemma ex_copy : exists p m1 L' m', sound ex_mem /\ value ex_mem 2 = Some ex_val /\ copy_obj 2 ex_mem = (Ok p, m1) /\ arrays_of ex_mem 2 = [0; 0]%nat /\ arrays_of m1 p = [2; 2]%nat /\
  history idle any_system (fun _ => None) (old_new ex_mem) m1 [(true, KWrite 2 0 9); (false, KWrite 0 2 4)] L' m' /\
  value m' 2 = Some (SvMulti (Multi [Mono [1; 2; 4] 1; Mono [1; 2; 4] 1] 1 2)) /\ value m' p = Some (SvMulti (Multi [Mono [9; 2; 3] 1; Mono [9; 2; 3] 1] 1 2)).
Proof.
  eexists _, _, _, _. split; [exact ex_sound|]. split; [reflexivity|]. split; [reflexivity|]. split; [reflexivity|]. split; [reflexivity|]. split.
  - eapply history_call; [split; [intros a [<-|[]]; split; [cbn; lia|reflexivity]|intros o []]|]. eapply history_call; [split; [intros a [<-|[]]; split; [cbn; lia|reflexivity]|intros o []]|]. apply history_start.
  - split; reflexivity.
Qed.
Lemma ex_trim_audio : exists x r, sound ex_mem /\ value ex_mem 2 = Some (SvMulti x) /\ channel_count x = length (channels x) /\ trim_audio x 1 3 = Ok r /\ r = Multi [Mono [2; 3] 1; Mono [2; 3] 1] 1 2.
Proof.
  eexists _, _. split; [exact ex_sound|]. split; [reflexivity|]. split; [reflexivity|]. split; [|reflexivity]. unfold trim_audio, multi_len. cbn -[Rltb INR py_int].
  assert (E : Rltb 1 (INR 3 / IZR 1) = true) by (apply Rltb_true; cbn; lra). rewrite E. cbn -[py_int]. unfold trim_slice. rewrite !Rmult_1_r, !X_sig.py_int_IZR. reflexivity.
Qed.
(** methods on it: resampling that changes nothing but the rate, then a convolution *)
Lemma ex_run : exists v', length_regular idle /\ sound ex_mem /\ (forall c, In c [KResample 2 2; KConv 2 [PRef 1; PRef 1]] -> exists_in ex_mem c) /\ value ex_mem 2 = Some ex_val /\
  methods_on ex_mem 2 [KResample 2 2; KConv 2 [PRef 1; PRef 1]] = Some [OpResample 2; OpConv [arr1 [5; 6]; arr1 [5; 6]]] /\ run (val_step idle) ex_val [OpResample 2; OpConv [arr1 [5; 6]; arr1 [5; 6]]] = Ok v' /\
  exists a b, v' = SvMulti (Multi [Mono a 2; Mono b 2] 2 2) /\ length a = 4%nat /\ length b = 4%nat.
Proof.
  eexists. split; [intros f g l l' r r' H H' E; injection H as <-; injection H' as <-; exact E|]. split; [exact ex_sound|]. split.
  { intros c [<-|[<-|[]]]; split; cbn; intuition lia. }
  split; [reflexivity|]. split; [reflexivity|]. split; [reflexivity|]. eexists _, _. split; [reflexivity|]. split; reflexivity.
Qed.
(** a mono signal cut to its second and third sample: writing the array's second sample
    writes the signal's first *)
Definition ex_mono : mem := Mem [[1; 2; 3]] [Arr 0 0 1 3] [OMono 0 1].
Lemma ex_window : exists m1 q, sound ex_mono /\ trim_obj 0 1 3 None ex_mono = (Ok tt, m1) /\ value m1 0 = Some (SvMono q) /\ q = Mono [2; 3] 1.
Proof.
  assert (E : Rltb 1 (INR 3 / IZR 1) = true) by (apply Rltb_true; cbn; lra). eexists _, _. split.
  { split.
    - intros [|[|a]] v H; try discriminate. injection H as <-. cbn. split; [lia|]. split; [lia|]. intros; lia.
    - intros [|[|o]] x H; try discriminate. injection H as <-. cbn. split; [intros a [<-|[]]; lia|]. split; [intros c []|constructor]. }
  split; [unfold trim_obj, len_of, fs_of, get_obj, pbind, plift, ex_mono; cbn -[Rltb INR py_int]; rewrite E; cbn -[py_int]; unfold cut, sig_of, get_obj, pbind; cbn -[py_int]; rewrite !Rmult_1_r, !X_sig.py_int_IZR; reflexivity|]. split; reflexivity.
Qed.
(** three channels, the first two given as one array *)
Lemma ex_share : (forall a, In a [0; 0; 1]%nat -> (a < length (arrs ex_mem))%nat) /\ share ex_mem 0 0 /\ ~ share ex_mem 0 1.
Proof.
  split; [intros a [<-|[<-|[<-|[]]]]; cbn; lia|]. split.
  - exists (Arr 0 0 1 3), (Arr 0 0 1 3), 0%nat, 0%nat. repeat split; cbn; lia.
  - intros (v & w & i & j & E & F & _ & _ & B & _). injection E as <-. injection F as <-. discriminate.
Qed.
(** a file with two frames of three channels *)
Definition ex_disk : disk := fun n => if String.eqb n "x.wav" then Some (Audio 4 (Mat 2 3 (fun i j => INR (3 * i + j)))) else None.
Lemma ex_file : exists o m1, from_file any_system ex_disk CMulti "x.wav" None ex_mem = (Ok o, m1) /\ length (arrays_of m1 o) = 3%nat /\
  value m1 o = Some (SvMulti (Multi [Mono [INR 0; INR 3] 4; Mono [INR 1; INR 4] 4; Mono [INR 2; INR 5] 4] 4 3)) /\
  forall x, value (snd (write (nth 1 (arrays_of m1 o) 0%nat) 0 x m1)) o = Some (SvMulti (Multi [Mono [INR 0; INR 3] 4; Mono [x; INR 4] 4; Mono [INR 2; INR 5] 4] 4 3)).
Proof. eexists _, _. split; [reflexivity|]. split; [reflexivity|]. split; [reflexivity|]. intros x. reflexivity. Qed.
(** four channels, two of them one array *)
Lemma ex_ambi : exists o m1, length [0; 0; 1; 1]%nat = 4%nat /\ (forall a, In a [0; 0; 1; 1]%nat -> (a < length (arrs ex_mem))%nat) /\ ambi_new (map PRef [0; 0; 1; 1]%nat) (Some 1%Z) ex_mem = (Ok o, m1) /\
  forall x, exists w, value (snd (write 1 0 x m1)) o = Some (SvAmbi w) /\ aW w = [1; 2; 3] /\ aY w = [x; 6] /\ map m_sig (channels (base w)) = [[1; 2; 3]; [1; 2; 3]; [x; 6]; [x; 6]].
Proof.
  eexists _, _. split; [reflexivity|]. split; [intros a [<-|[<-|[<-|[<-|[]]]]]; cbn; lia|]. split; [reflexivity|]. intros x. eexists. split; [reflexivity|]. split; [reflexivity|]. split; reflexivity.
Qed.
Lemma ex_signals : exists l m1, sound ex_mem /\ get_signals_obj 2 ex_mem = (Ok l, m1) /\ map (samples m1) l = [[1; 2; 3]; [1; 2; 3]].
Proof. eexists _, _. split; [exact ex_sound|]. split; reflexivity. Qed.
