(** Signals in memory: final forms. *)
From Coq Require Import String.
From Verif Require Import Base BaseFacts P_utils2 P_sig S_sig X_io1 M_utils M_sig M_process M_sph0 M_sph M_grids M_decoder M_decoder2 M_decoder3 M_parsa2 M_io M_sig2 S_sig2 P_sig2a P_sig2b P_sig2c P_sig2d P_sig2e P_sig2f P_sig2g.
Open Scope R_scope.

(** * Copies *)
Lemma ext_values m m' o : sound m -> ext m m' -> (o < length (objs m))%nat -> value m' o = value m o.
Proof.
  intros S X H. destruct (nth_error (objs m) o) as [x|] eqn:E; [|apply nth_error_None in E; lia]. pose proof (sound_ready m S) as Rm. destruct (proj2 S o x E) as (S1 & S2 & _). pose proof X as (tb & ta & to_ & _ & _ & Ho).
  unfold value. rewrite Ho, nth_error_app1, E by exact H. assert (SA : forall a, In a (held_arrs x) -> samples m' a = samples m a) by (intros a Ha; apply samples_ext; [exact (proj1 Rm)|exact X|auto]).
  assert (CA : map (channel_at m') (held_objs x) = map (channel_at m) (held_objs x)).
  { apply map_ext_in. intros c Hc. apply channel_kept; [apply ext_wext, X|exact Rm|]. rewrite Ho. apply nth_error_app1. apply (is_mono_lt m c (S2 c Hc)). }
  destruct x; cbn [held_arrs held_objs] in *; rewrite ?SA by (cbn; tauto); rewrite ?CA; reflexivity.
Qed.
Lemma perform_copy rs y d o m : snd (perform rs y d (KCopy o) m) = snd (copy_obj o m).
Proof. cbn [perform]. unfold quiet, pbind. destruct (copy_obj o m) as [[]]; reflexivity. Qed.
Lemma x_copy_says_the_same : forall m o, sound m -> (o < length (objs m))%nat ->
  exists p m1, copy_obj o m = (Ok p, m1) /\ sound m1 /\ value m1 p = value m o /\ same_sharing (arrays_of m o) (arrays_of m1 p) /\
    (forall q, (q < length (objs m))%nat -> value m1 q = value m q) /\ (forall a, (a < length (arrs m))%nat -> samples m1 a = samples m a).
Proof.
  intros m o S H. destruct (nth_error (objs m) o) as [x|] eqn:E; [|apply nth_error_None in E; lia]. destruct (copy_spec m o x S E) as (m1 & E1 & X & _ & V & SS & _). eexists _, m1. split; [exact E1|]. split.
  - pose proof (sound_step (fun _ _ l => Ok l) any_system (fun _ => None) m (KCopy o) S) as Q. rewrite perform_copy, E1 in Q. apply Q. split; [intros a []|]. intros q [<-|[]]. exact H.
  - split; [exact V|]. split; [exact SS|]. split; [intros q Hq; apply ext_values; assumption|]. intros a Ha. apply samples_ext; [exact (proj1 (sound_ready m S))|exact X|exact Ha].
Qed.
Lemma copy_apart m o p m1 : sound m -> copy_obj o m = (Ok p, m1) -> apart (old_new m) m1 /\ (p < length (objs m1))%nat /\ so (old_new m) p = true.
Proof.
  intros S E. assert (I : inv true (old_new m) m).
  { split; [|apply given_fresh]. apply given_apart. destruct S as (A & B). split.
    - intros a v Ea. split; [exact (proj1 (A a v Ea))|reflexivity].
    - intros q x Eq. destruct (B q x Eq) as (B1 & B2 & _). split; intros z Hz; (split; [|reflexivity]); [auto|exact (is_mono_lt m z (B2 z Hz))]. }
  destruct (good_copy_obj true (old_new m) o [] [] m I) as ((A' & _) & _ & K); [split; intros x []|]. rewrite E in A', K. cbn [fst snd] in *. split; [exact A'|]. destruct (K p eq_refl) as (_ & K2). exact (K2 p (or_introl eq_refl)).
Qed.
Lemma old_side {X} (l : list X) i : (i < length l)%nat -> later l true (fun _ => false) i = false. Proof. apply given_old. Qed.
(** after a copy, in any order of calls of those who have the original and those who
    have the copy: no call changes anything of the other side *)
Lemma x_copy_no_interference : forall rs y d m o p m1 h L' m' s c, sound m -> copy_obj o m = (Ok p, m1) -> history rs y d (old_new m) m1 h L' m' -> uses L' m' s c ->
  (forall a, (a < length (arrs m'))%nat -> sa L' a <> s -> samples (snd (perform rs y d c m')) a = samples m' a) /\
  (forall q, (q < length (objs m'))%nat -> so L' q <> s -> value (snd (perform rs y d c m')) q = value m' q) /\
  (forall q, (q < length (objs m))%nat -> so L' q = false) /\ so L' p = true.
Proof.
  intros rs y d m o p m1 h L' m' s c S E H U. destruct (copy_apart m o p m1 S E) as (A & Lp & Sp). destruct (history_ok rs y d _ m1 h L' m' A H) as (A' & _ & LO & _ & _ & SO & _). destruct (step_ok rs y d L' m' s c A' U) as (_ & _ & V1 & V2).
  split; [exact V1|]. split; [exact V2|]. split; [|rewrite SO by exact Lp; exact Sp]. intros q Hq. assert (L1 : (length (objs m) <= length (objs m1))%nat).
  { destruct (nth_error (objs m) o) as [x|] eqn:Ex; [|unfold copy_obj, pbind, get_obj in E; rewrite Ex in E; discriminate]. destruct (copy_spec m o x S Ex) as (m1' & E' & _ & L & _). rewrite E in E'. injection E' as _ <-. lia. }
  rewrite SO by lia. cbn [old_new given so]. apply old_side. exact Hq.
Qed.
Lemma x_copy_histories : forall rs y d m o p m1 h L' m', sound m -> copy_obj o m = (Ok p, m1) -> history rs y d (old_new m) m1 h L' m' ->
  ((forall e, In e h -> fst e = false) -> value m' p = value m o) /\
  ((forall e, In e h -> fst e = true) -> (forall q, (q < length (objs m))%nat -> value m' q = value m q) /\ forall a, (a < length (arrs m))%nat -> samples m' a = samples m a).
Proof.
  intros rs y d m o p m1 h L' m' S E H. destruct (copy_apart m o p m1 S E) as (A & Lp & Sp). destruct (history_ok rs y d _ m1 h L' m' A H) as (_ & _ & _ & _ & _ & _ & W).
  assert (Ho : (o < length (objs m))%nat) by (apply nth_error_Some; intros N; unfold copy_obj, pbind, get_obj in E; rewrite N in E; discriminate).
  destruct (x_copy_says_the_same m o S Ho) as (p' & m1' & E' & _ & V & _ & VO & SO). rewrite E in E'. injection E' as <- <-.
  destruct (nth_error (objs m) o) as [x|] eqn:Ex; [|apply nth_error_None in Ex; lia]. destruct (copy_spec m o x S Ex) as (m2 & E2 & (tb & ta & to_ & _ & XA & XO) & _). rewrite E in E2. injection E2 as _ <-. split.
  - intros Hf. rewrite <- V. apply (proj2 (W true ltac:(intros e He; rewrite (Hf e He); discriminate)) p Lp Sp).
  - intros Hf. destruct (W false ltac:(intros e He; rewrite (Hf e He); discriminate)) as (W1 & W2). split.
    + intros q Hq. rewrite W2; [apply VO, Hq|rewrite XO, app_length; lia|apply old_side, Hq].
    + intros a Ha. rewrite W1; [apply SO, Ha|rewrite XA, app_length; lia|apply old_side, Ha].
Qed.
Lemma old_new_inv m : sound m -> inv true (old_new m) m.
Proof.
  intros (A & B). split; [|apply given_fresh]. apply given_apart. split.
  - intros q v Ea. split; [exact (proj1 (A q v Ea))|reflexivity].
  - intros q z Eq. destruct (B q z Eq) as (B1 & B2 & _). split; intros w Hw; (split; [|reflexivity]); [auto|exact (is_mono_lt m w (B2 w Hw))].
Qed.
Lemma trim_audio_chs m1 f a b cs : ready m1 -> (forall c, In c cs -> is_mono m1 c) -> NoDup cs ->
  exists m', pmap (fun c => cut f a b c) cs m1 = (Ok (map (fun _ => tt) cs), m') /\ touched m1 m' cs (map (fun q => Mono (trim_slice (m_sig q) f a b) (m_fs q)) (map (channel_at m1) cs)).
Proof. intros R1 M N. apply cuts_spec; try assumption. intros c m2 _ R2 M2. apply cut_spec; assumption. Qed.
(** trim_audio works on a copy *)
Lemma x_trim_audio : forall m o x a b, sound m -> value m o = Some (SvMulti x) -> channel_count x = length (channels x) ->
  (forall q, (q < length (objs m))%nat -> value (snd (trim_audio_obj o a b m)) q = value m q) /\
  (forall q, (q < length (arrs m))%nat -> samples (snd (trim_audio_obj o a b m)) q = samples m q) /\
  match trim_audio x a b with
  | Ok r => exists p m', trim_audio_obj o a b m = (Ok p, m') /\ (length (objs m) <= p)%nat /\ value m' p = Some (SvMulti r)
  | Err e => fst (trim_audio_obj o a b m) = Err e
  end.
Proof.
  intros m o x a b S V CC. assert (Ho : (o < length (objs m))%nat) by (apply nth_error_Some; intros N; unfold value in V; rewrite N in V; discriminate).
  destruct (good_trim_audio0 true (old_new m) o a b [] [] m (old_new_inv m S) ltac:(split; intros z [])) as (_ & F & _). pose proof (proj1 (old_new_inv m S)) as A. split; [|split].
  - intros q Hq. apply (value_frame true (old_new m)); [exact A|exact F|exact Hq|cbn [old_new given so]; rewrite old_side by exact Hq; discriminate].
  - intros q Hq. apply (samples_frame true (old_new m)); [exact A|exact F|exact Hq|cbn [old_new given sa]; rewrite old_side by exact Hq; discriminate].
  - destruct (x_copy_says_the_same m o S Ho) as (p & m1 & E1 & S1 & V1 & _ & _ & _). rewrite V in V1. assert (Lp : (length (objs m) <= p)%nat).
    { destruct (nth_error (objs m) o) as [ob|] eqn:Eo; [|apply nth_error_None in Eo; lia]. destruct (copy_spec m o ob S Eo) as (m1' & E' & _ & L & _). rewrite E1 in E'. injection E' as -> <-. lia. }
    unfold value in V1. destruct (nth_error (objs m1) p) as [[s f|cs f n|cs f n w u y z]|] eqn:Ep; try discriminate V1. injection V1 as <-. cbn [channels channel_count] in CC. rewrite map_length in CC. subst n.
    pose proof (sound_ready m1 S1) as R1. destruct (proj2 S1 p _ Ep) as (_ & H2 & H3). cbn [held_objs] in H2, H3. pose proof (len_plural m1 p _ R1 Ep Logic.I H2) as L. cbn [chs_of] in L.
    unfold trim_audio, multi_len, trim_audio_obj. cbn [channels mu_fs channel_count]. rewrite (pbind_ok _ _ _ _ _ E1). destruct (map (channel_at m1) cs) as [|c0 l] eqn:EL; [rewrite (pbind_err _ _ _ _ _ L); reflexivity|]. rewrite (pbind_ok _ _ _ _ _ L), (pbind_ok _ _ _ _ _ (fs_of_ok m1 p _ Ep)). cbn [bind].
    destruct (Rltb a (INR (mono_len c0) / IZR f)); cbn [assert_ bind]; [|rewrite (pbind_err _ _ _ _ _ (plift_eq _ _)); reflexivity]. rewrite <- EL.
    rewrite (mapM_ok _ (fun q => Mono (trim_slice (m_sig q) f a b) (m_fs q))) by (intros; apply mono_set_arr1). cbn [bind]. destruct (trim_audio_chs m1 f a b cs R1 H2 H3) as (m2 & E2 & T). exists p, m2.
    rewrite (pbind_ok _ _ _ _ _ (plift_eq _ _)), (pbind_ok _ _ _ _ _ (get_obj_ok m1 p _ Ep)). rewrite firstn_all, (pbind_ok _ _ _ _ _ E2), Nat.ltb_irrefl. split; [reflexivity|]. split; [exact Lp|]. exact (plural_value m1 m2 p _ _ S1 Ep Logic.I T).
Qed.

(** * Memories, methods, values *)
Lemma x_reachable_sound : forall rs y d L m h L' m', history rs y d L m h L' m' -> sound m -> sound m'.
Proof. intros rs y d L m h L' m' H. induction H as [|L m s c h L' m' (U1 & U2) H IH]; intros S; [exact S|]. apply IH, sound_step; [exact S|]. split; intros z Hz; [apply U1|apply U2]; exact Hz. Qed.
Lemma no_mem_sound : sound no_mem.
Proof. split; intros a v E; destruct a; discriminate. Qed.
Lemma x_only_writing : forall rs y d m c, sound m -> is_write c = false -> forall a, (a < length (arrs m))%nat -> exists_in m c -> samples (snd (perform rs y d c m)) a = samples m a.
Proof.
  intros rs y d m c S W a Ha (U1 & U2). destruct (grows_perform rs y d c W m) as (t & E). destruct (st_perform rs y d c [] [] m (proj1 (proj1 (sound_inb m) S)) (proj1 (proj2 (proj1 (sound_inb m) S))) (sk_nil m)) as (_ & _ & (_ & _ & T & _) & _).
  apply samples_wext; [exact (proj1 (sound_ready m S))|split; [exists t; exact E|exact T]|exact Ha].
Qed.
Lemma x_methods_refine : forall rs y d m o v c op, length_regular rs -> sound m -> exists_in m c -> value m o = Some v -> method_on m o c = Some op ->
  match val_step rs v op with
  | Ok v' => exists m', perform rs y d c m = (Ok tt, m') /\ value m' o = Some v'
  | Err e => fst (perform rs y d c m) = Err e
  end.
Proof.
  intros rs y d m o v c op LR S (U & _) V M. destruct c; cbn [method_on] in M; try discriminate M; destruct (Nat.eqb_spec o0 o) as [->|]; try discriminate M; injection M as <-; cbn [perform].
  - exact (refine_trim rs m o v start stop dur S V).
  - exact (refine_conv rs m o v hs S V U).
  - exact (refine_resample rs m o v fs_new LR S V).
Qed.
Lemma method_same rs y d m c c' o : sound m -> exists_in m c -> exists_in m c' -> is_write c = false -> method_on (snd (perform rs y d c m)) o c' = method_on m o c'.
Proof.
  intros S E (U & _) W. destruct c'; cbn [method_on]; try reflexivity. destruct (Nat.eqb o0 o); [|reflexivity]. f_equal. f_equal. apply map_ext_in. intros h Hh. f_equal. destruct h as [a|l]; [|reflexivity]. cbn [parg_val]. apply x_only_writing; try assumption. apply U. cbn [call_arrs]. apply in_flat_map. exists (PRef a). split; [exact Hh|left; reflexivity].
Qed.
Lemma methods_same rs y d m c cs o : sound m -> exists_in m c -> (forall c', In c' cs -> exists_in m c') -> is_write c = false -> methods_on (snd (perform rs y d c m)) o cs = methods_on m o cs.
Proof.
  intros S E. induction cs as [|c' cs IH]; intros H W; [reflexivity|]. cbn [methods_on]. rewrite (method_same rs y d m c c' o S E (H c' (or_introl eq_refl)) W), IH; [reflexivity| |exact W]. intros; apply H; right; assumption.
Qed.
Lemma more_exist rs y d m c c' : sound m -> exists_in m c -> exists_in m c' -> exists_in (snd (perform rs y d c m)) c'.
Proof.
  intros S (U1 & U2) (A & B). destruct (step_ok rs y d one m true c (sound_apart m S)) as (_ & (_ & (t & F2) & F3 & _) & _); [split; intros z Hz; (split; [auto|reflexivity])|].
  split; intros z Hz; [rewrite F2, app_length; pose proof (A z Hz); lia|pose proof (B z Hz); lia].
Qed.
Lemma x_runs_refine : forall rs y d cs m o v v' ops, length_regular rs -> sound m -> (forall c, In c cs -> exists_in m c) -> value m o = Some v -> methods_on m o cs = Some ops -> run (val_step rs) v ops = Ok v' ->
  exists m', perform_all rs y d cs m = (Ok tt, m') /\ value m' o = Some v' /\ (forall a, (a < length (arrs m))%nat -> samples m' a = samples m a).
Proof.
  intros rs y d cs. induction cs as [|c cs IH]; intros m o v v' ops LR S H V M Run; cbn [methods_on] in M.
  - injection M as <-. injection Run as <-. exists m. auto.
  - destruct (method_on m o c) as [op|] eqn:M1; [|discriminate]. destruct (methods_on m o cs) as [l|] eqn:M2; [|discriminate]. injection M as <-. cbn [run] in Run. destruct (val_step rs v op) as [v1|] eqn:E1; [|discriminate]. cbn [bind] in Run.
    pose proof (H c (or_introl eq_refl)) as Hc. assert (W : is_write c = false) by (destruct c; try discriminate M1; reflexivity). pose proof (x_methods_refine rs y d m o v c op LR S Hc V M1) as Q. rewrite E1 in Q. destruct Q as (m1 & P1 & V1). pose proof (sound_step rs y d m c S Hc) as S1. pose proof (methods_same rs y d m c cs o S Hc (fun c' Hi => H c' (or_intror Hi)) W) as MS.
    pose proof (fun c' Hi => more_exist rs y d m c c' S Hc (H c' (or_intror Hi))) as H1. pose proof (fun a Ha => x_only_writing rs y d m c S W a Ha Hc) as SA. assert (LA : forall a, (a < length (arrs m))%nat -> (a < length (arrs m1))%nat).
    { pose proof (more_exist rs y d m c (KView 0 0 0) S Hc) as _. destruct (step_ok rs y d one m true c (sound_apart m S)) as (_ & (_ & (t & F2) & _) & _); [split; intros z Hz; (split; [apply Hc; exact Hz|reflexivity])|]. rewrite P1 in F2. cbn [snd] in F2. intros a Ha. rewrite F2, app_length. lia. }
    rewrite P1 in S1, MS, H1, SA. cbn [snd] in *. destruct (IH m1 o v1 v' l LR S1 H1 V1 ltac:(rewrite MS; exact M2) Run) as (m' & P & V' & SA'). exists m'. split; [cbn [perform_all]; rewrite (pbind_ok _ _ _ _ _ P1); exact P|]. split; [exact V'|]. intros a Ha. rewrite SA' by auto. apply SA, Ha.
Qed.

(** * Sharing *)
Lemma x_array_is_kept : forall m a f i x, sound m -> (i < length (samples m a))%nat ->
  exists o m1 m2, mono_new f (PRef a) m = (Ok o, m1) /\ value m1 o = Some (SvMono (Mono (samples m a) f)) /\ write a i x m1 = (Ok tt, m2) /\ value m2 o = Some (SvMono (Mono (upd (samples m a) i x) f)).
Proof.
  intros m a f i x S Hi. destruct (nth_error (arrs m) a) as [v|] eqn:E; [|unfold samples in Hi; rewrite E in Hi; cbn in Hi; lia]. assert (Ha : (a < length (arrs m))%nat) by (apply nth_error_Some; rewrite E; discriminate). rewrite (samples_len m a v E) in Hi.
  destruct (mono_new_view m a v f E) as (s & m1 & E1 & O1 & V1 & B1 & (t & T1) & Q1). assert (S1 : sound m1).
  { pose proof (sound_step (fun _ _ l => Ok l) any_system (fun _ => None) m (KMono f (PRef a)) S) as Q. cbn [perform] in Q. unfold quiet in Q. rewrite (pbind_ok _ _ _ _ _ E1) in Q. apply Q. split; [intros q [<-|[]]; exact Ha|intros q []]. }
  assert (E' : nth_error (arrs m1) a = Some v) by (rewrite T1; apply prefix_nth, E). assert (SM : samples m1 s = samples m a) by (unfold samples; rewrite V1, E, B1; reflexivity).
  exists (length (objs m)), m1. eexists. split; [exact E1|]. split; [unfold value; rewrite O1, SM; reflexivity|]. split; [apply (write_ok m1 a v i x E' Hi)|]. unfold value. cbn [objs]. rewrite O1.
  pose proof (write_window m1 a v v s i i x S1 E' V1 Hi Hi eq_refl eq_refl) as W. rewrite (write_ok m1 a v i x E' Hi) in W. cbn [snd] in W. rewrite W, SM. reflexivity.
Qed.
Lemma x_list_is_copied : forall m l f, sound m -> exists o m1, mono_new f (PLst l) m = (Ok o, m1) /\ value m1 o = Some (SvMono (Mono l f)) /\
  forall a i x, (a < length (arrs m))%nat -> value (snd (write a i x m1)) o = Some (SvMono (Mono l f)).
Proof.
  intros m l f S. destruct (new_arr_spec l m (proj1 (sound_ready m S))) as (m1 & E1 & X & C1 & O1 & S1 & L1). exists (length (objs m)). eexists. split; [unfold mono_new, as_1d; rewrite (pbind_ok _ _ _ _ _ E1); unfold new_obj; rewrite O1; reflexivity|].
  set (m2 := Mem _ _ _). assert (V : value m2 (length (objs m)) = Some (SvMono (Mono l f))) by (unfold value, m2; cbn [objs]; rewrite nth_error_app2, Nat.sub_diag by lia; cbn [nth_error]; rewrite <- S1; reflexivity). split; [exact V|].
  intros a i x Ha. assert (S2 : sound m2).
  { pose proof (sound_step (fun _ _ l => Ok l) any_system (fun _ => None) m (KMono f (PLst l)) S ltac:(split; intros q [])) as Q. cbn [perform] in Q. unfold quiet, mono_new, as_1d in Q. assert (EE : (let! s := new_arr l in new_obj (OMono s f)) m = (Ok (length (objs m)), m2)) by (rewrite (pbind_ok _ _ _ _ _ E1); unfold new_obj; rewrite O1; reflexivity). rewrite (pbind_ok _ _ _ _ _ EE) in Q. exact Q. }
  assert (N : ~ share m2 a (length (arrs m))).
  { intros (v & w & i' & j & Ea & Eb & _ & _ & Hb & _). unfold m2 in Ea, Eb. cbn [arrs] in Ea, Eb. unfold new_arr, new_buf, new_view, pbind in E1. injection E1 as <-. cbn [arrs bufs] in *. rewrite nth_error_app2, Nat.sub_diag in Eb by lia. injection Eb as <-. rewrite nth_error_app1 in Ea by exact Ha. pose proof (proj1 (proj1 S a v Ea)). cbn [v_buf] in Hb. lia. }
  pose proof (write_apart m2 a (length (arrs m)) i x S2 N) as W. assert (OO : objs (snd (write a i x m2)) = objs m2) by (unfold write, get_arr, pbind; destruct (nth_error (arrs m2) a) as [v|]; [destruct (Nat.ltb i (v_len v))|]; reflexivity).
  unfold value. rewrite OO. unfold m2 at 1. cbn [objs]. rewrite nth_error_app2, Nat.sub_diag by lia. cbn [nth_error]. rewrite W. unfold m2. rewrite <- S1. reflexivity.
Qed.
