(** Signals in memory: callers that share nothing never notice each other; a copy
    shares nothing and says the same. *)
From Coq Require Import String.
From Verif Require Import Base BaseFacts M_utils M_sig M_process M_sph0 M_sph M_grids M_decoder M_decoder2 M_decoder3 M_parsa2 M_io M_sig2 S_sig2 P_sig2a.
Open Scope R_scope.

Lemma given_apart m s L : apart L m -> apart (given m s L) m.
Proof.
  intros (A & B). assert (LT : forall {X} (l : list X) f i, (i < length l)%nat -> later l s f i = f i) by (intros X l f i H; unfold later; apply Nat.ltb_lt in H; rewrite H; reflexivity). split.
  - intros a v E. destruct (A a v E) as (A1 & A2). split; [exact A1|]. cbn [sb sa given]. rewrite !LT; auto. apply nth_error_Some. congruence.
  - intros o x E. assert (Ho : (o < length (objs m))%nat) by (apply nth_error_Some; congruence). destruct (B o x E) as (B1 & B2). split; intros z Hz; [destruct (B1 z Hz)|destruct (B2 z Hz)]; (split; [assumption|]); cbn [sa so given]; rewrite !LT; auto.
Qed.
Lemma given_fresh m s L : fresh s (given m s L) m.
Proof.
  assert (GE : forall {X} (l : list X) f i, (length l <= i)%nat -> later l s f i = s) by (intros X l f i H; unfold later; apply Nat.ltb_ge in H; rewrite H; reflexivity).
  split; [|split]; intros; cbn [given sb sa so]; apply GE; assumption.
Qed.
Lemma given_old {X} (l : list X) s f i : (i < length l)%nat -> later l s f i = f i.
Proof. intros H. unfold later. apply Nat.ltb_lt in H. rewrite H. reflexivity. Qed.

Lemma samples_frame s L m m' a : apart L m -> frame s L m m' -> (a < length (arrs m))%nat -> sa L a <> s -> samples m' a = samples m a.
Proof.
  intros (A & _) (_ & (t & F2) & _ & F4 & _) Ha Hs. unfold samples. rewrite F2, nth_error_app1 by exact Ha. destruct (nth_error (arrs m) a) as [v|] eqn:E; [|reflexivity].
  destruct (A a v E) as (A1 & A2). f_equal. specialize (F4 (v_buf v) A1 ltac:(congruence)).
  rewrite (nth_error_nth' _ [] A1) in F4. apply nth_error_nth with (d := []) in F4. exact F4.
Qed.
Lemma value_frame s L m m' o : apart L m -> frame s L m m' -> (o < length (objs m))%nat -> so L o <> s -> value m' o = value m o.
Proof.
  intros A F Ho Hs. pose proof F as (_ & _ & _ & _ & F5). unfold value. rewrite (F5 o Ho Hs). destruct (nth_error (objs m) o) as [x|] eqn:E; [|reflexivity].
  destruct A as (A1 & A2). destruct (A2 o x E) as (HA & HO).
  assert (S : forall a, In a (held_arrs x) -> samples m' a = samples m a). { intros a Ha. destruct (HA a Ha) as (B & C). apply (samples_frame s L); [split; assumption|exact F|exact B|congruence]. }
  assert (Cc : forall c, In c (held_objs x) -> channel_at m' c = channel_at m c).
  { intros c Hc. destruct (HO c Hc) as (B & C). unfold channel_at. rewrite (F5 c B ltac:(congruence)). destruct (nth_error (objs m) c) as [[t f| |]|] eqn:Ec; try reflexivity. f_equal.
    destruct (A2 c _ Ec) as (HA' & _). destruct (HA' t (or_introl eq_refl)) as (D1 & D2). apply (samples_frame s L); [split; assumption|exact F|exact D1|congruence]. }
  assert (Cs : forall cs, incl cs (held_objs x) -> map (channel_at m') cs = map (channel_at m) cs) by (intros cs I; apply map_ext_in; intros c Hc; apply Cc, I, Hc).
  destruct x as [t f|cs f n|cs f n w u y z]; cbn [held_arrs held_objs] in *.
  - rewrite S by (left; reflexivity). reflexivity.
  - rewrite Cs by apply incl_refl. reflexivity.
  - rewrite Cs by apply incl_refl. rewrite !S by (cbn; tauto). reflexivity.
Qed.
(** one call *)
Lemma step_ok rs y d L m s c : apart L m -> uses L m s c -> let m' := snd (perform rs y d c m) in
  apart (given m s L) m' /\ frame s L m m' /\
  (forall a, (a < length (arrs m))%nat -> sa L a <> s -> samples m' a = samples m a) /\ (forall o, (o < length (objs m))%nat -> so L o <> s -> value m' o = value m o).
Proof.
  intros A (U1 & U2). cbn zeta. assert (I : inv s (given m s L) m) by (split; [apply given_apart, A|apply given_fresh]).
  assert (K : know s (given m s L) (call_arrs c) (call_objs c) m) by (split; intros x Hx; [destruct (U1 x Hx)|destruct (U2 x Hx)]; (split; [assumption|]); cbn [given sa so]; rewrite given_old; assumption).
  destruct (good_perform s (given m s L) rs y d c m I K) as ((A' & _) & F & _).
  assert (F' : frame s L m (snd (perform rs y d c m))).
  { destruct F as (F1 & F2 & F3 & F4 & F5). split; [exact F1|]. split; [exact F2|]. split; [exact F3|]. split; intros z Hz Hs; [apply F4|apply F5]; try exact Hz; cbn [given sb so]; rewrite given_old; assumption. }
  split; [exact A'|]. split; [exact F'|]. split; [intros a; apply (samples_frame s L); assumption|intros o; apply (value_frame s L); assumption].
Qed.
Lemma history_ok rs y d L m h L' m' : apart L m -> history rs y d L m h L' m' ->
  apart L' m' /\ (exists t, arrs m' = arrs m ++ t) /\ (length (objs m) <= length (objs m'))%nat /\ (length (bufs m) <= length (bufs m'))%nat /\
  (forall a, (a < length (arrs m))%nat -> sa L' a = sa L a) /\ (forall o, (o < length (objs m))%nat -> so L' o = so L o) /\
  forall s, (forall e, In e h -> fst e <> s) ->
    (forall a, (a < length (arrs m))%nat -> sa L a = s -> samples m' a = samples m a) /\ (forall o, (o < length (objs m))%nat -> so L o = s -> value m' o = value m o).
Proof.
  intros A H. induction H as [L m|L m s c h L' m' U H IH].
  - split; [exact A|]. split; [exists []; symmetry; apply app_nil_r|]. repeat split; auto.
  - destruct (step_ok rs y d L m s c A U) as (A1 & (F1 & (t1 & F2) & F3 & _) & V1 & V2). set (m1 := snd (perform rs y d c m)) in *. destruct (IH A1) as (A2 & (t2 & G2) & G3 & G1 & GA & GO & W).
    split; [exact A2|]. split; [exists (t1 ++ t2); rewrite G2, F2, app_assoc; reflexivity|]. split; [lia|]. split; [lia|].
    assert (LA : forall a, (a < length (arrs m))%nat -> (a < length (arrs m1))%nat) by (intros a Ha; rewrite F2, app_length; lia).
    split; [intros a Ha; rewrite GA by auto; apply given_old, Ha|]. split; [intros o Ho; rewrite GO by lia; apply given_old, Ho|].
    intros q Hq. destruct (W q) as (W1 & W2); [intros e He; apply Hq; right; exact He|]. assert (Hs : s <> q) by (apply (Hq (s, c)); left; reflexivity). split.
    + intros a Ha S. rewrite W1 by (auto; cbn [given sa]; rewrite given_old; assumption). apply V1; [exact Ha|congruence].
    + intros o Ho S. rewrite W2 by (auto; try lia; cbn [given so]; rewrite given_old; assumption). apply V2; [exact Ho|congruence].
Qed.

(** * A copy *)
(** memory grows, nothing changes *)
Definition ext (m m' : mem) : Prop := exists tb ta to_, bufs m' = bufs m ++ tb /\ arrs m' = arrs m ++ ta /\ objs m' = objs m ++ to_.
Lemma ext_refl m : ext m m.
Proof. exists [], [], []. rewrite !app_nil_r. auto. Qed.
Lemma ext_trans a b c : ext a b -> ext b c -> ext a c.
Proof. intros (x & y & z & A & B & C) (x' & y' & z' & A' & B' & C'). exists (x ++ x'), (y ++ y'), (z ++ z'). rewrite A', B', C', A, B, C, !app_assoc. auto. Qed.
(** views lead to buffers that exist *)
Definition closed (m : mem) : Prop := forall a v, nth_error (arrs m) a = Some v -> (v_buf v < length (bufs m))%nat.
Lemma samples_ext m m' a : closed m -> ext m m' -> (a < length (arrs m))%nat -> samples m' a = samples m a.
Proof.
  intros C (tb & ta & to_ & E1 & E2 & _) Ha. unfold samples. rewrite E2, nth_error_app1 by exact Ha. destruct (nth_error (arrs m) a) as [v|] eqn:E; [|reflexivity]. rewrite E1, app_nth1 by exact (C a v E). reflexivity.
Qed.
Lemma view_whole l : view_of l (Arr 0 0 1 (length l)) = l.
Proof.
  unfold view_of. cbn [v_off v_step v_len]. apply nth_ext with (d := 0) (d' := 0); [rewrite map_length, seq_length; reflexivity|]. intros n Hn. rewrite map_length, seq_length in Hn.
  rewrite (nth_map_seq _ (length l)) by exact Hn. f_equal. lia.
Qed.
Lemma new_arr_spec l m : closed m -> exists m', new_arr l m = (Ok (length (arrs m)), m') /\ ext m m' /\ closed m' /\ objs m' = objs m /\ samples m' (length (arrs m)) = l /\ (length (arrs m) < length (arrs m'))%nat.
Proof.
  intros C. unfold new_arr, new_buf, new_view, pbind. cbn [fst snd arrs bufs objs]. eexists. split; [reflexivity|]. split; [|split; [|split; [|split]]].
  - exists [l], [Arr (length (bufs m)) 0 1 (length l)], []. rewrite app_nil_r. auto.
  - intros a v E. cbn [arrs bufs] in *. rewrite app_length. cbn [length]. apply nth_error_snoc in E. destruct E as [(_ & ->)|E]; [cbn; lia|]. pose proof (C a v E). lia.
  - reflexivity.
  - unfold samples. cbn [arrs bufs]. rewrite nth_error_app2, Nat.sub_diag by lia. cbn [nth_error v_buf]. rewrite app_nth2, Nat.sub_diag by lia. cbn [nth]. exact (view_whole l).
  - cbn [arrs]. rewrite app_length. cbn. lia.
Qed.
(** the memo: copies that exist and say the same; different arrays have different copies,
    none of them older than the copying *)
Definition memo_ok (m0 m : mem) (ka : memo) : Prop := forall a b, seen ka a = Some b -> (length (arrs m0) <= b < length (arrs m))%nat /\ samples m b = samples m0 a.
Definition memo_inj (ka : memo) : Prop := forall a a' b, seen ka a = Some b -> seen ka a' = Some b -> a = a'.
Lemma memo_ext m0 m m' ka : closed m -> ext m m' -> memo_ok m0 m ka -> memo_ok m0 m' ka.
Proof.
  intros C E H a b S. destruct (H a b S) as (A & B). pose proof E as (tb & ta & to_ & _ & E2 & _). split; [rewrite E2, app_length; lia|]. rewrite (samples_ext m m' b C E) by lia. exact B.
Qed.
Lemma copy_arr_spec m0 m a ka : closed m0 -> closed m -> ext m0 m -> (a < length (arrs m0))%nat -> memo_ok m0 m ka -> memo_inj ka ->
  exists b ka' m', copy_arr a ka m = (Ok (b, ka'), m') /\ ext m m' /\ closed m' /\ objs m' = objs m /\ memo_ok m0 m' ka' /\ memo_inj ka' /\ seen ka' a = Some b /\ (forall x z, seen ka x = Some z -> seen ka' x = Some z).
Proof.
  intros C0 C E Ha M J. unfold copy_arr. destruct (seen ka a) as [b|] eqn:S.
  - exists b, ka, m. split; [reflexivity|]. split; [apply ext_refl|]. auto 10.
  - assert (Ha' : (a < length (arrs m))%nat) by (destruct E as (tb & ta & to_ & _ & E2 & _); rewrite E2, app_length; lia).
    unfold read, pbind, get_arr. destruct (nth_error (arrs m) a) as [v|] eqn:En; [|apply nth_error_None in En; lia]. cbn [fst snd].
    destruct (new_arr_spec (samples m a) m C) as (m' & -> & X & C' & O & SS & LL). unfold pret. exists (length (arrs m)), ((a, length (arrs m)) :: ka), m'. split; [reflexivity|]. split; [exact X|]. split; [exact C'|]. split; [exact O|].
    assert (M0 : (length (arrs m0) <= length (arrs m))%nat) by (destruct E as (tb & ta & to_ & _ & E2 & _); rewrite E2, app_length; lia).
    split; [|split; [|split]].
    + intros x z. cbn [seen]. destruct (Nat.eqb x a) eqn:Q; [apply Nat.eqb_eq in Q; subst x; intros [= <-]|].
      * split; [lia|]. rewrite SS. apply samples_ext; assumption.
      * exact (memo_ext m0 m m' ka C X M x z).
    + intros x x' z. cbn [seen]. destruct (Nat.eqb x a) eqn:Q; destruct (Nat.eqb x' a) eqn:Q'; try apply Nat.eqb_eq in Q; try apply Nat.eqb_eq in Q'; [congruence| | |apply J].
      * intros [= <-] H. destruct (M x' _ H). lia.
      * intros H [= <-]. destruct (M x _ H). lia.
    + cbn [seen]. rewrite Nat.eqb_refl. reflexivity.
    + intros x z Hx. cbn [seen]. destruct (Nat.eqb x a) eqn:Q; [apply Nat.eqb_eq in Q; congruence|exact Hx].
Qed.
(** channels of the copy: the copied arrays, the same rates *)
Definition mono_in (m : mem) (c a : nat) (f : Z) : Prop := nth_error (objs m) c = Some (OMono a f).
Lemma mono_ext m m' c a f : ext m m' -> mono_in m c a f -> mono_in m' c a f.
Proof. intros (tb & ta & to_ & _ & _ & E3) H. unfold mono_in in *. rewrite E3. rewrite nth_error_app1; [exact H|]. apply nth_error_Some. congruence. Qed.
Definition omemo_ok (m0 m : mem) (ko ka : memo) : Prop := forall c d, seen ko c = Some d -> exists a f b, mono_in m0 c a f /\ mono_in m d b f /\ seen ka a = Some b.
Definition copied (m0 m : mem) (ka : memo) (c d : nat) : Prop := exists a f b, mono_in m0 c a f /\ mono_in m d b f /\ seen ka a = Some b.
Lemma copy_chs_spec m0 cs : forall ko ka m, closed m0 -> closed m -> ext m0 m ->
  (forall c, In c cs -> exists a f, mono_in m0 c a f /\ (a < length (arrs m0))%nat) -> memo_ok m0 m ka -> memo_inj ka -> omemo_ok m0 m ko ka ->
  exists ds ka' m', copy_chs cs ko ka m = (Ok (ds, ka'), m') /\ ext m m' /\ closed m' /\ memo_ok m0 m' ka' /\ memo_inj ka' /\ Forall2 (copied m0 m' ka') cs ds /\ (forall x z, seen ka x = Some z -> seen ka' x = Some z).
Proof.
  induction cs as [|c cs IH]; intros ko ka m C0 C E HC M J OM; cbn [copy_chs].
  - exists [], ka, m. split; [reflexivity|]. split; [apply ext_refl|]. auto 8.
  - assert (HC' : forall c, In c cs -> exists a f, mono_in m0 c a f /\ (a < length (arrs m0))%nat) by (intros; apply HC; right; assumption). destruct (seen ko c) as [d|] eqn:S.
    + destruct (IH ko ka m C0 C E HC' M J OM) as (ds & ka' & m' & R & X & C' & M' & J' & F & K). unfold pbind. rewrite R. unfold pret. cbn [fst snd]. exists (d :: ds), ka', m'. split; [reflexivity|]. split; [exact X|]. split; [exact C'|]. split; [exact M'|]. split; [exact J'|]. split; [|exact K].
      constructor; [|exact F]. destruct (OM c d S) as (a & f & b & P1 & P2 & P3). exists a, f, b. split; [exact P1|]. split; [apply (mono_ext m m' d b f X P2)|apply K, P3].
    + destruct (HC c (or_introl eq_refl)) as (a & f & Hc & Ha). pose proof (mono_ext m0 m c a f E Hc) as Hc'. unfold mono_in in Hc'.
      unfold pbind at 1. unfold sig_of, pbind at 1, get_obj at 1. rewrite Hc'. unfold pret at 1. unfold pbind at 1. unfold fs_of, pbind at 1, get_obj at 1. rewrite Hc'. unfold pret at 1. unfold pbind at 1.
      destruct (copy_arr_spec m0 m a ka C0 C E Ha M J) as (b & ka1 & m1 & R1 & X1 & C1 & O1 & M1 & J1 & S1 & K1). rewrite R1. cbn [fst snd]. unfold pbind at 1, new_obj at 1.
      set (m2 := Mem (bufs m1) (arrs m1) (objs m1 ++ [OMono b f])). set (d := length (objs m1)).
      assert (X2 : ext m1 m2) by (exists [], [], [OMono b f]; unfold m2; cbn; rewrite !app_nil_r; auto). assert (C2 : closed m2) by exact C1.
      assert (D2 : mono_in m2 d b f) by (unfold mono_in, m2, d; cbn [objs]; rewrite nth_error_app2, Nat.sub_diag by lia; reflexivity).
      destruct (IH ((c, d) :: ko) ka1 m2 C0 C2 (ext_trans _ _ _ E (ext_trans _ _ _ X1 X2)) HC' (memo_ext m0 m1 m2 ka1 C1 X2 M1) J1) as (ds & ka' & m' & R & X & C' & M' & J' & F & K).
      * intros x z. cbn [seen]. destruct (Nat.eqb x c) eqn:Q; [apply Nat.eqb_eq in Q; subst x; intros [= <-]; exists a, f, b; auto|]. intros H. destruct (OM x z H) as (a' & f' & b' & P1 & P2 & P3). exists a', f', b'. split; [exact P1|]. split; [apply (mono_ext m); [exact (ext_trans _ _ _ X1 X2)|exact P2]|apply K1, P3].
      * unfold pbind. rewrite R. unfold pret. cbn [fst snd]. exists (d :: ds), ka', m'. split; [reflexivity|]. split; [exact (ext_trans _ _ _ (ext_trans _ _ _ X1 X2) X)|]. split; [exact C'|]. split; [exact M'|]. split; [exact J'|]. split; [|intros x z Hx; apply K, K1, Hx].
        constructor; [|exact F]. exists a, f, b. split; [exact Hc|]. split; [exact (mono_ext _ _ _ _ _ X D2)|apply K, S1].
Qed.
Lemma copied_channel m0 m ka c d : memo_ok m0 m ka -> copied m0 m ka c d -> channel_at m d = channel_at m0 c.
Proof. intros M (a & f & b & A & B & S). unfold channel_at. rewrite A, B. f_equal. apply (M a b S). Qed.
Lemma copied_chs m0 m ka cs ds : memo_ok m0 m ka -> Forall2 (copied m0 m ka) cs ds -> map (channel_at m) ds = map (channel_at m0) cs.
Proof. intros M F. induction F as [|c d cs ds Hc F IH]; cbn; [reflexivity|]. f_equal; [exact (copied_channel _ _ _ _ _ M Hc)|exact IH]. Qed.
Lemma copied_ext m0 m m' ka ka' cs ds : ext m m' -> (forall p q, seen ka p = Some q -> seen ka' p = Some q) -> Forall2 (copied m0 m ka) cs ds -> Forall2 (copied m0 m' ka') cs ds.
Proof. intros X K F. induction F as [|c d cs ds Hc F IH]; constructor; [|exact IH]. destruct Hc as (a & g & b & A & B & S). exists a, g, b. split; [exact A|]. split; [exact (mono_ext _ _ _ _ _ X B)|apply K, S]. Qed.
Lemma memo_new m0 m ka l l' a : memo_ok m0 m ka -> Forall2 (fun a b => seen ka a = Some b) l l' -> In a l' -> (length (arrs m0) <= a)%nat.
Proof. intros M F Ha. induction F as [|p q l l' H F IH]; [destruct Ha|]. destruct Ha as [<-|Ha]; [destruct (M p q H); lia|apply IH, Ha]. Qed.
Lemma sound_closed m : sound m -> closed m.
Proof. intros (A & _) a v E. destruct (A a v E) as (B & _). exact B. Qed.
Lemma memo_sharing ka l l' : memo_inj ka -> Forall2 (fun a b => seen ka a = Some b) l l' -> same_sharing l l'.
Proof.
  intros J F. assert (LL : length l = length l') by (induction F; cbn; congruence). split; [exact LL|]. intros i j Hi Hj.
  assert (G : forall k, (k < length l)%nat -> seen ka (nth k l 0%nat) = Some (nth k l' 0%nat)).
  { clear -F. induction F as [|a b l l' H F IH]; cbn; [lia|]. intros [|k] Hk; [exact H|]. apply IH. lia. }
  split; intros E; [pose proof (G i Hi); pose proof (G j Hj); congruence|]. apply (J _ _ (nth i l' 0%nat)); [apply G, Hi|]. rewrite E. apply G, Hj.
Qed.
Lemma copied_held m0 m ka cs ds : Forall2 (copied m0 m ka) cs ds ->
  Forall2 (fun a b => seen ka a = Some b) (flat_map (fun c => match nth_error (objs m0) c with Some y => held_arrs y | None => [] end) cs) (flat_map (fun c => match nth_error (objs m) c with Some y => held_arrs y | None => [] end) ds).
Proof. intros F. induction F as [|c d cs ds Hc F IH]; cbn; [constructor|]. destruct Hc as (a & f & b & A & B & S). rewrite A, B. cbn. constructor; assumption. Qed.

Lemma copy_spec m o x : sound m -> nth_error (objs m) o = Some x -> exists m', copy_obj o m = (Ok (length (objs m') - 1)%nat, m') /\ ext m m' /\ (length (objs m) < length (objs m'))%nat /\
  value m' (length (objs m') - 1) = value m o /\ same_sharing (arrays_of m o) (arrays_of m' (length (objs m') - 1)) /\ (forall a, In a (arrays_of m' (length (objs m') - 1)) -> (length (arrs m) <= a)%nat).
Proof.
  intros S E. pose proof (sound_closed m S) as C. destruct S as (_ & S2). destruct (S2 o x E) as (HA & HO & _).
  assert (HC : forall c, In c (held_objs x) -> exists a f, mono_in m c a f /\ (a < length (arrs m))%nat).
  { intros c Hc. destruct (HO c Hc) as (a & f & Hm). exists a, f. split; [exact Hm|]. destruct (S2 c _ Hm) as (H & _). apply H. left. reflexivity. }
  assert (M0 : memo_ok m m []) by (intros a b H; discriminate H). assert (J0 : memo_inj []) by (intros a a' b H; discriminate H). assert (OM0 : omemo_ok m m [] []) by (intros a b H; discriminate H).
  unfold copy_obj, pbind at 1, get_obj at 1. rewrite E. destruct x as [t f|cs f n|cs f n w u y z]; cbn [held_arrs held_objs] in *.
  - destruct (copy_arr_spec m m t [] C C (ext_refl m) (HA t (or_introl eq_refl)) M0 J0) as (b & ka & m1 & R & X & C1 & O1 & M1 & J1 & S1 & _). unfold pbind. rewrite R. unfold new_obj. cbn [fst snd]. set (m2 := Mem _ _ _).
    assert (L2 : length (objs m2) = S (length (objs m1))) by (unfold m2; cbn; rewrite app_length; cbn; lia). exists m2. rewrite L2. replace (S (length (objs m1)) - 1)%nat with (length (objs m1)) by lia. split; [reflexivity|].
    assert (X2 : ext m1 m2) by (exists [], [], [OMono b f]; unfold m2; cbn; rewrite !app_nil_r; auto). split; [exact (ext_trans _ _ _ X X2)|]. rewrite O1. split; [lia|]. rewrite <- O1.
    assert (E2 : nth_error (objs m2) (length (objs m1)) = Some (OMono b f)) by (unfold m2; cbn [objs]; rewrite nth_error_app2, Nat.sub_diag by lia; reflexivity).
    destruct (memo_ext m m1 m2 ka C1 X2 M1 t b S1) as (B & SS).
    split; [unfold value; rewrite E, E2, SS; reflexivity|]. unfold arrays_of. rewrite E, E2. cbn. split; [|intros a [<-|[]]; lia]. split; [reflexivity|]. intros i j Hi Hj. cbn in Hi, Hj. assert (i = 0%nat) by lia. assert (j = 0%nat) by lia. subst. tauto.
  - destruct (copy_chs_spec m cs [] [] m C C (ext_refl m) HC M0 J0 OM0) as (ds & ka & m1 & R & X & C1 & M1 & J1 & F & _). unfold pbind. rewrite R. unfold new_obj. cbn [fst snd]. set (m2 := Mem _ _ _).
    assert (L2 : length (objs m2) = S (length (objs m1))) by (unfold m2; cbn; rewrite app_length; cbn; lia). exists m2. rewrite L2. replace (S (length (objs m1)) - 1)%nat with (length (objs m1)) by lia. split; [reflexivity|].
    assert (X2 : ext m1 m2) by (exists [], [], [OMulti ds f n]; unfold m2; cbn; rewrite !app_nil_r; auto). split; [exact (ext_trans _ _ _ X X2)|].
    assert (LO : (length (objs m) <= length (objs m1))%nat) by (destruct X as (? & ? & ? & _ & _ & E3); rewrite E3, app_length; lia). split; [lia|].
    assert (E2 : nth_error (objs m2) (length (objs m1)) = Some (OMulti ds f n)) by (unfold m2; cbn [objs]; rewrite nth_error_app2, Nat.sub_diag by lia; reflexivity).
    pose proof (memo_ext m m1 m2 ka C1 X2 M1) as M2. assert (F2 : Forall2 (copied m m2 ka) cs ds).
    { exact (copied_ext m m1 m2 ka ka cs ds X2 (fun _ _ H => H) F). }
    split; [unfold value; rewrite E, E2, (copied_chs m m2 ka cs ds M2 F2); reflexivity|]. unfold arrays_of. rewrite E, E2. cbn [held_arrs held_objs]. rewrite !app_nil_r. pose proof (copied_held m m2 ka cs ds F2) as FH. split; [exact (memo_sharing ka _ _ J1 FH)|].
    intros a Ha. exact (memo_new m m2 ka _ _ a M2 FH Ha).
  - destruct (copy_chs_spec m cs [] [] m C C (ext_refl m) HC M0 J0 OM0) as (ds & k1 & m1 & R1 & X1 & C1 & M1 & J1 & F & _). unfold pbind at 1. rewrite R1. cbn [fst snd].
    destruct (copy_arr_spec m m1 w k1 C C1 X1 (HA w ltac:(cbn; tauto)) M1 J1) as (bw & k2 & m2 & R2 & X2 & C2 & O2 & M2 & J2 & S2w & K2). unfold pbind at 1. rewrite R2. cbn [fst snd]. pose proof (ext_trans _ _ _ X1 X2) as Y2.
    destruct (copy_arr_spec m m2 u k2 C C2 Y2 (HA u ltac:(cbn; tauto)) M2 J2) as (bu & k3 & m3 & R3 & X3 & C3 & O3 & M3 & J3 & S3 & K3). unfold pbind at 1. rewrite R3. cbn [fst snd]. pose proof (ext_trans _ _ _ Y2 X3) as Y3.
    destruct (copy_arr_spec m m3 y k3 C C3 Y3 (HA y ltac:(cbn; tauto)) M3 J3) as (by_ & k4 & m4 & R4 & X4 & C4 & O4 & M4 & J4 & S4 & K4). unfold pbind at 1. rewrite R4. cbn [fst snd]. pose proof (ext_trans _ _ _ Y3 X4) as Y4.
    destruct (copy_arr_spec m m4 z k4 C C4 Y4 (HA z ltac:(cbn; tauto)) M4 J4) as (bz & k5 & m5 & R5 & X5 & C5 & O5 & M5 & J5 & S5 & K5). unfold pbind at 1. rewrite R5. cbn [fst snd]. pose proof (ext_trans _ _ _ Y4 X5) as Y5.
    unfold new_obj. set (m6 := Mem _ _ _).
    assert (L2 : length (objs m6) = S (length (objs m5))) by (unfold m6; cbn; rewrite app_length; cbn; lia). exists m6. rewrite L2. replace (S (length (objs m5)) - 1)%nat with (length (objs m5)) by lia. split; [reflexivity|].
    assert (X6 : ext m5 m6) by (eexists [], [], [_]; unfold m6; cbn [bufs arrs objs]; rewrite !app_nil_r; split; [reflexivity|split; reflexivity]). split; [exact (ext_trans _ _ _ Y5 X6)|].
    assert (LO : (length (objs m) <= length (objs m5))%nat) by (destruct Y5 as (? & ? & ? & _ & _ & E3); rewrite E3, app_length; lia). split; [lia|].
    assert (E2 : nth_error (objs m6) (length (objs m5)) = Some (OAmbi ds f n bw bu by_ bz)) by (unfold m6; cbn [objs]; rewrite nth_error_app2, Nat.sub_diag by lia; reflexivity).
    pose proof (memo_ext m m5 m6 k5 C5 X6 M5) as M6.
    assert (F6 : Forall2 (copied m m6 k5) cs ds).
    { assert (X16 : ext m1 m6) by exact (ext_trans _ _ _ (ext_trans _ _ _ X2 (ext_trans _ _ _ X3 (ext_trans _ _ _ X4 X5))) X6). assert (K15 : forall p q, seen k1 p = Some q -> seen k5 p = Some q) by auto.
      exact (copied_ext m m1 m6 k1 k5 cs ds X16 K15 F). }
    assert (Q1 : seen k5 w = Some bw) by auto. assert (Q2 : seen k5 u = Some bu) by auto. assert (Q3 : seen k5 y = Some by_) by auto.
    split.
    + unfold value. rewrite E, E2, (copied_chs m m6 k5 cs ds M6 F6), (proj2 (M6 _ _ Q1)), (proj2 (M6 _ _ Q2)), (proj2 (M6 _ _ Q3)), (proj2 (M6 _ _ S5)). reflexivity.
    + unfold arrays_of. rewrite E, E2. cbn [held_arrs held_objs].
      assert (FH : Forall2 (fun a b => seen k5 a = Some b) (flat_map (fun c => match nth_error (objs m) c with Some y0 => held_arrs y0 | None => [] end) cs ++ [w; u; y; z]) (flat_map (fun c => match nth_error (objs m6) c with Some y0 => held_arrs y0 | None => [] end) ds ++ [bw; bu; by_; bz])).
      { apply Forall2_app; [exact (copied_held m m6 k5 cs ds F6)|]. repeat constructor; assumption. }
      split; [exact (memo_sharing k5 _ _ J5 FH)|]. intros a Ha. exact (memo_new m m6 k5 _ _ a M6 FH Ha).
Qed.
