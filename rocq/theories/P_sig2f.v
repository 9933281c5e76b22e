(** Signals in memory: trim, conv and resample on objects and on values agree. *)
From Coq Require Import String.
From Verif Require Import Base BaseFacts P_utils2 P_sig S_sig M_utils M_sig M_process M_sph0 M_sph M_grids M_decoder M_decoder2 M_decoder3 M_parsa2 M_io M_sig2 S_sig2 P_sig2a P_sig2b P_sig2c P_sig2d P_sig2e.
Open Scope R_scope.

Lemma sound_ready m : sound m -> ready m.
Proof. intros (A & B). split; [intros a v E; exact (proj1 (A a v E))|]. intros o s f E. apply (proj1 (B o _ E)). left. reflexivity. Qed.
Lemma arr_len m s : (s < length (arrs m))%nat -> exists v, nth_error (arrs m) s = Some v /\ v_len v = length (samples m s).
Proof. intros H. unfold samples. destruct (nth_error (arrs m) s) as [v|] eqn:E; [|apply nth_error_None in E; lia]. exists v. split; [reflexivity|]. rewrite view_length. reflexivity. Qed.
Lemma channel_mono m c s f : nth_error (objs m) c = Some (OMono s f) -> channel_at m c = Mono (samples m s) f.
Proof. intros E. unfold channel_at. rewrite E. reflexivity. Qed.
(** what the value of a plural object becomes when its channels are touched *)
Lemma plural_value m m' o x l : sound m -> nth_error (objs m) o = Some x -> match x with OMono _ _ => False | _ => True end -> touched m m' (chs_of x) l ->
  value m' o = Some (match x with
                     | OAmbi _ f n w a b c => SvAmbi (AmbiB (Multi l f n) (samples m w) (samples m a) (samples m b) (samples m c))
                     | OMulti _ f n => SvMulti (Multi l f n)
                     | OMono s f => SvMono (Mono (samples m s) f)
                     end).
Proof.
  intros S E P (W & Rm & K & _ & V). pose proof S as S0. destruct S as (_ & S). destruct (S o x E) as (S1 & S2 & _). assert (N : ~ In o (chs_of x)).
  { intros H. assert (H' : In o (held_objs x)) by (destruct x; exact H). destruct (S2 o H') as (s & f & E'). rewrite E in E'. injection E' as ->. exact P. }
  unfold value. rewrite (K o N), E. destruct x as [s f|cs f n|cs f n w a b c]; [destruct P| |]; cbn [chs_of] in V; rewrite V; [reflexivity|].
  destruct (sound_ready m S0) as (C & _). rewrite !(samples_wext m m' _ C W) by (apply S1; cbn; tauto). reflexivity.
Qed.

(** * trim *)
Lemma trim_chs_spec m start stop cs : sound m -> (forall c, In c cs -> is_mono m c) -> NoDup cs ->
  exists m', pmap (fun c => let! f := fs_of c in cut f start stop c) cs m = (Ok (map (fun _ => tt) cs), m') /\ touched m m' cs (map (fun q => Mono (trim_slice (m_sig q) (m_fs q) start stop) (m_fs q)) (map (channel_at m) cs)).
Proof.
  intros S HM ND. apply cuts_spec; [exact ND|apply sound_ready; exact S|exact HM|]. intros c m1 _ R1 (s & f & E). destruct (cut_spec m1 c f start stop R1 (ex_intro _ s (ex_intro _ f E))) as (m2 & E2 & W & R2 & K & M & V).
  exists m2. split; [unfold pbind, fs_of, get_obj, pbind; rewrite E; exact E2|]. split; [exact W|]. split; [exact R2|]. split; [exact K|]. split; [exact M|]. rewrite V, (channel_mono m1 c s f E). reflexivity.
Qed.
Definition agrees (m : mem) (p : prog unit) (o : nat) (r : res sigval) : Prop :=
  match r with
  | Ok v => exists m', p m = (Ok tt, m') /\ value m' o = Some v
  | Err e => fst (p m) = Err e
  end.
Lemma mapM_trim start stop cs : mapM (fun c => mono_set c (arr1 (trim_slice (m_sig c) (m_fs c) start stop))) cs = Ok (map (fun q => Mono (trim_slice (m_sig q) (m_fs q) start stop) (m_fs q)) cs).
Proof. apply mapM_ok. intros a _. apply mono_set_arr1. Qed.
Lemma pbind_ok {A B} (p : prog A) (f : A -> prog B) m a m' : p m = (Ok a, m') -> pbind p f m = f a m'.
Proof. intros E. unfold pbind. rewrite E. reflexivity. Qed.
Lemma pbind_err {A B} (p : prog A) (f : A -> prog B) m e m' : p m = (Err e, m') -> pbind p f m = (Err e, m').
Proof. intros E. unfold pbind. rewrite E. reflexivity. Qed.
Lemma get_obj_ok m o x : nth_error (objs m) o = Some x -> get_obj o m = (Ok x, m).
Proof. intros E. unfold get_obj. rewrite E. reflexivity. Qed.
Lemma fs_of_ok m o x : nth_error (objs m) o = Some x -> fs_of o m = (Ok (match x with OMono _ f => f | OMulti _ f _ => f | OAmbi _ f _ _ _ _ _ => f end), m).
Proof. intros E. unfold fs_of. rewrite (pbind_ok _ _ _ _ _ (get_obj_ok m o x E)). reflexivity. Qed.
Lemma sig_of_ok m o s f : nth_error (objs m) o = Some (OMono s f) -> sig_of o m = (Ok s, m).
Proof. intros E. unfold sig_of. rewrite (pbind_ok _ _ _ _ _ (get_obj_ok m o _ E)). reflexivity. Qed.
Lemma get_arr_ok m s : (s < length (arrs m))%nat -> exists v, get_arr s m = (Ok v, m) /\ v_len v = length (samples m s).
Proof. intros H. destruct (arr_len m s H) as (v & E & L). exists v. split; [|exact L]. unfold get_arr. rewrite E. reflexivity. Qed.
Lemma len_mono m o s f : ready m -> nth_error (objs m) o = Some (OMono s f) -> len_of o m = (Ok (length (samples m s)), m).
Proof.
  intros (C & I) E. unfold len_of. rewrite (pbind_ok _ _ _ _ _ (get_obj_ok m o _ E)). destruct (get_arr_ok m s (I o s f E)) as (v & Ev & L). rewrite (pbind_ok _ _ _ _ _ Ev), L. reflexivity.
Qed.
Lemma len_plural m o x : ready m -> nth_error (objs m) o = Some x -> match x with OMono _ _ => False | _ => True end -> (forall c, In c (chs_of x) -> is_mono m c) ->
  len_of o m = (match map (channel_at m) (chs_of x) with [] => Err IndexError | c :: _ => Ok (mono_len c) end, m).
Proof.
  intros (C & I) E P H. unfold len_of. rewrite (pbind_ok _ _ _ _ _ (get_obj_ok m o _ E)).
  assert (G : match chs_of x with [] => praise IndexError | c :: _ => let! s := sig_of c in let! v := get_arr s in pret (v_len v) end m = (match map (channel_at m) (chs_of x) with [] => Err IndexError | c :: _ => Ok (mono_len c) end, m)).
  { destruct (chs_of x) as [|c cs]; [reflexivity|]. destruct (H c (or_introl eq_refl)) as (s & f & Ec). rewrite (pbind_ok _ _ _ _ _ (sig_of_ok m c s f Ec)). destruct (get_arr_ok m s (I c s f Ec)) as (v & Ev & L). rewrite (pbind_ok _ _ _ _ _ Ev), L. cbn [map]. rewrite (channel_mono _ _ _ _ Ec). reflexivity. }
  destruct x; [destruct P|exact G|exact G].
Qed.
Lemma plift_eq {A} (r : res A) m : plift r m = (r, m). Proof. reflexivity. Qed.
(** trim of an object with channels *)
Lemma trim_plural m o x a b t : sound m -> nth_error (objs m) o = Some x -> match x with OMono _ _ => False | _ => True end ->
  let f := match x with OMono _ f => f | OMulti _ f _ => f | OAmbi _ f _ _ _ _ _ => f end in
  match multi_trim (Multi (map (channel_at m) (chs_of x)) f 0) a b t with
  | Err e => fst (trim_obj o a b t m) = Err e
  | Ok q => exists m', trim_obj o a b t m = (Ok tt, m') /\ touched m m' (chs_of x) (channels q)
  end.
Proof.
  intros S E P f. destruct (proj2 S o x E) as (_ & H2 & H3). assert (H2' : forall c, In c (chs_of x) -> is_mono m c) by (intros c Hc; apply H2; destruct x; exact Hc). assert (H3' : NoDup (chs_of x)) by (destruct x; [destruct P|exact H3|exact H3]).
  pose proof (len_plural m o x (sound_ready m S) E P H2') as L. unfold multi_trim, multi_len, trim_obj. cbn [channels mu_fs]. set (stop := match t with Some q => a + q | None => b end).
  destruct (map (channel_at m) (chs_of x)) as [|c0 l] eqn:EL; [rewrite (pbind_err _ _ _ _ _ L); reflexivity|]. rewrite (pbind_ok _ _ _ _ _ L), (pbind_ok _ _ _ _ _ (fs_of_ok m o x E)). cbn [bind]. fold f.
  destruct (Rltb a (INR (mono_len c0) / IZR f)); cbn [assert_ bind].
  - rewrite mapM_trim. cbn [bind channels]. rewrite <- EL. destruct (trim_chs_spec m a stop (chs_of x) S H2' H3') as (m2 & E2 & T). exists m2. split; [|exact T]. rewrite (pbind_ok _ _ _ _ _ (plift_eq _ _)), (pbind_ok _ _ _ _ _ (get_obj_ok m o x E)).
    destruct x; [destruct P| |]; cbn [chs_of] in *; rewrite (pbind_ok _ _ _ _ _ E2); reflexivity.
  - rewrite (pbind_err _ _ _ _ _ (plift_eq _ _)). reflexivity.
Qed.
Lemma refine_trim rs m o v a b t : sound m -> value m o = Some v -> agrees m (trim_obj o a b t) o (val_step rs v (OpTrim a b t)).
Proof.
  intros S V. pose proof (sound_ready m S) as Rm. unfold value in V. destruct (nth_error (objs m) o) as [x|] eqn:E; [|discriminate].
  assert (G : forall cs f n, multi_trim (Multi cs f n) a b t = let* q := multi_trim (Multi cs f 0) a b t in Ok (Multi (channels q) f n)).
  { intros cs f n. unfold multi_trim, multi_len. cbn [channels mu_fs channel_count]. destruct cs as [|c cs]; [reflexivity|]. cbn [bind]. destruct (Rltb a _); cbn [assert_ bind]; [|reflexivity]. destruct (mapM _ _); reflexivity. }
  destruct x as [s f|cs f n|cs f n w x y z]; injection V as <-.
  - cbn [val_step]. unfold mono_trim, trim_obj. set (stop := match t with Some q => a + q | None => b end). unfold agrees. rewrite (pbind_ok _ _ _ _ _ (len_mono m o s f Rm E)), (pbind_ok _ _ _ _ _ (fs_of_ok m o _ E)). unfold mono_len. cbn [m_sig m_fs].
    destruct (Rltb a _); cbn [assert_ bind]; [|rewrite (pbind_err _ _ _ _ _ (plift_eq _ _)); reflexivity]. rewrite mono_set_arr1. cbn [bind m_fs].
    destruct (cut_spec m o f a stop Rm (ex_intro _ s (ex_intro _ f E))) as (m2 & E2 & W & R2 & K & (s2 & f2 & M) & V2). exists m2. rewrite (pbind_ok _ _ _ _ _ (plift_eq _ _)), (pbind_ok _ _ _ _ _ (get_obj_ok m o _ E)). split; [exact E2|]. unfold value. rewrite M. rewrite <- (channel_mono _ _ _ _ M), V2, (channel_mono _ _ _ _ E). reflexivity.
  - cbn [val_step multi_step]. rewrite G. pose proof (trim_plural m o _ a b t S E Logic.I) as T. cbn [chs_of] in T. cbn zeta in T. destruct (multi_trim _ a b t) as [q|e]; cbn [bind agrees]; [|exact T]. destruct T as (m2 & E2 & T). exists m2. split; [exact E2|]. exact (plural_value m m2 o _ _ S E Logic.I T).
  - cbn [val_step ambib_step base aW aX aY aZ]. rewrite G. pose proof (trim_plural m o _ a b t S E Logic.I) as T. cbn [chs_of] in T. cbn zeta in T. destruct (multi_trim _ a b t) as [q|e]; cbn [bind agrees]; [|exact T]. destruct T as (m2 & E2 & T). exists m2. split; [exact E2|]. exact (plural_value m m2 o _ _ S E Logic.I T).
Qed.
(** * conv *)
Lemma refine_conv rs m o v hs : sound m -> value m o = Some v -> (forall a, In a (flat_map parg_arrs hs) -> (a < length (arrs m))%nat) ->
  agrees m (conv_obj o hs) o (val_step rs v (OpConv (map (fun h => arr1 (parg_val m h)) hs))).
Proof.
  intros S V Ha. pose proof (sound_ready m S) as Rm. unfold value in V. destruct (nth_error (objs m) o) as [x|] eqn:E; [|discriminate]. unfold agrees, conv_obj, pbind at 1 2, get_obj. rewrite E.
  destruct x as [s f|cs f n|cs f n w x y z]; injection V as <-; cbn [val_step].
  - destruct hs as [|h [|h' hs]]; try reflexivity. cbn [map]. unfold mono_conv. rewrite asarray_arr1. cbn [bind]. rewrite mono_set_arr1. cbn [bind m_sig m_fs data arr1].
    destruct (conv_one_spec m o h Rm (ex_intro _ s (ex_intro _ f E)) (fun a H => Ha a (in_or_app _ _ _ (or_introl H)))) as (m2 & E2 & W & R2 & K & (s2 & f2 & M) & V2). exists m2. split; [exact E2|]. unfold value. rewrite M. rewrite <- (channel_mono _ _ _ _ M), V2, (channel_mono _ _ _ _ E). reflexivity.
  - destruct (proj2 S o _ E) as (_ & H2 & H3). destruct (conv_zip_touch cs H3 hs m Rm H2 Ha) as (m2 & l & E2 & Z & T). cbn [multi_step]. unfold multi_conv. cbn [channels]. rewrite Z. cbn [bind mu_fs channel_count]. exists m2. split; [exact E2|]. exact (plural_value m m2 o _ _ S E Logic.I T).
  - destruct (proj2 S o _ E) as (_ & H2 & H3). destruct (conv_zip_touch cs H3 hs m Rm H2 Ha) as (m2 & l & E2 & Z & T). cbn [ambib_step base]. unfold multi_conv. cbn [channels]. rewrite Z. cbn [bind mu_fs channel_count aW aX aY aZ]. exists m2. split; [exact E2|]. exact (plural_value m m2 o _ _ S E Logic.I T).
Qed.
(** * resample *)
Lemma mono_new_spec f x m : ready m -> (forall a, In a (parg_arrs x) -> (a < length (arrs m))%nat) ->
  exists m', mono_new f x m = (Ok (length (objs m)), m') /\ ext m m' /\ ready m' /\ is_mono m' (length (objs m)) /\ channel_at m' (length (objs m)) = Mono (parg_val m x) f.
Proof.
  intros (C & I) Hx. destruct (as_1d_spec m x C Hx) as (s & m1 & E1 & X & C1 & O1 & S1 & L1). unfold mono_new, pbind. rewrite E1. unfold new_obj. rewrite O1. eexists. split; [reflexivity|].
  assert (En : nth_error (objs m ++ [OMono s f]) (length (objs m)) = Some (OMono s f)) by (rewrite nth_error_app2, Nat.sub_diag by lia; reflexivity). split; [|split; [split; [exact C1|]|split]].
  - destruct X as (tb & ta & to_ & A & B & _). exists tb, ta, [OMono s f]. cbn [bufs arrs objs]. auto.
  - intros o t g E. cbn [objs arrs] in *. apply nth_error_snoc in E. destruct E as [(_ & [= -> _])|E]; [exact L1|]. exact (wext_len _ _ _ (ext_wext _ _ X) (I o t g E)).
  - exists s, f. exact En.
  - unfold channel_at. cbn [objs]. rewrite En. f_equal. rewrite <- S1. reflexivity.
Qed.
Lemma parg_ext m m' x : closed m -> ext m m' -> (forall a, In a (parg_arrs x) -> (a < length (arrs m))%nat) -> parg_val m' x = parg_val m x.
Proof. intros C X H. destruct x as [a|l]; [|reflexivity]. cbn [parg_val]. apply samples_ext; [exact C|exact X|]. apply H. left. reflexivity. Qed.
Lemma monos_spec f xs : forall m, ready m -> (forall a, In a (flat_map parg_arrs xs) -> (a < length (arrs m))%nat) ->
  exists m', pmap (mono_new f) xs m = (Ok (seq (length (objs m)) (length xs)), m') /\ ext m m' /\ ready m' /\ (forall c, In c (seq (length (objs m)) (length xs)) -> is_mono m' c) /\
    map (channel_at m') (seq (length (objs m)) (length xs)) = map (fun x => Mono (parg_val m x) f) xs.
Proof.
  induction xs as [|x xs IH]; intros m Rm Ha.
  - exists m. split; [reflexivity|]. split; [apply ext_refl|]. split; [exact Rm|]. split; [intros c []|reflexivity].
  - destruct (mono_new_spec f x m Rm (fun a H => Ha a (in_or_app _ _ _ (or_introl H)))) as (m1 & E1 & X1 & R1 & M1 & V1).
    destruct (IH m1 R1) as (m2 & E2 & X2 & R2 & M2 & V2); [intros a H; apply (wext_len _ _ _ (ext_wext _ _ X1)), Ha; apply in_or_app; right; exact H|].
    assert (L : length (objs m1) = S (length (objs m))) by (pose proof (mono_new_id f x m (length (objs m))) as N; rewrite E1 in N; exact (proj2 (N eq_refl))). rewrite L in *.
    exists m2. split; [cbn [pmap]; unfold pbind; rewrite E1, E2; reflexivity|]. split; [exact (ext_trans _ _ _ X1 X2)|]. split; [exact R2|]. cbn [length seq]. split.
    + intros c [<-|Hc]; [|exact (M2 c Hc)]. destruct M1 as (s & g & E). exists s, g. exact (mono_ext _ _ _ _ _ X2 E).
    + cbn [map]. f_equal.
      * rewrite <- V1. apply channel_kept; [apply ext_wext; exact X2|exact R1|]. destruct X2 as (tb & ta & to_ & _ & _ & Ho). rewrite Ho. apply nth_error_app1. lia.
      * rewrite V2. apply map_ext_in. intros h Hh. f_equal. apply parg_ext; [exact (proj1 Rm)|exact X1|]. intros a H. apply Ha. apply in_or_app. right. apply in_flat_map. exists h. split; assumption.
Qed.
Lemma concat_nth l c r i : (forall q, In q l -> length q = c) -> (r < length l)%nat -> (i < c)%nat -> nth (r * c + i) (concat l) 0 = nth i (nth r l []) 0.
Proof.
  intros F Hr Hi. pose proof (nth_error_concat c l r i) as H. rewrite Forall_forall in H. specialize (H F Hi). rewrite (nth_error_nth' l [] Hr) in H. pose proof (F (nth r l []) (nth_In l [] Hr)) as Lr.
  rewrite (nth_error_nth' (nth r l []) 0) in H by lia. exact (nth_error_nth _ _ _ H).
Qed.
Lemma rows_spec m l : closed m -> (forall q, In q l -> length q = row_len l) ->
  exists m', new_rows (length l) (row_len l) (concat l) m = (Ok (seq (length (arrs m)) (length l)), m') /\ ext m m' /\ closed m' /\ objs m' = objs m /\
    (forall a, In a (seq (length (arrs m)) (length l)) -> (a < length (arrs m'))%nat) /\ map (samples m') (seq (length (arrs m)) (length l)) = l.
Proof.
  intros C F. rewrite new_rows_spec. eexists. split; [reflexivity|]. split; [|split; [|split; [|split]]].
  - eexists _, _, []. cbn [bufs arrs objs]. split; [reflexivity|]. split; [reflexivity|symmetry; apply app_nil_r].
  - intros a v E. cbn [arrs bufs] in *. rewrite app_length. cbn [length]. destruct (Nat.lt_ge_cases a (length (arrs m))) as [L|L].
    + rewrite nth_error_app1 in E by exact L. pose proof (C a v E). lia.
    + rewrite nth_error_app2 in E by exact L. apply nth_error_In, in_map_iff in E. destruct E as (r & <- & _). cbn. lia.
  - reflexivity.
  - intros a Ha. apply in_seq in Ha. cbn [arrs]. rewrite app_length, map_length, seq_length. lia.
  - apply nth_ext with (d := []) (d' := []); [rewrite map_length, seq_length; reflexivity|]. intros r Hr. rewrite map_length, seq_length in Hr. rewrite (nth_map_in _ _ _ _ 0%nat) by (rewrite seq_length; exact Hr). rewrite seq_nth by exact Hr.
    unfold samples. cbn [arrs bufs]. rewrite nth_error_app2 by lia. replace (length (arrs m) + r - length (arrs m))%nat with r by lia. rewrite nth_error_map, (nth_error_nth' _ 0%nat) by (rewrite seq_length; exact Hr). cbn [option_map]. rewrite seq_nth by exact Hr. cbn [v_buf Nat.add]. rewrite app_nth2, Nat.sub_diag by lia. cbn [nth].
    apply nth_ext with (d := 0) (d' := 0); [rewrite view_length; symmetry; apply F, nth_In, Hr|]. intros i Hi. rewrite view_length in Hi. rewrite view_nth by exact Hi. cbn [v_off v_step v_len] in *. rewrite Nat.mul_1_l. apply concat_nth; assumption.
Qed.
Lemma unpack_spec m rs f : closed m -> rs <> [] -> (forall r, In r rs -> length r = row_len rs) ->
  match unpack (squeeze (Nd [length rs; row_len rs] (concat rs))) with
  | Err e => fst (M_sig2.unpack_rows rs m) = Err e
  | Ok ds => exists args m', M_sig2.unpack_rows rs m = (Ok args, m') /\ ext m m' /\ closed m' /\ objs m' = objs m /\ (forall a, In a (flat_map parg_arrs args) -> (a < length (arrs m'))%nat) /\
      mapM (fun s => mono_init s f) ds = Ok (map (fun h => Mono (parg_val m' h) f) args)
  end.
Proof.
  intros C N F. destruct rs as [|r [|r' rs]]; [congruence| |].
  - cbn [row_len length concat]. rewrite app_nil_r. unfold squeeze. cbn [shape data filter Nat.eqb negb]. destruct r as [|x [|x' r]]; cbn [length Nat.eqb negb].
    + cbn [unpack shape data M_sig2.unpack_rows map]. exists [], m. split; [reflexivity|]. split; [apply ext_refl|]. split; [exact C|]. split; [reflexivity|]. split; [intros a []|reflexivity].
    + reflexivity.
    + cbn [unpack shape data M_sig2.unpack_rows]. exists (map (fun x => PLst [x]) (x :: x' :: r)), m. split; [reflexivity|]. split; [apply ext_refl|]. split; [exact C|]. split; [reflexivity|]. split.
      * intros a Ha. apply in_flat_map in Ha. destruct Ha as (p & Hp & Ha). apply in_map_iff in Hp. destruct Hp as (z & <- & _). destruct Ha.
      * rewrite (mapM_ok _ (fun d => Mono (data d) f)); [rewrite !map_map; reflexivity|]. intros d Hd. apply in_map_iff in Hd. destruct Hd as (z & <- & _). reflexivity.
  - set (rr := r :: r' :: rs) in *. assert (F' : Forall (fun q => length q = row_len rr) rr) by (apply Forall_forall; exact F). destruct (P_sig.unpack_rows (row_len rr) rr ltac:(cbn; lia) F') as (ds & U & V). rewrite U.
    assert (B : forallb (fun q => Nat.eqb (length q) (row_len rr)) rr = true) by (apply forallb_forall; intros q Hq; apply Nat.eqb_eq, F, Hq).
    assert (U2 : M_sig2.unpack_rows rr = if Nat.eqb (row_len rr) 1 then pret (map PLst rr) else let! l := new_rows (length rr) (row_len rr) (concat rr) in pret (map PRef l)) by (unfold M_sig2.unpack_rows at 1; unfold rr at 1; rewrite B; reflexivity).
    rewrite U2, V. destruct (Nat.eqb (row_len rr) 1).
    + exists (map PLst rr), m. split; [reflexivity|]. split; [apply ext_refl|]. split; [exact C|]. split; [reflexivity|]. split; [|rewrite map_map; reflexivity].
      intros a Ha. apply in_flat_map in Ha. destruct Ha as (p & Hp & Ha). apply in_map_iff in Hp. destruct Hp as (z & <- & _). destruct Ha.
    + destruct (rows_spec m rr C F) as (m' & E & X & C' & O & L & S). exists (map PRef (seq (length (arrs m)) (length rr))), m'. unfold pbind. rewrite E. split; [reflexivity|]. split; [exact X|]. split; [exact C'|]. split; [exact O|]. split.
      * intros a Ha. apply in_flat_map in Ha. destruct Ha as (p & Hp & Ha). apply in_map_iff in Hp. destruct Hp as (z & <- & Hz). destruct Ha as [<-|[]]. apply L, Hz.
      * f_equal. rewrite map_map. cbn [parg_val]. rewrite <- S at 1. rewrite map_map. reflexivity.
Qed.
Lemma reads_spec m cs : ready m -> (forall c, In c cs -> is_mono m c) -> pmap (fun c => let! s := sig_of c in read s) cs m = (Ok (map m_sig (map (channel_at m) cs)), m).
Proof.
  intros Rm. induction cs as [|c cs IH]; intros H; [reflexivity|]. destruct (H c (or_introl eq_refl)) as (s & f & E). cbn [pmap].
  assert (E1 : (let! s := sig_of c in read s) m = (Ok (samples m s), m)) by (rewrite (pbind_ok _ _ _ _ _ (sig_of_ok m c s f E)); apply read_spec; exact (proj2 Rm c s f E)).
  rewrite (pbind_ok _ _ _ _ _ E1), (pbind_ok _ _ _ _ _ (IH (fun d Hd => H d (or_intror Hd)))). cbn [map]. rewrite (channel_mono _ _ _ _ E). reflexivity.
Qed.
Lemma stacked_spec m o x : sound m -> nth_error (objs m) o = Some x -> stacked o m = (let* g := get_signals (Multi (map (channel_at m) (chs_of x)) 0 0) in Ok (snd g), m).
Proof.
  intros S E. unfold stacked. rewrite (pbind_ok _ _ _ _ _ (get_obj_ok m o x E)). assert (H : forall c, In c (chs_of x) -> is_mono m c) by (intros c Hc; apply (proj2 S o x E); destruct x; exact Hc).
  rewrite (pbind_ok _ _ _ _ _ (reads_spec m (chs_of x) (sound_ready m S) H)). unfold get_signals. cbn [channels]. destruct (map (channel_at m) (chs_of x)) as [|c cs]; [reflexivity|]. cbn [map].
  replace (forallb (fun d => Nat.eqb (length d) (length (m_sig c))) (map m_sig cs)) with (forallb (fun d => Nat.eqb (mono_len d) (mono_len c)) cs); [destruct (forallb _ cs); reflexivity|]. clear. induction cs as [|d cs IH]; [reflexivity|]. cbn. rewrite IH. reflexivity.
Qed.

Lemma multi_chs_spec f xs m : ready m -> (forall a, In a (flat_map parg_arrs xs) -> (a < length (arrs m))%nat) ->
  exists m', multi_chs xs (Some f) m = (Ok (seq (length (objs m)) (length xs), f), m') /\ ext m m' /\ ready m' /\ (forall c, In c (seq (length (objs m)) (length xs)) -> is_mono m' c) /\
    map (channel_at m') (seq (length (objs m)) (length xs)) = map (fun x => Mono (parg_val m x) f) xs.
Proof. intros Rm Ha. destruct (monos_spec f xs m Rm Ha) as (m' & E & Q). exists m'. split; [unfold multi_chs; rewrite (pbind_ok _ _ _ _ _ E); reflexivity|exact Q]. Qed.
(** the rows of a resampled signal: one length *)
Lemma stacked_rows m o x l : sound m -> nth_error (objs m) o = Some x -> (let* g := get_signals (Multi (map (channel_at m) (chs_of x)) 0 0) in Ok (snd g)) = Ok l -> exists n, Forall (fun r => length r = n) l.
Proof.
  intros _ _. unfold get_signals. cbn [channels]. destruct (map _ _) as [|c cs]; cbn [bind snd]; [intros [= <-]; exists 0%nat; constructor|]. destruct (forallb _ cs) eqn:F; [|discriminate]. cbn [bind snd]. intros [= <-]. exists (mono_len c). cbn [map]. constructor; [reflexivity|].
  apply Forall_forall. intros r Hr. apply in_map_iff in Hr. destruct Hr as (d & <- & Hd). apply Nat.eqb_eq. exact (proj1 (forallb_forall _ _) F d Hd).
Qed.
Lemma get_signals_fs cs f n : get_signals (Multi cs f n) = get_signals (Multi cs 0 0). Proof. reflexivity. Qed.
Lemma upd_value_multi m1 o cs f n l : ready m1 -> (o < length (objs m1))%nat -> ~ In o cs -> (forall c, In c cs -> is_mono m1 c) -> map (channel_at m1) cs = l ->
  value (Mem (bufs m1) (arrs m1) (upd (objs m1) o (OMulti cs f n))) o = Some (SvMulti (Multi l f n)).
Proof.
  intros R1 L N M V. unfold value. cbn [objs]. rewrite nth_error_upd_same by exact L. rewrite <- V. do 3 f_equal. apply map_ext_in. intros c Hc. apply channel_kept; [apply (wext_refl m1)|exact R1|]. cbn [objs]. apply nth_error_upd_other. intros ->. contradiction.
Qed.
Lemma attr_spec m c : ready m -> is_mono m c -> exists s m', (let! s := sig_of c in as_1d (PRef s)) m = (Ok s, m') /\ ext m m' /\ ready m' /\ objs m' = objs m /\ samples m' s = m_sig (channel_at m c) /\ (s < length (arrs m'))%nat.
Proof.
  intros Rm (a & f & E). destruct (as_1d_spec m (PRef a) (proj1 Rm)) as (s & m1 & E1 & X & C1 & O1 & S1 & L1); [intros q [<-|[]]; exact (proj2 Rm c a f E)|]. exists s, m1. rewrite (pbind_ok _ _ _ _ _ (sig_of_ok m c a f E)). split; [exact E1|]. split; [exact X|].
  split; [exact (ready_ext _ _ C1 X O1 Rm)|]. split; [exact O1|]. split; [|exact L1]. rewrite (channel_mono _ _ _ _ E). exact S1.
Qed.
Lemma ambi_obj_spec f xs m : ready m -> (forall a, In a (flat_map parg_arrs xs) -> (a < length (arrs m))%nat) ->
  match xs with
  | [a; b; c; d] => exists m' w x y z, let cs := seq (length (objs m)) 4 in ambi_obj xs (Some f) m = (Ok (OAmbi cs f 4 w x y z), m') /\ ext m m' /\ ready m' /\ (forall q, In q cs -> is_mono m' q) /\
      map (channel_at m') cs = map (fun x => Mono (parg_val m x) f) xs /\ map (samples m') [w; x; y; z] = map (parg_val m) xs /\ (forall q, In q [w; x; y; z] -> (q < length (arrs m'))%nat)
  | _ => fst (ambi_obj xs (Some f) m) = Err AssertionError
  end.
Proof.
  intros Rm Ha. destruct (multi_chs_spec f xs m Rm Ha) as (m1 & E1 & X1 & R1 & M1 & V1). unfold ambi_obj. destruct xs as [|a [|b [|c [|d [|e xs]]]]]; try (rewrite (pbind_ok _ _ _ _ _ E1); reflexivity).
  cbn [length seq] in *. set (n := length (objs m)) in *. cbn [map] in V1. injection V1 as V1a V1b V1c V1d.
  destruct (attr_spec m1 n R1 (M1 n ltac:(cbn; tauto))) as (w & m2 & Ew & X2 & R2 & O2 & S2 & L2).
  assert (MO : forall m' q, objs m' = objs m1 -> In q [n; S n; S (S n); S (S (S n))] -> is_mono m' q) by (intros m' q O Hq; destruct (M1 q Hq) as (s & g & E); exists s, g; rewrite O; exact E).
  assert (CH : forall m' q, ext m1 m' -> objs m' = objs m1 -> channel_at m' q = channel_at m1 q) by (intros m' q X O; apply channel_kept; [apply ext_wext, X|exact R1|rewrite O; reflexivity]).
  destruct (attr_spec m2 (S n) R2 (MO m2 (S n) O2 ltac:(cbn; tauto))) as (x & m3 & Ex & X3 & R3 & O3 & S3 & L3). assert (O3' : objs m3 = objs m1) by congruence.
  destruct (attr_spec m3 (S (S n)) R3 (MO m3 (S (S n)) O3' ltac:(cbn; tauto))) as (y & m4 & Ey & X4 & R4 & O4 & S4 & L4). assert (O4' : objs m4 = objs m1) by congruence.
  destruct (attr_spec m4 (S (S (S n))) R4 (MO m4 (S (S (S n))) O4' ltac:(cbn; tauto))) as (z & m5 & Ez & X5 & R5 & O5 & S5 & L5). assert (O5' : objs m5 = objs m1) by congruence.
  pose proof (ext_trans _ _ _ X2 X3) as X13. pose proof (ext_trans _ _ _ X13 X4) as X14. pose proof (ext_trans _ _ _ X14 X5) as X15.
  exists m5, w, x, y, z. cbn zeta. split; [rewrite (pbind_ok _ _ _ _ _ E1); cbn [fst snd]; rewrite (pbind_ok _ _ _ _ _ Ew), (pbind_ok _ _ _ _ _ Ex), (pbind_ok _ _ _ _ _ Ey), (pbind_ok _ _ _ _ _ Ez); reflexivity|].
  split; [exact (ext_trans _ _ _ X1 X15)|]. split; [exact R5|]. split; [intros q Hq; apply (MO m5 q O5'), Hq|]. split; [|split].
  - cbn [map]. rewrite !(CH m5) by assumption. rewrite V1a, V1b, V1c, V1d. reflexivity.
  - cbn [map]. rewrite (samples_ext m4 m5 y (proj1 R4) X5 L4). rewrite (samples_ext m3 m5 x (proj1 R3) (ext_trans _ _ _ X4 X5) L3). rewrite (samples_ext m2 m5 w (proj1 R2) (ext_trans _ _ _ X3 (ext_trans _ _ _ X4 X5)) L2).
    rewrite S2, S3, S4, S5. rewrite (CH m2), (CH m3), (CH m4), V1a, V1b, V1c, V1d by assumption. reflexivity.
  - intros q [<-|[<-|[<-|[<-|[]]]]]; [apply (wext_len m2), L2; apply ext_wext, (ext_trans _ _ _ X3 (ext_trans _ _ _ X4 X5))|apply (wext_len m3), L3; apply ext_wext, (ext_trans _ _ _ X4 X5)|apply (wext_len m4), L4; apply ext_wext, X5|exact L5].
Qed.
Lemma mapM_length {A B} (f : A -> res B) l r : mapM f l = Ok r -> length r = length l.
Proof. intros H. apply mapM_inv in H. symmetry. exact (Forall2_length' _ _ _ H). Qed.
Lemma resample_tail rs m o x f l rr : length_regular rs -> sound m -> nth_error (objs m) o = Some x -> (let* g := get_signals (Multi (map (channel_at m) (chs_of x)) 0 0) in Ok (snd g)) = Ok l -> l <> [] ->
  forall g, mapM (rs g f) l = Ok rr -> rr <> [] /\ forall r, In r rr -> length r = row_len rr.
Proof.
  intros LR S E EL NE g EM. destruct (stacked_rows m o x l S E EL) as (n & F). pose proof (mapM_length _ _ _ EM) as Lr. split; [intros ->; destruct l; [congruence|discriminate]|].
  assert (Fr : Forall (fun r => length r = row_len rr) rr) by (apply (rs_rows_len rs LR g f l rr n EM F); destruct rr; reflexivity). rewrite Forall_forall in Fr. exact Fr.
Qed.
Lemma refine_resample rs m o v f : length_regular rs -> sound m -> value m o = Some v -> agrees m (resample_obj rs o f) o (val_step rs v (OpResample f)).
Proof.
  intros LR S V. pose proof (sound_ready m S) as Rm. pose proof V as V0. unfold value in V. destruct (nth_error (objs m) o) as [x|] eqn:E; [|discriminate].
  assert (Lo : (o < length (objs m))%nat) by (apply nth_error_Some; rewrite E; discriminate). unfold resample_obj, agrees.
  destruct x as [s g|cs g n|cs g n w x y z]; injection V as <-; cbn [val_step multi_step ambib_step].
  - unfold mono_resample. cbn [m_fs m_sig]. rewrite (pbind_ok _ _ _ _ _ (fs_of_ok m o _ E)). destruct (Z.eqb f g); [exists m; split; [reflexivity|exact V0]|]. rewrite (pbind_ok _ _ _ _ _ (get_obj_ok m o _ E)), (pbind_ok _ _ _ _ _ (read_spec m s (proj2 Rm o s g E))). unfold resample_signal1.
    destruct (rs g f (samples m s)) as [r|e]; cbn [bind]; [|rewrite (pbind_err _ _ _ _ _ (plift_eq _ _)); reflexivity]. rewrite (pbind_ok _ _ _ _ _ (plift_eq _ _)).
    assert (EI : mono_init (squeeze (Nd [1%nat; length r] r)) f = Ok (Mono r f)).
    { unfold mono_init, asarray_1d, squeeze. cbn [shape data filter Nat.eqb negb]. destruct (Nat.eqb (length r) 1) eqn:Q; cbn [negb filter length Nat.eqb shape data]; [reflexivity|]. rewrite Q. reflexivity. }
    rewrite EI. cbn [bind]. destruct (new_arr_spec r m (proj1 Rm)) as (m1 & E1 & X & C1 & O1 & S1 & L1). rewrite (pbind_ok _ _ _ _ _ E1). eexists. split; [reflexivity|]. unfold value. cbn [objs]. rewrite O1, nth_error_upd_same by exact Lo. rewrite <- S1. reflexivity.
  - unfold multi_resample, resample_multi_data. cbn [mu_fs channels]. rewrite (pbind_ok _ _ _ _ _ (fs_of_ok m o _ E)). destruct (Z.eqb f g); [exists m; split; [reflexivity|exact V0]|]. rewrite (pbind_ok _ _ _ _ _ (get_obj_ok m o _ E)). rewrite get_signals_fs.
    pose proof (stacked_spec m o _ S E) as ST. cbn [chs_of] in ST. pose proof (fun l rr => resample_tail rs m o _ f l rr LR S E) as RT. cbn [chs_of] in RT.
    destruct (get_signals _) as [q|e]; cbn [bind] in *; [|rewrite (pbind_err _ _ _ _ _ ST); reflexivity]. rewrite (pbind_ok _ _ _ _ _ ST). destruct (snd q) as [|r0 l0] eqn:Q; [reflexivity|]. specialize (RT (r0 :: l0)).
    destruct (mapM (rs g f) (r0 :: l0)) as [rr|e] eqn:EM; cbn [bind]; [|rewrite (pbind_err _ _ _ _ _ (plift_eq _ _)); reflexivity]. rewrite (pbind_ok _ _ _ _ _ (plift_eq _ _)). destruct (RT rr eq_refl ltac:(discriminate) g EM) as (NE & F). clear RT.
    change (match rr with [] => 0%nat | r :: _ => length r end) with (row_len rr). pose proof (unpack_spec m rr f (proj1 Rm) NE F) as U. destruct (unpack _) as [ds|e]; cbn [bind].
    + destruct U as (args & m1 & E1 & X1 & C1 & O1 & HA & EV). rewrite (pbind_ok _ _ _ _ _ E1). unfold multi_init. rewrite EV. cbn [bind]. destruct (multi_chs_spec f args m1 (ready_ext _ _ C1 X1 O1 Rm) HA) as (m2 & E2 & X2 & R2 & M2 & V2). rewrite (pbind_ok _ _ _ _ _ E2). cbn [fst snd].
      eexists. split; [reflexivity|]. rewrite map_length, seq_length. apply (upd_value_multi m2); try assumption.
      * destruct X2 as (tb & ta & to_ & _ & _ & Ho). rewrite Ho, app_length, O1. lia.
      * rewrite O1. intros H. apply in_seq in H. lia.
    + destruct (M_sig2.unpack_rows rr m) as [[]] eqn:EU; cbn [fst] in U; [discriminate|]. injection U as ->. rewrite (pbind_err _ _ _ _ _ EU). reflexivity.
  - unfold ambib_resample, resample_multi_data. cbn [mu_fs channels base]. rewrite (pbind_ok _ _ _ _ _ (fs_of_ok m o _ E)). destruct (Z.eqb f g); [exists m; split; [reflexivity|exact V0]|]. rewrite (pbind_ok _ _ _ _ _ (get_obj_ok m o _ E)). rewrite get_signals_fs.
    pose proof (stacked_spec m o _ S E) as ST. cbn [chs_of] in ST. pose proof (fun l rr => resample_tail rs m o _ f l rr LR S E) as RT. cbn [chs_of] in RT.
    destruct (get_signals _) as [q|e]; cbn [bind] in *; [|rewrite (pbind_err _ _ _ _ _ ST); reflexivity]. rewrite (pbind_ok _ _ _ _ _ ST). destruct (snd q) as [|r0 l0] eqn:Q; [reflexivity|]. specialize (RT (r0 :: l0)).
    destruct (mapM (rs g f) (r0 :: l0)) as [rr|e] eqn:EM; cbn [bind]; [|rewrite (pbind_err _ _ _ _ _ (plift_eq _ _)); reflexivity]. rewrite (pbind_ok _ _ _ _ _ (plift_eq _ _)). destruct (RT rr eq_refl ltac:(discriminate) g EM) as (NE & F). clear RT.
    change (match rr with [] => 0%nat | r :: _ => length r end) with (row_len rr). pose proof (unpack_spec m rr f (proj1 Rm) NE F) as U. destruct (unpack _) as [ds|e]; cbn [bind].
    + destruct U as (args & m1 & E1 & X1 & C1 & O1 & HA & EV). rewrite (pbind_ok _ _ _ _ _ E1). unfold ambib_init, multi_init. rewrite EV. cbn [bind channels]. pose proof (ambi_obj_spec f args m1 (ready_ext _ _ C1 X1 O1 Rm) HA) as A.
      destruct args as [|a0 [|a1 [|a2 [|a3 [|a4 args]]]]]; cbn [map bind]; try (destruct (ambi_obj _ _ m1) as [[]] eqn:Ea; cbn [fst] in A; [discriminate|]; injection A as ->; rewrite (pbind_err _ _ _ _ _ Ea); reflexivity).
      destruct A as (m2 & w' & x' & y' & z' & A). cbn zeta in A. destruct A as (E2 & X2 & R2 & M2 & V2 & W2 & _). rewrite (pbind_ok _ _ _ _ _ E2). rewrite !asarray_arr1. cbn [bind data arr1 m_sig].
      eexists. split; [reflexivity|]. unfold value. cbn [objs]. rewrite nth_error_upd_same by (destruct X2 as (tb & ta & to_ & _ & _ & Ho); rewrite Ho, app_length, O1; lia).
      cbn [map] in W2. injection W2 as W2a W2b W2c W2d. f_equal. f_equal. unfold samples in *. cbn [arrs bufs] in *. rewrite W2a, W2b, W2c, W2d. f_equal. cbn [length]. f_equal. change (Mono (parg_val m1 a0) f :: [Mono (parg_val m1 a1) f; Mono (parg_val m1 a2) f; Mono (parg_val m1 a3) f]) with (map (fun x => Mono (parg_val m1 x) f) [a0; a1; a2; a3]).
      rewrite <- V2. apply map_ext_in. intros c Hc. apply channel_kept; [apply (wext_refl m2)|exact R2|]. cbn [objs]. apply nth_error_upd_other. intros ->. apply in_seq in Hc. rewrite O1 in Hc. lia.
    + destruct (M_sig2.unpack_rows rr m) as [[]] eqn:EU; cbn [fst] in U; [discriminate|]. injection U as ->. rewrite (pbind_err _ _ _ _ _ EU). reflexivity.
Qed.
