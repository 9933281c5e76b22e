(** Signals in memory: every call leaves a sound memory. *)
From Coq Require Import String.
From Verif Require Import Base BaseFacts M_utils M_sig M_process M_sph0 M_sph M_grids M_decoder M_decoder2 M_decoder3 M_parsa2 M_io M_sig2 S_sig2 P_sig2a P_sig2b P_sig2c.
Open Scope R_scope.

Definition fits (m : mem) (v : arr) : Prop := (v_buf v < length (bufs m))%nat /\ (0 < v_step v)%nat /\ forall i, (i < v_len v)%nat -> (v_off v + v_step v * i < length (nth (v_buf v) (bufs m) []))%nat.
Definition inb (m : mem) : Prop := forall a v, nth_error (arrs m) a = Some v -> fits m v.
Definition mch (m : mem) : Prop := forall o x, nth_error (objs m) o = Some x -> (forall c, In c (held_objs x) -> is_mono m c) /\ NoDup (held_objs x).
Definition is_plur (m : mem) (o : nat) : Prop := exists x, nth_error (objs m) o = Some x /\ match x with OMono _ _ => False | _ => True end.
Definition keeps (m m' : mem) : Prop :=
  (length (bufs m) <= length (bufs m'))%nat /\ (forall b, (b < length (bufs m))%nat -> length (nth b (bufs m') []) = length (nth b (bufs m) [])) /\
  (exists t, arrs m' = arrs m ++ t) /\ (forall o, (is_mono m o -> is_mono m' o) /\ (is_plur m o -> is_plur m' o)).
Definition sk (lm lp : list nat) (m : mem) : Prop := (forall o, In o lm -> is_mono m o) /\ (forall o, In o lp -> is_plur m o).
Definition st {A} (p : prog A) (lm lp : list nat) (rm : A -> list nat) (P : A -> Prop) : Prop :=
  forall m, inb m -> mch m -> sk lm lp m -> inb (snd (p m)) /\ mch (snd (p m)) /\ keeps m (snd (p m)) /\ forall a, fst (p m) = Ok a -> sk (rm a) [] (snd (p m)) /\ P a.
Definition tru {A} (a : A) : Prop := True.
Definition nom {A} (a : A) : list nat := [].

Lemma keeps_refl m : keeps m m.
Proof. split; [lia|]. split; [auto|]. split; [exists []; symmetry; apply app_nil_r|]. auto. Qed.
Lemma keeps_trans m1 m2 m3 : keeps m1 m2 -> keeps m2 m3 -> keeps m1 m3.
Proof.
  intros (A1 & A2 & (t1 & A3) & A4) (B1 & B2 & (t2 & B3) & B4). split; [lia|]. split; [intros b Hb; rewrite B2 by lia; auto|]. split; [exists (t1 ++ t2); rewrite B3, A3, app_assoc; reflexivity|].
  intros o. destruct (A4 o), (B4 o). auto.
Qed.
Lemma sk_keeps lm lp m m' : keeps m m' -> sk lm lp m -> sk lm lp m'.
Proof. intros (_ & _ & _ & K) (A & B). split; intros o Ho; destruct (K o); auto. Qed.
Lemma sk_app lm lp lm' lp' m : sk lm lp m -> sk lm' lp' m -> sk (lm ++ lm') (lp ++ lp') m.
Proof. intros (A & B) (C & D). split; intros x Hx; apply in_app_or in Hx; destruct Hx; auto. Qed.
Lemma sk_incl lm lp lm' lp' m : incl lm' lm -> incl lp' lp -> sk lm lp m -> sk lm' lp' m.
Proof. intros A B (C & D). split; intros x Hx; auto. Qed.
Lemma sk_nil m : sk [] [] m. Proof. split; intros o []. Qed.
Lemma fits_keeps m m' v : keeps m m' -> fits m v -> fits m' v.
Proof. intros (A1 & A2 & _) (B1 & B2 & B3). split; [lia|]. split; [exact B2|]. intros i Hi. rewrite A2 by exact B1. auto. Qed.

Lemma st_ret {A} (a : A) lm lp rm (P : A -> Prop) : incl (rm a) lm -> P a -> st (pret a) lm lp rm P.
Proof. intros I Q m B C K. cbn. split; [exact B|]. split; [exact C|]. split; [apply keeps_refl|]. intros x [= <-]. split; [|exact Q]. apply (sk_incl lm lp); [exact I|apply incl_nil_l|exact K]. Qed.
Lemma st_raise {A} e lm lp rm (P : A -> Prop) : st (praise e) lm lp rm P.
Proof. intros m B C K. cbn. split; [exact B|]. split; [exact C|]. split; [apply keeps_refl|]. discriminate. Qed.
Lemma st_lift {A} (r : res A) lm lp : st (plift r) lm lp nom (fun a => r = Ok a).
Proof. intros m B C K. cbn. split; [exact B|]. split; [exact C|]. split; [apply keeps_refl|]. intros a H. split; [apply sk_nil|exact H]. Qed.
Lemma st_bind {A B} (p : prog A) (f : A -> prog B) lm lp rm P rm' P' :
  st p lm lp rm P -> (forall a, P a -> st (f a) (rm a ++ lm) lp rm' P') -> st (pbind p f) lm lp rm' P'.
Proof.
  intros Hp Hf m I C K. unfold pbind. destruct (Hp m I C K) as (I1 & C1 & F1 & K1). destruct (p m) as [[a|e] m1]; cbn [fst snd] in *.
  - destruct (K1 a eq_refl) as (K2 & Pa). destruct (Hf a Pa m1 I1 C1 (sk_app _ [] _ _ _ K2 (sk_keeps _ _ _ _ F1 K))) as (I2 & C2 & F2 & K3). split; [exact I2|]. split; [exact C2|]. split; [exact (keeps_trans _ _ _ F1 F2)|exact K3].
  - split; [exact I1|]. split; [exact C1|]. split; [exact F1|]. discriminate.
Qed.
Lemma st_weak {A} (p : prog A) lm lp lm' lp' rm rm' (P P' : A -> Prop) : st p lm' lp' rm' P' -> incl lm' lm -> incl lp' lp -> (forall a, incl (rm a) (rm' a)) -> (forall a, P' a -> P a) -> st p lm lp rm P.
Proof.
  intros H A1 A2 A3 A4 m I C K. destruct (H m I C (sk_incl _ _ _ _ _ A1 A2 K)) as (I1 & C1 & F1 & K1). split; [exact I1|]. split; [exact C1|]. split; [exact F1|].
  intros a Ha. destruct (K1 a Ha) as (X & Y). split; [apply (sk_incl _ _ _ _ _ (A3 a) (incl_nil_l _) X)|auto].
Qed.
Lemma st_and {A} (p : prog A) lm lp rm (P P' : A -> Prop) : st p lm lp rm P -> (forall m a, fst (p m) = Ok a -> P' a) -> st p lm lp rm (fun a => P a /\ P' a).
Proof. intros H H' m I C K. destruct (H m I C K) as (I1 & C1 & F1 & K1). split; [exact I1|]. split; [exact C1|]. split; [exact F1|]. intros a Ha. destruct (K1 a Ha). split; [assumption|]. split; [assumption|]. exact (H' m a Ha). Qed.
Lemma st_pmap {A B} (f : A -> prog B) l lm lp (rm : B -> list nat) : (forall x, In x l -> st (f x) lm lp rm tru) -> st (pmap f l) lm lp (flat_map rm) tru.
Proof.
  induction l as [|x t IH]; intros H; cbn [pmap]; [apply st_ret; [intros y []|exact I]|].
  apply st_bind with (rm := rm) (P := tru); [apply H; left; reflexivity|]. intros y _. apply st_bind with (rm := flat_map rm) (P := tru).
  - apply (st_weak _ _ _ lm lp _ (flat_map rm) _ tru); [apply IH; intros; apply H; right; assumption| | | |]; try (intros; apply incl_refl); try (intros; exact I). apply incl_appr, incl_refl.
  - intros r _. apply st_ret; [|exact I]. cbn [flat_map]. apply incl_app; [apply incl_appr, incl_appl, incl_refl|apply incl_appl, incl_refl].
Qed.
Lemma st_same {A} (p : prog A) lm lp (P : A -> Prop) : (forall m, snd (p m) = m) -> (forall m a, fst (p m) = Ok a -> P a) -> st p lm lp nom P.
Proof. intros H H' m I C K. rewrite H. split; [exact I|]. split; [exact C|]. split; [apply keeps_refl|]. intros a Ha. split; [apply sk_nil|exact (H' m a Ha)]. Qed.
Lemma snd_get_arr a m : snd (get_arr a m) = m. Proof. unfold get_arr. destruct (nth_error _ _); reflexivity. Qed.
Lemma snd_get_obj a m : snd (get_obj a m) = m. Proof. unfold get_obj. destruct (nth_error _ _); reflexivity. Qed.
Lemma snd_sig_of o m : snd (sig_of o m) = m. Proof. unfold sig_of, get_obj, pbind. destruct (nth_error _ _) as [[]|]; reflexivity. Qed.
Lemma snd_fs_of o m : snd (fs_of o m) = m. Proof. unfold fs_of, get_obj, pbind. destruct (nth_error _ _) as [[]|]; reflexivity. Qed.
Lemma snd_read o m : snd (read o m) = m. Proof. unfold read, get_arr, pbind. destruct (nth_error _ _) as [[]|]; reflexivity. Qed.
Lemma snd_len_of o m : snd (len_of o m) = m.
Proof.
  unfold len_of, get_obj, pbind. destruct (nth_error (objs m) o) as [[s f|cs f n|cs f n w x y z]|]; [|destruct cs as [|c cs]; [reflexivity|]|destruct cs as [|c cs]; [reflexivity|]|reflexivity]; cbn [chs_of].
  - destruct (get_arr s m) as [[]] eqn:E; pose proof (snd_get_arr s m) as H; rewrite E in H; exact H.
  - destruct (sig_of c m) as [[a|]] eqn:E; pose proof (snd_sig_of c m) as H; rewrite E in H; cbn [snd] in H; subst; [|reflexivity]. destruct (get_arr a m) as [[]] eqn:E'; pose proof (snd_get_arr a m) as H; rewrite E' in H; exact H.
  - destruct (sig_of c m) as [[a|]] eqn:E; pose proof (snd_sig_of c m) as H; rewrite E in H; cbn [snd] in H; subst; [|reflexivity]. destruct (get_arr a m) as [[]] eqn:E'; pose proof (snd_get_arr a m) as H; rewrite E' in H; exact H.
Qed.
Lemma st_sig_of o lm lp : st (sig_of o) lm lp nom tru. Proof. apply st_same; [apply snd_sig_of|intros; exact I]. Qed.
Lemma st_fs_of o lm lp : st (fs_of o) lm lp nom tru. Proof. apply st_same; [apply snd_fs_of|intros; exact I]. Qed.
Lemma st_read o lm lp : st (read o) lm lp nom tru. Proof. apply st_same; [apply snd_read|intros; exact I]. Qed.
Lemma st_len_of o lm lp : st (len_of o) lm lp nom tru. Proof. apply st_same; [apply snd_len_of|intros; exact I]. Qed.
Definition ml (o : nat) (x : obj) : list nat := match x with OMono _ _ => [o] | _ => held_objs x end.
Definition pl (o : nat) (x : obj) : list nat := match x with OMono _ _ => [] | _ => [o] end.
Lemma st_look {A} (f : obj -> prog A) o lm lp rm P : (forall x, NoDup (held_objs x) -> st (f x) (ml o x ++ lm) (pl o x ++ lp) rm P) -> st (let! x := get_obj o in f x) lm lp rm P.
Proof.
  intros H m I C K. unfold pbind, get_obj. destruct (nth_error (objs m) o) as [x|] eqn:E; [|split; [exact I|]; split; [exact C|]; split; [apply keeps_refl|]; discriminate].
  destruct (C o x E) as (C1 & C2). apply (H x C2 m I C). apply sk_app; [|exact K]. destruct x; cbn [ml pl]; split.
  - intros q [<-|[]]. eexists _, _. exact E. - intros q [].
  - exact C1. - intros q [<-|[]]. eexists. split; [exact E|exact Logic.I]. - exact C1. - intros q [<-|[]]. eexists. split; [exact E|exact Logic.I].
Qed.

(** ** Arrays *)
Lemma keeps_arrs m l t : keeps m (Mem (bufs m ++ l) (arrs m ++ t) (objs m)).
Proof. split; [cbn; rewrite app_length; lia|]. split; [intros b Hb; cbn [bufs]; rewrite app_nth1 by exact Hb; reflexivity|]. split; [exists t; reflexivity|]. intros o. split; intros H; exact H. Qed.
Lemma st_arrs {A} (p : prog A) lm lp (P : A -> Prop) :
  (forall m, inb m -> exists l t, snd (p m) = Mem (bufs m ++ l) (arrs m ++ t) (objs m) /\ (forall v, In v t -> fits (Mem (bufs m ++ l) (arrs m ++ t) (objs m)) v) /\ forall a, fst (p m) = Ok a -> P a) -> st p lm lp nom P.
Proof.
  intros H m I C K. destruct (H m I) as (l & t & E & F & Q). rewrite E. pose proof (keeps_arrs m l t) as KK. split; [|split; [exact C|split; [exact KK|intros a Ha; split; [apply sk_nil|auto]]]].
  intros a v Ea. cbn [arrs] in Ea. destruct (Nat.lt_ge_cases a (length (arrs m))) as [L|L].
  - rewrite nth_error_app1 in Ea by exact L. exact (fits_keeps _ _ _ KK (I a v Ea)).
  - rewrite nth_error_app2 in Ea by exact L. apply F. exact (nth_error_In _ _ Ea).
Qed.
Lemma st_new_arr l lm lp : st (new_arr l) lm lp nom tru.
Proof.
  apply st_arrs. intros m I. exists [l], [Arr (length (bufs m)) 0 1 (length l)]. split; [reflexivity|]. split; [|intros; exact Logic.I]. intros v [<-|[]]. cbn [bufs].
  split; [cbn; rewrite app_length; cbn; lia|]. split; [cbn; lia|]. intros i Hi. cbn [v_buf v_off v_step v_len bufs] in *. rewrite app_nth2, Nat.sub_diag by lia. cbn [nth]. lia.
Qed.
Lemma mem_eta m : Mem (bufs m ++ []) (arrs m ++ []) (objs m) = m. Proof. rewrite !app_nil_r. destruct m; reflexivity. Qed.
Lemma st_as_1d x lm lp : st (as_1d x) lm lp nom tru.
Proof.
  destruct x as [a|l]; [|apply st_new_arr]. apply st_arrs. intros m I. unfold as_1d, get_arr, pbind. destruct (nth_error (arrs m) a) as [v|] eqn:E.
  - destruct (Nat.eqb (v_len v) 1).
    + exists [], [v]. cbn. rewrite app_nil_r. split; [reflexivity|]. split; [|intros; exact Logic.I]. intros w [<-|[]]. exact (I a v E).
    + exists [], []. rewrite mem_eta. split; [reflexivity|]. split; [intros w []|intros; exact Logic.I].
  - exists [], []. rewrite mem_eta. split; [reflexivity|]. split; [intros w []|intros; exact Logic.I].
Qed.
Lemma norm_idx_le n i : (norm_idx n i <= n)%nat.
Proof. unfold norm_idx. destruct (i <? 0)%Z eqn:E; [apply Z.ltb_lt in E|apply Z.ltb_ge in E]; lia. Qed.
Lemma sub_fits m v i j : fits m v -> fits m (sub_view v i j).
Proof.
  intros (A & B & C). split; [exact A|]. split; [exact B|]. intros k Hk. cbn [sub_view v_buf v_off v_step v_len] in *. pose proof (norm_idx_le (v_len v) i). pose proof (norm_idx_le (v_len v) j).
  replace (v_off v + v_step v * norm_idx (v_len v) i + v_step v * k)%nat with (v_off v + v_step v * (norm_idx (v_len v) i + k))%nat by ring. apply C. lia.
Qed.
Lemma st_sub a i j lm lp : st (sub a i j) lm lp nom tru.
Proof.
  apply st_arrs. intros m I. unfold sub, get_arr, pbind. destruct (nth_error (arrs m) a) as [v|] eqn:E.
  - exists [], [sub_view v i j]. cbn [new_view fst snd]. rewrite app_nil_r. split; [reflexivity|]. split; [|intros; exact Logic.I]. intros w [<-|[]]. apply sub_fits. exact (I a v E).
  - exists [], []. rewrite mem_eta. split; [reflexivity|]. split; [intros w []|intros; exact Logic.I].
Qed.
Lemma views_spec (F : nat -> arr) l : forall m, pmap (fun r => new_view (F r)) l m = (Ok (seq (length (arrs m)) (length l)), Mem (bufs m) (arrs m ++ map F l) (objs m)).
Proof.
  induction l as [|x l IH]; intros m; cbn [pmap]; [cbn; rewrite app_nil_r; destruct m; reflexivity|]. unfold pbind, new_view at 1. rewrite IH. cbn [arrs bufs objs length seq map]. rewrite app_length, <- app_assoc. cbn [length]. rewrite Nat.add_1_r. reflexivity.
Qed.
Lemma new_rows_spec n c l m : new_rows n c l m = (Ok (seq (length (arrs m)) n), Mem (bufs m ++ [l]) (arrs m ++ map (fun r => Arr (length (bufs m)) (r * c) 1 c) (seq 0 n)) (objs m)).
Proof. unfold new_rows, new_buf, pbind. rewrite (views_spec (fun r => Arr (length (bufs m)) (r * c) 1 c)). cbn [arrs bufs objs]. rewrite seq_length. reflexivity. Qed.
Lemma new_cols_spec n c l m : new_cols n c l m = (Ok (seq (length (arrs m)) c), Mem (bufs m ++ [l]) (arrs m ++ map (fun j => Arr (length (bufs m)) j c n) (seq 0 c)) (objs m)).
Proof. unfold new_cols, new_buf, pbind. rewrite (views_spec (fun j => Arr (length (bufs m)) j c n)). cbn [arrs bufs objs]. rewrite seq_length. reflexivity. Qed.
Lemma st_new_rows n c l lm lp : length l = (n * c)%nat -> st (new_rows n c l) lm lp nom tru.
Proof.
  intros H. apply st_arrs. intros m I. rewrite new_rows_spec. eexists [l], _. split; [reflexivity|]. split; [|intros; exact Logic.I]. intros v Hv. apply in_map_iff in Hv. destruct Hv as (r & <- & Hr). apply in_seq in Hr.
  split; [cbn; rewrite app_length; cbn; lia|]. split; [cbn; lia|]. intros i Hi. cbn [v_buf v_off v_step v_len bufs] in *. rewrite app_nth2, Nat.sub_diag by lia. cbn [nth]. rewrite H. nia.
Qed.
Lemma st_new_cols n c l lm lp : length l = (n * c)%nat -> st (new_cols n c l) lm lp nom tru.
Proof.
  intros H. apply st_arrs. intros m I. rewrite new_cols_spec. eexists [l], _. split; [reflexivity|]. split; [|intros; exact Logic.I]. intros v Hv. apply in_map_iff in Hv. destruct Hv as (r & <- & Hr). apply in_seq in Hr.
  split; [cbn; rewrite app_length; cbn; lia|]. split; [cbn; lia|]. intros i Hi. cbn [v_buf v_off v_step v_len bufs] in *. rewrite app_nth2, Nat.sub_diag by lia. cbn [nth]. rewrite H. nia.
Qed.
Lemma st_write a i x lm lp : st (write a i x) lm lp nom tru.
Proof.
  intros m I C K. unfold write, get_arr, pbind. destruct (nth_error (arrs m) a) as [v|] eqn:E; [|split; [exact I|]; split; [exact C|]; split; [apply keeps_refl|]; discriminate].
  destruct (Nat.ltb i (v_len v)); [|split; [exact I|]; split; [exact C|]; split; [apply keeps_refl|]; discriminate]. cbn [fst snd].
  assert (KK : keeps m (Mem (upd (bufs m) (v_buf v) (upd (nth (v_buf v) (bufs m) []) (v_off v + v_step v * i) x)) (arrs m) (objs m))).
  { split; [cbn; rewrite length_upd; lia|]. split; [|split; [exists []; symmetry; apply app_nil_r|intros o; split; intros H; exact H]]. intros b Hb. cbn [bufs]. destruct (Nat.eq_dec b (v_buf v)) as [->|N].
    - rewrite nth_upd_same by exact Hb. apply length_upd.
    - rewrite nth_upd_other by congruence. reflexivity. }
  split; [|split; [exact C|split; [exact KK|intros q _; split; [apply sk_nil|exact Logic.I]]]]. intros b w Eb. exact (fits_keeps _ _ _ KK (I b w Eb)).
Qed.
(** ** Objects *)
Lemma mono_not_plur m o : is_mono m o -> is_plur m o -> False.
Proof. intros (s & f & E) (x & E' & H). rewrite E in E'. injection E' as <-. exact H. Qed.
Lemma is_mono_lt m o : is_mono m o -> (o < length (objs m))%nat.
Proof. intros (s & f & E). apply nth_error_Some. rewrite E. discriminate. Qed.
Lemma st_new_obj x lm lp : incl (held_objs x) lm -> NoDup (held_objs x) -> st (new_obj x) lm lp (fun o => match x with OMono _ _ => [o] | _ => [] end) tru.
Proof.
  intros Hi Hn m I C K. unfold new_obj. cbn [fst snd].
  assert (KK : keeps m (Mem (bufs m) (arrs m) (objs m ++ [x]))).
  { split; [cbn; lia|]. split; [auto|]. split; [exists []; symmetry; apply app_nil_r|]. intros o. split.
    - intros (s & f & E). exists s, f. cbn [objs]. rewrite nth_error_app1; [exact E|]. apply nth_error_Some. rewrite E. discriminate.
    - intros (s & E & F). exists s. cbn [objs]. rewrite nth_error_app1; [split; assumption|]. apply nth_error_Some. rewrite E. discriminate. }
  split; [exact I|]. split; [|split; [exact KK|]].
  - intros o y E. cbn [objs] in E. apply nth_error_snoc in E. destruct E as [(-> & ->)|E].
    + split; [|exact Hn]. intros c Hc. apply (proj1 (proj2 (proj2 (proj2 KK)) c)). apply (proj1 K). auto.
    + destruct (C o y E) as (C1 & C2). split; [|exact C2]. intros c Hc. apply (proj1 (proj2 (proj2 (proj2 KK)) c)). auto.
  - intros o [= <-]. split; [|exact Logic.I]. split; [|intros q []]. destruct x; try (intros q []; fail). intros q [<-|[]]. eexists _, _. cbn [objs]. rewrite nth_error_app2, Nat.sub_diag by lia. reflexivity.
Qed.
Lemma st_set_obj o x lm lp : match x with OMono _ _ => In o lm | _ => In o lp end -> incl (held_objs x) lm -> NoDup (held_objs x) -> st (set_obj o x) lm lp nom tru.
Proof.
  intros Ho Hi Hn m I C K. unfold set_obj. cbn [fst snd].
  assert (KK : keeps m (Mem (bufs m) (arrs m) (upd (objs m) o x))).
  { split; [cbn; lia|]. split; [auto|]. split; [exists []; symmetry; apply app_nil_r|]. intros q. destruct (Nat.eq_dec o q) as [<-|N].
    - destruct x.
      + pose proof (proj1 K o Ho) as M. split; [|intros P; destruct (mono_not_plur m o M P)]. intros _. eexists _, _. cbn [objs]. apply nth_error_upd_same. exact (is_mono_lt m o M).
      + pose proof (proj2 K o Ho) as M. split; [intros P; destruct (mono_not_plur m o P M)|]. intros _. eexists. cbn [objs]. rewrite nth_error_upd_same; [split; [reflexivity|exact Logic.I]|]. destruct M as (z & E & _). apply nth_error_Some. rewrite E. discriminate.
      + pose proof (proj2 K o Ho) as M. split; [intros P; destruct (mono_not_plur m o P M)|]. intros _. eexists. cbn [objs]. rewrite nth_error_upd_same; [split; [reflexivity|exact Logic.I]|]. destruct M as (q & E & _). apply nth_error_Some. rewrite E. discriminate.
    - split; intros H; [destruct H as (s & f & E); exists s, f|destruct H as (s & E & F); exists s]; cbn [objs]; rewrite nth_error_upd_other by exact N; auto. }
  split; [exact I|]. split; [|split; [exact KK|intros q _; split; [apply sk_nil|exact Logic.I]]].
  intros q y E. cbn [objs] in E. assert (G : (forall c, In c (held_objs y) -> is_mono m c) /\ NoDup (held_objs y)).
  { destruct (Nat.eq_dec o q) as [<-|N].
    - assert (L : (o < length (objs m))%nat) by (rewrite <- (length_upd (objs m) o x); apply nth_error_Some; rewrite E; discriminate). rewrite nth_error_upd_same in E by exact L. injection E as <-. split; [|exact Hn]. intros c Hc. apply (proj1 K). auto.
    - rewrite nth_error_upd_other in E by exact N. exact (C q y E). }
  split; [|exact (proj2 G)]. intros c Hc. apply (proj1 (proj2 (proj2 (proj2 KK)) c)). apply G. exact Hc.
Qed.
(** ** The classes *)
Ltac sinc := first [apply incl_refl | apply incl_nil_l | (apply incl_appr; sinc) | (apply incl_appl; sinc) | (intros ? []; fail)].
Lemma st_any {A} (p : prog A) lm lp rm P : st p lm lp rm P -> st p lm lp nom tru.
Proof. intros H. apply (st_weak _ _ _ lm lp _ rm _ P H); try apply incl_refl; intros; [apply incl_nil_l|exact I]. Qed.
Lemma st_mono_new f x lm lp : st (mono_new f x) lm lp (fun o => [o]) tru.
Proof. apply st_bind with (rm := nom) (P := tru); [apply st_as_1d|]. intros s _. apply st_new_obj; [apply incl_nil_l|constructor]. Qed.
Lemma objs_as_1d x m : objs (snd (as_1d x m)) = objs m.
Proof. destruct x as [a|l]; [|reflexivity]. unfold as_1d, get_arr, pbind. destruct (nth_error (arrs m) a) as [v|]; [|reflexivity]. destruct (Nat.eqb (v_len v) 1); reflexivity. Qed.
Lemma mono_new_id f x m o : fst (mono_new f x m) = Ok o -> o = length (objs m) /\ length (objs (snd (mono_new f x m))) = S (length (objs m)).
Proof.
  unfold mono_new, pbind. pose proof (objs_as_1d x m) as E. destruct (as_1d x m) as [[s|e] m1]; [|discriminate]. cbn [snd] in E. unfold new_obj. cbn [fst snd objs]. intros [= <-]. rewrite E, app_length. cbn. split; [reflexivity|lia].
Qed.
Lemma monos_ids f xs : forall m cs, fst (pmap (mono_new f) xs m) = Ok cs -> cs = seq (length (objs m)) (length xs).
Proof.
  induction xs as [|x xs IH]; intros m cs; cbn [pmap]; [intros [= <-]; reflexivity|]. unfold pbind. pose proof (mono_new_id f x m) as N. destruct (mono_new f x m) as [[o|e] m1]; [|discriminate]. cbn [fst snd] in N. destruct (N o eq_refl) as (-> & N2).
  specialize (IH m1). destruct (pmap (mono_new f) xs m1) as [[l|e] m2]; [|discriminate]. cbn [fst] in *. intros [= <-]. cbn [length seq]. rewrite (IH l eq_refl), N2. reflexivity.
Qed.
Lemma st_multi_chs xs f lm lp : st (multi_chs xs f) lm lp (fun q => fst q) (fun q => NoDup (fst q)).
Proof.
  apply (st_weak _ _ _ lm lp _ (fun q => fst q) _ (fun q => tru q /\ NoDup (fst q))); try apply incl_refl; [|intros; apply incl_refl|intros a H; apply H]. apply st_and.
  - unfold multi_chs. destruct f as [f|]; [|apply st_raise]. apply st_bind with (rm := flat_map (fun o => [o])) (P := tru); [apply st_pmap; intros; apply st_mono_new|]. intros cs _. apply st_ret; [|exact I]. cbn [fst]. intros c Hc. apply in_or_app. left. apply in_flat_map. exists c. split; [exact Hc|left; reflexivity].
  - intros m q. unfold multi_chs. destruct f as [f|]; [|discriminate]. unfold pbind. pose proof (monos_ids f xs m) as H. destruct (pmap (mono_new f) xs m) as [[cs|e] m1]; [|discriminate]. cbn [fst] in *. intros [= <-]. cbn [fst]. rewrite (H cs eq_refl). apply seq_NoDup.
Qed.
Lemma st_multi_new xs f lm lp : st (multi_new xs f) lm lp nom tru.
Proof. apply st_bind with (rm := fun q => fst q) (P := fun q => NoDup (fst q)); [apply st_multi_chs|]. intros q Hq. apply (st_any _ _ _ (fun _ => [])  tru). apply st_new_obj; [cbn; sinc|exact Hq]. Qed.
Lemma st_ambi_obj xs f lm lp : st (ambi_obj xs f) lm lp held_objs (fun x => NoDup (held_objs x) /\ match x with OMono _ _ => False | _ => True end).
Proof.
  apply st_bind with (rm := fun q => fst q) (P := fun q => NoDup (fst q)); [apply st_multi_chs|]. intros q Hq. destruct (fst q) as [|c0 [|c1 [|c2 [|c3 [|]]]]]; try apply st_raise. cbn zeta.
  assert (G : forall c lm, st (let! s := sig_of c in as_1d (PRef s)) lm lp nom tru) by (intros; apply st_bind with (rm := nom) (P := tru); [apply st_sig_of|intros; apply st_as_1d]).
  repeat (apply st_bind with (rm := nom) (P := tru); [apply G|intros ? _]). apply st_ret; [intros z' Hz; cbn [held_objs nom app In] in *; tauto|]. split; [exact Hq|exact I].
Qed.
Lemma st_ambi_new xs f lm lp : st (ambi_new xs f) lm lp nom tru.
Proof. apply st_bind with (rm := held_objs) (P := fun x => NoDup (held_objs x) /\ match x with OMono _ _ => False | _ => True end); [apply st_ambi_obj|]. intros x (Hx & _). apply (st_any _ _ _ _ _ (st_new_obj x (held_objs x ++ lm) lp (incl_appl _ (incl_refl _)) Hx)). Qed.
Lemma st_set_signal o x lm lp : st (set_signal o x) lm lp nom tru.
Proof.
  apply st_bind with (rm := nom) (P := tru); [apply st_as_1d|]. intros s _. apply st_look. intros ob Hn. destruct ob; [|apply st_ret; [sinc|exact I]|apply st_ret; [sinc|exact I]]. apply st_set_obj; [left; reflexivity|apply incl_nil_l|constructor].
Qed.
Lemma st_cut f a b o lm lp : st (cut f a b o) lm lp nom tru.
Proof. apply st_bind with (rm := nom) (P := tru); [apply st_sig_of|]. intros s _. apply st_bind with (rm := nom) (P := tru); [apply st_sub|]. intros t _. apply st_set_signal. Qed.
Lemma st_trim o a b t lm lp : st (trim_obj o a b t) lm lp nom tru.
Proof.
  apply st_bind with (rm := nom) (P := tru); [apply st_len_of|intros n _]. apply st_bind with (rm := nom) (P := tru); [apply st_fs_of|intros f _]. apply st_bind with (rm := nom) (P := fun u => assert_ (Rltb a (INR n / IZR f)) = Ok u); [apply st_lift|intros u _]. cbn zeta. apply st_look. intros x _.
  assert (G : forall s cs lm lp, st (let! _ := pmap (fun c => let! f := fs_of c in cut f a s c) cs in pret tt) lm lp nom tru).
  { intros. eapply st_bind; [apply (st_any _ _ _ (flat_map nom) tru); apply st_pmap; intros; apply st_bind with (rm := nom) (P := tru); [apply st_fs_of|intros; apply st_cut]|]. intros. apply st_ret; [sinc|exact I]. }
  destruct x; [apply st_cut|apply G|apply G].
Qed.
Lemma st_conv_one o h lm lp : st (conv_one o h) lm lp nom tru.
Proof.
  apply st_bind with (rm := nom) (P := tru); [apply st_as_1d|intros ? _]. apply st_bind with (rm := nom) (P := tru); [apply st_read|intros ? _]. apply st_bind with (rm := nom) (P := tru); [apply st_sig_of|intros ? _].
  apply st_bind with (rm := nom) (P := tru); [apply st_read|intros ? _]. apply st_bind with (rm := nom) (P := tru); [apply st_new_arr|intros ? _]. apply st_set_signal.
Qed.
Lemma st_conv_chs cs : forall hs lm lp, st (conv_chs cs hs) lm lp nom tru.
Proof. induction cs as [|c cs IH]; intros [|h hs] lm lp; cbn [conv_chs]; try (apply st_ret; [sinc|exact I]). apply st_bind with (rm := nom) (P := tru); [apply st_conv_one|intros ? _; apply IH]. Qed.
Lemma st_conv o hs lm lp : st (conv_obj o hs) lm lp nom tru.
Proof. apply st_look. intros x _. destruct x; [destruct hs as [|h [|]]; try apply st_raise; apply st_conv_one|apply st_conv_chs|apply st_conv_chs]. Qed.
Lemma st_stacked o lm lp : st (stacked o) lm lp nom (fun l => forall r, In r l -> length r = row_len l).
Proof.
  apply st_look. intros x _. eapply st_bind; [apply (st_any _ _ _ (flat_map nom) tru); apply st_pmap; intros; apply st_bind with (rm := nom) (P := tru); [apply st_sig_of|intros; apply st_read]|]. intros l _. destruct l as [|r t]; [apply st_ret; [sinc|intros ? []]|].
  destruct (forallb _ t) eqn:E; [|apply st_raise]. apply st_ret; [sinc|]. intros d [<-|Hd]; [reflexivity|]. apply Nat.eqb_eq. exact (proj1 (forallb_forall _ _) E d Hd).
Qed.
Lemma concat_rect (l : list (list R)) n : (forall r, In r l -> length r = n) -> length (concat l) = (length l * n)%nat.
Proof. induction l as [|r l IH]; intros H; cbn; [reflexivity|]. rewrite app_length, IH by (intros; apply H; right; assumption). rewrite (H r (or_introl eq_refl)). reflexivity. Qed.
Lemma flat_mat_length B : length (flat_mat B) = (nr B * nc B)%nat.
Proof.
  unfold flat_mat. rewrite flat_map_concat_map, (concat_rect _ (nc B)); [rewrite map_length, seq_length; reflexivity|]. intros r Hr. apply in_map_iff in Hr. destruct Hr as (i & <- & _). rewrite map_length, seq_length. reflexivity.
Qed.
Lemma st_signals o lm lp : st (get_signals_obj o) lm lp nom tru.
Proof. eapply st_bind; [apply st_stacked|]. intros l Hl. apply st_new_rows. apply concat_rect. exact Hl. Qed.
Lemma st_unpack r lm lp : st (unpack_rows r) lm lp nom tru.
Proof.
  assert (G : st (if negb (forallb (fun q => Nat.eqb (length q) (row_len r)) r) then praise ValueError else if Nat.eqb (row_len r) 1 then pret (map PLst r) else let! l := new_rows (length r) (row_len r) (concat r) in pret (map PRef l)) lm lp nom tru).
  { destruct (forallb _ r) eqn:E; cbn [negb]; [|apply st_raise]. destruct (Nat.eqb _ _); [apply st_ret; [sinc|exact I]|]. apply st_bind with (rm := nom) (P := tru); [|intros; apply st_ret; [sinc|exact I]].
    apply st_new_rows, concat_rect. intros d Hd. apply Nat.eqb_eq. exact (proj1 (forallb_forall _ _) E d Hd). }
  destruct r as [|a [|b r]]; [exact G| |exact G]. cbn [unpack_rows]. destruct a as [|x [|]]; try apply st_raise; apply st_ret; try exact I; sinc.
Qed.
Lemma st_resample rs o f lm lp : st (resample_obj rs o f) lm lp nom tru.
Proof.
  apply st_bind with (rm := nom) (P := tru); [apply st_fs_of|intros fs _]. destruct (Z.eqb f fs); [apply st_ret; [sinc|exact I]|]. apply st_look. intros x _.
  assert (G : forall lm lp, In o lp -> st (let! l := stacked o in match l with [] => praise ValueError | _ => let! rr := plift (mapM (rs fs f) l) in let! args := unpack_rows rr in
       match x with OAmbi _ _ _ _ _ _ _ => let! y := ambi_obj args (Some f) in set_obj o y | _ => let! q := multi_chs args (Some f) in set_obj o (OMulti (fst q) (snd q) (length (fst q))) end end) lm lp nom tru).
  { intros lm' lp' Ho. eapply st_bind; [apply st_stacked|]. intros [|r t] _; [apply st_raise|]. eapply st_bind; [apply st_lift|intros ? _]. apply st_bind with (rm := nom) (P := tru); [apply st_unpack|intros args _].
    destruct x; (eapply st_bind; [first [apply st_multi_chs|apply st_ambi_obj]|cbn beta; intros q Hq]); try (apply st_set_obj; [exact Ho|cbn [held_objs]; sinc|exact Hq]).
    destruct q as [| |]; [destruct Hq as (_ & [])| |]; (apply st_set_obj; [exact Ho|cbn [held_objs]; sinc|exact (proj1 Hq)]). }
  destruct x; [|apply G; left; reflexivity|apply G; left; reflexivity].
  apply st_bind with (rm := nom) (P := tru); [apply st_read|intros ? _]. eapply st_bind; [apply st_lift|intros ? _]. apply st_bind with (rm := nom) (P := tru); [apply st_new_arr|intros ? _]. apply st_set_obj; [|apply incl_nil_l|constructor].
  cbn [nom app ml]. left. reflexivity.
Qed.
Lemma st_copy_arr a k lm lp : st (copy_arr a k) lm lp nom tru.
Proof. unfold copy_arr. destruct (seen k a); [apply st_ret; [sinc|exact I]|]. apply st_bind with (rm := nom) (P := tru); [apply st_read|intros ? _]. apply st_bind with (rm := nom) (P := tru); [apply st_new_arr|intros; apply st_ret; [sinc|exact I]]. Qed.
Lemma objs_copy_arr a k m : objs (snd (copy_arr a k m)) = objs m.
Proof.
  unfold copy_arr. destruct (seen k a); [reflexivity|]. unfold pbind. pose proof (snd_read a m) as H. destruct (read a m) as [[v|e] m1]; cbn [snd] in *; subst; reflexivity.
Qed.
Lemma copy_chs_ids cs : forall ko ka m r, NoDup cs -> (forall c, In c cs -> seen ko c = None) -> fst (copy_chs cs ko ka m) = Ok r -> fst r = seq (length (objs m)) (length cs).
Proof.
  induction cs as [|c cs IH]; intros ko ka m r N K; cbn [copy_chs]; [intros [= <-]; reflexivity|]. rewrite (K c (or_introl eq_refl)). inversion N as [|? ? N1 N2]; subst. unfold pbind.
  pose proof (snd_sig_of c m) as H1. destruct (sig_of c m) as [[s|e] m1]; [|discriminate]. cbn [snd] in H1. subst m1. pose proof (snd_fs_of c m) as H2. destruct (fs_of c m) as [[f|e] m1]; [|discriminate]. cbn [snd] in H2. subst m1.
  pose proof (objs_copy_arr s ka m) as H3. destruct (copy_arr s ka m) as [[q|e] m1]; [|discriminate]. cbn [snd] in H3. unfold new_obj.
  specialize (IH ((c, length (objs m1)) :: ko) (snd q) (Mem (bufs m1) (arrs m1) (objs m1 ++ [OMono (fst q) f]))).
  destruct (copy_chs cs _ _ _) as [[r'|e] m2]; [|discriminate]. cbn [fst snd] in *. intros [= <-]. cbn [fst length seq]. f_equal; [congruence|].
  rewrite (IH r' N2); [|intros d Hd; cbn [seen]; destruct (Nat.eqb_spec d c) as [->|]; [contradiction|apply K; right; exact Hd]|reflexivity]. cbn [objs]. rewrite app_length, H3. cbn [length]. f_equal. lia.
Qed.
Lemma st_copy_chs cs : forall ko ka lm lp, incl (map snd ko) lm -> st (copy_chs cs ko ka) lm lp (fun r => fst r) tru.
Proof.
  induction cs as [|c cs IH]; intros ko ka lm lp K; cbn [copy_chs]; [apply st_ret; [apply incl_nil_l|exact I]|]. destruct (seen ko c) as [d|] eqn:E.
  - apply st_bind with (rm := fun r => fst r) (P := tru); [apply IH; exact K|]. intros r _. apply st_ret; [|exact I]. cbn [fst]. intros q [<-|Hq]; [|apply in_or_app; left; exact Hq]. apply in_or_app. right. apply K. clear -E. induction ko as [|(x & y) t IH]; cbn in E; [discriminate|]. destruct (Nat.eqb c x); [injection E as <-; left; reflexivity|right; auto].
  - apply st_bind with (rm := nom) (P := tru); [apply st_sig_of|intros s _]. apply st_bind with (rm := nom) (P := tru); [apply st_fs_of|intros f _]. apply st_bind with (rm := nom) (P := tru); [apply st_copy_arr|intros q _].
    eapply st_bind; [apply st_new_obj; [apply incl_nil_l|constructor]|]. intros d _. cbn beta iota. apply st_bind with (rm := fun r => fst r) (P := tru); [apply IH; cbn [map snd nom app]; intros z [<-|Hz]; [left; reflexivity|right; apply K; exact Hz]|]. intros r _. apply st_ret; [|exact I]. cbn [fst nom app].
    intros z [<-|Hz]; apply in_or_app; [right; left; reflexivity|left; exact Hz].
Qed.
Lemma st_copy_chs0 cs lm lp : NoDup cs -> st (copy_chs cs [] []) lm lp (fun r => fst r) (fun r => NoDup (fst r)).
Proof.
  intros N. apply (st_weak _ _ _ lm lp _ (fun q => fst q) _ (fun q => tru q /\ NoDup (fst q))); try apply incl_refl; [|intros; apply incl_refl|intros a H; apply H]. apply st_and; [apply st_copy_chs; apply incl_nil_l|].
  intros m r H. rewrite (copy_chs_ids cs [] [] m r N (fun _ _ => eq_refl) H). apply seq_NoDup.
Qed.
Lemma st_copy o lm lp : st (copy_obj o) lm lp nom tru.
Proof.
  apply st_look. intros x N. destruct x as [s f|cs f n|cs f n w x y z]; cbn [held_objs] in N.
  - apply st_bind with (rm := nom) (P := tru); [apply st_copy_arr|intros q _]. eapply st_any. apply st_new_obj; [apply incl_nil_l|constructor].
  - eapply st_bind; [apply st_copy_chs0; exact N|cbn beta; intros r Hr]. eapply st_any. apply st_new_obj; [cbn [held_objs]; sinc|exact Hr].
  - eapply st_bind; [apply st_copy_chs0; exact N|cbn beta; intros r Hr]. do 4 (apply st_bind with (rm := nom) (P := tru); [apply st_copy_arr|intros ? _]). eapply st_any. apply st_new_obj; [cbn [held_objs nom app]; sinc|exact Hr].
Qed.
Lemma st_trim_audio o a b lm lp : st (trim_audio_obj o a b) lm lp nom tru.
Proof.
  apply st_bind with (rm := nom) (P := tru); [apply st_copy|intros d _]. apply st_bind with (rm := nom) (P := tru); [apply st_len_of|intros n _]. apply st_bind with (rm := nom) (P := tru); [apply st_fs_of|intros f _]. eapply st_bind; [apply st_lift|intros ? _].
  apply st_look. intros x _.
  assert (G : forall cs k lm lp, st (let! _ := pmap (fun c => cut f a b c) (firstn k cs) in if Nat.ltb (length cs) k then praise IndexError else pret d) lm lp nom tru).
  { intros. eapply st_bind; [apply (st_any _ _ _ (flat_map nom) tru); apply st_pmap; intros; apply st_cut|]. intros. destruct (Nat.ltb _ _); [apply st_raise|apply st_ret; [sinc|exact I]]. }
  destruct x; [apply st_raise|apply G|apply G].
Qed.
Lemma st_sh_to_b o lm lp : st (sh_to_b_obj o) lm lp nom tru.
Proof.
  apply st_look. intros x _. assert (G : forall lm lp, st (let! c := copy_obj o in let! l := stacked c in let! B := plift (sh_to_b (rows_mat l) None) in let! rows := new_rows (nr B) (nc B) (flat_mat B) in let! fs := fs_of o in ambi_new (map PRef rows) (Some fs)) lm lp nom tru).
  { intros. apply st_bind with (rm := nom) (P := tru); [apply st_copy|intros ? _]. eapply st_bind; [apply st_stacked|intros ? _]. eapply st_bind; [apply st_lift|intros B _]. apply st_bind with (rm := nom) (P := tru); [apply st_new_rows; apply flat_mat_length|intros ? _].
    apply st_bind with (rm := nom) (P := tru); [apply st_fs_of|intros ? _]. apply st_ambi_new. }
  destruct x; [apply st_raise|apply G|apply G].
Qed.
Lemma st_from_file y d k n f lm lp : st (from_file y d k n f) lm lp nom tru.
Proof.
  eapply st_bind; [apply st_lift|intros q _]. eapply st_bind; [apply st_lift|intros r _]. destruct k, (fst q) as [x|B]; try apply st_raise.
  - apply st_bind with (rm := nom) (P := tru); [apply st_new_arr|intros ? _]. eapply st_any, st_mono_new.
  - apply st_bind with (rm := nom) (P := tru); [apply st_new_cols; apply flat_mat_length|intros ? _]. apply st_multi_new.
  - apply st_bind with (rm := nom) (P := tru); [apply st_new_cols; apply flat_mat_length|intros ? _]. apply st_ambi_new.
Qed.
Lemma st_quiet {A} (p : prog A) lm lp rm P : st p lm lp rm P -> st (quiet p) lm lp nom tru.
Proof. intros H. eapply st_bind; [exact H|]. intros. apply st_ret; [apply incl_nil_l|exact I]. Qed.
Lemma st_perform rs y d c lm lp : st (perform rs y d c) lm lp nom tru.
Proof.
  destruct c; cbn [perform]; try (eapply st_quiet).
  - apply st_new_arr.
  - apply st_write.
  - apply st_sub.
  - apply st_bind with (rm := nom) (P := tru); [apply st_sig_of|intros ? _; apply st_sub].
  - apply st_mono_new.
  - apply st_multi_new.
  - apply st_ambi_new.
  - apply st_set_signal.
  - apply st_trim.
  - apply st_conv.
  - apply st_resample.
  - apply st_copy.
  - apply st_trim_audio.
  - apply st_signals.
  - apply st_sh_to_b.
  - apply st_from_file.
Qed.
