(** Construction of a LoudspeakerSetup on shared arrays. *)
From Verif Require Import Base BaseFacts M_utils M_sig M_decoder M_decoder3 S_decoder3.
Open Scope R_scope.

Lemma nth_error_upd {A} (l : list A) i j a :
  nth_error (upd l i a) j = if (Nat.eqb i j && Nat.ltb i (length l))%bool then Some a else nth_error l j.
Proof.
  revert i j; induction l as [|x l IH]; intros i j.
  - cbn [upd]. replace (Nat.ltb i (length (@nil A))) with false by (destruct i; reflexivity).
    rewrite andb_false_r. reflexivity.
  - destruct i as [|i], j as [|j]; cbn [upd nth_error]; try reflexivity.
    rewrite IH. reflexivity.
Qed.
Lemma nth_error_upd_ne {A} (l : list A) i j a : i <> j -> nth_error (upd l i a) j = nth_error l j.
Proof. intros H. rewrite nth_error_upd. replace (Nat.eqb i j) with false; [reflexivity|]. symmetry. now apply Nat.eqb_neq. Qed.
Lemma nth_error_upd_eq {A} (l : list A) i a b : nth_error l i = Some b -> nth_error (upd l i a) i = Some a.
Proof.
  intros H. rewrite nth_error_upd, Nat.eqb_refl.
  assert (G : (i < length l)%nat) by (apply nth_error_Some; congruence).
  apply Nat.ltb_lt in G. rewrite G. reflexivity.
Qed.

(** ** frame *)
Section Frame.
Variable N : nat.
Variable P : nat -> Prop.
Definition kept (h h' : heap) : Prop :=
  (length h <= length h')%nat /\ forall l, (l < N)%nat -> ~ P l -> nth_error h' l = nth_error h l.
Definition safe {A} (m : act A) (Q : A -> Prop) : Prop :=
  forall h, (N <= length h)%nat -> kept h (snd (m h)) /\ forall a, fst (m h) = Ok a -> Q a.
Lemma kept_refl h : kept h h. Proof. split; auto. Qed.
Lemma safe_ret {A} (a : A) (Q : A -> Prop) : Q a -> safe (ret a) Q.
Proof. intros Hq h Hh. split; [apply kept_refl|]. cbn. intros b [= <-]. exact Hq. Qed.
Lemma safe_raise {A} e (Q : A -> Prop) : safe (raise e) Q.
Proof. intros h Hh. split; [apply kept_refl|]. cbn. discriminate. Qed.
Lemma safe_then {A B} (m : act A) (f : A -> act B) Q1 Q2 :
  safe m Q1 -> (forall a, Q1 a -> safe (f a) Q2) -> safe (andthen m f) Q2.
Proof.
  intros Hm Hf h Hh. unfold andthen. destruct (Hm h Hh) as [[K1 K2] R1].
  destruct (m h) as [[a|e] h'] eqn:E; cbn [snd fst] in *.
  - destruct (Hf a (R1 a eq_refl) h' ltac:(lia)) as [[K3 K4] R2]. split; [|exact R2].
    split; [lia|]. intros l Hl HP. rewrite K4, K2 by auto. reflexivity.
  - split; [split; auto|discriminate].
Qed.
Lemma safe_fetch l : safe (fetch l) (fun _ => True).
Proof. intros h Hh. unfold fetch. destruct (nth_error h l); split; auto using kept_refl; cbn; discriminate. Qed.
Lemma safe_store l c : (N <= l)%nat \/ P l -> safe (store l c) (fun _ => True).
Proof.
  intros Hl h Hh. split; auto. cbn [store snd]. split; [rewrite length_upd; auto|].
  intros k Hk HP. apply nth_error_upd_ne. intros ->. destruct Hl; [lia|auto].
Qed.
Lemma safe_alloc c : safe (alloc c) (fun l => (N <= l)%nat).
Proof.
  intros h Hh. cbn [alloc snd fst]. split.
  - split; [rewrite app_length; cbn; lia|]. intros l Hl _. apply nth_error_app1. lia.
  - intros a [= <-]. exact Hh.
Qed.
Lemma safe_weak {A} (m : act A) (Q Q' : A -> Prop) : safe m Q -> (forall a, Q a -> Q' a) -> safe m Q'.
Proof. intros H I h Hh. destruct (H h Hh) as [K L]. split; auto. Qed.

Definition own (l : nat) : Prop := (N <= l)%nat \/ P l.
Lemma safe_asarray a : (forall l, a = ARef l -> P l) -> safe (asarray_1d_ref a) own.
Proof.
  intros H. destruct a as [l|xs]; cbn [asarray_1d_ref].
  - eapply safe_then; [apply safe_fetch|]. intros c _.
    destruct (asarray_1d _); [apply safe_ret; right; auto|apply safe_raise].
  - eapply safe_weak; [apply safe_alloc|]. intros k Hk; left; exact Hk.
Qed.
Lemma safe_item a i : safe (item a i) (fun _ => True).
Proof.
  destruct a as [l|xs]; cbn [item].
  - eapply safe_then; [apply safe_fetch|]. intros c _. destruct (nth_error _ _); [apply safe_ret; auto|apply safe_raise].
  - destruct (nth_error _ _); [apply safe_ret; auto|apply safe_raise].
Qed.
Lemma safe_isub l s : own l -> safe (isub l s) (fun _ => True).
Proof.
  intros H. eapply safe_then; [apply safe_fetch|]. intros c _.
  destruct (_ && _)%bool; [apply safe_raise|apply safe_store; exact H].
Qed.
Lemma safe_isub_self l : own l -> safe (isub_self l) (fun _ => True).
Proof. intros H. eapply safe_then; [apply safe_fetch|]. intros c _. apply safe_store; exact H. Qed.

Lemma safe_init qhull x y z li :
  (forall l, x = ARef l \/ y = ARef l \/ z = ARef l \/ li = Some (ARef l) -> P l) ->
  safe (ls_init qhull x y z li) (fun _ => True).
Proof.
  intros H. unfold ls_init.
  eapply safe_then; [apply safe_asarray; intros l E; apply H; auto|]. intros lx Hx.
  eapply safe_then; [apply safe_asarray; intros l E; apply H; auto|]. intros ly Hy.
  eapply safe_then; [apply safe_asarray; intros l E; apply H; auto|]. intros lz Hz.
  cbv zeta.
  eapply safe_then; [apply safe_asarray; intros l E; apply H; destruct li; [subst; auto|discriminate]|]. intros ll Hl.
  eapply safe_then; [apply safe_item|]. intros ox _.
  eapply safe_then; [apply safe_isub; exact Hx|]. intros _ _.
  eapply safe_then; [apply safe_item|]. intros oy _.
  eapply safe_then; [apply safe_isub; exact Hy|]. intros _ _.
  eapply safe_then; [apply safe_item|]. intros oz _.
  eapply safe_then; [apply safe_isub; exact Hz|]. intros _ _.
  eapply safe_then; [apply safe_isub_self; exact Hl|]. intros _ _.
  eapply safe_then; [apply safe_fetch|]. intros cx _.
  eapply safe_then; [apply safe_fetch|]. intros cy _.
  eapply safe_then; [apply safe_fetch|]. intros cz _.
  destruct (_ && _)%bool; [|apply safe_raise].
  destruct (qhull _); [apply safe_ret; auto|apply safe_raise].
Qed.
End Frame.

Lemma init_frame qhull x y z li h r h' : ls_init qhull x y z li h = (r, h') ->
  forall l, (l < length h)%nat -> x <> ARef l -> y <> ARef l -> z <> ARef l -> li <> Some (ARef l) ->
  nth_error h' l = nth_error h l.
Proof.
  intros E l Hl Hx Hy Hz Hi.
  destruct (safe_init (length h) (fun k => k <> l) qhull x y z li) with (h := h) as [[_ K] _]; auto.
  - intros k [ -> | [ -> | [ -> | -> ]]]; congruence.
  - rewrite E in K. cbn [snd] in K. apply K; auto.
Qed.

Lemma from_sph_frame qhull azi zen r li h res h' : from_sph qhull azi zen r li h = (res, h') -> arrays_kept h h'.
Proof.
  intros E l Hl.
  assert (S0 : safe (length h) (fun k => k <> l) (from_sph qhull azi zen r li) (fun _ => True)).
  { unfold from_sph. cbv zeta.
    eapply safe_then with (Q1 := fun _ => True).
    { destruct (match li with Some a => a | None => _ end) as [k|xs]; cbn [asarray_1d_ref].
      - eapply safe_then; [apply safe_fetch|]. intros c _. destruct (asarray_1d _); [apply safe_ret; auto|apply safe_raise].
      - eapply safe_weak; [apply safe_alloc|]. auto. }
    intros ll _. eapply safe_then; [apply safe_fetch|]. intros c _.
    eapply safe_then with (Q1 := fun _ => True).
    { destruct (a_data c) as [|a [|b [|d [|e t]]]]; try apply safe_raise; apply safe_ret; auto. }
    intros o _.
    eapply safe_then; [apply safe_alloc|]. intros lx Hx.
    eapply safe_then; [apply safe_alloc|]. intros ly Hy.
    eapply safe_then; [apply safe_alloc|]. intros lz Hz.
    cbv beta in Hx, Hy, Hz. apply safe_init. intros k [ [= <-] | [ [= <-] | [ [= <-] | [=] ]]]; lia. }
  destruct (S0 h (le_n _)) as [[_ K] _]. rewrite E in K. cbn [snd] in K. apply K; auto.
Qed.

(** ** zero offset *)
Definition same_old (h0 h : heap) : Prop := arrays_kept h0 h.
Definition zsafe {A} (h0 : heap) (m : act A) (Q : A -> Prop) : Prop :=
  forall h, (length h0 <= length h)%nat /\ same_old h0 h ->
    ((length h0 <= length (snd (m h)))%nat /\ same_old h0 (snd (m h))) /\ forall a, fst (m h) = Ok a -> Q a.
Lemma zsafe_then {A B} h0 (m : act A) (f : A -> act B) Q1 Q2 :
  zsafe h0 m Q1 -> (forall a, Q1 a -> zsafe h0 (f a) Q2) -> zsafe h0 (andthen m f) Q2.
Proof.
  intros Hm Hf h Hh. unfold andthen. destruct (Hm h Hh) as [K R1].
  destruct (m h) as [[a|e] h'] eqn:E; cbn [snd fst] in *.
  - apply (Hf a (R1 a eq_refl) h' K).
  - split; [exact K|discriminate].
Qed.
Lemma zsafe_ret {A} h0 (a : A) (Q : A -> Prop) : Q a -> zsafe h0 (ret a) Q.
Proof. intros Hq h Hh. split; [exact Hh|]. cbn. intros b [= <-]. exact Hq. Qed.
Lemma zsafe_raise {A} h0 e (Q : A -> Prop) : zsafe h0 (raise e) Q.
Proof. intros h Hh. split; [exact Hh|]. cbn. discriminate. Qed.
Lemma zsafe_fetch h0 l : zsafe h0 (fetch l) (fun c => (l < length h0)%nat -> nth_error h0 l = Some c).
Proof.
  intros h Hh. unfold fetch. destruct (nth_error h l) as [c|] eqn:E; cbn; split; auto; try discriminate.
  intros a [= <-] Hl. rewrite <- (proj2 Hh l Hl). exact E.
Qed.
Lemma zsafe_asarray h0 a : zsafe h0 (asarray_1d_ref a) (fun l => (length h0 <= l)%nat \/ a = ARef l).
Proof.
  destruct a as [l|xs]; cbn [asarray_1d_ref].
  - eapply zsafe_then; [apply zsafe_fetch|]. intros c _. destruct (asarray_1d _); [apply zsafe_ret; auto|apply zsafe_raise].
  - intros h [Hh Hs]. cbn [alloc snd fst]. split; [split|].
    + rewrite app_length; lia.
    + intros l Hl. rewrite nth_error_app1 by lia. apply Hs, Hl.
    + intros k [= <-]. auto.
Qed.
Lemma map_minus0 (l : list R) : map (fun v => v - 0) l = l.
Proof. rewrite <- (map_id l) at 2. apply map_ext. intros; ring. Qed.
Lemma set_data_id c : set_data c (a_data c) = c. Proof. destruct c; reflexivity. Qed.
Lemma upd_id {A} (l : list A) i a : nth_error l i = Some a -> upd l i a = l.
Proof. revert i; induction l as [|x l IH]; intros [|i] H; cbn in *; try discriminate; [now injection H as ->|now rewrite IH]. Qed.
Lemma zsafe_isub h0 l s : snd s = 0 -> zsafe h0 (isub l s) (fun _ => True).
Proof.
  intros Hs h Hh. unfold isub, andthen, fetch. destruct (nth_error h l) as [c|] eqn:E; cbn [fst snd]; [|split; [exact Hh|discriminate]].
  destruct (_ && _)%bool; cbn [raise store fst snd]; [split; [exact Hh|discriminate]|].
  rewrite Hs, map_minus0, set_data_id, upd_id by exact E. auto.
Qed.
Lemma zsafe_isub_self h0 l : (length h0 <= l)%nat \/ (forall c x, nth_error h0 l = Some c -> In x (a_data c) -> x = 0) ->
  zsafe h0 (isub_self l) (fun _ => True).
Proof.
  intros Hs h Hh. unfold isub_self, andthen, fetch. destruct (nth_error h l) as [c|] eqn:E; cbn [fst snd]; [|split; [exact Hh|discriminate]].
  cbn [store fst snd]. split; auto.
  destruct (Nat.lt_ge_cases l (length h0)) as [Hl|Hl].
  - destruct Hs as [Hs|Hs]; [lia|]. rewrite (proj2 Hh l Hl) in E.
    replace (map (fun v => v - v) (a_data c)) with (a_data c).
    { rewrite set_data_id, upd_id; auto. rewrite (proj2 Hh l Hl). exact E. }
    rewrite <- (map_id (a_data c)) at 1. apply map_ext_in. intros a Ha. rewrite (Hs c a E Ha). ring.
  - split; [rewrite length_upd; apply Hh|]. intros k Hk. rewrite nth_error_upd_ne by lia. apply (proj2 Hh k Hk).
Qed.
Lemma zsafe_item h0 a i : no_offset h0 (Some a) -> (forall l, a = ARef l -> (l < length h0)%nat) ->
  zsafe h0 (item a i) (fun s => snd s = 0).
Proof.
  intros H HL. destruct a as [l|xs]; cbn [item].
  - eapply zsafe_then; [apply zsafe_fetch|]. intros c Hc. destruct (nth_error (a_data c) i) as [x|] eqn:E; [|apply zsafe_raise].
    apply zsafe_ret. cbn. apply (H c x); [apply Hc, HL; reflexivity|]. eapply nth_error_In, E.
  - destruct (nth_error xs i) as [x|] eqn:E; [|apply zsafe_raise]. apply zsafe_ret. apply H. eapply nth_error_In, E.
Qed.

Lemma init_zero qhull x y z li h r h' :
  (forall l, li = Some (ARef l) -> (l < length h)%nat) -> no_offset h li ->
  ls_init qhull x y z li h = (r, h') -> arrays_kept h h'.
Proof.
  intros HL Hz E.
  assert (S0 : zsafe h (ls_init qhull x y z li) (fun _ => True)).
  { unfold ls_init.
    eapply zsafe_then; [apply zsafe_asarray|]. intros lx _.
    eapply zsafe_then; [apply zsafe_asarray|]. intros ly _.
    eapply zsafe_then; [apply zsafe_asarray|]. intros lz _.
    cbv zeta.
    set (lp := match li with Some a => a | None => _ end).
    assert (H1 : no_offset h (Some lp)).
    { unfold lp. destruct li; [exact Hz|]. cbn. intros a [<-|[<-|[<-|[]]]]; reflexivity. }
    assert (H2 : forall l, lp = ARef l -> (l < length h)%nat).
    { intros l. unfold lp. destruct li; [intros ->; auto|discriminate]. }
    clearbody lp.
    eapply zsafe_then; [apply zsafe_asarray|]. intros ll Hl.
    eapply zsafe_then; [apply zsafe_item; auto|]. intros ox Hox.
    eapply zsafe_then; [apply zsafe_isub; auto|]. intros _ _.
    eapply zsafe_then; [apply zsafe_item; auto|]. intros oy Hoy.
    eapply zsafe_then; [apply zsafe_isub; auto|]. intros _ _.
    eapply zsafe_then; [apply zsafe_item; auto|]. intros oz Hoz.
    eapply zsafe_then; [apply zsafe_isub; auto|]. intros _ _.
    eapply zsafe_then.
    { apply zsafe_isub_self. destruct Hl as [Hl | ->]; [left; exact Hl|right; exact H1]. }
    intros _ _.
    eapply zsafe_then; [apply zsafe_fetch|]. intros cx _.
    eapply zsafe_then; [apply zsafe_fetch|]. intros cy _.
    eapply zsafe_then; [apply zsafe_fetch|]. intros cz _.
    destruct (_ && _)%bool; [|apply zsafe_raise].
    destruct (qhull _); [apply zsafe_ret; auto|apply zsafe_raise]. }
  destruct (S0 h) as [[_ K] _]; [split; [lia|intros l _; reflexivity]|]. rewrite E in K. exact K.
Qed.

(** ** exact effect *)
Definition shift (c : cell) (o : R) : cell := set_data c (map (fun v => v - o) (a_data c)).
Lemma asarray_float h l n : float_array h l n -> asarray_1d_ref (ARef l) h = (Ok l, h).
Proof.
  intros (c & E & Hs & Hd & Hi). cbn [asarray_1d_ref]. unfold andthen, fetch. rewrite E, Hs.
  unfold asarray_1d, squeeze. cbn [shape data filter].
  destruct (Nat.eqb n 1); reflexivity.
Qed.
Lemma fetch_some h l c : nth_error h l = Some c -> fetch l h = (Ok c, h).
Proof. intros E. unfold fetch. now rewrite E. Qed.
Lemma isub_float h l c s : nth_error h l = Some c -> a_int c = false ->
  isub l s h = (Ok tt, upd h l (shift c (snd s))).
Proof. intros E Hi. unfold isub, andthen. rewrite (fetch_some _ _ _ E), Hi. reflexivity. Qed.

Lemma then_ok {A B} (m : act A) (f : A -> act B) h a h' : m h = (Ok a, h') -> andthen m f h = f a h'.
Proof. intros E. unfold andthen. now rewrite E. Qed.

Lemma init_core qhull lx ly lz lp ll h h1 cx cy cz cl o1 o2 o3 n :
  asarray_1d_ref (ARef lx) h = (Ok lx, h) -> asarray_1d_ref (ARef ly) h = (Ok ly, h) -> asarray_1d_ref (ARef lz) h = (Ok lz, h) ->
  asarray_1d_ref lp h = (Ok ll, h1) ->
  nth_error h1 lx = Some cx -> nth_error h1 ly = Some cy -> nth_error h1 lz = Some cz -> nth_error h1 ll = Some cl ->
  a_int cx = false -> a_int cy = false -> a_int cz = false ->
  length (a_data cx) = n -> length (a_data cy) = n -> length (a_data cz) = n ->
  lx <> ly -> lx <> lz -> ly <> lz -> ll <> lx -> ll <> ly -> ll <> lz ->
  (forall h2, nth_error h2 ll = Some cl -> exists b, item lp 0 h2 = (Ok (b, o1), h2)) ->
  (forall h2, nth_error h2 ll = Some cl -> exists b, item lp 1 h2 = (Ok (b, o2), h2)) ->
  (forall h2, nth_error h2 ll = Some cl -> exists b, item lp 2 h2 = (Ok (b, o3), h2)) ->
  let ps := zip3 (map (fun v => v - o1) (a_data cx)) (map (fun v => v - o2) (a_data cy)) (map (fun v => v - o3) (a_data cz)) in
  let h' := upd (upd (upd (upd h1 lx (shift cx o1)) ly (shift cy o2)) lz (shift cz o3)) ll (set_data cl (map (fun v => v - v) (a_data cl))) in
  ls_init qhull (ARef lx) (ARef ly) (ARef lz) (Some lp) h =
    (match qhull ps with Ok f => Ok (LsObj lx ly lz ll (hull_of_points (fun _ => f) ps)) | Err e => Err e end, h').
Proof.
  intros Ax Ay Az Al Ex Ey Ez El Ix Iy Iz Lx Ly Lz D1 D2 D3 D4 D5 D6 I1 I2 I3 ps h'. unfold ls_init.
  rewrite (then_ok _ _ _ _ _ Ax), (then_ok _ _ _ _ _ Ay), (then_ok _ _ _ _ _ Az). cbv zeta.
  rewrite (then_ok _ _ _ _ _ Al).
  destruct (I1 h1 El) as [b1 E1]. rewrite (then_ok _ _ _ _ _ E1).
  rewrite (then_ok _ _ _ _ _ (isub_float _ _ _ (b1, o1) Ex Ix)). cbn [snd].
  set (h2 := upd h1 lx _).
  assert (El2 : nth_error h2 ll = Some cl) by (unfold h2; rewrite nth_error_upd_ne; auto).
  assert (Ey2 : nth_error h2 ly = Some cy) by (unfold h2; rewrite nth_error_upd_ne; auto).
  destruct (I2 h2 El2) as [b2 E2]. rewrite (then_ok _ _ _ _ _ E2).
  rewrite (then_ok _ _ _ _ _ (isub_float _ _ _ (b2, o2) Ey2 Iy)). cbn [snd].
  set (h3 := upd h2 ly _).
  assert (El3 : nth_error h3 ll = Some cl) by (unfold h3; rewrite nth_error_upd_ne; auto).
  assert (Ez3 : nth_error h3 lz = Some cz) by (unfold h3, h2; rewrite !nth_error_upd_ne; auto).
  destruct (I3 h3 El3) as [b3 E3]. rewrite (then_ok _ _ _ _ _ E3).
  rewrite (then_ok _ _ _ _ _ (isub_float _ _ _ (b3, o3) Ez3 Iz)). cbn [snd].
  set (h4 := upd h3 lz _).
  assert (El4 : nth_error h4 ll = Some cl) by (unfold h4; rewrite nth_error_upd_ne; auto).
  assert (E4 : isub_self ll h4 = (Ok tt, h')).
  { unfold isub_self. rewrite (then_ok _ _ _ _ _ (fetch_some _ _ _ El4)). reflexivity. }
  rewrite (then_ok _ _ _ _ _ E4).
  assert (Fx : nth_error h' lx = Some (shift cx o1)).
  { unfold h'. rewrite !nth_error_upd_ne by auto. eapply nth_error_upd_eq, Ex. }
  assert (Fy : nth_error h' ly = Some (shift cy o2)).
  { unfold h'. rewrite !nth_error_upd_ne by auto. eapply nth_error_upd_eq, Ey2. }
  assert (Fz : nth_error h' lz = Some (shift cz o3)).
  { unfold h'. rewrite !nth_error_upd_ne by auto. eapply nth_error_upd_eq, Ez3. }
  rewrite (then_ok _ _ _ _ _ (fetch_some _ _ _ Fx)), (then_ok _ _ _ _ _ (fetch_some _ _ _ Fy)), (then_ok _ _ _ _ _ (fetch_some _ _ _ Fz)).
  cbn [shift set_data a_data]. rewrite !map_length, Lx, Ly, Lz, Nat.eqb_refl. cbn [andb].
  fold ps. destruct (qhull ps); reflexivity.
Qed.
