(** Repeated construction from shared arrays. *)
From Verif Require Import Base BaseFacts M_utils M_sig M_decoder M_decoder3 S_decoder3 P_dec1 P_dec11.
Open Scope R_scope.

Lemma list_as_map (l : list R) n : length l = n -> l = map (fun i => nth i l 0) (seq 0 n).
Proof.
  intros H. apply nth_ext with (d := 0) (d' := 0).
  - rewrite map_length, seq_length. exact H.
  - intros k Hk. rewrite nth_map_in with (d' := O) by (rewrite seq_length; lia).
    rewrite seq_nth by lia. reflexivity.
Qed.
Lemma zip3_map {A} (f g k : A -> R) l : zip3 (map f l) (map g l) (map k l) = map (fun i => (f i, g i, k i)) l.
Proof. induction l as [|a l IH]; cbn; [reflexivity|]. now rewrite IH. Qed.
Lemma zip3_pos h lx ly lz n cx cy cz (o : V3) :
  nth_error h lx = Some cx -> nth_error h ly = Some cy -> nth_error h lz = Some cz ->
  length (a_data cx) = n -> length (a_data cy) = n -> length (a_data cz) = n ->
  zip3 (map (fun v => v - vx o) (a_data cx)) (map (fun v => v - vy o) (a_data cy)) (map (fun v => v - vz o) (a_data cz))
  = map (fun p => sub3 p o) (points_of h lx ly lz n).
Proof.
  intros Ex Ey Ez Lx Ly Lz.
  rewrite (list_as_map (a_data cx) n Lx), (list_as_map (a_data cy) n Ly), (list_as_map (a_data cz) n Lz).
  rewrite !map_map, zip3_map. unfold points_of. rewrite map_map. apply map_ext. intros i.
  unfold pos, num. rewrite Ex, Ey, Ez. reflexivity.
Qed.

(** the listener argument [lp] stands for the offset [o]; [ll] is the array it is
    converted to *)
Definition offers (h : heap) (lp : arg) (o : V3) (ll : nat) (h1 : heap) : Prop :=
  asarray_1d_ref lp h = (Ok ll, h1) /\
  exists cl, nth_error h1 ll = Some cl /\
    (forall h2, nth_error h2 ll = Some cl -> exists b, item lp 0 h2 = (Ok (b, vx o), h2)) /\
    (forall h2, nth_error h2 ll = Some cl -> exists b, item lp 1 h2 = (Ok (b, vy o), h2)) /\
    (forall h2, nth_error h2 ll = Some cl -> exists b, item lp 2 h2 = (Ok (b, vz o), h2)).

Lemma list_offers h b1 b2 b3 (o : V3) rest :
  offers h (ALst ((b1, vx o) :: (b2, vy o) :: (b3, vz o) :: rest)) o (length h)
    (h ++ [Cell (forallb fst ((b1, vx o) :: (b2, vy o) :: (b3, vz o) :: rest)) [length ((b1, vx o) :: (b2, vy o) :: (b3, vz o) :: rest)]
                (map snd ((b1, vx o) :: (b2, vy o) :: (b3, vz o) :: rest))]).
Proof.
  split; [reflexivity|]. eexists. split; [rewrite nth_error_app2, Nat.sub_diag by lia; reflexivity|].
  repeat split; intros h2 _; eexists; reflexivity.
Qed.
Lemma ref_offers h ll n c (o : V3) rest :
  nth_error h ll = Some c -> a_shape c = [n] -> a_data c = vx o :: vy o :: vz o :: rest ->
  offers h (ARef ll) o ll h.
Proof.
  intros E Hs Hd. split.
  - cbn [asarray_1d_ref]. unfold andthen. rewrite (fetch_some _ _ _ E), Hs.
    unfold asarray_1d, squeeze. cbn [shape data filter]. destruct (Nat.eqb n 1); reflexivity.
  - exists c. split; [exact E|].
    repeat split; intros h2 E2; cbn [item]; unfold andthen; rewrite (fetch_some _ _ _ E2), Hd; eexists; reflexivity.
Qed.

Lemma num_shift h h' l c o i : nth_error h l = Some c -> nth_error h' l = Some (shift c o) -> (i < length (a_data c))%nat ->
  num h' l i = num h l i - o.
Proof.
  intros E E' Hi. unfold num. rewrite E, E'. cbn [shift set_data a_data].
  rewrite nth_map_in with (d' := 0) by exact Hi. reflexivity.
Qed.
Lemma float_shift h l n c o : nth_error h l = Some (shift c o) -> a_shape c = [n] -> length (a_data c) = n -> a_int c = false ->
  float_array h l n.
Proof. intros E Hs Hd Hi. exists (shift c o). cbn [shift set_data a_shape a_data a_int]. rewrite map_length. auto. Qed.

(** one construction *)
Lemma init_step qhull lx ly lz n lp o ll h h1 :
  float_array h lx n -> float_array h ly n -> float_array h lz n -> distinct3 lx ly lz ->
  offers h lp o ll h1 -> ll <> lx -> ll <> ly -> ll <> lz ->
  (forall l, (l < length h)%nat -> nth_error h1 l = nth_error h l) ->
  exists r h', ls_init qhull (ARef lx) (ARef ly) (ARef lz) (Some lp) h = (r, h') /\
    float_array h' lx n /\ float_array h' ly n /\ float_array h' lz n /\
    (forall i, (i < n)%nat -> pos h' lx ly lz i = sub3 (pos h lx ly lz i) o) /\
    (forall i, num h' ll i = 0) /\
    (forall c, nth_error h1 ll = Some c -> exists c', nth_error h' ll = Some c' /\ a_shape c' = a_shape c /\ a_data c' = map (fun _ => 0) (a_data c)) /\
    length h' = length h1 /\
    r = match qhull (map (fun p => sub3 p o) (points_of h lx ly lz n)) with
        | Ok f => Ok (LsObj lx ly lz ll (setup_init (fun _ => f) (points_of h lx ly lz n) (Some o)))
        | Err e => Err e end.
Proof.
  intros Fx Fy Fz (D1 & D2 & D3) (Al & cl & El & I1 & I2 & I3) N1 N2 N3 K.
  pose proof (asarray_float _ _ _ Fx) as Ax. pose proof (asarray_float _ _ _ Fy) as Ay. pose proof (asarray_float _ _ _ Fz) as Az.
  destruct Fx as (cx & Ex & Sx & Lx & Ix), Fy as (cy & Ey & Sy & Ly & Iy), Fz as (cz & Ez & Sz & Lz & Iz).
  assert (Bx : (lx < length h)%nat) by (apply nth_error_Some; congruence).
  assert (By : (ly < length h)%nat) by (apply nth_error_Some; congruence).
  assert (Bz : (lz < length h)%nat) by (apply nth_error_Some; congruence).
  assert (Ex1 : nth_error h1 lx = Some cx) by (rewrite K; auto).
  assert (Ey1 : nth_error h1 ly = Some cy) by (rewrite K; auto).
  assert (Ez1 : nth_error h1 lz = Some cz) by (rewrite K; auto).
  pose proof (init_core qhull lx ly lz lp ll h h1 cx cy cz cl (vx o) (vy o) (vz o) n Ax Ay Az Al Ex1 Ey1 Ez1 El Ix Iy Iz Lx Ly Lz
                D1 D2 D3 N1 N2 N3 I1 I2 I3) as G. cbv zeta in G.
  rewrite (zip3_pos h lx ly lz n cx cy cz o Ex Ey Ez Lx Ly Lz) in G.
  eexists. eexists. split; [exact G|]. clear G.
  set (h' := upd _ ll _).
  assert (Gx : nth_error h' lx = Some (shift cx (vx o))).
  { unfold h'. rewrite !nth_error_upd_ne by auto. eapply nth_error_upd_eq, Ex1. }
  assert (Gy : nth_error h' ly = Some (shift cy (vy o))).
  { unfold h'. rewrite !nth_error_upd_ne by auto. eapply nth_error_upd_eq. rewrite nth_error_upd_ne by auto. exact Ey1. }
  assert (Gz : nth_error h' lz = Some (shift cz (vz o))).
  { unfold h'. rewrite !nth_error_upd_ne by auto. eapply nth_error_upd_eq. rewrite !nth_error_upd_ne by auto. exact Ez1. }
  assert (Gl : nth_error h' ll = Some (set_data cl (map (fun v => v - v) (a_data cl)))).
  { unfold h'. eapply nth_error_upd_eq. rewrite !nth_error_upd_ne by auto. exact El. }
  assert (Z0 : map (fun v => v - v) (a_data cl) = map (fun _ => 0) (a_data cl)) by (apply map_ext; intros; ring).
  split; [eapply float_shift; eauto|]. split; [eapply float_shift; eauto|]. split; [eapply float_shift; eauto|].
  split.
  { intros i Hi. unfold pos, sub3. cbn [vx vy vz fst snd].
    rewrite (num_shift h h' lx cx (vx o)), (num_shift h h' ly cy (vy o)), (num_shift h h' lz cz (vz o)) by (auto; lia). reflexivity. }
  split.
  { intros i. unfold num. rewrite Gl. cbn [set_data a_data]. rewrite Z0.
    destruct (Nat.lt_ge_cases i (length (a_data cl))) as [Hi|Hi].
    - rewrite nth_map_in with (d' := 0) by exact Hi. reflexivity.
    - apply nth_overflow. rewrite map_length. exact Hi. }
  split.
  { intros c Ec. rewrite El in Ec. injection Ec as <-. eexists. split; [exact Gl|]. split; [reflexivity|]. exact Z0. }
  split; [unfold h'; now rewrite !length_upd|].
  destruct (qhull _); reflexivity.
Qed.

Lemma pos_points h lx ly lz n (i : nat) : (i < n)%nat -> @nth V3 i (points_of h lx ly lz n) (0, 0, 0) = pos h lx ly lz i.
Proof. intros H. unfold points_of. rewrite nth_map_in with (d' := O) by (rewrite seq_length; lia). rewrite seq_nth by lia. reflexivity. Qed.
Lemma points_length h lx ly lz n : length (points_of h lx ly lz n) = n.
Proof. unfold points_of. rewrite map_length, seq_length. reflexivity. Qed.
Lemma points_ext h h' lx ly lz n o : (forall i, (i < n)%nat -> pos h' lx ly lz i = sub3 (pos h lx ly lz i) o) ->
  points_of h' lx ly lz n = map (fun p => sub3 p o) (points_of h lx ly lz n).
Proof. intros H. unfold points_of. rewrite map_map. apply map_ext_in. intros i Hi. apply in_seq in Hi. apply H. lia. Qed.

(** a history of constructions, each with an offset of its own *)
Lemma history qhull lx ly lz n : distinct3 lx ly lz -> forall os h objs h',
  float_array h lx n -> float_array h ly n -> float_array h lz n ->
  construct_all qhull (ARef lx) (ARef ly) (ARef lz) (map (fun o => Some (listed (fst o) (snd o))) os) h = (Ok objs, h') ->
  length objs = length os /\
  (forall k ob, nth_error objs k = Some ob ->
     h_points (o_hull ob) = map (fun p => sub3 p (offset_sum (firstn (S k) os))) (points_of h lx ly lz n) /\
     o_x ob = lx /\ o_y ob = ly /\ o_z ob = lz) /\
  (forall i, (i < n)%nat -> pos h' lx ly lz i = sub3 (pos h lx ly lz i) (offset_sum os)).
Proof.
  intros D. induction os as [|o os IH]; intros h objs h' Fx Fy Fz E.
  - cbn in E. injection E as <- <-. split; [reflexivity|]. split; [intros [|k] ob; discriminate|].
    intros i Hi. unfold offset_sum. cbn [map vsum3 fold_right]. unfold sub3, pos. cbn [vx vy vz fst snd]. f_equal; [f_equal|]; ring.
  - cbn [map construct_all] in E. destruct o as [b o]. cbn [fst snd] in E.
    destruct (init_step qhull lx ly lz n (listed b o) o (length h) h _ Fx Fy Fz D (list_offers h b b b o [])) as
      (r & h2 & E1 & Fx2 & Fy2 & Fz2 & P2 & _ & _ & _ & Er).
    { destruct Fx as (c & Ec & _). intros <-. assert (G : nth_error h (length h) <> None) by congruence. apply nth_error_Some in G. lia. }
    { destruct Fy as (c & Ec & _). intros <-. assert (G : nth_error h (length h) <> None) by congruence. apply nth_error_Some in G. lia. }
    { destruct Fz as (c & Ec & _). intros <-. assert (G : nth_error h (length h) <> None) by congruence. apply nth_error_Some in G. lia. }
    { intros l Hl. apply nth_error_app1, Hl. }
    unfold andthen at 1 in E. rewrite E1 in E.
    set (pl := points_of h lx ly lz n) in *.
    destruct (qhull (map (fun p => sub3 p o) pl)) as [f|e] eqn:Q; subst r; [|discriminate].
    unfold andthen in E.
    destruct (construct_all _ _ _ _ _ h2) as [[obs|e] h3] eqn:E2; [|discriminate].
    cbn in E. injection E as <- <-.
    destruct (IH h2 obs h3 Fx2 Fy2 Fz2 E2) as (L & A1 & A2).
    assert (AS : forall (q u v : V3), sub3 (sub3 q u) v = sub3 q (add3 u v)) by (intros [[q1 q2] q3] [[u1 u2] u3] [[v1 v2] v3]; unfold sub3, add3; cbn [vx vy vz fst snd]; f_equal; [f_equal|]; ring).
    split; [cbn; now rewrite L|]. split.
    + intros [|k] ob Hk.
      * cbn in Hk. injection Hk as <-. cbn [o_hull o_x o_y o_z setup_init hull_of_points h_points].
        split; [|auto]. apply map_ext. intros q. unfold offset_sum. cbn [firstn map vsum3 fold_right snd].
        f_equal. unfold add3. destruct o as [[a1 a2] a3]. cbn [vx vy vz fst snd]. f_equal; [f_equal|]; ring.
      * cbn in Hk. destruct (A1 k ob Hk) as (H1 & H2). split; [|exact H2].
        rewrite H1, (points_ext h h2 lx ly lz n o P2), map_map. apply map_ext. intros q. rewrite AS. reflexivity.
    + intros i Hi. rewrite A2, P2, AS by auto. reflexivity.
Qed.

(** an array as listener position: it is zeroed, later constructions see no offset *)
Lemma history_array qhull lx ly lz n : distinct3 lx ly lz -> forall m h objs h' ll ob c (o : V3) rest,
  float_array h lx n -> float_array h ly n -> float_array h lz n -> ll <> lx -> ll <> ly -> ll <> lz ->
  nth_error h ll = Some c -> a_shape c = [ob] -> a_data c = vx o :: vy o :: vz o :: rest ->
  construct_all qhull (ARef lx) (ARef ly) (ARef lz) (repeat (Some (ARef ll)) (S m)) h = (Ok objs, h') ->
  length objs = S m /\
  (forall b, In b objs -> h_points (o_hull b) = map (fun p => sub3 p o) (points_of h lx ly lz n)) /\
  (forall i, (i < n)%nat -> pos h' lx ly lz i = sub3 (pos h lx ly lz i) o) /\
  (forall i, num h' ll i = 0).
Proof.
  intros D. induction m as [|m IH]; intros h objs h' ll ob c o rest Fx Fy Fz N1 N2 N3 Ec Sc Dc E;
    cbn [repeat construct_all] in E;
    destruct (init_step qhull lx ly lz n (ARef ll) o ll h h Fx Fy Fz D (ref_offers h ll ob c o rest Ec Sc Dc) N1 N2 N3 (fun _ _ => eq_refl))
      as (r & h2 & E1 & Fx2 & Fy2 & Fz2 & P2 & Z2 & Z3 & _ & Er);
    unfold andthen at 1 in E; rewrite E1 in E; set (pl := points_of h lx ly lz n) in *;
    destruct (qhull (map (fun p => sub3 p o) pl)) as [f|e] eqn:Q; subst r; try discriminate; unfold andthen in E.
  - cbn in E. injection E as <- <-. split; [reflexivity|]. split; [|auto].
    intros b [<-|[]]. reflexivity.
  - change (match construct_all qhull (ARef lx) (ARef ly) (ARef lz) (repeat (Some (ARef ll)) (S m)) h2 with
            | (Ok a, h'0) => ret (LsObj lx ly lz ll (setup_init (fun _ => f) pl (Some o)) :: a) h'0
            | (Err e, h'0) => (Err e, h'0) end = (Ok objs, h')) in E.
    destruct (construct_all qhull (ARef lx) (ARef ly) (ARef lz) (repeat (Some (ARef ll)) (S m)) h2) as [[obs|e] h3] eqn:E2; [|discriminate].
    cbn in E. injection E as <- <-.
    destruct (Z3 c Ec) as (c' & Ec' & Sc' & Dc'). rewrite Sc in Sc'. rewrite Dc in Dc'. cbn [map] in Dc'.
    destruct (IH h2 obs h3 ll ob c' (0, 0, 0) (map (fun _ => 0) rest) Fx2 Fy2 Fz2 N1 N2 N3 Ec' Sc' Dc' E2) as (L & A1 & A2 & A3).
    assert (Z0 : forall (q : V3), sub3 q (0, 0, 0) = q) by (intros [[a b] d]; unfold sub3; cbn [vx vy vz fst snd]; f_equal; [f_equal|]; ring).
    split; [cbn; now rewrite L|]. split; [|split; [|exact A3]].
    + intros b [<-|Hb]; [reflexivity|]. rewrite (A1 b Hb), (points_ext h h2 lx ly lz n o P2), map_map. apply map_ext. intros q. apply Z0.
    + intros i Hi. rewrite A2 by exact Hi. rewrite Z0. apply P2, Hi.
Qed.

Lemma then_err {A B} (m : act A) (f : A -> act B) h e h' : m h = (Err e, h') -> andthen m f h = (Err e, h').
Proof. intros E. unfold andthen. now rewrite E. Qed.
(** exceptions do not roll back *)
Lemma failed_index qhull lx ly lz n h b o1 : float_array h lx n -> float_array h ly n -> float_array h lz n ->
  exists h', ls_init qhull (ARef lx) (ARef ly) (ARef lz) (Some (ALst [(b, o1)])) h = (Err IndexError, h') /\
    forall i, (i < n)%nat -> num h' lx i = num h lx i - o1.
Proof.
  intros Fx Fy Fz.
  pose proof (asarray_float _ _ _ Fx) as Ax. pose proof (asarray_float _ _ _ Fy) as Ay. pose proof (asarray_float _ _ _ Fz) as Az.
  destruct Fx as (cx & Ex & Sx & Lx & Ix). assert (Bx : (lx < length h)%nat) by (apply nth_error_Some; congruence).
  unfold ls_init. rewrite (then_ok _ _ _ _ _ Ax), (then_ok _ _ _ _ _ Ay), (then_ok _ _ _ _ _ Az). cbv zeta.
  cbn [asarray_1d_ref]. unfold andthen at 1. cbn [alloc]. unfold andthen at 1. cbn [item nth_error ret].
  set (h1 := h ++ _). assert (Ex1 : nth_error h1 lx = Some cx) by (unfold h1; rewrite nth_error_app1; auto).
  rewrite (then_ok _ _ _ _ _ (isub_float _ _ _ (b, o1) Ex1 Ix)). unfold andthen at 1. cbn [item nth_error raise snd].
  eexists. split; [reflexivity|]. intros i Hi.
  unfold num. rewrite (nth_error_upd_eq _ _ _ _ Ex1), Ex. cbn [shift set_data a_data].
  rewrite nth_map_in with (d' := 0) by lia. reflexivity.
Qed.

(** integer arrays take no float offset *)
Lemma integer_fails qhull lx ly lz n h c o : nth_error h lx = Some c -> a_shape c = [n] -> a_int c = true ->
  float_array h ly n -> float_array h lz n ->
  exists h', ls_init qhull (ARef lx) (ARef ly) (ARef lz) (Some (listed false o)) h = (Err TypeError, h') /\ arrays_kept h h'.
Proof.
  intros Ex Sx Ix Fy Fz.
  assert (Ax : asarray_1d_ref (ARef lx) h = (Ok lx, h)).
  { cbn [asarray_1d_ref]. unfold andthen. rewrite (fetch_some _ _ _ Ex), Sx.
    unfold asarray_1d, squeeze. cbn [shape data filter]. destruct (Nat.eqb n 1); reflexivity. }
  pose proof (asarray_float _ _ _ Fy) as Ay. pose proof (asarray_float _ _ _ Fz) as Az.
  assert (Bx : (lx < length h)%nat) by (apply nth_error_Some; congruence).
  unfold ls_init. rewrite (then_ok _ _ _ _ _ Ax), (then_ok _ _ _ _ _ Ay), (then_ok _ _ _ _ _ Az). cbv zeta.
  set (h1 := h ++ [Cell false [3%nat] [vx o; vy o; vz o]]).
  assert (Al : asarray_1d_ref (listed false o) h = (Ok (length h), h1)) by reflexivity.
  rewrite (then_ok _ _ _ _ _ Al).
  assert (Ai : item (listed false o) 0 h1 = (Ok (false, vx o), h1)) by reflexivity.
  rewrite (then_ok _ _ _ _ _ Ai). assert (Ex1 : nth_error h1 lx = Some c) by (unfold h1; rewrite nth_error_app1; auto).
  assert (Es : isub lx (false, vx o) h1 = (Err TypeError, h1)).
  { unfold isub. rewrite (then_ok _ _ _ _ _ (fetch_some _ _ _ Ex1)), Ix. reflexivity. }
  rewrite (then_err _ _ _ _ _ Es).
  eexists. split; [reflexivity|]. intros l Hl. unfold h1. apply nth_error_app1, Hl.
Qed.
