(** Final forms for decoder.py, part 3. *)
From Verif Require Import Base BaseFacts M_utils M_sig M_process M_decoder M_decoder3 S_utils S_decoder3 P_utils P_utils2 P_sig X_utils P_dec11 P_dec12 P_dec13.
Open Scope R_scope.

(** ** C55 *)
Lemma float_bound h l n : float_array h l n -> (l < length h)%nat.
Proof. intros (c & E & _). apply nth_error_Some. congruence. Qed.

Lemma in_place_list qhull lx ly lz n b o h :
  float_array h lx n -> float_array h ly n -> float_array h lz n -> distinct3 lx ly lz ->
  exists r h', ls_init qhull (ARef lx) (ARef ly) (ARef lz) (Some (listed b o)) h = (r, h') /\
    (forall i, (i < n)%nat -> pos h' lx ly lz i = sub3 (pos h lx ly lz i) o) /\
    r = match qhull (map (fun p => sub3 p o) (points_of h lx ly lz n)) with
        | Ok f => Ok (LsObj lx ly lz (length h) (setup_init (fun _ => f) (points_of h lx ly lz n) (Some o)))
        | Err e => Err e end.
Proof.
  intros Fx Fy Fz D. pose proof (float_bound _ _ _ Fx). pose proof (float_bound _ _ _ Fy). pose proof (float_bound _ _ _ Fz).
  destruct (init_step qhull lx ly lz n (listed b o) o (length h) h _ Fx Fy Fz D (list_offers h b b b o [])) as
      (r & h2 & E1 & Fx2 & Fy2 & Fz2 & P2 & _ & _ & _ & Er); try lia.
  { intros l Hl. apply nth_error_app1, Hl. }
  exists r, h2. auto.
Qed.
Lemma in_place_array qhull lx ly lz n ll m c (o : V3) rest h :
  float_array h lx n -> float_array h ly n -> float_array h lz n -> distinct3 lx ly lz ->
  ll <> lx -> ll <> ly -> ll <> lz ->
  nth_error h ll = Some c -> a_shape c = [m] -> a_data c = vx o :: vy o :: vz o :: rest ->
  exists r h', ls_init qhull (ARef lx) (ARef ly) (ARef lz) (Some (ARef ll)) h = (r, h') /\
    (forall i, (i < n)%nat -> pos h' lx ly lz i = sub3 (pos h lx ly lz i) o) /\
    (forall i, num h' ll i = 0) /\
    r = match qhull (map (fun p => sub3 p o) (points_of h lx ly lz n)) with
        | Ok f => Ok (LsObj lx ly lz ll (setup_init (fun _ => f) (points_of h lx ly lz n) (Some o)))
        | Err e => Err e end.
Proof.
  intros Fx Fy Fz D N1 N2 N3 Ec Sc Dc.
  destruct (init_step qhull lx ly lz n (ARef ll) o ll h h Fx Fy Fz D (ref_offers h ll m c o rest Ec Sc Dc) N1 N2 N3 (fun _ _ => eq_refl))
      as (r & h2 & E1 & Fx2 & Fy2 & Fz2 & P2 & Z2 & Z3 & _ & Er).
  exists r, h2. auto.
Qed.

(** witness: the six axis loudspeakers, listener moved by (1/2, 0, 0) *)
Definition ax_heap : heap :=
  [Cell false [6%nat] [1; -1; 0; 0; 0; 0]; Cell false [6%nat] [0; 0; 1; -1; 0; 0]; Cell false [6%nat] [0; 0; 0; 0; 1; -1]].
Definition ax_hull (ps : list V3) : res (list face) :=
  Ok [(0, 2, 4); (0, 2, 5); (0, 3, 4); (0, 3, 5); (1, 2, 4); (1, 2, 5); (1, 3, 4); (1, 3, 5)]%nat.
Definition ax_shift : V3 := (1 / 2, 0, 0).
Lemma ax_float l : (l < 3)%nat -> float_array ax_heap l 6.
Proof. intros H. destruct l as [|[|[|l]]]; [| | |lia]; eexists; (split; [reflexivity|]); auto. Qed.
Lemma ax_distinct : distinct3 0 1 2. Proof. repeat split; lia. Qed.

Lemma mutation_refuted : exists h x y z o ob h',
  ls_init ax_hull x y z o h = (Ok ob, h') /\ ~ arrays_kept h h'.
Proof.
  destruct (in_place_list ax_hull 0 1 2 6 false ax_shift ax_heap) as (r & h' & E & P & Er); auto using ax_float, ax_distinct.
  exists ax_heap, (ARef 0), (ARef 1), (ARef 2), (Some (listed false ax_shift)). eexists. exists h'.
  split; [rewrite E, Er; cbn [ax_hull]; reflexivity|]. intros K.
  specialize (P 0%nat ltac:(lia)). unfold pos in P. assert (Q : num h' 0 0 = num ax_heap 0 0 - 1 / 2) by (apply (f_equal vx) in P; exact P).
  unfold num in Q. rewrite (K 0%nat) in Q by (cbn; lia). cbn in Q. lra.
Qed.

Lemma history_example : exists objs h',
  construct_all ax_hull (ARef 0) (ARef 1) (ARef 2) (map (fun o => Some (listed (fst o) (snd o))) [(false, ax_shift); (true, (0, 1, 0)); (false, ax_shift)]) ax_heap = (Ok objs, h') /\
  distinct3 0 1 2 /\ float_array ax_heap 0 6 /\ float_array ax_heap 1 6 /\ float_array ax_heap 2 6.
Proof.
  eexists. eexists. split; [reflexivity|]. split; [apply ax_distinct|]. repeat split; apply ax_float; lia.
Qed.
Definition ax_heap2 : heap := ax_heap ++ [Cell false [3%nat] [1 / 2; 0; 0]].
Lemma history_array_example : exists objs h',
  construct_all ax_hull (ARef 0) (ARef 1) (ARef 2) (repeat (Some (ARef 3)) 2) ax_heap2 = (Ok objs, h') /\
  float_array ax_heap2 0 6 /\ float_array ax_heap2 1 6 /\ float_array ax_heap2 2 6 /\
  exists c, nth_error ax_heap2 3 = Some c /\ a_shape c = [3%nat] /\ a_data c = [vx ax_shift; vy ax_shift; vz ax_shift].
Proof.
  eexists. eexists. split; [reflexivity|].
  split; [eexists; split; [reflexivity|auto]|]. split; [eexists; split; [reflexivity|auto]|]. split; [eexists; split; [reflexivity|auto]|].
  eexists. split; [reflexivity|]. auto.
Qed.

Lemma frame_example : exists ob h', ls_init ax_hull (ARef 0) (ARef 1) (ARef 2) (Some (listed false ax_shift)) ax_heap2 = (Ok ob, h') /\
  (3 < length ax_heap2)%nat /\ ARef 0 <> ARef 3 /\ ARef 1 <> ARef 3 /\ ARef 2 <> ARef 3 /\ Some (listed false ax_shift) <> Some (ARef 3).
Proof.
  destruct (in_place_list ax_hull 0 1 2 6 false ax_shift ax_heap2) as (r & h' & E & _ & Er);
    try (eexists; split; [reflexivity|auto]); [apply ax_distinct|].
  eexists. exists h'. split; [rewrite E, Er; cbn [ax_hull]; reflexivity|]. repeat split; try discriminate. cbn. lia.
Qed.
Lemma no_offset_example : exists ob h', ls_init ax_hull (ARef 0) (ARef 1) (ARef 2) None ax_heap = (Ok ob, h') /\ no_offset ax_heap None.
Proof.
  destruct (in_place_list ax_hull 0 1 2 6 true (0, 0, 0) ax_heap) as (r & h' & E & _ & Er); auto using ax_float, ax_distinct.
  eexists. exists h'. split; [|exact I]. change None with (@None arg).
  change (ls_init ax_hull (ARef 0) (ARef 1) (ARef 2) None ax_heap) with (ls_init ax_hull (ARef 0) (ARef 1) (ARef 2) (Some (listed true (0, 0, 0))) ax_heap).
  rewrite E, Er. cbn [ax_hull]. reflexivity.
Qed.

(** ** C56 *)
Lemma superposition_final h ls fs ori hr T az ze di hl hh loud : hrir_set hr T -> rendered_from h ori hr az ze di hl hh ->
  h_fs hr = fs -> length (rows ls) = length (h_points h) -> rect ls ->
  (forall c, (c < length (h_points h))%nat -> loud c = true <-> heard (radiated ls (h_a h) di c)) ->
  exists l r, binauralize h ls fs ori hr = Ok (Some (l, r)) /\
    length l = (cols ls + T - 1)%nat /\ length r = (cols ls + T - 1)%nat /\
    forall n, (n < cols ls + T - 1)%nat ->
      nth n l 0 = rsum (length (h_points h)) (fun c => if loud c : bool then conv_sum (radiated ls (h_a h) di c) (hl c) n else 0) /\
      nth n r 0 = rsum (length (h_points h)) (fun c => if loud c : bool then conv_sum (radiated ls (h_a h) di c) (hh c) n else 0).
Proof.
  intros H1 H2 H3 H4 H5 HL. destruct (superposition h ls fs ori hr T az ze di hl hh H1 H2 H3 H4 H5) as (l & r & E & L1 & L2 & A).
  exists l, r. split; [exact E|]. split; [exact L1|]. split; [exact L2|]. intros n Hn. destruct (A n Hn) as [A1 A2].
  assert (G : forall c, (c < length (h_points h))%nat -> gate_open (radiated ls (h_a h) di c) = loud c).
  { intros c Hc. specialize (HL c Hc). pose proof (gate_heard (radiated ls (h_a h) di c)) as GH.
    destruct (gate_open _), (loud c); auto; [symmetry|]; [apply HL, GH; reflexivity|apply GH, HL; reflexivity]. }
  rewrite A1, A2. split; apply rsum_ext; intros c Hc; rewrite G by exact Hc; reflexivity.
Qed.

Lemma not_heard x v : gate_open x = false -> In v x -> Rabs v <= 1 / 100000.
Proof.
  intros G Hv. destruct (Rle_dec (Rabs v) (1 / 100000)) as [H|H]; [exact H|].
  assert (GH : gate_open x = true) by (apply gate_heard; exists v; split; [exact Hv|lra]). congruence.
Qed.
Lemma gate_error h ls fs ori hr T az ze di hl hh loud l r : hrir_set hr T -> rendered_from h ori hr az ze di hl hh ->
  h_fs hr = fs -> length (rows ls) = length (h_points h) -> rect ls ->
  (forall c, (c < length (h_points h))%nat -> loud c = true <-> heard (radiated ls (h_a h) di c)) ->
  binauralize h ls fs ori hr = Ok (Some (l, r)) ->
  forall n, (n < cols ls + T - 1)%nat ->
    Rabs (nth n l 0 - rsum (length (h_points h)) (fun c => conv_sum (radiated ls (h_a h) di c) (hl c) n))
      <= 1 / 100000 * rsum (length (h_points h)) (fun c => if loud c : bool then 0 else abs_sum (hl c)) /\
    Rabs (nth n r 0 - rsum (length (h_points h)) (fun c => conv_sum (radiated ls (h_a h) di c) (hh c) n))
      <= 1 / 100000 * rsum (length (h_points h)) (fun c => if loud c : bool then 0 else abs_sum (hh c)).
Proof.
  intros H1 H2 H3 H4 H5 HL E n Hn.
  destruct (superposition_final h ls fs ori hr T az ze di hl hh loud H1 H2 H3 H4 H5 HL) as (l' & r' & E' & _ & _ & A).
  rewrite E in E'. injection E' as <- <-. destruct (A n Hn) as [A1 A2].
  assert (G : forall hx : nat -> list R, Rabs (rsum (length (h_points h)) (fun c => if loud c : bool then conv_sum (radiated ls (h_a h) di c) (hx c) n else 0)
     - rsum (length (h_points h)) (fun c => conv_sum (radiated ls (h_a h) di c) (hx c) n))
      <= 1 / 100000 * rsum (length (h_points h)) (fun c => if loud c : bool then 0 else abs_sum (hx c))).
  { intros hx. rewrite <- rsum_minus, <- rsum_scal. eapply Rle_trans; [apply rsum_abs|]. apply rsum_le. intros c Hc.
    destruct (loud c) eqn:Lc.
    - replace (_ - _) with 0 by ring. rewrite Rabs_R0. lra.
    - replace (0 - conv_sum (radiated ls (h_a h) di c) (hx c) n) with (- conv_sum (radiated ls (h_a h) di c) (hx c) n) by ring.
      rewrite Rabs_Ropp. apply conv_sum_bound; [lra|]. intros v Hv. apply not_heard with (x := radiated ls (h_a h) di c); [|exact Hv].
      destruct (gate_open (radiated ls (h_a h) di c)) eqn:GO; [|reflexivity]. apply gate_heard, (HL c Hc) in GO. congruence. }
  rewrite A1, A2. split; apply G.
Qed.

(** channels are either clearly audible or silent *)
Lemma linear h ls1 ls2 ls3 fs ori hr T u v l1 r1 l2 r2 l3 r3 az ze di hl hh : hrir_set hr T -> rendered_from h ori hr az ze di hl hh ->
  (forall ls c, In ls [ls1; ls2; ls3] -> (c < length (h_points h))%nat ->
     heard (radiated ls (h_a h) di c) \/ forall x, In x (nth c (rows ls) []) -> x = 0) ->
  rect ls1 -> rect ls2 -> rect ls3 -> cols ls1 = cols ls3 -> cols ls2 = cols ls3 ->
  (forall c i, (c < length (h_points h))%nat -> (i < cols ls3)%nat ->
     nth i (nth c (rows ls3) []) 0 = u * nth i (nth c (rows ls1) []) 0 + v * nth i (nth c (rows ls2) []) 0) ->
  binauralize h ls1 fs ori hr = Ok (Some (l1, r1)) -> binauralize h ls2 fs ori hr = Ok (Some (l2, r2)) ->
  binauralize h ls3 fs ori hr = Ok (Some (l3, r3)) ->
  forall n, (n < cols ls3 + T - 1)%nat ->
    nth n l3 0 = u * nth n l1 0 + v * nth n l2 0 /\ nth n r3 0 = u * nth n r1 0 + v * nth n r2 0.
Proof.
  intros H1 H2 HA R1 R2 R3 C1 C2 HC E1 E2 E3 n Hn.
  assert (Hfs : h_fs hr = fs).
  { unfold binauralize in E1. destruct (Z.eqb_spec (h_fs hr) fs); [auto|discriminate]. }
  assert (HL : forall ls o, binauralize h ls fs ori hr = Ok o -> length (rows ls) = length (h_points h)).
  { intros ls o. unfold binauralize. rewrite Hfs, Z.eqb_refl. cbn [assert_ bind].
    destruct (Nat.eqb_spec (length (rows ls)) (length (h_points h))); [auto|discriminate]. }
  pose proof (HL _ _ E1) as K1. pose proof (HL _ _ E2) as K2. pose proof (HL _ _ E3) as K3.
  assert (G : forall ls hx, In ls [ls1; ls2; ls3] ->
    rsum (length (h_points h)) (fun c => if gate_open (radiated ls (h_a h) di c) then conv_sum (radiated ls (h_a h) di c) (hx c) n else 0)
    = rsum (length (h_points h)) (fun c => conv_sum (radiated ls (h_a h) di c) (hx c : list R) n)).
  { intros ls hx Hin. apply rsum_ext. intros c Hc. destruct (gate_open (radiated ls (h_a h) di c)) eqn:GO; [reflexivity|].
    destruct (HA ls c Hin Hc) as [Ha|Ha]; [apply gate_heard in Ha; congruence|].
    symmetry. unfold conv_sum. apply rsum_0. intros i Hi. apply rsum_0. intros j Hj. destruct (i + j =? n)%nat; [|reflexivity].
    assert (Z0 : nth i (radiated ls (h_a h) di c) 0 = 0).
    { unfold radiated in *. rewrite map_length in Hi. rewrite (nth_map_in _ _ _ _ 0) by exact Hi. rewrite (Ha (nth i (nth c (rows ls) []) 0)) by (apply nth_In, Hi). unfold Rdiv. ring. }
    rewrite Z0. ring. }
  destruct (superposition h ls1 fs ori hr T az ze di hl hh H1 H2 Hfs K1 R1) as (l & r & F & _ & _ & A). rewrite E1 in F. injection F as <- <-.
  destruct (A n ltac:(lia)) as [A1 B1]. clear A.
  destruct (superposition h ls2 fs ori hr T az ze di hl hh H1 H2 Hfs K2 R2) as (l & r & F & _ & _ & A). rewrite E2 in F. injection F as <- <-.
  destruct (A n ltac:(lia)) as [A2 B2]. clear A.
  destruct (superposition h ls3 fs ori hr T az ze di hl hh H1 H2 Hfs K3 R3) as (l & r & F & _ & _ & A). rewrite E3 in F. injection F as <- <-.
  destruct (A n ltac:(lia)) as [A3 B3]. clear A.
  rewrite (G ls1 hl) in A1 by (cbn; auto). rewrite (G ls1 hh) in B1 by (cbn; auto). rewrite (G ls2 hl) in A2 by (cbn; auto). rewrite (G ls2 hh) in B2 by (cbn; auto).
  rewrite (G ls3 hl) in A3 by (cbn; auto). rewrite (G ls3 hh) in B3 by (cbn; auto). rewrite A1, A2, A3, B1, B2, B3.
  assert (LL : forall (ls : arr2 R) c, rect ls -> length (rows ls) = length (h_points h) -> (c < length (h_points h))%nat -> length (nth c (rows ls) []) = cols ls).
  { intros ls c Hr Hl Hc. unfold rect in Hr. rewrite Forall_forall in Hr. apply Hr, nth_In. lia. }
  split; rewrite <- !rsum_scal, <- rsum_plus; apply rsum_ext; intros c Hc;
    (apply conv_sum_lin; unfold radiated; rewrite ?map_length;
      [rewrite !LL by auto; lia|rewrite !LL by auto; lia|]; intros i Hi;
      rewrite !LL in Hi by auto;
      rewrite !(nth_map_in _ _ _ _ 0) by (rewrite LL by auto; lia); rewrite HC by auto; unfold Rdiv; ring).
Qed.

Lemma binauralize_rate h ls fs ori hr : h_fs hr <> fs -> binauralize h ls fs ori hr = Err AssertionError.
Proof. intros H. unfold binauralize. destruct (Z.eqb_spec (h_fs hr) fs); [contradiction|reflexivity]. Qed.
Lemma binauralize_count h ls fs ori hr : h_fs hr = fs -> length (rows ls) <> length (h_points h) ->
  binauralize h ls fs ori hr = Err AssertionError.
Proof.
  intros H H2. unfold binauralize. rewrite H, Z.eqb_refl. cbn [assert_ bind].
  destruct (Nat.eqb_spec (length (rows ls)) (length (h_points h))); [contradiction|reflexivity].
Qed.

(** ** C57 *)
Lemma rows_of_entry m n (d : list R) k i : (k < m)%nat -> (i < n)%nat -> nth i (nth k (rows_of m n d) []) 0 = nth (k * n + i) d 0.
Proof.
  intros Hk Hi. destruct (rows_of_nth m n d k i Hk Hi) as (r & E & F).
  rewrite (nth_error_nth _ _ [] E). destruct (nth_error r i) as [x|] eqn:Ex.
  - rewrite (nth_error_nth _ _ 0 Ex). symmetry in F. rewrite (nth_error_nth _ _ 0 F). reflexivity.
  - symmetry in F. rewrite !nth_overflow; [reflexivity|now apply nth_error_None|now apply nth_error_None].
Qed.
Lemma nth_firstn_lt {A} (l : list A) m i d : (i < m)%nat -> nth i (firstn m l) d = nth i l d.
Proof. revert m i; induction l as [|x l IH]; intros [|m] [|i] H; cbn; try lia; auto. apply IH; lia. Qed.
Lemma nth_skipn_add {A} (l : list A) m i d : nth i (skipn m l) d = nth (m + i) l d.
Proof. revert l; induction m as [|m IH]; intros [|x l]; cbn; auto; destruct i; reflexivity. Qed.

Lemma oaconvolve_ok K n T ds dh : (1 <= K)%nat -> (1 <= n)%nat -> (1 <= T)%nat -> length ds = (K * n)%nat -> length dh = (K * T)%nat ->
  exists o, oaconvolve_sum K n (rows_of K n ds) (Nd [K; T] dh) = Ok o /\ length o = (n + T - 1)%nat /\
    forall m, (m < n + T - 1)%nat -> nth m o 0 =
      rsum K (fun k => rsum n (fun i => rsum T (fun j => if (i + j =? m)%nat then nth (k * n + i) ds 0 * nth (k * T + j) dh 0 else 0))).
Proof.
  intros HK Hn HT Ls Lh. unfold oaconvolve_sum. cbn [shape data].
  replace (K * n =? 0)%nat with false by (symmetry; apply Nat.eqb_neq; nia).
  replace (K * T =? 0)%nat with false by (symmetry; apply Nat.eqb_neq; nia). cbn [orb].
  eexists. split; [reflexivity|]. split; [rewrite map_length, seq_length; reflexivity|].
  intros m Hm. rewrite nth_map_seq by exact Hm.
  assert (RL : length (rows_of K n ds) = K) by apply rows_of_length.
  assert (RL2 : length (rows_of K T dh) = K) by apply rows_of_length.
  rewrite lsum_nth, !map_length, combine_length, RL, RL2, Nat.min_id. apply rsum_ext. intros k Hk.
  rewrite (nth_map_in _ _ _ _ []) by (rewrite map_length, combine_length, RL, RL2; lia).
  rewrite (nth_map_in _ _ _ _ ([], [])) by (rewrite combine_length, RL, RL2; lia).
  rewrite combine_nth by lia. cbn [fst snd]. rewrite nth_convolve. unfold conv_sum.
  pose proof (rows_of_wf K n ds Ls) as W1. pose proof (rows_of_wf K T dh Lh) as W2. rewrite Forall_forall in W1, W2.
  rewrite (W1 (nth k (rows_of K n ds) [])) by (apply nth_In; lia).
  rewrite (W2 (nth k (rows_of K T dh) [])) by (apply nth_In; lia).
  apply rsum_ext. intros i Hi. apply rsum_ext. intros j Hj. rewrite !rows_of_entry by auto. reflexivity.
Qed.

Lemma sh2bin_final K n T ds c dh : (2 <= K)%nat -> (1 <= n)%nat -> (2 <= T)%nat -> (2 <= c)%nat ->
  length ds = (K * n)%nat -> length dh = (c * K * T)%nat ->
  exists l r, sh2bin (Nd [K; n] ds) (Nd [c; K; T] dh) = Ok (l, r) /\ length l = (n + T - 1)%nat /\ length r = (n + T - 1)%nat /\
    forall m, (m < n + T - 1)%nat ->
      nth m l 0 = rsum K (fun k => rsum n (fun i => rsum T (fun j => if (i + j =? m)%nat then entry2 n ds k i * entry3 K T dh 0 k j else 0))) /\
      nth m r 0 = rsum K (fun k => rsum n (fun i => rsum T (fun j => if (i + j =? m)%nat then entry2 n ds k i * entry3 K T dh 1 k j else 0))).
Proof.
  intros HK Hn HT Hc Ls Lh. unfold sh2bin. cbn [shape data]. rewrite Nat.eqb_refl. cbn [assert_ bind].
  unfold plane. cbn [shape data].
  replace (Nat.ltb 0 c) with true by (symmetry; apply Nat.ltb_lt; lia).
  replace (Nat.ltb 1 c) with true by (symmetry; apply Nat.ltb_lt; lia). cbn [bind].
  assert (SQ : forall d : list R, squeeze (Nd [K; T] d) = Nd [K; T] d).
  { intros d. unfold squeeze. cbn [shape data filter].
    replace (Nat.eqb K 1) with false by (symmetry; apply Nat.eqb_neq; lia).
    replace (Nat.eqb T 1) with false by (symmetry; apply Nat.eqb_neq; lia). reflexivity. }
  rewrite !SQ.
  assert (PL : forall e, (e < 2)%nat -> length (firstn (K * T) (skipn (e * (K * T)) dh)) = (K * T)%nat).
  { intros e He. rewrite firstn_length, skipn_length, Lh. nia. }
  destruct (oaconvolve_ok K n T ds (firstn (K * T) (skipn (0 * (K * T)) dh))) as (l & E1 & L1 & A1); try lia; [apply PL; lia|].
  destruct (oaconvolve_ok K n T ds (firstn (K * T) (skipn (1 * (K * T)) dh))) as (r & E2 & L2 & A2); try lia; [apply PL; lia|].
  rewrite E1. cbn [bind]. rewrite E2. cbn [bind]. exists l, r. split; [reflexivity|]. split; [exact L1|]. split; [exact L2|].
  assert (EN : forall e k j, (e < 2)%nat -> (k < K)%nat -> (j < T)%nat ->
     nth (k * T + j) (firstn (K * T) (skipn (e * (K * T)) dh)) 0 = entry3 K T dh e k j).
  { intros e k j He Hk Hj. rewrite nth_firstn_lt by nia. rewrite nth_skipn_add. unfold entry3. f_equal. ring. }
  intros m Hm. rewrite A1, A2 by exact Hm.
  split; apply rsum_ext; intros k Hk; apply rsum_ext; intros i Hi; apply rsum_ext; intros j Hj; rewrite EN by auto; reflexivity.
Qed.

Lemma sh2bin_squeeze K n T ds c dh : (1 <= c)%nat -> (K = 1 \/ T = 1)%nat -> sh2bin (Nd [K; n] ds) (Nd [c; K; T] dh) = Err ValueError.
Proof.
  intros Hc H. unfold sh2bin. cbn [shape data]. rewrite Nat.eqb_refl. cbn [assert_ bind]. unfold plane. cbn [shape data].
  replace (Nat.ltb 0 c) with true by (symmetry; apply Nat.ltb_lt; lia). cbn [bind].
  unfold oaconvolve_sum, squeeze. cbn [shape data filter].
  destruct H as [-> | ->]; cbn [Nat.eqb negb]; [destruct (Nat.eqb T 1)|destruct (Nat.eqb K 1)]; reflexivity.
Qed.
Lemma sh2bin_asserts sg hr : length (shape sg) <> 2%nat \/ length (shape hr) <> 3%nat \/
    (exists K n c k t, shape sg = [K; n] /\ shape hr = [c; k; t] /\ K <> k) ->
  sh2bin sg hr = Err AssertionError.
Proof.
  intros H. unfold sh2bin. destruct (shape sg) as [|K [|n [|x y]]] eqn:E1; try reflexivity.
  destruct (shape hr) as [|c [|k [|t [|x y]]]] eqn:E2; try reflexivity.
  destruct H as [H|[H|(K' & n' & c' & k' & t' & A & B & C)]]; [cbn in H; lia|cbn in H; lia|].
  injection A as <- <-. injection B as <- <- <-. apply Nat.eqb_neq in C. rewrite C. reflexivity.
Qed.
Lemma sh2bin_linear K n T c dh d1 d2 d3 u v l1 r1 l2 r2 l3 r3 : (2 <= K)%nat -> (1 <= n)%nat -> (2 <= T)%nat -> (2 <= c)%nat ->
  length d1 = (K * n)%nat -> length d2 = (K * n)%nat -> length d3 = (K * n)%nat -> length dh = (c * K * T)%nat ->
  (forall i, nth i d3 0 = u * nth i d1 0 + v * nth i d2 0) ->
  sh2bin (Nd [K; n] d1) (Nd [c; K; T] dh) = Ok (l1, r1) -> sh2bin (Nd [K; n] d2) (Nd [c; K; T] dh) = Ok (l2, r2) ->
  sh2bin (Nd [K; n] d3) (Nd [c; K; T] dh) = Ok (l3, r3) ->
  forall m, nth m l3 0 = u * nth m l1 0 + v * nth m l2 0 /\ nth m r3 0 = u * nth m r1 0 + v * nth m r2 0.
Proof.
  intros HK Hn HT Hc L1 L2 L3 Lh HC E1 E2 E3 m.
  destruct (sh2bin_final K n T d1 c dh HK Hn HT Hc L1 Lh) as (l & r & F & A1 & A2 & A). rewrite E1 in F. injection F as <- <-.
  destruct (sh2bin_final K n T d2 c dh HK Hn HT Hc L2 Lh) as (l & r & F & B1 & B2 & B). rewrite E2 in F. injection F as <- <-.
  destruct (sh2bin_final K n T d3 c dh HK Hn HT Hc L3 Lh) as (l & r & F & C1 & C2 & C). rewrite E3 in F. injection F as <- <-.
  destruct (Nat.lt_ge_cases m (n + T - 1)) as [Hm|Hm].
  - destruct (A m Hm) as [P1 P2], (B m Hm) as [Q1 Q2], (C m Hm) as [S1 S2]. rewrite P1, P2, Q1, Q2, S1, S2.
    split; rewrite <- !rsum_scal, <- rsum_plus; apply rsum_ext; intros k Hk;
      rewrite <- !rsum_scal, <- rsum_plus; apply rsum_ext; intros i Hi;
      rewrite <- !rsum_scal, <- rsum_plus; apply rsum_ext; intros j Hj;
      (destruct (i + j =? m)%nat; [|ring]); unfold entry2; rewrite HC; ring.
  - rewrite !nth_overflow by lia. split; ring.
Qed.

(** ** examples *)
Definition two_hull : hull := hull_of_points (fun _ => []) [(1, 0, 0); (0, 2, 0)].
Definition two_hrirs : hrirs := Hrirs [[1; 1 / 2]; [0; 1]] [[1 / 2; 0]; [1; 0]] [0; PI / 2] [PI / 2; PI / 2] 48000 2 2.
Definition two_sigs : arr2 R := Arr2 [[1; 0; -1]; [0; 0; 0]] 3.
Lemma two_set : hrir_set two_hrirs 2.
Proof. repeat split; try (cbn; lia); try discriminate; repeat constructor. Qed.
Lemma two_apart p : In p (h_points two_hull) -> p <> h_listener two_hull.
Proof. cbn. intros [<-|[<-|[]]]; injection; lra. Qed.
Lemma superposition_example : exists az ze di hl hh (loud : nat -> bool),
  hrir_set two_hrirs 2 /\ rendered_from two_hull (1, 0) two_hrirs az ze di hl hh /\
  h_fs two_hrirs = 48000%Z /\ length (rows two_sigs) = length (h_points two_hull) /\ rect two_sigs /\
  (forall c, (c < length (h_points two_hull))%nat -> loud c = true <-> heard (radiated two_sigs (h_a two_hull) di c)) /\
  loud 0%nat = true /\ loud 1%nat = false /\
  (forall c, (c < length (h_points two_hull))%nat ->
     heard (radiated two_sigs (h_a two_hull) di c) \/ forall x, In x (nth c (rows two_sigs) []) -> x = 0).
Proof.
  destruct (directions_exist two_hull (1, 0) two_hrirs 2 two_set two_apart) as (az & ze & di & hl & hh & H).
  exists az, ze, di, hl, hh, (fun c => Nat.eqb c 0). split; [apply two_set|]. split; [exact H|].
  split; [reflexivity|]. split; [reflexivity|]. split; [repeat constructor|].
  assert (H0 : heard (radiated two_sigs (h_a two_hull) di 0)).
  { destruct (H 0%nat) as (_ & Hd & _ & _ & E & _); [cbn; lia|]. cbv zeta in E.
    assert (Ed : di 0%nat = 1).
    { apply (f_equal snd) in E. cbn [snd] in E. rewrite <- E. unfold cart2sph. cbn.
      replace (_ + _) with (1 * 1) by ring. apply sqrt_square. lra. }
    exists (1 / Rpower (di 0%nat) (h_a two_hull)). split; [left; reflexivity|].
    rewrite Ed. change (h_a two_hull) with 1. rewrite Rpower_1 by lra. rewrite Rabs_pos_eq; lra. }
  assert (H1 : forall x, In x (nth 1 (rows two_sigs) []) -> x = 0) by (cbn; intros x [<-|[<-|[<-|[]]]]; reflexivity).
  split.
  { intros c Hc. cbn in Hc. destruct c as [|[|c]]; [|split; [discriminate|]|lia].
    - split; auto.
    - intros (v & Hv & Ha). unfold radiated in Hv. apply in_map_iff in Hv. destruct Hv as (x & <- & Hx). rewrite (H1 x Hx) in Ha.
      unfold Rdiv at 2 in Ha. rewrite Rmult_0_l, Rabs_R0 in Ha. lra. }
  split; [reflexivity|]. split; [reflexivity|].
  intros c Hc. cbn in Hc. destruct c as [|[|c]]; [left; exact H0|right; exact H1|lia].
Qed.

Lemma sh2bin_example : exists ds dh : list R, (2 <= 4)%nat /\ (1 <= 3)%nat /\ (2 <= 2)%nat /\ length ds = (4 * 3)%nat /\ length dh = (2 * 4 * 2)%nat /\
  entry2 3 ds 0 0 = 1 /\ entry3 4 2 dh 1 0 1 = 2.
Proof.
  exists [1; 0; 0; 0; 1; 0; 0; 0; 1; 1; 1; 1], [1; 0; 0; 1; 1; 0; 0; 1; 1; 2; 0; 1; 1; 0; 0; 1].
  repeat split; try (cbn; lia).
Qed.
