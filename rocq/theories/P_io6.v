(** Layout files: what is written and what is read. *)
From Coq Require Import String.
From Verif Require Import Base BaseFacts M_utils S_utils M_sig M_process S_process M_grids M_decoder M_decoder2 M_io S_io P_sig P_utils P_proc4 P_sph13 P_dec6 P_dec10 P_parsa3 P_io5.
Open Scope R_scope.

Definition no_entry : entry := Entry None None None None None None.
Lemma marked_imaginary h i : marked h i = true <-> imaginary h i.
Proof.
  unfold marked, imaginary. destruct (h_imag h) as [l|].
  - rewrite existsb_exists. split.
    + intros (x & I & E). apply Nat.eqb_eq in E. subst x. eauto.
    + intros (l' & E & I). injection E as <-. exists i. split; [exact I|apply Nat.eqb_refl].
  - split; [discriminate|]. intros (l & E & _). discriminate.
Qed.
Lemma entry_ok l h i p : nth_error (h_points h) i = Some p -> p <> (0, 0, 0) ->
  (~ imaginary h i -> exists g, nth_error (lo_gains l) i = Some g) -> (lo_int l = false \/ imaginary h i) ->
  exists e, save_entry l h i = Ok (Some e) /\ describes h (lo_gains l) i p e.
Proof.
  intros E NZ G LI. unfold save_entry.
  match goal with |- context [nth i (h_points h) ?d] => replace (nth i (h_points h) d) with p by (symmetry; apply nth_error_nth; exact E) end.
  destruct (saved_angles p NZ) as (azi & zen & C & P & A & EL). rewrite C.
  assert (GG : exists g, (if marked h i then Ok (false, 0) else let* g := index (lo_gains l) (Z.of_nat i) in Ok (lo_int l, g)) = Ok (false, g) /\
     (marked h i = true -> g = 0) /\ (marked h i = false -> nth_error (lo_gains l) i = Some g)).
  { destruct (marked h i) eqn:M; [exists 0; split; [reflexivity|]; split; [reflexivity|discriminate]|]. assert (NI : ~ imaginary h i) by (intro Q; rewrite (proj2 (marked_imaginary h i) Q) in M; discriminate).
    destruct (G NI) as (g & Gg). exists g. split; [|split; [discriminate|auto]]. destruct LI as [LI|LI]; [|contradiction]. rewrite LI.
    assert (L : (i < length (lo_gains l))%nat) by (apply nth_error_Some; rewrite Gg; discriminate). rewrite (index_ok _ _ 0) by lia.
    rewrite (proj2 (Z.ltb_ge _ _)) by lia. rewrite Nat2Z.id, (nth_error_nth _ _ 0 Gg). reflexivity. }
  destruct GG as (g & -> & G1 & G2). cbn [bind]. eexists. split; [reflexivity|].
  exists (rad2deg azi), (90 - rad2deg zen), (round2 (rad2deg azi)), (round2 (90 - rad2deg zen)), (round2 (norm3 p)), (marked h i), g.
  split; [exact P|]. split; [exact A|]. split; [exact EL|]. do 3 (split; [apply round2_rounded|]). split; [reflexivity|]. split; [apply marked_imaginary|]. auto.
Qed.

(** ** save_layout *)
Lemma mapM_mapO {A B} (f : A -> res (option B)) l os bs : mapM f l = Ok os -> mapO (fun e => e) os = Some bs -> Forall2 (fun a b => f a = Ok (Some b)) l bs.
Proof.
  intros M O. apply mapM_inv in M. apply mapO_inv in O. revert bs O. induction M as [|a o l os E M IH]; intros bs O; inversion O; subst; constructor; auto.
Qed.
Lemma save_ok l h : s_ambi (lo_setup l) = Some h -> (forall p, In p (h_points h) -> p <> (0, 0, 0)) ->
  (forall i, (i < length (h_points h))%nat -> ~ imaginary h i -> (i < length (lo_gains l))%nat) ->
  (lo_int l = false \/ forall i, (i < length (h_points h))%nat -> imaginary h i) ->
  exists es, save_layout l = Ok (Some es) /\ Forall2 (fun i e => save_entry l h i = Ok (Some e)) (seq 0 (length (h_points h))) es.
Proof.
  intros A NZ G LI. unfold save_layout. rewrite A.
  assert (EN : forall i, In i (seq 0 (length (h_points h))) -> exists e, save_entry l h i = Ok (Some e)).
  { intros i Hi. apply in_seq in Hi. destruct (nth_error (h_points h) i) as [p|] eqn:E; [|apply nth_error_None in E; lia].
    destruct (entry_ok l h i p E) as (e & Q & _).
    - apply NZ. exact (nth_error_In _ _ E).
    - intro NI. destruct (nth_error (lo_gains l) i) as [g|] eqn:Q; [eauto|]. apply nth_error_None in Q. specialize (G i ltac:(lia) NI). lia.
    - destruct LI as [LI|LI]; [left; exact LI|right; apply LI; lia].
    - eauto. }
  assert (FL : forall ns, (forall i, In i ns -> exists e, save_entry l h i = Ok (Some e)) -> exists es, mapM (save_entry l h) ns = Ok (map Some es) /\ Forall2 (fun i e => save_entry l h i = Ok (Some e)) ns es).
  { induction ns as [|i ns IH]; intro H; [exists []; split; [reflexivity|constructor]|]. destruct (H i (or_introl eq_refl)) as (e & E). destruct IH as (es & M & F); [intros; apply H; right; assumption|].
    exists (e :: es). cbn [mapM map]. rewrite E. cbn [bind]. rewrite M. split; [reflexivity|]. constructor; assumption. }
  destruct (FL _ EN) as (es & M & F). rewrite M. cbn [bind].
  assert (NB : (lo_int l && negb (forallb (marked h) (seq 0 (length (h_points h)))))%bool = false).
  { destruct LI as [->|LI]; [reflexivity|]. rewrite (proj2 (forallb_forall _ _)); [apply Bool.andb_false_r|]. intros i Hi. apply in_seq in Hi. apply marked_imaginary, LI. lia. }
  rewrite NB. exists es. split; [|exact F]. f_equal. clear. induction es as [|e es IH]; [reflexivity|]. cbn [map mapO]. rewrite IH. reflexivity.
Qed.
Lemma save_inv l es : save_layout l = Ok (Some es) -> exists h, s_ambi (lo_setup l) = Some h /\
  Forall2 (fun i e => save_entry l h i = Ok (Some e)) (seq 0 (length (h_points h))) es /\
  (lo_int l = false \/ forall i, (i < length (h_points h))%nat -> imaginary h i).
Proof.
  unfold save_layout. destruct (s_ambi (lo_setup l)) as [h|]; [|discriminate]. destruct (mapM _ _) as [os|] eqn:M; [|discriminate]. cbn [bind].
  destruct (lo_int l && negb (forallb (marked h) (seq 0 (length (h_points h)))))%bool eqn:NB; [discriminate|]. intro E. injection E as E.
  exists h. split; [reflexivity|]. split; [exact (mapM_mapO _ _ _ _ M E)|]. destruct (lo_int l); [right|left; reflexivity]. cbn [andb] in NB. apply Bool.negb_false_iff in NB.
  intros i Hi. apply marked_imaginary. apply (proj1 (forallb_forall _ _) NB). apply in_seq. lia.
Qed.
Lemma seq_forall2 {B} (P : nat -> B -> Prop) : forall k s bs, Forall2 P (seq s k) bs -> length bs = k /\ forall i d, (i < k)%nat -> P (s + i)%nat (nth i bs d).
Proof.
  induction k as [|k IH]; intros s bs F; cbn [seq] in F; inversion F; subst; [split; [reflexivity|intros; lia]|].
  destruct (IH _ _ H3) as [L N]. split; [cbn; lia|]. intros i d Hi. destruct i as [|i]; [rewrite Nat.add_0_r; assumption|]. cbn [nth]. replace (s + S i)%nat with (S s + i)%nat by lia. apply N. lia.
Qed.
Lemma entry_inv l h i e : save_entry l h i = Ok (Some e) -> (i < length (h_points h))%nat -> (lo_int l = false \/ imaginary h i) ->
  exists p, nth_error (h_points h) i = Some p /\ p <> (0, 0, 0) /\ describes h (lo_gains l) i p e.
Proof.
  intros E Hi LI. destruct (nth_error (h_points h) i) as [p|] eqn:P; [|apply nth_error_None in P; lia]. exists p. split; [reflexivity|].
  assert (NZ : p <> (0, 0, 0)).
  { intros ->. unfold save_entry in E. match type of E with context [nth i (h_points h) ?d] => replace (nth i (h_points h) d) with ((0, 0, 0) : V3) in E by (symmetry; apply nth_error_nth; exact P) end.
    destruct (cart2sph _ _ _ false false) as [[azi zen] r] eqn:C. assert (zen = None) as ->.
    { unfold cart2sph in C. apply (f_equal (fun q => snd (fst q))) in C. cbn [fst snd negb vx vy vz] in C. rewrite <- C. replace (0 ^ 2 + 0 ^ 2 + 0 ^ 2) with 0 by ring. rewrite sqrt_0.
      unfold np_div. rewrite (proj2 (Reqb_true 0 0) eq_refl). reflexivity. }
    match type of E with bind ?x _ = _ => destruct x; discriminate end. }
  split; [exact NZ|]. destruct (entry_ok l h i p P NZ) as (e' & E' & D); [|exact LI|].
  - intro NI. unfold save_entry in E. destruct (cart2sph _ _ _ false false) as [[azi zen] r]. destruct (marked h i) eqn:M; [apply marked_imaginary in M; contradiction|].
    destruct (nth_error (lo_gains l) i) as [g|] eqn:Q; [eauto|]. apply nth_error_None in Q. rewrite index_err in E by lia. discriminate.
  - rewrite E in E'. injection E' as <-. exact D.
Qed.
Lemma saved l h es : s_ambi (lo_setup l) = Some h -> save_layout l = Ok (Some es) -> length es = length (h_points h) /\
  forall i p e, nth_error (h_points h) i = Some p -> nth_error es i = Some e -> describes h (lo_gains l) i p e.
Proof.
  intros A S. destruct (save_inv l es S) as (h' & A' & F & LI). rewrite A in A'. injection A' as <-. destruct (seq_forall2 _ _ _ _ F) as [L N]. split; [exact L|].
  intros i p e P Ee. assert (Hi : (i < length (h_points h))%nat) by (apply nth_error_Some; congruence). specialize (N i e Hi). rewrite (nth_error_nth _ _ e Ee) in N.
  destruct (entry_inv l h i e N Hi) as (p' & P' & _ & D); [destruct LI as [LI|LI]; auto|]. congruence.
Qed.

(** ** load_layout *)
Lemma masked_chosen {A} (flags : list bool) (l : list A) : masked flags l = chosen true flags l /\ masked (map negb flags) l = chosen false flags l.
Proof.
  unfold masked, chosen. revert l. induction flags as [|b flags IH]; intros [|a l]; auto. cbn [combine map filter fst]. destruct (IH l) as [I1 I2]. destruct b; cbn [negb Bool.eqb map snd]; rewrite <- ?I1, <- ?I2; auto.
Qed.
Lemma mapM_keys {A} (f : entry -> option A) file l : mapM (fun e => key (f e)) file = Ok l -> Forall2 (fun e x => f e = Some x) file l.
Proof. intro M. apply mapM_inv in M. induction M as [|e x file l E M IH]; constructor; auto. unfold key in E. destruct (f e); congruence. Qed.
Lemma keys_positions file azi ele rad : Forall2 (fun e x => j_azi e = Some x) file azi -> Forall2 (fun e x => j_ele e = Some x) file ele -> Forall2 (fun e x => j_rad e = Some x) file rad ->
  Forall2 at_position file (map ls_position (combine (map snd azi) (combine (map snd ele) (map snd rad)))).
Proof.
  intros A. revert ele rad. induction A as [|e a file azi E A IH]; intros ele rad B C; inversion B; subst; inversion C; subst; constructor.
  - cbn [fst snd]. rewrite position_place. exists a, y, y0. auto.
  - apply IH; assumption.
Qed.
Lemma mapO_none {A B} (f : A -> option B) l : mapO f l = None -> exists a, In a l /\ f a = None.
Proof. induction l as [|a l IH]; cbn; [discriminate|]. destruct (f a) eqn:E; [|eauto]. destruct (mapO f l); [discriminate|]. intros _. destruct IH as (x & I & X); eauto. Qed.
Lemma loaded chull lstsq3 nd file lp Nk l : load_layout chull lstsq3 nd file lp (Some Nk) = Ok l ->
  exists pos flags gains h, Forall2 at_position file pos /\ flags_of file flags /\ gains_of file gains /\ lo_gains l = gains /\
    h_points (s_hull (lo_setup l)) = map (fun p => sub3 p (match lp with Some o => o | None => (0, 0, 0) end)) (chosen false flags pos) /\
    s_ambi (lo_setup l) = Some h /\ h_points h = h_points (s_hull (lo_setup l)) ++ chosen true flags pos /\
    h_imag h = Some (seq (length (chosen false flags pos)) (length (chosen true flags pos))) /\
    (exists n, s_order (lo_setup l) = Some n) /\ (exists kp, s_kernel (lo_setup l) = Some (kp, Nk)).
Proof.
  unfold load_layout. destruct (mapM (fun e => key (j_azi e)) file) as [azi|] eqn:MA; [|discriminate]. cbn [bind]. destruct (mapM (fun e => key (j_ele e)) file) as [ele|] eqn:ME; [|discriminate]. cbn [bind].
  destruct (mapM (fun e => key (j_rad e)) file) as [rad|] eqn:MR; [|discriminate]. cbn [bind].
  set (gains := match mapO j_gain file with Some g => np_array g | None => (fst (np_array azi), map (fun _ => 1) azi) end).
  set (imag := match mapO j_imag file with Some l => l | None => map (fun _ => false) azi end).
  intro LOAD. assert (NE : file <> []) by (intro Z0; rewrite Z0 in LOAD; discriminate LOAD).
  match type of LOAD with match _ with [] => _ | _ :: _ => ?X end = _ => assert (LD : X = Ok l) by (destruct file; [congruence|exact LOAD]) end. clear LOAD. revert LD.
  apply mapM_keys in MA. apply mapM_keys in ME. apply mapM_keys in MR. pose proof (keys_positions file azi ele rad MA ME MR) as KP.
  set (pos := map ls_position _) in *. destruct (masked_chosen imag pos) as [MC1 MC2]. rewrite MC1, MC2.
  destruct (ambisonics_setup _ _ _ _ _ _ _ _) as [r s'] eqn:AS. destruct r as [[]|]; [|discriminate]. cbn [bind]. intro Q. injection Q as <-.
  destruct (setup_ok _ _ _ _ _ _ _ _ _ AS) as (SH & kp & SK & _ & (n & SO & _) & h & added & SA & HP & _ & _ & RL & AD). cbn [s_hull] in *. subst added.
  exists pos, imag, (snd gains), h. cbn [lo_setup lo_gains lo_int]. rewrite SH.
  assert (MAP : forall (v : R), map (fun _ : num => v) azi = map (fun _ : entry => v) file) by (intro v; clear - MA; induction MA; [reflexivity|]; cbn [map]; rewrite IHMA; reflexivity).
  assert (MAPB : forall (v : bool), map (fun _ : num => v) azi = map (fun _ : entry => v) file) by (intro v; clear - MA; induction MA; [reflexivity|]; cbn [map]; rewrite IHMA; reflexivity).
  split; [exact KP|]. split; [|split; [|split; [reflexivity|split; [reflexivity|split; [exact SA|split; [exact HP|split; [|split; [eauto|eauto]]]]]]]].
  - unfold imag. destruct (mapO j_imag file) as [bs|] eqn:MO; [left; apply mapO_inv; exact MO|right]. split; [apply mapO_none; exact MO|apply MAPB].
  - unfold gains. destruct (mapO j_gain file) as [g|] eqn:MO; [left|right; split; [apply mapO_none; exact MO|apply MAP]].
    apply mapO_inv in MO. unfold np_array. cbn [snd]. clear - MO. induction MO as [|e [k x] file g E MO IH]; constructor; [exists k; exact E|exact IH].
  - clear - AS SA. unfold ambisonics_setup in AS. destruct (get_characteristic_order _ _) as [n|]; [|discriminate]. cbv zeta in AS.
    destruct (load_n_design _ _) as [kp|]; [|discriminate]. injection AS as <-. cbn [s_ambi] in SA. injection SA as <-. cbn [h_imag set_imag s_hull setup_init hull_of_points h_points]. rewrite map_length. reflexivity.
Qed.
Lemma np_array_int (g : list num) : g <> [] -> (fst (np_array g) = true <-> forall x, In x g -> fst x = true).
Proof. intros Hg. unfold np_array. destruct g; [congruence|]. cbn [fst]. apply forallb_forall. Qed.
Lemma all_keys {A} (f : entry -> option A) file l (P : A -> Prop) : Forall2 (fun e x => f e = Some x) file l ->
  (forall x, In x l -> P x) <-> forall e x, In e file -> f e = Some x -> P x.
Proof.
  intro F. split.
  - intros H e x He Ex. apply H. clear H. induction F; [destruct He|]. destruct He as [<-|He]; [left; congruence|right; auto].
  - intros H x Hx. induction F; [destruct Hx|]. destruct Hx as [<-|Hx]; [apply (H x0); [left; reflexivity|assumption]|]. apply IHF; auto. intros e z He. apply H. right. exact He.
Qed.
Lemma loaded_int chull lstsq3 nd file lp Nk l : load_layout chull lstsq3 nd file lp Nk = Ok l ->
  ((forall e, In e file -> j_gain e <> None) -> (lo_int l = true <-> forall e x, In e file -> j_gain e = Some x -> fst x = true)) /\
  ((exists e, In e file /\ j_gain e = None) -> (lo_int l = true <-> forall e x, In e file -> j_azi e = Some x -> fst x = true)).
Proof.
  unfold load_layout. destruct (mapM (fun e => key (j_azi e)) file) as [azi|] eqn:MA; [|discriminate]. cbn [bind]. destruct (mapM (fun e => key (j_ele e)) file) as [ele|]; [|discriminate]. cbn [bind].
  destruct (mapM (fun e => key (j_rad e)) file) as [rad|]; [|discriminate]. cbn [bind].
  intro LOAD. assert (NE : file <> []) by (intro Z0; rewrite Z0 in LOAD; discriminate LOAD).
  match type of LOAD with match _ with [] => _ | _ :: _ => ?X end = _ => assert (LD : X = Ok l) by (destruct file; [congruence|exact LOAD]) end. clear LOAD. revert LD.
  destruct (ambisonics_setup _ _ _ _ _ _ _ _) as [r s']. destruct r as [u|]; [|discriminate]. cbn [bind]. intro Q. injection Q as <-. cbn [lo_int]. clear - MA NE.
  apply mapM_keys in MA. destruct (mapO j_gain file) as [g|] eqn:MO.
  - apply mapO_inv in MO. split.
    + intros _. rewrite np_array_int by (intros ->; inversion MO; congruence). apply all_keys. exact MO.
    + intros (e & He & Ne). exfalso. clear - MO He Ne. induction MO; [destruct He|]. destruct He as [<-|He]; [congruence|auto].
  - apply mapO_none in MO. split; [intro H; destruct MO as (e & He & Ne); exfalso; exact (H e He Ne)|]. intros _.
    apply (iff_trans (np_array_int azi ltac:(intros ->; inversion MA; congruence))). apply all_keys. exact MA.
Qed.
