(** Final forms and examples for layout files, part 2. *)
From Coq Require Import String.
From Verif Require Import Base BaseFacts M_utils M_sph0 M_sig M_process M_sph M_grids M_decoder M_decoder2 M_io
  S_utils S_sph S_grids S_process S_decoder S_decoder2 S_io P_utils P_sig P_sph13 X_sph P_dec1 P_dec2 P_dec3 P_dec4 P_dec5 X_dec1 P_dec6 P_dec10 X_dec2 P_parsa3 P_io5 P_io6 P_io7 X_io4.
Open Scope R_scope.

(** * Final forms *)
Lemma f_saves l h : s_ambi (lo_setup l) = Some h -> (forall p, In p (h_points h) -> p <> (0, 0, 0)) ->
  (forall i, (i < length (h_points h))%nat -> ~ imaginary h i -> (i < length (lo_gains l))%nat) ->
  (lo_int l = false \/ forall i, (i < length (h_points h))%nat -> imaginary h i) ->
  exists es, save_layout l = Ok (Some es).
Proof. intros A NZ G LI. destruct (save_ok l h A NZ G LI) as (es & E & _). exists es. exact E. Qed.
Lemma f_saved l h es : s_ambi (lo_setup l) = Some h -> save_layout l = Ok (Some es) -> length es = length (h_points h) /\
  forall i p e, nth_error (h_points h) i = Some p -> nth_error es i = Some e -> describes h (lo_gains l) i p e.
Proof. apply saved. Qed.
Lemma f_no_hull l : s_ambi (lo_setup l) = None -> save_layout l = Err ValueError.
Proof. intro A. unfold save_layout. rewrite A. reflexivity. Qed.
Lemma entry_some l h i : (~ imaginary h i -> (i < length (lo_gains l))%nat) -> exists o, save_entry l h i = Ok o.
Proof.
  intro G. unfold save_entry. destruct (cart2sph _ _ _ false false) as [[azi zen] r]. destruct (marked h i) eqn:M; cbn [bind]; [eexists; reflexivity|].
  assert (NI : ~ imaginary h i) by (intro Q; apply marked_imaginary in Q; congruence). specialize (G NI). rewrite (index_ok _ _ 0) by lia. cbn [bind]. eexists. reflexivity.
Qed.
Lemma mapM_some {A B} (f : A -> res B) l : (forall a, In a l -> exists b, f a = Ok b) -> exists bs, mapM f l = Ok bs.
Proof.
  induction l as [|a l IH]; intro H; [eexists; reflexivity|]. destruct (H a (or_introl eq_refl)) as (b & E). destruct IH as (bs & Eb); [intros x Hx; apply H; right; exact Hx|].
  exists (b :: bs). cbn [mapM]. rewrite E. cbn [bind]. rewrite Eb. reflexivity.
Qed.
Lemma mapM_first_err {A B} (f : A -> res B) x l : (forall a e, In a l -> f a = Err e -> e = x) -> (exists a, In a l /\ f a = Err x) -> mapM f l = Err x.
Proof.
  induction l as [|a l IH]; intros H (b & Hb & E); [destruct Hb|]. cbn [mapM]. destruct (f a) as [y|e] eqn:Ea; [|cbn [bind]; f_equal; apply (H a e); [left; reflexivity|exact Ea]].
  destruct Hb as [<-|Hb]; [congruence|]. cbn [bind]. rewrite IH; [reflexivity| |exists b; auto]. intros c e Hc. apply H. right. exact Hc.
Qed.
Lemma f_int l h : s_ambi (lo_setup l) = Some h -> lo_int l = true ->
  (forall i, (i < length (h_points h))%nat -> ~ imaginary h i -> (i < length (lo_gains l))%nat) ->
  (exists i, (i < length (h_points h))%nat /\ ~ imaginary h i) -> save_layout l = Err TypeError.
Proof.
  intros A LI G (i & Hi & NI). unfold save_layout. rewrite A, LI. destruct (mapM_some (save_entry l h) (seq 0 (length (h_points h)))) as (es & ->).
  { intros j Hj. apply in_seq in Hj. apply entry_some. apply G. lia. }
  cbn [bind andb]. destruct (forallb (marked h) (seq 0 (length (h_points h)))) eqn:F; [|reflexivity]. exfalso. apply NI, marked_imaginary.
  rewrite forallb_forall in F. apply F. apply in_seq. lia.
Qed.
Lemma f_short l h : s_ambi (lo_setup l) = Some h -> (exists i, (length (lo_gains l) <= i < length (h_points h))%nat /\ ~ imaginary h i) -> save_layout l = Err IndexError.
Proof.
  intros A (i & Hi & NI). unfold save_layout. rewrite A. rewrite (mapM_first_err (save_entry l h) IndexError); [reflexivity| |].
  - intros j e Hj E. destruct (Nat.lt_ge_cases j (length (lo_gains l))) as [L|L].
    + destruct (entry_some l h j (fun _ => L)) as (o & Q). congruence.
    + unfold save_entry in E. destruct (cart2sph _ _ _ false false) as [[azi zen] r]. destruct (marked h j); [discriminate E|]. rewrite index_err in E by lia. cbn [bind] in E. congruence.
  - exists i. split; [apply in_seq; lia|]. unfold save_entry. destruct (cart2sph _ _ _ false false) as [[azi zen] r]. destruct (marked h i) eqn:M; [apply marked_imaginary in M; contradiction|].
    rewrite index_err by lia. reflexivity.
Qed.
Lemma f_loaded chull lstsq3 nd file lp Nk l : load_layout chull lstsq3 nd file lp (Some Nk) = Ok l ->
  exists pos flags h, Forall2 at_position file pos /\ flags_of file flags /\ gains_of file (lo_gains l) /\
    h_points (s_hull (lo_setup l)) = map (fun p => sub3 p (match lp with Some o => o | None => (0, 0, 0) end)) (chosen false flags pos) /\
    s_ambi (lo_setup l) = Some h /\ h_points h = h_points (s_hull (lo_setup l)) ++ chosen true flags pos /\
    h_imag h = Some (seq (length (chosen false flags pos)) (length (chosen true flags pos))) /\
    (exists n, s_order (lo_setup l) = Some n) /\ (exists kp, s_kernel (lo_setup l) = Some (kp, Nk)).
Proof.
  intro E. destruct (loaded _ _ _ _ _ _ _ E) as (pos & flags & gains & h & A1 & A2 & A3 & A4 & A5). subst gains. exists pos, flags, h. split; [exact A1|]. split; [exact A2|]. split; [exact A3|]. exact A5.
Qed.
Lemma f_ordered chull lstsq3 nd file Nk l n m : load_layout chull lstsq3 nd file None (Some Nk) = Ok l ->
  flags_of file (repeat false n ++ repeat true m) -> exists h, s_ambi (lo_setup l) = Some h /\ split_hull h n m /\ Forall2 at_position file (h_points h) /\ gains_of file (lo_gains l).
Proof.
  intros E FO. destruct (f_loaded _ _ _ _ _ _ _ E) as (pos & flags & h & A1 & A2 & A3 & A4 & A5 & A6 & A7 & _).
  assert (FE : flags = repeat false n ++ repeat true m).
  { destruct A2 as [A2|[(e & He & Ne) ->]], FO as [FO|[(e' & He' & Ne') FO]].
    - clear -A2 FO. revert FO. generalize (repeat false n ++ repeat true m). induction A2 as [|e b t u E F IH]; intros f FO; inversion FO; subst; [reflexivity|]. f_equal; [congruence|auto].
    - exfalso. destruct (In_nth_error _ _ He') as (i & Ei). destruct (forall2_nth _ _ _ _ _ A2 Ei) as (b & _ & Q). congruence.
    - exfalso. destruct (In_nth_error _ _ He) as (i & Ei). destruct (forall2_nth _ _ _ _ _ FO Ei) as (b & _ & Q). congruence.
    - symmetry. exact FO. }
  assert (LQ : length pos = (n + m)%nat).
  { rewrite <- (f2_length _ _ _ A1). destruct FO as [FO|[_ FO]]; [rewrite (f2_length _ _ _ FO)|rewrite <- (map_length (fun _ => false) file), <- FO]; rewrite app_length, !repeat_length; reflexivity. }
  rewrite FE in A4, A6, A7. destruct (chosen_split n m pos LQ) as [C1 C2]. rewrite C1, C2 in *.
  assert (MR : map (fun p : V3 => sub3 p (0, 0, 0)) (firstn n pos) = firstn n pos).
  { rewrite <- (map_id (firstn n pos)) at 2. apply map_ext. intro p. apply sub3_0. }
  rewrite MR in A4. rewrite A4, firstn_skipn in A6. exists h. split; [exact A5|]. split; [|split; [rewrite A6; exact A1|exact A3]].
  split; [rewrite A6; exact LQ|]. left. rewrite A7, firstn_length, skipn_length. f_equal. f_equal; lia.
Qed.
Lemma f_nothing chull lstsq3 nd lp Nk : load_layout chull lstsq3 nd [] lp Nk = Err TypeError.
Proof. reflexivity. Qed.
Lemma f_missing chull lstsq3 nd file lp Nk : (exists e, In e file /\ (j_azi e = None \/ j_ele e = None \/ j_rad e = None)) ->
  load_layout chull lstsq3 nd file lp Nk = Err KeyError.
Proof.
  intros (e & He & C). assert (KE : forall (f : entry -> option num), mapM (fun e => key (f e)) file = Err KeyError \/ (exists v, mapM (fun e => key (f e)) file = Ok v) /\ f e <> None).
  { intro f. destruct (mapM (fun e => key (f e)) file) as [v|x] eqn:Q.
    - right. split; [eauto|]. apply mapM_keys in Q. destruct (In_nth_error _ _ He) as (i & Ei). destruct (forall2_nth _ _ _ _ _ Q Ei) as (b & _ & Qb). congruence.
    - left. f_equal. clear -Q. induction file as [|a t IH]; [discriminate Q|]. cbn [mapM] in Q. destruct (f a); cbn [key bind] in Q; [|congruence]. destruct (mapM (fun e => key (f e)) t); [discriminate Q|]. cbn [bind] in Q. apply IH. exact Q. }
  unfold load_layout. destruct (KE j_azi) as [->|[(v1 & ->) N1]]; [reflexivity|]. cbn [bind]. destruct (KE j_ele) as [->|[(v2 & ->) N2]]; [reflexivity|]. cbn [bind]. destruct (KE j_rad) as [->|[(v3 & ->) N3]]; [reflexivity|].
  exfalso. destruct C as [C|[C|C]]; congruence.
Qed.

Lemma f_roundtrip l l' h n m Nk es chull lstsq3 nd : s_ambi (lo_setup l) = Some h -> split_hull h n m -> save_layout l = Ok (Some es) ->
  load_layout chull lstsq3 nd es None (Some Nk) = Ok l' ->
  exists h', s_ambi (lo_setup l') = Some h' /\ split_hull h' n m /\ h_points (s_hull (lo_setup l')) = firstn n (h_points h') /\
    (forall i p, nth_error (h_points h) i = Some p -> exists p', nth_error (h_points h') i = Some p' /\ dist3 p' p <= 1 / 200 + norm3 p * (PI / 18000)) /\
    length (lo_gains l') = (n + m)%nat /\
    (forall i, (i < n)%nat -> nth_error (lo_gains l') i = nth_error (lo_gains l) i) /\ (forall i, (n <= i < n + m)%nat -> nth_error (lo_gains l') i = Some 0) /\
    lo_int l' = false.
Proof. intros A SP S0 LD. eapply roundtrip; eassumption. Qed.
Lemma f_resave l l' h n m Nk es chull lstsq3 nd : s_ambi (lo_setup l) = Some h -> split_hull h n m -> save_layout l = Ok (Some es) ->
  load_layout chull lstsq3 nd es None (Some Nk) = Ok l' -> (forall e, In e es -> stable e) -> save_layout l' = Ok (Some es).
Proof. intros A SP S0 LD. eapply resave; eassumption. Qed.

(** * Examples *)
Definition speaker (i : Z) (q : R * R) (b : bool) (g : num) : entry :=
  Entry (Some (false, fst q)) (Some (false, snd q)) (Some (false, 1)) (Some b) (Some i) (Some g).
Definition six (g : list num) : list entry :=
  [speaker 1 (0, 0) false (nth 0 g (false, 0)); speaker 2 (180, 0) false (nth 1 g (false, 0)); speaker 3 (90, 0) false (nth 2 g (false, 0));
   speaker 4 (270, 0) false (nth 3 g (false, 0)); speaker 5 (0, 90) false (nth 4 g (false, 0)); speaker 6 (0, -90) false (nth 5 g (false, 0))].
Definition six_gains : list num := [(false, 1); (false, 2); (false, 3); (false, 4); (false, 5); (false, 6)].
(** six real loudspeakers and an imaginary one *)
Definition seven (a : R) : list entry := six six_gains ++ [speaker 7 (a, 45) true (false, 0)].
Lemma deg0 : 0 * (PI / 180) = 0. Proof. ring. Qed.
Lemma deg90 : 90 * (PI / 180) = PI / 2. Proof. field. Qed.
Lemma degm90 : -90 * (PI / 180) = - (PI / 2). Proof. field. Qed.
Lemma deg180 : 180 * (PI / 180) = PI. Proof. field. Qed.
Lemma deg270 : 270 * (PI / 180) = 3 * (PI / 2). Proof. field. Qed.
Lemma six_places : [place 0 0 1; place 180 0 1; place 90 0 1; place 270 0 1; place 0 90 1; place 0 (-90) 1] = octahedron.
Proof.
  unfold octahedron, place. rewrite deg0, deg90, deg180, deg270, degm90, cos_neg, sin_neg, cos_0, sin_0, cos_PI, sin_PI, cos_PI2, sin_PI2, cos_3PI2, sin_3PI2.
  repeat (apply f_equal2; [apply f_equal2; [apply f_equal2; ring|ring]|]). reflexivity.
Qed.
Lemma round2_int z : round2 (IZR z) = IZR z.
Proof. pose proof (round2_grid (z * 100)) as Q. rewrite mult_IZR in Q. replace (IZR z * 100 / 100) with (IZR z) in Q by field. exact Q. Qed.
Lemma six_load nd g : exists l, load_layout tri_chull adj_lstsq nd (six g) None (Some 50%nat) = Ok l.
Proof.
  apply (tri_loads nd (six g) (repeat false 6) [(false, 0); (false, 180); (false, 90); (false, 270); (false, 0); (false, 0)] [(false, 0); (false, 0); (false, 0); (false, 0); (false, 90); (false, -90)] (repeat (false, 1) 6)); try reflexivity; [discriminate|].
  cbn [map repeat negb snd combine]. unfold masked. cbn [combine filter fst map snd]. rewrite !position_place. apply six_places.
Qed.
Lemma seven_load nd a : exists l, load_layout tri_chull adj_lstsq nd (seven a) None (Some 50%nat) = Ok l.
Proof.
  apply (tri_loads nd (seven a) (repeat false 6 ++ [true]) [(false, 0); (false, 180); (false, 90); (false, 270); (false, 0); (false, 0); (false, a)] [(false, 0); (false, 0); (false, 0); (false, 0); (false, 90); (false, -90); (false, 45)] (repeat (false, 1) 7)); try reflexivity; [discriminate|].
  cbn [map repeat app negb snd combine]. unfold masked. cbn [combine filter fst map snd]. rewrite !position_place. apply six_places.
Qed.
(** the imaginary loudspeaker comes first *)
Lemma ghost_load nd : exists l, load_layout tri_chull adj_lstsq nd (speaker 7 (0, 45) true (false, 0) :: six six_gains) None (Some 50%nat) = Ok l.
Proof.
  apply (tri_loads nd _ (true :: repeat false 6) [(false, 0); (false, 0); (false, 180); (false, 90); (false, 270); (false, 0); (false, 0)] [(false, 45); (false, 0); (false, 0); (false, 0); (false, 0); (false, 90); (false, -90)] (repeat (false, 1) 7)); try reflexivity; [discriminate|].
  cbn [map repeat app negb snd combine]. unfold masked. cbn [combine filter fst map snd]. rewrite !position_place. apply six_places.
Qed.
Definition posof (e : entry) : V3 :=
  match j_azi e, j_ele e, j_rad e with Some a, Some el, Some r => place (snd a) (snd el) (snd r) | _, _, _ => (0, 0, 0) end.
Lemma at_posof file pos : Forall2 at_position file pos -> pos = map posof file.
Proof. induction 1 as [|e p t u (a & el & r & A & E & R0 & P) F IH]; [reflexivity|]. cbn [map]. unfold posof at 1. rewrite A, E, R0, <- P, <- IH. reflexivity. Qed.
Lemma flags_are file f flags : mapO j_imag file = Some f -> flags_of file flags -> flags = f.
Proof.
  intros M G. apply mapO_inv in M. destruct G as [G|[(e & He & Ne) _]].
  - revert f M. induction G as [|e x t u K F IH]; intros f M; inversion M; subst; [reflexivity|]. f_equal; [congruence|apply IH; assumption].
  - exfalso. destruct (In_nth_error _ _ He) as (i & Ei). destruct (forall2_nth _ _ _ _ _ M Ei) as (b & _ & Q). congruence.
Qed.
Lemma gains_are file g gains : mapO j_gain file = Some g -> gains_of file gains -> gains = map snd g.
Proof.
  intros M G. apply mapO_inv in M. destruct G as [G|[(e & He & Ne) _]].
  - revert g M. induction G as [|e x t u (k & K) F IH]; intros g M; inversion M; subst; [reflexivity|]. cbn [map]. f_equal; [|apply IH; assumption]. rewrite K in H1. injection H1 as <-. reflexivity.
  - exfalso. destruct (In_nth_error _ _ He) as (i & Ei). destruct (forall2_nth _ _ _ _ _ M Ei) as (b & _ & Q). congruence.
Qed.
Lemma seven_loaded nd a l : load_layout tri_chull adj_lstsq nd (seven a) None (Some 50%nat) = Ok l ->
  lo_int l = false /\ lo_gains l = [1; 2; 3; 4; 5; 6; 0] /\ exists h, s_ambi (lo_setup l) = Some h /\ split_hull h 6 1 /\
    h_points h = [place 0 0 1; place 180 0 1; place 90 0 1; place 270 0 1; place 0 90 1; place 0 (-90) 1; place a 45 1].
Proof.
  intro E. destruct (f_ordered _ _ _ _ _ _ 6 1 E) as (h & A & SP & P & G); [left; repeat constructor|]. split; [|split; [exact (gains_are (seven a) (six_gains ++ [(false, 0)]) _ eq_refl G)|exists h; split; [exact A|]; split; [exact SP|exact (at_posof _ _ P)]]].
  destruct (loaded_int _ _ _ _ _ _ _ E) as [LI _]. destruct (lo_int l) eqn:LT; [|reflexivity]. exfalso.
  assert (W : fst (false, 1) = true); [|discriminate W]. refine (proj1 (LI _) eq_refl (speaker 1 (0, 0) false (false, 1)) (false, 1) _ eq_refl); [|left; reflexivity].
  intros e He. cbn in He. repeat (destruct He as [<-|He]; [discriminate|]). destruct He.
Qed.
Lemma entry_place l h i a e r g : nth_error (h_points h) i = Some (place a e r) -> 0 < r -> 0 <= a < 360 -> -90 < e < 90 \/ -90 <= e <= 90 /\ a = 0 -> lo_int l = false ->
  (marked h i = true /\ g = 0 \/ marked h i = false /\ nth_error (lo_gains l) i = Some g) ->
  save_entry l h i = Ok (Some (Entry (Some (false, round2 a)) (Some (false, round2 e)) (Some (false, round2 r)) (Some (marked h i)) (Some (Z.of_nat i + 1)%Z) (Some (false, g)))).
Proof.
  intros E R0 HA HE LI G. unfold save_entry. match goal with |- context [nth i (h_points h) ?d] => replace (nth i (h_points h) d) with (place a e r) by (symmetry; apply nth_error_nth; exact E) end.
  destruct (saved_place a e r R0 HA HE) as (azi & zen & C & D1 & D2). rewrite C, LI.
  assert (GV : (if marked h i then Ok (false, 0) else let* g := index (lo_gains l) (Z.of_nat i) in Ok (false, g)) = Ok (false, g)).
  { destruct G as [[-> ->]|[-> Eg]]; [reflexivity|]. assert (L : (i < length (lo_gains l))%nat) by (apply nth_error_Some; rewrite Eg; discriminate). rewrite (index_ok _ _ 0) by lia.
    rewrite (proj2 (Z.ltb_ge _ _)) by lia. rewrite Nat2Z.id, (nth_error_nth _ _ 0 Eg). reflexivity. }
  rewrite GV. cbn [bind]. rewrite D1, D2. reflexivity.
Qed.
Lemma seven_saves nd a a0 l : load_layout tri_chull adj_lstsq nd (seven a) None (Some 50%nat) = Ok l -> 0 <= a0 < 360 -> place a 45 1 = place a0 45 1 ->
  save_layout l = Ok (Some (seven (round2 a0))).
Proof.
  intros E A0 PL. destruct (seven_loaded _ _ _ E) as (LI & LG & h & A & [_ HI] & HP). rewrite PL in HP. destruct HI as [HI|[_ HI]]; [|discriminate HI].
  unfold save_layout. rewrite A, HP, LI. cbn [length seq andb].
  assert (M : forall i, marked h i = Nat.eqb i 6) by (intro i; unfold marked; rewrite HI; cbn; rewrite Bool.orb_false_r; reflexivity).
  assert (Q : forall i x y g, nth_error (h_points h) i = Some (place x y 1) -> 0 <= x < 360 -> -90 < y < 90 \/ -90 <= y <= 90 /\ x = 0 -> (Nat.eqb i 6 = true /\ g = 0 \/ Nat.eqb i 6 = false /\ nth_error (lo_gains l) i = Some g) ->
     save_entry l h i = Ok (Some (Entry (Some (false, round2 x)) (Some (false, round2 y)) (Some (false, 1)) (Some (Nat.eqb i 6)) (Some (Z.of_nat i + 1)%Z) (Some (false, g))))).
  { intros i x y g N X Y G. rewrite <- (round2_int 1), <- M. apply entry_place; auto; try lra. rewrite M. exact G. }
  rewrite HP, LG in Q. cbn [mapM].
  rewrite (Q 0%nat 0 0 1), (Q 1%nat 180 0 2), (Q 2%nat 90 0 3), (Q 3%nat 270 0 4), (Q 4%nat 0 90 5), (Q 5%nat 0 (-90) 6), (Q 6%nat a0 45 0); try reflexivity; try lra; try (left; split; reflexivity); try (right; split; reflexivity).
  cbn [bind mapO]. rewrite !round2_int. reflexivity.
Qed.
Lemma seven_stable a : 0 <= a < 360 -> forall e, In e (seven a) -> stable e.
Proof. intros A e He. cbn in He. repeat (destruct He as [<-|He]; [do 3 eexists; split; [reflexivity|]; split; [reflexivity|]; split; [reflexivity|]; cbn [fst snd]; lra|]). destruct He. Qed.
Lemma ex_roundtrip : forall nd, exists file l h es l', load_layout tri_chull adj_lstsq nd file None (Some 50%nat) = Ok l /\
  s_ambi (lo_setup l) = Some h /\ split_hull h 6 1 /\ save_layout l = Ok (Some es) /\ load_layout tri_chull adj_lstsq nd es None (Some 50%nat) = Ok l' /\ (forall e, In e es -> stable e).
Proof.
  intro nd. exists (seven 30). destruct (seven_load nd 30) as (l & E). exists l. destruct (seven_loaded _ _ _ E) as (_ & _ & h & A & SP & _). exists h, (seven 30), l.
  split; [exact E|]. split; [exact A|]. split; [exact SP|]. split; [|split; [exact E|apply seven_stable; lra]]. rewrite <- (round2_int 30) at 1. eapply seven_saves; [exact E|lra|reflexivity].
Qed.
(** 359.996 degrees are written as 360.0, which is then written as 0.0 *)
Lemma ex_wrap nd : exists l h es l', s_ambi (lo_setup l) = Some h /\ split_hull h 6 1 /\ save_layout l = Ok (Some es) /\
  load_layout tri_chull adj_lstsq nd es None (Some 50%nat) = Ok l' /\ save_layout l' <> Ok (Some es) /\
  exists es', save_layout l' = Ok (Some es') /\ map j_azi es = map j_azi (six six_gains) ++ [Some (false, 360)] /\ map j_azi es' = map j_azi (six six_gains) ++ [Some (false, 0)].
Proof.
  destruct (seven_load nd (359996 / 1000)) as (l & E). destruct (seven_load nd 360) as (l' & E'). destruct (seven_loaded _ _ _ E) as (_ & _ & h & A & SP & _). exists l, h, (seven 360), l'.
  split; [exact A|]. split; [exact SP|].
  assert (R3 : round2 (359996 / 1000) = 360).
  { destruct (round2_rounded (359996 / 1000)) as [[k K] B]. rewrite K in *. apply abs_inv in B. assert (35999 < k < 36001)%Z by (split; apply lt_IZR; lra). replace k with 36000%Z by lia. lra. }
  split; [rewrite <- R3; eapply seven_saves; [exact E|lra|reflexivity]|]. split; [exact E'|].
  assert (S' : save_layout l' = Ok (Some (seven 0))).
  { rewrite <- (round2_int 0) at 1. eapply seven_saves; [exact E'|lra|]. unfold place. rewrite deg0. replace (360 * (PI / 180)) with (2 * PI) by field. rewrite cos_2PI, sin_2PI, cos_0, sin_0. reflexivity. }
  rewrite S'. split; [|exists (seven 0); split; [reflexivity|]; split; reflexivity]. intro Q. injection Q as Q. lra.
Qed.
(** the gains stay in the order of the file while the imaginary loudspeakers are moved
    to the end *)
Lemma ex_misassigned nd : exists file l h i j e p k g, load_layout tri_chull adj_lstsq nd file None (Some 50%nat) = Ok l /\ s_ambi (lo_setup l) = Some h /\
  nth_error file j = Some e /\ j_imag e = Some false /\ at_position e p /\ j_gain e = Some (k, g) /\
  nth_error (h_points h) i = Some p /\ ~ imaginary h i /\ nth_error (lo_gains l) i <> Some g.
Proof.
  destruct (ghost_load nd) as (l & E). destruct (f_loaded _ _ _ _ _ _ _ E) as (pos & flags & h & A1 & A2 & A3 & A4 & A5 & A6 & A7 & _).
  exists (speaker 7 (0, 45) true (false, 0) :: six six_gains), l, h, 0%nat, 1%nat, (speaker 1 (0, 0) false (false, 1)), (place 0 0 1), false, 1.
  split; [exact E|]. split; [exact A5|]. split; [reflexivity|]. split; [reflexivity|]. split; [do 3 eexists; repeat (split; [reflexivity|]); reflexivity|]. split; [reflexivity|].
  assert (FE : flags = true :: repeat false 6) by (refine (flags_are _ (true :: repeat false 6) _ _ A2); reflexivity).
  pose proof (at_posof _ _ A1) as PE. subst flags pos. cbn [repeat] in *. unfold chosen in *. cbn [six map combine filter fst snd Bool.eqb app length seq] in *. rewrite A6, A4. split; [|split].
  - cbn [app nth_error]. rewrite sub3_0. reflexivity.
  - intros (li & Q & I). rewrite A7 in Q. injection Q as <-. cbn in I. destruct I as [I|I]; [discriminate I|destruct I].
  - assert (GE : lo_gains l = map snd ((false, 0) :: six_gains)) by (refine (gains_are _ ((false, 0) :: six_gains) _ _ A3); reflexivity). rewrite GE. cbn. intro Q. injection Q. lra.
Qed.
(** integer gains cannot be written *)
Lemma ex_integer nd : exists file l, load_layout tri_chull adj_lstsq nd file None (Some 50%nat) = Ok l /\ save_layout l = Err TypeError.
Proof.
  destruct (six_load nd (repeat (true, 1) 6)) as (l & E). exists (six (repeat (true, 1) 6)), l. split; [exact E|].
  destruct (f_ordered _ _ _ _ _ _ 6 0 E) as (h & A & SP & P & G); [left; repeat constructor|]. destruct SP as [LP _]. assert (LG : lo_gains l = map snd (repeat (true, 1) 6)) by (refine (gains_are _ (repeat (true, 1) 6) _ _ G); reflexivity).
  assert (NI : forall i, ~ imaginary h i). { intros i (li & Q & I). destruct (f_loaded _ _ _ _ _ _ _ E) as (pos & flags & h' & A1 & A2 & _ & _ & A5 & _ & A7 & _). rewrite A in A5. injection A5 as <-.
    rewrite Q in A7. injection A7 as ->. apply in_seq in I. assert (FE : chosen true flags pos = []); [|rewrite FE in I; cbn in I; lia].
    assert (FE : flags = repeat false 6) by (refine (flags_are _ (repeat false 6) _ _ A2); reflexivity). rewrite FE, (at_posof _ _ A1). reflexivity. }
  apply (f_int l h A).
  - destruct (loaded_int _ _ _ _ _ _ _ E) as [LI _]. apply LI.
    + intros e He. cbn in He. repeat (destruct He as [<-|He]; [discriminate|]). destruct He.
    + intros e x He Jx. cbn in He. repeat (destruct He as [<-|He]; [injection Jx as <-; reflexivity|]). destruct He.
  - intros i Hi _. rewrite LP in Hi. rewrite LG. cbn. lia.
  - exists 0%nat. split; [rewrite LP; lia|apply NI].
Qed.
