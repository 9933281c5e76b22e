(** Layout files: saving and loading again. *)
From Coq Require Import String.
From Verif Require Import Base BaseFacts M_utils S_utils M_sig M_process S_process M_grids M_decoder M_decoder2 M_io S_io P_sig P_utils P_proc4 P_sph13 P_dec6 P_dec10 P_parsa3 P_io5 P_io6.
Open Scope R_scope.

Lemma chosen_split {A} n m (l : list A) : length l = (n + m)%nat ->
  chosen false (repeat false n ++ repeat true m) l = firstn n l /\ chosen true (repeat false n ++ repeat true m) l = skipn n l.
Proof.
  unfold chosen. revert l. induction n as [|n IH]; intros l L.
  - cbn [repeat app firstn skipn]. revert l L. induction m as [|m IHm]; intros [|a l] L; try discriminate; [auto|]. cbn [repeat combine filter fst Bool.eqb map snd]. cbn in L. destruct (IHm l ltac:(lia)) as [I1 I2]. rewrite I1, I2. auto.
  - destruct l as [|a l]; [discriminate|]. cbn [repeat app combine filter fst Bool.eqb map snd firstn skipn]. cbn in L. destruct (IH l ltac:(lia)) as [I1 I2]. rewrite I1, I2. auto.
Qed.
Lemma split_imaginary h n m i : split_hull h n m -> (i < n + m)%nat -> (imaginary h i <-> (n <= i)%nat).
Proof.
  intros [L [E|[E ->]]] Hi; unfold imaginary; rewrite E.
  - split; [intros (l & Q & I); injection Q as <-; apply in_seq in I; lia|]. intro H. exists (seq n m). split; [reflexivity|]. apply in_seq. lia.
  - split; [intros (l & Q & _); discriminate|lia].
Qed.
Lemma forall2_nth {A B} (P : A -> B -> Prop) l l' i a : Forall2 P l l' -> nth_error l i = Some a -> exists b, nth_error l' i = Some b /\ P a b.
Proof. intro F. revert i. induction F as [|x y l l' H F IH]; intros [|i] E; try discriminate; cbn in *; [injection E as <-; eauto|apply IH; exact E]. Qed.
Lemma f2_length {A B} (P : A -> B -> Prop) l l' : Forall2 P l l' -> length l = length l'.
Proof. induction 1; cbn; congruence. Qed.
Lemma list_ext {A} (l l' : list A) : length l = length l' -> (forall i a, nth_error l i = Some a -> nth_error l' i = Some a) -> l = l'.
Proof.
  revert l'. induction l as [|a l IH]; intros [|b l'] L H; try discriminate; [reflexivity|]. pose proof (H 0%nat a eq_refl) as Q. injection Q as <-. f_equal. apply IH; [cbn in L; lia|]. intros i x. apply (H (S i)).
Qed.
Lemma rounded_low x y z : rounded x y -> IZR z <= x -> IZR z <= y.
Proof.
  intros [[k ->] B] H. apply abs_inv in B. assert (Q : IZR (z * 100) - 1 < IZR k) by (rewrite mult_IZR; lra). change 1 with (IZR 1) in Q. rewrite <- minus_IZR in Q. apply lt_IZR in Q.
  assert (IZR (z * 100) <= IZR k) by (apply IZR_le; lia). rewrite mult_IZR in H0. lra.
Qed.
Lemma rounded_high x y z : rounded x y -> x <= IZR z -> y <= IZR z.
Proof.
  intros [[k ->] B] H. apply abs_inv in B. assert (Q : IZR k < IZR (z * 100) + 1) by (rewrite mult_IZR; lra). change 1 with (IZR 1) in Q. rewrite <- plus_IZR in Q. apply lt_IZR in Q.
  assert (IZR k <= IZR (z * 100)) by (apply IZR_le; lia). rewrite mult_IZR in H0. lra.
Qed.
Lemma sub3_0 (p : V3) : sub3 p (0, 0, 0) = p.
Proof. destruct p as [[x y] z]. unfold sub3, vx, vy, vz. cbn [fst snd]. apply f_equal2; [apply f_equal2|]; ring. Qed.

Section RoundTrip.
Variables (l l' : layout) (h : hull) (n m Nk : nat) (es : list entry)
  (chull : list V3 -> list face) (lstsq3 : M3 -> M3) (nd : Z -> list V3).
Hypothesis A : s_ambi (lo_setup l) = Some h.
Hypothesis SP : split_hull h n m.
Hypothesis S : save_layout l = Ok (Some es).
Hypothesis LD : load_layout chull lstsq3 nd es None (Some Nk) = Ok l'.

Lemma rt_entry i : (i < n + m)%nat -> exists p e, nth_error (h_points h) i = Some p /\ nth_error es i = Some e /\ describes h (lo_gains l) i p e.
Proof.
  intro Hi. destruct (saved l h es A S) as [L D]. destruct SP as [LP _].
  destruct (nth_error (h_points h) i) as [p|] eqn:P; [|apply nth_error_None in P; lia].
  destruct (nth_error es i) as [e|] eqn:E; [|apply nth_error_None in E; lia]. exists p, e. split; [reflexivity|]. split; [reflexivity|]. eapply D; eassumption.
Qed.
Lemma rt_loaded : exists h' pos, s_ambi (lo_setup l') = Some h' /\ Forall2 at_position es pos /\ h_points h' = pos /\ h_imag h' = Some (seq n m) /\
  h_points (s_hull (lo_setup l')) = firstn n pos /\ length pos = (n + m)%nat /\ length (lo_gains l') = (n + m)%nat /\
  Forall2 (fun e g => exists k, j_gain e = Some (k, g)) es (lo_gains l').
Proof.
  destruct (loaded _ _ _ _ _ _ _ LD) as (pos & flags & gains & h' & FP & FF & FG & LG & HR & SA & HP & HI & _). subst gains.
  destruct (saved l h es A S) as [L D]. destruct SP as [LP _]. pose proof (f2_length _ _ _ FP) as L1.
  assert (ALL : forall e, In e es -> exists b g, j_imag e = Some b /\ j_gain e = Some (false, g)).
  { intros e He. destruct (In_nth_error _ _ He) as (i & Ei). assert (Hi : (i < n + m)%nat) by (rewrite <- LP, <- L; apply nth_error_Some; congruence).
    destruct (rt_entry i Hi) as (p & e' & _ & E' & (a1 & a2 & a3 & a4 & a5 & b & g & _ & _ & _ & _ & _ & _ & Q & _)). rewrite Ei in E'. injection E' as <-. subst e. cbn. eauto. }
  assert (FG' : Forall2 (fun e g => exists k, j_gain e = Some (k, g)) es (lo_gains l')).
  { destruct FG as [FG|[(e & He & Ne) _]]; [exact FG|]. destruct (ALL e He) as (b & g & _ & Q). congruence. }
  assert (FF' : Forall2 (fun e b => j_imag e = Some b) es flags).
  { destruct FF as [FF|[(e & He & Ne) _]]; [exact FF|]. destruct (ALL e He) as (b & g & Q & _). congruence. }
  pose proof (f2_length _ _ _ FF') as L2. pose proof (f2_length _ _ _ FG') as L3.
  assert (FL : flags = repeat false n ++ repeat true m).
  { apply list_ext; [rewrite app_length, !repeat_length; lia|]. intros i b Eb. assert (Hi : (i < n + m)%nat) by (rewrite <- LP, <- L, L2; apply nth_error_Some; congruence).
    destruct (rt_entry i Hi) as (p & e & _ & Ee & (a1 & a2 & a3 & a4 & a5 & b' & g & _ & _ & _ & _ & _ & _ & Q & IM & _)).
    destruct (forall2_nth _ _ _ i e FF' Ee) as (b'' & Eb'' & Jb). rewrite Eb in Eb''. injection Eb'' as <-. subst e. cbn in Jb. injection Jb as <-.
    rewrite (split_imaginary h n m i SP Hi) in IM. destruct (Nat.lt_ge_cases i n) as [H|H].
    - rewrite nth_error_app1 by (rewrite repeat_length; exact H). rewrite nth_error_repeat by exact H. destruct b'; [exfalso; assert (n <= i)%nat by (apply IM; reflexivity); lia|reflexivity].
    - rewrite nth_error_app2 by (rewrite repeat_length; exact H). rewrite repeat_length, nth_error_repeat by lia. rewrite (proj2 IM H). reflexivity. }
  assert (LQ : length pos = (n + m)%nat) by lia. rewrite FL in HR, HP, HI. destruct (chosen_split n m pos LQ) as [C1 C2]. rewrite C1, C2 in *.
  assert (MR : map (fun p : V3 => sub3 p (0, 0, 0)) (firstn n pos) = firstn n pos).
  { rewrite <- (map_id (firstn n pos)) at 2. apply map_ext. intro p. apply sub3_0. }
  rewrite MR in HR. rewrite HR, firstn_skipn in HP.
  exists h', pos. split; [exact SA|]. split; [exact FP|]. split; [exact HP|]. split; [|split; [exact HR|split; [exact LQ|split; [lia|exact FG']]]].
  rewrite HI. rewrite firstn_length, skipn_length. f_equal. f_equal; lia.
Qed.
Lemma roundtrip : exists h', s_ambi (lo_setup l') = Some h' /\ split_hull h' n m /\ h_points (s_hull (lo_setup l')) = firstn n (h_points h') /\
  (forall i p, nth_error (h_points h) i = Some p -> exists p', nth_error (h_points h') i = Some p' /\ dist3 p' p <= 1 / 200 + norm3 p * (PI / 18000)) /\
  length (lo_gains l') = (n + m)%nat /\
  (forall i, (i < n)%nat -> nth_error (lo_gains l') i = nth_error (lo_gains l) i) /\ (forall i, (n <= i < n + m)%nat -> nth_error (lo_gains l') i = Some 0) /\
  lo_int l' = false.
Proof.
  destruct rt_loaded as (h' & pos & SA & FP & HP & HI & HR & LQ & LG & FG). exists h'. split; [exact SA|]. split; [split; [rewrite HP; exact LQ|left; exact HI]|].
  split; [rewrite HP; exact HR|]. split.
  { intros i p Ep. destruct SP as [LP _]. assert (Hi : (i < n + m)%nat) by (rewrite <- LP; apply nth_error_Some; congruence).
    destruct (rt_entry i Hi) as (q & e & Eq & Ee & (a & el & a' & el' & r' & b & g & P & Ha & Hel & Ra & Rel & Rr & Q & _)). rewrite Ep in Eq. injection Eq as <-.
    destruct (forall2_nth _ _ _ i e FP Ee) as (p' & Ep' & (x & y & z & X & Y & Z & P')). subst e. cbn in X, Y, Z. injection X as <-. injection Y as <-. injection Z as <-. cbn [snd] in P'.
    exists p'. split; [rewrite HP; exact Ep'|]. subst p'. rewrite P at 1. pose proof (norm3_nonneg p) as NN. pose proof PI_RGT_0 as PP.
    assert (0 <= r') by (apply (rounded_low _ _ 0 Rr); exact NN). eapply Rle_trans; [apply dist_place; assumption|].
    destruct Ra as [_ Ra]. destruct Rel as [_ Rel]. destruct Rr as [_ Rr]. apply Rplus_le_compat; [exact Rr|].
    replace (norm3 p * (PI / 18000)) with (norm3 p * (PI / 180) * (1 / 200 + 1 / 200)) by field. apply Rmult_le_compat_l; [apply Rmult_le_pos; lra|]. lra. }
  split; [exact LG|].
  assert (GG : forall i, (i < n + m)%nat -> exists g, nth_error (lo_gains l') i = Some g /\ (imaginary h i -> g = 0) /\ (~ imaginary h i -> nth_error (lo_gains l) i = Some g)).
  { intros i Hi. destruct (rt_entry i Hi) as (q & e & Eq & Ee & (a & el & a' & el' & r' & b & g & P & Ha & Hel & Ra & Rel & Rr & Q & IM & G1 & G2)).
    destruct (forall2_nth _ _ _ i e FG Ee) as (g' & Eg & (k & K)). subst e. cbn in K. injection K as <- <-. exists g. split; [exact Eg|]. destruct b.
    - split; [intros _; apply G1; reflexivity|]. intro NI. exfalso. apply NI, IM. reflexivity.
    - split; [intro I; apply IM in I; discriminate|]. intros _. apply G2. reflexivity. }
  split; [|split].
  - intros i Hi. destruct (GG i ltac:(lia)) as (g & E & _ & G). rewrite E. symmetry. apply G. rewrite (split_imaginary h n m i SP) by lia. lia.
  - intros i Hi. destruct (GG i ltac:(lia)) as (g & E & G & _). rewrite E. f_equal. apply G. rewrite (split_imaginary h n m i SP) by lia. lia.
  - destruct (loaded_int _ _ _ _ _ _ _ LD) as [LI _]. destruct (lo_int l') eqn:LT; [|reflexivity]. exfalso.
    assert (NN : exists e, In e es). { destruct es as [|e t]; [discriminate LD|]. exists e. left. reflexivity. }
    assert (AG : forall e, In e es -> exists g, j_gain e = Some (false, g)).
    { intros e He. destruct (saved l h es A S) as [L _]. destruct SP as [LP _]. destruct (In_nth_error _ _ He) as (i & Ei). assert (Hi : (i < n + m)%nat) by (rewrite <- LP, <- L; apply nth_error_Some; congruence).
      destruct (rt_entry i Hi) as (p & e' & _ & E' & (a1 & a2 & a3 & a4 & a5 & b & g & _ & _ & _ & _ & _ & _ & Q & _)). rewrite Ei in E'. injection E' as <-. subst e. cbn. eauto. }
    destruct NN as (e & He). destruct (AG e He) as (g & Ge). assert (W : fst (false, g) = true); [|discriminate W].
    refine (proj1 (LI _) eq_refl e (false, g) He Ge). intros e' He'. destruct (AG e' He') as (g' & ->). discriminate.
Qed.
Lemma resave : (forall e, In e es -> stable e) -> save_layout l' = Ok (Some es).
Proof.
  intro ST. destruct rt_loaded as (h' & pos & SA & FP & HP & HI & HR & LQ & LG & FG). destruct roundtrip as (h'' & SA' & _ & _ & _ & _ & _ & _ & LI).
  rewrite SA in SA'. injection SA' as <-. destruct (saved l h es A S) as [L _]. pose proof SP as [LP _].
  assert (EN : forall i e, nth_error es i = Some e -> save_entry l' h' i = Ok (Some e)).
  { intros i e Ee. assert (Hi : (i < n + m)%nat) by (rewrite <- LP, <- L; apply nth_error_Some; congruence).
    destruct (rt_entry i Hi) as (q & e' & Eq & Ee' & (a & el & a' & el' & r' & b & g & P & Ha & Hel & Ra & Rel & Rr & Q & IM & G1 & G2)). rewrite Ee in Ee'. injection Ee' as <-.
    destruct (forall2_nth _ _ _ i e FP Ee) as (p' & Ep' & (x & y & z & X & Y & Z & P')). destruct (forall2_nth _ _ _ i e FG Ee) as (g' & Eg & (k & K)).
    destruct (ST e (nth_error_In _ _ Ee)) as (sa & se & sr & T1 & T2 & T3 & TA & TE & TR). subst e. cbn in X, Y, Z, K, T1, T2, T3.
    injection X as <-. injection Y as <-. injection Z as <-. injection K as <- <-. injection T1 as <-. injection T2 as <-. injection T3 as <-. cbn [snd] in P'.
    assert (A0 : 0 <= a') by (apply (rounded_low _ _ 0 Ra); apply Ha).
    assert (E0 : -90 <= el' <= 90) by (split; [apply (rounded_low _ _ (-90) Rel)|apply (rounded_high _ _ 90 Rel)]; apply Hel).
    destruct (saved_place a' el' r' TR (conj A0 TA)) as (azi & zen & C & D1 & D2); [destruct TE as [TE|TE]; [left; exact TE|right; auto]|].
    unfold save_entry. match goal with |- context [nth i (h_points h') ?d] => replace (nth i (h_points h') d) with (place a' el' r') by (symmetry; rewrite <- P'; apply nth_error_nth; rewrite HP; exact Ep') end.
    rewrite C. assert (MB : marked h' i = b).
    { destruct (marked h' i) eqn:M.
      - apply marked_imaginary in M. destruct M as (li & E1 & I1). rewrite HI in E1. injection E1 as <-. apply in_seq in I1. symmetry. apply IM. apply (split_imaginary h n m i SP Hi). lia.
      - destruct b; [|reflexivity]. exfalso. assert (marked h' i = true); [|congruence]. apply marked_imaginary. exists (seq n m). split; [exact HI|]. apply in_seq.
        assert (n <= i)%nat by (apply (split_imaginary h n m i SP Hi), IM; reflexivity). lia. }
    rewrite MB, LI. destruct Ra as [[ka ->] _]. destruct Rel as [[ke ->] _]. destruct Rr as [[kr ->] _].
    assert (GV : (if b then Ok (false, 0) else let* g := index (lo_gains l') (Z.of_nat i) in Ok (false, g)) = Ok (false, g)).
    { destruct b; [rewrite G1 by reflexivity; reflexivity|]. rewrite (index_ok _ _ 0) by lia. rewrite (proj2 (Z.ltb_ge _ _)) by lia. rewrite Nat2Z.id, (nth_error_nth _ _ 0 Eg). reflexivity. }
    rewrite GV. cbn [bind]. rewrite D1, D2, !round2_grid. reflexivity. }
  unfold save_layout. rewrite SA, LI. cbn [andb]. rewrite HP, LQ.
  assert (MM : forall t s, (forall i e, nth_error t i = Some e -> save_entry l' h' (s + i)%nat = Ok (Some e)) -> mapM (save_entry l' h') (seq s (length t)) = Ok (map Some t)).
  { induction t as [|e t IH]; intros s H; [reflexivity|]. cbn [length seq mapM map]. pose proof (H 0%nat e eq_refl) as Q. rewrite Nat.add_0_r in Q. rewrite Q. cbn [bind]. rewrite IH; [reflexivity|].
    intros i x Ex. replace (Datatypes.S s + i)%nat with (s + Datatypes.S i)%nat by lia. apply H. exact Ex. }
  replace (n + m)%nat with (length es) by lia. rewrite (MM es 0%nat) by (intros i e; apply EN). cbn [bind]. f_equal. clear. induction es as [|e t IH]; [reflexivity|]. cbn [map mapO]. rewrite IH. reflexivity.
Qed.
End RoundTrip.
