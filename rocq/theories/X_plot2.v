(** Several sets of coefficients, normals, differences: final forms and examples. *)
From Coq Require Import Lra Lia String FunctionalExtensionality.
From Verif Require Import Base BaseFacts M_utils M_sig P_sig M_process M_sph0 M_sph P_sph7 P_sph9 P_sph11 P_sph13 S_sph M_grids M_decoder M_decoder2 M_decoder3 M_parsa3 M_decoder4 M_parsa2 M_io M_process2 M_plot M_io3 M_process3 M_plot2 S_plot2 P_plot7 P_plot8 X_sig P_dec4.
Open Scope R_scope.
Local Notation length := List.length.

(** ** subplots *)
Lemma rsum_pair n f : csum n (fun i => (f i, 0)) = (rsum n f, 0).
Proof. unfold csum. cbn [fst snd]. f_equal. induction n; cbn; [reflexivity|rewrite IHn; ring]. Qed.
Lemma nth_re l i : nth i (coef_c (CoefR l)) (0, 0) = (nth i l 0, 0).
Proof. exact (map_nth (fun x : R => (x, 0)) l 0 i). Qed.
Lemma function_real N l azi zen : function_value ShReal N (CoefR l) azi zen = (field_value sh_real N l azi zen, 0).
Proof.
  unfold function_value, field_value. rewrite <- rsum_pair. unfold csum at 1 3. cbn [fst snd]. f_equal; apply rsum_ext; intros n Hn.
  - unfold csum. cbn [fst]. apply rsum_ext. intros q Hq. rewrite nth_re. cbn [harmonic]. unfold cmul. cbn [fst snd]. ring.
  - unfold csum. cbn [snd]. apply rsum_0. intros q Hq. rewrite nth_re. cbn [harmonic]. unfold cmul. cbn [fst snd]. ring.
Qed.
Lemma abs_real x : absolute (x, 0) = Rabs x.
Proof. unfold absolute. cbn [fst snd]. replace (x ^ 2 + 0 ^ 2) with (x²) by (unfold Rsqr; ring). apply sqrt_Rsqr_abs. Qed.
Lemma any_surface F N sa se : 0 < sa -> 0 < se -> of_order N F -> exists pts, sh_coeffs_any F sa se = Ok pts /\ surface (coef_kind F) N F sa se (map fst pts).
Proof.
  destruct F as [l|l]; intros SA SE O; cbn [sh_coeffs_any coef_kind].
  - unfold of_order in O. cbn [coef_c] in O. rewrite map_length in O. destruct (balloon_ok N l sa se SA SE O) as (pts & E & L & H). exists pts. split; [exact E|]. split; [rewrite map_length; exact L|]. rewrite map_length, L. intros i I. specialize (H i ((0, 0, 0), 0) I). destruct (nth i (balloon_grid sa se) (0, 0)) as [azi zen]. destruct H as [H _].
    etransitivity; [exact (map_nth fst pts ((0, 0, 0), 0) i)|]. etransitivity; [exact H|]. rewrite function_real, abs_real. unfold sph2cart, scal3, vx, vy, vz. cbn [fst snd]. f_equal; [f_equal|]; ring.
  - destruct (f_balloon_c l N sa se SA SE O) as (pts & E & S & _). exists pts. split; assumption.
Qed.
Lemma f_subplot : forall Fs titles fig_given axs sa se,
  let shown := match axs with Some m => m | None => length Fs end in
  0 < sa -> 0 < se -> (1 <= length Fs)%nat -> (axs = None -> (2 <= length Fs)%nat) -> (shown <= length Fs)%nat ->
  (forall l, titles = Some l -> (shown <= length l)%nat) ->
  (forall F, In F Fs -> exists N, of_order N F) ->
  exists figs, sh_coeffs_subplot Fs titles fig_given axs sa se = Ok figs /\ length figs = shown /\
    forall i, (i < shown)%nat -> let F := nth i Fs (CoefR []) in
      sh_coeffs_any F sa se = Ok (fst (nth i figs ([], None))) /\
      snd (nth i figs ([], None)) = option_map (fun l => nth i l ""%string) titles /\
      forall N, of_order N F -> surface (coef_kind F) N F sa se (map fst (fst (nth i figs ([], None)))).
Proof.
  intros Fs titles fg axs sa se shown SA SE L1 L2 SL ST O. unfold sh_coeffs_subplot.
  assert (EA : subplot_axes fg axs (length Fs) = Ok shown).
  { unfold subplot_axes, shown. destruct axs as [m|]; destruct (length Fs) as [|[|n]] eqn:E; try lia; try (destruct fg; reflexivity). specialize (L2 eq_refl). lia. }
  rewrite EA. cbn [bind].
  pose (Q := fun i (b : list (V3 * R) * option string) => sh_coeffs_any (nth i Fs (CoefR [])) sa se = Ok (fst b) /\ snd b = option_map (fun l => nth i l ""%string) titles).
  match goal with |- exists figs, mapM ?f _ = _ /\ _ => set (step := f) end.
  assert (H : forall i, (i < shown)%nat -> exists b, step i = Ok b /\ Q i b).
  { intros i I. unfold step. rewrite (nth_error_nth' Fs (CoefR [])) by lia. cbn [bind]. destruct (O (nth i Fs (CoefR []))) as (N & HN); [apply nth_In; lia|]. destruct (any_surface _ N sa se SA SE HN) as (pts & E & _). rewrite E. cbn [bind]. destruct titles as [l|].
    - specialize (ST l eq_refl). rewrite (nth_error_nth' l ""%string) by lia. cbn [bind]. eexists. split; [reflexivity|]. split; [exact E|reflexivity].
    - cbn [bind]. eexists. split; [reflexivity|]. split; [exact E|reflexivity]. }
  assert (M : forall k s, (s + k <= shown)%nat -> exists bs, mapM step (seq s k) = Ok bs /\ length bs = k /\ forall i, (i < k)%nat -> Q (s + i)%nat (nth i bs ([], None))).
  { induction k as [|k IH]; intros s Hs; cbn [seq mapM]; [exists []; split; [reflexivity|]; split; [reflexivity|]; intros; lia|]. destruct (H s ltac:(lia)) as (b & E & B). rewrite E. cbn [bind]. destruct (IH (S s) ltac:(lia)) as (bs & Eb & Lb & Hb). rewrite Eb. cbn [bind]. eexists. split; [reflexivity|]. split; [cbn; lia|]. intros [|i] I; cbn [nth]; [rewrite Nat.add_0_r; exact B|]. replace (s + S i)%nat with (S s + i)%nat by lia. apply Hb. lia. }
  destruct (M shown 0%nat ltac:(lia)) as (bs & E & L & HB). exists bs. split; [exact E|]. split; [exact L|]. intros i I. set (F := nth i Fs (CoefR [])). destruct (HB i I) as [B1 B2]. cbn [Nat.add] in B1, B2. split; [exact B1|]. split; [exact B2|]. intros N HN. destruct (any_surface F N sa se SA SE HN) as (pts & Ep & S). fold F in B1. rewrite B1 in Ep. injection Ep as ->. exact S.
Qed.
Lemma f_subplot_index : forall Fs titles fig_given m sa se, 0 < sa -> 0 < se -> (1 <= length Fs)%nat -> (length Fs < m)%nat ->
  (forall F, In F Fs -> exists N, of_order N F) -> (forall l, titles = Some l -> (length Fs <= length l)%nat) ->
  sh_coeffs_subplot Fs titles fig_given (Some m) sa se = Err IndexError.
Proof.
  intros Fs titles fg m sa se SA SE L1 L O T. unfold sh_coeffs_subplot. replace (subplot_axes fg (Some m) (length Fs)) with (@Ok nat m) by (unfold subplot_axes; destruct fg, (length Fs); try reflexivity; lia). cbn [bind].
  match goal with |- mapM ?f _ = _ => set (step := f) end.
  assert (H : forall i, (i < length Fs)%nat -> exists b, step i = Ok b).
  { intros i I. unfold step. rewrite (nth_error_nth' Fs (CoefR [])) by lia. cbn [bind]. destruct (O (nth i Fs (CoefR []))) as (N & HN); [apply nth_In; lia|]. destruct (any_surface _ N sa se SA SE HN) as (pts & E & _). rewrite E. cbn [bind]. destruct titles as [l|]; [|eexists; reflexivity]. specialize (T l eq_refl). rewrite (nth_error_nth' l ""%string) by lia. eexists; reflexivity. }
  assert (HE : step (length Fs) = Err IndexError) by (unfold step; rewrite (proj2 (nth_error_None Fs (length Fs))) by lia; reflexivity).
  replace m with (length Fs + S (m - length Fs - 1))%nat by lia. rewrite seq_app. cbn [seq Nat.add].
  assert (G : forall l r, (forall i, In i l -> exists b, step i = Ok b) -> mapM step r = Err IndexError -> mapM step (l ++ r) = Err IndexError).
  { induction l as [|a l IH]; intros r A B; [exact B|]. cbn [app mapM]. destruct (A a (or_introl eq_refl)) as (b & ->). cbn [bind]. rewrite (IH r); [reflexivity| |exact B]. intros; apply A; right; assumption. }
  apply G; [intros i I; apply H; apply in_seq in I; lia|]. cbn [mapM]. rewrite HE. reflexivity.
Qed.
Lemma f_subplot_empty : forall titles fig_given axs sa se, fig_given = false \/ axs = None ->
  exists e, sh_coeffs_subplot [] titles fig_given axs sa se = Err e.
Proof. intros titles fg axs sa se [->| ->]; unfold sh_coeffs_subplot; cbn [length subplot_axes]; [|destruct fg]; eexists; reflexivity. Qed.
(** one set on its own cannot be shown *)
Lemma f_subplot_one_refuted : ~ (forall Fs titles fig_given axs sa se, 0 < sa -> 0 < se -> (1 <= length Fs)%nat -> titles = None -> axs = None -> (forall F, In F Fs -> exists N, of_order N F) ->
  exists figs, sh_coeffs_subplot Fs titles fig_given axs sa se = Ok figs).
Proof. intros H. destruct (H [CoefR [1]] None false None 5 3 ltac:(lra) ltac:(lra) ltac:(cbn; lia) eq_refl eq_refl) as (figs & E); [intros F [<-|[]]; exists 0%nat; reflexivity|]. discriminate. Qed.

(** ** sets of different kinds in one overlay *)
Lemma one_point : balloon_grid 360 180 = [(0, 1 / 10000000)].
Proof.
  unfold balloon_grid. replace (360 / 360) with (IZR 1) by field. replace (180 / 180) with (IZR 1) by field. rewrite py_int_IZR. change (Z.to_nat 1) with 1%nat. unfold linspace. cbn [seq map flat_map app INR Nat.sub]. f_equal. f_equal; ring.
Qed.
Definition mixed_sets : list coef := [CoefR [1]; CoefC [(0, 0); (1, 0); (0, 0); (0, 0)]].
Lemma mixed_orders : forall F, In F mixed_sets -> exists N, of_order N F.
Proof. intros F [<-|[<-|[]]]; [exists 0%nat|exists 1%nat]; reflexivity. Qed.
Lemma tiny_sin : 0 < sin (1 / 10000000).
Proof. apply sin_gt_0; [lra|]. pose proof PI2_1. lra. Qed.
Lemma value_real : function_value ShReal 1 (nth 1 mixed_sets (CoefR [])) 0 (1 / 10000000) = (0, 0).
Proof.
  unfold function_value, mixed_sets. cbn [nth coef_c]. cbn -[cmul harmonic cadd INR IZR sin cos]. unfold csum. cbn -[cmul harmonic INR IZR sin cos].
  unfold harmonic, sh_real. cbn -[INR IZR sin cos sph_harm sqrt]. unfold sph_harm. cbn -[INR IZR sin cos sqrt lpmv fact]. unfold cmul. cbn [fst snd]. f_equal; cbn [INR]; rewrite ?Rmult_0_r, ?sin_0, ?Rmult_0_r; ring.
Qed.
Lemma value_complex : absolute (function_value ShComplex 1 (nth 1 mixed_sets (CoefR [])) 0 (1 / 10000000)) <> 0.
Proof.
  set (v := function_value _ _ _ _ _). assert (E : forall w, w = sph_harm (-1) 1 0 (1 / 10000000) -> v = w).
  { intros w W. unfold v, function_value, mixed_sets. cbn [nth coef_c]. cbn -[cmul harmonic cadd INR IZR sin cos]. unfold csum. cbn -[cmul harmonic INR IZR sin cos]. unfold harmonic. rewrite <- W. unfold cmul. cbn [fst snd]. rewrite (surjective_pairing w). cbn [fst snd]. f_equal; ring. }
  specialize (E _ eq_refl).
  rewrite E. unfold absolute. intros A. apply sqrt_eq_0 in A; [|nra]. assert (F0 : fst (sph_harm (-1) 1 0 (1 / 10000000)) = 0) by nra. clear A. revert F0. unfold sph_harm. change (Z.abs_nat (-1)) with 1%nat. change ((-1 <? 0)%Z) with true. cbn [fst]. unfold lpmv. cbn [Nat.leb Nat.sub lpmv2 snd pow dfact]. rewrite !Rmult_0_r, cos_0. set (s := sqrt _). set (w := sqrt _). 
  intros F0. pose proof PI_RGT_0 as P. assert (0 < s). { unfold s. apply sqrt_lt_R0. apply Rmult_lt_0_compat; apply Rdiv_lt_0_compat; [cbn [INR]; lra|lra|apply lt_0_INR, lt_O_fact|apply lt_0_INR, lt_O_fact]. }
  assert (w = sin (1 / 10000000)). { unfold w. replace (1 - _) with ((sin (1 / 10000000))²) by (pose proof (sin2_cos2 (1 / 10000000)) as C; unfold Rsqr in *; lra). apply sqrt_Rsqr. pose proof tiny_sin. lra. }
  pose proof tiny_sin. assert (0 < s * w) by (apply Rmult_lt_0_compat; lra). cbn [INR] in F0. nra.
Qed.
Lemma f_overlay_mixed_refuted : ~ (forall Fs figs sa se i pts, 0 < sa -> 0 < se -> (forall F, In F Fs -> exists N, of_order N F) ->
  sh_coeffs_overlay Fs None sa se = Ok figs -> (i < length Fs)%nat -> sh_coeffs_any (nth i Fs (CoefR [])) sa se = Ok pts -> fst (nth i figs ([], 0%nat)) = map fst pts).
Proof.
  intros H. destruct (f_overlay mixed_sets None 360 180 ltac:(lra) ltac:(lra) mixed_orders ltac:(discriminate)) as (figs & E & L & S). destruct (any_surface (nth 1 mixed_sets (CoefR [])) 1 360 180 ltac:(lra) ltac:(lra) eq_refl) as (pts & Ep & Sp).
  specialize (H mixed_sets figs 360 180 1%nat pts ltac:(lra) ltac:(lra) mixed_orders E ltac:(cbn; lia) Ep). destruct (S 1%nat 1%nat ltac:(cbn; lia) eq_refl) as [[L1 S1] _]. destruct Sp as [L2 S2]. rewrite one_point in *. cbn [length] in *. specialize (S1 0%nat ltac:(lia)). specialize (S2 0%nat ltac:(lia)). cbn [nth] in S1, S2.
  change (coef_kind (nth 0 mixed_sets (CoefR []))) with ShReal in S1. rewrite H in S1. rewrite S1 in S2. clear S1. change (coef_kind (CoefC [(0, 0); (1, 0); (0, 0); (0, 0)])) with ShComplex in S2.
  pose proof value_real as V. pose proof value_complex as W. cbn [nth mixed_sets] in V, W. change (nth 1 mixed_sets (CoefR [])) with (CoefC [(0, 0); (1, 0); (0, 0); (0, 0)]) in *.
  rewrite V in S2. unfold sph2cart in S2. rewrite abs_real, Rabs_R0 in S2. assert (Z : 0 * cos 0 * sin (1 / 10000000) = absolute (function_value ShComplex 1 (CoefC [(0, 0); (1, 0); (0, 0); (0, 0)]) 0 (1 / 10000000)) * cos 0 * sin (1 / 10000000)) by exact (f_equal (fun p => fst (fst p)) S2).
  rewrite cos_0 in Z. pose proof tiny_sin as T. apply W. apply Rmult_eq_reg_r with (sin (1 / 10000000)); [|lra]. lra.
Qed.
(** the tenth set has the colour of the ninth *)
Lemma f_overlay_colours_refuted : ~ (forall Fs t sa se figs i j, 0 < sa -> 0 < se -> (forall F, In F Fs -> exists N, of_order N F) -> sh_coeffs_overlay Fs t sa se = Ok figs ->
  (i < length Fs)%nat -> (j < length Fs)%nat -> i <> j -> snd (nth i figs ([], 0%nat)) <> snd (nth j figs ([], 0%nat))).
Proof.
  intros H. assert (O : forall F, In F (repeat (CoefR [1]) 10) -> exists N, of_order N F) by (intros F I; apply repeat_spec in I; subst; exists 0%nat; reflexivity).
  destruct (f_overlay (repeat (CoefR [1]) 10) None 360 180 ltac:(lra) ltac:(lra) O ltac:(discriminate)) as (figs & E & L & S). apply (H _ _ 360 180 _ 8%nat 9%nat ltac:(lra) ltac:(lra) O E); [cbn; lia|cbn; lia|lia|]. destruct (S 8%nat 0%nat ltac:(cbn; lia) eq_refl) as [_ ->]. destruct (S 9%nat 0%nat ltac:(cbn; lia) eq_refl) as [_ ->]. reflexivity.
Qed.
Lemma f_overlay_colours : forall Fs t sa se figs i j, 0 < sa -> 0 < se -> (forall F, In F Fs -> exists N, of_order N F) -> t <> Some ShUnknown -> sh_coeffs_overlay Fs t sa se = Ok figs ->
  (i < length Fs)%nat -> (j < length Fs)%nat -> (length Fs <= 9)%nat -> i <> j -> snd (nth i figs ([], 0%nat)) <> snd (nth j figs ([], 0%nat)).
Proof.
  intros Fs t sa se figs i j SA SE O T E I J L NE. destruct (f_overlay Fs t sa se SA SE O T) as (figs' & E' & _ & S). rewrite E in E'. injection E' as <-.
  destruct (O (nth i Fs (CoefR [])) ltac:(apply nth_In; exact I)) as (N & HN). destruct (O (nth j Fs (CoefR [])) ltac:(apply nth_In; exact J)) as (M & HM). destruct (S i N I HN) as [_ ->]. destruct (S j M J HM) as [_ ->]. lia.
Qed.
Lemma ex_subplot : exists figs, sh_coeffs_subplot mixed_sets (Some ["first"; "second"]%string) false None 360 180 = Ok figs /\ length figs = 2%nat /\
  snd (nth 1 figs ([], None)) = Some "second"%string /\ fst (fst (nth 0 (fst (nth 0 figs ([], None))) ((0, 0, 0), 0))) <> (0, 0).
Proof.
  destruct (f_subplot mixed_sets (Some ["first"; "second"]%string) false None 360 180 ltac:(lra) ltac:(lra)) as (figs & E & L & H); try (cbn; lia); try (intros l [= <-]; cbn; lia); try exact mixed_orders.
  exists figs. split; [exact E|]. split; [exact L|]. destruct (H 1%nat ltac:(cbn; lia)) as (_ & T & _). split; [exact T|].
  destruct (H 0%nat ltac:(cbn; lia)) as (_ & _ & S). specialize (S 0%nat eq_refl). destruct S as [LS S]. rewrite one_point in *. cbn [length] in LS. specialize (S 0%nat ltac:(lia)). cbn [nth] in S. apply (eq_trans (eq_sym (map_nth fst (fst (nth 0 figs ([], None))) ((0, 0, 0), 0) 0%nat))) in S. intros A. rewrite S in A. revert A. change (nth 0 mixed_sets (CoefR [])) with (CoefR [1]). change (coef_kind (CoefR [1])) with ShReal. rewrite function_real, abs_real. unfold sph2cart. cbn [fst]. intros A. injection A as A _. rewrite cos_0 in A. pose proof tiny_sin as T0.
  assert (V : field_value sh_real 0 [1] 0 (1 / 10000000) <> 0).
  { unfold field_value. cbn -[IZR sh_real]. unfold sh_real, sph_harm. cbn -[IZR sqrt cos PI INR Rdiv fact]. cbn [INR fact]. rewrite Rmult_0_l, cos_0. intros Z. assert (0 < sqrt ((2 * 0 + 1) / (4 * PI) * (1 / 1))); [|lra]. apply sqrt_lt_R0. pose proof PI_RGT_0. apply Rmult_lt_0_compat; [apply Rdiv_lt_0_compat; lra|lra]. }
  apply Rabs_no_R0 in V. rewrite Rmult_1_r in A. apply Rmult_integral in A. destruct A; [contradiction|lra].
Qed.
Lemma ex_overlay : exists figs, sh_coeffs_overlay mixed_sets (Some ShComplex) 360 180 = Ok figs /\ length figs = 2%nat /\ surface ShComplex 1 (nth 1 mixed_sets (CoefR [])) 360 180 (fst (nth 1 figs ([], 0%nat))).
Proof. destruct (f_overlay mixed_sets (Some ShComplex) 360 180 ltac:(lra) ltac:(lra) mixed_orders ltac:(discriminate)) as (figs & E & L & S). exists figs. split; [exact E|]. split; [exact L|]. apply S; [cbn; lia|reflexivity]. Qed.

(** ** differences *)
Lemma bc2_eq f a b : length a = length b -> bc2 f a b = Ok (map (fun p => f (fst p) (snd p)) (combine a b)).
Proof. intros L. unfold bc2. rewrite L, Nat.eqb_refl. reflexivity. Qed.
Lemma dist_sum a b : length a = length b -> lsum (map (fun p => Rabs (fst p - snd p)) (combine a b)) = distance1 a b.
Proof.
  intros L. rewrite lsum_nth, map_length, combine_length, L, Nat.min_id. unfold distance1. rewrite L. apply rsum_ext. intros i I. rewrite (nth_map_in _ _ _ _ (0, 0)) by (rewrite combine_length; lia). rewrite combine_nth by exact L. reflexivity.
Qed.
Definition flat_axis (axis : option Z) : Prop := axis = None \/ axis = Some 0%Z \/ axis = Some (-1)%Z.
Lemma axis_ok axis : flat_axis axis -> match axis with None => Ok tt | Some k => if (Z.eqb k 0 || Z.eqb k (-1))%bool then Ok tt else Err IndexError end = Ok tt.
Proof. intros [->|[->| ->]]; reflexivity. Qed.
Lemma f_diff : forall v1 v2 msg axis lim vb, length (data v1) = length (data v2) -> axis = None \/ axis = Some 0%Z \/ axis = Some (-1)%Z ->
  let d := distance1 (data v1) (data v2) in
  test_diff v1 v2 msg axis lim vb =
    Ok (d, if vb then match msg with Some m => [SaidMsg m] | None => [] end ++ [if Rlt_dec lim d then SaidDiff d else SaidClose] else []) /\
  0 <= d /\ (d = 0 <-> data v1 = data v2) /\ (d <= lim -> forall i, Rabs (nth i (data v1) 0 - nth i (data v2) 0) <= lim) /\
  forall e, (forall i, (i < length (data v1))%nat -> Rabs (nth i (data v1) 0 - nth i (data v2) 0) <= e) -> d <= INR (length (data v1)) * e.
Proof.
  intros v1 v2 msg axis lim vb L A d. assert (P : 0 <= d) by (apply rsum_nonneg; intros; apply Rabs_pos). split; [|split; [exact P|split; [split|split]]].
  - unfold test_diff. rewrite bc2_eq by exact L. cbn [bind]. rewrite axis_ok by exact A. cbn [bind]. rewrite dist_sum by exact L. fold d. unfold Rltb. destruct (Rlt_dec lim d); reflexivity.
  - intros D. apply (nth_ext _ _ 0 0 L). intros i I. assert (Rabs (nth i (data v1) 0 - nth i (data v2) 0) = 0).
    { apply (rsum_nonneg_0 (length (data v1)) (fun i => Rabs (nth i (data v1) 0 - nth i (data v2) 0))); [intros; apply Rabs_pos|exact D|exact I]. }
    revert H. unfold Rabs. destruct (Rcase_abs _); lra.
  - intros E. unfold d, distance1. rewrite E. apply rsum_0. intros. rewrite Rminus_diag_eq by reflexivity. apply Rabs_R0.
  - intros D i. destruct (Nat.lt_ge_cases i (length (data v1))) as [I|I].
    + apply Rle_trans with d; [|exact D]. apply (rsum_ge_term (length (data v1)) (fun i => Rabs (nth i (data v1) 0 - nth i (data v2) 0)) i); [intros; apply Rabs_pos|exact I].
    + rewrite !nth_overflow by lia. rewrite Rminus_diag_eq by reflexivity. rewrite Rabs_R0. lra.
  - intros e H. unfold d, distance1. apply Rle_trans with (rsum (length (data v1)) (fun _ => e)); [apply rsum_le; exact H|]. clear. induction (length (data v1)) as [|n IH]; [cbn; lra|]. rewrite S_INR. cbn [rsum]. lra.
Qed.
Lemma f_diff_metric : forall v1 v2 v3 lim, length (data v1) = length (data v2) -> length (data v2) = length (data v3) ->
  exists d12 d21 d23 d13 s12 s21 s23 s13, test_diff v1 v2 None None lim true = Ok (d12, s12) /\ test_diff v2 v1 None None lim true = Ok (d21, s21) /\
    test_diff v2 v3 None None lim true = Ok (d23, s23) /\ test_diff v1 v3 None None lim true = Ok (d13, s13) /\ d21 = d12 /\ s21 = s12 /\ d13 <= d12 + d23.
Proof.
  intros v1 v2 v3 lim L M. destruct (f_diff v1 v2 None None lim true L (or_introl eq_refl)) as [E1 _]. destruct (f_diff v2 v1 None None lim true (eq_sym L) (or_introl eq_refl)) as [E2 _]. destruct (f_diff v2 v3 None None lim true M (or_introl eq_refl)) as [E3 _]. destruct (f_diff v1 v3 None None lim true (eq_trans L M) (or_introl eq_refl)) as [E4 _].
  assert (SY : distance1 (data v2) (data v1) = distance1 (data v1) (data v2)) by (unfold distance1; rewrite L; apply rsum_ext; intros; apply Rabs_minus_sym). rewrite SY in E2.
  do 8 eexists. split; [exact E1|]. split; [exact E2|]. split; [exact E3|]. split; [exact E4|]. split; [reflexivity|]. split; [reflexivity|].
  unfold distance1. rewrite <- L, <- rsum_plus. apply rsum_le. intros i _. replace (nth i (data v1) 0 - nth i (data v3) 0) with ((nth i (data v1) 0 - nth i (data v2) 0) + (nth i (data v2) 0 - nth i (data v3) 0)) by ring. apply Rabs_triang.
Qed.
Lemma f_diff_sizes : forall v1 v2 msg axis lim vb, length (data v1) <> length (data v2) -> length (data v1) <> 1%nat -> length (data v2) <> 1%nat ->
  test_diff v1 v2 msg axis lim vb = Err ValueError.
Proof.
  intros v1 v2 msg axis lim vb N A B. unfold test_diff, bc2. rewrite (proj2 (Nat.eqb_neq _ _) N). destruct (data v1) as [|x [|x' l]]; cbn in A; try lia; destruct (data v2) as [|y [|y' m]]; cbn in B; try lia; reflexivity.
Qed.
Lemma f_diff_one : forall v1 v2 c axis msg lim vb, data v1 = [c] -> axis = None \/ axis = Some 0%Z \/ axis = Some (-1)%Z ->
  exists s, test_diff v1 v2 msg axis lim vb = Ok (rsum (length (data v2)) (fun i => Rabs (c - nth i (data v2) 0)), s).
Proof.
  intros v1 v2 c axis msg lim vb E A. unfold test_diff. rewrite E.
  assert (B : exists l, bc2 (fun x y => Rabs (x - y)) [c] (data v2) = Ok l /\ lsum l = rsum (length (data v2)) (fun i => Rabs (c - nth i (data v2) 0))).
  { unfold bc2. destruct (Nat.eqb_spec (length [c]) (length (data v2))) as [Q|Q].
    - destruct (data v2) as [|y [|? ?]]; try discriminate. eexists. split; [reflexivity|]. cbn. ring.
    - eexists. split; [reflexivity|]. rewrite lsum_nth, map_length. apply rsum_ext. intros i I. rewrite (nth_map_in _ _ _ _ 0) by exact I. reflexivity. }
  destruct B as (l & -> & S). cbn [bind]. rewrite axis_ok by exact A. cbn [bind]. rewrite S. eexists. reflexivity.
Qed.
(** a difference of 0 does not mean equal arrays *)
Lemma f_diff_zero_refuted : ~ (forall v1 v2 msg axis lim vb s, test_diff v1 v2 msg axis lim vb = Ok (0, s) -> shape v1 = shape v2 /\ data v1 = data v2).
Proof.
  intros H. destruct (f_diff_one (Nd [1%nat] [5]) (Nd [3%nat] [5; 5; 5]) 5 None None 0 true eq_refl (or_introl eq_refl)) as (s & E).
  replace (rsum (length (data (Nd [3%nat] [5; 5; 5]))) (fun i => Rabs (5 - nth i (data (Nd [3%nat] [5; 5; 5])) 0))) with 0 in E; [apply H in E; destruct E; discriminate|]. cbn. replace (5 - 5) with 0 by ring. rewrite Rabs_R0. ring.
Qed.
(** "close" is not a limit on the entries: all may be within it and the arrays reported as different *)
Lemma f_diff_entries_refuted : ~ (forall v1 v2 lim d s, test_diff v1 v2 None None lim true = Ok (d, s) ->
  (forall i, Rabs (nth i (data v1) 0 - nth i (data v2) 0) <= lim) -> s = [SaidClose]).
Proof.
  intros H. destruct (f_diff (Nd [2%nat] [1; 1]) (Nd [2%nat] [0; 0]) None None 1 true eq_refl (or_introl eq_refl)) as [E _]. apply H in E.
  - revert E. cbn [app]. destruct (Rlt_dec _ _) as [L|L]; [discriminate|]. exfalso. apply L. unfold distance1. cbn. rewrite Rminus_0_r, Rabs_R1. lra.
  - intros [|[|[|i]]]; cbn; rewrite ?Rminus_0_r, ?Rabs_R1, ?Rabs_R0; lra.
Qed.
Lemma ex_diff : test_diff (Nd [2%nat] [3; 1]) (Nd [2%nat] [1; 1]) (Some "taps"%string) (Some 0%Z) (1 / 1000000) true = Ok (2, [SaidMsg "taps"%string; SaidDiff 2]).
Proof.
  destruct (f_diff (Nd [2%nat] [3; 1]) (Nd [2%nat] [1; 1]) (Some "taps"%string) (Some 0%Z) (1 / 1000000) true eq_refl (or_intror (or_introl eq_refl))) as [E _]. rewrite E.
  assert (D : distance1 (data (Nd [2%nat] [3; 1])) (data (Nd [2%nat] [1; 1])) = 2) by (unfold distance1; cbn; replace (3 - 1) with 2 by ring; replace (1 - 1) with 0 by ring; rewrite Rabs_R0, Rabs_right by lra; ring).
  rewrite D. clear E D. destruct (Rlt_dec (1 / 1000000) 2) as [L|L]; [reflexivity|exfalso; lra].
Qed.
(** two signals are never compared *)
Lemma f_compare_refuted : forall A B, compare_ambi A B <> Ok tt.
Proof. intros A B. unfold compare_ambi. destruct (channels B); discriminate. Qed.

(** ** normals *)
Lemma coord_add k p q : coord k (add3 p q) = coord k p + coord k q.
Proof. destruct k as [|[|k]]; reflexivity. Qed.
Lemma coord_vsum k l : coord k (vsum3 l) = rsum (length l) (fun i => coord k (nth i l (0, 0, 0))).
Proof.
  induction l as [|a l IH]; [destruct k as [|[|k]]; reflexivity|]. cbn [length]. rewrite rsum_shift. cbn [nth vsum3 fold_right]. rewrite coord_add. f_equal. exact IH.
Qed.
Lemma coord_vmean k l : coord k (vmean l) = coord k (vsum3 l) / INR (length l).
Proof. unfold vmean. destruct k as [|[|k]]; reflexivity. Qed.
Lemma mean_vmean l : l <> [] -> mean_of l (vmean l).
Proof. intros N k. rewrite coord_vmean, coord_vsum. assert (INR (length l) <> 0) by (apply not_0_INR; destruct l; [congruence|discriminate]). field. assumption. Qed.
Lemma mean_centroid ps f : mean_of (corners ps f) (centroid ps f).
Proof. destruct f as [[a b] c]. apply (mean_vmean (corners ps (a, b, c))). discriminate. Qed.
Lemma coord_scal k c p : coord k (scal3 c p) = c * coord k p.
Proof. destruct k as [|[|k]]; reflexivity. Qed.
Lemma corner_dec f i : {has_corner f i} + {~ has_corner f i}.
Proof. destruct f as [[a b] c]. cbn. destruct (Nat.eq_dec i a), (Nat.eq_dec i b), (Nat.eq_dec i c); tauto || (right; intros [?|[?|?]]; contradiction). Qed.
Lemma corner_bool f i : existsb (Nat.eqb i) (fv f) = if corner_dec f i then true else false.
Proof.
  destruct f as [[a b] c]. destruct (corner_dec (a, b, c) i) as [H|H]; cbn in H |- *.
  - destruct H as [->|[->| ->]]; rewrite Nat.eqb_refl; rewrite ?orb_true_r; reflexivity.
  - destruct (Nat.eqb_spec i a), (Nat.eqb_spec i b), (Nat.eqb_spec i c); subst; tauto || reflexivity.
Qed.
Lemma vertex_sum k fs ar nm p : length ar = length fs -> length nm = length fs ->
  coord k (vertex_normal fs ar nm p) = rsum (length fs) (fun j => if corner_dec (nth j fs (0, 0, 0)%nat) p then nth j ar 0 * coord k (nth j nm (0, 0, 0)) else 0).
Proof.
  revert ar nm. induction fs as [|f fs IH]; intros [|a ar] [|n nm] L M; try discriminate; [destruct k as [|[|k]]; reflexivity|]. cbn [length]. rewrite rsum_shift. cbn [nth]. unfold vertex_normal. cbn [combine filter fst]. rewrite corner_bool. destruct (corner_dec f p); cbn [map vsum3 fold_right fst snd].
  - rewrite coord_add, coord_scal. f_equal. apply (IH ar nm); [injection L; auto|injection M; auto].
  - rewrite Rplus_0_l. apply (IH ar nm); [injection L; auto|injection M; auto].
Qed.
Lemma f_normals : forall chull ps vertices show_faces show_points,
  let h := hull_of_points chull ps in let fig := hull_normals vertices h show_faces show_points in let faces := h_simplices h in
  length (nf_text fig) = length ps /\ (forall i, (i < length ps)%nat -> nth i (nf_text fig) ((0, 0, 0), 0%nat) = (nth i ps (0, 0, 0), i)) /\
  (ps <> [] -> mean_of ps (nf_barycenter fig)) /\
  (show_faces = false -> nf_face fig = None) /\ (show_points = false -> nf_vertex fig = None) /\
  (show_faces = true -> exists arrows, nf_face fig = Some arrows /\ length arrows = length (chull ps) /\
     forall j, (j < length arrows)%nat -> let '(a, b, c) := nth j faces (0, 0, 0)%nat in let '(start, n) := nth j arrows ((0, 0, 0), (0, 0, 0)) in
       mean_of (corners ps (a, b, c)) start /\ dot3 n (sub3 (nth b ps (0, 0, 0)) (nth a ps (0, 0, 0))) = 0 /\ dot3 n (sub3 (nth c ps (0, 0, 0)) (nth a ps (0, 0, 0))) = 0 /\
       norm3 n = 2 * face_area ps (a, b, c) /\ dot3 n (sub3 (nf_barycenter fig) start) <= 1 / 100000) /\
  (show_points = true -> exists arrows, nf_vertex fig = Some arrows /\ length arrows = length ps /\
     forall i, (i < length ps)%nat -> fst (nth i arrows ((0, 0, 0), (0, 0, 0))) = nth i ps (0, 0, 0) /\
       (~ In i vertices -> snd (nth i arrows ((0, 0, 0), (0, 0, 0))) = (0, 0, 0)) /\
       (In i vertices -> forall w, (forall j, has_corner (nth j faces (0, 0, 0)%nat) i -> w j = 1) -> (forall j, ~ has_corner (nth j faces (0, 0, 0)%nat) i -> w j = 0) ->
          forall k, coord k (snd (nth i arrows ((0, 0, 0), (0, 0, 0)))) =
            rsum (length faces) (fun j => w j * (face_area ps (nth j faces (0, 0, 0)%nat) * coord k (face_normal ps (nth j faces (0, 0, 0)%nat)))))).
Proof.
  intros chull ps vs sf sp h fig faces. assert (LF : length faces = length (chull ps)) by (unfold faces, h; cbn; apply map_length).
  split; [unfold fig; cbn [nf_text hull_normals]; rewrite combine_length, seq_length; apply Nat.min_id|].
  split. { intros i I. unfold fig. cbn [nf_text hull_normals]. rewrite combine_nth by (rewrite seq_length; reflexivity). rewrite seq_nth by exact I. reflexivity. }
  split; [intros N; exact (mean_vmean ps N)|]. split; [intros ->; reflexivity|]. split; [intros ->; reflexivity|]. split.
  - intros ->. eexists. split; [reflexivity|]. cbn [h h_centroids h_normals hull_of_points]. fold h. change (sort_vertices (chull ps)) with faces. rewrite combine_length, !map_length, Nat.min_id. split; [exact LF|]. intros j J.
    rewrite combine_nth by (rewrite !map_length; reflexivity). rewrite !(@nth_map_in face _ _ _ _ _ (0, 0, 0)%nat) by exact J. destruct (nth j faces (0, 0, 0)%nat) as [[a b] c]. split; [apply mean_centroid|]. split; [apply normal_orthogonal|]. split; [apply normal_orthogonal|]. split; [apply normal_length|]. apply normal_outward.
  - intros ->. eexists. split; [reflexivity|]. cbn [h_points hull_of_points h]. fold h. assert (LV : length (vertex_normals vs h) = length ps) by (unfold vertex_normals; rewrite map_length, seq_length; reflexivity). split; [rewrite combine_length, LV; apply Nat.min_id|].
    intros i I. rewrite combine_nth by (symmetry; exact LV). cbn [fst snd]. split; [reflexivity|]. unfold vertex_normals. change (h_points h) with ps. rewrite nth_map_seq by exact I. split.
    + intros N. destruct (existsb (Nat.eqb i) vs) eqn:E; [|reflexivity]. apply existsb_exists in E. destruct E as (x & X & Q). apply Nat.eqb_eq in Q. subst x. contradiction.
    + intros N w W1 W0 k. replace (existsb (Nat.eqb i) vs) with true by (symmetry; apply existsb_exists; exists i; split; [exact N|apply Nat.eqb_refl]). change (h_simplices h) with faces. change (h_areas h) with (map (face_area ps) faces). change (h_normals h) with (map (face_normal ps) faces). rewrite vertex_sum by (rewrite !map_length; reflexivity).
      apply rsum_ext. intros j J. rewrite (@nth_map_in face _ _ _ _ _ (0, 0, 0)%nat) by exact J. rewrite (@nth_map_in face _ _ _ _ _ (0, 0, 0)%nat) by exact J. destruct (corner_dec _ i) as [H|H]; [rewrite (W1 j H)|rewrite (W0 j H)]; ring.
Qed.
(** three points and the triangle between them *)
Lemma ex_normals : exists arrows, nf_face (hull_normals [0; 1; 2]%nat (hull_of_points (fun _ => [(0, 1, 2)%nat]) [(1, 0, 0); (0, 1, 0); (0, 0, 1)]) true true) = Some arrows /\
  length arrows = 1%nat /\ mean_of [(1, 0, 0); (0, 0, 1); (0, 1, 0)] (fst (nth 0 arrows ((0, 0, 0), (0, 0, 0)))).
Proof.
  destruct (f_normals (fun _ => [(0, 1, 2)%nat]) [(1, 0, 0); (0, 1, 0); (0, 0, 1)] [0; 1; 2]%nat true true) as (_ & _ & _ & _ & _ & H & _). destruct (H eq_refl) as (arrows & E & L & A). exists arrows. split; [exact E|]. split; [exact L|].
  specialize (A 0%nat ltac:(cbn in L |- *; lia)). cbn [h_simplices hull_of_points sort_vertices map sort_face] in A. cbn in A. destruct (nth 0 arrows (0, 0, 0, (0, 0, 0))) as [s n]. exact (proj1 A).
Qed.
