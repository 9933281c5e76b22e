(** Several sets of coefficients. *)
From Coq Require Import Lra Lia String FunctionalExtensionality.
From Verif Require Import Base BaseFacts M_utils M_sig P_sig M_process M_sph0 M_sph P_sph7 P_sph9 P_sph11 P_sph13 S_sph M_grids M_decoder M_decoder2 M_decoder3 M_parsa3 M_decoder4 M_parsa2 M_io M_process2 M_plot M_io3 M_process3 M_plot2 S_plot2 P_plot7.
Open Scope R_scope.
Local Notation length := List.length.

Lemma inverse_col F N azi zen : of_order N F -> length zen = length azi ->
  exists f, inverse_sht_kind ShComplex F azi zen = Ok f /\ forall i, (i < length azi)%nat -> f i = function_value ShComplex N F (nth i azi 0) (nth i zen 0).
Proof.
  intros O L. unfold of_order in O. unfold inverse_sht_kind, inverse_sht_all. set (l := coef_c F) in *. cbn [cnr]. pose proof (sq_ge1 N) as G1. destruct (length l) as [|K] eqn:EK; [lia|]. rewrite O, order_of_sq, Nat2Z.id. unfold inverse_sht_c, sh_matrix_c, dirs_ok. rewrite L, Nat.eqb_refl. cbn [orb bind]. unfold cmatmul. cbn [cnc cnr]. rewrite Nat.min_id, Nat.eqb_refl. cbn [bind].
  eexists. split; [reflexivity|]. intros i I. cbn [cent]. unfold function_value. unfold csum at 1 2. rewrite !sq2, !rsum_acn.
  assert (BC : bc1 zen i = nth i zen 0) by (unfold bc1; destruct zen as [|z0 [|z1 zen]]; try reflexivity; cbn in L; destruct i; [reflexivity|lia]). rewrite BC.
  unfold csum. cbn [fst snd]. f_equal; apply rsum_ext; intros n Hn; apply rsum_ext; intros q Hq; rewrite (acn_nth N n q) by lia; reflexivity.
Qed.
Lemma nth_fst (l : list (R * R)) i : nth i (map fst l) 0 = fst (nth i l (0, 0)).
Proof. exact (map_nth fst l (0, 0) i). Qed.
Lemma nth_snd (l : list (R * R)) i : nth i (map snd l) 0 = snd (nth i l (0, 0)).
Proof. exact (map_nth snd l (0, 0) i). Qed.
Lemma nth_fst_c (l : list C2) i : nth i (map fst l) 0 = fst (nth i l (0, 0)).
Proof. exact (map_nth fst l (0, 0) i). Qed.
Lemma nth_snd_c (l : list C2) i : nth i (map snd l) 0 = snd (nth i l (0, 0)).
Proof. exact (map_nth snd l (0, 0) i). Qed.
Lemma inverse_col_real F N azi zen : of_order N F -> length zen = length azi ->
  exists f, inverse_sht_kind ShReal F azi zen = Ok f /\ forall i, (i < length azi)%nat -> f i = function_value ShReal N F (nth i azi 0) (nth i zen 0).
Proof.
  intros O L. unfold of_order in O. unfold inverse_sht_kind. set (l := coef_c F) in *.
  destruct (inverse_sht_col (map fst l) N azi zen ltac:(rewrite map_length; exact O) L) as (f & Ef & _ & _ & Hf). destruct (inverse_sht_col (map snd l) N azi zen ltac:(rewrite map_length; exact O) L) as (g & Eg & _ & _ & Hg).
  assert (Ef' : inverse_sht (Mat (length l) 1 (fun i _ => fst (nth i l (0, 0)))) azi zen None None = Ok f) by (rewrite <- Ef, map_length; f_equal; f_equal; apply functional_extensionality; intro i; apply functional_extensionality; intro; symmetry; apply nth_fst_c).
  assert (Eg' : inverse_sht (Mat (length l) 1 (fun i _ => snd (nth i l (0, 0)))) azi zen None None = Ok g) by (rewrite <- Eg, map_length; f_equal; f_equal; apply functional_extensionality; intro i; apply functional_extensionality; intro; symmetry; apply nth_snd_c).
  rewrite Ef'. cbn [bind]. rewrite Eg'. cbn [bind]. eexists. split; [reflexivity|]. intros i I. cbv beta. rewrite Hf, Hg by exact I. unfold function_value. fold l. unfold field_value, csum. cbn [fst snd].
  f_equal; apply rsum_ext; intros n Hn; apply rsum_ext; intros q Hq; cbn [harmonic]; unfold cmul; cbn [fst snd]; rewrite ?nth_fst_c, ?nth_snd_c; ring.
Qed.
Lemma inverse_kind k F N azi zen : k <> ShUnknown -> of_order N F -> length zen = length azi ->
  exists f, inverse_sht_kind k F azi zen = Ok f /\ forall i, (i < length azi)%nat -> f i = function_value k N F (nth i azi 0) (nth i zen 0).
Proof. intros K. destruct k; [apply inverse_col_real|apply inverse_col|congruence]. Qed.
Lemma grid_points (g : list (R * R)) (f : nat -> R) i : (i < length g)%nat ->
  nth i (map (fun q => sph2cart (fst (snd q)) (snd (snd q)) (f (fst q))) (combine (seq 0 (length g)) g)) (0, 0, 0) = sph2cart (fst (nth i g (0, 0))) (snd (nth i g (0, 0))) (f i).
Proof. intros I. rewrite (nth_map_in _ _ _ _ (0%nat, (0, 0))) by (rewrite combine_length, seq_length, Nat.min_id; exact I). rewrite combine_nth by apply seq_length. rewrite seq_nth by exact I. reflexivity. Qed.
Lemma surface_kind k F N sa se f : (forall i, (i < length (map fst (balloon_grid sa se)))%nat -> f i = function_value k N F (nth i (map fst (balloon_grid sa se)) 0) (nth i (map snd (balloon_grid sa se)) 0)) ->
  surface k N F sa se (map (fun q => sph2cart (fst (snd q)) (snd (snd q)) (cabs (f (fst q)))) (combine (seq 0 (length (balloon_grid sa se))) (balloon_grid sa se))).
Proof.
  set (g := balloon_grid sa se). intros H. assert (LL : length (map (fun q => sph2cart (fst (snd q)) (snd (snd q)) (cabs (f (fst q)))) (combine (seq 0 (length g)) g)) = length g) by (rewrite map_length, combine_length, seq_length, Nat.min_id; reflexivity). split; [exact LL|]. intros i I. fold g. rewrite LL in I. rewrite (grid_points g (fun i => cabs (f i)) i I). rewrite map_length in H. destruct (nth i g (0, 0)) as [u v] eqn:E. assert (HF : nth i (map fst g) 0 = u) by (rewrite nth_fst, E; reflexivity). assert (HS : nth i (map snd g) 0 = v) by (rewrite nth_snd, E; reflexivity). rewrite (H i I), HF, HS. reflexivity.
Qed.
Lemma overlay_any : forall Fs t idx sa se, (forall F, In F Fs -> exists N, of_order N F) -> match t with Some k => k <> ShUnknown | None => True end ->
  exists figs, overlay_loop t idx Fs sa se = Ok figs /\ length figs = length Fs /\
    forall i N, (i < length Fs)%nat -> of_order N (nth i Fs (CoefR [])) ->
      surface (match t with Some k => k | None => coef_kind (nth 0 Fs (CoefR [])) end) N (nth i Fs (CoefR [])) sa se (fst (nth i figs ([], 0%nat))) /\ snd (nth i figs ([], 0%nat)) = Nat.min (idx + i) 8.
Proof.
  induction Fs as [|F Fs IH]; intros t idx sa se O T; [exists []; split; [reflexivity|]; split; [reflexivity|]; cbn; intros; lia|]. cbn [overlay_loop]. set (k := match t with Some k => k | None => coef_kind F end). set (g := balloon_grid sa se). assert (K : k <> ShUnknown) by (unfold k; destruct t; [exact T|destruct F; discriminate]).
  destruct (O F (or_introl eq_refl)) as (N & HN). destruct (inverse_kind k F N (map fst g) (map snd g) K HN ltac:(rewrite !map_length; reflexivity)) as (f & Ef & Hf). rewrite Ef. cbn [bind]. destruct (IH (Some k) (S idx) sa se (fun F' I => O F' (or_intror I)) K) as (r & Er & Lr & Hr). rewrite Er. cbn [bind]. eexists. split; [reflexivity|]. split; [cbn [length]; congruence|].
  intros [|i] M I HM; cbn [nth] in *.
  - fold k. split; [|rewrite Nat.add_0_r; reflexivity]. cbn [fst]. assert (M = N). { unfold of_order in *. rewrite HN in HM. assert ((N + 1 = M + 1)%nat); [|lia]. apply (Nat.pow_inj_l (N + 1) (M + 1) 2); [lia|exact HM]. } subst M. apply (surface_kind k F N sa se f Hf).
  - fold k. destruct (Hr i M ltac:(cbn in I; lia) HM) as [H1 H2]. split; [exact H1|]. rewrite H2. f_equal. lia.
Qed.
(** all sets of one kind *)
Lemma f_overlay : forall Fs t sa se, 0 < sa -> 0 < se -> (forall F, In F Fs -> exists N, of_order N F) -> t <> Some ShUnknown ->
  exists figs, sh_coeffs_overlay Fs t sa se = Ok figs /\ length figs = length Fs /\
    forall i N, (i < length Fs)%nat -> of_order N (nth i Fs (CoefR [])) ->
      surface (match t with Some k => k | None => coef_kind (nth 0 Fs (CoefR [])) end) N (nth i Fs (CoefR [])) sa se (fst (nth i figs ([], 0%nat))) /\ snd (nth i figs ([], 0%nat)) = Nat.min i 8.
Proof. intros Fs t sa se SA SE O T. unfold sh_coeffs_overlay. rewrite steps_pos by assumption. cbn [bind]. apply overlay_any; [exact O|]. destruct t; [congruence|exact I]. Qed.

(** ** one set: moduli and phases *)
Lemma f_balloon_c : forall l N sa se, 0 < sa -> 0 < se -> length l = ((N + 1) ^ 2)%nat ->
  exists pts, sh_coeffs_c l sa se = Ok pts /\ surface ShComplex N (CoefC l) sa se (map fst pts) /\
    forall i, (i < length pts)%nat -> let '(azi, zen) := nth i (balloon_grid sa se) (0, 0) in snd (nth i pts ((0, 0, 0), 0)) = angle (function_value ShComplex N (CoefC l) azi zen).
Proof.
  intros l N sa se SA SE L. set (g := balloon_grid sa se). destruct (inverse_col (CoefC l) N (map fst g) (map snd g) L ltac:(rewrite !map_length; reflexivity)) as (f & Ef & Hf). unfold inverse_sht_kind, inverse_sht_all in Ef. cbn [coef_c] in Ef. cbn [cnr] in Ef. pose proof (sq_ge1 N). destruct (length l) as [|K] eqn:EK; [lia|]. unfold sh_coeffs_c. rewrite steps_pos by assumption. cbn [bind]. fold g. rewrite EK. destruct (inverse_sht_c _ _ _ _) as [q|]; [|discriminate]. cbn [bind] in Ef |- *. injection Ef as <-.
  eexists. split; [reflexivity|]. rewrite map_length in Hf. split.
  - rewrite map_map. cbn [fst]. apply (surface_kind ShComplex (CoefC l) N sa se (fun i => cent q i 0%nat)). intros i I. fold g in I |- *. rewrite map_length in I. apply Hf. exact I.
  - rewrite map_length, combine_length, seq_length, Nat.min_id. intros i I. rewrite (nth_map_in _ _ _ _ (0%nat, (0, 0))) by (rewrite combine_length, seq_length, Nat.min_id; exact I). rewrite combine_nth by apply seq_length. rewrite seq_nth by exact I. cbn [fst snd Nat.add]. destruct (nth i g (0, 0)) as [u v] eqn:E. assert (HF : nth i (map fst g) 0 = u) by (rewrite nth_fst, E; reflexivity). assert (HS : nth i (map snd g) 0 = v) by (rewrite nth_snd, E; reflexivity). rewrite Hf by exact I. rewrite HF, HS. reflexivity.
Qed.
