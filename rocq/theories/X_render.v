(** Final forms and examples for rendering with post equalisation (C125). *)
From Verif Require Import Base BaseFacts M_utils M_sig M_process M_decoder M_decoder2 M_decoder3 M_parsa2 M_parsa3 M_firwin M_render
  S_process S_utils S_decoder3 S_parsa2 S_parsa3 S_render P_sig P_dec13 P_parsa8 P_parsa12 P_parsa13 P_parsa14 P_firwin2 P_render X_sig X_dec3 X_parsa2 X_parsa3.
Open Scope R_scope.

(** [s] is what the loudspeakers play *)
Lemma played h (M : mat) fs hr T az ze di hl hh (F : nat -> nat -> R) : hrir_set hr T -> rendered_from h (0, 0) hr az ze di hl hh -> h_fs hr = fs ->
  nr M = length (h_points h) -> (forall c u, (c < nr M)%nat -> (u < nc M)%nat -> ent M c u = F c u) ->
  exists l r, binauralize h (arr2_of M) fs (0, 0) hr = Ok (Some (l, r)) /\
    length l = (nc M + T - 1)%nat /\ length r = (nc M + T - 1)%nat /\
    forall loud, (forall c, (c < nr M)%nat -> loud c = true <-> heard (delivered (nc M) (h_a h) (di c) (F c))) ->
    forall n, (n < nc M + T - 1)%nat ->
      nth n l 0 = rsum (nr M) (fun c => if loud c : bool then conv_sum (delivered (nc M) (h_a h) (di c) (F c)) (hl c) n else 0) /\
      nth n r 0 = rsum (nr M) (fun c => if loud c : bool then conv_sum (delivered (nc M) (h_a h) (di c) (F c)) (hh c) n else 0).
Proof.
  intros HS HR Hf NR EF.
  assert (forall c, (c < nr M)%nat -> radiated (arr2_of M) (h_a h) di c = delivered (nc M) (h_a h) (di c) (F c)) as RA.
  { intros c C. unfold radiated, delivered, arr2_of. cbn [rows]. rewrite nth_map_seq by exact C. rewrite map_map. apply map_ext_in.
    intros u U. apply in_seq in U. rewrite EF by lia. reflexivity. }
  assert (length (rows (arr2_of M)) = length (h_points h)) as LR by (unfold arr2_of; cbn [rows]; rewrite map_length, seq_length; exact NR).
  destruct (superposition_final h (arr2_of M) fs (0, 0) hr T az ze di hl hh
    (fun c => if heard_dec (radiated (arr2_of M) (h_a h) di c) then true else false) HS HR Hf LR (arr2_rect M)) as (l & r & E & L1 & L2 & N).
  { intros c _. destruct (heard_dec (radiated (arr2_of M) (h_a h) di c)); intuition congruence. }
  change (cols (arr2_of M)) with (nc M) in *. exists l, r. do 3 (split; [assumption|]). intros loud HL n Hn. destruct (N n Hn) as [N1 N2].
  rewrite N1, N2, <- NR.
  split; apply rsum_ext; intros c C; rewrite RA by exact C; specialize (HL c C);
    destruct (heard_dec (delivered (nc M) (h_a h) (di c) (F c))) as [Y|Y]; destruct (loud c); try reflexivity; exfalso; intuition congruence.
Qed.

Lemma f_post_default p gains h fs soft hr T az ze di hl hh bs : (32000 <= fs <= 1000000)%Z -> (forall b, (b < 10)%nat -> band_size fs b (bs b)) ->
  (bs 0 mod 4 = 0)%nat -> length (h_d h) = nc gains -> (forall l, (l < nc gains)%nat -> 0 < nth l (h_d h) 0) ->
  hrir_set hr T -> rendered_from h (0, 0) hr az ze di hl hh -> h_fs hr = fs ->
  nr gains = length p -> nc gains = length (h_points h) ->
  exists gs irs fuel0, (forall b, (b < 10)%nat -> firwin2 (bs 0 / 2 - 1)%nat (nth b gs []) = Ok (irs b)) /\
    forall fuel, (fuel0 <= fuel)%nat ->
    (exists ff, frac_octave_filterbank fuel 1 (2 ^ 16) fs (625 / 10) (Some 16000) Amplitude (5 / 10) 3 = Ok (gs, ff)) /\
    let F := eq_out irs 10 bs soft (bs 0%nat) (length p) (nc gains) (fun l => / Rpower (nth l (h_d h) 0) (h_a h)) p
               (fun l => map (fun u => nth u p 0 * ent gains u l) (seq 0 (length p))) in
    let sig c := delivered (length p) (h_a h) (di c) (fun u => F c (Z.of_nat u)) in
    exists l r warned, render_with_post firwin2 fuel p gains h fs (DefaultPost soft) hr = Ok (Some ((l, r), warned)) /\
      (warned = true <-> exists c v, (c < nc gains)%nat /\ (- 2 * Z.of_nat (bs 0%nat) <= v <= 0)%Z /\ 1 / 10 ^ 4 < Rabs (F c v)) /\
      length l = (length p + T - 1)%nat /\ length r = (length p + T - 1)%nat /\
      forall loud, (forall c, (c < nc gains)%nat -> loud c = true <-> heard (sig c)) ->
      forall n, (n < length p + T - 1)%nat ->
        nth n l 0 = rsum (nc gains) (fun c => if loud c : bool then conv_sum (sig c) (hl c) n else 0) /\
        nth n r 0 = rsum (nc gains) (fun c => if loud c : bool then conv_sum (sig c) (hh c) n else 0).
Proof.
  intros Hf Hb H4 Hd Hd0 HS HR HF NR NC.
  set (ls := Mat (nc gains) (length p) (fun l t => nth t p 0 * ent gains t l)).
  destruct (post_eq_final firwin2 ls p fs (h_d h) (h_a h) soft bs Hf Hb H4 firwin2_total eq_refl Hd Hd0) as (gs & irs & fuel0 & _ & _ & _ & Hi & Hout).
  exists gs, irs, fuel0. split; [intros b B; apply Hi; exact B|]. intros fuel Hfu.
  destruct (Hout fuel Hfu) as (FF & out & warned & E & A1 & A2 & A3 & A4). split; [exact FF|]. cbv zeta in A3, A4 |- *.
  change (nr ls) with (nc gains) in *. change (nc ls) with (length p) in *. change (ent ls) with (fun l t => nth t p 0 * ent gains t l) in *. cbv beta in A3, A4.
  set (F := eq_out _ _ _ _ _ _ _ _ _ _) in *.
  destruct (played h out fs hr T az ze di hl hh (fun c u => F c (Z.of_nat u)) HS HR HF) as (l & r & B & L1 & L2 & N).
  { rewrite A1. exact NC. }
  { intros c u C U. rewrite A1 in C. rewrite A2 in U. apply A3; assumption. }
  rewrite A1, A2 in *. exists l, r, warned. split; [|split; [exact A4|split; [exact L1|split; [exact L2|exact N]]]].
  unfold render_with_post. rewrite NR, Nat.eqb_refl. cbn [assert_ bind].
  unfold loudspeaker_signals. rewrite NC, Nat.eqb_refl, NR, Nat.eqb_refl. cbn [assert_ bind]. rewrite <- NC. fold ls. rewrite E. cbn [bind]. rewrite B. reflexivity.
Qed.

Lemma f_post_static p gains h fs soft hr T az ze di hl hh bs g : (32000 <= fs <= 1000000)%Z -> (forall b, (b < 10)%nat -> band_size fs b (bs b)) ->
  (bs 0 mod 4 = 0)%nat -> length (h_d h) = nc gains ->
  hrir_set hr T -> rendered_from h (0, 0) hr az ze di hl hh -> h_fs hr = fs ->
  nr gains = length p -> nc gains = length (h_points h) ->
  (forall c, (c < nc gains)%nat -> di c = nth c (h_d h) 0) ->
  (forall c, (c < nc gains)%nat -> 0 <= g c) -> rsum (nc gains) (fun c => g c * g c) = 1 ->
  (forall u c, (u < length p)%nat -> (c < nc gains)%nat -> ent gains u c = g c * Rpower (di c) (h_a h)) ->
  (forall b s k, (b < 10)%nat -> let m := magnitude (2 * bs b - 1) (bs b) (block (bs b) p s) k in m = 0 \/ 1 / 10 ^ 9 <= m) ->
  exists gs irs fuel0, (forall b, (b < 10)%nat -> firwin2 (bs 0 / 2 - 1)%nat (nth b gs []) = Ok (irs b)) /\
    forall fuel, (fuel0 <= fuel)%nat ->
    (exists ff, frac_octave_filterbank fuel 1 (2 ^ 16) fs (625 / 10) (Some 16000) Amplitude (5 / 10) 3 = Ok (gs, ff)) /\
    let sig c := map (fun u => g c * thinned irs p (nc gains) g u) (seq 0 (length p)) in
    exists l r warned, render_with_post firwin2 fuel p gains h fs (DefaultPost soft) hr = Ok (Some ((l, r), warned)) /\
      length l = (length p + T - 1)%nat /\ length r = (length p + T - 1)%nat /\
      forall loud, (forall c, (c < nc gains)%nat -> loud c = true <-> heard (sig c)) ->
      forall n, (n < length p + T - 1)%nat ->
        nth n l 0 = rsum (nc gains) (fun c => if loud c : bool then conv_sum (sig c) (hl c) n else 0) /\
        nth n r 0 = rsum (nc gains) (fun c => if loud c : bool then conv_sum (sig c) (hh c) n else 0).
Proof.
  intros Hf Hb H4 Hd HS HR HF NR NC HD Hg HU Hx Hm.
  set (ls := Mat (nc gains) (length p) (fun l t => nth t p 0 * ent gains t l)).
  assert (forall l, (l < nr ls)%nat -> 0 < nth l (h_d h) 0) as Hd0.
  { intros l L. cbn [nr ls] in L. rewrite <- HD by exact L. apply (HR l). rewrite <- NC. exact L. }
  destruct (post_eq_static firwin2 ls p fs (h_d h) (h_a h) soft bs g Hf Hb H4 firwin2_linear eq_refl Hd Hd0 Hg HU) as (gs & irs & fuel0 & _ & Hi & Hout).
  { intros l u L U. cbn [nr nc ls] in L, U. cbn [ent ls]. rewrite Hx by assumption. rewrite HD by exact L. ring. }
  { exact Hm. }
  exists gs, irs, fuel0. split; [intros b B; apply Hi; exact B|]. intros fuel Hfu.
  destruct (Hout fuel Hfu) as (FF & out & warned & E & A1 & A2 & A3). split; [exact FF|]. cbv zeta.
  change (nr ls) with (nc gains) in *. change (nc ls) with (length p) in *.
  destruct (played h out fs hr T az ze di hl hh (fun c u => Rpower (nth c (h_d h) 0) (h_a h) * g c * thinned irs p (nc gains) g u) HS HR HF) as (l & r & B & L1 & L2 & N).
  { rewrite A1. exact NC. }
  { intros c u C U. rewrite A1 in C. rewrite A2 in U. apply A3; assumption. }
  rewrite A1, A2 in *.
  assert (forall c, (c < nc gains)%nat -> delivered (length p) (h_a h) (di c) (fun u => Rpower (nth c (h_d h) 0) (h_a h) * g c * thinned irs p (nc gains) g u) =
    map (fun u => g c * thinned irs p (nc gains) g u) (seq 0 (length p))) as AL.
  { intros c C. unfold delivered. apply map_ext. intros u. rewrite (HD c C). assert (0 < Rpower (nth c (h_d h) 0) (h_a h)) by apply exp_pos. field. lra. }
  exists l, r, warned. split; [|split; [exact L1|split; [exact L2|]]].
  - unfold render_with_post. rewrite NR, Nat.eqb_refl. cbn [assert_ bind].
    unfold loudspeaker_signals. rewrite NC, Nat.eqb_refl, NR, Nat.eqb_refl. cbn [assert_ bind]. rewrite <- NC. fold ls. rewrite E. cbn [bind]. rewrite B. reflexivity.
  - intros loud HL n Hn. destruct (N loud) with (n := n) as [N1 N2]; [intros c C; rewrite AL by exact C; apply HL; exact C|exact Hn|].
    rewrite N1, N2. split; apply rsum_ext; intros c C; rewrite AL by exact C; reflexivity.
Qed.
Lemma rsum_split_at L c g : (c < L)%nat -> rsum L g = g c + rsum L (fun i => if (i =? c)%nat then 0 else g i).
Proof.
  induction L as [|L IH]; intros H; [lia|]. cbn [rsum]. destruct (Nat.eq_dec c L) as [->|N].
  - rewrite Nat.eqb_refl. rewrite (rsum_ext L (fun i => if (i =? L)%nat then 0 else g i) g); [ring|]. intros i I. rewrite (proj2 (Nat.eqb_neq i L)) by lia. reflexivity.
  - rewrite IH by lia. rewrite (proj2 (Nat.eqb_neq L c)) by lia. ring.
Qed.
Lemma some_one L (g : nat -> R) : (exists c, (c < L)%nat /\ g c = 1) \/ (forall c, (c < L)%nat -> g c <> 1).
Proof.
  induction L as [|L IH]; [right; intros; lia|]. destruct IH as [(c & C & E)|N]; [left; exists c; split; [lia|exact E]|].
  destruct (Req_dec (g L) 1) as [E|E]; [left; exists L; split; [lia|exact E]|]. right. intros c C. destruct (Nat.eq_dec c L) as [->|D]; [exact E|apply N; lia].
Qed.
(** between no loss and the reciprocal of the sum of the gains; none for a single loudspeaker *)
Lemma f_lowered L g : (forall c, (c < L)%nat -> 0 <= g c) -> rsum L (fun c => g c * g c) = 1 ->
  (forall b, (3 <= b)%nat -> lowered b L g = 0) /\
  (forall b, 0 <= lowered b L g < 1) /\
  lowered 0 L g = 1 - / rsum L g /\
  (forall b, (b < 3)%nat -> lowered b L g = 0 <-> exists c, (c < L)%nat /\ g c = 1 /\ forall c', (c' < L)%nat -> c' <> c -> g c' = 0).
Proof.
  intros G U. pose proof (unit_power_sum L g G U) as S1.
  assert (forall b, 1 <= share b * rsum L g + (1 - share b)) as D by (intros b; pose proof (share_range b); nra).
  split; [intros [|[|[|b]]] B; try lia; unfold lowered; cbn [share]; replace (0 * _ + (1 - 0)) with 1 by ring; rewrite Rinv_1; ring|].
  split; [|split].
  - intros b. unfold lowered. specialize (D b). assert (0 < / (share b * rsum L g + (1 - share b))) by (apply Rinv_0_lt_compat; lra).
    assert (/ (share b * rsum L g + (1 - share b)) <= / 1) by (apply Rinv_le_contravar; lra). rewrite Rinv_1 in *. lra.
  - unfold lowered. cbn [share]. do 2 f_equal. ring.
  - intros b B. assert (0 < share b) as P by (destruct b as [|[|[|b]]]; cbn; try lra; lia). specialize (D b).
    assert (lowered b L g = 0 <-> rsum L g = 1) as Q.
    { unfold lowered. split; intros H.
      - assert ((share b * rsum L g + (1 - share b)) * / (share b * rsum L g + (1 - share b)) = 1) as H' by (apply Rinv_r; lra).
        replace (/ (share b * rsum L g + (1 - share b))) with 1 in H' by lra. nra.
      - rewrite H. replace (share b * 1 + (1 - share b)) with 1 by ring. rewrite Rinv_1. ring. }
    rewrite Q. clear Q. split.
    + intros H.
      (* each g (1 - g) is nonnegative and they sum to zero *)
      assert (forall c, (c < L)%nat -> g c <= 1) as G1.
      { intros c C. assert (g c <= rsum L g); [|lra]. rewrite (rsum_split_at L c g C). 
        assert (0 <= rsum L (fun i => if (i =? c)%nat then 0 else g i)) by (apply rsum_nonneg; intros i I; destruct (i =? c)%nat; [lra|apply G; exact I]). lra. }
      assert (forall c, (c < L)%nat -> g c * (1 - g c) = 0) as Z.
      { apply rsum_nonneg_0; [intros c C; pose proof (G c C); pose proof (G1 c C); nra|].
        rewrite (rsum_ext L _ (fun c => g c - g c * g c)) by (intros; ring). rewrite rsum_minus, U, H. ring. }
      destruct (some_one L g) as [(c & C & E)|N].
      * exists c. split; [exact C|]. split; [exact E|]. intros c' C' N. pose proof (rsum_split_at L c g C) as SP. rewrite H, E in SP.
        assert (rsum L (fun i => if (i =? c)%nat then 0 else g i) = 0) as Z0 by lra.
        assert (forall i, (i < L)%nat -> 0 <= (if (i =? c)%nat then 0 else g i)) as NN by (intros i I; destruct (i =? c)%nat; [lra|apply G; exact I]).
        pose proof (rsum_nonneg_0 L (fun i => if (i =? c)%nat then 0 else g i) NN Z0 c' C') as ZT. cbv beta in ZT.
        rewrite (proj2 (Nat.eqb_neq c' c) N) in ZT. exact ZT.
      * exfalso. assert (rsum L g = 0); [|lra]. apply rsum_0. intros c C. specialize (Z c C). specialize (N c C). apply Rmult_integral in Z. destruct Z as [Z|Z]; [exact Z|]. exfalso. apply N. lra.
    + intros (c & C & E & N). rewrite (rsum_single _ c); [exact E|exact C|]. intros i I Ni. apply N; assumption.
Qed.

(** ** The other choices *)
Lemma f_post_rate p gains h soft hr : nr gains = length p -> nc gains = length (h_points h) ->
  exists fuel0, forall fuel, (fuel0 <= fuel)%nat -> render_with_post firwin2 fuel p gains h 96000 (DefaultPost soft) hr = Err AssertionError.
Proof.
  intros NR NC. destruct (rate_96k firwin2 (Mat (nc gains) (length p) (fun l t => nth t p 0 * ent gains t l)) p (h_d h) (h_a h) soft) as (f1 & H).
  exists f1. intros fuel Hfu. unfold render_with_post. rewrite NR, Nat.eqb_refl. cbn [assert_ bind].
  unfold loudspeaker_signals. rewrite NC, Nat.eqb_refl, NR, Nat.eqb_refl. cbn [assert_ bind]. rewrite <- NC, H by lia. reflexivity.
Qed.
Lemma f_post_none fw fuel p gains h fs hr :
  render_with_post fw fuel p gains h fs NoPost hr =
  match render_binaural_loudspeaker_sdm p gains h fs None hr with Ok o => Ok (option_map (fun lr => (lr, true)) o) | Err e => Err e end.
Proof.
  unfold render_with_post, render_binaural_loudspeaker_sdm. destruct (assert_ _); cbn [bind]; [|reflexivity].
  destruct (loudspeaker_signals _ _ _); cbn [bind]; [|reflexivity]. destruct (binauralize _ _ _ _ _); reflexivity.
Qed.
(** a function of the caller: the number of loudspeakers is checked, its signals are what is heard *)
Lemma f_post_function fw fuel p gains h fs f hr T az ze di hl hh : hrir_set hr T -> rendered_from h (0, 0) hr az ze di hl hh -> h_fs hr = fs ->
  nr gains = length p -> nc gains = length (h_points h) ->
  let ls := Mat (nc gains) (length p) (fun c u => nth u p 0 * ent gains u c) in
  (forall e, f ls p fs h = Err e -> render_with_post fw fuel p gains h fs (OtherPost f) hr = Err e) /\
  (forall M, f ls p fs h = Ok M -> nr M <> nc gains -> render_with_post fw fuel p gains h fs (OtherPost f) hr = Err AssertionError) /\
  (forall M, f ls p fs h = Ok M -> nr M = nc gains ->
    exists l r, render_with_post fw fuel p gains h fs (OtherPost f) hr = Ok (Some ((l, r), false)) /\
      length l = (nc M + T - 1)%nat /\ length r = (nc M + T - 1)%nat /\
      forall loud, (forall c, (c < nc gains)%nat -> loud c = true <-> heard (delivered (nc M) (h_a h) (di c) (ent M c))) ->
      forall n, (n < nc M + T - 1)%nat ->
        nth n l 0 = rsum (nc gains) (fun c => if loud c : bool then conv_sum (delivered (nc M) (h_a h) (di c) (ent M c)) (hl c) n else 0) /\
        nth n r 0 = rsum (nc gains) (fun c => if loud c : bool then conv_sum (delivered (nc M) (h_a h) (di c) (ent M c)) (hh c) n else 0)).
Proof.
  intros HS HR HF NR NC ls.
  assert (render_with_post fw fuel p gains h fs (OtherPost f) hr =
    let* s := f ls p fs h in let* out := binauralize h (arr2_of s) fs (0, 0) hr in Ok (option_map (fun lr => (lr, false)) out)) as E.
  { unfold render_with_post. rewrite NR, Nat.eqb_refl. cbn [assert_ bind].
    unfold loudspeaker_signals. rewrite NC, Nat.eqb_refl, NR, Nat.eqb_refl. cbn [assert_ bind]. rewrite <- NC. fold ls. destruct (f ls p fs h); reflexivity. }
  rewrite E. split; [intros e ->; reflexivity|]. split.
  - intros M -> N. cbn [bind]. unfold binauralize. rewrite HF, Z.eqb_refl. cbn [assert_ bind].
    replace (length (rows (arr2_of M)) =? length (h_points h))%nat with false; [reflexivity|]. symmetry. apply Nat.eqb_neq.
    unfold arr2_of. cbn [rows]. rewrite map_length, seq_length. lia.
  - intros M -> N. cbn [bind]. destruct (played h M fs hr T az ze di hl hh (ent M) HS HR HF) as (l & r & B & L1 & L2 & Q); [lia|reflexivity|].
    exists l, r. rewrite B, <- N. split; [reflexivity|]. auto.
Qed.
Lemma f_post_checks fw fuel p gains h fs post hr :
  (length p <> nr gains -> render_with_post fw fuel p gains h fs post hr = Err AssertionError) /\
  (length p = nr gains -> nc gains <> length (h_points h) -> render_with_post fw fuel p gains h fs post hr = Err AssertionError) /\
  (length p = nr gains -> nc gains = length (h_points h) -> render_with_post fw fuel p gains h fs NotCallable hr = Err TypeError).
Proof.
  unfold render_with_post. split; [|split].
  - intros N. rewrite (proj2 (Nat.eqb_neq _ _) N). reflexivity.
  - intros -> N. rewrite Nat.eqb_refl. cbn [assert_ bind]. unfold loudspeaker_signals. rewrite (proj2 (Nat.eqb_neq _ _) N). reflexivity.
  - intros NR NC. rewrite <- NR, Nat.eqb_refl. cbn [assert_ bind]. unfold loudspeaker_signals. rewrite NC, <- NR, !Nat.eqb_refl. reflexivity.
Qed.

(** ** Example: a loud impulse between two loudspeakers *)
Definition between (c : nat) : R := if (c =? 0)%nat then 3 / 5 else 4 / 5.
Lemma ex_render : exists A bs az ze di hl hh,
  let p := loud_p A in let gains := Mat 4 2 (fun _ c => between c) in
  0 < A /\ (forall b, (b < 10)%nat -> band_size 48000 b (bs b)) /\ (bs 0 mod 4 = 0)%nat /\ length (h_d unit_hull) = nc gains /\
  hrir_set two_hrirs 2 /\ rendered_from unit_hull (0, 0) two_hrirs az ze di hl hh /\ h_fs two_hrirs = 48000%Z /\
  nr gains = length p /\ nc gains = length (h_points unit_hull) /\
  (forall c, (c < nc gains)%nat -> di c = nth c (h_d unit_hull) 0) /\
  (forall c, (c < nc gains)%nat -> 0 <= between c) /\ rsum (nc gains) (fun c => between c * between c) = 1 /\
  (forall u c, (u < length p)%nat -> (c < nc gains)%nat -> ent gains u c = between c * Rpower (di c) (h_a unit_hull)) /\
  (forall b s k, (b < 10)%nat -> let m := magnitude (2 * bs b - 1) (bs b) (block (bs b) p s) k in m = 0 \/ 1 / 10 ^ 9 <= m) /\
  lowered 0 2 between = 2 / 7 /\ lowered 1 2 between = 1 / 6 /\ lowered 2 2 between = 1 / 11 /\
  exists fuel l r warned, render_with_post firwin2 fuel p gains unit_hull 48000 (DefaultPost true) two_hrirs = Ok (Some ((l, r), warned)) /\ length l = 5%nat.
Proof.
  destruct ex_post_eq as (bs & A & Hb & H4 & PA & _ & M & _). destruct ex_loudspeaker as (az & ze & di & hl & hh & Q). cbv zeta in Q.
  destruct Q as (Q1 & Q2 & Q3 & _ & _ & _ & Q4 & _). exists A, bs, az, ze, di, hl, hh. cbv zeta.
  assert (forall c, (c < 2)%nat -> nth c (h_d unit_hull) 0 = 1) as D1.
  { intros [|[|c]] C; [| |lia]; cbn; replace (_ + _) with (1 * 1) by ring; apply sqrt_square; lra. }
  assert (forall c, (c < 2)%nat -> di c = nth c (h_d unit_hull) 0) as D2 by (intros c C; rewrite D1 by exact C; apply Q4; exact C).
  assert (forall c, (c < 2)%nat -> 0 <= between c) as G0 by (intros c _; unfold between; destruct (c =? 0)%nat; lra).
  assert (rsum 2 (fun c => between c * between c) = 1) as G1 by (cbn; unfold between; cbn; lra).
  assert (forall u c, (u < 4)%nat -> (c < 2)%nat -> between c = between c * Rpower (di c) (h_a unit_hull)) as G2.
  { intros u c _ C. rewrite D2, D1 by exact C. change (h_a unit_hull) with 1. rewrite Rpower_1 by lra. ring. }
  split; [exact PA|]. split; [exact Hb|]. split; [exact H4|]. split; [reflexivity|]. split; [exact Q1|]. split; [exact Q2|]. split; [exact Q3|].
  split; [reflexivity|]. split; [reflexivity|]. split; [exact D2|]. split; [exact G0|]. split; [exact G1|]. split; [exact G2|]. split; [exact M|].
  split; [unfold lowered, between; cbn; lra|]. split; [unfold lowered, between; cbn; lra|]. split; [unfold lowered, between; cbn; lra|].
  destruct (f_post_static (loud_p A) (Mat 4 2 (fun _ c => between c)) unit_hull 48000 true two_hrirs 2 az ze di hl hh bs between) as (gs & irs & f0 & _ & E); auto; [lia|].
  destruct (E f0 (le_n _)) as (_ & l & r & w & R & L & _). exists f0, l, r, w. split; [exact R|exact L].
Qed.
