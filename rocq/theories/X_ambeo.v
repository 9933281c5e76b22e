(** Recursive filters, A-to-B conversion, stereo downmix: final forms and examples. *)
From Coq Require Import Lra Lia String.
From Verif Require Import Base BaseFacts M_utils M_sig P_sig M_process M_sph0 M_sph M_process3 S_process3 P_lfilter P_ambeo.
Open Scope R_scope.

(** ** the stereo downmix *)
Lemma bc2_same f x y : length x = length y -> exists z, bc2 f x y = Ok z /\ length z = length x /\ forall t, (t < length x)%nat -> nth t z 0 = f (nth t x 0) (nth t y 0).
Proof.
  intros L. unfold bc2. rewrite L, Nat.eqb_refl. eexists. split; [reflexivity|]. split; [rewrite map_length, combine_length; lia|]. intros t T. rewrite (nth_map_in _ _ _ _ (0, 0)) by (rewrite combine_length; lia). rewrite combine_nth by exact L. reflexivity.
Qed.
Lemma stereo_samples s n : length (aW s) = n -> length (aX s) = n -> length (aY s) = n ->
  exists l r, b_to_stereo_sig s = Ok (l, r) /\ length l = n /\ length r = n /\
    forall t, (t < n)%nat -> nth t l 0 = nth t (aW s) 0 + (nth t (aX s) 0 + nth t (aY s) 0) / sqrt 2 /\ nth t r 0 = nth t (aW s) 0 + (nth t (aX s) 0 - nth t (aY s) 0) / sqrt 2.
Proof.
  intros LW LX LY. unfold b_to_stereo_sig. destruct (bc2_same Rplus (aX s) (aY s)) as (p & E1 & L1 & H1); [congruence|]. destruct (bc2_same Rminus (aX s) (aY s)) as (m & E2 & L2 & H2); [congruence|]. destruct (bc2_same (fun w u => w + u / sqrt 2) (aW s) p) as (l & E3 & L3 & H3); [congruence|]. destruct (bc2_same (fun w u => w + u / sqrt 2) (aW s) m) as (r & E4 & L4 & H4); [congruence|].
  exists l, r. rewrite E1. cbn [bind]. rewrite E2. cbn [bind]. rewrite E3. cbn [bind]. rewrite E4. split; [reflexivity|]. split; [congruence|]. split; [congruence|]. intros t T. rewrite H3, H4, H1, H2 by lia. auto.
Qed.
Lemma left45 : sph2cart (PI / 4) (PI / 2) 1 = (/ sqrt 2, / sqrt 2, 0).
Proof. unfold sph2cart. rewrite sin_PI4, cos_PI4, sin_PI2, cos_PI2. unfold Rdiv. repeat f_equal; ring. Qed.
Lemma right45 : sph2cart (- (PI / 4)) (PI / 2) 1 = (/ sqrt 2, - / sqrt 2, 0).
Proof. unfold sph2cart. rewrite sin_neg, cos_neg, sin_PI4, cos_PI4, sin_PI2, cos_PI2. unfold Rdiv. repeat f_equal; ring. Qed.
(** a plane wave reaches two cardioids, 45 degrees to the left and to the right *)
Lemma x_stereo : forall x azi zen fs, exists s l r,
  ambib_init (map (fun i => arr1 (mat_row (src_to_b x [azi] [zen]) i)) [0; 1; 2; 3]%nat) (Some fs) = Ok s /\ b_to_stereo_sig s = Ok (l, r) /\ length l = length x /\ length r = length x /\
  forall t, (t < length x)%nat -> let u := sph2cart azi zen 1 in
    nth t l 0 = nth t x 0 * (1 + dot3 u (sph2cart (PI / 4) (PI / 2) 1)) /\ nth t r 0 = nth t x 0 * (1 + dot3 u (sph2cart (- (PI / 4)) (PI / 2) 1)).
Proof.
  intros x azi zen fs. eexists. set (B := src_to_b x [azi] [zen]). assert (LB : forall i, length (mat_row B i) = length x) by (intros; unfold mat_row; rewrite map_length, seq_length; reflexivity).
  set (s := AmbiB (Multi (map (fun i => Mono (mat_row B i) fs) [0; 1; 2; 3]%nat) fs 4) (mat_row B 0) (mat_row B 1) (mat_row B 2) (mat_row B 3)).
  destruct (stereo_samples s (length x) (LB _) (LB _) (LB _)) as (l & r & E & Ll & Lr & H). exists l, r. split; [|split; [exact E|]].
  - unfold ambib_init, multi_init. cbn [map mapM]. rewrite !mono_init_arr1. cbn [bind channels m_sig]. rewrite !asarray_arr1. reflexivity.
  - split; [exact Ll|]. split; [exact Lr|]. intros t T u. destruct (H t T) as [H1 H2]. rewrite H1, H2, left45, right45. unfold s. cbn [aW aX aY].
    assert (G : forall i, nth t (mat_row B i) 0 = ent B i t) by (intros i; unfold mat_row; rewrite (nth_map_seq (ent B i)) by exact T; reflexivity). rewrite !G. unfold B, src_to_b. cbn [ent combine flat_map app fst snd nth]. fold u. unfold dot3, Rdiv, vx, vy, vz. destruct u as [[a b] c]. cbn [fst snd]. split; ring.
Qed.
Lemma x_ambeo_stereo : forall d A n s, capsules A n s -> (0 < n)%nat -> exists x l r, ambeo_a2b d A None = Ok x /\ b_to_stereo_sig x = Ok (l, r) /\ length l = n /\ length r = n /\
  forall t, (t < n)%nat -> nth t l 0 + nth t r 0 = 2 * b_of s 0 t + sqrt 2 * b_of s 1 t /\ nth t l 0 - nth t r 0 = sqrt 2 * b_of s 2 t.
Proof.
  intros d A n s C N. destruct (f_ambeo d A n s C N) as (x & E & _ & _ & H). pose proof (H 0%nat ltac:(lia)) as [L0 H0]. pose proof (H 1%nat ltac:(lia)) as [L1 H1]. pose proof (H 2%nat ltac:(lia)) as [L2 H2]. cbn [attribute] in *. destruct (stereo_samples x n L0 L1 L2) as (l & r & El & Ll & Lr & G). exists x, l, r. split; [exact E|]. split; [exact El|]. split; [exact Ll|]. split; [exact Lr|].
  intros t T. destruct (G t T) as [G1 G2]. rewrite G1, G2, H0, H1, H2 by exact T. assert (Q : sqrt 2 * sqrt 2 = 2) by (apply sqrt_sqrt; lra). assert (P : 0 < sqrt 2) by (apply sqrt_lt_R0; lra). assert (I : / sqrt 2 = sqrt 2 / 2) by (rewrite <- Q at 3; field; lra). unfold Rdiv. rewrite I. split; field.
Qed.

(** ** examples *)
Ltac leq := repeat match goal with |- cons _ _ = cons _ _ => apply (f_equal2 (@cons R)); [lra|] end; try reflexivity.
Definition ones : multi := Multi (repeat (Mono [1; 1] 48000) 4) 48000 4.
Lemma ones_ok : capsules ones 2 (fun _ _ => 1).
Proof. split; [reflexivity|]. intros i I. destruct i as [|[|[|[|i]]]]; [| | | |lia]; (split; [reflexivity|]); intros [|[|t]] T; try reflexivity; lia. Qed.
Definition ex_pickle : pickles := fun n => if String.eqb n "f"%string then Some [[2]; [1; -1/2]; [1; 1]; [4]] else None.
Lemma ex_ambeo : capsules ones 2 (fun _ _ => 1) /\ (0 < 2)%nat /\ ex_pickle "f"%string = Some [[2]; [1; -1/2]; [1; 1]; [4]] /\ nth 0 [1; -1/2] 0 <> 0 /\ nth 0 [4] 0 <> 0 /\ b_of (fun _ _ => 1) 0 0 = 4 * PI.
Proof. split; [exact ones_ok|]. split; [lia|]. split; [reflexivity|]. cbn. repeat split; try lra. Qed.
Lemma ex_lfilter : exists y, lfilter [2; 1] [2; -1] [4; 0; 0] = Ok y /\ y = [4; 4; 2].
Proof. unfold lfilter. destruct (Req_EM_T 2 0); [lra|]. eexists. split; [reflexivity|]. cbn. leq. Qed.
Lemma ex_impulse : exists y h, lfilter [2; 1] [2; -1] [4; 0; 0] = Ok y /\ lfilter [2; 1] [2; -1] (1 :: repeat 0 (length [4; 0; 0] - 1)) = Ok h /\ h = [1; 1; 1 / 2].
Proof. unfold lfilter. destruct (Req_EM_T 2 0); [lra|]. eexists _, _. split; [reflexivity|]. split; [reflexivity|]. cbn. leq. Qed.
(** filtered A format of the same length exists whenever the filters are valid *)
Lemma ex_capsule_filters : exists A1, capsules A1 2 (fun i t => match t with 0%nat => 1/4 | _ => 1/2 end) /\ forall i, (i < 4)%nat -> lfilter [1; 1] [4] (m_sig (nth i (channels ones) (Mono [] 0))) = Ok (m_sig (nth i (channels A1) (Mono [] 0))).
Proof.
  exists (Multi (repeat (Mono [1/4; 1/2] 48000) 4) 48000 4). split.
  - split; [reflexivity|]. intros i I. destruct i as [|[|[|[|i]]]]; [| | | |lia]; (split; [reflexivity|]); intros [|[|t]] T; try reflexivity; lia.
  - assert (E : lfilter [1; 1] [4] [1; 1] = Ok [1/4; 1/2]) by (unfold lfilter; destruct (Req_EM_T 4 0); [lra|]; cbn; unfold conv_at; cbn; apply f_equal; leq). intros i I. destruct i as [|[|[|[|i]]]]; [| | | |lia]; exact E.
Qed.
(** the filters do not reach the channels: get_signals, save, play and copies of the
    result are unfiltered *)
Lemma f_unfiltered_channels : exists d A name x g, ambeo_a2b d A (Some name) = Ok x /\ get_signals (base x) = Ok g /\ nth 0 (snd g) [] <> aW x.
Proof.
  destruct ex_ambeo as (C & N & D & A0 & A1 & _). destruct (f_filtered ex_pickle ones 2 _ "f"%string _ _ _ _ C N D A0 A1 ltac:(discriminate) ltac:(discriminate)) as (u & x & U & X & B & [L DE] & _). destruct (f_ambeo ex_pickle ones 2 _ C N) as (u' & U' & _ & M & S). assert (u' = u) by congruence. subst u'.
  destruct (S 0%nat ltac:(lia)) as [LW HW]. destruct (S 1%nat ltac:(lia)) as [L1 _]. destruct (S 2%nat ltac:(lia)) as [L2 _]. destruct (S 3%nat ltac:(lia)) as [L3 _]. cbn [attribute] in *. assert (G : get_signals (base u) = Ok (2%nat, [aW u; aX u; aY u; aZ u])).
  { rewrite <- M. unfold get_signals. destruct (channels (base u)) as [|c cs] eqn:EC; [discriminate|]. destruct cs as [|c1 [|c2 [|c3 [|]]]]; try discriminate. cbn [map] in M |- *. injection M as M0 M1 M2 M3. cbn [forallb]. unfold mono_len. rewrite M0, M1, M2, M3, LW, L1, L2, L3. cbn [andb Nat.eqb]. reflexivity. }
  exists ex_pickle, ones, "f"%string, x, (2%nat, [aW u; aX u; aY u; aZ u]). split; [exact X|]. split; [rewrite B; exact G|]. cbn [snd nth]. intros H. specialize (DE 0%nat ltac:(lia)). rewrite <- H in DE. cbn in DE. rewrite HW in DE by lia. cbn in DE. pose proof PI_RGT_0. lra.
Qed.
