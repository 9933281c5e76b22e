(** sh_sector_beamformer (helpers for C75). *)
From Coq Require Import Lra Lia.
From Verif Require Import Base BaseFacts M_utils M_sig M_sph0 M_sph M_parsa S_linalg S_sph S_parsa P_utils2 P_sig P_sph5 P_sph7 P_sph8 P_sph9 P_sph13 P_parsa2.
Open Scope R_scope.

Lemma width_eq N : Z.to_nat (py_int (sqrt (INR ((N + 1) ^ 2)) + 1) ^ 2) = ((N + 1 + 1) ^ 2)%nat.
Proof.
  rewrite sqrt_INR_sq. replace (INR N + 1 + 1) with (IZR (Z.of_nat N + 2)) by (rewrite plus_IZR, <- INR_IZR_INZ; lra).
  unfold py_int. rewrite (proj2 (Rleb_true _ _)) by (apply IZR_le; lia).
  rewrite (int_part_unique _ (Z.of_nat N + 2)) by lra. rewrite sq2. replace ((Z.of_nat N + 2) ^ 2)%Z with (Z.of_nat ((N + 1 + 1) * (N + 1 + 1))) by lia. rewrite Nat2Z.id. reflexivity.
Qed.
Lemma four_thirds : sqrt (4 / 3 * PI) * sqrt (3 / (4 * PI)) = 1.
Proof.
  pose proof PI_RGT_0. rewrite <- sqrt_mult_alt by lra. replace (4 / 3 * PI * (3 / (4 * PI))) with 1 by (field; lra). apply sqrt_1.
Qed.
Lemma four_pi : sqrt (4 * PI) * / sqrt (4 * PI) = 1.
Proof. pose proof PI_RGT_0. apply Rinv_r, Rgt_not_eq, sqrt_lt_R0. lra. Qed.
Lemma first_order a0 a1 a2 a3 az ze : 0 <= ze <= PI -> field_value sh_real 1 [a0; a1; a2; a3] az ze =
  a0 * / sqrt (4 * PI) + sqrt (3 / (4 * PI)) * (a1 * vy (sph2cart az ze 1) + a2 * vz (sph2cart az ze 1) + a3 * vx (sph2cart az ze 1)).
Proof.
  intros HZ. pose proof (sin_nonneg ze HZ) as HS. unfold field_value. cbn [Nat.add Nat.mul rsum nth].
  change (Z.of_nat 0 - Z.of_nat 0)%Z with 0%Z. change (Z.of_nat 0 - Z.of_nat 1)%Z with (-1)%Z. change (Z.of_nat 1 - Z.of_nat 1)%Z with 0%Z. change (Z.of_nat 2 - Z.of_nat 1)%Z with 1%Z.
  rewrite !sh_real_Yz by auto. destruct (Yz1 (sph2cart az ze 1)) as (A & B & C). rewrite A, B, C, Yz00. ring.
Qed.
Lemma patterns_are c az ze : (c < 4)%nat -> 0 <= ze <= PI -> field_value sh_real 1 (nth c sector_patterns []) az ze = factor c (sph2cart az ze 1).
Proof.
  intros Hc HZ. pose proof four_thirds as T. pose proof four_pi as F. unfold sector_patterns. set (u := sph2cart az ze 1).
  destruct c as [|[|[|[|c]]]]; [| | | |lia]; cbn [nth factor]; rewrite first_order by auto; fold u.
  - transitivity (sqrt (4 * PI) * / sqrt (4 * PI)); [ring|exact F].
  - transitivity (sqrt (4 / 3 * PI) * sqrt (3 / (4 * PI)) * vx u); [ring|rewrite T; ring].
  - transitivity (sqrt (4 / 3 * PI) * sqrt (3 / (4 * PI)) * vy u); [ring|rewrite T; ring].
  - transitivity (sqrt (4 / 3 * PI) * sqrt (3 / (4 * PI)) * vz u); [ring|rewrite T; ring].
Qed.
Theorem sector_spec t_design N A v : let azi := map (fun u => fst (vec2dir u)) v in
  let zen := map (fun u => match snd (vec2dir u) with Some z => z | None => 0 end) v in
  nc A = ((N + 1) ^ 2)%nat -> t_design (2 * (Z.of_nat N + 1))%Z = Ok v -> (forall u, In u v -> dot3 u u = 1) ->
  exact_for sh_real (2 * (N + 1)) azi zen (equal_weights (length v)) ->
  exists rows, sh_sector_beamformer t_design A = Ok rows /\ length rows = (4 * nr A)%nat /\
    forall s c, (s < nr A)%nat -> (c < 4)%nat -> length (nth (4 * s + c) rows []) = ((N + 1 + 1) ^ 2)%nat /\
     forall az ze, 0 <= ze <= PI -> field_value sh_real (N + 1) (nth (4 * s + c) rows []) az ze = factor c (sph2cart az ze 1) * field_value sh_real N (mrow A s) az ze.
Proof.
  intros azi zen CA ET HU HX. unfold sh_sector_beamformer. rewrite CA, width_eq.
  set (mult := fun p a => match sh_mult t_design p a with Ok c => c | Err _ => [] end).
  assert (M : forall c s, (c < 4)%nat -> exists r, sh_mult t_design (nth c sector_patterns []) (mrow A s) = Ok r /\ length r = ((N + 1 + 1) ^ 2)%nat /\
     forall az ze, 0 <= ze <= PI -> field_value sh_real (N + 1) r az ze = factor c (sph2cart az ze 1) * field_value sh_real N (mrow A s) az ze).
  { intros c s Hc. destruct (sh_mult_product t_design 1 N (nth c sector_patterns []) (mrow A s) v) as (r & Er & Lr & Hr); auto.
    - destruct c as [|[|[|[|c]]]]; [reflexivity..|lia].
    - rewrite length_mrow. auto.
    - replace (2 * Z.of_nat (1 + N))%Z with (2 * (Z.of_nat N + 1))%Z by lia. auto.
    - rewrite (Nat.add_comm 1 N). exact HX.
    - rewrite (Nat.add_comm 1 N) in *. exists r. split; auto. split; auto. intros az ze HZ. rewrite <- (patterns_are c az ze) by auto. apply Hr. auto. }
  assert (IN : forall p, In p sector_patterns -> exists c, (c < 4)%nat /\ p = nth c sector_patterns []).
  { intros p Hp. apply (In_nth _ _ []) in Hp. destruct Hp as (c & Hc & E). exists c. auto. }
  rewrite (mapM_ok _ (fun s => map (fun p => mult p (mrow A s)) sector_patterns)).
  2:{ intros s _. apply mapM_ok. intros p Hp. destruct (IN p Hp) as (c & Hc & ->). destruct (M c s Hc) as (r & Er & Lr & _).
      unfold sector_row. rewrite <- CA. change (map (ent A s) (seq 0 (nc A))) with (mrow A s). unfold mult. rewrite Er. cbn [bind]. rewrite Lr, Nat.eqb_refl. reflexivity. }
  cbn [bind]. eexists. split; [reflexivity|].
  assert (L4 : forall l, In l (map (fun s => map (fun p => mult p (mrow A s)) sector_patterns) (seq 0 (nr A))) -> length l = 4%nat).
  { intros l Hl. apply in_map_iff in Hl. destruct Hl as (s & <- & _). rewrite map_length. reflexivity. }
  split.
  - assert (G : forall ls : list (list (list R)), (forall l, In l ls -> length l = 4%nat) -> length (concat ls) = (4 * length ls)%nat).
    { induction ls as [|l ls IH]; intros H; auto. cbn [concat length]. rewrite app_length, H, IH by (intros; try apply H; simpl; auto). lia. }
    rewrite G by exact L4. rewrite map_length, seq_length. reflexivity.
  - intros s c Hs Hc. assert (NE : nth (4 * s + c) (concat (map (fun s => map (fun p => mult p (mrow A s)) sector_patterns) (seq 0 (nr A)))) [] = mult (nth c sector_patterns []) (mrow A s)).
    { apply nth_error_nth. rewrite (Nat.mul_comm 4 s). rewrite (nth_error_concat 4) by (auto; apply Forall_forall; auto).
      rewrite (nth_error_nth' _ []) by (rewrite map_length, seq_length; auto). rewrite nth_map_seq by auto. rewrite (nth_error_nth' _ []) by (rewrite map_length; auto).
      rewrite (nth_map_in _ _ _ _ []) by auto. reflexivity. }
    rewrite NE. destruct (M c s Hc) as (r & Er & Lr & Hr). unfold mult. rewrite Er. auto.
Qed.
