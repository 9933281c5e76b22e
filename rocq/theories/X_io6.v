(** Final forms and examples for SDM and SOFA files. *)
From Coq Require Import String.
From Verif Require Import Base BaseFacts M_utils S_utils M_sig M_process S_process M_sph S_sph S_grids M_io M_io2 S_io S_io2 S_lsq P_sig P_utils P_utils2 P_grids3 X_sph P_lsq X_io2 P_io8.
Open Scope R_scope.

Lemma f_sdm_clean m init r : load_sdm m init = Ok r -> init = true -> let '(_, a, z, _) := r in ~ In None (data a) /\ ~ In None (data z).
Proof.
  intros E ->. destruct r as [[[h a] z] fs]. unfold load_sdm in E. destruct (first_key (k_href m) (k_p m)) as [h0|]; [|discriminate]. cbn [bind] in E.
  destruct (first_key (k_sazi m) (k_phi m)) as [a0|]; [|discriminate]. cbn [bind] in E. destruct (first_key (k_szen m) (k_theta m)) as [z0|]; [|discriminate]. cbn [bind] in E.
  destruct (key (k_sfs m)) as [f0|]; [|discriminate]. cbn [bind] in E. injection E as <- <- <- <-. split; eapply filled_no_nan; apply nan_filled.
Qed.
Lemma sofa_lengths s h : load_sofa_hrirs s = Ok h -> length (h_azi h) = length (h_left h) /\ length (h_right h) = length (h_left h) /\ length (h_zen h) = length (h_left h).
Proof.
  unfold load_sofa_hrirs. do 4 (match goal with |- bind ?e _ = _ -> _ => destruct e as [?|?]; [|discriminate] end; cbn [bind]).
  match goal with |- bind (assert_ ?e) _ = _ -> _ => destruct e; [|discriminate] end; cbn [assert_ bind]. do 2 (match goal with |- bind ?e _ = _ -> _ => destruct e as [?|?]; [|discriminate] end; cbn [bind]).
  match goal with |- bind (assert_ ?e) _ = _ -> _ => destruct e; [|discriminate] end; cbn [assert_ bind]. do 2 (match goal with |- bind ?e _ = _ -> _ => destruct e as [?|?]; [|discriminate] end; cbn [bind]).
  unfold hrirs_of_nd. do 2 (match goal with |- bind ?e _ = _ -> _ => destruct e as [?|?]; [|discriminate] end; cbn [bind]). match goal with |- bind (assert_ ?e) _ = _ -> _ => destruct e; [|discriminate] end; cbn [assert_ bind].
  do 2 (match goal with |- bind ?e _ = _ -> _ => destruct e as [?|?]; [|discriminate] end; cbn [bind]).
  unfold hrirs_init. match goal with |- bind (assert_ ?e) _ = _ -> _ => destruct e eqn:B1; [|discriminate] end; cbn [assert_ bind]. do 2 (match goal with |- bind ?e _ = _ -> _ => destruct e as [?|?]; [|discriminate] end; cbn [bind]).
  do 2 (match goal with |- bind (assert_ ?e) _ = _ -> _ => destruct e eqn:?; [|discriminate] end; cbn [assert_ bind]). intro E. injection E as <-. cbn [h_azi h_left h_right h_zen].
  apply Nat.eqb_eq in B1, Heqb, Heqb0. split; [congruence|]. split; [congruence|]. congruence.
Qed.
Lemma f_sofa_sh pinv s h N : load_sofa_hrirs s = Ok h ->
  exists Y, sh_matrix N (h_azi h) (h_zen h) = Ok Y /\ nr Y = length (h_left h) /\ nc Y = ((N + 1) ^ 2)%nat /\ (penrose Y (pinv Y) ->
  exists l r, sofa_to_sh pinv s N = Ok (l, r, h_fs h) /\ nr l = ((N + 1) ^ 2)%nat /\ nr r = ((N + 1) ^ 2)%nat /\ nc l = h_taps h /\ nc r = h_taps h /\
    forall i, (i < h_taps h)%nat -> best_fit Y (fun g => nth i (nth g (h_left h) []) 0) (fun k => ent l k i) /\ best_fit Y (fun g => nth i (nth g (h_right h) []) 0) (fun k => ent r k i) /\
      (left_invertible Y -> forall v, ((forall g, (g < nr Y)%nat -> nth i (nth g (h_left h) []) 0 = rsum (nc Y) (fun k => ent Y g k * v k)) -> forall k, (k < nc Y)%nat -> ent l k i = v k) /\
        ((forall g, (g < nr Y)%nat -> nth i (nth g (h_right h) []) 0 = rsum (nc Y) (fun k => ent Y g k * v k)) -> forall k, (k < nc Y)%nat -> ent r k i = v k))).
Proof. intro E. destruct (sofa_lengths s h E) as (A & B & C). exact (sofa_sh pinv s h N E A B C). Qed.

(** * Examples *)
Definition sdm_example : sdmmat :=
  SdmMat None (Some (Nd [1; 3]%nat [Some 1; Some 2; Some 3])) None (Some (Nd [3; 1]%nat [Some 1; None; Some 2])) (Some (Nd [3]%nat [None; Some 1; None])) None (Some 48000).
Lemma ex_sdm_file : exists h azi zen, stored (k_href sdm_example) (k_p sdm_example) h /\ stored (k_sazi sdm_example) (k_phi sdm_example) azi /\ stored (k_szen sdm_example) (k_theta sdm_example) zen /\
  k_sfs sdm_example = Some 48000 /\ In None (data azi) /\ In None (data zen).
Proof. do 3 eexists. split; [right; split; reflexivity|]. split; [right; split; reflexivity|]. split; [left; reflexivity|]. split; [reflexivity|]. cbn. auto. Qed.
Definition sofa_pos (e : R) : list R := [0; 0; 1; 180; 0; 1; 90; 0; 1; 270; 0; 1; 0; 90; 1; 0; e; 1].
Definition sofa_example (e : R) : sofa := Sofa (Some 48000) (Some (Nd [6; 2; 2]%nat (map INR (seq 0 24)))) (Some (Nd [6; 3]%nat (sofa_pos e))).
Lemma sofa_spread e : spread 6 (sofa_pos e) = 0.
Proof.
  unfold spread. replace (rsum 6 (sofa_dist (sofa_pos e)) / INR 6) with 1 by (cbn; field).
  rewrite rsum_0; [cbn; field|]. intros g Hg. replace (sofa_dist (sofa_pos e) g) with 1; [rewrite Rminus_diag_eq by reflexivity; apply Rabs_R0|].
  do 6 (destruct g as [|g]; [reflexivity|]). lia.
Qed.
Lemma sofa_ready e : e <= 90 -> forall g, (g < 6)%nat -> PI / 2 - sofa_ele (sofa_pos e) g * (PI / 180) > - (10 / 1000000).
Proof.
  intros E g Hg. pose proof PI_RGT_0. assert (B : sofa_ele (sofa_pos e) g <= 90) by (do 6 (destruct g as [|g]; [cbn; lra|]); lia).
  assert (sofa_ele (sofa_pos e) g * (PI / 180) <= 90 * (PI / 180)) by (apply Rmult_le_compat_r; lra). lra.
Qed.
Lemma ex_sofa : exists m t ir pos, sofa_file (sofa_example (-90)) m t ir pos 48000 /\ (2 <= m)%nat /\ t <> 1%nat /\ length ir = (m * 2 * t)%nat /\ length pos = (m * 3)%nat /\
  spread m pos < 1 / 10 /\ (forall g, (g < m)%nat -> PI / 2 - sofa_ele pos g * (PI / 180) > - (10 / 1000000)).
Proof.
  exists 6%nat, 2%nat, (map INR (seq 0 24)), (sofa_pos (-90)). split; [repeat split|]. split; [lia|]. split; [lia|]. split; [rewrite map_length, seq_length; reflexivity|]. split; [reflexivity|].
  split; [rewrite sofa_spread; lra|apply sofa_ready; lra].
Qed.
Lemma sofa_loads e : e <= 90 -> exists h, load_sofa_hrirs (sofa_example e) = Ok h /\ h_azi h = octa_azi /\ h_zen h = map (fun x => PI / 2 - x * (PI / 180)) [0; 0; 0; 0; 90; e].
Proof.
  intro E. destruct (sofa_ok (sofa_example e) 6 2 (map INR (seq 0 24)) (sofa_pos e) 48000) as [Q _]; try lia; [repeat split|rewrite map_length, seq_length; reflexivity|reflexivity|].
  destruct Q as (h & L & _ & _ & _ & _ & _ & LA & LZ & AN & _); [split; [rewrite sofa_spread; lra|apply sofa_ready; exact E]|]. exists h. split; [exact L|].
  split; apply (nth_ext _ _ 0 0); [exact LA| |exact LZ|].
  - intros g Hg. rewrite LA in Hg. rewrite (proj1 (AN g Hg)). do 6 (destruct g as [|g]; [cbn; field|]). lia.
  - intros g Hg. rewrite LZ in Hg. rewrite (proj2 (AN g Hg)). do 6 (destruct g as [|g]; [reflexivity|]). lia.
Qed.
Lemma ex_sofa_sh : exists h pinv Y, load_sofa_hrirs (sofa_example (-90)) = Ok h /\ sh_matrix 1 (h_azi h) (h_zen h) = Ok Y /\ penrose Y (pinv Y) /\ left_invertible Y.
Proof.
  destruct (sofa_loads (-90) ltac:(lra)) as (h & L & A & Z0). exists h, (fun Y => Mat (nc Y) (nr Y) (fun i j => 4 * PI / 6 * ent Y j i)). destruct octa_penrose as (Y & E & LI & P). exists Y.
  split; [exact L|]. split; [|split; [exact P|exact LI]]. rewrite A, Z0. rewrite <- E. f_equal. cbn [map]. unfold octa_zen. repeat (apply f_equal2; [field|]). reflexivity.
Qed.
(** elevations below -90 degrees are not noticed *)
Lemma ex_sofa_below : exists s h z, load_sofa_hrirs s = Ok h /\ In z (h_zen h) /\ z > PI.
Proof.
  destruct (sofa_loads (-120) ltac:(lra)) as (h & L & _ & Z0). exists (sofa_example (-120)), h, (PI / 2 - -120 * (PI / 180)). split; [exact L|]. rewrite Z0. split; [cbn; auto 10|]. pose proof PI_RGT_0. lra.
Qed.
