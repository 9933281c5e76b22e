(** Minimum phase filters: final forms and examples. *)
From Coq Require Import Lra Lia.
From Verif Require Import Base BaseFacts M_utils M_sig M_process M_sph M_grids M_parsa3 M_decoder4 M_process2 M_minph S_process S_decoder3 S_magls S_ctf S_minph P_ctf4 X_ctf P_minph1 P_minph2 P_minph3 P_minph4.
Open Scope R_scope.

Lemma f_value newer h n u : (3 <= length h)%nat -> transform_size (length h) n -> (exists t, nth t h 0 <> 0) ->
  (minimum_phase_of newer h n u -> minimum_phase newer h = Ok (firstn (length h / 2 + length h mod 2) u)) /\
  forall u', minimum_phase_of newer h n u -> minimum_phase_of newer h n u' -> u = u'.
Proof. intros L Z NZ. split; [apply minimum_value; assumption|]. intros u'. apply minimum_unique; [lia|exact Z]. Qed.
Lemma trim_gt : 1 < trim < 1 + 1 / 10 ^ 7.
Proof.
  unfold trim. split; [rewrite <- sqrt_1 at 1; apply sqrt_lt_1_alt; lra|]. rewrite <- (sqrt_square (1 + 1 / 10 ^ 7)) at 2 by lra. apply sqrt_lt_1_alt. lra.
Qed.
Lemma two_setup pinv cond newer : let hr := two_pulses 128 48000 in h_taps hr = (2 ^ 7)%nat /\ ctf_setup hr [2 * PI; 2 * PI] (125, 10000) 5 427 43 /\
  audible [2 * PI; 2 * PI] (h_left hr) (h_right hr) (16 * h_taps hr) /\
  hrirs_ctf pinv cond (minph newer) hr true (125, 10000) (Some [2 * PI; 2 * PI]) = Ok (Some (first_pulse 128 trim)).
Proof.
  intros hr. destruct ex_flat as (St & A & _). fold hr in St, A. pose proof PI_RGT_0 as PP. split; [reflexivity|]. split; [exact St|]. split; [exact A|].
  destruct (two_all 128 48000 ltac:(lia)) as [PL PR].
  assert (EL : rsum 2 (fun g => nth g [2 * PI; 2 * PI] 0 * (if Nat.eqb g 0 then 1 else 1 / 2) ^ 2) = 5 / 2 * PI) by (unfold rsum; cbn [nth Nat.eqb]; field).
  assert (ER : rsum 2 (fun g => nth g [2 * PI; 2 * PI] 0 * (if Nat.eqb g 0 then 2 else -3) ^ 2) = 26 * PI) by (unfold rsum; cbn [nth Nat.eqb]; field).
  apply (flat_equaliser pinv cond newer hr (125, 10000) (Some [2 * PI; 2 * PI]) [2 * PI; 2 * PI] 5 427 43 _ _ (or_introl eq_refl) St ltac:(lia) PL PR); cbn [length]; rewrite ?EL, ?ER; lra.
Qed.
Lemma ex_two : forall newer, let hr := two_pulses 128 48000 in h_taps hr = (2 ^ 7)%nat /\ ctf_setup hr [2 * PI; 2 * PI] (125, 10000) 5 427 43 /\
  audible [2 * PI; 2 * PI] (h_left hr) (h_right hr) (16 * h_taps hr) /\
  hrirs_ctf (fun A => A) (fun _ => 1) (minph newer) hr true (125, 10000) (Some [2 * PI; 2 * PI]) = Ok (Some (first_pulse 128 trim)).
Proof. intros newer. exact (two_setup (fun A => A) (fun _ => 1) newer). Qed.
Lemma f_changed : exists hr w lo hi i al ar, ctf_setup hr w (125, 10000) lo hi i /\ (5 <= i)%nat /\ all_pulses (h_left hr) (h_taps hr) al /\ all_pulses (h_right hr) (h_taps hr) ar /\
  forall pinv cond newer, exists e, hrirs_ctf pinv cond (minph newer) hr true (125, 10000) (Some w) = Ok (Some e) /\ e <> first_pulse (h_taps hr) 1.
Proof.
  destruct (two_all 128 48000 ltac:(lia)) as [PL PR]. exists (two_pulses 128 48000), [2 * PI; 2 * PI], 5%nat, 427%nat, 43%nat. do 2 eexists. destruct (two_setup (fun A => A) (fun _ => 1) true) as (_ & St & _ & _). split; [exact St|]. split; [lia|]. split; [exact PL|]. split; [exact PR|].
  intros pinv cond newer. exists (first_pulse 128 trim). split; [destruct (two_setup pinv cond newer) as (_ & _ & _ & E); exact E|]. intros E. apply (f_equal (fun l => nth 0 l 0)) in E. cbn [h_taps two_pulses] in E. rewrite !pulse_at in E by lia. cbn [Nat.eqb] in E. pose proof trim_gt. lra.
Qed.
Lemma ex_121 : (3 <= @length R [1; 2; 1]%R)%nat /\ transform_size (@length R [1; 2; 1]%R) 512 /\ (exists t, nth t [1; 2; 1]%R 0%R <> 0%R) /\ exists u, minimum_phase_of true [1; 2; 1] 512 u /\ minimum_phase true [1; 2; 1] = Ok (firstn 2 u).
Proof.
  split; [cbn; lia|]. assert (Z : transform_size (@length R [1; 2; 1]%R) 512) by (split; [exists 9%nat; reflexivity|cbn [length]; lia]). split; [exact Z|].
  assert (NZ : exists t, nth t [1; 2; 1]%R 0%R <> 0%R) by (exists 0%nat; cbn; lra). split; [exact NZ|].
  destruct (minimum_ok true [1; 2; 1] ltac:(cbn; lia) NZ) as (n & u & Z' & H & E). rewrite <- (size_unique 3 512 n ltac:(lia) Z Z') in H. exists u. split; [exact H|exact E].
Qed.
