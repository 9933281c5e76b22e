(** Directions, panning matrices and ALLRAP/ALLRAD. *)
From Verif Require Import Base BaseFacts M_utils M_sph0 M_sig M_process M_sph M_grids M_decoder M_decoder2
  S_utils S_sph S_decoder S_decoder2 P_utils P_sig P_sph7 P_sph9 P_sph10 P_sph11 P_sph12 P_sph13 P_dec1 P_dec2 P_dec3.
Open Scope R_scope.

Lemma mapO_some {A B} (f : A -> option B) l : (forall a, In a l -> exists b, f a = Some b) ->
  exists bs, mapO f l = Some bs /\ Forall2 (fun a b => f a = Some b) l bs.
Proof.
  induction l as [|a t IH]; intro H; cbn.
  - exists []. auto.
  - destruct (H a (or_introl eq_refl)) as [b E]. destruct IH as [bs [E' F]]; [intros; apply H; right; auto|].
    exists (b :: bs). rewrite E, E'. auto.
Qed.
Lemma mapO_inv {A B} (f : A -> option B) l bs : mapO f l = Some bs -> Forall2 (fun a b => f a = Some b) l bs.
Proof.
  revert bs. induction l as [|a t IH]; intros bs; cbn.
  - intro E. injection E as <-. auto.
  - destruct (f a) eqn:Fa; [|discriminate]. destruct (mapO f t); [|discriminate]. intro E. injection E as <-. auto.
Qed.
Lemma Forall2_nth {A B} (P : A -> B -> Prop) l m da db : Forall2 P l m -> length l = length m /\ forall i, (i < length l)%nat -> P (nth i l da) (nth i m db).
Proof.
  induction 1 as [|a b l m H F [IH1 IH2]]; cbn; [split; [auto|lia]|]. split; [lia|]. intros [|i] Hi; auto. apply IH2. lia.
Qed.

(** angles of a vector *)
Lemma sph2cart_scale azi zen r : sph2cart azi zen r = scal3 r (sph2cart azi zen 1).
Proof. unfold sph2cart, scal3, vx, vy, vz. cbn [fst snd]. apply f_equal2; [apply f_equal2|]; ring. Qed.
Lemma cart2sph_dir (v : V3) : v <> (0, 0, 0) -> exists azi zen, cart2sph (vx v) (vy v) (vz v) false false = (azi, Some zen, norm3 v) /\
  0 <= zen <= PI /\ scal3 (norm3 v) (sph2cart azi zen 1) = v.
Proof.
  intro NZ. assert (EV : v = (vx v, vy v, vz v)) by (destruct v as [[a b] c]; reflexivity).
  destruct (cart_sph_cart (vx v) (vy v) (vz v) false false) as (azi & zen & r & E & SP); [rewrite <- EV; auto|discriminate|].
  destruct (cart2sph_ranges _ _ _ _ _ _ _ _ E) as (_ & Hr & Hrr & Hz).
  assert (r = norm3 v).
  { unfold norm3, dot3. rewrite <- Hrr. symmetry. apply sqrt_square. exact Hr. }
  subst r. exists azi, zen. split; [exact E|]. split; [exact Hz|]. rewrite <- sph2cart_scale, SP. auto.
Qed.

Lemma dirs_ok_angles (ps : list V3) : (forall p, In p ps -> p <> (0, 0, 0)) -> exists azi zen, dirs ps = Some (azi, zen) /\ angles_of ps azi zen.
Proof.
  intro NZ. unfold dirs.
  destruct (mapO_some (fun p => match cart2sph (vx p) (vy p) (vz p) false false with (azi, Some zen, _) => Some (azi, zen) | _ => None end) ps) as [ds [E F]].
  { intros p Ip. destruct (cart2sph_dir p (NZ p Ip)) as (a & z & C & _). rewrite C. eauto. }
  rewrite E. cbn [option_map]. destruct (split ds) as [azi zen] eqn:SP. exists azi, zen. split; [reflexivity|].
  destruct (Forall2_nth (A:=V3) _ _ _ (0, 0, 0) (0, 0) F) as [L N].
  pose proof (split_length_l ds) as LA. pose proof (split_length_r ds) as LZ. rewrite SP in LA, LZ. cbn [fst snd] in LA, LZ.
  split; [rewrite LA; symmetry; exact L|]. split; [rewrite LZ; symmetry; exact L|]. intros i Hi. specialize (N i Hi). cbn beta in N.
  pose proof (split_nth ds i (0, 0)) as SN. rewrite SP in SN. cbn [fst snd] in SN.
  assert (IP : In (@nth V3 i ps (0, 0, 0)) ps) by (apply nth_In; exact Hi).
  destruct (cart2sph_dir (@nth V3 i ps (0, 0, 0)) (NZ _ IP)) as (a & z & C & Hz & SC). rewrite C in N. rewrite SN in N. injection N as Ea Ez.
  rewrite <- Ea, <- Ez. split; [exact Hz|]. exists (norm3 (@nth V3 i ps (0, 0, 0))). split; [apply norm3_pos; apply NZ; exact IP|]. symmetry. exact SC.
Qed.
Lemma dirs_inv (ps : list V3) azi zen : dirs ps = Some (azi, zen) -> forall p, In p ps -> p <> (0, 0, 0).
Proof.
  unfold dirs. destruct (mapO _ ps) as [ds|] eqn:E; [|discriminate]. intros _ p Ip Z. subst p.
  apply mapO_inv in E. apply (@In_nth V3) with (d := (0, 0, 0)) in Ip. destruct Ip as [i [Hi Ei]].
  destruct (Forall2_nth (A:=V3) _ _ _ (0, 0, 0) (0, 0) E) as [_ N]. specialize (N i Hi). rewrite Ei in N. cbn beta in N.
  unfold cart2sph in N. cbn [negb] in N. unfold vx, vy, vz in N. cbn [fst snd] in N.
  replace (0 ^ 2 + 0 ^ 2 + 0 ^ 2) with 0 in N by ring. rewrite sqrt_0 in N. unfold np_div in N.
  rewrite (proj2 (Reqb_true 0 0) eq_refl) in N. cbn [obind] in N. discriminate.
Qed.

(** a unit vector is determined by what aims at *)
Lemma aims_unit (v d : V3) : dot3 d d = 1 -> aims v d -> norm3 v > 0 /\ d = unit3 v /\ v <> (0, 0, 0).
Proof.
  intros U [k [K ->]].
  assert (N : norm3 (scal3 k d) = k).
  { unfold norm3. replace (dot3 (scal3 k d) (scal3 k d)) with (k * k * dot3 d d) by (unfold dot3, scal3, vx, vy, vz; cbn [fst snd]; ring).
    rewrite U, Rmult_1_r. apply sqrt_square. lra. }
  split; [lra|]. split.
  - unfold unit3. rewrite N. destruct d as [[a b] c]. unfold scal3, vx, vy, vz. cbn [fst snd].
    apply f_equal2; [apply f_equal2|]; field; lra.
  - intro E. rewrite E in N. unfold norm3, dot3, vx, vy, vz in N. cbn [fst snd] in N. replace (0*0+0*0+0*0) with 0 in N by ring. rewrite sqrt_0 in N. lra.
Qed.
Lemma aims_eq v d d' : dot3 d d = 1 -> dot3 d' d' = 1 -> aims v d -> aims v d' -> d = d'.
Proof. intros U U' A A'. destruct (aims_unit v d U A) as [_ [-> _]]. destruct (aims_unit v d' U' A') as [_ [-> _]]. reflexivity. Qed.
Lemma aims_cos u v d e : dot3 d d = 1 -> dot3 e e = 1 -> aims u d -> aims v e -> dot3 d e = cos_angle u v.
Proof.
  intros U V A B. destruct (aims_unit u d U A) as [P [-> _]]. destruct (aims_unit v e V B) as [Q [-> _]].
  unfold cos_angle, unit3, dot3 at 1, scal3, vx, vy, vz. cbn [fst snd]. unfold dot3, vx, vy, vz. field. split; lra.
Qed.
Lemma angles_sh ps azi zen azi' zen' n m i : angles_of ps azi zen -> angles_of ps azi' zen' -> (i < length ps)%nat ->
  sh_real n m (nth i azi 0) (nth i zen 0) = sh_real n m (nth i azi' 0) (nth i zen' 0).
Proof.
  intros [_ [_ A]] [_ [_ B]] Hi. destruct (A i Hi) as [ZA AA]. destruct (B i Hi) as [ZB AB].
  rewrite !sh_real_Yz by (apply sin_nonneg; assumption). f_equal. eapply aims_eq; eauto; apply unit_dir.
Qed.
Lemma angles_zeniths ps azi zen : angles_of ps azi zen -> zeniths zen.
Proof.
  intros [_ [L A]] z Iz. apply In_nth with (d := 0) in Iz. destruct Iz as [i [Hi E]]. rewrite <- E. apply A. lia.
Qed.

(** normalised sources have the same angles *)
Lemma unit_rows_ok (src : list V3) : (forall p, In p src -> p <> (0, 0, 0)) -> unit_rows src = Some (map unit3 src).
Proof.
  unfold unit_rows. induction src as [|s t IH]; intro NZ; cbn; [reflexivity|].
  pose proof (norm3_pos s (NZ s (or_introl eq_refl))). rewrite (proj2 (Reqb_false (norm3 s) 0)) by lra.
  rewrite IH by (intros; apply NZ; right; assumption). cbn [map].
  assert (E : (vx s / norm3 s, vy s / norm3 s, vz s / norm3 s) = unit3 s)
    by (unfold unit3, scal3; apply f_equal2; [apply f_equal2|]; field; lra).
  rewrite <- E. reflexivity.
Qed.
Lemma unit_rows_inv (src us : list V3) : unit_rows src = Some us -> (forall p, In p src -> p <> (0, 0, 0)) /\ us = map unit3 src.
Proof.
  intro E. assert (NZ : forall p, In p src -> p <> (0, 0, 0)).
  { apply mapO_inv in E. intros p Ip Z. subst p. apply (@In_nth V3) with (d := (0, 0, 0)) in Ip. destruct Ip as [i [Hi Ei]].
    destruct (Forall2_nth (A:=V3) _ _ _ (0, 0, 0) (0, 0, 0) E) as [_ N]. specialize (N i Hi). rewrite Ei in N. cbn beta in N.
    unfold norm3, dot3, vx, vy, vz in N. cbn [fst snd] in N. replace (0*0+0*0+0*0) with 0 in N by ring. rewrite sqrt_0 in N.
    rewrite (proj2 (Reqb_true 0 0) eq_refl) in N. discriminate. }
  split; [exact NZ|]. rewrite unit_rows_ok in E by exact NZ. congruence.
Qed.
Lemma unit3_nonzero (v : V3) : v <> (0, 0, 0) -> unit3 v <> (0, 0, 0).
Proof.
  intros NZ E. apply NZ. unfold unit3 in E. pose proof (norm3_pos v NZ). assert (/ norm3 v <> 0) by (apply Rinv_neq_0_compat; lra).
  destruct v as [[a b] c]. unfold scal3, vx, vy, vz in E. cbn [fst snd] in E. injection E as E1 E2 E3.
  apply Rmult_integral in E1, E2, E3. destruct E1, E2, E3; try contradiction. subst. reflexivity.
Qed.
Lemma angles_unit (src : list V3) azi zen : angles_of (map unit3 src) azi zen -> (forall p, In p src -> p <> (0, 0, 0)) -> angles_of src azi zen.
Proof.
  intros [A [B C]] NZ. rewrite map_length in *. split; [exact A|]. split; [exact B|]. intros i Hi. destruct (C i Hi) as [ZZ [k [K E]]].
  split; [exact ZZ|]. rewrite (nth_map_in unit3 src i (0, 0, 0) (0, 0, 0) Hi) in E.
  set (v := nth i src (0, 0, 0)) in *. assert (V : v <> (0, 0, 0)) by (apply NZ, nth_In; exact Hi). pose proof (norm3_pos v V).
  exists (norm3 v * k). split; [apply Rmult_lt_0_compat; assumption|].
  transitivity (scal3 (norm3 v) (unit3 v)).
  - unfold unit3. destruct v as [[a b] c]. unfold scal3, vx, vy, vz. cbn [fst snd]. apply f_equal2; [apply f_equal2|]; field; lra.
  - rewrite E. unfold scal3, vx, vy, vz. cbn [fst snd]. apply f_equal2; [apply f_equal2|]; ring.
Qed.

(** ** matrix lemmas *)
Lemma vdiag_f (f : nat -> R) v j : (j < length v)%nat ->
  rsum (length v) (fun k => f k * ent (vdiag v) k j) = f j * nth j v 0.
Proof.
  intro Hj. unfold vdiag, mdiag. cbn [ent].
  rewrite (rsum_single _ j); [rewrite Nat.eqb_refl; reflexivity|exact Hj|].
  intros k Hk D. destruct (Nat.eqb_spec k j); [contradiction|ring].
Qed.
Lemma panning_ok N a (src kp : list V3) azs zes azk zek : length a = (N + 1)%nat -> dirs src = Some (azs, zes) -> dirs kp = Some (azk, zek) ->
  exists Ys Yk G, sh_matrix N azs zes = Ok Ys /\ sh_matrix N azk zek = Ok Yk /\ panning_matrix N a src kp = Ok (Some G) /\
    nr G = length src /\ nc G = length kp /\
    (forall i j, (i < length src)%nat -> (j < length kp)%nat ->
      ent G i j = rsum ((N + 1) ^ 2) (fun k => ent Ys i k * nth k (repeat_per_order a) 0 * ent Yk j k)).
Proof.
  intros LA DS DK.
  assert (NS := dirs_inv _ _ _ DS). assert (NK := dirs_inv _ _ _ DK).
  destruct (dirs_ok_angles src NS) as (x & y & E & [As [Bs _]]). rewrite DS in E. injection E as <- <-.
  destruct (dirs_ok_angles kp NK) as (x & y & E & [Ak [Bk _]]). rewrite DK in E. injection E as <- <-.
  destruct (sh_matrix_ok N azs zes ltac:(congruence)) as (Ys & ES & RS & CS & _).
  destruct (sh_matrix_ok N azk zek ltac:(congruence)) as (Yk & EK & RK & CK & _).
  exists Ys, Yk. unfold panning_matrix. rewrite DS, DK. cbn [orsome fst snd]. rewrite ES, EK. cbn [bind].
  assert (LR : length (repeat_per_order a) = ((N + 1) ^ 2)%nat) by (rewrite rpo_length, LA, sq2; reflexivity).
  rewrite matmul_ok by (unfold vdiag, mdiag; cbn [nr]; congruence). cbn [bind].
  rewrite matmul_ok by (unfold vdiag, mdiag, mtr; cbn [nr nc]; congruence). cbn [bind].
  eexists. split; [reflexivity|]. split; [reflexivity|]. split; [reflexivity|]. unfold mtr. cbn [nr nc ent].
  split; [congruence|]. split; [congruence|]. intros i j Hi Hj. unfold vdiag at 1, mdiag. cbn [nc]. rewrite LR.
  apply rsum_ext. intros k Hk. rewrite CS, <- LR. rewrite (vdiag_f (ent Ys i)) by lia. reflexivity.
Qed.

