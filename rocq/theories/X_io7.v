(** The default set of HRIRs: final forms and examples. *)
From Coq Require Import Lra Lia.
From Verif Require Import Base BaseFacts M_utils M_sig P_sig M_process S_process X_sig X_process M_sph0 M_sph P_sph7 P_sph9 P_sph11 M_grids M_decoder3 M_decoder4 M_parsa2 M_io S_io X_io2 M_io3 S_magls S_io3 P_magls3 P_ctf6 P_io9.
Open Scope R_scope.

Lemma mapM_rows (rs : list R -> res (list R)) n L l : resamples rs n L -> (forall i, (i < length l)%nat -> length (nth i l []) = n) ->
  exists l', mapM rs l = Ok l' /\ length l' = length l /\ forall i, (i < length l)%nat -> rs (nth i l []) = Ok (nth i l' []) /\ length (nth i l' []) = L.
Proof.
  intros RS. induction l as [|x l IH]; intros H; [exists []; split; [reflexivity|]; split; [reflexivity|]; cbn; intros; lia|]. destruct (RS x (H 0%nat ltac:(cbn; lia))) as (y & E & LY). destruct IH as (l' & E' & L' & V); [intros i I; apply (H (S i)); cbn; lia|]. exists (y :: l'). split; [cbn; rewrite E; cbn; rewrite E'; reflexivity|]. split; [cbn; congruence|]. intros [|i] I; [split; [exact E|exact LY]|]. apply V. cbn in I. lia.
Qed.
Lemma known_some l : known (map (map Some) l) = l.
Proof. unfold known. rewrite map_map. rewrite <- (map_id l) at 2. apply map_ext. intros r. rewrite map_map, map_id. reflexivity. Qed.
Lemma resampled (rs : list R -> res (list R)) n L l r taps fh ft jobs cs ol or_ : resamples rs n L -> (forall i, (i < length l)%nat -> length (nth i l []) = n) -> (forall i, (i < length r)%nat -> length (nth i r []) = n) ->
  (1 <= jobs)%Z -> ((1 < jobs)%Z -> (0 < cs)%nat /\ full_order (length l) cs ol /\ full_order (length r) cs or_) ->
  exists l' r', resample_hrirs rs (mapM rs) l r taps fh ft jobs cs ol or_ = Ok (map (map Some) l', map (map Some) r', ft) /\ mapM rs l = Ok l' /\ mapM rs r = Ok r'.
Proof.
  intros RS Hl Hr J O. destruct (mapM_rows rs n L l RS Hl) as (l' & El & _). destruct (mapM_rows rs n L r RS Hr) as (r' & Er & _). exists l', r'. split; [|auto]. destruct (Z.eq_dec jobs 1) as [->|NJ].
  - unfold resample_hrirs. cbn [Z.eqb Pos.eqb]. rewrite El. cbn [bind]. rewrite Er. reflexivity.
  - destruct (O ltac:(lia)) as (C & O1 & O2). pose proof (resample_jobs rs l r taps fh ft jobs cs ol or_ ltac:(lia) C O1 O2) as Q. unfold resample_hrirs at 1 in Q. cbn [Z.eqb Pos.eqb] in Q. rewrite El in Q. cbn [bind] in Q. rewrite Er in Q. cbn [bind] in Q. exact Q.
Qed.
Lemma x_default : forall lg rs cpus cs orders found download azi_o zen_o jobs_o f azi zen N m L48 L96,
  (found = Some f \/ found = None /\ download = Ok (Some f)) ->
  (azi_o = Some azi /\ zen_o = Some zen \/ azi_o = None /\ zen_o = None /\ exists w, gauss lg 35 = (azi, zen, w)) ->
  length zen = length azi -> (2 <= length azi)%nat -> coefficients (fb_left f) N m -> coefficients (fb_right f) N m -> (1 <= m)%nat ->
  (1 <= match jobs_o with Some j => j | None => cpus end)%Z -> (0 < cs)%nat -> (forall k, full_order (length azi) cs (orders k)) ->
  resamples (rs (fb_rate f) 48000%Z) (2 * m) L48 -> resamples (rs (fb_rate f) 96000%Z) (2 * m) L96 -> (2 <= L48)%nat -> (2 <= L96)%nat ->
  exists d l r, get_default_hrirs lg rs cpus cs orders found download azi_o zen_o jobs_o = Ok d /\ holds_field (fb_left f) N m azi zen l /\ holds_field (fb_right f) N m azi zen r /\
    forall fs, In fs [44100; 48000; 96000]%Z -> exists h, load_hrirs lg (fun _ => None) (Ok d) fs Default = Ok h /\ h_fs h = fs /\ h_azi h = azi /\ h_zen h = zen /\
      (fs = 44100%Z -> h_left h = l /\ h_right h = r) /\
      (fs <> 44100%Z -> length (h_left h) = length azi /\ length (h_right h) = length azi /\ forall i, (i < length azi)%nat -> rs (fb_rate f) fs (nth i l []) = Ok (nth i (h_left h) []) /\ rs (fb_rate f) fs (nth i r []) = Ok (nth i (h_right h) [])).
Proof.
  intros lg rs cpus cs orders found download azi_o zen_o jobs_o f azi zen N m L48 L96 FF GG Lz A2 CL CR M J CS OO R48 R96 G48 G96.
  assert (EF : fabian_file found download = Ok f) by (destruct FF as [->|[-> ->]]; reflexivity). assert (EG : default_grid lg azi_o zen_o = Ok (azi, zen)) by (destruct GG as [[-> ->]|(-> & -> & w & E)]; [reflexivity|]; unfold default_grid; rewrite E; reflexivity).
  destruct (inverse_field _ N m azi zen CL Lz A2) as (Hl & El & R1 & C1 & V1). destruct (inverse_field _ N m azi zen CR Lz A2) as (Hr & Er & R2 & C2_ & V2). destruct (irfft_field _ N m azi zen Hl CL M R1 C1 V1) as (l & Il & FL). destruct (irfft_field _ N m azi zen Hr CR M R2 C2_ V2) as (r & Ir & FR).
  pose proof FL as [Ll Hll]. pose proof FR as [Lr Hlr]. assert (WL : forall i, (i < length l)%nat -> length (nth i l []) = (2 * m)%nat) by (intros i I; rewrite Ll in I; apply (Hll i I)). assert (WR : forall i, (i < length r)%nat -> length (nth i r []) = (2 * m)%nat) by (intros i I; rewrite Lr in I; apply (Hlr i I)).
  set (jobs := match jobs_o with Some j => j | None => cpus end) in *. assert (OL : forall k k', (1 < jobs)%Z -> (0 < cs)%nat /\ full_order (length l) cs (orders k) /\ full_order (length r) cs (orders k')) by (intros; rewrite Ll, Lr; auto).
  destruct (resampled (rs (fb_rate f) 48000%Z) (2 * m) L48 l r (Z.of_nat (2 * (cnc Hl - 1))) (fb_rate f) 48000 jobs cs (orders 0%nat) (orders 1%nat) R48 WL WR J (OL _ _)) as (l48 & r48 & E48 & ML48 & MR48).
  destruct (resampled (rs (fb_rate f) 96000%Z) (2 * m) L96 l r (Z.of_nat (2 * (cnc Hl - 1))) (fb_rate f) 96000 jobs cs (orders 2%nat) (orders 3%nat) R96 WL WR J (OL _ _)) as (l96 & r96 & E96 & ML96 & MR96).
  destruct (mapM_rows _ _ _ l R48 WL) as (q & Q & Q1 & Q2). rewrite ML48 in Q. injection Q as <-. destruct (mapM_rows _ _ _ r R48 WR) as (q & Q & Q3 & Q4). rewrite MR48 in Q. injection Q as <-. destruct (mapM_rows _ _ _ l R96 WL) as (q & Q & Q5 & Q6). rewrite ML96 in Q. injection Q as <-. destruct (mapM_rows _ _ _ r R96 WR) as (q & Q & Q7 & Q8). rewrite MR96 in Q. injection Q as <-.
  rewrite Ll in Q1, Q2, Q5, Q6. rewrite Lr in Q3, Q4, Q7, Q8.
  destruct (set_loads l r azi zen 44100 (2 * m) Ll Lr Lz A2 ltac:(lia)) as (m44 & h44 & S44 & T44 & U44); [intros; apply Hll; assumption|intros; apply Hlr; assumption|].
  destruct (set_loads l48 r48 azi zen 48000 L48 Q1 Q3 Lz A2 ltac:(lia)) as (m48 & h48 & S48 & T48 & U48); [intros; apply Q2; assumption|intros; apply Q4; assumption|].
  destruct (set_loads l96 r96 azi zen 96000 L96 Q5 Q7 Lz A2 ltac:(lia)) as (m96 & h96 & S96 & T96 & U96); [intros; apply Q6; assumption|intros; apply Q8; assumption|].
  eexists _, l, r. split; [|split; [exact FL|split; [exact FR|]]].
  - unfold get_default_hrirs. rewrite EF. cbn [bind]. rewrite EG. cbn [bind]. rewrite El. cbn [bind]. rewrite Er. cbn [bind]. rewrite R1, R2, C1, C2_, !Nat.eqb_refl. cbn [andb assert_ bind]. rewrite Il. cbn [bind]. rewrite Ir. cbn [bind]. fold jobs. rewrite C1 in E48, E96. rewrite E48. cbn [bind]. rewrite E96. cbn [bind fst snd]. rewrite !known_some, S44. cbn [bind]. rewrite S48. cbn [bind]. rewrite S96. cbn [bind]. reflexivity.
  - intros fs [<-|[<-|[<-|[]]]].
    + exists h44. split; [exact T44|]. destruct U44 as (u1 & u2 & u3 & u4 & u5 & u6). split; [exact u5|]. split; [exact u3|]. split; [exact u4|]. split; [auto|]. intros X. congruence.
    + exists h48. split; [exact T48|]. destruct U48 as (u1 & u2 & u3 & u4 & u5 & u6). split; [exact u5|]. split; [exact u3|]. split; [exact u4|]. split; [discriminate|]. intros _. rewrite u1, u2. split; [exact Q1|]. split; [exact Q3|]. intros i I. split; [apply Q2|apply Q4]; exact I.
    + exists h96. split; [exact T96|]. destruct U96 as (u1 & u2 & u3 & u4 & u5 & u6). split; [exact u5|]. split; [exact u3|]. split; [exact u4|]. split; [discriminate|]. intros _. rewrite u1, u2. split; [exact Q5|]. split; [exact Q7|]. intros i I. split; [apply Q6|apply Q8]; exact I.
Qed.
(** the file's rate does not reach the 44.1 kHz set *)
Lemma x_rate_unused : forall lg rs rs' cpus cs orders rate rate' L R0 dl azi zen jobs d d',
  get_default_hrirs lg rs cpus cs orders (Some (Fabian rate L R0)) dl azi zen jobs = Ok d -> get_default_hrirs lg rs' cpus cs orders (Some (Fabian rate' L R0)) dl azi zen jobs = Ok d' -> d 44100%Z = d' 44100%Z.
Proof.
  intros lg rs rs' cpus cs orders rate rate' L R0 dl azi zen jobs d d' E E'. unfold get_default_hrirs in *. cbn [fabian_file bind fb_rate fb_left fb_right] in *. destruct (default_grid lg azi zen) as [[a z]|]; [|discriminate]. cbn [bind] in *. destruct (inverse_sht_all L a z) as [Hl|]; [|discriminate]. cbn [bind] in *. destruct (inverse_sht_all R0 a z) as [Hr|]; [|discriminate]. cbn [bind] in *. destruct (assert_ _) as [[]|]; [|discriminate]. cbn [bind] in *. destruct (irfft_rows Hl) as [l|]; [|discriminate]. cbn [bind] in *. destruct (irfft_rows Hr) as [r|]; [|discriminate]. cbn [bind] in *. destruct (hrir_set l r a z 44100) as [m44|] eqn:E44.
  - repeat match type of E with bind ?e _ = Ok _ => let x := fresh "x" in destruct e as [x|] eqn:?; [|discriminate]; cbn [bind] in E end. repeat match type of E' with bind ?e _ = Ok _ => let x := fresh "x" in destruct e as [x|] eqn:?; [|discriminate]; cbn [bind] in E' end. injection E as <-. injection E' as <-. cbn. congruence.
  - repeat match type of E with bind ?e _ = Ok _ => let x := fresh "x" in destruct e as [x|] eqn:?; [|discriminate]; cbn [bind] in E end. discriminate.
Qed.
Lemma x_default_errors :
  (forall lg rs cpus cs orders e azi zen j, get_default_hrirs lg rs cpus cs orders None (Err e) azi zen j = Err e) /\
  (forall lg rs cpus cs orders azi zen j, get_default_hrirs lg rs cpus cs orders None (Ok None) azi zen j = Err FileNotFoundError) /\
  (forall lg rs cpus cs orders f dl azi j, get_default_hrirs lg rs cpus cs orders (Some f) dl (Some azi) None j = Err TypeError) /\
  (forall lg rs cpus cs orders f dl zen j, get_default_hrirs lg rs cpus cs orders (Some f) dl None (Some zen) j = Err TypeError).
Proof. split; [|split; [|split]]; reflexivity. Qed.
Definition ex_fab (rate : Z) : fabian := Fabian rate (CMat 1 2 (fun _ _ => (1, 0))) (CMat 1 2 (fun _ k => if Nat.eqb k 0 then (1, 0) else (0, 0))).
Definition ex_grid : list R := [0; 1].
Lemma ex_order2 : full_order 2 1 [0; 1]%nat.
Proof. split; [repeat constructor; cbn; intuition lia|]. intros i. cbn. lia. Qed.
Lemma ex_default_any (rate : Z) : exists d l r, get_default_hrirs (fun _ => ([], [])) (fun _ _ x => Ok x) 4 1 (fun _ => [0; 1]%nat) (Some (ex_fab rate)) (Ok None) (Some ex_grid) (Some ex_grid) (Some 2%Z) = Ok d /\
  holds_field (fb_left (ex_fab rate)) 0 1 ex_grid ex_grid l /\ holds_field (fb_right (ex_fab rate)) 0 1 ex_grid ex_grid r /\
  exists h, load_hrirs (fun _ => ([], [])) (fun _ => None) (Ok d) 44100 Default = Ok h /\ h_fs h = 44100%Z /\ h_left h = l /\ h_right h = r.
Proof.
  destruct (x_default (fun _ => ([], [])) (fun _ _ x => Ok x) 4 1 (fun _ => [0; 1]%nat) (Some (ex_fab rate)) (Ok None) (Some ex_grid) (Some ex_grid) (Some 2%Z) (ex_fab rate) ex_grid ex_grid 0 1 2 2) as (d & l & r & E & HL & HR & V).
  1: left; reflexivity. 1: left; split; reflexivity. 1: reflexivity. 1: cbn; lia. 1,2: split; reflexivity. 1: lia. 1: lia. 1: lia. 1: intros _; exact ex_order2. 1,2: intros x X; exists x; split; [reflexivity|lia]. 1,2: lia.
  exists d, l, r. split; [exact E|]. split; [exact HL|]. split; [exact HR|]. destruct (V 44100%Z) as (h & E1 & E2 & _ & _ & E3 & _); [left; reflexivity|]. exists h. split; [exact E1|]. split; [exact E2|]. apply E3. reflexivity.
Qed.
Lemma x_label_refuted : exists f d h, fb_rate f = 48000%Z /\
  get_default_hrirs (fun _ => ([], [])) (fun _ _ x => Ok x) 4 1 (fun _ => [0; 1]%nat) (Some f) (Ok None) (Some ex_grid) (Some ex_grid) (Some 2%Z) = Ok d /\
  load_hrirs (fun _ => ([], [])) (fun _ => None) (Ok d) 44100 Default = Ok h /\ h_fs h = 44100%Z /\ holds_field (fb_left f) 0 1 ex_grid ex_grid (h_left h).
Proof.
  destruct (ex_default_any 48000) as (d & l & r & E & HL & HR & h & E1 & E2 & <- & _). exists (ex_fab 48000), d, h. split; [reflexivity|]. auto.
Qed.
(** the left ear's first signal of the example is not zero *)
Lemma ex_default_nonzero : exists d h, get_default_hrirs (fun _ => ([], [])) (fun _ _ x => Ok x) 4 1 (fun _ => [0; 1]%nat) (Some (ex_fab 44100)) (Ok None) (Some ex_grid) (Some ex_grid) (Some 2%Z) = Ok d /\
  load_hrirs (fun _ => ([], [])) (fun _ => None) (Ok d) 44100 Default = Ok h /\ fst (dft 2 (nth 0 (h_left h) []) 0) > 0.
Proof.
  destruct (ex_default_any 44100) as (d & l & r & E & [Ll HL] & _ & h & E1 & E2 & <- & _). exists d, h. split; [exact E|]. split; [exact E1|]. destruct (HL 0%nat ltac:(cbn; lia)) as [_ V]. specialize (V 0%nat ltac:(lia)). cbv zeta in V. change (2 * 1)%nat with 2%nat in V. rewrite V. cbn [fst].
  unfold field_bin. cbn [Nat.add Nat.mul csum]. unfold sph_harm. cbn -[sqrt PI]. rewrite !Rmult_0_l, cos_0, sin_0. set (q := sqrt _). assert (0 < q). { apply sqrt_lt_R0. pose proof PI_RGT_0. apply Rmult_lt_0_compat; [apply Rdiv_lt_0_compat; lra|lra]. } lra.
Qed.
