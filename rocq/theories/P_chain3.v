(** Pseudo-intensity with a band-pass. *)
From Coq Require Import Lra Lia.
From Verif Require Import Base BaseFacts M_utils M_sig M_sph0 M_sph M_decoder M_decoder2 M_decoder3 M_parsa2 M_parsa3 M_process3 S_process3 S_parsa2 M_zp S_zp S_process4 S_butter S_chain P_utils M_process M_process4 P_sig X_parsa2 P_ff2 P_ff4 X_ff X_but P_chain1.
Open Scope R_scope.

Lemma odd_mod wl : (wl mod 2 = 1)%Z -> (wl mod 2 =? 1)%Z = true.
Proof. intros ->. reflexivity. Qed.
Lemma odd_odd h : (odd h mod 2 = 1)%Z.
Proof. unfold odd. replace (Z.of_nat (2 * h + 1)) with (1 + Z.of_nat h * 2)%Z by lia. rewrite Z.mod_add by lia. reflexivity. Qed.
Lemma bp_design s f1 f2 b a : butter_ba (2 * f1 / IZR (mu_fs (base s))) (2 * f2 / IZR (mu_fs (base s))) = Ok (b, a) -> bandpass_of (f1, f2) (mu_fs (base s)) = Ok (filtfilt b a).
Proof.
  intros H. pose proof (ba_design _ _ _ _ H) as (A & _). unfold bandpass_of. cbn [fst snd]. destruct (Z.eqb_spec (mu_fs (base s)) 0) as [E|E]; [rewrite E in A; unfold Rdiv in A; rewrite Rinv_0 in A; lra|]. assert (N : IZR (mu_fs (base s)) <> 0) by (intros Z; apply E; apply eq_IZR; exact Z). replace (f1 / (IZR (mu_fs (base s)) / 2)) with (2 * f1 / IZR (mu_fs (base s))) by (field; exact N). replace (f2 / (IZR (mu_fs (base s)) / 2)) with (2 * f2 / IZR (mu_fs (base s))) by (field; exact N). rewrite H. reflexivity.
Qed.
(** the band-passed channels are analysed like any other channels *)
Lemma f_bp : forall s f1 f2 wl so jobs de sc b a w x y z, (wl mod 2 = 1)%Z ->
  butter_ba (2 * f1 / IZR (mu_fs (base s))) (2 * f2 / IZR (mu_fs (base s))) = Ok (b, a) ->
  filtfilt b a (aW s) = Ok w -> filtfilt b a (aX s) = Ok x -> filtfilt b a (aY s) = Ok y -> filtfilt b a (aZ s) = Ok z ->
  pseudo_intensity_bp (f1, f2) s wl so jobs de sc = pseudo_intensity None (AmbiB (base s) w x y z) wl so jobs de sc.
Proof.
  intros s f1 f2 wl so jobs de sc b a w x y z O EB W X Y Z. unfold pseudo_intensity_bp. rewrite (bp_design _ _ _ _ _ EB). rewrite (odd_mod _ O). cbn [assert_ bind]. unfold pseudo_intensity. rewrite (odd_mod _ O). cbn [assert_ bind]. unfold bandpass_all. rewrite W, X, Y, Z. cbn [bind base aW aX aY aZ]. reflexivity.
Qed.
Lemma f_bp_errors : forall s f1 f2 wl so jobs de sc,
  ((wl mod 2 = 0)%Z -> pseudo_intensity_bp (f1, f2) s wl so jobs de sc = Err AssertionError) /\
  ((wl mod 2 = 1)%Z -> mu_fs (base s) = 0%Z -> pseudo_intensity_bp (f1, f2) s wl so jobs de sc = Err ZeroDivisionError) /\
  ((wl mod 2 = 1)%Z -> mu_fs (base s) <> 0%Z -> ~ (0 < 2 * f1 / IZR (mu_fs (base s)) /\ 2 * f1 / IZR (mu_fs (base s)) < 2 * f2 / IZR (mu_fs (base s)) /\ 2 * f2 / IZR (mu_fs (base s)) < 1) ->
     pseudo_intensity_bp (f1, f2) s wl so jobs de sc = Err ValueError) /\
  ((wl mod 2 = 1)%Z -> mu_fs (base s) <> 0%Z -> (exists c, In c [aW s; aX s; aY s; aZ s] /\ (length c <= 15)%nat) -> pseudo_intensity_bp (f1, f2) s wl so jobs de sc = Err ValueError).
Proof.
  intros s f1 f2 wl so jobs de sc. split; [|split; [|split]].
  - intros E. unfold pseudo_intensity_bp. rewrite E. reflexivity.
  - intros O E. unfold pseudo_intensity_bp, bandpass_of. rewrite (odd_mod _ O), E. reflexivity.
  - intros O E N. unfold pseudo_intensity_bp, bandpass_of. rewrite (odd_mod _ O). cbn [assert_ bind fst snd]. destruct (Z.eqb_spec (mu_fs (base s)) 0) as [E'|_]; [contradiction|]. assert (NZ : IZR (mu_fs (base s)) <> 0) by (intros Z; apply E; apply eq_IZR; exact Z). replace (f1 / (IZR (mu_fs (base s)) / 2)) with (2 * f1 / IZR (mu_fs (base s))) by (field; exact NZ). replace (f2 / (IZR (mu_fs (base s)) / 2)) with (2 * f2 / IZR (mu_fs (base s))) by (field; exact NZ). rewrite (proj1 (proj2 (f_defined _ _) N)). reflexivity.
  - intros O E (c & I & L). unfold pseudo_intensity_bp. rewrite (odd_mod _ O). cbn [assert_ bind]. destruct (zpk_cases (2 * f1 / IZR (mu_fs (base s))) (2 * f2 / IZR (mu_fs (base s)))) as [P|[N _]].
    + destruct (proj1 (f_defined _ _) P) as (b & a & l & EB & ES). destruct (f_but_filter _ _ _ _ _ EB ES) as [T1 T2]. rewrite (bp_design _ _ _ _ _ EB). cbn [bind]. unfold pseudo_intensity. rewrite (odd_mod _ O). cbn [assert_ bind]. unfold bandpass_all.
      assert (G : forall q, (exists w, filtfilt b a q = Ok w) \/ filtfilt b a q = Err ValueError) by (intros q; destruct (Nat.lt_ge_cases 15 (length q)) as [K|K]; [left; destruct (T1 q K) as (w & H & _); exists w; exact H|right; apply (T2 q K)]).
      pose proof (proj1 (T2 c L)) as B. destruct (G (aW s)) as [(w & W)|W]; rewrite W; cbn [bind]; [|reflexivity]. destruct (G (aX s)) as [(x & X)|X]; rewrite X; cbn [bind]; [|reflexivity]. destruct (G (aY s)) as [(y & Y)|Y]; rewrite Y; cbn [bind]; [|reflexivity]. destruct (G (aZ s)) as [(z & Z)|Z]; rewrite Z; cbn [bind]; [|reflexivity]. exfalso. destruct I as [<-|[<-|[<-|[<-|[]]]]]; congruence.
    + unfold bandpass_of. cbn [fst snd]. destruct (Z.eqb_spec (mu_fs (base s)) 0) as [E'|_]; [contradiction|]. assert (NZ : IZR (mu_fs (base s)) <> 0) by (intros Z; apply E; apply eq_IZR; exact Z). replace (f1 / (IZR (mu_fs (base s)) / 2)) with (2 * f1 / IZR (mu_fs (base s))) by (field; exact NZ). replace (f2 / (IZR (mu_fs (base s)) / 2)) with (2 * f2 / IZR (mu_fs (base s))) by (field; exact NZ). rewrite (proj1 (proj2 (f_defined _ _) N)). reflexivity.
Qed.
Lemma f_bp_defined : forall s n h so de sc f1 f2, 0 < f1 -> f1 < f2 -> 2 * f2 < IZR (mu_fs (base s)) -> multi_len (base s) = Ok n -> (15 < n)%nat -> (1 <= h)%nat -> (so <= 0 \/ exists k, so = odd k)%Z ->
  long (bands s) n -> exists out, pseudo_intensity_bp (f1, f2) s (odd h) so 1 de sc = Ok out /\ length out = n.
Proof.
  intros s n h so de sc f1 f2 P1 P2 P3 EN N15 Hh S (LW & LX & LY & LZ). cbn [bands bW bX bY bZ] in *. set (F := IZR (mu_fs (base s))) in *. assert (PF : 0 < F) by lra. assert (B : 0 < 2 * f1 / F /\ 2 * f1 / F < 2 * f2 / F /\ 2 * f2 / F < 1). { split; [apply Rdiv_lt_0_compat; lra|]. split; [apply Rmult_lt_compat_r; [apply Rinv_0_lt_compat; exact PF|lra]|]. apply (Rmult_lt_reg_r F); [exact PF|]. unfold Rdiv. rewrite Rmult_assoc, Rinv_l by lra. lra. }
  destruct (proj1 (f_defined _ _) B) as (b & a & l & EB & ES). destruct (f_but_filter _ _ _ _ _ EB ES) as [T _]. destruct (T (aW s) ltac:(lia)) as (w & W & _). destruct (T (aX s) ltac:(lia)) as (x & X & _). destruct (T (aY s) ltac:(lia)) as (y & Y & _). destruct (T (aZ s) ltac:(lia)) as (z & Z & _).
  destruct (f_values None (AmbiB (base s) w x y z) (BFormat w x y z) n h so de sc) as (out & E & L & _); [reflexivity|exact EN|unfold long; cbn [bW bX bY bZ]; rewrite (ff_len _ _ _ _ W), (ff_len _ _ _ _ X), (ff_len _ _ _ _ Y), (ff_len _ _ _ _ Z); tauto|exact Hh|exact S|].
  exists out. split; [|exact L]. rewrite (f_bp s f1 f2 (odd h) so 1 de sc b a w x y z); [exact E| |exact EB|exact W|exact X|exact Y|exact Z]. apply odd_odd.
Qed.
(** a plane wave keeps its direction, whatever the band lets pass *)
Lemma f_bp_direction : forall s n h so sig sig' c azi zen de sc out j f1 f2 b a, multi_len (base s) = Ok n -> (n <= length sig)%nat -> (1 <= h)%nat ->
  (so <= 0 \/ exists k, so = odd k)%Z -> plane_wave s sig c (sph2cart azi zen 1) -> - PI < azi <= PI -> 0 < zen < PI -> (j < n)%nat ->
  butter_ba (2 * f1 / IZR (mu_fs (base s))) (2 * f2 / IZR (mu_fs (base s))) = Ok (b, a) -> filtfilt b a sig = Ok sig' ->
  10 / 10 ^ 15 <= c * smoothing so n (masked h n sig' sig') j ->
  pseudo_intensity_bp (f1, f2) s (odd h) so 1 de sc = Ok out ->
  nth j out (0, None, 0) = (azi, Some zen, c * smoothing so n (masked h n sig' sig') j).
Proof.
  intros s n h so sig sig' c azi zen de sc out j f1 f2 b a EN L Hh S (PW & PX & PY & PZ) Ha Hz J EB EF HE E. set (u := sph2cart azi zen 1) in *. set (s' := AmbiB (base s) (map (fun x => c * x) sig') (map (fun x => vx u * x) sig') (map (fun x => vy u * x) sig') (map (fun x => vz u * x) sig')). apply (doa s' n h so sig' c azi zen de sc out j); [exact EN|rewrite (ff_len _ _ _ _ EF); exact L|exact Hh|exact S|repeat split|exact Ha|exact Hz|exact J|exact HE|]. rewrite <- E. symmetry. apply (f_bp s f1 f2 (odd h) so 1 de sc b a); [apply odd_odd|exact EB|rewrite PW|rewrite PX|rewrite PY|rewrite PZ]; apply ff_scale; exact EF.
Qed.
(** constants added to the channels change nothing *)
Lemma f_bp_offset : forall s s' f1 f2 wl so jobs de sc b a cw cx cy cz w x y z, (wl mod 2 = 1)%Z -> base s' = base s ->
  aW s' = map (fun v => v + cw) (aW s) -> aX s' = map (fun v => v + cx) (aX s) -> aY s' = map (fun v => v + cy) (aY s) -> aZ s' = map (fun v => v + cz) (aZ s) ->
  butter_ba (2 * f1 / IZR (mu_fs (base s))) (2 * f2 / IZR (mu_fs (base s))) = Ok (b, a) ->
  filtfilt b a (aW s) = Ok w -> filtfilt b a (aX s) = Ok x -> filtfilt b a (aY s) = Ok y -> filtfilt b a (aZ s) = Ok z ->
  pseudo_intensity_bp (f1, f2) s' wl so jobs de sc = pseudo_intensity_bp (f1, f2) s wl so jobs de sc.
Proof.
  intros s s' f1 f2 wl so jobs de sc b a cw cx cy cz w x y z O EB' W' X' Y' Z' EB W X Y Z. rewrite (f_bp s f1 f2 wl so jobs de sc b a w x y z O EB W X Y Z). rewrite (f_bp s' f1 f2 wl so jobs de sc b a w x y z O); [rewrite EB'; reflexivity|rewrite EB'; exact EB|rewrite W'|rewrite X'|rewrite Y'|rewrite Z']; apply (f_but_offset _ _ _ _ _ _ _ EB); assumption.
Qed.
