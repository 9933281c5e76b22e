(** Butterworth band-pass filters: final forms and examples. *)
From Coq Require Import Lra Lia.
From Verif Require Import Base BaseFacts M_utils M_sig M_sph0 M_sph M_parsa3 M_process3 S_process3 M_zp S_zp P_lfilter P_cplx P_zp1 P_zp3 S_process4 S_butter M_process M_process4 P_ff2 P_ff3 P_ff4 P_ff5 X_ff P_but1 P_but2 P_but3 P_but4.
Open Scope R_scope.

Lemma zpk_cases w1 w2 : (0 < w1 /\ w1 < w2 /\ w2 < 1) \/ (~ (0 < w1 /\ w1 < w2 /\ w2 < 1) /\ butter_zpk w1 w2 = Err ValueError).
Proof.
  unfold butter_zpk, Rltb. destruct (Rlt_dec 0 w1); [|right; split; [lra|reflexivity]]. destruct (Rlt_dec 0 w2); [|right; split; [lra|reflexivity]]. destruct (Rlt_dec w1 w2); [|right; split; [lra|reflexivity]]. destruct (Rlt_dec w1 1); [|right; split; [lra|reflexivity]]. destruct (Rlt_dec w2 1); [left; lra|right; split; [lra|reflexivity]].
Qed.
Lemma f_defined : forall w1 w2,
  ((0 < w1 /\ w1 < w2 /\ w2 < 1) -> exists b a l, butter_ba w1 w2 = Ok (b, a) /\ butter_sos w1 w2 = Ok l) /\
  (~ (0 < w1 /\ w1 < w2 /\ w2 < 1) -> butter_ba w1 w2 = Err ValueError /\ butter_sos w1 w2 = Err ValueError).
Proof.
  intros w1 w2. split.
  - intros (A & B & C). destruct (butter_design w1 w2 A B C) as (k & p & q & b & a & l & D). exists b, a, l. split; apply D.
  - intros N. destruct (zpk_cases w1 w2) as [H|[_ E]]; [contradiction|]. unfold butter_ba, butter_sos. rewrite E. split; reflexivity.
Qed.
Lemma ba_design w1 w2 b a : butter_ba w1 w2 = Ok (b, a) -> 0 < w1 /\ w1 < w2 /\ w2 < 1 /\ exists k p q l, design w1 w2 k p q b a l.
Proof.
  intros H. destruct (zpk_cases w1 w2) as [(A & B & C)|[_ E]]; [|unfold butter_ba in H; rewrite E in H; discriminate]. repeat (split; [assumption|]). destruct (butter_design w1 w2 A B C) as (k & p & q & b' & a' & l & D). pose proof (d_ba _ _ _ _ _ _ _ _ D) as E. rewrite H in E. injection E as <- <-. exists k, p, q, l. exact D.
Qed.
Lemma sos_design w1 w2 l : butter_sos w1 w2 = Ok l -> 0 < w1 /\ w1 < w2 /\ w2 < 1 /\ exists k p q b a, design w1 w2 k p q b a l.
Proof.
  intros H. destruct (zpk_cases w1 w2) as [(A & B & C)|[_ E]]; [|unfold butter_sos in H; rewrite E in H; discriminate]. repeat (split; [assumption|]). destruct (butter_design w1 w2 A B C) as (k & p & q & b' & a' & l' & D). pose proof (d_sos _ _ _ _ _ _ _ _ D) as E. rewrite H in E. injection E as <-. exists k, p, q, b', a'. exact D.
Qed.
Lemma f_coeffs : forall w1 w2 b a, butter_ba w1 w2 = Ok (b, a) -> exists k, 0 < k /\ b = [k; 0; - 2 * k; 0; k] /\ length a = 5%nat /\ nth 0 a 0 = 1.
Proof.
  intros w1 w2 b a H. destruct (ba_design _ _ _ _ H) as (_ & _ & _ & k & p & q & l & D). exists k. split; [apply D|]. split; [apply D|]. rewrite (d_a _ _ _ _ _ _ _ _ D). split; [reflexivity|]. unfold times. cbn. ring.
Qed.
Lemma f_gain : forall w1 w2 b a t, butter_ba w1 w2 = Ok (b, a) -> 0 < power a t /\ power b t / power a t = band_gain w1 w2 t.
Proof. intros w1 w2 b a t H. destruct (ba_design _ _ _ _ H) as (_ & _ & _ & k & p & q & l & D). split; apply D. Qed.
Lemma f_standard : forall w1 w2 t, 0 < w1 -> w1 < w2 -> w2 < 1 -> 0 < t < PI ->
  band_gain w1 w2 t = 1 / (1 + ((tan (t / 2) ^ 2 - tan (PI * w1 / 2) * tan (PI * w2 / 2)) / (tan (t / 2) * (tan (PI * w2 / 2) - tan (PI * w1 / 2)))) ^ 4).
Proof.
  intros w1 w2 t A B C T. pose proof (tan_range w1 ltac:(lra)) as P1. pose proof (tan_order w1 w2 ltac:(lra) ltac:(lra) ltac:(lra)) as P2. unfold band_gain. set (T1 := tan (PI * w1 / 2)) in *. set (T2 := tan (PI * w2 / 2)) in *. pose proof PI_RGT_0. assert (N : 0 < sin (t / 2)) by (apply sin_gt_0; lra). assert (K : 0 < cos (t / 2)) by (apply cos_gt_0; lra). assert (E : sin (t / 2) ^ 2 + cos (t / 2) ^ 2 = 1) by (pose proof (sin2_cos2 (t / 2)) as E; unfold Rsqr in E; lra). pose proof (den_pos T1 T2 _ _ P1 P2 E) as D. unfold tan. set (n := sin (t / 2)) in *. set (c := cos (t / 2)) in *.
  replace (((n / c) ^ 2 - T1 * T2) / (n / c * (T2 - T1))) with ((n ^ 2 - T1 * T2 * c ^ 2) / ((T2 - T1) * n * c)) by (field; repeat split; lra). set (u := n ^ 2 - T1 * T2 * c ^ 2) in *. assert (V : 0 < (T2 - T1) * n * c) by (repeat apply Rmult_lt_0_compat; lra). set (v := (T2 - T1) * n * c) in *. field. repeat split; lra.
Qed.
Lemma f_band : forall w1 w2, 0 < w1 -> w1 < w2 -> w2 < 1 ->
  (forall t, 0 <= band_gain w1 w2 t <= 1) /\
  band_gain w1 w2 0 = 0 /\ band_gain w1 w2 PI = 0 /\ band_gain w1 w2 (PI * w1) = 1 / 2 /\ band_gain w1 w2 (PI * w2) = 1 / 2 /\
  (forall t, 0 <= t <= PI -> (1 / 2 <= band_gain w1 w2 t <-> PI * w1 <= t <= PI * w2)) /\
  exists tc, PI * w1 < tc < PI * w2 /\ band_gain w1 w2 tc = 1 /\
    (forall t t', 0 <= t -> t < t' -> t' <= tc -> band_gain w1 w2 t < band_gain w1 w2 t') /\
    (forall t t', tc <= t -> t < t' -> t' <= PI -> band_gain w1 w2 t' < band_gain w1 w2 t).
Proof.
  intros w1 w2 A B C. split; [intros t; apply gain_range; assumption|]. split; [apply gain_ends|]. split; [apply gain_ends|]. split; [apply gain_edges; assumption|]. split; [apply gain_edges; assumption|]. split; [intros t T; apply gain_half; assumption|]. exists (centre w1 w2). split; [apply centre_in; assumption|]. split; [apply gain_centre; assumption|]. split; intros t t' H1 H2 H3; [apply gain_rises|apply gain_falls]; assumption.
Qed.
Lemma star_abs z : cabs (fst z, - snd z) = cabs z.
Proof. unfold cabs. cbn [fst snd]. f_equal. ring. Qed.
Lemma design_roots w1 w2 k p q b a l : design w1 w2 k p q b a l -> nth 0 a 0 = 1 /\ all_roots a [p; (fst p, - snd p); q; (fst q, - snd q)] /\ inside 1 [p; (fst p, - snd p); q; (fst q, - snd q)].
Proof.
  intros D. rewrite (d_a _ _ _ _ _ _ _ _ D). split; [unfold times; cbn; ring|]. split; [apply roots_two_pairs|]. pose proof (d_p _ _ _ _ _ _ _ _ D). pose proof (d_q _ _ _ _ _ _ _ _ D). intros z [<-|[<-|[<-|[<-|[]]]]]; rewrite ?star_abs; assumption.
Qed.
Lemma f_poles : forall w1 w2 b a, butter_ba w1 w2 = Ok (b, a) -> exists rs, all_roots a rs /\ inside 1 rs.
Proof. intros w1 w2 b a H. destruct (ba_design _ _ _ _ H) as (_ & _ & _ & k & p & q & l & D). destruct (design_roots _ _ _ _ _ _ _ _ D) as (_ & RT & IN). eexists. split; [exact RT|exact IN]. Qed.
Lemma f_but_stable : forall w1 w2 b a, butter_ba w1 w2 = Ok (b, a) -> stable b a.
Proof.
  intros w1 w2 b a H. destruct (ba_design _ _ _ _ H) as (_ & _ & _ & k & p & q & l & D). destruct (design_roots _ _ _ _ _ _ _ _ D) as (A0 & RT & IN). set (rs := [p; (fst p, - snd p); q; (fst q, - snd q)]) in *.
  assert (EA : exists c1 c2 c3 c4, a = [1; c1; c2; c3; c4] /\ c4 <> 0). { rewrite (d_a _ _ _ _ _ _ _ _ D). unfold times. cbn. do 4 eexists. split; [apply f_equal2; [ring|reflexivity]|]. pose proof (d_np _ _ _ _ _ _ _ _ D) as Np. pose proof (d_nq _ _ _ _ _ _ _ _ D) as Nq. match goal with |- ?e <> 0 => replace e with (nrm p * nrm q) by ring end. apply Rmult_integral_contrapositive_currified; assumption. }
  destruct EA as (c1 & c2 & c3 & c4 & EA & C4). assert (NR : np_roots (fun _ => rs) a = rs). { rewrite EA. unfold np_roots. cbn. destruct (Req_EM_T 1 0); [lra|]. cbn. destruct (Req_EM_T c4 0); [contradiction|]. cbn. rewrite ?app_nil_r. reflexivity. }
  apply (f_stable (fun _ => rs)).
  - intros k' n s E S0 S1 LS. assert (E' : s = a); [|rewrite E'; exact RT]. destruct k' as [|k']; [|rewrite E in A0; cbn in A0; lra]. destruct n as [|n]; [rewrite E; cbn; rewrite app_nil_r; reflexivity|]. exfalso. assert (L4 : nth (length a - 1) a 0 = 0). { rewrite E. change (repeat 0 0 ++ s ++ repeat 0 (S n)) with (s ++ repeat 0 (S n)). rewrite app_length, repeat_length. rewrite app_nth2 by lia. apply nth_repeat. } rewrite EA in L4. cbn in L4. contradiction.
  - unfold zeropole. cbn [zp_poles]. rewrite NR. exact IN.
Qed.
Lemma sos_parts k z p : z = 1 \/ z = -1 -> sos_of k z p = Sos k (- 2 * k * z) k 1 (- 2 * fst p) (nrm p).
Proof.
  intros Z. unfold sos_of. rewrite real_pair. assert (E : real_poly [(z, 0); (z, 0)] = [1; - 2 * z; z * z]) by (unfold real_poly, np_poly; cbn; unfold csub2, cmul; cbn; list_ring). rewrite E. cbn [nth]. destruct Z as [-> | ->]; f_equal; ring.
Qed.
Lemma pair_parts k p q : exists z p' q', (z = 1 \/ z = -1) /\ (p' = p /\ q' = q \/ p' = q /\ q' = p) /\ pair_sos k p q = [Sos k (- 2 * k * - z) k 1 (- 2 * fst p') (nrm p'); Sos 1 (- 2 * 1 * z) 1 1 (- 2 * fst q') (nrm q')].
Proof.
  unfold pair_sos. set (z := fun c : C2 => if Rltb 0 (fst c) then 1 else -1). assert (Z : forall c, z c = 1 \/ z c = -1) by (intros c; unfold z; destruct (Rltb 0 (fst c)); [left|right]; reflexivity). assert (Z' : forall c, - z c = 1 \/ - z c = -1) by (intros c; destruct (Z c) as [-> | ->]; [right|left]; lra).
  destruct (pole_le p q); destruct (Rleb _ _); eexists (z _); [exists q, p|exists p, q|exists p, q|exists q, p]; (split; [apply Z|]); (split; [tauto|]); fold (z p); fold (z q); rewrite !sos_parts by (apply Z || apply Z'); reflexivity.
Qed.
Lemma times_pairs (x y u v : R) : times [1; x; y] (times [1; u; v] [1]) = times [1; x; y] [1; u; v] /\ times [1; x; y] [1; u; v] = times [1; u; v] [1; x; y].
Proof. split; unfold times; cbn; list_ring. Qed.
Lemma design_sections w1 w2 k p q b a l : design w1 w2 k p q b a l -> sections_b l = b /\ sections_a l = a /\ (forall s, In s l -> t0 s = 1) /\ Nat.min (count_zero s2 l) (count_zero t2 l) = 0%nat /\ length l = 2%nat.
Proof.
  intros D. rewrite (d_a _ _ _ _ _ _ _ _ D), (d_b _ _ _ _ _ _ _ _ D), (d_l _ _ _ _ _ _ _ _ D). destruct (pair_parts k p q) as (z & p' & q' & Z & PQ & E). rewrite E. split; [|split; [|split; [|split]]].
  - unfold sections_b, s_b. cbn [fold_right s0 s1 s2]. unfold times. cbn. destruct Z as [-> | ->]; list_ring.
  - unfold sections_a, s_a. cbn [fold_right t0 t1 t2]. destruct (times_pairs (- 2 * fst p') (nrm p') (- 2 * fst q') (nrm q')) as [T1 T2]. rewrite T1. destruct PQ as [[-> ->]|[-> ->]]; [reflexivity|exact T2].
  - intros s [<-|[<-|[]]]; reflexivity.
  - pose proof (d_np _ _ _ _ _ _ _ _ D) as Np. pose proof (d_nq _ _ _ _ _ _ _ _ D) as Nq. unfold count_zero. cbn [filter t2]. assert (N1 : nrm p' <> 0 /\ nrm q' <> 0) by (destruct PQ as [[-> ->]|[-> ->]]; split; assumption). rewrite (proj2 (Reqb_false _ _) (proj1 N1)), (proj2 (Reqb_false _ _) (proj2 N1)). apply Nat.min_0_r.
  - reflexivity.
Qed.
Lemma f_but_sections : forall w1 w2 b a l, butter_ba w1 w2 = Ok (b, a) -> butter_sos w1 w2 = Ok l ->
  fold_right (fun s acc => times [s0 s; s1 s; s2 s] acc) [1] l = b /\ fold_right (fun s acc => times [t0 s; t1 s; t2 s] acc) [1] l = a /\
  forall x w, sosfiltfilt l x = Ok w <-> filtfilt b a x = Ok w.
Proof.
  intros w1 w2 b a l H HL. destruct (ba_design _ _ _ _ H) as (_ & _ & _ & k & p & q & l' & D). pose proof (d_sos _ _ _ _ _ _ _ _ D) as E. rewrite HL in E. injection E as <-. destruct (design_sections _ _ _ _ _ _ _ _ D) as (EB & EA & T & Z & LL). change (fold_right (fun s acc => times [s0 s; s1 s; s2 s] acc) [1] l) with (sections_b l). change (fold_right (fun s acc => times [t0 s; t1 s; t2 s] acc) [1] l) with (sections_a l).
  split; [exact EB|]. split; [exact EA|]. intros x w. pose proof (f_sections l x w ltac:(destruct l; [discriminate|discriminate]) T Z) as S. change (fold_right (fun s acc => times [s0 s; s1 s; s2 s] acc) [1] l) with (sections_b l) in S. change (fold_right (fun s acc => times [t0 s; t1 s; t2 s] acc) [1] l) with (sections_a l) in S. rewrite EB, EA in S. exact S.
Qed.
Lemma design_ready w1 w2 k p q b a l x : design w1 w2 k p q b a l -> (15 < length x)%nat -> exists w, filtfilt b a x = Ok w.
Proof.
  intros D L. destruct (design_roots _ _ _ _ _ _ _ _ D) as (A0 & RT & IN). assert (LA : length a = 5%nat) by (rewrite (d_a _ _ _ _ _ _ _ _ D); reflexivity). assert (LB : length b = 5%nat) by (rewrite (d_b _ _ _ _ _ _ _ _ D); reflexivity). apply f_exists; rewrite ?LA, ?LB; cbn; try lia; [rewrite A0; lra|destruct b; discriminate|].
  pose proof (d_pos _ _ _ _ _ _ _ _ D 0) as P. intros Z. rewrite power_pc in P. assert (PC : pc a 0 = lsum a). { unfold pc. rewrite lsum_nth. apply rsum_ext. intros i I. rewrite Rmult_0_r, cos_0. ring. } assert (PS : ps a 0 = 0). { unfold ps. apply rsum_0. intros i I. rewrite Rmult_0_r, sin_0. ring. } rewrite PC, PS, Z in P. replace (0 ^ 2 + 0 ^ 2) with 0 in P by ring. lra.
Qed.
Lemma f_but_filter : forall w1 w2 b a l, butter_ba w1 w2 = Ok (b, a) -> butter_sos w1 w2 = Ok l ->
  (forall x, (15 < length x)%nat -> exists w, filtfilt b a x = Ok w /\ sosfiltfilt l x = Ok w) /\
  (forall x, (length x <= 15)%nat -> filtfilt b a x = Err ValueError /\ sosfiltfilt l x = Err ValueError).
Proof.
  intros w1 w2 b a l H HL. destruct (ba_design _ _ _ _ H) as (_ & _ & _ & k & p & q & l' & D). pose proof (d_sos _ _ _ _ _ _ _ _ D) as E. rewrite HL in E. injection E as <-. split.
  - intros x L. destruct (design_ready _ _ _ _ _ _ _ _ x D L) as (w & W). exists w. split; [exact W|]. apply (proj2 (proj2 (f_but_sections w1 w2 b a l H HL))). exact W.
  - intros x L. destruct (design_sections _ _ _ _ _ _ _ _ D) as (EB & EA & T & Z & LL). assert (LA : length a = 5%nat) by (rewrite (d_a _ _ _ _ _ _ _ _ D); reflexivity). assert (LB : length b = 5%nat) by (rewrite (d_b _ _ _ _ _ _ _ _ D); reflexivity). split.
    + unfold filtfilt, validate_pad. rewrite LA, LB. change (Nat.max 5 5 * 3)%nat with 15%nat. destruct (Nat.leb_spec (length x) 15); [reflexivity|lia].
    + unfold sosfiltfilt. rewrite (proj2 (validate_spec l) T). cbn [bind]. cbv zeta. rewrite Z, LL. unfold validate_pad. change ((2 * 2 + 1 - 0) * 3)%nat with 15%nat. destruct (Nat.leb_spec (length x) 15); [reflexivity|lia].
Qed.
Lemma f_but_wave : forall w1 w2 b a, butter_ba w1 w2 = Ok (b, a) ->
  exists K rho, 0 <= K /\ 0 < rho < 1 /\ forall A t f x w, (forall n, (n < length x)%nat -> nth n x 0 = A * cos (t * INR n + f)) -> filtfilt b a x = Ok w ->
    forall n, (n < length x)%nat -> Rabs (nth n w 0 - band_gain w1 w2 t * nth n x 0) <= K * Rabs A * (rho ^ n + rho ^ (length x - 1 - n)).
Proof.
  intros w1 w2 b a H. destruct (ba_design _ _ _ _ H) as (_ & _ & _ & k & p & q & l & D). destruct (design_roots _ _ _ _ _ _ _ _ D) as (A0 & RT & IN). destruct (radius _ IN) as (rho & R0 & I2). destruct (f_wave b a _ rho ltac:(rewrite A0; lra) RT R0 I2) as (K & K0 & F). exists K, rho. split; [exact K0|]. split; [exact R0|]. intros A t f x w X W n N. rewrite <- (d_gain _ _ _ _ _ _ _ _ D). apply (F A t f x w X W n N).
Qed.
Lemma f_but_offset : forall w1 w2 b a c x w, butter_ba w1 w2 = Ok (b, a) -> filtfilt b a x = Ok w -> filtfilt b a (map (fun v => v + c) x) = Ok w.
Proof. intros w1 w2 b a c x w H. destruct (ba_design _ _ _ _ H) as (_ & _ & _ & k & p & q & l & D). apply f_offset. rewrite (d_b _ _ _ _ _ _ _ _ D). cbn. ring. Qed.

(** ** Examples *)
Lemma ex_butter : exists b a l, butter_ba (2 * 100 / 48000) (2 * 1500 / 48000) = Ok (b, a) /\ butter_sos (2 * 100 / 48000) (2 * 1500 / 48000) = Ok l.
Proof. apply f_defined. lra. Qed.
Lemma ex_butter_err : butter_ba (2 * 1000 / 40000) (2 * 20000 / 40000) = Err ValueError.
Proof. apply (proj2 (f_defined _ _)). lra. Qed.
