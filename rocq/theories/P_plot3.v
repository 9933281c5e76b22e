(** Maps over azimuth: spherical_function_map, doa, hrirs_ild_itd. *)
From Verif Require Import Base BaseFacts M_utils M_sig M_process M_decoder M_decoder3 M_plot S_decoder3 S_plot P_utils P_sig P_proc1 P_dec11 P_magls4 P_plot2.
Open Scope R_scope.

Lemma same_refl a : same_direction a a. Proof. split; reflexivity. Qed.
Lemma same_turns a (k : Z) : same_direction (a + 2 * PI * IZR k) a.
Proof. split; [apply period_Z_cos|apply period_Z_sin]. Qed.
Lemma drawn_val (todb : bool) x : (if todb then val_db x else Fin x) = drawn todb x.
Proof.
  destruct todb; [|reflexivity]. unfold drawn. destruct (Req_EM_T x 0) as [->|N]; [apply val_db_0|apply val_db_pos; exact N].
Qed.
Definition wrap (v : R) : R := if Rltb PI v then v - 2 * PI else v.
Lemma wrap_low v : v <= PI -> wrap v = v.
Proof. intros H. unfold wrap. destruct (Rltb PI v) eqn:E; [apply Rltb_true in E; lra|reflexivity]. Qed.
Lemma wrap_high v : PI < v -> wrap v = v - 2 * PI.
Proof. intros H. unfold wrap. destruct (Rltb PI v) eqn:E; [reflexivity|apply Rltb_false in E; lra]. Qed.
Lemma wrap_dir v : same_direction (wrap v) v.
Proof.
  unfold wrap. destruct (Rltb PI v); [|apply same_refl]. pose proof (same_turns v (-1)) as H. replace (v + 2 * PI * -1) with (v - 2 * PI) in H by ring. exact H.
Qed.
Lemma wrap_range v : - PI <= v <= 3 * PI -> - PI <= wrap v <= PI.
Proof. intros H. pose proof PI_RGT_0. unfold wrap. destruct (Rltb PI v) eqn:E; [apply Rltb_true in E|apply Rltb_false in E]; lra. Qed.

Lemma asarray_ref_float h l n : float_array h l n -> asarray_1d_ref (ARef l) h = (Ok l, h).
Proof.
  intros (c & E & SH & L & _). unfold asarray_1d_ref, andthen, fetch. rewrite E, SH, <- L. change (Nd [length (a_data c)] (a_data c)) with (arr1 (a_data c)). rewrite asarray_arr1. reflexivity.
Qed.
Lemma map_num h l c : nth_error h l = Some c -> forall i, num h l i = nth i (a_data c) 0.
Proof. intros E i. unfold num. rewrite E. reflexivity. Qed.

(** azimuth, zenith and values in float arrays of their own *)
Lemma map_float h lf la lz n todb : float_array h lf n -> float_array h la n -> float_array h lz n -> la <> lf -> la <> lz ->
  exists fig h', spherical_function_map (ARef lf) (ARef la) (ARef lz) todb h = (Ok fig, h') /\
    length (mf_azi fig) = n /\ length (mf_zen fig) = n /\ length (mf_val fig) = n /\
    (forall i, (i < n)%nat -> nth i (mf_azi fig) 0 = (if Rltb PI (num h la i) then num h la i - 2 * PI else num h la i) /\
       nth i (mf_zen fig) 0 = num h lz i /\ nth i (mf_val fig) NaN = drawn todb (num h lf i)) /\
    (forall l, l <> la -> nth_error h' l = nth_error h l) /\ float_array h' la n /\
    (forall i, (i < n)%nat -> num h' la i = nth i (mf_azi fig) 0).
Proof.
  intros FF FA FZ N1 N2. unfold spherical_function_map, andthen at 1. rewrite (asarray_ref_float _ _ _ FF). unfold andthen at 1. rewrite (asarray_ref_float _ _ _ FA).
  unfold andthen at 1. rewrite (asarray_ref_float _ _ _ FZ).
  destruct FF as (cf & Ef & SF & LF & IF). destruct FA as (ca & Ea & SA & LA & IA). destruct FZ as (cz & Ez & SZ & LZ & IZ).
  set (da := map wrap (a_data ca)). unfold wrap_in_place, andthen, fetch, store. rewrite Ea. rewrite IA. fold wrap. fold da.
  rewrite (nth_error_upd_ne h la lf) by exact N1. rewrite Ef. rewrite (nth_error_upd_eq h la _ _ Ea). rewrite (nth_error_upd_ne h la lz) by exact N2. rewrite Ez.
  cbn [set_data a_data]. assert (LD : length da = n) by (unfold da; rewrite map_length; exact LA). rewrite LD, LZ, LF, Nat.eqb_refl. cbn [andb].
  eexists; eexists. split; [reflexivity|]. cbn [mf_azi mf_zen mf_val]. rewrite map_length. split; [exact LD|]. split; [exact LZ|]. split; [exact LF|].
  assert (ND : forall i, (i < n)%nat -> nth i da 0 = if Rltb PI (num h la i) then num h la i - 2 * PI else num h la i).
  { intros i Hi. rewrite (map_num _ _ _ Ea). unfold da. rewrite (nth_indep _ 0 (wrap 0)) by (rewrite map_length; lia). rewrite map_nth. reflexivity. }
  split; [intros i Hi; split; [apply ND; exact Hi|split]|split; [|split]].
  - rewrite (map_num _ _ _ Ez). reflexivity.
  - rewrite (map_num _ _ _ Ef). rewrite (nth_indep _ NaN (if todb then val_db 0 else Fin 0)) by (rewrite map_length; lia).
    rewrite (map_nth (fun x => if todb then val_db x else Fin x)). apply drawn_val.
  - intros l NL. apply nth_error_upd_ne. congruence.
  - exists (set_data ca da). rewrite (nth_error_upd_eq h la _ _ Ea). cbn [set_data a_shape a_data a_int]. auto.
  - intros i Hi. rewrite (map_num _ la (set_data ca da) (nth_error_upd_eq h la _ _ Ea)). reflexivity.
Qed.

(** ** doa *)
Lemma pymod_neg v : pymod v (- PI) = v - PI * IZR (zceil (v / PI)).
Proof.
  pose proof PI_RGT_0. unfold pymod, zceil, zfloor. rewrite opp_IZR. replace (v / - PI) with (- (v / PI)) by (field; lra). ring.
Qed.
Lemma zceil_between x m : IZR m - 1 < x <= IZR m -> zceil x = m.
Proof.
  intros (A & B). unfold zceil, zfloor. destruct (base_Int_part (- x)) as (C & D). assert (E : (- m - 1 < Int_part (- x) < - m + 1)%Z); [|lia].
  split; apply lt_IZR; rewrite ?minus_IZR, ?plus_IZR, ?opp_IZR; lra.
Qed.
Lemma mod_second v : PI < v <= 2 * PI -> pymod v (- PI) = v - 2 * PI.
Proof.
  intros (A & B). pose proof PI_RGT_0 as P. rewrite pymod_neg, (zceil_between (v / PI) 2); [ring|].
  split; [apply Rmult_lt_reg_r with PI; [exact P|]|apply Rmult_le_reg_r with PI; [exact P|]]; unfold Rdiv; rewrite Rmult_assoc, Rinv_l by lra; lra.
Qed.
Lemma mod_third v : 2 * PI < v <= 3 * PI -> pymod v (- PI) = v - 3 * PI.
Proof.
  intros (A & B). pose proof PI_RGT_0 as P. rewrite pymod_neg, (zceil_between (v / PI) 3); [ring|].
  split; [apply Rmult_lt_reg_r with PI; [exact P|]|apply Rmult_le_reg_r with PI; [exact P|]]; unfold Rdiv; rewrite Rmult_assoc, Rinv_l by lra; lra.
Qed.
Lemma opposite_third v : cos (v - 3 * PI) = - cos v /\ sin (v - 3 * PI) = - sin v.
Proof.
  replace (v - 3 * PI) with (v + PI + 2 * PI * IZR (-2)) by ring. rewrite period_Z_cos, period_Z_sin. split; [apply neg_cos|apply neg_sin].
Qed.

Lemma zip5_nth : forall a b c d e n, length a = n -> length b = n -> length c = n -> length d = n -> length e = n ->
  length (zip5 a b c d e) = n /\ forall i df, (i < n)%nat -> nth i (zip5 a b c d e) df = DoaPoint (nth i a 0) (nth i b 0) (nth i c None) (nth i d 0) (nth i e 0).
Proof.
  induction a as [|x a IH]; intros b c d e n LA LB LC LD LE.
  - cbn in LA. subst n. split; [reflexivity|]. intros. lia.
  - destruct b as [|y b], c as [|z c], d as [|u d], e as [|v e]; cbn [length] in *; try (exfalso; lia). subst n. cbn [zip5 length].
    destruct (IH b c d e (length a)) as (L & Q); try lia. rewrite L. split; [reflexivity|]. intros [|i] df Hi; [reflexivity|]. cbn [nth]. apply Q. lia.
Qed.

Definition wrap_d (v : R) : R := if Rltb PI v then pymod v (- PI) else v.
Lemma wrap_d_cases v : (v <= PI -> wrap_d v = v) /\ (PI < v <= 2 * PI -> wrap_d v = v - 2 * PI) /\ (2 * PI < v <= 3 * PI -> wrap_d v = v - 3 * PI).
Proof.
  pose proof PI_RGT_0. unfold wrap_d. destruct (Rltb PI v) eqn:E; [apply Rltb_true in E|apply Rltb_false in E]; repeat split; intros H'; try lra; [apply mod_second|apply mod_third]; lra.
Qed.
Lemma nth_rev' {A} (l : list A) n i d : length l = n -> (i < n)%nat -> nth (n - 1 - i) (rev l) d = nth i l d.
Proof. intros L Hi. rewrite rev_nth by lia. f_equal. lia. Qed.
Lemma doa_ok h la lz n p m size c alpha fs : float_array h la n -> float_array h lz n -> la <> lz -> (0 < n)%nat -> doa_args n p m c alpha fs ->
  exists pts h', doa la lz p size c alpha fs h = (Ok pts, h') /\ length pts = n /\
    (forall i df, (i < n)%nat -> nth (n - 1 - i) pts df = DoaPoint (num h' la i) (num h lz i) (Some (doa_size p m (snd size) i)) (doa_color c fs i) (doa_alpha alpha i)) /\
    (forall i, (i < n)%nat -> num h' la i = wrap_d (num h la i)) /\
    (forall l, l <> la -> nth_error h' l = nth_error h l).
Proof.
  intros FA FZ N1 Hn (HP & HC & HAL & HF). destruct FA as (ca & Ea & SA & LA & IA). destruct FZ as (cz & Ez & SZ & LZ & IZ).
  unfold doa, wrap_in_place, andthen, fetch, store. rewrite Ea, IA. fold wrap_d. set (da := map wrap_d (a_data ca)).
  rewrite (nth_error_upd_eq h la _ _ Ea). rewrite (nth_error_upd_ne h la lz) by exact N1. rewrite Ez. unfold set_data. cbn [a_data].
  assert (LD : length da = n) by (unfold da; rewrite map_length; exact LA). rewrite LD.
  assert (NP : 0 < INR n) by (apply lt_0_INR; exact Hn).
  assert (SZS : exists s, doa_sizes (Cell (a_int ca) (a_shape ca) da) p size = Ok s /\ length s = n /\ forall i, (i < n)%nat -> nth i s None = Some (doa_size p m (snd size) i)).
  { unfold doa_sizes. destruct p as [p|].
    - destruct HP as (LP & (IN & MX) & M0). destruct (np_max_ok p) as (m' & EM); [intros Z; rewrite Z in IN; exact IN|]. rewrite EM. cbn [bind].
      destruct (np_max_spec _ _ EM) as (IN' & MX'). assert (m' = m) by (pose proof (MX m' IN'); pose proof (MX' m IN); lra). subst m'.
      replace (Reqb m 0) with false by (symmetry; apply Reqb_false; lra). eexists. split; [reflexivity|]. rewrite map_length. split; [exact LP|].
      intros i Hi. rewrite (nth_indep _ None (Some (clip_lo (1 / 100000000000000) (0 / m) * snd size))) by (rewrite map_length; lia).
      rewrite (map_nth (fun x => Some (clip_lo (1 / 100000000000000) (x / m) * snd size))). unfold doa_size, clip_lo. f_equal. ring.
    - cbn [a_int a_data]. rewrite IA. cbn [andb]. eexists. split; [reflexivity|]. rewrite map_length. split; [exact LD|]. intros i Hi.
      rewrite (nth_indep _ None (Some (1 * snd size))) by (rewrite map_length; lia). rewrite (map_nth (fun _ => Some (1 * snd size)) da 0). unfold doa_size. f_equal. ring. }
  destruct SZS as (s & ES & LS & QS). rewrite ES. cbn [bind].
  assert (COL : exists col, match c, fs with
                     | None, Some f => if Reqb f 0 then Err ZeroDivisionError else Ok (map (fun k => INR k * (INR n / f / INR n) * 1000) (seq 0 n))
                     | None, None => Ok (repeat 1 n)
                     | Some (SArr l), _ => Ok l
                     | Some (SNum _), _ => Err TypeError
                     end = Ok col /\ length col = n /\ forall i, (i < n)%nat -> nth i col 0 = doa_color c fs i).
  { destruct c as [[l|x]|]; [| |destruct fs as [f|]].
    - exists l. auto.
    - destruct HC.
    - replace (Reqb f 0) with false by (symmetry; apply Reqb_false; lra). eexists. split; [reflexivity|]. rewrite map_length, seq_length. split; [reflexivity|]. intros i Hi. rewrite (nth_indep _ 0 (INR 0 * (INR n / f / INR n) * 1000)) by (rewrite map_length, seq_length; exact Hi).
      rewrite (map_nth (fun k => INR k * (INR n / f / INR n) * 1000)), seq_nth by exact Hi. cbn [Nat.add doa_color]. field. lra.
    - eexists. split; [reflexivity|]. rewrite repeat_length. split; [reflexivity|]. intros i Hi. cbn [doa_color]. apply (repeat_spec n). rewrite (nth_indep _ 0 1) by (rewrite repeat_length; exact Hi). apply nth_In. rewrite repeat_length. exact Hi. }
  destruct COL as (col & EC & LC & QC). rewrite EC. cbn [bind].
  assert (AL : exists al, match alpha with
                    | None => Ok (repeat (35 / 100 * 1) n)
                    | Some (SArr l) => Ok l
                    | Some (SNum _) => Err TypeError
                    end = Ok al /\ length al = n /\ forall i, (i < n)%nat -> nth i al 0 = doa_alpha alpha i).
  { destruct alpha as [[l|x]|].
    - exists l. auto.
    - destruct HAL.
    - eexists. split; [reflexivity|]. rewrite repeat_length. split; [reflexivity|]. intros i Hi. cbn [doa_alpha]. transitivity (35 / 100 * 1); [|ring]. apply (repeat_spec n). rewrite (nth_indep _ 0 (35 / 100 * 1)) by (rewrite repeat_length; exact Hi). apply nth_In. rewrite repeat_length. exact Hi. }
  destruct AL as (al & EA & LAL & QA). rewrite EA. cbn [bind]. rewrite LZ, LS, LC, LAL, Nat.eqb_refl. cbn [andb].
  eexists; eexists. split; [reflexivity|].
  destruct (zip5_nth (rev da) (rev (a_data cz)) (rev s) (rev col) (rev al) n) as (LL & QQ); rewrite ?rev_length; auto.
  assert (ND : forall i, num (upd h la (Cell (a_int ca) (a_shape ca) da)) la i = nth i da 0) by (intros i; rewrite (map_num _ la _ (nth_error_upd_eq h la _ _ Ea)); reflexivity).
  split; [exact LL|]. split; [|split].
  - intros i df Hi. rewrite QQ by lia. rewrite !nth_rev' by assumption. rewrite ND, QS, QC, QA by exact Hi. rewrite (map_num _ _ _ Ez). reflexivity.
  - intros i Hi. rewrite ND. unfold da. rewrite (nth_indep _ 0 (wrap_d 0)) by (rewrite map_length; lia). rewrite map_nth, (map_num _ _ _ Ea). reflexivity.
  - intros l NL. apply nth_error_upd_ne. congruence.
Qed.
(** a single number for the colour or the opacity is rejected, after the array has
    been changed *)
Lemma doa_number h la lz n p m size c alpha fs : float_array h la n -> float_array h lz n -> la <> lz -> (0 < n)%nat -> doa_args n p m None None fs ->
  (exists x, c = Some (SNum x)) \/ ((c = None \/ exists l, c = Some (SArr l)) /\ exists x, alpha = Some (SNum x)) ->
  fst (doa la lz p size c alpha fs h) = Err TypeError /\ forall i, (i < n)%nat -> num (snd (doa la lz p size c alpha fs h)) la i = wrap_d (num h la i).
Proof.
  intros FA FZ N1 Hn HD HC. destruct (doa_ok h la lz n p m size None None fs FA FZ N1 Hn HD) as (pts & h' & E & _ & _ & HW & _).
  destruct FA as (ca & Ea & SA & LA & IA). destruct FZ as (cz & Ez & SZ & LZ & IZ).
  revert E. unfold doa, wrap_in_place, andthen, fetch, store. rewrite Ea. unfold set_data.
  rewrite (nth_error_upd_eq h la _ _ Ea). rewrite (nth_error_upd_ne h la lz) by exact N1. rewrite Ez. cbn [a_data].
  destruct (doa_sizes _ p size) as [s|e]; cbn [bind]; [|intros E; discriminate E].
  assert (NF : forall f, fs = Some f -> Reqb f 0 = false) by (intros f ->; destruct HD as (_ & _ & _ & HF); apply Reqb_false; lra).
  intros E. assert (H' : h' = upd h la (Cell (a_int ca) (a_shape ca) (map (fun v => if Rltb PI v then if a_int ca then IZR (py_int (pymod v (- PI))) else pymod v (- PI) else v) (a_data ca)))).
  { revert E. destruct fs as [f|]; [rewrite (NF f eq_refl)|]; cbn [bind]; match goal with |- context [if ?b then _ else _] => idtac end; destruct (_ && _)%bool; unfold ret, raise; intros [= _ <-]; reflexivity. }
  rewrite H' in HW. destruct HC as [(x & ->)|([->|(l & ->)] & x & ->)]; cbn [bind].
  - split; [reflexivity|exact HW].
  - destruct fs as [f|]; [rewrite (NF f eq_refl)|]; cbn [bind]; (split; [reflexivity|exact HW]).
  - split; [reflexivity|exact HW].
Qed.

(** a sampling rate of zero is rejected, after the array has been changed *)
Lemma doa_zero_rate h la lz n p m size alpha : float_array h la n -> float_array h lz n -> la <> lz -> (0 < n)%nat -> doa_args n p m None alpha None ->
  fst (doa la lz p size None alpha (Some 0) h) = Err ZeroDivisionError /\ forall i, (i < n)%nat -> num (snd (doa la lz p size None alpha (Some 0) h)) la i = wrap_d (num h la i).
Proof.
  intros FA FZ N1 Hn HD. destruct (doa_ok h la lz n p m size None alpha None FA FZ N1 Hn HD) as (pts & h' & E & _ & _ & HW & _).
  destruct FA as (ca & Ea & SA & LA & IA). destruct FZ as (cz & Ez & SZ & LZ & IZ).
  revert E. unfold doa, wrap_in_place, andthen, fetch, store. rewrite Ea. unfold set_data.
  rewrite (nth_error_upd_eq h la _ _ Ea). rewrite (nth_error_upd_ne h la lz) by exact N1. rewrite Ez. cbn [a_data].
  destruct (doa_sizes _ p size) as [s|e]; cbn [bind]; [|intros E; discriminate E]. replace (Reqb 0 0) with true by (symmetry; apply Reqb_true; reflexivity). cbn [bind].
  intros E. assert (H' : h' = upd h la (Cell (a_int ca) (a_shape ca) (map (fun v => if Rltb PI v then if a_int ca then IZR (py_int (pymod v (- PI))) else pymod v (- PI) else v) (a_data ca)))).
  { revert E. destruct alpha as [[l|x]|]; cbn [bind]; try destruct (_ && _)%bool; unfold ret, raise; intros [= _ <-]; reflexivity. }
  rewrite H' in HW. split; [reflexivity|exact HW].
Qed.

(** ** hrirs_ild_itd *)
Lemma fmod_turns a : exists k : Z, fmod (a + PI) (2 * PI) - PI = a + 2 * PI * IZR k.
Proof. exists (- py_int ((a + PI) / (2 * PI)))%Z. unfold fmod. rewrite opp_IZR. ring. Qed.
Lemma fmod_range a : - PI <= a -> - PI <= fmod (a + PI) (2 * PI) - PI < PI.
Proof.
  intros H. pose proof PI_RGT_0 as P. unfold fmod. assert (Q : 0 <= (a + PI) / (2 * PI)) by (apply Rmult_le_pos; [lra|apply Rlt_le, Rinv_0_lt_compat; lra]).
  destruct (py_int_nonneg _ Q) as (_ & B1 & B2). set (k := py_int ((a + PI) / (2 * PI))) in *.
  assert (E : a + PI = 2 * PI * ((a + PI) / (2 * PI))) by (field; lra). set (q := (a + PI) / (2 * PI)) in *. rewrite E. split; [assert (2 * PI * IZR k <= 2 * PI * q) by (apply Rmult_le_compat_l; lra)|assert (2 * PI * q < 2 * PI * (IZR k + 1)) by (apply Rmult_lt_compat_l; lra)]; lra.
Qed.
Lemma sym_ok l given : l <> [] -> exists m, sym_lim l given = Ok (- m, m) /\ match given with Some g => m = g | None => largest m (map Rabs l) end.
Proof.
  intros NE. unfold sym_lim. destruct given as [g|]; [exists g; auto|]. destruct (np_max_ok (map Rabs l)) as (m & E); [intros Z; apply map_eq_nil in Z; exact (NE Z)|].
  rewrite E. cbn [bind]. exists m. split; [reflexivity|]. exact (np_max_spec _ _ E).
Qed.
Lemma ild_ok azi zen ilds itds pclims : ilds <> [] -> itds <> [] ->
  exists fig m1 m2, hrirs_ild_itd azi zen ilds itds pclims = Ok fig /\ if_zen fig = zen /\ if_ild fig = ilds /\ if_itd fig = map (fun t => 1000 * t) itds /\
    length (if_azi fig) = length azi /\
    (forall i, (i < length azi)%nat -> same_direction (nth i (if_azi fig) 0) (nth i azi 0) /\ (- PI <= nth i azi 0 -> - PI <= nth i (if_azi fig) 0 < PI)) /\
    if_ild_lim fig = (- m1, m1) /\ if_itd_lim fig = (- m2, m2) /\
    match fst pclims with Some g => m1 = g | None => largest m1 (map Rabs ilds) end /\
    match snd pclims with Some g => m2 = g | None => largest m2 (map (fun t => Rabs (1000 * t)) itds) end.
Proof.
  intros N1 N2. unfold hrirs_ild_itd. destruct (sym_ok ilds (fst pclims) N1) as (m1 & E1 & H1). rewrite E1. cbn [bind].
  destruct (sym_ok (map (fun t => 1000 * t) itds) (snd pclims)) as (m2 & E2 & H2); [intros Z; apply map_eq_nil in Z; exact (N2 Z)|]. rewrite E2. cbn [bind].
  eexists; exists m1, m2. split; [reflexivity|]. cbn [if_zen if_ild if_itd if_azi if_ild_lim if_itd_lim]. rewrite map_map in H2. rewrite map_length. repeat split; auto.
  1-2: rewrite (nth_indep _ 0 (fmod (0 + PI) (2 * PI) - PI)) by (rewrite map_length; assumption); rewrite (map_nth (fun a => fmod (a + PI) (2 * PI) - PI)); destruct (fmod_turns (nth i azi 0)) as (k & ->); apply same_turns.
  all: rewrite (nth_indep _ 0 (fmod (0 + PI) (2 * PI) - PI)) by (rewrite map_length; assumption); rewrite (map_nth (fun a => fmod (a + PI) (2 * PI) - PI)); apply fmod_range; assumption.
Qed.
