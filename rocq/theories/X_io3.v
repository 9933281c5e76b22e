(** BRIR files: final forms and examples. *)
From Coq Require Import String.
From Verif Require Import Base BaseFacts M_utils M_sig M_process S_process M_decoder M_decoder2 M_decoder3 S_decoder3 M_parsa2 S_parsa2 M_io S_io P_sig P_proc1 P_proc4 P_dec13 P_parsa7 X_dec3 X_parsa2 P_io1 P_io2 P_io4 X_io1.
Open Scope R_scope.

Lemma given_match {A} (o : option A) dflt x : given o dflt x -> (match o with Some y => Ok y | None => dflt end) = Ok x.
Proof. intros [-> | [-> ->]]; reflexivity. Qed.
Lemma given_match_inv {A} (o : option A) dflt x : (match o with Some y => Ok y | None => dflt end) = Ok x -> given o dflt x.
Proof. destruct o; intro E; [injection E as ->; left; reflexivity|right; auto]. Qed.
Lemma given_jobs (o : option Z) cpus x : given o (Ok cpus) x -> (match o with Some y => y | None => cpus end) = x.
Proof. intros [-> | [-> E]]; [reflexivity|]. injection E as ->. reflexivity. Qed.

(** ** reading the workers' results *)
Lemma pool_reads {A} (f : nat -> res (option A)) rs n : mapM f (seq 0 n) = Ok rs ->
  forall j, In j (seq 0 n) -> match nth j (map Some rs) None with Some r => Ok r | None => Err TypeError end = f j.
Proof.
  intros E j Hj. apply in_seq in Hj. assert (J : (j < n)%nat) by lia. clear Hj.
  assert (G : forall l rs, mapM f l = Ok rs -> forall i, (i < length l)%nat -> match nth i (map Some rs) None with Some r => Ok r | None => Err TypeError end = f (nth i l 0%nat)).
  { clear. induction l as [|a l IH]; intros rs E i Hi; [cbn in Hi; lia|]. cbn [mapM] in E. destruct (f a) as [b|] eqn:Fa; [|discriminate]. cbn [bind] in E.
    destruct (mapM f l) as [bs|]; [|discriminate]. cbn [bind] in E. injection E as <-. destruct i as [|i]; cbn [map nth]; [symmetry; exact Fa|].
    apply IH; [reflexivity|cbn [length] in Hi; lia]. }
  rewrite (G _ _ E j) by (rewrite seq_length; exact J). rewrite seq_nth by exact J. reflexivity.
Qed.
Lemma speakers_rows (f : nat -> res (option (list R * list R))) w rows jobs cs order : (1 <= jobs)%Z -> (0 < cs)%nat -> full_order 360 cs order ->
  forall q, ((if Z.eqb jobs 1 then fill_loop w f (seq 0 360) rows
     else if Z.ltb 1 jobs then
       let* results := pool_starmap f cs (seq 0 360) order in
       fill_loop w (fun a => match nth a results None with Some r => Ok r | None => Err TypeError end) (seq 0 360) rows
     else Ok (Some rows)) = Ok (Some q)) <-> fill_loop w f (seq 0 360) rows = Ok (Some q).
Proof.
  intros J C O q. destruct (Z.eqb_spec jobs 1) as [E|E]; [tauto|]. rewrite (proj2 (Z.ltb_lt 1 jobs)) by lia.
  assert (O' : full_order (length (seq 0 360)) cs order) by (rewrite seq_length; exact O).
  destruct (mapM f (seq 0 360)) as [rs|e] eqn:M.
  - rewrite (pool_starmap_ok f cs (seq 0 360) rs order C M O'). cbn [bind]. rewrite (fill_loop_ext w _ f (seq 0 360) (pool_reads f rs 360 M)). tauto.
  - destruct (pool_starmap_err f cs (seq 0 360) e order C M O') as (e' & E'). rewrite E'. cbn [bind]. split; [discriminate|].
    intro F. exfalso. pose proof (fill_loop_inv _ _ _ _ _ F) as I. pose proof (mapM_ok f (fun g => match f g with Ok p => p | _ => None end) (seq 0 360)) as Q.
    rewrite Q in M; [discriminate|]. intros x Hx. destruct (I x Hx) as (p & ->). reflexivity.
Qed.

(** ** common part *)
Lemma rows_written y st d name fs w f ir : (forall g, (g < 360)%nat -> f g = Ok (Some (ir g)) /\ length (fst (ir g)) = w /\ length (snd (ir g)) = w) ->
  (0 < w)%nat -> accepts y 720 fs = true ->
  exists rows a, fill_loop w f (seq 0 360) (repeat (repeat 0 w) 720) = Ok (Some rows) /\
    finish_brirs y st d name fs w (Some rows) = Ok (Some (put d (expanduser y (wav_name name)) a)) /\ brir_file (stored y st) fs w ir a.
Proof.
  intros H W A. destruct (fill_loop_ok w f ir 360 0 (repeat (repeat 0 w) 720)) as (rows & E & L & V & _).
  - intros j Hj. apply H. lia.
  - rewrite repeat_length. lia.
  - rewrite repeat_length in L. destruct (finish_ok y st d name fs w rows ir L) as (a & E2 & B); [|exact W|exact A|].
    + intros j Hj. destruct (V j ltac:(lia)) as [V1 V2]. destruct (H j Hj) as (_ & L1 & L2). auto.
    + exists rows, a. auto.
Qed.
Lemma rows_written_inv y st d name fs w f q d' : (forall g p, (g < 360)%nat -> f g = Ok (Some p) -> length (fst p) = w /\ length (snd p) = w) ->
  fill_loop w f (seq 0 360) (repeat (repeat 0 w) 720) = Ok (Some q) -> finish_brirs y st d name fs w (Some q) = Ok (Some d') ->
  exists ir a, (forall g, (g < 360)%nat -> f g = Ok (Some (ir g))) /\ (0 < w)%nat /\ accepts y 720 fs = true /\
    d' = put d (expanduser y (wav_name name)) a /\ brir_file (stored y st) fs w ir a.
Proof.
  intros L F E. pose proof (fill_loop_inv _ _ _ _ _ F) as I.
  set (ir := fun g => match f g with Ok (Some p) => p | _ => ([], []) end).
  assert (H : forall g, (g < 360)%nat -> f g = Ok (Some (ir g))).
  { intros g Hg. destruct (I g) as (p & P); [apply in_seq; lia|]. unfold ir. rewrite P. reflexivity. }
  assert (H' : forall g, (g < 360)%nat -> f g = Ok (Some (ir g)) /\ length (fst (ir g)) = w /\ length (snd (ir g)) = w).
  { intros g Hg. split; [apply H; exact Hg|]. apply (L g); auto. }
  assert (LR : length q = 720%nat /\ (forall x, In x q -> length x = w)).
  { destruct (fill_loop_ok w f ir 360 0 (repeat (repeat 0 w) 720)) as (q' & Q & Q1 & Q2 & _); [intros j Hj; apply H'; lia|rewrite repeat_length; lia|].
    rewrite F in Q. injection Q as <-. rewrite repeat_length in Q1. split; [exact Q1|].
    refine (proj1 (in_rows_pairs q 360 ir w Q1 _)). intros j Hj. destruct (Q2 j ltac:(lia)) as [V1 V2]. destruct (H' j Hj) as (_ & L1 & L2). auto. }
  destruct LR as [LR LW].
  assert (W : (0 < w)%nat).
  { destruct w; [exfalso|lia]. unfold finish_brirs, normalize_rows in E. assert (Z0 : concat q = []).
    { clear - LW. induction q as [|x q IH]; [reflexivity|]. cbn [concat]. rewrite IH by (intros; apply LW; right; assumption). 
      pose proof (LW x (or_introl eq_refl)). destruct x; [reflexivity|discriminate]. }
    rewrite Z0 in E. discriminate E. }
  assert (A : accepts y 720 fs = true).
  { destruct (accepts y 720 fs) eqn:A; [reflexivity|exfalso]. unfold finish_brirs in E. destruct (normalize_rows q) as [r|] eqn:N; [|discriminate]. cbn [bind] in E.
    assert (LR' : length r = 720%nat).
    { unfold normalize_rows in N. destruct (max_abs (concat q)) as [m|]; [|discriminate]. cbn [bind] in N. injection N as <-. destruct (Rltb 1 m); [rewrite map_length|]; exact LR. }
    destruct (save_rows y st d (wav_name name) fs w r) as [dd|] eqn:SR; [|discriminate]. unfold save_rows in SR.
    destruct (save_audio y st d _ (wav_name name) (Some fs)) as [r2|] eqn:SA; [|discriminate]. clear SR E.
    unfold save_audio, module_is_mono, as_sf in SA. cbn [save_data bind shape] in SA.
    destruct (max_abs _) as [m|]; [|discriminate]. cbn [bind] in SA. unfold sf_write in SA. cbn [nc] in SA.
    rewrite LR', A in SA. discriminate SA. }
  destruct (rows_written y st d name fs w f ir H' W A) as (q' & a & Q & E2 & B). rewrite F in Q. injection Q as <-. rewrite E2 in E. injection E as <-.
  exists ir, a. auto.
Qed.
Lemma put_only d n a : only_written d (put d n a) n a.
Proof. split; [apply put_same|]. intros m Hm. apply put_other. exact Hm. Qed.

(** ** loudspeakers *)
Lemma f_speakers y st default cpus cs order d name ls h fs hro hr jo jobs d' :
  given hro default hr -> given jo (Ok cpus) jobs -> (1 <= jobs)%Z -> (0 < cs)%nat -> full_order 360 cs order ->
  write_ssr_brirs_loudspeaker y st default cpus cs order d name ls h fs hro jo = Ok (Some d') ->
  h_fs hr = fs /\ exists ir a, (forall g, (g < 360)%nat -> binauralize h ls fs (turned g) hr = Ok (Some (ir g))) /\
    only_written d d' (expanduser y (wav_name name)) a /\ brir_file (stored y st) fs (cols ls + h_taps hr - 1) ir a.
Proof.
  intros G1 G2 J C O E. unfold write_ssr_brirs_loudspeaker in E. rewrite (given_match _ _ _ G1), (given_jobs _ _ _ G2) in E. cbn [bind] in E.
  destruct (Z.eqb_spec (h_fs hr) fs) as [F|F]; [|discriminate]. cbn [assert_ bind] in E. split; [exact F|].
  match type of E with bind ?e _ = _ => destruct e as [[q|]|] eqn:B end; cbn [bind] in E; [|discriminate E|discriminate E].
  apply (speakers_rows _ _ _ _ _ _ J C O) in B.
  destruct (rows_written_inv y st d name fs _ _ q d' (fun g p _ => binauralize_length h ls fs _ hr p) B E) as (ir & a & I & _ & _ & -> & BF).
  exists ir, a. split; [exact I|]. split; [apply put_only|exact BF].
Qed.
Lemma f_speakers_ok y st default cpus cs order d name ls h fs hro hr jo jobs ir :
  given hro default hr -> given jo (Ok cpus) jobs -> (1 <= jobs)%Z -> (0 < cs)%nat -> full_order 360 cs order ->
  h_fs hr = fs -> (0 < cols ls + h_taps hr - 1)%nat -> accepts y 720 fs = true ->
  (forall g, (g < 360)%nat -> binauralize h ls fs (turned g) hr = Ok (Some (ir g))) ->
  exists d' a, write_ssr_brirs_loudspeaker y st default cpus cs order d name ls h fs hro jo = Ok (Some d') /\
    only_written d d' (expanduser y (wav_name name)) a /\ brir_file (stored y st) fs (cols ls + h_taps hr - 1) ir a.
Proof.
  intros G1 G2 J C O F W A I.
  destruct (rows_written y st d name fs (cols ls + h_taps hr - 1) (fun g => binauralize h ls fs (np_deg2rad (INR g), 0) hr) ir) as (q & a & Q & E & B); [|exact W|exact A|].
  - intros g Hg. split; [exact (I g Hg)|]. exact (binauralize_length _ _ _ _ _ _ (I g Hg)).
  - exists (put d (expanduser y (wav_name name)) a), a. split; [|split; [apply put_only|exact B]].
    unfold write_ssr_brirs_loudspeaker. rewrite (given_match _ _ _ G1), (given_jobs _ _ _ G2). cbn [bind]. rewrite (proj2 (Z.eqb_eq _ _) F). cbn [assert_ bind].
    match goal with |- bind ?e _ = _ => assert (e = Ok (Some q)) as -> end; [|cbn [bind]; exact E].
    apply (speakers_rows _ _ _ _ _ _ J C O). exact Q.
Qed.
Lemma bind_iff {A B} (e1 e2 : res (option A)) (k : option A -> res (option B)) x : (forall q, e1 = Ok (Some q) <-> e2 = Ok (Some q)) -> k None <> Ok (Some x) ->
  bind e1 k = Ok (Some x) <-> bind e2 k = Ok (Some x).
Proof.
  intros H N. split; intro E.
  - destruct e1 as [[q|]|]; [|cbn [bind] in E; contradiction|discriminate]. rewrite (proj1 (H q) eq_refl). exact E.
  - destruct e2 as [[q|]|]; [|cbn [bind] in E; contradiction|discriminate]. rewrite (proj2 (H q) eq_refl). exact E.
Qed.
Lemma f_jobs y st default cpus cs order d name ls h fs hro jobs d' : (1 <= jobs)%Z -> (0 < cs)%nat -> full_order 360 cs order ->
  write_ssr_brirs_loudspeaker y st default cpus cs order d name ls h fs hro (Some jobs) = Ok (Some d') <->
  write_ssr_brirs_loudspeaker y st default cpus cs order d name ls h fs hro (Some 1%Z) = Ok (Some d').
Proof.
  intros J C O. unfold write_ssr_brirs_loudspeaker. destruct (match hro with Some x => Ok x | None => default end) as [hr|]; [|tauto]. cbn [bind].
  destruct (h_fs hr =? fs)%Z; [|tauto]. cbn [assert_ bind]. change (1 =? 1)%Z with true. cbv iota.
  apply bind_iff; [|discriminate]. intro q. apply (speakers_rows _ _ _ _ _ _ J C O).
Qed.
(** with the superposition of what the loudspeakers radiate *)
Lemma f_superposition y st default cpus cs order d name ls h fs hro hr T jo jobs az ze di hl hh loud :
  given hro default hr -> given jo (Ok cpus) jobs -> (1 <= jobs)%Z -> (0 < cs)%nat -> full_order 360 cs order ->
  hrir_set hr T -> (forall g, (g < 360)%nat -> rendered_from h (turned g) hr az ze di (hl g) (hh g)) ->
  h_fs hr = fs -> length (rows ls) = length (h_points h) -> rect ls -> (0 < cols ls)%nat -> accepts y 720 fs = true ->
  (forall c, (c < length (h_points h))%nat -> loud c = true <-> heard (radiated ls (h_a h) di c)) ->
  exists d' a ir, write_ssr_brirs_loudspeaker y st default cpus cs order d name ls h fs hro jo = Ok (Some d') /\
    only_written d d' (expanduser y (wav_name name)) a /\ brir_file (stored y st) fs (cols ls + T - 1) ir a /\
    forall g n, (g < 360)%nat -> (n < cols ls + T - 1)%nat ->
      nth n (fst (ir g)) 0 = rsum (length (h_points h)) (fun c => if loud c : bool then conv_sum (radiated ls (h_a h) di c) (hl g c) n else 0) /\
      nth n (snd (ir g)) 0 = rsum (length (h_points h)) (fun c => if loud c : bool then conv_sum (radiated ls (h_a h) di c) (hh g c) n else 0).
Proof.
  intros G1 G2 J C O HS HR F L RE W A HL. set (ir := fun g => match binauralize h ls fs (turned g) hr with Ok (Some q) => q | _ => ([], []) end).
  assert (I : forall g, (g < 360)%nat -> binauralize h ls fs (turned g) hr = Ok (Some (ir g)) /\
    forall n, (n < cols ls + T - 1)%nat -> nth n (fst (ir g)) 0 = rsum (length (h_points h)) (fun c => if loud c : bool then conv_sum (radiated ls (h_a h) di c) (hl g c) n else 0) /\
      nth n (snd (ir g)) 0 = rsum (length (h_points h)) (fun c => if loud c : bool then conv_sum (radiated ls (h_a h) di c) (hh g c) n else 0)).
  { intros g Hg. destruct (superposition_final h ls fs (turned g) hr T az ze di (hl g) (hh g) loud HS (HR g Hg) F L RE HL) as (l & r & E & _ & _ & V).
    unfold ir. rewrite E. split; [reflexivity|]. exact V. }
  pose proof HS as (T1 & _ & _ & _ & _ & HT & _).
  destruct (f_speakers_ok y st default cpus cs order d name ls h fs hro hr jo jobs ir G1 G2 J C O F) as (d' & a & E & OW & B); [rewrite HT; lia|exact A|intros g Hg; apply I; exact Hg|].
  rewrite HT in B. exists d', a, ir. do 3 (split; [assumption|]). intros g n Hg Hn. apply I; assumption.
Qed.

(** ** SDM *)
Lemma f_sdm y st default d name p phi theta fs hro hr d' : given hro default hr -> (0 < length p + h_taps hr)%nat ->
  write_ssr_brirs_sdm y st default d name p phi theta fs hro = Ok (Some d') ->
  h_fs hr = fs /\ exists ir a,
    (forall g, (g < 360)%nat -> render_bsdm p (map (fun t => t - fst (turned g)) phi) theta hr 1 (fun _ => O) [] [] = Ok (ir g)) /\
    only_written d d' (expanduser y (wav_name name)) a /\ brir_file (stored y st) fs (length p + h_taps hr - 1) ir a.
Proof.
  intros G1 W E. unfold write_ssr_brirs_sdm in E. rewrite (given_match _ _ _ G1) in E. cbn [bind] in E.
  destruct (Z.eqb_spec (h_fs hr) fs) as [F|F]; [|discriminate]. cbn [assert_ bind] in E. split; [exact F|].
  match type of E with bind ?e _ = _ => destruct e as [[q|]|] eqn:B end; cbn [bind] in E; [|discriminate E|discriminate E].
  destruct (fun H => rows_written_inv y st d name fs _ _ q d' H B E) as (ir & a & I & _ & _ & -> & BF).
  { intros g r _ Q. match type of Q with bind ?e _ = _ => destruct e eqn:RB end; [|discriminate]. cbn [bind] in Q. injection Q as <-. exact (bsdm_length _ _ _ _ _ _ _ _ RB W). }
  exists ir, a. split; [|split; [apply put_only|exact BF]]. intros g Hg. specialize (I g Hg). cbv beta in I.
  match type of I with bind ?e _ = _ => destruct e eqn:RB end; [|discriminate]. cbn [bind] in I. injection I as <-. exact RB.
Qed.
Lemma f_sdm_values y st default d name p phi theta fs hro hr T : given hro default hr -> hrir_set hr T -> h_fs hr = fs -> p <> [] -> accepts y 720 fs = true ->
  exists d' a ir k, write_ssr_brirs_sdm y st default d name p phi theta fs hro = Ok (Some d') /\
    only_written d d' (expanduser y (wav_name name)) a /\ brir_file (stored y st) fs (length p + T - 1) ir a /\
    forall g, (g < 360)%nat ->
      (forall i, (i < zipped p phi theta)%nat -> closest hr (nth i phi 0 - fst (turned g)) (nth i theta 0) (k g i)) /\
      (forall n, nth n (fst (ir g)) 0 = moving_conv (zipped p phi theta) p (fun i => nth (k g i) (h_left hr) []) n /\
                 nth n (snd (ir g)) 0 = moving_conv (zipped p phi theta) p (fun i => nth (k g i) (h_right hr) []) n).
Proof.
  intros G1 HS F NE A. pose proof HS as (T1 & _ & _ & _ & _ & HT & _).
  set (rot := fun g : nat => map (fun t => t - fst (turned g)) phi).
  set (f := fun g => render_bsdm p (rot g) theta hr 1 (fun _ => O) [] []).
  assert (LZ : forall g, zipped p (rot g) theta = zipped p phi theta) by (intro g; unfold zipped, rot; rewrite map_length; reflexivity).
  assert (P : forall g, exists q, f g = Ok (fst q) /\ length (fst (fst q)) = (length p + T - 1)%nat /\ length (snd (fst q)) = (length p + T - 1)%nat /\
     (forall i, (i < zipped p phi theta)%nat -> closest hr (nth i phi 0 - fst (turned g)) (nth i theta 0) (snd q i)) /\
     (forall n, nth n (fst (fst q)) 0 = moving_conv (zipped p phi theta) p (fun i => nth (snd q i) (h_left hr) []) n /\
                 nth n (snd (fst q)) 0 = moving_conv (zipped p phi theta) p (fun i => nth (snd q i) (h_right hr) []) n)).
  { intro g. destruct (bsdm_output p (rot g) theta hr T (fun _ => O) [] [] HS) as (l & r & k & E & L1 & L2 & CL & V1 & V2). rewrite LZ in *.
    exists ((l, r), k). cbn [fst snd]. split; [exact E|]. split; [exact L1|]. split; [exact L2|]. split; [|intro n; split; [apply V1|apply V2]].
    intros i Hi. pose proof (CL i Hi) as Q. unfold rot in Q. rewrite (nth_map_in _ phi i 0 0) in Q; [exact Q|]. unfold zipped in Hi. lia. }
  assert (PC : forall n, exists s : nat -> (list R * list R) * (nat -> nat), forall g, (g < n)%nat -> f g = Ok (fst (s g)) /\ length (fst (fst (s g))) = (length p + T - 1)%nat /\ length (snd (fst (s g))) = (length p + T - 1)%nat /\
     (forall i, (i < zipped p phi theta)%nat -> closest hr (nth i phi 0 - fst (turned g)) (nth i theta 0) (snd (s g) i)) /\
     (forall n, nth n (fst (fst (s g))) 0 = moving_conv (zipped p phi theta) p (fun i => nth (snd (s g) i) (h_left hr) []) n /\
                 nth n (snd (fst (s g))) 0 = moving_conv (zipped p phi theta) p (fun i => nth (snd (s g) i) (h_right hr) []) n)).
  { induction n as [|n (s & IH)]; [exists (fun _ => (([], []), fun _ => O)); intros; lia|]. destruct (P n) as (q & Q).
    exists (fun g => if Nat.eqb g n then q else s g). intros g Hg. destruct (Nat.eqb_spec g n) as [->|D]; [exact Q|]. apply IH. lia. }
  destruct (PC 360%nat) as (s & V). clear PC P.
  destruct (rows_written y st d name fs (length p + T - 1) (fun g => let* r := f g in Ok (Some r)) (fun g => fst (s g))) as (q & a & Q & E & B); [| |exact A|].
  - intros g Hg. destruct (V g Hg) as (Fg & L1 & L2 & _). rewrite Fg. auto.
  - destruct p; [congruence|]. cbn [length]. lia.
  - exists (put d (expanduser y (wav_name name)) a), a, (fun g => fst (s g)), (fun g => snd (s g)). split; [|split; [apply put_only|split; [exact B|]]].
    + unfold write_ssr_brirs_sdm. rewrite (given_match _ _ _ G1). cbn [bind]. rewrite (proj2 (Z.eqb_eq _ _) F). cbn [assert_ bind]. rewrite HT.
      match goal with |- bind ?e _ = _ => assert (e = Ok (Some q)) as -> by exact Q end. exact E.
    + intros g Hg. destruct (V g Hg) as (_ & _ & _ & X & Y). split; assumption.
Qed.

(** ** file names *)
Lemma f_wav_name n : (wav_name n = n \/ wav_name n = append n ".wav") /\ (exists stem, wav_name n = append stem ".wav") /\
  (forall stem, n = append stem ".wav" -> wav_name n = n).
Proof.
  assert (AL : forall a b, String.length (append a b) = (String.length a + String.length b)%nat) by (induction a as [|c a IH]; intro b; [reflexivity|cbn; rewrite IH; reflexivity]).
  assert (SUB : forall a b, substring (String.length a) (String.length b) (append a b) = b).
  { induction a as [|c a IH]; intro b; [|cbn; apply IH]. cbn. induction b as [|c b IH]; [reflexivity|]. cbn. rewrite IH. reflexivity. }
  assert (SPL : forall k m, (k + m = String.length n)%nat -> n = append (substring 0 k n) (substring k m n)).
  { induction n as [|c n0 IH]; intros k m Hk.
    - cbn in Hk. assert (k = 0)%nat as -> by lia. assert (m = 0)%nat as -> by lia. reflexivity.
    - destruct k as [|k].
      + cbn in Hk. destruct m as [|m]; [discriminate|]. cbn. f_equal. injection Hk as Hk. pose proof (IH 0%nat m Hk) as Q. cbn [append] in Q.
        destruct n0; cbn in *; exact Q.
      + cbn. f_equal. apply IH. cbn in Hk. lia. }
  unfold wav_name. split; [|split].
  - destruct (String.eqb _ _); auto.
  - destruct (String.eqb_spec (substring (String.length n - 4) (String.length n - (String.length n - 4)) n) ".wav") as [E|E]; [|eauto].
    exists (substring 0 (String.length n - 4) n). rewrite <- E. apply SPL. lia.
  - intros stem ->. rewrite AL. change (String.length ".wav") with 4%nat. replace (String.length stem + 4 - 4)%nat with (String.length stem) by lia.
    replace (String.length stem + 4 - String.length stem)%nat with (String.length ".wav") by (cbn; lia). rewrite SUB. reflexivity.
Qed.

(** ** no workers *)
Lemma f_no_workers y st default cpus cs order d name ls h fs hro hr jo jobs :
  given hro default hr -> given jo (Ok cpus) jobs -> (jobs <= 0)%Z -> h_fs hr = fs -> (0 < cols ls + h_taps hr - 1)%nat -> accepts y 720 fs = true ->
  exists d' a, write_ssr_brirs_loudspeaker y st default cpus cs order d name ls h fs hro jo = Ok (Some d') /\
    only_written d d' (expanduser y (wav_name name)) a /\
    brir_file (stored y st) fs (cols ls + h_taps hr - 1) (fun _ => (repeat 0 (cols ls + h_taps hr - 1), repeat 0 (cols ls + h_taps hr - 1))) a.
Proof.
  intros G1 G2 J F W A. set (w := (cols ls + h_taps hr - 1)%nat) in *.
  destruct (finish_ok y st d name fs w (repeat (repeat 0 w) 720) (fun _ => (repeat 0 w, repeat 0 w))) as (a & E & B); [apply repeat_length| |exact W|exact A|].
  - intros j Hj. rewrite !nth_repeat_in by lia. cbn [fst snd]. rewrite repeat_length. auto.
  - exists (put d (expanduser y (wav_name name)) a), a. split; [|split; [apply put_only|exact B]].
    unfold write_ssr_brirs_loudspeaker. rewrite (given_match _ _ _ G1), (given_jobs _ _ _ G2). cbn [bind]. rewrite (proj2 (Z.eqb_eq _ _) F). cbn [assert_ bind].
    destruct (Z.eqb_spec jobs 1) as [Q|Q]; [lia|]. destruct (Z.ltb_spec 1 jobs) as [Q2|Q2]; [lia|]. cbn [bind]. fold w. exact E.
Qed.

(** ** examples *)
Definition two_order : list nat := [1; 0]%nat.
Lemma two_chunks : full_order 360 200 two_order.
Proof.
  split; [repeat constructor; cbn; intuition discriminate|]. intro i. cbn. split; [intros [<-|[<-|[]]]; lia|]. intro H. destruct i as [|[|i]]; auto. exfalso. lia.
Qed.
Lemma one_families : exists az ze di hl hh, forall g, (g < 360)%nat -> rendered_from two_hull (turned g) one_hrir az ze di (hl g) (hh g).
Proof.
  destruct (directions_exist two_hull (0, 0) one_hrir 2 one_set two_apart) as (az & ze & di & hl & hh & H).
  exists az, ze, di, (fun _ _ => [1; 1]), (fun _ _ => [1; 1]). intros g _ c Hc. destruct (H c Hc) as (A1 & A2 & A3 & A4 & A5 & _).
  cbv zeta. do 5 (split; [assumption|]). apply one_nearest.
Qed.
(** all hypotheses of [f_superposition], with four jobs *)
Lemma ex_speakers : exists az ze di hl hh (loud : nat -> bool),
  given None (Ok one_hrir) one_hrir /\ given None (Ok 4%Z) 4%Z /\ full_order 360 200 two_order /\ hrir_set one_hrir 2 /\
  (forall g, (g < 360)%nat -> rendered_from two_hull (turned g) one_hrir az ze di (hl g) (hh g)) /\
  h_fs one_hrir = 48000%Z /\ length (rows two_sigs) = length (h_points two_hull) /\ rect two_sigs /\ (0 < cols two_sigs)%nat /\ accepts any_system 720 48000 = true /\
  (forall c, (c < length (h_points two_hull))%nat -> loud c = true <-> heard (radiated two_sigs (h_a two_hull) di c)).
Proof.
  destruct one_families as (az & ze & di & hl & hh & H).
  exists az, ze, di, hl, hh, (fun c => gate_open (radiated two_sigs (h_a two_hull) di c)).
  split; [right; auto|]. split; [right; auto|]. split; [exact two_chunks|]. split; [exact one_set|]. split; [exact H|].
  do 2 (split; [reflexivity|]). split; [repeat constructor|]. split; [cbn; lia|]. split; [reflexivity|].
  intros c _. apply gate_heard.
Qed.
Lemma ex_sdm : given (Some two_hrirs) (Err FileNotFoundError) two_hrirs /\ hrir_set two_hrirs 2 /\ h_fs two_hrirs = 48000%Z /\ [1; 2] <> [] /\ accepts any_system 720 48000 = true.
Proof. split; [left; reflexivity|]. split; [exact two_set|]. split; [reflexivity|]. split; [discriminate|reflexivity]. Qed.
(** jobs_count=0 writes silence although the loudspeaker is heard *)
Lemma ex_no_workers : exists y st d name ls h fs hr d' a ir, (forall g, (g < 360)%nat -> binauralize h ls fs (turned g) hr = Ok (Some (ir g))) /\
  nth 0 (fst (ir 0%nat)) 0 = 1 /\
  write_ssr_brirs_loudspeaker y st (Ok hr) 4 1 [] d name ls h fs None (Some 0%Z) = Ok (Some d') /\
  d' "x.wav"%string = Some a /\ nr (au_data a) = 4%nat /\ nc (au_data a) = 720%nat /\
  forall i j, (i < 4)%nat -> (j < 720)%nat -> ent (au_data a) i j = 0.
Proof.
  set (h1 := hull_of_points (fun _ => []) [(1, 0, 0)]). set (s1 := Arr2 [[1; 0; -1]] 3).
  assert (AP : forall p, In p (h_points h1) -> p <> h_listener h1) by (cbn; intros p [<-|[]]; injection; lra).
  destruct (directions_exist h1 (0, 0) one_hrir 2 one_set AP) as (az & ze & di & hl & hh & H).
  assert (FAM : forall g, rendered_from h1 (turned g) one_hrir az ze di (fun _ => [1; 1]) (fun _ => [1; 1])).
  { intros g c Hc. destruct (H c Hc) as (A1 & A2 & A3 & A4 & A5 & _). cbv zeta. do 5 (split; [assumption|]). apply one_nearest. }
  assert (D0 : di 0%nat = 1).
  { destruct (H 0%nat) as (_ & Hd & _ & _ & E & _); [cbn; lia|]. cbv zeta in E. apply (f_equal snd) in E. cbn [snd] in E. rewrite <- E. unfold cart2sph. cbn.
    replace (_ + _) with (1 * 1) by ring. apply sqrt_square. lra. }
  assert (R0 : radiated s1 (h_a h1) di 0 = [1; 0; -1]).
  { unfold radiated. cbn [s1 rows nth map]. rewrite D0. change (h_a h1) with 1. rewrite Rpower_1 by lra. repeat (f_equal; try field). }
  assert (LO : forall c, (c < length (h_points h1))%nat -> true = true <-> heard (radiated s1 (h_a h1) di c)).
  { intros c Hc. cbn in Hc. assert (c = 0%nat) as -> by lia. split; [intros _|reflexivity]. rewrite R0. exists 1. split; [left; reflexivity|]. rewrite Rabs_R1. lra. }
  assert (B : forall g, exists q, binauralize h1 s1 48000 (turned g) one_hrir = Ok (Some q) /\ nth 0 (fst q) 0 = 1).
  { intro g. destruct (superposition_final h1 s1 48000 (turned g) one_hrir 2 az ze di _ _ (fun _ => true) one_set (FAM g) eq_refl eq_refl ltac:(repeat constructor) LO) as (l & r & E & _ & _ & V).
    exists (l, r). split; [exact E|]. destruct (V 0%nat) as [V1 _]; [cbn; lia|]. cbn [fst]. rewrite V1. change (length (h_points h1)) with 1%nat. cbn [rsum]. rewrite R0. unfold conv_sum. cbn. ring. }
  destruct (f_no_workers any_system "FLOAT" (Ok one_hrir) 4 1 [] (fun _ => None) "x" s1 h1 48000 None one_hrir (Some 0%Z) 0) as (d' & a & E & [OW _] & F);
    [right; auto|left; reflexivity|lia|reflexivity|cbn; lia|reflexivity|].
  exists any_system, "FLOAT"%string, (fun _ => None), "x"%string, s1, h1, 48000%Z, one_hrir, d', a,
    (fun g => match binauralize h1 s1 48000 (turned g) one_hrir with Ok (Some q) => q | _ => ([], []) end).
  split. { intros g _. destruct (B g) as (q & -> & _). reflexivity. }
  split. { destruct (B 0%nat) as (q & -> & V). exact V. }
  split; [exact E|]. split; [exact OW|]. destruct F as (_ & NC & NR & c & _ & V & _). split; [exact NR|]. split; [exact NC|].
  intros i j Hi Hj. pose proof (Nat.div_mod j 2 ltac:(lia)) as DM. pose proof (Nat.mod_upper_bound j 2 ltac:(lia)) as MB.
  destruct (V (j / 2)%nat i) as [V1 V2]; [lia|exact Hi|]. cbn [fst snd] in V1, V2. rewrite nth_repeat_in in V1, V2 by exact Hi.
  destruct (Nat.eq_dec (j mod 2) 0) as [Q|Q].
  - replace j with (2 * (j / 2))%nat by lia. rewrite V1. cbn. ring.
  - replace j with (2 * (j / 2) + 1)%nat by lia. rewrite V2. cbn. ring.
Qed.
