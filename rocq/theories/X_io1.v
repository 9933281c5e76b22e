(** Audio files: final forms and examples. *)
From Coq Require Import String.
From Verif Require Import Base BaseFacts M_utils M_sig M_process M_decoder M_decoder2 M_io S_io P_sig P_proc1 P_io1 P_io2.
Open Scope R_scope.

Lemma f_multi y st d m name fs k : (2 <= length (channels m))%nat -> (forall c, In c (channels m) -> length (m_sig c) = k) -> (0 < k)%nat ->
  accepts y (length (channels m)) (mu_fs m) = true ->
  exists d' many clip, save_audio y st d (VMulti m) name fs = Ok (d', (many, clip)) /\
    load_audio y d' (One name) None =
      Ok (SMulti (Multi (map (fun c => Mono (map (stored y st) (m_sig c)) (mu_fs m)) (channels m)) (mu_fs m) (length (channels m)))) /\
    (forall n, n <> expanduser y name -> d' n = d n) /\
    (many = true <-> (k < length (channels m))%nat) /\ (clip = true <-> clips (map m_sig (channels m))).
Proof.
  intros C L K A. assert (N : channels m <> []) by (intro Z0; rewrite Z0 in C; cbn in C; lia).
  destruct (save_2d y st d (VMulti m) name fs (mu_fs m) k (map m_sig (channels m))) as (a & c & E & F & H & W).
  - unfold save_data. rewrite (signals_T_ok m k L N). reflexivity.
  - intros x Hx. apply in_map_iff in Hx. destruct Hx as (u & <- & Hu). apply L. exact Hu.
  - exact K.
  - rewrite map_length. lia.
  - rewrite map_length. exact A.
  - rewrite map_length in E. exists (put d (expanduser y name) a), (Nat.ltb k (length (channels m))), c. split; [exact E|]. split.
    + rewrite (read_back y d name a _ None H (or_introl eq_refl)). f_equal. rewrite F. unfold signal_of.
      destruct (channels m) as [|u [|v t]]; [congruence|cbn in C; lia|]. cbn [map length]. rewrite !map_map, !map_length. reflexivity.
    + split; [intros n Hn; apply put_other; exact Hn|]. split; [apply Nat.ltb_lt|exact W].
Qed.
(** a B-format signal has four channels *)
Lemma f_ambi y st d b name fs k : length (channels (base b)) = 4%nat -> (forall c, In c (channels (base b)) -> length (m_sig c) = k) -> (0 < k)%nat ->
  accepts y 4 (mu_fs (base b)) = true ->
  exists d' w, save_audio y st d (VAmbi b) name fs = Ok (d', w) /\
    load_audio y d' (One name) None =
      Ok (SMulti (Multi (map (fun c => Mono (map (stored y st) (m_sig c)) (mu_fs (base b))) (channels (base b))) (mu_fs (base b)) 4)).
Proof.
  intros C L K A. rewrite <- C in A. destruct (f_multi y st d (base b) name fs k ltac:(lia) L K A) as (d' & many & clip & E & R & _).
  exists d', (many, clip). split; [exact E|]. rewrite R, C. reflexivity.
Qed.
Lemma f_mono y st d m name fs : m_sig m <> [] -> accepts y 1 (m_fs m) = true ->
  exists d' w, save_audio y st d (VMono m) name fs = Ok (d', w) /\
    load_audio y d' (One name) None = Ok (SMono (Mono (map (stored y st) (m_sig m)) (m_fs m))) /\
    (forall n, n <> expanduser y name -> d' n = d n).
Proof.
  intros N A. destruct (save_1d y st d (VMono m) name fs (m_fs m) (m_sig m) eq_refl N A) as (a & c & E & F & H & _).
  exists (put d (expanduser y name) a), (false, c). split; [exact E|]. split; [|intros n Hn; apply put_other; exact Hn].
  rewrite (read_back y d name a _ None H (or_introl eq_refl)), F. reflexivity.
Qed.
(** one channel in a MultiSignal comes back as a MonoSignal *)
Lemma f_single y st d m c name fs : channels m = [c] -> m_sig c <> [] -> accepts y 1 (mu_fs m) = true ->
  exists d' w, save_audio y st d (VMulti m) name fs = Ok (d', w) /\
    load_audio y d' (One name) None = Ok (SMono (Mono (map (stored y st) (m_sig c)) (mu_fs m))).
Proof.
  intros C N A. assert (N' : channels m <> []) by (rewrite C; discriminate).
  assert (L : forall c', In c' (channels m) -> length (m_sig c') = length (m_sig c)) by (rewrite C; intros c' [->|[]]; reflexivity).
  destruct (save_2d y st d (VMulti m) name fs (mu_fs m) (length (m_sig c)) (map m_sig (channels m))) as (a & k & E & F & H & _).
  - unfold save_data. rewrite (signals_T_ok m _ L N'). reflexivity.
  - intros x Hx. apply in_map_iff in Hx. destruct Hx as (u & <- & Hu). apply L. exact Hu.
  - destruct (m_sig c); [congruence|cbn; lia].
  - rewrite C. cbn. lia.
  - rewrite C. exact A.
  - eexists. eexists. split; [exact E|]. rewrite (read_back y d name a _ None H (or_introl eq_refl)), F, C. reflexivity.
Qed.
(** an array: (frames, channels) with the rate given *)
Lemma f_array y st d k l name rate : (2 <= length l)%nat -> (forall x, In x l -> length x = k) -> (0 < k)%nat -> accepts y (length l) rate = true ->
  forall fl, length fl = (k * length l)%nat ->
  (forall i j, (i < k)%nat -> (j < length l)%nat -> nth (i * length l + j) fl 0 = nth i (nth j l []) 0) ->
  exists d' w, save_audio y st d (VArr (Nd [k; length l] fl)) name (Some rate) = Ok (d', w) /\
    load_audio y d' (One name) None = Ok (SMulti (Multi (map (fun x => Mono (map (stored y st) x) rate) l) rate (length l))).
Proof.
  intros C L K A fl LF NF. assert (EF : fl = frames k l).
  { apply (nth_ext_list 0); [rewrite frames_length; exact LF|]. intros p Hp. rewrite LF in Hp.
    assert (D : (p = (p / length l) * length l + p mod length l)%nat) by (rewrite Nat.mul_comm; apply Nat.div_mod; lia).
    assert (D1 : (p / length l < k)%nat) by (apply Nat.div_lt_upper_bound; lia). assert (D2 : (p mod length l < length l)%nat) by (apply Nat.mod_upper_bound; lia).
    rewrite D. rewrite NF by assumption. rewrite nth_frames by assumption. reflexivity. }
  subst fl. destruct (save_2d y st d (VArr (Nd [k; length l] (frames k l))) name (Some rate) rate k l eq_refl L K ltac:(lia) A) as (a & c & E & F & H & _).
  eexists. eexists. split; [exact E|]. rewrite (read_back y d name a _ None H (or_introl eq_refl)), F.
  unfold signal_of. destruct l as [|u [|v t]]; cbn [length] in C; [lia|lia|]. cbn [map length]. rewrite map_map, map_length. reflexivity.
Qed.
Lemma f_array_no_rate y st d a name : save_audio y st d (VArr a) name None = Err ValueError.
Proof. reflexivity. Qed.
(** the fs argument makes no difference to a signal object *)
Lemma f_fs_ignored y st d s name fs : (forall a, s <> VArr a) -> save_audio y st d s name fs = save_audio y st d s name None.
Proof. intro N. destruct s as [m|m|b|a|]; try reflexivity. exfalso. apply (N a). reflexivity. Qed.
Lemma f_ragged y st d m c c' name fs : In c (channels m) -> In c' (channels m) -> length (m_sig c) <> length (m_sig c') ->
  save_audio y st d (VMulti m) name fs = Err ValueError.
Proof. intros I I' N. unfold save_audio, save_data. cbn [module_is_mono bind]. rewrite (signals_T_ragged m c c' I I' N). reflexivity. Qed.
Lemma f_silence y st d m name fs : (forall c, In c (channels m) -> m_sig c = []) -> save_audio y st d (VMulti m) name fs = Err ValueError.
Proof.
  intro L. unfold save_audio, save_data. cbn [module_is_mono bind]. destruct (channels m) as [|c cs] eqn:E.
  - unfold signals_T, get_signals. rewrite E. reflexivity.
  - assert (L' : forall c, In c (channels m) -> length (m_sig c) = 0%nat) by (rewrite E; intros u Hu; rewrite (L u Hu); reflexivity).
    rewrite (signals_T_ok m 0 L' ltac:(rewrite E; discriminate)). cbn [bind shape data frames seq flat_map]. reflexivity.
Qed.

(** ** examples *)
Definition any_system : system := System (fun n => n) (fun _ x => x) (fun _ _ => true).
Definition stereo : multi := Multi [Mono [1; 2] 44100; Mono [3; 4] 44100] 44100 2.
Lemma ex_roundtrip : (2 <= length (channels stereo))%nat /\ (forall c, In c (channels stereo) -> length (m_sig c) = 2%nat) /\
  accepts any_system (length (channels stereo)) (mu_fs stereo) = true.
Proof. split; [cbn; lia|]. split; [|reflexivity]. intros c [<-|[<-|[]]]; reflexivity. Qed.
Lemma ex_fs_contradiction : exists y st d m name fs d' w a, m_fs m <> fs /\ save_audio y st d (VMono m) name (Some fs) = Ok (d', w) /\
  d' name = Some a /\ au_fs a = m_fs m.
Proof.
  destruct (save_1d any_system "FLOAT" (fun _ => None) (VMono (Mono [1] 44100)) "x" (Some 48000%Z) 44100 [1] eq_refl ltac:(discriminate) eq_refl) as (a & c & E & F & _).
  exists any_system, "FLOAT"%string, (fun _ => None), (Mono [1] 44100), "x"%string, 48000%Z, (put (fun _ => None) "x" a), (false, c), a.
  split; [cbn; lia|]. split; [exact E|]. split; [apply put_same|exact F].
Qed.
Definition two_files : disk := fun n => if String.eqb n "a" then Some (Audio 44100 (col_mat [1; 2])) else if String.eqb n "b" then Some (Audio 44100 (Mat 1 2 (fun _ j => INR j))) else None.
Lemma ex_load : exists s, load_audio any_system two_files (Many ["a"; "b"]%string) None = Ok s /\ s = SMulti (Multi [Mono [1; 2] 44100; Mono [0] 44100; Mono [1] 44100] 44100 3).
Proof. eexists. split; [|reflexivity]. reflexivity. Qed.
