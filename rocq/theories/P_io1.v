(** Audio files: reading, writing, and reading what was written. *)
From Coq Require Import String.
From Verif Require Import Base BaseFacts M_utils M_sig M_process M_decoder M_decoder2 M_io S_io P_sig.
Open Scope R_scope.

Lemma length_columns m : length (columns m) = nc m.
Proof. unfold columns. rewrite map_length, seq_length. reflexivity. Qed.
Lemma nth_columns m k : (k < nc m)%nat -> nth k (columns m) [] = map (fun i => ent m i k) (seq 0 (nr m)).
Proof. intro H. unfold columns. rewrite (nth_map_in _ _ k [] 0%nat) by (rewrite seq_length; exact H). rewrite seq_nth by exact H. reflexivity. Qed.
Lemma columns_hold a : holds a (columns (au_data a)).
Proof.
  split; [apply length_columns|]. intros k Hk. rewrite nth_columns by exact Hk. split.
  - rewrite map_length, seq_length. reflexivity.
  - intros i Hi. rewrite (nth_map_in _ _ i 0 0%nat) by (rewrite seq_length; exact Hi). rewrite seq_nth by exact Hi. reflexivity.
Qed.
Lemma holds_unique a c1 c2 : holds a c1 -> holds a c2 -> c1 = c2.
Proof.
  intros [L1 H1] [L2 H2]. apply (nth_ext_list []); [congruence|]. intros k Hk. rewrite L1 in Hk.
  destruct (H1 k Hk) as [A1 B1]. destruct (H2 k Hk) as [A2 B2].
  apply (nth_ext_list 0); [congruence|]. intros i Hi. rewrite A1 in Hi. rewrite B1, B2 by exact Hi. reflexivity.
Qed.
Lemma columns_one m : nc m = 1%nat -> columns m = [nth 0 (columns m) []].
Proof. intro H. pose proof (length_columns m) as L. rewrite H in L. destruct (columns m) as [|x [|]]; try discriminate. reflexivity. Qed.

Lemma load_file_ok y d n a : d (expanduser y n) = Some a -> load_file y d n = Ok (columns (au_data a), au_fs a).
Proof.
  intro E. unfold load_file, sf_read. rewrite E. cbn [bind fst snd]. destruct (Nat.eqb_spec (nc (au_data a)) 1) as [H|H]; [|reflexivity].
  rewrite (columns_one _ H) at 2. reflexivity.
Qed.
Lemma load_file_none y d n : d (expanduser y n) = None -> load_file y d n = Err RuntimeError.
Proof. intro E. unfold load_file, sf_read. rewrite E. reflexivity. Qed.
Lemma load_files_ok y d ns files : Forall2 (fun n a => d (expanduser y n) = Some a) ns files ->
  mapM (load_file y d) ns = Ok (map (fun a => (columns (au_data a), au_fs a)) files).
Proof.
  induction 1 as [|n a ns files E F IH]; [reflexivity|]. cbn [mapM map]. rewrite (load_file_ok _ _ _ _ E). cbn [bind]. rewrite IH. reflexivity.
Qed.
Lemma load_files_inv y d ns l : mapM (load_file y d) ns = Ok l ->
  exists files, Forall2 (fun n a => d (expanduser y n) = Some a) ns files /\ l = map (fun a => (columns (au_data a), au_fs a)) files.
Proof.
  revert l. induction ns as [|n ns IH]; intros l E; cbn [mapM] in E.
  - injection E as <-. exists []. split; [constructor|reflexivity].
  - destruct (d (expanduser y n)) as [a|] eqn:D.
    + rewrite (load_file_ok _ _ _ _ D) in E. cbn [bind] in E. destruct (mapM (load_file y d) ns) as [l'|e]; [|discriminate]. cbn [bind] in E. injection E as <-.
      destruct (IH l' eq_refl) as (fl & F & ->). exists (a :: fl). split; [constructor; assumption|reflexivity].
    + rewrite (load_file_none _ _ _ D) in E. discriminate.
Qed.
Lemma mono_init_1d x fs : mono_init (arr1 x) fs = Ok (Mono x fs).
Proof.
  unfold mono_init, asarray_1d, squeeze, arr1. cbn [shape data]. destruct x as [|v [|w t]]; cbn; reflexivity.
Qed.
Lemma mono_init_2d x fs : mono_init (Nd [1%nat; length x] x) fs = Ok (Mono x fs).
Proof.
  unfold mono_init, asarray_1d, squeeze. cbn [shape data]. destruct x as [|v [|w t]]; cbn; reflexivity.
Qed.
Lemma multi_init_ok l fs : multi_init (map arr1 l) (Some fs) = Ok (Multi (map (fun x => Mono x fs) l) fs (length l)).
Proof.
  unfold multi_init. assert (E : mapM (fun s => mono_init s fs) (map arr1 l) = Ok (map (fun x => Mono x fs) l)).
  { induction l as [|x l IH]; [reflexivity|]. cbn [map mapM]. rewrite mono_init_1d. cbn [bind]. rewrite IH. reflexivity. }
  rewrite E. cbn [bind]. rewrite map_length. reflexivity.
Qed.
Lemma build_signal l fs :
  match l with
  | [x] => let* m := mono_init (Nd [1%nat; length x] x) fs in Ok (SMono m)
  | l => let* m := multi_init (map arr1 l) (Some fs) in Ok (SMulti m)
  end = Ok (signal_of fs l).
Proof.
  destruct l as [|x [|z t]].
  - rewrite multi_init_ok. reflexivity.
  - rewrite mono_init_2d. reflexivity.
  - rewrite multi_init_ok. reflexivity.
Qed.
Lemma all_same (l : list Z) : forallb (fun x => Z.eqb x (nth 0 l 0%Z)) l = true <-> (forall a b, In a l -> In b l -> a = b).
Proof.
  rewrite forallb_forall. split.
  - intros H a b Ha Hb. apply H in Ha. apply H in Hb. apply Z.eqb_eq in Ha. apply Z.eqb_eq in Hb. congruence.
  - intros H x Hx. apply Z.eqb_eq. destruct l as [|z t]; [destruct Hx|]. apply H; [exact Hx|left; reflexivity].
Qed.

(** ** loading *)
Lemma load_loaded y d f fs files : Forall2 (fun n a => d (expanduser y n) = Some a) (name_list f) files ->
  load_audio y d f fs =
  if forallb (fun x => Z.eqb x (nth 0 (map au_fs files) 0%Z)) (map au_fs files) then
    match files with
    | [] => Err IndexError
    | a :: _ => match fs with
                | Some v => if Z.eqb v (au_fs a) then Ok (signal_of v (concat (map (fun a => columns (au_data a)) files))) else Err ValueError
                | None => Ok (signal_of (au_fs a) (concat (map (fun a => columns (au_data a)) files)))
                end
    end
  else Err AssertionError.
Proof.
  intro F. unfold load_audio. rewrite (load_files_ok _ _ _ _ F). cbn [bind]. rewrite !map_map. cbn [fst snd].
  change (map (fun x => au_fs x) files) with (map au_fs files).
  destruct (forallb _ (map au_fs files)); [|reflexivity]. cbn [assert_ bind].
  destruct files as [|a t]; [reflexivity|]. cbn [map].
  assert (I : index (au_fs a :: map au_fs t) 0 = Ok (au_fs a)) by reflexivity. rewrite I. cbn [bind].
  destruct fs as [v|].
  - destruct (Z.eqb v (au_fs a)); [|reflexivity]. cbn [bind]. apply build_signal.
  - cbn [bind]. apply build_signal.
Qed.
Lemma load_audio_iff y d f fs s : load_audio y d f fs = Ok s <->
  exists files chans rate, Forall2 (fun n a => d (expanduser y n) = Some a) (name_list f) files /\ Forall2 holds files chans /\
    files <> [] /\ (forall a, In a files -> au_fs a = rate) /\ (fs = None \/ fs = Some rate) /\ s = signal_of rate (concat chans).
Proof.
  assert (HC : forall files, Forall2 holds files (map (fun a => columns (au_data a)) files)).
  { induction files as [|a t IH]; [constructor|]. constructor; [apply columns_hold|exact IH]. }
  split.
  - intro E. assert (X : exists l, mapM (load_file y d) (name_list f) = Ok l).
    { unfold load_audio in E. destruct (mapM (load_file y d) (name_list f)) as [l|e]; [eauto|discriminate]. }
    destruct X as (l & M). destruct (load_files_inv _ _ _ _ M) as (files & F & _).
    rewrite (load_loaded _ _ _ _ _ F) in E. destruct (forallb _ (map au_fs files)) eqn:S; [|discriminate].
    destruct files as [|a t]; [discriminate|]. exists (a :: t), (map (fun a => columns (au_data a)) (a :: t)), (au_fs a).
    split; [exact F|]. split; [apply HC|]. split; [discriminate|]. split.
    { intros b Hb. apply (proj1 (all_same _) S); [apply in_map; exact Hb|left; reflexivity]. }
    destruct fs as [v|].
    + destruct (Z.eqb_spec v (au_fs a)) as [->|]; [|discriminate]. injection E as <-. auto.
    + injection E as <-. auto.
  - intros (files & chans & rate & F & H & N & R & O & ->). rewrite (load_loaded _ _ _ _ _ F).
    rewrite (proj2 (all_same _)).
    2:{ intros u v Hu Hv. apply in_map_iff in Hu. apply in_map_iff in Hv. destruct Hu as (a & <- & Ia). destruct Hv as (b & <- & Ib). rewrite (R a Ia), (R b Ib). reflexivity. }
    assert (EC : map (fun a => columns (au_data a)) files = chans).
    { clear -H. induction H as [|a c files chans Ha F IH]; [reflexivity|]. cbn [map]. rewrite IH. f_equal. apply (holds_unique a); [apply columns_hold|exact Ha]. }
    rewrite EC. destruct files as [|a t]; [congruence|]. rewrite (R a (or_introl eq_refl)).
    destruct O as [-> | ->]; [reflexivity|]. rewrite Z.eqb_refl. reflexivity.
Qed.
Lemma load_rates y d f fs files a b : Forall2 (fun n a => d (expanduser y n) = Some a) (name_list f) files ->
  In a files -> In b files -> au_fs a <> au_fs b -> load_audio y d f fs = Err AssertionError.
Proof.
  intros F A B N. rewrite (load_loaded _ _ _ _ _ F). destruct (forallb _ (map au_fs files)) eqn:S; [|reflexivity].
  exfalso. apply N. apply (proj1 (all_same _) S); apply in_map; assumption.
Qed.
Lemma load_other_rate y d f v files : Forall2 (fun n a => d (expanduser y n) = Some a) (name_list f) files -> files <> [] ->
  (forall a b, In a files -> In b files -> au_fs a = au_fs b) -> (forall a, In a files -> au_fs a <> v) ->
  load_audio y d f (Some v) = Err ValueError.
Proof.
  intros F N S V. rewrite (load_loaded _ _ _ _ _ F). rewrite (proj2 (all_same _)).
  2:{ intros u w Hu Hv. apply in_map_iff in Hu. apply in_map_iff in Hv. destruct Hu as (a & <- & Ia). destruct Hv as (b & <- & Ib). apply S; assumption. }
  destruct files as [|a t]; [congruence|]. destruct (Z.eqb_spec v (au_fs a)) as [E|]; [|reflexivity].
  exfalso. apply (V a (or_introl eq_refl)). symmetry. exact E.
Qed.
Lemma load_missing y d f fs n : In n (name_list f) -> d (expanduser y n) = None -> load_audio y d f fs = Err RuntimeError.
Proof.
  intros I D. unfold load_audio. assert (E : mapM (load_file y d) (name_list f) = Err RuntimeError).
  { revert I. induction (name_list f) as [|m l IH]; intros I; [destruct I|]. cbn [mapM]. destruct (d (expanduser y m)) as [a|] eqn:Dm.
    - rewrite (load_file_ok _ _ _ _ Dm). cbn [bind]. destruct I as [->|I]; [congruence|]. rewrite (IH I). reflexivity.
    - rewrite (load_file_none _ _ _ Dm). reflexivity. }
  rewrite E. reflexivity.
Qed.
Lemma load_nothing y d fs : load_audio y d (Many []) fs = Err IndexError.
Proof. reflexivity. Qed.
