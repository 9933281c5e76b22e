(** Signals in memory: only writing changes samples; memories stay sound. *)
From Coq Require Import String.
From Verif Require Import Base BaseFacts M_utils M_sig M_process M_sph0 M_sph M_grids M_decoder M_decoder2 M_decoder3 M_parsa2 M_io M_sig2 S_sig2 P_sig2a P_sig2b.
Open Scope R_scope.

(** * Methods do not write *)
Definition grows {A} (p : prog A) : Prop := forall m, exists t, bufs (snd (p m)) = bufs m ++ t.
Lemma grows_same {A} (p : prog A) : (forall m, bufs (snd (p m)) = bufs m) -> grows p.
Proof. intros H m. exists []. rewrite H, app_nil_r. reflexivity. Qed.
Lemma grows_ret {A} (a : A) : grows (pret a). Proof. apply grows_same. reflexivity. Qed.
Lemma grows_raise {A} e : grows (@praise A e). Proof. apply grows_same. reflexivity. Qed.
Lemma grows_lift {A} (r : res A) : grows (plift r). Proof. apply grows_same. reflexivity. Qed.
Lemma grows_bind {A B} (p : prog A) (f : A -> prog B) : grows p -> (forall a, grows (f a)) -> grows (pbind p f).
Proof.
  intros P F m. unfold pbind. destruct (P m) as (t & E). destruct (p m) as [[a|e] m']; cbn [snd] in *; [|exists t; exact E]. destruct (F a m') as (t' & E'). exists (t ++ t'). rewrite E', E, app_assoc. reflexivity.
Qed.
Lemma grows_map {A B} (f : A -> prog B) l : (forall a, grows (f a)) -> grows (pmap f l).
Proof. intros F. induction l as [|x l IH]; cbn [pmap]; [apply grows_ret|]. apply grows_bind; [apply F|]. intros y. apply grows_bind; [exact IH|]. intros. apply grows_ret. Qed.
Lemma grows_get_arr a : grows (get_arr a). Proof. apply grows_same. intros m. unfold get_arr. destruct (nth_error _ _); reflexivity. Qed.
Lemma grows_get_obj a : grows (get_obj a). Proof. apply grows_same. intros m. unfold get_obj. destruct (nth_error _ _); reflexivity. Qed.
Lemma grows_set_obj o x : grows (set_obj o x). Proof. apply grows_same. reflexivity. Qed.
Lemma grows_new_obj x : grows (new_obj x). Proof. apply grows_same. reflexivity. Qed.
Lemma grows_new_view v : grows (new_view v). Proof. apply grows_same. reflexivity. Qed.
Lemma grows_new_buf l : grows (new_buf l). Proof. intros m. exists [l]. reflexivity. Qed.
Lemma grows_read a : grows (read a). Proof. apply grows_bind; [apply grows_get_arr|]. intros v. apply grows_same. reflexivity. Qed.
Ltac gr := repeat first [apply grows_ret | apply grows_raise | apply grows_lift | apply grows_get_arr | apply grows_get_obj | apply grows_set_obj | apply grows_new_obj | apply grows_new_view | apply grows_new_buf | apply grows_read
  | match goal with |- grows (pbind _ _) => apply grows_bind; [|intros ?] end | match goal with |- grows (pmap _ _) => apply grows_map; intros ? end | match goal with |- grows (match ?x with _ => _ end) => destruct x end | match goal with |- grows (if ?x then _ else _) => destruct x end].
Lemma grows_new_arr l : grows (new_arr l). Proof. unfold new_arr. gr. Qed.
Lemma grows_as_1d x : grows (as_1d x). Proof. unfold as_1d, new_arr. gr. Qed.
Lemma grows_set_signal o x : grows (set_signal o x). Proof. unfold set_signal, as_1d, new_arr. gr. Qed.
Lemma grows_mono_new f x : grows (mono_new f x). Proof. unfold mono_new, as_1d, new_arr. gr. Qed.
Lemma grows_multi_chs xs f : grows (multi_chs xs f). Proof. unfold multi_chs. destruct f; [|gr]. apply grows_bind; [apply grows_map; intros; apply grows_mono_new|intros; gr]. Qed.
Lemma grows_sig_of o : grows (sig_of o). Proof. unfold sig_of. gr. Qed.
Lemma grows_fs_of o : grows (fs_of o). Proof. unfold fs_of. gr. Qed.
Lemma grows_ambi_obj xs f : grows (ambi_obj xs f).
Proof. unfold ambi_obj. apply grows_bind; [apply grows_multi_chs|]. intros q. destruct (fst q) as [|c0 [|c1 [|c2 [|c3 [|]]]]]; try apply grows_raise. cbn zeta. unfold sig_of, as_1d. gr. Qed.
Lemma grows_sub a i j : grows (sub a i j). Proof. unfold sub. gr. Qed.
Lemma grows_cut f a b o : grows (cut f a b o). Proof. unfold cut. apply grows_bind; [apply grows_sig_of|intros]. apply grows_bind; [apply grows_sub|intros; apply grows_set_signal]. Qed.
Lemma grows_len_of o : grows (len_of o). Proof. unfold len_of, sig_of. gr. Qed.
Lemma grows_trim o a b t : grows (trim_obj o a b t).
Proof.
  unfold trim_obj. apply grows_bind; [apply grows_len_of|intros]. apply grows_bind; [apply grows_fs_of|intros]. apply grows_bind; [gr|intros]. cbn zeta. apply grows_bind; [gr|]. intros x.
  assert (G : forall cs s, grows (let! _ := pmap (fun c => let! f := fs_of c in cut f a s c) cs in pret tt)) by (intros; apply grows_bind; [apply grows_map; intros; apply grows_bind; [apply grows_fs_of|intros; apply grows_cut]|intros; gr]).
  destruct x; [apply grows_cut|apply G|apply G].
Qed.
Lemma grows_conv_one o h : grows (conv_one o h).
Proof. unfold conv_one. apply grows_bind; [apply grows_as_1d|intros]. apply grows_bind; [gr|intros]. apply grows_bind; [apply grows_sig_of|intros]. apply grows_bind; [gr|intros]. apply grows_bind; [apply grows_new_arr|intros; apply grows_set_signal]. Qed.
Lemma grows_conv_chs cs : forall hs, grows (conv_chs cs hs).
Proof. induction cs as [|c cs IH]; intros [|h hs]; cbn [conv_chs]; gr. - apply grows_conv_one. - apply IH. Qed.
Lemma grows_conv o hs : grows (conv_obj o hs).
Proof. unfold conv_obj. apply grows_bind; [gr|]. intros x. destruct x; [destruct hs as [|h [|]]; gr; apply grows_conv_one|apply grows_conv_chs|apply grows_conv_chs]. Qed.
Lemma grows_stacked o : grows (stacked o).
Proof. unfold stacked. apply grows_bind; [gr|]. intros x. apply grows_bind; [apply grows_map; intros; apply grows_bind; [apply grows_sig_of|intros; gr]|intros; gr]. Qed.
Lemma grows_rows n c l : grows (new_rows n c l). Proof. unfold new_rows. gr. Qed.
Lemma grows_cols n c l : grows (new_cols n c l). Proof. unfold new_cols. gr. Qed.
Lemma grows_unpack r : grows (unpack_rows r).
Proof.
  assert (G : grows (if negb (forallb (fun q => Nat.eqb (length q) (row_len r)) r) then praise ValueError else if Nat.eqb (row_len r) 1 then pret (map PLst r) else let! l := new_rows (length r) (row_len r) (concat r) in pret (map PRef l))).
  { destruct (negb _); [gr|]. destruct (Nat.eqb _ _); [gr|]. apply grows_bind; [apply grows_rows|intros; gr]. }
  destruct r as [|a [|b r]]; [exact G| |exact G]. cbn [unpack_rows]. gr.
Qed.
Lemma grows_resample rs o f : grows (resample_obj rs o f).
Proof.
  unfold resample_obj. apply grows_bind; [apply grows_fs_of|intros fs]. destruct (Z.eqb f fs); [gr|]. apply grows_bind; [gr|]. intros x.
  assert (G : grows (let! l := stacked o in match l with [] => praise ValueError | _ => let! rr := plift (mapM (rs fs f) l) in let! args := unpack_rows rr in
       match x with OAmbi _ _ _ _ _ _ _ => let! y := ambi_obj args (Some f) in set_obj o y | _ => let! q := multi_chs args (Some f) in set_obj o (OMulti (fst q) (snd q) (length (fst q))) end end)).
  { apply grows_bind; [apply grows_stacked|]. intros [|r t]; [gr|]. apply grows_bind; [gr|intros]. apply grows_bind; [apply grows_unpack|intros]. destruct x; (apply grows_bind; [first [apply grows_multi_chs|apply grows_ambi_obj]|intros; gr]). }
  destruct x; [|exact G|exact G]. apply grows_bind; [gr|intros]. apply grows_bind; [gr|intros]. apply grows_bind; [apply grows_new_arr|intros; gr].
Qed.
Lemma grows_copy_arr a k : grows (copy_arr a k). Proof. unfold copy_arr, new_arr. gr. Qed.
Lemma grows_copy_chs cs : forall ko ka, grows (copy_chs cs ko ka).
Proof.
  induction cs as [|c cs IH]; intros ko ka; cbn [copy_chs]; [gr|]. destruct (seen ko c); [apply grows_bind; [apply IH|intros; gr]|]. apply grows_bind; [apply grows_sig_of|intros]. apply grows_bind; [apply grows_fs_of|intros].
  apply grows_bind; [apply grows_copy_arr|intros]. apply grows_bind; [gr|intros]. apply grows_bind; [apply IH|intros; gr].
Qed.
Lemma grows_copy o : grows (copy_obj o).
Proof. unfold copy_obj. apply grows_bind; [gr|]. intros x. destruct x; repeat (apply grows_bind; [first [apply grows_copy_arr|apply grows_copy_chs]|intros]); gr. Qed.
Lemma grows_trim_audio o a b : grows (trim_audio_obj o a b).
Proof.
  unfold trim_audio_obj. apply grows_bind; [apply grows_copy|intros d]. apply grows_bind; [apply grows_len_of|intros]. apply grows_bind; [apply grows_fs_of|intros f]. apply grows_bind; [gr|intros]. apply grows_bind; [gr|intros x].
  destruct x; [gr| |]; (apply grows_bind; [apply grows_map; intros; apply grows_cut|intros; gr]).
Qed.
Lemma grows_ambi_new xs f : grows (ambi_new xs f). Proof. apply grows_bind; [apply grows_ambi_obj|intros; gr]. Qed.
Lemma grows_multi_new xs f : grows (multi_new xs f). Proof. apply grows_bind; [apply grows_multi_chs|intros; gr]. Qed.
Lemma grows_sh_to_b o : grows (sh_to_b_obj o).
Proof.
  unfold sh_to_b_obj. apply grows_bind; [gr|intros x]. assert (G : grows (let! c := copy_obj o in let! l := stacked c in let! B := plift (sh_to_b (rows_mat l) None) in let! rows := new_rows (nr B) (nc B) (flat_mat B) in let! fs := fs_of o in ambi_new (map PRef rows) (Some fs))).
  { apply grows_bind; [apply grows_copy|intros]. apply grows_bind; [apply grows_stacked|intros]. apply grows_bind; [gr|intros]. apply grows_bind; [apply grows_rows|intros]. apply grows_bind; [apply grows_fs_of|intros]. apply grows_ambi_new. }
  destruct x; [gr|exact G|exact G].
Qed.
Lemma grows_from_file y d k n f : grows (from_file y d k n f).
Proof.
  unfold from_file. apply grows_bind; [gr|intros q]. apply grows_bind; [gr|intros]. destruct k, (fst q); try apply grows_raise.
  - apply grows_bind; [apply grows_new_arr|intros; apply grows_mono_new].
  - apply grows_bind; [apply grows_cols|intros; apply grows_multi_new].
  - apply grows_bind; [apply grows_cols|intros; apply grows_ambi_new].
Qed.
Definition writes (c : call) : bool := match c with KWrite _ _ _ => true | _ => false end.
Lemma grows_perform rs y d c : writes c = false -> grows (perform rs y d c).
Proof.
  intros H. destruct c; cbn in H; try discriminate H; cbn [perform]; unfold quiet; repeat (apply grows_bind; [|intros; apply grows_ret]).
  - apply grows_new_arr.
  - apply grows_sub.
  - apply grows_bind; [apply grows_sig_of|intros; apply grows_sub].
  - apply grows_mono_new.
  - apply grows_multi_new.
  - apply grows_ambi_new.
  - apply grows_set_signal.
  - apply grows_trim.
  - apply grows_conv.
  - apply grows_resample.
  - apply grows_copy.
  - apply grows_trim_audio.
  - unfold get_signals_obj. apply grows_bind; [apply grows_stacked|intros; apply grows_rows].
  - apply grows_sh_to_b.
  - apply grows_from_file.
Qed.
