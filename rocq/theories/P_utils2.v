(** Proofs about the array bookkeeping functions of utils.py. *)
From Verif Require Import Base BaseFacts M_utils S_utils.

(** ** asarray_1d *)
Lemma nprod_filter s : nprod (filter (fun d => negb (Nat.eqb d 1)) s) = nprod s.
Proof.
  induction s as [|d s IH]; [reflexivity|]. cbn [filter].
  destruct (Nat.eqb_spec d 1) as [->|H]; cbn [negb].
  - rewrite IH. unfold nprod. cbn [fold_right]. lia.
  - cbn. unfold nprod in IH. rewrite IH. reflexivity.
Qed.

Lemma asarray_1d_cases {A} (a : nd A) :
  nd_wf a ->
  let k := length (filter (fun d => negb (Nat.eqb d 1)) (shape a)) in
  ((k <= 1)%nat /\ asarray_1d a = Ok (Nd [length (data a)] (data a))) \/
  ((1 < k)%nat /\ asarray_1d a = Err ValueError).
Proof.
  intros W k. unfold nd_wf in W. unfold asarray_1d, squeeze. cbn [shape data].
  rewrite <- (nprod_filter (shape a)) in W. subst k.
  destruct (filter (fun d => negb (Nat.eqb d 1)) (shape a)) as [|d [|d' s]]; cbn in *.
  - left. split; [lia|]. rewrite W. reflexivity.
  - left. split; [lia|]. rewrite W. repeat f_equal. lia.
  - right. split; [lia|reflexivity].
Qed.

Lemma asarray_1d_idem {A} (a b : nd A) :
  nd_wf a -> asarray_1d a = Ok b -> asarray_1d b = Ok b.
Proof.
  intros W H. destruct (asarray_1d_cases a W) as [[_ E]|[_ E]]; rewrite E in H; [|discriminate].
  injection H as <-. unfold asarray_1d, squeeze. cbn [shape data filter].
  destruct (Nat.eqb_spec (length (data a)) 1) as [->|N]; cbn; [reflexivity|].
  reflexivity.
Qed.

(** ** flat indices *)
Lemma nth_error_app_l {A} (l m : list A) i : (i < length l)%nat ->
  nth_error (l ++ m) i = nth_error l i.
Proof. apply nth_error_app1. Qed.

Lemma nth_error_concat {A} n (ls : list (list A)) i j :
  Forall (fun r => length r = n) ls -> (j < n)%nat ->
  nth_error (concat ls) (i * n + j) =
  match nth_error ls i with Some r => nth_error r j | None => None end.
Proof.
  intros F Hj. revert i. induction F as [|r ls Hr F IH]; intros i.
  - cbn [concat]. destruct i; destruct (_ * n + j)%nat; reflexivity.
  - cbn [concat]. destruct i as [|i].
    + cbn [Nat.mul Nat.add nth_error]. apply nth_error_app1. lia.
    + rewrite nth_error_app2 by lia. cbn [nth_error]. rewrite <- IH. f_equal. lia.
Qed.

Lemma nth_error_firstn {A} (l : list A) n i : (i < n)%nat -> nth_error (firstn n l) i = nth_error l i.
Proof.
  revert n i; induction l as [|x l IH]; intros [|n] [|i] H; cbn; try lia; auto.
  apply IH. lia.
Qed.
Lemma nth_error_skipn {A} (l : list A) n i : nth_error (skipn n l) i = nth_error l (n + i).
Proof.
  revert n; induction l as [|x l IH]; intros [|n]; cbn [skipn plus nth_error]; auto.
  destruct i; reflexivity.
Qed.

Lemma rows_of_length {A} m n (d : list A) : length (rows_of m n d) = m.
Proof. revert d; induction m; intros; cbn; auto. Qed.

Lemma rows_of_wf {A} m n (d : list A) :
  length d = (m * n)%nat -> Forall (fun r => length r = n) (rows_of m n d).
Proof.
  revert d; induction m as [|m IH]; intros d H; cbn [rows_of]; constructor.
  - rewrite firstn_length. cbn in H. lia.
  - apply IH. rewrite skipn_length. cbn in H. lia.
Qed.

Lemma rows_of_nth {A} m n (d : list A) i j : (i < m)%nat -> (j < n)%nat ->
  exists r, nth_error (rows_of m n d) i = Some r /\ nth_error r j = nth_error d (i * n + j).
Proof.
  revert d i; induction m as [|m IH]; intros d i Hi Hj; [lia|].
  destruct i as [|i]; cbn [rows_of nth_error].
  - eexists. split; [reflexivity|]. rewrite nth_error_firstn by auto. reflexivity.
  - destruct (IH (skipn n d) i) as (r & E1 & E2); [lia|auto|].
    exists r. split; auto. rewrite E2, nth_error_skipn. f_equal. lia.
Qed.

Lemma zip_app_nth {A} (l1 l2 : list (list A)) i a b :
  nth_error l1 i = Some a -> nth_error l2 i = Some b ->
  nth_error (zip_app l1 l2) i = Some (a ++ b).
Proof.
  revert l2 i; induction l1 as [|x l1 IH]; intros [|y l2] [|i]; cbn; try discriminate; auto.
  congruence.
Qed.

Lemma zip_app_wf {A} (l1 l2 : list (list A)) n m :
  Forall (fun r => length r = n) l1 -> Forall (fun r => length r = m) l2 ->
  Forall (fun r => length r = (n + m)%nat) (zip_app l1 l2).
Proof.
  intros F1. revert l2. induction F1 as [|r l1 H F1 IH]; intros l2 F2; [constructor|].
  destruct F2 as [|s l2 H2 F2]; cbn; constructor; auto. rewrite app_length. lia.
Qed.

(** ** stack *)
Lemma atleast_2d_2 {A} (a : nd A) m n : shape a = [m; n] -> atleast_2d a = a.
Proof. intros H. unfold atleast_2d. rewrite H. reflexivity. Qed.

Lemma squeeze_id {A} (a : nd A) m n : shape a = [m; n] -> m <> 1%nat -> n <> 1%nat -> squeeze a = a.
Proof.
  intros H Hm Hn. destruct a as [s d]. cbn in H. subst s. unfold squeeze. cbn.
  apply Nat.eqb_neq in Hm, Hn. rewrite Hm, Hn. reflexivity.
Qed.

Lemma stack_wide {A} (a b : nd A) m n :
  nd_wf a -> nd_wf b -> shape a = [m; n] -> shape b = [m; n] -> (0 < m < n)%nat ->
  exists c, stack a b = Ok c /\ shape c = [2 * m; n]%nat /\
    forall i j, (i < m)%nat -> (j < n)%nat ->
      at2 n (data c) i j = at2 n (data a) i j /\
      at2 n (data c) (m + i) j = at2 n (data b) i j.
Proof.
  intros Wa Wb Sa Sb H. unfold stack.
  rewrite (atleast_2d_2 a m n), (atleast_2d_2 b m n), Sa, Sb by auto.
  rewrite Nat.eqb_refl. replace (Nat.ltb m n) with true by (symmetry; apply Nat.ltb_lt; lia).
  cbn [andb orb]. unfold vstack. rewrite Nat.eqb_refl. cbn [bind].
  rewrite (squeeze_id _ (m + m) n) by (auto; lia).
  eexists. split; [reflexivity|]. cbn [shape data]. split; [f_equal; lia|].
  unfold nd_wf in *. rewrite Sa in Wa. rewrite Sb in Wb. cbn in Wa, Wb.
  intros i j Hi Hj. unfold at2. split.
  - apply nth_error_app1. rewrite Wa. nia.
  - rewrite nth_error_app2 by (rewrite Wa; nia). f_equal. rewrite Wa. nia.
Qed.

Lemma stack_tall {A} (a b : nd A) m n :
  nd_wf a -> nd_wf b -> shape a = [m; n] -> shape b = [m; n] -> (0 < n < m)%nat ->
  exists c, stack a b = Ok c /\ shape c = [m; 2 * n]%nat /\
    forall i j, (i < m)%nat -> (j < n)%nat ->
      at2 (2 * n) (data c) i j = at2 n (data a) i j /\
      at2 (2 * n) (data c) i (n + j) = at2 n (data b) i j.
Proof.
  intros Wa Wb Sa Sb H. unfold stack.
  rewrite (atleast_2d_2 a m n), (atleast_2d_2 b m n), Sa, Sb by auto.
  rewrite !Nat.eqb_refl. replace (Nat.ltb m n) with false by (symmetry; apply Nat.ltb_ge; lia).
  replace (Nat.ltb n m) with true by (symmetry; apply Nat.ltb_lt; lia).
  cbn [andb orb]. unfold hstack. rewrite Nat.eqb_refl. cbn [bind].
  rewrite (squeeze_id _ m (n + n)) by (auto; lia).
  eexists. split; [reflexivity|]. cbn [shape data]. split; [do 2 f_equal; lia|].
  unfold nd_wf in *. rewrite Sa in Wa. rewrite Sb in Wb. cbn in Wa, Wb.
  assert (Fa : Forall (fun r => length r = n) (rows_of m n (data a))) by (apply rows_of_wf; lia).
  assert (Fb : Forall (fun r => length r = n) (rows_of m n (data b))) by (apply rows_of_wf; lia).
  intros i j Hi Hj. unfold at2. replace (2 * n)%nat with (n + n)%nat by lia.
  destruct (rows_of_nth m n (data a) i j Hi Hj) as (ra & Ra1 & Ra2).
  destruct (rows_of_nth m n (data b) i j Hi Hj) as (rb & Rb1 & Rb2).
  pose proof (zip_app_nth _ _ _ _ _ Ra1 Rb1) as Z.
  assert (length ra = n).
  { rewrite Forall_forall in Fa. apply Fa. eapply nth_error_In; eauto. }
  rewrite !(nth_error_concat (n + n)) by (try apply zip_app_wf; auto; lia).
  rewrite Z. split.
  - rewrite nth_error_app1 by lia. auto.
  - rewrite nth_error_app2 by lia. rewrite <- Rb2. f_equal. lia.
Qed.

Lemma stack_err {A} (a b : nd A) m1 n1 m2 n2 :
  shape a = [m1; n1] -> shape b = [m2; n2] ->
  (m1, n1) <> (m2, n2) \/ m1 = n1 ->
  stack a b = Err ValueError.
Proof.
  intros Sa Sb H. unfold stack.
  rewrite (atleast_2d_2 a m1 n1), (atleast_2d_2 b m2 n2), Sa, Sb by auto.
  destruct (Nat.eqb_spec m1 m2) as [->|Em]; cbn [andb].
  - destruct (Nat.eqb_spec n1 n2) as [->|En]; cbn [andb].
    + assert (m2 = n2) as -> by (destruct H as [H|H]; congruence).
      rewrite Nat.ltb_irrefl. reflexivity.
    + destruct (_ || _)%bool; [|reflexivity]. unfold vstack.
      apply Nat.eqb_neq in En. rewrite En. reflexivity.
  - destruct (Nat.eqb n1 n2 && _)%bool; [|reflexivity]. unfold hstack.
    apply Nat.eqb_neq in Em. rewrite Em. reflexivity.
Qed.

Lemma stack_1d {A} (a b : nd A) n :
  nd_wf a -> nd_wf b -> shape a = [n] -> shape b = [n] -> (2 <= n)%nat ->
  stack a b = Ok (Nd [2; n]%nat (data a ++ data b)).
Proof.
  intros Wa Wb Sa Sb H. unfold stack, atleast_2d. rewrite Sa, Sb. cbn [shape data].
  rewrite Nat.eqb_refl. replace (Nat.ltb 1 n) with true by (symmetry; apply Nat.ltb_lt; lia).
  cbn [andb orb]. unfold vstack. rewrite Nat.eqb_refl. cbn [bind].
  rewrite (squeeze_id _ 2 n) by (auto; lia). reflexivity.
Qed.

(** ** interleave_channels *)
Lemma set_odd_nth {A} (l r : list A) : length l = length r ->
  length (set_odd (repeat2 l) r) = (2 * length l)%nat /\
  forall i, nth_error (set_odd (repeat2 l) r) (2 * i) = nth_error l i /\
            nth_error (set_odd (repeat2 l) r) (2 * i + 1) = nth_error r i.
Proof.
  revert r; induction l as [|x l IH]; intros [|y r] H; try discriminate.
  - cbn. split; [reflexivity|]. intros i.
    split; [destruct (i + (i + 0))%nat, i; reflexivity | destruct (i + (i + 0) + 1)%nat, i; reflexivity].
  - destruct (IH r) as [L N]; [cbn in H; lia|]. cbn [repeat2 set_odd length]. split; [lia|].
    intros [|i].
    + cbn. auto.
    + destruct (N i) as [N1 N2]. replace (2 * S i)%nat with (S (S (2 * i))) by lia.
      replace (S (S (2 * i)) + 1)%nat with (S (S (2 * i + 1))) by lia. cbn [nth_error]. auto.
Qed.

Lemma interleave_ok {A} (l r : arr2 A) st :
  length (rows l) = length (rows r) -> cols l = cols r ->
  (st = StyleSSR -> length (rows l) = 360%nat) ->
  exists o, interleave_channels l r st = Ok o /\ cols o = cols l /\
    length (rows o) = (2 * length (rows l))%nat /\
    forall i, nth_error (rows o) (2 * i) = nth_error (rows l) i /\
              nth_error (rows o) (2 * i + 1) = nth_error (rows r) i.
Proof.
  intros H1 H2 H3. unfold interleave_channels.
  rewrite H1, H2, !Nat.eqb_refl. cbn [andb negb].
  replace (match st with StyleSSR => negb (Nat.eqb (length (rows r)) 360) | _ => false end)
    with false.
  2:{ destruct st; auto. rewrite <- H1, H3 by auto. reflexivity. }
  destruct (set_odd_nth (rows l) (rows r) H1) as [L N].
  eexists. split; [reflexivity|]. cbn [rows cols]. split; [auto|]. split; [lia|]. exact N.
Qed.

Lemma interleave_err {A} (l r : arr2 A) st :
  (length (rows l) <> length (rows r) \/ cols l <> cols r \/
   (st = StyleSSR /\ length (rows l) <> 360%nat)) ->
  interleave_channels l r st = Err ValueError.
Proof.
  intros H. unfold interleave_channels.
  destruct (Nat.eqb_spec (length (rows l)) (length (rows r))) as [E1|E1]; [|reflexivity].
  destruct (Nat.eqb_spec (cols l) (cols r)) as [E2|E2]; [|reflexivity].
  cbn [andb negb]. destruct H as [H|[H|[-> H]]]; try contradiction.
  apply Nat.eqb_neq in H. rewrite H. reflexivity.
Qed.
