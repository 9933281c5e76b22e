(** vbap: exact rows, independence of the schedule, the cache. *)
From Verif Require Import Base BaseFacts M_utils M_sig M_process M_decoder S_decoder P_sig P_dec1.
Open Scope R_scope.

(** * The face search *)
Lemma find_face_spec o bases : forall i0 src,
  (exists k g, (k < length bases)%nat /\ find_face o bases i0 src = Some ((i0 + k)%nat, g) /\
     face_gains o (nth k bases eye3) src = Some g /\
     forall j, (j < k)%nat -> face_gains o (nth j bases eye3) src = None) \/
  (find_face o bases i0 src = None /\ forall j, (j < length bases)%nat -> face_gains o (nth j bases eye3) src = None).
Proof.
  induction bases as [|b t IH]; intros i0 src; cbn [find_face length].
  - right. split; auto. intros; lia.
  - destruct (face_gains o b src) as [g|] eqn:E.
    + left. exists O, g. rewrite Nat.add_0_r. repeat split; auto; try lia.
    + destruct (IH (S i0) src) as [[k [g [Hk [F [G A]]]]]|[F A]].
      * left. exists (S k), g. split; [lia|]. split; [rewrite F; do 2 f_equal; lia|]. split; [exact G|].
        intros [|j] Hj; cbn; [exact E|]. apply A. lia.
      * right. split; [exact F|]. intros [|j] Hj; cbn; [exact E|]. apply A. lia.
Qed.
Lemma find_face_scale o bases : forall i src k, norm_order o -> 0 < k ->
  find_face o bases i (scal3 k src) = find_face o bases i src.
Proof.
  induction bases as [|b t IH]; intros i src k NO K; cbn; [reflexivity|].
  rewrite face_gains_scale by assumption. destruct (face_gains o b src); [reflexivity|]. apply IH; assumption.
Qed.

(** * Bases *)
Definition base_of (lstsq3 : M3 -> M3) (ps : list V3) (f : face) : M3 := tr3 (lstsq3 (fpts ps f)).
Lemma invert_ok lstsq3 vs ps : Forall (in_range (length ps)) vs ->
  invert_triplets lstsq3 vs ps = Ok (map (base_of lstsq3 ps) vs).
Proof.
  intro H. unfold invert_triplets. apply mapM_ok. intros f I.
  rewrite Forall_forall in H. specialize (H f I). destruct f as [[a b] c]. destruct H as [A [B C]].
  apply Nat.ltb_lt in A, B, C. rewrite A, B, C. reflexivity.
Qed.
Lemma invert_inv lstsq3 vs ps b : invert_triplets lstsq3 vs ps = Ok b ->
  Forall (in_range (length ps)) vs /\ b = map (base_of lstsq3 ps) vs.
Proof.
  unfold invert_triplets. revert b. induction vs as [|f t IH]; intros b; cbn [mapM].
  - intro E. injection E as <-. auto.
  - destruct f as [[x y] z]. destruct (Nat.ltb x (length ps) && Nat.ltb y (length ps) && Nat.ltb z (length ps))%bool eqn:T; cbn [bind]; [|discriminate].
    destruct (mapM _ t) as [bs|] eqn:M; cbn [bind]; [|discriminate].
    intro E. injection E as <-. destruct (IH _ eq_refl) as [F ->]. split; [|reflexivity].
    constructor; [|exact F]. cbn. apply andb_prop in T. destruct T as [T T3]. apply andb_prop in T. destruct T as [T1 T2].
    apply Nat.ltb_lt in T1, T2, T3. auto.
Qed.

(** * Rows *)
Lemma length_write_row ws : forall row, length (write_row row ws) = length row.
Proof. induction ws; intro row; cbn; [reflexivity|]. unfold write_row in IHws. rewrite IHws. apply length_upd. Qed.
Lemma independent_distinct ps a b c : independent ps (a, b, c) -> a <> b /\ b <> c /\ a <> c.
Proof.
  unfold independent. intro H.
  repeat split; intros ->; apply H; crush3; ring.
Qed.
Lemma nth_repeat0 L j : nth j (repeat 0 L) 0 = 0.
Proof. revert j. induction L; destruct j; cbn; auto. Qed.
Lemma row3_entry L a b c g j : (a < L)%nat -> (b < L)%nat -> (c < L)%nat -> a <> b -> b <> c -> a <> c ->
  nth j (write_row (repeat 0 L) [(a, vx g); (b, vy g); (c, vz g)]) 0 = on_face (a, b, c) g j.
Proof.
  intros A B C n1 n2 n3. cbn. unfold write1. cbn [fst snd].
  rewrite !nth_upd, !length_upd, repeat_length, nth_repeat0. unfold delta.
  apply Nat.ltb_lt in A, B, C. rewrite A, B, C. rewrite !andb_true_r.
  destruct (Nat.eqb_spec c j); destruct (Nat.eqb_spec b j); destruct (Nat.eqb_spec a j);
    destruct (Nat.eqb_spec j a); destruct (Nat.eqb_spec j b); destruct (Nat.eqb_spec j c); subst; try congruence; try ring.
Qed.
Lemma dist_gain_pow d a : np_pow d a = dist_gain d a.
Proof.
  unfold np_pow, dist_gain, Reqb. destruct (Req_EM_T d 0); [|reflexivity]. destruct (Req_EM_T a 0); reflexivity.
Qed.
Lemma nth_scale_row d a row j : length d = length row -> nth j (scale_row d a row) 0 = dist_gain (nth j d 0) a * nth j row 0.
Proof.
  intro E. unfold scale_row, zip_mul.
  destruct (lt_dec j (length row)) as [H|H].
  - rewrite (nth_map_in _ _ _ _ (0, 0)) by (rewrite combine_length, map_length; lia).
    rewrite combine_nth by (rewrite map_length; exact E). cbn [fst snd].
    rewrite (nth_map_in _ _ _ _ 0) by lia. rewrite dist_gain_pow. reflexivity.
  - rewrite (nth_overflow (map _ _)) by (rewrite map_length, combine_length, map_length; lia).
    rewrite (nth_overflow row) by lia. ring.
Qed.
Lemma length_scale_row d a row : length d = length row -> length (scale_row d a row) = length row.
Proof. intro E. unfold scale_row, zip_mul. rewrite map_length, combine_length, map_length. lia. Qed.

Section Vbap.
Variables (lstsq3 : M3 -> M3) (o : nord).
Hypotheses (LC : lstsq3_contract lstsq3) (NO : norm_order o).

Lemma row_writes_ok h vs src : hull_wf h -> Forall (in_range (length (h_points h))) vs -> Forall (independent (h_points h)) vs ->
  exists ws, row_writes (length (h_points h)) vs (find_face o (map (base_of lstsq3 (h_points h)) vs) 0 src) = Ok ws /\
    panning_row o h vs src (scale_row (h_d h) (h_a h) (write_row (repeat 0 (length (h_points h))) ws)).
Proof.
  intros WF IR IN. set (L := length (h_points h)). set (bs := map _ vs).
  assert (Lb : length bs = length vs) by apply map_length.
  assert (FG : forall k src' g, (k < length vs)%nat ->
     (face_gains o (nth k bs eye3) src' = Some g <-> pans o (h_points h) (nth k vs (0,0,0)%nat) src' g)).
  { intros k src' g Hk. unfold bs. rewrite (nth_map_in _ _ _ _ (0,0,0)%nat) by exact Hk.
    apply face_gains_pans; auto. rewrite Forall_forall in IN. apply IN, nth_In, Hk. }
  destruct (find_face_spec o bs 0 src) as [[k [g [Hk [F [G A]]]]]|[F A]]; rewrite F; cbn [row_writes Nat.add].
  - rewrite Lb in Hk. rewrite (nth_error_nth' vs (0,0,0)%nat Hk).
    pose proof (proj1 (Forall_forall _ _) IR _ (nth_In vs (0,0,0)%nat Hk)) as R.
    pose proof (proj1 (Forall_forall _ _) IN _ (nth_In vs (0,0,0)%nat Hk)) as I.
    pose proof (proj1 (FG k src g Hk) G) as P.
    remember (nth k vs (0,0,0)%nat) as f eqn:Ef. destruct f as [[a b] c]. destruct R as [Ra [Rb Rc]].
    fold L in Ra, Rb, Rc. pose proof Ra as Ra'. pose proof Rb as Rb'. pose proof Rc as Rc'.
    apply Nat.ltb_lt in Ra', Rb', Rc'. rewrite Ra', Rb', Rc'. cbn [andb]. eexists. split; [reflexivity|].
    destruct (independent_distinct _ _ _ _ I) as [n1 [n2 n3]].
    assert (Lr : length (h_d h) = length (write_row (repeat 0 L) [(a, vx g); (b, vy g); (c, vz g)]))
      by (rewrite length_write_row, repeat_length; exact WF).
    split; [rewrite length_scale_row by exact Lr; rewrite length_write_row, repeat_length; reflexivity|].
    left. exists k, g. rewrite <- Ef. split; [exact Hk|]. split; [exact P|]. split.
    + intros j g' Hj Pj. assert (Hj' : (j < length vs)%nat) by lia. apply (FG j src g' Hj') in Pj. rewrite (A j Hj) in Pj. discriminate.
    + intros j Hj. rewrite nth_scale_row by exact Lr. rewrite row3_entry by auto. reflexivity.
  - exists []. split; [reflexivity|]. cbn [write_row fold_left].
    assert (Lr : length (h_d h) = length (repeat 0 L)) by (rewrite repeat_length; exact WF).
    split; [rewrite length_scale_row by exact Lr; apply repeat_length|]. right. split.
    + intros f g If P. destruct (In_nth _ _ (0,0,0)%nat If) as [j [Hj E]]. rewrite <- E in P.
      apply (FG j src g Hj) in P. rewrite A in P by (rewrite Lb; exact Hj). discriminate.
    + intros j Hj. rewrite nth_scale_row by exact Lr. rewrite nth_repeat0. ring.
Qed.

(** everything vbap computes on a hull without a cache, sequentially *)
Lemma vbap_seq_rows h vs src : hull_wf h -> Forall (in_range (length (h_points h))) vs -> Forall (independent (h_points h)) vs ->
  exists rows, (let* gains := vbap_seq o (map (base_of lstsq3 (h_points h)) vs) vs (length (h_points h)) src in
                Ok (map (scale_row (h_d h) (h_a h)) gains)) = Ok rows /\
    Forall2 (panning_row o h vs) src rows.
Proof.
  intros WF IR IN. unfold vbap_seq, vbap_rows. induction src as [|s t IH]; cbn.
  - exists []. split; [reflexivity|constructor].
  - destruct (row_writes_ok h vs s WF IR IN) as [ws [E P]]. rewrite E. cbn.
    destruct IH as [rows [IHe IHp]].
    destruct (mapM _ t) as [wst|]; cbn in IHe |- *; [|discriminate]. injection IHe as <-.
    eexists. split; [reflexivity|]. constructor; assumption.
Qed.
End Vbap.

(** * Any interleaving of the element writes *)
Definition zipw (mem : list (list R)) (tasks : list (list (nat * R))) : list (list R) :=
  map (fun p => write_row (fst p) (snd p)) (combine mem tasks).
Lemma nth_zipw mem tasks i : length mem = length tasks -> (i < length tasks)%nat ->
  nth i (zipw mem tasks) [] = write_row (nth i mem []) (nth i tasks []).
Proof.
  intros E H. unfold zipw. rewrite (nth_map_in _ _ _ _ ([], [])) by (rewrite combine_length; lia).
  rewrite combine_nth by exact E. reflexivity.
Qed.
Lemma length_zipw mem tasks : length mem = length tasks -> length (zipw mem tasks) = length tasks.
Proof. intro E. unfold zipw. rewrite map_length, combine_length. lia. Qed.
Lemma pool_inv sched : forall tasks mem, length mem = length tasks ->
  length (fst (pool_exec sched tasks mem)) = length tasks /\ length (snd (pool_exec sched tasks mem)) = length tasks /\
  zipw (snd (pool_exec sched tasks mem)) (fst (pool_exec sched tasks mem)) = zipw mem tasks.
Proof.
  induction sched as [|t rest IH]; intros tasks mem E; cbn.
  - auto.
  - destruct (nth t tasks []) as [|w ws] eqn:T; [apply IH, E|].
    assert (Ht : (t < length tasks)%nat).
    { destruct (lt_dec t (length tasks)); auto. rewrite nth_overflow in T by lia. discriminate. }
    destruct (IH (upd tasks t ws) (upd mem t (write1 (nth t mem []) w))) as [A [B C]]; [rewrite !length_upd; exact E|].
    rewrite length_upd in A, B. split; [exact A|]. split; [exact B|]. rewrite C.
    apply (nth_ext_list []); [rewrite !length_zipw by (rewrite ?length_upd; exact E); rewrite length_upd; reflexivity|].
    intros i Hi. rewrite length_zipw in Hi by (rewrite ?length_upd; exact E). rewrite length_upd in Hi.
    rewrite !nth_zipw by (rewrite ?length_upd; auto).
    destruct (Nat.eq_dec t i) as [->|n].
    + rewrite !nth_upd_same by lia. rewrite T. reflexivity.
    + rewrite !nth_upd_other by exact n. reflexivity.
Qed.
Lemma zipw_done mem tasks : length mem = length tasks -> (forall t, In t tasks -> t = []) -> zipw mem tasks = mem.
Proof.
  intros E H. apply (nth_ext_list []); [rewrite length_zipw by exact E; auto|].
  intros i Hi. rewrite length_zipw in Hi by exact E. rewrite nth_zipw by auto.
  rewrite (H (nth i tasks [])) by (apply nth_In; exact Hi). reflexivity.
Qed.
Lemma zipw_repeat r tasks : zipw (repeat r (length tasks)) tasks = map (write_row r) tasks.
Proof. unfold zipw. induction tasks; cbn; [reflexivity|]. f_equal. exact IHtasks. Qed.
Lemma mapM_length {A B} (f : A -> res B) l bs : mapM f l = Ok bs -> length bs = length l.
Proof. intro H. apply mapM_inv in H. induction H; cbn; auto. Qed.
Lemma par_seq sched o bases vs L src : (forall ws, vbap_rows o bases vs L src = Ok ws ->
    complete sched ws (repeat (repeat 0 L) (length src))) ->
  vbap_par sched o bases vs L src = vbap_seq o bases vs L src.
Proof.
  intro H. unfold vbap_par, vbap_seq. destruct (vbap_rows o bases vs L src) as [ws|] eqn:E; cbn; [|reflexivity].
  specialize (H ws eq_refl). pose proof (mapM_length _ _ _ E) as Lw. rewrite <- Lw in *. f_equal.
  assert (E2 : length (repeat (repeat 0 L) (length ws)) = length ws) by apply repeat_length.
  destruct (pool_inv sched ws _ E2) as [A [B C]].
  rewrite <- (zipw_done (snd (pool_exec sched ws (repeat (repeat 0 L) (length ws)))) _ (eq_trans B (eq_sym A)) H).
  rewrite C. apply zipw_repeat.
Qed.
(** a schedule in which every task runs often enough is complete *)
Lemma count_complete sched : forall tasks mem,
  (forall i, (i < length tasks)%nat -> (length (nth i tasks []) <= count_occ Nat.eq_dec sched i)%nat) ->
  complete sched tasks mem.
Proof.
  unfold complete. induction sched as [|t rest IH]; intros tasks mem H; cbn [pool_exec fst].
  - intros l I. destruct (In_nth _ _ [] I) as [i [Hi E]]. specialize (H i Hi). cbn in H. rewrite E in H.
    destruct l; cbn in H; [reflexivity|lia].
  - destruct (nth t tasks []) as [|w ws] eqn:T.
    + apply IH. intros i Hi. specialize (H i Hi). cbn in H. destruct (Nat.eq_dec t i) as [->|]; [rewrite T; cbn; lia|exact H].
    + apply IH. intros i Hi. rewrite length_upd in Hi. specialize (H i Hi). cbn in H.
      destruct (Nat.eq_dec t i) as [->|n].
      * rewrite nth_upd_same by exact Hi. rewrite T in H. cbn in H. lia.
      * rewrite nth_upd_other by exact n. exact H.
Qed.
Lemma row_writes_le L vs hit ws : row_writes L vs hit = Ok ws -> (length ws <= 3)%nat.
Proof.
  destruct hit as [[i g]|]; cbn [row_writes]; [|intro E; injection E as <-; cbn; lia].
  destruct (nth_error vs i) as [[[a b] c]|]; [|discriminate].
  destruct (Nat.ltb a L && Nat.ltb b L && Nat.ltb c L)%bool; [|discriminate]. intro E. injection E as <-. cbn. lia.
Qed.
