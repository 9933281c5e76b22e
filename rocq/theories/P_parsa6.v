(** Workers on a shared array: additions under one lock are never lost, stores to
    cells of their own arrive, and no schedule gets stuck. *)
From Coq Require Import Permutation.
From Verif Require Import Base BaseFacts M_utils M_sig M_process M_decoder M_decoder2 M_decoder3 M_parsa2.
Open Scope R_scope.

Definition prog (m : machine) (w : nat) : list instr := fst (nth w (workers m) ([], 0)).
Definition reg (m : machine) (w : nat) : R := snd (nth w (workers m) ([], 0)).
(** what a program will still add to cell [k] *)
Fixpoint pend (k : nat) (p : list instr) : R :=
  match p with
  | [] => 0
  | AddStore k' v :: t => (if Nat.eqb k' k then v else 0) + pend k t
  | _ :: t => pend k t
  end.
Definition pending (k : nat) (ws : list (list instr * R)) : R := lsum (map (fun w => pend k (fst w)) ws).

(** programs that add under lock [l] *)
Inductive outside (l : nat) : list instr -> Prop :=
  | out_nil : outside l []
  | out_acq p : inside l p -> outside l (Acquire l :: p)
with inside (l : nat) : list instr -> Prop :=
  | in_rel p : outside l p -> inside l (Release l :: p)
  | in_add k v p : inside l p -> inside l (Load k :: AddStore k v :: p).
Definition critical (l : nat) (m : machine) (w : nat) : Prop :=
  inside l (prog m w) \/
  exists k v p, prog m w = AddStore k v :: p /\ inside l p /\ reg m w = nth k (cells m) 0.
Definition guarded (l : nat) (m : machine) : Prop :=
  match locks m l with
  | None => forall w, outside l (prog m w)
  | Some o => (forall w, w <> o -> outside l (prog m w)) /\ critical l m o
  end.

Lemma lsum_upd (f : list instr * R -> R) (ws : list (list instr * R)) w x d : (w < length ws)%nat ->
  lsum (map f (upd ws w x)) = lsum (map f ws) - f (nth w ws d) + f x.
Proof.
  revert w; induction ws as [|a t IH]; intros w H; cbn [length] in H; [lia|].
  destruct w; cbn [upd map lsum nth]; [lra|]. rewrite IH by lia. lra.
Qed.
Lemma prog_live m w i p : prog m w = i :: p -> (w < length (workers m))%nat.
Proof.
  unfold prog. intros E. destruct (le_lt_dec (length (workers m)) w) as [G|G]; [|exact G].
  rewrite nth_overflow in E by exact G. discriminate E.
Qed.
Lemma nth_workers m w : nth w (workers m) ([], 0) = (prog m w, reg m w).
Proof. unfold prog, reg. destruct (nth w (workers m) ([], 0)); reflexivity. Qed.
Lemma pending_upd k m w p r : (w < length (workers m))%nat ->
  pending k (upd (workers m) w (p, r)) = pending k (workers m) - pend k (prog m w) + pend k p.
Proof. intros H. unfold pending. rewrite (lsum_upd _ _ _ _ ([], 0)) by exact H. reflexivity. Qed.
Lemma prog_upd c f m w p r v : (w < length (workers m))%nat ->
  prog (Machine c f (upd (workers m) w (p, r))) v = if Nat.eqb v w then p else prog m v.
Proof.
  intros H. unfold prog. cbn [workers]. destruct (Nat.eqb_spec v w) as [->|N].
  - rewrite nth_upd_same by exact H. reflexivity.
  - rewrite nth_upd_other by congruence. reflexivity.
Qed.
Lemma reg_upd c f m w p r v : (w < length (workers m))%nat ->
  reg (Machine c f (upd (workers m) w (p, r))) v = if Nat.eqb v w then r else reg m v.
Proof.
  intros H. unfold reg. cbn [workers]. destruct (Nat.eqb_spec v w) as [->|N].
  - rewrite nth_upd_same by exact H. reflexivity.
  - rewrite nth_upd_other by congruence. reflexivity.
Qed.

Lemma guarded_step l m w : guarded l m ->
  guarded l (step m w) /\ length (cells (step m w)) = length (cells m) /\
  length (workers (step m w)) = length (workers m) /\
  (forall k, (k < length (cells m))%nat ->
    nth k (cells (step m w)) 0 + pending k (workers (step m w)) = nth k (cells m) 0 + pending k (workers m)).
Proof.
  intros G. unfold step. rewrite nth_workers.
  destruct (prog m w) as [|i p] eqn:Ep; [auto|].
  pose proof (prog_live _ _ _ _ Ep) as L.
  unfold guarded in G. destruct (locks m l) as [o|] eqn:El.
  - destruct G as [G1 G2]. destruct (Nat.eq_dec w o) as [->|N].
    + destruct G2 as [I|(k & v & p' & E1 & I & E2)].
      * rewrite Ep in I. inversion I as [q Q|k v q Q]; subst.
        -- cbn [cells workers]. rewrite length_upd. split; [|split; [reflexivity|split; [reflexivity|]]].
           { unfold guarded, set_lock. cbn [locks]. rewrite Nat.eqb_refl. intros u. rewrite prog_upd by exact L.
             destruct (Nat.eqb_spec u o) as [->|N]; [exact Q|apply G1; exact N]. }
           intros k K. rewrite pending_upd by exact L. rewrite Ep. cbn [pend]. lra.
        -- cbn [cells workers]. rewrite length_upd. split; [|split; [reflexivity|split; [reflexivity|]]].
           { unfold guarded. cbn [locks]. rewrite El. split.
             - intros u N. rewrite prog_upd by exact L. destruct (Nat.eqb_spec u o) as [E|_]; [contradiction|]. apply G1; exact N.
             - right. exists k, v, q. rewrite prog_upd, reg_upd by exact L. rewrite Nat.eqb_refl. auto. }
           intros k' K. rewrite pending_upd by exact L. rewrite Ep. cbn [pend]. lra.
      * rewrite Ep in E1. injection E1 as -> ->. cbn [cells workers]. rewrite !length_upd.
        split; [|split; [reflexivity|split; [reflexivity|]]].
        { unfold guarded. cbn [locks]. rewrite El. split.
          - intros u N. rewrite prog_upd by exact L. destruct (Nat.eqb_spec u o) as [E|_]; [contradiction|]. apply G1; exact N.
          - left. rewrite prog_upd by exact L. rewrite Nat.eqb_refl. exact I. }
        intros k' K. rewrite pending_upd by exact L. rewrite Ep. cbn [pend]. rewrite nth_upd.
        rewrite E2. destruct (Nat.eqb_spec k k') as [->|N].
        -- rewrite (proj2 (Nat.ltb_lt _ _) K). cbn [andb]. lra.
        -- rewrite ?andb_false_l, ?andb_false_r. cbn [andb]. lra.
    + pose proof (G1 w N) as O. rewrite Ep in O. inversion O as [|q Q]; subst.
      rewrite El. destruct (Nat.eqb_spec o w) as [E|_]; [congruence|].
      split; [|auto]. unfold guarded. rewrite El. auto.
  - pose proof (G w) as O. rewrite Ep in O. inversion O as [|q Q]; subst.
    rewrite El. cbn [cells workers]. rewrite length_upd.
    split; [|split; [reflexivity|split; [reflexivity|]]].
    + unfold guarded, set_lock. cbn [locks]. rewrite Nat.eqb_refl. split.
      * intros u N. rewrite prog_upd by exact L. destruct (Nat.eqb_spec u w) as [E|_]; [contradiction|]. apply G.
      * left. rewrite prog_upd by exact L. rewrite Nat.eqb_refl. exact Q.
    + intros k K. rewrite pending_upd by exact L. rewrite Ep. cbn [pend]. lra.
Qed.

Lemma guarded_steps l sched : forall m, guarded l m ->
  guarded l (steps m sched) /\ length (cells (steps m sched)) = length (cells m) /\
  length (workers (steps m sched)) = length (workers m) /\
  (forall k, (k < length (cells m))%nat ->
    nth k (cells (steps m sched)) 0 + pending k (workers (steps m sched)) = nth k (cells m) 0 + pending k (workers m)).
Proof.
  induction sched as [|w t IH]; intros m G; [cbn; auto|].
  destruct (guarded_step l m w G) as (A & B & C & D).
  destruct (IH _ A) as (A' & B' & C' & D'). cbn [steps fold_left]. fold (steps (step m w) t).
  split; [exact A'|]. split; [congruence|]. split; [congruence|].
  intros k K. rewrite D' by (rewrite B; exact K). apply D. exact K.
Qed.
Lemma pending_finished k m : finished m -> pending k (workers m) = 0.
Proof.
  intros F. unfold pending. rewrite lsum_nth, map_length. apply rsum_0. intros i I.
  rewrite (nth_map_in _ _ _ _ ([], 0)) by exact I. rewrite (F i). reflexivity.
Qed.
Lemma guarded_finished l m sched k : guarded l m -> (k < length (cells m))%nat -> finished (steps m sched) ->
  nth k (cells (steps m sched)) 0 = nth k (cells m) 0 + pending k (workers m).
Proof.
  intros G K F. destruct (guarded_steps l sched m G) as (_ & _ & _ & D).
  rewrite <- D by exact K. rewrite pending_finished by exact F. lra.
Qed.

(** ** Progress *)
Definition remaining (m : machine) : nat := list_sum (map (fun w => length (fst w)) (workers m)).
Lemma list_sum_upd (ws : list (list instr * R)) w x d : (w < length ws)%nat ->
  (list_sum (map (fun w => length (fst w)) (upd ws w x)) + length (fst (nth w ws d)) =
   list_sum (map (fun w => length (fst w)) ws) + length (fst x))%nat.
Proof.
  revert w; induction ws as [|a t IH]; intros w H; cbn [length] in H; [lia|].
  destruct w; cbn [upd map nth]; unfold list_sum in *; cbn [fold_right].
  - lia.
  - specialize (IH w). lia.
Qed.
Lemma remaining_upd c f m w i p r : prog m w = i :: p ->
  (remaining (Machine c f (upd (workers m) w (p, r))) < remaining m)%nat.
Proof.
  intros E. pose proof (prog_live _ _ _ _ E) as L. unfold remaining. cbn [workers].
  pose proof (list_sum_upd (workers m) w (p, r) ([], 0) L) as H. unfold prog in E. rewrite E in H. cbn [fst length] in H. lia.
Qed.
Lemma remaining_0 m : remaining m = 0%nat -> finished m.
Proof.
  unfold remaining, finished. induction (workers m) as [|a t IH]; intros H w.
  - destruct w; reflexivity.
  - unfold list_sum in H. cbn [map fold_right] in H. destruct w; cbn [nth].
    + destruct (fst a); [reflexivity|cbn [length] in H; lia].
    + apply IH. unfold list_sum. lia.
Qed.
Lemma unfinished m : remaining m <> 0%nat -> exists w i p, prog m w = i :: p.
Proof.
  unfold remaining, prog. induction (workers m) as [|a t IH]; intros H; [cbn in H; lia|].
  unfold list_sum in H. cbn [map fold_right] in H. destruct (fst a) as [|i p] eqn:E.
  - cbn [length] in H. destruct IH as (w & i & p & Q); [unfold list_sum; lia|]. exists (S w), i, p. exact Q.
  - exists 0%nat, i, p. exact E.
Qed.
Lemma guarded_live l m w : guarded l m -> critical l m w -> locks m l = Some w ->
  (remaining (step m w) < remaining m)%nat.
Proof.
  intros G C E. unfold step. rewrite nth_workers. destruct C as [I|(k & v & p & Ep & I & _)].
  - destruct (prog m w) as [|i q] eqn:Ep; [inversion I|].
    inversion I; subst; eapply remaining_upd; exact Ep.
  - rewrite Ep. eapply remaining_upd; exact Ep.
Qed.
Lemma guarded_progress l m : guarded l m -> remaining m <> 0%nat ->
  exists w, (remaining (step m w) < remaining m)%nat.
Proof.
  intros G H. pose proof G as G'. unfold guarded in G'. destruct (locks m l) as [o|] eqn:E.
  - exists o. apply (guarded_live l); tauto.
  - destruct (unfinished m H) as (w & i & p & Ep). exists w. pose proof (G' w) as O. rewrite Ep in O.
    inversion O as [|q Q]; subst. unfold step. rewrite nth_workers, Ep, E. eapply remaining_upd; exact Ep.
Qed.
Lemma steps_app m a b : steps m (a ++ b) = steps (steps m a) b.
Proof. apply fold_left_app. Qed.
Lemma guarded_can_finish l : forall n m, (remaining m <= n)%nat -> guarded l m -> exists rest, finished (steps m rest).
Proof.
  induction n as [|n IH]; intros m H G.
  - exists []. apply remaining_0. cbn. lia.
  - destruct (Nat.eq_dec (remaining m) 0) as [Z|Z]; [exists []; apply remaining_0; exact Z|].
    destruct (guarded_progress l m G Z) as [w W].
    destruct (IH (step m w)) as [rest F]; [lia|apply (guarded_step l m w G)|].
    exists (w :: rest). exact F.
Qed.

(** ** The start *)
Lemma prog_start n pr deal w : prog (start n pr deal) w = flat_map (pr w) (nth w deal []).
Proof.
  unfold prog, start. cbn [workers]. destruct (le_lt_dec (length deal) w) as [G|G].
  - rewrite nth_overflow by (rewrite map_length, seq_length; exact G). rewrite (nth_overflow deal) by exact G. reflexivity.
  - rewrite nth_map_seq by exact G. reflexivity.
Qed.
Lemma pend_app k p q : pend k (p ++ q) = pend k p + pend k q.
Proof. induction p as [|i p IH]; cbn [app pend]; [lra|]. destruct i; rewrite ?IH; lra. Qed.
Lemma pend_flat_map {A} k (f : A -> list instr) l : pend k (flat_map f l) = lsum (map (fun a => pend k (f a)) l).
Proof. induction l as [|a t IH]; cbn [flat_map map lsum pend]; [reflexivity|]. rewrite pend_app, IH. reflexivity. Qed.
Lemma lsum_perm l m : Permutation l m -> lsum l = lsum m.
Proof. intros P. induction P; cbn [lsum]; try lra. Qed.
Lemma lsum_concat (f : nat -> R) (d : list (list nat)) :
  lsum (map (fun t => lsum (map f t)) d) = lsum (map f (concat d)).
Proof. induction d as [|a t IH]; cbn [map lsum concat]; [reflexivity|]. rewrite map_app, lsum_app, IH. reflexivity. Qed.
Lemma pending_start k n N pr deal (f : nat -> R) : Permutation (concat deal) (seq 0 N) ->
  (forall w i, (i < N)%nat -> pend k (pr w i) = f i) ->
  pending k (workers (start n pr deal)) = rsum N f.
Proof.
  intros P H. unfold pending, start. cbn [workers]. rewrite map_map. cbn [fst].
  transitivity (lsum (map (fun t => lsum (map f t)) deal)).
  - rewrite !lsum_nth, !map_length, seq_length. apply rsum_ext. intros w W.
    rewrite nth_map_seq by exact W. rewrite (nth_map_in _ _ _ _ []) by exact W.
    rewrite pend_flat_map. f_equal. apply map_ext_in. intros i I. apply H.
    assert (In i (seq 0 N)) as Q.
    { apply (Permutation_in _ P). apply in_concat. exists (nth w deal []). split; [apply nth_In; exact W|exact I]. }
    apply in_seq in Q. lia.
  - rewrite lsum_concat. rewrite <- lsum_map_seq. apply lsum_perm. apply Permutation_map. exact P.
Qed.

(** ** Plain stores: every program stores the value meant for a cell *)
Definition storing (target : nat -> R) (m : machine) : Prop :=
  (forall w i, In i (prog m w) -> exists k, i = Store k (target k)) /\
  (forall k, (k < length (cells m))%nat -> nth k (cells m) 0 <> target k -> exists w, In (Store k (target k)) (prog m w)).
Lemma storing_step target m w : storing target m -> storing target (step m w) /\ length (cells (step m w)) = length (cells m) /\
  (prog m w <> [] -> (remaining (step m w) < remaining m)%nat).
Proof.
  intros [A B]. unfold step. rewrite nth_workers.
  destruct (prog m w) as [|i p] eqn:Ep; [split; [split; assumption|split; [reflexivity|congruence]]|].
  pose proof (prog_live _ _ _ _ Ep) as L.
  destruct (A w i) as [k ->]; [rewrite Ep; left; reflexivity|].
  split; [split|].
  - intros u i. rewrite prog_upd by exact L. destruct (Nat.eqb_spec u w) as [->|N].
    + intros I. apply (A w). rewrite Ep. right. exact I.
    + apply A.
  - cbn [cells]. rewrite length_upd. intros k' K. rewrite nth_upd. destruct (Nat.eqb_spec k k') as [->|N].
    + rewrite (proj2 (Nat.ltb_lt _ _) K). cbn [andb]. congruence.
    + cbn [andb]. intros D. destruct (B k' K D) as [u U]. exists u. rewrite prog_upd by exact L.
      destruct (Nat.eqb_spec u w) as [->|M]; [|exact U]. rewrite Ep in U. destruct U as [U|U]; [|exact U].
      exfalso. apply N. congruence.
  - cbn [cells]. rewrite length_upd. split; [reflexivity|]. intros _. eapply remaining_upd; exact Ep.
Qed.
Lemma storing_steps target sched : forall m, storing target m ->
  storing target (steps m sched) /\ length (cells (steps m sched)) = length (cells m).
Proof.
  induction sched as [|w t IH]; intros m G; [cbn; auto|].
  destruct (storing_step target m w G) as (A & B & _). destruct (IH _ A) as (A' & B').
  cbn [steps fold_left]. fold (steps (step m w) t). split; [exact A'|congruence].
Qed.
Lemma storing_finished target m sched k : storing target m -> (k < length (cells m))%nat -> finished (steps m sched) ->
  nth k (cells (steps m sched)) 0 = target k.
Proof.
  intros G K F. destruct (storing_steps target sched m G) as ((_ & B) & E).
  destruct (Req_dec (nth k (cells (steps m sched)) 0) (target k)) as [Q|Q]; [exact Q|].
  exfalso. destruct (B k) as [w W]; [rewrite E; exact K|exact Q|]. unfold prog in W. rewrite (F w) in W. exact W.
Qed.
Lemma storing_can_finish target : forall n m, (remaining m <= n)%nat -> storing target m -> exists rest, finished (steps m rest).
Proof.
  induction n as [|n IH]; intros m H G.
  - exists []. apply remaining_0. cbn. lia.
  - destruct (Nat.eq_dec (remaining m) 0) as [Z|Z]; [exists []; apply remaining_0; exact Z|].
    destruct (unfinished m Z) as (w & i & p & Ep).
    destruct (storing_step target m w G) as (A & _ & D).
    destruct (IH (step m w)) as [rest F]; [assert (prog m w <> []) as Q by congruence; specialize (D Q); lia|exact A|].
    exists (w :: rest). exact F.
Qed.
