(** estimate_num_sources, separate_cov and sh_music (helpers for C36, C37, C43). *)
From Coq Require Import Lra Lia.
From Verif Require Import Base BaseFacts M_utils M_sig M_sph0 M_sph M_parsa S_linalg S_sph S_parsa P_sph7 P_sph9 P_parsa1 P_parsa2.
Open Scope R_scope.

(** ** argmax of truth values *)
Definition b01 (b : bool) : R := if b then 1 else 0.
Lemma argmax_from_one l : forall i k, argmax_from 1 i k (map b01 l) = i.
Proof. induction l as [|b l IH]; intros i k; simpl; auto. destruct (Rltb 1 (b01 b)) eqn:E; auto. apply Rltb_true in E. unfold b01 in E. destruct b; lra. Qed.
Lemma argmax_from_zero l : forall i k, (exists j, nth j l false = true /\ (forall m, (m < j)%nat -> nth m l false = false) /\ argmax_from 0 i k (map b01 l) = (k + j)%nat) \/
  ((forall j, nth j l false = false) /\ argmax_from 0 i k (map b01 l) = i).
Proof.
  induction l as [|b l IH]; intros i k.
  - right. split; auto. intros [|j]; auto.
  - simpl. destruct b; simpl.
    + left. exists O. split; auto. split; [intros; lia|]. rewrite (proj2 (Rltb_true 0 1)) by lra. rewrite argmax_from_one. lia.
    + rewrite (proj2 (Rltb_false 0 0)) by lra. destruct (IH i (S k)) as [(j & A & B & C)|(A & C)].
      * left. exists (S j). split; auto. split; [intros [|m] Hm; auto; apply B; lia|]. rewrite C. lia.
      * right. split; auto. intros [|j]; simpl; auto.
Qed.
Lemma argmax_bool l : l <> [] -> exists c, argmax (map b01 l) = Ok c /\
  ((nth c l false = true /\ (forall m, (m < c)%nat -> nth m l false = false)) \/ ((forall j, nth j l false = false) /\ c = O)).
Proof.
  destruct l as [|b l]; [congruence|]. intros _. unfold argmax. cbn [map]. destruct b; unfold b01 at 1.
  - exists O. rewrite argmax_from_one. split; auto. left. split; auto. intros; lia.
  - destruct (argmax_from_zero l 0 1) as [(j & A & B & C)|(A & C)].
    + exists (1 + j)%nat. rewrite C. split; auto. left. split; auto. intros [|m] Hm; auto. apply B. lia.
    + exists O. rewrite C. split; auto. right. split; auto. intros [|j]; simpl; auto.
Qed.

(** ** The source count *)
Lemma var_unique w v v' : is_variance w v -> is_variance w v' -> (0 < length w)%nat -> v = v'.
Proof.
  intros (m & A & B) (m' & A' & B') L. assert (0 < INR (length w)) by (apply lt_0_INR; auto).
  assert (m = m') by (apply Rmult_eq_reg_l with (INR (length w)); lra). subst m'. apply Rmult_eq_reg_l with (INR (length w)); lra.
Qed.
Lemma np_var_is w : (0 < length w)%nat -> is_variance w (np_var w).
Proof.
  intros L. assert (0 < INR (length w)) by (apply lt_0_INR; auto). exists (np_mean w). split.
  - unfold np_mean. field. lra.
  - unfold np_var. set (m := np_mean w). unfold np_mean. rewrite map_length.
    replace (map (fun x => (x - m) ^ 2) w) with (map (fun x => (x - m) * (x - m)) w) by (apply map_ext; intros; ring). field. lra.
Qed.
Lemma exceeds_jump w a i : exceeds (nth (S i) w 0) (nth i w 0 + 1 / 10000000) a = true <-> jump w a i.
Proof.
  unfold exceeds, jump. cbv zeta. set (d := nth i w 0 + 1 / 10000000). set (x := nth (S i) w 0). destruct (Reqb d 0) eqn:E.
  - apply Reqb_true in E. rewrite Rltb_true. split; [intros; right; right; auto|]. intros [(A & _)|[(A & _)|(_ & A)]]; lra.
  - apply Reqb_false in E. rewrite Rltb_true. destruct (Rlt_le_dec 0 d) as [P|P].
    + assert (Q : x / d * d = x) by (field; lra). split.
      * intros H. left. split; auto. rewrite <- Q. apply Rmult_lt_compat_r; auto.
      * intros [(_ & A)|[(A & _)|(A & _)]]; try lra. rewrite <- Q in A. apply Rmult_lt_reg_r in A; auto.
    + assert (P' : d < 0) by lra. assert (Q : x / d * d = x) by (field; lra). split.
      * intros H. right. left. split; auto. nra.
      * intros [(A & _)|[(_ & A)|(A & _)]]; try lra. nra.
Qed.

Section Count.
Variables (w : list R) (a0 : option R) (a v : R).
Hypotheses (L : (0 < length w)%nat) (HT : threshold w a0 a) (HV : is_variance w v).
Lemma count_unfold : count_from_eigenvalues w a0 =
  if Rltb v a then Ok O else
    let* cn := argmax (map b01 (map (fun i => exceeds (nth (S i) w 0) (nth i w 0 + 1 / 10000000) a) (seq 0 (length w - 1)))) in
    Ok (length w - 1 - cn)%nat.
Proof.
  unfold count_from_eigenvalues. rewrite (proj2 (Nat.eqb_neq (length w) 0)) by lia. unfold threshold in HT.
  rewrite (var_unique w v (np_var w) HV (np_var_is w L) L).
  destruct a0; subst a; cbn [bind negb andb]; reflexivity.
Qed.
Lemma count_low : v < a -> count_from_eigenvalues w a0 = Ok O.
Proof. intros H. rewrite count_unfold, (proj2 (Rltb_true v a)) by auto. reflexivity. Qed.
Lemma count_single : a <= v -> length w = 1%nat -> count_from_eigenvalues w a0 = Err ValueError.
Proof. intros H E. rewrite count_unfold, (proj2 (Rltb_false v a)), E by auto. reflexivity. Qed.
Lemma count_many : a <= v -> (2 <= length w)%nat -> exists c, count_from_eigenvalues w a0 = Ok (length w - 1 - c)%nat /\ (c < length w - 1)%nat /\
  ((jump w a c /\ forall m, (m < c)%nat -> ~ jump w a m) \/ ((forall j, (S j < length w)%nat -> ~ jump w a j) /\ c = O)).
Proof.
  intros H E. rewrite count_unfold, (proj2 (Rltb_false v a)) by auto.
  set (l := map (fun i => exceeds (nth (S i) w 0) (nth i w 0 + 1 / 10000000) a) (seq 0 (length w - 1))).
  assert (LL : length l = (length w - 1)%nat) by (unfold l; rewrite map_length, seq_length; auto).
  assert (NL : forall j, (j < length w - 1)%nat -> nth j l false = exceeds (nth (S j) w 0) (nth j w 0 + 1 / 10000000) a)
    by (intros; unfold l; rewrite nth_map_seq; auto).
  destruct (argmax_bool l) as (c & EC & D); [intros Z; rewrite Z in LL; simpl in LL; lia|]. rewrite EC. cbn [bind].
  exists c. split; auto. destruct D as [(A & B)|(A & ->)].
  - assert (c < length l)%nat by (destruct (Nat.lt_ge_cases c (length l)); auto; rewrite nth_overflow in A; auto; discriminate).
    split; [lia|]. left. rewrite NL in A by lia. split; [apply exceeds_jump; auto|]. intros m Hm J. apply exceeds_jump in J. specialize (B m Hm). rewrite NL in B by lia. congruence.
  - split; [lia|]. right. split; auto. intros j Hj J. apply exceeds_jump in J. specialize (A j). rewrite NL in A by lia. congruence.
Qed.
End Count.
Lemma count_empty a0 : count_from_eigenvalues [] a0 = Err (match a0 with None => ZeroDivisionError | Some _ => ValueError end).
Proof. destruct a0; reflexivity. Qed.
Theorem count_range w a0 n : count_from_eigenvalues w a0 = Ok n -> (n < length w)%nat.
Proof.
  intros E. destruct w as [|x w]; [rewrite count_empty in E; discriminate|]. set (l := x :: w) in *. assert (L : (0 < length l)%nat) by (simpl; lia).
  set (a := match a0 with Some a => a | None => 1 + 2 / INR (length l) end).
  assert (HT : threshold l a0 a) by (unfold threshold, a; destruct a0; auto). pose proof (np_var_is l L) as HV.
  destruct (Rlt_le_dec (np_var l) a) as [H|H].
  - rewrite (count_low l a0 a _ L HT HV H) in E. injection E as <-. auto.
  - destruct (Nat.eq_dec (length l) 1) as [O1|O1].
    + rewrite (count_single l a0 a _ L HT HV H O1) in E. discriminate.
    + destruct (count_many l a0 a _ L HT HV H ltac:(lia)) as (c & EC & _). rewrite EC in E. assert (n = (length l - 1 - c)%nat) by congruence. clearbody l. lia.
Qed.

(** ** separate_cov *)
Lemma index_ok {A} (l : list A) (i : Z) d : (- Z.of_nat (length l) <= i < Z.of_nat (length l))%Z ->
  index l i = Ok (nth (Z.to_nat (if (i <? 0)%Z then i + Z.of_nat (length l) else i)) l d).
Proof.
  intros H. unfold index. set (j := if (i <? 0)%Z then (i + Z.of_nat (length l))%Z else i).
  assert (0 <= j < Z.of_nat (length l))%Z by (unfold j; destruct (Z.ltb_spec i 0); lia).
  rewrite (proj2 (Z.leb_le 0 j)), (proj2 (Z.ltb_lt j _)) by lia. cbn [andb].
  rewrite (nth_error_nth' l d) by lia. reflexivity.
Qed.
Lemma index_err {A} (l : list A) (i : Z) : ~ (- Z.of_nat (length l) <= i < Z.of_nat (length l))%Z -> index l i = Err IndexError.
Proof.
  intros H. unfold index. set (j := if (i <? 0)%Z then (i + Z.of_nat (length l))%Z else i).
  destruct ((0 <=? j) && (j <? Z.of_nat (length l)))%Z eqn:E; auto. apply andb_prop in E. destruct E as (A1 & B1).
  apply Z.leb_le in A1. apply Z.ltb_lt in B1. exfalso. apply H. unfold j in *. destruct (Z.ltb_spec i 0); lia.
Qed.

(** closed form of the two parts *)
Definition vdv (n : nat) (V : mat) (d : nat -> R) (i j : nat) : R := rsum n (fun k => ent V i k * d k * ent V j k).
Lemma matmul_diag n m (A : mat) d : nr A = n -> nc A = m -> exists t, matmul A (mdiag m d) = Ok t /\ nr t = n /\ nc t = m /\
  forall i k, (k < m)%nat -> ent t i k = ent A i k * d k.
Proof.
  intros R C. rewrite matmul_ok by (cbn [nr mdiag]; auto). eexists. split; [reflexivity|]. cbn [nr nc ent mdiag]. split; auto. split; auto.
  intros i k Hk. rewrite C. rewrite (rsum_single m k) by (auto; intros l Hl NE; rewrite (proj2 (Nat.eqb_neq l k)) by auto; ring). rewrite Nat.eqb_refl. reflexivity.
Qed.
Definition upper (w : list R) (s : nat) (r : R) (k : nat) : R := if Nat.ltb k s then nth k w 0 else r.
Lemma separate_open eigh cov (k : Z) w v : eigh cov = (w, v) -> is_eigh cov w v -> (- Z.of_nat (nr cov) <= k < Z.of_nat (nr cov))%Z ->
  let L := nr cov in let s := norm_idx L (- k) in
  let r := nth (Z.to_nat (if (- (k + 1) <? 0)%Z then - (k + 1) + Z.of_nat L else - (k + 1))) w 0 in
  exists P Q, separate_cov eigh cov (Some k) = Ok (P, Q) /\ nr P = L /\ nc P = L /\ nr Q = L /\ nc Q = L /\
    (forall i j, (i < L)%nat -> (j < L)%nat -> ent Q i j = vdv L v (upper w s r) i j) /\
    (forall i j, (i < L)%nat -> (j < L)%nat -> ent P i j = rsum (L - s) (fun l => ent v i (s + l) * (nth (s + l) w 0 - r) * ent v j (s + l))).
Proof.
  intros E (SQ & LW & AS & (RV & CV & O1 & O2) & HA) HK L s r. fold L in RV, CV.
  unfold separate_cov, assert_. rewrite <- SQ, Nat.eqb_refl. cbn [bind]. rewrite E. cbn [bind].
  rewrite (index_ok w (- (k + 1)) 0) by (rewrite LW; fold L; lia). rewrite LW. fold L. fold r. cbn [bind].
  set (wn := map (upper w s r) (seq 0 L)).
  assert (ES : slice_set w (- k) (Z.of_nat L) [r] = Ok wn).
  { unfold slice_set. rewrite LW. fold L. fold s. rewrite (norm_idx_nat L L) by lia. pose proof (norm_idx_le L (- k)) as SL. fold s in SL.
    rewrite (Nat.max_r s L) by auto. assert (EQ : firstn s w ++ repeat r (L - s) ++ skipn L w = wn).
    { rewrite skipn_all2 by (rewrite LW; auto). rewrite app_nil_r. apply (nth_ext_list 0).
      - unfold wn. rewrite app_length, firstn_length, repeat_length, map_length, seq_length, LW. fold L. lia.
      - intros i Hi. rewrite app_length, firstn_length, repeat_length, LW in Hi. fold L in Hi. unfold wn. rewrite nth_map_seq by lia. unfold upper. destruct (Nat.ltb_spec i s).
        + rewrite app_nth1 by (rewrite firstn_length, LW; fold L; lia). apply nth_firstn. auto.
        + rewrite app_nth2 by (rewrite firstn_length, LW; fold L; lia). rewrite firstn_length, LW. fold L. rewrite nth_repeat_in by lia. reflexivity. }
    cbn [length]. destruct (Nat.eqb_spec 1 (L - s)) as [E1|E1]; rewrite <- EQ; [|reflexivity]. rewrite <- E1. reflexivity. }
  rewrite ES. cbn [bind]. assert (LN : length wn = L) by (unfold wn; rewrite map_length, seq_length; auto). rewrite LN.
  destruct (matmul_diag L L v (fun i => nth i wn 0) RV CV) as (t & Et & Rt & Ct & Ht). rewrite Et. cbn [bind].
  rewrite (matmul_ok t (mtr v)) by (cbn [nr mtr]; congruence). cbn [bind].
  unfold slice_from. rewrite LW. fold L. fold s. rewrite map_length, skipn_length, LW. fold L.
  unfold cols_from. rewrite CV. fold L. fold s. cbv zeta.
  match goal with |- context [matmul (Mat ?a ?b ?f) (mdiag (L - s) ?d)] => destruct (matmul_diag L (L - s) (Mat a b f) d RV eq_refl) as (t2 & Et2 & Rt2 & Ct2 & Ht2) end.
  rewrite Et2. cbn [bind]. rewrite matmul_ok by (cbn [nr nc mtr]; congruence). cbn [bind].
  eexists. eexists. split; [reflexivity|]. cbn [nr nc ent mtr]. split; auto. split; auto. split; auto. split; auto. split.
  - intros i j Hi Hj. rewrite Ct. unfold vdv. apply rsum_ext. intros l Hl. rewrite Ht by auto. unfold wn. rewrite nth_map_seq by auto. reflexivity.
  - intros i j Hi Hj. rewrite Ct2. apply rsum_ext. intros l Hl. rewrite Ht2 by auto. cbn [ent]. f_equal. f_equal.
    rewrite (nth_map_in _ _ _ _ 0) by (rewrite skipn_length, LW; fold L; lia). rewrite nth_skipn. reflexivity.
Qed.
Lemma vdv_split n s V d i j : (s <= n)%nat -> vdv n V d i j = vdv s V d i j + rsum (n - s) (fun l => ent V i (s + l) * d (s + l)%nat * ent V j (s + l)).
Proof. intros H. unfold vdv. replace n with (s + (n - s))%nat at 1 by lia. apply rsum_app. Qed.
Theorem separate_sum eigh cov k w v : eigh cov = (w, v) -> is_eigh cov w v -> (- Z.of_nat (nr cov) <= k < Z.of_nat (nr cov))%Z ->
  exists P Q, separate_cov eigh cov (Some k) = Ok (P, Q) /\ splits cov P Q.
Proof.
  intros E HE HK. destruct (separate_open eigh cov k w v E HE HK) as (P & Q & ES & A & B & C & D & HQ & HP). exists P, Q. split; auto.
  destruct HE as (SQ & LW & _ & _ & HA). unfold splits. repeat split; try congruence. intros i j Hi Hj. rewrite <- SQ in Hj. rewrite HQ, HP, HA by auto.
  set (s := norm_idx (nr cov) (- k)). pose proof (norm_idx_le (nr cov) (- k)) as SL. fold s in SL.
  change (rsum (nr cov) (fun k0 => ent v i k0 * nth k0 w 0 * ent v j k0)) with (vdv (nr cov) v (fun k0 => nth k0 w 0) i j).
  rewrite (vdv_split _ s) by auto. rewrite (vdv_split _ s v (fun k0 => nth k0 w 0)) by auto.
  rewrite Rplus_comm, Rplus_assoc. f_equal.
  - unfold vdv. apply rsum_ext. intros l Hl. unfold upper. rewrite (proj2 (Nat.ltb_lt l s)) by auto. reflexivity.
  - rewrite <- rsum_plus. apply rsum_ext. intros l Hl. unfold upper. rewrite (proj2 (Nat.ltb_ge (s + l) s)) by lia. ring.
Qed.
Theorem separate_rejects eigh cov k w v : eigh cov = (w, v) -> is_eigh cov w v -> ~ (- Z.of_nat (nr cov) <= k < Z.of_nat (nr cov))%Z ->
  separate_cov eigh cov (Some k) = Err IndexError.
Proof.
  intros E (SQ & LW & _) HK. unfold separate_cov, assert_. rewrite <- SQ, Nat.eqb_refl. cbn [bind]. rewrite E. cbn [bind].
  rewrite index_err by (rewrite LW; lia). reflexivity.
Qed.
Theorem separate_default eigh cov w v : eigh cov = (w, v) -> is_eigh cov w v ->
  match count_from_eigenvalues w None with
  | Ok n => separate_cov eigh cov None = separate_cov eigh cov (Some (Z.of_nat n)) /\ (n < nr cov)%nat
  | Err e => separate_cov eigh cov None = Err e end.
Proof.
  intros E (SQ & LW & _). destruct (count_from_eigenvalues w None) as [n|e] eqn:EC.
  - split; [|rewrite <- LW; apply (count_range w None); auto]. unfold separate_cov, assert_. rewrite SQ, Nat.eqb_refl. cbn [bind]. rewrite E, EC. reflexivity.
  - unfold separate_cov, assert_. rewrite SQ, Nat.eqb_refl. cbn [bind]. rewrite E, EC. reflexivity.
Qed.

(** quadratic form of a sum of dyads *)
Lemma qf_dyads n m (V : nat -> nat -> R) (d : nat -> R) x :
  qf n (fun i j => rsum m (fun k => V i k * d k * V j k)) x x = rsum m (fun k => d k * (rsum n (fun i => x i * V i k) * rsum n (fun i => x i * V i k))).
Proof.
  unfold qf. rewrite (rsum_ext n _ (fun i => rsum m (fun k => rsum n (fun j => x i * (V i k * d k * V j k) * x j)))).
  - rewrite rsum_swap. apply rsum_ext. intros k _. rewrite rsum_mult, <- rsum_scal. apply rsum_ext. intros i _. rewrite <- rsum_scal. apply rsum_ext. intros j _. ring.
  - intros i _. rewrite rsum_swap. apply rsum_ext. intros j _. rewrite <- rsum_scal, <- rsum_scal_r. reflexivity.
Qed.
Lemma nidx_pos L (k : Z) : (1 <= k <= Z.of_nat L)%Z -> norm_idx L (- k) = (L - Z.to_nat k)%nat.
Proof. intros H. unfold norm_idx. destruct (Z.ltb_spec (- k) 0); [|lia]. lia. Qed.

Theorem separate_signal eigh cov k w v P Q : eigh cov = (w, v) -> is_eigh cov w v -> (1 <= k < nr cov)%nat ->
  separate_cov eigh cov (Some (Z.of_nat k)) = Ok (P, Q) ->
  is_symmetric P /\ pos_semidef P /\ rank_le k P /\
  is_eigh Q (firstn (nr cov - k) w ++ repeat (nth (nr cov - k - 1) w 0) k) v.
Proof.
  intros E HE HK ES. destruct (separate_open eigh cov (Z.of_nat k) w v E HE ltac:(lia)) as (P' & Q' & ES' & A & B & C & D & HQ & HP).
  rewrite ES in ES'. injection ES' as <- <-. destruct HE as (SQ & LW & AS & OV & HA). set (L := nr cov) in *.
  rewrite (nidx_pos L (Z.of_nat k)) in * by lia. rewrite Nat2Z.id in *.
  rewrite (proj2 (Z.ltb_lt (- (Z.of_nat k + 1)) 0)) in * by lia. replace (Z.to_nat (- (Z.of_nat k + 1) + Z.of_nat L)) with (L - k - 1)%nat in * by lia.
  set (s := (L - k)%nat) in *. set (r := nth (s - 1) w 0) in *. replace (L - s)%nat with k in * by lia.
  split; [|split; [|split]].
  - split; [congruence|]. rewrite A. intros i j Hi Hj. rewrite !HP by auto. apply rsum_ext. intros; ring.
  - intros x Lx. rewrite power_qf, A. rewrite (qf_ext L _ (fun i j => rsum k (fun l => ent v i (s + l) * (nth (s + l) w 0 - r) * ent v j (s + l))) _ (fun i => nth i x 0) _ (fun i => nth i x 0)) by auto.
    rewrite (qf_dyads L k (fun i l => ent v i (s + l)) (fun l => nth (s + l) w 0 - r)). apply rsum_nonneg. intros l Hl.
    assert (r <= nth (s + l) w 0) by (apply AS; rewrite LW; lia).
    apply Rmult_le_pos; [lra|]. apply Rle_0_sqr.
  - exists (fun i l => ent v i (s + l)), (fun l j => (nth (s + l) w 0 - r) * ent v j (s + l)). intros i j Hi Hj. rewrite A in Hi. rewrite B in Hj. rewrite HP by auto. apply rsum_ext. intros; ring.
  - unfold is_eigh. rewrite C, D. set (w' := firstn s w ++ repeat r k).
    assert (LW' : length w' = L) by (unfold w'; rewrite app_length, firstn_length, repeat_length, LW; lia).
    assert (NW : forall i, (i < L)%nat -> nth i w' 0 = upper w s r i).
    { intros i Hi. unfold upper, w'. destruct (Nat.ltb_spec i s).
      - rewrite app_nth1 by (rewrite firstn_length, LW; lia). apply nth_firstn; auto.
      - rewrite app_nth2 by (rewrite firstn_length, LW; lia). rewrite firstn_length, LW. rewrite nth_repeat_in by lia. reflexivity. }
    split; auto. split; auto. split; [|split; auto].
    + intros i j Hij. rewrite LW' in Hij. rewrite !NW by lia. unfold upper. destruct (Nat.ltb_spec i s), (Nat.ltb_spec j s); try lia; try lra.
      * apply AS. lia.
      * apply AS. lia.
    + intros i j Hi Hj. rewrite HQ by auto. unfold vdv. apply rsum_ext. intros l Hl. rewrite NW by auto. reflexivity.
Qed.
Theorem separate_zero eigh cov w v P Q : eigh cov = (w, v) -> is_eigh cov w v -> (0 < nr cov)%nat ->
  separate_cov eigh cov (Some 0%Z) = Ok (P, Q) ->
  neg_semidef P /\ is_symmetric P /\ (forall i j, (i < nr cov)%nat -> (j < nr cov)%nat -> ent Q i j = nth (nr cov - 1) w 0 * delta i j) /\
  forall i j, (i < nr cov)%nat -> (j < nr cov)%nat -> ent P i j = ent cov i j - nth (nr cov - 1) w 0 * delta i j.
Proof.
  intros E HE HL ES. destruct (separate_open eigh cov 0 w v E HE ltac:(lia)) as (P' & Q' & ES' & A & B & C & D & HQ & HP).
  destruct (separate_sum eigh cov 0 w v E HE ltac:(lia)) as (P2 & Q2 & ES2 & SP). rewrite ES in ES', ES2. injection ES' as <- <-. injection ES2 as <- <-.
  destruct HE as (SQ & LW & AS & (_ & _ & _ & O2) & HA). set (L := nr cov) in *.
  change (norm_idx L (- 0)) with (norm_idx L (Z.of_nat 0)) in *. rewrite (norm_idx_nat L 0) in * by lia.
  change (- (0 + 1))%Z with (-1)%Z in *. change (-1 <? 0)%Z with true in *. cbv iota in *. replace (Z.to_nat (-1 + Z.of_nat L)) with (L - 1)%nat in * by lia.
  set (r := nth (L - 1) w 0) in *. rewrite Nat.sub_0_r in HP.
  assert (QE : forall i j, (i < L)%nat -> (j < L)%nat -> ent Q i j = r * delta i j).
  { intros i j Hi Hj. rewrite HQ by auto. rewrite <- (O2 i j) by auto. unfold vdv. rewrite <- rsum_scal. apply rsum_ext. intros; unfold upper; simpl; ring. }
  split; [|split; [|split]]; auto.
  - intros x Lx. rewrite power_qf, A. rewrite (qf_ext L _ (fun i j => rsum L (fun l => ent v i l * (nth l w 0 - r) * ent v j l)) _ (fun i => nth i x 0) _ (fun i => nth i x 0)) by auto.
    rewrite (qf_dyads L L (fun i l => ent v i l) (fun l => nth l w 0 - r)).
    match goal with |- rsum L ?f <= 0 => assert (0 <= rsum L (fun l => - f l)); [|rewrite rsum_opp in *; lra] end.
    apply rsum_nonneg. intros l Hl. assert (nth l w 0 <= r) by (apply AS; rewrite LW; lia).
    match goal with |- 0 <= - (?a * (?b * ?b)) => pose proof (Rle_0_sqr b) as QQ; unfold Rsqr in QQ; nra end.
  - split; [congruence|]. rewrite A. intros i j Hi Hj. rewrite !HP by auto. apply rsum_ext. intros; simpl; ring.
  - intros i j Hi Hj. destruct SP as (_ & _ & _ & _ & SP). rewrite <- SP by (auto; congruence). rewrite QE by auto. ring.
Qed.

(** ** sh_music *)
Theorem music_open eigh cov num azi zen N w v : eigh cov = (w, v) -> is_eigh cov w v -> nr cov = ((N + 1) ^ 2)%nat -> length zen = length azi ->
  exists P, sh_music eigh cov num azi zen = Ok P /\ length P = length azi /\
    forall g, (g < length azi)%nat -> nth g P 0 =
      1 / (rsum (norm_idx (nr cov) (- num)) (fun k => field_value sh_real N (map (fun i => ent v i k) (seq 0 (nr cov))) (nth g azi 0) (nth g zen 0) ^ 2) + 1 / 100000000000).
Proof.
  intros E (SQ & LW & AS & (RV & CV & O1 & O2) & HA) KN HL. unfold sh_music, assert_. rewrite <- SQ, Nat.eqb_refl. cbn [bind]. replace (Z.to_nat (order_of (nr cov))) with N by (rewrite KN, order_of_sq, Nat2Z.id; auto).
  destruct (sh_matrix_ok N azi zen HL) as (Y & EY & RY & CY & _). rewrite EY. cbn [bind]. rewrite E. cbn [snd].
  rewrite matmul_ok by (cbn [nc nr mtr cols_to]; congruence). cbn [bind nr nc ent mtr cols_to].
  eexists. split; [reflexivity|]. rewrite map_length, seq_length. split; auto. intros g Hg. rewrite nth_map_seq by congruence. rewrite CV.
  f_equal. f_equal. apply rsum_ext. intros k Hk. rewrite (field_steer N azi zen Y) by auto. rewrite RV, <- KN.
  rewrite (rsum_ext _ (fun j => nth j (map (fun i => ent v i k) (seq 0 (nr cov))) 0 * ent Y g j) (fun j => ent v j k * ent Y g j)) by (intros; rewrite nth_map_seq by auto; reflexivity).
  ring.
Qed.
