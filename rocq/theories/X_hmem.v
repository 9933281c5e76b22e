(** Sets of HRIRs in memory: final forms, examples and counterexamples. *)
From Coq Require Import Lra Lia.
From Verif Require Import Base BaseFacts M_utils M_sig M_process M_parsa2 M_process2 M_misc M_hmem S_misc S_ctf S_hmem P_dec11 P_parsa3 P_misc2 P_hmem1 P_hmem2.
Open Scope R_scope.

Lemma content_at m o s : nth_error (sets m) o = Some s -> content m o = Some (Hrirs (rows (mat_at m (s_left s))) (rows (mat_at m (s_right s))) (vec_at m (s_azi s)) (vec_at m (s_zen s)) (s_fs s) (s_grid s) (s_taps s)).
Proof. intros E. unfold content. rewrite E. reflexivity. Qed.
Lemma content_some m o h : content m o = Some h -> exists s, nth_error (sets m) o = Some s /\ h = Hrirs (rows (mat_at m (s_left s))) (rows (mat_at m (s_right s))) (vec_at m (s_azi s)) (vec_at m (s_zen s)) (s_fs s) (s_grid s) (s_taps s).
Proof. unfold content. destruct (nth_error (sets m) o) as [s|]; [|discriminate]. intros H. injection H as <-. eauto. Qed.
Lemma at_some2 m a : (a < length (mats m))%nat -> nth_error (mats m) a = Some (mat_at m a).
Proof. intros H. unfold mat_at. apply nth_error_nth'. exact H. Qed.
Lemma at_some1 m a : (a < length (vecs m))%nat -> nth_error (vecs m) a = Some (vec_at m a).
Proof. intros H. unfold vec_at. apply nth_error_nth'. exact H. Qed.

(** ** Construction *)
Lemma init_refs m l r a z fs : (l < length (mats m))%nat -> (r < length (mats m))%nat -> (a < length (vecs m))%nat -> (z < length (vecs m))%nat ->
  init_set l r (VRef a) (VRef z) fs m =
  (if Nat.eqb (length (rows (mat_at m l))) (length (rows (mat_at m r))) && Nat.eqb (length (vec_at m a)) (length (vec_at m z)) && Nat.eqb (length (vec_at m a)) (length (rows (mat_at m l)))
   then Ok (HSet l r a z fs (length (vec_at m a)) (cols (mat_at m l))) else Err AssertionError, m).
Proof.
  intros L1 L2 L3 L4. unfold init_set. rewrite (bind_ok _ _ _ _ _ (get_mat_ok _ _ _ (at_some2 m l L1))), (bind_ok _ _ _ _ _ (get_mat_ok _ _ _ (at_some2 m r L2))).
  unfold assert_. destruct (Nat.eqb (length (rows (mat_at m l))) (length (rows (mat_at m r)))); [|reflexivity]. erewrite (bind_ok (hlift (Ok tt))) by reflexivity. cbn [andb vec_1d].
  assert (V : forall b, (b < length (vecs m))%nat -> (let$ _ := get_vec b in hret b) m = (Ok b, m)) by (intros b B; rewrite (bind_ok _ _ _ _ _ (get_vec_ok _ _ _ (at_some1 m b B))); reflexivity).
  rewrite (bind_ok _ _ _ _ _ (V a L3)), (bind_ok _ _ _ _ _ (V z L4)), (bind_ok _ _ _ _ _ (get_vec_ok _ _ _ (at_some1 m a L3))), (bind_ok _ _ _ _ _ (get_vec_ok _ _ _ (at_some1 m z L4))).
  destruct (Nat.eqb (length (vec_at m a)) (length (vec_at m z))); [|reflexivity]. erewrite (bind_ok (hlift (Ok tt))) by reflexivity. cbn [andb].
  destruct (Nat.eqb (length (vec_at m a)) (length (rows (mat_at m l)))); reflexivity.
Qed.
Lemma init_same m l r a z fs : hrirs_init (mat_at m l) (mat_at m r) (arr1 (vec_at m a)) (arr1 (vec_at m z)) fs =
  if Nat.eqb (length (rows (mat_at m l))) (length (rows (mat_at m r))) && Nat.eqb (length (vec_at m a)) (length (vec_at m z)) && Nat.eqb (length (vec_at m a)) (length (rows (mat_at m l)))
  then Ok (Hrirs (rows (mat_at m l)) (rows (mat_at m r)) (vec_at m a) (vec_at m z) fs (length (vec_at m a)) (cols (mat_at m l))) else Err AssertionError.
Proof.
  destruct (init_value (mat_at m l) (mat_at m r) (vec_at m a) (vec_at m z) fs) as (A & B).
  destruct (Nat.eqb_spec (length (rows (mat_at m l))) (length (rows (mat_at m r)))); cbn [andb]; [|apply B; tauto].
  destruct (Nat.eqb_spec (length (vec_at m a)) (length (vec_at m z))); cbn [andb]; [|apply B; tauto].
  destruct (Nat.eqb_spec (length (vec_at m a)) (length (rows (mat_at m l)))); [apply A; assumption|apply B; tauto].
Qed.
Lemma f_init m l r a z fs : reached m -> (l < length (mats m))%nat -> (r < length (mats m))%nat -> (a < length (vecs m))%nat -> (z < length (vecs m))%nat ->
  let m' := snd (hstep (HInit l r (VRef a) (VRef z) fs) m) in
  match hrirs_init (mat_at m l) (mat_at m r) (arr1 (vec_at m a)) (arr1 (vec_at m z)) fs with
  | Ok h => fst (hstep (HInit l r (VRef a) (VRef z) fs) m) = Ok [length (sets m)] /\ content m' (length (sets m)) = Some h /\ mats m' = mats m /\ vecs m' = vecs m /\
            ear_array m' (length (sets m)) false l /\ ear_array m' (length (sets m)) true r
  | Err e => fst (hstep (HInit l r (VRef a) (VRef z) fs) m) = Err e /\ m' = m
  end.
Proof.
  intros RE L1 L2 L3 L4 m'. subst m'. rewrite init_same. cbn [hstep]. pose proof (init_refs m l r a z fs L1 L2 L3 L4) as I.
  destruct (Nat.eqb (length (rows (mat_at m l))) (length (rows (mat_at m r))) && Nat.eqb (length (vec_at m a)) (length (vec_at m z)) && Nat.eqb (length (vec_at m a)) (length (rows (mat_at m l)))).
  - rewrite (bind_ok _ _ _ _ _ I). unfold hbind, new_set, hret. cbn [fst snd mats vecs sets].
    assert (E : nth_error (sets (HMem (mats m) (vecs m) (sets m ++ [HSet l r a z fs (length (vec_at m a)) (cols (mat_at m l))]))) (length (sets m)) = Some (HSet l r a z fs (length (vec_at m a)) (cols (mat_at m l)))) by (cbn [sets]; rewrite nth_error_app2 by lia; rewrite Nat.sub_diag; reflexivity).
    split; [reflexivity|]. split; [rewrite (content_at _ _ _ E); reflexivity|]. split; [reflexivity|]. split; [reflexivity|]. split; eexists; (split; [exact E|reflexivity]).
  - rewrite (bind_err _ _ _ _ _ I). split; reflexivity.
Qed.
(** ** Writes are seen by every holder *)
Lemma poked_row x i j v : (i < length x)%nat -> (j < length (nth i x []))%nat -> poked x i j v (upd x i (upd (nth i x []) j v)).
Proof.
  intros I J. split; [apply length_upd|]. split.
  - intros k. destruct (Nat.eq_dec i k) as [<-|N]; [rewrite nth_upd_same by exact I; apply length_upd|rewrite nth_upd_other by exact N; reflexivity].
  - intros k n. destruct (Nat.eqb_spec k i) as [->|N]; cbn [andb]; [|rewrite nth_upd_other by congruence; reflexivity]. rewrite nth_upd_same by exact I. destruct (Nat.eqb_spec n j) as [->|N]; [apply nth_upd_same, J|apply nth_upd_other; congruence].
Qed.
Lemma f_write m a i j v : reached m -> (a < length (mats m))%nat -> (i < length (rows (mat_at m a)))%nat -> (j < cols (mat_at m a))%nat ->
  let m' := snd (hstep (HPut2 a i j v) m) in
  fst (hstep (HPut2 a i j v) m) = Ok [] /\ vecs m' = vecs m /\ sets m' = sets m /\
  forall o h, content m o = Some h -> exists h', content m' o = Some h' /\ h_azi h' = h_azi h /\ h_zen h' = h_zen h /\
    forall ear, (ear_array m o ear a -> poked (ear_of h ear) i j v (ear_of h' ear)) /\ (~ ear_array m o ear a -> ear_of h' ear = ear_of h ear).
Proof.
  intros RE LA LI LJ m'. pose proof (okmem_reached m RE) as OK. pose proof (at_some2 m a LA) as EA. pose proof (okmem_mat m a _ OK EA) as W.
  assert (EQ : hstep (HPut2 a i j v) m = (Ok [], HMem (upd (mats m) a (Arr2 (upd (rows (mat_at m a)) i (upd (nth i (rows (mat_at m a)) []) j v)) (cols (mat_at m a)))) (vecs m) (sets m))).
  { cbn [hstep]. unfold put_mat. unfold hbind, get_mat. rewrite EA. rewrite (proj2 (Nat.ltb_lt i _) LI), (proj2 (Nat.ltb_lt j _) LJ). reflexivity. }
  assert (HJ : (j < length (nth i (rows (mat_at m a)) []))%nat). { unfold arr2_wf in W. rewrite Forall_forall in W. rewrite (W (nth i (rows (mat_at m a)) [])); [exact LJ|apply nth_In, LI]. }
  subst m'. rewrite EQ. cbn [fst snd vecs sets]. do 3 (split; [reflexivity|]). intros o h CH. destruct (content_some _ _ _ CH) as (s & E & ->).
  eexists. split; [apply content_at; cbn [sets]; exact E|]. cbn [h_azi h_zen]. split; [reflexivity|]. split; [reflexivity|]. intros ear.
  assert (P : forall b, ((b = a) -> poked (rows (mat_at m b)) i j v (rows (mat_at (HMem (upd (mats m) a (Arr2 (upd (rows (mat_at m a)) i (upd (nth i (rows (mat_at m a)) []) j v)) (cols (mat_at m a)))) (vecs m) (sets m)) b))) /\
     (b <> a -> rows (mat_at (HMem (upd (mats m) a (Arr2 (upd (rows (mat_at m a)) i (upd (nth i (rows (mat_at m a)) []) j v)) (cols (mat_at m a)))) (vecs m) (sets m)) b) = rows (mat_at m b))).
  { intros b. rewrite (mat_put m a _ _ b _ _ EA). destruct (Nat.eqb_spec b a) as [->|N]; split; intros H; try contradiction; [cbn [rows]; apply poked_row; assumption|reflexivity]. }
  split.
  - intros (t & ET & Q). rewrite E in ET. injection ET as <-. destruct ear; cbn [ear_of h_left h_right]; apply P, Q.
  - intros N. assert (Q : (if ear then s_right s else s_left s) <> a) by (intros Q; apply N; exists s; split; [exact E|exact Q]). destruct ear; cbn [ear_of h_left h_right]; apply P, Q.
Qed.
(** ** h[k] is the response itself *)
Lemma index_seq n k : (- Z.of_nat n <= k < Z.of_nat n)%Z -> index (seq 0 n) k = Ok (Z.to_nat (if (k <? 0)%Z then k + Z.of_nat n else k)).
Proof.
  intros H. rewrite (index_ok _ _ 0%nat) by (rewrite seq_length; exact H). rewrite seq_length. f_equal. rewrite seq_nth; [reflexivity|]. destruct (Z.ltb_spec k 0); lia.
Qed.
Lemma index_seq_err n k : ~ (- Z.of_nat n <= k < Z.of_nat n)%Z -> index (seq 0 n) k = Err IndexError.
Proof.
  intros H. unfold index. rewrite seq_length. destruct (Z.ltb_spec k 0); destruct (Z.leb_spec 0 k) as [Q|Q]; cbn [andb]; try reflexivity; try lia.
  - destruct (Z.leb_spec 0 (k + Z.of_nat n)); cbn [andb]; [|reflexivity]. destruct (Z.ltb_spec (k + Z.of_nat n) (Z.of_nat n)); [lia|reflexivity].
  - destruct (Z.ltb_spec k (Z.of_nat n)); [lia|reflexivity].
Qed.
Lemma f_row m o ear a k j v h : reached m -> content m o = Some h -> ear_array m o ear a ->
  (forall i, (i < num_grid_points h)%nat -> (k = Z.of_nat i \/ k = Z.of_nat i - Z.of_nat (num_grid_points h))%Z -> hstep (HRow o ear k j v) m = hstep (HPut2 a i j v) m) /\
  (~ (- Z.of_nat (num_grid_points h) <= k < Z.of_nat (num_grid_points h))%Z -> hstep (HRow o ear k j v) m = (Err IndexError, m)).
Proof.
  intros RE CH (t & ET & EA). destruct (content_some _ _ _ CH) as (s & E & ->). rewrite E in ET. injection ET as <-. destruct (okmem_at m o s (okmem_reached m RE) E) as (L1 & L2 & _ & _ & G1 & G2 & _). cbn [num_grid_points].
  assert (RW : hstep (HRow o ear k j v) m = (let$ i := hlift (row_at (mat_at m (s_left s)) k) in let$ i' := hlift (row_at (mat_at m (s_right s)) k) in let$ _ := (if ear then put_mat (s_right s) i' j v else put_mat (s_left s) i j v) in hret []) m).
  { cbn [hstep]. unfold put_row. unfold hbind at 1. rewrite (bind_ok _ _ _ _ _ (get_set_ok _ _ _ E)), (bind_ok _ _ _ _ _ (get_mat_ok _ _ _ (at_some2 m _ L1))), (bind_ok _ _ _ _ _ (get_mat_ok _ _ _ (at_some2 m _ L2))).
    unfold hbind, hlift. destruct (row_at (mat_at m (s_left s)) k); [|reflexivity]. destruct (row_at (mat_at m (s_right s)) k); reflexivity. }
  rewrite RW. unfold row_at. rewrite G1, G2. split.
  - intros i LI KI. assert (KR : (- Z.of_nat (s_grid s) <= k < Z.of_nat (s_grid s))%Z) by lia. rewrite (index_seq _ _ KR).
    replace (Z.to_nat (if (k <? 0)%Z then (k + Z.of_nat (s_grid s))%Z else k)) with i by (destruct (Z.ltb_spec k 0); lia).
    erewrite (bind_ok (hlift (Ok i))) by reflexivity. erewrite (bind_ok (hlift (Ok i))) by reflexivity. cbn [hstep]. destruct ear; rewrite EA; reflexivity.
  - intros N. rewrite (index_seq_err _ _ N). reflexivity.
Qed.
(** ** update_hrirs *)
Lemma f_update m o l r h : reached m -> content m o = Some h -> (l < length (mats m))%nat -> (r < length (mats m))%nat ->
  let m' := snd (hstep (HUpdate o l r) m) in
  content m' o = Some (fst (update_hrirs h (mat_at m l) (mat_at m r))) /\ mats m' = mats m /\ vecs m' = vecs m /\ (forall p, p <> o -> content m' p = content m p) /\
  match snd (update_hrirs h (mat_at m l) (mat_at m r)) with
  | Ok _ => fst (hstep (HUpdate o l r) m) = Ok [] /\ ear_array m' o false l /\ ear_array m' o true r
  | Err e => fst (hstep (HUpdate o l r) m) = Err e /\ m' = m
  end.
Proof.
  intros RE CH L1 L2 m'. subst m'. destruct (content_some _ _ _ CH) as (s & E & EH). destruct (okmem_at m o s (okmem_reached m RE) E) as (_ & _ & L3 & L4 & _ & _ & G3 & G4).
  unfold update_hrirs. rewrite EH. cbn [h_azi h_zen h_fs]. rewrite init_same. pose proof (init_refs m l r (s_azi s) (s_zen s) (s_fs s) L1 L2 L3 L4) as I.
  destruct (Nat.eqb (length (rows (mat_at m l))) (length (rows (mat_at m r))) && Nat.eqb (length (vec_at m (s_azi s))) (length (vec_at m (s_zen s))) && Nat.eqb (length (vec_at m (s_azi s))) (length (rows (mat_at m l)))) eqn:B.
  - set (t := HSet l r (s_azi s) (s_zen s) (s_fs s) (length (vec_at m (s_azi s))) (cols (mat_at m l))).
    assert (EQ : hstep (HUpdate o l r) m = (Ok [], HMem (mats m) (vecs m) (upd (sets m) o t))).
    { cbn [hstep]. unfold update_set, hbind, get_set. rewrite E. rewrite I. reflexivity. }
    rewrite EQ. cbn [fst snd mats vecs].
    assert (ET : nth_error (sets (HMem (mats m) (vecs m) (upd (sets m) o t))) o = Some t) by (cbn [sets]; apply (nth_error_upd_eq _ _ _ _ E)).
    split; [rewrite (content_at _ _ _ ET); reflexivity|]. split; [reflexivity|]. split; [reflexivity|]. split; [intros p NP; unfold content; cbn [sets]; rewrite nth_error_upd_ne by congruence; reflexivity|].
    split; [reflexivity|]. split; eexists; (split; [exact ET|reflexivity]).
  - assert (EQ : hstep (HUpdate o l r) m = (Err AssertionError, m)).
    { cbn [hstep]. unfold update_set, hbind, get_set. rewrite E. rewrite I. reflexivity. }
    rewrite EQ. cbn [fst snd]. rewrite CH, EH. repeat split; reflexivity.
Qed.
(** ** apply_ctf_eq *)
Lemma f_eq pinv cond minph m o t mode h : reached m -> content m o = Some h -> (t < length (vecs m))%nat -> rectangular h ->
  let m' := snd (hstep (HEq o t mode) m) in
  match apply_ctf_eq pinv cond minph h (Some (vec_at m t)) mode with
  | Ok (Some h') => fst (hstep (HEq o t mode) m) = Ok [] /\ content m' o = Some h' /\ (forall ear a, ear_array m' o ear a -> (length (mats m) <= a)%nat)
  | Ok None => False
  | Err e => fst (hstep (HEq o t mode) m) = Err e /\ m' = m
  end.
Proof.
  intros RE CH LT RC m'. subst m'. pose proof (okmem_reached m RE) as OK. destruct (content_some _ _ _ CH) as (s & E & ->). destruct (okmem_at m o s OK E) as (L1 & L2 & L3 & L4 & G1 & G2 & G3 & G4).
  destruct RC as (R1 & R2 & R3 & R4 & R5). cbn [h_left h_right h_taps] in *. pose proof (okmem_mat m _ _ OK (at_some2 m _ L1)) as WL. pose proof (okmem_mat m _ _ OK (at_some2 m _ L2)) as WR.
  assert (CL : cols (mat_at m (s_left s)) = s_taps s). { destruct (rows (mat_at m (s_left s))) as [|x xs] eqn:RX; [cbn in R1; lia|]. unfold arr2_wf in WL. rewrite RX in WL. inversion WL as [|? ? A _]; subst. inversion R4 as [|? ? B _]; subst. congruence. }
  assert (CR : cols (mat_at m (s_right s)) = s_taps s). { destruct (rows (mat_at m (s_right s))) as [|x xs] eqn:RX; [cbn in R2; lia|]. unfold arr2_wf in WR. rewrite RX in WR. inversion WR as [|? ? A _]; subst. inversion R5 as [|? ? B _]; subst. congruence. }
  assert (ST : forall q M, eq_set o t mode m = (q, M) -> hstep (HEq o t mode) m = (match q with Ok _ => Ok [] | Err e => Err e end, M)) by (intros q M Q; cbn [hstep]; unfold hbind; rewrite Q; destruct q; reflexivity).
  unfold apply_ctf_eq. cbn [bind h_left h_right h_taps h_azi h_zen h_fs num_grid_points].
  destruct (eq_cases m o s t (vec_at m t) mode OK E (at_some1 m t LT)) as [(e & C & Q)|[(x & e & CX & CY & Q)|(x & y & CX & CY & Q)]]; rewrite (ST _ _ Q); cbn [fst snd].
  - unfold conv_mat in C. rewrite CL in C. destruct (conv_rows (rows (mat_at m (s_left s))) (s_taps s) (vec_at m t) mode) as [l|e']; [discriminate C|]. cbn [bind] in *. injection C as ->. split; reflexivity.
  - exfalso. destruct (conv_shape _ (mat_at m (s_right s)) _ _ _ CX WL WR) as (y & Y & _); [lia|lia|]. congruence.
  - unfold conv_mat in CX, CY. rewrite CL in CX. rewrite CR in CY. destruct (conv_rows (rows (mat_at m (s_left s))) (s_taps s) (vec_at m t) mode) as [l|e']; [|discriminate CX]. destruct (conv_rows (rows (mat_at m (s_right s))) (s_taps s) (vec_at m t) mode) as [r|e']; [|discriminate CY].
    cbn [bind] in *. injection CX as <-. injection CY as <-. split; [reflexivity|].
    match goal with |- content ?M o = _ /\ _ => assert (ET : nth_error (sets M) o = Some (HSet (length (mats m)) (length (mats m) + 1) (s_azi s) (s_zen s) (s_fs s) (s_grid s) (length (nth 0 l [])))) by (cbn [sets]; apply (nth_error_upd_eq _ _ _ _ E)) end.
    split.
    + rewrite (content_at _ _ _ ET). cbn [s_left s_right s_azi s_zen s_fs s_grid s_taps]. do 2 f_equal; unfold mat_at, vec_at; cbn [mats vecs].
      * rewrite app_nth2 by lia. rewrite Nat.sub_diag. reflexivity.
      * rewrite app_nth2 by lia. replace (length (mats m) + 1 - length (mats m))%nat with 1%nat by lia. reflexivity.
    + intros ear a (u & EU & A). rewrite ET in EU. injection EU as <-. cbn [s_left s_right] in A. destruct ear; lia.
Qed.
(** no array changes, nor any other set, whether it succeeds or not *)
Lemma f_eq_pure m o t mode : reached m -> let m' := snd (hstep (HEq o t mode) m) in
  (forall a, (a < length (mats m))%nat -> mat_at m' a = mat_at m a) /\ (forall a, (a < length (vecs m))%nat -> vec_at m' a = vec_at m a) /\ forall p, p <> o -> content m' p = content m p.
Proof.
  intros RE m'. subst m'. pose proof (okmem_reached m RE) as OK. split; [|split].
  - intros a LA. destruct (step_eff m (HEq o t mode) OK) as [xm xv W|b x x' H EX R C W|b x x' H EX L|xm xv u MK W K S2 S1 TT|xm xv p u CH W LO K S2 S1 TT]; try contradiction.
    + apply mat_ext, LA.
    + destruct H as (i & v & H). discriminate H.
    + unfold mat_at. cbn [mats]. apply app_nth1, LA.
  - intros a LA. destruct (step_eff m (HEq o t mode) OK) as [xm xv W|b x x' H EX R C W|b x x' H EX L|xm xv u MK W K S2 S1 TT|xm xv p u CH W LO K S2 S1 TT]; try contradiction.
    + apply vec_ext, LA.
    + destruct H as (i & v & H). discriminate H.
    + unfold vec_at. cbn [vecs]. apply app_nth1, LA.
  - intros p NP. destruct (nth_error (sets m) p) as [s|] eqn:E; [apply (frame_step m (HEq o t mode) p s OK E); cbn [spares]; congruence|].
    assert (N : nth_error (sets (snd (hstep (HEq o t mode) m))) p = None).
    { destruct (step_eff m (HEq o t mode) OK) as [xm xv W|b x x' H EX R C W|b x x' H EX L|xm xv u MK W K S2 S1 TT|xm xv q u CH W LO K S2 S1 TT]; try contradiction; cbn [sets ext]; try exact E. apply nth_error_None. rewrite length_upd. apply nth_error_None, E. }
    unfold content. rewrite N, E. reflexivity.
Qed.
(** ** copy *)
Lemma f_copy m o h : reached m -> content m o = Some h ->
  let m' := snd (hstep (HCopy o) m) in let q := length (sets m) in
  fst (hstep (HCopy o) m) = Ok [q] /\ content m' q = Some h /\ alone m' q /\ (forall p, (p < q)%nat -> content m' p = content m p) /\
  (forall a, holds2 m' q a -> (length (mats m) <= a)%nat) /\ (forall a, holds1 m' q a -> (length (vecs m) <= a)%nat) /\
  ((exists a, ear_array m' q false a /\ ear_array m' q true a) <-> exists a, ear_array m o false a /\ ear_array m o true a).
Proof.
  intros RE CH m' q. subst m' q. pose proof (okmem_reached m RE) as OK. destruct (content_some _ _ _ CH) as (s & E & ->).
  destruct (copy_ok m o s OK E) as (xm & xv & t & C & W & F1 & F2 & F3 & F4 & F5 & F6 & F7 & F8 & F9 & F10 & F11 & F12). assert (ST : hstep (HCopy o) m = (Ok [length (sets m)], HMem (mats m ++ xm) (vecs m ++ xv) (sets m ++ [t]))) by (cbn [hstep]; unfold hbind; rewrite C; reflexivity).
  rewrite ST. cbn [fst snd]. set (M := HMem (mats m ++ xm) (vecs m ++ xv) (sets m ++ [t])).
  assert (ET : nth_error (sets M) (length (sets m)) = Some t) by (subst M; cbn [sets]; rewrite nth_error_app2 by lia; rewrite Nat.sub_diag; reflexivity).
  assert (OLD : forall p u, p <> length (sets m) -> nth_error (sets M) p = Some u -> nth_error (sets m) p = Some u).
  { intros p u NP EU. subst M. cbn [sets] in EU. destruct (Nat.lt_ge_cases p (length (sets m))) as [L|L]; [rewrite nth_error_app1 in EU by exact L; exact EU|]. rewrite nth_error_app2 in EU by exact L. destruct (p - length (sets m))%nat as [|k] eqn:K; [lia|]. destruct k; discriminate EU. }
  split; [reflexivity|]. split; [rewrite (content_at _ _ _ ET); change (mat_at M) with (mat_at (ext m xm xv)); change (vec_at M) with (vec_at (ext m xm xv)); rewrite F8, F9, F10, F11, F1, F2, F3; reflexivity|].
  assert (A2 : forall a, holds2 M (length (sets m)) a -> (length (mats m) <= a)%nat) by (intros a (u & EU & Q); rewrite ET in EU; injection EU as <-; destruct Q as [<-|<-]; lia).
  assert (A1 : forall a, holds1 M (length (sets m)) a -> (length (vecs m) <= a)%nat) by (intros a (u & EU & Q); rewrite ET in EU; injection EU as <-; destruct Q as [<-|<-]; lia).
  split; [|split; [|split; [exact A2|split; [exact A1|]]]].
  - intros p a NP. split; intros (A & B).
    + assert (B' : holds2 m p a) by (destruct B as (u & EU & Q); exists u; split; [apply OLD; assumption|exact Q]). pose proof (holds2_lt m p a OK B'). pose proof (A2 a A). lia.
    + assert (B' : holds1 m p a) by (destruct B as (u & EU & Q); exists u; split; [apply OLD; assumption|exact Q]). pose proof (holds1_lt m p a OK B'). pose proof (A1 a A). lia.
  - intros p LP. destruct (lt_some _ _ LP) as (u & EU). pose proof (frame_step m (HCopy o) p u OK EU I) as (_ & Q). rewrite ST in Q. exact Q.
  - split; intros (a & (u & EU & A) & (u' & EU' & A')).
    + rewrite ET in EU, EU'. injection EU as <-. injection EU' as <-. exists (s_left s). split; exists s; (split; [exact E|]); [reflexivity|]. symmetry. apply F12. congruence.
    + rewrite E in EU, EU'. injection EU as <-. injection EU' as <-. exists (s_left t). split; exists t; (split; [exact ET|]); [reflexivity|]. symmetry. apply F12. congruence.
Qed.
(** whatever a program does that names neither the copy nor its arrays, and whatever it does to the copy alone *)
Lemma f_independent m o h : reached m -> content m o = Some h -> let m' := snd (hstep (HCopy o) m) in let q := length (sets m) in
  (forall cs, Forall (foreign m' q) cs -> content (hrun m' cs) q = Some h) /\ (forall cs p, (p < q)%nat -> all_keep_to m' cs q -> content (hrun m' cs) p = content m p).
Proof.
  intros RE CH m' q. destruct (f_copy m o h RE CH) as (_ & C & AL & OLD & _). fold m' q in C, AL, OLD. pose proof (reached_step m (HCopy o) RE : reached m') as RM.
  assert (LQ : (q < length (sets m'))%nat) by (destruct (content_some _ _ _ C) as (t & ET & _); apply (some_lt _ _ _ ET)).
  split.
  - intros cs F. rewrite <- C. apply private; assumption.
  - intros cs p LP K. rewrite <- (OLD p LP). apply (harmless cs m' q p); try assumption; lia.
Qed.
(** ** nearest_hrirs hands out copies *)
Lemma f_near m o azi zen h : reached m -> content m o = Some h -> let m' := snd (hstep (HNear o azi zen) m) in
  mats m' = mats m /\ sets m' = sets m /\ (forall p, content m' p = content m p) /\
  match nearest_hrirs h azi zen with
  | Ok (l, r) => exists a b, fst (hstep (HNear o azi zen) m) = Ok [a; b] /\ vec_at m' a = l /\ vec_at m' b = r /\ a <> b /\ (length (vecs m) <= a)%nat /\ (length (vecs m) <= b)%nat /\ forall p, ~ holds1 m' p a /\ ~ holds1 m' p b
  | Err e => fst (hstep (HNear o azi zen) m) = Err e /\ m' = m
  end.
Proof.
  intros RE CH m'. subst m'. pose proof (okmem_reached m RE) as OK. destruct (content_some _ _ _ CH) as (s & E & EH). destruct (okmem_at m o s OK E) as (L1 & L2 & L3 & L4 & _).
  assert (RW : hstep (HNear o azi zen) m = (let$ q := hlift (nearest_hrirs h azi zen) in let$ a := new_vec (fst q) in let$ b := new_vec (snd q) in hret [a; b]) m).
  { cbn [hstep]. unfold nearest_set. unfold hbind at 1. rewrite (bind_ok _ _ _ _ _ (get_set_ok _ _ _ E)), (bind_ok _ _ _ _ _ (get_mat_ok _ _ _ (at_some2 m _ L1))), (bind_ok _ _ _ _ _ (get_mat_ok _ _ _ (at_some2 m _ L2))), (bind_ok _ _ _ _ _ (get_vec_ok _ _ _ (at_some1 m _ L3))), (bind_ok _ _ _ _ _ (get_vec_ok _ _ _ (at_some1 m _ L4))).
    rewrite <- EH. unfold hbind, hlift. destruct (nearest_hrirs h azi zen); reflexivity. }
  rewrite RW. destruct (nearest_hrirs h azi zen) as [[l r]|e].
  - erewrite (bind_ok (hlift (Ok (l, r)))) by reflexivity. cbn [fst snd]. rewrite (bind_ok _ _ _ _ _ (new_vec_ext l m)), (bind_ok _ _ _ _ _ (new_vec_ext r _)), ext_ext. cbn [app]. unfold hret. cbn [fst snd].
    assert (X : forall p, content (ext m [] [l; r]) p = content m p).
    { intros p. destruct (nth_error (sets m) p) as [u|] eqn:EU; [|unfold content, ext; cbn [sets]; rewrite EU; reflexivity]. destruct (okmem_at m p u OK EU) as (K1 & K2 & K3 & K4 & _). apply (content_eq m _ p u); [exact EU|exact EU| | | |]; first [apply mat_ext; assumption|apply vec_ext; assumption]. }
    split; [unfold ext; cbn [mats]; apply app_nil_r|]. split; [reflexivity|]. split; [exact X|]. exists (length (vecs m)), (length (vecs (ext m [] [l]))).
    assert (LB : length (vecs (ext m [] [l])) = (length (vecs m) + 1)%nat) by (unfold ext; cbn [vecs]; apply app_length). rewrite LB. split; [reflexivity|].
    split; [rewrite <- (Nat.add_0_r (length (vecs m))), vec_new; reflexivity|]. split; [rewrite vec_new; reflexivity|]. split; [lia|]. split; [lia|]. split; [lia|].
    intros p. assert (N : forall b, holds1 (ext m [] [l; r]) p b -> (b < length (vecs m))%nat) by (intros b (u & EU & Q); apply (holds1_lt m p b OK); exists u; split; assumption). split; intros Q; apply N in Q; lia.
  - erewrite (bind_err (hlift (Err e))) by reflexivity. cbn [fst snd]. repeat split; reflexivity.
Qed.
(** ** Examples and counterexamples *)
Definition ex_prog : list hcmd := [HArr2 (Arr2 [[1; 2]; [3; 4]] 2); HArr2 (Arr2 [[5; 6]; [7; 8]] 2); HArr1 [0; 1]; HArr1 [1; 1]; HInit 0 1 (VRef 0) (VRef 1) 48000].
Lemma ex_set : reached (hrun hempty ex_prog) /\ content (hrun hempty ex_prog) 0 = Some (Hrirs [[1; 2]; [3; 4]] [[5; 6]; [7; 8]] [0; 1] [1; 1] 48000 2 2) /\ ear_array (hrun hempty ex_prog) 0 true 1 /\ all_same hempty ex_prog /\
  rectangular (Hrirs [[1; 2]; [3; 4]] [[5; 6]; [7; 8]] [0; 1] [1; 1] 48000 2 2).
Proof.
  split; [exists ex_prog; reflexivity|]. split; [reflexivity|]. split; [eexists; split; reflexivity|]. split; [cbn; repeat split; reflexivity|]. unfold rectangular. cbn. repeat split; try lia; repeat constructor.
Qed.
(** after a copy the caller, the first set and its arrays change; or the copy does *)
Lemma ex_apart : let m := snd (hstep (HCopy 0) (hrun hempty ex_prog)) in
  Forall (foreign m 1) [HRow 0 false 0 0 9; HPut2 1 1 1 9; HPut1 0 0 9; HUpdate 0 1 0; HEq 0 1 Full; HInit 0 0 (VRef 0) (VLst [1; 2]) 44100] /\
  all_keep_to m [HRow 1 true (-1) 1 9; HPut2 2 0 0 9; HPut1 3 1 9; HEq 1 0 Full; HRow 1 false 0 0 7] 1.
Proof.
  cbn zeta. assert (H2 : forall a, holds2 (snd (hstep (HCopy 0) (hrun hempty ex_prog))) 1 a -> (2 <= a)%nat) by (intros a (s & E & Q); injection E as <-; cbn in Q; lia).
  assert (H1 : forall a, holds1 (snd (hstep (HCopy 0) (hrun hempty ex_prog))) 1 a -> (2 <= a)%nat) by (intros a (s & E & Q); injection E as <-; cbn in Q; lia).
  split.
  - repeat (apply Forall_cons; [cbn [foreign not_vec]; repeat split; try lia; intros Q; try (apply H2 in Q); try (apply H1 in Q); lia|]). constructor.
  - cbn [all_keep_to keeps_to]. repeat split; try (eexists; split; [reflexivity|cbn; auto]).
Qed.
(** two sets made of the same arrays: what is written through one is heard in the other *)
Lemma f_shared_refuted : ~ (forall m o p ear k j v, reached m -> o <> p -> content (snd (hstep (HRow o ear k j v) m)) p = content m p).
Proof.
  intros H. specialize (H (hrun hempty (ex_prog ++ [HInit 0 1 (VRef 0) (VRef 1) 48000])) 0%nat 1%nat false 0%Z 0%nat 9 ltac:(eexists; reflexivity) ltac:(lia)). cbn in H. injection H as H. lra.
Qed.
Definition ex_uneven : list hcmd := [HArr2 (Arr2 [[1; 2; 3]; [4; 5; 6]] 3); HArr2 (Arr2 [[1]; [2]] 1); HArr1 [0; 1]; HArr1 [1; 1]; HArr1 [1; 0]; HInit 0 1 (VRef 0) (VRef 1) 48000].
Lemma uneven_err : hstep (HEq 0 2 Valid) (hrun hempty ex_uneven) =
  (Err ValueError, HMem [Arr2 [[1; 2; 3]; [4; 5; 6]] 3; Arr2 [[1]; [2]] 1; Arr2 (map (fun r => convolve_valid r [1; 0]) [[1; 2; 3]; [4; 5; 6]]) 2] [[0; 1]; [1; 1]; [1; 0]] [HSet 2 1 0 1 48000 2 3]).
Proof. reflexivity. Qed.
(** an equaliser that fails for the right ear has changed the left one *)
Lemma f_half_refuted : ~ (forall m o t mode e, reached m -> fst (hstep (HEq o t mode) m) = Err e -> content (snd (hstep (HEq o t mode) m)) o = content m o).
Proof.
  intros H. specialize (H (hrun hempty ex_uneven) 0%nat 2%nat Valid ValueError ltac:(eexists; reflexivity)). rewrite uneven_err in H. specialize (H eq_refl). apply (f_equal (fun c => match c with Some h => length (nth 0 (h_left h) []) | None => 0%nat end)) in H. cbn in H. lia.
Qed.
(** and the number of samples the set states is then that of neither ear *)
Lemma f_sized_refuted : ~ (forall cs o h, content (hrun hempty cs) o = Some h -> (forall x, In x (h_left h) -> length x = h_taps h)).
Proof.
  intros H. specialize (H (ex_uneven ++ [HEq 0 2 Valid]) 0%nat). unfold hrun in H. rewrite fold_left_app in H. cbn [fold_left] in H. change (fold_left (fun m c => snd (hstep c m)) ex_uneven hempty) with (hrun hempty ex_uneven) in H. rewrite uneven_err in H. cbn [snd] in H.
  specialize (H _ eq_refl (convolve_valid [1; 2; 3] [1; 0]) ltac:(left; reflexivity)). cbn in H. lia.
Qed.
(** the two ears of a set made of one array are one array, and so they are in its copy *)
Lemma f_one_array_refuted : ~ (forall m o h h' k j v, reached m -> content m o = Some h -> content (snd (hstep (HRow o false k j v) m)) o = Some h' -> h_right h' = h_right h).
Proof.
  intros H. specialize (H (snd (hstep (HCopy 0) (hrun hempty [HArr2 (Arr2 [[1; 2]; [3; 4]] 2); HArr1 [0; 1]; HArr1 [1; 1]; HInit 0 0 (VRef 0) (VRef 1) 48000]))) 1%nat _ _ 0%Z 0%nat 9 ltac:(apply reached_step; eexists; reflexivity) eq_refl eq_refl). cbn in H. injection H as H. lra.
Qed.
