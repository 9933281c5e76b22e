(** Proofs about HRIRs objects, levels, triangles and resample_signal. *)
From Coq Require Import Lra Lia.
From Verif Require Import Base BaseFacts M_utils S_utils P_utils X_utils M_sig S_sig P_sig X_sig M_process M_sph M_decoder P_parsa3 M_misc S_misc P_misc.
Open Scope R_scope.

(** * HRIRs *)
Theorem init_value l r azi zen fs :
  (length (rows l) = length (rows r) -> length azi = length zen -> length azi = length (rows l) ->
     hrirs_init l r (arr1 azi) (arr1 zen) fs = Ok (Hrirs (rows l) (rows r) azi zen fs (length azi) (cols l))) /\
  (~ (length (rows l) = length (rows r) /\ length azi = length zen /\ length azi = length (rows l)) ->
     hrirs_init l r (arr1 azi) (arr1 zen) fs = Err AssertionError).
Proof.
  unfold hrirs_init. rewrite !asarray_arr1. cbn [bind data arr1]. unfold assert_.
  destruct (Nat.eqb_spec (length (rows l)) (length (rows r))) as [E1|E1]; cbn [bind]; [|split; [lia|reflexivity]].
  destruct (Nat.eqb_spec (length azi) (length zen)) as [E2|E2]; cbn [bind]; [|split; [lia|reflexivity]].
  destruct (Nat.eqb_spec (length azi) (length (rows l))) as [E3|E3]; cbn [bind]; [|split; [lia|reflexivity]].
  split; [reflexivity|]. intros H. exfalso. auto.
Qed.
(** the message of the first assertion speaks of equal lengths; the ears may differ *)
Theorem unequal_ears : exists l r azi zen h, arr2_wf l /\ arr2_wf r /\ cols l <> cols r /\ hrirs_init l r (arr1 azi) (arr1 zen) 48000 = Ok h /\ hrirs_len h = cols l /\
  (forall k hl hr, hrirs_getitem h k = Ok (hl, hr) -> length hl <> length hr).
Proof.
  exists (Arr2 [[1; 2]; [3; 4]] 2), (Arr2 [[5]; [6]] 1), [0; PI], [0; 0]. eexists. split; [repeat constructor|]. split; [repeat constructor|]. split; [discriminate|]. split; [apply init_value; reflexivity|]. split; [reflexivity|].
  intros k hl hr. unfold hrirs_getitem. cbn [h_left h_right rows]. unfold index. cbn [length]. set (j := if (k <? 0)%Z then _ else k).
  destruct ((0 <=? j) && (j <? Z.of_nat 2))%Z eqn:E; [|discriminate]. assert (J : (j = 0 \/ j = 1)%Z) by (apply andb_prop in E; destruct E as [E1 E2]; apply Z.leb_le in E1; apply Z.ltb_lt in E2; lia). clearbody j.
  destruct J as [-> | ->]; cbn; intros [= <- <-]; discriminate.
Qed.
Lemma item_index {A} (l : list A) k : (forall x, item l k x <-> index l k = Ok x) /\ ((forall x, ~ item l k x) <-> index l k = Err IndexError).
Proof.
  assert (F : forall x, item l k x <-> index l k = Ok x).
  { intros x. unfold item, index. set (n := Z.of_nat (length l)). split.
    - intros (i & E & H). assert (Li : (i < length l)%nat) by (apply nth_error_Some; congruence).
      assert (J : (if (k <? 0)%Z then (k + n)%Z else k) = Z.of_nat i) by (destruct (Z.ltb_spec k 0); lia). rewrite J.
      replace ((0 <=? Z.of_nat i) && (Z.of_nat i <? n))%Z with true by (symmetry; apply andb_true_intro; split; [apply Z.leb_le; lia|apply Z.ltb_lt; unfold n; lia]). rewrite Nat2Z.id, E. reflexivity.
    - intros H. set (j := if (k <? 0)%Z then (k + n)%Z else k) in *. destruct ((0 <=? j) && (j <? n))%Z eqn:E; [|discriminate]. destruct (nth_error l (Z.to_nat j)) as [y|] eqn:E2; [|discriminate]. injection H as <-.
      exists (Z.to_nat j). split; auto. apply andb_prop in E; destruct E as [E1 E3]; apply Z.leb_le in E1; apply Z.ltb_lt in E3. unfold j in *. destruct (Z.ltb_spec k 0); lia. }
  split; auto. split.
  - intros H. destruct (index l k) as [x|e] eqn:E; [exfalso; apply (H x), F; auto|]. revert E. unfold index. set (j := if (k <? 0)%Z then _ else k). destruct ((0 <=? j) && _)%Z; [destruct (nth_error _ _)|]; intros [= <-]; reflexivity.
  - intros H x Hx. apply F in Hx. congruence.
Qed.
Theorem getitem_value h k : length (h_left h) = length (h_right h) ->
  (forall l r, hrirs_getitem h k = Ok (l, r) <-> item (h_left h) k l /\ item (h_right h) k r) /\
  ((- Z.of_nat (length (h_left h)) <= k < Z.of_nat (length (h_left h)))%Z -> exists l r, hrirs_getitem h k = Ok (l, r)) /\
  (~ (- Z.of_nat (length (h_left h)) <= k < Z.of_nat (length (h_left h)))%Z -> hrirs_getitem h k = Err IndexError).
Proof.
  intros L. unfold hrirs_getitem. split; [|split].
  - intros l r. rewrite (proj1 (item_index (h_left h) k)), (proj1 (item_index (h_right h) k)). destruct (index (h_left h) k) as [x|]; cbn [bind]; [|split; [discriminate|intros [? _]; discriminate]].
    destruct (index (h_right h) k) as [y|]; cbn [bind]; [|split; [discriminate|intros [_ ?]; discriminate]]. split; [intros [= <- <-]; auto|intros [[= <-] [= <-]]; reflexivity].
  - intros H. rewrite (index_ok (h_left h) k [] H), (index_ok (h_right h) k []) by (rewrite <- L; auto). cbn [bind]. eauto.
  - intros H. rewrite index_err by auto. reflexivity.
Qed.

Theorem update_value h l r : sound h ->
  (length (rows l) = num_grid_points h -> length (rows r) = num_grid_points h ->
     exists h', update_hrirs h l r = (h', Ok tt) /\ h_left h' = rows l /\ h_right h' = rows r /\ hrirs_len h' = cols l /\
       h_azi h' = h_azi h /\ h_zen h' = h_zen h /\ h_fs h' = h_fs h /\ num_grid_points h' = num_grid_points h /\ (forall azi zen, nearest_idx h' azi zen = nearest_idx h azi zen)) /\
  (~ (length (rows l) = num_grid_points h /\ length (rows r) = num_grid_points h) -> update_hrirs h l r = (h, Err AssertionError)).
Proof.
  intros (S1 & S2 & S3 & S4). unfold update_hrirs. destruct (init_value l r (h_azi h) (h_zen h) (h_fs h)) as [A B]. split.
  - intros H1 H2. rewrite A by lia. eexists. split; [reflexivity|]. cbn. repeat split; auto.
  - intros H. rewrite B; [reflexivity|]. intros (E1 & E2 & E3). apply H. lia.
Qed.
Theorem updates_value us : forall h, sound h ->
  let h' := fold_left (fun h u => fst (update_hrirs h (fst u) (snd u))) us h in
  sound h' /\ h_azi h' = h_azi h /\ h_zen h' = h_zen h /\ h_fs h' = h_fs h /\
  (h_left h', h_right h', hrirs_len h') = last_fitting (num_grid_points h) us (h_left h, h_right h, hrirs_len h).
Proof.
  induction us as [|[l r] us IH]; intros h S h'; [cbn in h'; subst h'; cbn; auto 10|].
  cbn [fold_left fst snd] in h'. cbn [last_fitting]. destruct (update_value h l r S) as [A B].
  destruct (Nat.eqb_spec (length (rows l)) (num_grid_points h)) as [E1|E1]; cbn [andb].
  - destruct (Nat.eqb_spec (length (rows r)) (num_grid_points h)) as [E2|E2]; cbn [andb].
    + destruct (A E1 E2) as (g & E & G1 & G2 & G3 & G4 & G5 & G6 & G7 & _). subst h'. rewrite E. cbn [fst]. destruct S as (S1 & S2 & S3 & S4).
      assert (Sg : sound g) by (repeat split; rewrite ?G1, ?G2, ?G4, ?G5, ?G7; lia). destruct (IH g Sg) as (I1 & I2 & I3 & I4 & I5). rewrite I2, I3, I4, I5, G1, G2, G3, G4, G5, G6, G7. auto 10.
    + subst h'. rewrite B by tauto. cbn [fst]. apply IH. auto.
  - subst h'. rewrite B by tauto. cbn [fst]. apply IH. auto.
Qed.

(** * nearest_idx for arrays *)
Lemma nearest_first h azi zen : sound h -> h_azi h <> [] -> exists k, nearest_idx h azi zen = Ok k /\ first_closest h azi zen k.
Proof.
  intros (S1 & S2 & S3 & S4) Hne. destruct (nearest_idx_spec h azi zen S1 Hne) as (k & ak & zk & K1 & K2 & K3 & K4). exists k. split; auto. exists ak, zk. auto.
Qed.
Lemma mapM_nearest h : sound h -> h_azi h <> [] -> forall ps, exists ks, mapM (fun p => nearest_idx h (fst p) (snd p)) ps = Ok ks /\ Forall2 (fun p k => first_closest h (fst p) (snd p) k) ps ks.
Proof.
  intros S Hne. induction ps as [|p ps IH]; [exists []; split; [reflexivity|constructor]|]. destruct (nearest_first h (fst p) (snd p) S Hne) as (k & E & F). destruct IH as (ks & E2 & F2).
  exists (k :: ks). cbn [mapM]. rewrite E. cbn [bind]. rewrite E2. split; [reflexivity|]. constructor; auto.
Qed.
Lemma squeeze_vec {A} n (l : list A) : squeeze (Nd [n] l) = Nd (if Nat.eqb n 1 then [] else [n]) l.
Proof. unfold squeeze. cbn [shape data filter]. destruct (Nat.eqb n 1); reflexivity. Qed.
Theorem nearest_all h : sound h -> h_azi h <> [] ->
  (forall azi zen, length azi = length zen -> exists k, nearest_idx_all h (arr1 azi) (arr1 zen) = Ok k /\
     shape k = (if Nat.eqb (length zen) 1 then [] else [length zen]) /\ Forall2 (fun p k => first_closest h (fst p) (snd p) k) (combine azi zen) (data k)) /\
  (forall azi zen, exists k, nearest_idx_all h (arr1 [azi]) (arr1 zen) = Ok k /\
     shape k = (if Nat.eqb (length zen) 1 then [] else [length zen]) /\ Forall2 (fun z k => first_closest h azi z k) zen (data k)) /\
  (forall azi zen, length azi <> length zen -> length azi <> 1%nat -> nearest_idx_all h (arr1 azi) (arr1 zen) = Err ValueError).
Proof.
  intros S Hne. unfold nearest_idx_all. split; [|split].
  - intros azi zen L. rewrite !asarray_arr1. cbn [bind data arr1]. rewrite L, Nat.eqb_refl. cbn [bind]. destruct (h_azi h) eqn:EA; [congruence|]. destruct (mapM_nearest h S ltac:(congruence) (combine azi zen)) as (ks & E & F). rewrite E. cbn [bind].
    eexists. split; [reflexivity|]. rewrite squeeze_vec. auto.
  - intros a zen. rewrite !asarray_arr1. cbn [bind data arr1].
    assert (E1 : (if Nat.eqb (length [a]) (length zen) then Ok [a] else Ok (repeat a (length zen))) = Ok (repeat a (length zen))) by (destruct zen as [|z [|z2 zen]]; reflexivity).
    cbn [length] in E1. cbn [length]. rewrite E1. cbn [bind]. destruct (h_azi h) eqn:EA; [congruence|].
    destruct (mapM_nearest h S ltac:(congruence) (combine (repeat a (length zen)) zen)) as (ks & E & F). rewrite E. cbn [bind]. eexists. split; [reflexivity|]. rewrite squeeze_vec. split; auto. cbn [data].
    clear E E1. revert ks F. induction zen as [|z zen IH]; intros ks F; cbn in F; inversion F; subst; constructor; auto.
  - intros azi zen L1 L2. rewrite !asarray_arr1. cbn [bind data arr1]. destruct (Nat.eqb_spec (length azi) (length zen)); [congruence|]. destruct azi as [|x [|y azi]]; try reflexivity. cbn in L2. congruence.
Qed.
Theorem nearest_all_empty h azi zen : h_azi h = [] -> length azi = length zen -> nearest_idx_all h (arr1 azi) (arr1 zen) = Err ValueError.
Proof. intros E L. unfold nearest_idx_all. rewrite !asarray_arr1. cbn [bind data arr1]. rewrite L, Nat.eqb_refl. cbn [bind]. rewrite E. reflexivity. Qed.
Lemma pick_ok (m : list (list R)) ks : (forall k, In k ks -> (k < length m)%nat) -> mapM (fun i => index m (Z.of_nat i)) ks = Ok (map (fun k => nth k m []) ks).
Proof. intros H. apply mapM_ok. intros k Hk. rewrite (index_ok m (Z.of_nat k) []) by (specialize (H k Hk); lia). destruct (Z.ltb_spec (Z.of_nat k) 0); [lia|]. rewrite Nat2Z.id. reflexivity. Qed.
Theorem nearest_hrirs_value h azi zen : sound h -> h_azi h <> [] -> length azi = length zen -> (forall x, In x (h_right h) -> length x = h_taps h) ->
  exists ks, Forall2 (fun p k => first_closest h (fst p) (snd p) k) (combine azi zen) ks /\
    nearest_hrirs_all h (arr1 azi) (arr1 zen) =
      Ok (Nd (if Nat.eqb (length zen) 1 then [h_taps h] else [length zen; h_taps h]) (concat (map (fun k => nth k (h_left h) []) ks)),
          Nd (if Nat.eqb (length zen) 1 then [h_taps h] else [length zen; h_taps h]) (concat (map (fun k => nth k (h_right h) []) ks))).
Proof.
  intros S Hne L W. destruct (nearest_all h S Hne) as [N _]. destruct (N azi zen L) as (k & E & Sh & F). exists (data k). split; auto. unfold nearest_hrirs_all. rewrite E. cbn [bind].
  assert (B : forall i, In i (data k) -> (i < length (h_azi h))%nat).
  { clear - F. induction F as [|p i ps is F1 F2 IH]; intros j; [intros []|]. intros [<-|Hj]; auto. destruct F1 as (ak & zk & E & _). apply nth_error_Some. congruence. }
  destruct S as (S1 & S2 & S3 & S4). rewrite !pick_ok by (intros i Hi; specialize (B i Hi); lia). cbn [bind]. rewrite Sh.
  assert (RT : match h_right h with x :: _ => length x | [] => 0%nat end = h_taps h).
  { destruct (h_right h) as [|x t] eqn:ER; [destruct (h_azi h); [congruence|cbn in S3; lia]|]. apply W. left; auto. }
  rewrite RT. destruct (Nat.eqb (length zen) 1); reflexivity.
Qed.
