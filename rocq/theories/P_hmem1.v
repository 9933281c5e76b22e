(** Sets of HRIRs in memory: what a command changes. *)
From Coq Require Import Lra Lia.
From Verif Require Import Base BaseFacts M_utils M_sig M_process M_parsa2 M_process2 M_misc M_hmem S_hmem P_sig P_dec11 P_dec13 P_parsa8.
Open Scope R_scope.

(** where the arrays of a new or changed set come from *)
Definition src2 (m : hmem) (c : hcmd) (a : nat) : Prop :=
  match c with
  | HInit l r _ _ _ => a = l \/ a = r
  | HUpdate _ l r => a = l \/ a = r
  | HEq p _ _ => holds2 m p a \/ (length (mats m) <= a)%nat
  | HCopy _ => (length (mats m) <= a)%nat
  | _ => False
  end.
Definition src1 (m : hmem) (c : hcmd) (a : nat) : Prop :=
  match c with
  | HInit _ _ x z _ => x = VRef a \/ z = VRef a \/ (length (vecs m) <= a)%nat
  | HUpdate p _ _ => holds1 m p a
  | HEq p _ _ => holds1 m p a
  | HCopy _ => (length (vecs m) <= a)%nat
  | _ => False
  end.
(** a set whose references exist, and whose counts agree *)
Definition okset (m : hmem) (s : hset) : Prop :=
  (s_left s < length (mats m))%nat /\ (s_right s < length (mats m))%nat /\ (s_azi s < length (vecs m))%nat /\ (s_zen s < length (vecs m))%nat /\
  length (rows (mat_at m (s_left s))) = s_grid s /\ length (rows (mat_at m (s_right s))) = s_grid s /\ length (vec_at m (s_azi s)) = s_grid s /\ length (vec_at m (s_zen s)) = s_grid s.
Definition okmem (m : hmem) : Prop := Forall arr2_wf (mats m) /\ Forall (okset m) (sets m).
(** the tap counts *)
Definition tapset (m : hmem) (s : hset) : Prop := cols (mat_at m (s_left s)) = s_taps s /\ cols (mat_at m (s_right s)) = s_taps s.
Definition writes2 (m : hmem) (c : hcmd) (a : nat) : Prop :=
  match c with
  | HPut2 b _ _ _ => b = a
  | HRow p e _ _ _ => exists s, nth_error (sets m) p = Some s /\ (if e then s_right s else s_left s) = a
  | _ => False
  end.
Definition changes (c : hcmd) (o : nat) : Prop := match c with HUpdate p _ _ => p = o | HEq p _ _ => p = o | _ => False end.
Definition makes (c : hcmd) : Prop := match c with HInit _ _ _ _ _ => True | HCopy _ => True | _ => False end.
Definition ext (m : hmem) (xm : list (arr2 R)) (xv : list (list R)) : hmem := HMem (mats m ++ xm) (vecs m ++ xv) (sets m).

Inductive eff (m : hmem) (c : hcmd) : hmem -> Prop :=
  | eff_none xm xv : Forall arr2_wf xm -> eff m c (ext m xm xv)
  | eff_put2 a x x' : writes2 m c a -> nth_error (mats m) a = Some x -> length (rows x') = length (rows x) -> cols x' = cols x -> (arr2_wf x -> arr2_wf x') ->
      eff m c (HMem (upd (mats m) a x') (vecs m) (sets m))
  | eff_put1 a x x' : (exists i v, c = HPut1 a i v) -> nth_error (vecs m) a = Some x -> length x' = length x -> eff m c (HMem (mats m) (upd (vecs m) a x') (sets m))
  | eff_new xm xv s : makes c -> Forall arr2_wf xm -> okset (ext m xm xv) s -> (forall a, s_left s = a \/ s_right s = a -> src2 m c a) -> (forall a, s_azi s = a \/ s_zen s = a -> src1 m c a) ->
      (same_taps m c -> Forall (tapset m) (sets m) -> tapset (ext m xm xv) s) ->
      eff m c (HMem (mats m ++ xm) (vecs m ++ xv) (sets m ++ [s]))
  | eff_set xm xv o s : changes c o -> Forall arr2_wf xm -> (o < length (sets m))%nat -> okset (ext m xm xv) s -> (forall a, s_left s = a \/ s_right s = a -> src2 m c a) -> (forall a, s_azi s = a \/ s_zen s = a -> src1 m c a) ->
      (same_taps m c -> Forall (tapset m) (sets m) -> tapset (ext m xm xv) s) ->
      eff m c (HMem (mats m ++ xm) (vecs m ++ xv) (upd (sets m) o s)).

Lemma ext0 m : ext m [] [] = m.
Proof. unfold ext. rewrite !app_nil_r. destruct m; reflexivity. Qed.
Lemma eff_same m c : eff m c m.
Proof. rewrite <- (ext0 m) at 2. apply eff_none. constructor. Qed.
Lemma some_lt {A} (l : list A) a x : nth_error l a = Some x -> (a < length l)%nat.
Proof. intros H. apply nth_error_Some. rewrite H. discriminate. Qed.
Lemma some_nth {A} (l : list A) a x d : nth_error l a = Some x -> nth a l d = x.
Proof. intros H. apply nth_error_nth, H. Qed.
Lemma wf_upd_row (x : arr2 R) i j v : arr2_wf x -> arr2_wf (Arr2 (upd (rows x) i (upd (nth i (rows x) []) j v)) (cols x)).
Proof.
  unfold arr2_wf. cbn [rows cols]. rewrite !Forall_forall. intros H r Hr. destruct (In_nth _ _ [] Hr) as (k & K & E). rewrite length_upd in K.
  destruct (Nat.eq_dec i k) as [->|N]; [rewrite nth_upd_same in E by exact K; rewrite <- E, length_upd; apply H, nth_In, K|].
  rewrite nth_upd_other in E by exact N. rewrite <- E. apply H, nth_In, K.
Qed.
Lemma put_mat_eff m c a i j v : writes2 m c a -> eff m c (snd (put_mat a i j v m)).
Proof.
  intros W. unfold put_mat, hbind, get_mat. destruct (nth_error (mats m) a) as [x|] eqn:E; [|apply eff_same].
  destruct (Nat.ltb i (length (rows x)) && Nat.ltb j (cols x)); [|apply eff_same]. cbn [snd]. apply (eff_put2 m c a x); cbn [rows cols]; try assumption; [apply length_upd|reflexivity|]. intros H. apply (wf_upd_row x i j v), H.
Qed.
Lemma put_mat_res m a i j v : snd (put_mat a i j v m) = snd ((let$ _ := put_mat a i j v in hret (@nil nat)) m).
Proof. unfold hbind at 1. destruct (put_mat a i j v m) as [[q|e] m']; reflexivity. Qed.
Lemma bind_snd {A B} (p : hprog A) (g : A -> hprog B) m : snd ((let$ x := p in g x) m) = match p m with (Ok a, m') => snd (g a m') | (Err _, m') => m' end.
Proof. unfold hbind. destruct (p m) as [[a|e] m']; reflexivity. Qed.
Lemma ret_snd {A B} (p : hprog A) (f : A -> B) m : snd ((let$ x := p in hret (f x)) m) = snd (p m).
Proof. rewrite bind_snd. destruct (p m) as [[a|e] m']; reflexivity. Qed.
Lemma mat_ext m xm xv a : (a < length (mats m))%nat -> mat_at (ext m xm xv) a = mat_at m a.
Proof. intros H. unfold mat_at, ext. cbn [mats]. apply app_nth1, H. Qed.
Lemma vec_ext m xm xv a : (a < length (vecs m))%nat -> vec_at (ext m xm xv) a = vec_at m a.
Proof. intros H. unfold vec_at, ext. cbn [vecs]. apply app_nth1, H. Qed.
Lemma ext_ext m xm xv ym yv : ext (ext m xm xv) ym yv = ext m (xm ++ ym) (xv ++ yv).
Proof. unfold ext. cbn [mats vecs sets]. rewrite !app_assoc. reflexivity. Qed.
Lemma new_vec_ext x m : new_vec x m = (Ok (length (vecs m)), ext m [] [x]).
Proof. unfold new_vec, ext. rewrite app_nil_r. reflexivity. Qed.
Lemma new_mat_ext x m : new_mat x m = (Ok (length (mats m)), ext m [x] []).
Proof. unfold new_mat, ext. rewrite app_nil_r. reflexivity. Qed.
Lemma vec_1d_ok x m q m' : vec_1d x m = (q, m') -> exists xv, m' = ext m [] xv /\ forall b, q = Ok b -> (b < length (vecs m'))%nat /\ (x = VRef b \/ (exists l, x = VLst l) /\ (length (vecs m) <= b)%nat).
Proof.
  destruct x as [a|l]; cbn [vec_1d].
  - unfold hbind, get_vec. destruct (nth_error (vecs m) a) eqn:E; intros H; injection H as <- <-; exists []; rewrite ext0; (split; [reflexivity|]); intros b B; [|discriminate]. injection B as <-. split; [apply (some_lt _ _ _ E)|left; reflexivity].
  - rewrite new_vec_ext. intros H; injection H as <- <-. exists [l]. split; [reflexivity|]. intros b B. injection B as <-. unfold ext. cbn [vecs]. rewrite app_length. cbn [length]. split; [lia|right; split; [exists l; reflexivity|lia]].
Qed.
Lemma init_ok l r a z fs m q m' : init_set l r a z fs m = (q, m') -> exists xv, m' = ext m [] xv /\ forall s, q = Ok s ->
  s_left s = l /\ s_right s = r /\ s_fs s = fs /\ s_taps s = cols (mat_at m l) /\ okset m' s /\ (forall b, s_azi s = b \/ s_zen s = b -> a = VRef b \/ z = VRef b \/ (exists l, a = VLst l \/ z = VLst l) /\ (length (vecs m) <= b)%nat).
Proof.
  unfold init_set. unfold hbind at 1. unfold get_mat at 1. destruct (nth_error (mats m) l) as [ml|] eqn:EL; [|intros H; injection H as <- <-; exists []; rewrite ext0; split; [reflexivity|discriminate]].
  unfold hbind at 1. unfold get_mat at 1. destruct (nth_error (mats m) r) as [mr|] eqn:ER; [|intros H; injection H as <- <-; exists []; rewrite ext0; split; [reflexivity|discriminate]].
  unfold hbind at 1. unfold hlift at 1, assert_. destruct (Nat.eqb_spec (length (rows ml)) (length (rows mr))) as [E1|E1]; [|intros H; injection H as <- <-; exists []; rewrite ext0; split; [reflexivity|discriminate]].
  unfold hbind at 1. destruct (vec_1d a m) as [qa m1] eqn:EA. destruct (vec_1d_ok _ _ _ _ EA) as (x1 & -> & HA). destruct qa as [la|e]; [|intros H; injection H as <- <-; exists x1; split; [reflexivity|discriminate]].
  unfold hbind at 1. destruct (vec_1d z (ext m [] x1)) as [qz m2] eqn:EZ. destruct (vec_1d_ok _ _ _ _ EZ) as (x2 & -> & HZ). rewrite ext_ext in *. cbn [app] in *. destruct qz as [lz|e]; [|intros H; injection H as <- <-; eexists; split; [reflexivity|discriminate]].
  destruct (HA la eq_refl) as (A1 & A2). destruct (HZ lz eq_refl) as (Z1 & Z2).
  unfold hbind at 1. unfold get_vec at 1. destruct (nth_error (vecs (ext m [] (x1 ++ x2))) la) as [va|] eqn:EVA; [|intros H; injection H as <- <-; eexists; split; [reflexivity|discriminate]].
  unfold hbind at 1. unfold get_vec at 1. destruct (nth_error (vecs (ext m [] (x1 ++ x2))) lz) as [vz|] eqn:EVZ; [|intros H; injection H as <- <-; eexists; split; [reflexivity|discriminate]].
  unfold hbind at 1. unfold hlift at 1. destruct (Nat.eqb_spec (length va) (length vz)) as [E2|E2]; [|intros H; injection H as <- <-; eexists; split; [reflexivity|discriminate]].
  unfold hbind at 1. unfold hlift at 1. destruct (Nat.eqb_spec (length va) (length (rows ml))) as [E3|E3]; [|intros H; injection H as <- <-; eexists; split; [reflexivity|discriminate]].
  intros H. injection H as <- <-. exists (x1 ++ x2). split; [reflexivity|]. intros s S. injection S as <-. cbn [s_left s_right s_fs s_taps s_azi s_zen].
  assert (ML : mat_at m l = ml) by (apply some_nth, EL). assert (MR : mat_at m r = mr) by (apply some_nth, ER). pose proof (some_lt _ _ _ EL) as LL. pose proof (some_lt _ _ _ ER) as LR.
  split; [reflexivity|]. split; [reflexivity|]. split; [reflexivity|]. rewrite ML. split; [reflexivity|]. split.
  - unfold okset. cbn [s_left s_right s_fs s_taps s_azi s_zen s_grid]. rewrite !mat_ext by assumption. rewrite ML, MR. unfold vec_at. rewrite (some_nth _ _ _ [] EVA), (some_nth _ _ _ [] EVZ).
    assert (Forall (fun b => (b < length (mats (ext m [] (x1 ++ x2))))%nat) [l; r]) as F by (unfold ext; cbn [mats]; rewrite app_nil_r; repeat constructor; assumption). inversion_clear F. inversion_clear H0.
    repeat split; first [assumption|apply (some_lt _ _ _ EVA)|apply (some_lt _ _ _ EVZ)|lia].
  - intros b [<-|<-]; [destruct A2 as [A2|[[y A2] A3]]; [left; exact A2|right; right; split; [exists y; left; exact A2|lia]]|]. destruct Z2 as [Z2|[[y Z3] Z2]]; [right; left; exact Z2|]. right; right. split; [exists y; right; exact Z3|]. unfold ext in Z2; cbn [vecs] in Z2; rewrite app_length in Z2. lia.
Qed.
Lemma conv_ok x eq mode y : conv_mat x eq mode = Ok y -> arr2_wf x -> arr2_wf y /\ length (rows y) = length (rows x) /\ (0 < length (rows x))%nat.
Proof.
  unfold conv_mat, conv_rows. intros H W. destruct (Nat.eqb_spec (length (rows x) * cols x) 0) as [E|E]; [discriminate H|]. destruct (Nat.eqb_spec (length eq) 0) as [E'|E']; [discriminate H|]. cbn [orb] in H.
  assert (P : forall (f : list R -> list R) k, (forall r, length r = cols x -> length (f r) = k) -> arr2_wf (Arr2 (map f (rows x)) (length (nth 0 (map f (rows x)) []))) /\ length (rows (Arr2 (map f (rows x)) (length (nth 0 (map f (rows x)) [])))) = length (rows x)).
  { intros f k F. cbn [rows cols]. split; [|apply map_length]. unfold arr2_wf in *. cbn [rows cols]. rewrite Forall_forall in *. assert (G : forall r, In r (map f (rows x)) -> length r = k) by (intros r R; apply in_map_iff in R; destruct R as (q & <- & Q); apply F, W, Q).
    intros r R. rewrite (G r R). symmetry. apply G, nth_In. rewrite map_length. destruct (rows x); cbn in *; lia. }
  assert (LC : forall r, length r = cols x -> length (convolve r eq) = (cols x + length eq - 1)%nat). { intros r R. rewrite length_conv_nonempty; [lia| |]; intros ->; cbn in *; lia. }
  assert (N : (0 < length (rows x))%nat) by (destruct (length (rows x)); lia).
  destruct mode; cbn [bind] in H.
  - injection H as <-. destruct (P (fun r => convolve r eq) _ LC) as (A & B). auto.
  - injection H as <-. destruct (P (fun r => convolve_same r eq) (cols x)) as (A & B); [intros r R; rewrite length_same; lia|]. auto.
  - destruct (Nat.leb (length eq) (cols x) || (Nat.leb (length (rows x)) 1 && Nat.leb (cols x) (length eq))); [|discriminate H]. cbn [bind] in H. injection H as <-.
    destruct (P (fun r => convolve_valid r eq) (Nat.min (Nat.max (cols x) (length eq) - Nat.min (cols x) (length eq) + 1) (cols x + length eq - 1 - (Nat.min (cols x) (length eq) - 1)))) as (A & B).
    { intros r R. unfold convolve_valid. rewrite firstn_length, skipn_length, (LC r R), R. reflexivity. } auto.
  - discriminate H.
Qed.
(** success depends on the shape only, and so does the new number of samples *)
Lemma conv_shape x x' eq mode y : conv_mat x eq mode = Ok y -> arr2_wf x -> arr2_wf x' -> length (rows x) = length (rows x') -> cols x = cols x' -> exists y', conv_mat x' eq mode = Ok y' /\ cols y' = cols y.
Proof.
  unfold conv_mat, conv_rows. intros H W W' ER EC. rewrite <- ER, <- EC. destruct (Nat.eqb_spec (length (rows x) * cols x) 0) as [E|E]; [discriminate H|]. destruct (Nat.eqb_spec (length eq) 0) as [E'|E']; [discriminate H|]. cbn [orb] in *.
  assert (P : forall (f : list R -> list R) k, (forall r, length r = cols x -> length (f r) = k) -> length (nth 0 (map f (rows x')) []) = length (nth 0 (map f (rows x)) [])).
  { intros f k F. unfold arr2_wf in *. rewrite Forall_forall in *. assert (N : (0 < length (rows x))%nat) by (destruct (length (rows x)); lia). rewrite !(nth_map_in _ _ _ _ []) by lia. rewrite !F; [reflexivity| |]; [apply W, nth_In; lia|rewrite EC; apply W', nth_In; lia]. }
  assert (LC : forall r, length r = cols x -> length (convolve r eq) = (cols x + length eq - 1)%nat). { intros r R. rewrite length_conv_nonempty; [lia| |]; intros ->; cbn in *; lia. }
  destruct mode; cbn [bind] in *.
  - injection H as <-. eexists; split; [reflexivity|]. cbn [cols]. apply (P _ _ LC).
  - injection H as <-. eexists; split; [reflexivity|]. cbn [cols]. apply (P _ (cols x)). intros r R. rewrite length_same; lia.
  - destruct (Nat.leb (length eq) (cols x) || (Nat.leb (length (rows x)) 1 && Nat.leb (cols x) (length eq))); [|discriminate H]. cbn [bind] in *. injection H as <-. eexists; split; [reflexivity|]. cbn [cols].
    apply (P _ (Nat.min (Nat.max (cols x) (length eq) - Nat.min (cols x) (length eq) + 1) (cols x + length eq - 1 - (Nat.min (cols x) (length eq) - 1)))). intros r R. unfold convolve_valid. rewrite firstn_length, skipn_length, (LC r R), R. reflexivity.
  - discriminate H.
Qed.
Lemma forallb_wf (x : arr2 R) : forallb (fun r => Nat.eqb (length r) (cols x)) (rows x) = true -> arr2_wf x.
Proof. intros H. unfold arr2_wf. rewrite Forall_forall. rewrite forallb_forall in H. intros r R. apply Nat.eqb_eq, H, R. Qed.
Lemma okmem_at m o s : okmem m -> nth_error (sets m) o = Some s -> okset m s.
Proof. intros (_ & H) E. rewrite Forall_forall in H. apply H, (nth_error_In _ _ E). Qed.
Lemma okmem_mat m a x : okmem m -> nth_error (mats m) a = Some x -> arr2_wf x.
Proof. intros (H & _) E. rewrite Forall_forall in H. apply H, (nth_error_In _ _ E). Qed.
Lemma lt_some {A} (l : list A) a : (a < length l)%nat -> exists x, nth_error l a = Some x.
Proof. intros H. apply nth_error_Some in H. destruct (nth_error l a); [eauto|congruence]. Qed.
Lemma mat_new m xm xv k : mat_at (ext m xm xv) (length (mats m) + k) = nth k xm (Arr2 [] 0).
Proof. unfold mat_at, ext. cbn [mats]. rewrite app_nth2 by lia. f_equal. lia. Qed.
Lemma vec_new m xm xv k : vec_at (ext m xm xv) (length (vecs m) + k) = nth k xv [].
Proof. unfold vec_at, ext. cbn [vecs]. rewrite app_nth2 by lia. f_equal. lia. Qed.
Lemma get_mat_ok m a x : nth_error (mats m) a = Some x -> get_mat a m = (Ok x, m).
Proof. intros H. unfold get_mat. rewrite H. reflexivity. Qed.
Lemma get_vec_ok m a x : nth_error (vecs m) a = Some x -> get_vec a m = (Ok x, m).
Proof. intros H. unfold get_vec. rewrite H. reflexivity. Qed.
Lemma get_set_ok m a x : nth_error (sets m) a = Some x -> get_set a m = (Ok x, m).
Proof. intros H. unfold get_set. rewrite H. reflexivity. Qed.
Lemma bind_ok {A B} (p : hprog A) (g : A -> hprog B) m a m' : p m = (Ok a, m') -> (let$ x := p in g x) m = g a m'.
Proof. intros H. unfold hbind. rewrite H. reflexivity. Qed.
Lemma bind_err {A B} (p : hprog A) (g : A -> hprog B) m e m' : p m = (Err e, m') -> (let$ x := p in g x) m = (Err e, m').
Proof. intros H. unfold hbind. rewrite H. reflexivity. Qed.
(** a copy: new arrays with the same entries *)
Lemma copy_ok m o s : okmem m -> nth_error (sets m) o = Some s -> exists xm xv t, copy_set o m = (Ok (length (sets m)), HMem (mats m ++ xm) (vecs m ++ xv) (sets m ++ [t])) /\ Forall arr2_wf xm /\
  s_fs t = s_fs s /\ s_grid t = s_grid s /\ s_taps t = s_taps s /\
  (length (mats m) <= s_left t < length (mats m ++ xm))%nat /\ (length (mats m) <= s_right t < length (mats m ++ xm))%nat /\
  (length (vecs m) <= s_azi t < length (vecs m ++ xv))%nat /\ (length (vecs m) <= s_zen t < length (vecs m ++ xv))%nat /\
  mat_at (ext m xm xv) (s_left t) = mat_at m (s_left s) /\ mat_at (ext m xm xv) (s_right t) = mat_at m (s_right s) /\
  vec_at (ext m xm xv) (s_azi t) = vec_at m (s_azi s) /\ vec_at (ext m xm xv) (s_zen t) = vec_at m (s_zen s) /\
  (s_left t = s_right t <-> s_left s = s_right s).
Proof.
  intros OK E. destruct (okmem_at m o s OK E) as (L1 & L2 & L3 & L4 & _).
  destruct (lt_some _ _ L1) as (ml & EL). destruct (lt_some _ _ L2) as (mr & ER). destruct (lt_some _ _ L3) as (va & EA). destruct (lt_some _ _ L4) as (vz & EZ).
  assert (ML : mat_at m (s_left s) = ml) by (apply some_nth, EL). assert (MR : mat_at m (s_right s) = mr) by (apply some_nth, ER).
  assert (VA : vec_at m (s_azi s) = va) by (apply some_nth, EA). assert (VZ : vec_at m (s_zen s) = vz) by (apply some_nth, EZ).
  pose proof (okmem_mat _ _ _ OK EL) as WL. pose proof (okmem_mat _ _ _ OK ER) as WR.
  unfold copy_set. rewrite (bind_ok _ _ _ _ _ (get_set_ok _ _ _ E)). rewrite (bind_ok _ _ _ _ _ (get_mat_ok _ _ _ EL)). rewrite (bind_ok _ _ _ _ _ (new_mat_ext ml m)).
  assert (HR : exists xm r, (if Nat.eqb (s_right s) (s_left s) then hret (length (mats m)) else let$ mr := get_mat (s_right s) in new_mat mr) (ext m [ml] []) = (Ok r, ext m (ml :: xm) []) /\ Forall arr2_wf xm /\
    (length (mats m) <= r < length (mats m ++ ml :: xm))%nat /\ nth (r - length (mats m)) (ml :: xm) (Arr2 [] 0) = mr /\ (length (mats m) = r <-> s_left s = s_right s)).
  { destruct (Nat.eqb_spec (s_right s) (s_left s)) as [Q|Q].
    - exists [], (length (mats m)). rewrite Q in ER. rewrite EL in ER. injection ER as <-. rewrite app_length. cbn [length]. replace (length (mats m) - length (mats m))%nat with 0%nat by lia. repeat split; try constructor; try lia.
    - exists [mr], (length (mats m) + 1)%nat. assert (ER' : nth_error (mats (ext m [ml] [])) (s_right s) = Some mr) by (unfold ext; cbn [mats]; rewrite nth_error_app1 by exact L2; exact ER).
      rewrite (bind_ok _ _ _ _ _ (get_mat_ok _ _ _ ER')). rewrite new_mat_ext, ext_ext. unfold ext at 1. cbn [mats]. rewrite !app_length. cbn [length app].
      replace (length (mats m) + 1 - length (mats m))%nat with 1%nat by lia. repeat split; try (repeat constructor; assumption); try lia; try congruence. }
  destruct HR as (xm & r & HR & Wx & R1 & R2 & R3). rewrite (bind_ok _ _ _ _ _ HR).
  assert (EA' : nth_error (vecs (ext m (ml :: xm) [])) (s_azi s) = Some va) by (unfold ext; cbn [vecs]; rewrite app_nil_r; exact EA).
  rewrite (bind_ok _ _ _ _ _ (get_vec_ok _ _ _ EA')). rewrite (bind_ok _ _ _ _ _ (new_vec_ext va _)). rewrite ext_ext. cbn [app]. rewrite app_nil_r.
  replace (length (vecs (ext m (ml :: xm) []))) with (length (vecs m)) by (unfold ext; cbn [vecs]; rewrite app_nil_r; reflexivity).
  assert (HZ : exists xv z, (if Nat.eqb (s_zen s) (s_azi s) && negb (Nat.eqb (length va) 1) then hret (length (vecs m)) else let$ vz := get_vec (s_zen s) in new_vec vz) (ext m (ml :: xm) [va]) = (Ok z, ext m (ml :: xm) (va :: xv)) /\
    (length (vecs m) <= z < length (vecs m ++ va :: xv))%nat /\ nth (z - length (vecs m)) (va :: xv) [] = vz).
  { destruct (Nat.eqb (s_zen s) (s_azi s) && negb (Nat.eqb (length va) 1)) eqn:Q.
    - apply andb_prop in Q. destruct Q as (Q & _). apply Nat.eqb_eq in Q. rewrite Q in EZ. rewrite EA in EZ. injection EZ as <-. exists [], (length (vecs m)). rewrite app_length. cbn [length]. replace (length (vecs m) - length (vecs m))%nat with 0%nat by lia. repeat split; try lia.
    - exists [vz], (length (vecs m) + 1)%nat. assert (EZ' : nth_error (vecs (ext m (ml :: xm) [va])) (s_zen s) = Some vz) by (unfold ext; cbn [vecs]; rewrite nth_error_app1 by exact L4; exact EZ).
      rewrite (bind_ok _ _ _ _ _ (get_vec_ok _ _ _ EZ')). rewrite new_vec_ext, ext_ext. unfold ext at 1. cbn [vecs]. rewrite !app_length, app_nil_r. cbn [length app].
      replace (length (vecs m) + 1 - length (vecs m))%nat with 1%nat by lia. repeat split; try lia. }
  destruct HZ as (xv & z & HZ & Z1 & Z2). rewrite (bind_ok _ _ _ _ _ HZ). unfold new_set.
  exists (ml :: xm), (va :: xv). eexists. split; [unfold ext at 2; cbn [mats vecs sets]; reflexivity|]. cbn [s_left s_right s_azi s_zen s_fs s_grid s_taps]. rewrite ML, MR, VA, VZ.
  split; [constructor; assumption|]. do 3 (split; [reflexivity|]). split; [rewrite app_length; cbn [length]; lia|]. split; [exact R1|]. split; [rewrite app_length; cbn [length]; lia|]. split; [exact Z1|].
  split; [rewrite <- (Nat.add_0_r (length (mats m))), mat_new; reflexivity|]. split; [replace r with (length (mats m) + (r - length (mats m)))%nat by lia; rewrite mat_new; exact R2|].
  split; [rewrite <- (Nat.add_0_r (length (vecs m))), vec_new; reflexivity|]. split; [replace z with (length (vecs m) + (z - length (vecs m)))%nat by lia; rewrite vec_new; exact Z2|exact R3].
Qed.
Lemma upd_twice {A} (l : list A) i a b : upd (upd l i a) i b = upd l i b.
Proof. revert i. induction l as [|x l IH]; intros [|i]; cbn [upd]; congruence. Qed.
Definition half_set (m : hmem) (s : hset) : hset := HSet (length (mats m)) (s_right s) (s_azi s) (s_zen s) (s_fs s) (s_grid s) (s_taps s).
Lemma eq_cases m o s t eq mode : okmem m -> nth_error (sets m) o = Some s -> nth_error (vecs m) t = Some eq ->
  (exists e, conv_mat (mat_at m (s_left s)) eq mode = Err e /\ eq_set o t mode m = (Err e, m)) \/
  (exists x e, conv_mat (mat_at m (s_left s)) eq mode = Ok x /\ conv_mat (mat_at m (s_right s)) eq mode = Err e /\ eq_set o t mode m = (Err e, HMem (mats m ++ [x]) (vecs m) (upd (sets m) o (half_set m s)))) \/
  (exists x y, conv_mat (mat_at m (s_left s)) eq mode = Ok x /\ conv_mat (mat_at m (s_right s)) eq mode = Ok y /\
     eq_set o t mode m = (Ok tt, HMem (mats m ++ [x; y]) (vecs m) (upd (sets m) o (HSet (length (mats m)) (length (mats m) + 1) (s_azi s) (s_zen s) (s_fs s) (s_grid s) (cols x))))).
Proof.
  intros OK E T. destruct (okmem_at m o s OK E) as (L1 & L2 & _). destruct (lt_some _ _ L1) as (ml & EL). destruct (lt_some _ _ L2) as (mr & ER).
  assert (ML : mat_at m (s_left s) = ml) by (apply some_nth, EL). assert (MR : mat_at m (s_right s) = mr) by (apply some_nth, ER). rewrite ML, MR.
  unfold eq_set. rewrite (bind_ok _ _ _ _ _ (get_set_ok _ _ _ E)). rewrite (bind_ok _ _ _ _ _ (get_vec_ok _ _ _ T)). rewrite (bind_ok _ _ _ _ _ (get_mat_ok _ _ _ EL)).
  destruct (conv_mat ml eq mode) as [x|e] eqn:CX; [|left; exists e; split; reflexivity]. right. rewrite (bind_ok (hlift (Ok x)) _ m x m eq_refl). erewrite (bind_ok (new_mat x)) by reflexivity. erewrite (bind_ok (put_set _ _)) by reflexivity. cbn [mats vecs sets].
  assert (ER' : forall S, nth_error (mats (HMem (mats m ++ [x]) (vecs m) S)) (s_right s) = Some mr) by (intros S; cbn [mats]; rewrite nth_error_app1 by exact L2; exact ER).
  rewrite (bind_ok _ _ _ _ _ (get_mat_ok _ _ _ (ER' _))). destruct (conv_mat mr eq mode) as [y|e] eqn:CY.
  - right. exists x, y. split; [reflexivity|]. split; [reflexivity|]. erewrite (bind_ok (hlift (Ok y))) by reflexivity. erewrite (bind_ok (new_mat y)) by reflexivity. unfold put_set. cbn [mats vecs sets]. rewrite upd_twice, app_length, <- app_assoc. reflexivity.
  - left. exists x, e. split; [reflexivity|]. split; [reflexivity|]. reflexivity.
Qed.
Lemma okset_ext m xm xv s : okset m s -> okset (ext m xm xv) s.
Proof.
  intros (A & B & C & D & E1 & E2 & E3 & E4). unfold okset. rewrite !mat_ext, !vec_ext by assumption. unfold ext. cbn [mats vecs]. rewrite !app_length. repeat split; try lia; assumption.
Qed.
Lemma step_eff m c : okmem m -> eff m c (snd (hstep c m)).
Proof.
  intros OK. destruct c as [x|l|l r a z fs|o|o l r|o t mode|a i j v|a i v|o e k j v|o azi zen]; cbn [hstep].
  - destruct (forallb _ (rows x)) eqn:F; [|apply eff_same]. rewrite ret_snd, new_mat_ext. apply eff_none. constructor; [apply forallb_wf, F|constructor].
  - rewrite ret_snd, new_vec_ext. apply eff_none. constructor.
  - rewrite bind_snd. destruct (init_set l r a z fs m) as [q m'] eqn:E. destruct (init_ok _ _ _ _ _ _ _ _ E) as (xv & -> & H). destruct q as [s|e]; [|apply eff_none; constructor].
    destruct (H s eq_refl) as (S1 & S2 & S3 & S4 & S5 & S6). rewrite ret_snd. unfold new_set, ext. cbn [snd mats vecs sets]. pose proof (eff_new m (HInit l r a z fs) [] xv s) as EN. rewrite app_nil_r in EN. rewrite app_nil_r. apply EN; [exact I|constructor|exact S5| | |intros ST _; split].
    + intros b [<-|<-]; cbn [src2]; [left|right]; assumption.
    + intros b B. cbn [src1]. destruct (S6 b B) as [H1|[H1|[_ H1]]]; auto.
    + destruct S5 as (L1 & _). rewrite mat_ext; [rewrite S1, S4; reflexivity|]. unfold ext in L1; cbn [mats] in L1; rewrite app_nil_r in L1; exact L1.
    + destruct S5 as (_ & L2 & _). cbn [same_taps] in *. rewrite mat_ext; [rewrite S2, S4; symmetry; assumption|]. unfold ext in L2; cbn [mats] in L2; rewrite app_nil_r in L2; exact L2.
  - rewrite ret_snd. unfold copy_set. rewrite bind_snd. destruct (nth_error (sets m) o) as [s|] eqn:E; [|unfold get_set; rewrite E; apply eff_same].
    destruct (copy_ok m o s OK E) as (xm & xv & t & C & W & F1 & F2 & F3 & F4 & F5 & F6 & F7 & F8 & F9 & F10 & F11 & _). unfold copy_set in C. rewrite (bind_ok _ _ _ _ _ (get_set_ok _ _ _ E)) in C. rewrite (get_set_ok _ _ _ E), C.
    destruct (okmem_at m o s OK E) as (L1 & L2 & L3 & L4 & L5 & L6 & L7 & L8). cbn [snd]. apply (eff_new m); [exact I|exact W| | | |].
    + unfold okset. rewrite F8, F9, F10, F11, F2. unfold ext; cbn [mats vecs]. repeat split; first [assumption|lia].
    + intros b [<-|<-]; cbn [src2]; lia.
    + intros b [<-|<-]; cbn [src1]; lia.
    + intros _ T. rewrite Forall_forall in T. destruct (T s (nth_error_In _ _ E)) as (T1 & T2). unfold tapset. rewrite F8, F9, F3. split; assumption.
  - rewrite ret_snd. unfold update_set. rewrite bind_snd. unfold get_set. destruct (nth_error (sets m) o) as [s|] eqn:E; [|apply eff_same]. rewrite bind_snd.
    destruct (init_set l r (VRef (s_azi s)) (VRef (s_zen s)) (s_fs s) m) as [q m'] eqn:EI. destruct (init_ok _ _ _ _ _ _ _ _ EI) as (xv & -> & H). destruct q as [t|e]; [|apply eff_none; constructor].
    destruct (H t eq_refl) as (S1 & S2 & S3 & S4 & S5 & S6). unfold put_set, ext. cbn [snd mats vecs sets]. pose proof (eff_set m (HUpdate o l r) [] xv o t) as EN. rewrite app_nil_r in EN. rewrite app_nil_r. apply EN; [reflexivity|constructor| |exact S5| | |intros ST _; split].
    + apply (some_lt _ _ _ E).
    + intros b [<-|<-]; cbn [src2]; [left|right]; assumption.
    + intros b B. cbn [src1]. exists s. split; [exact E|]. destruct (S6 b B) as [H1|[H1|[(y & [H1|H1]) _]]]; try discriminate; injection H1 as <-; auto.
    + destruct S5 as (L1 & _). rewrite mat_ext; [rewrite S1, S4; reflexivity|]. unfold ext in L1; cbn [mats] in L1; rewrite app_nil_r in L1; exact L1.
    + destruct S5 as (_ & L2 & _). cbn [same_taps] in *. rewrite mat_ext; [rewrite S2, S4; symmetry; assumption|]. unfold ext in L2; cbn [mats] in L2; rewrite app_nil_r in L2; exact L2.
  - rewrite ret_snd. destruct (nth_error (sets m) o) as [s|] eqn:E; [|unfold eq_set; rewrite bind_snd; unfold get_set; rewrite E; apply eff_same].
    destruct (nth_error (vecs m) t) as [eq|] eqn:T; [|unfold eq_set; rewrite bind_snd, (get_set_ok _ _ _ E), bind_snd; unfold get_vec; rewrite T; apply eff_same].
    destruct (okmem_at m o s OK E) as (L1 & L2 & L3 & L4 & L5 & L6 & L7 & L8). destruct (lt_some _ _ L1) as (ml & EL). destruct (lt_some _ _ L2) as (mr & ER).
    assert (ML : mat_at m (s_left s) = ml) by (apply some_nth, EL). assert (MR : mat_at m (s_right s) = mr) by (apply some_nth, ER). pose proof (okmem_mat _ _ _ OK EL) as WL. pose proof (okmem_mat _ _ _ OK ER) as WR.
    destruct (eq_cases m o s t eq mode OK E T) as [(e & _ & C)|[(x & e & CX & CY & C)|(x & y & CX & CY & C)]]; rewrite C; cbn [snd].
    + apply eff_same.
    + rewrite ML in CX, L5. rewrite MR in CY, L6. destruct (conv_ok _ _ _ _ CX WL) as (WX & RX & _). rewrite <- (app_nil_r (vecs m)) at 1. apply (eff_set m); [reflexivity| | | | | |]; cbn [half_set s_left s_right s_azi s_zen s_taps s_grid].
      * constructor; [exact WX|constructor].
      * apply (some_lt _ _ _ E).
      * unfold okset. cbn [half_set s_left s_right s_azi s_zen s_taps s_grid]. rewrite !vec_ext by assumption. rewrite (mat_ext _ _ _ (s_right s)) by assumption. rewrite <- (Nat.add_0_r (length (mats m))), mat_new. cbn [nth]. rewrite MR. unfold ext. cbn [mats vecs]. rewrite !app_length. cbn [length]. repeat split; first [assumption|lia].
      * intros b [<-|<-]; cbn [src2]; [right; lia|left; exists s; split; [exact E|right; reflexivity]].
      * intros b B. cbn [src1]. exists s. split; [exact E|exact B].
      * intros _ TT. exfalso. rewrite Forall_forall in TT. destruct (TT s (nth_error_In _ _ E)) as (T1 & T2). rewrite ML in T1. rewrite MR in T2. destruct (conv_shape ml mr eq mode x CX WL WR) as (y & Y & _); [lia|lia|]. rewrite Y in CY. discriminate CY.
    + rewrite ML in CX, L5. rewrite MR in CY, L6. destruct (conv_ok _ _ _ _ CX WL) as (WX & RX & _). destruct (conv_ok _ _ _ _ CY WR) as (WY & RY & _). rewrite <- (app_nil_r (vecs m)) at 1. apply (eff_set m); [reflexivity| | | | | |]; cbn [s_left s_right s_azi s_zen s_taps s_grid].
      * repeat constructor; assumption.
      * apply (some_lt _ _ _ E).
      * unfold okset. cbn [s_left s_right s_azi s_zen s_taps s_grid]. rewrite !vec_ext by assumption. rewrite mat_new. rewrite <- (Nat.add_0_r (length (mats m))) at 3. rewrite mat_new. cbn [nth]. unfold ext. cbn [mats vecs]. rewrite !app_length. cbn [length]. repeat split; first [assumption|lia].
      * intros b [<-|<-]; cbn [src2]; right; lia.
      * intros b B. cbn [src1]. exists s. split; [exact E|exact B].
      * intros _ TT. rewrite Forall_forall in TT. destruct (TT s (nth_error_In _ _ E)) as (T1 & T2). rewrite ML in T1. rewrite MR in T2. destruct (conv_shape ml mr eq mode x CX WL WR) as (y' & Y & YC); [lia|lia|]. rewrite Y in CY. injection CY as ->.
        unfold tapset. cbn [s_left s_right s_taps]. rewrite mat_new. rewrite <- (Nat.add_0_r (length (mats m))) at 1. rewrite mat_new. cbn [nth]. split; [reflexivity|exact YC].
  - rewrite ret_snd. apply put_mat_eff. reflexivity.
  - rewrite ret_snd. unfold put_vec. rewrite bind_snd. unfold get_vec. destruct (nth_error (vecs m) a) as [x|] eqn:E; [|apply eff_same]. destruct (Nat.ltb i (length x)); [|apply eff_same]. cbn [snd]. apply (eff_put1 m _ a x); [eauto|exact E|apply length_upd].
  - rewrite ret_snd. unfold put_row. rewrite bind_snd. unfold get_set. destruct (nth_error (sets m) o) as [s|] eqn:E; [|apply eff_same]. rewrite bind_snd. unfold get_mat at 1. destruct (nth_error (mats m) (s_left s)) as [ml|]; [|apply eff_same].
    rewrite bind_snd. unfold get_mat at 1. destruct (nth_error (mats m) (s_right s)) as [mr|]; [|apply eff_same]. rewrite bind_snd. unfold hlift at 1. destruct (row_at ml k); [|apply eff_same]. rewrite bind_snd. unfold hlift at 1. destruct (row_at mr k); [|apply eff_same].
    destruct e; apply put_mat_eff; cbn [writes2]; exists s; split; (exact E || reflexivity).
  - rewrite ret_snd. unfold nearest_set. rewrite bind_snd. unfold get_set. destruct (nth_error (sets m) o) as [s|] eqn:E; [|apply eff_same]. rewrite bind_snd. unfold get_mat at 1. destruct (nth_error (mats m) (s_left s)) as [ml|]; [|apply eff_same].
    rewrite bind_snd. unfold get_mat at 1. destruct (nth_error (mats m) (s_right s)) as [mr|]; [|apply eff_same]. rewrite bind_snd. unfold get_vec at 1. destruct (nth_error (vecs m) (s_azi s)) as [va|]; [|apply eff_same]. rewrite bind_snd. unfold get_vec at 1. destruct (nth_error (vecs m) (s_zen s)) as [vz|]; [|apply eff_same].
    rewrite bind_snd. unfold hlift at 1. destruct (nearest_hrirs _ azi zen) as [q|]; [|apply eff_same]. rewrite bind_snd, new_vec_ext. rewrite bind_snd, new_vec_ext, ext_ext. cbn [snd hret app]. apply eff_none. constructor.
Qed.
