(** Forward-backward filters: extension, existence, uniqueness, linearity. *)
From Coq Require Import Lra Lia.
From Verif Require Import Base BaseFacts M_utils M_sig M_process M_sph0 M_sph M_process3 S_process3 P_sig P_lfilter M_process4 S_process4 P_ff1.
Open Scope R_scope.

Lemma turned_in x m : (0 <= m < Z.of_nat (length x))%Z -> turned x m = nth (Z.to_nat m) x 0.
Proof. intros H. unfold turned. destruct (Z.ltb_spec m 0); [lia|]. destruct (Z.ltb_spec m (Z.of_nat (length x))); [reflexivity|lia]. Qed.
Lemma pad_ok x nt e ext : validate_pad x nt = Ok (e, ext) -> e = (3 * nt)%nat /\ (e < length x)%nat /\ length ext = (length x + 2 * e)%nat /\ forall i, (i < length ext)%nat -> nth i ext 0 = turned x (Z.of_nat i - Z.of_nat e).
Proof.
  unfold validate_pad, odd_ext. destruct (Nat.leb_spec (length x) (nt * 3)) as [|L]; [discriminate|]. destruct (Nat.ltb_spec (nt * 3) 1) as [Z|Z].
  - cbn [bind]. intros H. injection H as <- <-. assert (nt = 0)%nat by lia. subst nt. cbn [Nat.mul Nat.add] in *. repeat split; try lia. intros i I. rewrite turned_in by lia. f_equal. lia.
  - destruct (Nat.ltb_spec (length x - 1) (nt * 3)) as [|_]; [discriminate|]. cbn [bind]. intros H. injection H as <- <-. set (e := (nt * 3)%nat) in *. split; [unfold e; lia|]. split; [exact L|].
    assert (LE : length (map (fun k => 2 * nth 0 x 0 - nth (e - k) x 0) (seq 0 e) ++ x ++ map (fun k => 2 * nth (length x - 1) x 0 - nth (length x - 2 - k) x 0) (seq 0 e)) = (length x + 2 * e)%nat) by (rewrite !app_length, !map_length, !seq_length; lia).
    split; [exact LE|]. intros i I. rewrite LE in I. unfold turned. destruct (Z.ltb_spec (Z.of_nat i - Z.of_nat e) 0) as [A|A].
    + rewrite app_nth1 by (rewrite map_length, seq_length; lia). rewrite (nth_map_seq (fun k => 2 * nth 0 x 0 - nth (e - k) x 0)) by lia. change (Z.to_nat 0) with 0%nat. replace (Z.to_nat (- (Z.of_nat i - Z.of_nat e))) with (e - i)%nat by lia. reflexivity.
    + rewrite app_nth2 by (rewrite map_length, seq_length; lia). rewrite map_length, seq_length. destruct (Z.ltb_spec (Z.of_nat i - Z.of_nat e) (Z.of_nat (length x))) as [B|B].
      * rewrite app_nth1 by lia. f_equal. lia.
      * rewrite app_nth2 by lia. rewrite (nth_map_seq (fun k => 2 * nth (length x - 1) x 0 - nth (length x - 2 - k) x 0)) by lia. replace (Z.to_nat (Z.of_nat (length x) - 1)) with (length x - 1)%nat by lia. replace (Z.to_nat (2 * (Z.of_nat (length x) - 1) - (Z.of_nat i - Z.of_nat e))) with (length x - 2 - (i - e - length x))%nat by lia. reflexivity.
Qed.
Lemma pad_exists x nt : (3 * nt < length x)%nat -> exists ext, validate_pad x nt = Ok ((3 * nt)%nat, ext).
Proof.
  intros L. unfold validate_pad, odd_ext. destruct (Nat.leb_spec (length x) (nt * 3)) as [|_]; [lia|]. replace (3 * nt)%nat with (nt * 3)%nat by lia. destruct (Nat.ltb_spec (nt * 3) 1); cbn [bind]; [eexists; reflexivity|]. destruct (Nat.ltb_spec (length x - 1) (nt * 3)); [lia|]. cbn [bind]. eexists. reflexivity.
Qed.
Lemma trim_ok e n y : length y = (n + 2 * e)%nat -> length (trim_edges e y) = n /\ forall i, (i < n)%nat -> nth i (trim_edges e y) 0 = nth (e + i) y 0.
Proof.
  intros L. unfold trim_edges. destruct (Nat.ltb_spec 0 e) as [E|E].
  - split; [rewrite firstn_length, skipn_length; lia|]. intros i I. rewrite nth_firstn by lia. rewrite nth_skipn. reflexivity.
  - assert (e = 0)%nat by lia. subst e. split; [lia|]. reflexivity.
Qed.
Lemma zi_ok b a zi : nth 0 a 0 <> 0 -> lfilter_zi b a = Ok zi -> length zi = (Nat.max (length a) (length b) - 1)%nat /\ (2 <= Nat.max (length a) (length b))%nat /\ lsum a <> 0.
Proof.
  intros A EZ. unfold lfilter_zi in EZ. rewrite drop_lead_id in EZ by exact A. destruct a as [|a0 a]; [discriminate|]. cbn [nth] in A. destruct (Req_EM_T a0 0); [contradiction|]. cbv zeta in EZ. set (m := Nat.max _ _) in *. revert EZ. destruct (Nat.leb_spec m 1) as [M|M]; [discriminate|]. destruct (Req_EM_T _ 0) as [Z|Z]; [discriminate|]. intros H. apply (f_equal (fun r => match r with Ok v => length v | Err _ => 0%nat end)) in H. cbn beta iota in H. rewrite length_rest in H. split; [congruence|]. split; [lia|]. intros E. apply Z. rewrite lsum_norm by (try exact A; unfold m; lia). rewrite E. ring.
Qed.
Lemma zi_exists b a : nth 0 a 0 <> 0 -> (2 <= Nat.max (length a) (length b))%nat -> lsum a <> 0 -> exists zi, lfilter_zi b a = Ok zi.
Proof.
  intros A M S. unfold lfilter_zi. rewrite drop_lead_id by exact A. destruct a as [|a0 a]; [cbn in A; lra|]. cbn [nth] in A. destruct (Req_EM_T a0 0); [contradiction|]. cbv zeta. destruct (Nat.leb_spec (Nat.max (length (a0 :: a)) (length b)) 1); [lia|]. destruct (Req_EM_T _ 0) as [Z|Z]; [|eexists; reflexivity]. exfalso. apply S. rewrite lsum_norm in Z by (try exact A; lia). apply Rmult_integral in Z. destruct Z as [Z|Z]; [|exact Z]. exfalso. apply (Rinv_neq_0_compat a0 A Z).
Qed.
Lemma from_exists b a x z : nth 0 a 0 <> 0 -> b <> [] -> length z = (Nat.max (length a) (length b) - 1)%nat -> exists y, lfilter_from b a x z = Ok y.
Proof.
  intros A B L. destruct a as [|a0 a]; [cbn in A; lra|]. cbn [nth] in A. destruct b as [|b0 b]; [congruence|]. unfold lfilter_from. destruct (Req_EM_T a0 0); [contradiction|]. cbv zeta. rewrite L, Nat.eqb_refl. eexists. reflexivity.
Qed.
Lemma from_inv b a x z y : lfilter_from b a x z = Ok y -> nth 0 a 0 <> 0 /\ b <> [].
Proof. destruct a as [|a0 a], b as [|b0 b]; try discriminate. unfold lfilter_from. destruct (Req_EM_T a0 0); [discriminate|]. intros _. split; [exact n|discriminate]. Qed.

Definition ff_ready (b a x : list R) : Prop :=
  nth 0 a 0 <> 0 /\ b <> [] /\ lsum a <> 0 /\ (2 <= Nat.max (length a) (length b))%nat /\ (3 * Nat.max (length a) (length b) < length x)%nat.
Lemma ff_inv b a x w : filtfilt b a x = Ok w -> ff_ready b a x /\ forward_backward b a (3 * Nat.max (length a) (length b)) x w.
Proof.
  unfold filtfilt. destruct (validate_pad x _) as [[e ext]|] eqn:EP; [|discriminate]. cbn [bind]. destruct (lfilter_zi b a) as [zi|] eqn:EZ; [|discriminate]. cbn [bind]. destruct (lfilter_from b a ext _) as [y|] eqn:EY; [|discriminate]. cbn [bind]. destruct (lfilter_from b a (rev y) _) as [v|] eqn:EV; [|discriminate]. cbn [bind]. intros H. injection H as <-.
  destruct (pad_ok _ _ _ _ EP) as (E & L & LE & X). destruct (from_inv _ _ _ _ _ EY) as [A B]. destruct (zi_ok _ _ _ A EZ) as (_ & M & S). destruct (run_from_rest _ _ _ _ _ _ A EZ EY) as [LY HY]. destruct (run_from_rest _ _ _ _ _ _ A EZ EV) as [LV HV]. rewrite rev_length in LV.
  split; [unfold ff_ready; repeat split; try assumption; lia|]. destruct (trim_ok e (length x) (rev v) ltac:(rewrite rev_length; lia)) as [LW HW]. unfold forward_backward. split; [exact LW|]. exists ext, y, (rev v). rewrite <- E. split; [exact LE|]. split; [exact X|]. split; [split; [exact LY|exact HY]|]. split; [|exact HW].
  rewrite rev_involutive. split; [rewrite rev_length; exact LV|]. intros n N. assert (R0 : nth 0 (rev y) 0 = nth (length y - 1) y 0). { rewrite rev_nth by lia. reflexivity. } rewrite R0. apply HV. exact N.
Qed.
Lemma ff_exists b a x : ff_ready b a x -> exists w, filtfilt b a x = Ok w.
Proof.
  intros (A & B & S & M & L). unfold filtfilt. destruct (pad_exists x _ L) as [ext EP]. rewrite EP. cbn [bind]. destruct (zi_exists b a A M S) as [zi EZ]. rewrite EZ. cbn [bind]. destruct (zi_ok _ _ _ A EZ) as (LZ & _ & _). destruct (from_exists b a ext (map (fun z => z * nth 0 ext 0) zi) A B ltac:(rewrite map_length; exact LZ)) as [y EY]. rewrite EY. cbn [bind]. destruct (from_exists b a (rev y) (map (fun z => z * nth (length y - 1) y 0) zi) A B ltac:(rewrite map_length; exact LZ)) as [v EV]. rewrite EV. cbn [bind]. eexists. reflexivity.
Qed.

(** ** the relation *)
Lemma fb_unique b a e x w w' : nth 0 a 0 <> 0 -> forward_backward b a e x w -> forward_backward b a e x w' -> w' = w.
Proof.
  intros A (L & ext & y & v & LE & X & Y & V & W) (L' & ext' & y' & v' & LE' & X' & Y' & V' & W').
  assert (EX : ext' = ext) by (apply nth_ext with (d := 0) (d' := 0); [congruence|]; intros i I; rewrite X', X by congruence; reflexivity). subst ext'. assert (EY : y' = y) by (apply (rest_unique b a ext); assumption). subst y'. pose proof (rest_unique _ _ _ _ _ A V V') as EV. apply (f_equal (@rev R)) in EV. rewrite !rev_involutive in EV. subst v'.
  apply nth_ext with (d := 0) (d' := 0); [congruence|]. intros i I. rewrite L' in I. rewrite W, W' by exact I. reflexivity.
Qed.
Lemma turned_comb x x' s c d m : length x' = length x -> length s = length x -> (forall i, (i < length x)%nat -> nth i s 0 = c * nth i x 0 + d * nth i x' 0) -> turned s m = c * turned x m + d * turned x' m.
Proof.
  intros L LS H. assert (G : forall i, nth i s 0 = c * nth i x 0 + d * nth i x' 0). { intros i. destruct (Nat.lt_ge_cases i (length x)); [apply H; assumption|]. rewrite !nth_overflow by congruence. ring. } unfold turned. rewrite L, LS, !G. destruct (m <? 0)%Z; [ring|]. destruct (m <? _)%Z; ring.
Qed.
Lemma nth_rev' {A} (l : list A) d i : (i < length l)%nat -> nth i (rev l) d = nth (length l - 1 - i) l d.
Proof. intros H. rewrite rev_nth by exact H. f_equal. lia. Qed.
Lemma fb_comb b a e c d x x' w w' s t : forward_backward b a e x w -> forward_backward b a e x' w' -> length x' = length x -> length s = length x -> length t = length x ->
  (forall i, (i < length x)%nat -> nth i s 0 = c * nth i x 0 + d * nth i x' 0) -> (forall i, (i < length x)%nat -> nth i t 0 = c * nth i w 0 + d * nth i w' 0) -> forward_backward b a e s t.
Proof.
  intros (L & ext & y & v & LE & X & Y & V & W) (L' & ext' & y' & v' & LE' & X' & Y' & V' & W') LX LS LT S T. rewrite LX in LE', W'. pose proof (proj1 Y) as LY. pose proof (proj1 Y') as LY'. pose proof (proj1 V) as LV. pose proof (proj1 V') as LV'. rewrite !rev_length in LV, LV'.
  split; [congruence|]. set (mk := fun p q : list R => map (fun i => c * nth i p 0 + d * nth i q 0) (seq 0 (length x + 2 * e))). assert (LM : forall p q, length (mk p q) = (length x + 2 * e)%nat) by (intros; unfold mk; rewrite map_length, seq_length; reflexivity).
  assert (NM : forall p q i, (i < length x + 2 * e)%nat -> nth i (mk p q) 0 = c * nth i p 0 + d * nth i q 0). { intros p q i I. unfold mk. rewrite (nth_map_seq (fun i => c * nth i p 0 + d * nth i q 0)) by exact I. reflexivity. }
  exists (mk ext ext'), (mk y y'), (mk v v'). rewrite LM, LS. split; [reflexivity|]. split; [intros i I; rewrite NM, X, X' by lia; symmetry; apply turned_comb; assumption|]. split; [|split].
  - apply (rest_comb b a c d ext ext' y y'); rewrite ?LM; try assumption; try congruence; intros i I; apply NM; lia.
  - apply (rest_comb b a c d (rev y) (rev y') (rev v) (rev v')); rewrite ?rev_length, ?LM; try assumption; try congruence; intros i I; rewrite !nth_rev' by (rewrite ?LM; lia); rewrite LM, NM by lia; f_equal; f_equal; f_equal; lia.
  - intros i I. rewrite NM by lia. rewrite <- W, <- W' by lia. apply T. exact I.
Qed.
Lemma fb_const b a e c n : lsum a <> 0 -> (e < n)%nat -> forward_backward b a e (repeat c n) (repeat (dc_gain b a * (dc_gain b a * c)) n).
Proof.
  intros S E. split; [rewrite !repeat_length; reflexivity|]. exists (repeat c (n + 2 * e)), (repeat (dc_gain b a * c) (n + 2 * e)), (repeat (dc_gain b a * (dc_gain b a * c)) (n + 2 * e)). rewrite !repeat_length. split; [reflexivity|].
  assert (RN : forall (v : R) m i, (i < m)%nat -> nth i (repeat v m) 0 = v). { intros v m i I. rewrite (nth_indep _ 0 v) by (rewrite repeat_length; exact I). apply nth_repeat. }
  assert (RV : forall (v : R) m, rev (repeat v m) = repeat v m). { intros v m. apply nth_ext with (d := 0) (d' := 0); [rewrite rev_length; reflexivity|]. intros i I. rewrite rev_length, repeat_length in I. rewrite nth_rev', repeat_length, !RN by (rewrite ?repeat_length; lia). reflexivity. }
  split; [|split; [apply rest_const; exact S|split; [rewrite !RV; apply rest_const; exact S|intros i I; rewrite !RN by lia; reflexivity]]].
  intros i I. rewrite RN by exact I. unfold turned. rewrite repeat_length. destruct (Z.ltb_spec (Z.of_nat i - Z.of_nat e) 0); [rewrite !RN by lia; ring|]. destruct (Z.ltb_spec (Z.of_nat i - Z.of_nat e) (Z.of_nat n)); [rewrite !RN by lia; ring|]. rewrite !RN by lia. ring.
Qed.
