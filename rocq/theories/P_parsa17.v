(** Second post equalization: all blocks, and the result. *)
From Verif Require Import Base BaseFacts M_utils M_sig M_process M_decoder M_decoder3 M_parsa2 M_parsa3
  S_process S_decoder3 S_parsa2 S_parsa3 P_sig P_dec13 P_proc4 P_proc5 P_parsa3 P_parsa7 P_parsa8 P_parsa9 P_parsa10 P_parsa11 P_parsa12 P_parsa13 P_parsa14
  P_parsa15 P_parsa16.
Open Scope R_scope.

Lemma mapM_combine_map {A B C D} (F : A -> C -> res D) (g : B -> C) : forall (l : list A) (m : list B),
  mapM (fun q => F (fst q) (g (snd q))) (combine l m) = mapM (fun q => F (fst q) (snd q)) (combine l (map g m)).
Proof. induction l as [|a l IH]; intros [|b m]; cbn; try reflexivity. rewrite IH. reflexivity. Qed.

Lemma sig_block bs blk x s v : length blk = bs -> (forall j, (j < bs)%nat -> nth j blk 0 = block bs x s j) -> sig_at blk v = block_at bs x s (s + v).
Proof.
  intros L N. unfold sig_at, block_at. destruct (Z.leb_spec 0 v) as [A|A].
  - destruct (Z.leb_spec s (s + v)); [|lia]. cbn [andb]. destruct (Z.ltb_spec (s + v) (s + Z.of_nat bs)).
    + rewrite N by lia. f_equal. lia.
    + apply nth_overflow. lia.
  - destruct (Z.leb_spec s (s + v)); [lia|]. reflexivity.
Qed.
Lemma twice_shift h f g s v : (forall w, f w = g (s + w)%Z) -> twice h f v = twice h g (s + v).
Proof.
  intros E. unfold twice. apply rsum_ext. intros t T. f_equal. apply rsum_ext. intros r Q. rewrite E. f_equal. f_equal. lia.
Qed.
Lemma twice_outside h bs x s v e : length h = (e + 1)%nat -> (v < s - Z.of_nat e \/ s + Z.of_nat bs + Z.of_nat e <= v)%Z -> twice h (block_at bs x s) v = 0.
Proof.
  intros L O. unfold twice. apply rsum_0. intros t T. rewrite rsum_0; [lra|]. intros r Q.
  unfold block_at. destruct (Z.leb_spec s (v + Z.of_nat t - Z.of_nat r)); cbn [andb]; [|lra].
  destruct (Z.ltb_spec (v + Z.of_nat t - Z.of_nat r) (s + Z.of_nat bs)); [lia|lra].
Qed.

Section Loop.
Variables (fs : Z) (gs : list (list R)) (widths att : list R) (irs : list (list R)) (h S : nat) (order : nat) (p : list R) (rws : list (list R)).
Notation bs := (2 * h)%nat.
Notation nb := (length gs).
Notation at_ := (fun l => nth l att 0).
Notation x := (fun l => nth l rws []).
Notation bands := (fun b : nat => nth b gs []).
Hypothesis (Hh : (1 <= h)%nat) (Hf : (0 < fs)%Z) (Hg : forall b, (b < nb)%nat -> length (nth b gs []) = (bs / 2 + 1)%nat)
  (Hw : length widths = nb) (Hw0 : forall b, (b < nb)%nat -> 0 < nth b widths 0) (H3 : (3 <= nb)%nat)
  (Hi : length irs = nb) (Hi0 : forall b, (b < nb)%nat -> length (nth b irs []) = (bs + 1)%nat)
  (Ho : (1 <= order)%nat) (Hp : length p = S) (Hr : forall l, (l < length rws)%nat -> length (nth l rws []) = S)
  (Ha : length att = length rws) (Ha0 : forall l, 0 <= nth l att 0).
Notation G b i := (eq2_gain b (bands b) bs (length rws) at_ p x (Z.of_nat (i * h) - Z.of_nat bs)).
Notation Piece l i u := (rsum nb (fun b => G b i * twice (nth b irs []) (block_at bs (x l) (Z.of_nat (i * h) - Z.of_nat bs)) u)).

Definition row_smooth (hist : list (list R)) (j : nat) : Prop := length (nth j hist []) = nb /\
  forall b, (b < nb)%nat -> nth b (nth j hist []) 0 = if (j =? 0)%nat then G b 0%nat else
    let k := Nat.min order j in fall k 0 * G b j + rsum (k - 1) (fun m => fall k (m + 1) * nth b (nth (j - (m + 1)) hist []) 0).

Lemma loop2 N : N = (S + 4 * bs)%nat -> forall m fuel i bufs hist,
  (m < fuel)%nat -> (S + 2 * bs < i * h + bs + m * h)%nat -> (forall j, (j < m)%nat -> ((i + j) * h + bs <= S + 2 * bs)%nat) ->
  length bufs = length rws -> (forall l, (l < length rws)%nat -> length (nth l bufs []) = N) ->
  length hist = i -> (forall j, (j < i)%nat -> row_smooth hist j) ->
  exists bufs' hist', equalize2_loop fuel fs gs widths irs att (Z.of_nat order) bs (padded bs p) (map (padded bs) rws) (S + 2 * bs) (i * h) bufs hist = Ok (bufs', hist') /\
    length hist' = (i + m)%nat /\ (forall j, (j < i + m)%nat -> row_smooth hist' j) /\
    length bufs' = length rws /\ forall l, (l < length rws)%nat -> length (nth l bufs' []) = N /\
      forall q, (q < N)%nat -> nth q (nth l bufs' []) 0 = nth q (nth l bufs []) 0 + rsum m (fun j => Piece l (i + j)%nat (Z.of_nat q - 2 * Z.of_nat bs)%Z).
Proof.
  intros EN. induction m as [|m IH]; intros fuel i bufs hist F E1 E2 Lb Ln Lh Sh.
  - destruct fuel as [|fuel]; [lia|]. cbn [equalize2_loop]. destruct (Nat.leb_spec (i * h + bs) (S + 2 * bs)); [lia|].
    exists bufs, hist. split; [reflexivity|]. rewrite Nat.add_0_r. split; [exact Lh|]. split; [exact Sh|]. split; [exact Lb|].
    intros l L. split; [apply Ln; exact L|]. intros q Q. cbn [rsum]. lra.
  - destruct fuel as [|fuel]; [lia|]. cbn [equalize2_loop].
    assert (i * h + bs <= S + 2 * bs)%nat as B by (specialize (E2 0%nat ltac:(lia)); lia).
    rewrite (proj2 (Nat.leb_le _ _) B).
    set (s := (Z.of_nat (i * h) - Z.of_nat bs)%Z).
    destruct (block_ok h bs p (i * h) Hh ltac:(lia)) as (bp & Ebp & Lbp & Nbp). fold s in Nbp.
    rewrite Ebp. cbn [bind].
    destruct (blocks_ok h bs S rws Hh Hr (i * h) B) as [Ebx Nbx]. fold s in Nbx. rewrite Ebx. cbn [bind]. clear Ebx Ebp.
    set (bx := map _ rws).
    assert (length bx = length rws) as Lbx by (unfold bx; rewrite map_length; reflexivity).
    assert (forall l, (l < length rws)%nat -> length (nth l bx []) = bs /\ forall j, (j < bs)%nat -> nth j (nth l bx []) 0 = block bs (nth l rws []) s j) as Nx.
    { intros l L. unfold bx. rewrite (nth_map_in _ _ _ _ []) by exact L. apply Nbx. exact L. }
    clearbody bx.
    destruct (block_gains_ok fs gs widths att h p rws s bp bx Hh Hf Hg Hw Hw0 H3 Ha Ha0 (conj Lbp Nbp) Lbx Nx) as (gains & Eg & Lg & Ng).
    rewrite Eg. cbn [bind].
    destruct (smooth_gains_ok order hist gains nb Ho Lg) as (sm & Es & Ls & Ns).
    { intros j J. rewrite Lh in J. apply Sh. exact J. }
    rewrite Es. cbn [bind].
    rewrite Hi0 by lia. replace (Z.of_nat (i * h) + Z.of_nat bs - (Z.of_nat (bs + 1) - 1))%Z with (Z.of_nat (i * h)) by lia.
    replace (Z.of_nat (i * h) + 2 * Z.of_nat bs + (Z.of_nat (bs + 1) - 1))%Z with (Z.of_nat (i * h) + Z.of_nat (3 * bs))%Z by lia.
    rewrite (mapM_combine_map (fun u v => iadd_slice u (Z.of_nat (i * h)) (Z.of_nat (i * h) + Z.of_nat (3 * bs)) v) (block_output bs irs gains)).
    set (X := map (block_output bs irs gains) bx).
    assert (length X = length rws) as LX by (unfold X; rewrite map_length; exact Lbx).
    assert (forall l, (l < length rws)%nat -> length (nth l X []) = (3 * bs)%nat /\ forall t, (t < 3 * bs)%nat -> nth t (nth l X []) 0 =
       Piece l i (Z.of_nat t + s - Z.of_nat bs)%Z) as NX.
    { intros l L. unfold X. rewrite (nth_map_in _ _ _ _ []) by lia. destruct (Nx l L) as [A1 A2].
      destruct (block_output_ok bs irs gains (nth l bx []) bs ltac:(lia) A1 ltac:(lia) ltac:(lia)) as [C1 C2].
      { intros b Hb. apply Hi0. lia. }
      split; [lia|]. intros t T. rewrite C2 by lia. rewrite Hi. apply rsum_ext. intros b Hb. rewrite Ng by exact Hb. fold s. f_equal.
      rewrite (twice_shift (nth b irs []) (sig_at (nth l bx [])) (block_at bs (nth l rws []) s) s).
      - f_equal. lia.
      - intros w. apply sig_block; assumption. }
    clearbody X.
    destruct (P_parsa10.iadd_rows h S p rws att Hh Hp Ha (i * h) (3 * bs) N ltac:(lia) bufs X ltac:(lia)) as (bufs' & Eb & Lb' & Nb').
    { intros l L. apply Ln. lia. }
    { intros l L. apply NX. lia. }
    rewrite Eb. cbn [bind]. replace (bs / 2)%nat with h by (rewrite Nat.mul_comm, Nat.div_mul; lia). replace (i * h + h)%nat with (Datatypes.S i * h)%nat by lia.
    assert (forall j, (j < length hist)%nat -> nth j (hist ++ [sm]) [] = nth j hist []) as Old by (intros j J; apply app_nth1; exact J).
    destruct (IH fuel (Datatypes.S i) bufs' (hist ++ [sm])) as (out & hs & EO & LO & SO & LB & NO); [lia|lia| |lia| | | |].
    { intros j J. specialize (E2 (1 + j)%nat ltac:(lia)). lia. }
    { intros l L. apply Nb'. lia. }
    { rewrite app_length. cbn. lia. }
    { intros j J. destruct (Nat.eq_dec j i) as [->|Nj].
      - assert (nth i (hist ++ [sm]) [] = sm) as Ei by (rewrite app_nth2, Lh, Nat.sub_diag by lia; reflexivity).
        split; [rewrite Ei; exact Ls|]. intros b Hb. rewrite Ei, Ns by exact Hb. rewrite Lh. destruct (Nat.eqb_spec i 0) as [I0|I0].
        + rewrite Ng by exact Hb. unfold s. rewrite I0. reflexivity.
        + cbv zeta. rewrite Ng by exact Hb. fold s. f_equal. apply rsum_ext. intros m' M'. rewrite Old by lia. reflexivity.
      - destruct (Sh j ltac:(lia)) as [A1 A2]. unfold row_smooth. rewrite Old by lia. split; [exact A1|]. intros b Hb. rewrite (A2 b Hb).
        destruct (Nat.eqb_spec j 0); [reflexivity|]. cbv zeta. f_equal. apply rsum_ext. intros m' M'. rewrite Old by lia. reflexivity. }
    exists out, hs. split; [exact EO|]. split; [lia|]. split; [intros j J; apply SO; lia|]. split; [exact LB|]. intros l L.
    destruct (NO l L) as [A1 A2]. split; [exact A1|]. intros q Q. rewrite A2 by exact Q. destruct (Nb' l ltac:(lia)) as [_ C]. rewrite C.
    rewrite rsum_shift, Rplus_assoc. f_equal. f_equal.
    + rewrite Nat.add_0_r. fold s. destruct (Nat.leb_spec (i * h) q); cbn [andb].
      * destruct (Nat.ltb_spec q (i * h + 3 * bs)).
        { rewrite (proj2 (NX l L)) by lia. fold s. replace (Z.of_nat (q - i * h) + s - Z.of_nat bs)%Z with (Z.of_nat q - 2 * Z.of_nat bs)%Z by (unfold s; lia). reflexivity. }
        { symmetry. apply rsum_0. intros b Hb. rewrite (twice_outside _ bs _ s _ bs); [ring|apply Hi0; exact Hb|unfold s; lia]. }
      * symmetry. apply rsum_0. intros b Hb. rewrite (twice_outside _ bs _ s _ bs); [ring|apply Hi0; exact Hb|unfold s; lia].
    + apply rsum_ext. intros j J. replace (Datatypes.S i + j)%nat with (i + Datatypes.S j)%nat by lia. reflexivity.
Qed.
Lemma order_zero o fuel bufs p' xs' n : (o <= 0)%Z -> p' = padded bs p -> xs' = map (padded bs) rws -> n = (S + 2 * bs)%nat ->
  length bufs = length rws -> (forall l, (l < length rws)%nat -> length (nth l bufs []) = (S + 4 * bs)%nat) -> (2 <= fuel)%nat ->
  equalize2_loop fuel fs gs widths irs att o bs p' xs' n 0 bufs [] = Err IndexError.
Proof.
  intros O -> -> -> Lb Ln F. destruct fuel as [|[|fuel]]; [lia|lia|].
  assert (forall start, (start + bs <= S + 2 * bs)%nat -> exists bp bx gains,
    block_of bs (padded bs p) start = Ok bp /\ mapM (fun y => block_of bs y start) (map (padded bs) rws) = Ok bx /\ 
    length bx = length rws /\ (forall l, (l < length rws)%nat -> length (nth l bx []) = bs) /\
    block_gains fs gs widths att bp bx = Ok gains /\ length gains = nb) as Step.
  { intros start B. destruct (block_ok h bs p start Hh ltac:(lia)) as (bp & Ebp & Lbp & Nbp).
    destruct (blocks_ok h bs S rws Hh Hr start B) as [Ebx Nbx].
    assert (forall l, (l < length rws)%nat -> length (nth l (map (the_block h bs start) rws) []) = bs /\ forall j, (j < bs)%nat -> nth j (nth l (map (the_block h bs start) rws) []) 0 =
      block bs (nth l rws []) (Z.of_nat start - Z.of_nat bs) j) as Nx.
    { intros l L. rewrite (nth_map_in _ _ _ _ []) by exact L. apply Nbx. exact L. }
    destruct (block_gains_ok fs gs widths att h p rws (Z.of_nat start - Z.of_nat bs)%Z bp _ Hh Hf Hg Hw Hw0 H3 Ha Ha0 (conj Lbp Nbp) (map_length _ _) Nx) as (gains & Eg & Lg & Ng).
    exists bp, (map (the_block h bs start) rws), gains. rewrite map_length. do 3 (split; [assumption || reflexivity|]). split; [intros l L; apply Nx; exact L|]. auto. }
  cbn [equalize2_loop]. destruct (Nat.leb_spec (0 + bs) (S + 2 * bs)); [|lia].
  destruct (Step 0%nat ltac:(lia)) as (bp & bx & gains & Ebp & Ebx & Lbx & Nbx & Eg & Lg). rewrite Ebp. cbn [bind]. rewrite Ebx. cbn [bind].
  rewrite Eg. cbn [bind smooth_gains].
  rewrite Hi0 by lia. replace (Z.of_nat 0 + Z.of_nat bs - (Z.of_nat (bs + 1) - 1))%Z with (Z.of_nat 0) by lia.
  replace (Z.of_nat 0 + 2 * Z.of_nat bs + (Z.of_nat (bs + 1) - 1))%Z with (Z.of_nat 0 + Z.of_nat (3 * bs))%Z by lia.
  rewrite (mapM_combine_map (fun u v => iadd_slice u (Z.of_nat 0) (Z.of_nat 0 + Z.of_nat (3 * bs)) v) (block_output bs irs gains)).
  destruct (P_parsa10.iadd_rows h S p rws att Hh Hp Ha 0 (3 * bs) (S + 4 * bs) ltac:(lia) bufs (map (block_output bs irs gains) bx)) as (bufs' & Eb & _).
  { rewrite map_length. lia. }
  { intros l L. apply Ln. lia. }
  { intros l L. rewrite (nth_map_in _ _ _ _ []) by lia. replace (3 * bs)%nat with (bs + 2 * bs)%nat by lia.
    apply (block_output_ok bs irs gains (nth l bx []) bs); [lia|apply Nbx; lia|lia|lia|]. intros b Hb. apply Hi0. lia. }
  rewrite Eb. cbn [bind]. replace (0 + bs / 2)%nat with h by (rewrite (Nat.mul_comm 2 h), Nat.div_mul; lia).
  destruct (Nat.leb_spec (h + bs) (S + 2 * bs)); [|lia].
  destruct (Step h ltac:(lia)) as (bp' & bx' & gains' & Ebp' & Ebx' & _ & _ & Eg' & _). rewrite Ebp'. cbn [bind]. rewrite Ebx'. cbn [bind].
  rewrite Eg'. cbn [bind]. rewrite smooth_gains_zero; [reflexivity|exact O|discriminate].
Qed.
End Loop.
