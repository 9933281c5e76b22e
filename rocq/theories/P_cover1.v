(** Triangles that go on across each of their sides cover all directions. *)
From Coq Require Import Lra Lia Psatz Classical.
From Verif Require Import Base BaseFacts.
Open Scope R_scope.

Definition tdet (a b c : V3) : R := dot3 a (cross3 b c).
Definition comb (x y z : R) (a b c : V3) : V3 := add3 (scal3 x a) (add3 (scal3 y b) (scal3 z c)).
Ltac v3 := repeat match goal with v : V3 |- _ => destruct v as [[? ?] ?] end;
  unfold tdet, comb, dot3, cross3, add3, scal3, sub3, vx, vy, vz in *; cbn [fst snd] in *.
Lemma v3_eq (x y z x' y' z' : R) : x = x' -> y = y' -> z = z' -> (x, y, z) = (x', y', z').
Proof. now intros -> -> ->. Qed.

Lemma cramer a b c v : tdet a b c <> 0 -> v = comb (tdet v b c / tdet a b c) (tdet a v c / tdet a b c) (tdet a b v / tdet a b c) a b c.
Proof. intro D. v3. apply v3_eq; field; exact D. Qed.
Lemma tdet_comb1 a b c x y z : tdet (comb x y z a b c) b c = x * tdet a b c.
Proof. v3. ring. Qed.
Lemma tdet_comb2 a b c x y z : tdet a (comb x y z a b c) c = y * tdet a b c.
Proof. v3. ring. Qed.
Lemma tdet_comb3 a b c x y z : tdet a b (comb x y z a b c) = z * tdet a b c.
Proof. v3. ring. Qed.

Definition tri (T : list (V3 * V3 * V3)) (a b c : V3) : Prop :=
  In (a, b, c) T \/ In (b, c, a) T \/ In (c, a, b) T \/ In (b, a, c) T \/ In (a, c, b) T \/ In (c, b, a) T.
Definition covered (T : list (V3 * V3 * V3)) (v : V3) : Prop :=
  exists a b c x y z, In (a, b, c) T /\ 0 <= x /\ 0 <= y /\ 0 <= z /\ v = comb x y z a b c.
Lemma tri_covered T a b c x y z : tri T a b c -> 0 <= x -> 0 <= y -> 0 <= z -> covered T (comb x y z a b c).
Proof.
  intros H X Y Z. unfold covered.
  destruct H as [H|[H|[H|[H|[H|H]]]]].
  - exists a, b, c, x, y, z. repeat (split; [assumption|]). reflexivity.
  - exists b, c, a, y, z, x. repeat (split; [assumption|]). v3; apply v3_eq; ring.
  - exists c, a, b, z, x, y. repeat (split; [assumption|]). v3; apply v3_eq; ring.
  - exists b, a, c, y, x, z. repeat (split; [assumption|]). v3; apply v3_eq; ring.
  - exists a, c, b, x, z, y. repeat (split; [assumption|]). v3; apply v3_eq; ring.
  - exists c, b, a, z, y, x. repeat (split; [assumption|]). v3; apply v3_eq; ring.
Qed.

(** * A positive quantity stays so for a while *)
Lemma stays x d : 0 < x -> exists e, 0 < e /\ forall t, 0 <= t <= e -> 0 <= x + t * d.
Proof.
  intro X. pose proof (Rabs_pos d). exists (x / (Rabs d + 1)).
  assert (E : 0 < x / (Rabs d + 1)) by (apply Rdiv_lt_0_compat; lra). split; [exact E|].
  intros t [T0 T1]. assert (B : t * Rabs d <= x).
  { apply Rle_trans with (x / (Rabs d + 1) * (Rabs d + 1)); [|right; field; lra].
    apply Rle_trans with (t * (Rabs d + 1)); [nra|]. apply Rmult_le_compat_r; lra. }
  pose proof (Rle_abs (- d)). rewrite Rabs_Ropp in *. nra.
Qed.
Definition soon (P : R -> Prop) : Prop := exists e, 0 < e /\ forall t, 0 <= t <= e -> P t.
Lemma soon_and P Q : soon P -> soon Q -> soon (fun t => P t /\ Q t).
Proof.
  intros (e & E & HP) (f & F & HQ). exists (Rmin e f). pose proof (Rmin_l e f). pose proof (Rmin_r e f).
  split; [now apply Rmin_glb_lt|]. intros t Ht. split; [apply HP|apply HQ]; lra.
Qed.
Lemma soon_imp (P Q : R -> Prop) : (forall t, 0 <= t -> P t -> Q t) -> soon P -> soon Q.
Proof. intros I (e & E & H). exists e. split; [exact E|]. intros t Ht. apply I; [lra|now apply H]. Qed.

(** * One step further: inside a face and across a side *)
Lemma step_inside T a b c x y z d : tri T a b c -> tdet a b c <> 0 -> 0 < x -> 0 < y -> 0 < z ->
  soon (fun t => covered T (add3 (comb x y z a b c) (scal3 t d))).
Proof.
  intros HT D X Y Z. pose proof (cramer a b c d D) as E.
  set (p := tdet d b c / tdet a b c) in *. set (q := tdet a d c / tdet a b c) in *. set (r := tdet a b d / tdet a b c) in *.
  eapply soon_imp; [|apply soon_and; [exact (stays x p X)|apply soon_and; [exact (stays y q Y)|exact (stays z r Z)]]].
  cbv beta. intros t _ (A & B & C).
  replace (add3 (comb x y z a b c) (scal3 t d)) with (comb (x + t * p) (y + t * q) (z + t * r) a b c); [now apply tri_covered|].
  rewrite E. clear. clearbody p q r. v3; apply v3_eq; ring.
Qed.
Lemma step_side T a b c x y d : tri T a b c -> tdet a b c <> 0 ->
  (exists e, tri T a b e /\ tdet a b c * tdet a b e < 0) -> 0 < x -> 0 < y ->
  soon (fun t => covered T (add3 (comb x y 0 a b c) (scal3 t d))).
Proof.
  intros HT D (e & HE & S) X Y. 
  assert (Side : forall c', tri T a b c' -> tdet a b c' <> 0 -> 0 <= tdet a b d / tdet a b c' -> soon (fun t => covered T (add3 (comb x y 0 a b c) (scal3 t d)))).
  { intros c' HT' D' G. pose proof (cramer a b c' d D') as E.
    set (p := tdet d b c' / tdet a b c') in *. set (q := tdet a d c' / tdet a b c') in *. set (r := tdet a b d / tdet a b c') in *.
    eapply soon_imp; [|apply soon_and; [exact (stays x p X)|exact (stays y q Y)]].
    cbv beta. intros t Ht (A & B).
    replace (add3 (comb x y 0 a b c) (scal3 t d)) with (comb (x + t * p) (y + t * q) (t * r) a b c'); [apply tri_covered; auto; nra|].
    rewrite E. clear. clearbody p q r. v3; apply v3_eq; ring. }
  assert (DE : tdet a b e <> 0) by (intro Z; rewrite Z in S; lra).
  destruct (Rle_or_lt 0 (tdet a b d / tdet a b c)) as [G|G]; [exact (Side c HT D G)|].
  apply (Side e HE DE). 
  replace (tdet a b d / tdet a b e) with ((tdet a b d / tdet a b c) * (tdet a b c * tdet a b e) * / (tdet a b e * tdet a b e)) by (field; auto).
  apply Rmult_le_pos; [nra|]. left. apply Rinv_0_lt_compat. nra.
Qed.

(** * The last point of a segment in a cone *)
Definition sat (cs : list (R * R)) (s : R) : Prop := Forall (fun c => 0 <= fst c + s * snd c) cs.
Lemma last_sat cs : forall s0, 0 <= s0 <= 1 -> sat cs s0 ->
  exists h, s0 <= h <= 1 /\ sat cs h /\ forall s, 0 <= s <= 1 -> sat cs s -> s <= h.
Proof.
  induction cs as [|[p q] cs IH]; intros s0 R0 S0.
  - exists 1. split; [lra|]. split; [constructor|]. intros; lra.
  - unfold sat in S0. inversion S0 as [|? ? A B]; subst. cbn [fst snd] in A. destruct (IH s0 R0 B) as (h & Rh & Sh & Mh).
    destruct (Rle_or_lt 0 (p + h * q)) as [G|G].
    + exists h. split; [lra|]. split; [constructor; assumption|]. intros s Rs Ss. inversion Ss; subst. now apply Mh.
    + assert (Q : q < 0) by nra. set (t := - p / q). assert (Et : p + t * q = 0) by (unfold t; field; lra).
      assert (T0 : s0 <= t) by nra. assert (T1 : t <= h) by nra.
      exists t. split; [lra|]. split.
      * constructor; [cbn [fst snd]; lra|]. unfold sat in *. rewrite Forall_forall in *. intros c Hc.
        pose proof (B c Hc). pose proof (Sh c Hc). destruct (Rle_or_lt 0 (snd c)); nra.
      * intros s Rs Ss. inversion Ss as [|? ? A' B']; subst. cbn [fst snd] in A'. nra.
Qed.
Definition lin (z u : V3) (s : R) : V3 := add3 z (scal3 s (sub3 u z)).
Definition tests (z u : V3) (f : V3 * V3 * V3) : list (R * R) :=
  let '(a, b, c) := f in let D := tdet a b c in
  [(tdet z b c / D, tdet (sub3 u z) b c / D); (tdet a z c / D, tdet a (sub3 u z) c / D); (tdet a b z / D, tdet a b (sub3 u z) / D)].
Definition in_tri (f : V3 * V3 * V3) (v : V3) : Prop := let '(a, b, c) := f in exists x y z, 0 <= x /\ 0 <= y /\ 0 <= z /\ v = comb x y z a b c.
Lemma tests_iff z u f s : (let '(a, b, c) := f in tdet a b c <> 0) -> sat (tests z u f) s <-> in_tri f (lin z u s).
Proof.
  destruct f as [[a b] c]. intro D. unfold sat, tests, in_tri.
  assert (E1 : tdet (lin z u s) b c / tdet a b c = tdet z b c / tdet a b c + s * (tdet (sub3 u z) b c / tdet a b c)) by (unfold lin; clear -D; v3; field; exact D).
  assert (E2 : tdet a (lin z u s) c / tdet a b c = tdet a z c / tdet a b c + s * (tdet a (sub3 u z) c / tdet a b c)) by (unfold lin; clear -D; v3; field; exact D).
  assert (E3 : tdet a b (lin z u s) / tdet a b c = tdet a b z / tdet a b c + s * (tdet a b (sub3 u z) / tdet a b c)) by (unfold lin; clear -D; v3; field; exact D).
  split.
  - intro F. inversion F as [|? ? F1 F']; subst. inversion F' as [|? ? F2 F'']; subst. inversion F'' as [|? ? F3 _]; subst. cbn [fst snd] in F1, F2, F3.
    rewrite <- E1 in F1. rewrite <- E2 in F2. rewrite <- E3 in F3. eexists _, _, _. split; [exact F1|]. split; [exact F2|]. split; [exact F3|]. now apply cramer.
  - intros (x & y & w & X & Y & W & E). rewrite E in E1, E2, E3. rewrite tdet_comb1 in E1. rewrite tdet_comb2 in E2. rewrite tdet_comb3 in E3.
    replace (x * tdet a b c / tdet a b c) with x in E1 by (field; exact D). replace (y * tdet a b c / tdet a b c) with y in E2 by (field; exact D).
    replace (w * tdet a b c / tdet a b c) with w in E3 by (field; exact D).
    apply Forall_cons; [cbn [fst snd]; rewrite <- E1; exact X|]. apply Forall_cons; [cbn [fst snd]; rewrite <- E2; exact Y|]. apply Forall_cons; [cbn [fst snd]; rewrite <- E3; exact W|]. apply Forall_nil.
Qed.
Lemma covered_in T v : covered T v <-> exists f, In f T /\ in_tri f v.
Proof.
  split.
  - intros (a & b & c & x & y & z & H & X & Y & Z & E). exists (a, b, c). split; [exact H|]. exists x, y, z. auto.
  - intros ([[a b] c] & H & x & y & z & X & Y & Z & E). exists a, b, c, x, y, z. auto.
Qed.
(** the last covered point of the segment *)
Lemma last_covered T z u : (forall a b c, In (a, b, c) T -> tdet a b c <> 0) -> covered T z ->
  exists h, 0 <= h <= 1 /\ covered T (lin z u h) /\ forall s, 0 <= s <= 1 -> covered T (lin z u s) -> s <= h.
Proof.
  intros ND C0.
  assert (G : forall T', incl T' T -> (exists s, 0 <= s <= 1 /\ covered T' (lin z u s)) ->
            exists h, 0 <= h <= 1 /\ covered T' (lin z u h) /\ forall s, 0 <= s <= 1 -> covered T' (lin z u s) -> s <= h).
  { induction T' as [|f T' IH]; intros I (s0 & R0 & S0).
    - apply covered_in in S0. destruct S0 as (f & [] & _).
    - assert (Df : let '(a, b, c) := f in tdet a b c <> 0) by (destruct f as [[a b] c]; apply ND, I; left; reflexivity).
      assert (I' : incl T' T) by (intros x Hx; apply I; right; exact Hx).
      destruct (classic (exists s, 0 <= s <= 1 /\ covered T' (lin z u s))) as [E'|N'];
      destruct (classic (exists s, 0 <= s <= 1 /\ sat (tests z u f) s)) as [(sf & Rf & Sf)|Nf].
      + destruct (IH I' E') as (h & Rh & Sh & Mh). destruct (last_sat _ sf Rf Sf) as (k & Rk & Sk & Mk).
        apply covered_in in Sh. destruct Sh as (g & Hg & Ig).
        destruct (Rle_or_lt h k) as [L|L].
        * exists k. split; [lra|]. split; [apply covered_in; exists f; split; [left; reflexivity|now apply tests_iff]|].
          intros s Rs Cs. apply covered_in in Cs. destruct Cs as (g' & [<-|Hg'] & Ig').
          -- apply Mk; [exact Rs|now apply tests_iff].
          -- apply Rle_trans with h; [apply Mh; [exact Rs|apply covered_in; eauto]|exact L].
        * exists h. split; [lra|]. split; [apply covered_in; exists g; split; [right; exact Hg|exact Ig]|].
          intros s Rs Cs. apply covered_in in Cs. destruct Cs as (g' & [<-|Hg'] & Ig').
          -- apply Rle_trans with k; [apply Mk; [exact Rs|now apply tests_iff]|lra].
          -- apply Mh; [exact Rs|apply covered_in; eauto].
      + destruct (IH I' E') as (h & Rh & Sh & Mh). exists h. apply covered_in in Sh. destruct Sh as (g & Hg & Ig).
        split; [exact Rh|]. split; [apply covered_in; exists g; split; [right; exact Hg|exact Ig]|].
        intros s Rs Cs. apply covered_in in Cs. destruct Cs as (g' & [<-|Hg'] & Ig').
        * exfalso. apply Nf. exists s. split; [exact Rs|now apply tests_iff].
        * apply Mh; [exact Rs|apply covered_in; eauto].
      + destruct (last_sat _ sf Rf Sf) as (k & Rk & Sk & Mk). exists k. split; [lra|].
        split; [apply covered_in; exists f; split; [left; reflexivity|now apply tests_iff]|].
        intros s Rs Cs. apply covered_in in Cs. destruct Cs as (g' & [<-|Hg'] & Ig').
        * apply Mk; [exact Rs|now apply tests_iff].
        * exfalso. apply N'. exists s. split; [exact Rs|apply covered_in; eauto].
      + exfalso. apply covered_in in S0. destruct S0 as (g & [<-|Hg] & Ig).
        * apply Nf. exists s0. split; [exact R0|now apply tests_iff].
        * apply N'. exists s0. split; [exact R0|apply covered_in; eauto]. }
  apply G; [apply incl_refl|]. exists 0. split; [lra|]. replace (lin z u 0) with z; [exact C0|]. unfold lin. clear. v3; apply v3_eq; ring.
Qed.

(** * A starting point in general position *)
Lemma quad_nonzero p q r : p <> 0 \/ q <> 0 \/ r <> 0 -> exists t0, 0 < t0 /\ forall t, t0 <= t -> p + t * q + t * t * r <> 0.
Proof.
  intro N. pose proof (Rabs_pos p) as AP. pose proof (Rabs_pos q) as AQ. 
  destruct (Req_dec r 0) as [R0|R0].
  - destruct (Req_dec q 0) as [Q0|Q0].
    + exists 1. split; [lra|]. intros t _. subst. destruct N as [N|[N|N]]; lra.
    + pose proof (Rabs_pos_lt q Q0) as QP. exists (Rabs p / Rabs q + 1). assert (0 <= Rabs p / Rabs q) by (apply Rle_mult_inv_pos; lra). split; [lra|].
      intros t Ht E. assert (B : Rabs p < t * Rabs q). { replace (Rabs p) with (Rabs p / Rabs q * Rabs q) by (field; lra). apply Rmult_lt_compat_r; lra. }
      assert (E' : p = - (t * q)) by (subst r; lra). rewrite E' in B. rewrite Rabs_Ropp, Rabs_mult, (Rabs_right t) in B; lra.
  - pose proof (Rabs_pos_lt r R0) as RP. exists ((Rabs p + Rabs q) / Rabs r + 1). assert (0 <= (Rabs p + Rabs q) / Rabs r) by (apply Rle_mult_inv_pos; lra). split; [lra|].
    intros t Ht E. assert (B : Rabs p + Rabs q < t * Rabs r). { replace (Rabs p + Rabs q) with ((Rabs p + Rabs q) / Rabs r * Rabs r) by (field; lra). apply Rmult_lt_compat_r; lra. }
    assert (T1 : 1 <= t) by lra. assert (E' : t * t * r = - (p + t * q)) by lra.
    assert (A : t * t * Rabs r <= Rabs p + t * Rabs q).
    { replace (t * t * Rabs r) with (Rabs (t * t * r)) by (rewrite !Rabs_mult, (Rabs_right t); lra). rewrite E', Rabs_Ropp.
      eapply Rle_trans; [apply Rabs_triang|]. rewrite Rabs_mult, (Rabs_right t); lra. }
    nra.
Qed.
(** not parallel *)
Definition apart3 (p u : V3) : Prop := cross3 p u <> (0, 0, 0).
Lemma apart_form a b c p u : tdet a b c <> 0 -> apart3 p u -> tdet p a u <> 0 \/ tdet p b u <> 0 \/ tdet p c u <> 0.
Proof.
  intros D A. destruct (Req_dec (tdet p a u) 0) as [E1|]; [|auto]. destruct (Req_dec (tdet p b u) 0) as [E2|]; [|auto]. destruct (Req_dec (tdet p c u) 0) as [E3|]; [|auto].
  exfalso. apply A.
  assert (W : forall v, tdet p v u = 0).
  { intro v. rewrite (cramer a b c v D). set (x := tdet v b c / _). set (y := tdet a v c / _). set (z := tdet a b v / _).
    replace (tdet p (comb x y z a b c) u) with (x * tdet p a u + y * tdet p b u + z * tdet p c u); [rewrite E1, E2, E3; ring|]. clearbody x y z. clear. v3; ring. }
  pose proof (W (1, 0, 0)) as W1. pose proof (W (0, 1, 0)) as W2. pose proof (W (0, 0, 1)) as W3. clear - W1 W2 W3. v3. apply v3_eq; lra.
Qed.
Lemma start a b c u (L : list V3) : tdet a b c <> 0 -> 
  exists t, 0 < t /\ forall p, In p L -> apart3 p u -> tdet p (comb 1 t (t * t) a b c) u <> 0.
Proof.
  intro D.
  assert (G : exists t0, 0 < t0 /\ forall t, t0 <= t -> forall p, In p L -> apart3 p u -> tdet p a u + t * tdet p b u + t * t * tdet p c u <> 0).
  { induction L as [|p L (t0 & T0 & H)]; [exists 1; split; [lra|]; intros t _ p []|].
    destruct (classic (apart3 p u)) as [A|A].
    - destruct (quad_nonzero _ _ _ (apart_form a b c p u D A)) as (t1 & T1 & H1). exists (Rmax t0 t1). pose proof (Rmax_l t0 t1). pose proof (Rmax_r t0 t1). split; [lra|].
      intros t Ht p' [<-|Hp] A'; [apply H1; lra|apply H; [lra|exact Hp|exact A']].
    - exists t0. split; [exact T0|]. intros t Ht p' [<-|Hp] A'; [contradiction|now apply H]. }
  destruct G as (t & T & H'). pose proof (H' t (Rle_refl t)) as H. exists t. split; [exact T|]. intros p Hp A.
  replace (tdet p (comb 1 t (t * t) a b c) u) with (tdet p a u + t * tdet p b u + t * t * tdet p c u); [now apply H|]. clear. v3; ring.
Qed.
Lemma some_apart a b c (u : V3) : tdet a b c <> 0 -> u <> (0, 0, 0) -> apart3 a u \/ apart3 b u \/ apart3 c u.
Proof.
  intros D U. unfold apart3.
  destruct (classic (cross3 a u = (0, 0, 0))) as [A|]; [|auto]. destruct (classic (cross3 b u = (0, 0, 0))) as [B|]; [|auto]. destruct (classic (cross3 c u = (0, 0, 0))) as [C|]; [|auto].
  exfalso. 
  assert (W : forall v, cross3 v u = (0, 0, 0)).
  { intro v. rewrite (cramer a b c v D). set (x := tdet v b c / _). set (y := tdet a v c / _). set (z := tdet a b v / _).
    replace (cross3 (comb x y z a b c) u) with (comb x y z (cross3 a u) (cross3 b u) (cross3 c u)); [rewrite A, B, C; v3; apply v3_eq; ring|]. clearbody x y z. clear. v3; apply v3_eq; ring. }
  apply U. pose proof (W (1, 0, 0)) as W1. pose proof (W (0, 1, 0)) as W2. clear - W1 W2. destruct u as [[u1 u2] u3]. v3. injection W1 as A1 A2 A3. injection W2 as B1 B2 B3. apply v3_eq; lra.
Qed.

(** * All directions *)
Definition side_ok (T : list (V3 * V3 * V3)) : Prop := forall a b c, tri T a b c -> exists e, tri T a b e /\ tdet a b c * tdet a b e < 0.
Lemma tdet_perm a b c : tdet b c a = tdet a b c /\ tdet c a b = tdet a b c /\ tdet b a c = - tdet a b c /\ tdet a c b = - tdet a b c /\ tdet c b a = - tdet a b c.
Proof. v3. repeat split; ring. Qed.
Lemma tri_det T a b c : (forall a b c, In (a, b, c) T -> tdet a b c <> 0) -> tri T a b c -> tdet a b c <> 0.
Proof.
  intros ND H. destruct (tdet_perm a b c) as (E1 & E2 & E3 & E4 & E5). destruct H as [H|[H|[H|[H|[H|H]]]]]; apply ND in H; try rewrite E1 in H; try rewrite E2 in H; lra.
Qed.
Theorem all_covered T (u : V3) : T <> [] -> (forall a b c, In (a, b, c) T -> tdet a b c <> 0) -> side_ok T -> u <> (0, 0, 0) -> covered T u.
Proof.
  intros NE ND SO U. destruct T as [|[[a0 b0] c0] T0] eqn:ET; [contradiction|]. rewrite <- ET in *.
  assert (I0 : In (a0, b0, c0) T) by (rewrite ET; left; reflexivity). clear NE ET T0.
  pose proof (ND _ _ _ I0) as D0.
  set (L := concat (map (fun f : V3 * V3 * V3 => [fst (fst f); snd (fst f); snd f]) T)).
  assert (IL : forall a b c p, In (a, b, c) T -> p = a \/ p = b \/ p = c -> In p L).
  { intros a b c p H Hp. unfold L. apply in_concat. exists [a; b; c]. split; [apply in_map_iff; exists (a, b, c); split; [reflexivity|exact H]|]. destruct Hp as [->|[->| ->]]; cbn; auto. }
  destruct (start a0 b0 c0 u L D0) as (t & Tp & Gen). set (z := comb 1 t (t * t) a0 b0 c0) in *.
  assert (ZU : apart3 z u).
  { intro E. assert (V : forall p, tdet p z u = 0) by (intro p; unfold tdet; rewrite E; clear; v3; ring).
    destruct (some_apart a0 b0 c0 u D0 U) as [A|[A|A]]; [apply (Gen a0)|apply (Gen b0)|apply (Gen c0)]; auto; eapply IL; eauto. }
  assert (Cz : covered T z) by (apply tri_covered; [left; exact I0| | |]; nra).
  destruct (last_covered T z u ND Cz) as (h & Rh & Ch & Mh).
  destruct (Req_dec h 1) as [->|H1].
  { replace (lin z u 1) with u in Ch; [exact Ch|]. unfold lin. clear. v3; apply v3_eq; ring. }
  exfalso. assert (Hlt : h < 1) by lra.
  assert (Stop : ~ soon (fun s => covered T (add3 (lin z u h) (scal3 s (sub3 u z))))).
  { intros (e & E & HS). set (s := Rmin e (1 - h)). assert (S0 : 0 < s) by (unfold s; apply Rmin_glb_lt; lra). pose proof (Rmin_l e (1 - h)). pose proof (Rmin_r e (1 - h)). fold s in H, H0.
    specialize (HS s ltac:(lra)). replace (add3 (lin z u h) (scal3 s (sub3 u z))) with (lin z u (h + s)) in HS by (unfold lin; clear; v3; apply v3_eq; ring).
    specialize (Mh (h + s) ltac:(lra) HS). lra. }
  (* a corner is not met before the end *)
  assert (NC : forall a b c x, tri T a b c -> lin z u h <> scal3 x a).
  { intros a b c x HT E.
    assert (Ia : In a L) by (destruct HT as [H|[H|[H|[H|[H|H]]]]]; eapply IL; eauto).
    assert (K : scal3 x (cross3 a u) = scal3 (1 - h) (cross3 z u)).
    { transitivity (cross3 (scal3 x a) u); [clear; v3; apply v3_eq; ring|]. rewrite <- E. unfold lin. clear. v3; apply v3_eq; ring. }
    assert (X0 : x <> 0).
    { intros ->. apply ZU. destruct (cross3 z u) as [[e1 e2] e3]. unfold scal3, vx, vy, vz in K; cbn [fst snd] in K. injection K as K1 K2 K3. apply v3_eq; nra. }
    destruct (classic (apart3 a u)) as [A|A].
    - apply (Gen a Ia A). assert (X : x * tdet a z u = 0).
      { transitivity (tdet (scal3 x a) z u); [clear; v3; ring|]. rewrite <- E. unfold lin. clear. v3; ring. }
      nra.
    - apply ZU. apply NNPP in A. rewrite A in K. destruct (cross3 z u) as [[e1 e2] e3]. unfold scal3, vx, vy, vz in K; cbn [fst snd] in K. injection K as K1 K2 K3. apply v3_eq; nra. }
  assert (Side : forall a b c x y, tri T a b c -> 0 <= x -> 0 <= y -> lin z u h = comb x y 0 a b c -> False).
  { intros a b c x y HT X Y E.
    destruct (Req_dec x 0) as [->|X0]; [|destruct (Req_dec y 0) as [->|Y0]].
    - apply (NC b a c y); [unfold tri in *; tauto|]. rewrite E. clear. v3; apply v3_eq; ring.
    - apply (NC a b c x HT). rewrite E. clear. v3; apply v3_eq; ring.
    - apply Stop. rewrite E. apply step_side; [exact HT|now apply (tri_det T)|now apply SO|lra|lra]. }
  apply covered_in in Ch. destruct Ch as ([[a b] c] & HT & x & y & w & X & Y & W & E).
  assert (HT' : tri T a b c) by (left; exact HT).
  destruct (Req_dec w 0) as [->|W0]; [exact (Side a b c x y HT' X Y E)|].
  destruct (Req_dec x 0) as [->|X0]; [apply (Side b c a y w); [unfold tri in *; tauto|assumption|assumption|rewrite E; clear; v3; apply v3_eq; ring]|].
  destruct (Req_dec y 0) as [->|Y0]; [apply (Side c a b w x); [unfold tri in *; tauto|assumption|assumption|rewrite E; clear; v3; apply v3_eq; ring]|].
  apply Stop. rewrite E. apply step_inside; [exact HT'|now apply ND|lra|lra|lra].
Qed.
