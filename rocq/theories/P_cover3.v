(** The faces of a convex hull close up. *)
From Coq Require Import Lra Lia Psatz Classical Permutation.
From Verif Require Import Base BaseFacts M_decoder S_decoder S_cover S_cover2 P_cover1 P_cover2.
Open Scope R_scope.

(** [n] orthogonal to [e] and [f] is a multiple of their product *)
Lemma normal_id n e f x y : dot3 n e = 0 -> dot3 n f = 0 -> tdet e f x * dot3 n y = dot3 n x * tdet e f y.
Proof.
  intros E F. assert (I : tdet e f x * dot3 n y = dot3 n x * tdet e f y + dot3 n e * dot3 (cross3 f x) y + dot3 n f * dot3 (cross3 x e) y) by (clear; v3; ring).
  rewrite I, E, F. ring.
Qed.
Lemma plucker e c x y z : tdet e c y * tdet e x z = tdet e c x * tdet e y z + tdet e c z * tdet e x y.
Proof. v3; ring. Qed.
Lemma tdet_swap e x y : tdet e x y = - tdet e y x.
Proof. v3; ring. Qed.
Lemma tdet_base e f a : tdet e f a = dot3 a (cross3 e f).
Proof. v3; ring. Qed.

(** a largest element *)
Lemma top {A} (R : A -> A -> Prop) (l : list A) : l <> [] -> NoDup l ->
  (forall x y, In x l -> In y l -> x <> y -> R x y \/ R y x) -> (forall x y z, In x l -> In y l -> In z l -> R x y -> R y z -> R x z) ->
  exists m, In m l /\ forall x, In x l -> x <> m -> R x m.
Proof.
  induction l as [|a l IH]; [contradiction|]. intros _ ND TO TR. inversion ND as [|? ? Na ND']; subst.
  destruct l as [|b l]; [exists a; split; [left; reflexivity|]; intros x [<-|[]] N; contradiction|].
  destruct IH as (m & Im & M); [discriminate|exact ND'| | |].
  - intros x y X Y. apply TO; right; assumption.
  - intros x y z X Y Z. apply TR; right; assumption.
  - assert (am : a <> m) by (intros ->; contradiction).
    destruct (TO a m (or_introl eq_refl) (or_intror Im) am) as [R1|R1].
    + exists m. split; [right; exact Im|]. intros x [<-|Hx] N; [exact R1|now apply M].
    + exists a. split; [left; reflexivity|]. intros x [<-|Hx] N; [contradiction|].
      destruct (classic (x = m)) as [->|xm]; [exact R1|]. apply (TR x m a); [right; exact Hx|right; exact Im|left; reflexivity|now apply M|exact R1].
Qed.

Section Hull.
Variable ps : list V3.
Notation pt i := (@nth V3 i ps (0, 0, 0)).
Hypothesis GE : general ps.
Hypothesis SU : surrounded ps.
Definition off (a d : nat) : V3 := sub3 (pt d) (pt a).
Lemma dot_off n a d : dot3 n (off a d) = dot3 n (pt d) - dot3 n (pt a).
Proof. unfold off. generalize (pt a) (pt d). intros A D. v3; ring. Qed.
Lemma gen4 a b c d : (a < length ps)%nat -> (b < length ps)%nat -> (c < length ps)%nat -> (d < length ps)%nat ->
  a <> b -> a <> c -> a <> d -> b <> c -> b <> d -> c <> d -> tdet (off a b) (off a c) (off a d) <> 0.
Proof. intros. apply (proj2 GE); assumption. Qed.
Lemma another (S : list nat) : (length S <= 3)%nat -> exists d, (d < length ps)%nat /\ ~ In d S.
Proof.
  intro L. destruct (classic (exists d, (d < length ps)%nat /\ ~ In d S)) as [|N]; [assumption|]. exfalso.
  assert (I : incl (seq 0 (length ps)) S).
  { intros x Hx. apply in_seq in Hx. destruct (in_dec Nat.eq_dec x S) as [|NI]; [assumption|]. exfalso. apply N. exists x. split; [lia|exact NI]. }
  apply NoDup_incl_length in I; [|apply seq_NoDup]. rewrite seq_length in I. pose proof (proj1 GE). lia.
Qed.
Lemma height n k : n <> (0, 0, 0) -> (forall i, (i < length ps)%nat -> dot3 n (pt i) <= k) -> 0 < k.
Proof. intros N H. destruct (SU n N) as (i & Hi & P). specialize (H i Hi). lra. Qed.

Section Face.
Variables a b c : nat.
Hypothesis SP : supports ps a b c.
Lemma face_facts : exists n k, 0 < k /\ dot3 n (pt a) = k /\ dot3 n (pt b) = k /\ dot3 n (pt c) = k /\
  (forall d, (d < length ps)%nat -> d <> a -> d <> b -> d <> c -> dot3 n (pt d) < k) /\ tdet (pt a) (pt b) (pt c) <> 0.
Proof.
  destruct SP as (A & B & C & ab & bc & ac & n & k & Na & Nb & Nc & Nx).
  destruct (another [a; b; c]) as (d & Hd & Dn); [cbn; lia|]. cbn in Dn.
  assert (da : d <> a) by (intros ->; tauto). assert (db : d <> b) by (intros ->; tauto). assert (dc : d <> c) by (intros ->; tauto).
  pose proof (Nx d Hd da db dc) as Nd.
  assert (NZ : n <> (0, 0, 0)). { intros ->. revert Nd Na. generalize (pt d) (pt a). intros D' A'. v3. lra. }
  assert (K : 0 < k).
  { apply (height n k NZ). intros i Hi. destruct (Nat.eq_dec i a) as [->|ia]; [lra|]. destruct (Nat.eq_dec i b) as [->|ib]; [lra|]. destruct (Nat.eq_dec i c) as [->|ic]; [lra|].
    left. now apply Nx. }
  exists n, k. repeat (split; [assumption|]).
  assert (E : dot3 n (off a b) = 0) by (rewrite dot_off; lra). assert (F : dot3 n (off a c) = 0) by (rewrite dot_off; lra).
  pose proof (normal_id n (off a b) (off a c) (off a d) (pt a) E F) as I. rewrite Na, dot_off in I.
  assert (T : tdet (off a b) (off a c) (pt a) = tdet (pt a) (pt b) (pt c)) by (unfold off; clear; generalize (pt a) (pt b) (pt c); intros; v3; ring).
  rewrite T in I. intro Z. rewrite Z, Rmult_0_r in I. apply Rmult_integral in I.
  destruct I as [I|I]; [|lra]. revert I. apply gen4; auto.
Qed.
Lemma next_face : exists d, d <> c /\ supports ps a b d.
Proof.
  destruct SP as (A & B & C & ab & bc & ac & n & k & Na & Nb & Nc & Nx).
  set (e := off a b). set (q := off a).
  assert (E : dot3 n e = 0) by (unfold e; rewrite dot_off; lra). assert (F : dot3 n (q c) = 0) by (unfold q; rewrite dot_off; lra).
  set (l := filter (fun d => negb (existsb (Nat.eqb d) [a; b; c])) (seq 0 (length ps))).
  assert (IL : forall d, In d l <-> (d < length ps)%nat /\ d <> a /\ d <> b /\ d <> c).
  { intro d. unfold l. rewrite filter_In, in_seq. cbn [existsb]. destruct (Nat.eqb_spec d a), (Nat.eqb_spec d b), (Nat.eqb_spec d c); cbn; intuition lia. }
  assert (NQ : forall d, In d l -> dot3 n (q d) < 0) by (intros d Hd; apply IL in Hd; unfold q; rewrite dot_off, Na; specialize (Nx d); intuition lra).
  assert (DT : forall x y, In x l \/ x = c -> In y l \/ y = c -> x <> y -> tdet e (q x) (q y) <> 0).
  { intros x y X Y N. apply gen4; auto; destruct X as [X| ->], Y as [Y| ->]; try (apply IL in X); try (apply IL in Y); intuition. }
  assert (NE : l <> []).
  { destruct (another [a; b; c]) as (d & Hd & Dn); [cbn; lia|]. cbn in Dn. intro L0. assert (I : In d l) by (apply IL; repeat split; [exact Hd| | |]; intros ->; tauto). rewrite L0 in I. destruct I. }
  destruct l as [|d0 l0] eqn:El; [contradiction|]. rewrite <- El in *.
  assert (I0 : In d0 l) by (rewrite El; left; reflexivity). clear NE.
  set (s := tdet e (q c) (q d0)). assert (S0 : s <> 0) by (apply DT; auto; apply IL in I0; intuition).
  (* all others are on the side of d0 *)
  assert (SS : forall d, In d l -> 0 < s * tdet e (q c) (q d)).
  { intros d Hd. pose proof (normal_id n e (q c) (q d0) (q d) E F) as I. fold s in I. pose proof (NQ d Hd) as N1. pose proof (NQ d0 I0) as N2.
    assert (H : s * s * dot3 n (q d) = dot3 n (q d0) * (s * tdet e (q c) (q d))) by nra.
    assert (0 < s * s) by (apply Rsqr_pos_lt in S0; exact S0). assert (s * s * dot3 n (q d) < 0) by nra.
    destruct (Rlt_or_le 0 (s * tdet e (q c) (q d))) as [|G]; [assumption|]. nra. }
  set (R := fun x y => s * tdet e (q y) (q x) < 0).
  destruct (top R l) as (m & Im & M).
  - rewrite El. discriminate.
  - unfold l. apply NoDup_filter, seq_NoDup.
  - intros x y X Y N. unfold R. assert (D : tdet e (q x) (q y) <> 0) by (apply DT; auto). rewrite (tdet_swap e (q y) (q x)).
    set (t := tdet e (q x) (q y)) in *. clearbody t. clearbody s. assert (P : s * t <> 0) by (apply Rmult_integral_contrapositive; auto). destruct (Rlt_or_le (s * t) 0); [right; assumption|left; lra].
  - intros x y z X Y Z R1 R2. unfold R in *. pose proof (plucker e (q c) (q x) (q y) (q z)) as P.
    pose proof (SS x X) as Sx. pose proof (SS y Y) as Sy. pose proof (SS z Z) as Sz.
    rewrite (tdet_swap e (q y) (q x)) in R1. rewrite (tdet_swap e (q z) (q y)) in R2. rewrite (tdet_swap e (q z) (q x)).
    set (xy := tdet e (q x) (q y)) in *. set (yz := tdet e (q y) (q z)) in *. set (xz := tdet e (q x) (q z)) in *.
    set (cx := tdet e (q c) (q x)) in *. set (cy := tdet e (q c) (q y)) in *. set (cz := tdet e (q c) (q z)) in *.
    assert (P2 : (s * cy) * (s * xz) = (s * cx) * (s * yz) + (s * cz) * (s * xy)) by (transitivity (s * s * (cy * xz)); [ring|rewrite P; ring]).
    assert (Q : 0 < (s * cy) * (s * xz)) by (rewrite P2; assert (0 < s * yz) by lra; assert (0 < s * xy) by lra; nra).
    destruct (Rlt_or_le 0 (s * xz)) as [|G]; [lra|]. nra.
  - pose proof (proj1 (IL m) Im) as (Lm & ma & mb & mc). exists m. split; [exact mc|].
    assert (NEG : forall d, (d < length ps)%nat -> d <> a -> d <> b -> d <> m -> s * tdet e (q m) (q d) < 0).
    { intros d Hd da db dm. destruct (Nat.eq_dec d c) as [->|dc].
      - rewrite tdet_swap. pose proof (SS m Im). lra.
      - apply M; [apply IL; auto|exact dm]. }
    split; [exact A|]. split; [exact B|]. split; [exact Lm|]. split; [exact ab|]. split; [auto|]. split; [auto|].
    set (n' := scal3 s (cross3 e (q m))).
    assert (NO : forall y, dot3 n' y = s * tdet e (q m) y) by (intro y; unfold n'; generalize e (q m); intros e' q'; clear; v3; ring).
    exists n', (dot3 n' (pt a)). split; [reflexivity|].
    assert (Ob : dot3 n' (off a b) = 0) by (rewrite NO; fold e; rewrite tdet_same; [ring|auto]).
    assert (Om : dot3 n' (off a m) = 0) by (rewrite NO; fold (q m); rewrite tdet_same; [ring|auto]).
    rewrite dot_off in Ob, Om. split; [lra|]. split; [lra|]. intros d Hd da db dm.
    pose proof (NEG d Hd da db dm) as G. rewrite <- NO in G. unfold q in G. rewrite dot_off in G. lra.
Qed.
End Face.

(** * There is a face *)
Lemma dots_0 n : (forall x, dot3 n x = 0) -> n = (0, 0, 0).
Proof. intro H. pose proof (H (1, 0, 0)) as H1. pose proof (H (0, 1, 0)) as H2. pose proof (H (0, 0, 1)) as H3. clear H. v3. apply v3_eq; lra. Qed.
Lemma coplanar n x y z : n <> (0, 0, 0) -> dot3 n x = 0 -> dot3 n y = 0 -> dot3 n z = 0 -> tdet x y z = 0.
Proof.
  intros N X Y Z. destruct (Req_dec (tdet x y z) 0) as [|D]; [assumption|]. exfalso. apply N, dots_0. intro v. rewrite (cramer x y z v D), dot3_comb, X, Y, Z. ring.
Qed.
Lemma dot_pos (n : V3) : n <> (0, 0, 0) -> 0 < dot3 n n.
Proof. intro N. destruct n as [[x y] z]. unfold dot3, vx, vy, vz; cbn [fst snd]. destruct (Req_dec x 0) as [->|]; [destruct (Req_dec y 0) as [->|]; [destruct (Req_dec z 0) as [->|]; [contradiction|]|]|]; nra. Qed.
Lemma perp (n : V3) : n <> (0, 0, 0) -> exists m, m <> (0, 0, 0) /\ dot3 n m = 0.
Proof.
  intro N. destruct n as [[x y] z]. destruct (Req_dec x 0) as [->|X].
  - exists (1, 0, 0). split; [intro E; injection E; lra|unfold dot3, vx, vy, vz; cbn [fst snd]; ring].
  - exists (- y, x, 0). split; [intro E; injection E; intros; lra|unfold dot3, vx, vy, vz; cbn [fst snd]; ring].
Qed.
(** turn the plane with normal [n] until it meets another point *)
Lemma turn n m a (l : list nat) : l <> [] -> NoDup l -> (forall d, In d l -> dot3 n (off a d) < 0) ->
  exists b r, In b l /\ let n' := add3 m (scal3 r n) in dot3 n' (off a b) = 0 /\ forall d, In d l -> dot3 n' (off a d) <= 0.
Proof.
  intros NE ND NG. set (r := fun d => dot3 m (off a d) / - dot3 n (off a d)).
  destruct (top (fun x y => r x <= r y) l NE ND) as (b & Ib & M).
  - intros x y _ _ _. destruct (Rle_or_lt (r x) (r y)); [left; assumption|right; lra].
  - intros x y z _ _ _ A B. lra.
  - assert (V : forall d, In d l -> dot3 (add3 m (scal3 (r b) n)) (off a d) = - dot3 n (off a d) * (r d - r b)).
    { intros d Hd. pose proof (NG d Hd) as G. transitivity (dot3 m (off a d) + r b * dot3 n (off a d)); [generalize (r b), (off a d); intros t x; clear; v3; ring|]. unfold r at 2. field. lra. }
    exists b, (r b). split; [exact Ib|]. cbv zeta. split; [rewrite V by exact Ib; ring|]. intros d Hd. rewrite V by exact Hd. pose proof (NG d Hd) as G.
    destruct (Nat.eq_dec d b) as [->|N]; [lra|]. specialize (M d Hd N). nra.
Qed.
Definition rest (S : list nat) : list nat := filter (fun d => negb (existsb (Nat.eqb d) S)) (seq 0 (length ps)).
Lemma rest_in S d : In d (rest S) <-> (d < length ps)%nat /\ ~ In d S.
Proof.
  unfold rest. rewrite filter_In, in_seq, Bool.negb_true_iff. split.
  - intros (A & B). split; [lia|]. intro I. assert (T : existsb (Nat.eqb d) S = true) by (apply existsb_exists; exists d; split; [exact I|apply Nat.eqb_refl]). congruence.
  - intros (A & B). split; [lia|]. destruct (existsb (Nat.eqb d) S) eqn:E; [|reflexivity]. exfalso. apply B. apply existsb_exists in E. destruct E as (x & I & X). apply Nat.eqb_eq in X. now subst.
Qed.
Lemma rest_ne S : (length S <= 3)%nat -> rest S <> [].
Proof. intros L E. destruct (another S L) as (d & Hd & N). assert (I : In d (rest S)) by (apply rest_in; auto). rewrite E in I. destruct I. Qed.
Lemma rest_nd S : NoDup (rest S).
Proof. apply NoDup_filter, seq_NoDup. Qed.
Lemma not_in2 (d a b : nat) : ~ In d [a; b] <-> d <> a /\ d <> b.
Proof. cbn. intuition. Qed.
(** three points on a plane that has no point above it *)
Lemma plane_face n a b c : n <> (0, 0, 0) -> (a < length ps)%nat -> (b < length ps)%nat -> (c < length ps)%nat -> a <> b -> b <> c -> a <> c ->
  dot3 n (off a b) = 0 -> dot3 n (off a c) = 0 -> (forall d, (d < length ps)%nat -> d <> a -> d <> b -> d <> c -> dot3 n (off a d) <= 0) -> supports ps a b c.
Proof.
  intros N A B C ab bc ac Eb Ec H. repeat (split; [assumption|]). exists n, (dot3 n (pt a)). rewrite dot_off in Eb, Ec. split; [reflexivity|]. split; [lra|]. split; [lra|].
  intros d Hd da db dc. specialize (H d Hd da db dc). destruct (Req_dec (dot3 n (off a d)) 0) as [Z|Z]; [|rewrite dot_off in H, Z; lra].
  exfalso. apply (gen4 a b c d); auto. apply (coplanar n); [exact N|rewrite dot_off; lra|rewrite dot_off; lra|exact Z].
Qed.
Lemma off_nz a d : (a < length ps)%nat -> (d < length ps)%nat -> d <> a -> off a d <> (0, 0, 0).
Proof.
  intros A D da E. destruct (another [a; d]) as (x & Hx & Nx); [cbn; lia|]. destruct (another [a; d; x]) as (y & Hy & Ny); [cbn; lia|]. cbn in Nx, Ny.
  apply (gen4 a d x y); try (clear E; lia). rewrite E. generalize (off a x), (off a y). intros X Y. v3; ring.
Qed.
Lemma some_face : exists a b c, supports ps a b c.
Proof.
  (* the farthest point *)
  destruct (top (fun x y => dot3 (pt x) (pt x) <= dot3 (pt y) (pt y)) (seq 0 (length ps))) as (a & Ia & Ma).
  { intro E. pose proof (proj1 GE) as L. apply (f_equal (@length nat)) in E. rewrite seq_length in E. cbn in E. lia. }
  { apply seq_NoDup. }
  { intros x y _ _ _. destruct (Rle_or_lt (dot3 (pt x) (pt x)) (dot3 (pt y) (pt y))); [left; assumption|right; lra]. }
  { intros x y z _ _ _ X Y. lra. }
  apply in_seq in Ia. assert (A : (a < length ps)%nat) by lia. set (n1 := pt a).
  assert (NG : forall d, In d (rest [a]) -> dot3 n1 (off a d) < 0).
  { intros d Hd. apply rest_in in Hd. destruct Hd as (Hd & da). assert (da' : d <> a) by (intros ->; apply da; left; reflexivity).
    assert (M : dot3 (pt d) (pt d) <= dot3 n1 n1) by (apply Ma; [apply in_seq; lia|exact da']).
    pose proof (dot_pos _ (off_nz a d A Hd da')) as P.
    assert (I : dot3 (off a d) (off a d) = dot3 (pt d) (pt d) - dot3 n1 n1 - 2 * dot3 n1 (off a d)) by (unfold n1, off; generalize (pt a), (pt d); intros A' D'; clear; v3; ring). lra. }
  assert (N1 : n1 <> (0, 0, 0)). { destruct (another [a]) as (d & Hd & Nd); [cbn; lia|]. intro E. assert (G : dot3 n1 (off a d) < 0) by (apply NG, rest_in; auto). rewrite E in G. assert (Z : dot3 (0, 0, 0) (off a d) = 0) by (generalize (off a d); intro x; clear; v3; ring). lra. }
  destruct (perp n1 N1) as (m & M0 & Mp).
  destruct (turn n1 m a (rest [a]) (rest_ne [a] ltac:(cbn; lia)) (rest_nd _) NG) as (b & r & Ib & Eb & Lb). set (n2 := add3 m (scal3 r n1)) in *.
  apply rest_in in Ib. destruct Ib as (B & ba). assert (ba' : b <> a) by (intros ->; apply ba; left; reflexivity).
  assert (N2 : n2 <> (0, 0, 0)).
  { intro E. pose proof (dot_pos m M0) as P. assert (Q : dot3 n2 m = dot3 m m + r * dot3 n1 m) by (unfold n2; clear; generalize n1; intro; v3; ring). rewrite Mp in Q. rewrite E in Q.
    assert (Z : dot3 (0, 0, 0) m = 0) by (clear; v3; ring). lra. }
  assert (L2 : forall d, (d < length ps)%nat -> d <> a -> dot3 n2 (off a d) <= 0) by (intros d Hd da; apply Lb, rest_in; split; [exact Hd|]; intros [->|[]]; contradiction).
  destruct (classic (exists c, (c < length ps)%nat /\ c <> a /\ c <> b /\ dot3 n2 (off a c) = 0)) as [(c & C & ca & cb & Ec)|NT].
  - exists a, b, c. apply (plane_face n2); auto.
  - assert (NG2 : forall d, In d (rest [a; b]) -> dot3 n2 (off a d) < 0).
    { intros d Hd. apply rest_in in Hd. destruct Hd as (Hd & ND). apply not_in2 in ND. destruct ND as (da & db). destruct (L2 d Hd da) as [|E]; [assumption|]. exfalso. apply NT. exists d. auto. }
    set (e := off a b) in *. set (m2 := cross3 e n2).
    destruct (turn n2 m2 a (rest [a; b]) (rest_ne [a; b] ltac:(cbn; lia)) (rest_nd _) NG2) as (c & r' & Ic & Ec & Lc). set (n3 := add3 m2 (scal3 r' n2)) in *.
    apply rest_in in Ic. destruct Ic as (C & NC). apply not_in2 in NC. destruct NC as (ca & cb).
    pose proof (dot_pos e (off_nz a b A B ba')) as Pe. pose proof (dot_pos n2 N2) as P2.
    assert (Pm : dot3 m2 m2 = dot3 e e * dot3 n2 n2 - dot3 n2 e * dot3 n2 e) by (unfold m2; clear; generalize e n2; intros; v3; ring). rewrite Eb in Pm.
    exists a, b, c. apply (plane_face n3); auto.
    + intro E. assert (Q : dot3 n3 m2 = dot3 m2 m2 + r' * dot3 n2 m2) by (unfold n3; clear; generalize m2 n2; intros; v3; ring).
      assert (O : dot3 n2 m2 = 0) by (unfold m2; clear; generalize e n2; intros; v3; ring). rewrite O, E in Q. assert (Z : dot3 (0, 0, 0) m2 = 0) by (clear; generalize m2; intro; v3; ring). nra.
    + change (dot3 n3 e = 0). transitivity (r' * dot3 n2 e); [unfold n3, m2; clear; generalize e n2; intros; v3; ring|]. fold e in Eb. rewrite Eb. ring.
    + intros d Hd da db dc. apply Lc, rest_in. split; [exact Hd|]. now apply not_in2.
Qed.
Lemma hull_ne vs : exact_hull ps vs -> vs <> [].
Proof. intros H ->. destruct some_face as (a & b & c & S). apply H in S. unfold corners in S. cbn in S. tauto. Qed.
Lemma hull_indep vs : exact_hull ps vs -> Forall (independent ps) vs /\ Forall (in_range (length ps)) vs.
Proof.
  intros H. split; apply Forall_forall; intros [[a b] c] I; assert (S : supports ps a b c) by (apply H; left; exact I).
  - destruct (face_facts a b c S) as (_ & _ & _ & _ & _ & _ & _ & T). exact T.
  - destruct S as (A & B & C & _). repeat split; assumption.
Qed.
Lemma hull_encloses vs : exact_hull ps vs -> encloses ps vs.
Proof.
  intros H a b c I. apply H in I. destruct (face_facts a b c I) as (n & k & K & A & B & C & X & _). exists n, k. repeat (split; [assumption|]).
  intros d e f D. apply H in D. destruct D as (D & _). now apply X.
Qed.
Lemma hull_closed vs : exact_hull ps vs -> closed_surface vs.
Proof.
  intros H a b c I. apply H in I. destruct (next_face a b c I) as (d & N & S). exists d. split; [exact N|]. now apply H.
Qed.
Lemma hull_goes_on vs : exact_hull ps vs -> goes_on ps vs.
Proof. intro H. apply convex_on; [apply (proj1 (hull_indep vs H))|apply (hull_encloses vs H)|apply (hull_closed vs H)]. Qed.
End Hull.
