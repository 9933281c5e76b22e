(** Layouts around the listener: all directions, one set of gains. *)
From Coq Require Import Lra Lia Psatz Classical Permutation.
From Verif Require Import Base BaseFacts M_decoder S_decoder P_dec1 P_dec2 X_dec1 X_dec2 S_cover P_cover1.
Open Scope R_scope.

Definition at3 (ps : list V3) (f : face) : V3 * V3 * V3 :=
  let '(a, b, c) := f in (nth a ps (0,0,0), nth b ps (0,0,0), nth c ps (0,0,0)).
Section Points.
Variable ps : list V3.
Notation pt i := (@nth V3 i ps (0, 0, 0)).
Lemma tri_corners vs A B C : tri (map (at3 ps) vs) A B C -> exists a b c, corners vs a b c /\ A = pt a /\ B = pt b /\ C = pt c.
Proof.
  intro H. destruct H as [H|[H|[H|[H|[H|H]]]]]; apply in_map_iff in H; destruct H as ([[a b] c] & E & H); unfold at3 in E; injection E as <- <- <-.
  - exists a, b, c. split; [unfold corners; tauto|auto].
  - exists c, a, b. split; [unfold corners; tauto|auto].
  - exists b, c, a. split; [unfold corners; tauto|auto].
  - exists b, a, c. split; [unfold corners; tauto|auto].
  - exists a, c, b. split; [unfold corners; tauto|auto].
  - exists c, b, a. split; [unfold corners; tauto|auto].
Qed.
Lemma corners_tri vs a b c : corners vs a b c -> tri (map (at3 ps) vs) (pt a) (pt b) (pt c).
Proof.
  assert (I : forall a b c, In (a, b, c) vs -> In (pt a, pt b, pt c) (map (at3 ps) vs)) by (intros x y z H; apply in_map_iff; exists (x, y, z); auto).
  unfold corners, tri. intro H. destruct H as [H|[H|[H|[H|[H|H]]]]]; apply I in H; auto 10.
Qed.
Lemma around vs src : vs <> [] -> Forall (independent ps) vs -> goes_on ps vs -> src <> (0, 0, 0) -> exists f, In f vs /\ inside_cone ps f src.
Proof.
  intros NE IN GO NZ. assert (C : covered (map (at3 ps) vs) src).
  { apply all_covered; [destruct vs; [contradiction|discriminate]| | |exact NZ].
    - intros A B C H. apply in_map_iff in H. destruct H as ([[a b] c] & E & H). injection E as <- <- <-. rewrite Forall_forall in IN. exact (IN _ H).
    - intros A B C H. destruct (tri_corners _ _ _ _ H) as (a & b & c & H' & -> & -> & ->). destruct (GO _ _ _ H') as (d & Hd & V). exists (pt d). split; [now apply corners_tri|exact V]. }
  apply covered_in in C. destruct C as (F & HF & I). apply in_map_iff in HF. destruct HF as ([[a b] c] & <- & HF).
  exists (a, b, c). split; [exact HF|]. split; [exact NZ|]. destruct I as (x & y & z & X & Y & Z & E). exists (x, y, z). unfold vx, vy, vz; cbn [fst snd]. auto.
Qed.
Lemma corners_indep vs a b c : Forall (independent ps) vs -> corners vs a b c -> tdet (pt a) (pt b) (pt c) <> 0.
Proof.
  intros IN H. apply (tri_det (map (at3 ps) vs)); [|now apply corners_tri]. intros A B C HT. apply in_map_iff in HT. destruct HT as ([[x y] z] & E & HT). injection E as <- <- <-.
  rewrite Forall_forall in IN. exact (IN _ HT).
Qed.
Lemma tdet_same A B C : A = B \/ B = C \/ A = C -> tdet A B C = 0.
Proof. intros [->|[->| ->]]; v3; ring. Qed.
Lemma corners_rot vs a b c : corners vs a b c -> corners vs b c a /\ corners vs c a b /\ corners vs b a c.
Proof. unfold corners. tauto. Qed.
Lemma dot3_comb n x y z a b c : dot3 n (comb x y z a b c) = x * dot3 n a + y * dot3 n b + z * dot3 n c.
Proof. v3; ring. Qed.
Lemma convex_on vs : Forall (independent ps) vs -> encloses ps vs -> closed_surface vs -> goes_on ps vs.
Proof.
  intros IN EN CL a b c H. destruct (CL _ _ _ H) as (d & Hdc & Hd). exists d. split; [exact Hd|].
  pose proof (corners_indep _ _ _ _ IN H) as D1. pose proof (corners_indep _ _ _ _ IN Hd) as D2. change (tdet (pt a) (pt b) (pt c) * tdet (pt a) (pt b) (pt d) < 0).
  assert (da : d <> a) by (intros ->; apply D2, tdet_same; auto). assert (db : d <> b) by (intros ->; apply D2, tdet_same; auto).
  assert (ca : c <> a) by (intros ->; apply D1, tdet_same; auto). assert (cb : c <> b) by (intros ->; apply D1, tdet_same; auto).
  destruct (EN _ _ _ H) as (n & k & K & Na & Nb & Nc & Nx). destruct (EN _ _ _ Hd) as (m & l & L & Ma & Mb & Md & Mx).
  specialize (Nx d a b (proj1 (proj2 (corners_rot _ _ _ _ Hd))) da db Hdc). specialize (Mx c a b (proj1 (proj2 (corners_rot _ _ _ _ H))) ca cb (not_eq_sym Hdc)).
  pose proof (cramer _ _ _ (pt d) D1) as E. set (x := tdet (pt d) (pt b) (pt c) / _) in E. set (y := tdet (pt a) (pt d) (pt c) / _) in E. set (z := tdet (pt a) (pt b) (pt d) / _) in E.
  assert (S1 : x + y + z < 1). { rewrite E in Nx. rewrite dot3_comb, Na, Nb, Nc in Nx. apply (Rmult_lt_reg_l k); [exact K|]. lra. }
  assert (S2 : z * (1 - x - y) <= z * z \/ z <= 0).
  { destruct (Rle_or_lt z 0) as [|Z]; [right; assumption|]. left. rewrite E in Md. rewrite dot3_comb, Ma, Mb in Md. assert (G : z * dot3 m (pt c) <= z * l) by (apply Rmult_le_compat_l; lra). assert (G2 : 1 - x - y <= z) by (apply (Rmult_le_reg_l l); [exact L|]; lra). apply Rmult_le_compat_l; lra. }
  assert (Z : z < 0).
  { assert (Z0 : z <> 0) by (unfold z; intro Z0; apply D2; apply (Rmult_eq_reg_r (/ tdet (pt a) (pt b) (pt c))); [rewrite Rmult_0_l; exact Z0|now apply Rinv_neq_0_compat]).
    destruct S2 as [S2|S2]; [|lra]. destruct (Rle_or_lt z 0) as [|ZP]; [lra|]. apply Rmult_le_reg_l in S2; [lra|exact ZP]. }
  replace (tdet (pt a) (pt b) (pt d)) with (z * tdet (pt a) (pt b) (pt c)) by (unfold z; field; exact D1). clear - Z D1. clearbody z. set (v := tdet _ _ _) in *. clearbody v. assert (0 < v * v) by (apply Rsqr_pos_lt in D1; exact D1). nra.
Qed.

(** * One set of gains *)
Lemma on_face_decomp (a b c d : nat) (w : R) : (d = a \/ d = b \/ d = c \/ w = 0) ->
  exists x y z, scal3 w (pt d) = comb x y z (pt a) (pt b) (pt c) /\ forall j, delta j d * w = delta j a * x + delta j b * y + delta j c * z.
Proof.
  intros [->|[->|[->| ->]]].
  - exists w, 0, 0. split; [v3; apply v3_eq; ring|intro; ring].
  - exists 0, w, 0. split; [v3; apply v3_eq; ring|intro; ring].
  - exists 0, 0, w. split; [v3; apply v3_eq; ring|intro; ring].
  - exists 0, 0, 0. split; [v3; apply v3_eq; ring|intro; ring].
Qed.
Lemma comb_inj A B C x y z x' y' z' : tdet A B C <> 0 -> comb x y z A B C = comb x' y' z' A B C -> x = x' /\ y = y' /\ z = z'.
Proof.
  intros D E. pose proof (tdet_comb1 A B C x y z) as E1. rewrite E, tdet_comb1 in E1. pose proof (tdet_comb2 A B C x y z) as E2. rewrite E, tdet_comb2 in E2.
  pose proof (tdet_comb3 A B C x y z) as E3. rewrite E, tdet_comb3 in E3. apply Rmult_eq_reg_r in E1, E2, E3; auto.
Qed.
Lemma sum_gap vs a b c n k : (forall d e f, corners vs d e f -> d <> a -> d <> b -> d <> c -> dot3 n (pt d) < k) ->
  dot3 n (pt a) = k -> dot3 n (pt b) = k -> dot3 n (pt c) = k ->
  forall d e f w, corners vs d e f -> 0 <= w -> w * dot3 n (pt d) <= w * k /\ (w * dot3 n (pt d) = w * k -> d = a \/ d = b \/ d = c \/ w = 0).
Proof.
  intros N Na Nb Nc d e f w H W.
  destruct (Nat.eq_dec d a) as [->|da]; [rewrite Na; split; [lra|auto]|].
  destruct (Nat.eq_dec d b) as [->|db]; [rewrite Nb; split; [lra|auto]|].
  destruct (Nat.eq_dec d c) as [->|dc]; [rewrite Nc; split; [lra|auto]|].
  specialize (N d e f H da db dc). split; [nra|]. intro E. right; right; right. nra.
Qed.
Lemma gains_same vs f g u v src : Forall (independent ps) vs -> encloses ps vs -> In f vs -> In g vs ->
  0 <= vx u -> 0 <= vy u -> 0 <= vz u -> 0 <= vx v -> 0 <= vy v -> 0 <= vz v -> combines ps f u src -> combines ps g v src ->
  forall j, on_face f u j = on_face g v j.
Proof.
  intros IN EN HF HG U1 U2 U3 V1 V2 V3' CF CG. destruct f as [[a b] c]. destruct g as [[d e] h].
  destruct u as [[u1 u2] u3]. destruct v as [[v1 v2] v3']. unfold vx, vy, vz in *; cbn [fst snd] in *.
  unfold combines, vx, vy, vz in CF, CG; cbn [fst snd] in CF, CG. fold (comb u1 u2 u3 (pt a) (pt b) (pt c)) in CF. fold (comb v1 v2 v3' (pt d) (pt e) (pt h)) in CG.
  assert (KF : corners vs a b c) by (left; exact HF). assert (KG : corners vs d e h) by (left; exact HG).
  destruct (corners_rot _ _ _ _ KF) as (KF2 & KF3 & _). destruct (corners_rot _ _ _ _ KG) as (KG2 & KG3 & _).
  destruct (EN _ _ _ KF) as (n & k & K & Na & Nb & Nc & Nx). destruct (EN _ _ _ KG) as (m & l & L & Ma & Mb & Mc & Mx).
  pose proof (sum_gap vs a b c n k Nx Na Nb Nc) as GN. pose proof (sum_gap vs d e h m l Mx Ma Mb Mc) as GM.
  assert (SN : k * (u1 + u2 + u3) = v1 * dot3 n (pt d) + v2 * dot3 n (pt e) + v3' * dot3 n (pt h)).
  { rewrite <- dot3_comb, <- CG, CF, dot3_comb, Na, Nb, Nc. ring. }
  assert (SM : l * (v1 + v2 + v3') = u1 * dot3 m (pt a) + u2 * dot3 m (pt b) + u3 * dot3 m (pt c)).
  { rewrite <- dot3_comb, <- CF, CG, dot3_comb, Ma, Mb, Mc. ring. }
  destruct (GN _ _ _ v1 KG V1) as (n1 & z1). destruct (GN _ _ _ v2 KG2 V2) as (n2 & z2). destruct (GN _ _ _ v3' KG3 V3') as (n3 & z3).
  destruct (GM _ _ _ u1 KF U1) as (m1 & _). destruct (GM _ _ _ u2 KF2 U2) as (m2 & _). destruct (GM _ _ _ u3 KF3 U3) as (m3 & _).
  assert (LE1 : u1 + u2 + u3 <= v1 + v2 + v3') by (apply (Rmult_le_reg_l k); [exact K|]; lra).
  assert (LE2 : v1 + v2 + v3' <= u1 + u2 + u3) by (apply (Rmult_le_reg_l l); [exact L|]; lra).
  assert (EQ : u1 + u2 + u3 = v1 + v2 + v3') by lra. rewrite EQ in SN.
  destruct (on_face_decomp a b c d v1 (z1 ltac:(lra))) as (x1 & y1 & w1 & D1 & F1).
  destruct (on_face_decomp a b c e v2 (z2 ltac:(lra))) as (x2 & y2 & w2 & D2 & F2).
  destruct (on_face_decomp a b c h v3' (z3 ltac:(lra))) as (x3 & y3 & w3 & D3 & F3).
  destruct (comb_inj (pt a) (pt b) (pt c) u1 u2 u3 (x1 + x2 + x3) (y1 + y2 + y3) (w1 + w2 + w3)) as (-> & -> & ->).
  - exact (corners_indep _ _ _ _ IN KF).
  - rewrite <- CF, CG. unfold comb at 1. rewrite D1, D2, D3. clear. generalize (pt a) (pt b) (pt c). intros A B C. v3; apply v3_eq; ring.
  - intro j. unfold on_face, vx, vy, vz; cbn [fst snd]. rewrite F1, F2, F3. ring.
Qed.
End Points.

(** * Normalised gains *)
Lemma indep_distinct ps a b c : independent ps (a, b, c) -> a <> b /\ b <> c /\ a <> c.
Proof. intro I. apply (independent_distinct ps a b c I). Qed.
Lemma on_face_vals a b c g : a <> b -> b <> c -> a <> c -> on_face (a, b, c) g a = vx g /\ on_face (a, b, c) g b = vy g /\ on_face (a, b, c) g c = vz g.
Proof.
  intros n1 n2 n3. unfold on_face, delta. rewrite !Nat.eqb_refl.
  repeat match goal with |- context [Nat.eqb ?u ?v] => destruct (Nat.eqb_spec u v); try congruence end. repeat split; ring.
Qed.
Lemma abs_pow_0 p : abs_pow p 0 = 0.
Proof. unfold abs_pow. destruct (Req_EM_T 0 0); [reflexivity|contradiction]. Qed.
Lemma abs_pow_mul p r x : 0 < r -> abs_pow p (r * x) = exp (p * ln r) * abs_pow p x.
Proof.
  intro R0. unfold abs_pow. destruct (Req_EM_T x 0) as [->|X].
  - rewrite Rmult_0_r. destruct (Req_EM_T 0 0); [ring|contradiction].
  - destruct (Req_EM_T (r * x) 0) as [E|_]; [exfalso; nra|]. rewrite Rabs_mult, (Rabs_right r) by lra. rewrite ln_mult by (auto; now apply Rabs_pos_lt).
    rewrite <- exp_plus. f_equal. ring.
Qed.
Lemma on_face_off a b c g j : j <> a -> j <> b -> j <> c -> on_face (a, b, c) g j = 0.
Proof.
  intros ja jb jc. unfold on_face, delta. repeat match goal with |- context [Nat.eqb ?u ?v] => destruct (Nat.eqb_spec u v); try congruence end. ring.
Qed.
Lemma unit_sum p n f g : in_range n f -> distinct f -> unit_norm (POrd p) [vx g; vy g; vz g] -> rsum n (fun j => abs_pow p (on_face f g j)) = 1.
Proof.
  destruct f as [[a b] c]. intros (A & B & C) (n1 & n2 & n3) U. cbn [unit_norm map lsum] in U.
  rewrite (rsum_three n a b c) by (auto; intros j ja jb jc; rewrite on_face_off by assumption; apply abs_pow_0).
  destruct (on_face_vals a b c g n1 n2 n3) as (-> & -> & ->). cbn in U. lra.
Qed.
Lemma unit_inf f g : distinct f -> unit_norm PInf [vx g; vy g; vz g] -> (forall j, Rabs (on_face f g j) <= 1) /\ exists j, Rabs (on_face f g j) = 1.
Proof.
  destruct f as [[a b] c]. intros (n1 & n2 & n3) (M & x & Ix & X). destruct (on_face_vals a b c g n1 n2 n3) as (Ea & Eb & Ec). split.
  - intro j. destruct (Nat.eq_dec j a) as [->|ja]; [rewrite Ea; apply M; cbn; auto|]. destruct (Nat.eq_dec j b) as [->|jb]; [rewrite Eb; apply M; cbn; auto|].
    destruct (Nat.eq_dec j c) as [->|jc]; [rewrite Ec; apply M; cbn; auto|]. rewrite on_face_off by assumption. rewrite Rabs_R0. lra.
  - destruct Ix as [<-|[<-|[<-|[]]]]; [exists a; now rewrite Ea|exists b; now rewrite Eb|exists c; now rewrite Ec].
Qed.
Lemma unit_ratio o n f g u v r : norm_order o -> in_range n f -> in_range n g -> distinct f -> distinct g -> 0 < r ->
  unit_norm o [vx u; vy u; vz u] -> unit_norm o [vx v; vy v; vz v] -> (forall j, on_face f u j = r * on_face g v j) -> r = 1.
Proof.
  intros NO Rf Rg Df Dg R0 Uf Ug E. destruct o as [p|].
  - pose proof (unit_sum p n f u Rf Df Uf) as S1. pose proof (unit_sum p n g v Rg Dg Ug) as S2.
    rewrite (rsum_ext n _ (fun j => exp (p * ln r) * abs_pow p (on_face g v j))) in S1 by (intros j _; rewrite E; now apply abs_pow_mul).
    rewrite rsum_scal, S2, Rmult_1_r in S1. cbn in NO.
    assert (L : p * ln r = 0) by (apply exp_inv; rewrite S1, exp_0; reflexivity).
    apply Rmult_integral in L. destruct L as [L|L]; [lra|]. apply ln_inv; [exact R0|lra|]. rewrite L, ln_1. reflexivity.
  - destruct (unit_inf f u Df Uf) as (M1 & j1 & X1). destruct (unit_inf g v Dg Ug) as (M2 & j2 & X2).
    rewrite E, Rabs_mult, (Rabs_right r) in X1 by lra. pose proof (M1 j2) as Y. rewrite E, Rabs_mult, (Rabs_right r), X2 in Y by lra. pose proof (M2 j1). pose proof (Rabs_pos (on_face g v j1)). nra.
Qed.
Lemma on_face_scal f k g j : on_face f (scal3 k g) j = k * on_face f g j.
Proof. destruct f as [[a b] c]. unfold on_face, scal3, vx, vy, vz. cbn [fst snd]. ring. Qed.
Lemma combines_scal ps f k g v : combines ps f g v -> combines ps f (scal3 k g) (scal3 k v).
Proof. destruct f as [[a b] c]. unfold combines. intros ->. generalize (nth a ps (0,0,0)) (nth b ps (0,0,0)) (nth c ps (0,0,0)). intros A B C. destruct g as [[? ?] ?]. v3; apply v3_eq; ring. Qed.
Lemma dist_gain_pos d a : 0 < d -> 0 < dist_gain d a.
Proof. intro D. unfold dist_gain. destruct (Req_EM_T d 0); [lra|apply exp_pos]. Qed.
Lemma vertex_gains f n h row g : in_range n f -> distinct f -> (forall j, (j < n)%nat -> 0 < dist_gain (nth j (h_d h) 0) (h_a h)) ->
  (forall j, (j < n)%nat -> 0 <= nth j row 0) -> (forall j, (j < n)%nat -> nth j row 0 = dist_gain (nth j (h_d h) 0) (h_a h) * on_face f g j) ->
  0 <= vx g /\ 0 <= vy g /\ 0 <= vz g.
Proof.
  destruct f as [[a b] c]. intros (A & B & C) (n1 & n2 & n3) DG PR ER. destruct (on_face_vals a b c g n1 n2 n3) as (Ea & Eb & Ec).
  assert (G : forall j, (j < n)%nat -> 0 <= on_face (a, b, c) g j).
  { intros j Hj. pose proof (PR j Hj) as P. rewrite ER in P by exact Hj. pose proof (DG j Hj). apply (Rmult_le_reg_l (dist_gain (nth j (h_d h) 0) (h_a h))); [assumption|]. lra. }
  rewrite <- Ea, <- Eb, <- Ec. auto.
Qed.
Lemma same_row o h vs vs' src row row' : norm_order o -> Forall (in_range (length (h_points h))) vs -> Forall (independent (h_points h)) vs ->
  hull_wf h -> (forall d, In d (h_d h) -> 0 < d) -> encloses (h_points h) vs -> Permutation vs vs' ->
  panning_row o h vs src row -> panning_row o h vs' src row' -> (forall x, In x row -> 0 <= x) -> (forall x, In x row' -> 0 <= x) -> row = row'.
Proof.
  intros NO IR IN WF DP EN PM (L1 & H1) (L2 & H2) P1 P2.
  assert (DG : forall j, (j < length (h_points h))%nat -> 0 < dist_gain (nth j (h_d h) 0) (h_a h)) by (intros j Hj; apply dist_gain_pos, DP, nth_In; rewrite WF; exact Hj).
  assert (Q1 : forall j, (j < length (h_points h))%nat -> 0 <= nth j row 0) by (intros j Hj; apply P1, nth_In; lia).
  assert (Q2 : forall j, (j < length (h_points h))%nat -> 0 <= nth j row' 0) by (intros j Hj; apply P2, nth_In; lia).
  apply (nth_ext _ _ 0 0); [lia|]. rewrite L1. intros j Hj.
  assert (DI : forall f, In f vs -> in_range (length (h_points h)) f /\ distinct f).
  { intros f Hf. rewrite Forall_forall in IR, IN. split; [now apply IR|]. pose proof (IN f Hf) as I. destruct f as [[a b] c]. apply (indep_distinct (h_points h)), I. }
  destruct H1 as [(i & g & Hi & Pg & _ & E1)|(N1 & E1)]; destruct H2 as [(i' & g' & Hi' & Pg' & _ & E2)|(N2 & E2)].
  - set (f := nth i vs (0,0,0)%nat) in *. set (f' := nth i' vs' (0,0,0)%nat) in *.
    assert (If : In f vs) by (apply nth_In; exact Hi). assert (If' : In f' vs) by (apply (Permutation_in _ (Permutation_sym PM)), nth_In; exact Hi').
    destruct (DI f If) as (Rf & Df). destruct (DI f' If') as (Rf' & Df').
    destruct (vertex_gains f _ h row g Rf Df DG Q1 E1) as (G1 & G2 & G3). destruct (vertex_gains f' _ h row' g' Rf' Df' DG Q2 E2) as (G1' & G2' & G3').
    destruct Pg as (U & _ & k & K & C). destruct Pg' as (U' & _ & k' & K' & C').
    assert (IK : 0 < / k) by now apply Rinv_0_lt_compat. assert (IK' : 0 < / k') by now apply Rinv_0_lt_compat.
    apply (combines_scal _ _ (/ k)) in C. apply (combines_scal _ _ (/ k')) in C'.
    assert (SS : forall q (w : V3), q <> 0 -> scal3 (/ q) (scal3 q w) = w) by (intros q [[w1 w2] w3] Q; v3; apply v3_eq; field; exact Q).
    rewrite SS in C, C' by lra.
    assert (GS : forall jj, on_face f (scal3 (/ k) g) jj = on_face f' (scal3 (/ k') g') jj).
    { apply (gains_same (h_points h) vs f f' _ _ src IN EN If If'); try assumption; unfold scal3, vx, vy, vz; cbn [fst snd]; apply Rmult_le_pos; try assumption; lra. }
    assert (OF : forall jj, on_face f g jj = (k / k') * on_face f' g' jj).
    { intro jj. pose proof (GS jj) as X. rewrite !on_face_scal in X. replace (k / k' * on_face f' g' jj) with (k * (/ k' * on_face f' g' jj)) by (field; lra). rewrite <- X. field. lra. }
    assert (R1 : k / k' = 1) by (apply (unit_ratio o (length (h_points h)) f f' g g'); try assumption; now apply Rdiv_lt_0_compat).
    rewrite E1, E2 by assumption. rewrite OF, R1. ring.
  - exfalso. apply (N2 (nth i vs (0,0,0)%nat) g); [|exact Pg]. apply (Permutation_in _ PM), nth_In, Hi.
  - exfalso. apply (N1 (nth i' vs' (0,0,0)%nat) g'); [|exact Pg']. apply (Permutation_in _ (Permutation_sym PM)), nth_In, Hi'.
  - rewrite E1, E2 by assumption. reflexivity.
Qed.
