(** Zero-pole diagrams: final forms and examples. *)
From Coq Require Import Lra Lia Ring.
From Verif Require Import Base BaseFacts M_utils M_sig M_sph0 M_sph M_parsa3 M_process3 S_process3 M_zp S_zp P_lfilter P_proc1 P_cplx P_zp1 P_zp2 P_zp3.
Open Scope R_scope.

Lemma f_roots : forall eig k c t, c <> 0 -> solves_for eig (repeat 0 k ++ c :: t) ->
  length (np_roots eig (repeat 0 k ++ c :: t)) = length t /\ forall z, polynomial (repeat 0 k ++ c :: t) z = cscal c (product (np_roots eig (repeat 0 k ++ c :: t)) z).
Proof. intros eig k c t. apply roots_all. Qed.
Lemma f_no_roots : forall eig n, np_roots eig (repeat 0 n) = [] /\ forall z, polynomial (repeat 0 n) z = (0, 0).
Proof. intros eig n. apply roots_none. Qed.
Lemma product_zero l z : product l z = cre 0 -> In z l.
Proof. induction l as [|r l IH]; [rewrite product_nil; intros H; apply (f_equal fst) in H; cbn in H; lra|]. rewrite product_cons. intros H. destruct (cmul_integral _ _ H) as [D|D]; [left|right; auto]. replace z with (cadd (csub z r) r) by ring. rewrite D. ring. Qed.
(** away from the origin the transfer function's numerator vanishes at the drawn zeros and
    its denominator at the drawn poles, and nowhere else *)
Lemma f_transfer : forall eig b a z w (zPlane : bool), solves_for eig b -> solves_for eig a -> (exists c, In c b /\ c <> 0) -> (exists c, In c a /\ c <> 0) -> cmul z w = (1, 0) ->
  (csum (length b) (fun k => cscal (nth k b 0) (cpow w k)) = (0, 0) <-> In z (zp_zeros (zeropole eig b a zPlane))) /\
  (csum (length a) (fun k => cscal (nth k a 0) (cpow w k)) = (0, 0) <-> In z (zp_poles (zeropole eig b a zPlane))).
Proof.
  assert (G : forall eig p z w, solves_for eig p -> (exists c, In c p /\ c <> 0) -> cmul z w = (1, 0) -> (csum (length p) (fun k => cscal (nth k p 0) (cpow w k)) = (0, 0) <-> In z (np_roots eig p))).
  { intros eig p z w S NZ W. rewrite (csum_ext' (length p) (fun k => cscal (nth k p 0) (cpow w k)) (fun k => cmul (cre (nth k p 0)) (cpow w k))) by (intros; apply cscal_mul). destruct NZ as (c & I & C). assert (P : p <> []) by (intros ->; destruct I). pose proof (poly_inverse p z w W P) as PI'.
    assert (ZN : z <> cre 0) by (intros ->; apply (f_equal fst) in W; cbn in W; lra). split; intros H.
    - rewrite H in PI'. destruct (drop_spec p) as (k & E & D). destruct D as [D|D]; [rewrite D, app_nil_r in E; rewrite E in I; apply repeat_spec in I; contradiction|]. destruct (drop_zeros p) as [|u t] eqn:EU; [cbn in D; lra|]. cbn [nth] in D. subst p. destruct (roots_all eig k u t D S) as [_ R]. rewrite R, cscal_mul in PI'. apply product_zero. change (0, 0) with (cre 0) in PI'. replace (cmul (cpow z (length (repeat 0 k ++ u :: t) - 1)) (cre 0)) with (cre 0) in PI' by ring. symmetry in PI'. destruct (cmul_integral _ _ PI') as [Z|Z]; [apply (f_equal fst) in Z; cbn in Z; contradiction|exact Z].
    - rewrite (roots_zero eig p z (ex_intro _ c (conj I C)) S H) in PI'. destruct (cmul_integral _ _ PI') as [Z|Z]; [destruct (cpow_nonzero z _ ZN Z)|exact Z]. }
  intros eig b a z w zp SB SA NB NA W. split; apply G; assumption.
Qed.
Definition eig2 (p : list R) : list C2 := match p with [c; d] => [(- d / c, 0)] | _ => [] end.
Lemma eig2_solves p : (length p <= 2)%nat -> solves_for eig2 p.
Proof.
  intros L k n s E S0 SL S2. assert (LS : length s = 2%nat) by (apply (f_equal (@length R)) in E; rewrite !app_length, !repeat_length in E; lia). destruct s as [|c [|d [|]]]; try discriminate. cbn [nth length Nat.sub] in *. split; [reflexivity|]. intros z. rewrite !poly_cons, poly_nil, cscal_mul. cbn [eig2 length]. rewrite product_cons, product_nil. cbn [cpow nth]. apply ceq; unfold cadd, cmul, csub, cre; cbn [fst snd]; field; exact S0.
Qed.
Lemma roots2 c d : c <> 0 -> d <> 0 -> np_roots eig2 [c; d] = [(- d / c, 0)].
Proof.
  intros C D. unfold np_roots. rewrite (drop_lead 0 c [d] C : drop_zeros [c; d] = _). cbn [rev app]. rewrite (drop_lead 0 d [c] D : drop_zeros [d; c] = _). reflexivity.
Qed.
Lemma roots1 eig c : np_roots eig [c] = [].
Proof. unfold np_roots. cbn [drop_zeros rev app]. destruct (Req_EM_T c 0); [reflexivity|]. cbn [rev app drop_zeros]. destruct (Req_EM_T c 0); [contradiction|]. reflexivity. Qed.
(** zeros and poles at the origin that come from lists of different lengths are not drawn *)
Lemma f_origin_refuted : exists b a, zp_zeros (zeropole eig2 b a true) = [] /\ solves_for eig2 b /\ solves_for eig2 a /\
  forall z w, cmul z w = (1, 0) -> cabs z <= 1 / 4 ->
    cabs (csum (length b) (fun k => cscal (nth k b 0) (cpow w k))) <= 4 * cabs z * cabs (csum (length a) (fun k => cscal (nth k a 0) (cpow w k))).
Proof.
  exists [1], [1; -1/2]. split; [apply roots1|]. split; [apply eig2_solves; cbn; lia|]. split; [apply eig2_solves; cbn; lia|]. intros z w W Z. cbn [length]. rewrite !csum_S, !csum_O. cbn [nth cpow]. rewrite !cscal_mul. change (1, 0) with (cre 1) in *.
  replace (cabs (cadd (cre 0) (cmul (cre 1) (cre 1)))) with 1 by (replace (cadd (cre 0) (cmul (cre 1) (cre 1))) with (cre 1) by ring; rewrite cabs_cre, Rabs_R1; reflexivity). replace (4 * cabs z * cabs (cadd (cadd (cre 0) (cmul (cre 1) (cre 1))) (cmul (cre (-1 / 2)) (cmul w (cre 1))))) with (4 * cabs (csub z (cre (1 / 2)))).
  - pose proof (cabs_tri (csub (cre (1/2)) z) z) as T. replace (cadd (csub (cre (1/2)) z) z) with (cre (1/2)) in T by ring. rewrite cabs_cre, Rabs_right in T by lra. replace (csub (cre (1/2)) z) with (cmul (cre (-1)) (csub z (cre (1/2)))) in T by (apply ceq; unfold csub, cmul, cre; cbn; ring). rewrite cabs_mul, cabs_cre, Rabs_left in T by lra. lra.
  - rewrite Rmult_assoc, <- cabs_mul. f_equal. f_equal. replace (cmul z (cadd (cadd (cre 0) (cmul (cre 1) (cre 1))) (cmul (cre (-1 / 2)) (cmul w (cre 1))))) with (cadd z (cmul (cre (-1/2)) (cmul z w))) by ring. rewrite W. apply ceq; unfold csub, cadd, cmul, cre; cbn; field.
Qed.
(** ** examples *)
Lemma ex_stable : solves_for eig2 [1; -1/2] /\ zp_poles (zeropole eig2 [1] [1; -1/2] true) = [(1/2, 0)] /\ polynomial [1] (1/2, 0) <> (0, 0) /\ stable [1] [1; -1/2] /\ ~ stable [1] [1; -2].
Proof.
  assert (P1 : forall q, polynomial [1] q <> (0, 0)) by (intros q E; rewrite poly_cons, poly_nil in E; apply (f_equal fst) in E; cbn in E; lra).
  assert (S1 : solves_for eig2 [1; -1/2]) by (apply eig2_solves; cbn; lia). assert (S2 : solves_for eig2 [1; -2]) by (apply eig2_solves; cbn; lia). assert (R1 : zp_poles (zeropole eig2 [1] [1; -1/2] true) = [(1/2, 0)]) by (cbn [zeropole zp_poles]; rewrite roots2 by lra; f_equal; f_equal; field).
  split; [exact S1|]. split; [exact R1|]. split; [apply P1|]. split.
  - apply (f_stable eig2 [1] [1; -1/2] S1). rewrite R1. intros p [<-|[]]. change (1/2, 0) with (cre (1/2)). rewrite cabs_cre, Rabs_right; lra.
  - intros ST. assert (R2 : np_roots eig2 [1; -2] = [(2, 0)]) by (rewrite roots2 by lra; f_equal; f_equal; field). pose proof (f_pole_inside eig2 [1] [1; -2] (2, 0) S2 ltac:(cbn; lra) ltac:(discriminate) ST) as H. cbn [zeropole zp_poles] in H. rewrite R2 in H. specialize (H (or_introl eq_refl) (P1 _)). change (2, 0) with (cre 2) in H. rewrite cabs_cre, Rabs_right in H by lra. lra.
Qed.
Lemma ex_transfer : solves_for eig2 [2; 1] /\ solves_for eig2 [1; -1/2] /\ cmul (-1/2, 0) (-2, 0) = (1, 0) /\ np_roots eig2 [2; 1] = [(-1/2, 0)].
Proof. split; [apply eig2_solves; cbn; lia|]. split; [apply eig2_solves; cbn; lia|]. split; [apply ceq; cbn; field|]. rewrite roots2 by lra. f_equal. Qed.
Lemma ex_roots : solves_for eig2 (repeat 0 0 ++ 2 :: [1]) /\ (2 : R) <> 0.
Proof. split; [apply eig2_solves; cbn; lia|lra]. Qed.
