(** Roots of polynomials as numpy finds them. *)
From Coq Require Import Lra Lia Ring.
From Verif Require Import Base BaseFacts M_utils M_sig M_sph0 M_sph M_parsa3 M_process3 M_zp S_zp P_proc1 P_cplx.
Open Scope R_scope.

Lemma poly_cons c t z : polynomial (c :: t) z = cadd (cmul (cre c) (cpow z (length t))) (polynomial t z).
Proof.
  unfold polynomial. cbn [length]. rewrite csum_shift. cbn [nth]. rewrite cscal_mul. replace (S (length t) - 1 - 0)%nat with (length t) by lia. f_equal. apply csum_ext'. intros k K. replace (S (length t) - 1 - S k)%nat with (length t - 1 - k)%nat by lia. reflexivity.
Qed.
Lemma poly_snoc p c z : polynomial (p ++ [c]) z = cadd (cmul z (polynomial p z)) (cre c).
Proof.
  unfold polynomial. rewrite app_length. cbn [length]. rewrite Nat.add_1_r, csum_S. rewrite app_nth2, Nat.sub_diag by lia. cbn [nth]. replace (S (length p) - 1 - length p)%nat with 0%nat by lia. cbn [cpow]. rewrite <- csum_mul. f_equal; [|rewrite cscal_mul; change (1, 0) with (cre 1); ring].
  apply csum_ext'. intros k K. rewrite app_nth1 by exact K. rewrite !cscal_mul. replace (S (length p) - 1 - k)%nat with (S (length p - 1 - k)) by lia. rewrite cpow_S. ring.
Qed.
Lemma poly_nil z : polynomial [] z = cre 0.
Proof. reflexivity. Qed.
Lemma poly_lead k p z : polynomial (repeat 0 k ++ p) z = polynomial p z.
Proof. induction k as [|k IH]; [reflexivity|]. cbn [repeat app]. rewrite poly_cons, IH. ring. Qed.
Lemma poly_trail n p z : polynomial (p ++ repeat 0 n) z = cmul (cpow z n) (polynomial p z).
Proof.
  induction n as [|n IH]; [cbn [repeat cpow]; rewrite app_nil_r; change (1, 0) with (cre 1); ring|]. change (repeat 0 (S n)) with (0 :: repeat 0 n). rewrite (repeat_cons n), app_assoc, poly_snoc, IH, cpow_S. ring.
Qed.
Lemma product_nil z : product [] z = cre 1.
Proof. reflexivity. Qed.
Lemma product_cons r l z : product (r :: l) z = cmul (csub z r) (product l z).
Proof. reflexivity. Qed.
Lemma product_app l m z : product (l ++ m) z = cmul (product l z) (product m z).
Proof. induction l as [|r l IH]; cbn [app]; [rewrite product_nil; ring|]. rewrite !product_cons, IH. ring. Qed.
Lemma product_zeros n z : product (repeat (0, 0) n) z = cpow z n.
Proof. induction n as [|n IH]; [reflexivity|]. cbn [repeat]. rewrite product_cons, IH, cpow_S. change (0, 0) with (cre 0). ring. Qed.
Lemma product_root l r : In r l -> product l r = cre 0.
Proof. induction l as [|x l IH]; [intros []|]. rewrite product_cons. intros [->|H]; [|rewrite (IH H)]; ring. Qed.

Lemma drop_spec p : exists k, p = repeat 0 k ++ drop_zeros p /\ (drop_zeros p = [] \/ nth 0 (drop_zeros p) 0 <> 0).
Proof.
  induction p as [|c t IH]; [exists 0%nat; auto|]. cbn [drop_zeros]. destruct (Req_EM_T c 0) as [->|N]; [|exists 0%nat; auto]. destruct IH as (k & E & H). exists (S k). split; [cbn [repeat app]; f_equal; exact E|exact H].
Qed.
Lemma drop_lead k c t : c <> 0 -> drop_zeros (repeat 0 k ++ c :: t) = c :: t.
Proof. intros N. induction k as [|k IH]; cbn [repeat app drop_zeros]; [destruct (Req_EM_T c 0); [contradiction|reflexivity]|]. destruct (Req_EM_T 0 0); [exact IH|lra]. Qed.
Lemma strip_spec c t : c <> 0 -> let s := rev (drop_zeros (rev (c :: t))) in
  exists n, c :: t = s ++ repeat 0 n /\ n = (length (c :: t) - length s)%nat /\ nth 0 s 0 = c /\ nth (length s - 1) s 0 <> 0 /\ (1 <= length s)%nat.
Proof.
  intros N s. destruct (drop_spec (rev (c :: t))) as (n & E & H). exists n. assert (E' : c :: t = s ++ repeat 0 n).
  { apply (f_equal (@rev R)) in E. rewrite rev_involutive, rev_app_distr in E. fold s in E. rewrite E. f_equal. clear. induction n as [|n IH]; [reflexivity|]. change (repeat 0 (S n)) with (0 :: repeat 0 n) at 1. rewrite (repeat_cons n), rev_app_distr, IH. reflexivity. }
  assert (S0 : s <> []). { intros S. rewrite S in E'. destruct n; cbn in E'; [discriminate|]. injection E' as E' _. contradiction. }
  assert (D : drop_zeros (rev (c :: t)) = rev s) by (unfold s; rewrite rev_involutive; reflexivity). rewrite D in H. destruct s as [|u s'] eqn:ES; [congruence|].
  split; [exact E'|]. split; [rewrite E', app_length, repeat_length; cbn [length]; lia|]. split; [cbn in E'; injection E' as <- _; reflexivity|]. split; [|cbn [length]; lia].
  destruct H as [H|H]; [apply (f_equal (@length R)) in H; rewrite rev_length in H; discriminate|]. rewrite rev_nth in H by (cbn; lia). exact H.
Qed.
Lemma roots_all eig k c t : c <> 0 -> solves_for eig (repeat 0 k ++ c :: t) ->
  length (np_roots eig (repeat 0 k ++ c :: t)) = length t /\ forall z, polynomial (repeat 0 k ++ c :: t) z = cscal c (product (np_roots eig (repeat 0 k ++ c :: t)) z).
Proof.
  intros N H. unfold np_roots. rewrite (drop_lead k c t N). cbv zeta. destruct (strip_spec c t N) as (n & E & LN & S0 & SL & S1). set (s := rev (drop_zeros (rev (c :: t)))) in *. rewrite <- LN. clear LN.
  destruct (Nat.leb_spec (length s) 1) as [L|L].
  - destruct s as [|u [|v s]]; [cbn in S1; lia| |cbn in L; lia]. cbn [nth] in S0. subst u. cbn [app] in E |- *. injection E as E. split; [rewrite E, !repeat_length; reflexivity|]. intros z. rewrite poly_lead, E, product_zeros. change (c :: repeat 0 n) with ([c] ++ repeat 0 n). rewrite poly_trail, poly_cons, poly_nil, cscal_mul. cbn [length cpow]. change (1, 0) with (cre 1). ring.
  - assert (A : all_roots s (eig s)). { apply (H k n s); [rewrite E; reflexivity|rewrite S0; exact N|exact SL|lia]. } destruct A as [LA A]. split.
    + rewrite app_length, repeat_length, LA. apply (f_equal (@length R)) in E. rewrite app_length, repeat_length in E. cbn [length] in E. lia.
    + intros z. rewrite poly_lead, E, poly_trail, A, S0, product_app, product_zeros, !cscal_mul. ring.
Qed.
(** nothing is drawn for coefficients that are all zero *)
Lemma roots_none eig n : np_roots eig (repeat 0 n) = [] /\ forall z, polynomial (repeat 0 n) z = (0, 0).
Proof.
  split; [|intros z; rewrite <- (app_nil_r (repeat 0 n)), poly_lead; reflexivity]. unfold np_roots. assert (D : drop_zeros (repeat 0 n) = []) by (induction n as [|n IH]; [reflexivity|]; cbn [repeat drop_zeros]; destruct (Req_EM_T 0 0); [exact IH|lra]). rewrite D. reflexivity.
Qed.
Lemma roots_zero eig p r : (exists c, In c p /\ c <> 0) -> solves_for eig p -> In r (np_roots eig p) -> polynomial p r = cre 0.
Proof.
  intros (c & I & N) H IR. destruct (drop_spec p) as (k & E & [D|D]).
  - exfalso. rewrite D, app_nil_r in E. rewrite E in I. apply repeat_spec in I. contradiction.
  - destruct (drop_zeros p) as [|u t]; [cbn in D; lra|]. cbn [nth] in D. subst p. destruct (roots_all eig k u t D H) as [_ R]. rewrite R, (product_root _ _ IR), cscal_mul. ring.
Qed.

(** ** the coefficients of a product *)
Definition before (q : nat -> C2) (k : nat) : C2 := match k with O => cre 0 | S j => q j end.
(** coefficient of w^k in (1 - r_1 w) (1 - r_2 w) ... *)
Fixpoint pe (l : list C2) : nat -> C2 :=
  match l with
  | [] => fun k => match k with O => cre 1 | _ => cre 0 end
  | r :: t => fun k => csub (pe t k) (cmul r (before (pe t) k))
  end.
Lemma pe_high l k : (length l < k)%nat -> pe l k = cre 0.
Proof. revert k. induction l as [|r l IH]; intros [|k] K; cbn [length pe] in *; try lia; [reflexivity|]. cbn [before]. rewrite !IH by lia. ring. Qed.
Lemma pe_0 l : pe l 0 = cre 1.
Proof. induction l as [|r l IH]; [reflexivity|]. cbn [pe before]. rewrite IH. ring. Qed.
Lemma product_pe l z : product l z = csum (S (length l)) (fun k => cmul (pe l k) (cpow z (length l - k))).
Proof.
  induction l as [|r l IH]; [cbn; apply ceq; cbn; ring|]. rewrite product_cons, IH. cbn [length]. set (m := length l) in *.
  rewrite (csum_ext' (S (S m)) (fun k => cmul (pe (r :: l) k) (cpow z (S m - k))) (fun k => cadd (cmul (pe l k) (cpow z (S m - k))) (cmul (copp r) (cmul (before (pe l) k) (cpow z (S m - k)))))) by (intros; cbn [pe]; ring).
  rewrite csum_add, csum_mul. rewrite (csum_S (S m) (fun k => cmul (pe l k) (cpow z (S m - k)))), (pe_high l (S m)) by (unfold m; lia). rewrite (csum_shift (S m) (fun k => cmul (before (pe l) k) (cpow z (S m - k)))). cbn [before].
  rewrite (csum_ext' (S m) (fun k => cmul (pe l k) (cpow z (S m - k))) (fun k => cmul z (cmul (pe l k) (cpow z (m - k))))) by (intros k K; replace (S m - k)%nat with (S (m - k)) by lia; rewrite cpow_S; ring). rewrite csum_mul. cbn [Nat.sub]. ring.
Qed.
(** a real polynomial that vanishes everywhere has no coefficients *)
Lemma rpoly_zero n : forall d, (forall x : R, rsum n (fun k => d k * x ^ k) = 0) -> forall k, (k < n)%nat -> d k = 0.
Proof.
  induction n as [|n IH]; intros d H k K; [lia|]. assert (S0 : forall x, d 0%nat + x * rsum n (fun k => d (S k) * x ^ k) = 0).
  { intros x. rewrite <- (H x), rsum_shift, <- rsum_scal. cbn [pow]. f_equal; [ring|]. apply rsum_ext. intros. ring. }
  assert (D0 : d 0%nat = 0) by (pose proof (S0 0); lra). destruct k as [|k]; [exact D0|]. apply (IH (fun k => d (S k))); [|lia]. intros x.
  refine (poly_roots n (fun x => rsum n (fun k => d (S k) * x ^ k)) (fun i => INR (S i)) _ _ _ x).
  - exists (fun k => d (S k)). intros. reflexivity.
  - intros i j I J E. apply INR_eq in E. lia.
  - intros i I. pose proof (S0 (INR (S i))) as Q. rewrite D0 in Q. pose proof (lt_0_INR (S i) ltac:(lia)). nra.
Qed.
