(** Existence of the linear-algebra routines: the contracts are satisfiable. *)
From Verif Require Import Base BaseFacts S_linalg S_sph.
From Coq Require Import ClassicalEpsilon.
Open Scope R_scope.

(** orthogonal projection of [b] on the first [k] columns of [A] *)
Lemma projection_exists m (A : nat -> nat -> R) : forall k (b : nat -> R), exists x : nat -> R,
  forall i, (i < k)%nat -> rsum m (fun q => A q i * (rsum k (fun c => A q c * x c) - b q)) = 0.
Proof.
  induction k as [|k IH]; intros b; [exists (fun _ => 0); lia|].
  destruct (IH b) as (x & Hx). destruct (IH (fun q => A q k)) as (y & Hy).
  set (r := fun q => A q k - rsum k (fun c => A q c * y c)).
  assert (Hr : forall i, (i < k)%nat -> rsum m (fun q => A q i * r q) = 0).
  { intros i Hi. rewrite (rsum_ext m _ (fun q => -1 * (A q i * (rsum k (fun c => A q c * y c) - A q k)))) by (intros; unfold r; ring).
    rewrite rsum_scal, Hy by auto. ring. }
  set (rr := rsum m (fun q => r q * r q)). set (t := if Req_EM_T rr 0 then 0 else rsum m (fun q => r q * b q) / rr).
  exists (fun c => if Nat.eqb c k then t else x c - t * y c).
  assert (EX : forall q, rsum (S k) (fun c => A q c * (if Nat.eqb c k then t else x c - t * y c)) = rsum k (fun c => A q c * x c) + t * r q).
  { intros q. cbn [rsum]. rewrite Nat.eqb_refl.
    rewrite (rsum_ext k _ (fun c => A q c * x c + (- t) * (A q c * y c))).
    - rewrite (rsum_plus k (fun c => A q c * x c) (fun c => (- t) * (A q c * y c))), rsum_scal. unfold r. ring.
    - intros c Hc. destruct (Nat.eqb_spec c k); [lia|ring]. }
  assert (H1 : forall i, (i < k)%nat -> rsum m (fun q => A q i * (rsum k (fun c => A q c * x c) + t * r q - b q)) = 0).
  { intros i Hi. rewrite (rsum_ext m _ (fun q => A q i * (rsum k (fun c => A q c * x c) - b q) + t * (A q i * r q))) by (intros; ring).
    rewrite (rsum_plus m (fun q => A q i * (rsum k (fun c => A q c * x c) - b q)) (fun q => t * (A q i * r q))), rsum_scal, Hx, Hr by auto. ring. }
  intros i Hi. rewrite (rsum_ext m _ (fun q => A q i * (rsum k (fun c => A q c * x c) + t * r q - b q))) by (intros; rewrite EX; reflexivity).
  destruct (Nat.eq_dec i k) as [->|]; [|apply H1; lia].
  set (e := fun q => rsum k (fun c => A q c * x c) + t * r q - b q).
  assert (R0 : forall f : nat -> R, (forall i, (i < k)%nat -> rsum m (fun q => A q i * f q) = 0) -> forall z, rsum m (fun q => rsum k (fun c => A q c * z c) * f q) = 0).
  { intros f Hf z. rewrite (rsum_ext m _ (fun q => rsum k (fun c => z c * (A q c * f q)))) by (intros; rewrite <- rsum_scal_r; apply rsum_ext; intros; ring).
    rewrite rsum_swap. transitivity (rsum k (fun _ => 0)); [|apply rsum_0; auto]. apply rsum_ext. intros c Hc. rewrite rsum_scal, Hf by auto. ring. }
  transitivity (rsum m (fun q => rsum k (fun c => A q c * y c) * e q) + rsum m (fun q => r q * e q)).
  { rewrite <- rsum_plus. apply rsum_ext. intros q _. change (A q k * e q = rsum k (fun c => A q c * y c) * e q + r q * e q). unfold r. ring. }
  rewrite (R0 e H1 y).
  assert (RE : rsum m (fun q => r q * e q) = t * rr - rsum m (fun q => r q * b q)).
  { rewrite (rsum_ext m _ (fun q => (rsum k (fun c => A q c * x c) * r q + t * (r q * r q)) + (-1) * (r q * b q))) by (intros; unfold e; ring).
    rewrite (rsum_plus m (fun q => rsum k (fun c => A q c * x c) * r q + t * (r q * r q)) (fun q => -1 * (r q * b q))),
      (rsum_plus m (fun q => rsum k (fun c => A q c * x c) * r q) (fun q => t * (r q * r q))), !rsum_scal, (R0 r Hr x). unfold rr. ring. }
  rewrite RE. unfold t. destruct (Req_EM_T rr 0) as [Z|Z]; [|field; auto].
  assert (RZ : forall q, (q < m)%nat -> r q = 0).
  { intros q Hq. assert (NN : forall i, (i < m)%nat -> 0 <= r i * r i) by (intros; apply Rle_0_sqr).
    pose proof (rsum_ge_term m (fun q => r q * r q) q NN Hq) as G. fold rr in G. cbv beta in G. pose proof (Rle_0_sqr (r q)). unfold Rsqr in *. nra. }
  rewrite Z. rewrite (rsum_ext m (fun q => r q * b q) (fun _ => 0)); [rewrite rsum_0 by auto; ring|]. intros q Hq. rewrite RZ by auto. ring.
Qed.
Lemma lstsq_solution (A B : mat) : nr A = nr B -> exists X, nr X = nc A /\ nc X = nc B /\
  forall i j, (i < nc A)%nat -> (j < nc B)%nat -> rsum (nr A) (fun q => ent A q i * (rsum (nc A) (fun k => ent A q k * ent X k j) - ent B q j)) = 0.
Proof.
  intros _. pose proof (fun j => projection_exists (nr A) (ent A) (nc A) (fun q => ent B q j)) as H.
  assert (C : exists x : nat -> nat -> R, forall j i, (i < nc A)%nat -> rsum (nr A) (fun q => ent A q i * (rsum (nc A) (fun c => ent A q c * x j c) - ent B q j)) = 0).
  { exists (fun j => proj1_sig (constructive_indefinite_description _ (H j))). intros j. destruct (constructive_indefinite_description _ (H j)) as (x & Hx). exact Hx. }
  destruct C as (x & Hx). exists (Mat (nc A) (nc B) (fun k j => x j k)). cbn [nr nc ent]. split; auto.
Qed.
Lemma lstsq_exists : exists lstsq, lstsq_contract lstsq.
Proof.
  assert (S : forall A B : mat, {r : res mat | (nr A = nr B -> exists X, r = Ok X /\ nr X = nc A /\ nc X = nc B /\
      forall i j, (i < nc A)%nat -> (j < nc B)%nat ->
        rsum (nr A) (fun q => ent A q i * (rsum (nc A) (fun k => ent A q k * ent X k j) - ent B q j)) = 0) /\
    (nr A <> nr B -> r = Err LinAlgError)}).
  { intros A B. apply constructive_indefinite_description. destruct (Nat.eq_dec (nr A) (nr B)) as [E|E].
    - destruct (lstsq_solution A B E) as (X & HX). exists (Ok X). split; [intros _; exists X; split; auto; reflexivity|intros; contradiction].
    - exists (Err LinAlgError). split; [intros; contradiction|reflexivity]. }
  exists (fun A B => proj1_sig (S A B)). intros A B. exact (proj2_sig (S A B)).
Qed.
Lemma inv_exists : exists inv, inv_contract inv.
Proof.
  assert (S : forall A : mat, {r : res mat | (exists X, r = Ok X /\ is_inverse A X) \/ (r = Err LinAlgError /\ forall X, ~ is_inverse A X)}).
  { intros A. apply constructive_indefinite_description. destruct (excluded_middle_informative (exists X, is_inverse A X)) as [(X & H)|N].
    - exists (Ok X). left. exists X. auto.
    - exists (Err LinAlgError). right. split; auto. intros X HX. apply N. eauto. }
  exists (fun A => proj1_sig (S A)). intros A. exact (proj2_sig (S A)).
Qed.
