(** Specification vocabulary for transforms with complex spherical harmonics. *)
From Verif Require Import Base M_utils M_sig M_sph0 M_sph S_sph.
Open Scope R_scope.

(** equal arrays: shapes and entries *)
Definition cmeq (A B : cmat) : Prop :=
  cnr A = cnr B /\ cnc A = cnc B /\ forall i j, (i < cnr A)%nat -> (j < cnc A)%nat -> cent A i j = cent B i j.
(** the columns of [Y] are orthonormal for the weights [w] *)
Definition unitary_on (Y : cmat) (w : list R) : Prop :=
  forall a b, (a < cnc Y)%nat -> (b < cnc Y)%nat ->
    csum (cnr Y) (fun j => cscal (nth j w 0) (cmul (cconj (cent Y j a)) (cent Y j b))) = (delta a b, 0).
(** value at a direction of the function with coefficients [a], in ACN order, in the
    basis of the complex harmonics *)
Definition cfield (N : nat) (a : nat -> C2) (azi zen : R) : C2 :=
  csum (N + 1) (fun n => csum (2 * n + 1) (fun k => cmul (a (n * n + k)%nat) (sph_harm (Z.of_nat k - Z.of_nat n) n azi zen))).
(** coefficients [G] in the complex basis and [F] in the real one describe the same
    functions *)
Definition same_functions (N : nat) (F : mat) (G : cmat) : Prop :=
  cnr G = ((N + 1) ^ 2)%nat /\ nr F = ((N + 1) ^ 2)%nat /\ cnc G = nc F /\
  forall n j, (n <= N)%nat -> (j < nc F)%nat ->
    cent G (acn n 0) j = (ent F (acn n 0) j, 0) /\
    forall m, (1 <= m <= Z.of_nat n)%Z ->
      cent G (acn n m) j = cscal ((-1) ^ Z.to_nat m / sqrt 2) (ent F (acn n m) j, - ent F (acn n (- m)) j) /\
      cent G (acn n (- m)) j = cscal (/ sqrt 2) (ent F (acn n m) j, ent F (acn n (- m)) j).
(** squared modulus *)
Definition cnorm2 (z : C2) : R := fst z ^ 2 + snd z ^ 2.
(** identity matrix and multiples *)
Definition cidentity (n : nat) (b : C2) (M : cmat) : Prop :=
  cnr M = n /\ cnc M = n /\ forall i j, (i < n)%nat -> (j < n)%nat -> cent M i j = cscal (delta i j) b.
(** [P] is the Moore-Penrose inverse of [A] (np.linalg.pinv) *)
Definition cprod (n : nat) (A B : cmat) (i j : nat) : C2 := csum n (fun k => cmul (cent A i k) (cent B k j)).
Definition cpenrose (A P : cmat) : Prop :=
  cnr P = cnc A /\ cnc P = cnr A /\
  (forall i j, (i < cnr A)%nat -> (j < cnc A)%nat -> csum (cnr A) (fun k => cmul (cprod (cnc A) A P i k) (cent A k j)) = cent A i j) /\
  (forall i j, (i < cnc A)%nat -> (j < cnr A)%nat -> csum (cnc A) (fun k => cmul (cprod (cnr A) P A i k) (cent P k j)) = cent P i j) /\
  (forall i j, (i < cnr A)%nat -> (j < cnr A)%nat -> cprod (cnc A) A P i j = cconj (cprod (cnc A) A P j i)) /\
  (forall i j, (i < cnc A)%nat -> (j < cnc A)%nat -> cprod (cnr A) P A i j = cconj (cprod (cnr A) P A j i)).
(** least squares over the complex numbers: the normal equations *)
Definition clstsq_contract (lstsq : cmat -> cmat -> res cmat) : Prop :=
  forall A B, (cnr A = cnr B -> exists X, lstsq A B = Ok X /\ cnr X = cnc A /\ cnc X = cnc B /\
      forall i j, (i < cnc A)%nat -> (j < cnc B)%nat ->
        csum (cnr A) (fun q => cmul (cconj (cent A q i)) (cadd (csum (cnc A) (fun k => cmul (cent A q k) (cent X k j))) (cscal (-1) (cent B q j)))) = (0, 0)) /\
    (cnr A <> cnr B -> lstsq A B = Err LinAlgError).
(** [A] has a left inverse: full column rank *)
Definition cleft_invertible (A : cmat) : Prop :=
  exists X : cmat, forall a b, (a < cnc A)%nat -> (b < cnc A)%nat -> cprod (cnr A) X A a b = (delta a b, 0).
(** sum of squared errors of [A c] against the target [t] *)
Definition csquares (A : cmat) (t c : nat -> C2) : R :=
  rsum (cnr A) (fun q => cnorm2 (cadd (csum (cnc A) (fun k => cmul (cent A q k) (c k))) (cscal (-1) (t q)))).
Definition cbest_fit (A : cmat) (t c : nat -> C2) : Prop := forall d, csquares A t c <= csquares A t d.
