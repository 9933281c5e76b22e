(** Common vocabulary of the model: results with Python exceptions, Python
    slicing, finite sums, vectors and matrices.  Definitions only; lemmas are in
    BaseFacts.v. *)
From Coq Require Export Reals Lra Lia List ZArith Arith Bool Psatz.
Export ListNotations.
Open Scope R_scope.

(** * Results.  Python exceptions are values. *)
Inductive exn : Set :=
  | ValueError | AssertionError | IndexError | TypeError | KeyError
  | NotImplementedError | RuntimeError | LinAlgError | FileNotFoundError
  | AttributeError | ZeroDivisionError | OverflowError
  | OutOfFuel  (* not a Python exception: the model's loop bound was reached *).

Inductive res (A : Type) : Type :=
  | Ok : A -> res A
  | Err : exn -> res A.
Arguments Ok {A} _.
Arguments Err {A} _.

Definition bind {A B : Type} (r : res A) (f : A -> res B) : res B :=
  match r with Ok a => f a | Err e => Err e end.

Notation "'let*' x ':=' e 'in' k" := (bind e (fun x => k))
  (at level 200, x name, e at level 100, k at level 200, right associativity).

Definition is_ok {A : Type} (r : res A) : Prop := exists a, r = Ok a.

Fixpoint mapM {A B : Type} (f : A -> res B) (l : list A) : res (list B) :=
  match l with
  | [] => Ok []
  | a :: t => let* b := f a in let* bs := mapM f t in Ok (b :: bs)
  end.

Definition assert_ (b : bool) : res unit :=
  if b then Ok tt else Err AssertionError.

(** * Real comparisons as booleans (float comparisons in the code). *)
Definition Rltb (x y : R) : bool := if Rlt_dec x y then true else false.
Definition Rleb (x y : R) : bool := if Rle_dec x y then true else false.
Definition Reqb (x y : R) : bool := if Req_EM_T x y then true else false.

(** * Python slices.  [norm_idx len i] is the position a slice bound [i] denotes
    on a sequence of length [len]: negative bounds count from the end, bounds
    outside are clamped. *)
Definition norm_idx (len : nat) (i : Z) : nat :=
  if (i <? 0)%Z then Z.to_nat (Z.max 0 (i + Z.of_nat len))
  else Z.to_nat (Z.min i (Z.of_nat len)).

(** [l[a:b]] *)
Definition slice {A : Type} (l : list A) (a b : Z) : list A :=
  let a' := norm_idx (length l) a in
  let b' := norm_idx (length l) b in
  firstn (b' - a') (skipn a' l).

(** [l[a:]] *)
Definition slice_from {A : Type} (l : list A) (a : Z) : list A :=
  skipn (norm_idx (length l) a) l.

(** [l[:b]] *)
Definition slice_to {A : Type} (l : list A) (b : Z) : list A :=
  firstn (norm_idx (length l) b) l.

(** [l[a:b] = v] for a numpy array [l] and an array [v] of the same number of
    dimensions: the lengths must agree (or [v] has length one and is broadcast),
    otherwise numpy raises ValueError. *)
Definition slice_set {A : Type} (l : list A) (a b : Z) (v : list A) : res (list A) :=
  let a' := norm_idx (length l) a in
  let b' := Nat.max a' (norm_idx (length l) b) in
  let n := (b' - a')%nat in
  if Nat.eqb (length v) n then Ok (firstn a' l ++ v ++ skipn b' l)
  else match v with
       | [x] => Ok (firstn a' l ++ repeat x n ++ skipn b' l)
       | _ => Err ValueError
       end.

(** [l[i]] *)
Definition index {A : Type} (l : list A) (i : Z) : res A :=
  let n := Z.of_nat (length l) in
  let j := if (i <? 0)%Z then (i + n)%Z else i in
  if ((0 <=? j) && (j <? n))%Z then
    match nth_error l (Z.to_nat j) with Some a => Ok a | None => Err IndexError end
  else Err IndexError.

(** replace position [i] (in range) *)
Fixpoint upd {A : Type} (l : list A) (i : nat) (a : A) : list A :=
  match l, i with
  | [], _ => []
  | _ :: t, O => a :: t
  | h :: t, S k => h :: upd t k a
  end.

(** * Finite sums over R *)
Fixpoint rsum (n : nat) (f : nat -> R) : R :=
  match n with O => 0 | S k => rsum k f + f k end.

Fixpoint lsum (l : list R) : R :=
  match l with [] => 0 | x :: t => x + lsum t end.

(** * Vectors in space *)
Definition V3 : Type := (R * R * R)%type.
Definition vx (v : V3) : R := fst (fst v).
Definition vy (v : V3) : R := snd (fst v).
Definition vz (v : V3) : R := snd v.
Definition dot3 (a b : V3) : R := vx a * vx b + vy a * vy b + vz a * vz b.
Definition cross3 (a b : V3) : V3 :=
  (vy a * vz b - vz a * vy b, vz a * vx b - vx a * vz b, vx a * vy b - vy a * vx b).
Definition norm3 (a : V3) : R := sqrt (dot3 a a).
Definition scal3 (s : R) (a : V3) : V3 := (s * vx a, s * vy a, s * vz a).
Definition add3 (a b : V3) : V3 := (vx a + vx b, vy a + vy b, vz a + vz b).
Definition sub3 (a b : V3) : V3 := (vx a - vx b, vy a - vy b, vz a - vz b).

(** 3x3 matrices: rows *)
Definition M3 : Type := (V3 * V3 * V3)%type.
Definition row1 (m : M3) : V3 := fst (fst m).
Definition row2 (m : M3) : V3 := snd (fst m).
Definition row3 (m : M3) : V3 := snd m.
Definition mv3 (m : M3) (v : V3) : V3 :=
  (dot3 (row1 m) v, dot3 (row2 m) v, dot3 (row3 m) v).
Definition tr3 (m : M3) : M3 :=
  ((vx (row1 m), vx (row2 m), vx (row3 m)),
   (vy (row1 m), vy (row2 m), vy (row3 m)),
   (vz (row1 m), vz (row2 m), vz (row3 m))).
Definition mm3 (a b : M3) : M3 :=
  (mv3 (tr3 b) (row1 a), mv3 (tr3 b) (row2 a), mv3 (tr3 b) (row3 a)).
Definition madd3 (a b : M3) : M3 :=
  (add3 (row1 a) (row1 b), add3 (row2 a) (row2 b), add3 (row3 a) (row3 b)).
Definition mscal3 (s : R) (a : M3) : M3 :=
  (scal3 s (row1 a), scal3 s (row2 a), scal3 s (row3 a)).
Definition eye3 : M3 := ((1, 0, 0), (0, 1, 0), (0, 0, 1)).
Definition det3 (m : M3) : R := dot3 (row1 m) (cross3 (row2 m) (row3 m)).

(** * Matrices of any shape: a 2-D float array.  Only entries inside the shape
    are meaningful; [meq] compares those. *)
Record mat : Type := Mat { nr : nat; nc : nat; ent : nat -> nat -> R }.

Definition meq (a b : mat) : Prop :=
  nr a = nr b /\ nc a = nc b /\
  forall i j, (i < nr a)%nat -> (j < nc a)%nat -> ent a i j = ent b i j.

(** [a @ b] (numpy raises ValueError on a shape mismatch) *)
Definition matmul (a b : mat) : res mat :=
  if Nat.eqb (nc a) (nr b)
  then Ok (Mat (nr a) (nc b) (fun i j => rsum (nc a) (fun k => ent a i k * ent b k j)))
  else Err ValueError.

(** [a.T] *)
Definition mtr (a : mat) : mat := Mat (nc a) (nr a) (fun i j => ent a j i).

(** [s * a] *)
Definition mscal (s : R) (a : mat) : mat :=
  Mat (nr a) (nc a) (fun i j => s * ent a i j).

(** [np.diag(v)], for a vector of length [n] *)
Definition mdiag (n : nat) (v : nat -> R) : mat :=
  Mat n n (fun i j => if Nat.eqb i j then v i else 0).

(** [np.eye(n)] *)
Definition meye (n : nat) : mat := mdiag n (fun _ => 1).

Definition delta (i j : nat) : R := if Nat.eqb i j then 1 else 0.

(** * n-dimensional arrays in row-major order *)
Record nd (A : Type) : Type := Nd { shape : list nat; data : list A }.
Arguments Nd {A} _ _.
Arguments shape {A} _.
Arguments data {A} _.

Definition nprod (s : list nat) : nat := fold_right Nat.mul 1%nat s.
(** every numpy array satisfies this *)
Definition nd_wf {A : Type} (a : nd A) : Prop := length (data a) = nprod (shape a).
