(** Model of numpy.polynomial.legendre.leggauss, which grids.py:383 (gauss) calls, and
    of the functions it is made of.  np.linalg.eigvalsh is a parameter.  Divisions by
    zero (NaN in numpy) are not modelled; C112 shows that no divisor is zero. *)
From Verif Require Import Base M_grids.
Open Scope R_scope.

(** numpy legcompanion(c) for c = [0]*deg + [1]: the term subtracted from the last
    column is zero; the two diagonals beside the main one are the same *)
Definition scl (i : nat) : R := 1 / sqrt (2 * INR i + 1).
Definition legcompanion (deg : nat) : mat :=
  Mat deg deg (fun i j => if Nat.eqb j (S i) then INR (S i) * scl i * scl (S i)
                          else if Nat.eqb i (S j) then INR (S j) * scl j * scl (S j) else 0).
(** numpy legval(x, c): Clenshaw's recurrence from the last coefficient down; [rest]
    holds the coefficients not used yet, last first, [nd] counts down *)
Fixpoint clenshaw (x : R) (rest : list R) (nd : nat) (c0 c1 : R) : R :=
  match rest with
  | [] => c0 + c1 * x
  | c :: r => clenshaw x r (nd - 1) (c - c1 * INR (nd - 1 - 1) / INR (nd - 1)) (c0 + c1 * x * INR (2 * (nd - 1) - 1) / INR (nd - 1))
  end.
Definition legval (c : list R) (x : R) : R :=
  match rev c with
  | [] => 0
  | [a] => a + 0 * x
  | a :: b :: r => clenshaw x r (length c) b a
  end.
(** numpy legder(c): coefficients of the derivative, last first; [j] is the index of
    the first coefficient of [l].  numpy does not add the last summand, which is not
    used any more *)
Fixpoint legder_rev (j : nat) (l : list R) : list R :=
  match j, l with
  | S j', a :: b :: l' => INR (2 * j - 1) * a :: legder_rev j' (b :: match l' with c :: t => c + a :: t | [] => [] end)
  | _, _ => []
  end.
Definition legder (c : list R) : list R := if Nat.leb (length c) 1 then map (fun x => x * 0) (firstn 1 c) else rev (legder_rev (length c - 1) (rev c)).
(** elementwise operations and np.abs(l).max() *)
Definition zipw (f : R -> R -> R) (u v : list R) : list R := map (fun p => f (fst p) (snd p)) (combine u v).
Definition abs_max (l : list R) : R := fold_right Rmax 0 (map Rabs l).
(** numpy leggauss(deg) *)
Definition leggauss (eigvalsh : mat -> list R) (deg : nat) : res (list R * list R) :=
  if Nat.eqb deg 0 then Err ValueError else
  let c := repeat 0 deg ++ [1] in
  let x := eigvalsh (legcompanion deg) in
  let dy := map (legval c) x in
  let df := map (legval (legder c)) x in
  let x := zipw Rminus x (zipw Rdiv dy df) in
  let fm := map (legval (skipn 1 c)) x in
  let fm := map (fun f => f / abs_max fm) fm in
  let df := map (fun d => d / abs_max df) df in
  let w := map (fun p => 1 / p) (zipw Rmult fm df) in
  let w := map (fun s => s / 2) (zipw Rplus w (rev w)) in
  let x := map (fun s => s / 2) (zipw Rminus x (rev x)) in
  let w := map (fun a => a * (2 / lsum w)) w in
  Ok (x, w).
(** grids.py:355-392 gauss with numpy's leggauss *)
Definition gauss_np (eigvalsh : mat -> list R) (n : nat) : res (list R * list R * list R) :=
  let* p := leggauss eigvalsh (n + 1) in Ok (gauss (fun _ => p) n).
