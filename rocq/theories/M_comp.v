(** Model of the matrix np.roots hands to np.linalg.eigvals (plot.py:154-155). *)
From Verif Require Import Base M_utils M_sig M_sph0 M_sph M_parsa3 M_zp.
Open Scope R_scope.

(** numpy/lib/polynomial.py: A = diag(ones(N - 2), -1); A[0, :] = -p[1:] / p[0] *)
Definition companion (p : list R) : mat :=
  Mat (length p - 1) (length p - 1) (fun i j => if Nat.eqb i 0 then - nth (S j) p 0 / nth 0 p 0 else if Nat.eqb (S j) i then 1 else 0).
