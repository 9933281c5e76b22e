(** Model of spaudiopy/plot.py, part 2: the zero-pole diagram. *)
From Verif Require Import Base M_utils M_sig M_sph0 M_sph M_parsa3.
Open Scope R_scope.

(** np.roots(p) on real coefficients, highest power first: leading zeros are dropped, every
    trailing zero is a root at the origin, the remaining roots are the eigenvalues of the
    companion matrix, here [eig] of the coefficients left (numpy/lib/polynomial.py) *)
Fixpoint drop_zeros (p : list R) : list R :=
  match p with
  | [] => []
  | c :: t => if Req_EM_T c 0 then drop_zeros t else p
  end.
Definition np_roots (eig : list R -> list C2) (p : list R) : list C2 :=
  let q := drop_zeros p in
  let s := rev (drop_zeros (rev q)) in
  (if Nat.leb (length s) 1 then [] else eig s) ++ repeat (0, 0) (length q - length s).
(** plot.py:152-177 zeropole: the circles, the crosses and the unit circle; axes and labels
    are left out *)
Record zp_fig : Type := ZpFig { zp_zeros : list C2; zp_poles : list C2; zp_circle : option R }.
Definition zeropole (eig : list R -> list C2) (b a : list R) (zPlane : bool) : zp_fig :=
  ZpFig (np_roots eig b) (np_roots eig a) (if zPlane then Some 1 else None).
