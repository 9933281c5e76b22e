(** Specifications of exact decompositions. *)
From Verif Require Import Base S_grids S_decoder2.
Open Scope R_scope.

(** numpy's pinv and svd without rounding *)
Definition exact_pinv (pinv : mat -> mat) : Prop := forall Y, penrose Y (pinv Y).
Definition exact_svd (svd : mat -> mat * list R * mat) : Prop := forall Y U sv VH, svd Y = (U, sv, VH) -> is_svd Y U sv VH.
(** independent columns or independent rows *)
Definition full_rank (Y : mat) : Prop := left_invertible Y \/ left_invertible (mtr Y).
