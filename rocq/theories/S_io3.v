(** Specification vocabulary for the default set of HRIRs. *)
From Verif Require Import Base M_sig M_process M_sph0 M_sph M_grids M_decoder3 M_decoder4 M_parsa2 M_io M_io3 S_magls.
Open Scope R_scope.

(** bin [k] in a direction: the sum over all harmonics up to order [N] *)
Definition field_bin (F : cmat) (N k : nat) (azi zen : R) : C2 :=
  csum (N + 1) (fun n => csum (2 * n + 1) (fun q => cmul (sph_harm (Z.of_nat q - Z.of_nat n) n azi zen) (cent F (n * n + q) k))).
(** real signals of length 2 m whose bins are those of the field in every direction; the
    first and the last bin of a real signal are real *)
Definition holds_field (F : cmat) (N m : nat) (azi zen : list R) (rows : list (list R)) : Prop :=
  length rows = length azi /\
  forall i, (i < length azi)%nat -> length (nth i rows []) = (2 * m)%nat /\
    forall k, (k <= m)%nat -> let b := field_bin F N k (nth i azi 0) (nth i zen 0) in
      dft (2 * m) (nth i rows []) k = (fst b, if Nat.eqb k 0 || Nat.eqb k m then 0 else snd b).
(** coefficients up to order [N] in bins 0 ... m *)
Definition coefficients (F : cmat) (N m : nat) : Prop := cnr F = ((N + 1) ^ 2)%nat /\ cnc F = (m + 1)%nat.
(** the resampler yields [L] samples for every row *)
Definition resamples (rs : list R -> res (list R)) (n L : nat) : Prop := forall x, length x = n -> exists y, rs x = Ok y /\ length y = L.
