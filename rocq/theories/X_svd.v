(** Examples for the decoders with exact decompositions. *)
From Verif Require Import Base BaseFacts M_utils M_sph0 M_sig M_process M_sph M_grids M_decoder M_decoder2 S_utils S_sph S_grids S_decoder S_decoder2 S_svd
  X_sph P_grids3 P_dec9 X_dec2 P_svd1 P_svd2 P_svd3 P_svd4.
Open Scope R_scope.

Lemma ex_exact : (exists pinv, exact_pinv pinv) /\ (exists svd, exact_svd svd) /\
  (exists Y, ls_matrix 1 (s_hull tetra_setup) = Ok (Some Y) /\ full_rank Y) /\ (forall p, In p (h_points (s_hull tetra_setup)) -> p <> (0, 0, 0)).
Proof.
  split; [exact pinv_function|]. split; [exact svd_function|]. split.
  - destruct tetra_ok as (Y & E & _ & L & _). exists Y. split; [exact E|]. left. exact L.
  - intros p Hp E. cbn in Hp. repeat destruct Hp as [<-|Hp]; try (injection E; intros; lra). destruct Hp.
Qed.
(** order 2 on six loudspeakers *)
Lemma ex_few : exists svd Y U sv VH, ls_matrix 2 (s_hull octa_setup) = Ok (Some Y) /\ svd Y = (U, sv, VH) /\ is_svd Y U sv VH /\ (0 < length (h_points (s_hull octa_setup)) < (2 + 1) ^ 2)%nat.
Proof.
  destruct svd_function as [svd H]. destruct (ls_matrix_ok 2 (s_hull octa_setup) octa_nz) as (Y & E & _). destruct (svd Y) as [[U sv] VH] eqn:S.
  exists svd, Y, U, sv, VH. split; [exact E|]. split; [exact S|]. split; [apply (H Y U sv VH S)|]. cbn. lia.
Qed.
