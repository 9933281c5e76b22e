(** The number of sources counted in noise (C120). *)
From Verif Require Import Base M_utils M_sph0 M_sph M_parsa S_linalg S_sph S_grids S_parsa S_eig S_music S_count X_count.
Open Scope R_scope.

(** ** C120 *)
Theorem C120_variance : forall N sa sz p sg cov w V, sources_in_noise sh_real N sa sz p sg cov -> is_eigh cov w V -> length w = ((N + 1) ^ 2)%nat /\ is_variance w (spread N sa sz p).
Proof. exact f_variance. Qed.
Print Assumptions C120_variance.
Theorem C120_gate : forall ev N sa sz p sg cov a0, exact_eigvalsh ev -> sources_in_noise sh_real N sa sz p sg cov -> spread N sa sz p < limit_for ((N + 1) ^ 2) a0 ->
  estimate_num_sources ev cov a0 None = Ok 0%nat.
Proof. exact f_gate. Qed.
Print Assumptions C120_gate.
Theorem C120_noise_only : forall ev N sg cov a0, exact_eigvalsh ev -> sources_in_noise sh_real N [] [] [] sg cov -> 0 < limit_for ((N + 1) ^ 2) a0 -> estimate_num_sources ev cov a0 None = Ok 0%nat.
Proof. exact f_noise_only. Qed.
Print Assumptions C120_noise_only.
Theorem C120_quiet : forall ev N sa sz p sg cov, exact_eigvalsh ev -> sources_in_noise sh_real N sa sz p sg cov ->
  lsum p ^ 2 * (INR ((N + 1) ^ 2) - 1) < (4 * PI) ^ 2 * (1 + 2 / INR ((N + 1) ^ 2)) -> estimate_num_sources ev cov None None = Ok 0%nat.
Proof. exact f_quiet. Qed.
Print Assumptions C120_quiet.
Theorem C120_quiet_orders : forall ev N sa sz p sg cov, exact_eigvalsh ev -> sources_in_noise sh_real N sa sz p sg cov -> (N <= 11)%nat -> lsum p <= 1 -> estimate_num_sources ev cov None None = Ok 0%nat.
Proof. exact f_quiet_orders. Qed.
Print Assumptions C120_quiet_orders.
Theorem C120_order_12 : forall ev az ze sg cov, exact_eigvalsh ev -> sources_in_noise sh_real 12 [az] [ze] [1] sg cov -> 0 <= sg <= 1 -> estimate_num_sources ev cov None None = Ok 1%nat.
Proof. exact f_order_12. Qed.
Print Assumptions C120_order_12.
Theorem C120_exact : forall ev N sa sz p sg cov a0, exact_eigvalsh ev -> sources_in_noise sh_real N sa sz p sg cov -> (1 <= length sa <= 2 * N + 1)%nat -> (length sa < (N + 1) ^ 2)%nat -> 0 <= sg ->
  let a := limit_for ((N + 1) ^ 2) a0 in 1 <= a -> a <= spread N sa sz p -> a * (sg + 1 / 10000000) < nth ((N + 1) ^ 2 - length sa) (ev cov) 0 ->
  estimate_num_sources ev cov a0 None = Ok (length sa).
Proof. exact f_exact. Qed.
Print Assumptions C120_exact.
Theorem C120_iff : forall ev N sa sz p sg cov a0, exact_eigvalsh ev -> sources_in_noise sh_real N sa sz p sg cov -> (1 <= length sa <= 2 * N + 1)%nat -> (length sa + 1 < (N + 1) ^ 2)%nat -> 0 <= sg ->
  let a := limit_for ((N + 1) ^ 2) a0 in 1 <= a ->
  (estimate_num_sources ev cov a0 None = Ok (length sa) <-> a <= spread N sa sz p /\ a * (sg + 1 / 10000000) < nth ((N + 1) ^ 2 - length sa) (ev cov) 0).
Proof. exact f_iff. Qed.
Print Assumptions C120_iff.
Theorem C120_missed : forall ev N sa sz p sg cov a0, exact_eigvalsh ev -> sources_in_noise sh_real N sa sz p sg cov -> (1 <= length sa <= 2 * N + 1)%nat -> (length sa < (N + 1) ^ 2)%nat -> 0 <= sg ->
  let a := limit_for ((N + 1) ^ 2) a0 in 1 <= a -> a <= spread N sa sz p -> nth ((N + 1) ^ 2 - length sa) (ev cov) 0 <= a * (sg + 1 / 10000000) ->
  exists n, estimate_num_sources ev cov a0 None = Ok n /\ ((n < length sa)%nat \/ n = ((N + 1) ^ 2 - 1)%nat).
Proof. exact f_missed. Qed.
Print Assumptions C120_missed.
Theorem C120_one_source : forall ev N az ze q sg cov a0, exact_eigvalsh ev -> sources_in_noise sh_real N [az] [ze] [q] sg cov -> (1 <= N)%nat -> 0 <= sg ->
  let L := INR ((N + 1) ^ 2) in let a := limit_for ((N + 1) ^ 2) a0 in let d := q * L / (4 * PI) in 1 <= a ->
  (q ^ 2 * (L - 1) / (4 * PI) ^ 2 < a -> estimate_num_sources ev cov a0 None = Ok 0%nat) /\
  (a <= q ^ 2 * (L - 1) / (4 * PI) ^ 2 -> a * (sg + 1 / 10000000) < sg + d -> estimate_num_sources ev cov a0 None = Ok 1%nat) /\
  (a <= q ^ 2 * (L - 1) / (4 * PI) ^ 2 -> sg + d <= a * (sg + 1 / 10000000) -> estimate_num_sources ev cov a0 None = Ok ((N + 1) ^ 2 - 1)%nat).
Proof. exact f_one. Qed.
Print Assumptions C120_one_source.
Theorem C120_overcount_refuted : exists ev N sa sz p sg cov n, exact_eigvalsh ev /\ sources_in_noise sh_real N sa sz p sg cov /\ 0 <= sg /\ estimate_num_sources ev cov None None = Ok n /\ (length sa < n)%nat.
Proof. exact f_overcount_refuted. Qed.
Print Assumptions C120_overcount_refuted.
Example C120_nonvacuous : exists ev cov, exact_eigvalsh ev /\ sources_in_noise sh_real 12 [0] [0] [1] 0 cov.
Proof. exact ex_count. Qed.
