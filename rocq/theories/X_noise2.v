(** The weighted transform is the best approximation. *)
From Coq Require Import Lra Lia.
From Verif Require Import Base BaseFacts M_utils M_sig P_sig M_sph0 M_sph S_utils S_sph S_grids S_svd P_sph7 P_sph11 P_grids3 P_svd3 X_sph S_order P_order X_order S_noise X_noise.
Open Scope R_scope.

Lemma f_noise_distance N azi zen w g : exact_for sh_real (2 * N) azi zen w -> nr g = length azi ->
  exists X, sht g N azi zen (Some w) None = Ok X /\ nr X = ((N + 1) ^ 2)%nat /\ nc X = nc g /\
  forall F f j, nr F = ((N + 1) ^ 2)%nat -> nc F = nc g -> (j < nc g)%nat -> inverse_sht F azi zen None None = Ok f ->
    rsum (length azi) (fun q => nth q w 0 * (ent g q j - ent f q j) ^ 2) =
    rsum (length azi) (fun q => nth q w 0 * ent g q j ^ 2) - col_energy X j + rsum ((N + 1) ^ 2) (fun i => (ent X i j - ent F i j) ^ 2).
Proof.
  intros EX HG. pose proof EX as (L1 & L2 & _). destruct (gram_grid N azi zen w EX) as (Y & EY & RY & CY & O).
  destruct (sht_weights_ok g N azi zen w Y EY) as (X & EXX & RX & CX & HX); [congruence|congruence|]. exists X. split; [exact EXX|]. split; [congruence|]. split; [exact CX|].
  intros F f j HF CF Hj Ef. rewrite (inverse_sht_infers F N) in Ef by exact HF. destruct (inverse_sht_ok F N azi zen Y EY CY ltac:(lia)) as (f' & Ef' & Rf & Cf & Hf). rewrite Ef in Ef'. injection Ef' as <-.
  set (c := fun k => ent F k j). assert (Hf' : forall q, ent f q j = act Y c q) by (intros q; rewrite Hf; unfold act, c; rewrite CY; reflexivity).
  pose proof (energy Y w O c) as EN. rewrite RY in EN.
  assert (CR : rsum (length azi) (fun q => nth q w 0 * (ent g q j * act Y c q)) = rsum (nc Y) (fun k => c k * ent X k j)).
  { rewrite (rsum_ext (nc Y) _ (fun k => rsum (length azi) (fun q => nth q w 0 * ent g q j * (ent Y q k * c k)))).
    - rewrite rsum_swap. apply rsum_ext. intros q _. rewrite rsum_scal. fold (act Y c q). ring.
    - intros k _. rewrite HX, HG, <- rsum_scal. apply rsum_ext. intros; ring. }
  unfold col_energy. rewrite RX, <- CY.
  rewrite (rsum_ext (length azi) _ (fun q => nth q w 0 * ent g q j ^ 2 + (-2 * (nth q w 0 * (ent g q j * act Y c q)) + nth q w 0 * (act Y c q * act Y c q)))) by (intros q _; rewrite Hf'; ring).
  rewrite !rsum_plus, rsum_scal, CR, EN.
  rewrite (rsum_ext (nc Y) (fun i => (ent X i j - ent F i j) ^ 2) (fun i => ent X i j ^ 2 + (-2 * (c i * ent X i j) + c i * c i))) by (intros; unfold c; ring).
  rewrite !rsum_plus, rsum_scal. unfold sumsq. ring.
Qed.
Lemma f_noise_best N azi zen w g X : exact_for sh_real (2 * N) azi zen w -> (forall x, In x w -> 0 <= x) -> nr g = length azi -> sht g N azi zen (Some w) None = Ok X ->
  (forall j, (j < nc g)%nat -> col_energy X j <= rsum (length azi) (fun q => nth q w 0 * ent g q j ^ 2)) /\
  (forall F f h j, nr F = ((N + 1) ^ 2)%nat -> nc F = nc g -> (j < nc g)%nat -> inverse_sht F azi zen None None = Ok f -> inverse_sht X azi zen None None = Ok h ->
    rsum (length azi) (fun q => nth q w 0 * (ent g q j - ent h q j) ^ 2) <= rsum (length azi) (fun q => nth q w 0 * (ent g q j - ent f q j) ^ 2)).
Proof.
  intros EX HW HG E. destruct (f_noise_distance N azi zen w g EX HG) as (X' & E' & RX & CX & D). rewrite E in E'. injection E' as <-. pose proof EX as (L1 & L2 & _).
  assert (Z : rsum ((N + 1) ^ 2) (fun i => 0) = 0) by (apply rsum_0; reflexivity).
  assert (SELF : forall j h, (j < nc g)%nat -> inverse_sht X azi zen None None = Ok h -> rsum (length azi) (fun q => nth q w 0 * (ent g q j - ent h q j) ^ 2) = rsum (length azi) (fun q => nth q w 0 * ent g q j ^ 2) - col_energy X j).
  { intros j h Hj Eh. rewrite (D X h j RX CX Hj Eh). rewrite (rsum_ext _ (fun i => (ent X i j - ent X i j) ^ 2) (fun _ => 0)) by (intros; ring). lra. }
  split.
  - intros j Hj. destruct (gram_grid N azi zen w EX) as (Y & EY & RY & CY & O). destruct (inverse_sht_ok X N azi zen Y EY CY ltac:(lia)) as (h & Eh & _). rewrite <- (inverse_sht_infers X N) in Eh by exact RX.
    pose proof (SELF j h Hj Eh) as S. assert (P : 0 <= rsum (length azi) (fun q => nth q w 0 * (ent g q j - ent h q j) ^ 2)).
    { apply rsum_nonneg. intros q Hq. apply Rmult_le_pos; [apply HW, nth_In; congruence|apply pow2_ge_0]. } lra.
  - intros F f h j HF CF Hj Ef Eh. rewrite (SELF j h Hj Eh), (D F f j HF CF Hj Ef). pose proof (rsum_nonneg ((N + 1) ^ 2) (fun i => (ent X i j - ent F i j) ^ 2)) as P. cbv beta in P. specialize (P ltac:(intros; apply pow2_ge_0)). lra.
Qed.
