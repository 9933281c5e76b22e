(** Values of the transforms, of B-format conversion and of energy vectors. *)
From Verif Require Import Base BaseFacts M_utils S_utils M_sig M_sph0 M_sph S_linalg S_sph P_linalg P_sph7 P_sph9 P_sph10 P_sph11 P_sph12 P_sph13 X_sph.
Open Scope R_scope.

Lemma rE_value p g : length p = length g -> (exists x, In x g /\ x <> 0) ->
  let E := rsum (length g) (fun i => nth i g 0 ^ 2) in
  let mean := fun f : V3 -> R => rsum (length g) (fun i => nth i g 0 ^ 2 * f (nth i p (0, 0, 0))) / E in
  0 < E /\ r_E_row p g = (Some (mean vx, mean vy, mean vz), norm3 (mean vx, mean vy, mean vz)).
Proof.
  intros L H E mean.
  assert (EE : lsum (map (fun x => x * x) g) = E).
  { rewrite lsum_rsum, map_length. apply rsum_ext. intros i Hi. rewrite (nth_map_in (fun x => x * x) g i 0 0) by exact Hi. ring. }
  assert (EZ : E <> 0).
  { rewrite <- EE. intros Z. destruct H as (x & I & N). apply N. apply (proj1 (lsum_sq_0 g) Z). exact I. }
  assert (E0 : 0 <= E) by (apply rsum_nonneg; intros; apply pow2_ge_0).
  split; [lra|]. unfold r_E_row. cbv zeta. rewrite EE. rewrite (proj2 (Reqb_false E 0)) by exact EZ.
  assert (Q : scal3 (1 / E) (vsum (map (fun ab => scal3 (fst ab) (snd ab)) (combine (map (fun x => x * x) g) p))) = (mean vx, mean vy, mean vz)).
  { rewrite vsum_comp.
    assert (F : forall f : V3 -> R, (forall s v, f (scal3 s v) = s * f v) ->
         lsum (map f (map (fun ab => scal3 (fst ab) (snd ab)) (combine (map (fun x => x * x) g) p))) = mean f * E).
    { intros f Hf. rewrite weighted_comp by (auto; rewrite map_length; symmetry; auto). unfold mean. replace (rsum (length g) (fun i => nth i g 0 ^ 2 * f (nth i p (0, 0, 0))) / E * E) with (rsum (length g) (fun i => nth i g 0 ^ 2 * f (nth i p (0, 0, 0)))) by (field; exact EZ).
      replace (@length V3 p) with (length g) by (symmetry; exact L). apply rsum_ext. intros i Hi. rewrite (nth_map_in (fun x => x * x) g i 0 0) by lia. replace (nth i g 0 ^ 2) with (nth i g 0 * nth i g 0) by ring. reflexivity. }
    rewrite (F vx), (F vy), (F vz) by (intros s [[? ?] ?]; unfold scal3, vx, vy, vz; simpl; ring).
    clearbody mean. generalize (mean vx) (mean vy) (mean vz). intros a b c. unfold scal3. cbv [vx vy vz fst snd]. f_equal; [f_equal|]; field; auto. }
  change (list (R * R * R)) with (list V3) in p. change (R * R * R)%type with V3 in *. rewrite Q. reflexivity.
Qed.

Lemma sh_to_b_value F W : nr F = 4%nat -> (0 < nc F)%nat -> exists B, sh_to_b F W = Ok B /\ nr B = 4%nat /\ nc B = nc F /\
  forall t, ent B 0 t = sqrt (4 * PI) * (match W with Some w => w | None => 1 end * ent F 0 t) /\
    ent B 1 t = sqrt (4 * PI) * (ent F 3 t / sqrt 3) /\ ent B 2 t = sqrt (4 * PI) * (ent F 1 t / sqrt 3) /\ ent B 3 t = sqrt (4 * PI) * (ent F 2 t / sqrt 3).
Proof.
  intros R4 C0. unfold sh_to_b, apply_columns. rewrite (proj2 (Nat.eqb_neq (nc F) 0)) by lia. unfold matmul. cbn [nc nr b_mat mscal mat_of_rows]. rewrite R4, Nat.eqb_refl.
  eexists. split; [reflexivity|]. cbn [nr nc ent]. split; [reflexivity|]. split; [reflexivity|]. intros t. unfold b_mat, mscal, mat_of_rows. cbn [ent nr nc].
  unfold w_default. repeat split; cbn [rsum nth]; unfold Rdiv; ring.
Qed.

(** the sum of products that [sht] is *)
Lemma sht_weights f N azi zen w Y Ys : Ys = Some Y \/ (Ys = None /\ sh_matrix N azi zen = Ok Y) -> nr f = nr Y ->
  (length w = nr f -> exists F, sht f N azi zen (Some w) Ys = Ok F /\ nr F = nc Y /\ nc F = nc f /\
     forall k s, (k < nc Y)%nat -> ent F k s = rsum (nr Y) (fun q => nth q w 0 * ent Y q k * ent f q s)) /\
  (length w <> nr f -> sht f N azi zen (Some w) Ys = Err ValueError).
Proof.
  intros HY Rf. assert (EY : (match Ys with Some Y => Ok Y | None => sh_matrix N azi zen end) = Ok Y) by (destruct HY as [->|[-> E]]; [reflexivity|exact E]).
  split.
  - intros Lw. unfold sht. rewrite EY. cbn [bind]. unfold matmul at 1. cbn [nr nc mdiag]. rewrite Lw, Nat.eqb_refl. cbn [bind]. unfold matmul. cbn [nr nc mtr ent]. rewrite <- Rf, Nat.eqb_refl.
    eexists. split; [reflexivity|]. cbn [nr nc ent]. split; [reflexivity|]. split; [reflexivity|]. intros k s Hk. apply rsum_ext. intros q Hq.
    rewrite (rsum_single (nr f) q); [unfold mdiag; cbn [ent]; rewrite ?Nat.eqb_refl; ring|exact Hq|].
    intros i Hi Ne. unfold mdiag. cbn [ent]. rewrite (proj2 (Nat.eqb_neq q i)) by congruence. ring.
  - intros Lw. unfold sht. rewrite EY. cbn [bind]. unfold matmul at 1. cbn [nr nc mdiag]. rewrite (proj2 (Nat.eqb_neq (length w) (nr f)) Lw). reflexivity.
Qed.
Lemma sht_default f N azi zen Y Ys : Ys = Some Y \/ (Ys = None /\ sh_matrix N azi zen = Ok Y) -> nr f = nr Y ->
  exists F, sht f N azi zen None Ys = Ok F /\ nr F = nc Y /\ nc F = nc f /\
     forall k s, (k < nc Y)%nat -> ent F k s = rsum (nr Y) (fun q => 4 * PI / INR (nr Y) * ent Y q k * ent f q s).
Proof.
  intros HY Rf. assert (EY : (match Ys with Some Y => Ok Y | None => sh_matrix N azi zen end) = Ok Y) by (destruct HY as [->|[-> E]]; [reflexivity|exact E]).
  unfold sht. rewrite EY. cbn [bind]. unfold matmul. cbn [nr nc mtr mscal ent]. rewrite Rf, Nat.eqb_refl. eexists. split; [reflexivity|]. cbn [nr nc ent]. auto.
Qed.
Theorem f_sht_given : forall f N azi zen w Y, nr f = nr Y ->
  (length w = nr f -> exists F, sht f N azi zen (Some w) (Some Y) = Ok F /\ nr F = nc Y /\ nc F = nc f /\
     forall k s, (k < nc Y)%nat -> ent F k s = rsum (nr Y) (fun q => nth q w 0 * ent Y q k * ent f q s)) /\
  (length w <> nr f -> sht f N azi zen (Some w) (Some Y) = Err ValueError) /\
  exists F, sht f N azi zen None (Some Y) = Ok F /\ nr F = nc Y /\ nc F = nc f /\
     forall k s, (k < nc Y)%nat -> ent F k s = rsum (nr Y) (fun q => 4 * PI / INR (nr Y) * ent Y q k * ent f q s).
Proof.
  intros f N azi zen w Y H. destruct (sht_weights f N azi zen w Y (Some Y) (or_introl eq_refl) H) as [A B].
  split; [exact A|]. split; [exact B|]. apply sht_default; auto.
Qed.
Theorem f_sht : forall f N azi zen w, length zen = length azi -> nr f = length azi ->
  let coefficient := fun u n m s => rsum (length azi) (fun q => nth q u 0 * sh_real n m (nth q azi 0) (nth q zen 0) * ent f q s) in
  (length w = length azi -> exists F, sht f N azi zen (Some w) None = Ok F /\ nr F = ((N + 1) ^ 2)%nat /\ nc F = nc f /\
     forall n m s, (n <= N)%nat -> degree n m -> ent F (acn n m) s = coefficient w n m s) /\
  (length w <> length azi -> sht f N azi zen (Some w) None = Err ValueError) /\
  exists F, sht f N azi zen None None = Ok F /\ nr F = ((N + 1) ^ 2)%nat /\ nc F = nc f /\
     forall n m s, (n <= N)%nat -> degree n m -> ent F (acn n m) s = coefficient (equal_weights (length azi)) n m s.
Proof.
  intros f N azi zen w L Rf coefficient. destruct (sh_layout N azi zen L) as (Y & EY & RY & CY & V).
  destruct (acn_bijective N) as (_ & AC & _).
  destruct (sht_weights f N azi zen w Y None (or_intror (conj eq_refl EY)) ltac:(congruence)) as [A B].
  split; [|split].
  - intros Lw. destruct (A ltac:(congruence)) as (F & E & RF & CF & W). exists F. split; [exact E|]. split; [congruence|]. split; [exact CF|].
    intros n m s Hn Hm. rewrite W by (rewrite CY; apply AC; assumption). unfold coefficient. rewrite RY. apply rsum_ext. intros q Hq. rewrite V by assumption. reflexivity.
  - intros Lw. apply B. congruence.
  - destruct (sht_default f N azi zen Y None (or_intror (conj eq_refl EY)) ltac:(congruence)) as (F & E & RF & CF & W).
    exists F. split; [exact E|]. split; [congruence|]. split; [exact CF|]. intros n m s Hn Hm. rewrite W by (rewrite CY; apply AC; assumption). unfold coefficient. rewrite RY. apply rsum_ext. intros q Hq. rewrite V by assumption.
    unfold equal_weights. rewrite (nth_indep (repeat (4 * PI / INR (length azi)) (length azi)) 0 (4 * PI / INR (length azi))) by (rewrite repeat_length; exact Hq). rewrite nth_repeat. reflexivity.
Qed.
Theorem f_inverse : forall F N azi zen, length zen = length azi -> nr F = ((N + 1) ^ 2)%nat ->
  exists f, inverse_sht F azi zen None None = Ok f /\ nr f = length azi /\ nc f = nc F /\
    forall q s, (q < length azi)%nat -> ent f q s = field_value sh_real N (map (fun k => ent F k s) (seq 0 (nr F))) (nth q azi 0) (nth q zen 0).
Proof.
  intros F N azi zen L RF. destruct (sh_matrix_ok N azi zen L) as (Y & EY & RY & CY & V).
  assert (G1 : ((N + 1) ^ 2 >= 1)%nat) by (rewrite sq2; nia).
  unfold inverse_sht. destruct (nr F) as [|K] eqn:EK; [lia|]. rewrite <- EK in *. rewrite RF, order_of_sq, Nat2Z.id, EY. cbn [bind]. unfold first_rows, matmul. cbn [nr nc ent]. rewrite RF, Nat.min_id, CY, Nat.eqb_refl.
  eexists. split; [reflexivity|]. cbn [nr nc ent]. split; [exact RY|]. split; [reflexivity|]. intros q s Hq. rewrite sq2, rsum_acn. unfold field_value.
  apply rsum_ext. intros n Hn. apply rsum_ext. intros k Hk. rewrite V by lia. rewrite nth_map_seq by nia. ring.
Qed.
Theorem f_inverse_given : forall F Y azi zen N, (nr F <= (N + 1) ^ 2)%nat -> nc Y = nr F ->
  exists f, inverse_sht F azi zen (Some N) (Some Y) = Ok f /\ nr f = nr Y /\ nc f = nc F /\ forall q s, ent f q s = rsum (nc Y) (fun k => ent Y q k * ent F k s).
Proof.
  intros F Y azi zen N LN CY. unfold inverse_sht. destruct (nr F) eqn:EK; cbn [bind]; unfold first_rows, matmul; cbn [nr nc ent]; rewrite EK, Nat.min_r, CY, Nat.eqb_refl by lia;
  eexists; (split; [reflexivity|]); cbn [nr nc ent]; auto.
Qed.
