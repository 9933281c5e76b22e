(** Final forms and examples: check_listener_inside, HRIRs objects, levels, triangles, resample_signal. *)
From Coq Require Import Lra Lia.
From Verif Require Import Base BaseFacts M_utils S_utils P_utils X_utils M_sig S_sig P_sig X_sig M_process M_sph M_decoder P_parsa3 M_misc S_misc P_misc P_misc2 P_misc3.
Open Scope R_scope.

Lemma vmean_mean ps : (0 < length ps)%nat -> mean_of ps (vmean ps).
Proof.
  intros H. split; auto. assert (N : INR (length ps) <> 0) by (apply not_0_INR; lia).
  assert (E : vsum3 ps = (fold_right Rplus 0 (map vx ps), fold_right Rplus 0 (map vy ps), fold_right Rplus 0 (map vz ps))) by (clear; induction ps as [|q ps IH]; [reflexivity|]; cbn [vsum3 fold_right map]; fold (vsum3 ps); rewrite IH; reflexivity).
  unfold vmean. rewrite E. unfold vx, vy, vz. cbn [fst snd]. repeat split; field; auto.
Qed.
Lemma mean_unique ps m : mean_of ps m -> m = vmean ps.
Proof.
  intros M. destruct (vmean_mean ps (proj1 M)) as (H & A & B & C). destruct M as (_ & A' & B' & C'). assert (N : INR (length ps) <> 0) by (apply not_0_INR; lia).
  assert (X : vx m = vx (vmean ps)) by (apply (Rmult_eq_reg_l (INR (length ps))); congruence). assert (Y : vy m = vy (vmean ps)) by (apply (Rmult_eq_reg_l (INR (length ps))); congruence). assert (Z : vz m = vz (vmean ps)) by (apply (Rmult_eq_reg_l (INR (length ps))); congruence).
  destruct m as [[x y] z], (vmean ps) as [[x' y'] z']. unfold vx, vy, vz in *. cbn [fst snd] in *. congruence.
Qed.
Lemma f_kept chull ps o : let h := setup_init chull ps o in
  h_points h = map (fun p => sub3 p (match o with Some q => q | None => (0, 0, 0) end)) ps /\
  (forall pos, exists keep, check_listener_inside h pos = filter keep (h_simplices h)) /\
  (forall b, mean_of (h_points h) b ->
     (forall l i j k c, mean_of [nth i (h_points h) (0, 0, 0); nth j (h_points h) (0, 0, 0); nth k (h_points h) (0, 0, 0)] c ->
        (In (i, j, k) (check_listener_inside h (Some l)) <-> In (i, j, k) (h_simplices h) /\ dist l b ^ 2 <= dist l c ^ 2 + dist b c ^ 2)) /\
     check_listener_inside h (Some b) = h_simplices h) /\
  h_encloses h = check_listener_inside h (Some (0, 0, 0)) /\ h_encloses h = check_listener_inside h None /\ h_valid h = h_encloses h.
Proof.
  intros h. destruct (kept_faces chull ps o) as (A & B & C & D). fold h in A, B, C, D. split; [reflexivity|]. split; [exact A|]. split; [|exact D].
  intros b Hb. rewrite (mean_unique _ _ Hb). split; [|exact C]. intros l i j k c Hc. rewrite (mean_unique _ _ Hc). apply B.
Qed.
Lemma f_upright chull ps o : let h := setup_init chull ps o in
  forall i j k n lam l m c, let p i := nth i (h_points h) (0, 0, 0) in In (i, j, k) (h_simplices h) ->
    dot3 n (sub3 (p j) (p i)) = 0 -> dot3 n (sub3 (p k) (p i)) = 0 -> 0 < lam ->
    mean_of (h_points h) m -> mean_of [p i; p j; p k] c -> sub3 m c = scal3 lam n ->
    (In (i, j, k) (check_listener_inside h (Some l)) <-> dot3 n (p i) <= dot3 n l).
Proof.
  intros h i j k n lam l m c p Hin H1 H2 HL Hm Hc E. rewrite (mean_unique _ _ Hm), (mean_unique _ _ Hc) in E. exact (upright_faces chull ps o i j k n lam l Hin H1 H2 HL E).
Qed.
Lemma f_resample : forall resampler fs fs_new,
  (forall x r, resampler fs fs_new x = Ok r -> resample_signal_vec resampler x fs fs_new Cols = Ok (Nd (if Nat.eqb (length r) 1 then [] else [length r]) r)) /\
  (forall x rs k, Forall2 (fun s r => resampler fs fs_new s = Ok r) (rows x) rs -> (2 <= length rs)%nat -> (2 <= k)%nat -> (forall r, In r rs -> length r = k) ->
     resample_signal2 resampler x fs fs_new Cols = Ok (Nd [length rs; k] (concat rs))) /\
  (forall x rs k, Forall2 (fun j r => resampler fs fs_new (map (fun s => nth j s 0) (rows x)) = Ok r) (seq 0 (cols x)) rs -> (2 <= cols x)%nat -> (2 <= k)%nat -> (forall r, In r rs -> length r = k) ->
     exists d, resample_signal2 resampler x fs fs_new Rows = Ok (Nd [k; cols x] d) /\ forall i j, (i < k)%nat -> (j < cols x)%nat -> nth (i * cols x + j) d 0 = nth i (nth j rs []) 0) /\
  (forall x e pre post s, rows x = pre ++ s :: post -> (forall t, In t pre -> exists r, resampler fs fs_new t = Ok r) -> resampler fs fs_new s = Err e ->
     resample_signal2 resampler x fs fs_new Cols = Err e).
Proof.
  intros resampler fs fs_new. split; [|split; [|split]].
  - intros. apply resample_vec_value. auto.
  - intros. apply resample_rows_value; auto.
  - intros. apply resample_cols_value; auto.
  - intros. eapply resample_error; eauto.
Qed.
(** resampled along the first axis a vector falls apart: each sample is a signal *)
Lemma f_resample_vec_rows : forall resampler fs fs_new x rs k, (2 <= length x)%nat -> (2 <= k)%nat -> Forall2 (fun v r => resampler fs fs_new [v] = Ok r /\ length r = k) x rs ->
  exists d, resample_signal_vec resampler x fs fs_new Rows = Ok (Nd [k; length x] d) /\ forall i j, (i < k)%nat -> (j < length x)%nat -> nth (i * length x + j) d 0 = nth i (nth j rs []) 0.
Proof.
  intros resampler fs fs_new x rs k Hx Hk F. unfold resample_signal_vec. apply (resample_cols_value resampler (Arr2 [x] (length x)) fs fs_new rs k); auto; cbn [rows cols map].
  - clear - F. assert (G : forall pre, Forall2 (fun j r => resampler fs fs_new [nth j (pre ++ x) 0] = Ok r) (seq (length pre) (length x)) rs); [|exact (G [])].
    induction F as [|v r x rs [H _] F IH]; intros pre; cbn [length seq]; constructor.
    + rewrite app_nth2, Nat.sub_diag by lia. exact H.
    + specialize (IH (pre ++ [v])). rewrite app_length, Nat.add_1_r in IH. rewrite <- app_assoc in IH. exact IH.
  - clear - F. induction F as [|v r x rs [_ H] F IH]; intros q Hq; [destruct Hq|destruct Hq as [<-|Hq]; auto].
Qed.

(** * Examples *)
Definition octa : list V3 := [(1,0,0); (-1,0,0); (0,1,0); (0,-1,0); (0,0,1); (0,0,-1)].
Lemma ex_upright : exists chull, let h := setup_init chull octa None in let n := (-1, -1, -1) in let p i := nth i (h_points h) (0, 0, 0) in exists m c, In (0, 4, 2)%nat (h_simplices h) /\ mean_of (h_points h) m /\ mean_of [p 0%nat; p 4%nat; p 2%nat] c /\
  dot3 n (sub3 (p 4%nat) (p 0%nat)) = 0 /\ dot3 n (sub3 (p 2%nat) (p 0%nat)) = 0 /\ sub3 m c = scal3 (1 / 3) n.
Proof.
  exists (fun _ => [(0, 2, 4)%nat]). unfold setup_init, hull_of_points. rewrite no_shift. cbn [h_points h_simplices]. exists (0, 0, 0), (1 / 3, 1 / 3, 1 / 3). split; [left; reflexivity|].
  unfold mean_of, octa, dot3, sub3, scal3, vx, vy, vz. cbn [nth fst snd fold_right length map]. change (INR 3) with (1 + 1 + 1). repeat split; try lia; try lra. apply f_equal2; [apply f_equal2|]; lra.
Qed.
Lemma ex_hrirs : exists h, hrirs_init (Arr2 [[1]; [2]] 1) (Arr2 [[3]; [4]] 1) (arr1 [0; PI]) (arr1 [PI / 2; PI / 2]) 48000 = Ok h /\ sound h /\ h_azi h <> [] /\
  (forall x, In x (h_right h) -> length x = h_taps h) /\ hrirs_getitem h (-1) = Ok ([2], [4]) /\
  snd (update_hrirs h (Arr2 [[5; 6]; [7; 8]] 2) (Arr2 [[5; 6]; [7; 8]] 2)) = Ok tt /\ snd (update_hrirs h (Arr2 [[5; 6]] 2) (Arr2 [[5; 6]] 2)) = Err AssertionError.
Proof.
  eexists. split; [apply init_value; reflexivity|]. split; [repeat split|]. split; [discriminate|]. split; [cbn; intuition; subst; reflexivity|]. split; [reflexivity|]. split; reflexivity.
Qed.
Lemma ex_levels : rms_of [(3, 0); (0, 4)] (sqrt (25 / 2)) /\ area_triangle (0, 0, 0) (3, 0, 0) (0, 4, 0) = 6 /\
  exists x L, (0 < cnc x)%nat /\ lanes x Cols = 2%nat /\ subband_levels_axis x [1; 4] 8 false Cols = Ok L /\ nth 1 L None = Some 3.
Proof.
  split; [|split].
  - split; [apply sqrt_pos|]. rewrite <- (Rsqr_pow2 (sqrt _)). unfold Rsqr. rewrite sqrt_sqrt by lra. unfold power_sum. cbn. lra.
  - unfold area_triangle, norm3, dot3, cross3, sub3, vx, vy, vz. cbn [fst snd]. replace (_ + _ + _) with (12 * 12) by ring. rewrite sqrt_square by lra. lra.
  - destruct (levels_value (CMat 2 9 (fun _ _ => (1, 0))) [1; 4] 8 Cols) as (L & P & E & _ & _ & _ & H); [lra|cbn; intuition lra|cbn; lia|left; reflexivity|].
    exists (CMat 2 9 (fun _ _ => (1, 0))), L. split; [cbn; lia|]. split; [reflexivity|]. split; [exact E|]. destruct (H 1%nat) as [V _]; [cbn; lia|]. rewrite V. f_equal.
    replace (8 * _ / _) with (3 * 3) by (unfold band_width, power_sum; cbn; lra). apply sqrt_square. lra.
Qed.
Lemma ex_resample : exists resampler : Z -> Z -> list R -> res (list R), Forall2 (fun s r => resampler 1%Z 2%Z s = Ok r) (rows (Arr2 [[1]; [2]] 1%nat)) [[1; 1]; [2; 2]] /\
  Forall2 (fun v r => resampler 1%Z 2%Z [v] = Ok r /\ length r = 2%nat) [1; 2] [[1; 1]; [2; 2]].
Proof. exists (fun _ _ l => Ok (flat_map (fun v => [v; v]) l)). split; repeat constructor. Qed.
