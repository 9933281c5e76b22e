(** Sets of HRIRs in memory (C121). *)
From Verif Require Import Base M_utils M_sig M_process M_parsa2 M_process2 M_misc M_hmem S_misc S_ctf S_hmem P_hmem2 X_hmem.
Open Scope R_scope.

(** ** C121 *)
Theorem C121_init : forall m l r a z fs,
  reached m -> (l < length (mats m))%nat -> (r < length (mats m))%nat -> (a < length (vecs m))%nat -> (z < length (vecs m))%nat ->
  let m' := snd (hstep (HInit l r (VRef a) (VRef z) fs) m) in
  match hrirs_init (mat_at m l) (mat_at m r) (arr1 (vec_at m a)) (arr1 (vec_at m z)) fs with
  | Ok h => fst (hstep (HInit l r (VRef a) (VRef z) fs) m) = Ok [length (sets m)] /\ content m' (length (sets m)) = Some h /\ mats m' = mats m /\ vecs m' = vecs m /\
            ear_array m' (length (sets m)) false l /\ ear_array m' (length (sets m)) true r
  | Err e => fst (hstep (HInit l r (VRef a) (VRef z) fs) m) = Err e /\ m' = m
  end.
Proof. exact f_init. Qed.
Print Assumptions C121_init.
Theorem C121_write_seen : forall m a i j v,
  reached m -> (a < length (mats m))%nat -> (i < length (rows (mat_at m a)))%nat -> (j < cols (mat_at m a))%nat ->
  let m' := snd (hstep (HPut2 a i j v) m) in
  fst (hstep (HPut2 a i j v) m) = Ok [] /\ vecs m' = vecs m /\ sets m' = sets m /\
  forall o h, content m o = Some h -> exists h', content m' o = Some h' /\ h_azi h' = h_azi h /\ h_zen h' = h_zen h /\
    forall ear, (ear_array m o ear a -> poked (ear_of h ear) i j v (ear_of h' ear)) /\ (~ ear_array m o ear a -> ear_of h' ear = ear_of h ear).
Proof. exact f_write. Qed.
Print Assumptions C121_write_seen.
Theorem C121_item : forall m o ear a k j v h,
  reached m -> content m o = Some h -> ear_array m o ear a ->
  (forall i, (i < num_grid_points h)%nat -> (k = Z.of_nat i \/ k = Z.of_nat i - Z.of_nat (num_grid_points h))%Z -> hstep (HRow o ear k j v) m = hstep (HPut2 a i j v) m) /\
  (~ (- Z.of_nat (num_grid_points h) <= k < Z.of_nat (num_grid_points h))%Z -> hstep (HRow o ear k j v) m = (Err IndexError, m)).
Proof. exact f_row. Qed.
Print Assumptions C121_item.
Theorem C121_update : forall m o l r h,
  reached m -> content m o = Some h -> (l < length (mats m))%nat -> (r < length (mats m))%nat ->
  let m' := snd (hstep (HUpdate o l r) m) in
  content m' o = Some (fst (update_hrirs h (mat_at m l) (mat_at m r))) /\ mats m' = mats m /\ vecs m' = vecs m /\ (forall p, p <> o -> content m' p = content m p) /\
  match snd (update_hrirs h (mat_at m l) (mat_at m r)) with
  | Ok _ => fst (hstep (HUpdate o l r) m) = Ok [] /\ ear_array m' o false l /\ ear_array m' o true r
  | Err e => fst (hstep (HUpdate o l r) m) = Err e /\ m' = m
  end.
Proof. exact f_update. Qed.
Print Assumptions C121_update.
Theorem C121_equaliser : forall pinv cond minph m o t mode h,
  reached m -> content m o = Some h -> (t < length (vecs m))%nat -> rectangular h ->
  let m' := snd (hstep (HEq o t mode) m) in
  match apply_ctf_eq pinv cond minph h (Some (vec_at m t)) mode with
  | Ok (Some h') => fst (hstep (HEq o t mode) m) = Ok [] /\ content m' o = Some h' /\ (forall ear a, ear_array m' o ear a -> (length (mats m) <= a)%nat)
  | Ok None => False
  | Err e => fst (hstep (HEq o t mode) m) = Err e /\ m' = m
  end.
Proof. exact f_eq. Qed.
Print Assumptions C121_equaliser.
Theorem C121_equaliser_pure : forall m o t mode,
  reached m -> let m' := snd (hstep (HEq o t mode) m) in
  (forall a, (a < length (mats m))%nat -> mat_at m' a = mat_at m a) /\ (forall a, (a < length (vecs m))%nat -> vec_at m' a = vec_at m a) /\ forall p, p <> o -> content m' p = content m p.
Proof. exact f_eq_pure. Qed.
Print Assumptions C121_equaliser_pure.
Theorem C121_copy : forall m o h,
  reached m -> content m o = Some h ->
  let m' := snd (hstep (HCopy o) m) in let q := length (sets m) in
  fst (hstep (HCopy o) m) = Ok [q] /\ content m' q = Some h /\ alone m' q /\ (forall p, (p < q)%nat -> content m' p = content m p) /\
  (forall a, holds2 m' q a -> (length (mats m) <= a)%nat) /\ (forall a, holds1 m' q a -> (length (vecs m) <= a)%nat) /\
  ((exists a, ear_array m' q false a /\ ear_array m' q true a) <-> exists a, ear_array m o false a /\ ear_array m o true a).
Proof. exact f_copy. Qed.
Print Assumptions C121_copy.
Theorem C121_copy_independent : forall m o h,
  reached m -> content m o = Some h -> let m' := snd (hstep (HCopy o) m) in let q := length (sets m) in
  (forall cs, Forall (foreign m' q) cs -> content (hrun m' cs) q = Some h) /\ (forall cs p, (p < q)%nat -> all_keep_to m' cs q -> content (hrun m' cs) p = content m p).
Proof. exact f_independent. Qed.
Print Assumptions C121_copy_independent.
Theorem C121_nearest_copies : forall m o azi zen h,
  reached m -> content m o = Some h -> let m' := snd (hstep (HNear o azi zen) m) in
  mats m' = mats m /\ sets m' = sets m /\ (forall p, content m' p = content m p) /\
  match nearest_hrirs h azi zen with
  | Ok (l, r) => exists a b, fst (hstep (HNear o azi zen) m) = Ok [a; b] /\ vec_at m' a = l /\ vec_at m' b = r /\ a <> b /\ (length (vecs m) <= a)%nat /\ (length (vecs m) <= b)%nat /\ forall p, ~ holds1 m' p a /\ ~ holds1 m' p b
  | Err e => fst (hstep (HNear o azi zen) m) = Err e /\ m' = m
  end.
Proof. exact f_near. Qed.
Print Assumptions C121_nearest_copies.
Theorem C121_frame : forall cs,
  forall m o, reached m -> (o < length (sets m))%nat -> all_spare m cs o -> content (hrun m cs) o = content m o.
Proof. exact frame. Qed.
Print Assumptions C121_frame.
Theorem C121_counts : forall m o h,
  reached m -> content m o = Some h -> matches h.
Proof. exact reached_fits. Qed.
Print Assumptions C121_counts.
Theorem C121_taps : forall cs o h,
  all_same hempty cs -> content (hrun hempty cs) o = Some h -> sized h.
Proof. exact run_sized. Qed.
Print Assumptions C121_taps.
Theorem C121_shared_refuted : ~ (forall m o p ear k j v, reached m -> o <> p -> content (snd (hstep (HRow o ear k j v) m)) p = content m p).
Proof. exact f_shared_refuted. Qed.
Print Assumptions C121_shared_refuted.
Theorem C121_half_equalised_refuted : ~ (forall m o t mode e, reached m -> fst (hstep (HEq o t mode) m) = Err e -> content (snd (hstep (HEq o t mode) m)) o = content m o).
Proof. exact f_half_refuted. Qed.
Print Assumptions C121_half_equalised_refuted.
Theorem C121_taps_refuted : ~ (forall cs o h, content (hrun hempty cs) o = Some h -> (forall x, In x (h_left h) -> length x = h_taps h)).
Proof. exact f_sized_refuted. Qed.
Print Assumptions C121_taps_refuted.
Theorem C121_one_array_refuted : ~ (forall m o h h' k j v, reached m -> content m o = Some h -> content (snd (hstep (HRow o false k j v) m)) o = Some h' -> h_right h' = h_right h).
Proof. exact f_one_array_refuted. Qed.
Print Assumptions C121_one_array_refuted.
Example C121_nonvacuous : reached (hrun hempty ex_prog) /\ content (hrun hempty ex_prog) 0 = Some (Hrirs [[1; 2]; [3; 4]] [[5; 6]; [7; 8]] [0; 1] [1; 1] 48000 2 2) /\ ear_array (hrun hempty ex_prog) 0 true 1 /\ all_same hempty ex_prog /\
  rectangular (Hrirs [[1; 2]; [3; 4]] [[5; 6]; [7; 8]] [0; 1] [1; 1] 48000 2 2).
Proof. exact ex_set. Qed.
Example C121_apart_nonvacuous : let m := snd (hstep (HCopy 0) (hrun hempty ex_prog)) in
  Forall (foreign m 1) [HRow 0 false 0 0 9; HPut2 1 1 1 9; HPut1 0 0 9; HUpdate 0 1 0; HEq 0 1 Full; HInit 0 0 (VRef 0) (VLst [1; 2]) 44100] /\
  all_keep_to m [HRow 1 true (-1) 1 9; HPut2 2 0 0 9; HPut1 3 1 9; HEq 1 0 Full; HRow 1 false 0 0 7] 1.
Proof. exact ex_apart. Qed.
