(** Properties of check_listener_inside, HRIRs objects, levels, triangles and resample_signal (C108 - C110). *)
From Verif Require Import Base M_utils M_sig M_process M_sph M_decoder M_misc S_misc P_misc P_misc2 P_misc3 X_misc.
Open Scope R_scope.


(** ** C108 *)

Theorem C108_kept : forall chull ps o,
  let h := setup_init chull ps o in
  h_points h = map (fun p => sub3 p (match o with Some q => q | None => (0, 0, 0) end)) ps /\
  (forall pos, exists keep, check_listener_inside h pos = filter keep (h_simplices h)) /\
  (forall b, mean_of (h_points h) b ->
     (forall l i j k c, mean_of [nth i (h_points h) (0, 0, 0); nth j (h_points h) (0, 0, 0); nth k (h_points h) (0, 0, 0)] c ->
        (In (i, j, k) (check_listener_inside h (Some l)) <-> In (i, j, k) (h_simplices h) /\ dist l b ^ 2 <= dist l c ^ 2 + dist b c ^ 2)) /\
     check_listener_inside h (Some b) = h_simplices h) /\
  h_encloses h = check_listener_inside h (Some (0, 0, 0)) /\ h_encloses h = check_listener_inside h None /\ h_valid h = h_encloses h.
Proof. exact f_kept. Qed.
Print Assumptions C108_kept.
Theorem C108_upright : forall chull ps o,
  let h := setup_init chull ps o in
  forall i j k n lam l m c, let p i := nth i (h_points h) (0, 0, 0) in In (i, j, k) (h_simplices h) ->
    dot3 n (sub3 (p j) (p i)) = 0 -> dot3 n (sub3 (p k) (p i)) = 0 -> 0 < lam ->
    mean_of (h_points h) m -> mean_of [p i; p j; p k] c -> sub3 m c = scal3 lam n ->
    (In (i, j, k) (check_listener_inside h (Some l)) <-> dot3 n (p i) <= dot3 n l).
Proof. exact f_upright. Qed.
Print Assumptions C108_upright.
Theorem C108_inside_dropped_refuted : exists chull ps, let h := setup_init chull ps None in h_points h = ps /\
  (forall f, In f (h_simplices h) -> supporting ps f) /\ strictly_inside ps (0, 0, 0) /\
  exists f, In f (h_simplices h) /\ ~ In f (h_encloses h).
Proof. exact inside_dropped. Qed.
Print Assumptions C108_inside_dropped_refuted.
Theorem C108_outside_kept_refuted : exists chull ps, let h := setup_init chull ps None in h_points h = ps /\
  (forall f, In f (h_simplices h) -> supporting ps f) /\ strictly_outside ps (0, 0, 0) /\ h_simplices h <> [] /\ h_encloses h = h_simplices h.
Proof. exact outside_kept. Qed.
Print Assumptions C108_outside_kept_refuted.
Example C108_nonvacuous : exists chull, let h := setup_init chull octa None in let n := (-1, -1, -1) in let p i := nth i (h_points h) (0, 0, 0) in exists m c, In (0, 4, 2)%nat (h_simplices h) /\ mean_of (h_points h) m /\ mean_of [p 0%nat; p 4%nat; p 2%nat] c /\
  dot3 n (sub3 (p 4%nat) (p 0%nat)) = 0 /\ dot3 n (sub3 (p 2%nat) (p 0%nat)) = 0 /\ sub3 m c = scal3 (1 / 3) n.
Proof. exact ex_upright. Qed.

(** ** C109 *)

Theorem C109_init : forall l r azi zen fs,
  (length (rows l) = length (rows r) -> length azi = length zen -> length azi = length (rows l) ->
     hrirs_init l r (arr1 azi) (arr1 zen) fs = Ok (Hrirs (rows l) (rows r) azi zen fs (length azi) (cols l))) /\
  (~ (length (rows l) = length (rows r) /\ length azi = length zen /\ length azi = length (rows l)) ->
     hrirs_init l r (arr1 azi) (arr1 zen) fs = Err AssertionError).
Proof. exact init_value. Qed.
Print Assumptions C109_init.
Theorem C109_unequal_ears_refuted : exists l r azi zen h, arr2_wf l /\ arr2_wf r /\ cols l <> cols r /\ hrirs_init l r (arr1 azi) (arr1 zen) 48000 = Ok h /\ hrirs_len h = cols l /\
  (forall k hl hr, hrirs_getitem h k = Ok (hl, hr) -> length hl <> length hr).
Proof. exact unequal_ears. Qed.
Print Assumptions C109_unequal_ears_refuted.
Theorem C109_getitem : forall h k,
  length (h_left h) = length (h_right h) ->
  (forall l r, hrirs_getitem h k = Ok (l, r) <-> item (h_left h) k l /\ item (h_right h) k r) /\
  ((- Z.of_nat (length (h_left h)) <= k < Z.of_nat (length (h_left h)))%Z -> exists l r, hrirs_getitem h k = Ok (l, r)) /\
  (~ (- Z.of_nat (length (h_left h)) <= k < Z.of_nat (length (h_left h)))%Z -> hrirs_getitem h k = Err IndexError).
Proof. exact getitem_value. Qed.
Print Assumptions C109_getitem.
Theorem C109_update : forall h l r,
  sound h ->
  (length (rows l) = num_grid_points h -> length (rows r) = num_grid_points h ->
     exists h', update_hrirs h l r = (h', Ok tt) /\ h_left h' = rows l /\ h_right h' = rows r /\ hrirs_len h' = cols l /\
       h_azi h' = h_azi h /\ h_zen h' = h_zen h /\ h_fs h' = h_fs h /\ num_grid_points h' = num_grid_points h /\ (forall azi zen, nearest_idx h' azi zen = nearest_idx h azi zen)) /\
  (~ (length (rows l) = num_grid_points h /\ length (rows r) = num_grid_points h) -> update_hrirs h l r = (h, Err AssertionError)).
Proof. exact update_value. Qed.
Print Assumptions C109_update.
Theorem C109_updates : forall us,
  forall h, sound h ->
  let h' := fold_left (fun h u => fst (update_hrirs h (fst u) (snd u))) us h in
  sound h' /\ h_azi h' = h_azi h /\ h_zen h' = h_zen h /\ h_fs h' = h_fs h /\
  (h_left h', h_right h', hrirs_len h') = last_fitting (num_grid_points h) us (h_left h, h_right h, hrirs_len h).
Proof. exact updates_value. Qed.
Print Assumptions C109_updates.
Theorem C109_nearest : forall h,
  sound h -> h_azi h <> [] ->
  (forall azi zen, length azi = length zen -> exists k, nearest_idx_all h (arr1 azi) (arr1 zen) = Ok k /\
     shape k = (if Nat.eqb (length zen) 1 then [] else [length zen]) /\ Forall2 (fun p k => first_closest h (fst p) (snd p) k) (combine azi zen) (data k)) /\
  (forall azi zen, exists k, nearest_idx_all h (arr1 [azi]) (arr1 zen) = Ok k /\
     shape k = (if Nat.eqb (length zen) 1 then [] else [length zen]) /\ Forall2 (fun z k => first_closest h azi z k) zen (data k)) /\
  (forall azi zen, length azi <> length zen -> length azi <> 1%nat -> nearest_idx_all h (arr1 azi) (arr1 zen) = Err ValueError).
Proof. exact nearest_all. Qed.
Print Assumptions C109_nearest.
Theorem C109_nearest_empty : forall h azi zen,
  h_azi h = [] -> length azi = length zen -> nearest_idx_all h (arr1 azi) (arr1 zen) = Err ValueError.
Proof. exact nearest_all_empty. Qed.
Print Assumptions C109_nearest_empty.
Theorem C109_nearest_hrirs : forall h azi zen,
  sound h -> h_azi h <> [] -> length azi = length zen -> (forall x, In x (h_right h) -> length x = h_taps h) ->
  exists ks, Forall2 (fun p k => first_closest h (fst p) (snd p) k) (combine azi zen) ks /\
    nearest_hrirs_all h (arr1 azi) (arr1 zen) =
      Ok (Nd (if Nat.eqb (length zen) 1 then [h_taps h] else [length zen; h_taps h]) (concat (map (fun k => nth k (h_left h) []) ks)),
          Nd (if Nat.eqb (length zen) 1 then [h_taps h] else [length zen; h_taps h]) (concat (map (fun k => nth k (h_right h) []) ks))).
Proof. exact nearest_hrirs_value. Qed.
Print Assumptions C109_nearest_hrirs.
Example C109_nonvacuous : exists h, hrirs_init (Arr2 [[1]; [2]] 1) (Arr2 [[3]; [4]] 1) (arr1 [0; PI]) (arr1 [PI / 2; PI / 2]) 48000 = Ok h /\ sound h /\ h_azi h <> [] /\
  (forall x, In x (h_right h) -> length x = h_taps h) /\ hrirs_getitem h (-1) = Ok ([2], [4]) /\
  snd (update_hrirs h (Arr2 [[5; 6]; [7; 8]] 2) (Arr2 [[5; 6]; [7; 8]] 2)) = Ok tt /\ snd (update_hrirs h (Arr2 [[5; 6]] 2) (Arr2 [[5; 6]] 2)) = Err AssertionError.
Proof. exact ex_hrirs. Qed.

(** ** C110 *)

Theorem C110_rms : forall x ax,
  (0 < match ax with Cols => cnc x | Rows => cnr x end)%nat ->
  length (rms_axis x ax) = lanes x ax /\
  forall i, (i < lanes x ax)%nat -> exists r, nth i (rms_axis x ax) (0, 0) = (r, 0) /\ rms_of (lane x ax i) r /\
    (forall lo hi, 0 <= lo -> (forall z, In z (lane x ax i) -> lo <= sqrt (fst z ^ 2 + snd z ^ 2) <= hi) -> lo <= r <= hi).
Proof. exact rms_value. Qed.
Print Assumptions C110_rms.
Theorem C110_rms_laws : (forall x, rms x = sqrt (power_sum (map (fun a => (a, 0)) x) / INR (length x))) /\
  (forall c x, rms (map (fun a => c * a) x) = Rabs c * rms x).
Proof. exact rms_laws. Qed.
Print Assumptions C110_rms_laws.
Theorem C110_area : forall p q r,
  let a := dist q r in let b := dist p r in let c := dist p q in
  0 <= area_triangle p q r /\ 16 * area_triangle p q r ^ 2 = (a + b + c) * (- a + b + c) * (a - b + c) * (a + b - c) /\
  area_triangle q p r = area_triangle p q r /\ area_triangle q r p = area_triangle p q r /\
  (forall t, area_triangle (add3 p t) (add3 q t) (add3 r t) = area_triangle p q r) /\
  (area_triangle p q r = 0 <-> p = q \/ exists s, r = add3 p (scal3 s (sub3 q p))).
Proof. exact area_value. Qed.
Print Assumptions C110_area.
Theorem C110_levels : forall x width fs ax,
  0 < fs -> (forall w, In w width -> 0 < w) -> (0 < cnc x)%nat -> length width = lanes x ax \/ length width = 1%nat ->
  exists L P, subband_levels_axis x width fs false ax = Ok L /\ subband_levels_axis x width fs true ax = Ok P /\ length L = lanes x ax /\ length P = lanes x ax /\
    forall i, (i < lanes x ax)%nat -> let w := band_width width (lanes x ax) i in let e := power_sum (lane x ax i) in
      nth i L None = Some (sqrt (fs * e / (2 * w))) /\ nth i P None = Some (fs * e / (2 * w * INR (cnc x))) /\
      (ax = Cols -> forall r, rms_of (lane x ax i) r -> nth i P None = Some (fs / (2 * w) * r ^ 2)).
Proof. exact levels_value. Qed.
Print Assumptions C110_levels.
Theorem C110_levels_errors : forall x width fs ax,
  (cnc x = 0%nat -> subband_levels_axis x width fs true ax = Err ZeroDivisionError) /\
  ((0 < cnc x)%nat -> length width <> lanes x ax -> length width <> 1%nat -> lanes x ax <> 1%nat -> forall power, subband_levels_axis x width fs power ax = Err ValueError).
Proof. exact levels_errors. Qed.
Print Assumptions C110_levels_errors.
Theorem C110_levels_axis_refuted : exists x w fs r P, 0 < w /\ 0 < fs /\ rms_of (lane x Rows 0) r /\ subband_levels_axis x [w] fs true Rows = Ok P /\ nth 0 P None <> Some (fs / (2 * w) * r ^ 2).
Proof. exact rows_not_mean. Qed.
Print Assumptions C110_levels_axis_refuted.
Theorem C110_resample : forall resampler fs fs_new,
  (forall x r, resampler fs fs_new x = Ok r -> resample_signal_vec resampler x fs fs_new Cols = Ok (Nd (if Nat.eqb (length r) 1 then [] else [length r]) r)) /\
  (forall x rs k, Forall2 (fun s r => resampler fs fs_new s = Ok r) (rows x) rs -> (2 <= length rs)%nat -> (2 <= k)%nat -> (forall r, In r rs -> length r = k) ->
     resample_signal2 resampler x fs fs_new Cols = Ok (Nd [length rs; k] (concat rs))) /\
  (forall x rs k, Forall2 (fun j r => resampler fs fs_new (map (fun s => nth j s 0) (rows x)) = Ok r) (seq 0 (cols x)) rs -> (2 <= cols x)%nat -> (2 <= k)%nat -> (forall r, In r rs -> length r = k) ->
     exists d, resample_signal2 resampler x fs fs_new Rows = Ok (Nd [k; cols x] d) /\ forall i j, (i < k)%nat -> (j < cols x)%nat -> nth (i * cols x + j) d 0 = nth i (nth j rs []) 0) /\
  (forall x e pre post s, rows x = pre ++ s :: post -> (forall t, In t pre -> exists r, resampler fs fs_new t = Ok r) -> resampler fs fs_new s = Err e ->
     resample_signal2 resampler x fs fs_new Cols = Err e).
Proof. exact f_resample. Qed.
Print Assumptions C110_resample.
Theorem C110_resample_first_axis : forall resampler fs fs_new x rs k, (2 <= length x)%nat -> (2 <= k)%nat -> Forall2 (fun v r => resampler fs fs_new [v] = Ok r /\ length r = k) x rs ->
  exists d, resample_signal_vec resampler x fs fs_new Rows = Ok (Nd [k; length x] d) /\ forall i j, (i < k)%nat -> (j < length x)%nat -> nth (i * length x + j) d 0 = nth i (nth j rs []) 0.
Proof. exact f_resample_vec_rows. Qed.
Print Assumptions C110_resample_first_axis.
Example C110_nonvacuous : rms_of [(3, 0); (0, 4)] (sqrt (25 / 2)) /\ area_triangle (0, 0, 0) (3, 0, 0) (0, 4, 0) = 6 /\
  exists x L, (0 < cnc x)%nat /\ lanes x Cols = 2%nat /\ subband_levels_axis x [1; 4] 8 false Cols = Ok L /\ nth 1 L None = Some 3.
Proof. exact ex_levels. Qed.
Example C110_resample_nonvacuous : exists resampler : Z -> Z -> list R -> res (list R), Forall2 (fun s r => resampler 1%Z 2%Z s = Ok r) (rows (Arr2 [[1]; [2]] 1%nat)) [[1; 1]; [2; 2]] /\
  Forall2 (fun v r => resampler 1%Z 2%Z [v] = Ok r /\ length r = 2%nat) [1; 2] [[1; 1]; [2; 2]].
Proof. exact ex_resample. Qed.
