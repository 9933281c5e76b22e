(** Properties of decoder.py: construction on shared arrays, binaural rendering. *)
From Verif Require Import Base BaseFacts M_utils M_sig M_decoder M_decoder3 S_decoder3 P_dec11 P_dec12 P_dec13 X_dec3.
Open Scope R_scope.

(** * C55 *)
Theorem C55_shifts_in_place : forall qhull lx ly lz n b o h,
  float_array h lx n -> float_array h ly n -> float_array h lz n -> distinct3 lx ly lz ->
  exists r h', ls_init qhull (ARef lx) (ARef ly) (ARef lz) (Some (listed b o)) h = (r, h') /\
    (forall i, (i < n)%nat -> pos h' lx ly lz i = sub3 (pos h lx ly lz i) o) /\
    r = match qhull (map (fun p => sub3 p o) (points_of h lx ly lz n)) with
        | Ok f => Ok (LsObj lx ly lz (length h) (setup_init (fun _ => f) (points_of h lx ly lz n) (Some o)))
        | Err e => Err e end.
Proof. exact in_place_list. Qed.
Print Assumptions C55_shifts_in_place.
Theorem C55_array_listener : forall qhull lx ly lz n ll m c (o : V3) rest h,
  float_array h lx n -> float_array h ly n -> float_array h lz n -> distinct3 lx ly lz ->
  ll <> lx -> ll <> ly -> ll <> lz ->
  nth_error h ll = Some c -> a_shape c = [m] -> a_data c = vx o :: vy o :: vz o :: rest ->
  exists r h', ls_init qhull (ARef lx) (ARef ly) (ARef lz) (Some (ARef ll)) h = (r, h') /\
    (forall i, (i < n)%nat -> pos h' lx ly lz i = sub3 (pos h lx ly lz i) o) /\
    (forall i, num h' ll i = 0) /\
    r = match qhull (map (fun p => sub3 p o) (points_of h lx ly lz n)) with
        | Ok f => Ok (LsObj lx ly lz ll (setup_init (fun _ => f) (points_of h lx ly lz n) (Some o)))
        | Err e => Err e end.
Proof. exact in_place_array. Qed.
Print Assumptions C55_array_listener.
Theorem C55_history : forall qhull lx ly lz n,
  distinct3 lx ly lz -> forall os h objs h',
  float_array h lx n -> float_array h ly n -> float_array h lz n ->
  construct_all qhull (ARef lx) (ARef ly) (ARef lz) (map (fun o => Some (listed (fst o) (snd o))) os) h = (Ok objs, h') ->
  length objs = length os /\
  (forall k ob, nth_error objs k = Some ob ->
     h_points (o_hull ob) = map (fun p => sub3 p (offset_sum (firstn (S k) os))) (points_of h lx ly lz n) /\
     o_x ob = lx /\ o_y ob = ly /\ o_z ob = lz) /\
  (forall i, (i < n)%nat -> pos h' lx ly lz i = sub3 (pos h lx ly lz i) (offset_sum os)).
Proof. exact history. Qed.
Print Assumptions C55_history.
Theorem C55_history_array_listener : forall qhull lx ly lz n,
  distinct3 lx ly lz -> forall m h objs h' ll ob c (o : V3) rest,
  float_array h lx n -> float_array h ly n -> float_array h lz n -> ll <> lx -> ll <> ly -> ll <> lz ->
  nth_error h ll = Some c -> a_shape c = [ob] -> a_data c = vx o :: vy o :: vz o :: rest ->
  construct_all qhull (ARef lx) (ARef ly) (ARef lz) (repeat (Some (ARef ll)) (S m)) h = (Ok objs, h') ->
  length objs = S m /\
  (forall b, In b objs -> h_points (o_hull b) = map (fun p => sub3 p o) (points_of h lx ly lz n)) /\
  (forall i, (i < n)%nat -> pos h' lx ly lz i = sub3 (pos h lx ly lz i) o) /\
  (forall i, num h' ll i = 0).
Proof. exact history_array. Qed.
Print Assumptions C55_history_array_listener.
Theorem C55_frame : forall qhull x y z li h r h',
  ls_init qhull x y z li h = (r, h') ->
  forall l, (l < length h)%nat -> x <> ARef l -> y <> ARef l -> z <> ARef l -> li <> Some (ARef l) ->
  nth_error h' l = nth_error h l.
Proof. exact init_frame. Qed.
Print Assumptions C55_frame.
Theorem C55_no_offset : forall qhull x y z li h r h',
  (forall l, li = Some (ARef l) -> (l < length h)%nat) -> no_offset h li ->
  ls_init qhull x y z li h = (r, h') -> arrays_kept h h'.
Proof. exact init_zero. Qed.
Print Assumptions C55_no_offset.
Theorem C55_from_sph : forall qhull azi zen r li h res h',
  from_sph qhull azi zen r li h = (res, h') -> arrays_kept h h'.
Proof. exact from_sph_frame. Qed.
Print Assumptions C55_from_sph.
Theorem C55_failed_call : forall qhull lx ly lz n h b o1,
  float_array h lx n -> float_array h ly n -> float_array h lz n ->
  exists h', ls_init qhull (ARef lx) (ARef ly) (ARef lz) (Some (ALst [(b, o1)])) h = (Err IndexError, h') /\
    forall i, (i < n)%nat -> num h' lx i = num h lx i - o1.
Proof. exact failed_index. Qed.
Print Assumptions C55_failed_call.
Theorem C55_integer_arrays : forall qhull lx ly lz n h c o,
  nth_error h lx = Some c -> a_shape c = [n] -> a_int c = true ->
  float_array h ly n -> float_array h lz n ->
  exists h', ls_init qhull (ARef lx) (ARef ly) (ARef lz) (Some (listed false o)) h = (Err TypeError, h') /\ arrays_kept h h'.
Proof. exact integer_fails. Qed.
Print Assumptions C55_integer_arrays.
Theorem C55_arrays_kept_refuted : exists h x y z o ob h',
  ls_init ax_hull x y z o h = (Ok ob, h') /\ ~ arrays_kept h h'.
Proof. exact mutation_refuted. Qed.
Print Assumptions C55_arrays_kept_refuted.
Example C55_nonvacuous : exists objs h',
  construct_all ax_hull (ARef 0) (ARef 1) (ARef 2) (map (fun o => Some (listed (fst o) (snd o))) [(false, ax_shift); (true, (0, 1, 0)); (false, ax_shift)]) ax_heap = (Ok objs, h') /\
  distinct3 0 1 2 /\ float_array ax_heap 0 6 /\ float_array ax_heap 1 6 /\ float_array ax_heap 2 6.
Proof. exact history_example. Qed.
Example C55_nonvacuous_array : exists objs h',
  construct_all ax_hull (ARef 0) (ARef 1) (ARef 2) (repeat (Some (ARef 3)) 2) ax_heap2 = (Ok objs, h') /\
  float_array ax_heap2 0 6 /\ float_array ax_heap2 1 6 /\ float_array ax_heap2 2 6 /\
  exists c, nth_error ax_heap2 3 = Some c /\ a_shape c = [3%nat] /\ a_data c = [vx ax_shift; vy ax_shift; vz ax_shift].
Proof. exact history_array_example. Qed.
Example C55_nonvacuous_frame : exists ob h', ls_init ax_hull (ARef 0) (ARef 1) (ARef 2) (Some (listed false ax_shift)) ax_heap2 = (Ok ob, h') /\
  (3 < length ax_heap2)%nat /\ ARef 0 <> ARef 3 /\ ARef 1 <> ARef 3 /\ ARef 2 <> ARef 3 /\ Some (listed false ax_shift) <> Some (ARef 3).
Proof. exact frame_example. Qed.
Example C55_nonvacuous_no_offset : exists ob h', ls_init ax_hull (ARef 0) (ARef 1) (ARef 2) None ax_heap = (Ok ob, h') /\ no_offset ax_heap None.
Proof. exact no_offset_example. Qed.
(** * C56 *)
Theorem C56_directions : forall h ori hr T,
  hrir_set hr T -> (forall p, In p (h_points h) -> p <> h_listener h) ->
  exists az ze di hl hh, rendered_from h ori hr az ze di hl hh.
Proof. exact directions_exist. Qed.
Print Assumptions C56_directions.
Theorem C56_superposition : forall h ls fs ori hr T az ze di hl hh loud,
  hrir_set hr T -> rendered_from h ori hr az ze di hl hh ->
  h_fs hr = fs -> length (rows ls) = length (h_points h) -> rect ls ->
  (forall c, (c < length (h_points h))%nat -> loud c = true <-> heard (radiated ls (h_a h) di c)) ->
  exists l r, binauralize h ls fs ori hr = Ok (Some (l, r)) /\
    length l = (cols ls + T - 1)%nat /\ length r = (cols ls + T - 1)%nat /\
    forall n, (n < cols ls + T - 1)%nat ->
      nth n l 0 = rsum (length (h_points h)) (fun c => if loud c : bool then conv_sum (radiated ls (h_a h) di c) (hl c) n else 0) /\
      nth n r 0 = rsum (length (h_points h)) (fun c => if loud c : bool then conv_sum (radiated ls (h_a h) di c) (hh c) n else 0).
Proof. exact superposition_final. Qed.
Print Assumptions C56_superposition.
Theorem C56_gate_error : forall h ls fs ori hr T az ze di hl hh loud l r,
  hrir_set hr T -> rendered_from h ori hr az ze di hl hh ->
  h_fs hr = fs -> length (rows ls) = length (h_points h) -> rect ls ->
  (forall c, (c < length (h_points h))%nat -> loud c = true <-> heard (radiated ls (h_a h) di c)) ->
  binauralize h ls fs ori hr = Ok (Some (l, r)) ->
  forall n, (n < cols ls + T - 1)%nat ->
    Rabs (nth n l 0 - rsum (length (h_points h)) (fun c => conv_sum (radiated ls (h_a h) di c) (hl c) n))
      <= 1 / 100000 * rsum (length (h_points h)) (fun c => if loud c : bool then 0 else abs_sum (hl c)) /\
    Rabs (nth n r 0 - rsum (length (h_points h)) (fun c => conv_sum (radiated ls (h_a h) di c) (hh c) n))
      <= 1 / 100000 * rsum (length (h_points h)) (fun c => if loud c : bool then 0 else abs_sum (hh c)).
Proof. exact gate_error. Qed.
Print Assumptions C56_gate_error.
Theorem C56_linear : forall h ls1 ls2 ls3 fs ori hr T u v l1 r1 l2 r2 l3 r3 az ze di hl hh,
  hrir_set hr T -> rendered_from h ori hr az ze di hl hh ->
  (forall ls c, In ls [ls1; ls2; ls3] -> (c < length (h_points h))%nat ->
     heard (radiated ls (h_a h) di c) \/ forall x, In x (nth c (rows ls) []) -> x = 0) ->
  rect ls1 -> rect ls2 -> rect ls3 -> cols ls1 = cols ls3 -> cols ls2 = cols ls3 ->
  (forall c i, (c < length (h_points h))%nat -> (i < cols ls3)%nat ->
     nth i (nth c (rows ls3) []) 0 = u * nth i (nth c (rows ls1) []) 0 + v * nth i (nth c (rows ls2) []) 0) ->
  binauralize h ls1 fs ori hr = Ok (Some (l1, r1)) -> binauralize h ls2 fs ori hr = Ok (Some (l2, r2)) ->
  binauralize h ls3 fs ori hr = Ok (Some (l3, r3)) ->
  forall n, (n < cols ls3 + T - 1)%nat ->
    nth n l3 0 = u * nth n l1 0 + v * nth n l2 0 /\ nth n r3 0 = u * nth n r1 0 + v * nth n r2 0.
Proof. exact linear. Qed.
Print Assumptions C56_linear.
Theorem C56_wrong_rate : forall h ls fs ori hr,
  h_fs hr <> fs -> binauralize h ls fs ori hr = Err AssertionError.
Proof. exact binauralize_rate. Qed.
Print Assumptions C56_wrong_rate.
Theorem C56_wrong_count : forall h ls fs ori hr,
  h_fs hr = fs -> length (rows ls) <> length (h_points h) ->
  binauralize h ls fs ori hr = Err AssertionError.
Proof. exact binauralize_count. Qed.
Print Assumptions C56_wrong_count.
Example C56_nonvacuous : exists az ze di hl hh (loud : nat -> bool),
  hrir_set two_hrirs 2 /\ rendered_from two_hull (1, 0) two_hrirs az ze di hl hh /\
  h_fs two_hrirs = 48000%Z /\ length (rows two_sigs) = length (h_points two_hull) /\ rect two_sigs /\
  (forall c, (c < length (h_points two_hull))%nat -> loud c = true <-> heard (radiated two_sigs (h_a two_hull) di c)) /\
  loud 0%nat = true /\ loud 1%nat = false /\
  (forall c, (c < length (h_points two_hull))%nat ->
     heard (radiated two_sigs (h_a two_hull) di c) \/ forall x, In x (nth c (rows two_sigs) []) -> x = 0).
Proof. exact superposition_example. Qed.
(** * C57 *)
Theorem C57_convolution : forall K n T ds c dh,
  (2 <= K)%nat -> (1 <= n)%nat -> (2 <= T)%nat -> (2 <= c)%nat ->
  length ds = (K * n)%nat -> length dh = (c * K * T)%nat ->
  exists l r, sh2bin (Nd [K; n] ds) (Nd [c; K; T] dh) = Ok (l, r) /\ length l = (n + T - 1)%nat /\ length r = (n + T - 1)%nat /\
    forall m, (m < n + T - 1)%nat ->
      nth m l 0 = rsum K (fun k => rsum n (fun i => rsum T (fun j => if (i + j =? m)%nat then entry2 n ds k i * entry3 K T dh 0 k j else 0))) /\
      nth m r 0 = rsum K (fun k => rsum n (fun i => rsum T (fun j => if (i + j =? m)%nat then entry2 n ds k i * entry3 K T dh 1 k j else 0))).
Proof. exact sh2bin_final. Qed.
Print Assumptions C57_convolution.
Theorem C57_linear : forall K n T c dh d1 d2 d3 u v l1 r1 l2 r2 l3 r3,
  (2 <= K)%nat -> (1 <= n)%nat -> (2 <= T)%nat -> (2 <= c)%nat ->
  length d1 = (K * n)%nat -> length d2 = (K * n)%nat -> length d3 = (K * n)%nat -> length dh = (c * K * T)%nat ->
  (forall i, nth i d3 0 = u * nth i d1 0 + v * nth i d2 0) ->
  sh2bin (Nd [K; n] d1) (Nd [c; K; T] dh) = Ok (l1, r1) -> sh2bin (Nd [K; n] d2) (Nd [c; K; T] dh) = Ok (l2, r2) ->
  sh2bin (Nd [K; n] d3) (Nd [c; K; T] dh) = Ok (l3, r3) ->
  forall m, nth m l3 0 = u * nth m l1 0 + v * nth m l2 0 /\ nth m r3 0 = u * nth m r1 0 + v * nth m r2 0.
Proof. exact sh2bin_linear. Qed.
Print Assumptions C57_linear.
Theorem C57_single_channel_or_tap : forall K n T ds c dh,
  (1 <= c)%nat -> (K = 1 \/ T = 1)%nat -> sh2bin (Nd [K; n] ds) (Nd [c; K; T] dh) = Err ValueError.
Proof. exact sh2bin_squeeze. Qed.
Print Assumptions C57_single_channel_or_tap.
Theorem C57_asserts : forall sg hr,
  length (shape sg) <> 2%nat \/ length (shape hr) <> 3%nat \/
    (exists K n c k t, shape sg = [K; n] /\ shape hr = [c; k; t] /\ K <> k) ->
  sh2bin sg hr = Err AssertionError.
Proof. exact sh2bin_asserts. Qed.
Print Assumptions C57_asserts.
Example C57_nonvacuous : exists ds dh : list R, (2 <= 4)%nat /\ (1 <= 3)%nat /\ (2 <= 2)%nat /\ length ds = (4 * 3)%nat /\ length dh = (2 * 4 * 2)%nat /\
  entry2 3 ds 0 0 = 1 /\ entry3 4 2 dh 1 0 1 = 2.
Proof. exact sh2bin_example. Qed.
