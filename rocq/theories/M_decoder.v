(** Model of spaudiopy/decoder.py, part 1: loudspeaker hulls, VBAP and VBIP.
    Faces are triples of vertex numbers; scipy.spatial.ConvexHull is a parameter.
    Printed messages and warnings are not modelled. *)
From Verif Require Import Base M_utils M_sig M_process.
Open Scope R_scope.

Definition face : Type := (nat * nat * nat)%type.
Definition fv (f : face) : list nat := let '(a, b, c) := f in [a; b; c].
Definition pt (ps : list V3) (i : nat) : V3 := nth i ps (0, 0, 0).
Definition fpts (ps : list V3) (f : face) : V3 * V3 * V3 :=
  let '(a, b, c) := f in (pt ps a, pt ps b, pt ps c).

(** np.mean of rows *)
Definition vsum3 (l : list V3) : V3 := fold_right add3 (0, 0, 0) l.
Definition vmean (l : list V3) : V3 :=
  let s := vsum3 l in (vx s / INR (length l), vy s / INR (length l), vz s / INR (length l)).

(** decoder.py:323-330 calculate_centroids, one face *)
Definition centroid (ps : list V3) (f : face) : V3 :=
  let '(p, q, r) := fpts ps f in vmean [p; q; r].
(** decoder.py:333-339 calculate_face_areas *)
Definition face_area (ps : list V3) (f : face) : R :=
  let '(p, q, r) := fpts ps f in area_triangle p q r.
(** decoder.py:342-360 calculate_face_normals, normalize=False, eps = 10e-6 *)
Definition face_normal (ps : list V3) (f : face) : V3 :=
  let '(p, q, r) := fpts ps f in
  let c := vmean [p; q; r] in
  let n := cross3 (sub3 q p) (sub3 r p) in
  let criterion := dot3 (sub3 (add3 c n) c) (sub3 (vmean ps) c) in
  if Rltb (10 / 1000000) criterion then scal3 (-1) n else n.
(** decoder.py:363-377 calculate_vertex_normals, normalize=False, one vertex *)
Definition vertex_normal (faces : list face) (areas : list R) (normals : list V3) (p : nat) : V3 :=
  vsum3 (map (fun x => scal3 (snd (fst x)) (snd x))
             (filter (fun x => existsb (Nat.eqb p) (fv (fst (fst x)))) (combine (combine faces areas) normals))).
(** decoder.py:468-474 sort_vertices, one face: reversed, then rolled so that the
    first smallest entry leads *)
Definition argmin3 (a b c : nat) : nat :=
  if ((a <=? b) && (a <=? c))%nat then 0%nat else if (b <=? c)%nat then 1%nat else 2%nat.
Definition sort_face (f : face) : face :=
  let '(a, b, c) := f in
  match argmin3 c b a with O => (c, b, a) | 1%nat => (b, a, c) | _ => (a, c, b) end.
Definition sort_vertices (l : list face) : list face := map sort_face l.

(** decoder.py:385-401 check_listener_inside *)
Definition listener_inside (ps : list V3) (listener : V3) (f : face) : bool :=
  let c := centroid ps f in
  negb (Rltb (dot3 (sub3 listener c) (sub3 (vmean ps) c)) 0).

(** the attributes of LoudspeakerSetup that later code reads.  [h_vbase] is
    inverted_vbase, [h_imag] is imaginary_ls_idx. *)
Record hull : Type := Hull {
  h_points : list V3; h_d : list R; h_a : R; h_listener : V3;
  h_simplices : list face; h_centroids : list V3; h_areas : list R; h_normals : list V3;
  h_encloses : list face; h_valid : list face;
  h_vbase : option (list M3); h_imag : option (list nat) }.
Definition set_valid (h : hull) (v : list face) : hull :=
  Hull (h_points h) (h_d h) (h_a h) (h_listener h) (h_simplices h) (h_centroids h) (h_areas h) (h_normals h)
       (h_encloses h) v (h_vbase h) (h_imag h).
Definition set_vbase (h : hull) (b : option (list M3)) : hull :=
  Hull (h_points h) (h_d h) (h_a h) (h_listener h) (h_simplices h) (h_centroids h) (h_areas h) (h_normals h)
       (h_encloses h) (h_valid h) b (h_imag h).
Definition set_imag (h : hull) (i : option (list nat)) : hull :=
  Hull (h_points h) (h_d h) (h_a h) (h_listener h) (h_simplices h) (h_centroids h) (h_areas h) (h_normals h)
       (h_encloses h) (h_valid h) (h_vbase h) i.

(** decoder.py:49-109 __init__ on the values of the arrays (M_decoder3.v models
    the aliasing).  The listener ends up at the origin (line 72).  Lines 318-320
    get_hull (scipy's ConvexHull, only its simplices are used) is [chull]; show
    (313-315) only plots. *)
Definition hull_of_points (chull : list V3 -> list face) (ps : list V3) : hull :=
  let simplices := sort_vertices (chull ps) in
  let inside := filter (listener_inside ps (0, 0, 0)) simplices in
  Hull ps (map (fun p => sqrt (vx p ^ 2 + vy p ^ 2 + vz p ^ 2)) ps) 1 (0, 0, 0)
       simplices (map (centroid ps) simplices) (map (face_area ps) simplices) (map (face_normal ps) simplices)
       inside inside None None.
Definition setup_init (chull : list V3 -> list face) (ps : list V3) (listener : option V3) : hull :=
  let o := match listener with Some o => o | None => (0, 0, 0) end in
  hull_of_points chull (map (fun p => sub3 p o) ps).

(** * Selecting triangles *)
(** np.isin(faces, s).sum(axis=-1), one face *)
Definition isin_sum (s : list nat) (f : face) : nat :=
  length (filter (fun v => existsb (Nat.eqb v) s) (fv f)).
(** decoder.py:131-136 is_simplex_valid *)
Definition is_simplex_valid (valid : list face) (f : face) : bool :=
  existsb (fun g => Nat.eqb (isin_sum (fv f) g) 3) valid.
(** a comparison with NaN is False *)
Definition exceeds (a : option R) (lim : R) : bool :=
  match a with Some x => Rltb (deg2rad lim) x | None => false end.
(** decoder.py:404-417 check_normals: runs over all simplices *)
Definition check_normals (h : hull) (lim : R) : list face :=
  map (fun x => fst (fst x))
    (filter (fun x => is_simplex_valid (h_valid h) (fst (fst x)) &&
                      negb (exceeds (angle_between (snd x) (snd (fst x)) (Some (h_listener h))) lim))
            (combine (combine (h_simplices h) (h_normals h)) (h_centroids h))).
(** decoder.py:420-436 check_aperture *)
Definition wide_aperture (h : hull) (lim : R) (f : face) : bool :=
  let '(p, q, r) := fpts (h_points h) f in
  exceeds (angle_between p q (Some (h_listener h))) lim || exceeds (angle_between q r (Some (h_listener h))) lim ||
  exceeds (angle_between p r (Some (h_listener h))) lim.
Definition check_aperture (h : hull) (lim : R) : list face :=
  filter (fun f => negb (wide_aperture h lim f)) (h_valid h).
(** decoder.py:439-453 check_opening *)
Definition wide_opening (h : hull) (lim : R) (f : face) : bool :=
  let '(p, q, r) := fpts (h_points h) f in
  exceeds (angle_between q r (Some p)) lim || exceeds (angle_between p r (Some q)) lim ||
  exceeds (angle_between p q (Some r)) lim.
Definition check_opening (h : hull) (lim : R) : list face :=
  filter (fun f => negb (wide_opening h lim f)) (h_valid h).
(** decoder.py:456-465 apply_blacklist *)
Definition blacklisted (bl : list nat) (f : face) : bool :=
  forallb (fun e => existsb (Nat.eqb e) (fv f)) bl.
Definition apply_blacklist (h : hull) (bl : list nat) : list face :=
  filter (fun f => negb (blacklisted bl f)) (h_valid h).
(** decoder.py:138-158 pop_triangles *)
Record limits : Type := Limits {
  l_normal : option R; l_aperture : option R; l_opening : option R; l_black : option (list nat) }.
Definition opt_set {A} (o : option A) (f : hull -> A -> list face) (h : hull) : hull :=
  match o with Some a => set_valid h (f h a) | None => h end.
Definition pop_triangles (h : hull) (l : limits) : hull :=
  opt_set (l_black l) apply_blacklist
    (opt_set (l_opening l) check_opening
      (opt_set (l_aperture l) check_aperture
        (opt_set (l_normal l) check_normals h))).

(** * Imaginary loudspeaker, decoder.py:477-520 *)
Definition edges (f : face) : list (nat * nat) := let '(a, b, c) := f in [(a, b); (b, c); (a, c)].
Definition edge_count (vs : list face) (e : nat * nat) : nat :=
  length (filter (fun g => Nat.eqb (isin_sum [fst e; snd e] g) 2) vs).
Definition rim_edges (vs : list face) : list (nat * nat) :=
  flat_map (fun f => filter (fun e => Nat.eqb (edge_count vs e) 1) (edges f)) vs.
(** np.unique with counts over all entries *)
Definition rim_entries (vs : list face) : list nat := flat_map (fun e => [fst e; snd e]) (rim_edges vs).
Definition rim_counts (vs : list face) : list nat :=
  map (count_occ Nat.eq_dec (rim_entries vs)) (nodup Nat.eq_dec (rim_entries vs)).
(** lines 514-516: exactly one simplex must match, otherwise the product of areas
    and normals does not broadcast (ValueError) *)
Definition mask_term (h : hull) (f : face) : res (V3 * R) :=
  match filter (fun x => Nat.eqb (isin_sum (fv f) (fst (fst x))) 3)
               (combine (combine (h_simplices h) (h_areas h)) (h_normals h)) with
  | [(g, ar, n)] =>
      let '(a, b, c) := g in
      Ok (scal3 ar n, (nth a (h_d h) 0 + nth b (h_d h) 0 + nth c (h_d h) 0) / 3)
  | _ => Err ValueError
  end.
(** [None]: division by zero *)
Definition find_imaginary_loudspeaker (h : hull) : res (option V3) :=
  let counts := rim_counts (h_valid h) in
  if negb (forallb (fun c => Nat.leb 2 c) counts) then Err NotImplementedError
  else if forallb (fun c => Nat.eqb c 3) counts then Err RuntimeError
  else
    let* terms := mapM (mask_term h) (h_valid h) in
    let avg_n := vsum3 (map fst terms) in
    let avg_d := lsum (map snd terms) in
    let q := (avg_d / INR (length (h_valid h))) ^ 3 in
    Ok (if Reqb q 0 then None else Some (scal3 (- (1 / q)) avg_n)).

(** * VBAP *)
(** decoder.py:523-531 _invert_triplets: the transposed least-squares inverse of
    the matrix of loudspeaker rows; [lstsq3 V] is np.linalg.lstsq(V, eye(3)) *)
Definition invert_triplets (lstsq3 : M3 -> M3) (vs : list face) (ps : list V3) : res (list M3) :=
  mapM (fun f : face => let '(a, b, c) := f in
          if (Nat.ltb a (length ps) && Nat.ltb b (length ps) && Nat.ltb c (length ps))%bool
          then Ok (tr3 (lstsq3 (fpts ps f))) else Err IndexError) vs.

(** x ** p for x >= 0 *)
Definition np_pow (x p : R) : R := if Reqb x 0 then (if Reqb p 0 then 1 else 0) else Rpower x p.
(** np.linalg.norm(v, ord) for ord > 0 or ord = inf *)
Inductive nord : Type := POrd (p : R) | PInf.
Definition vnorm (o : nord) (l : list R) : R :=
  match o with
  | POrd p => np_pow (lsum (map (fun x => np_pow (Rabs x) p) l)) (1 / p)
  | PInf => fold_right Rmax 0 (map Rabs l)
  end.
Definition v3l (v : V3) : list R := [vx v; vy v; vz v].
(** decoder.py:626-629 and 539-542: normalised projection if no entry is below
    -10e-6.  0/0 is NaN and not greater than anything. *)
Definition face_gains (o : nord) (base : M3) (src : V3) : option V3 :=
  let g := mv3 base src in
  let n := vnorm o (v3l g) in
  if Reqb n 0 then None
  else
    let g' := (vx g / n, vy g / n, vz g / n) in
    if (Rltb (- (10 / 1000000)) (vx g') && Rltb (- (10 / 1000000)) (vy g') && Rltb (- (10 / 1000000)) (vz g'))%bool
    then Some g' else None.
(** the loop over faces with its break *)
Fixpoint find_face (o : nord) (bases : list M3) (i : nat) (src : V3) : option (nat * V3) :=
  match bases with
  | [] => None
  | b :: t => match face_gains o b src with Some g => Some (i, g) | None => find_face o t (S i) src end
  end.
(** the element writes of [gains[src_idx, valid_simplices[face_idx]] = projection] *)
Definition row_writes (L : nat) (vs : list face) (hit : option (nat * V3)) : res (list (nat * R)) :=
  match hit with
  | None => Ok []
  | Some (i, g) =>
      match nth_error vs i with
      | None => Err IndexError
      | Some (a, b, c) =>
          if (Nat.ltb a L && Nat.ltb b L && Nat.ltb c L)%bool
          then Ok [(a, vx g); (b, vy g); (c, vz g)] else Err IndexError
      end
  end.
Definition write1 (row : list R) (w : nat * R) : list R := upd row (fst w) (snd w).
Definition write_row (row : list R) (ws : list (nat * R)) : list R := fold_left write1 ws row.
(** lines 622-633, one process *)
Definition vbap_rows (o : nord) (bases : list M3) (vs : list face) (L : nat) (src : list V3) : res (list (list (nat * R))) :=
  mapM (fun s => row_writes L vs (find_face o bases 0 s)) src.
Definition vbap_seq (o : nord) (bases : list M3) (vs : list face) (L : nat) (src : list V3) : res (list (list R)) :=
  let* ws := vbap_rows o bases vs L src in
  Ok (map (write_row (repeat 0 L)) ws).
(** lines 634-650, several processes on one shared array.  Task i performs the
    writes of row i, one element at a time; [sched] names the task that runs next.
    A schedule is complete when no writes are left.  Lines 1472-1483: the array is a
    ctypes buffer of zeros that every worker sees through np.frombuffer. *)
Fixpoint pool_exec (sched : list nat) (tasks : list (list (nat * R))) (mem : list (list R))
  : list (list (nat * R)) * list (list R) :=
  match sched with
  | [] => (tasks, mem)
  | t :: rest =>
      match nth t tasks [] with
      | [] => pool_exec rest tasks mem
      | w :: ws => pool_exec rest (upd tasks t ws) (upd mem t (write1 (nth t mem []) w))
      end
  end.
Definition complete (sched : list nat) (tasks : list (list (nat * R))) (mem : list (list R)) : Prop :=
  forall t, In t (fst (pool_exec sched tasks mem)) -> t = [].
Definition vbap_par (sched : list nat) (o : nord) (bases : list M3) (vs : list face) (L : nat) (src : list V3) : res (list (list R)) :=
  let* ws := vbap_rows o bases vs L src in
  Ok (snd (pool_exec sched ws (repeat (repeat 0 L) (length src)))).

(** decoder.py:604-653 vbap on one hull: result and the hull with its cache.
    [jobs] is the job count after line 593-594; multiprocessing.Pool needs at
    least one process. *)
Definition scale_row (d : list R) (a : R) (row : list R) : list R := zip_mul (map (fun x => np_pow x a) d) row.
Definition vbap_hull (lstsq3 : M3 -> M3) (jobs : Z) (sched : list nat) (src : list V3) (h : hull) (o : nord)
    (valid_simplices : option (list face)) : res (list (list R)) * hull :=
  let vs := match valid_simplices with Some v => v | None => h_valid h end in
  match (match h_vbase h with
         | None => let* b := invert_triplets lstsq3 vs (h_points h) in Ok (b, set_vbase h (Some b))
         | Some b => Ok (b, h)
         end) with
  | Err e => (Err e, h)
  | Ok (bases, h') =>
      let L := length (h_points h) in
      (let* gains :=
         (if ((jobs =? 1)%Z || Nat.ltb (length src) 10)%bool then vbap_seq o bases vs L src
          else if (jobs <? 1)%Z then Err ValueError
          else vbap_par sched o bases vs L src) in
       Ok (map (scale_row (h_d h) (h_a h)) gains), h')
  end.

(** a LoudspeakerSetup with its ambisonics_hull, kernel_hull (points and N_kernel)
    and characteristic_order *)
Record setup : Type := Setup {
  s_hull : hull; s_ambi : option hull; s_kernel : option (list V3 * nat); s_order : option nat }.
Definition set_hull (s : setup) (h : hull) : setup := Setup h (s_ambi s) (s_kernel s) (s_order s).
Definition set_ambi (s : setup) (h : hull) : setup := Setup (s_hull s) (Some h) (s_kernel s) (s_order s).
(** np.delete(gains, idx, axis=1) *)
Fixpoint delete_from {A} (i : nat) (idx : list nat) (l : list A) : list A :=
  match l with
  | [] => []
  | x :: t => if existsb (Nat.eqb i) idx then delete_from (S i) idx t else x :: delete_from (S i) idx t
  end.
Definition np_delete {A} (idx : list nat) (l : list A) : list A := delete_from 0 idx l.
(** decoder.py:549-657 vbap *)
Definition vbap (lstsq3 : M3 -> M3) (jobs : Z) (sched : list nat) (src : list V3) (s : setup) (o : nord)
    (valid_simplices : option (list face)) (retain_outside : bool) : res (list (list R)) * setup :=
  if retain_outside then
    match valid_simplices with
    | Some _ => (Err AssertionError, s)
    | None =>
        match s_ambi s with
        | None => (Err ValueError, s)
        | Some h =>
            match h_imag h with
            | None => (Err ValueError, s)
            | Some idx =>
                let (r, h') := vbap_hull lstsq3 jobs sched src h o None in
                (let* g := r in Ok (map (np_delete idx) g), set_ambi s h')
            end
        end
    end
  else let (r, h') := vbap_hull lstsq3 jobs sched src (s_hull s) o valid_simplices in (r, set_hull s h').

(** decoder.py:660-711 vbip; the VBAP gains are always computed with norm 2 *)
Definition vbip_row (o : nord) (g : list R) : list R :=
  let g1 := map (fun x => if Rltb x 0 then 0 else x) g in
  let g2 := map sqrt g1 in
  let n := vnorm o g2 in
  if Rltb 0 n then map (fun x => x / n) g2 else g2.
Definition vbip (lstsq3 : M3 -> M3) (jobs : Z) (sched : list nat) (src : list V3) (s : setup) (o : nord)
    (valid_simplices : option (list face)) (retain_outside : bool) : res (list (list R)) * setup :=
  let (r, s') := vbap lstsq3 jobs sched src s (POrd 2) valid_simplices retain_outside in
  (let* g := r in Ok (map (vbip_row o) g), s').

(** decoder.py:1255-1292 nearest_loudspeaker.  A loudspeaker at the listener
    divides by zero and is not modelled. *)
Definition nearest_row (h : hull) (src : V3) : res (list R) :=
  let ls := map (fun x => scal3 (/ snd x) (fst x)) (combine (h_points h) (h_d h)) in
  let* i := argmax (map (dot3 src) ls) in
  Ok (upd (repeat 0 (length (h_points h))) i (1 * np_pow (nth i (h_d h) 0) (h_a h))).
Definition nearest_loudspeaker (src : list V3) (h : hull) : res (list (list R)) := mapM (nearest_row h) src.
