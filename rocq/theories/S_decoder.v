(** Specifications for the properties of decoder.py. *)
From Verif Require Import Base M_decoder.
Open Scope R_scope.

(** |x|^p, p > 0 *)
Definition abs_pow (p x : R) : R := if Req_EM_T x 0 then 0 else exp (p * ln (Rabs x)).
(** [l] has norm 1 *)
Definition unit_norm (o : nord) (l : list R) : Prop :=
  match o with
  | POrd p => lsum (map (abs_pow p) l) = 1
  | PInf => (forall x, In x l -> Rabs x <= 1) /\ exists x, In x l /\ Rabs x = 1
  end.
Definition norm_order (o : nord) : Prop := match o with POrd p => 0 < p | PInf => True end.

(** * Panning on a triangle *)
Definition in_range (L : nat) (f : face) : Prop := let '(a, b, c) := f in (a < L)%nat /\ (b < L)%nat /\ (c < L)%nat.
(** the loudspeaker vectors of the face are linearly independent *)
Definition independent (ps : list V3) (f : face) : Prop :=
  let '(a, b, c) := f in dot3 (nth a ps (0,0,0)) (cross3 (nth b ps (0,0,0)) (nth c ps (0,0,0))) <> 0.
(** [g] on the three loudspeakers of [f] adds up to [v] *)
Definition combines (ps : list V3) (f : face) (g v : V3) : Prop :=
  let '(a, b, c) := f in
  v = add3 (scal3 (vx g) (nth a ps (0,0,0))) (add3 (scal3 (vy g) (nth b ps (0,0,0))) (scal3 (vz g) (nth c ps (0,0,0)))).
(** [g] are valid panning gains for [src] on [f] *)
Definition pans (o : nord) (ps : list V3) (f : face) (src g : V3) : Prop :=
  unit_norm o [vx g; vy g; vz g] /\
  (- (1 / 100000) < vx g /\ - (1 / 100000) < vy g /\ - (1 / 100000) < vz g) /\
  exists k, 0 < k /\ combines ps f g (scal3 k src).
(** the direction of [src] lies in the cone of the face *)
Definition inside_cone (ps : list V3) (f : face) (src : V3) : Prop :=
  src <> (0, 0, 0) /\ exists g, 0 <= vx g /\ 0 <= vy g /\ 0 <= vz g /\ combines ps f g src.
(** gain of loudspeaker [j] if the face carries [g] *)
Definition on_face (f : face) (g : V3) (j : nat) : R :=
  let '(a, b, c) := f in delta j a * vx g + delta j b * vy g + delta j c * vz g.
(** d ** a *)
Definition dist_gain (d a : R) : R := if Req_EM_T d 0 then (if Req_EM_T a 0 then 1 else 0) else exp (a * ln d).
(** the row a panner must return: the first face that can pan the source carries
    it, and the row is silent if there is none *)
Definition panning_row (o : nord) (h : hull) (vs : list face) (src : V3) (row : list R) : Prop :=
  length row = length (h_points h) /\
  ((exists i g, (i < length vs)%nat /\ pans o (h_points h) (nth i vs (0,0,0)%nat) src g /\
      (forall j g', (j < i)%nat -> ~ pans o (h_points h) (nth j vs (0,0,0)%nat) src g') /\
      forall j, (j < length (h_points h))%nat ->
        nth j row 0 = dist_gain (nth j (h_d h) 0) (h_a h) * on_face (nth i vs (0,0,0)%nat) g j)
   \/ ((forall f g, In f vs -> ~ pans o (h_points h) f src g) /\
       forall j, (j < length (h_points h))%nat -> nth j row 0 = 0)).
(** a hull with as many distances as loudspeakers *)
Definition hull_wf (h : hull) : Prop := length (h_d h) = length (h_points h).
(** np.linalg.lstsq(V, eye(3)): the inverse of a regular matrix *)
Definition lstsq3_contract (lstsq3 : M3 -> M3) : Prop := forall V, det3 V <> 0 -> mm3 V (lstsq3 V) = eye3.

(** * Histories of calls on one hull *)
Inductive call : Type := CVbap (src : list V3) (o : nord) (vs : option (list face)) | CPop (l : limits).
Definition in_force (h : hull) (vs : option (list face)) : list face := match vs with Some v => v | None => h_valid h end.
Definition step (lstsq3 : M3 -> M3) (h : hull) (c : call) : hull :=
  match c with CVbap src o vs => snd (vbap_hull lstsq3 1 [] src h o vs) | CPop l => pop_triangles h l end.
Definition run (lstsq3 : M3 -> M3) (h : hull) (cs : list call) : hull := fold_left (step lstsq3) cs h.
(** every vbap call of the history uses the simplices [vs0] *)
Fixpoint all_use (lstsq3 : M3 -> M3) (vs0 : list face) (h : hull) (cs : list call) : Prop :=
  match cs with
  | [] => True
  | c :: t => match c with CVbap _ _ vs => in_force h vs = vs0 | CPop _ => True end /\
              all_use lstsq3 vs0 (step lstsq3 h c) t
  end.

(** * Nearest loudspeaker *)
(** the angle between [u] and [v] *)
Definition angle (u v : V3) : R := acos (dot3 u v / (norm3 u * norm3 v)).

(** * Triangulations *)
Definition distinct (f : face) : Prop := let '(a, b, c) := f in a <> b /\ b <> c /\ a <> c.
Definition same_vertices (f g : face) : Prop := forall v, In v (fv f) <-> In v (fv g).
Inductive subseq {A : Type} : list A -> list A -> Prop :=
  | sub_nil : forall l, subseq [] l
  | sub_keep : forall a l1 l2, subseq l1 l2 -> subseq (a :: l1) (a :: l2)
  | sub_drop : forall a l1 l2, subseq l1 l2 -> subseq l1 (a :: l2).
(** what ConvexHull and __init__ establish: proper triangles without repetition,
    valid ones among them, and the geometry of each *)
Definition triangulated (h : hull) : Prop :=
  NoDup (h_simplices h) /\ Forall distinct (h_simplices h) /\
  (forall f g, In f (h_simplices h) -> In g (h_simplices h) -> same_vertices f g -> f = g) /\
  subseq (h_valid h) (h_simplices h) /\
  h_centroids h = map (centroid (h_points h)) (h_simplices h) /\
  h_normals h = map (face_normal (h_points h)) (h_simplices h) /\
  h_areas h = map (face_area (h_points h)) (h_simplices h).
(** the angle between [u] and [v] exceeds [lim] degrees *)
Definition wider (lim : R) (u v : V3) : Prop := u <> (0, 0, 0) /\ v <> (0, 0, 0) /\ lim * PI / 180 < angle u v.
Definition vert (h : hull) (i : nat) : V3 := nth i (h_points h) (0, 0, 0).
(** one call's limits, one face: angle between centroid and normal, the sides as
    seen from the listener, the inner angles of the triangle, the blacklist *)
Definition keeps (h : hull) (l : limits) (f : face) : Prop :=
  let '(a, b, c) := f in
  let A := vert h a in let B := vert h b in let C := vert h c in let o := h_listener h in
  (forall x, l_normal l = Some x -> ~ wider x (sub3 (centroid (h_points h) f) o) (sub3 (face_normal (h_points h) f) o)) /\
  (forall x, l_aperture l = Some x ->
     ~ wider x (sub3 A o) (sub3 B o) /\ ~ wider x (sub3 B o) (sub3 C o) /\ ~ wider x (sub3 A o) (sub3 C o)) /\
  (forall x, l_opening l = Some x ->
     ~ wider x (sub3 B A) (sub3 C A) /\ ~ wider x (sub3 A B) (sub3 C B) /\ ~ wider x (sub3 A C) (sub3 B C)) /\
  (forall bl, l_black l = Some bl -> exists e, In e bl /\ ~ In e [a; b; c]).
(** limits in [0, 360) degrees *)
Definition sane (l : limits) : Prop :=
  let ok o := forall x : R, o = Some x -> 0 <= x < 360 in
  ok (l_normal l) /\ ok (l_aperture l) /\ ok (l_opening l).
(** number of faces that contain both [u] and [v] *)
Definition shared (vs : list face) (u v : nat) : nat :=
  length (filter (fun f => (existsb (Nat.eqb u) (fv f) && existsb (Nat.eqb v) (fv f))%bool) vs).
(** every side belongs to at most two faces *)
Definition surface (vs : list face) : Prop :=
  Forall distinct vs /\ forall u v, u <> v -> (shared vs u v <= 2)%nat.
(** side [e] of a face of [vs] is on the rim *)
Definition on_rim (vs : list face) (e : nat * nat) : Prop :=
  (exists f, In f vs /\ In e (edges f)) /\ shared vs (fst e) (snd e) = 1%nat.
(** [g] is [f] reversed, up to a cyclic shift *)
Definition reversed (f g : face) : Prop := let '(a, b, c) := f in g = (c, b, a) \/ g = (b, a, c) \/ g = (a, c, b).
