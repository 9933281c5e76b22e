(** Model of /repo/spaudiopy/utils.py.
    Floats are reals; a value that numpy would report as NaN is [None].  The
    vectorised functions are modelled on one element (numpy applies them
    element by element), array bookkeeping functions on whole arrays. *)
From Verif Require Import Base.
Open Scope R_scope.

(** np.arccos / np.arcsin: NaN outside [-1, 1]. *)
Definition np_acos (x : R) : option R :=
  if Rleb (-1) x && Rleb x 1 then Some (acos x) else None.
Definition np_asin (x : R) : option R :=
  if Rleb (-1) x && Rleb x 1 then Some (asin x) else None.
(** division of floats; dividing by zero (NaN or infinity) is [None] *)
Definition np_div (x y : R) : option R := if Reqb y 0 then None else Some (x / y).
Definition obind {A B : Type} (o : option A) (f : A -> option B) : option B :=
  match o with Some a => f a | None => None end.
(** np.clip(x, lo, None) and np.clip(x, lo, hi) *)
Definition clip_lo (lo x : R) : R := Rmax lo x.
Definition clip (lo hi x : R) : R := Rmin hi (Rmax lo x).

(** np.arctan2(y, x) for finite, non-negative-zero arguments *)
Definition arctan2 (y x : R) : R :=
  if Rltb 0 x then atan (y / x)
  else if Rltb x 0 then (if Rleb 0 y then atan (y / x) + PI else atan (y / x) - PI)
  else if Rltb 0 y then PI / 2 else if Rltb y 0 then - (PI / 2) else 0.

(** Python's [%] on floats for a positive modulus *)
Definition pymod (a m : R) : R := a - m * IZR (Int_part (a / m)).

(** utils.py:17-30 asarray_1d.  np.squeeze drops the dimensions equal to 1. *)
Definition squeeze {A : Type} (a : nd A) : nd A :=
  Nd (filter (fun d => negb (Nat.eqb d 1)) (shape a)) (data a).
Definition asarray_1d {A : Type} (a : nd A) : res (nd A) :=
  let result := squeeze a in
  let ndim := length (shape result) in
  if Nat.eqb ndim 0 then Ok (Nd [1%nat] (data result))
  else if Nat.ltb 1 ndim then Err ValueError
  else Ok result.

(** utils.py:33-35 deg2rad *)
Definition deg2rad (deg : R) : R := pymod deg 360 / 180 * PI.
(** utils.py:38-40 rad2deg *)
Definition rad2deg (rad : R) : R := pymod (rad / PI * 180) 360.

(** utils.py:43-54 cart2sph; the zenith is [None] (NaN) at the origin unless
    [steady_zen]. *)
Definition cart2sph (x y z : R) (positive_azi steady_zen : bool) : R * option R * R :=
  let r := sqrt (x ^ 2 + y ^ 2 + z ^ 2) in
  let azi := arctan2 y x in
  let azi := if positive_azi then pymod azi (2 * PI) else azi in
  let zen := if negb steady_zen then obind (np_div z r) np_acos
             else obind (np_div z (clip_lo (10 * / 10 ^ 15) r)) np_acos in
  (azi, zen, r).

(** utils.py:57-65 sph2cart *)
Definition sph2cart (azi zen r : R) : V3 :=
  (r * cos azi * sin zen, r * sin azi * sin zen, r * cos zen).

(** utils.py:68-74 matlab_sph2cart *)
Definition matlab_sph2cart (az elev r : R) : V3 :=
  let z := r * sin elev in
  let rcoselev := r * cos elev in
  let x := rcoselev * cos az in
  let y := rcoselev * sin az in
  (x, y, z).

(** utils.py:77-80 cart2dir *)
Definition cart2dir (x y z : R) : R * option R :=
  (arctan2 y x, obind (np_div z (sqrt (Rsqr x + Rsqr y + Rsqr z))) np_acos).

(** utils.py:83-85 dir2cart *)
Definition dir2cart (azi zen : R) : V3 :=
  (cos azi * sin zen, sin azi * sin zen, cos zen).

(** utils.py:88-91 vec2dir, on one vector *)
Definition vec2dir (v : V3) : R * option R := cart2dir (vx v) (vy v) (vz v).

(** utils.py:94-104 angle_between, for one [v2] in space; a zero vector gives
    NaN (np.clip keeps NaN). *)
Definition angle_between (v1 v2 : V3) (vi : option V3) : option R :=
  let v1' := match vi with Some o => sub3 v1 o | None => v1 end in
  let v2' := match vi with Some o => sub3 v2 o | None => v2 end in
  obind (np_div (dot3 v1' v2') (norm3 v1' * norm3 v2'))
        (fun a => np_acos (clip (-1) 1 a)).

(** utils.py:107-117 rotation_euler *)
Definition rot_Rx (roll : R) : M3 :=
  ((1, 0, 0), (0, cos roll, sin roll), (0, - sin roll, cos roll)).
Definition rot_Ry (pitch : R) : M3 :=
  ((cos pitch, 0, - sin pitch), (0, 1, 0), (sin pitch, 0, cos pitch)).
Definition rot_Rz (yaw : R) : M3 :=
  ((cos yaw, sin yaw, 0), (- sin yaw, cos yaw, 0), (0, 0, 1)).
Definition rotation_euler (yaw pitch roll : R) : M3 :=
  mm3 (mm3 (rot_Rz yaw) (rot_Ry pitch)) (rot_Rx roll).

(** utils.py:120-131 rotation_rodrigues; [None] is the all-NaN matrix of a zero
    axis.  The length assertion (line 124) holds for every [V3]. *)
Definition cross_matrix (k : V3) : M3 :=
  ((0, - vz k, vy k), (vz k, 0, - vx k), (- vy k, vx k, 0)).
Definition rotation_rodrigues (k : V3) (theta : R) : option M3 :=
  if Rltb (10 * / 10 ^ 10) theta then
    if Reqb (norm3 k) 0 then None
    else
      let k := scal3 (/ norm3 k) k in
      let K := cross_matrix k in
      Some (madd3 (madd3 eye3 (mscal3 (sin theta) K))
                  (mm3 (mscal3 (1 - cos theta) K) K))
  else Some eye3.

(** utils.py:134-144 rotation_vecvec.  A zero [f] or [t] makes everything NaN:
    the comparison on line 141 is then false and the result is all NaN,
    modelled as [Ok None]. *)
Definition rotation_vecvec (f t : V3) : res (option M3) :=
  if Reqb (norm3 f) 0 || Reqb (norm3 t) 0 then Ok None
  else
    let f := scal3 (/ norm3 f) f in
    let t := scal3 (/ norm3 t) t in
    let k := cross3 f t in
    if Rltb (norm3 k) (10 * / 10 ^ 15) then Err ValueError
    else Ok (obind (np_acos (dot3 f t)) (fun theta => rotation_rodrigues k theta)).

(** utils.py:147-186 haversine *)
Definition haversine (azi1 zen1 azi2 zen2 r : R) : option R :=
  let lat1 := PI / 2 - zen1 in
  let lat2 := PI / 2 - zen2 in
  let dlon := azi2 - azi1 in
  let dlat := lat2 - lat1 in
  let haversin_A := sin (dlat / 2) ^ 2 in
  let haversin_B := sin (dlon / 2) ^ 2 in
  let haversin_alpha := haversin_A + cos lat1 * cos lat2 * haversin_B in
  if Rltb haversin_alpha 0 then None
  else obind (np_asin (sqrt haversin_alpha)) (fun c => Some (2 * r * c)).

(** utils.py:189-191 area_triangle *)
Definition area_triangle (p1 p2 p3 : V3) : R :=
  / 2 * norm3 (cross3 (sub3 p2 p1) (sub3 p3 p1)).

(** utils.py:194-206 db; [None] is negative infinity *)
Definition log10 (x : R) : R := ln x / ln 10.
Definition db (x : R) (power : bool) : option R :=
  if Reqb (Rabs x) 0 then None
  else Some ((if power then 10 else 20) * log10 (Rabs x)).

(** utils.py:209-219 from_db *)
Definition from_db (d : R) (power : bool) : R :=
  Rpower 10 (d / (if power then 10 else 20)).

(** utils.py:222-232 rms, on one non-empty real channel *)
Definition rms (x : list R) : R :=
  sqrt (lsum (map (fun a => a * a) x) / INR (length x)).

(** utils.py:235-247 stack. np.atleast_2d, then unpacking of a two-element
    shape (more dimensions: ValueError).  np.vstack needs equal column counts,
    np.hstack equal row counts. *)
Definition atleast_2d {A : Type} (a : nd A) : nd A :=
  match shape a with
  | [] => Nd [1%nat; 1%nat] (data a)
  | [n] => Nd [1%nat; n] (data a)
  | _ => a
  end.
(** rows of a row-major M x N block *)
Fixpoint rows_of {A : Type} (m n : nat) (d : list A) : list (list A) :=
  match m with
  | O => []
  | S m' => firstn n d :: rows_of m' n (skipn n d)
  end.
Definition vstack {A : Type} (m1 n1 m2 n2 : nat) (d1 d2 : list A) : res (nd A) :=
  if Nat.eqb n1 n2 then Ok (Nd [(m1 + m2)%nat; n1] (d1 ++ d2)) else Err ValueError.
Fixpoint zip_app {A : Type} (l1 l2 : list (list A)) : list (list A) :=
  match l1, l2 with
  | a :: t1, b :: t2 => (a ++ b) :: zip_app t1 t2
  | _, _ => []
  end.
Definition hstack {A : Type} (m1 n1 m2 n2 : nat) (d1 d2 : list A) : res (nd A) :=
  if Nat.eqb m1 m2
  then Ok (Nd [m1; (n1 + n2)%nat] (concat (zip_app (rows_of m1 n1 d1) (rows_of m2 n2 d2))))
  else Err ValueError.
Definition stack {A : Type} (vector_1 vector_2 : nd A) : res (nd A) :=
  let v1 := atleast_2d vector_1 in
  let v2 := atleast_2d vector_2 in
  match shape v1, shape v2 with
  | [M1; N1], [M2; N2] =>
      let* out :=
        (if Nat.eqb M1 M2 && (Nat.ltb M1 N1 || Nat.ltb M2 N2)
         then vstack M1 N1 M2 N2 (data v1) (data v2)
         else if Nat.eqb N1 N2 && (Nat.ltb N1 M1 || Nat.ltb N2 M2)
         then hstack M1 N1 M2 N2 (data v1) (data v2)
         else Err ValueError) in
      Ok (squeeze out)
  | _, _ => Err ValueError
  end.

(** utils.py:267-284 interleave_channels, on 2-D arrays given as rows plus the
    column count.  np.repeat(.., 2, axis=0), then assignment to the odd rows. *)
Record arr2 (A : Type) : Type := Arr2 { rows : list (list A); cols : nat }.
Arguments Arr2 {A} _ _.
Arguments rows {A} _.
Arguments cols {A} _.
Definition arr2_wf {A : Type} (a : arr2 A) : Prop :=
  Forall (fun r => length r = cols a) (rows a).
Inductive ilstyle : Set := StyleNone | StyleSSR | StyleOther.
(** np.repeat(a, 2, axis=0) *)
Fixpoint repeat2 {A : Type} (l : list A) : list A :=
  match l with [] => [] | x :: t => x :: x :: repeat2 t end.
(** out[1::2] = r, for [out] with twice as many rows as [r] *)
Fixpoint set_odd {A : Type} (out r : list A) : list A :=
  match out, r with
  | x :: _ :: t, b :: r' => x :: b :: set_odd t r'
  | _, _ => out
  end.
Definition interleave_channels {A : Type} (left right : arr2 A) (style : ilstyle)
  : res (arr2 A) :=
  if negb (Nat.eqb (length (rows left)) (length (rows right))
           && Nat.eqb (cols left) (cols right))
  then Err ValueError
  else
    if match style with
       | StyleSSR => negb (Nat.eqb (length (rows left)) 360)
       | _ => false
       end
    then Err ValueError
    else Ok (Arr2 (set_odd (repeat2 (rows left)) (rows right)) (cols left)).
