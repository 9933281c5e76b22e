(** Model of /repo/spaudiopy/sph.py.  Every definition cites its lines. *)
From Verif Require Import Base M_utils M_sig M_sph0.
Open Scope R_scope.

(** The sh_type argument, a string in the code. *)
Inductive shtype : Set := ShReal | ShComplex | ShUnknown.

(** complex numbers (numpy complex128), as pairs *)
Definition C2 : Type := (R * R)%type.
Definition cadd (a b : C2) : C2 := (fst a + fst b, snd a + snd b).
Definition cmul (a b : C2) : C2 := (fst a * fst b - snd a * snd b, fst a * snd b + snd a * fst b).
Definition cconj (a : C2) : C2 := (fst a, - snd a).
Definition cscal (s : R) (a : C2) : C2 := (s * fst a, s * snd a).
Definition csum (n : nat) (f : nat -> C2) : C2 :=
  (rsum n (fun i => fst (f i)), rsum n (fun i => snd (f i))).
(** 2-D complex arrays *)
Record cmat : Type := CMat { cnr : nat; cnc : nat; cent : nat -> nat -> C2 }.
Definition cmatmul (a b : cmat) : res cmat :=
  if Nat.eqb (cnc a) (cnr b)
  then Ok (CMat (cnr a) (cnc b) (fun i j => csum (cnc a) (fun k => cmul (cent a i k) (cent b k j))))
  else Err ValueError.
(** [a.conj().T] *)
Definition cadj (a : cmat) : cmat := CMat (cnc a) (cnr a) (fun i j => cconj (cent a j i)).

(** sph.py:91-93: the (order, degree) pairs in the order the double loop visits
    them; the loop counter [idx] is the position in this list. *)
Definition acn_list (N : nat) : list (nat * Z) :=
  flat_map (fun n => map (fun k => (n, (Z.of_nat k - Z.of_nat n)%Z)) (seq 0 (2 * n + 1)))
           (seq 0 (N + 1)).

(** sph.py:97-108, one real harmonic *)
Definition sh_real (n : nat) (m : Z) (azi zen : R) : R :=
  if (m =? 0)%Z then fst (sph_harm 0 n azi zen)
  else if (m <? 0)%Z then
    sqrt 2 * (-1) ^ Z.abs_nat m * snd (sph_harm (Z.abs m) n azi zen)
  else sqrt 2 * (-1) ^ Z.abs_nat m * fst (sph_harm (Z.abs m) n azi zen).

(** numpy broadcasting of a column value of length 1 or Q *)
Definition bc1 (l : list R) (i : nat) : R :=
  match l with [x] => x | _ => nth i l 0 end.
(** the right-hand side of [Ymn[:, idx] = ...] fits Q = len(azi) rows *)
Definition dirs_ok (azi zen : list R) : bool :=
  Nat.eqb (length zen) (length azi) || Nat.eqb (length zen) 1.

(** sph.py:27-112 sh_matrix, sh_type='real'.  The arguments are the 1-D arrays
    after utils.asarray_1d (lines 79-80).  N_sph is a natural number. *)
Definition sh_matrix (N : nat) (azi zen : list R) : res mat :=
  if dirs_ok azi zen then
    Ok (Mat (length azi) ((N + 1) ^ 2)
            (fun i j => let (n, m) := nth j (acn_list N) (O, 0%Z) in
                        sh_real n m (nth i azi 0) (bc1 zen i)))
  else Err ValueError.
(** the same with sh_type='complex' *)
Definition sh_matrix_c (N : nat) (azi zen : list R) : res cmat :=
  if dirs_ok azi zen then
    Ok (CMat (length azi) ((N + 1) ^ 2)
            (fun i j => let (n, m) := nth j (acn_list N) (O, 0%Z) in
                        sph_harm m n (nth i azi 0) (bc1 zen i)))
  else Err ValueError.

(** sph.py:115-154 sht, real.  [f] is the 2-D array after line 142-143; np.diag
    with np.dot raises ValueError unless there is one weight per row of [f]. *)
Definition sht (f : mat) (N : nat) (azi zen : list R)
    (weights : option (list R)) (Y_nm : option mat) : res mat :=
  let* Y := match Y_nm with Some Y => Ok Y | None => sh_matrix N azi zen end in
  match weights with
  | None => matmul (mtr (mscal (4 * PI / INR (nr Y)) Y)) f
  | Some w =>
      let* f' := matmul (mdiag (length w) (fun i => nth i w 0)) f in
      matmul (mtr Y) f'
  end.
(** sht, complex *)
Definition sht_c (f : cmat) (N : nat) (azi zen : list R)
    (weights : option (list R)) (Y_nm : option cmat) : res cmat :=
  let* Y := match Y_nm with Some Y => Ok Y | None => sh_matrix_c N azi zen end in
  match weights with
  | None => cmatmul (cadj (CMat (cnr Y) (cnc Y)
                       (fun i j => cscal (4 * PI / INR (cnr Y)) (cent Y i j)))) f
  | Some w =>
      let* f' := cmatmul (CMat (length w) (length w)
                   (fun i j => if Nat.eqb i j then (nth i w 0, 0) else (0, 0))) f in
      cmatmul (cadj Y) f'
  end.

(** sph.py:157-187 sht_lstsq, real; np.linalg.lstsq is the parameter [lstsq]. *)
Definition sht_lstsq (lstsq : mat -> mat -> res mat) (f : mat) (N : nat)
    (azi zen : list R) (Y_nm : option mat) : res mat :=
  let* Y := match Y_nm with Some Y => Ok Y | None => sh_matrix N azi zen end in
  lstsq Y f.

(** sph.py:190-219 inverse_sht, real.  [int(np.sqrt(0) - 1)] is -1: then no
    harmonics are used and the result is zero. *)
Definition first_rows (k : nat) (F : mat) : mat := Mat (Nat.min k (nr F)) (nc F) (ent F).
Definition order_of (K : nat) : Z := py_int (sqrt (INR K) - 1).
Definition inverse_sht (F : mat) (azi zen : list R) (N_sph : option nat)
    (Y_nm : option mat) : res mat :=
  match N_sph, nr F, Y_nm with
  | None, O, None =>
      if dirs_ok azi zen then Ok (Mat (length azi) (nc F) (fun _ _ => 0)) else Err ValueError
  | None, O, Some Y => matmul Y (first_rows 0 F)
  | _, _, _ =>
      let N := match N_sph with Some N => N | None => Z.to_nat (order_of (nr F)) end in
      let* Y := match Y_nm with Some Y => Ok Y | None => sh_matrix N azi zen end in
      matmul Y (first_rows ((N + 1) ^ 2) F)
  end.
Definition inverse_sht_c (F : cmat) (N : nat) (azi zen : list R) : res cmat :=
  let* Y := sh_matrix_c N azi zen in
  cmatmul Y (CMat (Nat.min ((N + 1) ^ 2) (cnr F)) (cnc F) (cent F)).

(** * Rotation, sph.py:222-426 *)
(** one element of a 2-D array; negative indices count from the end *)
Definition mget (M : mat) (i j : Z) : res R :=
  let i' := (if (i <? 0) then i + Z.of_nat (nr M) else i)%Z in
  let j' := (if (j <? 0) then j + Z.of_nat (nc M) else j)%Z in
  if ((0 <=? i') && (i' <? Z.of_nat (nr M)) && (0 <=? j') && (j' <? Z.of_nat (nc M)))%Z
  then Ok (ent M (Z.to_nat i') (Z.to_nat j')) else Err IndexError.

(** sph.py:278-280: rows and columns of the Cartesian matrix in the order y, z, x *)
Definition m3_ent (M : M3) (i j : nat) : R :=
  let r := match i with O => row1 M | 1%nat => row2 M | _ => row3 M end in
  match j with O => vx r | 1%nat => vy r | _ => vz r end.
Definition perm_yzx (i : nat) : nat := match i with O => 1%nat | 1%nat => 2%nat | _ => O end.
Definition rot_r1 (M : M3) : mat := Mat 3 3 (fun i j => m3_ent M (perm_yzx i) (perm_yzx j)).

(** sph.py:280-292 _rot_p_func *)
Definition rot_p (i l a b : Z) (r1 rlm1 : mat) : res R :=
  let* ri1 := mget r1 (i + 1) 2 in
  let* rim1 := mget r1 (i + 1) 0 in
  let* ri0 := mget r1 (i + 1) 1 in
  (if (b =? - l)%Z then
    let* x := mget rlm1 (a + l - 1) 0 in
    let* y := mget rlm1 (a + l - 1) (2 * l - 2) in
    Ok (ri1 * x + rim1 * y)
  else if (b =? l)%Z then
    let* x := mget rlm1 (a + l - 1) (2 * l - 2) in
    let* y := mget rlm1 (a + l - 1) 0 in
    Ok (ri1 * x - rim1 * y)
  else
    let* x := mget rlm1 (a + l - 1) (b + l - 1) in
    Ok (ri0 * x)).
(** sph.py:299-300 *)
Definition rot_u (l m n : Z) (r1 rlm1 : mat) : res R := rot_p 0 l m n r1 rlm1.
(** sph.py:302-320 *)
Definition rot_v (l m n : Z) (r1 rlm1 : mat) : res R :=
  if (m =? 0)%Z then
    let* p0 := rot_p 1 l 1 n r1 rlm1 in
    let* p1 := rot_p (-1) l (-1) n r1 rlm1 in
    Ok (p0 + p1)
  else if (0 <? m)%Z then
    let* p0 := rot_p 1 l (m - 1) n r1 rlm1 in
    if (m =? 1)%Z then Ok (p0 * sqrt 2)
    else let* p1 := rot_p (-1) l (1 - m) n r1 rlm1 in Ok (p0 - p1)
  else
    let* p1 := rot_p (-1) l (- m - 1) n r1 rlm1 in
    if (m =? -1)%Z then Ok (p1 * sqrt 2)
    else let* p0 := rot_p 1 l (m + 1) n r1 rlm1 in Ok (p1 + p0).
(** sph.py:322-331 *)
Definition rot_w (l m n : Z) (r1 rlm1 : mat) : res R :=
  if (0 <? m)%Z then
    let* p0 := rot_p 1 l (m + 1) n r1 rlm1 in
    let* p1 := rot_p (-1) l (- m - 1) n r1 rlm1 in
    Ok (p0 + p1)
  else if (m <? 0)%Z then
    let* p0 := rot_p 1 l (m - 1) n r1 rlm1 in
    let* p1 := rot_p (-1) l (1 - m) n r1 rlm1 in
    Ok (p0 - p1)
  else Ok 0.

(** sph.py:338-363, one entry of the block of order l *)
Definition mul_if_nonzero (x : R) (f : res R) : res R :=
  if Reqb x 0 then Ok x else let* y := f in Ok (x * y).
Definition rot_entry (l m n : Z) (r1 rlm1 : mat) : res R :=
  let d := if (m =? 0)%Z then 1 else 0 in
  let denom := (if Z.abs n =? l then (2 * l) * (2 * l - 1) else l * l - n * n)%Z in
  let u := sqrt (IZR (l * l - m * m) / IZR denom) in
  let v := sqrt ((1 + d) * (IZR (l + Z.abs m) - 1) * IZR (l + Z.abs m) / IZR denom)
           * (1 - 2 * d) * (1 / 2) in
  let w := sqrt ((IZR (l - Z.abs m) - 1) * IZR (l - Z.abs m) / IZR denom)
           * (1 - d) * - (1 / 2) in
  let* u := mul_if_nonzero u (rot_u l m n r1 rlm1) in
  let* v := mul_if_nonzero v (rot_v l m n r1 rlm1) in
  let* w := mul_if_nonzero w (rot_w l m n r1 rlm1) in
  Ok (u + v + w).
(** sph.py:335-363, the block of order l from the block of order l-1 *)
Definition mat_of_rows (n m : nat) (rows : list (list R)) : mat :=
  Mat n m (fun i j => nth j (nth i rows []) 0).
Definition rot_block (l : nat) (r1 rlm1 : mat) : res mat :=
  let ms := map (fun i => (Z.of_nat i - Z.of_nat l)%Z) (seq 0 (2 * l + 1)) in
  let* rows := mapM (fun m => mapM (fun n => rot_entry (Z.of_nat l) m n r1 rlm1) ms) ms in
  Ok (mat_of_rows (2 * l + 1) (2 * l + 1) rows).
(** the loop of sph.py:333-366, [k] rounds from order [l] on *)
Fixpoint rot_loop (k l : nat) (r1 rlm1 : mat) : res (list mat) :=
  match k with
  | O => Ok []
  | S k' => let* rl := rot_block l r1 rlm1 in
            let* rest := rot_loop k' (S l) r1 rl in
            Ok (rl :: rest)
  end.
Definition rot_blocks (N : nat) (M : M3) : res (list mat) :=
  let r1 := rot_r1 M in
  let* rest := rot_loop (N - 1) 2 r1 r1 in
  Ok (Mat 1 1 (fun _ _ => 1) :: r1 :: rest).

(** sph.py:372-377: writing a block on the diagonal.  The slice is clamped to the
    array, and a block that does not fit the slice raises ValueError (only a 1x1
    block is broadcast). *)
Definition set_block (M : mat) (idx : nat) (b : mat) : res mat :=
  let k := nc b in
  let room := (Nat.min (idx + k) (nr M) - Nat.min idx (nr M))%nat in
  if (Nat.eqb room k && Nat.eqb (nr b) k) || (Nat.eqb (nr b) 1 && Nat.eqb (nc b) 1) then
    Ok (Mat (nr M) (nc M) (fun i j =>
      if (Nat.leb idx i && Nat.ltb i (idx + k) && Nat.leb idx j && Nat.ltb j (idx + k))%bool
      then ent b (i - idx) (j - idx) else ent M i j))
  else Err ValueError.
Fixpoint block_diag (M : mat) (idx : nat) (bs : list mat) : res mat :=
  match bs with
  | [] => Ok M
  | b :: t => let* M' := set_block M idx b in block_diag M' (idx + nc b) t
  end.

Definition check_real (t : shtype) : res unit :=
  match t with ShReal => Ok tt | ShComplex => Err NotImplementedError | ShUnknown => Err ValueError end.
(** sph.py:222-377 sh_rotation_matrix, return_as_blocks=False and =True *)
Definition sh_rotation_blocks (N : nat) (yaw pitch roll : R) (t : shtype) : res (list mat) :=
  let* _ := check_real t in rot_blocks N (rotation_euler yaw pitch roll).
Definition sh_rotation_matrix (N : nat) (yaw pitch roll : R) (t : shtype) : res mat :=
  let* bs := sh_rotation_blocks N yaw pitch roll t in
  block_diag (Mat ((N + 1) ^ 2) ((N + 1) ^ 2) (fun _ _ => 0)) 0 bs.

(** sph.py:376-426 rotate_sh, F_nm 2-D (a 1-D array is one row).  With no
    coefficients N_sph is -1 and writing the 3x3 block raises ValueError. *)
Definition rotate_sh (F : mat) (yaw pitch roll : R) (t : shtype) : res mat :=
  let* _ := check_real t in
  let N := sqrt (INR (nc F)) - 1 in
  let* _ := assert_ (Reqb N (IZR (Int_part N))) in
  match nc F with
  | O => Err ValueError
  | _ => let* Rm := sh_rotation_matrix (Z.to_nat (py_int N)) yaw pitch roll t in
         matmul F (mtr Rm)
  end.

(** * Normalisation and B-format *)
(** sph.py:773-788 repeat_per_order *)
Definition repeat_per_order (c : list R) : list R :=
  flat_map (fun n => repeat (nth n c 0) (2 * n + 1)) (seq 0 (length c)).

(** broadcasting product of a column vector (axis 0) or row vector (axis 1) with
    a 2-D array; [None] for other shapes *)
Definition bc_mul (v : list R) (axis : nat) (F : mat) : res mat :=
  let K := match axis with O => nr F | _ => nc F end in
  if Nat.eqb (length v) K || Nat.eqb (length v) 1 || Nat.eqb K 1 then
    let K' := if Nat.eqb K 1 then length v else K in
    Ok (Mat (match axis with O => K' | _ => nr F end) (match axis with O => nc F | _ => K' end)
            (fun i j => bc1 v (match axis with O => i | _ => j end) *
               ent F (match axis with O => if Nat.eqb K 1 then O else i | _ => i end)
                     (match axis with O => j | _ => if Nat.eqb K 1 then O else j end)))
  else Err ValueError.
(** sph.py:442-465 n3d_to_sn3d and 468-491 sn3d_to_n3d, for a 2-D array and axis
    0 or 1 (-1 is the same as 1) *)
Definition conv_norm (f : nat -> R) (F : mat) (axis : nat) : res mat :=
  let K := match axis with O => nr F | _ => nc F end in
  let N := order_of K in
  bc_mul (repeat_per_order (map f (seq 0 (Z.to_nat (N + 1))))) axis F.
Definition n3d_to_sn3d (F : mat) (axis : nat) : res mat :=
  conv_norm (fun n => 1 / sqrt (2 * INR n + 1)) F axis.
Definition sn3d_to_n3d (F : mat) (axis : nat) : res mat :=
  conv_norm (fun n => sqrt (2 * INR n + 1)) F axis.

(** sph.py:494-501 platonic_solid('tetrahedron') *)
Definition tetrahedron : list V3 :=
  map (scal3 (/ sqrt 3)) [(1, 1, 1); (1, -1, -1); (-1, 1, -1); (-1, -1, 1)].

(** sph.py:523-527, the conversion matrix *)
Definition b_mat (W : R) : mat :=
  mscal (sqrt (4 * PI))
    (mat_of_rows 4 4 [[W; 0; 0; 0]; [0; 0; 0; 1 / sqrt 3]; [0; 1 / sqrt 3; 0; 0]; [0; 0; 1 / sqrt 3; 0]]).
Definition w_default (W : option R) : R := match W with Some w => w | None => 1 end.
(** np.apply_along_axis(np.dot, 0, F, M.T): [M.T] is multiplied from the left by
    every column; ValueError if there are no columns or they do not fit *)
Definition apply_columns (M F : mat) : res mat :=
  if Nat.eqb (nc F) 0 then Err ValueError else matmul M F.
(** sph.py:504-528 sh_to_b *)
Definition sh_to_b (F : mat) (W : option R) : res mat := apply_columns (b_mat (w_default W)) F.
(** sph.py:531-557 b_to_sh; np.linalg.inv is the parameter [inv] *)
Definition b_to_sh (inv : mat -> res mat) (B : mat) (W : option R) : res mat :=
  let* Mi := inv (b_mat (w_default W)) in apply_columns Mi B.

(** sph.py:560-581 soundfield_to_b.  A NaN zenith cannot occur: the microphones
    are not at the origin. *)
Definition soundfield_to_b (sig : mat) (W : option R) : res mat :=
  let dirs := map (fun v => cart2sph (vx v) (vy v) (vz v) false false) tetrahedron in
  let t_az := map (fun d => fst (fst d)) dirs in
  let t_zen := map (fun d => match snd (fst d) with Some z => z | None => 0 end) dirs in
  let* F := sht sig 1 t_az t_zen None None in
  sh_to_b F W.

(** sph.py:584-592 src_to_b, equal numbers of azimuths and zeniths: np.outer
    flattens the (num_src, 4) gains *)
Definition src_to_b (sig : list R) (azi zen : list R) : mat :=
  let g := flat_map (fun d => let v := sph2cart (fst d) (snd d) 1 in [1; vx v; vy v; vz v])
                    (combine azi zen) in
  Mat (length g) (length sig) (fun i j => nth i g 0 * nth j sig 0).

(** sph.py:595-633 src_to_sh, real *)
Definition src_to_sh (sig : mat) (azi zen : list R) (N : nat) : res mat :=
  let* Y := sh_matrix N azi zen in matmul (mtr Y) sig.

(** * Axisymmetric patterns *)
(** sph.py:636-692 bandlimited_dirac: the rows 0..N of the (N+1)^2 row array are
    filled, the others stay zero, then the rows are summed *)
Definition bandlimited_dirac (N : nat) (d : list R) (w_n : option (list R)) : res (list R) :=
  let w := match w_n with Some w => w | None => repeat 1 (N + 1) end in
  let* _ := assert_ (Nat.eqb (length w) (N + 1)) in
  Ok (map (fun x => rsum ((N + 1) ^ 2) (fun i =>
        if Nat.ltb i (N + 1)
        then nth i w 0 * (2 * INR i + 1) / (4 * PI) * eval_legendre i (cos x) else 0)) d).

(** sph.py:695-729 max_rE_weights *)
Definition np_deg2rad (x : R) : R := x * PI / 180.
Definition max_rE_weights (N : nat) : list R :=
  let theta := np_deg2rad (1379 / 10) / (INR N + 151 / 100) in
  map (fun n => eval_legendre n (cos theta)) (seq 0 (N + 1)).

(** sph.py:732-763 r_E.  1/E of a silent row is infinite and the row of rE is
    NaN ([None]); nan_to_num makes its magnitude 0. *)
Definition vsum (l : list V3) : V3 := fold_right add3 (0, 0, 0) l.
Definition r_E_row (p : list V3) (g : list R) : option V3 * R :=
  let g2 := map (fun x => x * x) g in
  let E := lsum g2 in
  let s := vsum (map (fun ab => scal3 (fst ab) (snd ab)) (combine g2 p)) in
  if Reqb E 0 then (None, 0) else
    let rE := scal3 (1 / E) s in (Some rE, sqrt (dot3 rE rE)).
Definition r_E (p : list V3) (g : list (list R)) (cols : nat) : res (list (option V3 * R)) :=
  let* _ := assert_ (Nat.eqb (length p) cols) in
  Ok (map (r_E_row p) g).

(** sph.py:766-770 project_on_sphere; the zenith of the origin is NaN *)
Definition project_on_sphere (x y z : R) : option V3 :=
  let '(phi, theta, r) := cart2sph x y z false false in
  match theta with Some th => Some (sph2cart phi th 1) | None => None end.

(** sph.py:954-976 unity_gain; [None]: division by zero *)
Definition unity_gain (w : list R) : option (list R) :=
  let a := rsum (length w) (fun n => (2 * INR n + 1) / (4 * PI) * nth n w 0) in
  if Reqb a 0 then None else Some (map (fun x => x / a) w).
(** sph.py:979-1009 *)
Definition hypercardioid_modal_weights (N : nat) : list R :=
  repeat (4 * PI / INR ((N + 1) ^ 2)) (N + 1).
(** sph.py:1012-1048 *)
Definition cardioid_modal_weights (N : nat) : list R :=
  map (fun n => 4 * PI * (INR (fact N) * INR (fact N) / (INR (fact (N + n + 1)) * INR (fact (N - n)))))
      (seq 0 (N + 1)).
(** lines 1082-1084 and 1126-1128: division by the response at angle 0 *)
Definition unit_amp (N : nat) (c : list R) (UNITAMP : bool) : res (option (list R)) :=
  if UNITAMP then
    let* a := bandlimited_dirac N [0] (Some c) in
    let a := nth 0 a 0 in
    Ok (if Reqb a 0 then None else Some (map (fun x => x / a) c))
  else Ok (Some c).
(** sph.py:1051-1084 *)
Definition maxre_modal_weights (N : nat) (UNITAMP : bool) : res (option (list R)) :=
  unit_amp N (max_rE_weights N) UNITAMP.
(** sph.py:1087-1128, integer filter order [k], [n_c] not 0 *)
Definition butterworth_modal_weights (N k : nat) (n_c : R) (UNITAMP : bool) : res (option (list R)) :=
  unit_amp N (map (fun n => 1 / sqrt (1 + (INR n / n_c) ^ (2 * k))) (seq 0 (N + 1))) UNITAMP.

(** * Spherical filter banks *)
(** the mode strings, after .lower(); 'amp' is [MAmplitude] and 'en' is [MEnergy] too *)
Inductive fbmode : Set := MAmplitude | MEnergy | MPerfect | MPinv | MOther.
(** sph.py:1131-1166, on the one row [w] that is used; [None]: division by zero.
    [mode=None] fails the assertion and is not modelled. *)
Definition reconstruction_factor (w : list R) (num_secs : nat) (mode : fbmode) : res (option R) :=
  match mode with
  | MAmplitude => match w with
                  | [] => Err IndexError
                  | w0 :: _ => Ok (np_div (sqrt (4 * PI)) (w0 * INR num_secs))
                  end
  | MEnergy => Ok (np_div (4 * PI) (lsum (map (fun x => x * x) w) * INR num_secs))
  | _ => Err ValueError
  end.
(** row-wise broadcasting product [v * Y] of a vector with a 2-D array *)
Definition row_scale (v : list R) (Y : mat) : res mat := bc_mul v 1 Y.
(** sph.py:1169-1258 design_sph_filterbank, real; np.linalg.pinv is a parameter.
    A zero modal weight divides by zero in line 1247: [None]. *)
Definition design_sph_filterbank (pinv : mat -> mat) (N : nat) (azi zen c_n : list R) (mode : fbmode)
  : res (option (mat * mat)) :=
  let J := length azi in
  let* Y := sh_matrix N azi zen in
  let* A := row_scale (repeat_per_order c_n) Y in
  let row0 := map (ent A 0) (seq 0 (nc A)) in
  let inv_c := fun c => 1 / (c / nth 0 c_n 0) in
  match mode with
  | MPerfect =>
      if Nat.eqb J 0 then Err IndexError else
      let* beta := reconstruction_factor row0 J MAmplitude in
      let* S := row_scale (repeat_per_order (map inv_c c_n)) Y in
      Ok (match beta with
          | Some b => if existsb (fun c => Reqb c 0) c_n then None else Some (A, mscal b (mtr S))
          | None => None end)
  | MEnergy =>
      if Nat.eqb J 0 then Err IndexError else
      let* beta := reconstruction_factor row0 J MEnergy in
      if Nat.eqb (length c_n) 0 then Err IndexError else
      let* S := row_scale (repeat_per_order (map inv_c c_n)) Y in
      Ok (match beta with
          | Some b => if existsb (fun c => Reqb c 0) c_n then None else Some (A, mscal (sqrt b) (mtr S))
          | None => None end)
  | MPinv => Ok (Some (A, pinv A))
  | _ => Err ValueError
  end.

(** sph.py:1261-1299 sh_mult, real; grids.load_t_design is the parameter
    [t_design].  utils.vec2dir turns the unit vectors into angles. *)
Definition sh_mult (t_design : Z -> res (list V3)) (a b : list R) : res (list R) :=
  let N1 := order_of (length a) in
  let N2 := order_of (length b) in
  let N_out := (N1 + N2)%Z in
  let* v := t_design (2 * N_out)%Z in
  let dirs := map vec2dir v in
  let azi := map fst dirs in
  let zen := map (fun d => match snd d with Some z => z | None => 0 end) dirs in
  let col := fun x : list R => Mat (length x) 1 (fun i _ => nth i x 0) in
  let* fa := inverse_sht (col a) azi zen None None in
  let* fb := inverse_sht (col b) azi zen None None in
  let* c := sht (Mat (nr fa) (nc fa) (fun i j => ent fa i j * ent fb i j))
                (Z.to_nat N_out) azi zen None None in
  Ok (map (fun i => ent c i 0) (seq 0 (nr c))).
