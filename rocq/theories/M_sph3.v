(** Model of /repo/spaudiopy/sph.py, part 3: the functions of the first part called
    with sh_type='complex', and io.py's sofa_to_sh with complex harmonics.
    np.linalg.lstsq and np.linalg.pinv are parameters.  [sht_c], [inverse_sht_c] and
    [inverse_sht_all] are in M_sph.v and M_io3.v. *)
From Verif Require Import Base M_utils M_sig M_process M_sph0 M_sph M_io M_io2 M_io3.
Open Scope R_scope.

(** a real array where numpy combines it with complex ones *)
Definition cmat_of (f : mat) : cmat := CMat (nr f) (nc f) (fun i j => (ent f i j, 0)).

(** sph.py:157-187 sht_lstsq, complex *)
Definition sht_lstsq_c (lstsq : cmat -> cmat -> res cmat) (f : cmat) (N : nat) (azi zen : list R) (Y_nm : option cmat) : res cmat :=
  let* Y := match Y_nm with Some Y => Ok Y | None => sh_matrix_c N azi zen end in
  lstsq Y f.

(** sph.py:595-633 src_to_sh, complex: [Y_nm.conj().T @ sig] *)
Definition src_to_sh_c (sig : mat) (azi zen : list R) (N : nat) : res cmat :=
  let* Y := sh_matrix_c N azi zen in cmatmul (cadj Y) (cmat_of sig).

(** division of complex numbers; dividing by zero is [None] *)
Definition cdiv_np (a b : C2) : option C2 :=
  let d := fst b * fst b + snd b * snd b in
  if Reqb d 0 then None else Some (cscal (/ d) (cmul a (cconj b))).
(** numpy's square root of a complex number: the root with non-negative real part *)
Definition csqrt_np (z : C2) : C2 :=
  let r := sqrt (fst z * fst z + snd z * snd z) in
  let im := sqrt ((r - fst z) / 2) in
  (sqrt ((r + fst z) / 2), if Rltb (snd z) 0 then - im else im).
(** sph.py:1131-1166 sph_filterbank_reconstruction_factor, on the one row [w] that is
    used; complex.  [w.conj() @ w] is complex, too. *)
Definition reconstruction_factor_c (w : list C2) (num_secs : nat) (mode : fbmode) : res (option C2) :=
  match mode with
  | MAmplitude => match w with
                  | [] => Err IndexError
                  | w0 :: _ => Ok (cdiv_np (sqrt (4 * PI), 0) (cscal (INR num_secs) w0))
                  end
  | MEnergy => Ok (cdiv_np (4 * PI, 0) (cscal (INR num_secs) (csum (length w) (fun i => cmul (cconj (nth i w (0, 0))) (nth i w (0, 0))))))
  | _ => Err ValueError
  end.
(** row-wise broadcasting product [v * Y] of a real vector with a complex array *)
Definition row_scale_c (v : list R) (Y : cmat) : res cmat :=
  if Nat.eqb (length v) (cnc Y) || Nat.eqb (length v) 1 || Nat.eqb (cnc Y) 1
  then Ok (CMat (cnr Y) (if Nat.eqb (cnc Y) 1 then length v else cnc Y)
                (fun i j => cscal (bc1 v j) (cent Y i (if Nat.eqb (cnc Y) 1 then 0%nat else j))))
  else Err ValueError.
(** [b * M] for a complex number [b] *)
Definition cmscal (b : C2) (M : cmat) : cmat := CMat (cnr M) (cnc M) (fun i j => cmul b (cent M i j)).
(** sph.py:1169-1258 design_sph_filterbank, complex *)
Definition design_sph_filterbank_c (pinv : cmat -> cmat) (N : nat) (azi zen c_n : list R) (mode : fbmode) : res (option (cmat * cmat)) :=
  let J := length azi in
  let* Y := sh_matrix_c N azi zen in
  let* A := row_scale_c (repeat_per_order c_n) Y in
  let row0 := map (cent A 0) (seq 0 (cnc A)) in
  let inv_c := fun c => 1 / (c / nth 0 c_n 0) in
  match mode with
  | MPerfect =>
      if Nat.eqb J 0 then Err IndexError else
      let* beta := reconstruction_factor_c row0 J MAmplitude in
      let* S := row_scale_c (repeat_per_order (map inv_c c_n)) Y in
      Ok (match beta with
          | Some b => if existsb (fun c => Reqb c 0) c_n then None else Some (A, cmscal b (cadj S))
          | None => None end)
  | MEnergy =>
      if Nat.eqb J 0 then Err IndexError else
      let* beta := reconstruction_factor_c row0 J MEnergy in
      if Nat.eqb (length c_n) 0 then Err IndexError else
      let* S := row_scale_c (repeat_per_order (map inv_c c_n)) Y in
      Ok (match beta with
          | Some b => if existsb (fun c => Reqb c 0) c_n then None else Some (A, cmscal (csqrt_np b) (cadj S))
          | None => None end)
  | MPinv => Ok (Some (A, pinv A))
  | _ => Err ValueError
  end.

(** sph.py:1261-1299 sh_mult, complex: the coefficients are cast to float first
    (lines 1287-1288), the result is complex *)
Definition sh_mult_c (t_design : Z -> res (list V3)) (a b : list R) : res (list C2) :=
  let N1 := order_of (length a) in
  let N2 := order_of (length b) in
  let N_out := (N1 + N2)%Z in
  let* v := t_design (2 * N_out)%Z in
  let dirs := map vec2dir v in
  let azi := map fst dirs in
  let zen := map (fun d => match snd d with Some z => z | None => 0 end) dirs in
  let col := fun x : list R => CMat (length x) 1 (fun i _ => (nth i x 0, 0)) in
  let* fa := inverse_sht_all (col a) azi zen in
  let* fb := inverse_sht_all (col b) azi zen in
  let* c := sht_c (CMat (cnr fa) (cnc fa) (fun i j => cmul (cent fa i j) (cent fb i j)))
                  (Z.to_nat N_out) azi zen None None in
  Ok (map (fun i => cent c i 0%nat) (seq 0 (cnr c))).

(** io.py:330-355 sofa_to_sh with sh_type='complex' *)
Definition sofa_to_sh_c (pinv : cmat -> cmat) (s : sofa) (N_sph : nat) : res (cmat * cmat * Z) :=
  let* h := load_sofa_hrirs s in
  let* Y := sh_matrix_c N_sph (h_azi h) (h_zen h) in
  let Y_pinv := pinv Y in
  let* l := cmatmul Y_pinv (cmat_of (ear_mat (h_left h) (h_taps h))) in
  let* r := cmatmul Y_pinv (cmat_of (ear_mat (h_right h) (h_taps h))) in
  Ok (l, r, h_fs h).
