(** Model of decoder.py: loudspeaker signals, Ambisonics setup, the panning
    functions ALLRAP(2) and the decoders ALLRAD(2), SAD, MAD and EPAD.
    NaN in a direction makes whole columns of the results NaN; here the result is
    [None] then. *)
From Verif Require Import Base M_utils M_sig M_process M_sph M_grids M_decoder.
Open Scope R_scope.

Definition orsome {A B} (o : option A) (f : A -> res (option B)) : res (option B) :=
  match o with Some a => f a | None => Ok None end.
Fixpoint mapO {A B} (f : A -> option B) (l : list A) : option (list B) :=
  match l with
  | [] => Some []
  | a :: t => match f a, mapO f t with Some b, Some bs => Some (b :: bs) | _, _ => None end
  end.
(** utils.cart2sph on the columns of an (n, 3) array: azimuths and zeniths *)
Definition dirs (ps : list V3) : option (list R * list R) :=
  option_map (@split R R)
    (mapO (fun p => match cart2sph (vx p) (vy p) (vz p) false false with
                    | (azi, Some zen, _) => Some (azi, zen) | _ => None end) ps).

(** decoder.py:292-311 loudspeaker_signals.  [gains] is (S, L), the signal is
    broadcast against its rows. *)
Definition loudspeaker_signals (h : hull) (gains : mat) (sig : option (list R)) : res mat :=
  let sig := match sig with Some x => x | None => repeat 1 (nr gains) end in
  let* _ := assert_ (Nat.eqb (nc gains) (length (h_points h))) in
  let n := length sig in
  if Nat.eqb n (nr gains) then Ok (Mat (nc gains) n (fun l t => nth t sig 0 * ent gains t l))
  else if Nat.eqb n 1 then Ok (Mat (nc gains) (nr gains) (fun l t => nth 0 sig 0 * ent gains t l))
  else if Nat.eqb (nr gains) 1 then Ok (Mat (nc gains) n (fun l t => nth t sig 0 * ent gains 0 l))
  else Err ValueError.

(** * Characteristic order *)
(** decoder.py:714-741 characteristic_ambisonic_order.  The hull is copied, so the
    caller's cache is read but not written.  A centroid at the origin is NaN and
    gives a zero row in vbap, like the source (0,0,0) does in the model.  A
    loudspeaker at the origin makes lstsq fail on NaN (the code only fails if a
    triangle in force uses it). *)
Definition set_points (h : hull) (ps : list V3) : hull :=
  Hull ps (h_d h) (h_a h) (h_listener h) (h_simplices h) (h_centroids h) (h_areas h) (h_normals h)
       (h_encloses h) (h_valid h) (h_vbase h) (h_imag h).
Definition proj (p : V3) : option V3 := project_on_sphere (vx p) (vy p) (vz p).
Definition characteristic_ambisonic_order (lstsq3 : M3 -> M3) (h : hull) : res Z :=
  match mapO proj (h_points h) with
  | None => Err LinAlgError
  | Some ps =>
      let src := map (fun c => match proj c with Some p => p | None => (0, 0, 0) end) (h_centroids h) in
      let* gains := fst (vbap_hull lstsq3 1 [] src (set_points h ps) (POrd 2) (Some (h_encloses h))) in
      let* re := r_E ps gains (length ps) in
      match mapO (fun x => np_acos (snd x)) re with
      | None => Err ValueError
      | Some angles =>
          let spread := map (fun t => 2 * t * (180 / PI)) angles in
          if Nat.eqb (length spread) 0 then Err ValueError
          else
            let avg := lsum spread / INR (length spread) in
            if Reqb avg 0 then Err OverflowError
            else Ok (zceil (2 * (1379 / 10) / avg - 151 / 100))
      end
  end.
(** decoder.py:160-168 get_characteristic_order *)
Definition get_characteristic_order (lstsq3 : M3 -> M3) (s : setup) : res nat :=
  match s_order s with
  | Some n => Ok n
  | None =>
      let* N_e := characteristic_ambisonic_order lstsq3 (s_hull s) in
      if (N_e <? 1)%Z then Err ValueError else Ok (Z.to_nat N_e)
  end.

(** decoder.py:170-246 ambisonics_setup.  The object keeps what was assigned before
    an exception.  An imaginary loudspeaker at infinity makes the triangulation
    raise; [ndesign] are the tables behind grids.load_n_design.  Line 202 passes
    the order as a warning category, which raises TypeError. *)
Definition ambisonics_setup (chull : list V3 -> list face) (lstsq3 : M3 -> M3) (ndesign : Z -> list V3) (s : setup)
    (update_hull : bool) (imaginary_ls : option (list V3)) (order : option nat) (N_kernel : option nat) : res unit * setup :=
  match (match order with Some n => Ok n | None => get_characteristic_order lstsq3 s end) with
  | Err e => (Err e, s)
  | Ok n =>
      let s1 := Setup (s_hull s) (s_ambi s) (s_kernel s) (Some n) in
      match N_kernel with
      | None => (Err TypeError, s1)
      | Some Nk =>
          let pts := h_points (s_hull s) in
          match (if update_hull then
                   match imaginary_ls with
                   | None =>
                       let* p := find_imaginary_loudspeaker (s_hull s) in
                       match p with
                       | None => Err ValueError
                       | Some p => Ok (pts ++ [p], Some [length pts])
                       end
                   | Some im => Ok (pts ++ im, Some (seq (length pts) (length im)))
                   end
                 else Ok (pts, None)) with
          | Err e => (Err e, s1)
          | Ok (ambi_ls, idx) =>
              match load_n_design ndesign (2 * Z.of_nat Nk) with
              | Err e => (Err e, s1)
              | Ok kernel =>
                  (Ok tt, Setup (s_hull s) (Some (set_imag (hull_of_points chull ambi_ls) idx)) (Some (kernel, Nk)) (Some n))
              end
          end
      end
  end.

(** * ALLRAP and ALLRAD *)
Definition unit_rows (src : list V3) : option (list V3) :=
  mapO (fun s => if Reqb (norm3 s) 0 then None else Some (vx s / norm3 s, vy s / norm3 s, vz s / norm3 s)) src.
(** lines 781-788: hull and kernel of a setup *)
Definition ambi_kernel (s : setup) : res (hull * (list V3 * nat)) :=
  match s_ambi s with
  | None => Err ValueError
  | Some h => match s_kernel s with None => Err ValueError | Some k => Ok (h, k) end
  end.
(** hull.characteristic_order unless N_sph is given *)
Definition order_or (N_sph : option nat) (s : setup) : option nat :=
  match N_sph with Some n => Some n | None => s_order s end.
(** np.delete(G, idx, axis=1) and axis=0 *)
Definition del_cols (idx : option (list nat)) (G : mat) : mat :=
  match idx with
  | None => G
  | Some idx => let keep := np_delete idx (seq 0 (nc G)) in Mat (nr G) (length keep) (fun i j => ent G i (nth j keep O))
  end.
Definition del_rows (idx : option (list nat)) (G : mat) : mat :=
  match idx with
  | None => G
  | Some idx => let keep := np_delete idx (seq 0 (nr G)) in Mat (length keep) (nc G) (fun i j => ent G (nth i keep O) j)
  end.
Definition vdiag (v : list R) : mat := mdiag (length v) (fun i => nth i v 0).
Definition mmap (f : R -> R) (M : mat) : mat := Mat (nr M) (nc M) (fun i j => f (ent M i j)).
(** kernel gains: VBAP of the kernel points on the ambisonics hull.  The call
    leaves its cache in that hull. *)
Definition kernel_gains (lstsq3 : M3 -> M3) (jobs : Z) (sched : list nat) (h : hull) (kp : list V3) : res mat * hull :=
  let (g, h') := vbap_hull lstsq3 jobs sched kp h (POrd 2) None in
  (let* g := g in Ok (mat_of_rows (length kp) (length (h_points h)) g), h').
(** lines 810-826: Y_s diag(a) Y_k^T *)
Definition panning_matrix (N : nat) (a_n : list R) (src kp : list V3) : res (option mat) :=
  orsome (dirs src) (fun ds =>
  orsome (dirs kp) (fun dk =>
    let* Y_s := sh_matrix N (fst ds) (snd ds) in
    let* Y_k := sh_matrix N (fst dk) (snd dk) in
    let* G := matmul Y_s (vdiag (repeat_per_order a_n)) in
    let* G_bld := matmul G (mtr Y_k) in
    Ok (Some G_bld))).

(** decoder.py:744-826 allrap; without a characteristic order max_rE_weights(None)
    raises TypeError *)
Definition allrap (lstsq3 : M3 -> M3) (jobs : Z) (sched : list nat) (src : list V3) (s : setup) (N_sph : option nat) : res (option mat) * setup :=
  match ambi_kernel s with
  | Err e => (Err e, s)
  | Ok (h, (kp, _)) =>
      let (g, h') := kernel_gains lstsq3 jobs sched h kp in
      (let* G_k := g in
       match order_or N_sph s with
       | None => Err TypeError
       | Some N =>
           orsome (unity_gain (max_rE_weights N)) (fun a_n =>
           orsome (unit_rows src) (fun src =>
             let* G_bld := panning_matrix N a_n src kp in
             orsome G_bld (fun G_bld =>
               let* gains := matmul (mscal (4 * PI / INR (length kp)) G_bld) (del_cols (h_imag h) G_k) in
               Ok (Some gains))))
       end, set_ambi s h')
  end.
(** decoder.py:829-915 allrap2 *)
Definition allrap2_weights (N : nat) (a_n : list R) : option (list R) :=
  let a_w := sqrt (rsum (N + 1) (fun n => 2 * (INR n + 1) / (4 * PI) * (nth n a_n 0 * nth n a_n 0))) in
  if Reqb a_w 0 then None else Some (map (fun x => x / a_w) a_n).
Definition allrap2 (lstsq3 : M3 -> M3) (jobs : Z) (sched : list nat) (src : list V3) (s : setup) (N_sph : option nat) : res (option mat) * setup :=
  match ambi_kernel s with
  | Err e => (Err e, s)
  | Ok (h, (kp, _)) =>
      let (g, h') := kernel_gains lstsq3 jobs sched h kp in
      (let* G_k := g in
       match order_or N_sph s with
       | None => Err TypeError
       | Some N =>
           orsome (unity_gain (max_rE_weights N)) (fun a_n =>
           orsome (allrap2_weights N a_n) (fun a_n =>
           orsome (unit_rows src) (fun src =>
             let* G_bld := panning_matrix N a_n src kp in
             orsome G_bld (fun G_bld =>
               let* e := matmul (mscal (4 * PI / INR (length kp)) (mmap (fun x => x ^ 2) G_bld))
                                (mmap (fun x => x ^ 2) (del_cols (h_imag h) G_k)) in
               Ok (Some (mmap sqrt e))))))
       end, set_ambi s h')
  end.
(** lines 952-953: assert N_sph == N_sph_in; None equals no number *)
Definition same_order (o : option nat) (F : mat) : res nat :=
  match o with
  | None => Err AssertionError
  | Some N => if (Z.of_nat N =? order_of (nr F))%Z then Ok N else Err AssertionError
  end.
(** decoder.py:918-1000 allrad *)
Definition allrad (lstsq3 : M3 -> M3) (jobs : Z) (sched : list nat) (F : mat) (s : setup) (N_sph : option nat) : res (option mat) * setup :=
  match (let* hk := ambi_kernel s in let* N := same_order (order_or N_sph s) F in Ok (hk, N)) with
  | Err e => (Err e, s)
  | Ok ((h, (kp, _)), N) =>
      let (g, h') := kernel_gains lstsq3 jobs sched h kp in
      (let* G_k := g in
       orsome (unity_gain (max_rE_weights N)) (fun a_n =>
       orsome (dirs kp) (fun dk =>
         let* Y_bld := sh_matrix N (fst dk) (snd dk) in
         let* D := matmul (mscal (4 * PI / INR (length kp)) (mtr G_k)) Y_bld in
         let* D := matmul D (vdiag (repeat_per_order a_n)) in
         let* ls := matmul (del_rows (h_imag h) D) F in
         Ok (Some ls))), set_ambi s h')
  end.
(** decoder.py:1003-1072 allrad2 *)
Definition allrad2 (lstsq3 : M3 -> M3) (jobs : Z) (sched : list nat) (F : mat) (s : setup) (N_sph : option nat) : res (option mat) * setup :=
  match (let* hk := ambi_kernel s in let* N := same_order (order_or N_sph s) F in Ok (hk, N)) with
  | Err e => (Err e, s)
  | Ok ((h, (kp, _)), N) =>
      let (g, s') := allrap2 lstsq3 jobs sched kp s (Some N) in
      (let* G_k := g in
       orsome G_k (fun G_k =>
       orsome (dirs kp) (fun dk =>
         let* Y_bld := sh_matrix N (fst dk) (snd dk) in
         let* D := matmul (mscal (4 * PI / INR (length kp)) (mtr G_k)) Y_bld in
         let* ls := matmul D F in
         Ok (Some ls))), s')
  end.

(** * SAD, MAD, EPAD *)
(** lines 1105-1113: the order ([if hull.characteristic_order] is false for 0 and
    None) and the check that the input has that order *)
Definition decoder_order (lstsq3 : M3 -> M3) (s : setup) (N_sph : option nat) (F : mat) : res nat :=
  let* N := match N_sph with
            | Some n => Ok n
            | None => match s_order s with
                      | Some (S k) => Ok (S k)
                      | _ => get_characteristic_order lstsq3 s
                      end
            end in
  let* _ := assert_ (Z.of_nat N <=? order_of (nr F))%Z in
  Ok N.
(** harmonics at the loudspeakers *)
Definition ls_matrix (N : nat) (h : hull) : res (option mat) :=
  orsome (dirs (h_points h)) (fun d => let* Y := sh_matrix N (fst d) (snd d) in Ok (Some Y)).
Definition decode_with (N : nat) (h : hull) (F : mat) (D : mat -> res mat) : res (option mat) :=
  let* Y := ls_matrix N h in
  orsome Y (fun Y =>
    let* D := D Y in
    let* ls := matmul D (first_rows ((N + 1) ^ 2) F) in
    Ok (Some ls)).
(** decoder.py:1075-1126 sad *)
Definition sad (lstsq3 : M3 -> M3) (F : mat) (s : setup) (N_sph : option nat) : res (option mat) :=
  let* N := decoder_order lstsq3 s N_sph F in
  let L := INR (length (h_points (s_hull s))) in
  decode_with N (s_hull s) F (fun Y => Ok (mscal (sqrt (4 * PI / L)) (mscal (sqrt (4 * PI / INR ((N + 1) ^ 2))) Y))).
(** decoder.py:1129-1180 mad *)
Definition mad (lstsq3 : M3 -> M3) (pinv : mat -> mat) (F : mat) (s : setup) (N_sph : option nat) : res (option mat) :=
  let* N := decoder_order lstsq3 s N_sph F in
  let L := INR (length (h_points (s_hull s))) in
  decode_with N (s_hull s) F (fun Y => Ok (mscal (sqrt (L / INR ((N + 1) ^ 2))) (mtr (pinv Y)))).
(** decoder.py:1183-1252 epad.  [svd Y] is (U, S, VH) of np.linalg.svd. *)
Definition eye_rect (n m : nat) : mat := Mat n m (fun i j => if Nat.eqb i j then 1 else 0).
Definition epad (lstsq3 : M3 -> M3) (svd : mat -> mat * list R * mat) (F : mat) (s : setup) (N_sph : option nat) : res (option mat) :=
  let* N := decoder_order lstsq3 s N_sph F in
  let n := length (h_points (s_hull s)) in
  let L := INR n in
  decode_with N (s_hull s) F (fun Y =>
    let '(U, _, VH) := svd Y in
    let* D := matmul U (eye_rect n ((N + 1) ^ 2)) in
    let* D := matmul D VH in
    Ok (mscal (sqrt (L / INR ((N + 1) ^ 2))) (mscal (sqrt (4 * PI / L)) D))).
