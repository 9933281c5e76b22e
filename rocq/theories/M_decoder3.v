(** Model of spaudiopy/decoder.py, part 3: construction of a LoudspeakerSetup on
    shared arrays, binaural rendering and the SH-domain binaural decoder. *)
From Verif Require Import Base M_utils M_sig M_process M_decoder.
Open Scope R_scope.

(** * Arrays in memory *)
(** An array lives at a location of the heap; [a_int] tells an integer dtype from a
    float one.  Views share the location of their base. *)
Record cell : Type := Cell { a_int : bool; a_shape : list nat; a_data : list R }.
Definition heap : Type := list cell.
Definition set_data (c : cell) (d : list R) : cell := Cell (a_int c) (a_shape c) d.
(** an array_like argument: an existing array, or a list or tuple of numbers, each
    an int (true) or a float (false) *)
Inductive arg : Type := ARef (l : nat) | ALst (xs : list (bool * R)).
(** a call returns or raises, and leaves a heap in either case *)
Definition act (A : Type) : Type := heap -> res A * heap.
Definition ret {A} (a : A) : act A := fun h => (Ok a, h).
Definition raise {A} (e : exn) : act A := fun h => (Err e, h).
Definition andthen {A B} (m : act A) (f : A -> act B) : act B :=
  fun h => match m h with (Ok a, h') => f a h' | (Err e, h') => (Err e, h') end.
Notation "'do' x '<-' m ';' k" := (andthen m (fun x => k))
  (at level 200, x name, m at level 100, k at level 200, right associativity).
(** a location that does not exist cannot be written in Python; IndexError stands in *)
Definition fetch (l : nat) : act cell :=
  fun h => match nth_error h l with Some c => (Ok c, h) | None => (Err IndexError, h) end.
Definition store (l : nat) (c : cell) : act unit := fun h => (Ok tt, upd h l c).
Definition alloc (c : cell) : act nat := fun h => (Ok (length h), h ++ [c]).

(** utils.py:17-30 asarray_1d.  np.asarray returns an array argument itself,
    np.squeeze and reshape return views; a list becomes a new array. *)
Definition asarray_1d_ref (a : arg) : act nat :=
  match a with
  | ARef l =>
      do c <- fetch l;
      match asarray_1d (Nd (a_shape c) (a_data c)) with Ok _ => ret l | Err e => raise e end
  | ALst xs =>
      alloc (Cell (match xs with [] => false | _ => forallb fst xs end) [length xs] (map snd xs))
  end.
(** listener_position[i]: of the argument itself, not of the converted array; array
    arguments are taken to be 1-D *)
Definition item (a : arg) (i : nat) : act (bool * R) :=
  match a with
  | ALst xs => match nth_error xs i with Some x => ret x | None => raise IndexError end
  | ARef l =>
      do c <- fetch l;
      match nth_error (a_data c) i with Some x => ret (a_int c, x) | None => raise IndexError end
  end.
(** [a -= s] for a scalar: an integer array takes no float (UFuncTypeError) *)
Definition isub (l : nat) (s : bool * R) : act unit :=
  do c <- fetch l;
  if (a_int c && negb (fst s))%bool then raise TypeError
  else store l (set_data c (map (fun v => v - snd s) (a_data c))).
(** [a -= a] *)
Definition isub_self (l : nat) : act unit :=
  do c <- fetch l; store l (set_data c (map (fun v => v - v) (a_data c))).

(** decoder.py:49-109 __init__.  [qhull] is scipy.spatial.ConvexHull, it may raise.
    Unequal lengths raise ValueError in cart2sph or np.c_. The attributes x, y, z and
    listener_position keep the (shared) arrays; ConvexHull copies the points. *)
Record lsobj : Type := LsObj { o_x : nat; o_y : nat; o_z : nat; o_lis : nat; o_hull : hull }.
Fixpoint zip3 (xs ys zs : list R) : list V3 :=
  match xs, ys, zs with x :: xs', y :: ys', z :: zs' => (x, y, z) :: zip3 xs' ys' zs' | _, _, _ => [] end.
Definition ls_init (qhull : list V3 -> res (list face)) (x y z : arg) (listener : option arg) : act lsobj :=
  do lx <- asarray_1d_ref x;
  do ly <- asarray_1d_ref y;
  do lz <- asarray_1d_ref z;
  let lp := match listener with Some a => a | None => ALst [(true, 0); (true, 0); (true, 0)] end in
  do ll <- asarray_1d_ref lp;
  do ox <- item lp 0;
  do _ <- isub lx ox;
  do oy <- item lp 1;
  do _ <- isub ly oy;
  do oz <- item lp 2;
  do _ <- isub lz oz;
  do _ <- isub_self ll;
  do cx <- fetch lx;
  do cy <- fetch ly;
  do cz <- fetch lz;
  if (Nat.eqb (length (a_data cx)) (length (a_data cy)) && Nat.eqb (length (a_data cx)) (length (a_data cz)))%bool
  then
    let ps := zip3 (a_data cx) (a_data cy) (a_data cz) in
    match qhull ps with
    | Err e => raise e
    | Ok faces => ret (LsObj lx ly lz ll (hull_of_points (fun _ => faces) ps))
    end
  else raise ValueError.

(** decoder.py:111-130 from_sph for coordinate lists of one length: sph2cart makes
    new arrays; line 128 passes the listener as two or three numbers *)
Definition from_sph (qhull : list V3 -> res (list face)) (azi zen r : list R) (listener : option arg) : act lsobj :=
  let ps := map (fun q => sph2cart (fst (fst q)) (snd (fst q)) (snd q)) (combine (combine azi zen) r) in
  do ll <- asarray_1d_ref (match listener with Some a => a | None => ALst [(true, 0); (true, 0); (true, 0)] end);
  do c <- fetch ll;
  do o <- (match a_data c with
           | [a; z] => ret (sph2cart a z 1)
           | [a; z; d] => ret (sph2cart a z d)
           | _ => raise TypeError
           end);
  do lx <- alloc (Cell false [length ps] (map vx ps));
  do ly <- alloc (Cell false [length ps] (map vy ps));
  do lz <- alloc (Cell false [length ps] (map vz ps));
  ls_init qhull (ARef lx) (ARef ly) (ARef lz)
          (Some (ALst [(false, vx o); (false, vy o); (false, vz o)])).

(** a program that builds setups one after another from the same arguments *)
Fixpoint construct_all (qhull : list V3 -> res (list face)) (x y z : arg) (ls : list (option arg)) : act (list lsobj) :=
  match ls with
  | [] => ret []
  | l :: t => do o <- ls_init qhull x y z l; do os <- construct_all qhull x y z t; ret (o :: os)
  end.

(** * decoder.py:248-290 binauralize *)
(** line 283: any(abs(ls_sig) > 10e-6) *)
Definition gate_open (x : list R) : bool := existsb (fun v => Rltb (10 / 1000000) (Rabs v)) x.
(** [a += b] for 1-D arrays: a single element is broadcast *)
Definition iadd (a b : list R) : res (list R) :=
  if Nat.eqb (length b) (length a) then Ok (map (fun p => fst p + snd p) (combine a b))
  else match b with [v] => Ok (map (fun x => x + v) a) | _ => Err ValueError end.
Definition bin_channel (hr : hrirs) (ori : R * R) (acc : list R * list R) (ch : list R * (R * R)) : res (list R * list R) :=
  let (sig, dir) := ch in
  if gate_open sig then
    let* hh := nearest_hrirs hr (fst dir - fst ori) (snd dir - snd ori) in
    let* l := iadd (fst acc) (convolve sig (fst hh)) in
    let* r := iadd (snd acc) (convolve sig (snd hh)) in
    Ok (l, r)
  else Ok acc.
Fixpoint bin_loop (hr : hrirs) (ori : R * R) (acc : list R * list R) (chs : list (list R * (R * R))) : res (list R * list R) :=
  match chs with
  | [] => Ok acc
  | c :: t => let* acc' := bin_channel hr ori acc c in bin_loop hr ori acc' t
  end.
(** the HRIRs are given (io.load_hrirs is modelled in M_io.v).  [Ok None]: a
    loudspeaker at the listener's position, where the code divides by zero and goes on
    with inf and NaN.  The product with the diagonal matrix scales the rows. *)
Definition binauralize (h : hull) (ls : arr2 R) (fs : Z) (ori : R * R) (hr : hrirs) : res (option (list R * list R)) :=
  let* _ := assert_ (h_fs hr =? fs)%Z in
  let* _ := assert_ (Nat.eqb (length (rows ls)) (length (h_points h))) in
  let sph := map (fun p => let q := sub3 p (h_listener h) in cart2sph (vx q) (vy q) (vz q) false false) (h_points h) in
  match mapM (fun s => match snd (fst s) with Some z => Ok ((fst (fst s), z), snd s) | None => Err ValueError end) sph with
  | Err _ => Ok None
  | Ok dirs =>
      let sigs := map (fun p => (map (fun v => 1 / np_pow (snd (snd p)) (h_a h) * v) (fst p), fst (snd p)))
                      (combine (rows ls) dirs) in
      let zeros := repeat 0 (cols ls + h_taps hr - 1) in
      let* out := bin_loop hr ori (zeros, zeros) sigs in
      Ok (Some out)
  end.

(** * decoder.py:1295-1323 sh2bin *)
(** [a[e, :, :]] of a 3-D array *)
Definition plane (a : nd R) (e : nat) : res (nd R) :=
  match shape a with
  | [c; k; t] => if Nat.ltb e c then Ok (Nd [k; t] (firstn (k * t) (skipn (e * (k * t)) (data a)))) else Err IndexError
  | _ => Err IndexError
  end.
(** scipy.signal.oaconvolve(in1, in2, axes=-1) of a 2-D array with another array,
    then np.sum(axis=0): the ranks must agree; an empty operand gives np.array([]),
    whose sum is the scalar 0 (vstack makes it one column) *)
Definition oaconvolve_sum (K n : nat) (in1 : list (list R)) (in2 : nd R) : res (list R) :=
  match shape in2 with
  | [k; t] =>
      if (Nat.eqb (K * n) 0 || Nat.eqb (k * t) 0)%bool then Ok [0]
      else
        let chans := map (fun p => convolve (fst p) (snd p)) (combine in1 (rows_of k t (data in2))) in
        Ok (map (fun i => lsum (map (fun c => nth i c 0) chans)) (seq 0 (n + t - 1)))
  | _ => Err ValueError
  end.
Definition sh2bin (sig_nm hrirs_nm : nd R) : res (list R * list R) :=
  match shape sig_nm with
  | [K; n] =>
      match shape hrirs_nm with
      | [c; k; t] =>
          let* _ := assert_ (Nat.eqb K k) in
          let* hl := plane hrirs_nm 0 in
          let* out_l := oaconvolve_sum K n (rows_of K n (data sig_nm)) (squeeze hl) in
          let* h_r := plane hrirs_nm 1 in
          let* out_r := oaconvolve_sum K n (rows_of K n (data sig_nm)) (squeeze h_r) in
          Ok (out_l, out_r)
      | _ => Err AssertionError
      end
  | _ => Err AssertionError
  end.
