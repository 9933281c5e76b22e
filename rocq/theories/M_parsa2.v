(** Model of spaudiopy/parsa.py, part 2: pseudo intensity and the SDM renderers. *)
From Verif Require Import Base M_utils M_sig M_process M_decoder M_decoder2 M_decoder3.
Open Scope R_scope.

(** * Workers on one shared array *)
(** parsa.py:950-961 _create_shared_array, _init_shared_array and multiprocessing.Pool:
    the workers run their tasks one after another; a task is a list of accesses to the
    shared buffer.  [Load]/[AddStore] are the two halves of [a[k] += v] (numpy adds
    into the buffer element by element).  Acquiring a lock that another worker holds
    waits. *)
Inductive instr : Type :=
  | Acquire (l : nat) | Release (l : nat)
  | Load (k : nat) | AddStore (k : nat) (v : R)
  | Store (k : nat) (v : R).
Record machine : Type := Machine {
  cells : list R;                          (* the shared buffer *)
  locks : nat -> option nat;               (* who holds lock l *)
  workers : list (list instr * R) }.       (* what is left to do; the loaded number *)
Definition set_lock (f : nat -> option nat) (l : nat) (o : option nat) : nat -> option nat :=
  fun k => if Nat.eqb k l then o else f k.
(** worker [w] runs for one access *)
Definition step (m : machine) (w : nat) : machine :=
  match nth w (workers m) ([], 0) with
  | ([], _) => m
  | (Acquire l :: p, r) =>
      match locks m l with
      | None => Machine (cells m) (set_lock (locks m) l (Some w)) (upd (workers m) w (p, r))
      | Some o => if Nat.eqb o w then Machine (cells m) (locks m) (upd (workers m) w (p, r)) else m
      end
  | (Release l :: p, r) => Machine (cells m) (set_lock (locks m) l None) (upd (workers m) w (p, r))
  | (Load k :: p, r) => Machine (cells m) (locks m) (upd (workers m) w (p, nth k (cells m) 0))
  | (AddStore k v :: p, r) => Machine (upd (cells m) k (r + v)) (locks m) (upd (workers m) w (p, r))
  | (Store k v :: p, r) => Machine (upd (cells m) k v) (locks m) (upd (workers m) w (p, r))
  end.
Definition steps (m : machine) (sched : list nat) : machine := fold_left step sched m.
Definition finished (m : machine) : Prop := forall w, fst (nth w (workers m) ([], 0)) = [].
(** a zeroed buffer of [n] numbers, free locks; worker [w] has the tasks [deal[w]] *)
Definition start (n : nat) (prog : nat -> nat -> list instr) (deal : list (list nat)) : machine :=
  Machine (repeat 0 n) (fun _ => None)
          (map (fun w => (flat_map (prog w) (nth w deal []), 0)) (seq 0 (length deal))).

(** * parsa.py:400-486 pseudo_intensity *)
(** np.hanning(M) *)
Definition np_hanning (M : Z) : list R :=
  if (M <? 1)%Z then []
  else if (M =? 1)%Z then [1]
  else map (fun n => 1 / 2 + 1 / 2 * cos (PI * IZR (2 * Z.of_nat n + 1 - M) / IZR (M - 1))) (seq 0 (Z.to_nat M)).
(** [a * b] for 1-D arrays; a single element is broadcast *)
Definition bmul (a b : list R) : res (list R) :=
  if Nat.eqb (length a) (length b) then Ok (zip_mul a b)
  else match a, b with
       | [x], _ => Ok (map (fun y => x * y) b)
       | _, [y] => Ok (map (fun x => x * y) a)
       | _, _ => Err ValueError
       end.
(** np.trapz(win * W[i:i + n] * V[i:i + n]) *)
Definition windowed (win W V : list R) (i n : Z) : res R :=
  let* a := bmul win (slice W i (i + n)) in
  let* b := bmul a (slice V i (i + n)) in
  Ok (trapz b).
(** the four channels *)
Record bformat : Type := BFormat { bW : list R; bX : list R; bY : list R; bZ : list R }.
Definition intensity (win : list R) (b : bformat) (i n : Z) : res V3 :=
  let* x := windowed win (bW b) (bX b) i n in
  let* y := windowed win (bW b) (bY b) i n in
  let* z := windowed win (bW b) (bZ b) i n in
  Ok (x, y, z).
(** position of the index [k] of an axis of length [n] *)
Definition position (n : nat) (k : Z) : res nat :=
  let j := if (k <? 0)%Z then (k + Z.of_nat n)%Z else k in
  if ((0 <=? j) && (j <? Z.of_nat n))%Z then Ok (Z.to_nat j) else Err IndexError.
(** [I_vec[k, :] = v] on a row-major (n, 3) buffer *)
Definition set_row3 (n : nat) (buf : list R) (k : Z) (v : V3) : res (list R) :=
  let* j := position n k in
  Ok (upd (upd (upd buf (3 * j) (vx v)) (3 * j + 1) (vy v)) (3 * j + 2) (vz v)).
(** line 454: the loop.  [todo] lists the remaining values of i. *)
Fixpoint intensity_loop (win : list R) (b : bformat) (n : nat) (win_len : Z) (buf : list R) (todo : list nat) : res (list R) :=
  match todo with
  | [] => Ok buf
  | i :: t =>
      let* v := intensity win b (Z.of_nat i) win_len in
      let* buf' := set_row3 n buf (Z.of_nat i + win_len / 2) v in
      intensity_loop win b n win_len buf' t
  end.
(** lines 391-397: task i; it takes the window length from the window *)
Definition intensity_task (win : list R) (b : bformat) (n i : nat) : res (list instr) :=
  let buf := Z.of_nat (length win) in
  let* v := intensity win b (Z.of_nat i) buf in
  let* j := position n (Z.of_nat i + buf / 2) in
  Ok [Store (3 * j) (vx v); Store (3 * j + 1) (vy v); Store (3 * j + 2) (vz v)].
(** range(len - win_len) *)
Definition window_range (n : nat) (win_len : Z) : list nat := seq 0 (Z.to_nat (Z.of_nat n - win_len)).
(** scipy.signal.convolve(a, h, 'same'): the middle len(a) samples; empty for an
    empty operand *)
Definition convolve_same (a h : list R) : list R :=
  match a, h with
  | [], _ => [] | _, [] => []
  | _, _ => firstn (length a) (skipn ((length h - 1) / 2) (convolve a h))
  end.
(** column [c] of a row-major (n, 3) buffer *)
Definition column3 (n : nat) (buf : list R) (c : nat) : list R :=
  map (fun j => nth (3 * j + c) buf 0) (seq 0 n).
(** lines 434-448: [bandpass] is scipy's filtfilt with the Butterworth coefficients
    (M_process4.v defines it), [None] for f_bp=None; asarray_1d is the identity on the 1-D attributes *)
Definition bandpass_all (bandpass : option (list R -> res (list R))) (a : ambib) : res bformat :=
  match bandpass with
  | None => Ok (BFormat (aW a) (aX a) (aY a) (aZ a))
  | Some f =>
      let* w := f (aW a) in let* x := f (aX a) in let* y := f (aY a) in let* z := f (aZ a) in
      Ok (BFormat w x y z)
  end.
(** lines 450-477: the intensity vectors.  [jobs] is the job count after line 426-427;
    Pool needs at least one process.  If a task raises, starmap raises; otherwise it
    returns when the workers have finished. *)
Definition intensity_machine (b : bformat) (n : nat) (win_len : Z) (deal : list (list nat)) : res machine :=
  let* tasks := mapM (intensity_task (np_hanning win_len) b n) (window_range n win_len) in
  Ok (start (3 * n) (fun _ i => nth i tasks []) deal).
Definition intensity_buffer (b : bformat) (n : nat) (win_len jobs : Z)
    (deal : list (list nat)) (sched : list nat) : res (list R) :=
  if (jobs =? 1)%Z then intensity_loop (np_hanning win_len) b n win_len (repeat 0 (3 * n)) (window_range n win_len)
  else if (jobs <? 1)%Z then Err ValueError
  else
    let* m := intensity_machine b n win_len deal in
    Ok (cells (steps m sched)).
(** lines 479-486 *)
Definition smooth_columns (n : nat) (buf : list R) (smoothing_order : Z) : res (list (list R)) :=
  let cs := map (column3 n buf) [0; 1; 2]%nat in
  if (0 <? smoothing_order)%Z then
    let* _ := assert_ (smoothing_order mod 2 =? 1)%Z in
    Ok (map (fun c => convolve_same c (np_hanning smoothing_order)) cs)
  else Ok cs.
Definition pseudo_intensity (bandpass : option (list R -> res (list R))) (a : ambib)
    (win_len smoothing_order jobs : Z) (deal : list (list nat)) (sched : list nat)
    : res (list (R * option R * R)) :=
  let* _ := assert_ (win_len mod 2 =? 1)%Z in
  let* b := bandpass_all bandpass a in
  let* n := multi_len (base a) in
  let* buf := intensity_buffer b n win_len jobs deal sched in
  let* cs := smooth_columns n buf smoothing_order in
  let at_ c j := nth j (nth c cs []) 0 in
  Ok (map (fun j => cart2sph (at_ 0%nat j) (at_ 1%nat j) (at_ 2%nat j) false true)
          (seq 0 (length (nth 0 cs [])))).

(** * parsa.py:489-518 render_stereo_sdm *)
(** lines 510-517: [i] counts, zip stops at the shortest list *)
Fixpoint stereo_loop (i : nat) (p phi theta : list R) (l r : list R) : list R * list R :=
  match p, phi, theta with
  | p0 :: p', phi0 :: phi', _ :: theta' =>
      let h_l := / 2 * (1 + cos (phi0 - PI / 2)) in
      let h_r := / 2 * (1 + cos (phi0 + PI / 2)) in
      stereo_loop (S i) p' phi' theta' (upd l i (nth i l 0 + p0 * h_l)) (upd r i (nth i r 0 + p0 * h_r))
  | _, _, _ => (l, r)
  end.
Definition render_stereo_sdm (p phi theta : list R) : list R * list R :=
  stereo_loop 0 p phi theta (repeat 0 (length p)) (repeat 0 (length p)).

(** * parsa.py:530-584 render_bsdm *)
(** np.zeros(n) *)
Definition np_zeros (n : Z) : res (list R) := if (n <? 0)%Z then Err ValueError else Ok (repeat 0 (Z.to_nat n)).
(** [out[i:i + len(v)] += v]: the slice is cut at the end of [out] *)
Definition iadd_at (out : list R) (i : nat) (v : list R) : res (list R) :=
  let a := Z.of_nat i in
  let b := (a + Z.of_nat (length v))%Z in
  let* s := iadd (slice out a b) v in
  slice_set out a b s.
Fixpoint bsdm_loop (hr : hrirs) (i : nat) (ds : list (R * (R * R))) (acc : list R * list R) : res (list R * list R) :=
  match ds with
  | [] => Ok acc
  | (p, (phi, theta)) :: t =>
      let* hh := nearest_hrirs hr phi theta in
      let* l := iadd_at (fst acc) i (map (fun x => p * x) (fst hh)) in
      let* r := iadd_at (snd acc) i (map (fun x => p * x) (snd hh)) in
      bsdm_loop hr (S i) t (l, r)
  end.
(** the accesses of [shared_array[i:i + len(v), c] += v] on an (n, 2) buffer *)
Definition iadd_cells (n i c : nat) (v : list R) : res (list instr) :=
  let m := (Nat.min (i + length v) n - Nat.min i n)%nat in
  let add j x := [Load (2 * (i + j) + c); AddStore (2 * (i + j) + c) x] in
  if Nat.eqb (length v) m then Ok (flat_map (fun j => add j (nth j v 0)) (seq 0 m))
  else match v with [x] => Ok (flat_map (fun j => add j x) (seq 0 m)) | _ => Err ValueError end.
(** lines 522-527: task i; [l] is the lock this worker's [lock] variable refers to *)
Definition bsdm_task (hr : hrirs) (n i : nat) (d : R * (R * R)) : res (nat -> list instr) :=
  let* hh := nearest_hrirs hr (fst (snd d)) (snd (snd d)) in
  let* l := iadd_cells n i 0 (map (fun x => fst d * x) (fst hh)) in
  let* r := iadd_cells n i 1 (map (fun x => fst d * x) (snd hh)) in
  Ok (fun lock => [Acquire lock] ++ l ++ r ++ [Release lock]).
(** [lock_of w] is the lock of worker [w]: the same for all when the processes are
    forked, one each when they import the module anew.  The result is read off the
    columns of the buffer. *)
Definition column2 (n : nat) (buf : list R) (c : nat) : list R :=
  map (fun j => nth (2 * j + c) buf 0) (seq 0 n).
Definition bsdm_machine (p phi theta : list R) (hr : hrirs) (n : nat)
    (lock_of : nat -> nat) (deal : list (list nat)) : res machine :=
  let ds := combine p (combine phi theta) in
  let* tasks := mapM (fun q => bsdm_task hr n (fst q) (snd q)) (combine (seq 0 (length p)) ds) in
  Ok (start (2 * n) (fun w i => nth i tasks (fun _ => []) (lock_of w)) deal).
Definition render_bsdm (p phi theta : list R) (hr : hrirs) (jobs : Z)
    (lock_of : nat -> nat) (deal : list (list nat)) (sched : list nat) : res (list R * list R) :=
  let* zeros := np_zeros (Z.of_nat (length p) + Z.of_nat (h_taps hr) - 1) in
  if (jobs =? 1)%Z then bsdm_loop hr 0 (combine p (combine phi theta)) (zeros, zeros)
  else if (jobs <? 1)%Z then Err ValueError
  else
    let n := length zeros in
    let* m := bsdm_machine p phi theta hr n lock_of deal in
    let buf := cells (steps m sched) in
    Ok (column2 n buf 0, column2 n buf 1).

(** * parsa.py:587-631 render_binaural_loudspeaker_sdm *)
(** [ls_gains] after np.atleast_2d; [post_eq] is sdm_post_equalization or the caller's
    function with its arguments, [None] to skip it *)
Definition arr2_of (m : mat) : arr2 R :=
  Arr2 (map (fun i => map (ent m i) (seq 0 (nc m))) (seq 0 (nr m))) (nc m).
Definition render_binaural_loudspeaker_sdm (p : list R) (gains : mat) (h : hull) (fs : Z)
    (post_eq : option (mat -> res mat)) (hr : hrirs) : res (option (list R * list R)) :=
  let* _ := assert_ (Nat.eqb (length p) (nr gains)) in
  let* sigs := loudspeaker_signals h gains (Some p) in
  let* sigs := match post_eq with Some f => f sigs | None => Ok sigs end in
  binauralize h (arr2_of sigs) fs (0, 0) hr.
