(** Model of spaudiopy/parsa.py, part 1: beamformers and covariance analysis
    (lines 41-387).  Arrays of two axes are [mat]; np.linalg.eigh, eigvalsh and
    inv are parameters whose contracts are in S_linalg.v and S_parsa.v.
    Directions are the 1-D arrays utils.asarray_1d yields.  A division by zero,
    which numpy answers with inf or NaN, gives [None]. *)
From Verif Require Import Base M_utils M_sig M_sph.
Open Scope R_scope.

(** parsa.py:64-76, the argument [pattern]: a string after .lower(), one
    constructor per list of accepted names, or an array of modal weights *)
Inductive pattern : Type :=
| PHyper      (** 'hypercardioid', 'max_di' *)
| PCardioid   (** 'cardioid', 'inphase' *)
| PMaxRe      (** 'max_re', 'maxre' *)
| PUnknown    (** any other string *)
| PWeights (c : list R).

Definition pattern_weights (p : pattern) (N : nat) : res (option (list R)) :=
  match p with
  | PHyper => Ok (Some (hypercardioid_modal_weights N))
  | PCardioid => Ok (Some (cardioid_modal_weights N))
  | PMaxRe => maxre_modal_weights N true
  | PUnknown => Err ValueError
  | PWeights c => Ok (Some c)
  end.

(** parsa.py:41-80 sh_beamformer_from_pattern *)
Definition sh_beamformer_from_pattern (p : pattern) (N : nat) (azi zen : list R) : res (option mat) :=
  let* c := pattern_weights p N in
  match c with
  | None => Ok None
  | Some c_n =>
      let* _ := assert_ (Nat.eqb (length c_n) (N + 1)) in
      let w_nm := repeat_per_order c_n in
      let* Y_steer := sh_matrix N azi zen in
      let* r := row_scale w_nm Y_steer in
      Ok (Some r)
  end.

(** parsa.py:83-116 sh_beamform.  [row_mat] is np.atleast_2d of a 1-D array of
    weights, [col_mat] is [sig_nm[:, np.newaxis]] of a 1-D signal. *)
Definition row_mat (l : list R) : mat := Mat 1 (length l) (fun _ j => nth j l 0).
Definition col_mat (l : list R) : mat := Mat (length l) 1 (fun i _ => nth i l 0).
Definition sh_beamform (W sig : mat) : res mat := matmul W sig.

(** np.mean and np.var of a non-empty 1-D array *)
Definition np_mean (w : list R) : R := lsum w / INR (length w).
Definition np_var (w : list R) : R := np_mean (map (fun x => (x - np_mean w) * (x - np_mean w)) w).

(** one element of [w[1:] / (w[:-1] + 10e-8) > a]: a zero denominator yields
    +inf, -inf or NaN, and only +inf exceeds [a] *)
Definition exceeds (num den a : R) : bool :=
  if Reqb den 0 then Rltb 0 num else Rltb a (num / den).

(** parsa.py:144-155, once the eigenvalues [w] are known.  An empty [w]: [2/len(w)]
    raises ZeroDivisionError; with [a] given, np.var is NaN, the comparison is
    false, and np.argmax of an empty array raises ValueError. *)
Definition count_from_eigenvalues (w : list R) (a : option R) : res nat :=
  let L := length w in
  let* a := match a with
            | Some a => Ok a
            | None => if Nat.eqb L 0 then Err ZeroDivisionError else Ok (1 + 2 / INR L)
            end in
  if negb (Nat.eqb L 0) && Rltb (np_var w) a then Ok O
  else
    let c := map (fun i => exceeds (nth (S i) w 0) (nth i w 0 + 1 / 10000000) a) (seq 0 (L - 1)) in
    let* cn := argmax (map (fun b : bool => if b then 1 else 0) c) in
    Ok (L - 1 - cn)%nat.

(** parsa.py:119-155 estimate_num_sources *)
Definition estimate_num_sources (eigvalsh : mat -> list R) (cov : mat) (a : option R)
    (w : option (list R)) : res nat :=
  count_from_eigenvalues (match w with Some w => w | None => eigvalsh cov end) a.

(** [v[:, b:]] and [v[:, :b]] *)
Definition cols_from (v : mat) (b : Z) : mat :=
  let s := norm_idx (nc v) b in Mat (nr v) (nc v - s) (fun i j => ent v i (s + j)%nat).
Definition cols_to (v : mat) (b : Z) : mat :=
  Mat (nr v) (norm_idx (nc v) b) (ent v).

(** parsa.py:158-205 separate_cov *)
Definition separate_cov (eigh : mat -> list R * mat) (cov : mat) (num_cut : option Z) : res (mat * mat) :=
  let* _ := assert_ (Nat.eqb (nr cov) (nc cov)) in
  let (w, v) := eigh cov in
  let* k := match num_cut with
            | Some k => Ok k
            | None => let* n := count_from_eigenvalues w None in Ok (Z.of_nat n)
            end in
  let* w_r := index w (- (k + 1)) in
  let* w_nn := slice_set w (- k) (Z.of_nat (length w)) [w_r] in
  let* t := matmul v (mdiag (length w_nn) (fun i => nth i w_nn 0)) in
  let* S_nn := matmul t (mtr v) in
  let w_c := map (fun x => x - w_r) (slice_from w (- k)) in
  let* t := matmul (cols_from v (- k)) (mdiag (length w_c) (fun i => nth i w_c 0)) in
  let* S_pp := matmul t (mtr (cols_from v (- k))) in
  Ok (S_pp, S_nn).

(** parsa.py:208-249 sh_music; [N_sph] of an empty matrix is -1, for which
    sph.sh_matrix has no columns and the product is with an empty array: the
    model is for [cov] with at least one row *)
Definition sh_music (eigh : mat -> list R * mat) (cov : mat) (num_src : Z) (azi zen : list R) : res (list R) :=
  let* _ := assert_ (Nat.eqb (nr cov) (nc cov)) in
  let N := Z.to_nat (order_of (nr cov)) in
  let* Y := sh_matrix N azi zen in
  let v := snd (eigh cov) in
  let Qn := cols_to v (- num_src) in
  let* a := matmul (mtr Qn) (mtr Y) in
  Ok (map (fun g => 1 / (rsum (nr a) (fun i => ent a i g * ent a i g) + 1 / 100000000000))
          (seq 0 (nc a))).

(** parsa.py:252-301 sh_mvdr; [None] if some steering direction has zero
    power [a_gg] *)
Definition sh_mvdr (inv : mat -> res mat) (cov : mat) (azi zen : list R) : res (option mat) :=
  let* _ := assert_ (Nat.eqb (nr cov) (nc cov)) in
  let N := Z.to_nat (order_of (nr cov)) in
  let* Y_steer := sh_matrix N azi zen in
  let* S_inv := inv cov in
  let* c := matmul Y_steer S_inv in
  let* a := matmul c (mtr Y_steer) in
  Ok (if existsb (fun g => Reqb (ent a g g) 0) (seq 0 (nr a)) then None
      else Some (Mat (nr c) (nc c) (fun i j => ent c i j / ent a i i))).

(** parsa.py:304-357 sh_lcmv *)
Definition sh_lcmv (inv : mat -> res mat) (cov : mat) (azi_c zen_c c_gain : list R) : res (list R) :=
  let* _ := assert_ (Nat.eqb (nr cov) (nc cov)) in
  let* _ := assert_ (Nat.eqb (length azi_c) (length zen_c)) in
  let* _ := assert_ (Nat.eqb (length azi_c) (length c_gain)) in
  let N := Z.to_nat (order_of (nr cov)) in
  let* Yc := sh_matrix N azi_c zen_c in
  let V := mtr Yc in
  let* S_inv := inv cov in
  let* t := matmul (mtr V) S_inv in
  let* t := matmul t V in
  let* G := inv t in
  let* t := matmul (row_mat c_gain) G in
  let* t := matmul t (mtr V) in
  let* t := matmul t S_inv in
  Ok (map (ent t 0) (seq 0 (nc t))).

(** parsa.py:375-387: one row of the output array of [width] columns *)
Definition sector_row (t_design : Z -> res (list V3)) (width : nat) (p a : list R) : res (list R) :=
  let* r := sh_mult t_design p a in
  if Nat.eqb (length r) width then Ok r
  else match r with [x] => Ok (repeat x width) | _ => Err ValueError end.
(** parsa.py:360-387 sh_sector_beamformer: the list of rows of A_wxyz *)
Definition sector_patterns : list (list R) :=
  let w := sqrt (4 * PI) in
  let d := sqrt (4 / 3 * PI) in
  [[w * 1; w * 0; w * 0; w * 0]; [d * 0; d * 0; d * 0; d * 1];
   [d * 0; d * 1; d * 0; d * 0]; [d * 0; d * 0; d * 1; d * 0]].
Definition sh_sector_beamformer (t_design : Z -> res (list V3)) (A : mat) : res (list (list R)) :=
  let width := Z.to_nat (py_int (sqrt (INR (nc A)) + 1) ^ 2) in
  let* rows := mapM (fun s => mapM (fun p => sector_row t_design width p (map (ent A s) (seq 0 (nc A))))
                                   sector_patterns) (seq 0 (nr A)) in
  Ok (concat rows).
