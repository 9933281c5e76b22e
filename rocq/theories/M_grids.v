(** Model of spaudiopy/grids.py. *)
From Verif Require Import Base M_utils M_sig M_sph0 M_sph.
Open Scope R_scope.

(** np.linspace(0, stop, num, endpoint=False) *)
Definition linspace0 (stop : R) (num : nat) : list R :=
  map (fun i => INR i * (stop / INR num)) (seq 0 num).
(** np.tile(l, k) and np.repeat(l, k) *)
Definition np_tile (l : list R) (k : nat) : list R := concat (repeat l k).
Definition np_repeat (l : list R) (k : nat) : list R := flat_map (fun x => repeat x k) l.

(** grids.py:309-352 equal_angle, n >= 0: (azi, zen, weights) *)
Definition equal_angle (n : nat) : list R * list R * list R :=
  let azi := linspace0 (2 * PI) (2 * n + 2) in
  let d_zen := PI / INR (2 * n + 2) in
  let zen := map (fun t => t + d_zen / 2) (linspace0 PI (2 * n + 2)) in
  let p := map (fun l => INR (2 * l + 1)) (seq 0 (n + 1)) in
  let weights := map (fun theta => 2 * PI / (INR n + 1) * sin theta * lsum (map (fun q => sin (q * theta) / q) p)) zen in
  (np_tile azi (2 * n + 2), np_repeat zen (2 * n + 2),
   map (fun w => w / (INR n + 1)) (np_repeat weights (2 * n + 2))).

(** grids.py:355-392 gauss, n >= 0; np.polynomial.legendre.leggauss is a
    parameter that returns nodes and weights.  arccos outside [-1,1] is NaN and is
    modelled by Coq's acos, the contract of [leggauss] excludes it. *)
Definition gauss (leggauss : nat -> list R * list R) (n : nat) : list R * list R * list R :=
  let azi := linspace0 (2 * PI) (2 * n + 2) in
  let (x, weights) := leggauss (n + 1)%nat in
  let zen := map acos x in
  (np_tile azi (n + 1), np_repeat zen (2 * n + 2),
   map (fun w => w * (PI / (INR n + 1))) (np_repeat weights (2 * n + 2))).

(** grids.py:395-413 equal_polar_angle, n >= 0 *)
Definition equal_polar_angle (n : nat) : list R * list R :=
  let num_mic := (2 * n + 1)%nat in
  (linspace0 (2 * PI) num_mic, repeat (1 / INR num_mic * 1) num_mic).

(** grids.py:22-58 calculate_grid_weights; np.linalg.pinv and np.linalg.cond (of
    Y^T Y, line 48 with sph.py:429-440) are parameters.  The search over orders
    1..99 leaves [order] at None if no condition number is too high; comparing
    None with 0 then raises TypeError.  Warnings are not modelled. *)
Fixpoint search_order (cond : nat -> R) (k : nat) (its : nat) : option nat :=
  match its with
  | O => None
  | S r => if Rltb (2 * (INR k + 1)) (cond k) then Some (k - 1)%nat else search_order cond (S k) r
  end.
Definition check_cond_sht (cond : mat -> R) (N : nat) (azi zen : list R) : res R :=
  let* Y := sh_matrix N azi zen in
  let* YY := matmul (mtr Y) Y in
  Ok (cond YY).
(** the loop stops at the first error; azi and zen fit or do not for every order *)
Definition calculate_grid_weights (pinv : mat -> mat) (cond : mat -> R) (azi zen : list R) (order : option Z) : res (list R) :=
  let* ord := match order with
              | Some o => Ok (Some o)
              | None =>
                  let* _ := check_cond_sht cond 1 azi zen in
                  Ok (option_map Z.of_nat (search_order (fun k => match check_cond_sht cond k azi zen with Ok c => c | Err _ => 0 end) 1 99))
              end in
  match ord with
  | None => Err TypeError
  | Some o =>
      let* _ := assert_ (0 <? o)%Z in
      let* Y := sh_matrix (Z.to_nat o) azi zen in
      let P := pinv Y in
      Ok (map (fun q => sqrt (4 * PI) * ent P 0 q) (seq 0 (nc P)))
  end.

(** * Tables.  The .mat files under data/Grids hold one array per degree; which
    degrees exist is read off the files, the numbers in them are parameters. *)
(** keys N001.. of n_designs_1_124.mat *)
Definition n_design_degrees : list Z :=
  ([1; 2; 3; 5] ++ map Z.of_nat (seq 7 36) ++ map (fun k => 2 * Z.of_nat k) (seq 22 24) ++ [94; 98; 100; 114; 124])%Z.
(** keys lebedev_003.. of lebedevQuadratures_3_131.mat *)
Definition lebedev_degrees : list Z :=
  (map (fun k => 2 * Z.of_nat k + 1) (seq 1 15) ++ map (fun k => 6 * Z.of_nat k + 5) (seq 5 17))%Z.

(** grids.py:61-110 load_t_design; [tab] is the list of the 21 cells *)
Definition load_t_design {A} (tab : list A) (degree : Z) : res A :=
  if (21 <? degree)%Z then Err ValueError
  else if (degree <? 1)%Z then Err ValueError
  else match nth_error tab (Z.to_nat (degree - 1)) with Some v => Ok v | None => Err IndexError end.

(** grids.py:113-156 load_n_design and 159-206 load_lebedev: a missing degree
    recurses with the next one.  [fuel] bounds the recursion of the model; C22
    shows that it is never used up. *)
Fixpoint load_next {A} (fuel : nat) (hi lo : Z) (has : list Z) (tab : Z -> A) (degree : Z) : res A :=
  match fuel with
  | O => Err OutOfFuel
  | S f =>
      if (hi <? degree)%Z then Err ValueError
      else if (degree <? lo)%Z then Err ValueError
      else if existsb (Z.eqb degree) has then Ok (tab degree)
      else load_next f hi lo has tab (degree + 1)
  end.
Definition load_n_design (tab : Z -> list V3) (degree : Z) : res (list V3) :=
  load_next 200 124 1 n_design_degrees tab degree.
(** rows (x, y, z, w) of the table; line 200 scales the weights *)
Definition load_lebedev (tab : Z -> list (V3 * R)) (degree : Z) : res (list V3 * list R) :=
  let* d := load_next 200 131 3 lebedev_degrees tab degree in
  Ok (map fst d, map (fun r => 4 * PI * snd r) d).
(** grids.py:209-256 load_Fliege_Maier_nodes; cell n-1 of 30, the first is empty *)
Definition load_Fliege_Maier_nodes (tab : list (list (V3 * R))) (order : Z) : res (list V3 * list R) :=
  if (30 <? order)%Z then Err ValueError
  else if (order <? 2)%Z then Err ValueError
  else match nth_error tab (Z.to_nat (order - 1)) with
       | Some d => Ok (map fst d, map snd d)
       | None => Err IndexError
       end.
(** grids.py:259-306 load_maxDet; the file is not part of the repository *)
Definition load_maxDet (degree : Z) : res (list V3 * list R) :=
  if (200 <? degree)%Z then Err ValueError
  else if (degree <? 1)%Z then Err ValueError
  else Err FileNotFoundError.
