(** Model of /repo/spaudiopy/sph.py, part 2: scattering on a sphere (lines 791-951).
    Arrays of wave numbers are real (float).  scipy.special.spherical_jn and
    spherical_yn are the functions themselves, by their upward recurrence. *)
From Verif Require Import Base M_utils M_sig M_process M_sph.
Open Scope R_scope.

(** f_0, f_1 and f_{n+1} = (2n+1)/z f_n - f_{n-1}: the pair (f_n, f_{n+1}) *)
Fixpoint bessel_pair (f0 f1 : R -> R) (n : nat) (z : R) : R * R :=
  match n with
  | O => (f0 z, f1 z)
  | S m => let (a, b) := bessel_pair f0 f1 m z in (b, INR (2 * m + 3) / z * b - a)
  end.
Definition bessel (f0 f1 : R -> R) (n : nat) (z : R) : R := fst (bessel_pair f0 f1 n z).
Definition j0 (z : R) : R := sin z / z.
Definition j1 (z : R) : R := sin z / z ^ 2 - cos z / z.
Definition y0 (z : R) : R := - cos z / z.
Definition y1 (z : R) : R := - cos z / z ^ 2 - sin z / z.
(** f_n' = n/z f_n - f_{n+1} *)
Definition bessel_d (f0 f1 : R -> R) (n : nat) (z : R) : R := INR n / z * bessel f0 f1 n z - bessel f0 f1 (S n) z.
(** scipy.special.spherical_jn(n, z, derivative) *)
Definition spherical_jn (n : nat) (z : R) (derivative : bool) : R :=
  if Reqb z 0 then
    if derivative then (if Nat.eqb n 1 then 1 / 3 else 0) else (if Nat.eqb n 0 then 1 else 0)
  else if derivative then bessel_d j0 j1 n z else bessel j0 j1 n z.
(** scipy.special.spherical_yn(n, z, derivative); [None]: infinite or NaN *)
Definition spherical_yn (n : nat) (z : R) (derivative : bool) : option R :=
  if Reqb z 0 then None
  else Some (if derivative then bessel_d y0 y1 n z else bessel y0 y1 n z).
(** sph.py:791-815 spherical_hn2.  1j times an infinity has a NaN part. *)
Definition spherical_hn2 (n : nat) (z : R) (derivative : bool) : option C2 :=
  match spherical_yn n z derivative with
  | None => None
  | Some y => Some (spherical_jn n z derivative, - y)
  end.

(** complex division; [None]: NaN *)
Definition cdiv (a b : C2) : option C2 :=
  let d := fst b ^ 2 + snd b ^ 2 in
  if Reqb d 0 then None
  else Some ((fst a * fst b + snd a * snd b) / d, (snd a * fst b - fst a * snd b) / d).
(** 1j**n *)
Fixpoint ipow (n : nat) : C2 := match n with O => (1, 0) | S m => cmul (0, 1) (ipow m) end.
Inductive sphere : Set := Rigid | Open | OtherSphere.
(** sph.py:818-848 mode_strength at one kr; [None]: NaN *)
Definition mode_strength (n : nat) (kr : R) (t : sphere) : res (option C2) :=
  match t with
  | Open => Ok (Some (cmul (cscal (4 * PI) (ipow n)) (spherical_jn n kr false, 0)))
  | Rigid =>
      Ok (match spherical_hn2 n kr true, spherical_hn2 n kr false with
          | Some hd, Some h =>
              match cdiv (spherical_jn n kr true, 0) hd with
              | Some q => Some (cmul (cscal (4 * PI) (ipow n)) (cadd (spherical_jn n kr false, 0) (cscal (-1) (cmul q h))))
              | None => None
              end
          | _, _ => None
          end)
  | OtherSphere => Err ValueError
  end.

(** np.abs(z)**2 *)
Definition cabs2 (z : C2) : R := sqrt (fst z ^ 2 + snd z ^ 2) ^ 2.
(** np.sqrt; [None]: NaN *)
Definition np_sqrt (x : R) : option R := if Rltb x 0 then None else Some (sqrt x).
(** sph.py:879-880: one kr and one order.  [None]: NaN *)
Definition add_mode (w : R) (n : nat) (p : option R) (b : option C2) : option R :=
  match p, b with Some p, Some b => Some (p + w * INR (2 * n + 1) * cabs2 b) | _, _ => None end.
(** sph.py:879-880: the loop over the orders, for the whole array kr *)
Fixpoint pressure_loop (kr weights : list R) (ns : list nat) (p : list (option R)) : res (list (option R)) :=
  match ns with
  | [] => Ok p
  | n :: t =>
      let* w := index weights (Z.of_nat n) in
      let* b := mapM (fun k => mode_strength n k Rigid) kr in
      pressure_loop kr weights t (map (fun x => add_mode w n (fst x) (snd x)) (combine p b))
  end.
(** sph.py:851-881 pressure_on_sphere; [range] and [np.ones] take any integer *)
Definition pressure_on_sphere (N_sph : Z) (kr : list R) (weights : option (list R)) : res (list (option R)) :=
  let* w := match weights with
            | Some w => Ok w
            | None => if (N_sph + 1 <? 0)%Z then Err ValueError else Ok (repeat 1 (Z.to_nat (N_sph + 1)))
            end in
  let* p := pressure_loop kr w (seq 0 (Z.to_nat (N_sph + 1))) (map (fun _ => Some 0) kr) in
  Ok (map (fun p => obind p (fun p => obind (np_sqrt p) (fun s => Some (1 / (4 * PI) * s)))) p).

(** a float that is infinite or a number *)
Inductive flt : Type := Num (x : R) | Infinite.
(** one element of the quotient with lines 950: NaN becomes 1 *)
Definition safe_ratio (p q : option R) : flt :=
  match p, q with
  | Some a, Some b => if Reqb b 0 then (if Reqb a 0 then Num 1 else Infinite) else Num (a / b)
  | _, _ => Num 1
  end.
(** sph.py:884-951 binaural_coloration_compensation *)
Definition binaural_coloration_compensation (N_sph : nat) (f : list R) (r_0 : R) (w_taper : option (list R)) : res (list flt) :=
  let kr := map (fun x => 2 * PI * x / 343 * r_0) f in
  let* top := index kr (-1) in
  let N_full := zceil top in
  let* p := pressure_on_sphere N_full kr None in
  let* q := pressure_on_sphere (Z.of_nat N_sph) kr w_taper in
  Ok (map (fun x => safe_ratio (fst x) (snd x)) (combine p q)).
