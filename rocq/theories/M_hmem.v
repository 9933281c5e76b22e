(** Model of spaudiopy/sig.py, part 3: sets of HRIRs in memory.  A set holds references
    to arrays, so it can be told who sees a change of a response.  The caller's arrays are
    float arrays, each with its own memory; that an array may be a view of part of another
    is left out, but for the rows h[k] and the arrays that asarray_1d returns. *)
From Verif Require Import Base M_utils M_sig M_process M_sph0 M_sph M_grids M_decoder M_decoder2 M_decoder3 M_parsa3 M_decoder4 M_process2 M_misc.
Open Scope R_scope.

(** * Memory *)
(** sig.py:262-275: the attributes of an instance *)
Record hset : Type := HSet { s_left : nat; s_right : nat; s_azi : nat; s_zen : nat; s_fs : Z; s_grid : nat; s_taps : nat }.
(** 2-D arrays, 1-D arrays and instances, in the order in which they were made *)
Record hmem : Type := HMem { mats : list (arr2 R); vecs : list (list R); sets : list hset }.
(** a call returns or raises, and leaves a memory in either case *)
Definition hprog (A : Type) : Type := hmem -> res A * hmem.
Definition hret {A} (a : A) : hprog A := fun m => (Ok a, m).
Definition hlift {A} (r : res A) : hprog A := fun m => (r, m).
Definition hbind {A B} (p : hprog A) (f : A -> hprog B) : hprog B :=
  fun m => match p m with (Ok a, m') => f a m' | (Err e, m') => (Err e, m') end.
Notation "'let$' x ':=' p 'in' k" := (hbind p (fun x => k)) (at level 200, x name, p at level 100, k at level 200).
(** a name that does not exist cannot be written in Python; IndexError stands in *)
Definition get_mat (a : nat) : hprog (arr2 R) := fun m => match nth_error (mats m) a with Some x => (Ok x, m) | None => (Err IndexError, m) end.
Definition get_vec (a : nat) : hprog (list R) := fun m => match nth_error (vecs m) a with Some x => (Ok x, m) | None => (Err IndexError, m) end.
Definition get_set (o : nat) : hprog hset := fun m => match nth_error (sets m) o with Some x => (Ok x, m) | None => (Err IndexError, m) end.
Definition new_mat (x : arr2 R) : hprog nat := fun m => (Ok (length (mats m)), HMem (mats m ++ [x]) (vecs m) (sets m)).
Definition new_vec (x : list R) : hprog nat := fun m => (Ok (length (vecs m)), HMem (mats m) (vecs m ++ [x]) (sets m)).
Definition new_set (x : hset) : hprog nat := fun m => (Ok (length (sets m)), HMem (mats m) (vecs m) (sets m ++ [x])).
Definition put_set (o : nat) (x : hset) : hprog unit := fun m => (Ok tt, HMem (mats m) (vecs m) (upd (sets m) o x)).
(** [x[i, j] = v], [x[i] = v] *)
Definition put_mat (a i j : nat) (v : R) : hprog unit :=
  let$ x := get_mat a in
  if Nat.ltb i (length (rows x)) && Nat.ltb j (cols x)
  then fun m => (Ok tt, HMem (upd (mats m) a (Arr2 (upd (rows x) i (upd (nth i (rows x) []) j v)) (cols x))) (vecs m) (sets m))
  else hlift (Err IndexError).
Definition put_vec (a i : nat) (v : R) : hprog unit :=
  let$ x := get_vec a in
  if Nat.ltb i (length x) then fun m => (Ok tt, HMem (mats m) (upd (vecs m) a (upd x i v)) (sets m)) else hlift (Err IndexError).

(** * The class *)
(** an array_like argument: an array, or a list of numbers *)
Inductive varg : Type := VRef (a : nat) | VLst (l : list R).
(** utils.py:17-30 asarray_1d: a 1-D array itself (or another view of the same memory, for
    length 1), a new array for a list *)
Definition vec_1d (x : varg) : hprog nat :=
  match x with
  | VRef a => let$ _ := get_vec a in hret a
  | VLst l => new_vec l
  end.
(** sig.py:246-275 __init__: np.asarray returns the arrays themselves *)
Definition init_set (l r : nat) (a z : varg) (fs : Z) : hprog hset :=
  let$ ml := get_mat l in
  let$ mr := get_mat r in
  let$ _ := hlift (assert_ (Nat.eqb (length (rows ml)) (length (rows mr)))) in
  let$ la := vec_1d a in
  let$ lz := vec_1d z in
  let$ va := get_vec la in
  let$ vz := get_vec lz in
  let$ _ := hlift (assert_ (Nat.eqb (length va) (length vz))) in
  let$ _ := hlift (assert_ (Nat.eqb (length va) (length (rows ml)))) in
  hret (HSet l r la lz fs (length va) (cols ml)).
(** sig.py:285-287 copy: deepcopy copies every array object once, so the ears of a set made
    of one array share the copy.  So do azi and zen, but for length 1: asarray_1d has made
    two views. *)
Definition copy_set (o : nat) : hprog nat :=
  let$ s := get_set o in
  let$ ml := get_mat (s_left s) in
  let$ l := new_mat ml in
  let$ r := (if Nat.eqb (s_right s) (s_left s) then hret l else let$ mr := get_mat (s_right s) in new_mat mr) in
  let$ va := get_vec (s_azi s) in
  let$ a := new_vec va in
  let$ z := (if Nat.eqb (s_zen s) (s_azi s) && negb (Nat.eqb (length va) 1) then hret a else let$ vz := get_vec (s_zen s) in new_vec vz) in
  new_set (HSet l r a z (s_fs s) (s_grid s) (s_taps s)).
(** sig.py:289-305 update_hrirs *)
Definition update_set (o l r : nat) : hprog unit :=
  let$ s := get_set o in
  let$ t := init_set l r (VRef (s_azi s)) (VRef (s_zen s)) (s_fs s) in
  put_set o t.
(** sig.py:353-373 apply_ctf_eq with given taps: new arrays, the left one assigned before
    the right one is computed.  For an empty operand IndexError stands in at once (C86);
    what the code leaves in the set in that case is not modelled. *)
Definition conv_mat (x : arr2 R) (eq : list R) (mode : cmode) : res (arr2 R) :=
  let* l := conv_rows (rows x) (cols x) eq mode in Ok (Arr2 l (length (nth 0 l []))).
Definition eq_set (o taps : nat) (mode : cmode) : hprog unit :=
  let$ s := get_set o in
  let$ eq := get_vec taps in
  let$ ml := get_mat (s_left s) in
  let$ x := hlift (conv_mat ml eq mode) in
  let$ l := new_mat x in
  let$ _ := put_set o (HSet l (s_right s) (s_azi s) (s_zen s) (s_fs s) (s_grid s) (s_taps s)) in
  let$ mr := get_mat (s_right s) in
  let$ y := hlift (conv_mat mr eq mode) in
  let$ r := new_mat y in
  put_set o (HSet l r (s_azi s) (s_zen s) (s_fs s) (s_grid s) (cols x)).
(** sig.py:281-283 [h[k][ear][j] = v]: both rows are looked up, as views *)
Definition row_at (x : arr2 R) (k : Z) : res nat := index (seq 0 (length (rows x))) k.
Definition put_row (o : nat) (right : bool) (k : Z) (j : nat) (v : R) : hprog unit :=
  let$ s := get_set o in
  let$ ml := get_mat (s_left s) in
  let$ mr := get_mat (s_right s) in
  let$ i := hlift (row_at ml k) in
  let$ i' := hlift (row_at mr k) in
  if right then put_mat (s_right s) i' j v else put_mat (s_left s) i j v.
(** sig.py:308-329 nearest_hrirs: nearest_idx returns a 0-d array, and indexing with one
    copies the row *)
Definition nearest_set (o : nat) (azi zen : R) : hprog (nat * nat) :=
  let$ s := get_set o in
  let$ ml := get_mat (s_left s) in
  let$ mr := get_mat (s_right s) in
  let$ va := get_vec (s_azi s) in
  let$ vz := get_vec (s_zen s) in
  let$ q := hlift (nearest_hrirs (Hrirs (rows ml) (rows mr) va vz (s_fs s) (s_grid s) (s_taps s)) azi zen) in
  let$ a := new_vec (fst q) in
  let$ b := new_vec (snd q) in
  hret (a, b).

(** * What a program does with sets *)
Inductive hcmd : Type :=
  | HArr2 (x : arr2 R)                            (* a new 2-D array *)
  | HArr1 (l : list R)
  | HInit (l r : nat) (a z : varg) (fs : Z)       (* HRIRs(l, r, a, z, fs) *)
  | HCopy (o : nat)
  | HUpdate (o l r : nat)
  | HEq (o taps : nat) (mode : cmode)
  | HPut2 (a i j : nat) (v : R)                   (* a[i, j] = v *)
  | HPut1 (a i : nat) (v : R)
  | HRow (o : nat) (right : bool) (k : Z) (j : nat) (v : R)    (* o[k][right][j] = v *)
  | HNear (o : nat) (azi zen : R).
(** the new array or set, if there is one; numpy's arrays are rectangular *)
Definition hstep (c : hcmd) : hprog (list nat) :=
  match c with
  | HArr2 x => if forallb (fun r => Nat.eqb (length r) (cols x)) (rows x) then let$ a := new_mat x in hret [a] else hlift (Err ValueError)
  | HArr1 l => let$ a := new_vec l in hret [a]
  | HInit l r a z fs => let$ s := init_set l r a z fs in let$ o := new_set s in hret [o]
  | HCopy o => let$ q := copy_set o in hret [q]
  | HUpdate o l r => let$ _ := update_set o l r in hret []
  | HEq o t mode => let$ _ := eq_set o t mode in hret []
  | HPut2 a i j v => let$ _ := put_mat a i j v in hret []
  | HPut1 a i v => let$ _ := put_vec a i v in hret []
  | HRow o e k j v => let$ _ := put_row o e k j v in hret []
  | HNear o azi zen => let$ q := nearest_set o azi zen in hret [fst q; snd q]
  end.
(** a program goes on after an exception *)
Definition hrun (m : hmem) (cs : list hcmd) : hmem := fold_left (fun m c => snd (hstep c m)) cs m.
Definition hempty : hmem := HMem [] [] [].
