(** Specification of sets of HRIRs in memory. *)
From Verif Require Import Base M_utils M_sig M_process2 M_hmem.
Open Scope R_scope.

Definition mat_at (m : hmem) (a : nat) : arr2 R := nth a (mats m) (Arr2 [] 0).
Definition vec_at (m : hmem) (a : nat) : list R := nth a (vecs m) [].
(** the values a reader of set [o] finds *)
Definition content (m : hmem) (o : nat) : option hrirs :=
  match nth_error (sets m) o with
  | Some s => Some (Hrirs (rows (mat_at m (s_left s))) (rows (mat_at m (s_right s))) (vec_at m (s_azi s)) (vec_at m (s_zen s)) (s_fs s) (s_grid s) (s_taps s))
  | None => None
  end.
(** memories that a program can produce *)
Definition reached (m : hmem) : Prop := exists cs, m = hrun hempty cs.
Definition holds2 (m : hmem) (o a : nat) : Prop := exists s, nth_error (sets m) o = Some s /\ (s_left s = a \/ s_right s = a).
Definition holds1 (m : hmem) (o a : nat) : Prop := exists s, nth_error (sets m) o = Some s /\ (s_azi s = a \/ s_zen s = a).
(** no other set holds an array of [o] *)
Definition alone (m : hmem) (o : nat) : Prop :=
  forall p a, p <> o -> ~ (holds2 m o a /\ holds2 m p a) /\ ~ (holds1 m o a /\ holds1 m p a).
(** command [c] neither changes set [o] nor writes into one of its arrays *)
Definition spares (m : hmem) (c : hcmd) (o : nat) : Prop :=
  match c with
  | HUpdate p _ _ => p <> o
  | HEq p _ _ => p <> o
  | HPut2 a _ _ _ => ~ holds2 m o a
  | HPut1 a _ _ => ~ holds1 m o a
  | HRow p e _ _ _ => forall s, nth_error (sets m) p = Some s -> ~ holds2 m o (if e then s_right s else s_left s)
  | _ => True
  end.
Fixpoint all_spare (m : hmem) (cs : list hcmd) (o : nat) : Prop :=
  match cs with [] => True | c :: t => spares m c o /\ all_spare (snd (hstep c m)) t o end.
(** command [c] does not name an array that set [o] holds in [m], nor [o] in order to change it *)
Definition not_vec (m : hmem) (o : nat) (x : varg) : Prop := match x with VRef a => ~ holds1 m o a | VLst _ => True end.
Definition foreign (m : hmem) (o : nat) (c : hcmd) : Prop :=
  match c with
  | HInit l r a z _ => ~ holds2 m o l /\ ~ holds2 m o r /\ not_vec m o a /\ not_vec m o z
  | HUpdate p l r => p <> o /\ ~ holds2 m o l /\ ~ holds2 m o r
  | HEq p _ _ => p <> o
  | HPut2 a _ _ _ => ~ holds2 m o a
  | HPut1 a _ _ => ~ holds1 m o a
  | HRow p _ _ _ _ => p <> o
  | _ => True
  end.
(** command [c] writes at most through set [o] or into its arrays, and hands out none of them *)
Definition keeps_to (m : hmem) (o : nat) (c : hcmd) : Prop :=
  match c with
  | HInit _ _ _ _ _ => False
  | HUpdate _ _ _ => False
  | HEq p _ _ => p = o
  | HPut2 a _ _ _ => holds2 m o a
  | HPut1 a _ _ => holds1 m o a
  | HRow p _ _ _ _ => p = o
  | _ => True
  end.
Fixpoint all_keep_to (m : hmem) (cs : list hcmd) (o : nat) : Prop :=
  match cs with [] => True | c :: t => keeps_to m o c /\ all_keep_to (snd (hstep c m)) t o end.
(** the two ears given to a set have equally many taps *)
Definition same_taps (m : hmem) (c : hcmd) : Prop :=
  match c with
  | HInit l r _ _ _ => cols (mat_at m l) = cols (mat_at m r)
  | HUpdate _ l r => cols (mat_at m l) = cols (mat_at m r)
  | _ => True
  end.
Fixpoint all_same (m : hmem) (cs : list hcmd) : Prop :=
  match cs with [] => True | c :: t => same_taps m c /\ all_same (snd (hstep c m)) t end.
(** the number of responses is that of the directions *)
Definition matches (h : hrirs) : Prop :=
  length (h_left h) = num_grid_points h /\ length (h_right h) = num_grid_points h /\ length (h_azi h) = num_grid_points h /\ length (h_zen h) = num_grid_points h.
(** every response has the number of samples that the set states *)
Definition sized (h : hrirs) : Prop := forall x, In x (h_left h) \/ In x (h_right h) -> length x = h_taps h.
(** [y] is [x] with entry (i, j) replaced *)
Definition poked (x : list (list R)) (i j : nat) (v : R) (y : list (list R)) : Prop :=
  length y = length x /\ (forall k, length (nth k y []) = length (nth k x [])) /\
  forall k n, nth n (nth k y []) 0 = if Nat.eqb k i && Nat.eqb n j then v else nth n (nth k x []) 0.
(** array [a] is (the left or right) array of the ear *)
Definition ear_array (m : hmem) (o : nat) (right : bool) (a : nat) : Prop :=
  exists s, nth_error (sets m) o = Some s /\ (if right then s_right s else s_left s) = a.
Definition ear_of (h : hrirs) (right : bool) : list (list R) := if right then h_right h else h_left h.
