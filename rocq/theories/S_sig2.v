(** Specification vocabulary for sharing and independence of signals in memory. *)
From Coq Require Import String.
From Verif Require Import Base M_utils M_sig M_process M_sph0 M_sph M_grids M_decoder M_decoder2 M_decoder3 M_parsa2 M_io M_sig2.
Open Scope R_scope.

(** what an object says: its channels' samples and rates, W, X, Y, Z *)
Inductive sigval : Type := SvMono (x : mono) | SvMulti (x : multi) | SvAmbi (x : ambib).
Definition channel_at (m : mem) (c : nat) : mono :=
  match nth_error (objs m) c with Some (OMono s f) => Mono (samples m s) f | _ => Mono [] 0 end.
Definition value (m : mem) (o : nat) : option sigval :=
  match nth_error (objs m) o with
  | Some (OMono s f) => Some (SvMono (Mono (samples m s) f))
  | Some (OMulti cs f n) => Some (SvMulti (Multi (map (channel_at m) cs) f n))
  | Some (OAmbi cs f n w x y z) =>
      Some (SvAmbi (AmbiB (Multi (map (channel_at m) cs) f n) (samples m w) (samples m x) (samples m y) (samples m z)))
  | None => None
  end.

(** the arrays and objects an object holds *)
Definition held_arrs (x : obj) : list nat := match x with OMono s _ => [s] | OMulti _ _ _ => [] | OAmbi _ _ _ w x y z => [w; x; y; z] end.
Definition held_objs (x : obj) : list nat := match x with OMono _ _ => [] | OMulti cs _ _ => cs | OAmbi cs _ _ _ _ _ _ => cs end.
Definition is_mono (m : mem) (c : nat) : Prop := exists s f, nth_error (objs m) c = Some (OMono s f).
(** a memory Python can be in: nothing dangles, views lie within their buffer,
    channels are different MonoSignals *)
Definition sound (m : mem) : Prop :=
  (forall a v, nth_error (arrs m) a = Some v -> (v_buf v < length (bufs m))%nat /\ (0 < v_step v)%nat /\
     forall i, (i < v_len v)%nat -> (v_off v + v_step v * i < length (nth (v_buf v) (bufs m) []))%nat) /\
  (forall o x, nth_error (objs m) o = Some x ->
     (forall a, In a (held_arrs x) -> (a < length (arrs m))%nat) /\ (forall c, In c (held_objs x) -> is_mono m c) /\ NoDup (held_objs x)).

(** Two callers, [false] and [true]: who has which buffer, array and object. *)
Record sides : Type := Sides { sb : nat -> bool; sa : nat -> bool; so : nat -> bool }.
(** nothing of one caller leads to anything of the other *)
Definition apart (L : sides) (m : mem) : Prop :=
  (forall a v, nth_error (arrs m) a = Some v -> (v_buf v < length (bufs m))%nat /\ sb L (v_buf v) = sa L a) /\
  (forall o x, nth_error (objs m) o = Some x ->
     (forall a, In a (held_arrs x) -> (a < length (arrs m))%nat /\ sa L a = so L o) /\
     (forall c, In c (held_objs x) -> (c < length (objs m))%nat /\ so L c = so L o)).
(** what does not exist yet will be [s]'s *)
Definition later {A} (l : list A) (s : bool) (f : nat -> bool) (i : nat) : bool := if Nat.ltb i (length l) then f i else s.
Definition given (m : mem) (s : bool) (L : sides) : sides :=
  Sides (later (bufs m) s (sb L)) (later (arrs m) s (sa L)) (later (objs m) s (so L)).
(** the names a call mentions *)
Definition parg_arrs (x : parg) : list nat := match x with PRef a => [a] | PLst _ => [] end.
Definition call_arrs (c : call) : list nat :=
  match c with
  | KWrite a _ _ | KView a _ _ => [a]
  | KMono _ x | KSet _ x => parg_arrs x
  | KMulti xs _ | KAmbi xs _ | KConv _ xs => flat_map parg_arrs xs
  | _ => []
  end.
Definition call_objs (c : call) : list nat :=
  match c with
  | KItem o _ _ | KSet o _ | KTrim o _ _ _ | KConv o _ | KResample o _ | KCopy o | KTrimAudio o _ _ | KSignals o | KShToB o => [o]
  | _ => []
  end.
(** a caller uses what is theirs *)
Definition uses (L : sides) (m : mem) (s : bool) (c : call) : Prop :=
  (forall a, In a (call_arrs c) -> (a < length (arrs m))%nat /\ sa L a = s) /\
  (forall o, In o (call_objs c) -> (o < length (objs m))%nat /\ so L o = s).

(** every history of calls of the two callers, in any order; a call that raises
    leaves what it has done so far *)
Inductive history (rs : Z -> Z -> list R -> res (list R)) (y : system) (d : disk) : sides -> mem -> list (bool * call) -> sides -> mem -> Prop :=
  | history_start L m : history rs y d L m [] L m
  | history_call L m s c h L' m' : uses L m s c ->
      history rs y d (given m s L) (snd (perform rs y d c m)) h L' m' -> history rs y d L m ((s, c) :: h) L' m'.
(** after a copy: what there was is [false]'s, what the copy made is [true]'s *)
Definition old_new (m : mem) : sides := given m true (Sides (fun _ => false) (fun _ => false) (fun _ => false)).
(** two arrays have a sample in common *)
Definition share (m : mem) (a b : nat) : Prop :=
  exists v w i j, nth_error (arrs m) a = Some v /\ nth_error (arrs m) b = Some w /\ (i < v_len v)%nat /\ (j < v_len w)%nat /\
    v_buf v = v_buf w /\ (v_off v + v_step v * i = v_off w + v_step w * j)%nat.
(** the arrays of an object: those of its channels, then W, X, Y, Z *)
Definition arrays_of (m : mem) (o : nat) : list nat :=
  match nth_error (objs m) o with
  | Some x => flat_map (fun c => match nth_error (objs m) c with Some y => held_arrs y | None => [] end) (held_objs x) ++ held_arrs x
  | None => []
  end.
(** in two lists of arrays the same positions hold one and the same array *)
Definition same_sharing (l l' : list nat) : Prop := length l = length l' /\ forall i j, (i < length l)%nat -> (j < length l)%nat -> (nth i l 0%nat = nth j l 0%nat <-> nth i l' 0%nat = nth j l' 0%nat).

(** the samples of an argument *)
Definition parg_val (m : mem) (x : parg) : list R := match x with PRef a => samples m a | PLst l => l end.
(** a method of a signal, on values (sig.py:90-115, 181-209) *)
Definition val_step (rs : Z -> Z -> list R -> res (list R)) (v : sigval) (o : mop) : res sigval :=
  match v with
  | SvMono x =>
      let* x' := match o with
                 | OpTrim a b t => mono_trim x a b t
                 | OpConv [h] => mono_conv x h
                 | OpConv _ => Err ValueError
                 | OpResample f => mono_resample rs x f
                 end in Ok (SvMono x')
  | SvMulti x => let* x' := multi_step rs x o in Ok (SvMulti x')
  | SvAmbi x => let* x' := ambib_step rs x o in Ok (SvAmbi x')
  end.
(** the method a call calls on [o], its arguments as values *)
Definition method_on (m : mem) (o : nat) (c : call) : option mop :=
  match c with
  | KTrim p a b t => if Nat.eqb p o then Some (OpTrim a b t) else None
  | KConv p hs => if Nat.eqb p o then Some (OpConv (map (fun h => arr1 (parg_val m h)) hs)) else None
  | KResample p f => if Nat.eqb p o then Some (OpResample f) else None
  | _ => None
  end.
(** every name in a call exists *)
Definition exists_in (m : mem) (c : call) : Prop :=
  (forall a, In a (call_arrs c) -> (a < length (arrs m))%nat) /\ (forall o, In o (call_objs c) -> (o < length (objs m))%nat).
(** the memory a program starts with *)
Definition no_mem : mem := Mem [] [] [].
(** a call writes samples *)
Definition is_write (c : call) : bool := match c with KWrite _ _ _ => true | _ => false end.
(** several method calls on one object, each as a method on values *)
Fixpoint methods_on (m : mem) (o : nat) (cs : list call) : option (list mop) :=
  match cs with
  | [] => Some []
  | c :: t => match method_on m o c, methods_on m o t with Some x, Some l => Some (x :: l) | _, _ => None end
  end.
Fixpoint perform_all (rs : Z -> Z -> list R -> res (list R)) (y : system) (d : disk) (cs : list call) : prog unit :=
  match cs with
  | [] => pret tt
  | c :: t => let! _ := perform rs y d c in perform_all rs y d t
  end.
