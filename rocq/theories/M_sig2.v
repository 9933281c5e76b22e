(** Model of spaudiopy/sig.py, part 2: the signal classes in memory.  Arrays are
    objects that view a buffer, signals are objects that hold arrays; so it can be
    told which of them share samples.  Arrays are 1-D float arrays.  fs and signals
    (sig.py:66-67, 152-153) only read; save and play (86-88, 117-121, 211-215) hand the
    samples to io.save_audio (M_io) and to the sound card. *)
From Coq Require Import String.
From Verif Require Import Base M_utils M_sig M_process M_sph0 M_sph M_grids M_decoder M_decoder2 M_decoder3 M_parsa2 M_io.
Open Scope R_scope.

(** * Memory *)
(** an array object: sample i is entry [v_off + v_step * i] of its buffer *)
Record arr : Type := Arr { v_buf : nat; v_off : nat; v_step : nat; v_len : nat }.
(** sig.py:34-46, 124-145, 217-225: instances of MonoSignal (attribute _signal),
    MultiSignal (channels, channel_count) and AmbiBSignal (W, X, Y, Z) *)
Inductive obj : Type :=
  | OMono (s : nat) (fs : Z)
  | OMulti (chs : list nat) (fs : Z) (count : nat)
  | OAmbi (chs : list nat) (fs : Z) (count : nat) (w x y z : nat).
Record mem : Type := Mem { bufs : list (list R); arrs : list arr; objs : list obj }.
(** a call returns or raises, and leaves a memory in either case *)
Definition prog (A : Type) : Type := mem -> res A * mem.
Definition pret {A} (a : A) : prog A := fun m => (Ok a, m).
Definition praise {A} (e : exn) : prog A := fun m => (Err e, m).
Definition pbind {A B} (p : prog A) (f : A -> prog B) : prog B :=
  fun m => match p m with (Ok a, m') => f a m' | (Err e, m') => (Err e, m') end.
Definition plift {A} (r : res A) : prog A := fun m => (r, m).
Notation "'let!' x ':=' p 'in' k" := (pbind p (fun x => k)) (at level 200, x name, p at level 100, k at level 200).
Fixpoint pmap {A B} (f : A -> prog B) (l : list A) : prog (list B) :=
  match l with
  | [] => pret []
  | x :: t => let! y := f x in let! r := pmap f t in pret (y :: r)
  end.

(** a name that does not exist cannot be written in Python; IndexError stands in *)
Definition get_arr (a : nat) : prog arr := fun m => match nth_error (arrs m) a with Some v => (Ok v, m) | None => (Err IndexError, m) end.
Definition get_obj (o : nat) : prog obj := fun m => match nth_error (objs m) o with Some x => (Ok x, m) | None => (Err IndexError, m) end.
Definition set_obj (o : nat) (x : obj) : prog unit := fun m => (Ok tt, Mem (bufs m) (arrs m) (upd (objs m) o x)).
Definition new_obj (x : obj) : prog nat := fun m => (Ok (length (objs m)), Mem (bufs m) (arrs m) (objs m ++ [x])).
Definition new_view (v : arr) : prog nat := fun m => (Ok (length (arrs m)), Mem (bufs m) (arrs m ++ [v]) (objs m)).
Definition new_buf (l : list R) : prog nat := fun m => (Ok (length (bufs m)), Mem (bufs m ++ [l]) (arrs m) (objs m)).
Definition new_arr (l : list R) : prog nat := let! b := new_buf l in new_view (Arr b 0 1 (length l)).
(** the samples of an array *)
Definition view_of (b : list R) (v : arr) : list R := map (fun i => nth (v_off v + v_step v * i) b 0) (seq 0 (v_len v)).
Definition samples (m : mem) (a : nat) : list R :=
  match nth_error (arrs m) a with
  | Some v => view_of (nth (v_buf v) (bufs m) []) v
  | None => []
  end.
Definition read (a : nat) : prog (list R) := let! _ := get_arr a in fun m => (Ok (samples m a), m).
(** [x[i] = v] *)
Definition write (a i : nat) (x : R) : prog unit :=
  let! v := get_arr a in
  if Nat.ltb i (v_len v)
  then fun m => (Ok tt, Mem (upd (bufs m) (v_buf v) (upd (nth (v_buf v) (bufs m) []) (v_off v + v_step v * i) x)) (arrs m) (objs m))
  else praise IndexError.
(** [x[i:j]]: a view *)
Definition sub_view (v : arr) (i j : Z) : arr :=
  let i' := norm_idx (v_len v) i in
  Arr (v_buf v) (v_off v + v_step v * i') (v_step v) (norm_idx (v_len v) j - i').
Definition sub (a : nat) (i j : Z) : prog nat := let! v := get_arr a in new_view (sub_view v i j).
(** rows of a new 2-D array (contiguous), and the columns of one: [n] rows of [c] *)
Definition new_rows (n c : nat) (l : list R) : prog (list nat) :=
  let! b := new_buf l in pmap (fun r => new_view (Arr b (r * c) 1 c)) (seq 0 n).
Definition new_cols (n c : nat) (l : list R) : prog (list nat) :=
  let! b := new_buf l in pmap (fun j => new_view (Arr b j c n)) (seq 0 c).

(** * The classes *)
(** an array_like argument: an array, or a list of numbers *)
Inductive parg : Type := PRef (a : nat) | PLst (l : list R).
(** utils.py:17-30 asarray_1d: np.asarray and np.squeeze return a 1-D array itself,
    but squeezing an array of length 1 and reshaping it makes a new view *)
Definition as_1d (x : parg) : prog nat :=
  match x with
  | PRef a => let! v := get_arr a in if Nat.eqb (v_len v) 1 then new_view v else pret a
  | PLst l => new_arr l
  end.
(** sig.py:37-46 MonoSignal.__init__ *)
Definition mono_new (fs : Z) (x : parg) : prog nat := let! s := as_1d x in new_obj (OMono s fs).
(** sig.py:127-145 MultiSignal.__init__ *)
Definition multi_chs (xs : list parg) (fs : option Z) : prog (list nat * Z) :=
  match fs with
  | None => praise ValueError
  | Some f => let! cs := pmap (mono_new f) xs in pret (cs, f)
  end.
Definition multi_new (xs : list parg) (fs : option Z) : prog nat :=
  let! q := multi_chs xs fs in new_obj (OMulti (fst q) (snd q) (length (fst q))).
(** the array of a channel *)
Definition sig_of (o : nat) : prog nat :=
  let! x := get_obj o in match x with OMono s _ => pret s | _ => praise AttributeError end.
Definition fs_of (o : nat) : prog Z :=
  let! x := get_obj o in pret (match x with OMono _ f => f | OMulti _ f _ => f | OAmbi _ f _ _ _ _ _ => f end).
(** sig.py:219-225 AmbiBSignal.__init__, and the object it leaves *)
Definition ambi_obj (xs : list parg) (fs : option Z) : prog obj :=
  let! q := multi_chs xs fs in
  match fst q with
  | [c0; c1; c2; c3] =>
      let attr c := let! s := sig_of c in as_1d (PRef s) in
      let! w := attr c0 in let! x := attr c1 in let! y := attr c2 in let! z := attr c3 in
      pret (OAmbi (fst q) (snd q) 4 w x y z)
  | _ => praise AssertionError
  end.
Definition ambi_new (xs : list parg) (fs : option Z) : prog nat := let! x := ambi_obj xs fs in new_obj x.
(** sig.py:60-62 the setter; an instance of MultiSignal gets an attribute that no
    method reads *)
Definition set_signal (o : nat) (x : parg) : prog unit :=
  let! s := as_1d x in
  let! ob := get_obj o in
  match ob with OMono _ fs => set_obj o (OMono s fs) | _ => pret tt end.
Definition chs_of (x : obj) : list nat := match x with OMono _ _ => [] | OMulti cs _ _ => cs | OAmbi cs _ _ _ _ _ _ => cs end.
(** sig.py:48-50, 155-157 __len__ *)
Definition len_of (o : nat) : prog nat :=
  let! x := get_obj o in
  match x with
  | OMono s _ => let! v := get_arr s in pret (v_len v)
  | _ => match chs_of x with [] => praise IndexError | c :: _ => let! s := sig_of c in let! v := get_arr s in pret (v_len v) end
  end.
(** one channel: [c.signal = c.signal[int(start * fs): int(stop * fs)]] *)
Definition cut (fs : Z) (start stop : R) (o : nat) : prog unit :=
  let! s := sig_of o in
  let! t := sub s (py_int (start * IZR fs)) (py_int (stop * IZR fs)) in
  set_signal o (PRef t).
(** sig.py:90-97, 181-189 trim *)
Definition trim_obj (o : nat) (start stop : R) (dur : option R) : prog unit :=
  let! n := len_of o in
  let! fs := fs_of o in
  let! _ := plift (assert_ (Rltb start (INR n / IZR fs))) in
  let stop := match dur with Some d => start + d | None => stop end in
  let! x := get_obj o in
  match x with
  | OMono _ fs => cut fs start stop o
  | _ => let! _ := pmap (fun c => let! f := fs_of c in cut f start stop c) (chs_of x) in pret tt
  end.
(** sig.py:103-107, 196-200 conv: a MonoSignal takes one response (asarray_1d refuses
    several), a MultiSignal one per channel up to the shorter of the two lists *)
Definition conv_one (o : nat) (h : parg) : prog unit :=
  let! t := as_1d h in
  let! hv := read t in
  let! s := sig_of o in
  let! x := read s in
  let! r := new_arr (convolve x hv) in
  set_signal o (PRef r).
Fixpoint conv_chs (cs : list nat) (hs : list parg) : prog unit :=
  match cs, hs with
  | c :: cs', h :: hs' => let! _ := conv_one c h in conv_chs cs' hs'
  | _, _ => pret tt
  end.
Definition conv_obj (o : nat) (hs : list parg) : prog unit :=
  let! x := get_obj o in
  match x with
  | OMono _ _ => match hs with [h] => conv_one o h | _ => praise ValueError end
  | _ => conv_chs (chs_of x) hs
  end.
(** sig.py:177-179 get_signals: a new array; channels of different length raise *)
Definition stacked (o : nat) : prog (list (list R)) :=
  let! x := get_obj o in
  let! l := pmap (fun c => let! s := sig_of c in read s) (chs_of x) in
  match l with
  | [] => pret []
  | r :: t => if forallb (fun d => Nat.eqb (length d) (length r)) t then pret l else praise ValueError
  end.
Definition row_len (l : list (list R)) : nat := match l with r :: _ => length r | [] => 0%nat end.
Definition get_signals_obj (o : nat) : prog (list nat) :=
  let! l := stacked o in new_rows (length l) (row_len l) (concat l).
Section Resample.
(** resampy.resample on one signal (process.py:76-95): an oracle.  It may raise. *)
Variable resampler : Z -> Z -> list R -> res (list R).
(** what [self.__init__] does with the resampled rows.  np.squeeze drops the axes of
    length 1: the samples of a single row become channels.  resampy returns one array,
    rows of one length; ValueError stands for a resampler that does not. *)
Definition unpack_rows (rs : list (list R)) : prog (list parg) :=
  match rs with
  | [r] => match r with [_] => praise TypeError | _ => pret (map (fun x => PLst [x]) r) end
  | _ => if negb (forallb (fun r => Nat.eqb (length r) (row_len rs)) rs) then praise ValueError
         else if Nat.eqb (row_len rs) 1 then pret (map PLst rs)
         else let! l := new_rows (length rs) (row_len rs) (concat rs) in pret (map PRef l)
  end.
(** sig.py:109-115, 202-209 resample.  [self.__init__] replaces every attribute; an
    AmbiBSignal has its four channels before and after, so its check cannot fail. *)
Definition resample_obj (o : nat) (fs_new : Z) : prog unit :=
  let! fs := fs_of o in
  if Z.eqb fs_new fs then pret tt else
  let! x := get_obj o in
  match x with
  | OMono s _ =>
      let! v := read s in
      let! r := plift (resampler fs fs_new v) in
      let! t := new_arr r in
      set_obj o (OMono t fs_new)
  | _ =>
      let! l := stacked o in
      match l with
      | [] => praise ValueError
      | _ =>
          let! rs := plift (mapM (resampler fs fs_new) l) in
          let! args := unpack_rows rs in
          match x with
          | OAmbi _ _ _ _ _ _ _ => let! y := ambi_obj args (Some fs_new) in set_obj o y
          | _ => let! q := multi_chs args (Some fs_new) in set_obj o (OMulti (fst q) (snd q) (length (fst q)))
          end
      end
  end.
End Resample.
(** copy.deepcopy: every array and object reached is copied once; [memo] holds what
    has been copied so far.  A copied array has a buffer of its own. *)
Definition memo : Type := list (nat * nat).
Fixpoint seen (k : memo) (a : nat) : option nat :=
  match k with
  | [] => None
  | (x, y) :: t => if Nat.eqb a x then Some y else seen t a
  end.
Definition copy_arr (a : nat) (k : memo) : prog (nat * memo) :=
  match seen k a with
  | Some b => pret (b, k)
  | None => let! v := read a in let! b := new_arr v in pret (b, (a, b) :: k)
  end.
(** channels: the memo of objects [ko], of arrays [ka] *)
Fixpoint copy_chs (cs : list nat) (ko ka : memo) : prog (list nat * memo) :=
  match cs with
  | [] => pret ([], ka)
  | c :: t =>
      match seen ko c with
      | Some d => let! r := copy_chs t ko ka in pret (d :: fst r, snd r)
      | None =>
          let! s := sig_of c in
          let! f := fs_of c in
          let! q := copy_arr s ka in
          let! d := new_obj (OMono (fst q) f) in
          let! r := copy_chs t ((c, d) :: ko) (snd q) in
          pret (d :: fst r, snd r)
      end
  end.
(** sig.py:82-84 copy *)
Definition copy_obj (o : nat) : prog nat :=
  let! x := get_obj o in
  match x with
  | OMono s f => let! q := copy_arr s [] in new_obj (OMono (fst q) f)
  | OMulti cs f n => let! r := copy_chs cs [] [] in new_obj (OMulti (fst r) f n)
  | OAmbi cs f n w y z u =>
      let! r := copy_chs cs [] [] in
      let! qw := copy_arr w (snd r) in let! qx := copy_arr y (snd qw) in
      let! qy := copy_arr z (snd qx) in let! qz := copy_arr u (snd qy) in
      new_obj (OAmbi (fst r) f n (fst qw) (fst qx) (fst qy) (fst qz))
  end.
(** sig.py:376-384 trim_audio: the rate of the signal cuts all channels; [range(count)]
    indexes the channels *)
Definition trim_audio_obj (o : nat) (start stop : R) : prog nat :=
  let! b := copy_obj o in
  let! n := len_of b in
  let! fs := fs_of b in
  let! _ := plift (assert_ (Rltb start (INR n / IZR fs))) in
  let! x := get_obj b in
  match x with
  | OMono _ _ => praise AttributeError
  | OMulti cs _ k | OAmbi cs _ k _ _ _ _ =>
      let! _ := pmap (fun c => cut fs start stop c) (firstn k cs) in
      if Nat.ltb (length cs) k then praise IndexError else pret b
  end.
(** sig.py:232-240 AmbiBSignal.sh_to_b: from a copy; sph.sh_to_b makes a new array *)
Definition rows_mat (l : list (list R)) : mat := Mat (length l) (row_len l) (fun i j => nth j (nth i l []) 0).
Definition flat_mat (B : mat) : list R := flat_map (fun i => map (ent B i) (seq 0 (nc B))) (seq 0 (nr B)).
Definition sh_to_b_obj (o : nat) : prog nat :=
  let! x := get_obj o in
  match x with
  | OMono _ _ => praise AssertionError
  | _ =>
      let! c := copy_obj o in
      let! l := stacked c in
      let! B := plift (sh_to_b (rows_mat l) None) in
      let! rows := new_rows (nr B) (nc B) (flat_mat B) in
      let! fs := fs_of o in
      ambi_new (map PRef rows) (Some fs)
  end.

(** * Files *)
(** sig.py:69-80, 163-174, 227-230 from_file.  sf.read returns an array of frames and
    channels; a signal with several channels views its columns. *)
Definition file_rate (fs : option Z) (found : Z) : res Z :=
  match fs with Some f => if Z.eqb f found then Ok f else Err ValueError | None => Ok found end.
Inductive sigclass : Type := CMono | CMulti | CAmbi.
Definition from_file (y : system) (d : disk) (k : sigclass) (name : string) (fs : option Z) : prog nat :=
  let! q := plift (sf_read d (expanduser y name)) in
  let! f := plift (file_rate fs (snd q)) in
  match k, fst q with
  | CMono, D1 x => let! a := new_arr x in mono_new f (PRef a)
  | CMono, D2 _ => praise ValueError
  | _, D1 _ => praise ValueError
  | CMulti, D2 B => let! l := new_cols (nr B) (nc B) (flat_mat B) in multi_new (map PRef l) (Some f)
  | CAmbi, D2 B => let! l := new_cols (nr B) (nc B) (flat_mat B) in ambi_new (map PRef l) (Some f)
  end.

(** * What a caller can do *)
Inductive call : Type :=
  | KArray (l : list R)                                   (* x = np.array(l) *)
  | KWrite (a i : nat) (x : R)                            (* a[i] = x *)
  | KView (a : nat) (i j : Z)                             (* a[i:j] *)
  | KItem (o : nat) (i j : Z)                             (* sig.py:53-55  o[i:j] of a MonoSignal *)
  | KMono (fs : Z) (x : parg) | KMulti (xs : list parg) (fs : option Z) | KAmbi (xs : list parg) (fs : option Z)
  | KSet (o : nat) (x : parg)
  | KTrim (o : nat) (start stop : R) (dur : option R)
  | KConv (o : nat) (hs : list parg)
  | KResample (o : nat) (fs_new : Z)
  | KCopy (o : nat)
  | KTrimAudio (o : nat) (start stop : R)
  | KSignals (o : nat)
  | KShToB (o : nat)
  | KFile (k : sigclass) (name : string) (fs : option Z).
Definition quiet {A} (p : prog A) : prog unit := let! _ := p in pret tt.
(** one call, in a world with the given resampler and files *)
Definition perform (resampler : Z -> Z -> list R -> res (list R)) (y : system) (d : disk) (c : call) : prog unit :=
  match c with
  | KArray l => quiet (new_arr l)
  | KWrite a i x => write a i x
  | KView a i j => quiet (sub a i j)
  | KItem o i j => quiet (let! s := sig_of o in sub s i j)
  | KMono fs x => quiet (mono_new fs x)
  | KMulti xs fs => quiet (multi_new xs fs)
  | KAmbi xs fs => quiet (ambi_new xs fs)
  | KSet o x => set_signal o x
  | KTrim o a b t => trim_obj o a b t
  | KConv o hs => conv_obj o hs
  | KResample o f => resample_obj resampler o f
  | KCopy o => quiet (copy_obj o)
  | KTrimAudio o a b => quiet (trim_audio_obj o a b)
  | KSignals o => quiet (get_signals_obj o)
  | KShToB o => quiet (sh_to_b_obj o)
  | KFile k n fs => quiet (from_file y d k n fs)
  end.
