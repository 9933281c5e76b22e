(** Model of /repo/spaudiopy/sig.py.
    Objects are records, methods map the old object to the new one (or to an
    exception).  File access, playback and printing of warnings are left out.
    Signals are 1-D float arrays: lists of reals. *)
From Verif Require Import Base M_utils.
Open Scope R_scope.

(** Python's [int()] on a float: truncation towards zero *)
Definition py_int (x : R) : Z :=
  if Rleb 0 x then Int_part x else (- Int_part (- x))%Z.

(** np.argmax on a 1-D array: index of the first maximum; ValueError if empty *)
Fixpoint argmax_from (best : R) (ibest i : nat) (l : list R) : nat :=
  match l with
  | [] => ibest
  | x :: t => if Rltb best x then argmax_from x i (S i) t else argmax_from best ibest (S i) t
  end.
Definition argmax (l : list R) : res nat :=
  match l with [] => Err ValueError | x :: t => Ok (argmax_from x 0 1 t) end.

(** scipy.signal.convolve(a, h), mode 'full' (exact sums; scipy may use an FFT).
    An empty operand gives an empty result. *)
Definition conv_at (a h : list R) (n : nat) : R :=
  rsum (S n) (fun i => nth i a 0 * nth (n - i) h 0).
Definition convolve (a h : list R) : list R :=
  match a, h with
  | [], _ => []
  | _, [] => []
  | _, _ => map (conv_at a h) (seq 0 (length a + length h - 1))
  end.

(** sig.py:34-46 class MonoSignal, __init__ *)
Record mono : Type := Mono { m_sig : list R; m_fs : Z }.
Definition arr1 (l : list R) : nd R := Nd [length l] l.
Definition mono_init (a : nd R) (fs : Z) : res mono :=
  let* s := asarray_1d a in Ok (Mono (data s) fs).
(** sig.py:48-50 __len__ *)
Definition mono_len (m : mono) : nat := length (m_sig m).
(** sig.py:60-62 signal.setter *)
Definition mono_set (m : mono) (v : nd R) : res mono :=
  let* s := asarray_1d v in Ok (Mono (data s) (m_fs m)).

(** sig.py:90-97 trim.  [stop]/[dur] in seconds; line 92 uses true division. *)
Definition trim_slice (l : list R) (fs : Z) (start stop : R) : list R :=
  slice l (py_int (start * IZR fs)) (py_int (stop * IZR fs)).
Definition mono_trim (m : mono) (start stop : R) (dur : option R) : res mono :=
  let* _ := assert_ (Rltb start (INR (mono_len m) / IZR (m_fs m))) in
  let stop := match dur with Some d => start + d | None => stop end in
  mono_set m (arr1 (trim_slice (m_sig m) (m_fs m) start stop)).

(** sig.py:99-101 apply: [func] is called with the forwarded arguments only.
    A Python callable is a partial function of its positional arguments. *)
Definition pyfunc : Type := list (nd R) -> res (nd R).
Definition mono_apply (m : mono) (func : pyfunc) (args : list (nd R)) : res mono :=
  let* v := func args in mono_set m v.

(** sig.py:103-107 conv *)
Definition mono_conv (m : mono) (h : nd R) : res mono :=
  let* h' := asarray_1d h in
  mono_set m (arr1 (convolve (m_sig m) (data h'))).

(** sig.py:124-145 class MultiSignal, __init__ *)
Record multi : Type := Multi { channels : list mono; mu_fs : Z; channel_count : nat }.
Definition multi_init (signals : list (nd R)) (fs : option Z) : res multi :=
  match fs with
  | None => Err ValueError
  | Some f =>
      let* cs := mapM (fun s => mono_init s f) signals in
      Ok (Multi cs f (length cs))
  end.
(** sig.py:147-149 num_channels *)
Definition num_channels (m : multi) : nat := length (channels m).
(** sig.py:155-157 __len__: IndexError without channels *)
Definition multi_len (m : multi) : res nat :=
  match channels m with [] => Err IndexError | c :: _ => Ok (mono_len c) end.

(** sig.py:181-189 trim *)
Definition multi_trim (m : multi) (start stop : R) (dur : option R) : res multi :=
  let* n := multi_len m in
  let* _ := assert_ (Rltb start (INR n / IZR (mu_fs m))) in
  let stop := match dur with Some d => start + d | None => stop end in
  let* cs := mapM (fun c => mono_set c (arr1 (trim_slice (m_sig c) (m_fs c) start stop)))
                  (channels m) in
  Ok (Multi cs (mu_fs m) (channel_count m)).

(** sig.py:191-194 apply *)
Definition multi_apply (m : multi) (func : pyfunc) (args : list (nd R)) : res multi :=
  let* cs := mapM (fun c => let* v := func args in mono_set c v) (channels m) in
  Ok (Multi cs (mu_fs m) (channel_count m)).

(** sig.py:196-200 conv: [zip] stops at the shorter of channels and irs; the
    remaining channels are left as they are. *)
Fixpoint conv_zip (cs : list mono) (irs : list (nd R)) : res (list mono) :=
  match cs, irs with
  | c :: cs', h :: irs' =>
      let* c' := mono_conv c h in
      let* t := conv_zip cs' irs' in Ok (c' :: t)
  | _, _ => Ok cs
  end.
Definition multi_conv (m : multi) (irs : list (nd R)) : res multi :=
  let* cs := conv_zip (channels m) irs in
  Ok (Multi cs (mu_fs m) (channel_count m)).

Section Resample.
(** resampy.resample on one signal: an oracle.  It may raise. *)
Variable resampler : Z -> Z -> list R -> res (list R).

(** process.py:76-95 resample_signal on a 1-D signal: atleast_2d, resample,
    squeeze *)
Definition resample_signal1 (l : list R) (fs fs_new : Z) : res (nd R) :=
  let* r := resampler fs fs_new l in
  Ok (squeeze (Nd [1%nat; length r] r)).

(** sig.py:109-115 MonoSignal.resample *)
Definition mono_resample (m : mono) (fs_new : Z) : res mono :=
  if Z.eqb fs_new (m_fs m) then Ok m
  else let* r := resample_signal1 (m_sig m) (m_fs m) fs_new in mono_init r fs_new.

(** [*arr]: the scalars of a 1-D array, the rows of a 2-D array; iterating over
    a 0-d array raises TypeError.  Higher ranks do not occur here. *)
Definition unpack (a : nd R) : res (list (nd R)) :=
  match shape a with
  | [] => Err TypeError
  | [n] => Ok (map (fun x => Nd [] [x]) (data a))
  | m :: n :: _ => Ok (map (fun r => Nd [n] r) (rows_of m n (data a)))
  end.

(** all rows of a 2-D array built from channels must have one length: numpy's
    asarray raises ValueError on ragged input (sig.py:177-179) *)
Definition get_signals (m : multi) : res (nat * list (list R)) :=
  match channels m with
  | [] => Ok (0%nat, [])
  | c :: cs =>
      if forallb (fun d => Nat.eqb (mono_len d) (mono_len c)) cs
      then Ok (mono_len c, map m_sig (channels m)) else Err ValueError
  end.

(** sig.py:202-209 MultiSignal.resample, process.py:76-95: rows are resampled
    along the last axis, then all singleton dimensions are squeezed. An empty
    channel list (shape (0,)) is not resampled by resampy: ValueError. *)
Definition resample_multi_data (m : multi) (fs_new : Z) : res (list (nd R)) :=
  let* g := get_signals m in
  match snd g with
  | [] => Err ValueError
  | rws =>
    let* rs := mapM (resampler (mu_fs m) fs_new) rws in
    let n := match rs with r :: _ => length r | [] => 0%nat end in
    unpack (squeeze (Nd [length rs; n] (concat rs)))
  end.
Definition multi_resample (m : multi) (fs_new : Z) : res multi :=
  if Z.eqb fs_new (mu_fs m) then Ok m
  else let* d := resample_multi_data m fs_new in multi_init d (Some fs_new).

(** sig.py:217-225 class AmbiBSignal; the attributes W, X, Y, Z are set by the
    constructor only. *)
Record ambib : Type := AmbiB { base : multi; aW : list R; aX : list R; aY : list R; aZ : list R }.
Definition ambib_init (signals : list (nd R)) (fs : option Z) : res ambib :=
  let* b := multi_init signals fs in
  match channels b with
  | [w; x; y; z] =>
      let* w' := asarray_1d (arr1 (m_sig w)) in
      let* x' := asarray_1d (arr1 (m_sig x)) in
      let* y' := asarray_1d (arr1 (m_sig y)) in
      let* z' := asarray_1d (arr1 (m_sig z)) in
      Ok (AmbiB b (data w') (data x') (data y') (data z'))
  | _ => Err AssertionError
  end.
(** [self.__init__] in MultiSignal.resample is AmbiBSignal's constructor here *)
Definition ambib_resample (a : ambib) (fs_new : Z) : res ambib :=
  if Z.eqb fs_new (mu_fs (base a)) then Ok a
  else let* d := resample_multi_data (base a) fs_new in ambib_init d (Some fs_new).

(** Histories of public calls on one object.  An exception ends the history. *)
Inductive mop : Type :=
  | OpTrim (start stop : R) (dur : option R)
  | OpConv (irs : list (nd R))
  | OpResample (fs_new : Z).

Definition multi_step (m : multi) (o : mop) : res multi :=
  match o with
  | OpTrim a b d => multi_trim m a b d
  | OpConv irs => multi_conv m irs
  | OpResample f => multi_resample m f
  end.
Definition ambib_step (a : ambib) (o : mop) : res ambib :=
  match o with
  | OpTrim s t d => let* b := multi_trim (base a) s t d in
                    Ok (AmbiB b (aW a) (aX a) (aY a) (aZ a))
  | OpConv irs => let* b := multi_conv (base a) irs in
                  Ok (AmbiB b (aW a) (aX a) (aY a) (aZ a))
  | OpResample f => ambib_resample a f
  end.
Fixpoint run {S : Type} (step : S -> mop -> res S) (s : S) (h : list mop) : res S :=
  match h with
  | [] => Ok s
  | o :: t => let* s' := step s o in run step s' t
  end.
End Resample.

(** sig.py:376-384 trim_audio; [copy.deepcopy] is the identity on values *)
Definition trim_audio (a : multi) (start stop : R) : res multi :=
  let* n := multi_len a in
  let* _ := assert_ (Rltb start (INR n / IZR (mu_fs a))) in
  let* cs := mapM (fun c => mono_set c (arr1 (trim_slice (m_sig c) (mu_fs a) start stop)))
                  (channels a) in
  Ok (Multi cs (mu_fs a) (channel_count a)).

(** sig.py:243-281 class HRIRs *)
Record hrirs : Type := Hrirs {
  h_left : list (list R); h_right : list (list R); h_azi : list R; h_zen : list R;
  h_fs : Z; num_grid_points : nat; h_taps : nat }.
Definition hrirs_init (left right : arr2 R) (azi zen : nd R) (fs : Z) : res hrirs :=
  let* _ := assert_ (Nat.eqb (length (rows left)) (length (rows right))) in
  let* a := asarray_1d azi in
  let* z := asarray_1d zen in
  let* _ := assert_ (Nat.eqb (length (data a)) (length (data z))) in
  let* _ := assert_ (Nat.eqb (length (data a)) (length (rows left))) in
  Ok (Hrirs (rows left) (rows right) (data a) (data z) fs (length (data a)) (cols left)).

(** sig.py:331-351 nearest_idx for one direction *)
Definition nearest_idx (h : hrirs) (azi zen : R) : res nat :=
  argmax (map (fun p => dot3 (sph2cart azi zen 1) (sph2cart (fst p) (snd p) 1))
              (combine (h_azi h) (h_zen h))).

(** sig.py:281-283 __getitem__, sig.py:308-329 nearest_hrirs *)
Definition nearest_hrirs (h : hrirs) (azi zen : R) : res (list R * list R) :=
  let* d := nearest_idx h azi zen in
  let* l := index (h_left h) (Z.of_nat d) in
  let* r := index (h_right h) (Z.of_nat d) in
  Ok (l, r).
