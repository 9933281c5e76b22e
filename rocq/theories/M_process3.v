(** Model of spaudiopy/process.py, part 3: recursive filters and the A-to-B format
    conversion. *)
From Coq Require Import String.
From Verif Require Import Base M_utils M_sig M_process M_sph0 M_sph.
Open Scope R_scope.

(** scipy.signal.lfilter(b, a, x) on 1-D real arrays, as process.py:320-323 calls it.
    One coefficient in [a]: np.convolve, cut to the length of the signal (an empty signal
    is a ValueError).  Otherwise the transposed direct form II with both coefficient lists
    padded to one length and divided by a[0].  Division by a[0] = 0 is refused in the
    recursive case; a = [0.] gives infinities, which are outside the model:
    ZeroDivisionError stands in. *)
Definition pad_to (n : nat) (l : list R) : list R := l ++ repeat 0 (n - length l).
(** one sample: output [z_0 + b_0 x], next state [z_{i+1} + b_{i+1} x - a_{i+1} y] *)
Definition df2t_next (b a z : list R) (x y : R) : list R :=
  map (fun i => nth (S i) z 0 + nth (S i) b 0 * x - nth (S i) a 0 * y) (seq 0 (length z)).
Fixpoint df2t (b a z : list R) (x : list R) : list R :=
  match x with
  | [] => []
  | u :: t => let y := nth 0 z 0 + nth 0 b 0 * u in y :: df2t b a (df2t_next b a z u y) t
  end.
Definition lfilter (b a x : list R) : res (list R) :=
  match a, b with
  | [], _ | _, [] => Err ValueError
  | [a0], _ =>
      if Req_EM_T a0 0 then Err ZeroDivisionError
      else match x with
           | [] => Err ValueError
           | _ => Ok (firstn (length x) (convolve (map (fun c => c / a0) b) x))
           end
  | a0 :: _, _ =>
      if Req_EM_T a0 0 then Err ValueError
      else let n := Nat.max (length a) (length b) in
           Ok (df2t (pad_to n (map (fun c => c / a0) b)) (pad_to n (map (fun c => c / a0) a)) (repeat 0 (n - 1)) x)
  end.

(** process.py:300-324 ambeo_a2b.  A pickle is a list of coefficient lists, the unpacking
    wants four; [pickles] are the files there are. *)
Definition pickles : Type := string -> option (list (list R)).
Definition four (l : list (list R)) : res (list R * list R * (list R * list R)) :=
  match l with [b0; a0; b1; a1] => Ok (b0, a0, (b1, a1)) | _ => Err ValueError end.
Definition signal_mat (g : nat * list (list R)) : mat := Mat (length (snd g)) (fst g) (fun i t => nth t (nth i (snd g) []) 0).
Definition mat_row (B : mat) (i : nat) : list R := map (ent B i) (seq 0 (nc B)).
Definition ambeo_a2b (d : pickles) (A : multi) (filter_coeffs : option string) : res ambib :=
  let* g := get_signals A in
  let* B := soundfield_to_b (signal_mat g) None in
  let* s := ambib_init (map (fun i => arr1 (mat_row B i)) [0; 1; 2; 3]%nat) (Some (mu_fs A)) in
  match filter_coeffs with
  | None => Ok s
  | Some name =>
      match d name with
      | None => Err FileNotFoundError
      | Some l =>
          let* c := four l in
          let '(b0, a0, (b1, a1)) := c in
          let* w := lfilter b0 a0 (aW s) in
          let* x := lfilter b1 a1 (aX s) in
          let* y := lfilter b1 a1 (aY s) in
          let* z := lfilter b1 a1 (aZ s) in
          Ok (AmbiB (base s) w x y z)
      end
  end.
(** process.py:327-341 b_to_stereo on a whole signal: elementwise, arrays of one length or
    of length 1 (else ValueError) *)
Definition bc2 (f : R -> R -> R) (x y : list R) : res (list R) :=
  if Nat.eqb (length x) (length y) then Ok (map (fun p => f (fst p) (snd p)) (combine x y))
  else match x, y with
       | [u], _ => Ok (map (f u) y)
       | _, [v] => Ok (map (fun u => f u v) x)
       | _, _ => Err ValueError
       end.
Definition b_to_stereo_sig (s : ambib) : res (list R * list R) :=
  let* p := bc2 Rplus (aX s) (aY s) in
  let* m := bc2 Rminus (aX s) (aY s) in
  let* l := bc2 (fun w u => w + u / sqrt 2) (aW s) p in
  let* r := bc2 (fun w u => w + u / sqrt 2) (aW s) m in
  Ok (l, r).
