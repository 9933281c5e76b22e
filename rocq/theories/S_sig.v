(** Specifications for the properties of sig.py. *)
From Verif Require Import Base M_utils M_sig.
Open Scope R_scope.

(** [t] is the part of [l] recorded between [start] and [stop] (seconds), cut to
    whole samples: a contiguous part of [l]; sample [i], which lasts from [i/fs] to
    [(i+1)/fs], belongs to it iff it ends after [start] and not after [stop]. *)
Definition time_span {A : Type} (l : list A) (fs : Z) (start stop : R) (t : list A) : Prop :=
  exists pre post, l = pre ++ t ++ post /\
    forall i, (i < length l)%nat ->
      ((length pre <= i < length pre + length t)%nat <->
       (start < INR (S i) / IZR fs /\ INR (S i) / IZR fs <= stop)).

(** a multichannel signal object whose parts fit together *)
Definition consistent (n : nat) (m : multi) : Prop :=
  channel_count m = n /\ length (channels m) = n /\
  (forall c, In c (channels m) -> m_fs c = mu_fs m) /\
  (forall c d, In c (channels m) -> In d (channels m) -> length (m_sig c) = length (m_sig d)).

(** a call that a consistent object with [n] channels may take: a convolution must
    bring a filter for every channel, all of one length *)
Definition admissible (n : nat) (o : mop) : Prop :=
  match o with
  | OpConv irs => (n <= length irs)%nat /\
      forall g h, In g irs -> In h irs -> length (data g) = length (data h)
  | _ => True
  end.

(** a resampler whose output length depends on the rates and the input length only *)
Definition length_regular (resampler : Z -> Z -> list R -> res (list R)) : Prop :=
  forall f g l l' r r', resampler f g l = Ok r -> resampler f g l' = Ok r' ->
    length l = length l' -> length r = length r'.

Definition is_resample (o : mop) : Prop :=
  match o with OpResample _ => True | _ => False end.

(** [c] is the convolution of [a] and [h]: each pair of samples contributes its
    product at the sum of their positions *)
Definition convolution (a h c : list R) : Prop :=
  length c = match a, h with [], _ | _, [] => 0%nat | _, _ => (length a + length h - 1)%nat end /\
  forall k, nth k c 0 = rsum (length a) (fun i => rsum (length h) (fun j => if Nat.eqb (i + j) k then nth i a 0 * nth j h 0 else 0)).
