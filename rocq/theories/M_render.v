(** Model of parsa.py:587-631 render_binaural_loudspeaker_sdm with its post equalisation:
    the choice made in lines 620-628 and the equaliser of lines 634-783. *)
From Verif Require Import Base M_sig M_process M_decoder M_decoder2 M_decoder3 M_parsa2 M_parsa3.
Open Scope R_scope.

(** the argument post_eq_func: None, 'default' (with soft_clip from the keyword arguments), a
    function of the signals, the pressure, the sampling rate and the setup, or another string,
    which cannot be called *)
Inductive post_eq :=
| NoPost
| DefaultPost (soft_clip : bool)
| OtherPost (f : mat -> list R -> Z -> hull -> res mat)
| NotCallable.

(** parsa.py:613-631.  [gains] after np.atleast_2d.  The boolean says whether the renderer or
    the equaliser warned (lines 628 and 777-779); warnings of the caller's function do not
    count.  [Ok None]: division by zero in the attenuations or the directions.  [firwin2] and
    [fuel] as in M_parsa3.v; the HRIRs are given, as in M_decoder3.v. *)
Definition render_with_post (firwin2 : nat -> list R -> res (list R)) (fuel : nat) (p : list R) (gains : mat)
    (h : hull) (fs : Z) (post : post_eq) (hr : hrirs) : res (option ((list R * list R) * bool)) :=
  let* _ := assert_ (Nat.eqb (length p) (nr gains)) in
  let* sigs := loudspeaker_signals h gains (Some p) in
  let* eq := match post with
             | NoPost => Ok (Some (sigs, true))
             | DefaultPost soft => sdm_post_equalization firwin2 fuel sigs p fs (h_d h) (h_a h) soft
             | OtherPost f => let* s := f sigs p fs h in Ok (Some (s, false))
             | NotCallable => Err TypeError
             end in
  match eq with
  | None => Ok None
  | Some (sigs, warned) =>
      let* out := binauralize h (arr2_of sigs) fs (0, 0) hr in
      Ok (option_map (fun lr => (lr, warned)) out)
  end.
