(** Model of /repo/spaudiopy/plot.py, sh_rms_map with any sh_type and complex signals. *)
From Verif Require Import Base M_utils M_sig M_process M_process2 M_sph0 M_sph M_grids M_decoder M_decoder2 M_plot M_io M_io2 M_io3 M_sph3 M_misc.
Open Scope R_scope.

(** np.abs of a complex number *)
Definition cabs (z : C2) : R := sqrt (cabs2 z).
(** columns [a, b) of a complex array *)
Definition ccol_block (F : cmat) (a b : nat) : cmat := CMat (cnr F) (Nat.min b (cnc F) - a) (fun i j => cent F i (a + j)%nat).
(** np.abs(utils.rms(f_d, axis=1)), plot.py:492 and 497; [None]: mean of nothing *)
Definition crms_rows (f : cmat) : option (list R) :=
  if Nat.eqb (cnc f) 0 then None else Some (map cabs (rms_axis f Cols)).
(** plot.py:488-493 *)
Fixpoint crms_loop (fuel block : nat) (B F : cmat) (start : nat) : res (list (option (list R))) :=
  match fuel with
  | O => Err OutOfFuel
  | S k =>
      if Nat.leb (start + block) (cnc F)
      then let* f := cmatmul B (ccol_block F start (start + block)) in
           let* t := crms_loop k block B F (start + block) in
           Ok (crms_rows f :: t)
      else Ok []
  end.
(** plot.py:487-497 *)
Definition crms_values (block : nat) (B F : cmat) : res (option (list R)) :=
  if Nat.ltb block (cnc F)
  then let* l := crms_loop (S (cnc F)) block B F 0 in
       Ok (match all_some l with Some l => Some (map (rms_mean l) (seq 0 (cnr B))) | None => None end)
  else let* f := cmatmul B F in Ok (crms_rows f).
(** sph.py:85-112 sh_matrix for every sh_type; real values have zero imaginary parts *)
Definition sh_matrix_any (ty : shtype) (N : nat) (azi zen : list R) : res cmat :=
  match ty with
  | ShComplex => sh_matrix_c N azi zen
  | ShReal => let* Y := sh_matrix N azi zen in Ok (cmat_of Y)
  | ShUnknown => Err ValueError
  end.
(** plot.py:447-536 sh_rms_map of a signal with at least one channel, as in M_plot.v
    but for all signals and types.  [cplx]: np.iscomplexobj(F_nm); the entries of
    arrays that are not complex have zero imaginary parts. *)
Definition sh_rms_map_any (ndesign : Z -> res (list V3)) (dflt : option R * option R) (F : cmat) (cplx : bool) (sh_type : option shtype) (todb : bool)
    (w_n : option (list R)) (n_plot : Z) (clim : clim_arg) : res (option rms_fig) * (option R * option R) * clim_arg :=
  match (let ty := match sh_type with Some t => t | None => if cplx then ShComplex else ShReal end in
         let N := Z.to_nat (order_of (cnr F)) in
         let* vp := ndesign n_plot in
         orsome (dirs vp) (fun d =>
           let azi := (fst d ++ [PI; 0; - PI; PI; 0; - PI])%list in
           let zen := (snd d ++ [0; 0; 0; PI; PI; PI])%list in
           let* Y := sh_matrix_any ty N azi zen in
           let w := match w_n with Some w => w | None => hypercardioid_modal_weights N end in
           let* B := cmatmul Y (cmat_of (vdiag (repeat_per_order w))) in
           let* v := crms_values mem_block B F in
           Ok (Some (azi, zen, match v with
                               | Some l => map (fun x => if todb then val_db x else Fin x) l
                               | None => repeat NaN (List.length azi)
                               end)))) with
  | Err e => (Err e, dflt, clim)
  | Ok None => (Ok None, dflt, clim)
  | Ok (Some (azi, zen, v)) =>
      let set lo := match lo with Some x => Some x | None => if todb then None else Some 0 end in
      match clim with
      | CDefault => let lo := set (fst dflt) in (Ok (Some (RmsFig azi zen v lo (snd dflt))), (lo, snd dflt), CDefault)
      | CList lo hi => (Ok (Some (RmsFig azi zen v (set lo) hi)), dflt, CList (set lo) hi)
      | CTuple (Some lo) hi => (Ok (Some (RmsFig azi zen v (Some lo) hi)), dflt, clim)
      | CTuple None hi => (Err TypeError, dflt, clim)
      end
  end.
