(** RMS maps of complex signals (C127). *)
From Verif Require Import Base M_utils M_sig M_process M_sph0 M_sph M_decoder M_plot M_sph3 M_misc M_crms S_sph S_decoder S_decoder2 S_plot S_sph3 S_crms X_crms.
Open Scope R_scope.

(** ** C127 *)
Theorem C127_rms : forall ndesign F cplx sh_type N vp w_n n_plot (todb : bool),
  ndesign n_plot = Ok vp -> (forall p, In p vp -> p <> (0, 0, 0)) -> cnr F = ((N + 1) ^ 2)%nat -> (0 < cnc F)%nat ->
  length (weights_drawn N w_n) = (N + 1)%nat -> sh_type <> Some ShUnknown ->
  exists azi zen v, (forall lo hi, cshows_rms (type_drawn cplx sh_type) F N (samples_used (cnc F)) (weights_drawn N w_n) todb vp (RmsFig azi zen v lo hi)) /\
  forall dflt clim, sh_rms_map_any ndesign dflt F cplx sh_type todb w_n n_plot clim =
    match clim with
    | CDefault => (Ok (Some (RmsFig azi zen v (clim_low todb (fst dflt)) (snd dflt))), (clim_low todb (fst dflt), snd dflt), CDefault)
    | CList lo hi => (Ok (Some (RmsFig azi zen v (clim_low todb lo) hi)), dflt, CList (clim_low todb lo) hi)
    | CTuple (Some lo) hi => (Ok (Some (RmsFig azi zen v (Some lo) hi)), dflt, clim)
    | CTuple None hi => (Err TypeError, dflt, clim)
    end.
Proof. exact f_crms. Qed.
Print Assumptions C127_rms.
Theorem C127_unknown_type : forall ndesign F cplx vp w_n n_plot todb dflt clim,
  ndesign n_plot = Ok vp -> (forall p, In p vp -> p <> (0, 0, 0)) ->
  sh_rms_map_any ndesign dflt F cplx (Some ShUnknown) todb w_n n_plot clim = (Err ValueError, dflt, clim).
Proof. exact f_crms_unknown. Qed.
Print Assumptions C127_unknown_type.
Theorem C127_plane_wave : forall cplx sh_type ndesign N S azi zen s F vp n_plot,
  ndesign n_plot = Ok vp -> (forall p, In p vp -> p <> (0, 0, 0)) -> sh_type <> Some ShUnknown ->
  0 <= zen <= PI -> (0 < S)%nat -> cplane_wave (type_drawn cplx sh_type) N S azi zen s F ->
  exists fig, sh_rms_map_any ndesign (None, None) F cplx sh_type false None n_plot CDefault = (Ok (Some fig), (Some 0, None), CDefault) /\
  length (rf_rms fig) = (length vp + 6)%nat /\
  (forall i, (i < length vp)%nat -> aims (nth i vp (0, 0, 0)) (sph2cart (nth i (rf_azi fig) 0) (nth i (rf_zen fig) 0) 1)) /\
  forall i, (i < length vp + 6)%nat -> exists v, nth i (rf_rms fig) NaN = Fin v /\ 0 <= v <= croot_mean_square (samples_used S) s /\
    (sph2cart (nth i (rf_azi fig) 0) (nth i (rf_zen fig) 0) 1 = sph2cart azi zen 1 -> v = croot_mean_square (samples_used S) s).
Proof. exact f_crms_wave. Qed.
Print Assumptions C127_plane_wave.
Theorem C127_same_map : forall ndesign (F : mat) (G : cmat) N vp w_n n_plot todb dflt clim,
  ndesign n_plot = Ok vp -> (forall p, In p vp -> p <> (0, 0, 0)) -> (0 < nc F)%nat ->
  length (weights_drawn N w_n) = (N + 1)%nat -> same_functions N F G ->
  sh_rms_map_any ndesign dflt G true None todb w_n n_plot clim = sh_rms_map ndesign dflt F todb w_n n_plot clim.
Proof. exact f_crms_same. Qed.
Print Assumptions C127_same_map.
Theorem C127_real : forall ndesign (F : mat) N vp w_n n_plot todb dflt clim (cplx : bool),
  ndesign n_plot = Ok vp -> (forall p, In p vp -> p <> (0, 0, 0)) -> nr F = ((N + 1) ^ 2)%nat -> (0 < nc F)%nat -> length (weights_drawn N w_n) = (N + 1)%nat ->
  sh_rms_map_any ndesign dflt (cmat_of F) false None todb w_n n_plot clim = sh_rms_map ndesign dflt F todb w_n n_plot clim /\
  sh_rms_map_any ndesign dflt (cmat_of F) cplx (Some ShReal) todb w_n n_plot clim = sh_rms_map ndesign dflt F todb w_n n_plot clim.
Proof. exact f_crms_real. Qed.
Print Assumptions C127_real.
Theorem C127_dtype_refuted : exists F fig v0 v1, plane_wave 1 1 (PI / 2) (PI / 2) (fun _ => 1) F /\ sph2cart (PI / 2) (PI / 2) 1 = (0, 1, 0) /\
  sh_rms_map_any two_dirs (None, None) (cmat_of F) true None false None 1 CDefault = (Ok (Some fig), (Some 0, None), CDefault) /\
  sph2cart (nth 0 (rf_azi fig) 0) (nth 0 (rf_zen fig) 0) 1 = (1, 0, 0) /\ sph2cart (nth 1 (rf_azi fig) 0) (nth 1 (rf_zen fig) 0) 1 = (0, 1, 0) /\
  nth 0 (rf_rms fig) NaN = Fin v0 /\ nth 1 (rf_rms fig) NaN = Fin v1 /\ v1 < v0 < 1.
Proof. exact f_crms_dtype_refuted. Qed.
Print Assumptions C127_dtype_refuted.
Example C127_nonvacuous : two_dirs 1 = Ok [(1, 0, 0); (0, 1, 0)] /\ (forall p, In p [(1, 0, 0); (0, 1, 0)] -> p <> (0, 0, 0)) /\
  cplane_wave (type_drawn true None) 1 4 (PI / 2) (PI / 2) (fun t => (cos (INR t * (PI / 2)), sin (INR t * (PI / 2)))) tone /\
  croot_mean_square (samples_used 4) (fun t => (cos (INR t * (PI / 2)), sin (INR t * (PI / 2)))) = 1 /\
  exists F G, same_functions 1 F G /\ nr F = 4%nat /\ nc F = 1%nat /\ ent F 1 0 <> 0.
Proof. exact ex_crms. Qed.
