(** Model of spaudiopy/plot.py, part 3 (several sets of coefficients, normals, A and B
    format) and of utils.test_diff. *)
From Coq Require Import String.
From Verif Require Import Base M_utils M_sig M_process M_sph0 M_sph M_grids M_decoder M_decoder2 M_decoder3 M_parsa3 M_decoder4 M_parsa2 M_io M_process2 M_plot M_io3 M_process3.
Open Scope R_scope.

(** coefficients as arrays of floats or of complex numbers *)
Inductive coef : Type := CoefR (l : list R) | CoefC (l : list C2).
Definition coef_c (F : coef) : list C2 := match F with CoefR l => map (fun x => (x, 0)) l | CoefC l => l end.
Definition coef_kind (F : coef) : shtype := match F with CoefR _ => ShReal | CoefC _ => ShComplex end.
(** plot.py:257-300 sh_coeffs without sh_type, either kind *)
Definition sh_coeffs_any (F : coef) (azi_steps el_steps : R) : res (list (V3 * R)) :=
  match F with CoefR l => sh_coeffs l azi_steps el_steps | CoefC l => sh_coeffs_c l azi_steps el_steps end.

(** plot.py:332-366 sh_coeffs_subplot.  [fig_given] and [axs]: whether a figure is given,
    and how many axes if they are.  fig.subplots(1, n) returns one Axes for n = 1, which
    cannot be enumerated, and refuses n = 0; figaspect(1 / 0) comes before.  The result is
    what each axes shows and its title. *)
Definition subplot_axes (fig_given : bool) (axs : option nat) (n : nat) : res nat :=
  match fig_given, n with
  | false, O => Err ZeroDivisionError
  | _, _ =>
      match axs, n with
      | Some m, _ => Ok m
      | None, O => Err ValueError
      | None, 1%nat => Err TypeError
      | None, _ => Ok n
      end
  end.
Definition sh_coeffs_subplot (Fs : list coef) (titles : option (list string)) (fig_given : bool) (axs : option nat) (azi_steps el_steps : R)
  : res (list (list (V3 * R) * option string)) :=
  let* m := subplot_axes fig_given axs (List.length Fs) in
  mapM (fun i =>
    let* F := match nth_error Fs i with Some F => Ok F | None => Err IndexError end in
    let* p := sh_coeffs_any F azi_steps el_steps in
    let* t := match titles with
              | None => Ok None
              | Some l => match nth_error l i with Some t => Ok (Some t) | None => Err IndexError end
              end in
    Ok (p, t)) (seq 0 m).

(** sph.inverse_sht of one column of coefficients with harmonics of either kind; an unknown
    sh_type is a ValueError in sh_matrix *)
Definition inverse_sht_kind (t : shtype) (F : coef) (azi zen : list R) : res (nat -> C2) :=
  match t with
  | ShUnknown => Err ValueError
  | ShComplex =>
      let l := coef_c F in
      let* f := inverse_sht_all (CMat (List.length l) 1 (fun i _ => nth i l (0, 0))) azi zen in Ok (fun i => cent f i 0%nat)
  | ShReal =>
      let l := coef_c F in
      let* a := inverse_sht (Mat (List.length l) 1 (fun i _ => fst (nth i l (0, 0)))) azi zen None None in
      let* b := inverse_sht (Mat (List.length l) 1 (fun i _ => snd (nth i l (0, 0)))) azi zen None None in
      Ok (fun i => (ent a i 0%nat, ent b i 0%nat))
  end.
(** plot.py:369-444 sh_coeffs_overlay: the surfaces and their colours, the latter as an index
    into the nine colours of the map Set1, which repeats its last.  Once a type has been
    chosen it stays (lines 405-406). *)
Fixpoint overlay_loop (t : option shtype) (idx : nat) (Fs : list coef) (azi_steps el_steps : R) : res (list (list V3 * nat)) :=
  match Fs with
  | [] => Ok []
  | F :: rest =>
      let k := match t with Some k => k | None => coef_kind F end in
      let grid := balloon_grid azi_steps el_steps in
      let* f := inverse_sht_kind k F (map fst grid) (map snd grid) in
      let s := map (fun q => sph2cart (fst (snd q)) (snd (snd q)) (cabs (f (fst q)))) (combine (seq 0 (List.length grid)) grid) in
      let* r := overlay_loop (Some k) (S idx) rest azi_steps el_steps in
      Ok ((s, Nat.min idx 8) :: r)
  end.
Definition sh_coeffs_overlay (Fs : list coef) (sh_type : option shtype) (azi_steps el_steps : R) : res (list (list V3 * nat)) :=
  let* _ := check_steps azi_steps el_steps in overlay_loop sh_type 0 Fs azi_steps el_steps.

(** plot.py:180-199 compare_ambi on two MultiSignals: the attribute [channel] does not
    exist, it is [channels]; len of a signal without channels is an IndexError before *)
Definition compare_ambi (A B : multi) : res unit :=
  match channels B with
  | [] => Err IndexError
  | _ => Err AttributeError
  end.

(** decoder.py:380-382 calculate_barycenter *)
Definition barycenter (h : hull) : V3 := vmean (h_points h).
(** decoder.py:363-377 calculate_vertex_normals, all points; points that are not on the hull
    keep the zero row.  [vertices] is hull.vertices. *)
Definition vertex_normals (vertices : list nat) (h : hull) : list V3 :=
  map (fun p => if existsb (Nat.eqb p) vertices then vertex_normal (h_simplices h) (h_areas h) (h_normals h) p else (0, 0, 0)) (seq 0 (List.length (h_points h))).
(** plot.py:782-833 hull_normals: the labels, the arrows at the points, the arrows at the
    centroids, the two marks *)
Record normals_fig : Type := NormalsFig {
  nf_text : list (V3 * nat); nf_vertex : option (list (V3 * V3)); nf_face : option (list (V3 * V3)); nf_listener : V3; nf_barycenter : V3 }.
Definition hull_normals (vertices : list nat) (h : hull) (plot_face_normals plot_vertex_normals : bool) : normals_fig :=
  NormalsFig (combine (h_points h) (seq 0 (List.length (h_points h))))
    (if plot_vertex_normals then Some (combine (h_points h) (vertex_normals vertices h)) else None)
    (if plot_face_normals then Some (combine (h_centroids h) (h_normals h)) else None)
    (h_listener h) (barycenter h).

(** utils.py:250-264 test_diff: the result and what is printed.  Both arrays are flattened,
    then subtracted with broadcasting; a 1-D sum has axis None, 0 or -1 only (AxisError is an
    IndexError). *)
Inductive said : Type := SaidMsg (s : string) | SaidDiff (d : R) | SaidClose.
Definition test_diff (v1 v2 : nd R) (msg : option string) (axis : option Z) (test_lim : R) (VERBOSE : bool) : res (R * list said) :=
  let* e := bc2 (fun x y => Rabs (x - y)) (data v1) (data v2) in
  let* _ := match axis with
            | None => Ok tt
            | Some k => if (Z.eqb k 0 || Z.eqb k (-1))%bool then Ok tt else Err IndexError
            end in
  let d := lsum e in
  Ok (d, if VERBOSE
         then (match msg with Some m => [SaidMsg m] | None => [] end) ++ [if Rltb test_lim d then SaidDiff d else SaidClose]
         else []).
