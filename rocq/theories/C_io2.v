(** Properties of io.py, part 2: layout files (C62). *)
From Coq Require Import String Lra Lia.
From Verif Require Import Base M_utils M_sig M_process M_grids M_decoder M_decoder2 M_io S_io P_io6 X_sph X_dec1 X_dec2 X_io4 X_io5.
Open Scope R_scope.


(** ** C62 *)

Theorem C62_saved : forall l h es,
  s_ambi (lo_setup l) = Some h -> save_layout l = Ok (Some es) -> length es = length (h_points h) /\
  forall i p e, nth_error (h_points h) i = Some p -> nth_error es i = Some e -> describes h (lo_gains l) i p e.
Proof. exact f_saved. Qed.
Print Assumptions C62_saved.
Theorem C62_saves : forall l h,
  s_ambi (lo_setup l) = Some h -> (forall p, In p (h_points h) -> p <> (0, 0, 0)) ->
  (forall i, (i < length (h_points h))%nat -> ~ imaginary h i -> (i < length (lo_gains l))%nat) ->
  (lo_int l = false \/ forall i, (i < length (h_points h))%nat -> imaginary h i) ->
  exists es, save_layout l = Ok (Some es).
Proof. exact f_saves. Qed.
Print Assumptions C62_saves.
Theorem C62_no_hull : forall l,
  s_ambi (lo_setup l) = None -> save_layout l = Err ValueError.
Proof. exact f_no_hull. Qed.
Print Assumptions C62_no_hull.
Theorem C62_integer_gains : forall l h,
  s_ambi (lo_setup l) = Some h -> lo_int l = true ->
  (forall i, (i < length (h_points h))%nat -> ~ imaginary h i -> (i < length (lo_gains l))%nat) ->
  (exists i, (i < length (h_points h))%nat /\ ~ imaginary h i) -> save_layout l = Err TypeError.
Proof. exact f_int. Qed.
Print Assumptions C62_integer_gains.
Theorem C62_too_few_gains : forall l h,
  s_ambi (lo_setup l) = Some h -> (exists i, (length (lo_gains l) <= i < length (h_points h))%nat /\ ~ imaginary h i) -> save_layout l = Err IndexError.
Proof. exact f_short. Qed.
Print Assumptions C62_too_few_gains.
Theorem C62_loaded : forall chull lstsq3 nd file lp Nk l,
  load_layout chull lstsq3 nd file lp (Some Nk) = Ok l ->
  exists pos flags h, Forall2 at_position file pos /\ flags_of file flags /\ gains_of file (lo_gains l) /\
    h_points (s_hull (lo_setup l)) = map (fun p => sub3 p (match lp with Some o => o | None => (0, 0, 0) end)) (chosen false flags pos) /\
    s_ambi (lo_setup l) = Some h /\ h_points h = h_points (s_hull (lo_setup l)) ++ chosen true flags pos /\
    h_imag h = Some (seq (length (chosen false flags pos)) (length (chosen true flags pos))) /\
    (exists n, s_order (lo_setup l) = Some n) /\ (exists kp, s_kernel (lo_setup l) = Some (kp, Nk)).
Proof. exact f_loaded. Qed.
Print Assumptions C62_loaded.
Theorem C62_integer : forall chull lstsq3 nd file lp Nk l,
  load_layout chull lstsq3 nd file lp Nk = Ok l ->
  ((forall e, In e file -> j_gain e <> None) -> (lo_int l = true <-> forall e x, In e file -> j_gain e = Some x -> fst x = true)) /\
  ((exists e, In e file /\ j_gain e = None) -> (lo_int l = true <-> forall e x, In e file -> j_azi e = Some x -> fst x = true)).
Proof. exact loaded_int. Qed.
Print Assumptions C62_integer.
Theorem C62_file_order : forall chull lstsq3 nd file Nk l n m,
  load_layout chull lstsq3 nd file None (Some Nk) = Ok l ->
  flags_of file (repeat false n ++ repeat true m) -> exists h, s_ambi (lo_setup l) = Some h /\ split_hull h n m /\ Forall2 at_position file (h_points h) /\ gains_of file (lo_gains l).
Proof. exact f_ordered. Qed.
Print Assumptions C62_file_order.
Theorem C62_no_entries : forall chull lstsq3 nd lp Nk,
  load_layout chull lstsq3 nd [] lp Nk = Err TypeError.
Proof. exact f_nothing. Qed.
Print Assumptions C62_no_entries.
Theorem C62_missing_key : forall chull lstsq3 nd file lp Nk,
  (exists e, In e file /\ (j_azi e = None \/ j_ele e = None \/ j_rad e = None)) ->
  load_layout chull lstsq3 nd file lp Nk = Err KeyError.
Proof. exact f_missing. Qed.
Print Assumptions C62_missing_key.
Theorem C62_roundtrip : forall l l' h n m Nk es chull lstsq3 nd,
  s_ambi (lo_setup l) = Some h -> split_hull h n m -> save_layout l = Ok (Some es) ->
  load_layout chull lstsq3 nd es None (Some Nk) = Ok l' ->
  exists h', s_ambi (lo_setup l') = Some h' /\ split_hull h' n m /\ h_points (s_hull (lo_setup l')) = firstn n (h_points h') /\
    (forall i p, nth_error (h_points h) i = Some p -> exists p', nth_error (h_points h') i = Some p' /\ dist3 p' p <= 1 / 200 + norm3 p * (PI / 18000)) /\
    length (lo_gains l') = (n + m)%nat /\
    (forall i, (i < n)%nat -> nth_error (lo_gains l') i = nth_error (lo_gains l) i) /\ (forall i, (n <= i < n + m)%nat -> nth_error (lo_gains l') i = Some 0) /\
    lo_int l' = false.
Proof. exact f_roundtrip. Qed.
Print Assumptions C62_roundtrip.
Theorem C62_resave : forall l l' h n m Nk es chull lstsq3 nd,
  s_ambi (lo_setup l) = Some h -> split_hull h n m -> save_layout l = Ok (Some es) ->
  load_layout chull lstsq3 nd es None (Some Nk) = Ok l' -> (forall e, In e es -> stable e) -> save_layout l' = Ok (Some es).
Proof. exact f_resave. Qed.
Print Assumptions C62_resave.
Theorem C62_resave_refuted : forall nd,
  exists l h es l', s_ambi (lo_setup l) = Some h /\ split_hull h 6 1 /\ save_layout l = Ok (Some es) /\
  load_layout tri_chull adj_lstsq nd es None (Some 50%nat) = Ok l' /\ save_layout l' <> Ok (Some es) /\
  exists es', save_layout l' = Ok (Some es') /\ map j_azi es = map j_azi (six six_gains) ++ [Some (false, 360)] /\ map j_azi es' = map j_azi (six six_gains) ++ [Some (false, 0)].
Proof. exact ex_wrap. Qed.
Print Assumptions C62_resave_refuted.
Theorem C62_gains_misassigned_refuted : forall nd,
  exists file l h i j e p k g, load_layout tri_chull adj_lstsq nd file None (Some 50%nat) = Ok l /\ s_ambi (lo_setup l) = Some h /\
  nth_error file j = Some e /\ j_imag e = Some false /\ at_position e p /\ j_gain e = Some (k, g) /\
  nth_error (h_points h) i = Some p /\ ~ imaginary h i /\ nth_error (lo_gains l) i <> Some g.
Proof. exact ex_misassigned. Qed.
Print Assumptions C62_gains_misassigned_refuted.
Theorem C62_integer_gains_refuted : forall nd,
  exists file l, load_layout tri_chull adj_lstsq nd file None (Some 50%nat) = Ok l /\ save_layout l = Err TypeError.
Proof. exact ex_integer. Qed.
Print Assumptions C62_integer_gains_refuted.
Example C62_nonvacuous : forall nd, exists file l h es l', load_layout tri_chull adj_lstsq nd file None (Some 50%nat) = Ok l /\
  s_ambi (lo_setup l) = Some h /\ split_hull h 6 1 /\ save_layout l = Ok (Some es) /\ load_layout tri_chull adj_lstsq nd es None (Some 50%nat) = Ok l' /\ (forall e, In e es -> stable e).
Proof. exact ex_roundtrip. Qed.
