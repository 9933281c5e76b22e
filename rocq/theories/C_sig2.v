(** Properties of signals in memory (C94 - C96, C105). *)
From Coq Require Import String.
From Verif Require Import Base S_sig X_io1 M_utils M_sig M_process M_sph0 M_sph M_grids M_decoder M_decoder2 M_decoder3 M_parsa2 M_io M_sig2 S_sig2 X_sig2 X_sig2b X_sig2c.
Open Scope R_scope.


(** ** C94 *)

Theorem C94_copy : forall m o, sound m -> (o < length (objs m))%nat ->
  exists p m1, copy_obj o m = (Ok p, m1) /\ sound m1 /\ value m1 p = value m o /\ same_sharing (arrays_of m o) (arrays_of m1 p) /\
    (forall q, (q < length (objs m))%nat -> value m1 q = value m q) /\ (forall a, (a < length (arrs m))%nat -> samples m1 a = samples m a).
Proof. exact x_copy_says_the_same. Qed.
Print Assumptions C94_copy.
Theorem C94_no_interference : forall rs y d m o p m1 h L' m' s c, sound m -> copy_obj o m = (Ok p, m1) -> history rs y d (old_new m) m1 h L' m' -> uses L' m' s c ->
  (forall a, (a < length (arrs m'))%nat -> sa L' a <> s -> samples (snd (perform rs y d c m')) a = samples m' a) /\
  (forall q, (q < length (objs m'))%nat -> so L' q <> s -> value (snd (perform rs y d c m')) q = value m' q) /\
  (forall q, (q < length (objs m))%nat -> so L' q = false) /\ so L' p = true.
Proof. exact x_copy_no_interference. Qed.
Print Assumptions C94_no_interference.
Theorem C94_histories : forall rs y d m o p m1 h L' m', sound m -> copy_obj o m = (Ok p, m1) -> history rs y d (old_new m) m1 h L' m' ->
  ((forall e, In e h -> fst e = false) -> value m' p = value m o) /\
  ((forall e, In e h -> fst e = true) -> (forall q, (q < length (objs m))%nat -> value m' q = value m q) /\ forall a, (a < length (arrs m))%nat -> samples m' a = samples m a).
Proof. exact x_copy_histories. Qed.
Print Assumptions C94_histories.
Theorem C94_trim_audio : forall m o x a b, sound m -> value m o = Some (SvMulti x) -> channel_count x = length (channels x) ->
  (forall q, (q < length (objs m))%nat -> value (snd (trim_audio_obj o a b m)) q = value m q) /\
  (forall q, (q < length (arrs m))%nat -> samples (snd (trim_audio_obj o a b m)) q = samples m q) /\
  match trim_audio x a b with
  | Ok r => exists p m', trim_audio_obj o a b m = (Ok p, m') /\ (length (objs m) <= p)%nat /\ value m' p = Some (SvMulti r)
  | Err e => fst (trim_audio_obj o a b m) = Err e
  end.
Proof. exact x_trim_audio. Qed.
Print Assumptions C94_trim_audio.
Example C94_nonvacuous : exists p m1 L' m', sound ex_mem /\ value ex_mem 2 = Some ex_val /\ copy_obj 2 ex_mem = (Ok p, m1) /\ arrays_of ex_mem 2 = [0; 0]%nat /\ arrays_of m1 p = [2; 2]%nat /\
  history idle any_system (fun _ => None) (old_new ex_mem) m1 [(true, KWrite 2 0 9); (false, KWrite 0 2 4)] L' m' /\
  value m' 2 = Some (SvMulti (Multi [Mono [1; 2; 4] 1; Mono [1; 2; 4] 1] 1 2)) /\ value m' p = Some (SvMulti (Multi [Mono [9; 2; 3] 1; Mono [9; 2; 3] 1] 1 2)).
Proof. exact ex_copy. Qed.
Example C94_trim_nonvacuous : exists x r, sound ex_mem /\ value ex_mem 2 = Some (SvMulti x) /\ channel_count x = length (channels x) /\ trim_audio x 1 3 = Ok r /\ r = Multi [Mono [2; 3] 1; Mono [2; 3] 1] 1 2.
Proof. exact ex_trim_audio. Qed.

(** ** C95 *)

Theorem C95_sound : forall rs y d L m h L' m', history rs y d L m h L' m' -> sound m -> sound m'.
Proof. exact x_reachable_sound. Qed.
Print Assumptions C95_sound.
Theorem C95_start : sound no_mem.
Proof. exact no_mem_sound. Qed.
Print Assumptions C95_start.
Theorem C95_only_writes : forall rs y d m c, sound m -> is_write c = false -> forall a, (a < length (arrs m))%nat -> exists_in m c -> samples (snd (perform rs y d c m)) a = samples m a.
Proof. exact x_only_writing. Qed.
Print Assumptions C95_only_writes.
Theorem C95_methods : forall rs y d m o v c op, length_regular rs -> sound m -> exists_in m c -> value m o = Some v -> method_on m o c = Some op ->
  match val_step rs v op with
  | Ok v' => exists m', perform rs y d c m = (Ok tt, m') /\ value m' o = Some v'
  | Err e => fst (perform rs y d c m) = Err e
  end.
Proof. exact x_methods_refine. Qed.
Print Assumptions C95_methods.
Theorem C95_runs : forall rs y d cs m o v v' ops, length_regular rs -> sound m -> (forall c, In c cs -> exists_in m c) -> value m o = Some v -> methods_on m o cs = Some ops -> run (val_step rs) v ops = Ok v' ->
  exists m', perform_all rs y d cs m = (Ok tt, m') /\ value m' o = Some v' /\ (forall a, (a < length (arrs m))%nat -> samples m' a = samples m a).
Proof. exact x_runs_refine. Qed.
Print Assumptions C95_runs.
Example C95_nonvacuous : exists L', history idle any_system (fun _ => None) (old_new no_mem) no_mem (map (pair true) ex_calls) L' ex_mem.
Proof. exact ex_history. Qed.
Example C95_runs_nonvacuous : exists v', length_regular idle /\ sound ex_mem /\ (forall c, In c [KResample 2 2; KConv 2 [PRef 1; PRef 1]] -> exists_in ex_mem c) /\ value ex_mem 2 = Some ex_val /\
  methods_on ex_mem 2 [KResample 2 2; KConv 2 [PRef 1; PRef 1]] = Some [OpResample 2; OpConv [arr1 [5; 6]; arr1 [5; 6]]] /\ run (val_step idle) ex_val [OpResample 2; OpConv [arr1 [5; 6]; arr1 [5; 6]]] = Ok v' /\
  exists a b, v' = SvMulti (Multi [Mono a 2; Mono b 2] 2 2) /\ length a = 4%nat /\ length b = 4%nat.
Proof. exact ex_run. Qed.

(** ** C96 *)

Theorem C96_array_is_kept : forall m a f i x, sound m -> (i < length (samples m a))%nat ->
  exists o m1 m2, mono_new f (PRef a) m = (Ok o, m1) /\ value m1 o = Some (SvMono (Mono (samples m a) f)) /\ write a i x m1 = (Ok tt, m2) /\ value m2 o = Some (SvMono (Mono (upd (samples m a) i x) f)).
Proof. exact x_array_is_kept. Qed.
Print Assumptions C96_array_is_kept.
Theorem C96_list_is_copied : forall m l f, sound m -> exists o m1, mono_new f (PLst l) m = (Ok o, m1) /\ value m1 o = Some (SvMono (Mono l f)) /\
  forall a i x, (a < length (arrs m))%nat -> value (snd (write a i x m1)) o = Some (SvMono (Mono l f)).
Proof. exact x_list_is_copied. Qed.
Print Assumptions C96_list_is_copied.
Theorem C96_window : forall m o s f a b t m1 q k x, sound m -> nth_error (objs m) o = Some (OMono s f) -> trim_obj o a b t m = (Ok tt, m1) -> value m1 o = Some (SvMono q) -> (k < length (m_sig q))%nat ->
  exists m2, write s (norm_idx (length (samples m s)) (py_int (a * IZR f)) + k) x m1 = (Ok tt, m2) /\ value m2 o = Some (SvMono (Mono (upd (m_sig q) k x) f)).
Proof. exact x_trim_is_a_window. Qed.
Print Assumptions C96_window.
Theorem C96_channels : forall m l f, (forall a, In a l -> (a < length (arrs m))%nat) ->
  exists o m1, multi_new (map PRef l) (Some f) m = (Ok o, m1) /\ length (arrays_of m1 o) = length l /\
    forall i j, (i < length l)%nat -> (j < length l)%nat -> (share m1 (nth i (arrays_of m1 o) 0%nat) (nth j (arrays_of m1 o) 0%nat) <-> share m (nth i l 0%nat) (nth j l 0%nat)).
Proof. exact x_channels_share. Qed.
Print Assumptions C96_channels.
Theorem C96_file_channels : forall y d name fs m o m1, from_file y d CMulti name fs m = (Ok o, m1) ->
  forall i j, (i < length (arrays_of m1 o))%nat -> (j < length (arrays_of m1 o))%nat -> i <> j ->
    ~ share m1 (nth i (arrays_of m1 o) 0%nat) (nth j (arrays_of m1 o) 0%nat) /\
    (forall v w, nth_error (arrs m1) (nth i (arrays_of m1 o) 0%nat) = Some v -> nth_error (arrs m1) (nth j (arrays_of m1 o) 0%nat) = Some w -> v_buf v = v_buf w).
Proof. exact x_file_channels. Qed.
Print Assumptions C96_file_channels.
Theorem C96_attributes : forall m l f o m1, length l = 4%nat -> (forall a, In a l -> (a < length (arrs m))%nat) -> ambi_new (map PRef l) (Some f) m = (Ok o, m1) ->
  length (arrays_of m1 o) = 8%nat /\ forall i, (i < 4)%nat -> nth_error (arrs m1) (nth (4 + i) (arrays_of m1 o) 0%nat) = nth_error (arrs m1) (nth i (arrays_of m1 o) 0%nat) /\ nth_error (arrs m1) (nth i (arrays_of m1 o) 0%nat) = nth_error (arrs m) (nth i l 0%nat).
Proof. exact x_ambi_attributes. Qed.
Print Assumptions C96_attributes.
Theorem C96_signals_new : forall m o l m1, sound m -> get_signals_obj o m = (Ok l, m1) -> forall a b, In a l -> (b < length (arrs m))%nat -> ~ share m1 a b.
Proof. exact x_signals_are_new. Qed.
Print Assumptions C96_signals_new.
Theorem C96_ownership_refuted : exists m a f o m1 m2 i x, sound m /\ mono_new f (PRef a) m = (Ok o, m1) /\ write a i x m1 = (Ok tt, m2) /\ value m2 o <> value m1 o.
Proof. exact f_ownership. Qed.
Print Assumptions C96_ownership_refuted.
Example C96_nonvacuous : exists m1 q, sound ex_mono /\ trim_obj 0 1 3 None ex_mono = (Ok tt, m1) /\ value m1 0 = Some (SvMono q) /\ q = Mono [2; 3] 1.
Proof. exact ex_window. Qed.
Example C96_share_nonvacuous : (forall a, In a [0; 0; 1]%nat -> (a < length (arrs ex_mem))%nat) /\ share ex_mem 0 0 /\ ~ share ex_mem 0 1.
Proof. exact ex_share. Qed.
Example C96_file_nonvacuous : exists o m1, from_file any_system ex_disk CMulti "x.wav" None ex_mem = (Ok o, m1) /\ length (arrays_of m1 o) = 3%nat /\
  value m1 o = Some (SvMulti (Multi [Mono [INR 0; INR 3] 4; Mono [INR 1; INR 4] 4; Mono [INR 2; INR 5] 4] 4 3)) /\
  forall x, value (snd (write (nth 1 (arrays_of m1 o) 0%nat) 0 x m1)) o = Some (SvMulti (Multi [Mono [INR 0; INR 3] 4; Mono [x; INR 4] 4; Mono [INR 2; INR 5] 4] 4 3)).
Proof. exact ex_file. Qed.
Example C96_attributes_nonvacuous : exists o m1, length [0; 0; 1; 1]%nat = 4%nat /\ (forall a, In a [0; 0; 1; 1]%nat -> (a < length (arrs ex_mem))%nat) /\ ambi_new (map PRef [0; 0; 1; 1]%nat) (Some 1%Z) ex_mem = (Ok o, m1) /\
  forall x, exists w, value (snd (write 1 0 x m1)) o = Some (SvAmbi w) /\ aW w = [1; 2; 3] /\ aY w = [x; 6] /\ map m_sig (channels (base w)) = [[1; 2; 3]; [1; 2; 3]; [x; 6]; [x; 6]].
Proof. exact ex_ambi. Qed.
Example C96_signals_nonvacuous : exists l m1, sound ex_mem /\ get_signals_obj 2 ex_mem = (Ok l, m1) /\ map (samples m1) l = [[1; 2; 3]; [1; 2; 3]].
Proof. exact ex_signals. Qed.

(** ** C105 *)

Theorem C105_mono : forall m f x, sound m -> (forall a, In a (parg_arrs x) -> (a < length (arrs m))%nat) ->
  exists o m1, mono_new f x m = (Ok o, m1) /\ value m1 o = Some (SvMono (Mono (parg_val m x) f)).
Proof. exact x_new_mono. Qed.
Print Assumptions C105_mono.
Theorem C105_multi : forall m xs fs, sound m -> (forall a, In a (flat_map parg_arrs xs) -> (a < length (arrs m))%nat) ->
  match fs with
  | Some f => exists o m1, multi_new xs fs m = (Ok o, m1) /\ value m1 o = Some (SvMulti (Multi (map (fun x => Mono (parg_val m x) f) xs) f (length xs)))
  | None => fst (multi_new xs fs m) = Err ValueError
  end.
Proof. exact x_new_multi. Qed.
Print Assumptions C105_multi.
Theorem C105_ambi : forall m xs fs, sound m -> (forall a, In a (flat_map parg_arrs xs) -> (a < length (arrs m))%nat) ->
  match fs, xs with
  | None, _ => fst (ambi_new xs fs m) = Err ValueError
  | Some f, [w; x; y; z] => exists o m1, ambi_new xs fs m = (Ok o, m1) /\
      value m1 o = Some (SvAmbi (AmbiB (Multi (map (fun x => Mono (parg_val m x) f) xs) f 4) (parg_val m w) (parg_val m x) (parg_val m y) (parg_val m z)))
  | Some f, _ => fst (ambi_new xs fs m) = Err AssertionError
  end.
Proof. exact x_new_ambi. Qed.
Print Assumptions C105_ambi.
Theorem C105_file : forall y d k name fs m, sound m ->
  match d (expanduser y name) with
  | None => fst (from_file y d k name fs m) = Err RuntimeError
  | Some (Audio rate B) =>
      let ch j := Mono (map (fun i => ent B i j) (seq 0 (nr B))) rate in
      if match fs with Some f => negb (Z.eqb f rate) | None => false end then fst (from_file y d k name fs m) = Err ValueError
      else match k with
           | CMono => if Nat.eqb (nc B) 1 then exists o m1, from_file y d k name fs m = (Ok o, m1) /\ value m1 o = Some (SvMono (ch 0%nat)) else fst (from_file y d k name fs m) = Err ValueError
           | CMulti => if Nat.eqb (nc B) 1 then fst (from_file y d k name fs m) = Err ValueError
                       else exists o m1, from_file y d k name fs m = (Ok o, m1) /\ value m1 o = Some (SvMulti (Multi (map ch (seq 0 (nc B))) rate (nc B)))
           | CAmbi => if Nat.eqb (nc B) 1 then fst (from_file y d k name fs m) = Err ValueError
                      else if Nat.eqb (nc B) 4
                      then exists o m1, from_file y d k name fs m = (Ok o, m1) /\
                             value m1 o = Some (SvAmbi (AmbiB (Multi (map ch [0; 1; 2; 3]%nat) rate 4) (m_sig (ch 0%nat)) (m_sig (ch 1%nat)) (m_sig (ch 2%nat)) (m_sig (ch 3%nat))))
                      else fst (from_file y d k name fs m) = Err AssertionError
           end
  end.
Proof. exact x_file_disk. Qed.
Print Assumptions C105_file.
Theorem C105_signals : forall m o v x, sound m -> value m o = Some v -> multi_of v = Some x ->
  match get_signals x with
  | Ok (n, rows) => exists l m1, get_signals_obj o m = (Ok l, m1) /\ map (samples m1) l = rows
  | Err e => fst (get_signals_obj o m) = Err e
  end.
Proof. exact x_signals. Qed.
Print Assumptions C105_signals.
Theorem C105_item : forall m o x i j, sound m -> value m o = Some (SvMono x) -> exists a m1, (let! s := sig_of o in sub s i j) m = (Ok a, m1) /\ samples m1 a = slice (m_sig x) i j.
Proof. exact x_item. Qed.
Print Assumptions C105_item.
Theorem C105_sh_to_b : forall m o v x, sound m -> value m o = Some v -> multi_of v = Some x ->
  match get_signals x with
  | Err e => fst (sh_to_b_obj o m) = Err e
  | Ok (n, rows) =>
      match sh_to_b (Mat (length rows) n (fun i j => nth j (nth i rows []) 0)) None with
      | Err e => fst (sh_to_b_obj o m) = Err e
      | Ok B =>
          let ch i := map (fun j => ent B i j) (seq 0 (nc B)) in
          exists p m1, sh_to_b_obj o m = (Ok p, m1) /\
            value m1 p = Some (SvAmbi (AmbiB (Multi (map (fun i => Mono (ch i) (mu_fs x)) [0; 1; 2; 3]%nat) (mu_fs x) 4) (ch 0%nat) (ch 1%nat) (ch 2%nat) (ch 3%nat)))
      end
  end.
Proof. exact x_sh_to_b. Qed.
Print Assumptions C105_sh_to_b.
Theorem C105_sh_to_b_mono : forall m o x, value m o = Some (SvMono x) -> fst (sh_to_b_obj o m) = Err AssertionError.
Proof. exact x_sh_to_b_mono. Qed.
Print Assumptions C105_sh_to_b_mono.
Example C105_nonvacuous : sound ex_mem /\ (forall a, In a (flat_map parg_arrs [PRef 1; PLst [7]; PRef 0; PRef 0]) -> (a < length (arrs ex_mem))%nat) /\ map (parg_val ex_mem) [PRef 1; PLst [7]; PRef 0; PRef 0] = [[5; 6]; [7]; [1; 2; 3]; [1; 2; 3]].
Proof. exact ex_new. Qed.
Example C105_file_nonvacuous : sf_read ex_disk (expanduser any_system "x.wav") = Ok (D2 (Mat 2 3 (fun i j => INR (3 * i + j))), 4%Z) /\ fst (from_file any_system ex_disk CMulti "x.wav" (Some 5%Z) ex_mem) = Err ValueError /\ fst (from_file any_system ex_disk CAmbi "x.wav" (Some 4%Z) ex_mem) = Err AssertionError /\ fst (from_file any_system ex_disk CMono "x.wav" None ex_mem) = Err ValueError.
Proof. exact ex_file_value. Qed.
Example C105_item_nonvacuous : exists x a m1, sound ex_mem /\ value ex_mem 1 = Some (SvMono x) /\ (let! s := sig_of 1 in sub s (-2) 9) ex_mem = (Ok a, m1) /\ samples m1 a = [2; 3].
Proof. exact ex_item. Qed.
Example C105_sh_to_b_nonvacuous : exists v x B, sound ex_four /\ value ex_four 4 = Some v /\ multi_of v = Some x /\ get_signals x = Ok (2%nat, [[1; 2]; [1; 2]; [1; 2]; [1; 2]]) /\ sh_to_b (Mat 4 2 (fun i j => nth j (nth i [[1; 2]; [1; 2]; [1; 2]; [1; 2]] []) 0)) None = Ok B /\ nr B = 4%nat /\ nc B = 2%nat.
Proof. exact ex_to_b. Qed.
