(** What constructors, files, get_signals, slices and sh_to_b give, as values. *)
From Coq Require Import String Lra Lia.
From Verif Require Import Base BaseFacts S_sig X_io1 M_utils M_sig M_process M_sph0 M_sph M_grids M_decoder M_decoder2 M_decoder3 M_parsa2 M_io M_sig2 S_sig2 P_sig P_sig2a P_sig2b P_sig2c P_sig2d P_sig2e P_sig2f P_sig2g X_sig2 X_sig2b.
Open Scope R_scope.

Lemma new_multi f xs m : ready m -> (forall a, In a (flat_map parg_arrs xs) -> (a < length (arrs m))%nat) ->
  exists o m1, multi_new xs (Some f) m = (Ok o, m1) /\ value m1 o = Some (SvMulti (Multi (map (fun x => Mono (parg_val m x) f) xs) f (length xs))).
Proof.
  intros Rm Ha. destruct (multi_chs_spec f xs m Rm Ha) as (m1 & E & X & R1 & M1 & V1). unfold multi_new. rewrite (pbind_ok _ _ _ _ _ E). cbn [fst snd]. rewrite seq_length. set (cs := seq (length (objs m)) (length xs)) in *. unfold new_obj. eexists _, _. split; [reflexivity|]. unfold value. cbn [objs]. rewrite nth_error_app2, Nat.sub_diag by lia. cbn [nth_error]. rewrite <- V1. do 3 f_equal. apply map_ext_in. intros c Hc. unfold channel_at. cbn [objs]. destruct (M1 c Hc) as (s & g & Ec). rewrite nth_error_app1 by (apply nth_error_Some; congruence). rewrite Ec. reflexivity.
Qed.
Lemma new_ambi f xs m : ready m -> (forall a, In a (flat_map parg_arrs xs) -> (a < length (arrs m))%nat) ->
  match xs with
  | [w; x; y; z] => exists o m1, ambi_new xs (Some f) m = (Ok o, m1) /\
      value m1 o = Some (SvAmbi (AmbiB (Multi (map (fun x => Mono (parg_val m x) f) xs) f 4) (parg_val m w) (parg_val m x) (parg_val m y) (parg_val m z)))
  | _ => fst (ambi_new xs (Some f) m) = Err AssertionError
  end.
Proof.
  intros Rm Ha. pose proof (ambi_obj_spec f xs m Rm Ha) as H. assert (G : fst (ambi_obj xs (Some f) m) = Err AssertionError -> fst (ambi_new xs (Some f) m) = Err AssertionError). { unfold ambi_new, pbind. destruct (ambi_obj xs (Some f) m) as [[q|e] m']; cbn [fst]; [discriminate|congruence]. }
  destruct xs as [|w [|x [|y [|z [|t xs]]]]]; try (apply G; exact H). destruct H as (m1 & aw & ax & ay & az & H). cbv zeta in H. destruct H as (E & X & R1 & M1 & V1 & S1 & _). unfold ambi_new. rewrite (pbind_ok _ _ _ _ _ E). set (cs := seq (length (objs m)) 4) in *. unfold new_obj. eexists _, _. split; [reflexivity|]. unfold value. cbn [objs]. rewrite nth_error_app2, Nat.sub_diag by lia. cbn [nth_error]. rewrite <- V1. cbn [map] in S1. injection S1 as <- <- <- <-. do 2 f_equal. f_equal. f_equal. apply map_ext_in. intros c Hc. unfold channel_at. cbn [objs]. destruct (M1 c Hc) as (s & g & Ec). rewrite nth_error_app1 by (apply nth_error_Some; congruence). rewrite Ec. reflexivity.
Qed.
(** constructors *)
Lemma x_new_mono : forall m f x, sound m -> (forall a, In a (parg_arrs x) -> (a < length (arrs m))%nat) ->
  exists o m1, mono_new f x m = (Ok o, m1) /\ value m1 o = Some (SvMono (Mono (parg_val m x) f)).
Proof. intros m f x S Ha. destruct (mono_new_spec f x m (sound_ready m S) Ha) as (m1 & E & _ & _ & (s & g & M) & V). eexists _, m1. split; [exact E|]. unfold value. rewrite M. rewrite (channel_mono _ _ _ _ M) in V. rewrite V. reflexivity. Qed.
Lemma x_new_multi : forall m xs fs, sound m -> (forall a, In a (flat_map parg_arrs xs) -> (a < length (arrs m))%nat) ->
  match fs with
  | Some f => exists o m1, multi_new xs fs m = (Ok o, m1) /\ value m1 o = Some (SvMulti (Multi (map (fun x => Mono (parg_val m x) f) xs) f (length xs)))
  | None => fst (multi_new xs fs m) = Err ValueError
  end.
Proof. intros m xs [f|] S Ha; [apply new_multi; [apply sound_ready; exact S|exact Ha]|reflexivity]. Qed.
Lemma x_new_ambi : forall m xs fs, sound m -> (forall a, In a (flat_map parg_arrs xs) -> (a < length (arrs m))%nat) ->
  match fs, xs with
  | None, _ => fst (ambi_new xs fs m) = Err ValueError
  | Some f, [w; x; y; z] => exists o m1, ambi_new xs fs m = (Ok o, m1) /\
      value m1 o = Some (SvAmbi (AmbiB (Multi (map (fun x => Mono (parg_val m x) f) xs) f 4) (parg_val m w) (parg_val m x) (parg_val m y) (parg_val m z)))
  | Some f, _ => fst (ambi_new xs fs m) = Err AssertionError
  end.
Proof. intros m xs [f|] S Ha; [exact (new_ambi f xs m (sound_ready m S) Ha)|reflexivity]. Qed.
(** columns and rows of a matrix in one buffer *)
Lemma flat_nth B i j : (i < nr B)%nat -> (j < nc B)%nat -> nth (i * nc B + j) (flat_mat B) 0 = ent B i j.
Proof.
  intros I J. unfold flat_mat. assert (G : forall k s, (i < k)%nat -> nth (i * nc B + j) (flat_map (fun i => map (ent B i) (seq 0 (nc B))) (seq s k)) 0 = ent B (s + i) j); [|rewrite (G (nr B) 0%nat I); reflexivity].
  clear I. induction i as [|i IH]; intros [|k] s K; try lia; cbn [seq flat_map].
  - rewrite app_nth1 by (rewrite map_length, seq_length; lia). cbn [Nat.mul Nat.add]. rewrite Nat.add_0_r. apply (nth_map_seq (ent B s)). exact J.
  - rewrite app_nth2 by (rewrite map_length, seq_length; cbn; lia). rewrite map_length, seq_length. replace (S i * nc B + j - nc B)%nat with (i * nc B + j)%nat by (cbn; lia). rewrite IH by lia. f_equal. lia.
Qed.
Definition column (B : mat) (j : nat) : list R := map (fun i => ent B i j) (seq 0 (nr B)).
Definition row (B : mat) (i : nat) : list R := map (fun j => ent B i j) (seq 0 (nc B)).
Lemma cols_values B m : ready m -> exists m', new_cols (nr B) (nc B) (flat_mat B) m = (Ok (seq (length (arrs m)) (nc B)), m') /\ ready m' /\ (forall a, In a (seq (length (arrs m)) (nc B)) -> (a < length (arrs m'))%nat) /\ map (samples m') (seq (length (arrs m)) (nc B)) = map (column B) (seq 0 (nc B)).
Proof.
  intros Rm. rewrite new_cols_spec. set (m' := Mem _ _ _). exists m'. assert (X : ext m m') by (exists [flat_mat B], (map (fun j => Arr (length (bufs m)) j (nc B) (nr B)) (seq 0 (nc B))), []; unfold m'; cbn [bufs arrs objs]; rewrite app_nil_r; auto). split; [reflexivity|]. split; [apply (ready_ext m); [|exact X|reflexivity|exact Rm]|split].
  - intros a v E. unfold m' in *. cbn [arrs bufs] in *. rewrite app_length. cbn [length]. destruct (Nat.lt_ge_cases a (length (arrs m))) as [L|L]; [rewrite nth_error_app1 in E by exact L; pose proof (proj1 Rm a v E); lia|]. rewrite nth_error_app2 in E by exact L. apply nth_error_In, in_map_iff in E. destruct E as (j & <- & _). cbn. lia.
  - intros a Ha. apply in_seq in Ha. unfold m'. cbn [arrs]. rewrite app_length, map_length, seq_length. lia.
  - apply (nth_ext _ _ [] []); [rewrite !map_length, !seq_length; reflexivity|]. rewrite map_length, seq_length. intros j J. rewrite (nth_map_in _ _ j [] 0%nat), (nth_map_in (column B) _ j [] 0%nat), !seq_nth by (rewrite ?seq_length; exact J). cbn [Nat.add]. unfold samples, m'. cbn [arrs bufs]. rewrite nth_error_app2 by lia. replace (length (arrs m) + j - length (arrs m))%nat with j by lia. rewrite nth_error_map, (nth_error_nth' _ 0%nat), seq_nth by (rewrite ?seq_length; exact J). cbn [option_map Nat.add v_buf]. rewrite app_nth2, Nat.sub_diag by lia. cbn [nth]. unfold view_of, column. cbn [v_off v_step v_len]. apply map_ext_in. intros i Hi. apply in_seq in Hi. rewrite <- flat_nth by lia. f_equal. lia.
Qed.
Lemma rows_values B m : ready m -> exists m', new_rows (nr B) (nc B) (flat_mat B) m = (Ok (seq (length (arrs m)) (nr B)), m') /\ ext m m' /\ ready m' /\ objs m' = objs m /\ (forall a, In a (seq (length (arrs m)) (nr B)) -> (a < length (arrs m'))%nat) /\ map (samples m') (seq (length (arrs m)) (nr B)) = map (row B) (seq 0 (nr B)).
Proof.
  intros Rm. rewrite new_rows_spec. set (m' := Mem _ _ _). exists m'. assert (X : ext m m') by (exists [flat_mat B], (map (fun r => Arr (length (bufs m)) (r * nc B) 1 (nc B)) (seq 0 (nr B))), []; unfold m'; cbn [bufs arrs objs]; rewrite app_nil_r; auto). split; [reflexivity|]. split; [exact X|]. split; [apply (ready_ext m); [|exact X|reflexivity|exact Rm]|split; [reflexivity|split]].
  - intros a v E. unfold m' in *. cbn [arrs bufs] in *. rewrite app_length. cbn [length]. destruct (Nat.lt_ge_cases a (length (arrs m))) as [L|L]; [rewrite nth_error_app1 in E by exact L; pose proof (proj1 Rm a v E); lia|]. rewrite nth_error_app2 in E by exact L. apply nth_error_In, in_map_iff in E. destruct E as (j & <- & _). cbn. lia.
  - intros a Ha. apply in_seq in Ha. unfold m'. cbn [arrs]. rewrite app_length, map_length, seq_length. lia.
  - apply (nth_ext _ _ [] []); [rewrite !map_length, !seq_length; reflexivity|]. rewrite map_length, seq_length. intros j J. rewrite (nth_map_in _ _ j [] 0%nat), (nth_map_in (row B) _ j [] 0%nat), !seq_nth by (rewrite ?seq_length; exact J). cbn [Nat.add]. unfold samples, m'. cbn [arrs bufs]. rewrite nth_error_app2 by lia. replace (length (arrs m) + j - length (arrs m))%nat with j by lia. rewrite nth_error_map, (nth_error_nth' _ 0%nat), seq_nth by (rewrite ?seq_length; exact J). cbn [option_map Nat.add v_buf]. rewrite app_nth2, Nat.sub_diag by lia. cbn [nth]. unfold view_of, row. cbn [v_off v_step v_len]. apply map_ext_in. intros i Hi. apply in_seq in Hi. rewrite <- flat_nth by lia. f_equal. lia.
Qed.
Lemma refs_arrs l : flat_map parg_arrs (map PRef l) = l.
Proof. induction l as [|a l IH]; [reflexivity|]. cbn. rewrite IH. reflexivity. Qed.
(** a file *)
Lemma x_file : forall y d k name fs m, sound m ->
  match sf_read d (expanduser y name) with
  | Err e => fst (from_file y d k name fs m) = Err e
  | Ok (content, rate) =>
      if match fs with Some f => negb (Z.eqb f rate) | None => false end then fst (from_file y d k name fs m) = Err ValueError
      else
        let ch B j := Mono (map (fun i => ent B i j) (seq 0 (nr B))) rate in
        match k, content with
        | CMono, D1 x => exists o m1, from_file y d k name fs m = (Ok o, m1) /\ value m1 o = Some (SvMono (Mono x rate))
        | CMulti, D2 B => exists o m1, from_file y d k name fs m = (Ok o, m1) /\ value m1 o = Some (SvMulti (Multi (map (ch B) (seq 0 (nc B))) rate (nc B)))
        | CAmbi, D2 B =>
            if Nat.eqb (nc B) 4
            then exists o m1, from_file y d k name fs m = (Ok o, m1) /\
                   value m1 o = Some (SvAmbi (AmbiB (Multi (map (ch B) [0; 1; 2; 3]%nat) rate 4) (m_sig (ch B 0%nat)) (m_sig (ch B 1%nat)) (m_sig (ch B 2%nat)) (m_sig (ch B 3%nat))))
            else fst (from_file y d k name fs m) = Err AssertionError
        | _, _ => fst (from_file y d k name fs m) = Err ValueError
        end
  end.
Proof.
  intros y d k name fs m S. unfold from_file. destruct (sf_read d (expanduser y name)) as [[content rate]|e]; [|reflexivity]. cbn [fst snd].
  assert (FR : file_rate fs rate = if match fs with Some f => negb (Z.eqb f rate) | None => false end then Err ValueError else Ok rate). { unfold file_rate. destruct fs as [f|]; [|reflexivity]. destruct (Z.eqb_spec f rate) as [->|]; reflexivity. }
  destruct (match fs with Some f => negb (Z.eqb f rate) | None => false end); [unfold plift, pbind; cbn [fst snd]; rewrite FR; reflexivity|].
  cbv zeta. pose proof (sound_ready m S) as Rm. 
  destruct k, content as [x|B]; unfold plift; match goal with |- context [pbind ?a ?f m] => change (pbind a f m) with (f (match a m with (Ok q, _) => q | _ => (D1 [], 0%Z) end) m) end; cbn [fst snd]; rewrite FR; match goal with |- context [pbind ?a ?f m] => change (pbind a f m) with (f rate m) end; cbv beta; try reflexivity.
  - destruct (new_arr_spec x m (proj1 Rm)) as (m0 & E & X & C0 & O0 & S0 & L0). rewrite (pbind_ok _ _ _ _ _ E). destruct (mono_new_spec rate (PRef (length (arrs m))) m0 (ready_ext m m0 C0 X O0 Rm)) as (m1 & E1 & _ & _ & (s & g & M) & V); [intros a [<-|[]]; exact L0|]. eexists _, m1. split; [exact E1|]. unfold value. rewrite M. rewrite (channel_mono _ _ _ _ M) in V. rewrite V. cbn [parg_val]. rewrite S0. reflexivity.
  - destruct (cols_values B m Rm) as (m0 & E & R0 & L0 & S0). rewrite (pbind_ok _ _ _ _ _ E). destruct (new_multi rate (map PRef (seq (length (arrs m)) (nc B))) m0 R0) as (o & m1 & E1 & V); [rewrite refs_arrs; exact L0|]. exists o, m1. split; [exact E1|]. rewrite V, map_length, seq_length, map_map. cbn [parg_val]. do 3 f_equal. change (map (fun a => Mono (samples m0 a) rate) (seq (length (arrs m)) (nc B)) = map (fun j => Mono (column B j) rate) (seq 0 (nc B))). rewrite <- (map_map (samples m0) (fun l => Mono l rate)), S0, map_map. reflexivity.
  - destruct (cols_values B m Rm) as (m0 & E & R0 & L0 & S0). rewrite (pbind_ok _ _ _ _ _ E). pose proof (new_ambi rate (map PRef (seq (length (arrs m)) (nc B))) m0 R0 ltac:(rewrite refs_arrs; exact L0)) as H. destruct (Nat.eqb_spec (nc B) 4) as [E4|N4].
    + rewrite E4 in *. cbn [seq map] in *. destruct H as (o & m1 & E1 & V). exists o, m1. split; [exact E1|]. rewrite V. cbn [parg_val m_sig]. injection S0 as -> -> -> ->. reflexivity.
    + destruct (nc B) as [|[|[|[|[|n]]]]]; try exact H. lia.
Qed.
(** the same, by what is on the disk *)
Lemma x_file_disk : forall y d k name fs m, sound m ->
  match d (expanduser y name) with
  | None => fst (from_file y d k name fs m) = Err RuntimeError
  | Some (Audio rate B) =>
      let ch j := Mono (map (fun i => ent B i j) (seq 0 (nr B))) rate in
      if match fs with Some f => negb (Z.eqb f rate) | None => false end then fst (from_file y d k name fs m) = Err ValueError
      else match k with
           | CMono => if Nat.eqb (nc B) 1 then exists o m1, from_file y d k name fs m = (Ok o, m1) /\ value m1 o = Some (SvMono (ch 0%nat)) else fst (from_file y d k name fs m) = Err ValueError
           | CMulti => if Nat.eqb (nc B) 1 then fst (from_file y d k name fs m) = Err ValueError
                       else exists o m1, from_file y d k name fs m = (Ok o, m1) /\ value m1 o = Some (SvMulti (Multi (map ch (seq 0 (nc B))) rate (nc B)))
           | CAmbi => if Nat.eqb (nc B) 1 then fst (from_file y d k name fs m) = Err ValueError
                      else if Nat.eqb (nc B) 4
                      then exists o m1, from_file y d k name fs m = (Ok o, m1) /\
                             value m1 o = Some (SvAmbi (AmbiB (Multi (map ch [0; 1; 2; 3]%nat) rate 4) (m_sig (ch 0%nat)) (m_sig (ch 1%nat)) (m_sig (ch 2%nat)) (m_sig (ch 3%nat))))
                      else fst (from_file y d k name fs m) = Err AssertionError
           end
  end.
Proof.
  intros y d k name fs m S. pose proof (x_file y d k name fs m S) as H. unfold sf_read in H. destruct (d (expanduser y name)) as [[rate B]|]; [|exact H]. cbn [au_data au_fs] in *. cbv zeta in *. destruct (match fs with Some f => negb (Z.eqb f rate) | None => false end); [exact H|].
  destruct (Nat.eqb_spec (nc B) 1) as [E|N]; destruct k; try exact H. unfold columns in H. rewrite E in H. exact H.
Qed.
(** get_signals and slices *)
Definition multi_of (v : sigval) : option multi := match v with SvMono _ => None | SvMulti x => Some x | SvAmbi x => Some (base x) end.
Lemma value_stacked m o v x : sound m -> value m o = Some v -> multi_of v = Some x -> exists b, nth_error (objs m) o = Some b /\ match b with OMono _ _ => False | OMulti _ f _ | OAmbi _ f _ _ _ _ _ => f = mu_fs x end /\ stacked o m = (let* g := get_signals x in Ok (snd g), m).
Proof.
  intros S V M. unfold value in V. destruct (nth_error (objs m) o) as [b|] eqn:E; [|discriminate]. exists b. split; [reflexivity|]. pose proof (stacked_spec m o b S E) as Q. destruct b as [s f|cs f n|cs f n w q p z]; injection V as <-; cbn [multi_of base] in M; [discriminate| |]; injection M as <-; cbn [mu_fs]; (split; [reflexivity|]); rewrite Q; cbn [chs_of]; rewrite (get_signals_fs _ f n); reflexivity.
Qed.
Lemma x_signals : forall m o v x, sound m -> value m o = Some v -> multi_of v = Some x ->
  match get_signals x with
  | Ok (n, rows) => exists l m1, get_signals_obj o m = (Ok l, m1) /\ map (samples m1) l = rows
  | Err e => fst (get_signals_obj o m) = Err e
  end.
Proof.
  intros m o v x S V M. destruct (value_stacked m o v x S V M) as (b & E & _ & Q). unfold get_signals_obj. destruct (get_signals x) as [[n rows]|e] eqn:G; cbn [bind snd] in Q; [|unfold pbind; rewrite Q; reflexivity]. rewrite (pbind_ok _ _ _ _ _ Q).
  assert (F : forall q, In q rows -> length q = row_len rows). { unfold get_signals in G. destruct (channels x) as [|c cs]; [injection G as <- <-; intros q []|]. destruct (forallb _ cs) eqn:FB; [|discriminate]. injection G as <- <-. cbn [map row_len]. intros q [<-|I]; [reflexivity|]. apply in_map_iff in I. destruct I as (d & <- & I). apply Nat.eqb_eq. exact (proj1 (forallb_forall _ _) FB d I). }
  destruct (rows_spec m rows (proj1 (sound_ready m S)) F) as (m1 & E1 & _ & _ & _ & _ & S1). exists (seq (length (arrs m)) (length rows)), m1. split; [exact E1|exact S1].
Qed.
Lemma x_item : forall m o x i j, sound m -> value m o = Some (SvMono x) -> exists a m1, (let! s := sig_of o in sub s i j) m = (Ok a, m1) /\ samples m1 a = slice (m_sig x) i j.
Proof.
  intros m o x i j S V. unfold value in V. destruct (nth_error (objs m) o) as [[s f|cs f n|cs f n w q p z]|] eqn:E; try discriminate. injection V as <-. rewrite (pbind_ok _ _ _ _ _ (sig_of_ok m o s f E)). destruct (sub_spec m s i j (proj1 (sound_ready m S)) (proj2 (sound_ready m S) o s f E)) as (m1 & E1 & _ & _ & _ & S1 & _). eexists _, m1. split; [exact E1|exact S1].
Qed.
(** AmbiBSignal.sh_to_b *)
Lemma x_sh_to_b : forall m o v x, sound m -> value m o = Some v -> multi_of v = Some x ->
  match get_signals x with
  | Err e => fst (sh_to_b_obj o m) = Err e
  | Ok (n, rows) =>
      match sh_to_b (Mat (length rows) n (fun i j => nth j (nth i rows []) 0)) None with
      | Err e => fst (sh_to_b_obj o m) = Err e
      | Ok B =>
          let ch i := map (fun j => ent B i j) (seq 0 (nc B)) in
          exists p m1, sh_to_b_obj o m = (Ok p, m1) /\
            value m1 p = Some (SvAmbi (AmbiB (Multi (map (fun i => Mono (ch i) (mu_fs x)) [0; 1; 2; 3]%nat) (mu_fs x) 4) (ch 0%nat) (ch 1%nat) (ch 2%nat) (ch 3%nat)))
      end
  end.
Proof.
  intros m o v x S V M. destruct (value_stacked m o v x S V M) as (b & E & FS & _). assert (LO : (o < length (objs m))%nat) by (apply nth_error_Some; congruence). destruct (x_copy_says_the_same m o S LO) as (c & m1 & E1 & S1 & V1 & _ & K1 & _). rewrite V in V1. destruct (value_stacked m1 c v x S1 V1 M) as (b1 & _ & _ & Q).
  assert (EQ : sh_to_b_obj o m = (let! l := stacked c in let! B := plift (sh_to_b (rows_mat l) None) in let! rows := new_rows (nr B) (nc B) (flat_mat B) in let! fs := fs_of o in ambi_new (map PRef rows) (Some fs)) m1). { unfold sh_to_b_obj. rewrite (pbind_ok _ _ _ _ _ (get_obj_ok m o b E)). destruct b; [contradiction| |]; rewrite (pbind_ok _ _ _ _ _ E1); reflexivity. }
  rewrite EQ. clear EQ. destruct (get_signals x) as [[n rows]|e] eqn:G; cbn [bind snd] in Q; [|unfold pbind; rewrite Q; reflexivity]. rewrite (pbind_ok _ _ _ _ _ Q).
  assert (RL : row_len rows = n). { unfold get_signals in G. destruct (channels x) as [|q cs]; [injection G as <- <-; reflexivity|]. destruct (forallb _ cs) eqn:FB; [|discriminate]. injection G as <- <-. reflexivity. }
  unfold rows_mat. rewrite RL. destruct (sh_to_b _ None) as [B|e] eqn:EB; [|reflexivity]. assert (N4 : nr B = 4%nat). { unfold sh_to_b, apply_columns in EB. destruct (Nat.eqb _ 0); [discriminate|]. unfold matmul in EB. destruct (Nat.eqb _ _); [|discriminate]. injection EB as <-. reflexivity. }
  cbv zeta. unfold plift, pbind at 1. pose proof (sound_ready m1 S1) as R1. destruct (rows_values B m1 R1) as (m2 & E2 & X2 & R2 & O2 & L2 & V2). rewrite (pbind_ok _ _ _ _ _ E2). destruct (nth_error (objs m1) o) as [b'|] eqn:Eb; [|exfalso; specialize (K1 o LO); rewrite V in K1; unfold value in K1; rewrite Eb in K1; discriminate]. rewrite <- O2 in Eb.
  assert (FS' : fs_of o m2 = (Ok (mu_fs x), m2)). { rewrite (fs_of_ok m2 o b' Eb). f_equal. f_equal. specialize (K1 o LO). rewrite V in K1. unfold value in K1. rewrite <- O2, Eb in K1. destruct b'; injection K1 as <-; cbn [multi_of base] in M; [discriminate| |]; injection M as <-; reflexivity. }
  rewrite (pbind_ok _ _ _ _ _ FS'). rewrite N4 in *. pose proof (new_ambi (mu_fs x) (map PRef (seq (length (arrs m1)) 4)) m2 R2 ltac:(rewrite refs_arrs; exact L2)) as H. cbn [seq map] in *. destruct H as (p & m3 & E3 & V3). exists p, m3. split; [exact E3|]. rewrite V3. cbn [parg_val]. injection V2 as -> -> -> ->. reflexivity.
Qed.
Lemma x_sh_to_b_mono : forall m o x, value m o = Some (SvMono x) -> fst (sh_to_b_obj o m) = Err AssertionError.
Proof. intros m o x V. unfold value in V. destruct (nth_error (objs m) o) as [[s f|cs f n|cs f n w q p z]|] eqn:E; try discriminate. unfold sh_to_b_obj. rewrite (pbind_ok _ _ _ _ _ (get_obj_ok m o _ E)). reflexivity. Qed.

(** * Examples *)
Lemma ex_new : sound ex_mem /\ (forall a, In a (flat_map parg_arrs [PRef 1; PLst [7]; PRef 0; PRef 0]) -> (a < length (arrs ex_mem))%nat) /\ map (parg_val ex_mem) [PRef 1; PLst [7]; PRef 0; PRef 0] = [[5; 6]; [7]; [1; 2; 3]; [1; 2; 3]].
Proof. split; [exact ex_sound|]. split; [cbn; intuition (subst; cbn; lia)|reflexivity]. Qed.
Lemma ex_file_value : sf_read ex_disk (expanduser any_system "x.wav") = Ok (D2 (Mat 2 3 (fun i j => INR (3 * i + j))), 4%Z) /\ fst (from_file any_system ex_disk CMulti "x.wav" (Some 5%Z) ex_mem) = Err ValueError /\ fst (from_file any_system ex_disk CAmbi "x.wav" (Some 4%Z) ex_mem) = Err AssertionError /\ fst (from_file any_system ex_disk CMono "x.wav" None ex_mem) = Err ValueError.
Proof. repeat split; reflexivity. Qed.
Lemma ex_item : exists x a m1, sound ex_mem /\ value ex_mem 1 = Some (SvMono x) /\ (let! s := sig_of 1 in sub s (-2) 9) ex_mem = (Ok a, m1) /\ samples m1 a = [2; 3].
Proof. eexists _, _, _. split; [exact ex_sound|]. split; [reflexivity|]. split; [reflexivity|]. reflexivity. Qed.
Definition ex_four : mem := Mem [[1; 2]] [Arr 0 0 1 2] [OMono 0 1; OMono 0 1; OMono 0 1; OMono 0 1; OMulti [0; 1; 2; 3]%nat 1 4].
Lemma ex_to_b : exists v x B, sound ex_four /\ value ex_four 4 = Some v /\ multi_of v = Some x /\ get_signals x = Ok (2%nat, [[1; 2]; [1; 2]; [1; 2]; [1; 2]]) /\ sh_to_b (Mat 4 2 (fun i j => nth j (nth i [[1; 2]; [1; 2]; [1; 2]; [1; 2]] []) 0)) None = Ok B /\ nr B = 4%nat /\ nc B = 2%nat.
Proof.
  eexists _, _, _. split.
  { destruct (x_new_multi no_mem [PLst [1]] (Some 1%Z) no_mem_sound) as (o & m1 & _); [intros a []|]. assert (H : exists L', history idle any_system (fun _ => None) (old_new no_mem) no_mem (map (pair true) [KArray [1; 2]; KMulti [PRef 0; PRef 0; PRef 0; PRef 0] (Some 1%Z)]) L' ex_four).
    - eexists. cbn [map]. eapply history_call; [split; [intros a []|intros q []]|]. eapply history_call; [split; [intros a [<-|[<-|[<-|[<-|[]]]]]; (split; [cbn; lia|reflexivity])|intros q []]|]. apply history_start.
    - destruct H as (L' & H). exact (x_reachable_sound _ _ _ _ _ _ _ _ H no_mem_sound). }
  split; [reflexivity|]. split; [reflexivity|]. split; [reflexivity|]. split; [reflexivity|]. split; reflexivity.
Qed.
