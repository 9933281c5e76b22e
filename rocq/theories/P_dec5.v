(** Rim detection: parity of the rim. *)
From Verif Require Import Base BaseFacts M_utils M_sig M_process M_decoder S_utils S_decoder P_utils P_sig P_dec1 P_dec2 P_dec3 P_dec4.
Local Open Scope nat_scope.

Fixpoint nsum (n : nat) (f : nat -> nat) : nat := match n with O => 0 | S k => nsum k f + f k end.
Lemma nsum_ext n f g : (forall i, i < n -> f i = g i) -> nsum n f = nsum n g.
Proof. induction n; cbn; intro H; auto. rewrite IHn by (intros; apply H; lia). rewrite H by lia. reflexivity. Qed.
Lemma nsum_plus n f g : nsum n (fun i => f i + g i) = nsum n f + nsum n g.
Proof. induction n; cbn; lia. Qed.
Lemma nsum_scal n c f : nsum n (fun i => c * f i) = c * nsum n f.
Proof. induction n; cbn; [lia|]. rewrite IHn. lia. Qed.
Lemma nsum_0 n : nsum n (fun _ => 0) = 0.
Proof. induction n; cbn; lia. Qed.
Lemma nsum_single n a f : a < n -> nsum n (fun i => if Nat.eqb i a then f i else 0) = f a.
Proof.
  induction n; cbn; intro H; [lia|]. destruct (Nat.eq_dec a n) as [->|ne].
  - rewrite Nat.eqb_refl. rewrite (nsum_ext n _ (fun _ => 0)); [rewrite nsum_0; lia|].
    intros i Hi. destruct (Nat.eqb_spec i n); [lia|reflexivity].
  - rewrite IHn by lia. destruct (Nat.eqb_spec n a); [lia|lia].
Qed.

Definition memb (v : nat) (f : face) : bool := existsb (Nat.eqb v) (fv f).
Lemma memb_spec v f : memb v f = true <-> In v (fv f).
Proof. apply mem_in. Qed.
Lemma memb_eq v a b c : memb v (a, b, c) = (Nat.eqb v a || (Nat.eqb v b || Nat.eqb v c))%bool.
Proof. unfold memb. cbn [fv existsb]. rewrite orb_false_r. reflexivity. Qed.

(** sum of [phi] over the sides of [f] at [v], by the other endpoint *)
Definition sides (v : nat) (phi : nat -> nat) (f : face) : nat :=
  let '(a, b, c) := f in
  (if Nat.eqb v a then phi b + phi c else 0) + (if Nat.eqb v b then phi a + phi c else 0) + (if Nat.eqb v c then phi a + phi b else 0).
Definition below (n : nat) (f : face) : Prop := forall w, In w (fv f) -> w < n.
Lemma sides_sum n v phi f : distinct f -> below n f ->
  sides v phi f = nsum n (fun w => if (memb v f && memb w f && negb (Nat.eqb w v))%bool then phi w else 0).
Proof.
  destruct f as [[a b] c]. intros [d1 [d2 d3]] B. unfold below in B. cbn [fv] in B.
  assert (Ba : a < n) by (apply B; cbn; auto). assert (Bb : b < n) by (apply B; cbn; auto). assert (Bc : c < n) by (apply B; cbn; auto).
  unfold sides. rewrite memb_eq.
  destruct (Nat.eqb_spec v a) as [->|na]; [|destruct (Nat.eqb_spec v b) as [->|nb]; [|destruct (Nat.eqb_spec v c) as [->|nc]]]; cbn [orb andb].
  - destruct (Nat.eqb_spec a b); [lia|]. destruct (Nat.eqb_spec a c); [lia|].
    rewrite (nsum_ext n _ (fun w => (if Nat.eqb w b then phi w else 0) + (if Nat.eqb w c then phi w else 0))).
    + rewrite nsum_plus, !nsum_single by assumption. lia.
    + intros w _. rewrite memb_eq. destruct (Nat.eqb_spec w a), (Nat.eqb_spec w b), (Nat.eqb_spec w c); cbn; try lia.
  - destruct (Nat.eqb_spec b c); [lia|].
    rewrite (nsum_ext n _ (fun w => (if Nat.eqb w a then phi w else 0) + (if Nat.eqb w c then phi w else 0))).
    + rewrite nsum_plus, !nsum_single by assumption. lia.
    + intros w _. rewrite memb_eq. destruct (Nat.eqb_spec w a), (Nat.eqb_spec w b), (Nat.eqb_spec w c); cbn; try lia.
  - rewrite (nsum_ext n _ (fun w => (if Nat.eqb w a then phi w else 0) + (if Nat.eqb w b then phi w else 0))).
    + rewrite nsum_plus, !nsum_single by assumption. lia.
    + intros w _. rewrite memb_eq. destruct (Nat.eqb_spec w a), (Nat.eqb_spec w b), (Nat.eqb_spec w c); cbn; try lia.
  - rewrite nsum_0. lia.
Qed.
Definition total (vs : list face) (g : face -> nat) : nat := list_sum (map g vs).
Lemma total_cons f vs g : total (f :: vs) g = g f + total vs g.
Proof. reflexivity. Qed.
Lemma total_sides n v phi vs : Forall distinct vs -> Forall (below n) vs ->
  total vs (sides v phi) = nsum n (fun w => if Nat.eqb w v then 0 else phi w * shared vs v w).
Proof.
  intros D B. induction vs as [|f t IH].
  - unfold shared. cbn. rewrite (nsum_ext n _ (fun _ => 0)); [rewrite nsum_0; reflexivity|]. intros w _. destruct (Nat.eqb w v); lia.
  - inversion D; subst. inversion B; subst. rewrite total_cons, IH by assumption.
    rewrite (sides_sum n v phi f) by assumption. rewrite <- nsum_plus. apply nsum_ext. intros w _.
    unfold shared. cbn [filter]. fold (memb v f) (memb w f). destruct (memb v f), (memb w f), (Nat.eqb w v); cbn [andb negb length]; lia.
Qed.

(** the model's edge count *)
Lemma edge_count_shared vs u v : Forall distinct vs -> u <> v -> edge_count vs (u, v) = shared vs u v.
Proof.
  intros D N. unfold edge_count, shared. cbn [fst snd]. f_equal. apply filter_ext_all. intros f I.
  rewrite Forall_forall in D. specialize (D f I). destruct f as [[a b] c]. destruct D as [d1 [d2 d3]].
  unfold isin_sum. cbn [fv filter existsb]. rewrite !orb_false_r.
  destruct (Nat.eqb_spec a u), (Nat.eqb_spec a v), (Nat.eqb_spec b u), (Nat.eqb_spec b v), (Nat.eqb_spec c u), (Nat.eqb_spec c v);
   destruct (Nat.eqb_spec u a), (Nat.eqb_spec u b), (Nat.eqb_spec u c), (Nat.eqb_spec v a), (Nat.eqb_spec v b), (Nat.eqb_spec v c);
   cbn; try reflexivity; congruence.
Qed.
Lemma shared_sym vs u v : shared vs u v = shared vs v u.
Proof. unfold shared. f_equal. apply filter_ext_all. intros f _. apply andb_comm. Qed.
Lemma shared_pos vs f u v : In f vs -> In u (fv f) -> In v (fv f) -> 1 <= shared vs u v.
Proof.
  intros I U V. unfold shared.
  assert (In f (filter (fun f => (existsb (Nat.eqb u) (fv f) && existsb (Nat.eqb v) (fv f))%bool) vs)).
  { apply filter_In. split; auto. apply andb_true_intro. split; apply mem_in; assumption. }
  destruct (filter _ vs); [destruct H|cbn; lia].
Qed.

Definition rimw (vs : list face) (v w : nat) : nat := if Nat.eqb (shared vs v w) 1 then 1 else 0.
Lemma count_rim vs v l : Forall distinct vs -> (forall f, In f l -> In f vs) ->
  count_occ Nat.eq_dec (flat_map (fun e => [fst e; snd e]) (flat_map (fun f => filter (fun e => Nat.eqb (edge_count vs e) 1) (edges f)) l)) v
  = total l (sides v (rimw vs v)).
Proof.
  intros D. induction l as [|f t IH]; intro S; [reflexivity|].
  cbn [flat_map]. rewrite flat_map_app, count_occ_app, total_cons.
  rewrite IH by (intros; apply S; right; assumption). f_equal.
  assert (If : In f vs) by (apply S; left; reflexivity). rewrite Forall_forall in D. pose proof (D f If) as Df.
  destruct f as [[a b] c]. destruct Df as [d1 [d2 d3]]. cbn [edges filter].
  assert (D' : Forall distinct vs) by (apply Forall_forall; exact D).
  rewrite !edge_count_shared by auto. unfold sides, rimw.
  destruct (Nat.eqb_spec (shared vs a b) 1) as [e1|e1]; destruct (Nat.eqb_spec (shared vs b c) 1) as [e2|e2]; destruct (Nat.eqb_spec (shared vs a c) 1) as [e3|e3];
   cbn [flat_map app fst snd count_occ];
   destruct (Nat.eqb_spec v a) as [->|na]; try (destruct (Nat.eqb_spec a b); [lia|]; destruct (Nat.eqb_spec a c); [lia|]);
   try (destruct (Nat.eqb_spec v b) as [->|nb]; try (destruct (Nat.eqb_spec b c); [lia|]));
   try (destruct (Nat.eqb_spec v c) as [->|nc]);
   repeat match goal with |- context [Nat.eq_dec ?x ?y] => destruct (Nat.eq_dec x y); try congruence end;
   rewrite ?(shared_sym vs b a), ?(shared_sym vs c a), ?(shared_sym vs c b);
   repeat match goal with |- context [Nat.eqb ?x 1] => destruct (Nat.eqb_spec x 1); try congruence end; reflexivity.
Qed.
Fixpoint maxv (vs : list face) : nat := match vs with [] => 0 | (a, b, c) :: t => Nat.max (Nat.max a b) (Nat.max c (maxv t)) end.
Lemma maxv_below vs : Forall (below (S (maxv vs))) vs.
Proof.
  apply Forall_forall. induction vs as [|f t IH]; intros g I; [destruct I|]. destruct f as [[a b] c]. cbn [maxv].
  destruct I as [<-|I].
  - unfold below. cbn. lia.
  - specialize (IH g I). intros w W. specialize (IH w W). lia.
Qed.
Lemma total_ones v vs : Forall distinct vs -> total vs (sides v (fun _ => 1)) = 2 * length (filter (memb v) vs).
Proof.
  intro D. induction vs as [|f t IH]; [reflexivity|]. rewrite total_cons. cbn [filter].
  inversion D as [|? ? Df Dt]; subst. rewrite IH by assumption. destruct f as [[a b] c]. destruct Df as [d1 [d2 d3]].
  rewrite memb_eq. unfold sides. destruct (Nat.eqb_spec v a), (Nat.eqb_spec v b), (Nat.eqb_spec v c); cbn [orb length]; lia.
Qed.
Lemma rim_parity vs v : surface vs -> Nat.even (count_occ Nat.eq_dec (rim_entries vs) v) = true.
Proof.
  intros [D Sh]. unfold rim_entries, rim_edges. rewrite count_rim by auto.
  set (n := S (maxv vs)). rewrite (total_sides n) by (auto; apply maxv_below).
  pose proof (total_ones v vs D) as T. rewrite (total_sides n) in T by (auto; apply maxv_below).
  set (R := nsum n _). set (M := length (filter (memb v) vs)) in *.
  set (K := nsum n (fun w => if Nat.eqb w v then 0 else if Nat.eqb (shared vs v w) 2 then 1 else 0)).
  assert (E : R + 2 * K = 2 * M).
  { rewrite <- T. unfold R, K. rewrite <- nsum_scal, <- nsum_plus. apply nsum_ext. intros w _.
    destruct (Nat.eqb_spec w v); [lia|]. unfold rimw. specialize (Sh v w ltac:(auto)).
    destruct (shared vs v w) as [|[|[|k]]]; cbn; lia. }
  assert (R = 2 * (M - K)) by lia. rewrite H. rewrite Nat.even_mul. reflexivity.
Qed.
Lemma rim_edges_spec vs e : Forall distinct vs -> (In e (rim_edges vs) <-> on_rim vs e).
Proof.
  intro D. unfold rim_edges, on_rim. rewrite in_flat_map.
  assert (N : forall f, In f vs -> In e (edges f) -> fst e <> snd e).
  { intros f I J. rewrite Forall_forall in D. specialize (D f I). destruct f as [[a b] c]. destruct D as [d1 [d2 d3]].
    destruct J as [<-|[<-|[<-|[]]]]; cbn; auto. }
  split.
  - intros [f [I J]]. apply filter_In in J. destruct J as [J C]. split; [eauto|]. apply Nat.eqb_eq in C.
    destruct e as [u v]. rewrite edge_count_shared in C; auto. apply (N f I J).
  - intros [[f [I J]] C]. exists f. split; auto. apply filter_In. split; auto. apply Nat.eqb_eq. destruct e as [u v].
    rewrite edge_count_shared; auto. apply (N f I J).
Qed.
Lemma rim_counts_ok vs : surface vs -> forall c, In c (rim_counts vs) -> 2 <= c /\ Nat.even c = true.
Proof.
  intros S c I. unfold rim_counts in I. apply in_map_iff in I. destruct I as [v [<- Iv]]. apply nodup_In in Iv.
  pose proof (rim_parity vs v S) as P. pose proof (proj1 (count_occ_In Nat.eq_dec (rim_entries vs) v) Iv) as C.
  destruct (count_occ Nat.eq_dec (rim_entries vs) v) as [|[|k]]; cbn in P; try discriminate; try lia. split; [lia|exact P].
Qed.
Lemma rim_vertex_even vs v : surface vs -> (exists e, on_rim vs e /\ (fst e = v \/ snd e = v)) ->
  2 <= count_occ Nat.eq_dec (rim_entries vs) v /\ Nat.even (count_occ Nat.eq_dec (rim_entries vs) v) = true.
Proof.
  intros S [e [R E]]. pose proof (rim_parity vs v S) as P. split; [|exact P].
  destruct S as [D _]. apply rim_edges_spec in R; auto.
  assert (I : In v (rim_entries vs)).
  { unfold rim_entries. apply in_flat_map. exists e. split; auto. cbn. destruct E; auto. }
  pose proof (proj1 (count_occ_In Nat.eq_dec (rim_entries vs) v) I) as C.
  destruct (count_occ Nat.eq_dec (rim_entries vs) v) as [|[|k]]; cbn in P; try discriminate; try lia.
Qed.

(** * The whole function *)
Local Open Scope R_scope.
Lemma checks_pass h : surface (h_valid h) ->
  forallb (fun c => Nat.leb 2 c) (rim_counts (h_valid h)) = true /\
  (forallb (fun c => Nat.eqb c 3) (rim_counts (h_valid h)) = true <-> rim_edges (h_valid h) = []).
Proof.
  intro S. pose proof (rim_counts_ok _ S) as C. split.
  - apply forallb_forall. intros c I. apply Nat.leb_le. apply (C c I).
  - split.
    + intro F. rewrite forallb_forall in F. destruct (rim_edges (h_valid h)) as [|e t] eqn:E; auto. exfalso.
      assert (I : In (fst e) (rim_entries (h_valid h))) by (unfold rim_entries; rewrite E; cbn; auto).
      assert (J : In (count_occ Nat.eq_dec (rim_entries (h_valid h)) (fst e)) (rim_counts (h_valid h))).
      { unfold rim_counts. apply in_map. apply nodup_In. exact I. }
      destruct (C _ J) as [_ Ev]. specialize (F _ J). apply Nat.eqb_eq in F. rewrite F in Ev. discriminate.
    + intro E. unfold rim_counts, rim_entries. rewrite E. reflexivity.
Qed.
Lemma mask_ok h f : triangulated h -> In f (h_valid h) ->
  mask_term h f = Ok (scal3 (face_area (h_points h) f) (face_normal (h_points h) f),
    let '(a, b, c) := f in (nth a (h_d h) 0 + nth b (h_d h) 0 + nth c (h_d h) 0) / 3).
Proof.
  intros T I. pose proof T as [ND [D [U [S [EC [EN EA]]]]]]. pose proof (subseq_in _ _ _ S I) as Is.
  unfold mask_term. rewrite EA, EN, combine_map3, filter_map.
  assert (F : filter (fun x => Nat.eqb (isin_sum (fv f) (fst (fst (x, face_area (h_points h) x, face_normal (h_points h) x)))) 3) (h_simplices h) = [f]).
  { apply filter_subseq_id; auto.
    - clear - Is. induction (h_simplices h) as [|g t IH]; [destruct Is|]. destruct Is as [->|Is]; [apply sub_keep, sub_nil|apply sub_drop; auto].
    - intros g J. cbn [fst]. rewrite Nat.eqb_eq, isin_three. rewrite Forall_forall in D. split.
      + intro H. left. apply (U f g Is J). apply contained_same; auto.
      + intros [->|[]]. auto. }
  rewrite F. cbn [map]. destruct f as [[a b] c]. reflexivity.
Qed.
Lemma find_imaginary_spec h : triangulated h -> surface (h_valid h) ->
  find_imaginary_loudspeaker h =
  match rim_edges (h_valid h) with
  | [] => Err RuntimeError
  | _ => let n := vsum3 (map (fun f => scal3 (face_area (h_points h) f) (face_normal (h_points h) f)) (h_valid h)) in
         let d := lsum (map (fun f : face => let '(a, b, c) := f in (nth a (h_d h) 0 + nth b (h_d h) 0 + nth c (h_d h) 0) / 3) (h_valid h))
                  / INR (length (h_valid h)) in
         Ok (if Req_EM_T (d ^ 3) 0 then None else Some (scal3 (- (1 / d ^ 3)) n))
  end.
Proof.
  intros T S. unfold find_imaginary_loudspeaker. destruct (checks_pass h S) as [A B]. rewrite A. cbn [negb].
  destruct (rim_edges (h_valid h)) as [|e t] eqn:E.
  - rewrite (proj2 B eq_refl). reflexivity.
  - destruct (forallb (fun c => Nat.eqb c 3) (rim_counts (h_valid h))) eqn:F; [discriminate (proj1 B eq_refl)|].
    rewrite (mapM_ok (mask_term h) (fun f => (scal3 (face_area (h_points h) f) (face_normal (h_points h) f),
      let '(a, b, c) := f in (nth a (h_d h) 0 + nth b (h_d h) 0 + nth c (h_d h) 0) / 3))) by (intros f I; apply mask_ok; auto).
    cbn [bind]. rewrite !map_map. cbn [fst snd]. unfold Reqb. cbv zeta. destruct (Req_EM_T _ 0); reflexivity.
Qed.
