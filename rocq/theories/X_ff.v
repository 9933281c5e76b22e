(** Forward-backward filtering: final forms and examples. *)
From Coq Require Import Lra Lia.
From Verif Require Import Base BaseFacts M_utils M_sig M_sph0 M_sph M_parsa3 M_process3 S_process3 M_zp S_zp P_lfilter P_cplx P_zp1 P_zp3 S_process4 M_process M_process4 P_ff1 P_ff2 P_ff3 P_ff4 P_ff5 P_ff6.
Open Scope R_scope.

Lemma f_filtfilt : forall b a x w, filtfilt b a x = Ok w <->
  (nth 0 a 0 <> 0 /\ b <> [] /\ lsum a <> 0 /\ (2 <= Nat.max (length a) (length b))%nat /\ (3 * Nat.max (length a) (length b) < length x)%nat) /\
  forward_backward b a (3 * Nat.max (length a) (length b)) x w.
Proof. exact ff_iff. Qed.
Lemma f_exists : forall b a x, nth 0 a 0 <> 0 -> b <> [] -> lsum a <> 0 -> (2 <= Nat.max (length a) (length b))%nat -> (3 * Nat.max (length a) (length b) < length x)%nat -> exists w, filtfilt b a x = Ok w.
Proof. intros b a x A B C D E. apply ff_exists. repeat split; assumption. Qed.
Lemma f_only : forall b a e x w w', nth 0 a 0 <> 0 -> forward_backward b a e x w -> forward_backward b a e x w' -> w' = w.
Proof. exact fb_unique. Qed.
Lemma f_linear : forall b a c d x x' w w', length x' = length x -> filtfilt b a x = Ok w -> filtfilt b a x' = Ok w' ->
  filtfilt b a (map (fun p => c * fst p + d * snd p) (combine x x')) = Ok (map (fun p => c * fst p + d * snd p) (combine w w')).
Proof.
  intros b a c d x x' w w' L H H'. apply ff_iff in H. destruct H as [R0 F]. apply ff_iff in H'. destruct H' as [_ F']. pose proof (proj1 F) as LW. pose proof (proj1 F') as LW'. assert (LS : length (map (fun p => c * fst p + d * snd p) (combine x x')) = length x) by (rewrite map_length, combine_length; lia). assert (LT : length (map (fun p => c * fst p + d * snd p) (combine w w')) = length x) by (rewrite map_length, combine_length; lia).
  apply ff_iff. split; [unfold ff_ready in *; rewrite LS; exact R0|]. apply (fb_comb b a _ c d x x' w w'); try assumption.
  - intros i I. rewrite (nth_map_in (fun p => c * fst p + d * snd p) _ i 0 (0, 0)) by (rewrite combine_length; lia). rewrite combine_nth by lia. reflexivity.
  - intros i I. rewrite (nth_map_in (fun p => c * fst p + d * snd p) _ i 0 (0, 0)) by (rewrite combine_length; lia). rewrite combine_nth by lia. reflexivity.
Qed.
Lemma f_constant : forall b a c n, nth 0 a 0 <> 0 -> b <> [] -> lsum a <> 0 -> (2 <= Nat.max (length a) (length b))%nat -> (3 * Nat.max (length a) (length b) < n)%nat ->
  filtfilt b a (repeat c n) = Ok (repeat ((lsum b / lsum a) ^ 2 * c) n).
Proof.
  intros b a c n A B S D L. apply ff_iff. split; [unfold ff_ready; rewrite repeat_length; repeat split; assumption|]. replace ((lsum b / lsum a) ^ 2 * c) with (dc_gain b a * (dc_gain b a * c)) by (unfold dc_gain; ring). apply fb_const; assumption.
Qed.
Lemma f_offset : forall b a c x w, lsum b = 0 -> filtfilt b a x = Ok w -> filtfilt b a (map (fun v => v + c) x) = Ok w.
Proof.
  intros b a c x w S H. pose proof (proj1 (ff_iff _ _ _ _) H) as [(A & B & D & E & L) F]. pose proof (f_constant b a c (length x) A B D E L) as K. pose proof (f_linear b a 1 1 x (repeat c (length x)) w (repeat ((lsum b / lsum a) ^ 2 * c) (length x)) (repeat_length _ _) H K) as G.
  assert (E1 : map (fun p => 1 * fst p + 1 * snd p) (combine x (repeat c (length x))) = map (fun v => v + c) x). { apply (nth_ext _ _ 0 0); [rewrite !map_length, combine_length, repeat_length; lia|]. rewrite map_length, combine_length, repeat_length, Nat.min_id. intros i I. rewrite (nth_map_in (fun p => 1 * fst p + 1 * snd p) _ i 0 (0, 0)) by (rewrite combine_length, repeat_length; lia). rewrite combine_nth by (rewrite repeat_length; reflexivity). rewrite (nth_map_in (fun v => v + c) _ i 0 0) by exact I. cbn [fst snd]. rewrite (nth_indep (repeat c (length x)) 0 c) by (rewrite repeat_length; exact I). rewrite nth_repeat. ring. }
  assert (E2 : map (fun p => 1 * fst p + 1 * snd p) (combine w (repeat ((lsum b / lsum a) ^ 2 * c) (length x))) = w). { pose proof (proj1 F) as LW. apply (nth_ext _ _ 0 0); [rewrite !map_length, combine_length, repeat_length; lia|]. rewrite map_length, combine_length, repeat_length, LW, Nat.min_id. intros i I. rewrite (nth_map_in (fun p => 1 * fst p + 1 * snd p) _ i 0 (0, 0)) by (rewrite combine_length, repeat_length; lia). rewrite combine_nth by (rewrite repeat_length; lia). cbn [fst snd]. rewrite S. rewrite (nth_indep (repeat ((0 / lsum a) ^ 2 * c) (length x)) 0 ((0 / lsum a) ^ 2 * c)) by (rewrite repeat_length; exact I). rewrite nth_repeat. unfold Rdiv. ring. }
  rewrite E1, E2 in G. exact G.
Qed.
Lemma f_sos : forall l x w, sosfiltfilt l x = Ok w <->
  ((forall s, In s l -> t0 s = 1 /\ 1 + t1 s + t2 s <> 0) /\ (3 * (2 * length l + 1 - Nat.min (count_zero s2 l) (count_zero t2 l)) < length x)%nat) /\
  forward_backward (fold_right (fun s acc => times [s0 s; s1 s; s2 s] acc) [1] l) (fold_right (fun s acc => times [t0 s; t1 s; t2 s] acc) [1] l)
    (3 * (2 * length l + 1 - Nat.min (count_zero s2 l) (count_zero t2 l))) x w.
Proof.
  intros l x w. assert (E : (forall s, In s l -> t0 s = 1 /\ lsum (s_a s) <> 0) <-> (forall s, In s l -> t0 s = 1 /\ 1 + t1 s + t2 s <> 0)). { assert (Q : forall s, t0 s = 1 -> lsum (s_a s) = 1 + t1 s + t2 s) by (intros s T; unfold s_a, lsum; cbn; rewrite T; ring). split; intros H s I; destruct (H s I) as [T U]; split; [exact T| |exact T|]; [rewrite <- Q by exact T; exact U|rewrite Q by exact T; exact U]. }
  rewrite sosff_iff. unfold sos_ready, sos_taps. rewrite E. reflexivity.
Qed.
Lemma f_sections : forall l x w, l <> [] -> (forall s, In s l -> t0 s = 1) -> Nat.min (count_zero s2 l) (count_zero t2 l) = 0%nat ->
  (sosfiltfilt l x = Ok w <-> filtfilt (fold_right (fun s acc => times [s0 s; s1 s; s2 s] acc) [1] l) (fold_right (fun s acc => times [t0 s; t1 s; t2 s] acc) [1] l) x = Ok w).
Proof.
  intros l x w NE T Z. rewrite sosff_iff. change (fold_right (fun s acc => times [s0 s; s1 s; s2 s] acc) [1] l) with (sections_b l). change (fold_right (fun s acc => times [t0 s; t1 s; t2 s] acc) [1] l) with (sections_a l). rewrite ff_iff. unfold sos_ready, sos_taps. rewrite Z, Nat.sub_0_r. destruct (sections_len l) as [LB LA]. unfold ff_ready. rewrite LB, LA, Nat.max_id.
  assert (A0 : nth 0 (sections_a l) 0 = 1). { clear NE Z LB LA. induction l as [|s l IH]; [reflexivity|]. change (sections_a (s :: l)) with (times (s_a s) (sections_a l)). rewrite nth0_times by (try discriminate; apply sections_ne). rewrite IH by (intros u U; apply T; right; exact U). cbn. rewrite (T s) by (left; reflexivity). ring. }
  assert (SA : (forall s, In s l -> t0 s = 1 /\ lsum (s_a s) <> 0) <-> lsum (sections_a l) <> 0).
  { split; [intros H; apply sections_sum; intros s I; apply H; exact I|]. intros H s I. split; [apply T; exact I|]. clear -H I. induction l as [|u l IH]; [destruct I|]. change (sections_a (u :: l)) with (times (s_a u) (sections_a l)) in H. rewrite lsum_times in H. destruct I as [->|I]; [intros Q; apply H; rewrite Q; ring|]. apply IH; [intros Q; apply H; rewrite Q; ring|exact I]. }
  assert (2 <= 2 * length l + 1)%nat by (destruct l; [congruence|cbn; lia]). rewrite SA, A0. pose proof (proj1 (sections_ne l)). assert (1 <> 0) by (apply R1_neq_R0). tauto.
Qed.
Lemma f_fir : forall b a0 x w n, filtfilt b [a0] x = Ok w -> (n < length x)%nat ->
  nth n w 0 = rsum (length b) (fun i => rsum (length b) (fun j => nth i b 0 * nth j b 0 * turned x (Z.of_nat n + Z.of_nat i - Z.of_nat j)%Z)) / a0 ^ 2.
Proof. intros b a0 x w n H N. apply ff_iff in H. destruct H as [(A & _) F]. apply fb_fir with (e := (3 * Nat.max (length [a0]) (length b))%nat); [exact A|lia|exact F|exact N]. Qed.
Lemma f_wave : forall b a l rho, nth 0 a 0 <> 0 -> all_roots a l -> 0 < rho < 1 -> inside rho l ->
  exists K, 0 <= K /\ forall A t f x w, (forall n, (n < length x)%nat -> nth n x 0 = A * cos (t * INR n + f)) -> filtfilt b a x = Ok w ->
    forall n, (n < length x)%nat -> Rabs (nth n w 0 - power b t / power a t * nth n x 0) <= K * Rabs A * (rho ^ n + rho ^ (length x - 1 - n)).
Proof. intros b a l rho A RT R0 IN. destruct (fb_wave b a l rho (3 * Nat.max (length a) (length b)) A RT R0 IN) as (K & K0 & H). exists K. split; [exact K0|]. intros A' t f x w X F. apply ff_iff in F. apply (H A' t f x w X (proj2 F)). Qed.
Lemma f_sos_wave : forall l rs rho, (forall s, In s l -> t0 s = 1) -> all_roots (fold_right (fun s acc => times [t0 s; t1 s; t2 s] acc) [1] l) rs -> 0 < rho < 1 -> inside rho rs ->
  exists K, 0 <= K /\ forall A t f x w, (forall n, (n < length x)%nat -> nth n x 0 = A * cos (t * INR n + f)) -> sosfiltfilt l x = Ok w ->
    forall n, (n < length x)%nat ->
      Rabs (nth n w 0 - power (fold_right (fun s acc => times [s0 s; s1 s; s2 s] acc) [1] l) t / power (fold_right (fun s acc => times [t0 s; t1 s; t2 s] acc) [1] l) t * nth n x 0) <= K * Rabs A * (rho ^ n + rho ^ (length x - 1 - n)).
Proof.
  intros l rs rho T RT R0 IN. change (fold_right (fun s acc => times [s0 s; s1 s; s2 s] acc) [1] l) with (sections_b l). change (fold_right (fun s acc => times [t0 s; t1 s; t2 s] acc) [1] l) with (sections_a l) in *.
  assert (A0 : nth 0 (sections_a l) 0 = 1). { clear RT. induction l as [|s l IH]; [reflexivity|]. change (sections_a (s :: l)) with (times (s_a s) (sections_a l)). rewrite nth0_times by (try discriminate; apply sections_ne). rewrite IH by (intros u U; apply T; right; exact U). cbn. rewrite (T s) by (left; reflexivity). ring. }
  destruct (fb_wave (sections_b l) (sections_a l) rs rho (3 * sos_taps l) ltac:(rewrite A0; lra) RT R0 IN) as (K & K0 & H). exists K. split; [exact K0|]. intros A' t f x w X F. apply sosff_iff in F. apply (H A' t f x w X (proj2 F)).
Qed.

(** ** Examples *)
Lemma ex_roots1 : all_roots [1; -1/2] [(1/2, 0)] /\ inside (3/4) [(1/2, 0)].
Proof.
  split; [split; [reflexivity|]|].
  - intros [u v]. unfold polynomial, product, csum. cbn. unfold cscal, cadd, cmul, csum. cbn. f_equal; field.
  - intros p [<-|[]]. unfold cabs. cbn [fst snd]. replace (1/2 * (1/2) + 0 * 0) with ((1/2) ^ 2) by field. match goal with |- sqrt ?q < _ => replace q with ((1/2) * (1/2)) by (cbn; field) end. rewrite sqrt_square; lra.
Qed.
Lemma ex_filtfilt : exists w, filtfilt [1; 1] [1; -1/2] (map (fun n => 5 * cos (1/10 * INR n + 1)) (seq 0 40)) = Ok w.
Proof. apply f_exists; cbn; try lra; try lia; discriminate. Qed.
Lemma ex_offset : lsum [1; 0; -1] = 0 /\ exists w, filtfilt [1; 0; -1] [2; 1] (map INR (seq 0 20)) = Ok w.
Proof. split; [cbn; lra|]. apply f_exists; cbn; try lra; try lia; discriminate. Qed.
Lemma ex_fir : exists w, filtfilt [1/2; 1/2] [1] (map INR (seq 0 10)) = Ok w.
Proof. apply f_exists; cbn; try lra; try lia; discriminate. Qed.
Lemma ex_sections : let l := [Sos 1 2 1 1 0 (1/4); Sos 1 0 (-1) 1 (-1/2) (1/8)] in
  (forall s, In s l -> t0 s = 1) /\ Nat.min (count_zero s2 l) (count_zero t2 l) = 0%nat /\ exists w, sosfiltfilt l (map INR (seq 0 20)) = Ok w.
Proof.
  intros l. assert (T : forall s, In s l -> t0 s = 1) by (intros s [<-|[<-|[]]]; reflexivity). assert (C : Nat.min (count_zero s2 l) (count_zero t2 l) = 0%nat). { unfold count_zero, l. cbn [filter s2 t2]. repeat match goal with |- context [Reqb ?u ?v] => rewrite (proj2 (Reqb_false u v)) by lra end. reflexivity. }
  split; [exact T|]. split; [exact C|]. apply sosff_exists. split; [|unfold sos_taps; rewrite C; cbn; lia]. intros s I. split; [apply T; exact I|]. destruct I as [<-|[<-|[]]]; cbn; lra.
Qed.
