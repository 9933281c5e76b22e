(** Rendering of loudspeaker signals with post equalisation (C125). *)
From Verif Require Import Base M_utils M_sig M_process M_decoder M_decoder2 M_decoder3 M_parsa2 M_parsa3 M_firwin M_render
  S_process S_utils S_decoder3 S_parsa2 S_parsa3 S_render X_dec3 X_parsa2 X_parsa3 X_render.
Open Scope R_scope.

(** ** C125 *)
Theorem C125_default : forall p gains h fs soft hr T az ze di hl hh bs,
  (32000 <= fs <= 1000000)%Z -> (forall b, (b < 10)%nat -> band_size fs b (bs b)) ->
  (bs 0 mod 4 = 0)%nat -> length (h_d h) = nc gains -> (forall l, (l < nc gains)%nat -> 0 < nth l (h_d h) 0) ->
  hrir_set hr T -> rendered_from h (0, 0) hr az ze di hl hh -> h_fs hr = fs ->
  nr gains = length p -> nc gains = length (h_points h) ->
  exists gs irs fuel0, (forall b, (b < 10)%nat -> firwin2 (bs 0 / 2 - 1)%nat (nth b gs []) = Ok (irs b)) /\
    forall fuel, (fuel0 <= fuel)%nat ->
    (exists ff, frac_octave_filterbank fuel 1 (2 ^ 16) fs (625 / 10) (Some 16000) Amplitude (5 / 10) 3 = Ok (gs, ff)) /\
    let F := eq_out irs 10 bs soft (bs 0%nat) (length p) (nc gains) (fun l => / Rpower (nth l (h_d h) 0) (h_a h)) p
               (fun l => map (fun u => nth u p 0 * ent gains u l) (seq 0 (length p))) in
    let sig c := delivered (length p) (h_a h) (di c) (fun u => F c (Z.of_nat u)) in
    exists l r warned, render_with_post firwin2 fuel p gains h fs (DefaultPost soft) hr = Ok (Some ((l, r), warned)) /\
      (warned = true <-> exists c v, (c < nc gains)%nat /\ (- 2 * Z.of_nat (bs 0%nat) <= v <= 0)%Z /\ 1 / 10 ^ 4 < Rabs (F c v)) /\
      length l = (length p + T - 1)%nat /\ length r = (length p + T - 1)%nat /\
      forall loud, (forall c, (c < nc gains)%nat -> loud c = true <-> heard (sig c)) ->
      forall n, (n < length p + T - 1)%nat ->
        nth n l 0 = rsum (nc gains) (fun c => if loud c : bool then conv_sum (sig c) (hl c) n else 0) /\
        nth n r 0 = rsum (nc gains) (fun c => if loud c : bool then conv_sum (sig c) (hh c) n else 0).
Proof. exact f_post_default. Qed.
Print Assumptions C125_default.
Theorem C125_source_at_rest : forall p gains h fs soft hr T az ze di hl hh bs g,
  (32000 <= fs <= 1000000)%Z -> (forall b, (b < 10)%nat -> band_size fs b (bs b)) ->
  (bs 0 mod 4 = 0)%nat -> length (h_d h) = nc gains ->
  hrir_set hr T -> rendered_from h (0, 0) hr az ze di hl hh -> h_fs hr = fs ->
  nr gains = length p -> nc gains = length (h_points h) ->
  (forall c, (c < nc gains)%nat -> di c = nth c (h_d h) 0) ->
  (forall c, (c < nc gains)%nat -> 0 <= g c) -> rsum (nc gains) (fun c => g c * g c) = 1 ->
  (forall u c, (u < length p)%nat -> (c < nc gains)%nat -> ent gains u c = g c * Rpower (di c) (h_a h)) ->
  (forall b s k, (b < 10)%nat -> let m := magnitude (2 * bs b - 1) (bs b) (block (bs b) p s) k in m = 0 \/ 1 / 10 ^ 9 <= m) ->
  exists gs irs fuel0, (forall b, (b < 10)%nat -> firwin2 (bs 0 / 2 - 1)%nat (nth b gs []) = Ok (irs b)) /\
    forall fuel, (fuel0 <= fuel)%nat ->
    (exists ff, frac_octave_filterbank fuel 1 (2 ^ 16) fs (625 / 10) (Some 16000) Amplitude (5 / 10) 3 = Ok (gs, ff)) /\
    let sig c := map (fun u => g c * thinned irs p (nc gains) g u) (seq 0 (length p)) in
    exists l r warned, render_with_post firwin2 fuel p gains h fs (DefaultPost soft) hr = Ok (Some ((l, r), warned)) /\
      length l = (length p + T - 1)%nat /\ length r = (length p + T - 1)%nat /\
      forall loud, (forall c, (c < nc gains)%nat -> loud c = true <-> heard (sig c)) ->
      forall n, (n < length p + T - 1)%nat ->
        nth n l 0 = rsum (nc gains) (fun c => if loud c : bool then conv_sum (sig c) (hl c) n else 0) /\
        nth n r 0 = rsum (nc gains) (fun c => if loud c : bool then conv_sum (sig c) (hh c) n else 0).
Proof. exact f_post_static. Qed.
Print Assumptions C125_source_at_rest.
Theorem C125_lowered : forall L g,
  (forall c, (c < L)%nat -> 0 <= g c) -> rsum L (fun c => g c * g c) = 1 ->
  (forall b, (3 <= b)%nat -> lowered b L g = 0) /\
  (forall b, 0 <= lowered b L g < 1) /\
  lowered 0 L g = 1 - / rsum L g /\
  (forall b, (b < 3)%nat -> lowered b L g = 0 <-> exists c, (c < L)%nat /\ g c = 1 /\ forall c', (c' < L)%nat -> c' <> c -> g c' = 0).
Proof. exact f_lowered. Qed.
Print Assumptions C125_lowered.
Theorem C125_rate_96k : forall p gains h soft hr,
  nr gains = length p -> nc gains = length (h_points h) ->
  exists fuel0, forall fuel, (fuel0 <= fuel)%nat -> render_with_post firwin2 fuel p gains h 96000 (DefaultPost soft) hr = Err AssertionError.
Proof. exact f_post_rate. Qed.
Print Assumptions C125_rate_96k.
Theorem C125_none : forall fw fuel p gains h fs hr,
  render_with_post fw fuel p gains h fs NoPost hr =
  match render_binaural_loudspeaker_sdm p gains h fs None hr with Ok o => Ok (option_map (fun lr => (lr, true)) o) | Err e => Err e end.
Proof. exact f_post_none. Qed.
Print Assumptions C125_none.
Theorem C125_function : forall fw fuel p gains h fs f hr T az ze di hl hh,
  hrir_set hr T -> rendered_from h (0, 0) hr az ze di hl hh -> h_fs hr = fs ->
  nr gains = length p -> nc gains = length (h_points h) ->
  let ls := Mat (nc gains) (length p) (fun c u => nth u p 0 * ent gains u c) in
  (forall e, f ls p fs h = Err e -> render_with_post fw fuel p gains h fs (OtherPost f) hr = Err e) /\
  (forall M, f ls p fs h = Ok M -> nr M <> nc gains -> render_with_post fw fuel p gains h fs (OtherPost f) hr = Err AssertionError) /\
  (forall M, f ls p fs h = Ok M -> nr M = nc gains ->
    exists l r, render_with_post fw fuel p gains h fs (OtherPost f) hr = Ok (Some ((l, r), false)) /\
      length l = (nc M + T - 1)%nat /\ length r = (nc M + T - 1)%nat /\
      forall loud, (forall c, (c < nc gains)%nat -> loud c = true <-> heard (delivered (nc M) (h_a h) (di c) (ent M c))) ->
      forall n, (n < nc M + T - 1)%nat ->
        nth n l 0 = rsum (nc gains) (fun c => if loud c : bool then conv_sum (delivered (nc M) (h_a h) (di c) (ent M c)) (hl c) n else 0) /\
        nth n r 0 = rsum (nc gains) (fun c => if loud c : bool then conv_sum (delivered (nc M) (h_a h) (di c) (ent M c)) (hh c) n else 0)).
Proof. exact f_post_function. Qed.
Print Assumptions C125_function.
Theorem C125_checks : forall fw fuel p gains h fs post hr,
  (length p <> nr gains -> render_with_post fw fuel p gains h fs post hr = Err AssertionError) /\
  (length p = nr gains -> nc gains <> length (h_points h) -> render_with_post fw fuel p gains h fs post hr = Err AssertionError) /\
  (length p = nr gains -> nc gains = length (h_points h) -> render_with_post fw fuel p gains h fs NotCallable hr = Err TypeError).
Proof. exact f_post_checks. Qed.
Print Assumptions C125_checks.
Example C125_nonvacuous : exists A bs az ze di hl hh,
  let p := loud_p A in let gains := Mat 4 2 (fun _ c => between c) in
  0 < A /\ (forall b, (b < 10)%nat -> band_size 48000 b (bs b)) /\ (bs 0 mod 4 = 0)%nat /\ length (h_d unit_hull) = nc gains /\
  hrir_set two_hrirs 2 /\ rendered_from unit_hull (0, 0) two_hrirs az ze di hl hh /\ h_fs two_hrirs = 48000%Z /\
  nr gains = length p /\ nc gains = length (h_points unit_hull) /\
  (forall c, (c < nc gains)%nat -> di c = nth c (h_d unit_hull) 0) /\
  (forall c, (c < nc gains)%nat -> 0 <= between c) /\ rsum (nc gains) (fun c => between c * between c) = 1 /\
  (forall u c, (u < length p)%nat -> (c < nc gains)%nat -> ent gains u c = between c * Rpower (di c) (h_a unit_hull)) /\
  (forall b s k, (b < 10)%nat -> let m := magnitude (2 * bs b - 1) (bs b) (block (bs b) p s) k in m = 0 \/ 1 / 10 ^ 9 <= m) /\
  lowered 0 2 between = 2 / 7 /\ lowered 1 2 between = 1 / 6 /\ lowered 2 2 between = 1 / 11 /\
  exists fuel l r warned, render_with_post firwin2 fuel p gains unit_hull 48000 (DefaultPost true) two_hrirs = Ok (Some ((l, r), warned)) /\ length l = 5%nat.
Proof. exact ex_render. Qed.
