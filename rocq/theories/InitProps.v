(** * C109, C110: initial states and sponge layers of the Cartesian tests *)
From Coq Require Import Reals List Lra.
From Verif Require Import PhysModel PhysSpec InitModel InitSpec DlimProofs InitProofs.
Import ListNotations.
Local Open Scope R_scope.

(** the pressure of a state: Poisson's law *)
Definition pressure (c : constants) (s : state) : R := poisson (gas c) (cp c) (p0 c) (srho s * stheta s).
Local Lemma pw x y : 0 < x -> 0 < y -> 0 < x / y.
Proof. intros; apply Rdiv_lt_0_compat; assumption. Qed.

(** ** constant potential temperature: hydrostatic wherever the Exner pressure is
    positive, with the reference pressure at the ground *)
Theorem C109_neutral : forall c th, 0 < gas c -> gas c < cp c -> 0 < p0 c -> 0 < th ->
  pressure c (neutral_reference c th 0) = p0 c /\
  forall z, g c * z < cp c * th ->
    hydrostatic (g c) (fun z => pressure c (neutral_reference c th z)) (fun z => srho (neutral_reference c th z)) z /\
    buoyancy (g c) 0 (fun z => stheta (neutral_reference c th z)) z /\
    0 < srho (neutral_reference c th z) /\ 0 < pressure c (neutral_reference c th z).
Proof.
  intros c th Hr Hc Hp Ht. unfold pressure, neutral_reference, neutral_rho, get_cv. cbn [srho stheta]. split.
  - rewrite press by lra. unfold neutral_exner. rewrite Rmult_0_r, Rplus_0_l. unfold Rpower. rewrite ln_1, Rmult_0_r, exp_0. ring.
  - intros z Hz. assert (0 < neutral_exner c th z) as E.
    { unfold neutral_exner. assert (0 < cp c * th) as P by (apply Rmult_lt_0_compat; lra).
      apply (Rmult_lt_reg_r (cp c * th)); [exact P|]. rewrite Rmult_0_l.
      replace ((- g c / (cp c * th) * z + 1) * (cp c * th)) with (cp c * th - g c * z) by (field; lra). lra. }
    split; [|split; [|split]].
    + apply (balanced (gas c) (cp c) (p0 c) (g c) Hr Hc Hp (fun _ => th) (neutral_exner c th) z (- g c / (cp c * th))); [intros; lra|exact E|apply neutral_lim; lra|field; lra].
    + exists 0. split; [apply D_const|ring].
    + apply Rmult_lt_0_compat; [apply pw; [exact Hp|apply Rmult_lt_0_compat; lra]|apply exp_pos].
    + rewrite press by lra. apply Rmult_lt_0_compat; [exact Hp|apply exp_pos].
Qed.
Print Assumptions C109_neutral.

(** ** constant buoyancy frequency *)
Theorem C109_strat : forall c th n u, 0 < gas c -> gas c < cp c -> 0 < p0 c -> 0 < th -> n <> 0 -> g c <> 0 ->
  strat_state c th n u 0 = Some (strat_reference c th n u 0) /\ pressure c (strat_reference c th n u 0) = p0 c /\
  forall z, g c * g c * (1 - exp (- (n * n / g c * z))) < cp c * th * (n * n) ->
    strat_state c th n u z = Some (strat_reference c th n u z) /\
    hydrostatic (g c) (fun z => pressure c (strat_reference c th n u z)) (fun z => srho (strat_reference c th n u z)) z /\
    buoyancy (g c) (n * n) (fun z => stheta (strat_reference c th n u z)) z /\
    su (strat_reference c th n u z) = u /\ sv (strat_reference c th n u z) = 0 /\ sw (strat_reference c th n u z) = 0 /\
    0 < srho (strat_reference c th n u z) /\ 0 < pressure c (strat_reference c th n u z).
Proof.
  intros c th n u Hr Hc Hp Ht Hn Hg. unfold pressure, strat_reference, strat_state, strat_rho, get_cv.
  destruct (Req_EM_T (g c) 0) as [e|_]; [contradiction|]. cbn [srho stheta su sv sw].
  assert (forall y, 0 < strat_theta c th n y) as Q by (intros y; apply Rmult_lt_0_compat; [exact Ht|apply exp_pos]).
  split; [reflexivity|]. split.
  - rewrite press by (try lra; pose proof (Q 0); lra). unfold strat_exner. rewrite Rmult_0_r, exp_0, Rminus_diag_eq, Rmult_0_r, Rplus_0_l by reflexivity.
    unfold Rpower. rewrite ln_1, Rmult_0_r, exp_0. ring.
  - intros z Hz. assert (0 < n * n) as N2 by (destruct (Rlt_or_le 0 n); nra).
    assert (0 < strat_exner c th n z) as E.
    { unfold strat_exner. assert (0 < cp c * th * n * n) as P by (rewrite Rmult_assoc; apply Rmult_lt_0_compat; [apply Rmult_lt_0_compat; lra|exact N2]).
      apply (Rmult_lt_reg_r (cp c * th * n * n)); [exact P|]. rewrite Rmult_0_l.
      replace (- n * n / g c * z) with (- (n * n / g c * z)) by (field; lra).
      replace ((g c * g c / (cp c * th * n * n) * (exp (- (n * n / g c * z)) - 1) + 1) * (cp c * th * n * n))
        with (cp c * th * (n * n) - g c * g c * (1 - exp (- (n * n / g c * z)))) by (field; repeat split; lra). lra. }
    split; [reflexivity|]. split; [|split; [|split; [reflexivity|split; [reflexivity|split; [reflexivity|split]]]]].
    + apply (balanced (gas c) (cp c) (p0 c) (g c) Hr Hc Hp (strat_theta c th n) (strat_exner c th n) z (- g c / (cp c * (th * exp (n * n / g c * z))))).
      * intros y. pose proof (Q y). lra.
      * exact E.
      * apply strat_lim; lra.
      * unfold strat_theta. pose proof (exp_pos (n * n / g c * z)). field. repeat split; lra.
    + exists (n * n / g c * strat_theta c th n z). split; [unfold strat_theta; dlim; field; lra|]. field. lra.
    + apply Rmult_lt_0_compat; [apply pw; [exact Hp|apply Rmult_lt_0_compat; [lra|apply Q]]|apply exp_pos].
    + rewrite press by (try lra; pose proof (Q z); lra). apply Rmult_lt_0_compat; [exact Hp|apply exp_pos].
Qed.
Print Assumptions C109_strat.

(** ** isothermal: hydrostatic at every height, temperature [t] everywhere *)
Theorem C109_isothermal : forall c t u, 0 < gas c -> gas c < cp c -> 0 < p0 c -> 0 < t -> g c <> 0 ->
  pressure c (iso_state c t u 0) = p0 c /\
  forall z, hydrostatic (g c) (fun z => pressure c (iso_state c t u z)) (fun z => srho (iso_state c t u z)) z /\
    pressure c (iso_state c t u z) = srho (iso_state c t u z) * gas c * t /\
    buoyancy (g c) (g c * g c / (cp c * t)) (fun z => stheta (iso_state c t u z)) z /\
    su (iso_state c t u z) = u /\ sv (iso_state c t u z) = 0 /\ sw (iso_state c t u z) = 0 /\
    0 < srho (iso_state c t u z).
Proof.
  intros c t u Hr Hc Hp Ht Hg. unfold pressure, iso_state, iso_rho, get_cv. cbn [srho stheta su sv sw].
  assert (forall y, 0 < iso_theta c t y) as Q by (intros y; apply Rmult_lt_0_compat; [exact Ht|apply exp_pos]).
  split.
  - rewrite press by (try lra; pose proof (Q 0); lra). unfold iso_exner. rewrite Rmult_0_r, exp_0.
    unfold Rpower. rewrite ln_1, Rmult_0_r, exp_0. ring.
  - intros z. assert (Th : iso_theta c t z = t * exp (g c / (cp c * t) * z)).
    { unfold iso_theta. rewrite iso_freq by lra. do 2 f_equal. field. lra. }
    assert (X : exp (- g c / (cp c * t) * z) = / exp (g c / (cp c * t) * z)).
    { rewrite <- exp_Ropp. f_equal. field. lra. }
    pose proof (exp_pos (g c / (cp c * t) * z)) as P.
    split; [|split; [|split; [|split; [reflexivity|split; [reflexivity|split; [reflexivity|]]]]]].
    + apply (balanced (gas c) (cp c) (p0 c) (g c) Hr Hc Hp (iso_theta c t) (iso_exner c t) z (- g c / (cp c * t) * exp (- g c / (cp c * t) * z))).
      * intros y. pose proof (Q y). lra.
      * apply exp_pos.
      * apply iso_lim; lra.
      * rewrite Th, X. field. repeat split; lra.
    + rewrite press by (try lra; pose proof (Q z); lra). rewrite Th. unfold iso_exner. rewrite X.
      replace (cp c / gas c) with (1 + (cp c - gas c) / gas c) by (field; lra).
      rewrite Rpower_plus, Rpower_1 by (apply Rinv_0_lt_compat, P). field. repeat split; lra.
    + exists (iso_n c t * iso_n c t / g c * iso_theta c t z). split; [unfold iso_theta; dlim; ring|].
      rewrite iso_freq by lra. field. lra.
    + apply Rmult_lt_0_compat; [apply pw; [exact Hp|apply Rmult_lt_0_compat; [lra|apply Q]]|apply exp_pos].
Qed.
Print Assumptions C109_isothermal.

(** ** the warm bubble: only the potential temperature is disturbed, by between 0 and
    [tc], nothing outside the radius and nothing on the rim, [tc] at the centre *)
Theorem C109_bubble : forall c th xc zc rc tc x z, 0 < rc -> 0 <= tc ->
  let s := bubble_state c th xc zc rc tc x z in let s0 := neutral_reference c th z in
  let d2 := (x - xc) * (x - xc) + (z - zc) * (z - zc) in
  su s = su s0 /\ sv s = sv s0 /\ sw s = sw s0 /\ srho s = srho s0 /\
  0 <= stheta s - stheta s0 <= tc /\ (rc * rc <= d2 -> stheta s = stheta s0) /\ (d2 = 0 -> stheta s - stheta s0 = tc) /\
  (0 < tc -> d2 < rc * rc -> stheta s0 < stheta s).
Proof.
  intros c th xc zc rc tc x z Hr Ht s s0 d2. unfold s, s0, bubble_state, neutral_reference. cbn [su sv sw srho stheta].
  split; [reflexivity|]. split; [reflexivity|]. split; [reflexivity|]. split; [reflexivity|].
  replace (th + bubble_prime xc zc rc tc x z - th) with (bubble_prime xc zc rc tc x z) by ring.
  unfold bubble_prime. cbv zeta. fold d2. pose proof (COS_bound (PI * sqrt d2 / rc)) as B.
  assert (0 <= d2) as D by (unfold d2; pose proof (Rle_0_sqr (x - xc)); pose proof (Rle_0_sqr (z - zc)); unfold Rsqr in *; lra).
  split; [|split; [|split]].
  - destruct Rle_dec; [|lra]. clear - Ht B. nra.
  - intros L. destruct (Rle_dec (sqrt d2) rc) as [M|M]; [|ring].
    assert (sqrt d2 = rc) as ->.
    { apply Rle_antisym; [exact M|]. apply Rsqr_incr_0_var; [|apply sqrt_pos]. rewrite Rsqr_sqrt by exact D. exact L. }
    replace (PI * rc / rc) with PI by (field; lra). rewrite cos_PI. ring.
  - intros ->. rewrite sqrt_0. destruct Rle_dec as [_|M]; [|lra]. unfold Rdiv. rewrite Rmult_0_r, Rmult_0_l, cos_0. field.
  - intros P L. assert (sqrt d2 < rc) as M.
    { apply Rsqr_incrst_0; [rewrite Rsqr_sqrt by exact D; exact L|apply sqrt_pos|lra]. }
    destruct Rle_dec as [_|N]; [|lra]. pose proof (sqrt_pos d2) as S. pose proof PI_RGT_0 as PI0.
    assert (0 <= PI * sqrt d2 / rc < PI) as [A1 A2].
    { split; [apply Rmult_le_pos; [apply Rmult_le_pos; lra|left; apply Rinv_0_lt_compat, Hr]|].
      apply (Rmult_lt_reg_r rc); [exact Hr|]. unfold Rdiv. rewrite Rmult_assoc, Rinv_l by lra. rewrite Rmult_1_r. apply Rmult_lt_compat_l; lra. }
    assert (cos PI < cos (PI * sqrt d2 / rc)) as C by (apply cos_decreasing_1; lra). rewrite cos_PI in C. nra.
Qed.
Print Assumptions C109_bubble.

(** refuted: the disturbed state keeps the pressure of the reference state.  The
    density is that of the reference, so inside the bubble the pressure is higher *)
Theorem C109_pressure_refuted : forall c th xc zc rc tc x z,
  0 < gas c -> gas c < cp c -> 0 < p0 c -> 0 < th -> 0 < rc -> 0 < tc -> g c * z < cp c * th ->
  (x - xc) * (x - xc) + (z - zc) * (z - zc) < rc * rc ->
  pressure c (neutral_reference c th z) < pressure c (bubble_state c th xc zc rc tc x z).
Proof.
  intros c th xc zc rc tc x z Hr Hc Hp Ht H1 H2 Hz Hd.
  destruct (C109_bubble c th xc zc rc tc x z H1 (Rlt_le _ _ H2)) as (_ & _ & _ & E & _ & _ & _ & L). specialize (L H2 Hd).
  destruct (C109_neutral c th Hr Hc Hp Ht) as (_ & N). destruct (N z Hz) as (_ & _ & P & _).
  unfold pressure. rewrite E. unfold poisson. apply Rmult_lt_compat_l; [exact Hp|].
  assert (0 < stheta (neutral_reference c th z)) as T by (cbn; exact Ht).
  unfold Rpower. apply exp_increasing, Rmult_lt_compat_l; [apply pw; lra|]. apply ln_increasing.
  - apply pw; [|exact Hp]. apply Rmult_lt_0_compat; [exact Hr|]. apply Rmult_lt_0_compat; assumption.
  - unfold Rdiv. apply Rmult_lt_compat_r; [apply Rinv_0_lt_compat, Hp|]. apply Rmult_lt_compat_l; [exact Hr|]. apply Rmult_lt_compat_l; assumption.
Qed.
Print Assumptions C109_pressure_refuted.

(** ** the cold bubble: as a temperature it lies between [tc] < 0 and 0 *)
Theorem C109_current : forall c th xc zc rc tc x z, 0 < rc -> tc <= 0 -> 0 < cp c -> 0 < th -> g c * z < cp c * th ->
  let s := current_state c th xc zc rc tc x z in let s0 := neutral_reference c th z in
  let d2 := (x - xc) * (x - xc) / (4000 * 4000) + (z - zc) * (z - zc) / (2000 * 2000) in
  su s = su s0 /\ sv s = sv s0 /\ sw s = sw s0 /\ srho s = srho s0 /\
  tc <= (stheta s - stheta s0) * (1 - g c / (cp c * th) * z) <= 0 /\
  (rc * rc < d2 -> stheta s = stheta s0) /\ (rc = 1 -> d2 = 1 -> stheta s = stheta s0) /\
  (d2 = 0 -> (stheta s - stheta s0) * (1 - g c / (cp c * th) * z) = tc).
Proof.
  intros c th xc zc rc tc x z Hr Ht Hc Hth Hz s s0 d2. unfold s, s0, current_state, neutral_reference. cbn [su sv sw srho stheta].
  split; [reflexivity|]. split; [reflexivity|]. split; [reflexivity|]. split; [reflexivity|].
  set (ex := neutral_exner c th z). assert (1 - g c / (cp c * th) * z = ex) as -> by (unfold ex, neutral_exner; field; lra).
  assert (0 < ex) as E.
  { unfold ex, neutral_exner. assert (0 < cp c * th) as P by (apply Rmult_lt_0_compat; lra).
    apply (Rmult_lt_reg_r (cp c * th)); [exact P|]. rewrite Rmult_0_l.
    replace ((- g c / (cp c * th) * z + 1) * (cp c * th)) with (cp c * th - g c * z) by (field; lra). lra. }
  replace (th + current_prime xc zc rc tc x z ex - th) with (current_prime xc zc rc tc x z ex) by ring.
  unfold current_prime. cbv zeta. fold d2. clearbody ex. pose proof (COS_bound (PI * sqrt d2)) as B.
  assert (0 <= d2) as D by (unfold d2; pose proof (Rle_0_sqr (x - xc)); pose proof (Rle_0_sqr (z - zc)); unfold Rsqr in *; lra).
  split; [|split; [|split]].
  - destruct Rle_dec; [|lra]. replace (1 / 2 * tc * (1 + cos (PI * sqrt d2)) / ex * ex) with (1 / 2 * tc * (1 + cos (PI * sqrt d2))) by (field; lra). nra.
  - intros L. destruct (Rle_dec (sqrt d2) rc) as [M|M]; [|ring]. exfalso.
    assert (Rsqr (sqrt d2) <= Rsqr rc) as X by (apply Rsqr_incr_1; [exact M|apply sqrt_pos|lra]). rewrite Rsqr_sqrt in X by exact D. unfold Rsqr in X. lra.
  - intros -> ->. rewrite sqrt_1. destruct Rle_dec as [_|M]; [|ring]. rewrite Rmult_1_r, cos_PI. field. lra.
  - intros ->. rewrite sqrt_0. destruct Rle_dec as [_|M]; [|lra]. rewrite Rmult_0_r, cos_0. field. lra.
Qed.
Print Assumptions C109_current.
(** refuted: the cold bubble fades to nothing at the radius it is given.  It does for
    radius 1 only, the argument of its cosine not being scaled *)
Theorem C109_rim_refuted : forall c th xc zc rc tc x, 0 < rc -> rc < 1 -> tc < 0 -> 0 < cp c -> 0 < th -> g c * zc < cp c * th ->
  (x - xc) * (x - xc) / (4000 * 4000) = rc * rc ->
  stheta (current_state c th xc zc rc tc x zc) < stheta (neutral_reference c th zc).
Proof.
  intros c th xc zc rc tc x H0 H1 Ht Hc Hth Hz Hd. unfold current_state, neutral_reference. cbn [stheta].
  set (ex := neutral_exner c th zc). assert (0 < ex) as E.
  { unfold ex, neutral_exner. assert (0 < cp c * th) as P by (apply Rmult_lt_0_compat; lra).
    apply (Rmult_lt_reg_r (cp c * th)); [exact P|]. rewrite Rmult_0_l.
    replace ((- g c / (cp c * th) * zc + 1) * (cp c * th)) with (cp c * th - g c * zc) by (field; lra). lra. }
  clearbody ex. unfold current_prime. cbv zeta. rewrite Hd.
  replace (rc * rc + (zc - zc) * (zc - zc) / (2000 * 2000)) with (rc * rc) by field. rewrite sqrt_square by lra.
  destruct Rle_dec as [_|M]; [|lra]. pose proof PI_RGT_0 as P0.
  assert (cos PI < cos (PI * rc)) as C by (apply cos_decreasing_1; nra). rewrite cos_PI in C.
  assert (1 / 2 * tc * (1 + cos (PI * rc)) / ex < 0); [|lra].
  assert (0 < 1 / 2 * - tc * (1 + cos (PI * rc)) / ex) as X by (apply pw; [nra|exact E]).
  replace (1 / 2 * - tc * (1 + cos (PI * rc)) / ex) with (- (1 / 2 * tc * (1 + cos (PI * rc)) / ex)) in X by (field; lra). lra.
Qed.
Print Assumptions C109_rim_refuted.

(** the gravity wave: only the potential temperature is disturbed, by at most [tc], and
    not at the ground and the lid *)
Theorem C109_gravity : forall c th n u xc ac hc tc x z, ac <> 0 -> hc <> 0 -> g c <> 0 ->
  let s := gravity_state c th n u xc ac hc tc x z in let s0 := strat_reference c th n u z in
  su s = su s0 /\ sv s = sv s0 /\ sw s = sw s0 /\ srho s = srho s0 /\ Rabs (stheta s - stheta s0) <= Rabs tc /\
  (z = 0 \/ z = hc -> stheta s = stheta s0) /\ (z = hc / 2 -> x = xc -> stheta s - stheta s0 = tc).
Proof.
  intros c th n u xc ac hc tc x z Ha Hh Hg s s0. unfold s, s0, gravity_state, strat_reference.
  destruct Req_EM_T as [e|_]; [contradiction|]. cbn [su sv sw srho stheta].
  split; [reflexivity|]. split; [reflexivity|]. split; [reflexivity|]. split; [reflexivity|].
  replace (strat_theta c th n z + gravity_prime xc ac hc tc x z - strat_theta c th n z) with (gravity_prime xc ac hc tc x z) by ring.
  unfold gravity_prime. set (a := (x - xc) / ac). assert (1 <= 1 + a * a) as Q by (pose proof (Rle_0_sqr a); unfold Rsqr in *; lra).
  split; [|split].
  - unfold Rdiv. rewrite !Rabs_mult. rewrite <- (Rmult_1_r (Rabs tc)) at 2. rewrite Rmult_assoc.
    apply Rmult_le_compat_l; [apply Rabs_pos|]. rewrite <- (Rmult_1_r 1) at 2.
    apply Rmult_le_compat; try apply Rabs_pos.
    + pose proof (SIN_bound (PI * z * / hc)). apply Rabs_le. lra.
    + rewrite Rabs_pos_eq by (left; apply Rinv_0_lt_compat; lra). rewrite <- Rinv_1. apply Rinv_le_contravar; lra.
  - intros [-> | ->].
    + unfold Rdiv. rewrite Rmult_0_r, Rmult_0_l, sin_0. ring.
    + replace (PI * hc / hc) with PI by (field; exact Hh). rewrite sin_PI. unfold Rdiv. ring.
  - intros -> ->. replace (PI * (hc / 2) / hc) with (PI / 2) by (field; exact Hh). rewrite sin_PI2.
    unfold a. replace ((xc - xc) / ac) with 0 by (field; exact Ha). field.
Qed.
Print Assumptions C109_gravity.

(** refuted: without gravity the reference state is 300 K at the reference pressure, and
    the initial state exists *)
Theorem C109_weightless_refuted : forall c th n u z, 0 < gas c -> gas c < cp c -> 1 < p0 c -> g c = 0 ->
  strat_state c th n u z = None /\
  pressure c (strat_reference c th n u z) = p0 c * Rpower (p0 c) (gas c / (cp c - gas c)) /\
  p0 c < pressure c (strat_reference c th n u z) /\
  300 < pressure c (strat_reference c th n u z) / (srho (strat_reference c th n u z) * gas c).
Proof.
  intros c th n u z Hr Hc Hp Hg. unfold strat_state, strat_reference, pressure. destruct Req_EM_T as [_|N]; [|contradiction].
  cbn [srho stheta]. split; [reflexivity|].
  assert (P : poisson (gas c) (cp c) (p0 c) (p0 c / (gas c * 300) * (300 * Rpower (p0 c) (gas c / cp c))) = p0 c * Rpower (p0 c) (gas c / (cp c - gas c))).
  { unfold poisson. f_equal. replace (gas c * (p0 c / (gas c * 300) * (300 * Rpower (p0 c) (gas c / cp c))) / p0 c) with (Rpower (p0 c) (gas c / cp c)) by (field; lra).
    rewrite Rpower_mult. f_equal. field. lra. }
  rewrite P. split; [reflexivity|].
  assert (1 < Rpower (p0 c) (gas c / (cp c - gas c))) as G.
  { rewrite <- (Rpower_O (p0 c)) by lra. apply Rpower_lt; [lra|]. apply pw; lra. }
  split; [nra|].
  replace (p0 c * Rpower (p0 c) (gas c / (cp c - gas c)) / (p0 c / (gas c * 300) * gas c)) with (300 * Rpower (p0 c) (gas c / (cp c - gas c))) by (field; lra).
  lra.
Qed.
Print Assumptions C109_weightless_refuted.
(** the constants of the class, a column of 300 K and the frequency 0.01 up to 21 km *)
Example C109_case : exists c z, c = construct 0 0 0 /\ 0 < gas c /\ gas c < cp c /\ 0 < p0 c /\ g c <> 0 /\ 0 < z /\
  g c * z < cp c * 300 /\ g c * g c * (1 - exp (- (1 / 100 * (1 / 100) / g c * z))) < cp c * 300 * (1 / 100 * (1 / 100)).
Proof.
  exists (construct 0 0 0), 2500. cbn -[exp]. repeat split; try lra.
  assert (1 + - (1 / 100 * (1 / 100) / (980616 / 100000) * 2500) <= exp (- (1 / 100 * (1 / 100) / (980616 / 100000) * 2500))) as H.
  { left. apply exp_ineq1. lra. }
  lra.
Qed.

(** ** C110: the sponge layers *)
(** the rate is the largest of three, each falling as a squared cosine from its strength
    at the boundary to nothing at the inner edge of its layer *)
Theorem C110_strength : forall sz sx depth width xmin xmax top x z,
  0 < depth -> 0 < width -> xmin <= x <= xmax -> z <= top ->
  strength sz sx depth width xmin xmax top x z =
    Rmax (taper sz depth (top - z)) (Rmax (taper sx width (xmax - x)) (taper sx width (x - xmin))).
Proof.
  intros sz sx depth width xmin xmax top x z Hd Hw Hx Hz. unfold strength. rewrite choose_max, depth_taper, right_taper, left_taper by lra. reflexivity.
Qed.
Print Assumptions C110_strength.
Theorem C110_range : forall s depth width xmin xmax top x z, 0 <= s -> 0 < depth -> 0 < width -> xmin <= x <= xmax -> z <= top ->
  let nu := strength s s depth width xmin xmax top x z in
  0 <= nu <= s /\ (z <= top - depth -> xmin + width <= x <= xmax - width -> nu = 0) /\
  (z = top \/ x = xmin \/ x = xmax -> nu = s).
Proof.
  intros s depth width xmin xmax top x z Hs Hd Hw Hx Hz nu. unfold nu. rewrite C110_strength by assumption.
  pose proof (taper_range s depth (top - z) Hs) as A. pose proof (taper_range s width (xmax - x) Hs) as B. pose proof (taper_range s width (x - xmin) Hs) as C.
  split; [|split].
  - unfold Rmax. repeat destruct Rle_dec; lra.
  - intros H1 H2. rewrite !taper_outside by lra. unfold Rmax. repeat destruct Rle_dec; lra.
  - intros [-> |[-> | ->]].
    + rewrite Rminus_diag_eq in * by reflexivity. rewrite taper_zero in * by assumption. unfold Rmax; repeat destruct Rle_dec; lra.
    + replace (xmin - xmin) with 0 in * by ring. rewrite (taper_zero s width) in * by assumption. unfold Rmax; repeat destruct Rle_dec; lra.
    + replace (xmax - xmax) with 0 in * by ring. rewrite (taper_zero s width) in * by assumption. unfold Rmax; repeat destruct Rle_dec; lra.
Qed.
Print Assumptions C110_range.
(** going up, and going outwards in either half, never lowers it *)
Theorem C110_monotone : forall s depth width xmin xmax top x x' z z', 0 <= s -> 0 < depth -> 0 < width ->
  xmin <= x -> x <= xmax -> xmin <= x' -> x' <= xmax -> z <= z' -> z' <= top -> width <= xmax - xmin ->
  (x' <= x <= xmax - width \/ xmin + width <= x <= x') ->
  strength s s depth width xmin xmax top x z <= strength s s depth width xmin xmax top x' z'.
Proof.
  intros s depth width xmin xmax top x x' z z' Hs Hd Hw H1 H2 H3 H4 H5 H6 H7 H8. rewrite !C110_strength by lra.
  assert (taper s depth (top - z) <= taper s depth (top - z')) as A by (apply taper_mono; lra).
  assert (B : Rmax (taper s width (xmax - x)) (taper s width (x - xmin)) <= Rmax (taper s width (xmax - x')) (taper s width (x' - xmin))).
  { destruct H8 as [H8|H8].
    - rewrite (taper_outside s width (xmax - x)) by lra. rewrite (taper_outside s width (xmax - x')) by lra.
      apply Rle_max_compat_l. apply taper_mono; lra.
    - rewrite (taper_outside s width (x - xmin)) by lra. rewrite (taper_outside s width (x' - xmin)) by lra.
      apply Rle_max_compat_r. apply taper_mono; lra. }
  apply Rmax_case.
  - eapply Rle_trans; [exact A|apply Rmax_l].
  - eapply Rle_trans; [exact B|apply Rmax_r].
Qed.
Print Assumptions C110_monotone.
(** with the depth 0 of the gravity wave test: end layers only, and no division by it *)
Theorem C110_no_depth : forall sz sx width xmin xmax top x z, 0 < width -> xmin <= x <= xmax -> z <= top -> 0 <= sx ->
  strength sz sx 0 width xmin xmax top x z = Rmax (taper sx width (xmax - x)) (taper sx width (x - xmin)).
Proof.
  intros sz sx width xmin xmax top x z Hw Hx Hz Hs. unfold strength. rewrite choose_max, (right_taper sx width xmax x), (left_taper sx width xmin x) by lra.
  unfold nu_depth. destruct Rlt_dec as [L|_]; [lra|]. apply Rmax_right.
  eapply Rle_trans; [|apply Rmax_l]. apply taper_range, Hs.
Qed.
Print Assumptions C110_no_depth.
(** the layer of the Schar mountain on the sphere *)
Theorem C110_sphere : forall zh top tau z, 0 < tau -> zh < top -> z <= top ->
  strength_sphere zh top tau z = taper (1 / tau) (top - zh) (top - z).
Proof. exact sphere_taper. Qed.
Print Assumptions C110_sphere.
(** refuted: the left layer of the hydrostatic mountain damps most at the boundary.  It
    is the mirror image: nothing at the boundary, nearly everything just short of the
    inner edge, and a jump to nothing there *)
Theorem C110_hydrostatic_refuted : forall s depth width xmin xmax top z,
  0 < s -> 0 < depth -> 0 < width -> 2 * width <= xmax - xmin -> z <= top - depth ->
  (forall d, 0 <= d < width -> strength_hydrostatic s depth width xmin xmax top (xmin + d) z = taper s width (width - d)) /\
  strength_hydrostatic s depth width xmin xmax top xmin z = 0 /\
  strength_hydrostatic s depth width xmin xmax top (xmin + width) z = 0 /\
  (forall e, 0 < e -> exists d, 0 < d < width /\ s - e < strength_hydrostatic s depth width xmin xmax top (xmin + d) z).
Proof.
  intros s depth width xmin xmax top z Hs Hd Hw Hx Hz.
  assert (K : forall d, 0 <= d < width -> strength_hydrostatic s depth width xmin xmax top (xmin + d) z = taper s width (width - d)).
  { intros d Hdd. unfold strength_hydrostatic. rewrite choose_max, depth_taper, right_taper, left_hydro by lra.
    replace (width - (xmin + d - xmin)) with (width - d) by ring. rewrite !(taper_outside s depth), !(taper_outside s width (xmax - _)) by lra.
    pose proof (taper_range s width (width - d) (Rlt_le _ _ Hs)). unfold Rmax. repeat destruct Rle_dec; lra. }
  split; [exact K|]. split; [|split].
  - rewrite <- (Rplus_0_r xmin) at 2. rewrite K by lra. apply taper_outside; lra.
  - unfold strength_hydrostatic. rewrite choose_max, depth_taper, right_taper by lra. rewrite taper_outside, taper_outside by lra.
    unfold nu_left_hydrostatic. destruct Rlt_dec; [lra|]. unfold Rmax. repeat destruct Rle_dec; lra.
  - intros e He. destruct (continuity_cos 0 (e / s)) as (a & Ha & H); [apply pw; assumption|]. cbn in H.
    (* 1 - cos^2 <= 2 (1 - cos) is not needed: use the half angle form below *)
    set (t := Rmin (a / 2) (PI / 2)). pose proof PI_RGT_0 as P0.
    assert (0 < t) as T by (unfold t; apply Rmin_glb_lt; lra).
    assert (t <= a / 2) as T1 by apply Rmin_l. assert (t <= PI / 2) as T2 by apply Rmin_r. clearbody t.
    exists (width - width * (t / PI)).
    assert (0 < t / PI) as Q by (apply pw; lra).
    assert (t / PI < 1) as Q1 by (apply (Rmult_lt_reg_r PI); [lra|]; unfold Rdiv; rewrite Rmult_assoc, Rinv_l by lra; lra).
    assert (0 < width * (t / PI) < width) as W by (split; [apply Rmult_lt_0_compat; lra|rewrite <- (Rmult_1_r width) at 2; apply Rmult_lt_compat_l; lra]).
    split; [lra|]. rewrite K by lra. replace (width - (width - width * (t / PI))) with (width * (t / PI)) by ring.
    rewrite <- taper_inside by lra. replace (PI * (width * (t / PI) / width)) with t by (field; lra).
    assert (Rabs (cos t - cos 0) < e / s) as C.
    { apply H. split; [split; [exact I|lra]|]. unfold R_dist. rewrite Rminus_0_r, Rabs_pos_eq; lra. }
    rewrite cos_0 in C. apply Rabs_def2 in C.
    assert (s * (e / s) = e) as M by (field; lra).
    assert (s * (1 - e / s) < s * cos t) by (apply Rmult_lt_compat_l; lra). lra.
Qed.
Print Assumptions C110_hydrostatic_refuted.
(** the layers of the Schar mountain test: half strength in the middle of each *)
Example C110_case : strength (5 / 1000) (5 / 1000) 5000 5000 (-25000) 25000 21000 0 18500 = 5 / 2000 /\
  strength (5 / 1000) (5 / 1000) 5000 5000 (-25000) 25000 21000 (-22500) 1000 = 5 / 2000 /\
  strength_hydrostatic (8 / 1000) 10000 20000 (-120000) 120000 30000 (-120000) 0 = 0.
Proof.
  split; [|split].
  - unfold strength. rewrite choose_max. unfold nu_depth, nu_right, nu_left. repeat (destruct Rlt_dec; [|lra] || (destruct Rlt_dec; [lra|])).
    replace (PI * ((21000 - 18500) / 5000)) with (PI / 2) by field. rewrite cos_PI2. unfold Rmax. repeat destruct Rle_dec; lra.
  - unfold strength. rewrite choose_max. unfold nu_depth, nu_right, nu_left. destruct Rlt_dec; [lra|]. destruct Rlt_dec; [lra|]. destruct Rlt_dec; [|lra].
    replace (PI * ((-22500 - -25000) / 5000)) with (PI / 2) by field. rewrite cos_PI2. unfold Rmax. repeat destruct Rle_dec; lra.
  - apply (C110_hydrostatic_refuted (8 / 1000) 10000 20000 (-120000) 120000 30000 0); lra.
Qed.
