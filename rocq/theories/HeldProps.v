(** * Held-Suarez forcing: the properties *)
From Coq Require Import Reals Lra Lia.
From Verif Require Import PhysModel PhysProps HeldModel HeldSpec HeldProofs.
Local Open Scope R_scope.

(** the friction is backward Euler with the rate k_f times the profile: it
    never reverses or speeds up the wind in any metric, keeps its direction,
    and does nothing above the layer, whatever the step *)
Theorem C97_friction : forall c dt ps r t u v, 0 <= dt ->
  let s := pressure_from_rhotheta c (r * t) / ps in
  let u' := friction c dt ps r t u in let v' := friction c dt ps r t v in
  implicit_decay (1 / 86400 * profile (7 / 10) s) dt u u' /\ implicit_decay (1 / 86400 * profile (7 / 10) s) dt v v' /\
  0 <= u * u' /\ Rabs u' <= Rabs u /\ u' * v = u * v' /\
  (forall g11 g12 g22, (forall a b, 0 <= length2 g11 g12 g22 a b) -> length2 g11 g12 g22 u' v' <= length2 g11 g12 g22 u v) /\
  (s <= 7 / 10 -> u' = u /\ v' = v) /\
  (7 / 10 < s -> 0 < dt -> u <> 0 -> Rabs u' < Rabs u).
Proof.
  intros c dt ps r t u v D. cbv zeta. set (s := pressure_from_rhotheta c (r * t) / ps).
  unfold friction. fold s. pose proof (boundary_nonneg s) as B. pose proof (boundary_zero s) as Z0. pose proof (boundary_pos s) as P0.
  change (7 / 10) with sigma_b. rewrite <- (boundary_profile s). change (1 / 86400) with k_f.
  assert (0 < k_f) as K by (unfold k_f; lra).
  set (b := boundary s) in *. set (d := 1 + k_f * b * dt).
  assert (0 <= k_f * b) as KB by nra. assert (1 <= d) as D1 by (unfold d; nra).
  assert (0 < / d <= 1) as I by (split; [apply Rinv_0_lt_compat; lra|rewrite <- Rinv_1; apply Rinv_le_contravar; lra]).
  assert (forall w, implicit_decay (k_f * b) dt w (w / d)) as Im.
  { intros w. unfold implicit_decay. apply (Rmult_eq_reg_r d); [|lra].
    replace ((w / d - w) * d) with (w - w * d) by (field; lra).
    replace (- dt * (k_f * b) * (w / d) * d) with (- dt * (k_f * b) * w) by (field; lra). unfold d. ring. }
  split; [apply Im|]. split; [apply Im|]. split; [|split; [|split; [|split; [|split]]]].
  - replace (u * (u / d)) with (u * u * / d) by (unfold Rdiv; ring). assert (0 <= u * u) by nra. nra.
  - unfold Rdiv. rewrite Rabs_mult, (Rabs_right (/ d)) by lra. pose proof (Rabs_pos u). nra.
  - field. lra.
  - intros g11 g12 g22 H. unfold length2 in *. specialize (H u v).
    replace (g11 * (u / d) * (u / d) + 2 * g12 * (u / d) * (v / d) + g22 * (v / d) * (v / d))
      with ((g11 * u * u + 2 * g12 * u * v + g22 * v * v) * (/ d * / d)) by (field; lra).
    assert (/ d * / d <= 1) by nra. nra.
  - intros H. assert (d = 1) as -> by (unfold d; rewrite (Z0 H); ring). split; field.
  - intros H Dp U. specialize (P0 H). assert (1 < d) as D2. { unfold d. assert (0 < k_f * b * dt) by (apply Rmult_lt_0_compat; [apply Rmult_lt_0_compat; assumption|exact Dp]). lra. }
    assert (/ d < 1) by (rewrite <- Rinv_1; apply Rinv_lt_contravar; lra).
    unfold Rdiv. rewrite Rabs_mult, (Rabs_right (/ d)) by lra. pose proof (Rabs_pos_lt u U). nra.
Qed.
Print Assumptions C97_friction.
(** the profile is that of a layer below sigma = 0.7 *)
Theorem C97_profile : forall s, boundary s = profile (7 / 10) s /\ 0 <= boundary s /\ (s <= 1 -> boundary s <= 1) /\ boundary 1 = 1.
Proof.
  intros s. split; [apply boundary_profile|]. split; [apply boundary_nonneg|]. split; [apply boundary_le1|].
  unfold boundary, sigma_b. cbv zeta. destruct (Rlt_dec _ 0); lra.
Qed.
Print Assumptions C97_profile.

Lemma pressure_inj c x y : 0 < scaling c -> 1 < gamma c -> 0 < x -> 0 < y -> pressure_from_rhotheta c x = pressure_from_rhotheta c y -> x = y.
Proof.
  intros S G X Y H. unfold pressure_from_rhotheta in H. apply Rmult_eq_reg_l in H; [|lra]. apply exp_inv in H.
  apply Rmult_eq_reg_r in H; [|lra]. apply ln_inv; assumption.
Qed.
Lemma pressure_ratio c x y : 0 < scaling c -> 0 < x -> 0 < y ->
  pressure_from_rhotheta c x / pressure_from_rhotheta c y = exp (gamma c * ln (x / y)).
Proof.
  intros S X Y. unfold pressure_from_rhotheta. unfold Rdiv at 2. rewrite ln_mult, ln_Rinv by (try apply Rinv_0_lt_compat; assumption).
  replace (gamma c * (ln x + - ln y)) with (ln x * gamma c + - (ln y * gamma c)) by ring. rewrite exp_plus, exp_Ropp.
  field. split; [apply Rgt_not_eq, exp_pos|lra].
Qed.
(** with potential temperature density as the variable (Defines.h:41) the
    sigma used for friction is that of the state only where the density equals
    the density at the surface *)
Theorem C97_sigma_refuted : forall c r t r0 t0, 0 < scaling c -> 1 < gamma c -> 0 < r -> 0 < t -> 0 < r0 -> 0 < t0 ->
  (pressure_from_rhotheta c (r * t) / pressure_from_rhotheta c (r0 * t0) = pressure_from_rhotheta c t / pressure_from_rhotheta c t0 <-> r = r0).
Proof.
  intros c r t r0 t0 S G Hr Ht Hr0 Ht0. rewrite !pressure_ratio by (try apply Rmult_lt_0_compat; assumption). split.
  - intros H. apply exp_inv in H. apply Rmult_eq_reg_l in H; [|lra].
    apply ln_inv in H; [|apply Rdiv_lt_0_compat; nra|apply Rdiv_lt_0_compat; lra].
    assert (r * t * t0 = t * (r0 * t0)) as E.
    { replace (r * t * t0) with (r * t / (r0 * t0) * (r0 * t0) * t0) by (field; lra). rewrite H. field. lra. }
    apply (Rmult_eq_reg_r (t * t0)); [lra|]. assert (0 < t * t0) by (apply Rmult_lt_0_compat; assumption). lra.
  - intros ->. f_equal. f_equal. f_equal. field. lra.
Qed.
Print Assumptions C97_sigma_refuted.
Lemma gamma_default k y s : gamma (construct k y s) = 7 / 5.
Proof. cbn. lra. Qed.
Lemma power75 x : 0 < x -> exp (7 / 5 * ln x) ^ 5 = x ^ 7.
Proof.
  intros H. rewrite <- (exp_ln x H) at 2. cbn [pow]. rewrite !Rmult_1_r. rewrite <- !exp_plus. f_equal. field.
Qed.
Lemma pow5_lt x y : 0 < x -> 0 < y -> x ^ 5 < y ^ 5 -> x < y.
Proof.
  intros X Y H. destruct (Rlt_le_dec x y) as [L|L]; [exact L|exfalso]. pose proof (pow_incr y x 5 ltac:(lra)). lra.
Qed.
(** at a level whose pressure is above 0.8 of the surface pressure no
    friction acts, for any step *)
Theorem C97_layer_refuted : exists r t r0 t0, 0 < r /\ 0 < t /\ 0 < r0 /\ 0 < t0 /\ forall k y s, let c := construct k y s in
  8 / 10 < pressure_from_rhotheta c t / pressure_from_rhotheta c t0 < 1 /\
  forall dt u, friction c dt (pressure_from_rhotheta c (r0 * t0)) r t u = u.
Proof.
  exists (102 / 100), 258, (120 / 100), 300. repeat (split; [lra|]). intros k y s. cbv zeta.
  assert (0 < scaling (construct k y s)) as S by (cbn; apply Rmult_lt_0_compat; [lra|apply exp_pos]).
  pose proof (power75 (258 / 300) ltac:(lra)) as P. pose proof (power75 (102 / 100 * 258 / (120 / 100 * 300)) ltac:(lra)) as Q.
  split.
  - rewrite pressure_ratio, gamma_default by lra. set (e := exp (7 / 5 * ln (258 / 300))) in *. assert (0 < e) by apply exp_pos.
    split; apply pow5_lt; try lra.
  - intros dt u. unfold friction. rewrite boundary_zero; [|].
    + replace (1 + k_f * 0 * dt) with 1 by ring. field.
    + rewrite pressure_ratio, gamma_default by lra. set (e := exp (7 / 5 * ln (102 / 100 * 258 / (120 / 100 * 300)))) in *.
      assert (0 < e) by apply exp_pos. unfold sigma_b. left. apply pow5_lt; lra.
Qed.
Print Assumptions C97_layer_refuted.

Section Relax.
  Context (c : constants) (S : 0 < scaling c) (R0 : 0 < gas c) (G : 1 < gamma c).
  Lemma kt_pos b lat : 0 <= b -> 0 < k_t b lat.
  Proof.
    intros B. unfold k_t, k_a, k_s. pose proof (Rle_0_sqr (cos lat * cos lat)) as Q. unfold Rsqr in Q.
    replace (cos lat * cos lat * cos lat * cos lat) with (cos lat * cos lat * (cos lat * cos lat)) by ring. nra.
  Qed.
  Lemma te_pos p lat : 0 < t_eq c p lat.
  Proof. unfold t_eq, t_min. cbv zeta. destruct (Rlt_dec _ 200); lra. Qed.
End Relax.

(** the update of the thermodynamic variable is one linearly implicit Euler
    step, with the exact derivative, of the tendency that relaxes temperature
    to equilibrium at constant density (rate and equilibrium frozen) *)
Theorem C98_step : forall c dt ps lat r x, 0 < scaling c -> 0 < gas c -> 1 < gamma c -> 0 <= dt -> 0 < r -> 0 < x ->
  let p := pressure_from_rhotheta c x in
  let k := k_t (boundary (p / ps)) lat in let te := t_eq c p lat in
  exists F, (forall y, 0 < y -> relaxes F (temperature c r) k te y) /\ rosenbrock F dt x (heat c dt ps lat r x).
Proof.
  intros c dt ps lat r x S R0 G D Hr Hx. cbv zeta. set (p := pressure_from_rhotheta c x).
  set (k := k_t (boundary (p / ps)) lat). set (te := t_eq c p lat).
  assert (0 < k) as K by apply kt_pos, boundary_nonneg. assert (0 < te) as E by apply te_pos.
  exists (tend c k te r). split.
  - intros y Hy. exists (temperature c r y * gamma c / y). split; [apply temperature_lim; assumption|].
    pose proof (temperature_pos c S R0 r y Hr) as T. unfold tend. field. lra.
  - exists (d_h c k te (temperature c r x)). split; [apply tend_lim; assumption|].
    pose proof (temperature_pos c S R0 r x Hr) as T. pose proof (d_h_neg c G k te _ K E T) as N.
    assert (0 < 1 - dt * d_h c k te (temperature c r x)) as P by nra. split; [lra|].
    unfold heat. cbv zeta. fold p k te. unfold tend, h_rate. set (d := 1 - dt * d_h c k te (temperature c r x)) in *. field. lra.
Qed.
Print Assumptions C98_step.

Lemma heat_factor c dt ps lat r x : 0 < scaling c -> 0 < gas c -> 1 < gamma c -> 0 <= dt -> 0 < r -> 0 < x ->
  let p := pressure_from_rhotheta c x in
  let k := k_t (boundary (p / ps)) lat in let q := t_eq c p lat / temperature c r x in
  0 < k /\ 0 < q /\ heat c dt ps lat r x = x * ((1 + dt * k / gamma c * (gamma c * q)) / (1 + dt * k / gamma c * (1 + (gamma c - 1) * q))).
Proof.
  intros S R0 G D Hr Hx. cbv zeta. set (p := pressure_from_rhotheta c x). set (k := k_t (boundary (p / ps)) lat). set (te := t_eq c p lat).
  assert (0 < k) as K by apply kt_pos, boundary_nonneg. assert (0 < te) as E by apply te_pos.
  pose proof (temperature_pos c S R0 r x Hr) as T. split; [exact K|]. split; [apply Rdiv_lt_0_compat; lra|].
  unfold heat. cbv zeta. fold p k te. rewrite (factor c G dt k te _ D K E T). f_equal. f_equal; [field|f_equal; field]; lra.
Qed.
(** positive for every step; warms exactly below equilibrium and is at rest
    exactly at equilibrium *)
Theorem C98_sign : forall c dt ps lat r x, 0 < scaling c -> 0 < gas c -> 1 < gamma c -> 0 < r -> 0 < x ->
  let te := t_eq c (pressure_from_rhotheta c x) lat in
  (0 <= dt -> 0 < heat c dt ps lat r x) /\
  (0 < dt -> (x < heat c dt ps lat r x <-> temperature c r x < te) /\ (heat c dt ps lat r x = x <-> temperature c r x = te)).
Proof.
  intros c dt ps lat r x S R0 G Hr Hx. cbv zeta.
  assert (0 <= dt -> 0 < heat c dt ps lat r x) as P.
  { intros D. destruct (heat_factor c dt ps lat r x S R0 G D Hr Hx) as (K & Q & ->). cbv zeta in *.
    set (k := k_t _ lat) in *. set (q := t_eq c _ lat / _) in *.
    assert (0 <= dt * k / gamma c) by (apply Rmult_le_pos; [nra|left; apply Rinv_0_lt_compat; lra]).
    set (m := dt * k / gamma c) in *. assert (0 < gamma c * q) by nra. assert (0 < 1 + (gamma c - 1) * q) by nra.
    apply Rmult_lt_0_compat; [lra|]. apply Rdiv_lt_0_compat; nra. }
  split; [exact P|]. intros D. destruct (heat_factor c dt ps lat r x S R0 G ltac:(lra) Hr Hx) as (K & Q & E). cbv zeta in *.
  pose proof (temperature_pos c S R0 r x Hr) as T. set (tm := temperature c r x) in *. set (te := t_eq c _ lat) in *.
  set (k := k_t _ lat) in *. assert (0 < dt * k / gamma c) as M by (apply Rdiv_lt_0_compat; nra).
  set (m := dt * k / gamma c) in *. assert (te = te / tm * tm) as ET by (field; lra). set (q := te / tm) in *.
  assert (0 < 1 + m * (1 + (gamma c - 1) * q)) as Dp by (assert (0 < 1 + (gamma c - 1) * q) by nra; nra).
  assert (heat c dt ps lat r x - x = x * (m * (q - 1)) / (1 + m * (1 + (gamma c - 1) * q))) as F by (rewrite E; field; lra).
  set (d := 1 + m * (1 + (gamma c - 1) * q)) in *. assert (0 < / d) as Id by (apply Rinv_0_lt_compat; lra).
  assert (heat c dt ps lat r x - x = x * m * / d * (q - 1)) as F2 by (rewrite F; unfold Rdiv; ring).
  assert (0 < x * m * / d) as W by (apply Rmult_lt_0_compat; [nra|exact Id]). set (w := x * m * / d) in *. rewrite ET. split; split; intros H.
  - assert (0 < q - 1) by nra. nra.
  - assert (0 < q - 1) by nra. nra.
  - assert (w * (q - 1) = 0) by lra. assert (q - 1 = 0) by nra. replace q with 1 by lra. ring.
  - assert (q = 1) as Q1 by (apply (Rmult_eq_reg_r tm); lra). rewrite Q1 in F2. lra.
Qed.
Print Assumptions C98_sign.

Lemma power_bound gm q : 0 < q -> 1 < gm -> exp (gm * (/ gm * ln q)) = q.
Proof. intros Q G. replace (gm * (/ gm * ln q)) with (ln q) by (field; lra). apply exp_ln, Q. Qed.
Lemma power_le gm x y : 1 < gm -> 0 < x -> x <= y -> exp (gm * ln x) <= exp (gm * ln y).
Proof.
  intros G X [L| ->]; [|lra]. left. apply exp_increasing. apply Rmult_lt_compat_l; [lra|]. apply ln_increasing; lra.
Qed.
Lemma power_lt gm x y : 1 < gm -> 0 < x -> x < y -> exp (gm * ln x) < exp (gm * ln y).
Proof. intros G X L. apply exp_increasing. apply Rmult_lt_compat_l; [lra|]. apply ln_increasing; lra. Qed.
Lemma bernoulli gm f : 1 < gm -> 0 < f -> 1 + gm * (f - 1) <= exp (gm * ln f).
Proof.
  intros G F. assert (0 < / gm < 1) as I by (split; [apply Rinv_0_lt_compat; lra|rewrite <- Rinv_1; apply Rinv_lt_contravar; lra]).
  pose proof (young (/ gm) (exp (gm * ln f)) I (exp_pos _)) as Y. rewrite ln_exp in Y.
  replace (/ gm * (gm * ln f)) with (ln f) in Y by (field; lra). rewrite exp_ln in Y by exact F.
  apply (Rmult_le_compat_l gm) in Y; [|lra]. replace (gm * (1 - / gm + / gm * exp (gm * ln f))) with (gm - 1 + exp (gm * ln f)) in Y by (field; lra). lra.
Qed.
(** warming never overshoots, whatever the step *)
Theorem C98_warming : forall c dt ps lat r x, 0 < scaling c -> 0 < gas c -> 1 < gamma c -> 0 <= dt -> 0 < r -> 0 < x ->
  let te := t_eq c (pressure_from_rhotheta c x) lat in
  temperature c r x <= te -> temperature c r x <= temperature c r (heat c dt ps lat r x) <= te.
Proof.
  intros c dt ps lat r x S R0 G D Hr Hx. cbv zeta. intros H.
  destruct (heat_factor c dt ps lat r x S R0 G D Hr Hx) as (K & Q & E). cbv zeta in *.
  pose proof (temperature_pos c S R0 r x Hr) as T. set (tm := temperature c r x) in *. set (te := t_eq c _ lat) in *.
  set (k := k_t _ lat) in *. assert (te = tm * (te / tm)) as ET by (field; lra). set (q := te / tm) in *.
  assert (0 <= dt * k / gamma c) as M by (apply Rmult_le_pos; [nra|left; apply Rinv_0_lt_compat; lra]). set (m := dt * k / gamma c) in *.
  assert (1 <= q) as Q1 by nra. assert (0 < 1 + (gamma c - 1) * q) as A by nra.
  destruct (mediant_up (1 + (gamma c - 1) * q) (gamma c * q) m A M ltac:(lra)) as (L1 & L2).
  set (f := (1 + m * (gamma c * q)) / (1 + m * (1 + (gamma c - 1) * q))) in *.
  rewrite E. rewrite (temperature_scale c R0 r x f Hx ltac:(lra) Hr). fold tm.
  pose proof (limit_factor (gamma c) q G Q) as L3.
  assert (1 <= exp (gamma c * ln f)) as U1.
  { pose proof (power_le (gamma c) 1 f G ltac:(lra) L1) as V. rewrite ln_1, Rmult_0_r, exp_0 in V. exact V. }
  assert (exp (gamma c * ln f) <= q) as U2.
  { pose proof (power_le (gamma c) f (exp (/ gamma c * ln q)) G ltac:(lra) ltac:(lra)) as V. rewrite ln_exp, power_bound in V by assumption. exact V. }
  rewrite ET. split; [nra|]. apply Rmult_le_compat_l; lra.
Qed.
Print Assumptions C98_warming.
(** cooling does not overshoot while dt k (gamma - 1) / gamma <= 1 (fourteen
    days at the fastest rate) *)
Theorem C98_cooling : forall c dt ps lat r x, 0 < scaling c -> 0 < gas c -> 1 < gamma c -> 0 <= dt -> 0 < r -> 0 < x ->
  let p := pressure_from_rhotheta c x in
  let k := k_t (boundary (p / ps)) lat in let te := t_eq c p lat in
  te <= temperature c r x ->
  temperature c r (heat c dt ps lat r x) <= temperature c r x /\
  (dt * k * ((gamma c - 1) / gamma c) <= 1 -> te <= temperature c r (heat c dt ps lat r x)).
Proof.
  intros c dt ps lat r x S R0 G D Hr Hx. cbv zeta. intros H.
  destruct (heat_factor c dt ps lat r x S R0 G D Hr Hx) as (K & Q & E). cbv zeta in *.
  pose proof (temperature_pos c S R0 r x Hr) as T. set (tm := temperature c r x) in *. set (te := t_eq c _ lat) in *.
  set (k := k_t _ lat) in *. assert (te = tm * (te / tm)) as ET by (field; lra). set (q := te / tm) in *.
  assert (0 <= dt * k / gamma c) as M by (apply Rmult_le_pos; [nra|left; apply Rinv_0_lt_compat; lra]).
  assert (dt * k * ((gamma c - 1) / gamma c) = dt * k / gamma c * (gamma c - 1)) as ->  by (field; lra).
  set (m := dt * k / gamma c) in *.
  assert (q <= 1) as Q1 by nra. assert (0 < 1 + (gamma c - 1) * q) as A by nra. assert (0 < gamma c * q) as A2 by nra.
  destruct (mediant_down (1 + (gamma c - 1) * q) (gamma c * q) m A A2 M ltac:(lra)) as (L1 & L2).
  assert (0 < gamma c * q / (1 + (gamma c - 1) * q)) as L0 by (apply Rdiv_lt_0_compat; lra).
  assert (0 < 1 + m * (1 + (gamma c - 1) * q)) as Dp by nra.
  assert ((1 + m * (gamma c * q)) / (1 + m * (1 + (gamma c - 1) * q)) - 1 = - (m * (1 - q) / (1 + m * (1 + (gamma c - 1) * q)))) as F1 by (field; lra).
  set (f := (1 + m * (gamma c * q)) / (1 + m * (1 + (gamma c - 1) * q))) in *.
  rewrite E. rewrite (temperature_scale c R0 r x f Hx ltac:(lra) Hr). fold tm. split.
  - assert (exp (gamma c * ln f) <= 1) as U1.
    { pose proof (power_le (gamma c) f 1 G ltac:(lra) L2) as V. rewrite ln_1, Rmult_0_r, exp_0 in V. exact V. }
    nra.
  - intros Hd. pose proof (bernoulli (gamma c) f G ltac:(lra)) as B.
    assert (q <= 1 + gamma c * (f - 1)) as V.
    { rewrite F1. apply (Rmult_le_reg_r (1 + m * (1 + (gamma c - 1) * q))); [exact Dp|].
      replace ((1 + gamma c * - (m * (1 - q) / (1 + m * (1 + (gamma c - 1) * q)))) * (1 + m * (1 + (gamma c - 1) * q)))
        with (1 + m * (1 + (gamma c - 1) * q) - gamma c * m * (1 - q)) by (field; lra).
      assert (m * (gamma c - 1) * (1 - q) <= 1) as W by nra.
      assert (0 <= (1 - q) * (1 - m * (gamma c - 1) * (1 - q))) by (apply Rmult_le_pos; lra). nra. }
    rewrite ET. apply Rmult_le_compat_l; lra.
Qed.
Print Assumptions C98_cooling.
(** but every state warmer than its equilibrium is thrown below it by all
    sufficiently long steps *)
Theorem C98_overshoot_refuted : forall c ps lat r x, 0 < scaling c -> 0 < gas c -> 1 < gamma c -> 0 < r -> 0 < x ->
  let te := t_eq c (pressure_from_rhotheta c x) lat in te < temperature c r x ->
  exists dt0, 0 < dt0 /\ forall dt, dt0 <= dt -> temperature c r (heat c dt ps lat r x) < te.
Proof.
  intros c ps lat r x S R0 G Hr Hx. cbv zeta. intros H.
  destruct (heat_factor c 0 ps lat r x S R0 G ltac:(lra) Hr Hx) as (K & Q & _). cbv zeta in *.
  pose proof (fun dt D => proj2 (proj2 (heat_factor c dt ps lat r x S R0 G D Hr Hx))) as E. cbv zeta in E.
  pose proof (temperature_pos c S R0 r x Hr) as T. set (tm := temperature c r x) in *. set (te := t_eq c _ lat) in *.
  set (k := k_t _ lat) in *. assert (te = tm * (te / tm)) as ET by (field; lra). set (q := te / tm) in *.
  assert (q < 1) as Q1 by nra.
  pose proof (limit_factor_strict (gamma c) q G Q ltac:(lra)) as L.
  pose proof (power_bound (gamma c) q Q G) as PB. set (z := exp (/ gamma c * ln q)) in *.
  assert (0 < z) as Z0 by apply exp_pos.
  assert (z < 1) as Z1.
  { unfold z. rewrite <- exp_0. apply exp_increasing. assert (ln q < 0) by (rewrite <- ln_1; apply ln_increasing; lra).
    assert (0 < / gamma c) by (apply Rinv_0_lt_compat; lra). nra. }
  set (a := 1 + (gamma c - 1) * q) in *. set (b := gamma c * q) in *. assert (0 < a) as A by (unfold a; nra). assert (0 < b) as B by (unfold b; nra).
  assert (b < z * a) as BA. { apply (Rmult_lt_compat_r a) in L; [|exact A]. replace (b / a * a) with b in L by (field; lra). exact L. }
  set (m0 := 1 / (z * a - b)). assert (0 < m0) as M0 by (apply Rdiv_lt_0_compat; lra).
  exists (m0 * gamma c / k). assert (0 < m0 * gamma c / k) as P0 by (apply Rdiv_lt_0_compat; nra). split; [exact P0|].
  intros dt Hd. rewrite (E dt ltac:(lra)). fold a b.
  assert (m0 <= dt * k / gamma c) as M.
  { apply (Rmult_le_reg_r (gamma c / k)); [apply Rdiv_lt_0_compat; lra|]. replace (dt * k / gamma c * (gamma c / k)) with dt by (field; lra).
    replace (m0 * (gamma c / k)) with (m0 * gamma c / k) by (field; lra). exact Hd. }
  set (m := dt * k / gamma c) in *.
  assert (m0 * (z * a - b) = 1) as N by (unfold m0; field; lra).
  assert (1 <= m * (z * a - b)) as N2 by nra.
  assert (0 < 1 + m * a) as Da by nra.
  assert ((1 + m * b) / (1 + m * a) < z) as F.
  { apply (Rmult_lt_reg_r (1 + m * a)); [exact Da|]. replace ((1 + m * b) / (1 + m * a) * (1 + m * a)) with (1 + m * b) by (field; lra). nra. }
  assert (0 < (1 + m * b) / (1 + m * a)) as F0 by (apply Rdiv_lt_0_compat; nra).
  rewrite (temperature_scale c R0 r x _ Hx F0 Hr). fold tm.
  pose proof (power_lt (gamma c) _ z G F0 F) as V. unfold z at 1 in V. rewrite ln_exp, PB in V.
  rewrite ET. apply Rmult_lt_compat_l; assumption.
Qed.
Print Assumptions C98_overshoot_refuted.

(** the rates stay between the polar and equatorial ones up to the surface,
    equilibrium stays within [200, 315] up to the reference pressure, and both
    are symmetric about the equator *)
Theorem C99_ranges : forall c s p lat,
  k_t (boundary s) (- lat) = k_t (boundary s) lat /\ t_eq c p (- lat) = t_eq c p lat /\
  1 / 40 / 86400 <= k_t (boundary s) lat /\ (s <= 1 -> k_t (boundary s) lat <= 1 / 4 / 86400) /\
  200 <= t_eq c p lat /\ (0 < p0 c -> 10 <= 315 * kappa c -> 0 < p <= p0 c -> t_eq c p lat <= 315).
Proof.
  intros c s p lat. split; [unfold k_t; rewrite cos_neg; reflexivity|].
  split. { unfold t_eq. rewrite cos_neg, sin_neg. cbv zeta. replace (t_max - delta_ty * - sin lat * - sin lat) with (t_max - delta_ty * sin lat * sin lat) by ring. reflexivity. }
  pose proof (sin2_cos2 lat) as SC. unfold Rsqr in SC. set (sn := sin lat) in *. set (cs := cos lat) in *.
  assert (0 <= cs * cs <= 1) as C2 by nra.
  assert (0 <= cs * cs * cs * cs <= 1) as C4. { replace (cs * cs * cs * cs) with ((cs * cs) * (cs * cs)) by ring. nra. }
  split; [|split; [|split]].
  - unfold k_t, k_a, k_s. fold cs. pose proof (boundary_nonneg s). set (b := boundary s) in *. set (c4 := cs * cs * cs * cs) in *. assert (0 <= b * c4) by nra. lra.
  - intros H. unfold k_t, k_a, k_s. fold cs. pose proof (boundary_nonneg s). pose proof (boundary_le1 s H). set (b := boundary s) in *. set (c4 := cs * cs * cs * cs) in *.
    assert (b * c4 <= 1) by nra. lra.
  - unfold t_eq, t_min. cbv zeta. destruct (Rlt_dec _ 200); lra.
  - intros P0 KK P. unfold t_eq, t_min, t_max, delta_ty, delta_theta. cbv zeta. fold sn cs.
    set (L := - ln (p / p0 c)).
    assert (0 <= L) as L0.
    { unfold L. assert (p / p0 c <= 1) as Q. { apply (Rmult_le_reg_r (p0 c)); [exact P0|]. unfold Rdiv. rewrite Rmult_assoc, Rinv_l by lra. lra. }
      assert (0 < p / p0 c) by (apply Rdiv_lt_0_compat; lra). destruct Q as [Q|Q]; [|rewrite Q, ln_1; lra].
      pose proof (ln_increasing _ _ H Q). rewrite ln_1 in *. lra. }
    assert (Rpower (p / p0 c) (kappa c) = / exp (kappa c * L)) as ->.
    { unfold Rpower. rewrite <- exp_Ropp. f_equal. unfold L. ring. }
    replace (ln (p / p0 c)) with (- L) by (unfold L; ring).
    pose proof (exp_tangent 0 (kappa c * L)) as X. rewrite exp_0, Rminus_0_r, Rmult_1_l in X.
    pose proof (exp_pos (kappa c * L)) as EP. set (e := exp (kappa c * L)) in *.
    destruct (Rlt_dec _ 200); [lra|]. apply (Rmult_le_reg_r e); [exact EP|].
    replace ((315 - 60 * sn * sn - 10 * - L * cs * cs) * / e * e) with (315 - 60 * (sn * sn) + 10 * L * (cs * cs)) by (field; lra).
    assert (0 <= sn * sn) by nra. assert (10 * L * (cs * cs) <= 10 * L) by nra. assert (10 * L <= 315 * (kappa c * L)) by nra. nra.
Qed.
Print Assumptions C99_ranges.
(** above the reference pressure equilibrium exceeds the upper bound *)
Theorem C99_maximum_refuted : forall k y s, let c := construct k y s in exists p, p0 c < p /\ 315 < t_eq c p 0.
Proof.
  intros k y s. cbv zeta. exists (100000 * exp 1). pose proof (exp_ineq1 1 ltac:(lra)) as E. split; [cbn [p0 construct recalculate_scaling recalculate_gamma recalculate_kappa]; lra|].
  unfold t_eq, t_min, t_max, delta_ty, delta_theta. cbv zeta. cbn [p0 construct recalculate_scaling recalculate_gamma recalculate_kappa kappa gas cp].
  replace (100000 * exp 1 / 100000) with (exp 1) by field. rewrite ln_exp, sin_0, cos_0. unfold Rpower. rewrite ln_exp.
  pose proof (exp_ineq1 (287 / (10045 / 10) * 1) ltac:(lra)) as X. destruct (Rlt_dec _ 200); lra.
Qed.
Print Assumptions C99_maximum_refuted.
(** density and vertical velocity are never changed, nor anything above the
    top level; without staggering each level reads only its own values and the
    interface values at the surface, which the code does not refresh *)
Theorem C99_local : forall c n stag e2n n2e dt lat x,
  let y := held c n stag e2n n2e dt lat x in
  nR y = nR x /\ eW y = eW x /\ (forall k, (n <= k)%nat -> nU y k = nU x k /\ nV y k = nV x k) /\
  (stag = false -> eT y = eT x /\ eR y = eR x /\
    forall x' k, eR x' 0%nat = eR x 0%nat -> eT x' 0%nat = eT x 0%nat ->
      nU x' k = nU x k -> nV x' k = nV x k -> nT x' k = nT x k -> nR x' k = nR x k ->
      let y' := held c n stag e2n n2e dt lat x' in nU y' k = nU y k /\ nV y' k = nV y k /\ nT y' k = nT y k).
Proof.
  intros c n stag e2n n2e dt lat x. cbv zeta.
  split; [destruct stag; reflexivity|]. split; [destruct stag; reflexivity|].
  split. { intros k H. unfold held, upto. cbn [nU nV]. destruct (Nat.ltb_spec k n); [lia|]. destruct stag; split; reflexivity. }
  intros ->. split; [reflexivity|]. split; [reflexivity|]. intros x' k E1 E2 E3 E4 E5 E6.
  unfold held, staggered, upto. cbn [nU nV nT nR eT eR]. rewrite E1, E2. destruct (Nat.ltb_spec k n); rewrite ?E3, ?E4, ?E5, ?E6; repeat split; reflexivity.
Qed.
Print Assumptions C99_local.
(** at equilibrium above the boundary layer the whole column is at rest under
    the forcing; and the state of rest stays at rest *)
Theorem C99_rest : forall c n e2n n2e dt lat x, 0 < scaling c -> 0 < gas c -> 1 < gamma c -> 0 <= dt ->
  (forall k, (k < n)%nat -> 0 < nR x k /\ 0 < nT x k /\ nU x k = 0 /\ nV x k = 0 /\
     temperature c (nR x k) (nT x k) = t_eq c (pressure_from_rhotheta c (nT x k)) lat) ->
  let y := held c n false e2n n2e dt lat x in
  forall k, nU y k = nU x k /\ nV y k = nV x k /\ nT y k = nT x k /\ eT y k = eT x k.
Proof.
  intros c n e2n n2e dt lat x S R0 G D H. cbv zeta. intros k. unfold held, staggered, upto. cbn [nU nV nT nR eT eR].
  destruct (Nat.ltb_spec k n) as [L|L]; [|repeat split; reflexivity]. destruct (H k L) as (Hr & Ht & U & V & E).
  unfold friction. rewrite U, V. split; [unfold Rdiv; ring|]. split; [unfold Rdiv; ring|]. split; [|reflexivity].
  destruct (Req_dec dt 0) as [->|N].
  - unfold heat. cbv zeta. unfold Rdiv. ring.
  - refine (proj2 (proj2 (proj2 (C98_sign c dt _ lat _ _ S R0 G Hr Ht) _)) E). lra.
Qed.
Print Assumptions C99_rest.

(** the rates at the surface on the equator, above the boundary layer and at
    the poles, and the equilibrium temperature at the reference pressure *)
Theorem C99_rates : forall c b lat, k_t 1 0 = 1 / 4 / 86400 /\ k_t 0 lat = 1 / 40 / 86400 /\ k_t b (PI / 2) = 1 / 40 / 86400 /\
  (0 < p0 c -> t_eq c (p0 c) lat = 315 - 60 * (sin lat * sin lat)).
Proof.
  intros c b lat. unfold k_t, k_a, k_s. rewrite cos_0, cos_PI2. split; [lra|]. split; [lra|]. split; [lra|]. intros P.
  unfold t_eq, t_max, delta_ty, delta_theta, t_min. cbv zeta. replace (p0 c / p0 c) with 1 by (field; lra).
  rewrite ln_1. unfold Rpower. rewrite ln_1, !Rmult_0_r, exp_0. pose proof (sin2_cos2 lat) as SC. unfold Rsqr in SC.
  assert (0 <= sin lat * sin lat <= 1) by nra. destruct (Rlt_dec _ 200); nra.
Qed.
Print Assumptions C99_rates.
(** what becomes of every level and interface: friction on both components of
    the wind of every level, heating of every level, or of every interface with
    the lowest and the highest when the variable lives there *)
Theorem C99_column : forall c n stag e2n n2e dt lat x, 0 <= dt ->
  let y := held c n stag e2n n2e dt lat x in
  let rs := if stag then n2e (nR x) 0%nat else eR x 0%nat in
  let ps := pressure_from_rhotheta c (rs * eT x 0%nat) in
  (forall k, (k < n)%nat -> let tk := if stag then e2n (eT x) k else nT x k in
     let s := pressure_from_rhotheta c (nR x k * tk) / ps in
     implicit_decay (1 / 86400 * profile (7 / 10) s) dt (nU x k) (nU y k) /\
     implicit_decay (1 / 86400 * profile (7 / 10) s) dt (nV x k) (nV y k)) /\
  (stag = false -> forall k, (k < n)%nat -> nT y k = heat c dt ps lat (nR x k) (nT x k)) /\
  (stag = true -> forall k, (k <= n)%nat -> eT y k = heat c dt ps lat (n2e (nR x) k) (eT x k)).
Proof.
  intros c n stag e2n n2e dt lat x D. cbv zeta. split; [|split].
  - intros k L.
    destruct stag; unfold held, staggered, upto; cbn [nU nV nT nR eT eR]; rewrite (proj2 (Nat.ltb_lt k n) L).
    + set (ps := pressure_from_rhotheta c (n2e (nR x) 0%nat * eT x 0%nat)).
      destruct (C97_friction c dt ps (nR x k) (e2n (eT x) k) (nU x k) (nV x k) D) as (A & B & _). split; assumption.
    + set (ps := pressure_from_rhotheta c (eR x 0%nat * eT x 0%nat)).
      destruct (C97_friction c dt ps (nR x k) (nT x k) (nU x k) (nV x k) D) as (A & B & _). split; assumption.
  - intros -> k L. unfold held, staggered, upto. cbn [nT nR eT eR]. rewrite (proj2 (Nat.ltb_lt k n) L). reflexivity.
  - intros -> k L. unfold held, staggered, upto. cbn [nT nR eT eR]. rewrite (proj2 (Nat.ltb_lt k (S n)) ltac:(lia)). reflexivity.
Qed.
Print Assumptions C99_column.

(** the default constants meet the hypotheses *)
Example C98_case : forall k y s, let c := construct k y s in 0 < scaling c /\ 0 < gas c /\ 1 < gamma c /\ 0 < p0 c /\ 10 <= 315 * kappa c.
Proof.
  intros k y s. cbv zeta. rewrite gamma_default. split; [cbn; apply Rmult_lt_0_compat; [lra|apply exp_pos]|]. cbn. lra.
Qed.
(** a warm state at the pole: equilibrium 200 K, temperature 400 K *)
Example C98_warm : forall k y s, let c := construct k y s in
  exists x r, 0 < x /\ 0 < r /\ t_eq c (pressure_from_rhotheta c x) (PI / 2) = 200 /\ temperature c r x = 400.
Proof.
  intros k y s. cbv zeta. set (c := construct k y s). destruct (C98_case k y s) as (S & R0 & G & P0 & _). fold c in S, R0, G, P0.
  set (p := p0 c * Rpower (1 / 2) (7 / 2)). assert (0 < p) as P by (apply Rmult_lt_0_compat; [exact P0|apply exp_pos]).
  destruct (C38_inverse k y s nil) as (I & _). { cbn. lra. } { cbn. lra. } { cbn. lra. }
  destruct (I p P) as (_ & Hx & _ & Hp). fold c in Hx, Hp. cbn [sets List.fold_left] in Hx, Hp. fold c in Hx, Hp.
  exists (rhotheta_from_pressure c p), (p / (gas c * 400)). split; [exact Hx|]. split; [apply Rdiv_lt_0_compat; lra|]. unfold temperature. rewrite Hp. split.
  - unfold t_eq, t_min, t_max, delta_ty, delta_theta. cbv zeta. rewrite sin_PI2, cos_PI2.
    assert (Rpower (p / p0 c) (kappa c) = 1 / 2) as ->.
    { replace (p / p0 c) with (Rpower (1 / 2) (7 / 2)) by (unfold p; field; lra). rewrite Rpower_mult.
      replace (7 / 2 * kappa c) with 1 by (unfold c; cbn; lra). apply Rpower_1. lra. }
    destruct (Rlt_dec _ 200) as [|N]; [reflexivity|exfalso; apply N; lra].
  - field. lra.
Qed.
