(** * C134: the balances of the tropical cyclone *)
From Coq Require Import Reals Lra Psatz.
From Verif Require Import DlimProofs TcModel TcSpec TcProofs.
Local Open Scope R_scope.

(** below the tropopause the air floats: dp/dz = - rho g at every distance *)
Theorem C134_hydrostatic s r z : sane s -> 0 <= z < ztrop s -> floats (grav s) (pressure s r) (density s r) z.
Proof.
  intros H L. unfold floats.
  apply (D_near (lower s r) _ z _ (ztrop s - z)); [lra| |].
  { intros y Y. apply Rabs_def2 in Y. unfold pressure. destruct (Rlt_dec (ztrop s) y); [lra|reflexivity]. }
  eapply D_eq; [apply lower_dz; [exact H|lra]|].
  unfold density. rewrite (Rmult_assoc (gas s)). rewrite virtual by (exact H || lra).
  pose proof (den_pos s H r z ltac:(lra)) as D. pose proof (A_pos s H r z) as P. pose proof (T_pos s H z ltac:(lra)) as TP. cbv beta zeta in D, P, TP.
  unfold pressure. destruct (Rlt_dec (ztrop s) z); [lra|]. unfold lower.
  set (EE := exp (- power32 (r / rp s))) in *. set (ZZ := exp (- (z / zp s * (z / zp s)))) in *.
  set (PP := Rpower _ _). set (AA := p00 s - dp s * EE * ZZ) in *. set (TT := t0 s - gamma s * z) in *.
  destruct H. field. repeat split; lra.
Qed.

(** above the tropopause the slope of the pressure is that of dry air, but the density
    is that of moist air: the balance is off by the factor 1 + constTv qtrop *)
Theorem C134_above s r z : sane s -> ztrop s < z ->
  derivable_pt_lim (pressure s r) z (- density s r z * grav s * (1 + const_tv s * qtrop s)).
Proof.
  intros H L.
  apply (D_near (fun z => p_trop s * exp (- (grav s * (z - ztrop s)) / (gas s * t_trop s))) _ z _ (z - ztrop s)); [lra| |].
  { intros y Y. apply Rabs_def2 in Y. unfold pressure. destruct (Rlt_dec (ztrop s) y); [reflexivity|lra]. }
  pose proof (humid s H z) as Q.
  assert (0 < gas s * t_trop s) by (destruct H; apply Rmult_lt_0_compat; assumption).
  dlim; cbv beta; try lra.
  unfold density, temperature, pressure, humidity in *. destruct (Rlt_dec (ztrop s) z); [|lra].
  destruct H. field. lra.
Qed.
Theorem C134_above_refuted s r z : sane s -> ztrop s < z ->
  (floats (grav s) (pressure s r) (density s r) z <-> const_tv s * qtrop s = 0).
Proof.
  intros H L. pose proof (C134_above s r z H L) as D. split.
  - intros F. pose proof (uniqueness_limite _ _ _ _ D F) as E.
    pose proof (pressure_pos s H r z). pose proof (virtual_pos s H r z ltac:(destruct H; lra)) as V.
    assert (0 < density s r z * grav s).
    { apply Rmult_lt_0_compat; [|apply H]. unfold density. rewrite (Rmult_assoc (gas s)).
      apply Rdiv_lt_0_compat; [assumption|]. apply Rmult_lt_0_compat; [apply H|exact V]. }
    apply (Rmult_eq_reg_l (density s r z * grav s)); lra.
  - intros E. unfold floats. eapply D_eq; [exact D|]. rewrite E. ring.
Qed.

(** the wind is held by the pressure gradient and the Coriolis force, at every distance
    from the centre and every height *)
Theorem C134_wind s r z : sane s -> 0 < r -> 0 <= z ->
  gradient_wind (coriolis_at (om s) (clat s)) (speed s r z) (density s r z) (fun r => pressure s r z) r.
Proof.
  intros H R L. change (coriolis_at (om s) (clat s)) with (coriolis s). unfold gradient_wind, speed. destruct (Rlt_dec (ztrop s) z) as [X|X].
  - exists 0. split; [|unfold Rdiv; ring].
    apply (D_ext (fun _ => p_trop s * exp (- (grav s * (z - ztrop s)) / (gas s * t_trop s)))); [|apply D_const].
    intros y. unfold pressure. destruct (Rlt_dec (ztrop s) z); [reflexivity|lra].
  - eexists. split.
    + apply (D_ext (fun r => lower s r z)); [|apply lower_dr; [exact H|exact R]].
      intros y. unfold pressure. destruct (Rlt_dec (ztrop s) z); [lra|reflexivity].
    + unfold density. rewrite (Rmult_assoc (gas s)). rewrite virtual by (exact H || lra). rewrite (bracket s H).
      pose proof (den_pos s H r z ltac:(lra)) as D. pose proof (A_pos s H r z) as P. pose proof (T_pos s H z ltac:(lra)) as TP. cbv beta zeta in D, P, TP.
      pose proof (exp_pos (- power32 (r / rp s))). pose proof (exp_pos (- (z / zp s * (z / zp s)))).
      unfold pressure. destruct (Rlt_dec (ztrop s) z); [lra|]. unfold lower.
      pose proof (Rpower_pos ((t0 s - gamma s * z) / t0 s) (1 / exponent s)).
      pose proof (power32_nonneg (r / rp s)).
      set (EE := exp (- power32 (r / rp s))) in *. set (ZZ := exp (- (z / zp s * (z / zp s)))) in *.
      set (PP := Rpower _ _) in *. set (AA := p00 s - dp s * EE * ZZ) in *. set (TT := t0 s - gamma s * z) in *.
      set (W := power32 (r / rp s)) in *. set (f := coriolis s).
      assert (0 < zp s * zp s) by (destruct H; apply Rmult_lt_0_compat; assumption).
      set (DD := grav s * (zp s * zp s) * AA - 2 * gas s * TT * z * (dp s * EE * ZZ)) in *.
      set (X0 := 3 / 2 * W * gas s * TT * (dp s * EE * ZZ) * (grav s * (zp s * zp s)) / DD).
      match goal with |- context [sqrt ?a] => replace a with ((f * r / 2) * (f * r / 2) + X0) end.
      2: { unfold X0, DD. destruct H. field. unfold DD in D. repeat split; lra. }
      assert (0 <= X0).
      { unfold X0. destruct H. apply Rmult_le_pos; [|left; apply Rinv_0_lt_compat, D].
        repeat apply Rmult_le_pos; lra. }
      assert (0 <= (f * r / 2) * (f * r / 2) + X0) as Rad by (pose proof (Rle_0_sqr (f * r / 2)) as Q; unfold Rsqr in Q; lra).
      pose proof (sqrt_sqrt _ Rad) as SS. set (q := sqrt _) in *.
      transitivity (X0 / r).
      * replace ((- f * r / 2 + q) * (- f * r / 2 + q) / r + f * (- f * r / 2 + q)) with ((q * q - (f * r / 2) * (f * r / 2)) / r) by (field; lra).
        rewrite SS. f_equal. ring.
      * unfold X0. destruct H. field. repeat split; lra.
Qed.

(** it turns the way of the Coriolis parameter *)
Theorem C134_cyclonic s r z : sane s -> 0 < r -> 0 <= z <= ztrop s -> 0 <= coriolis_at (om s) (clat s) -> 0 < speed s r z.
Proof.
  intros H R L F. change (coriolis_at (om s) (clat s)) with (coriolis s) in F. unfold speed. destruct (Rlt_dec (ztrop s) z); [lra|]. rewrite (bracket s H).
  pose proof (den_pos s H r z L) as D. pose proof (A_pos s H r z) as P. pose proof (T_pos s H z ltac:(lra)) as TP. cbv beta zeta in D, P, TP.
  pose proof (exp_pos (- power32 (r / rp s))). pose proof (exp_pos (- (z / zp s * (z / zp s)))).
  assert (0 < power32 (r / rp s)).
  { unfold power32. destruct (Rlt_dec 0 (r / rp s)) as [?|N]; [apply exp_pos|]. destruct N. apply Rdiv_lt_0_compat; [exact R|apply H]. }
  set (EE := exp (- power32 (r / rp s))) in *. set (ZZ := exp (- (z / zp s * (z / zp s)))) in *.
  set (AA := p00 s - dp s * EE * ZZ) in *. set (TT := t0 s - gamma s * z) in *.
  set (W := power32 (r / rp s)) in *. set (f := coriolis s) in *.
  assert (0 < zp s * zp s) by (destruct H; apply Rmult_lt_0_compat; assumption).
  set (DD := grav s * (zp s * zp s) * AA - 2 * gas s * TT * z * (dp s * EE * ZZ)) in *.
  set (X0 := 3 / 2 * W * gas s * TT * (dp s * EE * ZZ) * (grav s * (zp s * zp s)) / DD).
  match goal with |- context [sqrt ?a] => replace a with ((f * r / 2) * (f * r / 2) + X0) end.
  2: { unfold X0, DD. destruct H. field. unfold DD in D. repeat split; lra. }
  assert (0 < X0) as XP.
  { unfold X0. destruct H. apply Rdiv_lt_0_compat; [|exact D]. repeat apply Rmult_lt_0_compat; lra. }
  assert (0 <= f * r / 2) as G by (apply Rmult_le_pos; [apply Rmult_le_pos; lra|lra]).
  assert (sqrt ((f * r / 2) * (f * r / 2)) < sqrt ((f * r / 2) * (f * r / 2) + X0)) as Q.
  { apply sqrt_lt_1_alt. split; [apply Rmult_le_pos; exact G|lra]. }
  rewrite sqrt_square in Q by exact G. lra.
Qed.

(** the wind blows along the circles around the centre, with that speed: [D1] and [D2]
    are the slopes of the cosine of the distance, so that (- D1 / cos lat, - D2) points
    away from the centre *)
Theorem C134_tangent s lon lat z D1 D2 : cos lat <> 0 -> 0 < tiny s ->
  derivable_pt_lim (fun lon => cos_distance s lon lat) lon D1 -> derivable_pt_lim (fun lat => cos_distance s lon lat) lat D2 ->
  zonal s lon lat z * (D1 / cos lat) + meridional s lon lat z * D2 = 0 /\
  let n := sqrt (D2 * D2 + (D1 / cos lat) * (D1 / cos lat)) in
  (tiny s <= n -> zonal s lon lat z * D2 - meridional s lon lat z * (D1 / cos lat) = speed s (distance s lon lat) z * n).
Proof.
  intros C T A B.
  assert (D1 = - cos lat * d2 s lon lat) as E1.
  { apply (uniqueness_limite _ _ _ _ A). unfold cos_distance, d2. dlim; cbv beta; ring. }
  assert (D2 = d1 s lon lat) as E2.
  { apply (uniqueness_limite _ _ _ _ B). unfold cos_distance, d1. dlim; cbv beta; ring. }
  replace (D1 / cos lat) with (- d2 s lon lat) by (rewrite E1; field; exact C). rewrite E2. clear - T.
  unfold zonal, meridional, dd. set (a := d1 s lon lat). set (b := d2 s lon lat). cbv zeta.
  replace (a * a + - b * - b) with (a * a + b * b) by ring.
  set (m := Rmax _ _). assert (0 < m) by (pose proof (Rmax_l (tiny s) (sqrt (a * a + b * b))); unfold m; lra).
  split; [field; lra|]. intros L.
  assert (m = sqrt (a * a + b * b)) as M by (unfold m; apply Rmax_right, L).
  assert (m * m = a * a + b * b) as Q.
  { rewrite M. apply sqrt_sqrt. pose proof (Rle_0_sqr a). pose proof (Rle_0_sqr b). unfold Rsqr in *. lra. }
  rewrite <- M. replace (a / m * speed s (distance s lon lat) z * a - b / m * speed s (distance s lon lat) z * - b)
    with ((a * a + b * b) / m * speed s (distance s lon lat) z) by (field; lra).
  rewrite <- Q. field. lra.
Qed.

(** at the ground the pressure is the surface pressure *)
Theorem C134_ground s r : sane s -> pressure s r 0 = surface s r.
Proof.
  intros H. unfold pressure, lower, surface. destruct (Rlt_dec (ztrop s) 0) as [X|X]; [destruct H; lra|].
  rewrite Rmult_0_r, Rminus_0_r. destruct H. replace (t0 s / t0 s) with 1 by (field; lra).
  unfold Rpower at 1. rewrite ln_1, Rmult_0_r, exp_0. replace (0 / zp s) with 0 by (field; lra).
  rewrite Rmult_0_l, Ropp_0, exp_0. ring.
Qed.

(** the pressure jumps at the tropopause, by what is left of the low there *)
Theorem C134_tropopause_refuted s r : sane s ->
  p_trop s - pressure s r (ztrop s) = dp s * exp (- power32 (r / rp s)) * exp (- (ztrop s / zp s * (ztrop s / zp s))) * Rpower (t_trop s / t0 s) (1 / exponent s)
  /\ pressure s r (ztrop s) < p_trop s
  /\ ~ continuity_pt (pressure s r) (ztrop s).
Proof.
  intros H.
  assert (p_trop s - pressure s r (ztrop s) = dp s * exp (- power32 (r / rp s)) * exp (- (ztrop s / zp s * (ztrop s / zp s))) * Rpower (t_trop s / t0 s) (1 / exponent s)) as E.
  { unfold pressure, lower, p_trop. destruct (Rlt_dec (ztrop s) (ztrop s)); [lra|]. fold (t_trop s). ring. }
  assert (pressure s r (ztrop s) < p_trop s) as L.
  { assert (0 < p_trop s - pressure s r (ztrop s)); [|lra]. rewrite E.
    repeat apply Rmult_lt_0_compat; try apply exp_pos. apply H. }
  split; [exact E|]. split; [exact L|]. intros C.
  set (U := fun z => p_trop s * exp (- (grav s * (z - ztrop s)) / (gas s * t_trop s))).
  assert (0 < gas s * t_trop s) by (destruct H; apply Rmult_lt_0_compat; assumption).
  assert (continuity_pt U (ztrop s)) as CU.
  { apply derivable_continuous_pt. eexists. unfold U. unfold derivable_pt_abs. repeat dstep. lra. }
  assert (U (ztrop s) = p_trop s) as EU.
  { unfold U. replace (- (grav s * (ztrop s - ztrop s)) / (gas s * t_trop s)) with 0 by (field; destruct H; lra). rewrite exp_0. ring. }
  set (e := (p_trop s - pressure s r (ztrop s)) / 2). assert (0 < e) as He by (unfold e; lra).
  destruct (C e He) as (a & Ha & Ca). destruct (CU e He) as (b & Hb & Cb).
  set (h := Rmin a b / 2). assert (0 < h) as Hh by (unfold h; assert (0 < Rmin a b) by (apply Rmin_glb_lt; assumption); lra).
  assert (h < a /\ h < b) as (Ka & Kb) by (unfold h in *; pose proof (Rmin_l a b); pose proof (Rmin_r a b); lra).
  assert (forall c, h < c -> (D_x no_cond (ztrop s) (ztrop s + h) /\ R_dist (ztrop s + h) (ztrop s) < c)) as N.
  { intros c Hc. split; [split; [exact I|lra]|]. unfold R_dist. replace (ztrop s + h - ztrop s) with h by ring. rewrite Rabs_pos_eq; lra. }
  specialize (Ca (ztrop s + h) (N a Ka)). specialize (Cb (ztrop s + h) (N b Kb)). cbn in Ca, Cb. unfold R_dist in Ca, Cb.
  rewrite EU in Cb. replace (pressure s r (ztrop s + h)) with (U (ztrop s + h)) in Ca.
  2: { unfold pressure. destruct (Rlt_dec (ztrop s) (ztrop s + h)); [reflexivity|lra]. }
  apply Rabs_def2 in Ca, Cb. unfold e in *. lra.
Qed.

(** the height of a pressure: the iteration divides by the slope of the function whose
    zero it wants, and a zero below the tropopause is a height of that pressure *)
Theorem C134_newton s p r z : sane s -> z <= ztrop s ->
  derivable_pt_lim (fun z => fpi_f s p r z) z (fpi_df s r z) /\ (fpi_f s p r z = 0 <-> pressure s r z = p).
Proof.
  intros H L. split; [apply fpi_dz; assumption|]. unfold fpi_f, pressure, lower. destruct (Rlt_dec (ztrop s) z); [lra|].
  rewrite one_over by exact H. lra.
Qed.

(** the model recovers the pressure from the density and the virtual potential
    temperature of the state *)
Theorem C134_pressure_back s r z : sane s -> 0 < pref s -> 0 < gas s < cpd s -> 0 <= z ->
  pref s * Rpower (gas s * density s r z * thetav s r z / pref s) (cpd s / (cpd s - gas s)) = pressure s r z.
Proof.
  intros H P G L. pose proof (pressure_pos s H r z) as Q. pose proof (virtual_pos s H r z L) as V.
  unfold density, thetav. set (p := pressure s r z) in *. rewrite (Rmult_assoc (gas s) (temperature s r z)).
  set (tv := temperature s r z * (1 + const_tv s * humidity s z)) in *.
  replace (gas s * (p / (gas s * tv)) * (tv * Rpower (pref s / p) (gas s / cpd s)) / pref s)
    with (p / pref s * Rpower (pref s / p) (gas s / cpd s)) by (field; lra).
  assert (0 < p / pref s) as W by (apply Rdiv_lt_0_compat; assumption).
  replace (pref s / p) with (/ (p / pref s)) by (field; lra).
  assert (p / pref s * Rpower (/ (p / pref s)) (gas s / cpd s) = Rpower (p / pref s) (1 - gas s / cpd s)) as ->.
  { unfold Rminus. rewrite Rpower_plus, Rpower_1 by exact W. f_equal. unfold Rpower. rewrite ln_Rinv by exact W. f_equal. ring. }
  rewrite Rpower_mult. replace ((1 - gas s / cpd s) * (cpd s / (cpd s - gas s))) with 1 by (field; lra).
  rewrite Rpower_1 by exact W. field. lra.
Qed.

(** the distance is that along the great circle: the radius times an angle between 0 and
    PI whose cosine is the scalar product of the two directions *)
Theorem C134_distance s lon lat : 0 < ae s ->
  cos (distance s lon lat / ae s) = dot (clon s) (clat s) lon lat /\ 0 <= distance s lon lat <= PI * ae s.
Proof.
  intros H. unfold distance.
  assert (cos_distance s lon lat = dot (clon s) (clat s) lon lat) as E.
  { unfold cos_distance, dot. rewrite cos_minus. ring. }
  assert (-1 <= cos_distance s lon lat <= 1) as B.
  { unfold cos_distance. set (w := lon - clon s). pose proof (COS_bound w) as [W1 W2].
    pose proof (COS_bound (clat s - lat)) as [M1 M2]. pose proof (COS_bound (clat s + lat)) as [P1 P2].
    rewrite cos_minus in M1, M2. rewrite cos_plus in P1, P2.
    set (a := cos (clat s) * cos lat) in *. set (b := sin (clat s) * sin lat) in *. split; nra. }
  split.
  - replace (ae s * acos (cos_distance s lon lat) / ae s) with (acos (cos_distance s lon lat)) by (field; lra).
    rewrite cos_acos by exact B. exact E.
  - pose proof (acos_bound (cos_distance s lon lat)). nra.
Qed.

(** the humidity is q0 at the ground and falls with height at the relative rate
    1 / zq1 + 2 z / zq2^2 *)
Theorem C134_humidity s z : sane s -> 0 < zq1 s -> 0 < zq2 s -> z < ztrop s ->
  humidity s 0 = q0 s /\ derivable_pt_lim (humidity s) z (- (1 / zq1 s + 2 * z / (zq2 s * zq2 s)) * humidity s z).
Proof.
  intros H P Q L. split.
  - unfold humidity. destruct (Rlt_dec (ztrop s) 0) as [X|X]; [destruct H; lra|].
    replace (- 0 / zq1 s) with 0 by (field; lra). replace (- (0 / zq2 s * (0 / zq2 s))) with 0 by (field; lra). rewrite exp_0. ring.
  - apply (D_near (fun z => q0 s * exp (- z / zq1 s) * exp (- (z / zq2 s * (z / zq2 s)))) _ z _ (ztrop s - z)); [lra| |].
    { intros y Y. apply Rabs_def2 in Y. unfold humidity. destruct (Rlt_dec (ztrop s) y); [lra|reflexivity]. }
    dlim; cbv beta; try lra. unfold humidity. destruct (Rlt_dec (ztrop s) z); [lra|]. field. lra.
Qed.
(** above the tropopause there is no wind, and humidity and temperature are constant *)
Theorem C134_stratosphere s lon lat z : ztrop s < z ->
  zonal s lon lat z = 0 /\ meridional s lon lat z = 0 /\ humidity s z = qtrop s /\
  temperature s (distance s lon lat) z = ts0 s * (1 + const_tv s * q0 s) - gamma s * ztrop s.
Proof.
  intros L. unfold zonal, meridional, speed, humidity, temperature. destruct (Rlt_dec (ztrop s) z); [|lra].
  repeat split; ring.
Qed.

(** ** The parameters of the file *)
Definition file_storm : storm :=
  Storm 6371220 287 (980616 / 100000) (10045 / 10) 100000 (729212 / 10000000000) 282000 1115 7000 (21 / 1000) (7 / 1000) (30215 / 100) 101500
    (10 * PI / 180) PI 3000 8000 15000 (1 / 100000000000) (608 / 1000) (/ 10 ^ 25).
Example file_storm_sane : sane file_storm.
Proof. split; unfold t_trop, t0; cbn; lra. Qed.
(** there the balance above the tropopause fails *)
Example C134_file_refuted : ~ floats (grav file_storm) (pressure file_storm 0) (density file_storm 0) 16000.
Proof. rewrite C134_above_refuted; [cbn; lra|exact file_storm_sane|cbn; lra]. Qed.
Example C134_file_wind : 0 < speed file_storm 100000 1000.
Proof.
  apply C134_cyclonic; [exact file_storm_sane|lra|cbn; lra|]. unfold coriolis_at. cbn. pose proof (sin_ge_0 (10 * PI / 180)). pose proof PI_RGT_0.
  assert (0 <= sin (10 * PI / 180)) by (apply sin_ge_0; lra). lra.
Qed.

Print Assumptions C134_hydrostatic.
Print Assumptions C134_above.
Print Assumptions C134_above_refuted.
Print Assumptions C134_wind.
Print Assumptions C134_cyclonic.
Print Assumptions C134_tangent.
Print Assumptions C134_ground.
Print Assumptions C134_tropopause_refuted.
Print Assumptions C134_newton.
Print Assumptions C134_pressure_back.
Print Assumptions C134_distance.
Print Assumptions C134_humidity.
Print Assumptions C134_stratosphere.
