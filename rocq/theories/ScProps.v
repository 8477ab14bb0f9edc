(** * C136: the state of the supercell *)
From Coq Require Import Reals List Lra Lia Psatz.
From Verif Require Import DlimProofs InterpModel InterpSpec InterpProps ScModel ScSpec.
Import ListNotations.
Local Open Scope R_scope.

(** ** The wind: linear shear, smooth transition, constant wind *)
Local Lemma shear_low c lat z : z <= zs c - zt c -> zonal_velocity c z lat = (us c * (z / zs c) - uc c) * cos lat.
Proof. intros L. unfold zonal_velocity. destruct (Rle_dec z (zs c - zt c)); [reflexivity|lra]. Qed.
Local Lemma shear_mid c lat z : zs c - zt c < z <= zs c + zt c ->
  zonal_velocity c z lat = ((- (4 / 5) + 3 * z / zs c - 5 / 4 * (z * z) / (zs c * zs c)) * us c - uc c) * cos lat.
Proof.
  intros L. unfold zonal_velocity. destruct (Rle_dec z (zs c - zt c)); [lra|].
  destruct (Rle_dec (Rabs (z - zs c)) (zt c)) as [?|N]; [reflexivity|]. destruct N. apply Rabs_le. lra.
Qed.
Local Lemma shear_top c lat z : 0 <= zt c -> zs c + zt c < z -> zonal_velocity c z lat = (us c - uc c) * cos lat.
Proof.
  intros P L. unfold zonal_velocity. destruct (Rle_dec z (zs c - zt c)); [lra|].
  destruct (Rle_dec (Rabs (z - zs c)) (zt c)) as [N|?]; [|reflexivity].
  pose proof (Rle_abs (z - zs c)). lra.
Qed.
Local Lemma mid_d c lat z : 0 < zs c ->
  derivable_pt_lim (fun z => ((- (4 / 5) + 3 * z / zs c - 5 / 4 * (z * z) / (zs c * zs c)) * us c - uc c) * cos lat) z
    ((3 / zs c - 5 / 2 * z / (zs c * zs c)) * us c * cos lat).
Proof. intros P. assert (0 < zs c * zs c) by (apply Rmult_lt_0_compat; assumption). dlim; cbv beta; try lra. field. lra. Qed.

(** with a transition of a fifth of its height the wind has a continuous slope: us / zs
    below, zero above, and the slopes of the pieces meet at both ends *)
Theorem C136_wind c lat : 0 < zs c -> 5 * zt c = zs c ->
  zonal_velocity c 0 lat = - uc c * cos lat /\
  derivable_pt_lim (fun z => zonal_velocity c z lat) (zs c - zt c) (us c / zs c * cos lat) /\
  derivable_pt_lim (fun z => zonal_velocity c z lat) (zs c + zt c) 0 /\
  (forall z, z < zs c - zt c -> derivable_pt_lim (fun z => zonal_velocity c z lat) z (us c / zs c * cos lat)) /\
  (forall z, zs c + zt c <= z -> zonal_velocity c z lat = (us c - uc c) * cos lat).
Proof.
  intros P Q.
  assert (zs c = 5 * zt c) as E by lra. assert (0 < zt c) as T by lra.
  assert (forall z, derivable_pt_lim (fun z => (us c * (z / zs c) - uc c) * cos lat) z (us c / zs c * cos lat)) as L.
  { intros z. dlim; cbv beta; try lra. field. lra. }
  assert (((- (4 / 5) + 3 * (zs c - zt c) / zs c - 5 / 4 * ((zs c - zt c) * (zs c - zt c)) / (zs c * zs c)) * us c - uc c) * cos lat = (us c * ((zs c - zt c) / zs c) - uc c) * cos lat) as E1 by (rewrite E; field; lra).
  assert (((- (4 / 5) + 3 * (zs c + zt c) / zs c - 5 / 4 * ((zs c + zt c) * (zs c + zt c)) / (zs c * zs c)) * us c - uc c) * cos lat = (us c - uc c) * cos lat) as E2 by (rewrite E; field; lra).
  split; [rewrite shear_low by lra; field; lra|]. split; [|split; [|split]].
  - apply (D_near (fun z => if Rle_dec z (zs c - zt c) then (us c * (z / zs c) - uc c) * cos lat
      else ((- (4 / 5) + 3 * z / zs c - 5 / 4 * (z * z) / (zs c * zs c)) * us c - uc c) * cos lat) _ _ _ (zt c) T).
    { intros y Y. apply Rabs_def2 in Y. destruct (Rle_dec y (zs c - zt c)); [rewrite shear_low by lra|rewrite shear_mid by lra]; reflexivity. }
    eapply (D_glue _ (fun z => ((- (4 / 5) + 3 * z / zs c - 5 / 4 * (z * z) / (zs c * zs c)) * us c - uc c) * cos lat)); [apply L| | | |].
    + eapply D_eq; [apply mid_d, P|]. rewrite E. field. lra.
    + destruct (Rle_dec _ _); [reflexivity|lra].
    + cbv beta. rewrite E1. destruct (Rle_dec _ _); [reflexivity|lra].
    + intros y. cbv beta. destruct (Rle_dec _ _); [left|right]; reflexivity.
  - apply (D_near (fun z => if Rle_dec z (zs c + zt c) then ((- (4 / 5) + 3 * z / zs c - 5 / 4 * (z * z) / (zs c * zs c)) * us c - uc c) * cos lat
      else (us c - uc c) * cos lat) _ _ _ (zt c) T).
    { intros y Y. apply Rabs_def2 in Y. destruct (Rle_dec y (zs c + zt c)); [rewrite shear_mid by lra|rewrite shear_top by lra]; reflexivity. }
    eapply (D_glue (fun z => ((- (4 / 5) + 3 * z / zs c - 5 / 4 * (z * z) / (zs c * zs c)) * us c - uc c) * cos lat) (fun _ => (us c - uc c) * cos lat)).
    + eapply D_eq; [apply mid_d, P|]. rewrite E. field. lra.
    + apply D_const.
    + destruct (Rle_dec _ _); [reflexivity|lra].
    + rewrite <- E2. destruct (Rle_dec _ _); [reflexivity|lra].
    + intros y. destruct (Rle_dec _ _); [left|right]; reflexivity.
  - intros z Z. apply (D_near (fun z => (us c * (z / zs c) - uc c) * cos lat) _ _ _ (zs c - zt c - z)); [lra| |apply L].
    intros y Y. apply Rabs_def2 in Y. rewrite shear_low by lra. reflexivity.
  - intros z [Z|Z]; [apply shear_top; lra|]. rewrite <- Z, shear_mid by lra. exact E2.
Qed.
(** no other transition joins the pieces *)
Theorem C136_wind_only c lat : 0 < zt c < zs c -> us c * cos lat <> 0 ->
  ((- (4 / 5) + 3 * (zs c - zt c) / zs c - 5 / 4 * ((zs c - zt c) * (zs c - zt c)) / (zs c * zs c)) * us c - uc c) * cos lat = zonal_velocity c (zs c - zt c) lat ->
  5 * zt c = zs c.
Proof.
  intros P N E. rewrite shear_low in E by lra. set (s := (zs c - zt c) / zs c) in *.
  replace (((- (4 / 5) + 3 * (zs c - zt c) / zs c - 5 / 4 * ((zs c - zt c) * (zs c - zt c)) / (zs c * zs c)) * us c - uc c) * cos lat)
    with (((- (4 / 5) + 3 * s - 5 / 4 * (s * s)) * us c - uc c) * cos lat) in E by (unfold s; field; lra).
  assert ((s - 4 / 5) * (s - 4 / 5) * (us c * cos lat) = 0) as [Z|Z]%Rmult_integral by lra; [|contradiction].
  assert (s = 4 / 5) as S by (apply Rmult_integral in Z; lra).
  assert (zs c - zt c = 4 / 5 * zs c) by (rewrite <- S; unfold s; field; lra). lra.
Qed.

(** ** The equatorial profiles *)
Local Lemma power54_le x y : 0 <= x -> x < y -> power54 x < power54 y.
Proof.
  intros P L. unfold power54. destruct (Rlt_dec 0 y); [|lra]. destruct (Rlt_dec 0 x) as [X|X]; [|apply exp_pos].
  apply exp_increasing. assert (ln x < ln y) by (apply ln_increasing; assumption). lra.
Qed.
Local Lemma power54_0 : power54 0 = 0.
Proof. unfold power54. destruct (Rlt_dec 0 0); [lra|reflexivity]. Qed.
Local Lemma power54_1 : power54 1 = 1.
Proof. unfold power54. destruct (Rlt_dec 0 1); [|lra]. unfold Rpower. rewrite ln_1, Rmult_0_r. apply exp_0. Qed.
Local Lemma ratio_lt x y h : 0 < h -> x < y -> x / h < y / h.
Proof. intros P L. apply Rmult_lt_compat_r; [apply Rinv_0_lt_compat, P|exact L]. Qed.

(** the potential temperature increases with height from theta0, through theta_tr at the
    tropopause, so the column is stable *)
Theorem C136_theta c : 0 < z_tr c -> 0 < theta0 c < theta_tr c -> 0 < gr c -> 0 < cp c -> 0 < t_tr c ->
  equator_theta c 0 = theta0 c /\ equator_theta c (z_tr c) = theta_tr c /\ increasing_from 0 (equator_theta c).
Proof.
  intros Z T G C W. assert (0 < gr c / cp c / t_tr c) as K by (repeat apply Rdiv_lt_0_compat; assumption).
  assert (equator_theta c 0 = theta0 c) as E0.
  { unfold equator_theta. destruct (Rle_dec 0 (z_tr c)); [|lra]. replace (0 / z_tr c) with 0 by (field; lra). rewrite power54_0. ring. }
  assert (equator_theta c (z_tr c) = theta_tr c) as E1.
  { unfold equator_theta. destruct (Rle_dec (z_tr c) (z_tr c)); [|lra]. replace (z_tr c / z_tr c) with 1 by (field; lra). rewrite power54_1. ring. }
  split; [exact E0|]. split; [exact E1|].
  assert (forall x y, 0 <= x -> x < y -> y <= z_tr c -> equator_theta c x < equator_theta c y) as A.
  { intros x y P L U. unfold equator_theta. destruct (Rle_dec x (z_tr c)); [|lra]. destruct (Rle_dec y (z_tr c)); [|lra].
    assert (power54 (x / z_tr c) < power54 (y / z_tr c)).
    { apply power54_le; [apply Rmult_le_pos; [exact P|left; apply Rinv_0_lt_compat, Z]|apply ratio_lt; assumption]. }
    nra. }
  assert (forall y, z_tr c < y -> equator_theta c y = theta_tr c * exp (gr c / cp c / t_tr c * (y - z_tr c))) as B.
  { intros y L. unfold equator_theta. destruct (Rle_dec y (z_tr c)); [lra|reflexivity]. }
  assert (forall x y, z_tr c <= x -> x < y -> theta_tr c * exp (gr c / cp c / t_tr c * (x - z_tr c)) < equator_theta c y) as D.
  { intros x y P L. rewrite B by lra. apply Rmult_lt_compat_l; [lra|]. apply exp_increasing, Rmult_lt_compat_l; lra. }
  assert (forall y, z_tr c < y -> theta_tr c < equator_theta c y) as F.
  { intros y L. pose proof (D (z_tr c) y ltac:(lra) L) as Q. rewrite Rminus_diag_eq, Rmult_0_r, exp_0 in Q by reflexivity. lra. }
  intros x y P L. destruct (Rle_dec y (z_tr c)) as [U|U]; [apply A; lra|].
  destruct (Rlt_dec (z_tr c) x) as [V|V]; [rewrite (B x V); apply D; lra|].
  assert (equator_theta c x <= theta_tr c).
  { destruct (Req_dec x (z_tr c)) as [-> |N]; [lra|]. left. rewrite <- E1. apply A; lra. }
  pose proof (F y ltac:(lra)). lra.
Qed.
(** the relative humidity falls from one to a quarter *)
Theorem C136_humidity c z : 0 < z_tr c -> 0 <= z ->
  equator_humidity c 0 = 1 /\ equator_humidity c (z_tr c) = 1 / 4 /\ 1 / 4 <= equator_humidity c z <= 1 /\
  (forall y, z < y -> y <= z_tr c -> equator_humidity c y < equator_humidity c z).
Proof.
  intros Z P. unfold equator_humidity.
  assert (forall x, 0 <= x -> 0 <= x / z_tr c) as N by (intros x X; apply Rmult_le_pos; [exact X|left; apply Rinv_0_lt_compat, Z]).
  split; [|split; [|split]].
  - destruct (Rle_dec 0 (z_tr c)); [|lra]. replace (0 / z_tr c) with 0 by (field; lra). rewrite power54_0. ring.
  - destruct (Rle_dec (z_tr c) (z_tr c)); [|lra]. replace (z_tr c / z_tr c) with 1 by (field; lra). rewrite power54_1. field.
  - destruct (Rle_dec z (z_tr c)) as [L|L]; [|lra].
    assert (0 <= power54 (z / z_tr c)).
    { unfold power54. destruct (Rlt_dec _ _); [left; apply exp_pos|lra]. }
    assert (power54 (z / z_tr c) <= 1).
    { destruct L as [L| ->]; [|replace (z_tr c / z_tr c) with 1 by (field; lra); rewrite power54_1; lra].
      left. rewrite <- power54_1. apply power54_le; [apply N, P|]. replace 1 with (z_tr c / z_tr c) by (field; lra). apply ratio_lt; assumption. }
    lra.
  - intros y L U. destruct (Rle_dec y (z_tr c)); [|lra]. destruct (Rle_dec z (z_tr c)); [|lra].
    assert (power54 (z / z_tr c) < power54 (y / z_tr c)) by (apply power54_le; [apply N, P|apply ratio_lt; assumption]). lra.
Qed.

(** ** The warm bubble *)
Theorem C136_bubble c r : 0 <= dtheta c ->
  bubble c 0 = dtheta c /\ 0 <= bubble c r <= dtheta c /\ derivable_pt_lim (bubble c) 1 0 /\ (1 <= r -> bubble c r = 0).
Proof.
  intros P. assert (forall x, 0 <= cos x * cos x <= 1) as Q.
  { intros x. pose proof (COS_bound x). pose proof (Rle_0_sqr (cos x)) as S. unfold Rsqr in S. split; [exact S|nra]. }
  assert (cos (1 / 2 * PI * 1) = 0) as Z by (replace (1 / 2 * PI * 1) with (PI / 2) by field; apply cos_PI2).
  split; [|split; [|split]].
  - unfold bubble. destruct (Rle_dec 0 1); [|lra]. rewrite Rmult_0_r, cos_0. ring.
  - unfold bubble. destruct (Rle_dec r 1); [|lra]. pose proof (Q (1 / 2 * PI * r)). split; nra.
  - apply (D_glue (fun r => dtheta c * (cos (1 / 2 * PI * r) * cos (1 / 2 * PI * r))) (fun _ => 0)).
    + dlim. rewrite Z. ring.
    + apply D_const.
    + unfold bubble. destruct (Rle_dec 1 1); [reflexivity|lra].
    + unfold bubble. destruct (Rle_dec 1 1); [rewrite Z; ring|lra].
    + intros y. unfold bubble. destruct (Rle_dec y 1); [left|right]; reflexivity.
  - intros L. unfold bubble. destruct (Rle_dec r 1) as [U|U]; [|reflexivity]. replace r with 1 by lra. rewrite Z. ring.
Qed.
(** it is full at its centre and gone a half-width away along the ground or up *)
Theorem C136_centre c lon lat z : 0 <= dtheta c -> 0 < ra c -> 0 < rh c -> 0 < rz c ->
  thermal c (lonc c) (latc c) (zc c) = dtheta c /\
  (rh c <= arc c lon lat -> thermal c lon lat z = 0) /\ (rz c <= Rabs (z - zc c) -> thermal c lon lat z = 0).
Proof.
  intros P A H Z. unfold thermal.
  assert (forall x h, 0 < h -> h <= Rabs x -> 1 <= x / h * (x / h)) as G.
  { intros x h Ph L. assert (1 <= Rabs (x / h)) as L1.
    { unfold Rdiv. rewrite Rabs_mult, (Rabs_pos_eq (/ h)) by (left; apply Rinv_0_lt_compat, Ph).
      apply (Rmult_le_reg_r h); [exact Ph|]. rewrite Rmult_assoc, Rinv_l; lra. }
    replace (x / h * (x / h)) with (Rabs (x / h) * Rabs (x / h)) by (rewrite <- Rabs_mult; apply Rabs_pos_eq, Rle_0_sqr). nra. }
  split; [|split].
  - replace (r_theta c (lonc c) (latc c) (zc c)) with 0; [apply C136_bubble; [exact 0|exact P]|].
    unfold r_theta, arc. rewrite !Rminus_diag_eq by reflexivity. rewrite cos_0.
    replace (sin (latc c) * sin (latc c) + cos (latc c) * cos (latc c) * 1) with 1 by (pose proof (sin2_cos2 (latc c)) as S; unfold Rsqr in S; lra).
    rewrite acos_1. replace (ra c * 0 / rh c * (ra c * 0 / rh c) + 0 / rz c * (0 / rz c)) with 0 by (field; lra). symmetry. apply sqrt_0.
  - intros L. apply C136_bubble; [exact P|]. unfold r_theta. rewrite <- sqrt_1. apply sqrt_le_1_alt.
    pose proof (Rle_0_sqr ((z - zc c) / rz c)) as S. unfold Rsqr in S.
    pose proof (G (arc c lon lat) (rh c) H ltac:(rewrite Rabs_pos_eq; lra)). lra.
  - intros L. apply C136_bubble; [exact P|]. unfold r_theta. rewrite <- sqrt_1. apply sqrt_le_1_alt.
    pose proof (Rle_0_sqr (arc c lon lat / rh c)) as S. unfold Rsqr in S. pose proof (G (z - zc c) (rz c) Z L). lra.
Qed.

(** ** The state at a point *)
(** with the bubble or without, pressure, density and temperature obey the gas law; the
    bubble leaves the density alone and raises the pressure; without it the pressure is the
    one of the fitted Exner pressure *)
Theorem C136_state c exner thv q d : 0 < exner -> 0 < thv -> 0 < p0 c -> 0 < rd c < cp c -> 0 < 1 + c61 c * q -> 0 < thv + d * (1 + c61 c * q) ->
  let s := finish c exner thv q d in
  moist_gas (rd c) (c61 c) (sp s) (srho s) (temperature c (sthetav s) q (sp s)) q /\
  srho s = srho (finish c exner thv q 0) /\
  sp (finish c exner thv q 0) = p0 c * Rpower exner (cp c / rd c) /\
  (0 < d -> sp (finish c exner thv q 0) < sp s).
Proof.
  intros E T P G Q U s.
  assert (0 < p0 c * Rpower exner (cp c / rd c) / (rd c * exner * thv)) as R.
  { apply Rdiv_lt_0_compat; [apply Rmult_lt_0_compat; [exact P|apply exp_pos]|]. repeat apply Rmult_lt_0_compat; lra. }
  assert (0 < cp c / (cp c - rd c)) as K by (apply Rdiv_lt_0_compat; lra).
  split; [|split; [reflexivity|split]].
  - unfold moist_gas, s, temperature, finish. cbn [sp srho sthetav].
    set (rho := p0 c * Rpower exner (cp c / rd c) / (rd c * exner * thv)) in *. set (th := thv + d * (1 + c61 c * q)) in *. clearbody rho th.
    set (y := rho * rd c * th / p0 c).
    assert (0 < y) as Y by (apply Rdiv_lt_0_compat; [repeat apply Rmult_lt_0_compat; lra|exact P]).
    replace (p0 c * Rpower y (cp c / (cp c - rd c)) / p0 c) with (Rpower y (cp c / (cp c - rd c))) by (field; lra).
    rewrite Rpower_mult. replace (cp c / (cp c - rd c)) with (1 + cp c / (cp c - rd c) * (rd c / cp c)) at 1 by (field; lra).
    rewrite Rpower_plus, Rpower_1 by exact Y. set (w := Rpower y (cp c / (cp c - rd c) * (rd c / cp c))). unfold y. field. lra.
  - unfold finish. cbn [sp]. rewrite Rmult_0_l, Rplus_0_r.
    replace (p0 c * Rpower exner (cp c / rd c) / (rd c * exner * thv) * rd c * thv / p0 c) with (Rpower exner (cp c / rd c) * / exner) by (field; lra).
    rewrite <- (Rpower_1 exner E) at 2. rewrite <- Rpower_Ropp, <- Rpower_plus, Rpower_mult.
    replace ((cp c / rd c + - (1)) * (cp c / (cp c - rd c))) with (cp c / rd c) by (field; lra). reflexivity.
  - intros D. unfold s, finish. cbn [sp]. rewrite Rmult_0_l, Rplus_0_r. apply Rmult_lt_compat_l; [exact P|].
    set (rho := p0 c * Rpower exner (cp c / rd c) / (rd c * exner * thv)) in *. clearbody rho.
    unfold Rpower. apply exp_increasing, Rmult_lt_compat_l; [exact K|]. apply ln_increasing.
    + apply Rdiv_lt_0_compat; [repeat apply Rmult_lt_0_compat; lra|exact P].
    + apply Rmult_lt_compat_r; [apply Rinv_0_lt_compat, P|]. apply Rmult_lt_compat_l; [apply Rmult_lt_0_compat; lra|].
      assert (0 < d * (1 + c61 c * q)) by (apply Rmult_lt_0_compat; assumption). lra.
Qed.

Local Lemma dot_delta n k : forall a f, dot (map (fun i => if (i =? k)%nat then 1 else 0) (seq a n)) f
  = if andb (a <=? k)%nat (k <? a + n)%nat then f (k - a)%nat else 0.
Proof.
  induction n as [|n IH]; intros a f; cbn [seq map dot].
  - destruct (Nat.leb_spec a k), (Nat.ltb_spec k (a + 0)); cbn; try reflexivity; lia.
  - rewrite IH. destruct (Nat.eqb_spec a k) as [->|N].
    + replace (S k <=? k)%nat with false by (symmetry; apply Nat.leb_gt; lia). rewrite Nat.leb_refl.
      replace (k <? k + S n)%nat with true by (symmetry; apply Nat.ltb_lt; lia). rewrite Nat.sub_diag. cbn. ring.
    + destruct (Nat.leb_spec (S a) k), (Nat.leb_spec a k); try lia.
      * replace (S a + n)%nat with (a + S n)%nat by lia. destruct (k <? a + S n)%nat; cbn [andb]; [|ring].
        replace (k - a)%nat with (S (k - S a)) by lia. ring.
      * cbn. ring.
Qed.
(** the fit gives the table at the nodes of the table, and the two hemispheres are the same *)
Theorem C136_fit nphi nz phi zco table i k : distinct nphi phi -> distinct nz zco -> (i < nphi)%nat -> (k < nz)%nat -> 0 <= phi i ->
  sample nphi nz phi zco table (phi i) (zco k) = Some (table i k).
Proof.
  intros D1 D2 I K P. unfold sample. rewrite (C33_delta nz zco k D2 K). cbn [bind].
  assert (nh_lat (phi i) = phi i) as -> by (unfold nh_lat; destruct (Rle_dec (phi i) 0); lra).
  rewrite (C33_delta nphi phi i D1 I). cbn [bind]. f_equal. rewrite !dot_delta. cbn [Nat.leb Nat.add andb].
  replace (k <? nz)%nat with true by (symmetry; apply Nat.ltb_lt, K). rewrite Nat.sub_0_r.
  replace (i <? nphi)%nat with true by (symmetry; apply Nat.ltb_lt, I). rewrite Nat.sub_0_r. reflexivity.
Qed.
Theorem C136_symmetric nphi nz phi zco table lat z : sample nphi nz phi zco table (- lat) z = sample nphi nz phi zco table lat z.
Proof.
  unfold sample. replace (nh_lat (- lat)) with (nh_lat lat); [reflexivity|].
  unfold nh_lat. destruct (Rle_dec lat 0), (Rle_dec (- lat) 0); lra.
Qed.

(** ** The height of a pressure *)
Local Lemma secant_between p za zb pa pb : za <= zb -> pb <= p <= pa -> pb <> pa ->
  za <= (za * (pb - p) - zb * (pa - p)) / (pb - pa) <= zb.
Proof.
  intros Z P N. replace ((za * (pb - p) - zb * (pa - p)) / (pb - pa)) with (za + (zb - za) * ((pa - p) / (pa - pb))) by (field; lra).
  assert (0 <= (pa - p) / (pa - pb) <= 1) as T.
  { assert (0 < / (pa - pb)) by (apply Rinv_0_lt_compat; lra). split; [apply Rmult_le_pos; lra|].
    apply (Rmult_le_reg_r (pa - pb)); [lra|]. unfold Rdiv. rewrite Rmult_assoc, Rinv_l; lra. }
  split; nra.
Qed.
(** the interval always holds the pressure, so the height stays in it, no division is by
    zero, and a height that is returned has the pressure up to the tolerance; whatever the
    pressure does with height *)
Local Lemma iterate_ok f p n : 0 < p -> forall za zb, za <= zb -> f zb <= p <= f za -> f zb <> f za ->
  match iterate f p n za zb (f za) (f zb) with
  | Found z => za <= z <= zb /\ Rabs (f z - p) < / 10 ^ 12 * p
  | Stop => True | Undefined => False end.
Proof.
  intros P. induction n as [|n IH]; intros za zb Z B N; cbn [iterate]; [exact I|].
  destruct (Req_EM_T (f zb - f za) 0) as [E|_]; [lra|].
  pose proof (secant_between p za zb (f za) (f zb) Z B N) as S. set (z := _ / _) in *. cbv zeta.
  destruct (Rlt_dec _ _) as [T|T].
  - split; [exact S|]. unfold Rdiv in T. rewrite Rabs_mult, (Rabs_pos_eq (/ p)) in T by (left; apply Rinv_0_lt_compat, P).
    apply (Rmult_lt_compat_r p) in T; [|exact P]. rewrite Rmult_assoc, Rinv_l, Rmult_1_r in T by lra. exact T.
  - assert (f z <> p) as D.
    { intros E. apply T. rewrite E, Rminus_diag_eq by reflexivity. unfold Rdiv. rewrite Rmult_0_l, Rabs_R0.
      apply Rinv_0_lt_compat, pow_lt. lra. }
    destruct (Rlt_dec p (f z)) as [L|L].
    + specialize (IH z zb ltac:(lra) ltac:(lra) ltac:(lra)). destruct (iterate f p n z zb (f z) (f zb)); try exact IH. destruct IH. split; [lra|assumption].
    + specialize (IH za z ltac:(lra) ltac:(lra) ltac:(lra)). destruct (iterate f p n za z (f za) (f z)); try exact IH. destruct IH. split; [lra|assumption].
Qed.
Theorem C136_height f z1 z2 p : 0 < p -> z1 <= z2 -> f z1 <> f z2 ->
  match height_of f z1 z2 p with
  | Found z => z1 <= z <= z2 /\ Rabs (f z - p) < / 10 ^ 12 * p
  | Stop => True | Undefined => False end.
Proof.
  intros P Z N. unfold height_of. destruct (Rlt_dec (f z1) p); [exact I|]. destruct (Rlt_dec p (f z2)); [exact I|].
  apply iterate_ok; lra.
Qed.
Local Lemma iterate_S f p m za zb pa pb : iterate f p (S m) za zb pa pb =
  if Req_EM_T (pb - pa) 0 then Undefined
  else let z := (za * (pb - p) - zb * (pa - p)) / (pb - pa) in
       if Rlt_dec (Rabs ((f z - p) / p)) (/ 10 ^ 12) then Found z
       else if Rlt_dec p (f z) then iterate f p m z zb (f z) pb else iterate f p m za z pa (f z).
Proof. reflexivity. Qed.
(** a pressure outside the range of the column stops the program, and a pressure that is
    linear in height is found at once *)
Theorem C136_height_linear a b z1 z2 p : 0 < p -> z1 < z2 -> b < 0 -> a + b * z2 <= p <= a + b * z1 ->
  height_of (fun z => a + b * z) z1 z2 p = Found ((p - a) / b).
Proof.
  intros P Z B R. unfold height_of. destruct (Rlt_dec _ p); [lra|]. destruct (Rlt_dec p _); [lra|].
  rewrite iterate_S. set (m := 19%nat). clearbody m. destruct (Req_EM_T _ 0) as [E|E]; [nra|]. cbv zeta.
  assert ((z1 * (a + b * z2 - p) - z2 * (a + b * z1 - p)) / (a + b * z2 - (a + b * z1)) = (p - a) / b) as -> by (field; split; nra).
  replace (a + b * ((p - a) / b) - p) with 0 by (field; lra). replace (0 / p) with 0 by (field; lra). rewrite Rabs_R0.
  destruct (Rlt_dec 0 (/ 10 ^ 12)) as [?|Q]; [reflexivity|]. destruct Q. apply Rinv_0_lt_compat, pow_lt. lra.
Qed.
Theorem C136_height_range f z1 z2 p : p < f z2 \/ f z1 < p -> height_of f z1 z2 p = Stop.
Proof.
  intros H. unfold height_of. destruct (Rlt_dec (f z1) p); [reflexivity|]. destruct (Rlt_dec p (f z2)); [reflexivity|lra].
Qed.

(** ** The parameters of the file *)
Definition file_cell : cell :=
  Cell 6371220 287 (980616 / 100000) (10045 / 10) 100000 300 343 12000 213 30 15 5000 1000 3 0 0 (10000 * 120) 1500 1500 (61 / 100).
Example C136_file : equator_theta file_cell 12000 = 343 /\ increasing_from 0 (equator_theta file_cell) /\
  derivable_pt_lim (fun z => zonal_velocity file_cell z 0) 6000 0 /\ thermal file_cell 0 0 1500 = 3.
Proof.
  destruct (C136_theta file_cell) as (_ & A & B); try (cbn; lra).
  destruct (C136_wind file_cell 0) as (_ & _ & C & _); try (cbn; lra).
  destruct (C136_centre file_cell 0 0 0) as (D & _); try (cbn; lra).
  cbn in A, C, D. split; [exact A|]. split; [exact B|]. split; [|exact D]. replace 6000 with (5000 + 1000) by lra. exact C.
Qed.
Example C136_file_height : height_of (fun z => 100000 + -10 * z) 0 5000 80000 = Found 2000.
Proof. rewrite C136_height_linear by lra. f_equal. lra. Qed.

Print Assumptions C136_wind.
Print Assumptions C136_wind_only.
Print Assumptions C136_theta.
Print Assumptions C136_humidity.
Print Assumptions C136_bubble.
Print Assumptions C136_centre.
Print Assumptions C136_state.
Print Assumptions C136_fit.
Print Assumptions C136_symmetric.
Print Assumptions C136_height.
Print Assumptions C136_height_linear.
Print Assumptions C136_height_range.
