(** * C135: the balances of the moist baroclinic wave *)
From Coq Require Import Reals Lra Psatz.
From Verif Require Import DlimProofs TcSpec BwModel BwSpec BwProofs.
Local Open Scope R_scope.

(** in the shallow atmosphere the air floats; in the deep one the pressure gradient along
    the radius is held by gravity, the centrifugal and the Coriolis force of the jet *)
Theorem C135_radial w deep X lat z u : proper w X -> 0 <= z -> 0 < cos lat ->
  0 < tau1 w z - tau2 w z * inner w (rratio w deep X z * cos lat) -> jet w deep X lat z = Some u ->
  radial_balance (radial_force deep (gravity deep (gr w) (ra w / X) z) (omega w * X) (radius deep (ra w / X) z) lat u)
    (rho w deep X lat z) (pres w deep X lat) z.
Proof.
  intros H Z C T J. unfold radial_balance. eapply D_eq; [apply pres_dz; assumption|].
  pose proof (jet_square w deep X lat z u J) as Q. rewrite rcos_eq in Q by exact H.
  pose proof (aref_pos w X H) as A. pose proof (rratio_pos w deep X H z Z) as P.
  change (ra w / X) with (aref w X). change (omega w * X) with (omegaref w X).
  unfold rho, big_u, temp in *. set (pp := pres w deep X lat z). set (tt := tau1 w z - _) in *.
  set (iu := inner_u w _) in *. unfold radial_force, radius, gravity. unfold rratio in *. destruct H, deep.
  - set (a := aref w X) in *.
    assert (u * u / (a + z) + 2 * omegaref w X * u * cos lat = cos lat * (gr w / a * pk w * int_tau2 w z * iu * (1 / ((z + a) / a * ((z + a) / a) * tt)))) as E.
    { apply (Rmult_eq_reg_l (a + z)); [|lra]. replace ((a + z) * (u * u / (a + z) + 2 * omegaref w X * u * cos lat)) with (u * u + 2 * omegaref w X * (a * ((z + a) / a) * cos lat) * u) by (field; lra).
      rewrite Q. field. lra. }
    replace (- (gr w * (a * a) / ((a + z) * (a + z))) + u * u / (a + z) + 2 * omegaref w X * u * cos lat) with
      (- (gr w * (a * a) / ((a + z) * (a + z))) + (u * u / (a + z) + 2 * omegaref w X * u * cos lat)) by ring.
    rewrite E. field. repeat split; lra.
  - field. repeat split; lra.
Qed.

(** along the meridian the jet is in gradient wind balance *)
Theorem C135_meridional w deep X lat z u : proper w X -> 0 <= z -> 0 < cos lat ->
  0 < tau1 w z - tau2 w z * inner w (rratio w deep X z * cos lat) -> jet w deep X lat z = Some u ->
  meridional_balance (omega w * X) (radius deep (ra w / X) z) u (rho w deep X lat z) (fun lat => pres w deep X lat z) lat.
Proof.
  intros H Z C T J. unfold meridional_balance. eapply D_eq; [apply pres_dlat; assumption|].
  pose proof (jet_square w deep X lat z u J) as Q. rewrite rcos_eq in Q by exact H.
  pose proof (aref_pos w X H) as A. pose proof (rratio_pos w deep X H z Z) as P.
  change (ra w / X) with (aref w X). change (omega w * X) with (omegaref w X).
  assert (radius deep (aref w X) z = aref w X * rratio w deep X z) as -> by (unfold radius, rratio; destruct deep; field; lra).
  unfold rho, big_u, temp in *. set (pp := pres w deep X lat z). set (tt := tau1 w z - _) in *.
  set (iu := inner_u w _) in *. set (rr := rratio w deep X z) in *. set (a := aref w X) in *. destruct H.
  unfold tan.
  replace (u * u * (sin lat / cos lat) / (a * rr) + 2 * omegaref w X * u * sin lat)
    with ((u * u + 2 * omegaref w X * (a * rr * cos lat) * u) * (sin lat / (a * rr * cos lat))) by (field; lra).
  rewrite Q. field. repeat split; lra.
Qed.

(** the temperature is positive and the jet exists, eastward, wherever the distance from
    the axis is at most the radius of the sphere *)
Theorem C135_jet w deep X lat z : proper w X -> t0e w < 3 * t0p w -> 0 <= z -> 0 < cos lat -> radius deep (ra w / X) z * cos lat <= ra w / X ->
  0 < tau1 w z - tau2 w z * inner w (rratio w deep X z * cos lat) /\ 0 < temp w deep X lat z /\
  exists u, jet w deep X lat z = Some u /\ (0 <= omega w -> 0 <= u).
Proof.
  intros H W Z C L. pose proof (aref_pos w X H) as A. pose proof (rratio_pos w deep X H z Z) as RP. change (ra w / X) with (aref w X) in L.
  assert (0 < rratio w deep X z * cos lat <= 1) as R.
  { split; [apply Rmult_lt_0_compat; assumption|]. apply (Rmult_le_reg_l (aref w X)); [exact A|].
    replace (aref w X * (rratio w deep X z * cos lat)) with (radius deep (aref w X) z * cos lat) by (unfold radius, rratio; destruct deep; field; lra). lra. }
  pose proof (tau_pos w X H (rratio w deep X z * cos lat) z W Z R) as T. split; [exact T|].
  assert (0 < temp w deep X lat z) as TP.
  { unfold temp. apply Rdiv_lt_0_compat; [lra|]. apply Rmult_lt_0_compat; [apply Rmult_lt_0_compat; assumption|exact T]. }
  split; [exact TP|].
  assert (0 <= big_u w deep X lat z) as B.
  { unfold big_u. pose proof (inner_u_pos w (rratio w deep X z * cos lat) R). destruct H.
    assert (0 <= int_tau2 w z).
    { unfold int_tau2, const_c. apply Rmult_le_pos; [|left; apply exp_pos]. apply Rmult_le_pos; [|exact Z].
      apply Rmult_le_pos; [apply Rmult_le_pos; lra|]. left. apply Rinv_0_lt_compat, Rmult_lt_0_compat; lra. }
    assert (0 < gr w / aref w X) by (apply Rdiv_lt_0_compat; assumption). set (ga := gr w / aref w X) in *.
    apply Rmult_le_pos; [|lra]. apply Rmult_le_pos; [|lra]. apply Rmult_le_pos; [|lra]. apply Rmult_le_pos; lra. }
  assert (0 < rcoslat w deep X lat z) as RC.
  { rewrite rcos_eq by exact H. apply Rmult_lt_0_compat; [apply Rmult_lt_0_compat; assumption|exact C]. }
  assert (omegaref w X * rcoslat w deep X lat z * (omegaref w X * rcoslat w deep X lat z) <= disc w deep X lat z) as D.
  { unfold disc. assert (0 <= rcoslat w deep X lat z * big_u w deep X lat z) by (apply Rmult_le_pos; lra). lra. }
  pose proof (Rle_0_sqr (omegaref w X * rcoslat w deep X lat z)) as SQ. unfold Rsqr in SQ.
  eexists. split.
  - unfold jet. destruct (Rlt_dec _ 0) as [N|N]; [exfalso; lra|reflexivity].
  - intros O. assert (0 <= omegaref w X * rcoslat w deep X lat z) as OO.
    { apply Rmult_le_pos; [|lra]. unfold omegaref. apply Rmult_le_pos; [exact O|destruct H; lra]. }
    pose proof (sqrt_le_1_alt _ _ D) as S. rewrite sqrt_square in S by exact OO. lra.
Qed.
(** so everywhere off the poles in the shallow atmosphere, which the test asks for *)
Theorem C135_shallow w X lat z : proper w X -> t0e w < 3 * t0p w -> 0 <= z -> 0 < cos lat ->
  0 < tau1 w z - tau2 w z * inner w (rratio w false X z * cos lat) /\ 0 < temp w false X lat z /\
  exists u, jet w false X lat z = Some u /\ (0 <= omega w -> 0 <= u).
Proof.
  intros H W Z C. apply C135_jet; try assumption. pose proof (aref_pos w X H) as A. unfold radius. fold (aref w X).
  pose proof (COS_bound lat). nra.
Qed.

(** the pressure at the ground is p0 *)
Theorem C135_ground w deep X lat : proper w X -> pres w deep X lat 0 = p0 w.
Proof.
  intros H. pose proof (wt0_pos w X H). unfold pres, int_tau1, int_tau2.
  replace (lapse w * 0 / wt0 w) with 0 by (field; lra). rewrite exp_0.
  match goal with |- _ * exp ?a = _ => replace a with 0 by (field; destruct H; lra) end. rewrite exp_0. ring.
Qed.

(** the temperature at the ground is T0E at the equator and T0P at the poles, where there is
    no jet *)
Theorem C135_poles w deep X lat : proper w X ->
  temp w deep X 0 0 = t0e w /\ (cos lat = 0 -> temp w deep X lat 0 = t0p w /\ forall z, jet w deep X lat z = Some 0).
Proof.
  intros H. pose proof (wt0_pos w X H) as T. pose proof (aref_pos w X H) as A. pose proof (h_pos w X H) as HH.
  assert (rratio w deep X 0 = 1) as R by (unfold rratio; destruct deep; field; lra).
  assert (scaled w 0 = 0) as S by (unfold scaled; field; destruct H; split; nra).
  assert (tau1 w 0 = 1 / wt0 w + const_b w) as T1.
  { unfold tau1, const_a. rewrite S. replace (lapse w * 0 / wt0 w) with 0 by (field; lra). rewrite !Rmult_0_r, Ropp_0, exp_0. destruct H. field. lra. }
  assert (tau2 w 0 = const_c w) as T2 by (unfold tau2; rewrite S, !Rmult_0_r, Ropp_0, exp_0; ring).
  split.
  - unfold temp. rewrite R, cos_0, T1, T2. unfold inner, power. rewrite !Rmult_1_r. destruct (Rlt_dec 0 1); [|lra].
    unfold Rpower. rewrite ln_1, !Rmult_0_r, exp_0. unfold const_b, const_c, wt0 in *. destruct H. field. repeat split; nra.
  - intros C. assert (forall x, rratio w deep X x * cos lat = 0) as C0 by (intros x; rewrite C; ring).
    split.
    + unfold temp. rewrite C0, R, T1, T2. unfold inner, power. destruct (Rlt_dec 0 0); [lra|].
      unfold const_b, wt0 in *. destruct H. field. repeat split; nra.
    + intros z. assert (rcoslat w deep X lat z = 0) as RC by (unfold rcoslat; rewrite C; destruct deep; ring).
      assert (disc w deep X lat z = 0) as D by (unfold disc; rewrite RC; ring).
      unfold jet. rewrite D, RC, sqrt_0. destruct (Rlt_dec 0 0); [lra|]. f_equal. ring.
Qed.

(** the pressure that the model recovers from the density and the virtual potential
    temperature of the state: the temperature is divided by 1 + 0.608 q and multiplied by
    1 + 0.61 q *)
Theorem C135_pressure w deep X lat z : proper w X -> 0 < rd w < cp w -> 0 < temp w deep X lat z ->
  0 < 1 + mvap w * humid w deep X lat z -> 0 < 1 + m61 w * humid w deep X lat z ->
  p0 w * Rpower (rd w * rho w deep X lat z * theta_v w deep X lat z / p0 w) (cp w / (cp w - rd w))
  = pres w deep X lat z * Rpower ((1 + m61 w * humid w deep X lat z) / (1 + mvap w * humid w deep X lat z)) (cp w / (cp w - rd w)).
Proof.
  intros H G T M N. pose proof (pres_pos w deep X H lat z) as P. destruct H.
  unfold rho, theta_v, dry_temp. set (p := pres w deep X lat z) in *. set (t := temp w deep X lat z) in *. set (q := humid w deep X lat z) in *.
  set (f := (1 + m61 w * q) / (1 + mvap w * q)). assert (0 < f) as F by (apply Rdiv_lt_0_compat; assumption).
  assert (0 < p / p0 w) as W by (apply Rdiv_lt_0_compat; assumption).
  replace (rd w * (p / (rd w * t)) * (t / (1 + mvap w * q) * (1 + m61 w * q) * Rpower (p0 w / p) (rd w / cp w)) / p0 w)
    with (p / p0 w * Rpower (p0 w / p) (rd w / cp w) * f) by (unfold f; field; lra).
  replace (p0 w / p) with (/ (p / p0 w)) by (field; lra).
  assert (p / p0 w * Rpower (/ (p / p0 w)) (rd w / cp w) = Rpower (p / p0 w) (1 - rd w / cp w)) as ->.
  { unfold Rminus. rewrite Rpower_plus, Rpower_1 by exact W. f_equal. unfold Rpower. rewrite ln_Rinv by exact W. f_equal. ring. }
  rewrite <- Rpower_mult_distr by (apply exp_pos || exact F).
  rewrite Rpower_mult. replace ((1 - rd w / cp w) * (cp w / (cp w - rd w))) with 1 by (field; lra).
  rewrite Rpower_1 by exact W. field. lra.
Qed.
(** so it is the pressure of the balances exactly if the two constants agree or the air is
    dry *)
Theorem C135_pressure_refuted w deep X lat z : proper w X -> 0 < rd w < cp w -> 0 < temp w deep X lat z ->
  0 < 1 + mvap w * humid w deep X lat z -> 0 < 1 + m61 w * humid w deep X lat z ->
  (p0 w * Rpower (rd w * rho w deep X lat z * theta_v w deep X lat z / p0 w) (cp w / (cp w - rd w)) = pres w deep X lat z
   <-> m61 w = mvap w \/ humid w deep X lat z = 0).
Proof.
  intros H G T M N. rewrite C135_pressure by assumption. pose proof (pres_pos w deep X H lat z) as P.
  set (q := humid w deep X lat z) in *. set (p := pres w deep X lat z) in *.
  assert (0 < (1 + m61 w * q) / (1 + mvap w * q)) as F by (apply Rdiv_lt_0_compat; assumption).
  assert (0 < cp w / (cp w - rd w)) as E by (apply Rdiv_lt_0_compat; lra).
  split.
  - intros K. assert (Rpower ((1 + m61 w * q) / (1 + mvap w * q)) (cp w / (cp w - rd w)) = 1) as O by (apply (Rmult_eq_reg_l p); lra).
    assert (ln ((1 + m61 w * q) / (1 + mvap w * q)) = 0) as L.
    { apply (Rmult_eq_reg_l (cp w / (cp w - rd w))); [|lra]. rewrite <- ln_power, O, ln_1. ring. }
    assert ((1 + m61 w * q) / (1 + mvap w * q) = 1) as Q by (rewrite <- (exp_ln _ F), L; apply exp_0).
    assert (1 + m61 w * q = 1 + mvap w * q) as R.
    { replace (1 + m61 w * q) with ((1 + m61 w * q) / (1 + mvap w * q) * (1 + mvap w * q)) by (field; lra). rewrite Q. ring. }
    assert ((m61 w - mvap w) * q = 0) as [?|?]%Rmult_integral by lra; [left|right]; lra.
  - intros K. replace ((1 + m61 w * q) / (1 + mvap w * q)) with 1.
    + unfold Rpower. rewrite ln_1, Rmult_0_r, exp_0. ring.
    + destruct K as [K|K]; rewrite K; field; rewrite ?Rmult_0_r; lra.
Qed.

(** the humidity is positive, at most q0 in the moist layer, where the pressure is above
    the cut-off, and largest at the equator at the ground; the virtual temperature of
    the temperature and the humidity is the temperature of the balances *)
Theorem C135_humidity w deep X lat z : proper w X -> 0 < q0 w -> 0 < qs w -> 0 <= mvap w -> qtr w < 1 ->
  0 < humid w deep X lat z /\ (qtr w * p0 w < pres w deep X lat z -> humid w deep X lat z <= q0 w) /\
  (pres w deep X lat z <= qtr w * p0 w -> humid w deep X lat z = qs w) /\ humid w deep X 0 0 = q0 w /\
  dry_temp w deep X lat z * (1 + mvap w * humid w deep X lat z) = temp w deep X lat z.
Proof.
  intros H Q S V C. assert (forall a, exp (- (a * a)) <= 1) as E.
  { intros a. rewrite <- exp_0. pose proof (Rle_0_sqr a) as K. unfold Rsqr in K. destruct K as [K|K]; [left; apply exp_increasing; lra|rewrite <- K, Ropp_0; lra]. }
  assert (0 < humid w deep X lat z) as P.
  { unfold humid. cbv zeta. destruct (Rlt_dec _ _); [|exact S]. repeat apply Rmult_lt_0_compat; [exact Q|apply exp_pos|apply exp_pos]. }
  assert (0 < p0 w) as P0 by apply H.
  split; [exact P|]. split; [|split; [|split]].
  - intros L. unfold humid. cbv zeta. destruct (Rlt_dec _ _) as [G|G].
    + set (a := lat / qlat w * (lat / qlat w)). set (b := (pres w deep X lat z / p0 w - 1) * p0 w / qp w).
      pose proof (E a). pose proof (E b). pose proof (exp_pos (- (a * a))). pose proof (exp_pos (- (b * b))).
      assert (exp (- (a * a)) * exp (- (b * b)) <= 1 * 1) by (apply Rmult_le_compat; lra). nra.
    + destruct G. apply (Rmult_lt_reg_r (p0 w)); [exact P0|]. replace (pres w deep X lat z / p0 w * p0 w) with (pres w deep X lat z) by (field; lra). exact L.
  - intros L. unfold humid. cbv zeta. destruct (Rlt_dec _ _) as [G|G]; [|reflexivity].
    apply (Rmult_lt_compat_r (p0 w)) in G; [|exact P0]. replace (pres w deep X lat z / p0 w * p0 w) with (pres w deep X lat z) in G by (field; lra). lra.
  - unfold humid. cbv zeta. rewrite C135_ground by exact H. replace (p0 w / p0 w) with 1 by (field; lra).
    destruct (Rlt_dec _ _) as [G|G]; [|lra]. unfold Rdiv. rewrite Rminus_diag_eq by reflexivity. rewrite !Rmult_0_l, Ropp_0, exp_0. ring.
  - unfold dry_temp. field. assert (0 <= mvap w * humid w deep X lat z) by (apply Rmult_le_pos; lra). lra.
Qed.

(** the vertical shape of the perturbation falls from one to zero, smoothly at the cap *)
Theorem C135_taper w z : 0 < pertz w -> 0 <= z ->
  taper w 0 = 1 /\ 0 <= taper w z <= 1 /\ derivable_pt_lim (taper w) (pertz w) 0 /\ (pertz w <= z -> taper w z = 0).
Proof.
  intros P Z. split; [|split; [|split]].
  - unfold taper. destruct (Rlt_dec 0 (pertz w)); [|lra]. field. lra.
  - unfold taper. destruct (Rlt_dec z (pertz w)) as [L|L]; [|lra]. set (s := z / pertz w).
    replace (1 - 3 * (z * z) / (pertz w * pertz w) + 2 * (z * z * z) / (pertz w * pertz w * pertz w)) with (1 - 3 * (s * s) + 2 * (s * s * s)) by (unfold s; field; lra).
    assert (0 <= s < 1) as S.
    { split; [apply Rmult_le_pos; [exact Z|left; apply Rinv_0_lt_compat, P]|]. apply (Rmult_lt_reg_r (pertz w)); [exact P|]. unfold s, Rdiv. rewrite Rmult_assoc, Rinv_l; lra. }
    clearbody s. replace (1 - 3 * (s * s) + 2 * (s * s * s)) with ((1 - s) * (1 - s) * (1 + 2 * s)) by ring. split.
    + repeat apply Rmult_le_pos; lra.
    + replace ((1 - s) * (1 - s) * (1 + 2 * s)) with (1 - s * s * (3 - 2 * s)) by ring.
      assert (0 <= s * s * (3 - 2 * s)) by (repeat apply Rmult_le_pos; lra). lra.
  - apply (D_glue (fun z => 1 - 3 * (z * z) / (pertz w * pertz w) + 2 * (z * z * z) / (pertz w * pertz w * pertz w)) (fun _ => 0)).
    + dlim; cbv beta; try (apply Rgt_not_eq; repeat apply Rmult_lt_0_compat; exact P). field. lra.
    + apply D_const.
    + unfold taper. destruct (Rlt_dec (pertz w) (pertz w)); [lra|]. field. lra.
    + unfold taper. destruct (Rlt_dec (pertz w) (pertz w)); [lra|reflexivity].
    + intros y. unfold taper. destruct (Rlt_dec y (pertz w)); [left|right]; reflexivity.
  - intros L. unfold taper. destruct (Rlt_dec z (pertz w)); [lra|reflexivity].
Qed.
(** its horizontal shape jumps at the edge, by pertup taper / e *)
Theorem C135_edge_refuted w z : pertup w * taper w z <> 0 -> ~ continuity_pt (fun s => bump w s z) 1.
Proof.
  intros N C. set (k := pertup w * taper w z) in *.
  assert (continuity_pt (fun s => k * exp (- (s * s))) 1) as CU.
  { apply derivable_continuous_pt. eexists. unfold derivable_pt_abs. repeat dstep. }
  set (e := Rabs (k * exp (- (1 * 1))) / 2).
  assert (0 < e) as He.
  { unfold e. assert (0 < Rabs (k * exp (- (1 * 1)))); [|lra]. apply Rabs_pos_lt. apply Rmult_integral_contrapositive_currified; [exact N|]. pose proof (exp_pos (- (1 * 1))). lra. }
  destruct (C e He) as (a & Ha & Ca). destruct (CU e He) as (b & Hb & Cb).
  set (h := Rmin a b / 2). assert (0 < h) as Hh by (unfold h; assert (0 < Rmin a b) by (apply Rmin_glb_lt; assumption); lra).
  assert (h < a /\ h < b) as (Ka & Kb) by (unfold h in *; pose proof (Rmin_l a b); pose proof (Rmin_r a b); lra).
  assert (forall c, h < c -> (D_x no_cond 1 (1 - h) /\ R_dist (1 - h) 1 < c)) as M.
  { intros c Hc. split; [split; [exact I|lra]|]. unfold R_dist. replace (1 - h - 1) with (- h) by ring. rewrite Rabs_Ropp, Rabs_pos_eq; lra. }
  specialize (Ca (1 - h) (M a Ka)). specialize (Cb (1 - h) (M b Kb)). cbn -[Rmult] in Ca, Cb. unfold R_dist in Ca, Cb.
  unfold bump in Ca. destruct (Rlt_dec (1 - h) 1) as [_|?]; [|lra]. destruct (Rlt_dec 1 1) as [?|_]; [lra|]. fold k in Ca.
  rewrite Rminus_0_r in Ca. set (x := k * exp (- ((1 - h) * (1 - h)))) in *. set (y := k * exp (- (1 * 1))) in *.
  unfold e in Ca, Cb. unfold Rabs in Ca, Cb. repeat destruct (Rcase_abs _); lra.
Qed.
(** the distance from the centre is the angle between the directions in units of pertexpr *)
Theorem C135_circle w lon lat : 0 < pertexpr w ->
  cos (pertexpr w * circle w lon lat) = dot (pertlon w) (pertlat w) lon lat /\ 0 <= pertexpr w * circle w lon lat <= PI.
Proof.
  intros P. unfold circle. set (x := sin (pertlat w) * sin lat + _).
  assert (x = dot (pertlon w) (pertlat w) lon lat) as E by (unfold x, dot; rewrite cos_minus; ring).
  assert (-1 <= x <= 1) as B.
  { unfold x. set (v := lon - pertlon w). pose proof (COS_bound v) as [W1 W2].
    pose proof (COS_bound (pertlat w - lat)) as [M1 M2]. pose proof (COS_bound (pertlat w + lat)) as [P1 P2].
    rewrite cos_minus in M1, M2. rewrite cos_plus in P1, P2.
    set (a := cos (pertlat w) * cos lat) in *. set (b := sin (pertlat w) * sin lat) in *. split; nra. }
  replace (pertexpr w * (1 / pertexpr w * acos x)) with (acos x) by (field; lra).
  split; [rewrite cos_acos by exact B; exact E|apply acos_bound].
Qed.
(** the zonal wind of the state is the jet plus the perturbation, which vanishes outside the
    circle around its centre *)
Theorem C135_outside w deep X lon lat z u : jet w deep X lat z = Some u ->
  (1 <= circle w lon lat -> zonal w deep X lon lat z = Some u) /\
  (pertz w <= z -> zonal w deep X lon lat z = Some u) /\
  (lon = pertlon w -> lat = pertlat w -> 0 < pertz w -> z = 0 -> zonal w deep X lon lat z = Some (u + pertup w)).
Proof.
  intros J. unfold zonal. rewrite J. cbn [option_map]. unfold bump. split; [|split].
  - intros L. destruct (Rlt_dec _ 1); [lra|]. f_equal. ring.
  - intros L. unfold taper. destruct (Rlt_dec z (pertz w)); [lra|]. destruct (Rlt_dec _ 1); f_equal; ring.
  - intros -> -> P ->. assert (circle w (pertlon w) (pertlat w) = 0) as ->.
    { unfold circle. rewrite Rminus_diag_eq by reflexivity. rewrite cos_0.
      replace (sin (pertlat w) * sin (pertlat w) + cos (pertlat w) * cos (pertlat w) * 1) with 1 by (pose proof (sin2_cos2 (pertlat w)) as S; unfold Rsqr in S; lra).
      rewrite acos_1. ring. }
    destruct (Rlt_dec 0 1); [|lra]. rewrite Rmult_0_l, Ropp_0, exp_0. unfold taper. destruct (Rlt_dec 0 (pertz w)); [|lra].
    f_equal. field. lra.
Qed.

(** ** The parameters of the file *)
Definition file_wave : wave :=
  Wave 6371220 287 (980616 / 100000) (10045 / 10) 100000 (729212 / 10000000000) (608 / 1000) (61 / 100)
    310 240 2 3 (5 / 1000) 1 (1 / 10) (PI / 9) (2 * PI / 9) 15000 (2 * PI / 9) 34000 (1 / 10) (/ 10 ^ 12) (18 / 1000).
Example file_wave_proper : proper file_wave 1.
Proof. split; cbn; lra. Qed.
(** at 45 degrees and 5 km the shallow state is balanced, and the model recovers another
    pressure *)
Example C135_file_balanced : exists u, jet file_wave false 1 (PI / 4) 5000 = Some u /\ 0 <= u /\
  radial_balance (- (980616 / 100000)) (rho file_wave false 1 (PI / 4) 5000) (pres file_wave false 1 (PI / 4)) 5000.
Proof.
  assert (0 < cos (PI / 4)) as C by (pose proof PI_RGT_0; apply cos_gt_0; lra).
  destruct (C135_shallow file_wave 1 (PI / 4) 5000 file_wave_proper) as (T & _ & u & J & U); [cbn; lra|lra|exact C|].
  exists u. split; [exact J|]. split; [apply U; cbn; lra|].
  exact (C135_radial file_wave false 1 (PI / 4) 5000 u file_wave_proper ltac:(lra) C T J).
Qed.
(** and so is the deep state, at 60 degrees *)
Example C135_file_deep : exists u, jet file_wave true 1 (PI / 3) 5000 = Some u /\ 0 <= u /\
  radial_balance (radial_force true (gravity true (980616 / 100000) (6371220 / 1) 5000) (729212 / 10000000000 * 1) (radius true (6371220 / 1) 5000) (PI / 3) u)
    (rho file_wave true 1 (PI / 3) 5000) (pres file_wave true 1 (PI / 3)) 5000.
Proof.
  assert (0 < cos (PI / 3)) as C by (rewrite cos_PI3; lra).
  destruct (C135_jet file_wave true 1 (PI / 3) 5000 file_wave_proper) as (T & _ & u & J & U); [cbn; lra|lra|exact C|cbn; rewrite cos_PI3; lra|].
  exists u. split; [exact J|]. split; [apply U; cbn; lra|].
  exact (C135_radial file_wave true 1 (PI / 3) 5000 u file_wave_proper ltac:(lra) C T J).
Qed.
Example C135_file_refuted :
  p0 file_wave * Rpower (rd file_wave * rho file_wave false 1 (PI / 4) 5000 * theta_v file_wave false 1 (PI / 4) 5000 / p0 file_wave) (cp file_wave / (cp file_wave - rd file_wave))
  <> pres file_wave false 1 (PI / 4) 5000.
Proof.
  assert (0 < cos (PI / 4)) as C by (pose proof PI_RGT_0; apply cos_gt_0; lra).
  destruct (C135_shallow file_wave 1 (PI / 4) 5000 file_wave_proper) as (_ & T & _); [cbn; lra|lra|exact C|].
  destruct (C135_humidity file_wave false 1 (PI / 4) 5000 file_wave_proper) as (Q & _); try (cbn; lra).
  intros K. apply (C135_pressure_refuted file_wave false 1 (PI / 4) 5000 file_wave_proper) in K; try (cbn [rd cp mvap m61 file_wave]; lra).
  destruct K as [K|K]; [cbn in K|]; lra.
Qed.

Print Assumptions C135_radial.
Print Assumptions C135_meridional.
Print Assumptions C135_jet.
Print Assumptions C135_shallow.
Print Assumptions C135_ground.
Print Assumptions C135_pressure.
Print Assumptions C135_pressure_refuted.
Print Assumptions C135_humidity.
Print Assumptions C135_taper.
Print Assumptions C135_edge_refuted.
Print Assumptions C135_outside.
Print Assumptions C135_poles.
Print Assumptions C135_circle.
