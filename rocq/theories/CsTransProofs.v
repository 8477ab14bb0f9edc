From Coq Require Import ZArith Reals Lra Lia Psatz Bool.
From Verif Require Import CsTransModel CsTransSpec.
Local Open Scope R_scope.

Lemma sq_pos x y : 0 < 1 + x * x + y * y. Proof. nra. Qed.
Lemma sq_pos1 x : 0 < 1 + x * x. Proof. nra. Qed.
Lemma panel_cases p : panel p -> p = 0%Z \/ p = 1%Z \/ p = 2%Z \/ p = 3%Z \/ p = 4%Z \/ p = 5%Z.
Proof. unfold panel; lia. Qed.
Ltac panels H := destruct (panel_cases _ H) as [-> | [-> | [-> | [-> | [-> | ->]]]]].

Lemma vec3_eq (a b c a' b' c' : R) : a = a' -> b = b' -> c = c' -> (a, b, c) = (a', b', c').
Proof. intros -> -> ->; reflexivity. Qed.
Lemma cube_norm p x y : panel p -> dot (cube_point p x y) (cube_point p x y) = 1 + x * x + y * y.
Proof. intros H; panels H; cbn; ring. Qed.

Lemma rltb_spec a b : rltb a b = true <-> a < b.
Proof. unfold rltb; destruct (Rlt_dec a b); split; intros; try easy. Qed.
Lemma rleb_spec a b : rleb a b = true <-> a <= b.
Proof. unfold rleb; destruct (Rle_dec a b); split; intros; try easy. Qed.

Lemma xyz_point x y p : panel p -> xyz_from_xyp x y p = Val (sphere_point p x y).
Proof.
  intros H; unfold xyz_from_xyp, sphere_point; rewrite (cube_norm p x y H).
  set (d := sqrt (1 + x * x + y * y)).
  assert (D : d <> 0) by (apply Rgt_not_eq, sqrt_lt_R0, sq_pos).
  panels H; cbn; apply f_equal, vec3_eq; field; exact D.
Qed.

(** the trigonometric functions of the computed angles *)
Lemma atan_quarter x : cos (atan x) = 1 / sqrt (1 + x * x) /\ sin (atan x) = x / sqrt (1 + x * x).
Proof. split; [rewrite cos_atan | rewrite sin_atan]; unfold Rsqr; reflexivity. Qed.

Lemma sqrt_lat x y : sqrt (1 + y / sqrt (1 + x * x) * (y / sqrt (1 + x * x))) = sqrt (1 + x * x + y * y) / sqrt (1 + x * x).
Proof.
  pose proof (sq_pos1 x). rewrite <- sqrt_div_alt by lra. f_equal.
  assert (Q : sqrt (1 + x * x) * sqrt (1 + x * x) = 1 + x * x) by (apply sqrt_sqrt; lra).
  assert (sqrt (1 + x * x) <> 0) by (apply Rgt_not_eq, sqrt_lt_R0; lra).
  replace (y / sqrt (1 + x * x) * (y / sqrt (1 + x * x))) with (y * y / (sqrt (1 + x * x) * sqrt (1 + x * x))) by (field; assumption).
  rewrite Q; field; lra.
Qed.
Lemma lat_eq_trig x y : cos (lat_eq x y) = sqrt (1 + x * x) / sqrt (1 + x * x + y * y) /\
  sin (lat_eq x y) = y / sqrt (1 + x * x + y * y).
Proof.
  unfold lat_eq. destruct (atan_quarter (y / sqrt (1 + x * x))) as [C S0]. rewrite C, S0, sqrt_lat.
  assert (sqrt (1 + x * x) <> 0) by (apply Rgt_not_eq, sqrt_lt_R0, sq_pos1).
  assert (sqrt (1 + x * x + y * y) <> 0) by (apply Rgt_not_eq, sqrt_lt_R0, sq_pos).
  split; field; auto.
Qed.
Lemma lat_north_trig x y : cos (lat_north x y) = sqrt (x * x + y * y) / sqrt (1 + x * x + y * y) /\
  sin (lat_north x y) = 1 / sqrt (1 + x * x + y * y).
Proof.
  unfold lat_north. replace (1 / 2 * PI) with (PI / 2) by field.
  rewrite cos_shift, sin_shift. destruct (atan_quarter (sqrt (x * x + y * y))) as [C S0].
  rewrite C, S0, sqrt_sqrt by nra. rewrite <- Rplus_assoc. split; reflexivity.
Qed.
Lemma lat_south_trig x y : cos (lat_south x y) = sqrt (x * x + y * y) / sqrt (1 + x * x + y * y) /\
  sin (lat_south x y) = - 1 / sqrt (1 + x * x + y * y).
Proof.
  replace (lat_south x y) with (- lat_north x y) by (unfold lat_south, lat_north; field).
  rewrite cos_neg, sin_neg. destruct (lat_north_trig x y) as [C S0]. rewrite C, S0.
  split; [reflexivity | field]. apply Rgt_not_eq, sqrt_lt_R0, sq_pos.
Qed.
Lemma wrap_trig l : let w := if rltb l 0 then l + 2 * PI else l in cos w = cos l /\ sin w = sin l.
Proof.
  cbv zeta; destruct (rltb l 0); [| auto].
  rewrite cos_plus, sin_plus, cos_2PI, sin_2PI; split; ring.
Qed.
(** atan2 is the polar angle *)
Lemma atan2_trig y x : x * x + y * y <> 0 ->
  cos (atan2 y x) = x / sqrt (x * x + y * y) /\ sin (atan2 y x) = y / sqrt (x * x + y * y).
Proof.
  intros N. assert (P : 0 < x * x + y * y) by nra.
  assert (K : forall s, (s = 1 \/ s = -1) -> 0 < s * x ->
     cos (atan (y / x)) = s * (x / sqrt (x * x + y * y)) /\ sin (atan (y / x)) = s * (y / sqrt (x * x + y * y))).
  { intros s S1 Px. destruct (atan_quarter (y / x)) as [C S0]. rewrite C, S0.
    assert (x <> 0) by (intros ->; lra).
    assert (s * s = 1) by (destruct S1; subst; ring).
    assert (E : sqrt (1 + y / x * (y / x)) = sqrt (x * x + y * y) / (s * x)).
    { replace (1 + y / x * (y / x)) with ((x * x + y * y) / ((s * x) * (s * x))).
      - rewrite sqrt_div_alt by nra. rewrite sqrt_square by lra. reflexivity.
      - replace (s * x * (s * x)) with (s * s * (x * x)) by ring. rewrite H0. field; auto. }
    rewrite E. assert (sqrt (x * x + y * y) <> 0) by (apply Rgt_not_eq, sqrt_lt_R0; lra).
    assert (s <> 0) by (destruct S1; lra). split; field; auto. }
  unfold atan2. destruct (rltb 0 x) eqn:E1.
  { apply rltb_spec in E1. destruct (K 1) as [C S0]; [auto | lra |]. rewrite C, S0; lra. }
  destruct (rltb x 0) eqn:E2.
  { apply rltb_spec in E2. destruct (K (-1)) as [C S0]; [auto | lra |].
    destruct (rleb 0 y).
    - rewrite neg_cos, neg_sin, C, S0; lra.
    - unfold Rminus. rewrite cos_plus, sin_plus, cos_neg, sin_neg, cos_PI, sin_PI, C, S0. split; ring. }
  assert (x = 0).
  { destruct (Rtotal_order x 0) as [A | [A | A]]; auto; [apply rltb_spec in A | apply rltb_spec in A]; congruence. }
  subst x. replace (0 * 0 + y * y) with (y * y) in * by ring.
  destruct (rltb 0 y) eqn:E3.
  { apply rltb_spec in E3. rewrite sqrt_square, cos_PI2, sin_PI2 by lra. split; field; lra. }
  destruct (rltb y 0) eqn:E4.
  { apply rltb_spec in E4. replace (y * y) with (- y * - y) by ring.
    rewrite sqrt_square, cos_neg, sin_neg, cos_PI2, sin_PI2 by lra. split; field; lra. }
  exfalso. destruct (Rtotal_order y 0) as [A | [A | A]]; [apply rltb_spec in A; congruence | subst; lra | apply rltb_spec in A; congruence].
Qed.

(** ** Points *)
Lemma sphere_unit p x y : panel p -> dot (sphere_point p x y) (sphere_point p x y) = 1.
Proof.
  intros H; unfold sphere_point; rewrite (cube_norm p x y H).
  pose proof (sq_pos x y). set (d := sqrt (1 + x * x + y * y)).
  assert (D : d <> 0) by (apply Rgt_not_eq, sqrt_lt_R0, sq_pos).
  assert (Q : d * d = 1 + x * x + y * y) by (apply sqrt_sqrt; lra).
  transitivity ((1 + x * x + y * y) / (d * d)); [| rewrite Q; field; lra].
  panels H; cbn; field; exact D.
Qed.
Lemma geo_unit lon lat : dot (geo_point lon lat) (geo_point lon lat) = 1.
Proof.
  cbn. pose proof (sin2_cos2 lon); pose proof (sin2_cos2 lat); unfold Rsqr in *.
  replace (cos lon * cos lat * (cos lon * cos lat) + sin lon * cos lat * (sin lon * cos lat) + sin lat * sin lat)
    with ((sin lon * sin lon + cos lon * cos lon) * (cos lat * cos lat) + sin lat * sin lat) by ring.
  rewrite H; lra.
Qed.
(** the components of a point in the frame of a face *)
Lemma to_panel_total p v : panel p -> exists sx sy sz, to_panel p v = Val (sx, sy, sz) /\
  sz = dot (cube_point p 0 0) v /\ sx * sx + sy * sy + sz * sz = dot v v /\
  (sz <> 0 -> v = scale sz (cube_point p (sx / sz) (sy / sz))).
Proof.
  intros H; destruct v as [[a b] c].
  panels H; cbn; do 3 eexists; (split; [reflexivity |]); (split; [ring |]); (split; [ring |]);
    intros; apply vec3_eq; field; lra.
Qed.
Lemma to_panel_scaled p c x y : panel p -> to_panel p (scale c (cube_point p x y)) = Val (c * x, c * y, c).
Proof. intros H; panels H; cbn; apply f_equal, vec3_eq; ring. Qed.
Lemma scaled_sphere p c x y : panel p -> 0 < c -> dot (scale c (cube_point p x y)) (scale c (cube_point p x y)) = 1 ->
  scale c (cube_point p x y) = sphere_point p x y.
Proof.
  intros H P U. assert (E : c * c * (1 + x * x + y * y) = 1).
  { rewrite <- (cube_norm p x y H), <- U. panels H; cbn; ring. }
  unfold sphere_point; rewrite (cube_norm p x y H). f_equal.
  pose proof (sq_pos x y) as P2. pose proof (sqrt_lt_R0 _ P2) as P3. pose proof (sqrt_sqrt _ (Rlt_le _ _ P2)) as Q.
  set (d := sqrt (1 + x * x + y * y)) in *. rewrite <- Q in E.
  assert (0 < c * d) by (apply Rmult_lt_0_compat; auto).
  assert (F : (c * d - 1) * (c * d + 1) = 0) by (replace ((c * d - 1) * (c * d + 1)) with (c * c * (d * d) - 1) by ring; lra).
  assert (c * d = 1) by (apply Rmult_integral in F; destruct F; lra). apply (Rmult_eq_reg_r d); [rewrite Rinv_l by lra; auto | lra].
Qed.
Lemma sphere_scaled p x y : panel p -> exists c, 0 < c /\ sphere_point p x y = scale c (cube_point p x y).
Proof.
  intros H; exists (/ sqrt (1 + x * x + y * y)); split.
  - apply Rinv_0_lt_compat, sqrt_lt_R0, sq_pos.
  - unfold sphere_point; rewrite cube_norm; auto.
Qed.
Lemma panel_of_sphere p v sx sy sz : panel p -> dot v v = 1 -> to_panel p v = Val (sx, sy, sz) -> 0 < sz ->
  sphere_point p (sx / sz) (sy / sz) = v.
Proof.
  intros H U E P. destruct (to_panel_total p v H) as (a & b & c & E2 & _ & _ & K).
  rewrite E in E2; injection E2; intros; subst a b c. rewrite K in U by lra. rewrite K by lra.
  symmetry; apply scaled_sphere; auto.
Qed.
Lemma sphere_inj p x y x' y' : panel p -> sphere_point p x y = sphere_point p x' y' -> x = x' /\ y = y'.
Proof.
  intros H E. destruct (sphere_scaled p x y H) as (c & P & E1). destruct (sphere_scaled p x' y' H) as (c' & P' & E2).
  assert (K : to_panel p (sphere_point p x y) = to_panel p (sphere_point p x' y')) by (f_equal; auto).
  rewrite E1, E2, !to_panel_scaled in K by auto. injection K; intros; subst c'.
  split; apply (Rmult_eq_reg_l c); lra.
Qed.

Lemma to_global_sphere p x y : panel p ->
  to_global p (1 / sqrt (1 + x * x + y * y) * x) (1 / sqrt (1 + x * x + y * y) * y) (1 / sqrt (1 + x * x + y * y)) =
  Val (sphere_point p x y).
Proof. intros H; exact (xyz_point x y p H). Qed.
Lemma xyp_xyp x y src dst : panel src -> panel dst ->
  (0 < dot (cube_point dst 0 0) (sphere_point src x y) ->
     exists x' y', xyp_from_xyp x y src dst = Val (x', y') /\ sphere_point dst x' y' = sphere_point src x y) /\
  (dot (cube_point dst 0 0) (sphere_point src x y) <= 0 -> xyp_from_xyp x y src dst = Exc).
Proof.
  intros Hs Hd; unfold xyp_from_xyp; cbv zeta; rewrite (to_global_sphere src x y Hs).
  destruct (to_panel_total dst (sphere_point src x y) Hd) as (sx & sy & sz & E & Z0 & _ & _).
  rewrite E, <- Z0. split; intros P.
  - destruct (rleb sz 0) eqn:L; [apply rleb_spec in L; lra |].
    do 2 eexists; split; [reflexivity |]. apply panel_of_sphere; auto. apply sphere_unit; auto.
  - destruct (rleb sz 0) eqn:L; auto. apply rleb_spec in P; congruence.
Qed.

(** ** Longitude and latitude *)
Definition resolved (p : Z) (x : R) : Prop := (p <= 3)%Z \/ eps < Rabs x \/ x = 0.
Lemma shift_trig x : (cos (atan x + 1 / 2 * PI) = - sin (atan x) /\ sin (atan x + 1 / 2 * PI) = cos (atan x)) /\
  (cos (atan x + PI) = - cos (atan x) /\ sin (atan x + PI) = - sin (atan x)) /\
  (cos (atan x + 3 / 2 * PI) = sin (atan x) /\ sin (atan x + 3 / 2 * PI) = - cos (atan x)).
Proof.
  replace (1 / 2 * PI) with (PI / 2) by field. replace (3 / 2 * PI) with (3 * (PI / 2)) by field.
  rewrite !cos_plus, !sin_plus, cos_PI2, sin_PI2, cos_PI, sin_PI, cos_3PI2, sin_3PI2.
  repeat split; ring.
Qed.
Lemma rll_total x y p : panel p -> exists lon lat, rll_from_xyp x y p = Val (lon, lat).
Proof. intros H; panels H; cbn; do 2 eexists; reflexivity. Qed.
Ltac unwrap := match goal with H : (if rltb ?l 0 then _ else _) = ?o |- _ =>
  let WC := fresh "WC" in let WS := fresh "WS" in destruct (wrap_trig l) as [WC WS]; rewrite H in WC, WS; rewrite ?WC, ?WS end.
(** sine and cosine of the computed longitude and latitude *)
Lemma rll_trig x y p lon lat : panel p -> resolved p x -> rll_from_xyp x y p = Val (lon, lat) ->
  let q := sqrt (1 + x * x) in let d := sqrt (1 + x * x + y * y) in let r := sqrt (x * x + y * y) in
  ((p <= 3)%Z -> cos lat = q / d /\ sin lat = y / d /\
     (p = 0%Z -> cos lon = 1 / q /\ sin lon = x / q) /\ (p = 1%Z -> cos lon = - x / q /\ sin lon = 1 / q) /\
     (p = 2%Z -> cos lon = - 1 / q /\ sin lon = - x / q) /\ (p = 3%Z -> cos lon = x / q /\ sin lon = - 1 / q)) /\
  (p = 4%Z -> cos lat = r / d /\ sin lat = 1 / d /\ (r <> 0 -> cos lon = - y / r /\ sin lon = x / r)) /\
  (p = 5%Z -> cos lat = r / d /\ sin lat = - 1 / d /\ (r <> 0 -> cos lon = y / r /\ sin lon = x / r)).
Proof.
  intros H V E q d r. destruct (atan_quarter x) as [C S0]. fold q in C, S0.
  assert (Q : q <> 0) by (apply Rgt_not_eq, sqrt_lt_R0, sq_pos1).
  destruct (shift_trig x) as ((C1 & S1) & (C2 & S2) & (C3 & S3)).
  destruct (lat_eq_trig x y) as [CL SL]; destruct (lat_north_trig x y) as [CN SN]; destruct (lat_south_trig x y) as [CS SS].
  unfold lat_eq in CL, SL. unfold lat_north in CN, SN. unfold lat_south in CS, SS. fold q d r in CL, SL, CN, SN, CS, SS.
  assert (AB : forall l, rltb l 0 = true \/ rltb l 0 = false) by (intros l; destruct (rltb l 0); auto).
  assert (PL : forall t : R, r <> 0 -> (t = y \/ t = - y) -> x * x + y * y <> 0).
  { intros t R0 _ B. apply R0. unfold r. rewrite B. apply sqrt_0. }
  assert (PX : ~ (eps < Rabs x) -> (p = 4%Z \/ p = 5%Z) -> x = 0).
  { intros B A. destruct V as [L | [L | L]]; auto; [lia | contradiction]. }
  assert (RY : x = 0 -> r = Rabs y).
  { intros ->. unfold r. replace (0 * 0 + y * y) with (y * y) by ring. fold (Rsqr y). apply sqrt_Rsqr_abs. }
  panels H; cbn in E; injection E; intros EL EO; subst lat; clear E.
  1-4: split; [intros _ | split; intros; discriminate].
  1-4: split; [exact CL | split; [exact SL |]].
  1-4: unwrap.
  1-4: repeat split; intros; try discriminate; rewrite ?C1, ?S1, ?C2, ?S2, ?C3, ?S3, ?C, ?S0; field; exact Q.
  - split; [lia | split; [intros _ | discriminate]]. split; [exact CN | split; [exact SN |]]. intros R0.
    unwrap.
    destruct (rltb eps (Rabs x)) eqn:B.
    + destruct (atan2_trig x (- y)) as [A1 A2]; [pose proof (PL y R0 (or_introl eq_refl)); nra |].
      replace (- y * - y + x * x) with (x * x + y * y) in A1, A2 by ring. fold r in A1, A2. auto.
    + assert (X0 : x = 0) by (apply PX; [intros A; apply rltb_spec in A; congruence | auto]).
      pose proof (RY X0) as RA. destruct (rleb y 0) eqn:L.
      * apply rleb_spec in L. rewrite Rabs_left1 in RA by auto. rewrite cos_0, sin_0, RA, X0.
        rewrite RA in R0. split; field; lra.
      * assert (0 < y) by (destruct (Rle_or_lt y 0) as [A | A]; auto; apply rleb_spec in A; congruence).
        rewrite Rabs_right in RA by lra. rewrite cos_PI, sin_PI, RA, X0. split; field; lra.
  - split; [lia | split; [discriminate | intros _]]. split; [exact CS | split; [exact SS |]]. intros R0.
    unwrap.
    destruct (rltb eps (Rabs x)) eqn:B.
    + destruct (atan2_trig x y) as [A1 A2]; [pose proof (PL y R0 (or_introl eq_refl)); nra |].
      replace (y * y + x * x) with (x * x + y * y) in A1, A2 by ring. fold r in A1, A2. auto.
    + assert (X0 : x = 0) by (apply PX; [intros A; apply rltb_spec in A; congruence | auto]).
      pose proof (RY X0) as RA. destruct (rltb 0 y) eqn:L.
      * apply rltb_spec in L. rewrite Rabs_right in RA by lra. rewrite cos_0, sin_0, RA, X0. split; field; lra.
      * assert (y <= 0) by (destruct (Rle_or_lt y 0) as [A | A]; auto; apply rltb_spec in A; congruence).
        rewrite Rabs_left1 in RA by auto. rewrite cos_PI, sin_PI, RA, X0. rewrite RA in R0. split; field; lra.
Qed.

Lemma rll_point x y p lon lat : panel p -> resolved p x -> rll_from_xyp x y p = Val (lon, lat) ->
  geo_point lon lat = sphere_point p x y.
Proof.
  intros H V E. destruct (rll_trig x y p lon lat H V E) as (A & B & C). cbv zeta in A, B, C.
  unfold sphere_point; rewrite (cube_norm p x y H).
  pose proof (sqrt_lt_R0 _ (sq_pos1 x)) as Q. pose proof (sqrt_lt_R0 _ (sq_pos x y)) as D.
  set (q := sqrt (1 + x * x)) in *. set (d := sqrt (1 + x * x + y * y)) in *.
  unfold geo_point. clear V E. panels H.
  1-4: destruct A as (CL & SL & A0 & A1 & A2 & A3); [lia |].
  - destruct (A0 eq_refl) as [-> ->]. rewrite CL, SL; cbn; apply vec3_eq; field; lra.
  - destruct (A1 eq_refl) as [-> ->]. rewrite CL, SL; cbn; apply vec3_eq; field; lra.
  - destruct (A2 eq_refl) as [-> ->]. rewrite CL, SL; cbn; apply vec3_eq; field; lra.
  - destruct (A3 eq_refl) as [-> ->]. rewrite CL, SL; cbn; apply vec3_eq; field; lra.
  - destruct (B eq_refl) as (CL & SL & K). rewrite CL, SL.
    destruct (Req_EM_T (sqrt (x * x + y * y)) 0) as [Z0 | N].
    + assert (x = 0 /\ y = 0) as [-> ->] by (apply sqrt_eq_0 in Z0; [split; nra | nra]).
      rewrite Z0; cbn; apply vec3_eq; field; lra.
    + destruct (K N) as [-> ->]; cbn; apply vec3_eq; field; lra.
  - destruct (C eq_refl) as (CL & SL & K). rewrite CL, SL.
    destruct (Req_EM_T (sqrt (x * x + y * y)) 0) as [Z0 | N].
    + assert (x = 0 /\ y = 0) as [-> ->] by (apply sqrt_eq_0 in Z0; [split; nra | nra]).
      rewrite Z0; cbn; apply vec3_eq; field; lra.
    + destruct (K N) as [-> ->]; cbn; apply vec3_eq; field; lra.
Qed.

Lemma atan2_range y x : - PI < atan2 y x <= PI.
Proof.
  pose proof PI_RGT_0. unfold atan2. pose proof (atan_bound (y / x)) as B.
  destruct (rltb 0 x) eqn:E1; [lra |]. destruct (rltb x 0) eqn:E2.
  - apply rltb_spec in E2. pose proof (Rinv_lt_0_compat x E2). destruct (rleb 0 y) eqn:L.
    + apply rleb_spec in L. assert (y / x <= 0) by (unfold Rdiv; nra).
      assert (atan (y / x) <= 0).
      { rewrite <- atan_0. destruct H1 as [H1 | ->]; [left; apply atan_increasing; auto | right; auto]. }
      lra.
    + assert (y < 0) by (destruct (Rle_or_lt 0 y) as [A | A]; auto; apply rleb_spec in A; congruence).
      assert (0 < y / x) by (unfold Rdiv; nra).
      assert (0 < atan (y / x)) by (rewrite <- atan_0; apply atan_increasing; auto). lra.
  - destruct (rltb 0 y), (rltb y 0); lra.
Qed.
Lemma atan_nonneg x : 0 <= x -> 0 <= atan x.
Proof. intros [H | <-]; [left; rewrite <- atan_0; apply atan_increasing; auto | rewrite atan_0; lra]. Qed.
Lemma rll_range x y p lon lat : panel p -> rll_from_xyp x y p = Val (lon, lat) ->
  0 <= lon < 2 * PI /\ - PI / 2 <= lat <= PI / 2.
Proof.
  intros H E. pose proof PI_RGT_0 as P. pose proof (atan_bound x). pose proof (atan_bound (y / sqrt (1 + x * x))).
  pose proof (atan_nonneg _ (sqrt_pos (x * x + y * y))). pose proof (atan_bound (sqrt (x * x + y * y))).
  assert (W : forall l, - PI < l < 2 * PI -> 0 <= (if rltb l 0 then l + 2 * PI else l) < 2 * PI).
  { intros l B. destruct (rltb l 0) eqn:L; [apply rltb_spec in L; lra |].
    destruct (Rle_or_lt 0 l) as [A | A]; [lra | apply rltb_spec in A; congruence]. }
  panels H; cbn in E; injection E; intros <- <-; (split; [apply W | lra]); try lra.
  - destruct (rltb eps (Rabs x)); [pose proof (atan2_range x (- y)); lra | destruct (rleb y 0); lra].
  - destruct (rltb eps (Rabs x)); [pose proof (atan2_range x y); lra | destruct (rltb 0 y); lra].
Qed.
Lemma nowrap l : 0 <= l -> (if rltb l 0 then l + 2 * PI else l) = l.
Proof. intros L; destruct (rltb l 0) eqn:B; auto. apply rltb_spec in B; lra. Qed.
(** near the meridian plane x = 0 of the polar panels the longitude is rounded *)
Lemma rll_near x y p lon lat : panel p -> rll_from_xyp x y p = Val (lon, lat) ->
  let '(a, b, c) := geo_point lon lat in let '(a', b', c') := sphere_point p x y in
  Rabs (a - a') <= eps /\ Rabs (b - b') <= eps /\ c = c'.
Proof.
  intros H E. assert (E0 : 0 < eps) by (unfold eps; apply Rinv_0_lt_compat; lra).
  assert (V : resolved p x \/ ((p = 4 \/ p = 5)%Z /\ Rabs x <= eps)).
  { unfold resolved, panel in *. destruct (Z_le_gt_dec p 3); auto. destruct (Rle_or_lt (Rabs x) eps); auto.
    right; split; [lia | auto]. }
  destruct V as [V | [P L]].
  { rewrite (rll_point _ _ _ _ _ H V E). destruct (sphere_point p x y) as [[a b] c].
    rewrite !Rminus_eq_0, Rabs_R0. repeat split; lra. }
  assert (B : rltb eps (Rabs x) = false) by (destruct (rltb eps (Rabs x)) eqn:B; auto; apply rltb_spec in B; lra).
  unfold sphere_point; rewrite (cube_norm p x y H).
  destruct (lat_north_trig x y) as [CN SN]; destruct (lat_south_trig x y) as [CS SS].
  unfold lat_north in CN, SN. unfold lat_south in CS, SS.
  pose proof (sqrt_lt_R0 _ (sq_pos x y)) as D. pose proof (sqrt_sqrt _ (Rlt_le _ _ (sq_pos x y))) as Q.
  assert (R2 : 0 <= x * x + y * y) by nra. pose proof (sqrt_sqrt _ R2) as QR. pose proof (sqrt_pos (x * x + y * y)) as RP.
  set (d := sqrt (1 + x * x + y * y)) in *. set (r := sqrt (x * x + y * y)) in *.
  assert (D1 : 1 <= d) by nra.
  assert (DI : 0 < / d <= 1) by (split; [apply Rinv_0_lt_compat; auto | rewrite <- Rinv_1; apply Rinv_le_contravar; lra]).
  assert (RX : Rabs y <= r <= Rabs y + Rabs x).
  { pose proof (Rabs_pos x); pose proof (Rabs_pos y).
    assert (Rabs x * Rabs x = x * x) by (rewrite <- Rabs_mult; apply Rabs_right; nra).
    assert (Rabs y * Rabs y = y * y) by (rewrite <- Rabs_mult; apply Rabs_right; nra). split; nra. }
  assert (K : forall t, Rabs t <= Rabs x -> Rabs (t * / d) <= eps).
  { intros t T. rewrite Rabs_mult, (Rabs_right (/ d)) by lra. pose proof (Rabs_pos t). nra. }
  assert (KY : forall s, (s = 1 \/ s = -1) -> 0 <= s * y -> Rabs (r - s * y) <= Rabs x).
  { intros s S1 Y. assert (Rabs y = s * y).
    { destruct S1; subst s; [rewrite Rabs_right; lra | rewrite Rabs_left1; lra]. }
    rewrite Rabs_right; lra. }
  destruct P; subst p; cbn in E; rewrite B in E; injection E; intros <- <-; clear E; unfold geo_point; fold r.
  - rewrite CN, SN. destruct (rleb y 0) eqn:Y.
    + apply rleb_spec in Y. rewrite nowrap by lra.
      rewrite cos_0, sin_0. cbn. split; [| split].
      * replace (1 * (r / d) - / d * - y) with ((r - -1 * y) * / d) by (field; lra). apply K, KY; [auto | lra].
      * replace (0 * (r / d) - / d * x) with (- x * / d) by (field; lra). apply K. rewrite Rabs_Ropp; lra.
      * field; lra.
    + assert (0 < y) by (destruct (Rle_or_lt y 0) as [A | A]; auto; apply rleb_spec in A; congruence).
      rewrite nowrap by (pose proof PI_RGT_0; lra).
      rewrite cos_PI, sin_PI. cbn. split; [| split].
      * replace (-1 * (r / d) - / d * - y) with (- (r - 1 * y) * / d) by (field; lra). apply K. rewrite Rabs_Ropp. apply KY; [auto | lra].
      * replace (0 * (r / d) - / d * x) with (- x * / d) by (field; lra). apply K. rewrite Rabs_Ropp; lra.
      * field; lra.
  - rewrite CS, SS. destruct (rltb 0 y) eqn:Y.
    + apply rltb_spec in Y. rewrite nowrap by lra.
      rewrite cos_0, sin_0. cbn. split; [| split].
      * replace (1 * (r / d) - / d * y) with ((r - 1 * y) * / d) by (field; lra). apply K, KY; [auto | lra].
      * replace (0 * (r / d) - / d * x) with (- x * / d) by (field; lra). apply K. rewrite Rabs_Ropp; lra.
      * field; lra.
    + assert (y <= 0) by (destruct (Rle_or_lt y 0) as [A | A]; auto; apply rltb_spec in A; congruence).
      rewrite nowrap by (pose proof PI_RGT_0; lra).
      rewrite cos_PI, sin_PI. cbn. split; [| split].
      * replace (-1 * (r / d) - / d * y) with (- (r - -1 * y) * / d) by (field; lra). apply K. rewrite Rabs_Ropp. apply KY; [auto | lra].
      * replace (0 * (r / d) - / d * x) with (- x * / d) by (field; lra). apply K. rewrite Rabs_Ropp; lra.
      * field; lra.
Qed.

(** ** From longitude and latitude *)
Lemma Rabs_zero t : Rabs t <= 0 -> t = 0.
Proof. intros L. unfold Rabs in L; destruct (Rcase_abs t); lra. Qed.
Lemma Rabs_two t c : Rabs t <= c -> - c <= t <= c.
Proof. intros L. unfold Rabs in L; destruct (Rcase_abs t); lra. Qed.
Definition chosen (xx yy zz : R) : Z :=
  let pm := Rmax (Rabs xx) (Rmax (Rabs yy) (Rabs zz)) in
  let n1 := if reqb pm (Rabs xx) then (if rltb 0 xx then 0%Z else 2%Z) else 6%Z in
  let n2 := if reqb pm (Rabs yy) then (if rltb 0 yy then 1%Z else 3%Z) else n1 in
  if reqb pm (Rabs zz) then (if rltb 0 zz then 4%Z else 5%Z) else n2.
Lemma chosen_spec xx yy zz : xx * xx + yy * yy + zz * zz = 1 ->
  panel (chosen xx yy zz) /\ exists sx sy sz, to_panel (chosen xx yy zz) (xx, yy, zz) = Val (sx, sy, sz) /\
    0 < sz /\ Rabs sx <= sz /\ Rabs sy <= sz.
Proof.
  intros U. set (pm := Rmax (Rabs xx) (Rmax (Rabs yy) (Rabs zz))).
  assert (BX : Rabs xx <= pm) by apply Rmax_l.
  assert (BY : Rabs yy <= pm) by (eapply Rle_trans; [apply Rmax_l | apply Rmax_r]).
  assert (BZ : Rabs zz <= pm) by (eapply Rle_trans; [apply Rmax_r | apply Rmax_r]).
  assert (MX : pm = Rabs xx \/ pm = Rabs yy \/ pm = Rabs zz).
  { unfold pm. destruct (Rmax_Rle (Rabs xx) (Rmax (Rabs yy) (Rabs zz)) 0) as [_ _].
    unfold Rmax. destruct (Rle_dec (Rabs yy) (Rabs zz)); destruct (Rle_dec (Rabs xx) _); auto. }
  assert (PP : 0 < pm).
  { destruct (Rle_or_lt pm 0); auto. exfalso. pose proof (Rabs_pos xx); pose proof (Rabs_pos yy); pose proof (Rabs_pos zz).
    assert (xx = 0) by (apply Rabs_zero; lra). assert (yy = 0) by (apply Rabs_zero; lra). assert (zz = 0) by (apply Rabs_zero; lra).
    subst; lra. }
  assert (SG : forall t, pm = Rabs t -> (rltb 0 t = true /\ t = pm) \/ (rltb 0 t = false /\ - t = pm)).
  { intros t T. destruct (rltb 0 t) eqn:L; [apply rltb_spec in L; left; rewrite Rabs_right in T; lra |].
    destruct (Rle_or_lt t 0) as [A | A]; [right; rewrite Rabs_left1 in T; lra | apply rltb_spec in A; congruence]. }
  unfold chosen. fold pm. unfold reqb.
  destruct (Req_EM_T pm (Rabs zz)) as [EZ | NZ].
  { destruct (SG zz EZ) as [[-> T] | [-> T]]; (split; [unfold panel; lia |]); do 3 eexists; (split; [reflexivity |]);
      rewrite ?Rabs_Ropp, T; lra. }
  destruct (Req_EM_T pm (Rabs yy)) as [EY | NY].
  { destruct (SG yy EY) as [[-> T] | [-> T]]; (split; [unfold panel; lia |]); do 3 eexists; (split; [reflexivity |]);
      rewrite ?Rabs_Ropp, T; lra. }
  destruct (Req_EM_T pm (Rabs xx)) as [EX | NX].
  { destruct (SG xx EX) as [[-> T] | [-> T]]; (split; [unfold panel; lia |]); do 3 eexists; (split; [reflexivity |]);
      rewrite ?Rabs_Ropp, T; lra. }
  exfalso; tauto.
Qed.
Lemma xyp_rll lon lat : exists x y p, xyp_from_rll lon lat = Val (x, y, p) /\ panel p /\ Rabs x <= 1 /\ Rabs y <= 1 /\
  sphere_point p x y = geo_point lon lat.
Proof.
  pose proof (geo_unit lon lat) as U. cbn in U.
  destruct (chosen_spec _ _ _ U) as (Hp & sx & sy & sz & E & P & X & Y).
  unfold xyp_from_rll. cbv zeta. fold (chosen (cos lon * cos lat) (sin lon * cos lat) (sin lat)).
  rewrite E. unfold over. destruct (Req_EM_T sz 0) as [Z0 | _]; [lra |].
  do 3 eexists; split; [reflexivity |]. split; [exact Hp |].
  assert (B : forall t, Rabs t <= sz -> Rabs (t / sz) <= 1).
  { intros t T. unfold Rdiv. rewrite Rabs_mult, Rabs_inv, (Rabs_right sz) by lra.
    apply (Rmult_le_reg_r sz); auto. rewrite Rmult_assoc, Rinv_l by lra. lra. }
  split; [auto | split; [auto |]]. apply panel_of_sphere; auto.
Qed.
(** only one face holds an interior point *)
Lemma face_unique p q x y x' y' : panel p -> panel q -> Rabs x < 1 -> Rabs y < 1 -> Rabs x' <= 1 -> Rabs y' <= 1 ->
  sphere_point p x y = sphere_point q x' y' -> p = q /\ x = x' /\ y = y'.
Proof.
  intros Hp Hq X Y X' Y' E.
  assert (p = q).
  { destruct (sphere_scaled p x y Hp) as (c & P & E1). destruct (sphere_scaled q x' y' Hq) as (c' & P' & E2).
    rewrite E1, E2 in E. apply Rabs_def2 in X. apply Rabs_def2 in Y.
    assert (BX : -1 <= x' <= 1) by (apply Rabs_two in X'; lra).
    assert (BY : -1 <= y' <= 1) by (apply Rabs_two in Y'; lra).
    clear E1 E2 X' Y'.
    panels Hp; panels Hq; try reflexivity; exfalso; cbn in E; injection E; clear E; intros; nra. }
  subst q. split; auto. eapply sphere_inj; eauto.
Qed.
