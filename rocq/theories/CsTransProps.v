(** * Cubed-sphere conversions: C35 and C36 *)
From Coq Require Import ZArith Reals Lra Lia Psatz Bool.
From Verif Require Import CsTransModel CsTransSpec CsTransProofs CsTransVecProofs CsTransPanelProofs.
Local Open Scope R_scope.

(** ** C35 *)
Theorem C35_sphere : forall x y p,
  (panel p -> xyz_from_xyp x y p = Val (sphere_point p x y) /\ dot (sphere_point p x y) (sphere_point p x y) = 1) /\
  (~ panel p -> xyz_from_xyp x y p = Exc).
Proof.
  intros x y p; split; intros H.
  - split; [apply xyz_point | apply sphere_unit]; auto.
  - unfold xyz_from_xyp, to_global, panel in *.
    destruct p as [| p | p]; [lia | | reflexivity].
    destruct p as [[p | p |] | [p | p |] |]; try reflexivity; try lia; destruct p; try reflexivity; lia.
Qed.
Theorem C35_panels : forall x y src dst, panel src -> panel dst ->
  (0 < dot (cube_point dst 0 0) (sphere_point src x y) ->
     exists x' y', xyp_from_xyp x y src dst = Val (x', y') /\ sphere_point dst x' y' = sphere_point src x y) /\
  (dot (cube_point dst 0 0) (sphere_point src x y) <= 0 -> xyp_from_xyp x y src dst = Exc).
Proof. exact xyp_xyp. Qed.
Theorem C35_lonlat : forall x y p, panel p -> exists lon lat, rll_from_xyp x y p = Val (lon, lat) /\
  0 <= lon < 2 * PI /\ - PI / 2 <= lat <= PI / 2 /\
  ((p <= 3)%Z \/ / 2 ^ 52 < Rabs x \/ x = 0 -> geo_point lon lat = sphere_point p x y) /\
  let '(a, b, c) := geo_point lon lat in let '(a', b', c') := sphere_point p x y in
  Rabs (a - a') <= / 2 ^ 52 /\ Rabs (b - b') <= / 2 ^ 52 /\ c = c'.
Proof.
  intros x y p H. destruct (rll_total x y p H) as (lon & lat & E). exists lon, lat.
  destruct (rll_range _ _ _ _ _ H E). repeat (split; [auto; try tauto |]).
  - intros V; apply rll_point; auto.
  - exact (rll_near _ _ _ _ _ H E).
Qed.
(** within DBL_EPSILON of x = 0 on a polar panel the longitude is that of x = 0 *)
Theorem C35_band_refuted : exists x y p lon lat, panel p /\ rll_from_xyp x y p = Val (lon, lat) /\
  geo_point lon lat <> sphere_point p x y.
Proof.
  exists eps, 0, 4%Z. assert (E0 : 0 < eps) by (unfold eps; apply Rinv_0_lt_compat; lra).
  exists 0, (lat_north eps 0). split; [unfold panel; lia |]. split.
  - cbn. rewrite (Rabs_right eps) by lra.
    replace (rltb eps eps) with false by (symmetry; apply not_true_is_false; intros A; apply rltb_spec in A; lra).
    replace (rleb 0 0) with true by (symmetry; apply rleb_spec; lra).
    rewrite nowrap by lra. reflexivity.
  - unfold sphere_point; rewrite cube_norm by (unfold panel; lia). unfold geo_point. rewrite sin_0. cbn.
    pose proof (sqrt_lt_R0 _ (sq_pos eps 0)) as D. apply Rinv_0_lt_compat in D.
    intros A; injection A; intros _ A2 _. nra.
Qed.
Theorem C35_from_lonlat : forall lon lat, exists x y p, xyp_from_rll lon lat = Val (x, y, p) /\
  panel p /\ Rabs x <= 1 /\ Rabs y <= 1 /\ sphere_point p x y = geo_point lon lat.
Proof. exact xyp_rll. Qed.
Theorem C35_round_trip : forall x y p lon lat, panel p -> Rabs x < 1 -> Rabs y < 1 ->
  (p <= 3)%Z \/ / 2 ^ 52 < Rabs x \/ x = 0 -> rll_from_xyp x y p = Val (lon, lat) ->
  xyp_from_rll lon lat = Val (x, y, p).
Proof.
  intros x y p lon lat H X Y V E. destruct (xyp_rll lon lat) as (x' & y' & p' & E' & H' & X' & Y' & K).
  rewrite (rll_point x y p lon lat H V E) in K.
  destruct (face_unique p p' x y x' y' H H' X Y X' Y' (eq_sym K)) as (-> & -> & ->). exact E'.
Qed.
Theorem C35_round_trip_angles : forall a b p lon lat, panel p -> - PI / 4 < a < PI / 4 -> - PI / 4 < b < PI / 4 ->
  (p <= 3)%Z \/ / 2 ^ 52 < Rabs (tan a) \/ tan a = 0 -> rll_from_abp a b p = Val (lon, lat) ->
  abp_from_rll lon lat = Val (a, b, p).
Proof.
  intros a b p lon lat H A B V E. pose proof PI_RGT_0.
  assert (T : forall t, - PI / 4 < t < PI / 4 -> Rabs (tan t) < 1).
  { intros t L. apply Rabs_def1.
    - rewrite <- tan_PI4. apply tan_increasing; lra.
    - replace (- (1)) with (tan (- (PI / 4))) by (rewrite tan_neg, tan_PI4; ring). apply tan_increasing; lra. }
  unfold abp_from_rll. rewrite (C35_round_trip (tan a) (tan b) p lon lat); auto.
  rewrite !atan_tan by lra. reflexivity.
Qed.
Theorem C35_round_trip_lonlat : forall lon lat x y p, 0 <= lon < 2 * PI -> - PI / 2 < lat < PI / 2 ->
  xyp_from_rll lon lat = Val (x, y, p) -> (p <= 3)%Z \/ / 2 ^ 52 < Rabs x \/ x = 0 ->
  rll_from_xyp x y p = Val (lon, lat).
Proof.
  intros lon lat x y p L M E V. destruct (xyp_rll lon lat) as (x' & y' & p' & E' & H & _ & _ & K).
  rewrite E in E'; injection E'; intros; subst x' y' p'.
  destruct (rll_total x y p H) as (lon' & lat' & E2). destruct (rll_range _ _ _ _ _ H E2).
  pose proof (rll_point _ _ _ _ _ H V E2) as K2. rewrite K in K2.
  destruct (geo_inj lon lat lon' lat'); auto. subst; auto.
Qed.

(** ** C36 *)
Theorem C36_tangent : forall p x y, panel p ->
  (exists v, alpha_vector p x y v) /\ (exists v, beta_vector p x y v) /\
  (forall u v, alpha_vector p x y u -> alpha_vector p x y v -> u = v) /\
  (forall u v, beta_vector p x y u -> beta_vector p x y v -> u = v).
Proof.
  intros p x y H. split; [eexists; apply alpha_velocity; auto |]. split; [eexists; apply beta_velocity; auto |].
  split; intros u v; apply velocity_unique.
Qed.
Definition off_pole (p : Z) (x y : R) : Prop := (p <= 3)%Z \/ / 10 ^ 13 <= Rabs x \/ / 10 ^ 13 <= Rabs y.
Lemma off_pole_guard p x y : off_pole p x y -> at_pole x y p = false.
Proof.
  intros H; unfold at_pole. apply not_true_is_false. intros A.
  apply andb_prop in A as [A A3]; apply andb_prop in A as [A1 A2].
  apply rltb_spec in A2, A3. apply Z.ltb_lt in A1. destruct H as [H | [H | H]]; [lia | lra | lra].
Qed.
Ltac tangents := repeat match goal with
  | A : alpha_vector ?p ?x ?y ?v, H : panel ?p |- _ =>
      rewrite (velocity_unique _ _ _ _ A (alpha_velocity p x y H)) in *; clear A
  | B : beta_vector ?p ?x ?y ?v, H : panel ?p |- _ =>
      rewrite (velocity_unique _ _ _ _ B (beta_velocity p x y H)) in *; clear B
  end.
Theorem C36_to_panel : forall p x y lon lat u v va vb, panel p -> 0 < cos lat ->
  geo_point lon lat = sphere_point p x y -> off_pole p x y -> alpha_vector p x y va -> beta_vector p x y vb ->
  (exists a b, vec_abp_from_rll x y p u v = Val (a, b) /\
     plus (scale a va) (scale b vb) = plus (scale u (east lon)) (scale v (north lon lat))) /\
  covec_abp_from_rll x y p u v =
    Val (dot (plus (scale u (east lon)) (scale v (north lon lat))) va,
         dot (plus (scale u (east lon)) (scale v (north lon lat))) vb).
Proof.
  intros p x y lon lat u v va vb H C E N A B. apply off_pole_guard in N.
  rewrite (velocity_unique _ _ _ _ A (alpha_velocity p x y H)), (velocity_unique _ _ _ _ B (beta_velocity p x y H)).
  split; [apply vec_abp_ok | apply covec_abp_ok]; auto.
Qed.
Theorem C36_to_lonlat : forall p x y lon lat va vb, panel p -> 0 < cos lat ->
  geo_point lon lat = sphere_point p x y -> alpha_vector p x y va -> beta_vector p x y vb ->
  (forall a b, exists u v, vec_rll_from_abp x y p a b = Val (u, v) /\
     plus (scale u (east lon)) (scale v (north lon lat)) = plus (scale a va) (scale b vb)) /\
  (off_pole p x y -> forall u v,
     covec_rll_from_abp x y p (dot (plus (scale u (east lon)) (scale v (north lon lat))) va)
       (dot (plus (scale u (east lon)) (scale v (north lon lat))) vb) = Val (u, v)).
Proof.
  intros p x y lon lat va vb H C E A B.
  rewrite (velocity_unique _ _ _ _ A (alpha_velocity p x y H)), (velocity_unique _ _ _ _ B (beta_velocity p x y H)).
  split; [intros; apply vec_rll_ok; auto |]. intros N u v. apply off_pole_guard in N. apply covec_rll_ok; auto.
Qed.
Theorem C36_inverse : forall p x y lon lat u v, panel p -> 0 < cos lat -> geo_point lon lat = sphere_point p x y ->
  off_pole p x y ->
  (exists a b, vec_abp_from_rll x y p u v = Val (a, b) /\ vec_rll_from_abp x y p a b = Val (u, v)) /\
  (exists a b, covec_abp_from_rll x y p u v = Val (a, b) /\ covec_rll_from_abp x y p a b = Val (u, v)).
Proof.
  intros p x y lon lat u v H C E N. apply off_pole_guard in N. split.
  - destruct (vec_abp_ok p x y lon lat u v H C E N) as (a & b & E1 & K1). exists a, b; split; auto.
    destruct (vec_rll_ok p x y lon lat a b H C E) as (u' & v' & E2 & K2). rewrite E2.
    rewrite K1 in K2. destruct (wind_inj _ _ _ _ _ _ K2) as [-> ->]; reflexivity.
  - do 2 eexists; split; [apply covec_abp_ok; eauto | apply covec_rll_ok; auto].
Qed.
(** between panels: the same vector in space *)
Theorem C36_panels : forall src dst x y xs ys va vb wa wb, panel src -> panel dst -> adjacent src dst ->
  xyp_from_xyp x y dst src = Val (xs, ys) ->
  alpha_vector src xs ys va -> beta_vector src xs ys vb -> alpha_vector dst x y wa -> beta_vector dst x y wb ->
  forall a b, exists a' b', vec_panel src dst a b x y = Val (a', b') /\
    plus (scale a' wa) (scale b' wb) = plus (scale a va) (scale b vb).
Proof.
  intros src dst x y xs ys va vb wa wb Hs Hd J E A B A' B' a b.
  rewrite (velocity_unique _ _ _ _ A (alpha_velocity _ _ _ Hs)), (velocity_unique _ _ _ _ B (beta_velocity _ _ _ Hs)).
  rewrite (velocity_unique _ _ _ _ A' (alpha_velocity _ _ _ Hd)), (velocity_unique _ _ _ _ B' (beta_velocity _ _ _ Hd)).
  apply vec_panel_ok; auto.
Qed.
(** and for covariant components: any components [c], [e] are those of a tangent vector [v], and the
    result has the components of the same [v] *)
Theorem C36_copanels : forall src dst x y xs ys va vb wa wb, panel src -> panel dst -> adjacent src dst ->
  xyp_from_xyp x y dst src = Val (xs, ys) ->
  alpha_vector src xs ys va -> beta_vector src xs ys vb -> alpha_vector dst x y wa -> beta_vector dst x y wb ->
  forall c e, exists a b, let v := plus (scale a va) (scale b vb) in
    c = dot v va /\ e = dot v vb /\ covec_panel src dst c e x y = Val (dot v wa, dot v wb).
Proof.
  intros src dst x y xs ys va vb wa wb Hs Hd J E A B A' B' c e.
  rewrite (velocity_unique _ _ _ _ A (alpha_velocity _ _ _ Hs)), (velocity_unique _ _ _ _ B (beta_velocity _ _ _ Hs)).
  rewrite (velocity_unique _ _ _ _ A' (alpha_velocity _ _ _ Hd)), (velocity_unique _ _ _ _ B' (beta_velocity _ _ _ Hd)).
  destruct (covector_exists src xs ys c e Hs) as (a & b & K1 & K2). exists a, b. cbv zeta in *.
  split; [auto | split; [auto |]]. rewrite <- K1, <- K2. apply covec_panel_ok; auto.
Qed.
Theorem C36_not_adjacent : forall src dst a b x y, panel src -> panel dst -> ~ adjacent src dst ->
  vec_panel src dst a b x y = Exc /\ covec_panel src dst a b x y = Exc.
Proof. exact panel_exc. Qed.

(** at the poles the longitude is free: the north pole is treated as a point of meridian 0 *)
Lemma frame_at_pole p : panel p -> alpha_at p 0 0 = in_frame p 1 0 0 /\ beta_at p 0 0 = in_frame p 0 1 0.
Proof.
  intros H; unfold alpha_at, beta_at. replace (1 + 0 * 0 + 0 * 0) with 1 by ring. rewrite sqrt_1, Rinv_1.
  panels H; cbn; split; apply vec3_eq; ring.
Qed.
Lemma pole_guard p : (p = 4 \/ p = 5)%Z -> at_pole 0 0 p = true.
Proof.
  intros H; unfold at_pole. rewrite Rabs_R0.
  assert (rltb 0 (/ 10 ^ 13) = true) as -> by (apply rltb_spec, Rinv_0_lt_compat; lra). destruct H; subst; reflexivity.
Qed.
Theorem C36_north_pole : forall u v va vb, alpha_vector 4 0 0 va -> beta_vector 4 0 0 vb ->
  geo_point 0 (PI / 2) = sphere_point 4 0 0 /\
  exists a b, vec_abp_from_rll 0 0 4 u v = Val (a, b) /\
    plus (scale a va) (scale b vb) = plus (scale u (east 0)) (scale v (north 0 (PI / 2))).
Proof.
  intros u v va vb A B. assert (H : panel 4) by (unfold panel; lia).
  rewrite (velocity_unique _ _ _ _ A (alpha_velocity 4 0 0 H)), (velocity_unique _ _ _ _ B (beta_velocity 4 0 0 H)).
  destruct (frame_at_pole 4 H) as [-> ->]. split.
  - unfold sphere_point; rewrite cube_norm by auto. replace (1 + 0 * 0 + 0 * 0) with 1 by ring. rewrite sqrt_1.
    unfold geo_point. rewrite cos_PI2, sin_PI2, cos_0, sin_0. cbn. apply vec3_eq; field.
  - unfold vec_abp_from_rll. rewrite pole_guard by auto. do 2 eexists; split; [reflexivity |].
    unfold east, north. rewrite cos_PI2, sin_PI2, cos_0, sin_0. cbn. apply vec3_eq; ring.
Qed.
(** the south pole is on no meridian at all *)
Theorem C36_south_pole_refuted : forall lon va vb, alpha_vector 5 0 0 va -> beta_vector 5 0 0 vb ->
  exists u v a b, vec_abp_from_rll 0 0 5 u v = Val (a, b) /\
    plus (scale a va) (scale b vb) <> plus (scale u (east lon)) (scale v (north lon (- (PI / 2)))).
Proof.
  intros lon va vb A B. assert (H : panel 5) by (unfold panel; lia).
  rewrite (velocity_unique _ _ _ _ A (alpha_velocity 5 0 0 H)), (velocity_unique _ _ _ _ B (beta_velocity 5 0 0 H)).
  destruct (frame_at_pole 5 H) as [-> ->]. unfold vec_abp_from_rll. rewrite pole_guard by auto.
  destruct (Req_EM_T (cos lon) (-1)) as [C | C].
  - exists 0, 1, (- 0), 1. split; [reflexivity |]. unfold east, north. rewrite sin_neg, sin_PI2, C. cbn.
    intros K; injection K; intros; lra.
  - exists 1, 0, (- (1)), 0. split; [reflexivity |]. unfold east, north. rewrite sin_neg, sin_PI2. cbn.
    intros K; injection K; intros; lra.
Qed.
(** the inverse has no guard *)
Theorem C36_pole_division_refuted : forall p a b, (p = 4 \/ p = 5)%Z -> vec_rll_from_abp 0 0 p a b = NotFinite.
Proof.
  intros p a b H. unfold vec_rll_from_abp. replace (0 * 0 + 0 * 0) with 0 by ring. rewrite sqrt_0.
  unfold over. destruct H; subst; cbn; destruct (Req_EM_T 0 0); auto; lra.
Qed.
(** inside the guard but off the pole the vector is turned *)
Theorem C36_guard_refuted : exists x y lon lat u v a b va vb, 0 < cos lat /\ geo_point lon lat = sphere_point 4 x y /\
  alpha_vector 4 x y va /\ beta_vector 4 x y vb /\ vec_abp_from_rll x y 4 u v = Val (a, b) /\
  plus (scale a va) (scale b vb) <> plus (scale u (east lon)) (scale v (north lon lat)).
Proof.
  set (x := / 10 ^ 14). assert (X : 0 < x < / 10 ^ 13) by (unfold x; lra).
  assert (H : panel 4) by (unfold panel; lia).
  destruct (lat_north_trig x 0) as [CN SN]. pose proof (sqrt_lt_R0 _ (sq_pos x 0)) as D.
  assert (Rr : sqrt (x * x + 0 * 0) = x) by (replace (x * x + 0 * 0) with (x * x) by ring; apply sqrt_square; lra).
  exists x, 0, (PI / 2), (lat_north x 0), 1, 0, 1, 0, (alpha_at 4 x 0), (beta_at 4 x 0).
  rewrite Rr in CN.
  split; [rewrite CN; apply Rdiv_lt_0_compat; lra |]. split.
  - unfold sphere_point; rewrite cube_norm by auto. unfold geo_point. rewrite CN, SN, cos_PI2, sin_PI2. cbn. apply vec3_eq; field; lra.
  - split; [apply alpha_velocity; auto |]. split; [apply beta_velocity; auto |]. split.
    + unfold vec_abp_from_rll, at_pole. rewrite Rabs_R0, (Rabs_right x) by lra.
      replace (rltb x (/ 10 ^ 13)) with true by (symmetry; apply rltb_spec; lra).
      replace (rltb 0 (/ 10 ^ 13)) with true by (symmetry; apply rltb_spec; lra). reflexivity.
    + unfold alpha_at, beta_at, east, north. rewrite cos_PI2, sin_PI2. cbn. intros K; injection K; intros _ _ K1. lra.
Qed.

(** ** Cases that meet the hypotheses *)
Example cs_panels_meet : panel 3 /\ panel 4 /\ adjacent 3 4 /\ ~ adjacent 0 2.
Proof. unfold panel, adjacent; cbn; repeat split; try lia; lra. Qed.
(** the point x = 1/2, y = 1 of panel 0 is seen from panel 4 *)
Example cs_visible : 0 < dot (cube_point 4 0 0) (sphere_point 0 (1 / 2) 1).
Proof.
  unfold sphere_point; rewrite cube_norm by (unfold panel; lia). pose proof (sqrt_lt_R0 _ (sq_pos (1 / 2) 1)) as D.
  apply Rinv_0_lt_compat in D. cbn. lra.
Qed.
(** a point of the north panel with its longitude and latitude *)
Example cs_polar_point : exists lon lat, rll_from_xyp (1 / 2) (1 / 3) 4 = Val (lon, lat) /\ 0 < cos lat /\
  geo_point lon lat = sphere_point 4 (1 / 2) (1 / 3) /\ off_pole 4 (1 / 2) (1 / 3).
Proof.
  assert (V : resolved 4 (1 / 2)).
  { right; left. rewrite Rabs_right by lra. unfold eps. apply (Rmult_lt_reg_r (2 ^ 52)); [lra |]. rewrite Rinv_l; lra. }
  assert (H : panel 4) by (unfold panel; lia).
  destruct (rll_total (1 / 2) (1 / 3) 4 H) as (lon & lat & E). exists lon, lat. split; [exact E |].
  split; [| split; [apply rll_point; auto |]].
  - destruct (rll_trig _ _ _ _ _ H V E) as (_ & B & _). destruct (B eq_refl) as (-> & _).
    apply Rdiv_lt_0_compat; apply sqrt_lt_R0; lra.
  - right; left. rewrite Rabs_right by lra. lra.
Qed.

Print Assumptions C35_sphere.
Print Assumptions C35_panels.
Print Assumptions C35_lonlat.
Print Assumptions C35_band_refuted.
Print Assumptions C35_from_lonlat.
Print Assumptions C35_round_trip.
Print Assumptions C35_round_trip_angles.
Print Assumptions C35_round_trip_lonlat.
Print Assumptions C36_tangent.
Print Assumptions C36_to_panel.
Print Assumptions C36_to_lonlat.
Print Assumptions C36_inverse.
Print Assumptions C36_panels.
Print Assumptions C36_copanels.
Print Assumptions C36_not_adjacent.
Print Assumptions C36_north_pole.
Print Assumptions C36_south_pole_refuted.
Print Assumptions C36_pole_division_refuted.
Print Assumptions C36_guard_refuted.
