From Coq Require Import ZArith Reals Lra Lia Psatz Bool.
From Verif Require Import CsTransModel CsTransSpec CsTransProofs CsTransVecProofs.
Local Open Scope R_scope.

Definition alpha_s (p : Z) (s x y : R) : vec3 :=
  let k := (1 + x * x) * (s * s * s) in in_frame p (k * (1 + y * y)) (k * - (x * y)) (k * - x).
Definition beta_s (p : Z) (s x y : R) : vec3 :=
  let k := (1 + y * y) * (s * s * s) in in_frame p (k * - (x * y)) (k * (1 + x * x)) (k * - y).

(** the same point seen from two faces *)
Lemma two_faces src dst x y xs ys : panel src -> panel dst -> xyp_from_xyp x y dst src = Val (xs, ys) ->
  exists s t, 0 < s /\ 0 < t /\ alpha_at dst x y = alpha_s dst s x y /\ beta_at dst x y = beta_s dst s x y /\
    alpha_at src xs ys = alpha_s src t xs ys /\ beta_at src xs ys = beta_s src t xs ys /\
    scale s (cube_point dst x y) = scale t (cube_point src xs ys).
Proof.
  intros Hs Hd E.
  destruct (xyp_xyp x y dst src Hd Hs) as [A B].
  destruct (Rlt_or_le 0 (dot (cube_point src 0 0) (sphere_point dst x y))) as [L | L]; [| rewrite B in E by auto; discriminate].
  destruct (A L) as (x' & y' & E' & P). rewrite E in E'; injection E'; intros; subst x' y'.
  exists (/ sqrt (1 + x * x + y * y)), (/ sqrt (1 + xs * xs + ys * ys)).
  repeat split; try (apply Rinv_0_lt_compat, sqrt_lt_R0, sq_pos).
  unfold sphere_point in P. rewrite !cube_norm in P by auto. symmetry; exact P.
Qed.

Lemma alpha_hom p t x y : t <> 0 -> alpha_s p t x y = let u := t * x in let w := t * y in
  in_frame p ((t * t + u * u) * (t * t + w * w) / t) (- ((t * t + u * u) * (u * w)) / t) (- ((t * t + u * u) * u)).
Proof. intros T; unfold alpha_s; cbv zeta. f_equal; field; auto. Qed.
Lemma beta_hom p t x y : t <> 0 -> beta_s p t x y = let u := t * x in let w := t * y in
  in_frame p (- ((t * t + w * w) * (u * w)) / t) ((t * t + u * u) * (t * t + w * w) / t) (- ((t * t + w * w) * w)).
Proof. intros T; unfold beta_s; cbv zeta. f_equal; field; auto. Qed.

Ltac solve_for t s x y := let E := fresh "E" in
  first [ assert (E : t = s) by lra | assert (E : t = - s) by lra | assert (E : t = s * x) by lra
        | assert (E : t = - (s * x)) by lra | assert (E : t = s * y) by lra | assert (E : t = - (s * y)) by lra ].
Ltac vec_unfold := unfold vec_p2_p1, vec_p1_p2, vec_p5_p1, vec_p1_p5, vec_p5_p2, vec_p2_p5, vec_p5_p3, vec_p3_p5, vec_p5_p4,
  vec_p4_p5, vec_p6_p1, vec_p1_p6, vec_p6_p2, vec_p2_p6, vec_p6_p3, vec_p3_p6, vec_p6_p4, vec_p4_p6.

Lemma vec_panel_ok src dst x y xs ys a b : panel src -> panel dst -> adjacent src dst ->
  xyp_from_xyp x y dst src = Val (xs, ys) ->
  exists a' b', vec_panel src dst a b x y = Val (a', b') /\
    plus (scale a' (alpha_at dst x y)) (scale b' (beta_at dst x y)) =
    plus (scale a (alpha_at src xs ys)) (scale b (beta_at src xs ys)).
Proof.
  intros Hs Hd J E. destruct (two_faces _ _ _ _ _ _ Hs Hd E) as (s & t & Ps & Pt & -> & -> & -> & -> & K). clear E.
  rewrite (alpha_hom src t xs ys), (beta_hom src t xs ys) by lra.
  assert (K' : scale s (cube_point dst x y) = in_frame src (t * xs) (t * ys) t).
  { rewrite K. panels Hs; cbn; apply vec3_eq; ring. }
  clear K. cbv zeta. generalize dependent (t * ys). generalize dependent (t * xs). clear xs ys. intros u w K.
  pose proof (sq_pos1 x); pose proof (sq_pos1 y).
  panels Hs; panels Hd; unfold adjacent in J; cbn in J; try (exfalso; lra); clear J; cbn in K; injection K; intros K3 K2 K1; clear K.
  all: solve_for t s x y; solve_for u s x y; solve_for w s x y; clear K1 K2 K3; subst u w t.
  all: cbn -[over plus scale alpha_s beta_s in_frame]; vec_unfold;
    first [ rewrite over_nz by (intros ->; lra) ]; do 2 eexists; (split; [reflexivity |]).
  all: cbn; apply vec3_eq; field; repeat split; first [lra | intros ->; lra].
Qed.

Ltac covec_unfold := unfold covec_p2_p1, covec_p1_p2, covec_p5_p1, covec_p1_p5, covec_p5_p2, covec_p2_p5, covec_p5_p3,
  covec_p3_p5, covec_p5_p4, covec_p4_p5, covec_p6_p1, covec_p1_p6, covec_p6_p2, covec_p2_p6, covec_p6_p3, covec_p3_p6,
  covec_p6_p4, covec_p4_p6.
(** a tangent vector is determined by its products with the coordinate vectors; the components
    of one vector on both panels *)
Lemma covec_panel_ok src dst x y xs ys a b : panel src -> panel dst -> adjacent src dst ->
  xyp_from_xyp x y dst src = Val (xs, ys) ->
  let v := plus (scale a (alpha_at src xs ys)) (scale b (beta_at src xs ys)) in
  covec_panel src dst (dot v (alpha_at src xs ys)) (dot v (beta_at src xs ys)) x y =
  Val (dot v (alpha_at dst x y), dot v (beta_at dst x y)).
Proof.
  intros Hs Hd J E. destruct (two_faces _ _ _ _ _ _ Hs Hd E) as (s & t & Ps & Pt & -> & -> & -> & -> & K). clear E.
  rewrite (alpha_hom src t xs ys), (beta_hom src t xs ys) by lra.
  assert (K' : scale s (cube_point dst x y) = in_frame src (t * xs) (t * ys) t).
  { rewrite K. panels Hs; cbn; apply vec3_eq; ring. }
  clear K. cbv zeta. generalize dependent (t * ys). generalize dependent (t * xs). clear xs ys. intros u w K.
  pose proof (sq_pos1 x); pose proof (sq_pos1 y).
  panels Hs; panels Hd; unfold adjacent in J; cbn in J; try (exfalso; lra); clear J; cbn in K; injection K; intros K3 K2 K1; clear K.
  all: solve_for t s x y; solve_for u s x y; solve_for w s x y; clear K1 K2 K3; subst u w t.
  all: assert (x <> 0 \/ y <> 0) by (first [left; intros ->; lra | right; intros ->; lra]).
  all: assert (x * x + y * y <> 0) by (intros Z0; assert (x = 0) by nra; assert (y = 0) by nra; tauto).
  all: cbn -[over plus scale dot alpha_s beta_s in_frame]; covec_unfold; cbv zeta; rewrite over_nz by assumption; apply f_equal.
  all: cbn; apply f_equal2; field; repeat split; first [assumption | lra | intros ->; lra].
Qed.
(** any other pair of panels *)
Lemma panel_exc src dst a b x y : panel src -> panel dst -> ~ adjacent src dst ->
  vec_panel src dst a b x y = Exc /\ covec_panel src dst a b x y = Exc.
Proof.
  intros Hs Hd J. unfold adjacent in J.
  panels Hs; panels Hd; cbn in J; try (exfalso; apply J; ring); split; reflexivity.
Qed.

(** every pair of covariant components belongs to a tangent vector *)
Lemma covector_exists p x y c e : panel p -> exists a b,
  let v := plus (scale a (alpha_at p x y)) (scale b (beta_at p x y)) in
  dot v (alpha_at p x y) = c /\ dot v (beta_at p x y) = e.
Proof.
  intros H. pose proof (sqrt_lt_R0 _ (sq_pos x y)) as D0. pose proof (sqrt_sqrt _ (Rlt_le _ _ (sq_pos x y))) as D.
  pose proof (sq_pos1 x); pose proof (sq_pos1 y).
  exists (((1 + y * y) * c + x * y * e) * (1 + x * x + y * y) / ((1 + x * x) * (1 + y * y))),
         (((1 + x * x) * e + x * y * c) * (1 + x * x + y * y) / ((1 + x * x) * (1 + y * y))).
  unfold alpha_at, beta_at. set (d := sqrt (1 + x * x + y * y)) in *.
  panels H; cbn; split; field_simplify_eq; try (repeat split; nra); ring [D].
Qed.
Lemma wind_inj lon lat u v u' v' : wind lon lat u v = wind lon lat u' v' -> u = u' /\ v = v'.
Proof.
  intros E. assert (A : dot (wind lon lat u v) (east lon) = dot (wind lon lat u' v') (east lon)) by (rewrite E; auto).
  assert (B : dot (wind lon lat u v) (north lon lat) = dot (wind lon lat u' v') (north lon lat)) by (rewrite E; auto).
  pose proof (sin2_cos2 lon) as T; pose proof (sin2_cos2 lat) as T'; unfold Rsqr in T, T'.
  assert (K : forall a b, dot (wind lon lat a b) (east lon) = a /\ dot (wind lon lat a b) (north lon lat) = b).
  { intros a b; unfold wind; cbn. split.
    - transitivity (a * (sin lon * sin lon + cos lon * cos lon)); [ring | rewrite T; ring].
    - transitivity (b * (sin lat * sin lat * (sin lon * sin lon + cos lon * cos lon) + cos lat * cos lat)); [ring | rewrite T; rewrite Rmult_1_r, T'; ring]. }
  destruct (K u v) as [K1 K2], (K u' v') as [K3 K4]. rewrite K1, K3 in A. rewrite K2, K4 in B. auto.
Qed.

Lemma sin_zero t : - PI < t < PI -> sin t = 0 -> t = 0.
Proof.
  intros B Z0. destruct (Rtotal_order t 0) as [L | [L | L]]; auto; exfalso.
  - pose proof (sin_gt_0 (- t)). rewrite sin_neg in H. lra.
  - pose proof (sin_gt_0 t). lra.
Qed.
Lemma angle_unique a b : 0 <= a < 2 * PI -> 0 <= b < 2 * PI -> cos a = cos b -> sin a = sin b -> a = b.
Proof.
  intros A B C S0. assert (K : cos (2 * ((a - b) / 2)) = 1).
  { replace (2 * ((a - b) / 2)) with (a - b) by field. rewrite cos_minus, C, S0.
    pose proof (sin2_cos2 b); unfold Rsqr in *; lra. }
  rewrite cos_2a_sin in K. assert (sin ((a - b) / 2) = 0) by nra.
  assert ((a - b) / 2 = 0) by (apply sin_zero; lra). lra.
Qed.
Lemma lat_unique a b : - PI / 2 <= a <= PI / 2 -> - PI / 2 <= b <= PI / 2 -> sin a = sin b -> a = b.
Proof.
  intros A B E. destruct (Rtotal_order a b) as [L | [L | L]]; auto; exfalso.
  - assert (sin a < sin b) by (apply sin_increasing_1; lra). lra.
  - assert (sin b < sin a) by (apply sin_increasing_1; lra). lra.
Qed.
Lemma geo_inj lon lat lon' lat' : 0 <= lon < 2 * PI -> 0 <= lon' < 2 * PI -> - PI / 2 < lat < PI / 2 ->
  - PI / 2 <= lat' <= PI / 2 -> geo_point lon lat = geo_point lon' lat' -> lon = lon' /\ lat = lat'.
Proof.
  intros A A' B B' E. unfold geo_point in E. injection E; intros E3 E2 E1.
  assert (lat = lat') by (apply lat_unique; lra). subst lat'.
  assert (0 < cos lat) by (apply cos_gt_0; lra). split; auto.
  apply angle_unique; auto; apply (Rmult_eq_reg_r (cos lat)); lra.
Qed.
