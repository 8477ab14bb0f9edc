From Coq Require Import ZArith Reals Lra Lia Psatz Bool.
From Verif Require Import CsTransModel CsTransSpec CsTransProofs.
Local Open Scope R_scope.

(** the vector with components [tx], [ty], [tz] in the frame of a face *)
Definition in_frame (p : Z) (tx ty tz : R) : vec3 :=
  match p with
  | 0%Z => (tz, tx, ty) | 1%Z => (- tx, tz, ty) | 2%Z => (- tz, - tx, ty)
  | 3%Z => (tx, - tz, ty) | 4%Z => (- ty, tx, tz) | _ => (ty, tx, - tz)
  end.
Definition alpha_at (p : Z) (x y : R) : vec3 :=
  let s := / sqrt (1 + x * x + y * y) in let k := (1 + x * x) * (s * s * s) in
  in_frame p (k * (1 + y * y)) (k * - (x * y)) (k * - x).
Definition beta_at (p : Z) (x y : R) : vec3 :=
  let s := / sqrt (1 + x * x + y * y) in let k := (1 + y * y) * (s * s * s) in
  in_frame p (k * - (x * y)) (k * (1 + x * x)) (k * - y).

Lemma d_tan t : derivable_pt_lim tan (atan t) (1 + t * t).
Proof.
  assert (B : - PI / 2 < atan t < PI / 2) by (pose proof (atan_bound t); lra).
  apply (derive_pt_eq_1 tan (atan t) _ (derivable_pt_tan _ B)). rewrite derive_pt_tan, tan_atan. ring.
Qed.
(** the derivative along alpha of the components of the point in the frame *)
Lemma d_rsqrt c t : 0 < c -> derivable_pt_lim (fun s => / sqrt (c + tan s * tan s)) (atan t)
  (- t * (1 + t * t) * (/ sqrt (c + t * t) * / sqrt (c + t * t) * / sqrt (c + t * t))).
Proof.
  intros C. assert (P : 0 < c + t * t) by nra.
  pose proof (sqrt_lt_R0 _ P) as SP.
  assert (T : tan (atan t) = t) by apply tan_atan.
  pose proof (d_tan t) as DT.
  assert (DI : derivable_pt_lim (fun s => c + tan s * tan s) (atan t) (0 + ((1 + t * t) * tan (atan t) + tan (atan t) * (1 + t * t)))).
  { apply (derivable_pt_lim_plus (fct_cte c) (tan * tan)%F); [apply derivable_pt_lim_const | apply derivable_pt_lim_mult; auto]. }
  assert (V : c + tan (atan t) * tan (atan t) = c + t * t) by (rewrite T; auto).
  assert (DS : derivable_pt_lim (fun s => sqrt (c + tan s * tan s)) (atan t)
     (/ (2 * sqrt (c + t * t)) * (0 + ((1 + t * t) * tan (atan t) + tan (atan t) * (1 + t * t))))).
  { apply (derivable_pt_lim_comp (fun s => c + tan s * tan s) sqrt); auto. rewrite V.
    apply derivable_pt_lim_sqrt; auto. }
  assert (NZ : sqrt (c + tan (atan t) * tan (atan t)) <> 0) by (rewrite V; lra).
  pose proof (derivable_pt_lim_div (fct_cte 1) (fun s => sqrt (c + tan s * tan s)) (atan t) 0 _
     (derivable_pt_lim_const 1 (atan t)) DS NZ) as DD.
  assert (EX : forall f g u l l', (forall s, f s = g s) -> l = l' -> derivable_pt_lim f u l -> derivable_pt_lim g u l').
  { intros f g u l l' FG <- D e He. destruct (D e He) as [del K]. exists del. intros h h0 h1.
    rewrite <- !FG. auto. }
  eapply EX; [| | exact DD].
  - intros s. unfold div_fct, fct_cte. unfold Rdiv. ring.
  - unfold fct_cte, Rsqr. rewrite V, T. field. lra.
Qed.
Lemma lim_ext f g u l l' : (forall s, f s = g s) -> l = l' -> derivable_pt_lim f u l -> derivable_pt_lim g u l'.
Proof.
  intros FG <- D e He. destruct (D e He) as [del K]. exists del. intros h h0 h1. rewrite <- !FG. auto.
Qed.
Lemma scaled_comp (f : R -> R) (c : R) u l : derivable_pt_lim f u l -> derivable_pt_lim (fun s => c * f s) u (c * l).
Proof. intros D. apply (derivable_pt_lim_scal f c u l D). Qed.

Lemma sphere_frame p x y : panel p -> sphere_point p x y =
  in_frame p (/ sqrt (1 + x * x + y * y) * x) (/ sqrt (1 + x * x + y * y) * y) (/ sqrt (1 + x * x + y * y)).
Proof. intros H; unfold sphere_point; rewrite (cube_norm p x y H). panels H; cbn; apply vec3_eq; ring. Qed.
Lemma velocity_frame p (fx fy fz : R -> R) t a b c : panel p ->
  derivable_pt_lim fx t a -> derivable_pt_lim fy t b -> derivable_pt_lim fz t c ->
  velocity (fun s => in_frame p (fx s) (fy s) (fz s)) t (in_frame p a b c).
Proof.
  intros H A B C.
  assert (NEG : forall f l, derivable_pt_lim f t l -> derivable_pt_lim (fun s => - f s) t (- l)).
  { intros f l D. apply (derivable_pt_lim_opp f t l D). }
  panels H; cbn; repeat split; auto.
Qed.
Lemma velocity_ext f g t v : (forall s, f s = g s) -> velocity f t v -> velocity g t v.
Proof.
  intros E. destruct v as [[a b] c]. unfold velocity. intros (A & B & C).
  repeat split; (eapply lim_ext; [| reflexivity | eassumption]); intros s; cbn; rewrite E; reflexivity.
Qed.
Lemma velocity_unique f t u v : velocity f t u -> velocity f t v -> u = v.
Proof.
  destruct u as [[a b] c], v as [[a' b'] c']. intros (A & B & C) (A' & B' & C').
  apply vec3_eq; eapply uniqueness_limite; eauto.
Qed.
Lemma alpha_velocity p x y : panel p -> alpha_vector p x y (alpha_at p x y).
Proof.
  intros H. unfold alpha_vector, alpha_at; cbv zeta.
  assert (C : 0 < 1 + y * y) by nra. pose proof (d_rsqrt (1 + y * y) x C) as D.
  replace (1 + y * y + x * x) with (1 + x * x + y * y) in D by ring.
  pose proof (sqrt_lt_R0 _ (sq_pos x y)) as SP. pose proof (sqrt_sqrt _ (Rlt_le _ _ (sq_pos x y))) as Q.
  assert (D' : derivable_pt_lim (fun a => / sqrt (1 + tan a * tan a + y * y)) (atan x)
     ((1 + x * x) * (/ sqrt (1 + x * x + y * y) * / sqrt (1 + x * x + y * y) * / sqrt (1 + x * x + y * y)) * - x)).
  { eapply lim_ext; [| | exact D]; [intros s; cbn beta; replace (1 + y * y + tan s * tan s) with (1 + tan s * tan s + y * y) by ring; reflexivity | ring]. }
  set (s := / sqrt (1 + x * x + y * y)) in *.
  assert (S2 : s * s * (1 + x * x + y * y) = 1) by (unfold s; rewrite <- Q at 3; field; lra).
  apply (velocity_ext (fun a => in_frame p (/ sqrt (1 + tan a * tan a + y * y) * tan a)
     (/ sqrt (1 + tan a * tan a + y * y) * y) (/ sqrt (1 + tan a * tan a + y * y)))).
  { intros a; symmetry; apply sphere_frame; auto. }
  apply velocity_frame; auto.
  - pose proof (derivable_pt_lim_mult (fun a => / sqrt (1 + tan a * tan a + y * y)) tan (atan x) _ _ D' (d_tan x)) as M.
    cbn in M. eapply lim_ext; [| | exact M]; [reflexivity |]. rewrite tan_atan. fold s.
    transitivity ((1 + x * x) * s * (s * s * (1 + x * x + y * y) - s * s * (x * x))); [rewrite S2; ring | ring].
  - eapply lim_ext; [| | apply (scaled_comp _ y _ _ D')]; [intros; cbn; ring | ring].
Qed.
Lemma beta_velocity p x y : panel p -> beta_vector p x y (beta_at p x y).
Proof.
  intros H. unfold beta_vector, beta_at; cbv zeta.
  assert (C : 0 < 1 + x * x) by nra. pose proof (d_rsqrt (1 + x * x) y C) as D.
  pose proof (sqrt_lt_R0 _ (sq_pos x y)) as SP. pose proof (sqrt_sqrt _ (Rlt_le _ _ (sq_pos x y))) as Q.
  assert (D' : derivable_pt_lim (fun a => / sqrt (1 + x * x + tan a * tan a)) (atan y)
     ((1 + y * y) * (/ sqrt (1 + x * x + y * y) * / sqrt (1 + x * x + y * y) * / sqrt (1 + x * x + y * y)) * - y)).
  { eapply lim_ext; [| | exact D]; [reflexivity | ring]. }
  set (s := / sqrt (1 + x * x + y * y)) in *.
  assert (S2 : s * s * (1 + x * x + y * y) = 1) by (unfold s; rewrite <- Q at 3; field; lra).
  apply (velocity_ext (fun a => in_frame p (/ sqrt (1 + x * x + tan a * tan a) * x)
     (/ sqrt (1 + x * x + tan a * tan a) * tan a) (/ sqrt (1 + x * x + tan a * tan a)))).
  { intros a; symmetry; apply sphere_frame; auto. }
  apply velocity_frame; auto.
  - eapply lim_ext; [| | apply (scaled_comp _ x _ _ D')]; [intros; cbn; ring | ring].
  - pose proof (derivable_pt_lim_mult (fun a => / sqrt (1 + x * x + tan a * tan a)) tan (atan y) _ _ D' (d_tan y)) as M.
    cbn in M. eapply lim_ext; [| | exact M]; [reflexivity |]. rewrite tan_atan. fold s.
    transitivity ((1 + y * y) * s * (s * s * (1 + x * x + y * y) - s * s * (y * y))); [rewrite S2; ring | ring].
Qed.

Lemma pos_square u w : 0 < u -> 0 <= w -> u * u = w * w -> u = w.
Proof. intros. nra. Qed.
(** the trigonometric functions of any longitude and latitude of a point other than a pole *)
Lemma geo_trig p x y lon lat : panel p -> 0 < cos lat -> geo_point lon lat = sphere_point p x y ->
  let q := sqrt (1 + x * x) in let d := sqrt (1 + x * x + y * y) in let r := sqrt (x * x + y * y) in
  ((p <= 3)%Z -> cos lat = q / d /\ sin lat = y / d) /\
  (p = 0%Z -> cos lon = 1 / q /\ sin lon = x / q) /\ (p = 1%Z -> cos lon = - x / q /\ sin lon = 1 / q) /\
  (p = 2%Z -> cos lon = - 1 / q /\ sin lon = - x / q) /\ (p = 3%Z -> cos lon = x / q /\ sin lon = - 1 / q) /\
  (p = 4%Z -> r <> 0 /\ cos lat = r / d /\ sin lat = 1 / d /\ cos lon = - y / r /\ sin lon = x / r) /\
  (p = 5%Z -> r <> 0 /\ cos lat = r / d /\ sin lat = - 1 / d /\ cos lon = y / r /\ sin lon = x / r).
Proof.
  intros H CL E q d r.
  pose proof (sin2_cos2 lon) as T; unfold Rsqr in T.
  pose proof (sqrt_lt_R0 _ (sq_pos1 x)) as Q0; fold q in Q0. pose proof (sqrt_lt_R0 _ (sq_pos x y)) as D0; fold d in D0.
  pose proof (sqrt_sqrt _ (Rlt_le _ _ (sq_pos1 x))) as Q; fold q in Q. pose proof (sqrt_sqrt _ (Rlt_le _ _ (sq_pos x y))) as D; fold d in D.
  assert (R2 : 0 <= x * x + y * y) by nra. pose proof (sqrt_sqrt _ R2) as R1; fold r in R1. pose proof (sqrt_pos (x * x + y * y)) as R0; fold r in R0.
  rewrite (sphere_frame p x y H) in E. fold d in E. unfold geo_point in E.
  assert (DI : 0 < / d) by (apply Rinv_0_lt_compat; auto).
  assert (SC : forall w, 0 <= w -> cos lat * cos lat = w * w * (/ d * / d) -> cos lat = w / d).
  { intros w W K. apply pos_square; [auto | unfold Rdiv; nra | rewrite K; unfold Rdiv; ring]. }
  assert (K : cos lat * cos lat = (cos lon * cos lat) * (cos lon * cos lat) + (sin lon * cos lat) * (sin lon * cos lat)).
  { replace (cos lat * cos lat) with ((sin lon * sin lon + cos lon * cos lon) * (cos lat * cos lat)) at 1 by (rewrite T; ring). ring. }
  assert (DV : forall w a b, 0 < w -> cos lat = w / d -> a * cos lat = b * / d -> a = b / w).
  { intros w a b W E1 E2. rewrite E1 in E2. apply (Rmult_eq_reg_r (w / d)); [rewrite E2; field; lra | unfold Rdiv; apply Rgt_not_eq; nra]. }
  assert (EQ : cos lat = q / d -> forall a b, a * cos lat = b * / d -> a = b / q) by (intros E1 a b; apply DV; auto).
  assert (RN : cos lat = r / d -> r <> 0) by (intros E1 Z0; rewrite E1, Z0 in CL; unfold Rdiv in CL; lra).
  panels H; cbn in E; injection E; intros EZ EY EX; clear E.
  1-4: assert (C0 : cos lat = q / d) by (apply SC; [lra |]; rewrite K, EX, EY, Q; ring).
  1-4: repeat split; intros; try discriminate; try lia; auto; try (apply (EQ C0); rewrite ?EX, ?EY; ring); rewrite ?EZ; unfold Rdiv; ring.
  - assert (C0 : cos lat = r / d) by (apply SC; [lra |]; rewrite K, EX, EY, R1; ring).
    assert (0 < r) by (pose proof (RN C0); lra).
    repeat split; intros; try discriminate; try lia; auto; try (apply (DV r); [lra | auto | rewrite ?EX, ?EY; ring]); rewrite ?EZ; unfold Rdiv; ring.
  - assert (C0 : cos lat = r / d) by (apply SC; [lra |]; rewrite K, EX, EY, R1; ring).
    assert (0 < r) by (pose proof (RN C0); lra).
    repeat split; intros; try discriminate; try lia; auto; try (apply (DV r); [lra | auto | rewrite ?EX, ?EY; ring]); rewrite ?EZ; unfold Rdiv; ring.
Qed.

Definition wind (lon lat u v : R) : vec3 := plus (scale u (east lon)) (scale v (north lon lat)).
Lemma over_nz {A} (d : R) (r : res A) : d <> 0 -> over d r = r.
Proof. unfold over; intros; destruct (Req_EM_T d 0); [contradiction | auto]. Qed.
Lemma geo_lat p x y lon lat : panel p -> 0 < cos lat -> geo_point lon lat = sphere_point p x y ->
  cos (if equatorial p then lat_eq x y else if (p =? 4)%Z then lat_north x y else lat_south x y) = cos lat /\
  cos (lat_north x y) = cos (lat_south x y).
Proof.
  intros H CL E. destruct (geo_trig p x y lon lat H CL E) as (A & _ & _ & _ & _ & B & C). cbv zeta in *.
  destruct (lat_eq_trig x y) as [CE _], (lat_north_trig x y) as [CN _], (lat_south_trig x y) as [CS _].
  split; [| rewrite CN, CS; reflexivity].
  panels H; cbn; rewrite ?CE, ?CN, ?CS; symmetry;
    first [apply A; lia | apply (B eq_refl) | apply (C eq_refl)].
Qed.

Ltac facts x y :=
  pose proof (sqrt_lt_R0 _ (sq_pos1 x)) as Q0; pose proof (sqrt_lt_R0 _ (sq_pos x y)) as D0;
  pose proof (sqrt_sqrt _ (Rlt_le _ _ (sq_pos1 x))) as Q; pose proof (sqrt_sqrt _ (Rlt_le _ _ (sq_pos x y))) as D;
  assert (R2 : 0 <= x * x + y * y) by nra; pose proof (sqrt_sqrt _ R2) as R1;
  pose proof (sq_pos1 x) as PX; pose proof (sq_pos1 y) as PY; pose proof (sq_pos x y) as PD;
  set (q := sqrt (1 + x * x)) in *; set (d := sqrt (1 + x * x + y * y)) in *; set (r := sqrt (x * x + y * y)) in *.

Lemma vec_abp_ok p x y lon lat u v : panel p -> 0 < cos lat -> geo_point lon lat = sphere_point p x y ->
  at_pole x y p = false -> exists a b, vec_abp_from_rll x y p u v = Val (a, b) /\
  plus (scale a (alpha_at p x y)) (scale b (beta_at p x y)) = wind lon lat u v.
Proof.
  intros H CL E NP. destruct (geo_trig p x y lon lat H CL E) as (A & A0 & A1 & A2 & A3 & A4 & A5). cbv zeta in *.
  destruct (geo_lat p x y lon lat H CL E) as [GL _].
  unfold vec_abp_from_rll, alpha_at, beta_at, wind, east, north; cbv zeta. rewrite NP. clear NP E.
  facts x y.
  panels H; cbn in GL |- *; rewrite GL; rewrite !over_nz by (try (apply (A4 eq_refl)); try (apply (A5 eq_refl)); lra);
    do 2 eexists; (split; [reflexivity |]).
  1-4: destruct A as [CA SA]; [lia |].
  - destruct (A0 eq_refl) as [-> ->]; rewrite CA, SA; apply vec3_eq; field_simplify_eq; try (repeat split; nra); ring [Q D].
  - destruct (A1 eq_refl) as [-> ->]; rewrite CA, SA; apply vec3_eq; field_simplify_eq; try (repeat split; nra); ring [Q D].
  - destruct (A2 eq_refl) as [-> ->]; rewrite CA, SA; apply vec3_eq; field_simplify_eq; try (repeat split; nra); ring [Q D].
  - destruct (A3 eq_refl) as [-> ->]; rewrite CA, SA; apply vec3_eq; field_simplify_eq; try (repeat split; nra); ring [Q D].
  - destruct (A4 eq_refl) as (RN & CA & SA & -> & ->); rewrite CA, SA; apply vec3_eq; field_simplify_eq; try (repeat split; nra); ring [R1 D].
  - destruct (A5 eq_refl) as (RN & CA & SA & -> & ->); rewrite CA, SA; apply vec3_eq; field_simplify_eq; try (repeat split; nra); ring [R1 D].
Qed.

Lemma vec_rll_ok p x y lon lat a b : panel p -> 0 < cos lat -> geo_point lon lat = sphere_point p x y ->
  exists u v, vec_rll_from_abp x y p a b = Val (u, v) /\
  wind lon lat u v = plus (scale a (alpha_at p x y)) (scale b (beta_at p x y)).
Proof.
  intros H CL E. destruct (geo_trig p x y lon lat H CL E) as (A & A0 & A1 & A2 & A3 & A4 & A5). cbv zeta in *.
  destruct (geo_lat p x y lon lat H CL E) as [GL _].
  unfold vec_rll_from_abp, alpha_at, beta_at, wind, east, north; cbv zeta. clear E.
  facts x y.
  panels H; cbn in GL |- *; rewrite GL; rewrite ?over_nz by (try (apply (A4 eq_refl)); try (apply (A5 eq_refl)); lra);
    do 2 eexists; (split; [reflexivity |]).
  1-4: destruct A as [CA SA]; [lia |].
  - destruct (A0 eq_refl) as [-> ->]; rewrite CA, SA; apply vec3_eq; field_simplify_eq; try (repeat split; nra); ring [Q D].
  - destruct (A1 eq_refl) as [-> ->]; rewrite CA, SA; apply vec3_eq; field_simplify_eq; try (repeat split; nra); ring [Q D].
  - destruct (A2 eq_refl) as [-> ->]; rewrite CA, SA; apply vec3_eq; field_simplify_eq; try (repeat split; nra); ring [Q D].
  - destruct (A3 eq_refl) as [-> ->]; rewrite CA, SA; apply vec3_eq; field_simplify_eq; try (repeat split; nra); ring [Q D].
  - destruct (A4 eq_refl) as (RN & CA & SA & -> & ->); rewrite CA, SA; apply vec3_eq; field_simplify_eq; try (repeat split; nra); ring [R1 D].
  - destruct (A5 eq_refl) as (RN & CA & SA & -> & ->); rewrite CA, SA; apply vec3_eq; field_simplify_eq; try (repeat split; nra); ring [R1 D].
Qed.
Lemma covec_abp_ok p x y lon lat u v : panel p -> 0 < cos lat -> geo_point lon lat = sphere_point p x y ->
  at_pole x y p = false ->
  covec_abp_from_rll x y p u v = Val (dot (wind lon lat u v) (alpha_at p x y), dot (wind lon lat u v) (beta_at p x y)).
Proof.
  intros H CL E NP. destruct (geo_trig p x y lon lat H CL E) as (A & A0 & A1 & A2 & A3 & A4 & A5). cbv zeta in *.
  destruct (geo_lat p x y lon lat H CL E) as [GL _].
  unfold covec_abp_from_rll, alpha_at, beta_at, wind, east, north; cbv zeta. rewrite NP. clear NP E.
  facts x y.
  panels H; cbn in GL |- *; rewrite GL; rewrite !over_nz by (try (apply (A4 eq_refl)); try (apply (A5 eq_refl)); lra);
    apply f_equal.
  1-4: destruct A as [CA SA]; [lia |].
  - destruct (A0 eq_refl) as [-> ->]; rewrite CA, SA; apply f_equal2; field_simplify_eq; try (repeat split; nra); ring [Q D].
  - destruct (A1 eq_refl) as [-> ->]; rewrite CA, SA; apply f_equal2; field_simplify_eq; try (repeat split; nra); ring [Q D].
  - destruct (A2 eq_refl) as [-> ->]; rewrite CA, SA; apply f_equal2; field_simplify_eq; try (repeat split; nra); ring [Q D].
  - destruct (A3 eq_refl) as [-> ->]; rewrite CA, SA; apply f_equal2; field_simplify_eq; try (repeat split; nra); ring [Q D].
  - destruct (A4 eq_refl) as (RN & CA & SA & -> & ->); rewrite CA, SA; apply f_equal2; field_simplify_eq; try (repeat split; nra); ring [R1 D].
  - destruct (A5 eq_refl) as (RN & CA & SA & -> & ->); rewrite CA, SA; apply f_equal2; field_simplify_eq; try (repeat split; nra); ring [R1 D].
Qed.
Lemma covec_rll_ok p x y lon lat u v : panel p -> 0 < cos lat -> geo_point lon lat = sphere_point p x y ->
  at_pole x y p = false ->
  covec_rll_from_abp x y p (dot (wind lon lat u v) (alpha_at p x y)) (dot (wind lon lat u v) (beta_at p x y)) = Val (u, v).
Proof.
  intros H CL E NP. destruct (geo_trig p x y lon lat H CL E) as (A & A0 & A1 & A2 & A3 & A4 & A5). cbv zeta in *.
  destruct (geo_lat p x y lon lat H CL E) as [GL GS].
  unfold covec_rll_from_abp, alpha_at, beta_at, wind, east, north; cbv zeta. rewrite NP. clear NP E.
  facts x y.
  panels H; cbn in GL |- *; first [rewrite GL | rewrite GS, GL]; rewrite ?over_nz by (try (apply (A4 eq_refl)); try (apply (A5 eq_refl)); lra);
    apply f_equal.
  1-4: destruct A as [CA SA]; [lia |].
  - destruct (A0 eq_refl) as [-> ->]; rewrite CA, SA; apply f_equal2; field_simplify_eq; try (repeat split; nra); ring [Q D].
  - destruct (A1 eq_refl) as [-> ->]; rewrite CA, SA; apply f_equal2; field_simplify_eq; try (repeat split; nra); ring [Q D].
  - destruct (A2 eq_refl) as [-> ->]; rewrite CA, SA; apply f_equal2; field_simplify_eq; try (repeat split; nra); ring [Q D].
  - destruct (A3 eq_refl) as [-> ->]; rewrite CA, SA; apply f_equal2; field_simplify_eq; try (repeat split; nra); ring [Q D].
  - destruct (A4 eq_refl) as (RN & CA & SA & -> & ->); rewrite CA, SA; apply f_equal2; field_simplify_eq; try (repeat split; nra); ring [R1 D].
  - destruct (A5 eq_refl) as (RN & CA & SA & -> & ->); rewrite CA, SA; apply f_equal2; field_simplify_eq; try (repeat split; nra); ring [R1 D].
Qed.
