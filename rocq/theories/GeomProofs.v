(** * Proofs about the metric terms *)
From Coq Require Import ZArith Reals List Bool Lra Lia.
From Verif Require Import CsTransSpec CsTransModel CsTransProofs CsTransVecProofs GeomSpec ShallowModel LevModel GeomModel.
Import ListNotations.
Local Open Scope R_scope.

Lemma gt1 x : 0 < 1 + x * x. Proof. nra. Qed.
Lemma gt2 x y : 0 < 1 + x * x + y * y. Proof. nra. Qed.

(** ** Products of the coordinate vectors *)
Lemma in_frame_dot p a b c a' b' c' : panel p -> dot (in_frame p a b c) (in_frame p a' b' c') = a * a' + b * b' + c * c'.
Proof. intros H. panels H; cbn; ring. Qed.
Lemma rsqrt2 d : 0 < d -> / sqrt d * / sqrt d = / d.
Proof. intros H. rewrite <- Rinv_mult, sqrt_sqrt; lra. Qed.
Section Dots.
Context (p : Z) (x y : R) (Hp : panel p).
Local Notation D := (1 + x * x + y * y).
Lemma s6 : let s := / sqrt D in (s * s * s) * (s * s * s) = / (D * D * D).
Proof.
  cbv zeta. pose proof (rsqrt2 D (gt2 x y)) as E. pose proof (gt2 x y).
  replace (/ sqrt D * / sqrt D * / sqrt D * (/ sqrt D * / sqrt D * / sqrt D)) with ((/ sqrt D * / sqrt D) * (/ sqrt D * / sqrt D) * (/ sqrt D * / sqrt D)) by ring.
  rewrite E. field. lra.
Qed.
Lemma dot_aa : dot (alpha_at p x y) (alpha_at p x y) = (1 + x * x) * (1 + x * x) * (1 + y * y) / (D * D).
Proof.
  unfold alpha_at; cbv zeta. rewrite in_frame_dot by auto. pose proof s6 as E; cbv zeta in E. set (t := / sqrt D * / sqrt D * / sqrt D) in *.
  pose proof (gt2 x y).
  replace (_ + _ + _) with ((t * t) * ((1 + x * x) * (1 + x * x) * ((1 + y * y) * (1 + y * y) + x * y * (x * y) + x * x))) by ring.
  rewrite E. field. lra.
Qed.
Lemma dot_bb : dot (beta_at p x y) (beta_at p x y) = (1 + x * x) * (1 + y * y) * (1 + y * y) / (D * D).
Proof.
  unfold beta_at; cbv zeta. rewrite in_frame_dot by auto. pose proof s6 as E; cbv zeta in E. set (t := / sqrt D * / sqrt D * / sqrt D) in *.
  pose proof (gt2 x y).
  replace (_ + _ + _) with ((t * t) * ((1 + y * y) * (1 + y * y) * ((1 + x * x) * (1 + x * x) + x * y * (x * y) + y * y))) by ring.
  rewrite E. field. lra.
Qed.
Lemma dot_ab : dot (alpha_at p x y) (beta_at p x y) = - (x * y) * (1 + x * x) * (1 + y * y) / (D * D).
Proof.
  unfold alpha_at, beta_at; cbv zeta. rewrite in_frame_dot by auto. pose proof s6 as E; cbv zeta in E. set (t := / sqrt D * / sqrt D * / sqrt D) in *.
  pose proof (gt2 x y).
  replace (_ + _ + _) with ((t * t) * ((1 + x * x) * (1 + y * y) * (- (x * y) * (1 + y * y) - x * y * (1 + x * x) + x * y))) by ring.
  rewrite E. field. lra.
Qed.
End Dots.

(** ** Vectors *)
Lemma dot_sym u v : dot u v = dot v u.
Proof. destruct u as [[? ?] ?], v as [[? ?] ?]; cbn; ring. Qed.
Lemma dot_scale_l c u v : dot (scale c u) v = c * dot u v.
Proof. destruct u as [[? ?] ?], v as [[? ?] ?]; cbn; ring. Qed.
Lemma dot_scale_r c u v : dot u (scale c v) = c * dot u v.
Proof. rewrite dot_sym, dot_scale_l, dot_sym; auto. Qed.
Lemma dot_plus_l u w v : dot (plus u w) v = dot u v + dot w v.
Proof. destruct u as [[? ?] ?], v as [[? ?] ?], w as [[? ?] ?]; cbn; ring. Qed.
Lemma inner_sym d e : inner d e = inner e d.
Proof. unfold inner. rewrite dot_sym. ring. Qed.
Lemma inner_lin u d v e f : inner (sum2 (along u d) (along v e)) f = u * inner d f + v * inner e f.
Proof. unfold inner, sum2, along; cbn [fst snd]. rewrite dot_plus_l, !dot_scale_l. ring. Qed.
Lemma inner_lin3 u d v e w f g : inner (sum2 (sum2 (along u d) (along v e)) (along w f)) g = u * inner d g + v * inner e g + w * inner f g.
Proof. unfold inner, sum2, along; cbn [fst snd]. rewrite !dot_plus_l, !dot_scale_l. ring. Qed.
Lemma velocity_scale c f t v : velocity f t v -> velocity (fun s => scale c (f s)) t (scale c v).
Proof.
  destruct v as [[a b] d]. intros (A & B & C). cbn [scale]. unfold velocity.
  assert (H : forall f t l, derivable_pt_lim f t l -> derivable_pt_lim (fun s => c * f s) t (c * l)) by (intros; apply (derivable_pt_lim_scal f0); auto).
  repeat split.
  - eapply derivable_pt_lim_ext; [| exact (H _ _ _ A)]. intros s; cbn beta. destruct (f s) as [[? ?] ?]; reflexivity.
  - eapply derivable_pt_lim_ext; [| exact (H _ _ _ B)]. intros s; cbn beta. destruct (f s) as [[? ?] ?]; reflexivity.
  - eapply derivable_pt_lim_ext; [| exact (H _ _ _ C)]. intros s; cbn beta. destruct (f s) as [[? ?] ?]; reflexivity.
Qed.
Lemma moves_unique f t u v : moves f t u -> moves f t v -> u = v.
Proof.
  intros [A B] [A' B']. destruct u as [u h], v as [v k]; cbn [fst snd] in *.
  rewrite (velocity_unique _ _ _ _ A A'), (uniqueness_limite _ _ _ _ B B'); auto.
Qed.
Lemma velocity_const u t : velocity (fun _ => u) t (0, 0, 0).
Proof. unfold velocity. repeat split; apply (derivable_pt_lim_const _ t). Qed.

(** ** A frame of two horizontal vectors with slopes and one vertical vector *)
Section Frame.
Context (aa ab bb : R) (va vb : vec3) (za zb zx : R).
Context (Haa : dot va va = aa) (Hab : dot va vb = ab) (Hbb : dot vb vb = bb) (Hx : zx <> 0) (Hd : aa * bb - ab * ab <> 0).
Context (ga gab gb : R) (Ga : ga * aa + gab * ab = 1) (Gb : ga * ab + gab * bb = 0) (Gc : gab * aa + gb * ab = 0) (Gd : gab * ab + gb * bb = 1).
Let ea : place := (va, za).
Let eb : place := (vb, zb).
Let ex : place := ((0, 0, 0), zx).
Lemma frame_inner : inner ea ea = aa + za * za /\ inner ea eb = ab + za * zb /\ inner eb eb = bb + zb * zb /\
  inner ea ex = za * zx /\ inner eb ex = zb * zx /\ inner ex ex = zx * zx.
Proof.
  unfold inner, ea, eb, ex; cbn [fst snd]. rewrite Haa, Hab, Hbb.
  assert (Z1 : forall v, dot v (0, 0, 0) = 0) by (intros [[? ?] ?]; cbn; ring). rewrite !Z1. repeat split; ring.
Qed.
Lemma frame_raises A2 B2 X2 : A2 = - (ga * za + gab * zb) / zx -> B2 = - (gab * za + gb * zb) / zx ->
  X2 = 1 / (zx * zx) - 1 / zx * (A2 * za + B2 * zb) ->
  raises ea eb ex (ga, gab, A2) (gab, gb, B2) (A2, B2, X2).
Proof.
  intros EA EB EX u v w. cbv zeta. destruct frame_inner as (I1 & I2 & I3 & I4 & I5 & I6).
  rewrite !inner_lin3. rewrite (inner_sym eb ea), (inner_sym ex ea), (inner_sym ex eb), I1, I2, I3, I4, I5, I6. cbn [fst snd].
  rewrite EX, EA, EB. repeat split.
  - transitivity (u * (ga * aa + gab * ab) + v * (ga * ab + gab * bb)); [field; auto | rewrite Ga, Gb; ring].
  - transitivity (u * (gab * aa + gb * ab) + v * (gab * ab + gb * bb)); [field; auto | rewrite Gc, Gd; ring].
  - transitivity (w + (u * za + v * zb) / zx - (za * (u * (ga * aa + gab * ab) + v * (ga * ab + gab * bb)) + zb * (u * (gab * aa + gb * ab) + v * (gab * ab + gb * bb))) / zx); [field; auto | rewrite Ga, Gb, Gc, Gd; field; auto].
Qed.
Lemma frame_gram : gram3 ea eb ex = zx * zx * (aa * bb - ab * ab).
Proof.
  destruct frame_inner as (I1 & I2 & I3 & I4 & I5 & I6). unfold gram3. rewrite I1, I2, I3, I4, I5, I6. ring.
Qed.
End Frame.

(** ** The cubed sphere *)
Section Sphere.
Context (R0 : R) (HR : 0 < R0) (p : Z) (Hp : panel p).
(** where the grid puts the point (a, b, eta) *)
Definition cs_place (Ztop : R) (Zs : R -> R -> R) (a b e : R) : place :=
  (scale R0 (sphere_point p (tan a) (tan b)), cs_height Ztop (Zs a b) e).
Definition open_angle (a : R) : Prop := - PI / 2 < a < PI / 2.
Lemma at_tan a : open_angle a -> atan (tan a) = a.
Proof. intros H. apply atan_tan. unfold open_angle in H. lra. Qed.
Section Point.
Context (Ztop : R) (Zs : R -> R -> R) (a b e Da Db : R) (Aa : open_angle a) (Ab : open_angle b).
Context (DA : derivable_pt_lim (fun s => Zs s b) a Da) (DB : derivable_pt_lim (fun s => Zs a s) b Db).
Lemma height_d f t d : derivable_pt_lim f t d -> derivable_pt_lim (fun s => cs_height Ztop (f s) e) t ((1 - e) * d).
Proof.
  intros H. unfold cs_height. pose proof (derivable_pt_lim_scal f (1 - e) t d H) as H1.
  pose proof (derivable_pt_lim_plus _ _ _ _ _ H1 (derivable_pt_lim_const (e * Ztop) t)) as H2. unfold plus_fct, mult_real_fct, fct_cte in H2.
  replace ((1 - e) * d) with ((1 - e) * d + 0) by ring.
  eapply derivable_pt_lim_ext; [| exact H2]. intros s; cbn beta. ring.
Qed.
Lemma place_a : moves (fun s => cs_place Ztop Zs s b e) a (scale R0 (alpha_at p (tan a) (tan b)), (1 - e) * Da).
Proof.
  split; cbn [fst snd cs_place].
  - apply velocity_scale. pose proof (alpha_velocity p (tan a) (tan b) Hp) as V. unfold alpha_vector in V. rewrite at_tan in V; auto.
  - apply height_d; auto.
Qed.
Lemma place_b : moves (fun s => cs_place Ztop Zs a s e) b (scale R0 (beta_at p (tan a) (tan b)), (1 - e) * Db).
Proof.
  split; cbn [fst snd cs_place].
  - apply velocity_scale. pose proof (beta_velocity p (tan a) (tan b) Hp) as V. unfold beta_vector in V. rewrite at_tan in V; auto.
  - apply height_d; auto.
Qed.
Lemma place_x : moves (fun s => cs_place Ztop Zs a b s) e ((0, 0, 0), Ztop - Zs a b).
Proof.
  split; cbn [fst snd cs_place].
  - apply velocity_const.
  - unfold cs_height. pose proof (derivable_pt_lim_plus _ _ e _ _ (derivable_pt_lim_const (Zs a b) e) (derivable_pt_lim_scal id (Ztop - Zs a b) e 1 (derivable_pt_lim_id e))) as H.
    unfold plus_fct, mult_real_fct, fct_cte, id in H. replace (Ztop - Zs a b) with (0 + (Ztop - Zs a b) * 1) by ring.
    eapply derivable_pt_lim_ext; [| exact H]. intros s; cbn beta. ring.
Qed.
End Point.
Section Metric.
Context (x y : R).
Local Notation D := (1 + x * x + y * y).
Local Notation va := (scale R0 (alpha_at p x y)).
Local Notation vb := (scale R0 (beta_at p x y)).
Lemma e_aa : dot va va = R0 * R0 * ((1 + x * x) * (1 + x * x) * (1 + y * y) / (D * D)).
Proof. rewrite dot_scale_l, dot_scale_r, dot_aa by auto. ring. Qed.
Lemma e_bb : dot vb vb = R0 * R0 * ((1 + x * x) * (1 + y * y) * (1 + y * y) / (D * D)).
Proof. rewrite dot_scale_l, dot_scale_r, dot_bb by auto. ring. Qed.
Lemma e_ab : dot va vb = R0 * R0 * (- (x * y) * (1 + x * x) * (1 + y * y) / (D * D)).
Proof. rewrite dot_scale_l, dot_scale_r, dot_ab by auto. ring. Qed.
Lemma j_pos : 0 < h_j (cs2 R0 x y).
Proof.
  cbn [cs2 h_j]. pose proof (gt1 x); pose proof (gt1 y). pose proof (sqrt_lt_R0 _ (gt2 x y)).
  apply Rmult_lt_0_compat; [| nra]. apply Rdiv_lt_0_compat; [nra |]. repeat apply Rmult_lt_0_compat; auto.
Qed.
Lemma j_sq : h_j (cs2 R0 x y) * h_j (cs2 R0 x y) = dot va va * dot vb vb - dot va vb * dot va vb.
Proof.
  rewrite e_aa, e_bb, e_ab. cbn [cs2 h_j]. pose proof (gt2 x y). pose proof (sqrt_lt_R0 _ (gt2 x y)). pose proof (sqrt_sqrt _ (Rlt_le _ _ (gt2 x y))) as Q.
  set (d := sqrt D) in *. clearbody d. rewrite <- Q.
  assert (E : y * y = d * d - 1 - x * x) by lra.
  assert (E4 : R0 * R0 * ((1 + x * x) * (1 + x * x) * (1 + y * y) / (d * d * (d * d))) * (R0 * R0 * ((1 + x * x) * (1 + y * y) * (1 + y * y) / (d * d * (d * d)))) -
     R0 * R0 * (- (x * y) * (1 + x * x) * (1 + y * y) / (d * d * (d * d))) * (R0 * R0 * (- (x * y) * (1 + x * x) * (1 + y * y) / (d * d * (d * d)))) =
     (R0 * R0) * (R0 * R0) * ((1 + x * x) * (1 + x * x) * ((1 + y * y) * (1 + y * y)) / ((d * d) * (d * d) * ((d * d) * (d * d)))) * ((1 + x * x) * (1 + y * y) - (x * x) * (y * y))).
  { field. lra. }
  rewrite E4. replace ((1 + x * x) * (1 + y * y) - x * x * (y * y)) with (d * d) by nra. field. lra.
Qed.
Lemma inv_rows : let m := cs2 R0 x y in
  h_a0 m * dot va va + h_a1 m * dot va vb = 1 /\ h_a0 m * dot va vb + h_a1 m * dot vb vb = 0 /\
  h_b0 m * dot va va + h_b1 m * dot va vb = 0 /\ h_b0 m * dot va vb + h_b1 m * dot vb vb = 1.
Proof.
  cbv zeta. rewrite e_aa, e_bb, e_ab. cbn [cs2 h_a0 h_a1 h_b0 h_b1]. unfold cs_scale. pose proof (gt1 x); pose proof (gt1 y); pose proof (gt2 x y).
  repeat split; field; repeat split; lra.
Qed.
Lemma low_rows : let m := cs2 R0 x y in c_a0 m = dot va va /\ c_a1 m = dot va vb /\ c_b0 m = dot va vb /\ c_b1 m = dot vb vb.
Proof.
  cbv zeta. rewrite e_aa, e_bb, e_ab. cbn [cs2 c_a0 c_a1 c_b0 c_b1]. pose proof (gt2 x y). repeat split; field; lra.
Qed.
Lemma same_rows Ztop Zs Da Db e : cs_interface R0 Ztop x y Zs Da Db e = cs_level R0 Ztop x y Zs Da Db e.
Proof. unfold cs_interface, cs_level. cbv zeta. f_equal. cbn [cs2 h_j]. ring. Qed.
Lemma level_frame Ztop Zs Da Db e : Zs <> Ztop -> let m := cs_level R0 Ztop x y Zs Da Db e in
  let ea : place := (va, (1 - e) * Da) in let eb : place := (vb, (1 - e) * Db) in let ex : place := ((0, 0, 0), Ztop - Zs) in
  raises ea eb ex (v_a0 m, v_a1 m, v_a2 m) (v_b0 m, v_b1 m, v_b2 m) (v_x0 m, v_x1 m, v_x2 m) /\
  gram3 ea eb ex = v_j m * v_j m /\ (r_a m, r_b m, r_x m) = (snd ea, snd eb, snd ex).
Proof.
  intros N. cbv zeta. destruct inv_rows as (G1 & G2 & G3 & G4). split; [| split].
  - replace (v_b0 _) with (v_a1 (cs_level R0 Ztop x y Zs Da Db e)) by reflexivity.
    replace (v_x0 _) with (v_a2 (cs_level R0 Ztop x y Zs Da Db e)) by reflexivity.
    replace (v_x1 _) with (v_b2 (cs_level R0 Ztop x y Zs Da Db e)) by reflexivity.
    eapply frame_raises; try reflexivity; [lra | | | | | |].
    + exact G1.
    + exact G2.
    + exact G3.
    + exact G4.
    + cbn [cs_level v_a2 v_a0 v_a1 cs2 h_a0 h_a1]. field. lra.
    + cbn [cs_level v_b2 v_a1 v_b1 cs2 h_a1 h_b1]. field. lra.
  - erewrite frame_gram by reflexivity. rewrite <- j_sq. cbn [cs_level v_j]. ring.
  - reflexivity.
Qed.
End Metric.
End Sphere.
