(** * Proofs about the metric terms: the Cartesian grid, edges, columns *)
From Coq Require Import ZArith Reals Machin List Bool Lra Lia.
From Verif Require Import CsTransSpec CsTransModel CsTransProofs CsTransVecProofs GeomSpec ShallowModel LevModel GeomModel GeomProofs.
Import ListNotations.
Local Open Scope R_scope.

(** ** The decay function *)
Lemma d_lin k e : derivable_pt_lim (fun t => k * t) e k.
Proof. pose proof (derivable_pt_lim_scal id k e 1 (derivable_pt_lim_id e)) as H. rewrite Rmult_1_r in H. exact H. Qed.
Lemma d_sin k e : derivable_pt_lim (fun t => sin (k * t)) e (k * cos (k * e)).
Proof. rewrite Rmult_comm. apply (derivable_pt_lim_comp (fun t => k * t) sin); [apply d_lin | apply derivable_pt_lim_sin]. Qed.
Lemma d_cos k e : derivable_pt_lim (fun t => cos (k * t)) e (- k * sin (k * e)).
Proof. replace (- k * sin (k * e)) with (- sin (k * e) * k) by ring. apply (derivable_pt_lim_comp (fun t => k * t) cos); [apply d_lin | apply derivable_pt_lim_cos]. Qed.
Lemma d_eq f t l l' : derivable_pt_lim f t l -> l = l' -> derivable_pt_lim f t l'.
Proof. intros; subst; auto. Qed.
Lemma decay_d e : derivable_pt_lim decay e (decay_x e).
Proof.
  set (k := 1 / 2 * PI).
  pose proof (derivable_pt_lim_comp (fun t => cos (k * t)) (fun c => c ^ 6) e _ _ (d_cos k e) (derivable_pt_lim_pow (cos (k * e)) 6)) as H1.
  pose proof (derivable_pt_lim_mult (fun t => 1 / 4 * t) (fun t => sin (k * t)) e _ _ (d_lin (1 / 4) e) (d_sin k e)) as H2.
  pose proof (derivable_pt_lim_plus _ _ _ _ _ H1 H2) as H3.
  pose proof (derivable_pt_lim_minus _ _ e _ _ (derivable_pt_lim_const 1 e) (d_lin 1 e)) as H4.
  pose proof (derivable_pt_lim_mult _ _ _ _ _ H4 H3) as H5.
  refine (d_eq _ _ _ _ H5 _). unfold decay_x, comp, plus_fct, mult_fct, minus_fct, fct_cte. fold k.
  replace PI with (2 * k) by (unfold k; field). cbn [pred INR]. simpl pow. field.
Qed.
Lemma decay_0 : decay 0 = 1.
Proof. unfold decay. rewrite !Rmult_0_r, cos_0, sin_0. ring. Qed.
Lemma decay_1 : decay 1 = 0.
Proof. unfold decay. ring. Qed.
Lemma jordan e : 0 <= e <= 1 -> e <= sin (1 / 2 * PI * e) <= 1.
Proof.
  intros H. split; [| apply SIN_bound]. pose proof PI_RGT_0.
  destruct (Req_dec e 0) as [-> | N0]; [rewrite Rmult_0_r, sin_0; lra |].
  destruct (Req_dec e 1) as [-> | N1]; [replace (1 / 2 * PI * 1) with (PI / 2) by lra; rewrite sin_PI2; lra |].
  destruct (Rle_or_lt e (sin (1 / 2 * PI * e))) as [L | L]; auto. exfalso.
  (* sin (pi t / 2) - t vanishes at 0 and 1; its derivative decreases *)
  set (f := fun t => sin (1 / 2 * PI * t) - t).
  assert (D : forall t, derivable_pt_lim f t (1 / 2 * PI * cos (1 / 2 * PI * t) - 1)).
  { intros t. unfold f. refine (derivable_pt_lim_minus _ _ t _ _ (d_sin _ t) (derivable_pt_lim_id t)). }
  assert (C : forall t, continuity_pt f t).
  { intros t. apply derivable_continuous_pt. eexists; exact (D t). }
  destruct (MVT_cor2 f (fun t => 1 / 2 * PI * cos (1 / 2 * PI * t) - 1) 0 e ltac:(lra) ltac:(intros; apply D)) as (c1 & E1 & I1).
  destruct (MVT_cor2 f (fun t => 1 / 2 * PI * cos (1 / 2 * PI * t) - 1) e 1 ltac:(lra) ltac:(intros; apply D)) as (c2 & E2 & I2).
  assert (F0 : f 0 = 0) by (unfold f; rewrite Rmult_0_r, sin_0; ring).
  assert (F1 : f 1 = 0) by (unfold f; replace (1 / 2 * PI * 1) with (PI / 2) by lra; rewrite sin_PI2; ring).
  assert (Fe : f e < 0) by (unfold f; lra).
  assert (G : cos (1 / 2 * PI * c2) < cos (1 / 2 * PI * c1)) by (apply cos_decreasing_1; nra).
  rewrite F0 in E1. rewrite F1 in E2.
  assert (P1 : 1 / 2 * PI * cos (1 / 2 * PI * c1) - 1 < 0) by nra.
  assert (P2 : 0 < 1 / 2 * PI * cos (1 / 2 * PI * c2) - 1) by nra.
  assert (1 / 2 * PI * cos (1 / 2 * PI * c2) < 1 / 2 * PI * cos (1 / 2 * PI * c1)) by (apply Rmult_lt_compat_l; lra). lra.
Qed.
Lemma half_trig e : 0 <= e <= 1 -> let s := sin (1 / 2 * PI * e) in let c := cos (1 / 2 * PI * e) in
  0 <= e <= s /\ s <= 1 /\ 0 <= 1 - e <= c /\ c <= 1 /\ s * s + c * c = 1.
Proof.
  intros H. cbv zeta. destruct (jordan e H). destruct (jordan (1 - e) ltac:(lra)) as [A B].
  replace (1 / 2 * PI * (1 - e)) with (PI / 2 - 1 / 2 * PI * e) in * by lra. rewrite sin_shift in *.
  pose proof (sin2_cos2 (1 / 2 * PI * e)) as Q. unfold Rsqr in Q. repeat split; lra.
Qed.
Lemma pi_bounds : 3.14 < PI < 3.143.
Proof.
  pose proof (PI_2_3_7_ineq 1) as [L U].
  unfold sum_f_R0, tg_alt, PI_2_3_7_tg, Ratan_seq in *. simpl in *. field_simplify in L. field_simplify in U. split; lra.
Qed.
Lemma poly_bound t : 0 <= t <= 1 -> (1 - t * t) ^ 3 * (1 + 9.43 * t) + t * t / 4 <= 2.95.
Proof.
  intros H. set (u := 1 - t).
  assert (M : forall i j, 0 <= t ^ i * u ^ j) by (intros; apply Rmult_le_pos; apply pow_le; unfold u; lra).
  assert (N : forall i j, 0 <= (t - 0.34) ^ 2 * (t ^ i * u ^ j)) by (intros; apply Rmult_le_pos; [apply pow2_ge_0 | auto]).
  pose proof (N 0 5)%nat. pose proof (N 1 4)%nat. pose proof (N 2 3)%nat. pose proof (N 3 2)%nat. pose proof (N 4 1)%nat. pose proof (N 5 0)%nat.
  clear M N. unfold u in *. lra.
Qed.
Lemma decay_x_bounds e : 0 <= e <= 1 -> -2.95 <= decay_x e <= 0.35.
Proof.
  intros H. destruct (half_trig e H) as ((E0 & Es) & S1 & (E1 & Ec) & C1 & Q). pose proof pi_bounds.
  unfold decay_x. set (s := sin (1 / 2 * PI * e)) in *. set (c := cos (1 / 2 * PI * e)) in *. clearbody s c.
  assert (P5 : 0 <= c ^ 5) by (apply pow_le; lra). assert (P6 : 0 <= c ^ 6) by (apply pow_le; lra).
  assert (A1 : 0 <= (1 - e) * (1 / 4 * s) <= 1 / 4) by (split; [apply Rmult_le_pos; lra | apply Rle_trans with (1 * (1 / 4)); [apply Rmult_le_compat; lra | lra]]).
  assert (A2 : 0 <= (1 - e) * (PI / 8 * e * c) <= 0.1).
  { assert (0 <= (1 - e) * e <= 1 / 4) by (split; [nra | pose proof (pow2_ge_0 (e - 1 / 2)); lra]). assert (0 <= PI / 8 * c <= 0.4) by (split; [apply Rmult_le_pos; lra | apply Rle_trans with (0.4 * 1); [apply Rmult_le_compat; lra | lra]]). replace ((1 - e) * (PI / 8 * e * c)) with ((1 - e) * e * (PI / 8 * c)) by ring.
    split; [apply Rmult_le_pos; lra |]. apply Rle_trans with (1 / 4 * 0.4); [apply Rmult_le_compat; lra | lra]. }
  assert (A3 : 0 <= (1 - e) * (3 * PI * c ^ 5 * s) <= 9.43 * (c ^ 6 * s)).
  { assert (K : 0 <= c ^ 5 * s) by (apply Rmult_le_pos; lra). replace (c ^ 6 * s) with (c * (c ^ 5 * s)) by (simpl; ring).
    replace ((1 - e) * (3 * PI * c ^ 5 * s)) with (3 * PI * ((1 - e) * (c ^ 5 * s))) by ring.
    assert (K2 : 0 <= (1 - e) * (c ^ 5 * s) <= c * (c ^ 5 * s)) by (split; [apply Rmult_le_pos; lra | apply Rmult_le_compat_r; lra]).
    split; [apply Rmult_le_pos; lra |]. apply Rmult_le_compat; lra. }
  assert (A4 : 0 <= 1 / 4 * e * s <= s * s / 4) by nra.
  split.
  - pose proof (poly_bound s ltac:(lra)) as B. replace (1 - s * s) with (c * c) in B by lra.
    replace ((c * c) ^ 3 * (1 + 9.43 * s)) with (c ^ 6 + 9.43 * (c ^ 6 * s)) in B by ring. lra.
  - lra.
Qed.
(** the place of a third of the way up *)
Lemma decay_x_third : decay_x (1 / 3) < -1.8.
Proof.
  unfold decay_x. replace (1 / 2 * PI * (1 / 3)) with (PI / 6) by lra. rewrite cos_PI6, sin_PI6.
  pose proof pi_bounds. pose proof (sqrt_lt_R0 3 ltac:(lra)) as P. pose proof (sqrt_sqrt 3 ltac:(lra)) as Q. set (r := sqrt 3) in *. clearbody r.
  assert (R1 : 1.73 < r < 1.74) by nra.
  replace ((r / 2) ^ 6) with (27 / 64) by (replace 27 with ((r * r) * (r * r) * (r * r)) by (rewrite Q; ring); simpl; field).
  replace ((r / 2) ^ 5) with (9 * r / 32) by (replace 9 with ((r * r) * (r * r)) by (rewrite Q; ring); simpl; field). nra.
Qed.
Lemma decay_x_half : -0.7 < decay_x (1 / 2).
Proof.
  unfold decay_x. replace (1 / 2 * PI * (1 / 2)) with (PI / 4) by lra. rewrite cos_PI4, sin_PI4.
  pose proof pi_bounds. pose proof (sqrt_lt_R0 2 ltac:(lra)) as P. pose proof (sqrt_sqrt 2 ltac:(lra)) as Q. set (r := sqrt 2) in *. clearbody r.
  assert (R1 : 1.4 < r < 1.42) by nra. assert (N : r <> 0) by lra.
  replace (1 / r) with (r / 2) by (apply Rmult_eq_reg_r with r; auto; field_simplify; lra).
  replace ((r / 2) ^ 6) with (1 / 8) by (replace 1 with ((r * r) * (r * r) * (r * r) / 8) by (rewrite Q; field); simpl; field).
  replace ((r / 2) ^ 5) with (r / 8) by (replace (r / 8) with (r * ((r * r) * (r * r)) / 32) by (rewrite Q; field); simpl; field).
  nra.
Qed.

(** ** The frame of the Cartesian grid *)
Definition cart_place (Ztop : R) (Zs : R -> R -> R) (a b e : R) : place := ((a, b, 0), cart_height Ztop (Zs a b) e).
Section Plane.
Context (Ztop : R) (Zs : R -> R -> R) (a b e Da Db : R).
Context (DA : derivable_pt_lim (fun s => Zs s b) a Da) (DB : derivable_pt_lim (fun s => Zs a s) b Db).
Lemma cart_height_d f t d : derivable_pt_lim f t d -> derivable_pt_lim (fun s => cart_height Ztop (f s) e) t (decay e * d).
Proof.
  intros H. unfold cart_height. pose proof (derivable_pt_lim_plus _ _ t _ _ (derivable_pt_lim_const (Ztop * e) t) (derivable_pt_lim_scal f (decay e) t d H)) as H1.
  refine (d_eq _ _ _ _ H1 _). ring.
Qed.
Lemma cart_a : moves (fun s => cart_place Ztop Zs s b e) a ((1, 0, 0), decay e * Da).
Proof.
  split; cbn [fst snd cart_place]; [| apply cart_height_d; auto].
  unfold velocity; cbn [fst snd]. repeat split; [apply derivable_pt_lim_id | apply derivable_pt_lim_const | apply derivable_pt_lim_const].
Qed.
Lemma cart_b : moves (fun s => cart_place Ztop Zs a s e) b ((0, 1, 0), decay e * Db).
Proof.
  split; cbn [fst snd cart_place]; [| apply cart_height_d; auto].
  unfold velocity; cbn [fst snd]. repeat split; [apply derivable_pt_lim_const | apply derivable_pt_lim_id | apply derivable_pt_lim_const].
Qed.
Lemma cart_x : moves (fun s => cart_place Ztop Zs a b s) e ((0, 0, 0), Ztop + Zs a b * decay_x e).
Proof.
  split; cbn [fst snd cart_place]; [apply velocity_const |]. unfold cart_height.
  pose proof (derivable_pt_lim_plus _ _ e _ _ (d_lin Ztop e) (derivable_pt_lim_mult decay (fun _ => Zs a b) e _ _ (decay_d e) (derivable_pt_lim_const (Zs a b) e))) as H.
  refine (d_eq _ _ _ _ H _). ring.
Qed.
End Plane.
Lemma cart_frame Ztop Zs Da Db e : Ztop + Zs * decay_x e <> 0 -> let m := cart_level Ztop Zs Da Db e in
  let ea : place := ((1, 0, 0), decay e * Da) in let eb : place := ((0, 1, 0), decay e * Db) in let ex : place := ((0, 0, 0), Ztop + Zs * decay_x e) in
  raises ea eb ex (v_a0 m, v_a1 m, v_a2 m) (v_b0 m, v_b1 m, v_b2 m) (v_x0 m, v_x1 m, v_x2 m) /\
  gram3 ea eb ex = v_j m * v_j m /\ (r_a m, r_b m, r_x m) = (snd ea, snd eb, snd ex).
Proof.
  intros N. cbv zeta. cbn [cart_level v_a0 v_a1 v_a2 v_b0 v_b1 v_b2 v_x0 v_x1 v_x2 v_j r_a r_b r_x cart2 h_j h_a0 h_a1 h_b0 h_b1].
  set (zx := Ztop + Zs * decay_x e) in *. set (za := decay e * Da). set (zb := decay e * Db). clearbody zx za zb.
  split; [| split; [| reflexivity]].
  - eapply (frame_raises 1 0 1); try (cbn; ring); auto; try (field; auto).
  - rewrite (frame_gram 1 0 1) by (cbn; ring). ring.
Qed.

(** ** Edges of panels *)
Definition product3 (c : vec3) : R := let '(x, y, z) := c in (1 + x * x) * (1 + y * y) * (1 + z * z) / 2.
Lemma cube_product p x y : panel p -> product3 (cube_point p x y) = (1 + x * x) * (1 + y * y).
Proof. intros H. panels H; cbn; field. Qed.
Definition bounded (c : vec3) : Prop := let '(x, y, z) := c in (-1 <= x <= 1 /\ -1 <= y <= 1 /\ -1 <= z <= 1) /\ (x = 1 \/ x = -1 \/ y = 1 \/ y = -1 \/ z = 1 \/ z = -1).
Lemma cube_bounded p x y : panel p -> on_face x y -> bounded (cube_point p x y).
Proof. intros H (A & B). panels H; cbn; (split; [repeat split; lra |]); auto 8. Qed.
Lemma proportional c d k : 0 < k -> bounded c -> bounded d -> d = scale k c -> k = 1.
Proof.
  destruct c as [[x y] z], d as [[x' y'] z']. intros K (C & Ce) (D & De) E. cbn in E. injection E; intros E3 E2 E1; subst x' y' z'.
  assert (k <= 1) by (destruct Ce as [X | [X | [X | [X | [X | X]]]]]; subst; nra).
  assert (1 <= k). 2: lra.
  destruct De as [X | [X | [X | [X | [X | X]]]]]; nra.
Qed.
Lemma same_cube p q x y x' y' : panel p -> panel q -> on_face x y -> on_face x' y' ->
  sphere_point p x y = sphere_point q x' y' -> cube_point p x y = cube_point q x' y'.
Proof.
  intros Hp Hq A B E. unfold sphere_point in E. set (c := cube_point p x y) in *. set (d := cube_point q x' y') in *.
  assert (C : 0 < sqrt (dot c c)) by (apply sqrt_lt_R0; unfold c; rewrite cube_norm by auto; apply gt2).
  assert (D : 0 < sqrt (dot d d)) by (apply sqrt_lt_R0; unfold d; rewrite cube_norm by auto; apply gt2).
  pose proof (cube_bounded p x y Hp A) as Bc. pose proof (cube_bounded q x' y' Hq B) as Bd. fold c in Bc. fold d in Bd.
  set (s := sqrt (dot c c)) in *. set (t := sqrt (dot d d)) in *. clearbody s t c d.
  assert (F : d = scale (t * / s) c).
  { destruct c as [[a1 a2] a3], d as [[b1 b2] b3]. cbn in *. injection E; intros E3 E2 E1.
    apply vec3_eq; apply Rmult_eq_reg_l with (/ t); try (apply Rinv_neq_0_compat; lra); [rewrite <- E1 | rewrite <- E2 | rewrite <- E3]; field; lra. }
  assert (K : t * / s = 1) by (apply (proportional c d); auto; apply Rmult_lt_0_compat; [| apply Rinv_0_lt_compat]; lra).
  rewrite F, K. destruct c as [[? ?] ?]; cbn. apply vec3_eq; ring.
Qed.
Lemma j_cube R0 p x y : panel p -> let c := cube_point p x y in
  h_j (cs2 R0 x y) = product3 c / (sqrt (dot c c) * sqrt (dot c c) * sqrt (dot c c)) * (R0 * R0).
Proof. intros H. cbv zeta. rewrite cube_product, cube_norm by auto. reflexivity. Qed.
Lemma edge_j R0 p q x y x' y' : panel p -> panel q -> on_face x y -> on_face x' y' ->
  sphere_point p x y = sphere_point q x' y' -> h_j (cs2 R0 x y) = h_j (cs2 R0 x' y').
Proof. intros Hp Hq A B E. rewrite (j_cube R0 p x y), (j_cube R0 q x' y') by auto. rewrite (same_cube p q x y x' y'); auto. Qed.
