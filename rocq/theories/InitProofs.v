(** * Proofs for the initial states and sponge layers of the Cartesian tests *)
From Coq Require Import Reals Lra.
From Verif Require Import PhysModel PhysSpec InitModel InitSpec DlimProofs.
Local Open Scope R_scope.

Section balance.
  Context (r c p0 g : R) (Hr : 0 < r) (Hc : r < c) (Hp : 0 < p0).
  Lemma press th ex : th <> 0 -> poisson r c p0 (p0 / (r * th) * Rpower ex ((c - r) / r) * th) = p0 * Rpower ex (c / r).
  Proof.
    intros Ht. unfold poisson. f_equal.
    replace (r * (p0 / (r * th) * Rpower ex ((c - r) / r) * th) / p0) with (Rpower ex ((c - r) / r)) by (field; repeat split; lra).
    rewrite Rpower_mult. f_equal. field. lra.
  Qed.
  (** an Exner pressure with cp theta dPi/dz = - g *)
  Lemma balanced th ex z D : (forall y, th y <> 0) -> 0 < ex z -> derivable_pt_lim ex z D -> c * th z * D = - g ->
    hydrostatic g (fun y => poisson r c p0 (p0 / (r * th y) * Rpower (ex y) ((c - r) / r) * th y))
      (fun y => p0 / (r * th y) * Rpower (ex y) ((c - r) / r)) z.
  Proof.
    intros Ht He HD E. unfold hydrostatic. apply (D_ext (fun y => p0 * Rpower (ex y) (c / r))).
    { intros y. symmetry. apply press, Ht. }
    eapply D_eq; [eapply D_mult; [apply D_const|eapply D_power; [exact HD|exact He]]|].
    cbv beta. replace (c / r - 1) with ((c - r) / r) by (field; lra).
    assert (D = - g / (c * th z)) as -> by (rewrite <- E; field; split; [apply Ht|lra]).
    field. repeat split; try lra. apply Ht.
  Qed.
End balance.

Lemma neutral_lim c th z : cp c <> 0 -> th <> 0 -> derivable_pt_lim (neutral_exner c th) z (- g c / (cp c * th)).
Proof. intros Hc Ht. unfold neutral_exner. dlim. field. lra. Qed.
Lemma strat_lim c th n z : cp c <> 0 -> th <> 0 -> n <> 0 -> g c <> 0 ->
  derivable_pt_lim (strat_exner c th n) z (- g c / (cp c * (th * exp (n * n / g c * z)))).
Proof.
  intros Hc Ht Hn Hg. unfold strat_exner. dlim.
  assert (exp (n * n / g c * z) <> 0) as N by (pose proof (exp_pos (n * n / g c * z)); lra).
  replace (- n * n / g c * z) with (- (n * n / g c * z)) by (field; lra). rewrite exp_Ropp.
  field. repeat split; lra.
Qed.
Lemma iso_lim c t z : cp c <> 0 -> t <> 0 -> derivable_pt_lim (iso_exner c t) z (- g c / (cp c * t) * exp (- g c / (cp c * t) * z)).
Proof. intros Hc Ht. unfold iso_exner. dlim. ring. Qed.
Lemma iso_freq c t : 0 < cp c -> 0 < t -> iso_n c t * iso_n c t = g c * g c / (cp c * t).
Proof.
  intros Hc Ht. unfold iso_n. assert (0 < cp c * t) as P by (apply Rmult_lt_0_compat; assumption).
  pose proof (sqrt_lt_R0 _ P). pose proof (sqrt_sqrt (cp c * t) (Rlt_le _ _ P)) as S.
  replace (g c / sqrt (cp c * t) * (g c / sqrt (cp c * t))) with (g c * g c / (sqrt (cp c * t) * sqrt (cp c * t))) by (field; lra).
  rewrite S. reflexivity.
Qed.

(** ** cosine shapes *)
Lemma half_cos a : 1 / 2 * (1 + cos (2 * a)) = Rsqr (cos a).
Proof. rewrite cos_2a_cos. unfold Rsqr. field. Qed.
Lemma taper_inside s w d : 0 < w -> 0 <= d -> d < w -> 1 / 2 * s * (1 + cos (PI * (d / w))) = taper s w d.
Proof.
  intros Hw H0 H. unfold taper. rewrite Rmin_right.
  - rewrite <- half_cos. replace (2 * (PI / 2 * (d / w))) with (PI * (d / w)) by (field; lra). ring.
  - apply (Rmult_le_reg_r w); [exact Hw|]. unfold Rdiv. rewrite Rmult_assoc, Rinv_l by lra. lra.
Qed.
Lemma taper_outside s w d : 0 < w -> w <= d -> taper s w d = 0.
Proof.
  intros Hw H. unfold taper. rewrite Rmin_left.
  - rewrite Rmult_1_r, cos_PI2. unfold Rsqr. ring.
  - apply (Rmult_le_reg_r w); [exact Hw|]. unfold Rdiv. rewrite Rmult_assoc, Rinv_l by lra. lra.
Qed.
Lemma taper_zero s w : 0 < w -> taper s w 0 = s.
Proof.
  intros Hw. unfold taper. rewrite Rmin_right by (unfold Rdiv; lra).
  unfold Rdiv at 2. rewrite Rmult_0_l, Rmult_0_r, cos_0. unfold Rsqr. ring.
Qed.
Lemma taper_range s w d : 0 <= s -> 0 <= taper s w d <= s.
Proof.
  intros Hs. unfold taper. pose proof (COS_bound (PI / 2 * Rmin 1 (d / w))) as B. unfold Rsqr.
  split; [apply Rmult_le_pos; [exact Hs|apply Rle_0_sqr]|].
  rewrite <- (Rmult_1_r s) at 2. apply Rmult_le_compat_l; [exact Hs|]. nra.
Qed.
Lemma taper_mono s w d d' : 0 <= s -> 0 < w -> 0 <= d -> d <= d' -> taper s w d' <= taper s w d.
Proof.
  intros Hs Hw H0 H. unfold taper. apply Rmult_le_compat_l; [exact Hs|].
  assert (0 <= d / w) as A by (apply Rmult_le_pos; [exact H0|left; apply Rinv_0_lt_compat, Hw]).
  assert (d / w <= d' / w) as B by (apply Rmult_le_compat_r; [left; apply Rinv_0_lt_compat, Hw|exact H]).
  set (a := Rmin 1 (d / w)). set (b := Rmin 1 (d' / w)).
  assert (0 <= a) by (unfold a; apply Rmin_glb; lra).
  assert (a <= b) by (unfold a, b; apply Rle_min_compat_l; exact B).
  assert (b <= 1) by apply Rmin_l. pose proof PI_RGT_0.
  assert (PI / 2 * a <= PI / 2 * b) by (apply Rmult_le_compat_l; lra).
  assert (PI / 2 * b <= PI / 2) by (rewrite <- (Rmult_1_r (PI / 2)) at 2; apply Rmult_le_compat_l; lra).
  assert (0 <= PI / 2 * a) by (apply Rmult_le_pos; lra).
  apply Rsqr_incr_1.
  - apply cos_decr_1; lra.
  - apply cos_ge_0; lra.
  - apply cos_ge_0; lra.
Qed.
Lemma depth_taper s d top z : 0 < d -> z <= top -> nu_depth s d top z = taper s d (top - z).
Proof.
  intros Hd Hz. unfold nu_depth. destruct (Rlt_dec (top - d) z) as [L|L].
  - apply taper_inside; lra.
  - symmetry. apply taper_outside; lra.
Qed.
Lemma right_taper s w xm x : 0 < w -> x <= xm -> nu_right s w xm x = taper s w (xm - x).
Proof.
  intros Hd Hz. unfold nu_right. destruct (Rlt_dec (xm - w) x) as [L|L].
  - apply taper_inside; lra.
  - symmetry. apply taper_outside; lra.
Qed.
Lemma left_taper s w xm x : 0 < w -> xm <= x -> nu_left s w xm x = taper s w (x - xm).
Proof.
  intros Hd Hz. unfold nu_left. destruct (Rlt_dec x (xm + w)) as [L|L].
  - apply taper_inside; lra.
  - symmetry. apply taper_outside; lra.
Qed.
Lemma choose_max d r l : nu_choose d r l = Rmax d (Rmax r l).
Proof.
  unfold nu_choose, Rmax. repeat destruct Rge_dec; repeat destruct Rle_dec; try lra.
Qed.
Lemma left_hydro s w xm x : 0 < w -> xm <= x -> x < xm + w -> nu_left_hydrostatic s w xm x = taper s w (w - (x - xm)).
Proof.
  intros Hw H1 H2. unfold nu_left_hydrostatic. destruct (Rlt_dec x (xm + w)) as [L|L]; [|lra].
  destruct (Req_dec x xm) as [-> |N].
  - rewrite (taper_outside s w) by lra. replace (1 - (xm - xm) / w) with 1 by (field; lra). rewrite Rmult_1_r, cos_PI. ring.
  - rewrite <- taper_inside by lra. replace ((w - (x - xm)) / w) with (1 - (x - xm) / w) by (field; lra). reflexivity.
Qed.
Lemma sphere_taper zh top tau z : 0 < tau -> zh < top -> z <= top -> strength_sphere zh top tau z = taper (1 / tau) (top - zh) (top - z).
Proof.
  intros Ht Hz Hl. unfold strength_sphere. destruct (Rlt_dec zh z) as [L|L].
  - unfold taper. rewrite Rmin_right.
    + replace (PI / 2 * ((z - zh) / (top - zh))) with (PI / 2 - PI / 2 * ((top - z) / (top - zh))) by (field; lra).
      rewrite sin_shift. unfold Rsqr. field. lra.
    + apply (Rmult_le_reg_r (top - zh)); [lra|]. unfold Rdiv. rewrite Rmult_assoc, Rinv_l by lra. lra.
  - rewrite taper_outside by lra. unfold Rdiv. ring.
Qed.
