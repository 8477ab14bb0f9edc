(** * Lemmas on the moist baroclinic wave *)
From Coq Require Import Reals Lra Psatz.
From Verif Require Import DlimProofs HeldProofs BwModel BwSpec.
Local Open Scope R_scope.

(** signs of the parameters *)
Record proper (w : wave) (X : R) : Prop := Proper {
  v_x : 0 < X; v_ra : 0 < ra w; v_rd : 0 < rd w; v_gr : 0 < gr w; v_p0 : 0 < p0 w; v_p : 0 < t0p w; v_pe : t0p w <= t0e w;
  v_pb : 0 < pb w; v_pk : 0 < pk w; v_lapse : 0 < lapse w }.

Section S.
Context (w : wave) (deep : bool) (X : R) (H : proper w X).
Lemma wt0_pos : 0 < wt0 w.
Proof. destruct H. unfold wt0. lra. Qed.
Lemma aref_pos : 0 < aref w X.
Proof. destruct H. apply Rdiv_lt_0_compat; assumption. Qed.
Lemma h_pos : 0 < pb w * const_h w.
Proof. pose proof wt0_pos. destruct H. apply Rmult_lt_0_compat; [assumption|]. apply Rdiv_lt_0_compat; [apply Rmult_lt_0_compat; assumption|assumption]. Qed.
Lemma rratio_pos z : 0 <= z -> 0 < rratio w deep X z.
Proof. intros Z. pose proof aref_pos. unfold rratio. destruct deep; [apply Rdiv_lt_0_compat; lra|lra]. Qed.
Lemma int1_d z : derivable_pt_lim (int_tau1 w) z (tau1 w z).
Proof.
  pose proof wt0_pos. pose proof h_pos. destruct H. unfold int_tau1, tau1, scaled. set (hh := pb w * const_h w) in *.
  dlim; cbv beta; try lra. field. lra.
Qed.
Lemma int2_d z : derivable_pt_lim (int_tau2 w) z (tau2 w z).
Proof.
  pose proof h_pos. unfold int_tau2, tau2, scaled. set (hh := pb w * const_h w) in *. dlim; cbv beta; try lra. field. lra.
Qed.
Lemma power_d e x : 0 < x -> derivable_pt_lim (fun x => power x e) x (e * power x (e - 1)).
Proof.
  intros P. apply (D_near (fun x => Rpower x e) _ x _ x P).
  - intros y Y. apply Rabs_def2 in Y. unfold power. destruct (Rlt_dec 0 y); [reflexivity|lra].
  - dlim; cbv beta; [exact P|]. unfold power. destruct (Rlt_dec 0 x); [ring|lra].
Qed.
Lemma inner_d x : 0 < x -> derivable_pt_lim (inner w) x (pk w * inner_u w x).
Proof.
  intros P. unfold inner, inner_u. eapply D_eq.
  - apply D_minus; [apply power_d, P|]. apply D_mult; [apply D_const|apply power_d, P].
  - cbv beta. replace (pk w + 2 - 1) with (pk w + 1) by ring. destruct H. field. lra.
Qed.
Lemma ratio_d z : derivable_pt_lim (rratio w deep X) z (if deep then 1 / aref w X else 0).
Proof.
  pose proof aref_pos. unfold rratio. destruct deep; [dlim; cbv beta; try lra; field; lra|apply D_const].
Qed.
(** slopes of the pressure with height and with latitude *)
Lemma pres_dz lat z : 0 <= z -> 0 < cos lat ->
  derivable_pt_lim (pres w deep X lat) z (pres w deep X lat z * (- gr w / rd w) *
    (tau1 w z - tau2 w z * inner w (rratio w deep X z * cos lat)
     - int_tau2 w z * (pk w * inner_u w (rratio w deep X z * cos lat) * ((if deep then 1 / aref w X else 0) * cos lat)))).
Proof.
  intros Z C. pose proof (rratio_pos z Z) as P. assert (0 < rratio w deep X z * cos lat) as Q by (apply Rmult_lt_0_compat; assumption).
  assert (derivable_pt_lim (fun z => inner w (rratio w deep X z * cos lat)) z (pk w * inner_u w (rratio w deep X z * cos lat) * ((if deep then 1 / aref w X else 0) * cos lat))) as I.
  { apply (derivable_pt_lim_comp (fun z => rratio w deep X z * cos lat) (inner w)); [|apply inner_d, Q].
    eapply D_eq; [apply D_mult; [apply ratio_d|apply D_const]|cbv beta; ring]. }
  unfold pres. eapply D_eq.
  - apply D_mult; [apply D_const|]. apply D_exp. apply D_mult; [apply D_const|]. apply D_minus; [apply int1_d|]. apply D_mult; [apply int2_d|exact I].
  - cbv beta. ring.
Qed.
Lemma pres_dlat lat z : 0 <= z -> 0 < cos lat ->
  derivable_pt_lim (fun lat => pres w deep X lat z) lat
    (pres w deep X lat z * (- gr w / rd w) * (int_tau2 w z * (pk w * inner_u w (rratio w deep X z * cos lat) * (rratio w deep X z * sin lat)))).
Proof.
  intros Z C. pose proof (rratio_pos z Z) as P. assert (0 < rratio w deep X z * cos lat) as Q by (apply Rmult_lt_0_compat; assumption).
  assert (derivable_pt_lim (fun lat => inner w (rratio w deep X z * cos lat)) lat (pk w * inner_u w (rratio w deep X z * cos lat) * (- (rratio w deep X z * sin lat)))) as I.
  { apply (derivable_pt_lim_comp (fun lat => rratio w deep X z * cos lat) (inner w)); [|apply inner_d, Q].
    dlim; cbv beta; ring. }
  unfold pres. eapply D_eq.
  - apply D_mult; [apply D_const|]. apply D_exp. apply D_mult; [apply D_const|]. apply D_minus; [apply D_const|]. apply D_mult; [apply D_const|exact I].
  - cbv beta. ring.
Qed.
Lemma pres_pos lat z : 0 < pres w deep X lat z.
Proof. destruct H. apply Rmult_lt_0_compat; [assumption|apply exp_pos]. Qed.
(** the square of the wind *)
Lemma jet_square lat z u : jet w deep X lat z = Some u ->
  u * u + 2 * omegaref w X * rcoslat w deep X lat z * u = rcoslat w deep X lat z * big_u w deep X lat z.
Proof.
  unfold jet. destruct (Rlt_dec _ 0) as [N|N]; [discriminate|]. intros [= <-].
  pose proof (sqrt_sqrt (disc w deep X lat z) ltac:(lra)) as Q. set (q := sqrt _) in *. unfold disc in Q.
  set (o := omegaref w X * rcoslat w deep X lat z) in *.
  replace (2 * omegaref w X * rcoslat w deep X lat z) with (2 * o) by (unfold o; ring).
  nra.
Qed.
Lemma rcos_eq lat z : rcoslat w deep X lat z = aref w X * rratio w deep X z * cos lat.
Proof. pose proof aref_pos. unfold rcoslat, rratio. destruct deep; field; lra. Qed.
(** the range of the meridional profile *)
Lemma inner_range x : 0 < x <= 1 -> 0 <= inner w x <= 2 / (pk w + 2).
Proof.
  intros (P & L). destruct H. unfold inner, power. destruct (Rlt_dec 0 x); [|lra].
  assert (0 < pk w / (pk w + 2) < 1) as T.
  { split; [apply Rdiv_lt_0_compat; lra|]. apply (Rmult_lt_reg_r (pk w + 2)); [lra|]. unfold Rdiv. rewrite Rmult_assoc, Rinv_l; lra. }
  assert (ln x <= 0) as LN by (destruct L as [L| ->]; [left; rewrite <- ln_1; apply ln_increasing; assumption|rewrite ln_1; lra]).
  pose proof (Rpower_pos x (pk w + 2)) as PP. split.
  - assert (Rpower x (pk w + 2) <= Rpower x (pk w)) as M.
    { unfold Rpower. assert ((pk w + 2) * ln x <= pk w * ln x) as [A|A] by nra; [left; apply exp_increasing, A|rewrite A; lra]. }
    nra.
  - pose proof (young (pk w / (pk w + 2)) (Rpower x (pk w + 2)) T PP) as Y. rewrite ln_power in Y.
    replace (pk w / (pk w + 2) * ((pk w + 2) * ln x)) with (pk w * ln x) in Y by (field; lra). fold (Rpower x (pk w)) in Y.
    replace (2 / (pk w + 2)) with (1 - pk w / (pk w + 2)) by (field; lra). lra.
Qed.
Lemma inner_u_pos x : 0 < x <= 1 -> 0 <= inner_u w x.
Proof.
  intros (P & L). unfold inner_u, power. destruct (Rlt_dec 0 x); [|lra].
  assert (ln x <= 0) as LN by (destruct L as [L| ->]; [left; rewrite <- ln_1; apply ln_increasing; assumption|rewrite ln_1; lra]).
  assert (Rpower x (pk w + 1) <= Rpower x (pk w - 1)) as M.
  { unfold Rpower. assert ((pk w + 1) * ln x <= (pk w - 1) * ln x) as [A|A] by nra; [left; apply exp_increasing, A|rewrite A; lra]. }
  lra.
Qed.
Lemma shape_range y : 0 <= y -> -1 <= (1 - 2 * y) * exp (- y) <= 1.
Proof.
  intros Y. pose proof (exp_pos (- y)) as E. assert (exp (- y) <= 1) as E1.
  { rewrite <- exp_0. destruct Y as [Y| <-]; [left; apply exp_increasing; lra|rewrite Ropp_0; lra]. }
  split; [|nra].
  assert (1 + y / 2 <= exp (y / 2)) as Q.
  { destruct Y as [Y| <-]; [left; apply exp_ineq1; lra|]. replace (0 / 2) with 0 by field. rewrite exp_0. lra. }
  assert (exp y = exp (y / 2) * exp (y / 2)) as S by (rewrite <- exp_plus; f_equal; field).
  assert (exp y * exp (- y) = 1) as I by (rewrite <- exp_plus, Rplus_opp_r, exp_0; reflexivity).
  assert (2 * y - 1 <= exp y) as G.
  { rewrite S. assert ((1 + y / 2) * (1 + y / 2) <= exp (y / 2) * exp (y / 2)) by (apply Rmult_le_compat; lra).
    pose proof (Rle_0_sqr (y / 2 - 1)) as K. unfold Rsqr in K. lra. }
  assert ((2 * y - 1) * exp (- y) <= exp y * exp (- y)) by (apply Rmult_le_compat_r; lra). lra.
Qed.
(** the temperature is positive where the argument of the profile is at most one *)
Lemma tau_pos x z : t0e w < 3 * t0p w -> 0 <= z -> 0 < x <= 1 -> 0 < tau1 w z - tau2 w z * inner w x.
Proof.
  intros W Z P. pose proof (inner_range x P) as (I0 & I1). pose proof wt0_pos as T. destruct H.
  pose proof (shape_range (scaled w z * scaled w z) ltac:(pose proof (Rle_0_sqr (scaled w z)) as Q; exact Q)) as S.
  unfold tau1, tau2. set (f := (1 - 2 * (scaled w z * scaled w z)) * exp (- (scaled w z * scaled w z))) in *.
  replace (const_b w * (1 - 2 * (scaled w z * scaled w z)) * exp (- (scaled w z * scaled w z))) with (const_b w * f) by (unfold f; ring).
  replace (const_c w * (1 - 2 * (scaled w z * scaled w z)) * exp (- (scaled w z * scaled w z))) with (const_c w * f) by (unfold f; ring).
  assert (1 / wt0 w <= const_a w * lapse w / wt0 w * exp (lapse w * z / wt0 w)) as A.
  { replace (const_a w * lapse w / wt0 w) with (1 / wt0 w) by (unfold const_a; field; lra).
    assert (1 <= exp (lapse w * z / wt0 w)).
    { rewrite <- exp_0. assert (0 <= lapse w * z / wt0 w) as [E| <-]; [apply Rmult_le_pos; [apply Rmult_le_pos; lra|left; apply Rinv_0_lt_compat, T]|left; apply exp_increasing, E|lra]. }
    assert (0 < 1 / wt0 w) by (apply Rdiv_lt_0_compat; lra). nra. }
  (* the slope B - C I lies between - D / (2 T0 T0E) and D / (2 T0 T0P) *)
  set (D := t0e w - t0p w). assert (0 <= D) by (unfold D; lra).
  assert (const_b w = D / (2 * t0p w) * (1 / wt0 w)) as EB by (unfold const_b, D, wt0; field; lra).
  assert (const_b w - const_c w * (2 / (pk w + 2)) = - (D / (2 * t0e w)) * (1 / wt0 w)) as EC by (unfold const_b, const_c, D, wt0; field; lra).
  assert (0 <= const_c w) as C0.
  { unfold const_c. fold D. apply Rmult_le_pos; [apply Rmult_le_pos; [|assumption]; lra|]. left. apply Rinv_0_lt_compat. apply Rmult_lt_0_compat; lra. }
  assert (D / (2 * t0p w) < 1) as B1.
  { apply (Rmult_lt_reg_r (2 * t0p w)); [lra|]. unfold Rdiv. rewrite Rmult_assoc, Rinv_l by lra. unfold D. lra. }
  assert (D / (2 * t0e w) < 1) as B2.
  { apply (Rmult_lt_reg_r (2 * t0e w)); [lra|]. unfold Rdiv. rewrite Rmult_assoc, Rinv_l by lra. unfold D. lra. }
  assert (0 < 1 / wt0 w) as O by (apply Rdiv_lt_0_compat; lra). set (o := 1 / wt0 w) in *.
  set (m := const_b w - const_c w * inner w x).
  assert (m < o) as M1 by (unfold m; nra).
  assert (- o < m) as M2 by (unfold m; nra).
  assert (- o < m * f) by (destruct (Rle_dec 0 m); nra).
  unfold m in *. lra.
Qed.
End S.
