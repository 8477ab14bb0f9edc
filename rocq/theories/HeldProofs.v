(** * Held-Suarez forcing: lemmas *)
From Coq Require Import Reals Lra Lia.
From Verif Require Import PhysModel HeldModel HeldSpec.
Local Open Scope R_scope.

Lemma boundary_profile s : boundary s = profile sigma_b s.
Proof.
  unfold boundary, profile. set (b := (s - sigma_b) / (1 - sigma_b)). cbv zeta.
  destruct (Rlt_dec b 0); [rewrite Rmax_left|rewrite Rmax_right]; lra.
Qed.
Lemma boundary_nonneg s : 0 <= boundary s.
Proof. unfold boundary. cbv zeta. destruct (Rlt_dec _ 0); lra. Qed.
Lemma boundary_le1 s : s <= 1 -> boundary s <= 1.
Proof. intros H. unfold boundary, sigma_b. cbv zeta. destruct (Rlt_dec _ 0); lra. Qed.
Lemma boundary_zero s : s <= sigma_b -> boundary s = 0.
Proof. intros H. unfold boundary, sigma_b in *. cbv zeta. destruct (Rlt_dec _ 0); lra. Qed.
Lemma boundary_pos s : sigma_b < s -> 0 < boundary s.
Proof. intros H. unfold boundary, sigma_b in *. cbv zeta. destruct (Rlt_dec _ 0); lra. Qed.

Section Gas.
  Context (c : constants) (S : 0 < scaling c) (R0 : 0 < gas c) (G : 1 < gamma c).
  Lemma pressure_pos x : 0 < pressure_from_rhotheta c x.
  Proof. apply Rmult_lt_0_compat; [exact S|apply exp_pos]. Qed.
  Lemma temperature_pos r x : 0 < r -> 0 < temperature c r x.
  Proof. intros H. apply Rdiv_lt_0_compat; [apply pressure_pos|nra]. Qed.
  Lemma pressure_lim x : 0 < x -> derivable_pt_lim (pressure_from_rhotheta c) x (pressure_from_rhotheta c x * gamma c / x).
  Proof.
    intros H. unfold pressure_from_rhotheta.
    replace (scaling c * exp (ln x * gamma c) * gamma c / x) with (scaling c * (exp (ln x * gamma c) * (/ x * gamma c))) by (field; lra).
    apply (derivable_pt_lim_scal (fun x => exp (ln x * gamma c))).
    apply (derivable_pt_lim_comp (fun x => ln x * gamma c) exp); [|apply derivable_pt_lim_exp].
    replace (/ x * gamma c) with (/ x * gamma c + ln x * 0) by ring.
    apply (derivable_pt_lim_mult ln (fun _ => gamma c)); [apply derivable_pt_lim_ln, H|apply derivable_pt_lim_const].
  Qed.
  Lemma temperature_lim r x : 0 < r -> 0 < x -> derivable_pt_lim (temperature c r) x (temperature c r x * gamma c / x).
  Proof.
    intros Hr H. unfold temperature.
    replace (pressure_from_rhotheta c x / (r * gas c) * gamma c / x) with (/ (r * gas c) * (pressure_from_rhotheta c x * gamma c / x)) by (field; lra).
    assert (E : forall y, / (r * gas c) * pressure_from_rhotheta c y = pressure_from_rhotheta c y / (r * gas c)) by (intros; unfold Rdiv; ring).
    pose proof (derivable_pt_lim_scal (pressure_from_rhotheta c) (/ (r * gas c)) x _ (pressure_lim x H)) as D.
    intros e He. destruct (D e He) as (d & Hd). exists d. intros h H1 H2. rewrite <- !E. exact (Hd h H1 H2).
  Qed.
  (** the thermodynamic tendency at frozen rate and equilibrium *)
  Definition tend (k te r x : R) : R := - k / gamma c * x * (1 - te / temperature c r x).
  Lemma tend_lim k te r x : 0 < r -> 0 < x -> derivable_pt_lim (tend k te r) x (d_h c k te (temperature c r x)).
  Proof.
    intros Hr H. pose proof (temperature_pos r x Hr) as T. unfold d_h.
    replace (- k / gamma c * (1 + (gamma c - 1) * te / temperature c r x))
      with (- k / gamma c * (1 - te / temperature c r x) + - k / gamma c * x * (0 - te * ((0 * temperature c r x - (temperature c r x * gamma c / x) * 1) / Rsqr (temperature c r x)))).
    2:{ unfold Rsqr. field. repeat split; lra. }
    unfold tend. apply (derivable_pt_lim_mult (fun x => - k / gamma c * x) (fun x => 1 - te / temperature c r x)).
    - pose proof (derivable_pt_lim_scal (fun x => x) (- k / gamma c) x 1 (derivable_pt_lim_id x)) as D. rewrite Rmult_1_r in D. exact D.
    - apply (derivable_pt_lim_minus (fun _ => 1) (fun x => te / temperature c r x)); [apply derivable_pt_lim_const|].
      assert (E : forall y, te * (1 / temperature c r y) = te / temperature c r y) by (intros; unfold Rdiv; ring).
      pose proof (derivable_pt_lim_div (fun _ => 1) (temperature c r) x 0 _ (derivable_pt_lim_const 1 x) (temperature_lim r x Hr H) ltac:(lra)) as D.
      pose proof (derivable_pt_lim_scal _ te x _ D) as D2. unfold mult_real_fct, div_fct in D2.
      intros e He. destruct (D2 e He) as (d & Hd). exists d. intros h H1 H2. rewrite <- !E. exact (Hd h H1 H2).
  Qed.
  Lemma d_h_neg k te tm : 0 < k -> 0 < te -> 0 < tm -> d_h c k te tm < 0.
  Proof.
    intros K E T. unfold d_h. assert (0 < k / gamma c) by (apply Rdiv_lt_0_compat; lra).
    assert (0 < (gamma c - 1) * te / tm) by (apply Rdiv_lt_0_compat; [nra|lra]).
    replace (- k / gamma c) with (- (k / gamma c)) by (unfold Rdiv; ring). nra.
  Qed.
  (** the factor of the update, written as a quotient *)
  Lemma factor dt k te tm : 0 <= dt -> 0 < k -> 0 < te -> 0 < tm ->
    1 + dt / (1 - dt * d_h c k te tm) * h_rate c k te tm
    = (1 + dt * k * (te / tm)) / (1 + dt * (k / gamma c) * (1 + (gamma c - 1) * (te / tm))).
  Proof.
    intros D K E T. pose proof (d_h_neg k te tm K E T) as N.
    assert (0 < 1 - dt * d_h c k te tm) as P by nra.
    assert (1 - dt * d_h c k te tm = 1 + dt * (k / gamma c) * (1 + (gamma c - 1) * (te / tm))) as Q by (unfold d_h; field; lra).
    rewrite <- Q. apply (Rmult_eq_reg_r (1 - dt * d_h c k te tm)); [|lra].
    transitivity (1 - dt * d_h c k te tm + dt * h_rate c k te tm); [field; lra|].
    transitivity (1 + dt * k * (te / tm)); [|field; lra].
    unfold d_h, h_rate. field. lra.
  Qed.
  Lemma temperature_scale r x f : 0 < x -> 0 < f -> 0 < r ->
    temperature c r (x * f) = temperature c r x * exp (gamma c * ln f).
  Proof.
    intros X F Hr. unfold temperature, pressure_from_rhotheta. rewrite ln_mult by assumption.
    replace ((ln x + ln f) * gamma c) with (ln x * gamma c + gamma c * ln f) by ring. rewrite exp_plus. field. lra.
  Qed.
End Gas.

Lemma exp_tangent s t : exp s * (1 + (t - s)) <= exp t.
Proof.
  replace (exp t) with (exp s * exp (t - s)) by (rewrite <- exp_plus; f_equal; ring).
  apply Rmult_le_compat_l; [left; apply exp_pos|]. destruct (Req_dec (t - s) 0) as [E|N].
  - rewrite E, exp_0. lra.
  - left. apply exp_ineq1. exact N.
Qed.
Lemma exp_tangent_strict s t : s <> t -> exp s * (1 + (t - s)) < exp t.
Proof.
  intros N. replace (exp t) with (exp s * exp (t - s)) by (rewrite <- exp_plus; f_equal; ring).
  apply Rmult_lt_compat_l; [apply exp_pos|]. apply exp_ineq1. lra.
Qed.
(** weighted means: r^w <= 1 - w + w r *)
Lemma young w r : 0 < w < 1 -> 0 < r -> exp (w * ln r) <= 1 - w + w * r.
Proof.
  intros W H. pose proof (exp_tangent (w * ln r) (ln r)) as A. pose proof (exp_tangent (w * ln r) 0) as B.
  rewrite exp_ln in A by exact H. rewrite exp_0 in B. set (L := ln r) in *. set (e := exp (w * L)) in *. nra.
Qed.
Lemma young_strict w r : 0 < w < 1 -> 0 < r -> r <> 1 -> exp (w * ln r) < 1 - w + w * r.
Proof.
  intros W H N. assert (ln r <> 0) as L0.
  { intros E. apply N. rewrite <- (exp_ln r H), E. apply exp_0. }
  pose proof (exp_tangent_strict (w * ln r) (ln r)) as A. pose proof (exp_tangent_strict (w * ln r) 0) as B.
  rewrite exp_ln in A by exact H. rewrite exp_0 in B. set (L := ln r) in *. set (e := exp (w * L)) in *.
  assert (w * L <> L) by nra. assert (w * L <> 0) by nra. specialize (A H0). specialize (B H1). nra.
Qed.
(** g r / (1 + (g - 1) r) <= r^(1/g) *)
Lemma limit_factor gm r : 1 < gm -> 0 < r -> gm * r / (1 + (gm - 1) * r) <= exp (/ gm * ln r).
Proof.
  intros G H. assert (0 < / gm < 1) as I by (split; [apply Rinv_0_lt_compat; lra|rewrite <- Rinv_1; apply Rinv_lt_contravar; lra]).
  pose proof (young (1 - / gm) r ltac:(lra) H) as Y.
  assert (0 < 1 + (gm - 1) * r) as P by nra.
  apply (Rmult_le_reg_r (1 + (gm - 1) * r)); [exact P|].
  replace (gm * r / (1 + (gm - 1) * r) * (1 + (gm - 1) * r)) with (gm * r) by (field; lra).
  assert (exp (/ gm * ln r) * exp ((1 - / gm) * ln r) = r) as E.
  { rewrite <- exp_plus. replace (/ gm * ln r + (1 - / gm) * ln r) with (ln r) by ring. apply exp_ln, H. }
  pose proof (exp_pos (/ gm * ln r)) as P2. set (a := exp (/ gm * ln r)) in *.
  apply Rle_trans with (gm * (a * (1 - (1 - / gm) + (1 - / gm) * r))).
  - rewrite <- E. apply Rmult_le_compat_l; [lra|]. apply Rmult_le_compat_l; [lra|]. rewrite E. exact Y.
  - right. field. lra.
Qed.
Lemma limit_factor_strict gm r : 1 < gm -> 0 < r -> r <> 1 -> gm * r / (1 + (gm - 1) * r) < exp (/ gm * ln r).
Proof.
  intros G H N. assert (0 < / gm < 1) as I by (split; [apply Rinv_0_lt_compat; lra|rewrite <- Rinv_1; apply Rinv_lt_contravar; lra]).
  pose proof (young_strict (1 - / gm) r ltac:(lra) H N) as Y.
  assert (0 < 1 + (gm - 1) * r) as P by nra.
  apply (Rmult_lt_reg_r (1 + (gm - 1) * r)); [exact P|].
  replace (gm * r / (1 + (gm - 1) * r) * (1 + (gm - 1) * r)) with (gm * r) by (field; lra).
  assert (exp (/ gm * ln r) * exp ((1 - / gm) * ln r) = r) as E.
  { rewrite <- exp_plus. replace (/ gm * ln r + (1 - / gm) * ln r) with (ln r) by ring. apply exp_ln, H. }
  pose proof (exp_pos (/ gm * ln r)) as P2. set (a := exp (/ gm * ln r)) in *.
  apply Rlt_le_trans with (gm * (a * (1 - (1 - / gm) + (1 - / gm) * r))).
  - rewrite <- E. apply Rmult_lt_compat_l; [lra|]. apply Rmult_lt_compat_l; [lra|]. rewrite E. exact Y.
  - right. field. lra.
Qed.
(** the factor lies between 1 and its limit *)
Lemma mediant_up a b t : 0 < a -> 0 <= t -> a <= b -> 1 <= (1 + t * b) / (1 + t * a) <= b / a.
Proof.
  intros A T L. assert (0 < 1 + t * a) by nra. split.
  - apply (Rmult_le_reg_r (1 + t * a)); [lra|]. replace ((1 + t * b) / (1 + t * a) * (1 + t * a)) with (1 + t * b) by (field; lra). nra.
  - apply (Rmult_le_reg_r (a * (1 + t * a))); [nra|].
    replace ((1 + t * b) / (1 + t * a) * (a * (1 + t * a))) with ((1 + t * b) * a) by (field; lra).
    replace (b / a * (a * (1 + t * a))) with (b * (1 + t * a)) by (field; lra). nra.
Qed.
Lemma mediant_down a b t : 0 < a -> 0 < b -> 0 <= t -> b <= a -> b / a <= (1 + t * b) / (1 + t * a) <= 1.
Proof.
  intros A B T L. assert (0 < 1 + t * a) by nra. split.
  - apply (Rmult_le_reg_r (a * (1 + t * a))); [nra|].
    replace ((1 + t * b) / (1 + t * a) * (a * (1 + t * a))) with ((1 + t * b) * a) by (field; lra).
    replace (b / a * (a * (1 + t * a))) with (b * (1 + t * a)) by (field; lra). nra.
  - apply (Rmult_le_reg_r (1 + t * a)); [lra|]. replace ((1 + t * b) / (1 + t * a) * (1 + t * a)) with (1 + t * b) by (field; lra). nra.
Qed.
