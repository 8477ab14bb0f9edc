(** * Lemmas on the tropical cyclone *)
From Coq Require Import Reals Lra Psatz.
From Verif Require Import DlimProofs TcModel TcSpec.
Local Open Scope R_scope.

(** signs and sizes of the parameters *)
Record sane (s : storm) : Prop := Sane {
  s_gas : 0 < gas s; s_grav : 0 < grav s; s_gamma : 0 < gamma s; s_rp : 0 < rp s; s_dp : 0 < dp s; s_zp : 0 < zp s;
  s_t0 : 0 < t0 s; s_low : dp s < p00 s; s_ctv : 0 <= const_tv s; s_q0 : 0 <= q0 s; s_qt : 0 <= qtrop s;
  s_zt : 0 < ztrop s; s_tt : 0 < t_trop s; s_deep : gas s * t0 s * dp s < grav s * zp s * (p00 s - dp s) }.

Lemma exp_le a b : a <= b -> exp a <= exp b.
Proof. intros [H| ->]; [left; apply exp_increasing, H|right; reflexivity]. Qed.
Lemma power32_nonneg x : 0 <= power32 x.
Proof. unfold power32. destruct (Rlt_dec 0 x); [left; apply exp_pos|lra]. Qed.
Lemma gauss_half x : x * exp (- (x * x)) <= 1 / 2.
Proof.
  pose proof (exp_pos (x * x)) as P. rewrite exp_Ropp. apply (Rmult_le_reg_r (exp (x * x)) _ _ P). rewrite Rmult_assoc, Rinv_l, Rmult_1_r by lra.
  destruct (Req_dec x 0) as [->|N]; [lra|].
  assert (x * x <> 0) as M by (intros X; apply Rmult_integral in X; lra). pose proof (exp_ineq1 (x * x) M). pose proof (Rle_0_sqr (x - 1)) as Q. unfold Rsqr in Q. lra.
Qed.

Section S.
Context (s : storm) (H : sane s).
Let E r := exp (- power32 (r / rp s)).
Let Z z := exp (- (z / zp s * (z / zp s))).
Let T z := t0 s - gamma s * z.
Let A r z := p00 s - dp s * E r * Z z.

Lemma E_pos r : 0 < E r. Proof. apply exp_pos. Qed.
Lemma Z_pos z : 0 < Z z. Proof. apply exp_pos. Qed.
Lemma E_le r : E r <= 1.
Proof. unfold E. rewrite <- exp_0. apply exp_le. pose proof (power32_nonneg (r / rp s)). lra. Qed.
Lemma Z_le z : Z z <= 1.
Proof. unfold Z. rewrite <- exp_0. apply exp_le. pose proof (Rle_0_sqr (z / zp s)) as Q. unfold Rsqr in Q. lra. Qed.
Lemma T_pos z : z <= ztrop s -> 0 < T z.
Proof. intros L. destruct H. unfold t_trop in s_tt0. unfold T. nra. Qed.
Lemma EZ_le r z : E r * Z z <= 1.
Proof. pose proof (E_pos r). pose proof (Z_pos z). pose proof (E_le r). pose proof (Z_le z). nra. Qed.
Lemma A_low r z : p00 s - dp s <= A r z.
Proof. pose proof (EZ_le r z). destruct H. unfold A. nra. Qed.
Lemma A_pos r z : 0 < A r z.
Proof. pose proof (A_low r z). destruct H. lra. Qed.
(** the denominator of the balances *)
Lemma den_pos r z : 0 <= z <= ztrop s -> 0 < grav s * (zp s * zp s) * A r z - 2 * gas s * T z * z * (dp s * E r * Z z).
Proof.
  intros [L0 L1]. pose proof (A_low r z) as Al. pose proof (T_pos z L1) as Tp. pose proof (E_pos r). pose proof (E_le r). pose proof (Z_pos z).
  pose proof (gauss_half (z / zp s)) as G. fold (Z z) in G.
  destruct H.
  assert (z * Z z <= zp s / 2) as G2.
  { replace (z * Z z) with (zp s * (z / zp s * Z z)) by (field; lra). nra. }
  assert (T z <= t0 s) by (unfold T; nra).
  assert (0 <= z * Z z) by nra.
  assert (0 <= E r * (z * Z z) <= zp s / 2) as G3 by (split; nra).
  assert (T z * (E r * (z * Z z)) <= t0 s * (zp s / 2)) as G4 by nra.
  assert (2 * gas s * dp s * (T z * (E r * (z * Z z))) <= 2 * gas s * dp s * (t0 s * (zp s / 2))) as G5.
  { apply Rmult_le_compat_l; [|exact G4]. apply Rmult_le_pos; lra. }
  assert (zp s * (gas s * t0 s * dp s) < zp s * (grav s * zp s * (p00 s - dp s))) as G6 by (apply Rmult_lt_compat_l; assumption).
  assert (grav s * (zp s * zp s) * (p00 s - dp s) <= grav s * (zp s * zp s) * A r z) as G7.
  { apply Rmult_le_compat_l; [|exact Al]. left. apply Rmult_lt_0_compat; [assumption|nra]. }
  nra.
Qed.
Lemma humid z : 0 < 1 + const_tv s * humidity s z.
Proof.
  destruct H. assert (0 <= humidity s z).
  { unfold humidity. destruct (Rlt_dec (ztrop s) z); [assumption|]. apply Rmult_le_pos; [apply Rmult_le_pos; [assumption|]|]; left; apply exp_pos. }
  nra.
Qed.
(** the bracket that both formulas share *)
Lemma bracket r z : 1 - p00 s / dp s * exp (power32 (r / rp s)) * exp (z / zp s * (z / zp s)) = - A r z / (dp s * E r * Z z).
Proof.
  assert (forall a, exp a = / exp (- a)) as X by (intros a; rewrite exp_Ropp, Rinv_inv; reflexivity).
  rewrite (X (power32 (r / rp s))), (X (z / zp s * (z / zp s))). fold (E r) (Z z). unfold A.
  pose proof (E_pos r). pose proof (Z_pos z). destruct H. field. lra.
Qed.
(** the virtual temperature *)
Lemma virtual r z : 0 <= z <= ztrop s ->
  temperature s r z * (1 + const_tv s * humidity s z)
  = T z * (grav s * (zp s * zp s) * A r z) / (grav s * (zp s * zp s) * A r z - 2 * gas s * T z * z * (dp s * E r * Z z)).
Proof.
  intros L. pose proof (den_pos r z L) as D. pose proof (humid z). pose proof (A_pos r z). pose proof (E_pos r). pose proof (Z_pos z).
  unfold temperature. destruct (Rlt_dec (ztrop s) z); [lra|]. rewrite bracket. fold (T z). destruct H.
  assert (0 < zp s * zp s) by nra.
  field. repeat split; try lra.
  all: intros X; apply (Rlt_not_eq _ _ D); lra.
Qed.
Lemma one_over : 1 / exponent s = grav s / (gas s * gamma s).
Proof. unfold exponent. destruct H. field. lra. Qed.

Lemma q_pos z : z <= ztrop s -> 0 < T z / t0 s.
Proof. intros L. apply Rdiv_lt_0_compat; [apply T_pos, L|apply H]. Qed.
Lemma q_power z e : z <= ztrop s -> Rpower (T z / t0 s) (e - 1) = Rpower (T z / t0 s) e * (t0 s / T z).
Proof.
  intros L. pose proof (q_pos z L) as P. pose proof (T_pos z L). rewrite <- (Rpower_pred _ e P). destruct H. field. lra.
Qed.
Lemma lower_pos r z : z <= ztrop s -> 0 < lower s r z.
Proof. intros L. unfold lower. apply Rmult_lt_0_compat; [apply (A_pos r z)|apply exp_pos]. Qed.
Lemma p_trop_pos : 0 < p_trop s.
Proof. unfold p_trop. destruct H. apply Rmult_lt_0_compat; [lra|apply exp_pos]. Qed.
Lemma pressure_pos r z : 0 < pressure s r z.
Proof.
  unfold pressure. destruct (Rlt_dec (ztrop s) z); [apply Rmult_lt_0_compat; [apply p_trop_pos|apply exp_pos]|apply lower_pos; lra].
Qed.
Lemma virtual_pos r z : 0 <= z -> 0 < temperature s r z * (1 + const_tv s * humidity s z).
Proof.
  intros L. destruct (Rlt_dec (ztrop s) z) as [X|X].
  - pose proof (humid z). unfold temperature. destruct (Rlt_dec (ztrop s) z); [|lra]. apply Rmult_lt_0_compat; [apply H|assumption].
  - rewrite virtual by lra. pose proof (den_pos r z). pose proof (A_pos r z). pose proof (T_pos z). destruct H.
    apply Rdiv_lt_0_compat; [|lra]. apply Rmult_lt_0_compat; [lra|]. apply Rmult_lt_0_compat; [|assumption]. repeat apply Rmult_lt_0_compat; assumption.
Qed.

(** slope of the pressure with height below the tropopause *)
Lemma lower_dz r z : z <= ztrop s ->
  derivable_pt_lim (lower s r) z (Rpower (T z / t0 s) (1 / exponent s) * (2 * z * (dp s * E r * Z z) / (zp s * zp s) - A r z * grav s / (gas s * T z))).
Proof.
  intros L. pose proof (q_pos z L) as Q. pose proof (T_pos z L) as P. unfold lower. change (t0 s - gamma s * z) with (T z) in *. destruct H.
  dlim; cbv beta; try lra; try exact Q.
  change (t0 s - gamma s * z) with (T z). rewrite q_power by exact L. fold (E r) (Z z). fold (A r z).
  rewrite one_over. field. lra.
Qed.
Lemma fpi_dz p r z : z <= ztrop s -> derivable_pt_lim (fun z => fpi_f s p r z) z (fpi_df s r z).
Proof.
  intros L. pose proof (q_pos z L) as Q. pose proof (T_pos z L) as P. unfold fpi_f, fpi_df. destruct H.
  dlim; cbv beta; try lra; try exact Q.
  change (t0 s - gamma s * z) with (T z). rewrite q_power by exact L. fold (E r) (Z z). 
  field. lra.
Qed.
(** slope of the pressure with distance *)
Lemma power32_d x : 0 < x -> derivable_pt_lim power32 x (3 / 2 * power32 x / x).
Proof.
  intros P. apply (D_near (fun x => Rpower x (3 / 2)) power32 x _ x P).
  - intros y Y. unfold power32. destruct (Rlt_dec 0 y); [reflexivity|]. apply Rabs_def2 in Y. lra.
  - dlim; cbv beta; [exact P|]. unfold power32. destruct (Rlt_dec 0 x); [|lra].
    rewrite <- (Rpower_pred x (3 / 2) P). field. lra.
Qed.
Lemma power32_dr r : 0 < r -> derivable_pt_lim (fun r => power32 (r / rp s)) r (3 / 2 * power32 (r / rp s) / r).
Proof.
  intros P. assert (0 < rp s) by apply H. assert (0 < r / rp s) as Q by (apply Rdiv_lt_0_compat; assumption).
  eapply D_eq. 
  - apply (derivable_pt_lim_comp (fun r => r / rp s) power32 r (1 / rp s) (3 / 2 * power32 (r / rp s) / (r / rp s))); [|apply power32_d, Q].
    dlim; cbv beta; try lra. field. lra.
  - field. lra.
Qed.
Lemma lower_dr r z : 0 < r ->
  derivable_pt_lim (fun r => lower s r z) r (3 / 2 * power32 (r / rp s) / r * (dp s * E r * Z z) * Rpower (T z / t0 s) (1 / exponent s)).
Proof.
  intros P. unfold lower. fold (T z) (Z z). eapply D_eq.
  - repeat (dstep || apply power32_dr || exact P).
  - cbv beta. fold (E r). ring.
Qed.
End S.
