(** * C127-C129: condensation, surface fluxes and mixing of one column *)
From Coq Require Import Reals ZArith Lra Lia.
From Verif Require Import DlimProofs.
From Verif Require Import DcmModel DcmSpec DcmProofs.
Local Open Scope R_scope.

Ltac consts := unfold gravit, rair, cpair, latvap, rh2o, c_heat, sst_tc, t_0, e_0, rhow, cd0, cd1, cm, v20, p_0, pbltop, zpbltop, pblconst, karman in *.

(** ** C127: large-scale precipitation *)
(** the saturation value obeys Clausius and Clapeyron *)
Theorem C127_saturation : forall p, 0 < p -> clausius (rair / rh2o) p latvap rh2o t_0 e_0 (saturation p).
Proof.
  intros p P. split.
  - unfold saturation, epsilo. replace (1 / t_0 - 1 / t_0) with 0 by ring. rewrite Rmult_0_r, exp_0. ring.
  - intros t T. unfold saturation at 1. eapply D_eq.
    + apply (D_mult (fun _ => epsilo * e_0 / p)); [apply D_const|].
      apply (D_exp (fun t => - (latvap / rh2o) * (1 / t - 1 / t_0))).
      apply (D_mult (fun _ => - (latvap / rh2o))); [apply D_const|]. apply D_minus; [|apply D_const].
      apply (D_div (fun _ => 1) (fun t => t)); [apply D_const|apply D_id|lra].
    + cbv beta. unfold saturation. field. repeat split; try lra; consts; lra.
Qed.
Print Assumptions C127_saturation.

Lemma saturation_pos p t : 0 < p -> 0 < saturation p t.
Proof. intros P. unfold saturation, epsilo. apply Rmult_lt_0_compat; [|apply exp_pos]. consts. apply Rdiv_lt_0_compat; lra. Qed.
Lemma slope_pos s t : 0 < s -> 0 < t -> 0 < latvap / cpair * epsilo * latvap * s / (rair * (t * t)).
Proof.
  intros S T. unfold epsilo. consts. apply Rdiv_lt_0_compat; [|apply Rmult_lt_0_compat; [lra|apply Rmult_lt_0_compat; lra]].
  apply Rmult_lt_0_compat; lra.
Qed.

(** a level that is not over-saturated is left alone; otherwise part of the excess
    condenses, its latent heat warms the air, and the two meet on the tangent of the
    saturation curve *)
Theorem C127_level : forall r p t q m qv t' q' qv' m' p' d, 0 < p -> 0 < t ->
  condense r p t q m qv = (t', q', qv', m', p', d) ->
  (q <= saturation p t -> t' = t /\ q' = q /\ qv' = qv /\ m' = m /\ p' = p /\ d = 0) /\
  (saturation p t < q ->
     0 < d < q - saturation p t /\ q' = q - d /\ cpair * t' + latvap * q' = cpair * t + latvap * q /\
     (forall l, derivable_pt_lim (saturation p) t l -> q' = saturation p t + l * (t' - t)) /\
     (q < 1 -> moist r qv' q' m') /\ ideal rair zvir p' m' t' qv').
Proof.
  intros r p t q m qv t' q' qv' m' p' d P T E. unfold condense in E. destruct (Rlt_dec (saturation p t) q) as [L|L].
  2: { split; [|lra]. intros _. injection E as <- <- <- <- <- <-. repeat split. }
  split; [lra|]. intros _. pose proof (saturation_pos p t P) as SP. pose proof (slope_pos _ t SP T) as SL.
  set (s := saturation p t) in *. set (g := latvap / cpair * epsilo * latvap * s / (rair * (t * t))) in *.
  set (D := (q - s) / (1 + g)) in *. assert (d = D /\ t' = t + latvap / cpair * D /\ q' = q - D /\ qv' = q' / (1 - q') /\ m' = r / (1 - q') /\ p' = m' * rair * t' * (1 + zvir * qv')) as (-> & ET & EQ & EV & EM & EP).
  { injection E as <- <- <- <- <- <-. repeat split. }
  assert (0 < D) as D0 by (apply Rdiv_lt_0_compat; lra).
  assert (D * (1 + g) = q - s) as DG by (unfold D; field; lra).
  assert (0 < D * g) by (apply Rmult_lt_0_compat; assumption).
  split; [lra|]. split; [exact EQ|]. split; [rewrite ET, EQ; field; unfold cpair; lra|]. split; [|split].
  - intros l Hl. pose proof (proj2 (C127_saturation p P) t T) as Hs. rewrite (uniqueness_limite _ _ _ _ Hl Hs), ET, EQ. fold s.
    assert (g = latvap / cpair * (latvap * s / (rh2o * (t * t)))) as G by (unfold g, epsilo; consts; field; lra).
    replace (latvap * s / (rh2o * (t * t)) * (t + latvap / cpair * D - t)) with (D * g) by (rewrite G; ring). lra.
  - intros Q1. assert (q' < 1) by lra. split; rewrite EM, EV; field; lra.
  - unfold ideal. rewrite EP. ring.
Qed.
Print Assumptions C127_level.

(** after the adjustment the air is not over-saturated at that pressure *)
Theorem C127_saturated : forall r p t q m qv t' q' qv' m' p' d, 0 < p -> 0 < t ->
  condense r p t q m qv = (t', q', qv', m', p', d) -> 2 * t' <= latvap / rh2o -> q' <= saturation p t'.
Proof.
  intros r p t q m qv t' q' qv' m' p' d P T E B. destruct (C127_level _ _ _ _ _ _ _ _ _ _ _ _ P T E) as [H1 H2].
  destruct (Rlt_dec (saturation p t) q) as [L|L].
  2: { destruct H1 as (-> & -> & _); lra. }
  destruct (H2 L) as (D & EQ & HE & TG & _). rewrite (TG _ (proj2 (C127_saturation p P) t T)).
  assert (t <= t') as TT. { apply Rmult_le_reg_l with cpair; [unfold cpair; lra|]. assert (0 < latvap * d) by (apply Rmult_lt_0_compat; [unfold latvap|]; lra). rewrite EQ in HE. lra. }
  set (a := latvap / rh2o) in *. assert (0 < t') as T' by lra.
  assert (saturation p t' = saturation p t * exp (a * (t' - t) / (t * t'))) as ->.
  { unfold saturation. rewrite Rmult_assoc, <- exp_plus. f_equal. f_equal. fold a. field. split; [|split]; try lra; unfold t_0; lra. }
  set (y := a * (t' - t) / (t * t')). assert (0 < a) as A0 by (unfold a; consts; lra).
  assert (0 <= y) as Y. { unfold y. apply Rmult_le_pos; [apply Rmult_le_pos; lra|]. left. apply Rinv_0_lt_compat, Rmult_lt_0_compat; lra. }
  pose proof (exp_two y Y) as E2. pose proof (saturation_pos p t P) as SP.
  replace (saturation p t + latvap * saturation p t / (rh2o * (t * t)) * (t' - t)) with (saturation p t * (1 + a * (t' - t) / (t * t))).
  2: { unfold a. field. split; [lra|unfold rh2o; lra]. }
  apply Rmult_le_compat_l; [lra|]. eapply Rle_trans; [|exact E2].
  assert (a * (t' - t) / (t * t) = y + y * y / 2 - a * ((t' - t) * (t' - t)) * (a - 2 * t') / (2 * (t * t) * (t' * t'))) as -> by (unfold y; field; lra).
  assert (0 <= a * ((t' - t) * (t' - t)) * (a - 2 * t') / (2 * (t * t) * (t' * t'))).
  { apply Rmult_le_pos; [apply Rmult_le_pos; [apply Rmult_le_pos; [lra|apply Rle_0_sqr]|lra]|]. left. apply Rinv_0_lt_compat. repeat apply Rmult_lt_0_compat; lra. }
  lra.
Qed.
Print Assumptions C127_saturated.

Definition level (F : fixed) (s : air) (k : nat) := condense (rho F k) (p s k) (t s k) (qsv s k) (rhom s k) (qv s k).
Definition condensed (F : fixed) (s : air) (k : nat) : R := snd (level F s k).
Lemma precipitate_level F s n : forall k,
  let s' := fst (precipitate F s n) in
  if Nat.ltb k n then (t s' k, qsv s' k, qv s' k, rhom s' k, p s' k, condensed F s k) = level F s k
  else (t s' k, qsv s' k, qv s' k, rhom s' k, p s' k) = (t s k, qsv s k, qv s k, rhom s k, p s k).
Proof.
  induction n as [|n IH]; intros k; [reflexivity|]. cbn [precipitate]. pose proof (IH k) as IK. pose proof (IH n) as IN.
  rewrite Nat.ltb_irrefl in IN. destruct (precipitate F s n) as [s1 rain]. cbn [fst] in IK, IN.
  injection IN as E1 E2 E3 E4 E5. rewrite E1, E2, E3, E4, E5. fold (level F s n). destruct (level F s n) as [[[[[t' q'] qv'] m'] p'] d] eqn:EL.
  cbv zeta. cbn [fst t qsv qv rhom p]. unfold put. destruct (Nat.eqb_spec k n) as [->|N].
  - replace (Nat.ltb n (S n)) with true by (symmetry; apply Nat.ltb_lt; lia). unfold condensed. rewrite EL. reflexivity.
  - replace (Nat.ltb k (S n)) with (Nat.ltb k n); [exact IK|]. destruct (Nat.ltb_spec k n), (Nat.ltb_spec k (S n)); try reflexivity; lia.
Qed.
Lemma precipitate_wind F s n : let s' := fst (precipitate F s n) in u s' = u s /\ v s' = v s /\ qc s' = qc s /\ qr s' = qr s.
Proof.
  induction n; [repeat split|]. cbn [precipitate]. destruct (precipitate F s n) as [s1 rain]. cbn in IHn.
  destruct (condense _ _ _ _ _ _) as [[[[[t' q'] qv'] m'] p'] d]. cbn. exact IHn.
Qed.
Lemma precipitate_rain F s n : snd (precipitate F s n) = total n (fun k => condensed F s k * rhom s k * (zi F (S k) - zi F k) / (dtime F * rhow)).
Proof.
  induction n as [|n IH]; [reflexivity|]. cbn [precipitate total]. pose proof (precipitate_level F s n n) as IN. rewrite Nat.ltb_irrefl in IN.
  destruct (precipitate F s n) as [s1 rain]. cbn [fst snd] in *. cbv zeta in IN. injection IN as E1 E2 E3 E4 E5. rewrite E1, E2, E3, E4, E5. fold (level F s n).
  unfold condensed at 2. destruct (level F s n) as [[[[[t' q'] qv'] m'] p'] d]. cbn. rewrite IH. reflexivity.
Qed.

Definition state_ok (n : nat) (r : nat -> R) (s : air) : Prop := forall k, (k < n)%nat ->
  0 < p s k /\ 0 < t s k /\ 0 <= qv s k /\ moist (r k) (qv s k) (qsv s k) (rhom s k) /\ ideal rair zvir (p s k) (rhom s k) (t s k) (qv s k).
Lemma zvir_pos : 0 < zvir. Proof. unfold zvir. consts. lra. Qed.
Lemma moist_q r qv q m : 0 < r -> 0 <= qv -> moist r qv q m -> 0 <= q < 1 /\ q = qv / (1 + qv) /\ 0 < m /\ m = r / (1 - q).
Proof.
  intros R Q [E1 E2]. assert (0 < m) as M by (rewrite E1; apply Rmult_lt_0_compat; lra).
  assert (q = qv / (1 + qv)) as EQ.
  { apply Rmult_eq_reg_r with m; [|lra]. rewrite E2, E1. field. lra. }
  assert (0 <= q) as Q0 by (rewrite EQ; apply Rmult_le_pos; [lra|left; apply Rinv_0_lt_compat; lra]).
  assert (1 - q = 1 / (1 + qv)) as I by (rewrite EQ; field; lra).
  assert (0 < 1 - q) by (rewrite I; apply Rdiv_lt_0_compat; lra).
  repeat split; try lra. rewrite I, E1. field. lra.
Qed.

(** the whole column: rain is not negative, temperatures do not fall, vapour does not
    rise, and the state stays a state.  Rain is the vapour lost weighted by 1 - q: *)
Theorem C127_column : forall F s, column_ok (nz F) (rho F) (zm F) (zi F) (dtime F) -> state_ok (nz F) (rho F) s ->
  let '(s', rain) := precipitate F s (nz F) in
  state_ok (nz F) (rho F) s' /\ u s' = u s /\ v s' = v s /\
  (forall k, (k < nz F)%nat -> t s k <= t s' k /\ 0 <= qsv s' k <= qsv s k /\ cpair * t s' k + latvap * qsv s' k = cpair * t s k + latvap * qsv s k) /\
  0 <= rain /\
  dtime F * rhow * rain = total (nz F) (fun k => (1 - qsv s' k) * (rho F k * (qv s k - qv s' k) * (zi F (S k) - zi F k))) /\
  dtime F * rhow * rain <= vapour (nz F) (rho F) (zi F) (qv s) - vapour (nz F) (rho F) (zi F) (qv s') /\
  ((exists k, (k < nz F)%nat /\ saturation (p s k) (t s k) < qsv s k) ->
   dtime F * rhow * rain < vapour (nz F) (rho F) (zi F) (qv s) - vapour (nz F) (rho F) (zi F) (qv s')).
Proof.
  intros F s O SO. pose proof (precipitate_rain F s (nz F)) as PR. pose proof (precipitate_level F s (nz F)) as PL. pose proof (precipitate_wind F s (nz F)) as PW.
  destruct (precipitate F s (nz F)) as [s' rain]. cbn [fst snd] in *. cbv zeta in PL, PW. destruct PW as (PU & PV & _).
  pose proof O as (N & DT & G0 & H0 & RP & GP & HP).
  assert (forall k, (k < nz F)%nat ->
    (0 < p s' k /\ 0 < t s' k /\ 0 <= qv s' k /\ moist (rho F k) (qv s' k) (qsv s' k) (rhom s' k) /\ ideal rair zvir (p s' k) (rhom s' k) (t s' k) (qv s' k)) /\
    (t s k <= t s' k /\ 0 <= qsv s' k <= qsv s k /\ cpair * t s' k + latvap * qsv s' k = cpair * t s k + latvap * qsv s k) /\
    0 <= condensed F s k * rhom s k /\ 0 <= rho F k * (qv s k - qv s' k) /\ condensed F s k * rhom s k = (1 - qsv s' k) * (rho F k * (qv s k - qv s' k)) /\
    (saturation (p s k) (t s k) < qsv s k -> 0 < qsv s' k /\ 0 < rho F k * (qv s k - qv s' k))) as H.
  { intros k K. specialize (PL k). replace (Nat.ltb k (nz F)) with true in PL by (symmetry; apply Nat.ltb_lt; lia).
    destruct (SO k K) as (P & T & Q & MO & ID). pose proof (RP k K) as R. destruct (moist_q _ _ _ _ R Q MO) as (QB & QE & MP & ME).
    unfold level in PL. symmetry in PL. destruct (C127_level _ _ _ _ _ _ _ _ _ _ _ _ P T PL) as [L1 L2].
    destruct (Rlt_dec (saturation (p s k) (t s k)) (qsv s k)) as [L|L].
    - destruct (L2 L) as (D & EQ & HE & _ & MO' & ID'). specialize (MO' (proj2 QB)). pose proof (saturation_pos (p s k) (t s k) P) as SP.
      assert (t s k <= t s' k) as TT.
      { apply Rmult_le_reg_l with cpair; [unfold cpair; lra|]. assert (0 < latvap * condensed F s k) by (apply Rmult_lt_0_compat; [unfold latvap|]; lra). rewrite EQ in HE. lra. }
      assert (qsv s' k < 1) as Q1 by lra. assert (0 < qsv s' k) as Q0 by lra.
      destruct MO' as [M1 M2].
      assert (qv s' k = qsv s' k * (1 + qv s' k)) as V1 by (rewrite M1 in M2; apply Rmult_eq_reg_l with (rho F k); lra).
      assert (qv s' k = qsv s' k / (1 - qsv s' k)) as V2 by (apply Rmult_eq_reg_r with (1 - qsv s' k); [|lra]; unfold Rdiv; rewrite Rmult_assoc, Rinv_l; lra).
      assert (0 < qv s' k) as V0 by (rewrite V2; apply Rdiv_lt_0_compat; lra).
      assert (condensed F s k * rhom s k = (1 - qsv s' k) * (rho F k * (qv s k - qv s' k))) as LOSS.
      { assert (condensed F s k = qsv s k - qsv s' k) as -> by lra. rewrite ME.
        assert (qv s k = qsv s k / (1 - qsv s k)) as -> by (rewrite QE; field; lra). rewrite V2. field. lra. }
      assert (0 < condensed F s k * rhom s k) as CP by (apply Rmult_lt_0_compat; lra).
      assert (0 < rhom s' k) as M'P by (rewrite M1; apply Rmult_lt_0_compat; lra).
      assert (0 < rho F k * (qv s k - qv s' k)) as LP by (apply Rmult_lt_reg_l with (1 - qsv s' k); lra).
      split; [|split; [|split; [|split; [|split]]]]; try lra.
      + split; [|split; [lra|split; [lra|split; [split; assumption|exact ID']]]]. rewrite ID'. pose proof zvir_pos as Z.
        assert (0 < zvir * qv s' k) by (apply Rmult_lt_0_compat; assumption). apply Rmult_lt_0_compat; [apply Rmult_lt_0_compat; [assumption|unfold rair; lra]|apply Rmult_lt_0_compat; lra].
    - destruct L1 as (-> & -> & -> & -> & -> & ->); [lra|]. rewrite Rmult_0_l. repeat split; try lra; assumption || apply MO. }
  assert (forall k, (k < nz F)%nat -> 0 < zi F (S k) - zi F k) as Z by (intros k K; specialize (GP k K); lra).
  assert (0 < dtime F * rhow) as DR by (apply Rmult_lt_0_compat; [|unfold rhow]; lra).
  assert (dtime F * rhow * rain = total (nz F) (fun k => (1 - qsv s' k) * (rho F k * (qv s k - qv s' k) * (zi F (S k) - zi F k)))) as RAIN.
  { rewrite PR, <- total_scale. apply total_ext. intros k K. destruct (H k K) as (_ & _ & _ & _ & E & _).
    replace ((1 - qsv s' k) * (rho F k * (qv s k - qv s' k) * (zi F (S k) - zi F k))) with ((1 - qsv s' k) * (rho F k * (qv s k - qv s' k)) * (zi F (S k) - zi F k)) by ring. rewrite <- E. field. split; [unfold rhow|]; lra. }
  split; [intros k K; apply H, K|]. split; [exact PU|]. split; [exact PV|]. split; [intros k K; apply H, K|]. split; [|split; [|split]].
  - rewrite PR. apply total_pos. intros k K. destruct (H k K) as (_ & _ & E & _). specialize (Z k K). unfold Rdiv.
    apply Rmult_le_pos; [apply Rmult_le_pos; lra|]. left. apply Rinv_0_lt_compat, DR.
  - exact RAIN.
  - rewrite RAIN. unfold vapour. rewrite <- total_minus. apply total_le. intros k K. destruct (H k K) as (_ & (_ & (Q0 & _) & _) & _ & E & _). specialize (Z k K).
    replace (rho F k * qv s k * (zi F (S k) - zi F k) - rho F k * qv s' k * (zi F (S k) - zi F k)) with (1 * (rho F k * (qv s k - qv s' k) * (zi F (S k) - zi F k))) by ring.
    apply Rmult_le_compat_r; [apply Rmult_le_pos; lra|lra].
  - intros (k & K & L). rewrite RAIN. unfold vapour. rewrite <- total_minus. destruct (H k K) as (_ & _ & _ & _ & _ & E). destruct (E L) as [E1 E2].
    apply (total_lt _ _ _ k K).
    + intros j J. destruct (H j J) as (_ & (_ & (Q0 & _) & _) & _ & EJ & _). specialize (Z j J).
      replace (rho F j * qv s j * (zi F (S j) - zi F j) - rho F j * qv s' j * (zi F (S j) - zi F j)) with (1 * (rho F j * (qv s j - qv s' j) * (zi F (S j) - zi F j))) by ring.
      apply Rmult_le_compat_r; [apply Rmult_le_pos; lra|lra].
    + specialize (Z k K). replace (rho F k * qv s k * (zi F (S k) - zi F k) - rho F k * qv s' k * (zi F (S k) - zi F k)) with (1 * (rho F k * (qv s k - qv s' k) * (zi F (S k) - zi F k))) by ring.
      apply Rmult_lt_compat_r; [apply Rmult_lt_0_compat; lra|lra].
Qed.
Print Assumptions C127_column.

(** a state prepared from positive dry density and pressure and a mixing ratio *)
Lemma prepare_ok F u v p qv qc qr : (forall k, (k < nz F)%nat -> 0 < rho F k /\ 0 < p k /\ 0 <= qv k) -> state_ok (nz F) (rho F) (prepare F u v p qv qc qr).
Proof.
  intros H k K. destruct (H k K) as (R & P & Q). unfold prepare. cbn [DcmModel.p t DcmModel.qv qsv rhom]. pose proof zvir_pos as Z.
  assert (0 < rho F k * (1 + qv k)) as M by (apply Rmult_lt_0_compat; lra). assert (0 <= zvir * qv k) by (apply Rmult_le_pos; lra).
  assert (0 < rair) by (unfold rair; lra). split; [exact P|]. split; [apply Rdiv_lt_0_compat; [exact P|apply Rmult_lt_0_compat; [apply Rmult_lt_0_compat|]; lra]|].
  split; [exact Q|]. split; [split; [reflexivity|field; lra]|]. unfold ideal. field. repeat split; try lra; intros E; lra.
Qed.

(** water is lost: one saturated layer *)
Definition one_layer : fixed := Fixed 1 (fun _ => 1) (fun _ => 50) (fun k => 100 * INR k) 100.
Definition damp : air := prepare one_layer (fun _ => 3) (fun _ => 4) (fun _ => 2 * rair * (1 + zvir) * t_0) (fun _ => 1) (fun _ => 0) (fun _ => 0).
Lemma one_layer_ok : column_ok (nz one_layer) (rho one_layer) (zm one_layer) (zi one_layer) (dtime one_layer).
Proof.
  unfold column_ok, one_layer. cbn [nz rho zm zi dtime]. split; [lia|]. split; [lra|]. split; [cbn [INR]; lra|]. split; [lra|]. split; [intros; lra|]. split.
  - intros k K. rewrite S_INR. lra.
  - intros k K. lia.
Qed.
Lemma damp_ok : state_ok (nz one_layer) (rho one_layer) damp.
Proof.
  apply prepare_ok. intros k K. cbn [one_layer rho]. pose proof zvir_pos. split; [lra|]. split; [|lra].
  apply Rmult_lt_0_compat; [apply Rmult_lt_0_compat; [apply Rmult_lt_0_compat; [lra|unfold rair; lra]|lra]|unfold t_0; lra].
Qed.
Lemma damp_over : saturation (p damp 0) (t damp 0) < qsv damp 0.
Proof.
  unfold damp, prepare. cbn [p t qsv one_layer rho]. pose proof zvir_pos as Z.
  assert (2 * rair * (1 + zvir) * t_0 / (1 * (1 + 1) * rair * (1 + zvir * 1)) = t_0) as ->.
  { field. split; [lra|unfold rair; lra]. }
  unfold saturation. replace (1 / t_0 - 1 / t_0) with 0 by ring. rewrite Rmult_0_r, exp_0. unfold zvir, epsilo. consts. lra.
Qed.
(** vapour lost by the column does not all fall as rain *)
Theorem C127_budget_refuted : ~ (forall F s, column_ok (nz F) (rho F) (zm F) (zi F) (dtime F) -> state_ok (nz F) (rho F) s ->
  let '(s', rain) := precipitate F s (nz F) in
  dtime F * rhow * rain = vapour (nz F) (rho F) (zi F) (qv s) - vapour (nz F) (rho F) (zi F) (qv s')).
Proof.
  intros H. specialize (H one_layer damp one_layer_ok damp_ok). pose proof (C127_column one_layer damp one_layer_ok damp_ok) as G.
  destruct (precipitate one_layer damp (nz one_layer)) as [s' rain]. destruct G as (_ & _ & _ & _ & _ & _ & _ & G).
  assert (dtime one_layer * rhow * rain < vapour (nz one_layer) (rho one_layer) (zi one_layer) (qv damp) - vapour (nz one_layer) (rho one_layer) (zi one_layer) (qv s')) as L.
  { apply G. exists 0%nat. split; [cbn; lia|exact damp_over]. }
  lra.
Qed.
Print Assumptions C127_budget_refuted.
(** the hypotheses are met *)
Example C127_case : column_ok (nz one_layer) (rho one_layer) (zm one_layer) (zi one_layer) (dtime one_layer) /\ state_ok (nz one_layer) (rho one_layer) damp /\
  saturation (p damp 0) (t damp 0) < qsv damp 0.
Proof. split; [exact one_layer_ok|]. split; [exact damp_ok|exact damp_over]. Qed.
