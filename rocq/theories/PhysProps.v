(** * C38 thermodynamics, C39 stretching, C40 Givens rotations *)
From Coq Require Import Reals List Lra Psatz.
From Verif Require Import PhysModel PhysSpec.
Import ListNotations.
Local Open Scope R_scope.

Definition consistent (c : constants) : Prop :=
  kappa c = gas c / cp c /\ gamma c = cp c / (cp c - gas c) /\ scaling c = p0 c * Rpower (gas c / p0 c) (cp c / (cp c - gas c)).
Lemma set_consistent s c : consistent c -> consistent (set s c).
Proof. intros (K & G & S). unfold consistent. destruct s; cbn; rewrite ?K, ?G, ?S; repeat split. Qed.
(** cached values match the constants after any setters *)
Theorem C38_cached : forall k y s l, let c := sets l (construct k y s) in
  kappa c = gas c / cp c /\ gamma c = cp c / (cp c - gas c) /\ scaling c = p0 c * Rpower (gas c / p0 c) (cp c / (cp c - gas c)).
Proof.
  intros k y s l. cbn zeta. change (consistent (sets l (construct k y s))).
  assert (consistent (construct k y s)) as H by (unfold consistent; cbn; repeat split).
  revert H. generalize (construct k y s). induction l as [|a l IH]; intros c H; [exact H|]. cbn. apply IH, set_consistent, H.
Qed.
Print Assumptions C38_cached.
(** a setter changes its own constant only: [last f d l] is the last value
    given to a constant *)
Definition last_set (f : setter -> option R) (d : R) (l : list setter) : R :=
  fold_left (fun d s => match f s with Some x => x | None => d end) l d.
Theorem C38_setters : forall k y s l, let c := sets l (construct k y s) in
  gas c = last_set (fun s => match s with SetR x => Some x | _ => None end) 287 l /\
  cp c = last_set (fun s => match s with SetCp x => Some x | _ => None end) (2009 / 2) l /\
  p0 c = last_set (fun s => match s with SetP0 x => Some x | _ => None end) 100000 l /\
  g c = last_set (fun s => match s with SetG x => Some x | _ => None end) (980616 / 100000) l /\
  omega c = last_set (fun s => match s with SetOmega x => Some x | _ => None end) (729212 / 10000000000) l /\
  alpha c = last_set (fun s => match s with SetAlpha x => Some x | _ => None end) 0 l /\
  t0 c = last_set (fun s => match s with SetT0 x => Some x | _ => None end) 300 l /\
  earth_radius c = last_set (fun s => match s with SetEarthRadius x => Some x | _ => None end) 6371220 l /\
  rho_water c = last_set (fun s => match s with SetRhoWater x => Some x | _ => None end) 1000 l /\
  rvap c = last_set (fun s => match s with SetRvap x => Some x | _ => None end) (923 / 2) l /\
  mvap c = last_set (fun s => match s with SetMvap x => Some x | _ => None end) (608 / 1000) l /\
  lvap c = last_set (fun s => match s with SetLvap x => Some x | _ => None end) 2500000 l.
Proof.
  intros k y s l. cbn zeta.
  assert (forall (f : setter -> option R) (p : constants -> R), (forall a c, p (set a c) = match f a with Some x => x | None => p c end) ->
    forall l c, p (sets l c) = last_set f (p c) l) as H.
  { intros f p F l'. unfold last_set. induction l' as [|a l' IH]; intros c; [reflexivity|]. cbn. rewrite IH. unfold sets. f_equal. rewrite F. reflexivity. }
  assert (10045 / 10 = 2009 / 2) as E1 by field. assert (4615 / 10 = 923 / 2) as E2 by field.
  repeat split; match goal with |- ?p (sets _ _) = last_set ?f _ _ => rewrite (H f p) by (intros [] c; reflexivity) end; cbn; rewrite ?E1, ?E2; reflexivity.
Qed.
Print Assumptions C38_setters.

(** facts about a consistent set of constants *)
Section Consistent.
Context (c : constants) (OK : consistent c) (Hr : 0 < gas c) (Hc : gas c < cp c) (Hp : 0 < p0 c).
Local Lemma pp x y : 0 < x -> 0 < y -> 0 < x / y.
Proof. intros; apply Rdiv_lt_0_compat; assumption. Qed.
Local Lemma is_poisson x : 0 < x -> pressure_from_rhotheta c x = poisson (gas c) (cp c) (p0 c) x.
Proof.
  intros Hx. destruct OK as (_ & G & S). unfold pressure_from_rhotheta, poisson. rewrite S, G. rewrite Rmult_assoc. f_equal. unfold Rpower.
  rewrite <- exp_plus. f_equal. replace (gas c * x / p0 c) with (gas c / p0 c * x) by (field; lra).
  rewrite (ln_mult (gas c / p0 c) x) by (try apply pp; assumption). ring.
Qed.
Local Lemma sc_pos : 0 < scaling c.
Proof. destruct OK as (_ & _ & ->). apply Rmult_lt_0_compat; [assumption|apply exp_pos]. Qed.
Local Lemma is_exner p : 0 < p -> exner_from_pressure c p = exner (gas c) (cp c) (p0 c) p.
Proof. intros _. reflexivity. Qed.
Local Lemma is_exner_rt x : 0 < x -> exner_from_rhotheta c x = exner (gas c) (cp c) (p0 c) (poisson (gas c) (cp c) (p0 c) x).
Proof.
  intros Hx. unfold exner_from_rhotheta, exner, poisson, Rpower. f_equal.
  replace (p0 c * exp (cp c / (cp c - gas c) * ln (gas c * x / p0 c)) / p0 c) with (exp (cp c / (cp c - gas c) * ln (gas c * x / p0 c))) by (field; lra).
  rewrite ln_exp. f_equal. replace (gas c / p0 c * x) with (gas c * x / p0 c) by (field; lra). field. lra.
Qed.
Local Lemma inv_p : inverse_on_positive (pressure_from_rhotheta c) (rhotheta_from_pressure c).
Proof.
  pose proof sc_pos as S. destruct OK as (_ & G & _). intros x Hx. unfold pressure_from_rhotheta, rhotheta_from_pressure.
  assert (gamma c <> 0) as N by (rewrite G; pose proof (pp (cp c) (cp c - gas c)); lra).
  split; [apply Rmult_lt_0_compat; [assumption|apply exp_pos]|]. split; [apply exp_pos|]. split.
  - replace (scaling c * exp (ln x * gamma c) / scaling c) with (exp (ln x * gamma c)) by (field; lra).
    rewrite ln_exp. replace (ln x * gamma c / gamma c) with (ln x) by (field; assumption). apply exp_ln, Hx.
  - rewrite ln_exp. replace (ln (x / scaling c) / gamma c * gamma c) with (ln (x / scaling c)) by (field; assumption).
    rewrite exp_ln by (apply pp; assumption). field. lra.
Qed.
Local Lemma inv_e : inverse_on_positive (exner_from_pressure c) (pressure_from_exner c).
Proof.
  intros x Hx. unfold exner_from_pressure, pressure_from_exner.
  split; [apply Rmult_lt_0_compat; [lra|apply exp_pos]|]. split; [apply Rmult_lt_0_compat; [lra|apply exp_pos]|]. split.
  - replace (cp c * exp (gas c / cp c * ln (x / p0 c)) / cp c) with (exp (gas c / cp c * ln (x / p0 c))) by (field; lra).
    rewrite ln_exp. replace (cp c / gas c * (gas c / cp c * ln (x / p0 c))) with (ln (x / p0 c)) by (field; lra).
    rewrite exp_ln by (apply pp; assumption). field. lra.
  - replace (p0 c * exp (cp c / gas c * ln (x / cp c)) / p0 c) with (exp (cp c / gas c * ln (x / cp c))) by (field; lra).
    rewrite ln_exp. replace (gas c / cp c * (cp c / gas c * ln (x / cp c))) with (ln (x / cp c)) by (field; lra).
    rewrite exp_ln by (apply pp; lra). field. lra.
Qed.
Local Lemma inv_x : inverse_on_positive (exner_from_rhotheta c) (rhotheta_from_exner c).
Proof.
  intros x Hx. unfold exner_from_rhotheta, rhotheta_from_exner.
  split; [apply Rmult_lt_0_compat; [lra|apply exp_pos]|]. split; [apply Rmult_lt_0_compat; [apply pp; lra|apply exp_pos]|]. split.
  - replace (cp c * exp (gas c / (cp c - gas c) * ln (gas c / p0 c * x)) / cp c) with (exp (gas c / (cp c - gas c) * ln (gas c / p0 c * x))) by (field; lra).
    rewrite ln_exp. replace ((cp c - gas c) / gas c * (gas c / (cp c - gas c) * ln (gas c / p0 c * x))) with (ln (gas c / p0 c * x)) by (field; lra).
    rewrite exp_ln by (apply Rmult_lt_0_compat; [apply pp; lra|assumption]). field. lra.
  - replace (gas c / p0 c * (p0 c / gas c * exp ((cp c - gas c) / gas c * ln (x / cp c)))) with (exp ((cp c - gas c) / gas c * ln (x / cp c))) by (field; lra).
    rewrite ln_exp. replace (gas c / (cp c - gas c) * ((cp c - gas c) / gas c * ln (x / cp c))) with (ln (x / cp c)) by (field; lra).
    rewrite exp_ln by (apply pp; lra). field. lra.
Qed.
End Consistent.

(** every conversion computes the physical relation for the current constants,
    whatever setters were called before *)
Theorem C38_values : forall k y s l, let c := sets l (construct k y s) in
  0 < gas c -> gas c < cp c -> 0 < p0 c -> forall x, 0 < x ->
  pressure_from_rhotheta c x = poisson (gas c) (cp c) (p0 c) x /\
  exner_from_pressure c x = exner (gas c) (cp c) (p0 c) x /\
  exner_from_rhotheta c x = exner (gas c) (cp c) (p0 c) (poisson (gas c) (cp c) (p0 c) x).
Proof.
  intros k y s l c Hr Hc Hp x Hx. pose proof (C38_cached k y s l : consistent c) as OK.
  split; [apply is_poisson; assumption|]. split; [apply is_exner; assumption|apply is_exner_rt; assumption].
Qed.
Print Assumptions C38_values.
Theorem C38_inverse : forall k y s l, let c := sets l (construct k y s) in
  0 < gas c -> gas c < cp c -> 0 < p0 c ->
  inverse_on_positive (pressure_from_rhotheta c) (rhotheta_from_pressure c) /\
  inverse_on_positive (exner_from_pressure c) (pressure_from_exner c) /\
  inverse_on_positive (exner_from_rhotheta c) (rhotheta_from_exner c).
Proof.
  intros k y s l c Hr Hc Hp. pose proof (C38_cached k y s l : consistent c) as OK.
  split; [apply inv_p; assumption|]. split; [apply inv_e; assumption|apply inv_x; assumption].
Qed.
Print Assumptions C38_inverse.
(** all routes between the three quantities commute *)
Theorem C38_routes : forall k y s l, let c := sets l (construct k y s) in
  0 < gas c -> gas c < cp c -> 0 < p0 c -> forall x, 0 < x ->
  exner_from_pressure c (pressure_from_rhotheta c x) = exner_from_rhotheta c x /\
  pressure_from_exner c (exner_from_rhotheta c x) = pressure_from_rhotheta c x /\
  rhotheta_from_exner c (exner_from_pressure c x) = rhotheta_from_pressure c x /\
  rhotheta_from_pressure c (pressure_from_exner c x) = rhotheta_from_exner c x.
Proof.
  intros k y s l c Hr Hc Hp.
  destruct (C38_inverse k y s l Hr Hc Hp) as (Ip & Ie & Ix). fold c in Ip, Ie, Ix.
  assert (forall x, 0 < x -> exner_from_pressure c (pressure_from_rhotheta c x) = exner_from_rhotheta c x) as R1.
  { intros x Hx. destruct (C38_values k y s l Hr Hc Hp x Hx) as (E1 & _ & E3). fold c in E1, E3.
    destruct (Ip x Hx) as (P & _). destruct (C38_values k y s l Hr Hc Hp _ P) as (_ & E2 & _). fold c in E2. rewrite E2, E1, E3. reflexivity. }
  intros x Hx. split; [apply R1, Hx|]. split; [|split].
  - destruct (Ip x Hx) as (P & _). rewrite <- R1 by assumption. apply (Ie _ P).
  - destruct (Ip x Hx) as (_ & P & _ & E). rewrite <- E at 1. rewrite R1 by assumption. apply (Ix _ P).
  - destruct (Ix x Hx) as (_ & P & _ & E). rewrite <- E at 1. rewrite <- R1 by assumption.
    destruct (Ip _ P) as (P2 & _). destruct (Ie _ P2) as (_ & _ & E2 & _). rewrite E2. apply (Ip _ P).
Qed.
Print Assumptions C38_routes.
(** cv is what gamma uses *)
Theorem C38_gamma : forall k y s l, let c := sets l (construct k y s) in
  0 < gas c -> gas c < cp c -> gamma c = cp c / get_cv c /\ 1 < gamma c /\ 0 < kappa c < 1 /\ gamma c * (1 - kappa c) = 1.
Proof.
  intros k y s l c Hr Hc. destruct (C38_cached k y s l) as (K & G & _). fold c in K, G. unfold get_cv. rewrite K, G.
  split; [reflexivity|]. split; [|split; [split|]].
  - apply (Rmult_lt_reg_r (cp c - gas c)); [lra|]. replace (cp c / (cp c - gas c) * (cp c - gas c)) with (cp c) by (field; lra). lra.
  - apply Rdiv_lt_0_compat; lra.
  - apply (Rmult_lt_reg_r (cp c)); [lra|]. replace (gas c / cp c * cp c) with (gas c) by (field; lra). lra.
  - field. lra.
Qed.
Print Assumptions C38_gamma.
Example C38_case : let c := sets [SetP0 95000; SetR 280; SetG 1] (construct 7 8 9) in
  0 < gas c /\ gas c < cp c /\ 0 < p0 c /\ exner_from_pressure c 95000 = cp c.
Proof.
  cbn. split; [lra|]. split; [lra|]. split; [lra|]. unfold exner_from_pressure. cbn.
  replace (95000 / 95000) with 1 by field. rewrite ln_1, Rmult_0_r, exp_0. lra.
Qed.

(** ** C39 *)
Lemma cubic_value x : fst (stretch_cubic x) = (x + 8 * x * x + x * x * x) / 10.
Proof. unfold stretch_cubic, S1, S2. cbn. field. Qed.
Theorem C39_column : column_map (fun x => fst (stretch_uniform x)) /\ column_map (fun x => fst (stretch_cubic x)) /\
  column_map (fun x => fst (stretch_piecewise x)).
Proof.
  split; [|split].
  - unfold column_map; cbn. repeat split; intros; lra.
  - unfold column_map. rewrite !cubic_value. split; [field|]. split; [field|].
    assert (forall x y, 0 <= x -> x < y -> y <= 1 -> (x + 8 * x * x + x * x * x) / 10 < (y + 8 * y * y + y * y * y) / 10) as M.
    { intros x y Hx Hy _. assert (0 < (y - x) * (1 + 8 * (x + y) + (x * x + x * y + y * y))) as P; [|nra].
      apply Rmult_lt_0_compat; [lra|]. assert (0 <= x * x /\ 0 <= x * y /\ 0 <= y * y) by (repeat split; apply Rmult_le_pos; lra). lra. }
    split; [intros x y; rewrite !cubic_value; apply M|]. intros x Hx. rewrite cubic_value. split.
    + assert (0 <= x * x /\ 0 <= x * x * x) by (split; repeat apply Rmult_le_pos; lra). lra.
    + destruct (Req_dec x 1) as [->|N]; [lra|]. pose proof (M x 1 ltac:(lra) ltac:(lra) ltac:(lra)). lra.
  - unfold column_map, stretch_piecewise. split; [destruct (Rlt_dec 0 (2/3)); cbn; lra|]. split; [destruct (Rlt_dec 1 (2/3)); cbn; lra|].
    split; intros; repeat destruct (Rlt_dec _ _); cbn; lra.
Qed.
Print Assumptions C39_column.
Theorem C39_derivative : forall x,
  derivable_pt_lim (fun x => fst (stretch_uniform x)) x (snd (stretch_uniform x)) /\
  derivable_pt_lim (fun x => fst (stretch_cubic x)) x (snd (stretch_cubic x)) /\
  (x <> 2 / 3 -> derivable_pt_lim (fun x => fst (stretch_piecewise x)) x (snd (stretch_piecewise x))).
Proof.
  intros x. split; [|split].
  - cbn. apply derivable_pt_lim_id.
  - unfold stretch_cubic. cbn [fst snd]. set (b := 3 - 2 * S1 - S2). set (d := -2 + S1 + S2). set (a := S1). clearbody b d a.
    intros e He. exists (mkposreal (Rmin 1 (e / (Rabs b + Rabs d * (3 * Rabs x + 1) + 1)))
      ltac:(apply Rmin_pos; [lra|]; apply Rdiv_lt_0_compat; [assumption|]; pose proof (Rabs_pos b); pose proof (Rmult_le_pos (Rabs d) (3 * Rabs x + 1) (Rabs_pos _) ltac:(pose proof (Rabs_pos x); lra)); lra)).
    intros h Nh Hh. cbn [pos] in Hh.
    match goal with |- Rabs ?u < e => replace u with (h * (b + d * (3 * x + h))) by (field; assumption) end.
    assert (0 < Rabs b + Rabs d * (3 * Rabs x + 1) + 1) as P by (pose proof (Rabs_pos b); pose proof (Rmult_le_pos (Rabs d) (3 * Rabs x + 1) (Rabs_pos _) ltac:(pose proof (Rabs_pos x); lra)); lra).
    rewrite Rabs_mult. pose proof (Rmin_l 1 (e / (Rabs b + Rabs d * (3 * Rabs x + 1) + 1))) as M1. pose proof (Rmin_r 1 (e / (Rabs b + Rabs d * (3 * Rabs x + 1) + 1))) as M2.
    assert (Rabs (b + d * (3 * x + h)) <= Rabs b + Rabs d * (3 * Rabs x + 1)) as B.
    { eapply Rle_trans; [apply Rabs_triang|]. apply Rplus_le_compat_l. rewrite Rabs_mult. apply Rmult_le_compat_l; [apply Rabs_pos|].
      eapply Rle_trans; [apply Rabs_triang|]. rewrite Rabs_mult, (Rabs_right 3) by lra. lra. }
    apply Rle_lt_trans with (Rabs h * (Rabs b + Rabs d * (3 * Rabs x + 1))); [apply Rmult_le_compat_l; [apply Rabs_pos|exact B]|].
    apply Rle_lt_trans with (Rabs h * (Rabs b + Rabs d * (3 * Rabs x + 1) + 1)); [apply Rmult_le_compat_l; [apply Rabs_pos|lra]|].
    apply Rlt_le_trans with (e / (Rabs b + Rabs d * (3 * Rabs x + 1) + 1) * (Rabs b + Rabs d * (3 * Rabs x + 1) + 1)).
    + apply Rmult_lt_compat_r; lra.
    + right. field. lra.
  - intros N e He. unfold stretch_piecewise.
    exists (mkposreal (Rabs (x - 2 / 3)) ltac:(apply Rabs_pos_lt; lra)). intros h Nh Hh. cbn [pos] in Hh.
    destruct (Rlt_dec x (2/3)), (Rlt_dec (x + h) (2/3)); cbn [fst snd].
    + match goal with |- Rabs ?u < e => replace u with 0 by (field; assumption) end. rewrite Rabs_R0. assumption.
    + exfalso. rewrite (Rabs_left (x - 2/3)) in Hh by lra. pose proof (Rle_abs h). lra.
    + exfalso. rewrite (Rabs_right (x - 2/3)) in Hh by lra. pose proof (Rle_abs (-h)). rewrite Rabs_Ropp in H. lra.
    + match goal with |- Rabs ?u < e => replace u with 0 by (field; assumption) end. rewrite Rabs_R0. assumption.
Qed.
Print Assumptions C39_derivative.
(** at the kink the returned value is the derivative from above *)
Theorem C39_kink_refuted : snd (stretch_piecewise (2 / 3)) = 2 /\ forall d, ~ derivable_pt_lim (fun x => fst (stretch_piecewise x)) (2 / 3) d.
Proof.
  split; [unfold stretch_piecewise; destruct (Rlt_dec (2/3) (2/3)); cbn; lra|].
  intros d H. destruct (H (1/2) ltac:(lra)) as (e & He). pose proof (cond_pos e) as Pe.
  pose proof (He (pos e / 2) ltac:(lra) ltac:(rewrite Rabs_right; lra)) as A.
  pose proof (He (- (pos e / 2)) ltac:(lra) ltac:(rewrite Rabs_Ropp, Rabs_right; lra)) as B.
  unfold stretch_piecewise in A, B.
  destruct (Rlt_dec (2/3 + e/2) (2/3)) in A; [lra|]. destruct (Rlt_dec (2/3) (2/3)) in A; [lra|].
  destruct (Rlt_dec (2/3 + - (e/2)) (2/3)) in B; [|lra]. destruct (Rlt_dec (2/3) (2/3)) in B; [lra|]. cbn [fst] in A, B.
  replace ((2 * (2 / 3 + e / 2 - 2 / 3) + 1 / 3 - (2 * (2 / 3 - 2 / 3) + 1 / 3)) / (e / 2) - d) with (2 - d) in A by (field; lra).
  replace ((1 / 2 * (2 / 3 + - (e / 2)) - (2 * (2 / 3 - 2 / 3) + 1 / 3)) / - (e / 2) - d) with (1 / 2 - d) in B by (field; lra).
  apply Rabs_def2 in A, B. lra.
Qed.
Print Assumptions C39_kink_refuted.
Example C39_case : fst (stretch_cubic (1/2)) = 2625 / 10000 /\ fst (stretch_piecewise (1/2)) = 1/4.
Proof. split; [rewrite cubic_value; field|unfold stretch_piecewise; destruct (Rlt_dec (1/2) (2/3)); cbn; lra]. Qed.

(** ** C40 *)
Theorem C40_givens : forall a b, let '(c, s) := givens a b in c * c + s * s = 1 /\ - s * a + c * b = 0 /\
  (c * a + s * b) * (c * a + s * b) = a * a + b * b.
Proof.
  intros a b. assert (let '(c, s) := givens a b in c * c + s * s = 1 /\ - s * a + c * b = 0) as H.
  { unfold givens. destruct (Req_EM_T b 0) as [->|Nb]; [cbn; lra|].
    assert (forall t, 0 < sqrt (1 + t * t) /\ sqrt (1 + t * t) * sqrt (1 + t * t) = 1 + t * t) as Q.
    { intros t. pose proof (Rle_0_sqr t) as T. unfold Rsqr in T. split; [apply sqrt_lt_R0; lra|apply sqrt_sqrt; lra]. }
    destruct (Rlt_dec (Rabs a) (Rabs b)) as [L|L].
    - cbn zeta. destruct (Q (a / b)) as (P & E). set (q := sqrt _) in *. clearbody q.
      split; [|field; split; (assumption || lra)].
      replace (a / b * (1 / q) * (a / b * (1 / q)) + 1 / q * (1 / q)) with ((1 + a / b * (a / b)) / (q * q)) by (field; split; (assumption || lra)).
      rewrite E. field. pose proof (Rle_0_sqr (a / b)) as T. unfold Rsqr in T. split; [assumption|].
      replace (b * b + a * a) with (b * b * (1 + a / b * (a / b))) by (field; assumption).
      apply Rmult_integral_contrapositive_currified; [apply Rmult_integral_contrapositive_currified; assumption|lra].
    - assert (a <> 0) as Na by (intros ->; rewrite Rabs_R0 in L; apply L, Rabs_pos_lt, Nb).
      cbn zeta. destruct (Q (b / a)) as (P & E). set (q := sqrt _) in *. clearbody q.
      split; [|field; split; (assumption || lra)].
      replace (1 / q * (1 / q) + b / a * (1 / q) * (b / a * (1 / q))) with ((1 + b / a * (b / a)) / (q * q)) by (field; split; (assumption || lra)).
      rewrite E. field. pose proof (Rle_0_sqr (b / a)) as T. unfold Rsqr in T. split; [assumption|].
      replace (a * a + b * b) with (a * a * (1 + b / a * (b / a))) by (field; assumption).
      apply Rmult_integral_contrapositive_currified; [apply Rmult_integral_contrapositive_currified; assumption|lra]. }
  destruct (givens a b) as [c s]. destruct H as (H1 & H2). split; [exact H1|]. split; [exact H2|].
  replace ((c * a + s * b) * (c * a + s * b)) with ((c * c + s * s) * (a * a + b * b) - (- s * a + c * b) * (- s * a + c * b)) by ring. rewrite H1, H2. ring.
Qed.
Print Assumptions C40_givens.
Theorem C40_rotate : forall rs h, (forall r, In r rs -> exists a b, r = givens a b) -> norm2 (rotate_column rs h) = norm2 h.
Proof.
  induction rs as [|r rs IH]; intros h H; [reflexivity|].
  destruct h as [|u [|v h]]; [reflexivity|reflexivity|]. cbn [rotate_column].
  destruct (H r (or_introl eq_refl)) as (a & b & E). pose proof (C40_givens a b) as G. rewrite <- E in G. destruct r as [c s]. destruct G as (G & _).
  unfold rotate. cbn [fst snd norm2 fold_right].
  change (fold_right (fun x s => x * x + s) 0) with norm2. rewrite IH by (intros r Hr; apply H; right; exact Hr).
  cbn [norm2 fold_right]. change (fold_right (fun x s => x * x + s) 0) with norm2.
  transitivity ((c * c + s * s) * (u * u + v * v) + norm2 h); [ring|]. rewrite G. ring.
Qed.
Print Assumptions C40_rotate.
(** the new rotation makes the last column entry vanish, and the diagonal
    entry is the length of the rotated pair up to sign *)
Theorem C40_annihilate : forall a b, snd (rotate (givens a b) a b) = 0 /\ Rabs (fst (rotate (givens a b) a b)) = sqrt (a * a + b * b).
Proof.
  intros a b. pose proof (C40_givens a b) as H. destruct (givens a b) as [c s]. destruct H as (_ & H2 & H3). unfold rotate; cbn [fst snd].
  split; [exact H2|]. rewrite <- H3. symmetry. apply sqrt_Rsqr_abs.
Qed.
Print Assumptions C40_annihilate.
Example C40_case : givens 3 4 = (3 / 4 * (1 / sqrt (1 + 3 / 4 * (3 / 4))), 1 / sqrt (1 + 3 / 4 * (3 / 4))) /\ sqrt (1 + 3 / 4 * (3 / 4)) = 5 / 4.
Proof.
  unfold givens. destruct (Req_EM_T 4 0); [lra|]. rewrite !Rabs_right by lra. destruct (Rlt_dec 3 4); [|lra].
  split; [reflexivity|]. replace (1 + 3 / 4 * (3 / 4)) with ((5 / 4) * (5 / 4)) by field. apply sqrt_square. lra.
Qed.
