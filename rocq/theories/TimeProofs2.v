From Coq Require Import ZArith Bool List Lia ZifyBool Ascii.
From Verif Require Import TimeModel TimeSpec TimeProofs TimeStrModel TimeStrProofs.
Import ListNotations.
Local Open Scope Z_scope.
Ltac Zify.zify_post_hook ::= Z.div_mod_to_equations.

(** ** C01 *)
Lemma trichotomy a b : typ a = typ b -> cal a = cal b ->
  (time_lt a b = Ok true /\ time_eq a b = false /\ time_lt b a = Ok false) \/
  (time_lt a b = Ok false /\ time_eq a b = true /\ time_lt b a = Ok false) \/
  (time_lt a b = Ok false /\ time_eq a b = false /\ time_lt b a = Ok true).
Proof.
  intros Ht Hc.
  assert (forall x y, lexlt x y -> time_eq x y = false) as N.
  { intros x y L. destruct (time_eq x y) eqn:E; [|reflexivity].
    apply time_eq_iff in E as ->. destruct (lex_irrefl _ L). }
  assert (forall x y, time_eq x y = time_eq y x) as Sy.
  { intros x y. apply eq_true_iff_eq. rewrite !time_eq_iff. intuition. }
  destruct (time_lt_spec a b Ht Hc) as [[L ->]|[L ->]];
  destruct (time_lt_spec b a (eq_sym Ht) (eq_sym Hc)) as [[L' ->]|[L' ->]].
  - destruct (lex_asym _ _ L L').
  - left. auto.
  - right; right. rewrite Sy. auto.
  - right; left. repeat split. apply time_eq_iff.
    destruct (lex_trich a b) as [|[|(?&?&?&?&?)]]; [contradiction|contradiction|].
    apply time_ext; assumption.
Qed.

Lemma lt_trans a b c :
  time_lt a b = Ok true -> time_lt b c = Ok true -> time_lt a c = Ok true.
Proof.
  intros H1 H2.
  assert (forall x y r, time_lt x y = Ok r -> typ x = typ y /\ cal x = cal y) as G.
  { intros x y r. unfold time_lt.
    destruct (typ_eqb_spec (typ x) (typ y)); [|discriminate].
    destruct (cal_eqb_spec (cal x) (cal y)); [|discriminate]. auto. }
  destruct (G _ _ _ H1) as [T1 C1], (G _ _ _ H2) as [T2 C2].
  destruct (time_lt_spec a b T1 C1) as [[L1 E1]|[L1 E1]]; [|congruence].
  destruct (time_lt_spec b c T2 C2) as [[L2 E2]|[L2 E2]]; [|congruence].
  destruct (time_lt_spec a c ltac:(congruence) ltac:(congruence)) as [[L3 E3]|[L3 E3]]; [assumption|].
  destruct L3. eapply lex_trans; eassumption.
Qed.

Lemma le_ge_spec a b : typ a = typ b -> cal a = cal b ->
  time_gt a b = time_lt b a /\
  time_le a b = res_negb (time_lt b a) /\ time_ge a b = res_negb (time_lt a b).
Proof.
  intros Ht Hc. unfold time_le, time_ge. rewrite (time_gt_lt a b) by assumption. auto.
Qed.

Lemma lt_chronological a b :
  valid_date a -> valid_date b -> typ a = typ b -> cal a = cal b ->
  (time_lt a b = Ok true <-> instant a < instant b) /\
  (time_eq a b = true <-> instant a = instant b).
Proof.
  intros Va Vb Ht Hc. rewrite <- lex_instant_iff, time_eq_iff by assumption. split.
  - destruct (time_lt_spec a b Ht Hc) as [[L ->]|[L ->]]; split; try tauto; discriminate.
  - split; [intros ->; reflexivity|apply instant_inj; assumption].
Qed.

Lemma mismatch_throws a b :
  (typ a <> typ b \/ cal a <> cal b) ->
  exists e, time_lt a b = Throw e a /\ time_gt a b = Throw e a /\
            time_le a b = Throw e a /\ time_ge a b = Throw e a.
Proof.
  intros H. unfold time_le, time_ge, time_lt, time_gt.
  destruct (typ_eqb_spec (typ a) (typ b)).
  - destruct (cal_eqb_spec (cal a) (cal b)); [tauto|]. exists EDiffCal. auto.
  - exists EDiffType. auto.
Qed.

(** ** Totality of NormalizeTime, stale table or not *)
Lemma month_len_any feb m : 28 <= feb <= 29 -> 0 <= m < 12 ->
  exists n, month_len feb m = Some n /\ 28 <= n <= 31.
Proof.
  intros Hf. revert m. apply split12; cbn; eexists; split; try reflexivity; lia.
Qed.
Lemma adjust_any c feb y : 28 <= feb <= 29 -> 28 <= adjust_feb c feb y <= 29.
Proof. intros; destruct c; cbn; try lia. destruct (code_leap y); lia. Qed.

Lemma sub_months_total : forall fuel feb t, 28 <= feb <= 29 -> 0 <= month t < 12 ->
  (Z.to_nat (- day t) <= 28 * fuel)%nat ->
  exists feb' t', sub_months fuel feb t = Ok (feb', t') /\ 28 <= feb' <= 29 /\
    0 <= month t' < 12 /\ 0 <= day t'.
Proof.
  induction fuel as [|f IH]; intros feb t Hf Hm Hfu; cbn [sub_months].
  - assert (day t <? 0 = false) as -> by lia. exists feb, t. repeat split; lia.
  - destruct (Z.ltb_spec (day t) 0); [|exists feb, t; repeat split; lia].
    destruct (Z.ltb_spec (month t - 1) 0).
    + pose proof (adjust_any (cal t) feb (year t - 1) Hf) as Hf1.
      destruct (month_len_any _ 11 Hf1 ltac:(lia)) as (n & -> & Hn).
      apply IH; cbn [month day set_ymd]; lia.
    + destruct (month_len_any _ (month t - 1) Hf ltac:(lia)) as (n & -> & Hn).
      apply IH; cbn [month day set_ymd]; lia.
Qed.
Lemma add_months_total : forall fuel feb t, 28 <= feb <= 29 -> 0 <= month t < 12 ->
  0 <= day t -> (Z.to_nat (day t) <= 28 * fuel)%nat ->
  exists feb' t', add_months fuel feb t = Ok (feb', t') /\ 28 <= feb' <= 29 /\
    0 <= month t' < 12.
Proof.
  induction fuel as [|f IH]; intros feb t Hf Hm Hd Hfu; cbn [add_months].
  - destruct (month_len_any feb (month t) Hf Hm) as (n & -> & Hn).
    assert (n <=? day t = false) as -> by lia. exists feb, t. repeat split; lia.
  - destruct (month_len_any feb (month t) Hf Hm) as (n & -> & Hn).
    destruct (Z.leb_spec n (day t)); [|exists feb, t; repeat split; lia].
    apply IH; cbn [month day set_ymd]; try lia.
    + destruct (_ <? _); [apply adjust_any|]; lia.
    + destruct (Z.ltb_spec 11 (month t + 1)); lia.
Qed.

Lemma loops_total feb t1 : 28 <= feb <= 29 -> 0 <= month t1 < 12 ->
  exists r, match sub_months (loop_fuel (day t1)) feb t1 with
    | Ok (feb2, t2) =>
      match add_months (loop_fuel (day t2)) feb2 t2 with
      | Ok (feb3, t3) => final_check feb3 t3
      | Throw e x => Throw e x | UB => UB | Fuel => Fuel
      end
    | Throw e x => Throw e x | UB => UB | Fuel => Fuel
    end = r /\ r <> UB /\ r <> Fuel.
Proof.
  intros Hf Hm. eexists; split; [reflexivity|].
  destruct (sub_months_total (loop_fuel (day t1)) feb t1) as (b2 & t2 & -> & Hb2 & Hm2 & Hd2); auto.
  { apply loop_fuel_enough. }
  destruct (add_months_total (loop_fuel (day t2)) b2 t2) as (b3 & t3 & -> & Hb3 & Hm3); auto.
  { apply loop_fuel_enough. }
  unfold final_check. destruct (_ || (12 <=? month t3)); [split; discriminate|].
  destruct (month_len_any b3 (month t3) Hb3 Hm3) as (n & -> & _).
  destruct (_ || _); split; discriminate.
Qed.

Lemma feb_any c y : 28 <= feb_entry c y <= 29.
Proof. destruct c; cbn; try lia. destruct (code_leap y); lia. Qed.

Lemma normalize_total t : normalize t <> UB /\ normalize t <> Fuel.
Proof.
  assert (forall A (c : calendar) (a b : A), c <> CalNone ->
    match c with CalNone => a | _ => b end = b) as G.
  { intros A [] a b H; congruence. }
  unfold normalize. destruct (cal_eqb_spec (cal t) CalNone) as [->|N]; [split; discriminate|].
  rewrite G by assumption. cbv zeta.
  match goal with |- context [if ?b then _ else _] => destruct b eqn:Eo end; [split; discriminate|].
  match goal with |- context [sub_months ?f ?b ?x] =>
    destruct (loops_total b x) as (r & E & R) end; [apply feb_any|cbn; lia|].
  cbn [day] in E. rewrite E. exact R.
Qed.

(** ** C02 *)
(** Operations for which the standard calendar consults the right table. *)
Definition op_keeps_year (t : time) (o : time_op) : Prop :=
  match o with
  | OpMonths n => 0 <= month t + n < 12
  | OpAdd d => 0 <= month t + month d < 12
  | _ => True
  end.

Lemma apply_op_cal t o t' : apply_op t o = Ok t' -> 
  exists u, normalize u = Ok t' /\ cal u = cal t /\ typ u = typ t
    /\ ((0 <= month t < 12 -> op_keeps_year t o -> 0 <= month u < 12)).
Proof.
  destruct o; cbn; unfold add_secs, add_days, add_mons, add_years, add_time;
  try (destruct (typ d); [discriminate|]);
  intros E; eexists; (split; [exact E|]); cbn; auto.
Qed.

Lemma normalize_ok_inv t t' : has_months (cal t) -> table_fresh t -> normalize t = Ok t' ->
  valid_date t' /\ instant t' = instant t /\ cal t' = cal t /\ typ t' = typ t.
Proof.
  intros Hc Hf E.
  assert (norm_succeeds t) as S.
  { unfold norm_succeeds.
    destruct (Z_lt_dec (month t) 0), (Z.eq_dec (month t mod 12) 0),
      (Z_lt_dec (carried t) 0), (Z.eq_dec (carried t mod 86400) 0),
      (Z_le_dec 0 (carried_us t)), (Z_lt_dec (carried_us t) 1000000);
    try (exfalso; destruct (normalize_throws t Hc Hf) as (x & Ex);
         [unfold norm_succeeds; lia | congruence]); lia. }
  destruct (normalize_ok t Hc Hf S) as (x & Ex & V & I & C & T).
  assert (x = t') as -> by congruence. auto.
Qed.

Lemma apply_op_noleap t o t' :
  cal t = CalNoLeap -> apply_op t o = Ok t' ->
  valid_date t' /\ cal t' = CalNoLeap /\ typ t' = typ t.
Proof.
  intros Hc E. destruct (apply_op_cal t o t' E) as (u & En & C & T & _).
  destruct (normalize_ok_inv u t') as (V & _ & C' & T'); auto.
  - rewrite C, Hc. discriminate.
  - apply noleap_fresh. congruence.
  - repeat split; try apply V; congruence.
Qed.

Lemma apply_op_total t o : exists r, apply_op t o = r /\ r <> UB /\ r <> Fuel.
Proof.
  eexists; split; [reflexivity|].
  pose proof normalize_total as G.
  destruct o; cbn; unfold add_secs, add_days, add_mons, add_years, add_time; try apply G.
  destruct (typ d); [split; discriminate|apply G].
Qed.

Lemma run_ops_noleap : forall ops t, cal t = CalNoLeap -> valid_date t ->
  (exists t', run_ops t ops = Ok t' /\ valid_date t' /\ cal t' = CalNoLeap /\ typ t' = typ t) \/
  (exists e t', run_ops t ops = Throw e t').
Proof.
  induction ops as [|o ops IH]; intros t Hc V; cbn [run_ops].
  - left. exists t. auto.
  - destruct (apply_op t o) as [t'|e x| |] eqn:E.
    + destruct (apply_op_noleap t o t' Hc E) as (V' & C' & T').
      destruct (IH t' C' V') as [(t2 & E2 & V2 & C2 & T2)|R]; [left|right; exact R].
      exists t2. rewrite T2. auto.
    + right. eauto.
    + destruct (apply_op_total t o) as (r & Er & N & _). congruence.
    + destruct (apply_op_total t o) as (r & Er & _ & N). congruence.
Qed.

Lemma apply_op_standard t o t' :
  valid_date t -> op_keeps_year t o -> apply_op t o = Ok t' ->
  valid_date t' /\ cal t' = cal t /\ typ t' = typ t.
Proof.
  intros V K E. destruct (apply_op_cal t o t' E) as (u & En & C & T & M).
  pose proof V as (Hc & Hm & _).
  destruct (normalize_ok_inv u t') as (V' & _ & C' & T'); auto.
  - rewrite C; exact Hc.
  - apply month_fresh. auto.
  - repeat split; try apply V'; congruence.
Qed.

(** ** C03 *)
Lemma add_valid_delta_ok t d :
  cal t = CalNoLeap -> valid_date t -> valid_date d -> typ d = TypeDelta ->
  exists t', add_time t d = Ok t' /\ valid_date t' /\ cal t' = CalNoLeap /\ typ t' = typ t /\
    instant t' = instant_of CalNoLeap (year t + year d) (month t + month d) (day t + day d)
                   (sec t + sec d) (usec t + usec d).
Proof.
  intros Hc V D Ty. unfold add_time. rewrite Ty.
  pose proof V as (_ & Vm & Vd & Vs & Vu). pose proof D as (_ & Dm & Dd & Ds & Du).
  set (u := mkTime _ _ _ _ _ _ _).
  destruct (normalize_ok u) as (t' & E & V' & I & C & T).
  - cbn. rewrite Hc; discriminate.
  - apply noleap_fresh. exact Hc.
  - apply norm_succeeds_nonneg; cbn; lia.
  - exists t'. rewrite E. repeat split; try apply V'; try assumption.
    + rewrite C. exact Hc.
    + rewrite I. unfold instant, u; cbn. rewrite Hc. reflexivity.
Qed.

Lemma add_secs_exact t n :
  cal t = CalNoLeap -> valid_date t -> ~ (sec t + n < 0 /\ (86400 | sec t + n)) ->
  exists t', add_secs t n = Ok t' /\ valid_date t' /\ instant t' = instant t + n * 1000000
    /\ cal t' = CalNoLeap /\ typ t' = typ t.
Proof.
  intros Hc V H. unfold add_secs. set (u := mkTime _ _ _ _ _ _ _).
  pose proof V as (_ & Vm & Vd & Vs & Vu).
  destruct (normalize_ok u) as (t' & E & V' & I & C & T).
  - cbn. rewrite Hc; discriminate.
  - apply noleap_fresh. exact Hc.
  - apply norm_succeeds_pos_us; cbn; [lia|]. split; [lia|].
    rewrite Z.div_small, Z.add_0_r by lia. exact H.
  - exists t'. rewrite E. repeat split; try apply V'; try assumption.
    + rewrite I. unfold instant, u, instant_of; cbn -[Z.mul Z.div Z.modulo]. lia.
    + rewrite C; exact Hc.
Qed.
Lemma add_days_exact t n :
  cal t = CalNoLeap -> valid_date t ->
  exists t', add_days t n = Ok t' /\ valid_date t' /\ instant t' = instant t + n * 86400000000
    /\ cal t' = CalNoLeap /\ typ t' = typ t.
Proof.
  intros Hc V. unfold add_days. set (u := mkTime _ _ _ _ _ _ _).
  pose proof V as (_ & Vm & Vd & Vs & Vu).
  destruct (normalize_ok u) as (t' & E & V' & I & C & T).
  - cbn. rewrite Hc; discriminate.
  - apply noleap_fresh. exact Hc.
  - apply norm_succeeds_nonneg; cbn; lia.
  - exists t'. rewrite E. repeat split; try apply V'; try assumption.
    + rewrite I. unfold instant, u, instant_of; cbn -[Z.mul Z.div Z.modulo]. lia.
    + rewrite C; exact Hc.
Qed.

(** ** C04 *)
Lemma instant_add_nomonth t d t' :
  cal t = CalNoLeap -> cal d = CalNoLeap -> valid_date t -> valid_date d ->
  typ d = TypeDelta -> month d = 0 -> add_time t d = Ok t' ->
  instant t' = instant t + instant d.
Proof.
  intros Hc Hd V D Ty Hm E.
  destruct (add_valid_delta_ok t d Hc V D Ty) as (x & Ex & Vx & _ & _ & I).
  assert (x = t') as -> by congruence. rewrite I.
  rewrite (valid_instant d D), Hd, Hm. unfold instant, instant_of. rewrite Hc.
  rewrite Z.add_0_r, dtm_0. unfold dty. cbn [spec_leap]. lia.
Qed.

Lemma sub_add t d t' :
  cal t = CalNoLeap -> cal d = CalNoLeap -> valid_date t -> valid_date d ->
  typ d = TypeDelta -> month d = 0 -> add_time t d = Ok t' ->
  exists s, get_seconds d = Ok s /\ time_sub t' t = Ok s.
Proof.
  intros Hc Hd V D Ty Hm E. exists (instant d).
  pose proof V as (_ & Vm & _). pose proof D as (_ & Dm & _).
  destruct (add_valid_delta_ok t d Hc V D Ty) as (x & Ex & Vx & Cx & _ & _).
  assert (x = t') as -> by congruence.
  pose proof Vx as (_ & Vxm & _).
  split; [apply get_seconds_spec; assumption|].
  rewrite time_sub_spec by assumption.
  rewrite (instant_add_nomonth t d t') by assumption. f_equal; lia.
Qed.

(** ** C05 *)
Lemma mod_sum_4_100 y : y mod 100 = 0 -> y mod 4 = 0.
Proof. intros; lia. Qed.

Lemma leap_agree y :
  spec_leap CalStandard y = gregorian_leap y <->
  ~ (100 | y) \/ (400 | y) /\ ~ (1000 | y) \/ ((1000 | y) /\ ~ (400 | y)).
Proof.
  unfold spec_leap, gregorian_leap. rewrite <- !Z.mod_divide by lia.
  destruct (Z.eqb_spec (y mod 4) 0) as [E4|E4], (Z.eqb_spec (y mod 100) 0) as [E1|E1],
    (Z.eqb_spec (y mod 400) 0) as [E2|E2], (Z.eqb_spec (y mod 1000) 0) as [E3|E3]; cbn;
  (split; [intros H | intros H]); try reflexivity; try discriminate H; try tauto; try lia.
Qed.

(** ** C06 *)
Lemma long_string_inj a b s : valid_date a -> valid_date b ->
  0 <= year a <= 9999 -> 0 <= year b <= 9999 -> cal a = cal b ->
  to_long_string a = Ok s -> to_long_string b = Ok s -> a = b.
Proof.
  intros Va Vb Ya Yb Hc Ea Eb.
  assert (typ a = TypeFixed) as Ta by (unfold to_long_string in Ea; destruct (typ a); congruence).
  assert (typ b = TypeFixed) as Tb by (unfold to_long_string in Eb; destruct (typ b); congruence).
  pose proof (long_round_trip a s a Va Ya eq_refl eq_refl Ea) as Ra.
  pose proof (long_round_trip b s a Vb Yb Hc ltac:(congruence) Eb) as Rb. congruence.
Qed.
Lemma string_inj a b s : valid_date a -> valid_date b ->
  0 <= year a -> 0 <= year b -> cal a = cal b ->
  to_string a = Ok s -> to_string b = Ok s -> a = b.
Proof.
  intros Va Vb Ya Yb Hc Ea Eb.
  pose proof (string_round_trip a s a Va Ya eq_refl Ea) as Ra.
  pose proof (string_round_trip b s a Vb Yb Hc Eb) as Rb. congruence.
Qed.
