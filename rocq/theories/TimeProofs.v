From Coq Require Import ZArith Bool List Lia ZifyBool.
From Verif Require Import TimeModel TimeSpec.
Import ListNotations.
Local Open Scope Z_scope.
Ltac Zify.zify_post_hook ::= Z.div_mod_to_equations.

Lemma split12 (P : Z -> Prop) :
  P 0 -> P 1 -> P 2 -> P 3 -> P 4 -> P 5 -> P 6 -> P 7 -> P 8 -> P 9 -> P 10 -> P 11 ->
  forall m, 0 <= m < 12 -> P m.
Proof.
  intros; assert (m = 0 \/ m = 1 \/ m = 2 \/ m = 3 \/ m = 4 \/ m = 5 \/ m = 6
    \/ m = 7 \/ m = 8 \/ m = 9 \/ m = 10 \/ m = 11) as D by lia.
  repeat (destruct D as [->|D]; [assumption|]); subst; assumption.
Qed.

Lemma code_leap_spec y : code_leap y = (y mod 4 =? 0) && negb (y mod 1000 =? 0).
Proof.
  unfold code_leap. f_equal; [|f_equal];
  apply eq_true_iff_eq; rewrite !Z.eqb_eq.
  - rewrite Z.rem_divide, Z.mod_divide by lia. tauto.
  - rewrite Z.rem_divide, Z.mod_divide by lia. tauto.
Qed.

Lemma feb_entry_spec c y : feb_entry c y = 28 + b2z (spec_leap c y).
Proof.
  destruct c; cbn [feb_entry spec_leap b2z]; try reflexivity.
  rewrite code_leap_spec. destruct (_ && _); reflexivity.
Qed.

Lemma adjust_feb_spec c y y' :
  adjust_feb c (28 + b2z (spec_leap c y)) y' = 28 + b2z (spec_leap c y').
Proof.
  destruct c; cbn [adjust_feb spec_leap b2z]; try reflexivity.
  rewrite code_leap_spec. destruct ((y' mod 4 =? 0) && _); reflexivity.
Qed.

Lemma month_len_spec lp m :
  0 <= m < 12 -> month_len (28 + b2z lp) m = Some (mdays lp m).
Proof. revert m; apply split12; destruct lp; reflexivity. Qed.

Lemma month_len_none feb m : ~ (0 <= m < 12) -> month_len feb m = None.
Proof.
  intros H. unfold month_len. destruct (Z.ltb_spec m 0); [reflexivity|].
  apply nth_error_None. cbn [length]. lia.
Qed.

Lemma mdays_bounds lp m : 28 <= mdays lp m <= 31.
Proof. unfold mdays; destruct lp; cbn [b2z]; repeat destruct (_ =? _); cbn; lia. Qed.

Lemma dtm_succ lp m : 0 <= m < 12 -> dtm lp (m + 1) = dtm lp m + mdays lp m.
Proof. revert m; apply split12; destruct lp; reflexivity. Qed.
Lemma dtm_0 lp : dtm lp 0 = 0. Proof. reflexivity. Qed.
Lemma dtm_12 lp : dtm lp 12 = 365 + b2z lp. Proof. destruct lp; reflexivity. Qed.
Lemma dtm_mono lp m m' : 0 <= m -> m < m' -> m' <= 12 -> dtm lp m + mdays lp m <= dtm lp m'.
Proof.
  intros H0 H1 H2.
  assert (0 <= m < 12) as Hm by lia.
  remember (Z.to_nat (m' - (m + 1))) as k eqn:Hk.
  assert (m' = m + 1 + Z.of_nat k) as -> by lia. clear Hk H1.
  induction k as [|k IH].
  - rewrite Z.add_0_r, dtm_succ by lia. lia.
  - replace (m + 1 + Z.of_nat (S k)) with (m + 1 + Z.of_nat k + 1) by lia.
    rewrite dtm_succ by lia.
    pose proof (mdays_bounds lp (m + 1 + Z.of_nat k)).
    specialize (IH ltac:(lia)). lia.
Qed.

Lemma dty_0 c : dty c 0 = 0. Proof. destruct c; reflexivity. Qed.
Lemma ceil_step k y : 0 < k ->
  (y + 1 + (k - 1)) / k = (y + (k - 1)) / k + b2z (y mod k =? 0).
Proof.
  intros Hk. destruct (Z.eqb_spec (y mod k) 0) as [E|E]; cbn [b2z].
  - apply Z.mod_divide in E; [|lia]. destruct E as [q ->].
    replace (q * k + 1 + (k - 1)) with ((q + 1) * k) by ring.
    rewrite Z.div_mul by lia.
    replace (q * k + (k - 1)) with (k - 1 + q * k) by ring.
    rewrite Z.div_add, Z.div_small by lia. lia.
  - pose proof (Z.mod_pos_bound y k Hk) as B.
    rewrite (Z.div_mod y k) by lia.
    generalize dependent (y mod k). generalize (y / k). intros q r E B.
    replace (k * q + r + 1 + (k - 1)) with (r + (q + 1) * k) by ring.
    replace (k * q + r + (k - 1)) with (r - 1 + (q + 1) * k) by ring.
    rewrite !Z.div_add, !Z.div_small by lia. lia.
Qed.

Lemma dty_succ c y : dty c (y + 1) = dty c y + 365 + b2z (spec_leap c y).
Proof.
  destruct c; unfold dty; cbn [spec_leap b2z]; try lia.
  pose proof (ceil_step 4 y ltac:(lia)) as A.
  pose proof (ceil_step 1000 y ltac:(lia)) as B.
  change (4 - 1) with 3 in A. change (1000 - 1) with 999 in B. rewrite A, B.
  destruct (Z.eqb_spec (y mod 4) 0) as [E4|E4], (Z.eqb_spec (y mod 1000) 0) as [E|E];
    cbn [andb negb b2z]; try (clear; lia).
  exfalso. clear A B. lia.
Qed.
Lemma dty_mono c y y' : y < y' -> dty c y + 365 + b2z (spec_leap c y) <= dty c y'.
Proof.
  intros H.
  remember (Z.to_nat (y' - (y + 1))) as k eqn:Hk.
  assert (y' = y + 1 + Z.of_nat k) as -> by lia. clear Hk H.
  induction k as [|k IH].
  - rewrite Z.add_0_r, dty_succ by lia. lia.
  - replace (y + 1 + Z.of_nat (S k)) with (y + 1 + Z.of_nat k + 1) by lia.
    rewrite dty_succ. unfold b2z in *. destruct (spec_leap c (y + 1 + Z.of_nat k)); lia.
Qed.

Lemma spec_counts_days_ok : spec_counts_days.
Proof.
  repeat split; intros; auto using dty_0, dty_succ, dtm_0, dtm_succ, dtm_12.
Qed.

(** ** Order and instants *)
Definition lexlt (a b : time) : Prop :=
  year a < year b \/ year a = year b /\
  (month a < month b \/ month a = month b /\
  (day a < day b \/ day a = day b /\
  (sec a < sec b \/ sec a = sec b /\ usec a < usec b))).

Lemma cal_eqb_spec a b : reflect (a = b) (cal_eqb a b).
Proof. destruct a, b; constructor; congruence. Qed.
Lemma typ_eqb_spec a b : reflect (a = b) (typ_eqb a b).
Proof. destruct a, b; constructor; congruence. Qed.

Lemma time_eq_iff a b : time_eq a b = true <-> a = b.
Proof.
  unfold time_eq. destruct a as [y m d s u c ty], b as [y' m' d' s' u' c' ty']; cbn.
  destruct (cal_eqb_spec c c'); [subst|split; cbn; congruence].
  destruct (typ_eqb_spec ty ty'); [subst|split; cbn; congruence].
  cbn [negb orb].
  destruct (Z.eqb_spec y y'), (Z.eqb_spec m m'), (Z.eqb_spec d d'),
    (Z.eqb_spec s s'), (Z.eqb_spec u u'); cbn; split; congruence.
Qed.

Lemma time_lt_spec a b :
  typ a = typ b -> cal a = cal b ->
  (lexlt a b /\ time_lt a b = Ok true) \/ (~ lexlt a b /\ time_lt a b = Ok false).
Proof.
  intros Ht Hc. unfold time_lt, lexlt.
  destruct (typ_eqb_spec (typ a) (typ b)); [|contradiction].
  destruct (cal_eqb_spec (cal a) (cal b)); [|contradiction]. cbn [negb].
  repeat match goal with |- context [if ?x <? ?y then _ else _] =>
    destruct (Z.ltb_spec x y) end;
  first [left; split; [lia|reflexivity] | right; split; [lia|reflexivity]].
Qed.

Lemma time_gt_lt a b :
  typ a = typ b -> cal a = cal b -> time_gt a b = time_lt b a.
Proof.
  intros Ht Hc. unfold time_gt, time_lt. rewrite Ht, Hc.
  destruct (typ_eqb_spec (typ b) (typ b)); [|contradiction].
  destruct (cal_eqb_spec (cal b) (cal b)); [|contradiction]. reflexivity.
Qed.

Lemma valid_instant t : valid_date t ->
  instant t = ((dty (cal t) (year t) + dtm (spec_leap (cal t) (year t)) (month t) + day t)
               * 86400 + sec t) * 1000000 + usec t.
Proof.
  intros (_ & Hm & _). unfold instant, instant_of.
  rewrite (Z.div_small (month t)), (Z.mod_small (month t)) by lia. rewrite Z.add_0_r. reflexivity.
Qed.

Lemma valid_lex_instant a b :
  valid_date a -> valid_date b -> cal a = cal b ->
  lexlt a b -> instant a < instant b.
Proof.
  intros Va Vb Hc L. rewrite !valid_instant by assumption.
  destruct Va as (_ & Ma & Da & Sa & Ua), Vb as (_ & Mb & Db & Sb & Ub).
  rewrite <- Hc in *.
  destruct L as [L|[E L]].
  - pose proof (dty_mono (cal a) _ _ L).
    pose proof (dtm_mono (spec_leap (cal a) (year a)) (month a) 12 ltac:(lia) ltac:(lia) ltac:(lia)) as M.
    rewrite dtm_12 in M.
    assert (0 <= dtm (spec_leap (cal a) (year b)) (month b)).
    { destruct (Z.eq_dec (month b) 0) as [->|]; [rewrite dtm_0; lia|].
      pose proof (dtm_mono (spec_leap (cal a) (year b)) 0 (month b) ltac:(lia) ltac:(lia) ltac:(lia)) as M2.
      rewrite dtm_0 in M2. pose proof (mdays_bounds (spec_leap (cal a) (year b)) 0). lia. }
    lia.
  - rewrite <- E in *. destruct L as [L|[E1 L]].
    + pose proof (dtm_mono (spec_leap (cal a) (year a)) (month a) (month b) ltac:(lia) L ltac:(lia)). lia.
    + rewrite <- E1 in *. lia.
Qed.

Lemma lex_trich a b :
  lexlt a b \/ lexlt b a \/
  (year a = year b /\ month a = month b /\ day a = day b /\ sec a = sec b /\ usec a = usec b).
Proof. unfold lexlt. lia. Qed.

Lemma lex_irrefl a : ~ lexlt a a.
Proof. unfold lexlt; lia. Qed.
Lemma lex_asym a b : lexlt a b -> ~ lexlt b a.
Proof. unfold lexlt; lia. Qed.
Lemma lex_trans a b c : lexlt a b -> lexlt b c -> lexlt a c.
Proof. unfold lexlt; lia. Qed.

Lemma time_ext a b :
  year a = year b -> month a = month b -> day a = day b -> sec a = sec b ->
  usec a = usec b -> cal a = cal b -> typ a = typ b -> a = b.
Proof. destruct a, b; cbn; intros; subst; reflexivity. Qed.

Lemma instant_inj a b :
  valid_date a -> valid_date b -> cal a = cal b -> typ a = typ b ->
  instant a = instant b -> a = b.
Proof.
  intros Va Vb Hc Ht E.
  destruct (lex_trich a b) as [L|[L|(?&?&?&?&?)]].
  - pose proof (valid_lex_instant _ _ Va Vb Hc L); lia.
  - pose proof (valid_lex_instant _ _ Vb Va (eq_sym Hc) L); lia.
  - apply time_ext; assumption.
Qed.

Lemma lex_instant_iff a b :
  valid_date a -> valid_date b -> cal a = cal b ->
  (lexlt a b <-> instant a < instant b).
Proof.
  intros Va Vb Hc. split; [apply valid_lex_instant; assumption|].
  intros H. destruct (lex_trich a b) as [L|[L|(E1&E2&E3&E4&E5)]]; [exact L| |].
  - pose proof (valid_lex_instant _ _ Vb Va (eq_sym Hc) L); lia.
  - unfold instant in H. rewrite E1, E2, E3, E4, E5, Hc in H. lia.
Qed.

(** ** The two loops *)
Lemma sub_months_ok : forall fuel feb t,
  has_months (cal t) ->
  feb = 28 + b2z (spec_leap (cal t) (year t)) ->
  0 <= month t < 12 ->
  (Z.to_nat (- day t) <= 28 * fuel)%nat ->
  exists t', sub_months fuel feb t = Ok (28 + b2z (spec_leap (cal t') (year t')), t')
    /\ 0 <= month t' < 12
    /\ 0 <= day t'
    /\ sec t' = sec t /\ usec t' = usec t /\ cal t' = cal t /\ typ t' = typ t
    /\ dty (cal t') (year t') + dtm (spec_leap (cal t') (year t')) (month t') + day t'
       = dty (cal t) (year t) + dtm (spec_leap (cal t) (year t)) (month t) + day t
    /\ (0 <= day t -> t' = t).
Proof.
  induction fuel as [|f IH]; intros feb t Hc Hfeb Hm Hf.
  - cbn [sub_months]. assert (day t <? 0 = false) as -> by lia.
    exists t. subst feb. repeat split; auto; lia.
  - cbn [sub_months]. destruct (Z.ltb_spec (day t) 0) as [Hd|Hd].
    2:{ exists t. subst feb. repeat split; auto; lia. }
    destruct (Z.ltb_spec (month t - 1) 0) as [Hm1|Hm1].
    + rewrite Hfeb, adjust_feb_spec.
      rewrite month_len_spec by lia.
      edestruct (IH (28 + b2z (spec_leap (cal t) (year t - 1)))
        (set_ymd t (year t - 1) 11 (day t + mdays (spec_leap (cal t) (year t - 1)) 11)))
        as (t' & E & A1 & A2 & A3 & A4 & A5 & A6 & A7 & A8);
        cbn [sec usec cal typ set_ymd year month day] in *; auto; try lia.
      { pose proof (mdays_bounds (spec_leap (cal t) (year t - 1)) 11) as B. lia. }
      exists t'. rewrite E.
      repeat split; auto; try lia.
      rewrite A7.
      pose proof (dty_succ (cal t) (year t - 1)) as D.
      replace (year t - 1 + 1) with (year t) in D by lia.
      assert (month t = 0) as -> by lia. rewrite dtm_0.
      pose proof (dtm_succ (spec_leap (cal t) (year t - 1)) 11 ltac:(lia)) as D2.
      change (11 + 1) with 12 in D2. rewrite dtm_12 in D2. lia.
    + rewrite Hfeb, month_len_spec by lia.
      edestruct (IH (28 + b2z (spec_leap (cal t) (year t)))
        (set_ymd t (year t) (month t - 1) (day t + mdays (spec_leap (cal t) (year t)) (month t - 1))))
        as (t' & E & A1 & A2 & A3 & A4 & A5 & A6 & A7 & A8);
        cbn [sec usec cal typ set_ymd year month day] in *; auto; try lia.
      { pose proof (mdays_bounds (spec_leap (cal t) (year t)) (month t - 1)) as B. lia. }
      exists t'. rewrite E. repeat split; auto; try lia.
      rewrite A7.
      pose proof (dtm_succ (spec_leap (cal t) (year t)) (month t - 1) ltac:(lia)) as D2.
      replace (month t - 1 + 1) with (month t) in D2 by lia. lia.
Qed.

Lemma add_months_ok : forall fuel feb t,
  has_months (cal t) ->
  feb = 28 + b2z (spec_leap (cal t) (year t)) ->
  0 <= month t < 12 -> 0 <= day t ->
  (Z.to_nat (day t) <= 28 * fuel)%nat ->
  exists t', add_months fuel feb t = Ok (28 + b2z (spec_leap (cal t') (year t')), t')
    /\ 0 <= month t' < 12
    /\ 0 <= day t' < mdays (spec_leap (cal t') (year t')) (month t')
    /\ sec t' = sec t /\ usec t' = usec t /\ cal t' = cal t /\ typ t' = typ t
    /\ dty (cal t') (year t') + dtm (spec_leap (cal t') (year t')) (month t') + day t'
       = dty (cal t) (year t) + dtm (spec_leap (cal t) (year t)) (month t) + day t.
Proof.
  induction fuel as [|f IH]; intros feb t Hc Hfeb Hm Hd Hf.
  - cbn [add_months]. subst feb. rewrite month_len_spec by lia.
    pose proof (mdays_bounds (spec_leap (cal t) (year t)) (month t)).
    destruct (Z.leb_spec (mdays (spec_leap (cal t) (year t)) (month t)) (day t)); [lia|].
    exists t. repeat split; auto; lia.
  - cbn [add_months]. rewrite Hfeb, month_len_spec by lia.
    pose proof (mdays_bounds (spec_leap (cal t) (year t)) (month t)) as B.
    destruct (Z.leb_spec (mdays (spec_leap (cal t) (year t)) (month t)) (day t)) as [Hge|Hlt].
    2:{ exists t. repeat split; auto; lia. }
    destruct (Z.ltb_spec 11 (month t + 1)) as [Hm1|Hm1].
    + rewrite adjust_feb_spec.
      edestruct (IH (28 + b2z (spec_leap (cal t) (year t + 1)))
        (set_ymd t (year t + 1) 0 (day t - mdays (spec_leap (cal t) (year t)) (month t))))
        as (t' & E & A1 & A2 & A3 & A4 & A5 & A6 & A7);
        cbn [sec usec cal typ set_ymd year month day] in *; auto; try lia.
      exists t'. rewrite E. repeat split; auto; try lia.
      rewrite A7. rewrite dtm_0.
      pose proof (dty_succ (cal t) (year t)) as D.
      assert (month t = 11) as E11 by lia. rewrite E11 in *.
      pose proof (dtm_succ (spec_leap (cal t) (year t)) 11 ltac:(lia)) as D2.
      change (11 + 1) with 12 in D2. rewrite dtm_12 in D2. lia.
    + edestruct (IH (28 + b2z (spec_leap (cal t) (year t)))
        (set_ymd t (year t) (month t + 1) (day t - mdays (spec_leap (cal t) (year t)) (month t))))
        as (t' & E & A1 & A2 & A3 & A4 & A5 & A6 & A7);
        cbn [sec usec cal typ set_ymd year month day] in *; auto; try lia.
      exists t'. rewrite E. repeat split; auto; try lia.
      rewrite A7.
      pose proof (dtm_succ (spec_leap (cal t) (year t)) (month t) ltac:(lia)) as D2. lia.
Qed.

Lemma loop_fuel_enough d : (Z.to_nat (- d) <= 28 * loop_fuel d)%nat
                        /\ (Z.to_nat d <= 28 * loop_fuel d)%nat.
Proof. unfold loop_fuel. split; lia. Qed.

(** ** Carries *)
(** Bad inputs of the negative branches. *)
Definition carry_us_ok (s us : Z) : Prop :=
  0 <= us \/ (us < 0 /\ 0 <= us - Z.quot (s - 1000000) 1000000 * 1000000 < 1000000).

Lemma added_seconds_pos s us : 0 <= us -> added_seconds s us = us / 1000000.
Proof.
  intros H. unfold added_seconds.
  destruct (Z.leb_spec 1000000 us); [apply Z.quot_div_nonneg; lia|].
  assert (us <? 0 = false) as -> by lia. symmetry. apply Z.div_small; lia.
Qed.

Lemma added_days_spec s :
  ~ (s < 0 /\ s mod 86400 = 0) -> added_days s = s / 86400.
Proof.
  intros H. unfold added_days.
  destruct (Z.leb_spec 86400 s); [apply Z.quot_div_nonneg; lia|].
  destruct (Z.ltb_spec s 0).
  - rewrite Z.quot_opp_l by lia. rewrite Z.quot_div_nonneg by lia. lia.
  - symmetry; apply Z.div_small; lia.
Qed.
Lemma added_days_bad s :
  s < 0 -> s mod 86400 = 0 -> s - added_days s * 86400 = 86400.
Proof.
  intros H0 H. unfold added_days.
  destruct (Z.leb_spec 86400 s); [lia|].
  destruct (Z.ltb_spec s 0); [|lia].
  rewrite Z.quot_opp_l by lia. rewrite Z.quot_div_nonneg by lia. lia.
Qed.
Lemma added_years_spec m :
  ~ (m < 0 /\ m mod 12 = 0) -> added_years m = m / 12.
Proof.
  intros H. unfold added_years.
  destruct (Z.leb_spec 12 m); [apply Z.quot_div_nonneg; lia|].
  destruct (Z.ltb_spec m 0).
  - rewrite Z.quot_opp_l by lia. rewrite Z.quot_div_nonneg by lia. lia.
  - symmetry; apply Z.div_small; lia.
Qed.
Lemma added_years_bad m :
  m < 0 -> m mod 12 = 0 -> m - added_years m * 12 = 12.
Proof.
  intros H0 H. unfold added_years.
  destruct (Z.leb_spec 12 m); [lia|].
  destruct (Z.ltb_spec m 0); [|lia].
  rewrite Z.quot_opp_l by lia. rewrite Z.quot_div_nonneg by lia. lia.
Qed.

(** The seconds field after the microsecond carry of the program. *)
Definition carried (t : time) : Z := sec t + added_seconds (sec t) (usec t).
Definition carried_us (t : time) : Z := usec t - added_seconds (sec t) (usec t) * 1000000.

(** When the February entry computed from the incoming year is right for the
    year reached by the month carry. *)
Definition table_fresh (t : time) : Prop :=
  spec_leap (cal t) (year t) = spec_leap (cal t) (year t + month t / 12).

Lemma normalize_core t :
  has_months (cal t) -> table_fresh t ->
  ~ (month t < 0 /\ month t mod 12 = 0) ->
  exists t3,
    normalize t = final_check (28 + b2z (spec_leap (cal t3) (year t3))) t3
    /\ 0 <= month t3 < 12
    /\ 0 <= day t3 < mdays (spec_leap (cal t3) (year t3)) (month t3)
    /\ sec t3 = carried t - added_days (carried t) * 86400
    /\ usec t3 = carried_us t
    /\ cal t3 = cal t /\ typ t3 = typ t
    /\ dty (cal t3) (year t3) + dtm (spec_leap (cal t3) (year t3)) (month t3) + day t3
       = dty (cal t) (year t + month t / 12)
         + dtm (spec_leap (cal t) (year t + month t / 12)) (month t mod 12)
         + day t + added_days (carried t).
Proof.
  intros Hc Hfr Hm.
  unfold normalize. rewrite feb_entry_spec, Hfr, (added_years_spec (month t)) by assumption.
  set (t1 := mkTime (year t + month t / 12) (month t - month t / 12 * 12)
    (day t + added_days (sec t + added_seconds (sec t) (usec t))) _ _ _ _).
  assert (0 <= month t1 < 12) as Hm1 by (cbn; lia).
  assert ((month t - month t / 12 * 12 <? 0) || (12 <=? month t - month t / 12 * 12) = false)
    as -> by (cbn in Hm1; lia).
  destruct (sub_months_ok (loop_fuel (day t1)) (28 + b2z (spec_leap (cal t1) (year t1))) t1)
    as (t2 & E2 & M2 & D2 & S2 & U2 & C2 & T2 & I2 & _); auto.
  { apply loop_fuel_enough. }
  destruct (add_months_ok (loop_fuel (day t2)) (28 + b2z (spec_leap (cal t2) (year t2))) t2)
    as (t3 & E3 & M3 & D3 & S3 & U3 & C3 & T3 & I3); auto.
  { rewrite C2; exact Hc. }
  { apply loop_fuel_enough. }
  exists t3.
  replace (day t + _) with (day t1) by reflexivity.
  replace (28 + b2z (spec_leap (cal t) (year t + month t / 12)))
    with (28 + b2z (spec_leap (cal t1) (year t1))) by reflexivity.
  rewrite E2, E3.
  split; [destruct (cal t) eqn:Ecal; [exfalso; apply Hc; reflexivity|reflexivity|reflexivity]|].
  split; [exact M3|split; [exact D3|split; [rewrite S3, S2; reflexivity|split; [rewrite U3, U2; reflexivity|split; [rewrite C3, C2; reflexivity|split; [rewrite T3, T2; reflexivity|]]]]]].
  rewrite I3, I2. cbn.
  replace (month t - month t / 12 * 12) with (month t mod 12) by lia.
  unfold carried. lia.
Qed.

Lemma final_check_ok t :
  0 <= month t < 12 -> 0 <= day t < mdays (spec_leap (cal t) (year t)) (month t) ->
  (0 <= sec t < 86400 -> 0 <= usec t < 1000000 ->
   final_check (28 + b2z (spec_leap (cal t) (year t))) t = Ok t) /\
  (~ (0 <= sec t < 86400 /\ 0 <= usec t < 1000000) ->
   final_check (28 + b2z (spec_leap (cal t) (year t))) t = Throw ELogic t).
Proof.
  intros Hm Hd. unfold final_check.
  assert ((month t <? 0) || (12 <=? month t) = false) as -> by lia.
  rewrite month_len_spec by lia.
  split; intros.
  - match goal with |- (if ?b then _ else _) = _ => assert (b = false) as -> by lia end. reflexivity.
  - match goal with |- (if ?b then _ else _) = _ => assert (b = true) as -> by lia end. reflexivity.
Qed.

(** Exactly when normalisation succeeds (fresh table). *)
Definition norm_succeeds (t : time) : Prop :=
  ~ (month t < 0 /\ month t mod 12 = 0) /\
  ~ (carried t < 0 /\ carried t mod 86400 = 0) /\
  0 <= carried_us t < 1000000.

Lemma normalize_ok t :
  has_months (cal t) -> table_fresh t -> norm_succeeds t ->
  exists t', normalize t = Ok t' /\ valid_date t' /\ instant t' = instant t
    /\ cal t' = cal t /\ typ t' = typ t.
Proof.
  intros Hc Hfr (H1 & H2 & H3).
  destruct (normalize_core t Hc Hfr H1) as (t3 & E & M & D & S & U & C & T & I).
  rewrite added_days_spec in S, I by assumption.
  destruct (final_check_ok t3 M D) as [F _].
  exists t3. rewrite E, F by lia. 
  assert (valid_date t3) as V.
  { repeat split; try lia. rewrite C; exact Hc. }
  repeat split; try apply V; auto.
  rewrite valid_instant by assumption. rewrite I. unfold instant, instant_of.
  rewrite S, U. unfold carried, carried_us in *. lia.
Qed.

Lemma normalize_throws t :
  has_months (cal t) -> table_fresh t -> ~ norm_succeeds t ->
  exists t', normalize t = Throw ELogic t'.
Proof.
  intros Hc Hfr H.
  destruct (Z_lt_dec (month t) 0) as [Hn|Hn]; [destruct (Z.eq_dec (month t mod 12) 0) as [Hz|Hz]|].
  - unfold normalize.
    rewrite (added_years_bad (month t) Hn Hz).
    destruct (cal t) eqn:Ecal; [exfalso; apply Hc; reflexivity| |]; eexists; reflexivity.
  - destruct (normalize_core t Hc Hfr ltac:(lia)) as (t3 & E & M & D & S & U & _).
    exists t3. rewrite E. apply final_check_ok; auto.
    intros [HS HU]. apply H. unfold norm_succeeds. rewrite <- U.
    split; [lia|split; [|lia]]. intros [A B].
    rewrite (added_days_bad _ A B) in S. lia.
  - destruct (normalize_core t Hc Hfr ltac:(lia)) as (t3 & E & M & D & S & U & _).
    exists t3. rewrite E. apply final_check_ok; auto.
    intros [HS HU]. apply H. unfold norm_succeeds. rewrite <- U.
    split; [lia|split; [|lia]]. intros [A B].
    rewrite (added_days_bad _ A B) in S. lia.
Qed.

Lemma noleap_fresh t : cal t = CalNoLeap -> table_fresh t.
Proof. intros H; unfold table_fresh; rewrite H; reflexivity. Qed.

Lemma month_fresh t : 0 <= month t < 12 -> table_fresh t.
Proof.
  intros H; unfold table_fresh. rewrite Z.div_small, Z.add_0_r by lia. reflexivity.
Qed.

Lemma norm_succeeds_nonneg t :
  0 <= month t -> 0 <= sec t -> 0 <= usec t -> norm_succeeds t.
Proof.
  intros H1 H2 H3. unfold norm_succeeds, carried, carried_us.
  rewrite !added_seconds_pos by lia. lia.
Qed.

(** With a non-negative microsecond field the failure condition only depends
    on the specification. *)
Lemma norm_succeeds_pos_us t :
  0 <= usec t ->
  (norm_succeeds t <->
   ~ (month t < 0 /\ (12 | month t)) /\
   ~ (sec t + usec t / 1000000 < 0 /\ (86400 | sec t + usec t / 1000000))).
Proof.
  intros H. unfold norm_succeeds, carried, carried_us.
  rewrite !added_seconds_pos by lia.
  rewrite <- !Z.mod_divide by lia. lia.
Qed.

(** ** Difference *)
Lemma sum_months_spec : forall n i, 0 <= i -> i + Z.of_nat n <= 12 ->
  sum_months n i = Some (dtm false (i + Z.of_nat n) - dtm false i).
Proof.
  induction n as [|n IH]; intros i Hi Hn; cbn [sum_months].
  - rewrite Z.add_0_r, Z.sub_diag. reflexivity.
  - change 28 with (28 + b2z false). rewrite month_len_spec by lia.
    rewrite IH by lia.
    rewrite dtm_succ by lia. f_equal.
    replace (i + 1 + Z.of_nat n) with (i + Z.of_nat (S n)) by lia. lia.
Qed.

Lemma time_sub_spec a b :
  cal a = CalNoLeap -> cal b = CalNoLeap ->
  0 <= month a < 12 -> 0 <= month b < 12 ->
  time_sub a b = Ok (instant a - instant b).
Proof.
  intros Ca Cb Ma Mb. unfold time_sub, instant, instant_of. rewrite Ca, Cb. cbn [spec_leap].
  rewrite !(Z.div_small (month _)), !(Z.mod_small (month _)), !Z.add_0_r by lia.
  unfold dty.
  destruct (Z.ltb_spec (month b) (month a)).
  - change 28 with (28 + b2z false). rewrite month_len_spec by lia.
    rewrite sum_months_spec by lia. f_equal.
    rewrite (dtm_succ false (month b)) by lia.
    replace (month b + 1 + _) with (month a) by lia. lia.
  - destruct (Z.ltb_spec (month a) (month b)).
    + change 28 with (28 + b2z false). rewrite month_len_spec by lia.
      rewrite sum_months_spec by lia. f_equal.
      rewrite (dtm_succ false (month a)) by lia.
      replace (month a + 1 + _) with (month b) by lia. lia.
    + assert (month a = month b) as -> by lia. f_equal. lia.
Qed.

Lemma get_seconds_spec a :
  cal a = CalNoLeap -> 0 <= month a < 12 ->
  get_seconds a = Ok (instant a).
Proof.
  intros Ca Ma. unfold get_seconds, instant, instant_of. rewrite Ca. cbn [spec_leap].
  rewrite !(Z.div_small (month _)), !(Z.mod_small (month _)), !Z.add_0_r by lia.
  rewrite sum_months_spec by lia. rewrite dtm_0. f_equal. unfold dty.
  replace (0 + _) with (month a) by lia. lia.
Qed.

(** ** VerifyTime *)
Lemma verify_time_spec t :
  (valid_date t /\ 0 <= year t <= 9999 <-> verify_time t = Ok t) /\
  (forall t', verify_time t = Ok t' -> t' = t) /\
  verify_time t <> UB /\ verify_time t <> Fuel.
Proof.
  unfold verify_time, valid_date, has_months.
  destruct (cal t) eqn:Ec.
  { repeat split; try congruence; try discriminate. intros ((H & _) & _); congruence. }
  all: rewrite feb_entry_spec;
    destruct ((year t <? 0) || (9999 <? year t)) eqn:E1;
      [repeat split; try discriminate; intros; lia|];
    destruct ((month t <? 0) || (11 <? month t)) eqn:E2;
      [repeat split; try discriminate; intros; lia|];
    rewrite month_len_spec by lia;
    destruct ((day t <? 0) || _) eqn:E3;
      [repeat split; try discriminate; intros; lia|];
    destruct ((sec t <? 0) || _) eqn:E4;
      [repeat split; try discriminate; intros; lia|];
    destruct ((usec t <? 0) || _) eqn:E5;
      [repeat split; try discriminate; intros; lia|];
    repeat split; try discriminate; try congruence; try lia.
Qed.
