(** Property theorems C01-C06 (class Time). *)
From Coq Require Import ZArith Bool List Lia Ascii.
From Verif Require Import TimeModel TimeSpec TimeProofs TimeStrModel TimeStrProofs TimeProofs2.
Import ListNotations.
Local Open Scope Z_scope.

(** The specification used below really counts days: each year adds 365 or
    366 days and each month its length. *)
Theorem spec_is_a_calendar : spec_counts_days.
Proof. exact spec_counts_days_ok. Qed.

(** Witnesses used for non-vacuity. *)
Definition d2000 := mkTime 2000 1 27 86399 999999 CalNoLeap TypeFixed.
Definition dt30 := mkTime 0 0 0 1800 0 CalNoLeap TypeDelta.
Example d2000_valid : valid_date d2000.
Proof. vm_compute. repeat split; congruence. Qed.
Example dt30_valid : valid_date dt30.
Proof. vm_compute. repeat split; congruence. Qed.

(** ** C01 *)
Theorem C01_trichotomy : forall a b, typ a = typ b -> cal a = cal b ->
  (time_lt a b = Ok true /\ time_eq a b = false /\ time_lt b a = Ok false) \/
  (time_lt a b = Ok false /\ time_eq a b = true /\ time_lt b a = Ok false) \/
  (time_lt a b = Ok false /\ time_eq a b = false /\ time_lt b a = Ok true).
Proof. exact trichotomy. Qed.

Theorem C01_transitive : forall a b c,
  time_lt a b = Ok true -> time_lt b c = Ok true -> time_lt a c = Ok true.
Proof. exact lt_trans. Qed.

Theorem C01_derived_comparisons : forall a b, typ a = typ b -> cal a = cal b ->
  time_gt a b = time_lt b a /\
  time_le a b = res_negb (time_lt b a) /\ time_ge a b = res_negb (time_lt a b).
Proof. exact le_ge_spec. Qed.

Theorem C01_chronological : forall a b,
  valid_date a -> valid_date b -> typ a = typ b -> cal a = cal b ->
  (time_lt a b = Ok true <-> instant a < instant b) /\
  (time_eq a b = true <-> instant a = instant b).
Proof. exact lt_chronological. Qed.

Theorem C01_mismatch_throws : forall a b, (typ a <> typ b \/ cal a <> cal b) ->
  exists e, time_lt a b = Throw e a /\ time_gt a b = Throw e a /\
            time_le a b = Throw e a /\ time_ge a b = Throw e a.
Proof. exact mismatch_throws. Qed.

Example C01_nonvacuous :
  time_lt d2000 (mkTime 2000 2 0 0 0 CalNoLeap TypeFixed) = Ok true /\
  time_lt (mkTime 2000 2 0 0 0 CalNoLeap TypeFixed) (mkTime 2001 0 0 0 0 CalNoLeap TypeFixed) = Ok true.
Proof. split; reflexivity. Qed.

(** ** C02 *)
(** Every sequence of operations on the no-leap calendar ends in a valid date
    or an exception; no undefined behaviour, no non-termination. *)
Theorem C02_noleap : forall ops t, cal t = CalNoLeap -> valid_date t ->
  (exists t', run_ops t ops = Ok t' /\ valid_date t' /\ cal t' = CalNoLeap /\ typ t' = typ t) \/
  (exists e t', run_ops t ops = Throw e t').
Proof. exact run_ops_noleap. Qed.

(** The same for the field constructor. *)
Theorem C02_noleap_constructor : forall y m d s us ty t,
  make_time y m d s us CalNoLeap ty = Ok t -> valid_date t.
Proof.
  intros y m d s us ty t E.
  refine (proj1 (normalize_ok_inv (mkTime y m d s us CalNoLeap ty) t _ _ E));
    [discriminate|apply noleap_fresh; reflexivity].
Qed.

(** Any calendar: every operation terminates without undefined behaviour. *)
Theorem C02_total : forall t o, exists r, apply_op t o = r /\ r <> UB /\ r <> Fuel.
Proof. exact apply_op_total. Qed.

(** Standard calendar: valid provided the operation does not carry months
    into another year. *)
Theorem C02_standard_partial : forall t o t',
  valid_date t -> op_keeps_year t o -> apply_op t o = Ok t' ->
  valid_date t' /\ cal t' = cal t /\ typ t' = typ t.
Proof. exact apply_op_standard. Qed.

(** Without that restriction the property fails: 2004-01-29 plus 13 months
    is returned as 2005-02-29. *)
Theorem C02_standard_refuted : exists t n t',
  cal t = CalStandard /\ valid_date t /\ add_mons t n = Ok t' /\
  ~ valid_date t' /\ verify_time t' = Throw EDay t'.
Proof.
  exists (mkTime 2004 0 28 0 0 CalStandard TypeFixed), 13,
         (mkTime 2005 1 28 0 0 CalStandard TypeFixed).
  split; [reflexivity|]. split; [vm_compute; repeat split; congruence|].
  split; [vm_compute; reflexivity|]. split; [|vm_compute; reflexivity].
  intros (_ & _ & [_ H] & _). vm_compute in H. discriminate.
Qed.

(** An operation that throws leaves the object in an invalid state. *)
Theorem C02_throw_corrupts_object : exists t n e t',
  valid_date t /\ add_secs t n = Throw e t' /\ ~ valid_date t'.
Proof.
  exists (mkTime 2000 0 5 0 0 CalNoLeap TypeFixed), (-86400), ELogic,
         (mkTime 2000 0 3 86400 0 CalNoLeap TypeFixed).
  split; [vm_compute; repeat split; congruence|]. split; [vm_compute; reflexivity|].
  intros (_ & _ & _ & [_ H] & _). vm_compute in H. discriminate.
Qed.

Example C02_nonvacuous :
  run_ops d2000 [OpSeconds 1; OpDays (-400); OpMonths 25; OpYears (-3); OpAdd dt30]
  = Ok (mkTime 1998 1 24 1800 999999 CalNoLeap TypeFixed).
Proof. vm_compute. reflexivity. Qed.

(** ** C03 *)
(** Whenever normalisation returns on the no-leap calendar, for arbitrary
    (also negative) fields, it denotes the same instant. *)
Theorem C03_noleap_instant : forall t t', cal t = CalNoLeap -> normalize t = Ok t' ->
  valid_date t' /\ instant t' = instant t /\ cal t' = cal t /\ typ t' = typ t.
Proof.
  intros t t' Hc. apply normalize_ok_inv; [rewrite Hc; discriminate|apply noleap_fresh; exact Hc].
Qed.

(** The same for the standard calendar when the month field is in range. *)
Theorem C03_standard_instant : forall t t', has_months (cal t) -> 0 <= month t < 12 ->
  normalize t = Ok t' ->
  valid_date t' /\ instant t' = instant t /\ cal t' = cal t /\ typ t' = typ t.
Proof. intros t t' Hc Hm. apply normalize_ok_inv; [exact Hc|apply month_fresh; exact Hm]. Qed.

(** With a non-negative microsecond field, normalisation returns exactly when
    neither the months nor the seconds are a negative multiple of their
    period. *)
Theorem C03_success_condition : forall t, cal t = CalNoLeap -> 0 <= usec t ->
  ((exists t', normalize t = Ok t') <->
   ~ (month t < 0 /\ (12 | month t)) /\
   ~ (sec t + usec t / 1000000 < 0 /\ (86400 | sec t + usec t / 1000000))).
Proof.
  intros t Hc Hu. rewrite <- norm_succeeds_pos_us by assumption.
  assert (has_months (cal t)) as Hm by (rewrite Hc; discriminate).
  split.
  - intros [t' E]. unfold norm_succeeds.
    destruct (Z_lt_dec (month t) 0), (Z.eq_dec (month t mod 12) 0),
      (Z_lt_dec (carried t) 0), (Z.eq_dec (carried t mod 86400) 0),
      (Z_le_dec 0 (carried_us t)), (Z_lt_dec (carried_us t) 1000000);
    try (exfalso; destruct (normalize_throws t Hm (noleap_fresh t Hc)) as (x & Ex);
         [unfold norm_succeeds; lia | congruence]); lia.
  - intros S. destruct (normalize_ok t Hm (noleap_fresh t Hc) S) as (t' & E & _). eauto.
Qed.

(** Adding seconds and days. *)
Theorem C03_add_seconds : forall t n,
  cal t = CalNoLeap -> valid_date t -> ~ (sec t + n < 0 /\ (86400 | sec t + n)) ->
  exists t', add_secs t n = Ok t' /\ valid_date t' /\ instant t' = instant t + n * 1000000
    /\ cal t' = CalNoLeap /\ typ t' = typ t.
Proof. exact add_secs_exact. Qed.
Theorem C03_add_days : forall t n,
  cal t = CalNoLeap -> valid_date t ->
  exists t', add_days t n = Ok t' /\ valid_date t' /\ instant t' = instant t + n * 86400000000
    /\ cal t' = CalNoLeap /\ typ t' = typ t.
Proof. exact add_days_exact. Qed.
(** Adding a (normalised) delta never throws. *)
Theorem C03_add_delta : forall t d,
  cal t = CalNoLeap -> valid_date t -> valid_date d -> typ d = TypeDelta ->
  exists t', add_time t d = Ok t' /\ valid_date t' /\ cal t' = CalNoLeap /\ typ t' = typ t /\
    instant t' = instant_of CalNoLeap (year t + year d) (month t + month d) (day t + day d)
                   (sec t + sec d) (usec t + usec d).
Proof. exact add_valid_delta_ok. Qed.

(** "No operation with representable result throws" is false: one day back
    (in seconds) from midnight, twelve months back from January, and one
    microsecond back from 00:00:01 all throw. *)
Theorem C03_no_throw_refuted :
  let t := mkTime 2000 0 5 0 0 CalNoLeap TypeFixed in
  valid_date t /\
  (exists x, add_secs t (-86400) = Throw ELogic x) /\
  (exists x, add_mons t (-12) = Throw ELogic x) /\
  (exists x, make_time 2000 0 5 1 (-1) CalNoLeap TypeFixed = Throw ELogic x).
Proof.
  cbv zeta. split; [vm_compute; repeat split; congruence|].
  repeat split; eexists; vm_compute; reflexivity.
Qed.

(** On the standard calendar a month carry into a year of other length gives
    the wrong instant: 2003-02-29 asked as month 13 of 2003 (February 29 of
    the leap year 2004) comes back as March 1. *)
Theorem C03_standard_refuted : exists t t', cal t = CalStandard /\
  normalize t = Ok t' /\ valid_date t' /\ instant t' <> instant t.
Proof.
  exists (mkTime 2003 13 28 0 0 CalStandard TypeFixed), (mkTime 2004 2 0 0 0 CalStandard TypeFixed).
  split; [reflexivity|]. split; [vm_compute; reflexivity|].
  split; [vm_compute; repeat split; congruence|]. vm_compute. discriminate.
Qed.

Example C03_nonvacuous :
  make_time 2000 (-5) (-40) (-90000) 5000000 CalNoLeap TypeFixed
  = Ok (mkTime 1999 5 19 82805 0 CalNoLeap TypeFixed).
Proof. vm_compute. reflexivity. Qed.

(** ** C04 *)
(** Difference is the elapsed time (in microseconds). *)
Theorem C04_difference : forall a b,
  cal a = CalNoLeap -> cal b = CalNoLeap -> 0 <= month a < 12 -> 0 <= month b < 12 ->
  time_sub a b = Ok (instant a - instant b).
Proof. exact time_sub_spec. Qed.

Theorem C04_antisymmetric_additive : forall a b c x y,
  cal a = CalNoLeap -> cal b = CalNoLeap -> cal c = CalNoLeap ->
  0 <= month a < 12 -> 0 <= month b < 12 -> 0 <= month c < 12 ->
  time_sub a b = Ok x -> time_sub b c = Ok y ->
  time_sub b a = Ok (- x) /\ time_sub a c = Ok (x + y).
Proof.
  intros a b c x y Ca Cb Cc Ma Mb Mc. rewrite !time_sub_spec by assumption.
  intros [= <-] [= <-]. split; f_equal; lia.
Qed.

Theorem C04_get_seconds : forall a,
  cal a = CalNoLeap -> 0 <= month a < 12 -> get_seconds a = Ok (instant a).
Proof. exact get_seconds_spec. Qed.

(** (t + d) - t is the length of d, for deltas without a month field. *)
Theorem C04_sub_add : forall t d t',
  cal t = CalNoLeap -> cal d = CalNoLeap -> valid_date t -> valid_date d ->
  typ d = TypeDelta -> month d = 0 -> add_time t d = Ok t' ->
  exists s, get_seconds d = Ok s /\ time_sub t' t = Ok s.
Proof. exact sub_add. Qed.

(** For a delta of one month the reported length and the elapsed time differ. *)
Theorem C04_month_delta_refuted :
  let t := mkTime 2000 1 0 0 0 CalNoLeap TypeFixed in
  let d := mkTime 0 1 0 0 0 CalNoLeap TypeDelta in
  valid_date t /\ valid_date d /\
  exists t' s s', add_time t d = Ok t' /\ get_seconds d = Ok s /\ time_sub t' t = Ok s' /\ s <> s'.
Proof.
  cbv zeta. split; [vm_compute; repeat split; congruence|].
  split; [vm_compute; repeat split; congruence|].
  do 3 eexists. split; [vm_compute; reflexivity|]. split; [vm_compute; reflexivity|].
  split; [vm_compute; reflexivity|]. discriminate.
Qed.

(** Times of the standard calendar cannot be subtracted at all. *)
Theorem C04_standard_throws : forall a b, cal a = CalStandard ->
  time_sub a b = Throw EBadCalendar a /\ get_seconds a = Throw EBadCalendar a.
Proof. intros a b H. unfold time_sub, get_seconds. rewrite H. auto. Qed.

Example C04_nonvacuous :
  exists t', add_time d2000 dt30 = Ok t' /\ time_sub t' d2000 = Ok 1800000000.
Proof. eexists. split; [vm_compute; reflexivity|vm_compute; reflexivity]. Qed.

(** ** C05 *)
(** Exactly the years on which the library and the Gregorian calendar agree. *)
Theorem C05_agreement : forall y,
  spec_leap CalStandard y = gregorian_leap y <->
  ~ (100 | y) \/ (400 | y) /\ ~ (1000 | y) \/ ((1000 | y) /\ ~ (400 | y)).
Proof. exact leap_agree. Qed.

(** VerifyTime accepts exactly the dates of the calendar [spec_leap]. *)
Theorem C05_verify_exact : forall t,
  verify_time t = Ok t <-> valid_date t /\ 0 <= year t <= 9999.
Proof. intros t. symmetry. apply verify_time_spec. Qed.

(** Hence the Gregorian rule is violated: 1900-02-29 is accepted, and
    2000-02-29 is rejected. *)
Theorem C05_gregorian_refuted :
  (exists t, verify_time t = Ok t /\ cal t = CalStandard /\ year t = 1900 /\
     month t = 1 /\ day t = 28 /\ gregorian_leap 1900 = false) /\
  (exists t, verify_time t = Throw EDay t /\ cal t = CalStandard /\ year t = 2000 /\
     month t = 1 /\ day t = 28 /\ gregorian_leap 2000 = true).
Proof.
  split; eexists (mkTime _ 1 28 0 0 CalStandard TypeFixed);
    repeat split; vm_compute; reflexivity.
Qed.

(** ** C06 *)
Theorem C06_long_round_trip : forall t s old,
  valid_date t -> 0 <= year t <= 9999 -> cal old = cal t -> typ old = typ t ->
  to_long_string t = Ok s -> from_long_string old s = Ok t.
Proof. exact long_round_trip. Qed.

Theorem C06_string_round_trip : forall t s old,
  valid_date t -> 0 <= year t -> cal old = cal t ->
  to_string t = Ok s -> from_formatted_string old s = Ok t.
Proof. exact string_round_trip. Qed.

Theorem C06_short_round_trip : forall t s old,
  valid_date t -> 0 <= year t -> cal old = cal t ->
  to_short_string t = Ok s ->
  from_formatted_string old s =
  Ok (mkTime (year t) (month t) (day t) (sec t) 0 (cal t) (typ t)).
Proof. exact short_round_trip. Qed.

Theorem C06_free_round_trip : forall t old,
  valid_date t -> 0 <= year t -> typ t = TypeDelta -> cal old = cal t ->
  (typ old = TypeDelta \/ is_zero t = false) ->
  from_formatted_string old (to_free_string t) = Ok t.
Proof. exact free_round_trip. Qed.

Theorem C06_long_injective : forall a b s, valid_date a -> valid_date b ->
  0 <= year a <= 9999 -> 0 <= year b <= 9999 -> cal a = cal b ->
  to_long_string a = Ok s -> to_long_string b = Ok s -> a = b.
Proof. exact long_string_inj. Qed.

Theorem C06_string_injective : forall a b s, valid_date a -> valid_date b ->
  0 <= year a -> 0 <= year b -> cal a = cal b ->
  to_string a = Ok s -> to_string b = Ok s -> a = b.
Proof. exact string_inj. Qed.

(** The format "yyyy" documented in TimeObj.h is always rejected. *)
Theorem C06_year_only_refuted : forall t y, 0 <= y ->
  from_formatted_string t (fmt0 4 y) = Throw EFormat (mkTime 0 0 0 0 0 (cal t) (typ t)).
Proof.
  intros t y Hy. unfold from_formatted_string.
  destruct (fmt0 4 y) as [|c s] eqn:E; [exfalso; exact (fmt0_nonempty _ _ E)|]. rewrite <- E.
  rewrite floop_digits' by (apply fmt0_all; exact Hy).
  unfold ffinal. cbn [pj fst8 pY isnull]. rewrite E. reflexivity.
Qed.

Example C06_nonvacuous :
  exists s, to_long_string d2000 = Ok s /\ length s = 23%nat /\
  from_long_string (default_time CalNoLeap TypeFixed) s = Ok d2000.
Proof. eexists. split; [vm_compute; reflexivity|]. split; [reflexivity|vm_compute; reflexivity]. Qed.

Print Assumptions C01_trichotomy.
Print Assumptions C01_transitive.
Print Assumptions C01_chronological.
Print Assumptions C01_mismatch_throws.
Print Assumptions C02_noleap.
Print Assumptions C02_total.
Print Assumptions C02_standard_partial.
Print Assumptions C02_standard_refuted.
Print Assumptions C03_noleap_instant.
Print Assumptions C03_success_condition.
Print Assumptions C03_add_delta.
Print Assumptions C03_no_throw_refuted.
Print Assumptions C04_difference.
Print Assumptions C04_sub_add.
Print Assumptions C05_agreement.
Print Assumptions C05_gregorian_refuted.
Print Assumptions C06_long_round_trip.
Print Assumptions C06_string_round_trip.
Print Assumptions C06_free_round_trip.
Print Assumptions C06_string_injective.
