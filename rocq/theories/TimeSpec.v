(** Calendar specification, independent of the program in TimeModel.v
    (only the record [time] is shared). *)
From Coq Require Import ZArith Bool List.
From Verif Require Import TimeModel.
Import ListNotations.
Local Open Scope Z_scope.

(** Proleptic Gregorian leap years. *)
Definition gregorian_leap (y : Z) : bool :=
  (y mod 4 =? 0) && (negb (y mod 100 =? 0) || (y mod 400 =? 0)).

(** A calendar with defined month lengths, given by its leap-year rule. *)
Definition spec_leap (c : calendar) (y : Z) : bool :=
  match c with
  | CalStandard => (y mod 4 =? 0) && negb (y mod 1000 =? 0)
  | _ => false
  end.

Definition has_months (c : calendar) : Prop := c <> CalNone.

Definition b2z (b : bool) : Z := if b then 1 else 0.

(** Days of month [m] (0 = January), meaningful for 0 <= m < 12. *)
Definition mdays (lp : bool) (m : Z) : Z :=
  if m =? 1 then 28 + b2z lp
  else if (m =? 3) || (m =? 5) || (m =? 8) || (m =? 10) then 30 else 31.

(** Days in the year before month [m]. *)
Definition dtm (lp : bool) (m : Z) : Z :=
  nth (Z.to_nat m) [0; 31; 59; 90; 120; 151; 181; 212; 243; 273; 304; 334; 365] 0
  + (if 1 <? m then b2z lp else 0).

(** Days from 0000-01-01 to January 1 of year [y]. *)
Definition dty (c : calendar) (y : Z) : Z :=
  365 * y + match c with
            | CalStandard => (y + 3) / 4 - (y + 999) / 1000
            | _ => 0
            end.

(** Elapsed microseconds since 0000-01-01 implied by (possibly unnormalised)
    fields: whole years are first taken out of the month field. *)
Definition instant_of (c : calendar) (y m d s us : Z) : Z :=
  let y' := y + m / 12 in
  let m' := m mod 12 in
  ((dty c y' + dtm (spec_leap c y') m' + d) * 86400 + s) * 1000000 + us.

Definition instant (t : time) : Z :=
  instant_of (cal t) (year t) (month t) (day t) (sec t) (usec t).

(** A date of the calendar (year unrestricted). *)
Definition valid_date (t : time) : Prop :=
  has_months (cal t) /\
  0 <= month t < 12 /\
  0 <= day t < mdays (spec_leap (cal t) (year t)) (month t) /\
  0 <= sec t < 86400 /\
  0 <= usec t < 1000000.

(** Sanity of the specification: [dty] and [dtm] really count days. *)
Definition spec_counts_days : Prop :=
  (forall c, dty c 0 = 0) /\
  (forall c y, dty c (y + 1) = dty c y + 365 + b2z (spec_leap c y)) /\
  (forall lp, dtm lp 0 = 0) /\
  (forall lp m, 0 <= m < 12 -> dtm lp (m + 1) = dtm lp m + mdays lp m) /\
  (forall lp, dtm lp 12 = 365 + b2z lp).
