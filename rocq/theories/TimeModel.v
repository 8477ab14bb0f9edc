(** Model of class [Time]: src/base/TimeObj.h and src/base/TimeObj.cpp.

    [int] fields are modelled by [Z]; overflow is not modelled in this
    file.
    C++ [/] and [%] truncate towards zero: [Z.quot], [Z.rem].
    A [_EXCEPTION] is the result [Throw e t] where [t] is the state the object
    is left in; undefined behaviour (an out-of-range table index) is [UB];
    [Fuel] marks exhaustion of the fuel of the two [while] loops. *)
From Coq Require Import ZArith Bool List Ascii.
Import ListNotations.
Local Open Scope Z_scope.

(** TimeObj.h:36-40 *)
Inductive calendar := CalNone | CalNoLeap | CalStandard.
(** TimeObj.h:45-48 *)
Inductive timetype := TypeFixed | TypeDelta.

(** TimeObj.h: data members *)
Record time := mkTime {
  year : Z; month : Z; day : Z; sec : Z; usec : Z;
  cal : calendar; typ : timetype }.

Inductive exn :=
  | EBadCalendar | ELogic | EDiffType | EDiffCal | ENotDelta | ENotFixed
  | EYear | EMonth | EDay | ESecond | EMicro | EFormat.

(** Outcome of a member function on an object of class [Time]. *)
Inductive res (A : Type) :=
  | Ok (a : A)
  | Throw (e : exn) (t : time)
  | UB
  | Fuel.
Arguments Ok {A} a.
Arguments Throw {A} e t.
Arguments UB {A}.
Arguments Fuel {A}.

Definition cal_eqb (a b : calendar) : bool :=
  match a, b with
  | CalNone, CalNone | CalNoLeap, CalNoLeap | CalStandard, CalStandard => true
  | _, _ => false
  end.
Definition typ_eqb (a b : timetype) : bool :=
  match a, b with
  | TypeFixed, TypeFixed | TypeDelta, TypeDelta => true
  | _, _ => false
  end.

(** Time::operator==, TimeObj.cpp:24-37 *)
Definition time_eq (a b : time) : bool :=
  if negb (cal_eqb (cal a) (cal b)) || negb (typ_eqb (typ a) (typ b))
     || negb (year a =? year b) || negb (month a =? month b)
     || negb (day a =? day b) || negb (sec a =? sec b)
     || negb (usec a =? usec b)
  then false else true.

(** Time::operator<, TimeObj.cpp:41-80 *)
Definition time_lt (a b : time) : res bool :=
  if negb (typ_eqb (typ a) (typ b)) then Throw EDiffType a else
  if negb (cal_eqb (cal a) (cal b)) then Throw EDiffCal a else
  if year a <? year b then Ok true else if year b <? year a then Ok false else
  if month a <? month b then Ok true else if month b <? month a then Ok false else
  if day a <? day b then Ok true else if day b <? day a then Ok false else
  if sec a <? sec b then Ok true else if sec b <? sec a then Ok false else
  if usec a <? usec b then Ok true else if usec b <? usec a then Ok false else
  Ok false.

(** Time::operator>, TimeObj.cpp:84-124 *)
Definition time_gt (a b : time) : res bool :=
  if negb (typ_eqb (typ a) (typ b)) then Throw EDiffType a else
  if negb (cal_eqb (cal a) (cal b)) then Throw EDiffCal a else
  if year b <? year a then Ok true else if year a <? year b then Ok false else
  if month b <? month a then Ok true else if month a <? month b then Ok false else
  if day b <? day a then Ok true else if day a <? day b then Ok false else
  if sec b <? sec a then Ok true else if sec a <? sec b then Ok false else
  if usec b <? usec a then Ok true else if usec a <? usec b then Ok false else
  Ok false.

Definition res_negb (r : res bool) : res bool :=
  match r with Ok b => Ok (negb b) | r => r end.

(** TimeObj.h:149-151 and 156-158 *)
Definition time_le (a b : time) : res bool := res_negb (time_gt a b).
Definition time_ge (a b : time) : res bool := res_negb (time_lt a b).

(** Time::IsSameDate, TimeObj.h:114-129 *)
Definition is_same_date (a b : time) : bool :=
  if negb (typ_eqb (typ a) (typ b)) then false else
  if negb (cal_eqb (cal a) (cal b)) then false else
  (year a =? year b) && (month a =? month b) && (day a =? day b).

(** The table nDaysPerMonth with entry [feb] for February; an index outside
    0..11 is out of bounds.  TimeObj.cpp:134-135, 173-174 *)
Definition month_len (feb m : Z) : option Z :=
  if m <? 0 then None
  else nth_error [31; feb; 31; 30; 31; 30; 31; 31; 30; 31; 30; 31] (Z.to_nat m).

(** ((m_iYear % 4) == 0) && ((m_iYear % 1000) != 0), TimeObj.cpp:138, 177 *)
Definition code_leap (y : Z) : bool :=
  (Z.rem y 4 =? 0) && negb (Z.rem y 1000 =? 0).

(** Entry for February, TimeObj.cpp:134-141 and 173-180 *)
Definition feb_entry (c : calendar) (y : Z) : Z :=
  match c with CalStandard => if code_leap y then 29 else 28 | _ => 28 end.

(** Time::VerifyTime, TimeObj.cpp:128-163 *)
Definition verify_time (t : time) : res time :=
  match cal t with
  | CalNone => Throw EBadCalendar t
  | _ =>
    let feb := feb_entry (cal t) (year t) in
    if (year t <? 0) || (9999 <? year t) then Throw EYear t else
    if (month t <? 0) || (11 <? month t) then Throw EMonth t else
    match month_len feb (month t) with
    | None => UB
    | Some n =>
      if (day t <? 0) || (n <=? day t) then Throw EDay t else
      if (sec t <? 0) || (86400 <=? sec t) then Throw ESecond t else
      if (usec t <? 0) || (1000000 <=? usec t) then Throw EMicro t else
      Ok t
    end
  end.

(** TimeObj.cpp:183-190: number of added seconds.  Note that the negative
    branch reads m_iSecond where m_iMicroSecond is meant. *)
Definition added_seconds (s us : Z) : Z :=
  if 1000000 <=? us then Z.quot us 1000000
  else if us <? 0 then Z.quot (- (1000000 - s)) 1000000
  else 0.

(** TimeObj.cpp:195-201 *)
Definition added_days (s : Z) : Z :=
  if 86400 <=? s then Z.quot s 86400
  else if s <? 0 then Z.quot (- (86400 - s)) 86400
  else 0.

(** TimeObj.cpp:207-212 *)
Definition added_years (m : Z) : Z :=
  if 12 <=? m then Z.quot m 12
  else if m <? 0 then Z.quot (- (12 - m)) 12
  else 0.

Definition set_ymd (t : time) (y m d : Z) : time :=
  mkTime y m d (sec t) (usec t) (cal t) (typ t).

(** TimeObj.cpp:229-235 and 247-253: table adjusted when the year changes;
    only CalendarStandard touches it. *)
Definition adjust_feb (c : calendar) (feb y : Z) : Z :=
  match c with
  | CalStandard => if code_leap y then 29 else 28
  | _ => feb
  end.

(** while (m_iDay < 0) ..., TimeObj.cpp:220-238.  Returns the table entry of
    February and the object. *)
Fixpoint sub_months (fuel : nat) (feb : Z) (t : time) : res (Z * time) :=
  if day t <? 0 then
    match fuel with
    | O => Fuel
    | S f =>
      let m := month t - 1 in
      let y := if m <? 0 then year t - 1 else year t in
      let feb' := if m <? 0 then adjust_feb (cal t) feb (year t - 1) else feb in
      let m' := if m <? 0 then 11 else m in
      match month_len feb' m' with
      | None => UB
      | Some n => sub_months f feb' (set_ymd t y m' (day t + n))
      end
    end
  else Ok (feb, t).

(** while (m_iDay >= nDaysPerMonth[m_iMonth]) ..., TimeObj.cpp:241-255 *)
Fixpoint add_months (fuel : nat) (feb : Z) (t : time) : res (Z * time) :=
  match month_len feb (month t) with
  | None => UB
  | Some n =>
    if n <=? day t then
      match fuel with
      | O => Fuel
      | S f =>
        let m := month t + 1 in
        let y := if 11 <? m then year t + 1 else year t in
        let feb' := if 11 <? m then adjust_feb (cal t) feb (year t + 1) else feb in
        let m' := if 11 <? m then 0 else m in
        add_months f feb' (set_ymd t y m' (day t - n))
      end
    else Ok (feb, t)
  end.

(** Fuel sufficient for both loops: every month has at least 28 days. *)
Definition loop_fuel (d : Z) : nat := Z.to_nat (Z.abs d / 28 + 2).

(** Final check, TimeObj.cpp:258-265 *)
Definition final_check (feb : Z) (t : time) : res time :=
  if (month t <? 0) || (12 <=? month t) then Throw ELogic t else
  match month_len feb (month t) with
  | None => UB
  | Some n =>
    if (day t <? 0) || (n <=? day t)
       || (sec t <? 0) || (86400 <=? sec t)
       || (usec t <? 0) || (1000000 <=? usec t)
    then Throw ELogic t else Ok t
  end.

(** Time::NormalizeTime, TimeObj.cpp:167-271 *)
Definition normalize (t : time) : res time :=
  match cal t with
  | CalNone => Throw EBadCalendar t
  | _ =>
    let feb := feb_entry (cal t) (year t) in
    let ns := added_seconds (sec t) (usec t) in
    let us1 := usec t - ns * 1000000 in
    let s1 := sec t + ns in
    let nd := added_days s1 in
    let s2 := s1 - nd * 86400 in
    let d1 := day t + nd in
    let ny := added_years (month t) in
    let m1 := month t - ny * 12 in
    let y1 := year t + ny in
    let t1 := mkTime y1 m1 d1 s2 us1 (cal t) (typ t) in
    if (m1 <? 0) || (12 <=? m1) then Throw ELogic t1 else
    match sub_months (loop_fuel d1) feb t1 with
    | Ok (feb2, t2) =>
      match add_months (loop_fuel (day t2)) feb2 t2 with
      | Ok (feb3, t3) => final_check feb3 t3
      | Throw e x => Throw e x | UB => UB | Fuel => Fuel
      end
    | Throw e x => Throw e x | UB => UB | Fuel => Fuel
    end
  end.

(** Time::Time(int,...), TimeObj.h:71-89 *)
Definition make_time (y m d s us : Z) (c : calendar) (ty : timetype) : res time :=
  normalize (mkTime y m d s us c ty).

(** Time::Time(CalendarType, TimeType), TimeObj.h:54-65 *)
Definition default_time (c : calendar) (ty : timetype) : time :=
  mkTime 0 0 0 0 0 c ty.

(** Time::AddTime / operator+=(const Time &), TimeObj.cpp:275-288 *)
Definition add_time (t d : time) : res time :=
  match typ d with
  | TypeFixed => Throw ENotDelta t
  | TypeDelta =>
    normalize (mkTime (year t + year d) (month t + month d) (day t + day d)
                      (sec t + sec d) (usec t + usec d) (cal t) (typ t))
  end.

(** AddSeconds, AddDays, AddMonths, AddYears: TimeObj.h:188-227 *)
Definition add_secs (t : time) (n : Z) : res time :=
  normalize (mkTime (year t) (month t) (day t) (sec t + n) (usec t) (cal t) (typ t)).
Definition add_days (t : time) (n : Z) : res time :=
  normalize (mkTime (year t) (month t) (day t + n) (sec t) (usec t) (cal t) (typ t)).
Definition add_mons (t : time) (n : Z) : res time :=
  normalize (mkTime (year t) (month t + n) (day t) (sec t) (usec t) (cal t) (typ t)).
Definition add_years (t : time) (n : Z) : res time :=
  normalize (mkTime (year t + n) (month t) (day t) (sec t) (usec t) (cal t) (typ t)).

(** Sum of table entries first <= i < last, the loops TimeObj.cpp:323-326,
    335-338, 374-377; [None] when an index is out of bounds. *)
Fixpoint sum_months (n : nat) (i : Z) : option Z :=
  match n with
  | O => Some 0
  | S n' =>
    match month_len 28 i, sum_months n' (i + 1) with
    | Some a, Some b => Some (a + b)
    | _, _ => None
    end
  end.

(** Time::operator-, TimeObj.cpp:300-352.  The C++ result is a [double]
    number of seconds; the model returns the exact number of microseconds. *)
Definition time_sub (a b : time) : res Z :=
  match cal a with
  | CalNoLeap =>
    let base := (year a - year b) * 31536000 * 1000000
                + (sec a - sec b) * 1000000 + (usec a - usec b) in
    if month b <? month a then
      match month_len 28 (month b),
            sum_months (Z.to_nat (month a - (month b + 1))) (month b + 1) with
      | Some n, Some k =>
        Ok (base + 86400000000 * (n - day b) + 86400000000 * day a + 86400000000 * k)
      | _, _ => UB
      end
    else if month a <? month b then
      match month_len 28 (month a),
            sum_months (Z.to_nat (month b - (month a + 1))) (month a + 1) with
      | Some n, Some k =>
        Ok (base - (86400000000 * (n - day a) + 86400000000 * day b) - 86400000000 * k)
      | _, _ => UB
      end
    else Ok (base + 86400000000 * (day a - day b))
  | _ => Throw EBadCalendar a
  end.

(** Time::GetSeconds, TimeObj.cpp:356-385; exact microseconds as above. *)
Definition get_seconds (a : time) : res Z :=
  match cal a with
  | CalNoLeap =>
    match sum_months (Z.to_nat (month a)) 0 with
    | Some k =>
      Ok (year a * 31536000 * 1000000 + day a * 86400000000
          + sec a * 1000000 + usec a + 86400000000 * k)
    | None => UB
    end
  | _ => Throw EBadCalendar a
  end.

(** Time::IsZero, TimeObj.h:244-256 *)
Definition is_zero (t : time) : bool :=
  (year t =? 0) && (month t =? 0) && (day t =? 0) && (sec t =? 0) && (usec t =? 0).

(** GetMonth, GetDay: TimeObj.h:268-285 *)
Definition get_month (t : time) : Z :=
  match typ t with TypeFixed => month t + 1 | TypeDelta => month t end.
Definition get_day (t : time) : Z :=
  match typ t with TypeFixed => day t + 1 | TypeDelta => day t end.

(** A sequence of calls on one object, stopping at the first exception. *)
Inductive time_op :=
  | OpSeconds (n : Z) | OpDays (n : Z) | OpMonths (n : Z) | OpYears (n : Z)
  | OpAdd (d : time).
Definition apply_op (t : time) (o : time_op) : res time :=
  match o with
  | OpSeconds n => add_secs t n
  | OpDays n => add_days t n
  | OpMonths n => add_mons t n
  | OpYears n => add_years t n
  | OpAdd d => add_time t d
  end.
Fixpoint run_ops (t : time) (l : list time_op) : res time :=
  match l with
  | [] => Ok t
  | o :: l' => match apply_op t o with Ok t' => run_ops t' l' | r => r end
  end.
