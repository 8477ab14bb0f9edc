(** Text conversions of class [Time]: src/base/TimeObj.cpp:389-824.
    Strings are lists of characters.  [sprintf] with [%0wi]/[%i] and [atoi]
    follow the C standard for values in range of [int]; values outside that
    range (for which [atoi] is undefined) are read exactly. *)
From Coq Require Import ZArith Bool List Ascii.
From Verif Require Import TimeModel.
Import ListNotations.
Local Open Scope Z_scope.

Definition chr (z : Z) : ascii := ascii_of_N (Z.to_N z).
Definition ord (c : ascii) : Z := Z.of_N (N_of_ascii c).

Definition c_dash := "-"%char.  Definition c_space := " "%char.
Definition c_colon := ":"%char. Definition c_dot := "."%char.

Definition is_digit (c : ascii) : bool := (48 <=? ord c) && (ord c <=? 57).

(** Decimal digits of a non-negative number. *)
Fixpoint digits_aux (fuel : nat) (z : Z) : list ascii :=
  match fuel with
  | O => []
  | S f => if z <? 10 then [chr (48 + z)]
           else digits_aux f (z / 10) ++ [chr (48 + z mod 10)]
  end.
Definition digits (z : Z) : list ascii := digits_aux (S (Z.to_nat (Z.log2 z))) z.

(** sprintf "%0<w>i" *)
Definition fmt0 (w : nat) (z : Z) : list ascii :=
  if z <? 0 then
    let ds := digits (- z) in c_dash :: repeat (chr 48) (w - 1 - length ds) ++ ds
  else
    let ds := digits z in repeat (chr 48) (w - length ds) ++ ds.
(** sprintf "%i" *)
Definition fmt (z : Z) : list ascii := fmt0 0 z.

(** isspace in the C locale *)
Definition is_space (c : ascii) : bool := (ord c =? 32) || ((9 <=? ord c) && (ord c <=? 13)).

Fixpoint atoi_digits (acc : Z) (s : list ascii) : Z :=
  match s with
  | c :: s' => if is_digit c then atoi_digits (acc * 10 + (ord c - 48)) s' else acc
  | [] => acc
  end.
Definition atoi_sign (s : list ascii) : Z :=
  match s with
  | c :: s' => if Ascii.eqb c c_dash then - atoi_digits 0 s'
               else if Ascii.eqb c "+"%char then atoi_digits 0 s'
               else atoi_digits 0 s
  | [] => 0
  end.
Fixpoint atoi (s : list ascii) : Z :=
  match s with
  | c :: s' => if is_space c then atoi s' else atoi_sign s
  | [] => 0
  end.

(** Time::ToDateString, TimeObj.cpp:389-400 *)
Definition to_date_string (t : time) : res (list ascii) :=
  match typ t with
  | TypeDelta => Throw ENotFixed t
  | TypeFixed =>
    Ok (fmt0 4 (year t) ++ [c_dash] ++ fmt0 2 (month t + 1) ++ [c_dash] ++ fmt0 2 (day t + 1))
  end.

(** Time::ToShortString, TimeObj.cpp:404-415 *)
Definition to_short_string (t : time) : res (list ascii) :=
  match typ t with
  | TypeDelta => Throw ENotFixed t
  | TypeFixed =>
    Ok (fmt0 4 (year t) ++ [c_dash] ++ fmt0 2 (month t + 1) ++ [c_dash] ++ fmt0 2 (day t + 1)
        ++ [c_dash] ++ fmt0 5 (sec t))
  end.

(** Time::ToLongString, TimeObj.cpp:419-430 *)
Definition to_long_string (t : time) : res (list ascii) :=
  match typ t with
  | TypeDelta => Throw ENotFixed t
  | TypeFixed =>
    Ok (fmt0 4 (year t) ++ [c_dash] ++ fmt0 2 (month t + 1) ++ [c_dash] ++ fmt0 2 (day t + 1)
        ++ [c_dash] ++ fmt0 5 (sec t) ++ [c_dash] ++ fmt0 6 (usec t))
  end.

(** Time::ToString, TimeObj.cpp:434-462 *)
Definition to_string (t : time) : res (list ascii) :=
  match typ t with
  | TypeDelta => Throw ENotFixed t
  | TypeFixed =>
    let base :=
      fmt0 4 (year t) ++ [c_dash] ++ fmt0 2 (month t + 1) ++ [c_dash] ++ fmt0 2 (day t + 1)
      ++ [c_space] ++ fmt0 2 (Z.quot (sec t) 3600)
      ++ [c_colon] ++ fmt0 2 (Z.quot (Z.rem (sec t) 3600) 60)
      ++ [c_colon] ++ fmt0 2 (Z.rem (sec t) 60) in
    if usec t =? 0 then Ok base
    else Ok (base ++ [c_dot] ++ fmt0 6 (usec t))
  end.

(** Time::ToFreeString, TimeObj.cpp:466-493 *)
Definition to_free_string (t : time) : list ascii :=
  (if year t =? 0 then [] else fmt (year t) ++ ["y"%char]) ++
  (if month t =? 0 then [] else fmt (month t) ++ ["M"%char]) ++
  (if day t =? 0 then [] else fmt (day t) ++ ["d"%char]) ++
  (if sec t =? 0 then [] else fmt (sec t) ++ ["s"%char]) ++
  (if usec t =? 0 then [] else fmt (usec t) ++ ["u"%char]).

(** Time::FromLongString, TimeObj.cpp:497-508.  [t] is the object before the
    call (it provides calendar and type). *)
Definition from_long_string (t : time) (s : list ascii) : res time :=
  if negb (Nat.eqb (length s) 23) then Throw EFormat t else
  verify_time (mkTime (atoi s) (atoi (skipn 5 s) - 1) (atoi (skipn 8 s) - 1)
                      (atoi (skipn 11 s)) (atoi (skipn 17 s)) (cal t) (typ t)).

Inductive fstate := FDate | FTime | FFree.
Definition fstate_eqb (a b : fstate) : bool :=
  match a, b with FDate, FDate | FTime, FTime | FFree, FFree => true | _, _ => false end.

(** Local variables of Time::FromFormattedString, TimeObj.cpp:515-546: the
    sz* pointers are suffixes of the string, [None] for NULL; [pj] is the
    suffix starting at j. *)
Record fvars := mkF {
  fst8 : fstate;
  pY : option (list ascii); pMo : option (list ascii); pD : option (list ascii);
  pH : option (list ascii); pMi : option (list ascii); pS : option (list ascii);
  pU : option (list ascii);
  pj : list ascii;          (* suffix at j *)
  jz : bool }.              (* j == 0 *)

Definition fset (v : fvars) (st : fstate) (k : nat) (p : list ascii) (nj : list ascii) : fvars :=
  let f i old := if Nat.eqb i k then Some p else old in
  mkF st (f 0%nat (pY v)) (f 1%nat (pMo v)) (f 2%nat (pD v)) (f 3%nat (pH v))
      (f 4%nat (pMi v)) (f 5%nat (pS v)) (f 6%nat (pU v)) nj false.

Definition isnull {A} (o : option A) : bool := match o with None => true | _ => false end.

(** One iteration of the loop TimeObj.cpp:549-706 at a character [c] followed
    by [rest]; [None] is a thrown exception. *)
Definition fstep (v : fvars) (c : ascii) (rest : list ascii) : option fvars :=
  if is_digit c then Some v
  else if Ascii.eqb c c_dash || Ascii.eqb c c_space then
    if negb (fstate_eqb (fst8 v) FDate) then None
    else if isnull (pY v) then Some (fset v FDate 0 (pj v) rest)
    else if isnull (pMo v) then Some (fset v FDate 1 (pj v) rest)
    else if isnull (pD v) then Some (fset v FDate 2 (pj v) rest)
    else None
  else if Ascii.eqb c c_colon || Ascii.eqb c c_dot then
    if fstate_eqb (fst8 v) FFree then None
    else if isnull (pH v) then Some (fset v FTime 3 (pj v) rest)
    else if isnull (pMi v) then Some (fset v FTime 4 (pj v) rest)
    else if isnull (pS v) then Some (fset v FTime 5 (pj v) rest)
    else None
  else
    if fstate_eqb (fst8 v) FTime then None
    else if fstate_eqb (fst8 v) FDate && negb (jz v) then None
    else if Ascii.eqb c "y"%char then
      if isnull (pY v) then Some (fset v FFree 0 (pj v) rest) else None
    else if Ascii.eqb c "M"%char then
      if isnull (pMo v) then Some (fset v FFree 1 (pj v) rest) else None
    else if Ascii.eqb c "d"%char then
      if isnull (pD v) then Some (fset v FFree 2 (pj v) rest) else None
    else if Ascii.eqb c "h"%char then
      if isnull (pH v) then Some (fset v FFree 3 (pj v) rest) else None
    else if Ascii.eqb c "m"%char then
      if isnull (pMi v) then Some (fset v FFree 4 (pj v) rest) else None
    else if Ascii.eqb c "s"%char then
      if isnull (pS v) then Some (fset v FFree 5 (pj v) rest) else None
    else if Ascii.eqb c "u"%char then
      if isnull (pU v) then Some (fset v FFree 6 (pj v) rest) else None
    else None.

Fixpoint floop (v : fvars) (s : list ascii) : option fvars :=
  match s with
  | [] => Some v
  | c :: rest => match fstep v c rest with None => None | Some v' => floop v' rest end
  end.

(** Finalize formatting, TimeObj.cpp:709-757: [i != j] iff characters remain
    after j. *)
Definition ffinal (v : fvars) : option fvars :=
  match pj v with
  | [] => Some v
  | _ =>
    match fst8 v with
    | FDate =>
      if isnull (pY v) then None
      else if isnull (pMo v) then Some (fset v FDate 1 (pj v) [])
      else if isnull (pD v) then Some (fset v FDate 2 (pj v) [])
      else if isnull (pS v) then Some (fset v FDate 5 (pj v) [])
      else None
    | FTime =>
      if isnull (pMi v) then Some (fset v FTime 4 (pj v) [])
      else if isnull (pS v) then Some (fset v FTime 5 (pj v) [])
      else if isnull (pU v) then Some (fset v FTime 6 (pj v) [])
      else None
    | FFree => None
    end
  end.

Definition oatoi (o : option (list ascii)) (off : Z) : Z :=
  match o with None => 0 | Some s => atoi s - off end.

(** Time::FromFormattedString, TimeObj.cpp:512-810 *)
Definition from_formatted_string (t : time) (s : list ascii) : res time :=
  let t0 := mkTime 0 0 0 0 0 (cal t) (typ t) in
  match s with
  | [] => Ok t0
  | _ =>
    match floop (mkF FDate None None None None None None None s true) s with
    | None => Throw EFormat t0
    | Some v =>
      match ffinal v with
      | None => Throw EFormat t0
      | Some w =>
        let free := fstate_eqb (fst8 w) FFree in
        let off := if free then 0 else 1 in
        normalize (mkTime (oatoi (pY w) 0) (oatoi (pMo w) off) (oatoi (pD w) off)
          (3600 * oatoi (pH w) 0 + 60 * oatoi (pMi w) 0 + oatoi (pS w) 0)
          (oatoi (pU w) 0) (cal t) (if free then TypeDelta else TypeFixed))
      end
    end
  end.

(** Time::GetCalendarName, TimeObj.cpp:814-824 *)
Definition calendar_name (c : calendar) : list ascii :=
  match c with
  | CalNone => ["n";"o";"n";"e"]%char
  | CalNoLeap => ["n";"o";"l";"e";"a";"p"]%char
  | CalStandard => ["s";"t";"a";"n";"d";"a";"r";"d"]%char
  end.
