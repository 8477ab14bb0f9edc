(** * Command line parsing
    src/base/CommandLine.h and src/atm/CommandLine.h.  The macro bodies
    BeginCommandLine .. EndCommandLine are modelled as one function of argv.
    Strings are Coq strings without NUL.  The conversions of SetValue (atoi,
    atof, Time::FromFormattedString) are a parameter [conv]; [None] stands for
    an exception.  Printed text is not modelled. *)
From Coq Require Import ZArith String Bool Ascii List.
Import ListNotations.
Open Scope Z_scope.

(** ParameterType, base/CommandLine.h:31-37, atm/CommandLine.h:34-41 *)
Inductive kind := KBool | KString | KInt | KDouble | KTime.
Definition kind_eqb (a b : kind) : bool :=
  match a, b with
  | KBool, KBool | KString, KString | KInt, KInt | KDouble, KDouble | KTime, KTime => true
  | _, _ => false
  end.

(** an entry of _vecParameters: name as given (without dashes) and type,
    base/CommandLine.h:44-99, 370-423 *)
Record param := Param { pname : string; pkind : kind }.

(** m_strName = "--" + strName, base/CommandLine.h:53 *)
Definition flag (p : param) : string := ("--" ++ pname p)%string.

(** GetValueCount, base/CommandLine.h:134-136, 194-196, 260-262, 326-328 and
    atm/CommandLine.h:413-415 *)
Definition nvals (k : kind) : Z := match k with KBool => 0 | _ => 1 end.

(** the test that a word is the next option: strlen > 2 and two leading
    dashes, base/CommandLine.h:444-447 *)
Definition dashed (s : string) : bool :=
  match s with
  | String a (String b (String c r)) => Ascii.eqb a "-" && Ascii.eqb b "-"
  | _ => false
  end.

Section Parse.
Context {V : Type} (on : V) (conv : kind -> string -> option V).

(** outcome: the error flag with the parameter values; an exception; a read
    of argv at or beyond argc; the loop did not end within the fuel *)
Inductive out := Parsed (err : bool) (vals : list V) | Threw | Wild | Fuel.
Inductive res (A : Type) := Ok (a : A) | RThrew | RWild.
Arguments Ok {A}. Arguments RThrew {A}. Arguments RWild {A}.

Fixpoint put (i : nat) (v : V) (l : list V) : list V :=
  match i, l with
  | _, [] => []
  | O, _ :: r => v :: r
  | S j, x :: r => x :: put j v r
  end.

(** the loop variables _command, _found, _errorCommandLine and the referenced
    parameter values *)
Record st := St { command : Z; found : bool; err : bool; vals : list V }.

Definition argc (argv : list string) : Z := Z.of_nat (length argv).
Definition arg (argv : list string) (i : Z) : option string :=
  if (0 <=? i) && (i <? argc argv) then nth_error argv (Z.to_nat i) else None.

(** Activate, base/CommandLine.h:82-83 (nothing), 146-148 (booleans) *)
Definition activate (k : kind) (i : nat) (l : list V) : list V :=
  match k with KBool => put i on l | _ => l end.

(** the loop over _z, base/CommandLine.h:442-451: returns the last _z with
    _command and the values *)
Fixpoint take (argv : list string) (k : kind) (i : nat) (fuel : nat) (z cmd : Z) (l : list V) : res (Z * Z * list V) :=
  match fuel with
  | O => Ok (z, cmd, l)
  | S f =>
      if negb (z <? nvals k) then Ok (z, cmd, l)
      else
        let next := cmd + z + 1 in
        match (if next <? argc argv then option_map dashed (arg argv next) else Some false) with
        | None => RWild
        | Some true => Ok (z, cmd, l)
        | Some false =>
            match arg argv (cmd + 1) with
            | None => RWild
            | Some s =>
                (* SetValue: "Invalid value index." unless _z is 0 *)
                if negb (z =? 0) then RThrew
                else match conv k s with
                     | None => RThrew
                     | Some v => take argv k i f (z + 1) (cmd + 1) (put i v l)
                     end
            end
        end
  end.

(** the loop over _p, base/CommandLine.h:431-462.  The loop is not left after
    a match: the remaining entries are compared with the word _command then
    points at. *)
Fixpoint params (argv : list string) (ps : list param) (i : nat) (s : st) : res st :=
  match ps with
  | [] => Ok s
  | p :: rest =>
      match arg argv (command s) with
      | None => RWild
      | Some w =>
          if String.eqb (flag p) w then
            let l := activate (pkind p) i (vals s) in
            if argc argv - command s <=? nvals (pkind p) then Ok (St (argc argv) true true l)
            else
              match take argv (pkind p) i (S (Z.to_nat (nvals (pkind p)))) 0 (command s) l with
              | RWild => RWild
              | RThrew => RThrew
              | Ok (z, cmd, l') =>
                  if (0 <=? nvals (pkind p)) && negb (z =? nvals (pkind p))
                  then Ok (St (argc argv) true true l')
                  else params argv rest (S i) (St cmd true (err s) l')
              end
          else params argv rest (S i) s
      end
  end.

(** the loop over _command, base/CommandLine.h:429-468; [strict] is true for
    src/base (an unknown word is an error) and false for src/atm, where it is
    only reported (atm/CommandLine.h:593-595) *)
Fixpoint loop (strict : bool) (tbl : list param) (argv : list string) (fuel : nat) (s : st) : out :=
  if negb (command s <? argc argv) then Parsed (err s) (vals s)
  else match fuel with
  | O => Fuel
  | S f =>
      match params argv tbl 0 (St (command s) false (err s) (vals s)) with
      | RWild => Wild
      | RThrew => Threw
      | Ok t =>
          if negb (found t) && strict then
            match arg argv (command t) with None => Wild | Some _ => Parsed true (vals t) end
          else loop strict tbl argv f (St (command t + 1) (found t) (err t) (vals t))
      end
  end.

(** BeginCommandLine, the parameter constructors (which store the defaults)
    and ParseCommandLine.  EndCommandLine then exits when the error flag is
    set (base/CommandLine.h:473-481). *)
Definition parse_command_line (strict : bool) (tbl : list param) (defaults : list V) (argv : list string) : out :=
  loop strict tbl argv (length argv) (St 1 false false defaults).
End Parse.
Arguments Ok {A}. Arguments RThrew {A}. Arguments RWild {A}.
