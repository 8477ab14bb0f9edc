(** * Announcements
    src/base/Announce.cpp.  The file-scope variables are the state; the
    characters written to the output buffer (and by AnnounceBanner partly to
    stdout) are collected in [out], oldest first. *)
From Coq Require Import ZArith Bool Ascii String List.
Import ListNotations.
Local Open Scope Z_scope.

(** Announce.cpp:44-59 *)
Definition BufferSize : Z := 1024.
Definition MaxLevel : Z := 16.
Definition BannerSize : Z := 60.

Inductive sink := Buffer | Stdout.

(** g_iVerbosityLevel, g_fOnlyOutputOnRankZero, s_nIndentationLevel,
    s_fBlockFlag: Announce.cpp:29-69 *)
Record st := St { verb : Z; only0 : bool; lvl : Z; flag : bool; out : list (sink * string) }.

(** Format: a text with '%' was used as a format without arguments;
    Overrun: szBuffer[1024] overflows *)
Inductive res := Ok (s : st) | Format | Overrun.

Section Rank.
(** TEMPEST_MPIOMP defined?  rank of this process *)
Context (mpi : bool) (rank : Z).

Definition silent (s : st) : bool := mpi && only0 s && (0 <? rank).
Definition write (k : sink) (t : string) (s : st) : st := St (verb s) (only0 s) (lvl s) (flag s) (out s ++ [(k, t)]).
Definition set_flag (b : bool) (s : st) : st := St (verb s) (only0 s) (lvl s) b (out s).
Definition set_lvl (l : Z) (s : st) : st := St (verb s) (only0 s) l (flag s) (out s).
Definition newline : string := String "010"%char EmptyString.
(** for (i = 0; i < s_nIndentationLevel; i++) fprintf("..") *)
Definition indent (s : st) : st := Nat.iter (Z.to_nat (lvl s)) (write Buffer "..") s.

Fixpoint has_percent (t : string) : bool :=
  match t with EmptyString => false | String c r => Ascii.eqb c "%" || has_percent r end.

(** the common body of the two Announce functions after formatting into [t]:
    Announce.cpp:221-258, 287-322.  Turning off the block flag comes before
    the formatting. *)
Definition say (t : option string) (s : st) : res :=
  if silent s then Ok s
  else
    let s := if flag s then set_flag false (write Buffer newline s) else s in
    match t with
    | None => Ok s
    | Some t =>
        if BufferSize <=? Z.of_nat (String.length t) then Overrun
        else Ok (write Buffer newline (write Buffer t (indent s)))
    end.
(** Announce(szText) with a text that is not meant as a format *)
Definition say_text (t : string) (s : st) : res :=
  if silent s then Ok s else if has_percent t then Format else say (Some t) s.
(** Announce(iVerbosity, ...), Announce.cpp:262-322 *)
Definition say_v (v : Z) (t : option string) (s : st) : res :=
  if silent s then Ok s else if verb s <? v then Ok s else say t s.

(** AnnounceStartBlock(szText), Announce.cpp:103-140 *)
Definition start (t : option string) (s : st) : res :=
  if lvl s =? MaxLevel then Ok s
  else if silent s then Ok s
  else
    let s := if flag s then write Buffer newline s else s in
    let s := indent s in
    let s := match t with None => s | Some t => set_flag true (write Buffer t s) end in
    Ok (set_lvl (lvl s + 1) s).
(** AnnounceStartBlock(iVerbosity, szText), 144-153 *)
Definition start_v (v : Z) (t : option string) (s : st) : res := if verb s <? v then Ok s else start t s.

(** AnnounceEndBlock(szText), Announce.cpp:157-194 *)
Definition end_ (t : option string) (s : st) : res :=
  if lvl s =? 0 then Ok s
  else if silent s then Ok s
  else
    match (match t with
           | None => Ok s
           | Some t =>
               if flag s then Ok (write Buffer newline (write Buffer t (write Buffer ".. " (set_flag false s))))
               else say_text t s
           end) with
    | Ok s => Ok (set_lvl (lvl s - 1) s)
    | r => r
    end.
(** AnnounceEndBlock(iVerbosity, szText), 198-207 *)
Definition end_v (v : Z) (t : option string) (s : st) : res := if verb s <? v then Ok s else end_ t s.

(** AnnounceBanner, Announce.cpp:326-374; the dashes of an empty banner and
    the leading ones go to stdout *)
Definition banner (t : option string) (s : st) : res :=
  if silent s then Ok s
  else
    let s := if flag s then set_flag false (write Buffer newline s) else s in
    match t with
    | None => Ok (write Buffer newline (Nat.iter (Z.to_nat BannerSize) (write Stdout "-") s))
    | Some t =>
        let n := Z.of_nat (String.length t) + 2 in
        let s := write Stdout "--" s in
        let s := if BannerSize - 2 <? n then write Buffer "--" (write Buffer t s)
                 else Nat.iter (Z.to_nat (BannerSize - n - 2)) (write Buffer "-") (write Buffer (" " ++ t ++ " ")%string s) in
        Ok (write Buffer newline s)
    end.

(** the calls *)
Inductive call :=
| SetVerbosity (v : Z)         (* Announce.cpp:85-87 *)
| OnlyRankZero | AllRanks      (* 91-99 *)
| Say (t : option string) | SayV (v : Z) (t : option string)
| Start (t : option string) | StartV (v : Z) (t : option string)
| End_ (t : option string) | EndV (v : Z) (t : option string)
| Banner (t : option string).
Definition do (c : call) (s : st) : res :=
  match c with
  | SetVerbosity v => Ok (St v (only0 s) (lvl s) (flag s) (out s))
  | OnlyRankZero => Ok (St (verb s) true (lvl s) (flag s) (out s))
  | AllRanks => Ok (St (verb s) false (lvl s) (flag s) (out s))
  | Say t => say t s | SayV v t => say_v v t s
  | Start t => start t s | StartV v t => start_v v t s
  | End_ t => end_ t s | EndV v t => end_v v t s
  | Banner t => banner t s
  end.
Fixpoint calls (cs : list call) (s : st) : res :=
  match cs with
  | [] => Ok s
  | c :: r => match do c s with Ok s' => calls r s' | e => e end
  end.
End Rank.
Definition init : st := St 0 false 0 false [].
