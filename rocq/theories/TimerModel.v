(** * Function timers
    src/base/FunctionTimer.cpp and .h.  A program is the list of its calls, each with
    what gettimeofday gives at that moment (seconds and microseconds).  unsigned long is
    Z modulo 2^64 and unsigned int Z modulo 2^32; timers are numbered. *)
From Coq Require Import ZArith String List Bool.
Import ListNotations.
Local Open Scope Z_scope.

Definition ulong (z : Z) : Z := z mod 2 ^ 64.
Definition uint (z : Z) : Z := z mod 2 ^ 32.
(** MICROSECONDS_PER_SECOND, FunctionTimer.h:39 *)
Definition per_second : Z := 1000000.
Definition timeval : Type := Z * Z.

(** TimerGroupData and the object, FunctionTimer.h:45-48, 129-137; [records] is
    m_mapGroupData, [timers] the objects that exist *)
Record group_data := GroupData { total_time : Z; entries : Z }.
Record timer := Timer { start : timeval; group : string }.
Record timing := Timing { timers : nat -> option timer; records : string -> option group_data }.
Definition fresh : timing := Timing (fun _ => None) (fun _ => None).
Definition set_timer (s : timing) (i : nat) (t : option timer) : timing :=
  Timing (fun j => if Nat.eqb j i then t else timers s j) (records s).
Definition set_record (s : timing) (g : string) (r : option group_data) : timing :=
  Timing (timers s) (fun h => if String.eqb h g then r else records s h).

(** what a call leads to: a state, an exception, or (which the language excludes) a use
    of an object that does not exist *)
Inductive result := Done (s : timing) | Throws | NoObject.

(** the time of line 54-56 *)
Definition elapsed (now from : timeval) : Z := ulong (per_second * (fst now - fst from) + (snd now - snd from)).
(** Time(fDone), 50-87: the value and the state *)
Definition time_of (s : timing) (t : timer) (now : timeval) (done : bool) : Z * timing :=
  let i := elapsed now (start t) in
  if String.eqb (group t) "" then (i, s)
  else if done then
    match records s (group t) with
    | Some r => (i, set_record s (group t) (Some (GroupData (ulong (total_time r + i)) (uint (entries r + 1)))))
    | None => (i, set_record s (group t) (Some (GroupData i 1)))
    end
  else (i, s).

(** constructor 29-40, Reset 44-46, Time 50, StopTime 91-93, destructor
    FunctionTimer.h:71-73, ResetGroupTimeRecord 156-168 *)
Inductive call :=
| Create (i : nat) (g : string) | Restart (i : nat) | Look (i : nat) (done : bool) | Stop (i : nat) | Destroy (i : nat) | Forget (g : string).
Definition perform (s : timing) (now : timeval) (c : call) : result :=
  match c with
  | Create i g => match timers s i with None => Done (set_timer s i (Some (Timer now g))) | Some _ => NoObject end
  | Restart i => match timers s i with Some t => Done (set_timer s i (Some (Timer now (group t)))) | None => NoObject end
  | Look i d => match timers s i with Some t => Done (snd (time_of s t now d)) | None => NoObject end
  | Stop i => match timers s i with Some t => Done (snd (time_of s t now true)) | None => NoObject end
  | Destroy i => match timers s i with Some t => Done (set_timer (snd (time_of s t now true)) i None) | None => NoObject end
  | Forget g => match records s g with Some _ => Done (set_record s g None) | None => Throws end
  end.
Fixpoint run_calls (s : timing) (p : list (timeval * call)) : result :=
  match p with
  | [] => Done s
  | (now, c) :: p' => match perform s now c with Done s' => run_calls s' p' | e => e end
  end.

(** GetAverageGroupTime, 117-133; [None]: a division by zero *)
Definition average (s : timing) (g : string) : option Z :=
  match records s g with
  | Some r => if entries r =? 0 then None else Some (total_time r / entries r)
  | None => Some 0
  end.
(** GetNumberOfEntries, 137-152 *)
Definition count (s : timing) (g : string) : Z := match records s g with Some r => entries r | None => 0 end.
