(** Model of the run loop and of the output / workflow schedules:
    src/atm/Model.cpp (Model::Go), src/atm/OutputManager.cpp,
    src/atm/WorkflowProcess.cpp.

    Not modelled: the state being integrated (a call of
    TimestepScheme::Step is recorded as an event), the file contents, the
    NULL-pointer checks and component initialisation of Model.cpp:315-355,
    the timing statistics after the loop. *)
From Coq Require Import ZArith Bool List Ascii.
From Verif Require Import TimeModel TimeStrModel.
Import ListNotations.
Local Open Scope Z_scope.

Inductive mexn := MTime (e : exn) | MTimeUB | MTimeFuel | MOpen | MZeroStep.
Inductive mres (A : Type) := MOk (a : A) | MThrow (e : mexn) | MFuel.
Arguments MOk {A} a.
Arguments MThrow {A} e.
Arguments MFuel {A}.

Definition bindT {A B} (r : res A) (f : A -> mres B) : mres B :=
  match r with
  | Ok a => f a
  | Throw e _ => MThrow (MTime e)
  | UB => MThrow MTimeUB
  | Fuel => MThrow MTimeFuel
  end.
Definition bindM {A B} (r : mres A) (f : A -> mres B) : mres B :=
  match r with MOk a => f a | MThrow e => MThrow e | MFuel => MFuel end.

(** Calls made by an output manager on its file: OutputManager.cpp:99-124.
    [EvOutput t f i]: Output(time) with m_ixOutputFile = f, m_ixOutputTime = i. *)
Inductive omev := EvOpen (t : time) | EvOutput (t : time) (f i : Z) | EvClose.

(** Data members of OutputManager (OutputManager.h) used by the schedule;
    [openok n] tells whether the (n+1)-st OpenFile succeeds; [omlog] records
    the calls made, in order. *)
Record outman := mkOM {
  freq : time; from_restart : bool; per_file : Z; openok : nat -> bool;
  is_open : bool; ix_time : Z; ix_file : Z;
  last_out : time; next_out : time;
  nopen : nat; omlog : list omev }.

(** Constructor, OutputManager.cpp:36-66 *)
Definition new_outman (fr : time) (restart : bool) (n : Z) (ok : nat -> bool) : outman :=
  mkOM fr restart n ok false 0 0 (default_time CalNoLeap TypeFixed)
       (default_time CalNoLeap TypeFixed) 0 [].

(** OutputManager::IsOutputNeeded, OutputManager.cpp:82-95 *)
Definition is_output_needed (om : outman) (t : time) : mres bool :=
  if is_zero (freq om) then MOk false
  else bindT (time_lt t (next_out om)) (fun b => MOk (negb b)).

(** OutputManager::PerformOutput, OutputManager.cpp:99-124.  GetFileName
    (69-78) formats the time with ToShortString. *)
Definition perform_output (om : outman) (t : time) : mres outman :=
  let opened :=
    if is_open om then MOk om
    else bindT (to_short_string t) (fun _ =>
      if openok om (nopen om) then
        MOk (mkOM (freq om) (from_restart om) (per_file om) (openok om)
               true (ix_time om) (ix_file om) (last_out om) (next_out om)
               (S (nopen om)) (omlog om ++ [EvOpen t]))
      else MThrow MOpen) in
  bindM opened (fun o =>
    let ev := EvOutput t (ix_file o) (ix_time o) in
    if ix_time o + 1 =? per_file o then
      MOk (mkOM (freq o) (from_restart o) (per_file o) (openok o)
             false 0 (ix_file o + 1) (last_out o) (next_out o)
             (nopen o) (omlog o ++ [ev; EvClose]))
    else
      MOk (mkOM (freq o) (from_restart o) (per_file o) (openok o)
             (is_open o) (ix_time o + 1) (ix_file o) (last_out o) (next_out o)
             (nopen o) (omlog o ++ [ev]))).

Definition set_times (o : outman) (l n : time) : outman :=
  mkOM (freq o) (from_restart o) (per_file o) (openok o)
       (is_open o) (ix_time o) (ix_file o) l n (nopen o) (omlog o).

(** OutputManager::ManageOutput, OutputManager.cpp:128-147 *)
Definition manage_output (om : outman) (t : time) : mres outman :=
  bindT (to_string t) (fun _ =>
  bindM (perform_output om t) (fun o =>
  bindT (add_time (next_out o) (freq o)) (fun n => MOk (set_times o t n)))).

(** OutputManager::InitialOutput, OutputManager.cpp:151-176 *)
Definition initial_output (om : outman) (t : time) : mres outman :=
  bindT (to_string t) (fun _ =>
  bindM (if from_restart om then MOk om else perform_output om t) (fun o =>
  bindT (add_time t (freq o)) (fun n => MOk (set_times o (last_out o) n)))).

(** OutputManager::FinalOutput, OutputManager.cpp:180-199 *)
Definition final_output (om : outman) (t : time) : mres outman :=
  if time_eq t (last_out om) then MOk om
  else bindT (to_string t) (fun _ => perform_output om t).

(** Data members of WorkflowProcess; [wflog] records the times of Perform. *)
Record wfproc := mkWF { wfreq : time; wnext : time; wflog : list time }.

(** WorkflowProcess.cpp:21-28 *)
Definition new_wf (fr : time) : wfproc := mkWF fr (default_time CalNoLeap TypeFixed) [].
(** WorkflowProcess::Initialize, WorkflowProcess.cpp:32-37 *)
Definition wf_initialize (w : wfproc) (t : time) : mres wfproc :=
  bindT (add_time t (wfreq w)) (fun n => MOk (mkWF (wfreq w) n (wflog w))).
(** WorkflowProcess::IsReady, WorkflowProcess.cpp:41-55 *)
Definition wf_ready (w : wfproc) (t : time) : mres bool :=
  if is_zero (wfreq w) then MOk false
  else bindT (time_lt t (wnext w)) (fun b => MOk (negb b)).
(** WorkflowProcess::Perform, WorkflowProcess.cpp:59-64 *)
Definition wf_perform (w : wfproc) (t : time) : mres wfproc :=
  bindT (add_time (wnext w) (wfreq w)) (fun n => MOk (mkWF (wfreq w) n (wflog w ++ [t]))).

Fixpoint mapM {A B} (f : A -> mres B) (l : list A) : mres (list B) :=
  match l with
  | [] => MOk []
  | x :: xs => bindM (f x) (fun y => bindM (mapM f xs) (fun ys => MOk (y :: ys)))
  end.

(** Model.cpp:476-481 *)
Definition wf_poll (t : time) (w : wfproc) : mres wfproc :=
  bindM (wf_ready w t) (fun b => if b then wf_perform w t else MOk w).
(** Model.cpp:484-509 *)
Definition om_poll (lst : bool) (t : time) (om : outman) : mres outman :=
  if lst then final_output om t
  else bindM (is_output_needed om t) (fun b => if b then manage_output om t else MOk om).

(** A call TimestepScheme::Step(fFirstStep, fLastStep, m_time, dDeltaT),
    Model.cpp:426; [sc_dt] is in microseconds, [sc_after] is the model time
    after the update of Model.cpp:469-473. *)
Record stepcall := mkSC {
  sc_first : bool; sc_last : bool; sc_time : time; sc_dt : Z; sc_after : time }.

Record runstate := mkRun {
  r_time : time; r_calls : list stepcall; r_oms : list outman; r_wfs : list wfproc }.

(** The loop of Model::Go, Model.cpp:396-518 *)
Fixpoint go_loop (fuel : nat) (dt tend : time) (first : bool) (r : runstate) : mres runstate :=
  match fuel with
  | O => MFuel
  | S f =>
    let cur := r_time r in
    bindT (add_time cur dt) (fun next =>
    bindT (time_ge next tend) (fun last =>
    bindT (if last then time_sub tend cur else time_sub next cur) (fun d =>
    bindT (to_string cur) (fun _ =>
    let after := if last then tend else next in
    let calls := r_calls r ++ [mkSC first last cur d after] in
    bindM (mapM (wf_poll after) (r_wfs r)) (fun wfs =>
    bindM (mapM (om_poll last after) (r_oms r)) (fun oms =>
    let r' := mkRun after calls oms wfs in
    if last then MOk r' else go_loop f dt tend false r'))))))
  end.

(** Model::Go, Model.cpp:338-518.  [None] is the early return after the
    warning of Model.cpp:361-367. *)
Definition go (fuel : nat) (dt tstart tend : time)
              (oms : list outman) (wfs : list wfproc) : mres (option runstate) :=
  if is_zero dt then MThrow MZeroStep
  else
    bindT (time_ge tstart tend) (fun b =>
    if b then
      bindT (to_string tstart) (fun _ => bindT (to_string tend) (fun _ => MOk None))
    else
      bindM (mapM (fun o => initial_output o tstart) oms) (fun oms1 =>
      bindM (mapM (fun w => wf_initialize w tstart) wfs) (fun wfs1 =>
      bindM (go_loop fuel dt tend true (mkRun tstart [] oms1 wfs1)) (fun r => MOk (Some r))))).
