(** Specifications for the run loop and the output schedule, independent of
    the control flow in RunModel.v (only data types are shared). *)
From Coq Require Import ZArith Bool List Sorted.
From Verif Require Import TimeModel TimeSpec RunModel.
Import ListNotations.
Local Open Scope Z_scope.

(** A fixed date of the no-leap calendar. *)
Definition fixed_date (t : time) : Prop :=
  valid_date t /\ cal t = CalNoLeap /\ typ t = TypeFixed.
(** A positive normalised time step or period of the no-leap calendar. *)
Definition pos_delta (d : time) : Prop :=
  valid_date d /\ cal d = CalNoLeap /\ typ d = TypeDelta /\ 0 < instant d.

(** The recorded steps start at [s], each starts where the previous one
    ended, each advances the clock by its (positive) length, and the last one
    ends at [e]. *)
Fixpoint contiguous (s e : time) (cs : list stepcall) : Prop :=
  match cs with
  | [] => s = e
  | c :: cs' => sc_time c = s /\ 0 < sc_dt c
                /\ instant (sc_after c) = instant s + sc_dt c
                /\ contiguous (sc_after c) e cs'
  end.

Definition total_length (cs : list stepcall) : Z :=
  fold_right (fun c a => sc_dt c + a) 0 cs.

(** Exactly the first step is flagged first and exactly the last is flagged
    last. *)
Definition flags_ok (cs : list stepcall) : Prop :=
  exists n, map sc_first cs = true :: repeat false n /\
            map sc_last cs = repeat false n ++ [true].

(** Times written by an output manager, in order. *)
Definition written (om : outman) : list time :=
  flat_map (fun e => match e with EvOutput t _ _ => [t] | _ => [] end) (omlog om).

Definition increasing (l : list time) : Prop :=
  StronglySorted (fun a b => instant a < instant b) l.

(** File layout of a log: complete files of exactly [n] records followed by at
    most one file with fewer records.  [recs f i ts]: consecutive records of
    file [f] starting at record [i]. *)
Fixpoint recs (f i : Z) (ts : list time) : list omev :=
  match ts with [] => [] | t :: ts' => EvOutput t f i :: recs f (i + 1) ts' end.
Definition open_block (f : Z) (ts : list time) : list omev :=
  match ts with [] => [] | t :: _ => EvOpen t :: recs f 0 ts end.
Fixpoint closed_blocks (f : Z) (files : list (list time)) : list omev :=
  match files with
  | [] => []
  | ts :: files' => open_block f ts ++ [EvClose] ++ closed_blocks (f + 1) files'
  end.
Definition file_layout (n : Z) (log : list omev) (ts : list time) : Prop :=
  exists files tail,
    ts = concat files ++ tail /\
    Forall (fun file => Z.of_nat (length file) = n) files /\
    Z.of_nat (length tail) < n /\
    log = closed_blocks 0 files ++ open_block (Z.of_nat (length files)) tail.

(** A normalised period of the no-leap calendar, possibly zero. *)
Definition good_delta (d : time) : Prop :=
  valid_date d /\ cal d = CalNoLeap /\ typ d = TypeDelta.
(** A manager whose period is usable and whose files can always be opened. *)
Definition om_ready (om : outman) : Prop :=
  good_delta (freq om) /\ (forall n, openok om n = true).
(** A sequence of PerformOutput calls. *)
Fixpoint perform_all (om : outman) (ts : list time) : mres outman :=
  match ts with [] => MOk om | t :: ts' => bindM (perform_output om t) (fun o => perform_all o ts') end.
