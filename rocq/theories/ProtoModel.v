(** Model of one Grid::Exchange after another on all ranks: Grid.cpp:627-690
    with ExchangeBufferRegistry::WaitSend, PrepareExchange, Send and
    WaitReceive (Connectivity.cpp:928-1120), over message passing with
    arbitrary delays.

    MPI is modelled as: an MPI_Isend stays pending until its data have been
    copied out of the send buffer, at any later time (buffered or
    rendezvous); copied messages travel in order per pair of ranks; an
    MPI_Irecv stays posted until a message has been copied into the receive
    buffer; MPI_Test may report completion at any time after that;
    MPI_Waitall returns when all sends have completed.  Message lengths are
    not modelled here (see C24); m_fBlockParallelExchange is off. *)
From Coq Require Import ZArith Bool List.
Import ListNotations.
Local Open Scope Z_scope.

Definition upd {X} (f : Z -> X) (r : Z) (v : X) : Z -> X := fun q => if q =? r then v else f q.
Definition upd2 {X} (f : Z -> Z -> X) (r p : Z) (v : X) : Z -> Z -> X := upd f r (upd (f r) p v).

(** WaitReceive, Connectivity.cpp:1061-1106.  [got] is m_vecMessageReceived,
    [test n p] the answer of MPI_Test in sweep [n] of the outer loop. *)
Fixpoint sweep (ps : list Z) (got : Z -> bool) (test : Z -> bool) (count : nat) : option Z * nat :=
  match ps with
  | [] => (None, count)
  | p :: ps' =>
    if got p then sweep ps' got test (S count)
    else if test p then (Some p, count)
    else sweep ps' got test count
  end.
Inductive wait_res := WSpin | WNull | WFrom (p : Z).
Fixpoint wait_receive (fuel : nat) (n : nat) (ps : list Z) (got : Z -> bool) (test : nat -> Z -> bool) (count : nat) : wait_res :=
  if Nat.eqb count (length ps) then WNull else
  match fuel with
  | O => WSpin
  | S fuel' =>
    match sweep ps got (test n) 0 with
    | (Some p, _) => WFrom p
    | (None, count') => wait_receive fuel' (S n) ps got test count'
    end
  end.

Section Proto.
Context {St M : Type}.
(** [ranks]; the neighbours of each rank (m_vecProcessors); number of
    exchanges; packing the message for a rank; unpacking the message from a
    rank; the computation between exchange [n] and the next. *)
Context (ranks : list Z) (procs : Z -> list Z) (rounds : nat).
Context (pack : Z -> St -> Z -> M) (unpack : Z -> St -> Z -> M -> St) (work : Z -> nat -> St -> St).

Inductive phase := Waiting | Preparing | Packing | Sending | Receiving | Thrown.
Inductive request := Idle | Posted | Arrived.
Record world := mkW {
  rnd : Z -> nat; ph : Z -> phase; dat : Z -> St;
  act : Z -> bool;                 (* m_fActiveAsyncSend *)
  sbuf : Z -> Z -> M;              (* m_vecSendBuffers *)
  pend : Z -> Z -> bool;           (* m_vecSendRequest not complete *)
  chan : Z -> Z -> list M;         (* messages under way, from - to *)
  req : Z -> Z -> request;         (* m_vecRecvRequest *)
  rbuf : Z -> Z -> M;              (* m_vecRecvBuffers *)
  got : Z -> Z -> bool }.          (* m_vecMessageReceived *)

Definition all_complete (w : world) (r : Z) : Prop := forall p, In p (procs r) -> pend w r p = false.

Inductive step : world -> world -> Prop :=
(** WaitSend, Connectivity.cpp:1110-1120 *)
| s_wait : forall w r, In r ranks -> ph w r = Waiting -> (rnd w r < rounds)%nat ->
    (act w r = true -> all_complete w r) ->
    step w (mkW (rnd w) (upd (ph w) r Preparing) (dat w) (upd (act w) r false)
      (sbuf w) (pend w) (chan w) (req w) (rbuf w) (got w))
(** PrepareExchange, Connectivity.cpp:928-959 *)
| s_prep : forall w r, In r ranks -> ph w r = Preparing ->
    step w (mkW (rnd w) (upd (ph w) r Packing) (dat w) (act w) (sbuf w) (pend w) (chan w)
      (upd (req w) r (fun _ => Posted)) (rbuf w) (upd (got w) r (fun _ => false)))
(** The packing loop, Grid.cpp:651-661 *)
| s_pack : forall w r, In r ranks -> ph w r = Packing ->
    step w (mkW (rnd w) (upd (ph w) r Sending) (dat w) (act w)
      (upd (sbuf w) r (fun p => pack r (dat w r) p)) (pend w) (chan w) (req w) (rbuf w) (got w))
(** Send, Connectivity.cpp:963-993 *)
| s_send_throw : forall w r, In r ranks -> ph w r = Sending -> act w r = true ->
    step w (mkW (rnd w) (upd (ph w) r Thrown) (dat w) (act w) (sbuf w) (pend w) (chan w) (req w) (rbuf w) (got w))
| s_send : forall w r, In r ranks -> ph w r = Sending -> act w r = false ->
    step w (mkW (rnd w) (upd (ph w) r Receiving) (dat w) (upd (act w) r true) (sbuf w)
      (upd (pend w) r (fun _ => true)) (chan w) (req w) (rbuf w) (got w))
(** WaitReceive returns rank [q] and its buffers are unpacked,
    Grid.cpp:667-689 *)
| s_recv : forall w r q, In r ranks -> ph w r = Receiving -> In q (procs r) ->
    req w r q = Arrived -> got w r q = false ->
    step w (mkW (rnd w) (ph w) (upd (dat w) r (unpack r (dat w r) q (rbuf w r q))) (act w) (sbuf w)
      (pend w) (chan w) (req w) (rbuf w) (upd2 (got w) r q true))
(** WaitReceive returns NULL: the exchange is over; the computation up to
    the next exchange *)
| s_done : forall w r, In r ranks -> ph w r = Receiving -> (forall q, In q (procs r) -> got w r q = true) ->
    step w (mkW (upd (rnd w) r (S (rnd w r))) (upd (ph w) r Waiting) (upd (dat w) r (work r (rnd w r) (dat w r)))
      (act w) (sbuf w) (pend w) (chan w) (req w) (rbuf w) (got w))
(** MPI copies a pending message out of the send buffer *)
| s_copy : forall w q p, In q ranks -> In p (procs q) -> pend w q p = true ->
    step w (mkW (rnd w) (ph w) (dat w) (act w) (sbuf w) (upd2 (pend w) q p false)
      (upd2 (chan w) q p (chan w q p ++ [sbuf w q p])) (req w) (rbuf w) (got w))
(** MPI completes a posted receive with the oldest message *)
| s_deliver : forall w q p m ms, In q ranks -> In p (procs q) -> chan w q p = m :: ms -> req w p q = Posted ->
    step w (mkW (rnd w) (ph w) (dat w) (act w) (sbuf w) (pend w) (upd2 (chan w) q p ms)
      (upd2 (req w) p q Arrived) (upd2 (rbuf w) p q m) (got w)).

(** Before the first exchange: no requests, no messages. *)
Definition start (w : world) (s0 : Z -> St) : Prop :=
  (forall r, In r ranks -> rnd w r = 0%nat /\ ph w r = Waiting /\ dat w r = s0 r /\ act w r = false) /\
  (forall r p, In r ranks -> In p (procs r) -> pend w r p = false /\ chan w r p = [] /\ req w p r = Idle).
(** All exchanges finished on all ranks. *)
Definition final (w : world) : Prop := forall r, In r ranks -> rnd w r = rounds /\ ph w r = Waiting.

Inductive run : nat -> world -> world -> Prop :=
| run_0 : forall w, run 0 w w
| run_S : forall n w w' w'', run n w w' -> step w' w'' -> run (S n) w w''.
End Proto.
Arguments step {St M}. Arguments run {St M}. Arguments start {St M}. Arguments final {St M}.

(** Specification: all ranks exchange at the same time, each unpacking its
    messages in the order of its neighbour list. *)
Section Lockstep.
Context {St M : Type} (procs : Z -> list Z)
  (pack : Z -> St -> Z -> M) (unpack : Z -> St -> Z -> M -> St) (work : Z -> nat -> St -> St) (s0 : Z -> St).
Fixpoint lockstep (n : nat) : Z -> St :=
  match n with
  | O => s0
  | S n' => fun r => work r n' (fold_left (fun s q => unpack r s q (pack q (lockstep n' q) r)) (procs r) (lockstep n' r))
  end.
End Lockstep.
