(** C23: the exchange on all ranks, under every schedule. *)
From Coq Require Import ZArith Bool List Lia RelationClasses.
From Verif Require Import ProtoModel ProtoProofs.
Import ListNotations.
Local Open Scope Z_scope.

(** WaitReceive, whatever MPI_Test answers in each sweep: it returns a
    neighbour that has not been received and has tested complete, or NULL
    exactly when all have been received; it goes on spinning only while no
    outstanding receive tests complete. *)
Theorem C23_wait_receive fuel ps got test :
  match wait_receive fuel 0 ps got test 0 with
  | WFrom p => In p ps /\ got p = false /\ exists n, (n < fuel)%nat /\ test n p = true
  | WNull => forall p, In p ps -> got p = true
  | WSpin => forall p n, In p ps -> got p = false -> (n < fuel)%nat -> test n p = false
  end /\
  ((forall p, In p ps -> got p = true) -> (1 <= fuel)%nat -> wait_receive fuel 0 ps got test 0 = WNull).
Proof.
  split.
  - pose proof (wait_receive_spec fuel 0 ps got test 0) as H.
    assert (0%nat = length ps -> forall p, In p ps -> got p = true) as H0.
    { intros E p I. destruct ps; [destruct I|discriminate]. }
    specialize (H H0). destruct (wait_receive fuel 0 ps got test 0) as [| |p]; [|exact H|].
    + intros p n I G L. apply (H p n I G). lia.
    + destruct H as (I & G & n & L & T). split; [exact I|]. split; [exact G|]. exists n. split; [lia|exact T].
  - intros A L. destruct fuel as [|fuel]; [lia|]. cbn [wait_receive].
    destruct (Nat.eqb_spec 0 (length ps)); [reflexivity|].
    pose proof (sweep_spec ps got (test 0%nat) 0) as SW. destruct (sweep ps got (test 0%nat) 0) as [[p|] c].
    + destruct SW as (I & G & _). rewrite (A p I) in G. discriminate.
    + destruct SW as (_ & _ & H). cbn in H. rewrite (proj2 H A). destruct fuel; cbn [wait_receive]; rewrite Nat.eqb_refl; reflexivity.
Qed.
Example C23_case_wait :
  wait_receive 3 0 [4; 7; 9] (fun p => p =? 4) (fun n p => (n =? 1)%nat && (p =? 9)) 0 = WFrom 9.
Proof. reflexivity. Qed.

(** In every state reached under any schedule: Send never throws; a message
    that has arrived is the one its sender packed in the same exchange; and
    between exchanges each rank holds the state of the lockstep run. *)
Theorem C23_lockstep {St M} ranks procs rounds (pack : Z -> St -> Z -> M) unpack work s0 eqv n w w' :
  network ranks procs -> well_behaved ranks procs pack unpack work s0 eqv -> start ranks procs w s0 ->
  run ranks procs rounds pack unpack work n w w' ->
  let ref := lockstep procs pack unpack work s0 in
  forall r, In r ranks ->
    ph w' r <> Thrown /\
    (ph w' r = Receiving -> forall q, In q (procs r) -> req w' r q = Arrived -> rbuf w' r q = pack q (ref (rnd w' r) q) r) /\
    (ph w' r = Waiting -> eqv (dat w' r) (ref (rnd w' r) r)).
Proof.
  intros N B S R ref r I.
  destruct (inv_run ranks procs rounds pack unpack work s0 eqv N B n w w' (inv_start ranks procs rounds pack unpack work s0 eqv N B w S) R) as (HA & HB).
  destruct (HA r I). split; [exact r_thrown|]. split.
  - intros E q Q A. pose proof (n_known ranks procs N r q I Q) as Qk.
    apply (p_rbuf _ _ _ _ _ _ _ _ (HB q r Qk (n_sym ranks procs N r q I Qk Q))); [rewrite E; reflexivity|exact A].
  - intros E. apply r_dat. congruence.
Qed.

(** No schedule deadlocks or runs forever: a state that is not final has a
    step, and the number of steps is bounded.  So every schedule that cannot
    be continued has finished all exchanges on all ranks. *)
Theorem C23_completes {St M} ranks procs rounds (pack : Z -> St -> Z -> M) unpack work s0 eqv n w w' :
  NoDup ranks -> network ranks procs -> well_behaved ranks procs pack unpack work s0 eqv -> start ranks procs w s0 ->
  run ranks procs rounds pack unpack work n w w' ->
  (final ranks rounds w' \/ exists w'', step ranks procs rounds pack unpack work w' w'') /\
  (n <= fold_right (fun r t => rounds * (6 + 3 * length (procs r)) + t) 0 ranks)%nat /\
  (final ranks rounds w' -> forall r, In r ranks -> eqv (dat w' r) (lockstep procs pack unpack work s0 rounds r)).
Proof.
  intros ND N B S R.
  pose proof (inv_start ranks procs rounds pack unpack work s0 eqv N B w S) as I0.
  pose proof (inv_run ranks procs rounds pack unpack work s0 eqv N B n w w' I0 R) as I1.
  split; [exact (progress ranks procs rounds pack unpack work s0 eqv N w' I1)|]. split.
  - pose proof (run_left ranks procs rounds pack unpack work s0 eqv N B ND n w w' I0 R) as L.
    rewrite (start_left ranks procs rounds s0 w S) in L.
    assert (nsum (fun r => (rounds * per_rank procs r)%nat) ranks =
      fold_right (fun r t => (rounds * (6 + 3 * length (procs r)) + t)%nat) 0%nat ranks) as E.
    { clear. induction ranks as [|x l IH]; [reflexivity|]. cbn [nsum fold_right]. rewrite IH. reflexivity. }
    rewrite <- E. lia.
  - intros F r Hr. destruct (F r Hr) as (E1 & E2).
    pose proof (C23_lockstep ranks procs rounds pack unpack work s0 eqv n w w' N B S R r Hr) as (_ & _ & D).
    specialize (D E2). rewrite E1 in D. exact D.
Qed.

(** Two ranks exchanging with each other and with themselves. *)
Definition ex_ranks := [0; 1].
Definition ex_procs (r : Z) := [0; 1].
Definition ex_w : @world Z Z := mkW (fun _ => 0%nat) (fun _ => Waiting) (fun r => 10 + r) (fun _ => false) (fun _ _ => 0)
  (fun _ _ => false) (fun _ _ => []) (fun _ _ => Idle) (fun _ _ => 0) (fun _ _ => false).
Example C23_case_network :
  NoDup ex_ranks /\ network ex_ranks ex_procs /\
  well_behaved ex_ranks ex_procs (fun r s p => s) (fun r s q m => s + m) (fun r n s => s + 1) (fun r => 10 + r) eq /\
  start ex_ranks ex_procs ex_w (fun r => 10 + r) /\
  lockstep ex_procs (fun r s p => s) (fun r s q m => s + m) (fun r n s => s + 1) (fun r => 10 + r) 2 1 = 99.
Proof.
  assert (NoDup [0; 1]) as ND by (repeat constructor; cbn; lia).
  split; [exact ND|]. split; [|split; [|split]].
  - constructor; auto.
  - constructor; try (intros; subst; reflexivity).
    + exact eq_equivalence.
    + intros. lia.
  - split; intros; repeat split; reflexivity.
  - reflexivity.
Qed.

Print Assumptions C23_wait_receive.
Print Assumptions C23_lockstep.
Print Assumptions C23_completes.
