(** * C105: when the physics packages of test/dcmip2016 act *)
From Coq Require Import ZArith Bool List Lia ZifyBool.
From Verif Require Import TimeModel TimeSpec TimeProofs RunModel RunSpec RunProofs RunProps SchedModel.
Import ListNotations.
Local Open Scope Z_scope.

Lemma fired_all F l : forall x, (forall k t, nth_error l k = Some t -> x + Z.of_nat k * F <= t) -> fired F x l = l.
Proof.
  induction l as [|t l IH]; intros x H; cbn; [reflexivity|]. pose proof (H 0%nat t eq_refl). destruct (Z.leb_spec x t); [|lia].
  f_equal. apply IH. intros k u E. pose proof (H (S k) u E). lia.
Qed.
Lemma default_fixed : fixed_date (default_time CalNoLeap TypeFixed).
Proof. repeat split; cbn; try lia; discriminate. Qed.
Lemma physics_run dt s e r fr w w' : pos_delta dt -> fixed_date s -> fixed_date e -> instant s < instant e ->
  traj dt e true s (r_calls r) -> pos_delta fr -> month fr = 0 ->
  physics_initialize (new_wf fr) s = MOk w -> wf_fold w (r_calls r) = MOk w' ->
  map instant (wflog w') = fired (instant fr) 0 (map instant (map sc_after (r_calls r))) /\
  instant (wnext w') = Z.of_nat (length (wflog w')) * instant fr /\ increasing (wflog w').
Proof.
  intros D Fs Fe L T Df M E H. injection E as <-.
  destruct (wf_fold_spec dt e D Fe (r_calls r) true s (new_wf fr) w' (instant fr) (- instant fr) 0 Fs L T
     Df M eq_refl default_fixed ltac:(cbn [wnext new_wf]; change (instant (default_time CalNoLeap TypeFixed)) with 0; cbn [wfreq new_wf]; ring) H)
    as (ps & J1 & J2 & J3 & J4 & J5).
  cbn [wflog new_wf app] in J1. rewrite J1. split; [rewrite J4; f_equal; ring|]. split; [rewrite J5; ring|exact J3].
Qed.

(** the package acts after every step for as long as the time of the step is
    not before the number of actions times the period, counted from year 0 *)
Theorem C105_every : forall fuel dt s e oms wfs r fr w w', pos_delta dt -> fixed_date s -> fixed_date e ->
  go fuel dt s e oms wfs = MOk (Some r) -> pos_delta fr -> month fr = 0 ->
  physics_initialize (new_wf fr) s = MOk w -> wf_fold w (r_calls r) = MOk w' ->
  (forall k c, nth_error (r_calls r) k = Some c -> Z.of_nat k * instant fr <= instant (sc_after c)) ->
  map instant (wflog w') = map (fun c => instant (sc_after c)) (r_calls r).
Proof.
  intros fuel dt s e oms wfs r fr w w' D Fs Fe G Df M E H B. destruct (go_inv _ _ _ _ _ _ _ D Fs Fe G) as (L & _ & T & _).
  destruct (physics_run dt s e r fr w w' D Fs Fe L T Df M E H) as (-> & _). rewrite map_map. apply fired_all.
  intros k t Hk. rewrite nth_error_map in Hk. destruct (nth_error (r_calls r) k) as [c|] eqn:Ek; [|discriminate]. injection Hk as <-.
  pose proof (B k c Ek). lia.
Qed.
Lemma calls_after dt e : pos_delta dt -> fixed_date e -> month dt = 0 -> forall cs first cur, fixed_date cur -> instant cur < instant e ->
  traj dt e first cur cs -> forall k c, nth_error cs k = Some c -> instant cur + Z.of_nat k * instant dt <= instant (sc_after c).
Proof.
  intros D Fe M. assert (0 < instant dt) as P by apply D.
  induction cs as [|c cs IH]; intros first cur Fc L T k c' Hk; [destruct T|]. destruct T as (T1 & T2 & T3 & next & En & T).
  destruct (step_forward_exact cur dt Fc D M) as (n0 & En' & Fn & In'). assert (n0 = next) as -> by congruence.
  destruct k as [|k].
  - injection Hk as <-. destruct T as [(A1 & A2 & A3 & A4 & _)|(A1 & A2 & A3 & A4 & _)]; rewrite A3; lia.
  - cbn in Hk. destruct T as [(A1 & A2 & A3 & A4 & ->)|(A1 & A2 & A3 & A4 & A5)]; [destruct k; discriminate|].
    pose proof (IH false next Fn A1 A5 k c' Hk). lia.
Qed.
(** a period of one time step, as in the drivers: once after every step *)
Theorem C105_step : forall fuel dt s e oms wfs r w w', pos_delta dt -> month dt = 0 -> fixed_date s -> 0 <= instant s -> fixed_date e ->
  go fuel dt s e oms wfs = MOk (Some r) ->
  physics_initialize (new_wf dt) s = MOk w -> wf_fold w (r_calls r) = MOk w' ->
  map instant (wflog w') = map (fun c => instant (sc_after c)) (r_calls r).
Proof.
  intros fuel dt s e oms wfs r w w' D M Fs S Fe G E H. destruct (go_inv _ _ _ _ _ _ _ D Fs Fe G) as (L & _ & T & _).
  apply (C105_every fuel dt s e oms wfs r dt w w' D Fs Fe G D M E H). intros k c Hk.
  pose proof (calls_after dt e D Fe M (r_calls r) true s Fs L T k c Hk). lia.
Qed.
(** a longer period is ignored until the actions have caught up with the date:
    the physics covers more time than the run *)
Theorem C105_period_refuted : forall fuel dt s e oms wfs r fr w w', pos_delta dt -> fixed_date s -> 0 <= instant s -> fixed_date e ->
  go fuel dt s e oms wfs = MOk (Some r) -> pos_delta fr -> month fr = 0 ->
  physics_initialize (new_wf fr) s = MOk w -> wf_fold w (r_calls r) = MOk w' ->
  Z.of_nat (length (r_calls r)) * instant fr <= instant s ->
  length (wflog w') = length (r_calls r) /\
  total_length (r_calls r) = instant e - instant s /\
  (month dt = 0 -> Z.of_nat (length (wflog w')) * instant fr >= total_length (r_calls r) + Z.of_nat (length (r_calls r)) * (instant fr - instant dt)).
Proof.
  intros fuel dt s e oms wfs r fr w w' D Fs S Fe G Df M E H B. destruct (go_inv _ _ _ _ _ _ _ D Fs Fe G) as (L & _ & T & _).
  assert (0 < instant fr) as P by apply Df. assert (0 < instant dt) as Pd by apply D.
  destruct (traj_contiguous dt e D Fe _ _ _ Fs L T) as (C & TL & _).
  assert (length (wflog w') = length (r_calls r)) as Ln.
  { pose proof (C105_every fuel dt s e oms wfs r fr w w' D Fs Fe G Df M E H) as A. 
    assert (forall k c, nth_error (r_calls r) k = Some c -> Z.of_nat k * instant fr <= instant (sc_after c)) as Q.
    { intros k c Hk. assert (k < length (r_calls r))%nat as K by (apply nth_error_Some; congruence).
      assert (instant s <= instant (sc_after c)) as X.
      { clear - C Hk. revert s C k Hk. induction (r_calls r) as [|c0 cs IH]; intros s C k Hk; [destruct k; discriminate|].
        destruct C as (_ & C2 & C3 & C4). destruct k as [|k]; [injection Hk as <-; lia|]. pose proof (IH _ C4 k Hk). lia. }
      nia. }
    specialize (A Q). apply (f_equal (@length Z)) in A. rewrite !map_length in A. exact A. }
  split; [exact Ln|]. split; [exact TL|]. intros Md. rewrite Ln.
  assert (total_length (r_calls r) <= Z.of_nat (length (r_calls r)) * instant dt); [|nia].
  clear - T D Fe Md Fs L. revert s Fs L T. generalize true. induction (r_calls r) as [|c cs IH]; intros b s Fs L T; [destruct T|].
  destruct T as (T1 & T2 & T3 & next & En & T). destruct (step_forward_exact s dt Fs D Md) as (n0 & En' & Fn & In'). assert (n0 = next) as -> by congruence.
  destruct T as [(A1 & A2 & A3 & A4 & ->)|(A1 & A2 & A3 & A4 & A5)]; cbn [total_length fold_right length].
  - rewrite A4. change (Z.of_nat 1) with 1. lia.
  - pose proof (IH false next Fn A1 A5) as I. fold (total_length cs). rewrite A4. lia.
Qed.
(** half a day from year 1 in steps of 5 hours: a package of period 10 hours acts
    four times, one of WorkflowProcess::Initialize once *)
Definition ex_period := mkTime 0 0 0 36000 0 CalNoLeap TypeDelta.
Example C105_case : exists r w', go 10 ex_dt ex_s ex_e [] [new_wf ex_period] = MOk (Some r) /\
  pos_delta ex_dt /\ fixed_date ex_s /\ fixed_date ex_e /\ pos_delta ex_period /\ month ex_period = 0 /\ 0 <= instant ex_s /\
  wf_fold (new_wf ex_period) (r_calls r) = MOk w' /\ Z.of_nat (length (r_calls r)) * instant ex_period <= instant ex_s /\
  length (wflog w') = 4%nat /\ map (fun w => length (wflog w)) (r_wfs r) = [1%nat].
Proof.
  eexists. eexists. split; [vm_compute; reflexivity|].
  split; [repeat split; cbn; try lia; discriminate|]. split; [repeat split; cbn; try lia; discriminate|].
  split; [repeat split; cbn; try lia; discriminate|]. split; [repeat split; cbn; try lia; discriminate|].
  split; [reflexivity|]. split; [vm_compute; discriminate|].
  split; [vm_compute; reflexivity|]. split; [vm_compute; discriminate|]. split; reflexivity.
Qed.
Print Assumptions C105_every.
Print Assumptions C105_step.
Print Assumptions C105_period_refuted.
Print Assumptions C105_case.
