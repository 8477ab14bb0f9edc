(** C07-C10: the run loop, output schedule, output files, workflow schedule. *)
From Coq Require Import ZArith Bool List Lia ZifyBool Ascii Sorted.
From Verif Require Import TimeModel TimeSpec TimeProofs TimeStrModel TimeProofs2
  RunModel RunSpec RunProofs.
Import ListNotations.
Local Open Scope Z_scope.

(** ** C07 *)

(** The run ends exactly at the end time and its steps partition it. *)
Theorem C07_partition fuel dt s e oms wfs r :
  pos_delta dt -> fixed_date s -> fixed_date e ->
  go fuel dt s e oms wfs = MOk (Some r) ->
  r_time r = e /\ contiguous s e (r_calls r) /\
  total_length (r_calls r) = instant e - instant s /\
  flags_ok (r_calls r).
Proof.
  intros D Fs Fe H. destruct (go_inv _ _ _ _ _ _ _ D Fs Fe H) as (L & E & T & _).
  destruct (traj_contiguous dt e D Fe _ _ _ Fs L T) as (A & B & C & _).
  repeat split; assumption.
Qed.

(** No step passes the date "step start + nominal step", and all steps but
    the last reach it. *)
Theorem C07_step_not_longer fuel dt s e oms wfs r :
  pos_delta dt -> fixed_date s -> fixed_date e ->
  go fuel dt s e oms wfs = MOk (Some r) ->
  Forall (fun c => exists next, add_time (sc_time c) dt = Ok next /\
     (sc_last c = false -> sc_after c = next) /\
     instant (sc_after c) <= instant next) (r_calls r).
Proof.
  intros D Fs Fe H. destruct (go_inv _ _ _ _ _ _ _ D Fs Fe H) as (L & E & T & _).
  exact (proj2 (proj2 (proj2 (proj2 (traj_contiguous dt e D Fe _ _ _ Fs L T))))).
Qed.

(** For steps without a month part: lengths in microseconds. *)
Theorem C07_step_length fuel dt s e oms wfs r :
  pos_delta dt -> month dt = 0 -> fixed_date s -> fixed_date e ->
  go fuel dt s e oms wfs = MOk (Some r) ->
  Forall (fun c => sc_dt c <= instant dt /\
                   (sc_last c = false -> sc_dt c = instant dt)) (r_calls r).
Proof.
  intros D M Fs Fe H. destruct (go_inv _ _ _ _ _ _ _ D Fs Fe H) as (L & E & T & _).
  revert Fs L T. clear H. generalize (r_calls r), true. clear E. revert s.
  intros s l. revert s. induction l as [|c cs IH]; intros s b Fs L T; [destruct T|].
  destruct T as (T1 & T2 & T3 & next & En & T).
  destruct (step_forward_exact s dt Fs D M) as (n0 & En' & Fn & In').
  assert (n0 = next) as -> by congruence.
  destruct T as [(A1 & A2 & A3 & A4 & ->)|(A1 & A2 & A3 & A4 & A5)].
  - repeat constructor; [lia|congruence].
  - constructor; [split; lia|]. eapply IH; eassumption.
Qed.

(** Start not before end: no step and no output. *)
Theorem C07_no_step fuel dt s e oms wfs :
  pos_delta dt -> fixed_date s -> fixed_date e -> instant e <= instant s ->
  go fuel dt s e oms wfs = MOk None.
Proof.
  intros D Fs Fe L. unfold go. rewrite (pos_not_zero _ D), (fixed_ge s e Fs Fe). cbn [bindT].
  assert (instant e <=? instant s = true) as -> by lia.
  destruct (fixed_str _ Fs) as (s1 & _ & E1 & _). rewrite E1.
  destruct (fixed_str _ Fe) as (s2 & _ & E2 & _). rewrite E2. reflexivity.
Qed.

(** Termination: whatever the managers do, the loop ends. *)
Theorem C07_terminates dt s e oms wfs :
  pos_delta dt -> fixed_date s -> fixed_date e ->
  exists n, forall fuel, (n <= fuel)%nat -> go fuel dt s e oms wfs <> MFuel.
Proof.
  intros D Fs Fe. exists (Z.to_nat (instant e - instant s)). intros fuel Hf.
  unfold go. rewrite (pos_not_zero _ D), (fixed_ge s e Fs Fe). cbn [bindT].
  destruct (Z.leb_spec (instant e) (instant s)) as [L|L].
  { destruct (fixed_str _ Fs) as (s1 & _ & E1 & _). rewrite E1.
    destruct (fixed_str _ Fe) as (s2 & _ & E2 & _). rewrite E2. discriminate. }
  assert (forall l, mapM (fun o => initial_output o s) l <> MFuel) as N1.
  { induction l as [|o l IH]; cbn; [discriminate|].
    destruct (initial_output o s) eqn:E; cbn; try discriminate.
    - destruct (mapM _ l); cbn; congruence.
    - exfalso. unfold initial_output, perform_output in E.
      destruct (to_string s), (from_restart o), (is_open o), (to_short_string s);
        cbn in E; try discriminate;
        try (destruct (openok o (nopen o)); cbn in E; try discriminate);
        try (destruct (_ =? _); cbn in E; try discriminate);
        destruct (add_time _ _); discriminate. }
  assert (forall l, mapM (fun o => wf_initialize o s) l <> MFuel) as N2.
  { induction l as [|o l IH]; cbn; [discriminate|].
    unfold wf_initialize at 1. destruct (add_time _ _); cbn; try discriminate.
    destruct (mapM _ l); cbn; congruence. }
  specialize (N1 oms). specialize (N2 wfs).
  destruct (mapM _ oms) as [oms1| |]; cbn; try discriminate; try congruence.
  destruct (mapM _ wfs) as [wfs1| |]; cbn; try discriminate; try congruence.
  pose proof (go_loop_fuel dt e D Fe fuel true (mkRun s [] oms1 wfs1) Fs L ltac:(cbn; lia)) as N.
  destruct (go_loop _ _ _ _ _); cbn; congruence.
Qed.

(** ... and succeeds when the managers have usable periods and their files
    can be opened. *)
Theorem C07_succeeds dt s e oms wfs :
  pos_delta dt -> fixed_date s -> fixed_date e -> instant s < instant e ->
  Forall om_ready oms -> Forall (fun w => good_delta (wfreq w)) wfs ->
  exists n, forall fuel, (n <= fuel)%nat -> exists r, go fuel dt s e oms wfs = MOk (Some r).
Proof.
  intros D Fs Fe L Ho Hw. exists (Z.to_nat (instant e - instant s)). intros fuel Hf.
  unfold go. rewrite (pos_not_zero _ D), (fixed_ge s e Fs Fe). cbn [bindT].
  assert (instant e <=? instant s = false) as -> by lia.
  destruct (mapM_ok (fun o => initial_output o s) om_ready om_live oms
              (fun o H => initial_ok o s H Fs) Ho) as (o1 & E1 & H1). rewrite E1. cbn [bindM].
  destruct (mapM_ok (fun o => wf_initialize o s) (fun w => good_delta (wfreq w)) wf_live wfs) as (w1 & E2 & H2).
  { intros w G. unfold wf_initialize. destruct (add_good s _ Fs G) as (n & En & Fn).
    rewrite En. cbn. eexists; split; [reflexivity|]. split; [exact G|exact Fn]. }
  { exact Hw. }
  rewrite E2. cbn [bindM].
  destruct (go_loop_ok dt e D Fe fuel true (mkRun s [] o1 w1) Fs L ltac:(cbn; lia) H1 H2) as (r & E).
  rewrite E. cbn. eauto.
Qed.

(** The hypothesis of a positive step is needed: with a negative step the
    check of Model.cpp (only zero is rejected) lets the run start and it never
    ends. *)
Theorem C07_negative_step_never_ends dt s e :
  valid_date dt -> cal dt = CalNoLeap -> typ dt = TypeDelta -> month dt = 0 ->
  instant dt < 0 -> fixed_date s -> fixed_date e -> instant s < instant e ->
  forall fuel, go fuel dt s e [] [] = MFuel.
Proof.
  intros V C T M N Fs Fe L fuel. unfold go.
  assert (is_zero dt = false) as ->.
  { unfold is_zero.
    destruct (Z.eqb_spec (year dt) 0) as [E1|], (Z.eqb_spec (month dt) 0) as [E2|],
      (Z.eqb_spec (day dt) 0) as [E3|], (Z.eqb_spec (sec dt) 0) as [E4|],
      (Z.eqb_spec (usec dt) 0) as [E5|]; try reflexivity.
    unfold instant in N. rewrite C, E1, E2, E3, E4, E5 in N. vm_compute in N. discriminate. }
  rewrite (fixed_ge s e Fs Fe). cbn [bindT].
  assert (instant e <=? instant s = false) as -> by lia. cbn [mapM bindM].
  enough (forall fuel first r, fixed_date (r_time r) -> instant (r_time r) < instant e ->
            r_oms r = [] -> r_wfs r = [] -> go_loop fuel dt e first r = MFuel) as G.
  { rewrite G; auto. }
  clear fuel s Fs L. induction fuel as [|f IH]; intros first r Fr L Eo Ew; [reflexivity|].
  cbn [go_loop]. destruct (add_good (r_time r) dt Fr (conj V (conj C T))) as (n & En & Fn).
  assert (instant n = instant (r_time r) + instant dt) as In'.
  { destruct Fr as (Vr & Cr & Tr). eapply instant_add_nomonth; eassumption. }
  rewrite En. cbn [bindT]. rewrite (fixed_ge n e Fn Fe). cbn [bindT].
  assert (instant e <=? instant n = false) as -> by lia.
  rewrite (fixed_sub n (r_time r) Fn Fr). cbn [bindT].
  destruct (fixed_str _ Fr) as (s1 & _ & E1 & _). rewrite E1. cbn [bindT].
  rewrite Eo, Ew. cbn [mapM bindM]. apply IH; cbn; auto. lia.
Qed.

(** On the standard calendar no run succeeds: Go subtracts times, which that
    calendar does not support (C04_standard_throws). *)
Lemma sub_months_cal : forall fuel feb t x, sub_months fuel feb t = Ok x -> cal (snd x) = cal t.
Proof.
  induction fuel as [|f IH]; intros feb t x H; cbn [sub_months] in H;
    destruct (day t <? 0); try discriminate; try (injection H as <-; reflexivity).
  destruct (month_len _ _); [|discriminate]. apply IH in H. exact H.
Qed.
Lemma add_months_cal : forall fuel feb t x, add_months fuel feb t = Ok x -> cal (snd x) = cal t.
Proof.
  induction fuel as [|f IH]; intros feb t x H; cbn [add_months] in H;
    destruct (month_len _ _); try discriminate;
    destruct (_ <=? day t); try discriminate; try (injection H as <-; reflexivity).
  apply IH in H. exact H.
Qed.
Lemma normalize_cal t t' : normalize t = Ok t' -> cal t' = cal t.
Proof.
  intros H. unfold normalize in H. destruct (cal t) eqn:Ec; [discriminate| |];
    destruct (_ || _); try discriminate;
    (destruct (sub_months _ _ _) as [[f2 t2]| | |] eqn:E1; try discriminate);
    (destruct (add_months _ _ _) as [[f3 t3]| | |] eqn:E2; try discriminate);
    apply sub_months_cal in E1; apply add_months_cal in E2; cbn in E1, E2;
    unfold final_check in H; destruct (_ || _); try discriminate;
    (destruct (month_len _ _); [|discriminate]);
    repeat (destruct (_ || _); try discriminate); injection H as <-; congruence.
Qed.
Theorem C07_standard_calendar_throws fuel dt s e oms wfs r :
  cal s = CalStandard -> go fuel dt s e oms wfs <> MOk (Some r).
Proof.
  intros C H. unfold go in H. destruct (is_zero dt); [discriminate|].
  destruct (time_ge s e) as [[]| | |] eqn:Eg; cbn in H; try discriminate.
  { destruct (to_string s), (to_string e); discriminate. }
  destruct (mapM _ oms); cbn in H; try discriminate.
  destruct (mapM _ wfs); cbn in H; try discriminate.
  assert (cal e = CalStandard) as Ce.
  { unfold time_ge in Eg. destruct (time_lt s e) eqn:El; try discriminate.
    unfold time_lt in El. destruct (typ_eqb _ _); [|discriminate]. cbn [negb] in El.
    destruct (cal_eqb_spec (cal s) (cal e)); [congruence|discriminate]. }
  destruct fuel as [|f]; [discriminate|]. cbn [go_loop r_time] in H.
  destruct (add_time s dt) as [n| | |] eqn:En; cbn [bindT bindM] in H; try discriminate.
  assert (cal n = CalStandard) as Cn.
  { unfold add_time in En. destruct (typ dt); [discriminate|].
    apply normalize_cal in En. cbn in En. congruence. }
  destruct (time_ge n e) as [b| | |]; cbn [bindT bindM] in H; try discriminate.
  unfold time_sub in H. rewrite Ce, Cn in H. destruct b; discriminate.
Qed.

(** ** C08 *)

(** Structure of what one manager writes in one run; any period, also with
    month fields or zero ("no periodic output").  The only excluded case is an
    end time equal to 0000-01-01, see C08_final_output_refuted. *)
Theorem C08_schedule fuel dt s e oms wfs r i fr restart n ok o' :
  pos_delta dt -> fixed_date s -> fixed_date e -> e <> default_time CalNoLeap TypeFixed ->
  go fuel dt s e oms wfs = MOk (Some r) ->
  nth_error oms i = Some (new_outman fr restart n ok) -> 1 <= n -> good_delta fr ->
  nth_error (r_oms r) i = Some o' ->
  exists mids, written o' = (if restart then [] else [s]) ++ mids ++ [e] /\
    increasing (written o') /\
    (forall t, In t mids -> In t (map sc_after (r_calls r)) /\ instant s < instant t < instant e) /\
    (is_zero fr = true -> mids = []) /\
    file_layout n (omlog o') (written o').
Proof.
  intros D Fs Fe Ne H Hi Hn G Hi'.
  destruct (go_inv _ _ _ _ _ _ _ D Fs Fe H) as (L & E & T & Fo & _).
  assert (exists o1, initial_output (new_outman fr restart n ok) s = MOk o1
                     /\ om_fold o1 (r_calls r) = MOk o') as (o1 & E1 & E2).
  { clear -Fo Hi Hi'. revert i Hi Hi'.
    induction Fo as [|a b l l' R F IH]; intros i Hi Hi'; destruct i; cbn in *; try discriminate.
    - injection Hi as ->. injection Hi' as ->. exact R.
    - eapply IH; eassumption. }
  destruct (initial_inv _ _ _ _ _ _ Hn Fs G E1) as (I & A1 & A2 & A3 & A4 & A5).
  destruct (om_fold_any dt e D Fe _ _ _ _ _ _ Fs L T ltac:(rewrite A1; exact G) A3 I
              ltac:(rewrite A5; congruence) E2) as (mids & J1 & J2 & J3 & J4 & J5).
  exists mids. rewrite (om_inv_written _ _ J1). rewrite A1 in J5.
  destruct (increasing_app mids s e s e J4 (fun t Ht => proj2 (J3 t Ht)) eq_refl eq_refl L) as (K1 & K2).
  split; [reflexivity|]. split; [destruct restart; assumption|].
  split; [exact J3|]. split; [exact J5|].
  destruct J1 as (files & tail & B1 & B2 & B3 & B4 & _). rewrite J2, A2 in *.
  exists files, tail. auto.
Qed.

(** Periodic outputs of a month-free period: the k-th (from 0) is not before
    start + (k+1) periods; when the step divides the period they are exactly
    the multiples of the period before the end. *)
Theorem C08_periodic fuel dt s e oms wfs r i fr restart n ok o' :
  pos_delta dt -> fixed_date s -> fixed_date e -> e <> default_time CalNoLeap TypeFixed ->
  go fuel dt s e oms wfs = MOk (Some r) ->
  nth_error oms i = Some (new_outman fr restart n ok) -> 1 <= n ->
  pos_delta fr -> month fr = 0 ->
  nth_error (r_oms r) i = Some o' ->
  exists mids, written o' = (if restart then [] else [s]) ++ mids ++ [e] /\
    (forall k t, nth_error mids k = Some t ->
        instant s + (Z.of_nat k + 1) * instant fr <= instant t) /\
    (month dt = 0 -> (instant dt | instant fr) ->
     forall t, fixed_date t ->
       (In t mids <-> (exists q, 1 <= q /\ instant t = instant s + q * instant fr)
                      /\ instant t < instant e)).
Proof.
  intros D Fs Fe Ne H Hi Hn Df M Hi'.
  destruct (go_inv _ _ _ _ _ _ _ D Fs Fe H) as (L & E & T & Fo & _).
  assert (exists o1, initial_output (new_outman fr restart n ok) s = MOk o1
                     /\ om_fold o1 (r_calls r) = MOk o') as (o1 & E1 & E2).
  { clear -Fo Hi Hi'. revert i Hi Hi'.
    induction Fo as [|a b l l' R F IH]; intros i Hi Hi'; destruct i; cbn in *; try discriminate.
    - injection Hi as ->. injection Hi' as ->. exact R.
    - eapply IH; eassumption. }
  assert (good_delta fr) as G by (destruct Df as (? & ? & ? & _); repeat split; try apply H0; assumption).
  destruct (initial_inv _ _ _ _ _ _ Hn Fs G E1) as (I & A1 & A2 & A3 & A4 & A5).
  destruct (step_forward_exact s fr Fs Df M) as (nx & En & Fn & In').
  assert (nx = next_out o1) as -> by congruence.
  destruct (om_fold_mids dt e D Fe _ _ _ _ _ _ (instant fr) (instant s) 0 Fs L T
              ltac:(rewrite A1; exact Df) ltac:(rewrite A1; exact M) ltac:(rewrite A1; reflexivity)
              ltac:(split; [exact A3|rewrite In'; ring]) I
              ltac:(rewrite A5; congruence) E2) as (mids & J1 & J2 & J3 & J4 & J5).
  exists mids. split; [exact (om_inv_written _ _ J1)|].
  assert (0 < instant fr) as Pf by apply Df. assert (0 < instant dt) as Pd by apply D.
  split.
  - intros k t Hk. apply (map_nth_error instant) in Hk. rewrite J5 in Hk.
    apply fired_lower in Hk; [|lia].
    replace (instant s + (Z.of_nat k + 1) * instant fr)
      with (instant s + (0 + 1) * instant fr + Z.of_nat k * instant fr) by ring. exact Hk.
  - intros Md (k & Ek) t Ft.
    destruct (traj_contiguous dt e D Fe _ _ _ Fs L T) as (_ & _ & _ & Ff & _).
    assert (Forall fixed_date mids) as Fm.
    { apply Forall_forall. intros x Hx. apply J3 in Hx as [Hx _].
      apply in_map_iff in Hx as (c & <- & Hc). rewrite Forall_forall in Ff. apply Ff. exact Hc. }
    rewrite (in_instants t mids Ft Fm), J5.
    rewrite (traj_arith dt e D Fe Md (r_calls r) true s (instant s) 0 Fs L T ltac:(ring)).
    assert (1 <= k) as Hk by nia. rewrite Ek.
    rewrite (fired_multiples (instant s) (instant dt) k Pd Hk _ 0 0 ltac:(lia) ltac:(lia) ltac:(lia)).
    rewrite <- (traj_arith dt e D Fe Md (r_calls r) true s (instant s) 0 Fs L T ltac:(ring)).
    rewrite (traj_complete dt e D Fe Md (r_calls r) true s Fs L T).
    split.
    + intros (((j & Hj & Ej) & Lt) & (q & Eq)). split; [|exact Lt]. exists q. split; [|exact Eq].
      assert (0 < q * (k * instant dt)) by nia. nia.
    + intros ((q & Hq & Eq) & Lt). split; [split; [|exact Lt]|exists q; exact Eq].
      exists (q * k). split; [nia|]. rewrite Eq. ring.
Qed.

(** The final output is skipped when the end time is 0000-01-01 (the initial
    value of the "last output time"): a run of one day before year 0. *)
Theorem C08_final_output_refuted :
  exists dt s e r o', pos_delta dt /\ fixed_date s /\ fixed_date e /\ instant s < instant e /\
    go 10 dt s e [new_outman dt false 1 (fun _ => true)] [] = MOk (Some r) /\
    r_oms r = [o'] /\ written o' = [s].
Proof.
  exists (mkTime 0 0 1 0 0 CalNoLeap TypeDelta), (mkTime (-1) 11 30 0 0 CalNoLeap TypeFixed),
    (mkTime 0 0 0 0 0 CalNoLeap TypeFixed).
  eexists. eexists.
  split; [repeat split; cbn; try lia; discriminate|].
  split; [repeat split; cbn; try lia; discriminate|].
  split; [repeat split; cbn; try lia; discriminate|].
  split; [vm_compute; reflexivity|].
  split; [vm_compute; reflexivity|]. split; reflexivity.
Qed.

(** ** C09 *)
Theorem C09_file_layout fr restart n ok ts om :
  1 <= n -> perform_all (new_outman fr restart n ok) ts = MOk om ->
  file_layout n (omlog om) ts.
Proof. exact (perform_all_layout fr restart n ok ts om). Qed.

(** ** C10 *)
Theorem C10_workflow fuel dt s e oms wfs r i fr w' :
  pos_delta dt -> fixed_date s -> fixed_date e ->
  go fuel dt s e oms wfs = MOk (Some r) ->
  nth_error wfs i = Some (new_wf fr) -> pos_delta fr -> month fr = 0 ->
  nth_error (r_wfs r) i = Some w' ->
  increasing (wflog w') /\
  (forall t, In t (wflog w') -> In t (map sc_after (r_calls r))) /\
  (forall k t, nth_error (wflog w') k = Some t ->
     instant s + (Z.of_nat k + 1) * instant fr <= instant t) /\
  instant (wnext w') = instant s + (Z.of_nat (length (wflog w')) + 1) * instant fr.
Proof.
  intros D Fs Fe H Hi Df M Hi'.
  destruct (go_inv _ _ _ _ _ _ _ D Fs Fe H) as (L & E & T & _ & Fw).
  assert (exists w1, wf_initialize (new_wf fr) s = MOk w1 /\ wf_fold w1 (r_calls r) = MOk w')
    as (w1 & E1 & E2).
  { clear -Fw Hi Hi'. revert i Hi Hi'.
    induction Fw as [|a b l l' R F IH]; intros i Hi Hi'; destruct i; cbn in *; try discriminate.
    - injection Hi as ->. injection Hi' as ->. exact R.
    - eapply IH; eassumption. }
  destruct (step_forward_exact s fr Fs Df M) as (nx & En & Fn & In').
  unfold wf_initialize in E1. cbn [wfreq new_wf wflog] in E1. rewrite En in E1. cbn in E1.
  injection E1 as <-.
  destruct (wf_fold_spec dt e D Fe (r_calls r) true s (mkWF fr nx []) w' (instant fr) (instant s) 0 Fs L T
     Df M eq_refl Fn ltac:(cbn [wnext]; rewrite In'; ring) E2) as (ps & J1 & J2 & J3 & J4 & J5).
  cbn [wflog app] in J1. rewrite J1.
  split; [exact J3|]. split; [intros t Ht; apply J2; exact Ht|]. split.
  - intros k t Hk. apply (map_nth_error instant) in Hk. rewrite J4 in Hk.
    apply fired_lower in Hk; [|destruct Df as (_ & _ & _ & P); lia].
    replace (instant s + (Z.of_nat k + 1) * instant fr)
      with (instant s + (0 + 1) * instant fr + Z.of_nat k * instant fr) by ring. exact Hk.
  - rewrite J5. rewrite Z.add_0_l. reflexivity.
Qed.

(** ** Non-vacuity: half a day in steps of 5 hours, output every 2 hours from
    a manager with 2 records per file, workflow every 10 hours. *)
Definition ex_dt := mkTime 0 0 0 18000 0 CalNoLeap TypeDelta.
Definition ex_s := mkTime 1 0 0 0 0 CalNoLeap TypeFixed.
Definition ex_e := mkTime 1 0 0 64800 0 CalNoLeap TypeFixed.
Definition ex_fr := mkTime 0 0 0 7200 0 CalNoLeap TypeDelta.
Definition ex_wf := mkTime 0 0 0 36000 0 CalNoLeap TypeDelta.
Definition ex_om := new_outman ex_fr false 2 (fun _ => true).

Example ex_hyps : pos_delta ex_dt /\ fixed_date ex_s /\ fixed_date ex_e /\ pos_delta ex_fr /\
  pos_delta ex_wf /\ instant ex_s < instant ex_e /\ ex_e <> default_time CalNoLeap TypeFixed /\
  om_ready ex_om.
Proof.
  split; [repeat split; cbn; try lia; discriminate|].
  split; [repeat split; cbn; try lia; discriminate|].
  split; [repeat split; cbn; try lia; discriminate|].
  split; [repeat split; cbn; try lia; discriminate|].
  split; [repeat split; cbn; try lia; discriminate|].
  split; [vm_compute; reflexivity|]. split; [discriminate|].
  split; [repeat split; cbn; try lia; discriminate|reflexivity].
Qed.
Example ex_run :
  match go 20 ex_dt ex_s ex_e [ex_om] [new_wf ex_wf] with
  | MOk (Some r) =>
      map sc_dt (r_calls r) = [18000000000; 18000000000; 18000000000; 10800000000] /\
      map (fun o => map sec (written o)) (r_oms r) = [[0; 18000; 36000; 54000; 64800]] /\
      map (fun w => map sec (wflog w)) (r_wfs r) = [[36000]]
  | _ => False
  end.
Proof. vm_compute. auto. Qed.
Example ex_files : exists om,
  perform_all ex_om [ex_s; ex_e; ex_s] = MOk om /\
  omlog om = [EvOpen ex_s; EvOutput ex_s 0 0; EvOutput ex_e 0 1; EvClose;
              EvOpen ex_s; EvOutput ex_s 1 0].
Proof. eexists. split; reflexivity. Qed.
Example ex_negative : let d := mkTime (-1) 0 0 0 0 CalNoLeap TypeDelta in
  valid_date d /\ instant d < 0.
Proof. repeat split; cbn; try lia; discriminate. Qed.

Print Assumptions C07_partition.
Print Assumptions C07_step_not_longer.
Print Assumptions C07_step_length.
Print Assumptions C07_no_step.
Print Assumptions C07_terminates.
Print Assumptions C07_succeeds.
Print Assumptions C07_negative_step_never_ends.
Print Assumptions C07_standard_calendar_throws.
Print Assumptions C08_schedule.
Print Assumptions C08_periodic.
Print Assumptions C08_final_output_refuted.
Print Assumptions C09_file_layout.
Print Assumptions C10_workflow.
