(** Whole steps, accuracy, and the programs that miss their specification *)
From Coq Require Import ZArith List Bool Reals Lra Lia FunctionalExtensionality.
From Verif Require Import StepModel StepSpec StepProofs StepErk StepImex StepFlow.
Import ListNotations.
Local Open Scope Z_scope.

Lemma wsum_dot c : forall i m, wsum (Z.of_nat i) c m = dot c (map (fun j => m (Z.of_nat j)) (seq i (length c))).
Proof.
  induction c as [|a c IH]; intros i m; [reflexivity|]. cbn [wsum dot length seq map].
  replace (Z.of_nat i + 1) with (Z.of_nat (S i)) by lia. rewrite IH. reflexivity.
Qed.

(** unread sources *)
Section Unread.
Context {T : Type} (zero : T) (add mul : T -> T -> T) (is0 : T -> bool).
Lemma add_terms_unread c : forall i t (m m' : Z -> T), m t = m' t ->
  (forall j x, nth_error c j = Some x -> i + Z.of_nat j <> t -> is0 x = false -> m (i + Z.of_nat j) = m' (i + Z.of_nat j)) ->
  add_terms add mul is0 i c t m t = add_terms add mul is0 i c t m' t.
Proof.
  induction c as [|x c IH]; intros i t m m' E H; [exact E|]. cbn [add_terms].
  assert (forall j y, nth_error c j = Some y -> i + 1 + Z.of_nat j <> t -> is0 y = false ->
    m (i + 1 + Z.of_nat j) = m' (i + 1 + Z.of_nat j)) as H'.
  { intros j y Hj Ht Hy. replace (i + 1 + Z.of_nat j) with (i + Z.of_nat (S j)) in * by lia. exact (H (S j) y Hj Ht Hy). }
  destruct (Z.eqb_spec i t) as [Ei|Ei]; cbn [orb]; [apply IH; assumption|].
  destruct (is0 x) eqn:E0; [apply IH; assumption|].
  assert (m i = m' i) as Ei'. { specialize (H 0%nat x eq_refl). rewrite Z.add_0_r in H. exact (H Ei E0). }
  apply IH.
  - unfold tset. rewrite Z.eqb_refl, E, Ei'. reflexivity.
  - intros j y Hj Ht Hy. unfold tset. destruct (Z.eqb_spec (i + 1 + Z.of_nat j) t); [contradiction|]. exact (H' j y Hj Ht Hy).
Qed.
Lemma combine_unread n c t (m m' : Z -> T) r r' :
  linear_combine zero add mul is0 n c t m = Some r -> linear_combine zero add mul is0 n c t m' = Some r' ->
  (forall j x, nth_error c j = Some x -> is0 x = false -> m (Z.of_nat j) = m' (Z.of_nat j)) ->
  r t = r' t.
Proof.
  unfold linear_combine. destruct ((t <? 0) || (Z.of_nat (length c) <=? t)) eqn:E; [discriminate|].
  destruct (n <=? t); [discriminate|]. destruct (n <? _); [discriminate|]. intros [= <-] [= <-] H.
  apply orb_false_iff in E. destruct E as (E1 & E2).
  apply add_terms_unread.
  - unfold premultiply, tset. rewrite Z.eqb_refl. destruct (is0 (nth (Z.to_nat t) c zero)) eqn:E0; [reflexivity|].
    specialize (H (Z.to_nat t) (nth (Z.to_nat t) c zero)). rewrite Z2Nat.id in H by lia. rewrite H; [reflexivity| |exact E0].
    apply nth_error_nth'. lia.
  - intros j x Hj Ht Hx. cbn [Z.add] in *. unfold premultiply, tset.
    destruct (Z.eqb_spec (Z.of_nat j) t); [contradiction|]. exact (H j x Hj Hx).
Qed.
End Unread.

Section Steps.
Context {X : Type} (kd : X -> kind).
Notation vec := (X -> R).
Context (FH FV G : vec -> vec) (J : R -> vec -> vec) (P : vec -> vec) (vi : @visc X).
Notation run := (run kd FH FV G J P vi).

Lemma erk_step_run e dt m : projection kd P -> P (m 0) = m 0 ->
  exists m', run 5 (erk_step e dt) m = Some m' /\ m' 0 = after_val vi dt (erk_spec e (FP FH FV P false) dt (m 0)).
Proof.
  intros HP Fu. unfold erk_step.
  destruct (erk_prog_run kd FH FV G J P vi false e dt (copy2 4 0 ++ [After 4 0 2 dt]) m HP Fu) as (m1 & R1 & E1 & P1).
  rewrite R1. go_copy. go_after. eexists. split; [reflexivity|]. rewrite Ef. f_equal. exact E1.
Qed.

Lemma run_impl0 n t dt m p : (0 <= dt)%R -> solver kd G J P -> ok n t = true ->
  run n (Impl t t dt :: p) m = run n p (mset m t (J dt (m t))).
Proof.
  intros Hd HJ H. cbn [StepModel.run StepModel.exec]. rewrite H. cbn [andb]. f_equal. f_equal. extensionality x. destruct (kd x) eqn:K.
  - rewrite (j_eq _ _ _ _ HJ _ _ _ Hd), (g_wind _ _ _ _ HJ _ _ K). ring.
  - reflexivity.
  - ring.
Qed.

Lemma strang_run e oc first last dt m : (0 <= dt)%R -> (-1 <= oc)%R -> projection kd P -> solver kd G J P ->
  P (m 0%Z) = m 0%Z -> (first = false -> P (m 1%Z) = m 1%Z) ->
  exists m', run 5 (strang_step e oc first last dt) m = Some m' /\
    let v := if first then J (dt / 2) (m 0%Z) else (fun x => m 0%Z x + m 1%Z x)%R in
    let w := after_val vi dt (erk_spec e (FP FH FV P true) dt v) in
    let y := J (1 / 2 * (1 + oc) * dt)%R w in
    (forall x, m' 0%Z x = (2 - oc) / 2 * y x + oc / 2 * w x)%R /\
    (last = false -> forall x, m' 1%Z x = m' 0%Z x - w x)%R.
Proof.
  intros Hdt Hoc HP HJ F0 F1. unfold strang_step.
  assert (exists v m1, v = (if first then J (dt / 2) (m 0%Z) else (fun x => m 0%Z x + m 1%Z x)%R) /\ m1 0%Z = v /\ P v = v /\
    forall p, run 5 ((if first then [Impl 0 0 (0.5 * dt)] else combine2 [S_ 1; S_ 1] 0) ++ p) m = run 5 p m1) as (v & m1 & Ev & E1 & Pv & R1).
  { destruct first.
    - exists (J (dt / 2) (m 0%Z)), (mset m 0%Z (J (dt / 2) (m 0%Z))). split; [reflexivity|]. split; [reflexivity|].
      split; [apply (j_fix _ _ _ _ HJ); [lra|exact F0]|]. intros p. cbn [app]. rewrite run_impl0 by (assumption || reflexivity || lra).
      rewrite d05. replace (1 / 2 * dt)%R with (dt / 2)%R by field. reflexivity.
    - exists (fun x => m 0%Z x + m 1%Z x)%R, (mset m 0%Z (fun x => m 0%Z x + m 1%Z x)%R). split; [reflexivity|]. split; [reflexivity|]. split.
      + extensionality x. transitivity (P (fun y => m 0%Z y + 1 * m 1%Z y)%R x).
        { f_equal. extensionality y. ring. }
        rewrite (p_lin _ _ HP), F0, (F1 eq_refl). ring.
      + intros p. rewrite run_combine2 by reflexivity. do 2 f_equal. extensionality x. unfold lc. rdg. ring. }
  rewrite R1.
  destruct (erk_prog_run kd FH FV G J P vi true e dt (copy2 4 1 ++ [After 4 1 2 dt] ++
    copy2 1 0 ++ [Impl 0 0 (0.5 * (1 + oc) * dt)] ++ combine2 [S_ ((2 - oc) / 2); S_ (oc / 2)] 0 ++
    (if last then [] else combine2 [S_ 1; S_ (-1)] 1)) m1 HP ltac:(rewrite E1; exact Pv)) as (m2 & R2 & E2 & P2).
  rewrite R2. clear R2. rewrite E1 in E2. go_copy. cbn [app]. go_after. go_copy. cbn [app]. rewrite run_impl0 by (assumption || reflexivity || (apply Rmult_le_pos; lra)).
  match goal with H : ?a 1 = after_val vi dt _ |- _ => rename a into m3 end.
  rewrite run_combine2 by reflexivity.
  set (w := after_val vi dt (erk_spec e (FP FH FV P true) dt v)).
  assert (m3 1%Z = w) as E3. { rewrite Ef. unfold w. f_equal. exact E2. }
  set (y := J (1 / 2 * (1 + oc) * dt)%R w).
  assert (forall x, lc [S_ ((2 - oc) / 2); S_ (oc / 2)]
    (mset (mset m3 0%Z (m3 1%Z)) 0 (J (0.5 * (1 + oc) * dt) (mset m3 0%Z (m3 1%Z) 0))) x = ((2 - oc) / 2 * y x + oc / 2 * w x)%R) as E4.
  { intros x. unfold lc. rdg. rewrite E3, d05. fold y. ring. }
  destruct last.
  - eexists. split; [reflexivity|]. rewrite <- Ev. split; [|discriminate]. intros x. cbn [mset Z.eqb Pos.eqb]. apply E4.
  - rewrite <- (app_nil_r (combine2 _ 1)). rewrite run_combine2 by reflexivity. eexists. split; [reflexivity|].
    rewrite <- Ev. fold w. fold y. split.
    + intros x. cbn [mset Z.eqb Pos.eqb]. apply E4.
    + intros _ x. cbn [mset Z.eqb Pos.eqb]. rewrite <- E3. unfold lc. rdg. ring.
Qed.

(** the split-explicit scheme *)
Definition FVP (y : vec) : vec := P (FV y).
Lemma run_explV s t dt p m : projection kd P -> ok 6 s && ok 6 t && negb (s =? t) = true -> P (m t) = m t ->
  exists y, (forall x, y x = (m t x + dt * FVP (m s) x)%R) /\ P y = y /\
    run 6 (explV s t dt ++ p) m = run 6 p (mset m t y).
Proof.
  intros HP H E. exists (fun x => (m t x + dt * FVP (m s) x)%R). split; [reflexivity|].
  assert (P (fun x => (m t x + dt * FVP (m s) x)%R) = (fun x => (m t x + dt * FVP (m s) x)%R)) as E2.
  { extensionality x. rewrite (p_lin _ _ HP). rewrite E. unfold FVP. rewrite (p_idem _ _ HP). reflexivity. }
  split; [exact E2|].
  assert (ok 6 t = true) as Ot by (destruct (ok 6 t); [reflexivity|rewrite andb_false_r in H; discriminate]).
  unfold explV. cbn [app StepModel.run StepModel.exec]. rewrite H. rewrite run_post2 by assumption. rewrite mset_twice, mset_same.
  do 2 f_equal. rewrite <- E2. extensionality x. unfold FVP. rewrite !(p_lin _ _ HP), (p_idem _ _ HP). reflexivity.
Qed.
Lemma small_step_run h p m : projection kd P -> P (m 0) = m 0 ->
  exists m', run 6 (small_step h ++ p) m = run 6 p m' /\ m' 4 = rk ssp3_A ssp3_b FVP h (m 0) /\ P (m' 4) = m' 4.
Proof.
  intros HP Fu. unfold small_step. rewrite <- ?app_assoc. go_copy.
  match goal with |- context [explV 0 1 ?d ++ ?q] =>
    destruct (run_explV 0 1 d q (mset m 1 (m 0)) HP eq_refl ltac:(rdg; assumption)) as (y1 & E1 & P1 & R1) end.
  rewrite R1. clear R1. rd E1. go_combine HP y2 E2 P2.
  match goal with |- context [StepModel.run _ _ _ _ _ _ _ _ (explV 1 2 ?d ++ ?q) ?mm] =>
    destruct (run_explV 1 2 d q mm HP eq_refl ltac:(rdg; assumption)) as (y3 & E3 & P3 & R3) end.
  rewrite R3. clear R3. rd E3. rewrite d025 in E3. go_combine HP y4 E4 P4.
  match goal with |- context [StepModel.run _ _ _ _ _ _ _ _ (explV 2 4 ?d ++ ?q) ?mm] =>
    destruct (run_explV 2 4 d q mm HP eq_refl ltac:(rdg; assumption)) as (y5 & E5 & P5 & R5) end.
  rewrite R5. clear R5. rd E5. eexists. split; [reflexivity|]. rdg. split; [|exact P5]. vs. extensionality x.
  replace (fun x0 : X => (m 0%Z x0 + h * 0)%R) with (m 0%Z) by (extensionality z; ring).
  assert (y1 = fun z => (m 0%Z z + h * (1 * FVP (m 0%Z) z + 0))%R) as Y1 by (extensionality z; rewrite E1; field).
  rewrite <- Y1.
  assert (y3 = fun z => (m 0%Z z + h * (1 / 4 * FVP (m 0%Z) z + (1 / 4 * FVP y1 z + 0)))%R) as Y3
    by (extensionality z; rewrite E3, E2, E1; field).
  rewrite <- Y3. rewrite E5, E4, E3, E2, E1. field.
Qed.
Lemma small_steps_run k dt h : forall m, projection kd P -> P (m 0) = m 0 ->
  exists m', run 6 (small_steps (S k) dt h) m = Some m' /\
    m' 0 = after_val vi dt (Nat.iter (S k) (rk ssp3_A ssp3_b FVP h) (m 0)).
Proof.
  induction k as [|k IH]; intros m HP Fu.
  - cbn [small_steps]. destruct (small_step_run h (copy2 4 1 ++ [After 4 1 2 dt] ++ copy2 1 0) m HP Fu) as (m1 & R1 & E1 & P1).
    rewrite R1. go_copy. cbn [app]. go_after. rewrite <- (app_nil_r (copy2 1 0)). go_copy. eexists. split; [reflexivity|].
    rdg. rewrite Ef. f_equal. exact E1.
  - change (small_steps (S (S k)) dt h) with (small_step h ++ copy2 4 0 ++ small_steps (S k) dt h).
    destruct (small_step_run h (copy2 4 0 ++ small_steps (S k) dt h) m HP Fu) as (m1 & R1 & E1 & P1).
    rewrite R1. go_copy. destruct (IH (mset m1 0 (m1 4)) HP ltac:(rdg; exact P1)) as (m2 & R2 & E2).
    rewrite R2. exists m2. split; [reflexivity|]. rewrite E2. f_equal. rdg. rewrite E1.
    generalize (m 0%Z) as v. intros v. change (Nat.iter (S (S k)) ?f v) with (f (Nat.iter (S k) f v)).
    generalize (rk ssp3_A ssp3_b FVP h) as f. intros f. clear. induction k as [|k IH]; [reflexivity|].
    change (Nat.iter (S (S k)) f ?z) with (f (Nat.iter (S k) f z)). rewrite IH. reflexivity.
Qed.
Lemma kguH_run dt p m : projection kd P -> P (m 0) = m 0 ->
  exists m', run 6 (kguH dt ++ p) m = run 6 p m' /\ m' 0 = rk kgu_A kgu_b (FP FH FV P false) dt (m 0) /\ P (m' 0) = m' 0.
Proof.
  intros HP Fu. unfold kguH. rewrite <- ?app_assoc.
  go_copy. go_expl HP y1 E1 P1. go_copy. go_expl HP y2 E2 P2. go_copy. go_expl HP y3 E3 P3. go_copy. go_expl HP y4 E4 P4.
  go_combine HP y5 E5 P5. go_expl HP y6 E6 P6. go_copy. eexists. split; [reflexivity|]. rdg. split; [|exact P6]. vs. extensionality x.
  replace (fun x0 : X => (m 0%Z x0 + dt * 0)%R) with (m 0%Z) by (extensionality z; ring).
  assert (y1 = fun z => (m 0%Z z + dt * (1 / 5 * FP FH FV P false (m 0%Z) z + 0))%R) as Y1 by (extensionality z; rewrite E1; field).
  rewrite <- Y1.
  assert (y2 = fun z => (m 0%Z z + dt * (0 * FP FH FV P false (m 0%Z) z + (1 / 5 * FP FH FV P false y1 z + 0)))%R) as Y2 by (extensionality z; rewrite E2; field).
  rewrite <- Y2.
  assert (y3 = fun z => (m 0%Z z + dt * (0 * FP FH FV P false (m 0%Z) z + (0 * FP FH FV P false y1 z + (1 / 3 * FP FH FV P false y2 z + 0))))%R) as Y3 by (extensionality z; rewrite E3; field).
  rewrite <- Y3.
  assert (y4 = fun z => (m 0%Z z + dt * (0 * FP FH FV P false (m 0%Z) z + (0 * FP FH FV P false y1 z + (0 * FP FH FV P false y2 z + (2 / 3 * FP FH FV P false y3 z + 0)))))%R) as Y4 by (extensionality z; rewrite E4; field).
  rewrite <- Y4. rewrite E6, E5, E1. field.
Qed.
Lemma splitexp_run ns dt m : projection kd P -> P (m 0) = m 0 ->
  exists m', run 6 (splitexp_step ns dt) m = Some m' /\
    let v := rk kgu_A kgu_b (FP FH FV P false) dt (m 0) in
    m' 0 = match ns with O => v | S _ => after_val vi dt (Nat.iter ns (rk ssp3_A ssp3_b FVP (dt / INR ns)) v) end.
Proof.
  intros HP Fu. unfold splitexp_step.
  destruct (kguH_run dt (small_steps ns dt (dt / INR ns)) m HP Fu) as (m1 & R1 & E1 & P1). rewrite R1.
  destruct ns as [|k].
  - exists m1. split; [reflexivity|exact E1].
  - destruct (small_steps_run k dt (dt / INR (S k)) m1 HP P1) as (m2 & R2 & E2). exists m2. split; [exact R2|].
    cbv zeta. rewrite <- E1. exact E2.
Qed.
End Steps.
