From Coq Require Import ZArith List Bool Reals Lra Lia FunctionalExtensionality.
From Verif Require Import StepModel StepSpec StepProofs.
Import ListNotations.
Local Open Scope Z_scope.

Lemma d05 : 0.5%R = (1 / 2)%R.
Proof. lra. Qed.
Lemma d025 : 0.25%R = (1 / 4)%R.
Proof. lra. Qed.

(** Symbolic execution *)
Ltac rd H := cbn [mset Z.eqb Pos.eqb wsum map cval Z.add Pos.add Pos.succ S_] in H.
Ltac rdg := cbn [mset Z.eqb Pos.eqb wsum map cval Z.add Pos.add Pos.succ S_ fixes].
Ltac go_copy := rewrite run_copy2 by reflexivity.
Tactic Notation "go_expl" constr(HP) ident(y) ident(Ey) ident(Py) :=
  match goal with |- context [StepModel.run ?kd ?FH ?FV ?G ?J ?P ?vi ?n (expl ?v ?s ?t ?dt ++ ?p) ?m] =>
    let R := fresh "R" in
    destruct (run_expl kd FH FV G J P vi n v s t dt p m HP eq_refl ltac:(rdg; first [assumption|reflexivity])) as (y & Ey & Py & R);
    rewrite R; clear R; rd Ey; rewrite ?d05, ?d025 in Ey end.
Tactic Notation "go_combine" constr(HP) ident(y) ident(Ey) ident(Py) :=
  match goal with |- context [StepModel.run ?kd ?FH ?FV ?G ?J ?P ?vi ?n (combine2 ?c ?t ++ ?p) ?m] =>
    let R := fresh "R" in
    destruct (run_combine kd FH FV G J P vi n c t p m HP eq_refl
      ltac:(try unfold c; unfold a343_c2, a343_c3, a343_c4; rdg; repeat split; assumption)) as (y & Ey & Py & R);
    rewrite R; clear R; try unfold c in Ey; unfold a343_c2, a343_c3, a343_c4 in Ey; rd Ey; rewrite ?d05, ?d025 in Ey end.

Definition erk_spec {X} (e : erk) (F : (X -> R) -> X -> R) (dt : R) (u : X -> R) : X -> R :=
  match e with
  | ForwardEuler => rk fe_A fe_b F dt u
  | RungeKutta4 => rk rk4_A rk4_b F dt u
  | RungeKuttaSSP3 => rk ssp3_A ssp3_b F dt u
  | KGU35 => rk kgu_A kgu_b F dt u
  | SSPRK53 => shu_osher ssp53 F dt [u]
  end.

Ltac vs := unfold rk, rk4_A, rk4_b, fe_A, fe_b, ssp3_A, ssp3_b, kgu_A, kgu_b, ssp53; cbn [rk_slopes shu_osher at_ map dot app last].

Lemma so_step {X} (a : list R) be al (F : (X -> R) -> X -> R) dt us y :
  (forall x, y x = (dot a (at_ us x) + dt * be * F (last us (fun _ => 0%R)) x)%R) ->
  shu_osher ((a, be) :: al) F dt us = shu_osher al F dt (us ++ [y]).
Proof. intros H. cbn [shu_osher]. do 3 f_equal. extensionality x. symmetry. apply H. Qed.

Section Erk.
Context {X : Type} (kd : X -> kind).
Notation vec := (X -> R).
Context (FH FV G : vec -> vec) (J : R -> vec -> vec) (P : vec -> vec) (vi : @visc X).
Notation run := (run kd FH FV G J P vi 5).
Notation F := (FP FH FV P).

Lemma erk_prog_run v e dt p m : projection kd P -> P (m 0%Z) = m 0 ->
  exists m', run (erk_prog v e dt ++ p) m = run p m' /\ m' 4 = erk_spec e (F v) dt (m 0%Z) /\ P (m' 4) = m' 4.
Proof.
  intros HP Fu. destruct e; cbn [erk_prog erk_spec]; rewrite <- ?app_assoc.
  - go_copy. go_expl HP y1 E1 P1. eexists. split; [reflexivity|]. rdg. split; [|exact P1].
    extensionality x. rewrite E1. vs. replace (fun x0 : X => (m 0%Z x0 + dt * 0)%R) with (m 0%Z) by (extensionality z; ring). ring.
  - go_copy. go_expl HP y1 E1 P1. go_copy. go_expl HP y2 E2 P2. go_copy. go_expl HP y3 E3 P3.
    go_combine HP y4 E4 P4. go_expl HP y5 E5 P5. eexists. split; [reflexivity|]. rdg. split; [|exact P5].
    vs. extensionality x.
    replace (fun x0 : X => (m 0%Z x0 + dt * 0)%R) with (m 0%Z) by (extensionality z; ring).
    assert (y1 = fun z => (m 0%Z z + dt * (1 / 2 * F v (m 0%Z) z + 0))%R) as Y1 by (extensionality z; rewrite E1; field).
    rewrite <- Y1.
    assert (y2 = fun z => (m 0%Z z + dt * (0 * F v (m 0%Z) z + (1 / 2 * F v y1 z + 0)))%R) as Y2 by (extensionality z; rewrite E2; field).
    rewrite <- Y2.
    assert (y3 = fun z => (m 0%Z z + dt * (0 * F v (m 0%Z) z + (0 * F v y1 z + (1 * F v y2 z + 0))))%R) as Y3 by (extensionality z; rewrite E3; field).
    rewrite <- Y3. rewrite E5, E4, E1, E2, E3. field.
  - go_copy. go_expl HP y1 E1 P1. go_combine HP y2 E2 P2. go_expl HP y3 E3 P3. go_combine HP y4 E4 P4. go_expl HP y5 E5 P5.
    eexists. split; [reflexivity|]. rdg. split; [|exact P5]. vs. extensionality x.
    replace (fun x0 : X => (m 0%Z x0 + dt * 0)%R) with (m 0%Z) by (extensionality z; ring).
    assert (y1 = fun z => (m 0%Z z + dt * (1 * F v (m 0%Z) z + 0))%R) as Y1 by (extensionality z; rewrite E1; field).
    rewrite <- Y1.
    assert (y3 = fun z => (m 0%Z z + dt * (1 / 4 * F v (m 0%Z) z + (1 / 4 * F v y1 z + 0)))%R) as Y3
      by (extensionality z; rewrite E3, E2, E1; field).
    rewrite <- Y3. rewrite E5, E4, E3, E2, E1. field.
  - go_copy. go_expl HP y1 E1 P1. go_copy. go_expl HP y2 E2 P2. go_copy. go_expl HP y3 E3 P3. go_copy. go_expl HP y4 E4 P4.
    go_combine HP y5 E5 P5. go_expl HP y6 E6 P6. eexists. split; [reflexivity|]. rdg. split; [|exact P6]. vs. extensionality x.
    replace (fun x0 : X => (m 0%Z x0 + dt * 0)%R) with (m 0%Z) by (extensionality z; ring).
    assert (y1 = fun z => (m 0%Z z + dt * (1 / 5 * F v (m 0%Z) z + 0))%R) as Y1 by (extensionality z; rewrite E1; field).
    rewrite <- Y1.
    assert (y2 = fun z => (m 0%Z z + dt * (0 * F v (m 0%Z) z + (1 / 5 * F v y1 z + 0)))%R) as Y2 by (extensionality z; rewrite E2; field).
    rewrite <- Y2.
    assert (y3 = fun z => (m 0%Z z + dt * (0 * F v (m 0%Z) z + (0 * F v y1 z + (1 / 3 * F v y2 z + 0))))%R) as Y3 by (extensionality z; rewrite E3; field).
    rewrite <- Y3.
    assert (y4 = fun z => (m 0%Z z + dt * (0 * F v (m 0%Z) z + (0 * F v y1 z + (0 * F v y2 z + (2 / 3 * F v y3 z + 0)))))%R) as Y4 by (extensionality z; rewrite E4; field).
    rewrite <- Y4. rewrite E6, E5, E1. field.
  - go_copy. go_expl HP y1 E1 P1. go_copy. go_expl HP y2 E2 P2. go_combine HP z3 D3 Q3. go_expl HP y3 E3 P3.
    go_combine HP z4 D4 Q4. go_expl HP y4 E4 P4. go_combine HP z5 D5 Q5. go_expl HP y5 E5 P5.
    eexists. split; [reflexivity|]. rdg. split; [|exact P5]. unfold ssp53.
    rewrite (so_step _ _ _ _ _ _ y1) by (intros z; cbn [at_ map dot last]; rewrite E1; ring). cbn [app].
    rewrite (so_step _ _ _ _ _ _ y2) by (intros z; cbn [at_ map dot last]; rewrite E2; ring). cbn [app].
    rewrite (so_step _ _ _ _ _ _ y3) by (intros z; cbn [at_ map dot last]; rewrite E3, D3; ring). cbn [app].
    rewrite (so_step _ _ _ _ _ _ y4) by (intros z; cbn [at_ map dot last]; rewrite E4, D4; ring). cbn [app].
    rewrite (so_step _ _ _ _ _ _ y5) by (intros z; cbn [at_ map dot last]; rewrite E5, D5; ring). reflexivity.
Qed.
End Erk.
