From Coq Require Import ZArith List Bool Reals Lra Lia FunctionalExtensionality.
From Verif Require Import StepModel StepSpec StepProofs StepErk.
Import ListNotations.
Local Open Scope Z_scope.

Tactic Notation "go_impl" constr(HJ) ident(y) ident(Jy) ident(Ey) ident(Py) :=
  cbn [app];
  match goal with |- context [StepModel.run ?kd ?FH ?FV ?G ?J ?P ?vi ?n (Impl ?t ?t ?dt :: ?p) ?m] =>
    let R := fresh "R" in
    destruct (run_impl kd FH FV G J P vi n t dt p m ltac:(apply Rmult_le_pos; [first [assumption|unfold a443_i; cbn [nth]; lra]|assumption]) HJ eq_refl ltac:(rdg; assumption)) as (y & Jy & Ey & Py & R);
    rewrite R; clear R; rd Ey; rd Jy end.
Ltac go_post HP := rewrite run_post2_fix; [|exact HP|reflexivity|rdg; assumption].
Ltac go_after :=
  cbn [app];
  match goal with |- context [StepModel.run ?kd ?FH ?FV ?G ?J ?P ?vi ?n (After ?s ?t ?w ?dt :: ?p) ?m] =>
    let R := fresh "R" in let mf := fresh "mf" in let Ef := fresh "Ef" in
    destruct (run_after kd FH FV G J P vi n s t w dt p m eq_refl eq_refl) as (mf & Ef & R);
    rewrite R; clear R; rd Ef end.

Lemma ark3 {X} a1 a2 a3 h1 h2 h3 b bh F G dt u u' (Y1 Y2 Y3 : X -> R) :
  let Ys := [Y1; Y2; Y3] in
  let eqn Y a h := forall x, Y x = (u x + dt * dot a (at_ (map F Ys) x) + dt * dot h (at_ (map G Ys) x))%R in
  eqn Y1 a1 h1 -> eqn Y2 a2 h2 -> eqn Y3 a3 h3 -> eqn u' b bh ->
  ark [a1; a2; a3] [h1; h2; h3] b bh F G dt u u'.
Proof.
  intros Ys eqn H1 H2 H3 H. exists Ys. split; [reflexivity|]. split; [reflexivity|]. split; [|exact H].
  intros [|[|[|[|i]]]] Y a ah; cbn; intros E Ea Eh; try discriminate; injection E as <-; injection Ea as <-; injection Eh as <-; assumption.
Qed.
Lemma ark4 {X} a1 a2 a3 a4 h1 h2 h3 h4 b bh F G dt u u' (Y1 Y2 Y3 Y4 : X -> R) :
  let Ys := [Y1; Y2; Y3; Y4] in
  let eqn Y a h := forall x, Y x = (u x + dt * dot a (at_ (map F Ys) x) + dt * dot h (at_ (map G Ys) x))%R in
  eqn Y1 a1 h1 -> eqn Y2 a2 h2 -> eqn Y3 a3 h3 -> eqn Y4 a4 h4 -> eqn u' b bh ->
  ark [a1; a2; a3; a4] [h1; h2; h3; h4] b bh F G dt u u'.
Proof.
  intros Ys eqn H1 H2 H3 H4 H. exists Ys. split; [reflexivity|]. split; [reflexivity|]. split; [|exact H].
  intros [|[|[|[|[|i]]]]] Y a ah; cbn; intros E Ea Eh; try discriminate; injection E as <-; injection Ea as <-; injection Eh as <-; assumption.
Qed.
Lemma ark5 {X} a1 a2 a3 a4 a5 h1 h2 h3 h4 h5 b bh F G dt u u' (Y1 Y2 Y3 Y4 Y5 : X -> R) :
  let Ys := [Y1; Y2; Y3; Y4; Y5] in
  let eqn Y a h := forall x, Y x = (u x + dt * dot a (at_ (map F Ys) x) + dt * dot h (at_ (map G Ys) x))%R in
  eqn Y1 a1 h1 -> eqn Y2 a2 h2 -> eqn Y3 a3 h3 -> eqn Y4 a4 h4 -> eqn Y5 a5 h5 -> eqn u' b bh ->
  ark [a1; a2; a3; a4; a5] [h1; h2; h3; h4; h5] b bh F G dt u u'.
Proof.
  intros Ys eqn H1 H2 H3 H4 H5 H. exists Ys. split; [reflexivity|]. split; [reflexivity|]. split; [|exact H].
  intros [|[|[|[|[|[|i]]]]]] Y a ah; cbn; intros E Ea Eh; try discriminate; injection E as <-; injection Ea as <-; injection Eh as <-; assumption.
Qed.

Lemma s2 : (sqrt 2 * sqrt 2)%R = 2%R.
Proof. apply sqrt_sqrt. lra. Qed.
Lemma s2_lo : (1.4 < sqrt 2 < 1.5)%R.
Proof. pose proof s2. pose proof (sqrt_pos 2). split; nra. Qed.
Lemma inv_s2 : (1 / sqrt 2)%R = (sqrt 2 / 2)%R.
Proof. pose proof s2_lo. pose proof s2. apply (Rmult_eq_reg_r (2 * sqrt 2)); [|lra]. field_simplify; [|lra]. nra. Qed.
Lemma a222_g0 : (a222_g <> 0)%R.
Proof. unfold a222_g. pose proof s2_lo. lra. Qed.
Lemma a222_d0 : (1 - a222_d <> 0)%R.
Proof.
  unfold a222_d. pose proof a222_g0 as H. replace (1 - (1 - 1 / (2 * a222_g)))%R with (/ (2 * a222_g))%R by (field; exact H).
  apply Rinv_neq_0_compat. lra.
Qed.
Lemma a232_g0 : (a232_g <> 0)%R.
Proof. unfold a232_g. rewrite inv_s2. pose proof s2_lo. lra. Qed.
Lemma a232_d0 : (1 - a232_d <> 0)%R.
Proof. unfold a232_d. pose proof s2_lo. lra. Qed.

Section Imex.
Context {X : Type} (kd : X -> kind).
Notation vec := (X -> R).
Context (FH FV G : vec -> vec) (J : R -> vec -> vec) (P : vec -> vec) (vi : @visc X).
Notation run := (run kd FH FV G J P vi).
Notation F := (FP FH FV P true).
Notation after := (after_val vi).

Lemma run_copyS n s t p m : (forall x, kd x <> Tracer) -> ok n s && ok n t = true ->
  run n (copyS s t ++ p) m = run n p (mset m t (m s)).
Proof.
  intros K H. cbn [copyS app StepModel.run StepModel.exec]. unfold m_copy. rewrite H. rewrite mset_twice, mset_same. f_equal. f_equal.
  extensionality x. unfold only. assert (has St (kd x) = true) as E by (specialize (K x); destruct (kd x); [reflexivity|reflexivity|congruence]).
  rewrite E. unfold mset. destruct (Z.eqb_spec s t) as [->|]; [|reflexivity]. rewrite E. reflexivity.
Qed.
Ltac go_copyS K := rewrite run_copyS; [|exact K|reflexivity]; rdg.
Ltac fin := eexists; split; [reflexivity|]; rdg.
Ltac eqs := intros x; cbn [dot at_ map].

Lemma ars222_run dt m : (0 <= dt)%R -> (forall x, kd x <> Tracer) -> projection kd P -> solver kd G J P -> P (m 0) = m 0 ->
  exists m' u', run 4 (ars222_step dt) m = Some m' /\ m' 0 = after dt u' /\
    ark (ars222_A a222_g a222_d) (ars222_Ah a222_g) (ars222_b a222_d) (ars222_bh a222_g) F G dt (m 0) u'.
Proof.
  intros Hdt K HP HJ Fu. unfold ars222_step. pose proof a222_g0 as Hg. assert (0 <= a222_g)%R as Hp by (unfold a222_g; pose proof s2_lo; lra).
  go_copy. go_expl HP y1 E1 P1. go_copyS K. go_impl HJ w1 J1 D1 Q1. go_post HP.
  go_combine HP y2 E2 P2. go_expl HP y3 E3 P3. go_impl HJ w2 J2 D2 Q2. go_post HP.
  go_copy. go_after. rewrite <- (app_nil_r (copy2 1 0)). go_copy.
  eexists. exists w2. split; [reflexivity|]. rdg. split; [exact Ef|].
  unfold ars222_A, ars222_Ah, ars222_b, ars222_bh. apply (ark3 _ _ _ _ _ _ _ _ _ _ _ _ _ (m 0) w1 w2); eqs.
  - ring.
  - rewrite D1, E1. ring.
  - rewrite D2, E3, E2, D1, E1. unfold a222_i10. field. exact Hg.
  - rewrite D2, E3, E2, D1, E1. unfold a222_i10. field. exact Hg.
Qed.
Lemma ars232_run dt m : (0 <= dt)%R -> projection kd P -> solver kd G J P -> P (m 0) = m 0 ->
  exists m' u', run 7 (ars232_step dt) m = Some m' /\ m' 0 = after dt u' /\
    ark (ars232_A a232_g a232_d) (ars232_Ah a232_g) (ars232_b a232_g) (ars232_bh a232_g) F G dt (m 0) u'.
Proof.
  intros Hdt HP HJ Fu. unfold ars232_step. pose proof a232_g0 as Hg. assert (0 <= a232_g)%R as Hp by (unfold a232_g; rewrite inv_s2; pose proof s2_lo; lra). pose proof a232_d0 as Hd.
  go_copy. go_expl HP y1 E1 P1. go_copy. rdg. go_impl HJ w1 J1 D1 Q1.
  go_combine HP y2 E2 P2. go_copy. go_expl HP y3 E3 P3. go_copy. go_impl HJ w2 J2 D2 Q2.
  go_combine HP y4 E4 P4. go_expl HP y5 E5 P5.
  go_copy. go_after. rewrite <- (app_nil_r (copy2 1 0)). go_copy.
  eexists. exists y5. split; [reflexivity|]. rdg. split; [exact Ef|].
  unfold ars232_A, ars232_Ah, ars232_b, ars232_bh. apply (ark3 _ _ _ _ _ _ _ _ _ _ _ _ _ (m 0) w1 w2); eqs.
  - ring.
  - rewrite D1, E1. ring.
  - rewrite D2, E3, E2, D1, E1. field. exact Hg.
  - rewrite E5, E4, D2, E3, E2, D1, E1. field. auto.
Qed.
Lemma ars343_run g a42 a43 dt m : (0 <= dt)%R -> (0 < g)%R -> (a43 <> 0)%R -> (a343_a32 g a42 a43 <> 0)%R ->
  projection kd P -> solver kd G J P -> P (m 0) = m 0 ->
  exists m' u', run 7 (ars343_step g a42 a43 dt) m = Some m' /\ m' 0 = after dt u' /\
    ark (ars343_A g (a343_a31 g a42 a43) (a343_a32 g a42 a43) (a343_a41 a42 a43) a42 a43)
      (ars343_Ah g (a343_b1 g) (a343_b2 g)) (ars343_b g (a343_b1 g) (a343_b2 g)) (ars343_b g (a343_b1 g) (a343_b2 g)) F G dt (m 0) u'.
Proof.
  intros Hdt Hg' H43 H32 HP HJ Fu. assert (g <> 0)%R as Hg by lra. assert (0 <= g)%R as Hp by lra. unfold ars343_step.
  go_copy. go_expl HP y1 E1 P1. go_copy. rdg. go_impl HJ w1 J1 D1 Q1.
  go_combine HP y2 E2 P2. go_expl HP y3 E3 P3. go_copy. go_impl HJ w2 J2 D2 Q2.
  go_combine HP y4 E4 P4. go_expl HP y5 E5 P5. go_copy. go_impl HJ w3 J3 D3 Q3.
  go_combine HP y6 E6 P6. go_expl HP y7 E7 P7.
  go_copy. go_after.
  eexists. exists y7. split; [reflexivity|]. rdg. split; [exact Ef|].
  unfold ars343_A, ars343_Ah, ars343_b. 
  unfold u4_0, u4_1, u4_2, u4_3, u4_4, u4_5, u4_6, u3_0, u3_1, u3_2, u3_3, u3_4, u2_0, u2_1, u2_2, u3_7, u4_7, u4_8, a343_i10 in *.
  rewrite d05 in *.
  set (b1 := a343_b1 g) in *. set (b2 := a343_b2 g) in *. set (a31 := a343_a31 g a42 a43) in *. set (a32 := a343_a32 g a42 a43) in *.
  set (a41 := a343_a41 a42 a43) in *. clearbody b1 b2 a31 a32 a41.
  apply (ark4 _ _ _ _ _ _ _ _ _ _ _ _ _ _ _ (m 0) w1 w2 w3); eqs.
  - ring.
  - rewrite D1, E1. ring.
  - rewrite D2, E3, E2, D1, E1. field. exact Hg.
  - rewrite D3, E5, E4, D2, E3, E2, D1, E1. field. auto.
  - rewrite E7, E6, D3, E5, E4, D2, E3, E2, D1, E1. field. auto.
Qed.
Lemma ars443_run dt m : (0 <= dt)%R -> (forall x, kd x <> Tracer) -> projection kd P -> solver kd G J P -> P (m 0) = m 0 ->
  exists m' u', run 10 (ars443_step dt) m = Some m' /\ m' 0 = after dt u' /\
    ark ars443_A ars443_Ah ars443_b ars443_bh F G dt (m 0) u'.
Proof.
  intros Hdt K HP HJ Fu. unfold ars443_step.
  go_copy. go_expl HP y1 E1 P1. go_copyS K. go_impl HJ w1 J1 D1 Q1. go_post HP.
  go_combine HP y2 E2 P2. go_copy. go_expl HP y3 E3 P3. go_copyS K. go_impl HJ w2 J2 D2 Q2. go_post HP.
  go_combine HP y4 E4 P4. go_copy. go_expl HP y5 E5 P5. go_copyS K. go_impl HJ w3 J3 D3 Q3. go_post HP.
  go_combine HP y6 E6 P6. go_expl HP y7 E7 P7. go_impl HJ w4 J4 D4 Q4. go_post HP.
  go_copy. go_after. rewrite <- (app_nil_r (copy2 1 0)). go_copy.
  eexists. exists w4. split; [reflexivity|]. rdg. split; [exact Ef|].
  unfold a443_e, a443_i in *. cbn [nth] in *.
  unfold ars443_A, ars443_Ah, ars443_b, ars443_bh. apply (ark5 _ _ _ _ _ _ _ _ _ _ _ _ _ _ _ _ _ (m 0) w1 w2 w3 w4); eqs.
  - ring.
  - rewrite D1, E1. field.
  - rewrite D2, E3, E2, D1, E1. field.
  - rewrite D3, E5, E4, D2, E3, E2, D1, E1. field.
  - rewrite D4, E7, E6, D3, E5, E4, D2, E3, E2, D1, E1. field.
  - rewrite D4, E7, E6, D3, E5, E4, D2, E3, E2, D1, E1. field.
Qed.
Lemma ssp3332_run dt m : (0 <= dt)%R -> (forall x, kd x <> Tracer) -> projection kd P -> solver kd G J P -> P (m 0) = m 0 ->
  exists m' u', run 9 (ssp3332_step dt) m = Some m' /\ m' 0 = after dt u' /\
    ark ssp332_A (ssp332_Ah s332_g) ssp332_b ssp332_b F G dt (m 0) u'.
Proof.
  intros Hdt K HP HJ Fu. unfold ssp3332_step. assert (s332_g <> 0)%R as Hg by exact a232_g0. assert (0 <= s332_g)%R as Hp by (unfold s332_g; rewrite inv_s2; pose proof s2_lo; lra).
  go_copyS K. go_impl HJ w1 J1 D1 Q1. go_post HP.
  go_combine HP y2 E2 P2. go_copy. go_expl HP y3 E3 P3. go_copyS K. go_impl HJ w2 J2 D2 Q2. go_post HP.
  go_combine HP y4 E4 P4. go_copy. go_expl HP y5 E5 P5. go_copyS K. go_impl HJ w3 J3 D3 Q3. go_post HP.
  go_combine HP y6 E6 P6. go_expl HP y7 E7 P7.
  go_copy. go_after. rewrite <- (app_nil_r (copy2 1 0)). go_copy.
  eexists. exists y7. split; [reflexivity|]. rdg. split; [exact Ef|].
  unfold ssp332_A, ssp332_Ah, ssp332_b. apply (ark3 _ _ _ _ _ _ _ _ _ _ _ _ _ w1 w2 w3); eqs.
  - rewrite D1. ring.
  - rewrite D2, E3, E2, D1. field. exact Hg.
  - rewrite D3, E5, E4, D2, E3, E2, D1. field. exact Hg.
  - rewrite E7, E6, D3, E5, E4, D2, E3, E2, D1. field. exact Hg.
Qed.
Lemma gark2_run dt m : (0 <= dt)%R -> (forall x, kd x <> Tracer) -> projection kd P -> solver kd G J P -> P (m 0) = m 0 ->
  exists m' u', run 5 (gark2_step dt) m = Some m' /\ m' 0 = after dt u' /\
    gark gark2_EE gark2_EI (gark2_IE gk_g) (gark2_II gk_g) gark2_b (gark2_bh gk_g) F G dt (m 0) u'.
Proof.
  intros Hdt K HP HJ Fu. unfold gark2_step. assert (gk_g <> 0)%R as Hg by exact a222_g0. assert (0 <= gk_g)%R as Hp by (unfold gk_g; pose proof s2_lo; lra).
  go_copy. go_expl HP y1 E1 P1. go_copyS K. go_impl HJ w1 J1 D1 Q1. go_post HP.
  go_combine HP y2 E2 P2. go_combine HP y3 E3 P3. go_expl HP y4 E4 P4. go_impl HJ w2 J2 D2 Q2. go_post HP.
  go_copy. go_after. rewrite <- (app_nil_r (copy2 1 0)). go_copy.
  eexists. exists w2. split; [reflexivity|]. rdg. split; [exact Ef|].
  unfold gk_a in *. rewrite ?d05 in *.
  exists [m 0; y2], [w1; w2]. split; [reflexivity|]. split; [reflexivity|]. split; [|split].
  - intros [|[|[|i]]] Y a c; cbn; intros EY Ea Ec; try discriminate; injection EY as <-; injection Ea as <-; injection Ec as <-; eqs.
    + ring.
    + rewrite E2, D1, E1. field. exact Hg.
  - intros [|[|[|i]]] Y a c; cbn; intros EY Ea Ec; try discriminate; injection EY as <-; injection Ea as <-; injection Ec as <-; eqs.
    + rewrite D1, E1. ring.
    + rewrite D2, E4, E3, D1, E1. field. exact Hg.
  - eqs. unfold gark2_b, gark2_bh. cbn [dot]. rewrite D2, E4, E3, D1, E1. field. exact Hg.
Qed.
End Imex.
