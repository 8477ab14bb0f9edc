(** * TimestepSchemeARS343b: property C29 *)
From Coq Require Import ZArith List Bool Reals Lra Lia FunctionalExtensionality.
From Verif Require Import StepModel StepSpec StepProofs StepErk StepImex StepAcc StepCombModel.
Import ListNotations.
Local Open Scope Z_scope.

Section Comb.
Context {X : Type}.
Local Notation vec := (X -> R).
Context (F G : vec -> vec) (J : R -> vec -> vec) (P : vec -> vec) (A : R -> vec -> vec).
Local Notation kd := (fun _ : X => Solved).

Lemma crun_expl c s t dt p m : refused c t || negb (forallb (fun p => ok 7 (fst p)) c) || negb (ok 7 s && ok 7 t) = false ->
  crun F J P A HighSpeed 7 (ExplC c s t dt :: PostC t :: p) m = crun F J P A HighSpeed 7 p (mset m t (P (fun x => (csum c m x + dt * F (m s) x)%R))).
Proof.
  intros H. cbn [crun cexec]. rewrite H. apply orb_false_iff in H. destruct H as (_ & H). apply negb_false_iff, andb_prop in H. destruct H as (_ & H). rewrite H.
  rewrite mset_same. f_equal. unfold mset. extensionality i. destruct (i =? t); reflexivity.
Qed.
Lemma crun_impl s t dt p m : ok 7 s && ok 7 t = true -> crun F J P A HighSpeed 7 (ImplC (copy_of s) s t dt :: p) m = crun F J P A HighSpeed 7 p (mset m t (J dt (m s))).
Proof.
  intros H. cbn [crun cexec]. rewrite H. cbn [copy_of refused existsb forallb fst orb]. apply andb_prop in H. destruct H as (H & _). rewrite H. cbn [andb negb].
  replace (fun x : X => (csum (copy_of s) m x + (J dt (m s) x - m s x))%R) with (J dt (m s)); [reflexivity|]. extensionality x. cbn. ring.
Qed.
(** with HighSpeedDynamics one step is a step of the pair of Ascher, Ruuth and Spiteri
    2.7, followed by hyperdiffusion *)
Theorem C29_ars343b : forall dt m, (0 <= dt)%R -> projection kd P -> solver kd G J P -> P (m 0) = m 0 ->
  let g := a343_gamma in let a42 := a343_A42 in let a43 := a343_A43 in
  exists m' u', crun F J P A HighSpeed 7 (ars343b_step g a42 a43 dt) m = Some m' /\ m' 0 = A dt u' /\
    ark (ars343_A g (a343_a31 g a42 a43) (a343_a32 g a42 a43) (a343_a41 a42 a43) a42 a43)
      (ars343_Ah g (a343_b1 g) (a343_b2 g)) (ars343_b g (a343_b1 g) (a343_b2 g)) (ars343_b g (a343_b1 g) (a343_b2 g))
      (fun v => P (F v)) G dt (m 0) u'.
Proof.
  intros dt m Hdt HP HJ Fu g a42 a43. destruct a343_nz as (N1 & N2 & N3). fold g a42 a43 in N1, N2, N3.
  assert (Hg : (0 < g)%R) by (unfold g, a343_gamma; lra). clearbody g a42 a43.
  assert (L : forall k (f : nat -> vec) c v h, (forall i, (i < k)%nat -> P (f i) = f i) ->
    P (fun x => ((fold_right (fun i s => c i * f i x + s) 0 (seq 0 k)) + h * v x)%R) = fun x => (fold_right (fun i s => c i * f i x + s) 0 (seq 0 k) + h * P v x)%R).
  { intros k f c v h Hf.
    assert (P0 : P (fun _ => 0%R) = fun _ => 0%R).
    { extensionality x. pose proof (p_lin _ _ HP (-1)%R (fun _ => 0%R) (fun _ => 0%R) x) as E.
      assert (E' : (fun _ : X => (0 + -1 * 0)%R) = fun _ => 0%R) by (extensionality y; ring). cbv beta in E. rewrite E' in E. lra. }
    extensionality x. rewrite (p_lin _ _ HP h (fun x => fold_right (fun i s => c i * f i x + s)%R 0%R (seq 0 k)) v x). f_equal.
    assert (Q : forall l, (forall i, List.In i l -> P (f i) = f i) -> P (fun x => fold_right (fun i s => c i * f i x + s)%R 0%R l) x = fold_right (fun i s => c i * f i x + s)%R 0%R l).
    { induction l as [|i l IH]; intros Hl; cbn [fold_right]; [rewrite P0; reflexivity|].
      replace (fun x0 : X => (c i * f i x0 + fold_right (fun i s => c i * f i x0 + s) 0 l)%R) with (fun x0 : X => (fold_right (fun i s => c i * f i x0 + s) 0 l + c i * f i x0)%R) by (extensionality y; ring).
      rewrite (p_lin _ _ HP (c i) (fun x => fold_right (fun i s => c i * f i x + s)%R 0%R l) (f i) x). rewrite IH by (intros; apply Hl; right; assumption). rewrite (Hl i (or_introl eq_refl)). ring. }
    apply Q. intros i Hi. apply Hf. apply in_seq in Hi. lia. }
  (* the stages *)
  set (u := m 0) in *.
  set (f1 := P (fun x => (1 * u x + g * dt * F u x)%R)). set (w1 := J (g * dt)%R f1).
  assert (E1 : forall x, f1 x = (u x + g * dt * P (F u) x)%R).
  { intros x. pose proof (equal_f (L 1%nat (fun _ => u) (fun _ => 1%R) (F u) (g * dt)%R (fun _ _ => Fu)) x) as E. cbn [seq fold_right] in E.
    unfold f1. replace (fun x0 : X => (1 * u x0 + g * dt * F u x0)%R) with (fun x0 : X => (1 * u x0 + 0 + g * dt * F u x0)%R) by (extensionality y; ring). rewrite E. ring. }
  assert (Gd : (0 <= g * dt)%R) by (apply Rmult_le_pos; lra).
  assert (Pf1 : P f1 = f1) by apply (p_idem _ _ HP). assert (D1 : forall x, w1 x = (f1 x + g * dt * G w1 x)%R) by (intros x; apply (j_eq _ _ _ _ HJ); exact Gd).
  assert (Q1 : P w1 = w1) by (apply (j_fix _ _ _ _ HJ); assumption).
  set (f2 := P (fun x => (u2_0 g a42 a43 * u x + u2_1 g a42 a43 * f1 x + u2_2 g * w1 x + a343_a32 g a42 a43 * dt * F w1 x)%R)). set (w2 := J (g * dt)%R f2).
  assert (E2 : forall x, f2 x = (u2_0 g a42 a43 * u x + u2_1 g a42 a43 * f1 x + u2_2 g * w1 x + a343_a32 g a42 a43 * dt * P (F w1) x)%R).
  { intros x. pose proof (equal_f (L 3%nat (fun i => nth i [u; f1; w1] u) (fun i => nth i [u2_0 g a42 a43; u2_1 g a42 a43; u2_2 g] 0%R) (F w1) (a343_a32 g a42 a43 * dt)%R
      ltac:(intros [|[|[|i]]] Hi; try lia; assumption)) x) as E. cbn [seq fold_right nth] in E.
    unfold f2. etransitivity; [|etransitivity; [exact E|ring]]. f_equal. extensionality y. ring. }
  assert (Pf2 : P f2 = f2) by apply (p_idem _ _ HP). assert (D2 : forall x, w2 x = (f2 x + g * dt * G w2 x)%R) by (intros x; apply (j_eq _ _ _ _ HJ); exact Gd).
  assert (Q2 : P w2 = w2) by (apply (j_fix _ _ _ _ HJ); assumption).
  set (f3 := P (fun x => (u3_0 g a42 a43 * u x + u3_1 g a42 a43 * f1 x + u3_2 g a42 a43 * w1 x + u3_3 g a42 a43 * f2 x + u3_4 g * w2 x + a43 * dt * F w2 x)%R)). set (w3 := J (g * dt)%R f3).
  assert (E3 : forall x, f3 x = (u3_0 g a42 a43 * u x + u3_1 g a42 a43 * f1 x + u3_2 g a42 a43 * w1 x + u3_3 g a42 a43 * f2 x + u3_4 g * w2 x + a43 * dt * P (F w2) x)%R).
  { intros x. pose proof (equal_f (L 5%nat (fun i => nth i [u; f1; w1; f2; w2] u) (fun i => nth i [u3_0 g a42 a43; u3_1 g a42 a43; u3_2 g a42 a43; u3_3 g a42 a43; u3_4 g] 0%R) (F w2) (a43 * dt)%R
      ltac:(intros [|[|[|[|[|i]]]]] Hi; try lia; assumption)) x) as E. cbn [seq fold_right nth] in E.
    unfold f3. etransitivity; [|etransitivity; [exact E|ring]]. f_equal. extensionality y. ring. }
  assert (Pf3 : P f3 = f3) by apply (p_idem _ _ HP). assert (D3 : forall x, w3 x = (f3 x + g * dt * G w3 x)%R) by (intros x; apply (j_eq _ _ _ _ HJ); exact Gd).
  assert (Q3 : P w3 = w3) by (apply (j_fix _ _ _ _ HJ); assumption).
  set (f4 := P (fun x => (u4_0 g a42 a43 * u x + u4_1 g a42 a43 * f1 x + u4_2 g a42 a43 * w1 x + u4_3 g a42 a43 * f2 x + u4_4 g a43 * w2 x + u4_5 g a43 * f3 x + u4_6 g * w3 x + g * dt * F w3 x)%R)).
  assert (E4 : forall x, f4 x = (u4_0 g a42 a43 * u x + u4_1 g a42 a43 * f1 x + u4_2 g a42 a43 * w1 x + u4_3 g a42 a43 * f2 x + u4_4 g a43 * w2 x + u4_5 g a43 * f3 x + u4_6 g * w3 x + g * dt * P (F w3) x)%R).
  { intros x. pose proof (equal_f (L 7%nat (fun i => nth i [u; f1; w1; f2; w2; f3; w3] u)
      (fun i => nth i [u4_0 g a42 a43; u4_1 g a42 a43; u4_2 g a42 a43; u4_3 g a42 a43; u4_4 g a43; u4_5 g a43; u4_6 g] 0%R) (F w3) (g * dt)%R
      ltac:(intros [|[|[|[|[|[|[|i]]]]]]] Hi; try lia; assumption)) x) as E. cbn [seq fold_right nth] in E.
    unfold f4. etransitivity; [|etransitivity; [exact E|ring]]. f_equal. extensionality y. ring. }
  exists (mset (mset (mset (mset (mset (mset (mset (mset m 1 f1) 2 w1) 3 f2) 4 w2) 5 f3) 6 w3) 0 f4) 0 (A dt f4)), f4. split; [|split; [reflexivity|]].
  - unfold ars343b_step. rewrite crun_expl by reflexivity. cbn [csum copy_of fold_left]. fold u. change (P (fun x => (1 * u x + g * dt * F u x)%R)) with f1.
    rewrite crun_impl by reflexivity. change (mset m 1 f1 1) with f1. fold w1.
    rewrite crun_expl by reflexivity. cbn [csum b343_c2 fold_left fst snd mset Z.eqb Pos.eqb]. fold u f2.
    rewrite crun_impl by reflexivity. cbn [mset Z.eqb Pos.eqb]. fold w2.
    rewrite crun_expl by reflexivity. cbn [csum b343_c3 fold_left fst snd mset Z.eqb Pos.eqb]. fold u f3.
    rewrite crun_impl by reflexivity. cbn [mset Z.eqb Pos.eqb]. fold w3.
    rewrite crun_expl by reflexivity. cbn [csum b343_c4 fold_left fst snd mset Z.eqb Pos.eqb]. fold u f4. reflexivity.
  - unfold ars343_A, ars343_Ah, ars343_b.
    unfold u4_0, u4_1, u4_2, u4_3, u4_4, u4_5, u4_6, u3_0, u3_1, u3_2, u3_3, u3_4, u2_0, u2_1, u2_2, u3_7, u4_7, u4_8, a343_i10 in E2, E3, E4.
    rewrite d05 in *. clearbody f1 w1 f2 w2 f3 w3 f4.
    set (b1 := a343_b1 g) in *. set (b2 := a343_b2 g) in *. set (a31 := a343_a31 g a42 a43) in *. set (a32 := a343_a32 g a42 a43) in *.
    set (a41 := a343_a41 a42 a43) in *. clearbody b1 b2 a31 a32 a41.
    assert (g <> 0)%R as Hg0 by lra.
    apply (ark4 _ _ _ _ _ _ _ _ _ _ _ _ _ _ _ u w1 w2 w3); intros x; cbn [dot at_ map].
    + ring.
    + rewrite D1, E1. ring.
    + rewrite D2, E2, D1, E1. field. exact Hg0.
    + rewrite D3, E3, D2, E2, D1, E1. field. auto.
    + rewrite E4, D3, E3, D2, E2, D1, E1. field. auto.
Qed.
(** with any other dynamics nothing is stepped: the state stays as it is *)
Theorem C29_ars343b_base_refuted : forall g a42 a43 dt m, projection kd P -> P (m 0) = m 0 ->
  exists m', crun F J P A Base 7 (ars343b_step g a42 a43 dt) m = Some m' /\ m' 0 = m 0.
Proof.
  intros g a42 a43 dt m HP Fu. eexists. split; [reflexivity|]. unfold mset. cbn [Z.eqb Pos.eqb]. exact Fu.
Qed.
End Comb.
Print Assumptions C29_ars343b.
Print Assumptions C29_ars343b_base_refuted.

(** decay of one value at rate 1, explicitly and implicitly *)
Example C29_ars343b_case : projection (fun _ : unit => Solved) (fun v => v) /\
  solver (fun _ : unit => Solved) (fun v x => (- v x)%R) (fun dt v x => (v x / (1 + dt))%R) (fun v => v).
Proof.
  split; constructor; try reflexivity; intros.
  - apply H. assumption.
  - field. lra.
  - discriminate.
Qed.
