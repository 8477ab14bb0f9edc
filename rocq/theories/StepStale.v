(** Runs that miss their specification *)
From Coq Require Import ZArith List Bool Reals Lra Lia FunctionalExtensionality.
From Verif Require Import StepModel StepSpec StepProofs StepErk StepImex StepFlow.
Import ListNotations.
Local Open Scope Z_scope.

(** ** Runs with stale tracers *)
Section Stale.
Context (n : Z).
Definition zeroF (v : unit -> R) (x : unit) : R := 0%R.
Definition idJ (dt : R) (v : unit -> R) : unit -> R := v.
Definition idP (v : unit -> R) : unit -> R := v.
Notation run := (run (fun _ : unit => Tracer) zeroF zeroF zeroF idJ idP NoVisc n).
Lemma st_copyS s t p m : ok n s && ok n t = true -> run (copyS s t ++ p) m = run p m.
Proof.
  intros H. cbn [copyS app StepModel.run StepModel.exec]. unfold m_copy. rewrite H.
  assert (forall a : Z -> unit -> R, mset a t (only (fun _ : unit => Tracer) St (a s) (a t)) = a) as E.
  { intros a. transitivity (mset a t (a t)); [reflexivity|apply mset_self]. }
  rewrite !E. reflexivity.
Qed.
Lemma st_post t p m : ok n t = true -> run (post2 t ++ p) m = run p m.
Proof.
  intros H. cbn [post2 app StepModel.run StepModel.exec]. rewrite H.
  assert (forall d (a : Z -> unit -> R), mset a t (only (fun _ : unit => Tracer) d (idP (a t)) (a t)) = a) as E.
  { intros d a. transitivity (mset a t (a t)); [|apply mset_self]. f_equal. extensionality x. unfold only, idP. destruct (has d Tracer); reflexivity. }
  rewrite !E. reflexivity.
Qed.
Lemma st_expl s t dt p m : ok n s && ok n t && negb (s =? t) = true -> run (expl true s t dt ++ p) m = run p m.
Proof.
  intros H. unfold expl. cbn [app StepModel.run StepModel.exec]. rewrite !H.
  assert (forall a : Z -> unit -> R, mset a t (fun x => a t x + dt * zeroF (a s) x)%R = a) as E.
  { intros a. transitivity (mset a t (a t)); [|apply mset_self]. f_equal. extensionality x. unfold zeroF. ring. }
  rewrite !E. apply st_post. destruct (ok n t); [reflexivity|]. rewrite andb_false_r in H. discriminate.
Qed.
Lemma st_impl t dt p m : ok n t = true -> run (Impl t t dt :: p) m = run p m.
Proof.
  intros H. cbn [StepModel.run StepModel.exec]. rewrite H. cbn [andb]. f_equal.
  transitivity (mset m t (m t)); [|apply mset_self]. f_equal. extensionality x. unfold idJ. ring.
Qed.
Lemma st_implex s t dt p m : ok n s && ok n t && negb (s =? t) = true -> run (ImplTermsExpl s t dt :: p) m = run p m.
Proof.
  intros H. cbn [StepModel.run StepModel.exec]. rewrite H. f_equal.
  transitivity (mset m t (m t)); [|apply mset_self]. f_equal. extensionality x. unfold zeroF. ring.
Qed.
Lemma st_after s t w dt p m : ok n s && ok n t && ok n w = true -> (s =? w) || (t =? w) = false ->
  run (After s t w dt :: p) m = run p (mset m t (m s)).
Proof. intros H H'. cbn [StepModel.run StepModel.exec]. rewrite H, H'. reflexivity. Qed.
End Stale.
Ltac st := repeat first
  [ rewrite st_copyS by reflexivity | rewrite st_expl by reflexivity | rewrite st_post by reflexivity
  | rewrite st_impl by reflexivity | rewrite st_implex by reflexivity | rewrite st_after by reflexivity
  | rewrite run_copy2 by reflexivity | rewrite run_combine2 by reflexivity | progress cbn [app] ].
Definition stale (n : Z) (p : list op) : Prop :=
  exists m m' r r', m 0 = m' 0 /\
    run (fun _ : unit => Tracer) zeroF zeroF zeroF idJ idP NoVisc n p m = Some r /\
    run (fun _ : unit => Tracer) zeroF zeroF zeroF idJ idP NoVisc n p m' = Some r' /\ r 0 <> r' 0.
(** [k]: a scratch slot whose contents matter *)
Lemma stale_by n p k (f : (Z -> unit -> R) -> unit -> R) : k <> 0 ->
  (forall m, exists r, run (fun _ : unit => Tracer) zeroF zeroF zeroF idJ idP NoVisc n p m = Some r /\ r 0 = f m) ->
  f (fun _ _ => 0%R) tt <> f (mset (fun _ _ => 0%R) k (fun _ => 1%R)) tt -> stale n p.
Proof.
  intros Hk H Hf. destruct (H (fun _ _ => 0%R)) as (r & R1 & E1).
  destruct (H (mset (fun _ _ => 0%R) k (fun _ => 1%R))) as (r' & R2 & E2).
  eexists _, _, r, r'. split; [|split; [exact R1|split; [exact R2|]]].
  - unfold mset. destruct (Z.eqb_spec 0 k); [congruence|reflexivity].
  - rewrite E1, E2. intros E. apply Hf. rewrite E. reflexivity.
Qed.
Ltac go k step := eapply (stale_by _ _ k); [discriminate|intros m; eexists; split; [unfold step; st; rewrite <- (app_nil_r (copy2 1 0)); st; reflexivity|reflexivity]|].
Lemma st222 : stale 4 (ars222_step 1).
Proof.
  go 2 ars222_step. rdg. unfold lc, a222_c2. rdg. unfold a222_i10. rewrite !Rmult_0_r, !Rmult_1_r, !Rplus_0_l, !Rplus_0_r.
  pose proof s2_lo. pose proof a222_g0. apply not_eq_sym, Rmult_integral_contrapositive_currified; [unfold a222_g; lra|].
  apply Rinv_neq_0_compat. assumption.
Qed.
Lemma st443 : stale 10 (ars443_step 1).
Proof.
  go 6 ars443_step. rdg. unfold lc, a443_c2, a443_c3, a443_c4. rdg. unfold a443_e, a443_i. cbn [nth].
  rewrite ?Rmult_0_r, ?Rmult_1_r, ?Rplus_0_l, ?Rplus_0_r. lra.
Qed.
Lemma st3332 : stale 9 (ssp3332_step 1).
Proof.
  go 6 ssp3332_step. rdg. unfold lc, s332_c2, s332_c3, s332_c4. rdg.
  rewrite ?Rmult_0_r, ?Rmult_1_r, ?Rplus_0_l, ?Rplus_0_r.
  pose proof a232_g0 as H. change a232_g with s332_g in H. apply Rinv_neq_0_compat in H. intros E. apply H. lra.
Qed.
Lemma stgark : stale 5 (gark2_step 1).
Proof.
  go 2 gark2_step. rdg. unfold lc, gk_c2, gk_c3. rdg. rewrite ?Rmult_0_r, ?Rmult_1_r, ?Rplus_0_l, ?Rplus_0_r.
  pose proof a222_g0 as H. change a222_g with gk_g in H. pose proof s2_lo. rewrite !Rmult_0_l, Rplus_0_r. apply not_eq_sym, Rmult_integral_contrapositive_currified; [unfold gk_g; lra|].
  apply Rinv_neq_0_compat. assumption.
Qed.
Lemma st232 : stale 8 (ark232_step 1).
Proof.
  go 5 ark232_step. rdg. unfold lc, k232_c2, k232_c3. rdg. rewrite ?Rmult_0_r, ?Rmult_1_r, ?Rplus_0_l, ?Rplus_0_r.
  pose proof a232_g0 as H. change a232_g with k232_g in H. replace (k232_g / k232_g)%R with 1%R by (field; exact H). lra.
Qed.

(** ** Constant tendency, no implicit terms: the result should be u + dt c *)
Section Const.
Context (n : Z).
Definition oneF (v : unit -> R) (x : unit) : R := 1%R.
Notation run := (run (fun _ : unit => Solved) oneF zeroF zeroF idJ idP NoVisc n).
Lemma ct_post t p m : ok n t = true -> run (post2 t ++ p) m = run p m.
Proof.
  intros H. cbn [post2 app StepModel.run StepModel.exec]. rewrite H.
  assert (forall d (a : Z -> unit -> R), mset a t (only (fun _ : unit => Solved) d (idP (a t)) (a t)) = a) as E.
  { intros d a. transitivity (mset a t (a t)); [|apply mset_self]. f_equal. extensionality x. unfold only, idP. destruct (has d Solved); reflexivity. }
  rewrite !E. reflexivity.
Qed.
Lemma ct_expl0 s t dt p m : ok n s && ok n t && negb (s =? t) = true ->
  run (expl true s t dt ++ p) m = run p (mset m t (fun x => m t x + dt)%R).
Proof.
  intros H. unfold expl. cbn [app StepModel.run StepModel.exec]. rewrite !H.
  assert (mset (mset m t (fun x => m t x + dt * oneF (m s) x)%R) t
    (fun x => mset m t (fun x0 => m t x0 + dt * oneF (m s) x0)%R t x + dt * zeroF (mset m t (fun x0 => m t x0 + dt * oneF (m s) x0)%R s) x)%R
    = mset m t (fun x => m t x + dt)%R) as E.
  { rewrite mset_twice. f_equal. extensionality x. rewrite mset_same. unfold oneF, zeroF. ring. }
  rewrite E. apply ct_post. destruct (ok n t); [reflexivity|]. rewrite andb_false_r in H. discriminate.
Qed.
Lemma ct_expl s t dt p m : ok n s && ok n t && negb (s =? t) = true ->
  exists y, y tt = (m t tt + dt)%R /\ run (expl true s t dt ++ p) m = run p (mset m t y).
Proof. intros H. exists (fun x => m t x + dt)%R. split; [reflexivity|apply ct_expl0, H]. Qed.
Lemma ct_impl s t dt p m : ok n s && ok n t = true -> run (Impl s t dt :: p) m = run p (mset m t (m s)).
Proof. intros H. cbn [StepModel.run StepModel.exec]. rewrite H. reflexivity. Qed.
Lemma ct_implex s t dt p m : ok n s && ok n t && negb (s =? t) = true -> run (ImplTermsExpl s t dt :: p) m = run p m.
Proof.
  intros H. cbn [StepModel.run StepModel.exec]. rewrite H. f_equal.
  transitivity (mset m t (m t)); [|apply mset_self]. f_equal. extensionality x. unfold zeroF. ring.
Qed.
Lemma ct_after s t w dt p m : ok n s && ok n t && ok n w = true -> (s =? w) || (t =? w) = false ->
  run (After s t w dt :: p) m = run p (mset m t (m s)).
Proof. intros H H'. cbn [StepModel.run StepModel.exec]. rewrite H, H'. reflexivity. Qed.
Lemma ct_copyS s t p m : ok n s && ok n t = true -> run (copyS s t ++ p) m = run p (mset m t (m s)).
Proof. apply run_copyS. intros _. discriminate. Qed.
Lemma ct_copy s t p m : ok n s && ok n t = true -> run (Copy s t St :: p) m = run p (mset m t (m s)).
Proof. intros H. cbn [StepModel.run StepModel.exec]. unfold m_copy. rewrite H. reflexivity. Qed.
Lemma ct_combine0 c t p m : ok n t && (t <? Z.of_nat (length c)) && (Z.of_nat (length c) <=? n) = true ->
  run (Combine c t St :: p) m = run p (mset m t (lc c m)).
Proof.
  intros H. rewrite !andb_true_iff in H. destruct H as ((H1 & H2) & H3). unfold ok in H1.
  rewrite andb_true_iff in H1. destruct H1 as (H0 & H1).
  apply Z.leb_le in H0. apply Z.ltb_lt in H1, H2. apply Z.leb_le in H3.
  cbn [StepModel.run StepModel.exec]. unfold m_combine. rewrite !map_length.
  rewrite (proj2 (Z.ltb_ge t 0)) by lia. rewrite (proj2 (Z.leb_gt _ t)) by lia.
  rewrite (proj2 (Z.leb_gt n t)) by lia. rewrite (proj2 (Z.ltb_ge n _)) by lia. cbn [orb].
  do 2 f_equal. extensionality x. unfold only. cbn [has].
  exact (proj1 (combine_val (map cval c) t (entry m x) ltac:(rewrite map_length; lia))).
Qed.
Lemma ct_combine c t p m : ok n t && (t <? Z.of_nat (length c)) && (Z.of_nat (length c) <=? n) = true ->
  exists y, y tt = wsum 0 (map cval c) (fun i => m i tt) /\ run (Combine c t St :: p) m = run p (mset m t y).
Proof. intros H. exists (lc c m). split; [reflexivity|apply ct_combine0, H]. Qed.
Lemma ct_combine2 c t p m : ok n t && (t <? Z.of_nat (length c)) && (Z.of_nat (length c) <=? n) = true ->
  exists y, y tt = wsum 0 (map cval c) (fun i => m i tt) /\ run (combine2 c t ++ p) m = run p (mset m t y).
Proof. intros H. exists (lc c m). split; [reflexivity|apply run_combine2, H]. Qed.
End Const.
Ltac rx := cbn [mset Z.eqb Pos.eqb].
Ltac ct := repeat first
  [ rewrite ct_copyS by reflexivity; rx | rewrite ct_post by reflexivity
  | rewrite ct_impl by reflexivity; rx | rewrite ct_implex by reflexivity | rewrite ct_after by reflexivity; rx
  | rewrite ct_copy by reflexivity; rx | rewrite run_copy2 by reflexivity; rx | progress cbn [app] ].
Tactic Notation "ct_e" ident(y) ident(E) :=
  match goal with |- context [StepModel.run _ _ _ _ _ _ _ ?n (expl true ?s ?t ?dt ++ ?p) ?m] =>
    let R := fresh "R" in destruct (ct_expl n s t dt p m eq_refl) as (y & E & R); rewrite R; clear R; rd E end.
Tactic Notation "ct_c" ident(y) ident(E) :=
  match goal with
  | |- context [StepModel.run _ _ _ _ _ _ _ ?n (Combine ?c ?t St :: ?p) ?m] =>
    let R := fresh "R" in destruct (ct_combine n c t p m eq_refl) as (y & E & R); rewrite R; clear R; unfold c in E; rd E
  | |- context [StepModel.run _ _ _ _ _ _ _ ?n (combine2 ?c ?t ++ ?p) ?m] =>
    let R := fresh "R" in destruct (ct_combine2 n c t p m eq_refl) as (y & E & R); rewrite R; clear R; unfold c in E; rd E
  end.
Definition zero_mem : Z -> unit -> R := fun _ _ => 0%R.

Lemma ark232_const : exists r, run (fun _ : unit => Solved) oneF zeroF zeroF idJ idP NoVisc 8 (ark232_step 1) zero_mem = Some r /\
  r 0 tt <> 1%R.
Proof.
  unfold ark232_step. ct. ct_e y1 E1. ct. ct_e y2 E2. ct. ct_c y3 E3. ct. ct_e y4 E4. ct. ct_c y5 E5. ct_e y6 E6. ct.
  rewrite <- (app_nil_r (copy2 1 0)). ct. eexists. split; [reflexivity|]. rx.
  assert (k232_d = sqrt 2 / 4)%R as D. { unfold k232_d. replace (1 / (2 * sqrt 2))%R with (1 / sqrt 2 / 2)%R by (field; pose proof s2_lo; lra). rewrite inv_s2. field. }
  assert (k232_g = 1 - sqrt 2 / 2)%R as Ge. { unfold k232_g. rewrite inv_s2. reflexivity. }
  pose proof s2 as Q. pose proof s2_lo as Lo.
  assert (k232_g <> 0)%R as G0 by (rewrite Ge; lra). assert (k232_a <> 0)%R as A0 by (unfold k232_a; lra).
  assert (y6 tt = 2 * k232_g + 3 / 2 * k232_d)%R as ->; [|rewrite D, Ge; lra].
  rewrite E6, E5, E4, E2, E1. unfold zero_mem. field. split; assumption.
Qed.
Ltac k4 H := cbn [k4_K k4_u k4_Kh k4_terms k4_i k4_e nth app negb Nat.mul Nat.add Nat.sub wsum map cval S_ mset Z.eqb Pos.eqb Z.add Pos.add Pos.succ] in H.
Tactic Notation "k4_c" ident(y) ident(E) constr(v) :=
  match goal with |- context [StepModel.run _ _ _ _ _ _ _ ?n (Combine ?c ?t St :: ?p) ?m] =>
    let R := fresh "R" in destruct (ct_combine n c t p m eq_refl) as (y & E & R); rewrite R; clear R; k4 E;
    assert (y tt = v) as R by (rewrite E; unfold zero_mem; repeat match goal with H : ?z tt = _ |- context [?z tt] => rewrite H end; field);
    clear E; rename R into E; ct end.
Tactic Notation "k4_e" ident(y) ident(E) constr(v) :=
  match goal with |- context [StepModel.run _ _ _ _ _ _ _ ?n (expl true ?s ?t ?dt ++ ?p) ?m] =>
    let R := fresh "R" in destruct (ct_expl n s t dt p m eq_refl) as (y & E & R); rewrite R; clear R; k4 E;
    assert (y tt = v) as R by (rewrite E; unfold zero_mem; repeat match goal with H : ?z tt = _ |- context [?z tt] => rewrite H end; field);
    clear E; rename R into E; ct end.
Lemma ark4_const : exists r, run (fun _ : unit => Solved) oneF zeroF zeroF idJ idP NoVisc 14 (ark4_step 1) zero_mem = Some r /\
  r 0 tt = (- 1 / 3)%R.
Proof.
  unfold ark4_step. ct.
  k4_c a0 A0 0%R.
  k4_c a1 A1 0%R. k4_e b1 B1 (1 / 3)%R. k4_c h1 H1 1%R. k4_c c1 C1 0%R.
  k4_c a2 A2 (1 / 6)%R. k4_e b2 B2 (1 / 3)%R. k4_c h2 H2 1%R. k4_c c2 C2 0%R.
  k4_c a3 A3 (1 / 8)%R. k4_e b3 B3 (5 / 8)%R. k4_c h3 H3 (4 / 3)%R. k4_c c3 C3 0%R.
  k4_c a4 A4 (5 / 8)%R. k4_e b4 B4 (13 / 8)%R. k4_c h4 H4 1%R. k4_c d4 D4 (5 / 8)%R. k4_c c4 C4 (- 2)%R.
  k4_c a5 A5 (- 1 / 2)%R. k4_e b5 B5 (1 / 2)%R. k4_c h5 H5 1%R. k4_c c5 C5 0%R.
  k4_c a6 A6 (- 1 / 2)%R. k4_e b6 B6 (- 1 / 3)%R.
  eexists. split; [reflexivity|]. rx. exact B6.
Qed.
