From Coq Require Import ZArith List Bool Reals Lra Lia FunctionalExtensionality.
From Verif Require Import StepModel StepSpec.
Import ListNotations.
Local Open Scope Z_scope.

(** ** Combination *)
Lemma req0_spec x : req0 x = true <-> x = 0%R.
Proof. unfold req0. destruct (Req_EM_T x 0); split; congruence. Qed.

(** sum over the list from index [i], skipping index [t] *)
Fixpoint wsum_but (t i : Z) (c : list R) (m : Z -> R) : R :=
  match c with [] => 0%R | x :: c' => ((if i =? t then 0 else x * m i) + wsum_but t (i + 1) c' m)%R end.
Fixpoint wsum (i : Z) (c : list R) (m : Z -> R) : R :=
  match c with [] => 0%R | x :: c' => (x * m i + wsum (i + 1) c' m)%R end.

Lemma wsum_but_ext t c : forall i m m', (forall j, j <> t -> m j = m' j) -> wsum_but t i c m = wsum_but t i c m'.
Proof.
  induction c as [|x c IH]; intros i m m' H; [reflexivity|]. cbn. rewrite (IH _ m m' H).
  destruct (Z.eqb_spec i t); [reflexivity|]. rewrite H by assumption. reflexivity.
Qed.
Lemma add_terms_val c : forall i t m,
  add_terms Rplus Rmult req0 i c t m t = (m t + wsum_but t i c m)%R /\
  forall j, j <> t -> add_terms Rplus Rmult req0 i c t m j = m j.
Proof.
  induction c as [|x c IH]; intros i t m; cbn.
  - split; [ring|reflexivity].
  - destruct (Z.eqb_spec i t) as [E|E]; cbn.
    + destruct (IH (i + 1) t m) as (A & B). split; [rewrite A; ring|exact B].
    + destruct (req0 x) eqn:E0.
      * apply req0_spec in E0. subst. destruct (IH (i + 1) t m) as (A & B). split; [rewrite A; ring|exact B].
      * destruct (IH (i + 1) t (tset m t (m t + m i * x)%R)) as (A & B). split.
        { rewrite A. rewrite (wsum_but_ext t c _ _ m).
          - unfold tset. rewrite Z.eqb_refl. ring.
          - intros j Hj. unfold tset. destruct (Z.eqb_spec j t); congruence. }
        { intros j Hj. rewrite B by assumption. unfold tset. destruct (Z.eqb_spec j t); congruence. }
Qed.
Lemma wsum_split t c : forall i m, i <= t < i + Z.of_nat (length c) ->
  wsum i c m = (nth (Z.to_nat (t - i)) c 0 * m t + wsum_but t i c m)%R.
Proof.
  induction c as [|x c IH]; intros i m H; cbn [length] in H; [lia|].
  cbn [wsum wsum_but]. destruct (Z.eqb_spec i t) as [->|E].
  - replace (t - t) with 0 by lia. cbn. enough (wsum (t + 1) c m = wsum_but t (t + 1) c m) as -> by ring.
    assert (t < t + 1) as L by lia. revert L. generalize (t + 1). clear. induction c as [|y c IH]; intros i L; [reflexivity|].
    cbn. rewrite IH by lia. destruct (Z.eqb_spec i t); [lia|reflexivity].
  - rewrite IH by lia. replace (Z.to_nat (t - i)) with (S (Z.to_nat (t - (i + 1)))) by lia. cbn. ring.
Qed.
Lemma combine_val c t m : 0 <= t < Z.of_nat (length c) ->
  add_terms Rplus Rmult req0 0 c t (premultiply 0%R Rmult req0 c t m) t = wsum 0 c m /\
  forall j, j <> t -> add_terms Rplus Rmult req0 0 c t (premultiply 0%R Rmult req0 c t m) j = m j.
Proof.
  intros H. destruct (add_terms_val c 0 t (premultiply 0%R Rmult req0 c t m)) as (A & B). split.
  - rewrite A. rewrite (wsum_split t c 0 m) by lia. rewrite Z.sub_0_r.
    rewrite (wsum_but_ext t c _ _ m).
    + unfold premultiply, tset. rewrite Z.eqb_refl. destruct (req0 _) eqn:E; [|ring].
      apply req0_spec in E. rewrite E. ring.
    + intros j Hj. unfold premultiply, tset. destruct (Z.eqb_spec j t); congruence.
  - intros j Hj. rewrite B by assumption. unfold premultiply, tset. destruct (Z.eqb_spec j t); congruence.
Qed.

(** ** Running programs *)
Section Run.
Context {X : Type} (kd : X -> kind).
Notation vec := (X -> R).
Context (FH FV G : vec -> vec) (J : R -> vec -> vec) (P : vec -> vec) (vi : @visc X) (n : Z).
Notation run := (run kd FH FV G J P vi n).
Notation exec := (exec kd FH FV G J P vi n).

Lemma run_app p q m : run (p ++ q) m = match run p m with Some m' => run q m' | None => None end.
Proof.
  revert m. induction p as [|o p IH]; intros m; [reflexivity|]. cbn [app StepModel.run].
  destruct (exec o m); [apply IH|reflexivity].
Qed.

Lemma mset_same (m : Z -> vec) t v : mset m t v t = v.
Proof. unfold mset. rewrite Z.eqb_refl. reflexivity. Qed.
Lemma mset_self (m : Z -> vec) t : mset m t (m t) = m.
Proof. extensionality i. unfold mset. destruct (Z.eqb_spec i t); congruence. Qed.
Lemma mset_twice (m : Z -> vec) t v w : mset (mset m t v) t w = mset m t w.
Proof. extensionality i. unfold mset. destruct (i =? t); reflexivity. Qed.

Lemma has_cases x : has St (kd x) = negb (has Tr (kd x)).
Proof. destruct (kd x); reflexivity. Qed.
Lemma only_both (v w : vec) : only kd Tr v (only kd St v w) = v.
Proof. extensionality x. unfold only. rewrite has_cases. destruct (has Tr (kd x)); reflexivity. Qed.

Lemma run_copy2 s t p m : ok n s && ok n t = true -> run (copy2 s t ++ p) m = run p (mset m t (m s)).
Proof.
  intros H. cbn [copy2 app StepModel.run StepModel.exec]. unfold m_copy. rewrite H. rewrite mset_twice, mset_same. f_equal. f_equal.
  extensionality x. unfold only, mset. destruct (Z.eqb_spec s t) as [->|E].
  - destruct (has Tr (kd x)), (has St (kd x)); reflexivity.
  - rewrite has_cases. destruct (has Tr (kd x)); reflexivity.
Qed.

Definition lc (c : list coef) (m : Z -> vec) : vec := fun x => wsum 0 (map cval c) (fun i => m i x).

Lemma run_combine2 c t p m : ok n t && (t <? Z.of_nat (length c)) && (Z.of_nat (length c) <=? n) = true ->
  run (combine2 c t ++ p) m = run p (mset m t (lc c m)).
Proof.
  intros H. rewrite !andb_true_iff in H. destruct H as ((H1 & H2) & H3). unfold ok in H1.
  rewrite andb_true_iff in H1. destruct H1 as (H0 & H1).
  apply Z.leb_le in H0. apply Z.ltb_lt in H1, H2. apply Z.leb_le in H3.
  cbn [combine2 app StepModel.run StepModel.exec]. unfold m_combine.
  rewrite !map_length.
  rewrite (proj2 (Z.ltb_ge t 0)) by lia. rewrite (proj2 (Z.leb_gt _ t)) by lia.
  rewrite (proj2 (Z.leb_gt n t)) by lia. rewrite (proj2 (Z.ltb_ge n _)) by lia. cbn [orb].
  rewrite mset_twice, mset_same. f_equal. f_equal. extensionality x. unfold only.
  rewrite has_cases. destruct (has Tr (kd x)) eqn:K; cbn [negb].
  - rewrite (proj1 (combine_val (map cval c) t (entry _ x) ltac:(rewrite map_length; lia))).
    unfold lc. f_equal. extensionality i. unfold entry, mset, only. destruct (Z.eqb_spec i t) as [->|]; [|reflexivity].
    rewrite has_cases, K. reflexivity.
  - rewrite (proj1 (combine_val (map cval c) t (entry _ x) ltac:(rewrite map_length; lia))). reflexivity.
Qed.

(** what post-processing is assumed to be: a projection that acts on state
    and tracers separately (as direct stiffness summation does) *)
Record projection : Prop := {
  p_sep : forall d v w, (forall x, has d (kd x) = true -> v x = w x) ->
            forall x, has d (kd x) = true -> P v x = P w x;
  p_lin : forall a v w x, P (fun y => (v y + a * w y)%R) x = (P v x + a * P w x)%R;
  p_idem : forall v, P (P v) = P v }.
(** for every step dt >= 0 the implicit step solves y = v + dt G(y) and keeps
    fixed points of the projection; G does not act on the winds *)
Record solver : Prop := {
  j_eq : forall dt v x, (0 <= dt)%R -> J dt v x = (v x + dt * G (J dt v) x)%R;
  g_wind : forall v x, kd x = Wind -> G v x = 0%R;
  j_fix : forall dt v, (0 <= dt)%R -> P v = v -> P (J dt v) = J dt v }.

Lemma run_post2 t p m : projection -> ok n t = true -> run (post2 t ++ p) m = run p (mset m t (P (m t))).
Proof.
  intros HP H. cbn [post2 app StepModel.run StepModel.exec]. rewrite H, mset_twice, mset_same. f_equal. f_equal.
  extensionality x. unfold only at 1. destruct (has Tr (kd x)) eqn:K.
  - apply (p_sep HP Tr); [|exact K]. intros y Hy. unfold only. rewrite has_cases, Hy. reflexivity.
  - unfold only. rewrite has_cases, K. reflexivity.
Qed.
Lemma run_post2_fix t p m : projection -> ok n t = true -> P (m t) = m t -> run (post2 t ++ p) m = run p m.
Proof. intros HP H E. rewrite run_post2, E, mset_self by assumption. reflexivity. Qed.

(** the explicit tendency after post-processing *)
Definition FP (v : bool) (y : vec) : vec := P (fun x => (FH y x + (if v then FV y x else 0))%R).

Lemma run_expl v s t dt p m : projection -> ok n s && ok n t && negb (s =? t) = true -> P (m t) = m t ->
  exists y, (forall x, y x = (m t x + dt * FP v (m s) x)%R) /\ P y = y /\
    run (expl v s t dt ++ p) m = run p (mset m t y).
Proof.
  intros HP H E. exists (fun x => (m t x + dt * FP v (m s) x)%R). split; [reflexivity|].
  assert (P (fun x => (m t x + dt * FP v (m s) x)%R) = (fun x => (m t x + dt * FP v (m s) x)%R)) as E2.
  { extensionality x. rewrite (p_lin HP). rewrite E. unfold FP. rewrite (p_idem HP). reflexivity. }
  split; [exact E2|].
  assert (ok n t = true) as Ot by (destruct (ok n t); [reflexivity|rewrite andb_false_r in H; discriminate]).
  assert ((s =? t) = false) as Hst by (destruct (s =? t); [rewrite andb_false_r in H; discriminate|reflexivity]).
  unfold expl. cbn [app StepModel.run StepModel.exec]. rewrite H. destruct v; cbn [app StepModel.run StepModel.exec].
  - rewrite H. rewrite run_post2 by assumption. rewrite !mset_twice, mset_same. f_equal. f_equal.
    rewrite <- E2. extensionality x. unfold FP. rewrite !(p_lin HP), (p_idem HP). rewrite mset_same.
    assert (mset m t (fun x0 => (m t x0 + dt * FH (m s) x0)%R) s = m s) as ->.
    { unfold mset. rewrite Hst. reflexivity. }
    rewrite (p_lin HP). rewrite Rplus_assoc. f_equal. rewrite <- Rmult_plus_distr_l. f_equal.
    transitivity (P (fun y => (FH (m s) y + 1 * FV (m s) y)%R) x).
    + rewrite (p_lin HP). ring.
    + f_equal. extensionality y. ring.
  - rewrite run_post2 by assumption. rewrite !mset_twice, mset_same. f_equal. f_equal.
    rewrite <- E2. extensionality x. unfold FP. rewrite !(p_lin HP), (p_idem HP). f_equal. f_equal. f_equal. extensionality y. ring.
Qed.
Lemma run_impl t dt p m : (0 <= dt)%R -> solver -> ok n t = true -> P (m t) = m t ->
  exists y, y = J dt (m t) /\ (forall x, y x = (m t x + dt * G y x)%R) /\ P y = y /\
    run (Impl t t dt :: p) m = run p (mset m t y).
Proof.
  intros Hd HJ H E. exists (J dt (m t)). split; [reflexivity|]. split; [intros x; apply (j_eq HJ), Hd|]. split; [apply (j_fix HJ _ _ Hd E)|].
  cbn [StepModel.run StepModel.exec]. rewrite H. cbn [andb]. f_equal. f_equal. extensionality x. destruct (kd x) eqn:K.
  - rewrite (j_eq HJ _ _ _ Hd), (g_wind HJ _ _ K). ring.
  - reflexivity.
  - ring.
Qed.

(** fixed points are closed under combinations *)
Lemma p_zero x : projection -> P (fun _ => 0%R) x = 0%R.
Proof.
  intros HP. pose proof (p_lin HP (-1) (fun _ => 0%R) (fun _ => 0%R) x) as H. cbv beta in H.
  replace (fun _ : X => (0 + -1 * 0)%R) with (fun _ : X => 0%R) in H by (extensionality y; ring). lra.
Qed.
Lemma lc_fix c : forall i m, projection ->
  (forall j, i <= j < i + Z.of_nat (length c) -> nth (Z.to_nat (j - i)) c 0%R <> 0%R -> P (m j) = m j) ->
  P (fun x => wsum i c (fun k => m k x)) = fun x => wsum i c (fun k => m k x).
Proof.
  induction c as [|a c IH]; intros i m HP H; cbn [wsum].
  - extensionality x. apply p_zero, HP.
  - assert (P (fun x => wsum (i + 1) c (fun k => m k x)) = fun x => wsum (i + 1) c (fun k => m k x)) as E.
    { apply IH; [exact HP|]. intros j Hj Hn. apply H; [cbn [length]; lia|].
      replace (Z.to_nat (j - i)) with (S (Z.to_nat (j - (i + 1)))) by lia. exact Hn. }
    extensionality x. transitivity (P (fun y => (wsum (i + 1) c (fun k => m k y) + a * m i y)%R) x).
    { f_equal. extensionality y. ring. }
    rewrite (p_lin HP), E. destruct (Req_dec a 0) as [->|Ha]; [ring|].
    rewrite (H i); [ring|cbn [length]; lia|]. replace (Z.to_nat (i - i)) with 0%nat by lia. exact Ha.
Qed.

(** as [lc_fix], in the form used for the programs: slots with [None]
    coefficients are not required to be fixed *)
Fixpoint fixes (i : Z) (c : list coef) (m : Z -> vec) : Prop :=
  match c with [] => True | Some _ :: c' => P (m i) = m i /\ fixes (i + 1) c' m | None :: c' => fixes (i + 1) c' m end.
Lemma fixes_fix c m : projection -> fixes 0 c m -> P (lc c m) = lc c m.
Proof.
  intros HP H. unfold lc. apply lc_fix; [exact HP|]. revert H.
  assert (forall i, fixes i c m -> forall j, i <= j < i + Z.of_nat (length (map cval c)) ->
    nth (Z.to_nat (j - i)) (map cval c) 0%R <> 0%R -> P (m j) = m j) as K; [|apply K].
  induction c as [|a c IH]; intros i F j Hj Hn; cbn [length map] in Hj; [lia|].
  destruct (Z.eq_dec j i) as [->|E].
  - replace (Z.to_nat (i - i)) with 0%nat in Hn by lia. destruct a; [apply F|contradiction Hn; reflexivity].
  - replace (Z.to_nat (j - i)) with (S (Z.to_nat (j - (i + 1)))) in Hn by lia.
    apply (IH (i + 1)); [destruct a; apply F|lia|exact Hn].
Qed.
Lemma run_combine c t p m : projection ->
  ok n t && (t <? Z.of_nat (length c)) && (Z.of_nat (length c) <=? n) = true -> fixes 0 c m ->
  exists y, (forall x, y x = wsum 0 (map cval c) (fun i => m i x)) /\ P y = y /\
    run (combine2 c t ++ p) m = run p (mset m t y).
Proof.
  intros HP H F. exists (lc c m). split; [reflexivity|]. split; [apply fixes_fix; assumption|]. apply run_combine2, H.
Qed.

(** the value that StepAfterSubCycle leaves in the update instance *)
Definition after_val (dt : R) (v : vec) : vec :=
  match vi with NoVisc => v | Visc2 u => u dt v | Visc4 u _ => u dt v end.
Lemma run_after s t w dt p m : ok n s && ok n t && ok n w = true -> (s =? w) || (t =? w) = false ->
  exists m', m' t = after_val dt (m s) /\ run (After s t w dt :: p) m = run p m'.
Proof.
  intros H H'. cbn [StepModel.run StepModel.exec]. rewrite H, H'. unfold after_val. destruct vi; eexists; (split; [|reflexivity]); apply mset_same.
Qed.
End Run.
