(** Information flow through the programs of the time steppers: which
    instances the result depends on. *)
From Coq Require Import ZArith List Bool Reals Lra Lia FunctionalExtensionality.
From Verif Require Import StepModel StepSpec StepProofs.
Import ListNotations.
Local Open Scope Z_scope.

Definition deqb (d d' : dtype) : bool := match d, d' with St, St => true | Tr, Tr => true | _, _ => false end.
Lemma deqb_eq d d' : deqb d d' = true <-> d = d'.
Proof. destruct d, d'; cbn; split; congruence. Qed.
Definition mem_ (S : list (Z * dtype)) (i : Z) (d : dtype) : bool :=
  existsb (fun p => (fst p =? i) && deqb (snd p) d) S.
Lemma mem_In S i d : mem_ S i d = true <-> In (i, d) S.
Proof.
  unfold mem_. rewrite existsb_exists. split.
  - intros ((j & d') & H & E). cbn in E. rewrite andb_true_iff, Z.eqb_eq, deqb_eq in E. destruct E as (-> & ->). exact H.
  - intros H. exists (i, d). split; [exact H|]. cbn. rewrite Z.eqb_refl. destruct d; reflexivity.
Qed.
Definition drop (S : list (Z * dtype)) (i : Z) (d : dtype) : list (Z * dtype) :=
  filter (fun p => negb ((fst p =? i) && deqb (snd p) d)) S.
Definition put_ (b : bool) (S : list (Z * dtype)) (i : Z) (d : dtype) : list (Z * dtype) :=
  if b then (i, d) :: S else drop S i d.

(** every slot with a coefficient *)
Fixpoint reads (S : list (Z * dtype)) (i : Z) (c : list coef) (d : dtype) : bool :=
  match c with
  | [] => true
  | Some _ :: c' => mem_ S i d && reads S (i + 1) c' d
  | None :: c' => reads S (i + 1) c' d
  end.

Section Check.
(** the tracked data types *)
Context (T : list dtype).
Definition all_ (S : list (Z * dtype)) (i : Z) : bool := forallb (mem_ S i) T.
Definition put_all (b : bool) (S : list (Z * dtype)) (t : Z) : list (Z * dtype) :=
  fold_right (fun d S => put_ b S t d) S T.
Definition flow1 (o : op) (S : list (Z * dtype)) : list (Z * dtype) :=
  match o with
  | Copy s t d => put_ (mem_ S s d) S t d
  | Combine c t d => put_ (reads S 0 c d) S t d
  | ExplH s t _ | ExplV s t _ | ImplTermsExpl s t _ | Impl s t _ => put_all (all_ S s && all_ S t) S t
  | Post t d => put_ (mem_ S t d) S t d
  | After s t w _ => put_all (all_ S s) (put_all (all_ S s && all_ S w) S w) t
  end.
Fixpoint flow (p : list op) (S : list (Z * dtype)) : list (Z * dtype) :=
  match p with [] => S | o :: p' => flow p' (flow1 o S) end.
End Check.

Section Sound.
Context {X : Type} (kd : X -> kind).
Notation vec := (X -> R).
Context (FH FV G : vec -> vec) (J : R -> vec -> vec) (P : vec -> vec) (vi : @visc X) (n : Z).
Notation run := (run kd FH FV G J P vi n).
Notation exec := (exec kd FH FV G J P vi n).
Context (T : list dtype).

Definition eqv (d : dtype) (v w : vec) : Prop := forall x, has d (kd x) = true -> v x = w x.
Definition eqT (v w : vec) : Prop := forall d, In d T -> eqv d v w.
(** the tracked part of the results depends on the tracked part only *)
Definition respects (f : vec -> vec) : Prop := forall v w, eqT v w -> eqT (f v) (f w).
Record closed : Prop := {
  c_H : respects FH; c_V : respects FV; c_G : respects G; c_J : forall dt, respects (J dt);
  c_vi : match vi with NoVisc => True | Visc2 u => forall dt, respects (u dt)
         | Visc4 u w => (forall dt, respects (u dt)) /\ forall dt, respects (w dt) end;
  c_P : forall d v w, eqv d v w -> eqv d (P v) (P w) }.
Definition agree (S : list (Z * dtype)) (m m' : Z -> vec) : Prop :=
  forall i d, In (i, d) S -> In d T -> eqv d (m i) (m' i).

Lemma agree_put S m m' (b : bool) t d v v' :
  agree S m m' -> (In d T -> b = true -> eqv d v v') ->
  agree (put_ b S t d) (mset m t (only kd d v (m t))) (mset m' t (only kd d v' (m' t))).
Proof.
  intros A H i d' HI HT x Hx. unfold mset. destruct (Z.eqb_spec i t) as [->|E].
  - unfold only. destruct (has d (kd x)) eqn:Hd.
    + assert (d' = d) as -> by (destruct (kd x), d, d'; cbn in *; congruence).
      destruct b; [exact (H HT eq_refl x Hx)|]. cbn in HI. unfold drop in HI. apply filter_In in HI.
      destruct HI as (_ & HI). cbn in HI. rewrite Z.eqb_refl in HI. destruct d; discriminate HI.
    + assert (d' <> d) as N by congruence. apply (A t d'); [|exact HT|exact Hx]. destruct b; cbn in HI.
      * destruct HI as [HI|HI]; [congruence|exact HI].
      * apply filter_In in HI. apply HI.
  - apply (A i d'); [|exact HT|exact Hx]. destruct b; cbn in HI.
    + destruct HI as [HI|HI]; [congruence|exact HI].
    + apply filter_In in HI. apply HI.
Qed.
Lemma drop_sub S t d p : In p (drop S t d) -> In p S.
Proof. intros H. apply filter_In in H. apply H. Qed.
Lemma put_all_in b S t i d : In (i, d) (put_all T b S t) ->
  (i = t /\ In d T /\ b = true) \/ (In (i, d) S /\ (i = t -> ~ In d T)) \/ (In (i, d) S /\ b = true).
Proof.
  unfold put_all. induction T as [|d0 T' IH]; cbn; intros H; [right; left; split; [exact H|intros _ []]|].
  destruct b; cbn in H.
  - destruct H as [H|H].
    + injection H as <- <-. left. auto.
    + destruct (IH H) as [(A & B & C)|[(A & B)|(A & B)]]; [left|right; right|right; right]; auto.
  - pose proof H as H'. apply drop_sub in H'. destruct (IH H') as [(A & B & C)|[(A & B)|(A & B)]]; [discriminate| |discriminate].
    right. left. split; [exact A|]. intros -> [->|Hd]; [|exact (B eq_refl Hd)].
    unfold drop in H. apply filter_In in H. destruct H as (_ & H). cbn in H. rewrite Z.eqb_refl in H. destruct d; discriminate H.
Qed.
Lemma agree_put_all S m m' (b : bool) t v v' :
  agree S m m' -> (b = true -> eqT v v') ->
  agree (put_all T b S t) (mset m t v) (mset m' t v').
Proof.
  intros A H i d HI HT x Hx. apply put_all_in in HI. unfold mset. destruct (Z.eqb_spec i t) as [->|E].
  - destruct HI as [(_ & _ & Hb)|[(_ & N)|(_ & Hb)]]; [|exfalso; exact (N eq_refl HT)|]; exact (H Hb d HT x Hx).
  - destruct HI as [(E' & _)|[(HI & _)|(HI & _)]]; [congruence| |]; exact (A i d HI HT x Hx).
Qed.
Lemma all_eqT S m m' s : agree S m m' -> all_ T S s = true -> eqT (m s) (m' s).
Proof.
  intros A H d HT. unfold all_ in H. rewrite forallb_forall in H. apply (A s d); [|exact HT]. apply mem_In, H, HT.
Qed.
Lemma reads_wsum S m m' d c : forall i, agree S m m' -> In d T -> reads S i c d = true ->
  forall x, has d (kd x) = true -> wsum i (map cval c) (fun j => m j x) = wsum i (map cval c) (fun j => m' j x).
Proof.
  induction c as [|a c IH]; intros i A HT H x Hx; [reflexivity|]. cbn [map wsum]. destruct a as [a|]; cbn [reads cval] in *.
  - apply andb_true_iff in H. destruct H as (H1 & H2). rewrite (IH (i + 1) A HT H2 x Hx).
    rewrite (A i d (proj1 (mem_In _ _ _) H1) HT x Hx). reflexivity.
  - rewrite (IH (i + 1) A HT H x Hx). ring.
Qed.

(** same outcome, and agreement afterwards *)
Definition both (S : list (Z * dtype)) (r r' : option (Z -> vec)) : Prop :=
  match r, r' with Some m, Some m' => agree S m m' | None, None => True | _, _ => False end.

Lemma flow1_sound o S m m' : closed -> agree S m m' -> both (flow1 T o S) (exec o m) (exec o m').
Proof.
  intros C A. destruct o as [s t d|c t d|s t dt|s t dt|s t dt|s t dt|t d|s t w dt]; cbn [StepModel.exec flow1].
  - unfold m_copy. destruct (ok n s && ok n t); [|exact I]. cbn. apply agree_put; [exact A|].
    intros HT H x Hx. apply (A s d); [apply mem_In, H|exact HT|exact Hx].
  - unfold m_combine. destruct (_ || _ || _ || _) eqn:E; [exact I|]. cbn. apply agree_put; [exact A|].
    intros HT H x Hx. repeat (apply orb_false_iff in E; destruct E as (E & ?)).
    rewrite !(fun mm => proj1 (combine_val (map cval c) t mm ltac:(lia))).
    exact (reads_wsum S m m' d c 0 A HT H x Hx).
  - destruct (ok n s && ok n t && negb (s =? t)); [|exact I]. cbn. apply agree_put_all; [exact A|].
    intros H d HT x Hx. apply andb_true_iff in H. destruct H as (H1 & H2).
    rewrite (c_H C _ _ (all_eqT S m m' s A H1) d HT x Hx), (all_eqT S m m' t A H2 d HT x Hx). reflexivity.
  - destruct (ok n s && ok n t && negb (s =? t)); [|exact I]. cbn. apply agree_put_all; [exact A|].
    intros H d HT x Hx. apply andb_true_iff in H. destruct H as (H1 & H2).
    rewrite (c_V C _ _ (all_eqT S m m' s A H1) d HT x Hx), (all_eqT S m m' t A H2 d HT x Hx). reflexivity.
  - destruct (ok n s && ok n t); [|exact I]. cbn. apply agree_put_all; [exact A|].
    intros H d HT x Hx. apply andb_true_iff in H. destruct H as (H1 & H2).
    rewrite (c_J C dt _ _ (all_eqT S m m' s A H1) d HT x Hx), (all_eqT S m m' t A H2 d HT x Hx).
    rewrite (all_eqT S m m' s A H1 d HT x Hx). reflexivity.
  - destruct (ok n s && ok n t && negb (s =? t)); [|exact I]. cbn. apply agree_put_all; [exact A|].
    intros H d HT x Hx. apply andb_true_iff in H. destruct H as (H1 & H2).
    rewrite (c_G C _ _ (all_eqT S m m' s A H1) d HT x Hx), (all_eqT S m m' t A H2 d HT x Hx). reflexivity.
  - destruct (ok n t); [|exact I]. cbn. apply agree_put; [exact A|].
    intros HT H. apply (c_P C). apply (A t d); [apply mem_In, H|exact HT].
  - destruct (ok n s && ok n t && ok n w); [|exact I]. destruct ((s =? w) || (t =? w)) eqn:E; [exact I|].
    pose proof (c_vi C) as CV.
    assert (forall m m', agree S m m' -> agree (put_all T (all_ T S s && all_ T S w) S w) m m') as W.
    { intros a a' B. rewrite <- (mset_self a w), <- (mset_self a' w). apply agree_put_all; [exact B|].
      intros H. apply andb_true_iff in H. exact (all_eqT S a a' w B (proj2 H)). }
    destruct vi as [|u|u k]; cbn.
    + apply agree_put_all; [apply W, A|]. intros H. exact (all_eqT S m m' s A H).
    + apply agree_put_all; [apply W, A|]. intros H. exact (CV dt _ _ (all_eqT S m m' s A H)).
    + apply agree_put_all.
      * apply agree_put_all; [exact A|]. intros H. apply andb_true_iff in H. exact (proj2 CV dt _ _ (all_eqT S m m' s A (proj1 H))).
      * intros H. exact (proj1 CV dt _ _ (all_eqT S m m' s A H)).
Qed.
Lemma flow_sound p : forall S m m', closed -> agree S m m' -> both (flow T p S) (run p m) (run p m').
Proof.
  induction p as [|o p IH]; intros S m m' C A; [exact A|]. cbn [flow StepModel.run].
  pose proof (flow1_sound o S m m' C A) as B.
  destruct (exec o m) as [a|], (exec o m') as [a'|]; cbn in B; try contradiction; [|exact I]. apply IH; assumption.
Qed.
Lemma agree_sub S S' m m' : (forall p, In p S' -> In p S) -> agree S m m' -> agree S' m m'.
Proof. intros H A i d HI. apply A, H, HI. Qed.
End Sound.

Lemma closed_all {X} (kd : X -> kind) FH FV G J P vi :
  (forall d v w, (forall x, has d (kd x) = true -> v x = w x) -> forall x, has d (kd x) = true -> P v x = P w x) ->
  closed kd FH FV G J P vi [St; Tr].
Proof.
  intros HP.
  assert (forall f, respects kd [St; Tr] f) as R.
  { intros f v w H. assert (v = w) as ->; [|intros d _ x _; reflexivity].
    extensionality x. destruct (kd x) eqn:K; [apply (H St)|apply (H St)|apply (H Tr)]; cbn; rewrite ?K; tauto. }
  constructor; try exact (R _); try (intros; exact (R _)).
  - destruct vi; [exact I|intros; exact (R _)|split; intros; exact (R _)].
  - intros d v w H x Hx. exact (HP d v w H x Hx).
Qed.
Lemma agree_full {X} (kd : X -> kind) i m m' : m i = m' i -> agree kd [St; Tr] [(i, St); (i, Tr)] m m'.
Proof. intros E j d [H|[H|[]]] _ x _; injection H as <- _; rewrite E; reflexivity. Qed.
Lemma full_agree {X} (kd : X -> kind) S i m m' : agree kd [St; Tr] S m m' -> In (i, St) S -> In (i, Tr) S -> m i = m' i.
Proof.
  intros A H1 H2. extensionality x. destruct (kd x) eqn:K; [apply (A i St)|apply (A i St)|apply (A i Tr)]; cbn; rewrite ?K; tauto.
Qed.

(** ** Restriction to a closed part of the entries *)
Section Restrict.
Context {X Y : Type} (kd : X -> kind) (i : Y -> X).
Context (FH FV G : (X -> R) -> X -> R) (J : R -> (X -> R) -> X -> R) (P : (X -> R) -> X -> R) (vi : @visc X).
Context (FH' FV' G' : (Y -> R) -> Y -> R) (J' : R -> (Y -> R) -> Y -> R) (P' : (Y -> R) -> Y -> R) (vi' : @visc Y).
Definition res (v : X -> R) : Y -> R := fun y => v (i y).
Definition mres (m : Z -> X -> R) : Z -> Y -> R := fun j => res (m j).
Definition commutes (f : (X -> R) -> X -> R) (f' : (Y -> R) -> Y -> R) : Prop := forall v, res (f v) = f' (res v).
Record part : Prop := {
  r_H : commutes FH FH'; r_V : commutes FV FV'; r_G : commutes G G'; r_J : forall dt, commutes (J dt) (J' dt);
  r_P : commutes P P';
  r_vi : match vi, vi' with NoVisc, NoVisc => True | Visc2 u, Visc2 u' => forall dt, commutes (u dt) (u' dt)
         | Visc4 u w, Visc4 u' w' => (forall dt, commutes (u dt) (u' dt)) /\ forall dt, commutes (w dt) (w' dt)
         | _, _ => False end }.
Context (n : Z).
Lemma mres_mset m t v : mres (mset m t v) = mset (mres m) t (res v).
Proof. extensionality j. unfold mres, mset. destruct (j =? t); reflexivity. Qed.
Lemma res_at (v : X -> R) w y : res v = w -> v (i y) = w y.
Proof. intros <-. reflexivity. Qed.
Lemma exec_restrict o m : part ->
  exec (fun y => kd (i y)) FH' FV' G' J' P' vi' n o (mres m) = option_map mres (exec kd FH FV G J P vi n o m).
Proof.
  intros C. destruct o as [s t d|c t d|s t dt|s t dt|s t dt|s t dt|t d|s t w dt]; cbn [StepModel.exec].
  - unfold m_copy. destruct (ok n s && ok n t); [|reflexivity]. cbn. rewrite mres_mset. reflexivity.
  - unfold m_combine. destruct (_ || _ || _ || _); [reflexivity|]. cbn. rewrite mres_mset. reflexivity.
  - destruct (ok n s && ok n t && negb (s =? t)); [|reflexivity]. cbn. rewrite mres_mset. do 2 f_equal.
    extensionality y. unfold mres. rewrite <- (r_H C). reflexivity.
  - destruct (ok n s && ok n t && negb (s =? t)); [|reflexivity]. cbn. rewrite mres_mset. do 2 f_equal.
    extensionality y. unfold mres. rewrite <- (r_V C). reflexivity.
  - destruct (ok n s && ok n t); [|reflexivity]. cbn. rewrite mres_mset. do 2 f_equal.
    extensionality y. unfold mres. rewrite <- (r_J C). reflexivity.
  - destruct (ok n s && ok n t && negb (s =? t)); [|reflexivity]. cbn. rewrite mres_mset. do 2 f_equal.
    extensionality y. unfold mres. rewrite <- (r_G C). reflexivity.
  - destruct (ok n t); [|reflexivity]. cbn. rewrite mres_mset. do 2 f_equal.
    extensionality y. unfold mres. rewrite <- (r_P C). reflexivity.
  - destruct (ok n s && ok n t && ok n w); [|reflexivity]. destruct ((s =? w) || (t =? w)); [reflexivity|].
    pose proof (r_vi C) as V. destruct vi, vi'; try contradiction; cbn; rewrite ?mres_mset.
    + reflexivity.
    + rewrite V. reflexivity.
    + rewrite (proj1 V), (proj2 V). reflexivity.
Qed.
Lemma run_restrict p : forall m, part ->
  run (fun y => kd (i y)) FH' FV' G' J' P' vi' n p (mres m) = option_map mres (run kd FH FV G J P vi n p m).
Proof.
  induction p as [|o p IH]; intros m C; [reflexivity|]. cbn [StepModel.run]. rewrite exec_restrict by exact C.
  destruct (exec kd FH FV G J P vi n o m); [apply IH, C|reflexivity].
Qed.
End Restrict.
