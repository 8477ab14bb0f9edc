(** C27-C30: data instances and time steppers. *)
From Coq Require Import ZArith List Bool Reals Lra Lia FunctionalExtensionality.
From Verif Require Import StepModel StepSpec StepProofs StepErk StepImex StepFlow StepMore StepAcc StepStale.
Import ListNotations.
Local Open Scope Z_scope.

(** * C27 *)
(** the old contents of the first [k] instances *)
Definition olds (k : nat) (m : Z -> R) : list R := map (fun j => m (Z.of_nat j)) (seq 0 k).

Theorem C27_combine : forall n c t (m : Z -> R), 0 <= t < Z.of_nat (length c) -> Z.of_nat (length c) <= n ->
  exists m', linear_combine 0%R Rplus Rmult req0 n c t m = Some m' /\
    m' t = dot c (olds (length c) m) /\ forall j, j <> t -> m' j = m j.
Proof.
  intros n c t m H Hn. unfold linear_combine.
  rewrite (proj2 (Z.ltb_ge t 0)) by lia. rewrite (proj2 (Z.leb_gt _ t)) by lia.
  rewrite (proj2 (Z.leb_gt n t)) by lia. rewrite (proj2 (Z.ltb_ge n _)) by lia. cbn [orb].
  eexists. split; [reflexivity|]. destruct (combine_val c t m H) as (A & B). split; [|exact B].
  rewrite A. unfold olds. rewrite <- (wsum_dot c 0). reflexivity.
Qed.
Print Assumptions C27_combine.
Theorem C27_combine_throws : forall n c t (m : Z -> R),
  linear_combine 0%R Rplus Rmult req0 n c t m = None <-> ~ (0 <= t < Z.of_nat (length c) /\ Z.of_nat (length c) <= n).
Proof.
  intros n c t m. unfold linear_combine. destruct (Z.ltb_spec t 0); cbn [orb]; [split; [lia|reflexivity]|].
  destruct (Z.leb_spec (Z.of_nat (length c)) t); [split; [lia|reflexivity]|].
  destruct (Z.leb_spec n t); [split; [lia|reflexivity]|].
  destruct (Z.ltb_spec n (Z.of_nat (length c))); [split; [lia|reflexivity]|]. split; [discriminate|lia].
Qed.
Print Assumptions C27_combine_throws.
(** in any arithmetic (so also for NaN contents): instances whose coefficient
    is zero are not read, not even the destination itself *)
Theorem C27_zero_coefficients_unread : forall {T} (zero : T) add mul is0 n c t (m m' : Z -> T) r r',
  linear_combine zero add mul is0 n c t m = Some r -> linear_combine zero add mul is0 n c t m' = Some r' ->
  (forall j x, nth_error c j = Some x -> is0 x = false -> m (Z.of_nat j) = m' (Z.of_nat j)) -> r t = r' t.
Proof. intros T. exact combine_unread. Qed.
Print Assumptions C27_zero_coefficients_unread.
Theorem C27_copy : forall {T} n s t (m : Z -> T),
  (0 <= s < n -> 0 <= t < n -> exists m', copy_data n s t m = Some m' /\ m' t = m s /\ forall j, j <> t -> m' j = m j) /\
  (copy_data n s t m = None <-> ~ (0 <= s < n /\ 0 <= t < n)).
Proof.
  intros T n s t m. unfold copy_data.
  destruct (Z.ltb_spec s 0), (Z.leb_spec n s), (Z.ltb_spec t 0), (Z.leb_spec n t); cbn [orb];
    (split; [intros Hs Ht; try lia|split; [first [lia|discriminate]|first [reflexivity|lia]]]).
  eexists. split; [reflexivity|]. unfold tset. rewrite Z.eqb_refl. split; [reflexivity|].
  intros j Hj. destruct (Z.eqb_spec j t); [contradiction|reflexivity].
Qed.
Print Assumptions C27_copy.
Theorem C27_zero : forall {T} (zero : T) n t (m : Z -> T),
  (0 <= t < n -> exists m', zero_data zero n t m = Some m' /\ m' t = zero /\ forall j, j <> t -> m' j = m j) /\
  (zero_data zero n t m = None <-> ~ 0 <= t < n).
Proof.
  intros T zero n t m. unfold zero_data.
  destruct (Z.ltb_spec t 0), (Z.leb_spec n t); cbn [orb];
    (split; [intros Ht; try lia|split; [first [lia|discriminate]|first [reflexivity|lia]]]).
  eexists. split; [reflexivity|]. unfold tset. rewrite Z.eqb_refl. split; [reflexivity|].
  intros j Hj. destruct (Z.eqb_spec j t); [contradiction|reflexivity].
Qed.
Print Assumptions C27_zero.
(** the combination of the programs of the time steppers is this function,
    entry by entry of the data type *)
Theorem C27_patch : forall {X} (kd : X -> kind) n c t d (m m' : Z -> X -> R), m_combine kd n c t d m = Some m' ->
  forall x, (has d (kd x) = true ->
       exists e, linear_combine 0%R Rplus Rmult req0 n (map cval c) t (fun i => m i x) = Some e /\ forall j, m' j x = e j) /\
    (has d (kd x) = false -> forall j, m' j x = m j x).
Proof.
  intros X kd n c t d m m'. unfold m_combine, linear_combine.
  destruct (_ || _ || _ || _) eqn:E; [discriminate|]. intros [= <-] x.
  repeat (apply orb_false_iff in E; destruct E as (E & ?)). split; intros K.
  - rewrite E, H1, H0, H. cbn [orb]. eexists. split; [reflexivity|]. intros j. unfold mset, only.
    destruct (Z.eqb_spec j t) as [->|Hj]; [rewrite K; reflexivity|].
    symmetry. apply (proj2 (combine_val (map cval c) t (fun i => m i x) ltac:(lia)) j Hj).
  - intros j. unfold mset, only. destruct (Z.eqb_spec j t) as [->|]; [rewrite K|]; reflexivity.
Qed.
Print Assumptions C27_patch.
Example C27_case : exists m', linear_combine 0%R Rplus Rmult req0 3 [2; 3; 0]%R 1 IZR = Some m' /\ m' 1 = 3%R /\ m' 0 = 0%R.
Proof.
  destruct (C27_combine 3 [2; 3; 0]%R 1 IZR) as (m' & A & B & C); [cbn; lia|cbn; lia|].
  exists m'. split; [exact A|]. rewrite B, (C 0) by discriminate. unfold olds. cbn. split; lra.
Qed.

(** * A concrete instance of the assumptions *)
Definition ex_kd (x : nat) : kind := match x with 0 | 1 => Solved | 2 => Wind | _ => Tracer end%nat.
Definition ex_P (v : nat -> R) (x : nat) : R := match x with 0 | 1 => ((v 0%nat + v 1%nat) / 2)%R | _ => v x end%nat.
Definition ex_G (v : nat -> R) (x : nat) : R := match ex_kd x with Wind => 0%R | _ => (- v x)%R end.
Definition ex_J (dt : R) (v : nat -> R) (x : nat) : R := match ex_kd x with Wind => v x | _ => (v x / (1 + dt))%R end.
Definition ex_F (v : nat -> R) (x : nat) : R := (v x * v x + v 2%nat)%R.
Lemma ex_projection : projection ex_kd ex_P.
Proof.
  constructor.
  - intros d v w H x Hx. destruct x as [|[|[|x]]]; cbn in *; destruct d; try discriminate Hx;
      rewrite ?(H 0%nat eq_refl), ?(H 1%nat eq_refl); try reflexivity; apply H; reflexivity.
  - intros a v w x. destruct x as [|[|x]]; cbn; field.
  - intros v. extensionality x. destruct x as [|[|x]]; cbn; field.
Qed.
Lemma ex_solver : solver ex_kd ex_G ex_J ex_P.
Proof.
  constructor.
  - intros dt v x H. unfold ex_J, ex_G. destruct (ex_kd x); [ring| |]; field; lra.
  - intros v x K. unfold ex_G. rewrite K. reflexivity.
  - intros dt v H E. extensionality x. pose proof (equal_f E 0%nat) as E0. pose proof (equal_f E 1%nat) as E1. cbn in E0, E1.
    destruct x as [|[|x]]; cbn; [unfold ex_J; cbn [ex_kd]..|reflexivity].
    + replace (v 1%nat) with (v 0%nat) by lra. field. lra.
    + replace (v 0%nat) with (v 1%nat) by lra. field. lra.
Qed.
Definition ex_u (x : nat) : R := match x with O => 3%R | S O => 3%R | _ => INR x end.
Example ex_fixed : ex_P ex_u = ex_u.
Proof. extensionality x. destruct x as [|[|x]]; cbn; lra. Qed.

Section Steps.
Context {X : Type} (kd : X -> kind).
Notation vec := (X -> R).
Context (FH FV G : vec -> vec) (J : R -> vec -> vec) (P : vec -> vec) (vi : @visc X).
Notation run := (run kd FH FV G J P vi).

(** * C28 *)
Theorem C28_erk : forall e dt m, projection kd P -> P (m 0) = m 0 ->
  exists m', run 5 (erk_step e dt) m = Some m' /\
    m' 0 = after_val vi dt
      (match e with
       | ForwardEuler => rk fe_A fe_b
       | RungeKutta4 => rk rk4_A rk4_b
       | RungeKuttaSSP3 => rk ssp3_A ssp3_b
       | KGU35 => rk kgu_A kgu_b
       | SSPRK53 => fun F dt u => shu_osher ssp53 F dt [u]
       end (fun v => P (FH v)) dt (m 0)).
Proof.
  intros e dt m HP Fu. destruct (erk_step_run kd FH FV G J P vi e dt m HP Fu) as (m' & R1 & E1).
  exists m'. split; [exact R1|]. rewrite E1.
  assert (FP FH FV P false = fun v => P (FH v)) as ->.
  { extensionality v. unfold FP. f_equal. extensionality x. ring. }
  destruct e; reflexivity.
Qed.
(** Strang splitting: half an implicit step (or the stored increment of the
    previous step), the explicit step, the implicit step and off-centering *)
Theorem C28_strang : forall e oc first last dt m, (0 <= dt)%R -> (-1 <= oc)%R -> projection kd P -> solver kd G J P ->
  P (m 0) = m 0 -> (first = false -> P (m 1) = m 1) ->
  exists m', run 5 (strang_step e oc first last dt) m = Some m' /\
    let v := if first then J (dt / 2) (m 0) else (fun x => m 0%Z x + m 1%Z x)%R in
    let F := fun v => P (fun x => FH v x + FV v x)%R in
    let w := after_val vi dt
      (match e with
       | ForwardEuler => rk fe_A fe_b
       | RungeKutta4 => rk rk4_A rk4_b
       | RungeKuttaSSP3 => rk ssp3_A ssp3_b
       | KGU35 => rk kgu_A kgu_b
       | SSPRK53 => fun F dt u => shu_osher ssp53 F dt [u]
       end F dt v) in
    let y := J (1 / 2 * (1 + oc) * dt)%R w in
    (forall x, m' 0 x = ((2 - oc) / 2 * y x + oc / 2 * w x)%R) /\
    (last = false -> forall x, m' 1 x = (m' 0%Z x - w x)%R).
Proof.
  intros e oc first last dt m Hdt Hoc HP HJ F0 F1.
  destruct (strang_run kd FH FV G J P vi e oc first last dt m Hdt Hoc HP HJ F0 F1) as (m' & R1 & E1).
  exists m'. split; [exact R1|]. destruct e; exact E1.
Qed.
(** split-explicit scheme: one KGU(3,5) step of the horizontal terms, then
    [ns] SSP-RK3 steps of the vertical terms; with [ns] = 0 (2 dt below the
    sound-speed limit) the vertical terms and the diffusion are left out *)
Theorem C28_splitexp : forall ns dt m, projection kd P -> P (m 0) = m 0 ->
  exists m', run 6 (splitexp_step ns dt) m = Some m' /\
    let v := rk kgu_A kgu_b (fun v => P (FH v)) dt (m 0) in
    m' 0 = match ns with
           | O => v
           | S _ => after_val vi dt (Nat.iter ns (rk ssp3_A ssp3_b (fun v => P (FV v)) (dt / INR ns)) v)
           end.
Proof.
  intros ns dt m HP Fu. destruct (splitexp_run kd FH FV G J P vi ns dt m HP Fu) as (m' & R1 & E1).
  exists m'. split; [exact R1|]. cbv zeta in *. rewrite E1.
  assert (FP FH FV P false = fun v => P (FH v)) as ->.
  { extensionality v. unfold FP. f_equal. extensionality x. ring. }
  reflexivity.
Qed.

(** * C29 *)
Definition Fsum (v : vec) : vec := P (fun x => FH v x + FV v x)%R.

Theorem C29_ars232 : forall dt m, (0 <= dt)%R -> projection kd P -> solver kd G J P -> P (m 0) = m 0 ->
  exists m' u', run 7 (ars232_step dt) m = Some m' /\ m' 0 = after_val vi dt u' /\
    ark (ars232_A a232_g a232_d) (ars232_Ah a232_g) (ars232_b a232_g) (ars232_bh a232_g) Fsum G dt (m 0) u'.
Proof. exact (ars232_run kd FH FV G J P vi). Qed.
Theorem C29_ars343 : forall dt m, (0 <= dt)%R -> projection kd P -> solver kd G J P -> P (m 0) = m 0 ->
  let g := a343_gamma in let a42 := a343_A42 in let a43 := a343_A43 in
  exists m' u', run 7 (ars343_step g a42 a43 dt) m = Some m' /\ m' 0 = after_val vi dt u' /\
    ark (ars343_A g (a343_a31 g a42 a43) (a343_a32 g a42 a43) (a343_a41 a42 a43) a42 a43)
      (ars343_Ah g (a343_b1 g) (a343_b2 g)) (ars343_b g (a343_b1 g) (a343_b2 g)) (ars343_b g (a343_b1 g) (a343_b2 g))
      Fsum G dt (m 0) u'.
Proof.
  intros dt m Hdt HP HJ Fu g a42 a43. destruct a343_nz as (N1 & N2 & N3).
  apply (ars343_run kd FH FV G J P vi g a42 a43 dt m Hdt); try assumption. unfold g, a343_gamma. lra.
Qed.
(** without tracers *)
Theorem C29_ars222 : forall dt m, (0 <= dt)%R -> (forall x, kd x <> Tracer) -> projection kd P -> solver kd G J P -> P (m 0) = m 0 ->
  exists m' u', run 4 (ars222_step dt) m = Some m' /\ m' 0 = after_val vi dt u' /\
    ark (ars222_A a222_g a222_d) (ars222_Ah a222_g) (ars222_b a222_d) (ars222_bh a222_g) Fsum G dt (m 0) u'.
Proof. exact (ars222_run kd FH FV G J P vi). Qed.
Theorem C29_ars443 : forall dt m, (0 <= dt)%R -> (forall x, kd x <> Tracer) -> projection kd P -> solver kd G J P -> P (m 0) = m 0 ->
  exists m' u', run 10 (ars443_step dt) m = Some m' /\ m' 0 = after_val vi dt u' /\
    ark ars443_A ars443_Ah ars443_b ars443_bh Fsum G dt (m 0) u'.
Proof. exact (ars443_run kd FH FV G J P vi). Qed.
Theorem C29_ssp3332 : forall dt m, (0 <= dt)%R -> (forall x, kd x <> Tracer) -> projection kd P -> solver kd G J P -> P (m 0) = m 0 ->
  exists m' u', run 9 (ssp3332_step dt) m = Some m' /\ m' 0 = after_val vi dt u' /\
    ark ssp332_A (ssp332_Ah s332_g) ssp332_b ssp332_b Fsum G dt (m 0) u'.
Proof. exact (ssp3332_run kd FH FV G J P vi). Qed.
Theorem C29_gark2 : forall dt m, (0 <= dt)%R -> (forall x, kd x <> Tracer) -> projection kd P -> solver kd G J P -> P (m 0) = m 0 ->
  exists m' u', run 5 (gark2_step dt) m = Some m' /\ m' 0 = after_val vi dt u' /\
    gark gark2_EE gark2_EI (gark2_IE gk_g) (gark2_II gk_g) gark2_b (gark2_bh gk_g) Fsum G dt (m 0) u'.
Proof. exact (gark2_run kd FH FV G J P vi). Qed.

(** * C30 *)
(** the outcome and the new instance 0 are determined by the old instance 0 *)
Definition history_free (n : Z) (p : list op) : Prop :=
  forall m m', m 0 = m' 0 ->
    match run n p m, run n p m' with
    | Some r, Some r' => r 0 = r' 0
    | None, None => True
    | _, _ => False
    end.
Definition separate : Prop :=
  forall d v w, (forall x, has d (kd x) = true -> v x = w x) -> forall x, has d (kd x) = true -> P v x = P w x.

Lemma flow_free n p : separate ->
  mem_ (flow [St; Tr] p [(0, St); (0, Tr)]) 0 St && mem_ (flow [St; Tr] p [(0, St); (0, Tr)]) 0 Tr = true -> history_free n p.
Proof.
  intros HP H m m' E. apply andb_true_iff in H. destruct H as (H1 & H2). apply mem_In in H1, H2.
  pose proof (flow_sound kd FH FV G J P vi n [St; Tr] p _ m m' (closed_all kd FH FV G J P vi HP) (agree_full kd 0 m m' E)) as B.
  destruct (run n p m) as [r|], (run n p m') as [r'|]; cbn in B; try exact B. exact (full_agree kd _ 0 r r' B H1 H2).
Qed.
Theorem C30_erk : forall e dt, separate -> history_free 5 (erk_step e dt).
Proof. intros e dt H. apply flow_free; [exact H|]. destruct e; lazy; reflexivity. Qed.
Theorem C30_ars232 : forall dt, separate -> history_free 7 (ars232_step dt).
Proof. intros dt H. apply flow_free; [exact H|]. lazy; reflexivity. Qed.
Theorem C30_ars343 : forall g a42 a43 dt, separate -> history_free 7 (ars343_step g a42 a43 dt).
Proof. intros g a42 a43 dt H. apply flow_free; [exact H|]. lazy; reflexivity. Qed.
Theorem C30_strang_single : forall e oc last dt, separate -> history_free 5 (strang_step e oc true last dt).
Proof. intros e oc last dt H. apply flow_free; [exact H|]. destruct e, last; lazy; reflexivity. Qed.

(** a whole run: the first step has fFirstStep, the last one fLastStep
    (Model.cpp:389-517) *)
Fixpoint strang_steps (e : erk) (oc : R) (first : bool) (dts : list R) : list op :=
  match dts with
  | [] => []
  | [dt] => strang_step e oc first true dt
  | dt :: dts' => strang_step e oc first false dt ++ strang_steps e oc false dts'
  end.
Definition S01 : list (Z * dtype) := [(0, St); (0, Tr); (1, St); (1, Tr)].
Lemma both_app S S' p q m m' :
  (forall a a', agree kd [St; Tr] S a a' -> both kd [St; Tr] S' (run 5 q a) (run 5 q a')) ->
  both kd [St; Tr] S (run 5 p m) (run 5 p m') -> both kd [St; Tr] S' (run 5 (p ++ q) m) (run 5 (p ++ q) m').
Proof.
  intros Hq Hp. rewrite !run_app. destruct (run 5 p m) as [a|], (run 5 p m') as [a'|]; cbn in Hp; try contradiction; [|exact I].
  apply Hq, Hp.
Qed.
Lemma both_sub S S' a a' : (forall p, In p S' -> In p S) -> both kd [St; Tr] S a a' -> both kd [St; Tr] S' a a'.
Proof. intros H. destruct a, a'; cbn; auto. apply agree_sub, H. Qed.
Lemma in_sub S S' : forallb (fun p => mem_ S (fst p) (snd p)) S' = true -> forall p, In p S' -> In p S.
Proof. intros H p Hp. rewrite forallb_forall in H. specialize (H p Hp). apply mem_In in H. destruct p; exact H. Qed.
Lemma strang_more e oc : separate -> forall dts m m', agree kd [St; Tr] S01 m m' ->
  both kd [St; Tr] [(0, St); (0, Tr)] (run 5 (strang_steps e oc false dts) m) (run 5 (strang_steps e oc false dts) m').
Proof.
  intros HP. pose proof (closed_all kd FH FV G J P vi HP) as C.
  induction dts as [|dt dts IH]; intros m m' A.
  - cbn. apply (agree_sub kd [St; Tr] S01); [|exact A]. intros p [H|[H|[]]]; subst; cbn; tauto.
  - destruct dts as [|dt' dts'].
    + cbn [strang_steps]. eapply both_sub; [|exact (flow_sound kd FH FV G J P vi 5 [St; Tr] _ S01 m m' C A)].
      apply in_sub. destruct e; lazy; reflexivity.
    + change (strang_steps e oc false (dt :: dt' :: dts')) with (strang_step e oc false false dt ++ strang_steps e oc false (dt' :: dts')).
      apply (both_app S01); [exact IH|].
      eapply both_sub; [|exact (flow_sound kd FH FV G J P vi 5 [St; Tr] _ S01 m m' C A)].
      apply in_sub. destruct e; lazy; reflexivity.
Qed.
Theorem C30_strang : forall e oc dts, separate -> history_free 5 (strang_steps e oc true dts).
Proof.
  intros e oc dts HP m m' E. pose proof (closed_all kd FH FV G J P vi HP) as C.
  assert (both kd [St; Tr] [(0, St); (0, Tr)] (run 5 (strang_steps e oc true dts) m) (run 5 (strang_steps e oc true dts) m')) as B.
  { destruct dts as [|dt [|dt' dts']].
    - exact (agree_full kd 0 m m' E).
    - cbn [strang_steps]. eapply both_sub; [|exact (flow_sound kd FH FV G J P vi 5 [St; Tr] _ _ m m' C (agree_full kd 0 m m' E))].
      apply in_sub. destruct e; lazy; reflexivity.
    - change (strang_steps e oc true (dt :: dt' :: dts')) with (strang_step e oc true false dt ++ strang_steps e oc false (dt' :: dts')).
      apply (both_app S01); [intros a a'; apply (strang_more e oc HP)|].
      eapply both_sub; [|exact (flow_sound kd FH FV G J P vi 5 [St; Tr] _ _ m m' C (agree_full kd 0 m m' E))].
      apply in_sub. destruct e; lazy; reflexivity. }
  destruct (run 5 (strang_steps e oc true dts) m) as [r|], (run 5 (strang_steps e oc true dts) m') as [r'|]; cbn in B; try exact B.
  apply (full_agree kd _ 0 r r' B); cbn; tauto.
Qed.
Theorem C30_splitexp : forall ns dt, separate -> history_free 6 (splitexp_step ns dt).
Proof.
  intros ns dt HP m m' E. pose proof (closed_all kd FH FV G J P vi HP) as C.
  assert (forall h k a a', agree kd [St; Tr] [(0, St); (0, Tr)] a a' ->
    both kd [St; Tr] [(0, St); (0, Tr)] (run 6 (small_steps k dt h) a) (run 6 (small_steps k dt h) a')) as K.
  { intros h. induction k as [|k IH]; intros a a' A; [exact A|]. destruct k as [|k].
    - eapply both_sub; [|exact (flow_sound kd FH FV G J P vi 6 [St; Tr] _ _ a a' C A)]. apply in_sub. lazy; reflexivity.
    - change (small_steps (S (S k)) dt h) with (small_step h ++ copy2 4 0 ++ small_steps (S k) dt h). rewrite app_assoc.
      rewrite !run_app. 
      pose proof (flow_sound kd FH FV G J P vi 6 [St; Tr] (small_step h ++ copy2 4 0) _ a a' C A) as B.
      eapply (both_sub _ [(0, St); (0, Tr)]) in B; [|apply in_sub; lazy; reflexivity]. rewrite !run_app in B.
      destruct (run 6 (small_step h) a) as [b|], (run 6 (small_step h) a') as [b'|]; try contradiction; [|exact I].
      destruct (run 6 (copy2 4 0) b), (run 6 (copy2 4 0) b'); try contradiction; [|exact I]. exact (IH _ _ B). }
  unfold splitexp_step. rewrite !run_app.
  pose proof (flow_sound kd FH FV G J P vi 6 [St; Tr] (kguH dt) _ m m' C (agree_full kd 0 m m' E)) as B.
  eapply (both_sub _ [(0, St); (0, Tr)]) in B; [|apply in_sub; lazy; reflexivity].
  destruct (run 6 (kguH dt) m) as [b|], (run 6 (kguH dt) m') as [b'|]; cbn in B; try contradiction; [|exact I].
  specialize (K (dt / INR ns)%R ns b b' B).
  destruct (run 6 (small_steps ns dt (dt / INR ns)) b), (run 6 (small_steps ns dt (dt / INR ns)) b'); cbn in K; try exact K.
  apply (full_agree kd _ 0 _ _ K); cbn; tauto.
Qed.

(** the state variables, for every scheme, when the dynamics of the state
    does not look at the tracers *)
Definition same_state (v w : vec) : Prop := forall x, kd x <> Tracer -> v x = w x.
Definition blind (f : vec -> vec) : Prop := forall v w, same_state v w -> same_state (f v) (f w).
Record passive_tracers : Prop := {
  q_H : blind FH; q_V : blind FV; q_G : blind G; q_J : forall dt, blind (J dt);
  q_vi : match vi with NoVisc => True | Visc2 u => forall dt, blind (u dt)
         | Visc4 u w => (forall dt, blind (u dt)) /\ forall dt, blind (w dt) end }.
Lemma blind_respects f : blind f -> respects kd [St] f.
Proof.
  intros H v w E d [<-|[]] x Hx. apply H; [|destruct (kd x); discriminate].
  intros y Hy. apply (E St); [left; reflexivity|]. destruct (kd y); [reflexivity|reflexivity|congruence].
Qed.
Theorem C30_state : forall n p, separate -> passive_tracers ->
  In (n, p)
    [(4, fun dt => ars222_step dt); (10, fun dt => ars443_step dt); (9, fun dt => ssp3332_step dt);
     (5, fun dt => gark2_step dt); (8, fun dt => ark232_step dt); (14, fun dt => ark4_step dt)] ->
  forall dt m m', same_state (m 0) (m' 0) ->
    match run n (p dt) m, run n (p dt) m' with
    | Some r, Some r' => same_state (r 0) (r' 0)
    | None, None => True
    | _, _ => False
    end.
Proof.
  intros n p HP Q HI dt m m' E.
  assert (closed kd FH FV G J P vi [St]) as C.
  { constructor.
    - apply blind_respects, Q.
    - apply blind_respects, Q.
    - apply blind_respects, Q.
    - intros t. apply blind_respects, Q.
    - destruct Q as [_ _ _ _ Q]. destruct vi; [exact I|intros; apply blind_respects, Q|split; intros; apply blind_respects, Q].
    - intros d v w H x Hx. exact (HP d v w H x Hx). }
  assert (agree kd [St] [(0, St)] m m') as A.
  { intros i d [H|[]] _ x Hx. injection H as <- <-. apply E. destruct (kd x); discriminate. }
  pose proof (flow_sound kd FH FV G J P vi n [St] (p dt) _ m m' C A) as B.
  assert (mem_ (flow [St] (p dt) [(0, St)]) 0 St = true) as M.
  { cbn in HI. repeat (destruct HI as [H|HI]; [injection H as <- <-; lazy; reflexivity|]). destruct HI. }
  apply mem_In in M. destruct (run n (p dt) m) as [r|], (run n (p dt) m') as [r'|]; cbn in B; try exact B.
  intros x Hx. apply (B 0 St M); [left; reflexivity|]. destruct (kd x); [reflexivity|reflexivity|congruence].
Qed.

(** ARK4 never touches the tracers of instance 0 *)
Definition keeps (o : op) : bool :=
  match o with
  | Copy _ t d | Combine _ t d | Post t d => negb (t =? 0) || deqb d St
  | ExplH _ t _ | ExplV _ t _ | Impl _ t _ | ImplTermsExpl _ t _ => negb (t =? 0)
  | After _ t w _ => negb (t =? 0) && negb (w =? 0)
  end.
Lemma keeps_sound n p : forallb keeps p = true -> forall m m', run n p m = Some m' ->
  forall x, kd x = Tracer -> m' 0 x = m 0 x.
Proof.
  induction p as [|o p IH]; intros K m m' R1 x Hx; [injection R1 as <-; reflexivity|].
  cbn [forallb] in K. apply andb_true_iff in K. destruct K as (K1 & K2). cbn [StepModel.run] in R1.
  destruct (exec kd FH FV G J P vi n o m) as [a|] eqn:E; [|discriminate]. rewrite (IH K2 a m' R1 x Hx). clear IH K2 R1.
  assert (forall (mm : Z -> vec) t v, (negb (t =? 0) = true \/ v x = mm 0 x) -> mset mm t v 0 x = mm 0 x) as M.
  { intros mm t v [H|H]; unfold mset; destruct (Z.eqb_spec 0 t) as [<-|]; [discriminate H|reflexivity|exact H|reflexivity]. }
  assert (forall d t v, negb (t =? 0) || deqb d St = true -> negb (t =? 0) = true \/ only kd d v (m t) x = m 0 x) as O.
  { intros d t v H. destruct (Z.eqb_spec t 0) as [->|]; [right|left; reflexivity]. cbn in H. apply deqb_eq in H. subst d.
    unfold only. rewrite Hx. reflexivity. }
  destruct o as [s t d|c t d|s t dt|s t dt|s t dt|s t dt|t d|s t w dt]; cbn [StepModel.exec keeps] in E, K1;
    unfold m_copy, m_combine in E;
    repeat match type of E with (if ?b then _ else _) = _ => destruct b; try discriminate end;
    try (injection E as <-; apply M; first [left; exact K1|exact (O _ _ _ K1)]).
  apply andb_true_iff in K1. destruct K1 as (K1 & K3).
  destruct vi; injection E as <-; rewrite ?M by (left; assumption); reflexivity.
Qed.
Theorem C30_ark4_tracers_never_advanced : forall dt m m', run 14 (ark4_step dt) m = Some m' ->
  forall x, kd x = Tracer -> m' 0 x = m 0 x.
Proof. intros dt. apply keeps_sound. lazy. reflexivity. Qed.
End Steps.
Print Assumptions C28_erk.
Print Assumptions C28_strang.
Print Assumptions C28_splitexp.
Print Assumptions C29_ars232.
Print Assumptions C29_ars343.
Print Assumptions C29_ars222.
Print Assumptions C29_ars443.
Print Assumptions C29_ssp3332.
Print Assumptions C29_gark2.
Print Assumptions C30_erk.
Print Assumptions C30_ars232.
Print Assumptions C30_ars343.
Print Assumptions C30_strang_single.
Print Assumptions C30_strang.
Print Assumptions C30_splitexp.
Print Assumptions C30_state.
Print Assumptions C30_ark4_tracers_never_advanced.

(** ** C28: accuracy *)
Theorem C28_constant : forall {X} e dt (u c : X -> R), e <> SSPRK53 ->
  forall x, erk_spec e (fun _ => c) dt u x = (u x + dt * c x)%R.
Proof. intros X e dt u c. apply erk_const. Qed.
Print Assumptions C28_constant.
Theorem C28_linear : forall {X} l dt (u : X -> R) x, let z := (dt * l)%R in let F := fun (v : X -> R) y => (l * v y)%R in
  erk_spec ForwardEuler F dt u x = ((1 + z) * u x)%R /\
  erk_spec RungeKutta4 F dt u x = ((1 + z + z ^ 2 / 2 + z ^ 3 / 6 + z ^ 4 / 24) * u x)%R /\
  erk_spec RungeKuttaSSP3 F dt u x = ((1 + z + z ^ 2 / 2 + z ^ 3 / 6) * u x)%R /\
  erk_spec KGU35 F dt u x = ((1 + z + z ^ 2 / 2 + z ^ 3 / 6 + z ^ 4 / 30 + z ^ 5 / 150) * u x)%R.
Proof.
  intros X l dt u x z F. split; [apply fe_linear|]. split; [apply rk4_linear|]. split; [apply ssp3_linear|apply kgu_linear].
Qed.
Print Assumptions C28_linear.
(** the tabulated coefficients of SSP-RK(5,3) have 15 decimals *)
Theorem C28_linear_ssprk53 : forall {X} l dt (u : X -> R),
  exists c0 c1 c2 c3 c4 c5 : R,
    (forall x, erk_spec SSPRK53 (fun v y => l * v y)%R dt u x =
       ((c0 + c1 * (dt * l) + c2 * (dt * l) ^ 2 + c3 * (dt * l) ^ 3 + c4 * (dt * l) ^ 4 + c5 * (dt * l) ^ 5) * u x)%R) /\
    (Rabs (c0 - 1) <= 1 / 10 ^ 14 /\ Rabs (c1 - 1) <= 1 / 10 ^ 14 /\
     Rabs (c2 - 1 / 2) <= 1 / 10 ^ 14 /\ Rabs (c3 - 1 / 6) <= 1 / 10 ^ 14 /\
     Rabs c4 <= 1 / 24 /\ Rabs c5 <= 1 / 120)%R.
Proof. intros X. apply ssp53_linear. Qed.
Print Assumptions C28_linear_ssprk53.
Theorem C28_order : (order1 rk4_b /\ order2 rk4_A rk4_b /\ order3 rk4_A rk4_b /\ order4 rk4_A rk4_b) /\
  (order1 ssp3_b /\ order2 ssp3_A ssp3_b /\ order3 ssp3_A ssp3_b) /\
  (order1 kgu_b /\ order2 kgu_A kgu_b /\ order3 kgu_A kgu_b).
Proof.
  destruct rk4_order as (A & B & C & _). split; [|split; [exact ssp3_order|exact kgu_order]].
  split; [exact A|]. split; [exact B|]. split; [exact C|exact rk4_full_order4].
Qed.
Print Assumptions C28_order.
(** a zero tendency changes the state: a row of the tabulated alpha sums to
    1.000000000000001 *)
Theorem C28_ssprk53_refuted : exists (FH FV G P : (unit -> R) -> unit -> R) J m m',
  projection (fun _ => Wind) P /\ (forall v x, FH v x = 0%R) /\
  run (fun _ : unit => Wind) FH FV G J P NoVisc 5 (erk_step SSPRK53 1) m = Some m' /\ m' 0 <> m 0.
Proof.
  assert (projection (fun _ : unit => Wind) idP) as HP.
  { constructor; [intros d v w H x Hx; exact (H x Hx)|reflexivity|reflexivity]. }
  destruct (C28_erk (fun _ : unit => Wind) zeroF zeroF zeroF idJ idP NoVisc SSPRK53 1 (fun _ _ => 1%R) HP eq_refl) as (m' & R1 & E1).
  exists zeroF, zeroF, zeroF, idP, idJ, (fun _ _ => 1%R), m'. split; [exact HP|]. split; [reflexivity|]. split; [exact R1|].
  intros E. rewrite E in E1. pose proof (equal_f E1 tt) as E2. cbn [after_val] in E2. change (fun v : unit -> R => idP (zeroF v)) with (fun (_ : unit -> R) (_ : unit) => 0%R) in E2.
  pose proof (ssp53_zero 1 (fun _ : unit => 1%R) tt) as E3. cbn [erk_spec] in E3. rewrite E3 in E2. lra.
Qed.
Print Assumptions C28_ssprk53_refuted.
Example C28_case : exists m', run ex_kd ex_F ex_F ex_G ex_J ex_P NoVisc 5 (erk_step RungeKutta4 1) (fun _ => ex_u) = Some m'.
Proof. destruct (C28_erk ex_kd ex_F ex_F ex_G ex_J ex_P NoVisc RungeKutta4 1 (fun _ => ex_u) ex_projection ex_fixed) as (m' & A & _). exists m'. exact A. Qed.
Example C28_case_strang : exists m', run ex_kd ex_F ex_F ex_G ex_J ex_P NoVisc 5 (strang_step KGU35 0 true false 1) (fun _ => ex_u) = Some m'.
Proof.
  destruct (C28_strang ex_kd ex_F ex_F ex_G ex_J ex_P NoVisc KGU35 0 true false 1 (fun _ => ex_u) ltac:(lra) ltac:(lra) ex_projection ex_solver ex_fixed ltac:(discriminate)) as (m' & A & _).
  exists m'. exact A.
Qed.

(** ** C29: with tracers, the state follows the tableau for the remaining
    schemes when the dynamics of the state is a system of its own *)
Section Inside.
Context {X Y : Type} (kd : X -> kind) (i : Y -> X).
Context (FH FV G : (X -> R) -> X -> R) (J : R -> (X -> R) -> X -> R) (P : (X -> R) -> X -> R) (vi : @visc X).
Context (FH' FV' G' : (Y -> R) -> Y -> R) (J' : R -> (Y -> R) -> Y -> R) (P' : (Y -> R) -> Y -> R) (vi' : @visc Y).
Notation kd' := (fun y => kd (i y)).
Theorem C29_state_with_tracers : part i FH FV G J P vi FH' FV' G' J' P' vi' -> (forall y, kd (i y) <> Tracer) ->
  projection kd' P' -> solver kd' G' J' P' ->
  forall dt m, (0 <= dt)%R -> P' (res i (m 0)) = res i (m 0) ->
  let F' := Fsum FH' FV' P' in let u := res i (m 0) in
  let follows n p (t : (Y -> R) -> Prop) :=
    exists m' u', run kd FH FV G J P vi n p m = Some m' /\ res i (m' 0) = after_val vi' dt u' /\ t u' in
  follows 4 (ars222_step dt) (ark (ars222_A a222_g a222_d) (ars222_Ah a222_g) (ars222_b a222_d) (ars222_bh a222_g) F' G' dt u) /\
  follows 10 (ars443_step dt) (ark ars443_A ars443_Ah ars443_b ars443_bh F' G' dt u) /\
  follows 9 (ssp3332_step dt) (ark ssp332_A (ssp332_Ah s332_g) ssp332_b ssp332_b F' G' dt u) /\
  follows 5 (gark2_step dt) (gark gark2_EE gark2_EI (gark2_IE gk_g) (gark2_II gk_g) gark2_b (gark2_bh gk_g) F' G' dt u).
Proof.
  intros C K HP HJ dt m Hdt Fu F' u follows.
  assert (forall n p (t : (Y -> R) -> Prop),
    (exists m' u', run kd' FH' FV' G' J' P' vi' n p (mres i m) = Some m' /\ m' 0 = after_val vi' dt u' /\ t u') -> follows n p t) as L.
  { intros n p t (m' & u' & R1 & E1 & T1). rewrite (run_restrict kd i FH FV G J P vi _ _ _ _ _ _ n p m C) in R1.
    destruct (run kd FH FV G J P vi n p m) as [r|] eqn:E; [|discriminate]. injection R1 as <-.
    exists r, u'. split; [exact E|]. split; [exact E1|exact T1]. }
  split; [|split; [|split]]; apply L.
  - exact (C29_ars222 kd' FH' FV' G' J' P' vi' dt (mres i m) Hdt K HP HJ Fu).
  - exact (C29_ars443 kd' FH' FV' G' J' P' vi' dt (mres i m) Hdt K HP HJ Fu).
  - exact (C29_ssp3332 kd' FH' FV' G' J' P' vi' dt (mres i m) Hdt K HP HJ Fu).
  - exact (C29_gark2 kd' FH' FV' G' J' P' vi' dt (mres i m) Hdt K HP HJ Fu).
Qed.
End Inside.
Print Assumptions C29_state_with_tracers.
(** order of the published pairs, with the coupling conditions *)
Theorem C29_order2 :
  ark_order2 (ars222_A a222_g a222_d) (ars222_Ah a222_g) (ars222_b a222_d) (ars222_bh a222_g) /\
  ark_order2 (ars232_A a232_g a232_d) (ars232_Ah a232_g) (ars232_b a232_g) (ars232_bh a232_g) /\
  ark_order2 ars443_A ars443_Ah ars443_b ars443_bh /\
  ark_order2 ssp332_A (ssp332_Ah s332_g) ssp332_b ssp332_b /\
  gark_order2 gark2_EE gark2_EI (gark2_IE gk_g) (gark2_II gk_g) gark2_b (gark2_bh gk_g) /\
  ark_order2 (ark232_A k232_g k232_a) (ark232_Ah k232_g k232_d) (ark232_b k232_g k232_d) (ark232_b k232_g k232_d).
Proof.
  split; [exact (proj2 ars222_order)|]. split; [exact (proj2 ars232_order)|]. split; [apply ars443_order|].
  split; [apply ssp332_order|]. split; [exact (proj2 gark2_order)|exact (proj2 ark232_order)].
Qed.
Print Assumptions C29_order2.
Theorem C29_order3 : ark_order3 ars443_A ars443_Ah ars443_b ars443_bh /\
  (forall g a42 a43, (6 * g ^ 3 - 18 * g ^ 2 + 9 * g - 1 = 0)%R ->
     ark_order3 (ars343_A g (a343_a31 g a42 a43) (a343_a32 g a42 a43) (a343_a41 a42 a43) a42 a43)
       (ars343_Ah g (a343_b1 g) (a343_b2 g)) (ars343_b g (a343_b1 g) (a343_b2 g)) (ars343_b g (a343_b1 g) (a343_b2 g))) /\
  (Rabs (6 * a343_gamma ^ 3 - 18 * a343_gamma ^ 2 + 9 * a343_gamma - 1) <= 1 / 10 ^ 14)%R.
Proof.
  split; [apply ars443_order|]. split; [|exact a343_root]. intros g a42 a43 Q. apply a343_order23, Q.
Qed.
Print Assumptions C29_order3.
(** the conditions at the decimal constant, to 14 digits *)
Theorem C29_ars343_order3_decimal :
  let A := ars343_A a343_gamma (a343_a31 a343_gamma a343_A42 a343_A43) (a343_a32 a343_gamma a343_A42 a343_A43)
             (a343_a41 a343_A42 a343_A43) a343_A42 a343_A43 in
  let Ah := ars343_Ah a343_gamma (a343_b1 a343_gamma) (a343_b2 a343_gamma) in
  let b := ars343_b a343_gamma (a343_b1 a343_gamma) (a343_b2 a343_gamma) in
  (forall M, In M [A; Ah] -> Rabs (dot b (rsums M) - 1 / 2) <= 1 / 10 ^ 14)%R /\
  (forall M N, In M [A; Ah] -> In N [A; Ah] ->
    Rabs (dot b (map (fun p => fst p * snd p) (combine (rsums M) (rsums N))) - 1 / 3) <= 1 / 10 ^ 14 /\
    Rabs (dot b (map (fun a => dot a (rsums N)) M) - 1 / 6) <= 1 / 10 ^ 14)%R.
Proof. exact a343_near. Qed.
Print Assumptions C29_ars343_order3_decimal.
(** ARK(2,3,2) overwrites the initial state in the sub-cycled stage *)
Theorem C29_ark232_refuted : exists (FH FV G P : (unit -> R) -> unit -> R) J m m',
  projection (fun _ => Solved) P /\ solver (fun _ => Solved) G J P /\ P (m 0) = m 0 /\
  run (fun _ : unit => Solved) FH FV G J P NoVisc 8 (ark232_step 1) m = Some m' /\
  ~ ark (ark232_A k232_g k232_a) (ark232_Ah k232_g k232_d) (ark232_b k232_g k232_d) (ark232_b k232_g k232_d)
      (Fsum FH FV P) G 1 (m 0) (m' 0).
Proof.
  destruct ark232_const as (r & R1 & N). exists oneF, zeroF, zeroF, idP, idJ, zero_mem, r.
  split; [constructor; [intros d v w H x Hx; exact (H x Hx)|reflexivity|reflexivity]|].
  split; [constructor; [intros; unfold idJ, zeroF; ring|reflexivity|reflexivity]|]. split; [reflexivity|]. split; [exact R1|].
  intros (Ys & L1 & L2 & _ & H). apply N. rewrite (H tt). destruct Ys as [|Y1 [|Y2 [|Y3 [|? ?]]]]; try discriminate L1.
  unfold ark232_b. cbn [at_ map dot]. unfold Fsum, idP, oneF, zeroF, zero_mem.
  pose proof (proj1 (proj1 ark232_order)) as O. unfold order1, ark232_b in O. cbn [fold_right] in O. lra.
Qed.
Print Assumptions C29_ark232_refuted.
(** ARK4 with a constant tendency 1, no implicit terms, u = 0 and dt = 1 gives
    -1/3 instead of 1 *)
Theorem C29_ark4_refuted : exists (FH FV G P : (unit -> R) -> unit -> R) J m m',
  (forall v x, Fsum FH FV P v x = 1%R) /\ (forall v x, G v x = 0%R) /\ (forall dt v, J dt v = v) /\ m 0 tt = 0%R /\
  run (fun _ : unit => Solved) FH FV G J P NoVisc 14 (ark4_step 1) m = Some m' /\ m' 0 tt = (- 1 / 3)%R.
Proof.
  destruct ark4_const as (r & R1 & N). exists oneF, zeroF, zeroF, idP, idJ, zero_mem, r.
  split; [intros; unfold Fsum, idP, oneF, zeroF; ring|]. split; [reflexivity|]. split; [reflexivity|]. split; [reflexivity|]. split; [exact R1|exact N].
Qed.
Print Assumptions C29_ark4_refuted.
Example C29_case : exists m' u', run ex_kd ex_F ex_F ex_G ex_J ex_P NoVisc 7 (ars232_step 1) (fun _ => ex_u) = Some m' /\
  m' 0 = u' /\ ark (ars232_A a232_g a232_d) (ars232_Ah a232_g) (ars232_b a232_g) (ars232_bh a232_g) (Fsum ex_F ex_F ex_P) ex_G 1 ex_u u'.
Proof. exact (C29_ars232 ex_kd ex_F ex_F ex_G ex_J ex_P NoVisc 1 (fun _ => ex_u) ltac:(lra) ex_projection ex_solver ex_fixed). Qed.
(** the state part of the example is a system of its own *)
Definition ex_i (y : bool) : nat := if y then 0%nat else 1%nat.
Definition ex_H (v : nat -> R) (x : nat) : R := (v x * v x)%R.
Example C29_case_part : part ex_i ex_H ex_H ex_G ex_J ex_P NoVisc
    (fun v y => v y * v y)%R (fun v y => v y * v y)%R (fun v y => - v y)%R (fun dt v y => v y / (1 + dt))%R
    (fun v _ => (v true + v false) / 2)%R NoVisc /\ (forall y, ex_kd (ex_i y) <> Tracer).
Proof.
  split; [constructor; unfold commutes, res; intros; try exact I; extensionality y; destruct y; reflexivity|].
  intros []; discriminate.
Qed.

(** ** C30: the schemes that copy the tracers to the wrong place *)
Theorem C30_stale_tracers_refuted :
  stale 4 (ars222_step 1) /\ stale 10 (ars443_step 1) /\ stale 9 (ssp3332_step 1) /\
  stale 5 (gark2_step 1) /\ stale 8 (ark232_step 1).
Proof. split; [exact st222|]. split; [exact st443|]. split; [exact st3332|]. split; [exact stgark|exact st232]. Qed.
Print Assumptions C30_stale_tracers_refuted.
(** Strang splitting keeps an increment in instance 1 between steps: a run
    that is stopped and restarted from instance 0 (first = true again)
    continues differently *)
Definition dJ (dt : R) (v : unit -> R) (x : unit) : R := (v x / (1 + dt))%R.
Definition dG (v : unit -> R) (x : unit) : R := (- v x)%R.
Lemma d_solver : solver (fun _ : unit => Solved) dG dJ idP.
Proof. constructor; [intros dt v x H; unfold dJ, dG; field; lra|discriminate|reflexivity]. Qed.
Theorem C30_strang_restart_refuted : exists m r1 r2 r1' r2',
  let run := run (fun _ : unit => Solved) zeroF zeroF dG dJ idP NoVisc 5 in
  solver (fun _ => Solved) dG dJ idP /\
  run (strang_step ForwardEuler 0 true false 1) m = Some r1 /\ run (strang_step ForwardEuler 0 false true 1) r1 = Some r2 /\
  run (strang_step ForwardEuler 0 true true 1) m = Some r1' /\ run (strang_step ForwardEuler 0 true true 1) r1' = Some r2' /\
  r1 0 = r1' 0 /\ r2 0 <> r2' 0.
Proof.
  set (K := fun _ : unit => Solved).
  assert (projection K idP) as HP. { constructor; [intros d v w H x Hx; exact (H x Hx)|reflexivity|reflexivity]. }
  pose proof (fun first last m => C28_strang K zeroF zeroF dG dJ idP NoVisc ForwardEuler 0 first last 1 m ltac:(lra) ltac:(lra) HP d_solver eq_refl (fun _ => eq_refl)) as H.
  destruct (H true false (fun _ _ => 1%R)) as (r1 & A1 & B1 & C1).
  destruct (H true true (fun _ _ => 1%R)) as (s1 & A2 & B2 & _).
  destruct (H false true r1) as (r2 & A3 & B3 & _).
  destruct (H true true s1) as (s2 & A4 & B4 & _). clear H.
  specialize (C1 eq_refl tt). specialize (B1 tt). specialize (B2 tt). specialize (B3 tt). specialize (B4 tt).
  unfold after_val, rk, fe_A, fe_b, dJ, idP, zeroF in B1, C1, B2, B3, B4. cbn [rk_slopes at_ map dot app] in B1, C1, B2, B3, B4.
  exists (fun _ _ => 1%R), r1, r2, s1, s2. split; [exact d_solver|]. split; [exact A1|]. split; [exact A3|]. split; [exact A2|]. split; [exact A4|].
  assert (r1 0%Z tt = 4 / 9)%R as E1 by (rewrite B1; field).
  assert (s1 0%Z tt = 4 / 9)%R as E2 by (rewrite B2; field).
  split; [extensionality x; destruct x; congruence|].
  assert (r1 1%Z tt = - 2 / 9)%R as E3 by (rewrite C1, E1; field).
  intros E. rewrite E, B4 in B3. rewrite E1, E2, E3 in B3. lra.
Qed.
Print Assumptions C30_strang_restart_refuted.
Example C30_case : exists m m' r r', m 1 <> m' 1 /\ m 0 = m' 0 /\
  run ex_kd ex_F ex_F ex_G ex_J ex_P NoVisc 7 (ars232_step 1) m = Some r /\
  run ex_kd ex_F ex_F ex_G ex_J ex_P NoVisc 7 (ars232_step 1) m' = Some r' /\ r 0 = r' 0.
Proof.
  set (m := fun i : Z => if i =? 0 then ex_u else fun _ => 5%R). set (m' := fun i : Z => if i =? 0 then ex_u else fun _ => 7%R).
  destruct (C29_ars232 ex_kd ex_F ex_F ex_G ex_J ex_P NoVisc 1 m ltac:(lra) ex_projection ex_solver ex_fixed) as (r & _ & A & _).
  destruct (C29_ars232 ex_kd ex_F ex_F ex_G ex_J ex_P NoVisc 1 m' ltac:(lra) ex_projection ex_solver ex_fixed) as (r' & _ & A' & _).
  exists m, m', r, r'. split; [intros E; pose proof (equal_f E 0%nat) as E'; cbn in E'; lra|]. split; [reflexivity|]. split; [exact A|]. split; [exact A'|].
  pose proof (C30_ars232 ex_kd ex_F ex_F ex_G ex_J ex_P NoVisc 1 (p_sep _ _ ex_projection) m m' eq_refl) as H.
  rewrite A, A' in H. exact H.
Qed.
Example C30_case_passive : passive_tracers ex_kd ex_H ex_H ex_G ex_J NoVisc /\ separate ex_kd ex_P.
Proof.
  split; [|exact (p_sep _ _ ex_projection)].
  constructor; try exact I; repeat intro; unfold ex_H, ex_G, ex_J; rewrite ?(H _ H0); try reflexivity.
Qed.
