(** * C123 the stabilised bi-conjugate gradient step: the value it returns, its search
    and its breakdowns *)
From Coq Require Import ZArith Reals List Lra Lia Psatz.
From Verif Require Import KrylovModel KrylovSpec KrylovProofs BicgModel BicgSpec.
Import ListNotations.
Local Open Scope R_scope.

Section Affine.
Context (F : vec -> vec) (n m : nat) (eps : R) (M : nat -> nat -> R) (c : nat -> R) (HF : equations n M c F).
Let A := A n M.

Lemma A_axpy : forall a x y j, A (axpy a x y) j = A y j + a * A x j.
Proof.
  intros a x y j. unfold A, KrylovProofs.A, axpy. rewrite (sum_ext n _ (fun k => M j k * y k + a * (M j k * x k))) by (intros; ring).
  rewrite sum_plus, sum_scal. ring.
Qed.
Lemma A_ext : forall x y j, (forall k, (k < n)%nat -> x k = y k) -> A x j = A y j.
Proof. intros x y j E. unfold A, KrylovProofs.A. apply sum_ext. intros k L. rewrite E by exact L. reflexivity. Qed.
Lemma image_ok : forall x y, wp True (fun w => eps <> 0 /\ forall j, (j < n)%nat -> w j = A y j) (image F eps x (F x) y).
Proof.
  intros x y. unfold image. destruct (Req_EM_T eps 0) as [E|E]; [exact I|]. cbn [wp]. split; [exact E|]. intros j L.
  rewrite !HF by exact L. change (sum n (fun k => M j k * axpy eps y x k)) with (A (axpy eps y x) j).
  change (sum n (fun k => M j k * x k)) with (A x j). rewrite A_axpy. field. exact E.
Qed.
Lemma F_minus : forall x g j, (j < n)%nat -> F (fun j => x j - g j) j = F x j - A g j.
Proof.
  intros x g j L. rewrite !HF by exact L. change (sum n (fun k => M j k * (x k - g k))) with (A (fun k => x k - g k) j).
  rewrite (A_ext _ (axpy (-1) g x)) by (intros; unfold axpy; ring). rewrite A_axpy. unfold A, KrylovProofs.A. ring.
Qed.
Lemma weight_ok : forall t s, wp True (fun w => (w = 0 /\ forall j, (j < m)%nat -> padded n t j = 0) \/ m = n) (weight n m t s).
Proof.
  intros t s. unfold weight. destruct (Req_EM_T _ 0) as [E|E].
  - cbn [wp]. left. split; [reflexivity|]. rewrite vdot_sum in E.
    assert (forall k, (k <= m)%nat -> 0 <= sum k (fun j => padded n t j * padded n t j) <= 0) as B.
    { assert (forall k d, sum k (fun j => padded n t j * padded n t j) <= sum (k + d) (fun j => padded n t j * padded n t j)) as MO.
      { intros k d. induction d as [|d IH]; [rewrite Nat.add_0_r; lra|]. rewrite Nat.add_succ_r. cbn [sum]. pose proof (Rle_0_sqr (padded n t (k + d)%nat)) as Q. unfold Rsqr in Q. lra. }
      intros k L. split; [apply sum_nonneg; intros j; pose proof (Rle_0_sqr (padded n t j)) as Q; unfold Rsqr in Q; exact Q|].
      specialize (MO k (m - k)%nat). replace (k + (m - k))%nat with m in MO by lia. lra. }
    intros j L. pose proof (B j ltac:(lia)) as B1. pose proof (B (S j) ltac:(lia)) as B2. cbn [sum] in B2. nra.
  - destruct (Nat.eqb_spec m n) as [EM|NM]; cbn [negb]; [|exact I]. destruct (quo _ _); cbn [wp]; auto.
Qed.
Lemma padded_in : forall t j, (j < n)%nat -> padded n t j = t j.
Proof. intros t j L. unfold padded. destruct (Nat.ltb_spec j n); [reflexivity|lia]. Qed.

(** the residual kept along is that of the correction kept along *)
Definition kept (x : vec) (q : pass) : Prop := forall j, (j < n)%nat -> qR q j = F x j - A (qG q) j.
Lemma passage_ok : forall x first q, kept x q -> (n <= m)%nat ->
  wp True (fun '(q', e) => kept x q' /\ e = vdot n (qR q') (qR q')) (passage F n m eps x (F x) first q).
Proof.
  intros x first q K LM. unfold passage. apply wp_bind, wp_quo. intros _. apply wp_bind, wp_quo. intros _. set (p := if first then _ else _).
  apply wp_bind. eapply wp_weaken; [|apply image_ok]. intros v (_ & V). cbv beta.
  apply wp_bind, wp_quo. intros _. set (alpha := vdot n (F x) (qR q) / vdot n (F x) v). set (s := axpy (- alpha) v (qR q)).
  apply wp_bind. eapply wp_weaken; [|apply image_ok]. intros t (_ & T). cbv beta.
  apply wp_bind. eapply wp_weaken; [|apply weight_ok]. intros w W. cbn [wp qR qG]. split; [|reflexivity].
  intros j L. cbn [qR qG]. rewrite !A_axpy. unfold axpy at 1. rewrite padded_in, T by exact L.
  unfold s at 1. unfold axpy at 1. rewrite V, K by exact L. ring.
Qed.
Lemma passages_ok : forall x tol k first q err, kept x q -> (n <= m)%nat -> (forall e, err = Some e -> e = vdot n (qR q) (qR q)) ->
  wp True (fun '(q', err') => kept x q' /\ forall e, err' = Some e -> e = vdot n (qR q') (qR q')) (passages F n m eps x (F x) tol first q err k).
Proof.
  intros x tol k. induction k as [|k IH]; intros first q err K LM E; [cbn; auto|]. cbn [passages].
  apply wp_bind. eapply wp_weaken; [|apply passage_ok; assumption]. intros [q' e] (K' & E'). cbv beta iota.
  destruct (Rlt_dec e tol).
  - cbn [wp]. split; [exact K'|]. intros e0 [= <-]. exact E'.
  - apply IH; [exact K'|exact LM|]. intros e0 [= <-]. exact E'.
Qed.
Lemma start_kept : forall x, kept x (Pass (F x) (fun _ => 0) (fun _ => 0) (fun _ => 0) 1 1 1).
Proof. intros x j L. cbn [qR qG]. unfold A, KrylovProofs.A. rewrite (sum_ext n _ (fun _ => 0)) by (intros; ring). rewrite sum_zero. ring. Qed.
End Affine.

(** ** The value returned is the sum of squared residuals at the new state, for every
    linear system, however many passages were made and whatever the tolerance. *)
Theorem C123_residual : forall F n m eps M c x maxit tol x' e, equations n M c F -> (n <= m)%nat ->
  bicgstab F n m eps x maxit tol = Ok (x', e) -> e = squares n F x'.
Proof.
  intros F n m eps M c x maxit tol x' e HF LM H. unfold bicgstab in H.
  pose proof (passages_ok F n m eps M c HF x tol (Z.to_nat maxit) true _ None (start_kept F n M x) LM ltac:(discriminate)) as P.
  destruct (passages _ _ _ _ _ _ _ _ _ _ _) as [[q err]| | |]; cbn [bind] in H; try discriminate. cbn [wp] in P. destruct P as (K & E).
  destruct err as [e'|]; [|discriminate]. injection H as <- <-. rewrite (E e' eq_refl), vdot_sum. unfold squares. apply sum_ext. intros j L.
  rewrite (F_minus F n M c HF) by exact L. rewrite K by exact L. reflexivity.
Qed.
Print Assumptions C123_residual.

Lemma sum_point : forall n f, (forall j, (j < n)%nat -> f j = 0) -> sum n f = 0.
Proof. intros n f Z. rewrite (sum_ext n f (fun _ => 0)) by exact Z. apply sum_zero. Qed.
Lemma squares_zero : forall n (f : nat -> R), sum n (fun j => f j * f j) = 0 -> forall j, (j < n)%nat -> f j = 0.
Proof.
  intros n. induction n as [|n IH]; intros f E j L; [lia|]. cbn [sum] in E.
  assert (0 <= sum n (fun j => f j * f j)) as P by (apply sum_nonneg; intros k; pose proof (Rle_0_sqr (f k)) as Q; exact Q).
  pose proof (Rle_0_sqr (f n)) as Q. unfold Rsqr in Q. assert (f n * f n = 0) as Z by lra.
  destruct (Nat.eq_dec j n) as [->|N]; [nra|]. apply IH; [lra|lia].
Qed.
Lemma quo_ok : forall a b, b <> 0 -> quo a b = Ok (a / b).
Proof. intros a b N. unfold quo. destruct (Req_EM_T b 0); [contradiction|reflexivity]. Qed.
Lemma quo_nan : forall a, quo a 0 = Nan.
Proof. intros a. unfold quo. destruct (Req_EM_T 0 0) as [_|N]; [reflexivity|contradiction N; reflexivity]. Qed.
Lemma image_value : forall F n eps M c x y, equations n M c F -> eps <> 0 ->
  exists w, image F eps x (F x) y = Ok w /\ forall j, (j < n)%nat -> w j = A n M y j.
Proof.
  intros F n eps M c x y HF NE. pose proof (image_ok F n eps M c HF x y) as K. unfold image in *. destruct (Req_EM_T eps 0); [contradiction|].
  eexists. split; [reflexivity|]. apply K.
Qed.

(** the first passage: the direction is the residual f, then the residual at the
    point reached *)
Lemma first_passage : forall F n m eps M c x, equations n M c F -> eps <> 0 -> (n <= m)%nat ->
  passage F n m eps x (F x) true (Pass (F x) (fun _ => 0) (fun _ => 0) (fun _ => 0) 1 1 1) =
  (if Req_EM_T (energy n M (F x)) 0 then Nan else
   let a := sum n (fun j => F x j * F x j) / energy n M (F x) in
   match image F eps x (F x) (F x) with
   | Ok v => let s := axpy (- a) v (F x) in
     match image F eps x (F x) s with
     | Ok t => w <- weight n m t s ;;
         Ok (Pass (axpy (- w) (padded n t) s) (F x) v (axpy w s (axpy a (F x) (fun _ => 0))) (sum n (fun j => F x j * F x j)) a w,
             vdot n (axpy (- w) (padded n t) s) (axpy (- w) (padded n t) s))
     | _ => Nan
     end
   | _ => Nan
   end).
Proof.
  intros F n m eps M c x HF NE LM. unfold passage. cbn [qR qRho qAlpha qOmega qP qV qG].
  rewrite (quo_ok _ 1) by lra. cbn [bind]. rewrite (quo_ok _ 1) by lra. cbn [bind].
  destruct (image_value F n eps M c x (F x) HF NE) as (v & EV & V). rewrite EV. cbn [bind].
  assert (vdot n (F x) v = energy n M (F x)) as D.
  { rewrite vdot_sum. unfold energy. apply sum_ext. intros j L. rewrite V by exact L. reflexivity. }
  rewrite D, vdot_sum. unfold quo at 1. destruct (Req_EM_T (energy n M (F x)) 0); [reflexivity|]. cbn [bind].
  match goal with |- context [image F eps x (F x) ?s] => destruct (image_value F n eps M c x s HF NE) as (t & ET & T) end.
  rewrite ET. cbn [bind]. reflexivity.
Qed.

(** ** One passage: the step goes along the residual and then along the residual
    found there, as far as makes the result least. *)
Theorem C123_search : forall F n eps M c x tol x' e, equations n M c F -> eps <> 0 ->
  bicgstab F n n eps x 1 tol = Ok (x', e) ->
  energy n M (F x) <> 0 /\
  let a := squares n F x / energy n M (F x) in
  let y := fun j => x j - a * F x j in
  (exists w, forall j, (j < n)%nat -> x' j = y j - w * F y j) /\
  (forall w, e <= squares n F (fun j => y j - w * F y j)).
Proof.
  intros F n eps M c x tol x' e HF NE H. unfold bicgstab in H. change (Z.to_nat 1) with 1%nat in H. cbn [passages] in H.
  rewrite (first_passage F n n eps M c x HF NE (le_n n)) in H. destruct (Req_EM_T (energy n M (F x)) 0) as [|NZ]; [discriminate|].
  split; [exact NZ|]. cbv zeta in H |- *. set (a := sum n (fun j => F x j * F x j) / energy n M (F x)) in *. change (squares n F x / energy n M (F x)) with a.
  destruct (image_value F n eps M c x (F x) HF NE) as (v & EV & V). rewrite EV in H. set (s := axpy (- a) v (F x)) in *.
  destruct (image_value F n eps M c x s HF NE) as (t & ET & T). rewrite ET in H.
  set (y := fun j => x j - a * F x j). assert (forall j, (j < n)%nat -> F y j = s j) as ES.
  { intros j L. unfold y. rewrite (F_minus F n M c HF x (fun j => a * F x j)) by exact L. unfold s, axpy. rewrite V by exact L.
    assert (A n M (fun j => a * F x j) j = a * A n M (F x) j) as ->; [|ring].
    unfold A. rewrite <- sum_scal. apply sum_ext. intros; ring. }
  assert (forall w j, (j < n)%nat -> F (fun j => y j - w * F y j) j = s j - w * t j) as EW.
  { intros w j L. rewrite (F_minus F n M c HF y (fun j => w * F y j)) by exact L. rewrite ES by exact L. rewrite T by exact L.
    unfold Rminus. do 2 f_equal. unfold A. rewrite <- sum_scal. apply sum_ext. intros k Lk. rewrite ES by exact Lk. ring. }
  assert (forall w, squares n F (fun j => y j - w * F y j) = sum n (fun j => s j * s j) - 2 * w * sum n (fun j => t j * s j) + w * w * sum n (fun j => t j * t j)) as Q.
  { intros w. unfold squares. rewrite (sum_ext n _ (fun j => s j * s j + ((-2 * w) * (t j * s j) + (w * w) * (t j * t j)))) by (intros j L; rewrite EW by exact L; ring).
    rewrite !sum_plus, !sum_scal. ring. }
  assert (sum n (fun j => padded n t j * padded n t j) = sum n (fun j => t j * t j)) as PT.
  { apply sum_ext. intros j L. rewrite padded_in by exact L. reflexivity. }
  assert (exists w, weight n n t s = Ok w /\ (sum n (fun j => t j * t j) = 0 \/ w * sum n (fun j => t j * t j) = sum n (fun j => t j * s j))) as (w & EWT & OW).
  { unfold weight. rewrite vdot_sum, PT, Nat.eqb_refl. cbn [negb]. destruct (Req_EM_T (sum n (fun j => t j * t j)) 0) as [Z|NT]; [exists 0; auto|].
    rewrite quo_ok by exact NT. eexists. split; [reflexivity|]. right. rewrite vdot_sum. field. exact NT. }
  rewrite EWT in H. cbn [bind] in H. destruct (Rlt_dec _ tol); injection H as <- <-;
  (split;
   [exists w; intros j L; cbn [qG]; unfold y, axpy; rewrite <- ES by exact L; unfold y; ring|];
   intros w'; rewrite Q, vdot_sum;
   rewrite (sum_ext n _ (fun j => s j * s j + ((-2 * w) * (t j * s j) + (w * w) * (t j * t j)))) by (intros j L; unfold axpy; rewrite padded_in by exact L; ring);
   rewrite !sum_plus, !sum_scal;
   pose proof (sum_nonneg n (fun j => t j * t j) (fun k => Rle_0_sqr (t k))) as NT;
   destruct OW as [Z|Z];
   [assert (sum n (fun j => t j * s j) = 0) as -> by (apply sum_point; intros j L; rewrite (squares_zero n t Z j L); ring); rewrite Z; lra
   |rewrite <- Z; clear - NT; pose proof (Rle_0_sqr (w - w')) as S2; unfold Rsqr in S2; nra]).
Qed.
Print Assumptions C123_search.

(** ** One equation is solved in one passage, whatever the limit on passages and a
    positive tolerance. *)
Theorem C123_single : forall F eps a b x maxit tol, (forall x, F x 0%nat = b + a * x 0%nat) -> a <> 0 -> eps <> 0 -> F x 0%nat <> 0 ->
  (1 <= maxit)%Z -> 0 < tol ->
  exists x', bicgstab F 1 1 eps x maxit tol = Ok (x', 0) /\ F x' 0%nat = 0 /\ x' 0%nat = - b / a.
Proof.
  intros F eps a b x maxit tol E NA NE NF LM LT.
  assert (equations 1 (fun _ _ => a) (fun _ => b) F) as HF. { intros y j L. assert (j = 0%nat) as -> by lia. cbn [sum]. rewrite E. ring. }
  assert (exists x' e, bicgstab F 1 1 eps x maxit tol = Ok (x', e) /\ e = 0) as (x' & e & H & ->).
  { unfold bicgstab. destruct (Z.to_nat maxit) as [|k] eqn:EK; [lia|]. cbn [passages].
    rewrite (first_passage F 1 1 eps _ _ x HF NE (le_n 1)).
    destruct (image_value F 1 eps _ _ x (F x) HF NE) as (v & EV & V). rewrite EV.
    specialize (V 0%nat ltac:(lia)). unfold A in V. cbn [sum] in V. unfold energy. cbn [sum].
    destruct (Req_EM_T (0 + F x 0%nat * (0 + a * F x 0%nat)) 0) as [Z|_].
    { exfalso. assert (a * (F x 0%nat * F x 0%nat) = 0) as Z' by lra. apply Rmult_integral in Z'. destruct Z' as [Z'|Z']; [contradiction|]. apply Rmult_integral in Z'. tauto. }
    cbv zeta. set (s := axpy _ v (F x)). destruct (image_value F 1 eps _ _ x s HF NE) as (t & ET & T). rewrite ET.
    specialize (T 0%nat ltac:(lia)). unfold A in T. cbn [sum] in T.
    assert (s 0%nat = 0) as S0. { unfold s, axpy. rewrite V. field. split; assumption. }
    rewrite S0 in T. assert (t 0%nat = 0) as T0 by lra.
    unfold weight. rewrite vdot_sum. cbn [sum]. rewrite padded_in by lia. rewrite T0. destruct (Req_EM_T (0 + 0 * 0) 0) as [_|N]; [|exfalso; apply N; ring].
    cbn [bind]. assert (vdot 1 (axpy (- 0) (padded 1 t) s) (axpy (- 0) (padded 1 t) s) = 0) as ->.
    { rewrite vdot_sum. cbn [sum]. unfold axpy. rewrite padded_in, T0, S0 by lia. ring. }
    destruct (Rlt_dec 0 tol) as [_|N]; [|contradiction]. eexists. eexists. split; reflexivity. }
  exists x'. split; [exact H|]. pose proof (C123_residual F 1 1 eps _ _ x maxit tol x' 0 HF (le_n 1) H) as Q. unfold squares in Q. cbn [sum] in Q.
  assert (F x' 0%nat = 0) as Z by nra. split; [exact Z|]. rewrite E in Z. field_simplify_eq; [|exact NA]. lra.
Qed.
Print Assumptions C123_single.

(** ** Breakdown.  Whenever the residual is orthogonal to its own image the step makes
    values that are not finite; so it does, in particular, when the state it is
    started from already solves the equations, and for every equation whose matrix is
    that of a rotation by a right angle. *)
Theorem C123_refuted : forall F n m eps M c x maxit tol, equations n M c F -> eps <> 0 -> (n <= m)%nat -> (1 <= maxit)%Z ->
  energy n M (F x) = 0 -> bicgstab F n m eps x maxit tol = Nan.
Proof.
  intros F n m eps M c x maxit tol HF NE LM L Z. unfold bicgstab. destruct (Z.to_nat maxit) as [|k] eqn:EK; [lia|]. cbn [passages].
  rewrite (first_passage F n m eps M c x HF NE LM). destruct (Req_EM_T _ 0); [reflexivity|contradiction].
Qed.
Print Assumptions C123_refuted.
Theorem C123_solved_refuted : forall F n m eps M c x maxit tol, equations n M c F -> eps <> 0 -> (n <= m)%nat -> (1 <= maxit)%Z ->
  (forall j, (j < n)%nat -> F x j = 0) -> bicgstab F n m eps x maxit tol = Nan.
Proof.
  intros F n m eps M c x maxit tol HF NE LM L Z. apply (C123_refuted F n m eps M c); try assumption. unfold energy. apply sum_point.
  intros j Lj. rewrite (Z j Lj). ring.
Qed.
Print Assumptions C123_solved_refuted.

(** With no passage allowed the value returned was never assigned. *)
Theorem C123_unassigned : forall F n m eps x maxit tol, (maxit <= 0)%Z -> bicgstab F n m eps x maxit tol = Undef.
Proof. intros F n m eps x maxit tol L. unfold bicgstab. replace (Z.to_nat maxit) with 0%nat by lia. reflexivity. Qed.
Print Assumptions C123_unassigned.

(** The step never signals that it has not converged: where the work arrays have as
    many entries as there are equations no exception is thrown. *)
Theorem C123_silent : forall F n eps x maxit tol, bicgstab F n n eps x maxit tol <> Throw.
Proof.
  intros F n eps x maxit tol H.
  assert (forall fx first q, passage F n n eps x fx first q <> Throw) as P.
  { intros fx first q E. unfold passage, image, weight, quo in E. rewrite Nat.eqb_refl in E. cbn [negb] in E. repeat (destruct (Req_EM_T _ 0); cbn [bind] in E; try discriminate). }
  assert (forall k fx first q err, passages F n n eps x fx tol first q err k <> Throw) as PS.
  { intros k. induction k as [|k IH]; intros fx first q err E; [discriminate|]. cbn [passages] in E. destruct (passage _ _ _ _ _ _ _ _) as [[q' e]| | |] eqn:EP; cbn [bind] in E; try discriminate; [|exact (P _ _ _ EP)].
    destruct (Rlt_dec e tol); [discriminate|]. exact (IH _ _ _ _ E). }
  unfold bicgstab in H. destruct (passages _ _ _ _ _ _ _ _ _ _ _) as [[q [e|]]| | |] eqn:EP; cbn [bind] in H; try discriminate. exact (PS _ _ _ _ _ EP).
Qed.
Print Assumptions C123_silent.

(** Where they have more, which InitializeJFNK allows, the step either throws or has
    solved the equations exactly. *)
Theorem C123_restart : forall F n m eps M c x maxit tol x' e, equations n M c F -> injective n M -> (n < m)%nat ->
  bicgstab F n m eps x maxit tol = Ok (x', e) -> e = 0 /\ forall j, (j < n)%nat -> F x' j = 0.
Proof.
  intros F n m eps M c x maxit tol x' e HF IN LM H.
  assert (forall first q, wp True (fun '(q', e) => e = 0) (passage F n m eps x (F x) first q)) as P.
  { intros first q. unfold passage. apply wp_bind, wp_quo. intros _. apply wp_bind, wp_quo. intros _.
    apply wp_bind. eapply wp_weaken; [|apply (image_ok F n eps M c HF)]. intros v _. cbv beta. apply wp_bind, wp_quo. intros _. set (s := axpy _ v (qR q)).
    apply wp_bind. eapply wp_weaken; [|apply (image_ok F n eps M c HF)]. intros t (_ & T). cbv beta.
    apply wp_bind. eapply wp_weaken; [|apply weight_ok]. intros w [(-> & Z)|E]; [|lia]. cbn [wp]. rewrite vdot_sum. apply sum_point. intros j L.
    assert (s j = 0) as S0. { apply IN; [|exact L]. intros i Li. specialize (Z i ltac:(lia)). rewrite padded_in in Z by exact Li. rewrite T in Z by exact Li. exact Z. }
    unfold axpy. rewrite S0. ring. }
  assert (forall k first q err, (forall e, err = Some e -> e = 0) -> wp True (fun '(q', err') => forall e, err' = Some e -> e = 0) (passages F n m eps x (F x) tol first q err k)) as PS.
  { intros k. induction k as [|k IH]; intros first q err E; [exact E|]. cbn [passages]. apply wp_bind. eapply wp_weaken; [|apply P]. intros [q' e'] ->. cbv beta iota.
    destruct (Rlt_dec 0 tol); [cbn [wp]; congruence|]. apply IH. congruence. }
  pose proof (C123_residual F n m eps M c x maxit tol x' e HF (Nat.lt_le_incl _ _ LM) H) as Q.
  assert (e = 0) as E0.
  { unfold bicgstab in H. specialize (PS (Z.to_nat maxit) true (Pass (F x) (fun _ => 0) (fun _ => 0) (fun _ => 0) 1 1 1) None ltac:(discriminate)).
    destruct (passages _ _ _ _ _ _ _ _ _ _ _) as [[q [e'|]]| | |]; cbn [bind] in H; try discriminate. injection H as _ <-. apply PS. reflexivity. }
  split; [exact E0|]. apply squares_zero. unfold squares in Q. lra.
Qed.
Print Assumptions C123_restart.

(** ** Cases: two equations, x + y = 3 and -x + 2 y = 0 shifted to start from zero, and
    the rotation by a right angle. *)
Definition two : vec -> vec := fun x j => match j with O => x 0%nat + x 1%nat - 3 | _ => 2 * x 1%nat - x 0%nat end.
Definition two_m : nat -> nat -> R := fun j k => match j, k with O, _ => 1 | _, O => -1 | _, _ => 2 end.
Definition two_c : nat -> R := fun j => match j with O => -3 | _ => 0 end.
Lemma two_ok : equations 2 two_m two_c two.
Proof. intros x j L. destruct j as [|[|j]]; [| |lia]; cbn [sum two two_m two_c]; ring. Qed.
Lemma two_injective : injective 2 two_m.
Proof.
  intros y Z j L. pose proof (Z 0%nat ltac:(lia)) as Z0. pose proof (Z 1%nat ltac:(lia)) as Z1. cbn [sum two_m] in Z0, Z1.
  destruct j as [|[|j]]; [lra|lra|lia].
Qed.
Example C123_case : exists x' e, bicgstab two 2 2 1 (fun _ => 0) 1 1 = Ok (x', e) /\ 0 < e /\ energy 2 two_m (two (fun _ => 0)) = 9.
Proof.
  assert (energy 2 two_m (two (fun _ => 0)) = 9) as EN by (unfold energy; cbn [sum two two_m]; ring).
  assert (exists q e, passages two 2 2 1 (fun _ => 0) (two (fun _ => 0)) 1 true (Pass (two (fun _ => 0)) (fun _ => 0) (fun _ => 0) (fun _ => 0) 1 1 1) None 1 = Ok (q, Some e) /\ 0 < e) as (q & e & P & PE).
  { cbn [passages]. rewrite (first_passage two 2 2 1 two_m two_c _ two_ok R1_neq_R0 (le_n 2)). rewrite EN. destruct (Req_EM_T 9 0) as [Z|_]; [lra|]. cbv zeta.
    unfold image. destruct (Req_EM_T 1 0) as [Z|_]; [lra|]. cbv zeta.
    match goal with |- context [weight 2 2 ?t0 ?s0] => set (s := s0) end.
    match goal with |- context [weight 2 2 ?t0 s] => set (t := t0) end.
    assert (s 0%nat = 0) as S0 by (unfold s, axpy; cbn [sum two]; field).
    assert (s 1%nat = -3) as S1 by (unfold s, axpy; cbn [sum two]; field).
    assert (t 0%nat = -3) as T0. { unfold t, axpy. cbn [two]. rewrite S0, S1. field. }
    assert (t 1%nat = -6) as T1. { unfold t, axpy. cbn [two]. rewrite S0, S1. field. }
    clearbody s t. assert (weight 2 2 t s = Ok (2 / 5)) as ->.
    { unfold weight. rewrite !vdot_sum. cbn [sum]. rewrite !padded_in by lia. rewrite T0, T1, S0, S1, Nat.eqb_refl. cbn [negb].
      destruct (Req_EM_T _ 0) as [Z|N]; [lra|]. rewrite quo_ok by exact N. f_equal. field. }
    cbn [bind]. assert (vdot 2 (axpy (- (2 / 5)) (padded 2 t) s) (axpy (- (2 / 5)) (padded 2 t) s) = 9 / 5) as ->.
    { rewrite vdot_sum. cbn [sum]. unfold axpy. rewrite !padded_in by lia. rewrite S0, S1, T0, T1. field. }
    destruct (Rlt_dec (9 / 5) 1) as [L|L]; eexists; eexists; (split; [reflexivity|lra]). }
  eexists. exists e. unfold bicgstab. change (Z.to_nat 1) with 1%nat. rewrite P. cbn [bind]. split; [reflexivity|]. split; [exact PE|exact EN].
Qed.
Example C123_rotation_case : let F := fun (x : vec) j => match j with O => x 1%nat - 1 | _ => - x 0%nat end in
  equations 2 (fun j k => match j, k with O, O => 0 | O, _ => 1 | _, O => -1 | _, _ => 0 end) (fun j => match j with O => -1 | _ => 0 end) F /\
  F (fun _ => 0) 0%nat = -1 /\ F (fun j => match j with O => 0 | _ => 1 end) 0%nat = 0 /\ F (fun j => match j with O => 0 | _ => 1 end) 1%nat = 0 /\
  energy 2 (fun j k => match j, k with O, O => 0 | O, _ => 1 | _, O => -1 | _, _ => 0 end) (F (fun _ => 0)) = 0.
Proof.
  cbv zeta. split; [|split; [ring|split; [ring|split; [ring|unfold energy; cbn [sum]; ring]]]].
  intros x j L. destruct j as [|[|j]]; [| |lia]; cbn [sum]; ring.
Qed.
