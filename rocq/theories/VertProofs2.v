(** * Proofs about the vertical step: budgets, Newton step, rest, derivative *)
From Coq Require Import Reals List Arith Bool Lia Lra ZArith.
From Verif Require Import ColModel ColSpec ColProofs FluxModel VertModel VertSpec VertProofs.
From Verif Require PhysModel.
Import ListNotations.
Local Open Scope R_scope.

(** ** budgets *)
Section Budget.
Context (S : settings) (O : operators) (Q : column) (om : nat -> R).
Local Notation K := (rlev S).
Definition jac_ok : Prop := forall k, (k < K)%nat -> jn Q k <> 0.
(** the Jacobian does not vary along the column where upwinding needs it, and the
    quantity is not diffused towards the reference state *)
Definition unforced (c : comp) : Prop :=
  (upw S c = false \/ forall k, (k < K)%nat -> jn Q k = jn Q 0%nat) /\ (c = FP -> uni S FP = false).

Lemma flux_ends fe X : flux_e S O Q fe X 0 = 0 /\ flux_e S O Q fe X K = 0.
Proof. unfold flux_e. rewrite Nat.ltb_irrefl, andb_false_r. split; reflexivity. Qed.
Lemma content_tendency X c : telescopes K om (d_en O) -> jac_ok -> on_levels S = false -> scalar c = true ->
  content K om (jn Q) (tendency S O Q X c) =
  - (if upw S c then content K om (jn Q) (pen S O (xie S O Q X) (X c)) else 0)
  - (match c with FP => if uni S FP then sdiff S / (ztop S * ztop S) * content K om (jn Q) (dup O Q X) else 0 | _ => 0 end).
Proof.
  intros T HJ HL Hc.
  assert (E : forall fe, content K om (jn Q) (fun k => apply1 (d_en O) (flux_e S O Q fe X) k * (1 / jn Q k)) = 0).
  { intros fe. destruct (flux_ends fe X). apply content_flux; assumption. }
  destruct c; try discriminate.
  - rewrite (content_ext _ _ _ _ (fun k => apply1 (d_en O) (flux_e S O Q (pe O X) X) k * (1 / jn Q k) -
      (if uni S FP then sdiff S / (ztop S * ztop S) * dup O Q X k else 0) - (if upw S FP then pen S O (xie S O Q X) (X FP) k else 0))).
    + rewrite !content_minus, E. assert (C0 : content K om (jn Q) (fun _ => 0) = 0) by (apply content_zero; reflexivity).
      destruct (uni S FP), (upw S FP); rewrite ?(content_scal _ _ _ (sdiff S / (ztop S * ztop S)) (dup O Q X)), ?C0; unfold content; ring.
    + intros k Hk. unfold tendency. destruct (Nat.ltb_spec k K); [|lia]. unfold div_flux. rewrite HL. reflexivity.
  - rewrite (content_ext _ _ _ _ (fun k => apply1 (d_en O) (flux_e S O Q (re O X) X) k * (1 / jn Q k) -
      (if upw S FR then pen S O (xie S O Q X) (X FR) k else 0))).
    + rewrite !content_minus, E. assert (C0 : content K om (jn Q) (fun _ => 0) = 0) by (apply content_zero; reflexivity).
      destruct (upw S FR); rewrite ?C0; unfold content; ring.
    + intros k Hk. unfold tendency. destruct (Nat.ltb_spec k K); [|lia]. unfold div_flux. rewrite HL. reflexivity.
Qed.
Lemma content_build X c : content K om (jn Q) (build_f S O Q X c) =
  content K om (jn Q) (tendency S O Q X c) + (content K om (jn Q) (X c) - content K om (jn Q) (start Q c)) * (1 / dt S).
Proof.
  rewrite (content_ext _ _ _ _ (fun k => tendency S O Q X c k + 1 / dt S * (X c k - start Q c k))) by (intros; unfold build_f; ring).
  rewrite content_plus, content_scal, content_minus. ring.
Qed.
Lemma content_unforced X c : telescopes K om (d_en O) -> redistributes K om (pnl O) -> jac_ok -> on_levels S = false -> scalar c = true -> unforced c ->
  content K om (jn Q) (tendency S O Q X c) = 0.
Proof.
  intros T Rd HJ HL Hc (U1 & U2). rewrite content_tendency by assumption.
  assert (E : (if upw S c then content K om (jn Q) (pen S O (xie S O Q X) (X c)) else 0) = 0).
  { destruct (upw S c) eqn:Eu; [|reflexivity]. destruct U1 as [U1|U1]; [congruence|]. unfold pen. apply content_pen; assumption. }
  rewrite E. destruct c; try discriminate; [rewrite U2 by reflexivity|]; ring.
Qed.
(** one Newton step from the start *)
Lemma content_newton d c : telescopes K om (d_en O) -> redistributes K om (pnl O) -> pen_fits S (pnl O) -> reads_edges S O -> jac_ok -> on_levels S = false -> dt S <> 0 ->
  scalar c = true -> unforced c -> (forall k, (k < K)%nat -> row_dot (jacobian S O Q (start Q)) d c k = build_f S O Q (start Q) c k) ->
  content K om (jn Q) (d c) = 0.
Proof.
  intros T Rd Pf Re HJ HL Hd Hc U HS.
  pose proof (content_build (start Q) c) as E. rewrite (content_unforced (start Q) c) in E by assumption.
  rewrite <- (content_ext _ _ _ _ _ HS) in E.
  rewrite (content_ext _ _ _ _ (fun k =>
    apply1 (d_en O) (fun m => je Q m * (dxi S Q d m * apply1 (i_ne O) (start Q c) m + xie S O Q (start Q) m * apply1 (i_ne O) (d c) m)) k * (1 / jn Q k)
    - (if upw S c then pen_row S O (xie S O Q (start Q)) (sign_weight Q (xie S O Q (start Q))) (start Q c) (d c) (d FW) k else 0) + 1 / dt S * d c k)) in E.
  2:{ intros k Hk. rewrite dot_scalar by assumption. ring. }
  rewrite content_plus, content_minus, content_scal in E.
  rewrite content_flux in E; [|exact T|exact HJ|rewrite (xie_end S O Q) by lia; unfold dxi; cbn; ring|].
  2:{ rewrite (xie_end S O Q) by lia. unfold dxi. rewrite Nat.ltb_irrefl, andb_false_r. ring. }
  assert (Z0 : content K om (jn Q) (fun k => if upw S c then pen_row S O (xie S O Q (start Q)) (sign_weight Q (xie S O Q (start Q))) (start Q c) (d c) (d FW) k else 0) = 0).
  { destruct U as (U1 & _). destruct (upw S c) eqn:Eu; [|apply content_zero; reflexivity]. destruct U1 as [U1|U1]; [congruence|].
    rewrite (content_ext _ _ _ _ _ (fun k Hk => pen_row_pen S O _ _ _ _ _ k Pf Hk)). rewrite content_plus, !content_pen by assumption. ring. }
  rewrite Z0 in E. apply (Rmult_eq_reg_l (1 / dt S)); [rewrite Rmult_0_r; lra|]. unfold Rdiv. rewrite Rmult_1_l. apply Rinv_neq_0_compat, Hd.
Qed.

(** ** rest *)
Lemma rest_scalar c k : at_rest K Q -> scalar c = true -> (c = FP -> uni S FP = true -> forall l, start Q FP l = ref_p Q l) ->
  build_f S O Q (start Q) c k = 0.
Proof.
  intros (Hu & Hv & Hw) Hc Hr.
  assert (Xe : forall m, xie S O Q (start Q) m = 0).
  { intros m. unfold xie, ue, ve. rewrite !ap_zero by assumption. rewrite Hw. destruct (_ && _); ring. }
  assert (Xn : forall m, xin O Q (start Q) m = 0).
  { intros m. unfold xin, wn. rewrite ap_zero by assumption. rewrite Hu, Hv. ring. }
  assert (D : forall f fe, div_flux S O Q f fe (start Q) k = 0).
  { intros f fe. unfold div_flux. destruct (on_levels S); rewrite ap_zero; try ring.
    - intros l. unfold flux_n. rewrite Xn. ring.
    - intros l. unfold flux_e. rewrite Xe. destruct (_ && _); ring. }
  assert (P : forall f, pen S O (xie S O Q (start Q)) f k = 0).
  { intros f. unfold pen, pen_apply. destruct (pops (pnl O)) as [[L Rt]|]; [|reflexivity].
    assert (W0 : forall a, weights S (xie S O Q (start Q)) a = 0) by (intros a; unfold weights; rewrite Xe; apply Rabs_R0).
    assert (G : forall A m (g : nat -> nat -> R) (wi : nat -> nat) l (out : nat -> R), (forall i, out i = 0) ->
      forall i, fold_left (fun mm a => fold_left (fun mm i => add_at mm (a * m + i) (apply1 A f (a * m + i) * weights S (xie S O Q (start Q)) (wi a))) (seq 0 m) mm) l out i = 0).
    { intros A m _ wi. induction l as [|a l IH]; intros out H0 i; cbn [fold_left]; [apply H0|]. apply IH. clear IH i.
      generalize (seq 0 m). intros l1. revert out H0. induction l1 as [|b l1 IH]; intros out H0 i; cbn [fold_left]; [apply H0|]. apply IH. intros j. unfold add_at.
      rewrite W0. destruct (_ =? _)%nat; rewrite H0; ring. }
    cbv zeta. apply (G Rt (pord (pnl O)) (fun _ _ => 0) (fun a => (a - 1)%nat)). intros i.
    apply (G L (pord (pnl O)) (fun _ _ => 0) (fun a => a)). reflexivity. }
  unfold build_f. replace (start Q c k - start Q c k) with 0 by ring. destruct c; try discriminate; unfold tendency; rewrite D, P.
  - assert (U : (if uni S FP then sdiff S / (ztop S * ztop S) * dup O Q (start Q) k else 0) = 0).
    { destruct (uni S FP) eqn:E; [|reflexivity]. unfold dup. rewrite (ap_ext _ (start Q FP) (ref_p Q)) by (intros; apply Hr; reflexivity). ring. }
    rewrite U. destruct (_ <? _)%nat, (upw S FP); ring.
  - destruct (_ <? _)%nat, (upw S FR); ring.
Qed.
Lemma rest_velocity k : at_rest K Q -> (uni S FW = true -> forall l, ref_w Q l = 0) ->
  build_f S O Q (start Q) FW k =
  if ((k =? 0) || (k =? K))%bool%nat then 0
  else dpe S O (start Q) k * pe O (start Q) k / re O (start Q) k + PhysModel.g (phys S) * dr Q k.
Proof.
  intros (Hu & Hv & Hw) Hr. unfold build_f, tendency, inner. replace (start Q FW k - start Q FW k) with 0 by ring.
  destruct (_ || _) eqn:Ek; [ring|].
  assert (Dw : apply1 (dd_ee O) (start Q FW) k = 0) by (apply ap_zero; assumption).
  assert (Wn : forall l, wn O (start Q) l = 0) by (intros l; unfold wn; apply ap_zero; assumption).
  assert (Kn : apply1 (d_ne O) (kin O Q (start Q)) k = 0).
  { apply ap_zero. intros l. unfold kin. rewrite Hu, Hv, Wn. ring. }
  assert (Cu : curl O Q (start Q) k = 0).
  { unfold curl, ue, ve, dua, dub. rewrite !ap_zero by assumption. rewrite Hw. ring. }
  unfold w_force. rewrite Kn, Cu.
  assert (U1 : (if uni S FW then vdiff S / (ztop S * ztop S) * duw S O Q (start Q) k else 0) = 0).
  { destruct (uni S FW) eqn:E; [|reflexivity]. unfold duw, inner. rewrite Ek, Dw, ap_zero by (apply Hr; reflexivity). ring. }
  assert (U2 : (if upw S FW then ucoef S * Rabs (xie S O Q (start Q) k) * ddw S O (start Q) k else 0) = 0).
  { destruct (upw S FW); [|reflexivity]. unfold ddw, inner. rewrite Ek, Dw. ring. }
  rewrite U1, U2. ring.
Qed.
End Budget.

(** ** derivatives at zero *)
Definition D0 (f : R -> R) (d : R) : Prop := derivable_pt_lim f 0 d.
Lemma D0_ext f g d d' : (forall t, g t = f t) -> d' = d -> D0 f d -> D0 g d'.
Proof.
  unfold D0. intros E -> H eps He. destruct (H eps He) as (de & Hd). exists de. intros h H0 H1. rewrite !E. apply Hd; assumption.
Qed.
Lemma D0_const c : D0 (fun _ => c) 0.
Proof. apply derivable_pt_lim_const. Qed.
Lemma D0_aff a b : D0 (fun t => a + t * b) b.
Proof.
  apply (D0_ext (plus_fct (fun _ => a) (mult_real_fct b id)) _ (0 + b * 1)); [intros; unfold plus_fct, mult_real_fct, id; ring|ring|].
  apply derivable_pt_lim_plus; [apply derivable_pt_lim_const|]. apply derivable_pt_lim_scal, derivable_pt_lim_id.
Qed.
Lemma D0_plus f g a b : D0 f a -> D0 g b -> D0 (fun t => f t + g t) (a + b).
Proof. intros. apply (derivable_pt_lim_plus f g); assumption. Qed.
Lemma D0_minus f g a b : D0 f a -> D0 g b -> D0 (fun t => f t - g t) (a - b).
Proof. intros. apply (derivable_pt_lim_minus f g); assumption. Qed.
Lemma D0_mult f g a b : D0 f a -> D0 g b -> D0 (fun t => f t * g t) (a * g 0 + f 0 * b).
Proof. intros. apply (derivable_pt_lim_mult f g); assumption. Qed.
Lemma D0_scal c f a : D0 f a -> D0 (fun t => c * f t) (c * a).
Proof. intros. apply (derivable_pt_lim_scal f); assumption. Qed.
Lemma D0_scalr c f a : D0 f a -> D0 (fun t => f t * c) (a * c).
Proof. intros H. apply (D0_ext (fun t => c * f t) _ (c * a)); [intros; ring|ring|]. apply D0_scal, H. Qed.
Lemma D0_div f g a b : g 0 <> 0 -> D0 f a -> D0 g b -> D0 (fun t => f t / g t) ((a * g 0 - b * f 0) / Rsqr (g 0)).
Proof. intros. apply (derivable_pt_lim_div f g); assumption. Qed.
Lemma D0_abs f a : f 0 <> 0 -> D0 f a -> D0 (fun t => Rabs (f t)) ((if Rlt_dec 0 (f 0) then 1 else if Rlt_dec (f 0) 0 then -1 else 0) * a).
Proof.
  intros N H. destruct (Rlt_dec 0 (f 0)) as [P|P].
  - apply (derivable_pt_lim_comp f Rabs); [exact H|]. apply Rabs_derive_1, P.
  - destruct (Rlt_dec (f 0) 0) as [P'|P']; [|lra]. apply (derivable_pt_lim_comp f Rabs); [exact H|]. apply Rabs_derive_2, P'.
Qed.
Lemma D0_acc (f : R -> nat -> R) (d : nat -> R) b e : (forall l, (b <= l < e)%nat -> D0 (fun t => f t l) (d l)) -> D0 (fun t => accumulate (f t) 0 b e) (accumulate d 0 b e).
Proof.
  intros H. apply (D0_ext (fun t => fold_right Rplus 0 (map (f t) (seq b (e - b)))) _ (fold_right Rplus 0 (map d (seq b (e - b))))); [intros; apply acc_sum|apply acc_sum|].
  assert (I : forall l, In l (seq b (e - b)) -> D0 (fun t => f t l) (d l)) by (intros l Hl; apply in_seq in Hl; apply H; lia). clear H.
  induction (seq b (e - b)) as [|x l IH]; cbn [map fold_right]; [apply D0_const|]. apply (D0_plus (fun t => f t x)); [apply I; left; reflexivity|]. apply IH. intros y Hy. apply I. right. exact Hy.
Qed.
Lemma D0_apply A (f : R -> nat -> R) d k : (forall l, (nth k (beg A) 0 <= l < nth k (fin A) 0)%nat -> D0 (fun t => f t l) (d l)) -> D0 (fun t => apply1 A (f t) k) (apply1 A d k).
Proof.
  intros H. unfold apply1. apply D0_acc. intros l Hl. apply D0_scal. apply H, Hl.
Qed.
Lemma D0_if (b : bool) f g a c : (b = true -> D0 f a) -> (b = false -> D0 g c) -> D0 (fun t => if b then f t else g t) (if b then a else c).
Proof. intros. destruct b; auto. Qed.
