(** * Property C34: column operators compose *)
From Coq Require Import Reals List Arith Lia Lra Bool.
From Verif Require Import ColModel ColSpec ColProofs.
Import ListNotations.
Local Open Scope R_scope.

(** an operator whose stored ranges cover its non-zeros acts as its matrix *)
Theorem C34_apply : forall A col r, wf A -> (r < nrow A)%nat -> apply1 A col r = matvec (getc A) (ncol A) col r.
Proof. intros. apply apply1_matvec; assumption. Qed.

(** the composition exists exactly when the sizes fit, and applies the argument
    first; its own ranges cover its non-zeros again *)
Theorem C34_compose : forall A B, wf A -> wf B -> nrow A <> 0%nat -> ncol B <> 0%nat ->
  (ncol A <> nrow B -> compose A B = Throw) /\
  (ncol A = nrow B -> exists C, compose A B = Ok C /\ wf C /\ nrow C = nrow A /\ ncol C = ncol B /\
     forall col r, (r < nrow A)%nat -> apply1 C col r = apply1 A (apply1 B col) r).
Proof.
  intros A B WA WB Na Nb. split.
  - intros E. unfold compose. destruct (Nat.eqb_spec (ncol A) (nrow B)); [contradiction|reflexivity].
  - intros E. destruct (compose_ok A B E Na Nb) as (C & EC & WC & Nr & Nc & H). exists C. repeat split; try assumption; try apply WC.
    intros col r Hr. rewrite !apply1_matvec by (try assumption; rewrite Nr; exact Hr). unfold matvec. rewrite Nc.
    rewrite (sum_ext _ (fun l => sum (fun k => getc A r k * getc B k l * col l) (ncol A))).
    2: { intros l Hl. rewrite H by assumption. symmetry. apply sum_scale_r. }
    rewrite sum_swap. apply sum_ext. intros k Hk. rewrite apply1_matvec by (try assumption; lia). unfold matvec.
    rewrite <- sum_scale. apply sum_ext. intros l Hl. ring.
Qed.
(** the composition uses the whole matrices: with a range that misses a non-zero
    it does not agree with applying one after the other *)
Theorem C34_range_refuted : exists A B C col r, ncol A = nrow B /\ (r < nrow A)%nat /\ compose A B = Ok C /\
  apply1 C col r <> apply1 A (apply1 B col) r.
Proof.
  destruct (identity_ok 1 ltac:(lia)) as (I & EI & WI & NI & CI & GI).
  set (A := Op 1 [[1]] [0%nat] [0%nat]).
  destruct (compose_ok A I ltac:(rewrite NI; reflexivity) ltac:(discriminate) ltac:(rewrite CI; discriminate)) as (C & EC & WC & NC & CC & GC).
  exists A, I, C, (fun _ => 1), 0%nat. split; [rewrite NI; reflexivity|]. split; [cbn; lia|]. split; [exact EC|].
  rewrite apply1_matvec by (try assumption; rewrite NC; cbn; lia). unfold matvec. rewrite CC, CI.
  rewrite (sum_ext _ (fun _ => 1)).
  - cbn. lra.
  - intros l Hl. rewrite GC by (rewrite ?CI; cbn; lia). cbn [ncol A]. unfold sum. cbn [seq map fold_right].
    rewrite GI by lia. assert (l = 0)%nat by lia. subst l. cbn. lra.
Qed.

(** the identity operator copies and is neutral on both sides *)
Theorem C34_identity : forall n, n <> 0%nat -> exists I, identity n = Ok I /\ wf I /\ nrow I = n /\ ncol I = n /\
  forall col r, (r < n)%nat -> apply1 I col r = col r.
Proof.
  intros n Hn. destruct (identity_ok n Hn) as (I & E & W & Nr & Nc & G). exists I. repeat split; try assumption; try apply W.
  intros col r Hr. rewrite apply1_matvec by (try assumption; lia). unfold matvec. rewrite Nc.
  rewrite (sum_ext _ (fun l => (if (l =? r)%nat then 1 else 0) * col l)) by (intros l Hl; rewrite G by assumption; reflexivity).
  apply sum_delta. exact Hr.
Qed.
Theorem C34_neutral : forall A I J, wf A -> nrow A <> 0%nat -> ncol A <> 0%nat -> identity (ncol A) = Ok I -> identity (nrow A) = Ok J ->
  exists C D, compose A I = Ok C /\ compose J A = Ok D /\
  forall col r, (r < nrow A)%nat -> apply1 C col r = apply1 A col r /\ apply1 D col r = apply1 A col r.
Proof.
  intros A I J WA Na Nc EI EJ.
  destruct (C34_identity (ncol A) Nc) as (I' & EI' & WI & NI & CI & GI). rewrite EI in EI'. injection EI' as <-.
  destruct (C34_identity (nrow A) Na) as (J' & EJ' & WJ & NJ & CJ & GJ). rewrite EJ in EJ'. injection EJ' as <-.
  destruct (proj2 (C34_compose A I WA WI Na ltac:(lia)) ltac:(lia)) as (C & EC & WC & NC & CC & HC).
  destruct (proj2 (C34_compose J A WJ WA ltac:(lia) Nc) ltac:(lia)) as (D & ED & WD & ND & CD & HD).
  exists C, D. split; [exact EC|]. split; [exact ED|]. intros col r Hr. split.
  - rewrite HC by exact Hr. rewrite !apply1_matvec by assumption. unfold matvec. apply sum_ext. intros l Hl. rewrite GI by exact Hl. reflexivity.
  - rewrite HD by lia. apply GJ. exact Hr.
Qed.

(** a stride reads the strided column, a reference is subtracted before and added after *)
Theorem C34_variants : forall A col ref v r s,
  apply1_strided A col r s = apply1 A (fun l => col (l * s)%nat) r /\
  apply1_ref A col ref v r s = v + apply1 A (fun l => col (l * s)%nat - ref (l * s)%nat) r.
Proof.
  intros. split.
  - reflexivity.
  - unfold apply1_ref, apply1. rewrite accumulate_init. reflexivity.
Qed.
(** the whole-column variants store, at every output level, the value of the
    one-level variant and leave the rest of the output alone *)
Theorem C34_columns : forall A col ref out refout s t, (0 < t)%nat ->
  let P m v := (forall k, (k < nrow A)%nat -> m (k * t)%nat = v k) /\
               (forall i, (forall k, (k < nrow A)%nat -> i <> (k * t)%nat) -> m i = out i) in
  P (apply_strided A col out s t) (fun k => apply1_strided A col k s) /\
  P (apply_ref_strided A col ref out refout s t) (fun k => apply1_ref A col ref (refout (k * t)%nat) k s) /\
  (t = 1%nat -> P (apply A col out) (apply1 A col) /\
     P (apply_ref A col ref out refout) (fun k => apply1_ref A col ref (refout k) k 1)).
Proof.
  intros A col ref out refout s t Ht P.
  assert (Inj : forall i j, (i < nrow A)%nat -> (j < nrow A)%nat -> (i * t)%nat = (j * t)%nat -> i = j)
    by (intros i j _ _ E; apply (Nat.mul_cancel_r i j t) in E; [exact E|lia]).
  split; [|split].
  - exact (apply_levels (fun _ => 0) (fun k l => getc A k l * col (l * s)%nat) (fun k => nth k (beg A) 0%nat) (fun k => nth k (fin A) 0%nat)
      (fun k => (k * t)%nat) (nrow A) Inj out).
  - exact (apply_levels (fun k => refout (k * t)%nat) (fun k l => getc A k l * (col (l * s)%nat - ref (l * s)%nat))
      (fun k => nth k (beg A) 0%nat) (fun k => nth k (fin A) 0%nat) (fun k => (k * t)%nat) (nrow A) Inj out).
  - intros ->. split.
    + destruct (apply_levels (fun _ => 0) (fun k l => getc A k l * col l) (fun k => nth k (beg A) 0%nat) (fun k => nth k (fin A) 0%nat)
        (fun k => k) (nrow A) (fun i j _ _ E => E) out) as (H1 & H2). split.
      * intros k Hk. rewrite Nat.mul_1_r. exact (H1 k Hk).
      * intros i Hi. apply H2. intros k Hk. specialize (Hi k Hk). rewrite Nat.mul_1_r in Hi. exact Hi.
    + destruct (apply_levels (fun k => refout k) (fun k l => getc A k l * (col l - ref l)) (fun k => nth k (beg A) 0%nat) (fun k => nth k (fin A) 0%nat)
        (fun k => k) (nrow A) (fun i j _ _ E => E) out) as (H1 & H2). split.
      * intros k Hk. rewrite Nat.mul_1_r. unfold apply_ref. etransitivity; [exact (H1 k Hk)|]. unfold apply1_ref. apply accumulate_ext.
        intros l. cbv zeta. rewrite Nat.mul_1_r. reflexivity.
      * intros i Hi. apply H2. intros k Hk. specialize (Hi k Hk). rewrite Nat.mul_1_r in Hi. exact Hi.
Qed.

(** averaging two levels and differencing them: both meet the hypotheses *)
Example C34_case : let A := Op 2 [[-1; 1]] [0%nat] [2%nat] in let B := Op 2 [[1; 0]; [/2; /2]] [0%nat; 0%nat] [1%nat; 2%nat] in
  wf A /\ wf B /\ ncol A = nrow B /\ exists C, compose A B = Ok C /\ forall a b, apply1 C (fun l => match l with O => a | _ => b end) 0 = (b - a) / 2.
Proof.
  intros A B.
  assert (WA : wf A).
  { constructor; unfold nrow; cbn; try reflexivity; try (repeat constructor; fail); intros [|[|r]]; intros; try lia; cbn in *; try lia.
    all: try (destruct l as [|[|l]]; cbn in *; lia). }
  assert (WB : wf B).
  { constructor; unfold nrow; cbn; try reflexivity; try (repeat constructor; fail).
    - intros [|[|r]]; cbn; lia.
    - intros [|[|r]] [|[|l]] Hr Hl N; cbn in *; try lia; try reflexivity. }
  split; [exact WA|]. split; [exact WB|]. split; [reflexivity|].
  destruct (proj2 (C34_compose A B WA WB ltac:(discriminate) ltac:(discriminate)) eq_refl) as (C & EC & _ & _ & _ & H).
  exists C. split; [exact EC|]. intros a b. rewrite H by (cbn; lia).
  unfold apply1, accumulate, getc. cbn. field.
Qed.

Print Assumptions C34_apply.
Print Assumptions C34_compose.
Print Assumptions C34_range_refuted.
Print Assumptions C34_identity.
Print Assumptions C34_neutral.
Print Assumptions C34_variants.
Print Assumptions C34_columns.
