(** * The flux-corrected derivative *)
From Coq Require Import Reals List Arith Lia Lra Bool.
From Verif Require Import QuadSpec InterpModel InterpSpec InterpProofs ColModel ColSpec ColProofs FemModel FemSpec FemProofs FemProofs2 FluxModel FluxSpec FluxProofs FluxProofs2.
Import ListNotations.
Local Open Scope R_scope.

Lemma rows3_rows f l : (forall k, In k l -> exists t, f k = Row t) ->
  rows3 f l = match rows (fun k => match f k with Row t => Some t | _ => None end) l with Some b => Some (Some b) | None => None end.
Proof.
  induction l as [|k l IH]; intros H; [reflexivity|]. cbn [rows3 rows]. destruct (H k (or_introl eq_refl)) as (t & ->). cbn [bind].
  rewrite IH by (intros; apply H; right; assumption). destruct (rows _ l); reflexivity.
Qed.
Lemma build3_build nin nout f : (forall k, (k < nout)%nat -> exists t, f k = Row t) ->
  build3 nin nout f = build nin nout (fun k => match f k with Row t => Some t | _ => None end).
Proof.
  intros H. unfold build3, build. destruct ((nin =? 0) || (nout =? 0))%bool%nat; [reflexivity|].
  rewrite rows3_rows by (intros k Hk; apply H; apply in_seq in Hk; lia). destruct (rows _ _); reflexivity.
Qed.
Lemma build3_throws nin nout f r : (forall k, (k < nout)%nat -> f k = RThrow \/ exists t, f k = Row t) -> (r < nout)%nat -> f r = RThrow ->
  build3 nin nout f = Threw.
Proof.
  intros H Hr E. unfold build3. destruct ((nin =? 0) || (nout =? 0))%bool%nat; [reflexivity|].
  assert (G : forall m s, (s + m <= nout)%nat -> (s <= r < s + m)%nat -> rows3 f (seq s m) = Some None).
  { induction m as [|m IH]; intros s B I; [lia|]. cbn [seq rows3]. destruct (H s ltac:(lia)) as [->|(t & Et)]; [reflexivity|]. rewrite Et.
    destruct (Nat.eq_dec s r) as [->|Ne]; [congruence|]. rewrite IH by lia. reflexivity. }
  rewrite G by lia. reflexivity.
Qed.

Section Derivative.
Context (sol : nat -> nat -> nat -> R) (o ne : nat) (nodes edges : list R) (C : column o ne nodes edges).
Context (Sol : solves (o + 1 + 1) (van 2 (o + 1)) rhs (sol 2%nat (o + 1)%nat)).
Let Ho : (0 < o)%nat := proj1 C.
Let Hne : (0 < ne)%nat := proj1 (proj2 C).
Let Ln : length nodes = (ne * o)%nat := proj1 (proj2 (proj2 C)).
Let Le : length edges = (ne * o + 1)%nat := proj1 (proj2 (proj2 (proj2 C))).
Let E := edge o edges.

Lemma located_clear out a on : located edges o ne out a on -> (forall i, (0 < i < ne)%nat -> clear_of (E i) out) ->
  (on = true -> out = E (a + 1)%nat) /\ (on = false -> S a <> ne -> out < E (a + 1)%nat) /\ (a <> 0%nat -> E a < out).
Proof.
  intros (A & B & D & F) H. pose proof eps_pos as P. split; [|split].
  - intros On. destruct (B On) as (B1 & B2). destruct (H (a + 1)%nat ltac:(lia)) as [Q|[Q|Q]]; [exact Q| |]; exfalso;
    unfold E, edge in Q; fold eps in Q; unfold Rabs in B2; destruct (Rcase_abs _) in B2; lra.
  - intros Off Na. pose proof (F Off Na). unfold E, edge. lra.
  - intros Na. pose proof (D Na). unfold E, edge. lra.
Qed.
Lemma element_unique out a b : (a < ne)%nat -> (b < ne)%nat -> E a < out \/ a = 0%nat -> out < E (a + 1)%nat \/ S a = ne ->
  E b < out \/ b = 0%nat -> out < E (b + 1)%nat \/ S b = ne -> a = b.
Proof.
  intros Ha Hb A1 A2 B1 B2.
  assert (M : forall i j, (i < j <= ne)%nat -> E i < E j).
  { intros i j Hij. unfold E, edge. apply spaced_lt; [apply C|]. rewrite Le. nia. }
  destruct (Nat.lt_trichotomy a b) as [L|[L|L]]; [exfalso| exact L|exfalso].
  - destruct A2 as [A2|]; [|lia]. destruct B1 as [B1|]; [|lia]. destruct (Nat.eq_dec (a + 1) b) as [<-|]; [lra|]. generalize (M (a + 1)%nat b ltac:(lia)). lra.
  - destruct B2 as [B2|]; [|lia]. destruct A1 as [A1|]; [|lia]. destruct (Nat.eq_dec (b + 1) a) as [<-|]; [lra|]. generalize (M (b + 1)%nat a ltac:(lia)). lra.
Qed.

Lemma flux_row_ok nin zero outs l : nin = length nodes -> (l < length outs)%nat -> E 0 <= nth l outs 0 <= E ne ->
  exists a on r b e, located edges o ne (nth l outs 0) a on /\
    flux_row sol nin o nodes edges outs zero l = Row (r, b, e) /\ good nin (r, b, e) /\ (pred a * o <= b)%nat /\ (e <= (a + 2) * o)%nat /\
    ((on = true -> a <> 0%nat -> nth l outs 0 = E (a + 1)%nat) ->
     forall u p g, (forall i, (i < ne)%nat -> interpolates o nodes (i * o) u (p i)) ->
      (forall i x, (i < ne)%nat -> derivable_pt_lim (peval (p i)) x (g i x)) ->
      sum (fun k => val r k * u k) nin =
        (if on then (g a (nth l outs 0) + g (a + 1)%nat (nth l outs 0)) / 2 else g a (nth l outs 0))
        + low_step o ne edges zero p a * (- cslope sol o (1 - (nth l outs 0 - E a) / (E (a + 1)%nat - E a)) / (E (a + 1)%nat - E a))
        + high_step o ne edges zero p a * (cslope sol o ((nth l outs 0 - E a) / (E (a + 1)%nat - E a)) / (E (a + 1)%nat - E a))).
Proof.
  intros -> Hl (R1 & R2). set (out := nth l outs 0) in *.
  assert (DV : (length nodes / o)%nat = ne) by (rewrite Ln; apply Nat.div_mul; lia).
  destruct (search_ok edges o ne out Hne Le) as (a & on & Es & Lo).
  assert (Ha : (a < ne)%nat) by apply Lo. assert (On : on = true -> (S a < ne)%nat) by (intros Q; apply Lo, Q).
  destruct (flux_coeffs_ok sol o ne nodes edges C Sol zero out a on Ha On) as (r & b & e & Er & G & B1 & B2 & V).
  exists a, on, r, b, e. split; [exact Lo|]. split; [|auto].
  unfold flux_row. rewrite rd_ok by exact Hl. fold out. cbn [bind]. rewrite DV, Es. cbn [bind].
  rewrite (rd_ok edges 0), (rd_ok edges (length nodes)) by (rewrite Le, ?Ln; lia). cbn [bind].
  unfold E, edge in R1, R2. cbn [Nat.mul] in R1. rewrite <- Ln in R2.
  destruct (Rlt_dec out (nth 0 edges 0)) as [Q|_]; [lra|]. destruct (Rlt_dec (nth (length nodes) edges 0) out) as [Q|_]; [lra|].
  rewrite Er. reflexivity.
Qed.
Lemma flux_row_any nin zero outs l : nin = length nodes -> (l < length outs)%nat ->
  flux_row sol nin o nodes edges outs zero l = RThrow \/ exists t, flux_row sol nin o nodes edges outs zero l = Row t.
Proof.
  intros -> Hl. destruct (Rlt_dec (nth l outs 0) (E 0)) as [Q|Q]; [|destruct (Rlt_dec (E ne) (nth l outs 0)) as [Q'|Q']].
  3:{ right. destruct (flux_row_ok (length nodes) zero outs l eq_refl Hl) as (a & on & r & b & e & _ & H & _); [lra|]. eexists. exact H. }
  all: left; unfold flux_row; rewrite rd_ok by exact Hl; cbn [bind];
    assert (DV : (length nodes / o)%nat = ne) by (rewrite Ln; apply Nat.div_mul; lia); rewrite DV;
    destruct (search_ok edges o ne (nth l outs 0) Hne Le) as (a & on & Es & Lo); rewrite Es; cbn [bind];
    rewrite (rd_ok edges 0), (rd_ok edges (length nodes)) by (rewrite Le, ?Ln; lia); cbn [bind];
    unfold E, edge in *; cbn [Nat.mul] in *; destruct (Rlt_dec (nth l outs 0) (nth 0 edges 0)); try reflexivity; try contradiction.
  rewrite <- Ln in Q'. destruct (Rlt_dec (nth (length nodes) edges 0) (nth l outs 0)); [reflexivity|contradiction].
Qed.
Lemma flux_diff_unfold zero outs : flux_diff sol Levels o nodes edges outs zero = build3 (length nodes) (length outs) (flux_row sol (length nodes) o nodes edges outs zero).
Proof.
  unfold flux_diff. destruct (Nat.eqb_spec o 0); [lia|]. destruct (Nat.eqb_spec (length nodes) 0); [rewrite Ln in *; nia|].
  rewrite Le, Ln, Nat.eqb_refl, Nat.mod_mul, Nat.eqb_refl by lia. cbn [negb rows_in]. rewrite Ln. reflexivity.
Qed.
Lemma flux_diff_throws zero outs r : (r < length outs)%nat -> nth r outs 0 < E 0 \/ E ne < nth r outs 0 ->
  flux_diff sol Levels o nodes edges outs zero = Threw.
Proof.
  intros Hr Out. rewrite flux_diff_unfold. apply build3_throws with r; [|exact Hr|].
  - intros k Hk. apply flux_row_any; [reflexivity|exact Hk].
  - unfold flux_row; rewrite rd_ok by exact Hr; cbn [bind].
    assert (DV : (length nodes / o)%nat = ne) by (rewrite Ln; apply Nat.div_mul; lia); rewrite DV.
    destruct (search_ok edges o ne (nth r outs 0) Hne Le) as (a & on & Es & Lo); rewrite Es; cbn [bind].
    rewrite (rd_ok edges 0), (rd_ok edges (length nodes)) by (rewrite Le, ?Ln; lia); cbn [bind].
    unfold E, edge in *; cbn [Nat.mul] in *. rewrite <- Ln in Out. destruct (Rlt_dec (nth r outs 0) (nth 0 edges 0)); [reflexivity|].
    destruct (Rlt_dec (nth (length nodes) edges 0) (nth r outs 0)); [reflexivity|lra].
Qed.

(** what a row does *)
Definition row_value (zero : bool) (out : R) (a : nat) (on : bool) (v : (nat -> R) -> R) : Prop :=
  forall u p g, (forall i, (i < ne)%nat -> interpolates o nodes (i * o) u (p i)) ->
      (forall i x, (i < ne)%nat -> derivable_pt_lim (peval (p i)) x (g i x)) ->
      v u = (if on then (g a out + g (a + 1)%nat out) / 2 else g a out)
        + low_step o ne edges zero p a * (- cslope sol o (1 - (out - E a) / (E (a + 1)%nat - E a)) / (E (a + 1)%nat - E a))
        + high_step o ne edges zero p a * (cslope sol o ((out - E a) / (E (a + 1)%nat - E a)) / (E (a + 1)%nat - E a)).
Lemma flux_diff_ok zero outs : outs <> [] -> (forall out, In out outs -> E 0 <= out <= E ne) ->
  exists A, flux_diff sol Levels o nodes edges outs zero = Built A /\ wf A /\ nrow A = length outs /\ ncol A = length nodes /\
    forall l, (l < length outs)%nat -> exists a on, located edges o ne (nth l outs 0) a on /\
      row_local A l (pred a * o) ((a + 2) * o) /\
      ((forall i, (0 < i < ne)%nat -> clear_of (E i) (nth l outs 0)) -> row_value zero (nth l outs 0) a on (fun u => apply1 A u l)).
Proof.
  intros No In0. rewrite flux_diff_unfold.
  assert (R1 : forall l, (l < length outs)%nat -> E 0 <= nth l outs 0 <= E ne) by (intros; apply In0, nth_In; assumption).
  rewrite build3_build.
  2:{ intros k Hk. destruct (flux_row_ok (length nodes) zero outs k eq_refl Hk (R1 k Hk)) as (a & on & r & b & e & _ & H & _). eexists. exact H. }
  destruct (build_ok (length nodes) (length outs) (fun k => match flux_row sol (length nodes) o nodes edges outs zero k with Row t => Some t | _ => None end)
    (fun l v b e => exists a on, located edges o ne (nth l outs 0) a on /\ (pred a * o <= b)%nat /\ (e <= (a + 2) * o)%nat /\
       ((forall i, (0 < i < ne)%nat -> clear_of (E i) (nth l outs 0)) ->
          row_value zero (nth l outs 0) a on (fun u => sum (fun k => v k * u k) (length nodes))))) as (A & EA & W & N1 & N2 & V).
  - rewrite Ln. nia.
  - destruct outs; [contradiction|discriminate].
  - intros l Hl. destruct (flux_row_ok (length nodes) zero outs l eq_refl Hl (R1 l Hl)) as (a & on & r & b & e & Lo & H & G & B1 & B2 & V).
    exists r, b, e. rewrite H. split; [reflexivity|]. split; [exact G|]. exists a, on. split; [exact Lo|]. split; [exact B1|]. split; [exact B2|].
    intros Cl. destruct (located_clear _ _ _ Lo Cl) as (Z1 & _ & _). intros u p g Hp Hg. apply V; auto.
  - exists A. split; [exact EA|]. split; [exact W|]. split; [exact N1|]. split; [exact N2|]. intros l Hl.
    destruct (V l Hl) as (a & on & Lo & B1 & B2 & V'). exists a, on. split; [exact Lo|]. split.
    + intros u v Huv. apply (local_apply A l _ _ eq_refl eq_refl). intros k Hk. apply Huv. lia.
    + intros Cl u p g Hp Hg. rewrite apply1_matvec by (try assumption; rewrite N1; exact Hl). unfold matvec. rewrite N2. apply V'; assumption.
Qed.
End Derivative.
