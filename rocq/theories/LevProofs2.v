(** * Proofs about the vertical coordinate: the arrays *)
From Coq Require Import Reals List Arith Bool Lia Lra.
From Verif Require Import DiagModel QuadSpec ColSpec ColProofs LevModel LevSpec LevProofs.
Import ListNotations.
Local Open Scope R_scope.

Lemma bounds_ok F ne a : F 0 = 0 -> (0 < ne)%nat -> bounds F (1 / INR ne) a = (bound F ne a, bound F ne (a + 1)).
Proof.
  intros F0 Hne. induction a as [|a IH]; cbn [bounds].
  - unfold bound. cbn [INR plus]. unfold Rdiv. rewrite Rmult_0_l, F0. reflexivity.
  - rewrite IH. cbn [snd]. unfold bound. replace (S a + 1)%nat with (a + 2)%nat by lia. replace (a + 1)%nat with (S a) by lia. f_equal. f_equal. unfold Rdiv. ring.
Qed.
Lemma place_id ne a g : (0 < ne)%nat -> (g + INR a) * (1 / INR ne) = place (fun x => x) ne a g.
Proof. intros H. unfold place, bound. rewrite plus_INR. cbn [INR]. field. apply not_0_INR. lia. Qed.
Lemma width_id ne a : (0 < ne)%nat -> width (fun x => x) ne a = 1 / INR ne.
Proof. intros H. unfold width, bound. rewrite plus_INR. cbn [INR]. field. apply not_0_INR. lia. Qed.
Lemma div_block m a i : (0 < m)%nat -> (i < m)%nat -> ((a * m + i) / m = a /\ (a * m + i) mod m = i)%nat.
Proof.
  intros H Hi. split; [rewrite Nat.add_comm, Nat.div_add, Nat.div_small by lia; lia|rewrite Nat.add_comm, Nat.mod_add, Nat.mod_small by lia; reflexivity].
Qed.
Lemma double_ok len ne m A : (0 < m)%nat -> (ne * m < len + m)%nat -> exists A', double_shared len ne m A = Some A' /\
  (forall a, (0 < a < ne)%nat -> A' (a * m)%nat = A (a * m)%nat * 2) /\
  (forall j, (forall a, (0 < a < ne)%nat -> j <> (a * m)%nat) -> A' j = A j).
Proof.
  intros Hm Hl. unfold double_shared.
  assert (P : forall t, (t <= ne - 1)%nat -> exists A', loop t (fun a A => put len A (S a * m) (A (S a * m)%nat * 2)) A = Some A' /\
    (forall a, (0 < a < S t)%nat -> A' (a * m)%nat = A (a * m)%nat * 2) /\
    (forall j, (forall a, (0 < a < S t)%nat -> j <> (a * m)%nat) -> A' j = A j)).
  { induction t as [|t IH]; intros Ht; [exists A; split; [reflexivity|split; [intros; lia|reflexivity]]|].
    destruct IH as (A' & E & H1 & H2); [lia|]. rewrite loop_S, E, put_ok by nia. eexists. split; [reflexivity|]. split.
    - intros a Ha. destruct (Nat.eqb_spec (a * m) (S t * m)) as [Eq|Nq].
      + assert (a = S t) as -> by nia. rewrite H2; [reflexivity|]. intros b Hb. nia.
      + apply H1. assert (a <> S t) by (intros ->; lia). lia.
    - intros j Hj. destruct (Nat.eqb_spec j (S t * m)) as [->|Nj]; [exfalso; apply (Hj (S t)); [lia|reflexivity]|]. apply H2. intros a Ha. apply Hj. lia. }
  destruct (P (ne - 1)%nat (le_n _)) as (A' & E & H1 & H2). exists A'. split; [exact E|]. split; [intros; apply H1; lia|intros j Hj; apply H2; intros a Ha; apply Hj; lia].
Qed.
(** the branch without a function *)
Lemma shared_uniform len ne m GL WL : (0 < ne)%nat -> (0 < m)%nat -> (ne * m < len)%nat -> closed_rule (m + 1) GL WL -> exists w,
  double_shared len ne m (fun k => nth (k mod m) WL 0 * (1 / INR ne)) = Some w /\
  shared (fun x => x) ne m GL WL (fun k => (nth (k mod m) GL 0 + INR (k / m)) * (1 / INR ne)) w.
Proof.
  intros Hne Hm Hl (_ & G0 & G1 & WE). rewrite Nat.add_sub in G1, WE.
  destruct (double_ok len ne m (fun k => nth (k mod m) WL 0 * (1 / INR ne)) Hm ltac:(lia)) as (w & E & H1 & H2). exists w. split; [exact E|].
  assert (Z : forall a, ((a * m) mod m = 0)%nat) by (intros; apply Nat.mod_mul; lia).
  repeat apply conj.
  - intros a i Ha Hi. destruct (Nat.eq_dec i m) as [->|Ni].
    + replace (a * m + m)%nat with ((a + 1) * m + 0)%nat by lia. destruct (div_block m (a + 1) 0 Hm ltac:(lia)) as (-> & ->). rewrite place_id by exact Hne.
      unfold place, bound. rewrite G0, G1. ring.
    + destruct (div_block m a i Hm ltac:(lia)) as (-> & ->). apply place_id, Hne.
  - intros a i Ha Hi. rewrite H2; [destruct (div_block m a i Hm ltac:(lia)) as (_ & ->); rewrite width_id by exact Hne; reflexivity|]. intros b Hb Eq.
    destruct (div_block m a i Hm ltac:(lia)) as (_ & M). rewrite Eq, Z in M. lia.
  - rewrite H2 by (intros a Ha; nia). rewrite width_id, Nat.mod_0_l by lia. reflexivity.
  - rewrite H2 by (intros a Ha; nia). rewrite width_id, Z, WE by lia. reflexivity.
  - intros a Ha. rewrite (H1 a Ha), Z, !width_id, <- WE by lia. ring.
Qed.

Section Arrays.
Context (gauss lobatto : nat -> R -> R -> option (list R * list R)) (stretch : option (R -> R)).
Lemma levels_made n ne G W GL WL : (0 < n)%nat -> (0 < ne)%nat -> gauss n 0 1 = Some (G, W) -> lobatto (n + 1)%nat 0 1 = Some (GL, WL) ->
  closed_rule (n + 1) GL WL -> map_of stretch 0 = 0 ->
  exists c, levels_coord gauss lobatto stretch (ne * n) n = Made c /\ blocks (map_of stretch) ne n G W (lev c) (lar c) /\ shared (map_of stretch) ne n GL WL (itf c) (iar c).
Proof.
  intros Hn Hne EG EL C F0. unfold levels_coord. destruct (Nat.eqb_spec n 0); [lia|]. rewrite Nat.mod_mul, EG, EL by lia. cbn [Nat.eqb negb].
  rewrite Nat.div_mul by lia. destruct (Nat.eqb_spec ne 0); [lia|]. destruct stretch as [F|]; cbn [map_of] in *.
  - destruct C as (_ & G0 & G1 & _). rewrite Nat.add_sub in G1.
    destruct (blocks_loop F ne (ne * n) n G W (lev (base false (ne * n)), fun _ => 0) Hne Hn (le_n _)) as (l & w & E1 & B).
    destruct (shared_loop F ne (ne * n + 1) n GL WL (itf (base false (ne * n))) Hne Hn (le_n _) G0 G1) as (e & v & E2 & Sh).
    rewrite (loop_ext _ _ (fun a s => match fill (ne * n) n (a * n) (fun k => place F ne a (nth k G 0)) (fun k _ => nth k W 0 * width F ne a) (fst s),
        fill (ne * n + 1) (n + 1) (a * n) (fun k => place F ne a (nth k GL 0)) (fun k x => x + nth k WL 0 * width F ne a) (snd s) with
      | Some s1, Some s2 => Some (s1, s2) | _, _ => None end)) by (intros a s Ha; rewrite (bounds_ok F ne a F0 Hne); reflexivity).
    rewrite (loop_pair ne _ _ _ _ _ _ E1 E2). eexists. split; [reflexivity|]. split; assumption.
  - destruct (shared_uniform (ne * n + 1) ne n GL WL Hne Hn ltac:(lia) C) as (v & E & Sh). rewrite E. eexists. split; [reflexivity|]. split; [|exact Sh].
    intros a i Ha Hi. cbn [lev lar]. destruct (div_block n a i Hn Hi) as (-> & ->). rewrite width_id, place_id by exact Hne. split; reflexivity.
Qed.
Lemma interfaces_made n ne GL WL : (2 <= n)%nat -> (0 < ne)%nat -> lobatto n 0 1 = Some (GL, WL) -> closed_rule n GL WL -> map_of stretch 0 = 0 ->
  exists c, interfaces_coord lobatto stretch (ne * (n - 1) + 1) n = Made c /\ shared (map_of stretch) ne (n - 1) GL WL (lev c) (lar c) /\
    (forall k, itf c k = INR k * (1 / INR (ne * (n - 1) + 1))) /\
    iar c = iar (base true (ne * (n - 1) + 1)).
Proof.
  intros Hn Hne EL C F0. unfold interfaces_coord. destruct (Nat.eqb_spec n 1); [lia|]. destruct (Nat.eqb_spec n 0); [lia|]. rewrite !Nat.add_sub, Nat.mod_mul, EL, Nat.div_mul by lia. cbn [Nat.eqb negb].
  destruct (Nat.eqb_spec ne 0); [lia|]. remember (n - 1)%nat as m eqn:Em. assert (En : n = (m + 1)%nat) by lia. clear Em. subst n. destruct stretch as [F|]; cbn [map_of] in *.
  - destruct C as (_ & G0 & G1 & _). rewrite Nat.add_sub in G1.
    destruct (shared_loop F ne (ne * m + 1) m GL WL (lev (base true (ne * m + 1))) Hne ltac:(lia) (le_n _) G0 G1) as (e & v & E2 & Sh).
    rewrite (loop_ext _ _ (fun a s => fill (ne * m + 1) (m + 1) (a * m) (fun k => place F ne a (nth k GL 0)) (fun k x => x + nth k WL 0 * width F ne a) s)) by (intros a s Ha; rewrite (bounds_ok F ne a F0 Hne); reflexivity).
    rewrite E2. eexists. split; [reflexivity|]. repeat split; apply Sh.
  - destruct (shared_uniform (ne * m + 1) ne m GL WL Hne ltac:(lia) ltac:(lia) C) as (v & E & Sh). rewrite E. eexists. split; [reflexivity|]. repeat split; apply Sh.
Qed.
End Arrays.

(** the totals *)
Lemma total_sum A n : total A n = sum A n.
Proof. unfold total. induction n as [|n IH]; [reflexivity|]. rewrite seq_S, fold_left_app, IH, sum_S. reflexivity. Qed.
Lemma base_total K : (0 < K)%nat -> sum (iar (base true K)) (K + 1) = 1 /\ sum (iar (base false K)) (K + 1) = 1.
Proof.
  intros H. assert (P : sum (iar (base true K)) (K + 1) = 1); [|split; exact P].
  set (A := iar (base true K)).
  assert (A0 : A 0%nat = 1 / INR K / 2) by (unfold A; destruct K; [lia|reflexivity]).
  assert (An : A K = 1 / INR K / 2) by (unfold A, base; cbn [iar]; destruct (Nat.eqb_spec K 0); [lia|]; rewrite Nat.eqb_refl; reflexivity).
  assert (Ai : forall k, (0 < k < K)%nat -> A k = 1 / INR K) by (intros k Hk; unfold A, base; cbn [iar]; destruct (Nat.eqb_spec k 0); [lia|]; destruct (Nat.eqb_spec k K); [lia|reflexivity]).
  rewrite Nat.add_1_r, sum_S, An.
  assert (Q : forall t, (0 < t <= K)%nat -> sum A t = INR t * (1 / INR K) - 1 / INR K / 2).
  { induction t as [|t IH]; intros Ht; [lia|]. rewrite sum_S, S_INR. destruct t as [|t]; [rewrite sum_0, A0; cbn [INR]; field; apply not_0_INR; lia|].
    rewrite IH, Ai by lia. field. apply not_0_INR. lia. }
  rewrite Q by lia. field. apply not_0_INR. lia.
Qed.
