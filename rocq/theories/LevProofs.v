(** * Proofs about the vertical coordinate *)
From Coq Require Import Reals List Arith Bool Lia Lra.
From Verif Require Import DiagModel QuadSpec ColSpec ColProofs LevModel LevSpec.
Import ListNotations.
Local Open Scope R_scope.

Lemma loop_S {S} n (f : nat -> S -> option S) s : loop (Datatypes.S n) f s = match loop n f s with Some s' => f n s' | None => None end.
Proof. unfold loop. rewrite seq_S, fold_left_app. reflexivity. Qed.
Lemma loop_ext {S} n (f g : nat -> S -> option S) s : (forall i t, (i < n)%nat -> f i t = g i t) -> loop n f s = loop n g s.
Proof.
  intros H. induction n as [|n IH]; [reflexivity|]. rewrite !loop_S, IH by (intros; apply H; lia). destruct (loop n g s); [apply H; lia|reflexivity].
Qed.
Lemma loop_pair {A B} n (f : nat -> A -> option A) (g : nat -> B -> option B) a b a' b' : loop n f a = Some a' -> loop n g b = Some b' ->
  loop n (fun i s => match f i (fst s), g i (snd s) with Some x, Some y => Some (x, y) | _, _ => None end) (a, b) = Some (a', b').
Proof.
  revert a' b'. induction n as [|n IH]; intros a' b' Ha Hb.
  - cbn in *. congruence.
  - rewrite loop_S in Ha. rewrite loop_S in Hb. rewrite loop_S. destruct (loop n f a) as [x|] eqn:E1; [|discriminate Ha]. destruct (loop n g b) as [y|] eqn:E2; [|discriminate Hb].
    rewrite (IH x y eq_refl eq_refl). cbn [fst snd]. rewrite Ha, Hb. reflexivity.
Qed.
Lemma put_ok len A k x : (k < len)%nat -> put len A k x = Some (fun j => if (j =? k)%nat then x else A j).
Proof. intros H. unfold put. destruct (Nat.ltb_spec k len); [reflexivity|lia]. Qed.

(** the inner loop *)
Lemma fill_ok len n off f h s : (off + n <= len)%nat -> exists l w, fill len n off f h s = Some (l, w) /\
  (forall j, ~ (off <= j < off + n)%nat -> l j = fst s j /\ w j = snd s j) /\
  (forall k, (k < n)%nat -> l (off + k)%nat = f k /\ w (off + k)%nat = h k (snd s (off + k)%nat)).
Proof.
  intros H. unfold fill. induction n as [|n IH].
  - exists (fst s), (snd s). split; [destruct s; reflexivity|]. split; [intros; split; reflexivity|intros; lia].
  - destruct IH as (l & w & E & H1 & H2); [lia|]. rewrite loop_S, E. cbn [fst snd]. rewrite !put_ok by lia.
    eexists. eexists. split; [reflexivity|]. split.
    + intros j Hj. destruct (Nat.eqb_spec j (off + n)); [lia|]. apply H1. lia.
    + intros k Hk. destruct (Nat.eqb_spec (off + k) (off + n)) as [Ek|Ek].
      * assert (k = n) as -> by lia. destruct (H1 (off + n)%nat ltac:(lia)) as (_ & ->). split; reflexivity.
      * apply H2. lia.
Qed.

Section Column.
Context (F : R -> R) (ne : nat).

(** nodes of m points per element that share none *)
Definition blocks (m : nat) (G W : list R) (l w : nat -> R) : Prop :=
  forall a i, (a < ne)%nat -> (i < m)%nat -> l (a * m + i)%nat = place F ne a (nth i G 0) /\ w (a * m + i)%nat = nth i W 0 * width F ne a.
(** nodes of m + 1 points per element that share the points at element bounds *)
Definition shared (m : nat) (G W : list R) (l w : nat -> R) : Prop :=
  (forall a i, (a < ne)%nat -> (i <= m)%nat -> l (a * m + i)%nat = place F ne a (nth i G 0)) /\
  (forall a i, (a < ne)%nat -> (0 < i < m)%nat -> w (a * m + i)%nat = nth i W 0 * width F ne a) /\
  (w 0%nat = nth 0 W 0 * width F ne 0) /\ (w (ne * m)%nat = nth m W 0 * width F ne (ne - 1)) /\
  (forall a, (0 < a < ne)%nat -> w (a * m)%nat = nth m W 0 * width F ne (a - 1) + nth 0 W 0 * width F ne a).

Lemma blocks_loop len m G W s : (0 < ne)%nat -> (0 < m)%nat -> (ne * m <= len)%nat -> exists l w,
  loop ne (fun a s => fill len m (a * m) (fun k => place F ne a (nth k G 0)) (fun k _ => nth k W 0 * width F ne a) s) s = Some (l, w) /\ blocks m G W l w.
Proof.
  intros Hne Hm Hl.
  assert (P : forall t, (t <= ne)%nat -> exists l w,
    loop t (fun a s => fill len m (a * m) (fun k => place F ne a (nth k G 0)) (fun k _ => nth k W 0 * width F ne a) s) s = Some (l, w) /\
    forall a i, (a < t)%nat -> (i < m)%nat -> l (a * m + i)%nat = place F ne a (nth i G 0) /\ w (a * m + i)%nat = nth i W 0 * width F ne a).
  { induction t as [|t IH]; intros Ht.
    - exists (fst s), (snd s). split; [destruct s; reflexivity|intros; lia].
    - destruct IH as (l & w & E & H); [lia|]. rewrite loop_S, E.
      destruct (fill_ok len m (t * m) (fun k => place F ne t (nth k G 0)) (fun k _ => nth k W 0 * width F ne t) (l, w)) as (l' & w' & E' & H1 & H2); [nia|].
      exists l', w'. split; [exact E'|]. intros a i Ha Hi. destruct (Nat.eq_dec a t) as [->|Na]; [apply H2; exact Hi|].
      destruct (H1 (a * m + i)%nat ltac:(nia)) as (-> & ->). apply H; lia. }
  destruct (P ne (le_n ne)) as (l & w & E & H). exists l, w. split; [exact E|exact H].
Qed.
Lemma shared_loop len m G W l0 : (0 < ne)%nat -> (0 < m)%nat -> (ne * m + 1 <= len)%nat -> nth 0 G 0 = 0 -> nth m G 0 = 1 -> exists l w,
  loop ne (fun a s => fill len (m + 1) (a * m) (fun k => place F ne a (nth k G 0)) (fun k x => x + nth k W 0 * width F ne a) s) (l0, fun _ => 0) = Some (l, w) /\ shared m G W l w.
Proof.
  intros Hne Hm Hl G0 G1.
  assert (P : forall t, (t <= ne)%nat -> exists l w,
    loop t (fun a s => fill len (m + 1) (a * m) (fun k => place F ne a (nth k G 0)) (fun k x => x + nth k W 0 * width F ne a) s) (l0, fun _ => 0) = Some (l, w) /\
    (forall a i, (a < t)%nat -> (i <= m)%nat -> l (a * m + i)%nat = place F ne a (nth i G 0)) /\
    (forall a i, (a < t)%nat -> (0 < i < m)%nat -> w (a * m + i)%nat = nth i W 0 * width F ne a) /\
    (forall a, (0 < a < t)%nat -> w (a * m)%nat = nth m W 0 * width F ne (a - 1) + nth 0 W 0 * width F ne a) /\
    ((0 < t)%nat -> w 0%nat = nth 0 W 0 * width F ne 0 /\ w (t * m)%nat = nth m W 0 * width F ne (t - 1)) /\
    (forall j, (t * m < j)%nat -> w j = 0) /\ (t = 0%nat -> w 0%nat = 0)).
  { induction t as [|t IH]; intros Ht.
    - exists l0, (fun _ => 0). split; [reflexivity|]. repeat split; intros; try lia; reflexivity.
    - destruct IH as (l & w & E & H1 & H2 & H3 & H4 & H5 & H6); [lia|]. rewrite loop_S, E.
      destruct (fill_ok len (m + 1) (t * m) (fun k => place F ne t (nth k G 0)) (fun k x => x + nth k W 0 * width F ne t) (l, w)) as (l' & w' & E' & K1 & K2); [nia|].
      cbn [fst snd] in K1, K2. exists l', w'. split; [exact E'|]. repeat apply conj.
      + intros a i Ha Hi. destruct (Nat.eq_dec a t) as [->|Na]; [apply K2; lia|].
        destruct (Nat.eq_dec (a * m + i) (t * m)) as [Eq|Nq].
        * assert (i = m /\ t = a + 1)%nat as (-> & ->) by nia. rewrite Eq. replace ((a + 1) * m)%nat with ((a + 1) * m + 0)%nat by lia.
          destruct (K2 0%nat ltac:(lia)) as (-> & _). rewrite G0, G1. unfold place, LevSpec.bound. ring.
        * destruct (K1 (a * m + i)%nat ltac:(nia)) as (-> & _). apply H1; lia.
      + intros a i Ha Hi. destruct (Nat.eq_dec a t) as [->|Na].
        * destruct (K2 i ltac:(lia)) as (_ & ->). rewrite H5 by lia. ring.
        * destruct (K1 (a * m + i)%nat ltac:(nia)) as (_ & ->). apply H2; lia.
      + intros a Ha. destruct (Nat.eq_dec a t) as [->|Na].
        * replace (t * m)%nat with (t * m + 0)%nat by lia. destruct (K2 0%nat ltac:(lia)) as (_ & ->). rewrite Nat.add_0_r.
          destruct (H4 ltac:(lia)) as (_ & ->). reflexivity.
        * destruct (K1 (a * m)%nat ltac:(nia)) as (_ & ->). apply H3; lia.
      + intros _. split.
        * destruct t as [|t].
          -- destruct (K2 0%nat ltac:(lia)) as (_ & E0). cbn in E0. rewrite E0, (H6 eq_refl). ring.
          -- destruct (K1 0%nat ltac:(nia)) as (_ & ->). apply H4. lia.
        * replace (S t * m)%nat with (t * m + m)%nat by lia. destruct (K2 m ltac:(lia)) as (_ & ->). rewrite H5 by lia. replace (S t - 1)%nat with t by lia. ring.
      + intros j Hj. destruct (K1 j ltac:(nia)) as (_ & ->). apply H5. nia.
      + intros H. discriminate H. }
  destruct (P ne (le_n ne)) as (l & w & E & H1 & H2 & H3 & H4 & _). destruct (H4 Hne) as (W0 & Wn). exists l, w. split; [exact E|]. repeat split; assumption.
Qed.
(** ** consequences *)
Lemma rising_steps f n : (forall i, (i + 1 < n)%nat -> f i < f (i + 1)%nat) -> rising f n.
Proof.
  intros H i j (Hij & Hj). induction j as [|j IH]; [lia|]. destruct (Nat.eq_dec i j) as [->|N].
  - replace (S j) with (j + 1)%nat by lia. apply H. lia.
  - apply Rlt_trans with (f j); [apply IH; lia|]. replace (S j) with (j + 1)%nat by lia. apply H. lia.
Qed.
Lemma increasing_steps G : increasing G -> forall i, (i + 1 < length G)%nat -> nth i G 0 < nth (i + 1) G 0.
Proof.
  induction G as [|x G IH]; intros H i Hi; [cbn in Hi; lia|]. destruct G as [|y G]; [cbn in Hi; lia|]. destruct H as (H1 & H2).
  destruct i; [exact H1|]. cbn [plus nth]. apply (IH H2 i). cbn [length] in *. lia.
Qed.
Context (Hne : (0 < ne)%nat) (HF : stretches F).
Lemma bound_0 : bound F ne 0 = 0.
Proof. unfold bound. cbn [INR]. unfold Rdiv. rewrite Rmult_0_l. apply HF. Qed.
Lemma bound_n : bound F ne ne = 1.
Proof. unfold bound. unfold Rdiv. rewrite Rinv_r by (apply not_0_INR; lia). apply HF. Qed.
Lemma width_pos a : (a < ne)%nat -> 0 < width F ne a.
Proof.
  intros Ha. unfold width, bound. assert (P : 0 < INR ne) by (apply lt_0_INR; lia).
  assert (0 <= INR a / INR ne) by (apply Rmult_le_pos; [apply pos_INR|apply Rlt_le, Rinv_0_lt_compat, P]).
  assert (INR a / INR ne < INR (a + 1) / INR ne) by (apply Rmult_lt_compat_r; [apply Rinv_0_lt_compat, P|apply lt_INR; lia]).
  assert (INR (a + 1) / INR ne <= 1).
  { apply Rmult_le_reg_r with (INR ne); [exact P|]. unfold Rdiv. rewrite Rmult_assoc, Rinv_l, Rmult_1_r, Rmult_1_l by lra. apply le_INR. lia. }
  destruct HF as (_ & _ & M). specialize (M _ _ H H0 H1). lra.
Qed.
Lemma sum_widths_to t : sum (width F ne) t = bound F ne t - bound F ne 0.
Proof. clear Hne HF. induction t as [|t IH]; [rewrite sum_0; ring|]. rewrite sum_S, IH. unfold width. replace (t + 1)%nat with (S t) by lia. ring. Qed.
Lemma sum_widths : sum (width F ne) ne = 1.
Proof. rewrite sum_widths_to, bound_n, bound_0. ring. Qed.

Lemma shared_rising m G W l w : (0 < m)%nat -> unit_rule (m + 1) G W -> shared m G W l w -> rising l (ne * m + 1).
Proof.
  intros Hm (Lg & _ & I & _) (H & _). apply rising_steps. intros j Hj.
  pose proof (Nat.div_mod_eq j m) as D. pose proof (Nat.mod_upper_bound j m ltac:(lia)) as U. set (a := (j / m)%nat) in *. set (i := (j mod m)%nat) in *.
  assert (a < ne)%nat by nia. replace j with (a * m + i)%nat by nia. replace (a * m + i + 1)%nat with (a * m + (i + 1))%nat by lia. rewrite !H by lia.
  unfold place. pose proof (width_pos a ltac:(assumption)) as P. unfold width in P. pose proof (increasing_steps G I i ltac:(lia)). nra.
Qed.
Lemma shared_ends m G W l w : (0 < m)%nat -> closed_rule (m + 1) G W -> shared m G W l w -> l 0%nat = 0 /\ l (ne * m)%nat = 1.
Proof.
  intros Hm (_ & G0 & G1 & _) (H & _). rewrite Nat.add_sub in G1. split.
  - pose proof (H 0%nat 0%nat Hne (Nat.le_0_l m)) as E0. cbn [Nat.mul Nat.add] in E0. rewrite E0. unfold place. rewrite G0, bound_0. ring.
  - replace (ne * m)%nat with ((ne - 1) * m + m)%nat by nia. rewrite H by lia. unfold place. rewrite G1. replace (ne - 1 + 1)%nat with ne by lia. rewrite bound_n. ring.
Qed.
Lemma sum_blocks (f : nat -> R) o m : sum (fun a => sum (fun i => f (a * o + i)%nat) o) m = sum f (m * o).
Proof.
  clear. induction m as [|m IH]; [reflexivity|]. rewrite sum_S, IH. replace (S m * o)%nat with (m * o + o)%nat by lia. generalize (m * o)%nat as b. intros b. clear IH.
  induction o as [|o IHo]; [rewrite sum_0, Nat.add_0_r; ring|]. rewrite sum_S, Nat.add_succ_r, sum_S, <- IHo. ring.
Qed.
Lemma blocks_total m G W l w : blocks m G W l w -> sum w (ne * m) = sum (fun i => nth i W 0) m.
Proof.
  intros H. rewrite <- sum_blocks. rewrite (sum_ext _ (fun a => sum (fun i => nth i W 0) m * width F ne a)).
  - rewrite sum_scale, sum_widths. ring.
  - intros a Ha. rewrite (Rmult_comm _ (width F ne a)), <- sum_scale. apply sum_ext. intros i Hi. destruct (H a i Ha Hi) as (_ & ->). ring.
Qed.
Lemma shared_total m G W l w : (0 < m)%nat -> shared m G W l w -> sum w (ne * m + 1) = sum (fun i => nth i W 0) (m + 1).
Proof.
  intros Hm (_ & H1 & H2 & H3 & H4). rewrite !Nat.add_1_r, !sum_S, H3, <- sum_blocks.
  assert (E : forall a, (a < ne)%nat -> sum (fun i => w (a * m + i)%nat) m = sum (fun i => nth i W 0) m * width F ne a + (if (a =? 0)%nat then 0 else nth m W 0 * width F ne (a - 1))).
  { intros a Ha. destruct m as [|m']; [lia|]. rewrite <- sum_scale_r. clear H3.
    assert (Z : forall g h c, g 0%nat = h 0%nat + c -> (forall i, (0 < i < S m')%nat -> g i = h i) -> sum g (S m') = sum h (S m') + c).
    { intros g h c Z0 Zi. clear - Z0 Zi. induction m' as [|m' IH]; [rewrite !sum_S, !sum_0, Z0; ring|]. rewrite sum_S, (sum_S h), IH by (intros; apply Zi; lia). rewrite (Zi (S m')) by lia. ring. }
    apply Z; [|intros i Hi; rewrite H1 by lia; reflexivity]. rewrite Nat.add_0_r. destruct (Nat.eqb_spec a 0) as [->|Na]; [rewrite Nat.mul_0_l, H2; ring|]. rewrite H4 by lia. ring. }
  rewrite (sum_ext _ _ _ E), sum_plus, sum_scale, sum_widths.
  assert (T : sum (fun a => if (a =? 0)%nat then 0 else nth m W 0 * width F ne (a - 1)) ne + nth m W 0 * width F ne (ne - 1) = nth m W 0 * sum (width F ne) ne).
  { clear - Hne. destruct ne as [|t]; [lia|]. clear Hne. replace (S t - 1)%nat with t by lia.
    assert (Q : forall u, sum (fun a => if (a =? 0)%nat then 0 else nth m W 0 * width F (S t) (a - 1)) (S u) = nth m W 0 * sum (width F (S t)) u).
    { induction u as [|u IH]; [rewrite sum_S, !sum_0; cbn [Nat.eqb]; ring|]. rewrite sum_S, IH, (sum_S (width F (S t))). cbn [Nat.eqb]. replace (S u - 1)%nat with u by lia. ring. }
    rewrite Q, sum_S. ring. }
  rewrite sum_widths in T. lra.
Qed.
Lemma blocks_rising m G W l w : (0 < m)%nat -> unit_rule m G W -> open_rule G -> blocks m G W l w ->
  rising l (ne * m) /\ forall a i, (a < ne)%nat -> (i < m)%nat -> bound F ne a < l (a * m + i)%nat < bound F ne (a + 1).
Proof.
  intros Hm (Lg & _ & I & _) O H.
  assert (B : forall a i, (a < ne)%nat -> (i < m)%nat -> bound F ne a < l (a * m + i)%nat < bound F ne (a + 1)).
  { intros a i Ha Hi. destruct (H a i Ha Hi) as (-> & _). unfold place. pose proof (width_pos a Ha) as P. unfold width in P.
    assert (0 < nth i G 0 < 1) by (apply (proj1 (Forall_forall _ G) O), nth_In; lia). nra. }
  split; [|exact B]. apply rising_steps. intros j Hj.
  pose proof (Nat.div_mod_eq j m) as D. pose proof (Nat.mod_upper_bound j m ltac:(lia)) as U. set (a := (j / m)%nat) in *. set (i := (j mod m)%nat) in *.
  assert (a < ne)%nat by nia. replace j with (a * m + i)%nat by nia. destruct (Nat.eq_dec (i + 1) m) as [Em|Nm].
  - replace (a * m + i + 1)%nat with ((a + 1) * m + 0)%nat by lia. apply Rlt_trans with (bound F ne (a + 1)); apply B; nia.
  - replace (a * m + i + 1)%nat with (a * m + (i + 1))%nat by lia. rewrite !(fun x y u v => proj1 (H x y u v)) by lia. unfold place.
    pose proof (width_pos a ltac:(assumption)) as P. unfold width in P. pose proof (increasing_steps G I i ltac:(lia)). nra.
Qed.
End Column.
