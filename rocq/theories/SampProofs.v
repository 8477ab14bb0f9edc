From Coq Require Import Reals ZArith List Bool Lia Lra.
From Coq Require Import ZifyBool.
From Verif Require Import QuadSpec InterpModel InterpSpec InterpProps ColSpec ColProofs LayoutModel LayoutSpec SampModel SampSpec.
Import ListNotations.
Local Open Scope R_scope.

Lemma ltr_true a b : ltr a b = true <-> a < b.
Proof. unfold ltr. destruct (Rlt_dec a b); split; intros; try lra; try discriminate; auto. Qed.
Lemma ltr_false a b : ltr a b = false <-> b <= a.
Proof. unfold ltr. destruct (Rlt_dec a b); split; intros; try lra; try discriminate; auto. Qed.
Lemma ler_true a b : ler a b = true <-> a <= b.
Proof. unfold ler. destruct (Rle_dec a b); split; intros; try lra; try discriminate; auto. Qed.
Lemma eps_pos : 0 < eps.
Proof. unfold eps. apply Rinv_0_lt_compat, pow_lt. lra. Qed.

Lemma trunc_nonneg q : 0 <= q -> IZR (trunc q) <= q < IZR (trunc q) + 1.
Proof. intros H. unfold trunc. destruct (Rle_dec 0 q); [|lra]. destruct (base_Int_part q). lra. Qed.
Lemma trunc_nonneg0 q : 0 <= q -> (0 <= trunc q)%Z.
Proof.
  intros H. destruct (trunc_nonneg q H) as (_ & L). assert (IZR (-1) < IZR (trunc q)) as K by lra. apply lt_IZR in K. lia.
Qed.
Lemma trunc_neg q : q < 0 -> (trunc q <= 0)%Z.
Proof.
  intros H. unfold trunc. destruct (Rle_dec 0 q); [lra|]. destruct (base_Int_part (- q)) as (_ & L).
  assert (IZR (-1) < IZR (Int_part (- q))) as K by lra. apply lt_IZR in K. lia.
Qed.

Section Axis.
Context (np halo : nat) (ax : axis) (a0 d : R) (g : nat -> R) (E : equal_elements np halo ax a0 d g).

Lemma edge_first : edge ax halo = a0.
Proof.
  pose proof (ee_nodes _ _ _ _ _ _ E 0 0) as K. rewrite (ee_first _ _ _ _ _ _ E) in K.
  replace (halo + 0 * np + 0)%nat with halo in K by lia. rewrite K; [cbn; ring| |].
  - pose proof (ee_some _ _ _ _ _ _ E). lia.
  - pose proof (ee_np _ _ _ _ _ _ E). lia.
Qed.
Lemma delta_is : element_delta np halo ax = d.
Proof.
  unfold element_delta. rewrite edge_first. pose proof (ee_some _ _ _ _ _ _ E) as P. pose proof (ee_np _ _ _ _ _ _ E).
  destruct (Z.eq_dec (elements ax) 1) as [O|O].
  - pose proof (ee_end _ _ _ _ _ _ E) as K. rewrite O in K. change (Z.to_nat 1) with 1%nat in K. rewrite Nat.mul_1_l in K. rewrite K. ring.
  - pose proof (ee_nodes _ _ _ _ _ _ E 1 0 ltac:(lia) ltac:(lia)) as K. rewrite (ee_first _ _ _ _ _ _ E) in K.
    replace (halo + 1 * np + 0)%nat with (halo + np)%nat in K by lia. rewrite K. cbn. ring.
Qed.
Lemma range_iff x : in_range np halo ax x = true <-> a0 - eps <= x <= a0 + IZR (elements ax) * d + eps.
Proof.
  unfold in_range. rewrite negb_true_iff, orb_false_iff, !ltr_false, edge_first, (ee_end _ _ _ _ _ _ E). tauto.
Qed.
Lemma element_bounds x : (0 <= element np halo ax x < elements ax)%Z.
Proof.
  pose proof (ee_some _ _ _ _ _ _ E). unfold element. cbv zeta.
  set (i := trunc _). destruct (Z.ltb_spec i 0); [destruct (Z.leb_spec (elements ax) 0); lia|].
  destruct (Z.leb_spec (elements ax) i); lia.
Qed.
Lemma element_holds x : a0 <= x <= a0 + IZR (elements ax) * d ->
  a0 + IZR (element np halo ax x) * d <= x <= a0 + (IZR (element np halo ax x) + 1) * d.
Proof.
  intros (L & U). pose proof (ee_some _ _ _ _ _ _ E) as P. pose proof (ee_pos _ _ _ _ _ _ E) as D.
  unfold element. cbv zeta. rewrite edge_first, delta_is.
  set (q := (x - a0) / d). assert (x = a0 + q * d) as X by (unfold q; field; lra).
  assert (0 <= q) as Q by (unfold q; apply Rmult_le_pos; [lra|left; apply Rinv_0_lt_compat, D]). clearbody q. subst x.
  pose proof (trunc_nonneg0 q Q) as T. destruct (trunc_nonneg q Q) as (T1 & T2).
  replace (trunc q <? 0)%Z with false by lia.
  destruct (Z.leb_spec (elements ax) (trunc q)) as [C|C].
  - apply IZR_le in C. assert (q <= IZR (elements ax)) as QE.
    { apply Rmult_le_reg_r with d; [exact D|]. lra. }
    assert (q = IZR (elements ax)) as -> by lra. rewrite minus_IZR. split; nra.
  - split; nra.
Qed.
Lemma element_near x : in_range np halo ax x = true ->
  a0 + IZR (element np halo ax x) * d - eps <= x <= a0 + (IZR (element np halo ax x) + 1) * d + eps.
Proof.
  intros R. apply range_iff in R. pose proof eps_pos as EP. pose proof (ee_pos _ _ _ _ _ _ E) as D. pose proof (ee_some _ _ _ _ _ _ E) as P.
  destruct (Rle_lt_dec a0 x) as [L|L].
  - destruct (Rle_lt_dec x (a0 + IZR (elements ax) * d)) as [U|U].
    + pose proof (element_holds x (conj L U)). lra.
    + assert (element np halo ax x = elements ax - 1)%Z as ->.
      { unfold element. cbv zeta. rewrite edge_first, delta_is. set (q := (x - a0) / d).
        assert (IZR (elements ax) < q) as Q. { apply Rmult_lt_reg_r with d; [exact D|]. unfold q. replace ((x - a0) / d * d) with (x - a0) by (field; lra). lra. }
        apply IZR_lt in P. pose proof (trunc_nonneg0 q ltac:(lra)). destruct (trunc_nonneg q ltac:(lra)) as (_ & T).
        assert (IZR (elements ax - 1) < IZR (trunc q)) as K by (rewrite minus_IZR; lra). apply lt_IZR in K.
        replace (trunc q <? 0)%Z with false by lia. replace (elements ax <=? trunc q)%Z with true by lia. reflexivity. }
      rewrite minus_IZR. lra.
  - assert (element np halo ax x = 0)%Z as ->; [|lra].
    unfold element. cbv zeta. rewrite edge_first, delta_is. set (q := (x - a0) / d).
    assert (q < 0) as Q. { apply Rmult_lt_reg_r with d; [exact D|]. unfold q. replace ((x - a0) / d * d) with (x - a0) by (field; lra). lra. }
    pose proof (trunc_neg q Q). destruct (Z.ltb_spec (trunc q) 0); [|replace (trunc q) with 0%Z by lia]; destruct (Z.leb_spec (elements ax) 0); lia.
Qed.
Lemma offset_nonneg x : (offset np halo ax x <? 0)%Z = false.
Proof. unfold offset. pose proof (element_bounds x). lia. Qed.
Lemma start_is x : start np halo ax x = (halo + Z.to_nat (element np halo ax x) * np)%nat.
Proof. unfold start, offset. pose proof (element_bounds x). lia. Qed.
Lemma start_nodes x m : (m < np)%nat ->
  edge ax (start np halo ax x + m)%nat = a0 + IZR (element np halo ax x) * d + g m /\ interior_ix np halo ax (start np halo ax x + m)%nat.
Proof.
  intros M. pose proof (element_bounds x) as B. rewrite start_is. split.
  - rewrite (ee_nodes _ _ _ _ _ _ E) by lia. rewrite INR_IZR_INZ, Z2Nat.id by lia. reflexivity.
  - unfold interior_ix. split; [lia|].
    assert (Z.to_nat (element np halo ax x) * np + np <= Z.to_nat (elements ax) * np)%nat; [|lia].
    replace (Z.to_nat (element np halo ax x) * np + np)%nat with (S (Z.to_nat (element np halo ax x)) * np)%nat by lia.
    apply Nat.mul_le_mono_r. lia.
Qed.
Lemma distinct_nodes x : distinct np (fun m => edge ax (start np halo ax x + m)%nat).
Proof.
  intros i j I J N. destruct (start_nodes x i I) as (-> & _). destruct (start_nodes x j J) as (-> & _).
  pose proof (ee_distinct _ _ _ _ _ _ E i j I J N). lra.
Qed.
Lemma coeffs_ok x : exists c, coeffs np halo ax x = Some c /\ exact_derivative 0 np (fun m => edge ax (start np halo ax x + m)%nat) x c.
Proof. unfold coeffs. apply C33_lagrange, distinct_nodes. Qed.
Lemma coeffs_node x m : (m < np)%nat -> x = edge ax (start np halo ax x + m)%nat ->
  coeffs np halo ax x = Some (map (fun i => if (i =? m)%nat then 1 else 0) (seq 0 np)).
Proof.
  intros M X. unfold coeffs. pose proof (C33_delta np _ m (distinct_nodes x) M) as K. cbv beta in K. rewrite <- X in K. exact K.
Qed.
(** the place of an interior node is a node of the chosen element *)
Lemma node_local i : interior_ix np halo ax i -> a0 <= edge ax i <= a0 + IZR (elements ax) * d /\
  exists m, (m < np)%nat /\ edge ax i = edge ax (start np halo ax (edge ax i) + m)%nat.
Proof.
  intros (I0 & I1). pose proof (ee_np _ _ _ _ _ _ E) as NP. pose proof (ee_pos _ _ _ _ _ _ E) as D.
  set (e := ((i - halo) / np)%nat). set (m := ((i - halo) mod np)%nat).
  assert (i = halo + e * np + m)%nat as Ei. { pose proof (Nat.div_mod (i - halo) np ltac:(lia)). fold e m in H. lia. }
  assert (m < np)%nat as M by (apply Nat.mod_upper_bound; lia).
  assert (Z.of_nat e < elements ax)%Z as Ee.
  { assert (e < Z.to_nat (elements ax))%nat; [|lia]. apply Nat.div_lt_upper_bound; lia. }
  clearbody e m. subst i. clear I0 I1.
  pose proof (ee_nodes _ _ _ _ _ _ E e m Ee M) as N. pose proof (ee_inside _ _ _ _ _ _ E m M) as G.
  assert (0 <= INR e) as P0 by apply pos_INR. assert (INR e + 1 <= IZR (elements ax)) as P1.
  { rewrite INR_IZR_INZ, <- plus_IZR. apply IZR_le. lia. }
  set (x := edge ax (halo + e * np + m)%nat) in *.
  assert (a0 <= x <= a0 + IZR (elements ax) * d) as R by (split; nra). split; [exact R|].
  pose proof (element_holds x R) as H. pose proof (element_bounds x) as B.
  set (f := element np halo ax x) in *.
  destruct (Z.lt_trichotomy f (Z.of_nat e)) as [L|[Q|L]].
  - exists (np - 1)%nat. split; [lia|]. destruct (start_nodes x (np - 1)%nat ltac:(lia)) as (-> & _). fold f. rewrite (ee_last _ _ _ _ _ _ E).
    assert (IZR f + 1 <= INR e) by (rewrite INR_IZR_INZ, <- plus_IZR; apply IZR_le; lia). nra.
  - exists m. split; [lia|]. destruct (start_nodes x m ltac:(lia)) as (-> & _). fold f. rewrite N, Q, <- INR_IZR_INZ. reflexivity.
  - exists 0%nat. split; [lia|]. destruct (start_nodes x 0%nat ltac:(lia)) as (-> & _). fold f. rewrite (ee_first _ _ _ _ _ _ E).
    assert (INR e + 1 <= IZR f) by (rewrite INR_IZR_INZ, <- plus_IZR; apply IZR_le; lia). nra.
Qed.
End Axis.

Lemma weighted_sum c x f n : length c = n -> sum (fun i => nth i c 0 * f (x i)) n = weighted c x f.
Proof. intros <-. reflexivity. Qed.
Lemma exact_poly n x s c f : exact_derivative 0 n x s c -> poly n f -> sum (fun i => nth i c 0 * f (x i)) n = f s.
Proof.
  intros (L & H) (p & Lp & Ef). rewrite weighted_sum by exact L.
  unfold weighted. rewrite (Ef s), <- (H p (peval p) Lp ltac:(cbn; intros; reflexivity)). unfold weighted.
  f_equal. apply map_ext. intros i. rewrite Ef. reflexivity.
Qed.
Lemma sum_delta n m (f : nat -> R) : (m < n)%nat ->
  sum (fun i => nth i (map (fun j => if (j =? m)%nat then 1 else 0) (seq 0 n)) 0 * f i) n = f m.
Proof.
  intros M. rewrite (sum_ext _ (fun i => if (i =? m)%nat then f m else 0)).
  2:{ intros i I. rewrite (nth_indep _ 0 ((fun j => if (j =? m)%nat then 1 else 0) 0%nat)) by (rewrite map_length, seq_length; lia).
      rewrite (map_nth (fun j => if (j =? m)%nat then 1 else 0)), seq_nth by lia. rewrite Nat.add_0_l.
      destruct (Nat.eqb_spec i m) as [->|]; ring. }
  clear -M. induction n as [|n IH]; [lia|]. rewrite sum_S.
  destruct (Nat.eq_dec m n) as [->|N].
  - rewrite Nat.eqb_refl, sum_zero; [ring|]. intros i I. replace (i =? n)%nat with false by lia. reflexivity.
  - replace (n =? m)%nat with false by lia. rewrite IH by lia. ring.
Qed.
Lemma sum_weight n la lb (d : nat -> nat -> R) : sum (fun m => sum (fun k => nth m la 0 * nth k lb 0 * d m k) n) n
  = sum (fun m => nth m la 0 * sum (fun k => nth k lb 0 * d m k) n) n.
Proof. apply sum_ext. intros m _. rewrite <- sum_scale. apply sum_ext. intros. ring. Qed.
Lemma blend_split np la lb ia ib d :
  blend np la lb ia ib d = sum (fun m => nth m la 0 * sum (fun n => nth n lb 0 * d (ia + m)%nat (ib + n)%nat) np) np.
Proof. unfold blend. apply (sum_weight np la lb (fun m k => d (ia + m)%nat (ib + k)%nat)). Qed.
Lemma blend_ext np la lb ia ib d d' : (forall m n, (m < np)%nat -> (n < np)%nat -> d (ia + m)%nat (ib + n)%nat = d' (ia + m)%nat (ib + n)%nat) ->
  blend np la lb ia ib d = blend np la lb ia ib d'.
Proof. intros H. unfold blend. apply sum_ext. intros m M. apply sum_ext. intros n N. rewrite H by assumption. reflexivity. Qed.
Lemma blend_minus np la lb ia ib d r : blend np la lb ia ib (fun i j => d i j - r i j) = blend np la lb ia ib d - blend np la lb ia ib r.
Proof.
  unfold blend. transitivity (sum (fun m => sum (fun n => nth m la 0 * nth n lb 0 * d (ia + m)%nat (ib + n)%nat) np
    + (-1) * sum (fun n => nth m la 0 * nth n lb 0 * r (ia + m)%nat (ib + n)%nat) np) np).
  - apply sum_ext. intros m _. rewrite <- sum_scale, <- sum_plus. apply sum_ext. intros. ring.
  - rewrite sum_plus, sum_scale. ring.
Qed.
Lemma scaled_is np la lb ia ib d J :
  sum (fun m => sum (fun n => nth m la 0 * nth n lb 0 * d (ia + m)%nat (ib + n)%nat / J) np) np = blend np la lb ia ib d / J.
Proof.
  unfold blend, Rdiv. rewrite Rmult_comm, <- sum_scale. apply sum_ext. intros m _. rewrite <- sum_scale. apply sum_ext. intros. ring.
Qed.
