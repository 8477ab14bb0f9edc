(** * C37: grid spacing *)
From Coq Require Import ZArith Reals Bool List Lra Lia ZifyBool.
From Verif Require Import QuadModel QuadSpec QuadProofs QuadProps SpacModel SpacSpec.
Import ListNotations.
Local Open Scope Z_scope.
Ltac Zify.zify_post_hook ::= Z.to_euclidean_division_equations.

Lemma at_nth l s : (s < length l)%nat -> at_ l (Z.of_nat s) = Some (nth s l 0%R).
Proof. intros H. unfold at_. replace ((0 <=? Z.of_nat s) && (Z.of_nat s <? Z.of_nat (length l))) with true by lia. rewrite Nat2Z.id. apply nth_error_nth', H. Qed.

(** quotient and remainder of e * per + s *)
Lemma div_pos per e s : 0 < per -> 0 <= s < per -> 0 <= e -> Z.quot (e * per + s) per = e /\ Z.rem (e * per + s) per = s.
Proof.
  intros P S E. assert (0 <= e * per) by (apply Z.mul_nonneg_nonneg; lia).
  rewrite Z.quot_div_nonneg, Z.rem_mod_nonneg by lia. rewrite Z.div_add_l, Z.div_small by lia.
  rewrite (Z.add_comm (e * per) s), Z.mod_add, Z.mod_small by lia. split; lia.
Qed.
Lemma div_neg per e s : 0 < per -> 0 < s < per -> e < 0 -> Z.quot (e * per + s) per = e + 1 /\ Z.rem (e * per + s) per = s - per.
Proof.
  intros P S E. replace (e * per + s) with (- ((- (e + 1)) * per + (per - s))) by ring.
  rewrite Z.quot_opp_l, Z.rem_opp_l by lia. destruct (div_pos per (- (e + 1)) (per - s) P ltac:(lia) ltac:(lia)) as (-> & ->). lia.
Qed.
Lemma div_mul per e : 0 < per -> Z.quot (e * per) per = e /\ Z.rem (e * per) per = 0.
Proof. intros P. split; [apply Z.quot_mul; lia|apply Z.rem_mul; lia]. Qed.
Lemma neg_index per e s : 0 < per -> 0 <= s < per -> (e * per + s <? 0) = (e <? 0).
Proof.
  intros P S. destruct (Z_lt_dec e 0).
  - assert (e * per <= -1 * per) by (apply Z.mul_le_mono_nonneg_r; lia). lia.
  - assert (0 <= e * per) by (apply Z.mul_nonneg_nonneg; lia). lia.
Qed.
Lemma node_pos s per g e k : 0 < per -> (k < length g)%nat -> Z.of_nat k < per -> per <= order s -> 0 <= e ->
  element_node s per g (e * per + Z.of_nat k) = Value (line_of (zero s) (delta s) g e k).
Proof.
  intros P L K O E. unfold element_node. destruct (div_pos per e (Z.of_nat k) P ltac:(lia) E) as (-> & ->).
  rewrite neg_index by lia. replace (e <? 0) with false by lia. replace (order s <=? Z.of_nat k) with false by lia.
  rewrite at_nth by assumption. unfold line_of. do 2 f_equal. ring.
Qed.
Lemma node_neg s per g e k j : 0 < per -> 0 < Z.of_nat k < per -> e < 0 -> Z.of_nat j = order s + Z.of_nat k - per ->
  element_node s per g (e * per + Z.of_nat k) =
    if order s <=? Z.of_nat j then Threw else if (j <? length g)%nat then Value (line_of (zero s) (delta s) g e j) else Outside.
Proof.
  intros P K E J. unfold element_node. destruct (div_neg per e (Z.of_nat k) P ltac:(lia) E) as (-> & ->).
  rewrite neg_index by lia. replace (e <? 0) with true by lia. cbn zeta.
  replace (order s + (Z.of_nat k - per)) with (Z.of_nat j) by lia.
  destruct (order s <=? Z.of_nat j); [reflexivity|].
  destruct (Nat.ltb_spec j (length g)) as [H|H].
  - rewrite at_nth by lia. unfold line_of. do 2 f_equal. replace (e + 1 - 1) with e by lia. ring.
  - unfold at_. replace ((0 <=? Z.of_nat j) && (Z.of_nat j <? Z.of_nat (length g))) with false by lia. reflexivity.
Qed.
Lemma node_neg0 s per g e : 0 < per -> e < 0 -> element_node s per g (e * per) = Threw.
Proof.
  intros P E. unfold element_node. destruct (div_mul per e P) as (-> & ->).
  pose proof (neg_index per e 0 P ltac:(lia)) as N. rewrite Z.add_0_r in N. rewrite N. replace (e <? 0) with true by lia. cbn zeta.
  replace (order s <=? order s + 0) with true by lia. reflexivity.
Qed.

(** ** uniform spacing *)
Theorem C37_uniform : forall d z i, (0 < d)%R -> exists n e e' n',
  uniform_node d z i = Value n /\ uniform_edge d z i = Value e /\ uniform_edge d z (i + 1) = Value e' /\ uniform_node d z (i + 1) = Value n' /\
  (e < n < e' /\ e' = e + d /\ n' = n + d /\ n = (e + e') / 2)%R /\ uniform_area d i = Value (e' - e)%R.
Proof.
  intros d z i Hd. do 4 eexists. repeat (split; [reflexivity|]). rewrite plus_IZR. split.
  - split; [split; [lra|]|split; [ring|split; [ring|field]]]. lra.
  - unfold uniform_area. f_equal. ring.
Qed.
Print Assumptions C37_uniform.

(** ** repeated Gauss-Lobatto spacing: every index from the first below zero up
    to a full element is correct, and below that all but the multiples of the
    order, where it throws *)
Theorem C37_repeated : forall s e k, 0 < order s -> Z.of_nat (length (pts s)) = order s -> Z.of_nat k < order s ->
  repeated_node s (e * order s + Z.of_nat k) =
    if (e <? 0) && (k =? 0)%nat then Threw else Value (line_of (zero s) (delta s) (pts s) e k).
Proof.
  intros s e k P L K. unfold repeated_node. destruct (Z.ltb_spec e 0) as [E|E].
  - destruct (Nat.eqb_spec k 0) as [->|N].
    + cbn [andb Z.of_nat]. rewrite Z.add_0_r. apply node_neg0; assumption.
    + cbn [andb]. rewrite (node_neg _ _ _ e k k) by lia. replace (order s <=? Z.of_nat k) with false by lia.
      replace (k <? length (pts s))%nat with true by lia. reflexivity.
  - cbn [andb]. apply node_pos; lia.
Qed.
Print Assumptions C37_repeated.
Theorem C37_repeated_area : forall s e k, 0 < order s -> Z.of_nat (length (wts s)) = order s -> Z.of_nat k < order s -> 0 <= e ->
  repeated_area s (e * order s + Z.of_nat k) = Value (nth k (wts s) 0%R).
Proof.
  intros s e k P L K E. unfold repeated_area. destruct (div_pos (order s) e (Z.of_nat k) P ltac:(lia) E) as (_ & ->).
  rewrite at_nth by lia. reflexivity.
Qed.
Print Assumptions C37_repeated_area.
(** ** mixed spacing: nodes like the above; edges carry the first n of the n+1
    Gauss-Lobatto points *)
Theorem C37_mixed : forall s e k, 0 < order (fst s) -> Z.of_nat (length (pts (fst s))) = order (fst s) ->
  order (snd s) = order (fst s) -> Z.of_nat (length (pts (snd s))) = order (fst s) + 1 -> Z.of_nat k < order (fst s) ->
  mixed_node s (e * order (fst s) + Z.of_nat k) =
    (if (e <? 0) && (k =? 0)%nat then Threw else Value (line_of (zero (fst s)) (delta (fst s)) (pts (fst s)) e k)) /\
  mixed_edge s (e * order (fst s) + Z.of_nat k) =
    (if (e <? 0) && (k =? 0)%nat then Threw else Value (line_of (zero (snd s)) (delta (snd s)) (pts (snd s)) e k)).
Proof.
  intros s e k P L O L' K. split; [apply (C37_repeated (fst s)); assumption|].
  unfold mixed_edge. rewrite O. destruct (Z.ltb_spec e 0) as [E|E].
  - destruct (Nat.eqb_spec k 0) as [->|N].
    + cbn [andb Z.of_nat]. rewrite Z.add_0_r. apply node_neg0; assumption.
    + cbn [andb]. rewrite (node_neg _ _ _ e k k) by lia. replace (order (snd s) <=? Z.of_nat k) with false by lia.
      replace (k <? length (pts (snd s)))%nat with true by lia. reflexivity.
  - cbn [andb]. apply node_pos; lia.
Qed.
Print Assumptions C37_mixed.
(** ** shared-node Gauss-Lobatto spacing: correct for indices from zero; below
    zero it throws on multiples of n-1 and otherwise returns the next node *)
Theorem C37_lobatto : forall s e k, 2 <= order s -> Z.of_nat (length (pts s)) = order s -> Z.of_nat k < order s - 1 ->
  lobatto_node s (e * (order s - 1) + Z.of_nat k) =
    if e <? 0 then (if (k =? 0)%nat then Threw else Value (line_of (zero s) (delta s) (pts s) e (S k)))
    else Value (line_of (zero s) (delta s) (pts s) e k).
Proof.
  intros s e k P L K. unfold lobatto_node. destruct (Z.ltb_spec e 0) as [E|E].
  - destruct (Nat.eqb_spec k 0) as [->|N].
    + cbn [Z.of_nat]. rewrite Z.add_0_r. apply node_neg0; lia.
    + rewrite (node_neg _ _ _ e k (S k)) by lia. replace (order s <=? Z.of_nat (S k)) with false by lia.
      replace (S k <? length (pts s))%nat with true by lia. reflexivity.
  - apply node_pos; lia.
Qed.
Print Assumptions C37_lobatto.
Theorem C37_lobatto_area : forall s e k, 2 <= order s -> Z.of_nat (length (wts s)) = order s -> Z.of_nat k < order s - 1 -> 0 <= e ->
  lobatto_area s (e * (order s - 1) + Z.of_nat k) = Value (if (k =? 0)%nat then 2 * nth 0 (wts s) 0%R else nth k (wts s) 0%R)%R.
Proof.
  intros s e k P L K E. unfold lobatto_area. destruct (div_pos (order s - 1) e (Z.of_nat k) ltac:(lia) ltac:(lia) E) as (_ & ->).
  destruct (Nat.eqb_spec k 0) as [->|N].
  - change (Z.of_nat 0 =? 0) with true. cbn iota. change 0 with (Z.of_nat 0) at 1. rewrite at_nth by lia. reflexivity.
  - replace (Z.of_nat k =? 0) with false by lia. rewrite at_nth by lia. reflexivity.
Qed.
Print Assumptions C37_lobatto_area.
Theorem C37_mixed_area : forall s e k, 0 < order (fst s) -> Z.of_nat (length (wts (fst s))) = order (fst s) ->
  order (snd s) = order (fst s) -> Z.of_nat (length (wts (snd s))) = order (fst s) + 1 -> Z.of_nat k < order (fst s) -> 0 <= e ->
  mixed_node_area s (e * order (fst s) + Z.of_nat k) = Value (nth k (wts (fst s)) 0%R) /\
  mixed_edge_area s (e * order (fst s) + Z.of_nat k) = Value (if (k =? 0)%nat then 2 * nth 0 (wts (snd s)) 0%R else nth k (wts (snd s)) 0%R)%R.
Proof.
  intros s e k P L O L' K E. split; [apply (C37_repeated_area (fst s)); assumption|].
  unfold mixed_edge_area. rewrite O. destruct (div_pos (order (fst s)) e (Z.of_nat k) P ltac:(lia) E) as (_ & ->).
  rewrite at_nth by lia. destruct (Nat.eqb_spec k 0) as [->|N]; [reflexivity|]. replace (Z.of_nat k =? 0) with false by lia. reflexivity.
Qed.
Print Assumptions C37_mixed_area.

(** ** the spacings with tabulated points *)
Lemma increasing_nth l : increasing l -> forall i j, (i < j < length l)%nat -> (nth i l 0 < nth j l 0)%R.
Proof.
  induction l as [|x l IH]; intros I i j H; [cbn in H; lia|].
  assert (increasing l) as I' by (destruct l; [exact Logic.I|apply I]).
  destruct j as [|j]; [lia|]. destruct i as [|i]; [|cbn; apply IH; [exact I'|cbn in H; lia]].
  cbn [nth]. destruct l as [|y l]; [cbn in H; lia|]. destruct I as (Hxy & _).
  destruct j as [|j]; [exact Hxy|]. eapply Rlt_trans; [exact Hxy|]. apply (IH I' 0%nat (S j)). cbn in H |- *; lia.
Qed.
Lemma nth_last (l : list R) d : nth (length l - 1) l d = last l d.
Proof. induction l as [|x [|y l] IH]; [reflexivity|reflexivity|]. cbn [length Nat.sub last nth] in *. rewrite Nat.sub_0_r in IH. exact IH. Qed.
Lemma make_ok n d z : 2 <= n <= 10 -> (0 < d)%R -> exists s, make_repeated d z n = Some s /\ make_lobatto d z n = Some s /\
  order s = n /\ delta s = d /\ zero s = z /\ Z.of_nat (length (pts s)) = n /\ Z.of_nat (length (wts s)) = n /\
  (forall i j, (i < j < Z.to_nat n)%nat -> (nth i (pts s) 0 < nth j (pts s) 0)%R) /\
  nth 0 (pts s) 0%R = 0%R /\ nth (Z.to_nat (n - 1)) (pts s) 0%R = d /\
  integrates (Z.to_nat (2 * n - 3)) (20 / IZR (10 ^ 16)) 0 d (pts s) (wts s).
Proof.
  intros Hn Hd. destruct (C49_lobatto n 0 d Hn Hd) as (g & w & E & Lg & Lw & I & H0 & H1 & _ & _ & In).
  exists (Spacing d z n g w). unfold make_repeated, make_lobatto, make. replace (n <? 2) with false by lia. rewrite E. cbn.
  repeat (split; [reflexivity|]). split; [exact Lg|]. split; [exact Lw|]. split; [intros i j H; apply increasing_nth; [exact I|lia]|].
  split; [destruct g; [reflexivity|exact H0]|]. split; [|exact In]. rewrite <- H1, <- nth_last. f_equal. lia.
Qed.
(** repeated: indices split into element and point; points of an element run
    from its left to its right end in order; the last point of an element
    coincides with the first of the next; the sequence is never decreasing *)
Theorem C37_repeated_tabulated : forall n d z, 2 <= n <= 10 -> (0 < d)%R -> exists s, make_repeated d z n = Some s /\
  (forall i, - n < i -> exists x y, repeated_node s i = Value x /\ repeated_node s (i + 1) = Value y /\ (x <= y)%R) /\
  (forall i, - n < i -> exists x, repeated_node s i = Value x /\ repeated_node s (i + n) = Value (x + d)%R) /\
  (forall e, 0 <= e -> repeated_node s (e * n) = Value (z + IZR e * d)%R) /\
  (forall e, -1 <= e -> repeated_node s (e * n + (n - 1)) = Value (z + IZR (e + 1) * d)%R) /\
  (forall i, i < 0 -> (n | i) -> repeated_node s i = Threw).
Proof.
  intros n d z Hn Hd. destruct (make_ok n d z Hn Hd) as (s & E & _ & O & D & Z0 & L & _ & I & H0 & H1 & _).
  exists s. split; [exact E|].
  assert (forall e k, Z.of_nat k < n -> repeated_node s (e * n + Z.of_nat k) = if (e <? 0) && (k =? 0)%nat then Threw else Value (z + IZR e * d + nth k (pts s) 0)%R) as N.
  { intros e k K. rewrite <- O at 1. rewrite C37_repeated by lia. unfold line_of. rewrite Z0, D. reflexivity. }
  assert (forall i, - n < i -> i <> - n -> exists e k, i = e * n + Z.of_nat k /\ Z.of_nat k < n /\ (e <? 0) && (k =? 0)%nat = false) as Sp.
  { intros i Hi _. exists (i / n), (Z.to_nat (i mod n)). pose proof (Z.div_mod i n ltac:(lia)). pose proof (Z.mod_pos_bound i n ltac:(lia)).
    rewrite Z2Nat.id by lia. split; [lia|]. split; [lia|].
    destruct (Z.ltb_spec (i / n) 0) as [Q|Q]; [|reflexivity]. cbn [andb]. apply Nat.eqb_neq. intros M.
    assert (i mod n = 0) by lia. assert (n * (i / n) <= n * -1) by (apply Z.mul_le_mono_nonneg_l; lia). lia. }
  split; [|split; [|split; [|split]]].
  - intros i Hi. destruct (Sp i Hi ltac:(lia)) as (e & k & -> & K & B).
    destruct (Z_lt_dec (Z.of_nat k) (n - 1)) as [Q|Q].
    + do 2 eexists. rewrite N, B by lia. split; [reflexivity|]. replace (e * n + Z.of_nat k + 1) with (e * n + Z.of_nat (S k)) by lia.
      rewrite N by lia. replace (S k =? 0)%nat with false by lia. rewrite andb_false_r. split; [reflexivity|].
      pose proof (I k (S k) ltac:(lia)). lra.
    + assert (Z.of_nat k = n - 1) as Ek by lia. do 2 eexists. rewrite N, B by lia. split; [reflexivity|].
      replace (e * n + Z.of_nat k + 1) with ((e + 1) * n + Z.of_nat 0) by lia. rewrite N by lia.
      assert (-1 <= e) as Ee. { destruct (Z_lt_dec e (-1)); [exfalso|lia]. assert (e * n <= -2 * n) by (apply Z.mul_le_mono_nonneg_r; lia). lia. }
      replace (e + 1 <? 0) with false by lia. cbn [andb]. split; [reflexivity|]. rewrite H0, plus_IZR.
      replace k with (Z.to_nat (n - 1)) by lia. rewrite H1. lra.
  - intros i Hi. destruct (Sp i Hi ltac:(lia)) as (e & k & -> & K & B). eexists. rewrite N, B by lia. split; [reflexivity|].
    replace (e * n + Z.of_nat k + n) with ((e + 1) * n + Z.of_nat k) by lia. rewrite N by lia.
    replace ((e + 1 <? 0) && (k =? 0)%nat) with false by lia. f_equal. rewrite plus_IZR. ring.
  - intros e He. replace (e * n) with (e * n + Z.of_nat 0) by lia. rewrite N by lia. replace (e <? 0) with false by lia. cbn [andb]. rewrite H0. f_equal. ring.
  - intros e He. replace (n - 1) with (Z.of_nat (Z.to_nat (n - 1))) at 1 by lia. rewrite N by lia. replace (Z.to_nat (n - 1) =? 0)%nat with false by lia. rewrite andb_false_r, H1. f_equal. rewrite plus_IZR. ring.
  - intros i Hi (q & ->). replace (q * n) with (q * n + Z.of_nat 0) by lia. rewrite N by lia.
    replace (q <? 0) with true by (symmetry; apply Z.ltb_lt; destruct (Z_lt_dec q 0); [assumption|exfalso; assert (0 <= q * n) by (apply Z.mul_nonneg_nonneg; lia); lia]). reflexivity.
Qed.
Print Assumptions C37_repeated_tabulated.
(** shared nodes: strictly increasing and periodic from index zero on, and the
    areas of one period add up to the element width to rounding of the tables *)
Theorem C37_lobatto_tabulated : forall n d z, 2 <= n <= 10 -> (0 < d)%R -> exists s, make_lobatto d z n = Some s /\
  (forall i, 0 <= i -> exists x y, lobatto_node s i = Value x /\ lobatto_node s (i + 1) = Value y /\ (x < y)%R) /\
  (forall i, 0 <= i -> exists x, lobatto_node s i = Value x /\ lobatto_node s (i + (n - 1)) = Value (x + d)%R) /\
  lobatto_node s 0 = Value z.
Proof.
  intros n d z Hn Hd. destruct (make_ok n d z Hn Hd) as (s & _ & E & O & D & Z0 & L & _ & I & H0 & H1 & _).
  exists s. split; [exact E|].
  assert (forall e k, 0 <= e -> Z.of_nat k < n - 1 -> lobatto_node s (e * (n - 1) + Z.of_nat k) = Value (z + IZR e * d + nth k (pts s) 0)%R) as N.
  { intros e k He K. rewrite <- O at 1. rewrite C37_lobatto by lia. replace (e <? 0) with false by lia. unfold line_of. rewrite Z0, D. reflexivity. }
  assert (forall i, 0 <= i -> exists e k, i = e * (n - 1) + Z.of_nat k /\ Z.of_nat k < n - 1 /\ 0 <= e) as Sp.
  { intros i Hi. exists (i / (n - 1)), (Z.to_nat (i mod (n - 1))). pose proof (Z.div_mod i (n - 1) ltac:(lia)). pose proof (Z.mod_pos_bound i (n - 1) ltac:(lia)).
    rewrite Z2Nat.id by lia. split; [lia|]. split; [lia|]. apply Z.div_pos; lia. }
  split; [|split].
  - intros i Hi. destruct (Sp i Hi) as (e & k & -> & K & He).
    destruct (Z_lt_dec (Z.of_nat k) (n - 2)) as [Q|Q].
    + do 2 eexists. rewrite N by lia. split; [reflexivity|]. replace (e * (n - 1) + Z.of_nat k + 1) with (e * (n - 1) + Z.of_nat (S k)) by lia.
      rewrite N by lia. split; [reflexivity|]. pose proof (I k (S k) ltac:(lia)). lra.
    + do 2 eexists. rewrite N by lia. split; [reflexivity|]. replace (e * (n - 1) + Z.of_nat k + 1) with ((e + 1) * (n - 1) + Z.of_nat 0) by lia.
      rewrite N by lia. split; [reflexivity|]. rewrite H0, plus_IZR. pose proof (I k (Z.to_nat (n - 1)) ltac:(lia)) as J. rewrite H1 in J. lra.
  - intros i Hi. destruct (Sp i Hi) as (e & k & -> & K & He). eexists. rewrite N by lia. split; [reflexivity|].
    replace (e * (n - 1) + Z.of_nat k + (n - 1)) with ((e + 1) * (n - 1) + Z.of_nat k) by lia. rewrite N by lia. f_equal. rewrite plus_IZR. ring.
  - replace 0 with (0 * (n - 1) + Z.of_nat 0) by lia. rewrite N by lia. rewrite H0. f_equal. ring.
Qed.
Print Assumptions C37_lobatto_tabulated.

(** areas *)
Lemma wsum_const g : forall w, length g = length w -> wsum (fun _ => 1%R) g w = total (length w) (fun k => nth k w 0%R).
Proof.
  assert (forall k f h, (forall i, (i < k)%nat -> f i = h i) -> total k f = total k h) as Ext.
  { induction k as [|k IH]; intros f h H; [reflexivity|]. cbn. rewrite (IH f h) by (intros i Hi; apply H; lia). f_equal. apply H. lia. }
  assert (forall k f, total (S k) f = f O + total k (fun i => f (S i)))%R as Sh.
  { induction k as [|k IH]; intros f; [cbn; ring|]. change (total (S (S k)) f) with (total (S k) f + f (S k))%R. rewrite IH. cbn. ring. }
  induction g as [|x g IH]; intros [|a w] L; try discriminate; [reflexivity|]. cbn [wsum length]. rewrite Sh, IH by (cbn in L; lia).
  cbn [nth]. rewrite Rmult_1_r. reflexivity.
Qed.
Lemma weights_total n d s : 2 <= n <= 10 -> (0 < d)%R -> make_repeated d 0 n = Some s ->
  (Rabs (total (Z.to_nat n) (fun k => nth k (wts s) 0) - d) <= 10 / IZR (10 ^ 16) * d)%R.
Proof.
  intros Hn Hd E. destruct (make_ok n d 0 Hn Hd) as (s' & E' & _ & O & D & Z0 & L & Lw & _ & _ & _ & In). rewrite E in E'. injection E' as <-.
  pose proof (In [1%R] (fun x => x) ltac:(cbn; lia)) as H.
  assert (forall x, derivable_pt_lim (fun x => x) x (peval [1%R] ((2 * x - 0 - d) / (d - 0)))) as Dx.
  { intros x. cbn. rewrite Rmult_0_r, Rplus_0_r. apply derivable_pt_lim_id. }
  specialize (H Dx). assert (forall g w, wsum (fun x => peval [1%R] ((2 * x - 0 - d) / (d - 0))) g w = wsum (fun _ => 1%R) g w) as Ew.
  { induction g as [|x g IH]; intros [|a w]; cbn [wsum]; try reflexivity. rewrite IH. cbn. ring. }
  rewrite Ew, wsum_const in H by lia. replace (length (wts s)) with (Z.to_nat n) in H by lia.
  cbn [abs_sum fold_right] in H. rewrite Rabs_R1 in H. change (IZR (10 ^ 16)) with (IZR 10000000000000000) in *. 
  replace (d - 0)%R with d in H by ring. eapply Rle_trans; [exact H|]. right. field.
Qed.
Theorem C37_areas : forall n d z e, 2 <= n <= 10 -> (0 < d)%R -> 0 <= e -> exists s a, make_repeated d z n = Some s /\
  (forall k, (k < Z.to_nat n)%nat -> repeated_area s (e * n + Z.of_nat k) = Value (a k)) /\
  (Rabs (total (Z.to_nat n) a - d) <= 10 / IZR (10 ^ 16) * d)%R.
Proof.
  intros n d z e Hn Hd He. destruct (make_ok n d z Hn Hd) as (s & E & _ & O & D & Z0 & L & Lw & _).
  exists s, (fun k => nth k (wts s) 0%R). split; [exact E|]. split.
  - intros k K. rewrite <- O at 1. apply C37_repeated_area; lia.
  - destruct (make_ok n d 0 Hn Hd) as (s0 & E0 & _). pose proof (weights_total n d s0 Hn Hd E0) as W.
    assert (wts s = wts s0) as ->; [|exact W].
    unfold make_repeated, make in E, E0. destruct (n <? 2); [discriminate|]. destruct (get_points _ _ _) as [[g w]|]; [|discriminate]. injection E as <-. injection E0 as <-. reflexivity.
Qed.
Print Assumptions C37_areas.

(** shared nodes: the areas of one period *)
Lemma first_last n d s : 2 <= n <= 10 -> make_repeated d 0 n = Some s -> nth 0 (wts s) 0%R = nth (Z.to_nat (n - 1)) (wts s) 0%R.
Proof.
  intros Hn E. assert (n = 2 \/ n = 3 \/ n = 4 \/ n = 5 \/ n = 6 \/ n = 7 \/ n = 8 \/ n = 9 \/ n = 10) as C by lia.
  unfold make_repeated, make in E.
  repeat (destruct C as [->|C]; [|try (subst n)]); cbn in E; injection E as <-; reflexivity.
Qed.
Theorem C37_lobatto_areas : forall n d z e, 2 <= n <= 10 -> (0 < d)%R -> 0 <= e -> exists s a, make_lobatto d z n = Some s /\
  (forall k, (k < Z.to_nat (n - 1))%nat -> lobatto_area s (e * (n - 1) + Z.of_nat k) = Value (a k)) /\
  (Rabs (total (Z.to_nat (n - 1)) a - d) <= 10 / IZR (10 ^ 16) * d)%R.
Proof.
  intros n d z e Hn Hd He. destruct (make_ok n d z Hn Hd) as (s & _ & E & O & D & Z0 & L & Lw & _).
  exists s, (fun k => if (k =? 0)%nat then 2 * nth 0 (wts s) 0 else nth k (wts s) 0)%R. split; [exact E|]. split.
  - intros k K. rewrite <- O at 1. apply C37_lobatto_area; lia.
  - destruct (make_ok n d 0 Hn Hd) as (s0 & E0 & _). pose proof (weights_total n d s0 Hn Hd E0) as W. pose proof (first_last n d s0 Hn E0) as F.
    assert (wts s = wts s0) as ->.
    { unfold make_repeated, make_lobatto, make in E, E0. destruct (n <? 2); [discriminate|]. destruct (get_points _ _ _) as [[g w]|]; [|discriminate]. injection E as <-. injection E0 as <-. reflexivity. }
    replace (Z.to_nat n) with (S (Z.to_nat (n - 1))) in W by lia. assert (0 < Z.to_nat (n - 1))%nat as P by lia.
    set (m := Z.to_nat (n - 1)) in *. clearbody m.
    assert (forall w : nat -> R, total m (fun k => if (k =? 0)%nat then 2 * w 0%nat else w k) = total m w + w 0%nat)%R as G.
    { clear -P. intros w. destruct m as [|m]; [lia|]. clear P. induction m as [|m IH]; [cbn; ring|]. change (total (S (S m)) w) with (total (S m) w + w (S m))%R.
      transitivity (total (S m) (fun k => if (k =? 0)%nat then 2 * w 0%nat else w k) + w (S m))%R; [reflexivity|]. rewrite IH. ring. }
    rewrite (G (fun k => nth k (wts s0) 0%R)). rewrite F. exact W.
Qed.
Print Assumptions C37_lobatto_areas.

(** ** the failures below zero, for the shared-node spacing of order four on
    unit elements: nodes -1 and 0 coincide, and node -3 throws; the repeated
    spacing throws at -4; areas at index -1 are read outside the array *)
Theorem C37_negative_refuted : forall s, make_lobatto 1 0 4 = Some s ->
  lobatto_node s (-1) = lobatto_node s 0 /\ lobatto_node s (-3) = Threw /\ repeated_node s (-4) = Threw /\
  lobatto_area s (-1) = Outside /\ repeated_area s (-1) = Outside.
Proof.
  intros s E. destruct (make_ok 4 1 0 ltac:(lia) ltac:(lra)) as (s' & _ & E' & O & D & Z0 & L & Lw & I & H0 & H1 & _). rewrite E in E'. injection E' as <-.
  split; [|split; [|split; [|split]]].
  - pose proof (C37_lobatto s (-1) 2 ltac:(lia) ltac:(lia) ltac:(lia)) as A. pose proof (C37_lobatto s 0 0 ltac:(lia) ltac:(lia) ltac:(lia)) as B.
    rewrite O in A, B. change (-1 * (4 - 1) + Z.of_nat 2) with (-1) in A. change (0 * (4 - 1) + Z.of_nat 0) with 0 in B. rewrite A, B. cbn [Z.ltb Z.compare Nat.eqb].
    unfold line_of. f_equal. rewrite H0, Z0, D. change (Z.to_nat (4 - 1)) with 3%nat in H1. rewrite H1. ring.
  - pose proof (C37_lobatto s (-1) 0 ltac:(lia) ltac:(lia) ltac:(lia)) as A. rewrite O in A. exact A.
  - pose proof (C37_repeated s (-1) 0 ltac:(lia) ltac:(lia) ltac:(lia)) as A. rewrite O in A. exact A.
  - unfold lobatto_area. rewrite O. reflexivity.
  - unfold repeated_area. rewrite O. reflexivity.
Qed.
Print Assumptions C37_negative_refuted.
Example C37_case : exists s, make_repeated 2 (-1) 3 = Some s /\ repeated_node s 7 = Value 4%R /\ repeated_node s (-1) = Value (-1)%R.
Proof.
  destruct (C37_repeated_tabulated 3 2 (-1) ltac:(lia) ltac:(lra)) as (s & E & _ & _ & _ & H & _).
  exists s. split; [exact E|]. destruct (make_ok 3 2 (-1) ltac:(lia) ltac:(lra)) as (s' & E' & _ & O & D & Z0 & L & _). rewrite E in E'. injection E' as <-.
  split.
  - pose proof (C37_repeated s 2 1 ltac:(lia) ltac:(lia) ltac:(lia)) as A. rewrite O in A. change (2 * 3 + Z.of_nat 1) with 7 in A. rewrite A. cbn [Z.ltb Z.compare andb].
    unfold line_of. f_equal. rewrite Z0, D. unfold make_repeated, make in E. cbn in E. injection E as <-. cbn [pts map nth].
    unfold scale_node, dec. lra.
  - specialize (H (-1) ltac:(lia)). change (-1 * 3 + (3 - 1)) with (-1) in H. rewrite H. f_equal. cbn. lra.
Qed.
