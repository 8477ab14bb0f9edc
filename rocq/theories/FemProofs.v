(** * Lemmas about the vertical operators *)
From Coq Require Import Reals List Arith Lia Lra Bool.
From Verif Require Import QuadSpec InterpModel InterpSpec InterpProofs ColModel ColSpec ColProofs FemModel FemSpec.
Import ListNotations.
Local Open Scope R_scope.

Definition val (row : list R) (k : nat) : R := nth k row 0.
Definition block (off : nat) (c : list R) (k : nat) : R :=
  if ((off <=? k) && (k <? off + length c))%nat then nth (k - off) c 0 else 0.

Lemma modify_ok row off m g : (off + m <= length row)%nat ->
  exists r, modify row off m g = Some r /\ length r = length row /\
    forall k, (k < length row)%nat -> val r k = if ((off <=? k) && (k <? off + m))%nat then g (k - off)%nat (val row k) else val row k.
Proof.
  intros H. unfold modify. destruct (Nat.leb_spec (off + m) (length row)); [|lia].
  eexists. split; [reflexivity|]. split; [rewrite map_length, seq_length; reflexivity|].
  intros k Hk. unfold val at 1. rewrite nth_map_seq by exact Hk. reflexivity.
Qed.
Lemma zero_row_val n k : val (zero_row n) k = 0.
Proof. unfold val, zero_row. apply nth_repeat. Qed.
Lemma zero_row_length n : length (zero_row n) = n.
Proof. apply repeat_length. Qed.
Lemma block_nth off c k : block off c k = if ((off <=? k) && (k <? off + length c))%nat then nth (k - off) c 0 else 0.
Proof. reflexivity. Qed.
Lemma put_ok row off c : (off + length c <= length row)%nat ->
  (forall k, (off <= k < off + length c)%nat -> val row k = 0) ->
  exists r, put row off c = Some r /\ length r = length row /\ forall k, (k < length row)%nat -> val r k = val row k + block off c k.
Proof.
  intros H Z. destruct (modify_ok row off (length c) (fun i _ => nth i c 0) H) as (r & E & L & V).
  exists r. split; [exact E|]. split; [exact L|]. intros k Hk. rewrite V, block_nth by exact Hk.
  destruct (Nat.leb_spec off k), (Nat.ltb_spec k (off + length c)); cbn [andb]; try (rewrite Z by lia); ring.
Qed.
Lemma add_ok row off w c : (off + length c <= length row)%nat ->
  exists r, add row off w c = Some r /\ length r = length row /\ forall k, (k < length row)%nat -> val r k = val row k + w * block off c k.
Proof.
  intros H. destruct (modify_ok row off (length c) (fun i v => v + w * nth i c 0) H) as (r & E & L & V).
  exists r. split; [exact E|]. split; [exact L|]. intros k Hk. rewrite V, block_nth by exact Hk.
  destruct (Nat.leb_spec off k), (Nat.ltb_spec k (off + length c)); cbn [andb]; ring.
Qed.
Lemma seq_off off m : seq off m = map (Nat.add off) (seq 0 m).
Proof.
  induction off as [|off IH]; [symmetry; apply map_id|].
  rewrite <- seq_shift, IH, map_map. reflexivity.
Qed.
Lemma block_sum off c f n : (off + length c <= n)%nat ->
  sum (fun k => block off c k * f k) n = sum (fun i => nth i c 0 * f (off + i)%nat) (length c).
Proof.
  intros H. replace n with (off + (length c + (n - off - length c)))%nat by lia. rewrite sum_app.
  rewrite (sum_zero _ off).
  2: { intros l Hl. rewrite block_nth. destruct (Nat.leb_spec off l); [lia|]. cbn. ring. }
  rewrite Rplus_0_l, seq_app, map_app, fold_right_app.
  rewrite (zeros _ (seq (off + length c) _)).
  2: { intros l Hl. apply in_seq in Hl. rewrite block_nth. destruct (Nat.ltb_spec l (off + length c)); [lia|]. rewrite andb_false_r. ring. }
  unfold sum. f_equal. rewrite seq_off, map_map. apply map_ext_in. intros i Hi. apply in_seq in Hi. rewrite block_nth.
  destruct (Nat.leb_spec off (off + i)), (Nat.ltb_spec (off + i) (off + length c)); try lia. cbn [andb].
  replace (off + i - off)%nat with i by lia. reflexivity.
Qed.
Lemma weighted_sum c x f : weighted c x f = sum (fun i => nth i c 0 * f (x i)) (length c).
Proof. reflexivity. Qed.
(** weights on a run of the points xs that are exact there, seen as a row *)
Lemma block_exact k n xs off s c : exact_derivative k n (fun j => nth (off + j) xs 0) s c -> (off + n <= length xs)%nat ->
  forall p g, (length p <= n)%nat -> nth_derivative k (peval p) g ->
  sum (fun l => block off c l * peval p (nth l xs 0)) (length xs) = g s.
Proof.
  intros (L & H) B p g Lp Hg. rewrite (block_sum off c (fun l => peval p (nth l xs 0))) by lia.
  rewrite <- (H p g Lp Hg). reflexivity.
Qed.

Lemma rows_ok f n : (forall l, (l < n)%nat -> exists t, f l = Some t) ->
  exists L, rows f (seq 0 n) = Some L /\ length L = n /\ forall l d, (l < n)%nat -> f l = Some (nth l L d).
Proof.
  assert (G : forall m s, (forall l, (s <= l < s + m)%nat -> exists t, f l = Some t) ->
    exists L, rows f (seq s m) = Some L /\ length L = m /\ forall l d, (l < m)%nat -> f (s + l)%nat = Some (nth l L d)).
  { induction m as [|m IH]; intros s H; cbn [seq rows].
    - exists []. repeat split. intros; lia.
    - destruct (H s ltac:(lia)) as (t & E). rewrite E. cbn [bind].
      destruct (IH (S s) ltac:(intros; apply H; lia)) as (L & EL & LL & HL). rewrite EL. cbn [bind].
      exists (t :: L). split; [reflexivity|]. split; [cbn; lia|]. intros [|l] d Hl; cbn [nth].
      + rewrite Nat.add_0_r. exact E.
      + rewrite <- Nat.add_succ_comm. apply HL. lia. }
  intros H. destruct (G n 0%nat) as (L & A & B & C); [intros; apply H; lia|]. exists L. auto.
Qed.
(** a finished row is in bounds and its range covers its non-zeros *)
Definition good (nin : nat) (t : frow) : Prop :=
  let '(r, b, e) := t in length r = nin /\ (e <= nin)%nat /\ forall k, (k < nin)%nat -> ~ (b <= k < e)%nat -> val r k = 0.
Lemma build_ok nin nout f (Q : nat -> (nat -> R) -> nat -> nat -> Prop) : nin <> 0%nat -> nout <> 0%nat ->
  (forall l, (l < nout)%nat -> exists r b e, f l = Some (r, b, e) /\ good nin (r, b, e) /\ Q l (val r) b e) ->
  exists A, build nin nout f = Built A /\ wf A /\ nrow A = nout /\ ncol A = nin /\
    forall l, (l < nout)%nat -> Q l (getc A l) (nth l (beg A) 0%nat) (nth l (fin A) 0%nat).
Proof.
  intros Hi Ho H. unfold build. destruct (Nat.eqb_spec nin 0); [contradiction|]. destruct (Nat.eqb_spec nout 0); [contradiction|]. cbn [orb].
  destruct (rows_ok f nout) as (L & EL & LL & HL).
  { intros l Hl. destruct (H l Hl) as (r & b & e & E & _). eexists. exact E. }
  rewrite EL. eexists. split; [reflexivity|].
  set (d := (@nil R, 0%nat, 0%nat)).
  assert (X : forall l, (l < nout)%nat -> exists r b e, nth l L d = (r, b, e) /\ good nin (r, b, e) /\ Q l (val r) b e).
  { intros l Hl. destruct (H l Hl) as (r & b & e & E & G). exists r, b, e. rewrite (HL l d Hl) in E. injection E as E. split; assumption. }
  assert (C : forall l, (l < nout)%nat -> nth l (map (fun t : frow => fst (fst t)) L) [] = fst (fst (nth l L d))).
  { intros l Hl. change (@nil R) with (fst (fst d)) at 1. rewrite (map_nth (fun t : frow => fst (fst t))). reflexivity. }
  assert (B : forall l, (l < nout)%nat -> nth l (map (fun t : frow => snd (fst t)) L) 0%nat = snd (fst (nth l L d))).
  { intros l Hl. change 0%nat with (snd (fst d)) at 1. rewrite (map_nth (fun t : frow => snd (fst t))). reflexivity. }
  assert (E : forall l, (l < nout)%nat -> nth l (map (fun t : frow => snd t) L) 0%nat = snd (nth l L d)).
  { intros l Hl. change 0%nat with (snd d) at 1. rewrite (map_nth (fun t : frow => snd t)). reflexivity. }
  assert (Ln : length (map (fun t : frow => fst (fst t)) L) = nout) by (rewrite map_length; exact LL).
  split; [|split; [exact Ln|split; [reflexivity|]]].
  - constructor; unfold nrow; cbn [coef beg fin ncol]; rewrite ?Ln.
    + apply Forall_forall. intros row Hr. apply (@In_nth (list R) _ _ []) in Hr. destruct Hr as (l & Hl & <-). rewrite Ln in Hl. rewrite C by exact Hl.
      destruct (X l Hl) as (r & b & e & -> & G & _). apply G.
    + rewrite map_length. exact LL.
    + rewrite map_length. exact LL.
    + intros r Hr. rewrite E by exact Hr. destruct (X r Hr) as (? & ? & ? & -> & G & _). apply G.
    + intros r l Hr Hl. rewrite B, E by exact Hr. unfold getc. cbn [coef]. rewrite C by exact Hr.
      destruct (X r Hr) as (? & ? & ? & -> & G & _). cbn [fst snd]. apply G. exact Hl.
  - intros l Hl. cbn [beg fin]. rewrite B, E by exact Hl. unfold getc. cbn [coef]. rewrite C by exact Hl.
    destruct (X l Hl) as (r & b & e & -> & _ & q). exact q.
Qed.

(** from a property of the coefficients to the operator *)
Lemma exact_apply A xs r y k n : wf A -> (r < nrow A)%nat -> ncol A = length xs ->
  (forall p g, (length p <= n)%nat -> nth_derivative k (peval p) g ->
     sum (fun l => getc A r l * peval p (nth l xs 0)) (length xs) = g y) ->
  row_exact k n A xs r y.
Proof. intros W Hr C H p g Lp Hg. rewrite apply1_matvec by assumption. unfold matvec. rewrite C. apply H; assumption. Qed.
Lemma local_apply A r b e : nth r (beg A) 0%nat = b -> nth r (fin A) 0%nat = e -> row_local A r b e.
Proof.
  intros <- <- u v H. unfold apply1, accumulate. rewrite !accumulate_sum. f_equal. f_equal. apply map_ext_in.
  intros l Hl. apply in_seq in Hl. rewrite H by lia. reflexivity.
Qed.

(** ** spacing *)
Lemma spacing_pos : 0 < / 10 ^ 14 < / 10 ^ 11 /\ 2 * eps < / 10 ^ 11.
Proof.
  assert (P : forall n, 0 < 10 ^ n) by (intros; apply pow_lt; lra). repeat split.
  - apply Rinv_0_lt_compat, P.
  - apply Rinv_lt_contravar; [apply Rmult_lt_0_compat; apply P|]. apply Rlt_pow; [lra|lia].
  - unfold eps. change (10 ^ 12) with (10 * 10 ^ 11). rewrite Rinv_mult_distr by (apply Rgt_not_eq; first [apply P | lra]).
    assert (0 < / 10 ^ 11) by apply Rinv_0_lt_compat, P. lra.
Qed.
Lemma spaced_lt l i j : spaced l -> (i < j < length l)%nat -> nth i l 0 < nth j l 0.
Proof. intros S H. generalize (S i j H) spacing_pos. lra. Qed.
Lemma spaced_run l off n : spaced l -> (off + n <= length l)%nat -> forall i j, (i < n)%nat -> (j < n)%nat -> i <> j ->
  / 10 ^ 14 <= Rabs (nth (off + i) l 0 - nth (off + j) l 0).
Proof.
  intros S H i j Hi Hj Ne. pose proof spacing_pos. destruct (lt_dec i j) as [L|L].
  - generalize (S (off + i) (off + j) ltac:(lia))%nat. rewrite Rabs_minus_sym. intros G. rewrite Rabs_pos_eq; lra.
  - generalize (S (off + j) (off + i) ltac:(lia))%nat. intros G. rewrite Rabs_pos_eq; lra.
Qed.
Lemma run_distinct l off n : spaced l -> (off + n <= length l)%nat -> distinct n (fun j => nth (off + j) l 0).
Proof.
  intros S H i j Hi Hj Ne E. generalize (spaced_run l off n S H i j Hi Hj Ne). rewrite E.
  replace (nth (off + j) l 0 - nth (off + j) l 0) with 0 by ring. rewrite Rabs_R0.
  assert (0 < / 10 ^ 14) by (apply Rinv_0_lt_compat, pow_lt; lra). lra.
Qed.
Lemma sub_ok l off n : (off + n <= length l)%nat -> sub l off n = Some (fun j => nth (off + j) l 0).
Proof. intros H. unfold sub. destruct (Nat.leb_spec (off + n) (length l)); [reflexivity|lia]. Qed.
Lemma rd_ok l i : (i < length l)%nat -> rd l i = Some (nth i l 0).
Proof. intros H. unfold rd. apply nth_error_nth'. exact H. Qed.
Lemma run_lagrange l off n s : spaced l -> (off + n <= length l)%nat ->
  exists c, lagrange n (fun j => nth (off + j) l 0) s = Some c /\ exact_derivative 0 n (fun j => nth (off + j) l 0) s c.
Proof.
  intros S H. exists (map (fun i => D (fun j => nth (off + j) l 0) i 0 (others n i) s) (seq 0 n)). split.
  - apply fill_map. intros i Hi. apply in_seq in Hi. apply lagrange1_ok; [apply run_distinct; assumption|lia].
  - apply exact_of; [apply run_distinct; assumption|reflexivity].
Qed.
Lemma run_diff l off n s : spaced l -> (off + n <= length l)%nat ->
  exists c, diff n (fun j => nth (off + j) l 0) s = Some c /\ exact_derivative 1 n (fun j => nth (off + j) l 0) s c.
Proof.
  intros S H. exists (map (fun i => D (fun j => nth (off + j) l 0) i 1 (others n i) s) (seq 0 n)). split.
  - apply fill_map. intros i Hi. apply in_seq in Hi. apply diffs_ok; [apply run_distinct; assumption| |lia].
    apply separated_samplable. intros; apply (spaced_run l off n); assumption.
  - apply exact_of; [apply run_distinct; assumption|reflexivity].
Qed.

(** ** the search *)
Lemma eps_pos : 0 < eps. Proof. unfold eps. apply Rinv_0_lt_compat, pow_lt. lra. Qed.
(** point out lies in element a, up to eps; on: within eps of its upper edge *)
Definition located (edges : list R) (o ne : nat) (out : R) (a : nat) (on : bool) : Prop :=
  (a < ne)%nat /\ (on = true -> (S a < ne)%nat /\ Rabs (out - nth ((a + 1) * o) edges 0) <= eps) /\
  (a <> 0%nat -> nth (a * o) edges 0 + eps <= out) /\
  (on = false -> S a <> ne -> out < nth ((a + 1) * o) edges 0 - eps).
Lemma search_ok edges o ne out : (0 < ne)%nat -> length edges = (ne * o + 1)%nat ->
  exists a on, search edges o out (ne - 1) 0 = Some (a, on) /\ located edges o ne out a on.
Proof.
  intros Hne L.
  assert (G : forall n a, (a + n = ne - 1)%nat -> (a <> 0%nat -> nth (a * o) edges 0 + eps <= out) ->
    exists a' on, search edges o out n a = Some (a', on) /\ located edges o ne out a' on).
  { induction n as [|n IH]; intros a E Ha; cbn [search].
    - exists a, false. split; [reflexivity|]. repeat split; intros; try discriminate; try assumption; try lia; auto.
    - rewrite rd_ok by (rewrite L; nia). cbn [bind].
      destruct (Rlt_dec out (nth ((a + 1) * o) edges 0 - eps)) as [L1|L1].
      + exists a, false. split; [reflexivity|]. repeat split; intros; try discriminate; try assumption; try lia; auto. 
      + destruct (Rlt_dec out (nth ((a + 1) * o) edges 0 - eps + 2 * eps)) as [L2|L2].
        * exists a, true. split; [reflexivity|]. repeat split; intros; try discriminate; try assumption; try lia; auto.
          apply Rabs_le. lra.
        * apply IH; [lia|]. intros _. replace (S a) with (a + 1)%nat by lia. lra. }
  apply G; [lia|]. intros F. contradiction.
Qed.
Lemma edge_weights_ok edges o ne a : (0 < o)%nat -> length edges = (ne * o + 1)%nat -> spaced edges -> (S a < ne)%nat ->
  exists wl wr, edge_weights edges o a = Some (wl, wr) /\ wl + wr = 1 /\ 0 < wl /\ 0 < wr.
Proof.
  intros Ho L S H. unfold edge_weights. rewrite !rd_ok by (rewrite L; nia). cbn [bind].
  assert (A : 0 < nth ((a + 1) * o) edges 0 - nth (a * o) edges 0)
    by (generalize (spaced_lt edges (a * o) ((a + 1) * o) S ltac:(rewrite L; nia)); lra).
  assert (B : 0 < nth ((a + 2) * o) edges 0 - nth ((a + 1) * o) edges 0)
    by (generalize (spaced_lt edges ((a + 1) * o) ((a + 2) * o) S ltac:(rewrite L; nia)); lra).
  apply (pow_lt _ o) in A. apply (pow_lt _ o) in B.
  set (u := (nth ((a + 1) * o) edges 0 - nth (a * o) edges 0) ^ o) in *.
  set (v := (nth ((a + 2) * o) edges 0 - nth ((a + 1) * o) edges 0) ^ o) in *.
  rewrite !div_ok by lra. cbn [bind]. do 2 eexists. split; [reflexivity|].
  split; [field; lra|]. split; apply Rdiv_lt_0_compat; lra.
Qed.
Lemma block_out off c k : ~ (off <= k < off + length c)%nat -> block off c k = 0.
Proof. intros H. rewrite block_nth. destruct (Nat.leb_spec off k), (Nat.ltb_spec k (off + length c)); cbn; try reflexivity. lia. Qed.
