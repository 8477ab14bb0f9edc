(** * Lemmas about column operators *)
From Coq Require Import Reals List Arith Lia Lra Bool.
From Verif Require Import ColModel ColSpec.
Import ListNotations.
Local Open Scope R_scope.

(** stored ranges are in bounds and cover the non-zero coefficients *)
Record wf (A : op) : Prop := Wf {
  wf_rows : Forall (fun row => length row = ncol A) (coef A);
  wf_beg : length (beg A) = nrow A;
  wf_fin : length (fin A) = nrow A;
  wf_range : forall r, (r < nrow A)%nat -> (nth r (fin A) 0 <= ncol A)%nat;
  wf_cover : forall r l, (r < nrow A)%nat -> (l < ncol A)%nat ->
    ~ (nth r (beg A) 0 <= l < nth r (fin A) 0)%nat -> getc A r l = 0 }.

Lemma accumulate_sum f : forall n b i, fold_left (fun s l => s + f l) (seq b n) i = i + fold_right Rplus 0 (map f (seq b n)).
Proof. induction n as [|n IH]; intros b i; cbn [seq fold_left map fold_right]; [ring|]. rewrite IH. ring. Qed.
Lemma sum_app f a b : sum f (a + b) = sum f a + fold_right Rplus 0 (map f (seq a b)).
Proof.
  unfold sum. rewrite seq_app, map_app. change (0 + a)%nat with a. generalize (map f (seq a b)). generalize (map f (seq 0 a)).
  intros u v. induction u as [|x u IH]; cbn; [ring|]. rewrite IH. ring.
Qed.
Lemma zeros (f : nat -> R) l : (forall x, In x l -> f x = 0) -> fold_right Rplus 0 (map f l) = 0.
Proof. induction l as [|a l IH]; intros H; cbn; [reflexivity|]. rewrite H, IH by (auto with datatypes). ring. Qed.
Lemma accumulate_cover f i b e n : (e <= n)%nat -> (forall l, (l < n)%nat -> ~ (b <= l < e)%nat -> f l = 0) ->
  accumulate f i b e = i + sum f n.
Proof.
  intros He Z. unfold accumulate. rewrite accumulate_sum. f_equal.
  destruct (le_lt_dec e b) as [L|L].
  - replace (e - b)%nat with 0%nat by lia. cbn. symmetry. apply zeros. intros x Hx. apply in_seq in Hx. apply Z; lia.
  - replace n with (b + (n - b))%nat by lia. rewrite sum_app. unfold sum.
    rewrite (zeros f (seq 0 b)) by (intros x Hx; apply in_seq in Hx; apply Z; lia).
    replace (n - b)%nat with ((e - b) + (n - e))%nat by lia. rewrite seq_app, map_app.
    assert (T : fold_right Rplus 0 (map f (seq (b + (e - b)) (n - e))) = 0) by (apply zeros; intros x Hx; apply in_seq in Hx; apply Z; lia).
    revert T. generalize (map f (seq (b + (e - b)) (n - e))). generalize (map f (seq b (e - b))). intros u v T.
    rewrite Rplus_0_l. induction u as [|x u IH]; cbn; [symmetry; exact T|]. rewrite IH. ring.
Qed.
Lemma accumulate_full f i n : accumulate f i 0 n = i + sum f n.
Proof. apply accumulate_cover; [lia|]. intros; lia. Qed.
Lemma apply1_matvec A col r : wf A -> (r < nrow A)%nat -> apply1 A col r = matvec (getc A) (ncol A) col r.
Proof.
  intros W Hr. unfold apply1, matvec. rewrite (accumulate_cover _ _ _ _ (ncol A)); [ring|apply wf_range; assumption|].
  intros l Hl N. rewrite (wf_cover A W r l Hr Hl N). ring.
Qed.
Lemma sum_ext f g n : (forall l, (l < n)%nat -> f l = g l) -> sum f n = sum g n.
Proof. intros H. unfold sum. f_equal. apply map_ext_in. intros x Hx. apply in_seq in Hx. apply H. lia. Qed.
Lemma sum_S f n : sum f (S n) = sum f n + f n.
Proof. replace (S n) with (n + 1)%nat by lia. rewrite sum_app. cbn. ring. Qed.
Lemma sum_0 f : sum f 0 = 0. Proof. reflexivity. Qed.
Lemma sum_scale c f n : sum (fun l => c * f l) n = c * sum f n.
Proof. induction n; [rewrite !sum_0; ring|]. rewrite !sum_S, IHn. ring. Qed.
Lemma sum_scale_r c f n : sum (fun l => f l * c) n = sum f n * c.
Proof. induction n; [rewrite !sum_0; ring|]. rewrite !sum_S, IHn. ring. Qed.
Lemma sum_plus f g n : sum (fun l => f l + g l) n = sum f n + sum g n.
Proof. induction n; [rewrite !sum_0; ring|]. rewrite !sum_S, IHn. ring. Qed.
Lemma sum_swap f n m : sum (fun i => sum (fun j => f i j) m) n = sum (fun j => sum (fun i => f i j) n) m.
Proof.
  induction n as [|n IH].
  - rewrite sum_0. induction m as [|m IHm]; [reflexivity|]. rewrite sum_S, <- IHm, sum_0. ring.
  - rewrite sum_S, IH, <- sum_plus. apply sum_ext. intros l _. rewrite sum_S. reflexivity.
Qed.
Lemma sum_zero f n : (forall l, (l < n)%nat -> f l = 0) -> sum f n = 0.
Proof. intros H. rewrite (sum_ext f (fun l => 0 * 0) n) by (intros; rewrite H by assumption; ring). rewrite sum_scale. ring. Qed.
Lemma sum_delta k (f : nat -> R) n : (k < n)%nat -> sum (fun l => (if (l =? k)%nat then 1 else 0) * f l) n = f k.
Proof.
  intros H. induction n as [|n IH]; [lia|]. rewrite sum_S. destruct (Nat.eqb_spec n k) as [->|Ne].
  - rewrite sum_zero; [ring|]. intros l Hl. destruct (Nat.eqb_spec l k); [lia|ring].
  - rewrite IH by lia. ring.
Qed.
Lemma nth_map_seq {A} (f : nat -> A) n i d : (i < n)%nat -> nth i (map f (seq 0 n)) d = f i.
Proof.
  intros H. rewrite (nth_indep _ d (f 0%nat)) by (rewrite map_length, seq_length; exact H).
  rewrite (map_nth f), seq_nth by exact H. reflexivity.
Qed.

(** the scan finds a range covering the non-zeros *)
Lemma scan_snd row : forall j found b e, (e <= j)%nat ->
  let '(b', e') := scan row j found b e in
  (e' <= j + length row)%nat /\ (e <= e')%nat /\ (found = true -> b' = b) /\
  (forall l, (l < length row)%nat -> nth l row 0 <> 0 ->
     (j + l < e')%nat /\ (found = false -> (b' <= j + l)%nat)) /\
  (found = false -> (forall l, (l < length row)%nat -> nth l row 0 = 0) -> b' = b /\ e' = e).
Proof.
  induction row as [|c r IH]; intros j found b e He; cbn [scan length].
  - repeat split; try lia; intros; lia.
  - destruct (Req_EM_T c 0) as [->|Nz].
    + generalize (IH (S j) found b e ltac:(lia)). destruct (scan r (S j) found b e) as (b', e').
      intros (A & B & C & D & E). split; [lia|]. split; [lia|]. split; [exact C|]. split.
      * intros [|l] Hl N; cbn [nth] in N; [lra|]. destruct (D l ltac:(lia) N) as (D1 & D2). split; [lia|]. intros F. specialize (D2 F). lia.
      * intros F Z. apply E; [exact F|]. intros l Hl. apply (Z (S l)). lia.
    + generalize (IH (S j) true (if found then b else j) (S j) ltac:(lia)).
      destruct (scan r (S j) true (if found then b else j) (S j)) as (b', e').
      intros (A & B & C & D & E). specialize (C eq_refl). split; [lia|]. split; [lia|]. split; [intros ->; exact C|]. split.
      * intros [|l] Hl N.
        -- split; [lia|]. intros ->. lia.
        -- cbn [nth] in N. destruct (D l ltac:(lia) N) as (D1 & _). split; [lia|]. intros ->. lia.
      * intros _ Z. exfalso. apply Nz. apply (Z 0%nat). lia.
Qed.
Lemma scan_cover row : (snd (scan row 0 false 0 0) <= length row)%nat /\
  forall l, (l < length row)%nat -> ~ (fst (scan row 0 false 0 0) <= l < snd (scan row 0 false 0 0))%nat -> nth l row 0 = 0.
Proof.
  generalize (scan_snd row 0 false 0 0 ltac:(lia)). destruct (scan row 0 false 0 0) as (b, e). cbn [fst snd].
  intros (A & _ & _ & D & _). split; [lia|]. intros l Hl N.
  destruct (Req_EM_T (nth l row 0) 0) as [|Nz]; [assumption|]. destruct (D l Hl Nz) as (D1 & D2). specialize (D2 eq_refl). lia.
Qed.

Lemma compose_ok A B : ncol A = nrow B -> nrow A <> 0%nat -> ncol B <> 0%nat ->
  exists C, compose A B = Ok C /\ wf C /\ nrow C = nrow A /\ ncol C = ncol B /\
    forall i j, (i < nrow A)%nat -> (j < ncol B)%nat -> getc C i j = sum (fun k => getc A i k * getc B k j) (ncol A).
Proof.
  intros E Na Nb. unfold compose. rewrite E, Nat.eqb_refl. cbn [negb].
  destruct (Nat.eqb_spec (nrow A) 0); [contradiction|]. destruct (Nat.eqb_spec (ncol B) 0); [contradiction|]. cbn [orb].
  set (new := map _ (seq 0 (nrow A))). eexists. split; [reflexivity|].
  assert (Ln : length new = nrow A) by (unfold new; rewrite map_length, seq_length; reflexivity).
  assert (Rn : forall i, (i < nrow A)%nat -> nth i new [] = map (fun j => accumulate (fun k => getc A i k * getc B k j) 0 0 (nrow B)) (seq 0 (ncol B)))
    by (intros i Hi; unfold new; rewrite nth_map_seq by exact Hi; reflexivity).
  assert (Ll : Forall (fun row => length row = ncol B) new).
  { apply Forall_forall. intros row Hr. unfold new in Hr. apply in_map_iff in Hr. destruct Hr as (i & <- & _). rewrite map_length, seq_length. reflexivity. }
  clearbody new. split; [|split; [exact Ln|split; [reflexivity|]]].
  - constructor; unfold nrow; cbn [coef beg fin ncol].
    + exact Ll.
    + apply map_length.
    + apply map_length.
    + intros r Hr. assert (I : In (nth r new []) new) by (apply nth_In; exact Hr).
      rewrite Forall_forall in Ll. specialize (Ll _ I).
      rewrite (nth_indep _ 0%nat (snd (scan [] 0 false 0 0))) by (rewrite map_length; exact Hr).
      rewrite (map_nth (fun row => snd (scan row 0 false 0 0))). rewrite <- Ll. apply scan_cover.
    + intros r l Hr Hl. assert (I : In (nth r new []) new) by (apply nth_In; exact Hr).
      rewrite Forall_forall in Ll. specialize (Ll _ I).
      rewrite (nth_indep (map _ new) 0%nat (fst (scan [] 0 false 0 0))) by (rewrite map_length; exact Hr).
      rewrite (map_nth (fun row => fst (scan row 0 false 0 0))).
      rewrite (nth_indep (map _ new) 0%nat (snd (scan [] 0 false 0 0))) by (rewrite map_length; exact Hr).
      rewrite (map_nth (fun row => snd (scan row 0 false 0 0))).
      unfold getc. cbn [coef]. intros N. apply scan_cover; [lia|exact N].
  - intros i j Hi Hj. unfold getc at 1. cbn [coef]. rewrite Rn by exact Hi. rewrite nth_map_seq by exact Hj.
    rewrite accumulate_full. apply Rplus_0_l.
Qed.

Lemma identity_ok n : n <> 0%nat -> exists I, identity n = Ok I /\ wf I /\ nrow I = n /\ ncol I = n /\
  (forall i j, (i < n)%nat -> (j < n)%nat -> getc I i j = if (j =? i)%nat then 1 else 0).
Proof.
  intros Hn. unfold identity. destruct (Nat.eqb_spec n 0); [contradiction|]. eexists. split; [reflexivity|].
  set (new := map _ (seq 0 n)).
  assert (Ln : length new = n) by (unfold new; rewrite map_length, seq_length; reflexivity).
  assert (G : forall i j, (i < n)%nat -> (j < n)%nat -> nth j (nth i new []) 0 = if (j =? i)%nat then 1 else 0)
    by (intros i j Hi Hj; unfold new; rewrite nth_map_seq by exact Hi; rewrite nth_map_seq by exact Hj; reflexivity).
  assert (Ll : Forall (fun row => length row = n) new).
  { apply Forall_forall. intros row Hr. unfold new in Hr. apply in_map_iff in Hr. destruct Hr as (i & <- & _). rewrite map_length, seq_length. reflexivity. }
  clearbody new. split; [|split; [exact Ln|split; [reflexivity|exact G]]].
  constructor; unfold nrow; cbn [coef beg fin ncol]; rewrite ?Ln.
  - exact Ll.
  - rewrite map_length, seq_length. reflexivity.
  - rewrite map_length, seq_length. reflexivity.
  - intros r Hr. rewrite nth_map_seq by exact Hr. lia.
  - intros r l Hr Hl. rewrite !nth_map_seq by exact Hr. unfold getc. cbn [coef]. rewrite G by assumption.
    destruct (Nat.eqb_spec l r); [lia|reflexivity].
Qed.

(** accumulating in place *)
Lemma accumulate_at_ok k f : forall n b m,
  let m' := fold_left (fun m l => upd m k (m k + f l)) (seq b n) m in
  m' k = fold_left (fun s l => s + f l) (seq b n) (m k) /\ forall i, i <> k -> m' i = m i.
Proof.
  induction n as [|n IH]; intros b m; cbn zeta; cbn [seq fold_left]; [split; reflexivity|].
  destruct (IH (S b) (upd m k (m k + f b))) as (A & B). cbn zeta in A, B. rewrite A. split.
  - unfold upd at 1. rewrite Nat.eqb_refl. reflexivity.
  - intros i Hi. rewrite B by exact Hi. unfold upd. destruct (Nat.eqb_spec i k); [contradiction|reflexivity].
Qed.
Lemma apply_levels (s : nat -> R) (v : nat -> nat -> R) (b e : nat -> nat) (x : nat -> nat) n :
  (forall i j, (i < n)%nat -> (j < n)%nat -> x i = x j -> i = j) -> forall out,
  let m := fold_left (fun m k => accumulate_at (x k) (v k) (b k) (e k) (upd m (x k) (s k))) (seq 0 n) out in
  (forall k, (k < n)%nat -> m (x k) = accumulate (v k) (s k) (b k) (e k)) /\
  (forall i, (forall k, (k < n)%nat -> i <> x k) -> m i = out i).
Proof.
  intros Inj out. induction n as [|n IH]; cbn zeta.
  - cbn. split; [intros; lia|reflexivity].
  - rewrite seq_S, fold_left_app. cbn [fold_left Nat.add].
    destruct (IH (fun i j Hi Hj => Inj i j ltac:(lia) ltac:(lia))) as (A & B). cbn zeta in A, B.
    set (m := fold_left _ (seq 0 n) out) in *. clearbody m.
    unfold accumulate_at.
    destruct (accumulate_at_ok (x n) (v n) (e n - b n) (b n) (upd m (x n) (s n))) as (C & D). cbn zeta in C, D.
    split.
    + intros k Hk. destruct (Nat.eq_dec k n) as [->|Ne].
      * rewrite C. unfold accumulate. f_equal. unfold upd. rewrite Nat.eqb_refl. reflexivity.
      * rewrite D by (intros F; apply Ne; apply Inj; [lia|lia|exact F]).
        unfold upd at 1. destruct (Nat.eqb_spec (x k) (x n)) as [F|_]; [exfalso; apply Ne; apply Inj; [lia|lia|exact F]|].
        apply A. lia.
    + intros i Hi. rewrite D by (apply Hi; lia). unfold upd. destruct (Nat.eqb_spec i (x n)) as [F|_]; [exfalso; apply (Hi n); [lia|exact F]|].
      apply B. intros k Hk. apply Hi. lia.
Qed.
Lemma accumulate_init f i b e : accumulate f i b e = i + accumulate f 0 b e.
Proof. unfold accumulate. rewrite !accumulate_sum. ring. Qed.
Lemma accumulate_ext f g i b e : (forall l, f l = g l) -> accumulate f i b e = accumulate g i b e.
Proof. intros H. unfold accumulate. rewrite !accumulate_sum. f_equal. f_equal. apply map_ext. exact H. Qed.
