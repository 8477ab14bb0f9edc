(** * Operators assembled element by element *)
From Coq Require Import Reals List Arith Lia Lra Bool.
From Verif Require Import QuadSpec InterpModel InterpSpec InterpProofs ColModel ColSpec ColProofs FemModel FemSpec FemProofs FemProofs2 FluxModel FluxSpec FluxProofs FluxProofs2.
Import ListNotations.
Local Open Scope R_scope.

Lemma loop_inv {S} (I : nat -> S -> Prop) body n : forall lo s, I lo s ->
  (forall k s, (lo <= k < lo + n)%nat -> I k s -> exists s', body k s = Some s' /\ I (Datatypes.S k) s') ->
  exists s', loop body (seq lo n) s = Some s' /\ I (lo + n)%nat s'.
Proof.
  induction n as [|n IH]; intros lo s H K; cbn [seq loop].
  - exists s. split; [reflexivity|]. rewrite Nat.add_0_r. exact H.
  - destruct (K lo s ltac:(lia) H) as (s1 & -> & H1). cbn [bind]. destruct (IH (Datatypes.S lo) s1 H1) as (s2 & E & H2).
    { intros k t Hk. apply K. lia. }
    exists s2. split; [exact E|]. replace (lo + Datatypes.S n)%nat with (Datatypes.S lo + n)%nat by lia. exact H2.
Qed.
Lemma collect_map {A} (f : nat -> option A) h l : (forall i, In i l -> f i = Some (h i)) -> collect f l = Some (map h l).
Proof.
  induction l as [|i l IH]; intros H; [reflexivity|]. cbn [collect map]. rewrite (H i (or_introl eq_refl)). cbn [bind].
  rewrite IH by (intros; apply H; right; assumption). reflexivity.
Qed.
Lemma rd2_ok (D : list (list R)) n m i j : length D = n -> (i < n)%nat -> (forall i, (i < n)%nat -> length (nth i D []) = m) -> (j < m)%nat ->
  rd2 D i j = Some (nth j (nth i D []) 0).
Proof.
  intros L Hi H Hj. unfold rd2. rewrite (nth_error_nth' D []) by lia. cbn [bind]. apply nth_error_nth'. rewrite H by exact Hi. exact Hj.
Qed.

(** ** filling blocks *)
Definition upd_at (s s' : filling) (p0 q0 : nat) (f : R -> R) : Prop :=
  (forall p q, fm s' p q = if ((p =? p0) && (q =? q0))%bool%nat then f (fm s p q) else fm s p q) /\ fb s' = fb s /\ fe s' = fe s.
Definition in_block (p0 n1 q0 n2 p q : nat) : bool := ((p0 <=? p) && (p <? p0 + n1) && (q0 <=? q) && (q <? q0 + n2))%bool%nat.
Lemma in_block_spec p0 n1 q0 n2 p q : BoolSpec ((p0 <= p < p0 + n1)%nat /\ (q0 <= q < q0 + n2)%nat) (~ ((p0 <= p < p0 + n1)%nat /\ (q0 <= q < q0 + n2)%nat)) (in_block p0 n1 q0 n2 p q).
Proof.
  unfold in_block. destruct (Nat.leb_spec p0 p), (Nat.ltb_spec p (p0 + n1)), (Nat.leb_spec q0 q), (Nat.ltb_spec q (q0 + n2)); cbn; constructor; lia.
Qed.
Lemma set_coef_ok nr nc i j v s : (i < nr)%nat -> (j < nc)%nat -> exists s', set_coef nr nc i j v s = Some s' /\ upd_at s s' i j (fun _ => v).
Proof.
  intros Hi Hj. unfold set_coef. destruct (Nat.ltb_spec i nr); [|lia]. destruct (Nat.ltb_spec j nc); [|lia]. cbn [andb].
  eexists. split; [reflexivity|]. split; [reflexivity|]. split; reflexivity.
Qed.
Lemma row_loop n2 p0 q0 body V : (forall i s, (i < n2)%nat -> exists s', body i s = Some s' /\ upd_at s s' p0 (i + q0) (V i)) ->
  forall s, exists s', loop body (seq 0 n2) s = Some s' /\
    (forall p q, fm s' p q = if in_block p0 1 q0 n2 p q then V (q - q0)%nat (fm s p q) else fm s p q) /\ fb s' = fb s /\ fe s' = fe s.
Proof.
  intros H s.
  destruct (loop_inv (fun k s' => (forall p q, fm s' p q = if in_block p0 1 q0 k p q then V (q - q0)%nat (fm s p q) else fm s p q) /\ fb s' = fb s /\ fe s' = fe s) body n2 0 s)
    as (s' & E & I).
  - split; [|split; reflexivity]. intros p q. destruct (in_block_spec p0 1 q0 0 p q) as [B|B]; [lia|reflexivity].
  - intros k t Hk (I1 & I2 & I3). destruct (H k t ltac:(lia)) as (t' & E & U1 & U2 & U3). exists t'. split; [exact E|].
    split; [|split; congruence]. intros p q. rewrite U1, I1.
    destruct (Nat.eqb_spec p p0), (Nat.eqb_spec q (k + q0)), (in_block_spec p0 1 q0 k p q), (in_block_spec p0 1 q0 (Datatypes.S k) p q); cbn [andb]; try reflexivity; try lia.
    subst. replace (k + q0 - q0)%nat with k by lia. reflexivity.
  - exists s'. split; [exact E|exact I].
Qed.
Lemma block_loop n1 n2 p0 q0 outer V :
  (forall j, (j < n1)%nat -> exists body, (forall s, outer j s = loop body (seq 0 n2) s) /\
     forall i s, (i < n2)%nat -> exists s', body i s = Some s' /\ upd_at s s' (j + p0) (i + q0) (V j i)) ->
  forall s, exists s', loop outer (seq 0 n1) s = Some s' /\
    (forall p q, fm s' p q = if in_block p0 n1 q0 n2 p q then V (p - p0)%nat (q - q0)%nat (fm s p q) else fm s p q) /\ fb s' = fb s /\ fe s' = fe s.
Proof.
  intros H s.
  destruct (loop_inv (fun k s' => (forall p q, fm s' p q = if in_block p0 k q0 n2 p q then V (p - p0)%nat (q - q0)%nat (fm s p q) else fm s p q) /\ fb s' = fb s /\ fe s' = fe s) outer n1 0 s)
    as (s' & E & I).
  - split; [|split; reflexivity]. intros p q. destruct (in_block_spec p0 0 q0 n2 p q) as [B|B]; [lia|reflexivity].
  - intros k t Hk (I1 & I2 & I3). destruct (H k ltac:(lia)) as (body & Eb & Hb). rewrite Eb.
    destruct (row_loop n2 (k + p0) q0 body (V k) Hb t) as (t' & E & U1 & U2 & U3). exists t'. split; [exact E|].
    split; [|split; congruence]. intros p q. rewrite U1, I1.
    destruct (in_block_spec (k + p0) 1 q0 n2 p q), (in_block_spec p0 k q0 n2 p q), (in_block_spec p0 (Datatypes.S k) q0 n2 p q); try reflexivity; try lia.
    replace (p - p0)%nat with k by lia. reflexivity.
  - exists s'. split; [exact E|exact I].
Qed.

(** ** bounds *)
Section Bounds.
Context (o ne w : nat) (Ho : (0 < o)%nat) (Hne : (0 < ne)%nat).
Let nr := (ne * o + 1)%nat.
(** the bounds of row p cover the columns of all elements that contain p *)
Definition covers (s : filling) (p : nat) : Prop := (fe s p <= ne * o + w)%nat /\
  forall a, (a < ne)%nat -> (a * o <= p <= (a + 1) * o)%nat -> (fb s p <= a * o)%nat /\ ((a + 1) * o + w <= fe s p)%nat.
(** after the rounds below a *)
Definition covered (a : nat) (s : filling) : Prop := forall p, (p < a * o \/ (a = ne /\ p = ne * o))%nat -> covers s p.
Lemma set_bounds_ok i b e s : (i < nr)%nat -> exists s', set_bounds nr i b e s = Some s' /\ fm s' = fm s /\
  (forall p, fb s' p = if (p =? i)%nat then b else fb s p) /\ (forall p, fe s' p = if (p =? i)%nat then e else fe s p).
Proof. intros H. unfold set_bounds. destruct (Nat.ltb_spec i nr); [|lia]. eexists. repeat split; reflexivity. Qed.
Lemma element_bounds_ok a s : (a < ne)%nat -> covered a s -> exists s', element_bounds nr o ne w a s = Some s' /\ fm s' = fm s /\ covered (a + 1) s'.
Proof.
  intros Ha Cv. unfold element_bounds.
  assert (K : (a * o + o <= ne * o)%nat) by nia. assert (KB : ((a + 1) * o = a * o + o)%nat) by lia.
  assert (S1 : exists s1, (if (a =? 0)%nat then set_bounds nr 0 0 (o + w) s else set_bounds nr (a * o) ((a - 1) * o) ((a + 1) * o + w) s) = Some s1 /\ fm s1 = fm s /\
    (forall p, p <> (a * o)%nat -> fb s1 p = fb s p /\ fe s1 p = fe s p) /\ fb s1 (a * o)%nat = ((a - 1) * o)%nat /\ fe s1 (a * o)%nat = ((a + 1) * o + w)%nat).
  { destruct (Nat.eqb_spec a 0) as [->|A0].
    - destruct (set_bounds_ok 0 0 (o + w) s ltac:(unfold nr; lia)) as (s1 & E & F & B1 & B2). exists s1. split; [exact E|]. split; [exact F|].
      cbn [Nat.mul]. split; [|rewrite B1, B2; cbn; split; lia]. intros p Hp. rewrite B1, B2. destruct (Nat.eqb_spec p 0); [lia|auto].
    - destruct (set_bounds_ok (a * o) ((a - 1) * o) ((a + 1) * o + w) s ltac:(unfold nr; lia)) as (s1 & E & F & B1 & B2). exists s1. split; [exact E|]. split; [exact F|].
      split; [|rewrite B1, B2, Nat.eqb_refl; split; lia]. intros p Hp. rewrite B1, B2. destruct (Nat.eqb_spec p (a * o)); [lia|auto]. }
  destruct S1 as (s1 & -> & F1 & U1 & V1 & V1'). cbn [bind].
  assert (S2 : exists s2, (if (a =? ne - 1)%nat then set_bounds nr ((a + 1) * o) (a * o) ((a + 1) * o + w) s1 else Some s1) = Some s2 /\ fm s2 = fm s /\
    (forall p, p <> ((a + 1) * o)%nat -> fb s2 p = fb s1 p /\ fe s2 p = fe s1 p) /\
    (a = (ne - 1)%nat -> fb s2 ((a + 1) * o)%nat = (a * o)%nat /\ fe s2 ((a + 1) * o)%nat = ((a + 1) * o + w)%nat)).
  { destruct (Nat.eqb_spec a (ne - 1)) as [A0|A0].
    - destruct (set_bounds_ok ((a + 1) * o) (a * o) ((a + 1) * o + w) s1 ltac:(unfold nr; lia)) as (s2 & E & F & B1 & B2). exists s2. split; [exact E|].
      split; [congruence|]. split; [|intros _; rewrite B1, B2, Nat.eqb_refl; auto]. intros p Hp. rewrite B1, B2. destruct (Nat.eqb_spec p ((a + 1) * o)); [lia|auto].
    - exists s1. split; [reflexivity|]. split; [exact F1|]. split; [auto|contradiction]. }
  destruct S2 as (s2 & -> & F2 & U2 & V2). cbn [bind].
  destruct (loop_inv (fun k s' => fm s' = fm s /\ forall p, if ((a * o <? p) && (p <? a * o + k))%bool%nat then fb s' p = (a * o)%nat /\ fe s' p = ((a + 1) * o + w)%nat
      else fb s' p = fb s2 p /\ fe s' p = fe s2 p)
      (fun j s => set_bounds nr (a * o + j) (a * o) ((a + 1) * o + w) s) (o - 1) 1 s2) as (s' & E' & F' & B').
  { split; [exact F2|]. intros p. destruct (Nat.ltb_spec (a * o) p), (Nat.ltb_spec p (a * o + 1)); cbn [andb]; auto; lia. }
  { intros k t Hk (I1 & I2). destruct (set_bounds_ok (a * o + k) (a * o) ((a + 1) * o + w) t ltac:(unfold nr; lia)) as (t' & E & F & B1 & B2). exists t'.
    split; [exact E|]. split; [congruence|]. intros p. rewrite B1, B2. specialize (I2 p).
    destruct (Nat.eqb_spec p (a * o + k)), (Nat.ltb_spec (a * o) p), (Nat.ltb_spec p (a * o + Datatypes.S k)), (Nat.ltb_spec p (a * o + k)); cbn [andb] in *; auto; lia. }
  exists s'. split; [exact E'|]. split; [exact F'|].
  replace (1 + (o - 1))%nat with o in B' by lia.
  assert (Last : (a = ne - 1)%nat -> covers s' ((a + 1) * o)).
  { intros A0. generalize (B' ((a + 1) * o)%nat). destruct (Nat.ltb_spec (a * o) ((a + 1) * o)), (Nat.ltb_spec ((a + 1) * o) (a * o + o)); cbn [andb]; try lia.
    intros (B1 & B2). destruct (V2 A0) as (C1 & C2). unfold covers. rewrite B1, B2, C1, C2. split; [nia|]. intros b Hb Hr. assert (b = a) by nia. subst b. lia. }
  intros p Hp.
  assert (Hp' : (p < a * o \/ p = a * o \/ a * o < p < a * o + o \/ (a = ne - 1 /\ p = (a + 1) * o))%nat) by nia.
  destruct Hp' as [H|[H|[H|(H1 & H2)]]].
  - destruct (Cv p (or_introl H)) as (C1 & C2). unfold covers.
    generalize (B' p). destruct (Nat.ltb_spec (a * o) p); cbn [andb]; [lia|]. intros (-> & ->).
    destruct (U2 p ltac:(lia)) as (-> & ->). destruct (U1 p ltac:(lia)) as (-> & ->). split; assumption.
  - subst p. unfold covers. generalize (B' (a * o)%nat). destruct (Nat.ltb_spec (a * o) (a * o)); cbn [andb]; [lia|]. intros (-> & ->).
    destruct (U2 (a * o)%nat ltac:(lia)) as (-> & ->). rewrite V1, V1'. split; [nia|]. intros b Hb Hr.
    assert (b = a \/ S b = a) by nia. nia.
  - unfold covers. generalize (B' p). destruct (Nat.ltb_spec (a * o) p), (Nat.ltb_spec p (a * o + o)); cbn [andb]; try lia. intros (-> & ->).
    split; [nia|]. intros b Hb Hr. assert (b = a) by nia. subst b. lia.
  - subst p. apply Last, H1.
Qed.
End Bounds.

(** ** the assembled matrix *)
Definition blk (o n1 n2 : nat) (K : nat -> nat -> nat -> R) (a p q : nat) : R :=
  if in_block (a * o) n1 (a * o) n2 p q then K a (p - a * o)%nat (q - a * o)%nat else 0.
Lemma sum_run f off m n : (off + m <= n)%nat -> (forall k, (k < n)%nat -> ~ (off <= k < off + m)%nat -> f k = 0) ->
  sum f n = sum (fun i => f (off + i)%nat) m.
Proof.
  intros H Z. rewrite (sum_ext f (fun k => block off (map (fun _ => 1) (seq 0 m)) k * f k)).
  - rewrite block_sum by (rewrite map_length, seq_length; exact H). rewrite map_length, seq_length. apply sum_ext. intros i Hi. rewrite nth_map_seq by exact Hi. ring.
  - intros k Hk. unfold block. rewrite map_length, seq_length. destruct (Nat.leb_spec off k), (Nat.ltb_spec k (off + m)); cbn [andb]; try (rewrite Z by lia; ring).
    rewrite nth_map_seq by lia. ring.
Qed.
Lemma assembled_form o n1 n2 K ne nr nc m c u : (forall a, (a < ne)%nat -> (a * o + n1 <= nr)%nat /\ (a * o + n2 <= nc)%nat) ->
  (forall p q, m p q = sum (fun a => blk o n1 n2 K a p q) ne) ->
  sum (fun p => c p * sum (fun q => m p q * u q) nc) nr =
  sum (fun a => sum (fun j => sum (fun i => c (a * o + j)%nat * K a j i * u (a * o + i)%nat) n2) n1) ne.
Proof.
  intros B M.
  rewrite (sum_ext _ (fun p => sum (fun a => sum (fun q => c p * blk o n1 n2 K a p q * u q) nc) ne)).
  2:{ intros p _. rewrite sum_swap, <- sum_scale. apply sum_ext. intros q _. rewrite M, <- sum_scale_r, <- sum_scale. apply sum_ext. intros; ring. }
  rewrite sum_swap. apply sum_ext. intros a Ha. destruct (B a Ha) as (B1 & B2).
  rewrite (sum_run _ (a * o) n1 nr B1).
  2:{ intros p _ Np. apply sum_zero. intros q _. unfold blk. destruct (in_block_spec (a * o) n1 (a * o) n2 p q); [lia|ring]. }
  apply sum_ext. intros j Hj. rewrite (sum_run _ (a * o) n2 nc B2).
  2:{ intros q _ Nq. unfold blk. destruct (in_block_spec (a * o) n1 (a * o) n2 (a * o + j) q); [lia|ring]. }
  apply sum_ext. intros i Hi. unfold blk. destruct (in_block_spec (a * o) n1 (a * o) n2 (a * o + j) (a * o + i)); [|lia].
  replace (a * o + j - a * o)%nat with j by lia. replace (a * o + i - a * o)%nat with i by lia. ring.
Qed.
(** the object built from a filling *)
Lemma finish_ok o ne w n2 K nc s : (0 < o)%nat -> nc = (ne * o + w)%nat -> (n2 <= o + w)%nat -> covered o ne w ne s ->
  (forall p q, fm s p q = sum (fun a => blk o (o + 1) n2 K a p q) ne) ->
  exists A, finish (ne * o + 1) nc (Some s) = Built A /\ wf A /\ nrow A = (ne * o + 1)%nat /\ ncol A = nc /\
    forall u p, (p < ne * o + 1)%nat -> apply1 A u p = sum (fun q => fm s p q * u q) nc.
Proof.
  intros Ho -> H2 Cv M. eexists. split; [reflexivity|]. cbn [finish].
  set (A := Op _ _ _ _). set (nr := (ne * o + 1)%nat) in *.
  assert (N : nrow A = nr) by (unfold nrow, A; cbn [coef]; rewrite map_length, seq_length; reflexivity).
  assert (G : forall p q, (p < nr)%nat -> (q < ne * o + w)%nat -> getc A p q = fm s p q).
  { intros p q Hp Hq. unfold getc, A. cbn [coef]. rewrite nth_map_seq by exact Hp. apply nth_map_seq, Hq. }
  assert (Bd : forall p, (p < nr)%nat -> covers o ne w s p) by (intros p Hp; apply Cv; unfold nr in Hp; lia).
  assert (W : wf A).
  { constructor; rewrite ?N.
    - apply Forall_forall. intros row Hr. unfold A in Hr. cbn [coef] in Hr. apply in_map_iff in Hr. destruct Hr as (p & <- & _). rewrite map_length, seq_length. reflexivity.
    - unfold A. cbn [beg]. rewrite map_length, seq_length. reflexivity.
    - unfold A. cbn [fin]. rewrite map_length, seq_length. reflexivity.
    - intros p Hp. unfold A. cbn [fin ncol]. rewrite nth_map_seq by exact Hp. apply (Bd p Hp).
    - intros p q Hp Hq. unfold A at 1 2. cbn [beg fin]. rewrite !nth_map_seq by exact Hp. intros Nq. unfold A in Hq. cbn [ncol] in Hq. rewrite G by assumption.
      rewrite M. apply sum_zero. intros a Ha. unfold blk. destruct (in_block_spec (a * o) (o + 1) (a * o) n2 p q) as [(I1 & I2)|]; [|reflexivity].
      exfalso. destruct (Bd p Hp) as (_ & B2). destruct (B2 a Ha ltac:(lia)) as (B3 & B4). apply Nq. lia. }
  split; [exact W|]. split; [exact N|]. split; [reflexivity|]. intros u p Hp. rewrite apply1_matvec by (try assumption; rewrite N; exact Hp).
  unfold matvec. cbn [ncol A]. apply sum_ext. intros q Hq. rewrite G by assumption. reflexivity.
Qed.

Section Elements.
Context (o ne : nat) (edges : list R) (Ho : (0 < o)%nat) (Hne : (0 < ne)%nat) (Le : length edges = (ne * o + 1)%nat) (Se : spaced edges).
Let E := edge o edges.
Lemma eds a : (a < ne)%nat -> E a < E (a + 1)%nat.
Proof. intros H. unfold E, edge. apply spaced_lt; [exact Se|]. rewrite Le. nia. Qed.
Lemma rde a : (a <= ne)%nat -> rd edges (a * o) = Some (E a).
Proof. intros H. unfold E, edge. apply rd_ok. rewrite Le. nia. Qed.
(** derivative weights of element a at y *)
Definition dc (a : nat) (y : R) : list R :=
  match diff (o + 1) (fun j => nth (a * o + j) edges 0) y with Some c => c | None => [] end.
Lemma dc_ok a y : (a < ne)%nat -> diff (o + 1) (fun j => nth (a * o + j) edges 0) y = Some (dc a y) /\ length (dc a y) = (o + 1)%nat /\
  forall u p g, interpolates (o + 1) edges (a * o) u p -> (forall x, derivable_pt_lim (peval p) x (g x)) ->
    sum (fun j => nth j (dc a y) 0 * u (a * o + j)%nat) (o + 1) = g y.
Proof.
  intros H. assert (B : (a * o + (o + 1) <= length edges)%nat) by (rewrite Le; nia).
  destruct (run_diff edges (a * o) (o + 1) y Se B) as (c & Ec & Xc). unfold dc. rewrite Ec. pose proof (exact_length _ _ _ _ _ Xc) as L.
  split; [reflexivity|]. split; [exact L|]. intros u p g Hp Hg.
  rewrite <- (block_apply 1 (o + 1) edges (a * o) y c u p g Xc B Hp (nth_derivative_1 _ _ Hg)). rewrite block_sum by lia. rewrite L. reflexivity.
Qed.
Lemma esub a : (a < ne)%nat -> sub edges (a * o) (o + 1) = Some (fun j => nth (a * o + j) edges 0).
Proof. intros H. apply sub_ok. rewrite Le. nia. Qed.
End Elements.
