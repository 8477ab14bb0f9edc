From Coq Require Import ZArith Bool List Lia Znumtheory FinFun.
From Verif Require Import MathModel MathProofs MathProps PanelModel PanelSpec PanelProps LayoutModel LayoutSpec.
Import ListNotations.
Local Open Scope Z_scope.

(** ** Exactly-one elements of lists *)
Definition one {X} (P : X -> Prop) (l : list X) : Prop :=
  exists l1 x l2, l = l1 ++ x :: l2 /\ P x /\ forall y, In y l1 \/ In y l2 -> ~ P y.

Lemma one_flat_map {X Y} (P : Y -> Prop) (g : X -> list Y) l :
  (exists l1 x l2, l = l1 ++ x :: l2 /\ one P (g x) /\
     forall y, In y l1 \/ In y l2 -> forall z, In z (g y) -> ~ P z) ->
  one P (flat_map g l).
Proof.
  intros (l1 & x & l2 & -> & (m1 & y & m2 & E & Hy & Hm) & Hl).
  exists (flat_map g l1 ++ m1), y, (m2 ++ flat_map g l2).
  rewrite flat_map_app. cbn [flat_map]. rewrite E. split.
  { rewrite <- !app_assoc. reflexivity. }
  split; [exact Hy|]. intros z [Hz|Hz]; apply in_app_or in Hz; destruct Hz as [Hz|Hz].
  - apply in_flat_map in Hz as (w & Hw & Hz). apply (Hl w); auto.
  - apply Hm; auto.
  - apply Hm; auto.
  - apply in_flat_map in Hz as (w & Hw & Hz). apply (Hl w); auto.
Qed.
Lemma one_map {X Y} (P : Y -> Prop) (g : X -> Y) l : one (fun x => P (g x)) l -> one P (map g l).
Proof.
  intros (l1 & x & l2 & -> & Hx & H). exists (map g l1), (g x), (map g l2).
  rewrite map_app. split; [reflexivity|]. split; [exact Hx|].
  intros y Hy. rewrite !in_map_iff in Hy. destruct Hy as [(z & <- & Hz)|(z & <- & Hz)]; apply H; auto.
Qed.

Lemma in_zseq n x : In x (zseq n) <-> 0 <= x < n.
Proof.
  unfold zseq. rewrite in_map_iff. split.
  - intros (k & <- & Hk). apply in_seq in Hk. lia.
  - intros H. exists (Z.to_nat x). split; [lia|]. apply in_seq. lia.
Qed.
Lemma zseq_nodup n : NoDup (zseq n).
Proof.
  unfold zseq. apply Injective_map_NoDup; [intros a b H; lia|apply seq_NoDup].
Qed.
Lemma zseq_length n : length (zseq n) = Z.to_nat n.
Proof. unfold zseq. rewrite map_length, seq_length. reflexivity. Qed.
Lemma zseq_split n k : 0 <= k < n -> exists l1 l2, zseq n = l1 ++ k :: l2 /\
  forall y, In y l1 \/ In y l2 -> y <> k /\ 0 <= y < n.
Proof.
  intros H. apply in_zseq in H. destruct (in_split _ _ H) as (l1 & l2 & E).
  exists l1, l2. split; [exact E|]. intros y Hy.
  pose proof (zseq_nodup n) as ND. rewrite E in ND. apply NoDup_remove_2 in ND.
  split.
  - intros ->. apply ND, in_or_app. exact Hy.
  - apply in_zseq. rewrite E. apply in_or_app. cbn. tauto.
Qed.
Lemma zseq_nth n k : 0 <= k < n -> nth_error (zseq n) (Z.to_nat k) = Some k.
Proof.
  intros H. unfold zseq. rewrite nth_error_map.
  rewrite (nth_error_nth' _ 0%nat) by (rewrite seq_length; lia).
  cbn. rewrite seq_nth by lia. f_equal. lia.
Qed.

Lemma one_owns bs p i j : one (fun b => in_box b p i j) bs ->
  exists k, owns bs k p i j /\ forall k', owns bs k' p i j -> k' = k.
Proof.
  intros (l1 & b & l2 & -> & Hb & H).
  assert (nth_error (l1 ++ b :: l2) (length l1) = Some b) as N.
  { rewrite nth_error_app2, Nat.sub_diag by lia. reflexivity. }
  exists (Z.of_nat (length l1)). split.
  - exists b. rewrite Nat2Z.id. repeat split; try lia; try exact N; apply Hb.
  - intros k' (b' & Hk & Hn & Hb').
    destruct (lt_eq_lt_dec (Z.to_nat k') (length l1)) as [[L|L]|L]; [exfalso|lia|exfalso].
    + rewrite nth_error_app1 in Hn by lia. apply nth_error_In in Hn. apply (H b'); auto.
    + rewrite nth_error_app2 in Hn by lia.
      destruct (Z.to_nat k' - length l1)%nat as [|m] eqn:E; [lia|]. cbn in Hn.
      apply nth_error_In in Hn. apply (H b'); auto.
Qed.

(** ** Box bounds *)
Section Bounds.
  Variables (P res np : Z).
  Hypothesis (HP : 0 < P) (Hres : 0 <= res) (Hnp : 0 < np).
  Let E := Z.quot res P.
  Let bb := box_begin P E res.
  Lemma bb_div : E = res / P.
  Proof. unfold E. apply Z.quot_div_nonneg; lia. Qed.
  Lemma bb_lo i : 0 <= i < P -> bb i = i * (res / P).
  Proof.
    intros H. unfold bb, box_begin. rewrite bb_div.
    destruct (Z.eqb_spec i P); [lia|]. destruct (Z.eqb_spec i 0); [subst; lia|reflexivity].
  Qed.
  Lemma bb_top : bb P = res.
  Proof. unfold bb, box_begin. rewrite Z.eqb_refl. reflexivity. Qed.
  Lemma bb_next i : 0 <= i < P -> i * (res / P) + res / P <= bb (i + 1).
  Proof.
    intros H. destruct (Z.eq_dec (i + 1) P) as [F|F].
    - rewrite F, bb_top. pose proof (Z.mul_div_le res P ltac:(lia)).
      replace (i * (res / P) + res / P) with ((i + 1) * (res / P)) by ring. rewrite F. lia.
    - rewrite bb_lo by lia. lia.
  Qed.
  Lemma E_nonneg : 0 <= res / P.
  Proof. apply Z.div_pos; lia. Qed.
  Lemma bb_mono i i' : 0 <= i -> i < i' -> i' < P -> bb (i + 1) <= bb i'.
  Proof.
    intros H1 H2 H3. rewrite !bb_lo by lia. apply Z.mul_le_mono_nonneg_r; [apply E_nonneg|lia].
  Qed.
  Lemma bb_range i : 0 <= i <= P -> 0 <= bb i <= res.
  Proof.
    intros H. destruct (Z.eq_dec i P) as [->|F]; [rewrite bb_top; lia|].
    rewrite bb_lo by lia. pose proof E_nonneg. pose proof (Z.mul_div_le res P ltac:(lia)).
    split; [apply Z.mul_nonneg_nonneg; lia|].
    transitivity (P * (res / P)); [|lia]. apply Z.mul_le_mono_nonneg_r; lia.
  Qed.
  Lemma bb_find x : 0 <= x < np * res -> exists i, 0 <= i < P /\ np * bb i <= x < np * bb (i + 1).
  Proof.
    intros H. pose proof E_nonneg as HE.
    destruct (Z.le_gt_cases (np * ((P - 1) * (res / P))) x) as [L|L].
    - exists (P - 1). split; [lia|]. rewrite bb_lo by lia.
      replace (P - 1 + 1) with P by lia. rewrite bb_top. lia.
    - assert (0 < res / P) as HE'.
      { destruct (Z.eq_dec (res / P) 0) as [F|F]; [|lia]. rewrite F, !Z.mul_0_r in L. lia. }
      set (w := np * (res / P)). assert (0 < w) as Hw by (apply Z.mul_pos_pos; lia).
      pose proof (Z.mul_div_le x w Hw) as D1. pose proof (Z.mul_succ_div_gt x w Hw) as D2.
      assert (0 <= x / w) as D0 by (apply Z.div_pos; lia).
      assert (x / w < P - 1) as D3.
      { apply Z.div_lt_upper_bound; [exact Hw|]. unfold w.
        replace (np * (res / P) * (P - 1)) with (np * ((P - 1) * (res / P))) by ring. lia. }
      exists (x / w). split; [lia|]. rewrite !bb_lo by lia. unfold w in *.
      replace (np * (x / (np * (res / P)) * (res / P))) with (np * (res / P) * (x / (np * (res / P)))) by ring.
      replace (np * ((x / (np * (res / P)) + 1) * (res / P)))
        with (np * (res / P) * Z.succ (x / (np * (res / P)))) by (unfold Z.succ; ring).
      lia.
  Qed.
  Lemma bb_unique x i i' : 0 <= i < P -> 0 <= i' < P ->
    np * bb i <= x < np * bb (i + 1) -> np * bb i' <= x < np * bb (i' + 1) -> i = i'.
  Proof.
    intros Hi Hi' H H'.
    destruct (Z.lt_trichotomy i i') as [L|[L|L]]; [exfalso|exact L|exfalso].
    - pose proof (bb_mono i i' ltac:(lia) L ltac:(lia)) as M.
      pose proof (Z.mul_le_mono_nonneg_l _ _ np ltac:(lia) M). lia.
    - pose proof (bb_mono i' i ltac:(lia) L ltac:(lia)) as M.
      pose proof (Z.mul_le_mono_nonneg_l _ _ np ltac:(lia) M). lia.
  Qed.
  Lemma bb_scaled_range i x : 0 <= i < P -> np * bb i <= x < np * bb (i + 1) -> 0 <= x < np * res.
  Proof.
    intros Hi H. pose proof (bb_range i ltac:(lia)) as (A & _). pose proof (bb_range (i + 1) ltac:(lia)) as (_ & B).
    pose proof (Z.mul_le_mono_nonneg_l _ _ np ltac:(lia) A).
    pose proof (Z.mul_le_mono_nonneg_l _ _ np ltac:(lia) B). lia.
  Qed.
End Bounds.

Lemma in_patch_box n l h a0 a1 b0 b1 p i j :
  in_box (patch_box n l h a0 a1 b0 b1) p i j <-> n = p /\ a0 <= i < a1 /\ b0 <= j < b1.
Proof. unfold in_box, patch_box; cbn [bpanel bhalo bA0 bA1 bB0 bB1]. lia. Qed.

Definition cs_boxes (P np halo res : Z) : list box :=
  let bb := box_begin P (Z.quot res P) res in
  flat_map (fun n => flat_map (fun i => map (fun j =>
      patch_box n 0 halo (np * bb i) (np * bb (i + 1)) (np * bb j) (np * bb (j + 1)))
    (zseq P)) (zseq P)) (zseq 6).
Definition cart_boxes (PA PB np halo resA resB : Z) : list box :=
  let bbA := box_begin PA (Z.quot resA PA) resA in
  let bbB := box_begin PB (Z.quot resB PB) resB in
  flat_map (fun i => map (fun j =>
      patch_box 0 0 halo (np * bbA i) (np * bbA (i + 1)) (np * bbB j) (np * bbB (j + 1)))
    (zseq PB)) (zseq PA).

(** One row of boxes *)
Lemma one_row P res np n h a0 a1 p x y : 0 < P -> 0 <= res -> 0 < np ->
  n = p -> a0 <= x < a1 -> 0 <= y < np * res ->
  let bb := box_begin P (Z.quot res P) res in
  one (fun b => in_box b p x y)
    (map (fun j => patch_box n 0 h a0 a1 (np * bb j) (np * bb (j + 1))) (zseq P)).
Proof.
  intros HP Hr Hnp Hn Hx Hy bb.
  destruct (bb_find P res np HP Hr Hnp y Hy) as (j & Hj & Hb).
  destruct (zseq_split P j Hj) as (l1 & l2 & E & H).
  apply one_map. rewrite E. exists l1, j, l2. split; [reflexivity|]. split.
  - apply in_patch_box. auto.
  - intros j' Hj' W. apply in_patch_box in W as (_ & _ & W).
    destruct (H j' Hj') as (Ne & Rj). apply Ne.
    apply (bb_unique P res np HP Hr Hnp y); auto.
Qed.
Lemma row_none P res np n h a0 a1 p x y :
  let bb := box_begin P (Z.quot res P) res in
  (n <> p \/ ~ (a0 <= x < a1)) ->
  forall z, In z (map (fun j => patch_box n 0 h a0 a1 (np * bb j) (np * bb (j + 1))) (zseq P)) ->
  ~ in_box z p x y.
Proof.
  intros bb H z Hz W. apply in_map_iff in Hz as (j & <- & _). apply in_patch_box in W. tauto.
Qed.

Lemma one_rows PA PB resA resB np n h p x y : 0 < PA -> 0 < PB -> 0 <= resA -> 0 <= resB -> 0 < np ->
  n = p -> 0 <= x < np * resA -> 0 <= y < np * resB ->
  let bbA := box_begin PA (Z.quot resA PA) resA in
  let bbB := box_begin PB (Z.quot resB PB) resB in
  one (fun b => in_box b p x y)
    (flat_map (fun i => map (fun j =>
       patch_box n 0 h (np * bbA i) (np * bbA (i + 1)) (np * bbB j) (np * bbB (j + 1)))
      (zseq PB)) (zseq PA)).
Proof.
  intros HA HB RA RB Hnp Hn Hx Hy bbA bbB.
  destruct (bb_find PA resA np HA RA Hnp x Hx) as (i & Hi & Hb).
  destruct (zseq_split PA i Hi) as (l1 & l2 & E & H).
  apply one_flat_map. exists l1, i, l2. split; [exact E|]. split.
  - apply one_row; auto.
  - intros i' Hi'. apply row_none. right. intros W. destruct (H i' Hi') as (Ne & Ri).
    apply Ne. apply (bb_unique PA resA np HA RA Hnp x); auto.
Qed.

Lemma cs_boxes_tile P np halo res : 0 < P -> 0 <= res -> 0 < np ->
  tiles (cs_boxes P np halo res) (cs_domain (np * res)).
Proof.
  intros HP Hr Hnp. split.
  - intros p i j (Hp & Hi & Hj). apply one_owns. unfold cs_boxes.
    destruct (zseq_split 6 p Hp) as (l1 & l2 & E & H).
    apply one_flat_map. exists l1, p, l2. split; [exact E|]. split.
    + apply one_rows; auto.
    + intros p' Hp' z Hz. apply in_flat_map in Hz as (i' & _ & Hz).
      revert z Hz. apply row_none. left. destruct (H p' Hp'). exact H0.
  - intros p i j k (b & Hk & Hn & Hb). apply nth_error_In in Hn. unfold cs_boxes in Hn.
    apply in_flat_map in Hn as (n & Hn & Hz). apply in_flat_map in Hz as (i' & Hi' & Hz).
    apply in_map_iff in Hz as (j' & <- & Hj'). apply in_patch_box in Hb as (<- & A & B).
    apply in_zseq in Hn, Hi', Hj'. split; [exact Hn|].
    split; [apply (bb_scaled_range P res np HP Hr Hnp i')|apply (bb_scaled_range P res np HP Hr Hnp j')]; auto.
Qed.
Lemma cart_boxes_tile PA PB np halo resA resB : 0 < PA -> 0 < PB -> 0 <= resA -> 0 <= resB -> 0 < np ->
  tiles (cart_boxes PA PB np halo resA resB) (cart_domain (np * resA) (np * resB)).
Proof.
  intros HA HB RA RB Hnp. split.
  - intros p i j (Hp & Hi & Hj). apply one_owns. unfold cart_boxes. apply one_rows; auto.
  - intros p i j k (b & Hk & Hn & Hb). apply nth_error_In in Hn. unfold cart_boxes in Hn.
    apply in_flat_map in Hn as (i' & Hi' & Hz).
    apply in_map_iff in Hz as (j' & <- & Hj'). apply in_patch_box in Hb as (<- & A & B).
    apply in_zseq in Hi', Hj'. split; [reflexivity|].
    split; [apply (bb_scaled_range PA resA np HA RA Hnp i')|apply (bb_scaled_range PB resB np HB RB Hnp j')]; auto.
Qed.

Lemma flat_map_const_length {X Y} (g : X -> list Y) n l :
  (forall x, length (g x) = n) -> length (flat_map g l) = (length l * n)%nat.
Proof. intros H. induction l; cbn; [reflexivity|]. rewrite app_length, IHl, H. lia. Qed.
Lemma cs_boxes_length P np halo res : 0 < P ->
  length (cs_boxes P np halo res) = Z.to_nat (6 * (P * P)).
Proof.
  intros HP. unfold cs_boxes.
  erewrite flat_map_const_length; [|intros n; apply flat_map_const_length; intros i; rewrite map_length; reflexivity].
  rewrite !zseq_length. rewrite <- !Z2Nat.inj_mul by lia. f_equal.
Qed.
Lemma cart_boxes_length PA PB np halo resA resB : 0 <= PA -> 0 <= PB ->
  length (cart_boxes PA PB np halo resA resB) = Z.to_nat (PA * PB).
Proof.
  intros. unfold cart_boxes.
  erewrite flat_map_const_length; [|intros i; rewrite map_length; reflexivity].
  rewrite !zseq_length. rewrite <- !Z2Nat.inj_mul by lia. reflexivity.
Qed.

Lemma cs_procs_spec n : - 2 ^ 31 <= n < 2 ^ 31 -> 0 <= n -> cs_procs n = Z.max 1 (Z.sqrt (n / 6)).
Proof.
  intros H Hn. unfold cs_procs. rewrite Z.quot_div_nonneg by lia.
  unfold wrap32. assert (0 <= n / 6 < 2 ^ 32).
  { split; [apply Z.div_pos; lia|]. apply Z.div_lt_upper_bound; lia. }
  rewrite Z.mod_small by lia. rewrite C15_isqrt by lia. unfold Max.
  destruct (Z.ltb_spec 1 (Z.sqrt (n / 6))); lia.
Qed.

(** ** Lookup *)
Lemma contains_in b p i j : contains b p i j = true <-> in_box b p i j.
Proof.
  unfold contains, in_box, a_int_begin, a_int_end, b_int_begin, b_int_end.
  destruct (Z.eqb_spec p (bpanel b)); cbn; [|split; [discriminate|]; intros (F & _); congruence].
  rewrite !andb_true_iff, !Z.leb_le, !Z.ltb_lt. intuition.
Qed.
Lemma search_spec bs : forall n p i j, 0 <= n ->
  match search n bs p i j with
  | Some k => n <= k /\ exists b, nth_error bs (Z.to_nat (k - n)) = Some b /\ in_box b p i j
  | None => forall b, In b bs -> ~ in_box b p i j
  end.
Proof.
  induction bs as [|b bs IH]; intros n p i j Hn; cbn [search].
  { intros b []. }
  destruct (contains b p i j) eqn:C.
  - split; [lia|]. exists b. replace (n - n) with 0 by lia. split; [reflexivity|]. apply contains_in, C.
  - specialize (IH (n + 1) p i j ltac:(lia)). destruct (search (n + 1) bs p i j) as [k|].
    + destruct IH as (L & b' & N & I). split; [lia|]. exists b'. split; [|exact I].
      replace (Z.to_nat (k - n)) with (S (Z.to_nat (k - (n + 1)))) by lia. exact N.
    + intros b' [<-|Hb]; [|auto]. rewrite <- contains_in. congruence.
Qed.
Lemma search_owns bs p i j k : search 0 bs p i j = Some k -> owns bs k p i j.
Proof.
  intros H. pose proof (search_spec bs 0 p i j ltac:(lia)) as X. rewrite H in X.
  destruct X as (L & b & N & I). replace (k - 0) with k in N by lia. exists b. auto.
Qed.
Lemma search_none bs p i j k : search 0 bs p i j = None -> ~ owns bs k p i j.
Proof.
  intros H (b & _ & N & I). pose proof (search_spec bs 0 p i j ltac:(lia)) as X. rewrite H in X.
  apply nth_error_In in N. exact (X b N I).
Qed.
Lemma cached_owns bs l p i j : 0 <= l -> cached bs (Some l) p i j = true -> owns bs l p i j.
Proof.
  unfold cached. intros L H. destruct (nth_error bs (Z.to_nat l)) as [b|] eqn:E; [|discriminate].
  exists b. split; [exact L|]. split; [exact E|]. apply contains_in, H.
Qed.
Definition last_ok (last : option Z) : Prop := match last with Some l => 0 <= l | None => True end.
Lemma search_nonneg bs p i j k : search 0 bs p i j = Some k -> 0 <= k.
Proof. intros H. apply search_owns in H. destruct H as (b & L & _). exact L. Qed.

(** The three ways a query coordinate pair can lie. *)
Lemma outer_cases n i j : 0 < n -> - n <= i < 2 * n -> - n <= j < 2 * n ->
  (0 <= i < n /\ 0 <= j < n) \/
  (exists e d k, edge e /\ 1 <= d <= n /\ 0 <= k < n /\ (i, j) = outer n e d k) \/
  ((i < 0 \/ n <= i) /\ (j < 0 \/ n <= j)).
Proof.
  intros Hn Hi Hj. unfold edge.
  destruct (Z.lt_ge_cases i 0); destruct (Z.lt_ge_cases j 0);
  destruct (Z.le_gt_cases n i); destruct (Z.le_gt_cases n j); try lia; right;
  first [ right; lia | left ].
  - exists Left, (- i), j. cbn. repeat split; try lia; auto. f_equal; lia.
  - exists Bottom, (- j), i. cbn. repeat split; try lia; auto. f_equal; lia.
  - exists Right, (i - n + 1), j. cbn. repeat split; try lia; auto. f_equal; lia.
  - exists Top, (j - n + 1), i. cbn. repeat split; try lia; auto. f_equal; lia.
Qed.
Lemma outer_outside n e d k i j : edge e -> 1 <= d -> 0 <= k < n -> (i, j) = outer n e d k ->
  ((i <? 0) || (n <=? i) || (j <? 0) || (n <=? j)) = true.
Proof.
  unfold edge. intros H Hd Hk E.
  destruct H as [->|[->|[->| ->]]]; cbn in E; injection E as -> ->;
  rewrite !orb_true_iff, ?Z.ltb_lt, ?Z.leb_le; lia.
Qed.

Lemma cs_entry_spec bs n last p i j : tiles bs (cs_domain n) -> 0 < n -> last_ok last ->
  0 <= p < 6 -> - n <= i < 2 * n -> - n <= j < 2 * n ->
  exists r last', cs_entry bs n last (p, i, j) = Some (r, last') /\ last_ok last' /\
    cs_answer bs n (p, i, j) r.
Proof.
  intros (Cov & Uni) Hn Hl Hp Hi Hj. unfold cs_entry.
  assert (forall p' a' b', cs_domain n p' a' b' -> exists r last',
    (if cached bs last p' a' b' then match last with Some l => Some (l, last) | None => None end
     else match search 0 bs p' a' b' with Some n => Some (n, Some n) | None => Some (invalid, last) end)
    = Some (r, last') /\ last_ok last' /\ owns bs r p' a' b') as Find.
  { intros p' a' b' D. destruct (cached bs last p' a' b') eqn:C.
    - destruct last as [l|]; [|discriminate]. exists l, (Some l). split; [reflexivity|].
      split; [exact Hl|]. apply cached_owns; auto.
    - destruct (search 0 bs p' a' b') as [k|] eqn:E.
      + exists k, (Some k). split; [reflexivity|]. split; [exact (search_nonneg _ _ _ _ _ E)|].
        apply search_owns, E.
      + destruct (Cov _ _ _ D) as (k & O & _). destruct (search_none _ _ _ _ k E O). }
  destruct (outer_cases n i j Hn Hi Hj) as [(Di & Dj)|[(e & d & k & He & Hd & Hk & Eo)|(Oi & Oj)]].
  - replace ((i <? 0) || (n <=? i) || (j <? 0) || (n <=? j)) with false
      by (symmetry; rewrite !orb_false_iff, !Z.ltb_ge, !Z.leb_gt; lia).
    cbn [andb]. destruct (Find p i j) as (r & last' & E & L & O); [repeat split; lia|].
    exists r, last'. split; [exact E|]. split; [exact L|]. left. auto.
  - rewrite (outer_outside n e d k i j He ltac:(lia) Hk Eo).
    destruct (C20_crossing n p e d k Hn ltac:(lia) He Hd Hk) as (q & o & r0 & RP & RC & X).
    rewrite <- Eo in RC. cbn [fst snd] in RC. rewrite RC.
    cbv zeta in X. destruct X as (Eq & Ho & Ein & Ri & Rj & EP & _).
    destruct (C21_tables_agree p e ltac:(lia) He) as (q' & o' & RP' & Hq & _ & Nq & _).
    rewrite RP in RP'. injection RP' as <- <-.
    replace (ri r0 =? -1) with false by (symmetry; apply Z.eqb_neq; lia). cbn [andb].
    destruct (Find (rp r0) (ri r0) (rj r0)) as (r & last' & E & L & O); [repeat split; lia|].
    exists r, last'. split; [exact E|]. split; [exact L|]. right. left.
    set (k' := if sw_par r0 then n - 1 - k else k) in *.
    exists e, d, k, q, o, k'. repeat (split; [first [assumption|lia|unfold k'; destruct (sw_par r0); lia]|]).
    rewrite <- Ein. cbn [fst snd]. rewrite <- Eq. exact O.
  - replace ((i <? 0) || (n <=? i) || (j <? 0) || (n <=? j)) with true
      by (symmetry; rewrite !orb_true_iff, !Z.ltb_lt, !Z.leb_le; lia).
    destruct (C20_interior_and_corner n p i j Hn) as (_ & K). rewrite (K Oi Oj). cbn.
    exists invalid, last. split; [reflexivity|]. split; [exact Hl|]. right. right. auto.
Qed.

Lemma cs_lookup_loop_spec bs n : tiles bs (cs_domain n) -> 0 < n -> forall qs last, last_ok last ->
  (forall p i j, In (p, i, j) qs -> 0 <= p < 6 /\ - n <= i < 2 * n /\ - n <= j < 2 * n) ->
  exists rs, cs_lookup_loop bs n last qs = Some rs /\ Forall2 (cs_answer bs n) qs rs.
Proof.
  intros T Hn. induction qs as [|[[p i] j] qs IH]; intros last L H; cbn [cs_lookup_loop].
  { exists []. auto. }
  destruct (H p i j (or_introl eq_refl)) as (Hp & Hi & Hj).
  destruct (cs_entry_spec bs n last p i j T Hn L Hp Hi Hj) as (r & last' & -> & L' & A).
  destruct (IH last' L') as (rs & -> & F); [intros; apply H; right; assumption|].
  exists (r :: rs). auto.
Qed.

Lemma triple_inj {A B C} (a a' : A) (b b' : B) (c c' : C) : (a, b, c) = (a', b', c') -> a = a' /\ b = b' /\ c = c'.
Proof. intros [=]. auto. Qed.
(** The answer is unique. *)
Lemma edge_point_unique n p e d k p1 o1 k1 p2 o2 k2 : 0 < n -> edge e -> edge o1 -> edge o2 -> 1 <= d <= n ->
  0 <= p < 6 -> 0 <= p1 < 6 -> 0 <= p2 < 6 -> p1 <> p -> p2 <> p ->
  0 <= k < n -> 0 <= k1 < n -> 0 <= k2 < n ->
  edge_point n p e k = edge_point n p1 o1 k1 -> edge_point n p e k = edge_point n p2 o2 k2 ->
  p1 = p2 /\ inner n o1 d k1 = inner n o2 d k2.
Proof.
  intros Hn He H1 H2 Hd Hp Hp1 Hp2 N1 N2 Hk Hk1 Hk2 E1 E2. unfold edge in *.
  assert (p = 0 \/ p = 1 \/ p = 2 \/ p = 3 \/ p = 4 \/ p = 5) as Cp by lia.
  assert (p1 = 0 \/ p1 = 1 \/ p1 = 2 \/ p1 = 3 \/ p1 = 4 \/ p1 = 5) as Cp1 by lia.
  assert (p2 = 0 \/ p2 = 1 \/ p2 = 2 \/ p2 = 3 \/ p2 = 4 \/ p2 = 5) as Cp2 by lia.
  clear Hp Hp1 Hp2.
  destruct Cp as [->|[->|[->|[->|[->| ->]]]]]; destruct He as [->|[->|[->| ->]]].
  Ltac pick E := cbv [edge_point cube Z.eqb Pos.eqb] in E; apply triple_inj in E; destruct E as (?F & ?F & ?F).
  all: destruct Cp1 as [->|[->|[->|[->|[->| ->]]]]]; try (exfalso; lia).
  all: destruct H1 as [->|[->|[->| ->]]].
  all: pick E1; try (exfalso; lia).
  all: destruct Cp2 as [->|[->|[->|[->|[->| ->]]]]]; try (exfalso; lia).
  all: destruct H2 as [->|[->|[->| ->]]].
  all: pick E2; try (exfalso; lia).
  all: split; [lia|]; cbn [inner]; apply f_equal2; lia.
Qed.
Lemma outer_inj n e d k e' d' k' : 0 < n -> edge e -> edge e' -> 1 <= d <= n -> 1 <= d' <= n ->
  0 <= k < n -> 0 <= k' < n -> outer n e d k = outer n e' d' k' -> e = e' /\ d = d' /\ k = k'.
Proof.
  unfold edge. intros Hn He He' Hd Hd' Hk Hk' E.
  destruct He as [->|[->|[->| ->]]]; destruct He' as [->|[->|[->| ->]]]; cbn in E; injection E; intros;
    try (exfalso; lia); repeat split; lia.
Qed.
Lemma outer_range n e d k i j : edge e -> 1 <= d -> 0 <= k < n -> (i, j) = outer n e d k ->
  ~ (0 <= i < n /\ 0 <= j < n) /\ ~ ((i < 0 \/ n <= i) /\ (j < 0 \/ n <= j)).
Proof.
  unfold edge. intros H Hd Hk E. destruct H as [->|[->|[->| ->]]]; cbn in E; injection E as -> ->; lia.
Qed.
Lemma owns_unique bs dom p i j k k' : tiles bs dom -> owns bs k p i j -> owns bs k' p i j -> k = k'.
Proof.
  intros (C & U) O O'. destruct (C p i j (U _ _ _ _ O)) as (m & _ & M).
  rewrite (M k O), (M k' O'). reflexivity.
Qed.
Lemma cs_answer_unique bs n p i j r r' : tiles bs (cs_domain n) -> 0 < n -> 0 <= p < 6 ->
  cs_answer bs n (p, i, j) r -> cs_answer bs n (p, i, j) r' -> r = r'.
Proof.
  intros T Hn Hp A A'. unfold cs_answer in *.
  destruct A as [(Ai & Aj & O)|[(e & d & k & p1 & o & k1 & He & Ho & Hd & Hk & Hk1 & Hp1 & Eo & N1 & EP & O)|(Ai & Aj & ->)]];
  destruct A' as [(Ai' & Aj' & O')|[(e' & d' & k' & p2 & o' & k2 & He' & Ho' & Hd' & Hk' & Hk2 & Hp2 & Eo' & N2 & EP' & O')|(Ai' & Aj' & ->)]];
  try (exfalso; lia).
  - exact (owns_unique _ _ _ _ _ _ _ T O O').
  - destruct (outer_range n e' d' k' i j He' ltac:(lia) Hk' Eo'). tauto.
  - destruct (outer_range n e d k i j He ltac:(lia) Hk Eo). tauto.
  - rewrite Eo in Eo'. destruct (outer_inj n e d k e' d' k' Hn He He' Hd Hd' Hk Hk' Eo') as (<- & <- & <-).
    destruct (edge_point_unique n p e d k p1 o k1 p2 o' k2) as (<- & I); auto.
    rewrite <- I in O'. exact (owns_unique _ _ _ _ _ _ _ T O O').
  - destruct (outer_range n e d k i j He ltac:(lia) Hk Eo). tauto.
  - destruct (outer_range n e' d' k' i j He' ltac:(lia) Hk' Eo'). tauto.
  - reflexivity.
Qed.

(** ** Cartesian lookup *)
Lemma wrap_axis_spec n lo hi i : 0 < n -> - n <= i < 2 * n ->
  match wrap_axis n lo hi i with
  | Some i' => wrapped n lo hi i i'
  | None => outside n lo hi i
  end.
Proof.
  intros Hn Hi. unfold wrap_axis, wrapped, outside.
  destruct (Z.ltb_spec i 0).
  - destruct lo; [|left; auto]. destruct (Z.leb_spec n (i + n)); [lia|].
    split; [lia|]. right. left. repeat split; auto.
    rewrite <- (Z_mod_plus_full i 1 n). rewrite Z.mod_small; lia.
  - destruct (Z.leb_spec n i); [|split; auto; lia].
    destruct hi; [|right; auto]. split; [lia|]. right. right. repeat split; auto.
    rewrite <- (Z_mod_plus_full i (-1) n). rewrite Z.mod_small; lia.
Qed.
Lemma cart_entry_spec bs nA nB bc last a b : tiles bs (cart_domain nA nB) -> 0 < nA -> 0 < nB -> last_ok last ->
  - nA <= a < 2 * nA -> - nB <= b < 2 * nB ->
  exists r last', cart_entry bs nA nB bc last a b = EIdx r last' /\ last_ok last' /\
    cart_answer bs nA nB bc (a, b) r.
Proof.
  intros (Cov & Uni) HA HB Hl Ha Hb. unfold cart_entry, cart_answer. cbn [fst snd].
  pose proof (wrap_axis_spec nA (per_left bc) (per_right bc) a HA Ha) as WA.
  pose proof (wrap_axis_spec nB (per_bottom bc) (per_top bc) b HB Hb) as WB.
  destruct (wrap_axis nA _ _ a) as [a'|]; [|exists invalid, last; repeat split; auto].
  destruct (wrap_axis nB _ _ b) as [b'|]; [|exists invalid, last; repeat split; auto].
  destruct WA as (RA & WA). destruct WB as (RB & WB).
  assert (exists r last', (if cached bs last 0 a' b' then match last with Some l => EIdx l last | None => EThrow end
     else match search 0 bs 0 a' b' with Some n => EIdx n (Some n) | None => EThrow end) = EIdx r last'
     /\ last_ok last' /\ owns bs r 0 a' b') as (r & last' & E & L & O).
  { destruct (cached bs last 0 a' b') eqn:C.
    - destruct last as [l|]; [|discriminate]. exists l, (Some l). split; [reflexivity|].
      split; [exact Hl|]. apply cached_owns; auto.
    - destruct (search 0 bs 0 a' b') as [k|] eqn:E.
      + exists k, (Some k). split; [reflexivity|]. split; [exact (search_nonneg _ _ _ _ _ E)|].
        apply search_owns, E.
      + destruct (Cov 0 a' b') as (k & O & _); [repeat split; lia|].
        destruct (search_none _ _ _ _ k E O). }
  exists r, last'. split; [exact E|]. split; [exact L|]. left. exists a', b'.
  unfold wrapped. repeat split; auto; lia.
Qed.
Lemma cart_lookup_loop_spec bs nA nB bc : tiles bs (cart_domain nA nB) -> 0 < nA -> 0 < nB -> forall qs last, last_ok last ->
  (forall a b, In (a, b) qs -> - nA <= a < 2 * nA /\ - nB <= b < 2 * nB) ->
  exists rs, cart_lookup_loop bs nA nB bc last qs = Some rs /\ Forall2 (cart_answer bs nA nB bc) qs rs.
Proof.
  intros T HA HB. induction qs as [|[a b] qs IH]; intros last L H; cbn [cart_lookup_loop].
  { exists []. auto. }
  destruct (H a b (or_introl eq_refl)) as (Ha & Hb).
  destruct (cart_entry_spec bs nA nB bc last a b T HA HB L Ha Hb) as (r & last' & -> & L' & A).
  destruct (IH last' L') as (rs & -> & F); [intros; apply H; right; assumption|].
  exists (r :: rs). auto.
Qed.
Lemma wrapped_unique n lo hi i i1 i2 : 0 < n -> wrapped n lo hi i i1 -> wrapped n lo hi i i2 -> i1 = i2.
Proof. unfold wrapped. lia. Qed.
Lemma wrapped_outside n lo hi i i1 : wrapped n lo hi i i1 -> outside n lo hi i -> False.
Proof. unfold wrapped, outside. intros (R & [W|[(W & E & _)|(W & E & _)]]) [(O & F)|(O & F)]; try lia; congruence. Qed.
Lemma cart_answer_unique bs nA nB bc q r r' : tiles bs (cart_domain nA nB) -> 0 < nA -> 0 < nB ->
  cart_answer bs nA nB bc q r -> cart_answer bs nA nB bc q r' -> r = r'.
Proof.
  intros T HA HB [(a & b & Wa & Wb & O)|(W & ->)] [(a' & b' & Wa' & Wb' & O')|(W' & ->)].
  - rewrite (wrapped_unique _ _ _ _ _ _ HA Wa' Wa), (wrapped_unique _ _ _ _ _ _ HB Wb' Wb) in O'.
    exact (owns_unique _ _ _ _ _ _ _ T O O').
  - destruct W' as [W'|W']; exfalso; [exact (wrapped_outside _ _ _ _ _ Wa W')|exact (wrapped_outside _ _ _ _ _ Wb W')].
  - destruct W as [W|W]; exfalso; [exact (wrapped_outside _ _ _ _ _ Wa' W)|exact (wrapped_outside _ _ _ _ _ Wb' W)].
  - reflexivity.
Qed.

(** ** Distribution *)
Lemma zseq_succ n : 0 <= n -> zseq (n + 1) = zseq n ++ [n].
Proof.
  intros H. unfold zseq. replace (Z.to_nat (n + 1)) with (S (Z.to_nat n)) by lia.
  rewrite seq_S, map_app. cbn. rewrite Z2Nat.id by lia. reflexivity.
Qed.
Lemma activated_count rows size rank : 0 <= rows -> 0 <= rank < size ->
  Z.of_nat (length (activated rows size rank)) = (rows + size - 1 - rank) / size.
Proof.
  intros Hr Hs. revert rows Hr. apply natlike_ind.
  - cbn. rewrite Z.div_small; lia.
  - intros n Hn IH. unfold activated in *. replace (Z.succ n) with (n + 1) by lia.
    rewrite zseq_succ by lia. rewrite filter_app, app_length, Nat2Z.inj_add, IH. cbn [filter].
    rewrite Z.rem_mod_nonneg by lia.
    pose proof (Z.div_mod n size ltac:(lia)) as D. pose proof (Z.mod_pos_bound n size ltac:(lia)) as B.
    set (q := n / size) in *. set (m := n mod size) in *.
    replace (n + size - 1 - rank) with (m + size - 1 - rank + q * size) by lia.
    replace (n + 1 + size - 1 - rank) with (m + size - rank + q * size) by lia.
    rewrite !Z.div_add by lia.
    destruct (Z.eqb_spec m rank) as [->|F].
    + replace (rank + size - 1 - rank) with (size - 1) by lia. replace (rank + size - rank) with size by lia.
      rewrite (Z.div_small (size - 1) size), Z.div_same by lia. cbn [length]. lia.
    + cbn [length]. destruct (Z.lt_ge_cases m rank).
      * rewrite !Z.div_small by lia. lia.
      * replace (m + size - 1 - rank) with (m - 1 - rank + 1 * size) by lia.
        replace (m + size - rank) with (m - rank + 1 * size) by lia.
        rewrite !Z.div_add, !Z.div_small by lia. lia.
Qed.

Lemma deactivate_notin ix act : ~ In ix act -> deactivate ix act = act.
Proof.
  intros H. induction act as [|a act IH]; [reflexivity|]. cbn [deactivate].
  destruct (Z.eqb_spec a ix) as [->|]; [destruct H; left; reflexivity|].
  rewrite IH; [reflexivity|]. intros X. apply H. right. exact X.
Qed.
Lemma filter_notin ix act : ~ In ix act -> filter (fun a => negb (a =? ix)) act = act.
Proof.
  intros H. induction act as [|a act IH]; [reflexivity|]. cbn [filter].
  destruct (Z.eqb_spec a ix) as [->|]; [destruct H; left; reflexivity|]. cbn.
  rewrite IH; [reflexivity|]. intros X. apply H. right. exact X.
Qed.
Lemma deactivate_nodup ix act : NoDup act -> deactivate ix act = filter (fun a => negb (a =? ix)) act.
Proof.
  intros H. induction H as [|a act N _ IH]; [reflexivity|]. cbn [deactivate filter].
  destruct (Z.eqb_spec a ix) as [->|]; cbn [negb].
  - rewrite (filter_notin ix act N). destruct act as [|b act']; [reflexivity|].
    rewrite deactivate_notin; [reflexivity|]. intros X. apply N. right. exact X.
  - rewrite IH. reflexivity.
Qed.
