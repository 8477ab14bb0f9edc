(** Theorems for C16-C19 and C48. *)
From Coq Require Import ZArith Bool List Lia Permutation Znumtheory.
From Verif Require Import MathModel PanelModel PanelSpec LayoutModel LayoutSpec LayoutProofs.
Import ListNotations.
Local Open Scope Z_scope.

(** ** C16: cubed-sphere layout *)

(** When the layout is accepted, and what it produces. *)
Theorem C16_accepted maxp np halo res ninit n : 0 <= n < 2 ^ 31 -> 0 <= res ->
  let P := Z.max 1 (Z.sqrt (n / 6)) in
  (cs_layout maxp np halo res ninit n = LThrow <-> ninit <> 0 \/ ~ (P | res)) /\
  (forall bs, cs_layout maxp np halo res ninit n = LOk bs -> 6 * (P * P) <= Z.of_nat maxp) /\
  (forall bs, cs_layout maxp np halo res ninit n = LOverrun bs -> Z.of_nat maxp < 6 * (P * P)) /\
  (6 <= n -> n <= Z.of_nat maxp -> forall bs, cs_layout maxp np halo res ninit n <> LOverrun bs).
Proof.
  intros Hn Hr P. unfold cs_layout. rewrite cs_procs_spec by lia. fold P. fold (cs_boxes P np halo res).
  assert (0 < P) as HP by (unfold P; lia).
  assert (6 * (P * P) <= Z.max 6 n) as HPn.
  { unfold P. destruct (Z.max_spec 1 (Z.sqrt (n / 6))) as [(L & ->)|(L & ->)]; [|lia].
    pose proof (Z.sqrt_spec (n / 6) ltac:(apply Z.div_pos; lia)) as (S1 & _).
    pose proof (Z.mul_div_le n 6 ltac:(lia)). lia. }
  unfold finish. rewrite cs_boxes_length by exact HP.
  rewrite Z.rem_mod_nonneg by lia.
  destruct (Z.eqb_spec ninit 0) as [->|F]; cbn [negb].
  2:{ split; [tauto|]. split; [discriminate|]. split; [discriminate|]. intros; discriminate. }
  destruct (Z.eqb_spec (res mod P) 0) as [E|E]; cbn [negb].
  - destruct (Nat.leb_spec (Z.to_nat (6 * (P * P))) maxp) as [L|L].
    + split; [split; [discriminate|]; intros [X|X]; [lia|]; destruct X; apply Z.mod_divide; lia|].
      split; [intros; lia|]. split; [discriminate|]. intros; discriminate.
    + split; [split; [discriminate|]; intros [X|X]; [lia|]; destruct X; apply Z.mod_divide; lia|].
      split; [discriminate|]. split; [intros; lia|]. intros; lia.
  - split; [split; [|reflexivity]; intros _; right; intros X; apply E, Z.mod_divide; [lia|exact X]|].
    split; [discriminate|]. split; [discriminate|]. intros; discriminate.
Qed.

(** Accepted layouts tile the six panels with equal, element-aligned
    squares. *)
Theorem C16_tiles maxp np halo res ninit n bs : 0 <= n < 2 ^ 31 -> 0 <= res -> 0 < np ->
  cs_layout maxp np halo res ninit n = LOk bs ->
  tiles bs (cs_domain (np * res)) /\
  Z.of_nat (length bs) = 6 * (Z.max 1 (Z.sqrt (n / 6)) * Z.max 1 (Z.sqrt (n / 6))).
Proof.
  intros Hn Hr Hnp. unfold cs_layout. rewrite cs_procs_spec by lia.
  set (P := Z.max 1 (Z.sqrt (n / 6))). fold (cs_boxes P np halo res).
  assert (0 < P) as HP by (unfold P; lia).
  destruct (ninit =? 0); cbn [negb]; [|discriminate].
  destruct (Z.rem res P =? 0); cbn [negb]; [|discriminate].
  unfold finish. destruct (_ <=? _)%nat; [|discriminate]. intros [= <-]. split.
  - apply cs_boxes_tile; lia.
  - rewrite cs_boxes_length by exact HP. lia.
Qed.
Theorem C16_equal_aligned maxp np halo res ninit n bs : 0 <= n < 2 ^ 31 -> 0 <= res -> 0 < np ->
  cs_layout maxp np halo res ninit n = LOk bs ->
  exists w, w * Z.max 1 (Z.sqrt (n / 6)) = res /\
    forall b, In b bs -> width_a b = np * w /\ width_b b = np * w /\ aligned np b /\
      bhalo b = halo /\ blevel b = 0.
Proof.
  intros Hn Hr Hnp. unfold cs_layout. rewrite cs_procs_spec by lia.
  set (P := Z.max 1 (Z.sqrt (n / 6))). fold (cs_boxes P np halo res).
  assert (0 < P) as HP by (unfold P; lia).
  destruct (ninit =? 0); cbn [negb]; [|discriminate].
  destruct (Z.eqb_spec (Z.rem res P) 0) as [E|]; cbn [negb]; [|discriminate].
  unfold finish. destruct (_ <=? _)%nat; [|discriminate]. intros [= <-].
  rewrite Z.rem_mod_nonneg in E by lia.
  pose proof (Z.div_mod res P ltac:(lia)) as D. rewrite E, Z.add_0_r in D.
  exists (res / P). split; [lia|].
  intros b Hb. unfold cs_boxes in Hb.
  apply in_flat_map in Hb as (p & _ & Hb). apply in_flat_map in Hb as (i & Hi & Hb).
  apply in_map_iff in Hb as (j & <- & Hj). apply in_zseq in Hi, Hj.
  assert (forall x, 0 <= x < P ->
    box_begin P (Z.quot res P) res (x + 1) - box_begin P (Z.quot res P) res x = res / P) as W.
  { intros x Hx. rewrite (bb_lo P res HP Hr x Hx). destruct (Z.eq_dec (x + 1) P) as [F|F].
    - rewrite F, bb_top. replace x with (P - 1) by lia.
      replace ((P - 1) * (res / P)) with (P * (res / P) - res / P) by ring. lia.
    - rewrite bb_lo by lia. ring. }
  unfold width_a, width_b, aligned, patch_box; cbn [bA0 bA1 bB0 bB1 bhalo blevel].
  pose proof (W i Hi). pose proof (W j Hj).
  set (x0 := box_begin _ _ _ i) in *. set (x1 := box_begin _ _ _ (i + 1)) in *.
  set (y0 := box_begin _ _ _ j) in *. set (y1 := box_begin _ _ _ (j + 1)) in *.
  split; [rewrite <- H; ring|]. split; [rewrite <- H0; ring|]. split; [|split; reflexivity].
  split; [exists x0; ring|]. split; [exists x1; ring|]. split; [exists y0; ring|exists y1; ring].
Qed.
(** The layout is written without regard to the number of rows of
    m_aPatchBoxes: with fewer than six rows it runs past the end. *)
Theorem C16_overrun_refuted : exists maxp np halo res n bs, 0 < n <= Z.of_nat maxp /\
  cs_layout maxp np halo res 0 n = LOverrun bs.
Proof. exists 1%nat, 4, 1, 2, 1. eexists. split; [lia|]. vm_compute. reflexivity. Qed.
Example C16_case : exists bs, cs_layout 24 4 1 6 0 24 = LOk bs /\ length bs = 24%nat /\
  nth_error bs 7 = Some (mkBox 1 0 1 11 25 11 25).
Proof. eexists. split; [vm_compute; reflexivity|]. split; reflexivity. Qed.

(** ** C17: Cartesian layout *)
Theorem C17_tiles maxp np halo resA resB ninit n bs : 0 <= resA -> 0 <= resB -> 0 < np ->
  cart_layout maxp np halo resA resB ninit n = LOk bs ->
  tiles bs (cart_domain (np * resA) (np * resB)) /\ Z.of_nat (length bs) = n /\
  forall b, In b bs -> aligned np b /\ 0 <= width_a b /\ width_b b = np * resB.
Proof.
  intros HA HB Hnp. unfold cart_layout. destruct (Z.ltb_spec n 1) as [|Hn]; [discriminate|].
  destruct (ninit =? 0); cbn [negb]; [|discriminate].
  destruct (Z.rem (resA * resB) n =? 0); cbn [negb]; [|discriminate].
  fold (cart_boxes n 1 np halo resA resB).
  unfold finish. destruct (_ <=? _)%nat; [|discriminate]. intros [= <-].
  split; [apply cart_boxes_tile; lia|]. split; [rewrite cart_boxes_length by lia; lia|].
  intros b Hb. unfold cart_boxes in Hb. apply in_flat_map in Hb as (i & Hi & Hb).
  apply in_map_iff in Hb as (j & <- & Hj). apply in_zseq in Hi, Hj.
  assert (j = 0) as -> by lia. cbn [box_begin]. change (0 + 1) with 1.
  replace (box_begin 1 (Z.quot resB 1) resB 1) with resB by reflexivity.
  replace (box_begin 1 (Z.quot resB 1) resB 0) with 0 by reflexivity.
  pose proof (bb_next n resA ltac:(lia) HA i Hi) as N. rewrite <- (bb_lo n resA ltac:(lia) HA i Hi) in N.
  pose proof (E_nonneg n resA ltac:(lia) HA) as NN.
  set (x0 := box_begin _ _ _ i) in *. set (x1 := box_begin _ _ _ (i + 1)) in *.
  unfold width_a, width_b, aligned, patch_box; cbn [bA0 bA1 bB0 bB1 bhalo blevel].
  split.
  - split; [exists x0; ring|]. split; [exists x1; ring|]. split; [exists 0; ring|exists resB; ring].
  - split; [|ring]. replace (np * x1 + halo - halo - (np * x0 - halo + halo)) with (np * (x1 - x0)) by ring.
    apply Z.mul_nonneg_nonneg; lia.
Qed.
(** Patches are non-empty exactly when there are at most as many of them as
    elements in the first direction. *)
Theorem C17_nonempty maxp np halo resA resB ninit n bs : 0 <= resA -> 0 < resB -> 0 < np ->
  cart_layout maxp np halo resA resB ninit n = LOk bs ->
  (n <= resA <-> forall b, In b bs -> 0 < width_a b /\ 0 < width_b b).
Proof.
  intros HA HB Hnp. unfold cart_layout. destruct (Z.ltb_spec n 1) as [|Hn]; [discriminate|].
  destruct (ninit =? 0); cbn [negb]; [|discriminate].
  destruct (Z.rem (resA * resB) n =? 0); cbn [negb]; [|discriminate].
  fold (cart_boxes n 1 np halo resA resB).
  unfold finish. destruct (_ <=? _)%nat; [|discriminate]. intros [= <-].
  assert (forall i, 0 <= i < n -> In (patch_box 0 0 halo
    (np * box_begin n (Z.quot resA n) resA i) (np * box_begin n (Z.quot resA n) resA (i + 1)) (np * 0) (np * resB))
    (cart_boxes n 1 np halo resA resB)) as Mem.
  { intros i Hi. unfold cart_boxes. apply in_flat_map. exists i. split; [apply in_zseq; exact Hi|].
    apply in_map_iff. exists 0. split; [reflexivity|]. apply in_zseq. lia. }
  split.
  - intros Hle b Hb. unfold cart_boxes in Hb. apply in_flat_map in Hb as (i & Hi & Hb).
    apply in_map_iff in Hb as (j & <- & Hj). apply in_zseq in Hi, Hj.
    assert (j = 0) as -> by lia. change (0 + 1) with 1.
    replace (box_begin 1 (Z.quot resB 1) resB 1) with resB by reflexivity.
    replace (box_begin 1 (Z.quot resB 1) resB 0) with 0 by reflexivity.
    pose proof (bb_next n resA ltac:(lia) HA i Hi) as N. rewrite <- (bb_lo n resA ltac:(lia) HA i Hi) in N.
    assert (1 <= resA / n) as NN by (apply Z.div_le_lower_bound; lia).
    set (x0 := box_begin _ _ _ i) in *. set (x1 := box_begin _ _ _ (i + 1)) in *.
    unfold width_a, width_b, patch_box; cbn [bA0 bA1 bB0 bB1 bhalo].
    replace (np * x1 + halo - halo - (np * x0 - halo + halo)) with (np * (x1 - x0)) by ring.
    replace (np * resB + halo - halo - (np * 0 - halo + halo)) with (np * resB) by ring.
    split; apply Z.mul_pos_pos; lia.
  - intros H. destruct (Z.le_gt_cases n resA) as [L|L]; [exact L|exfalso].
    destruct (Z.eq_dec n 1) as [->|F].
    + assert (resA = 0) as -> by lia. destruct (H _ (Mem 0 ltac:(lia))) as (W & _).
      unfold width_a, patch_box in W; cbn [bA0 bA1 bhalo] in W. change (0 + 1) with 1 in W.
      replace (box_begin 1 (Z.quot 0 1) 0 1) with 0 in W by reflexivity.
      replace (box_begin 1 (Z.quot 0 1) 0 0) with 0 in W by reflexivity. lia.
    + destruct (H _ (Mem 0 ltac:(lia))) as (W & _).
      unfold width_a, patch_box in W; cbn [bA0 bA1 bhalo] in W.
      rewrite !(bb_lo n resA) in W by lia. rewrite (Z.div_small resA n) in W by lia. lia.
Qed.
(** Four processors on a 2 x 2 element grid: accepted with empty patches. *)
Theorem C17_nonempty_refuted : exists bs b, cart_layout 4 4 1 2 2 0 4 = LOk bs /\ In b bs /\ width_a b = 0.
Proof.
  eexists. eexists. split; [vm_compute; reflexivity|]. split; [left; reflexivity|]. reflexivity.
Qed.
Theorem C17_accepted maxp np halo resA resB ninit n : 0 <= resA -> 0 <= resB ->
  (cart_layout maxp np halo resA resB ninit n = LThrow <-> n < 1 \/ ninit <> 0 \/ ~ (n | resA * resB)) /\
  ((exists bs, cart_layout maxp np halo resA resB ninit n = LOverrun bs) -> Z.of_nat maxp < n).
Proof.
  intros HA HB. unfold cart_layout. destruct (Z.ltb_spec n 1) as [H|Hn].
  { split; [tauto|]. intros (bs & E); discriminate. }
  pose proof (Z.mul_nonneg_nonneg resA resB HA HB).
  rewrite Z.rem_mod_nonneg by lia. fold (cart_boxes n 1 np halo resA resB).
  destruct (Z.eqb_spec ninit 0) as [->|F]; cbn [negb].
  2:{ split; [tauto|]. intros (bs & E); discriminate. }
  destruct (Z.eqb_spec (resA * resB mod n) 0) as [E|E]; cbn [negb].
  - unfold finish. rewrite cart_boxes_length by lia.
    assert (n | resA * resB) as D by (apply Z.mod_divide; lia).
    destruct (Nat.leb_spec (Z.to_nat (n * 1)) maxp).
    + split; [|intros (bs & X); discriminate]. split; [discriminate|]. intros [X|[X|X]]; [lia|lia|tauto].
    + split; [|intros; lia]. split; [discriminate|]. intros [X|[X|X]]; [lia|lia|tauto].
  - split; [|intros (bs & X); discriminate]. split; [|reflexivity]. intros _. right. right.
    intros D. apply E, Z.mod_divide; [lia|exact D].
Qed.
Example C17_case : exists bs, cart_layout 3 4 1 7 3 0 3 = LOk bs /\
  map width_a bs = [8; 8; 12] /\ map width_b bs = [12; 12; 12].
Proof. eexists. split; [vm_compute; reflexivity|]. split; reflexivity. Qed.

(** ** C18: distribution of patches over ranks *)
Theorem C18_one_rank rows size n : 0 <= n < rows -> 0 < size ->
  exists rank, 0 <= rank < size /\ In n (activated rows size rank) /\
    nth_error (patch_processor rows size) (Z.to_nat n) = Some rank /\
    forall rank', In n (activated rows size rank') -> rank' = rank.
Proof.
  intros Hn Hs. exists (n mod size).
  pose proof (Z.mod_pos_bound n size Hs).
  assert (Z.rem n size = n mod size) as R by (apply Z.rem_mod_nonneg; lia).
  split; [lia|]. split.
  { apply filter_In. split; [apply in_zseq, Hn|]. rewrite R. apply Z.eqb_refl. }
  split.
  { unfold patch_processor. rewrite nth_error_map, zseq_nth by exact Hn. cbn. rewrite R. reflexivity. }
  intros r' H'. apply filter_In in H' as (_ & H'). apply Z.eqb_eq in H'. lia.
Qed.
Theorem C18_active_distinct rows size rank : NoDup (activated rows size rank) /\
  forall n, In n (activated rows size rank) -> 0 <= n < rows.
Proof.
  split; [apply NoDup_filter, zseq_nodup|]. intros n H. apply filter_In in H as (H & _). apply in_zseq, H.
Qed.
Theorem C18_balanced rows size r r' : 0 <= rows -> 0 <= r < size -> 0 <= r' < size ->
  Z.abs (Z.of_nat (length (activated rows size r)) - Z.of_nat (length (activated rows size r'))) <= 1.
Proof.
  intros Hr H H'. rewrite !activated_count by lia.
  assert (forall a, 0 <= a < size -> rows / size <= (rows + size - 1 - a) / size <= rows / size + 1) as K.
  { intros a Ha. replace (rows / size + 1) with ((rows + 1 * size) / size) by (rewrite Z.div_add; lia).
    split; apply Z.div_le_mono; lia. }
  pose proof (K r H). pose proof (K r' H'). lia.
Qed.
(** The loop runs over the rows of m_aPatchBoxes, not over the initialised
    boxes: with more rows than boxes some rank activates an index without a
    box. *)
Theorem C18_uninitialised_refuted : exists maxp bs size rank n,
  cart_layout maxp 4 1 4 4 0 2 = LOk bs /\ 0 <= rank < size /\
  In n (activated (Z.of_nat maxp) size rank) /\ nth_error bs (Z.to_nat n) = None.
Proof.
  exists 3%nat. eexists. exists 2, 0, 2. split; [vm_compute; reflexivity|]. split; [lia|].
  split; [vm_compute; auto|reflexivity].
Qed.
Example C18_case : activated 7 3 0 = [0; 3; 6] /\ activated 7 3 1 = [1; 4] /\ activated 7 3 2 = [2; 5].
Proof. repeat split. Qed.

(** ** C19: node lookup *)
Theorem C19_cubed_sphere maxp np halo res ninit n bs ratio qs : 0 <= n < 2 ^ 31 -> 0 < res -> 0 < np ->
  cs_layout maxp np halo res ninit n = LOk bs ->
  (forall p i j, In (p, i, j) qs -> 0 <= p < 6 /\
     - (np * res) <= i < 2 * (np * res) /\ - (np * res) <= j < 2 * (np * res)) ->
  exists rs, cs_lookup bs np res ratio 0 qs = Some rs /\ Forall2 (cs_answer bs (np * res)) qs rs /\
    forall q r r', In q qs -> cs_answer bs (np * res) q r -> cs_answer bs (np * res) q r' -> r = r'.
Proof.
  intros Hn Hr Hnp L Q. destruct (C16_tiles maxp np halo res ninit n bs Hn ltac:(lia) Hnp L) as (T & _).
  assert (0 < np * res) as Hp by (apply Z.mul_pos_pos; lia).
  unfold cs_lookup, base_res. cbn [Z.ltb Z.compare IntPow Z.eqb]. replace (np * (res * 1)) with (np * res) by ring.
  destruct (cs_lookup_loop_spec bs (np * res) T Hp qs None I Q) as (rs & -> & F).
  exists rs. split; [reflexivity|]. split; [exact F|].
  intros [[p i] j] r r' Hq. apply cs_answer_unique; auto. apply (Q p i j Hq).
Qed.
Theorem C19_cartesian maxp np halo resA resB ninit n bs bc qs : 0 < resA -> 0 < resB -> 0 < np ->
  cart_layout maxp np halo resA resB ninit n = LOk bs ->
  (forall a b, In (a, b) qs -> - (np * resA) <= a < 2 * (np * resA) /\ - (np * resB) <= b < 2 * (np * resB)) ->
  exists rs, cart_lookup_loop bs (np * resA) (np * resB) bc None qs = Some rs /\
    Forall2 (cart_answer bs (np * resA) (np * resB) bc) qs rs /\
    forall q r r', cart_answer bs (np * resA) (np * resB) bc q r ->
      cart_answer bs (np * resA) (np * resB) bc q r' -> r = r'.
Proof.
  intros HA HB Hnp L Q. destruct (C17_tiles maxp np halo resA resB ninit n bs ltac:(lia) ltac:(lia) Hnp L) as (T & _).
  assert (0 < np * resA) as PA by (apply Z.mul_pos_pos; lia).
  assert (0 < np * resB) as PB by (apply Z.mul_pos_pos; lia).
  destruct (cart_lookup_loop_spec bs _ _ bc T PA PB qs None I Q) as (rs & E & F).
  exists rs. split; [exact E|]. split; [exact F|]. intros q r r'. apply cart_answer_unique; auto.
Qed.
(** More than one period outside a periodic domain the lookup throws. *)
Theorem C19_cartesian_far_refuted : exists bs, cart_layout 2 4 1 2 2 0 2 = LOk bs /\
  cart_lookup_loop bs 8 8 (mkBC true true true true) None [(-9, 0)] = None.
Proof. eexists. split; [vm_compute; reflexivity|]. reflexivity. Qed.
Example C19_case : exists bs, cs_layout 24 4 1 6 0 24 = LOk bs /\
  cs_lookup bs 4 6 2 0 [(0, 3, 13); (0, -1, 13); (4, 2, 24); (0, -1, -1); (0, 3, 13)]
    = Some [1; 15; 11; -1; 1].
Proof. eexists. split; [vm_compute; reflexivity|]. reflexivity. Qed.

(** ** C48: list of active patches *)
Theorem C48_activation ix act : NoDup act ->
  (~ In ix act -> NoDup (activate ix act) /\ deactivate ix (activate ix act) = act) /\
  (forall y, In y (deactivate ix act) <-> In y act /\ y <> ix) /\
  (forall l1 l2, ~ In ix l1 -> ~ In ix l2 -> act = l1 ++ ix :: l2 -> deactivate ix act = l1 ++ l2).
Proof.
  intros ND. split; [|split].
  - intros H. assert (NoDup (activate ix act)) as ND'.
    { unfold activate. apply (Permutation_NoDup (l := ix :: act)); [|constructor; assumption].
      apply Permutation_cons_append. }
    split; [exact ND'|]. rewrite deactivate_nodup by exact ND'. unfold activate.
    rewrite filter_app, filter_notin by exact H. cbn. rewrite Z.eqb_refl. cbn. apply app_nil_r.
  - intros y. rewrite deactivate_nodup by exact ND. rewrite filter_In.
    destruct (Z.eqb_spec y ix); cbn; intuition congruence.
  - intros l1 l2 H1 H2 ->. rewrite deactivate_nodup by exact ND. rewrite filter_app. cbn [filter].
    rewrite Z.eqb_refl. cbn [negb]. rewrite !filter_notin by assumption. reflexivity.
Qed.
(** A patch activated twice stays active after DeactivatePatch. *)
Theorem C48_duplicate_refuted : In 3 (deactivate 3 (activate 3 (activate 3 []))).
Proof. left. reflexivity. Qed.
Example C48_case : deactivate 4 [1; 4; 7] = [1; 7].
Proof. reflexivity. Qed.

Print Assumptions C16_accepted.
Print Assumptions C16_tiles.
Print Assumptions C16_equal_aligned.
Print Assumptions C16_overrun_refuted.
Print Assumptions C17_tiles.
Print Assumptions C17_nonempty.
Print Assumptions C17_nonempty_refuted.
Print Assumptions C17_accepted.
Print Assumptions C18_one_rank.
Print Assumptions C18_active_distinct.
Print Assumptions C18_balanced.
Print Assumptions C18_uninitialised_refuted.
Print Assumptions C19_cubed_sphere.
Print Assumptions C19_cartesian.
Print Assumptions C19_cartesian_far_refuted.
Print Assumptions C48_activation.
Print Assumptions C48_duplicate_refuted.
