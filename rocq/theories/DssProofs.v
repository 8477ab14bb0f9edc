(** Lemmas for C25 and C26. *)
From Coq Require Import ZArith Bool List Lia ZifyBool Reals Lra Permutation.
From Verif Require Import PanelModel PanelSpec PanelProps LayoutModel ExchModel DssModel DssSpec.
Import ListNotations.
Local Open Scope Z_scope.

Lemma in_up a b x : In x (up a b) <-> a <= x < b.
Proof.
  unfold up. rewrite in_map_iff. split.
  - intros (n & <- & H). apply in_seq in H. lia.
  - intros H. exists (Z.to_nat (x - a)). split; [lia|]. apply in_seq. lia.
Qed.
Lemma nodup_up a b : NoDup (up a b).
Proof. unfold up. apply FinFun.Injective_map_NoDup; [intros x y H; lia|apply seq_NoDup]. Qed.
Lemma up_cons a b : a < b -> up a b = a :: up (a + 1) b.
Proof.
  intros H. unfold up. replace (Z.to_nat (b - a)) with (S (Z.to_nat (b - (a + 1)))) by lia.
  cbn [seq map]. f_equal; [lia|]. rewrite <- seq_shift, map_map. apply map_ext. lia.
Qed.
Lemma up_nil a b : b <= a -> up a b = [].
Proof. intros H. unfold up. replace (Z.to_nat (b - a)) with 0%nat by lia. reflexivity. Qed.

Section Sweep.
Context {V : Type} (avg : V -> V -> V) (third : V -> V -> V -> V).
Notation fld := (@fld V).

Lemma put_eq (u : fld) i j v : put u i j v i j = v.
Proof. unfold put. rewrite !Z.eqb_refl. reflexivity. Qed.
Lemma put_ne (u : fld) i j v a b : (a <> i \/ b <> j) -> put u i j v a b = u a b.
Proof. intros H. unfold put. destruct (Z.eqb_spec a i), (Z.eqb_spec b j); cbn; auto. lia. Qed.

(** One line: rows [j0, j1). *)
Lemma nodes_a js : NoDup js -> forall u iA i j,
  (In j js /\ (i = iA \/ i = iA - 1) -> fold_left (node_a avg iA) js u i j = avg (u iA j) (u (iA - 1) j)) /\
  (~ In j js \/ (i <> iA /\ i <> iA - 1) -> fold_left (node_a avg iA) js u i j = u i j).
Proof.
  intros N. induction N as [|x js Hx N IH]; intros u iA i j.
  - cbn. split; [tauto|auto].
  - cbn [fold_left]. specialize (IH (node_a avg iA u x) iA i j). destruct IH as (A & B).
    assert (forall i' j', j' <> x \/ (i' <> iA /\ i' <> iA - 1) -> node_a avg iA u x i' j' = u i' j') as K.
    { intros i' j' H. unfold node_a. rewrite !put_ne; auto; lia. }
    split.
    + intros ([->|Hj] & Hi).
      * rewrite B by auto. unfold node_a. destruct Hi as [->| ->].
        -- rewrite put_ne by lia. apply put_eq.
        -- rewrite put_eq. apply put_eq.
      * assert (j <> x) by congruence. rewrite A by auto. rewrite !K by auto. reflexivity.
    + intros H. assert (~ In j js \/ i <> iA /\ i <> iA - 1) by (cbn in H; tauto).
      rewrite B by auto. apply K. cbn in H. destruct H as [H|H]; [left; intros ->; tauto|auto].
Qed.
Lemma nodes_b is : NoDup is -> forall u iB i j,
  (In i is /\ (j = iB \/ j = iB - 1) -> fold_left (node_b avg iB) is u i j = avg (u i iB) (u i (iB - 1))) /\
  (~ In i is \/ (j <> iB /\ j <> iB - 1) -> fold_left (node_b avg iB) is u i j = u i j).
Proof.
  intros N. induction N as [|x js Hx N IH]; intros u iA i j.
  - cbn. split; [tauto|auto].
  - cbn [fold_left]. specialize (IH (node_b avg iA u x) iA i j). destruct IH as (A & B).
    assert (forall i' j', i' <> x \/ (j' <> iA /\ j' <> iA - 1) -> node_b avg iA u x i' j' = u i' j') as K.
    { intros i' j' H. unfold node_b. rewrite !put_ne; auto; lia. }
    split.
    + intros ([->|Hj] & Hi).
      * rewrite B by auto. unfold node_b. destruct Hi as [->| ->].
        -- rewrite put_ne by lia. apply put_eq.
        -- rewrite put_eq. apply put_eq.
      * assert (i <> x) by congruence. rewrite A by auto. rewrite !K by auto. reflexivity.
    + intros H. assert (~ In i js \/ j <> iA /\ j <> iA - 1) by (cbn in H; tauto).
      rewrite B by auto. apply K. cbn in H. destruct H as [H|H]; [left; intros ->; tauto|auto].
Qed.

Definition covers (ls : list (Z * Z * Z)) (i j : Z) : Prop :=
  exists l, In l ls /\ fst (fst l) = i /\ snd (fst l) <= j < snd l.
Definition spaced (ls : list (Z * Z * Z)) : Prop :=
  ForallOrdPairs (fun l l' => 2 <= Z.abs (fst (fst l) - fst (fst l'))) ls.

Lemma sweep_a ls : spaced ls -> forall u i j,
  (covers ls i j -> fold_left (line_a avg) ls u i j = avg (u i j) (u (i - 1) j)) /\
  (covers ls (i + 1) j -> fold_left (line_a avg) ls u i j = avg (u (i + 1) j) (u i j)) /\
  (~ covers ls i j -> ~ covers ls (i + 1) j -> fold_left (line_a avg) ls u i j = u i j).
Proof.
  intros S. induction S as [|[[iA j0] j1] ls F S IH]; intros u i j.
  - cbn. split; [|split; auto]; intros (l & [] & _).
  - cbn [fold_left]. specialize (IH (line_a avg u (iA, j0, j1)) i j). destruct IH as (A & B & C).
    rewrite Forall_forall in F.
    assert (forall i', covers ls i' j -> 2 <= Z.abs (iA - i')) as G.
    { intros i' (l & Hl & <- & _). apply (F l Hl). }
    assert (forall i', covers ((iA, j0, j1) :: ls) i' j <-> (iA = i' /\ j0 <= j < j1) \/ covers ls i' j) as CC.
    { intros i'. unfold covers. split.
      - intros (l & [<-|Hl] & E & R); [left; auto|right; exists l; auto].
      - intros [(E & R)|(l & Hl & E & R)]; [exists (iA, j0, j1); cbn; auto|exists l; cbn; auto]. }
    assert (forall i', i' <> iA /\ i' <> iA - 1 \/ ~ (j0 <= j < j1) -> line_a avg u (iA, j0, j1) i' j = u i' j) as K.
    { intros i' H. unfold line_a. cbn [fst snd]. apply nodes_a; [apply nodup_up|]. rewrite in_up. tauto. }
    assert (forall i', i' = iA \/ i' = iA - 1 -> j0 <= j < j1 ->
              line_a avg u (iA, j0, j1) i' j = avg (u iA j) (u (iA - 1) j)) as K2.
    { intros i' H R. unfold line_a. cbn [fst snd]. apply nodes_a; [apply nodup_up|]. rewrite in_up. tauto. }
    split; [|split].
    + rewrite CC. intros [(<- & R)|H].
      * rewrite C; [apply K2; auto| |]; intros H; apply G in H; lia.
      * rewrite A by auto. apply G in H. rewrite !K by lia. reflexivity.
    + rewrite CC. intros [(-> & R)|H].
      * rewrite C; [rewrite K2 by lia; replace (i + 1 - 1) with i by lia; reflexivity| |]; intros H; apply G in H; lia.
      * rewrite B by auto. apply G in H. rewrite !K by lia. reflexivity.
    + rewrite !CC. intros H1 H2. rewrite C by tauto. apply K. lia.
Qed.
Lemma sweep_b ls : spaced ls -> forall u i j,
  (covers ls j i -> fold_left (line_b avg) ls u i j = avg (u i j) (u i (j - 1))) /\
  (covers ls (j + 1) i -> fold_left (line_b avg) ls u i j = avg (u i (j + 1)) (u i j)) /\
  (~ covers ls j i -> ~ covers ls (j + 1) i -> fold_left (line_b avg) ls u i j = u i j).
Proof.
  intros S. induction S as [|[[iA j0] j1] ls F S IH]; intros u i j.
  - cbn. split; [|split; auto]; intros (l & [] & _).
  - cbn [fold_left]. specialize (IH (line_b avg u (iA, j0, j1)) i j). destruct IH as (A & B & C).
    rewrite Forall_forall in F.
    assert (forall j', covers ls j' i -> 2 <= Z.abs (iA - j')) as G.
    { intros i' (l & Hl & <- & _). apply (F l Hl). }
    assert (forall j', covers ((iA, j0, j1) :: ls) j' i <-> (iA = j' /\ j0 <= i < j1) \/ covers ls j' i) as CC.
    { intros i'. unfold covers. split.
      - intros (l & [<-|Hl] & E & R); [left; auto|right; exists l; auto].
      - intros [(E & R)|(l & Hl & E & R)]; [exists (iA, j0, j1); cbn; auto|exists l; cbn; auto]. }
    assert (forall j', j' <> iA /\ j' <> iA - 1 \/ ~ (j0 <= i < j1) -> line_b avg u (iA, j0, j1) i j' = u i j') as K.
    { intros i' H. unfold line_b. cbn [fst snd]. apply nodes_b; [apply nodup_up|]. rewrite in_up. tauto. }
    assert (forall j', j' = iA \/ j' = iA - 1 -> j0 <= i < j1 ->
              line_b avg u (iA, j0, j1) i j' = avg (u i iA) (u i (iA - 1))) as K2.
    { intros i' H R. unfold line_b. cbn [fst snd]. apply nodes_b; [apply nodup_up|]. rewrite in_up. tauto. }
    split; [|split].
    + rewrite CC. intros [(<- & R)|H].
      * rewrite C; [apply K2; auto| |]; intros H; apply G in H; lia.
      * rewrite A by auto. apply G in H. rewrite !K by lia. reflexivity.
    + rewrite CC. intros [(-> & R)|H].
      * rewrite C; [rewrite K2 by lia; replace (j + 1 - 1) with j by lia; reflexivity| |]; intros H; apply G in H; lia.
      * rewrite B by auto. apply G in H. rewrite !K by lia. reflexivity.
    + rewrite !CC. intros H1 H2. rewrite C by tauto. apply K. lia.
Qed.

(** The averages on the global index plane *)
Definition glob_a (np : Z) (E : Z -> Z -> V) (i j : Z) : V :=
  if i mod np =? 0 then avg (E i j) (E (i - 1) j)
  else if (i + 1) mod np =? 0 then avg (E (i + 1) j) (E i j) else E i j.
Definition glob_b (np : Z) (E : Z -> Z -> V) (i j : Z) : V :=
  if j mod np =? 0 then avg (E i j) (E i (j - 1))
  else if (j + 1) mod np =? 0 then avg (E i (j + 1)) (E i j) else E i j.
End Sweep.

(** Lines of a patch: local index l <-> global index l + A0. *)
Lemma mod_succ np i : 2 <= np -> i mod np = 0 -> (i + 1) mod np <> 0.
Proof.
  intros H E. assert (np <> 0) by lia. apply Z.mod_divide in E; auto. destruct E as (q & ->).
  rewrite Z.add_comm, Z.mod_add by lia. rewrite Z.mod_small by lia. lia.
Qed.
Lemma div_between np lo hi i : 0 < np -> (np | lo) -> (np | hi) -> i mod np = 0 -> lo <= i <= hi ->
  exists a, i = lo + a * np /\ 0 <= a <= (hi - lo) / np.
Proof.
  intros H (x & ->) (y & ->) E R. apply Z.mod_divide in E; [|lia]. destruct E as (q & ->).
  exists (q - x). split; [ring|]. replace (y * np - x * np) with ((y - x) * np) by ring.
  rewrite Z.div_mul by lia. split.
  - destruct (Z_lt_le_dec q x); [exfalso|lia]. assert (q * np <= (x - 1) * np) by (apply Z.mul_le_mono_nonneg_r; lia). lia.
  - destruct (Z_lt_le_dec y q); [exfalso|lia]. assert ((y + 1) * np <= q * np) by (apply Z.mul_le_mono_nonneg_r; lia). lia.
Qed.
Lemma spaced_lines np h lo (f : Z -> Z * Z) n : 2 <= np -> forall m, Z.to_nat (n - lo) = m ->
  spaced (map (fun a => (a * np + h, fst (f a), snd (f a))) (up lo n)).
Proof.
  intros Hn m. revert lo. induction m as [|m IH]; intros lo Hm.
  - rewrite up_nil by lia. constructor.
  - rewrite up_cons by lia. cbn [map]. constructor; [|apply IH; lia].
    apply Forall_forall. intros l Hl. apply in_map_iff in Hl as (a & <- & Ha). apply in_up in Ha. cbn [fst].
    replace (lo * np + h - (a * np + h)) with (- ((a - lo) * np)) by ring.
    rewrite Z.abs_opp, Z.abs_eq by (apply Z.mul_nonneg_nonneg; lia).
    assert (1 * np <= (a - lo) * np) by (apply Z.mul_le_mono_nonneg_r; lia). lia.
Qed.

(** Coverage, for one axis of a patch: the interior runs from global index
    [lo] to [hi], local index = global index - g. *)
Lemma axis_lines np lo hi h g i : 2 <= np -> (np | lo) -> (np | hi) -> lo < hi -> lo = g + h ->
  (exists a, 0 <= a <= (hi - lo) / np /\ a * np + h = i) <-> ((i + g) mod np = 0 /\ lo <= i + g <= hi).
Proof.
  intros Hn Dl Dh L E. split.
  - intros (a & Ha & <-). replace (a * np + h + g) with (lo + a * np) by lia. split.
    + rewrite Z.mod_add by lia. apply Z.mod_divide; [lia|exact Dl].
    + assert (0 <= a * np) by (apply Z.mul_nonneg_nonneg; lia).
      assert (a * np <= ((hi - lo) / np) * np) by (apply Z.mul_le_mono_nonneg_r; lia).
      pose proof (Z.mul_div_le (hi - lo) np). lia.
  - intros (M & R). destruct (div_between np lo hi (i + g)) as (a & Ea & Ra); auto; [lia|].
    exists a. split; [exact Ra|lia].
Qed.
Lemma axis_last np lo hi h g : 2 <= np -> (np | lo) -> (np | hi) -> lo < hi -> lo = g + h ->
  1 <= (hi - lo) / np /\ (hi - lo) / np * np + h + g = hi.
Proof.
  intros Hn (x & ->) (y & ->) L E. replace (y * np - x * np) with ((y - x) * np) by ring.
  rewrite Z.div_mul by lia. split; [|rewrite Z.mul_sub_distr_r; lia].
  destruct (Z_lt_le_dec x y); [lia|exfalso]. assert (y * np <= x * np) by (apply Z.mul_le_mono_nonneg_r; lia). lia.
Qed.

Section Patch.
Context (np nA nB : Z) (b : box) (Hnp : 2 <= np) (Hb : patch_of np nA nB b).
Let loA := bA0 b + bhalo b.
Let hiA := bA1 b - bhalo b.
Let loB := bB0 b + bhalo b.
Let hiB := bB1 b - bhalo b.

Lemma el_a : elements_a np b = (hiA - loA) / np.
Proof.
  unfold patch_of in Hb. unfold elements_a, a_int_width. rewrite Z.quot_div_nonneg by lia. f_equal. unfold hiA, loA. lia.
Qed.
Lemma el_b : elements_b np b = (hiB - loB) / np.
Proof.
  unfold patch_of in Hb. unfold elements_b, b_int_width. rewrite Z.quot_div_nonneg by lia. f_equal. unfold hiB, loB. lia.
Qed.
Lemma axis_a i : (exists a, 0 <= a <= elements_a np b /\ a * np + bhalo b = i) <->
  (i + bA0 b) mod np = 0 /\ loA <= i + bA0 b <= hiA.
Proof. rewrite el_a. apply axis_lines; unfold patch_of in Hb; unfold loA, hiA; tauto. Qed.
Lemma axis_b i : (exists a, 0 <= a <= elements_b np b /\ a * np + bhalo b = i) <->
  (i + bB0 b) mod np = 0 /\ loB <= i + bB0 b <= hiB.
Proof. rewrite el_b. apply axis_lines; unfold patch_of in Hb; unfold loB, hiB; tauto. Qed.
Lemma last_a : 1 <= elements_a np b /\ elements_a np b * np + bhalo b + bA0 b = hiA.
Proof. rewrite el_a. apply axis_last; unfold patch_of in Hb; unfold loA, hiA; tauto. Qed.
Lemma last_b : 1 <= elements_b np b /\ elements_b np b * np + bhalo b + bB0 b = hiB.
Proof. rewrite el_b. apply axis_last; unfold patch_of in Hb; unfold loB, hiB; tauto. Qed.

Lemma cart_covers_a i j : covers (cart_lines_a np b) i j <->
  ((i + bA0 b) mod np = 0 /\ loA <= i + bA0 b <= hiA) /\ ib0 b - 1 <= j < ib1 b + 1.
Proof.
  rewrite <- axis_a. unfold covers, cart_lines_a. split.
  - intros (l & Hl & E & R). apply in_map_iff in Hl as (a & <- & Ha). apply in_up in Ha. cbn [fst snd] in *.
    split; [exists a; split; [lia|exact E]|exact R].
  - intros ((a & Ha & E) & R). exists (a * np + bhalo b, ib0 b - 1, ib1 b + 1). split; [|split; [exact E|exact R]].
    apply (in_map (fun a => (a * np + bhalo b, ib0 b - 1, ib1 b + 1))), in_up. lia.
Qed.
Lemma cart_covers_b i j : covers (cart_lines_b np b) j i <->
  ((j + bB0 b) mod np = 0 /\ loB <= j + bB0 b <= hiB) /\ ia0 b - 1 <= i < ia1 b + 1.
Proof.
  rewrite <- axis_b. unfold covers, cart_lines_b. split.
  - intros (l & Hl & E & R). apply in_map_iff in Hl as (a & <- & Ha). apply in_up in Ha. cbn [fst snd] in *.
    split; [exists a; split; [lia|exact E]|exact R].
  - intros ((a & Ha & E) & R). exists (a * np + bhalo b, ia0 b - 1, ia1 b + 1). split; [|split; [exact E|exact R]].
    apply (in_map (fun a => (a * np + bhalo b, ia0 b - 1, ia1 b + 1))), in_up. lia.
Qed.

Definition cut (c0 c1 : bool) (lo hi x : Z) : Prop := lo - 1 + by2 c0 <= x < hi + 1 - by2 c1.
Lemma cs_covers_gen (el h y0 y1 : Z) (cl0 cl1 cr0 cr1 : bool) i j : 1 <= el ->
  covers (map (fun a => (a * np + h, y0 - 1, y1 + 1)) (up 1 el) ++
          [(h, y0 - 1 + by2 cl0, y1 + 1 - by2 cl1); (el * np + h, y0 - 1 + by2 cr0, y1 + 1 - by2 cr1)]) i j <->
  (exists a, 0 <= a <= el /\ a * np + h = i) /\ y0 - 1 <= j < y1 + 1 /\
  (i = h -> cut cl0 cl1 y0 y1 j) /\ (i = el * np + h -> cut cr0 cr1 y0 y1 j).
Proof.
  intros He. unfold covers, cut.
  assert (forall c : bool, 0 <= by2 c <= 2) as B2 by (intros []; cbn; lia).
  pose proof (B2 cl0). pose proof (B2 cl1). pose proof (B2 cr0). pose proof (B2 cr1).
  assert (1 * np <= el * np) as Hel by (apply Z.mul_le_mono_nonneg_r; lia).
  split.
  - intros (l & Hl & E & R). apply in_app_iff in Hl as [Hl|[<-|[<-|[]]]].
    + apply in_map_iff in Hl as (a & <- & Ha). apply in_up in Ha. cbn [fst snd] in *.
      assert (1 * np <= a * np) by (apply Z.mul_le_mono_nonneg_r; lia).
      assert (a * np <= (el - 1) * np) by (apply Z.mul_le_mono_nonneg_r; lia).
      rewrite Z.mul_sub_distr_r in *. split; [exists a; lia|]. lia.
    + cbn [fst snd] in *. split; [exists 0; lia|]. lia.
    + cbn [fst snd] in *. split; [exists el; lia|]. lia.
  - intros ((a & Ha & E) & R & L & HH).
    destruct (Z.eq_dec a 0) as [->|]; [|destruct (Z.eq_dec a el) as [->|]].
    + eexists. split; [apply in_app_iff; right; left; reflexivity|]. cbn [fst snd]. lia.
    + eexists. split; [apply in_app_iff; right; right; left; reflexivity|]. cbn [fst snd]. lia.
    + exists (a * np + h, y0 - 1, y1 + 1). split; [|cbn [fst snd]; lia].
      apply in_app_iff. left. apply (in_map (fun a => (a * np + h, y0 - 1, y1 + 1))), in_up. lia.
Qed.
Lemma spaced_cs el h r f1 f2 : 1 <= el ->
  spaced (map (fun a => (a * np + h, fst r, snd r)) (up 1 el) ++ [(h, fst f1, snd f1); (el * np + h, fst f2, snd f2)]).
Proof.
  intros He. unfold spaced.
  assert (forall l1 l2 : list (Z * Z * Z), spaced l1 -> spaced l2 ->
    (forall a c, In a l1 -> In c l2 -> 2 <= Z.abs (fst (fst a) - fst (fst c))) -> spaced (l1 ++ l2)) as App.
  { intros l1 l2 S1 S2 H. induction S1 as [|x l F S IH]; [exact S2|]. cbn. constructor.
    - apply Forall_app. split; [exact F|]. apply Forall_forall. intros c Hc. apply H; [left; reflexivity|exact Hc].
    - apply IH. intros a c Ha Hc. apply H; [right; exact Ha|exact Hc]. }
  assert (1 * np <= el * np) as Hel by (apply Z.mul_le_mono_nonneg_r; lia).
  apply App.
  - apply (spaced_lines np h 1 (fun _ => r) el Hnp _ eq_refl).
  - constructor; [|constructor; constructor]. constructor; [|constructor]. cbn [fst]. lia.
  - intros a c Ha Hc. apply in_map_iff in Ha as (x & <- & Hx). apply in_up in Hx.
    assert (1 * np <= x * np) by (apply Z.mul_le_mono_nonneg_r; lia).
    assert (x * np <= (el - 1) * np) by (apply Z.mul_le_mono_nonneg_r; lia).
    rewrite Z.mul_sub_distr_r in *. cbn in Hc. destruct Hc as [<-|[<-|[]]]; cbn [fst]; lia.
Qed.
End Patch.

Section Values.
Context {V : Type} (avg : V -> V -> V) (third : V -> V -> V -> V).

(** Cartesian: the result at an interior node is the beta average of alpha
    averages of the global field. *)
Lemma cart_value np nA nB b (u : Z -> Z -> V) (E : Z -> Z -> V) i j :
  2 <= np -> patch_of np nA nB b ->
  (forall i j, ring b i j -> u i j = E (i + bA0 b) (j + bB0 b)) -> inner_node b i j ->
  cart_dss avg np b u i j = glob_b avg np (glob_a avg np E) (i + bA0 b) (j + bB0 b).
Proof.
  intros Hn Hb Hu Hi. unfold inner_node in Hi.
  assert (forall j', ib0 b - 1 <= j' < ib1 b + 1 ->
    fold_left (line_a avg) (cart_lines_a np b) u i j' = glob_a avg np E (i + bA0 b) (j' + bB0 b)) as A.
  { intros j' Hj'. unfold ib0, ib1 in Hj'.
    destruct (sweep_a avg (cart_lines_a np b)) with (u := u) (i := i) (j := j') as (P & Q & S).
    { apply (spaced_lines np (bhalo b) 0 (fun _ => (ib0 b - 1, ib1 b + 1)) _ Hn _ eq_refl). }
    assert (forall i', bhalo b - 1 <= i' <= bA1 b - bA0 b - bhalo b -> u i' j' = E (i' + bA0 b) (j' + bB0 b)) as U.
    { intros i' Hi'. apply Hu. unfold ring. lia. }
    rewrite (cart_covers_a np nA nB b Hn Hb) in P, S. rewrite (cart_covers_a np nA nB b Hn Hb) in Q, S.
    unfold ib0, ib1 in *. unfold glob_a. replace (i + 1 + bA0 b) with (i + bA0 b + 1) in * by lia.
    destruct (Z.eqb_spec ((i + bA0 b) mod np) 0) as [M|M].
    - rewrite P by lia. rewrite !U by lia. replace (i - 1 + bA0 b) with (i + bA0 b - 1) by lia. reflexivity.
    - destruct (Z.eqb_spec ((i + bA0 b + 1) mod np) 0) as [M'|M'].
      + rewrite Q by lia. rewrite !U by lia. replace (i + 1 + bA0 b) with (i + bA0 b + 1) by lia. reflexivity.
      + rewrite S by lia. apply U. lia. }
  unfold cart_dss.
  destruct (sweep_b avg (cart_lines_b np b)) with (u := fold_left (line_a avg) (cart_lines_a np b) u) (i := i) (j := j) as (P & Q & S).
  { apply (spaced_lines np (bhalo b) 0 (fun _ => (ia0 b - 1, ia1 b + 1)) _ Hn _ eq_refl). }
  rewrite (cart_covers_b np nA nB b Hn Hb) in P, S. rewrite (cart_covers_b np nA nB b Hn Hb) in Q, S.
  unfold ia0, ia1, ib0, ib1 in *. unfold glob_b. replace (j + 1 + bB0 b) with (j + bB0 b + 1) in * by lia.
  destruct (Z.eqb_spec ((j + bB0 b) mod np) 0) as [M|M].
  - rewrite P by lia. rewrite !A by lia. replace (j - 1 + bB0 b) with (j + bB0 b - 1) by lia. reflexivity.
  - destruct (Z.eqb_spec ((j + bB0 b + 1) mod np) 0) as [M'|M'].
    + rewrite Q by lia. rewrite !A by lia. replace (j + 1 + bB0 b) with (j + bB0 b + 1) by lia. reflexivity.
    + rewrite S by lia. apply A. lia.
Qed.
End Values.

Lemma cut_equiv n x y loA hiA loB hiB bl tl br tr : 2 <= n ->
  0 <= loA < hiA -> hiA <= n -> 0 <= loB -> loB + 2 <= hiB -> hiB <= n ->
  (loB = 0 \/ 2 <= loB) -> (hiB = n \/ hiB <= n - 2) ->
  (loA = 0 /\ loB = 0) /\ bl = 2 \/ ~ (loA = 0 /\ loB = 0) /\ bl = 0 ->
  (loA = 0 /\ hiB = n) /\ tl = 2 \/ ~ (loA = 0 /\ hiB = n) /\ tl = 0 ->
  (hiA = n /\ loB = 0) /\ br = 2 \/ ~ (hiA = n /\ loB = 0) /\ br = 0 ->
  (hiA = n /\ hiB = n) /\ tr = 2 \/ ~ (hiA = n /\ hiB = n) /\ tr = 0 ->
  loA <= x <= hiA -> loB - 1 <= y <= hiB ->
  (x = loA -> loB - 1 + bl <= y < hiB + 1 - tl) /\ (x = hiA -> loB - 1 + br <= y < hiB + 1 - tr) <->
  ~ ((x = 0 \/ x = n) /\ (y <= 0 \/ n - 1 <= y)).
Proof.
  intros H H0 H1 H2 H3 H4 G0 G1 K1 K2 K3 K4 X Y.
  destruct (Z.eq_dec x loA) as [Ea|Ea], (Z.eq_dec x hiA) as [Eb|Eb].
  - exfalso; clear - H0 Ea Eb; lia.
  - clear K3 K4. destruct K1 as [(K1 & ->)|(K1 & ->)], K2 as [(K2 & ->)|(K2 & ->)]; lia.
  - clear K1 K2. destruct K3 as [(K3 & ->)|(K3 & ->)], K4 as [(K4 & ->)|(K4 & ->)]; lia.
  - clear K1 K2 K3 K4 G0 G1. lia.
Qed.

Lemma swap2 (A B C D : Prop) : (A /\ B) /\ C \/ ~ (A /\ B) /\ D -> (B /\ A) /\ C \/ ~ (B /\ A) /\ D.
Proof. tauto. Qed.
Lemma no_panel_spec n b i j : 0 < n -> 0 <= bpanel b <= 5 ->
  no_panel n b i j = true <-> (i < 0 \/ n <= i) /\ (j < 0 \/ n <= j).
Proof.
  intros Hn Hp. destruct b as [p lv h A0 A1 B0 B1]. unfold no_panel. cbn [bpanel] in *.
  destruct (Z_lt_le_dec i 0) as [I|I]; [|destruct (Z_lt_le_dec i n) as [I'|I']];
    (destruct (Z_lt_le_dec j 0) as [J|J]; [|destruct (Z_lt_le_dec j n) as [J'|J']]);
    try (rewrite (proj2 (C20_interior_and_corner n p i j Hn)) by lia; cbn; split; auto; lia);
    try (rewrite (proj1 (C20_interior_and_corner n p i j Hn)) by lia; cbn [rp]; lia);
    (split; [|lia]); panels p Hp; unfold relative_coord; dec_tests; cbn; congruence.
Qed.

Section CsValues.
Context {V : Type} (avg : V -> V -> V) (third : V -> V -> V -> V).
Definition out_side (n i : Z) : Z := if i =? 0 then -1 else 1.
Definition cs_val (np n : Z) (E : Z -> Z -> V) (i j : Z) : V :=
  if ((i =? 0) || (i =? n - 1)) && ((j =? 0) || (j =? n - 1)) then
    third (E i j) (E (i + out_side n i) j) (E i (j + out_side n j))
  else glob_b avg np (glob_a avg np E) i j.

Section OnePatch.
Context (np n : Z) (b : box) (u E : Z -> Z -> V).
Context (Hn : 2 <= np) (Hd : (np | n)) (Hp : 0 <= bpanel b <= 5) (Hb : patch_of np n n b).
Context (Hu : forall i j, ring b i j ->
  ~ ((i + bA0 b < 0 \/ n <= i + bA0 b) /\ (j + bB0 b < 0 \/ n <= j + bB0 b)) -> u i j = E (i + bA0 b) (j + bB0 b)).

Lemma n_ge : 2 <= n.
Proof.
  unfold patch_of in Hb. destruct Hd as (q & ->).
  destruct (Z_lt_le_dec q 1); [|assert (1 * np <= q * np) by (apply Z.mul_le_mono_nonneg_r; lia); lia].
  assert (q * np <= 0 * np) by (apply Z.mul_le_mono_nonneg_r; lia). lia.
Qed.
Lemma flag_bl : c_bl n b = true <-> bA0 b + bhalo b = 0 /\ bB0 b + bhalo b = 0.
Proof.
  pose proof n_ge. unfold c_bl. rewrite no_panel_spec by lia. unfold a_int_begin, b_int_begin. unfold patch_of in Hb. lia.
Qed.
Lemma flag_tl : c_tl n b = true <-> bA0 b + bhalo b = 0 /\ bB1 b - bhalo b = n.
Proof.
  pose proof n_ge. unfold c_tl. rewrite no_panel_spec by lia. unfold a_int_begin, b_int_end. unfold patch_of in Hb. lia.
Qed.
Lemma flag_br : c_br n b = true <-> bA1 b - bhalo b = n /\ bB0 b + bhalo b = 0.
Proof.
  pose proof n_ge. unfold c_br. rewrite no_panel_spec by lia. unfold a_int_end, b_int_begin. unfold patch_of in Hb. lia.
Qed.
Lemma flag_tr : c_tr n b = true <-> bA1 b - bhalo b = n /\ bB1 b - bhalo b = n.
Proof.
  pose proof n_ge. unfold c_tr. rewrite no_panel_spec by lia. unfold a_int_end, b_int_end. unfold patch_of in Hb. lia.
Qed.
Lemma by2_spec c P : (c = true <-> P) -> (P /\ by2 c = 2) \/ (~ P /\ by2 c = 0).
Proof. intros H. destruct c; cbn; [left|right]; intuition congruence. Qed.

Lemma mult_gap x : (np | x) -> 0 <= x <= n -> (x = 0 \/ np <= x) /\ (x = n \/ x <= n - np).
Proof.
  intros (q & ->) R. destruct Hd as (m & ->). split.
  - destruct (Z_lt_le_dec q 1); [left|right].
    + destruct (Z.eq_dec q 0) as [->|]; [lia|]. assert (q * np <= (-1) * np) by (apply Z.mul_le_mono_nonneg_r; lia). lia.
    + assert (1 * np <= q * np) by (apply Z.mul_le_mono_nonneg_r; lia). lia.
  - destruct (Z_lt_le_dec q m); [right|left].
    + assert (q * np <= (m - 1) * np) by (apply Z.mul_le_mono_nonneg_r; lia). lia.
    + assert (m * np <= q * np) by (apply Z.mul_le_mono_nonneg_r; lia). lia.
Qed.
Definition edge_cut (i j : Z) : Prop :=
  ((i = 0 \/ i = n) /\ (j <= 0 \/ n - 1 <= j)).
Lemma cs_covers_a i j : covers (cs_lines_a np n b) i j <->
  ((i + bA0 b) mod np = 0 /\ bA0 b + bhalo b <= i + bA0 b <= bA1 b - bhalo b) /\
  bhalo b - 1 <= j <= bB1 b - bB0 b - bhalo b /\ ~ edge_cut (i + bA0 b) (j + bB0 b).
Proof.
  destruct (last_a np n n b Hn Hb) as (L1 & L2).
  unfold cs_lines_a. rewrite (cs_covers_gen np b Hn (elements_a np b) (bhalo b) (ib0 b) (ib1 b)) by exact L1.
  rewrite (axis_a np n n b Hn Hb). unfold ib0, ib1, cut, edge_cut.
  pose proof n_ge as Hn2.
  pose proof (by2_spec _ _ flag_bl) as K1. pose proof (by2_spec _ _ flag_tl) as K2.
  pose proof (by2_spec _ _ flag_br) as K3. pose proof (by2_spec _ _ flag_tr) as K4.
  assert (bB0 b + bhalo b + np <= bB1 b - bhalo b) as Hw.
  { clear K1 K2 K3 K4. destruct (last_b np n n b Hn Hb) as (M1 & M2).
    assert (1 * np <= elements_b np b * np) by (apply Z.mul_le_mono_nonneg_r; lia). lia. }
  pose proof (mult_gap (bB0 b + bhalo b)) as G0. pose proof (mult_gap (bB1 b - bhalo b)) as G1.
  unfold patch_of in Hb. destruct Hb as (B0 & B1 & B2 & B3 & B4 & B5).
  specialize (G0 ltac:(assumption) ltac:(clear K1 K2 K3 K4; lia)). specialize (G1 ltac:(assumption) ltac:(clear K1 K2 K3 K4; lia)).
  set (el := elements_a np b * np) in *. clearbody el.
  pose proof (cut_equiv n (i + bA0 b) (j + bB0 b) (bA0 b + bhalo b) (bA1 b - bhalo b) (bB0 b + bhalo b) (bB1 b - bhalo b)) as C.
  specialize (fun a b c d e f g h => C _ _ _ _ a b c d e f g h K1 K2 K3 K4).
  clear K1 K2 K3 K4.
  specialize (C ltac:(lia) ltac:(lia) ltac:(lia) ltac:(lia) ltac:(lia) ltac:(lia) ltac:(lia) ltac:(lia)). clear G0 G1.
  split.
  - intros (P & Q & L & R). split; [exact P|]. split; [clear C L R; lia|]. apply C; [clear C L R; lia|clear C L R; lia|]. clear C. split; intros; [assert (i = bhalo b) as Z by lia; apply L in Z|assert (i = el + bhalo b) as Z by lia; apply R in Z]; lia.
  - intros (P & Q & NE). split; [exact P|]. split; [clear C NE; lia|]. apply C in NE; [|clear C NE; lia|clear C NE; lia]. clear C. destruct NE as (L & R).
    split; intros Z; [clear R; assert (i + bA0 b = bA0 b + bhalo b) as Z' by lia; apply L in Z'|
      clear L; assert (i + bA0 b = bA1 b - bhalo b) as Z' by lia; apply R in Z']; lia.
Qed.
Lemma cs_covers_b i j : covers (cs_lines_b np n b) j i <->
  ((j + bB0 b) mod np = 0 /\ bB0 b + bhalo b <= j + bB0 b <= bB1 b - bhalo b) /\
  bhalo b - 1 <= i <= bA1 b - bA0 b - bhalo b /\ ~ edge_cut (j + bB0 b) (i + bA0 b).
Proof.
  destruct (last_b np n n b Hn Hb) as (L1 & L2).
  unfold cs_lines_b. rewrite (cs_covers_gen np b Hn (elements_b np b) (bhalo b) (ia0 b) (ia1 b)) by exact L1.
  rewrite (axis_b np n n b Hn Hb). unfold ia0, ia1, cut, edge_cut.
  pose proof n_ge as Hn2.
  pose proof (by2_spec _ _ flag_bl) as K1. pose proof (by2_spec _ _ flag_tl) as K2.
  pose proof (by2_spec _ _ flag_br) as K3. pose proof (by2_spec _ _ flag_tr) as K4.
  assert (bA0 b + bhalo b + np <= bA1 b - bhalo b) as Hw.
  { clear K1 K2 K3 K4. destruct (last_a np n n b Hn Hb) as (M1 & M2).
    assert (1 * np <= elements_a np b * np) by (apply Z.mul_le_mono_nonneg_r; lia). lia. }
  pose proof (mult_gap (bA0 b + bhalo b)) as G0. pose proof (mult_gap (bA1 b - bhalo b)) as G1.
  unfold patch_of in Hb. destruct Hb as (B0 & B1 & B2 & B3 & B4 & B5).
  specialize (G0 ltac:(assumption) ltac:(clear K1 K2 K3 K4; lia)). specialize (G1 ltac:(assumption) ltac:(clear K1 K2 K3 K4; lia)).
  set (el := elements_b np b * np) in *. clearbody el.
  pose proof (cut_equiv n (j + bB0 b) (i + bA0 b) (bB0 b + bhalo b) (bB1 b - bhalo b) (bA0 b + bhalo b) (bA1 b - bhalo b)) as C.
  specialize (fun a b c d e f g h => C _ _ _ _ a b c d e f g h (swap2 _ _ _ _ K1) (swap2 _ _ _ _ K3) (swap2 _ _ _ _ K2) (swap2 _ _ _ _ K4)).
  clear K1 K2 K3 K4.
  specialize (C ltac:(lia) ltac:(lia) ltac:(lia) ltac:(lia) ltac:(lia) ltac:(lia) ltac:(lia) ltac:(lia)). clear G0 G1.
  split.
  - intros (P & Q & L & R). split; [exact P|]. split; [clear C L R; lia|]. apply C; [clear C L R; lia|clear C L R; lia|]. clear C. split; intros; [assert (j = bhalo b) as Z by lia; apply L in Z|assert (j = el + bhalo b) as Z by lia; apply R in Z]; lia.
  - intros (P & Q & NE). split; [exact P|]. split; [clear C NE; lia|]. apply C in NE; [|clear C NE; lia|clear C NE; lia]. clear C. destruct NE as (L & R).
    split; intros Z; [clear R; assert (j + bB0 b = bB0 b + bhalo b) as Z' by lia; apply L in Z'|
      clear L; assert (j + bB0 b = bB1 b - bhalo b) as Z' by lia; apply R in Z']; lia.
Qed.
Notation ua := (fold_left (line_a avg) (cs_lines_a np n b) u).
Notation ub := (fold_left (line_b avg) (cs_lines_b np n b) ua).
Definition safe (x y : Z) : Prop := ~ ((x = 0 \/ x = n - 1) /\ (y <= 0 \/ n - 1 <= y)).
Lemma spaced_lines_a : spaced (cs_lines_a np n b).
Proof.
  destruct (last_a np n n b Hn Hb) as (L1 & L2).
  exact (spaced_cs np b Hn (elements_a np b) (bhalo b) (ib0 b - 1, ib1 b + 1) (ib0 b - 1 + by2 (c_bl n b), ib1 b + 1 - by2 (c_tl n b))
    (ib0 b - 1 + by2 (c_br n b), ib1 b + 1 - by2 (c_tr n b)) L1).
Qed.
Lemma spaced_lines_b : spaced (cs_lines_b np n b).
Proof.
  destruct (last_b np n n b Hn Hb) as (L1 & L2).
  exact (spaced_cs np b Hn (elements_b np b) (bhalo b) (ia0 b - 1, ia1 b + 1) (ia0 b - 1 + by2 (c_bl n b), ia1 b + 1 - by2 (c_br n b))
    (ia0 b - 1 + by2 (c_tl n b), ia1 b + 1 - by2 (c_tr n b)) L1).
Qed.
Lemma no_mod x : x mod np = 0 -> (x + 1) mod np <> 0 /\ (x - 1) mod np <> 0.
Proof.
  intros M. split; [apply mod_succ; auto|]. intros M'. apply (mod_succ np (x - 1) Hn M'). replace (x - 1 + 1) with x by lia. exact M.
Qed.

Lemma alpha_stage i j : bhalo b <= i < bA1 b - bA0 b - bhalo b -> bhalo b - 1 <= j <= bB1 b - bB0 b - bhalo b ->
  safe (i + bA0 b) (j + bB0 b) -> ua i j = glob_a avg np E (i + bA0 b) (j + bB0 b).
Proof.
  intros Hi Hj Sf. unfold safe in Sf. pose proof n_ge as N2.
  destruct (sweep_a avg _ spaced_lines_a u i j) as (P & Q & S).
  rewrite cs_covers_a in P, S. rewrite cs_covers_a in Q, S. unfold edge_cut in *.
  unfold glob_a. replace (i + 1 + bA0 b) with (i + bA0 b + 1) in * by lia.
  unfold patch_of in Hb. unfold ring in Hu.
  destruct (Z.eqb_spec ((i + bA0 b) mod np) 0) as [M|M].
  - rewrite P by lia. clear P Q S. rewrite !Hu by lia. replace (i - 1 + bA0 b) with (i + bA0 b - 1) by lia. reflexivity.
  - destruct (Z.eqb_spec ((i + bA0 b + 1) mod np) 0) as [M'|M'].
    + rewrite Q by lia. clear P Q S. rewrite !Hu by lia. replace (i + 1 + bA0 b) with (i + bA0 b + 1) by lia. reflexivity.
    + rewrite S by lia. clear P Q S. apply Hu; lia.
Qed.
Lemma beta_stage i j : inner_node b i j ->
  ~ ((i + bA0 b = 0 \/ i + bA0 b = n - 1) /\ (j + bB0 b = 0 \/ j + bB0 b = n - 1)) ->
  ub i j = glob_b avg np (glob_a avg np E) (i + bA0 b) (j + bB0 b).
Proof.
  intros (Hi & Hj) Nc. pose proof n_ge as N2.
  destruct (sweep_b avg _ spaced_lines_b ua i j) as (P & Q & S).
  rewrite cs_covers_b in P, S. rewrite cs_covers_b in Q, S. unfold edge_cut in *.
  unfold glob_b. replace (j + 1 + bB0 b) with (j + bB0 b + 1) in * by lia.
  assert (0 <= i + bA0 b < n /\ 0 <= j + bB0 b < n) as R by (unfold patch_of in Hb; lia).
  destruct (Z.eqb_spec ((j + bB0 b) mod np) 0) as [M|M].
  - rewrite P by (unfold patch_of in Hb; lia). clear P Q S.
    assert (j + bB0 b = 0 \/ np <= j + bB0 b) as G.
    { apply mult_gap; [apply Z.mod_divide; [lia|exact M]|lia]. }
    rewrite !alpha_stage; try lia; try (unfold safe; lia).
    replace (j - 1 + bB0 b) with (j + bB0 b - 1) by lia. reflexivity.
  - destruct (Z.eqb_spec ((j + bB0 b + 1) mod np) 0) as [M'|M'].
    + rewrite Q by (unfold patch_of in Hb; lia). clear P Q S.
      assert (j + bB0 b + 1 = n \/ j + bB0 b + 1 <= n - np) as G.
      { apply mult_gap; [apply Z.mod_divide; [lia|exact M']|lia]. }
      rewrite !alpha_stage; try lia; try (unfold safe; lia).
      replace (j + 1 + bB0 b) with (j + bB0 b + 1) by lia. reflexivity.
    + rewrite S by (unfold patch_of in Hb; lia). clear P Q S. apply alpha_stage; try lia. unfold safe; lia.
Qed.
(** Around a panel corner nothing is averaged. *)
Lemma corner_stage i j : ring b i j ->
  (i + bA0 b <= 0 \/ n - 1 <= i + bA0 b) -> (j + bB0 b <= 0 \/ n - 1 <= j + bB0 b) ->
  ub i j = u i j.
Proof.
  intros (Ri & Rj) Ci Cj. pose proof n_ge as N2. unfold patch_of in Hb.
  assert (forall x, (x = -1 \/ x = 0 \/ x = n - 1 \/ x = n) ->
    (x mod np = 0 -> x = 0 \/ x = n) /\ ((x + 1) mod np = 0 -> x + 1 = 0 \/ x + 1 = n)) as K.
  { assert (0 mod np = 0) as Z0 by (apply Z.mod_0_l; lia).
    assert (n mod np = 0) as Zn by (apply Z.mod_divide; [lia|exact Hd]).
    intros x [->|[->|[->| ->]]]; split; intros M; try lia; exfalso.
    - apply (proj2 (no_mod 0 Z0)). exact M.
    - apply (proj1 (no_mod 0 Z0)). exact M.
    - apply (proj2 (no_mod n Zn)). exact M.
    - apply (proj1 (no_mod n Zn)). exact M. }
  assert (bA0 b + bhalo b + 2 <= bA1 b - bhalo b /\ bB0 b + bhalo b + 2 <= bB1 b - bhalo b) as W.
  { destruct (last_a np n n b Hn Hb) as (L1 & L2). destruct (last_b np n n b Hn Hb) as (M1 & M2).
    assert (1 * np <= elements_a np b * np) by (apply Z.mul_le_mono_nonneg_r; lia).
    assert (1 * np <= elements_b np b * np) by (apply Z.mul_le_mono_nonneg_r; lia). lia. }
  assert (i + bA0 b = -1 \/ i + bA0 b = 0 \/ i + bA0 b = n - 1 \/ i + bA0 b = n) as Ei by lia.
  assert (j + bB0 b = -1 \/ j + bB0 b = 0 \/ j + bB0 b = n - 1 \/ j + bB0 b = n) as Ej by lia.
  destruct (K _ Ei) as (I1 & I2). destruct (K _ Ej) as (J1 & J2). clear K.
  destruct (sweep_b avg _ spaced_lines_b ua i j) as (_ & _ & S).
  rewrite S.
  - clear S. destruct (sweep_a avg _ spaced_lines_a u i j) as (_ & _ & S). apply S.
    + rewrite cs_covers_a. unfold edge_cut. lia.
    + rewrite cs_covers_a. replace (i + 1 + bA0 b) with (i + bA0 b + 1) by lia. unfold edge_cut. lia.
  - rewrite cs_covers_b. unfold edge_cut. lia.
  - rewrite cs_covers_b. replace (j + 1 + bB0 b) with (j + bB0 b + 1) by lia. unfold edge_cut. lia.
Qed.
Lemma corner_at c i0 j0 si sj (w : Z -> Z -> V) i j :
  corner third c i0 j0 si sj w i j =
  if c && (i =? i0) && (j =? j0) then third (w i0 j0) (w (i0 + si) j0) (w i0 (j0 + sj)) else w i j.
Proof. unfold corner, put. destruct c; cbn; [|reflexivity]. destruct (i =? i0), (j =? j0); reflexivity. Qed.
Lemma flag_dec (c : bool) (P : Prop) : (c = true <-> P) -> (c = true /\ P) \/ (c = false /\ ~ P).
Proof. intros H. destruct c; [left|right]; intuition congruence. Qed.
Ltac eqbs := repeat match goal with
  | |- context [Z.eqb ?a ?c] => first [ replace (Z.eqb a c) with true by lia | replace (Z.eqb a c) with false by lia ]
  end; cbn [andb orb negb].

Lemma cs_value i j : inner_node b i j ->
  cs_dss avg third np n b u i j = cs_val np n E (i + bA0 b) (j + bB0 b).
Proof.
  intros Hi. pose proof n_ge as N2. unfold cs_dss, cs_val. set (w := ub).
  assert (bA0 b + bhalo b + 2 <= bA1 b - bhalo b /\ bB0 b + bhalo b + 2 <= bB1 b - bhalo b) as W.
  { destruct (last_a np n n b Hn Hb) as (L1 & L2). destruct (last_b np n n b Hn Hb) as (M1 & M2).
    assert (1 * np <= elements_a np b * np) by (apply Z.mul_le_mono_nonneg_r; lia).
    assert (1 * np <= elements_b np b * np) by (apply Z.mul_le_mono_nonneg_r; lia). lia. }
  pose proof beta_stage as Bs. pose proof corner_stage as Cs. fold w in Bs, Cs. 
  assert (0 <= i + bA0 b < n /\ 0 <= j + bB0 b < n) as R by (unfold patch_of, inner_node in *; lia).
  unfold cs_corners. cbv zeta.
  destruct (((i + bA0 b =? 0) || (i + bA0 b =? n - 1)) && ((j + bB0 b =? 0) || (j + bB0 b =? n - 1))) eqn:Ec.
  - assert (forall i' j', ring b i' j' -> (i' + bA0 b <= 0 \/ n - 1 <= i' + bA0 b) -> (j' + bB0 b <= 0 \/ n - 1 <= j' + bB0 b) ->
      ~ ((i' + bA0 b < 0 \/ n <= i' + bA0 b) /\ (j' + bB0 b < 0 \/ n <= j' + bB0 b)) ->
      w i' j' = E (i' + bA0 b) (j' + bB0 b)) as CE.
    { intros i' j' R' C1 C2 O. rewrite Cs; auto. }
    clear Bs Cs.
    assert (forall si sj, third (w i j) (w (i + si) j) (w i (j + sj)) = third (E (i + bA0 b) (j + bB0 b)) (E (i + bA0 b + si) (j + bB0 b)) (E (i + bA0 b) (j + bB0 b + sj)) \/
      ~ (si = out_side n (i + bA0 b) /\ sj = out_side n (j + bB0 b))) as T.
    { intros si sj. destruct (Z.eq_dec si (out_side n (i + bA0 b))) as [->|]; [|right; tauto].
      destruct (Z.eq_dec sj (out_side n (j + bB0 b))) as [->|]; [|right; tauto]. left.
      unfold out_side, inner_node, ring in *.
      destruct (Z.eqb_spec (i + bA0 b) 0), (Z.eqb_spec (j + bB0 b) 0);
        rewrite !CE by lia; f_equal; f_equal; lia. }
    clear CE.
    rewrite !corner_at. unfold ia0, ia1, ib0, ib1.
    pose proof (flag_dec _ _ flag_bl) as K1. pose proof (flag_dec _ _ flag_tl) as K2.
    pose proof (flag_dec _ _ flag_br) as K3. pose proof (flag_dec _ _ flag_tr) as K4.
    set (h := bhalo b) in *. unfold inner_node, patch_of in *.
    assert (h <= i < bA1 b - bA0 b - h) by tauto. assert (h <= j < bB1 b - bB0 b - h) by tauto.
    assert (0 <= bA0 b + h) by tauto. assert (bA1 b - h <= n) by tauto.
    assert (0 <= bB0 b + h) by tauto. assert (bB1 b - h <= n) by tauto. clear Hb Hi Hu.
    assert (i + bA0 b = 0 \/ i + bA0 b = n - 1) as Ci by lia.
    assert (j + bB0 b = 0 \/ j + bB0 b = n - 1) as Cj by lia.
    destruct Ci as [Ci|Ci], Cj as [Cj|Cj]; unfold out_side in *.
    + clear K2 K3 K4. destruct K1 as [(-> & K1)|(-> & K1)]; [|exfalso; lia].
      assert (i = h) by lia. assert (j = h) by lia. subst i j. eqbs. rewrite !andb_false_r. eqbs.
      specialize (T (-1) (-1)). revert T. eqbs. intros [T|T]; [|exfalso; lia].
      etransitivity; [|exact T]. rewrite ?andb_false_r. eqbs. rewrite ?andb_false_r. reflexivity.
    + clear K1 K3 K4. destruct K2 as [(-> & K2)|(-> & K2)]; [|exfalso; lia].
      assert (i = h) by lia. assert (j = bB1 b - bB0 b - h - 1) by lia. subst i j. eqbs. rewrite !andb_false_r. eqbs.
      specialize (T (-1) 1). revert T. eqbs. intros [T|T]; [|exfalso; lia].
      etransitivity; [|exact T]. rewrite ?andb_false_r. eqbs. rewrite ?andb_false_r. reflexivity.
    + clear K1 K2 K4. destruct K3 as [(-> & K3)|(-> & K3)]; [|exfalso; lia].
      assert (i = bA1 b - bA0 b - h - 1) by lia. assert (j = h) by lia. subst i j. eqbs. rewrite !andb_false_r. eqbs.
      specialize (T 1 (-1)). revert T. eqbs. intros [T|T]; [|exfalso; lia].
      etransitivity; [|exact T]. rewrite ?andb_false_r. eqbs. rewrite ?andb_false_r. reflexivity.
    + clear K1 K2 K3. destruct K4 as [(-> & K4)|(-> & K4)]; [|exfalso; lia].
      assert (i = bA1 b - bA0 b - h - 1) by lia. assert (j = bB1 b - bB0 b - h - 1) by lia. subst i j. eqbs. rewrite !andb_false_r. eqbs.
      specialize (T 1 1). revert T. eqbs. intros [T|T]; [|exfalso; lia].
      etransitivity; [|exact T]. rewrite ?andb_false_r. eqbs. rewrite ?andb_false_r. reflexivity.
  - clear Cs. rewrite <- Bs; [|exact Hi|lia]. clear Bs.
    rewrite !corner_at. unfold ia0, ia1, ib0, ib1.
    pose proof (flag_dec _ _ flag_bl) as K1. pose proof (flag_dec _ _ flag_tl) as K2.
    pose proof (flag_dec _ _ flag_br) as K3. pose proof (flag_dec _ _ flag_tr) as K4.
    assert (forall (c : bool) x y, (c = true -> ~ (i = x /\ j = y)) -> c && (i =? x) && (j =? y) = false) as F.
    { intros c x y H. destruct c; [|reflexivity]. specialize (H eq_refl). cbn. lia. }
    rewrite !F; [reflexivity| | | |]; intros C.
    + clear K1 K2 K3. destruct K4 as [(_ & K)|(K & _)]; [|congruence]. lia.
    + clear K1 K4 K3. destruct K2 as [(_ & K)|(K & _)]; [|congruence]. lia.
    + clear K2 K4 K3. destruct K1 as [(_ & K)|(K & _)]; [|congruence]. lia.
    + clear K2 K4 K1. destruct K3 as [(_ & K)|(K & _)]; [|congruence]. lia.
Qed.
End OnePatch.
End CsValues.
