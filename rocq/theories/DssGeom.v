(** Lemmas for C25 and C26: coincident nodes and means. *)
From Coq Require Import ZArith Bool List Lia ZifyBool Reals Lra Permutation.
From Verif Require Import PanelModel PanelSpec PanelProps LayoutModel DssModel DssSpec DssProofs.
Import ListNotations.
Local Open Scope Z_scope.

Definition ravg (x y : R) : R := (/ 2 * (x + y))%R.
Definition rthird (x y z : R) : R := (1 / 3 * (x + y + z))%R.

(** ** Means *)
Lemma rsum_perm {A} (U : A -> R) l l' : Permutation l l' -> rsum U l = rsum U l'.
Proof. intros P. unfold rsum. induction P; cbn; lra. Qed.
Lemma mean_unique {A} (P : A -> Prop) U x y : mean_over P U x -> mean_over P U y -> x = y.
Proof.
  intros (l & N & I & _ & ->) (l' & N' & I' & _ & ->).
  assert (Permutation l l') as Pm by (apply NoDup_Permutation; auto; intros a; rewrite I, I'; reflexivity).
  rewrite (rsum_perm U l l' Pm), (Permutation_length Pm). reflexivity.
Qed.
Lemma mean_ext {A} (P Q : A -> Prop) U x : (forall n, P n <-> Q n) -> mean_over P U x -> mean_over Q U x.
Proof.
  intros H (l & N & I & Z & E). exists l. split; [exact N|]. split; [|split; assumption].
  intros n. rewrite I. apply H.
Qed.
Lemma rsum_const {A} (U : A -> R) c l : (forall n, In n l -> U n = c) -> rsum U l = (INR (length l) * c)%R.
Proof.
  induction l as [|a l IH]; intros H; [cbn; lra|]. cbn [rsum fold_right length]. change (fold_right _ _ l) with (rsum U l).
  rewrite IH by (intros; apply H; right; assumption). rewrite (H a) by (left; reflexivity). rewrite S_INR. lra.
Qed.
Lemma length_pos {A} (l : list A) : l <> [] -> (0 < INR (length l))%R.
Proof. intros H. destruct l; [congruence|]. apply lt_0_INR. cbn. lia. Qed.
Lemma mean_const {A} (P : A -> Prop) U x c : (forall n, P n -> U n = c) -> mean_over P U x -> x = c.
Proof.
  intros H (l & N & I & Z & ->). rewrite (rsum_const U c); [|intros n Hn; apply H, I, Hn].
  pose proof (length_pos l Z). field. lra.
Qed.
Lemma mean_sum {A} (P : A -> Prop) U D l : NoDup l -> (forall n, In n l <-> P n) ->
  (forall n, P n -> mean_over P U (D n)) -> rsum D l = rsum U l.
Proof.
  intros N I H. destruct l as [|a l]; [reflexivity|].
  assert (mean_over P U (rsum U (a :: l) / INR (length (a :: l)))) as M.
  { exists (a :: l). split; [exact N|]. split; [exact I|]. split; [congruence|reflexivity]. }
  rewrite (rsum_const D (rsum U (a :: l) / INR (length (a :: l)))%R).
  - pose proof (length_pos (a :: l) ltac:(congruence)). field. lra.
  - intros n Hn. apply (mean_unique P U); [|exact M]. apply H, I, Hn.
Qed.
Lemma mean_of_list {A} (P : A -> Prop) (U : A -> R) l v : NoDup l -> (forall n, In n l <-> P n) ->
  l <> [] -> v = (rsum U l / INR (length l))%R -> mean_over P U v.
Proof. intros. exists l. auto. Qed.

(** ** Points on one axis *)
Definition mate (np i : Z) : Z := if i mod np =? 0 then i - 1 else if (i + 1) mod np =? 0 then i + 1 else i.

Lemma split_np np i : 0 < np -> exists q r, i = q * np + r /\ 0 <= r < np /\ i / np = q /\ i mod np = r.
Proof.
  intros H. exists (i / np), (i mod np). pose proof (Z.div_mod i np). pose proof (Z.mod_pos_bound i np).
  split; [lia|]. split; [lia|]. auto.
Qed.
Lemma mod_at np q r : 0 < np -> 0 <= r < np -> (q * np + r) mod np = r /\ (q * np + r) / np = q.
Proof.
  intros H R. split.
  - rewrite Z.add_comm, Z.mod_add by lia. apply Z.mod_small; lia.
  - rewrite Z.add_comm, Z.div_add by lia. rewrite Z.div_small by lia. lia.
Qed.
Lemma mate_at np q r : 2 <= np -> 0 <= r < np ->
  mate np (q * np + r) = if r =? 0 then q * np - 1 else if r =? np - 1 then (q + 1) * np else q * np + r.
Proof.
  intros Hn R. unfold mate. rewrite (proj1 (mod_at np q r ltac:(lia) R)).
  destruct (Z.eqb_spec r 0) as [->|N0]; [lia|].
  destruct (Z.eqb_spec r (np - 1)) as [->|N1].
  - replace (q * np + (np - 1) + 1) with ((q + 1) * np) by ring. rewrite Z.mod_mul by lia. cbn. ring.
  - replace (q * np + r + 1) with (q * np + (r + 1)) by ring. rewrite (proj1 (mod_at np q (r + 1) ltac:(lia) ltac:(lia))).
    destruct (Z.eqb_spec (r + 1) 0); lia.
Qed.
Lemma point_at np q r : 0 < np -> 0 <= r < np -> gll_point np (q * np + r) = q * (np - 1) + r.
Proof. intros H R. unfold gll_point. destruct (mod_at np q r H R) as (-> & ->). reflexivity. Qed.

Lemma point_eq np i i' : 2 <= np -> gll_point np i = gll_point np i' <-> i' = i \/ i' = mate np i.
Proof.
  intros Hn. destruct (split_np np i ltac:(lia)) as (q & r & Ei & R & _ & _).
  destruct (split_np np i' ltac:(lia)) as (q' & r' & Ei' & R' & _ & _). subst i i'.
  rewrite !point_at, mate_at by lia. split.
  - intros E. assert ((q - q') * (np - 1) = r' - r) as D by (rewrite Z.mul_sub_distr_r; lia).
    assert (q - q' <= 1) as U.
    { destruct (Z_le_gt_dec (q - q') 1); [assumption|exfalso].
      assert (2 * (np - 1) <= (q - q') * (np - 1)) by (apply Z.mul_le_mono_nonneg_r; lia). lia. }
    assert (-1 <= q - q') as L.
    { destruct (Z_le_gt_dec (-1) (q - q')); [assumption|exfalso].
      assert ((q - q') * (np - 1) <= (-2) * (np - 1)) by (apply Z.mul_le_mono_nonneg_r; lia). lia. }
    assert (q - q' = 1 \/ q - q' = 0 \/ q - q' = -1) as C by lia. destruct C as [C|[C|C]]; rewrite C in D.
    + right. assert (r = 0) as -> by lia. cbn. replace q' with (q - 1) by lia. rewrite Z.mul_sub_distr_r. lia.
    + left. replace q' with q by lia. lia.
    + right. assert (r = np - 1) as -> by lia. assert (r' = 0) as -> by lia.
      destruct (Z.eqb_spec (np - 1) 0); [lia|]. rewrite Z.eqb_refl. replace q' with (q + 1) by lia. ring.
  - intros [E|E].
    + assert (q' = q /\ r' = r) as (-> & ->); [|reflexivity].
      destruct (mod_at np q r ltac:(lia) R) as (A & B). destruct (mod_at np q' r' ltac:(lia) R') as (A' & B').
      rewrite E in A', B'. lia.
    + destruct (mod_at np q' r' ltac:(lia) R') as (A' & B'). revert E.
      destruct (Z.eqb_spec r 0) as [->|N0]; [|destruct (Z.eqb_spec r (np - 1)) as [->|N1]]; intros E; rewrite E in A', B'.
      * replace (q * np - 1) with ((q - 1) * np + (np - 1)) in A', B' by ring.
        destruct (mod_at np (q - 1) (np - 1) ltac:(lia) ltac:(lia)) as (X & Y). rewrite X in A'. rewrite Y in B'. subst. ring.
      * replace ((q + 1) * np) with ((q + 1) * np + 0) in A', B' by ring.
        destruct (mod_at np (q + 1) 0 ltac:(lia) ltac:(lia)) as (X & Y). rewrite X in A'. rewrite Y in B'. subst. ring.
      * destruct (mod_at np q r ltac:(lia) R) as (X & Y). rewrite X in A'. rewrite Y in B'. subst. reflexivity.
Qed.
Lemma point_shift np i k : 0 < np -> gll_point np (i + k * np) = gll_point np i + k * (np - 1).
Proof.
  intros H. unfold gll_point. rewrite Z.div_add, Z.mod_add by lia. ring.
Qed.
Lemma point_0 np : 2 <= np -> gll_point np 0 = 0.
Proof. intros H. unfold gll_point. rewrite Z.div_0_l, Z.mod_0_l by lia. lia. Qed.
Lemma mate_0 np : 2 <= np -> mate np 0 = -1.
Proof. intros H. unfold mate. rewrite Z.mod_0_l by lia. reflexivity. Qed.
Lemma mate_last np e : 2 <= np -> mate np (np * e - 1) = np * e.
Proof.
  intros H. replace (np * e - 1) with ((e - 1) * np + (np - 1)) by ring. rewrite mate_at by lia.
  destruct (Z.eqb_spec (np - 1) 0); [lia|]. rewrite Z.eqb_refl. ring.
Qed.
Lemma point_n np e : 2 <= np -> gll_point np (np * e) = e * (np - 1).
Proof. intros H. replace (np * e) with (0 + e * np) by ring. rewrite point_shift, point_0 by lia. ring. Qed.
Lemma mate_cases np i : 2 <= np -> mate np i = i \/ mate np i = i - 1 \/ mate np i = i + 1.
Proof. intros H. unfold mate. destruct (i mod np =? 0), ((i + 1) mod np =? 0); auto. Qed.
Lemma mate_mate np i : 2 <= np -> mate np (mate np i) = i.
Proof.
  intros H. assert (gll_point np (mate np i) = gll_point np i) as E.
  { symmetry. apply point_eq; auto. }
  apply point_eq in E; auto. destruct E as [E|E]; [|auto]. rewrite <- E. auto.
Qed.
Lemma mate_shift np i k : 2 <= np -> mate np (i + k * np) = mate np i + k * np.
Proof.
  intros H. unfold mate. rewrite Z.mod_add by lia. replace (i + k * np + 1) with (i + 1 + k * np) by ring.
  rewrite Z.mod_add by lia. destruct (i mod np =? 0), ((i + 1) mod np =? 0); ring.
Qed.

(** ** Averages over R in terms of mates *)
Lemma glob_a_mate np E i j : 2 <= np -> glob_a ravg np E i j = (/ 2 * (E i j + E (mate np i) j))%R.
Proof. intros H. unfold glob_a, ravg, mate. destruct (i mod np =? 0), ((i + 1) mod np =? 0); lra. Qed.
Lemma glob_ba_mate np E i j : 2 <= np ->
  glob_b ravg np (glob_a ravg np E) i j =
  (/ 4 * (E i j + E (mate np i) j + E i (mate np j) + E (mate np i) (mate np j)))%R.
Proof.
  intros H. unfold glob_b, ravg. rewrite !glob_a_mate by auto.
  replace (mate np j) with (if j mod np =? 0 then j - 1 else if (j + 1) mod np =? 0 then j + 1 else j) by reflexivity.
  destruct (j mod np =? 0), ((j + 1) mod np =? 0); lra.
Qed.
(** ... and, whatever the average, at both nodes of a point *)
Section Comm.
Context {V : Type} (avg : V -> V -> V).
Lemma mate_mod np i : 2 <= np ->
  (i mod np = 0 -> mate np i = i - 1 /\ (mate np i + 1) mod np = 0 /\ mate np i mod np <> 0) /\
  (i mod np <> 0 -> (i + 1) mod np = 0 -> mate np i = i + 1 /\ mate np i mod np = 0) /\
  (i mod np <> 0 -> (i + 1) mod np <> 0 -> mate np i = i).
Proof.
  intros H. unfold mate. split; [|split].
  - intros M. rewrite M. cbn. replace (i - 1 + 1) with i by lia. split; [reflexivity|]. split; [exact M|].
    intros M'. apply (mod_succ np (i - 1) H M'). replace (i - 1 + 1) with i by lia. exact M.
  - intros M M'. destruct (Z.eqb_spec (i mod np) 0); [lia|]. rewrite M'. cbn. auto.
  - intros M M'. destruct (Z.eqb_spec (i mod np) 0), (Z.eqb_spec ((i + 1) mod np) 0); auto; lia.
Qed.
Lemma glob_a_cont np E i j : 2 <= np -> glob_a avg np E (mate np i) j = glob_a avg np E i j.
Proof.
  intros H. destruct (mate_mod np i H) as (A & B & C). unfold glob_a.
  destruct (Z.eqb_spec (i mod np) 0) as [M|M].
  - destruct (A M) as (-> & M1 & M2). destruct (Z.eqb_spec ((i - 1) mod np) 0); [lia|]. rewrite M1. cbn.
    replace (i - 1 + 1) with i by lia. reflexivity.
  - destruct (Z.eqb_spec ((i + 1) mod np) 0) as [M'|M'].
    + destruct (B M M') as (-> & M1). rewrite M1. cbn. replace (i + 1 - 1) with i by lia. reflexivity.
    + rewrite (C M M'). destruct (Z.eqb_spec (i mod np) 0), (Z.eqb_spec ((i + 1) mod np) 0); lia || reflexivity.
Qed.
Lemma glob_b_cont np E i j : 2 <= np -> glob_b avg np E i (mate np j) = glob_b avg np E i j.
Proof. intros H. exact (glob_a_cont np (fun a c => E c a) j i H). Qed.
Lemma glob_b_ext np E E' i i' j : (forall y, E i y = E' i' y) -> glob_b avg np E i j = glob_b avg np E' i' j.
Proof. intros H. unfold glob_b. rewrite !H. reflexivity. Qed.
End Comm.

(** ** The torus *)
Lemma mod_cong_shift a c m : 0 < m -> a mod m = c mod m -> exists k, a = c + k * m.
Proof.
  intros H E. exists (a / m - c / m). pose proof (Z.div_mod a m). pose proof (Z.div_mod c m).
  rewrite Z.mul_sub_distr_r. lia.
Qed.
Lemma torus_axis np e i i' : 2 <= np -> 1 <= e -> 0 <= i < np * e -> 0 <= i' < np * e ->
  gll_point np i' mod (e * (np - 1)) = gll_point np i mod (e * (np - 1)) <-> i' = i \/ i' = mate np i mod (np * e).
Proof.
  intros Hn He Hi Hi'. assert (0 < np * e) as N0 by (apply Z.mul_pos_pos; lia).
  assert (0 < e * (np - 1)) as M0 by (apply Z.mul_pos_pos; lia). split.
  - intros E. symmetry in E. apply mod_cong_shift in E as (k & E); [|exact M0].
    replace (k * (e * (np - 1))) with (k * e * (np - 1)) in E by ring. rewrite <- point_shift in E by lia.
    apply point_eq in E; [|exact Hn]. replace (i' + k * e * np) with (i' + k * (np * e)) in E by ring. destruct E as [E|E].
    + left. rewrite <- (Z.mod_small i' (np * e)), <- (Z.mod_small i (np * e)), <- E by lia. rewrite Z.mod_add by lia. reflexivity.
    + right. rewrite <- E, Z.mod_add by lia. symmetry. apply Z.mod_small. lia.
  - intros [->| ->]; [reflexivity|]. rewrite (Z.mod_eq (mate np i)) by lia.
    replace (mate np i - np * e * (mate np i / (np * e))) with (mate np i + (- (mate np i / (np * e)) * e) * np) by ring.
    rewrite point_shift by lia.
    replace (- (mate np i / (np * e)) * e * (np - 1)) with (- (mate np i / (np * e)) * (e * (np - 1))) by ring.
    rewrite Z.mod_add by lia. f_equal. symmetry. apply point_eq; auto.
Qed.
Lemma mate_wrap np e i : 2 <= np -> 1 <= e -> 0 <= i < np * e -> mate np i <> i ->
  mate np i mod (np * e) <> i /\ 0 <= mate np i mod (np * e) < np * e.
Proof.
  intros Hn He Hi Hm. assert (1 * np <= np * e) as N by (rewrite (Z.mul_comm np); apply Z.mul_le_mono_nonneg_r; lia).
  split; [|apply Z.mod_pos_bound; lia].
  destruct (mate_cases np i Hn) as [E|[E|E]]; [lia| |]; rewrite E.
  - destruct (Z.eq_dec i 0) as [->|].
    + replace (0 - 1) with (np * e - 1 + (-1) * (np * e)) by ring. rewrite Z.mod_add, Z.mod_small by lia. lia.
    + rewrite Z.mod_small by lia. lia.
  - destruct (Z.eq_dec i (np * e - 1)) as [->|].
    + replace (np * e - 1 + 1) with (0 + 1 * (np * e)) by ring. rewrite Z.mod_add, Z.mod_small by lia. lia.
    + rewrite Z.mod_small by lia. lia.
Qed.
Ltac nodups := repeat constructor; cbn [In]; let K := fresh in intros K; repeat (destruct K as [K|K]); try contradiction;
  try (injection K; lia); try (injection K; intros; congruence).

Lemma torus_mean np eA eB U i j : 2 <= np -> 1 <= eA -> 1 <= eB -> torus_node np eA eB (i, j) ->
  mean_over (fun x => torus_node np eA eB x /\ torus_point np eA eB x = torus_point np eA eB (i, j)) U
    (glob_b ravg np (glob_a ravg np (fun a c => U (a mod (np * eA), c mod (np * eB)))) i j).
Proof.
  intros Hn HA HB (Hi & Hj). cbn [fst snd] in *. rewrite glob_ba_mate by auto. cbv beta.
  assert (forall x, torus_node np eA eB x /\ torus_point np eA eB x = torus_point np eA eB (i, j) <->
    (fst x = i \/ fst x = mate np i mod (np * eA)) /\ (snd x = j \/ snd x = mate np j mod (np * eB))) as Cl.
  { intros (a & c). unfold torus_node, torus_point. cbn [fst snd]. split.
    - intros ((Ha & Hc) & E). injection E as E1 E2. apply torus_axis in E1; auto. apply torus_axis in E2; auto.
    - intros (A & C).
      assert (0 <= a < np * eA) as Ra by (destruct A as [->| ->]; [auto|apply Z.mod_pos_bound; lia]).
      assert (0 <= c < np * eB) as Rc by (destruct C as [->| ->]; [auto|apply Z.mod_pos_bound; lia]).
      split; [auto|]. apply f_equal2; apply torus_axis; auto. }
  rewrite (Z.mod_small i), (Z.mod_small j) by lia.
  set (mi := mate np i mod (np * eA)) in *. set (mj := mate np j mod (np * eB)) in *.
  assert (mate np i = i -> mi = i) as Wi0 by (intros E; unfold mi; rewrite E; apply Z.mod_small; lia).
  assert (mate np j = j -> mj = j) as Wj0 by (intros E; unfold mj; rewrite E; apply Z.mod_small; lia).
  assert (mate np i <> i -> mi <> i) as Wi1 by (intros E; apply mate_wrap; auto).
  assert (mate np j <> j -> mj <> j) as Wj1 by (intros E; apply mate_wrap; auto).
  clearbody mi mj.
  eapply mean_ext; [intros x; symmetry; apply Cl|]. clear Cl.
  destruct (Z.eq_dec (mate np i) i) as [Ei|Ei], (Z.eq_dec (mate np j) j) as [Ej|Ej].
  - rewrite (Wi0 Ei), (Wj0 Ej). apply mean_of_list with (l := [(i, j)]).
    + nodups.
    + intros (a & c). cbn. split; [intros [[= <- <-]|[]]; auto|intros ([->| ->] & [->| ->]); auto].
    + congruence.
    + cbn. lra.
  - rewrite (Wi0 Ei). specialize (Wj1 Ej). apply mean_of_list with (l := [(i, j); (i, mj)]).
    + nodups.
    + intros (a & c). cbn. split; [intros [[= <- <-]|[[= <- <-]|[]]]; auto|intros ([->| ->] & [->| ->]); auto].
    + congruence.
    + cbn. lra.
  - rewrite (Wj0 Ej). specialize (Wi1 Ei). apply mean_of_list with (l := [(i, j); (mi, j)]).
    + nodups.
    + intros (a & c). cbn. split; [intros [[= <- <-]|[[= <- <-]|[]]]; auto|intros ([->| ->] & [->| ->]); auto].
    + congruence.
    + cbn. lra.
  - specialize (Wi1 Ei). specialize (Wj1 Ej). apply mean_of_list with (l := [(i, j); (mi, j); (i, mj); (mi, mj)]).
    + nodups.
    + intros (a & c). cbn. split; [intros [[= <- <-]|[[= <- <-]|[[= <- <-]|[[= <- <-]|[]]]]]; auto|intros ([->| ->] & [->| ->]); auto].
    + congruence.
    + cbn. lra.
Qed.

(** ** The cubed sphere *)
Definition img (n p i j : Z) : Z * Z * Z :=
  match relative_coord n p i j with Some r => (rp r, ri r, rj r) | None => (p, i, j) end.
Definition near (n i : Z) : Prop := -1 <= i <= n.
Definition inside (n i : Z) : Prop := 0 <= i < n.

Ltac zones n i H :=
  let K := fresh in
  assert (K : i = -1 \/ inside n i \/ i = n) by (unfold near, inside in *; lia);
  destruct K as [K|[K|K]].

Lemma img_in n p i j : inside n i -> inside n j -> img n p i j = (p, i, j).
Proof. intros Hi Hj. unfold img. rewrite (proj1 (C20_interior_and_corner n p i j ltac:(unfold inside in *; lia)) Hi Hj). reflexivity. Qed.

Section Sphere.
Context (np e : Z) (Hn : 2 <= np) (He : 1 <= e).
Let n := np * e.
Let m := e * (np - 1).
Let g := gll_point np.
Lemma n_2 : 2 <= n.
Proof. assert (1 * np <= e * np) by (apply Z.mul_le_mono_nonneg_r; lia). unfold n. lia. Qed.
Lemma m_1 : 1 <= m.
Proof. assert (1 * (np - 1) <= e * (np - 1)) by (apply Z.mul_le_mono_nonneg_r; lia). unfold m. lia. Qed.
Lemma g_0 : g 0 = 0. Proof. apply point_0, Hn. Qed.
Lemma g_n : g n = m. Proof. apply point_n, Hn. Qed.
Lemma g_m1 : g (-1) = 0.
Proof. rewrite <- g_0. symmetry. apply point_eq; [exact Hn|]. right. symmetry. apply mate_0, Hn. Qed.
Lemma g_n1 : g (n - 1) = m.
Proof. rewrite <- g_n. apply point_eq; [exact Hn|]. right. symmetry. apply mate_last, Hn. Qed.
Lemma g_refl i : g (n - 1 - i) = m - g i.
Proof.
  unfold g. destruct (split_np np i ltac:(lia)) as (q & r & -> & R & _ & _). rewrite point_at by lia.
  replace (n - 1 - (q * np + r)) with ((e - 1 - q) * np + (np - 1 - r)) by (unfold n; ring).
  rewrite point_at by lia. unfold m. ring.
Qed.
Lemma g_mono i i' : i <= i' -> g i <= g i'.
Proof.
  intros H. unfold g. destruct (split_np np i ltac:(lia)) as (q & r & Ei & R & _ & _).
  destruct (split_np np i' ltac:(lia)) as (q' & r' & Ei' & R' & _ & _). subst. rewrite !point_at by lia.
  destruct (Z_lt_le_dec q' q).
  - assert ((q' + 1) * np <= q * np) by (apply Z.mul_le_mono_nonneg_r; lia). lia.
  - destruct (Z.eq_dec q q') as [->|]; [lia|].
    assert ((q + 1) * (np - 1) <= q' * (np - 1)) by (apply Z.mul_le_mono_nonneg_r; lia). lia.
Qed.
Lemma g_range i : inside n i -> 0 <= g i <= m.
Proof.
  intros H. unfold inside in H. pose proof (g_mono 0 i ltac:(lia)). pose proof (g_mono i n ltac:(lia)).
  rewrite g_0 in *. rewrite g_n in *. lia.
Qed.

Lemma img_node p i j : 0 <= p <= 5 -> near n i -> near n j -> (inside n i \/ inside n j) -> cs_node np e (img n p i j).
Proof.
  intros Hp Hi Hj O. pose proof n_2. unfold cs_node. fold n.
  zones n i Hi; zones n j Hj; unfold inside in *; try lia;
    try (rewrite img_in by (unfold inside; lia); cbn [fst snd]; lia);
    subst; unfold img; panels p Hp; unfold relative_coord; dec_tests; cbn [fst snd rp ri rj]; lia.
Qed.
Lemma img_point p i j : 0 <= p <= 5 -> near n i -> near n j -> (inside n i \/ inside n j) ->
  cs_point np e (img n p i j) = cube m p (2 * g i - m) (2 * g j - m).
Proof.
  intros Hp Hi Hj O. pose proof n_2. unfold cs_point. fold m. fold g.
  pose proof g_0. pose proof g_n. pose proof g_m1. pose proof g_n1.
  pose proof (g_refl i) as Gi. pose proof (g_refl j) as Gj.
  zones n i Hi; zones n j Hj; unfold inside in *; try lia;
    try (rewrite img_in by (unfold inside; lia); cbn [fst snd]; reflexivity);
    subst; unfold img; panels p Hp; unfold relative_coord; dec_tests; cbn [fst snd rp ri rj]; unfold cube; cbn [Z.eqb Pos.eqb];
    rewrite ?Z.add_simpl_r, ?Z.sub_diag, ?Z.add_0_l;
    repeat match goal with
    | |- context [g ?x] => match x with
       | i => fail 1 | j => fail 1 | 0 => fail 1 | -1 => fail 1 | n => fail 1 | n - 1 => fail 1 | n - 1 - i => fail 1 | n - 1 - j => fail 1
       | _ => first [ replace x with 0 by lia | replace x with (n - 1) by lia | replace x with (n - 1 - i) by lia | replace x with (n - 1 - j) by lia | replace x with i by lia | replace x with j by lia ]
       end
    end;
    apply f_equal2; try (apply f_equal2); lia.
Qed.
Lemma img_inj p i j i' j' : 0 <= p <= 5 -> near n i -> near n j -> (inside n i \/ inside n j) ->
  near n i' -> near n j' -> (inside n i' \/ inside n j') -> img n p i j = img n p i' j' -> i = i' /\ j = j'.
Proof.
  intros Hp Hi Hj O Hi' Hj' O'. pose proof n_2.
  unfold img. panels p Hp;
  zones n i Hi; zones n j Hj; unfold inside in *; try lia;
  zones n i' Hi'; zones n j' Hj'; unfold inside in *; try lia;
    subst; unfold relative_coord; dec_tests; cbn [rp ri rj]; intros E; try discriminate E; injection E; lia.
Qed.

(** Every node at the point of (p, i, j) is reached through the mates. *)
Lemma class_complete p i j q i' j' : cs_node np e (p, i, j) -> cs_node np e (q, i', j') ->
  cs_point np e (q, i', j') = cs_point np e (p, i, j) ->
  exists i2 j2, g i2 = g i /\ g j2 = g j /\ near n i2 /\ near n j2 /\ (inside n i2 \/ inside n j2) /\
    img n p i2 j2 = (q, i', j').
Proof.
  unfold cs_node, cs_point. cbn [fst snd]. fold n. fold m. fold g. intros (Hp & Hi & Hj) (Hq & Hi' & Hj') E.
  pose proof n_2. pose proof m_1.
  pose proof (g_range i Hi). pose proof (g_range j Hj). pose proof (g_range i' Hi'). pose proof (g_range j' Hj').
  pose proof g_n as Gn. pose proof g_m1 as Gm.
  pose proof (g_refl i') as Ri. pose proof (g_refl j') as Rj.
  assert (forall x, inside n x -> g x = 0 -> x = 0) as Z0.
  { intros x Hx Ex. rewrite <- g_0 in Ex. symmetry in Ex. apply point_eq in Ex; [|exact Hn]. rewrite mate_0 in Ex by exact Hn. unfold inside in Hx. lia. }
  assert (forall x, inside n x -> g x = m -> x = n - 1) as Zn.
  { intros x Hx Ex. rewrite <- g_n1 in Ex. symmetry in Ex. apply point_eq in Ex; [|exact Hn]. unfold n in Ex. rewrite mate_last in Ex by exact Hn. fold n in Ex. unfold inside in Hx. lia. }
  pose proof (Z0 i' Hi') as Z0i. pose proof (Z0 j' Hj') as Z0j. pose proof (Zn i' Hi') as Zni. pose proof (Zn j' Hj') as Znj. clear Z0 Zn.
  panels p Hp; panels q Hq; unfold cube in E; cbn [Z.eqb Pos.eqb] in E;
    apply (f_equal fst) in E as E1; apply (f_equal snd) in E as E3; apply (f_equal snd) in E1 as E2; apply (f_equal fst) in E1;
    cbn [fst snd] in E1, E2, E3; clear E;
    try (exfalso; clear - E1 E2 E3 H0; lia);
    (* the same panel *)
    try (exists i', j'; split; [lia|]; split; [lia|]; split; [unfold near; lia|]; split; [unfold near; lia|]; split; [left; exact Hi'|];
         apply img_in; assumption);
    (* across an edge *)
    assert (i' = 0 \/ i' = n - 1 \/ j' = 0 \/ j' = n - 1) as Ed by lia;
    let tryk i2 j2 :=
      (exists i2, j2; split; [lia|]; split; [lia|]; split; [unfold near; lia|]; split; [unfold near; lia|];
       split; [unfold inside; lia|]; unfold img, relative_coord; dec_tests; cbn [rp ri rj]; apply f_equal2; [apply f_equal2|]; lia) in
    first
      [ tryk n i' | tryk n j' | tryk n (n - 1 - i') | tryk n (n - 1 - j')
      | tryk (-1) i' | tryk (-1) j' | tryk (-1) (n - 1 - i') | tryk (-1) (n - 1 - j')
      | tryk i' n | tryk j' n | tryk (n - 1 - i') n | tryk (n - 1 - j') n
      | tryk i' (-1) | tryk j' (-1) | tryk (n - 1 - i') (-1) | tryk (n - 1 - j') (-1) ].
Qed.

Lemma mate_near i : inside n i -> near n (mate np i) /\ (mate np i = i \/ mate np i <> i) /\
  (~ inside n (mate np i) -> i = 0 /\ mate np i = -1 \/ i = n - 1 /\ mate np i = n).
Proof.
  intros H. destruct (mate_cases np i Hn) as [E|[E|E]]; rewrite E; unfold near, inside in *; split; try lia.
Qed.
Lemma mate_edge i : inside n i -> (i = 0 -> mate np i = -1) /\ (i = n - 1 -> mate np i = n).
Proof.
  intros H. split; intros ->; [apply mate_0, Hn|apply mate_last, Hn].
Qed.

Lemma sphere_mean p i j U : cs_node np e (p, i, j) ->
  mean_over (fun x => cs_node np e x /\ cs_point np e x = cs_point np e (p, i, j)) U
    (cs_val ravg rthird np n (fun a c => U (img n p a c)) i j).
Proof.
  intros Hx. pose proof Hx as Hx0. unfold cs_node in Hx. cbn [fst snd] in Hx. fold n in Hx. destruct Hx as (Hp & Hi & Hj).
  assert (forall x, cs_node np e x /\ cs_point np e x = cs_point np e (p, i, j) <->
    exists i2 j2, (i2 = i \/ i2 = mate np i) /\ (j2 = j \/ j2 = mate np j) /\ (inside n i2 \/ inside n j2) /\ img n p i2 j2 = x) as Cl.
  { intros ((q & i') & j'). split.
    - intros (Hq & E). destruct (class_complete p i j q i' j' Hx0 Hq E) as (i2 & j2 & A & B & _ & _ & O & I).
      exists i2, j2. symmetry in A, B. apply point_eq in A; [|exact Hn]. apply point_eq in B; [|exact Hn]. auto.
    - intros (i2 & j2 & A & B & O & <-).
      destruct (mate_near i Hi) as (Ni & _). destruct (mate_near j Hj) as (Nj & _).
      assert (near n i2) as Ni2 by (destruct A as [->| ->]; [unfold near, inside in *; lia|exact Ni]).
      assert (near n j2) as Nj2 by (destruct B as [->| ->]; [unfold near, inside in *; lia|exact Nj]).
      split; [apply img_node; auto|]. rewrite img_point by auto. unfold cs_point. cbn [fst snd]. fold m. fold g.
      assert (g i2 = g i) as -> by (symmetry; apply point_eq; auto).
      assert (g j2 = g j) as -> by (symmetry; apply point_eq; auto). reflexivity. }
  eapply mean_ext; [intros x; symmetry; apply Cl|]. clear Cl.
  destruct (mate_near i Hi) as (Ni & _ & Oi). destruct (mate_near j Hj) as (Nj & _ & Oj).
  destruct (mate_edge i Hi) as (Ei0 & Ein). destruct (mate_edge j Hj) as (Ej0 & Ejn).
  assert (near n i) as Ni0 by (unfold near, inside in *; lia). assert (near n j) as Nj0 by (unfold near, inside in *; lia).
  pose proof n_2 as N2.
  assert (inside n i \/ inside n (mate np i) -> inside n (mate np i) \/ ~ inside n (mate np i)) as _ by tauto.
  assert (forall a c a' c', (a = i \/ a = mate np i) -> (c = j \/ c = mate np j) -> (a' = i \/ a' = mate np i) -> (c' = j \/ c' = mate np j) ->
    (inside n a \/ inside n c) -> (inside n a' \/ inside n c') -> (a <> a' \/ c <> c') -> img n p a c <> img n p a' c') as Ne.
  { intros a c a' c' A C A' C' O O' D E. apply img_inj in E; auto.
    - tauto.
    - destruct A as [->| ->]; auto.
    - destruct C as [->| ->]; auto.
    - destruct A' as [->| ->]; auto.
    - destruct C' as [->| ->]; auto. }
  unfold cs_val.
  destruct (((i =? 0) || (i =? n - 1)) && ((j =? 0) || (j =? n - 1))) eqn:Ec.
  - assert (i + out_side n i = mate np i) as -> by (unfold out_side; destruct (Z.eqb_spec i 0); lia).
    assert (j + out_side n j = mate np j) as -> by (unfold out_side; destruct (Z.eqb_spec j 0); lia).
    assert (~ inside n (mate np i) /\ ~ inside n (mate np j)) as (Xi & Xj) by (unfold inside in *; lia).
    assert (mate np i <> i /\ mate np j <> j) as (Di & Dj) by (unfold inside in *; lia).
    apply mean_of_list with (l := [img n p i j; img n p (mate np i) j; img n p i (mate np j)]).
    + repeat constructor; cbn [In].
      * intros [K|[K|[]]]; symmetry in K; revert K; apply Ne; auto.
      * intros [K|[]]; symmetry in K; revert K; apply Ne; auto.
      * tauto.
    + intros x. cbn [In]. split.
      * intros [<-|[<-|[<-|[]]]]; do 2 eexists; (split; [|split; [|split; [|reflexivity]]]); auto.
      * intros (i2 & j2 & [->| ->] & [->| ->] & O & <-); auto. exfalso. tauto.
    + congruence.
    + cbn. unfold rthird. field.
  - rewrite glob_ba_mate by exact Hn.
    assert (inside n (mate np i) \/ inside n (mate np j)) as Om by (unfold inside in *; lia). clear Oi Oj Ei0 Ein Ej0 Ejn.
    destruct (Z.eq_dec (mate np i) i) as [Ei|Ei], (Z.eq_dec (mate np j) j) as [Ej|Ej].
    + rewrite ?Ei, ?Ej in *. apply mean_of_list with (l := [img n p i j]).
      * repeat constructor. cbn. tauto.
      * intros x. cbn [In]. split; [intros [<-|[]]; do 2 eexists; (split; [|split; [|split; [|reflexivity]]]); auto|].
        intros (i2 & j2 & [->| ->] & [->| ->] & O & <-); auto.
      * congruence.
      * cbn. lra.
    + rewrite ?Ei in *. apply mean_of_list with (l := [img n p i j; img n p i (mate np j)]).
      * repeat constructor; cbn [In]; [|tauto]. intros [K|[]]; symmetry in K; revert K; apply Ne; auto.
      * intros x. cbn [In]. split; [intros [<-|[<-|[]]]; do 2 eexists; (split; [|split; [|split; [|reflexivity]]]); auto|].
        intros (i2 & j2 & [->| ->] & [->| ->] & O & <-); auto.
      * congruence.
      * cbn. lra.
    + rewrite ?Ej in *. apply mean_of_list with (l := [img n p i j; img n p (mate np i) j]).
      * repeat constructor; cbn [In]; [|tauto]. intros [K|[]]; symmetry in K; revert K; apply Ne; auto.
      * intros x. cbn [In]. split; [intros [<-|[<-|[]]]; do 2 eexists; (split; [|split; [|split; [|reflexivity]]]); auto|].
        intros (i2 & j2 & [->| ->] & [->| ->] & O & <-); auto.
      * congruence.
      * cbn. lra.
    + apply mean_of_list with (l := [img n p i j; img n p (mate np i) j; img n p i (mate np j); img n p (mate np i) (mate np j)]).
      * repeat constructor; cbn [In].
        -- intros [K|[K|[K|[]]]]; symmetry in K; revert K; apply Ne; auto.
        -- intros [K|[K|[]]]; symmetry in K; revert K; apply Ne; auto.
        -- intros [K|[]]; symmetry in K; revert K; apply Ne; auto.
        -- tauto.
      * intros x. cbn [In]. split; [intros [<-|[<-|[<-|[<-|[]]]]]; do 2 eexists; (split; [|split; [|split; [|reflexivity]]]); auto|].
        intros (i2 & j2 & [->| ->] & [->| ->] & O & <-); auto.
      * congruence.
      * cbn. lra.
Qed.
End Sphere.
