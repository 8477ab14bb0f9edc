From Coq Require Import ZArith Reals List Lia Lra Bool.
From Verif Require Import KrylovSpec KrylovProofs SchurModel SchurSpec.
Import ListNotations.
Local Open Scope R_scope.

(** ** sums and folds *)
Lemma sum_single : forall n k f, (k < n)%nat -> (forall j, (j < n)%nat -> j <> k -> f j = 0) -> sum n f = f k.
Proof.
  intros n k f. induction n as [|n IH]; intros L Z; [lia|]. cbn [sum]. destruct (Nat.eq_dec k n) as [->|N].
  - rewrite (sum_ext n f (fun _ => 0)) by (intros j Lj; apply Z; lia). rewrite sum_zero. ring.
  - rewrite IH; [rewrite (Z n) by lia; ring|lia|intros; apply Z; lia].
Qed.
Lemma fold_take : forall (h : nat -> R) l v, fold_left (fun w i => w - h i) l v = v - fold_right (fun i t => h i + t) 0 l.
Proof. intros h l. induction l as [|a l IH]; intros v; cbn; [ring|]. rewrite IH. ring. Qed.
Lemma total_seq : forall (h : nat -> R) len a n, (a + len <= n)%nat ->
  fold_right (fun i t => h i + t) 0 (seq a len) = sum n (fun i => if (Nat.leb a i && Nat.ltb i (a + len))%bool then h i else 0).
Proof.
  intros h len. induction len as [|len IH]; intros a n L.
  - cbn [seq fold_right]. rewrite (sum_ext n _ (fun _ => 0)); [rewrite sum_zero; reflexivity|]. intros i Li.
    destruct (Nat.leb_spec a i), (Nat.ltb_spec i (a + 0)); cbn [andb]; try reflexivity; lia.
  - cbn [seq fold_right]. rewrite (IH (S a) n) by lia.
    rewrite (sum_ext n (fun i => if (Nat.leb a i && Nat.ltb i (a + S len))%bool then h i else 0)
      (fun i => (if Nat.eqb i a then h i else 0) + (if (Nat.leb (S a) i && Nat.ltb i (S a + len))%bool then h i else 0))).
    2:{ intros i Li. destruct (Nat.leb_spec a i), (Nat.ltb_spec i (a + S len)), (Nat.leb_spec (S a) i), (Nat.ltb_spec i (S a + len)), (Nat.eqb_spec i a); cbn [andb]; try lia; ring. }
    rewrite sum_plus. f_equal. rewrite (sum_single n a); [rewrite Nat.eqb_refl; reflexivity|lia|]. intros j _ N. destruct (Nat.eqb_spec j a); [contradiction|reflexivity].
Qed.
Lemma fold_pick : forall A (l0 : nat) (h : A -> A) len a (v : A),
  fold_left (fun v l => if Nat.eqb l l0 then h v else v) (seq a len) v = if (Nat.leb a l0 && Nat.ltb l0 (a + len))%bool then h v else v.
Proof.
  intros A l0 h len. induction len as [|len IH]; intros a v; cbn [seq fold_left].
  - destruct (Nat.leb_spec a l0), (Nat.ltb_spec l0 (a + 0)); cbn [andb]; try reflexivity; lia.
  - rewrite IH. destruct (Nat.eqb_spec a l0) as [->|N].
    + destruct (Nat.leb_spec (S l0) l0); [lia|]. destruct (Nat.leb_spec l0 l0); [|lia]. destruct (Nat.ltb_spec l0 (l0 + S len)); [reflexivity|lia].
    + destruct (Nat.leb_spec (S a) l0), (Nat.ltb_spec l0 (S a + len)), (Nat.leb_spec a l0), (Nat.ltb_spec l0 (a + S len)); cbn [andb]; try reflexivity; lia.
Qed.
Lemma fold_flat_map : forall A B C (h : C -> B -> C) (e : A -> list B) l v,
  fold_left h (flat_map e l) v = fold_left (fun v a => fold_left h (e a) v) l v.
Proof. intros A B C h e l. induction l as [|a l IH]; intros v; cbn [flat_map fold_left]; [reflexivity|]. rewrite fold_left_app, IH. reflexivity. Qed.
Lemma fold_ext_in : forall A B (h h' : A -> B -> A) l v, (forall v b, In b l -> h v b = h' v b) -> fold_left h l v = fold_left h' l v.
Proof. intros A B h h' l. induction l as [|b l IH]; intros v E; cbn [fold_left]; [reflexivity|]. rewrite E by (left; reflexivity). apply IH. intros; apply E; right; assumption. Qed.

Lemma run_at : forall ws m a, run ws m a = fold_left (fun v w => if Z.eqb a (place w) then act w v else v) ws (m a).
Proof. intros ws. induction ws as [|w ws IH]; intros m a; cbn [run fold_left]; [reflexivity|]. unfold run in IH. rewrite IH. reflexivity. Qed.

Section Elimination.
Context (n off : nat) (dt : R) (HO : (1 <= off)%nat) (HN : (2 <= n)%nat).
Let fo : Z := (3 * Z.of_nat off + 1)%Z.
Let so : Z := (2 * Z.of_nat off + 1)%Z.
Let mf := mat_f fo.
Let ms := mat_s so.

Lemma joined_in : forall k i, In i (joined n k) <-> ((i = k \/ i = k + 1) /\ 1 <= i < n)%nat.
Proof.
  intros k i. unfold joined, ibegin, iend. rewrite in_seq. destruct (Nat.ltb_spec k 1), (Nat.ltb_spec n (k + 2)); lia.
Qed.
Lemma reach_in : forall i l, (1 <= i < n)%nat -> In l (reach n off i) <-> (l < n /\ i <= l + off /\ l <= i + off)%nat.
Proof. intros i l L. unfold reach, lend. rewrite in_seq. destruct (Nat.ltb_spec n (i + off + 1)); lia. Qed.

(** places used by the loops are all different *)
Definition near (c0 l c1 k : nat) : Prop := (- (2 * so) <= vec_s c1 k - vec_s c0 l <= so)%Z.
Lemma near_in : forall c0 l c1 k, (c0 < 2)%nat -> (c1 < 2)%nat -> (k <= l + off /\ l <= k + 1 + off)%nat -> near c0 l c1 k.
Proof. intros c0 l c1 k A B C. unfold near, vec_s, so. lia. Qed.
Lemma places : forall c0 l c1 k c0' l' c1' k', (c0 < 2)%nat -> (c1 < 2)%nat -> (c0' < 2)%nat -> (c1' < 2)%nat ->
  near c0 l c1 k -> near c0' l' c1' k' ->
  ms c0 l c1 k = ms c0' l' c1' k' <-> c0 = c0' /\ l = l' /\ c1 = c1' /\ k = k'.
Proof.
  intros c0 l c1 k c0' l' c1' k' A1 A2 A3 A4 B1 B2. split; [|intros (-> & -> & -> & ->); reflexivity].
  unfold ms, mat_s, vec_s, sw. intros E.
  set (p := (2 * so + (2 * Z.of_nat k + Z.of_nat c1) - (2 * Z.of_nat l + Z.of_nat c0))%Z) in *.
  set (p' := (2 * so + (2 * Z.of_nat k' + Z.of_nat c1') - (2 * Z.of_nat l' + Z.of_nat c0'))%Z) in *.
  set (q := (2 * Z.of_nat l + Z.of_nat c0)%Z) in *. set (q' := (2 * Z.of_nat l' + Z.of_nat c0')%Z) in *.
  assert (0 <= p < 3 * so + 1)%Z as P by (unfold near, vec_s in B1; unfold p, q, so in *; lia).
  assert (0 <= p' < 3 * so + 1)%Z as P' by (unfold near, vec_s in B2; unfold p', q', so in *; lia).
  assert (q = q') as Q.
  { assert ((p + (3 * so + 1) * q) / (3 * so + 1) = q)%Z as D1 by (rewrite Z.mul_comm, Z.div_add by lia; rewrite Z.div_small by lia; lia).
    assert ((p' + (3 * so + 1) * q') / (3 * so + 1) = q')%Z as D2 by (rewrite Z.mul_comm, Z.div_add by lia; rewrite Z.div_small by lia; lia).
    rewrite E in D1. lia. }
  rewrite Q in E. assert (p = p') as PP by lia. unfold p, p', q, q' in *. lia.
Qed.

(** ** one entry of the Schur matrix *)
Context (g : Z -> R).
Definition fc (sc : nat) : nat := if Nat.eqb sc SP then FP else FR.
Lemma puts_at : forall a sc0 l0 sc1 k0 k l v, (sc0 < 2)%nat -> (sc1 < 2)%nat -> a = ms sc0 l0 sc1 k0 ->
  near sc0 l0 sc1 k0 -> (k <= l + off /\ l <= k + 1 + off)%nat ->
  fold_left (fun v w => if Z.eqb a (place w) then act w v else v) (puts fo so g k l) v =
  if (Nat.eqb k k0 && Nat.eqb l l0)%bool then g (mf (fc sc0) l0 (fc sc1) k0) else v.
Proof.
  intros a sc0 l0 sc1 k0 k l v A0 A1 -> B0 B.
  assert (forall c0 c1, (c0 < 2)%nat -> (c1 < 2)%nat -> Z.eqb (ms sc0 l0 sc1 k0) (ms c0 l c1 k) = (Nat.eqb sc0 c0 && Nat.eqb l0 l && Nat.eqb sc1 c1 && Nat.eqb k0 k)%bool) as D.
  { intros c0 c1 C0 C1. apply eq_true_iff_eq. rewrite Z.eqb_eq, !andb_true_iff, !Nat.eqb_eq. rewrite places by (first [assumption|apply near_in; lia]). tauto. }
  cbn [puts fold_left place act]. fold ms mf. rewrite !D by (unfold SP, SR; lia).
  unfold SP, SR. destruct (Nat.eqb_spec k k0) as [->|NK]; destruct (Nat.eqb_spec l l0) as [->|NL]; rewrite ?Nat.eqb_refl;
  repeat match goal with |- context [Nat.eqb l0 l] => destruct (Nat.eqb_spec l0 l); [congruence|] | |- context [Nat.eqb k0 k] => destruct (Nat.eqb_spec k0 k); [congruence|] end;
  destruct sc0 as [|[|sc0]]; try lia; destruct sc1 as [|[|sc1]]; try lia; cbn [Nat.eqb andb]; reflexivity.
Qed.
Lemma takes_at : forall a sc0 l0 sc1 k0 k i l v, (sc0 < 2)%nat -> (sc1 < 2)%nat -> a = ms sc0 l0 sc1 k0 ->
  near sc0 l0 sc1 k0 -> (k <= l + off /\ l <= k + 1 + off)%nat ->
  fold_left (fun v w => if Z.eqb a (place w) then act w v else v) (takes fo so dt g k i l) v =
  if (Nat.eqb k k0 && Nat.eqb l l0)%bool then v - dt * g (mf FW i (fc sc1) k0) * g (mf (fc sc0) l0 FW i) else v.
Proof.
  intros a sc0 l0 sc1 k0 k i l v A0 A1 -> B0 B.
  assert (forall c0 c1, (c0 < 2)%nat -> (c1 < 2)%nat -> Z.eqb (ms sc0 l0 sc1 k0) (ms c0 l c1 k) = (Nat.eqb sc0 c0 && Nat.eqb l0 l && Nat.eqb sc1 c1 && Nat.eqb k0 k)%bool) as D.
  { intros c0 c1 C0 C1. apply eq_true_iff_eq. rewrite Z.eqb_eq, !andb_true_iff, !Nat.eqb_eq. rewrite places by (first [assumption|apply near_in; lia]). tauto. }
  cbn [takes fold_left place act]. fold ms mf. rewrite !D by (unfold SP, SR; lia).
  unfold SP, SR. destruct (Nat.eqb_spec k k0) as [->|NK]; destruct (Nat.eqb_spec l l0) as [->|NL]; rewrite ?Nat.eqb_refl;
  repeat match goal with |- context [Nat.eqb l0 l] => destruct (Nat.eqb_spec l0 l); [congruence|] | |- context [Nat.eqb k0 k] => destruct (Nat.eqb_spec k0 k); [congruence|] end;
  destruct sc0 as [|[|sc0]]; try lia; destruct sc1 as [|[|sc1]]; try lia; cbn [Nat.eqb andb]; reflexivity.
Qed.
Definition within (i l : nat) : bool := (Nat.leb i (l + off) && Nat.leb l (i + off))%bool.
Lemma reach_pick : forall A (h : A -> A) i l0 v, (1 <= i < n)%nat -> (l0 < n)%nat ->
  fold_left (fun v l => if Nat.eqb l l0 then h v else v) (reach n off i) v = if within i l0 then h v else v.
Proof.
  intros A h i l0 v L L0. unfold reach. rewrite fold_pick. unfold within, lend.
  destruct (Nat.ltb_spec n (i + off + 1)); destruct (Nat.leb_spec i (l0 + off)), (Nat.leb_spec l0 (i + off)); cbn [andb];
  match goal with |- (if (Nat.leb ?x ?y && Nat.ltb ?z ?t)%bool then _ else _) = _ => destruct (Nat.leb_spec x y), (Nat.ltb_spec z t) end; cbn [andb]; try reflexivity; lia.
Qed.
(** the assignments for one level and one interface, at one place *)
Lemma level_at : forall a sc0 l0 sc1 k0 k v, (sc0 < 2)%nat -> (sc1 < 2)%nat -> a = ms sc0 l0 sc1 k0 -> (l0 < n)%nat ->
  near sc0 l0 sc1 k0 -> (k < n)%nat ->
  fold_left (fun v i => fold_left (fun v w => if Z.eqb a (place w) then act w v else v)
     ((if Nat.eqb i (ibegin k) then flat_map (puts fo so g k) (reach n off i) else []) ++ flat_map (takes fo so dt g k i) (reach n off i)) v) (joined n k) v =
  if Nat.eqb k k0 then
    fold_left (fun v i => let v := if (Nat.eqb i (ibegin k) && within i l0)%bool then g (mf (fc sc0) l0 (fc sc1) k0) else v in
      if within i l0 then v - dt * g (mf FW i (fc sc1) k0) * g (mf (fc sc0) l0 FW i) else v) (joined n k) v
  else v.
Proof.
  intros a sc0 l0 sc1 k0 k v A0 A1 EA L0 B0 LK.
  transitivity (fold_left (fun v i => if Nat.eqb k k0 then
      let v := if (Nat.eqb i (ibegin k) && within i l0)%bool then g (mf (fc sc0) l0 (fc sc1) k0) else v in
      if within i l0 then v - dt * g (mf FW i (fc sc1) k0) * g (mf (fc sc0) l0 FW i) else v else v) (joined n k) v).
  - apply fold_ext_in. intros u i Ii. rewrite fold_left_app. apply joined_in in Ii.
    assert (forall l, In l (reach n off i) -> (k <= l + off /\ l <= k + 1 + off)%nat) as BI by (intros l Il; apply reach_in in Il; lia).
    assert (forall u, fold_left (fun v w => if Z.eqb a (place w) then act w v else v) (flat_map (takes fo so dt g k i) (reach n off i)) u =
      if Nat.eqb k k0 then (if within i l0 then u - dt * g (mf FW i (fc sc1) k0) * g (mf (fc sc0) l0 FW i) else u) else u) as T.
    { intros u'. rewrite fold_flat_map.
      rewrite (fold_ext_in _ _ _ (fun v l => if Nat.eqb l l0 then (if Nat.eqb k k0 then v - dt * g (mf FW i (fc sc1) k0) * g (mf (fc sc0) l0 FW i) else v) else v)).
      - rewrite (reach_pick R (fun v => if Nat.eqb k k0 then v - dt * g (mf FW i (fc sc1) k0) * g (mf (fc sc0) l0 FW i) else v)) by lia.
        destruct (Nat.eqb k k0), (within i l0); reflexivity.
      - intros w l Il. rewrite (takes_at a sc0 l0 sc1 k0) by auto. destruct (Nat.eqb k k0), (Nat.eqb l l0); reflexivity. }
    rewrite T. destruct (Nat.eqb_spec i (ibegin k)) as [EB|NB]; cbn [andb fold_left].
    + rewrite fold_flat_map.
      rewrite (fold_ext_in _ _ _ (fun v l => if Nat.eqb l l0 then (if Nat.eqb k k0 then g (mf (fc sc0) l0 (fc sc1) k0) else v) else v)).
      * rewrite (reach_pick R (fun v => if Nat.eqb k k0 then g (mf (fc sc0) l0 (fc sc1) k0) else v)) by lia.
        destruct (Nat.eqb k k0), (within i l0); reflexivity.
      * intros w l Il. rewrite (puts_at a sc0 l0 sc1 k0) by auto. destruct (Nat.eqb k k0), (Nat.eqb l l0); reflexivity.
    + destruct (Nat.eqb k k0); reflexivity.
  - destruct (Nat.eqb k k0); [reflexivity|]. induction (joined n k) as [|i t IH]; cbn [fold_left]; auto.
Qed.
Lemma schur_at : forall sc0 l0 sc1 k0, (sc0 < 2)%nat -> (sc1 < 2)%nat -> (l0 < n)%nat -> (k0 < n)%nat -> near sc0 l0 sc1 k0 ->
  schur n off fo so dt g (ms sc0 l0 sc1 k0) =
    fold_left (fun v i => let v := if (Nat.eqb i (ibegin k0) && within i l0)%bool then g (mf (fc sc0) l0 (fc sc1) k0) else v in
      if within i l0 then v - dt * g (mf FW i (fc sc1) k0) * g (mf (fc sc0) l0 FW i) else v) (joined n k0) 0.
Proof.
  intros sc0 l0 sc1 k0 A0 A1 L0 K0 B0. unfold schur, writes. rewrite run_at, fold_flat_map.
  rewrite (fold_ext_in _ _ _ (fun v k => if Nat.eqb k k0 then
    fold_left (fun v i => let v := if (Nat.eqb i (ibegin k0) && within i l0)%bool then g (mf (fc sc0) l0 (fc sc1) k0) else v in
      if within i l0 then v - dt * g (mf FW i (fc sc1) k0) * g (mf (fc sc0) l0 FW i) else v) (joined n k0) v else v)).
  - rewrite (fold_pick R k0 (fun v => fold_left (fun v i => let v := if (Nat.eqb i (ibegin k0) && within i l0)%bool then g (mf (fc sc0) l0 (fc sc1) k0) else v in
      if within i l0 then v - dt * g (mf FW i (fc sc1) k0) * g (mf (fc sc0) l0 FW i) else v) (joined n k0) v)).
    destruct (Nat.leb_spec 0 k0), (Nat.ltb_spec k0 (0 + n)); cbn [andb]; try reflexivity; lia.
  - intros v k Ik. apply in_seq in Ik. rewrite fold_flat_map. rewrite (level_at _ sc0 l0 sc1 k0) by (auto; lia).
    destruct (Nat.eqb_spec k k0) as [->|]; reflexivity.
Qed.

(** ** the entries in terms of the equations *)
Context (J : matrix) (HS : stored fo n J g) (HC : couplings n off dt J).
Lemma read : forall c0 k0 c1 k1, (c0 < 3)%nat -> (k0 <= n)%nat -> (- fo <= number c1 k1 - number c0 k0 <= fo)%Z ->
  g (mf c0 k0 c1 k1) = J (number c1 k1) (number c0 k0).
Proof.
  intros c0 k0 c1 k1 A B C. destruct HS as (H & _). rewrite <- H; [f_equal; unfold mf, mat_f, vec_f, fw, number; ring|unfold number; lia|exact C].
Qed.
(** the entry that is read in the place of that of density [k] and thermodynamics [k - off] *)
Lemma read_below : forall k, (off <= k <= n)%nat ->
  g (mf FP (k - off) FR k) = J (number 0 (k - off) - 3 * Z.of_nat off)%Z (number 1 (k - off)).
Proof.
  intros k B. destruct HS as (H & _). rewrite <- H; [f_equal; unfold mf, mat_f, vec_f, fw, number, fo, FP, FR; nia|unfold number; lia|unfold number, fo; lia].
Qed.
Lemma read_above : forall k, (k + off < n)%nat -> g (mf FR (k + off) FP k) = 0.
Proof.
  intros k B. destruct HS as (H & Z). transitivity (J (number 2 (k + 2 * off)) (number 1 (k + off))).
  - rewrite <- H; [f_equal; unfold mf, mat_f, vec_f, fw, number, fo, FP, FR; nia|unfold number; lia|unfold number, fo; lia].
  - destruct (Nat.le_gt_cases (k + 2 * off) n) as [L|L].
    + apply (fluxes _ _ _ _ HC); lia.
    + apply Z. left. unfold number. lia.
Qed.

Definition eff : matrix := spoiled off J.
Lemma eff_other : forall c1 k c0 l, ((c0 < 3)%nat -> (c1 < 3)%nat -> ~ (c1 = 2 /\ c0 = 0 /\ k = l + off)%nat) -> (c0 < 3)%nat -> (c1 < 3)%nat ->
  eff (number c1 k) (number c0 l) = J (number c1 k) (number c0 l).
Proof.
  intros c1 k c0 l N A B. specialize (N A B). unfold eff, spoiled.
  destruct (Z.eqb_spec (number c1 k - number c0 l) (3 * Z.of_nat off + 2)) as [E|]; [|reflexivity].
  destruct (Z.eqb_spec (number c0 l mod 3) 0) as [M|]; [|reflexivity]. cbn [andb]. exfalso.
  assert (c0 = 0)%nat as ->.
  { unfold number in M. rewrite Z.add_comm, Z.mul_comm, Z.mod_add in M by lia. rewrite Z.mod_small in M by lia. lia. }
  unfold number in E. lia.
Qed.
Lemma eff_spoiled : forall l, eff (number 2 (l + off)) (number 0 l) = J (number 0 l - 3 * Z.of_nat off)%Z (number 1 l).
Proof.
  intros l. unfold eff, spoiled. replace (number 2 (l + off) - number 0 l)%Z with (3 * Z.of_nat off + 2)%Z by (unfold number; lia). rewrite Z.eqb_refl.
  assert (number 0 l mod 3 = 0)%Z as -> by (unfold number; rewrite Z.add_0_r, Z.mul_comm; apply Z.mod_mul; lia). cbn [andb Z.eqb].
  f_equal. unfold number. lia.
Qed.
(** level against level *)
Lemma fc_cases : forall sc, (sc < 2)%nat -> (sc = 0 /\ fc sc = 0 \/ sc = 1 /\ fc sc = 2)%nat.
Proof. intros sc L. unfold fc, SP, FP, FR. destruct sc as [|[|sc]]; cbn; lia. Qed.
Lemma read_level : forall sc0 l sc1 k i, (sc0 < 2)%nat -> (sc1 < 2)%nat -> (l < n)%nat -> (k < n)%nat ->
  (Z.abs (vec_s sc1 k - vec_s sc0 l) <= so)%Z -> i = ibegin k ->
  (if within i l then g (mf (fc sc0) l (fc sc1) k) else 0) = eff (number (fc sc1) k) (number (fc sc0) l).
Proof.
  intros sc0 l sc1 k i A0 A1 L K B ->.
  assert (within (ibegin k) l = true -> (k <= l + off)%nat) as W1.
  { unfold within, ibegin. rewrite andb_true_iff, !Nat.leb_le. destruct (Nat.ltb_spec k 1); lia. }
  destruct (fc_cases sc0 A0) as [(-> & E0)|(-> & E0)]; destruct (fc_cases sc1 A1) as [(-> & E1)|(-> & E1)]; rewrite ?E0, ?E1; clear E0 E1.
  all: destruct (Nat.le_gt_cases k (l + off)) as [KL|KL]; destruct (Nat.le_gt_cases l (k + off)) as [LK|LK].
  all: try (rewrite (eff_other) by lia; destruct (within (ibegin k) l) eqn:W; [|symmetry; apply (levels _ _ _ _ HC); lia];
    try (specialize (W1 eq_refl); lia); rewrite read by (unfold number, fo; unfold vec_s, so in B; lia); reflexivity).
  all: try (exfalso; unfold vec_s, so in B; lia).
  all: assert (within (ibegin k) l = true) as -> by (unfold within, ibegin; rewrite andb_true_iff, !Nat.leb_le; destruct (Nat.ltb_spec k 1); lia).
  - rewrite eff_other by lia. apply read; [lia|lia|unfold number, fo; lia].
  - (* row density, column thermodynamics *)
    destruct (Nat.eq_dec k (l + off)) as [->|NE].
    + rewrite eff_spoiled. pose proof (read_below (l + off) ltac:(lia)) as Q. replace (l + off - off)%nat with l in Q by lia. exact Q.
    + rewrite eff_other by lia. apply read; [lia|lia|unfold number, fo; lia].
  - (* row thermodynamics, column density *)
    rewrite eff_other by lia. destruct (Nat.eq_dec l (k + off)) as [->|NE].
    + change 2%nat with FR. change 0%nat with FP. rewrite read_above by lia. symmetry. destruct HS as (_ & Z). apply Z. right. unfold number, fo, FP, FR. lia.
    + apply read; [lia|lia|unfold number, fo; lia].
  - rewrite eff_other by lia. apply read; [lia|lia|unfold number, fo; lia].
Qed.

(** the sum over the interfaces is over those joined to the level *)
Lemma flux_sum : forall c k (h : nat -> R), (c = 0 \/ c = 2)%nat -> (k < n)%nat ->
  sum (S n) (fun i => J (number c k) (number 1 i) * h i) = fold_right (fun i t => J (number c k) (number 1 i) * h i + t) 0 (joined n k).
Proof.
  intros c k h C K. unfold joined. rewrite (total_seq (fun i => J (number c k) (number 1 i) * h i) _ _ (S n)).
  - apply sum_ext. intros i Li. destruct (Nat.leb_spec (ibegin k) i) as [P1|P1], (Nat.ltb_spec i (ibegin k + (iend n k - ibegin k))) as [P2|P2]; cbn [andb]; try reflexivity;
    (rewrite (fluxes _ _ _ _ HC c k i); [ring|exact C|lia|lia|]; clear - P1 P2 HN; unfold ibegin, iend in P1, P2; destruct (Nat.ltb_spec k 1), (Nat.ltb_spec n (k + 2)); lia).
  - unfold ibegin, iend. destruct (Nat.ltb_spec k 1), (Nat.ltb_spec n (k + 2)); lia.
Qed.
Lemma joined_head : forall k, (k < n)%nat -> exists t, joined n k = ibegin k :: t /\ ~ In (ibegin k) t.
Proof.
  intros k K. unfold joined. assert (exists m, iend n k - ibegin k = S m)%nat as (m & ->).
  { exists (iend n k - ibegin k - 1)%nat. unfold ibegin, iend. destruct (Nat.ltb_spec k 1), (Nat.ltb_spec n (k + 2)); lia. }
  exists (seq (S (ibegin k)) m). split; [reflexivity|]. rewrite in_seq. lia.
Qed.
Definition reduced (sc1 k sc0 l : nat) : R :=
  eff (number (fc sc1) k) (number (fc sc0) l) - dt * sum (S n) (fun i => J (number (fc sc1) k) (number 1 i) * J (number 1 i) (number (fc sc0) l)).
Lemma fc_or : forall sc, (fc sc = 0 \/ fc sc = 2)%nat.
Proof. intros sc. unfold fc, FP, FR. destruct (Nat.eqb sc SP); auto. Qed.
Lemma entry : forall sc0 l sc1 k, (sc0 < 2)%nat -> (sc1 < 2)%nat -> (l < n)%nat -> (k < n)%nat -> (Z.abs (vec_s sc1 k - vec_s sc0 l) <= so)%Z ->
  schur n off fo so dt g (ms sc0 l sc1 k) = reduced sc1 k sc0 l.
Proof.
  intros sc0 l sc1 k A0 A1 L K B. rewrite schur_at by (try assumption; unfold near, so in *; lia).
  unfold reduced. rewrite flux_sum by (try assumption; apply fc_or). rewrite <- (read_level sc0 l sc1 k (ibegin k)) by auto.
  destruct (joined_head k K) as (t & EJ & NT). assert (forall i, In i (joined n k) -> (if within i l then dt * g (mf FW i (fc sc1) k) * g (mf (fc sc0) l FW i) else 0) =
    dt * (J (number (fc sc1) k) (number 1 i) * J (number 1 i) (number (fc sc0) l))) as T.
  { intros i Ii. apply joined_in in Ii. pose proof (fc_or sc1) as O1. pose proof (fc_or sc0) as O0. destruct (within i l) eqn:W.
    - unfold within in W. rewrite andb_true_iff, !Nat.leb_le in W. rewrite !read by (unfold number, fo, FW; lia). unfold FW. ring.
    - unfold within in W. rewrite andb_false_iff, !Nat.leb_gt in W. rewrite (gradients _ _ _ _ HC (fc sc0) i l) by (try assumption; lia). ring. }
  rewrite EJ in T |- *. cbn [fold_left]. cbv zeta. rewrite Nat.eqb_refl. cbn [andb].
  set (G := g (mf (fc sc0) l (fc sc1) k)) in *.
  rewrite (fold_ext_in _ _ _ (fun v i => v - (if within i l then dt * g (mf FW i (fc sc1) k) * g (mf (fc sc0) l FW i) else 0))).
  2:{ intros v i Ii. destruct (Nat.eqb_spec i (ibegin k)) as [->|_]; [contradiction|]. cbn [andb]. destruct (within i l); ring. }
  rewrite fold_take. cbn [fold_right].
  assert (fold_right (fun i u => (if within i l then dt * g (mf FW i (fc sc1) k) * g (mf (fc sc0) l FW i) else 0) + u) 0 t =
    dt * fold_right (fun i u => J (number (fc sc1) k) (number 1 i) * J (number 1 i) (number (fc sc0) l) + u) 0 t) as ->.
  { clear NT EJ. induction t as [|i t IH]; cbn [fold_right]; [ring|]. rewrite IH by (intros; apply T; cbn in *; tauto). rewrite (T i) by (cbn; tauto). ring. }
  pose proof (T (ibegin k) ltac:(left; reflexivity)) as T0. destruct (within (ibegin k) l); rewrite Rmult_plus_distr_l, <- T0; ring.
Qed.
Lemma entry_far : forall sc0 l sc1 k, (sc0 < 2)%nat -> (sc1 < 2)%nat -> (l < n)%nat -> (k < n)%nat -> (so < Z.abs (vec_s sc1 k - vec_s sc0 l))%Z ->
  reduced sc1 k sc0 l = 0.
Proof.
  intros sc0 l sc1 k A0 A1 L K B. assert (l + off < k \/ k + off < l)%nat as D by (unfold vec_s, so in B; lia).
  unfold reduced. pose proof (fc_or sc1) as O1. pose proof (fc_or sc0) as O0. rewrite eff_other by lia. rewrite (levels _ _ _ _ HC) by (try assumption; lia).
  rewrite (sum_ext (S n) _ (fun _ => 0)); [rewrite sum_zero; ring|]. intros i Li.
  destruct (in_dec Nat.eq_dec i (joined n k)) as [Ii|Ni].
  - apply joined_in in Ii. rewrite (gradients _ _ _ _ HC (fc sc0) i l) by (try assumption; lia). ring.
  - rewrite (fluxes _ _ _ _ HC) by (try assumption; try lia; intros X; apply Ni, joined_in; tauto). ring.
Qed.

(** ** the solution *)
Context (f x : Z -> R).
Lemma rhs_value : forall sc k, (sc < 2)%nat -> (k < n)%nat ->
  rhs n fo dt g f sc k = f (number (fc sc) k) - dt * sum (S n) (fun i => J (number (fc sc) k) (number 1 i) * f (number 1 i)).
Proof.
  intros sc k A K. unfold rhs. fold (fc sc). rewrite (fold_take (fun i => dt * g (mat_f fo FW i (fc sc) k) * f (vec_f FW i))).
  rewrite flux_sum by (try assumption; apply fc_or). f_equal. assert (forall i, In i (joined n k) -> (i = k \/ i = k + 1)%nat /\ (i < n)%nat) as B by (intros i Ii; apply joined_in in Ii; lia).
  induction (joined n k) as [|i t IH]; cbn [fold_right]; [ring|]. rewrite IH by (intros; apply B; right; assumption).
  destruct (B i ltac:(left; reflexivity)) as (B1 & B2). pose proof (fc_or sc). change (mat_f fo FW i (fc sc) k) with (mf FW i (fc sc) k). rewrite read by (unfold number, fo, FW; lia).
  change (vec_f FW i) with (number 1 i). change FW with 1%nat. ring.
Qed.
Definition value (sc k : nat) : R := x (vec_s sc k).
(** the sum over the unknowns of the reduced equations, level by level *)
Lemma sum_pairs : forall m (h : nat -> R), sum (2 * m) h = sum m (fun l => h (2 * l)%nat + h (2 * l + 1)%nat).
Proof.
  intros m h. induction m as [|m IH]; [reflexivity|]. replace (2 * S m)%nat with (S (S (2 * m))) by lia. cbn [sum]. rewrite IH. replace (S (2 * m)) with (2 * m + 1)%nat by lia. ring.
Qed.
Lemma band_rows : forall b, band_solution so (2 * n) (schur n off fo so dt g) b x <->
  (forall sc k, (sc < 2)%nat -> (k < n)%nat -> sum n (fun l => reduced sc k 0 l * value 0 l + reduced sc k 1 l * value 1 l) = b (vec_s sc k)).
Proof.
  intros b.
  assert (forall sc k, (sc < 2)%nat -> (k < n)%nat ->
    sum (2 * n) (fun j => let c := Z.of_nat j in (if (Z.abs (vec_s sc k - c) <=? so)%Z then schur n off fo so dt g (2 * so + (vec_s sc k - c) + (3 * so + 1) * c)%Z else 0) * x c) =
    sum n (fun l => reduced sc k 0 l * value 0 l + reduced sc k 1 l * value 1 l)) as E.
  { intros sc k A K. rewrite sum_pairs. apply sum_ext. intros l L. cbv zeta.
    assert (forall sc0 j, (sc0 < 2)%nat -> j = (2 * l + sc0)%nat -> (if (Z.abs (vec_s sc k - Z.of_nat j) <=? so)%Z then schur n off fo so dt g (2 * so + (vec_s sc k - Z.of_nat j) + (3 * so + 1) * Z.of_nat j)%Z else 0) * x (Z.of_nat j) = reduced sc k sc0 l * value sc0 l) as Q.
    { intros sc0 j A0 ->. replace (Z.of_nat (2 * l + sc0)) with (vec_s sc0 l) by (unfold vec_s; lia).
      destruct (Z.leb_spec (Z.abs (vec_s sc k - vec_s sc0 l)) so) as [B|B].
      - replace (2 * so + (vec_s sc k - vec_s sc0 l) + (3 * so + 1) * vec_s sc0 l)%Z with (ms sc0 l sc k) by (unfold ms, mat_s, sw; ring). rewrite entry by assumption. reflexivity.
      - rewrite entry_far by assumption. reflexivity. }
    f_equal; apply Q; lia. }
  split.
  - intros H sc k A K. rewrite <- E by assumption. apply H. unfold vec_s. lia.
  - intros H r Hr. assert (exists sc k, (sc < 2)%nat /\ (k < n)%nat /\ r = vec_s sc k) as (sc & k & A & K & ->).
    { exists (Z.to_nat (r mod 2)), (Z.to_nat (r / 2)). pose proof (Z.div_mod r 2 ltac:(lia)). pose proof (Z.mod_pos_bound r 2 ltac:(lia)). unfold vec_s. rewrite !Z2Nat.id by lia. lia. }
    cbv zeta. rewrite <- H by assumption. rewrite <- E by assumption. reflexivity.
Qed.
End Elimination.
