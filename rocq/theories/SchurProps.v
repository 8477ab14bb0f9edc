(** * C124 the column solve by elimination of the vertical velocity, C125 the copies on
    shared nodes after it *)
From Coq Require Import ZArith Reals List Lia Lra Bool.
From Verif Require Import KrylovSpec KrylovProofs SchurModel SchurSpec SchurProofs.
Import ListNotations.
Local Open Scope R_scope.

(** the orders that Initialize accepts *)
Lemma settings_value : forall order off fo so, settings order = Some (off, fo, so) -> (2 <= order)%Z ->
  (1 <= off)%nat /\ order = (2 * Z.of_nat off)%Z /\ fo = (3 * Z.of_nat off + 1)%Z /\ so = (2 * Z.of_nat off + 1)%Z /\ (off <= 3)%nat.
Proof.
  intros order off fo so H L. unfold settings in H. destruct (Z.leb_spec order 2) as [E|E].
  - assert (order = 2)%Z as -> by lia. injection H as <- <- <-. change (Z.to_nat (2 ÷ 2)) with 1%nat. lia.
  - destruct (Z.eqb_spec order 4) as [->|]; [injection H as <- <- <-; change (Z.to_nat (4 ÷ 2)) with 2%nat; lia|].
    destruct (Z.eqb_spec order 6) as [->|]; [injection H as <- <- <-; change (Z.to_nat (6 ÷ 2)) with 3%nat; lia|discriminate].
Qed.

Lemma sum_last : forall n f, sum (S n) f = sum n f + f n.
Proof. reflexivity. Qed.

Section Rows.
Context (n off : nat) (dt : R) (HO : (1 <= off)%nat) (HN : (2 <= n)%nat) (g : Z -> R) (J : matrix).
Let fo : Z := (3 * Z.of_nat off + 1)%Z.
Let so : Z := (2 * Z.of_nat off + 1)%Z.
Context (HS : stored fo n J g) (HC : couplings n off dt J) (f : Z -> R).

Lemma back_w : forall x i, (1 <= i < n)%nat ->
  back n off fo dt g f x 1 i = dt * (f (number 1 i) - sum n (fun l => J (number 1 i) (number 0 l) * x (vec_s 0 l) + J (number 1 i) (number 2 l) * x (vec_s 1 l))).
Proof.
  intros x i L. unfold back. change (Nat.eqb 1 FW) with true. cbv iota. destruct (Nat.eqb_spec i n); [lia|]. destruct (Nat.eqb_spec i 0); [lia|].
  rewrite (fold_ext_in _ _ _ (fun w l => w - (dt * g (mat_f fo FP l FW i) * x (vec_s SP l) + dt * g (mat_f fo FR l FW i) * x (vec_s SR l)))) by (intros; cbv beta; ring).
  rewrite (fold_take (fun l => dt * g (mat_f fo FP l FW i) * x (vec_s SP l) + dt * g (mat_f fo FR l FW i) * x (vec_s SR l))).
  unfold reach. rewrite (total_seq _ _ _ n) by (unfold lend; destruct (Nat.ltb_spec n (i + off + 1)); lia).
  rewrite (sum_ext n _ (fun l => dt * (J (number 1 i) (number 0 l) * x (vec_s 0 l) + J (number 1 i) (number 2 l) * x (vec_s 1 l)))).
  { rewrite sum_scal. change (vec_f FW i) with (number 1 i). ring. }
  intros l Ll. unfold lend. destruct (Nat.leb_spec (i - off) l) as [P1|P1];
  [destruct (Nat.ltb_spec l (i - off + ((if Nat.ltb n (i + off + 1) then n else i + off + 1) - (i - off)))) as [P2|P2]|]; cbn [andb].
  - assert (i <= l + off /\ l <= i + off)%nat as B by (destruct (Nat.ltb_spec n (i + off + 1)); lia).
    unfold fo. rewrite (read n off HO HN g J HS FP l FW i) by (unfold FP, FW, number; lia). rewrite (read n off HO HN g J HS FR l FW i) by (unfold FR, FW, number; lia).
    unfold FP, FW, FR, SP, SR. ring.
  - rewrite !(gradients _ _ _ _ HC) by (destruct (Nat.ltb_spec n (i + off + 1)); lia). ring.
  - rewrite !(gradients _ _ _ _ HC) by lia. ring.
Qed.
Lemma back_level : forall x sc k, (sc < 2)%nat -> (k < n)%nat -> back n off fo dt g f x (fc sc) k = x (vec_s sc k).
Proof.
  intros x sc k A K. unfold back. destruct (fc_cases n off HO HN sc A) as [(-> & ->)|(-> & ->)]; cbn [Nat.eqb]; unfold FW, FP, SP, SR; cbn [Nat.eqb]; destruct (Nat.ltb_spec k n); try lia; reflexivity.
Qed.
(** a level equation, with the velocities eliminated *)
Lemma level_row : forall X sc k, (sc < 2)%nat -> (k < n)%nat ->
  (forall i, (1 <= i < n)%nat -> X 1%nat i = dt * (f (number 1 i) - sum n (fun l => J (number 1 i) (number 0 l) * X 0%nat l + J (number 1 i) (number 2 l) * X 2%nat l))) ->
  product n (spoiled off J) X (number (fc sc) k) =
  sum n (fun l => reduced n off dt J sc k 0 l * X 0%nat l + reduced n off dt J sc k 1 l * X 2%nat l) +
  dt * sum (S n) (fun i => J (number (fc sc) k) (number 1 i) * f (number 1 i)).
Proof.
  intros X sc k A K HW. pose proof (fc_or sc) as O. unfold product.
  set (r := number (fc sc) k). set (M := spoiled off J).
  assert (forall i, M r (number 1 i) = J r (number 1 i)) as M1 by (intros i; unfold M, r; apply (eff_other n off HO HN J); lia).
  rewrite (sum_ext (S n) _ (fun l => (M r (number 0 l) * X 0%nat l + M r (number 2 l) * X 2%nat l) + J r (number 1 l) * X 1%nat l)) by (intros; rewrite M1; ring).
  rewrite sum_plus. rewrite (sum_last n (fun l => M r (number 0 l) * X 0%nat l + M r (number 2 l) * X 2%nat l)).
  assert (forall c, (c = 0 \/ c = 2)%nat -> M r (number c n) = 0) as MN.
  { intros c C. unfold M, r. rewrite (eff_other n off HO HN J) by lia. apply (levels _ _ _ _ HC); lia. }
  rewrite !MN by auto.
  rewrite (sum_ext (S n) (fun l => J r (number 1 l) * X 1%nat l)
    (fun i => dt * (J r (number 1 i) * f (number 1 i)) + (- dt) * sum n (fun l => J r (number 1 i) * J (number 1 i) (number 0 l) * X 0%nat l + J r (number 1 i) * J (number 1 i) (number 2 l) * X 2%nat l))).
  2:{ intros i Li. destruct (Nat.le_gt_cases 1 i) as [B1|B1]; [destruct (Nat.lt_ge_cases i n) as [B2|B2]|].
      - rewrite HW by lia.
        rewrite (sum_ext n (fun l => J r (number 1 i) * J (number 1 i) (number 0 l) * X 0%nat l + J r (number 1 i) * J (number 1 i) (number 2 l) * X 2%nat l)
          (fun l => J r (number 1 i) * (J (number 1 i) (number 0 l) * X 0%nat l + J (number 1 i) (number 2 l) * X 2%nat l))) by (intros; ring).
        rewrite sum_scal. ring.
      - assert (J r (number 1 i) = 0) as -> by (apply (fluxes _ _ _ _ HC); lia). rewrite (sum_ext n _ (fun _ => 0)) by (intros; ring). rewrite sum_zero. ring.
      - assert (J r (number 1 i) = 0) as -> by (apply (fluxes _ _ _ _ HC); lia). rewrite (sum_ext n _ (fun _ => 0)) by (intros; ring). rewrite sum_zero. ring. }
  set (SL := sum n (fun l => M r (number 0 l) * X 0%nat l + M r (number 2 l) * X 2%nat l)).
  rewrite (sum_plus (S n) (fun i => dt * (J r (number 1 i) * f (number 1 i)))), (sum_scal (S n) dt), (sum_scal (S n) (- dt)), sum_swap.
  rewrite (sum_ext n (fun l => reduced n off dt J sc k 0 l * X 0%nat l + reduced n off dt J sc k 1 l * X 2%nat l)
    (fun l => (M r (number 0 l) * X 0%nat l + M r (number 2 l) * X 2%nat l) +
       (- dt) * sum (S n) (fun i => J r (number 1 i) * J (number 1 i) (number 0 l) * X 0%nat l + J r (number 1 i) * J (number 1 i) (number 2 l) * X 2%nat l))).
  - rewrite (sum_plus n (fun l => M r (number 0 l) * X 0%nat l + M r (number 2 l) * X 2%nat l)), (sum_scal n (- dt)). fold SL. ring.
  - intros l Ll. unfold reduced, eff. change (fc 0) with 0%nat. change (fc 1) with 2%nat. fold M r.
    rewrite (sum_ext (S n) (fun i => J r (number 1 i) * J (number 1 i) (number 0 l) * X 0%nat l + J r (number 1 i) * J (number 1 i) (number 2 l) * X 2%nat l)
      (fun i => X 0%nat l * (J r (number 1 i) * J (number 1 i) (number 0 l)) + X 2%nat l * (J r (number 1 i) * J (number 1 i) (number 2 l)))) by (intros; ring).
    rewrite sum_plus, !sum_scal. ring.
Qed.
Lemma rhs_vector_value : forall sc k, (sc < 2)%nat -> (k < n)%nat -> rhs_vector n fo dt g f (vec_s sc k) = rhs n fo dt g f sc k.
Proof.
  intros sc k A K. unfold rhs_vector, vec_s. destruct sc as [|[|sc]]; [| |lia].
  - replace (2 * Z.of_nat k + Z.of_nat 0)%Z with (2 * Z.of_nat k)%Z by lia. rewrite Z.even_mul. cbn [orb Z.even]. rewrite Z.mul_comm, Z.div_mul, Nat2Z.id by lia. reflexivity.
  - replace (2 * Z.of_nat k + Z.of_nat 1)%Z with (1 + Z.of_nat k * 2)%Z by lia. rewrite Z.even_add, Z.even_mul, andb_comm || rewrite Z.even_add, Z.even_mul.
    cbn [Z.even]. rewrite orb_true_r. cbn [Bool.eqb]. rewrite Z.div_add by lia. change (1 / 2)%Z with 0%Z. cbn [Z.add]. rewrite Nat2Z.id. reflexivity.
Qed.
(** a velocity equation *)
Lemma velocity_row : forall X i, (i <= n)%nat -> dt <> 0 ->
  product n J X (number 1 i) = / dt * X 1%nat i + (if (Nat.leb 1 i && Nat.ltb i n)%bool then sum n (fun l => J (number 1 i) (number 0 l) * X 0%nat l + J (number 1 i) (number 2 l) * X 2%nat l) else 0).
Proof.
  intros X i L ND. unfold product.
  rewrite (sum_ext (S n) _ (fun l => (if Nat.eqb i l then 1 / dt else 0) * X 1%nat l + (J (number 1 i) (number 0 l) * X 0%nat l + J (number 1 i) (number 2 l) * X 2%nat l)))
    by (intros l Ll; rewrite (own _ _ _ _ HC) by lia; ring).
  rewrite sum_plus. rewrite (sum_single (S n) i) by (first [lia|intros j Lj N; destruct (Nat.eqb_spec i j); [congruence|ring]]). rewrite Nat.eqb_refl.
  f_equal; [field; exact ND|]. cbn [sum]. rewrite !(gradients _ _ _ _ HC _ i n) by lia.
  destruct (Nat.leb_spec 1 i), (Nat.ltb_spec i n); cbn [andb]; try ring;
  (rewrite (sum_ext n _ (fun _ => 0)) by (intros l Ll; rewrite !(gradients _ _ _ _ HC) by lia; ring); rewrite sum_zero; ring).
Qed.
End Rows.

(** ** What the elimination solves.  Every level equation and every velocity equation of
    the column, for every matrix with the couplings of the column: but with the matrix
    in which the density equations have a foreign entry. *)
Theorem C124_elimination : forall order n off fo so dt gbsv g f J X, settings order = Some (off, fo, so) -> (2 <= order)%Z -> (2 <= n)%nat -> dt <> 0 ->
  stored fo n J g -> couplings n off dt J -> f (number 1 n) = 0 ->
  (forall x, gbsv (schur n off fo so dt g) (rhs_vector n fo dt g f) = Some x -> band_solution so (2 * n) (schur n off fo so dt g) (rhs_vector n fo dt g f) x) ->
  correction n off fo so dt gbsv g f = Some X ->
  (forall c k, (c = 0 \/ c = 2)%nat -> (k < n)%nat -> product n (spoiled off J) X (number c k) = f (number c k)) /\
  (forall i, (i <= n)%nat -> product n J X (number 1 i) = f (number 1 i)).
Proof.
  intros order n off fo so dt gbsv g f J X HST LO HN ND HS HC FN HG H. destruct (settings_value _ _ _ _ HST LO) as (HO & _ & -> & -> & _).
  unfold correction in H. destruct (_ <? _)%Z; [discriminate|]. destruct (gbsv _ _) as [x|]; [|discriminate]. specialize (HG x eq_refl).
  assert (back n off (3 * Z.of_nat off + 1) dt g f x = X) as <- by congruence.
  rewrite (band_rows n off dt HO HN g J HS HC) in HG.
  assert (forall i, (1 <= i < n)%nat -> back n off (3 * Z.of_nat off + 1) dt g f x 1 i =
    dt * (f (number 1 i) - sum n (fun l => J (number 1 i) (number 0 l) * back n off (3 * Z.of_nat off + 1) dt g f x 0 l + J (number 1 i) (number 2 l) * back n off (3 * Z.of_nat off + 1) dt g f x 2 l))) as HW.
  { intros i Li. rewrite (back_w n off dt HO HN g J HS HC) by exact Li. do 2 f_equal. apply sum_ext. intros l Ll.
    change (back n off (3 * Z.of_nat off + 1) dt g f x 0 l) with (back n off (3 * Z.of_nat off + 1) dt g f x (fc 0) l).
    change (back n off (3 * Z.of_nat off + 1) dt g f x 2 l) with (back n off (3 * Z.of_nat off + 1) dt g f x (fc 1) l). rewrite !(back_level n off dt HO HN g f x) by lia. reflexivity. }
  split.
  - intros c k C K. assert (exists sc, (sc < 2)%nat /\ c = fc sc) as (sc & A & ->) by (destruct C as [->| ->]; [exists 0%nat|exists 1%nat]; split; try lia; reflexivity).
    rewrite (level_row n off dt HO HN J HC f) by assumption.
    specialize (HG sc k A K). rewrite (rhs_vector_value n off dt HO HN g f) in HG by assumption. rewrite (rhs_value n off dt HO HN g J HS HC) in HG by assumption.
    rewrite (sum_ext n _ (fun l => reduced n off dt J sc k 0 l * value x 0 l + reduced n off dt J sc k 1 l * value x 1 l)).
    + rewrite HG. ring.
    + intros l Ll. cbv beta. unfold value. change (back n off (3 * Z.of_nat off + 1) dt g f x 0 l) with (back n off (3 * Z.of_nat off + 1) dt g f x (fc 0) l).
      change (back n off (3 * Z.of_nat off + 1) dt g f x 2 l) with (back n off (3 * Z.of_nat off + 1) dt g f x (fc 1) l). rewrite !(back_level n off dt HO HN g f x) by lia. reflexivity.
  - intros i Li. rewrite (velocity_row n off dt HO HN J HC) by assumption.
    destruct (Nat.leb_spec 1 i); [destruct (Nat.ltb_spec i n)|]; cbn [andb].
    + rewrite HW by lia. field. exact ND.
    + assert (i = n) as -> by lia. unfold back. change (Nat.eqb 1 FW) with true. cbv iota. rewrite Nat.eqb_refl, FN. ring.
    + assert (i = 0)%nat as -> by lia. unfold back. change (Nat.eqb 1 FW) with true. cbv iota. destruct (Nat.eqb_spec 0 n); [lia|]. cbn [Nat.eqb].
      change (vec_f FW 0) with (number 1 0). field. exact ND.
Qed.
Print Assumptions C124_elimination.

(** ** At orders four and six the foreign entry is zero: the correction is the Newton
    correction. *)
Theorem C124_exact : forall order n off fo so dt gbsv g f J X, settings order = Some (off, fo, so) -> (4 <= order)%Z -> (2 <= n)%nat -> dt <> 0 ->
  stored fo n J g -> couplings n off dt J -> f (number 1 n) = 0 ->
  (forall x, gbsv (schur n off fo so dt g) (rhs_vector n fo dt g f) = Some x -> band_solution so (2 * n) (schur n off fo so dt g) (rhs_vector n fo dt g f) x) ->
  correction n off fo so dt gbsv g f = Some X ->
  (forall c k, (c = 0 \/ c = 2)%nat -> (k < n)%nat -> product n J X (number c k) = f (number c k)) /\
  (forall i, (i <= n)%nat -> product n J X (number 1 i) = f (number 1 i)).
Proof.
  intros order n off fo so dt gbsv g f J X HST LO HN ND HS HC FN HG H.
  destruct (C124_elimination order n off fo so dt gbsv g f J X HST ltac:(lia) HN ND HS HC FN HG H) as (E & W). split; [|exact W].
  destruct (settings_value _ _ _ _ HST ltac:(lia)) as (HO & EO & -> & -> & _).
  intros c k C K. rewrite <- E by assumption. unfold product. apply sum_ext. intros l Ll.
  assert (forall c', (c' < 3)%nat -> J (number c k) (number c' l) = spoiled off J (number c k) (number c' l)) as Q; [|rewrite !Q by lia; reflexivity].
  intros c' C'. destruct (Nat.eq_dec c' 0) as [->|N0]; [|rewrite (eff_other n off HO HN J) by lia; reflexivity].
  destruct (Nat.eq_dec c 2) as [->|N2]; [|rewrite (eff_other n off HO HN J) by lia; reflexivity].
  destruct (Nat.eq_dec k (l + off)) as [->|NK]; [|rewrite (eff_other n off HO HN J) by lia; reflexivity].
  rewrite (eff_spoiled n off HO HN J). destruct HS as (_ & Z). rewrite Z by (right; unfold number; lia). symmetry.
  destruct (Nat.le_gt_cases off l) as [B|B].
  - replace (number 0 l - 3 * Z.of_nat off)%Z with (number 0 (l - off)) by (unfold number; lia). apply (fluxes _ _ _ _ HC); lia.
  - apply Z. left. unfold number. lia.
Qed.
Print Assumptions C124_exact.

(** ** At order two, the order of the tests, it is not: the density equation of level k
    is missed by the product of the thermodynamic correction one level down and of the
    coefficient with which the velocity at that level's lower interface enters the
    thermodynamic equation two levels down. *)
Theorem C124_refuted : forall n off fo so dt gbsv g f J X k, settings 2 = Some (off, fo, so) -> (2 <= n)%nat -> dt <> 0 ->
  stored fo n J g -> couplings n off dt J -> f (number 1 n) = 0 ->
  (forall x, gbsv (schur n off fo so dt g) (rhs_vector n fo dt g f) = Some x -> band_solution so (2 * n) (schur n off fo so dt g) (rhs_vector n fo dt g f) x) ->
  correction n off fo so dt gbsv g f = Some X -> (2 <= k < n)%nat ->
  product n J X (number 2 k) = f (number 2 k) - J (number 0 (k - 2)) (number 1 (k - 1)) * X 0%nat (k - 1)%nat.
Proof.
  intros n off fo so dt gbsv g f J X k HST HN ND HS HC FN HG H LK.
  destruct (C124_elimination 2 n off fo so dt gbsv g f J X HST ltac:(lia) HN ND HS HC FN HG H) as (E & _).
  destruct (settings_value _ _ _ _ HST ltac:(lia)) as (_ & EO & -> & -> & _). assert (off = 1)%nat as -> by lia. rewrite <- (E 2%nat k) by lia.
  change (spoiled 1 J) with (eff 1 J). unfold product. cut (sum (S n) (fun k0 => eff 1 J (number 2 k) (number 0 k0) * X 0%nat k0 + eff 1 J (number 2 k) (number 1 k0) * X 1%nat k0 + eff 1 J (number 2 k) (number 2 k0) * X 2%nat k0) -
    sum (S n) (fun k0 => J (number 2 k) (number 0 k0) * X 0%nat k0 + J (number 2 k) (number 1 k0) * X 1%nat k0 + J (number 2 k) (number 2 k0) * X 2%nat k0) =
    J (number 0 (k - 2)) (number 1 (k - 1)) * X 0%nat (k - 1)%nat); [lra|].
  transitivity (sum (S n) (fun l => (eff 1 J (number 2 k) (number 0 l) - J (number 2 k) (number 0 l)) * X 0%nat l)).
  - unfold Rminus at 1. rewrite <- (Rmult_1_l (sum (S n) (fun k0 => J (number 2 k) (number 0 k0) * X 0%nat k0 + J (number 2 k) (number 1 k0) * X 1%nat k0 + J (number 2 k) (number 2 k0) * X 2%nat k0))).
    rewrite Ropp_mult_distr_l, <- sum_scal, <- sum_plus. apply sum_ext. intros l Ll.
    rewrite (eff_other n 1 (le_n 1) HN J 2 k 1 l), (eff_other n 1 (le_n 1) HN J 2 k 2 l) by lia. ring.
  - rewrite (sum_single (S n) (k - 1)) by (first [lia|intros j Lj N; rewrite (eff_other n 1 (le_n 1) HN J) by lia; ring]).
    replace (number 2 k) with (number 2 ((k - 1) + 1)) by (unfold number; lia). rewrite (eff_spoiled n 1 (le_n 1) HN J). destruct HS as (_ & Z).
    rewrite (Z (number 2 (k - 1 + 1)) (number 0 (k - 1))) by (right; unfold number; lia).
    replace (number 0 (k - 1) - 3 * Z.of_nat 1)%Z with (number 0 (k - 2)) by (unfold number; lia). ring.
Qed.
Print Assumptions C124_refuted.

(** ** Nothing is lost by the elimination: every solution of the (spoiled) equations
    gives one of the reduced ones, so that a failing band solve means that the full
    equations have no unique solution either. *)
Theorem C124_complete : forall order n off fo so dt g f J X, settings order = Some (off, fo, so) -> (2 <= order)%Z -> (2 <= n)%nat -> dt <> 0 ->
  stored fo n J g -> couplings n off dt J ->
  (forall c k, (c = 0 \/ c = 2)%nat -> (k < n)%nat -> product n (spoiled off J) X (number c k) = f (number c k)) ->
  (forall i, (i <= n)%nat -> product n J X (number 1 i) = f (number 1 i)) ->
  let x := fun a => X (if Z.even a then 0 else 2)%nat (Z.to_nat (a / 2)) in
  band_solution so (2 * n) (schur n off fo so dt g) (rhs_vector n fo dt g f) x /\
  (forall c k, (c = 0 \/ c = 2)%nat -> (k < n)%nat -> back n off fo dt g f x c k = X c k) /\
  (forall i, (1 <= i < n)%nat -> back n off fo dt g f x 1 i = X 1%nat i).
Proof.
  intros order n off fo so dt g f J X HST LO HN ND HS HC EL EW x. destruct (settings_value _ _ _ _ HST LO) as (HO & _ & -> & -> & _).
  assert (forall sc k, (sc < 2)%nat -> x (vec_s sc k) = X (fc sc) k) as XV.
  { intros sc k A. unfold x, vec_s. destruct sc as [|[|sc]]; [| |lia].
    - replace (2 * Z.of_nat k + Z.of_nat 0)%Z with (Z.of_nat k * 2)%Z by lia. rewrite Z.even_mul, orb_true_r, Z.div_mul, Nat2Z.id by lia. reflexivity.
    - replace (2 * Z.of_nat k + Z.of_nat 1)%Z with (1 + Z.of_nat k * 2)%Z by lia. rewrite Z.even_add, Z.even_mul, orb_true_r, Z.div_add by lia.
      change (1 / 2)%Z with 0%Z. cbn [Z.add Bool.eqb Z.even]. rewrite Nat2Z.id. reflexivity. }
  assert (forall i, (1 <= i < n)%nat -> X 1%nat i = dt * (f (number 1 i) - sum n (fun l => J (number 1 i) (number 0 l) * X 0%nat l + J (number 1 i) (number 2 l) * X 2%nat l))) as HW.
  { intros i Li. rewrite <- EW by lia. rewrite (velocity_row n off dt HO HN J HC) by (assumption || lia).
    destruct (Nat.leb_spec 1 i); [|lia]. destruct (Nat.ltb_spec i n); [|lia]. cbn [andb]. field. exact ND. }
  split; [|split].
  - apply (band_rows n off dt HO HN g J HS HC). intros sc k A K. rewrite (rhs_vector_value n off dt HO HN g f) by assumption.
    rewrite (rhs_value n off dt HO HN g J HS HC) by assumption. rewrite <- EL by (try assumption; apply fc_or). rewrite (level_row n off dt HO HN J HC f) by assumption.
    unfold value. rewrite (sum_ext n _ (fun l => reduced n off dt J sc k 0 l * X 0%nat l + reduced n off dt J sc k 1 l * X 2%nat l)) by (intros l Ll; rewrite !XV by lia; reflexivity). ring.
  - intros c k C K. assert (exists sc, (sc < 2)%nat /\ c = fc sc) as (sc & A & ->) by (destruct C as [->| ->]; [exists 0%nat|exists 1%nat]; split; try lia; reflexivity).
    rewrite (back_level n off dt HO HN g f x) by assumption. apply XV. exact A.
  - intros i Li. rewrite (back_w n off dt HO HN g J HS HC) by exact Li. rewrite (HW i Li). do 2 f_equal. apply sum_ext. intros l Ll. rewrite !XV by lia. reflexivity.
Qed.
Print Assumptions C124_complete.

(** Columns of few levels are refused, whatever the equations: the band solver compares
    the number of unknowns with the width of the band. *)
Theorem C124_few : forall order n off fo so dt gbsv g f, settings order = Some (off, fo, so) -> (2 * Z.of_nat n < 3 * (order + 1) + 1)%Z ->
  correction n off fo so dt gbsv g f = None.
Proof.
  intros order n off fo so dt gbsv g f H L. unfold settings in H.
  assert (so = order + 1)%Z as -> by (destruct (order <=? 2)%Z, (order =? 4)%Z, (order =? 6)%Z; congruence).
  unfold correction. destruct (Z.ltb_spec (2 * Z.of_nat n) (2 * (order + 1) + (order + 1) + 1)); [reflexivity|lia].
Qed.
Print Assumptions C124_few.
