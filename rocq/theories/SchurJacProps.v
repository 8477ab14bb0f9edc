(** * C124, the matrix that the program builds has the couplings of the column; cases.
    C125, the copies on shared nodes. *)
From Coq Require Import ZArith Reals List Lia Lra Bool.
From Verif Require Import KrylovSpec KrylovProofs SchurModel SchurJacModel SchurSpec SchurProofs SchurProps.
Import ListNotations.
Local Open Scope R_scope.

(** which entries the operators reach *)
Record within (off : nat) (C : column) : Prop := {
  so_div : forall k m, (k < levels_ C)%nat -> In m (columns (d_en C) k) -> (m = k \/ m = k + 1)%nat;
  so_int : forall m q, (m <= levels_ C)%nat -> In q (columns (i_ne C) m) -> (q < levels_ C /\ m <= q + off /\ q < m + off)%nat;
  so_grad : forall i q, (1 <= i < levels_ C)%nat -> In q (columns (d_ne C) i) -> (q < levels_ C /\ i <= q + off /\ q < i + off)%nat;
  so_left : forall k q, (k < levels_ C)%nat -> In q (columns (pen_l C) k) -> (q < levels_ C /\ k <= q + off /\ q <= k + off)%nat;
  so_right : forall k q, (k < levels_ C)%nat -> In q (columns (pen_r C) k) -> (q < levels_ C /\ k <= q + off /\ q <= k + off)%nat }.
Lemma built_within : forall off C, (1 <= off)%nat -> (1 <= levels_ C)%nat -> built C off -> within off C.
Proof.
  intros off C HO HN (w1 & w2 & w3 & w4 & w5 & E1 & E2 & E3 & E4 & E5).
  constructor; unfold columns; rewrite ?E1, ?E2, ?E3, ?E4, ?E5; unfold divergence_op, interpolation_op, gradient_op, left_op, right_op; cbn [lo hi]; intros k m K I; apply in_seq in I; revert I.
  - lia.
  - destruct (Nat.eqb_spec k 0), (Nat.eqb_spec k (levels_ C)); lia.
  - lia.
  - destruct (Nat.ltb_spec (k + 1) (levels_ C)); lia.
  - destruct (Nat.eqb_spec k 0); lia.
Qed.

Lemma has_in : forall l m, has l m = true -> In m l.
Proof. intros l m H. apply existsb_exists in H. destruct H as (x & I & E). apply Nat.eqb_eq in E. subst. exact I. Qed.
Lemma fold_zero : forall (l : list nat) (h : nat -> R) z, (forall m, In m l -> h m = 0) -> fold_left (fun s m => s + h m) l z = z.
Proof.
  induction l as [|a l IH]; intros h z H; [reflexivity|]. cbn [fold_left]. rewrite (H a) by (left; reflexivity). rewrite Rplus_0_r. apply IH. intros m I. apply H. right. exact I.
Qed.
Lemma add_zero : forall (l : list nat) (h : nat -> R), (forall m, In m l -> h m = 0) -> add_over l h = 0.
Proof. intros. apply fold_zero. assumption. Qed.

Section Matrix.
Context (off : nat) (C : column) (HO : (1 <= off)%nat) (HS : within off C).
Let n := levels_ C.

Lemma jacobian_value : forall c1 k1 c0 k0, (c1 < 3)%nat -> (c0 < 3)%nat -> (k1 <= n)%nat -> (k0 <= n)%nat -> jacobian C (number c1 k1) (number c0 k0) = entry_of C c1 k1 c0 k0.
Proof.
  clear HO HS off. intros c1 k1 c0 k0 A B K1 K0. unfold jacobian, n_. fold n.
  assert (forall c k, (c < 3)%nat -> Z.to_nat (number c k mod 3) = c /\ Z.to_nat (number c k / 3) = k) as D.
  { intros c k L. unfold number. replace (3 * Z.of_nat k + Z.of_nat c)%Z with (Z.of_nat c + Z.of_nat k * 3)%Z by lia.
    rewrite Z.mod_add, Z.div_add, Z.mod_small, Z.div_small by lia. lia. }
  destruct (D c1 k1 A) as (-> & ->). destruct (D c0 k0 B) as (-> & ->).
  assert (forall c k, (c < 3)%nat -> (k <= n)%nat -> (0 <= number c k < 3 * Z.of_nat (S n))%Z) as Q by (unfold number; lia).
  pose proof (Q c1 k1 A K1). pose proof (Q c0 k0 B K0).
  destruct (Z.leb_spec 0 (number c1 k1)); [|lia]. destruct (Z.ltb_spec (number c1 k1) (3 * Z.of_nat (S n))); [|lia].
  destruct (Z.leb_spec 0 (number c0 k0)); [|lia]. destruct (Z.ltb_spec (number c0 k0) (3 * Z.of_nat (S n))); [|lia]. reflexivity.
Qed.
Lemma level_velocity_zero : forall c k m, (k < n)%nat -> ~ ((m = k \/ m = k + 1) /\ 1 <= m < n)%nat -> (m <= n)%nat -> level_velocity C c k m = 0.
Proof.
  intros c k m K N M. unfold level_velocity, n_. fold n.
  destruct (has (columns (d_en C) k) m) eqn:E.
  - apply has_in in E. apply (so_div off C HS) in E; [|exact K].
    destruct (Nat.eqb_spec m 0), (Nat.eqb_spec m n), (Nat.leb_spec 1 m), (Nat.ltb_spec m n), (Nat.eqb_spec (k + 1) m), (Nat.eqb_spec k m), (upwinds C c); cbn [andb negb]; try lia; ring.
  - destruct (Nat.leb_spec 1 m), (Nat.ltb_spec m n), (Nat.eqb_spec (k + 1) m), (Nat.eqb_spec k m), (upwinds C c); cbn [andb negb]; try lia; ring.
Qed.
Lemma level_level_zero : forall c k q, (k < n)%nat -> ~ (q < n /\ k <= q + off /\ q <= k + off)%nat -> level_level C c k q = 0.
Proof.
  intros c k q K N. unfold level_level, n_. fold n.
  rewrite add_zero.
  - assert (has (columns (pen_l C) k) q = false) as ->. { destruct (has (columns (pen_l C) k) q) eqn:E; [|reflexivity]. apply has_in, (so_left off C HS) in E; [|exact K]. fold n in E. lia. }
    assert (has (columns (pen_r C) k) q = false) as ->. { destruct (has (columns (pen_r C) k) q) eqn:E; [|reflexivity]. apply has_in, (so_right off C HS) in E; [|exact K]. fold n in E. lia. }
    rewrite !andb_false_r. destruct (Nat.eqb_spec k q); [lia|]. ring.
  - intros m I. destruct (has (columns (i_ne C) m) q) eqn:E; [|reflexivity]. exfalso. apply N. apply has_in in E. apply (so_div off C HS) in I; [|exact K].
    apply (so_int off C HS) in E; fold n in E |- *; lia.
Qed.
Lemma velocity_level_zero : forall c i q, (i <= n)%nat -> ~ (1 <= i < n /\ q < n /\ i <= q + off /\ q < i + off)%nat -> velocity_level C c i q = 0.
Proof.
  intros c i q I N. unfold velocity_level, n_. fold n. destruct (Nat.leb_spec 1 i); [destruct (Nat.ltb_spec i n)|]; cbn [andb]; try reflexivity.
  assert (has (columns (d_ne C) i) q = false) as ->. { destruct (has (columns (d_ne C) i) q) eqn:E; [|reflexivity]. apply has_in, (so_grad off C HS) in E; fold n in E |- *; lia. }
  assert (has (columns (i_ne C) i) q = false) as ->. { destruct (has (columns (i_ne C) i) q) eqn:E; [|reflexivity]. apply has_in, (so_int off C HS) in E; fold n in E |- *; lia. }
  destruct (Nat.eqb c FP); ring.
Qed.
Lemma number_inv : forall r, (0 <= r < 3 * Z.of_nat (S n))%Z -> exists c k, (c < 3)%nat /\ (k <= n)%nat /\ r = number c k.
Proof.
  clear HO HS off. intros r L. exists (Z.to_nat (r mod 3)), (Z.to_nat (r / 3)). pose proof (Z.div_mod r 3 ltac:(lia)). pose proof (Z.mod_pos_bound r 3 ltac:(lia)).
  pose proof (Z.div_pos r 3 ltac:(lia) ltac:(lia)). unfold number. split; [lia|]. split; [|lia]. assert (r / 3 < Z.of_nat (S n))%Z by (apply Z.div_lt_upper_bound; lia). lia.
Qed.
Lemma entry_far : forall c1 k1 c0 k0, (c1 < 3)%nat -> (c0 < 3)%nat -> (k1 <= n)%nat -> (k0 <= n)%nat -> (1 <= n)%nat ->
  ~ (- (3 * Z.of_nat off + 1) <= number c1 k1 - number c0 k0 <= 3 * Z.of_nat off + 1)%Z -> entry_of C c1 k1 c0 k0 = 0.
Proof.
  intros c1 k1 c0 k0 A B K1 K0 N F. unfold entry_of, FW, n_, number in *. fold n.
  destruct (Nat.eqb_spec c1 1) as [->|N1].
  - destruct (Nat.eqb_spec c0 1) as [->|N0].
    + destruct (Nat.eqb_spec k1 k0); [lia|reflexivity].
    + apply velocity_level_zero; lia.
  - destruct (Nat.ltb_spec k1 n) as [L|L].
    + destruct (Nat.eqb_spec c0 1) as [->|N0].
      * apply level_velocity_zero; lia.
      * destruct (Nat.eqb_spec c0 c1) as [->|N01]; [|reflexivity]. apply level_level_zero; lia.
    + destruct (Nat.eqb_spec c0 c1), (Nat.eqb_spec k0 k1); cbn [andb]; try reflexivity. lia.
Qed.
End Matrix.

(** ** The matrix that BuildJacobianF builds with the operators of the grid fits in the
    band of Initialize and has the couplings which the elimination relies upon. *)
Theorem C124_jacobian : forall C order off fo so, settings order = Some (off, fo, so) -> (2 <= order)%Z -> built C off -> (1 <= levels_ C)%nat ->
  stored fo (levels_ C) (jacobian C) (band_array C fo) /\ couplings (levels_ C) off (step C) (jacobian C).
Proof.
  intros C order off fo so HST LO HB HN. destruct (settings_value _ _ _ _ HST LO) as (HO & _ & -> & _). pose proof (built_within off C HO HN HB) as HS. clear HST LO HB. split.
  - split.
    + intros r c L B. unfold band_array. remember (3 * Z.of_nat off + 1)%Z as h.
      replace (h + (r - c) + (2 * h + 1) * c)%Z with (h + (r - c) + c * (2 * h + 1))%Z by lia. cbv zeta. rewrite Z.div_add, Z.mod_add, Z.div_small, Z.mod_small by lia. f_equal; lia.
    + intros r c F. destruct (Z_lt_dec r 0) as [?|P1]; [unfold jacobian; destruct (Z.leb_spec 0 r); [lia|reflexivity]|].
      destruct (Z_lt_dec r (3 * Z.of_nat (S (levels_ C)))) as [P2|P2];
      [|unfold jacobian, n_; destruct (Z.ltb_spec r (3 * Z.of_nat (S (levels_ C)))); [lia|rewrite andb_false_r; reflexivity]].
      destruct (Z_lt_dec c 0) as [?|P3]; [unfold jacobian; destruct (Z.leb_spec 0 c); [lia|rewrite andb_false_r; reflexivity]|].
      destruct (Z_lt_dec c (3 * Z.of_nat (S (levels_ C)))) as [P4|P4];
      [|unfold jacobian, n_; destruct (Z.ltb_spec c (3 * Z.of_nat (S (levels_ C)))); [lia|rewrite andb_false_r; reflexivity]].
      destruct (number_inv C r) as (c1 & k1 & A1 & K1 & ->); [lia|]. destruct (number_inv C c) as (c0 & k0 & A0 & K0 & ->); [lia|].
      rewrite jacobian_value by assumption. apply (entry_far off C HO HS); try assumption. lia.
  - constructor.
    + intros i j I J. rewrite jacobian_value by lia. reflexivity.
    + intros c k i Hc K I N. rewrite jacobian_value by lia. unfold entry_of, FW, n_. destruct (Nat.eqb_spec c 1); [lia|]. cbn [Nat.eqb].
      destruct (Nat.ltb_spec k (levels_ C)); [apply (level_velocity_zero off C HO HS); lia|]. destruct c as [|[|c]]; [reflexivity|lia|reflexivity].
    + intros c i l Hc I L N. rewrite jacobian_value by lia. unfold entry_of, FW. cbn [Nat.eqb]. destruct (Nat.eqb_spec c 1); [lia|]. apply (velocity_level_zero off C HO HS); lia.
    + intros c c' k l Hc Hc' K L N. rewrite jacobian_value by lia. unfold entry_of, FW, n_. destruct (Nat.eqb_spec c 1); [lia|]. destruct (Nat.eqb_spec c' 1); [lia|].
      destruct (Nat.ltb_spec k (levels_ C)); [|lia]. destruct (Nat.eqb_spec c' c) as [->|]; [|reflexivity]. apply (level_level_zero off C HO HS); lia.
Qed.
Print Assumptions C124_jacobian.

(** ** The implicit step of the program at order two therefore misses the density
    equation of every level from the third on: by the thermodynamic correction of the
    level below times the flux coefficient of its lower interface. *)
Theorem C124_code : forall C off fo so gbsv f X k, settings 2 = Some (off, fo, so) -> built C off -> (2 <= levels_ C)%nat -> step C <> 0 -> f (number 1 (levels_ C)) = 0 ->
  up_p C = false ->
  (forall x, gbsv (schur (levels_ C) off fo so (step C) (band_array C fo)) (rhs_vector (levels_ C) fo (step C) (band_array C fo) f) = Some x ->
     band_solution so (2 * levels_ C) (schur (levels_ C) off fo so (step C) (band_array C fo)) (rhs_vector (levels_ C) fo (step C) (band_array C fo) f) x) ->
  correction (levels_ C) off fo so (step C) gbsv (band_array C fo) f = Some X -> (2 <= k < levels_ C)%nat ->
  product (levels_ C) (jacobian C) X (number 2 k) =
    f (number 2 k) - co (d_en C) (k - 2) (k - 1) * jac_e C (k - 1)%nat * ijac C (k - 2)%nat * con_e C (k - 1)%nat * der_e C (k - 1)%nat * p_e C (k - 1)%nat * X 0%nat (k - 1)%nat.
Proof.
  intros C off fo so gbsv f X k HST HB HN ND FN UP HG H LK.
  assert (has (columns (d_en C) (k - 2)) (k - 1) = true) as HD.
  { destruct HB as (w1 & _ & _ & _ & _ & -> & _). apply existsb_exists. exists (k - 1)%nat. rewrite Nat.eqb_refl. split; [|reflexivity]. apply in_seq. cbn [lo hi divergence_op]. lia. }
  destruct (C124_jacobian C 2 off fo so HST ltac:(lia) HB ltac:(lia)) as (ST & CO).
  rewrite (C124_refuted (levels_ C) off fo so (step C) gbsv (band_array C fo) f (jacobian C) X k HST HN ND ST CO FN HG H LK).
  rewrite jacobian_value by lia. unfold entry_of, n_. destruct (Nat.ltb_spec (k - 2) (levels_ C)); [|lia]. cbn [Nat.eqb FW].
  change (Nat.eqb 0 FW) with false. change (Nat.eqb 1 FW) with true. cbv iota. unfold level_velocity, upwinds, flux_coefficient, state_e, n_. change (Nat.eqb 0 FP) with true. cbv iota.
  rewrite UP, HD. destruct (Nat.eqb_spec (k - 1) 0); [lia|]. destruct (Nat.eqb_spec (k - 1) (levels_ C)); [lia|]. cbn [andb negb]. ring.
Qed.
Print Assumptions C124_code.

(** ** And at orders four and six it solves all the equations of the matrix. *)
Theorem C124_code_exact : forall C order off fo so gbsv f X, settings order = Some (off, fo, so) -> (4 <= order)%Z -> built C off -> (2 <= levels_ C)%nat -> step C <> 0 -> f (number 1 (levels_ C)) = 0 ->
  (forall x, gbsv (schur (levels_ C) off fo so (step C) (band_array C fo)) (rhs_vector (levels_ C) fo (step C) (band_array C fo) f) = Some x ->
     band_solution so (2 * levels_ C) (schur (levels_ C) off fo so (step C) (band_array C fo)) (rhs_vector (levels_ C) fo (step C) (band_array C fo) f) x) ->
  correction (levels_ C) off fo so (step C) gbsv (band_array C fo) f = Some X ->
  (forall c k, (c = 0 \/ c = 2)%nat -> (k < levels_ C)%nat -> product (levels_ C) (jacobian C) X (number c k) = f (number c k)) /\
  (forall i, (i <= levels_ C)%nat -> product (levels_ C) (jacobian C) X (number 1 i) = f (number 1 i)).
Proof.
  intros C order off fo so gbsv f X HST LO HB HN ND FN HG H.
  destruct (C124_jacobian C order off fo so HST ltac:(lia) HB ltac:(lia)) as (ST & CO).
  exact (C124_exact order (levels_ C) off fo so (step C) gbsv (band_array C fo) f (jacobian C) X HST LO HN ND ST CO FN HG H).
Qed.
Print Assumptions C124_code_exact.

(** a column of [n] levels with unit coefficients *)
Definition ones (_ _ : nat) : R := 1.
Definition plain_column (off n : nat) : column :=
  {| levels_ := n; step := 1; gas := 1; cv := 1;
     d_en := divergence_op (fun k m => if Nat.eqb m k then -1 else 1); d_ne := gradient_op off n ones; i_ne := interpolation_op off n ones; pen_l := left_op off n ones; pen_r := right_op off n ones;
     jac_e := fun _ => 1; ijac := fun _ => 1; con_e := fun _ => 1; der_e := fun _ => 1; der_n := fun _ => 1; xi := fun _ => 0;
     p_e := fun _ => 1; r_e := fun _ => 1; p_n := fun _ => 1; r_n := fun _ => 1; exner := fun _ => 1; dp_e := fun _ => 0; up_p := false; up_r := false |}.
Lemma plain_built : forall off n, built (plain_column off n) off.
Proof. intros. do 5 eexists. repeat split. Qed.
(** a correction of the thermodynamic variable of the second level and the right-hand
    side that belongs to it *)
Definition bump (c k : nat) : R := if (Nat.eqb c 0 && Nat.eqb k 1)%bool then 1 else 0.
Definition bump_rhs (off n : nat) (a : Z) : R :=
  if (a mod 3 =? 1)%Z then product n (jacobian (plain_column off n)) bump a else product n (spoiled off (jacobian (plain_column off n))) bump a.
Definition bump_reduced (a : Z) : R := bump (if Z.even a then 0 else 2)%nat (Z.to_nat (a / 2)).
Lemma bump_facts : forall order off fo so n, settings order = Some (off, fo, so) -> (2 <= order)%Z -> (2 <= n)%nat ->
  let C := plain_column off n in bump_rhs off n (number 1 n) = 0 /\
  band_solution so (2 * n) (schur n off fo so 1 (band_array C fo)) (rhs_vector n fo 1 (band_array C fo) (bump_rhs off n)) bump_reduced /\
  back n off fo 1 (band_array C fo) (bump_rhs off n) bump_reduced 0 1 = 1.
Proof.
  intros order off fo so n HST LO HN C. destruct (C124_jacobian C order off fo so HST LO (plain_built off n) ltac:(cbn; lia)) as (ST & CO). change (levels_ C) with n in *. change (step C) with 1 in *.
  assert (forall c k, (c < 3)%nat -> (number c k mod 3)%Z = Z.of_nat c) as M.
  { intros c k L. unfold number. replace (3 * Z.of_nat k + Z.of_nat c)%Z with (Z.of_nat c + Z.of_nat k * 3)%Z by lia. rewrite Z.mod_add, Z.mod_small; lia. }
  assert (forall c k, (c = 0 \/ c = 2)%nat -> (k < n)%nat -> product n (spoiled off (jacobian C)) bump (number c k) = bump_rhs off n (number c k)) as E1.
  { intros c k Hc K. unfold bump_rhs. rewrite M by lia. destruct (Z.eqb_spec (Z.of_nat c) 1); [lia|reflexivity]. }
  assert (forall i, (i <= n)%nat -> product n (jacobian C) bump (number 1 i) = bump_rhs off n (number 1 i)) as E2.
  { intros i I. unfold bump_rhs. rewrite M by lia. reflexivity. }
  destruct (C124_complete order n off fo so 1 (band_array C fo) (bump_rhs off n) (jacobian C) bump HST LO HN ltac:(lra) ST CO E1 E2) as (B & BL & BW). fold bump_reduced in B, BL, BW.
  split; [|split; [exact B|rewrite BL by lia; reflexivity]].
  rewrite <- E2 by lia. unfold product. rewrite (sum_ext _ _ (fun _ => 0)); [apply sum_zero|]. intros k K. unfold bump. cbn [Nat.eqb andb].
  destruct (Nat.eqb_spec k 1) as [->|]; [|ring]. rewrite (gradients _ _ _ _ CO) by lia. ring.
Qed.
(** the hypotheses hold in a column of five levels, which is accepted, and the correction
    returned misses the density equation of the third level *)
Example C124_case : exists off fo so X, let C := plain_column off 5 in settings 2 = Some (off, fo, so) /\ bump_rhs off 5 (number 1 5) = 0 /\
  band_solution so (2 * 5) (schur 5 off fo so 1 (band_array C fo)) (rhs_vector 5 fo 1 (band_array C fo) (bump_rhs off 5)) bump_reduced /\
  correction 5 off fo so 1 (fun _ _ => Some bump_reduced) (band_array C fo) (bump_rhs off 5) = Some X /\ product 5 (jacobian C) X (number 2 2) <> bump_rhs off 5 (number 2 2).
Proof.
  exists 1%nat, 4%Z, 3%Z, (back 5 1 4 1 (band_array (plain_column 1 5) 4) (bump_rhs 1 5) bump_reduced). cbv zeta.
  destruct (bump_facts 2 1 4 3 5 eq_refl ltac:(lia) ltac:(lia)) as (F5 & B & V).
  split; [reflexivity|]. split; [exact F5|]. split; [exact B|]. split; [reflexivity|].
  pose proof (C124_code (plain_column 1 5) 1 4 3 (fun _ _ => Some bump_reduced) (bump_rhs 1 5) (back 5 1 4 1 (band_array (plain_column 1 5) 4) (bump_rhs 1 5) bump_reduced) 2 eq_refl (plain_built 1 5)) as T.
  change (levels_ (plain_column 1 5)) with 5%nat in T. change (step (plain_column 1 5)) with 1 in T.
  rewrite T; try reflexivity; try lia; try lra; try exact F5.
  - cbn [Nat.sub]. rewrite V. cbn. lra.
  - intros x' E. injection E as <-. exact B.
Qed.
(** a column of eight levels at order four *)
Example C124_exact_case : exists off fo so X, let C := plain_column off 8 in settings 4 = Some (off, fo, so) /\ bump_rhs off 8 (number 1 8) = 0 /\
  band_solution so (2 * 8) (schur 8 off fo so 1 (band_array C fo)) (rhs_vector 8 fo 1 (band_array C fo) (bump_rhs off 8)) bump_reduced /\
  correction 8 off fo so 1 (fun _ _ => Some bump_reduced) (band_array C fo) (bump_rhs off 8) = Some X /\ X 0%nat 1%nat = 1.
Proof.
  exists 2%nat, 7%Z, 5%Z, (back 8 2 7 1 (band_array (plain_column 2 8) 7) (bump_rhs 2 8) bump_reduced). cbv zeta.
  destruct (bump_facts 4 2 7 5 8 eq_refl ltac:(lia) ltac:(lia)) as (F5 & B & V).
  split; [reflexivity|]. split; [exact F5|]. split; [exact B|]. split; [reflexivity|]. exact V.
Qed.

(** ** C125: the copies on shared nodes *)
Lemma site_eqb_spec : forall p q, reflect (p = q) (site_eqb p q).
Proof.
  intros [[a b] r] [[a' b'] r']. unfold site_eqb. destruct (Nat.eqb_spec a a'), (Nat.eqb_spec b b'), (Nat.eqb_spec r r'); cbn [andb]; constructor; congruence.
Qed.
Lemma fold_none : forall P ms, fold_left (move P) ms None = None.
Proof. induction ms; [reflexivity|]. cbn [fold_left move]. exact IHms. Qed.
(** a target all of whose assignments have the same source, which is never assigned *)
Lemma moved : forall P ms d d' t s, fold_left (move P) ms (Some d) = Some d' -> (forall m, In m ms -> fst m = t -> snd m = s) -> (forall m, In m ms -> fst m <> s) ->
  d' s = d s /\ (In t (map fst ms) -> d' t = d s) /\ (~ In t (map fst ms) -> d' t = d t).
Proof.
  induction ms as [|m ms IH]; intros d d' t s H HT HSr.
  - injection H as <-. cbn [map In]. tauto.
  - cbn [fold_left] in H. unfold move at 2 in H. destruct (inside P (fst m) && inside P (snd m))%bool; [|rewrite fold_none in H; discriminate].
    apply (IH _ _ t s) in H; [|intros; apply HT; [right|]; assumption|intros; apply HSr; right; assumption]. destruct H as (H1 & H2 & H3). cbn [map In].
    assert ((if site_eqb s (fst m) then d (snd m) else d s) = d s) as Es. { destruct (site_eqb_spec s (fst m)) as [E|]; [|reflexivity]. exfalso. apply (HSr m (or_introl eq_refl)). congruence. }
    rewrite Es in H1, H2. split; [exact H1|]. split.
    + intros [E|I]; [|exact (H2 I)]. destruct (in_dec (fun p q => match site_eqb_spec p q with ReflectT _ e => left e | ReflectF _ e => right e end) t (map fst ms)) as [I|I]; [exact (H2 I)|].
      rewrite (H3 I). destruct (site_eqb_spec t (fst m)) as [_|N]; [|congruence]. f_equal. apply HT; [left; reflexivity|exact E].
    + intros N. rewrite H3 by tauto. destruct (site_eqb_spec t (fst m)) as [E|_]; [exfalso; apply N; left; congruence|reflexivity].
Qed.
Lemma unmoved : forall P ms d d' t, fold_left (move P) ms (Some d) = Some d' -> ~ In t (map fst ms) -> d' t = d t.
Proof.
  induction ms as [|m ms IH]; intros d d' t H N; [injection H as <-; reflexivity|]. cbn [map In] in N. cbn [fold_left] in H. unfold move at 2 in H.
  destruct (inside P (fst m) && inside P (snd m))%bool; [|rewrite fold_none in H; discriminate]. rewrite (IH _ _ t H) by tauto.
  destruct (site_eqb_spec t (fst m)) as [E|_]; [exfalso; apply N; left; congruence|reflexivity].
Qed.
Lemma in_alpha : forall P m, In m (moves_alpha P) <-> exists a b j k, (1 <= a < ea P /\ b < eb P /\ j < (if Nat.eqb b (eb P - 1) then order_h P else order_h P - 1) /\ k < nr P)%nat /\
  m = ((a0 P + a * order_h P - 1, b0 P + b * order_h P + j, k), (k, a0 P + a * order_h P - 1 + 1, b0 P + b * order_h P + j))%nat.
Proof.
  intros P m. unfold moves_alpha. cbv zeta. split.
  - intros H. apply in_flat_map in H. destruct H as (a & A & H). apply in_flat_map in H. destruct H as (b & B & H). apply in_flat_map in H. destruct H as (j & J & H). apply in_map_iff in H. destruct H as (k & <- & K).
    apply in_seq in A, B, J, K. exists a, b, j, k. split; [lia|reflexivity].
  - intros (a & b & j & k & (A & B & J & K) & ->). apply in_flat_map. exists a. split; [apply in_seq; lia|]. apply in_flat_map. exists b. split; [apply in_seq; lia|].
    apply in_flat_map. exists j. split; [apply in_seq; lia|]. apply in_map_iff. exists k. split; [reflexivity|apply in_seq; lia].
Qed.
Lemma in_beta : forall P m, In m (moves_beta P) <-> exists b i k, (1 <= b < eb P /\ a0 P <= i < a0 P + ea P * order_h P /\ k < nr P)%nat /\
  m = ((k, i, b0 P + b * order_h P - 1), (k, i, b0 P + b * order_h P - 1 + 1))%nat.
Proof.
  intros P m. unfold moves_beta. cbv zeta. split.
  - intros H. apply in_flat_map in H. destruct H as (b & B & H). apply in_flat_map in H. destruct H as (i & I & H). apply in_map_iff in H. destruct H as (k & <- & K).
    apply in_seq in B, I, K. exists b, i, k. split; [lia|reflexivity].
  - intros (b & i & k & (B & I & K) & ->). apply in_flat_map. exists b. split; [apply in_seq; lia|]. apply in_flat_map. exists i. split; [apply in_seq; lia|].
    apply in_map_iff. exists k. split; [reflexivity|apply in_seq; lia].
Qed.
Lemma inside_fails : forall P ms m d, In m ms -> (inside P (fst m) && inside P (snd m))%bool = false -> fold_left (move P) ms (Some d) = None.
Proof.
  induction ms as [|q ms IH]; intros m d I F; [destruct I|]. cbn [fold_left]. unfold move at 2. destruct (inside P (fst q) && inside P (snd q))%bool eqn:E; [|apply fold_none].
  destruct I as [->|I]; [congruence|]. exact (IH m _ I F).
Qed.

(** ** After the step the two values at a node which two elements share differ in
    general: the copy takes the value of another node at another level. *)
Theorem C125_refuted : forall P d d', (2 <= ea P)%nat -> (1 <= eb P)%nat -> (2 <= order_h P)%nat -> (1 <= nr P)%nat -> (1 <= a0 P)%nat -> (1 <= b0 P)%nat ->
  copies P d = Some d' ->
  let '(l, r) := shared (a0 P) (order_h P) 0 in d' (l, b0 P, 0%nat) = d (0, r, b0 P)%nat /\ d' (r, b0 P, 0%nat) = d (r, b0 P, 0%nat).
Proof.
  intros P d d' EA EB OH NR A0 B0 H. unfold shared. cbn [Nat.add]. rewrite Nat.mul_1_l. unfold copies in H.
  assert (forall m, In m (moves_alpha P ++ moves_beta P) -> fst m <> (0, a0 P + order_h P, b0 P)%nat) as NS.
  { intros m I. apply in_app_iff in I. destruct I as [I|I].
    - apply in_alpha in I. destruct I as (a & b & j & k & (A & B & J & K) & ->). cbn [fst]. intros E. injection E as E1 E2 E3. clear - E1 A OH A0. nia.
    - apply in_beta in I. destruct I as (b & i & k & (B & I & K) & ->). cbn [fst]. intros E. injection E as E1 E2 E3. clear - E3 B OH B0. nia. }
  split.
  - apply (moved P _ d d' (a0 P + order_h P - 1, b0 P, 0)%nat (0, a0 P + order_h P, b0 P)%nat) in H; [|intros m I E|exact NS].
    + destruct H as (_ & H & _). apply H. apply in_map_iff.
      exists ((a0 P + 1 * order_h P - 1, b0 P + 0 * order_h P + 0, 0), (0, a0 P + 1 * order_h P - 1 + 1, b0 P + 0 * order_h P + 0))%nat. split.
      * cbn [fst]. rewrite Nat.mul_1_l, Nat.mul_0_l, !Nat.add_0_r. reflexivity.
      * apply in_app_iff. left. apply in_alpha. exists 1%nat, 0%nat, 0%nat, 0%nat. split; [|reflexivity]. destruct (Nat.eqb 0 (eb P - 1)); lia.
    + apply in_app_iff in I. destruct I as [I|I].
      * apply in_alpha in I. destruct I as (a & b & j & k & (A & B & J & K) & ->). cbn [fst snd] in *. injection E as E1 E2 E3.
        assert (a = 1)%nat as -> by (clear - E1 A OH A0; nia). assert (b * order_h P + j = 0)%nat by lia. f_equal; [f_equal|]; lia.
      * apply in_beta in I. destruct I as (b & i & k & (B & I & K) & ->). cbn [fst] in E. injection E as E1 E2 E3. clear - E3 B OH B0. exfalso. nia.
  - apply (moved P _ d d' (a0 P + order_h P, b0 P, 0)%nat (0, a0 P + order_h P, b0 P)%nat) in H; [|intros m I E|exact NS].
    + destruct H as (_ & _ & H). apply H. intros I. apply in_map_iff in I. destruct I as (m & E & I). apply in_app_iff in I. destruct I as [I|I].
      * apply in_alpha in I. destruct I as (a & b & j & k & (A & B & J & K) & ->). cbn [fst] in E. injection E as E1 E2 E3. clear - E1 A OH A0. destruct a as [|[|a]]; nia.
      * apply in_beta in I. destruct I as (b & i & k & (B & I & K) & ->). cbn [fst] in E. injection E as E1 E2 E3. clear - E3 B OH B0. nia.
    + exfalso. apply in_app_iff in I. destruct I as [I|I].
      * apply in_alpha in I. destruct I as (a & b & j & k & (A & B & J & K) & ->). cbn [fst] in E. injection E as E1 E2 E3. clear - E1 A OH A0. destruct a as [|[|a]]; nia.
      * apply in_beta in I. destruct I as (b & i & k & (B & I & K) & ->). cbn [fst] in E. injection E as E1 E2 E3. clear - E3 B OH B0. nia.
Qed.
Print Assumptions C125_refuted.

(** ** In particular the copies disturb a state that agrees everywhere: one that depends
    on the level only. *)
Theorem C125_uniform_refuted : forall P d d' h, (2 <= ea P)%nat -> (1 <= eb P)%nat -> (2 <= order_h P)%nat -> (1 <= nr P)%nat -> (1 <= a0 P)%nat -> (1 <= b0 P)%nat ->
  copies P d = Some d' -> horizontally_uniform d h -> h (b0 P) <> h 0%nat -> ~ horizontally_uniform d' h.
Proof.
  intros P d d' h EA EB OH NR A0 B0 H U N U'. pose proof (C125_refuted P d d' EA EB OH NR A0 B0 H) as T. unfold shared in T. destruct T as (T & _).
  rewrite U', U in T. congruence.
Qed.
Print Assumptions C125_uniform_refuted.

(** ** With a single element along alpha only the second loop acts: it leaves the shared
    nodes as they are and moves levels of the first columns of the array down. *)
Theorem C125_beta : forall P d d' a b r, ea P = 1%nat -> (2 <= order_h P)%nat -> (1 <= b0 P)%nat -> copies P d = Some d' ->
  d' (a, b, r) = if (Nat.ltb a (nr P) && Nat.leb (a0 P) b && Nat.ltb b (a0 P + order_h P) && existsb (fun e => Nat.eqb r (fst (shared (b0 P) (order_h P) e))) (seq 0 (eb P - 1)))%bool
                 then d (a, b, r + 1)%nat else d (a, b, r).
Proof.
  intros P d d' a b r EA OH B0 H. unfold copies in H.
  assert (moves_alpha P = []) as NA by (unfold moves_alpha; rewrite EA; reflexivity). rewrite NA in H. cbn [app] in H.
  match goal with |- _ = if ?c then _ else _ => destruct c eqn:E end.
  - apply andb_prop in E. destruct E as (E & E4). apply andb_prop in E. destruct E as (E & E3). apply andb_prop in E. destruct E as (E1 & E2).
    apply Nat.ltb_lt in E1, E3. apply Nat.leb_le in E2. apply existsb_exists in E4. destruct E4 as (e & Ie & E4). apply Nat.eqb_eq in E4. apply in_seq in Ie. unfold shared in E4. cbn [fst] in E4. subst r.
    apply (moved P _ d d' (a, b, b0 P + (e + 1) * order_h P - 1)%nat (a, b, b0 P + (e + 1) * order_h P - 1 + 1)%nat) in H.
    + destruct H as (_ & H & _). apply H. apply in_map_iff. eexists. split; [|apply in_beta; exists (e + 1)%nat, b, a; split; [rewrite EA; lia|reflexivity]]. reflexivity.
    + intros m I E. apply in_beta in I. destruct I as (b' & i & k & (B & I & K) & ->). cbn [fst snd] in *. injection E as -> -> E. rewrite E. reflexivity.
    + intros m I E. apply in_beta in I. destruct I as (b' & i & k & (B & I & K) & ->). cbn [fst] in E. injection E as E5 E6 E7. clear - E7 OH B0 B. assert (b' * order_h P = (e + 1) * order_h P + 1)%nat as Q by nia.
      assert (b' <= e + 1 \/ e + 2 <= b')%nat as [L|L] by lia; nia.
  - apply (unmoved P _ _ _ (a, b, r) H). intros I. apply in_map_iff in I. destruct I as (m & Q & I). apply in_beta in I. destruct I as (b' & i & k & (B & I & K) & ->). cbn [fst] in Q. injection Q as -> -> <-.
    revert E. apply not_false_iff_true. rewrite !andb_true_iff. rewrite EA in I. rewrite Nat.ltb_lt, Nat.leb_le, Nat.ltb_lt. repeat split; try lia.
    apply existsb_exists. exists (b' - 1)%nat. split; [apply in_seq; lia|]. unfold shared. cbn [fst]. apply Nat.eqb_eq. replace (b' - 1 + 1)%nat with b' by lia. reflexivity.
Qed.
Print Assumptions C125_beta.

(** ** The copies leave the array on patches with no more levels than nodes across. *)
Theorem C125_outside : forall P d, (2 <= ea P)%nat -> (1 <= eb P)%nat -> (1 <= order_h P)%nat -> (1 <= nr P)%nat -> (nr P < b0 P + eb P * order_h P)%nat -> copies P d = None.
Proof.
  intros P d EA EB OH NR L. unfold copies.
  apply (inside_fails P _ ((a0 P + 1 * order_h P - 1, b0 P + (eb P - 1) * order_h P + (order_h P - 1), 0), (0, a0 P + 1 * order_h P - 1 + 1, b0 P + (eb P - 1) * order_h P + (order_h P - 1)))%nat).
  - apply in_app_iff. left. apply in_alpha. exists 1%nat, (eb P - 1)%nat, (order_h P - 1)%nat, 0%nat. split; [|reflexivity]. rewrite Nat.eqb_refl. lia.
  - cbn [fst snd inside]. destruct (Nat.ltb_spec (b0 P + (eb P - 1) * order_h P + (order_h P - 1)) (nr P)) as [Q|Q]; [|rewrite !andb_false_r; reflexivity].
    exfalso. replace (eb P) with (S (eb P - 1)) in L by lia. cbn [Nat.mul] in L. lia.
Qed.
Print Assumptions C125_outside.

(** ** What is left of the claim: with one element in either direction nothing is copied,
    and a field with one value keeps it. *)
Theorem C125_single : forall P d, ea P = 1%nat -> eb P = 1%nat -> copies P d = Some d.
Proof. intros P d A B. unfold copies, moves_alpha, moves_beta. rewrite A, B. reflexivity. Qed.
Print Assumptions C125_single.
Theorem C125_constant : forall P d d' v, (forall p, d p = v) -> copies P d = Some d' -> forall p, d' p = v.
Proof.
  intros P d d' v U. unfold copies. generalize (moves_alpha P ++ moves_beta P). intros ms. revert d U. induction ms as [|m ms IH]; intros d U H p.
  - injection H as <-. apply U.
  - cbn [fold_left] in H. unfold move at 2 in H. destruct (inside P (fst m) && inside P (snd m))%bool; [|rewrite fold_none in H; discriminate].
    apply (fun U' => IH _ U' H p). intros q. destruct (site_eqb q (fst m)); apply U.
Qed.
Print Assumptions C125_constant.

(** a patch of two by one elements of two nodes with five levels *)
Example C125_case : exists P d d', (2 <= ea P)%nat /\ (2 <= order_h P)%nat /\ (1 <= a0 P)%nat /\ (1 <= b0 P)%nat /\ copies P d = Some d' /\ horizontally_uniform d INR /\ ~ horizontally_uniform d' INR.
Proof.
  set (P := Patch 1 1 2 1 2 6 4 5). set (d := fun p : site => let '(a, b, r) := p in INR r).
  destruct (copies P d) as [d'|] eqn:E; [|vm_compute in E; discriminate].
  exists P, d, d'. do 5 (split; [cbn; try lia; try exact E|]). split; [intros a b r; reflexivity|].
  apply (C125_uniform_refuted P d d' INR); cbn; try lia; try lra; [exact E|intros a b r; reflexivity].
Qed.
