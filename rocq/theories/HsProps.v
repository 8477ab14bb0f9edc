(** * The implicit step of HighSpeedDynamics in a column: theorems *)
From Coq Require Import ZArith Reals List Bool Lia Lra.
From Verif Require Import ShallowSpec ShallowModel ShallowProofs HsModel HsSpec HsProofs.
From Verif Require PhysModel.
Import ListNotations.
Local Open Scope R_scope.

(** layers and the distances of levels are not zero *)
Definition layered (N : nat) (X : hcol) : Prop :=
  (forall k, (k < N)%nat -> zi X (S k) - zi X k <> 0) /\ (forall k, (S k < N)%nat -> zn X (S k) - zn X k <> 0).
(** the entry of m_dA that no loop fills still holds the zero of Allocate; dgtsv has
    no business there *)
Definition lid_clean (N : nat) (X : hcol) : Prop := N <> 1%nat -> oldA X (N - 1)%nat = 0.
(** the combination is the argument itself, as in every call of the scheme *)
Definition copies (N : nat) (X : hcol) (u : hvec) : Prop :=
  forall k, (k < N)%nat -> cP u k = aP X k /\ cR u k = aR X k /\ cW u k = aW X k.

(** whatever solves the tridiagonal system is one backward Euler step of the linearised
    equations, and the other way round *)
Theorem C91_backward : forall c N dt X u o x, (0 < N)%nat -> dt <> 0 -> layered N X -> lid_clean N X -> copies N X u ->
  let s := himplicit N dt X u o x in
  (solves (N + 1) (arr_a c N dt X) (arr_b c N dt X) (arr_c c N dt X) (arr_d c N dt X) x <->
   acoustic N (zn X) (zi X) (PhysModel.g c) dt (hp c X) (hdp c X) (hth N X) (aR X) (aP X) (aW X) (cR s) (cP s) x) /\
  cW s O = 0 /\ (forall k, (0 < k < N)%nat -> cW s k = x k).
Proof.
  intros c N dt X u o x HN Hdt [Lz Ln] A C s.
  assert (LR : forall k, (k < N)%nat -> cR s k = aR X k + - dt * (inv_dz X k * (x (k + 1)%nat - x k))).
  { intros k Hk. unfold s, himplicit. cbn [cR]. apply Nat.ltb_lt in Hk as Hk'. rewrite Hk'.
    destruct (C k Hk) as (_ & -> & _). reflexivity. }
  assert (LP : forall k, (k < N)%nat -> cP s k = aP X k + - dt * (inv_dz X k * (x (k + 1)%nat * hth N X (k + 1) - x k * hth N X k))).
  { intros k Hk. unfold s, himplicit. cbn [cP]. apply Nat.ltb_lt in Hk as Hk'. rewrite Hk'.
    destruct (C k Hk) as (-> & _ & _). reflexivity. }
  split; [|split].
  2:{ unfold s, himplicit. cbn [cW]. apply Nat.ltb_lt in HN. rewrite HN. reflexivity. }
  2:{ intros k Hk. unfold s, himplicit. cbn [cW]. destruct (C k ltac:(lia)) as (_ & _ & E).
      replace (Nat.ltb k N) with true by (symmetry; apply Nat.ltb_lt; lia).
      destruct (Nat.eqb_spec k 0); [lia|]. rewrite E. lra. }
  rewrite system_rows by exact HN.
  assert (T : (if Nat.eqb N 1 then 0 else oldA X (N - 1)%nat * x (N - 1)%nat) = 0).
  { destruct (Nat.eqb_spec N 1); [reflexivity|]. rewrite A by assumption. lra. }
  rewrite T. unfold acoustic.
  assert (Row : forall k, (S k < N)%nat ->
    (row_a c N dt X (S k) * x k + row_b c N dt X (S k) * x (S k) + row_c c N dt X (S k) * x (S (S k)) = row_d c dt X (S k) <->
     (x (S k) - aW X (S k)) / dt =
     - ((hp c X (S k) + hdp c X (S k) * (cP s (S k) - aP X (S k))) - (hp c X k + hdp c X k * (cP s k - aP X k))) / (zn X (S k) - zn X k)
     - PhysModel.g c * ((cR s k + cR s (S k)) / 2))).
  { intros k Hk. rewrite !LR, !LP by lia. unfold row_a, row_b, row_c, row_d, hre, inv_hat.
    rewrite !Nat.sub_succ, !Nat.sub_0_r, !Nat.add_1_r.
    generalize (hp c X (S k)) (hp c X k) (hdp c X (S k)) (hdp c X k) (hth N X k) (hth N X (S k)) (hth N X (S (S k)))
      (inv_dz X k) (inv_dz X (S k)) (PhysModel.g c).
    intros p1 p0 q1 q0 t0 t1 t2 i0 i1 g.
    assert (Z : zn X (S k) - zn X k <> 0) by (apply Ln; lia).
    generalize dependent (zn X (S k) - zn X k). intros dz Z.
    split; intro E.
    - apply (Rmult_eq_reg_l dt); [|exact Hdt]. 
      replace (dt * ((x (S k) - aW X (S k)) / dt)) with (x (S k) - aW X (S k)) by (field; exact Hdt).
      apply (Rplus_eq_reg_r (- x (S k) + aW X (S k))).
      match type of E with ?l = ?r => transitivity (r - l); [rewrite E; ring|field; exact Z] end.
    - apply (f_equal (fun v => dt * v)) in E.
      replace (dt * ((x (S k) - aW X (S k)) / dt)) with (x (S k) - aW X (S k)) in E by (field; exact Hdt).
      apply Rminus_diag_uniq.
      match type of E with ?l = ?r => transitivity (l - r); [field; exact Z|rewrite E; ring] end. }
  split.
  - intros (H0 & H1 & H). split; [exact H0|]. split; [lra|]. split; [|split].
    + intros k Hk. rewrite LR by exact Hk. unfold inv_dz. rewrite !Nat.add_1_r. field. split; [apply Lz; exact Hk|exact Hdt].
    + intros k Hk. rewrite LP by exact Hk. unfold inv_dz. rewrite !Nat.add_1_r. field. split; [apply Lz; exact Hk|exact Hdt].
    + intros k Hk. apply (proj1 (Row k Hk)). specialize (H (S k) ltac:(lia)).
      rewrite Nat.sub_succ, Nat.sub_0_r, Nat.add_1_r in H. exact H.
  - intros (H0 & H1 & _ & _ & H). split; [exact H0|]. split; [lra|]. intros [|k] Hk; [lia|].
    rewrite Nat.sub_succ, Nat.sub_0_r, Nat.add_1_r. apply (proj2 (Row k ltac:(lia))). apply H. lia.
Qed.
Print Assumptions C91_backward.

(** the slope is the derivative of the equation of state, and the potential temperature
    that is advected is the mean of rho theta over the mean of rho *)
Theorem C91_slope : forall c N X k, 0 < aP X k ->
  derivable_pt_lim (PhysModel.pressure_from_rhotheta c) (aP X k) (hdp c X k) /\
  hp c X k = PhysModel.pressure_from_rhotheta c (aP X k) /\
  ((1 <= k < N)%nat -> aR X k + aR X (k - 1)%nat <> 0 ->
   hth N X k * ((aR X k + aR X (k - 1)%nat) / 2) = (aP X k + aP X (k - 1)%nat) / 2).
Proof.
  intros c N X k P. split; [|split; [reflexivity|]].
  - unfold hdp, hp, PhysModel.pressure_from_rhotheta.
    replace (PhysModel.scaling c * exp (ln (aP X k) * PhysModel.gamma c) * PhysModel.gamma c / aP X k)
      with (PhysModel.scaling c * (exp (ln (aP X k) * PhysModel.gamma c) * (/ aP X k * PhysModel.gamma c))) by (field; lra).
    apply (derivable_pt_lim_scal (fun t => exp (ln t * PhysModel.gamma c)) (PhysModel.scaling c)).
    apply (derivable_pt_lim_comp (fun t => ln t * PhysModel.gamma c) exp); [|apply derivable_pt_lim_exp].
    replace (/ aP X k * PhysModel.gamma c) with (/ aP X k * PhysModel.gamma c + ln (aP X k) * 0) by ring.
    apply (derivable_pt_lim_mult ln (fun _ => PhysModel.gamma c)); [apply derivable_pt_lim_ln; exact P|apply derivable_pt_lim_const].
  - intros Hk E. unfold hth. rewrite inner_in by exact Hk. unfold hre. field. exact E.
Qed.
Print Assumptions C91_slope.

(** the column keeps its mass and its rho theta *)
Theorem C92_column : forall c N dt X u o x, (0 < N)%nat -> layered N X -> lid_clean N X ->
  solves (N + 1) (arr_a c N dt X) (arr_b c N dt X) (arr_c c N dt X) (arr_d c N dt X) x ->
  let s := himplicit N dt X u o x in
  column_total N (zi X) (cR s) = column_total N (zi X) (cR u) /\
  column_total N (zi X) (cP s) = column_total N (zi X) (cP u).
Proof.
  intros c N dt X u o x HN [Lz _] A H s. apply system_rows in H as (H0 & H1 & _); [|exact HN].
  assert (E : x N = 0).
  { destruct (Nat.eqb_spec N 1); [lra|]. rewrite (A n) in H1. lra. }
  unfold column_total. split.
  - rewrite (nsum_ext N _ (fun k => (zi X (S k) - zi X k) * cR u k + (zi X (S k) - zi X k) * (- dt * (1 / (zi X (k + 1)%nat - zi X k) * (x (k + 1)%nat - x k))))).
    + rewrite nsum_plus, flux_total by exact Lz. rewrite E, H0. lra.
    + intros k Hk. unfold s, himplicit. cbn [cR]. apply Nat.ltb_lt in Hk. rewrite Hk. unfold inv_dz. ring.
  - rewrite (nsum_ext N _ (fun k => (zi X (S k) - zi X k) * cP u k + (zi X (S k) - zi X k) * (- dt * (1 / (zi X (k + 1)%nat - zi X k) * ((fun l => x l * hth N X l) (k + 1)%nat - (fun l => x l * hth N X l) k))))).
    + rewrite nsum_plus, (flux_total N (zi X) (fun l => x l * hth N X l)) by exact Lz. cbv beta. rewrite E, H0. lra.
    + intros k Hk. unfold s, himplicit. cbn [cP]. apply Nat.ltb_lt in Hk. rewrite Hk. unfold inv_dz. ring.
Qed.
Print Assumptions C92_column.

(** the entry of m_dA that is never filled decides: with anything else there, mass
    passes through the lid in proportion to it *)
Theorem C92_leak : forall c N dt X u o x, (1 < N)%nat -> layered N X ->
  solves (N + 1) (arr_a c N dt X) (arr_b c N dt X) (arr_c c N dt X) (arr_d c N dt X) x ->
  column_total N (zi X) (cR (himplicit N dt X u o x)) = column_total N (zi X) (cR u) + dt * oldA X (N - 1)%nat * x (N - 1)%nat.
Proof.
  intros c N dt X u o x HN [Lz _] H. apply system_rows in H as (H0 & H1 & _); [|lia].
  destruct (Nat.eqb_spec N 1); [lia|].
  unfold column_total.
  rewrite (nsum_ext N _ (fun k => (zi X (S k) - zi X k) * cR u k + (zi X (S k) - zi X k) * (- dt * (1 / (zi X (k + 1)%nat - zi X k) * (x (k + 1)%nat - x k))))).
  - rewrite nsum_plus, flux_total by exact Lz. replace (x N) with (- (oldA X (N - 1)%nat * x (N - 1)%nat)) by lra. rewrite H0. lra.
  - intros k Hk. unfold himplicit. cbn [cR]. apply Nat.ltb_lt in Hk. rewrite Hk. unfold inv_dz. ring.
Qed.
Print Assumptions C92_leak.

(** the elimination of the vector variant solves the system that dgtsv is given *)
Theorem C93_elimination : forall c N dt X l, (0 < N)%nat -> lid_clean N X ->
  thomas N (vec_a c N dt X) (arr_b c N dt X) (arr_c c N dt X) (arr_d c N dt X) = Some l ->
  length l = S N /\
  solves (N + 1) (arr_a c N dt X) (arr_b c N dt X) (arr_c c N dt X) (arr_d c N dt X) (fun k => nth k l 0).
Proof.
  intros c N dt X l HN A H. unfold thomas in H. split; [exact (backward_length _ _ _ _ _ _ _ H)|].
  destruct (backward_nth _ _ _ _ _ _ _ H (Nat.le_refl N)) as [E I]. rewrite Nat.sub_diag in I.
  pose proof (forward_rows _ _ _ _ (fun k => nth k l 0) N I) as Row. cbv beta in Row.
  apply system_rows; [exact HN|]. split; [|split].
  - specialize (Row 0%nat HN). cbn [Nat.eqb] in Row. unfold arr_b, arr_c, arr_d in Row. rewrite (inner_out N 0) in Row by lia. lra.
  - rewrite E. unfold arr_d. rewrite inner_out by lia.
    destruct (Nat.eqb_spec N 1); [lra|]. rewrite (A n). lra.
  - intros k Hk. specialize (Row k ltac:(lia)). destruct (Nat.eqb_spec k 0); [lia|].
    unfold vec_a, arr_b, arr_c, arr_d in Row. rewrite (inner_in N k) in Row by lia.
    rewrite Nat.add_1_r. exact Row.
Qed.
Print Assumptions C93_elimination.

(** for small steps the system has exactly one solution, and the elimination finds it *)
Theorem C93_small : forall c N X, (0 < N)%nat -> lid_clean N X -> exists e, 0 < e /\ forall dt, dt * dt < e ->
  exists l, thomas N (vec_a c N dt X) (arr_b c N dt X) (arr_c c N dt X) (arr_d c N dt X) = Some l /\
  forall x, solves (N + 1) (arr_a c N dt X) (arr_b c N dt X) (arr_c c N dt X) (arr_d c N dt X) x <->
            forall k, (k <= N)%nat -> x k = nth k l 0.
Proof.
  intros c N X HN A. exists (/ (1 + nsum N (weight c N X))). split.
  { apply Rinv_0_lt_compat. assert (0 <= nsum N (weight c N X)); [|lra].
    generalize N at 1. intro n. induction n as [|n IH]; cbn [nsum]; [lra|]. pose proof (weight_pos c N X n). lra. }
  intros dt Hs. pose proof (small_dominant c N X dt Hs) as D.
  assert (D' : dominant N (vec_a c N dt X) (arr_b c N dt X) (arr_c c N dt X)).
  { intros k Hk. unfold vec_a, arr_b, arr_c. rewrite inner_in by lia. apply D. exact Hk. }
  assert (F : forall k, (k < N)%nat -> exists t, forward (vec_a c N dt X) (arr_b c N dt X) (arr_c c N dt X) (arr_d c N dt X) k = Some t).
  { intros k Hk. destruct (forward_dominant (vec_a c N dt X) (arr_b c N dt X) (arr_c c N dt X) (arr_d c N dt X) N) with (k := k) as (c' & d' & E & _); eauto. }
  destruct (backward_some (vec_a c N dt X) (arr_b c N dt X) (arr_c c N dt X) (arr_d c N dt X) N F N (Nat.le_refl N)) as [l E]. exists l. split; [exact E|].
  destruct (C93_elimination c N dt X l HN A E) as [_ S].
  intro x. split.
  - intros H k Hk. apply system_rows in H as (H0 & H1 & H); [|exact HN]. apply system_rows in S as (S0 & S1 & S); [|exact HN].
    cut (x k - nth k l 0 = 0); [lra|].
    apply (dominant_null N _ _ _ (fun k => x k - nth k l 0) D); [lra| |  |exact Hk].
    + destruct (Nat.eqb_spec N 1); [lra|]. rewrite (A n) in H1, S1. lra.
    + intros i Hi. cbv beta. specialize (H i Hi). specialize (S i Hi). cbv beta in S. lra.
  - intros H i Hi. specialize (S i Hi). cbv beta in S. rewrite <- S. rewrite (H i) by lia.
    f_equal; [f_equal|].
    + destruct (Nat.eqb_spec i 0); [reflexivity|]. rewrite H by lia. reflexivity.
    + destruct (Nat.eqb_spec (i + 1) (N + 1)); [reflexivity|]. rewrite H by lia. reflexivity.
Qed.
Print Assumptions C93_small.

(** a column at rest in hydrostatic balance stays as it is *)
Definition balanced (c : PhysModel.constants) (N : nat) (X : hcol) : Prop :=
  forall k, (S k < N)%nat -> aW X (S k) = 0 /\
    (PhysModel.pressure_from_rhotheta c (aP X (S k)) - PhysModel.pressure_from_rhotheta c (aP X k)) / (zn X (S k) - zn X k) =
    - (PhysModel.g c * ((aR X k + aR X (S k)) / 2)).
Theorem C93_rest : forall c N X, (0 < N)%nat -> lid_clean N X -> balanced c N X -> exists e, 0 < e /\ forall dt x u o, dt * dt < e ->
  solves (N + 1) (arr_a c N dt X) (arr_b c N dt X) (arr_c c N dt X) (arr_d c N dt X) x ->
  let s := himplicit N dt X u o x in
  cW s O = 0 /\
  forall k, (k < N)%nat -> cU s k = cU u k /\ cV s k = cV u k /\ cP s k = cP u k /\ cR s k = cR u k /\ (k <> O -> cW s k = cW u k).
Proof.
  intros c N X HN A Bal. destruct (C93_small c N X HN A) as (e & He & H). exists e. split; [exact He|].
  intros dt x u o Hdt Hx s. destruct (H dt Hdt) as (l & _ & U).
  assert (Z : forall k, (k <= N)%nat -> x k = 0).
  { intros k Hk. rewrite (proj1 (U x) Hx k Hk). symmetry. apply (proj1 (U (fun _ => 0))); [|exact Hk].
    apply system_rows; [exact HN|]. split; [reflexivity|]. split; [destruct (Nat.eqb N 1); lra|].
    intros [|i] Hi; [lia|]. destruct (Bal i ltac:(lia)) as [W0 P]. unfold row_d, hre, inv_hat. rewrite W0.
    rewrite Nat.sub_succ, Nat.sub_0_r. unfold hp.
    replace (1 / (zn X (S i) - zn X i) * (PhysModel.pressure_from_rhotheta c (aP X (S i)) - PhysModel.pressure_from_rhotheta c (aP X i)))
      with (- (PhysModel.g c * ((aR X i + aR X (S i)) / 2))) by (rewrite <- P; unfold Rdiv; ring). field. }
  assert (Ws : forall k, (0 < k < N)%nat -> aW X k = 0) by (intros [|k] Hk; [lia|]; apply Bal; lia).
  split.
  { unfold s, himplicit. cbn [cW]. apply Nat.ltb_lt in HN. rewrite HN. reflexivity. }
  intros k Hk. unfold s, himplicit. cbn [cU cV cP cR cW]. apply Nat.ltb_lt in Hk as Hk'. rewrite Hk'.
  rewrite !(Z (k + 1)%nat), !(Z k) by lia.
  split; [reflexivity|]. split; [reflexivity|]. split; [ring|]. split; [ring|].
  intro K. destruct (Nat.eqb_spec k 0); [contradiction|]. rewrite Ws by lia. ring.
Qed.
Print Assumptions C93_rest.

(** ** A column of three layers; pressure x, gravity 1, layers of different depth *)
Definition ex_const : PhysModel.constants := PhysModel.Constants 0 1 0 0 0 0 0 0 0 0 0 0 0 1 1.
Definition ex_col (w1 w2 : R) : hcol := Hcol (fun k => nth k [1/2; 3/2; 7/2] 0) (fun k => nth k [0; 1; 2; 5] 0)
  (fun k => nth k [0; w1; w2; 0] 0) (fun k => nth k [2; 2; 1] 0) (fun k => nth k [7; 5; 2] 0) (fun _ => 7) (fun _ => 0).
Lemma ex_pressure k : (k < 3)%nat -> PhysModel.pressure_from_rhotheta ex_const (nth k [7; 5; 2] 0) = nth k [7; 5; 2] 0.
Proof.
  intro H. unfold PhysModel.pressure_from_rhotheta. cbn [PhysModel.scaling PhysModel.gamma ex_const].
  rewrite Rmult_1_r, exp_ln; [ring|]. destruct k as [|[|[|k]]]; cbn; lra || lia.
Qed.
Example C93_case : layered 3 (ex_col 0 0) /\ lid_clean 3 (ex_col 0 0) /\ balanced ex_const 3 (ex_col 0 0).
Proof.
  split; [|split].
  - split; intros [|[|[|k]]] Hk; try lia; cbn; lra.
  - intros _. reflexivity.
  - intros [|[|k]] Hk; try lia; (split; [reflexivity|]); cbn [aP aR zn ex_col];
    rewrite !ex_pressure by lia; cbn [nth PhysModel.g ex_const]; lra.
Qed.
(** the same column with moving air: the system is solved by w' = (0, x1, x2, 0) for
    some x1 that is not zero *)
Example C91_case : layered 3 (ex_col 1 0) /\ copies 3 (ex_col 1 0) (Hvec (fun _ => 0) (fun _ => 0) (aP (ex_col 1 0)) (aR (ex_col 1 0)) (aW (ex_col 1 0))) /\
  forall x, solves 4 (arr_a ex_const 3 1 (ex_col 1 0)) (arr_b ex_const 3 1 (ex_col 1 0)) (arr_c ex_const 3 1 (ex_col 1 0)) (arr_d ex_const 3 1 (ex_col 1 0)) x ->
  x 1%nat <> 0.
Proof.
  split; [|split].
  - split; intros [|[|[|k]]] Hk; try lia; cbn; lra.
  - intros [|[|[|k]]] Hk; try lia; cbn; auto.
  - intros x H. change 4%nat with (3 + 1)%nat in H. apply system_rows in H as (H0 & H1 & H); [|lia].
    pose proof (H 1%nat ltac:(lia)) as R1. pose proof (H 2%nat ltac:(lia)) as R2.
    cbn in H1. unfold row_a, row_b, row_c, row_d, hdp, hp, hth, hre, inv_dz, inv_hat, inner_edge in R1, R2.
    cbn [Nat.leb Nat.ltb Nat.sub Nat.add andb aP aR aW zn zi oldP ex_col] in R1, R2.
    rewrite !ex_pressure in R1, R2 by lia. cbn [nth PhysModel.g PhysModel.gamma ex_const] in R1, R2.
    intro E. rewrite E in *. rewrite H0 in *. lra.
Qed.
