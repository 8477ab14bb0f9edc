(** * Property C33: interpolation and differentiation weights *)
From Coq Require Import Reals List Arith Lia Lra.
From Verif Require Import QuadSpec InterpModel InterpSpec InterpProofs.
Import ListNotations.
Local Open Scope R_scope.

(** for distinct nodes the weights exist and reproduce every polynomial *)
Theorem C33_lagrange : forall n x s, distinct n x ->
  exists c, lagrange n x s = Some c /\ exact_derivative 0 n x s c.
Proof.
  intros n x s Dx. exists (map (fun i => D x i 0 (others n i) s) (seq 0 n)). split.
  - apply fill_map. intros i Hi. apply in_seq in Hi. apply lagrange1_ok; [exact Dx|lia].
  - apply exact_of; [exact Dx|reflexivity].
Qed.
(** they are the Kronecker delta at the nodes *)
Theorem C33_delta : forall n x k, distinct n x -> (k < n)%nat ->
  lagrange n x (x k) = Some (map (fun i => if (i =? k)%nat then 1 else 0) (seq 0 n)).
Proof.
  intros n x k Dx Hk. apply fill_map. intros i Hi. apply in_seq in Hi.
  rewrite lagrange1_ok by (auto; lia). f_equal. apply basis_at_node; auto; lia.
Qed.
Lemma weighted_one c x : weighted c x (peval [1]) = fold_right Rplus 0 c.
Proof.
  unfold weighted. f_equal. transitivity (map (fun i => nth i c 0) (seq 0 (length c))).
  - apply map_ext. intros i. cbn. ring.
  - apply (nth_ext _ _ 0 0); [rewrite map_length, seq_length; reflexivity|]. intros i Hi. rewrite map_length, seq_length in Hi.
    rewrite (nth_indep _ 0 (nth 0 c 0)) by (rewrite map_length, seq_length; exact Hi).
    rewrite (map_nth (fun i => nth i c 0)), seq_nth by exact Hi. reflexivity.
Qed.
(** they sum to one *)
Theorem C33_sum : forall n x s c, distinct n x -> (0 < n)%nat -> lagrange n x s = Some c -> fold_right Rplus 0 c = 1.
Proof.
  intros n x s c Dx Hn E. destruct (C33_lagrange n x s Dx) as (c' & E' & _ & H).
  rewrite E in E'. injection E' as <-. rewrite <- (weighted_one c x).
  apply (H [1] (fun _ => 1)); cbn; [lia|intros; ring].
Qed.

(** nodes at least the matching tolerance apart *)
Definition separated (n : nat) (x : nat -> R) : Prop :=
  forall i j, (i < n)%nat -> (j < n)%nat -> i <> j -> / 10 ^ 14 <= Rabs (x i - x j).
Lemma separated_distinct n x : separated n x -> distinct n x.
Proof.
  intros H i j Hi Hj Ne E. generalize (H i j Hi Hj Ne). rewrite E. replace (x j - x j) with 0 by ring. rewrite Rabs_R0.
  assert (0 < / 10 ^ 14) by (apply Rinv_0_lt_compat, pow_lt; lra). lra.
Qed.
(** the first, second and third derivative weights are exact at every point,
    on nodes, near nodes and elsewhere *)
Theorem C33_diff : forall n x s, separated n x -> exists c, diff n x s = Some c /\ exact_derivative 1 n x s c.
Proof.
  intros n x s H. pose proof (separated_distinct n x H) as Dx. exists (map (fun i => D x i 1 (others n i) s) (seq 0 n)). split.
  - apply fill_map. intros i Hi. apply in_seq in Hi. apply diffs_ok; [exact Dx|apply separated_samplable; exact H|lia].
  - apply exact_of; [exact Dx|reflexivity].
Qed.
Theorem C33_diffdiff : forall n x s, separated n x -> exists c, diffdiff n x s = Some c /\ exact_derivative 2 n x s c.
Proof.
  intros n x s H. pose proof (separated_distinct n x H) as Dx. exists (map (fun i => D x i 2 (others n i) s) (seq 0 n)). split.
  - apply fill_map. intros i Hi. apply in_seq in Hi. apply diffs_ok; [exact Dx|apply separated_samplable; exact H|lia].
  - apply exact_of; [exact Dx|reflexivity].
Qed.
Theorem C33_diffdiffdiff : forall n x s, separated n x -> exists c, diffdiffdiff n x s = Some c /\ exact_derivative 3 n x s c.
Proof.
  intros n x s H. pose proof (separated_distinct n x H) as Dx. exists (map (fun i => D x i 3 (others n i) s) (seq 0 n)). split.
  - apply fill_map. intros i Hi. apply in_seq in Hi. apply diffs_ok; [exact Dx|apply separated_samplable; exact H|lia].
  - apply exact_of; [exact Dx|reflexivity].
Qed.
(** the derivative weights sum to zero *)
Theorem C33_diff_sum : forall n x s c, separated n x -> (0 < n)%nat -> diff n x s = Some c -> fold_right Rplus 0 c = 0.
Proof.
  intros n x s c Sx Hn E. destruct (C33_diff n x s Sx) as (c' & E' & _ & H).
  rewrite E in E'. injection E' as <-. rewrite <- (weighted_one c x).
  apply (H [1] (fun _ => 0)); cbn; [lia|]. exists (fun _ => 0). split; [|reflexivity].
  intros t. apply (derivable_ext (fun _ => 1)); [intros; ring|apply derivable_pt_lim_const].
Qed.
(** distinct nodes alone do not suffice: the match takes the first node in the
    tolerance, and the difference to the second one vanishes *)
Theorem C33_close_nodes_refuted : exists n x s, distinct n x /\ diff n x s = None.
Proof.
  exists 2%nat, (fun j => match j with O => 0 | _ => / 10 ^ 15 end), (/ 10 ^ 15).
  assert (P : 0 < / 10 ^ 15) by (apply Rinv_0_lt_compat, pow_lt; lra). split.
  - intros [|[|i]] [|[|j]] Hi Hj Ne; try lia; lra.
  - unfold diff, fill. cbn [seq bind]. unfold diff1, matching. cbn [seq find].
    destruct (Rlt_dec (Rabs (/ 10 ^ 15 - 0)) tol) as [L|L].
    + unfold inner. cbn [seq loop skip Nat.eqb orb bind].
      unfold div at 1. destruct (Req_EM_T (0 - / 10 ^ 15) 0); [reflexivity|]. cbn [bind].
      unfold div. destruct (Req_EM_T (/ 10 ^ 15 - / 10 ^ 15) 0) as [|Ne]; [reflexivity|]. exfalso. apply Ne. ring.
    + exfalso. apply L. rewrite Rminus_0_r, Rabs_pos_eq by lra. unfold tol. apply Rinv_lt_contravar.
      * apply Rmult_lt_0_compat; apply pow_lt; lra.
      * apply Rlt_pow; [lra|lia].
Qed.

(** Interpolate evaluates the one polynomial with fewer than n + 1 coefficients
    through the points *)
Theorem C33_interpolate : forall n x y, distinct n x ->
  exists p, (length p <= n)%nat /\ (forall i, (i < n)%nat -> peval p (x i) = y i) /\
    (forall q, (length q <= n)%nat -> (forall i, (i < n)%nat -> peval q (x i) = y i) -> forall t, peval q t = peval p t) /\
    forall s, interpolate n x y s = Some (peval p s).
Proof.
  intros n x y Dx. destruct (interpolant_poly n x y) as (p & Lp & Hp). exists p.
  split; [exact Lp|]. split; [|split].
  - intros i Hi. rewrite <- Hp. apply interpolant_at_node; assumption.
  - intros q Lq Hq t. rewrite <- Hp.
    rewrite <- (interpolant_unique n x (peval q) Dx) by (exists q; split; [exact Lq|reflexivity]).
    unfold interpolant. f_equal. apply map_seq_ext. intros i Hi. rewrite Hq by exact Hi. reflexivity.
  - intros s. rewrite interpolate_ok by exact Dx. rewrite Hp. reflexivity.
Qed.

(** InterpolateCoeffs hands LAPACK an n x n matrix, stored by columns, whose only
    solution holds the coefficients in powers of (x - dXmid) of that polynomial *)
Theorem C33_vandermonde : forall n x y mid a, distinct n x -> length a = n ->
  (forall j, (j < n)%nat -> fold_right Rplus 0 (map (fun i => nth (i * n + j) (workspace n x mid) 0 * nth i a 0) (seq 0 n)) = y j) ->
  length (workspace n x mid) = (n * n)%nat /\ forall s, interpolate n x y s = Some (peval a (s - mid)).
Proof.
  intros n x y mid a Dx La H. split; [apply workspace_length|]. intros s.
  rewrite interpolate_ok by exact Dx. f_equal.
  rewrite <- (interpolant_unique n x (fun t => peval a (t - mid)) Dx).
  - unfold interpolant. f_equal. apply map_seq_ext. intros i Hi. f_equal. rewrite <- (H i Hi).
    rewrite peval_powers, La. f_equal. apply map_seq_ext. intros k Hk. rewrite workspace_ok by assumption. reflexivity.
  - rewrite <- La. clear. induction a as [|b a IH]; cbn [peval length].
    + exists []. cbn. split; [lia|reflexivity].
    + apply (is_poly_ext _ (fun t => b * 1 + peval a (t - mid) * ((t - mid) / 1))); [intros; field|].
      apply is_poly_add; [|apply is_poly_linear; exact IH].
      apply is_poly_scale. exists [1]. cbn. split; [lia|intros; ring].
Qed.

(** three nodes 0, 1, 3: derivative weights at the node 1 *)
Example C33_case : separated 3 (fun j => match j with 0%nat => 0 | 1%nat => 1 | _ => 3 end) /\
  diff 3 (fun j => match j with 0%nat => 0 | 1%nat => 1 | _ => 3 end) 1 = Some [- (2 / 3); 1 / 2; 1 / 6].
Proof.
  set (x := fun j : nat => match j with 0%nat => 0 | 1%nat => 1 | _ => 3 end).
  assert (T : / 10 ^ 14 <= 1) by (replace 1 with (/ 1) by field; apply Rinv_le_contravar; [lra|apply pow_R1_Rle; lra]).
  assert (Sx : separated 3 x).
  { intros [|[|[|i]]] [|[|[|j]]] Hi Hj Ne; try lia; cbn [x]; (rewrite Rabs_pos_eq by lra) || (rewrite Rabs_left by lra); lra. }
  split; [exact Sx|]. unfold diff.
  rewrite (fill_map _ (fun i => D x i 1 (others 3 i) 1)).
  - cbn. unfold x. repeat (f_equal; try field).
  - intros i Hi. apply in_seq in Hi. apply diffs_ok; [apply separated_distinct; exact Sx|apply separated_samplable; exact Sx|lia].
Qed.

Print Assumptions C33_lagrange.
Print Assumptions C33_delta.
Print Assumptions C33_sum.
Print Assumptions C33_diff.
Print Assumptions C33_diffdiff.
Print Assumptions C33_diffdiffdiff.
Print Assumptions C33_diff_sum.
Print Assumptions C33_close_nodes_refuted.
Print Assumptions C33_interpolate.
Print Assumptions C33_vandermonde.
