(** * C63, C64 and the part of C49 above ten points: Legendre polynomials, their
    roots, and the quadrature rules made from them *)
From Coq Require Import ZArith Reals List Bool Lia Lra Psatz.
From Verif Require Import QuadModel QuadSpec QuadProofs InterpSpec InterpProofs LegModel LegSpec LegProofs LegProofs2 LegProofs3 LegProofs4.
Import ListNotations.
Local Open Scope R_scope.

Local Lemma slope c n x d : legendre n c -> derivable_pt_lim (peval c) x d -> d = dL n x.
Proof.
  intros Hc Hd. eapply uniqueness_limite; [exact Hd|]. apply (derivable_ext (L n)); [intros; symmetry; apply (legendre_L n c Hc)|apply L_derive].
Qed.

(** ** C63 *)
(** the specification describes one polynomial for each degree *)
Theorem C63_one : forall n, exists c, legendre n c /\ forall c', legendre n c' -> forall x, peval c' x = peval c x.
Proof. intros n. destruct (L_legendre n) as (c & Hc & _). exists c. split; [exact Hc|]. intros c' Hc' x. exact (legendre_unique n c' c Hc' Hc x). Qed.
Print Assumptions C63_one.
(** the evaluation returns its value and its derivative, at every point and for
    every degree: closed forms up to eight and the recurrence from nine on *)
Theorem C63_value : forall n c x, (0 <= n)%Z -> legendre (Z.to_nat n) c ->
  exists v d, evaluate n x = Ev v d /\ v = peval c x /\ derivable_pt_lim (peval c) x d.
Proof.
  intros n c x Hn Hc. exists (L (Z.to_nat n) x), (dL (Z.to_nat n) x). split; [apply evaluate_ok, Hn|]. split; [symmetry; apply legendre_L, Hc|].
  apply (derivable_ext (L (Z.to_nat n))); [intros; symmetry; apply (legendre_L _ c Hc)|apply L_derive].
Qed.
Print Assumptions C63_value.
(** a negative degree leaves the outputs as they were *)
Theorem C63_negative : forall n x, evaluate n x = Unset <-> (n < 0)%Z.
Proof.
  intros n x. split; [|apply evaluate_neg]. intros H. destruct (Z_lt_dec n 0); [assumption|]. rewrite evaluate_ok in H by lia. discriminate H.
Qed.
Print Assumptions C63_negative.
(** values and slopes at the ends, and parity *)
Theorem C63_ends : forall n, (0 <= n)%Z ->
  evaluate n 1 = Ev 1 (IZR n * (IZR n + 1) / 2) /\
  (forall x v d, evaluate n x = Ev v d -> exists s, s * s = 1 /\ evaluate n (- x) = Ev (s * v) (- s * d)).
Proof.
  intros n Hn. split.
  - rewrite evaluate_ok by exact Hn. rewrite L_p1, dL_p1, INR_IZR_INZ, Z2Nat.id by exact Hn. reflexivity.
  - intros x v d H. rewrite evaluate_ok in H by exact Hn. injection H as <- <-. exists ((-1) ^ Z.to_nat n). split; [apply m1_sq|].
    rewrite evaluate_ok by exact Hn. destruct (parity (Z.to_nat n) x) as (-> & ->). f_equal. cbn [pow]. ring.
Qed.
Print Assumptions C63_ends.
Example C63_case : legendre 2 [-1 / 2; 0; 3 / 2] /\ evaluate 2 2 = Ev (11 / 2) 6 /\ evaluate 11 0 = Ev 0 (-693 / 256).
Proof.
  split; [|split].
  - split; [cbn; lia|]. split; [cbn; lra|]. intros q Hq. apply (integral_ext (fun x => L 2 x * peval q x)); [intros x; rewrite L_rec, L_1, L_0; cbn; lra|]. apply orth. exists q. auto.
  - unfold evaluate. cbn. f_equal; lra.
  - rewrite evaluate_ok by lia. change (Z.to_nat 11) with 11%nat.
    assert (L 2 0 = -1 / 2 /\ dL 2 0 = 0) as (A2 & D2) by (rewrite L_rec, dL_rec, L_1, L_0, dL_1, dL_0; cbn [INR]; lra).
    assert (L 3 0 = 0 /\ dL 3 0 = -3 / 2) as (A3 & D3) by (rewrite L_rec, dL_rec, A2, D2, L_1, dL_1; cbn [INR]; lra).
    assert (L 4 0 = 3 / 8 /\ dL 4 0 = 0) as (A4 & D4) by (rewrite L_rec, dL_rec, A3, D3, A2, D2; cbn [INR]; lra).
    assert (L 5 0 = 0 /\ dL 5 0 = 15 / 8) as (A5 & D5) by (rewrite L_rec, dL_rec, A4, D4, A3, D3; cbn [INR]; lra).
    assert (L 6 0 = -5 / 16 /\ dL 6 0 = 0) as (A6 & D6) by (rewrite L_rec, dL_rec, A5, D5, A4, D4; cbn [INR]; lra).
    assert (L 7 0 = 0 /\ dL 7 0 = -35 / 16) as (A7 & D7) by (rewrite L_rec, dL_rec, A6, D6, A5, D5; cbn [INR]; lra).
    assert (L 8 0 = 35 / 128 /\ dL 8 0 = 0) as (A8 & D8) by (rewrite L_rec, dL_rec, A7, D7, A6, D6; cbn [INR]; lra).
    assert (L 9 0 = 0 /\ dL 9 0 = 315 / 128) as (A9 & D9) by (rewrite L_rec, dL_rec, A8, D8, A7, D7; cbn [INR]; lra).
    assert (L 10 0 = -63 / 256 /\ dL 10 0 = 0) as (A10 & D10) by (rewrite L_rec, dL_rec, A9, D9, A8, D8; cbn [INR]; lra).
    rewrite L_rec, dL_rec, A10, D10, A9, D9. cbn [INR]. f_equal; lra.
Qed.

(** ** C64 *)
(** refusals, and degrees without roots *)
Theorem C64_refused : forall n null,
  (all_roots n null = RootsThrow <-> (n < 0)%Z \/ (n <> 0%Z /\ null = true)) /\ (all_roots n null = Untouched <-> n = 0%Z) /\
  (all_derivative_roots n null = RootsThrow <-> (n < 0)%Z \/ (n <> 0%Z /\ n <> 1%Z /\ null = true)) /\ (all_derivative_roots n null = Untouched <-> n = 0%Z \/ n = 1%Z).
Proof.
  intros n null. unfold all_roots, all_derivative_roots.
  destruct (iterate (value_test n) (Z.to_nat (n + 10)) (spread (Z.to_nat n))), (iterate (slope_test n) (Z.to_nat (n + 10)) (spread (Z.to_nat n - 1)));
    destruct (Z.eqb_spec n 0), (Z.eqb_spec n 1), (Z.ltb_spec n 0), null; cbn [orb]; repeat split; intros; try discriminate; try reflexivity; try lia;
    try (destruct H0; [lia|intuition congruence]); try (destruct H; [lia|intuition congruence]); intuition (try lia; try congruence).
Qed.
Print Assumptions C64_refused.

(** the estimates returned: as many as the degree, in ascending order, symmetric
    about zero, and either the polynomial is below 1e-14 at all of them or each
    of the degree plus ten passes found an estimate where it is not *)
Theorem C64_roots : forall n null c l, all_roots n null = Roots l -> legendre (Z.to_nat n) c ->
  (1 <= n)%Z /\ null = false /\ Z.of_nat (length l) = n /\ ascending l /\ symmetric l /\
  (Forall (fun x => Rabs (peval c x) < / 10 ^ 14) l \/
   exists t, t 0%nat = spread (Z.to_nat n) /\ l = sort (t (Z.to_nat (n + 10))) /\
     forall i, (i < Z.to_nat (n + 10))%nat -> (exists m, refine (value_test n) (t i) = Some m /\ t (S i) = map fst m) /\ exists x, In x (t i) /\ / 10 ^ 14 <= Rabs (peval c x)).
Proof.
  intros n null c l H Hc. unfold all_roots in H. destruct (Z.eqb_spec n 0); [discriminate|]. destruct (Z.ltb_spec n 0); [discriminate|]. destruct null; [discriminate|].
  destruct (iterate _ _ _) as [l'|] eqn:I; [|discriminate]. injection H as <-. destruct (iterate_ok _ _ _ _ I) as (A & B & C). rewrite spread_length in A.
  split; [lia|]. split; [reflexivity|]. split; [rewrite (Permutation.Permutation_length (sort_perm l')); lia|]. split; [apply sort_ascending|].
  split; [apply sort_symmetric, B; [apply value_odd; lia|apply spread_symmetric]|]. destruct C as [C|(t & T0 & T1 & T2)].
  - left. apply (Permutation.Permutation_Forall (Permutation.Permutation_sym (sort_perm l'))). apply (Forall_impl _ (P := small (value_test n))); [|exact C].
    intros x (f & q & Tx & Sx). rewrite <- (legendre_test n c x f q ltac:(lia) Hc Tx). exact Sx.
  - right. exists t. split; [exact T0|]. split; [rewrite T1; reflexivity|]. intros i Hi. destruct (T2 i Hi) as (m & R & E & x & f & q & Ix & Tx & Bx).
    split; [eauto|]. exists x. split; [exact Ix|]. rewrite <- (legendre_test n c x f q ltac:(lia) Hc Tx). exact Bx.
Qed.
Print Assumptions C64_roots.
Theorem C64_slope_roots : forall n null c l, all_derivative_roots n null = Roots l -> legendre (Z.to_nat n) c ->
  (2 <= n)%Z /\ null = false /\ Z.of_nat (length l) = (n - 1)%Z /\ ascending l /\ symmetric l /\
  ((forall x d, In x l -> derivable_pt_lim (peval c) x d -> Rabs d < / 10 ^ 14) \/
   exists t, t 0%nat = spread (Z.to_nat n - 1) /\ l = sort (t (Z.to_nat (n + 10))) /\
     forall i, (i < Z.to_nat (n + 10))%nat -> (exists m, refine (slope_test n) (t i) = Some m /\ t (S i) = map fst m) /\ exists x d, In x (t i) /\ derivable_pt_lim (peval c) x d /\ / 10 ^ 14 <= Rabs d).
Proof.
  intros n null c l H Hc. unfold all_derivative_roots in H. destruct (Z.eqb_spec n 0); [discriminate|]. destruct (Z.eqb_spec n 1); [discriminate|]. cbn [orb] in H. destruct (Z.ltb_spec n 0); [discriminate|]. destruct null; [discriminate|].
  destruct (iterate _ _ _) as [l'|] eqn:I; [|discriminate]. injection H as <-. destruct (iterate_ok _ _ _ _ I) as (A & B & C). rewrite spread_length in A.
  split; [lia|]. split; [reflexivity|]. split; [rewrite (Permutation.Permutation_length (sort_perm l')); lia|]. split; [apply sort_ascending|].
  split; [apply sort_symmetric, B; [apply slope_odd; lia|apply spread_symmetric]|]. destruct C as [C|(t & T0 & T1 & T2)].
  - left. intros x d Hx Hd. apply (Permutation.Permutation_in _ (sort_perm l')) in Hx. rewrite Forall_forall in C. destruct (C x Hx) as (f & q & Tx & Sx).
    destruct (slope_looks n ltac:(lia) _ _ _ Tx) as (-> & _). rewrite (slope c _ x d Hc Hd). exact Sx.
  - right. exists t. split; [exact T0|]. split; [rewrite T1; reflexivity|]. intros i Hi. destruct (T2 i Hi) as (m & R & E & x & f & q & Ix & Tx & Bx).
    split; [eauto|]. exists x, f. split; [exact Ix|]. destruct (slope_looks n ltac:(lia) _ _ _ Tx) as (-> & _). split; [|exact Bx].
    apply (derivable_ext (L (Z.to_nat n))); [intros; symmetry; apply (legendre_L _ c Hc)|apply L_derive].
Qed.
Print Assumptions C64_slope_roots.

(** an estimate that moves makes Newton's step for the polynomial divided by its
    distances to the other estimates *)
Theorem C64_step : forall n c r k y m, (0 <= n)%Z -> legendre (Z.to_nat n) c -> refine_one (value_test n) m r k = Some (y, false) ->
  exists p d, (forall t, p t = fold_right Rmult 1 (map (fun l => if (l =? k)%nat then 1 else t - r l) (seq 0 m))) /\
    d <> 0 /\ derivable_pt_lim (fun t => peval c t / p t) (r k) d /\ y = r k - peval c (r k) / p (r k) / d.
Proof.
  intros n c r k y m Hn Hc H. destruct (newton_step _ _ _ _ _ _ (value_looks n Hn) H) as (d & N & D & E). exists (others_prod r k (seq 0 m)), d. split; [|split; [exact N|split]].
  - intros t. unfold others_prod. generalize (seq 0 m). intros ls. induction ls as [|a ls IH]; cbn; [reflexivity|]. rewrite IH. reflexivity.
  - apply (derivable_ext (fun t => L (Z.to_nat n) t / others_prod r k (seq 0 m) t)); [intros u; rewrite (legendre_L _ c Hc); reflexivity|exact D].
  - rewrite (legendre_L _ c Hc). exact E.
Qed.
Print Assumptions C64_step.
Theorem C64_slope_step : forall n c c' r k y m, (0 <= n)%Z -> legendre (Z.to_nat n) c -> (forall x, derivable_pt_lim (peval c) x (peval c' x)) -> refine_one (slope_test n) m r k = Some (y, false) ->
  exists p d, (forall t, p t = fold_right Rmult 1 (map (fun l => if (l =? k)%nat then 1 else t - r l) (seq 0 m))) /\
    d <> 0 /\ derivable_pt_lim (fun t => peval c' t / p t) (r k) d /\ y = r k - peval c' (r k) / p (r k) / d.
Proof.
  intros n c c' r k y m Hn Hc Hc' H. destruct (newton_step _ _ _ _ _ _ (slope_looks n Hn) H) as (d & N & D & E). exists (others_prod r k (seq 0 m)), d. split; [|split; [exact N|split]].
  - intros t. unfold others_prod. generalize (seq 0 m). intros ls. induction ls as [|a ls IH]; cbn; [reflexivity|]. rewrite IH. reflexivity.
  - apply (derivable_ext (fun t => dL (Z.to_nat n) t / others_prod r k (seq 0 m) t)); [intros u; rewrite (slope c _ u _ Hc (Hc' u)); reflexivity|exact D].
  - rewrite (slope c _ _ _ Hc (Hc' (r k))). exact E.
Qed.
Print Assumptions C64_slope_step.
(** in particular, when all the other estimates are roots the step ends on the
    remaining root *)
Theorem C64_last : forall n c r rho k, (1 <= n)%Z -> legendre (Z.to_nat n) c -> (k < Z.to_nat n)%nat -> distinct (Z.to_nat n) rho ->
  (forall i, (i < Z.to_nat n)%nat -> peval c (rho i) = 0 /\ (i <> k -> r i = rho i)) -> / 10 ^ 14 <= Rabs (peval c (r k)) ->
  refine_one (value_test n) (Z.to_nat n) r k = Some (rho k, false).
Proof.
  intros n c r rho k Hn Hc Hk Dr Z Big. rewrite (legendre_L _ c Hc) in Big.
  assert (L (Z.to_nat n) (r k) <> 0) as N by (intros C; rewrite C, Rabs_R0 in Big; pose proof tolerance_pos; unfold tolerance in *; lra).
  apply (last_step_total _ (L (Z.to_nat n)) _ _ _ _ (dL (Z.to_nat n) (r k) / L (Z.to_nat n) (r k))); try assumption.
  - apply value_looks. lia.
  - apply L_poly.
  - intros i Hi. rewrite <- (legendre_L _ c Hc). apply Z, Hi.
  - intros l Hl Hne. apply (Z l Hl), Hne.
  - unfold value_test. rewrite evaluate_ok, over_some by (try lia; assumption). reflexivity.
Qed.
Print Assumptions C64_last.
Theorem C64_slope_last : forall n c c' r rho k, (2 <= n)%Z -> legendre (Z.to_nat n) c -> (forall x, derivable_pt_lim (peval c) x (peval c' x)) -> (k < Z.to_nat n - 1)%nat -> distinct (Z.to_nat n - 1) rho ->
  (forall i, (i < Z.to_nat n - 1)%nat -> peval c' (rho i) = 0 /\ (i <> k -> r i = rho i)) -> / 10 ^ 14 <= Rabs (peval c' (r k)) -> r k * r k <> 1 ->
  refine_one (slope_test n) (Z.to_nat n - 1) r k = Some (rho k, false).
Proof.
  intros n c c' r rho k Hn Hc Hc' Hk Dr Z Big NE. assert (forall x, peval c' x = dL (Z.to_nat n) x) as Sl by (intros x; apply (slope c _ x _ Hc (Hc' x))). rewrite Sl in Big.
  assert (dL (Z.to_nat n) (r k) <> 0) as N by (intros C; rewrite C, Rabs_R0 in Big; pose proof tolerance_pos; unfold tolerance in *; lra).
  eapply (last_step_total _ (dL (Z.to_nat n))); try assumption.
  - apply slope_looks. lia.
  - replace (S (Z.to_nat n - 1)) with (Z.to_nat n) by lia. apply dL_poly.
  - intros i Hi. rewrite <- Sl. apply Z, Hi.
  - intros l Hl Hne. apply (Z l Hl), Hne.
  - unfold slope_test. rewrite evaluate_ok, !over_some by (try lia; try assumption; lra). reflexivity.
Qed.
Print Assumptions C64_slope_last.
(** and there are that many roots to find, all inside the interval *)
Theorem C64_count : forall n c, legendre n c ->
  (exists g, length g = n /\ increasing g /\ forall x, (In x g <-> peval c x = 0) /\ (In x g -> -1 < x < 1)) /\
  (exists g, length g = pred n /\ increasing g /\ forall x, In x g -> derivable_pt_lim (peval c) x 0 /\ -1 < x < 1).
Proof.
  intros n c Hc. split.
  - destruct (roots_list n) as (g & Lg & Ig & Zg). exists g. split; [exact Lg|]. split; [exact Ig|]. intros x. split; [|apply Zg]. rewrite (legendre_L n c Hc). split; [intros H; apply Zg, H|].
    intros H. destruct (in_dec Req_EM_T x g) as [Y|Nx]; [exact Y|]. exfalso.
    assert (forall t, L n t = 0) as C; [|specialize (C 1); rewrite L_p1 in C; lra].
    apply (poly_roots (S n) (L n) (fun i => nth i (x :: g) 0) (L_poly n)).
    + apply nodup_distinct; [cbn; congruence|]. constructor; [exact Nx|apply increasing_nodup, Ig].
    + intros i Hi. assert (In (nth i (x :: g) 0) (x :: g)) as Hin by (apply nth_In; cbn; lia). destruct Hin as [E|Hin]; [rewrite <- E; exact H|apply Zg, Hin].
  - destruct (slope_roots_list n) as (g & Lg & Ig & Zg). exists g. split; [exact Lg|]. split; [exact Ig|]. intros x Hx. destruct (Zg x Hx) as (E & B). split; [|exact B].
    rewrite <- E. apply (derivable_ext (L n)); [intros; symmetry; apply (legendre_L n c Hc)|apply L_derive].
Qed.
Print Assumptions C64_count.
Example C64_case : all_roots 1 false = Roots [0] /\ all_derivative_roots 2 false = Roots [0] /\
  (exists r rho, distinct 2 rho /\ peval [-1 / 2; 0; 3 / 2] (rho 0%nat) = 0 /\ peval [-1 / 2; 0; 3 / 2] (rho 1%nat) = 0 /\ r 1%nat = rho 1%nat /\ r 0%nat = -1 /\
     refine_one (value_test 2) 2 r 0 = Some (rho 0%nat, false)).
Proof.
  assert (0 < tolerance) as TP by apply tolerance_pos.
  assert (spread 1 = [0]) as S1 by (unfold spread; cbn; f_equal; lra).
  split; [|split].
  - unfold all_roots. cbn [Z.eqb Z.ltb Z.compare]. change (Z.to_nat (1 + 10)) with (S 10). change (Z.to_nat 1) with 1%nat. rewrite S1. cbn [iterate].
    unfold refine. cbn [length seq map]. unfold refine_one, value_test. cbn [nth]. rewrite evaluate_ok by lia. change (L (Z.to_nat 1) 0) with 0. rewrite Rabs_R0. destruct (Rlt_dec 0 tolerance); [|contradiction]. reflexivity.
  - unfold all_derivative_roots. cbn [Z.eqb Z.ltb Z.compare orb]. change (Z.to_nat (2 + 10)) with (S 11). change (Z.to_nat 2 - 1)%nat with 1%nat. rewrite S1. cbn [iterate].
    unfold refine. cbn [length seq map]. unfold refine_one, slope_test. cbn [nth]. unfold evaluate. cbn [Z.ltb Z.compare Pos.compare Pos.compare_cont eval_low].
    replace (Rabs (3.0 * 0)) with 0 by (rewrite Rmult_0_r, Rabs_R0; reflexivity). destruct (Rlt_dec 0 tolerance); [|contradiction]. reflexivity.
  - set (rho := fun i => match i with O => - / sqrt 3 | _ => / sqrt 3 end). assert (0 < sqrt 3) as P3 by (apply sqrt_lt_R0; lra). assert (sqrt 3 * sqrt 3 = 3) as Q3 by (apply sqrt_sqrt; lra).
    assert (0 < / sqrt 3) as I3 by (apply Rinv_0_lt_compat, P3).
    assert (/ sqrt 3 * / sqrt 3 = 1 / 3) as E3 by (rewrite <- Rinv_mult, Q3; lra).
    assert (legendre (Z.to_nat 2) [-1 / 2; 0; 3 / 2]) as Hc by apply C63_case.
    assert (distinct 2 rho) as Dr by (intros i j Hi Hj N; destruct i as [|[|i]], j as [|[|j]]; try lia; cbn; lra).
    exists (fun i => match i with O => -1 | _ => / sqrt 3 end), rho. split; [exact Dr|]. split; [cbn; nra|]. split; [cbn; nra|]. split; [reflexivity|]. split; [reflexivity|].
    apply (C64_last 2 _ _ rho 0 ltac:(lia) Hc); [cbn; lia|exact Dr| |].
    + intros i Hi. change (Z.to_nat 2) with 2%nat in Hi. destruct i as [|[|i]]; [| |lia]; (split; [cbn; nra|intros; try lia; reflexivity]).
    + cbn [peval]. rewrite Rabs_pos_eq by lra. apply Rle_trans with 1; [|lra]. rewrite <- Rinv_1. apply Rinv_le_contravar; [lra|]. apply pow_R1_Rle. lra.
Qed.

(** ** C49 with more than ten points *)
(** at the roots of the polynomial the weights of the Gauss rule are positive and
    integrate every polynomial of degree 2n-1 exactly *)
Theorem C49_gauss_roots : forall n c g a b, (1 <= n)%Z -> a < b -> legendre (Z.to_nat n) c -> Z.of_nat (length g) = n -> NoDup g -> (forall x, In x g -> peval c x = 0) ->
  exists w, collect (map (gauss_weight n) g) = Some w /\ Z.of_nat (length w) = n /\ Forall (fun x => 0 < x) w /\ Forall (fun x => -1 < x < 1) g /\
    integrates (Z.to_nat (2 * n - 1)) 0 a b (map (scale_node a b) g) (map (scale_weight a b) w).
Proof.
  intros n c g a b Hn Hab Hc Lg ND Z. destruct (gauss_list n g Hn ltac:(lia) ND) as (w & C & Lw & Pw & Ig & G).
  { intros x Hx. rewrite <- (legendre_L _ c Hc). apply Z, Hx. }
  exists w. split; [exact C|]. split; [lia|]. split; [exact Pw|]. split; [exact Ig|]. apply integrates_ok; [exact Hab|lra|exact G].
Qed.
Print Assumptions C49_gauss_roots.
(** the same for the Gauss-Lobatto rule at the roots of the slope and the ends *)
Theorem C49_lobatto_roots : forall n c l a b, (2 <= n)%Z -> a < b -> legendre (Z.to_nat (n - 1)) c -> Z.of_nat (length l) = (n - 2)%Z -> NoDup l -> (forall x, In x l -> derivable_pt_lim (peval c) x 0) ->
  exists w, collect (map (lobatto_weight n) (-1 :: l ++ [1])) = Some w /\ Z.of_nat (length w) = n /\ Forall (fun x => 0 < x) w /\
    integrates (Z.to_nat (2 * n - 3)) 0 a b (map (scale_node a b) (-1 :: l ++ [1])) (map (scale_weight a b) w).
Proof.
  intros n c l a b Hn Hab Hc Ll ND Z. destruct (lobatto_list n l Hn ltac:(lia) ND) as (w & C & Lw & Pw & G).
  { intros x Hx. symmetry. apply (slope c _ x 0 Hc), Z, Hx. }
  exists w. split; [exact C|]. split; [lia|]. split; [exact Pw|]. apply integrates_ok; [exact Hab|lra|exact G].
Qed.
Print Assumptions C49_lobatto_roots.
(** whatever the loop returns, the rules have the right number of points in
    ascending order, nodes and weights are symmetric, the weights are the ones
    above, and odd functions integrate to zero *)
Theorem C49_above_ten : forall n g w,
  (gauss_points n = Points g w -> (1 <= n)%Z /\ Z.of_nat (length g) = n /\ Z.of_nat (length w) = n /\ ascending g /\ symmetric g /\ rev w = w /\
     all_roots n false = Roots g /\ collect (map (gauss_weight n) g) = Some w /\ forall f, (forall x, f (- x) = - f x) -> wsum f g w = 0) /\
  (lobatto_points n = Points g w -> (3 <= n)%Z /\ Z.of_nat (length g) = n /\ Z.of_nat (length w) = n /\ symmetric g /\ rev w = w /\
     (exists l, all_derivative_roots (n - 1) false = Roots l /\ g = -1 :: l ++ [1] /\ ascending l) /\ collect (map (lobatto_weight n) g) = Some w /\ forall f, (forall x, f (- x) = - f x) -> wsum f g w = 0).
Proof.
  intros n g w. split.
  - unfold gauss_points. destruct (all_roots n false) as [| |g'|] eqn:R; try discriminate. destruct (collect (map (gauss_weight n) g')) as [w'|] eqn:C; [|discriminate]. intros H. injection H as -> ->.
    destruct (L_legendre (Z.to_nat n)) as (c & Hc & _). destruct (C64_roots n false c g R Hc) as (Hn & _ & Lg & Ag & Sg & _).
    pose proof (collect_length _ _ _ C) as Lw.
    assert (rev w = w) as Rw by (apply (collect_symmetric (gauss_weight n) g w); [intros; apply gauss_weight_even; lia|exact Sg|exact C]).
    repeat (split; [first [assumption|lia|reflexivity]|]). intros f Of. apply wsum_odd; auto.
  - unfold lobatto_points. destruct (all_derivative_roots (n - 1) false) as [| |l|] eqn:R; try discriminate. destruct (collect (map (lobatto_weight n) (-1 :: l ++ [1]))) as [w'|] eqn:C; [|discriminate]. intros H. injection H as <- ->.
    destruct (L_legendre (Z.to_nat (n - 1))) as (c & Hc & _). destruct (C64_slope_roots (n - 1) false c l R Hc) as (Hn & _ & Lg & Ag & Sg & _).
    pose proof (collect_length _ _ _ C) as Lw. apply symmetric_ends in Sg.
    assert (rev w = w) as Rw by (apply (collect_symmetric (lobatto_weight n) (-1 :: l ++ [1]) w); [intros; apply lobatto_weight_even; lia|exact Sg|exact C]).
    assert (Z.of_nat (length (-1 :: l ++ [1])) = n) as Lg' by (cbn [length]; rewrite app_length; cbn [length]; lia).
    split; [lia|]. split; [exact Lg'|]. split; [congruence|]. split; [exact Sg|]. split; [exact Rw|]. split; [exists l; auto|]. split; [exact C|]. intros f Of. apply wsum_odd; auto.
Qed.
Print Assumptions C49_above_ten.
(** the hypotheses can be met for every count *)
Example C49_case_roots : forall n a b, (11 <= n)%Z -> a < b -> exists g w, collect (map (gauss_weight n) g) = Some w /\ increasing g /\ Z.of_nat (length g) = n /\
  integrates (Z.to_nat (2 * n - 1)) 0 a b (map (scale_node a b) g) (map (scale_weight a b) w).
Proof.
  intros n a b Hn Hab. destruct (L_legendre (Z.to_nat n)) as (c & Hc & _). destruct (C64_count _ _ Hc) as ((g & Lg & Ig & Zg) & _).
  destruct (C49_gauss_roots n c g a b ltac:(lia) Hab Hc ltac:(lia) (increasing_nodup g Ig)) as (w & C & _ & _ & _ & I); [intros x Hx; apply Zg, Hx|].
  exists g, w. split; [exact C|]. split; [exact Ig|]. split; [lia|exact I].
Qed.
