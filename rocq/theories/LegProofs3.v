(** Lemmas: the Lobatto weights, the roots, the rules as lists. *)
From Coq Require Import ZArith Reals List Bool Lia Lra Psatz.
From Verif Require Import QuadModel QuadSpec QuadProofs InterpSpec InterpProofs FluxProofs LegModel LegSpec LegProofs LegProofs2.
Import ListNotations.
Local Open Scope R_scope.

(** ** Lobatto *)
Fixpoint pa (k : nat) (c : list R) : list R := match c with [] => [] | a :: r => a / INR (S k) :: pa (S k) r end.
Lemma pa_eval c : forall k x, pint k c x = x ^ S k * peval (pa k c) x.
Proof. induction c as [|a r IH]; intros k x; cbn [pint pa peval]; [ring|]. rewrite IH. cbn [pow]. unfold Rdiv. ring. Qed.
Lemma pa_length c : forall k, length (pa k c) = length c.
Proof. induction c as [|a r IH]; intros k; cbn; [reflexivity|]. rewrite IH. reflexivity. Qed.
Lemma antiderivative n q : is_poly n q -> exists Q, is_poly (S n) Q /\ forall x, derivable_pt_lim Q x (q x).
Proof.
  intros (c & Lc & Ec). exists (pint 0 c). split.
  - exists (0 :: pa 0 c). split; [cbn; rewrite pa_length; lia|]. intros x. rewrite pa_eval. cbn. ring.
  - intros x. rewrite Ec. replace (peval c x) with (x ^ 0 * peval c x) by (cbn; ring). apply pint_derive.
Qed.
Lemma lob_orth m q : (1 <= m)%nat -> is_poly (pred m) q -> integral (fun t => (1 - t * t) * dL m t * q t) 0.
Proof.
  intros Hm Pq. destruct (antiderivative _ _ Pq) as (Q & PQ & HQ).
  apply (integral_ext (fun t => q t * ((1 - t * t) * dL m t))); [intros; ring|].
  apply (integral_val _ (Q 1 * ((1 - 1 * 1) * dL m 1) - Q (-1) * ((1 - (-1) * (-1)) * dL m (-1)) - - (INR m * (INR m + 1)) * 0)); [ring|].
  apply (parts Q q (fun t => (1 - t * t) * dL m t) (fun t => - (INR m * (INR m + 1)) * L m t) _ HQ (L_ode m)).
  apply (integral_ext (fun t => - (INR m * (INR m + 1)) * (L m t * Q t))); [intros; ring|]. apply integral_scale, orth, (is_poly_le (S (pred m))); [lia|exact PQ].
Qed.
Lemma inner_ne m s : (1 <= m)%nat -> s * s = 1 -> dL m s <> 0.
Proof.
  intros Hm Hs. rewrite dL_end by exact Hs. assert (1 <= INR m) by (apply (le_INR 1); lia).
  apply Rmult_integral_contrapositive_currified; [apply pow_nonzero; nra|nra].
Qed.
Lemma outside n : 0 < L n 2 /\ 0 <= dL n 2 /\ 0 < dL (S n) 2.
Proof.
  induction n as [|n (A & B & C)]; [rewrite L_0, dL_0, dL_1; lra|]. pose proof (INR_nneg n). destruct (relations n 2) as (_ & E & F). destruct (relations (S n) 2) as (_ & _ & G). rewrite S_INR in G.
  assert (0 < L (S n) 2) by nra. repeat split; [assumption|lra|nra].
Qed.
Lemma two_over a b : a * b = 2 -> a = 2 / b.
Proof. intros H. assert (b <> 0) by (intros ->; lra). apply (Rmult_eq_reg_r b); [|assumption]. rewrite H. field. assumption. Qed.
Lemma lobatto_rule m x : (1 <= m)%nat -> distinct (S m) x -> (forall i, (i <= m)%nat -> x i = -1 \/ x i = 1 \/ dL m (x i) = 0) ->
  (exists i, (i <= m)%nat /\ x i = -1) -> (exists i, (i <= m)%nat /\ x i = 1) ->
  (forall i, (i <= m)%nat -> L m (x i) <> 0) /\
  forall f, is_poly (S m + pred m) f -> integral f (rule_sum (S m) (fun i => 2 / ((INR m + 1) * INR m * L m (x i) * L m (x i))) x f).
Proof.
  intros Hm Dx Zx (i0 & Hi0 & E0) (i1 & Hi1 & E1). assert (1 <= INR m) as Pm by (apply (le_INR 1); lia).
  set (om := fun t => (1 - t * t) * dL m t).
  assert (is_poly (S (S m)) om) as Po.
  { unfold om. apply (is_poly_ext _ (fun t => (1 + -1 * t) * ((1 + 1 * t) * dL m t))); [intros; ring|]. apply poly_lin, poly_lin, dL_poly. }
  assert (forall i, (i < S m)%nat -> om (x i) = 0) as Zo. { intros i Hi. unfold om. destruct (Zx i ltac:(lia)) as [-> | [-> | ->]]; ring. }
  assert (exists t, om t <> 0) as No.
  { exists 2. unfold om. destruct m as [|m']; [lia|]. destruct (outside m') as (_ & _ & H). nra. }
  destruct (interpolatory (S m) (pred m) x om Dx Po Zo No) as (lam & Hl); [intros q; apply lob_orth, Hm|].
  assert (forall i j, (i <= m)%nat -> (j <= m)%nat -> x i = x j -> i = j) as Inj by (intros i j Hi Hj H; destruct (Nat.eq_dec i j); [assumption|exfalso; apply (Dx i j); try lia; assumption]).
  assert (lam i1 = 2 / ((INR m + 1) * INR m)) as W1.
  { assert (integral (fun t => dL m t * (1 + t)) (L m 1 * (1 + 1) - L m (-1) * (1 + -1) - 0)) as I1.
    { apply (parts (L m) (dL m) (fun t => 1 + t) (fun _ => 0 + 1)); [apply L_derive| |].
      - intros t. apply (derivable_pt_lim_plus (fun _ => 1) id); [apply derivable_pt_lim_const|apply derivable_pt_lim_id].
      - apply orth. apply (is_poly_le 1); [lia|]. apply poly_const. }
    assert (integral (fun t => dL m t * (1 + t)) (rule_sum (S m) lam x (fun t => dL m t * (1 + t)))) as I2.
    { apply Hl. apply (is_poly_le (S m)); [lia|]. apply (is_poly_ext _ (fun t => (1 + 1 * t) * dL m t)); [intros; ring|apply poly_lin, dL_poly]. }
    rewrite (rule_sum_one (S m) lam x _ i1) in I2; [|lia|].
    - pose proof (integral_unique _ _ _ I2 I1) as E. rewrite E1, dL_p1, L_p1 in E. apply two_over. lra.
    - intros i Hi N. destruct (Zx i ltac:(lia)) as [-> | [H | ->]]; [ring| |ring]. exfalso. apply N, Inj; try lia; congruence. }
  assert (lam i0 = 2 / ((INR m + 1) * INR m)) as W0.
  { assert (integral (fun t => dL m t * (1 - t)) (L m 1 * (1 - 1) - L m (-1) * (1 - -1) - 0)) as I1.
    { apply (parts (L m) (dL m) (fun t => 1 - t) (fun _ => 0 - 1)); [apply L_derive| |].
      - intros t. apply (derivable_pt_lim_minus (fun _ => 1) id); [apply derivable_pt_lim_const|apply derivable_pt_lim_id].
      - apply orth. apply (is_poly_le 1); [lia|]. apply poly_const. }
    assert (integral (fun t => dL m t * (1 - t)) (rule_sum (S m) lam x (fun t => dL m t * (1 - t)))) as I2.
    { apply Hl. apply (is_poly_le (S m)); [lia|]. apply (is_poly_ext _ (fun t => (1 + -1 * t) * dL m t)); [intros; ring|apply poly_lin, dL_poly]. }
    rewrite (rule_sum_one (S m) lam x _ i0) in I2; [|lia|].
    - pose proof (integral_unique _ _ _ I2 I1) as E. rewrite E0, dL_end, (L_end (-1)), L_p1 in E by ring. cbn [pow] in E.
      assert (((-1) ^ m) * (lam i0 * ((INR m + 1) * INR m)) = (-1) ^ m * 2) as E' by lra.
      apply Rmult_eq_reg_l in E'; [|apply pow_nonzero; lra]. apply two_over, E'.
    - intros i Hi N. destruct (Zx i ltac:(lia)) as [H | [-> | ->]]; [|ring|ring]. exfalso. apply N, Inj; try lia; congruence. }
  assert (forall k, (k <= m)%nat -> L m (x k) <> 0 /\ lam k = 2 / ((INR m + 1) * INR m * L m (x k) * L m (x k))) as K.
  { intros k Hk. destruct (Zx k Hk) as [H | [H | H]].
    - assert (k = i0) as -> by (apply Inj; try lia; congruence). rewrite W0, E0, L_end by ring. split; [apply pow_nonzero; lra|].
      replace ((INR m + 1) * INR m * (-1) ^ m * (-1) ^ m) with ((INR m + 1) * INR m * ((-1) ^ m * (-1) ^ m)) by ring. rewrite m1_sq, Rmult_1_r. reflexivity.
    - assert (k = i1) as -> by (apply Inj; try lia; congruence). rewrite W1, E1, L_p1. split; [lra|]. rewrite !Rmult_1_r. reflexivity.
    - assert (1 - x k <> 0) as N1 by (intros C; apply (inner_ne m 1 Hm); [ring|]; replace 1 with (x k) by lra; exact H).
      assert (1 + x k <> 0) as N2 by (intros C; apply (inner_ne m (-1) Hm); [ring|]; replace (-1) with (x k) by lra; exact H).
      destruct m as [|m']; [lia|]. set (m := S m') in *. cbn [pred] in Hl.
      destruct (factor m' (dL m) (x k) (dL_poly m) H) as (g & Pg & Eg & Dg).
      assert (forall i, (i <= m)%nat -> i <> k -> i <> i1 -> (1 + x i) * g (x i) = 0) as Gz.
      { intros i Hi N Ni. destruct (Zx i Hi) as [-> | [C | C]]; [ring|exfalso; apply Ni, Inj; try lia; congruence|].
        specialize (Eg (x i)). rewrite C in Eg. symmetry in Eg. apply Rmult_integral in Eg. destruct Eg as [Eg| ->]; [|ring]. exfalso. apply N, Inj; try lia. lra. }
      assert (integral (fun t => L m t * ((1 + t) * g t)) 0) as I1.
      { apply orth. apply (is_poly_ext _ (fun t => (1 + 1 * t) * g t)); [intros; ring|apply poly_lin, Pg]. }
      assert (integral (fun t => L m t * ((1 + t) * g t)) (rule_sum (S m) lam x (fun t => L m t * ((1 + t) * g t)))) as I2.
      { apply Hl. apply poly_mul; [apply L_poly|]. apply (is_poly_ext _ (fun t => (1 + 1 * t) * g t)); [intros; ring|apply poly_lin, Pg]. }
      assert (k <> i1) as Nk by (intros C; subst k; apply N1; rewrite E1; ring).
      assert (rule_sum (S m) lam x (fun t => L m t * ((1 + t) * g t)) = lam k * (L m (x k) * ((1 + x k) * g (x k))) + lam i1 * (L m 1 * ((1 + 1) * g 1))) as RS.
      { transitivity (rule_sum (S m) lam x (fun t => L m t * ((1 + t) * g t) * ((1 - t) / (1 - x k))) + rule_sum (S m) lam x (fun t => L m t * ((1 + t) * g t) * ((t - x k) / (1 - x k)))).
        - unfold rule_sum. generalize (seq 0 (S m)). intros l. induction l as [|i l IH]; cbn [map fold_right]; [ring|]. rewrite IH. field. exact N1.
        - rewrite (rule_sum_one (S m) lam x _ k), (rule_sum_one (S m) lam x _ i1); try lia.
          + rewrite E1. field. exact N1.
          + intros i Hi N. destruct (Nat.eq_dec i k) as [->|Nik]; [field; exact N1|]. rewrite Gz by (try lia; assumption). field. exact N1.
          + intros i Hi N. destruct (Nat.eq_dec i i1) as [->|Nik]; [rewrite E1; field; exact N1|]. rewrite Gz by (try lia; assumption). field. exact N1. }
      rewrite RS in I2. pose proof (integral_unique _ _ _ I2 I1) as E. rewrite L_p1, W1 in E.
      assert (g 1 = INR m * (INR m + 1) / 2 / (1 - x k)) as G1 by (pose proof (Eg 1) as F; rewrite dL_p1 in F; apply (Rmult_eq_reg_l (1 - x k)); [rewrite <- F; field; exact N1|exact N1]).
      assert ((1 - x k * x k) * g (x k) = - (INR m * (INR m + 1)) * L m (x k)) as G2.
      { destruct (poly_diff _ _ (dL_poly m)) as (d2 & _ & Hd2). rewrite (Dg _ (Hd2 (x k))).
        eapply uniqueness_limite; [|apply L_ode].
        replace ((1 - x k * x k) * d2 (x k)) with ((0 - (1 * x k + x k * 1)) * dL m (x k) + (1 - x k * x k) * d2 (x k)) by (rewrite H; ring).
        apply (derivable_pt_lim_mult (fun t => 1 - t * t) (dL m)); [|apply Hd2].
        apply (derivable_pt_lim_minus (fun _ => 1) (fun t => t * t)); [apply derivable_pt_lim_const|].
        apply (derivable_pt_lim_mult id id); apply derivable_pt_lim_id. }
      assert (lam k * (L m (x k) * L m (x k)) * (INR m * (INR m + 1)) = 2) as F.
      { assert ((1 - x k) * (lam k * (L m (x k) * ((1 + x k) * g (x k))) + 2 / ((INR m + 1) * INR m) * (1 * ((1 + 1) * g 1))) = 0) as E' by (rewrite E; ring).
        rewrite G1 in E'.
        replace ((1 - x k) * (lam k * (L m (x k) * ((1 + x k) * g (x k))) + 2 / ((INR m + 1) * INR m) * (1 * ((1 + 1) * (INR m * (INR m + 1) / 2 / (1 - x k))))))
          with (lam k * L m (x k) * ((1 - x k * x k) * g (x k)) + 2) in E' by (field; repeat split; lra).
        rewrite G2 in E'. lra. }
      assert (L m (x k) <> 0) as NL by (intros C; rewrite C in F; lra).
      split; [exact NL|]. apply two_over. lra. }
  split; [intros i Hi; apply K, Hi|]. intros f Pf. apply (integral_val _ (rule_sum (S m) lam x f)); [|apply Hl, Pf].
  unfold rule_sum. f_equal. apply map_seq_ext. intros j Hj. destruct (K j ltac:(lia)) as (_ & ->). reflexivity.
Qed.

(** ** the rules as lists *)
Lemma collect_map {A B} (f : A -> option B) (h : A -> B) l : (forall a, In a l -> f a = Some (h a)) -> collect (map f l) = Some (map h l).
Proof.
  induction l as [|a l IH]; intros H; cbn [map collect]; [reflexivity|]. rewrite (H a (or_introl eq_refl)), IH; [reflexivity|]. intros b Hb. apply H. right. exact Hb.
Qed.
Lemma wsum_rule f h g : wsum f g (map h g) = rule_sum (length g) (fun i => h (nth i g 0)) (fun i => nth i g 0) f.
Proof.
  unfold rule_sum. induction g as [|a g IH]; [reflexivity|]. cbn [map wsum length seq fold_right nth]. rewrite IH. f_equal. f_equal.
  rewrite <- seq_shift, map_map. reflexivity.
Qed.
Lemma moment_wsum k g : forall w, moment k g w = wsum (fun x => x ^ k) g w.
Proof. induction g as [|a g IH]; intros [|b w]; cbn [moment wsum]; try reflexivity. rewrite IH. ring. Qed.
Lemma nodup_distinct g n : length g = n -> NoDup g -> distinct n (fun i => nth i g 0).
Proof. intros <- H i j Hi Hj N E. apply N. exact (proj1 (NoDup_nth g 0) H i j Hi Hj E). Qed.
Lemma pow_poly k : is_poly (S k) (fun x => x ^ k).
Proof. induction k as [|k IH]; [apply (is_poly_ext _ (fun _ => 1)); [reflexivity|apply poly_const]|]. apply (is_poly_ext _ (fun x => x * x ^ k)); [reflexivity|apply is_poly_shift, IH]. Qed.
Lemma integral_pow k : integral (fun x => x ^ k) (exact k).
Proof.
  apply (integral_val _ (pint k [1] 1 - pint k [1] (-1))).
  - unfold exact. cbn [pint]. rewrite pow1. field. apply not_0_INR. lia.
  - apply (integral_ext (fun x => x ^ k * peval [1] x)); [intros; cbn; ring|]. apply integral_diff, pint_derive.
Qed.
Lemma rule_good d g h : (forall f, is_poly (S d) f -> integral f (rule_sum (length g) (fun i => h (nth i g 0)) (fun i => nth i g 0) f)) -> good d 0 g (map h g).
Proof.
  intros H k Hk. rewrite moment_wsum, wsum_rule.
  rewrite (integral_unique _ _ _ (H (fun x => x ^ k) (is_poly_le (S k) (S d) _ ltac:(lia) (pow_poly k))) (integral_pow k)).
  rewrite Rminus_eq_0, Rabs_R0. lra.
Qed.
Lemma over_some a b : b <> 0 -> over a b = Some (a / b).
Proof. intros H. unfold over. destruct (Req_EM_T b 0); [contradiction|reflexivity]. Qed.
Lemma gauss_list n g : (1 <= n)%Z -> length g = Z.to_nat n -> NoDup g -> (forall x, In x g -> L (Z.to_nat n) x = 0) ->
  exists w, collect (map (gauss_weight n) g) = Some w /\ length w = length g /\ Forall (fun x => 0 < x) w /\ Forall (fun x => -1 < x < 1) g /\ good (Z.to_nat (2 * n - 1)) 0 g w.
Proof.
  intros Hn Lg ND Z. set (m := Z.to_nat n) in *.
  assert (forall i, (i < m)%nat -> L m (nth i g 0) = 0) as Zi by (intros i Hi; apply Z, nth_In; lia).
  pose proof (gauss_rule m (fun i => nth i g 0) ltac:(lia) (nodup_distinct g m Lg ND) Zi) as H.
  assert (forall x, In x g -> -1 < x < 1 /\ dL m x <> 0) as Hx.
  { intros x Hx. apply (In_nth g x 0) in Hx. destruct Hx as (i & Hi & <-). destruct (H i ltac:(lia)) as (A & B & _). auto. }
  set (h := fun x => 2 / ((1 - x * x) * dL m x * dL m x)).
  assert (forall x, In x g -> 0 < (1 - x * x) * dL m x * dL m x) as Pos.
  { intros x Hi. destruct (Hx x Hi) as (A & B). rewrite Rmult_assoc. apply Rmult_lt_0_compat; [assert (0 < (1 - x) * (1 + x)) by (apply Rmult_lt_0_compat; lra); lra|]. apply Rsqr_pos_lt in B. exact B. }
  exists (map h g). split; [|split; [apply map_length|split; [|split]]].
  - apply collect_map. intros x Hi. unfold gauss_weight. rewrite evaluate_ok by lia. apply over_some. specialize (Pos x Hi). fold m. lra.
  - apply Forall_forall. intros y Hy. apply in_map_iff in Hy. destruct Hy as (x & <- & Hi). unfold h. apply Rdiv_lt_0_compat; [lra|apply Pos, Hi].
  - apply Forall_forall. intros x Hi. apply Hx, Hi.
  - destruct (H 0%nat ltac:(lia)) as (_ & _ & I). apply rule_good. intros f Pf. rewrite Lg. apply I. replace (m + m)%nat with (S (Z.to_nat (2 * n - 1))) by lia. exact Pf.
Qed.
Lemma lobatto_list n l : (2 <= n)%Z -> length l = Z.to_nat (n - 2) -> NoDup l -> (forall x, In x l -> dL (Z.to_nat (n - 1)) x = 0) ->
  exists w, collect (map (lobatto_weight n) (-1 :: l ++ [1])) = Some w /\ length w = Z.to_nat n /\ Forall (fun x => 0 < x) w /\ good (Z.to_nat (2 * n - 3)) 0 (-1 :: l ++ [1]) w.
Proof.
  intros Hn Ll ND Z. set (m := Z.to_nat (n - 1)) in *. set (g := -1 :: l ++ [1]). assert (1 <= m)%nat as Hm by lia.
  assert (length g = S m) as Lg by (unfold g; cbn; rewrite app_length; cbn; lia).
  assert (~ In 1 l) as N1 by (intros C; apply (inner_ne m 1 Hm); [ring|apply Z, C]).
  assert (~ In (-1) l) as N2 by (intros C; apply (inner_ne m (-1) Hm); [ring|apply Z, C]).
  assert (NoDup g) as NDg.
  { unfold g. constructor; [rewrite in_app_iff; cbn; intros [C|[C|[]]]; [contradiction|lra]|]. apply (Permutation.Permutation_NoDup (l := 1 :: l)); [apply Permutation.Permutation_cons_append|]. constructor; assumption. }
  assert (forall x, In x g -> x = -1 \/ x = 1 \/ dL m x = 0) as Zg.
  { unfold g. intros x [<-|Hx]; [auto|]. apply in_app_or in Hx. destruct Hx as [Hx|[<-|[]]]; auto. }
  destruct (lobatto_rule m (fun i => nth i g 0) Hm (nodup_distinct g (S m) Lg NDg)) as (NL & I).
  { intros i Hi. apply Zg, nth_In. lia. }
  { exists 0%nat. split; [lia|reflexivity]. }
  { exists (S (length l)). split; [lia|]. unfold g. cbn [nth]. rewrite app_nth2, Nat.sub_diag by lia. reflexivity. }
  assert (1 <= INR m) as Pm by (apply (le_INR 1); lia).
  set (h := fun x => 2 / ((INR m + 1) * INR m * L m x * L m x)).
  assert (forall x, In x g -> 0 < (INR m + 1) * INR m * L m x * L m x) as Pos.
  { intros x Hx. apply (In_nth g x 0) in Hx. destruct Hx as (i & Hi & <-). specialize (NL i ltac:(lia)). rewrite Rmult_assoc. apply Rmult_lt_0_compat; [nra|]. apply Rsqr_pos_lt in NL. exact NL. }
  assert (IZR n = INR m + 1) as En by (unfold m; rewrite INR_IZR_INZ, Z2Nat.id by lia; rewrite minus_IZR; ring).
  exists (map h g). split; [|split; [rewrite map_length; lia|split]].
  - apply collect_map. intros x Hx. unfold lobatto_weight. rewrite evaluate_ok by lia. fold m. rewrite En. replace (INR m + 1 - 1) with (INR m) by ring. apply over_some. specialize (Pos x Hx). lra.
  - apply Forall_forall. intros y Hy. apply in_map_iff in Hy. destruct Hy as (x & <- & Hx). unfold h. apply Rdiv_lt_0_compat; [lra|apply Pos, Hx].
  - apply rule_good. intros f Pf. rewrite Lg. apply I. replace (S m + pred m)%nat with (S (Z.to_nat (2 * n - 3))) by lia. exact Pf.
Qed.

(** ** the roots *)
Lemma finite_choice (P : nat -> R -> Prop) n : (forall i, (i < n)%nat -> exists x, P i x) -> exists f, forall i, (i < n)%nat -> P i (f i).
Proof.
  induction n as [|n IH]; intros H; [exists (fun _ => 0); intros; lia|].
  destruct (IH ltac:(intros; apply H; lia)) as (f & Hf). destruct (H n ltac:(lia)) as (y & Hy).
  exists (fun i => if (i =? n)%nat then y else f i). intros i Hi. destruct (Nat.eqb_spec i n) as [->|N]; [exact Hy|apply Hf; lia].
Qed.
Lemma L_cont n : continuity (L n).
Proof. intros x. apply derivable_continuous_pt. exists (dL n x). apply L_derive. Qed.
Lemma root_between n a b : a < b -> L n a * L n b < 0 -> exists z, a < z < b /\ L n z = 0.
Proof.
  intros Hab Hs. destruct (Rlt_dec (L n a) 0) as [Ha|Ha].
  - destruct (IVT (L n) a b (L_cont n) Hab Ha ltac:(nra)) as (z & (Z1 & Z2) & E). exists z. split; [|exact E]. split.
    + destruct Z1 as [Z1|Z1]; [exact Z1|]. subst z. lra.
    + destruct Z2 as [Z2|Z2]; [exact Z2|]. subst z. rewrite E in Hs. lra.
  - assert (0 < L n a) as Ha' by (destruct (Req_dec (L n a) 0) as [E0|]; [rewrite E0 in Hs; lra|lra]). assert (L n b < 0) as Hb by nra.
    destruct (IVT (fun x => - L n x) a b) as (z & (Z1 & Z2) & E); try lra; [intros x; apply (continuity_pt_opp (L n)), L_cont|]. assert (L n z = 0) as E' by lra. exists z. split; [|exact E']. split.
    + destruct Z1 as [Z1|Z1]; [exact Z1|]. subst z. lra.
    + destruct Z2 as [Z2|Z2]; [exact Z2|]. subst z. lra.
Qed.
(** increasing nodes *)
Definition rising (n : nat) (x : nat -> R) : Prop := forall i j, (i < j)%nat -> (j < n)%nat -> x i < x j.
Lemma rising_distinct n x : rising n x -> distinct n x.
Proof. intros H i j Hi Hj N E. destruct (Nat.lt_ge_cases i j); [specialize (H i j ltac:(lia) Hj)|specialize (H j i ltac:(lia) Hi)]; lra. Qed.
Lemma rising_step n x : (forall i, (S i < n)%nat -> x i < x (S i)) -> rising n x.
Proof. intros H i j Hij Hj. induction Hij as [|j Hij IH]; [apply H; lia|]. apply (Rlt_trans _ (x j)); [apply IH; lia|apply H; lia]. Qed.
(** sign of the product of the factors *)
Lemma prod_sign n x t j : (j <= n)%nat -> (forall i, (i < j)%nat -> x i < t) -> (forall i, (j <= i < n)%nat -> t < x i) -> 0 < (-1) ^ (n - j) * prodx x n t.
Proof.
  intros Hj A B. assert (forall k, (j <= k <= n)%nat -> 0 < (-1) ^ (k - j) * prodx x k t) as K; [|apply K; lia].
  assert (forall k, (k <= j)%nat -> 0 < prodx x k t) as K0.
  { induction k as [|k IH]; intros Hk; cbn [prodx]; [lra|]. apply Rmult_lt_0_compat; [apply IH; lia|]. specialize (A k ltac:(lia)). lra. }
  intros k Hk. induction k as [|k IH].
  - replace (0 - j)%nat with 0%nat by lia. cbn. lra.
  - destruct (Nat.eq_dec j (S k)) as [E|N]; [rewrite E, Nat.sub_diag; specialize (K0 (S k) ltac:(lia)); cbn [pow]; lra|].
    replace (S k - j)%nat with (S (k - j)) by lia. cbn [pow prodx]. specialize (IH ltac:(lia)). specialize (B k ltac:(lia)).
    replace (-1 * (-1) ^ (k - j) * (prodx x k t * (t - x k))) with (((-1) ^ (k - j) * prodx x k t) * (x k - t)) by ring. apply Rmult_lt_0_compat; lra.
Qed.
Lemma L_sign n x t j : distinct n x -> (forall i, (i < n)%nat -> L n (x i) = 0 /\ x i < 1) -> (j <= n)%nat -> (forall i, (i < j)%nat -> x i < t) -> (forall i, (j <= i < n)%nat -> t < x i) ->
  0 < (-1) ^ (n - j) * L n t.
Proof.
  intros Dx Zx Hj A B. destruct (divide n x 1 (L n)) as (k & (kp & Lk & Ek) & Eo); [replace (n + 1)%nat with (S n) by lia; apply L_poly|exact Dx|intros i Hi; apply Zx, Hi|].
  assert (forall t, k t = k 1) as Kc by (intros u; rewrite !Ek; destruct kp as [|a [|b r]]; [reflexivity|cbn; ring|cbn in Lk; lia]).
  assert (0 < prodx x n 1) as P1.
  { pose proof (prod_sign n x 1 n ltac:(lia)) as H. rewrite Nat.sub_diag in H. cbn [pow] in H. rewrite Rmult_1_l in H. apply H; [intros i Hi; apply Zx, Hi|intros; lia]. }
  assert (0 < k 1) as Pk by (pose proof (Eo 1) as E; rewrite L_p1 in E; nra).
  rewrite Eo, Kc. replace ((-1) ^ (n - j) * (prodx x n t * k 1)) with ((-1) ^ (n - j) * prodx x n t * k 1) by ring.
  apply Rmult_lt_0_compat; [apply prod_sign; assumption|exact Pk].
Qed.
Lemma opposite a b s t : 0 < s * a -> 0 < t * b -> s * t = -1 -> a * b < 0.
Proof. intros A B E. assert (0 < (s * a) * (t * b)) as H by (apply Rmult_lt_0_compat; assumption). replace (s * a * (t * b)) with (s * t * (a * b)) in H by ring. rewrite E in H. lra. Qed.
Lemma m1_next a : (-1) ^ a * (-1) ^ S a = -1.
Proof. cbn [pow]. replace ((-1) ^ a * (-1 * (-1) ^ a)) with (- ((-1) ^ a * (-1) ^ a)) by ring. rewrite m1_sq. ring. Qed.
(** the roots of consecutive polynomials interlace *)
Definition root_set (n : nat) (x : nat -> R) : Prop := rising n x /\ forall i, (i < n)%nat -> L n (x i) = 0 /\ -1 < x i < 1.
Lemma interlacing n : exists y z, root_set n y /\ root_set (S n) z /\ forall i, (i < n)%nat -> z i < y i < z (S i).
Proof.
  induction n as [|n (y & z & Ry & Rz & I)].
  - exists (fun _ => 0), (fun _ => 0). split; [split; intros i; intros; lia|]. split; [|intros; lia]. split; [intros i j; lia|]. intros i _. rewrite L_1. lra.
  - destruct Ry as (Iy & Zy). destruct Rz as (Iz & Zz).
    assert (forall i, (i <= n)%nat -> 0 < (-1) ^ (n + 1 - i) * L (S (S n)) (z i)) as Sz.
    { intros i Hi. assert (0 < (-1) ^ (n - i) * L n (z i)) as H.
      { apply (L_sign n y); [apply rising_distinct, Iy|intros j Hj; split; apply Zy, Hj|exact Hi| |].
        - intros j Hj. destruct (I j ltac:(lia)) as (_ & A). destruct (Nat.eq_dec (S j) i) as [<-|N]; [exact A|]. apply (Rlt_trans _ (z (S j))); [exact A|apply Iz; lia].
        - intros j (Hj & Hn). destruct (I j Hn) as (A & _). destruct (Nat.eq_dec i j) as [<-|N]; [exact A|]. apply (Rlt_trans _ (z j)); [apply Iz; lia|exact A]. }
      rewrite L_rec. destruct (Zz i ltac:(lia)) as (-> & _). replace (n + 1 - i)%nat with (S (n - i)) by lia. cbn [pow]. pose proof (INR_nneg n) as Hn.
      replace (-1 * (-1) ^ (n - i) * (((2 * INR n + 3) * z i * 0 - (INR n + 1) * L n (z i)) / (INR n + 2))) with (((-1) ^ (n - i) * L n (z i)) * ((INR n + 1) / (INR n + 2))) by (field; lra).
      apply Rmult_lt_0_compat; [exact H|apply Rdiv_lt_0_compat; lra]. }
    set (lo := fun i => match i with O => -1 | S k => z k end). set (hi := fun i => if (i <=? n)%nat then z i else 1).
    assert (forall i, (i < S (S n))%nat -> exists w, (lo i < w < hi i) /\ L (S (S n)) w = 0) as H.
    { intros i Hi. apply root_between.
      - unfold lo, hi. destruct (Nat.leb_spec i n); destruct i as [|k]; [apply Zz; lia|apply Iz; lia|lia|apply Zz; lia].
      - apply (opposite _ _ ((-1) ^ (S (S n) - i)) ((-1) ^ (n + 1 - i))).
        + unfold lo. destruct i as [|k]; [rewrite L_end by ring; replace (S (S n) - 0)%nat with (S (S n)) by lia; rewrite m1_sq; lra|].
          replace (S (S n) - S k)%nat with (n + 1 - k)%nat by lia. apply Sz. lia.
        + unfold hi. destruct (Nat.leb_spec i n); [apply Sz; assumption|]. replace (n + 1 - i)%nat with 0%nat by lia. rewrite L_p1. cbn. lra.
        + rewrite Rmult_comm. replace (S (S n) - i)%nat with (S (n + 1 - i)) by lia. apply m1_next. }
    destruct (finite_choice _ _ H) as (w & Hw).
    assert (forall i, (i < S n)%nat -> w i < z i < w (S i)) as Iw.
    { intros i Hi. destruct (Hw i ltac:(lia)) as ((_ & A) & _). destruct (Hw (S i) ltac:(lia)) as ((B & _) & _). unfold hi in A. unfold lo in B.
      replace (i <=? n)%nat with true in A by (symmetry; apply Nat.leb_le; lia). lra. }
    exists z, w. split; [split; assumption|]. split; [|exact Iw]. split.
    + apply rising_step. intros i Hi. destruct (Iw i ltac:(lia)). lra.
    + intros i Hi. split; [apply Hw, Hi|]. destruct (Hw i Hi) as ((A & B) & _).
      assert (-1 <= lo i) by (unfold lo; destruct i as [|k]; [lra|destruct (Zz k ltac:(lia)); lra]).
      assert (hi i <= 1) by (unfold hi; destruct (Nat.leb_spec i n); [destruct (Zz i ltac:(lia)); lra|lra]). lra.
Qed.
Lemma roots_exist n : exists x, root_set n x.
Proof. destruct (interlacing n) as (y & _ & H & _). exists y. exact H. Qed.
Lemma rising_list n x : rising n x -> increasing (map x (seq 0 n)).
Proof.
  intros H. assert (forall m a, (a + m <= n)%nat -> increasing (map x (seq a m))) as G; [|apply G; lia].
  induction m as [|m IH]; intros a Ha; [exact I|]. destruct m as [|m]; [exact I|]. cbn [seq map]. cbn [increasing]. split; [apply H; lia|apply (IH (S a)); lia].
Qed.
Lemma roots_list n : exists g, length g = n /\ increasing g /\ forall x, In x g -> L n x = 0 /\ -1 < x < 1.
Proof.
  destruct (roots_exist n) as (x & I & Z). exists (map x (seq 0 n)). rewrite map_length, seq_length. split; [reflexivity|]. split; [apply rising_list, I|].
  intros y Hy. apply in_map_iff in Hy. destruct Hy as (i & <- & Hi). apply in_seq in Hi. apply Z. lia.
Qed.
Lemma slope_roots_list m : exists g, length g = pred m /\ increasing g /\ forall x, In x g -> dL m x = 0 /\ -1 < x < 1.
Proof.
  destruct (roots_exist m) as (x & I & Z).
  assert (forall i, (i < pred m)%nat -> exists y, (x i < y < x (S i)) /\ dL m y = 0) as H.
  { intros i Hi. assert (x i < x (S i)) as Hx by (apply I; lia). destruct (MVT_cor2 (L m) (dL m) (x i) (x (S i)) Hx) as (c & Ec & Ic); [intros; apply L_derive|].
    exists c. split; [exact Ic|]. rewrite (proj1 (Z i ltac:(lia))), (proj1 (Z (S i) ltac:(lia))) in Ec. assert (dL m c * (x (S i) - x i) = 0) as E by lra. apply Rmult_integral in E. destruct E; [assumption|lra]. }
  destruct (finite_choice _ _ H) as (y & Hy). exists (map y (seq 0 (pred m))). rewrite map_length, seq_length. split; [reflexivity|]. split.
  - apply rising_list, rising_step. intros i Hi. destruct (Hy i ltac:(lia)) as ((_ & A) & _). destruct (Hy (S i) ltac:(lia)) as ((B & _) & _). lra.
  - intros u Hu. apply in_map_iff in Hu. destruct Hu as (i & <- & Hi). apply in_seq in Hi. destruct (Hy i ltac:(lia)) as ((A & B) & E). split; [exact E|].
    destruct (Z i ltac:(lia)) as (_ & C). destruct (Z (S i) ltac:(lia)) as (_ & D). lra.
Qed.
Lemma increasing_nodup l : increasing l -> NoDup l.
Proof.
  assert (forall l a, increasing (a :: l) -> forall b, In b l -> a < b) as G.
  { induction l0 as [|c l0 IH]; intros a H b Hb; [destruct Hb|]. destruct H as (H1 & H2). destruct Hb as [<-|Hb]; [exact H1|]. apply (Rlt_trans _ c); [exact H1|]. apply IH; assumption. }
  induction l as [|a l IH]; intros H; constructor.
  - intros C. pose proof (G l a H a C). lra.
  - apply IH. destruct l; [exact I|apply H].
Qed.
