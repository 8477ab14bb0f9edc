(** Lemmas: what the evaluation returns, uniqueness, exactness of the weights. *)
From Coq Require Import ZArith Reals List Bool Lia Lra Psatz.
From Verif Require Import QuadModel QuadSpec QuadProofs InterpSpec InterpProofs FluxProofs LegModel LegSpec LegProofs.
Import ListNotations.
Local Open Scope R_scope.

(** ** evaluation *)
Lemma rise_ok x m : fold_left (rise x) (seq 2 m) (1, x, x * x, 1) = (L m x, L (S m) x, x ^ S (S m), dL (S m) x).
Proof.
  induction m as [|m IH].
  - cbn [seq fold_left]. rewrite L_0, L_1, dL_1. f_equal. f_equal. cbn. ring.
  - rewrite seq_S, fold_left_app, IH. cbn [fold_left]. unfold rise.
    assert (INR (2 + m) = INR m + 2) as Em by (rewrite plus_INR; cbn; ring). pose proof (INR_nneg m) as Hm. rewrite Em.
    assert ((2 * (INR m + 2) - 1) / (INR m + 2) * x * L (S m) x - (INR m + 2 - 1) / (INR m + 2) * L m x = L (S (S m)) x) as E by (rewrite L_rec; field; lra).
    rewrite E. assert (x ^ S (S m) * x = x ^ S (S (S m))) as E2 by (cbn [pow]; ring). rewrite E2. f_equal.
    destruct (Req_EM_T (Rabs x) 1) as [H1|H1].
    + assert (x * x = 1) as Hx by (unfold Rabs in H1; destruct (Rcase_abs x); nra).
      rewrite (dL_end x (S (S m)) Hx), !S_INR. generalize (x ^ S (S (S m))). intros X. lra.
    + assert (1 - x * x <> 0) as Hx. { intros C. apply H1. assert (x = 1 \/ x = -1) as [-> | ->] by nra; [apply Rabs_R1|rewrite Rabs_left by lra; ring]. }
      destruct (relations (S m) x) as (A & _). rewrite S_INR in A. apply (Rmult_eq_reg_l (1 - x * x)); [|exact Hx]. rewrite A. field. exact Hx.
Qed.
Lemma evaluate_ok n x : (0 <= n)%Z -> evaluate n x = Ev (L (Z.to_nat n) x) (dL (Z.to_nat n) x).
Proof.
  intros Hn. unfold evaluate. destruct (n <? 9)%Z eqn:E; [apply Z.ltb_lt in E|apply Z.ltb_ge in E].
  - assert (n = 0 \/ n = 1 \/ n = 2 \/ n = 3 \/ n = 4 \/ n = 5 \/ n = 6 \/ n = 7 \/ n = 8)%Z as C by lia.
    repeat (destruct C as [->|C]; [|try (subst n)]);
    match goal with |- context [Z.to_nat ?k] => let v := eval compute in (Z.to_nat k) in change (Z.to_nat k) with v end;
    unfold eval_low; rewrite ?dL_rec, ?L_rec, ?L_1, ?L_0, ?dL_1, ?dL_0; cbn [INR]; f_equal; lra.
  - unfold eval_high. rewrite rise_ok. f_equal; f_equal; lia.
Qed.
Lemma evaluate_neg n x : (n < 0)%Z -> evaluate n x = Unset.
Proof. intros H. destruct n; try lia. reflexivity. Qed.

(** ** squares *)
Lemma inv_reg a b : / a = / b -> a = b.
Proof. intros H. rewrite <- (Rinv_inv a), <- (Rinv_inv b), H. reflexivity. Qed.
Lemma square_pos n g v : is_poly n g -> integral (fun x => g x * g x) v -> 0 <= v /\ (v = 0 -> forall x, g x = 0).
Proof.
  intros Pg (F & HF & ->). split.
  - destruct (MVT_cor2 F (fun x => g x * g x) (-1) 1) as (c & Ec & _); [lra|intros; apply HF|]. rewrite Ec. pose proof (Rle_0_sqr (g c)). unfold Rsqr in *. nra.
  - intros E. assert (forall x, -1 < x < 1 -> - (g x * g x) = 0) as Z.
    { apply (monotone_flat (fun x => - F x)); [intros x; apply (derivable_pt_lim_opp F), HF|intros x _; pose proof (Rle_0_sqr (g x)); unfold Rsqr in *; lra|lra]. }
    apply (poly_roots n g (fun i => / (INR i + 2)) Pg).
    + intros i j _ _ N C. apply N, INR_eq. pose proof (INR_nneg i). pose proof (INR_nneg j). apply inv_reg in C. lra.
    + intros i _. pose proof (INR_nneg i) as Hi. assert (-1 < / (INR i + 2) < 1) as B.
      { split; [assert (0 < / (INR i + 2)) by (apply Rinv_0_lt_compat; lra); lra|]. rewrite <- Rinv_1. apply Rinv_lt_contravar; lra. }
      specialize (Z _ B). assert (g (/ (INR i + 2)) * g (/ (INR i + 2)) = 0) as Y by lra. apply Rmult_integral in Y. tauto.
Qed.
Lemma legendre_unique n c c' : legendre n c -> legendre n c' -> forall x, peval c x = peval c' x.
Proof.
  intros (Lc & Ec & Oc) (Lc' & Ec' & Oc').
  set (d := padd c (map (Rmult (-1)) c')).
  assert (forall x, peval d x = peval c x - peval c' x) as Ed by (intros; unfold d; rewrite padd_eval, pscale_eval; ring).
  assert (length d <= S n)%nat as Ld by (unfold d; rewrite padd_length, map_length; lia).
  destruct (synthetic d 1) as (q & Lq & Eq).
  assert (forall t, peval d t = (t - 1) * peval q t) as Dq by (intros t; rewrite <- Eq, !Ed, Ec, Ec'; ring).
  assert (length q <= n)%nat as Lq' by lia.
  assert (forall x, peval q x = 0) as Q0; [|intros x; specialize (Dq x); rewrite Q0, Ed in Dq; lra].
  assert (integral (fun x => (x - 1) * (peval q x * peval q x)) 0) as (F & HF & EF).
  { apply (integral_ext (fun x => peval c x * peval q x + -1 * (peval c' x * peval q x))).
    { intros x. specialize (Dq x). rewrite Ed in Dq. transitivity ((peval c x - peval c' x) * peval q x); [ring|]. rewrite Dq. ring. }
    apply (integral_val _ (0 + -1 * 0)); [ring|]. apply integral_add; [apply Oc, Lq'|apply integral_scale, Oc', Lq']. }
  assert (forall x, -1 < x < 1 -> (x - 1) * (peval q x * peval q x) = 0) as Z.
  { apply (monotone_flat F _ HF); [|lra]. intros x Hx. pose proof (Rle_0_sqr (peval q x)). unfold Rsqr in *. nra. }
  apply (poly_roots n (peval q) (fun i => / (INR i + 2))); [exists q; auto| |].
  - intros i j _ _ N C. apply N, INR_eq. apply inv_reg in C. lra.
  - intros i _. pose proof (INR_nneg i) as Hi. assert (-1 < / (INR i + 2) < 1) as B.
    { split; [assert (0 < / (INR i + 2)) by (apply Rinv_0_lt_compat; lra); lra|]. rewrite <- Rinv_1. apply Rinv_lt_contravar; lra. }
    specialize (Z _ B). apply Rmult_integral in Z. destruct Z as [Z|Z]; [lra|]. apply Rmult_integral in Z. tauto.
Qed.
Lemma legendre_L n c : legendre n c -> forall x, peval c x = L n x.
Proof. intros H x. destruct (L_legendre n) as (c' & H' & E). rewrite E. exact (legendre_unique n c c' H H' x). Qed.

(** ** interpolatory quadrature *)
Fixpoint prodx (x : nat -> R) (n : nat) (t : R) : R := match n with O => 1 | S m => prodx x m t * (t - x m) end.
Lemma divide n x : forall m f, is_poly (n + m) f -> distinct n x -> (forall i, (i < n)%nat -> f (x i) = 0) ->
  exists q, is_poly m q /\ forall t, f t = prodx x n t * q t.
Proof.
  induction n as [|n IH]; intros m f Pf Dx Z.
  - exists f. split; [exact Pf|]. intros; cbn; ring.
  - destruct (IH (S m) f) as (q & Pq & Eq).
    + replace (n + S m)%nat with (S n + m)%nat by lia. exact Pf.
    + intros i j Hi Hj. apply Dx; lia.
    + intros i Hi. apply Z. lia.
    + assert (prodx x n (x n) <> 0) as Nz.
      { assert (forall k, (k <= n)%nat -> prodx x k (x n) <> 0) as K; [|apply K; lia]. induction k as [|k IHk]; intros Hk; cbn [prodx]; [lra|].
        apply Rmult_integral_contrapositive_currified; [apply IHk; lia|]. assert (x n <> x k) by (apply Dx; lia). lra. }
      assert (q (x n) = 0) as Qz. { specialize (Eq (x n)). rewrite Z in Eq by lia. symmetry in Eq. apply Rmult_integral in Eq. tauto. }
      destruct Pq as (p & Lp & Ep). destruct (synthetic p (x n)) as (s & Ls & Es). exists (peval s). split; [exists s; split; [lia|reflexivity]|].
      intros t. rewrite Eq. cbn [prodx]. specialize (Es t). rewrite <- !Ep, Qz in Es. replace (q t) with ((t - x n) * peval s t) by lra. ring.
Qed.
Definition rule_sum (n : nat) (lam x : nat -> R) (f : R -> R) : R := fold_right Rplus 0 (map (fun i => lam i * f (x i)) (seq 0 n)).
Lemma interpolatory n m x om : distinct n x -> is_poly (S n) om -> (forall i, (i < n)%nat -> om (x i) = 0) -> (exists t, om t <> 0) ->
  (forall q, is_poly m q -> integral (fun t => om t * q t) 0) ->
  exists lam, forall f, is_poly (n + m) f -> integral f (rule_sum n lam x f).
Proof.
  intros Dx Po Zo (t0 & Nz) Oo.
  destruct (divide n x 1 om) as (k & (kp & Lk & Ek) & Eo); [replace (n + 1)%nat with (S n) by lia; exact Po|exact Dx|exact Zo|].
  assert (exists K, K <> 0 /\ forall t, om t = K * prodx x n t) as (K & NK & EK).
  { exists (k 0). assert (forall t, k t = k 0) as Kc by (intros t; rewrite !Ek; destruct kp as [|a [|b r]]; [reflexivity|cbn; ring|cbn in Lk; lia]).
    split; [|intros t; rewrite Eo, Kc; ring]. intros C. apply Nz. rewrite Eo, Kc, C. ring. }
  assert (forall i, exists v, (i < n)%nat -> integral (D x i 0 (others n i)) v) as H.
  { intros i. destruct (D_poly x i (others n i)) as (p & _ & Ep). destruct (integral_poly p) as (v & Hv). exists v. intros _. apply (integral_ext (peval p)); [intros; rewrite Ep; reflexivity|exact Hv]. }
  assert (forall b, exists lam : nat -> R, forall i, (i < b)%nat -> (i < n)%nat -> integral (D x i 0 (others n i)) (lam i)) as FC.
  { induction b as [|b (l & IH)]; [exists (fun _ => 0); intros; lia|]. destruct (H b) as (v & Hv). exists (fun i => if (i =? b)%nat then v else l i). intros i Hi Hin.
    destruct (Nat.eqb_spec i b) as [->|N]; [auto|apply IH; lia]. }
  destruct (FC n) as (lam & Hl). exists lam. intros f Pf.
  destruct (divide n x m (fun t => f t + -1 * interpolant n x (fun i => f (x i)) 0 t)) as (q & Pq & Eq).
  { apply is_poly_add; [exact Pf|]. apply is_poly_scale, (is_poly_le n); [lia|apply interpolant_poly]. }
  { exact Dx. }
  { intros i Hi. rewrite interpolant_at_node by assumption. ring. }
  apply (integral_ext (fun t => interpolant n x (fun i => f (x i)) 0 t + / K * (om t * q t))).
  { intros t. specialize (Eq t). rewrite EK. replace (/ K * (K * prodx x n t * q t)) with (prodx x n t * q t) by (field; exact NK). rewrite <- Eq. ring. }
  apply (integral_val _ (rule_sum n lam x f + / K * 0)); [ring|]. apply integral_add; [|apply integral_scale, Oo, Pq].
  unfold rule_sum, interpolant.
  apply (integral_ext (fun t => fold_right Rplus 0 (map (fun i => f (x i) * D x i 0 (others n i) t) (seq 0 n)))); [intros t; f_equal; apply map_ext; intros; ring|].
  apply (integral_val _ (fold_right Rplus 0 (map (fun i => f (x i) * lam i) (seq 0 n)))); [f_equal; apply map_ext; intros; ring|].
  apply (integral_sum (fun i t => f (x i) * D x i 0 (others n i) t)). intros i Hi. apply in_seq in Hi. apply integral_scale, Hl; lia.
Qed.
Lemma rule_sum_one n lam x f k : (k < n)%nat -> (forall i, (i < n)%nat -> i <> k -> f (x i) = 0) -> rule_sum n lam x f = lam k * f (x k).
Proof.
  intros Hk Z. unfold rule_sum. rewrite (map_seq_ext _ (fun i => if (i =? k)%nat then lam k * f (x k) else 0)).
  - assert (forall m a, fold_right Rplus 0 (map (fun i => if (i =? k)%nat then lam k * f (x k) else 0) (seq a m)) = if ((a <=? k) && (k <? a + m))%nat then lam k * f (x k) else 0) as G.
    { induction m as [|m IH]; intros a; cbn [seq map fold_right].
      - destruct (Nat.leb_spec a k), (Nat.ltb_spec k (a + 0)); cbn; try lra; lia.
      - rewrite IH. destruct (Nat.eqb_spec a k), (Nat.leb_spec (S a) k), (Nat.ltb_spec k (S a + m)), (Nat.leb_spec a k), (Nat.ltb_spec k (a + S m)); cbn; try lra; lia. }
    rewrite G. cbn [Nat.leb andb]. destruct (Nat.ltb_spec k (0 + n)); [reflexivity|lia].
  - intros i Hi. destruct (Nat.eqb_spec i k) as [->|N]; [reflexivity|]. rewrite Z by assumption. ring.
Qed.
(** integration by parts *)
Lemma parts F f G g v : (forall x, derivable_pt_lim F x (f x)) -> (forall x, derivable_pt_lim G x (g x)) -> integral (fun x => F x * g x) v ->
  integral (fun x => f x * G x) (F 1 * G 1 - F (-1) * G (-1) - v).
Proof.
  intros HF HG H.
  apply (integral_ext (fun x => (f x * G x + F x * g x) + -1 * (F x * g x))); [intros; ring|].
  apply (integral_val _ ((F 1 * G 1 - F (-1) * G (-1)) + -1 * v)); [ring|].
  apply integral_add; [|apply integral_scale, H]. apply (integral_diff (fun x => F x * G x)). intros x. apply (derivable_pt_lim_mult F G); auto.
Qed.
(** division by a root *)
Lemma factor n f s : is_poly (S n) f -> f s = 0 -> exists g, is_poly n g /\ (forall t, f t = (t - s) * g t) /\ forall l, derivable_pt_lim f s l -> g s = l.
Proof.
  intros (p & Lp & Ep) Hs. destruct (synthetic p s) as (q & Lq & Eq). exists (peval q).
  assert (forall t, f t = (t - s) * peval q t) as E by (intros t; rewrite <- Eq, <- !Ep, Hs; ring).
  split; [exists q; split; [lia|reflexivity]|]. split; [exact E|]. intros l Hl.
  eapply uniqueness_limite; [|exact Hl]. apply (derivable_ext (fun t => (t - s) * peval q t)); [intros; symmetry; apply E|].
  replace (peval q s) with ((1 - 0) * peval q s + (s - s) * peval (pdiff q) s) by ring.
  apply (derivable_pt_lim_mult (fun t => t - s) (peval q)); [|apply pdiff_eval].
  apply (derivable_pt_lim_minus id (fun _ => s)); [apply derivable_pt_lim_id|apply derivable_pt_lim_const].
Qed.
Lemma poly_diff n f : is_poly n f -> exists f', is_poly (pred n) f' /\ forall x, derivable_pt_lim f x (f' x).
Proof.
  intros (p & Lp & Ep). exists (peval (pdiff p)). split; [exists (pdiff p); split; [pose proof (pdiff_length p); lia|reflexivity]|].
  intros x. apply (derivable_ext (peval p)); [intros; rewrite Ep; reflexivity|apply pdiff_eval].
Qed.
Lemma m1_sq n : (-1) ^ n * (-1) ^ n = 1.
Proof. induction n as [|n IH]; cbn [pow]; [ring|]. transitivity ((-1) ^ n * (-1) ^ n); [ring|exact IH]. Qed.
Lemma poly_lin n a b f : is_poly n f -> is_poly (S n) (fun x => (a + b * x) * f x).
Proof.
  intros P. apply (is_poly_ext _ (fun x => a * f x + b * (x * f x))); [intros; ring|].
  apply is_poly_add; apply is_poly_scale; [apply (is_poly_le n); [lia|exact P]|apply is_poly_shift, P].
Qed.
(** Gauss: the weight at a root *)
Lemma gauss_rule n x : (1 <= n)%nat -> distinct n x -> (forall i, (i < n)%nat -> L n (x i) = 0) ->
  forall i, (i < n)%nat -> -1 < x i < 1 /\ dL n (x i) <> 0 /\
  forall f, is_poly (n + n) f -> integral f (rule_sum n (fun i => 2 / ((1 - x i * x i) * dL n (x i) * dL n (x i))) x f).
Proof.
  intros Hn Dx Zx.
  destruct (interpolatory n n x (L n) Dx (L_poly n) Zx) as (lam & Hl); [exists 1; rewrite L_p1; lra|intros q; apply orth|].
  assert (forall k, (k < n)%nat -> -1 < x k < 1 /\ dL n (x k) <> 0 /\ lam k = 2 / ((1 - x k * x k) * dL n (x k) * dL n (x k))) as K.
  { intros k Hk. destruct (factor n (L n) (x k) (L_poly n) (Zx k Hk)) as (g & Pg & Eg & Dg). specialize (Dg _ (L_derive n (x k))).
    assert (forall i, (i < n)%nat -> i <> k -> g (x i) = 0) as Gz.
    { intros i Hi N. specialize (Eg (x i)). rewrite Zx in Eg by exact Hi. symmetry in Eg. apply Rmult_integral in Eg. destruct Eg as [Eg|Eg]; [|exact Eg]. exfalso. apply (Dx i k Hi Hk N). lra. }
    assert (1 - x k <> 0) as N1 by (intros C; pose proof (Zx k Hk) as Z; replace (x k) with 1 in Z by lra; rewrite L_p1 in Z; lra).
    assert (1 + x k <> 0) as N2. { intros C. pose proof (Zx k Hk) as Z. replace (x k) with (-1) in Z by lra. rewrite L_end in Z by ring. pose proof (m1_sq n). rewrite Z in H. lra. }
    assert (lam k * (dL n (x k) * dL n (x k)) = 2 / (1 - x k * x k)) as W.
    { destruct (poly_diff n g Pg) as (g' & Pg' & Hg').
      assert (integral (fun t => dL n t * g t) (L n 1 * g 1 - L n (-1) * g (-1) - 0)) as I1.
      { apply (parts _ _ _ g'); [apply L_derive|exact Hg'|]. apply orth, (is_poly_le (pred n)); [lia|exact Pg']. }
      assert (integral (fun t => dL n t * g t) (rule_sum n lam x (fun t => dL n t * g t))) as I2.
      { apply Hl. apply (is_poly_le (n + pred n)); [lia|]. apply poly_mul; [apply dL_poly|]. replace (S (pred n)) with n by lia. exact Pg. }
      rewrite (rule_sum_one n lam x _ k Hk) in I2 by (intros i Hi N; rewrite Gz by assumption; ring).
      rewrite Dg in I2. rewrite (integral_unique _ _ _ I2 I1).
      assert (g 1 = / (1 - x k)) as G1 by (pose proof (Eg 1) as E; rewrite L_p1 in E; apply (Rmult_eq_reg_l (1 - x k)); [rewrite <- E; field; exact N1|exact N1]).
      assert (g (-1) = - (-1) ^ n * / (1 + x k)) as G2 by (pose proof (Eg (-1)) as E; rewrite L_end in E by ring; apply (Rmult_eq_reg_l (-1 - x k)); [rewrite <- E; field; exact N2|lra]).
      rewrite G1, G2, L_p1, (L_end (-1)) by ring.
      transitivity (/ (1 - x k) + ((-1) ^ n * (-1) ^ n) * / (1 + x k)); [ring|]. rewrite m1_sq. field. repeat split; try lra. intros C.
      assert ((1 - x k) * (1 + x k) = 0) as C' by (rewrite <- C; ring). apply Rmult_integral in C'. tauto. }
    assert (1 - x k * x k <> 0) as N3 by (intros C; assert ((1 - x k) * (1 + x k) = 0) as C' by (rewrite <- C; ring); apply Rmult_integral in C'; tauto).
    assert (dL n (x k) <> 0) as N4. { intros C. rewrite C in W. assert (2 / (1 - x k * x k) <> 0) by (unfold Rdiv; apply Rmult_integral_contrapositive_currified; [lra|apply Rinv_neq_0_compat, N3]). apply H. rewrite <- W. ring. }
    assert (lam k = 2 / ((1 - x k * x k) * dL n (x k) * dL n (x k))) as Lk.
    { apply (Rmult_eq_reg_r (dL n (x k) * dL n (x k))); [rewrite W; field; split; assumption|]. apply Rmult_integral_contrapositive_currified; assumption. }
    split; [|split; assumption].
    assert (integral (fun t => g t * g t) (rule_sum n lam x (fun t => g t * g t))) as I3.
    { apply Hl. apply (is_poly_le (n + pred n)); [lia|]. apply poly_mul; [exact Pg|]. replace (S (pred n)) with n by lia. exact Pg. }
    rewrite (rule_sum_one n lam x _ k Hk) in I3 by (intros i Hi N; rewrite Gz by assumption; ring).
    destruct (square_pos n g _ Pg I3) as (P1 & P2). rewrite Dg in P1, P2.
    assert (0 < lam k * (dL n (x k) * dL n (x k))) as P3.
    { destruct P1 as [P1|P1]; [exact P1|]. exfalso. apply N4. rewrite <- Dg. apply P2. symmetry. exact P1. }
    rewrite W in P3. assert (0 < 1 - x k * x k) as P4.
    { destruct (Rtotal_order 0 (1 - x k * x k)) as [H|[H|H]]; [exact H|lra|]. exfalso. assert (/ (1 - x k * x k) < 0) by (apply Rinv_lt_0_compat; exact H). unfold Rdiv in P3. lra. }
    nra. }
  intros i Hi. destruct (K i Hi) as (A & B & _). split; [exact A|]. split; [exact B|]. intros f Pf.
  apply (integral_val _ (rule_sum n lam x f)); [|apply Hl, Pf]. unfold rule_sum. f_equal. apply map_seq_ext. intros j Hj. destruct (K j Hj) as (_ & _ & ->). reflexivity.
Qed.
