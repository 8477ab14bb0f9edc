(** * The correction polynomial *)
From Coq Require Import Reals List Arith Lia Lra Bool.
From Verif Require Import QuadSpec InterpModel InterpSpec InterpProofs ColModel ColSpec ColProofs FemModel FluxModel FluxSpec.
Import ListNotations.
Local Open Scope R_scope.

(** ** Systems with more unknowns than equations *)
Fixpoint lin (c : list R) (v : list (nat -> R)) (k : nat) : R :=
  match c, v with a :: c', u :: v' => a * u k + lin c' v' k | _, _ => 0 end.
Lemma lin_app c1 : forall v1 c2 v2 k, length c1 = length v1 -> lin (c1 ++ c2) (v1 ++ v2) k = lin c1 v1 k + lin c2 v2 k.
Proof.
  induction c1 as [|a c1 IH]; intros [|u v1] c2 v2 k L; cbn in L |- *; try discriminate; [lra|].
  rewrite IH by lia. lra.
Qed.
Lemma lin_zero m : forall v k, lin (repeat 0 m) v k = 0.
Proof. induction m as [|m IH]; intros [|u v] k; cbn; rewrite ?IH; lra. Qed.
Lemma lin_elim u n c : forall v k, lin c (map (fun w j => w j - w n / u n * u j) v) k = lin c v k - lin c v n / u n * u k.
Proof.
  induction c as [|a c IH]; intros [|w v] k; cbn; try (unfold Rdiv; ring).
  rewrite IH. unfold Rdiv. ring.
Qed.
Lemma split_length {A} (c : list A) n m : length c = (n + m)%nat -> exists c1 c2, c = c1 ++ c2 /\ length c1 = n /\ length c2 = m.
Proof.
  intros L. exists (firstn n c), (skipn n c). rewrite firstn_skipn, firstn_length, skipn_length, L.
  split; [reflexivity|split]; lia.
Qed.
Lemma Exists_app_or {A} (P : A -> Prop) l1 l2 : Exists P (l1 ++ l2) -> Exists P l1 \/ Exists P l2.
Proof. intros H. apply Exists_app in H. exact H. Qed.
Lemma kernel n : forall v, (n < length v)%nat ->
  exists c, length c = length v /\ Exists (fun a => a <> 0) c /\ forall k, (k < n)%nat -> lin c v k = 0.
Proof.
  induction n as [|n IH]; intros v L.
  - destruct v as [|u v]; [cbn in L; lia|]. exists (1 :: repeat 0 (length v)). cbn. rewrite repeat_length.
    split; [reflexivity|]. split; [left; lra|intros; lia].
  - destruct (Exists_dec (fun u : nat -> R => u n <> 0) v) as [E|E].
    { intros u. destruct (Req_EM_T (u n) 0); [right; lra|left; lra]. }
    + apply Exists_exists in E. destruct E as (u & I & U). apply in_split in I. destruct I as (v1 & v2 & ->).
      rewrite app_length in L. cbn in L.
      destruct (IH (map (fun w j => w j - w n / u n * u j) (v1 ++ v2))) as (c & Lc & Nz & K).
      { rewrite map_length, app_length. lia. }
      rewrite map_length, app_length in Lc. destruct (split_length _ _ _ Lc) as (c1 & c2 & -> & L1 & L2).
      exists (c1 ++ - (lin (c1 ++ c2) (v1 ++ v2) n / u n) :: c2).
      split; [rewrite !app_length; cbn; lia|]. split.
      { destruct (Exists_app_or _ _ _ Nz) as [X|X]; apply Exists_app; [left; exact X|right; right; exact X]. }
      intros k Hk. rewrite lin_app by exact L1. cbn.
      replace (lin c1 v1 k + (- (lin (c1 ++ c2) (v1 ++ v2) n / u n) * u k + lin c2 v2 k))
        with (lin (c1 ++ c2) (v1 ++ v2) k - lin (c1 ++ c2) (v1 ++ v2) n / u n * u k).
      2:{ rewrite (lin_app c1 v1 c2 v2 k) by exact L1. ring. }
      destruct (Nat.eq_dec k n) as [->|D]; [field; exact U|].
      rewrite <- lin_elim. apply K. lia.
    + destruct (IH v) as (c & Lc & Nz & K); [lia|]. exists c. split; [exact Lc|]. split; [exact Nz|].
      intros k Hk. destruct (Nat.eq_dec k n) as [->|D]; [|apply K; lia].
      clear - E. revert c. induction v as [|u v IHv]; intros [|a c]; cbn; auto.
      rewrite IHv by (intros X; apply E; right; exact X).
      destruct (Req_EM_T (u n) 0) as [->|N]; [lra|]. destruct E. left. exact N.
Qed.
Lemma lin_sum n (A : nat -> nat -> R) k : forall c off, length c = n ->
  lin c (map (fun i c => A i c) (seq off n)) k = sum (fun i => A (off + i)%nat k * nth i c 0) n.
Proof.
  induction n as [|n IH]; intros [|a c] off L; cbn in L; try discriminate; [reflexivity|].
  cbn [seq map lin]. rewrite IH by lia. unfold sum. cbn [seq map fold_right nth]. rewrite <- seq_shift, map_map, Nat.add_0_r.
  rewrite (Rmult_comm a). f_equal. f_equal. apply map_ext. intros i. cbn [nth]. rewrite Nat.add_succ_r. reflexivity.
Qed.
(** n equations in n unknowns without a non-zero homogeneous solution *)
Lemma square_solvable n A b :
  (forall x, solves n A (fun _ => 0) x -> forall i, (i < n)%nat -> x i = 0) -> exists x, solves n A b x.
Proof.
  intros I. destruct (kernel n (map (fun i c => A i c) (seq 0 n) ++ [fun c => - b c])) as (c & Lc & Nz & K).
  { rewrite app_length, map_length, seq_length. cbn. lia. }
  rewrite app_length, map_length, seq_length in Lc. cbn [length] in Lc.
  destruct (split_length _ _ _ Lc) as (c1 & c2 & -> & L1 & L2).
  destruct c2 as [|t [|? ?]]; cbn in L2; try lia. clear L2 Lc.
  assert (E : forall k, (k < n)%nat -> sum (fun i => A i k * nth i c1 0) n = t * b k).
  { intros k Hk. specialize (K k Hk). rewrite lin_app, lin_sum in K by (rewrite ?map_length, ?seq_length; exact L1).
    cbn in K. lra. }
  destruct (Req_EM_T t 0) as [->|T].
  - exfalso. destruct (Exists_app_or _ _ _ Nz) as [X|X].
    + apply Exists_exists in X. destruct X as (a & Ia & Na). apply (In_nth _ _ 0) in Ia. destruct Ia as (i & Hi & Ei).
      apply Na. rewrite <- Ei. apply (I (fun i => nth i c1 0)); [|lia]. intros k Hk. rewrite E by exact Hk. lra.
    + inversion X as [? ? H|? ? H]; [lra|inversion H].
  - exists (fun i => nth i c1 0 / t). intros k Hk.
    rewrite (sum_ext _ (fun i => A i k * nth i c1 0 * / t)) by (intros; unfold Rdiv; ring).
    rewrite sum_scale_r, E by exact Hk. field. exact T.
Qed.

(** ** Polynomials as functions of their coefficients *)
Definition pf (n : nat) (c : nat -> R) (x : R) : R := sum (fun k => c k * x ^ k) n.
Lemma peval_pf p x : peval p x = pf (length p) (fun k => nth k p 0) x.
Proof. rewrite peval_powers. unfold pf, sum. f_equal. apply map_ext. intros; ring. Qed.
Lemma pf_peval n c x : peval (map c (seq 0 n)) x = pf n c x.
Proof.
  rewrite peval_pf, map_length, seq_length. unfold pf. apply sum_ext. intros l Hl. rewrite nth_map_seq by exact Hl. reflexivity.
Qed.
Lemma sum_rev f n : sum f n = sum (fun i => f (n - 1 - i)%nat) n.
Proof.
  induction n as [|n IH]; [reflexivity|]. rewrite sum_S, IH.
  replace (S n) with (1 + n)%nat by lia. unfold sum at 2. rewrite seq_app, map_app, fold_right_app.
  cbn [seq map fold_right]. replace (1 + n - 1 - 0)%nat with n by lia.
  rewrite (Rplus_comm _ (f n)). f_equal. cbn [Nat.add]. rewrite <- seq_shift, map_map. unfold sum.
  f_equal. apply map_ext_in. intros i Hi. apply in_seq in Hi. f_equal. lia.
Qed.
(** antiderivative of x^j * polynomial *)
Definition prim (n : nat) (c : nat -> R) (j : nat) (x : R) : R := sum (fun k => c k / INR (k + j + 1) * x ^ (k + j + 1)) n.
Lemma INR_S_pos k : 0 < INR (k + 1). Proof. apply lt_0_INR. lia. Qed.
Lemma derivable_sum (f g : nat -> R -> R) n x : (forall k, (k < n)%nat -> derivable_pt_lim (f k) x (g k x)) ->
  derivable_pt_lim (fun x => sum (fun k => f k x) n) x (sum (fun k => g k x) n).
Proof.
  induction n as [|n IH]; intros H.
  - unfold sum; cbn. apply derivable_pt_lim_const.
  - rewrite sum_S. apply derivable_ext with (f := fun x => sum (fun k => f k x) n + f n x); [intros; rewrite sum_S; reflexivity|].
    apply (derivable_pt_lim_plus (fun x => sum (fun k => f k x) n) (f n)); [apply IH; intros; apply H; lia|apply H; lia].
Qed.
Lemma prim_derive n c j x : derivable_pt_lim (prim n c j) x (pf n c x * x ^ j).
Proof.
  unfold pf. rewrite <- sum_scale_r. apply (derivable_sum (fun k x => c k / INR (k + j + 1) * x ^ (k + j + 1)) (fun k x => c k * x ^ k * x ^ j)).
  intros k _. pose proof (INR_S_pos (k + j)) as Q.
  replace (c k * x ^ k * x ^ j) with (c k / INR (k + j + 1) * (INR (k + j + 1) * x ^ (k + j))) by (rewrite pow_add; field; lra).
  apply (derivable_pt_lim_scal (fun x => x ^ (k + j + 1))).
  pose proof (derivable_pt_lim_pow x (k + j + 1)) as H. replace (pred (k + j + 1)) with (k + j)%nat in H by lia. exact H.
Qed.
Lemma same_increment F G (f : R -> R) : (forall x, derivable_pt_lim F x (f x)) -> (forall x, derivable_pt_lim G x (f x)) ->
  forall a b, F b - F a = G b - G a.
Proof.
  intros HF HG a b.
  assert (D : forall x, derivable_pt_lim (F - G)%F x 0).
  { intros x. replace 0 with (f x - f x) by ring. apply derivable_pt_lim_minus; auto. }
  assert (pr : derivable (F - G)%F) by (intros x; exists 0; apply D).
  assert (Z : constant (F - G)%F).
  { apply null_derivative_1 with pr. intros x. apply derive_pt_eq_0, D. }
  specialize (Z a b). unfold minus_fct in Z. lra.
Qed.
Lemma prim_increment n c j : prim n c j 1 - prim n c j (-1) = sum (fun k => (if Nat.even (k + j) then 2 / (INR (k + j) + 1) else 0) * c k) n.
Proof.
  unfold prim. replace (sum (fun k => c k / INR (k + j + 1) * 1 ^ (k + j + 1)) n - sum (fun k => c k / INR (k + j + 1) * (-1) ^ (k + j + 1)) n)
    with (sum (fun k => c k / INR (k + j + 1) * (1 - (-1) ^ (k + j + 1))) n).
  2:{ rewrite (sum_ext _ (fun k => c k / INR (k + j + 1) * 1 ^ (k + j + 1) + -1 * (c k / INR (k + j + 1) * (-1) ^ (k + j + 1)))).
      - rewrite sum_plus, sum_scale. lra.
      - intros k _. rewrite pow1. ring. }
  apply sum_ext. intros k _. pose proof (INR_S_pos (k + j)) as Q.
  rewrite <- S_INR. replace (S (k + j)) with (k + j + 1)%nat by lia.
  destruct (Nat.even (k + j)) eqn:E.
  - apply Nat.even_spec in E. destruct E as (m & E). 
    replace (k + j + 1)%nat with (S (2 * m)) in Q |- * by lia. rewrite pow_1_odd. field. lra.
  - assert (O : Nat.odd (k + j) = true) by (rewrite <- Nat.negb_even, E; reflexivity).
    apply Nat.odd_spec in O. destruct O as (m & O). replace (k + j + 1)%nat with (2 * (m + 1))%nat by lia. rewrite pow_1_even. unfold Rdiv. ring.
Qed.

(** ** The core of uniqueness *)
Lemma peval_zero p : (forall x, peval p x = 0) -> Forall (fun a => a = 0) p.
Proof.
  induction p as [|a r IH]; intros H; [constructor|].
  assert (A : a = 0) by (specialize (H 0); cbn in H; lra).
  constructor; [exact A|]. apply IH. intros x.
  assert (Z : forall t, (fun t => peval r t) t = 0); [|exact (Z x)].
  apply (poly_roots (length r) _ (fun i => INR (i + 1))).
  - exists r. split; [lia|reflexivity].
  - intros i j _ _ D E. apply INR_eq in E. lia.
  - intros i _. cbv beta. pose proof (INR_S_pos i) as Q. specialize (H (INR (i + 1))). cbn [peval] in H.
    destruct (Rmult_integral (INR (i + 1)) (peval r (INR (i + 1)))); lra.
Qed.
Lemma monotone_flat F f : (forall x, derivable_pt_lim F x (f x)) -> (forall x, -1 <= x <= 1 -> f x <= 0) -> F 1 = F (-1) ->
  forall x, -1 < x < 1 -> f x = 0.
Proof.
  intros D S E.
  assert (M : forall a b, -1 <= a -> a <= b -> b <= 1 -> F b <= F a).
  { intros a b A AB B. destruct (Req_dec a b) as [->|N]; [lra|].
    destruct (MVT_cor2 F f a b) as (c & Ec & Ic); [lra|intros; apply D|]. specialize (S c). nra. }
  assert (K : forall x, -1 <= x <= 1 -> F x = F 1).
  { intros x X. pose proof (M x 1). pose proof (M (-1) x). lra. }
  intros x X. apply (uniqueness_limite F x); [apply D|].
  intros eps He. set (d := Rmin (1 - x) (x + 1)).
  assert (Hd : 0 < d) by (unfold d; apply Rmin_glb_lt; lra). exists (mkposreal d Hd). intros h Hh Lh. cbn in Lh.
  assert (-1 <= x + h <= 1).
  { unfold d in Lh. pose proof (Rmin_l (1 - x) (x + 1)). pose proof (Rmin_r (1 - x) (x + 1)).
    apply Rabs_def2 in Lh. lra. }
  rewrite (K (x + h)), (K x) by lra. replace ((F 1 - F 1) / h - 0) with 0 by (field; exact Hh). rewrite Rabs_R0. exact He.
Qed.
Lemma core t N P : (t <= N)%nat -> (length P <= N + 1)%nat -> peval P 1 = 0 ->
  (exists Q, (length Q <= N + 1 - t)%nat /\ forall x, peval P x = (x + 1) ^ t * peval Q x) ->
  (forall n F, (n < N - t)%nat -> (forall x, derivable_pt_lim F x (peval P x * x ^ n)) -> F 1 = F (-1)) ->
  forall x, peval P x = 0.
Proof.
  intros tN L P1 (Q & LQ & HQ) O.
  assert (Q1 : peval Q 1 = 0).
  { rewrite HQ in P1. destruct (Rmult_integral _ _ P1) as [Z|Z]; [|exact Z]. exfalso. revert Z. apply pow_nonzero. lra. }
  destruct (synthetic Q 1) as (T & LT & HT).
  assert (HP : forall x, peval P x = (x + 1) ^ t * ((x - 1) * peval T x)).
  { intros x. rewrite HQ, <- HT, Q1. f_equal. lra. }
  assert (Z : forall x, -1 < x < 1 -> peval T x = 0).
  { set (F := fun x => sum (fun j => nth j T 0 * prim (length P) (fun k => nth k P 0) j x) (length T)).
    intros x X. assert (D : forall y, derivable_pt_lim F y (peval P y * peval T y)).
    { intros y. unfold F. rewrite (peval_pf T). unfold pf. rewrite <- sum_scale.
      rewrite (sum_ext _ (fun j => nth j T 0 * (peval P y * y ^ j))) by (intros; ring).
      apply (derivable_sum (fun j x => nth j T 0 * prim (length P) (fun k => nth k P 0) j x) (fun j y => nth j T 0 * (peval P y * y ^ j))).
      intros j _. apply (derivable_pt_lim_scal (prim (length P) (fun k => nth k P 0) j)). rewrite (peval_pf P). apply prim_derive. }
    assert (V : peval P x * peval T x = 0).
    { apply (monotone_flat F (fun y => peval P y * peval T y)); [exact D| |unfold F|exact X].
      - intros y Y. rewrite HP. replace ((y + 1) ^ t * ((y - 1) * peval T y) * peval T y) with (- ((y + 1) ^ t * ((1 - y) * (peval T y * peval T y)))) by ring.
        assert (0 <= (y + 1) ^ t) by (apply pow_le; lra).
        assert (0 <= (1 - y) * (peval T y * peval T y)) by (apply Rmult_le_pos; [lra|nra]).
        pose proof (Rmult_le_pos _ _ H H0). lra.
      - apply sum_ext. intros j Hj. f_equal. apply (O j); [lia|]. intros y. rewrite (peval_pf P). apply prim_derive. }
    rewrite HP in V. replace ((x + 1) ^ t * ((x - 1) * peval T x) * peval T x) with (((x + 1) ^ t * (x - 1)) * (peval T x * peval T x)) in V by ring.
    destruct (Rmult_integral _ _ V) as [W|W]; [|nra].
    exfalso. destruct (Rmult_integral _ _ W) as [U|U]; [revert U; apply pow_nonzero; lra|lra]. }
  assert (Z' : forall x, (fun x => peval T x) x = 0).
  { apply (poly_roots (length T) _ (fun i => / INR (i + 2))).
    - exists T. split; [lia|reflexivity].
    - intros i j _ _ D E. apply D. assert (A : INR (i + 2) = INR (j + 2)) by (rewrite <- (Rinv_inv (INR (i + 2))), E, Rinv_inv; reflexivity).
      apply INR_eq in A. lia.
    - intros i _. apply Z. assert (2 <= INR (i + 2)) by (rewrite plus_INR; pose proof (pos_INR i); cbn; lra).
      split; [apply Rlt_trans with 0; [lra|apply Rinv_0_lt_compat; lra]|].
      rewrite <- Rinv_1. apply Rinv_lt_contravar; lra. }
  intros x. rewrite HP. cbv beta in Z'. rewrite Z'. ring.
Qed.

(** ** A zero of multiplicity t at 1 *)
Fixpoint ff (k n : nat) : R := match n with O => 1 | S m => INR (k - m) * ff k m end.
Lemma falling_ff N n i : (i <= N)%nat -> falling N n i = ff (N - i) n.
Proof.
  intros H. induction n as [|n IH]; [reflexivity|]. cbn [falling ff]. rewrite IH.
  destruct (i <? N - n)%nat eqn:E.
  - f_equal. f_equal. lia.
  - apply Nat.ltb_ge in E. replace (N - i - n)%nat with 0%nat by lia. cbn. ring.
Qed.
Lemma ff_pascal k n : ff (S k) (S n) = ff k (S n) + INR (S n) * ff k n.
Proof.
  induction n as [|n IH].
  - cbn [ff]. rewrite !Nat.sub_0_r, S_INR. cbn. ring.
  - cbn [ff] in *. destruct (le_lt_dec n k) as [L|L].
    + replace (S k - S n)%nat with (k - n)%nat by lia. rewrite IH.
      destruct (Nat.eq_dec n k) as [->|D].
      * rewrite Nat.sub_diag. replace (k - S k)%nat with 0%nat by lia. cbn [INR]. ring.
      * replace (k - n)%nat with (S (k - S n)) by lia. rewrite !S_INR. ring.
    + replace (S k - S n)%nat with 0%nat by lia. replace (k - S n)%nat with 0%nat by lia. replace (k - n)%nat with 0%nat by lia. cbn. ring.
Qed.
(** value at 1 of the n-th derivative *)
Definition dat1 (p : list R) (n : nat) : R := sum (fun k => ff k n * nth k p 0) (length p).
Lemma dat1_cons a r n : dat1 (a :: r) n = ff 0 n * a + sum (fun k => ff (S k) n * nth k r 0) (length r).
Proof.
  unfold dat1. cbn [length]. unfold sum. cbn [seq map fold_right nth]. f_equal. f_equal. rewrite <- seq_shift, map_map. reflexivity.
Qed.
Lemma ff0 n : ff 0 (S n) = 0. Proof. induction n as [|n IH]; cbn in *; lra. Qed.
Lemma dat1_value p : dat1 p 0 = peval p 1.
Proof. rewrite peval_pf. unfold dat1, pf. apply sum_ext. intros. rewrite pow1. cbn. ring. Qed.
Lemma dat1_shift r n : sum (fun k => ff (S k) n * nth k r 0) (length r) = dat1 r n + match n with O => 0 | S m => INR (S m) * dat1 r m end.
Proof.
  destruct n as [|m]; unfold dat1.
  - rewrite Rplus_0_r. apply sum_ext. reflexivity.
  - rewrite <- sum_scale, <- sum_plus. apply sum_ext. intros k _. rewrite ff_pascal. ring.
Qed.
(** the coefficients of (x - 1) q *)
Definition shift1 (q : list R) : list R := padd (0 :: q) (map (Rmult (-1)) q).
Lemma shift1_eval q x : peval (shift1 q) x = (x - 1) * peval q x.
Proof. unfold shift1. rewrite padd_eval, pscale_eval. cbn. ring. Qed.
Lemma sum_extend p n (f : nat -> R) : (length p <= n)%nat -> sum (fun k => f k * nth k p 0) n = sum (fun k => f k * nth k p 0) (length p).
Proof.
  intros L. replace n with (length p + (n - length p))%nat by lia. rewrite sum_app, zeros; [lra|].
  intros k Hk. apply in_seq in Hk. rewrite nth_overflow by lia. ring.
Qed.
Lemma eval_nth p q : (forall x, peval p x = peval q x) -> forall k, nth k p 0 = nth k q 0.
Proof.
  revert q. induction p as [|a p IH]; intros q H k.
  - assert (F := peval_zero q (fun x => eq_sym (H x))). rewrite Forall_nth in F.
    destruct (Nat.lt_ge_cases k (length q)) as [L|L]; [rewrite F by exact L; destruct k; reflexivity|rewrite (nth_overflow q) by exact L; destruct k; reflexivity].
  - destruct q as [|b q].
    + assert (F := peval_zero (a :: p) H). rewrite Forall_nth in F.
      destruct (Nat.lt_ge_cases k (length (a :: p))) as [L|L]; [rewrite F by exact L; destruct k; reflexivity|rewrite (nth_overflow (a :: p)) by exact L; destruct k; reflexivity].
    + assert (A : a = b) by (specialize (H 0); cbn in H; lra). subst b. destruct k as [|k]; [reflexivity|]. cbn [nth]. apply IH. intros x.
      set (d := padd p (map (Rmult (-1)) q)).
      assert (Z : Forall (fun a => a = 0) (0 :: d)).
      { apply peval_zero. intros y. specialize (H y). cbn [peval] in H |- *. unfold d. rewrite padd_eval, pscale_eval.
        replace (peval p y + -1 * peval q y) with (peval p y - peval q y) by ring. lra. }
      assert (D : peval d x = 0).
      { inversion Z as [|? ? _ F]. clear - F. induction F as [|a l E F IH]; cbn; [reflexivity|]. rewrite IH, E. ring. }
      unfold d in D. rewrite padd_eval, pscale_eval in D. lra.
Qed.
Lemma dat1_eval p q n : (forall x, peval p x = peval q x) -> dat1 p n = dat1 q n.
Proof.
  intros H. unfold dat1. set (m := Nat.max (length p) (length q)).
  rewrite <- (sum_extend p m (fun k => ff k n)) by (unfold m; lia). rewrite <- (sum_extend q m (fun k => ff k n)) by (unfold m; lia).
  apply sum_ext. intros k _. rewrite (eval_nth p q H). reflexivity.
Qed.
Lemma dat1_product q n : dat1 (shift1 q) n = match n with O => 0 | S m => INR (S m) * dat1 q m end.
Proof.
  assert (E : dat1 (shift1 q) n = dat1 (0 :: q) n - dat1 q n).
  { unfold dat1. set (m := Nat.max (length (0 :: q)) (length q)).
    rewrite <- (sum_extend (shift1 q) m (fun k => ff k n)) by (unfold shift1; rewrite padd_length, map_length; unfold m; lia).
    rewrite <- (sum_extend (0 :: q) m (fun k => ff k n)), <- (sum_extend q m (fun k => ff k n)) by (unfold m; lia).
    replace (sum (fun k => ff k n * nth k (0 :: q) 0) m - sum (fun k => ff k n * nth k q 0) m)
      with (sum (fun k => ff k n * nth k (0 :: q) 0) m + -1 * sum (fun k => ff k n * nth k q 0) m) by ring.
    rewrite <- sum_scale, <- sum_plus. apply sum_ext. intros k _. unfold shift1.
    assert (Np : forall p r k, nth k (padd p (map (Rmult (-1)) r)) 0 = nth k p 0 - nth k r 0).
    { clear. induction p as [|a p IH]; intros [|b r] [|k]; cbn; try lra.
      - revert k. induction r as [|c r IHr]; intros [|k]; cbn; try lra. apply IHr.
      - apply IH. }
    rewrite Np. ring. }
  rewrite E, dat1_cons, dat1_shift. destruct n as [|m]; [cbn; lra|rewrite ff0; lra].
Qed.
Lemma multiple t : forall p, (forall n, (n < t)%nat -> dat1 p n = 0) ->
  exists q, (length q <= length p - t)%nat /\ forall x, peval p x = (x - 1) ^ t * peval q x.
Proof.
  induction t as [|t IH]; intros p H.
  - exists p. split; [lia|intros; cbn; ring].
  - destruct (synthetic p 1) as (q & Lq & Hq).
    assert (P1 : peval p 1 = 0) by (rewrite <- dat1_value; apply H; lia).
    assert (E : forall x, peval p x = peval (shift1 q) x) by (intros x; rewrite shift1_eval, <- Hq, P1; ring).
    destruct (IH q) as (r & Lr & Hr).
    { intros n Hn. assert (Z := H (S n) ltac:(lia)). rewrite (dat1_eval _ _ _ E), dat1_product in Z.
      destruct (Rmult_integral _ _ Z) as [Y|Y]; [|exact Y]. exfalso. revert Y. apply not_0_INR. lia. }
    exists r. split; [lia|]. intros x. rewrite E, shift1_eval, Hr. cbn. ring.
Qed.
Lemma reflect p : exists q, length q = length p /\ forall x, peval q x = peval p (- x).
Proof.
  induction p as [|a r (q & L & H)]; [exists []; split; [reflexivity|intros; reflexivity]|].
  exists (a :: map (Rmult (-1)) q). split; [cbn; rewrite map_length, L; reflexivity|].
  intros x. cbn. rewrite pscale_eval, H. ring.
Qed.

(** ** The linear system *)
Definition upper (N : nat) (x : nat -> R) : list R := map (fun k => x (N - k)%nat) (seq 0 (N + 1)).
Definition lower (N : nat) (x : nat -> R) : list R := map (fun k => x (N - k)%nat * (-1) ^ k) (seq 0 (N + 1)).
Lemma upper_nth N x k : (k <= N)%nat -> nth k (upper N x) 0 = x (N - k)%nat.
Proof. intros H. unfold upper. rewrite nth_map_seq by lia. reflexivity. Qed.
Lemma sum_down N (f : nat -> nat -> R) : sum (fun i => f (N - i)%nat i) (N + 1) = sum (fun k => f k (N - k)%nat) (N + 1).
Proof.
  rewrite sum_rev. apply sum_ext. intros k Hk. f_equal; lia.
Qed.
Lemma lower_upper N x y : peval (lower N x) y = peval (upper N x) (- y).
Proof.
  unfold lower, upper. rewrite !pf_peval. unfold pf. apply sum_ext. intros k _.
  replace (- y) with (-1 * y) by ring. rewrite Rpow_mult_distr. ring.
Qed.
Lemma system t N x b : (1 <= t <= N)%nat -> solves (N + 1) (van t N) b x ->
  peval (lower N x) 1 = b 0%nat /\ (forall n, (n < t)%nat -> dat1 (upper N x) n = b (n + 1)%nat) /\
  (forall n, (n < N - t)%nat -> prim (N + 1) (fun k => x (N - k)%nat) n 1 - prim (N + 1) (fun k => x (N - k)%nat) n (-1) = b (t + 1 + n)%nat).
Proof.
  intros T H. split; [|split].
  - rewrite <- (H 0%nat) by lia. unfold lower. rewrite pf_peval. unfold pf.
    rewrite (sum_ext (fun i => van t N i 0 * x i) (fun i => (-1) ^ (N - i) * x i)) by reflexivity.
    rewrite (sum_down N (fun k i => (-1) ^ k * x i)). apply sum_ext. intros k _. rewrite pow1. ring.
  - intros n Hn. rewrite <- (H (n + 1)%nat) by lia. unfold dat1.
    replace (length (upper N x)) with (N + 1)%nat by (unfold upper; rewrite map_length, seq_length; reflexivity).
    rewrite (sum_ext (fun i => van t N i (n + 1) * x i) (fun i => ff (N - i) n * x i)).
    + rewrite (sum_down N (fun k i => ff k n * x i)). apply sum_ext. intros k Hk. rewrite upper_nth by lia. reflexivity.
    + intros i Hi. unfold van. destruct (Nat.eqb_spec (n + 1) 0) as [E|_]; [lia|]. destruct (Nat.leb_spec (n + 1) t) as [_|E]; [|lia].
      rewrite falling_ff by lia. do 2 f_equal. lia.
  - intros n Hn. rewrite prim_increment, <- (H (t + 1 + n)%nat) by lia.
    rewrite (sum_ext (fun i => van t N i (t + 1 + n) * x i)
      (fun i => (if Nat.even (N - i + n) then 2 / (INR (N - i + n) + 1) else 0) * x i)).
    + rewrite (sum_down N (fun k i => (if Nat.even (k + n) then 2 / (INR (k + n) + 1) else 0) * x i)). reflexivity.
    + intros i Hi. unfold van. destruct (Nat.eqb_spec (t + 1 + n) 0) as [E|_]; [lia|]. destruct (Nat.leb_spec (t + 1 + n) t) as [E|_]; [lia|].
      replace (t + 1 + n - t - 1)%nat with n by lia. reflexivity.
Qed.
Lemma system_poly t N x b : (1 <= t <= N)%nat -> (forall c, (c <> 0)%nat -> b c = 0) -> solves (N + 1) (van t N) b x ->
  length (lower N x) = (N + 1)%nat /\ peval (lower N x) 1 = b 0%nat /\
  (exists Q, (length Q <= N + 1 - t)%nat /\ forall y, peval (lower N x) y = (y + 1) ^ t * peval Q y) /\
  (forall n F, (n < N - t)%nat -> (forall y, derivable_pt_lim F y (peval (lower N x) y * y ^ n)) -> F 1 = F (-1)).
Proof.
  intros T B H. destruct (system t N x b T H) as (H1 & H2 & H3).
  split; [unfold lower; rewrite map_length, seq_length; reflexivity|]. split; [exact H1|]. split.
  - destruct (multiple t (upper N x)) as (q & Lq & Hq). { intros n Hn. rewrite H2 by exact Hn. apply B. lia. }
    destruct (reflect q) as (r & Lr & Hr). exists (map (Rmult ((-1) ^ t)) r). split.
    + rewrite map_length, Lr. unfold upper in Lq. rewrite map_length, seq_length in Lq. lia.
    + intros y. rewrite lower_upper, Hq, pscale_eval, Hr. replace (- y - 1) with (-1 * (y + 1)) by ring. rewrite Rpow_mult_distr. ring.
  - intros n F Hn HF. specialize (H3 n Hn). rewrite B in H3 by lia.
    set (G := prim (N + 1) (fun k => x (N - k)%nat) n) in *.
    assert (E := same_increment F (fun y => (-1) ^ (n + 1) * G (- y)) (fun y => peval (lower N x) y * y ^ n) HF).
    assert (D : forall y, derivable_pt_lim (fun y => (-1) ^ (n + 1) * G (- y)) y (peval (lower N x) y * y ^ n)).
    { intros y. replace (peval (lower N x) y * y ^ n) with ((-1) ^ (n + 1) * (pf (N + 1) (fun k => x (N - k)%nat) (- y) * (- y) ^ n * -1)).
      - apply (derivable_pt_lim_scal (fun y => G (- y))).
        apply (derivable_pt_lim_comp (fun y => - y) G); [|apply prim_derive].
        apply (derivable_pt_lim_opp (fun y => y)), derivable_pt_lim_id.
      - rewrite lower_upper. unfold upper. rewrite pf_peval. replace ((- y) ^ n) with ((-1 * y) ^ n) by (f_equal; ring).
        rewrite Rpow_mult_distr, pow_add. assert (S2 : (-1) ^ n * (-1) ^ n = 1) by (rewrite <- Rpow_mult_distr; replace (-1 * -1) with 1 by ring; apply pow1).
        cbn [pow]. transitivity (pf (N + 1) (fun k => x (N - k)%nat) (- y) * y ^ n * ((-1) ^ n * (-1) ^ n)); [ring|rewrite S2; ring]. }
    specialize (E D (-1) 1). cbv beta in E. assert (G1 : G 1 = G (-1)) by lra.
    replace (Ropp (-1)) with 1 in E by ring. replace (Ropp 1) with (-1) in E by ring. rewrite G1 in E. lra.
Qed.
Lemma van_regular t N : (1 <= t <= N)%nat -> forall x, solves (N + 1) (van t N) (fun _ => 0) x -> forall i, (i < N + 1)%nat -> x i = 0.
Proof.
  intros T x H i Hi. destruct (system_poly t N x _ T (fun _ _ => eq_refl) H) as (L & P1 & Q & O).
  assert (Z := core t N (lower N x) ltac:(lia) ltac:(lia) P1 Q O).
  assert (F := peval_zero _ Z). rewrite Forall_nth in F. specialize (F (N - i)%nat 0 ltac:(lia)).
  unfold lower in F. rewrite nth_map_seq in F by lia. replace (N - (N - i))%nat with i in F by lia.
  destruct (Rmult_integral _ _ F) as [E|E]; [exact E|]. exfalso. revert E. apply pow_nonzero. lra.
Qed.
Lemma van_solvable t N b : (1 <= t <= N)%nat -> exists x, solves (N + 1) (van t N) b x.
Proof. intros T. apply square_solvable, van_regular, T. Qed.

Lemma solution_correction t N x : (1 <= t <= N)%nat -> solves (N + 1) (van t N) rhs x -> correction t N (lower N x).
Proof.
  intros T H. destruct (system_poly t N x rhs T) as (L & P1 & Q & O); [|exact H|].
  - intros c Hc. unfold rhs. destruct (Nat.eqb_spec c 0); [contradiction|reflexivity].
  - split; [lia|]. split; [exact P1|]. split; [exact Q|exact O].
Qed.
Lemma correction_unique t N P Q : (t <= N)%nat -> correction t N P -> correction t N Q -> forall x, peval P x = peval Q x.
Proof.
  intros T (LP & P1 & (A & LA & HA) & OP) (LQ & Q1 & (B & LB & HB) & OQ) x.
  enough (Z : peval (padd P (map (Rmult (-1)) Q)) x = 0) by (rewrite padd_eval, pscale_eval in Z; lra).
  apply (core t N _ T).
  - rewrite padd_length, map_length. lia.
  - rewrite padd_eval, pscale_eval. lra.
  - exists (padd A (map (Rmult (-1)) B)). split; [rewrite padd_length, map_length; lia|].
    intros y. rewrite !padd_eval, !pscale_eval, HA, HB. ring.
  - intros n F Hn HF.
    set (GP := prim (length P) (fun k => nth k P 0) n). set (GQ := prim (length Q) (fun k => nth k Q 0) n).
    assert (DP : forall y, derivable_pt_lim GP y (peval P y * y ^ n)) by (intros y; rewrite peval_pf; apply prim_derive).
    assert (DQ : forall y, derivable_pt_lim GQ y (peval Q y * y ^ n)) by (intros y; rewrite peval_pf; apply prim_derive).
    assert (E := same_increment F (GP - GQ)%F (fun y => peval P y * y ^ n - peval Q y * y ^ n)).
    assert (F 1 - F (-1) = (GP - GQ)%F 1 - (GP - GQ)%F (-1)).
    { apply E; intros y.
      - replace (peval P y * y ^ n - peval Q y * y ^ n) with (peval (padd P (map (Rmult (-1)) Q)) y * y ^ n) by (rewrite padd_eval, pscale_eval; ring). apply HF.
      - apply derivable_pt_lim_minus; auto. }
    unfold minus_fct in H. rewrite (OP n GP Hn DP), (OQ n GQ Hn DQ) in H. lra.
Qed.

(** ** The values computed by the loop *)
Lemma horner_fold (f : nat -> R) X : forall n,
  fold_left (fun s i => (fst s + f i * snd s, snd s * X)) (seq 0 n) (0, 1) = (sum (fun i => f i * X ^ i) n, X ^ n).
Proof.
  induction n as [|n IH]; [reflexivity|].
  rewrite seq_S, fold_left_app, IH. cbn [fold_left fst snd Nat.add]. rewrite sum_S. f_equal. cbn. ring.
Qed.
Lemma deriv_at_ok N x nu : derivable_pt_lim (fun z => peval (lower N x) (2 * z - 1)) nu (deriv_at N x nu).
Proof.
  unfold deriv_at. rewrite horner_fold. cbn [fst].
  rewrite (Rmult_comm 2).
  apply (derivable_pt_lim_comp (fun z => 2 * z - 1) (peval (lower N x))).
  - assert (H : derivable_pt_lim (fun z => 2 * z - 1) nu (2 * 1 - 0)).
    { apply (derivable_pt_lim_minus (fun z => 2 * z) (fun _ => 1)); [|apply derivable_pt_lim_const].
      apply (derivable_pt_lim_scal (fun z => z)), derivable_pt_lim_id. }
    replace (2 * 1 - 0) with 2 in H by ring. exact H.
  - set (X := 2 * nu - 1). apply derivable_ext with (f := pf (N + 1) (fun k => x (N - k)%nat * (-1) ^ k)); [intros u; unfold lower; rewrite pf_peval; reflexivity|].
    rewrite Nat.add_1_r. unfold pf.
    apply derivable_ext with (f := fun y => x N + sum (fun i => x (N - i - 1)%nat * (-1) ^ (i + 1) * y ^ (i + 1)) N).
    { intros u. unfold sum. cbn [seq map fold_right]. rewrite Nat.sub_0_r. f_equal; [cbn; ring|].
      rewrite <- seq_shift, map_map. f_equal. apply map_ext. intros i. rewrite Nat.add_1_r. replace (N - S i)%nat with (N - i - 1)%nat by lia. reflexivity. }
    rewrite <- (Rplus_0_l (sum _ N)).
    apply (derivable_pt_lim_plus (fun _ => x N) (fun y => sum (fun i => x (N - i - 1)%nat * (-1) ^ (i + 1) * y ^ (i + 1)) N)); [apply derivable_pt_lim_const|].
    apply (derivable_sum (fun i y => x (N - i - 1)%nat * (-1) ^ (i + 1) * y ^ (i + 1)) (fun i y => slope N x i * y ^ i)).
    intros i _. unfold slope. replace (INR (i + 1) * (x (N - i - 1)%nat * (-1) ^ (i + 1)) * X ^ i)
      with (x (N - i - 1)%nat * (-1) ^ (i + 1) * (INR (i + 1) * X ^ i)) by ring.
    apply (derivable_pt_lim_scal (fun y => y ^ (i + 1))).
    pose proof (derivable_pt_lim_pow X (i + 1)) as H. replace (pred (i + 1)) with i in H by lia. exact H.
Qed.
Lemma get_derivatives_ok x t N nodes : (1 <= t <= N)%nat -> nodes <> [] ->
  get_derivatives x t N nodes = Values (map (deriv_at N x) nodes).
Proof.
  intros T H. unfold get_derivatives. destruct (Nat.ltb_spec t 1); [lia|]. destruct (Nat.ltb_spec N 1); [lia|].
  destruct (Nat.ltb_spec N t); [lia|]. destruct nodes; [contradiction|reflexivity].
Qed.
