(** * Lemmas about polynomial interpolation *)
From Coq Require Import Reals List Arith Lia Lra Permutation.
From Verif Require Import QuadSpec InterpModel InterpSpec.
Import ListNotations.
Local Open Scope R_scope.

Lemma div_ok a b : b <> 0 -> div a b = Some (a / b).
Proof. intros H. unfold div. destruct (Req_EM_T b 0); [contradiction|reflexivity]. Qed.

(** ** derivatives of a product of linear factors *)
Section Product.
Context (x : nat -> R) (i : nat).
Fixpoint D (k : nat) (J : list nat) (t : R) : R :=
  match J with
  | [] => match k with O => 1 | S _ => 0 end
  | j :: r => D k r t * ((t - x j) / (x i - x j)) + match k with O => 0 | S k' => INR k * D k' r t / (x i - x j) end
  end.
Lemma D_derive J : forall k t, derivable_pt_lim (D k J) t (D (S k) J t).
Proof.
  induction J as [|j r IH]; intros k t.
  - destruct k; cbn [D]; apply (derivable_pt_lim_const _ t).
  - set (c := x i - x j).
    assert (L : derivable_pt_lim (fun t => (t - x j) / c) t (/ c)).
    { replace (/ c) with (1 * / c + (t - x j) * 0) by ring.
      apply (derivable_pt_lim_mult (fun t => t - x j) (fun _ => / c)).
      - replace 1 with (1 - 0) by ring. apply (derivable_pt_lim_minus id (fun _ => x j)); [apply derivable_pt_lim_id|apply derivable_pt_lim_const].
      - apply derivable_pt_lim_const. }
    destruct k as [|k].
    + change (derivable_pt_lim (fun t => D 0 r t * ((t - x j) / c) + 0) t (D 1 r t * ((t - x j) / c) + INR 1 * D 0 r t / c)).
      replace (D 1 r t * ((t - x j) / c) + INR 1 * D 0 r t / c) with ((D 1 r t * ((t - x j) / c) + D 0 r t * / c) + 0)
        by (change (INR 1) with 1; unfold Rdiv; ring).
      apply (derivable_pt_lim_plus (fun t => D 0 r t * ((t - x j) / c)) (fun _ => 0)).
      * apply (derivable_pt_lim_mult (D 0 r) (fun t => (t - x j) / c)); [apply IH|exact L].
      * apply derivable_pt_lim_const.
    + change (derivable_pt_lim (fun t => D (S k) r t * ((t - x j) / c) + INR (S k) * D k r t / c) t
        (D (S (S k)) r t * ((t - x j) / c) + INR (S (S k)) * D (S k) r t / c)).
      replace (D (S (S k)) r t * ((t - x j) / c) + INR (S (S k)) * D (S k) r t / c)
        with ((D (S (S k)) r t * ((t - x j) / c) + D (S k) r t * / c) + ((INR (S k) * D (S k) r t) * / c + (INR (S k) * D k r t) * 0))
        by (rewrite (S_INR (S k)); unfold Rdiv; ring).
      apply (derivable_pt_lim_plus (fun t => D (S k) r t * ((t - x j) / c)) (fun t => INR (S k) * D k r t / c)).
      * apply (derivable_pt_lim_mult (D (S k) r) (fun t => (t - x j) / c)); [apply IH|exact L].
      * apply (derivable_pt_lim_mult (fun t => INR (S k) * D k r t) (fun _ => / c)); [|apply derivable_pt_lim_const].
        apply (derivable_pt_lim_scal (D k r) (INR (S k)) t (D (S k) r t)). apply IH.
Qed.
Lemma D_perm J J' : Permutation J J' -> forall k t, D k J t = D k J' t.
Proof.
  induction 1; intros k t.
  - reflexivity.
  - cbn [D]. rewrite IHPermutation. destruct k; [reflexivity|]. rewrite IHPermutation. reflexivity.
  - cbn [D]. unfold Rdiv. destruct k as [|[|k]]; try ring.
  - rewrite IHPermutation1. apply IHPermutation2.
Qed.

Definition S1 (J : list nat) (t : R) : R := fold_right (fun j a => / (t - x j) + a) 0 J.
Definition S2 (J : list nat) (t : R) : R := fold_right (fun j a => / (t - x j) * / (t - x j) + a) 0 J.
Definition S3 (J : list nat) (t : R) : R := fold_right (fun j a => 2 * / (t - x j) * / (t - x j) * / (t - x j) + a) 0 J.
Lemma D_sums J t : Forall (fun j => t - x j <> 0 /\ x i - x j <> 0) J ->
  D 1 J t = D 0 J t * S1 J t /\
  D 2 J t = D 0 J t * (S1 J t * S1 J t - S2 J t) /\
  D 3 J t = D 0 J t * (S1 J t * S1 J t * S1 J t - 3 * S1 J t * S2 J t + S3 J t).
Proof.
  induction 1 as [|j r [Ht Hc] _ (IH1 & IH2 & IH3)]; [cbn; repeat split; ring|].
  cbn [D]. rewrite IH1, IH2, IH3. unfold S1, S2, S3. cbn [fold_right]. fold (S1 r t) (S2 r t) (S3 r t).
  change (INR 1) with 1. change (INR 2) with (1 + 1). change (INR 3) with (1 + 1 + 1).
  repeat split; field; auto.
Qed.
End Product.

(** ** polynomials *)
Definition is_poly (n : nat) (f : R -> R) : Prop := exists q, (length q <= n)%nat /\ forall t, f t = peval q t.
Fixpoint padd (p q : list R) : list R :=
  match p, q with [], _ => q | _, [] => p | a :: p', b :: q' => (a + b) :: padd p' q' end.
Lemma padd_eval p : forall q t, peval (padd p q) t = peval p t + peval q t.
Proof. induction p as [|a p IH]; intros [|b q] t; cbn; try ring. rewrite IH. ring. Qed.
Lemma padd_length p : forall q, length (padd p q) = Nat.max (length p) (length q).
Proof. induction p as [|a p IH]; intros [|b q]; cbn; try reflexivity. rewrite IH. reflexivity. Qed.
Lemma pscale_eval a p t : peval (map (Rmult a) p) t = a * peval p t.
Proof. induction p as [|b p IH]; cbn; [ring|]. rewrite IH. ring. Qed.
Lemma is_poly_add n f g : is_poly n f -> is_poly n g -> is_poly n (fun t => f t + g t).
Proof.
  intros (p & Lp & Hp) (q & Lq & Hq). exists (padd p q). split; [rewrite padd_length; lia|].
  intros t. rewrite padd_eval, Hp, Hq. reflexivity.
Qed.
Lemma is_poly_scale n a f : is_poly n f -> is_poly n (fun t => a * f t).
Proof.
  intros (p & Lp & Hp). exists (map (Rmult a) p). rewrite map_length. split; [exact Lp|].
  intros t. rewrite pscale_eval, Hp. reflexivity.
Qed.
Lemma is_poly_ext n f g : (forall t, f t = g t) -> is_poly n f -> is_poly n g.
Proof. intros E (p & Lp & Hp). exists p. split; [exact Lp|]. intros t. rewrite <- E. apply Hp. Qed.
Lemma is_poly_le n m f : (n <= m)%nat -> is_poly n f -> is_poly m f.
Proof. intros L (p & Lp & Hp). exists p. split; [lia|exact Hp]. Qed.
Lemma is_poly_shift n f : is_poly n f -> is_poly (S n) (fun t => t * f t).
Proof. intros (p & Lp & Hp). exists (0 :: p). cbn. split; [lia|]. intros t. rewrite Hp. ring. Qed.
Lemma is_poly_linear n a c f : is_poly n f -> is_poly (S n) (fun t => f t * ((t - a) / c)).
Proof.
  intros P. apply (is_poly_ext _ (fun t => / c * (t * f t) + (- a / c) * f t)); [intros t; unfold Rdiv; ring|].
  apply is_poly_add; apply is_poly_scale; [apply is_poly_shift; exact P|apply (is_poly_le n); [lia|exact P]].
Qed.
Lemma D_poly x i J : is_poly (S (length J)) (D x i 0 J).
Proof.
  induction J as [|j r IH]; cbn [D length].
  - exists [1]. cbn. split; [lia|]. intros; ring.
  - apply (is_poly_ext _ (fun t => D x i 0 r t * ((t - x j) / (x i - x j)))); [intros; ring|].
    apply is_poly_linear. exact IH.
Qed.
Lemma synthetic p s : exists q, length q = pred (length p) /\ forall t, peval p t - peval p s = (t - s) * peval q t.
Proof.
  induction p as [|a p (q & L & E)]; [exists []; cbn; split; [reflexivity|intros; ring]|].
  exists (padd p (map (Rmult s) q)). split; [rewrite padd_length, map_length, L; cbn; lia|].
  intros t. rewrite padd_eval, pscale_eval. cbn [peval].
  transitivity ((t - s) * peval p t + s * (peval p t - peval p s)); [ring|]. rewrite E. ring.
Qed.
Lemma poly_roots n : forall f x, is_poly n f -> distinct n x -> (forall i, (i < n)%nat -> f (x i) = 0) -> forall t, f t = 0.
Proof.
  induction n as [|n IH]; intros f x (p & Lp & Hp) Dx Z t.
  - destruct p; [|cbn in Lp; lia]. rewrite Hp. reflexivity.
  - destruct (synthetic p (x n)) as (q & Lq & Eq).
    assert (F : forall u, f u = (u - x n) * peval q u).
    { intros u. rewrite <- Eq, <- !Hp, (Z n) by lia. ring. }
    assert (Q : forall u, peval q u = 0).
    { apply (IH (peval q) x).
      - exists q. split; [lia|reflexivity].
      - intros a b Ha Hb. apply Dx; lia.
      - intros a Ha. generalize (Z a ltac:(lia)). rewrite F. intros H.
        apply Rmult_integral in H. destruct H as [H|H]; [|exact H].
        exfalso. apply (Dx a n); [lia|lia|lia|]. lra. }
    rewrite F, Q. ring.
Qed.

(** ** the interpolant *)
Definition others (n i : nat) : list nat := filter (fun j => negb (i =? j)) (seq 0 n).
Definition interpolant (n : nat) (x : nat -> R) (y : nat -> R) (k : nat) (t : R) : R :=
  fold_right Rplus 0 (map (fun i => D x i k (others n i) t * y i) (seq 0 n)).
Lemma others_length n i : (i < n)%nat -> (S (length (others n i)) = n)%nat.
Proof.
  intros H.
  assert (G : forall a m, (a <= i < a + m)%nat -> S (length (filter (fun j => negb (i =? j)%nat) (seq a m))) = m).
  { intros a m. revert a. induction m as [|m IH]; intros a Ha; [lia|]. cbn [seq filter].
    destruct (Nat.eqb_spec i a) as [->|Ne]; cbn [negb].
    - f_equal. clear. generalize (Nat.lt_succ_diag_r a). generalize (S a) as b. intros b Hb. revert b Hb.
      induction m as [|m IH]; intros b Hb; [reflexivity|]. cbn [seq filter].
      destruct (Nat.eqb_spec a b); [lia|]. cbn. f_equal. apply IH. lia.
    - cbn [length]. f_equal. apply IH. lia. }
  apply G. lia.
Qed.
Lemma D_zero x i J t j : In j J -> t = x j -> D x i 0 J t = 0.
Proof.
  intros Hj ->. induction J as [|k r IH]; [contradiction|]. cbn [D]. destruct Hj as [->|Hj].
  - unfold Rdiv. ring.
  - rewrite IH by exact Hj. ring.
Qed.
Lemma D_one x i J : Forall (fun j => x i - x j <> 0) J -> D x i 0 J (x i) = 1.
Proof. induction 1 as [|k r H _ IH]; [reflexivity|]. cbn [D]. rewrite IH. field. exact H. Qed.
Lemma others_in n i j : In j (others n i) <-> (j < n /\ j <> i)%nat.
Proof.
  unfold others. rewrite filter_In, in_seq. destruct (Nat.eqb_spec i j); cbn; split; intros; try lia; intuition (try lia; discriminate).
Qed.
Lemma basis_at_node n x i k : distinct n x -> (i < n)%nat -> (k < n)%nat ->
  D x i 0 (others n i) (x k) = if (i =? k)%nat then 1 else 0.
Proof.
  intros Dx Hi Hk. destruct (Nat.eqb_spec i k) as [->|Ne].
  - apply D_one. apply Forall_forall. intros j Hj. apply others_in in Hj.
    generalize (Dx k j Hk (proj1 Hj)). intros H E. apply H; [lia|lra].
  - apply (D_zero x i _ _ k); [apply others_in; lia|reflexivity].
Qed.
Lemma sum_delta (y : nat -> R) k : forall m a,
  fold_right Rplus 0 (map (fun i => (if (i =? k)%nat then 1 else 0) * y i) (seq a m)) =
  if ((a <=? k) && (k <? a + m))%nat%bool then y k else 0.
Proof.
  induction m as [|m IH]; intros a; cbn [seq map fold_right].
  - destruct (Nat.leb_spec a k), (Nat.ltb_spec k (a + 0)); cbn; try lia; reflexivity.
  - rewrite IH. destruct (Nat.eqb_spec a k) as [->|Ne].
    + rewrite Nat.leb_refl. destruct (Nat.leb_spec (S k) k); [lia|]. destruct (Nat.ltb_spec k (k + S m)); [cbn; ring|lia].
    + destruct (Nat.leb_spec a k), (Nat.leb_spec (S a) k), (Nat.ltb_spec k (a + S m)), (Nat.ltb_spec k (S a + m)); cbn; try lia; ring.
Qed.
Lemma map_seq_ext {A} (f g : nat -> A) n : (forall i, (i < n)%nat -> f i = g i) -> map f (seq 0 n) = map g (seq 0 n).
Proof. intros H. apply map_ext_in. intros i Hi. apply in_seq in Hi. apply H. lia. Qed.
Lemma interpolant_at_node n x y k : distinct n x -> (k < n)%nat -> interpolant n x y 0 (x k) = y k.
Proof.
  intros Dx Hk. unfold interpolant.
  rewrite (map_seq_ext _ (fun i => (if (i =? k)%nat then 1 else 0) * y i)) by (intros i Hi; rewrite (basis_at_node n) by assumption; reflexivity).
  rewrite sum_delta. destruct (Nat.leb_spec 0 k), (Nat.ltb_spec k (0 + n)); cbn; try lia; reflexivity.
Qed.
Lemma sum_poly n (f : nat -> R -> R) l : (forall i, In i l -> is_poly n (f i)) ->
  is_poly n (fun t => fold_right Rplus 0 (map (fun i => f i t) l)).
Proof.
  induction l as [|a l IH]; intros H; cbn [map fold_right].
  - exists []. cbn. split; [lia|reflexivity].
  - apply (is_poly_add n (f a)); [apply H; left; reflexivity|apply IH; intros i Hi; apply H; right; exact Hi].
Qed.
Lemma interpolant_poly n x y : is_poly n (interpolant n x y 0).
Proof.
  unfold interpolant. apply (sum_poly n (fun i t => D x i 0 (others n i) t * y i)). intros i Hi. apply in_seq in Hi.
  apply (is_poly_ext _ (fun t => y i * D x i 0 (others n i) t)); [intros; ring|]. apply is_poly_scale.
  rewrite <- (others_length n i) at 1 by lia. apply D_poly.
Qed.
Lemma interpolant_unique n x f : distinct n x -> is_poly n f -> forall t, interpolant n x (fun i => f (x i)) 0 t = f t.
Proof.
  intros Dx P t.
  assert (Z : forall t, interpolant n x (fun i => f (x i)) 0 t + -1 * f t = 0).
  { apply (poly_roots n _ x); [|exact Dx|].
    - apply is_poly_add; [apply interpolant_poly|apply is_poly_scale; exact P].
    - intros i Hi. rewrite interpolant_at_node by assumption. ring. }
  generalize (Z t). lra.
Qed.
Lemma interpolant_derive n x y k t : derivable_pt_lim (interpolant n x y k) t (interpolant n x y (S k) t).
Proof.
  unfold interpolant. induction (seq 0 n) as [|a l IH]; cbn [map fold_right]; [apply (derivable_pt_lim_const 0)|].
  apply (derivable_pt_lim_plus (fun t => D x a k (others n a) t * y a)); [|exact IH].
  replace (D x a (S k) (others n a) t * y a) with (D x a (S k) (others n a) t * y a + D x a k (others n a) t * 0) by ring.
  apply (derivable_pt_lim_mult (D x a k (others n a)) (fun _ => y a)); [apply D_derive|apply derivable_pt_lim_const].
Qed.
Lemma derivable_ext f g t l : (forall u, f u = g u) -> derivable_pt_lim f t l -> derivable_pt_lim g t l.
Proof. intros E H eps He. destruct (H eps He) as (d & Hd). exists d. intros h A B. rewrite <- !E. apply Hd; assumption. Qed.
Lemma interpolant_nth n x y m : forall k f g, (forall t, interpolant n x y m t = f t) -> nth_derivative k f g ->
  forall t, g t = interpolant n x y (k + m) t.
Proof.
  intros k. revert m. induction k as [|k IH]; intros m f g E; cbn [nth_derivative].
  - intros H t. rewrite H, E. reflexivity.
  - intros (f' & Hf & H) t. replace (S k + m)%nat with (k + S m)%nat by lia. apply (IH (S m) f' g); [|exact H].
    intros u. apply (uniqueness_limite f u); [|apply Hf]. apply (derivable_ext (interpolant n x y m)); [exact E|apply interpolant_derive].
Qed.

(** ** the code computes the basis derivatives *)
Lemma fill_map f g l : (forall i, In i l -> f i = Some (g i)) -> fill f l = Some (map g l).
Proof.
  induction l as [|a l IH]; intros H; [reflexivity|]. cbn [fill map]. rewrite (H a) by (left; reflexivity). cbn.
  rewrite IH by (intros i Hi; apply H; right; exact Hi). reflexivity.
Qed.
Lemma weighted_map n x f (c : nat -> R) : weighted (map c (seq 0 n)) x f = fold_right Rplus 0 (map (fun i => c i * f (x i)) (seq 0 n)).
Proof.
  unfold weighted. rewrite map_length, seq_length. f_equal. apply map_seq_ext. intros i Hi.
  rewrite (nth_indep _ 0 (c 0%nat)) by (rewrite map_length, seq_length; exact Hi).
  rewrite (map_nth c), seq_nth by exact Hi. reflexivity.
Qed.
Lemma exact_of n x s k c : distinct n x -> (forall i, (i < n)%nat -> c i = D x i k (others n i) s) ->
  exact_derivative k n x s (map c (seq 0 n)).
Proof.
  intros Dx E. split; [rewrite map_length, seq_length; reflexivity|]. intros p g Lp Hg.
  rewrite weighted_map.
  rewrite (interpolant_nth n x (fun i => peval p (x i)) 0 k (peval p) g); [rewrite Nat.add_0_r| |exact Hg].
  - unfold interpolant. f_equal. apply map_seq_ext. intros i Hi. rewrite E by exact Hi. reflexivity.
  - intros t. apply interpolant_unique; [exact Dx|]. exists p. split; [exact Lp|reflexivity].
Qed.
Lemma lagrange1_ok n x s i : distinct n x -> (i < n)%nat -> lagrange1 n x s i = Some (D x i 0 (others n i) s).
Proof.
  intros Dx Hi. unfold lagrange1, others.
  assert (G : forall l c, (forall j, In j l -> (j < n)%nat) ->
    loop (fun j c => if (i =? j)%nat then Some c else q <- div (s - x j) (x i - x j); Some (c * q)) l c =
    Some (c * D x i 0 (filter (fun j => negb (i =? j)%nat) l) s)).
  { induction l as [|j l IH]; intros c H; [cbn; f_equal; ring|]. cbn [loop filter].
    destruct (Nat.eqb_spec i j) as [->|Ne]; cbn [negb bind]; [apply IH; intros; apply H; right; assumption|].
    rewrite div_ok; [|generalize (Dx i j Hi (H j (or_introl eq_refl)) Ne); lra].
    cbn [bind]. rewrite IH by (intros; apply H; right; assumption). cbn [D]. f_equal. ring. }
  rewrite G; [f_equal; ring|]. intros j Hj. apply in_seq in Hj. lia.
Qed.
Lemma inner_ok n x s i m : distinct n x -> (i < n)%nat -> (forall j, (j < n)%nat -> skip i m j = false -> s <> x j) ->
  let J := filter (fun j => negb (skip i m j)) (seq 0 n) in
  inner n x s i m = Some (Sums (D x i 0 J s) (S1 x J s) (S2 x J s) (S3 x J s)) /\
  Forall (fun j => s - x j <> 0 /\ x i - x j <> 0) J.
Proof.
  intros Dx Hi Hs J. unfold J, inner. clear J.
  assert (G : forall l p a b c, (forall j, In j l -> (j < n)%nat) ->
    let J := filter (fun j => negb (skip i m j)) l in
    loop (fun j a => if skip i m j then Some a else
      q <- div (s - x j) (x i - x j); d <- div 1 (s - x j);
      Some (Sums (prod a * q) (sum1 a + d) (sum2 a + d * d) (sum3 a + 2 * d * d * d))) l (Sums p a b c) =
    Some (Sums (p * D x i 0 J s) (a + S1 x J s) (b + S2 x J s) (c + S3 x J s)) /\
    Forall (fun j => s - x j <> 0 /\ x i - x j <> 0) J).
  { induction l as [|j l IH]; intros p a b c H; cbn zeta; cbn [loop filter].
    - split; [|constructor]. cbn. repeat f_equal; ring.
    - destruct (skip i m j) eqn:K; cbn [negb bind]; [apply IH; intros; apply H; right; assumption|].
      assert (Hj : (j < n)%nat) by (apply H; left; reflexivity).
      assert (A : s - x j <> 0) by (generalize (Hs j Hj K); lra).
      assert (B : x i - x j <> 0).
      { assert (i <> j) by (intros ->; unfold skip in K; rewrite Nat.eqb_refl in K; discriminate).
        generalize (Dx i j Hi Hj H0). lra. }
      rewrite !div_ok by assumption. cbn [bind prod sum1 sum2 sum3].
      destruct (IH (p * ((s - x j) / (x i - x j))) (a + 1 / (s - x j)) (b + 1 / (s - x j) * (1 / (s - x j)))
        (c + 2 * (1 / (s - x j)) * (1 / (s - x j)) * (1 / (s - x j))) (fun k Hk => H k (or_intror Hk))) as (-> & F).
      split; [|constructor; [split; assumption|exact F]].
      cbn [D]. unfold S1, S2, S3. cbn [fold_right].
      set (J := filter (fun j => negb (skip i m j)) l). fold (S1 x J s) (S2 x J s) (S3 x J s).
      f_equal. f_equal; unfold Rdiv; ring. }
  destruct (G (seq 0 n) 1 0 0 0) as (-> & F); [intros j Hj; apply in_seq in Hj; lia|].
  split; [|exact F]. f_equal. f_equal; ring.
Qed.

(** sampling points at which no division by zero happens *)
Definition samplable (n : nat) (x : nat -> R) (s : R) : Prop := forall j, (j < n)%nat -> s = x j -> matching n x s = Some j.
Lemma matching_in n x s m : matching n x s = Some m -> (m < n)%nat.
Proof. intros H. apply find_some in H. destruct H as (H & _). apply in_seq in H. lia. Qed.
Lemma others_match n i m : (m < n)%nat -> i <> m ->
  Permutation (others n i) (m :: filter (fun j => negb (skip i (Some m) j)) (seq 0 n)).
Proof.
  intros Hm Ne. apply NoDup_Permutation.
  - apply NoDup_filter, seq_NoDup.
  - constructor; [|apply NoDup_filter, seq_NoDup]. intros H. apply filter_In in H. destruct H as (_ & H).
    unfold skip in H. rewrite Nat.eqb_refl, Bool.orb_true_r in H. discriminate.
  - intros j. rewrite others_in. cbn [In]. rewrite filter_In, in_seq. unfold skip.
    destruct (Nat.eqb_spec j i), (Nat.eqb_spec j m); cbn; intuition (try lia; try discriminate).
Qed.
Lemma filter_none n i : filter (fun j => negb (skip i None j)) (seq 0 n) = others n i.
Proof. apply filter_ext. intros j. unfold skip. rewrite Bool.orb_false_r, Nat.eqb_sym. reflexivity. Qed.
Lemma filter_same n i : filter (fun j => negb (skip i (Some i) j)) (seq 0 n) = others n i.
Proof. apply filter_ext. intros j. unfold skip. rewrite Bool.orb_diag, Nat.eqb_sym. reflexivity. Qed.

Lemma diffs_ok n x s i : distinct n x -> samplable n x s -> (i < n)%nat ->
  diff1 n x s i = Some (D x i 1 (others n i) s) /\
  diffdiff1 n x s i = Some (D x i 2 (others n i) s) /\
  diffdiffdiff1 n x s i = Some (D x i 3 (others n i) s).
Proof.
  intros Dx Sx Hi. unfold diff1, diffdiff1, diffdiffdiff1. unfold samplable in Sx.
  destruct (matching n x s) as [m|] eqn:M.
  - pose proof (matching_in _ _ _ _ M) as Hm.
    destruct (inner_ok n x s i (Some m) Dx Hi) as (E & F).
    { intros j Hj K Es. specialize (Sx j Hj Es). injection Sx as ->. unfold skip in K.
      rewrite Nat.eqb_refl, Bool.orb_true_r in K. discriminate. }
    rewrite E. cbn [bind prod sum1 sum2 sum3]. destruct (D_sums x i _ s F) as (E1 & E2 & E3).
    destruct (Nat.eqb_spec i m) as [->|Ne].
    + rewrite filter_same in *. unfold factor1, factor2, factor3. cbn [sum1 sum2 sum3].
      rewrite E1, E2, E3. auto.
    + assert (C : x i - x m <> 0) by (generalize (Dx i m Hi Hm Ne); lra).
      rewrite !div_ok by exact C. cbn [bind].
      rewrite !(D_perm x i _ _ (others_match n i m Hm Ne)).
      set (J := filter (fun j => negb (skip i (Some m) j)) (seq 0 n)) in *.
      cbn [D]. rewrite E1, E2, E3. change (INR 1) with 1. change (INR 2) with (1 + 1). change (INR 3) with (1 + 1 + 1).
      repeat split; f_equal; field; exact C.
  - destruct (inner_ok n x s i None Dx Hi) as (E & F).
    { intros j Hj K Es. specialize (Sx j Hj Es). discriminate. }
    rewrite E. cbn [bind prod sum1 sum2 sum3]. rewrite filter_none in *. destruct (D_sums x i _ s F) as (E1 & E2 & E3).
    unfold factor1, factor2, factor3. cbn [sum1 sum2 sum3 prod]. rewrite E1, E2, E3. auto.
Qed.
Lemma separated_samplable n x s : (forall i j, (i < n)%nat -> (j < n)%nat -> i <> j -> tol <= Rabs (x i - x j)) -> samplable n x s.
Proof.
  intros Sep j Hj ->. unfold matching.
  destruct (find _ (seq 0 n)) as [m|] eqn:F.
  - pose proof F as F'. apply find_some in F. destruct F as (Hm & H). apply in_seq in Hm.
    destruct (Rlt_dec (Rabs (x j - x m)) tol) as [L|]; [|discriminate].
    destruct (Nat.eq_dec m j) as [->|Ne]; [reflexivity|]. generalize (Sep j m Hj ltac:(lia) ltac:(congruence)). lra.
  - assert (G := find_none _ _ F j (proj2 (in_seq n 0 j) ltac:(lia))). cbv beta in G.
    destruct (Rlt_dec (Rabs (x j - x j)) tol) as [|L]; [discriminate|]. exfalso. apply L.
    replace (x j - x j) with 0 by ring. rewrite Rabs_R0. unfold tol. apply Rinv_0_lt_compat. apply pow_lt. lra.
Qed.
Lemma interpolate_ok n x y s : distinct n x -> interpolate n x y s = Some (interpolant n x y 0 s).
Proof.
  intros Dx. unfold interpolate, interpolant.
  assert (G : forall l v, (forall j, In j l -> (j < n)%nat) ->
    loop (fun i v => c <- lagrange1 n x s i; Some (v + c * y i)) l v =
    Some (v + fold_right Rplus 0 (map (fun i => D x i 0 (others n i) s * y i) l))).
  { induction l as [|j l IH]; intros v H; [cbn; f_equal; ring|]. cbn [loop map fold_right].
    rewrite lagrange1_ok by (auto; apply H; left; reflexivity). cbn [bind].
    rewrite IH by (intros; apply H; right; assumption). f_equal. ring. }
  rewrite G; [f_equal; ring|]. intros j Hj. apply in_seq in Hj. lia.
Qed.

(** ** the Vandermonde workspace *)
Lemma vander_rows_ok n x mid : forall r e prev, (forall j, (j < n)%nat -> nth j prev 0 = (x j - mid) ^ e) ->
  forall i j, (i < r)%nat -> (j < n)%nat -> nth (i * n + j) (vander_rows r n x mid prev) 0 = (x j - mid) ^ (S (e + i)).
Proof.
  induction r as [|r IH]; intros e prev P i j Hi Hj; [lia|]. cbn [vander_rows].
  set (row := map (fun j => (x j - mid) * nth j prev 0) (seq 0 n)).
  assert (Lr : length row = n) by (unfold row; rewrite map_length, seq_length; reflexivity).
  assert (Pr : forall j, (j < n)%nat -> nth j row 0 = (x j - mid) ^ S e).
  { intros k Hk. unfold row. set (f := fun j => (x j - mid) * nth j prev 0).
    rewrite (nth_indep _ 0 (f 0%nat)) by (rewrite map_length, seq_length; exact Hk).
    rewrite (map_nth f), seq_nth by exact Hk. unfold f. cbn [Nat.add]. rewrite P by exact Hk. reflexivity. }
  clearbody row. destruct i as [|i].
  - rewrite app_nth1 by (cbn; lia). cbn [Nat.mul Nat.add]. rewrite Nat.add_0_r. apply Pr. exact Hj.
  - rewrite app_nth2 by (rewrite Lr; cbn; lia). rewrite Lr.
    replace (S i * n + j - n)%nat with (i * n + j)%nat by (cbn; lia).
    rewrite (IH (S e) row Pr i j) by lia. f_equal. lia.
Qed.
Lemma workspace_ok n x mid i j : (i < n)%nat -> (j < n)%nat -> nth (i * n + j) (workspace n x mid) 0 = (x j - mid) ^ i.
Proof.
  intros Hi Hj. unfold workspace.
  destruct i as [|i].
  - rewrite app_nth1 by (rewrite repeat_length; cbn; lia). cbn.
    rewrite (nth_indep _ 0 1) by (rewrite repeat_length; exact Hj). apply nth_repeat.
  - rewrite app_nth2 by (rewrite repeat_length; cbn; lia). rewrite repeat_length.
    replace (S i * n + j - n)%nat with (i * n + j)%nat by (cbn; lia).
    rewrite (vander_rows_ok n x mid (n - 1) 0 (repeat 1 n)); [f_equal| |lia|exact Hj].
    intros k Hk. rewrite (nth_indep _ 0 1) by (rewrite repeat_length; exact Hk). rewrite nth_repeat. reflexivity.
Qed.
Lemma workspace_length n x mid : length (workspace n x mid) = (n * n)%nat.
Proof.
  unfold workspace. rewrite app_length, repeat_length.
  assert (G : forall r prev, length (vander_rows r n x mid prev) = (r * n)%nat).
  { induction r as [|r IH]; intros prev; [reflexivity|]. cbn [vander_rows]. rewrite app_length, map_length, seq_length, IH. reflexivity. }
  rewrite G. destruct n; [reflexivity|]. replace (S n - 1)%nat with n by lia. reflexivity.
Qed.
Lemma peval_powers p t : peval p t = fold_right Rplus 0 (map (fun i => t ^ i * nth i p 0) (seq 0 (length p))).
Proof.
  assert (G : forall p k, t ^ k * peval p t = fold_right Rplus 0 (map (fun i => t ^ (k + i) * nth i p 0) (seq 0 (length p)))).
  { clear p. induction p as [|a p IH]; intros k; [cbn; ring|]. cbn [length seq map fold_right peval].
    rewrite <- seq_shift, map_map. rewrite Nat.add_0_r. cbn [nth].
    transitivity (t ^ k * a + t ^ S k * peval p t); [cbn; ring|]. rewrite IH. f_equal. f_equal. apply map_ext. intros i.
    replace (k + S i)%nat with (S k + i)%nat by lia. reflexivity. }
  generalize (G p 0%nat). cbn [pow Nat.add]. rewrite Rmult_1_l. auto.
Qed.
