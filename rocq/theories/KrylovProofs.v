From Coq Require Import ZArith Reals List Lra Lia.
From Verif Require Import PhysModel PhysProps KrylovModel KrylovSpec.
Import ListNotations.
Local Open Scope R_scope.

(** ** Program logic.  [u] is the claim made of an undefined access. *)
Definition wp {A} (u : Prop) (P : A -> Prop) (x : out A) : Prop :=
  match x with Ok a => P a | Undef => u | _ => True end.
Lemma wp_bind : forall A B u (P : B -> Prop) (x : out A) f,
  wp u (fun a => wp u P (f a)) x -> wp u P (bind x f).
Proof. intros A B u P [a| | |] f H; cbn in *; auto. Qed.
Lemma wp_weaken : forall A u (P Q : A -> Prop) x, (forall a, P a -> Q a) -> wp u P x -> wp u Q x.
Proof. intros A u P Q [a| | |] H K; cbn in *; auto. Qed.
Lemma wp_loop : forall A u (I : nat -> A -> Prop) f len a s, I a s ->
  (forall k s, (a <= k < a + len)%nat -> I k s -> wp u (I (S k)) (f s k)) ->
  wp u (I (a + len)%nat) (loop f (seq a len) s).
Proof.
  intros A u I f; induction len as [|len IH]; intros a s H K.
  - cbn. rewrite Nat.add_0_r. exact H.
  - cbn [seq loop]. apply wp_bind. eapply wp_weaken; [|apply K; [lia|exact H]].
    intros s' H'. rewrite Nat.add_succ_r, <- Nat.add_succ_l. apply IH; [exact H'|].
    intros k t L J. apply K; [lia|exact J].
Qed.
(** the same loop run downwards *)
Lemma wp_loop_rev : forall A u (I : nat -> A -> Prop) f len s, I len s ->
  (forall k s, (k < len)%nat -> I (S k) s -> wp u (I k) (f s k)) ->
  wp u (I 0%nat) (loop f (rev (seq 0 len)) s).
Proof.
  intros A u I f; induction len as [|len IH]; intros s H K.
  - exact H.
  - rewrite seq_S, rev_app_distr. cbn [rev app loop]. apply wp_bind.
    eapply wp_weaken; [|apply K; [lia|exact H]]. intros s' H'. apply IH; [exact H'|]. intros k t L J. apply K; [lia|exact J].
Qed.
Lemma wp_quo : forall u (P : R -> Prop) a b, (b <> 0 -> P (a / b)) -> wp u P (quo a b).
Proof. intros u P a b H. unfold quo. destruct (Req_EM_T b 0); cbn; auto. Qed.

Definition upd {A} (l : list A) (i : nat) (v : A) : list A := firstn i l ++ v :: skipn (S i) l.
Lemma wp_set : forall A (u : Prop) (P : list A -> Prop) l i v, ((i < length l)%nat -> P (upd l i v)) ->
  ((length l <= i)%nat -> u) -> wp u P (set l i v).
Proof.
  intros A u P l i v H K. unfold set. destruct (Nat.ltb i (length l)) eqn:E; cbn.
  - apply Nat.ltb_lt in E. auto.
  - apply Nat.ltb_ge in E. auto.
Qed.
Lemma length_upd : forall A (l : list A) i v, (i < length l)%nat -> length (upd l i v) = length l.
Proof. intros A l i v H. unfold upd. rewrite app_length, firstn_length. cbn [length]. rewrite skipn_length. lia. Qed.
Lemma nth_upd : forall A (d : A) l i v j, (i < length l)%nat -> nth j (upd l i v) d = if Nat.eqb j i then v else nth j l d.
Proof.
  intros A d; induction l as [|a l IH]; intros i v j H; [cbn in H; lia|].
  destruct i as [|i].
  - destruct j; reflexivity.
  - destruct j as [|j]; [reflexivity|]. change (upd (a :: l) (S i) v) with (a :: upd l i v). cbn [nth Nat.eqb].
    apply IH. cbn in H. lia.
Qed.
Lemma nth_upd_eq : forall A (d : A) l i v, (i < length l)%nat -> nth i (upd l i v) d = v.
Proof. intros. rewrite nth_upd by assumption. rewrite Nat.eqb_refl. reflexivity. Qed.
Lemma nth_upd_ne : forall A (d : A) l i v j, (i < length l)%nat -> j <> i -> nth j (upd l i v) d = nth j l d.
Proof. intros. rewrite nth_upd by assumption. destruct (Nat.eqb_spec j i); [contradiction|reflexivity]. Qed.
Lemma wp_get : forall (u : Prop) (P : R -> Prop) l i, ((i < length l)%nat -> P (nth i l 0)) -> ((length l <= i)%nat -> u) -> wp u P (get l i).
Proof.
  intros u P l i H K. unfold get. destruct (nth_error l i) eqn:E.
  - cbn. rewrite <- (nth_error_nth _ _ 0 E). apply H. apply nth_error_Some. congruence.
  - cbn. apply K. apply nth_error_None. exact E.
Qed.
Lemma wp_row : forall (u : Prop) (P : vec -> Prop) V k, (forall v, nth k V None = Some v -> P v) ->
  ((length V <= k)%nat -> u) -> wp u P (row V k).
Proof.
  intros u P V k H K. unfold row. destruct (nth_error V k) as [[v|]|] eqn:E; cbn; auto.
  - apply H. exact (nth_error_nth _ _ None E).
  - apply K. apply nth_error_None. exact E.
Qed.

(** ** Sums *)
Lemma sum_ext : forall n f g, (forall k, (k < n)%nat -> f k = g k) -> sum n f = sum n g.
Proof. induction n as [|n IH]; intros f g H; cbn; [reflexivity|]. rewrite (IH f g) by (intros; apply H; lia). rewrite H by lia. reflexivity. Qed.
Lemma sum_plus : forall n f g, sum n (fun k => f k + g k) = sum n f + sum n g.
Proof. induction n as [|n IH]; intros; cbn; [ring|]. rewrite IH. ring. Qed.
Lemma sum_scal : forall n a f, sum n (fun k => a * f k) = a * sum n f.
Proof. induction n as [|n IH]; intros; cbn; [ring|]. rewrite IH. ring. Qed.
Lemma sum_zero : forall n, sum n (fun _ => 0) = 0.
Proof. induction n as [|n IH]; cbn; [reflexivity|]. rewrite IH. ring. Qed.
Lemma sum_swap : forall n m f, sum n (fun j => sum m (fun k => f j k)) = sum m (fun k => sum n (fun j => f j k)).
Proof.
  induction n as [|n IH]; intros m f; cbn; [rewrite sum_zero; reflexivity|]. rewrite IH. symmetry. apply sum_plus.
Qed.
Lemma sum_nonneg : forall n f, (forall k, 0 <= f k) -> 0 <= sum n f.
Proof. induction n as [|n IH]; intros f H; cbn; [lra|]. pose proof (IH f H). pose proof (H n). lra. Qed.
(** an upper triangular double sum *)
Lemma sum_triangle : forall n (a : nat -> nat -> R) (q : nat -> R),
  sum n (fun k => sum (S k) (fun l => a l k * q l)) = sum n (fun l => sum n (fun k => if Nat.leb l k then a l k else 0) * q l).
Proof.
  intros n a q. transitivity (sum n (fun k => sum n (fun l => (if Nat.leb l k then a l k else 0) * q l))).
  - apply sum_ext. intros k L.
    assert (forall d, sum (S k + d) (fun l => (if Nat.leb l k then a l k else 0) * q l) = sum (S k) (fun l => a l k * q l)) as E.
    { induction d as [|d IH].
      - rewrite Nat.add_0_r. apply sum_ext. intros l Hl. destruct (Nat.leb_spec l k); [reflexivity|lia].
      - rewrite Nat.add_succ_r. cbn [sum]. cbn [sum] in IH. rewrite IH. destruct (Nat.leb_spec (S k + d) k); [lia|]. ring. }
    replace n with (S k + (n - S k))%nat by lia. symmetry. apply E.
  - rewrite sum_swap. apply sum_ext. intros l _. rewrite Rmult_comm, <- sum_scal. apply sum_ext. intros; ring.
Qed.

(** ** Vectors *)
Lemma vdot_sum : forall n x y, vdot n x y = sum n (fun j => x j * y j).
Proof.
  intros n x y. unfold vdot. induction n as [|n IH]; [reflexivity|].
  rewrite seq_S, fold_left_app, IH. reflexivity.
Qed.
Lemma vnorm_length : forall n x, vnorm n x = length2 n x.
Proof. intros. unfold vnorm, length2. rewrite vdot_sum. reflexivity. Qed.
Lemma vdot_ext : forall n x x' y y', (forall j, (j < n)%nat -> x j = x' j) -> (forall j, (j < n)%nat -> y j = y' j) ->
  vdot n x y = vdot n x' y'.
Proof. intros. rewrite !vdot_sum. apply sum_ext. intros. rewrite H, H0 by assumption. reflexivity. Qed.
Lemma vdot_comm : forall n x y, vdot n x y = vdot n y x.
Proof. intros. rewrite !vdot_sum. apply sum_ext. intros. ring. Qed.
Lemma vdot_axpy : forall n a x y z, vdot n (axpy a x y) z = vdot n y z + a * vdot n x z.
Proof.
  intros. rewrite !vdot_sum. rewrite <- sum_scal, <- sum_plus. apply sum_ext. intros. unfold axpy. ring.
Qed.
Lemma vdot_lin : forall n a b x y z, vdot n (fun j => a * x j + b * y j) z = a * vdot n x z + b * vdot n y z.
Proof.
  intros. rewrite !vdot_sum. rewrite <- !sum_scal, <- sum_plus. apply sum_ext. intros. ring.
Qed.
Lemma vdot_scal : forall n a x z, vdot n (scal x a) z = a * vdot n x z.
Proof. intros. rewrite !vdot_sum. rewrite <- sum_scal. apply sum_ext. intros. unfold scal. ring. Qed.
Lemma vdot_pos : forall n x, 0 <= vdot n x x.
Proof. intros. rewrite vdot_sum. apply sum_nonneg. intros; nra. Qed.
Lemma length2_scal : forall n a x p, (forall j, (j < n)%nat -> x j = a * p j) -> vdot n p p = 1 -> length2 n x = Rabs a.
Proof.
  intros n a x p E U. unfold length2. rewrite <- sqrt_Rsqr_abs. f_equal. unfold Rsqr.
  rewrite (sum_ext n _ (fun j => (a * a) * (p j * p j))) by (intros; rewrite E by assumption; ring).
  rewrite sum_scal, <- vdot_sum, U. ring.
Qed.

Section Sound.
Context (F : vec -> vec) (n : nat) (eps : R).

(** ** Gram-Schmidt *)
Definition orthonormal (v : nat -> vec) (i : nat) : Prop :=
  forall j k, (j <= i)%nat -> (k <= i)%nat -> vdot n (v j) (v k) = if Nat.eqb j k then 1 else 0.

Lemma gram_ok : forall V v u0 i H w, orthonormal v i ->
  (forall k, (k <= i)%nat -> nth k V None = Some (v k)) ->
  wp True (fun '(H', w') => length H' = length H /\ (forall k, (k < u0)%nat -> nth k H' 0 = nth k H 0) /\
    (forall l, (l <= i)%nat -> vdot n w' (v l) = 0) /\
    forall j, w j = w' j + sum (S i) (fun l => nth (u0 + l) H' 0 * v l j)) (gram n V u0 i H w).
Proof.
  intros V v u0 i H w O HV. unfold gram.
  apply (wp_weaken _ _ (fun s => length (fst s) = length H /\ (forall k, (k < u0)%nat -> nth k (fst s) 0 = nth k H 0) /\
    (forall l, (l < S i)%nat -> vdot n (snd s) (v l) = 0) /\
    forall j, w j = snd s j + sum (S i) (fun l => nth (u0 + l) (fst s) 0 * v l j))).
  { intros [H' w'] (A & B & C & D). cbn [fst snd] in *. split; [exact A|]. split; [exact B|]. split; [|exact D].
    intros l L. apply C. lia. }
  change (S i) with (0 + S i)%nat at 1 3.
  apply (wp_loop _ True (fun k s => length (fst s) = length H /\ (forall k, (k < u0)%nat -> nth k (fst s) 0 = nth k H 0) /\
    (forall l, (l < k)%nat -> vdot n (snd s) (v l) = 0) /\
    forall j, w j = snd s j + sum k (fun l => nth (u0 + l) (fst s) 0 * v l j))).
  - cbn. split; [reflexivity|]. split; [reflexivity|]. split; [intros; lia|]. intros; ring.
  - intros k [H1 w1] L (A & B & C & D). cbn [fst snd] in *. apply wp_bind, wp_row; [|trivial]. intros vk Ek.
    rewrite HV in Ek by lia. injection Ek as <-. apply wp_bind, wp_set; [|trivial]. intros L1. apply wp_bind, wp_get; [|trivial].
    intros L2. rewrite nth_upd_eq by exact L1. cbn [wp fst snd]. split; [rewrite length_upd by exact L1; exact A|].
    split; [intros k' Lk; rewrite nth_upd_ne by lia; apply B; exact Lk|]. split.
    + intros l Ll. rewrite vdot_axpy. rewrite O by lia. destruct (Nat.eqb_spec k l) as [->|N]; [ring|]. rewrite C by lia. ring.
    + intros j. cbn [sum]. rewrite nth_upd_eq by exact L1. rewrite D. unfold axpy.
      rewrite (sum_ext k (fun l => nth (u0 + l) (upd H1 (u0 + k) (vdot n w1 (v k))) 0 * v l j) (fun l => nth (u0 + l) H1 0 * v l j)).
      * ring.
      * intros l Ll. rewrite nth_upd_ne by lia. reflexivity.
Qed.

(** ** The previous rotations *)
Definition chain (C Sn : list R) (v p q : nat -> vec) (i : nat) : Prop :=
  forall k, (k < i)%nat -> let c := nth k C 0 in let s := nth k Sn 0 in
    c * c + s * s = 1 /\ (forall j, q k j = c * p k j + s * v (S k) j) /\ (forall j, p (S k) j = - s * p k j + c * v (S k) j).

Lemma rotations_ok : forall C Sn v p q u0 i H, chain C Sn v p q i -> (forall j, p 0%nat j = v 0%nat j) ->
  wp True (fun H' => length H' = length H /\ (forall k, (k < u0)%nat -> nth k H' 0 = nth k H 0) /\
    forall j, sum (S i) (fun l => nth (u0 + l) H 0 * v l j) =
              sum i (fun l => nth (u0 + l) H' 0 * q l j) + nth (u0 + i) H' 0 * p i j) (rotations C Sn u0 i H).
Proof.
  intros C Sn v p q u0 i H CH P0. unfold rotations.
  apply (wp_weaken _ _ (fun H' => length H' = length H /\ (forall k, (k < u0)%nat -> nth k H' 0 = nth k H 0) /\
    (forall l, (i < l)%nat -> nth (u0 + l) H' 0 = nth (u0 + l) H 0) /\
    forall j, sum (S i) (fun l => nth (u0 + l) H 0 * v l j) =
              sum i (fun l => nth (u0 + l) H' 0 * q l j) + nth (u0 + i) H' 0 * p i j)).
  { intros H' (A & B & _ & D). auto. }
  change i with (0 + i)%nat at 1 4 5 6.
  apply (wp_loop _ True (fun k H' => length H' = length H /\ (forall k, (k < u0)%nat -> nth k H' 0 = nth k H 0) /\
    (forall l, (k < l)%nat -> nth (u0 + l) H' 0 = nth (u0 + l) H 0) /\
    forall j, sum (S k) (fun l => nth (u0 + l) H 0 * v l j) =
              sum k (fun l => nth (u0 + l) H' 0 * q l j) + nth (u0 + k) H' 0 * p k j)).
  - split; [reflexivity|]. split; [reflexivity|]. split; [reflexivity|]. intros j. cbn. rewrite P0. ring.
  - intros k H1 L (A & B & D & E). apply wp_bind, wp_get; [|trivial]. intros _. apply wp_bind, wp_get; [|trivial]. intros _.
    apply wp_bind, wp_get; [|trivial]. intros _. apply wp_bind, wp_get; [|trivial]. intros _.
    apply wp_bind, wp_set; [|trivial]. intros L1. apply wp_set; [|trivial]. intros L2. rewrite length_upd in L2 by exact L1.
    destruct (CH k) as (U & Q & P); [lia|]. set (c := nth k C 0) in *. set (s := nth k Sn 0) in *.
    set (a := nth (u0 + k) H1 0) in *. set (b := nth (u0 + k + 1) H1 0) in *.
    assert (forall v' w', length (upd H1 (u0 + k + 1) w') = length H1 /\ length (upd (upd H1 (u0 + k + 1) w') (u0 + k) v') = length H1) as LL.
    { intros. split; [apply length_upd; exact L1|]. rewrite length_upd by (rewrite length_upd by exact L1; exact L2). apply length_upd; exact L1. }
    split; [rewrite (proj2 (LL _ _)); exact A|]. split; [|split].
    + intros k' Lk. rewrite nth_upd_ne by (rewrite ?(proj1 (LL 0 _)); lia). rewrite nth_upd_ne by lia. apply B; exact Lk.
    + intros l Ll. rewrite nth_upd_ne by (rewrite ?(proj1 (LL 0 _)); lia). rewrite nth_upd_ne by lia. apply D; lia.
    + intros j. cbn [sum]. rewrite (nth_upd_eq _ _ _ (u0 + k)) by (rewrite (proj1 (LL 0 _)); exact L2).
      rewrite (nth_upd_ne _ _ _ (u0 + k) _ (u0 + S k)) by (rewrite ?(proj1 (LL 0 _)); lia).
      replace (u0 + S k)%nat with (u0 + k + 1)%nat at 2 by lia. rewrite nth_upd_eq by exact L1.
      rewrite (sum_ext k (fun l => nth (u0 + l) (upd (upd H1 (u0 + k + 1) (- s * a + c * b)) (u0 + k) (c * a + s * b)) 0 * q l j)
        (fun l => nth (u0 + l) H1 0 * q l j)).
      * specialize (E j). cbn [sum] in E. rewrite E. rewrite <- (D (S k)) by lia. fold a.
        replace (nth (u0 + S k) H1 0) with b by (unfold b; f_equal; lia). rewrite Q, P.
        assert (forall z, z = (c * c + s * s) * z) as Z1 by (intros; rewrite U; ring).
        rewrite (Z1 (a * p k j)), (Z1 (b * v (S k) j)). ring.
      * intros l Ll. rewrite nth_upd_ne by (rewrite ?(proj1 (LL 0 _)); lia). rewrite nth_upd_ne by lia. reflexivity.
Qed.

(** ** Back substitution *)
Definition tri (l k : nat) : nat := (k * (k + 1) / 2 + l)%nat.
Lemma tri_step : forall k, (k * (k + 1) / 2 + (k + 1) = S k * (S k + 1) / 2)%nat.
Proof.
  intros k. replace (S k * (S k + 1))%nat with (k * (k + 1) + (k + 1) * 2)%nat by lia. rewrite Nat.div_add by lia. lia.
Qed.
Lemma column_ok : forall ap t j y,
  wp True (fun y' => length y' = length y /\ (forall l, (j <= l)%nat -> nth l y' 0 = nth l y 0) /\
     forall l, (l < j)%nat -> nth l y' 0 = nth l y 0 - t * nth (tri l j) ap 0)
    (loop (fun y k => a <- get ap (j * (j + 1) / 2 + k) ;; yk <- get y k ;; set y k (yk - t * a)) (rev (seq 0 j)) y).
Proof.
  intros ap t j y.
  apply (wp_weaken _ _ (fun y' => length y' = length y /\ (forall l, (j <= l)%nat -> nth l y' 0 = nth l y 0) /\
     (forall l, (l < 0)%nat -> nth l y' 0 = nth l y 0) /\
     forall l, (0 <= l < j)%nat -> nth l y' 0 = nth l y 0 - t * nth (tri l j) ap 0)).
  { intros y' (A & B & _ & C). split; [exact A|]. split; [exact B|]. intros; apply C; lia. }
  apply (wp_loop_rev _ True (fun k y' => length y' = length y /\ (forall l, (j <= l)%nat -> nth l y' 0 = nth l y 0) /\
     (forall l, (l < k)%nat -> nth l y' 0 = nth l y 0) /\
     forall l, (k <= l < j)%nat -> nth l y' 0 = nth l y 0 - t * nth (tri l j) ap 0)).
  - split; [reflexivity|]. split; [reflexivity|]. split; [reflexivity|]. intros; lia.
  - intros k y' L (A & B & C & D). apply wp_bind, wp_get; [|trivial]. intros _. apply wp_bind, wp_get; [|trivial]. intros L1.
    apply wp_set; [|trivial]. intros _. split; [rewrite length_upd by exact L1; exact A|].
    split; [intros l Ll; rewrite nth_upd_ne by lia; apply B; exact Ll|].
    split; [intros l Ll; rewrite nth_upd_ne by lia; apply C; lia|].
    intros l Ll. destruct (Nat.eq_dec l k) as [->|N].
    + rewrite nth_upd_eq by exact L1. rewrite C by lia. unfold tri. reflexivity.
    + rewrite nth_upd_ne by (assumption || lia). apply D. lia.
Qed.
Lemma dtpsv_ok : forall ap nn y,
  wp True (fun y' => (forall l, (nn <= l)%nat -> nth l y' 0 = nth l y 0) /\
    forall l, (l < nn)%nat -> sum nn (fun k => (if Nat.leb l k then nth (tri l k) ap 0 else 0) * nth k y' 0) = nth l y 0)
    (dtpsv nn ap y).
Proof.
  intros ap; induction nn as [|j IH]; intros y.
  - cbn. split; [reflexivity|]. intros; lia.
  - unfold dtpsv. rewrite seq_S, rev_app_distr. cbn [rev app loop Nat.add]. apply wp_bind, wp_bind, wp_get; [|trivial]. intros Lj.
    assert (forall y1 t, (t = nth j y 0 / nth (tri j j) ap 0 /\ nth (tri j j) ap 0 <> 0 \/ t = 0 /\ nth j y 0 = 0) ->
      (forall l, (S j <= l)%nat -> nth l y1 0 = nth l y 0) -> nth j y1 0 = t ->
      (forall l, (l < j)%nat -> nth l y1 0 = nth l y 0 - t * nth (tri l j) ap 0) ->
      wp True (fun y' => (forall l, (S j <= l)%nat -> nth l y' 0 = nth l y 0) /\
        forall l, (l < S j)%nat -> sum (S j) (fun k => (if Nat.leb l k then nth (tri l k) ap 0 else 0) * nth k y' 0) = nth l y 0)
       (dtpsv j ap y1)) as K.
    { intros y1 t T A B C. eapply wp_weaken; [|apply IH]. intros y' (D & E). split.
      - intros l Ll. rewrite D by lia. apply A; exact Ll.
      - intros l Ll. cbn [sum]. rewrite (D j) by lia. rewrite B. destruct (Nat.leb_spec l j); [|lia].
        destruct (Nat.eq_dec l j) as [->|N].
        + rewrite (sum_ext j _ (fun _ => 0)).
          * rewrite sum_zero. destruct T as [[-> N]|[-> ->]]; [field; exact N|ring].
          * intros k Lk. destruct (Nat.leb_spec j k); [lia|]. ring.
        + rewrite E by lia. rewrite C by lia. ring. }
    destruct (Req_EM_T (nth j y 0) 0) as [Z|NZ].
    + cbn [wp]. apply (K y 0); auto.
      * intros l _. ring.
    + apply wp_bind, wp_get; [|trivial]. intros Ld. apply wp_bind, wp_quo. intros Nd. apply wp_bind, wp_set; [|trivial]. intros _.
      eapply wp_weaken; [|apply column_ok]. cbv beta. intros y1 (A & B & C).
      apply (K y1 (nth j y 0 / nth (tri j j) ap 0)).
      * left. split; [reflexivity|exact Nd].
      * intros l Ll. rewrite B by lia. apply nth_upd_ne; [exact Lj|lia].
      * rewrite B by lia. apply nth_upd_eq; exact Lj.
      * intros l Ll. rewrite C by exact Ll. rewrite nth_upd_ne by (assumption || lia). reflexivity.
Qed.

Lemma update_ok : forall V Y v cnt G, (forall k, (k < cnt)%nat -> nth k V None = Some (v k)) ->
  wp True (fun G' => forall j, G' j = G j + sum cnt (fun k => nth k Y 0 * v k j)) (update V Y cnt G).
Proof.
  intros V Y v cnt G HV. unfold update.
  apply (wp_loop _ True (fun k G' => forall j, G' j = G j + sum k (fun k => nth k Y 0 * v k j)) _ cnt 0).
  - intros j. cbn. ring.
  - intros k G1 L I. apply wp_bind, wp_get; [|trivial]. intros _. apply wp_bind, wp_row; [|trivial]. intros vk E.
    rewrite HV in E by lia. injection E as <-. cbn. intros j. unfold axpy. rewrite I. ring.
Qed.

(** ** One iteration *)
Context (M : nat -> nat -> R) (cst : vec).
Context (HF : forall x j, (j < n)%nat -> F x j = cst j + sum n (fun k => M j k * x k)).
Definition A (v : vec) : vec := fun j => sum n (fun k => M j k * v k).

Lemma A_scal_plus : forall a x y j, A (axpy a x y) j = A y j + a * A x j.
Proof.
  intros. unfold A. rewrite <- sum_scal, <- sum_plus. apply sum_ext. intros. unfold axpy. ring.
Qed.
Lemma product_ok : forall x v, wp True (fun w => forall j, (j < n)%nat -> w j = A v j) (product F eps x (F x) v).
Proof.
  intros x v. unfold product. apply wp_bind, wp_quo. intros N. cbn. intros j L. rewrite !HF by exact L.
  fold (A (axpy eps v x) j). fold (A x j). rewrite A_scal_plus. field. exact N.
Qed.

Definition ext {B} (f : nat -> B) (i : nat) (v : B) : nat -> B := fun k => if Nat.eqb k i then v else f k.
Lemma ext_eq : forall B (f : nat -> B) i v, ext f i v i = v.
Proof. intros. unfold ext. rewrite Nat.eqb_refl. reflexivity. Qed.
Lemma ext_ne : forall B (f : nat -> B) i v k, k <> i -> ext f i v k = f k.
Proof. intros. unfold ext. destruct (Nat.eqb_spec k i); [contradiction|reflexivity]. Qed.

Context (b : vec).
Record inv (W : solver) (v p q : nat -> vec) (i : nat) : Prop := {
  inv_s : (i < length (kS W))%nat;
  inv_v : forall k, (k <= i)%nat -> nth k (kV W) None = Some (v k);
  inv_o : orthonormal v i;
  inv_c : chain (kC W) (kSn W) v p q i;
  inv_0 : forall j, p 0%nat j = v 0%nat j;
  inv_p : vdot n (p i) (p i) = 1;
  inv_span : forall u, (forall k, (k <= i)%nat -> vdot n u (v k) = 0) -> vdot n u (p i) = 0;
  inv_col : forall k j, (k < i)%nat -> (j < n)%nat -> A (v k) j = sum (S k) (fun l => nth (tri l k) (kH W) 0 * q l j);
  inv_b : forall j, (j < n)%nat -> b j = sum i (fun l => nth l (kS W) 0 * q l j) + nth i (kS W) 0 * p i j }.

Lemma givens_zero : forall a, givens a 0 = (1, 0).
Proof. intros a. unfold givens. destruct (Req_EM_T 0 0); [reflexivity|lra]. Qed.

Lemma body_ok : forall x ib W v p q i, inv W v p q i ->
  wp True (fun '(W1, e) => length (kS W1) = length (kS W) /\ (i + 1 < length (kS W))%nat /\
      e = Rabs (nth (i + 1) (kS W1) 0) * ib /\
      exists v' p' q', (forall k, (k <= i)%nat -> nth k (kV W1) None = Some (v' k)) /\
        (forall k j, (k < S i)%nat -> (j < n)%nat -> A (v' k) j = sum (S k) (fun l => nth (tri l k) (kH W1) 0 * q' l j)) /\
        (forall j, (j < n)%nat -> b j = sum (S i) (fun l => nth l (kS W1) 0 * q' l j) + nth (i + 1) (kS W1) 0 * p' j) /\
        length2 n (fun j => nth (i + 1) (kS W1) 0 * p' j) = Rabs (nth (i + 1) (kS W1) 0) /\
        (nth (i + 1) (kV W1) None = None \/ exists p', inv W1 v' p' q' (S i)))
    (body F n eps x (F x) ib W (i * (i + 1) / 2) i).
Proof.
  intros x ib W v p q i [IS IV IO IC I0 IP ISP ICOL IB]. unfold body. set (u0 := (i * (i + 1) / 2)%nat).
  apply wp_bind, wp_row; [|trivial]. intros v' Ev. rewrite IV in Ev by lia. injection Ev as <-.
  apply wp_bind. eapply wp_weaken; [|apply product_ok]. intros w0 E0. cbv beta.
  apply wp_bind. eapply wp_weaken; [|apply gram_ok with (v := v); [exact IO|exact IV]]. cbv beta. intros [H1 w] (LH & BH & OW & EW).
  set (hx := vnorm n w). apply wp_bind, wp_set; [|trivial]. intros LV.
  apply wp_bind. eapply wp_weaken; [|apply rotations_ok with (v := v) (p := p) (q := q); [exact IC|exact I0]]. cbv beta. intros H2 (LH2 & BH2 & EH2).
  apply wp_bind, wp_get; [|trivial]. intros La. set (a := nth (u0 + i) H2 0) in *.
  pose proof (C40_givens a hx) as GV. destruct (givens a hx) as [c s] eqn:EG. destruct GV as (GU & GA & _).
  apply wp_bind, wp_set; [|trivial]. intros LC. apply wp_bind, wp_set; [|trivial]. intros LS. apply wp_bind, wp_get; [|trivial]. intros L1.
  set (si := nth i (kS W) 0) in *. apply wp_bind, wp_set; [|trivial]. intros L2. apply wp_bind, wp_set; [|trivial]. intros L3.
  apply wp_bind, wp_set; [|trivial]. intros L4. apply wp_bind, wp_get; [|trivial]. intros L5. cbn [wp kS kV kH kC kSn].
  set (H3 := upd H2 (u0 + i) (c * a + s * hx)). set (S2 := upd (upd (kS W) (i + 1) (- s * si)) i (c * si)).
  set (V' := upd (kV W) (i + 1) _).
  assert (length S2 = length (kS W)) as LS2 by (unfold S2; rewrite length_upd by exact L3; apply length_upd; exact L2).
  assert (nth (i + 1) S2 0 = - s * si) as ES1 by (unfold S2; rewrite nth_upd_ne by (assumption || lia); apply nth_upd_eq; exact L2).
  assert (nth i S2 0 = c * si) as ES2 by (unfold S2; apply nth_upd_eq; exact L3).
  assert (forall l, (l < i)%nat -> nth l S2 0 = nth l (kS W) 0) as ES3.
  { intros l Ll. unfold S2. rewrite nth_upd_ne by (assumption || lia). apply nth_upd_ne; [exact L2|lia]. }
  assert (forall k, (k <= i)%nat -> nth k V' None = Some (v k)) as EV.
  { intros k Lk. unfold V'. rewrite nth_upd_ne by (assumption || lia). apply IV; exact Lk. }
  assert (forall k l, (k < i)%nat -> (l <= k)%nat -> nth (tri l k) H3 0 = nth (tri l k) (kH W) 0) as EH.
  { intros k l Lk Ll. assert (tri l k < u0)%nat as T.
    { unfold tri, u0. pose proof (tri_step k). assert (S k * (S k + 1) / 2 <= i * (i + 1) / 2)%nat by (apply Nat.div_le_mono; nia). lia. }
    unfold H3. rewrite nth_upd_ne by (assumption || lia). rewrite BH2, BH by exact T. reflexivity. }
  split; [exact LS2|]. split; [exact L2|]. split; [rewrite ES1; reflexivity|].
  assert (forall l, (l < i)%nat -> nth (tri l i) H3 0 = nth (u0 + l) H2 0) as EH3.
  { intros l Ll. unfold H3, tri. fold u0. apply nth_upd_ne; [exact La|lia]. }
  assert (nth (tri i i) H3 0 = c * a + s * hx) as EHi by (unfold H3, tri; fold u0; apply nth_upd_eq; exact La).
  assert (forall j, (j < n)%nat -> A (v i) j = w j + (sum i (fun l => nth (u0 + l) H2 0 * q l j) + a * p i j)) as EA.
  { intros j Lj. rewrite <- E0 by exact Lj. rewrite EW, EH2. reflexivity. }
  assert (forall q' qi, (forall l, (l < i)%nat -> q' l = q l) -> q' i = qi ->
    (forall j, (j < n)%nat -> w j + a * p i j = (c * a + s * hx) * qi j) ->
    forall k j, (k < S i)%nat -> (j < n)%nat -> A (v k) j = sum (S k) (fun l => nth (tri l k) H3 0 * q' l j)) as COL.
  { intros q' qi Q1 Q2 Q3 k j Lk Lj. destruct (Nat.eq_dec k i) as [->|N].
    - cbn [sum]. rewrite EHi, Q2, <- Q3 by exact Lj.
      rewrite (sum_ext i _ (fun l => nth (u0 + l) H2 0 * q l j)) by (intros l Ll; rewrite EH3, Q1 by exact Ll; reflexivity).
      rewrite EA by exact Lj. ring.
    - rewrite ICOL by (exact Lj || lia). apply sum_ext. intros l Ll. rewrite EH, Q1 by lia. reflexivity. }
  destruct (Req_EM_T hx 0) as [Z|NZ].
  - (* breakdown *)
    rewrite Z, givens_zero in EG. injection EG as <- <-.
    assert (forall j, (j < n)%nat -> w j = 0) as W0.
    { unfold hx, vnorm in Z. apply sqrt_eq_0 in Z; [|apply vdot_pos]. rewrite vdot_sum in Z. clear - Z. revert Z. induction n as [|k IH]; intros Z j Lj; [lia|].
      cbn [sum] in Z. pose proof (sum_nonneg k (fun j => w j * w j) (fun j => Rle_0_sqr (w j))). pose proof (Rle_0_sqr (w k)) as K. unfold Rsqr in K.
      destruct (Nat.eq_dec j k) as [->|]; [nra|]. apply IH; [nra|lia]. }
    exists v, (p i), (ext q i (p i)). split; [exact EV|]. split; [|split; [|split; [|left]]].
    + apply (COL _ (p i)); [intros l Ll; apply ext_ne; lia|apply ext_eq|]. intros j Lj. rewrite W0 by exact Lj. rewrite Z. ring.
    + intros j Lj. cbn [sum]. rewrite ext_eq, ES1, ES2. rewrite (sum_ext i _ (fun l => nth l (kS W) 0 * q l j)).
      * rewrite IB by exact Lj. fold si. ring.
      * intros l Ll. rewrite ES3, ext_ne by lia. reflexivity.
    + apply length2_scal with (p := p i); [reflexivity|exact IP].
    + unfold V'. apply nth_upd_eq; exact LV.
  - set (vn := scal w (1 / hx)).
    assert (vdot n vn vn = 1) as VN.
    { unfold vn. rewrite vdot_scal, vdot_comm, vdot_scal. pose proof (sqrt_sqrt _ (vdot_pos n w)) as SQ. fold (vnorm n w) in SQ. fold hx in SQ.
      rewrite <- SQ. field. exact NZ. }
    assert (forall k, (k <= i)%nat -> vdot n vn (v k) = 0) as VO by (intros k Lk; unfold vn; rewrite vdot_scal, OW by exact Lk; ring).
    pose proof (ISP vn VO) as VP.
    set (qi := fun j => c * p i j + s * vn j). set (pn := fun j => - s * p i j + c * vn j).
    assert (vdot n pn pn = 1) as PN.
    { unfold pn. rewrite vdot_lin, !(vdot_comm n _ (fun j => - s * p i j + c * vn j)), !vdot_lin, VP, (vdot_comm n (p i) vn), VP, VN, IP.
      transitivity (c * c + s * s); [ring|exact GU]. }
    assert (forall j, w j = hx * vn j) as EVN by (intros j; unfold vn, scal; field; exact NZ).
    exists (ext v (S i) vn), pn, (ext q i qi). split; [intros k Lk; rewrite ext_ne by lia; apply EV; exact Lk|].
    assert (forall k j, (k < S i)%nat -> (j < n)%nat -> A (ext v (S i) vn k) j = sum (S k) (fun l => nth (tri l k) H3 0 * ext q i qi l j)) as COL'.
    { intros k j Lk Lj. rewrite ext_ne by lia. revert k j Lk Lj. apply (COL _ qi); [intros l Ll; apply ext_ne; lia|apply ext_eq|].
      intros j _. rewrite EVN. unfold qi. assert (c * hx = s * a) as GB by lra.
      assert (hx = s * (c * a + s * hx)) as R1 by (rewrite Rmult_plus_distr_l, <- !Rmult_assoc, (Rmult_comm s c), (Rmult_assoc c), <- GB; transitivity ((c * c + s * s) * hx); [rewrite GU|]; ring).
      assert (a = c * (c * a + s * hx)) as R2 by (rewrite Rmult_plus_distr_l, <- !Rmult_assoc, (Rmult_comm c s), (Rmult_assoc s c), GB; transitivity ((c * c + s * s) * a); [rewrite GU|]; ring).
      rewrite R1 at 1. rewrite R2 at 2. ring. }
    assert (forall j, (j < n)%nat -> b j = sum (S i) (fun l => nth l S2 0 * ext q i qi l j) + nth (i + 1) S2 0 * pn j) as EB.
    { intros j Lj. cbn [sum]. rewrite ext_eq, ES1, ES2. rewrite (sum_ext i _ (fun l => nth l (kS W) 0 * q l j)).
      - rewrite IB by exact Lj. fold si. unfold qi, pn. replace (si * p i j) with ((c * c + s * s) * (si * p i j)) by (rewrite GU; ring). ring.
      - intros l Ll. rewrite ES3, ext_ne by lia. reflexivity. }
    split; [exact COL'|]. split; [exact EB|]. split; [apply length2_scal with (p := pn); [reflexivity|exact PN]|]. right.
    exists (ext p (S i) pn). constructor; cbn [kS kV kC kSn kH].
    + rewrite LS2. lia.
    + intros k Lk. destruct (Nat.eq_dec k (S i)) as [->|N].
      * rewrite ext_eq. unfold V'. replace (S i) with (i + 1)%nat by lia. apply nth_upd_eq; exact LV.
      * rewrite ext_ne by exact N. apply EV. lia.
    + intros j k Lj Lk. destruct (Nat.eq_dec j (S i)) as [->|Nj]; destruct (Nat.eq_dec k (S i)) as [->|Nk].
      * rewrite Nat.eqb_refl, !ext_eq. exact VN.
      * rewrite ext_eq, ext_ne by exact Nk. destruct (Nat.eqb_spec (S i) k); [lia|]. apply VO; lia.
      * rewrite ext_eq, ext_ne by exact Nj. destruct (Nat.eqb_spec j (S i)); [lia|]. rewrite vdot_comm. apply VO; lia.
      * rewrite !ext_ne by assumption. apply IO; lia.
    + intros k Lk. destruct (Nat.eq_dec k i) as [->|N].
      * rewrite !nth_upd_eq by assumption. rewrite !ext_eq, !(ext_ne _ p (S i)) by lia. auto.
      * rewrite !nth_upd_ne by assumption. rewrite !ext_ne by lia. apply IC. lia.
    + intros j. rewrite !ext_ne by lia. apply I0.
    + rewrite ext_eq. exact PN.
    + intros u Hu. rewrite ext_eq. unfold pn. rewrite vdot_comm, vdot_lin, (vdot_comm n (p i)), (vdot_comm n vn), ISP.
      * pose proof (Hu (S i) (le_n _)) as K. rewrite ext_eq in K. rewrite K. ring.
      * intros k Lk. specialize (Hu k). rewrite ext_ne in Hu by lia. apply Hu. lia.
    + exact COL'.
    + intros j Lj. rewrite EB by exact Lj. rewrite ext_eq. replace (i + 1)%nat with (S i) by lia. reflexivity.
Qed.

(** ** The loop over i *)
Lemma A_sum : forall cnt (y : nat -> R) (v : nat -> vec) j, A (fun j => sum cnt (fun k => y k * v k j)) j = sum cnt (fun k => y k * A (v k) j).
Proof.
  intros. unfold A. rewrite (sum_ext n _ (fun l => sum cnt (fun k => y k * (M j l * v k l)))).
  - rewrite sum_swap. apply sum_ext. intros k _. rewrite sum_scal. reflexivity.
  - intros l _. rewrite <- sum_scal. apply sum_ext. intros; ring.
Qed.
Lemma inner_ok : forall x ib tol k W v p q i err G, inv W v p q i -> (i + k = length (kS W))%nat -> (forall j, G j = 0) ->
  wp True (fun '(W1, G1, e) => e <= tol /\ e = length2 n (fun j => b j - A G1 j) * ib)
    (inner F n eps x (F x) ib tol W G err (i * (i + 1) / 2) i k).
Proof.
  intros x ib tol; induction k as [|k IH]; intros W v p q i err G I L G0.
  - pose proof (inv_s _ _ _ _ _ I). lia.
  - cbn [inner]. apply wp_bind. eapply wp_weaken; [|eapply body_ok; exact I]. cbv beta.
    intros [W1 e] (LS & LI & EE & v' & p' & q' & HV & HC & HB & HN & HI). destruct (Rle_dec e tol) as [T|NT].
    + apply wp_bind. eapply wp_weaken; [|apply dtpsv_ok]. cbv beta. intros Y (_ & HY). apply wp_bind.
      eapply wp_weaken; [|apply update_ok with (v := v'); intros k' Lk; apply HV; lia]. cbv beta. intros G1 HG. cbn [wp]. split; [exact T|].
      rewrite EE. f_equal. rewrite <- HN. unfold length2. f_equal. apply sum_ext. intros j Lj.
      enough (b j - A G1 j = nth (i + 1) (kS W1) 0 * p' j) as -> by reflexivity.
      rewrite HB by exact Lj. replace (i + 1)%nat with (S i) in * by lia.
      assert (A G1 j = A (fun j => sum (S i) (fun k => nth k Y 0 * v' k j)) j) as ->.
      { unfold A. apply sum_ext. intros l _. rewrite HG, G0. ring. }
      rewrite A_sum. rewrite (sum_ext (S i) (fun k => nth k Y 0 * A (v' k) j) (fun k => sum (S k) (fun l => (nth k Y 0 * nth (tri l k) (kH W1) 0) * q' l j))).
      * rewrite sum_triangle. rewrite (sum_ext (S i) (fun l => sum (S i) _ * q' l j) (fun l => nth l (kS W1) 0 * q' l j)); [ring|].
        intros l Ll. f_equal. rewrite <- HY by exact Ll. apply sum_ext. intros k' _. destruct (Nat.leb l k'); ring.
      * intros k' Lk. rewrite HC by assumption. rewrite <- sum_scal. apply sum_ext. intros; ring.
    + destruct HI as [HNone|[p'' HI]].
      * destruct k as [|k]; [lia|]. cbn [inner]. unfold body at 1. unfold row at 1.
        destruct (nth_error (kV W1) (i + 1)) as [r|] eqn:E.
        -- rewrite (nth_error_nth _ _ None E) in HNone. subst r. exact Logic.I.
        -- exact Logic.I.
      * replace (i * (i + 1) / 2 + (i + 1))%nat with (S i * (S i + 1) / 2)%nat by (rewrite <- tri_step; reflexivity).
        replace (i + 1)%nat with (S i) by lia. eapply IH; [exact HI|rewrite LS; lia|exact G0].
Qed.
End Sound.
