(** Lemmas for HsProps *)
From Coq Require Import ZArith Reals List Bool Lia Lra.
From Verif Require Import ShallowSpec ShallowModel ShallowProofs HsModel HsSpec.
From Verif Require PhysModel.
Import ListNotations.
Local Open Scope R_scope.

Lemma inner_edge_true N k : inner_edge N k = true <-> (1 <= k < N)%nat.
Proof. unfold inner_edge. rewrite andb_true_iff, Nat.leb_le, Nat.ltb_lt. tauto. Qed.
Lemma inner_in N k : (1 <= k < N)%nat -> inner_edge N k = true.
Proof. apply inner_edge_true. Qed.
Lemma inner_out N k : ~ (1 <= k < N)%nat -> inner_edge N k = false.
Proof. intro H. destruct (inner_edge N k) eqn:E; [|reflexivity]. apply inner_edge_true in E. tauto. Qed.

(** the rows of the system handed to dgtsv *)
Lemma system_rows c N dt X x : (0 < N)%nat ->
  solves (N + 1) (arr_a c N dt X) (arr_b c N dt X) (arr_c c N dt X) (arr_d c N dt X) x <->
  x O = 0 /\ (if Nat.eqb N 1 then 0 else oldA X (N - 1)%nat * x (N - 1)%nat) + x N = 0 /\
  (forall k, (1 <= k < N)%nat -> row_a c N dt X k * x (k - 1)%nat + row_b c N dt X k * x k + row_c c N dt X k * x (k + 1)%nat = row_d c dt X k).
Proof.
  intro HN. unfold solves. split.
  - intro H. repeat split.
    + specialize (H 0%nat ltac:(lia)). cbn [Nat.eqb] in H.
      destruct (Nat.eqb_spec (0 + 1) (N + 1)); [lia|].
      unfold arr_b, arr_c, arr_d in H. rewrite (inner_out N 0) in H by lia. lra.
    + specialize (H N ltac:(lia)). destruct (Nat.eqb_spec N 0); [lia|].
      rewrite Nat.eqb_refl in H. unfold arr_b, arr_d, arr_a in H. rewrite (inner_out N N) in H by lia.
      replace (N - 1 + 1)%nat with N in H by lia. rewrite (inner_out N N) in H by lia.
      destruct (Nat.eqb_spec N 1) as [->|E]; [cbn in H; lra|].
      destruct (Nat.eqb_spec (N - 1) 0); [lia|]. lra.
    + intros k Hk. specialize (H k ltac:(lia)). destruct (Nat.eqb_spec k 0); [lia|].
      destruct (Nat.eqb_spec (k + 1) (N + 1)); [lia|].
      unfold arr_b, arr_c, arr_d, arr_a in H. replace (k - 1 + 1)%nat with k in H by lia.
      rewrite (inner_in N k) in H by lia. exact H.
  - intros (H0 & HN' & H) k Hk. destruct (Nat.eq_dec k 0) as [->|E0].
    + cbn [Nat.eqb]. unfold arr_b, arr_c, arr_d. rewrite (inner_out N 0) by lia.
      destruct (Nat.eqb_spec (0 + 1) (N + 1)); [lia|]. rewrite H0. lra.
    + destruct (Nat.eqb_spec k 0); [lia|]. destruct (Nat.eq_dec k N) as [->|EN].
      * rewrite Nat.eqb_refl. unfold arr_b, arr_d, arr_a. rewrite (inner_out N N) by lia.
        replace (N - 1 + 1)%nat with N by lia. rewrite (inner_out N N) by lia.
        destruct (Nat.eqb_spec N 1) as [->|E]; [cbn; lra|]. destruct (Nat.eqb_spec (N - 1) 0); [lia|]. lra.
      * destruct (Nat.eqb_spec (k + 1) (N + 1)); [lia|].
        unfold arr_b, arr_c, arr_d, arr_a. replace (k - 1 + 1)%nat with k by lia.
        rewrite (inner_in N k) by lia. apply H. lia.
Qed.

Lemma flux_total N zi (f : nat -> R) e : (forall k, (k < N)%nat -> zi (S k) - zi k <> 0) ->
  nsum N (fun k => (zi (S k) - zi k) * (e * (1 / (zi (k + 1)%nat - zi k) * (f (k + 1)%nat - f k)))) = e * (f N - f O).
Proof.
  induction N as [|N IH]; intro H; cbn [nsum]; [lra|].
  rewrite IH by (intros; apply H; lia). replace (N + 1)%nat with (S N) by lia.
  field. apply H. lia.
Qed.

(** the largest of |e 0| .. |e n| *)
Lemma arg_max (e : nat -> R) n : exists m, (m <= n)%nat /\ forall k, (k <= n)%nat -> Rabs (e k) <= Rabs (e m).
Proof.
  induction n as [|n [m [Hm H]]].
  - exists 0%nat. split; [lia|]. intros k Hk. replace k with 0%nat by lia. lra.
  - destruct (Rle_dec (Rabs (e (S n))) (Rabs (e m))) as [L|L].
    + exists m. split; [lia|]. intros k Hk. destruct (Nat.eq_dec k (S n)) as [->|]; [exact L|]. apply H. lia.
    + exists (S n). split; [lia|]. intros k Hk. destruct (Nat.eq_dec k (S n)) as [->|]; [lra|].
      specialize (H k ltac:(lia)). lra.
Qed.

Lemma dominant_null N a b c e : dominant N a b c -> e O = 0 -> e N = 0 ->
  (forall k, (1 <= k < N)%nat -> a k * e (k - 1)%nat + b k * e k + c k * e (k + 1)%nat = 0) ->
  forall k, (k <= N)%nat -> e k = 0.
Proof.
  intros D E0 EN H. destruct (arg_max e N) as [m [Hm M]].
  assert (Em : Rabs (e m) = 0).
  { destruct (Nat.eq_dec m 0) as [->|]; [rewrite E0; apply Rabs_R0|].
    destruct (Nat.eq_dec m N) as [->|]; [rewrite EN; apply Rabs_R0|].
    specialize (H m ltac:(lia)). specialize (D m ltac:(lia)).
    pose proof (M (m - 1)%nat ltac:(lia)) as M1. pose proof (M (m + 1)%nat ltac:(lia)) as M2.
    destruct (Req_dec (Rabs (e m)) 0) as [Z|Z]; [exact Z|exfalso].
    pose proof (Rabs_pos (e m)) as P.
    assert (Q : Rabs (b m) * Rabs (e m) <= (Rabs (a m) + Rabs (c m)) * Rabs (e m)).
    { rewrite <- Rabs_mult. replace (b m * e m) with (- (a m * e (m - 1)%nat + c m * e (m + 1)%nat)) by lra.
      rewrite Rabs_Ropp. eapply Rle_trans; [apply Rabs_triang|]. rewrite !Rabs_mult, Rmult_plus_distr_r.
      apply Rplus_le_compat; apply Rmult_le_compat_l; auto using Rabs_pos. }
    assert ((Rabs (b m) - (Rabs (a m) + Rabs (c m))) * Rabs (e m) > 0) by (apply Rmult_lt_0_compat; lra). lra. }
  intros k Hk. specialize (M k Hk). rewrite Em in M. pose proof (Rabs_pos (e k)).
  destruct (Req_dec (e k) 0) as [Z|Z]; [exact Z|]. apply Rabs_pos_lt in Z. lra.
Qed.

(** ** Elimination *)
Section Thomas.
Context (a b c d : nat -> R).
Lemma backward_length N : forall k l, backward a b c d N k = Some l -> length l = S k.
Proof.
  induction k as [|k IH]; intros l H; cbn [backward] in H; [injection H as <-; reflexivity|].
  destruct (backward a b c d N k) as [[|x r]|] eqn:E; try discriminate.
  destruct (forward a b c d (N - S k)) as [[c' d']|]; [|discriminate]. injection H as <-.
  specialize (IH _ eq_refl). cbn in *. lia.
Qed.
Lemma backward_nth N : forall k l, backward a b c d N k = Some l -> (k <= N)%nat ->
  nth k l 0 = d N /\
  forall i, (i < k)%nat -> exists c' d', forward a b c d (N - k + i) = Some (c', d') /\ nth i l 0 = d' - c' * nth (S i) l 0.
Proof.
  induction k as [|k IH]; intros l H Hk; cbn [backward] in H.
  - injection H as <-. split; [reflexivity|]. intros i Hi. lia.
  - destruct (backward a b c d N k) as [[|x r]|] eqn:E; try discriminate.
    destruct (forward a b c d (N - S k)) as [[c' d']|] eqn:F; [|discriminate]. injection H as <-.
    destruct (IH _ eq_refl ltac:(lia)) as [L I]. split; [exact L|].
    intros [|i] Hi.
    + exists c', d'. split; [|reflexivity]. replace (N - S k + 0)%nat with (N - S k)%nat by lia. exact F.
    + destruct (I i ltac:(lia)) as (c2 & d2 & F2 & E2). exists c2, d2. split; [|exact E2].
      replace (N - S k + S i)%nat with (N - k + i)%nat by lia. exact F2.
Qed.
(** each eliminated row implies the row it came from *)
Lemma forward_rows (x : nat -> R) N : (forall k, (k < N)%nat -> exists c' d', forward a b c d k = Some (c', d') /\ x k = d' - c' * x (S k)) ->
  (forall k, (k < N)%nat -> (if Nat.eqb k 0 then 0 else a k * x (k - 1)%nat) + b k * x k + c k * x (S k) = d k).
Proof.
  intros H k Hk. destruct (H k Hk) as (c' & d' & F & E). destruct k as [|k].
  - cbn [forward] in F. destruct (Req_EM_T (b 0%nat) 0) as [|Z]; [discriminate|]. injection F as <- <-.
    cbn [Nat.eqb]. rewrite E. field. exact Z.
  - destruct (H k ltac:(lia)) as (c2 & d2 & F2 & E2). cbn [forward] in F. rewrite F2 in F.
    destruct (Req_EM_T (b (S k) - a (S k) * c2) 0) as [|Z]; [discriminate|]. injection F as <- <-.
    cbn [Nat.eqb]. replace (S k - 1)%nat with k by lia. rewrite E2.
    assert (E' : (b (S k) - a (S k) * c2) * x (S k) = d (S k) - a (S k) * d2 - c (S k) * x (S (S k))) by (rewrite E; field; exact Z).
    lra.
Qed.
Lemma forward_dominant N : b O = 1 -> c O = 0 -> dominant N a b c -> forall k, (k < N)%nat ->
  exists c' d', forward a b c d k = Some (c', d') /\ Rabs c' < 1.
Proof.
  intros B0 C0 D. induction k as [|k IH]; intro Hk; cbn [forward].
  - rewrite B0. destruct (Req_EM_T 1 0); [lra|]. exists (c 0%nat / 1), (d 0%nat / 1). split; [reflexivity|].
    rewrite C0. replace (0 / 1) with 0 by lra. rewrite Rabs_R0. lra.
  - destruct (IH ltac:(lia)) as (c' & d' & -> & L). specialize (D (S k) ltac:(lia)).
    assert (P : Rabs (c (S k)) < Rabs (b (S k) - a (S k) * c')).
    { pose proof (Rabs_triang_inv (b (S k)) (a (S k) * c')) as T. rewrite Rabs_mult in T.
      assert (Rabs (a (S k)) * Rabs c' <= Rabs (a (S k)) * 1) by (apply Rmult_le_compat_l; [apply Rabs_pos|lra]). lra. }
    pose proof (Rabs_pos (c (S k))) as Pc.
    destruct (Req_EM_T (b (S k) - a (S k) * c') 0) as [Z|Z]; [rewrite Z, Rabs_R0 in P; lra|].
    eexists _, _. split; [reflexivity|]. unfold Rdiv. rewrite Rabs_mult, Rabs_inv.
    apply (Rmult_lt_reg_r (Rabs (b (S k) - a (S k) * c'))); [lra|].
    rewrite Rmult_assoc, Rinv_l by lra. lra.
Qed.
Lemma backward_some N : (forall k, (k < N)%nat -> exists t, forward a b c d k = Some t) ->
  forall k, (k <= N)%nat -> exists l, backward a b c d N k = Some l.
Proof.
  intros F. induction k as [|k IH]; intro Hk; cbn [backward]; [eauto|].
  destruct (IH ltac:(lia)) as [l E]. rewrite E. pose proof (backward_length _ _ _ E) as L.
  destruct l as [|x r]; [discriminate|]. destruct (F (N - S k)%nat ltac:(lia)) as [[c' d'] ->]. eauto.
Qed.
End Thomas.

(** a bound on the rows *)
Definition weight (c : PhysModel.constants) (N : nat) (X : hcol) (k : nat) : R :=
  Rabs (row_a c N 1 X k) + Rabs (row_b c N 1 X k - 1) + Rabs (row_c c N 1 X k).
Lemma weight_pos c N X k : 0 <= weight c N X k.
Proof. unfold weight. pose proof (Rabs_pos (row_a c N 1 X k)). pose proof (Rabs_pos (row_b c N 1 X k - 1)). pose proof (Rabs_pos (row_c c N 1 X k)). lra. Qed.
Lemma nsum_ge f n k : (forall i, 0 <= f i) -> (k < n)%nat -> f k <= nsum n f.
Proof.
  intros P. induction n as [|n IH]; intro H; [lia|]. cbn [nsum].
  assert (0 <= nsum n f) by (clear - P; induction n; cbn [nsum]; [lra|specialize (P n); lra]).
  destruct (Nat.eq_dec k n) as [->|]; [lra|]. specialize (IH ltac:(lia)). specialize (P n). lra.
Qed.
Lemma small_dominant c N X dt : dt * dt < / (1 + nsum N (weight c N X)) ->
  dominant N (row_a c N dt X) (row_b c N dt X) (row_c c N dt X).
Proof.
  intros Hs k Hk. pose proof (nsum_ge (weight c N X) N k (weight_pos c N X) ltac:(lia)) as W.
  pose proof (weight_pos c N X k) as P. unfold weight in *.
  replace (row_a c N dt X k) with (dt * dt * row_a c N 1 X k) by (unfold row_a; ring).
  replace (row_c c N dt X k) with (dt * dt * row_c c N 1 X k) by (unfold row_c; ring).
  replace (row_b c N dt X k) with (1 + dt * dt * (row_b c N 1 X k - 1)) by (unfold row_b; ring).
  assert (D : 0 <= dt * dt) by (pose proof (Rle_0_sqr dt) as Q; exact Q).
  pose proof (Rabs_triang (1 + dt * dt * (row_b c N 1 X k - 1)) (- (dt * dt * (row_b c N 1 X k - 1)))) as T.
  replace (1 + dt * dt * (row_b c N 1 X k - 1) + - (dt * dt * (row_b c N 1 X k - 1))) with 1 in T by ring.
  rewrite Rabs_R1, Rabs_Ropp in T.
  rewrite (Rabs_mult (dt * dt) (row_b c N 1 X k - 1)), (Rabs_pos_eq _ D) in T.
  rewrite (Rabs_mult (dt * dt) (row_a c N 1 X k)), (Rabs_mult (dt * dt) (row_c c N 1 X k)), (Rabs_pos_eq _ D).
  fold (nsum N (fun k => Rabs (row_a c N 1 X k) + Rabs (row_b c N 1 X k - 1) + Rabs (row_c c N 1 X k))) in *.
  set (M := nsum N _) in *. generalize dependent (Rabs (row_a c N 1 X k)). generalize dependent (Rabs (row_b c N 1 X k - 1)).
  generalize dependent (Rabs (row_c c N 1 X k)). intros rc rb T ra W P.
  assert (Q : dt * dt * (1 + M) < 1).
  { apply (Rmult_lt_compat_r (1 + M)) in Hs; [|lra]. rewrite Rinv_l in Hs by lra. exact Hs. }
  assert (dt * dt * (ra + rb + rc) <= dt * dt * M) by (apply Rmult_le_compat_l; lra).
  lra.
Qed.
