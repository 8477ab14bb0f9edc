(** Lemmas for SplProps *)
From Coq Require Import FunctionalExtensionality.
From Coq Require Import ZArith Reals List Bool Lia Lra.
From Verif Require Import ShallowModel ShallowSpec ShallowProofs ShallowProps ViscModel ViscProofs NonhProofs HsModel HsSpec HsProofs SplModel SplSpec.
From Verif Require PhysModel.
Import ListNotations.
Local Open Scope R_scope.
Local Notation z := Z.of_nat.

Lemma write_there n N h nA nB F (o : field3) a b k i j : (a < nA)%nat -> (b < nB)%nat -> (k < N)%nat -> (i < n)%nat -> (j < n)%nat ->
  write n N h nA nB F o k (h + z (a * n) + z i)%Z (h + z (b * n) + z j)%Z = F k (h + z (a * n))%Z (h + z (b * n))%Z i j.
Proof.
  intros Ha Hb Hk Hi Hj. unfold write. apply Nat.ltb_lt in Hk. rewrite Hk.
  apply (patch_there n h nA nB (fun p q i j (_ : R) => F k p q i j)); assumption.
Qed.
Lemma lvl_there n N h nA nB (F o : field3) a b k i j : (a < nA)%nat -> (b < nB)%nat -> (k < N)%nat -> (i < n)%nat -> (j < n)%nat ->
  (if Nat.ltb k N then patch_loop n h nA nB (fun p q i j _ => F k (p + z i)%Z (q + z j)%Z) (o k) else o k)
    (h + z (a * n) + z i)%Z (h + z (b * n) + z j)%Z = F k (h + z (a * n) + z i)%Z (h + z (b * n) + z j)%Z.
Proof.
  intros Ha Hb Hk Hi Hj. apply Nat.ltb_lt in Hk. rewrite Hk.
  apply (patch_there n h nA nB (fun p q i j (_ : R) => F k (p + z i)%Z (q + z j)%Z)); assumption.
Qed.

(** the rows handed to dgtsv *)
Lemma spl_rows grav G N th s bs dt oldA D x y X : (0 < N)%nat ->
  solves (N + 1) (sys_a grav G N th s bs dt oldA x y) (sys_b grav G N th s bs dt x y) (sys_c grav G N th s bs dt x y) (sys_d N D x y) X <->
  X O = 0 /\ (if Nat.eqb N 1 then 0 else oldA * X (N - 1)%nat) + X N = 0 /\
  (forall k, (1 <= k < N)%nat -> tri_a grav G th s bs dt k x y * X (k - 1)%nat + tri_b grav G th s bs dt k x y * X k +
     tri_c grav G th s bs dt k x y * X (k + 1)%nat = D k x y).
Proof.
  intro HN. unfold solves. split.
  - intro H. repeat split.
    + specialize (H 0%nat ltac:(lia)). cbn [Nat.eqb] in H.
      destruct (Nat.eqb_spec (0 + 1) (N + 1)); [lia|].
      unfold sys_b, sys_c, sys_d in H. rewrite (inner_out N 0) in H by lia. lra.
    + specialize (H N ltac:(lia)). destruct (Nat.eqb_spec N 0); [lia|].
      rewrite Nat.eqb_refl in H. unfold sys_b, sys_d, sys_a in H. rewrite (inner_out N N) in H by lia.
      replace (N - 1 + 1)%nat with N in H by lia. rewrite (inner_out N N) in H by lia.
      destruct (Nat.eqb_spec N 1) as [->|E]; [cbn in H; lra|].
      destruct (Nat.eqb_spec (N - 1) 0); [lia|]. lra.
    + intros k Hk. specialize (H k ltac:(lia)). destruct (Nat.eqb_spec k 0); [lia|].
      destruct (Nat.eqb_spec (k + 1) (N + 1)); [lia|].
      unfold sys_b, sys_c, sys_d, sys_a in H. replace (k - 1 + 1)%nat with k in H by lia.
      rewrite (inner_in N k) in H by lia. exact H.
  - intros (H0 & H1 & H) k Hk. unfold sys_a, sys_b, sys_c, sys_d.
    destruct (Nat.eqb_spec k 0) as [->|E].
    + destruct (Nat.eqb_spec (0 + 1) (N + 1)); [lia|]. rewrite (inner_out N 0) by lia. rewrite H0. lra.
    + destruct (Nat.eqb_spec (k + 1) (N + 1)).
      * replace k with N in * by lia. rewrite (inner_out N N) by lia.
        replace (N - 1 + 1)%nat with N by lia. rewrite (inner_out N N) by lia.
        destruct (Nat.eqb_spec N 1) as [->|E']; [cbn; lra|]. destruct (Nat.eqb_spec (N - 1) 0); [lia|]. lra.
      * replace (k - 1 + 1)%nat with k by lia. rewrite (inner_in N k) by lia. apply H. lia.
Qed.

(** a row in words: the balance of rho w with the pressure and the weight taken between
    the steps, but for the term in (s - 1) np *)
Lemma spl_row grav G th s bs dt W f (r p nm np r' p' : nat -> R) (X : nat -> R) k x y : dt <> 0 -> Zn G (S k) x y - Zn G k x y <> 0 ->
  (forall l, (l = k \/ l = S k) -> r' l = r l + nm l + dt * (- (1 / 2) * (1 + bs) * (iz G l x y * (X (l + 1)%nat - X l)))) ->
  (forall l, (l = k \/ l = S k) -> p' l = p l + np l + dt * (- (1 / 2) * (1 + bs) * (iz G l x y * (X (l + 1)%nat * th (l + 1)%nat x y - X l * th l x y)))) ->
  (tri_a grav G th s bs dt (S k) x y * X k + tri_b grav G th s bs dt (S k) x y * X (S k) + tri_c grav G th s bs dt (S k) x y * X (S (S k)) =
   W - dt * (ih G (S k) x y * (s (S k) x y * p (S k) - s k x y * p k) + 1 / 2 * grav * (r (S k) + r k) - f)
     - tscale bs dt * (ih G (S k) x y * (np (S k) - np k) + 1 / 2 * grav * (nm (S k) + nm k)) <->
   (X (S k) - W) / dt = f - (s (S k) x y * between bs (p (S k)) (p' (S k)) - s k x y * between bs (p k) (p' k)) / (Zn G (S k) x y - Zn G k x y)
     - grav * ((between bs (r k) (r' k) + between bs (r (S k)) (r' (S k))) / 2)
     + (1 + bs) / 2 * (((s (S k) x y - 1) * np (S k) - (s k x y - 1) * np k) / (Zn G (S k) x y - Zn G k x y))).
Proof.
  intros Hdt HZ LR LP. rewrite (LR k), (LR (S k)), (LP k), (LP (S k)) by auto.
  unfold tri_a, tri_b, tri_c, ih, between, tscale. rewrite !Nat.sub_succ, !Nat.sub_0_r, !Nat.add_1_r.
  generalize (iz G k x y) (iz G (S k) x y) (th k x y) (th (S k) x y) (th (S (S k)) x y) (s k x y) (s (S k) x y).
  generalize dependent (Zn G (S k) x y - Zn G k x y). intros dz Z i0 i1 t0 t1 t2 s0 s1.
  clear LR LP. split; intro E.
  - apply (Rmult_eq_reg_l dt); [|exact Hdt].
    replace (dt * ((X (S k) - W) / dt)) with (X (S k) - W) by (field; exact Hdt).
    apply (Rplus_eq_reg_r (- X (S k) + W)).
    match type of E with ?l = ?r => transitivity (r - l); [rewrite E; ring|field; exact Z] end.
  - apply (f_equal (fun v => dt * v)) in E.
    replace (dt * ((X (S k) - W) / dt)) with (X (S k) - W) in E by (field; exact Hdt).
    apply Rminus_diag_uniq.
    match type of E with ?l = ?r => transitivity (l - r); [field; exact Z|rewrite E; ring] end.
Qed.

(** budgets of a block of air *)
Lemma block_budget N n B g w p q (Jv : nat -> Z -> Z -> R) (J2 : nat -> Z -> Z -> R) (f f' rest : nat -> Z -> Z -> R) (Fa Fb F : nat -> Z -> Z -> R) (zi : nat -> Z -> Z -> R) al be (area : Z -> Z -> R) (d : nat -> R) :
  annihilates_constants n (bD B) -> adjoint n w (bD B) (bS B) -> 
  (forall k i j, (k < N)%nat -> (i < n)%nat -> (j < n)%nat -> let x := (p + z i)%Z in let y := (q + z j)%Z in
     J2 k x y <> 0 /\ zi (S k) x y - zi k x y <> 0 /\ Jv k x y = J2 k x y * d k /\ Jv k x y = area x y * (zi (S k) x y - zi k x y) /\
     f' k x y = f k x y + rest k x y + al * (1 / J2 k x y * (v_alpha n B g (Fa k) p q i j + v_beta n B g (Fb k) p q i j)) +
       be * (1 / (zi (k + 1)%nat x y - zi k x y) * (F (k + 1)%nat x y - F k x y))) ->
  (forall i j, (i < n)%nat -> (j < n)%nat -> F O (p + z i)%Z (q + z j)%Z = 0 /\ F N (p + z i)%Z (q + z j)%Z = 0) ->
  block_total N n w p q Jv f' = block_total N n w p q Jv (fun k x y => f k x y + rest k x y).
Proof.
  intros HD HA H HF. unfold block_total.
  rewrite (nsum_ext N _ (fun k => element_sum n w p q (fun x y => Jv k x y * (f k x y + rest k x y)) +
    (esum n w (fun i j => be * area (p + z i)%Z (q + z j)%Z * (F (S k) (p + z i)%Z (q + z j)%Z - F k (p + z i)%Z (q + z j)%Z))))).
  - rewrite nsum_plus. 
    assert (T : forall M, nsum M (fun k => esum n w (fun i j => be * area (p + z i)%Z (q + z j)%Z * (F (S k) (p + z i)%Z (q + z j)%Z - F k (p + z i)%Z (q + z j)%Z))) =
      esum n w (fun i j => be * area (p + z i)%Z (q + z j)%Z * (F M (p + z i)%Z (q + z j)%Z - F O (p + z i)%Z (q + z j)%Z))).
    { induction M as [|M IH]; cbn [nsum].
      - symmetry. apply esum_zero. intros. ring.
      - rewrite IH, <- esum_plus. apply esum_ext. intros. ring. }
    rewrite T, esum_zero; [ring|]. intros i j Hi Hj. destruct (HF i j Hi Hj) as [-> ->]. ring.
  - intros k Hk.
    change (element_sum n w p q (fun x y => Jv k x y * f' k x y)) with
      (esum n w (fun i j => Jv k (p + z i)%Z (q + z j)%Z * f' k (p + z i)%Z (q + z j)%Z)).
    change (element_sum n w p q (fun x y => Jv k x y * (f k x y + rest k x y))) with
      (esum n w (fun i j => Jv k (p + z i)%Z (q + z j)%Z * (f k (p + z i)%Z (q + z j)%Z + rest k (p + z i)%Z (q + z j)%Z))).
    rewrite (esum_ext n w _ (fun i j => (Jv k (p + z i)%Z (q + z j)%Z * (f k (p + z i)%Z (q + z j)%Z + rest k (p + z i)%Z (q + z j)%Z) +
       be * area (p + z i)%Z (q + z j)%Z * (F (S k) (p + z i)%Z (q + z j)%Z - F k (p + z i)%Z (q + z j)%Z)) +
       al * d k * (v_alpha n B g (Fa k) p q i j + v_beta n B g (Fb k) p q i j))).
    + rewrite !esum_plus, esum_scal, esum_plus, (v_alpha_zero n B g w p q HA (Fa k) HD), (v_beta_zero n B g w p q HA (Fb k) HD). ring.
    + intros i j Hi Hj. destruct (H k i j Hk Hi Hj) as (NJ & NZ & E1 & E2 & ->). cbv zeta in *. rewrite Nat.add_1_r.
      match goal with |- ?Jvv * (?a + ?b + al * (1 / ?jj * ?v) + be * (1 / ?zz * ?ff)) = _ =>
        transitivity (Jvv * (a + b) + al * (Jvv * / jj) * v + be * (Jvv * / zz) * ff); [unfold Rdiv; ring|] end.
      rewrite E1 at 2. rewrite E2 at 2.
      field. split; assumption.
Qed.
