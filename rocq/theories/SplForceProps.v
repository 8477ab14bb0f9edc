(** * The horizontal pressure force of an acoustic step (C120) *)
From Coq Require Import ZArith Reals List Bool Lia Lra.
From Verif Require Import QuadModel ShallowModel ShallowSpec ShallowProofs ShallowProps ViscModel ViscSpec ViscProofs
  NonhSpec NonhProofs HsModel HsSpec HsProofs HsProps HsExplProps SplModel SplSpec SplProofs SplProps SplStepProps.
Import ListNotations.
Local Open Scope R_scope.
Local Notation z := Z.of_nat.

Lemma nsum_affine n (f g h : nat -> R) (c : R) (D : nat -> R) : (forall s, (s < n)%nat -> f s = g s + c * h s) ->
  nsum n (fun s => f s * D s) = nsum n (fun s => g s * D s) + c * nsum n (fun s => h s * D s).
Proof. intros E. rewrite <- nsum_scal, <- nsum_plus. apply nsum_ext. intros s Hs. rewrite (E s Hs). ring. Qed.

(** Let the anomaly of the pressure, extrapolated from the last two values by the weight
    of the divergence damping, be a horizontal field P0 plus a multiple of the height.
    Then in layers that follow the ground momentum gains, besides the tendency, minus the
    horizontal gradient of P0: no more, whatever the slope. *)
Theorem C120_force : forall n B G N init th s ten bs bd dt h nA nB a0 a1 o X a b i j k P0 C,
  (a < nA)%nat -> (b < nB)%nat -> (i < n)%nat -> (j < n)%nat -> (2 <= N)%nat -> (k < N)%nat ->
  let p := (h + z (a * n))%Z in let q := (h + z (b * n))%Z in let x := (p + z i)%Z in let y := (q + z j)%Z in
  let dx := ddx n (bD B) (gDeltaA (base2 G)) in let dy := ddy n (bD B) (gDeltaB (base2 G)) in
  in_element n h a b (fun x y => forall l, (l < N)%nat ->
    s l x y * (hP (st a1) l x y + bd * (hP (st a1) l x y - hP (st a0) l x y)) = P0 x y + C * Zn G l x y) ->
  (forall l, (S l < N)%nat -> Zn G l x y < Zn G (S l) x y) ->
  dRa G k x y = dx (Zn G k) p q i j -> dRb G k x y = dy (Zn G k) p q i j ->
  let a2 := st (acoustic_loop n B G N init th s ten bs bd dt h nA nB a0 a1 o X) in
  let ga := dx P0 p q i j in let gb := dy P0 p q i j in
  hU a2 k x y = hU (st a1) k x y + dt * (hU ten k x y - (gA0 (base2 G) x y * ga + gA1 (base2 G) x y * gb)) /\
  hV a2 k x y = hV (st a1) k x y + dt * (hV ten k x y - (gB0 (base2 G) x y * ga + gB1 (base2 G) x y * gb)).
Proof.
  intros n B G N init th s ten bs bd dt h nA nB a0 a1 o X a b i j k P0 C Ha Hb Hi Hj HN Hk p q x y dx dy HP HZ HA HB a2 ga gb.
  unfold a2. rewrite a2_u, a2_v. unfold loop_U, loop_V, x, y, p, q. rewrite !write_there by assumption. fold p q.
  unfold loop_u, loop_v, con_da, con_db. fold x y.
  set (f := apt s bd (st a0) (st a1)).
  assert (E : forall l i j, (l < N)%nat -> (i < n)%nat -> (j < n)%nat -> f l (p + z i)%Z (q + z j)%Z = P0 (p + z i)%Z (q + z j)%Z + C * Zn G l (p + z i)%Z (q + z j)%Z).
  { intros l i' j' Hl Hi' Hj'. pose proof (HP i' j' Hi' Hj' l Hl) as Q. fold p q in Q. rewrite <- Q. unfold f, apt. ring. }
  assert (V : dz_level G N f k x y = C).
  { unfold dz_level, x, y. destruct (Nat.eqb_spec k 0) as [->|K0].
    - rewrite !E by lia. specialize (HZ 0%nat ltac:(lia)). fold x y. change (0 + 1)%nat with 1%nat. field. lra.
    - destruct (Nat.eqb_spec (k + 1) N) as [K1|K1].
      + rewrite !E by lia. specialize (HZ (k - 1)%nat ltac:(lia)). replace (S (k - 1)) with k in HZ by lia. fold x y. field. lra.
      + rewrite !E by lia. pose proof (HZ (k - 1)%nat ltac:(lia)) as H1. replace (S (k - 1)) with k in H1 by lia. pose proof (HZ k ltac:(lia)) as H2.
        replace (k + 1)%nat with (S k) by lia. fold x y. field. lra. }
  assert (GA : ap_a n B G N f k p q i j = ga).
  { unfold ap_a. fold x y. rewrite V, HA, d_alpha_sum. unfold ga, dx, ddx.
    rewrite (nsum_affine n (fun s => f k (p + z s)%Z (q + z j)%Z) (fun s => P0 (p + z s)%Z (q + z j)%Z) (fun s => Zn G k (p + z s)%Z (q + z j)%Z) C).
    - unfold Rdiv. ring.
    - intros s' Hs'. apply E; assumption. }
  assert (GB : ap_b n B G N f k p q i j = gb).
  { unfold ap_b. fold x y. rewrite V, HB, d_beta_sum. unfold gb, dy, ddy.
    rewrite (nsum_affine n (fun s => f k (p + z i)%Z (q + z s)%Z) (fun s => P0 (p + z i)%Z (q + z s)%Z) (fun s => Zn G k (p + z i)%Z (q + z s)%Z) C).
    - unfold Rdiv. ring.
    - intros s' Hs'. apply E; assumption. }
  rewrite GA, GB. split; ring.
Qed.
Print Assumptions C120_force.
(** the conditions hold over the hill of the cases of C96, with a former state *)
Example C120_force_case :
  let a0 := Inst (Hstate zero3 zero3 (fun _ x _ => - IZR x) zero3 zero3) zero3 in
  let a1 := Inst (Hstate zero3 zero3 (fun k x y => ex_z k x y) zero3 zero3) zero3 in
  in_element 4 1 0 0 (fun x y => forall l, (l < 2)%nat ->
    two3 l x y * (hP (st a1) l x y + 1 / 10 * (hP (st a1) l x y - hP (st a0) l x y)) = 1 / 5 * IZR x + 11 / 5 * Zn ex_hg l x y) /\
  (forall l x y, (S l < 2)%nat -> Zn ex_hg l x y < Zn ex_hg (S l) x y) /\
  (forall i j, (i < 4)%nat -> (j < 4)%nat -> dRa ex_hg 0%nat (1 + z i)%Z (1 + z j)%Z = ddx 4 (bD basis4) 1 (Zn ex_hg 0%nat) 1 1 i j).
Proof.
  cbv zeta. split; [|split].
  - intros i j _ _ l _. cbn. unfold two3. lra.
  - intros l x y Hl. assert (l = 0%nat) as -> by lia. cbn [ex_hg Zn]. unfold ex_z. cbn [Nat.eqb]. lra.
  - intros i j _ _. cbn [ex_hg dRa Zn]. replace (Z.to_nat (1 + z i - 1)%Z) with i by lia. replace (Z.to_nat (1 + z j - 1)%Z) with j by lia. reflexivity.
Qed.
