(** C15, C47: MathHelper. *)
From Coq Require Import ZArith Reals Bool List Lia ZifyBool Lra Field.
From Verif Require Import MathModel MathProofs.
Local Open Scope Z_scope.

(** ISqrt is the floor of the square root on all 32-bit operands. *)
Theorem C15_isqrt a : 0 <= a < 2 ^ 32 -> ISqrt a = Z.sqrt a.
Proof.
  intros Ha. destruct (isqrt_spec a Ha) as (A & B). symmetry. apply Z.sqrt_unique.
  rewrite Z.add_1_r in B. exact B.
Qed.
Example C15_isqrt_case : ISqrt 4294967295 = 65535 /\ ISqrt 4294836225 = 65535 /\ ISqrt 4294836224 = 65534.
Proof. repeat split. Qed.

(** IntPow returns d^p exactly when that fits an int, and never anything
    else. *)
Theorem C15_intpow d p : 0 <= p -> - 2 ^ 31 <= d < 2 ^ 31 ->
  (- 2 ^ 31 <= d ^ p < 2 ^ 31 <-> IntPow d p = Some (d ^ p)) /\
  (forall r, IntPow d p = Some r -> r = d ^ p).
Proof.
  intros Hp Hd. split; [|intros r H; exact (intpow_sound d p r Hp H)].
  split; [apply intpow_spec, Hp|].
  intros H. revert H. unfold IntPow. destruct (Z.eqb_spec p 0) as [->|]; [intros _; cbn; lia|].
  assert (forall n x r, - 2 ^ 31 <= x < 2 ^ 31 -> intpow_loop n d x = Some r -> - 2 ^ 31 <= r < 2 ^ 31) as K.
  { induction n0 as [|m IH]; intros x r Hx; cbn [intpow_loop]; [intros [= <-]; exact Hx|].
    destruct (in_int (x * d)) eqn:E; [|discriminate]. apply IH. unfold in_int in E. lia. }
  apply K, Hd.
Qed.
Example C15_intpow_case : IntPow (-2) 31 = Some (- 2 ^ 31) /\ IntPow 2 31 = None /\ IntPow (-3) 5 = Some (-243).
Proof. repeat split. Qed.

Theorem C15_ipow d p : IPow d p = (d ^ p)%R.
Proof. unfold IPow. rewrite ipow_loop_spec. ring. Qed.

(** IFact is the factorial modulo 2^32 below 2^32 - 1, and does not return
    at 2^32 - 1. *)
Theorem C15_ifact p fuel : 0 <= p < 2 ^ 32 - 1 -> (Z.to_nat p < fuel)%nat ->
  IFact fuel p = Some (Z.of_nat (fact (Z.to_nat p)) mod 2 ^ 32).
Proof.
  intros Hp Hf. rewrite (ifact_spec p fuel Hp Hf). f_equal. f_equal.
  generalize (Z.to_nat p). induction n as [|n IH]; [reflexivity|].
  cbn [zfact]. rewrite IH, fact_simpl, Nat2Z.inj_mul. reflexivity.
Qed.
Theorem C15_ifact_refuted : forall fuel, IFact fuel (2 ^ 32 - 1) = None.
Proof. exact ifact_diverges. Qed.
Example C15_ifact_case : IFact 20 12 = Some 479001600.
Proof. reflexivity. Qed.

Theorem C15_max_min_sign_clamp x y lo hi :
  (Max x y = x \/ Max x y = y) /\ x <= Max x y /\ y <= Max x y /\
  (Min x y = x \/ Min x y = y) /\ Min x y <= x /\ Min x y <= y /\
  (0 < x -> Sign x = 1) /\ (x < 0 -> Sign x = -1) /\ Sign 0 = 1 /\
  (lo <= hi -> lo <= Clamp x lo hi <= hi /\
     (lo <= x <= hi -> Clamp x lo hi = x) /\
     forall z, lo <= z <= hi -> Z.abs (Clamp x lo hi - x) <= Z.abs (z - x)).
Proof.
  unfold Max, Min, Sign, Clamp.
  destruct (Z.ltb_spec y x), (Z.ltb_spec x y), (Z.ltb_spec x 0), (Z.ltb_spec hi x), (Z.ltb_spec x lo);
    repeat split; intros; try change (0 <? 0) with false; cbv iota; lia.
Qed.
Example C15_clamp_case : Clamp 9 2 5 = 5 /\ Clamp (-9) 2 5 = 2 /\ Clamp 3 2 5 = 3.
Proof. repeat split. Qed.

Local Open Scope R_scope.
(** ** C47: the interpolants reproduce polynomials of their degree. *)
Theorem C47_linear x x1 x2 c0 c1 : x1 <> x2 ->
  LinearInterpolate x x1 x2 (c0 + c1 * x1) (c0 + c1 * x2) = c0 + c1 * x.
Proof. intros H. unfold LinearInterpolate. field. lra. Qed.
Theorem C47_quadratic x h c0 c1 c2 : h <> 0 ->
  let f t := c0 + c1 * t + c2 * t ^ 2 in
  QuadraticInterpolate x h (f 0) (f h) (f (2 * h)) = f x.
Proof. intros H f. unfold QuadraticInterpolate, f. field. exact H. Qed.
Theorem C47_cubic x h c0 c1 c2 c3 : h <> 0 ->
  let f t := c0 + c1 * t + c2 * t ^ 2 + c3 * t ^ 3 in
  CubicInterpolate x h (f 0) (f h) (f (2 * h)) (f (3 * h)) = f x.
Proof. intros H f. unfold CubicInterpolate, f. field. exact H. Qed.
(** In particular they pass through arbitrary data. *)
Theorem C47_nodes h y1 y2 y3 y4 x1 x2 : h <> 0 -> x1 <> x2 ->
  (LinearInterpolate x1 x1 x2 y1 y2 = y1 /\ LinearInterpolate x2 x1 x2 y1 y2 = y2) /\
  (QuadraticInterpolate 0 h y1 y2 y3 = y1 /\ QuadraticInterpolate h h y1 y2 y3 = y2 /\
   QuadraticInterpolate (2 * h) h y1 y2 y3 = y3) /\
  (CubicInterpolate 0 h y1 y2 y3 y4 = y1 /\ CubicInterpolate h h y1 y2 y3 y4 = y2 /\
   CubicInterpolate (2 * h) h y1 y2 y3 y4 = y3 /\ CubicInterpolate (3 * h) h y1 y2 y3 y4 = y4).
Proof.
  intros H N. unfold LinearInterpolate, QuadraticInterpolate, CubicInterpolate.
  repeat split; field; lra.
Qed.
Example C47_case : QuadraticInterpolate 3 1 1 2 5 = 10.
Proof. unfold QuadraticInterpolate. field. Qed.

Print Assumptions C15_isqrt.
Print Assumptions C15_intpow.
Print Assumptions C15_ipow.
Print Assumptions C15_ifact.
Print Assumptions C15_ifact_refuted.
Print Assumptions C15_max_min_sign_clamp.
Print Assumptions C47_linear.
Print Assumptions C47_quadratic.
Print Assumptions C47_cubic.
Print Assumptions C47_nodes.
