From Coq Require Import ZArith Reals Bool List Lia ZifyBool Lra Field.
From Verif Require Import MathModel.
Local Open Scope Z_scope.

(** State of ISqrt after the leading digits [P] (base 4) have been consumed:
    [s] is the integer root of [P]; [rest] is what remains of the operand. *)
Definition sq_inv (P s : Z) (st : Z * Z * Z) : Prop :=
  let '(irem, iroot, a) := st in
  0 <= s /\ s * s <= P < (s + 1) * (s + 1) /\ irem = P - s * s /\ iroot = 2 * s.

Lemma isqrt_step_spec P s irem iroot a : s < 2 ^ 15 -> 0 <= a < 2 ^ 32 ->
  sq_inv P s (irem, iroot, a) ->
  exists s', 2 * s <= s' <= 2 * s + 1 /\
    sq_inv (4 * P + a / 2 ^ 30) s' (isqrt_step (irem, iroot, a)) /\
    snd (isqrt_step (irem, iroot, a)) = (a * 4) mod 2 ^ 32.
Proof.
  intros Hs Ha (H0 & HP & -> & ->). unfold isqrt_step.
  rewrite !Z.shiftl_mul_pow2, Z.shiftr_div_pow2 by lia.
  change (2 ^ 1) with 2. change (2 ^ 2) with 4.
  assert (0 <= a / 2 ^ 30 < 4) as Hd.
  { split; [apply Z.div_pos; lia|apply Z.div_lt_upper_bound; lia]. }
  set (d := a / 2 ^ 30) in *. set (M := P - s * s) in *.
  assert (0 <= M <= 2 * s) as HM by (unfold M; nia).
  assert (wrap32 (2 * s * 2) = 4 * s) as -> by (unfold wrap32; rewrite Z.mod_small; lia).
  assert (wrap32 (M * 4) = 4 * M) as -> by (unfold wrap32; rewrite Z.mod_small; lia).
  assert (wrap32 (4 * M + d) = 4 * M + d) as -> by (unfold wrap32; rewrite Z.mod_small; lia).
  assert (wrap32 (4 * s + 1) = 4 * s + 1) as -> by (unfold wrap32; rewrite Z.mod_small; lia).
  destruct (Z.leb_spec (4 * s + 1) (4 * M + d)).
  - exists (2 * s + 1). split; [lia|].
    assert (wrap32 (4 * M + d - (4 * s + 1)) = 4 * M + d - (4 * s + 1)) as -> by (unfold wrap32; rewrite Z.mod_small; lia).
    assert (wrap32 (4 * s + 1 + 1) = 4 * s + 2) as -> by (unfold wrap32; rewrite Z.mod_small; lia).
    split; [|reflexivity]. unfold sq_inv. split; [lia|]. split; [unfold M in *; nia|]. split; [unfold M; ring|ring].
  - exists (2 * s). split; [lia|].
    assert (wrap32 (4 * s + 1 - 1) = 4 * s) as -> by (unfold wrap32; rewrite Z.mod_small; lia).
    split; [|reflexivity]. unfold sq_inv. split; [lia|]. split; [unfold M in *; nia|]. split; [unfold M; ring|ring].
Qed.

(** Loop invariant: after [16 - n] iterations *)
Lemma isqrt_loop_spec n : forall P s irem iroot a,
  (n <= 16)%nat -> 0 <= a < 2 ^ 32 -> s < 2 ^ (16 - Z.of_nat n) ->
  sq_inv P s (irem, iroot, a) -> (a mod 4 ^ (16 - Z.of_nat n) = 0) ->
  exists s', sq_inv (P * 4 ^ Z.of_nat n + a / 4 ^ (16 - Z.of_nat n)) s' (isqrt_loop n (irem, iroot, a)).
Proof.
  induction n as [|n IH]; intros P s irem iroot a Hn Ha Hs I D.
  - exists s. cbn [isqrt_loop]. replace (16 - Z.of_nat 0) with 16 by lia.
    rewrite Z.div_small by (change (4 ^ 16) with (2 ^ 32); lia). rewrite Z.mul_1_r, Z.add_0_r. exact I.
  - cbn [isqrt_loop].
    assert (s < 2 ^ 15) as Hs'.
    { eapply Z.lt_le_trans; [exact Hs|]. apply Z.pow_le_mono_r; lia. }
    destruct (isqrt_step_spec P s irem iroot a Hs' Ha I) as (s' & B & I' & A').
    destruct (isqrt_step (irem, iroot, a)) as [[irem' iroot'] a'] eqn:E. cbn [snd] in A'.
    set (m := 16 - Z.of_nat (S n)) in *.
    assert (16 - Z.of_nat n = m + 1) as Em by lia.
    assert (0 <= m <= 15) as Hm by lia.
    assert (4 ^ (m + 1) = 4 * 4 ^ m) as P4 by (rewrite Z.pow_add_r by lia; ring).
    assert (2 ^ 32 = 4 ^ (m + 1) * 4 ^ (15 - m)) as E32.
    { rewrite <- Z.pow_add_r by lia. replace (m + 1 + (15 - m)) with 16 by lia. reflexivity. }
    assert (0 < 4 ^ m) as Pm by (apply Z.pow_pos_nonneg; lia).
    assert (0 < 4 ^ (15 - m)) as Pk by (apply Z.pow_pos_nonneg; lia).
    assert (exists q, a = q * 4 ^ m) as [q Eq] by (apply Z.mod_divide in D; [exact D|lia]).
    destruct (IH (4 * P + a / 2 ^ 30) s' irem' iroot' a') as [s'' I'']; auto.
    + lia.
    + rewrite A'. apply Z.mod_pos_bound. lia.
    + rewrite Em, Z.pow_add_r by lia. change (2 ^ 1) with 2. lia.
    + rewrite Em, A', E32. rewrite Eq.
      replace (q * 4 ^ m * 4) with (4 ^ (m + 1) * q) by (rewrite P4; ring).
      rewrite Z.mul_mod_distr_l by lia. rewrite Z.mul_comm. apply Z.mod_mul. lia.
    + exists s''.
      replace (P * 4 ^ Z.of_nat (S n) + a / 4 ^ m) with ((4 * P + a / 2 ^ 30) * 4 ^ Z.of_nat n + a' / 4 ^ (16 - Z.of_nat n)); [exact I''|].
      rewrite Em, A', E32.
      replace (4 ^ Z.of_nat (S n)) with (4 * 4 ^ Z.of_nat n) by (rewrite Nat2Z.inj_succ, Z.pow_succ_r by lia; ring).
      assert (Z.of_nat n = 15 - m) as -> by lia.
      rewrite Eq. replace (q * 4 ^ m * 4) with (4 ^ (m + 1) * q) by (rewrite P4; ring).
      rewrite Z.mul_mod_distr_l by lia.
      rewrite (Z.mul_comm (4 ^ (m + 1)) (q mod _)), Z.div_mul by lia.
      rewrite Z.div_mul by lia.
      replace (2 ^ 30) with (4 ^ (15 - m) * 4 ^ m).
      2: { rewrite <- Z.pow_add_r by lia. replace (15 - m + m) with 15 by lia. reflexivity. }
      rewrite Z.div_mul_cancel_r by lia.
      pose proof (Z.div_mod q (4 ^ (15 - m)) ltac:(lia)) as Dq.
      rewrite Dq at 3. ring.
Qed.

Lemma isqrt_spec a : 0 <= a < 2 ^ 32 -> 0 <= ISqrt a /\ ISqrt a * ISqrt a <= a < (ISqrt a + 1) * (ISqrt a + 1).
Proof.
  intros Ha. destruct (isqrt_loop_spec 16 0 0 0 0 a) as [s I].
  - lia.
  - exact Ha.
  - replace (16 - Z.of_nat 16) with 0 by lia. lia.
  - unfold sq_inv. lia.
  - replace (16 - Z.of_nat 16) with 0 by lia. rewrite Z.pow_0_r. apply Z.mod_1_r.
  - replace (0 * 4 ^ Z.of_nat 16 + a / 4 ^ (16 - Z.of_nat 16)) with a in I.
    2: { replace (16 - Z.of_nat 16) with 0 by lia. rewrite Z.pow_0_r, Z.div_1_r. lia. }
    unfold ISqrt. destruct (isqrt_loop 16 (0, 0, a)) as [[irem iroot] a']. destruct I as (A & B & C & ->).
    rewrite Z.shiftr_div_pow2 by lia. change (2 ^ 1) with 2. rewrite (Z.mul_comm 2 s), Z.div_mul by lia. lia.
Qed.

(** ** IntPow *)
Lemma pow_bound d n m : 0 <= n <= m -> d <> 0 -> Z.abs (d ^ n) <= Z.abs (d ^ m).
Proof.
  intros H Hd. rewrite !Z.abs_pow. apply Z.pow_le_mono_r; lia.
Qed.
Lemma intpow_loop_spec n : forall d q, 1 <= q -> - 2 ^ 31 <= d ^ (q + Z.of_nat n) < 2 ^ 31 ->
  intpow_loop n d (d ^ q) = Some (d ^ (q + Z.of_nat n)).
Proof.
  induction n as [|n IH]; intros d q Hq B; cbn [intpow_loop].
  - rewrite Z.add_0_r. reflexivity.
  - assert (d ^ q * d = d ^ (q + 1)) as E by (rewrite Z.pow_add_r, Z.pow_1_r by lia; reflexivity).
    rewrite E. assert (q + Z.of_nat (S n) = (q + 1) + Z.of_nat n) as Eq by lia. rewrite Eq in *.
    assert (in_int (d ^ (q + 1)) = true) as ->; [|apply IH; [lia|exact B]].
    unfold in_int. destruct (Z.eq_dec d 0) as [->|Hd]; [rewrite Z.pow_0_l by lia; reflexivity|].
    destruct n as [|n]; [rewrite Z.add_0_r in B; lia|].
    (* strictly smaller unless |d| = 1 *)
    pose proof (pow_bound d (q + 1) (q + 1 + Z.of_nat n) ltac:(lia) Hd) as Pb.
    replace (q + 1 + Z.of_nat (S n)) with ((q + 1 + Z.of_nat n) + 1) in B by lia.
    rewrite Z.pow_add_r, Z.pow_1_r in B by lia.
    set (X := d ^ (q + 1 + Z.of_nat n)) in *. set (Y := d ^ (q + 1)) in *.
    destruct (Z.eq_dec (Z.abs d) 1) as [E1|N1].
    + assert (Z.abs Y = 1) by (unfold Y; rewrite Z.abs_pow, E1; apply Z.pow_1_l; lia). lia.
    + assert (2 <= Z.abs d) by lia.
      assert (Z.abs (X * d) <= 2 ^ 31) as Xb by lia. rewrite Z.abs_mul in Xb.
      assert (2 * Z.abs X <= 2 ^ 31) by nia. lia.
Qed.

Lemma intpow_spec d p : 0 <= p -> - 2 ^ 31 <= d ^ p < 2 ^ 31 -> IntPow d p = Some (d ^ p).
Proof.
  intros Hp B. unfold IntPow. destruct (Z.eqb_spec p 0) as [->|]; [reflexivity|].
  replace d with (d ^ 1) at 2 by apply Z.pow_1_r. rewrite intpow_loop_spec.
  - rewrite Z2Nat.id by lia. f_equal. f_equal. lia.
  - lia.
  - rewrite Z2Nat.id by lia. replace (1 + (p - 1)) with p by lia. exact B.
Qed.

(** A result is always the true power (no wrap-around goes unnoticed). *)
Lemma intpow_loop_sound n : forall d q r, 1 <= q -> intpow_loop n d (d ^ q) = Some r -> r = d ^ (q + Z.of_nat n).
Proof.
  induction n as [|n IH]; intros d q r Hq H; cbn [intpow_loop] in H.
  - injection H as <-. rewrite Z.add_0_r. reflexivity.
  - destruct (in_int _); [|discriminate].
    replace (d ^ q * d) with (d ^ (q + 1)) in H by (rewrite Z.pow_add_r, Z.pow_1_r by lia; reflexivity).
    apply IH in H; [|lia]. rewrite H. f_equal. lia.
Qed.
Lemma intpow_sound d p r : 0 <= p -> IntPow d p = Some r -> r = d ^ p.
Proof.
  unfold IntPow. intros Hp. destruct (Z.eqb_spec p 0) as [->|]; [intros [= <-]; reflexivity|].
  replace d with (d ^ 1) at 2 by apply Z.pow_1_r. intros H. apply intpow_loop_sound in H; [|lia].
  rewrite H, Z2Nat.id by lia. f_equal. lia.
Qed.

(** ** IFact *)
Fixpoint zfact (n : nat) : Z := match n with O => 1 | S n' => Z.of_nat n * zfact n' end.
Lemma ifact_loop_spec k : forall fuel p q f, (k < fuel)%nat ->
  0 <= q -> q + Z.of_nat k = p + 1 -> p < 2 ^ 32 - 1 -> forall F, (q = Z.of_nat F + 1) -> f = zfact F mod 2 ^ 32 ->
  ifact_loop fuel p q f = Some (zfact (F + k) mod 2 ^ 32).
Proof.
  induction k as [|k IH]; intros [|fuel] p q f Hf Hq E Hp F EF ->; try lia; cbn [ifact_loop].
  - assert (q <=? p = false) as -> by lia. rewrite Nat.add_0_r. reflexivity.
  - assert (q <=? p = true) as -> by lia.
    replace (F + S k)%nat with (S F + k)%nat by lia.
    assert (wrap32 (q + 1) = q + 1) as -> by (unfold wrap32; rewrite Z.mod_small; lia).
    apply IH; try lia. unfold wrap32. rewrite Z.mul_mod_idemp_l by lia. f_equal.
    cbn [zfact]. rewrite Nat2Z.inj_succ, EF. ring.
Qed.
Lemma ifact_spec p fuel : 0 <= p < 2 ^ 32 - 1 -> (Z.to_nat p < fuel)%nat ->
  IFact fuel p = Some (zfact (Z.to_nat p) mod 2 ^ 32).
Proof.
  intros Hp Hf. unfold IFact. destruct (Z.eq_dec p 0) as [->|].
  { destruct fuel; [lia|reflexivity]. }
  rewrite (ifact_loop_spec (Z.to_nat (p - 1)) fuel p 2 1) with (F := 1%nat); try lia; try reflexivity.
  f_equal. f_equal. f_equal. lia.
Qed.
(** For p = 2^32 - 1 the loop condition q <= p is always true. *)
Lemma ifact_diverges fuel : IFact fuel (2 ^ 32 - 1) = None.
Proof.
  unfold IFact. assert (forall q f, 0 <= q < 2 ^ 32 -> ifact_loop fuel (2 ^ 32 - 1) q f = None) as H; [|apply H; lia].
  induction fuel as [|fuel IH]; intros q f Hq; cbn [ifact_loop]; [reflexivity|].
  assert (q <=? 2 ^ 32 - 1 = true) as -> by lia. apply IH. unfold wrap32. apply Z.mod_pos_bound. lia.
Qed.

(** ** Reals *)
Local Open Scope R_scope.
Lemma ipow_loop_spec n : forall d x, ipow_loop n d x = x * d ^ n.
Proof.
  induction n as [|n IH]; intros d x; cbn [ipow_loop pow]; [ring|]. rewrite IH. ring.
Qed.
