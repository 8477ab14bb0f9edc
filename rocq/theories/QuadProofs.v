(** * Lemmas about the quadrature tables *)
From Coq Require Import ZArith Reals List Lra Lia Psatz Bool.
From Verif Require Import QuadModel QuadSpec.
Import ListNotations.
Local Open Scope R_scope.

(** ** moments *)
Fixpoint moment (k : nat) (g w : list R) : R :=
  match g, w with x :: g', a :: w' => a * x ^ k + moment k g' w' | _, _ => 0 end.
Fixpoint zmoment (k : nat) (g w : list Z) : Z :=
  match g, w with x :: g', a :: w' => (a * x ^ Z.of_nat k + zmoment k g' w')%Z | _, _ => 0%Z end.
Definition U : Z := 10 ^ 16.
Lemma U_pos : 0 < IZR U. Proof. apply IZR_lt. reflexivity. Qed.
Lemma moment_dec k g : forall w, moment k (map dec g) (map dec w) = IZR (zmoment k g w) / IZR U ^ S k.
Proof.
  assert (0 < IZR U ^ S k) as P by (apply pow_lt, U_pos).
  induction g as [|x g IH]; intros [|a w]; cbn [moment zmoment map]; try (unfold Rdiv; rewrite Rmult_0_l; reflexivity).
  rewrite IH, plus_IZR, mult_IZR, <- pow_IZR. unfold dec. change (10 ^ 16)%Z with U. unfold Rdiv. rewrite Rpow_mult_distr, pow_inv. cbn [pow]. pose proof U_pos.
  field. split; [apply pow_nonzero|]; lra.
Qed.
(** the moments of [-1, 1] *)
Definition exact (k : nat) : R := (1 - (-1) ^ S k) / INR (S k).
Definition zexact (k : nat) : Z := if Nat.even k then 2 else 0.
Lemma pow_m1_S k : (-1) ^ S k = if Nat.even k then -1 else 1.
Proof. induction k as [|k IH]; [cbn; ring|]. rewrite Nat.even_succ, <- Nat.negb_even. change ((-1) ^ S (S k)) with (-1 * (-1) ^ S k). rewrite IH. destruct (Nat.even k); cbn; ring. Qed.
Lemma exact_z k : exact k = IZR (zexact k) / INR (S k).
Proof. unfold exact, zexact. rewrite pow_m1_S. destruct (Nat.even k); f_equal; ring. Qed.

(** |m_k - exact k| <= e 10^-16, as a check on integers *)
Definition near (e : Z) (k : nat) (g w : list Z) : bool :=
  (Z.abs (Z.of_nat (S k) * zmoment k g w - zexact k * U ^ Z.of_nat (S k)) <=? e * Z.of_nat (S k) * U ^ Z.of_nat k)%Z.
Lemma near_ok e k g w : near e k g w = true -> Rabs (moment k (map dec g) (map dec w) - exact k) <= IZR e / IZR U.
Proof.
  unfold near. intros H. apply Z.leb_le in H. apply IZR_le in H.
  rewrite moment_dec, exact_z. rewrite abs_IZR, minus_IZR, !mult_IZR, <- !pow_IZR in H. rewrite <- INR_IZR_INZ in H.
  assert (0 < IZR U ^ S k) as P by (apply pow_lt, U_pos). assert (0 < IZR U ^ k) as P' by (apply pow_lt, U_pos).
  assert (0 < INR (S k)) as Pk by (apply lt_0_INR; lia). pose proof U_pos.
  set (n := INR (S k)) in *. set (M := IZR (zmoment k g w)) in *. set (X := IZR (zexact k)) in *.
  replace (M / IZR U ^ S k - X / n) with ((n * M - X * IZR U ^ S k) / (n * IZR U ^ S k)) by (field; split; lra).
  unfold Rdiv. rewrite Rabs_mult, Rabs_inv. rewrite (Rabs_right (n * IZR U ^ S k)) by (apply Rle_ge, Rlt_le, Rmult_lt_0_compat; assumption).
  apply Rle_trans with (IZR e * n * IZR U ^ k * / (n * IZR U ^ S k)).
  - apply Rmult_le_compat_r; [|exact H]. apply Rlt_le, Rinv_0_lt_compat, Rmult_lt_0_compat; assumption.
  - right. cbn [pow]. field. split; [|split]; lra.
Qed.

(** ** polynomials *)
Lemma peval_moments c : forall j g w, wsum (fun x => x ^ j * peval c x) g w =
  (fix go j c := match c with [] => 0 | a :: r => a * moment j g w + go (S j) r end) j c.
Proof.
  induction c as [|a c IH]; intros j g w.
  - revert w. induction g as [|x g IH]; intros [|b w]; cbn; try reflexivity. rewrite IH. ring.
  - rewrite <- IH. cbn [peval]. revert w. clear IH. induction g as [|x g IH]; intros [|b w]; cbn [wsum moment]; try ring. rewrite IH. cbn [pow]. ring.
Qed.
Fixpoint pint (j : nat) (c : list R) (x : R) : R := match c with [] => 0 | a :: r => a * (x ^ S j / INR (S j)) + pint (S j) r x end.
Lemma pint_derive c : forall j x, derivable_pt_lim (pint j c) x (x ^ j * peval c x).
Proof.
  induction c as [|a c IH]; intros j x.
  - cbn. rewrite Rmult_0_r. apply (derivable_pt_lim_const 0 x).
  - cbn [pint peval]. replace (x ^ j * (a + x * peval c x)) with (a * x ^ j + x ^ S j * peval c x) by (cbn [pow]; ring).
    apply (derivable_pt_lim_plus (fun x => a * (x ^ S j / INR (S j))) (pint (S j) c)); [|apply IH].
    apply (derivable_pt_lim_scal (fun x => x ^ S j / INR (S j)) a x (x ^ j)).
    assert (INR (S j) <> 0) as N by (apply not_0_INR; lia).
    replace (x ^ j) with (/ INR (S j) * (INR (S j) * x ^ pred (S j))) by (cbn [pred]; field; exact N).
    replace (fun x => x ^ S j / INR (S j)) with (mult_real_fct (/ INR (S j)) (fun x => x ^ S j)).
    + apply derivable_pt_lim_scal, derivable_pt_lim_pow.
    + apply FunctionalExtensionality.functional_extensionality. intros y. unfold mult_real_fct, Rdiv. ring.
Qed.
Lemma pint_ends c : forall j, pint j c 1 - pint j c (-1) =
  (fix go j c := match c with [] => 0 | a :: r => a * exact j + go (S j) r end) j c.
Proof. induction c as [|a c IH]; intros j; [cbn; ring|]. cbn [pint]. rewrite <- IH. unfold exact. rewrite pow1. unfold Rdiv. ring. Qed.

Definition good (d : nat) (eps : R) (g w : list R) : Prop := forall k, (k <= d)%nat -> Rabs (moment k g w - exact k) <= eps.
Lemma good_poly d eps g w c : good d eps g w -> 0 <= eps -> (length c <= S d)%nat ->
  Rabs (wsum (peval c) g w - (pint 0 c 1 - pint 0 c (-1))) <= eps * abs_sum c.
Proof.
  intros G E L.
  replace (wsum (peval c) g w) with (wsum (fun x => x ^ 0 * peval c x) g w).
  2:{ clear. revert w. induction g as [|x g IH]; intros [|b w]; cbn; try reflexivity. rewrite IH. f_equal. cbn. ring. }
  rewrite peval_moments, pint_ends. clear E.
  assert (forall k, (0 <= k < 0 + length c)%nat -> Rabs (moment k g w - exact k) <= eps) as H by (intros k Hk; apply G; lia).
  clear L G. revert H. generalize 0%nat. induction c as [|a c IH]; intros j H; cbn [abs_sum fold_right].
  - rewrite Rminus_0_r, Rabs_R0. lra.
  - match goal with |- Rabs (a * ?m + ?s - (a * ?e + ?t)) <= _ => replace (a * m + s - (a * e + t)) with (a * (m - e) + (s - t)) by ring end.
    eapply Rle_trans; [apply Rabs_triang|]. rewrite Rmult_plus_distr_l. apply Rplus_le_compat.
    + rewrite Rabs_mult, (Rmult_comm eps). apply Rmult_le_compat_l; [apply Rabs_pos|]. apply H. cbn; lia.
    + apply IH. intros k Hk. apply H. cbn; lia.
Qed.

(** ** intervals *)
Lemma wsum_scale a b f g : a < b -> forall w,
  wsum (fun x => f ((2 * x - a - b) / (b - a))) (map (scale_node a b) g) (map (scale_weight a b) w) = (b - a) / 2 * wsum f g w.
Proof.
  intros H. induction g as [|x g IH]; intros [|v w]; cbn [map wsum]; try lra. rewrite IH. unfold scale_node at 1, scale_weight at 1.
  replace ((2 * (a + 1 / 2 * (b - a) * (x + 1)) - a - b) / (b - a)) with x by (field; lra). field.
Qed.
Lemma integrates_ok d eps a b g w : a < b -> 0 <= eps -> good d eps g w ->
  integrates d eps a b (map (scale_node a b) g) (map (scale_weight a b) w).
Proof.
  intros H E G c F L D. rewrite wsum_scale by assumption.
  pose (P := fun x => (b - a) / 2 * pint 0 c ((2 * x - a - b) / (b - a))).
  assert (forall x, derivable_pt_lim P x (peval c ((2 * x - a - b) / (b - a)))) as DP.
  { intros x. unfold P.
    pose proof (derivable_pt_lim_comp (fun x => (2 * x - a - b) / (b - a)) (pint 0 c) x (2 / (b - a)) (((2 * x - a - b) / (b - a)) ^ 0 * peval c ((2 * x - a - b) / (b - a)))) as C.
    assert (derivable_pt_lim (fun x => (2 * x - a - b) / (b - a)) x (2 / (b - a))) as C1.
    { intros e He. exists (mkposreal 1 Rlt_0_1). intros h Nh _.
      match goal with |- Rabs ?u < _ => replace u with 0 by (field; split; lra) end. rewrite Rabs_R0. exact He. }
    specialize (C C1 (pint_derive c 0 _)).
    apply (derivable_pt_lim_scal _ ((b - a) / 2)) in C.
    replace ((b - a) / 2 * (((2 * x - a - b) / (b - a)) ^ 0 * peval c ((2 * x - a - b) / (b - a)) * (2 / (b - a)))) with (peval c ((2 * x - a - b) / (b - a))) in C by (cbn [pow]; field; lra).
    exact C. }
  assert (F b - F a = P b - P a) as ->.
  { pose (Q := fun x => F x - P x).
    assert (forall x, derivable_pt_lim Q x 0) as DQ.
    { intros x. pose proof (derivable_pt_lim_minus F P x _ _ (D x) (DP x)) as M. replace 0 with (peval c ((2 * x - a - b) / (b - a)) - peval c ((2 * x - a - b) / (b - a))) by ring. exact M. }
    assert (derivable Q) as dQ by (intros x; exists 0; apply DQ).
    assert (constant Q) as K by (apply (null_derivative_1 Q dQ); intros x; unfold derive_pt; destruct (dQ x) as [l Hl]; cbn; exact (uniqueness_limite Q x l 0 Hl (DQ x))).
    pose proof (K a b) as K1. unfold Q in K1. lra. }
  unfold P. replace ((2 * b - a - b) / (b - a)) with 1 by (field; lra). replace ((2 * a - a - b) / (b - a)) with (-1) by (field; lra).
  pose proof (good_poly d eps g w c G E L) as B.
  match goal with |- Rabs ?u <= _ => replace u with ((b - a) / 2 * (wsum (peval c) g w - (pint 0 c 1 - pint 0 c (-1)))) by ring end.
  rewrite Rabs_mult, (Rabs_right ((b - a) / 2)) by lra.
  replace (eps * ((b - a) / 2) * abs_sum c) with ((b - a) / 2 * (eps * abs_sum c)) by ring.
  apply Rmult_le_compat_l; [lra|exact B].
Qed.

(** ** the tables *)
Definition check (e : Z) (d : nat) (g w : list Z) : bool := forallb (fun k => near e k g w) (seq 0 (S d)).
Lemma check_good e d g w : check e d g w = true -> good d (IZR e / IZR U) (map dec g) (map dec w).
Proof.
  intros H k Hk. apply near_ok. unfold check in H. rewrite forallb_forall in H. apply H. apply in_seq. lia.
Qed.
Lemma map_scale_node a b g : map (fun z => scale_node a b (dec z)) g = map (scale_node a b) (map dec g).
Proof. rewrite map_map. reflexivity. Qed.
Lemma map_scale_weight a b g : map (fun z => scale_weight a b (dec z)) g = map (scale_weight a b) (map dec g).
Proof. rewrite map_map. reflexivity. Qed.
Fixpoint zincreasing (l : list Z) : bool :=
  match l with x :: ((y :: _) as r) => (x <? y)%Z && zincreasing r | _ => true end.
Lemma dec_lt x y : (x < y)%Z -> dec x < dec y.
Proof. intros H. unfold dec. apply Rmult_lt_compat_r; [apply Rinv_0_lt_compat, U_pos|apply IZR_lt, H]. Qed.
Lemma inc_ok a b l : a < b -> zincreasing l = true -> increasing (map (fun z => scale_node a b (dec z)) l).
Proof.
  intros H. induction l as [|x [|y l] IH]; intros I; [exact Logic.I|exact Logic.I|]. cbn [zincreasing] in I. apply andb_true_iff in I. destruct I as (I1 & I2).
  cbn [map increasing]. split; [|apply IH, I2]. apply Z.ltb_lt, dec_lt in I1. unfold scale_node. apply Rplus_lt_compat_l.
  apply Rmult_lt_compat_l; lra.
Qed.
Lemma dec_unit : dec (10 ^ 16) = 1 /\ dec (- 10 ^ 16) = -1.
Proof. unfold dec. rewrite opp_IZR. pose proof U_pos as P. change (IZR U) with (IZR (10 ^ 16)) in P. split; field; lra. Qed.
Definition inside (l : list Z) : bool := forallb (fun z => (- 10 ^ 16 <=? z)%Z && (z <=? 10 ^ 16)%Z) l.
Lemma dec_le x y : (x <= y)%Z -> dec x <= dec y.
Proof. intros H. unfold dec. apply Rmult_le_compat_r; [apply Rlt_le, Rinv_0_lt_compat, U_pos|apply IZR_le, H]. Qed.
Lemma inside_ok a b l : a < b -> inside l = true -> Forall (fun x => a <= x <= b) (map (fun z => scale_node a b (dec z)) l).
Proof.
  intros H I. unfold inside in I. rewrite forallb_forall in I. apply Forall_forall. intros x Hx. apply in_map_iff in Hx. destruct Hx as (z & <- & Hz).
  specialize (I z Hz). apply andb_true_iff in I. destruct I as (I1 & I2). apply Z.leb_le in I1, I2. apply dec_le in I1, I2.
  destruct dec_unit as (E1 & E2). rewrite E2 in I1. rewrite E1 in I2. unfold scale_node. split.
  - assert (0 <= 1 / 2 * (b - a) * (dec z + 1)) by (apply Rmult_le_pos; lra). lra.
  - assert (0 <= 1 / 2 * (b - a) * (1 - dec z)) by (apply Rmult_le_pos; lra). lra.
Qed.
Lemma positive_ok a b l : a < b -> forallb (fun z => (0 <? z)%Z) l = true -> Forall (fun x => 0 < x) (map (fun z => scale_weight a b (dec z)) l).
Proof.
  intros H I. rewrite forallb_forall in I. apply Forall_forall. intros x Hx. apply in_map_iff in Hx. destruct Hx as (z & <- & Hz).
  specialize (I z Hz). apply Z.ltb_lt, dec_lt in I. assert (dec 0 = 0) as E by (unfold dec; field; pose proof U_pos; change (IZR U) with (IZR (10^16)) in *; lra). rewrite E in I.
  unfold scale_weight. apply Rmult_lt_0_compat; [lra|exact I].
Qed.
