(** * Kessler microphysics: lemmas *)
From Coq Require Import Reals Lra Lia ZArith.
From Verif Require Import ColSpec ColProofs PhysModel KessModel KessSpec.
Local Open Scope R_scope.

Lemma fpow_nonneg x y : 0 <= fpow x y.
Proof. unfold fpow. destruct (Req_EM_T x 0); [lra|]. left. apply exp_pos. Qed.
Lemma fpow_pos x y : x <> 0 -> 0 < fpow x y.
Proof. intros H. unfold fpow. destruct (Req_EM_T x 0); [contradiction|]. apply exp_pos. Qed.
Lemma div_nonneg x y : 0 <= x -> 0 <= y -> 0 <= x / y.
Proof.
  intros X Y. unfold Rdiv. destruct Y as [Y|Y]; [apply Rmult_le_pos; [exact X|left; apply Rinv_0_lt_compat, Y]|].
  subst y. rewrite Rinv_0. lra.
Qed.
Lemma qrprod_nonneg dt0 c r : 0 <= dt0 -> 0 <= c -> 0 <= qrprod dt0 c r.
Proof.
  intros D C. unfold qrprod. pose proof (fpow_nonneg r (875 / 1000)) as F. pose proof (Rmax_r (1 / 1000 * (c - 1 / 1000)) 0) as A.
  set (f := fpow r (875 / 1000)) in *. set (a := Rmax _ 0) in *. assert (0 <= dt0 * f) by nra. assert (0 <= dt0 * a) by nra.
  assert (0 < 1 + dt0 * (22 / 10) * f) as P by nra.
  replace (c - (c - dt0 * a) / (1 + dt0 * (22 / 10) * f)) with ((c * (22 / 10 * (dt0 * f)) + dt0 * a) / (1 + dt0 * (22 / 10) * f)) by (field; lra).
  apply div_nonneg; [|lra]. assert (0 <= c * (dt0 * f)) by nra. nra.
Qed.
Lemma qrprod_le dt0 c r : 0 <= dt0 <= 1000 -> 0 <= c -> qrprod dt0 c r <= c.
Proof.
  intros D C. unfold qrprod. pose proof (fpow_nonneg r (875 / 1000)) as F.
  set (f := fpow r (875 / 1000)) in *. assert (Rmax (1 / 1000 * (c - 1 / 1000)) 0 <= c / 1000) as A by (apply Rmax_lub; lra).
  pose proof (Rmax_r (1 / 1000 * (c - 1 / 1000)) 0) as A0. set (a := Rmax _ 0) in *. assert (0 <= dt0 * f) by nra.
  assert (0 <= (c - dt0 * a) / (1 + dt0 * (22 / 10) * f)); [|lra]. apply div_nonneg; nra.
Qed.

Section Column.
  Context (nz : nat) (rho pk z : nat -> R).
  Lemma velqr_nonneg q k : 0 <= velqr rho q k.
  Proof.
    unfold velqr. pose proof (fpow_nonneg (q k * kr rho k) (1364 / 10000)). assert (0 <= rhalf rho k) by apply sqrt_pos.
    apply Rmult_le_pos; [|assumption]. lra.
  Qed.

  Section Level.
    Context (dt0 : R) (k : nat) (s t v c r : R).
    Let p := qrprod dt0 c r.
    Let c1 := Rmax (c - p) 0.
    Let r1 := Rmax (r + p + s) 0.
    Let m := Rmax (prod pk k t v) (- c1).
    Let e := ern rho pk dt0 k t v c1 r1.
    Let y := adjust rho pk dt0 k s t v c r.
    Lemma c1_nonneg : 0 <= c1. Proof. apply Rmax_r. Qed.
    Lemma r1_nonneg : 0 <= r1. Proof. apply Rmax_r. Qed.
    Lemma ern_r1 : e <= r1. Proof. apply Rmin_r. Qed.
    Lemma m_ge : - c1 <= m. Proof. apply Rmax_r. Qed.
    Lemma adjust_nonneg : 0 <= snd (fst (fst y)) /\ 0 <= snd (fst y) /\ 0 <= snd y.
    Proof.
      unfold y, adjust. cbv zeta. cbn [fst snd]. fold p c1 r1. fold m. fold e.
      split; [apply Rmax_r|]. pose proof m_ge. pose proof ern_r1. split; lra.
    Qed.
    Context (Hrho : 0 < rho k) (Hpk : 0 < pk k) (Hv : 0 <= v) (Hd : 0 <= dt0).
    Lemma pc_pos : 0 < pc pk k.
    Proof. unfold pc, psl. apply Rdiv_lt_0_compat; [lra|]. pose proof (fpow_pos (pk k) (1 / xk) ltac:(lra)). lra. Qed.
    Lemma qvs_pos : 0 < qvs pk k t.
    Proof. apply Rmult_lt_0_compat; [apply pc_pos|apply exp_pos]. Qed.
    Lemma ern_nonneg : 0 <= e.
    Proof.
      unfold e, ern. apply Rmin_glb; [apply Rmin_glb|]; [|apply Rmax_r|apply r1_nonneg].
      pose proof pc_pos. pose proof qvs_pos. pose proof (fpow_nonneg (kr rho k * r1) (2046 / 10000)). pose proof (fpow_nonneg (kr rho k * r1) (525 / 1000)).
      assert (0 <= dim (qvs pk k t) v) by apply Rmax_r. assert (0 < kr rho k) by (unfold kr; lra).
      apply Rmult_le_pos; [apply Rmult_le_pos; [exact Hd|]|apply div_nonneg; [assumption|nra]].
      apply div_nonneg; [apply Rmult_le_pos; [lra|assumption]|].
      assert (0 <= 2550000 * pc pk k / (38 / 10 * qvs pk k t)) by (apply div_nonneg; lra). lra.
    Qed.
    Lemma prod_between : (qvs pk k t <= v -> 0 <= prod pk k t v <= v - qvs pk k t) /\ (v <= qvs pk k t -> v - qvs pk k t <= prod pk k t v <= 0).
    Proof.
      pose proof qvs_pos as Q. set (q := qvs pk k t) in *. unfold prod. fold q.
      set (w := (pk k * t - 36) * (pk k * t - 36)). assert (0 <= q * f5 / w) as X.
      { apply div_nonneg; [unfold f5, f2x; nra|]. unfold w. apply Rle_0_sqr. }
      assert (0 < / (1 + q * f5 / w) <= 1) as I.
      { split; [apply Rinv_0_lt_compat; lra|]. rewrite <- Rinv_1. apply Rinv_le_contravar; lra. }
      set (d := 1 + q * f5 / w) in *. unfold Rdiv. set (i := / d) in *. clearbody i. split; intros H; split; nra.
    Qed.
    (** vapour is never clipped and stays on its side of saturation *)
    Lemma vapour : 0 <= v - m + e /\ (qvs pk k t <= v -> qvs pk k t <= v - m + e <= v) /\ (v <= qvs pk k t -> v <= v - m + e <= qvs pk k t).
    Proof.
      pose proof ern_nonneg as E. pose proof qvs_pos as Q. destruct prod_between as (P1 & P2). pose proof c1_nonneg as C.
      assert (e <= Rmax (- prod pk k t v - c1) 0) as E2.
      { unfold e, ern. eapply Rle_trans; [apply Rmin_l|]. apply Rmin_r. }
      set (q := qvs pk k t) in *. unfold m. set (pr := prod pk k t v) in *.
      destruct (Rle_dec (- c1) pr) as [H|H].
      - rewrite Rmax_left by exact H. rewrite Rmax_right in E2 by lra.
        destruct (Rle_dec q v) as [L|L]; [specialize (P1 L)|specialize (P2 ltac:(lra))]; repeat split; intros; try specialize (P2 H0); lra.
      - rewrite Rmax_right by lra. rewrite Rmax_left in E2 by lra.
        destruct (Rle_dec q v) as [L|L]; [specialize (P1 L); lra|specialize (P2 ltac:(lra))]; repeat split; intros; lra.
    Qed.
    Lemma adjust_vapour : snd (fst (fst y)) = v - m + e.
    Proof. unfold y, adjust. cbv zeta. cbn [fst snd]. fold p c1 r1. fold m. fold e. apply Rmax_left, vapour. Qed.
    Lemma adjust_water : snd (fst (fst y)) + snd (fst y) + snd y = v + c + r + s + Rmax 0 (p - c) + Rmax 0 (- (r + p + s)).
    Proof.
      rewrite adjust_vapour. unfold y, adjust. cbv zeta. cbn [fst snd]. fold p c1 r1. fold m. fold e.
      transitivity (v + c1 + r1); [ring|]. unfold c1, r1, Rmax.
      destruct (Rle_dec (c - p) 0), (Rle_dec (r + p + s) 0), (Rle_dec 0 (p - c)), (Rle_dec 0 (- (r + p + s))); lra.
    Qed.
    Lemma adjust_energy : 1003 * pk k * fst (fst (fst y)) + 2500000 * snd (fst (fst y)) = 1003 * pk k * t + 2500000 * v.
    Proof.
      rewrite adjust_vapour. unfold y, adjust. cbv zeta. cbn [fst snd]. fold p c1 r1. fold m. fold e. field. lra.
    Qed.
  End Level.

  Context (N : (2 <= nz)%nat) (Hrho : forall k, (k < nz)%nat -> 0 < rho k) (Hz : forall k, (S k < nz)%nat -> z k < z (S k)).
  (** the flux through the bottom of a level *)
  Definition fall (vel q : nat -> R) (k : nat) : R := rho k * q k * vel k.
  Lemma sed_mass dt0 vel q k : (k < nz)%nat ->
    layer nz rho z k * sed nz rho z dt0 vel q k = dt0 * ((if Nat.ltb (S k) nz then fall vel q (S k) else 0) - fall vel q k).
  Proof.
    intros K. unfold layer, sed, fall, kr. pose proof (Hrho k K). destruct (Nat.ltb_spec (S k) nz) as [L|L].
    - pose proof (Hz k L). field. lra.
    - destruct k as [|k]; [lia|]. pose proof (Hz k ltac:(lia)). replace (S k - 1)%nat with k by lia. field. lra.
  Qed.
  Lemma telescope (f : nat -> R) n : (0 < n)%nat -> sum (fun k => (if Nat.ltb (S k) n then f (S k) else 0) - f k) n = - f 0%nat.
  Proof.
    intros P. assert (forall m, (m <= n)%nat -> (0 < m)%nat -> sum (fun k => (if Nat.ltb (S k) n then f (S k) else 0) - f k) m = (if Nat.ltb m n then f m else 0) - f 0%nat) as H.
    { induction m as [|m IH]; [lia|]. intros L _. rewrite sum_S. destruct m as [|m].
      - rewrite sum_0. lra.
      - rewrite IH by lia. destruct (Nat.ltb_spec (S m) n); [|lia]. lra. }
    rewrite (H n) by lia. rewrite Nat.ltb_irrefl. ring.
  Qed.
  Lemma sed_total dt0 vel q : sum (fun k => layer nz rho z k * sed nz rho z dt0 vel q k) nz = - dt0 * fall vel q 0%nat.
  Proof.
    rewrite (sum_ext _ (fun k => dt0 * ((if Nat.ltb (S k) nz then fall vel q (S k) else 0) - fall vel q k))) by (intros; apply sed_mass; assumption).
    rewrite sum_scale, telescope by lia. ring.
  Qed.
  Lemma layer_pos k : (k < nz)%nat -> 0 < layer nz rho z k.
  Proof.
    intros K. unfold layer. pose proof (Hrho k K). destruct (Nat.ltb_spec (S k) nz) as [L|L].
    - pose proof (Hz k L). nra.
    - destruct k as [|k]; [lia|]. pose proof (Hz k ltac:(lia)). replace (S k - 1)%nat with k by lia. nra.
  Qed.
  (** the time step limit *)
  Lemma dt_max_pos dt vel n : 0 < dt -> (forall k, 0 <= vel k) -> (n < nz)%nat -> 0 < dt_max z dt vel n <= dt.
  Proof.
    intros D V. induction n as [|n IH]; intros L; cbn; [lra|]. specialize (IH ltac:(lia)). destruct (Req_EM_T (vel n) 0) as [|E]; [exact IH|].
    pose proof (Hz n ltac:(lia)). pose proof (V n). assert (0 < 8 / 10 * (z (S n) - z n) / vel n) as P by (apply Rdiv_lt_0_compat; lra).
    split; [apply Rmin_glb_lt; lra|]. eapply Rle_trans; [apply Rmin_l|lra].
  Qed.
  Lemma dt_max_le dt vel n k : (k < n)%nat -> (n < nz)%nat -> (forall k, 0 <= vel k) -> 0 < dt -> dt_max z dt vel n * vel k <= 8 / 10 * (z (S k) - z k).
  Proof.
    intros K L V D. revert K L. induction n as [|n IH]; intros K L; [lia|]. cbn.
    pose proof (Hz k ltac:(lia)) as ZK. pose proof (V k) as VK.
    pose proof (dt_max_pos dt vel n D V ltac:(lia)) as P.
    destruct (Nat.eq_dec k n) as [->|Ne].
    - destruct (Req_EM_T (vel n) 0) as [E|E]; [rewrite E; lra|].
      apply Rle_trans with (8 / 10 * (z (S n) - z n) / vel n * vel n); [apply Rmult_le_compat_r; [lra|apply Rmin_r]|]. right. field. exact E.
    - specialize (IH ltac:(lia) ltac:(lia)). destruct (Req_EM_T (vel n) 0); [exact IH|].
      eapply Rle_trans; [|exact IH]. apply Rmult_le_compat_r; [exact VK|apply Rmin_l].
  Qed.
End Column.

Lemma ceil_ge x : x <= IZR (ceil x).
Proof. unfold ceil. rewrite opp_IZR. pose proof (base_Int_part (- x)). lra. Qed.
Lemma ceil_lt x : IZR (ceil x) < x + 1.
Proof. unfold ceil. rewrite opp_IZR. pose proof (base_Int_part (- x)). lra. Qed.
Lemma sum_le f g n : (forall k, (k < n)%nat -> f k <= g k) -> sum f n <= sum g n.
Proof. induction n as [|n IH]; intros H; [rewrite !sum_0; lra|]. rewrite !sum_S. pose proof (H n ltac:(lia)). pose proof (IH ltac:(intros; apply H; lia)). lra. Qed.
