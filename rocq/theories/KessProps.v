(** * Kessler microphysics: C102 the column, C103 the wrapper, C104 the DCMIP wrapper *)
From Coq Require Import Reals Lra Lia ZArith List.
From Verif Require Import ColSpec ColProofs PhysSpec PhysModel PhysProps KessModel KessSpec KessProofs.
Import ListNotations.
Local Open Scope R_scope.

Definition nonneg (nz : nat) (x : moist) : Prop := forall k, (k < nz)%nat -> 0 <= qv x k /\ 0 <= qc x k /\ 0 <= qr x k.

(** ** C102 *)
Section Run.
  Context (nz : nat) (rho pk z : nat -> R).
  Context (N : (2 <= nz)%nat) (Hrho : forall k, (k < nz)%nat -> 0 < rho k) (Hpk : forall k, (k < nz)%nat -> 0 < pk k)
    (Hz : forall k, (S k < nz)%nat -> z k < z (S k)).
  Lemma subcycle_nonneg dt0 vel x : nonneg nz (subcycle nz rho pk z dt0 vel x).
  Proof. intros k K. unfold subcycle. cbn [qv qc qr]. rewrite (proj2 (Nat.ltb_lt k nz) K). apply adjust_nonneg. Qed.
  Lemma subcycle_water dt0 vel x : 0 <= dt0 -> nonneg nz x -> let y := subcycle nz rho pk z dt0 vel x in
    water nz rho z (qv y) (qc y) (qr y) + dt0 * (rho 0%nat * qr x 0%nat * vel 0%nat) =
    water nz rho z (qv x) (qc x) (qr x) +
    sum (fun k => layer nz rho z k * (Rmax 0 (qrprod dt0 (qc x k) (qr x k) - qc x k) +
                  Rmax 0 (- (qr x k + qrprod dt0 (qc x k) (qr x k) + sed nz rho z dt0 vel (qr x) k)))) nz.
  Proof.
    intros D P y. unfold water. set (cl := fun k => _ * (Rmax 0 _ + Rmax 0 _)).
    rewrite (sum_ext _ (fun k => (layer nz rho z k * (qv x k + qc x k + qr x k) + layer nz rho z k * sed nz rho z dt0 vel (qr x) k) + cl k)).
    - rewrite !sum_plus, sed_total by assumption. unfold fall. ring.
    - intros k K. unfold y, subcycle. cbn [qv qc qr]. rewrite (proj2 (Nat.ltb_lt k nz) K).
      rewrite adjust_water by (try apply Hrho; try apply Hpk; try apply P; assumption). unfold cl. ring.
  Qed.
  Lemma clip_sum_nonneg dt0 vel x : 0 <= sum (fun k => layer nz rho z k * (Rmax 0 (qrprod dt0 (qc x k) (qr x k) - qc x k) +
                  Rmax 0 (- (qr x k + qrprod dt0 (qc x k) (qr x k) + sed nz rho z dt0 vel (qr x) k)))) nz.
  Proof.
    apply Rle_trans with (sum (fun _ => 0) nz); [right; symmetry; apply sum_zero; reflexivity|]. apply sum_le. intros k K. pose proof (layer_pos nz rho z N Hrho Hz k K).
    apply Rmult_le_pos; [lra|]. apply Rplus_le_le_0_compat; apply Rmax_l.
  Qed.

  Lemma cycles_nonneg dt0 n : forall x vel p, nonneg nz x -> nonneg nz (fst (fst (cycles nz rho pk z dt0 n (x, vel, p)))).
  Proof. induction n as [|n IH]; intros x vel p H; [exact H|]. cbn [cycles cycle]. apply IH, subcycle_nonneg. Qed.
  Lemma cycles_water dt0 n : 0 <= dt0 -> forall x vel p, nonneg nz x -> let '(y, _, p') := cycles nz rho pk z dt0 n (x, vel, p) in
    water nz rho z (qv x) (qc x) (qr x) <= water nz rho z (qv y) (qc y) (qr y) + dt0 * 1000 * (p' - p).
  Proof.
    intros D. induction n as [|n IH]; intros x vel p H; cbn [cycles cycle]; [lra|].
    pose proof (subcycle_water dt0 vel x D H) as W. cbv zeta in W. pose proof (clip_sum_nonneg dt0 vel x) as C.
    set (y := subcycle nz rho pk z dt0 vel x) in *.
    specialize (IH y (if Nat.eqb n 0 then vel else velqr rho (qr y)) (p + rho 0%nat * qr x 0%nat * vel 0%nat / rhoqr) (subcycle_nonneg dt0 vel x)).
    destruct (cycles nz rho pk z dt0 n _) as [[w ve] p']. unfold rhoqr in IH. lra.
  Qed.
  (** the Courant condition of one subcycle at every level *)
  Fixpoint courant (dt0 : R) (n : nat) (s : moist * (nat -> R) * R) : Prop :=
    match n with
    | O => True
    | S m => (forall k, (k < nz)%nat -> dt0 * snd (fst s) k <= layer nz rho z k / rho k) /\
             courant dt0 m (cycle nz rho pk z dt0 (Nat.eqb m 0) s)
    end.
  Lemma sed_ge dt0 vel x k : (k < nz)%nat -> 0 <= dt0 -> (forall k, 0 <= vel k) -> nonneg nz x ->
    dt0 * vel k <= layer nz rho z k / rho k -> 0 <= qr x k + sed nz rho z dt0 vel (qr x) k.
  Proof.
    intros K D V P C. pose proof (layer_pos nz rho z N Hrho Hz k K) as L. pose proof (Hrho k K) as R.
    pose proof (sed_mass nz rho z N Hrho Hz dt0 vel (qr x) k K) as S. unfold fall in S.
    destruct (P k K) as (_ & _ & Q).
    assert (dt0 * vel k * rho k <= layer nz rho z k) as C'.
    { apply (Rmult_le_compat_r (rho k)) in C; [|lra]. replace (layer nz rho z k / rho k * rho k) with (layer nz rho z k) in C by (field; lra). exact C. }
    apply (Rmult_le_reg_l (layer nz rho z k)); [exact L|]. rewrite Rmult_0_r, Rmult_plus_distr_l, S.
    assert (0 <= (if Nat.ltb (Datatypes.S k) nz then rho (Datatypes.S k) * qr x (Datatypes.S k) * vel (Datatypes.S k) else 0)) as T.
    { destruct (Nat.ltb_spec (Datatypes.S k) nz) as [H|H]; [|lra]. destruct (P _ H) as (_ & _ & Q'). pose proof (Hrho _ H). pose proof (V (Datatypes.S k)).
      apply Rmult_le_pos; [apply Rmult_le_pos; lra|assumption]. }
    set (T' := if Nat.ltb (Datatypes.S k) nz then _ else 0) in *. assert (dt0 * vel k * rho k * qr x k <= layer nz rho z k * qr x k) by (apply Rmult_le_compat_r; assumption).
    pose proof (Rmult_le_pos _ _ D T). lra.
  Qed.
  Lemma subcycle_exact dt0 vel x : 0 <= dt0 <= 1000 -> (forall k, 0 <= vel k) -> nonneg nz x ->
    (forall k, (k < nz)%nat -> dt0 * vel k <= layer nz rho z k / rho k) -> let y := subcycle nz rho pk z dt0 vel x in
    water nz rho z (qv y) (qc y) (qr y) + dt0 * (rho 0%nat * qr x 0%nat * vel 0%nat) = water nz rho z (qv x) (qc x) (qr x).
  Proof.
    intros D V P C y. unfold y. rewrite subcycle_water by (tauto || lra).
    rewrite (sum_zero _ nz); [ring|]. intros k K. destruct (P k K) as (P1 & P2 & P3).
    pose proof (qrprod_le dt0 (qc x k) (qr x k) D P2). pose proof (qrprod_nonneg dt0 (qc x k) (qr x k) ltac:(lra) P2).
    pose proof (sed_ge dt0 vel x k K ltac:(lra) V P (C k K)). rewrite !Rmax_left by lra. ring.
  Qed.
  Lemma cycles_exact dt0 n : 0 <= dt0 <= 1000 -> forall x vel p, nonneg nz x -> (forall k, 0 <= vel k) -> courant dt0 n (x, vel, p) ->
    let '(y, _, p') := cycles nz rho pk z dt0 n (x, vel, p) in
    water nz rho z (qv y) (qc y) (qr y) + dt0 * 1000 * (p' - p) = water nz rho z (qv x) (qc x) (qr x).
  Proof.
    intros D. induction n as [|n IH]; intros x vel p H V C; cbn [cycles cycle]; [lra|]. destruct C as (C & C'). cbn [fst snd] in C.
    pose proof (subcycle_exact dt0 vel x D V H C) as W. cbv zeta in W. cbn [cycle] in C'.
    set (y := subcycle nz rho pk z dt0 vel x) in *.
    specialize (IH y (if Nat.eqb n 0 then vel else velqr rho (qr y)) (p + rho 0%nat * qr x 0%nat * vel 0%nat / rhoqr) (subcycle_nonneg dt0 vel x)).
    assert (forall k, 0 <= (if Nat.eqb n 0 then vel else velqr rho (qr y)) k) as V' by (intros k; destruct (Nat.eqb n 0); [apply V|apply velqr_nonneg]).
    specialize (IH V' C').
    destruct (cycles nz rho pk z dt0 n _) as [[w ve] p']. unfold rhoqr in IH. lra.
  Qed.
  Lemma cycles_energy dt0 n k : 0 <= dt0 -> (k < nz)%nat -> forall x vel p, nonneg nz x -> let y := fst (fst (cycles nz rho pk z dt0 n (x, vel, p))) in
    1003 * pk k * th y k + 2500000 * qv y k = 1003 * pk k * th x k + 2500000 * qv x k.
  Proof.
    intros D K. induction n as [|n IH]; intros x vel p H; cbn [cycles cycle]; [reflexivity|]. cbv zeta in *.
    rewrite IH by apply subcycle_nonneg. unfold subcycle. cbn [th qv]. rewrite (proj2 (Nat.ltb_lt k nz) K).
    apply adjust_energy; [apply Hrho|apply Hpk|apply H|]; assumption.
  Qed.
  Lemma rainsplit_pos dt vel : 0 < dt -> (forall k, 0 <= vel k) -> (1 <= rainsplit nz z dt vel)%Z.
  Proof.
    intros D V. pose proof (dt_max_pos nz z N Hz dt vel (nz - 1) D V ltac:(lia)) as P. unfold rainsplit.
    set (m := dt_max z dt vel (nz - 1)) in *. assert (0 < dt / m) by (apply Rdiv_lt_0_compat; lra).
    pose proof (ceil_ge (dt / m)). assert (0 < IZR (ceil (dt / m))) as I by lra. apply lt_IZR in I. lia.
  Qed.
  Lemma dt0_le dt vel : 0 < dt -> (forall k, 0 <= vel k) -> 0 < dt / IZR (rainsplit nz z dt vel) <= dt_max z dt vel (nz - 1).
  Proof.
    intros D V. pose proof (dt_max_pos nz z N Hz dt vel (nz - 1) D V ltac:(lia)) as P. pose proof (rainsplit_pos dt vel D V) as I. apply IZR_le in I.
    pose proof (ceil_ge (dt / dt_max z dt vel (nz - 1))) as C. fold (rainsplit nz z dt vel) in C.
    set (m := dt_max z dt vel (nz - 1)) in *. set (n := IZR (rainsplit nz z dt vel)) in *.
    split; [apply Rdiv_lt_0_compat; lra|]. apply (Rmult_le_reg_r n); [lra|].
    replace (dt / n * n) with (dt / m * m) by (field; lra). rewrite (Rmult_comm m n). apply Rmult_le_compat_r; lra.
  Qed.
End Run.

(** tracers stay non-negative; latent heat and enthalpy balance at each level;
    water in the column plus rain never decreases *)
Theorem C102_positive : forall nz rho pk z dt x, (2 <= nz)%nat -> 0 < dt -> nonneg nz x -> (forall k, (k < nz)%nat -> 0 < rho k) ->
  (forall k, (S k < nz)%nat -> z k < z (S k)) -> nonneg nz (fst (kessler nz rho pk z dt x)) /\ 0 <= snd (kessler nz rho pk z dt x).
Proof.
  intros nz rho pk z dt x N D P Hr Hz. unfold kessler. set (vel := velqr rho (qr x)). set (n := rainsplit nz z dt vel).
  assert (forall k, 0 <= vel k) as V by (intros; apply velqr_nonneg).
  pose proof (rainsplit_pos nz z N Hz dt vel D V) as I. fold n in I. apply IZR_le in I.
  pose proof (cycles_nonneg nz rho pk z (dt / IZR n) (Z.to_nat n) x vel 0 P) as Q.
  assert (forall m x vel p, nonneg nz x -> (forall k, 0 <= vel k) -> 0 <= p -> 0 <= snd (cycles nz rho pk z (dt / IZR n) m (x, vel, p))) as S.
  { induction m as [|m IH]; intros x' vel' p H H' H''; [exact H''|]. cbn [cycles cycle]. apply IH.
    - apply subcycle_nonneg.
    - intros k. destruct (Nat.eqb m 0); [apply H'|apply velqr_nonneg].
    - destruct (H 0%nat ltac:(lia)) as (_ & _ & R). pose proof (Hr 0%nat ltac:(lia)). pose proof (H' 0%nat). apply Rplus_le_le_0_compat; [exact H''|].
      unfold rhoqr. apply div_nonneg; [|lra]. apply Rmult_le_pos; [apply Rmult_le_pos; lra|assumption]. }
  specialize (S (Z.to_nat n) x vel 0 P V ltac:(lra)).
  destruct (cycles nz rho pk z (dt / IZR n) (Z.to_nat n) (x, vel, 0)) as [[y w] p]. cbn [fst snd] in *. split; [exact Q|].
  apply div_nonneg; lra.
Qed.
Theorem C102_energy : forall nz rho pk z dt x k, (2 <= nz)%nat -> 0 < dt -> nonneg nz x -> (forall k, (k < nz)%nat -> 0 < rho k) ->
  (forall k, (k < nz)%nat -> 0 < pk k) -> (forall k, (S k < nz)%nat -> z k < z (S k)) -> (k < nz)%nat -> let y := fst (kessler nz rho pk z dt x) in
  1003 * pk k * th y k + 2500000 * qv y k = 1003 * pk k * th x k + 2500000 * qv x k.
Proof.
  intros nz rho pk z dt x k N D P Hr Hp Hz K y. subst y. unfold kessler. set (vel := velqr rho (qr x)). set (n := rainsplit nz z dt vel).
  assert (forall k, 0 <= vel k) as V by (intros; apply velqr_nonneg).
  pose proof (dt0_le nz z N Hz dt vel D V) as L. fold n in L.
  pose proof (cycles_energy nz rho pk z Hr Hp (dt / IZR n) (Z.to_nat n) k ltac:(lra) K x vel 0 P) as Q.
  destruct (cycles nz rho pk z (dt / IZR n) (Z.to_nat n) (x, vel, 0)) as [[y w] p]. exact Q.
Qed.
Theorem C102_water : forall nz rho pk z dt x, (2 <= nz)%nat -> 0 < dt -> nonneg nz x -> (forall k, (k < nz)%nat -> 0 < rho k) ->
  (forall k, (k < nz)%nat -> 0 < pk k) -> (forall k, (S k < nz)%nat -> z k < z (S k)) -> let '(y, precl) := kessler nz rho pk z dt x in
  water nz rho z (qv x) (qc x) (qr x) <= water nz rho z (qv y) (qc y) (qr y) + 1000 * (precl * dt).
Proof.
  intros nz rho pk z dt x N D P Hr Hp Hz. unfold kessler. set (vel := velqr rho (qr x)). set (n := rainsplit nz z dt vel).
  assert (forall k, 0 <= vel k) as V by (intros; apply velqr_nonneg).
  pose proof (rainsplit_pos nz z N Hz dt vel D V) as I. apply IZR_le in I. fold n in I.
  pose proof (dt0_le nz z N Hz dt vel D V) as L. fold n in L.
  pose proof (cycles_water nz rho pk z N Hr Hp Hz (dt / IZR n) (Z.to_nat n) ltac:(lra) x vel 0 P) as Q.
  destruct (cycles nz rho pk z (dt / IZR n) (Z.to_nat n) (x, vel, 0)) as [[y w] p].
  replace (1000 * (p / IZR n * dt)) with (dt / IZR n * 1000 * (p - 0)) by (field; lra). exact Q.
Qed.
(** exactly, while no subcycle is longer than 1000 s or lets rain fall through
    more than a layer *)
Theorem C102_exact : forall nz rho pk z dt x, (2 <= nz)%nat -> 0 < dt -> nonneg nz x -> (forall k, (k < nz)%nat -> 0 < rho k) ->
  (forall k, (k < nz)%nat -> 0 < pk k) -> (forall k, (S k < nz)%nat -> z k < z (S k)) ->
  let vel := velqr rho (qr x) in let n := rainsplit nz z dt vel in
  dt / IZR n <= 1000 -> courant nz rho pk z (dt / IZR n) (Z.to_nat n) (x, vel, 0) -> let '(y, precl) := kessler nz rho pk z dt x in
  water nz rho z (qv y) (qc y) (qr y) + 1000 * (precl * dt) = water nz rho z (qv x) (qc x) (qr x).
Proof.
  intros nz rho pk z dt x N D P Hr Hp Hz vel n T C. unfold kessler. fold vel. fold n.
  assert (forall k, 0 <= vel k) as V by (intros; apply velqr_nonneg).
  pose proof (rainsplit_pos nz z N Hz dt vel D V) as I. apply IZR_le in I. fold n in I.
  pose proof (dt0_le nz z N Hz dt vel D V) as L. fold n in L.
  pose proof (cycles_exact nz rho pk z N Hr Hp Hz (dt / IZR n) (Z.to_nat n) ltac:(lra) x vel 0 P V C) as Q.
  destruct (cycles nz rho pk z (dt / IZR n) (Z.to_nat n) (x, vel, 0)) as [[y w] p].
  replace (1000 * (p / IZR n * dt)) with (dt / IZR n * 1000 * (p - 0)) by (field; lra). exact Q.
Qed.
(** the number of subcycles gives 0.8 of a layer below the top level in the
    first subcycle, and no smaller number does *)
Theorem C102_courant : forall nz rho z dt q, (2 <= nz)%nat -> 0 < dt -> (forall k, (S k < nz)%nat -> z k < z (S k)) ->
  let vel := velqr rho q in let n := rainsplit nz z dt vel in
  (1 <= n)%Z /\ (forall k, (S k < nz)%nat -> dt / IZR n * vel k <= 8 / 10 * (z (S k) - z k)) /\
  (forall m, (1 <= m < n)%Z -> exists k, (S k < nz)%nat /\ 8 / 10 * (z (S k) - z k) < dt / IZR m * vel k).
Proof.
  intros nz rho z dt q N D Hz vel n. assert (forall k, 0 <= vel k) as V by (intros; apply velqr_nonneg).
  split; [apply rainsplit_pos; assumption|]. split.
  - intros k K. pose proof (dt0_le nz z N Hz dt vel D V) as L. fold n in L.
    pose proof (dt_max_le nz z N Hz dt vel (nz - 1) k ltac:(lia) ltac:(lia) V D) as M.
    eapply Rle_trans; [|exact M]. apply Rmult_le_compat_r; [apply V|apply L].
  - intros m M. pose proof (ceil_lt (dt / dt_max z dt vel (nz - 1))) as C. fold (rainsplit nz z dt vel) in C. fold n in C.
    assert (IZR (m + 1) <= IZR n) as M1 by (apply IZR_le; lia). rewrite plus_IZR in M1. assert (1 <= IZR m) as M0 by (apply IZR_le; lia).
    assert (forall j, (j < nz)%nat -> IZR m < dt / dt_max z dt vel j -> exists k, (S k < nz)%nat /\ 8 / 10 * (z (S k) - z k) < dt / IZR m * vel k) as Q.
    { induction j as [|j IH]; intros J; cbn.
      - unfold Rdiv. rewrite Rinv_r by lra. intros; lra.
      - destruct (Req_EM_T (vel j) 0) as [E|E]; [apply IH; lia|]. unfold Rmin. destruct (Rle_dec _ _) as [L|L]; [apply IH; lia|].
        intros G. exists j. split; [lia|]. pose proof (Hz j ltac:(lia)) as Zj. pose proof (V j) as Vj. assert (0 < vel j) as W by lra.
        assert (IZR m * (8 / 10 * (z (S j) - z j)) < dt * vel j) as X.
        { apply (Rmult_lt_compat_r (8 / 10 * (z (S j) - z j))) in G; [|lra].
          replace (dt / (8 / 10 * (z (S j) - z j) / vel j) * (8 / 10 * (z (S j) - z j))) with (dt * vel j) in G by (field; split; lra). exact G. }
        apply (Rmult_lt_reg_l (IZR m)); [lra|]. replace (IZR m * (dt / IZR m * vel j)) with (dt * vel j) by (field; lra). exact X. }
    apply (Q (nz - 1)%nat ltac:(lia)). lra.
Qed.
(** condensation and evaporation stop at saturation *)
Theorem C102_saturation : forall nz rho pk z dt0 vel x k, 0 <= dt0 -> nonneg nz x -> (k < nz)%nat -> 0 < rho k -> 0 < pk k ->
  pk k * th x k <> 36 -> let y := subcycle nz rho pk z dt0 vel x in let q := qvs pk k (th x k) in
  (q <= qv x k -> q <= qv y k <= qv x k /\ th x k <= th y k) /\ (qv x k <= q -> qv x k <= qv y k <= q /\ th y k <= th x k).
Proof.
  intros nz rho pk z dt0 vel x k D P K Hr Hp _ y q. destruct (P k K) as (V & _ & _).
  set (s := sed nz rho z dt0 vel (qr x) k).
  pose proof (adjust_energy rho pk dt0 k s (th x k) (qv x k) (qc x k) (qr x k) Hr Hp V D) as E.
  pose proof (adjust_vapour rho pk dt0 k s (th x k) (qv x k) (qc x k) (qr x k) Hr Hp V D) as A.
  destruct (vapour rho pk dt0 k s (th x k) (qv x k) (qc x k) (qr x k) Hr Hp V D) as (_ & V1 & V2).
  unfold y, subcycle. cbn [qv th]. rewrite (proj2 (Nat.ltb_lt k nz) K). fold s. rewrite A. rewrite A in E. fold q in V1, V2.
  set (t' := fst (fst (fst _))) in *. set (v' := qv x k - _ + _) in *. clearbody t' v'.
  split; intros H; [specialize (V1 H)|specialize (V2 H)]; (split; [lra|]); apply (Rmult_le_reg_l (1003 * pk k)); lra.
Qed.
(** dry air is left alone *)
Theorem C102_dry : forall nz rho pk z dt x, (2 <= nz)%nat -> 0 < dt -> (forall k, (k < nz)%nat -> 0 < rho k) ->
  (forall k, (k < nz)%nat -> 0 < pk k) -> (forall k, (S k < nz)%nat -> z k < z (S k)) ->
  (forall k, qv x k = 0 /\ qc x k = 0 /\ qr x k = 0) -> let '(y, precl) := kessler nz rho pk z dt x in
  precl = 0 /\ forall k, th y k = th x k /\ qv y k = 0 /\ qc y k = 0 /\ qr y k = 0.
Proof.
  intros nz rho pk z dt x N D Hr Hp Hz H. unfold kessler. set (vel := velqr rho (qr x)). set (n := rainsplit nz z dt vel).
  assert (forall k, 0 <= vel k) as V by (intros; apply velqr_nonneg). pose proof (dt0_le nz z N Hz dt vel D V) as L. fold n in L.
  set (dt0 := dt / IZR n) in *.
  assert (forall y vel, (forall k, th y k = th x k /\ qv y k = 0 /\ qc y k = 0 /\ qr y k = 0) ->
    forall k, th (subcycle nz rho pk z dt0 vel y) k = th x k /\ qv (subcycle nz rho pk z dt0 vel y) k = 0 /\
              qc (subcycle nz rho pk z dt0 vel y) k = 0 /\ qr (subcycle nz rho pk z dt0 vel y) k = 0) as S.
  { intros y ve Hy k. destruct (Hy k) as (T & Y1 & Y2 & Y3). unfold subcycle. cbn [th qv qc qr].
    destruct (Nat.ltb_spec k nz) as [K|K]; [|tauto]. rewrite T, Y1, Y2, Y3.
    assert (sed nz rho z dt0 ve (qr y) k = 0) as -> by (unfold sed; destruct (Nat.ltb (S k) nz); rewrite ?(proj2 (proj2 (proj2 (Hy (S k))))), Y3; unfold Rdiv; ring).
    assert (qrprod dt0 0 0 = 0) as Q.
    { apply Rle_antisym; [|apply qrprod_nonneg; lra]. unfold qrprod. rewrite Rmax_right by lra. unfold Rdiv. ring_simplify. lra. }
    pose proof (prod_between pk k (th x k) 0 (Hp k K)) as (_ & B). pose proof (qvs_pos pk k (th x k) (Hp k K)). specialize (B ltac:(lra)).
    pose proof (ern_nonneg rho pk dt0 k 0 (th x k) 0 0 0 (Hr k K) (Hp k K) ltac:(lra)) as E.
    unfold adjust. rewrite Q in *. rewrite !Rmax_right in * by lra. replace (0 - 0) with 0 in * by ring. replace (0 + 0 + 0) with 0 in * by ring.
    rewrite (Rmax_right 0 0) in * by lra. rewrite Ropp_0 in *. rewrite (Rmax_right (prod _ _ _ _) 0) in * by lra.
    assert (ern rho pk dt0 k (th x k) 0 0 0 = 0) as -> by (apply Rle_antisym; [apply Rmin_r|exact E]).
    cbn [fst snd]. rewrite Rmax_right by lra. repeat split; ring. }
  assert (forall m y vel, (forall k, th y k = th x k /\ qv y k = 0 /\ qc y k = 0 /\ qr y k = 0) ->
    let '(w, _, p) := cycles nz rho pk z dt0 m (y, vel, 0) in p = 0 /\ forall k, th w k = th x k /\ qv w k = 0 /\ qc w k = 0 /\ qr w k = 0) as C.
  { induction m as [|m IH]; intros y ve Hy; cbn [cycles cycle]; [tauto|].
    replace (0 + rho 0%nat * qr y 0%nat * ve 0%nat / rhoqr) with 0 by (rewrite (proj2 (proj2 (proj2 (Hy 0%nat)))); unfold Rdiv; ring).
    apply IH, S, Hy. }
  specialize (C (Z.to_nat n) x vel). assert (forall k, th x k = th x k /\ qv x k = 0 /\ qc x k = 0 /\ qr x k = 0) as H' by (intros k; destruct (H k); tauto).
  specialize (C H'). destruct (cycles nz rho pk z dt0 (Z.to_nat n) (x, vel, 0)) as [[w ve] p]. destruct C as (-> & C). split; [unfold Rdiv; ring|exact C].
Qed.
Lemma ceil_1 : ceil 1 = 1%Z.
Proof.
  unfold ceil. assert (Int_part (- (1)) = (-1)%Z) as ->; [|reflexivity]. unfold Int_part.
  rewrite <- (tech_up (- (1)) 0); [reflexivity| |]; simpl; lra.
Qed.
Lemma small_root : 1 / 8 <= Rpower (/ 2 ^ 21) (1364 / 10000).
Proof.
  replace (1 / 8) with (Rpower (/ 2 ^ 21) (1 / 7)).
  - unfold Rpower. assert (ln (/ 2 ^ 21) < 0) as L.
    { rewrite ln_Rinv by (apply pow_lt; lra). assert (0 < ln (2 ^ 21)); [|lra]. rewrite <- ln_1. apply ln_increasing; lra. }
    destruct (Rle_lt_dec (1 / 7 * ln (/ 2 ^ 21)) (1364 / 10000 * ln (/ 2 ^ 21))) as [H|H]; [|nra].
    destruct H as [H|H]; [left; apply exp_increasing, H|right; f_equal; exact H].
  - unfold Rpower. rewrite ln_Rinv by (apply pow_lt; lra). replace (2 ^ 21) with (8 ^ 7) by lra.
    rewrite ln_pow by lra. replace (1 / 7 * - (INR 7 * ln 8)) with (- ln 8) by (cbn; field). rewrite exp_Ropp, exp_ln by lra. lra.
Qed.
(** the limit on the subcycles leaves out the top level: rain there creates water *)
Definition top_rain : moist := Moist (fun _ => 300) (fun _ => 0) (fun _ => 0) (fun k => match k with 1%nat => 1000 / 2 ^ 21 | _ => 0 end).
Theorem C102_top_refuted : let z := fun k => 100 * INR k in let x := top_rain in
  let '(y, precl) := kessler 2 (fun _ => 1) (fun _ => 1) z 300 x in
  precl = 0 /\ 0 < water 2 (fun _ => 1) z (qv x) (qc x) (qr x) /\
  27 * water 2 (fun _ => 1) z (qv x) (qc x) (qr x) < water 2 (fun _ => 1) z (qv y) (qc y) (qr y).
Proof.
  intros z x. set (rho := fun _ : nat => 1). set (vel := velqr rho (qr x)).
  assert (forall k, (k < 2)%nat -> 0 < rho k) as Hr by (intros; unfold rho; lra).
  assert (forall k, (S k < 2)%nat -> z k < z (S k)) as Hz by (intros k K; unfold z; rewrite S_INR; lra).
  assert (vel 0%nat = 0) as V0.
  { unfold vel, velqr, fpow. cbn [qr x top_rain]. destruct (Req_EM_T (0 * kr rho 0) 0); [ring|lra]. }
  assert (3634 / 800 <= vel 1%nat) as V1.
  { unfold vel, velqr, fpow, rhalf, kr, rho. cbn [qr x top_rain]. assert (0 < / 2 ^ 21) by (apply Rinv_0_lt_compat, pow_lt; lra).
    replace (1000 / 2 ^ 21 * (1 / 1000 * 1)) with (/ 2 ^ 21) by lra. destruct (Req_EM_T (/ 2 ^ 21) 0); [lra|].
    replace (1 / 1) with 1 by lra. rewrite sqrt_1. pose proof small_root. lra. }
  assert (rainsplit 2 z 300 vel = 1%Z) as N.
  { unfold rainsplit. cbn [dt_max Nat.sub]. destruct (Req_EM_T (vel 0%nat) 0); [|lra]. replace (300 / 300) with 1 by lra. apply ceil_1. }
  unfold kessler. fold vel. rewrite N. change (Z.to_nat 1) with 1%nat. cbn [cycles cycle]. replace (300 / 1) with 300 by lra.
  assert (nonneg 2 x) as P.
  { intros k K. cbn. assert (0 < / 2 ^ 21) by (apply Rinv_0_lt_compat, pow_lt; lra). destruct k as [|[|k]]; [lra| |lia]. lra. }
  pose proof (subcycle_water 2 rho (fun _ => 1) z ltac:(lia) Hr ltac:(intros; lra) Hz 300 vel x ltac:(lra) P) as W. cbv zeta in W.
  rewrite V0 in *. split; [unfold Rdiv; ring|].
  set (w' := water 2 rho z (qv (subcycle _ _ _ _ _ _ _)) _ _) in *.
  assert (water 2 rho z (qv x) (qc x) (qr x) = 50 * (1000 / 2 ^ 21)) as E.
  { unfold water. rewrite !sum_S, sum_0. unfold layer, z, rho. cbn [Nat.ltb Nat.leb Nat.sub qv qc qr x top_rain]. rewrite !S_INR. cbn [INR]. lra. }
  rewrite E in *. set (q := 1000 / 2 ^ 21) in *. assert (0 < q) as Q by (unfold q; apply Rdiv_lt_0_compat; [lra|apply pow_lt; lra]).
  split; [lra|]. rewrite !sum_S, sum_0 in W.
  set (a := layer 2 rho z 0 * _) in W.
  assert (0 <= a) as A.
  { apply Rmult_le_pos; [left; apply layer_pos; [lia|exact Hr|exact Hz|lia]|]. apply Rplus_le_le_0_compat; apply Rmax_l. }
  set (b := Rmax 0 (- _)) in W at 1.
  assert (layer 2 rho z 1 = 50) as L1 by (unfold layer, z, rho; cbn [Nat.ltb Nat.leb Nat.sub]; rewrite !S_INR; cbn [INR]; lra).
  rewrite L1 in W. pose proof (Rmax_l 0 (qrprod 300 (qc x 1) (qr x 1) - qc x 1)) as M.
  assert (qrprod 300 (qc x 1) (qr x 1) = 0) as Z0.
  { cbn [qc x top_rain]. unfold qrprod. rewrite Rmax_right by lra. unfold Rdiv. ring. }
  assert (300 * q * vel 1%nat / 50 - q <= b) as B.
  { unfold b. eapply Rle_trans; [|apply Rmax_r]. rewrite Z0. unfold sed, z. cbn [Nat.ltb Nat.leb Nat.sub qr x top_rain]. fold q. rewrite !S_INR. cbn [INR]. right. field. }
  assert (300 * q * (3634 / 800) <= 300 * q * vel 1%nat) by (apply Rmult_le_compat_l; lra).
  set (m := Rmax 0 (qrprod _ _ _ - _)) in *. unfold Rdiv in B. lra.
Qed.
(** and so do subcycles longer than the 1000 s of autoconversion *)
Theorem C102_long_refuted : let z := fun k => 100 * INR k in let x := Moist (fun _ => 300) (fun _ => 0) (fun _ => 1 / 100) (fun _ => 0) in
  let '(y, precl) := kessler 2 (fun _ => 1) (fun _ => 1) z 2000 x in
  precl = 0 /\ water 2 (fun _ => 1) z (qv y) (qc y) (qr y) = 9 / 5 * water 2 (fun _ => 1) z (qv x) (qc x) (qr x).
Proof.
  intros z x. set (rho := fun _ : nat => 1). set (vel := velqr rho (qr x)).
  assert (forall k, (k < 2)%nat -> 0 < rho k) as Hr by (intros; unfold rho; lra).
  assert (forall k, (S k < 2)%nat -> z k < z (S k)) as Hz by (intros k K; unfold z; rewrite S_INR; lra).
  assert (forall k, vel k = 0) as V0.
  { intros k. unfold vel, velqr, fpow. cbn [qr x]. destruct (Req_EM_T (0 * kr rho k) 0); [ring|lra]. }
  assert (rainsplit 2 z 2000 vel = 1%Z) as N.
  { unfold rainsplit. cbn [dt_max Nat.sub]. destruct (Req_EM_T (vel 0%nat) 0) as [|E]; [|elim E; apply V0]. replace (2000 / 2000) with 1 by lra. apply ceil_1. }
  unfold kessler. fold vel. rewrite N. change (Z.to_nat 1) with 1%nat. cbn [cycles cycle]. replace (2000 / 1) with 2000 by lra.
  assert (nonneg 2 x) as P by (intros k K; cbn; lra).
  pose proof (subcycle_water 2 rho (fun _ => 1) z ltac:(lia) Hr ltac:(intros; lra) Hz 2000 vel x ltac:(lra) P) as W. cbv zeta in W.
  rewrite V0 in *. split; [unfold Rdiv; ring|].
  set (w' := water 2 rho z (qv (subcycle _ _ _ _ _ _ _)) _ _) in *.
  assert (water 2 rho z (qv x) (qc x) (qr x) = 3 / 2) as E.
  { unfold water. rewrite !sum_S, sum_0. unfold layer, z, rho. cbn [Nat.ltb Nat.leb Nat.sub qv qc qr x]. rewrite !S_INR. cbn [INR]. lra. }
  rewrite E in *.
  rewrite (sum_ext _ (fun k => layer 2 rho z k * (8 / 1000))) in W.
  - rewrite !sum_S, sum_0 in W. unfold layer, z, rho in W. cbn [Nat.ltb Nat.leb Nat.sub] in W. rewrite !S_INR in W. cbn [INR] in W. lra.
  - intros k K. f_equal. cbn [qc qr x].
    assert (qrprod 2000 (1 / 100) 0 = 18 / 1000) as ->.
    { unfold qrprod, fpow. destruct (Req_EM_T 0 0); [|lra]. rewrite Rmax_left by lra. field. }
    assert (sed 2 rho z 2000 vel (fun _ => 0) k = 0) as ->.
    { unfold sed. destruct (Nat.ltb (S k) 2); unfold Rdiv; ring. }
    rewrite Rmax_right by lra. rewrite Rmax_left by lra. lra.
Qed.

(** ** C103 *)
Lemma exner_law c : 0 < gas c -> gas c < cp c -> 0 < p0 c -> gamma c = cp c / (cp c - gas c) -> kappa c = gas c / cp c ->
  (forall x, 0 < x -> pressure_from_rhotheta c x = poisson (gas c) (cp c) (p0 c) x) ->
  forall x, 0 < x -> 0 < pressure_from_rhotheta c x /\
  pressure_from_rhotheta c x / (gas c * x) = Rpower (pressure_from_rhotheta c x / p0 c) (kappa c).
Proof.
  intros G C P Hg Hk L x X. rewrite L by exact X. unfold poisson. set (u := gas c * x / p0 c).
  assert (0 < u) as U by (unfold u; apply Rdiv_lt_0_compat; [nra|exact P]).
  assert (0 < Rpower u (cp c / (cp c - gas c))) as W by apply exp_pos. split; [nra|].
  replace (p0 c * Rpower u (cp c / (cp c - gas c)) / p0 c) with (Rpower u (cp c / (cp c - gas c))) by (field; lra).
  rewrite Rpower_mult, Hk. replace (gas c * x) with (p0 c * u) by (unfold u; field; lra).
  replace (cp c / (cp c - gas c) * (gas c / cp c)) with (cp c / (cp c - gas c) + - (1)) by (field; lra).
  rewrite Rpower_plus, Rpower_Ropp, Rpower_1 by exact U. field. lra.
Qed.
(** the Exner function handed to the microphysics *)
Theorem C103_exner : forall k y s l, let c := sets l (construct k y s) in 0 < gas c -> gas c < cp c -> 0 < p0 c ->
  forall a n, 0 < aR a n -> 0 < aT a n ->
  exner_of c a n = exner (gas c) (cp c) (p0 c) (poisson (gas c) (cp c) (p0 c) (aT a n)) / cp c.
Proof.
  intros k y s l c G C P a n R T. destruct (C38_cached k y s l) as (K & Ga & _). fold c in K, Ga.
  assert (forall x, 0 < x -> pressure_from_rhotheta c x = poisson (gas c) (cp c) (p0 c) x) as L.
  { intros x X. exact (proj1 (C38_values k y s l G C P x X)). }
  destruct (exner_law c G C P Ga K L (aT a n) T) as (_ & E).
  unfold exner_of, theta_v. replace (aR a n * (aT a n / aR a n)) with (aT a n) by (field; lra).
  replace (pressure_from_rhotheta c (aT a n) / (aR a n * gas c) / (aT a n / aR a n)) with (pressure_from_rhotheta c (aT a n) / (gas c * aT a n)) by (field; lra).
  rewrite E, L, K by exact T. unfold exner. field. lra.
Qed.
(** dry air is conserved at each level *)
(** what is added to the accumulated precipitation is the depth of water
    that has left the column of mixing ratios *)
Theorem C103_rain : forall c nz z dt a, (2 <= nz)%nat -> 0 < dt -> nonneg nz (to_moist a) -> (forall k, (k < nz)%nat -> 0 < rho_d a k) ->
  (forall k, (k < nz)%nat -> 0 < exner_of c a k) -> (forall k, (S k < nz)%nat -> z k < z (S k)) ->
  let vel := velqr (rho_d a) (qr (to_moist a)) in let n := rainsplit nz z dt vel in
  dt / IZR n <= 1000 -> courant nz (rho_d a) (exner_of c a) z (dt / IZR n) (Z.to_nat n) (to_moist a, vel, 0) ->
  let y := fst (kessler nz (rho_d a) (exner_of c a) z dt (to_moist a)) in
  water nz (rho_d a) z (qv y) (qc y) (qr y) + 1000 * snd (perform c nz z dt a) =
    water nz (rho_d a) z (qv (to_moist a)) (qc (to_moist a)) (qr (to_moist a)).
Proof.
  intros c nz z dt a N D P Hr Hp Hz vel n T C. pose proof (C102_exact nz (rho_d a) (exner_of c a) z dt (to_moist a) N D P Hr Hp Hz T C) as E.
  unfold perform. destruct (kessler nz (rho_d a) (exner_of c a) z dt (to_moist a)) as [y p]. exact E.
Qed.
Theorem C103_dry : forall c nz z dt a k, let y := fst (kessler nz (rho_d a) (exner_of c a) z dt (to_moist a)) in
  qv y k + qc y k + qr y k <> 1 -> rho_d (fst (perform c nz z dt a)) k = rho_d a k.
Proof.
  intros c nz z dt a k y S. unfold perform. subst y. destruct (kessler nz (rho_d a) (exner_of c a) z dt (to_moist a)) as [y p]. cbn [fst] in *.
  unfold rho_d at 1, from_moist. cbn [aR w0 w1 w2]. field. lra.
Qed.
Lemma clip_pos x : 0 <= clip x.
Proof. unfold clip. destruct (Rlt_dec x 0); lra. Qed.
Lemma to_moist_nonneg nz a : nonneg nz (to_moist a).
Proof. intros k _. cbn. repeat split; apply clip_pos. Qed.
Theorem C103_positive : forall c nz z dt a k, (2 <= nz)%nat -> 0 < dt -> (forall k, (k < nz)%nat -> 0 < rho_d a k) ->
  (forall k, (S k < nz)%nat -> z k < z (S k)) -> (k < nz)%nat -> let y := fst (kessler nz (rho_d a) (exner_of c a) z dt (to_moist a)) in
  qv y k + qc y k + qr y k < 1 -> let b := fst (perform c nz z dt a) in
  rho_d a k <= aR b k /\ 0 <= w0 b k /\ 0 <= w1 b k /\ 0 <= w2 b k.
Proof.
  intros c nz z dt a k N D Hr Hz K y S b. subst y b.
  pose proof (C102_positive nz (rho_d a) (exner_of c a) z dt (to_moist a) N D (to_moist_nonneg nz a) Hr Hz) as (Q & _).
  unfold perform. destruct (kessler nz (rho_d a) (exner_of c a) z dt (to_moist a)) as [y p]. cbn [fst] in *.
  destruct (Q k K) as (Q1 & Q2 & Q3). pose proof (Hr k K) as R. unfold from_moist. cbn [aR w0 w1 w2].
  set (d := 1 - qv y k - qc y k - qr y k). assert (0 < d <= 1) as Dd by (unfold d; lra).
  assert (rho_d a k <= rho_d a k / d) as L.
  { apply (Rmult_le_reg_r d); [lra|]. replace (rho_d a k / d * d) with (rho_d a k) by (field; lra). nra. }
  split; [exact L|]. repeat split; apply Rmult_le_pos; lra.
Qed.
(** a microphysics that changes nothing leaves the state unchanged *)
Theorem C103_neutral : forall a k, 0 < rho_d a k -> 0 <= w0 a k -> 0 <= w1 a k -> 0 <= w2 a k ->
  let b := from_moist (rho_d a) (to_moist a) in
  aR b k = aR a k /\ aT b k = aT a k /\ w0 b k = w0 a k /\ w1 b k = w1 a k /\ w2 b k = w2 a k.
Proof.
  intros a k R W0 W1 W2 b. unfold rho_d in R. assert (0 < aR a k) as P by lra.
  assert (forall w, 0 <= w -> clip (w / aR a k) = w / aR a k) as C.
  { intros w W. unfold clip. pose proof (div_nonneg w (aR a k) W ltac:(lra)). destruct (Rlt_dec (w / aR a k) 0); lra. }
  assert (aR b k = aR a k) as E.
  { unfold b, from_moist, to_moist. cbn [aR qv qc qr]. rewrite !C by assumption. unfold rho_d. field. split; lra. }
  split; [exact E|]. unfold b, from_moist. cbn [aT w0 w1 w2]. fold (aR (from_moist (rho_d a) (to_moist a)) k).
  change (rho_d a k / (1 - qv (to_moist a) k - qc (to_moist a) k - qr (to_moist a) k)) with (aR b k). rewrite E. unfold to_moist, theta_v. cbn [th qv qc qr].
  rewrite !C by assumption. pose proof (div_nonneg (w0 a k) (aR a k) W0 ltac:(lra)). repeat split; field; lra.
Qed.
(** the change of water mass at a level exceeds the change of the ratios times
    the dry density, which is what the microphysics conserves *)
Definition total (y : moist) (k : nat) : R := qv y k + qc y k + qr y k.
Theorem C103_level : forall rd x y k, total x k < 1 -> total y k < 1 -> let a := from_moist rd x in let b := from_moist rd y in
  (w0 a k + w1 a k + w2 a k) - (w0 b k + w1 b k + w2 b k) = rd k * (total x k - total y k) / ((1 - total x k) * (1 - total y k)).
Proof. intros rd x y k. unfold total. intros X Y. unfold from_moist. cbn [w0 w1 w2]. field. lra. Qed.
Theorem C103_loss : forall rd x y k, 0 < rd k -> 0 <= total y k -> total y k <= total x k -> total x k < 1 ->
  let a := from_moist rd x in let b := from_moist rd y in
  rd k * (total x k - total y k) <= (w0 a k + w1 a k + w2 a k) - (w0 b k + w1 b k + w2 b k).
Proof.
  intros rd x y k R Y H X a b. unfold a, b. rewrite C103_level by lra.
  set (u := 1 - total x k). set (v := 1 - total y k). assert (0 < u <= 1) by (unfold u; lra). assert (0 < v <= 1) by (unfold v; lra).
  assert (0 < u * v <= 1) by (split; nra). apply (Rmult_le_reg_r (u * v)); [lra|].
  replace (rd k * (total x k - total y k) / (u * v) * (u * v)) with (rd k * (total x k - total y k)) by (field; lra).
  assert (0 <= rd k * (total x k - total y k)) by nra. nra.
Qed.
(** so more water leaves the state than is credited to the precipitation *)
Definition low_rain : air := Air (fun _ => 1) (fun _ => 300) (fun _ => 0) (fun _ => 0) (fun k => match k with O => 1 / 2 | _ => 0 end).
Theorem C103_water_refuted : forall c, (forall k, 0 < exner_of c low_rain k) -> let z := fun k => 100 * INR k in
  let '(b, rain) := perform c 2 z 1 low_rain in
  let mass := fun a => sum (fun k => layer 2 (fun _ => 1) z k * (w0 a k + w1 a k + w2 a k)) 2 in
  0 < 1000 * rain /\ 2 * (1000 * rain) < mass low_rain - mass b.
Proof.
  intros c Hp z. unfold perform. set (rd := rho_d low_rain). set (pk := exner_of c low_rain) in *. set (x := to_moist low_rain).
  assert (rd 0%nat = 1 / 2) as R0 by (unfold rd, rho_d; cbn; lra). assert (forall k, rd (S k) = 1) as R1 by (intros; unfold rd, rho_d; cbn; lra).
  assert (qr x 0%nat = 1 / 2 /\ (forall k, qr x (S k) = 0) /\ (forall k, qv x k = 0 /\ qc x k = 0)) as (X0 & X1 & X2).
  { assert (clip (0 / 1) = 0) as Z0 by (unfold clip; destruct (Rlt_dec (0 / 1) 0); lra).
    split; [|split; [|split]]; try (intros; exact Z0). cbn. unfold clip. destruct (Rlt_dec (1 / 2 / 1) 0); lra. }
  set (vel := velqr rd (qr x)).
  assert (forall k, (k < 2)%nat -> 0 < rd k) as Hr by (intros [|k] K; [rewrite R0|rewrite R1]; lra).
  assert (forall k, (S k < 2)%nat -> z k < z (S k)) as Hz by (intros k K; unfold z; rewrite S_INR; lra).
  assert (0 < vel 0%nat <= 40) as V0.
  { unfold vel, velqr, rhalf, kr. rewrite X0, R0. replace (1 / 2 / (1 / 2)) with 1 by lra. rewrite sqrt_1. unfold fpow.
    destruct (Req_EM_T (1 / 2 * (1 / 1000 * (1 / 2))) 0) as [|E]; [lra|]. assert (0 < Rpower (1 / 2 * (1 / 1000 * (1 / 2))) (1364 / 10000)) by apply exp_pos.
    assert (Rpower (1 / 2 * (1 / 1000 * (1 / 2))) (1364 / 10000) <= 1); [|lra].
    unfold Rpower. assert (ln (1 / 2 * (1 / 1000 * (1 / 2))) < ln 1) as Lt by (apply ln_increasing; lra). rewrite ln_1 in Lt.
    set (w := ln _) in *. apply Rle_trans with (exp 0); [left; apply exp_increasing; lra|rewrite exp_0; lra]. }
  assert (rainsplit 2 z 1 vel = 1%Z) as N.
  { unfold rainsplit. cbn [dt_max Nat.sub]. destruct (Req_EM_T (vel 0%nat) 0) as [|E]; [lra|].
    rewrite Rmin_left; [replace (1 / 1) with 1 by lra; apply ceil_1|]. unfold z. rewrite S_INR. cbn [INR].
    apply (Rmult_le_reg_r (vel 0%nat)); [lra|]. replace (8 / 10 * (100 * (0 + 1) - 100 * 0) / vel 0%nat * vel 0%nat) with 80 by (field; exact E). lra. }
  assert (nonneg 2 x) as P by apply to_moist_nonneg.
  unfold kessler. fold vel. rewrite N. change (Z.to_nat 1) with 1%nat. cbn [cycles cycle]. replace (1 / 1) with 1 by lra.
  set (y := subcycle 2 rd pk z 1 vel x).
  assert (forall k, qrprod 1 0 (qr x k) = 0) as Q.
  { intros k. apply Rle_antisym; [apply qrprod_le; lra|apply qrprod_nonneg; lra]. }
  assert (forall k, (k < 2)%nat -> 0 <= qr x k + sed 2 rd z 1 vel (qr x) k -> total y k = qr x k + sed 2 rd z 1 vel (qr x) k) as T.
  { intros k K H. unfold total, y, subcycle. cbn [qv qc qr]. rewrite (proj2 (Nat.ltb_lt k 2) K). destruct (X2 k) as (A & B). rewrite A, B.
    rewrite adjust_water by (try apply Hr; try apply Hp; lra || assumption). rewrite Q. rewrite !Rmax_left by lra. ring. }
  assert (sed 2 rd z 1 vel (qr x) 0 = - (vel 0%nat / 200)) as S0.
  { unfold sed. cbn [Nat.ltb Nat.leb]. unfold kr, z. rewrite X0, X1, R0, S_INR. cbn [INR]. field. }
  assert (sed 2 rd z 1 vel (qr x) 1 = 0) as S1 by (unfold sed; cbn [Nat.ltb Nat.leb]; rewrite X1; unfold Rdiv; ring).
  pose proof (T 0%nat ltac:(lia)) as T0. rewrite X0, S0 in T0. specialize (T0 ltac:(lra)).
  pose proof (T 1%nat ltac:(lia)) as T1. rewrite X1, S1 in T1. specialize (T1 ltac:(lra)).
  rewrite X0, R0. unfold rhoqr. split; [lra|].
  rewrite !sum_S, !sum_0. unfold layer, z. cbn [Nat.ltb Nat.leb Nat.sub]. rewrite !S_INR. cbn [INR].
  assert (forall k, w0 (from_moist rd y) k + w1 (from_moist rd y) k + w2 (from_moist rd y) k = total y k * (rd k / (1 - total y k))) as M.
  { intros k. unfold from_moist, total. cbn [w0 w1 w2]. unfold Rdiv. replace (1 - qv y k - qc y k - qr y k) with (1 - (qv y k + qc y k + qr y k)) by ring. ring. }
  rewrite !M, T0, T1, R0. cbn [w0 w1 w2 low_rain]. set (u := vel 0%nat) in *.
  assert (0 < 1 / 2 + u / 200) as D by lra.
  assert ((1 / 2 + - (u / 200)) * (1 / 2 / (1 - (1 / 2 + - (u / 200)))) = 1 / 2 - u / 200 / (1 / 2 + u / 200)) as -> by (field; lra).
  assert (u / 200 < 100 * (u / 200 / (1 / 2 + u / 200)) / 100) as G.
  { apply (Rmult_lt_reg_r (1 / 2 + u / 200)); [lra|]. replace (100 * (u / 200 / (1 / 2 + u / 200)) / 100 * (1 / 2 + u / 200)) with (u / 200) by (field; lra). nra. }
  lra.
Qed.

(** ** C104 *)
(** DCMIPPhysics keeps dry air, and a package that changes nothing leaves the
    state unchanged *)
Theorem C104_dry : forall c rd p v q r k, v k + q k + r k <> 1 -> rho_d (dcmip_out c rd p v q r) k = rd k.
Proof. intros. unfold rho_d, dcmip_out. cbn [aR w0 w1 w2]. field. lra. Qed.
Theorem C104_neutral : forall k y s l, let c := sets l (construct k y s) in 0 < gas c -> gas c < cp c -> 0 < p0 c ->
  forall a n, 0 < rho_d a n -> 0 < aT a n -> 0 <= w0 a n -> 0 <= w1 a n -> 0 <= w2 a n ->
  let '(p, v, q, r) := dcmip_in c a in let b := dcmip_out c (rho_d a) p v q r in
  p n = poisson (gas c) (cp c) (p0 c) (aT a n) /\
  aR b n = aR a n /\ aT b n = aT a n /\ w0 b n = w0 a n /\ w1 b n = w1 a n /\ w2 b n = w2 a n.
Proof.
  intros k y s l c G C P a n R T W0 W1 W2. destruct (C38_cached k y s l) as (K & Ga & _). fold c in K, Ga.
  assert (forall x, 0 < x -> pressure_from_rhotheta c x = poisson (gas c) (cp c) (p0 c) x) as L.
  { intros x X. exact (proj1 (C38_values k y s l G C P x X)). }
  destruct (exner_law c G C P Ga K L (aT a n) T) as (PP & E).
  destruct (C103_neutral a n R W0 W1 W2) as (N1 & _ & N3 & N4 & N5). cbv zeta in *.
  unfold dcmip_in. unfold rho_d in R. assert (0 < aR a n) as Pa by lra.
  assert (aR a n * theta_v a n = aT a n) as TV by (unfold theta_v; field; lra).
  split; [rewrite TV; apply L, T|]. split; [exact N1|]. split; [|split; [exact N3|split; [exact N4|exact N5]]].
  unfold dcmip_out. cbn [aT]. change (rho_d a n / (1 - clip (w0 a n / aR a n) - clip (w1 a n / aR a n) - clip (w2 a n / aR a n))) with (aR (from_moist (rho_d a) (to_moist a)) n).
  rewrite N1, TV. set (p := pressure_from_rhotheta c (aT a n)) in *.
  assert (Rpower (p0 c / p) (kappa c) = / Rpower (p / p0 c) (kappa c)) as ->.
  { rewrite <- Rpower_Ropp. unfold Rpower. f_equal. replace (p0 c / p) with (/ (p / p0 c)) by (field; lra).
    rewrite ln_Rinv by (apply Rdiv_lt_0_compat; lra). ring. }
  rewrite <- E. field. lra.
Qed.

(** ** cases *)
Example C102_case : let z := fun k => 100 * INR k in let x := Moist (fun _ => 300) (fun _ => 1 / 100) (fun _ => 1 / 1000) (fun k => match k with O => 1 / 1000 | _ => 0 end) in
  nonneg 2 x /\ (forall k, (k < 2)%nat -> 0 < (fun _ : nat => 1) k) /\ (forall k, (S k < 2)%nat -> z k < z (S k)) /\
  0 < velqr (fun _ => 1) (qr x) 0 /\ 0 < rho_d low_rain 0 < aR low_rain 0.
Proof.
  intros z x. split; [intros [|[|k]] K; cbn; lra|]. split; [intros; lra|]. split; [intros k K; unfold z; rewrite S_INR; lra|]. split.
  - unfold velqr. apply Rmult_lt_0_compat; [|apply sqrt_lt_R0; lra]. cbn [qr x]. pose proof (fpow_pos (1 / 1000 * kr (fun _ => 1) 0) (1364 / 10000)) as F.
    unfold kr in *. specialize (F ltac:(lra)). lra.
  - unfold rho_d. cbn. lra.
Qed.
Example C104_case : let c := sets [] (construct 0 0 0) in 0 < gas c /\ gas c < cp c /\ 0 < p0 c /\ 0 < rho_d low_rain 1 /\
  0 < aT low_rain 1 /\ forall k, 0 < exner_of c low_rain k.
Proof.
  intros c. assert (0 < gas c /\ gas c < cp c /\ 0 < p0 c) as (A & B & C) by (cbn; lra).
  split; [exact A|]. split; [exact B|]. split; [exact C|]. split; [unfold rho_d; cbn; lra|]. split; [cbn; lra|]. intros k.
  pose proof (C103_exner 0 0 0 [] A B C low_rain k ltac:(cbn; lra) ltac:(cbn; lra)) as E. cbv zeta in E. fold c in E. rewrite E.
  apply Rdiv_lt_0_compat; [|lra]. unfold exner. apply Rmult_lt_0_compat; [lra|apply exp_pos].
Qed.

Print Assumptions C102_positive.
Print Assumptions C102_energy.
Print Assumptions C102_water.
Print Assumptions C102_exact.
Print Assumptions C102_courant.
Print Assumptions C102_saturation.
Print Assumptions C102_dry.
Print Assumptions C102_top_refuted.
Print Assumptions C102_long_refuted.
Print Assumptions C103_exner.
Print Assumptions C103_rain.
Print Assumptions C103_dry.
Print Assumptions C103_positive.
Print Assumptions C103_neutral.
Print Assumptions C103_level.
Print Assumptions C103_loss.
Print Assumptions C103_water_refuted.
Print Assumptions C104_dry.
Print Assumptions C104_neutral.
Print Assumptions C102_case.
Print Assumptions C104_case.
