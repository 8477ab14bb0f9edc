(** * InitializeVerticalCoordinate: property C84 *)
From Coq Require Import Reals List Arith Bool Lia Lra ZArith.
From Verif Require PhysModel PhysSpec PhysProps.
From Verif Require Import VertOps FluxSpec.
From Verif Require Import DiagModel QuadModel QuadSpec ColSpec ColProofs FemSpec LevModel LevSpec LevProofs LevProofs2 LevTables.
Import ListNotations.
Local Open Scope R_scope.

Definition staggered (st : staggering) : Prop := st = StLevels \/ st = StLorenz \/ st = StCharneyPhillips.
Definition nodes_per (volumes : bool) (order : nat) : nat := if volumes then 1%nat else order.
Definition listed (f : nat -> R) (n : nat) : list R := map f (seq 0 n).
Lemma nth_listed f n k : (k < n)%nat -> nth k (listed f n) 0 = f k.
Proof. intros H. unfold listed. rewrite (nth_indep _ 0 (f 0%nat)) by (rewrite map_length, seq_length; exact H). rewrite map_nth, seq_nth by exact H. reflexivity. Qed.

(** levels strictly inside elements, interfaces from 0 to 1, both increasing, at the
    places of the rules in elements whose bounds are equidistant or stretched; areas
    positive, with the total of the weights *)
Theorem C84_levels : forall gauss lobatto stretch st volumes order n ne G W GL WL, staggered st -> n = nodes_per volumes order -> (0 < n)%nat -> (0 < ne)%nat ->
  gauss n 0 1 = Some (G, W) -> lobatto (n + 1)%nat 0 1 = Some (GL, WL) -> unit_rule n G W -> open_rule G -> unit_rule (n + 1) GL WL -> closed_rule (n + 1) GL WL ->
  stretches (map_of stretch) ->
  exists c, make_coord gauss lobatto stretch 3 st volumes order (ne * n) = Made c /\
    rising (lev c) (ne * n) /\ rising (itf c) (ne * n + 1) /\ itf c 0%nat = 0 /\ itf c (ne * n)%nat = 1 /\
    (forall a i, (a < ne)%nat -> (i < n)%nat -> lev c (a * n + i)%nat = place (map_of stretch) ne a (nth i G 0) /\
       lar c (a * n + i)%nat = nth i W 0 * width (map_of stretch) ne a /\ 0 < lar c (a * n + i)%nat) /\
    (forall a i, (a < ne)%nat -> (i <= n)%nat -> itf c (a * n + i)%nat = place (map_of stretch) ne a (nth i GL 0)) /\
    (forall k, (k <= ne * n)%nat -> 0 < iar c k) /\
    sum (lar c) (ne * n) = sum (fun i => nth i W 0) n /\ sum (iar c) (ne * n + 1) = sum (fun i => nth i WL 0) (n + 1).
Proof.
  intros gauss lobatto stretch st volumes order n ne G W GL WL St En Hn Hne EG EL U O UL CL HF.
  destruct (levels_made gauss lobatto stretch n ne G W GL WL Hn Hne EG EL CL (proj1 HF)) as (c & E & B & Sh). exists c. split.
  { unfold make_coord. cbn [Nat.eqb negb]. unfold nodes_per in En. rewrite <- En. destruct St as [->|[->| ->]]; exact E. }
  destruct (blocks_rising _ ne Hne HF n G W _ _ Hn U O B) as (R1 & _). split; [exact R1|].
  split; [apply (shared_rising _ ne Hne HF n GL WL _ (iar c) Hn UL Sh)|].
  destruct (shared_ends _ ne Hne HF n GL WL _ _ Hn CL Sh) as (-> & ->). split; [reflexivity|]. split; [reflexivity|].
  assert (PW : forall m l i, Forall (fun w => 0 < w) l -> length l = m -> (i < m)%nat -> 0 < nth i l 0) by (intros m l i P L Hi; apply (proj1 (Forall_forall _ l) P), nth_In; lia).
  destruct U as (_ & LW & _ & _ & PWn). destruct UL as (_ & LWL & _ & _ & PWL).
  split.
  { intros a i Ha Hi. destruct (B a i Ha Hi) as (-> & ->). split; [reflexivity|]. split; [reflexivity|]. apply Rmult_lt_0_compat; [apply (PW n); assumption|apply width_pos; assumption]. }
  pose proof Sh as (S1 & S2 & S3 & S4 & S5). split; [exact S1|]. split.
  { intros k Hk. assert (P : forall i a, (i <= n)%nat -> (a < ne)%nat -> 0 < nth i WL 0 * width (map_of stretch) ne a) by (intros i a Hi Ha; apply Rmult_lt_0_compat; [apply (PW (n + 1)%nat); [assumption|assumption|lia]|apply width_pos; assumption]).
    destruct (Nat.eq_dec k (ne * n)) as [->|Nk]; [rewrite S4; apply P; lia|].
    pose proof (Nat.div_mod_eq k n) as D. pose proof (Nat.mod_upper_bound k n ltac:(lia)) as Ub. set (a := (k / n)%nat) in *. set (i := (k mod n)%nat) in *.
    assert (a < ne)%nat by nia. replace k with (a * n + i)%nat by nia. destruct (Nat.eq_dec i 0) as [->|Ni]; [|rewrite S2 by lia; apply P; lia].
    rewrite Nat.add_0_r. destruct (Nat.eq_dec a 0) as [->|Na]; [rewrite Nat.mul_0_l, S3; apply P; lia|]. rewrite S5 by lia. apply Rplus_lt_0_compat; apply P; lia. }
  split; [apply (blocks_total _ ne Hne HF n G W (lev c)), B|apply (shared_total _ ne Hne HF n GL WL (itf c)); [exact Hn|exact Sh]].
Qed.
(** the same for the levels of VerticalStaggering_Interfaces, which share element bounds
    and reach both ends of the column; the interfaces stay equidistant *)
Theorem C84_interfaces : forall gauss lobatto stretch order ne GL WL, (2 <= order)%nat -> (0 < ne)%nat ->
  lobatto order 0 1 = Some (GL, WL) -> unit_rule order GL WL -> closed_rule order GL WL -> stretches (map_of stretch) ->
  let K := (ne * (order - 1) + 1)%nat in
  exists c, make_coord gauss lobatto stretch 3 StInterfaces false order K = Made c /\
    rising (lev c) K /\ lev c 0%nat = 0 /\ lev c (K - 1)%nat = 1 /\
    (forall a i, (a < ne)%nat -> (i < order)%nat -> lev c (a * (order - 1) + i)%nat = place (map_of stretch) ne a (nth i GL 0)) /\
    (forall k, itf c k = INR k / INR K) /\
    sum (lar c) K = sum (fun i => nth i WL 0) order /\ sum (iar c) (K + 1) = 1.
Proof.
  intros gauss lobatto stretch order ne GL WL Ho Hne EL UL CL HF K.
  destruct (interfaces_made lobatto stretch order ne GL WL Ho Hne EL CL (proj1 HF)) as (c & E & Sh & I1 & I2). exists c. split; [exact E|].
  assert (Em : (order - 1 + 1 = order)%nat) by lia. rewrite <- Em in UL, CL.
  split; [apply (shared_rising _ ne Hne HF (order - 1) GL WL _ (lar c) ltac:(lia) UL Sh)|].
  destruct (shared_ends _ ne Hne HF (order - 1) GL WL _ _ ltac:(lia) CL Sh) as (E0 & E1). split; [exact E0|]. split; [unfold K; rewrite Nat.add_sub; exact E1|].
  split; [intros a i Ha Hi; apply (proj1 Sh); lia|]. split; [intros k; rewrite I1; unfold K, Rdiv; ring|]. split.
  - unfold K. rewrite (shared_total _ ne Hne HF (order - 1) GL WL (lev c) (lar c) ltac:(lia) Sh), Em. reflexivity.
  - rewrite I2. unfold K. rewrite (Nat.add_comm (ne * (order - 1)) 1). apply base_total. apply Nat.lt_0_succ.
Qed.
(** no function and the uniform function give the same column *)
Theorem C84_uniform : forall gauss lobatto st volumes order n ne G W GL WL c c', staggered st -> n = nodes_per volumes order -> (0 < n)%nat -> (0 < ne)%nat ->
  gauss n 0 1 = Some (G, W) -> lobatto (n + 1)%nat 0 1 = Some (GL, WL) -> closed_rule (n + 1) GL WL ->
  make_coord gauss lobatto None 3 st volumes order (ne * n) = Made c ->
  make_coord gauss lobatto (Some (fun x => fst (PhysModel.stretch_uniform x))) 3 st volumes order (ne * n) = Made c' ->
  (forall k, (k < ne * n)%nat -> lev c k = lev c' k /\ lar c k = lar c' k) /\ (forall k, (k <= ne * n)%nat -> itf c k = itf c' k /\ iar c k = iar c' k).
Proof.
  intros gauss lobatto st volumes order n ne G W GL WL c c' St En Hn Hne EG EL CL E E'.
  assert (M : forall s d, make_coord gauss lobatto s 3 st volumes order (ne * n) = Made d -> levels_coord gauss lobatto s (ne * n) n = Made d).
  { intros s d H. unfold make_coord in H. cbn [Nat.eqb negb] in H. unfold nodes_per in En. rewrite <- En in H. destruct St as [->|[->| ->]]; exact H. }
  apply M in E, E'.
  destruct (levels_made gauss lobatto None n ne G W GL WL Hn Hne EG EL CL eq_refl) as (d & Ed & B & Sh).
  destruct (levels_made gauss lobatto (Some (fun x => fst (PhysModel.stretch_uniform x))) n ne G W GL WL Hn Hne EG EL CL eq_refl) as (d' & Ed' & B' & Sh').
  assert (d = c) as -> by congruence. assert (d' = c') as -> by congruence. cbn [map_of] in *. change (fun x => fst (PhysModel.stretch_uniform x)) with (fun x : R => x) in *.
  assert (D : forall k, (k < ne * n)%nat -> exists a i, k = (a * n + i)%nat /\ (a < ne)%nat /\ (i < n)%nat).
  { intros k Hk. exists (k / n)%nat, (k mod n)%nat. pose proof (Nat.div_mod_eq k n). pose proof (Nat.mod_upper_bound k n ltac:(lia)). nia. }
  split.
  - intros k Hk. destruct (D k Hk) as (a & i & -> & Ha & Hi). destruct (B a i Ha Hi) as (-> & ->), (B' a i Ha Hi) as (-> & ->). split; reflexivity.
  - intros k Hk. destruct Sh as (A1 & A2 & A3 & A4 & A5), Sh' as (B1 & B2 & B3 & B4 & B5). destruct (Nat.eq_dec k (ne * n)) as [->|Nk].
    + split; [|rewrite A4, B4; reflexivity]. replace (ne * n)%nat with ((ne - 1) * n + n)%nat by nia. rewrite A1, B1 by lia. reflexivity.
    + destruct (D k ltac:(lia)) as (a & i & -> & Ha & Hi). split; [rewrite A1, B1 by lia; reflexivity|].
      destruct (Nat.eq_dec i 0) as [->|Ni]; [|rewrite A2, B2 by lia; reflexivity]. rewrite Nat.add_0_r. destruct (Nat.eq_dec a 0) as [->|Na]; [rewrite Nat.mul_0_l, A3, B3; reflexivity|]. rewrite A5, B5 by lia. reflexivity.
Qed.

(** ** with the tables and the functions of the code *)
(** the functions never squeeze a part of the column below a tenth of its size *)
Definition library (stretch : option (R -> R)) : Prop :=
  stretch = None \/ stretch = Some (fun x => fst (PhysModel.stretch_uniform x)) \/ stretch = Some (fun x => fst (PhysModel.stretch_cubic x)) \/
  stretch = Some (fun x => fst (PhysModel.stretch_piecewise x)).
Lemma library_ok stretch : library stretch -> stretches (map_of stretch) /\
  forall x y, 0 <= x -> x <= y -> y <= 1 -> 1 / 10 * (y - x) <= map_of stretch y - map_of stretch x.
Proof.
  destruct PhysProps.C39_column as (U & C & P). unfold PhysSpec.column_map in *.
  intros [->|[->|[->| ->]]]; cbn [map_of]; (split; [unfold stretches; first [now (repeat split; intros; lra)|tauto]|]).
  - intros; lra.
  - unfold PhysModel.stretch_uniform. cbn [fst]. intros; lra.
  - intros x y Hx Hy _. rewrite !PhysProps.cubic_value. assert (0 <= (y - x) * (8 * (x + y) + (x * x + x * y + y * y))); [|nra].
    apply Rmult_le_pos; [lra|]. assert (0 <= x * x /\ 0 <= x * y /\ 0 <= y * y) by (repeat split; apply Rmult_le_pos; lra). lra.
  - intros x y Hx Hy _. unfold PhysModel.stretch_piecewise. repeat destruct (Rlt_dec _ _); cbn [fst]; lra.
Qed.
Lemma library_width stretch ne a : library stretch -> (a < ne)%nat -> 1 / 10 / INR ne <= width (map_of stretch) ne a.
Proof.
  intros L Ha. destruct (library_ok stretch L) as (_ & H). unfold width, bound. assert (P : 0 < INR ne) by (apply lt_0_INR; lia).
  assert (E : INR (a + 1) / INR ne - INR a / INR ne = 1 / INR ne) by (rewrite plus_INR; cbn [INR]; field; lra).
  assert (0 < / INR ne) by (apply Rinv_0_lt_compat, P). pose proof (pos_INR a) as Pa.
  assert (A0 : 0 <= INR a / INR ne) by (apply Rmult_le_pos; lra).
  assert (A1 : INR (a + 1) / INR ne <= 1).
  { apply Rmult_le_reg_r with (INR ne); [exact P|]. unfold Rdiv. rewrite Rmult_assoc, Rinv_l, Rmult_1_r, Rmult_1_l by lra. apply le_INR. lia. }
  specialize (H (INR a / INR ne) (INR (a + 1) / INR ne) A0). rewrite E in H. specialize (H ltac:(unfold Rdiv in E; lra) A1). replace (1 / 10 / INR ne) with (1 / 10 * (1 / INR ne)) by (field; lra). exact H.
Qed.
Lemma spaced_listed f n d : / 10 ^ 11 <= d -> (forall i, (i + 1 < n)%nat -> f i + d <= f (i + 1)%nat) -> spaced (listed f n).
Proof.
  intros Hd H i j (Hij & Hj). unfold listed in Hj. rewrite map_length, seq_length in Hj. rewrite !nth_listed by lia.
  assert (0 < / 10 ^ 11) by (apply Rinv_0_lt_compat, pow_lt; lra).
  induction j as [|j IH]; [lia|]. pose proof (H j ltac:(lia)) as Hs. replace (j + 1)%nat with (S j) in Hs by lia.
  destruct (Nat.eq_dec i j) as [->|N]; [lra|]. specialize (IH ltac:(lia) ltac:(lia)). lra.
Qed.
(** orders 1 to 8 on levels, Lorenz and Charney-Phillips staggering, and finite volumes
    of any order: the column passes the check of the areas and meets the hypotheses of
    C50, C51, C59-C62 and C76 *)
Theorem C84_column : forall stretch st volumes order n ne, library stretch -> staggered st -> n = nodes_per volumes order -> (1 <= n <= 8)%nat -> (0 < ne)%nat -> INR ne <= 10 ^ 7 ->
  exists c, make_coord gauss_unit lobatto_unit stretch 3 st volumes order (ne * n) = Made c /\ areas_pass st (ne * n) c = true /\
    column n ne (listed (lev c) (ne * n)) (listed (itf c) (ne * n + 1)) /\ levels_inside n ne (listed (lev c) (ne * n)) (listed (itf c) (ne * n + 1)) /\
    (n = 1%nat -> forall k, (k < ne)%nat -> lar c k = FluxSpec.width 1 (listed (itf c) (ne * n + 1)) k).
Proof.
  intros stretch st volumes order n ne L St En Hn Hne Hb. destruct (library_ok stretch L) as (HF & _).
  destruct (gauss_units n Hn) as (G & W & EG & U & GG & GT & O & OG). destruct (lobatto_units (n + 1) ltac:(lia)) as (GL & WL & EL & UL & LG & LT & CL).
  destruct (C84_levels gauss_unit lobatto_unit stretch st volumes order n ne G W GL WL St En ltac:(lia) Hne EG EL U O UL CL HF) as (c & E & _ & _ & I0 & I1 & B & Sh & _ & T1 & T2).
  exists c. split; [exact E|]. split.
  { unfold areas_pass, far. rewrite !total_sum, T1, T2. destruct (Rlt_dec _ _) as [X|_]; [lra|]. destruct (Rlt_dec _ _) as [X|_]; [lra|]. destruct St as [->|[->| ->]]; reflexivity. }
  assert (P : 0 < INR ne) by (apply lt_0_INR; lia).
  assert (Q : / 10 ^ 10 <= 1 / 10 / INR ne * (1 / 100)).
  { apply Rmult_le_reg_r with (INR ne); [exact P|]. replace (1 / 10 / INR ne * (1 / 100) * INR ne) with (1 / 1000) by (field; lra). apply Rmult_le_reg_l with (10 ^ 10); [apply pow_lt; lra|].
    rewrite <- Rmult_assoc, Rinv_r, Rmult_1_l by (apply pow_nonzero; lra). lra. }
  assert (Wd : forall a g d, (a < ne)%nat -> 1 / 100 <= d -> place (map_of stretch) ne a g + / 10 ^ 10 <= place (map_of stretch) ne a (g + d)).
  { intros a g d Ha Hd. unfold place. pose proof (library_width stretch ne a L Ha) as Lw. unfold width in Lw.
    set (w := bound (map_of stretch) ne (a + 1) - bound (map_of stretch) ne a) in *. assert (P1 : 0 < 1 / 10 / INR ne) by (apply Rdiv_lt_0_compat; lra).
    assert (1 / 10 / INR ne * (1 / 100) <= w * d) by (apply Rmult_le_compat; lra). lra. }
  assert (E100 : IZR 200000000000000 / 20000000000000000 = 1 / 100) by field. rewrite E100 in GG, LG, OG.
  assert (H11 : / 10 ^ 11 <= / 10 ^ 10) by (apply Rinv_le_contravar; [apply pow_lt; lra|simpl; lra]).
  assert (H12 : / 10 ^ 12 < / 10 ^ 10) by (apply Rinv_lt_contravar; [apply Rmult_lt_0_compat; apply pow_lt; lra|simpl; lra]).
  destruct U as (LgG & LwW & _). destruct UL as (LgL & LwL & _).
  assert (Pl : forall a g h, (a < ne)%nat -> g + 1 / 100 <= h -> place (map_of stretch) ne a g + / 10 ^ 10 <= place (map_of stretch) ne a h) by (intros a g h Ha Hg; replace h with (g + (h - g)) by ring; apply Wd; [exact Ha|lra]).
  assert (Ed : forall a, (a <= ne)%nat -> itf c (a * n)%nat = bound (map_of stretch) ne a).
  { intros a Ha. destruct (Nat.eq_dec a ne) as [->|Na].
    - rewrite I1. unfold bound, Rdiv. rewrite Rinv_r by lra. symmetry. apply HF.
    - replace (a * n)%nat with (a * n + 0)%nat by lia. rewrite Sh by lia. unfold place. rewrite (proj1 (proj2 CL)). ring. }
  assert (Ins : forall a i, (a < ne)%nat -> (i < n)%nat -> bound (map_of stretch) ne a + / 10 ^ 10 <= lev c (a * n + i)%nat /\ lev c (a * n + i)%nat + / 10 ^ 10 <= bound (map_of stretch) ne (a + 1)).
  { intros a i Ha Hi. destruct (B a i Ha Hi) as (-> & _). pose proof (OG i ltac:(lia)) as (O1 & O2).
    pose proof (Pl a 0 (nth i G 0) Ha ltac:(lra)) as P1. pose proof (Pl a (nth i G 0) 1 Ha ltac:(lra)) as P2. unfold place in P1 at 1. unfold place in P2 at 2. split; lra. }
  split; [|split].
  - split; [lia|]. split; [lia|]. split; [unfold listed; rewrite map_length, seq_length; reflexivity|]. split; [unfold listed; rewrite map_length, seq_length; reflexivity|]. split.
    + apply spaced_listed with (/ 10 ^ 10); [exact H11|]. intros j Hj.
      pose proof (Nat.div_mod_eq j n) as D. pose proof (Nat.mod_upper_bound j n ltac:(lia)) as Ub. set (a := (j / n)%nat) in *. set (i := (j mod n)%nat) in *.
      assert (Ha : (a < ne)%nat) by nia. replace j with (a * n + i)%nat by nia. destruct (Nat.eq_dec (i + 1) n) as [Em|Nm].
      * replace (a * n + i + 1)%nat with ((a + 1) * n + 0)%nat by lia. pose proof (Ins a i Ha ltac:(lia)). pose proof (Ins (a + 1)%nat 0%nat ltac:(nia) ltac:(lia)).
        assert (0 < / 10 ^ 10) by (apply Rinv_0_lt_compat, pow_lt; lra). lra.
      * replace (a * n + i + 1)%nat with (a * n + (i + 1))%nat by lia. rewrite !(fun x y u v => proj1 (B x y u v)) by lia. apply Pl; [exact Ha|]. apply GG. lia.
    + apply spaced_listed with (/ 10 ^ 10); [exact H11|]. intros j Hj.
      pose proof (Nat.div_mod_eq j n) as D. pose proof (Nat.mod_upper_bound j n ltac:(lia)) as Ub. set (a := (j / n)%nat) in *. set (i := (j mod n)%nat) in *.
      assert (Ha : (a < ne)%nat) by nia. replace j with (a * n + i)%nat by nia. replace (a * n + i + 1)%nat with (a * n + (i + 1))%nat by lia. rewrite !Sh by lia. apply Pl; [exact Ha|]. apply LG. lia.
  - intros a i Ha Hi. unfold edge. rewrite !nth_listed by nia. rewrite !Ed by lia. pose proof (Ins a i Ha Hi). lra.
  - intros -> k Hk. pose proof (B k 0%nat Hk ltac:(lia)) as (_ & Hl & _). replace (k * 1 + 0)%nat with k in Hl by lia. rewrite Hl.
    assert (W0 : nth 0 W 0 = 1) by (vm_compute in EG; injection EG as _ <-; cbn [nth]; lra).
    unfold FluxSpec.width, edge. rewrite !nth_listed by nia. rewrite !Ed by lia. rewrite W0. unfold width. ring.
Qed.
(** VerticalStaggering_Interfaces with the tables passes the check as well *)
Theorem C84_interfaces_pass : forall stretch order ne, library stretch -> (2 <= order <= 10)%nat -> (0 < ne)%nat ->
  exists c, make_coord gauss_unit lobatto_unit stretch 3 StInterfaces false order (ne * (order - 1) + 1) = Made c /\ areas_pass StInterfaces (ne * (order - 1) + 1) c = true.
Proof.
  intros stretch order ne L Ho Hne. destruct (library_ok stretch L) as (HF & _). destruct (lobatto_units order Ho) as (GL & WL & EL & UL & _ & LT & CL).
  destruct (C84_interfaces gauss_unit lobatto_unit stretch order ne GL WL ltac:(lia) Hne EL UL CL HF) as (c & E & _ & _ & _ & _ & _ & T1 & _).
  exists c. split; [exact E|]. unfold areas_pass, far. rewrite !total_sum, T1. destruct (Rlt_dec _ _) as [X|_]; [lra|]. reflexivity.
Qed.
(** the column of two-dimensional equations *)
Theorem C84_flat : forall gauss lobatto stretch st volumes order, exists c, make_coord gauss lobatto stretch 2 st volumes order 1 = Made c /\
  areas_pass st 1 c = true /\ itf c 0%nat = 0 /\ itf c 1%nat = 1 /\ 0 < lev c 0%nat < 1.
Proof.
  intros. exists base2d. split; [reflexivity|]. split; [|cbn; lra].
  assert (Rabs (1 - 1) = 0) by (replace (1 - 1) with 0 by ring; apply Rabs_R0). assert (0 < / 10 ^ 13) by (apply Rinv_0_lt_compat, pow_lt; lra).
  unfold areas_pass, total, far. cbn [base2d lar iar seq fold_left plus]. replace (0 + 1) with 1 by ring. replace (0 + 1 / 2 + 1 / 2) with 1 by field.
  destruct (Rlt_dec _ _); [lra|]. destruct st; reflexivity.
Qed.
Lemma sum_shift f n : sum f (S n) = f 0%nat + sum (fun k => f (S k)) n.
Proof. induction n as [|n IH]; [rewrite sum_S, !sum_0; ring|]. rewrite sum_S, IH, sum_S. ring. Qed.
(** the coordinate of the base class: levels half way between interfaces, areas adding up to one *)
Theorem C84_base : forall K, (0 < K)%nat -> let c := base false K in
  (forall k, lev c k = (itf c k + itf c (S k)) / 2 /\ lar c k = itf c (S k) - itf c k) /\
  itf c 0%nat = 0 /\ itf c K = 1 /\ sum (lar c) K = 1 /\ sum (iar c) (K + 1) = 1.
Proof.
  intros K HK c. assert (P : 0 < INR K) by (apply lt_0_INR; exact HK). unfold c, base. cbn [lev itf lar iar andb].
  split; [intros k; rewrite S_INR; split; field; lra|]. split; [cbn [INR]; ring|]. split; [field; lra|].
  assert (T : forall n (x : R), sum (fun _ => x) n = INR n * x).
  { induction n as [|n IH]; intros x; [rewrite sum_0; cbn [INR]; ring|]. rewrite sum_S, IH, S_INR. ring. }
  split; [rewrite T; field; lra|].
  destruct K as [|K]; [lia|]. replace (S K + 1)%nat with (S (S K)) by lia. rewrite sum_S, sum_shift.
  cbn [Nat.eqb orb andb]. rewrite (sum_ext _ (fun _ => 1 / INR (S K)) K).
  2:{ intros k Hk. rewrite (proj2 (Nat.eqb_neq k K)) by lia. reflexivity. }
  rewrite T, Nat.eqb_refl. rewrite S_INR in *. field. lra.
Qed.
(** what the code rejects *)
Theorem C84_rejects : forall gauss lobatto stretch st volumes order K, staggered st -> (0 < nodes_per volumes order)%nat -> (K mod nodes_per volumes order <> 0)%nat ->
  make_coord gauss lobatto stretch 3 st volumes order K = Throws.
Proof.
  intros gauss lobatto stretch st volumes order K St Hn HK. assert (E : levels_coord gauss lobatto stretch K (nodes_per volumes order) = Throws).
  { unfold levels_coord. destruct (Nat.eqb_spec (nodes_per volumes order) 0); [lia|]. destruct (Nat.eqb_spec (K mod nodes_per volumes order) 0); [contradiction|reflexivity]. }
  unfold make_coord. cbn [Nat.eqb negb]. destruct St as [->|[->| ->]]; exact E.
Qed.
(** ** what fails *)
(** finite volumes (or order one) on VerticalStaggering_Interfaces divide by zero *)
Theorem C84_division_refuted : forall gauss lobatto stretch volumes order K, volumes = true \/ order = 1%nat ->
  make_coord gauss lobatto stretch 3 StInterfaces volumes order K = Zero_divide.
Proof. intros gauss lobatto stretch volumes order K [->| ->]; [reflexivity|destruct volumes; reflexivity]. Qed.
(** order nine: the tabulated rule contains both ends, so the last level of an element is
    the first of the next *)
Theorem C84_ninth_refuted : forall ne, (2 <= ne)%nat -> exists c, make_coord gauss_unit lobatto_unit None 3 StCharneyPhillips false 9 (ne * 9) = Made c /\ lev c 8%nat = lev c 9%nat.
Proof.
  intros ne Hne. destruct (table_ok 200000000000000 9
    [-10000000000000000; -8997579954114600; -6771862795107380; -3631174638261780; 0; 3631174638261780; 6771862795107380; 8997579954114600; 10000000000000000]%Z
    (match gauss_table 9 with Table _ w => w | _ => [] end)) as (G & W & EG & U & _ & _ & _ & C); [vm_compute; reflexivity|].
  destruct (C eq_refl) as (_ & G0 & G1 & _). cbn [Nat.sub] in G1.
  destruct (lobatto_units 10 ltac:(lia)) as (GL & WL & EL & _ & _ & _ & CL).
  destruct (levels_made gauss_unit lobatto_unit None 9 ne G W GL WL ltac:(lia) ltac:(lia) EG EL CL eq_refl) as (c & E & B & _).
  exists c. split; [exact E|]. pose proof (proj1 (B 0%nat 8%nat ltac:(lia) ltac:(lia))) as B8. pose proof (proj1 (B 1%nat 0%nat ltac:(lia) ltac:(lia))) as B9. cbn [Nat.mul Nat.add] in B8, B9.
  rewrite B8, B9. unfold place. rewrite G0, G1. cbn [plus]. ring.
Qed.
(** with VerticalStaggering_Interfaces the function moves the levels but not the
    interfaces: level 1 lies below interface 1 *)
Theorem C84_stretch_refuted : exists c, make_coord gauss_unit lobatto_unit (Some (fun x => fst (PhysModel.stretch_cubic x))) 3 StInterfaces false 2 3 = Made c /\
  lev c 1%nat < itf c 1%nat.
Proof.
  destruct (lobatto_units 2 ltac:(lia)) as (GL & WL & EL & UL & _ & _ & CL).
  destruct (C84_interfaces gauss_unit lobatto_unit (Some (fun x => fst (PhysModel.stretch_cubic x))) 2 2 GL WL ltac:(lia) ltac:(lia) EL UL CL (proj1 (library_ok _ ltac:(right; right; left; reflexivity)))) as (c & E & _ & _ & _ & P & I & _).
  exists c. split; [exact E|]. rewrite I. specialize (P 0%nat 1%nat ltac:(lia) ltac:(lia)). cbn [Nat.sub Nat.mul Nat.add] in P |- *. rewrite P. destruct CL as (_ & _ & G1 & _). cbn [Nat.sub] in G1.
  unfold place, bound. rewrite G1. cbn [map_of plus]. rewrite !PhysProps.cubic_value. simpl INR. lra.
Qed.
(** a function that does not end at one is found out by the check *)
Theorem C84_range : forall F ne, (0 < ne)%nat -> F 0 = 0 -> / 10 ^ 13 < Rabs (F 1 - 1) ->
  exists c, make_coord gauss_unit lobatto_unit (Some F) 3 StCharneyPhillips true 1 ne = Made c /\ areas_pass StCharneyPhillips ne c = false.
Proof.
  intros F ne Hne F0 F1. destruct (gauss_units 1 ltac:(lia)) as (G & W & EG & U & _). destruct (lobatto_units 2 ltac:(lia)) as (GL & WL & EL & _ & _ & _ & CL).
  destruct (levels_made gauss_unit lobatto_unit (Some F) 1 ne G W GL WL ltac:(lia) Hne EG EL CL F0) as (c & E & B & _). rewrite Nat.mul_1_r in E. exists c. split; [exact E|].
  assert (W0 : nth 0 W 0 = 1) by (vm_compute in EG; injection EG as _ <-; cbn [nth]; lra).
  assert (T : sum (lar c) ne = F 1).
  { rewrite (sum_ext _ (width F ne)).
    - rewrite sum_widths_to. unfold bound. cbn [INR]. unfold Rdiv. rewrite Rmult_0_l, F0, Rinv_r by (apply not_0_INR; lia). ring.
    - intros k Hk. pose proof (proj2 (B k 0%nat Hk ltac:(lia))) as H. replace (k * 1 + 0)%nat with k in H by lia. rewrite H, W0. cbn [map_of]. ring. }
  unfold areas_pass, far. rewrite total_sum, T. destruct (Rlt_dec _ _); [reflexivity|contradiction].
Qed.

Example C84_case : exists c, make_coord gauss_unit lobatto_unit (Some (fun x => fst (PhysModel.stretch_cubic x))) 3 StCharneyPhillips false 4 40 = Made c /\
  column 4 10 (listed (lev c) 40) (listed (itf c) 41) /\ lev c 5%nat < lev c 6%nat.
Proof.
  destruct (C84_column (Some (fun x => fst (PhysModel.stretch_cubic x))) StCharneyPhillips false 4 4 10) as (c & E & _ & C & _);
    [right; right; left; reflexivity|right; right; reflexivity|reflexivity|lia|lia|simpl; lra|]. exists c. split; [exact E|]. split; [exact C|].
  destruct C as (_ & _ & _ & _ & Sp & _). specialize (Sp 5%nat 6%nat). unfold listed in Sp at 1. rewrite map_length, seq_length in Sp. specialize (Sp ltac:(lia)).
  rewrite !nth_listed in Sp by lia. assert (0 < / 10 ^ 11) by (apply Rinv_0_lt_compat, pow_lt; lra). lra.
Qed.
Example C84_interfaces_case : exists c, make_coord gauss_unit lobatto_unit None 3 StInterfaces false 4 31 = Made c /\ areas_pass StInterfaces 31 c = true.
Proof. apply (C84_interfaces_pass None 4 10); [left; reflexivity|lia|lia]. Qed.

Print Assumptions C84_base.
Print Assumptions C84_levels.
Print Assumptions C84_interfaces.
Print Assumptions C84_uniform.
Print Assumptions C84_column.
Print Assumptions C84_interfaces_pass.
Print Assumptions C84_flat.
Print Assumptions C84_rejects.
Print Assumptions C84_division_refuted.
Print Assumptions C84_ninth_refuted.
Print Assumptions C84_stretch_refuted.
Print Assumptions C84_range.
Print Assumptions C84_case.
