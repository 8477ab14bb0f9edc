(** * The second derivative and the penalty on levels *)
From Coq Require Import Reals List Arith Lia Lra Bool.
From Verif Require Import QuadSpec InterpModel InterpSpec InterpProofs ColModel ColSpec ColProofs FemModel FemSpec FemProofs FemProofs2 FluxModel FluxSpec FluxProofs FluxProofs2 FluxProofs4 FluxProofs5.
Import ListNotations.
Local Open Scope R_scope.

Lemma concat_nth (L : list (list R)) o a k : (forall x, In x L -> length x = o) -> (k < o)%nat -> (a < length L)%nat ->
  nth (a * o + k) (concat L) 0 = nth k (nth a L []) 0.
Proof.
  revert a. induction L as [|x L IH]; intros a H Hk Ha; [cbn in Ha; lia|]. cbn [concat]. pose proof (H x (or_introl eq_refl)) as Lx.
  destruct a as [|a].
  - rewrite app_nth1 by (cbn; lia). reflexivity.
  - rewrite app_nth2 by (rewrite Lx; cbn; lia). rewrite Lx. replace (S a * o + k - o)%nat with (a * o + k)%nat by (cbn; lia).
    cbn [nth]. apply IH; [intros; apply H; right; assumption|exact Hk|cbn in Ha; lia].
Qed.
Lemma concat_length (L : list (list R)) o : (forall x, In x L -> length x = o) -> length (concat L) = (length L * o)%nat.
Proof.
  induction L as [|x L IH]; intros H; [reflexivity|]. cbn [concat length]. rewrite app_length, IH by (intros; apply H; right; assumption). rewrite (H x) by (left; reflexivity). lia.
Qed.
Lemma sum_shift f n : sum (fun a => f (S a)) n = sum f (S n) - f 0%nat.
Proof. induction n as [|n IH]; [rewrite sum_S, !sum_0; ring|]. rewrite sum_S, IH. rewrite (sum_S f (S n)). ring. Qed.
(** loops that subtract and add *)
Lemma minus_loop (f : nat -> option R) v n : (forall k, (k < n)%nat -> f k = Some (v k)) ->
  forall x, loop (fun k s => t <- f k; Some (s - t)) (seq 0 n) x = Some (x - sum v n).
Proof.
  intros H x. destruct (loop_inv (fun k s => s = x - sum v k) (fun k s => t <- f k; Some (s - t)) n 0 x) as (s & E & I).
  - rewrite sum_0. ring.
  - intros k s Hk ->. rewrite H by lia. cbn [bind]. eexists. split; [reflexivity|]. rewrite sum_S. ring.
  - rewrite E, I. reflexivity.
Qed.

Lemma block_map off c w k : block off (map (fun x => w * x) c) k = w * block off c k.
Proof.
  unfold block. rewrite map_length. destruct ((off <=? k) && (k <? off + length c))%bool%nat eqn:B; [|ring].
  apply andb_true_iff in B. destruct B as (B1 & B2). apply Nat.leb_le in B1. apply Nat.ltb_lt in B2.
  rewrite (nth_indep _ 0 (w * 0)) by (rewrite map_length; lia). apply (map_nth (fun x => w * x)).
Qed.

Section Levels.
Context (sol : nat -> nat -> nat -> R) (o ne : nat) (nodes edges : list R) (C : column o ne nodes edges).
Context (Sol : solves (o + 1 + 1) (van 2 (o + 1)) rhs (sol 2%nat (o + 1)%nat)).
Let Ho : (0 < o)%nat := proj1 C.
Let Hne : (0 < ne)%nat := proj1 (proj2 C).
Let Ln : length nodes = (ne * o)%nat := proj1 (proj2 (proj2 C)).
Let Le : length edges = (ne * o + 1)%nat := proj1 (proj2 (proj2 (proj2 C))).
Let Sn : spaced nodes := proj1 (proj2 (proj2 (proj2 (proj2 C)))).
Let n := length nodes.
Let E := edge o edges.
Let Ed := edge_lt o ne nodes edges C.
Let Fi := fits o ne nodes edges C.
Let RdE := rd_edge o ne nodes edges C.
Let Sub := element_sub o ne nodes edges C.
Let DV : (length nodes / o)%nat = ne.
Proof. rewrite Ln. apply Nat.div_mul. lia. Qed.
Let MV : (length nodes mod o)%nat = 0%nat.
Proof. rewrite Ln. apply Nat.mod_mul. lia. Qed.

Definition ld (a : nat) (y : R) : list R := match diff o (fun j => nth (a * o + j) nodes 0) y with Some c => c | None => [] end.
Definition lv (a : nat) (y : R) : list R := match lagrange o (fun j => nth (a * o + j) nodes 0) y with Some c => c | None => [] end.
Lemma ld_ok a y : (a < ne)%nat -> diff o (fun j => nth (a * o + j) nodes 0) y = Some (ld a y) /\ length (ld a y) = o /\
  forall u p g, interpolates o nodes (a * o) u p -> (forall x, derivable_pt_lim (peval p) x (g x)) ->
    sum (fun l => block (a * o) (ld a y) l * u l) n = g y /\ sum (fun i => nth i (ld a y) 0 * u (a * o + i)%nat) o = g y.
Proof.
  intros H. destruct (element_diff o ne nodes edges C a y H) as (c & Ec & Lc & V). unfold ld. rewrite Ec. split; [reflexivity|]. split; [exact Lc|].
  intros u p g Hp Hg. rewrite <- (V u p g Hp Hg). split; [reflexivity|]. rewrite block_sum by (rewrite Lc; apply Fi, H). rewrite Lc. reflexivity.
Qed.
Lemma lv_ok a y : (a < ne)%nat -> lagrange o (fun j => nth (a * o + j) nodes 0) y = Some (lv a y) /\ length (lv a y) = o /\
  forall u p, interpolates o nodes (a * o) u p ->
    sum (fun l => block (a * o) (lv a y) l * u l) n = peval p y /\ sum (fun i => nth i (lv a y) 0 * u (a * o + i)%nat) o = peval p y.
Proof.
  intros H. destruct (element_value o ne nodes edges C a y H) as (c & Ec & Lc & V). unfold lv. rewrite Ec. split; [reflexivity|]. split; [exact Lc|].
  intros u p Hp. rewrite <- (V u p Hp). split; [reflexivity|]. rewrite block_sum by (rewrite Lc; apply Fi, H). rewrite Lc. reflexivity.
Qed.
(** the interpolant of a unit column is a weight *)
Lemma unit_value a j y : (a < ne)%nat -> (j < o)%nat -> interpolate o (fun k => nth (a * o + k) nodes 0) (unit_column j) y = Some (nth j (lv a y) 0).
Proof.
  intros Ha Hj. set (x := fun k => nth (a * o + k) nodes 0).
  assert (Dx : distinct o x) by (apply run_distinct; [exact Sn|apply Fi, Ha]).
  assert (EL : lv a y = map (fun i => D x i 0 (others o i) y) (seq 0 o)).
  { unfold lv. fold x. unfold lagrange. rewrite (fill_map _ (fun i => D x i 0 (others o i) y)); [reflexivity|]. intros i Hi. apply in_seq in Hi. apply lagrange1_ok; [exact Dx|lia]. }
  rewrite EL, nth_map_seq by exact Hj. unfold interpolate.
  destruct (loop_inv (fun k v => v = if (j <? k)%nat then D x j 0 (others o j) y else 0)
    (fun i v => c <- lagrange1 o x y i; Some (v + c * unit_column j i)) o 0 0) as (s & Es & I).
  - reflexivity.
  - intros k v Hk ->. rewrite lagrange1_ok by (try exact Dx; lia). cbn [bind]. eexists. split; [reflexivity|]. unfold unit_column.
    destruct (Nat.eqb_spec k j) as [Ek|Nk], (Nat.ltb_spec j k), (Nat.ltb_spec j (S k)); try lia; try ring.
    subst k. ring.
  - rewrite Es, I. cbn [Nat.add]. destruct (Nat.ltb_spec j o); [reflexivity|lia].
Qed.

(** *** the second derivative *)
Section Second.
Context (gauss : nat -> R -> R -> option (list R * list R)) (GG : gives gauss o).
Context (Gnz : forall a b i, a < b -> (i < o)%nat -> rule_weight gauss o a b i <> 0).
Definition qw (a i : nat) : R := rule_weight gauss o (E a) (E (a + 1)%nat) i.
Let s1 := cslope sol o 1.
Definition levels_value (a j : nat) (u : nat -> R) (p : nat -> list R) (g : nat -> R -> R) : R :=
  (- sum (fun k => nth j (ld a (nth (a * o + k) nodes 0)) 0 * g a (nth (a * o + k) nodes 0) * qw a k) o
   + nth j (lv a (E (a + 1)%nat)) 0 * edge_flux s1 o ne edges p g a (a + 1)
   - nth j (lv a (E a)) 0 * edge_flux s1 o ne edges p g a a) / qw a j.
Lemma diffusion_row_ok W a j : (a < ne)%nat -> (j < o)%nat -> length W = n -> (forall k, (k < o)%nat -> nth (a * o + k) W 0 = qw a k) ->
  exists r b e, diffusion_row sol o ne nodes edges W (a * o + j) = Some (r, b, e) /\ good n (r, b, e) /\
    forall u p g, (forall i, (i < ne)%nat -> interpolates o nodes (i * o) u (p i)) ->
      (forall i x, (i < ne)%nat -> derivable_pt_lim (peval (p i)) x (g i x)) ->
      sum (fun k => val r k * u k) n = levels_value a j u p g.
Proof.
  intros Ha Hj LW HW. unfold diffusion_row. fold n.
  replace ((a * o + j) / o)%nat with a by (rewrite Nat.div_add_l by lia; rewrite Nat.div_small by lia; lia).
  replace ((a * o + j) mod o)%nat with j by (rewrite Nat.add_comm, Nat.mod_add by lia; rewrite Nat.mod_small by lia; lia).
  pose proof (Fi a Ha) as Fa. fold n in Fa. rewrite (RdE a), (RdE (a + 1)%nat) by lia. fold E. cbn [bind]. pose proof (Ed a Ha) as ED. fold E in ED.
  rewrite correction_slope_ok by exact Ho. cbn [bind]. fold s1. rewrite div_ok by lra. cbn [bind].
  set (d := s1 / (E (a + 1)%nat - E a)). rewrite (Sub a Ha). cbn [bind].
  rewrite (collect_map _ (fun k => ld a (nth (a * o + k) nodes 0))).
  2:{ intros k Hk. apply in_seq in Hk. rewrite rd_ok by (fold n; lia). cbn [bind]. apply (ld_ok a _ Ha). }
  cbn [bind]. set (D := map _ _).
  assert (LD : length D = o) by (unfold D; rewrite map_length, seq_length; reflexivity).
  assert (ND : forall i, (i < o)%nat -> nth i D [] = ld a (nth (a * o + i) nodes 0)) by (intros i Hi; unfold D; rewrite nth_map_seq by exact Hi; reflexivity).
  assert (LDi : forall i, (i < o)%nat -> length (nth i D []) = o) by (intros i Hi; rewrite ND by exact Hi; apply (ld_ok a _ Ha)).
  set (kv := fun i => - sum (fun k => nth j (ld a (nth (a * o + k) nodes 0)) 0 * nth i (ld a (nth (a * o + k) nodes 0)) 0 * qw a k) o).
  rewrite (fill_map _ kv).
  2:{ intros i Hi. apply in_seq in Hi. unfold kv.
      destruct (loop_inv (fun k s => s = - sum (fun k => nth j (ld a (nth (a * o + k) nodes 0)) 0 * nth i (ld a (nth (a * o + k) nodes 0)) 0 * qw a k) k)
        (fun k v => dj <- rd2 D k j; di <- rd2 D k i; w <- rd W (a * o + k); Some (v - dj * di * w)) o 0 0) as (s & Es & I).
      - rewrite sum_0. ring.
      - intros k s Hk ->. rewrite !(rd2_ok D o o) by (auto; lia). cbn [bind]. rewrite rd_ok by lia. cbn [bind]. eexists. split; [reflexivity|].
        rewrite sum_S, !ND, HW by lia. ring.
      - rewrite Es, I. reflexivity. }
  cbn [bind]. set (k0 := map kv (seq 0 o)). assert (L0 : length k0 = o) by (unfold k0; rewrite map_length, seq_length; reflexivity).
  destruct (put_is n (zero_row n) (fun _ => 0) (a * o) k0 (zero_is n)) as (r0 & E0 & R0); [lia|reflexivity|]. rewrite E0. cbn [bind].
  rewrite !unit_value by assumption. cbn [bind]. set (pl := nth j (lv a (E a)) 0). set (pr := nth j (lv a (E (a + 1)%nat)) 0).
  set (f0 := fun k => 0 + block (a * o) k0 k) in R0.
  assert (V0 : forall u p g, (forall i, (i < ne)%nat -> interpolates o nodes (i * o) u (p i)) ->
      (forall i x, (i < ne)%nat -> derivable_pt_lim (peval (p i)) x (g i x)) ->
      sum (fun k => f0 k * u k) n = - sum (fun k => nth j (ld a (nth (a * o + k) nodes 0)) 0 * g a (nth (a * o + k) nodes 0) * qw a k) o).
  { intros u p g Hp Hg. unfold f0. rewrite sum_add2, sum_0l, block_sum, L0 by lia.
    rewrite (sum_ext _ (fun i => sum (fun k => -1 * (nth j (ld a (nth (a * o + k) nodes 0)) 0 * qw a k) * (nth i (ld a (nth (a * o + k) nodes 0)) 0 * u (a * o + i)%nat)) o)).
    2:{ intros i Hi. unfold k0. rewrite nth_map_seq by exact Hi. unfold kv.
        replace (- sum _ o * u (a * o + i)%nat) with (-1 * u (a * o + i)%nat * sum (fun k => nth j (ld a (nth (a * o + k) nodes 0)) 0 * nth i (ld a (nth (a * o + k) nodes 0)) 0 * qw a k) o) by ring.
        rewrite <- sum_scale. apply sum_ext. intros; ring. }
    rewrite sum_swap. replace (- sum _ o) with (-1 * sum (fun k => nth j (ld a (nth (a * o + k) nodes 0)) 0 * g a (nth (a * o + k) nodes 0) * qw a k) o) by ring.
    rewrite <- sum_scale, Rplus_0_l. apply sum_ext. intros k Hk. rewrite sum_scale.
    destruct (ld_ok a (nth (a * o + k) nodes 0) Ha) as (_ & _ & X). destruct (X u (p a) (g a) (Hp a Ha) (fun x => Hg a x Ha)) as (_ & ->). ring. }
  assert (Z0 : forall k, ~ (a * o <= k < a * o + o)%nat -> f0 k = 0) by (intros k Nk; unfold f0; rewrite block_out by lia; ring).
  clearbody f0. clear E0.
  (* slope through the lower edge *)
  assert (S1 : exists r1 f1, (if negb (a =? 0)%nat then
           c <- diff o (fun j => nth (a * o + j) nodes 0) (E a); r <- add r0 (a * o) (- (1 / 2 * pl)) c;
           y <- sub nodes (a * o - o) o; c' <- diff o y (E a); add r (a * o - o) (- (1 / 2 * pl)) c'
         else Some r0) = Some r1 /\ row_is n r1 f1 /\
         (forall k, (k < n)%nat -> ~ (pred a * o <= k < (a + 1) * o)%nat -> f0 k = 0 -> f1 k = 0) /\
         forall u p g, (forall i, (i < ne)%nat -> interpolates o nodes (i * o) u (p i)) ->
           (forall i x, (i < ne)%nat -> derivable_pt_lim (peval (p i)) x (g i x)) ->
           sum (fun k => f1 k * u k) n = sum (fun k => f0 k * u k) n - pl * (if (a =? 0)%nat then 0 else 1 / 2 * (g (a - 1)%nat (E a) + g a (E a)))).
  { destruct (Nat.eqb_spec a 0) as [A0|A0]; cbn [negb].
    - exists r0, f0. split; [reflexivity|]. split; [exact R0|]. split; [auto|]. intros; ring.
    - assert (Ha1 : (a - 1 < ne)%nat) by lia. pose proof (Fi _ Ha1) as Fb. fold n in Fb.
      destruct (ld_ok a (E a) Ha) as (Ec & Lc & Vc). rewrite Ec. cbn [bind].
      destruct (add_is n r0 f0 (a * o) (- (1 / 2 * pl)) (ld a (E a)) R0) as (r & Er & Rr); [lia|]. rewrite Er. cbn [bind].
      replace (a * o - o)%nat with ((a - 1) * o)%nat by nia. rewrite (Sub (a - 1)%nat Ha1). cbn [bind].
      destruct (ld_ok (a - 1) (E a) Ha1) as (Ec' & Lc' & Vc'). rewrite Ec'. cbn [bind].
      destruct (add_is n r _ ((a - 1) * o) (- (1 / 2 * pl)) (ld (a - 1) (E a)) Rr) as (r1 & Er1 & Rr1); [lia|].
      exists r1. eexists. split; [exact Er1|]. split; [exact Rr1|]. split.
      + intros k Hk Nk Zk. cbv beta. rewrite Zk, !block_out by (rewrite ?Lc, ?Lc'; nia). ring.
      + intros u p g Hp Hg. rewrite !sum_lin2. destruct (Vc u (p a) (g a) (Hp a Ha) (fun x => Hg a x Ha)) as (-> & _).
        destruct (Vc' u (p (a - 1)%nat) (g (a - 1)%nat) (Hp _ Ha1) (fun x => Hg _ x Ha1)) as (-> & _). ring. }
  destruct S1 as (r1 & f1 & E1 & R1 & Z1 & V1). rewrite E1. cbn [bind]. clear E1.
  assert (S2 : exists r2 f2, (if negb (a =? ne - 1)%nat then
           c <- diff o (fun j => nth (a * o + j) nodes 0) (E (a + 1)%nat); r <- add r1 (a * o) (1 / 2 * pr) c;
           y <- sub nodes (a * o + o) o; c' <- diff o y (E (a + 1)%nat); add r (a * o + o) (1 / 2 * pr) c'
         else Some r1) = Some r2 /\ row_is n r2 f2 /\
         (forall k, (k < n)%nat -> ~ (a * o <= k < (if (a =? ne - 1)%nat then a + 1 else a + 2) * o)%nat -> f1 k = 0 -> f2 k = 0) /\
         forall u p g, (forall i, (i < ne)%nat -> interpolates o nodes (i * o) u (p i)) ->
           (forall i x, (i < ne)%nat -> derivable_pt_lim (peval (p i)) x (g i x)) ->
           sum (fun k => f2 k * u k) n = sum (fun k => f1 k * u k) n + pr * (if (a =? ne - 1)%nat then 0 else 1 / 2 * (g a (E (a + 1)%nat) + g (a + 1)%nat (E (a + 1)%nat)))).
  { destruct (Nat.eqb_spec a (ne - 1)) as [A0|A0]; cbn [negb].
    - exists r1, f1. split; [reflexivity|]. split; [exact R1|]. split; [auto|]. intros; ring.
    - assert (Ha1 : (a + 1 < ne)%nat) by lia. pose proof (Fi _ Ha1) as Fb. fold n in Fb.
      destruct (ld_ok a (E (a + 1)%nat) Ha) as (Ec & Lc & Vc). rewrite Ec. cbn [bind].
      destruct (add_is n r1 f1 (a * o) (1 / 2 * pr) (ld a (E (a + 1)%nat)) R1) as (r & Er & Rr); [lia|]. rewrite Er. cbn [bind].
      replace (a * o + o)%nat with ((a + 1) * o)%nat by nia. rewrite (Sub (a + 1)%nat Ha1). cbn [bind].
      destruct (ld_ok (a + 1) (E (a + 1)%nat) Ha1) as (Ec' & Lc' & Vc'). rewrite Ec'. cbn [bind].
      destruct (add_is n r _ ((a + 1) * o) (1 / 2 * pr) (ld (a + 1) (E (a + 1)%nat)) Rr) as (r2 & Er2 & Rr2); [lia|].
      exists r2. eexists. split; [exact Er2|]. split; [exact Rr2|]. split.
      + intros k Hk Nk Zk. cbv beta. rewrite Zk, !block_out by (rewrite ?Lc, ?Lc'; nia). ring.
      + intros u p g Hp Hg. rewrite !sum_lin2. destruct (Vc u (p a) (g a) (Hp a Ha) (fun x => Hg a x Ha)) as (-> & _).
        destruct (Vc' u (p (a + 1)%nat) (g (a + 1)%nat) (Hp _ Ha1) (fun x => Hg _ x Ha1)) as (-> & _). ring. }
  destruct S2 as (r2 & f2 & E2 & R2 & Z2 & V2). rewrite E2. cbn [bind]. clear E2.
  assert (S3 : exists r3 f3, (if (a + 1 <? ne)%nat then
           y <- sub nodes (a * o + o) o; cr <- lagrange o y (E (a + 1)%nat); cl <- lagrange o (fun j => nth (a * o + j) nodes 0) (E (a + 1)%nat);
           r <- add r2 (a * o) (- (1 / 2 * pr * d)) cl; add r (a * o + o) (1 / 2 * pr * d) cr
         else Some r2) = Some r3 /\ row_is n r3 f3 /\
         (forall k, (k < n)%nat -> ~ (a * o <= k < (if (a =? ne - 1)%nat then a + 1 else a + 2) * o)%nat -> f2 k = 0 -> f3 k = 0) /\
         forall u p g, (forall i, (i < ne)%nat -> interpolates o nodes (i * o) u (p i)) ->
           (forall i x, (i < ne)%nat -> derivable_pt_lim (peval (p i)) x (g i x)) ->
           sum (fun k => f3 k * u k) n = sum (fun k => f2 k * u k) n + pr * (if (a =? ne - 1)%nat then 0 else 1 / 2 * d * step o edges p (a + 1))).
  { destruct (Nat.eqb_spec a (ne - 1)) as [A0|A0], (Nat.ltb_spec (a + 1) ne) as [B0|B0]; try lia.
    - exists r2, f2. split; [reflexivity|]. split; [exact R2|]. split; [auto|]. intros; ring.
    - replace (a * o + o)%nat with ((a + 1) * o)%nat by nia. pose proof (Fi _ B0) as Fb. fold n in Fb. rewrite (Sub (a + 1)%nat B0). cbn [bind].
      destruct (lv_ok (a + 1) (E (a + 1)%nat) B0) as (Ec' & Lc' & Vc'). rewrite Ec'. cbn [bind].
      destruct (lv_ok a (E (a + 1)%nat) Ha) as (Ec & Lc & Vc). rewrite Ec. cbn [bind].
      destruct (add_is n r2 f2 (a * o) (- (1 / 2 * pr * d)) (lv a (E (a + 1)%nat)) R2) as (r & Er & Rr); [lia|]. rewrite Er. cbn [bind].
      destruct (add_is n r _ ((a + 1) * o) (1 / 2 * pr * d) (lv (a + 1) (E (a + 1)%nat)) Rr) as (r3 & Er3 & Rr3); [lia|].
      exists r3. eexists. split; [exact Er3|]. split; [exact Rr3|]. split.
      + intros k Hk Nk Zk. cbv beta. rewrite Zk, !block_out by (rewrite ?Lc, ?Lc'; nia). ring.
      + intros u p g Hp Hg. rewrite !sum_lin2. destruct (Vc u (p a) (Hp a Ha)) as (-> & _). destruct (Vc' u (p (a + 1)%nat) (Hp _ B0)) as (-> & _).
        unfold step. replace (a + 1 - 1)%nat with a by lia. fold E. ring. }
  destruct S3 as (r3 & f3 & E3 & R3 & Z3 & V3). rewrite E3. cbn [bind]. clear E3.
  assert (S4 : exists r4 f4, (if (0 <? a)%nat then
           cr <- lagrange o (fun j => nth (a * o + j) nodes 0) (E a); y <- sub nodes (a * o - o) o; cl <- lagrange o y (E a);
           r <- add r3 (a * o - o) (1 / 2 * pl * d) cl; add r (a * o) (- (1 / 2 * pl * d)) cr
         else Some r3) = Some r4 /\ row_is n r4 f4 /\
         (forall k, (k < n)%nat -> ~ (pred a * o <= k < (a + 1) * o)%nat -> f3 k = 0 -> f4 k = 0) /\
         forall u p g, (forall i, (i < ne)%nat -> interpolates o nodes (i * o) u (p i)) ->
           (forall i x, (i < ne)%nat -> derivable_pt_lim (peval (p i)) x (g i x)) ->
           sum (fun k => f4 k * u k) n = sum (fun k => f3 k * u k) n - pl * (if (a =? 0)%nat then 0 else 1 / 2 * d * step o edges p a)).
  { destruct (Nat.eqb_spec a 0) as [A0|A0], (Nat.ltb_spec 0 a) as [B0|B0]; try lia.
    - exists r3, f3. split; [reflexivity|]. split; [exact R3|]. split; [auto|]. intros; ring.
    - assert (Ha1 : (a - 1 < ne)%nat) by lia. pose proof (Fi _ Ha1) as Fb. fold n in Fb.
      destruct (lv_ok a (E a) Ha) as (Ec & Lc & Vc). rewrite Ec. cbn [bind].
      replace (a * o - o)%nat with ((a - 1) * o)%nat by nia. rewrite (Sub (a - 1)%nat Ha1). cbn [bind].
      destruct (lv_ok (a - 1) (E a) Ha1) as (Ec' & Lc' & Vc'). rewrite Ec'. cbn [bind].
      destruct (add_is n r3 f3 ((a - 1) * o) (1 / 2 * pl * d) (lv (a - 1) (E a)) R3) as (r & Er & Rr); [lia|]. rewrite Er. cbn [bind].
      destruct (add_is n r _ (a * o) (- (1 / 2 * pl * d)) (lv a (E a)) Rr) as (r4 & Er4 & Rr4); [lia|].
      exists r4. eexists. split; [exact Er4|]. split; [exact Rr4|]. split.
      + intros k Hk Nk Zk. cbv beta. rewrite Zk, !block_out by (rewrite ?Lc, ?Lc'; nia). ring.
      + intros u p g Hp Hg. rewrite !sum_lin2. destruct (Vc u (p a) (Hp a Ha)) as (-> & _). destruct (Vc' u (p (a - 1)%nat) (Hp _ Ha1)) as (-> & _).
        unfold step. fold E. ring. }
  destruct S4 as (r4 & f4 & E4 & R4 & Z4 & V4). rewrite E4. cbn [bind]. clear E4.
  rewrite rd_ok by lia. cbn [bind]. rewrite HW by exact Hj.
  assert (Q0 : qw a j <> 0) by (unfold qw; apply Gnz; assumption). rewrite div_ok by exact Q0. cbn [bind].
  destruct (modify_is n r4 f4 (fun v => v / qw a j) R4) as (r5 & E5 & R5). rewrite E5. cbn [bind].
  do 3 eexists. split; [reflexivity|]. destruct R5 as (L5 & V5).
  split.
  - split; [exact L5|]. assert (NN : n = (ne * o)%nat) by exact Ln. split; [destruct (Nat.eqb_spec a (ne - 1)); nia|].
    intros k Hk Nk. rewrite V5 by exact Hk.
    rewrite Z4; [unfold Rdiv; ring|exact Hk|destruct (Nat.eqb_spec a 0), (Nat.eqb_spec a (ne - 1)); nia|].
    apply Z3; [exact Hk|destruct (Nat.eqb_spec a 0), (Nat.eqb_spec a (ne - 1)); nia|].
    apply Z2; [exact Hk|destruct (Nat.eqb_spec a 0), (Nat.eqb_spec a (ne - 1)); nia|].
    apply Z1; [exact Hk|destruct (Nat.eqb_spec a 0), (Nat.eqb_spec a (ne - 1)); nia|].
    apply Z0. destruct (Nat.eqb_spec a 0), (Nat.eqb_spec a (ne - 1)); nia.
  - intros u p g Hp Hg. rewrite (sum_ext _ (fun k => (f4 k / qw a j) * u k)) by (intros k Hk; rewrite V5 by exact Hk; reflexivity).
    rewrite sum_div2, (V4 u p g Hp Hg), (V3 u p g Hp Hg), (V2 u p g Hp Hg), (V1 u p g Hp Hg), (V0 u p g Hp Hg).
    unfold levels_value. f_equal. fold pl pr. unfold edge_flux. fold E. unfold width. fold E. fold d.
    replace (a + 1 - 1)%nat with a by lia.
    destruct (Nat.eqb_spec a 0), (Nat.eqb_spec a (ne - 1)), (Nat.eqb_spec (a + 1) 0), (Nat.eqb_spec (a + 1) ne), (Nat.eqb_spec a ne); cbn [orb]; try lia; ring.
Qed.
Lemma node_weights_ok : exists W, node_weights gauss o ne edges = Some W /\ length (concat W) = n /\ forall a k, (a < ne)%nat -> (k < o)%nat -> nth (a * o + k) (concat W) 0 = qw a k.
Proof.
  set (h := fun a => match gauss o (E a) (E (a + 1)%nat) with Some (_, W) => W | None => [] end).
  assert (LH : forall a, (a < ne)%nat -> length (h a) = o).
  { intros a Ha. unfold h. destruct (GG (E a) (E (a + 1)%nat) (Ed a Ha)) as (G & W & -> & _ & L). exact L. }
  assert (LM : forall x, In x (map h (seq 0 ne)) -> length x = o).
  { intros x Hx. apply in_map_iff in Hx. destruct Hx as (a & <- & Ha). apply in_seq in Ha. apply LH. lia. }
  exists (map h (seq 0 ne)). split; [|split].
  - unfold node_weights. apply collect_map. intros a Ha. apply in_seq in Ha. rewrite (RdE a), (RdE (a + 1)%nat) by lia. fold E. cbn [bind].
    pose proof (LH a ltac:(lia)) as L. unfold h in *. destruct (GG (E a) (E (a + 1)%nat) (Ed a ltac:(lia))) as (G & W & EG & _ & _). rewrite EG in *. cbn [bind snd].
    rewrite L, Nat.eqb_refl. reflexivity.
  - rewrite (concat_length _ o LM), map_length, seq_length. symmetry. exact Ln.
  - intros a k Ha Hk. rewrite (concat_nth _ o) by (try assumption; rewrite map_length, seq_length; exact Ha). rewrite nth_map_seq by exact Ha.
    unfold h, qw, rule_weight. destruct (GG (E a) (E (a + 1)%nat) (Ed a Ha)) as (G & W & -> & _). reflexivity.
Qed.
Lemma split_index l : (l < n)%nat -> exists a j, l = (a * o + j)%nat /\ (a < ne)%nat /\ (j < o)%nat.
Proof.
  intros Hl. exists (l / o)%nat, (l mod o)%nat. split; [rewrite Nat.mul_comm; apply Nat.div_mod; lia|]. split; [|apply Nat.mod_upper_bound; lia].
  apply Nat.div_lt_upper_bound; [lia|]. unfold n in Hl. rewrite Ln in Hl. lia.
Qed.
Lemma diffusion_levels_ok : exists A, diffusion_levels sol gauss o nodes edges = Built A /\ wf A /\ nrow A = n /\ ncol A = n /\
  forall u p g, (forall i, (i < ne)%nat -> interpolates o nodes (i * o) u (p i)) ->
    (forall i x, (i < ne)%nat -> derivable_pt_lim (peval (p i)) x (g i x)) ->
    forall a j, (a < ne)%nat -> (j < o)%nat -> apply1 A u (a * o + j)%nat = levels_value a j u p g.
Proof.
  unfold diffusion_levels. destruct (Nat.eqb_spec o 0); [lia|]. destruct (Nat.eqb_spec (length nodes) 0); [rewrite Ln in *; nia|].
  rewrite MV, DV. cbn [Nat.eqb negb]. destruct node_weights_ok as (W & -> & LW & HW).
  destruct (build_ok (length nodes) (length nodes) (diffusion_row sol o ne nodes edges (concat W))
    (fun l v b e => forall a j, l = (a * o + j)%nat -> (a < ne)%nat -> (j < o)%nat -> forall u p g, (forall i, (i < ne)%nat -> interpolates o nodes (i * o) u (p i)) ->
      (forall i x, (i < ne)%nat -> derivable_pt_lim (peval (p i)) x (g i x)) -> sum (fun k => v k * u k) n = levels_value a j u p g)) as (A & EA & WA & N1 & N2 & V); try assumption.
  - intros l Hl. destruct (split_index l Hl) as (a & j & -> & Ha & Hj).
    destruct (diffusion_row_ok (concat W) a j Ha Hj LW (fun k Hk => HW a k Ha Hk)) as (r & b & e & Er & G & Vr). exists r, b, e. split; [exact Er|]. split; [exact G|].
    intros a' j' Q Ha' Hj'. assert (a' = a) by nia. assert (j' = j) by nia. subst. exact Vr.
  - exists A. split; [exact EA|]. split; [exact WA|]. split; [exact N1|]. split; [exact N2|]. intros u p g Hp Hg a j Ha Hj.
    assert (Hl : (a * o + j < n)%nat) by (unfold n; rewrite Ln; nia).
    rewrite apply1_matvec by (try exact WA; rewrite N1; exact Hl). unfold matvec. rewrite N2. apply (V (a * o + j)%nat Hl a j eq_refl Ha Hj u p g Hp Hg).
Qed.
(** the weak form *)
Lemma levels_weak A : (forall u p g, (forall i, (i < ne)%nat -> interpolates o nodes (i * o) u (p i)) ->
    (forall i x, (i < ne)%nat -> derivable_pt_lim (peval (p i)) x (g i x)) ->
    forall a j, (a < ne)%nat -> (j < o)%nat -> apply1 A u (a * o + j)%nat = levels_value a j u p g) ->
  forall u p g v q f, (forall i, (i < ne)%nat -> interpolates o nodes (i * o) u (p i)) ->
    (forall i x, (i < ne)%nat -> derivable_pt_lim (peval (p i)) x (g i x)) ->
    (forall i, (i < ne)%nat -> interpolates o nodes (i * o) v (q i)) ->
    (forall i x, (i < ne)%nat -> derivable_pt_lim (peval (q i)) x (f i x)) ->
    over_levels o ne (fun a j => qw a j * v (a * o + j)%nat * apply1 A u (a * o + j)%nat) =
    sum (fun a => peval (q a) (E (a + 1)%nat) * edge_flux s1 o ne edges p g a (a + 1) - peval (q a) (E a) * edge_flux s1 o ne edges p g a a) ne
    - over_levels o ne (fun a k => qw a k * g a (nth (a * o + k) nodes 0) * f a (nth (a * o + k) nodes 0)).
Proof.
  intros HA u p g v q f Hp Hg Hq Hf. unfold over_levels.
  replace (sum _ ne - sum _ ne) with (sum (fun a => peval (q a) (E (a + 1)%nat) * edge_flux s1 o ne edges p g a (a + 1) - peval (q a) (E a) * edge_flux s1 o ne edges p g a a) ne
    + -1 * sum (fun a => sum (fun k => qw a k * g a (nth (a * o + k) nodes 0) * f a (nth (a * o + k) nodes 0)) o) ne) by ring.
  rewrite <- sum_scale, <- sum_plus. apply sum_ext. intros a Ha.
  rewrite (sum_ext _ (fun j => edge_flux s1 o ne edges p g a (a + 1) * (nth j (lv a (E (a + 1)%nat)) 0 * v (a * o + j)%nat)
     + (- edge_flux s1 o ne edges p g a a) * (nth j (lv a (E a)) 0 * v (a * o + j)%nat)
     + sum (fun k => -1 * (g a (nth (a * o + k) nodes 0) * qw a k) * (nth j (ld a (nth (a * o + k) nodes 0)) 0 * v (a * o + j)%nat)) o)).
  2:{ intros j Hj. rewrite (HA u p g Hp Hg a j Ha Hj). unfold levels_value.
      rewrite (sum_ext (fun k => -1 * _ * _) (fun k => (-1 * v (a * o + j)%nat) * (nth j (ld a (nth (a * o + k) nodes 0)) 0 * g a (nth (a * o + k) nodes 0) * qw a k))) by (intros; ring).
      rewrite sum_scale. field. unfold qw. apply Gnz; [apply Ed, Ha|exact Hj]. }
  rewrite !sum_plus, !sum_scale.
  destruct (lv_ok a (E (a + 1)%nat) Ha) as (_ & _ & X1). destruct (X1 v (q a) (Hq a Ha)) as (_ & ->).
  destruct (lv_ok a (E a) Ha) as (_ & _ & X2). destruct (X2 v (q a) (Hq a Ha)) as (_ & ->).
  rewrite sum_swap, <- sum_scale.
  rewrite (sum_ext (fun k => sum _ o) (fun k => -1 * (qw a k * g a (nth (a * o + k) nodes 0) * f a (nth (a * o + k) nodes 0)))); [ring|].
  intros k Hk. rewrite sum_scale. destruct (ld_ok a (nth (a * o + k) nodes 0) Ha) as (_ & _ & X3). destruct (X3 v (q a) (f a) (Hq a Ha) (fun x => Hf a x Ha)) as (_ & ->). ring.
Qed.
End Second.

(** *** the penalty *)
Definition pen_left (a : nat) (u : nat -> R) (p : nat -> list R) (y : R) : R :=
  if (a + 1 <? ne)%nat then 1 / 2 * step o edges p (a + 1) * (cslope sol o ((y - E a) / (E (a + 1)%nat - E a)) / (E (a + 1)%nat - E a)) else 0.
Definition pen_right (a : nat) (u : nat -> R) (p : nat -> list R) (y : R) : R :=
  if (0 <? a)%nat then 1 / 2 * step o edges p a * (- cslope sol o (1 - (y - E a) / (E (a + 1)%nat - E a)) / (E (a + 1)%nat - E a)) else 0.
Lemma left_row_ok a i : (a < ne)%nat -> (i < o)%nat -> exists r b e, left_row sol o ne nodes edges (a * o + i) = Some (r, b, e) /\ good n (r, b, e) /\
  forall u p, (forall k, (k < ne)%nat -> interpolates o nodes (k * o) u (p k)) -> sum (fun k => val r k * u k) n = pen_left a u p (nth (a * o + i) nodes 0).
Proof.
  intros Ha Hi. unfold left_row, pen_left. fold n.
  replace ((a * o + i) / o)%nat with a by (rewrite Nat.div_add_l by lia; rewrite Nat.div_small by lia; lia).
  destruct (Nat.ltb_spec (a + 1) ne) as [B0|B0].
  2:{ do 3 eexists. split; [reflexivity|]. split; [split; [apply zero_row_length|split; [lia|intros; apply zero_row_val]]|].
      intros u p _. apply sum_zero. intros k _. rewrite zero_row_val. ring. }
  pose proof (Fi a Ha) as Fa. pose proof (Fi _ B0) as Fb. fold n in Fa, Fb. pose proof (Ed a Ha) as ED. fold E in ED.
  rewrite (RdE a), (RdE (a + 1)%nat) by lia. fold E. cbn [bind]. rewrite (rd_ok nodes) by (fold n; lia). cbn [bind]. rewrite div_ok by lra. cbn [bind].
  rewrite correction_slope_ok by exact Ho. cbn [bind]. rewrite div_ok by lra. cbn [bind].
  set (d := cslope sol o _ / _). rewrite (Sub a Ha). cbn [bind].
  destruct (lv_ok a (E (a + 1)%nat) Ha) as (Ec & Lc & Vc). rewrite Ec. cbn [bind].
  replace (a * o + o)%nat with ((a + 1) * o)%nat by nia. rewrite (Sub (a + 1)%nat B0). cbn [bind].
  destruct (lv_ok (a + 1) (E (a + 1)%nat) B0) as (Ec' & Lc' & Vc'). rewrite Ec'. cbn [bind].
  destruct (put_is n (zero_row n) (fun _ => 0) (a * o) (map (fun c => - (1 / 2) * d * c) (lv a (E (a + 1)%nat))) (zero_is n)) as (r & Er & Rr); [rewrite map_length; lia|reflexivity|].
  rewrite Er. cbn [bind].
  destruct (put_is n r _ ((a + 1) * o) (map (fun c => 1 / 2 * d * c) (lv (a + 1) (E (a + 1)%nat))) Rr) as (r' & Er' & (L' & V')); [rewrite map_length; lia| |].
  { intros k Hk. rewrite map_length in Hk. rewrite block_out by (rewrite map_length; lia). ring. }
  rewrite Er'. cbn [bind]. do 3 eexists. split; [reflexivity|]. split.
  - split; [exact L'|]. split; [nia|]. intros k Hk Nk. rewrite V' by exact Hk. rewrite !block_out by (rewrite map_length; nia). ring.
  - intros u p Hp. rewrite (sum_ext _ (fun k => ((0 + (- (1 / 2) * d) * block (a * o) (lv a (E (a + 1)%nat)) k) + (1 / 2 * d) * block ((a + 1) * o) (lv (a + 1) (E (a + 1)%nat)) k) * u k)).
    2:{ intros k Hk. rewrite V' by exact Hk. rewrite !block_map. reflexivity. }
    rewrite !sum_lin2, sum_0l. destruct (Vc u (p a) (Hp a Ha)) as (-> & _). destruct (Vc' u (p (a + 1)%nat) (Hp _ B0)) as (-> & _).
    unfold step. replace (a + 1 - 1)%nat with a by lia. fold E. ring.
Qed.
Lemma right_row_ok a i : (a < ne)%nat -> (i < o)%nat -> exists r b e, right_row sol o ne nodes edges (a * o + i) = Some (r, b, e) /\ good n (r, b, e) /\
  forall u p, (forall k, (k < ne)%nat -> interpolates o nodes (k * o) u (p k)) -> sum (fun k => val r k * u k) n = pen_right a u p (nth (a * o + i) nodes 0).
Proof.
  intros Ha Hi. unfold right_row, pen_right. fold n.
  replace ((a * o + i) / o)%nat with a by (rewrite Nat.div_add_l by lia; rewrite Nat.div_small by lia; lia).
  destruct (Nat.ltb_spec 0 a) as [A0|A0].
  2:{ do 3 eexists. split; [reflexivity|]. split; [split; [apply zero_row_length|split; [lia|intros; apply zero_row_val]]|].
      intros u p _. apply sum_zero. intros k _. rewrite zero_row_val. ring. }
  assert (B0 : (a - 1 < ne)%nat) by lia.
  pose proof (Fi a Ha) as Fa. pose proof (Fi _ B0) as Fb. fold n in Fa, Fb. pose proof (Ed a Ha) as ED. fold E in ED.
  rewrite (RdE a), (RdE (a + 1)%nat) by lia. fold E. cbn [bind]. rewrite (rd_ok nodes) by (fold n; lia). cbn [bind]. rewrite div_ok by lra. cbn [bind].
  rewrite correction_slope_ok by exact Ho. cbn [bind]. rewrite div_ok by lra. cbn [bind].
  set (d := cslope sol o _ / _). replace (a * o - o)%nat with ((a - 1) * o)%nat by nia. rewrite (Sub (a - 1)%nat B0). cbn [bind].
  destruct (lv_ok (a - 1) (E a) B0) as (Ec & Lc & Vc). rewrite Ec. cbn [bind].
  rewrite (Sub a Ha). cbn [bind].
  destruct (lv_ok a (E a) Ha) as (Ec' & Lc' & Vc'). rewrite Ec'. cbn [bind].
  destruct (put_is n (zero_row n) (fun _ => 0) ((a - 1) * o) (map (fun c => - (1 / 2) * d * c) (lv (a - 1) (E a))) (zero_is n)) as (r & Er & Rr); [rewrite map_length; lia|reflexivity|].
  rewrite Er. cbn [bind].
  destruct (put_is n r _ (a * o) (map (fun c => 1 / 2 * d * c) (lv a (E a))) Rr) as (r' & Er' & (L' & V')); [rewrite map_length; lia| |].
  { intros k Hk. rewrite map_length in Hk. rewrite block_out by (rewrite map_length; nia). ring. }
  rewrite Er'. cbn [bind]. do 3 eexists. split; [reflexivity|]. split.
  - split; [exact L'|]. split; [nia|]. intros k Hk Nk. rewrite V' by exact Hk. rewrite !block_out by (rewrite map_length; nia). ring.
  - intros u p Hp. rewrite (sum_ext _ (fun k => ((0 + (- (1 / 2) * d) * block ((a - 1) * o) (lv (a - 1) (E a)) k) + (1 / 2 * d) * block (a * o) (lv a (E a)) k) * u k)).
    2:{ intros k Hk. rewrite V' by exact Hk. rewrite !block_map. reflexivity. }
    rewrite !sum_lin2, sum_0l. destruct (Vc u (p (a - 1)%nat) (Hp _ B0)) as (-> & _). destruct (Vc' u (p a) (Hp a Ha)) as (-> & _).
    unfold step. fold E. unfold d. field. lra.
Qed.
Lemma penalty_built : (1 < ne)%nat -> exists L Rt, penalty_fem sol o nodes edges = PenBuilt (Penalty o ne (Some (L, Rt))) /\
  forall u p, (forall k, (k < ne)%nat -> interpolates o nodes (k * o) u (p k)) -> forall a i, (a < ne)%nat -> (i < o)%nat ->
    apply1 L u (a * o + i)%nat = pen_left a u p (nth (a * o + i) nodes 0) /\ apply1 Rt u (a * o + i)%nat = pen_right a u p (nth (a * o + i) nodes 0).
Proof.
  intros N2. unfold penalty_fem. destruct (Nat.eqb_spec o 0); [lia|]. rewrite DV, MV. destruct (Nat.eqb_spec ne 1); [lia|].
  destruct (Nat.eqb_spec (length nodes) 0) as [Z|Z]; [rewrite Ln in Z; nia|]. cbn [Nat.eqb negb].
  destruct (build_ok (length nodes) (length nodes) (left_row sol o ne nodes edges)
    (fun l v b e => forall a i, l = (a * o + i)%nat -> (a < ne)%nat -> (i < o)%nat -> forall u p, (forall k, (k < ne)%nat -> interpolates o nodes (k * o) u (p k)) ->
       sum (fun k => v k * u k) n = pen_left a u p (nth l nodes 0))) as (L & EL & WL & NL1 & NL2 & VL); try exact Z.
  { intros l Hl. destruct (split_index l Hl) as (a & j & -> & Ha & Hj). destruct (left_row_ok a j Ha Hj) as (r & b & e & Er & G & Vr). exists r, b, e. split; [exact Er|]. split; [exact G|].
    intros a' j' Q Ha' Hj'. assert (a' = a) by nia. assert (j' = j) by nia. subst. exact Vr. }
  destruct (build_ok (length nodes) (length nodes) (right_row sol o ne nodes edges)
    (fun l v b e => forall a i, l = (a * o + i)%nat -> (a < ne)%nat -> (i < o)%nat -> forall u p, (forall k, (k < ne)%nat -> interpolates o nodes (k * o) u (p k)) ->
       sum (fun k => v k * u k) n = pen_right a u p (nth l nodes 0))) as (Rt & ER & WR & NR1 & NR2 & VR); try exact Z.
  { intros l Hl. destruct (split_index l Hl) as (a & j & -> & Ha & Hj). destruct (right_row_ok a j Ha Hj) as (r & b & e & Er & G & Vr). exists r, b, e. split; [exact Er|]. split; [exact G|].
    intros a' j' Q Ha' Hj'. assert (a' = a) by nia. assert (j' = j) by nia. subst. exact Vr. }
  exists L, Rt. rewrite EL, ER. split; [reflexivity|]. intros u p Hp a i Ha Hi.
  assert (Hl : (a * o + i < n)%nat) by (unfold n; rewrite Ln; nia).
  rewrite (apply1_matvec L), (apply1_matvec Rt) by (try assumption; rewrite ?NL1, ?NR1; exact Hl). unfold matvec. rewrite NL2, NR2. fold n.
  split; [apply (VL _ Hl a i eq_refl Ha Hi u p Hp)|apply (VR _ Hl a i eq_refl Ha Hi u p Hp)].
Qed.
End Levels.

(** fluxes cancel up to the difference of the widths *)
Lemma flux_balance s o ne edges p g : sum (fun a => edge_flux s o ne edges p g a (a + 1) - edge_flux s o ne edges p g a a) ne =
  sum (fun i => 1 / 2 * (s / width o edges i - s / width o edges (i + 1)) * step o edges p (i + 1)) (ne - 1).
Proof.
  destruct ne as [|m]; [rewrite !sum_0; reflexivity|]. replace (S m - 1)%nat with m by lia.
  rewrite (sum_ext _ (fun a => edge_flux s o (S m) edges p g a (S a) + -1 * edge_flux s o (S m) edges p g a a)) by (intros; rewrite Nat.add_1_r; ring).
  rewrite sum_plus, sum_scale, sum_S.
  generalize (sum_shift (fun a => edge_flux s o (S m) edges p g a a) m). intros Q.
  replace (sum (fun a => edge_flux s o (S m) edges p g a a) (S m)) with (sum (fun a => edge_flux s o (S m) edges p g (S a) (S a)) m + edge_flux s o (S m) edges p g 0 0) by (rewrite Q; ring).
  replace (edge_flux s o (S m) edges p g m (S m)) with 0 by (unfold edge_flux; rewrite Nat.eqb_refl, orb_true_r; reflexivity).
  replace (edge_flux s o (S m) edges p g 0 0) with 0 by reflexivity.
  transitivity (sum (fun a => edge_flux s o (S m) edges p g a (S a) + -1 * edge_flux s o (S m) edges p g (S a) (S a)) m).
  { rewrite sum_plus, sum_scale. ring. }
  apply sum_ext. intros i Hi. unfold edge_flux. destruct (Nat.eqb_spec (S i) 0), (Nat.eqb_spec (S i) (S m)); try lia. cbn [orb].
  rewrite !Nat.add_1_r. unfold Rdiv. ring.
Qed.

(** *** adding the penalty *)
Lemma add_row o a (v : nat -> R) : forall m out k, fold_left (fun m i => add_at m (a * o + i) (v i)) (seq 0 m) out k =
  if ((a * o <=? k) && (k <? a * o + m))%bool%nat then out k + v (k - a * o)%nat else out k.
Proof.
  induction m as [|m IH]; intros out k.
  - cbn [seq fold_left]. destruct (Nat.leb_spec (a * o) k), (Nat.ltb_spec k (a * o + 0)); cbn [andb]; try reflexivity; lia.
  - rewrite seq_S, fold_left_app. cbn [fold_left Nat.add]. unfold add_at at 1. rewrite IH.
    destruct (Nat.eqb_spec k (a * o + m)) as [Q|Q], (Nat.leb_spec (a * o) k), (Nat.ltb_spec k (a * o + m)), (Nat.ltb_spec k (a * o + S m)); cbn [andb]; try reflexivity; try lia.
    subst k. replace (a * o + m - a * o)%nat with m by lia. reflexivity.
Qed.
Lemma add_rows o (v : nat -> nat -> R) : (0 < o)%nat -> forall m lo out b i, (i < o)%nat ->
  fold_left (fun m a => fold_left (fun m i => add_at m (a * o + i) (v a i)) (seq 0 o) m) (seq lo m) out (b * o + i)%nat =
  if ((lo <=? b) && (b <? lo + m))%bool%nat then out (b * o + i)%nat + v b i else out (b * o + i)%nat.
Proof.
  intros Ho. induction m as [|m IH]; intros lo out b i Hi.
  - cbn [seq fold_left]. destruct (Nat.leb_spec lo b), (Nat.ltb_spec b (lo + 0)); cbn [andb]; try reflexivity; lia.
  - rewrite seq_S, fold_left_app. cbn [fold_left]. rewrite add_row, IH by exact Hi.
    destruct (Nat.leb_spec ((lo + m) * o) (b * o + i)), (Nat.ltb_spec (b * o + i) ((lo + m) * o + o)), (Nat.leb_spec lo b), (Nat.ltb_spec b (lo + m)), (Nat.ltb_spec b (lo + S m)); cbn [andb]; try reflexivity; try nia.
    assert (b = (lo + m)%nat) by nia. subst b. replace ((lo + m) * o + i - (lo + m) * o)%nat with i by lia. reflexivity.
Qed.
Lemma pen_apply_ok o ne L Rt w col out a i : (0 < o)%nat -> (a < ne)%nat -> (i < o)%nat ->
  pen_apply (Penalty o ne (Some (L, Rt))) w col out (a * o + i)%nat =
  out (a * o + i)%nat + (if (a + 1 <? ne)%nat then apply1 L col (a * o + i) * w a else 0) + (if (0 <? a)%nat then apply1 Rt col (a * o + i) * w (a - 1)%nat else 0).
Proof.
  intros Ho Ha Hi. unfold pen_apply. cbn [pops pord pne].
  rewrite (add_rows o (fun a i => apply1 Rt col (a * o + i) * w (a - 1)%nat) Ho) by exact Hi.
  rewrite (add_rows o (fun a i => apply1 L col (a * o + i) * w a) Ho) by exact Hi.
  destruct (Nat.leb_spec 1 a), (Nat.ltb_spec a (1 + (ne - 1))), (Nat.leb_spec 0 a), (Nat.ltb_spec a (0 + (ne - 1))), (Nat.ltb_spec (a + 1) ne), (Nat.ltb_spec 0 a); cbn [andb]; try lia; ring.
Qed.
Lemma pen_apply_outside o ne L Rt w col out k : (0 < o)%nat -> (ne * o <= k)%nat -> pen_apply (Penalty o ne (Some (L, Rt))) w col out k = out k.
Proof.
  intros Ho Hk. unfold pen_apply. cbn [pops pord pne].
  rewrite (Nat.div_mod k o) by lia. rewrite (Nat.mul_comm o). assert (k mod o < o)%nat by (apply Nat.mod_upper_bound; lia).
  assert (ne <= k / o)%nat by (apply Nat.div_le_lower_bound; lia).
  rewrite (add_rows o (fun a i => apply1 Rt col (a * o + i) * w (a - 1)%nat) Ho) by assumption.
  rewrite (add_rows o (fun a i => apply1 L col (a * o + i) * w a) Ho) by assumption.
  destruct (Nat.leb_spec 1 (k / o)), (Nat.ltb_spec (k / o) (1 + (ne - 1))), (Nat.ltb_spec (k / o) (0 + (ne - 1))); rewrite ?andb_false_r; cbn [andb]; try reflexivity; lia.
Qed.
