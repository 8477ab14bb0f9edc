(** * The rows of the vertical operators *)
From Coq Require Import Reals List Arith Lia Lra Bool.
From Verif Require Import QuadSpec InterpModel InterpSpec InterpProofs ColModel ColSpec ColProofs FemModel FemSpec FemProofs.
Import ListNotations.
Local Open Scope R_scope.

(** the coefficients c are exact for the k-th derivative at y *)
Definition coef_exact (k n : nat) (xs : list R) (c : nat -> R) (y : R) : Prop :=
  forall p g, (length p <= n)%nat -> nth_derivative k (peval p) g ->
  sum (fun l => c l * peval p (nth l xs 0)) (length xs) = g y.
Lemma coef_exact_ext k n xs c d y : (forall l, (l < length xs)%nat -> c l = d l) -> coef_exact k n xs c y -> coef_exact k n xs d y.
Proof. intros E H p g Lp Hg. rewrite <- (H p g Lp Hg). apply sum_ext. intros l Hl. rewrite E by exact Hl. reflexivity. Qed.
Lemma coef_exact_le k n m xs c y : (m <= n)%nat -> coef_exact k n xs c y -> coef_exact k m xs c y.
Proof. intros L H p g Lp Hg. apply H; [lia|exact Hg]. Qed.
Lemma coef_exact_block k n xs off s c : exact_derivative k n (fun j => nth (off + j) xs 0) s c -> (off + n <= length xs)%nat ->
  coef_exact k n xs (block off c) s.
Proof. intros H L p g. apply block_exact; assumption. Qed.
Lemma coef_exact_mix k n xs c d y u v : u + v = 1 -> coef_exact k n xs c y -> coef_exact k n xs d y ->
  coef_exact k n xs (fun l => u * c l + v * d l) y.
Proof.
  intros E Hc Hd p g Lp Hg.
  rewrite (sum_ext _ (fun l => u * (c l * peval p (nth l xs 0)) + v * (d l * peval p (nth l xs 0)))) by (intros; ring).
  rewrite sum_plus, !sum_scale, (Hc p g Lp Hg), (Hd p g Lp Hg). transitivity ((u + v) * g y); [ring|rewrite E; ring].
Qed.
Lemma exact_length k n x s c : exact_derivative k n x s c -> length c = n.
Proof. intros H. apply H. Qed.

Lemma located_near edges o ne out a on : located edges o ne out a on -> near_element edges o ne a out.
Proof.
  intros (A & B & C & D). split; [exact A|]. pose proof eps_pos as P. fold eps. split.
  - destruct (Nat.eq_dec a 0) as [->|Ne]; [left; reflexivity|right]. generalize (C Ne). lra.
  - destruct (Nat.eq_dec (S a) ne) as [E|Ne]; [left; exact E|right]. replace (S a) with (a + 1)%nat by lia. destruct on.
    + destruct (B eq_refl) as (_ & G). apply Rabs_le_between' in G || idtac. generalize (Rle_abs (out - nth ((a + 1) * o) edges 0)). lra.
    + generalize (D eq_refl Ne). lra.
Qed.

Section Column.
Context (o ne : nat) (nodes edges outs : list R) (C : column o ne nodes edges).
Let Ho : (0 < o)%nat := proj1 C.
Let Hne : (0 < ne)%nat := proj1 (proj2 C).
Let Ln : length nodes = (ne * o)%nat := proj1 (proj2 (proj2 C)).
Let Le : length edges = (ne * o + 1)%nat := proj1 (proj2 (proj2 (proj2 C))).
Let Sn : spaced nodes := proj1 (proj2 (proj2 (proj2 (proj2 C)))).
Let Se : spaced edges := proj2 (proj2 (proj2 (proj2 (proj2 C)))).
Lemma elements : (length nodes / o = ne)%nat.
Proof. rewrite Ln. apply Nat.div_mul. lia. Qed.
Lemma whole : (length nodes mod o = 0)%nat.
Proof. rewrite Ln. apply Nat.mod_mul. lia. Qed.

(** interpolation from interfaces *)
Lemma interp_row_interfaces l : (l < length outs)%nat ->
  exists r b e, interp_row Interfaces o nodes edges outs l = Some (r, b, e) /\ good (length nodes + 1) (r, b, e) /\
  exists a y, near_element edges o ne a (nth l outs 0) /\ (a * o <= b)%nat /\ (e <= S a * o + 1)%nat /\
    coef_exact 0 (o + 1) edges (val r) y /\ Rabs (nth l outs 0 - y) <= eps /\
    (y = nth l outs 0 \/ exists i, (0 < i < ne)%nat /\ y = nth (i * o) edges 0).
Proof.
  intros Hl. unfold interp_row. rewrite rd_ok by exact Hl. cbn [bind]. rewrite elements.
  set (out := nth l outs 0).
  destruct (search_ok edges o ne out Hne Le) as (a & on & E & Loc). rewrite E. cbn [bind].
  pose proof (located_near _ _ _ _ _ _ Loc) as Near. destruct Loc as (Ha & On & _ & _).
  destruct on.
  - destruct (On eq_refl) as (Ha' & Hy).
    destruct (put_ok (zero_row (length nodes + 1)) ((a + 1) * o) [1]) as (r & Er & Lr & Vr).
    { rewrite zero_row_length, Ln. cbn [length]. nia. }
    { intros. apply zero_row_val. }
    rewrite zero_row_length in Lr, Vr. rewrite Er. cbn [bind]. do 3 eexists. split; [reflexivity|]. split.
    + split; [exact Lr|]. split; [rewrite Ln; nia|]. intros k Hk Nk. rewrite Vr, zero_row_val, block_out by (cbn [length]; lia). ring.
    + exists a, (nth ((a + 1) * o) edges 0). split; [exact Near|]. split; [nia|]. split; [nia|].
      split; [|split; [exact Hy|right; exists (a + 1)%nat; split; [lia|reflexivity]]].
      apply (coef_exact_ext _ _ _ (block ((a + 1) * o) [1])).
      { intros k Hk. rewrite Vr, zero_row_val by lia. ring. }
      intros p g Lp Hg. rewrite (block_sum _ _ (fun l => peval p (nth l edges 0))) by (cbn [length]; rewrite Le; nia).
      unfold sum. cbn [length seq map fold_right nth]. rewrite Nat.add_0_r. cbn in Hg. rewrite Hg. ring.
  - rewrite sub_ok by (rewrite Le; nia). cbn [bind].
    destruct (run_lagrange edges (a * o) (o + 1) out Se ltac:(rewrite Le; nia)) as (c & Ec & Xc). rewrite Ec. cbn [bind].
    pose proof (exact_length _ _ _ _ _ Xc) as Lc.
    destruct (put_ok (zero_row (length nodes + 1)) (a * o) c) as (r & Er & Lr & Vr).
    { rewrite zero_row_length, Ln, Lc. nia. }
    { intros. apply zero_row_val. }
    rewrite zero_row_length in Lr, Vr. rewrite Er. cbn [bind]. do 3 eexists. split; [reflexivity|]. split.
    + split; [exact Lr|]. split; [rewrite Ln; nia|]. intros k Hk Nk. rewrite Vr, zero_row_val, block_out by (try rewrite Lc; nia). ring.
    + exists a, out. split; [exact Near|]. split; [lia|]. split; [nia|].
      split; [|split; [rewrite Rminus_diag_eq, Rabs_R0 by reflexivity; apply Rlt_le, eps_pos|left; reflexivity]].
      apply (coef_exact_ext _ _ _ (block (a * o) c)).
      { intros k Hk. rewrite Vr, zero_row_val by lia. ring. }
      apply (coef_exact_block _ (o + 1)); [exact Xc|rewrite Le; nia].
Qed.

(** interpolation from levels *)
Lemma interp_row_levels l : order_one_ok o ne edges outs -> (l < length outs)%nat ->
  exists r b e, interp_row Levels o nodes edges outs l = Some (r, b, e) /\ good (length nodes) (r, b, e) /\
  exists a, near_element edges o ne a (nth l outs 0) /\ (pred a * o <= b)%nat /\ (o <> 1%nat -> (a * o <= b)%nat) /\ (e <= (a + 2) * o)%nat /\
    coef_exact 0 o nodes (val r) (nth l outs 0).
Proof.
  intros Eo Hl. unfold interp_row. rewrite rd_ok by exact Hl. cbn [bind]. rewrite elements.
  set (out := nth l outs 0).
  destruct (search_ok edges o ne out Hne Le) as (a & on & E & Loc). rewrite E. cbn [bind].
  pose proof (located_near _ _ _ _ _ _ Loc) as Near. destruct Loc as (Ha & On & Lo & Up).
  (* the first interpolant: a run of m points from off, ending at e *)
  assert (F : exists r b e m, (if ((o =? 1) && (l =? 0))%bool%nat then
              x <- sub nodes (a * o) (o + 1); c <- lagrange (o + 1) x out; r <- put (zero_row (length nodes)) (a * o) c;
              Some (r, (a * o)%nat, ((a + 2) * o)%nat)
            else if ((o =? 1) && (l =? length outs - 1))%bool%nat then
              match a with
              | O => None
              | S b => x <- sub nodes (b * o) (o + 1); c <- lagrange (o + 1) x out; r <- put (zero_row (length nodes)) (b * o) c;
                       Some (r, (b * o)%nat, ((a + 1) * o)%nat)
              end
            else
              x <- sub nodes (a * o) o; c <- lagrange o x out; r <- put (zero_row (length nodes)) (a * o) c;
              Some (r, (a * o)%nat, ((a + 1) * o)%nat)) = Some (r, b, e) /\
      length r = length nodes /\ (b <= e)%nat /\ (e <= length nodes)%nat /\ (o <= m)%nat /\
      (forall k, (k < length nodes)%nat -> ~ (b <= k < e)%nat -> val r k = 0) /\ coef_exact 0 m nodes (val r) out /\
      (pred a * o <= b)%nat /\ (o <> 1%nat -> (a * o <= b)%nat) /\ (e <= (a + 2) * o)%nat /\ (on = true -> e = ((a + 1) * o)%nat)).
  { assert (Run : forall off m, (off + m <= length nodes)%nat ->
      exists x c r, sub nodes off m = Some x /\ lagrange m x out = Some c /\ put (zero_row (length nodes)) off c = Some r /\
        length r = length nodes /\ (forall k, (k < length nodes)%nat -> ~ (off <= k < off + m)%nat -> val r k = 0) /\ coef_exact 0 m nodes (val r) out).
    { intros off m H. rewrite sub_ok by exact H.
      destruct (run_lagrange nodes off m out Sn H) as (c & Ec & Xc). pose proof (exact_length _ _ _ _ _ Xc) as Lc.
      destruct (put_ok (zero_row (length nodes)) off c) as (r & Er & Lr & Vr).
      { rewrite zero_row_length. lia. } { intros. apply zero_row_val. }
      rewrite zero_row_length in Lr, Vr. do 3 eexists. split; [reflexivity|]. split; [exact Ec|]. split; [exact Er|]. split; [exact Lr|]. split.
      - intros k Hk Nk. rewrite Vr, zero_row_val, block_out by (try rewrite Lc; lia). ring.
      - apply (coef_exact_ext _ _ _ (block off c)); [intros k Hk; rewrite Vr, zero_row_val by lia; ring|].
        apply (coef_exact_block _ m); [exact Xc|lia]. }
    destruct (Nat.eqb_spec o 1) as [O1|O1]; cbn [andb]; [destruct (Eo O1) as (Two & E0 & E1); fold eps in E0, E1|].
    - destruct (Nat.eqb_spec l 0) as [L0|L0].
      + assert (A0 : a = 0%nat).
        { destruct (Nat.eq_dec a 0) as [|Na]; [assumption|exfalso]. generalize (Lo Na). unfold out. rewrite L0.
          rewrite O1, Nat.mul_1_r. intros G. pose proof eps_pos.
          assert (nth 1 edges 0 <= nth a edges 0) by (destruct (Nat.eq_dec a 1) as [->|]; [lra|];
            apply Rlt_le, spaced_lt; [exact Se|rewrite Le; nia]). lra. }
        destruct (Run (a * o) (o + 1))%nat as (x & c & r & Ex & Ec & Er & Lr & Zr & Xr); [rewrite Ln, O1, A0; nia|].
        rewrite Ex. cbn [bind]. rewrite Ec. cbn [bind]. rewrite Er. cbn [bind].
        exists r, (a * o)%nat, ((a + 2) * o)%nat, (o + 1)%nat. split; [reflexivity|]. split; [exact Lr|].
        split; [nia|]. split; [rewrite Ln, O1, A0; nia|]. split; [lia|].
        split; [intros k Hk Nk; apply Zr; [exact Hk|rewrite O1 in *; nia]|]. split; [exact Xr|].
        split; [rewrite A0; cbn; lia|]. split; [lia|]. split; [lia|].
        intros On'. exfalso. destruct (On On') as (_ & G). unfold out in G. rewrite L0, A0, O1 in G. cbn [Nat.add Nat.mul] in G.
        generalize (Rle_abs (- (nth 0 outs 0 - nth 1 edges 0))). rewrite Rabs_Ropp. pose proof eps_pos. lra.
      + destruct (Nat.eqb_spec l (length outs - 1)) as [L1|L1].
        * destruct a as [|b].
          { exfalso. specialize (E1 ltac:(lia)). rewrite <- L1 in E1. fold out in E1. rewrite O1 in *. pose proof eps_pos.
            destruct on.
            - destruct (On eq_refl) as (_ & G). cbn [Nat.add Nat.mul] in G. generalize (Rle_abs (out - nth 1 edges 0)). lra.
            - generalize (Up eq_refl ltac:(lia)). cbn [Nat.add Nat.mul]. lra. }
          destruct (Run (b * o) (o + 1))%nat as (x & c & r & Ex & Ec & Er & Lr & Zr & Xr); [rewrite Ln, O1; nia|].
          rewrite Ex. cbn [bind]. rewrite Ec. cbn [bind]. rewrite Er. cbn [bind].
          exists r, (b * o)%nat, ((S b + 1) * o)%nat, (o + 1)%nat. split; [reflexivity|]. split; [exact Lr|].
          split; [nia|]. split; [rewrite Ln; nia|]. split; [lia|].
          split; [intros k Hk Nk; apply Zr; [exact Hk|rewrite O1 in *; nia]|]. split; [exact Xr|].
          split; [cbn; lia|]. split; [lia|]. split; [nia|]. reflexivity.
        * destruct (Run (a * o) o)%nat as (x & c & r & Ex & Ec & Er & Lr & Zr & Xr); [rewrite Ln; nia|].
          rewrite Ex. cbn [bind]. rewrite Ec. cbn [bind]. rewrite Er. cbn [bind].
          exists r, (a * o)%nat, ((a + 1) * o)%nat, o. split; [reflexivity|]. split; [exact Lr|].
          split; [nia|]. split; [rewrite Ln; nia|]. split; [lia|].
          split; [intros k Hk Nk; apply Zr; [exact Hk|nia]|]. split; [exact Xr|].
          split; [nia|]. split; [lia|]. split; [nia|]. reflexivity.
    - destruct (Run (a * o) o)%nat as (x & c & r & Ex & Ec & Er & Lr & Zr & Xr); [rewrite Ln; nia|].
      rewrite Ex. cbn [bind]. rewrite Ec. cbn [bind]. rewrite Er. cbn [bind].
      exists r, (a * o)%nat, ((a + 1) * o)%nat, o. split; [reflexivity|]. split; [exact Lr|].
      split; [nia|]. split; [rewrite Ln; nia|]. split; [lia|].
      split; [intros k Hk Nk; apply Zr; [exact Hk|nia]|]. split; [exact Xr|].
      split; [nia|]. split; [lia|]. split; [nia|]. reflexivity. }
  destruct F as (r & b & e & m & -> & Lr & Hbe & He & Hm & Zr & Xr & B1 & B2 & B3 & Eq). cbn [bind].
  destruct on.
  - specialize (Eq eq_refl). destruct (On eq_refl) as (Ha' & _).
    destruct (edge_weights_ok edges o ne a Ho Le Se Ha') as (wl & wr & Ew & Sw & _ & _). rewrite Ew. cbn [bind].
    rewrite sub_ok by (rewrite Ln; nia). cbn [bind].
    destruct (run_lagrange nodes ((a + 1) * o) o out Sn ltac:(rewrite Ln; nia)) as (c & Ec & Xc). rewrite Ec. cbn [bind].
    pose proof (exact_length _ _ _ _ _ Xc) as Lc.
    destruct (put_ok r e c) as (r1 & E1 & L1 & V1).
    { rewrite Lr, Lc, Eq, Ln. nia. }
    { intros k Hk. apply Zr; rewrite ?Lc, ?Ln in *; nia. }
    rewrite E1. cbn [bind].
    destruct (modify_ok r1 b (e - b) (fun _ v => v * wl)) as (r2 & E2 & L2 & V2); [rewrite L1, Lr; lia|].
    unfold scale at 1. rewrite E2. cbn [bind].
    destruct (modify_ok r2 e o (fun _ v => v * wr)) as (r3 & E3 & L3 & V3); [rewrite L2, L1, Lr, Eq, Ln; nia|].
    unfold scale at 1. rewrite E3. cbn [bind].
    assert (V : forall k, (k < length nodes)%nat -> val r3 k = wl * val r k + wr * block e c k).
    { intros k Hk. rewrite V3, V2, V1 by lia.
      destruct (lt_dec k e) as [Ke|Ke].
      - replace (e <=? k)%nat with false by (symmetry; apply Nat.leb_gt; lia). cbn [andb].
        rewrite (block_out e c k) by lia.
        destruct (le_dec b k) as [Kb|Kb].
        + replace (b <=? k)%nat with true by (symmetry; apply Nat.leb_le; lia).
          replace (k <? b + (e - b))%nat with true by (symmetry; apply Nat.ltb_lt; lia). cbn [andb]. ring.
        + replace (b <=? k)%nat with false by (symmetry; apply Nat.leb_gt; lia). cbn [andb]. rewrite Zr by lia. ring.
      - replace (e <=? k)%nat with true by (symmetry; apply Nat.leb_le; lia).
        replace (k <? b + (e - b))%nat with false by (symmetry; apply Nat.ltb_ge; lia). rewrite Bool.andb_false_r. cbn [andb].
        rewrite (Zr k) by lia.
        destruct (lt_dec k (e + o)) as [Kn|Kn].
        + replace (k <? e + o)%nat with true by (symmetry; apply Nat.ltb_lt; lia). ring.
        + replace (k <? e + o)%nat with false by (symmetry; apply Nat.ltb_ge; lia). rewrite block_out by (rewrite Lc; lia). ring. }
    do 3 eexists. split; [reflexivity|]. split.
    + split; [rewrite L3, L2, L1; exact Lr|]. split; [rewrite Eq, Ln; nia|].
      intros k Hk Nk. rewrite V, Zr, block_out by (try rewrite Lc; lia). ring.
    + exists a. split; [exact Near|]. split; [exact B1|]. split; [exact B2|]. split; [rewrite Eq; nia|].
      apply (coef_exact_ext _ _ _ (fun k => wl * val r k + wr * block e c k)); [intros; symmetry; apply V; assumption|].
      apply coef_exact_mix; [exact Sw|apply (coef_exact_le _ m); assumption|].
      rewrite Eq. apply (coef_exact_block _ o); [exact Xc|rewrite Ln; nia].
  - do 3 eexists. split; [reflexivity|]. split.
    + split; [exact Lr|]. split; [lia|]. exact Zr.
    + exists a. split; [exact Near|]. split; [exact B1|]. split; [exact B2|]. split; [exact B3|].
      apply (coef_exact_le _ m); assumption.
Qed.
End Column.

(** differentiation from interfaces *)
Lemma diff_row_ok ne o edges outs l : (0 < o)%nat -> (0 < ne)%nat -> length edges = (ne * o + 1)%nat -> spaced edges -> (l < length outs)%nat ->
  exists r b e, diff_row ne o edges outs l = Some (r, b, e) /\ good (length edges) (r, b, e) /\
  exists a, near_element edges o ne a (nth l outs 0) /\ (a * o <= b)%nat /\ (e <= (a + 2) * o + 1)%nat /\
    coef_exact 1 (o + 1) edges (val r) (nth l outs 0).
Proof.
  intros Ho Hne Le Se Hl. unfold diff_row. rewrite rd_ok by exact Hl. cbn [bind]. set (out := nth l outs 0).
  destruct (search_ok edges o ne out Hne Le) as (a & on & E & Loc). rewrite E. cbn [bind].
  pose proof (located_near _ _ _ _ _ _ Loc) as Near. destruct Loc as (Ha & On & _ & _).
  rewrite sub_ok by (rewrite Le; nia). cbn [bind].
  destruct (run_diff edges (a * o) (o + 1) out Se ltac:(rewrite Le; nia)) as (c & Ec & Xc). rewrite Ec. cbn [bind].
  pose proof (exact_length _ _ _ _ _ Xc) as Lc.
  destruct (put_ok (zero_row (length edges)) (a * o) c) as (r & Er & Lr & Vr).
  { rewrite zero_row_length, Le, Lc. nia. } { intros. apply zero_row_val. }
  rewrite zero_row_length in Lr, Vr. rewrite Er. cbn [bind].
  destruct on.
  - destruct (On eq_refl) as (Ha' & _).
    destruct (edge_weights_ok edges o ne a Ho Le Se Ha') as (wl & wr & Ew & Sw & _ & _). rewrite Ew. cbn [bind].
    rewrite sub_ok by (rewrite Le; nia). cbn [bind].
    destruct (run_diff edges ((a + 1) * o) (o + 1) out Se ltac:(rewrite Le; nia)) as (d & Ed & Xd). rewrite Ed. cbn [bind].
    pose proof (exact_length _ _ _ _ _ Xd) as Ld.
    destruct (modify_ok r (a * o) (o + 1) (fun _ v => v * wl)) as (r1 & E1 & L1 & V1); [rewrite Lr, Le; nia|].
    unfold scale. rewrite E1. cbn [bind].
    destruct (add_ok r1 ((a + 1) * o) wr d) as (r2 & E2 & L2 & V2); [rewrite L1, Lr, Le, Ld; nia|]. rewrite E2. cbn [bind].
    assert (V : forall k, (k < length edges)%nat -> val r2 k = wl * block (a * o) c k + wr * block ((a + 1) * o) d k).
    { intros k Hk. rewrite V2, V1, Vr, zero_row_val by lia.
      destruct (le_dec (a * o) k) as [A|A]; [destruct (lt_dec k (a * o + (o + 1))) as [B|B]|].
      - replace (a * o <=? k)%nat with true by (symmetry; apply Nat.leb_le; lia).
        replace (k <? a * o + (o + 1))%nat with true by (symmetry; apply Nat.ltb_lt; lia). cbn [andb]. ring.
      - replace (k <? a * o + (o + 1))%nat with false by (symmetry; apply Nat.ltb_ge; lia). rewrite Bool.andb_false_r.
        rewrite (block_out (a * o)) by lia. ring.
      - replace (a * o <=? k)%nat with false by (symmetry; apply Nat.leb_gt; lia). cbn [andb].
        rewrite (block_out (a * o)) by lia. ring. }
    do 3 eexists. split; [reflexivity|]. split.
    + split; [lia|]. split; [rewrite Le; nia|]. intros k Hk Nk. rewrite V, !block_out by (try rewrite Lc; try rewrite Ld; nia). ring.
    + exists a. split; [exact Near|]. split; [lia|]. split; [lia|].
      apply (coef_exact_ext _ _ _ (fun k => wl * block (a * o) c k + wr * block ((a + 1) * o) d k)); [intros; symmetry; apply V; assumption|].
      apply coef_exact_mix; [exact Sw| |]; apply (coef_exact_block _ (o + 1)); try assumption; rewrite Le; nia.
  - do 3 eexists. split; [reflexivity|]. split.
    + split; [exact Lr|]. split; [rewrite Le; nia|]. intros k Hk Nk. rewrite Vr, zero_row_val, block_out by (try rewrite Lc; nia). ring.
    + exists a. split; [exact Near|]. split; [lia|]. split; [nia|].
      apply (coef_exact_ext _ _ _ (block (a * o) c)); [intros k Hk; rewrite Vr, zero_row_val by lia; ring|].
      apply (coef_exact_block _ (o + 1)); [exact Xc|rewrite Le; nia].
Qed.

(** ** reconstructed operators *)
Definition count (o k n : nat) : nat :=
  if (k =? 0)%nat then (S (right_last n o k) - right_first o k)%nat
  else if (k =? n)%nat then (S (left_last n o k) - left_first o k)%nat
  else Nat.min (S (right_last n o k) - right_first o k) (S (left_last n o k) - left_first o k).
Lemma half o : (2 <= o)%nat -> (o mod 2 = 0)%nat -> ((o - 2) / 2 + 1 = o / 2 /\ 2 * (o / 2) = o)%nat.
Proof. intros H M. pose proof (Nat.div_mod o 2 ltac:(lia)). replace (o - 2)%nat with ((o / 2 - 1) * 2)%nat by lia. rewrite Nat.div_mul by lia. lia. Qed.
Lemma one_sided_ok o nodes b e s : spaced nodes -> (b <= e < length nodes)%nat -> (S e - b <= o)%nat ->
  exists c, one_sided o nodes b e s = Some c /\ length c = (S e - b)%nat /\ exact_derivative 0 (S e - b) (fun j => nth (b + j) nodes 0) s c.
Proof.
  intros Sp H L. unfold one_sided. rewrite sub_ok by lia. cbn [bind].
  destruct (run_lagrange nodes b (S e - b) s Sp ltac:(lia)) as (c & Ec & Xc). rewrite Ec. cbn [bind].
  pose proof (exact_length _ _ _ _ _ Xc) as Lc. destruct (Nat.leb_spec (length c) o); [|lia].
  exists c. repeat split; assumption || apply Xc.
Qed.
Lemma interp_rec_row_ok o nodes edges k : (2 <= o)%nat -> (o mod 2 = 0)%nat -> spaced nodes -> length nodes <> 0%nat ->
  length edges = (length nodes + 1)%nat -> (k < length edges)%nat ->
  exists r b e, interp_rec_row o nodes edges k = Some (r, b, e) /\ good (length nodes) (r, b, e) /\
    ((k - o / 2 <= b)%nat /\ (k < length nodes -> e <= k + o / 2)%nat /\ coef_exact 0 (count o k (length nodes)) nodes (val r) (nth k edges 0)).
Proof.
  intros O2 Om Sp N0 Le Hk. destruct (half o O2 Om) as (H1 & H2). unfold interp_rec_row. rewrite rd_ok by exact Hk. cbn [bind].
  set (out := nth k edges 0). set (n := length nodes) in *. set (m := length edges) in *.
  unfold count, left_first, left_last, right_first, right_last in *. set (h := ((o - 2) / 2)%nat) in *.
  destruct (Nat.eqb_spec k 0) as [K0|K0]; [|destruct (Nat.eqb_spec k (m - 1)) as [K1|K1]]; cbn [orb].
  - subst k. cbn [bind]. replace (0 =? m - 1)%nat with false by (symmetry; apply Nat.eqb_neq; lia).
    destruct (one_sided_ok o nodes (0 - h) (Nat.min (0 + h) (n - 1)) out Sp ltac:(lia) ltac:(lia)) as (c & -> & Lc & Xc). cbn [bind].
    destruct (add_ok (zero_row n) (0 - h) 1 c) as (r & -> & Lr & Vr); [rewrite zero_row_length; lia|]. cbn [bind].
    rewrite zero_row_length in Lr, Vr.
    do 3 eexists. split; [reflexivity|]. split; [split; [exact Lr|split; [lia|]]|split; [lia|split; [lia|]]].
    + intros j Hj Nj. rewrite Vr, zero_row_val, block_out by lia. ring.
    + apply (coef_exact_ext _ _ _ (block (0 - h) c)); [intros j Hj; rewrite Vr, zero_row_val by (fold n in Hj; lia); ring|].
      apply coef_exact_block; [exact Xc|lia].
  - replace (k =? n)%nat with true by (symmetry; apply Nat.eqb_eq; lia).
    destruct (one_sided_ok o nodes (k - (h + 1)) (Nat.min (k + h - 1) (n - 1)) out Sp ltac:(lia) ltac:(lia)) as (c & -> & Lc & Xc). cbn [bind].
    destruct (add_ok (zero_row n) (k - (h + 1)) 1 c) as (r & -> & Lr & Vr); [rewrite zero_row_length; lia|]. cbn [bind].
    rewrite zero_row_length in Lr, Vr.
    do 3 eexists. split; [reflexivity|]. split; [split; [exact Lr|split; [lia|]]|split; [lia|split; [lia|]]].
    + intros j Hj Nj. rewrite Vr, zero_row_val, block_out by lia. ring.
    + apply (coef_exact_ext _ _ _ (block (k - (h + 1)) c)); [intros j Hj; rewrite Vr, zero_row_val by (fold n in Hj; lia); ring|].
      apply coef_exact_block; [exact Xc|fold n; lia].
  - replace (k =? n)%nat with false by (symmetry; apply Nat.eqb_neq; lia).
    destruct (one_sided_ok o nodes (k - (h + 1)) (Nat.min (k + h - 1) (n - 1)) out Sp ltac:(lia) ltac:(lia)) as (c & -> & Lc & Xc). cbn [bind].
    destruct (add_ok (zero_row n) (k - (h + 1)) (1 / 2) c) as (r & -> & Lr & Vr); [rewrite zero_row_length; lia|]. cbn [bind].
    rewrite zero_row_length in Lr, Vr.
    destruct (one_sided_ok o nodes (k - h) (Nat.min (k + h) (n - 1)) out Sp ltac:(lia) ltac:(lia)) as (d & -> & Ld & Xd). cbn [bind].
    destruct (add_ok r (k - h) (1 / 2) d) as (r2 & -> & Lr2 & Vr2); [lia|]. cbn [bind].
    do 3 eexists. split; [reflexivity|]. split; [split; [lia|split; [lia|]]|split; [lia|split; [lia|]]].
    + intros j Hj Nj. rewrite Vr2, Vr, zero_row_val, !block_out by lia. ring.
    + apply (coef_exact_ext _ _ _ (fun j => 1 / 2 * block (k - (h + 1)) c j + 1 / 2 * block (k - h) d j));
        [intros j Hj; rewrite Vr2, Vr, zero_row_val by (fold n in Hj; lia); ring|].
      apply coef_exact_mix; [lra| |].
      * eapply coef_exact_le; [apply Nat.le_min_r|]. apply coef_exact_block; [exact Xc|fold n; lia].
      * eapply coef_exact_le; [apply Nat.le_min_l|]. apply coef_exact_block; [exact Xd|fold n; lia].
Qed.
Lemma derivative_at p g y : nth_derivative 1 (peval p) g -> (length p <= 3)%nat -> g y = nth 1 p 0 + 2 * nth 2 p 0 * y.
Proof.
  intros (h & Hd & Hg) Lp. cbn in Hg. rewrite Hg. eapply uniqueness_limite; [apply Hd|].
  assert (Q : forall a b c, derivable_pt_lim (fun x => a + x * (b + x * c)) y (b + 2 * c * y)).
  { intros a b c.
    apply (derivable_ext (plus_fct (fct_cte a) (mult_fct id (plus_fct (fct_cte b) (mult_real_fct c id)))));
      [intros; unfold plus_fct, mult_fct, fct_cte, mult_real_fct, id; ring|].
    assert (J : 0 + (1 * (plus_fct (fct_cte b) (mult_real_fct c id)) y + id y * (0 + c * 1)) = b + 2 * c * y)
      by (unfold plus_fct, mult_fct, fct_cte, mult_real_fct, id; ring).
    rewrite <- J. apply derivable_pt_lim_plus; [apply derivable_pt_lim_const|].
    apply derivable_pt_lim_mult; [apply derivable_pt_lim_id|].
    apply derivable_pt_lim_plus; [apply derivable_pt_lim_const|]. apply derivable_pt_lim_scal, derivable_pt_lim_id. }
  destruct p as [|a [|b [|c [|]]]]; cbn [length] in Lp; try lia.
  - apply (derivable_ext (fun x => 0 + x * (0 + x * 0))); [intros; cbn; ring|apply Q].
  - apply (derivable_ext (fun x => a + x * (0 + x * 0))); [intros; cbn; ring|apply Q].
  - apply (derivable_ext (fun x => a + x * (b + x * 0))); [intros; cbn; ring|apply Q].
  - apply (derivable_ext (fun x => a + x * (b + x * c))); [intros; cbn; ring|apply Q].
Qed.
Lemma slope_row_ok nodes edges k : length edges = (length nodes + 1)%nat -> spaced edges -> (k < length nodes)%nat ->
  exists r b e, slope_row nodes edges k = Some (r, b, e) /\ good (length edges) (r, b, e) /\
    (b = k /\ e = (k + 2)%nat /\ (forall y, coef_exact 1 2 edges (val r) y) /\
     coef_exact 1 3 edges (val r) ((nth k edges 0 + nth (k + 1) edges 0) / 2)).
Proof.
  intros Le Sp Hk. unfold slope_row. rewrite !rd_ok by lia. cbn [bind].
  pose proof (spaced_lt edges k (k + 1) Sp ltac:(lia)) as Lt. rewrite !div_ok by lra. cbn [bind].
  set (d := nth (k + 1) edges 0 - nth k edges 0).
  destruct (put_ok (zero_row (length edges)) k [-1 / d; 1 / d]) as (r & -> & Lr & Vr).
  { rewrite zero_row_length. cbn [length]. lia. } { intros. apply zero_row_val. }
  cbn [bind]. rewrite zero_row_length in Lr, Vr.
  assert (G : forall p, (length p <= 3)%nat -> sum (fun l => val r l * peval p (nth l edges 0)) (length edges)
                = nth 1 p 0 + nth 2 p 0 * (nth k edges 0 + nth (k + 1) edges 0)).
  { intros p Lp. rewrite (sum_ext _ (fun l => block k [-1 / d; 1 / d] l * peval p (nth l edges 0)))
      by (intros j Hj; rewrite Vr, zero_row_val by lia; ring).
    rewrite (block_sum _ _ (fun l => peval p (nth l edges 0))) by (cbn [length]; lia).
    unfold sum. cbn [length seq map fold_right nth]. rewrite Nat.add_0_r.
    assert (D : nth (k + 1) edges 0 - nth k edges 0 <> 0) by lra.
    destruct p as [|p0 [|p1 [|p2 [|]]]]; cbn [peval nth length] in *; try lia; unfold d in *; field; exact D. }
  do 3 eexists. split; [reflexivity|]. split; [split; [exact Lr|split; [lia|]]|split; [reflexivity|split; [reflexivity|split]]].
  - intros j Hj Nj. rewrite Vr, zero_row_val, block_out by (cbn [length]; lia). ring.
  - intros y p g Lp Hg. rewrite G, (derivative_at p g y Hg) by lia.
    rewrite (@nth_overflow _ p 2) by lia. ring.
  - intros p g Lp Hg. rewrite G, (derivative_at p g _ Hg) by lia. field.
Qed.
Lemma stencil_row_ok xs b e s : spaced xs -> (b <= e < length xs)%nat ->
  exists r, stencil_row xs b e s = Some (r, b, S e) /\ good (length xs) (r, b, S e) /\ coef_exact 1 (S e - b) xs (val r) s.
Proof.
  intros Sp H. unfold stencil_row. rewrite sub_ok by lia. cbn [bind].
  destruct (run_diff xs b (S e - b) s Sp ltac:(lia)) as (c & Ec & Xc). rewrite Ec. cbn [bind].
  pose proof (exact_length _ _ _ _ _ Xc) as Lc.
  destruct (put_ok (zero_row (length xs)) b c) as (r & -> & Lr & Vr).
  { rewrite zero_row_length. lia. } { intros. apply zero_row_val. }
  cbn [bind]. rewrite zero_row_length in Lr, Vr.
  exists r. split; [reflexivity|]. split; [split; [exact Lr|split; [lia|]]|].
  - intros j Hj Nj. rewrite Vr, zero_row_val, block_out by lia. ring.
  - apply (coef_exact_ext _ _ _ (block b c)); [intros j Hj; rewrite Vr, zero_row_val by lia; ring|].
    apply coef_exact_block; [exact Xc|lia].
Qed.

Lemma average_row_ok nodes edges k : length edges = (length nodes + 1)%nat -> (k < length nodes)%nat ->
  exists r b e, average_row nodes edges k = Some (r, b, e) /\ good (length edges) (r, b, e) /\
    (b = k /\ e = (k + 2)%nat /\ coef_exact 0 2 edges (val r) ((nth k edges 0 + nth (k + 1) edges 0) / 2)).
Proof.
  intros Le Hk. unfold average_row. rewrite !rd_ok by lia. cbn [bind].
  destruct (put_ok (zero_row (length edges)) k [1 / 2; 1 / 2]) as (r & -> & Lr & Vr).
  { rewrite zero_row_length. cbn [length]. lia. } { intros. apply zero_row_val. }
  cbn [bind]. rewrite zero_row_length in Lr, Vr.
  do 3 eexists. split; [reflexivity|]. split; [split; [exact Lr|split; [lia|]]|split; [reflexivity|split; [reflexivity|]]].
  - intros j Hj Nj. rewrite Vr, zero_row_val, block_out by (cbn [length]; lia). ring.
  - apply (coef_exact_ext _ _ _ (block k [1 / 2; 1 / 2])); [intros j Hj; rewrite Vr, zero_row_val by lia; ring|].
    intros p g Lp Hg. rewrite (block_sum _ _ (fun l => peval p (nth l edges 0))) by (cbn [length]; lia).
    unfold sum. cbn [length seq map fold_right nth]. rewrite Nat.add_0_r. cbn in Hg. rewrite Hg.
    destruct p as [|p0 [|p1 [|]]]; cbn [peval nth length] in *; try lia; field.
Qed.

(** ** operators from rows *)
Lemma row_local_le A r b e b' e' : (b' <= b)%nat -> (e <= e')%nat -> row_local A r b e -> row_local A r b' e'.
Proof. intros Hb He H u v E. apply H. intros l Hl. apply E. lia. Qed.
Lemma build_inv nin nout f A : build nin nout f = Built A -> nin <> 0%nat /\ nout <> 0%nat /\ ncol A = nin /\ nrow A = nout /\
  forall l, (l < nout)%nat -> f l = Some (nth l (coef A) [], nth l (beg A) 0%nat, nth l (fin A) 0%nat).
Proof.
  unfold build. destruct (Nat.eqb_spec nin 0); [discriminate|]. destruct (Nat.eqb_spec nout 0); [discriminate|]. cbn [orb].
  destruct (rows f (seq 0 nout)) as [L|] eqn:E; [|discriminate]. intros H. injection H as <-. cbn [ncol]. unfold nrow. cbn [coef beg fin].
  assert (G : forall m s L, rows f (seq s m) = Some L -> length L = m /\ forall l d, (l < m)%nat -> f (s + l)%nat = Some (nth l L d)).
  { induction m as [|m IH]; intros s L' H; cbn [seq rows] in H.
    - injection H as <-. split; [reflexivity|intros; lia].
    - destruct (f s) as [t|] eqn:Et; [|discriminate]. cbn [bind] in H. destruct (rows f (seq (S s) m)) as [L1|] eqn:E1; [|discriminate].
      cbn [bind] in H. injection H as <-. destruct (IH _ _ E1) as (A1 & A2). split; [cbn; lia|].
      intros [|l] d Hl; cbn [nth]; [rewrite Nat.add_0_r; exact Et|rewrite <- Nat.add_succ_comm; apply A2; lia]. }
  destruct (G _ _ _ E) as (LL & HL). rewrite map_length.
  do 4 (split; [assumption || reflexivity|]). intros l Hl. rewrite <- (Nat.add_0_l l) at 1.
  set (d := (@nil R, 0%nat, 0%nat)). rewrite (HL l d Hl).
  change (@nil R) with (fst (fst d)) at 1. rewrite (map_nth (fun t : frow => fst (fst t))).
  change (nth l (map (fun t : frow => snd (fst t)) L) 0%nat) with (nth l (map (fun t : frow => snd (fst t)) L) (snd (fst d))).
  rewrite (map_nth (fun t : frow => snd (fst t))).
  change (nth l (map (fun t : frow => snd t) L) 0%nat) with (nth l (map (fun t : frow => snd t) L) (snd d)).
  rewrite (map_nth (fun t : frow => snd t)). destruct (nth l L d) as [[? ?] ?]. reflexivity.
Qed.
Lemma build_some nin nout f : nin <> 0%nat -> nout <> 0%nat -> (forall l, (l < nout)%nat -> exists t, f l = Some t) -> exists A, build nin nout f = Built A.
Proof.
  intros Hi Ho H. unfold build. destruct (Nat.eqb_spec nin 0); [contradiction|]. destruct (Nat.eqb_spec nout 0); [contradiction|]. cbn [orb].
  destruct (rows_ok f nout H) as (L & -> & _). eexists. reflexivity.
Qed.
Lemma exact_compose A B C xs ys n m r y : wf A -> wf B -> ncol A = nrow B -> compose A B = Ok C ->
  (forall col r, (r < nrow A)%nat -> apply1 C col r = apply1 A (apply1 B col) r) -> (r < nrow A)%nat ->
  (m <= n)%nat -> row_exact 1 n A ys r y -> (forall j, (j < nrow B)%nat -> row_exact 0 m B xs j (nth j ys 0)) ->
  row_exact 1 m C xs r y.
Proof.
  intros WA WB E EC HC Hr L XA XB p g Lp Hg. rewrite HC by exact Hr.
  rewrite <- (XA p g ltac:(lia) Hg). rewrite !apply1_matvec by assumption. unfold matvec. apply sum_ext. intros j Hj.
  f_equal. apply (XB j ltac:(lia) p (peval p)); [exact Lp|]. intros t. reflexivity.
Qed.
