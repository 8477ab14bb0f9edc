(** * Properties of the vertical interpolation and differentiation operators *)
From Coq Require Import Reals List Arith Lia Lra Bool.
From Verif Require Import QuadSpec InterpModel InterpSpec InterpProofs ColModel ColSpec ColProofs ColProps FemModel FemSpec FemProofs FemProofs2.
Import ListNotations.
Local Open Scope R_scope.

Local Ltac guards C :=
  let Ho := fresh "Ho" in let Hne := fresh "Hne" in let Ln := fresh "Ln" in let Le := fresh "Le" in
  pose proof C as (Ho & Hne & Ln & Le & _ & _);
  match goal with |- context [(?o =? 0)%nat] => destruct (Nat.eqb_spec o 0) as [?|_]; [lia|] end;
  match goal with |- context [(length ?n =? 0)%nat] => destruct (Nat.eqb_spec (length n) 0) as [?|_]; [nia|] end;
  rewrite Le, Ln, Nat.eqb_refl, Nat.mod_mul by lia; cbn [negb Nat.eqb]; rewrite <- ?Ln.

(** ** C50: interpolation *)
(** from interfaces: exact for polynomials of the order, at the requested point
    or at the interior element edge within 1e-12 of it, from the points of the
    element around it only *)
Theorem C50_interfaces : forall o ne nodes edges outs, column o ne nodes edges -> outs <> [] ->
  exists A, interp Interfaces o nodes edges outs false = Built A /\ wf A /\ nrow A = length outs /\ ncol A = length edges /\
  forall r, (r < length outs)%nat -> exists a y,
    near_element edges o ne a (nth r outs 0) /\ row_local A r (a * o) (S a * o + 1) /\
    row_exact 0 (o + 1) A edges r y /\ Rabs (nth r outs 0 - y) <= / 10 ^ 12 /\
    (y = nth r outs 0 \/ exists i, (0 < i < ne)%nat /\ y = nth (i * o) edges 0).
Proof.
  intros o ne nodes edges outs C N. pose proof C as (Ho & Hne & Ln & Le & _ & _).
  unfold interp. cbv zeta. cbn [andb orb]. guards C. cbn [rows_in].
  destruct (build_ok (length nodes + 1) (length outs) (interp_row Interfaces o nodes edges outs)
    (fun l c b e => exists a y, near_element edges o ne a (nth l outs 0) /\ (a * o <= b)%nat /\ (e <= S a * o + 1)%nat /\
      coef_exact 0 (o + 1) edges c y /\ Rabs (nth l outs 0 - y) <= eps /\
      (y = nth l outs 0 \/ exists i, (0 < i < ne)%nat /\ y = nth (i * o) edges 0))) as (A & EA & WA & NA & CA & HA).
  { lia. } { destruct outs; [contradiction|discriminate]. }
  { intros l Hl. destruct (interp_row_interfaces o ne nodes edges outs C l Hl) as (r & b & e & E & G & H). exists r, b, e. split; [exact E|split; [exact G|exact H]]. }
  exists A. split; [exact EA|]. split; [exact WA|]. split; [exact NA|]. split; [lia|].
  intros r Hr. destruct (HA r Hr) as (a & y & Near & B & E & X & Y & Z). exists a, y. split; [exact Near|].
  split; [eapply row_local_le; [exact B|exact E|apply local_apply; reflexivity]|].
  split; [|split; [exact Y|exact Z]]. apply exact_apply; [exact WA|lia|lia|]. exact X.
Qed.

(** from levels: exact at the requested point for polynomials with as many
    coefficients as levels per element, from the levels of the element and, on an
    element edge or at first order, a neighbour *)
Theorem C50_levels : forall o ne nodes edges outs, column o ne nodes edges -> outs <> [] -> order_one_ok o ne edges outs ->
  exists A, interp Levels o nodes edges outs false = Built A /\ wf A /\ nrow A = length outs /\ ncol A = length nodes /\
  forall r, (r < length outs)%nat ->
    row_exact 0 o A nodes r (nth r outs 0) /\
    exists a, near_element edges o ne a (nth r outs 0) /\ row_local A r (pred a * o) ((a + 2) * o) /\
      (o <> 1%nat -> row_local A r (a * o) ((a + 2) * o)).
Proof.
  intros o ne nodes edges outs C N O1. pose proof C as (Ho & Hne & Ln & Le & _ & _).
  unfold interp. cbv zeta. cbn [andb orb]. guards C. cbn [rows_in].
  destruct (build_ok (length nodes) (length outs) (interp_row Levels o nodes edges outs)
    (fun l c b e => exists a, near_element edges o ne a (nth l outs 0) /\ (pred a * o <= b)%nat /\ (o <> 1%nat -> (a * o <= b)%nat) /\ (e <= (a + 2) * o)%nat /\
      coef_exact 0 o nodes c (nth l outs 0))) as (A & EA & WA & NA & CA & HA).
  { nia. } { destruct outs; [contradiction|discriminate]. }
  { intros l Hl. destruct (interp_row_levels o ne nodes edges outs C l O1 Hl) as (r & b & e & E & G & H). exists r, b, e. split; [exact E|split; [exact G|exact H]]. }
  exists A. split; [exact EA|]. split; [exact WA|]. split; [exact NA|]. split; [exact CA|].
  intros r Hr. destruct (HA r Hr) as (a & Near & B & B' & E & X). split; [apply exact_apply; [exact WA|lia|lia|exact X]|].
  exists a. split; [exact Near|]. split; [eapply row_local_le; [exact B|exact E|apply local_apply; reflexivity]|].
  intros O. eapply row_local_le; [exact (B' O)|exact E|apply local_apply; reflexivity].
Qed.

(** zero boundaries: the outputs at 0 and at 1 are zero, the others unchanged *)
Theorem C50_boundaries : forall src o nodes edges outs A, interp src o nodes edges outs false = Built A ->
  exists B, interp src o nodes edges outs true = Built B /\ nrow B = length outs /\ ncol B = ncol A /\
  forall u r, (r < length outs)%nat ->
    ((r = 0%nat /\ Rabs (nth 0 outs 0) < / 10 ^ 12) \/ (r = (length outs - 1)%nat /\ Rabs (nth r outs 0 - 1) < / 10 ^ 12) -> apply1 B u r = 0) /\
    (~ (r = 0%nat /\ Rabs (nth 0 outs 0) < / 10 ^ 12) -> ~ (r = (length outs - 1)%nat /\ Rabs (nth r outs 0 - 1) < / 10 ^ 12) -> apply1 B u r = apply1 A u r).
Proof.
  intros src o nodes edges outs A. unfold interp. destruct (o =? 0)%nat; [discriminate|]. destruct (length nodes =? 0)%nat; [discriminate|].
  destruct (negb (length edges =? length nodes + 1)%nat); [discriminate|]. destruct (negb (length nodes mod o =? 0)%nat); [discriminate|].
  cbv zeta. cbn [andb orb]. intros H. apply build_inv in H. destruct H as (Ni & No & CA & NA & HA). fold eps.
  set (first := if Rlt_dec (Rabs (nth 0 outs 0)) eps then true else false).
  set (last := if Rlt_dec (Rabs (nth (length outs - 1) outs 0 - 1)) eps then true else false).
  match goal with |- exists B, build _ _ ?g = _ /\ _ => set (f := g) end.
  destruct (build_some _ _ f Ni No) as (B & EB).
  { intros l Hl. unfold f. destruct ((first && (l =? 0)%nat) || (last && (l =? length outs - 1)%nat))%bool; [eexists; reflexivity|].
    rewrite HA by exact Hl. eexists. reflexivity. }
  exists B. split; [exact EB|]. apply build_inv in EB. destruct EB as (_ & _ & CB & NB & HB).
  split; [exact NB|]. split; [congruence|]. intros u r Hr. specialize (HB r Hr). unfold f in HB. split.
  - intros T. replace ((first && (r =? 0)%nat) || (last && (r =? length outs - 1)%nat))%bool with true in HB.
    + injection HB as Ec Eb Ee. unfold apply1. rewrite <- Eb, <- Ee. reflexivity.
    + symmetry. apply orb_true_iff. destruct T as [(-> & T)|(-> & T)]; [left|right]; apply andb_true_iff; split; try apply Nat.eqb_refl.
      * unfold first. destruct (Rlt_dec (Rabs (nth 0 outs 0)) eps); [reflexivity|contradiction].
      * unfold last. destruct (Rlt_dec (Rabs (nth (length outs - 1) outs 0 - 1)) eps); [reflexivity|contradiction].
  - intros F1 F2. replace ((first && (r =? 0)%nat) || (last && (r =? length outs - 1)%nat))%bool with false in HB.
    + rewrite (HA r Hr) in HB. injection HB as Ec Eb Ee. unfold apply1, getc. rewrite <- Ec, <- Eb, <- Ee. reflexivity.
    + symmetry. apply orb_false_iff. split; apply andb_false_iff.
      * destruct (Nat.eqb_spec r 0) as [Er|Nr]; [left|right; reflexivity]. unfold first. destruct (Rlt_dec (Rabs (nth 0 outs 0)) eps); [|reflexivity]. exfalso. apply F1. split; assumption.
      * destruct (Nat.eqb_spec r (length outs - 1)) as [E|Nr]; [left|right; reflexivity]. unfold last. destruct (Rlt_dec (Rabs (nth (length outs - 1) outs 0 - 1)) eps); [|reflexivity].
        exfalso. apply F2. split; [exact E|]. rewrite E. assumption.
Qed.

(** at first order a single element makes the interpolation from levels read
    past the levels *)
Theorem C50_single_refuted : forall nodes edges outs, column 1 1 nodes edges -> outs <> [] ->
  interp Levels 1 nodes edges outs false = Undefined.
Proof.
  intros nodes edges outs C N. pose proof C as (_ & _ & Ln & Le & _ & _). unfold interp. cbv zeta. cbn [andb orb].
  guards C. unfold build. cbn [rows_in]. rewrite Ln. cbn [Nat.mul Nat.add Nat.eqb orb]. destruct outs as [|y t]; [contradiction|]. cbn [length Nat.eqb].
  cbn [seq rows]. replace (interp_row _ _ _ _ _ _) with (@None frow); [reflexivity|]. symmetry.
  unfold interp_row. cbn [rd nth_error bind length]. rewrite Ln. change (1 * 1 / 1 - 1)%nat with 0%nat. cbn [search bind Nat.eqb andb].
  unfold sub. rewrite Ln. reflexivity.
Qed.
(** and a first output on the only interior interface makes it write past the row *)
Theorem C50_first_output_refuted : forall nodes edges outs, column 1 2 nodes edges -> nth 0 outs 0 = nth 1 edges 0 -> outs <> [] ->
  interp Levels 1 nodes edges outs false = Undefined.
Proof.
  intros nodes edges outs C Y N. pose proof C as (_ & _ & Ln & Le & Sn & Se). unfold interp. cbv zeta. cbn [andb orb].
  guards C. unfold build. cbn [rows_in]. rewrite Ln. cbn [Nat.mul Nat.add Nat.eqb orb]. destruct outs as [|y t]; [contradiction|]. cbn [length Nat.eqb].
  cbn [seq rows]. replace (interp_row _ _ _ _ _ _) with (@None frow); [reflexivity|]. symmetry.
  cbn [nth] in Y. subst y.
  unfold interp_row. cbn [rd nth_error bind length]. rewrite Ln. replace (2 * 1 / 1 - 1)%nat with 1%nat by reflexivity. cbn [search].
  rewrite rd_ok by (rewrite Le; lia). cbn [bind Nat.add Nat.mul]. pose proof eps_pos.
  destruct (Rlt_dec _ _) as [L|_]; [exfalso; lra|]. destruct (Rlt_dec _ _) as [_|L]; [|exfalso; lra]. cbn [bind Nat.eqb andb].
  rewrite sub_ok by (rewrite Ln; lia). cbn [bind].
  destruct (run_lagrange nodes 0 2 (nth 1 edges 0) Sn ltac:(rewrite Ln; lia)) as (c & Ec & Xc). cbn [Nat.add Nat.mul] in *. rewrite Ec. cbn [bind].
  pose proof (exact_length _ _ _ _ _ Xc) as Lc.
  destruct (put_ok (zero_row 2) 0 c) as (r & Er & Lr & Vr); [rewrite zero_row_length; lia|intros; apply zero_row_val|]. rewrite Er. cbn [bind].
  destruct (edge_weights_ok edges 1 2 0 ltac:(lia) Le Se ltac:(lia)) as (wl & wr & Ew & _). rewrite Ew. cbn [bind].
  rewrite sub_ok by (rewrite Ln; lia). cbn [bind].
  destruct (run_lagrange nodes 1 1 (nth 1 edges 0) Sn ltac:(rewrite Ln; lia)) as (d & Ed & Xd). cbn [Nat.add Nat.mul] in *. rewrite Ed. cbn [bind].
  pose proof (exact_length _ _ _ _ _ Xd) as Ld. unfold put at 1, modify. rewrite Lr, zero_row_length, Ld. reflexivity.
Qed.

(** the reconstructed operator from levels to interfaces: exact for half the
    order everywhere and for one less than the order away from the boundaries *)
Theorem C50_reconstructed : forall o nodes edges, (2 <= o)%nat -> (o mod 2 = 0)%nat -> spaced nodes -> (o / 2 <= length nodes)%nat ->
  length edges = (length nodes + 1)%nat ->
  exists A, interp_rec o nodes edges = Built A /\ wf A /\ nrow A = length edges /\ ncol A = length nodes /\
  forall k, (k < length edges)%nat -> row_exact 0 (o / 2) A nodes k (nth k edges 0) /\
    ((o / 2 <= k)%nat -> (k + o / 2 <= length nodes)%nat -> row_exact 0 (o - 1) A nodes k (nth k edges 0)) /\
    row_local A k (k - o / 2) (k + o / 2).
Proof.
  intros o nodes edges O2 Om Sp Hn Le. destruct (half o O2 Om) as (H1 & H2). unfold interp_rec.
  destruct (Nat.eqb_spec (length nodes) 0); [lia|]. destruct (Nat.eqb_spec (length edges) 0); [lia|]. rewrite Om. cbn [Nat.eqb negb].
  destruct (build_ok (length nodes) (length edges) (interp_rec_row o nodes edges) (fun k c b e => (k - o / 2 <= b)%nat /\ (k < length nodes -> e <= k + o / 2)%nat /\
     (e <= length nodes)%nat /\ coef_exact 0 (count o k (length nodes)) nodes c (nth k edges 0))) as (A & EA & WA & NA & CA & HA); try lia.
  { intros k Hk. destruct (interp_rec_row_ok o nodes edges k O2 Om Sp ltac:(lia) Le Hk) as (r & b & e & E & G & B1 & B2 & X).
    exists r, b, e. split; [exact E|]. split; [exact G|]. repeat split; try assumption. apply G. }
  exists A. split; [exact EA|]. split; [exact WA|]. split; [exact NA|]. split; [exact CA|].
  intros k Hk. destruct (HA k Hk) as (B1 & B2 & B3 & X).
  assert (R0 : forall m, (m <= count o k (length nodes))%nat -> row_exact 0 m A nodes k (nth k edges 0)).
  { intros m Hm. apply exact_apply; [exact WA|lia|lia|]. exact (coef_exact_le _ _ _ _ _ _ Hm X). }
  split; [apply R0|split; [intros K1 K2; apply R0|]].
  - unfold count, left_first, left_last, right_first, right_last. set (h := ((o - 2) / 2)%nat) in *.
    destruct (Nat.eqb_spec k 0); [|destruct (Nat.eqb_spec k (length nodes))]; lia.
  - unfold count, left_first, left_last, right_first, right_last. set (h := ((o - 2) / 2)%nat) in *.
    destruct (Nat.eqb_spec k 0); [|destruct (Nat.eqb_spec k (length nodes))]; lia.
  - eapply row_local_le; [exact B1| |apply local_apply; reflexivity].
    destruct (lt_dec k (length nodes)) as [L|L]; [apply B2; exact L|lia].
Qed.
(** from interfaces to levels: the average, exact for linear functions at the
    middle of the layer *)
Theorem C50_average : forall o nodes edges, (o mod 2 = 0)%nat -> nodes <> [] -> length edges = (length nodes + 1)%nat ->
  exists A, average_rec o nodes edges = Built A /\ wf A /\ nrow A = length nodes /\ ncol A = length edges /\
  forall k, (k < length nodes)%nat -> row_exact 0 2 A edges k ((nth k edges 0 + nth (k + 1) edges 0) / 2) /\ row_local A k k (k + 2).
Proof.
  intros o nodes edges Om N Le. unfold average_rec.
  assert (N0 : length nodes <> 0%nat) by (destruct nodes; [contradiction|discriminate]).
  destruct (Nat.eqb_spec (length nodes) 0); [lia|]. destruct (Nat.eqb_spec (length edges) 0); [lia|]. rewrite Om. cbn [Nat.eqb negb].
  destruct (build_ok (length edges) (length nodes) (average_row nodes edges) (fun k c b e => b = k /\ e = (k + 2)%nat /\
     coef_exact 0 2 edges c ((nth k edges 0 + nth (k + 1) edges 0) / 2))) as (A & EA & WA & NA & CA & HA); try lia.
  { intros k Hk. destruct (average_row_ok nodes edges k Le Hk) as (r & b & e & E & G & H). exists r, b, e. split; [exact E|]. split; [exact G|exact H]. }
  exists A. split; [exact EA|]. split; [exact WA|]. split; [exact NA|]. split; [exact CA|].
  intros k Hk. destruct (HA k Hk) as (B & E & X). split; [apply exact_apply; [exact WA|lia|lia|exact X]|]. apply local_apply; assumption.
Qed.

(** ** C51: differentiation *)
Lemma diff_interface_ok o ne nodes edges outs : column o ne nodes edges -> outs <> [] ->
  exists A, build (length nodes + 1) (length outs) (diff_row (length nodes / o) o edges outs) = Built A /\ wf A /\ nrow A = length outs /\ ncol A = length edges /\
  forall r, (r < length outs)%nat -> row_exact 1 (o + 1) A edges r (nth r outs 0) /\
    exists a, near_element edges o ne a (nth r outs 0) /\ row_local A r (a * o) ((a + 2) * o + 1).
Proof.
  intros C N. pose proof C as (Ho & Hne & Ln & Le & Sn & Se).
  destruct (build_ok (length nodes + 1) (length outs) (diff_row (length nodes / o) o edges outs)
    (fun l c b e => exists a, near_element edges o ne a (nth l outs 0) /\ (a * o <= b)%nat /\ (e <= (a + 2) * o + 1)%nat /\
      coef_exact 1 (o + 1) edges c (nth l outs 0))) as (A & EA & WA & NA & CA & HA).
  { lia. } { destruct outs; [contradiction|discriminate]. }
  { intros l Hl. rewrite (elements _ _ _ _ C). destruct (diff_row_ok ne o edges outs l Ho Hne Le Se Hl) as (r & b & e & E & G & H).
    replace (length nodes + 1)%nat with (length edges) by lia. exists r, b, e. split; [exact E|split; [exact G|exact H]]. }
  exists A. split; [exact EA|]. split; [exact WA|]. split; [exact NA|]. split; [lia|].
  intros r Hr. destruct (HA r Hr) as (a & Near & B & E & X). split; [apply exact_apply; [exact WA|lia|lia|exact X]|].
  exists a. split; [exact Near|]. eapply row_local_le; [exact B|exact E|apply local_apply; reflexivity].
Qed.
(** from interfaces: the exact derivative, at the requested point, of every
    polynomial of the order *)
Theorem C51_interfaces : forall o ne nodes edges outs zero, column o ne nodes edges -> outs <> [] ->
  exists A, diff_interface Interfaces o nodes edges outs zero = Built A /\ wf A /\ nrow A = length outs /\ ncol A = length edges /\
  forall r, (r < length outs)%nat -> row_exact 1 (o + 1) A edges r (nth r outs 0) /\
    exists a, near_element edges o ne a (nth r outs 0) /\ row_local A r (a * o) ((a + 2) * o + 1).
Proof.
  intros o ne nodes edges outs zero C N. destruct (diff_interface_ok o ne nodes edges outs C N) as (A & EA & H).
  exists A. split; [|exact H]. unfold diff_interface. cbv zeta. guards C. exact EA.
Qed.

Lemma edges_order_one o ne nodes edges : column o ne nodes edges -> (o = 1%nat -> (2 <= ne)%nat) -> order_one_ok o ne edges edges.
Proof.
  intros (Ho & Hne & Ln & Le & Sn & Se) H O. specialize (H O). fold eps. pose proof spacing_pos as (_ & P).
  rewrite O, Nat.mul_1_r in Le. split; [exact H|]. split.
  - generalize (Se 0 1 ltac:(lia))%nat. pose proof eps_pos. lra.
  - intros _. generalize (Se 1 (length edges - 1) ltac:(lia))%nat. pose proof eps_pos. lra.
Qed.
(** from levels: interpolation to the interfaces first; exact for polynomials
    with as many coefficients as levels per element *)
Theorem C51_levels : forall o ne nodes edges outs, column o ne nodes edges -> outs <> [] -> (o = 1%nat -> (2 <= ne)%nat) ->
  exists A, diff_interface Levels o nodes edges outs false = Built A /\ wf A /\ nrow A = length outs /\ ncol A = length nodes /\
  forall r, (r < length outs)%nat -> row_exact 1 o A nodes r (nth r outs 0).
Proof.
  intros o ne nodes edges outs C N O1. pose proof C as (Ho & Hne & Ln & Le & Sn & Se).
  destruct (diff_interface_ok o ne nodes edges outs C N) as (A & EA & WA & NA & CA & HA).
  destruct (C50_levels o ne nodes edges edges C) as (B & EB & WB & NB & CB & HB).
  { destruct edges; [cbn in Le; lia|discriminate]. } { exact (edges_order_one _ _ _ _ C O1). }
  assert (No : length outs <> 0%nat) by (destruct outs; [contradiction|discriminate]).
  destruct (proj2 (C34_compose A B WA WB ltac:(lia) ltac:(nia)) ltac:(lia)) as (D & ED & WD & ND & CD & HD).
  exists D. split.
  { unfold diff_interface. cbv zeta. guards C. rewrite EA, EB. cbn [compose_outcome]. rewrite ED. reflexivity. }
  split; [exact WD|]. split; [lia|]. split; [lia|]. intros r Hr.
  apply (exact_compose A B D nodes edges (o + 1) o r); try assumption; try lia.
  - apply HA. exact Hr.
  - intros j Hj. apply HB. lia.
Qed.
(** with zero boundaries: for those polynomials that vanish at both ends *)
Theorem C51_levels_zero : forall o ne nodes edges outs, column o ne nodes edges -> outs <> [] -> (o = 1%nat -> (2 <= ne)%nat) ->
  exists A, diff_interface Levels o nodes edges outs true = Built A /\ nrow A = length outs /\ ncol A = length nodes /\
  forall r p g, (r < length outs)%nat -> (length p <= o)%nat -> nth_derivative 1 (peval p) g ->
    peval p (nth 0 edges 0) = 0 -> peval p (nth (length edges - 1) edges 0) = 0 ->
    apply1 A (fun l => peval p (nth l nodes 0)) r = g (nth r outs 0).
Proof.
  intros o ne nodes edges outs C N O1. pose proof C as (Ho & Hne & Ln & Le & Sn & Se).
  destruct (diff_interface_ok o ne nodes edges outs C N) as (A & EA & WA & NA & CA & HA).
  destruct (C50_levels o ne nodes edges edges C) as (B & EB & WB & NB & CB & HB).
  { destruct edges; [cbn in Le; lia|discriminate]. } { exact (edges_order_one _ _ _ _ C O1). }
  destruct (C50_boundaries _ _ _ _ _ _ EB) as (Z & EZ & NZ & CZ & HZ).
  assert (No : length outs <> 0%nat) by (destruct outs; [contradiction|discriminate]).
  destruct (compose_ok A Z ltac:(lia) ltac:(lia) ltac:(nia)) as (D & ED & WD & ND & CD & GD).
  exists D. split.
  { unfold diff_interface. cbv zeta. guards C. rewrite EA, EZ. cbn [compose_outcome]. rewrite ED. reflexivity. }
  split; [lia|]. split; [lia|]. intros r p g Hr Lp Hg P0 P1.
  assert (WZ : forall u j, (j < nrow Z)%nat -> apply1 Z u j = sum (fun l => getc Z j l * u l) (ncol Z)).
  { assert (W : wf Z); [|intros; apply apply1_matvec; assumption].
    unfold interp in EZ. destruct (o =? 0)%nat; [discriminate|]. destruct (length nodes =? 0)%nat; [discriminate|].
    destruct (negb (length edges =? length nodes + 1)%nat); [discriminate|]. destruct (negb (length nodes mod o =? 0)%nat); [discriminate|].
    cbv zeta in EZ. cbn [andb] in EZ.
    match type of EZ with build ?a ?b ?f = _ => destruct (build_ok a b f (fun _ _ _ _ => True)) as (Z' & EZ' & WZ' & _) end.
    - cbn [rows_in]. nia.
    - lia.
    - intros l Hl. match goal with |- context [if ?b then _ else _] => destruct b end.
      + do 3 eexists. split; [reflexivity|]. split; [|exact I]. split; [apply zero_row_length|]. split; [lia|]. intros. apply zero_row_val.
      + destruct (interp_row_levels o ne nodes edges edges C l (edges_order_one _ _ _ _ C O1) Hl) as (q & b & e & E & G & _).
        exists q, b, e. split; [exact E|]. split; [exact G|exact I].
    - rewrite EZ' in EZ. injection EZ as <-. exact WZ'. }
  rewrite apply1_matvec by (try assumption; lia). unfold matvec. rewrite CD.
  rewrite (sum_ext _ (fun l => sum (fun k => getc A r k * getc Z k l * peval p (nth l nodes 0)) (ncol A))).
  2: { intros l Hl. rewrite GD by lia. symmetry. apply sum_scale_r. }
  rewrite sum_swap. destruct (HA r Hr) as (XA & _). rewrite <- (XA p g ltac:(lia) Hg).
  rewrite apply1_matvec by (try assumption; lia). unfold matvec. apply sum_ext. intros k Hk.
  rewrite (sum_ext _ (fun l => getc A r k * (getc Z k l * peval p (nth l nodes 0)))) by (intros; ring). rewrite sum_scale. f_equal.
  rewrite <- (WZ (fun l => peval p (nth l nodes 0))) by lia.
  destruct (HZ (fun l => peval p (nth l nodes 0)) k ltac:(lia)) as (Z0 & Z1).
  assert (X : apply1 B (fun l => peval p (nth l nodes 0)) k = peval p (nth k edges 0)).
  { destruct (HB k ltac:(lia)) as (XB & _). apply (XB p (peval p) Lp). intros t. reflexivity. }
  destruct (Rlt_dec (Rabs (nth 0 edges 0)) (/ 10 ^ 12)) as [L0|L0]; [destruct (Nat.eq_dec k 0) as [->|K0]|].
  - rewrite Z0, P0 by (left; split; [reflexivity|assumption]). reflexivity.
  - destruct (Nat.eq_dec k (length edges - 1)) as [K1|K1]; [destruct (Rlt_dec (Rabs (nth k edges 0 - 1)) (/ 10 ^ 12)) as [L1|L1]|].
    + rewrite Z0 by (right; split; [exact K1|exact L1]). rewrite K1, P1. reflexivity.
    + rewrite Z1 by (intros (? & ?); contradiction). exact X.
    + rewrite Z1 by (intros (? & ?); contradiction). exact X.
  - destruct (Nat.eq_dec k (length edges - 1)) as [K1|K1]; [destruct (Rlt_dec (Rabs (nth k edges 0 - 1)) (/ 10 ^ 12)) as [L1|L1]|].
    + rewrite Z0 by (right; split; [exact K1|exact L1]). rewrite K1, P1. reflexivity.
    + rewrite Z1 by (intros (? & ?); contradiction). exact X.
    + rewrite Z1 by (intros (? & ?); contradiction). exact X.
Qed.
(** levels shared between elements *)
Theorem C51_gll : forall o ne nodes outs, (2 <= o)%nat -> (0 < ne)%nat -> length nodes = (ne * (o - 1) + 1)%nat -> spaced nodes -> outs <> [] ->
  exists A, diff_gll o nodes outs = Built A /\ wf A /\ nrow A = length outs /\ ncol A = length nodes /\
  forall r, (r < length outs)%nat -> row_exact 1 o A nodes r (nth r outs 0) /\
    exists a, near_element nodes (o - 1) ne a (nth r outs 0) /\ row_local A r (a * (o - 1)) ((a + 2) * (o - 1) + 1).
Proof.
  intros o ne nodes outs O2 Hne Ln Sn N. unfold diff_gll.
  destruct (Nat.leb_spec o 1) as [Ho1|Ho1]; [lia|]. destruct (Nat.eqb_spec (length nodes) 0); [lia|].
  replace (length nodes - 1)%nat with (ne * (o - 1))%nat by lia. rewrite Nat.mod_mul, Nat.div_mul by lia. cbn [Nat.eqb negb].
  destruct (build_ok (length nodes) (length outs) (diff_row ne (o - 1) nodes outs)
    (fun l c b e => exists a, near_element nodes (o - 1) ne a (nth l outs 0) /\ (a * (o - 1) <= b)%nat /\ (e <= (a + 2) * (o - 1) + 1)%nat /\
      coef_exact 1 (o - 1 + 1) nodes c (nth l outs 0))) as (A & EA & WA & NA & CA & HA).
  { lia. } { destruct outs; [contradiction|discriminate]. }
  { intros l Hl. destruct (diff_row_ok ne (o - 1) nodes outs l ltac:(lia) Hne Ln Sn Hl) as (r & b & e & E & G & H).
    exists r, b, e. split; [exact E|split; [exact G|exact H]]. }
  exists A. split; [exact EA|]. split; [exact WA|]. split; [exact NA|]. split; [lia|].
  intros r Hr. destruct (HA r Hr) as (a & Near & B & E & X). replace (o - 1 + 1)%nat with o in X by lia.
  split; [apply exact_apply; [exact WA|lia|lia|exact X]|].
  exists a. split; [exact Near|]. eapply row_local_le; [exact B|exact E|apply local_apply; reflexivity].
Qed.

(** ** reconstructed derivatives *)
Lemma slope_ok nodes edges : nodes <> [] -> length edges = (length nodes + 1)%nat -> spaced edges ->
  exists A, slope_rec nodes edges = Built A /\ wf A /\ nrow A = length nodes /\ ncol A = length edges /\
  forall k, (k < length nodes)%nat -> (forall y, row_exact 1 2 A edges k y) /\
    row_exact 1 3 A edges k ((nth k edges 0 + nth (k + 1) edges 0) / 2) /\ row_local A k k (k + 2).
Proof.
  intros N Le Se. unfold slope_rec.
  assert (N0 : length nodes <> 0%nat) by (destruct nodes; [contradiction|discriminate]).
  destruct (build_ok (length edges) (length nodes) (slope_row nodes edges) (fun k c b e => b = k /\ e = (k + 2)%nat /\
     (forall y, coef_exact 1 2 edges c y) /\ coef_exact 1 3 edges c ((nth k edges 0 + nth (k + 1) edges 0) / 2))) as (A & EA & WA & NA & CA & HA); try lia.
  { intros k Hk. destruct (slope_row_ok nodes edges k Le Se Hk) as (r & b & e & E & G & H). exists r, b, e. split; [exact E|]. split; [exact G|exact H]. }
  exists A. split; [exact EA|]. split; [exact WA|]. split; [exact NA|]. split; [exact CA|].
  intros k Hk. destruct (HA k Hk) as (B & E & X & Y). split; [intros y; apply exact_apply; [exact WA|lia|lia|exact (X y)]|].
  split; [apply exact_apply; [exact WA|lia|lia|exact Y]|]. apply local_apply; assumption.
Qed.
(** interfaces to levels: exact for linear functions, at the middle of the layer for quadratic ones *)
Theorem C51_slope : forall o nodes edges, (2 <= o)%nat -> (o mod 2 = 0)%nat -> nodes <> [] -> length edges = (length nodes + 1)%nat -> spaced edges ->
  exists A, diff_rec Interfaces Levels o nodes edges = Built A /\ wf A /\ nrow A = length nodes /\ ncol A = length edges /\
  forall k, (k < length nodes)%nat -> (forall y, row_exact 1 2 A edges k y) /\
    row_exact 1 3 A edges k ((nth k edges 0 + nth (k + 1) edges 0) / 2) /\ row_local A k k (k + 2).
Proof.
  intros o nodes edges O2 Om N Le Se. unfold diff_rec.
  destruct (Nat.eqb_spec (length nodes) 0) as [E|_]; [destruct nodes; [contradiction|discriminate]|].
  destruct (Nat.eqb_spec (length edges) 0); [lia|]. destruct (Nat.ltb_spec o 2); [lia|]. rewrite Om. cbn [Nat.eqb negb].
  apply slope_ok; assumption.
Qed.
(** interfaces to interfaces *)
Theorem C51_interfaces_reconstructed : forall o nodes edges, (2 <= o)%nat -> (o mod 2 = 0)%nat -> nodes <> [] -> spaced edges -> (o / 2 < length edges)%nat ->
  exists A, diff_rec Interfaces Interfaces o nodes edges = Built A /\ wf A /\ nrow A = length edges /\ ncol A = length edges /\
  forall k, (k < length edges)%nat -> row_exact 1 (o / 2 + 1) A edges k (nth k edges 0) /\
    ((o / 2 <= k)%nat -> (k + o / 2 < length edges)%nat -> row_exact 1 (o + 1) A edges k (nth k edges 0)) /\
    row_local A k (k - o / 2) (k + o / 2 + 1).
Proof.
  intros o nodes edges O2 Om N Se Hn. destruct (half o O2 Om) as (_ & H2). unfold diff_rec.
  destruct (Nat.eqb_spec (length nodes) 0) as [E|_]; [destruct nodes; [contradiction|discriminate]|].
  destruct (Nat.eqb_spec (length edges) 0); [lia|]. destruct (Nat.ltb_spec o 2); [lia|]. rewrite Om. cbn [Nat.eqb negb].
  destruct (build_ok (length edges) (length edges) (fun k => out <- rd edges k; stencil_row edges (k - o / 2) (Nat.min (k + o / 2) (length edges - 1)) out)
    (fun k c b e => b = (k - o / 2)%nat /\ e = S (Nat.min (k + o / 2) (length edges - 1)) /\ coef_exact 1 (e - b) edges c (nth k edges 0))) as (A & EA & WA & NA & CA & HA); try lia.
  { intros k Hk. rewrite rd_ok by exact Hk. cbn [bind].
    destruct (stencil_row_ok edges (k - o / 2) (Nat.min (k + o / 2) (length edges - 1)) (nth k edges 0) Se ltac:(lia)) as (r & E & G & X).
    do 3 eexists. split; [exact E|]. split; [exact G|]. split; [reflexivity|]. split; [reflexivity|]. exact X. }
  exists A. split; [exact EA|]. split; [exact WA|]. split; [exact NA|]. split; [exact CA|].
  intros k Hk. destruct (HA k Hk) as (B & E & X).
  assert (R0 : forall m, (m <= nth k (fin A) 0 - nth k (beg A) 0)%nat -> row_exact 1 m A edges k (nth k edges 0)).
  { intros m Hm. apply exact_apply; [exact WA|lia|lia|]. exact (coef_exact_le _ _ _ _ _ _ Hm X). }
  split; [apply R0; lia|]. split; [intros; apply R0; lia|]. eapply row_local_le; [| |apply local_apply; [exact B|exact E]]; lia.
Qed.
(** levels to interfaces *)
Theorem C51_levels_reconstructed : forall o nodes edges, (2 <= o)%nat -> (o mod 2 = 0)%nat -> spaced nodes -> (o / 2 <= length nodes)%nat ->
  length edges = (length nodes + 1)%nat ->
  exists A, diff_rec Levels Interfaces o nodes edges = Built A /\ wf A /\ nrow A = length edges /\ ncol A = length nodes /\
  forall k, (k < length edges)%nat -> row_exact 1 (o / 2) A nodes k (nth k edges 0) /\
    ((o / 2 <= k)%nat -> (k + o / 2 <= length nodes)%nat -> row_exact 1 o A nodes k (nth k edges 0)) /\
    row_local A k (k - o / 2) (Nat.min (k + o / 2) (length nodes)).
Proof.
  intros o nodes edges O2 Om Sn Hn Le. destruct (half o O2 Om) as (_ & H2). unfold diff_rec.
  destruct (Nat.eqb_spec (length nodes) 0); [lia|].
  destruct (Nat.eqb_spec (length edges) 0); [lia|]. destruct (Nat.ltb_spec o 2); [lia|]. rewrite Om. cbn [Nat.eqb negb].
  destruct (build_ok (length nodes) (length edges) (fun k => out <- rd edges k; stencil_row nodes (k - o / 2) (Nat.min (k + o / 2 - 1) (length nodes - 1)) out)
    (fun k c b e => b = (k - o / 2)%nat /\ e = S (Nat.min (k + o / 2 - 1) (length nodes - 1)) /\ coef_exact 1 (e - b) nodes c (nth k edges 0))) as (A & EA & WA & NA & CA & HA); try lia.
  { intros k Hk. rewrite rd_ok by exact Hk. cbn [bind].
    destruct (stencil_row_ok nodes (k - o / 2) (Nat.min (k + o / 2 - 1) (length nodes - 1)) (nth k edges 0) Sn ltac:(lia)) as (r & E & G & X).
    do 3 eexists. split; [exact E|]. split; [exact G|]. split; [reflexivity|]. split; [reflexivity|]. exact X. }
  exists A. split; [exact EA|]. split; [exact WA|]. split; [exact NA|]. split; [exact CA|].
  intros k Hk. destruct (HA k Hk) as (B & E & X).
  assert (R0 : forall m, (m <= nth k (fin A) 0 - nth k (beg A) 0)%nat -> row_exact 1 m A nodes k (nth k edges 0)).
  { intros m Hm. apply exact_apply; [exact WA|lia|lia|]. exact (coef_exact_le _ _ _ _ _ _ Hm X). }
  split; [apply R0; lia|]. split; [intros; apply R0; lia|]. eapply row_local_le; [| |apply local_apply; [exact B|exact E]]; lia.
Qed.
(** levels to levels: constants at second order, linear functions above *)
Theorem C51_layers : forall o nodes edges, (2 <= o)%nat -> (o mod 2 = 0)%nat -> spaced nodes -> spaced edges -> (o / 2 <= length nodes)%nat ->
  length edges = (length nodes + 1)%nat ->
  exists A, diff_rec Levels Levels o nodes edges = Built A /\ wf A /\ nrow A = length nodes /\ ncol A = length nodes /\
  forall k y, (k < length nodes)%nat -> row_exact 1 (Nat.min (o / 2) 2) A nodes k y.
Proof.
  intros o nodes edges O2 Om Sn Se Hn Le. destruct (half o O2 Om) as (_ & H2).
  destruct (slope_ok nodes edges ltac:(destruct nodes; [cbn [length] in Hn; lia|discriminate]) Le Se) as (A & EA & WA & NA & CA & HA).
  destruct (C50_reconstructed o nodes edges O2 Om Sn Hn Le) as (B & EB & WB & NB & CB & HB).
  destruct (proj2 (C34_compose A B WA WB ltac:(lia) ltac:(lia)) ltac:(lia)) as (D & ED & WD & ND & CD & HD).
  exists D. split.
  { unfold diff_rec. destruct (Nat.eqb_spec (length nodes) 0); [lia|].
    destruct (Nat.eqb_spec (length edges) 0); [lia|]. destruct (Nat.ltb_spec o 2); [lia|]. rewrite Om. cbn [Nat.eqb negb].
    rewrite EA, EB. cbn [compose_outcome]. rewrite ED. reflexivity. }
  split; [exact WD|]. split; [lia|]. split; [lia|]. intros k y Hk.
  apply (exact_compose A B D nodes edges 2 (Nat.min (o / 2) 2) k); try assumption; try lia.
  - apply HA. exact Hk.
  - intros j Hj. destruct (HB j ltac:(lia)) as (X & _). intros p g Lp Hg. apply X; [lia|exact Hg].
Qed.
(** at second order the derivative at a boundary interface is zero for every
    column: it is not even exact for linear functions *)
Theorem C51_boundary_refuted : forall nodes edges, spaced nodes -> (1 <= length nodes)%nat -> length edges = (length nodes + 1)%nat ->
  exists A, diff_rec Levels Interfaces 2 nodes edges = Built A /\
  forall u, apply1 A u 0 = 0 /\ apply1 A u (length nodes) = 0.
Proof.
  intros nodes edges Sn Hn Le.
  destruct (C51_levels_reconstructed 2 nodes edges ltac:(lia) eq_refl Sn Hn Le) as (A & EA & WA & NA & CA & HA). exists A. split; [exact EA|].
  assert (D : forall c, nth_derivative 1 (peval [c]) (fun _ => 0)).
  { intros c. exists (fun _ => 0). split; [|intros t; reflexivity]. intros t. apply (derivable_ext (fct_cte c)); [intros; unfold fct_cte; cbn; ring|apply derivable_pt_lim_const]. }
  intros u. split.
  - destruct (HA 0%nat ltac:(lia)) as (X & _ & L).
    rewrite (L u (fun _ => u 0%nat)) by (intros l Hl; f_equal; change (2 / 2)%nat with 1%nat in Hl; lia).
    rewrite <- (X [u 0%nat] (fun _ => 0) ltac:(cbn; lia) (D _)). rewrite !apply1_matvec by (try assumption; lia). unfold matvec. apply sum_ext. intros; cbn; ring.
  - destruct (HA (length nodes) ltac:(lia)) as (X & _ & L).
    rewrite (L u (fun _ => u (length nodes - 1)%nat)) by (intros l Hl; f_equal; change (2 / 2)%nat with 1%nat in Hl; lia).
    rewrite <- (X [u (length nodes - 1)%nat] (fun _ => 0) ltac:(cbn; lia) (D _)).
    rewrite !apply1_matvec by (try assumption; lia). unfold matvec. apply sum_ext. intros; cbn; ring.
Qed.
(** and the derivative from levels to levels is half too small in the first layer
    of a uniform column *)
Theorem C51_layers_refuted : exists nodes edges A, spaced nodes /\ spaced edges /\ length edges = (length nodes + 1)%nat /\
  diff_rec Levels Levels 2 nodes edges = Built A /\ apply1 A (fun l => nth l nodes 0) 0 = 1 / 2.
Proof.
  set (nodes := [1; 3; 5]). set (edges := [0; 2; 4; 6]).
  assert (Sp : forall l, (forall i, (S i < length l)%nat -> nth i l 0 + 1 <= nth (S i) l 0) -> spaced l).
  { intros l H i j Hij. assert (P : / 10 ^ 11 <= 1).
    { replace 1 with (/ 1) by field. apply Rinv_le_contravar; [lra|]. apply pow_R1_Rle. lra. }
    assert (G : forall d, (i + S d < length l)%nat -> nth i l 0 + 1 <= nth (i + S d) l 0).
    { induction d as [|d IH]; intros Hd; [replace (i + 1)%nat with (S i) in * by lia; apply H; exact Hd|].
      replace (i + S (S d))%nat with (S (i + S d)) in * by lia. generalize (H (i + S d)%nat Hd) (IH ltac:(lia)). lra. }
    generalize (G (j - i - 1)%nat). replace (i + S (j - i - 1))%nat with j by lia. intros Q. specialize (Q ltac:(lia)). lra. }
  assert (Sn : spaced nodes) by (apply Sp; intros [|[|[|i]]] Hi; cbn in *; try lra; lia).
  assert (Se : spaced edges) by (apply Sp; intros [|[|[|[|i]]]] Hi; cbn in *; try lra; lia).
  destruct (slope_ok nodes edges ltac:(discriminate) eq_refl Se) as (A & EA & WA & NA & CA & HA).
  destruct (C50_reconstructed 2 nodes edges ltac:(lia) eq_refl Sn ltac:(cbn; lia) eq_refl) as (B & EB & WB & NB & CB & HB).
  destruct (proj2 (C34_compose A B WA WB ltac:(rewrite NA; discriminate) ltac:(rewrite CB; discriminate)) ltac:(rewrite CA, NB; reflexivity)) as (D & ED & WD & ND & CD & HD).
  exists nodes, edges, D. split; [exact Sn|]. split; [exact Se|]. split; [reflexivity|]. split.
  { unfold diff_rec. cbn [length nodes edges Nat.eqb Nat.ltb Nat.leb Nat.modulo]. change (2 mod 2)%nat with 0%nat. cbn [Nat.eqb negb].
    fold nodes edges. rewrite EA, EB. cbn [compose_outcome]. rewrite ED. reflexivity. }
  rewrite HD by (rewrite NA; cbn; lia).
  (* the first interface takes the value of the first level, the second the mean of two *)
  assert (I0 : apply1 B (fun l => nth l nodes 0) 0 = 1).
  { destruct (HB 0%nat ltac:(cbn; lia)) as (X & _ & L). change (2 / 2)%nat with 1%nat in *.
    rewrite (L _ (fun l => peval [1] (nth l nodes 0))). 2: { intros [|l] Hl; cbn in *; [ring|lia]. }
    rewrite (X [1] (peval [1])); [cbn; ring|cbn; lia|intros t; reflexivity]. }
  assert (I1 : apply1 B (fun l => nth l nodes 0) 1 = 2).
  { unfold interp_rec in EB. cbn [length nodes edges Nat.eqb] in EB. change (2 mod 2)%nat with 0%nat in EB. cbn [Nat.eqb negb] in EB. fold nodes edges in EB.
    apply build_inv in EB. destruct EB as (_ & _ & _ & _ & HR). specialize (HR 1%nat ltac:(lia)).
    unfold apply1, getc. revert HR.
    unfold interp_rec_row, one_sided, left_first, left_last, right_first, right_last. change ((2 - 2) / 2)%nat with 0%nat.
    replace (rd edges 1) with (Some 2) by reflexivity. cbn [bind length edges Nat.eqb orb Nat.sub Nat.add Nat.min].
    rewrite !sub_ok by (cbn; lia). cbn [bind length nodes]. fold nodes. cbn [Nat.min Nat.sub].
    destruct (run_lagrange nodes 0 1 2 Sn ltac:(cbn; lia)) as (c & Ec & Xc). destruct (run_lagrange nodes 1 1 2 Sn ltac:(cbn; lia)) as (d & Ed & Xd).
    rewrite Ec, Ed. cbn [bind].
    assert (One : forall x c, exact_derivative 0 1 x 2 c -> c = [1]).
    { intros x e (L & H). destruct e as [|e0 [|]]; try discriminate. f_equal.
      generalize (H [1] (fun _ => 1) ltac:(cbn; lia) ltac:(intros t; cbn; ring)). unfold weighted. cbn. lra. }
    rewrite (One _ _ Xc), (One _ _ Xd). cbn. intros HR. injection HR as Ec' Eb Ee. rewrite <- Ec', <- Eb, <- Ee. cbn. field. }
  assert (S0 : apply1 A (apply1 B (fun l => nth l nodes 0)) 0 = apply1 A (fun l => peval [1; 1 / 2] (nth l edges 0)) 0).
  { apply (HA 0%nat ltac:(cbn; lia)). intros [|[|l]] Hl; [rewrite I0; cbn; ring|rewrite I1; cbn; field|lia]. }
  rewrite S0. destruct (HA 0%nat ltac:(cbn; lia)) as (X & _ & _).
  assert (G : nth_derivative 1 (peval [1; 1 / 2]) (fun _ => 1 / 2)).
  { exists (fun _ => 1 / 2). split; [|intros t; reflexivity]. intros t. apply (derivable_ext (plus_fct (fct_cte 1) (mult_real_fct (1 / 2) id)));
      [intros; unfold plus_fct, fct_cte, mult_real_fct, id; cbn; ring|].
    assert (J : 0 + 1 / 2 * 1 = 1 / 2) by field. rewrite <- J at 2. apply derivable_pt_lim_plus; [apply derivable_pt_lim_const|].
    apply derivable_pt_lim_scal, derivable_pt_lim_id. }
  exact (X 0 [1; 1 / 2] (fun _ => 1 / 2) ltac:(cbn; lia) G).
Qed.

(** a column of two elements of order two meets the hypotheses *)
Example C50_case : column 2 2 [1; 3; 5; 7] [0; 2; 4; 6; 8] /\ order_one_ok 2 2 [0; 2; 4; 6; 8] [4].
Proof.
  assert (P : / 10 ^ 11 <= 1).
  { replace 1 with (/ 1) by field. apply Rinv_le_contravar; [lra|]. apply pow_R1_Rle. lra. }
  split; [|intros H; discriminate]. repeat split; try lia; try reflexivity;
    intros i j Hij; cbn [length] in Hij; destruct i as [|[|[|[|[|]]]]], j as [|[|[|[|[|]]]]]; try lia; cbn [nth]; lra.
Qed.
Print Assumptions C50_interfaces.
Print Assumptions C50_levels.
Print Assumptions C50_boundaries.
Print Assumptions C50_single_refuted.
Print Assumptions C50_first_output_refuted.
Print Assumptions C50_reconstructed.
Print Assumptions C50_average.
Print Assumptions C51_interfaces.
Print Assumptions C51_levels.
Print Assumptions C51_levels_zero.
Print Assumptions C51_gll.
Print Assumptions C51_slope.
Print Assumptions C51_interfaces_reconstructed.
Print Assumptions C51_levels_reconstructed.
Print Assumptions C51_layers.
Print Assumptions C51_boundary_refuted.
Print Assumptions C51_layers_refuted.
