(** * C106, C107: interpolation to output points *)
From Coq Require Import Reals ZArith List Bool Lia Lra.
From Coq Require Import ZifyBool.
From Verif Require Import QuadSpec QuadModel SpacModel SpacSpec SpacProps InterpModel InterpSpec InterpProps ColSpec ColProofs
  LayoutModel LayoutSpec LayoutProofs LayoutProps CsTransModel CsTransSpec CsTransProps SampModel SampSpec SampProofs.
Import ListNotations.
Local Open Scope R_scope.

(** ** C106: one patch *)
(** the element chosen exists and holds the point, up to the tolerance of the
    range check for points that are only allowed by it *)
Theorem C106_element : forall np halo ax a0 d g x, equal_elements np halo ax a0 d g ->
  (0 <= element np halo ax x < elements ax)%Z /\
  (a0 <= x <= a0 + IZR (elements ax) * d ->
    in_range np halo ax x = true /\
    a0 + IZR (element np halo ax x) * d <= x <= a0 + IZR (element np halo ax x + 1) * d) /\
  (in_range np halo ax x = true ->
    a0 + IZR (element np halo ax x) * d - / 10 ^ 10 <= x <= a0 + IZR (element np halo ax x + 1) * d + / 10 ^ 10).
Proof.
  intros np halo ax a0 d g x E. split; [eapply element_bounds; eassumption|]. rewrite plus_IZR. split.
  - intros H. split; [|eapply element_holds; eassumption]. apply (range_iff _ _ _ _ _ _ E). pose proof eps_pos. lra.
  - apply (element_near _ _ _ _ _ _ E).
Qed.
Print Assumptions C106_element.

Section Two.
Context (np halo : nat) (axa axb : axis) (a0 da b0 db : R) (ga gb : nat -> R)
  (EA : equal_elements np halo axa a0 da ga) (EB : equal_elements np halo axb b0 db gb).

Lemma sample_col ty c inc prim data ref dr a b : in_range np halo axa a = true -> in_range np halo axb b = true ->
  exists la lb, coeffs np halo axa a = Some la /\ coeffs np halo axb b = Some lb /\
    exact_derivative 0 np (fun m => edge axa (start np halo axa a + m)%nat) a la /\
    exact_derivative 0 np (fun m => edge axb (start np halo axb b + m)%nat) b lb /\
    sample np halo ty c inc prim axa axb data ref dr a b = Column (fun k =>
      level_value np ty c inc prim la lb (start np halo axa a) (start np halo axb b) (data k) (ref k) (dr k)).
Proof.
  intros RA RB. destruct (coeffs_ok _ _ _ _ _ _ EA a) as (la & Ca & Xa). destruct (coeffs_ok _ _ _ _ _ _ EB b) as (lb & Cb & Xb).
  exists la, lb. split; [exact Ca|]. split; [exact Cb|]. split; [exact Xa|]. split; [exact Xb|].
  unfold sample. rewrite RA, RB, (offset_nonneg _ _ _ _ _ _ EA), (offset_nonneg _ _ _ _ _ _ EB), Ca, Cb. reflexivity.
Qed.
Lemma blend_exact f la lb a b d :
  exact_derivative 0 np (fun m => edge axa (start np halo axa a + m)%nat) a la ->
  exact_derivative 0 np (fun m => edge axb (start np halo axb b + m)%nat) b lb ->
  (forall y, poly np (fun x => f x y)) -> (forall x, poly np (f x)) ->
  (forall i j, interior_ix np halo axa i -> interior_ix np halo axb j -> d i j = f (edge axa i) (edge axb j)) ->
  blend np la lb (start np halo axa a) (start np halo axb b) d = f a b.
Proof.
  intros Xa Xb Pa Pb D. rewrite blend_split.
  rewrite (sum_ext _ (fun m => nth m la 0 * f (edge axa (start np halo axa a + m)%nat) b)).
  - apply (exact_poly np _ a la (fun x => f x b) Xa (Pa b)).
  - intros m M. f_equal. rewrite <- (exact_poly np _ b lb (f (edge axa (start np halo axa a + m)%nat)) Xb (Pb _)).
    apply sum_ext. intros n N. f_equal. apply D.
    + apply (start_nodes _ _ _ _ _ _ EA a m M).
    + apply (start_nodes _ _ _ _ _ _ EB b n N).
Qed.
End Two.

(** polynomials of degree below np in each direction are recovered exactly at
    every point the range check lets through *)
Theorem C106_polynomial : forall np halo axa axb a0 da b0 db ga gb ty c inc prim data ref dr (f : nat -> R -> R -> R) a b,
  equal_elements np halo axa a0 da ga -> equal_elements np halo axb b0 db gb ->
  in_range np halo axa a = true -> in_range np halo axb b = true ->
  (forall k y, poly np (fun x => f k x y)) -> (forall k x, poly np (f k x)) ->
  (forall k i j, interior_ix np halo axa i -> interior_ix np halo axb j -> data k i j = f k (edge axa i) (edge axb j)) ->
  c <> 3%Z \/ prim = false -> ty <> State \/ inc = true ->
  exists v, sample np halo ty c inc prim axa axb data ref dr a b = Column v /\ forall k, v k = f k a b.
Proof.
  intros np halo axa axb a0 da b0 db ga gb ty c inc prim data ref dr f a b EA EB RA RB Pa Pb D C T.
  destruct (sample_col np halo axa axb _ _ _ _ _ _ EA EB ty c inc prim data ref dr a b RA RB) as (la & lb & Ca & Cb & Xa & Xb & ->).
  eexists. split; [reflexivity|]. intros k. cbv beta. unfold level_value.
  replace ((c =? 3)%Z && prim) with false by (destruct prim; lia).
  rewrite (blend_exact np halo axa axb _ _ _ _ _ _ EA EB (f k) la lb a b (data k) Xa Xb (Pa k) (Pb k) (D k)).
  destruct ty; [destruct T as [T|T]; [congruence|rewrite T]| |]; ring.
Qed.
Print Assumptions C106_polynomial.

(** at a node the value of the node is returned, whichever of the elements that
    share it is chosen *)
Theorem C106_node : forall np halo axa axb a0 da b0 db ga gb ty c inc prim data ref dr i j,
  equal_elements np halo axa a0 da ga -> equal_elements np halo axb b0 db gb ->
  interior_ix np halo axa i -> interior_ix np halo axb j -> (forall k, agree_on_nodes np halo axa axb (data k)) ->
  c <> 3%Z \/ prim = false -> ty <> State \/ inc = true ->
  exists v, sample np halo ty c inc prim axa axb data ref dr (edge axa i) (edge axb j) = Column v /\ forall k, v k = data k i j.
Proof.
  intros np halo axa axb a0 da b0 db ga gb ty c inc prim data ref dr i j EA EB I J S C T.
  destruct (node_local _ _ _ _ _ _ EA i I) as (RA & m & M & Em). destruct (node_local _ _ _ _ _ _ EB j J) as (RB & n & N & En).
  pose proof (proj1 (proj1 (proj2 (C106_element np halo axa a0 da ga _ EA)) RA)) as IA.
  pose proof (proj1 (proj1 (proj2 (C106_element np halo axb b0 db gb _ EB)) RB)) as IB.
  destruct (sample_col np halo axa axb _ _ _ _ _ _ EA EB ty c inc prim data ref dr _ _ IA IB) as (la & lb & Ca & Cb & _ & _ & ->).
  rewrite (coeffs_node _ _ _ _ _ _ EA _ m M Em) in Ca. rewrite (coeffs_node _ _ _ _ _ _ EB _ n N En) in Cb.
  injection Ca as <-. injection Cb as <-.
  eexists. split; [reflexivity|]. intros k. cbv beta. unfold level_value.
  replace ((c =? 3)%Z && prim) with false by (destruct prim; lia).
  rewrite blend_split, sum_delta by exact M. rewrite sum_delta by exact N.
  transitivity (data k (start np halo axa (edge axa i) + m)%nat (start np halo axb (edge axb j) + n)%nat).
  - destruct ty; [destruct T as [T|T]; [congruence|rewrite T]| |]; ring.
  - apply S; try assumption; try congruence.
    + apply (start_nodes _ _ _ _ _ _ EA _ m M).
    + apply (start_nodes _ _ _ _ _ _ EB _ n N).
Qed.
Print Assumptions C106_node.

(** two patches side by side in alpha: on their common edge both give the same
    column when they hold the same values there *)
Theorem C106_shared_edge : forall np halo axa axa' axb a0 a0' d d' b0 db ga ga' gb ty c inc prim data data' ref ref' dr dr' a b,
  equal_elements np halo axa a0 d ga -> equal_elements np halo axa' a0' d' ga' -> equal_elements np halo axb b0 db gb ->
  a = a0 + IZR (elements axa) * d -> a = a0' -> in_range np halo axb b = true ->
  (forall k j, interior_ix np halo axb j -> data k (halo + Z.to_nat (elements axa) * np - 1)%nat j = data' k halo j) ->
  c <> 3%Z \/ prim = false -> ty <> State \/ inc = true ->
  exists v v', sample np halo ty c inc prim axa axb data ref dr a b = Column v /\
    sample np halo ty c inc prim axa' axb data' ref' dr' a b = Column v' /\ forall k, v k = v' k.
Proof.
  intros np halo axa axa' axb a0 a0' d d' b0 db ga ga' gb ty c inc prim data data' ref ref' dr dr' a b EA EA' EB Ha Ha' RB SV C T.
  pose proof (ee_np _ _ _ _ _ _ EA) as NP. pose proof (ee_some _ _ _ _ _ _ EA) as NE. pose proof (ee_pos _ _ _ _ _ _ EA) as D.
  pose proof (ee_some _ _ _ _ _ _ EA') as NE'. pose proof (ee_pos _ _ _ _ _ _ EA') as D'.
  assert (0 < IZR (elements axa)) as NER by (apply IZR_lt; lia). assert (0 < IZR (elements axa')) as NER' by (apply IZR_lt; lia).
  assert (a0 <= a <= a0 + IZR (elements axa) * d) as RA by (subst a; split; [nra|lra]).
  assert (a0' <= a <= a0' + IZR (elements axa') * d') as RA' by (clear Ha; subst a; split; [lra|nra]).
  destruct (proj1 (proj2 (C106_element np halo axa a0 d ga a EA)) RA) as (IA & L).
  destruct (proj1 (proj2 (C106_element np halo axa' a0' d' ga' a EA')) RA') as (IA' & L').
  pose proof (proj1 (C106_element np halo axa a0 d ga a EA)) as B. pose proof (proj1 (C106_element np halo axa' a0' d' ga' a EA')) as B'.
  assert (element np halo axa a = elements axa - 1)%Z as Q.
  { assert (IZR (elements axa) <= IZR (element np halo axa a + 1)) as K by (apply Rmult_le_reg_r with d; [exact D|lra]). apply le_IZR in K. lia. }
  assert (element np halo axa' a = 0)%Z as Q'.
  { assert (IZR (element np halo axa' a) <= 0) as K by (apply Rmult_le_reg_r with d'; [exact D'|lra]). apply le_IZR in K. lia. }
  assert (start np halo axa a + (np - 1) = halo + Z.to_nat (elements axa) * np - 1)%nat as SA.
  { rewrite (start_is _ _ _ _ _ _ EA), Q. replace (Z.to_nat (elements axa)) with (S (Z.to_nat (elements axa - 1))) by lia. lia. }
  assert (start np halo axa' a + 0 = halo)%nat as SA' by (rewrite (start_is _ _ _ _ _ _ EA'), Q'; cbn; lia).
  assert (a = edge axa (start np halo axa a + (np - 1))%nat) as Na.
  { destruct (start_nodes _ _ _ _ _ _ EA a (np - 1)%nat ltac:(lia)) as (-> & _). rewrite Q, (ee_last _ _ _ _ _ _ EA), minus_IZR. lra. }
  assert (a = edge axa' (start np halo axa' a + 0)%nat) as Na'.
  { destruct (start_nodes _ _ _ _ _ _ EA' a 0%nat ltac:(lia)) as (-> & _). rewrite Q', (ee_first _ _ _ _ _ _ EA'). lra. }
  destruct (sample_col np halo axa axb _ _ _ _ _ _ EA EB ty c inc prim data ref dr a b IA RB) as (la & lb & Ca & Cb & _ & _ & ->).
  destruct (sample_col np halo axa' axb _ _ _ _ _ _ EA' EB ty c inc prim data' ref' dr' a b IA' RB) as (la' & lb' & Ca' & Cb' & _ & _ & ->).
  rewrite Cb in Cb'. injection Cb' as <-.
  rewrite (coeffs_node _ _ _ _ _ _ EA _ (np - 1)%nat ltac:(lia) Na) in Ca. rewrite (coeffs_node _ _ _ _ _ _ EA' _ 0%nat ltac:(lia) Na') in Ca'.
  injection Ca as <-. injection Ca' as <-.
  eexists. eexists. split; [reflexivity|]. split; [reflexivity|]. intros k. cbv beta. unfold level_value.
  replace ((c =? 3)%Z && prim) with false by (destruct prim; lia).
  rewrite !blend_split, (sum_delta np (np - 1)) by lia. rewrite (sum_delta np 0) by lia.
  rewrite SA, SA'. rewrite (sum_ext _ (fun n => nth n lb 0 * data' k halo (start np halo axb b + n)%nat)).
  - destruct ty; [destruct T as [T|T]; [congruence|rewrite T]| |]; ring.
  - intros n N. rewrite SV; [reflexivity|]. apply (start_nodes _ _ _ _ _ _ EB b n N).
Qed.
Print Assumptions C106_shared_edge.

(** the vertical velocity: the stored component w * dr is divided by dr at the
    first node of the element.  Where dr has one value per element, w is
    recovered exactly *)
Theorem C106_vertical_partial : forall np halo axa axb a0 da b0 db ga gb ty inc data ref dr (f : nat -> R -> R -> R) a b,
  equal_elements np halo axa a0 da ga -> equal_elements np halo axb b0 db gb ->
  in_range np halo axa a = true -> in_range np halo axb b = true ->
  (forall k y, poly np (fun x => f k x y)) -> (forall k x, poly np (f k x)) ->
  (forall k i j, interior_ix np halo axa i -> interior_ix np halo axb j ->
    dr k i j <> 0 /\ data k i j = f k (edge axa i) (edge axb j) * dr k i j) ->
  (forall k, elementwise np halo axa axb (dr k)) -> ty <> State \/ inc = true ->
  exists v, sample np halo ty 3 inc true axa axb data ref dr a b = Column v /\ forall k, v k = f k a b.
Proof.
  intros np halo axa axb a0 da b0 db ga gb ty inc data ref dr f a b EA EB RA RB Pa Pb D W T.
  destruct (sample_col np halo axa axb _ _ _ _ _ _ EA EB ty 3 inc true data ref dr a b RA RB) as (la & lb & Ca & Cb & Xa & Xb & ->).
  eexists. split; [reflexivity|]. intros k. cbv beta. unfold level_value. change ((3 =? 3)%Z && true) with true. cbv iota.
  rewrite scaled_is. set (ia := start np halo axa a) in *. set (ib := start np halo axb b) in *.
  pose proof (ee_np _ _ _ _ _ _ EA) as NP.
  destruct (start_nodes _ _ _ _ _ _ EA a 0%nat ltac:(lia)) as (_ & I0). destruct (start_nodes _ _ _ _ _ _ EB b 0%nat ltac:(lia)) as (_ & J0).
  rewrite Nat.add_0_r in I0, J0. fold ia in I0. fold ib in J0. destruct (D k ia ib I0 J0) as (NZ & _).
  rewrite (blend_ext np la lb ia ib (data k) (fun i j => dr k ia ib * f k (edge axa i) (edge axb j))).
  - assert (blend np la lb ia ib (fun i j => dr k ia ib * f k (edge axa i) (edge axb j))
      = dr k ia ib * blend np la lb ia ib (fun i j => f k (edge axa i) (edge axb j))) as ->.
    { unfold blend. rewrite <- sum_scale. apply sum_ext. intros m _. rewrite <- sum_scale. apply sum_ext. intros. ring. }
    rewrite (blend_exact np halo axa axb _ _ _ _ _ _ EA EB (f k) la lb a b _ Xa Xb (Pa k) (Pb k)) by reflexivity.
    destruct ty; [destruct T as [T|T]; [congruence|rewrite T]| |]; field; exact NZ.
  - intros m n M N. destruct (start_nodes _ _ _ _ _ _ EA a m M) as (_ & Im). destruct (start_nodes _ _ _ _ _ _ EB b n N) as (_ & Jn).
    destruct (D k _ _ Im Jn) as (_ & Dk). fold ia ib in Dk. rewrite Dk, Rmult_comm. f_equal. unfold ia, ib.
    pose proof (element_bounds _ _ _ _ _ _ EA a). pose proof (element_bounds _ _ _ _ _ _ EB b).
    rewrite (start_is _ _ _ _ _ _ EA), (start_is _ _ _ _ _ _ EB). apply W; lia.
Qed.
Print Assumptions C106_vertical_partial.

(** what is reported as vertical velocity at a node, in general *)
Theorem C106_vertical_node : forall np halo axa axb a0 da b0 db ga gb ty data ref dr e e' m n,
  equal_elements np halo axa a0 da ga -> equal_elements np halo axb b0 db gb ->
  (Z.of_nat e < elements axa)%Z -> (Z.of_nat e' < elements axb)%Z -> (m < np - 1)%nat -> (n < np - 1)%nat ->
  (forall p, (p < np - 1)%nat -> ga p < da) -> (forall p, (p < np - 1)%nat -> gb p < db) ->
  exists v, sample np halo ty 3 true true axa axb data ref dr (a0 + INR e * da + ga m) (b0 + INR e' * db + gb n) = Column v /\
    forall k, v k = data k (halo + e * np + m)%nat (halo + e' * np + n)%nat / dr k (halo + e * np)%nat (halo + e' * np)%nat.
Proof.
  intros np halo axa axb a0 da b0 db ga gb ty data ref dr e e' m n EA EB He He' M N Sa Sb.
  assert (forall ax a0 d g e m, equal_elements np halo ax a0 d g -> (Z.of_nat e < elements ax)%Z -> (m < np - 1)%nat ->
    (forall p, (p < np - 1)%nat -> g p < d) -> in_range np halo ax (a0 + INR e * d + g m) = true /\
    start np halo ax (a0 + INR e * d + g m) = (halo + e * np)%nat /\
    coeffs np halo ax (a0 + INR e * d + g m) = Some (map (fun i => if (i =? m)%nat then 1 else 0) (seq 0 np))) as K.
  { clear. intros ax a0 d g e m E He M Sg. pose proof (ee_inside _ _ _ _ _ _ E m ltac:(lia)) as G. pose proof (Sg m M) as G'.
    pose proof (ee_pos _ _ _ _ _ _ E) as D. set (x := a0 + INR e * d + g m).
    assert (0 <= INR e) by apply pos_INR. assert (INR e + 1 <= IZR (elements ax)) by (rewrite INR_IZR_INZ, <- plus_IZR; apply IZR_le; lia).
    assert (a0 <= x <= a0 + IZR (elements ax) * d) as R by (unfold x; split; nra).
    destruct (C106_element np halo ax a0 d g x E) as (B & In & _). destruct (In R) as (IR & L).
    assert (start np halo ax x = (halo + e * np)%nat) as S0.
    { rewrite (start_is _ _ _ _ _ _ E). assert (element np halo ax x = Z.of_nat e) as ->; [|lia].
      rewrite plus_IZR in L. unfold x in L at 2 3.
      assert (IZR (element np halo ax x) < INR e + 1) as L1 by (apply Rmult_lt_reg_r with d; lra).
      destruct (Z_lt_dec (element np halo ax x) (Z.of_nat e)) as [C|C].
      - exfalso. assert (IZR (element np halo ax x) + 1 <= INR e) as L2 by (rewrite INR_IZR_INZ, <- plus_IZR; apply IZR_le; lia).
        assert ((IZR (element np halo ax x) + 1) * d <= INR e * d) by (apply Rmult_le_compat_r; lra).
        assert (0 < g m \/ g m = 0) as [P|P] by lra; [lra|].
        (* the node is the end of the element before: excluded by truncation *)
        assert (x = a0 + INR e * d) as X by (unfold x; lra). clear L L1 L2.
        revert C. unfold element. cbv zeta. rewrite (edge_first _ _ _ _ _ _ E), (delta_is _ _ _ _ _ _ E).
        replace ((x - a0) / d) with (INR e) by (rewrite X; field; lra).
        pose proof (trunc_nonneg0 (INR e) ltac:(lra)). destruct (trunc_nonneg (INR e) ltac:(lra)) as (T1 & T2).
        rewrite INR_IZR_INZ in T2 at 1. rewrite <- plus_IZR in T2. apply lt_IZR in T2.
        replace (trunc (INR e) <? 0)%Z with false by lia. destruct (Z.leb_spec (elements ax) (trunc (INR e))); lia.
      - rewrite INR_IZR_INZ, <- plus_IZR in L1. apply lt_IZR in L1. lia. }
    split; [exact IR|]. split; [exact S0|]. apply (coeffs_node _ _ _ _ _ _ E _ m ltac:(lia)). rewrite S0.
    symmetry. apply (ee_nodes _ _ _ _ _ _ E); lia. }
  destruct (K axa a0 da ga e m EA He M Sa) as (Ra & Ea & Ca). destruct (K axb b0 db gb e' n EB He' N Sb) as (Rb & Eb & Cb).
  destruct (sample_col np halo axa axb _ _ _ _ _ _ EA EB ty 3 true true data ref dr _ _ Ra Rb) as (la & lb & Ca' & Cb' & _ & _ & ->).
  rewrite Ca in Ca'. rewrite Cb in Cb'. injection Ca' as <-. injection Cb' as <-.
  eexists. split; [reflexivity|]. intros k. cbv beta. unfold level_value. change ((3 =? 3)%Z && true) with true. cbv iota.
  rewrite scaled_is, Ea, Eb, blend_split, sum_delta by lia. rewrite sum_delta by lia. destruct ty; ring.
Qed.
Print Assumptions C106_vertical_node.

(** one element per direction with nodes 0, 1, 2 *)
Definition one : axis := Axis 1 (fun i => INR (Nat.min i 2)).
Lemma one_ok : equal_elements 3 0 one 0 2 INR.
Proof.
  split; try (cbn; lra); try (cbn; lia).
  - intros i j _ _ N K. apply INR_eq in K. lia.
  - intros [|[|[|m]]] M; try lia; cbn; lra.
  - intros e m He M. cbn in He. replace e with 0%nat by lia. cbn [Nat.add Nat.mul one edge]. replace (Nat.min m 2) with m by lia. cbn [INR]. ring.
  - change (INR 2 = 0 + 1 * 2). cbn. ring.
Qed.
(** w = 1 everywhere is not reported as 1 when dr varies in the element *)
Theorem C106_vertical_refuted : exists dr v, (forall k i j, 0 < dr k i j) /\
  sample 3 0 State 3 true true one one (fun k i j => 1 * dr k i j) (fun _ _ _ => 0) dr 1 0 = Column v /\ v 0%nat <> 1.
Proof.
  exists (fun _ i _ => INR i + 1).
  destruct (C106_vertical_node 3 0 one one 0 2 0 2 INR INR State (fun k i j => 1 * (INR i + 1)) (fun _ _ _ => 0) (fun _ i _ => INR i + 1) 0 0 1 0
    one_ok one_ok) as (v & E & V); try (cbn; lia).
  - intros [|[|p]] P; try lia; cbn; lra.
  - intros [|[|p]] P; try lia; cbn; lra.
  - exists v. split; [intros _ i _; pose proof (pos_INR i); lra|]. split.
    + replace (0 + INR 0 * 2 + INR 1) with 1 in E by (cbn; ring). replace (0 + INR 0 * 2 + INR 0) with 0 in E by (cbn; ring). exact E.
    + rewrite V. cbn. lra.
Qed.
Print Assumptions C106_vertical_refuted.
(** the test is on the component number alone: tracer number 3, and entry 3 of the
    two-dimensional user data, are divided by dr as well *)
Theorem C106_tracer : forall np halo axa axb a0 da b0 db ga gb ty inc ref dr q a b, ty <> State ->
  equal_elements np halo axa a0 da ga -> equal_elements np halo axb b0 db gb ->
  in_range np halo axa a = true -> in_range np halo axb b = true ->
  exists v, sample np halo ty 3 inc true axa axb (fun _ _ _ => q) ref dr a b = Column v /\
    forall k, v k = q / dr k (start np halo axa a) (start np halo axb b).
Proof.
  intros np halo axa axb a0 da b0 db ga gb ty inc ref dr q a b T EA EB RA RB.
  destruct (sample_col np halo axa axb _ _ _ _ _ _ EA EB ty 3 inc true (fun _ _ _ => q) ref dr a b RA RB) as (la & lb & Ca & Cb & Xa & Xb & ->).
  eexists. split; [reflexivity|]. intros k. cbv beta. unfold level_value. change ((3 =? 3)%Z && true) with true. cbv iota.
  rewrite (scaled_is np la lb (start np halo axa a) (start np halo axb b) (fun _ _ => q)).
  rewrite (blend_exact np halo axa axb _ _ _ _ _ _ EA EB (fun _ _ => q) la lb a b _ Xa Xb); try reflexivity.
  - destruct ty; [congruence| |]; ring.
  - intros _. exists [q]. pose proof (ee_np _ _ _ _ _ _ EA). split; [cbn; lia|]. intros t. cbn. ring.
  - intros _. exists [q]. pose proof (ee_np _ _ _ _ _ _ EA). split; [cbn; lia|]. intros t. cbn. ring.
Qed.
Print Assumptions C106_tracer.
Theorem C106_tracer_refuted : exists dr v, (forall k i j, 0 < dr k i j) /\
  sample 3 0 Tracers 3 true true one one (fun _ _ _ => 1) (fun _ _ _ => 0) dr 1 0 = Column v /\ v 0%nat <> 1.
Proof.
  destruct (C106_tracer 3 0 one one 0 2 0 2 INR INR Tracers true (fun _ _ _ => 0) (fun _ _ _ => 2) 1 1 0 ltac:(discriminate) one_ok one_ok) as (v & E & V).
  - apply (range_iff _ _ _ _ _ _ one_ok). pose proof eps_pos. cbn. lra.
  - apply (range_iff _ _ _ _ _ _ one_ok). pose proof eps_pos. cbn. lra.
  - exists (fun _ _ _ => 2), v. split; [intros; lra|]. split; [exact E|]. rewrite V. lra.
Qed.
Print Assumptions C106_tracer_refuted.

(** without the reference state: the deviation is interpolated, except for the
    vertical velocity, whose reference state is not divided by dr *)
Theorem C106_reference : forall np halo axa axb a0 da b0 db ga gb c prim data ref ref' dr a b,
  equal_elements np halo axa a0 da ga -> equal_elements np halo axb b0 db gb ->
  in_range np halo axa a = true -> in_range np halo axb b = true -> c <> 3%Z \/ prim = false ->
  exists v v', sample np halo State c false prim axa axb data ref dr a b = Column v /\
    sample np halo State c true prim axa axb (fun k i j => data k i j - ref k i j) ref' dr a b = Column v' /\ forall k, v k = v' k.
Proof.
  intros np halo axa axb a0 da b0 db ga gb c prim data ref ref' dr a b EA EB RA RB C.
  destruct (sample_col np halo axa axb _ _ _ _ _ _ EA EB State c false prim data ref dr a b RA RB) as (la & lb & Ca & Cb & _ & _ & ->).
  destruct (sample_col np halo axa axb _ _ _ _ _ _ EA EB State c true prim (fun k i j => data k i j - ref k i j) ref' dr a b RA RB) as (la' & lb' & Ca' & Cb' & _ & _ & ->).
  rewrite Ca in Ca'. rewrite Cb in Cb'. injection Ca' as <-. injection Cb' as <-.
  eexists. eexists. split; [reflexivity|]. split; [reflexivity|]. intros k. cbv beta. unfold level_value.
  replace ((c =? 3)%Z && prim) with false by (destruct prim; lia).
  rewrite (blend_minus np la lb _ _ (data k) (ref k)). ring.
Qed.
Print Assumptions C106_reference.
Theorem C106_reference_refuted : exists v,
  sample 3 0 State 3 false true one one (fun _ _ _ => 2) (fun _ _ _ => 2) (fun _ _ _ => 2) 1 0 = Column v /\ v 0%nat <> 0.
Proof.
  assert (in_range 3 0 one 1 = true) as R1. { apply (range_iff _ _ _ _ _ _ one_ok). pose proof eps_pos. cbn. lra. }
  assert (in_range 3 0 one 0 = true) as R0. { apply (range_iff _ _ _ _ _ _ one_ok). pose proof eps_pos. cbn. lra. }
  destruct (sample_col 3 0 one one _ _ _ _ _ _ one_ok one_ok State 3 false true (fun _ _ _ => 2) (fun _ _ _ => 2) (fun _ _ _ => 2) 1 0 R1 R0) as (la & lb & _ & _ & Xa & Xb & ->).
  eexists. split; [reflexivity|]. cbv beta. unfold level_value. change ((3 =? 3)%Z && true) with true. cbv iota.
  rewrite (scaled_is 3 la lb (start 3 0 one 1) (start 3 0 one 0) (fun _ _ => 2)).
  rewrite (blend_exact 3 0 one one _ _ _ _ _ _ one_ok one_ok (fun _ _ => 2) la lb 1 0 _ Xa Xb); try reflexivity; [lra| |];
    intros _; exists [2]; (split; [cbn; lia|intros t; cbn; ring]).
Qed.
Print Assumptions C106_reference_refuted.
(** the hypotheses hold for a quadratic on three nodes *)
Example C106_case : exists v, sample 3 0 State 0 true true one one (fun _ i j => INR i * INR i * INR j) (fun _ _ _ => 0) (fun _ _ _ => 1) (1 / 2) (3 / 2) = Column v /\ v 0%nat = 3 / 8.
Proof.
  destruct (C106_polynomial 3 0 one one 0 2 0 2 INR INR State 0%Z true true (fun _ i j => INR i * INR i * INR j) (fun _ _ _ => 0) (fun _ _ _ => 1)
    (fun _ x y => x * x * y) (1 / 2) (3 / 2) one_ok one_ok) as (v & E & V).
  - apply (range_iff _ _ _ _ _ _ one_ok). pose proof eps_pos. cbn. lra.
  - apply (range_iff _ _ _ _ _ _ one_ok). pose proof eps_pos. cbn. lra.
  - intros _ y. exists [0; 0; y]. split; [cbn; lia|]. intros t. cbn. ring.
  - intros _ x. exists [0; x * x]. split; [cbn; lia|]. intros t. cbn. ring.
  - intros _ i j I J. unfold interior_ix in I, J. cbn in I, J. cbn [one edge]. rewrite !Nat.min_l by lia. reflexivity.
  - left. discriminate.
  - right. reflexivity.
  - exists v. split; [exact E|]. rewrite V. field.
Qed.
