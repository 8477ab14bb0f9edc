(** C20, C21: panel crossings and adjacency tables. *)
From Coq Require Import ZArith Bool Lia ZifyBool.
From Verif Require Import PanelModel PanelSpec.
Local Open Scope Z_scope.

Ltac panels p H :=
  let K := fresh in
  assert (K : p = 0 \/ p = 1 \/ p = 2 \/ p = 3 \/ p = 4 \/ p = 5) by lia;
  destruct K as [->|[->|[->|[->|[->| ->]]]]]; clear H.
Ltac dec_tests := cbn [Z.eqb Pos.eqb fst snd];
  repeat match goal with
  | |- context [?a <=? ?b] =>
      first [ replace (a <=? b) with true by lia | replace (a <=? b) with false by lia ]
  | |- context [?a <? ?b] =>
      first [ replace (a <? b) with true by lia | replace (a <? b) with false by lia ]
  | |- context [Z.eqb ?a ?b] =>
      first [ replace (Z.eqb a b) with true by lia | replace (Z.eqb a b) with false by lia ]
  end; cbn [andb orb negb].

Lemma some_inj {A} (x y : A) : Some x = Some y -> x = y.
Proof. congruence. Qed.

(** ** C20 *)

(** Crossing edge [e] of panel [p]: the image of the node [d] outside is
    [d] inside the opposing edge, at lateral position k or n-1-k; the image
    edge is the same edge of the cube; and the flags describe the crossing. *)
Theorem C20_crossing n p e d k : 0 < n -> 0 <= p <= 5 -> edge e -> 1 <= d <= n -> 0 <= k < n ->
  exists q o r, relative_panel p e = Some (q, o) /\
    relative_coord n p (fst (outer n e d k)) (snd (outer n e d k)) = Some r /\
    let k' := if sw_par r then n - 1 - k else k in
    rp r = q /\ edge o /\ (ri r, rj r) = inner n o d k' /\
    0 <= ri r < n /\ 0 <= rj r < n /\
    edge_point n p e k = edge_point n q o k' /\
    sw_ab r = xorb (vertical e) (vertical o) /\
    sw_perp r = negb (xorb (high e) (high o)).
Proof.
  intros Hn Hp He Hd Hk. unfold edge in *.
  panels p Hp; destruct He as [->|[->|[->| ->]]];
    eexists; eexists; eexists; (split; [reflexivity|]); unfold outer, relative_coord; cbn [fst snd];
    dec_tests; (split; [reflexivity|]); cbn [rp ri rj sw_ab sw_par sw_perp inner vertical high xorb negb];
    (split; [reflexivity|]); (split; [tauto|]); (split; [apply f_equal2; lia|]);
    (split; [lia|]); (split; [lia|]); (split; [|split; reflexivity]);
    unfold edge_point, cube; cbn [Z.eqb Pos.eqb]; repeat f_equal; lia.
Qed.

(** Crossing and coming back is the identity. *)
Theorem C20_round_trip n p e d k r : 0 < n -> 0 <= p <= 5 -> edge e -> 1 <= d <= n -> 0 <= k < n ->
  relative_coord n p (fst (outer n e d k)) (snd (outer n e d k)) = Some r ->
  exists q o r', relative_panel p e = Some (q, o) /\
    let k' := if sw_par r then n - 1 - k else k in
    (ri r, rj r) = inner n o d k' /\
    relative_coord n q (fst (outer n o d k')) (snd (outer n o d k')) = Some r' /\
    rp r' = p /\ (ri r', rj r') = inner n e d k /\
    sw_par r' = sw_par r /\ sw_ab r' = sw_ab r /\ sw_perp r' = sw_perp r.
Proof.
  intros Hn Hp He Hd Hk H. unfold edge in *.
  panels p Hp; destruct He as [->|[->|[->| ->]]]; revert H; unfold outer, relative_coord; cbn [fst snd];
    dec_tests; intros H; apply some_inj in H; subst r;
    eexists; eexists; eexists; (split; [reflexivity|]); cbn [rp ri rj sw_ab sw_par sw_perp inner];
    (split; [apply f_equal2; lia|]); unfold outer, relative_coord; cbn [fst snd]; dec_tests; (split; [reflexivity|]);
    cbn [rp ri rj sw_ab sw_par sw_perp]; (split; [reflexivity|]); (split; [apply f_equal2; lia|]); auto.
Qed.

(** Distinct nodes across an edge have distinct images. *)
Theorem C20_injective n p e d k d' k' r : 0 < n -> 0 <= p <= 5 -> edge e ->
  1 <= d <= n -> 0 <= k < n -> 1 <= d' <= n -> 0 <= k' < n ->
  relative_coord n p (fst (outer n e d k)) (snd (outer n e d k)) = Some r ->
  relative_coord n p (fst (outer n e d' k')) (snd (outer n e d' k')) = Some r ->
  d = d' /\ k = k'.
Proof.
  intros Hn Hp He Hd Hk Hd' Hk'. unfold edge in *.
  panels p Hp; destruct He as [->|[->|[->| ->]]]; unfold outer, relative_coord; cbn [fst snd];
    dec_tests; intros H; apply some_inj in H; subst r; intros [=]; lia.
Qed.

(** Nodes of the panel itself are not moved; nodes outside two edges at once
    have no image. *)
Theorem C20_interior_and_corner n p i j : 0 < n ->
  (0 <= i < n -> 0 <= j < n -> relative_coord n p i j = Some (mkRel p i j false false false)) /\
  ((i < 0 \/ n <= i) -> (j < 0 \/ n <= j) ->
     relative_coord n p i j = Some (mkRel (-1) (-1) (-1) false false false)).
Proof.
  intros Hn. unfold relative_coord. split; intros Hi Hj.
  - dec_tests. reflexivity.
  - destruct Hi, Hj; dec_tests; reflexivity.
Qed.

Example C20_case : relative_coord 8 1 3 9 = Some (mkRel 4 6 3 true false true) /\
  relative_coord 8 4 9 3 = Some (mkRel 1 3 6 true false true).
Proof. split; reflexivity. Qed.

(** ** C21 *)

(** The four tables describe one relation. *)
Theorem C21_tables_agree p e : 0 <= p <= 5 -> edge e ->
  exists q o, relative_panel p e = Some (q, o) /\ 0 <= q <= 5 /\ edge o /\ q <> p /\
    panel_from_direction p e = Some q /\
    direction_from_panel p q = Some e /\
    opposing_direction p q e = Some o /\
    relative_panel q o = Some (p, e).
Proof.
  intros Hp He. unfold edge. panels p Hp; destruct He as [->|[->|[->| ->]]];
    eexists; eexists; (split; [reflexivity|]); (split; [lia|]); (split; [tauto|]); (split; [lia|]);
    repeat split.
Qed.

(** Panels that are not neighbours are reported unreachable, and there is
    exactly one such panel for each. *)
Theorem C21_direction_from_panel p q : 0 <= p <= 5 -> 0 <= q <= 5 ->
  exists d, direction_from_panel p q = Some d /\
    (d = Middle <-> p = q) /\
    (d <> Middle -> d <> Unreachable -> edge d /\ exists o, relative_panel p d = Some (q, o)) /\
    (d = Unreachable <-> p <> q /\ forall e o, relative_panel p e <> Some (q, o)).
Proof.
  intros Hp Hq. unfold edge. panels p Hp; panels q Hq; (eexists; split; [reflexivity|]); (split;
    [ split; intros Z; first [reflexivity|discriminate Z]
    | split;
      [ intros A B; first [congruence | split; [tauto|eexists; reflexivity]]
      | split; [ intros E; first [discriminate E | split; [lia|intros [] o; discriminate]]
              | intros [A B]; first [ lia | reflexivity | exfalso;
                first [ eapply (B Right); reflexivity | eapply (B Top); reflexivity
                      | eapply (B Left); reflexivity | eapply (B Bottom); reflexivity ] ] ] ] ]).
Qed.

(** The vector switch flags of GetOpposingDirection and of RelativeCoord
    agree and are symmetric. *)
Theorem C21_flags_agree n p e d k r : 0 < n -> 0 <= p <= 5 -> edge e -> 1 <= d <= n -> 0 <= k < n ->
  relative_coord n p (fst (outer n e d k)) (snd (outer n e d k)) = Some r ->
  exists o, relative_panel p e = Some (rp r, o) /\
    cs_opposing p (rp r) e = Some (o, sw_par r, sw_perp r) /\
    cs_opposing (rp r) p o = Some (e, sw_par r, sw_perp r).
Proof.
  intros Hn Hp He Hd Hk H. unfold edge in *.
  panels p Hp; destruct He as [->|[->|[->| ->]]]; revert H; unfold outer, relative_coord; cbn [fst snd];
    dec_tests; intros H; apply some_inj in H; subst r; cbn [rp sw_par sw_perp]; eexists; (split; [reflexivity|split; reflexivity]).
Qed.

(** In all eight directions: moving one node in direction [d] and then one
    node in the opposing direction leads back, unless the move leaves the
    panel across a corner. *)
Theorem C21_opposing_round_trip n p d i j i1 j1 r : 0 < n -> 0 <= p <= 5 -> 0 <= i < n -> 0 <= j < n ->
  d <> Unreachable ->
  direction_increment d i j = Some (i1, j1) ->
  relative_coord n p i1 j1 = Some r -> rp r <> -1 ->
  exists o i2 j2 r', opposing_direction p (rp r) d = Some o /\
    direction_increment o (ri r) (rj r) = Some (i2, j2) /\
    relative_coord n (rp r) i2 j2 = Some r' /\
    rp r' = p /\ ri r' = i /\ rj r' = j /\
    opposing_direction (rp r) p o = Some d.
Proof.
  intros Hn Hp Hi Hj Hu Hd. destruct d; try congruence; cbn in Hd; injection Hd as <- <-; clear Hu;
  unfold relative_coord at 1;
  repeat match goal with
  | |- context [?a <=? ?b] => destruct (Z.leb_spec a b); try (exfalso; lia)
  | |- context [?a <? ?b] => destruct (Z.ltb_spec a b); try (exfalso; lia)
  end; cbn [andb orb];
  panels p Hp; cbn [Z.eqb Pos.eqb]; intros H'; apply some_inj in H'; subst r; cbn [rp ri rj]; intros Hr; try congruence;
  (eexists; eexists; eexists; eexists; split; [reflexivity|]; split; [reflexivity|];
   unfold relative_coord; dec_tests; split; [reflexivity|]; cbn [rp ri rj];
   split; [reflexivity|]; split; [lia|]; split; [lia|reflexivity]).
Qed.
Example C21_case : direction_increment TopRight 3 7 = Some (4, 8) /\
  relative_coord 8 1 4 8 = Some (mkRel 4 7 4 true false true) /\ opposing_direction 1 4 TopRight = Some BottomRight.
Proof. repeat split. Qed.

(** On one panel, stepping in a direction and then in its opposite is the
    identity. *)
Theorem C21_direction_opposite d i j i1 j1 : direction_increment d i j = Some (i1, j1) ->
  direction_increment (direction_opposite d) i1 j1 = Some (i, j) /\
  direction_opposite (direction_opposite d) = d.
Proof. destruct d; cbn; try discriminate; intros [= <- <-]; split; try reflexivity; f_equal; f_equal; lia. Qed.

Print Assumptions C20_crossing.
Print Assumptions C20_round_trip.
Print Assumptions C20_injective.
Print Assumptions C20_interior_and_corner.
Print Assumptions C21_tables_agree.
Print Assumptions C21_direction_from_panel.
Print Assumptions C21_flags_agree.
Print Assumptions C21_opposing_round_trip.
Print Assumptions C21_direction_opposite.
