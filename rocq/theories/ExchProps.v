(** C22, C23 (message layout), C24: halo exchange buffers. *)
From Coq Require Import ZArith Bool List Lia ZifyBool Permutation.
From Verif Require Import PanelModel PanelSpec PanelProps LayoutModel ExchModel ExchSpec ExchProofs.
Import ListNotations.
Local Open Scope Z_scope.

(** ** C22 *)

(** A message packed by [e] and unpacked by the opposing buffer [r]: every
    array arrives, column by column, and exactly the packed values are used. *)
Theorem C22_exchange {V} e r sA sB rA rB (items olds : list (Z * arr3 V)) sent tail :
  facing e r -> message_size r = message_size e ->
  Forall (fun x => 0 <= fst x) items -> map fst olds = map fst items ->
  pack_all e (message_size e / 8) sA sB items [] = Some sent ->
  exists news,
    unpack_all r (message_size r) rA rB olds (sent ++ tail) header_doubles =
      AOk news tail (header_doubles + Z.of_nat (length sent)) /\
    delivered_all e r sA sB rA rB items olds news.
Proof.
  intros Fc M HR Hl P. destruct items as [|it items].
  - destruct olds; [|discriminate]. cbn in P. injection P as <-. exists []. split; [reflexivity|exact I].
  - destruct (facing_idx e r Fc) as (Ke & _ & _ & _ & Hf).
    pose proof (pack_all_bound e _ sA sB (it :: items) [] sent Ke (proj1 Fc) Hf HR ltac:(congruence) P) as B.
    unfold header_doubles in *.
    assert (2 + (Z.of_nat (length sent) - Z.of_nat (@length V [])) <= message_size r) as B'.
    { rewrite M. cbn [length]. pose proof (Z.mul_div_le (message_size e) 8). lia. }
    destruct (exchange_all e r _ (message_size r) sA sB rA rB (it :: items) olds [] sent tail 2 Fc HR Hl P B')
      as (vals & news & S & U & D).
    cbn in S. subst vals. exists news. split; [exact U|exact D].
Qed.

(** The halo columns written lie in the patch, outside its interior; each has
    one source; the sources are interior nodes of the sender. *)
Theorem C22_halo_only e r sA sB rA rB c c' : facing e r -> on_patch e sA sB -> on_patch r rA rB ->
  linked e r sA sB rA rB c c' ->
  (0 <= fst c' < rA /\ 0 <= snd c' < rB /\ ~ interior (x_halo r) rA rB (fst c') (snd c')) /\
  (deep_enough e sA sB -> interior (x_halo e) sA sB (fst c) (snd c)) /\
  (forall b, linked e r sA sB rA rB b c' -> b = c).
Proof.
  intros Fc Oe Or L. split; [|split].
  - destruct Fc as (H0 & Hh & Fc). unfold on_patch, interior in *. clear Oe.
    destruct L as [d l Ke Kr Hd Hl|da db Ke Kr Hda Hdb].
    + destruct Fc as [(_ & _ & _ & Fl)|(_ & F)]; [|unfold is_edge, is_corner in *; intuition congruence].
      unfold is_edge in Kr. destruct Kr as [E|[E|[E|E]]]; rewrite E in *; cbn [edge_dst fst snd]; lia.
    + unfold is_corner in Kr. destruct Kr as [E|[E|[E|E]]]; rewrite E in *; cbn [corner_dst fst snd]; lia.
  - clear Or Fc. unfold on_patch, deep_enough, interior in *.
    destruct L as [d l Ke Kr Hd Hl|da db Ke Kr Hda Hdb].
    + unfold is_edge in Ke. destruct Ke as [E|[E|[E|E]]]; rewrite E in *; cbn [edge_src fst snd];
        destruct (x_rev e); cbn [fst snd]; lia.
    + unfold is_corner in Ke. destruct Ke as [E|[E|[E|E]]]; rewrite E in *; cbn [corner_src];
        destruct (x_rev e); cbn [fst snd]; lia.
  - intros b Lb. apply (linked_idx e r sA sB rA rB _ _ Fc) in L as (x & Ix & -> & ->).
    apply (linked_idx e r sA sB rA rB _ _ Fc) in Lb as (y & Iy & -> & Ey).
    apply dst_inj in Ey; [congruence|]. apply (facing_idx e r Fc).
Qed.

(** Across a panel edge of the cubed sphere, with the reversal flag of
    GetOpposingDirection: if the first columns meet at the same point of the
    cube edge then every halo column receives the node that it is the image of. *)
Theorem C22_across_panels n d o par perp boxS boxR e r c c' :
  0 < n -> 0 <= bpanel boxS <= 5 -> edge d ->
  relative_panel (bpanel boxS) d = Some (bpanel boxR, o) ->
  cs_opposing (bpanel boxS) (bpanel boxR) d = Some (o, par, perp) ->
  x_dir e = d -> x_dir r = o -> x_rev e = par -> facing e r ->
  x_halo e = bhalo boxS -> x_halo r = bhalo boxR -> x_halo e <= n ->
  touches boxS n d -> touches boxR n o ->
  0 <= lateral boxS d (x_first e) -> lateral boxS d (x_second e) <= n ->
  edge_point n (bpanel boxS) d (lateral boxS d (first_sent e)) =
    edge_point n (bpanel boxR) o (lateral boxR o (x_first r)) ->
  linked e r (a_total boxS) (b_total boxS) (a_total boxR) (b_total boxR) c c' ->
  exists rel, relative_coord n (bpanel boxR) (fst (glob boxR c')) (snd (glob boxR c')) = Some rel /\
    rp rel = bpanel boxS /\ (ri rel, rj rel) = glob boxS c.
Proof.
  intros Hn Hp He Hrp Hop De Dr Rv Fc He1 Hr1 Hhn Ts Tr L0 L1 Ep L.
  destruct L as [dd l Ke Kr Hd Hl|da db Ke Kr Hda Hdb];
    [|unfold is_corner, edge in *; rewrite De in Ke; intuition congruence].
  pose proof (proj1 (proj2 Fc)) as Hh. clear Fc Ke Kr. rewrite Hr1 in Hh. rewrite He1 in *. rewrite Hr1.
  rewrite De, Dr, Rv in *. unfold first_sent in Ep. rewrite Rv in Ep.
  clear De Dr Rv He1 Hr1.
  unfold touches, lateral, glob, a_total, b_total in *.
  destruct boxS as [p lS hS A0 A1 B0 B1], boxR as [q lR hR A0' A1' B0' B1'].
  cbn [bpanel blevel bhalo bA0 bA1 bB0 bB1] in *. subst hR.
  unfold edge in He.
  panels p Hp; destruct He as [->|[->|[->| ->]]]; cbn in Hrp; apply some_inj in Hrp;
    injection Hrp as <- <-; cbn in Hop; injection Hop as <- <-;
    cbn [edge_src edge_dst vertical fst snd] in *;
    unfold edge_point, cube in Ep; cbn [Z.eqb Pos.eqb] in Ep; apply (f_equal fst) in Ep as Ep1;
    apply (f_equal snd) in Ep; apply (f_equal snd) in Ep1 as Ep2; apply (f_equal fst) in Ep1; cbn [fst snd] in *;
    unfold relative_coord; dec_tests; eexists; (split; [reflexivity|]); cbn [rp ri rj];
    (split; [reflexivity|]); apply f_equal2; lia.
Qed.

(** Inside a panel, or across a periodic boundary (shift u, v): if the first
    columns (the corner nodes) of the two buffers are next to each other then
    every halo column receives the node at its own position. *)
Theorem C22_within_panel u v boxS boxR e r c c' i j :
  facing e r -> x_dir r = direction_opposite (x_dir e) -> x_rev e = false ->
  x_halo e = bhalo boxS -> x_halo r = bhalo boxR ->
  direction_increment (x_dir e) (fst (glob boxS (lead_node boxS e))) (snd (glob boxS (lead_node boxS e))) = Some (i, j) ->
  glob boxR (lead_node boxR r) = (i + u, j + v) ->
  linked e r (a_total boxS) (b_total boxS) (a_total boxR) (b_total boxR) c c' ->
  glob boxR c' = (fst (glob boxS c) + u, snd (glob boxS c) + v).
Proof.
  intros Fc Do Rv He Hr Inc Rc L. pose proof (proj1 (proj2 Fc)) as Hh. unfold lead_node in *.
  rewrite He in *. rewrite Hr in *. rewrite Hh in *.
  destruct L as [d l Ke Kr Hd Hl|da db Ke Kr Hda Hdb]; rewrite Do in *; rewrite Rv in *; clear Fc Do.
  - unfold is_edge in Ke. destruct Ke as [E|[E|[E|E]]]; rewrite E in *;
      cbn [vertical direction_opposite direction_increment edge_src edge_dst fst snd glob] in *; unfold glob in *; cbn [fst snd] in *;
      apply some_inj in Inc; injection Inc as <- <-; injection Rc as R1 R2; apply f_equal2; lia.
  - unfold is_corner in Ke. destruct Ke as [E|[E|[E|E]]]; rewrite E in *;
      cbn [vertical direction_opposite direction_increment corner_src corner_dst fst snd glob] in *; unfold glob in *; cbn [fst snd] in *;
      apply some_inj in Inc; injection Inc as <- <-; injection Rc as R1 R2; apply f_equal2; lia.
Qed.

(** *** Cases *)
Ltac conc := cbv -[Z.le Z.lt Z.add Z.sub Z.mul]; lia.
Definition bS := patch_box 1 0 1 0 4 4 8.
Definition bR := patch_box 4 0 1 4 8 0 4.
(** Panel 1, top edge of the patch [0,4)x[4,8) of an 8x8 panel, to the right
    edge of panel 4 *)
Definition exS := mkEx 5 17 Top Right 0 1 1 5 11 4 1 5 false.
Definition exR := mkEx 17 5 Right Top 1 0 1 5 11 4 1 5 false.
Example C22_case_across :
  register bS 5 17 0 1 Top (cs_opposing 1 4 Top) 1 5 1 5 0 10 = Some exS /\
  facing exS exR /\ on_patch exS 6 6 /\ on_patch exR 6 6 /\ deep_enough exS 6 6 /\
  relative_panel 1 Top = Some (4, Right) /\ cs_opposing 1 4 Top = Some (Right, false, true) /\
  touches bS 8 Top /\ touches bR 8 Right /\
  edge_point 8 1 Top (lateral bS Top (first_sent exS)) = edge_point 8 4 Right (lateral bR Right (x_first exR)) /\
  linked exS exR 6 6 6 6 (3, 4) (5, 3).
Proof.
  split; [reflexivity|]. split; [unfold facing, is_edge; cbn; intuition lia|].
  split; [conc|]. split; [conc|]. split; [conc|]. split; [reflexivity|]. split; [reflexivity|].
  split; [reflexivity|]. split; [reflexivity|]. split; [reflexivity|].
  exact (link_edge exS exR 6 6 6 6 1 2 ltac:(unfold is_edge; cbn; tauto) ltac:(unfold is_edge; cbn; tauto)
    ltac:(cbn; lia) ltac:(cbn; lia)).
Qed.
Example C22_case_exchange :
  exists sent, pack_all exS (message_size exS / 8) 6 6 [(2, fun i j k => 100 * i + 10 * j + k)] [] = Some sent /\
    sent = [140; 141; 240; 241; 340; 341; 440; 441].
Proof. eexists. split; [vm_compute; reflexivity|reflexivity]. Qed.

(** At a corner where two panels meet along an edge the reversal flag of
    GetOpposingDirection describes the lateral order, not the exchange of the
    two coordinates: with a halo of two nodes the values arrive transposed. *)
Definition cbS := patch_box 1 0 2 0 4 4 8.
Definition cbR := patch_box 4 0 2 4 8 4 8.
Definition cS := mkEx 5 19 TopRight BottomRight 0 1 2 5 11 2 5 5 false.
Definition cR := mkEx 19 5 BottomRight TopRight 1 0 2 5 11 2 5 2 true.
Theorem C22_corner_transposed_refuted :
  register cbS 5 19 0 1 TopRight (cs_opposing 1 4 TopRight) 5 5 2 5 0 10 = Some cS /\
  whole_side cbS TopRight = Some (5, 5) /\ whole_side cbR BottomRight = Some (5, 2) /\
  facing cS cR /\ on_patch cS 8 8 /\ on_patch cR 8 8 /\
  (exists rel, relative_coord 8 1 (fst (glob cbS (5, 5)) + 1) (snd (glob cbS (5, 5)) + 1) = Some rel /\
     rp rel = 4 /\ (ri rel, rj rel) = glob cbR (5, 2)) /\
  exists c c' rel, linked cS cR 8 8 8 8 c c' /\
    relative_coord 8 4 (fst (glob cbR c')) (snd (glob cbR c')) = Some rel /\ rp rel = 1 /\
    glob cbS c = (3, 6) /\ (ri rel, rj rel) = (2, 7).
Proof.
  split; [reflexivity|]. split; [reflexivity|]. split; [reflexivity|].
  split; [unfold facing, is_corner; cbn; intuition lia|].
  split; [conc|]. split; [conc|].
  split; [eexists; split; [vm_compute; reflexivity|split; reflexivity]|].
  eexists. eexists. eexists. split.
  - exact (link_corner cS cR 8 8 8 8 1 2 ltac:(unfold is_corner; cbn; tauto) ltac:(unfold is_corner; cbn; tauto)
      ltac:(cbn; lia) ltac:(cbn; lia)).
  - split; [vm_compute; reflexivity|]. split; [reflexivity|]. split; reflexivity.
Qed.

(** ** C24 *)

(** A buffer made by RegisterExchangeBuffer holds every variable of every
    data type: packing never throws. *)
Theorem C24_capacity {V} boxS src tgt sproc tproc dir opp first second halo nC nT nR loc t e sA sB
  (items : list (Z * arr3 V)) :
  register boxS src tgt sproc tproc dir opp first second halo nC nT nR = Some e ->
  on_patch e sA sB -> 0 <= nC -> 0 <= nT -> 1 <= Z.max nC nT -> 1 <= nR ->
  map fst items = map snd (packed_vars t nC nT nR loc) ->
  exists sent, pack_all e (message_size e / 8) sA sB items [] = Some sent.
Proof.
  intros R O HC HT HM HR Hi. unfold register in R. destruct opp as [[[o rv] fl]|]; [|discriminate].
  cbv zeta in R. match type of R with (if ?b then _ else _) = _ => destruct b; [discriminate|] end.
  apply some_inj in R. subst e. set (comp := if nT <? nC then nC else nT).
  assert (comp = Z.max nC nT) as Ec by (unfold comp; destruct (Z.ltb_spec nT nC); lia).
  destruct (packed_levels_bound t nC nT nR loc HC HT HR HM) as (B & F0). rewrite <- Hi in B, F0.
  set (e := mkEx _ _ _ _ _ _ _ _ _ _ _ _ _) in *.
  assert (kind_ok e) as K.
  { unfold on_patch in O. unfold kind_ok, is_edge, is_corner. destruct (x_dir e); tauto. }
  assert (is_edge (x_dir e) -> first <= second) as Hf.
  { intros [E|[E|[E|E]]]; unfold on_patch in O; rewrite E in O; subst e; cbn in O; lia. }
  assert (0 < halo) as Hh by (unfold on_patch in O; subst e; cbn in O; lia).
  assert (0 <= x_bsize e) as Hb.
  { unfold on_patch in O. subst e. cbn in *. destruct dir; cbn in *; lia. }
  assert (forall sR, total_values e sR = halo * x_bsize e * sR) as Ht.
  { intros sR. unfold on_patch in O. subst e. unfold total_values. cbn in *.
    destruct dir; try (exfalso; tauto); ring. }
  apply pack_all_ok; auto.
  - cbn. lia.
  - unfold pack_check. unfold on_patch in O. subst e. cbn in *. destruct dir; try reflexivity; lia.
  - apply Forall_forall. intros x Hx. rewrite Forall_forall in F0. apply F0, in_map, Hx.
  - rewrite (map_ext _ _ Ht). rewrite zsum_linear. unfold message_size, byte_size, header_bytes, header_doubles.
    change (x_maxR e) with (nR + 1). change (x_halo e) with halo. change (x_comp e) with comp. rewrite Ec.
    replace (x_bsize e * (nR + 1) * halo * Z.max nC nT * 8 + 16)
      with ((halo * x_bsize e * (Z.max nC nT * (nR + 1)) + 2) * 8) by ring.
    rewrite Z.div_mul by lia. cbn [length].
    assert (halo * x_bsize e * zsum (map fst items) <= halo * x_bsize e * (Z.max nC nT * (nR + 1))); [|lia].
    apply Z.mul_le_mono_nonneg_l; [|exact B]. apply Z.mul_nonneg_nonneg; lia.
Qed.
Example C24_case_capacity :
  map fst [(10, fun _ _ _ : Z => 0); (10, fun _ _ _ => 0); (11, fun _ _ _ => 0)] =
    map snd (packed_vars TState 3 0 10 (fun c => if c =? 2 then LREdge else LNode)).
Proof. reflexivity. Qed.

(** Allocation: one buffer per neighbouring processor, as long as all its
    messages together; the areas are aligned, inside their buffer, pairwise
    apart. *)
Theorem C24_send_areas regs sizes pos : allocate 0 regs = Some (sizes, pos) ->
  Forall (fun e => 0 <= message_size e) regs ->
  ascending sizes /\
  (forall p k, In (p, k) sizes <-> (exists e, In e regs /\ x_tproc e = p) /\
     k = zsum (map message_size (filter (fun e => x_tproc e =? p) regs))) /\
  length pos = length regs /\
  (forall m e o, nth_error regs m = Some e -> nth_error pos m = Some o ->
     exists k, In (x_tproc e, k) sizes /\ 0 <= o /\ o + message_size e <= k) /\
  (forall m e o m' e' o', nth_error regs m = Some e -> nth_error pos m = Some o ->
     nth_error regs m' = Some e' -> nth_error pos m' = Some o' -> m <> m' -> x_tproc e = x_tproc e' ->
     apart o (message_size e) o' (message_size e')).
Proof.
  unfold allocate. cbn [Nat.eqb negb].
  destruct (existsb _ regs); [discriminate|]. destruct (existsb _ regs); [discriminate|].
  intros H P. injection H as <- <-. destruct (proc_sizes_spec regs) as (A & G).
  split; [exact A|]. split; [exact G|]. split; [apply send_positions_length|]. split.
  - intros m e o E O. rewrite (send_positions_nth regs _ m e E) in O. injection O as <-. cbn beta.
    exists (tot regs (x_tproc e)). split.
    + apply G. split; [|reflexivity]. exists e. split; [apply nth_error_In with m; exact E|reflexivity].
    + rewrite (tot_split regs m e (x_tproc e) E), Z.eqb_refl.
      pose proof (tot_nonneg (firstn m regs) (x_tproc e) (Forall_firstn _ _ _ P)).
      pose proof (tot_nonneg (skipn (S m) regs) (x_tproc e) (Forall_skipn _ _ _ P)). lia.
  - assert (forall m m' e e', nth_error regs m = Some e -> nth_error regs m' = Some e' -> (m < m')%nat ->
      x_tproc e = x_tproc e' -> tot (firstn m regs) (x_tproc e) + message_size e <= tot (firstn m' regs) (x_tproc e')) as Q.
    { intros m m' e e' E E' L T. destruct (firstn_split regs m m' e E L) as (l2 & F).
      rewrite F, tot_app, tot_cons, T, Z.eqb_refl.
      assert (Forall (fun e => 0 <= message_size e) l2) as P2.
      { pose proof (Forall_firstn _ _ m' P) as P'. rewrite F in P'. apply Forall_app in P' as (_ & P').
        inversion P'; assumption. }
      pose proof (tot_nonneg l2 (x_tproc e') P2). lia. }
    intros m e o m' e' o' E O E' O' N T.
    rewrite (send_positions_nth regs _ m e E) in O. injection O as <-.
    rewrite (send_positions_nth regs _ m' e' E') in O'. injection O' as <-. cbn beta. unfold apart.
    destruct (Nat.lt_ge_cases m m') as [L|L].
    + left. pose proof (Q m m' e e' E E' L T). lia.
    + right. pose proof (Q m' m e' e E' E ltac:(lia) (eq_sym T)). lia.
Qed.
Example C24_case_areas :
  allocate 0 [mkEx 0 1 Top Bottom 0 3 1 5 11 4 1 5 false; mkEx 0 2 Right Left 0 1 1 5 11 4 1 5 false;
              mkEx 0 4 TopRight BottomLeft 0 3 1 5 11 1 4 4 false]
  = Some ([(1, 1776); (3, 2232)], [0; 0; 1776]).
Proof. reflexivity. Qed.

(** The receive buffer's length is set in bytes where doubles are counted
    (AttachRecvBuffers): the bound check of Unpack lets a read beyond the
    message pass. *)
Theorem C24_recv_check_refuted : exists r (vals : list Z),
  on_patch r 6 6 /\ Z.of_nat (length vals) = message_size r / 8 - header_doubles /\
  unpack3 r (message_size r) 6 6 12 (fun _ _ _ => 0) vals header_doubles = UOverread.
Proof.
  exists (mkEx 17 5 Right Top 1 0 1 1 11 4 1 5 false), (map Z.of_nat (seq 0 44)).
  split; [conc|]. split; vm_compute; reflexivity.
Qed.

(** ** C23: finding the messages *)

(** A message whose blocks carry, in any order, the headers of the buffers of
    that processor: every buffer is attached once, to the block with its
    header. *)
Theorem C23_attach bufs msg : msg <> [] -> NoDup (map recv_header bufs) ->
  Permutation (map recv_header bufs) (map fst msg) ->
  (forall e h n, In e bufs -> In (h, n) msg -> recv_header e = h -> n = message_size e) ->
  Forall (fun x => 16 <= snd x) msg ->
  exists acc, attach bufs msg (zsum (map snd msg)) = TOk acc /\
    Permutation (map fst acc) (seq 0 (length bufs)) /\
    forall b o, In (b, o) acc -> exists e, nth_error bufs b = Some e /\ header_at msg o = Some (recv_header e).
Proof.
  intros Ne ND PM SZ P16.
  assert (Forall (fun x => 0 < snd x) msg) as P0 by (eapply Forall_impl; [|exact P16]; cbn; lia).
  assert (length bufs = length msg) as EL
    by (apply Permutation_length in PM; rewrite !map_length in PM; exact PM).
  assert (Z.of_nat (length msg) <= zsum (map snd msg)) as L.
  { clear - P0. induction P0; cbn [length map zsum]; lia. }
  destruct (attach_loop_ok bufs msg (zsum (map snd msg)) msg [] (S (Z.to_nat (zsum (map snd msg)))) [])
    as (acc & A & F); auto.
  - intros h n I. assert (In h (map recv_header bufs)) as I2.
    { eapply Permutation_in; [apply Permutation_sym, PM|]. apply (in_map fst) in I. exact I. }
    apply in_map_iff in I2 as (e & E & I2). eauto.
  - intros h n e I I2 E. symmetry. eauto.
  - lia.
  - exists acc. split; [exact A|]. split.
    + assert (NoDup (map fst acc)) as NA.
      { assert (map (fun b => nth_error (map recv_header bufs) b) (map fst acc) = map Some (map fst msg)) as E.
        { clear - F. rewrite !map_map. induction F as [|x y l l' R F IH]; cbn; [reflexivity|].
          f_equal; [|exact IH]. destruct R as (e & N & R & _). rewrite <- R. apply map_nth_error, N. }
        apply (NoDup_map_inv (fun b => nth_error (map recv_header bufs) b)). rewrite E.
        apply FinFun.Injective_map_NoDup; [intros a b; congruence|].
        eapply Permutation_NoDup; [exact PM|exact ND]. }
      apply NoDup_Permutation_bis; auto.
      * rewrite seq_length, map_length, <- (Forall2_len _ _ _ F). lia.
      * intros b I. apply in_map_iff in I as ([b' o] & <- & I). apply in_seq. cbn.
        split; [lia|]. clear - F I. induction F as [|x y l l' R F IH]; [destruct I|].
        destruct I as [->|I]; [|auto]. destruct R as (e & N & _). cbn in N.
        apply nth_error_Some. congruence.
    + intros b o I. clear - F I. revert F. generalize msg at 2 as blocks. intros blocks F. induction F as [|x y l l' R F IH]; [destruct I|].
      destruct I as [->|I]; [|auto]. destruct R as (e & N & R & _ & H). cbn in *. exists e. split; [exact N|].
      rewrite R. exact H.
Qed.
Definition atB := [mkEx 0 1 Top Bottom 0 3 1 5 11 4 1 5 false; mkEx 0 4 TopRight BottomLeft 0 3 1 5 11 1 4 4 false].
Definition atM : list (header * Z) := [((4, 0, TopRight), 456); ((1, 0, Top), 1776)].
Example C23_case_attach :
  NoDup (map recv_header atB) /\ Permutation (map recv_header atB) (map fst atM) /\
  attach atB atM 2232 = TOk [(1%nat, 0); (0%nat, 456)].
Proof.
  split; [repeat constructor; cbn; intuition discriminate|]. split; [apply perm_swap|]. reflexivity.
Qed.
(** The headers of the messages sent are the receive headers of the matching
    registrations. *)
Theorem C23_headers_match e r : x_src r = x_tgt e -> x_tgt r = x_src e -> x_dir r = x_opp e ->
  send_header e = recv_header r.
Proof. unfold send_header, recv_header. intros -> -> ->. reflexivity. Qed.
(** Two buffers with the same header (the same pair of patches meeting twice
    in the same direction): the first is attached twice, the second never. *)
Theorem C23_duplicate_header_refuted : exists bufs msg,
  Permutation (map recv_header bufs) (map fst msg) /\ length bufs = 2%nat /\
  attach bufs msg (zsum (map snd msg)) = TOk [(0%nat, 0); (0%nat, 1776)].
Proof.
  exists [mkEx 0 1 Right Left 0 3 1 5 11 4 1 5 false; mkEx 0 1 Right Left 0 3 1 5 11 4 5 9 false],
    [((1, 0, Right), 1776); ((1, 0, Right), 1776)].
  split; [reflexivity|]. split; reflexivity.
Qed.

(** The order in which buffers are unpacked does not matter, provided columns
    written twice get the same value: same success, same values. *)
Theorem C23_unpack_any_order {V} sA sB sR (l l' : list (exbuf * list V)) a b :
  Forall (fun x => is_edge (x_dir (fst x)) \/ is_corner (x_dir (fst x))) l ->
  (forall e vals e' vals' p v v', In (e, vals) l -> In (e', vals') l ->
     wrote e sA sB sR vals p v -> wrote e' sA sB sR vals' p v' -> v = v') ->
  Permutation l l' -> unpack_seq sA sB sR l a = Some b ->
  exists b', unpack_seq sA sB sR l' a = Some b' /\ (forall i j k, b' i j k = b i j k) /\
    (forall e vals i j k v, In (e, vals) l -> wrote e sA sB sR vals (i, j, k) v -> b' i j k = v).
Proof.
  intros K C P H. destruct (unpack_seq_spec sA sB sR l a b K C H) as (B1 & B2 & B3).
  assert (exists b', unpack_seq sA sB sR l' a = Some b') as (b' & H').
  { assert (forall e vals, In (e, vals) l' -> forall a', exists new rest pos,
      unpack3 e (message_size e) sA sB sR a' vals header_doubles = UOk new rest pos) as B4
      by (intros e vals I; apply B3, (Permutation_in _ (Permutation_sym P)), I).
    clear - B4. revert a. induction l' as [|[e vals] l' IH]; intros a; cbn; [eauto|].
    destruct (B4 e vals (or_introl eq_refl) a) as (new & rest & pos & ->). apply IH.
    intros; apply B4; right; assumption. }
  exists b'. split; [exact H'|].
  destruct (unpack_seq_spec sA sB sR l' a b') as (D1 & D2 & _); auto.
  { eapply Permutation_Forall; eauto. }
  { intros e vals e' vals' p v v' I I'.
    exact (C e vals e' vals' p v v' (Permutation_in _ (Permutation_sym P) I) (Permutation_in _ (Permutation_sym P) I')). }
  assert (forall e vals i j k v, In (e, vals) l -> wrote e sA sB sR vals (i, j, k) v -> b' i j k = v) as D.
  { intros e vals i j k v I. apply D1. eapply Permutation_in; eauto. }
  split; [|exact D]. intros i j k. destruct (wrote_dec sA sB sR i j k l) as [N|(e & vals & v & I & W)].
  - rewrite B2 by exact N. apply D2. intros e vals v I. exact (N e vals v (Permutation_in _ (Permutation_sym P) I)).
  - rewrite (D _ _ _ _ _ _ I W). symmetry. eapply B1; eauto.
Qed.
Example C23_case_order :
  let e1 := mkEx 0 1 Right Left 0 1 1 1 2 2 1 3 false in
  let e2 := mkEx 0 2 Top Bottom 0 1 1 1 2 2 1 3 false in
  (exists b, unpack_seq 4 4 1 [(e1, [1; 2]); (e2, [3; 4])] (fun _ _ _ => 0) = Some b /\ b 3 1 0 = 1 /\ b 2 3 0 = 4) /\
  (forall p v v', wrote e1 4 4 1 [1; 2] p v -> wrote e2 4 4 1 [3; 4] p v' -> v = v').
Proof.
  split; [eexists; split; [vm_compute; reflexivity|split; reflexivity]|].
  intros p v v' (c & n & Ec & N & _) (c' & n' & Ec' & N' & _). exfalso.
  apply some_inj in Ec, Ec'. subst c c'. apply nth_error_In in N, N'. vm_compute in N, N'.
  intuition (subst; discriminate).
Qed.

Print Assumptions C22_exchange.
Print Assumptions C22_halo_only.
Print Assumptions C22_across_panels.
Print Assumptions C22_within_panel.
Print Assumptions C22_corner_transposed_refuted.
Print Assumptions C24_capacity.
Print Assumptions C24_send_areas.
Print Assumptions C24_recv_check_refuted.
Print Assumptions C23_attach.
Print Assumptions C23_headers_match.
Print Assumptions C23_duplicate_header_refuted.
Print Assumptions C23_unpack_any_order.
