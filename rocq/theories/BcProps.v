(** Theorems for C108: lateral boundary conditions of the Cartesian grid. *)
From Coq Require Import ZArith Bool List Reals Lra Lia Znumtheory.
From Verif Require Import LayoutModel LayoutSpec LayoutProofs LayoutProps BcModel BcSpec BcProofs.
Import ListNotations.
Local Open Scope Z_scope.

(** With vertical velocity on interfaces: at every side that acts, away from
    the corners, the velocity at the wall satisfies the condition set, for
    node and interface data. *)
Theorem C108_conditions GA GB stag np resA resB K bc b s :
  regular GA GB -> stag = 2 \/ stag = 3 -> 3 <= bA1 b - bA0 b -> 3 <= bB1 b - bB0 b ->
  (forall d, 0 <= d <= 3 -> 0 <= bc d <= 2) ->
  exists s', apply_bc GA GB stag np resA resB K bc b s = BOk s' /\
    forall d, 0 <= d <= 3 -> bc d <> 0 -> reaches np resA resB d b ->
    let A := bA1 b - bA0 b in let B := bB1 b - bB0 b in
    forall e t k, 1 <= t < length_of A B d - 1 -> vertical false K e k ->
      condition GA GB (bc d) A B d s' e t k.
Proof.
  intros reg HS HA HB HC.
  destruct (apply_general GA GB reg stag np resA resB K bc b s) as (s' & E & P & _); auto; [lia|].
  exists s'. split; [exact E|]. intros d Hd N HR A B e t k Ht Hk.
  assert (stag =? StagInterfaces = false) as I by (unfold StagInterfaces; lia). rewrite I in P.
  exact (P d Hd N HR e t k Ht Hk).
Qed.
(** Everything on interfaces: true of the left and bottom sides. *)
Theorem C108_interfaces_partial GA GB np resA resB K bc b s :
  regular GA GB -> 3 <= bA1 b - bA0 b -> 3 <= bB1 b - bB0 b ->
  (forall d, 0 <= d <= 3 -> 0 <= bc d <= 2) ->
  exists s', apply_bc GA GB 1 np resA resB K bc b s = BOk s' /\
    forall d, 0 <= d <= 3 -> bc d <> 0 -> reaches np resA resB d b ->
    let A := bA1 b - bA0 b in let B := bB1 b - bB0 b in
    forall t k, 1 <= t < length_of A B d - 1 -> 0 <= k < K ->
      (2 <= d -> condition GA GB (bc d) A B d s' false t k) /\
      (d <= 1 -> condition GA GB (3 - bc d) A B d s' false t k).
Proof.
  intros reg HA HB HC.
  destruct (apply_general GA GB reg 1 np resA resB K bc b s) as (s' & E & P & _); auto; [lia|].
  exists s'. split; [exact E|]. intros d Hd N HR A B t k Ht Hk.
  specialize (P d Hd N HR false t k Ht (conj eq_refl Hk)). unfold effective in P. cbn [Z.eqb StagInterfaces Pos.eqb andb] in P.
  split; intros Hd'.
  - destruct (Z.leb_spec d 1); [lia|]. exact P.
  - destruct (Z.leb_spec d 1); [exact P|lia].
Qed.
(** Nothing but the velocity on the outermost line of an acting side changes. *)
Theorem C108_frame GA GB stag np resA resB K bc b s :
  regular GA GB -> stag <> 0 -> 3 <= bA1 b - bA0 b -> 3 <= bB1 b - bB0 b ->
  (forall d, 0 <= d <= 3 -> 0 <= bc d <= 2) ->
  exists s', apply_bc GA GB stag np resA resB K bc b s = BOk s' /\
    forall e c i j k, (on_side np resA resB bc b i j -> c <> UIx /\ c <> VIx /\ c <> WIx) ->
      s' e c i j k = s e c i j k.
Proof.
  intros reg HS HA HB HC.
  destruct (apply_general GA GB reg stag np resA resB K bc b s) as (s' & E & _ & Q); auto.
  exists s'. auto.
Qed.

(** A code that is none of the three makes an acting side throw. *)
Lemma loop_hit flux code p q vs : forall s, match loop (fun s e t k => hit flux code s e (fst (p t)) (snd (p t)) (fst (q t)) (snd (q t)) k) vs s with
  | BUndef => False | BThrow => True | BOk _ => True end.
Proof.
  induction vs as [|[[e t] k] vs IH]; intros s; cbn [loop]; [exact Logic.I|].
  unfold hit at 1. destruct (code =? NoSlip); [apply IH|]. destruct (code =? NoFlux); [apply IH|exact Logic.I].
Qed.
Lemma loop_throws flux code p q vs s : code <> 1 -> code <> 2 -> vs <> [] ->
  loop (fun s e t k => hit flux code s e (fst (p t)) (snd (p t)) (fst (q t)) (snd (q t)) k) vs s = BThrow.
Proof.
  intros H1 H2 HV. destruct vs as [|[[e t] k] vs]; [congruence|]. cbn [loop]. unfold hit at 1.
  unfold NoSlip, NoFlux. apply Z.eqb_neq in H1, H2. rewrite H1, H2. reflexivity.
Qed.
Lemma side_total flux code acts w p q vs s : 2 <= w ->
  (exists s', side code acts w (fun s e t k => hit flux code s e (fst (p t)) (snd (p t)) (fst (q t)) (snd (q t)) k) vs s = BOk s') \/
  side code acts w (fun s e t k => hit flux code s e (fst (p t)) (snd (p t)) (fst (q t)) (snd (q t)) k) vs s = BThrow.
Proof.
  intros Hw. unfold side. destruct (negb _ && _); [|left; exists s; reflexivity].
  destruct (Z.ltb_spec w 2); [lia|]. pose proof (loop_hit flux code p q vs s) as L.
  destruct (loop _ vs s); [right; reflexivity|contradiction|left; eexists; reflexivity].
Qed.
Theorem C108_unknown GA GB stag np resA resB K bc b s d :
  stag = 2 \/ stag = 3 -> 2 <= bA1 b - bA0 b -> 2 <= bB1 b - bB0 b -> 0 <= K ->
  0 <= d <= 3 -> reaches np resA resB d b -> ~ 0 <= bc d <= 2 ->
  apply_bc GA GB stag np resA resB K bc b s = BThrow.
Proof.
  intros HS HA HB HK Hd HR HC. unfold apply_bc. fold (a_total b) in HA. fold (b_total b) in HB.
  set (A := a_total b) in *. set (B := b_total b) in *.
  assert (stag =? StagInterfaces = false) as I by (unfold StagInterfaces; lia). rewrite I.
  assert (stag =? StagLevels = false) as L by (unfold StagLevels; lia). rewrite L. cbv zeta.
  assert (forall w, 2 <= w -> visits_other w K <> []) as NE.
  { intros w Hw X. assert (In (true, 0, 0) (visits false w K)) as Y by (apply visits_in; cbn; lia).
    cbn [visits] in Y. rewrite X in Y. exact Y. }
  assert (forall flux code acts w w' p q s, 2 <= w -> 2 <= w' -> acts = true -> ~ 0 <= code <= 2 ->
    side code acts w (fun s e t k => hit flux code s e (fst (p t)) (snd (p t)) (fst (q t)) (snd (q t)) k) (visits_other w' K) s = BThrow) as TH.
  { intros flux code acts w w' p q s0 H2 H2' -> Hc. unfold side. destruct (Z.eqb_spec code Periodic) as [X|_]; [unfold Periodic in X; lia|].
    destruct (Z.ltb_spec w 2); [lia|]. cbn [negb andb]. apply loop_throws; [lia|lia|apply NE; exact H2']. }
  pose proof (fun s => side_total (flux_alpha GA) (bc 0) (bA1 b =? np * resA) A (fun t => (A - 1, t)) (fun t => (A - 2, t)) (visits_other B K) s HA) as S0.
  pose proof (fun s => side_total (flux_beta GB) (bc 1) (bB1 b =? np * resB) B (fun t => (t, B - 1)) (fun t => (t, B - 2)) (visits_other A K) s HB) as S1.
  pose proof (fun s => side_total (flux_alpha GA) (bc 2) (bA0 b =? 0) A (fun t => (0, t)) (fun t => (1, t)) (visits_other B K) s HA) as S2.
  pose proof (fun s => TH (flux_alpha GA) (bc 0) (bA1 b =? np * resA) A B (fun t => (A - 1, t)) (fun t => (A - 2, t)) s HA HB) as T0.
  pose proof (fun s => TH (flux_beta GB) (bc 1) (bB1 b =? np * resB) B A (fun t => (t, B - 1)) (fun t => (t, B - 2)) s HB HA) as T1.
  pose proof (fun s => TH (flux_alpha GA) (bc 2) (bA0 b =? 0) A B (fun t => (0, t)) (fun t => (1, t)) s HA HB) as T2.
  pose proof (fun s => TH (flux_beta GB) (bc 3) (bB0 b =? 0) B A (fun t => (t, 0)) (fun t => (t, 1)) s HB HA) as T3.
  cbn [fst snd] in S0, S1, S2, T0, T1, T2, T3. clear TH.
  assert (d = 0 \/ d = 1 \/ d = 2 \/ d = 3) as [->|[->|[->| ->]]] by lia; cbn in HR; apply Z.eqb_eq in HR.
  - rewrite T0 by assumption. reflexivity.
  - destruct (S0 s) as [(s1 & ->)| ->]; [|reflexivity]. cbn [bind]. rewrite T1 by assumption. reflexivity.
  - destruct (S0 s) as [(s1 & ->)| ->]; [|reflexivity]. cbn [bind]. destruct (S1 s1) as [(s2 & ->)| ->]; [|reflexivity].
    cbn [bind]. rewrite T2 by assumption. reflexivity.
  - destruct (S0 s) as [(s1 & ->)| ->]; [|reflexivity]. cbn [bind]. destruct (S1 s1) as [(s2 & ->)| ->]; [|reflexivity].
    cbn [bind]. destruct (S2 s2) as [(s3 & ->)| ->]; [|reflexivity]. cbn [bind]. rewrite T3 by assumption. reflexivity.
Qed.
(** Setting a condition changes that side only; other directions throw. *)
Theorem C108_set bc d code :
  (0 <= d <= 3 -> exists bc', set_boundary_condition bc d code = Some bc' /\ bc' d = code /\
     forall d', d' <> d -> bc' d' = bc d') /\
  (~ 0 <= d <= 3 -> set_boundary_condition bc d code = None).
Proof.
  unfold set_boundary_condition. destruct (Z.ltb_spec d 0), (Z.ltb_spec 3 d); cbn [orb]; split; intros Hd; try lia; try reflexivity.
  eexists. split; [reflexivity|]. cbv beta. rewrite Z.eqb_refl. split; [reflexivity|]. intros d' N. apply Z.eqb_neq in N. rewrite N. reflexivity.
Qed.

(** The test compares the indices with the halo included: with a halo
    narrower than an element, no patch of the default layout ever acts, and
    the conditions set are never imposed. *)
Theorem C108_halo_refuted maxp np halo resA resB ninit n bs GA GB stag K bc b s :
  0 <= resA -> 0 <= resB -> 0 < halo < np ->
  cart_layout maxp np halo resA resB ninit n = LOk bs -> In b bs -> stag <> 0 ->
  (forall d, 0 <= d <= 3 -> ~ reaches np resA resB d b) /\
  apply_bc GA GB stag np resA resB K bc b s = BOk s.
Proof.
  intros HA HB Hh L HI HS. destruct (C17_tiles maxp np halo resA resB ninit n bs HA HB ltac:(lia) L) as (_ & _ & AL).
  destruct (AL b HI) as ((D0 & D1 & D2 & D3) & _). clear AL.
  assert (bhalo b = halo) as EH.
  { revert L. unfold cart_layout. destruct (n <? 1); [discriminate|]. destruct (negb (ninit =? 0)); [discriminate|].
    destruct (negb (Z.rem (resA * resB) n =? 0)); [discriminate|]. unfold finish. destruct (_ <=? _)%nat; [|discriminate].
    intros [= E]. rewrite <- E in HI. apply in_flat_map in HI as (i & _ & HI). destruct HI as [<-|[]]. reflexivity. }
  assert (forall x, ~ (np | np * x + halo)) as ND.
  { intros x (y & E). assert (halo = np * (y - x)) as X by nia. assert (0 < y - x < 1) by nia. lia. }
  assert (forall d, 0 <= d <= 3 -> ~ reaches np resA resB d b) as NR.
  { intros d Hd HR. rewrite EH in *. assert (d = 0 \/ d = 1 \/ d = 2 \/ d = 3) as [->|[->|[->| ->]]] by lia; cbn in HR; rewrite HR in *.
    - apply (ND (- resA)). apply Z.divide_opp_r in D1. replace (np * - resA + halo) with (- (np * resA - halo)) by ring. exact D1.
    - apply (ND (- resB)). apply Z.divide_opp_r in D3. replace (np * - resB + halo) with (- (np * resB - halo)) by ring. exact D3.
    - apply (ND 0). rewrite Z.mul_0_r. exact D0.
    - apply (ND 0). rewrite Z.mul_0_r. exact D2. }
  split; [exact NR|].
  unfold apply_bc. unfold StagLevels. rewrite (proj2 (Z.eqb_neq stag 0) HS). unfold side.
  assert (bA1 b =? np * resA = false) as -> by (apply Z.eqb_neq; exact (NR 0 ltac:(lia))).
  assert (bB1 b =? np * resB = false) as -> by (apply Z.eqb_neq; exact (NR 1 ltac:(lia))).
  assert (bA0 b =? 0 = false) as -> by (apply Z.eqb_neq; exact (NR 2 ltac:(lia))).
  assert (bB0 b =? 0 = false) as -> by (apply Z.eqb_neq; exact (NR 3 ltac:(lia))).
  rewrite !andb_false_r. reflexivity.
Qed.
(** Everything on levels: an exception, whatever the conditions, even when
    all sides are periodic. *)
Theorem C108_levels_refuted GA GB np resA resB K bc b s :
  apply_bc GA GB 0 np resA resB K bc b s = BThrow.
Proof. reflexivity. Qed.
(** Everything on interfaces: no slip set on the right side, and the velocity
    along the wall does not vanish. *)
Definition flat (r : Z) : bool -> Z -> Z -> Z -> Z -> R := fun _ _ _ _ c => if c =? r then 1%R else 0%R.
Lemma flat_regular : regular (flat 0) (flat 1).
Proof. intros e i j k. cbn. lra. Qed.
Theorem C108_exchanged_refuted : exists bc b s s',
  bc 0 = 2 /\ reaches 4 2 2 0 b /\ apply_bc (flat 0) (flat 1) 1 4 2 2 1 bc b s = BOk s' /\
  ~ condition (flat 0) (flat 1) (bc 0) (bA1 b - bA0 b) (bB1 b - bB0 b) 0 s' false 1 0.
Proof.
  set (bc := fun d => if d =? 0 then 2 else 0). set (b := mkBox 0 0 0 4 8 0 8).
  set (s := (fun _ _ _ _ _ => 1%R) : state).
  destruct (C108_frame (flat 0) (flat 1) 1 4 2 2 1 bc b s flat_regular ltac:(lia) ltac:(cbn; lia) ltac:(cbn; lia)) as (s' & E & Q).
  { intros d _. unfold bc. destruct (d =? 0); lia. }
  destruct (C108_interfaces_partial (flat 0) (flat 1) 4 2 2 1 bc b s flat_regular ltac:(cbn; lia) ltac:(cbn; lia)) as (s'' & E' & P).
  { intros d _. unfold bc. destruct (d =? 0); lia. }
  exists bc, b, s, s'. split; [reflexivity|]. split; [reflexivity|]. split; [exact E|].
  intros (C & _). destruct (C eq_refl) as (_ & C1 & _). unfold at_wall in C1. cbn in C1.
  assert (s' false 1 3 1 0 = 1%R) as X.
  { revert E. unfold apply_bc. vm_compute. intros [= <-]. vm_compute. reflexivity. }
  assert (s' false 1 2 1 0 = 1%R) as Y.
  { revert E. unfold apply_bc. vm_compute. intros [= <-]. vm_compute. reflexivity. }
  rewrite X, Y in C1. lra.
Qed.
Example C108_case : regular (flat 0) (flat 1) /\ reaches 4 2 2 0 (mkBox 0 0 0 4 8 0 8) /\
  at_edge 4 2 2 0 (mkBox 0 0 1 3 9 (-1) 9) /\ ~ reaches 4 2 2 0 (mkBox 0 0 1 3 9 (-1) 9) /\
  exists bs, cart_layout 2 4 1 2 2 0 2 = LOk bs /\ In (mkBox 0 0 1 3 9 (-1) 9) bs.
Proof.
  split; [exact flat_regular|]. split; [reflexivity|]. split; [reflexivity|]. split; [cbv; discriminate|].
  eexists. split; [vm_compute; reflexivity|]. right. left. reflexivity.
Qed.

Print Assumptions C108_conditions.
Print Assumptions C108_interfaces_partial.
Print Assumptions C108_frame.
Print Assumptions C108_unknown.
Print Assumptions C108_set.
Print Assumptions C108_halo_refuted.
Print Assumptions C108_levels_refuted.
Print Assumptions C108_exchanged_refuted.
