(** * The columns that the rows of the vertical operators read *)
From Coq Require Import Reals List Arith Bool Lia Lra ZArith.
From Verif Require Import VertModel VertSpec VertProofs VertProofs2 VertProofs4.
From Verif Require Import QuadSpec InterpModel InterpSpec InterpProofs ColModel ColSpec ColProofs FemModel FemSpec FemProofs FemProofs2 FemProps.
From Verif Require Import FluxModel FluxSpec FluxProofs FluxProofs2 FluxProofs3 FluxProofs6 FluxProofs7 FluxProps VertOps.
Import ListNotations.
Local Open Scope R_scope.

(** ** second derivative on interfaces *)
Lemma diffusion_local lobatto o ne nodes edges A k : (0 < o)%nat -> (0 < ne)%nat -> length nodes = (ne * o)%nat -> length edges = (ne * o + 1)%nat -> spaced edges ->
  gives lobatto (o + 1) -> scaled lobatto (o + 1) -> diffusion_edges lobatto o nodes edges = Built A -> (k < length edges)%nat ->
  row_local A k (k - o) (k + o + 1).
Proof.
  intros Ho Hne Ln Le Se GL SL EA Hk u v Huv.
  destruct (C61_interfaces lobatto false o ne nodes edges Ho Hne Ln Le Se GL SL) as (A' & EA' & _ & _ & _ & W). cbn [diffusion_op] in EA'. rewrite EA in EA'. injection EA' as <-.
  set (w := fun l => u l - v l). apply Rminus_diag_uniq. rewrite <- ap_minus. fold w.
  set (c := fun p : nat => if (p =? k)%nat then 1 else 0).
  set (touch := fun a : nat => ((a * o <=? k) && (k <=? (a + 1) * o))%bool%nat).
  assert (Ip : forall a (f : nat -> R), (a < ne)%nat -> exists q, interpolates (o + 1) edges (a * o) f q).
  { intros a f Ha. destruct (interpolant_poly (o + 1) (fun j => nth (a * o + j) edges 0) (fun j => f (a * o + j)%nat)) as (q & Lq & Hq).
    exists q. split; [exact Lq|]. intros j Hj. rewrite <- Hq. apply (interpolant_at_node (o + 1) (fun j => nth (a * o + j) edges 0) (fun j => f (a * o + j)%nat) j); [|exact Hj].
    apply run_distinct; [exact Se|rewrite Le; nia]. }
  assert (D0 : forall x, derivable_pt_lim (peval []) x 0) by (intros x; apply derivable_ext with (f := fun _ => 0); [reflexivity|apply derivable_pt_lim_const]).
  destruct (finite_choice ([], fun _ => 0) (fun a (qg : list R * (R -> R)) => interpolates (o + 1) edges (a * o) w (fst qg) /\ (forall x, derivable_pt_lim (peval (fst qg)) x (snd qg x)) /\ (touch a = true -> forall x, snd qg x = 0)) ne) as (qg & Hq).
  { intros a Ha. destruct (touch a) eqn:Et.
    - exists ([], fun _ => 0). cbn [fst snd]. split; [|split; [exact D0|reflexivity]]. split; [cbn; lia|]. intros j Hj. cbn [peval]. unfold w.
      unfold touch in Et. apply andb_true_iff in Et. destruct Et as (E1 & E2). apply Nat.leb_le in E1, E2. rewrite Huv by lia. ring.
    - destruct (Ip a w Ha) as (q & Hq). destruct (derive_poly q) as (g & Hg). exists (q, g). split; [exact Hq|]. split; [exact Hg|discriminate]. }
  destruct (finite_choice ([], fun _ => 0) (fun a (rf : list R * (R -> R)) => interpolates (o + 1) edges (a * o) (fun p => c p / doubled_weight lobatto o ne edges a (p - a * o)) (fst rf) /\ (forall x, derivable_pt_lim (peval (fst rf)) x (snd rf x)) /\ (touch a = false -> forall x, snd rf x = 0)) ne) as (rf & Hr).
  { intros a Ha. destruct (touch a) eqn:Et.
    - destruct (Ip a (fun p => c p / doubled_weight lobatto o ne edges a (p - a * o)) Ha) as (q & Hq'). destruct (derive_poly q) as (g & Hg). exists (q, g). split; [exact Hq'|]. split; [exact Hg|discriminate].
    - exists ([], fun _ => 0). cbn [fst snd]. split; [|split; [exact D0|reflexivity]]. split; [cbn; lia|]. intros j Hj. cbn [peval]. unfold c.
      destruct (Nat.eqb_spec (a * o + j) k) as [E|E]; [|unfold Rdiv; ring]. exfalso. unfold touch in Et. apply andb_false_iff in Et. destruct Et as [Et|Et]; apply Nat.leb_gt in Et; lia. }
  specialize (W c w (fun a => fst (qg a)) (fun a => snd (qg a)) (fun a => fst (rf a)) (fun a => snd (rf a))).
  assert (W' : sum (fun p => c p * apply1 A w p) (length edges) = apply1 A w k).
  { unfold sum. rewrite (fold_one _ (seq 0 (length edges)) k); [unfold c; rewrite Nat.eqb_refl; ring|apply seq_NoDup|apply in_seq; lia|].
    intros x _ N. unfold c. destruct (Nat.eqb_spec x k); [contradiction|ring]. }
  rewrite <- W', W.
  - unfold over_interfaces. rewrite (sum_zero (fun a => sum _ (o + 1))); [ring|]. intros a Ha. apply sum_zero. intros i _. destruct (Hq a Ha) as (_ & _ & Q0). destruct (Hr a Ha) as (_ & _ & R0).
    destruct (touch a); [rewrite Q0 by reflexivity|rewrite R0 by reflexivity]; ring.
  - intros a Ha. destruct (Hq a Ha) as (Q1 & Q2 & _). split; assumption.
  - intros a Ha. destruct (Hr a Ha) as (R1 & R2 & _). split; assumption.
Qed.
(** ** penalty of finite volumes *)
Lemma rescale_bounds edges k t t' : rescale edges k t = Some t' -> snd (fst t') = snd (fst t) /\ snd t' = snd t.
Proof.
  destruct t as [[r b] e]. unfold rescale. destruct (rd edges k); [|discriminate]. cbn [bind]. destruct (rd edges (k + 1)); [|discriminate]. cbn [bind].
  destruct (b <? e)%nat; [|intros H; injection H as <-; split; reflexivity]. destruct (div _ _); [|discriminate]. cbn [bind]. destruct (modify _ _ _ _); [|discriminate]. cbn [bind].
  intros H. injection H as <-. split; reflexivity.
Qed.
Lemma jump_bounds sgn o nodes edges k t : jump_row sgn o nodes edges k = Some t -> snd (fst t) = left_first o k /\ snd t = Datatypes.S (right_last (length nodes) o k).
Proof.
  unfold jump_row. cbv zeta. destruct (rd edges k); [|discriminate]. cbn [bind]. destruct (one_sided _ _ _ _ _); [|discriminate]. cbn [bind]. destruct (add _ _ _ _); [|discriminate]. cbn [bind].
  destruct (one_sided _ _ _ _ _); [|discriminate]. cbn [bind]. destruct (add _ _ _ _); [|discriminate]. cbn [bind]. intros H. injection H as <-. split; reflexivity.
Qed.
Lemma volume_penalty_reach o nodes edges P L Rt k n : (2 <= o)%nat -> (o mod 2 = 0)%nat -> penalty_rec o nodes edges = PenBuilt P -> pops P = Some (L, Rt) -> (k < length nodes)%nat ->
  ((nth k (beg L) 0 <= n < nth k (fin L) 0)%nat -> (k + 1 <= n + o / 2 /\ n <= k + o / 2)%nat) /\
  ((nth k (beg Rt) 0 <= n < nth k (fin Rt) 0)%nat -> (k <= n + o / 2 /\ n + 1 <= k + o / 2)%nat).
Proof.
  intros O2 Om EP EL Hk. unfold penalty_rec in EP. destruct (length nodes =? 1)%nat; [injection EP as <-; discriminate|]. destruct (length nodes =? 0)%nat; [discriminate|].
  destruct (o =? 0)%nat; [discriminate|]. destruct (negb _); [discriminate|]. unfold pair_up in EP.
  destruct (build _ _ (rec_left_row o nodes edges)) as [A| |] eqn:E1; try discriminate; destruct (build _ _ (rec_right_row o nodes edges)) as [B| |] eqn:E2; try discriminate.
  injection EP as <-. cbn [pops] in EL. injection EL as <- <-.
  apply build_inv in E1. destruct E1 as (_ & _ & _ & _ & H1). apply build_inv in E2. destruct E2 as (_ & _ & _ & _ & H2). specialize (H1 k Hk). specialize (H2 k Hk).
  assert (Oh : ((o - 2) / 2 + 1 = o / 2)%nat).
  { pose proof (Nat.div_mod o 2 ltac:(lia)). pose proof (Nat.div_mod (o - 2) 2 ltac:(lia)). pose proof (Nat.mod_upper_bound (o - 2) 2 ltac:(lia)). lia. }
  split; intros Hn.
  - unfold rec_left_row in H1. destruct (k + 1 <? length edges - 1)%nat.
    + destruct (jump_row 1 o nodes edges (k + 1)) as [t|] eqn:Et; [|discriminate]. cbn [bind] in H1. apply rescale_bounds in H1. cbn [fst snd] in H1. apply jump_bounds in Et.
      destruct H1 as (B1 & B2), Et as (T1 & T2). rewrite B1, B2, T1, T2 in Hn. unfold left_first, right_last in Hn. lia.
    + cbn [bind] in H1. apply rescale_bounds in H1. cbn [fst snd] in H1. lia.
  - unfold rec_right_row in H2. destruct ((0 <? k) && (k <? length edges - 1))%nat.
    + destruct (jump_row (-1) o nodes edges k) as [t|] eqn:Et; [|discriminate]. cbn [bind] in H2. apply rescale_bounds in H2. cbn [fst snd] in H2. apply jump_bounds in Et.
      destruct H2 as (B1 & B2), Et as (T1 & T2). rewrite B1, B2, T1, T2 in Hn. unfold left_first, right_last in Hn. lia.
    + cbn [bind] in H2. apply rescale_bounds in H2. cbn [fst snd] in H2. lia.
Qed.
(** ** finite volumes *)
Lemma volumes_band sol gauss lobatto S o lev itf O w : column 1 (length lev) lev itf -> gives lobatto 2 -> scaled lobatto 2 ->
  (2 <= o)%nat -> (o mod 2 = 0)%nat -> (o / 2 <= length lev)%nat -> npe S = 1%nat -> rlev S = length lev ->
  volume_operators sol gauss lobatto o lev itf = Some O -> (3 * (o / 2) + 1 <= w)%nat -> band_fits S O (Z.of_nat w).
Proof.
  intros C GL SL O2 Om Oh E2 E3 EO Hw. pose proof C as (Ho & Hne & Ln & Le & Sn & Se). rewrite Nat.mul_1_r in Le.
  assert (Nn : lev <> []) by (intros ->; cbn in Hne; lia).
  destruct (C50_reconstructed o lev itf O2 Om Sn Oh Le) as (A1 & EA1 & _ & _ & _ & L1).
  destruct (C50_average o lev itf Om Nn Le) as (A2 & EA2 & _ & _ & _ & L2).
  destruct (C51_levels_reconstructed o lev itf O2 Om Sn Oh Le) as (A3 & EA3 & _ & _ & _ & L3).
  destruct (C51_slope o lev itf O2 Om Nn Le Se) as (A4 & EA4 & _ & _ & _ & L4).
  unfold volume_operators, bundle in EO. rewrite EA1, EA2, EA3, EA4 in EO.
  destruct (diffusion_levels sol gauss 1 lev itf) as [A6| |]; try discriminate. destruct (diffusion_edges lobatto 1 lev itf) as [A7| |] eqn:EA7; try discriminate.
  destruct (penalty_rec o lev itf) as [P| |] eqn:EP; try discriminate. injection EO as <-.
  assert (h1 : (1 <= o / 2)%nat) by (apply Nat.div_le_lower_bound; lia).
  assert (N1 : forall k, (k <= length lev)%nat -> narrow A1 k (k - o / 2) (k + o / 2)) by (intros k Hk; apply local_narrow; apply (L1 k); lia).
  assert (N2 : forall k, (k < length lev)%nat -> narrow A2 k k (k + 2)) by (intros k Hk; apply local_narrow; apply (L2 k); lia).
  assert (N3 : forall k, (k <= length lev)%nat -> narrow A3 k (k - o / 2) (k + o / 2)).
  { intros k Hk. apply local_narrow. intros u v Huv. apply (L3 k ltac:(lia)). intros l Hl. apply Huv. lia. }
  assert (M3 : forall k, (k <= length lev)%nat -> narrow A3 k 0 (length lev)).
  { intros k Hk. apply local_narrow. intros u v Huv. apply (L3 k ltac:(lia)). intros l Hl. apply Huv. lia. }
  assert (N4 : forall k, (k < length lev)%nat -> narrow A4 k k (k + 2)) by (intros k Hk; apply local_narrow; apply (L4 k); lia).
  split; cbn [d_en i_ne d_ne i_en dd_ee pnl]; rewrite ?E2, ?E3; unfold near, near0.
  - intros k m Hk Hm G. pose proof (N4 k Hk m Hm G). lia.
  - intros k m n Hk Hm Hn G1 G2. pose proof (N4 k Hk m Hm G1). pose proof (N1 m ltac:(lia) n Hn G2). lia.
  - intros k m Hk Hm G. pose proof (N3 k ltac:(lia) m Hm G). lia.
  - intros k n Hk Hn G. pose proof (N1 k ltac:(lia) n Hn G). lia.
  - intros k l m Hk Hl Hm G1 G2. pose proof (N3 k ltac:(lia) l Hl G1). pose proof (M3 k ltac:(lia) l Hl G1). pose proof (N2 l ltac:(lia) m Hm G2). lia.
  - intros _ k n Hk Hn G. pose proof (local_narrow A7 k (k - 1) (k + 1 + 1) (diffusion_local lobatto 1 (length lev) lev itf A7 k Ho Hne Ln ltac:(lia) Se GL SL EA7 ltac:(lia)) n Hn G). lia.
  - intros L Rt EL k n Hk Hn _. destruct (volume_penalty_reach o lev itf P L Rt k n O2 Om EP EL Hk) as (V & _). specialize (V Hn). lia.
  - intros L Rt EL k n Hk Hn _. destruct (volume_penalty_reach o lev itf P L Rt k n O2 Om EP EL Hk) as (_ & V). specialize (V Hn). lia.
  - lia.
Qed.
(** ** elements *)
(** the correction polynomial and its mirror image have no slope at the interfaces
    between the edges of an element; so at Gauss-Lobatto points *)
Definition lumped (o ne : nat) (P edges : list R) : Prop := forall a j, (a < ne)%nat -> (0 < j < o)%nat ->
  derivable_pt_lim (fun x => peval P (local (edge o edges a) (edge o edges (a + 1)) x)) (nth (a * o + j) edges 0) 0 /\
  derivable_pt_lim (fun x => peval P (- local (edge o edges a) (edge o edges (a + 1)) x)) (nth (a * o + j) edges 0) 0.

Lemma gap_eps o ne nodes edges i j : column o ne nodes edges -> (i < j <= ne * o)%nat -> nth i edges 0 + / 10 ^ 12 < nth j edges 0.
Proof.
  intros (Ho & Hne & Ln & Le & Sn & Se) H. pose proof (Se i j ltac:(lia)) as G.
  assert (/ 10 ^ 12 < / 10 ^ 11) by (apply Rinv_lt_contravar; [apply Rmult_lt_0_compat; apply pow_lt; lra|apply Rlt_pow; [lra|lia]]). lra.
Qed.
Lemma search_interior o ne nodes edges a j : column o ne nodes edges -> (a < ne)%nat -> (0 < j < o)%nat -> search edges o (nth (a * o + j) edges 0) (ne - 1) 0 = Some (a, false).
Proof.
  intros C Ha Hj. apply (search_inside o ne nodes); [exact C|exact Ha|]. unfold edge.
  pose proof (gap_eps o ne nodes edges (a * o) (a * o + j) C ltac:(nia)). pose proof (gap_eps o ne nodes edges (a * o + j) ((a + 1) * o) C ltac:(nia)). lra.
Qed.
Lemma search_edge o ne nodes edges b : column o ne nodes edges -> (b + 1 < ne)%nat -> search edges o (nth ((b + 1) * o) edges 0) (ne - 1) 0 = Some (b, true).
Proof.
  intros C Hb. pose proof C as (Ho & Hne & Ln & Le & Sn & Se). destruct (search_ok edges o ne (nth ((b + 1) * o) edges 0) Hne Le) as (a & on & E & (B1 & B2 & B3 & B4)). rewrite E.
  pose proof eps_pos as P. assert (Ge : forall i j, (i < j <= ne)%nat -> nth (i * o) edges 0 + eps < nth (j * o) edges 0) by (intros i j H; apply (gap_eps o ne nodes edges); [exact C|nia]).
  destruct (lt_eq_lt_dec a b) as [[L|L]|L].
  - exfalso. pose proof (Ge (a + 1)%nat (b + 1)%nat ltac:(lia)). destruct on.
    + destruct (B2 eq_refl) as (_ & B). unfold Rabs in B. destruct (Rcase_abs _) in B; lra.
    + specialize (B4 eq_refl ltac:(lia)). lra.
  - subst a. destruct on; [reflexivity|]. exfalso. specialize (B4 eq_refl ltac:(lia)). lra.
  - exfalso. specialize (B3 ltac:(lia)). destruct (Nat.eq_dec a (b + 1)) as [->|N]; [lra|]. pose proof (Ge (b + 1)%nat a ltac:(lia)). lra.
Qed.
Lemma position o ne k : (0 < o)%nat -> (1 <= k < ne * o)%nat -> (exists a j, (a < ne)%nat /\ (0 < j < o)%nat /\ k = (a * o + j)%nat) \/ (exists b, (b + 1 < ne)%nat /\ k = ((b + 1) * o)%nat).
Proof.
  intros Ho Hk. pose proof (Nat.div_mod k o ltac:(lia)) as D. pose proof (Nat.mod_upper_bound k o ltac:(lia)) as M.
  assert (k / o < ne)%nat by (apply Nat.div_lt_upper_bound; nia).
  destruct (Nat.eq_dec (k mod o) 0) as [E|E].
  - right. exists (k / o - 1)%nat. assert (k / o <> 0)%nat by (intros E'; rewrite E, E' in D; lia). split; [lia|]. replace (k / o - 1 + 1)%nat with (k / o)%nat by lia. lia.
  - left. exists (k / o)%nat, (k mod o). split; [assumption|]. split; [lia|]. lia.
Qed.
Ltac pieces H := repeat match type of H with
  | bind ?x _ = Some _ => let E := fresh "E" in destruct x eqn:E; [cbn [bind] in H|discriminate H]
  | (let '(_, _) := ?x in _) = Some _ => destruct x
  end.
Lemma levels_reach o ne nodes edges A k j : column o ne nodes edges -> interp Levels o nodes edges edges false = Built A -> (1 <= k < ne * o)%nat ->
  (nth k (beg A) 0 <= j < nth k (fin A) 0)%nat -> (k < o + j /\ j < k + o)%nat \/ (k = o + j)%nat.
Proof.
  intros C EA Hk Hj. pose proof C as (Ho & Hne & Ln & Le & Sn & Se).
  unfold interp in EA. rewrite Ln, Le, Nat.mod_mul in EA by lia. destruct (Nat.eqb_spec o 0); [lia|]. destruct (Nat.eqb_spec (ne * o) 0); [nia|]. rewrite Nat.eqb_refl in EA. cbn [negb Nat.eqb andb orb] in EA.
  apply build_inv in EA. destruct EA as (_ & _ & _ & _ & H). specialize (H k ltac:(lia)).
  unfold interp_row in H. rewrite rd_ok in H by lia. cbn [bind] in H. rewrite Ln, Nat.div_mul in H by lia. rewrite Le in H.
  destruct (Nat.eqb_spec k 0); [lia|]. destruct (Nat.eqb_spec k (ne * o + 1 - 1)); [lia|]. rewrite !andb_false_r in H.
  destruct (position o ne k Ho Hk) as [(a & i & Ha & Hi & ->)|(b & Hb & ->)].
  - rewrite (search_interior o ne nodes edges a i C Ha Hi) in H. cbn [bind] in H. pieces H. injection H as _ B F. pieces E. injection E as _ <- <-. rewrite <- B, <- F in Hj. left. nia.
  - rewrite (search_edge o ne nodes edges b C Hb) in H. cbn [bind] in H. pieces H. injection H as _ B F. pieces E. injection E as _ <- <-. rewrite <- B, <- F in Hj. nia.
Qed.
Lemma ends_reach o ne nodes edges A k j : column o ne nodes edges -> interp Levels o nodes edges edges false = Built A -> k = 0%nat \/ k = (ne * o)%nat ->
  (nth k (beg A) 0 <= j < nth k (fin A) 0)%nat -> (k = 0 /\ (j < o \/ o = 1 /\ j <= 1) \/ k = ne * o /\ (j < ne * o /\ (ne * o <= j + o \/ o = 1 /\ ne * o <= j + 2)))%nat.
Proof.
  intros C EA Hk Hj. pose proof C as (Ho & Hne & Ln & Le & Sn & Se). pose proof eps_pos as Pe.
  unfold interp in EA. rewrite Ln, Le, Nat.mod_mul in EA by lia. destruct (Nat.eqb_spec o 0); [lia|]. destruct (Nat.eqb_spec (ne * o) 0); [nia|]. rewrite Nat.eqb_refl in EA. cbn [negb Nat.eqb andb orb] in EA.
  apply build_inv in EA. destruct EA as (_ & _ & _ & _ & H). specialize (H k ltac:(lia)).
  unfold interp_row in H. rewrite rd_ok in H by lia. cbn [bind] in H. rewrite Ln, Nat.div_mul in H by lia. rewrite Le in H.
  destruct (search_ok edges o ne (nth k edges 0) Hne Le) as (a & on & E & (B1 & B2 & B3 & B4)). rewrite E in H. cbn [bind] in H.
  assert (Ge : forall i j, (i < j <= ne * o)%nat -> nth i edges 0 + eps < nth j edges 0) by (intros i j' H'; apply (gap_eps o ne nodes edges); [exact C|nia]).
  destruct Hk as [->|Ek].
  - assert (a = 0)%nat as ->. { destruct (Nat.eq_dec a 0) as [|N]; [assumption|exfalso]. specialize (B3 N). pose proof (Ge 0 (a * o) ltac:(nia))%nat. lra. }
    destruct on. { exfalso. destruct (B2 eq_refl) as (_ & B). pose proof (Ge 0 ((0 + 1) * o) ltac:(nia))%nat. unfold Rabs in B. destruct (Rcase_abs _) in B; lra. }
    left. split; [reflexivity|]. rewrite andb_true_r in H. destruct (Nat.eqb_spec o 1) as [O1|O1].
    + pieces H. injection H as _ B F. pieces E0. injection E0 as _ <- <-. rewrite <- B, <- F in Hj. right. subst o. lia.
    + destruct (0 =? ne * o + 1 - 1)%nat; cbn [andb] in H; pieces H; injection H as _ B F; pieces E0; injection E0 as _ <- <-; rewrite <- B, <- F in Hj; left; lia.
  - subst k. assert (a = ne - 1)%nat as Ea.
    { destruct (Nat.eq_dec a (ne - 1)) as [|N]; [assumption|exfalso]. pose proof (Ge ((a + 1) * o) (ne * o) ltac:(nia))%nat. destruct on.
      - destruct (B2 eq_refl) as (_ & B). unfold Rabs in B. destruct (Rcase_abs _) in B; lra.
      - specialize (B4 eq_refl ltac:(lia)). lra. }
    destruct on. { exfalso. destruct (B2 eq_refl) as (B & _). lia. }
    right. split; [reflexivity|]. destruct (Nat.eqb_spec (ne * o) 0); [nia|]. replace (ne * o + 1 - 1)%nat with (ne * o)%nat in H by lia. rewrite Nat.eqb_refl, andb_false_r, andb_true_r in H.
    destruct (Nat.eqb_spec o 1) as [O1|O1].
    + destruct a as [|b]; [discriminate|]. pieces H. injection H as _ B F. pieces E0. injection E0 as _ <- <-. rewrite <- B, <- F in Hj. subst o. lia.
    + pieces H. injection H as _ B F. pieces E0. injection E0 as _ <- <-. rewrite <- B, <- F in Hj. subst a. split; [|left]; nia.
Qed.
Lemma interfaces_reach o ne nodes edges A a i : column o ne nodes edges -> levels_inside o ne nodes edges -> interp Interfaces o nodes edges nodes false = Built A -> (a < ne)%nat -> (i < o)%nat ->
  nth (a * o + i) (beg A) 0%nat = (a * o)%nat /\ nth (a * o + i) (fin A) 0%nat = ((a + 1) * o + 1)%nat.
Proof.
  intros C I EA Ha Hi. pose proof C as (Ho & Hne & Ln & Le & Sn & Se).
  unfold interp in EA. rewrite Ln, Le, Nat.mod_mul in EA by lia. destruct (Nat.eqb_spec o 0); [lia|]. destruct (Nat.eqb_spec (ne * o) 0); [nia|]. rewrite Nat.eqb_refl in EA. cbn [negb Nat.eqb andb orb] in EA.
  apply build_inv in EA. destruct EA as (_ & _ & _ & _ & H). specialize (H (a * o + i)%nat ltac:(nia)).
  unfold interp_row in H. rewrite rd_ok in H by nia. cbn [bind] in H. rewrite Ln, Nat.div_mul in H by lia.
  rewrite (search_inside o ne nodes edges _ a C Ha (I a i Ha Hi)) in H. cbn [bind] in H. pieces H. injection H as _ B F. split; congruence.
Qed.
Lemma penalty_reach sol o ne nodes edges P L Rt a i n : column o ne nodes edges -> penalty_fem sol o nodes edges = PenBuilt P -> pops P = Some (L, Rt) -> (a < ne)%nat -> (i < o)%nat ->
  ((nth (a * o + i) (beg L) 0 <= n < nth (a * o + i) (fin L) 0)%nat -> (a * o <= n < (a + 2) * o)%nat) /\
  ((nth (a * o + i) (beg Rt) 0 <= n < nth (a * o + i) (fin Rt) 0)%nat -> (a * o <= n + o /\ n < (a + 1) * o)%nat).
Proof.
  intros (Ho & Hne & Ln & Le & _) EP EL Ha Hi. unfold penalty_fem in EP. rewrite Ln, Nat.div_mul in EP by lia. destruct (Nat.eqb_spec o 0); [lia|].
  destruct (Nat.eqb_spec ne 1) as [->|]; [injection EP as <-; discriminate|]. destruct (_ =? 0)%nat; [discriminate|]. destruct (negb _); [discriminate|].
  unfold pair_up in EP. destruct (build _ _ (left_row _ _ _ _ _)) as [A| |] eqn:E1; try discriminate; destruct (build _ _ (right_row _ _ _ _ _)) as [B| |] eqn:E2; try discriminate. injection EP as <-. cbn [pops] in EL. injection EL as <- <-.
  apply build_inv in E1. destruct E1 as (_ & _ & _ & _ & H1). apply build_inv in E2. destruct E2 as (_ & _ & _ & _ & H2). specialize (H1 (a * o + i)%nat ltac:(nia)). specialize (H2 (a * o + i)%nat ltac:(nia)).
  unfold left_row in H1. unfold right_row in H2. assert (D : ((a * o + i) / o = a)%nat) by (rewrite Nat.div_add_l, Nat.div_small by lia; lia). rewrite D in H1, H2. cbv zeta in H1, H2.
  split; intros Hn.
  - destruct (a + 1 <? ne)%nat; [pieces H1|]; injection H1 as _ B1 F1; rewrite <- B1, <- F1 in Hn; lia.
  - destruct (0 <? a)%nat eqn:Za; [apply Nat.ltb_lt in Za; pieces H2|]; injection H2 as _ B1 F1; rewrite <- B1, <- F1 in Hn; nia.
Qed.
(** a double zero has no slope *)
Lemma double_zero (h : R -> R) (c d : R) : (exists l, derivable_pt_lim h c l) -> derivable_pt_lim (fun x => d * (x - c) ^ 2 * h x) c 0.
Proof.
  intros (l & Hl). apply derivable_ext with (f := fun x => (d * ((x - c) * (x - c))) * h x); [intros x; ring|].
  assert (E : derivable_pt_lim (fun x => x - c) c (1 - 0)) by (apply (derivable_pt_lim_minus (fun x => x) (fun _ => c)); [apply derivable_pt_lim_id|apply derivable_pt_lim_const]).
  pose proof (derivable_pt_lim_mult (fun x => d * ((x - c) * (x - c))) h c _ l (derivable_pt_lim_scal (fun x => (x - c) * (x - c)) d c _ (derivable_pt_lim_mult (fun x => x - c) (fun x => x - c) c _ _ E E)) Hl) as H.
  replace 0 with (d * ((1 - 0) * (c - c) + (c - c) * (1 - 0)) * h c + d * ((c - c) * (c - c)) * l) by ring. exact H.
Qed.
Lemma poly_affine q c d x : exists l, derivable_pt_lim (fun x => peval q (c * x + d)) x l.
Proof.
  destruct (derive_poly q) as (g & Hg). exists (g (c * x + d) * (c * 1 + 0)). apply (derivable_pt_lim_comp (fun x => c * x + d) (peval q)); [|apply Hg].
  apply (derivable_pt_lim_plus (fun x => c * x) (fun _ => d)); [apply (derivable_pt_lim_scal (fun x => x)), derivable_pt_lim_id|apply derivable_pt_lim_const].
Qed.
Lemma flat_ends N P a b j : correction 2 N P -> a < b ->
  derivable_pt_lim (corrected P [] a b j 0) b 0 /\ derivable_pt_lim (corrected P [] a b 0 j) a 0.
Proof.
  intros (_ & _ & (Q & _ & HQ) & _) AB. split.
  - apply derivable_ext with (f := fun x => j * 4 / (b - a) ^ 2 * (x - b) ^ 2 * peval Q ((- 2 / (b - a)) * x + (a + b) / (b - a))).
    { intros x. unfold corrected. cbn [peval]. rewrite (HQ (- local a b x)). replace (- local a b x) with (- 2 / (b - a) * x + (a + b) / (b - a)) by (unfold local; field; lra).
      replace (- 2 / (b - a) * x + (a + b) / (b - a) + 1) with (2 * (b - x) / (b - a)) by (field; lra). generalize (peval Q (-2 / (b - a) * x + (a + b) / (b - a))). intros t. field. lra. }
    apply double_zero, poly_affine.
  - apply derivable_ext with (f := fun x => j * 4 / (b - a) ^ 2 * (x - a) ^ 2 * peval Q ((2 / (b - a)) * x + (- a - b) / (b - a))).
    { intros x. unfold corrected. cbn [peval]. rewrite (HQ (local a b x)). replace (local a b x) with (2 / (b - a) * x + (- a - b) / (b - a)) by (unfold local; field; lra).
      replace (2 / (b - a) * x + (- a - b) / (b - a) + 1) with (2 * (x - a) / (b - a)) by (field; lra). generalize (peval Q (2 / (b - a) * x + (- a - b) / (b - a))). intros t. field. lra. }
    apply double_zero, poly_affine.
Qed.
Lemma some_poly o nodes off f : spaced nodes -> (off + o <= length nodes)%nat -> exists q, interpolates o nodes off f q.
Proof.
  intros Sn H. destruct (interpolant_poly o (fun j => nth (off + j) nodes 0) (fun j => f (off + j)%nat)) as (q & Lq & Hq).
  exists q. split; [exact Lq|]. intros j Hj. rewrite <- Hq. apply (interpolant_at_node o (fun j => nth (off + j) nodes 0) (fun j => f (off + j)%nat) j); [|exact Hj].
  apply run_distinct; assumption.
Qed.
Lemma flux_local sol o ne nodes edges P A k : column o ne nodes edges -> solved sol o -> correction 2 (o + 1) P -> lumped o ne P edges ->
  flux_diff sol Levels o nodes edges edges true = Built A -> (1 <= k < ne * o)%nat -> row_local A k (k - o) (k + o).
Proof.
  intros C Sv HP Lu EA Hk u v Huv. pose proof C as (Ho & Hne & Ln & Le & Sn & Se).
  set (w := fun l => u l - v l). apply Rminus_diag_uniq. rewrite <- ap_minus. fold w.
  assert (In0 : forall out, In out edges -> edge o edges 0 <= out <= edge o edges ne).
  { intros x Hx. apply In_nth with (d := 0) in Hx. destruct Hx as (j & Hj & <-). unfold edge. cbn [Nat.mul].
    assert (0 < / 10 ^ 11) by (apply Rinv_0_lt_compat, pow_lt; lra). split.
    - destruct (Nat.eq_dec j 0) as [->|]; [lra|]. pose proof (Se 0 j ltac:(lia))%nat. lra.
    - destruct (Nat.eq_dec j (ne * o)) as [->|]; [lra|]. pose proof (Se j (ne * o) ltac:(lia))%nat. lra. }
  assert (Cl : forall m i, (m <= ne * o)%nat -> (i <= ne)%nat -> m <> (i * o)%nat -> clear_of (edge o edges i) (nth m edges 0)).
  { intros m i Hm Hi N. unfold clear_of, edge. right. destruct (Nat.lt_ge_cases m (i * o)) as [L|L].
    - left. pose proof (gap_eps o ne nodes edges m (i * o) C ltac:(nia)). lra.
    - right. apply (gap_eps o ne nodes edges (i * o) m C). lia. }
  assert (Z0 : forall a, (forall i, (i < o)%nat -> w (a * o + i)%nat = 0) -> interpolates o nodes (a * o) w []).
  { intros a H. split; [cbn; lia|]. intros i Hi. cbn [peval]. symmetry. apply H, Hi. }
  assert (Wz : forall l, (k - o <= l < k + o)%nat -> w l = 0) by (intros l Hl; unfold w; rewrite Huv by exact Hl; ring).
  destruct (position o ne k Ho Hk) as [(a & j & Ha & Hj & E)|(b & Hb & E)].
  - destruct (finite_choice [] (fun i q => interpolates o nodes (i * o) w q /\ (i = a -> q = [])) ne) as (p & Hp).
    { intros i Hi. destruct (Nat.eq_dec i a) as [->|N]; [exists []; split; [apply Z0; intros; apply Wz; nia|reflexivity]|].
      destruct (some_poly o nodes (i * o) w Sn ltac:(nia)) as (q & Hq). exists q. split; [exact Hq|contradiction]. }
    destruct (C59_inside sol o ne nodes edges edges true P C Sv HP ltac:(intros Q; rewrite Q in Le; cbn in Le; lia) In0) as (A' & EA' & _ & _ & _ & V). rewrite EA in EA'. injection EA' as <-.
    destruct (V k a ltac:(lia)) as (_ & V').
    { unfold inside, edge. subst k. split; [exact Ha|]. pose proof (gap_eps o ne nodes edges (a * o) (a * o + j) C ltac:(nia)) as G1. pose proof (gap_eps o ne nodes edges (a * o + j) ((a + 1) * o) C ltac:(nia)) as G2.
      pose proof eps_pos as Pe. unfold eps in Pe. split; left; lra. }
    { intros i Hi. apply Cl; [lia|lia|]. subst k. intros Q. assert (i = a \/ i < a \/ a < i)%nat as [->|[L|L]] by lia; nia. }
    specialize (V' w p (fun i Hi => proj1 (Hp i Hi))). destruct (Hp a Ha) as (_ & Pa). rewrite (Pa eq_refl) in V'.
    destruct (Lu a j Ha Hj) as (D1 & D2). rewrite <- E in D1, D2.
    apply (uniqueness_limite _ _ _ _ V'). unfold corrected.
    match goal with |- derivable_pt_lim (fun x => peval [] x + ?jr * _ + ?jl * _) _ _ =>
      pose proof (derivable_pt_lim_plus _ _ _ _ _ (derivable_pt_lim_scal _ jr _ _ D1) (derivable_pt_lim_scal _ jl _ _ D2)) as D3; replace (jr * 0 + jl * 0) with 0 in D3 by ring end.
    refine (derivable_ext _ _ _ _ _ D3). intros x. unfold plus_fct, mult_real_fct. cbn [peval]. ring.
  - destruct (finite_choice [] (fun i q => interpolates o nodes (i * o) w q /\ (i = b \/ i = b + 1 -> q = [])%nat) ne) as (p & Hp).
    { intros i Hi. destruct (Nat.eq_dec i b) as [->|N1]; [exists []; split; [apply Z0; intros; apply Wz; nia|reflexivity]|].
      destruct (Nat.eq_dec i (b + 1)) as [->|N2]; [exists []; split; [apply Z0; intros; apply Wz; nia|reflexivity]|].
      destruct (some_poly o nodes (i * o) w Sn ltac:(nia)) as (q & Hq). exists q. split; [exact Hq|intros [?|?]; contradiction]. }
    pose proof (proj2 (Hp b ltac:(lia)) ltac:(lia)) as Pb. pose proof (proj2 (Hp (b + 1)%nat ltac:(lia)) ltac:(lia)) as Pb1.
    destruct (derive_poly P) as (g & Hg).
    destruct (C59_edge sol o ne nodes edges edges true P A k b w p (g (2 * 1 - 1) * (2 * 1 - 0)) C Sv HP In0 EA ltac:(lia) Hb) as (dl & dr & D1 & D2 & V).
    { subst k. reflexivity. }
    { intros i Hi N. apply Cl; [lia|lia|]. subst k. nia. }
    { intros i Hi. apply Hp, Hi. }
    { apply (derivable_pt_lim_comp (fun z => 2 * z - 1) (peval P)); [|apply Hg].
      apply (derivable_pt_lim_minus (fun z => 2 * z) (fun _ => 1)); [apply (derivable_pt_lim_scal (fun x => x)), derivable_pt_lim_id|apply derivable_pt_lim_const]. }
    assert (St : step o edges p (b + 1) = 0) by (unfold step; replace (b + 1 - 1)%nat with b by lia; rewrite Pb, Pb1; cbn [peval]; ring).
    assert (AB : forall i, (i < ne)%nat -> edge o edges i < edge o edges (i + 1)).
    { intros i Hi. unfold edge. pose proof (gap_eps o ne nodes edges (i * o) ((i + 1) * o) C ltac:(nia)). pose proof eps_pos as Pe. unfold eps in Pe. lra. }
    rewrite Pb in D1. rewrite Pb1 in D2. replace (high_step o ne edges true p b) with 0 in D1.
    2:{ unfold high_step. destruct (Nat.eqb_spec b (ne - 1)); [lia|]. rewrite St. ring. }
    replace (low_step o ne edges true p (b + 1)) with 0 in D2.
    2:{ unfold low_step. destruct (Nat.eqb_spec (b + 1) 0); [lia|]. rewrite St. ring. }
    rewrite V, St, (uniqueness_limite _ _ _ _ D1 (proj1 (flat_ends _ _ _ _ _ HP (AB b ltac:(lia))))).
    replace (b + 2)%nat with (b + 1 + 1)%nat in D2 by lia. rewrite (uniqueness_limite _ _ _ _ D2 (proj2 (flat_ends _ _ _ _ _ HP (AB (b + 1)%nat ltac:(lia))))). field.
    pose proof (AB b ltac:(lia)). pose proof (AB (b + 1)%nat ltac:(lia)). unfold FluxSpec.width. lra.
Qed.
Lemma elements_band sol gauss lobatto S o ne lev itf slev sitf P O w : column o ne lev itf -> column o ne slev sitf -> solved sol o -> correction 2 (o + 1) P -> lumped o ne P itf ->
  gives lobatto (o + 1) -> scaled lobatto (o + 1) -> levels_inside o ne lev itf -> levels_inside o ne slev sitf -> npe S = o -> rlev S = (ne * o)%nat ->
  element_operators sol gauss lobatto o lev itf slev sitf = Some O -> (3 * (2 * o - 1) <= w)%nat -> (3 * o + 1 <= w)%nat -> band_fits S O (Z.of_nat w).
Proof.
  intros C C' Sv HP Lu GL SL I I' E2 E3 EO Hw1 Hw2. pose proof C as (Ho & Hne & Ln & Le & Sn & Se).
  unfold element_operators, bundle in EO.
  destruct (interp Levels o slev sitf sitf false) as [A1| |] eqn:EA1; try discriminate. destruct (interp Interfaces o slev sitf slev false) as [A2| |] eqn:EA2; try discriminate.
  destruct (flux_diff sol Levels o lev itf itf true) as [A3| |] eqn:EA3; try discriminate. destruct (diff_interface Interfaces o lev itf lev false) as [A4| |] eqn:EA4; try discriminate.
  destruct (diff_interface Levels o lev itf lev true) as [A5| |]; try discriminate. destruct (diffusion_levels sol gauss o lev itf) as [A6| |]; try discriminate.
  destruct (diffusion_edges lobatto o lev itf) as [A7| |] eqn:EA7; try discriminate. destruct (penalty_fem sol o lev itf) as [Pn| |] eqn:EP; try discriminate. injection EO as <-.
  assert (Pos : forall k, (k < ne * o)%nat -> exists a i, (a < ne)%nat /\ (i < o)%nat /\ k = (a * o + i)%nat).
  { intros k Hk. exists (k / o)%nat, (k mod o). split; [apply Nat.div_lt_upper_bound; nia|]. split; [apply Nat.mod_upper_bound; lia|]. pose proof (Nat.div_mod k o ltac:(lia)). lia. }
  assert (W3 : wf A3 /\ ncol A3 = length lev /\ nrow A3 = length itf).
  { destruct (C59_inside sol o ne lev itf itf true P C Sv HP ltac:(intros Q; rewrite Q in Le; cbn in Le; lia)) as (A' & EA' & W & N & N' & _).
    { intros x Hx. apply In_nth with (d := 0) in Hx. destruct Hx as (j & Hj & <-). unfold edge. cbn [Nat.mul].
      assert (0 < / 10 ^ 11) by (apply Rinv_0_lt_compat, pow_lt; lra). split.
      - destruct (Nat.eq_dec j 0) as [->|]; [lra|]. pose proof (Se 0 j ltac:(lia))%nat. lra.
      - destruct (Nat.eq_dec j (ne * o)) as [->|]; [lra|]. pose proof (Se j (ne * o) ltac:(lia))%nat. lra. }
    rewrite EA3 in EA'. injection EA' as <-. split; [exact W|]. split; assumption. }
  destruct W3 as (W3 & C3 & R3).
  assert (N3 : forall k m, (1 <= k < ne * o)%nat -> (nth k (beg A3) 0 <= m < nth k (fin A3) 0)%nat -> getc A3 k m <> 0 -> (k - o <= m < k + o /\ m < ne * o)%nat).
  { intros k m Hk Hm G. split; [exact (local_narrow A3 k (k - o) (k + o) (flux_local sol o ne lev itf P A3 k C Sv HP Lu EA3 Hk) m Hm G)|].
    destruct W3 as [_ _ _ Wr]. specialize (Wr k ltac:(lia)). rewrite C3, Ln in Wr. lia. }
  assert (N4 : forall a i m, (a < ne)%nat -> (i < o)%nat -> (nth (a * o + i) (beg A4) 0 <= m < nth (a * o + i) (fin A4) 0)%nat -> (a * o <= m <= (a + 1) * o)%nat).
  { intros a i m Ha Hi Hm. destruct (diff_inside o ne lev itf A4 (fun _ => 0) a i C I EA4 Ha Hi) as (B & F & _). lia. }
  split; cbn [d_en i_ne d_ne i_en dd_ee pnl]; rewrite ?E2, ?E3; unfold near, near0.
  - intros k m Hk Hm G. destruct (Pos k Hk) as (a & i & Ha & Hi & ->). pose proof (N4 a i m Ha Hi Hm). lia.
  - intros k m n Hk Hm Hn G1 G2. destruct (Pos k Hk) as (a & i & Ha & Hi & ->). pose proof (N4 a i m Ha Hi Hm) as Hm'.
    destruct (Nat.eq_dec m 0) as [Em|Em]; [|destruct (Nat.eq_dec m (ne * o)) as [Em'|Em']].
    + pose proof (ends_reach o ne slev sitf A1 m n C' EA1 ltac:(lia) Hn). nia.
    + pose proof (ends_reach o ne slev sitf A1 m n C' EA1 ltac:(lia) Hn). nia.
    + pose proof (levels_reach o ne slev sitf A1 m n C' EA1 ltac:(nia) Hn). lia.
  - intros k m Hk Hm G. pose proof (N3 k m Hk Hm G). lia.
  - intros k n Hk Hn G. pose proof (levels_reach o ne slev sitf A1 k n C' EA1 Hk Hn). lia.
  - intros k l m Hk Hl Hm G1 G2. pose proof (N3 k l Hk Hl G1) as Hl'. destruct (Pos l ltac:(lia)) as (a & i & Ha & Hi & ->).
    destruct (interfaces_reach o ne slev sitf A2 a i C' I' EA2 Ha Hi) as (B & F). rewrite B, F in Hm.
    destruct (position o ne k Ho Hk) as [(b & j & Hb & Hj & ->)|(b & Hb & ->)].
    + assert (b <= a + 1 /\ a <= b + 1)%nat by nia. assert (Z.abs (Z.of_nat (b * o + j) - Z.of_nat m) <= 2 * Z.of_nat o - 1)%Z by nia. lia.
    + assert (b <= a /\ a <= b + 1)%nat by nia. assert (Z.abs (Z.of_nat ((b + 1) * o) - Z.of_nat m) <= Z.of_nat o)%Z by nia. lia.
  - intros _ k n Hk Hn G. pose proof (local_narrow A7 k (k - o) (k + o + 1) (diffusion_local lobatto o ne lev itf A7 k Ho Hne Ln ltac:(lia) Se GL SL EA7 ltac:(lia)) n Hn G). lia.
  - intros L Rt EL k n Hk Hn _. destruct (Pos k Hk) as (a & i & Ha & Hi & ->). destruct (penalty_reach sol o ne lev itf Pn L Rt a i n C EP EL Ha Hi) as (V & _). specialize (V Hn). nia.
  - intros L Rt EL k n Hk Hn _. destruct (Pos k Hk) as (a & i & Ha & Hi & ->). destruct (penalty_reach sol o ne lev itf Pn L Rt a i n C EP EL Ha Hi) as (_ & V). specialize (V Hn). nia.
  - lia.
Qed.
(** the table of half-widths *)
Lemma volume_table o w : (2 <= o)%nat -> off_diagonals true o = Some w -> (3 * (o / 2) + 1 <= w)%nat.
Proof.
  intros O2 Ew. unfold off_diagonals in Ew. destruct (Nat.leb_spec o 2); [assert (o = 2)%nat as -> by lia; injection Ew as <-; cbn; lia|]. destruct (Nat.eqb_spec o 4) as [->|]; [injection Ew as <-; cbn; lia|].
  destruct (Nat.eqb_spec o 6) as [->|]; [injection Ew as <-; cbn; lia|discriminate].
Qed.
Lemma element_table o w : off_diagonals false o = Some w -> (3 * (2 * o - 1) <= w /\ 3 * o + 1 <= w)%nat.
Proof. intros Ew. unfold off_diagonals in Ew. destruct o as [|[|[|[|[|[|o]]]]]]; try discriminate; injection Ew as <-; lia. Qed.
