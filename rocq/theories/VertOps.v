(** * The operators of a column as the vertical step uses them *)
From Coq Require Import Reals List Arith Bool Lia Lra ZArith.
From Verif Require Import VertModel VertSpec VertProofs.
From Verif Require Import QuadSpec InterpModel InterpSpec InterpProofs ColModel ColSpec ColProofs FemModel FemSpec FemProofs FemProofs2 FemProps.
From Verif Require Import FluxModel FluxSpec FluxProofs FluxProofs2 FluxProofs3 FluxProofs6 FluxProofs7 FluxProps.
Import ListNotations.
Local Open Scope R_scope.

(** the levels of each element lie in it, more than 1e-12 away from its edges *)
Definition levels_inside (o ne : nat) (nodes edges : list R) : Prop :=
  forall a i, (a < ne)%nat -> (i < o)%nat -> edge o edges a + / 10 ^ 12 < nth (a * o + i) nodes 0 < edge o edges (a + 1) - / 10 ^ 12.

Lemma edge_mono o ne nodes edges : column o ne nodes edges -> forall i j, (i <= j)%nat -> (j <= ne)%nat -> edge o edges i <= edge o edges j.
Proof.
  intros (Ho & Hne & Ln & Le & Sn & Se) i j Hij Hj. destruct (Nat.eq_dec i j) as [->|N]; [lra|]. unfold edge.
  pose proof (Se (i * o) (j * o) ltac:(rewrite Le; nia))%nat. assert (0 < / 10 ^ 11) by (apply Rinv_0_lt_compat, pow_lt; lra). lra.
Qed.
Lemma search_inside o ne nodes edges out a : column o ne nodes edges -> (a < ne)%nat ->
  edge o edges a + / 10 ^ 12 < out < edge o edges (a + 1) - / 10 ^ 12 -> search edges o out (ne - 1) 0 = Some (a, false).
Proof.
  intros C Ha (H1 & H2). pose proof C as (Ho & Hne & Ln & Le & Sn & Se). destruct (search_ok edges o ne out Hne Le) as (b & on & E & (B1 & B2 & B3 & B4)). rewrite E.
  fold eps in H1, H2. pose proof eps_pos as P.
  assert (M : forall i j, (i <= j)%nat -> (j <= ne)%nat -> edge o edges i <= edge o edges j) by (apply (edge_mono o ne nodes edges C)). unfold edge in *.
  destruct (lt_eq_lt_dec b a) as [[L|L]|L].
  - exfalso. pose proof (M (b + 1)%nat a ltac:(lia) ltac:(lia)). destruct on.
    + destruct (B2 eq_refl) as (_ & B). unfold Rabs in B. destruct (Rcase_abs _) in B; lra.
    + assert (Datatypes.S b <> ne) as N by lia. specialize (B4 eq_refl N). lra.
  - subst b. f_equal. f_equal. destruct on; [|reflexivity]. exfalso. destruct (B2 eq_refl) as (_ & B). unfold Rabs in B. destruct (Rcase_abs _) in B; lra.
  - exfalso. pose proof (M (a + 1)%nat b ltac:(lia) ltac:(lia)). specialize (B3 ltac:(lia)). lra.
Qed.

(** the derivative from interfaces at a level: that of the polynomial through the
    interfaces of its element *)
Lemma diff_inside o ne nodes edges A f a i : column o ne nodes edges -> levels_inside o ne nodes edges -> diff_interface Interfaces o nodes edges nodes false = Built A ->
  (a < ne)%nat -> (i < o)%nat ->
  nth (a * o + i) (beg A) 0%nat = (a * o)%nat /\ nth (a * o + i) (fin A) 0%nat = ((a + 1) * o + 1)%nat /\
  forall p g, interpolates (o + 1) edges (a * o) f p -> (forall x, derivable_pt_lim (peval p) x (g x)) -> apply1 A f (a * o + i) = g (nth (a * o + i) nodes 0).
Proof.
  intros C I EA Ha Hi. pose proof C as (Ho & Hne & Ln & Le & Sn & Se).
  assert (Nn : nodes <> []) by (intros ->; cbn in Ln; nia).
  destruct (C51_interfaces o ne nodes edges nodes false C Nn) as (A' & EA' & WA & NA & CA & HA). rewrite EA in EA'. injection EA' as <-.
  assert (Hl : (a * o + i < length nodes)%nat) by (rewrite Ln; nia).
  assert (B : nth (a * o + i) (beg A) 0%nat = (a * o)%nat /\ nth (a * o + i) (fin A) 0%nat = ((a + 1) * o + 1)%nat).
  { unfold diff_interface in EA. cbv zeta in EA. destruct (o =? 0)%nat; [discriminate|]. destruct (length nodes =? 0)%nat; [discriminate|].
    destruct (negb _); [discriminate|]. destruct (negb _); [discriminate|]. apply build_inv in EA. destruct EA as (_ & _ & _ & _ & HB).
    specialize (HB (a * o + i)%nat Hl). unfold diff_row in HB. rewrite rd_ok in HB by exact Hl. cbn [bind] in HB.
    rewrite Ln, Nat.div_mul in HB by lia. rewrite (search_inside o ne nodes edges _ a C Ha (I a i Ha Hi)) in HB. cbn [bind] in HB.
    destruct (sub _ _ _) as [x|]; [|discriminate]. cbn [bind] in HB. destruct (diff _ _ _) as [c|]; [|discriminate]. cbn [bind] in HB.
    destruct (put _ _ _) as [r|]; [|discriminate]. cbn [bind] in HB. injection HB as _ H1 H2. split; congruence. }
  destruct B as (B1 & B2). split; [exact B1|]. split; [exact B2|]. intros p g (Lp & Hp) Hg.
  destruct (HA _ Hl) as (X & _).
  rewrite (local_apply A (a * o + i) _ _ B1 B2 f (fun l => peval p (nth l edges 0))).
  - apply X; [exact Lp|]. exists g. split; [exact Hg|]. intros t; reflexivity.
  - intros l Hl'. rewrite <- (Nat.add_sub l (a * o)). replace (l + a * o - a * o)%nat with (a * o + (l - a * o))%nat by lia. symmetry. apply Hp. lia.
Qed.
Lemma telescope_edges (f : nat -> R) o m : sum (fun a => f ((a + 1) * o)%nat - f (a * o)%nat) m = f (m * o)%nat - f 0%nat.
Proof. induction m as [|m IH]; [rewrite sum_0; cbn; ring|]. rewrite sum_S, IH, Nat.add_1_r. ring. Qed.
Lemma sum_blocks (f : nat -> R) o m : sum (fun a => sum (fun i => f (a * o + i)%nat) o) m = sum f (m * o).
Proof.
  induction m as [|m IH]; [reflexivity|]. rewrite sum_S, IH. replace (Datatypes.S m * o)%nat with (m * o + o)%nat by lia. rewrite sum_app. f_equal.
  clear. induction o as [|o IH] in m |- *; [reflexivity|]. unfold sum.
  assert (G : forall n s b, fold_right Rplus 0 (map (fun i => f (b + i)%nat) (seq s n)) = fold_right Rplus 0 (map f (seq (b + s) n))).
  { induction n as [|n IHn]; intros s b; [reflexivity|]. cbn [seq map fold_right]. rewrite IHn. rewrite Nat.add_succ_r. reflexivity. }
  rewrite G, Nat.add_0_r. reflexivity.
Qed.
(** weights of the levels by element *)
Definition by_element (o : nat) (omega : nat -> nat -> R) (k : nat) : R := omega (k / o)%nat (k mod o)%nat.
Lemma by_element_at o omega a i : (i < o)%nat -> by_element o omega (a * o + i) = omega a i.
Proof.
  intros Hi. unfold by_element. rewrite Nat.add_comm, Nat.div_add, Nat.mod_add by lia. rewrite Nat.div_small, Nat.mod_small by exact Hi. reflexivity.
Qed.
Lemma telescopes_elements o ne nodes edges A omega : column o ne nodes edges -> levels_inside o ne nodes edges ->
  (forall a, (a < ne)%nat -> integrates_on (o + 1) o nodes (a * o) (edge o edges a) (edge o edges (a + 1)) (omega a)) ->
  diff_interface Interfaces o nodes edges nodes false = Built A -> telescopes (ne * o) (by_element o omega) A.
Proof.
  intros C I Hw EA f. pose proof C as (Ho & Hne & Ln & Le & Sn & Se).
  rewrite <- (sum_blocks (fun k => by_element o omega k * apply1 A f k) o ne).
  rewrite (sum_ext _ (fun a => f ((a + 1) * o)%nat - f (a * o)%nat)); [apply telescope_edges|]. intros a Ha.
  destruct (interpolant_poly (o + 1) (fun j => nth (a * o + j) edges 0) (fun j => f (a * o + j)%nat)) as (p & Lp & Hp).
  destruct (derive_poly p) as (g & Hg).
  assert (Ip : interpolates (o + 1) edges (a * o) f p).
  { split; [exact Lp|]. intros j Hj. rewrite <- Hp. apply (interpolant_at_node (o + 1) (fun j => nth (a * o + j) edges 0) (fun j => f (a * o + j)%nat) j); [|exact Hj].
    apply run_distinct; [exact Se|rewrite Le; nia]. }
  rewrite (sum_ext _ (fun i => omega a i * g (nth (a * o + i) nodes 0))).
  - rewrite (Hw a Ha p g Lp Hg). destruct Ip as (_ & Hq). unfold edge. pose proof (Hq o ltac:(lia)) as Q1. replace (a * o + o)%nat with ((a + 1) * o)%nat in Q1 by lia. rewrite Q1.
    pose proof (Hq 0%nat ltac:(lia)) as Q0. rewrite Nat.add_0_r in Q0. rewrite Q0. reflexivity.
  - intros i Hi. rewrite by_element_at by exact Hi. destruct (diff_inside o ne nodes edges A f a i C I EA Ha Hi) as (_ & _ & V). rewrite (V p g Ip Hg). reflexivity.
Qed.
Lemma redistributes_elements sol o ne nodes edges omega P : column o ne nodes edges -> solved sol o ->
  (forall a, (a < ne)%nat -> integrates_on (o + 2) o nodes (a * o) (edge o edges a) (edge o edges (a + 1)) (omega a)) ->
  penalty_fem sol o nodes edges = PenBuilt P -> redistributes (ne * o) (by_element o omega) P.
Proof.
  intros C Sv Hw EP w f. pose proof C as (Ho & Hne & Ln & _).
  rewrite <- (sum_blocks (fun k => by_element o omega k * pen_apply P w f (fun _ => 0) k) o ne).
  destruct (Nat.eq_dec ne 1) as [N|N].
  - subst ne. unfold penalty_fem in EP. rewrite Ln, Nat.div_mul in EP by lia. destruct (Nat.eqb_spec o 0); [lia|]. cbn [Nat.eqb] in EP. injection EP as <-.
    apply sum_zero. intros a _. apply sum_zero. intros i _. cbn. ring.
  - destruct (C59_interpolants o ne nodes edges f C) as (p & g & Hp & _).
    destruct (C62_conserves sol o ne nodes edges omega P w f p (fun _ => 0) C Sv ltac:(lia) EP Hp Hw) as (_ & H). unfold over_levels in H. refine (eq_trans _ H).
    apply sum_ext. intros a Ha. apply sum_ext. intros i Hi. rewrite by_element_at by exact Hi. ring.
Qed.
Lemma penalty_shape sol o ne nodes edges P : column o ne nodes edges -> penalty_fem sol o nodes edges = PenBuilt P -> pord P = o /\ pne P = ne.
Proof.
  intros (Ho & Hne & Ln & _) EP. unfold penalty_fem in EP. rewrite Ln, Nat.div_mul in EP by lia. destruct (Nat.eqb_spec o 0); [lia|].
  destruct (Nat.eqb_spec ne 1) as [->|]; [injection EP as <-; split; reflexivity|]. destruct (_ =? 0)%nat; [discriminate|]. destruct (negb _); [discriminate|].
  unfold pair_up in EP. destruct (build _ _ _); try discriminate; destruct (build _ _ _); try discriminate. injection EP as <-. split; reflexivity.
Qed.
(** finite volumes *)
Lemma slope_value o nodes edges A f k : (2 <= o)%nat -> (o mod 2 = 0)%nat -> nodes <> [] -> length edges = (length nodes + 1)%nat -> spaced edges ->
  diff_rec Interfaces Levels o nodes edges = Built A -> (k < length nodes)%nat ->
  apply1 A f k = (f (k + 1)%nat - f k) / (nth (k + 1) edges 0 - nth k edges 0).
Proof.
  intros O2 Om N Le Se EA Hk. destruct (C51_slope o nodes edges O2 Om N Le Se) as (A' & EA' & _ & _ & _ & H). rewrite EA in EA'. injection EA' as <-.
  destruct (H k Hk) as (X & _ & Loc).
  assert (D : nth (k + 1) edges 0 - nth k edges 0 <> 0).
  { pose proof (Se k (k + 1) ltac:(lia))%nat. assert (0 < / 10 ^ 11) by (apply Rinv_0_lt_compat, pow_lt; lra). lra. }
  set (s := (f (k + 1)%nat - f k) / (nth (k + 1) edges 0 - nth k edges 0)).
  rewrite (Loc f (fun l => peval [f k - s * nth k edges 0; s] (nth l edges 0))).
  - apply (X 0 [f k - s * nth k edges 0; s] (fun _ => s)); [cbn; lia|]. exists (fun _ => s). split; [|intros t; reflexivity].
    intros x. apply derivable_ext with (f := fun x => f k - s * nth k edges 0 + s * x); [intros; cbn; ring|].
    assert (Q : derivable_pt_lim (fun x => f k - s * nth k edges 0 + s * x) x (0 + s * 1)).
    { apply (derivable_pt_lim_plus (fun _ => f k - s * nth k edges 0) (fun x => s * x)); [apply derivable_pt_lim_const|].
      apply (derivable_pt_lim_scal id). apply derivable_pt_lim_id. }
    rewrite Rplus_0_l, Rmult_1_r in Q. exact Q.
  - intros l Hl. assert (l = k \/ l = (k + 1)%nat) as [->| ->] by lia; cbn [peval]; [ring|]. unfold s. field. exact D.
Qed.
Lemma telescopes_volumes o nodes edges A : (2 <= o)%nat -> (o mod 2 = 0)%nat -> nodes <> [] -> length edges = (length nodes + 1)%nat -> spaced edges ->
  diff_rec Interfaces Levels o nodes edges = Built A -> telescopes (length nodes) (fun k => width 1 edges k) A.
Proof.
  intros O2 Om N Le Se EA f. rewrite (sum_ext _ (fun k => f ((k + 1) * 1)%nat - f (k * 1)%nat)).
  - rewrite telescope_edges, Nat.mul_1_r. reflexivity.
  - intros k Hk. rewrite (slope_value o nodes edges A f k) by assumption. unfold width, edge. rewrite !Nat.mul_1_r. field.
    pose proof (Se k (k + 1) ltac:(lia))%nat. assert (0 < / 10 ^ 11) by (apply Rinv_0_lt_compat, pow_lt; lra). lra.
Qed.
Lemma reconstructions h nodes f : spaced nodes -> exists q, forall c, (c < length nodes)%nat -> reconstructs h nodes f c (q c).
Proof.
  intros Sn. apply (finite_choice []). intros c Hc. unfold reconstructs. set (n := (Datatypes.S (Nat.min (c + h) (length nodes - 1)) - (c - h))%nat).
  destruct (interpolant_poly n (fun j => nth (c - h + j) nodes 0) (fun j => f (c - h + j)%nat)) as (q & Lq & Hq).
  exists q. split; [exact Lq|]. intros j Hj. rewrite <- Hq. apply (interpolant_at_node n (fun j => nth (c - h + j) nodes 0) (fun j => f (c - h + j)%nat) j); [|exact Hj].
  apply run_distinct; [exact Sn|]. unfold n. lia.
Qed.
Lemma redistributes_volumes o nodes edges P : (0 < o)%nat -> spaced nodes -> spaced edges -> length edges = (length nodes + 1)%nat -> nodes <> [] ->
  penalty_rec o nodes edges = PenBuilt P -> redistributes (length nodes) (fun k => width 1 edges k) P /\ pord P = 1%nat /\ pne P = length nodes.
Proof.
  intros Ho Sn Se Le N EP. destruct (Nat.eq_dec (length nodes) 1) as [E|E].
  - unfold penalty_rec in EP. rewrite E in *. cbn [Nat.eqb] in EP. injection EP as <-. split; [|split; reflexivity]. intros w f. apply sum_zero. intros k _. cbn. ring.
  - assert (1 < length nodes)%nat by (destruct nodes as [|? [|]]; cbn in *; try contradiction; lia). split.
    + intros w f. destruct (C62_reconstructed o nodes edges) as (P' & EP' & H'); try assumption. rewrite EP in EP'. injection EP' as <-.
      destruct (reconstructions ((o - 2) / 2) nodes f Sn) as (q & Hq). destruct (H' w f q (fun _ => 0) Hq) as (_ & V). refine (eq_trans _ V). apply sum_ext. intros k _. ring.
    + unfold penalty_rec in EP. destruct (Nat.eqb_spec (length nodes) 1); [contradiction|]. destruct (_ =? 0)%nat; [discriminate|]. destruct (o =? 0)%nat; [discriminate|]. destruct (negb _); [discriminate|].
      unfold pair_up in EP. destruct (build _ _ _); try discriminate; destruct (build _ _ _); try discriminate. injection EP as <-. split; reflexivity.
Qed.

(** what the column step relies on: the difference operator telescopes with the weights
    [om], the penalty redistributes and is cut into the elements of the settings, and
    the difference operator reads interfaces of the column *)
Definition sound (S : settings) (O : operators) (om : nat -> R) : Prop :=
  telescopes (rlev S) om (d_en O) /\ redistributes (rlev S) om (pnl O) /\ pen_fits S (pnl O) /\ reads_edges S O.
(** finite elements *)
Lemma elements_sound sol gauss lobatto S o ne lev itf slev sitf omega : column o ne lev itf -> column o ne slev sitf -> solved sol o -> gives gauss o -> scaled gauss o ->
  gives lobatto (o + 1) -> scaled lobatto (o + 1) -> levels_inside o ne lev itf -> (o = 1%nat -> (2 <= ne)%nat) ->
  (forall a, (a < ne)%nat -> integrates_on (o + 2) o lev (a * o) (edge o itf a) (edge o itf (a + 1)) (omega a)) ->
  nfe S = ne -> npe S = o -> rlev S = (ne * o)%nat ->
  exists O, element_operators sol gauss lobatto o lev itf slev sitf = Some O /\ sound S O (by_element o omega).
Proof.
  intros C C' Sv GG SG GL SL I O1 Hw E1 E2 E3. pose proof C as (Ho & Hne & Ln & Le & Sn & Se). pose proof C' as (_ & _ & Ln' & Le' & Sn' & Se').
  assert (Nn : lev <> []) by (intros ->; cbn in Ln; nia). assert (Nn' : slev <> []) by (intros ->; cbn in Ln'; nia).
  assert (Ni : itf <> []) by (intros ->; cbn in Le; nia). assert (Ni' : sitf <> []) by (intros ->; cbn in Le'; nia).
  assert (OK : order_one_ok o ne sitf sitf).
  { intros ->. specialize (O1 eq_refl). split; [exact O1|]. assert (0 < / 10 ^ 12 < / 10 ^ 11).
    { split; [apply Rinv_0_lt_compat, pow_lt; lra|]. apply Rinv_lt_contravar; [apply Rmult_lt_0_compat; apply pow_lt; lra|]. apply Rlt_pow; [lra|lia]. }
    split; [pose proof (Se' 0 1 ltac:(lia))%nat; lra|]. intros _. pose proof (Se' 1 (length sitf - 1) ltac:(lia))%nat. lra. }
  destruct (C50_levels o ne slev sitf sitf C' Ni' OK) as (A1 & EA1 & _).
  destruct (C50_interfaces o ne slev sitf slev C' Nn') as (A2 & EA2 & _).
  destruct (C51_flux sol o ne lev itf itf true C Sv Ni) as (A3 & EA3 & _).
  { intros x Hx. apply In_nth with (d := 0) in Hx. destruct Hx as (j & Hj & <-). unfold edge. cbn [Nat.mul].
    assert (0 < / 10 ^ 11) by (apply Rinv_0_lt_compat, pow_lt; lra). split.
    - destruct (Nat.eq_dec j 0) as [->|]; [lra|]. pose proof (Se 0 j ltac:(lia))%nat. lra.
    - destruct (Nat.eq_dec j (ne * o)) as [->|]; [lra|]. pose proof (Se j (ne * o) ltac:(lia))%nat. lra. }
  destruct (C51_interfaces o ne lev itf lev false C Nn) as (A4 & EA4 & WA4 & NA4 & CA4 & _).
  destruct (C51_levels_zero o ne lev itf lev C Nn O1) as (A5 & EA5 & _).
  assert (Gnz : forall a b i, a < b -> (i < o)%nat -> rule_weight gauss o a b i <> 0).
  { intros a b i AB Hi. destruct (SG i Hi) as (Pos & Sc). rewrite (Sc a b AB). apply Rgt_not_eq, Rmult_lt_0_compat; [lra|exact Pos]. }
  destruct (diffusion_levels_ok sol o ne lev itf C gauss GG Gnz) as (A6 & EA6 & _).
  destruct (C61_interfaces lobatto false o ne lev itf Ho Hne Ln Le Se GL SL) as (A7 & EA7 & _). cbn [diffusion_op] in EA7.
  assert (exists P, penalty_fem sol o lev itf = PenBuilt P) as (P & EP).
  { destruct (Nat.eq_dec ne 1) as [->|N]; [|destruct (penalty_derive sol o ne lev itf C ltac:(lia)) as (P & EP & _); exists P; exact EP].
    destruct (C62_single sol o lev itf (fun _ => 0) (fun _ => 0) (fun _ => 0) C) as (P & EP & _). exists P. exact EP. }
  exists (Operators A1 A2 A3 A4 A5 A6 A7 P). unfold element_operators. rewrite EA1, EA2, EA3, EA4, EA5, EA6, EA7, EP. split; [reflexivity|].
  unfold sound, reads_edges, pen_fits. rewrite E1, E2, E3. cbn [d_en pnl]. split; [|split; [|split]].
  - apply (telescopes_elements o ne lev itf); try assumption. intros a Ha F f LF. apply (Hw a Ha). lia.
  - apply (redistributes_elements sol o ne lev itf); assumption.
  - destruct (penalty_shape sol o ne lev itf P C EP). split; [exact Ho|]. split; [reflexivity|]. intros _. split; assumption.
  - intros k Hk. rewrite <- Le, <- CA4. apply (wf_range A4 WA4). rewrite NA4, Ln. exact Hk.
Qed.
(** finite volumes *)
Lemma volumes_sound sol gauss lobatto S o lev itf : column 1 (length lev) lev itf -> solved sol 1 -> gives gauss 1 -> scaled gauss 1 -> gives lobatto 2 -> scaled lobatto 2 ->
  (2 <= o)%nat -> (o mod 2 = 0)%nat -> (o / 2 <= length lev)%nat -> nfe S = length lev -> npe S = 1%nat -> rlev S = length lev ->
  exists O, volume_operators sol gauss lobatto o lev itf = Some O /\ sound S O (fun k => width 1 itf k).
Proof.
  intros C Sv GG SG GL SL O2 Om Oh E1 E2 E3. pose proof C as (Ho & Hne & Ln & Le & Sn & Se). rewrite Nat.mul_1_r in Le.
  assert (Nn : lev <> []) by (intros ->; cbn in Hne; lia).
  destruct (C50_reconstructed o lev itf O2 Om Sn Oh Le) as (A1 & EA1 & _).
  destruct (C50_average o lev itf Om Nn Le) as (A2 & EA2 & _).
  destruct (C51_levels_reconstructed o lev itf O2 Om Sn Oh Le) as (A3 & EA3 & _).
  destruct (C51_slope o lev itf O2 Om Nn Le Se) as (A4 & EA4 & WA4 & NA4 & CA4 & _).
  assert (Gnz : forall a b i, a < b -> (i < 1)%nat -> rule_weight gauss 1 a b i <> 0).
  { intros a b i AB Hi. destruct (SG i Hi) as (Pos & Sc). rewrite (Sc a b AB). apply Rgt_not_eq, Rmult_lt_0_compat; [lra|exact Pos]. }
  destruct (diffusion_levels_ok sol 1 (length lev) lev itf C gauss GG Gnz) as (A6 & EA6 & _).
  destruct (C61_interfaces lobatto false 1 (length lev) lev itf Ho Hne Ln ltac:(lia) Se GL SL) as (A7 & EA7 & _). cbn [diffusion_op] in EA7.
  assert (exists P, penalty_rec o lev itf = PenBuilt P) as (P & EP).
  { destruct (Nat.eq_dec (length lev) 1) as [N|N]; [unfold penalty_rec; rewrite N; cbn [Nat.eqb]; eexists; reflexivity|].
    destruct (C62_reconstructed o lev itf) as (P & EP & _); [lia|assumption|assumption|assumption|lia|]. exists P. exact EP. }
  exists (Operators A1 A2 A3 A4 no_op A6 A7 P). unfold volume_operators. rewrite EA1, EA2, EA3, EA4, EA6, EA7, EP. split; [reflexivity|].
  unfold sound, reads_edges, pen_fits. rewrite E1, E2, E3. cbn [d_en pnl].
  destruct (redistributes_volumes o lev itf P ltac:(lia) Sn Se Le Nn EP) as (R1 & R2 & R3). split; [|split; [|split]].
  - apply (telescopes_volumes o); assumption.
  - exact R1.
  - split; [lia|]. split; [lia|]. intros _. split; assumption.
  - intros k Hk. rewrite <- Le, <- CA4. apply (wf_range A4 WA4). rewrite NA4. exact Hk.
Qed.
