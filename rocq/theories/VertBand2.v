(** * The band array holds the Jacobian *)
From Coq Require Import Reals List Arith Bool Lia Lra ZArith.
From Verif Require Import VertModel VertSpec VertProofs VertProofs2 VertProofs4.
From Verif Require Import QuadSpec InterpModel InterpSpec InterpProofs ColModel ColSpec ColProofs FemModel FemSpec FemProofs FemProofs2 FemProps.
From Verif Require Import FluxModel FluxSpec FluxProofs FluxProofs2 FluxProofs3 FluxProofs6 FluxProofs7 FluxProps VertOps VertBand.
Import ListNotations.
Local Open Scope R_scope.

Record reads_inside (S : settings) (O : operators) : Prop := ReadsInside {
  ri_den : forall k m, (k < rlev S)%nat -> (m < nth k (fin (d_en O)) 0)%nat -> (m <= rlev S)%nat;
  ri_ine : forall k m, (k <= rlev S)%nat -> (m < nth k (fin (i_ne O)) 0)%nat -> (m < rlev S)%nat;
  ri_dne : forall k m, (k <= rlev S)%nat -> (m < nth k (fin (d_ne O)) 0)%nat -> (m < rlev S)%nat;
  ri_ien : forall k m, (k < rlev S)%nat -> (m < nth k (fin (i_en O)) 0)%nat -> (m <= rlev S)%nat;
  ri_dee : forall k m, (k <= rlev S)%nat -> (m < nth k (fin (dd_ee O)) 0)%nat -> (m <= rlev S)%nat;
  ri_l : forall L Rt, pops (pnl O) = Some (L, Rt) -> forall k m, (k < rlev S)%nat -> (m < nth k (fin L) 0)%nat -> (m < rlev S)%nat;
  ri_r : forall L Rt, pops (pnl O) = Some (L, Rt) -> forall k m, (k < rlev S)%nat -> (m < nth k (fin Rt) 0)%nat -> (m < rlev S)%nat }.

Lemma jac_range S O Q X e : reads_inside S O -> pen_fits S (pnl O) -> In e (jacobian S O Q X) -> (e_k0 e <= rlev S)%nat.
Proof.
  intros B (Po & PK & Pp) He. unfold jacobian in He. do 4 (rewrite in_app_iff in He). destruct He as [He|[He|[He|[He|He]]]].
  - apply in_loop in He. destruct He as (k & Hk & He). apply in_row in He. destruct He as (m & Hm & He).
    pose proof (ri_den _ _ B k m ltac:(lia) ltac:(lia)). apply in_app_iff in He. destruct He as [He|He].
    + destruct (_ && _); [|destruct He]. cbv zeta in He. destruct He as [<-|[<-|[]]]; cbn [e_k0]; assumption.
    + apply in_row in He. destruct He as (n & Hn & He). pose proof (ri_ine _ _ B m n ltac:(lia) ltac:(lia)). cbv zeta in He. destruct He as [<-|[<-|[]]]; cbn [e_k0]; lia.
  - apply in_loop in He. destruct He as (k & Hk & He). cbv zeta in He. apply in_app_iff in He. destruct He as [He|He].
    + apply in_row in He. destruct He as (m & Hm & He). pose proof (ri_dne _ _ B k m ltac:(lia) ltac:(lia)). destruct He as [<-|[]]. cbn [e_k0]; lia.
    + apply in_row in He. destruct He as (m & Hm & He). pose proof (ri_ine _ _ B k m ltac:(lia) ltac:(lia)). destruct He as [<-|[<-|[]]]; cbn [e_k0]; lia.
  - apply in_loop in He. destruct He as (k & Hk & He). apply in_row in He. destruct He as (l & Hl & He). pose proof (ri_dne _ _ B k l ltac:(lia) ltac:(lia)).
    apply in_row in He. destruct He as (m & Hm & He). pose proof (ri_ien _ _ B l m ltac:(lia) ltac:(lia)). destruct He as [<-|[]]. cbn [e_k0]; lia.
  - assert (Up : forall c, In e (jac_up_level S O Q X c) -> (e_k0 e <= rlev S)%nat).
    { intros c H. unfold jac_up_level in H. destruct (pops (pnl O)) as [(L & Rt)|] eqn:EL; [|destruct H]. apply in_loop in H. destruct H as (a & Ha & H). cbv zeta in H.
      assert (G : (a * npe S + npe S <= rlev S)%nat) by (rewrite <- PK; nia).
      do 3 (rewrite in_app_iff in H). destruct H as [H|[H|[H|H]]]; apply in_loop in H; destruct H as (k & Hk & H); apply in_row in H; destruct H as (n & Hn & [<-|[]]); cbn [e_k0]; try lia.
      - pose proof (ri_l _ _ B L Rt EL k n ltac:(lia) ltac:(lia)). lia.
      - pose proof (ri_r _ _ B L Rt EL k n ltac:(lia) ltac:(lia)). lia. }
    unfold jac_diffusion in He. do 2 (rewrite in_app_iff in He). destruct He as [He|[He|He]].
    + destruct (upw S FP); [apply (Up FP He)|destruct He].
    + destruct (upw S FW); [|destruct He]. unfold jac_up_edge in He. apply in_app_iff in He. destruct He as [He|He]; apply in_loop in He; destruct He as (k & Hk & He).
      * destruct He as [<-|[]]. cbn [e_k0]. lia.
      * apply in_row in He. destruct He as (n & Hn & [<-|[]]). pose proof (ri_dee _ _ B k n ltac:(lia) ltac:(lia)). cbn [e_k0]. lia.
    + destruct (upw S FR); [apply (Up FR He)|destruct He].
  - apply in_loop in He. destruct He as (k & Hk & He). destruct He as [<-|[<-|[<-|[]]]]; cbn [e_k0]; lia.
Qed.

(** what DGBSV reads of the array is the Jacobian *)
Definition banded (S : settings) (O : operators) (w : nat) : Prop := forall Q X,
  (forall i j, (Z.abs (Z.of_nat i - Z.of_nat j) <= Z.of_nat w)%Z ->
    store (Z.of_nat w) (jacobian S O Q X) (band_ix (Z.of_nat w) (Z.of_nat w) (VertModel.width (Z.of_nat w)) (Z.of_nat i) (Z.of_nat j)) = matrix (jacobian S O Q X) i j) /\
  (forall i j, (Z.of_nat w < Z.abs (Z.of_nat i - Z.of_nat j))%Z -> matrix (jacobian S O Q X) i j = 0) /\
  (forall h c k, row_dot (jacobian S O Q X) h c k = sum (fun j => matrix (jacobian S O Q X) (vec_ix c k) j * flat h j) (3 * (rlev S + 1))).
Lemma banded_ok S O w : band_fits S O (Z.of_nat w) -> pen_fits S (pnl O) -> reads_inside S O -> banded S O w.
Proof.
  intros B P I Q X. assert (H : forall e, In e (jacobian S O Q X) -> e_x e = 0 \/ (Z.abs (distance e) <= Z.of_nat w)%Z) by (intros e; apply jac_band; assumption).
  split; [|split].
  - intros i j Hij. apply store_matrix; [lia| |exact Hij]. intros e He. destruct (H e He); [left; assumption|right; lia].
  - intros i j. apply matrix_far, H.
  - intros h c k. apply matrix_row. intros e He. pose proof (jac_range S O Q X e I P He). unfold vec_ix. destruct (e_c0 e); cbn [number]; lia.
Qed.
Lemma volumes_inside sol gauss lobatto S o lev itf O : column 1 (length lev) lev itf -> gives lobatto 2 -> scaled lobatto 2 ->
  (2 <= o)%nat -> (o mod 2 = 0)%nat -> (o / 2 <= length lev)%nat -> rlev S = length lev -> volume_operators sol gauss lobatto o lev itf = Some O -> reads_inside S O.
Proof.
  intros C GL SL O2 Om Oh E3 EO. pose proof C as (Ho & Hne & Ln & Le & Sn & Se). rewrite Nat.mul_1_r in Le.
  assert (Nn : lev <> []) by (intros ->; cbn in Hne; lia).
  destruct (C50_reconstructed o lev itf O2 Om Sn Oh Le) as (A1 & EA1 & W1 & R1 & C1 & _).
  destruct (C50_average o lev itf Om Nn Le) as (A2 & EA2 & W2 & R2 & C2 & _).
  destruct (C51_levels_reconstructed o lev itf O2 Om Sn Oh Le) as (A3 & EA3 & W3 & R3 & C3 & _).
  destruct (C51_slope o lev itf O2 Om Nn Le Se) as (A4 & EA4 & W4 & R4 & C4 & _).
  destruct (C61_interfaces lobatto false 1 (length lev) lev itf Ho Hne Ln ltac:(lia) Se GL SL) as (A7 & EA7 & W7 & R7 & C7 & _). cbn [diffusion_op] in EA7.
  unfold volume_operators, bundle in EO. rewrite EA1, EA2, EA3, EA4, EA7 in EO.
  destruct (diffusion_levels sol gauss 1 lev itf) as [A6| |]; try discriminate.
  destruct (penalty_rec o lev itf) as [P| |] eqn:EP; try discriminate. injection EO as <-.
  split; cbn [d_en i_ne d_ne i_en dd_ee pnl]; rewrite ?E3.
  - intros k m Hk Hm. pose proof (wf_range A4 W4 k ltac:(lia)). lia.
  - intros k m Hk Hm. pose proof (wf_range A1 W1 k ltac:(lia)). lia.
  - intros k m Hk Hm. pose proof (wf_range A3 W3 k ltac:(lia)). lia.
  - intros k m Hk Hm. pose proof (wf_range A2 W2 k ltac:(lia)). lia.
  - intros k m Hk Hm. pose proof (wf_range A7 W7 k ltac:(lia)). lia.
  - intros L Rt EL k m Hk Hm. unfold penalty_rec in EP. destruct (length lev =? 1)%nat; [injection EP as <-; discriminate|]. destruct (length lev =? 0)%nat; [discriminate|].
    destruct (o =? 0)%nat; [discriminate|]. destruct (negb _); [discriminate|]. unfold pair_up in EP.
    destruct (build _ _ (rec_left_row o lev itf)) as [A| |] eqn:E1; try discriminate; destruct (build _ _ (rec_right_row o lev itf)) as [B| |] eqn:E2; try discriminate.
    injection EP as <-. cbn [pops] in EL. injection EL as <- <-. apply build_inv in E1. destruct E1 as (_ & _ & _ & _ & H1). specialize (H1 k Hk).
    unfold rec_left_row in H1. destruct (k + 1 <? length itf - 1)%nat.
    + destruct (jump_row 1 o lev itf (k + 1)) as [t|] eqn:Et; [|discriminate]. cbn [bind] in H1. apply rescale_bounds in H1. cbn [fst snd] in H1. apply jump_bounds in Et.
      destruct H1 as (B1 & B2), Et as (T1 & T2). rewrite B2, T2 in Hm. unfold right_last in Hm. lia.
    + cbn [bind] in H1. apply rescale_bounds in H1. cbn [fst snd] in H1. lia.
  - intros L Rt EL k m Hk Hm. unfold penalty_rec in EP. destruct (length lev =? 1)%nat; [injection EP as <-; discriminate|]. destruct (length lev =? 0)%nat; [discriminate|].
    destruct (o =? 0)%nat; [discriminate|]. destruct (negb _); [discriminate|]. unfold pair_up in EP.
    destruct (build _ _ (rec_left_row o lev itf)) as [A| |] eqn:E1; try discriminate; destruct (build _ _ (rec_right_row o lev itf)) as [B| |] eqn:E2; try discriminate.
    injection EP as <-. cbn [pops] in EL. injection EL as <- <-. apply build_inv in E2. destruct E2 as (_ & _ & _ & _ & H2). specialize (H2 k Hk).
    unfold rec_right_row in H2. destruct ((0 <? k) && (k <? length itf - 1))%nat.
    + destruct (jump_row (-1) o lev itf k) as [t|] eqn:Et; [|discriminate]. cbn [bind] in H2. apply rescale_bounds in H2. cbn [fst snd] in H2. apply jump_bounds in Et.
      destruct H2 as (B1 & B2), Et as (T1 & T2). rewrite B2, T2 in Hm. unfold right_last in Hm. lia.
    + cbn [bind] in H2. apply rescale_bounds in H2. cbn [fst snd] in H2. lia.
Qed.
Lemma elements_inside sol gauss lobatto S o ne lev itf slev sitf P O : column o ne lev itf -> column o ne slev sitf -> solved sol o -> correction 2 (o + 1) P ->
  gives lobatto (o + 1) -> scaled lobatto (o + 1) -> levels_inside o ne lev itf -> (o = 1%nat -> (2 <= ne)%nat) -> rlev S = (ne * o)%nat ->
  element_operators sol gauss lobatto o lev itf slev sitf = Some O -> reads_inside S O.
Proof.
  intros C C' Sv HP GL SL I O1 E3 EO. pose proof C as (Ho & Hne & Ln & Le & Sn & Se). pose proof C' as (_ & _ & Ln' & Le' & Sn' & Se').
  assert (Nn : lev <> []) by (intros ->; cbn in Ln; nia). assert (Nn' : slev <> []) by (intros ->; cbn in Ln'; nia).
  assert (Ni : itf <> []) by (intros ->; cbn in Le; nia). assert (Ni' : sitf <> []) by (intros ->; cbn in Le'; nia).
  destruct (C50_levels o ne slev sitf sitf C' Ni' (edges_order_one _ _ _ _ C' O1)) as (A1 & EA1 & W1 & R1 & C1 & _).
  destruct (C50_interfaces o ne slev sitf slev C' Nn') as (A2 & EA2 & W2 & R2 & C2 & _).
  destruct (C59_inside sol o ne lev itf itf true P C Sv HP Ni) as (A3 & EA3 & W3 & R3 & C3 & _).
  { intros x Hx. apply In_nth with (d := 0) in Hx. destruct Hx as (j & Hj & <-). unfold edge. cbn [Nat.mul].
    assert (0 < / 10 ^ 11) by (apply Rinv_0_lt_compat, pow_lt; lra). split.
    - destruct (Nat.eq_dec j 0) as [->|]; [lra|]. pose proof (Se 0 j ltac:(lia))%nat. lra.
    - destruct (Nat.eq_dec j (ne * o)) as [->|]; [lra|]. pose proof (Se j (ne * o) ltac:(lia))%nat. lra. }
  destruct (C51_interfaces o ne lev itf lev false C Nn) as (A4 & EA4 & W4 & R4 & C4 & _).
  destruct (C61_interfaces lobatto false o ne lev itf Ho Hne Ln Le Se GL SL) as (A7 & EA7 & W7 & R7 & C7 & _). cbn [diffusion_op] in EA7.
  unfold element_operators, bundle in EO. rewrite EA1, EA2, EA3, EA4, EA7 in EO.
  destruct (diff_interface Levels o lev itf lev true) as [A5| |]; try discriminate. destruct (diffusion_levels sol gauss o lev itf) as [A6| |]; try discriminate.
  destruct (penalty_fem sol o lev itf) as [Pn| |] eqn:EP; try discriminate. injection EO as <-.
  assert (Bd : forall L Rt, pops Pn = Some (L, Rt) -> forall k, (k < ne * o)%nat -> (nth k (fin L) 0 <= ne * o /\ nth k (fin Rt) 0 <= ne * o)%nat).
  { intros L Rt EL k Hk. unfold penalty_fem in EP. rewrite Ln, Nat.div_mul in EP by lia. destruct (Nat.eqb_spec o 0); [lia|].
    destruct (Nat.eqb_spec ne 1) as [->|]; [injection EP as <-; discriminate|]. destruct (_ =? 0)%nat; [discriminate|]. destruct (negb _); [discriminate|].
    unfold pair_up in EP. destruct (build _ _ (left_row _ _ _ _ _)) as [A| |] eqn:E1; try discriminate; destruct (build _ _ (right_row _ _ _ _ _)) as [B| |] eqn:E2; try discriminate. injection EP as <-. cbn [pops] in EL. injection EL as <- <-.
    apply build_inv in E1. destruct E1 as (_ & _ & _ & _ & H1). apply build_inv in E2. destruct E2 as (_ & _ & _ & _ & H2). specialize (H1 k Hk). specialize (H2 k Hk).
    assert (k / o < ne)%nat by (apply Nat.div_lt_upper_bound; nia). unfold left_row in H1. unfold right_row in H2. cbv zeta in H1, H2. split.
    - destruct (Nat.ltb_spec (k / o + 1) ne); [pieces H1|]; injection H1 as _ _ F1; rewrite <- F1; nia.
    - destruct (0 <? k / o)%nat; [pieces H2|]; injection H2 as _ _ F1; rewrite <- F1; nia. }
  split; cbn [d_en i_ne d_ne i_en dd_ee pnl]; rewrite ?E3.
  - intros k m Hk Hm. pose proof (wf_range A4 W4 k ltac:(lia)). lia.
  - intros k m Hk Hm. pose proof (wf_range A1 W1 k ltac:(lia)). lia.
  - intros k m Hk Hm. pose proof (wf_range A3 W3 k ltac:(lia)). lia.
  - intros k m Hk Hm. pose proof (wf_range A2 W2 k ltac:(lia)). lia.
  - intros k m Hk Hm. pose proof (wf_range A7 W7 k ltac:(lia)). lia.
  - intros L Rt EL k m Hk Hm. destruct (Bd L Rt EL k Hk). lia.
  - intros L Rt EL k m Hk Hm. destruct (Bd L Rt EL k Hk). lia.
Qed.
(** tracers *)
Lemma tjac_band S O Q offd e : band_fits S O offd -> pen_fits S (pnl O) -> In e (tracer_jacobian S O Q) -> t_x e = 0 \/ near0 offd (t_k1 e) (t_k0 e).
Proof.
  intros B (Po & PK & Pp) He. pose proof (bf_pos _ _ _ B) as P0. unfold tracer_jacobian in He. apply in_app_iff in He. destruct He as [He|He].
  - destruct (explicit S); [destruct He|]. apply in_app_iff in He. destruct He as [He|He].
    + apply in_loop in He. destruct He as (k & Hk & He). apply in_row in He. destruct He as (m & Hm & He). apply in_row in He. destruct He as (n & Hn & He). destruct He as [<-|[]]. cbn [t_x t_k0 t_k1].
      destruct (Req_dec (getc (d_en O) k m) 0) as [G|G]; [left; rewrite G; unfold Rdiv; ring|]. destruct (Req_dec (getc (i_ne O) m n) 0) as [G2|G2]; [left; rewrite G2; unfold Rdiv; ring|].
      right. apply (bf_di _ _ _ B k m n); try assumption. lia.
    + destruct (upw_t S); [|destruct He]. unfold tjac_upwind in He. destruct (pops (pnl O)) as [(L & Rt)|] eqn:EL; [|destruct He]. apply in_loop in He. destruct He as (a & Ha & He). cbv zeta in He.
      assert (G : (a * npe S + npe S <= rlev S)%nat) by (rewrite <- PK; nia).
      apply in_app_iff in He. destruct He as [He|He]; apply in_loop in He; destruct He as (k & Hk & He); apply in_row in He; destruct He as (n & Hn & [<-|[]]); cbn [t_x t_k0 t_k1].
      * destruct (Req_dec (getc L k n) 0) as [Z|Z]; [left; rewrite Z; ring|]. right. apply (bf_l _ _ _ B L Rt EL k n); try assumption. lia.
      * destruct (Req_dec (getc Rt k n) 0) as [Z|Z]; [left; rewrite Z; ring|]. right. apply (bf_r _ _ _ B L Rt EL k n); try assumption. lia.
  - apply in_loop in He. destruct He as (k & Hk & [<-|[]]). cbn [t_x t_k0 t_k1]. right. unfold near0. lia.
Qed.
Lemma tjac_range S O Q e : reads_inside S O -> pen_fits S (pnl O) -> In e (tracer_jacobian S O Q) -> (t_k0 e < rlev S /\ t_k1 e < rlev S)%nat.
Proof.
  intros B (Po & PK & Pp) He. unfold tracer_jacobian in He. apply in_app_iff in He. destruct He as [He|He].
  - destruct (explicit S); [destruct He|]. apply in_app_iff in He. destruct He as [He|He].
    + apply in_loop in He. destruct He as (k & Hk & He). apply in_row in He. destruct He as (m & Hm & He). apply in_row in He. destruct He as (n & Hn & He). destruct He as [<-|[]]. cbn [t_k0 t_k1].
      pose proof (ri_den _ _ B k m ltac:(lia) ltac:(lia)). pose proof (ri_ine _ _ B m n ltac:(lia) ltac:(lia)). lia.
    + destruct (upw_t S); [|destruct He]. unfold tjac_upwind in He. destruct (pops (pnl O)) as [(L & Rt)|] eqn:EL; [|destruct He]. apply in_loop in He. destruct He as (a & Ha & He). cbv zeta in He.
      assert (G : (a * npe S + npe S <= rlev S)%nat) by (rewrite <- PK; nia).
      apply in_app_iff in He. destruct He as [He|He]; apply in_loop in He; destruct He as (k & Hk & He); apply in_row in He; destruct He as (n & Hn & [<-|[]]); cbn [t_k0 t_k1].
      * pose proof (ri_l _ _ B L Rt EL k n ltac:(lia) ltac:(lia)). lia.
      * pose proof (ri_r _ _ B L Rt EL k n ltac:(lia) ltac:(lia)). lia.
  - apply in_loop in He. destruct He as (k & Hk & [<-|[]]). cbn [t_k0 t_k1]. lia.
Qed.
(** dTracersLUDF after all additions, entry (i, j) of the matrix, and DGBTRF's place *)
Lemma tstore_tmatrix vo K l i j : (0 < vo)%nat -> (3 * (2 * vo - 1) < K)%nat ->
  (forall e, In e l -> t_x e = 0 \/ (Z.abs (Z.of_nat (t_k1 e) - Z.of_nat (t_k0 e)) <= 2 * Z.of_nat vo - 1)%Z) ->
  (Z.abs (Z.of_nat i - Z.of_nat j) <= 2 * Z.of_nat vo - 1)%Z ->
  tstore (Z.of_nat vo) (Z.of_nat K) l (band_ix (2 * Z.of_nat vo - 1) (2 * Z.of_nat vo - 1) (Z.of_nat K) (Z.of_nat i) (Z.of_nat j)) = tmatrix l i j.
Proof.
  intros Hv HK Hl Hij. unfold tstore. rewrite <- (Rplus_0_l (tmatrix l i j)). generalize 0 as s.
  induction l as [|e l IH]; intros s; [cbn; ring|]. cbn [fold_left]. rewrite IH by (intros; apply Hl; right; assumption).
  change (tmatrix (e :: l) i j) with (if ((t_k1 e =? i) && (t_k0 e =? j))%bool%nat then t_x e + tmatrix l i j else tmatrix l i j).
  assert (D : (tracer_ix (Z.of_nat vo) (Z.of_nat K) (t_k0 e) (t_k1 e) =? band_ix (2 * Z.of_nat vo - 1) (2 * Z.of_nat vo - 1) (Z.of_nat K) (Z.of_nat i) (Z.of_nat j))%Z = ((t_k1 e =? i) && (t_k0 e =? j))%bool%nat \/ t_x e = 0).
  { destruct (Hl e (or_introl eq_refl)) as [H0|H]; [right; exact H0|left]. unfold tracer_ix, band_ix. set (a := t_k1 e) in *. set (b := t_k0 e) in *.
    destruct (Nat.eqb_spec a i), (Nat.eqb_spec b j); cbn [andb]; [apply Z.eqb_eq; subst; lia|apply Z.eqb_neq|apply Z.eqb_neq|apply Z.eqb_neq]; intros E;
      assert (Z.of_nat b = Z.of_nat j \/ Z.of_nat b < Z.of_nat j \/ Z.of_nat j < Z.of_nat b)%Z as [Q|[Q|Q]] by lia; try nia; lia. }
  destruct D as [->|Z0]; [destruct (_ && _)%bool; ring|]. destruct (_ =? _)%Z, (_ && _)%bool; rewrite ?Z0; ring.
Qed.
Lemma tmatrix_far offd l i j : (forall e, In e l -> t_x e = 0 \/ (Z.abs (Z.of_nat (t_k1 e) - Z.of_nat (t_k0 e)) <= offd)%Z) -> (offd < Z.abs (Z.of_nat i - Z.of_nat j))%Z -> tmatrix l i j = 0.
Proof.
  intros H Hij. induction l as [|e l IH]; [reflexivity|].
  change (tmatrix (e :: l) i j) with (if ((t_k1 e =? i) && (t_k0 e =? j))%bool%nat then t_x e + tmatrix l i j else tmatrix l i j).
  rewrite IH by (intros; apply H; right; assumption). destruct (Nat.eqb_spec (t_k1 e) i) as [<-|], (Nat.eqb_spec (t_k0 e) j) as [<-|]; cbn [andb]; try reflexivity.
  destruct (H e (or_introl eq_refl)) as [->|D]; [ring|lia].
Qed.
Lemma tmatrix_row n l h k : (forall e, In e l -> (t_k0 e < n)%nat) -> trow_dot l h k = sum (fun j => tmatrix l k j * h j) n.
Proof.
  induction l as [|e l IH]; intros H; [cbn; symmetry; apply sum_zero; intros; ring|].
  change (trow_dot (e :: l) h k) with (if (t_k1 e =? k)%nat then t_x e * h (t_k0 e) + trow_dot l h k else trow_dot l h k). rewrite IH by (intros; apply H; right; assumption).
  rewrite (sum_ext (fun j => tmatrix (e :: l) k j * h j) (fun j => (if ((t_k1 e =? k) && (t_k0 e =? j))%bool%nat then t_x e * h j else 0) + tmatrix l k j * h j)).
  2:{ intros j _. change (tmatrix (e :: l) k j) with (if ((t_k1 e =? k) && (t_k0 e =? j))%bool%nat then t_x e + tmatrix l k j else tmatrix l k j). destruct (_ && _)%bool; ring. }
  rewrite sum_plus. destruct (Nat.eqb_spec (t_k1 e) k) as [E|E]; cbn [andb].
  - f_equal. unfold sum. rewrite (fold_one _ (seq 0 n) (t_k0 e)); [rewrite Nat.eqb_refl; reflexivity|apply seq_NoDup|apply in_seq; pose proof (H e (or_introl eq_refl)); lia|].
    intros x _ N. destruct (Nat.eqb_spec (t_k0 e) x); [congruence|reflexivity].
  - rewrite (sum_zero (fun _ => 0)) by reflexivity. ring.
Qed.
