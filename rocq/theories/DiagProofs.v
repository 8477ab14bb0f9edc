(** Proofs about variable slots and global reductions *)
From Coq Require Import ZArith List Bool Reals Lra Lia Permutation.
From Verif Require Import LayoutModel LayoutSpec PhysModel DiagModel DiagSpec.
Import ListNotations.
Local Open Scope Z_scope.

(** ** Lists *)
Lemma upd_len {A} (l : list A) n (x : A) : (n < length l)%nat -> length (firstn n l ++ x :: skipn (S n) l) = length l.
Proof. intros. rewrite app_length, firstn_length. cbn [length]. rewrite skipn_length. lia. Qed.
Lemma upd_nth {A} (l : list A) n m (x d : A) : (n < length l)%nat ->
  nth m (firstn n l ++ x :: skipn (S n) l) d = if (m =? n)%nat then x else nth m l d.
Proof.
  intros H. destruct (Nat.eqb_spec m n) as [->|Hm].
  - rewrite app_nth2 by (rewrite firstn_length; lia). rewrite firstn_length. replace (n - _)%nat with 0%nat by lia. reflexivity.
  - destruct (Nat.lt_ge_cases m n) as [L|L].
    + rewrite app_nth1 by (rewrite firstn_length; lia). revert l m H L Hm. induction n; intros [|y l] [|m] H L Hm; cbn in *; try lia; auto.
      apply IHn; lia.
    + rewrite app_nth2 by (rewrite firstn_length; lia). rewrite firstn_length.
      replace (m - _)%nat with (S (m - S n)) by lia. cbn [nth].
      replace (nth m l d) with (nth (S n + (m - S n)) l d) by (f_equal; lia).
      clear Hm. revert l H. generalize (m - S n)%nat as q. induction n; intros q [|y l] H; cbn [length skipn nth Nat.add] in *; try lia; auto.
      apply (IHn ltac:(lia) q l). lia.
Qed.
Lemma zseq_In n x : In x (zseq n) <-> 0 <= x < n.
Proof.
  unfold zseq. rewrite in_map_iff. split.
  - intros (y & <- & H). apply in_seq in H. lia.
  - intros. exists (Z.to_nat x). split; [lia|]. apply in_seq. lia.
Qed.
Lemma zseq_NoDup n : NoDup (zseq n).
Proof. unfold zseq. apply FinFun.Injective_map_NoDup; [intros a b; lia|apply seq_NoDup]. Qed.
Lemma zrange_In a b x : In x (zrange a b) <-> a <= x < b.
Proof.
  unfold zrange. rewrite in_map_iff. split.
  - intros (y & <- & H). apply zseq_In in H. lia.
  - intros. exists (x - a). split; [lia|]. apply zseq_In. lia.
Qed.
Lemma zrange_NoDup a b : NoDup (zrange a b).
Proof. unfold zrange. apply FinFun.Injective_map_NoDup; [intros x y; lia|apply zseq_NoDup]. Qed.
Lemma NoDup_app {A} (l l' : list A) : NoDup l -> NoDup l' -> (forall x, In x l -> In x l' -> False) -> NoDup (l ++ l').
Proof.
  induction l as [|a l IH]; cbn; [auto|]. intros H H' D. inversion_clear H as [|? ? Ha Hl]. constructor.
  - rewrite in_app_iff. intros [|]; [auto|]. eapply D; eauto.
  - apply IH; eauto.
Qed.
Lemma NoDup_flat_map {A B} (f : A -> list B) (l : list A) :
  (forall a, In a l -> NoDup (f a)) ->
  (forall k k' a a' x, nth_error l k = Some a -> nth_error l k' = Some a' -> In x (f a) -> In x (f a') -> k = k') ->
  NoDup (flat_map f l).
Proof.
  induction l as [|a l IH]; cbn [flat_map]; [constructor|]. intros N D. apply NoDup_app.
  - apply N. left. reflexivity.
  - apply IH; [intros; apply N; right; assumption|]. intros k k' b b' x Hk Hk' Hx Hx'.
    assert (S k = S k') by exact (D (S k) (S k') b b' x Hk Hk' Hx Hx'). lia.
  - intros x Hx Hx'. apply in_flat_map in Hx' as (b & Hb & Hx'). apply In_nth_error in Hb as (k & Hk).
    pose proof (D 0%nat (S k) a b x eq_refl Hk Hx Hx'). lia.
Qed.
Lemma NoDup_nth_error_inj {A} (l : list A) : NoDup l -> forall k k' a, nth_error l k = Some a -> nth_error l k' = Some a -> k = k'.
Proof.
  intros N k k' a H H'. rewrite NoDup_nth_error in N. apply N; [|congruence].
  apply nth_error_Some. congruence.
Qed.

Lemma interior_In b nk i j k : In (i, j, k) (interior b nk) <->
  bhalo b <= i < bA1 b - bA0 b - bhalo b /\ bhalo b <= j < bB1 b - bB0 b - bhalo b /\ 0 <= k < nk.
Proof.
  unfold interior. rewrite in_flat_map. split.
  - intros (i' & Hi & H). apply in_flat_map in H as (j' & Hj & H). apply in_map_iff in H as (k' & E & Hk). inversion E; subst.
    apply zrange_In in Hi, Hj. apply zseq_In in Hk. tauto.
  - intros (Hi & Hj & Hk). exists i. rewrite zrange_In. split; [tauto|]. apply in_flat_map. exists j. rewrite zrange_In. split; [tauto|].
    apply in_map_iff. exists k. rewrite zseq_In. tauto.
Qed.
Lemma interior_NoDup b nk : NoDup (interior b nk).
Proof.
  unfold interior. apply NoDup_flat_map.
  - intros i _. apply NoDup_flat_map.
    + intros j _. apply FinFun.Injective_map_NoDup; [intros x y E; congruence|apply zseq_NoDup].
    + intros k k' a a' x Hk Hk' Hx Hx'. apply in_map_iff in Hx as (? & <- & _). apply in_map_iff in Hx' as (? & E & _).
      assert (a' = a) as -> by congruence. eapply NoDup_nth_error_inj; eauto. apply zrange_NoDup.
  - intros k k' a a' x Hk Hk' Hx Hx'. apply in_flat_map in Hx as (? & _ & Hx). apply in_flat_map in Hx' as (? & _ & Hx').
    apply in_map_iff in Hx as (? & <- & _). apply in_map_iff in Hx' as (? & E & _).
    assert (a' = a) as -> by congruence. eapply NoDup_nth_error_inj; eauto. apply zrange_NoDup.
Qed.

(** ** Slots *)
Lemma number_ok locs : forall done count ix, slots_ok done ix count -> length count = 4%nat ->
  forall ix' count', number_slots locs count ix = VOk (ix', count') ->
  slots_ok (done ++ locs) ix' count' /\ length count' = 4%nat.
Proof.
  induction locs as [|l locs IH]; intros done count ix H L ix' count' E; cbn [number_slots] in E.
  - inversion E; subst. rewrite app_nil_r. auto.
  - destruct ((l =? loc_node) || (l =? loc_aedge) || (l =? loc_bedge) || (l =? loc_redge)) eqn:B; [|discriminate].
    assert (0 <= l < 4) as Hl by (unfold loc_node, loc_aedge, loc_bedge, loc_redge in B; lia). clear B. cbv zeta in E.
    replace (done ++ l :: locs) with ((done ++ [l]) ++ locs) by (rewrite <- app_assoc; reflexivity).
    apply (IH (done ++ [l])) in E; [exact E| |rewrite upd_len; lia]. clear E IH.
    destruct H as [S1 S2 S3 S4 S5]. assert (Z.to_nat l < length count)%nat as Hlc by lia.
    pose proof (upd_nth count (Z.to_nat l)) as U.
    assert (0 <= nth (Z.to_nat l) count 0) as P0 by (rewrite S5 by lia; lia).
    assert (forall c, (c < length done)%nat -> nth c (done ++ [l]) 0 = nth c done 0) as N1 by (intros; apply app_nth1; lia).
    assert (nth (length done) (done ++ [l]) 0 = l) as N2 by (rewrite app_nth2, Nat.sub_diag by lia; reflexivity).
    set (v := nth (Z.to_nat l) count 0) in *.
    assert (forall c, (c < length done)%nat -> nth c (ix ++ [v]) 0 = nth c ix 0) as M1 by (intros; apply app_nth1; lia).
    assert (nth (length done) (ix ++ [v]) 0 = v) as M2 by (rewrite app_nth2, S1, Nat.sub_diag by lia; reflexivity).
    constructor.
    + rewrite !app_length. cbn. lia.
    + intros c c' Hc He. rewrite app_length in Hc. cbn [length] in Hc. destruct (Nat.eq_dec c' (length done)) as [->|].
      * rewrite M2, M1 by lia. rewrite N1, N2 in He by lia. destruct (S3 c ltac:(lia)) as (_ & R). rewrite He in R. unfold v. lia.
      * rewrite !M1 by lia. rewrite !N1 in He by lia. apply S2; [lia|assumption].
    + intros c Hc. rewrite app_length in Hc. cbn [length] in Hc. destruct (Nat.eq_dec c (length done)) as [->|].
      * rewrite N2, M2, U, Nat.eqb_refl by lia. lia.
      * rewrite N1, M1, U by lia. destruct (S3 c ltac:(lia)) as (R1 & R2). split; [exact R1|].
        destruct (Nat.eqb_spec (Z.to_nat (nth c done 0)) (Z.to_nat l)) as [Q|]; [|exact R2]. rewrite Q in R2. unfold v. lia.
    + intros l' m Hl' Hm. rewrite U in Hm by lia. destruct (Nat.eqb_spec (Z.to_nat l') (Z.to_nat l)) as [Q|Q].
      * assert (l' = l) as -> by lia. destruct (Z.eq_dec m v) as [->|].
        -- exists (length done). rewrite app_length. cbn [length]. split; [lia|]. auto.
        -- destruct (S4 l m Hl) as (c & Hc & E1 & E2); [unfold v in *; lia|]. exists c. rewrite app_length. cbn [length].
           rewrite N1, M1 by lia. split; [lia|]. auto.
      * destruct (S4 l' m Hl' Hm) as (c & Hc & E1 & E2). exists c. rewrite app_length. cbn [length]. rewrite N1, M1 by lia. split; [lia|]. auto.
    + intros l' Hl'. rewrite U by lia. rewrite count_occ_app. cbn [count_occ]. destruct (Z.eq_dec l l') as [<-|Q].
      * rewrite Nat.eqb_refl. unfold v. rewrite S5 by lia. lia.
      * replace (Z.to_nat l' =? Z.to_nat l)%nat with false by (symmetry; apply Nat.eqb_neq; lia). rewrite S5 by lia. lia.
Qed.
Lemma slots_empty : slots_ok [] [] (repeat 0 4).
Proof.
  constructor; cbn [length]; try lia; auto.
  - intros l m Hl Hm. exfalso. rewrite nth_repeat in Hm. lia.
  - intros l Hl. rewrite nth_repeat. reflexivity.
Qed.
Lemma number_total locs : forall count ix, (forall l, In l locs -> 0 <= l < 4) ->
  exists r, number_slots locs count ix = VOk r.
Proof.
  induction locs as [|l locs IH]; intros count ix H; cbn [number_slots]; [eexists; reflexivity|].
  pose proof (H l (or_introl eq_refl)).
  replace ((l =? loc_node) || (l =? loc_aedge) || (l =? loc_bedge) || (l =? loc_redge)) with true
    by (unfold loc_node, loc_aedge, loc_bedge, loc_redge; lia).
  apply IH. intros; apply H; right; assumption.
Qed.
Lemma number_throws locs l : In l locs -> ~ 0 <= l < 4 -> forall count ix, number_slots locs count ix = VThrow.
Proof.
  intros H Hl. induction locs as [|a locs IH]; [destruct H|]. intros count ix. cbn [number_slots].
  destruct ((a =? loc_node) || (a =? loc_aedge) || (a =? loc_bedge) || (a =? loc_redge)) eqn:B; [|reflexivity].
  destruct H as [->|H]; [|apply IH; assumption].
  exfalso. unfold loc_node, loc_aedge, loc_bedge, loc_redge in B. lia.
Qed.

(** ** Reductions *)
Definition tot (t : checksum_type) (l : list R) : R := fold_right (mpi_op t) 0%R l.
Definition weight (t : checksum_type) (v a : R) : R :=
  match t with CSum => v * a | CL1 => Rabs v * a | CL2 => v * v * a | CLinf => Rabs v | COther => 0 end%R.
Lemma accumulate_op t x v a : t <> COther -> accumulate t x v a = mpi_op t x (weight t v a).
Proof.
  destruct t; cbn; try reflexivity; try congruence. intros _. unfold Rmax. destruct (Rlt_dec x (Rabs v)), (Rle_dec x (Rabs v)); lra.
Qed.
Lemma op_comm t x y : mpi_op t x y = mpi_op t y x.
Proof. destruct t; cbn; try apply Rplus_comm. apply Rmax_comm. Qed.
Lemma op_assoc t x y z : mpi_op t x (mpi_op t y z) = mpi_op t (mpi_op t x y) z.
Proof. destruct t; cbn; try ring. apply Rmax_assoc. Qed.
Lemma tot_zero t l : mpi_op t 0 (tot t l) = tot t l.
Proof.
  destruct t; cbn [mpi_op]; try apply Rplus_0_l. apply Rmax_right. unfold tot. induction l as [|a l IH]; cbn; [lra|].
  eapply Rle_trans; [exact IH|apply Rmax_r].
Qed.
Lemma tot_app t l l' : tot t (l ++ l') = mpi_op t (tot t l) (tot t l').
Proof.
  induction l as [|a l IH]; cbn [app].
  - symmetry. apply tot_zero.
  - cbn [tot fold_right]. fold (tot t (l ++ l')) (tot t l). rewrite IH. apply op_assoc.
Qed.
Lemma tot_perm t l l' : Permutation l l' -> tot t l = tot t l'.
Proof.
  induction 1; cbn [tot fold_right]; auto.
  - fold (tot t l) (tot t l'). congruence.
  - fold (tot t l). rewrite !op_assoc. f_equal. apply op_comm.
  - congruence.
Qed.
Lemma fold_tot t l : forall a, mpi_op t a 0 = a -> fold_left (mpi_op t) l a = mpi_op t a (tot t l).
Proof.
  induction l as [|b l IH]; intros a H; cbn [fold_left tot fold_right]; [auto|].
  fold (tot t l). rewrite IH; [rewrite op_assoc; reflexivity|].
  rewrite <- op_assoc, (op_comm t b 0), op_assoc, H. reflexivity.
Qed.
Lemma fold_tot0 t l : fold_left (mpi_op t) l 0%R = tot t l.
Proof. rewrite fold_tot; [apply tot_zero|]. destruct t; cbn; try ring. apply Rmax_left. lra. Qed.
Lemma tot_total {A} t (f : A -> R) l : t <> CLinf -> tot t (map f l) = total f l.
Proof. intros H. unfold tot, total. induction l as [|a l IH]; cbn; [reflexivity|]. rewrite IH. destruct t; cbn; congruence. Qed.
Lemma total_ext {A} (f f' : A -> R) l : (forall n, In n l -> f n = f' n) -> total f l = total f' l.
Proof.
  intros H. unfold total. induction l as [|a l IH]; cbn; [reflexivity|]. rewrite IH by (intros; apply H; right; assumption).
  rewrite H by (left; reflexivity). reflexivity.
Qed.
Lemma tot_max {A} (f : A -> R) l :
  (forall n, In n l -> Rabs (f n) <= tot CLinf (map (fun n => Rabs (f n)) l))%R /\
  ((exists n, In n l /\ tot CLinf (map (fun n => Rabs (f n)) l) = Rabs (f n)) \/ (l = [] /\ tot CLinf (map (fun n => Rabs (f n)) l) = 0%R)).
Proof.
  induction l as [|a l (H & H')]; cbn [map].
  - split; [intros n []|]. right. auto.
  - unfold tot at 1 2 3. cbn [fold_right mpi_op]. fold (tot CLinf (map (fun n => Rabs (f n)) l)). set (m := tot CLinf _) in *.
    split; [intros n [->|Hn]; [apply Rmax_l|eapply Rle_trans; [apply H, Hn|apply Rmax_r]]|]. left.
    unfold Rmax. destruct (Rle_dec (Rabs (f a)) m) as [D|D].
    + destruct H' as [(n & Hn & E)|(-> & E)]; [exists n; split; [right; exact Hn|exact E]|].
      exists a. split; [left; reflexivity|]. pose proof (Rabs_pos (f a)). lra.
    + exists a. split; [left; reflexivity|reflexivity].
Qed.

(** the global nodes of a list of patches *)
Definition glob (b : box) (n : Z * Z * Z) : gnode := let '(i, j, k) := n in (bpanel b, i + bA0 b, j + bB0 b, k).
Definition gnodes (nk : Z) (ps : list patch) : list gnode := flat_map (fun p => map (glob (pbox p)) (interior (pbox p) nk)) ps.
Lemma glob_In b nk p i j k : In (p, i, j, k) (map (glob b) (interior b nk)) <-> in_box b p i j /\ 0 <= k < nk.
Proof.
  rewrite in_map_iff. unfold in_box. split.
  - intros ([[i' j'] k'] & E & H). apply interior_In in H. cbn in E. inversion E; subst. lia.
  - intros ((<- & Hi & Hj) & Hk). exists (i - bA0 b, j - bB0 b, k). split; [cbn; repeat f_equal; lia|]. apply interior_In. lia.
Qed.
Lemma gnodes_enum ps dom nk : tiles (map pbox ps) dom -> enumerates (gnodes nk ps) dom nk.
Proof.
  intros (T1 & T2). split.
  - unfold gnodes. apply NoDup_flat_map.
    + intros p _. apply FinFun.Injective_map_NoDup; [|apply interior_NoDup].
      intros [[a b] c] [[a' b'] c'] E. cbn in E. inversion E. assert (a = a') by lia. assert (b = b') by lia. congruence.
    + intros k k' p p' [[[q i] j] z] Hk Hk' Hx Hx'. apply glob_In in Hx as (Hx & _). apply glob_In in Hx' as (Hx' & _).
      assert (owns (map pbox ps) (Z.of_nat k) q i j) as O.
      { exists (pbox p). rewrite Nat2Z.id. split; [lia|]. split; [apply map_nth_error; exact Hk|exact Hx]. }
      assert (owns (map pbox ps) (Z.of_nat k') q i j) as O'.
      { exists (pbox p'). rewrite Nat2Z.id. split; [lia|]. split; [apply map_nth_error; exact Hk'|exact Hx']. }
      destruct (T1 q i j (T2 _ _ _ _ O)) as (m & _ & M). pose proof (M _ O). pose proof (M _ O'). lia.
  - intros p i j k. unfold gnodes. rewrite in_flat_map. split.
    + intros (q & Hq & H). apply glob_In in H as (H & Hk). split; [|exact Hk]. apply In_nth_error in Hq as (m & Hm).
      apply (T2 p i j (Z.of_nat m)). exists (pbox q). rewrite Nat2Z.id. split; [lia|]. split; [apply map_nth_error; exact Hm|exact H].
    + intros (D & Hk). destruct (T1 p i j D) as (m & (b & Hm & Hb & O) & _).
      rewrite nth_error_map in Hb. destruct (nth_error ps (Z.to_nat m)) as [q|] eqn:Q; [|discriminate]. injection Hb as <-.
      exists q. split; [eapply nth_error_In; exact Q|]. apply glob_In. auto.
Qed.
Lemma enum_perm l l' dom nk : enumerates l dom nk -> enumerates l' dom nk -> Permutation l l'.
Proof.
  intros (N & H) (N' & H'). apply NoDup_Permutation; auto. intros [[[p i] j] k]. rewrite H, H'. tauto.
Qed.
Lemma gnodes_perm ranks ps dom nk l : Permutation (concat ranks) ps -> tiles (map pbox ps) dom -> enumerates l dom nk ->
  Permutation (gnodes nk (concat ranks)) l.
Proof.
  intros P T E. eapply Permutation_trans; [apply Permutation_flat_map; exact P|].
  eapply enum_perm; [apply gnodes_enum; exact T|exact E].
Qed.

(** ** Sums *)
Lemma node_sum_val nR f p : forall acc, node_sum nR f p acc =
  (acc + tot CSum (map (fun n => f (pnode p (fst (fst n)) (snd (fst n)) (snd n))) (interior (pbox p) nR)))%R.
Proof.
  unfold node_sum. induction (interior (pbox p) nR) as [|[[i j] k] l IH]; intros acc; cbn [fold_left map].
  - cbn. ring.
  - rewrite IH. unfold tot. cbn [fold_right mpi_op fst snd]. ring.
Qed.
Lemma edge_sum_val nR f p : forall acc, edge_sum nR f p acc =
  (acc + tot CSum (map (fun n => f (pedge p (fst (fst n)) (snd (fst n)) (snd n))) (interior (pbox p) (nR + 1))))%R.
Proof.
  unfold edge_sum. induction (interior (pbox p) (nR + 1)) as [|[[i j] k] l IH]; intros acc; cbn [fold_left map].
  - cbn. ring.
  - rewrite IH. unfold tot. cbn [fold_right mpi_op fst snd]. ring.
Qed.
Section Fields.
Context (G : gnode -> node_data) (E : gnode -> edge_data) (nR : Z).
Lemma holds_node {B} (f : node_data -> B) p : holds G E nR p ->
  map (fun n => f (pnode p (fst (fst n)) (snd (fst n)) (snd n))) (interior (pbox p) nR) =
  map (fun n => f (G n)) (map (glob (pbox p)) (interior (pbox p) nR)).
Proof.
  intros H. rewrite map_map. apply map_ext_in. intros [[i j] k] I. cbn [fst snd glob]. apply interior_In in I.
  destruct (H (i + bA0 (pbox p)) (j + bB0 (pbox p)) k) as (H1 & _); [unfold in_box; lia|].
  rewrite <- H1 by lia. do 2 f_equal; lia.
Qed.
Lemma holds_edge {B} (f : edge_data -> B) p : holds G E nR p ->
  map (fun n => f (pedge p (fst (fst n)) (snd (fst n)) (snd n))) (interior (pbox p) (nR + 1)) =
  map (fun n => f (E n)) (map (glob (pbox p)) (interior (pbox p) (nR + 1))).
Proof.
  intros H. rewrite map_map. apply map_ext_in. intros [[i j] k] I. cbn [fst snd glob]. apply interior_In in I.
  destruct (H (i + bA0 (pbox p)) (j + bB0 (pbox p)) k) as (_ & H1); [unfold in_box; lia|].
  rewrite <- H1 by lia. do 2 f_equal; lia.
Qed.
(** the total of a patch function over ranks *)
Lemma grid_total_val (f : patch -> R) (F : patch -> list R) (ranks : list (Z * list patch)) :
  (forall p, In p (concat (map snd ranks)) -> f p = tot CSum (F p)) ->
  grid_total f ranks 0 = tot CSum (flat_map F (concat (map snd ranks))).
Proof.
  intros H. unfold grid_total. cbn [Z.eqb].
  assert (forall ps, (forall p, In p ps -> f p = tot CSum (F p)) -> forall s, fold_left (fun s p => s + f p)%R ps s = (s + tot CSum (flat_map F ps))%R) as L.
  { intros ps. induction ps as [|p ps IH]; intros Hp s; cbn [fold_left flat_map]; [cbn; ring|].
    rewrite IH by (intros; apply Hp; right; assumption). rewrite tot_app. cbn [mpi_op]. rewrite (Hp p) by (left; reflexivity). ring. }
  assert (match map (fun r => fold_left (fun s p => s + f p)%R (snd r) 0%R) ranks with [] => 0 | x :: xs => fold_left Rplus xs x end
    = tot CSum (map (fun r => tot CSum (flat_map F (snd r))) ranks))%R as ->.
  { assert (map (fun r => fold_left (fun s p => s + f p)%R (snd r) 0%R) ranks = map (fun r => tot CSum (flat_map F (snd r))) ranks) as ->.
    { apply map_ext_in. intros r Hr. rewrite L; [ring|]. intros p Hp. apply H. apply in_concat. exists (snd r). split; [apply in_map, Hr|exact Hp]. }
    destruct (map (fun r => tot CSum (flat_map F (snd r))) ranks) as [|x xs]; [reflexivity|].
    change Rplus with (mpi_op CSum). rewrite fold_tot by (cbn; ring). reflexivity. }
  clear. induction ranks as [|r ranks IH]; cbn [map concat flat_map]; [reflexivity|].
  rewrite flat_map_app, tot_app, <- IH. reflexivity.
Qed.
Lemma total_of_nodes (f : node_data -> R) ranks ps dom l :
  Permutation (concat (map snd ranks)) ps -> tiles (map pbox ps) dom -> Forall (holds G E nR) ps -> enumerates l dom nR ->
  grid_total (fun p => node_sum nR f p 0) ranks 0 = total (fun n => f (G n)) l.
Proof.
  intros P T H L. rewrite (grid_total_val _ (fun p => map (fun n => f (G n)) (map (glob (pbox p)) (interior (pbox p) nR)))).
  - rewrite <- (tot_total CSum) by congruence. apply tot_perm.
    replace (flat_map _ _) with (map (fun n => f (G n)) (gnodes nR (concat (map snd ranks)))).
    + apply Permutation_map. eapply gnodes_perm; eauto.
    + unfold gnodes. rewrite !flat_map_concat_map, concat_map, map_map. reflexivity.
  - intros p Hp. rewrite node_sum_val, holds_node; [ring|]. rewrite Forall_forall in H. apply H. eapply Permutation_in; [exact P|exact Hp].
Qed.
Lemma total_of_both (f : node_data -> R) (e : edge_data -> R) ranks ps dom l l' :
  Permutation (concat (map snd ranks)) ps -> tiles (map pbox ps) dom -> Forall (holds G E nR) ps ->
  enumerates l dom nR -> enumerates l' dom (nR + 1) ->
  grid_total (fun p => edge_sum nR e p (node_sum nR f p 0)) ranks 0 = (total (fun n => f (G n)) l + total (fun n => e (E n)) l')%R.
Proof.
  intros P T H L L'.
  rewrite (grid_total_val _ (fun p => map (fun n => f (G n)) (map (glob (pbox p)) (interior (pbox p) nR)) ++
     map (fun n => e (E n)) (map (glob (pbox p)) (interior (pbox p) (nR + 1))))).
  - transitivity (tot CSum (map (fun n => f (G n)) (gnodes nR (concat (map snd ranks))) ++
      map (fun n => e (E n)) (gnodes (nR + 1) (concat (map snd ranks))))).
    + unfold gnodes. generalize (concat (map snd ranks)). intros q. induction q as [|p q IH]; cbn [flat_map map app]; [reflexivity|].
      rewrite !map_app, !tot_app, IH, !tot_app. cbn [mpi_op]. ring.
    + rewrite tot_app. cbn [mpi_op]. f_equal; rewrite <- (tot_total CSum) by congruence; apply tot_perm, Permutation_map; eapply gnodes_perm; eauto.
  - intros p Hp. assert (holds G E nR p) as Hh by (rewrite Forall_forall in H; apply H; eapply Permutation_in; [exact P|exact Hp]).
    rewrite edge_sum_val, node_sum_val, holds_node, holds_edge, tot_app by assumption. cbn [mpi_op]. ring.
Qed.
End Fields.

(** ** Checksums *)
Lemma update_len a c f : (Z.to_nat c < length a)%nat -> length (update a c f) = length a.
Proof. intros. unfold update. apply upd_len. assumption. Qed.
Lemma update_nth a c f m : (Z.to_nat c < length a)%nat ->
  nth m (update a c f) 0%R = if (m =? Z.to_nat c)%nat then f (nth m a 0%R) else nth m a 0%R.
Proof.
  intros. unfold update. rewrite upd_nth by assumption. destruct (Nat.eqb_spec m (Z.to_nat c)) as [->|]; reflexivity.
Qed.
Section Loops.
Context (t : checksum_type) (Ht : t <> COther).
Definition loop_ok (n : nat) (loop : list R -> Z -> list R) (it : Z -> list R) : Prop :=
  forall a c, length a = n -> 0 <= c < Z.of_nat n -> length (loop a c) = n /\
    forall m, nth m (loop a c) 0%R = if (m =? Z.to_nat c)%nat then fold_left (mpi_op t) (it c) (nth m a 0%R) else nth m a 0%R.
Lemma gen_loop n (V A : Z -> Z -> Z -> Z -> R) (L : list (Z * Z * Z)) :
  loop_ok n (fun a c => fold_left (fun a x => let '(i, j, k) := x in
      update a c (fun x => accumulate t x (V i j k c) (A i j k c))) L a)
    (fun c => map (fun x => weight t (V (fst (fst x)) (snd (fst x)) (snd x) c) (A (fst (fst x)) (snd (fst x)) (snd x) c)) L).
Proof.
  intros a c Ha Hc. revert a Ha. induction L as [|[[i j] k] L IH]; intros a Ha; cbn [fold_left map].
  - split; [exact Ha|]. intros m. destruct (m =? _)%nat; reflexivity.
  - destruct (IH (update a c (fun x => accumulate t x (V i j k c) (A i j k c)))) as (I1 & I2); [rewrite update_len; lia|].
    split; [exact I1|]. intros m. rewrite I2, update_nth by lia. destruct (m =? Z.to_nat c)%nat; [|reflexivity].
    rewrite accumulate_op by exact Ht. reflexivity.
Qed.
Lemma vars_loop n loop it : loop_ok n loop it -> forall cs a, NoDup cs -> (forall c, In c cs -> 0 <= c < Z.of_nat n) -> length a = n ->
  length (fold_left loop cs a) = n /\
  forall m, nth m (fold_left loop cs a) 0%R =
    if existsb (Z.eqb (Z.of_nat m)) cs then fold_left (mpi_op t) (it (Z.of_nat m)) (nth m a 0%R) else nth m a 0%R.
Proof.
  intros H cs. induction cs as [|c cs IH]; intros a N R L; cbn [fold_left existsb]; [auto|].
  inversion_clear N as [|? ? Nc N']. destruct (H a c L (R c (or_introl eq_refl))) as (L1 & V1).
  destruct (IH (loop a c) N' (fun c' Hc' => R c' (or_intror Hc')) L1) as (L2 & V2). split; [exact L2|].
  intros m. rewrite V2, V1. pose proof (R c (or_introl eq_refl)). destruct (Z.eqb_spec (Z.of_nat m) c) as [<-|Q]; cbn [orb].
  - replace (existsb (Z.eqb (Z.of_nat m)) cs) with false.
    + rewrite Nat2Z.id, Nat.eqb_refl. reflexivity.
    + symmetry. apply not_true_is_false. intros E. apply existsb_exists in E as (x & Hx & E). apply Nc. replace (Z.of_nat m) with x by lia. exact Hx.
  - replace (m =? Z.to_nat c)%nat with false by (symmetry; apply Nat.eqb_neq; lia). reflexivity.
Qed.
Definition items (d : data_type) (locs : list Z) (nR : Z) (p : patch) (m : Z) : list R :=
  match d with
  | DTracers => map (fun n => let x := pnode p (fst (fst n)) (snd (fst n)) (snd n) in weight t (nd_tracer x m) (nd_area x)) (interior (pbox p) nR)
  | _ => if nth (Z.to_nat m) locs 0 =? loc_node
         then map (fun n => let x := pnode p (fst (fst n)) (snd (fst n)) (snd n) in weight t (nd_state x m) (nd_area x)) (interior (pbox p) nR)
         else map (fun n => let x := pedge p (fst (fst n)) (snd (fst n)) (snd n) in weight t (ed_state x m) (ed_area x)) (interior (pbox p) (nR + 1))
  end.
Definition rows (d : data_type) (locs : list Z) (ntr : Z) : nat := match d with DTracers => Z.to_nat ntr | _ => length locs end.
Definition okdata (d : data_type) (locs : list Z) (ntr : Z) : Prop :=
  match d with DState => forall l, In l locs -> l = loc_node \/ l = loc_redge | DTracers => 0 <= ntr | DOther => False end.
Lemma existsb_filter m (f : Z -> bool) n : existsb (Z.eqb m) (filter f (zseq n)) = (0 <=? m) && (m <? n) && f m.
Proof.
  destruct ((0 <=? m) && (m <? n) && f m) eqn:B.
  - apply andb_prop in B as (B & Bf). apply existsb_exists. exists m. split; [|apply Z.eqb_refl]. apply filter_In. rewrite zseq_In. split; [lia|exact Bf].
  - apply not_true_is_false. intros H. apply existsb_exists in H as (x & Hx & Q). apply filter_In in Hx as (Hx & Fx). apply zseq_In in Hx.
    assert (x = m) as -> by lia. rewrite Fx in B. lia.
Qed.
Lemma existsb_zseq m n : existsb (Z.eqb m) (zseq n) = (0 <=? m) && (m <? n).
Proof.
  destruct ((0 <=? m) && (m <? n)) eqn:B.
  - apply existsb_exists. exists m. rewrite zseq_In. lia.
  - apply not_true_is_false. intros H. apply existsb_exists in H as (x & Hx & Q). apply zseq_In in Hx. lia.
Qed.
Lemma patch_val d locs ntr nR p a : okdata d locs ntr -> length a = rows d locs ntr ->
  exists a', patch_checksum locs ntr nR d t p a = VOk a' /\ length a' = rows d locs ntr /\
    forall m, (m < rows d locs ntr)%nat -> nth m a' 0%R = fold_left (mpi_op t) (items d locs nR p (Z.of_nat m)) (nth m a 0%R).
Proof.
  intros K La. destruct d; cbn [okdata rows] in *.
  - unfold patch_checksum. set (at_ := fun l => filter (fun c => nth (Z.to_nat c) locs 0 =? l) (zseq (Z.of_nat (length locs)))).
    assert (forallb (fun l => (l =? loc_node) || (l =? loc_redge)) locs = true) as ->.
    { apply forallb_forall. intros l Hl. destruct (K l Hl) as [->| ->]; reflexivity. }
    replace (length a <? length locs)%nat with false by (symmetry; apply Nat.ltb_ge; lia).
    assert (forall l c, In c (at_ l) -> 0 <= c < Z.of_nat (length locs)) as R.
    { intros l c Hc. apply filter_In in Hc as (Hc & _). apply zseq_In in Hc. lia. }
    assert (forall l, NoDup (at_ l)) as N by (intros; apply NoDup_filter, zseq_NoDup).
    destruct (vars_loop (length locs) _ _ (gen_loop (length locs)
      (fun i j k c => nd_state (pnode p i j k) c) (fun i j k c => nd_area (pnode p i j k)) (interior (pbox p) nR)) (at_ loc_node) a (N _) (R _) La) as (L1 & V1).
    destruct (vars_loop (length locs) _ _ (gen_loop (length locs)
      (fun i j k c => ed_state (pedge p i j k) c) (fun i j k c => ed_area (pedge p i j k)) (interior (pbox p) (nR + 1))) (at_ loc_redge) _ (N _) (R _) L1) as (L2 & V2).
    eexists. split; [destruct t; [reflexivity..|congruence]|]. split; [exact L2|].
    intros m Hm. rewrite V2, V1. unfold at_. rewrite !existsb_filter, !Nat2Z.id. cbn [items]. rewrite Nat2Z.id.
    replace ((0 <=? Z.of_nat m) && (Z.of_nat m <? Z.of_nat (length locs))) with true by lia. cbn [andb].
    destruct (K (nth m locs 0) (nth_In _ _ Hm)) as [->| ->]; reflexivity.
  - unfold patch_checksum. replace (Z.of_nat (length a) <? ntr) with false by lia.
    destruct (vars_loop (Z.to_nat ntr) _ _ (gen_loop (Z.to_nat ntr)
      (fun i j k c => nd_tracer (pnode p i j k) c) (fun i j k c => nd_area (pnode p i j k)) (interior (pbox p) nR)) (zseq ntr) a (zseq_NoDup _)) as (L1 & V1).
    { intros c Hc. apply zseq_In in Hc. lia. }
    { exact La. }
    eexists. split; [destruct t; [reflexivity..|congruence]|]. split; [exact L1|].
    intros m Hm. rewrite V1, existsb_zseq. replace ((0 <=? Z.of_nat m) && (Z.of_nat m <? ntr)) with true by lia. reflexivity.
  - destruct K.
Qed.
Lemma rank_val d locs ntr nR : okdata d locs ntr -> forall ps a, length a = rows d locs ntr ->
  exists a', rank_checksum locs ntr nR d t ps a = VOk a' /\ length a' = rows d locs ntr /\
    forall m, (m < rows d locs ntr)%nat ->
      nth m a' 0%R = fold_left (mpi_op t) (flat_map (fun p => items d locs nR p (Z.of_nat m)) ps) (nth m a 0%R).
Proof.
  intros K ps. induction ps as [|p ps IH]; intros a La; cbn [rank_checksum flat_map].
  - exists a. split; [reflexivity|]. split; [exact La|]. reflexivity.
  - destruct (patch_val d locs ntr nR p a K La) as (a1 & -> & L1 & V1). destruct (IH a1 L1) as (a2 & -> & L2 & V2).
    exists a2. split; [reflexivity|]. split; [exact L2|]. intros m Hm. rewrite V2, V1, fold_left_app by exact Hm. reflexivity.
Qed.
Lemma reduce_val n : forall ls a, length a = n -> Forall (fun l => length l = n) ls ->
  let r := fold_left (fun a b => map (fun xy => mpi_op t (fst xy) (snd xy)) (combine a b)) ls a in
  length r = n /\ forall m, (m < n)%nat -> nth m r 0%R = fold_left (mpi_op t) (map (fun l => nth m l 0%R) ls) (nth m a 0%R).
Proof.
  induction ls as [|l ls IH]; intros a La F; cbn [fold_left map]; [auto|]. inversion_clear F as [|? ? Fl F'].
  destruct (IH (map (fun xy => mpi_op t (fst xy) (snd xy)) (combine a l))) as (I1 & I2); [rewrite map_length, combine_length; lia|exact F'|].
  split; [exact I1|]. intros m Hm. cbn zeta in I2. rewrite I2 by exact Hm. f_equal.
  rewrite (nth_indep _ 0%R (mpi_op t (fst (0, 0)) (snd (0, 0)))%R) by (rewrite map_length, combine_length; lia).
  rewrite (map_nth (fun xy => mpi_op t (fst xy) (snd xy))), combine_nth by lia. reflexivity.
Qed.
Lemma sequence_val d locs ntr nR : okdata d locs ntr -> forall ranks,
  exists ls, sequence (map (fun ps => rank_checksum locs ntr nR d t ps (repeat 0%R (rows d locs ntr))) ranks) = VOk ls /\
    Forall (fun l => length l = rows d locs ntr) ls /\ length ls = length ranks /\
    forall m, (m < rows d locs ntr)%nat -> map (fun l => nth m l 0%R) ls = map (fun ps => tot t (flat_map (fun p => items d locs nR p (Z.of_nat m)) ps)) ranks.
Proof.
  intros K ranks. induction ranks as [|ps ranks (ls & I1 & I2 & I3 & I4)]; cbn [map sequence].
  - exists []. split; [reflexivity|]. split; [constructor|]. split; reflexivity.
  - destruct (rank_val d locs ntr nR K ps (repeat 0%R (rows d locs ntr)) (repeat_length _ _)) as (a & -> & La & Va). rewrite I1.
    exists (a :: ls). split; [reflexivity|]. split; [constructor; assumption|]. split; [cbn; lia|].
    intros m Hm. cbn [map]. rewrite I4, Va, nth_repeat, fold_tot0 by exact Hm. reflexivity.
Qed.
Lemma tot_tot {A} (f : A -> list R) l : tot t (map (fun x => tot t (f x)) l) = tot t (flat_map f l).
Proof.
  induction l as [|x l IH]; [reflexivity|]. cbn [flat_map map]. rewrite tot_app, <- IH. reflexivity.
Qed.
Lemma grid_val d locs ntr nR ranks : okdata d locs ntr -> ranks <> [] ->
  exists r, grid_checksum locs ntr nR d t ranks = VOk r /\ length r = rows d locs ntr /\
    forall m, (m < rows d locs ntr)%nat ->
      let x := tot t (flat_map (fun p => items d locs nR p (Z.of_nat m)) (concat ranks)) in
      nth m r 0%R = match t with CL2 => sqrt x | _ => x end.
Proof.
  intros K Hr. destruct (sequence_val d locs ntr nR K ranks) as (ls & I1 & I2 & I3 & I4).
  destruct ls as [|a ls]; [destruct ranks; [congruence|cbn in I3; lia]|]. inversion_clear I2 as [|? ? La Fl].
  destruct (reduce_val (rows d locs ntr) ls a La Fl) as (R1 & R2).
  set (r := mpi_reduce t (a :: ls)).
  assert (forall m, (m < rows d locs ntr)%nat -> nth m r 0%R = tot t (flat_map (fun p => items d locs nR p (Z.of_nat m)) (concat ranks))) as Hm.
  { intros m Hm. unfold r, mpi_reduce. rewrite R2 by exact Hm. specialize (I4 m Hm). cbn [map] in I4.
    destruct ranks as [|ps ranks]; [congruence|]. cbn [map] in I4. injection I4 as E1 E2. rewrite E1, E2.
    rewrite fold_tot by (rewrite op_comm; apply tot_zero). cbn [concat]. rewrite flat_map_app, tot_app. f_equal.
    rewrite tot_tot. f_equal. clear. induction ranks as [|q ranks IH]; cbn [flat_map concat]; [reflexivity|].
    rewrite flat_map_app, IH. reflexivity. }
  exists (match t with CL2 => map sqrt r | _ => r end). split; [|split].
  - unfold grid_checksum. fold (rows d locs ntr). rewrite I1. destruct d; [reflexivity..|destruct K].
  - destruct t; try exact R1. rewrite map_length. exact R1.
  - intros m Hl. specialize (Hm m Hl). cbv zeta. destruct t; try exact Hm.
    rewrite (nth_indep _ 0%R (sqrt 0)) by (rewrite map_length; unfold r, mpi_reduce; lia). rewrite map_nth, Hm. reflexivity.
Qed.
End Loops.
Lemma weight_reduction {A} t (f w : A -> R) l : t <> COther ->
  let x := tot t (map (fun n => weight t (f n) (w n)) l) in
  reduction t f w l (match t with CL2 => sqrt x | _ => x end).
Proof.
  intros Ht. destruct t; cbn [reduction weight]; try congruence.
  - apply tot_total. congruence.
  - apply tot_total. congruence.
  - rewrite tot_total by congruence. f_equal. apply total_ext. intros; ring.
  - apply tot_max.
Qed.
(** distribution of patches by rank number *)
Lemma distribute_perm {A} (d : A) (ps : list A) size order : 0 < size -> Permutation order (zseq size) ->
  Permutation (concat (map (fun r => map (fun n => nth (Z.to_nat n) ps d) (activated (Z.of_nat (length ps)) size r)) order)) ps.
Proof.
  intros Hs P.
  assert (Permutation (concat (map (fun r => activated (Z.of_nat (length ps)) size r) order)) (zseq (Z.of_nat (length ps)))) as Q.
  { eapply Permutation_trans; [rewrite <- flat_map_concat_map; apply Permutation_flat_map; exact P|].
    apply NoDup_Permutation; [|apply zseq_NoDup|].
    - apply NoDup_flat_map; [intros; apply NoDup_filter, zseq_NoDup|].
      intros k k' a a' x Hk Hk' Hx Hx'. apply filter_In in Hx as (_ & Hx). apply filter_In in Hx' as (_ & Hx').
      assert (a' = a) as -> by lia. eapply NoDup_nth_error_inj; eauto. apply zseq_NoDup.
    - intros x. rewrite in_flat_map, zseq_In. split.
      + intros (r & _ & Hx). apply filter_In in Hx as (Hx & _). apply zseq_In in Hx. exact Hx.
      + intros Hx. exists (Z.rem x size). rewrite zseq_In. split; [pose proof (Z.rem_bound_pos x size); lia|].
        apply filter_In. rewrite zseq_In. split; [exact Hx|]. apply Z.eqb_refl. }
  apply (Permutation_map (fun n => nth (Z.to_nat n) ps d)) in Q. rewrite concat_map, map_map in Q.
  eapply Permutation_trans; [exact Q|]. unfold zseq. rewrite Nat2Z.id, map_map.
  replace (map (fun x => nth (Z.to_nat (Z.of_nat x)) ps d) (seq 0 (length ps))) with ps; [reflexivity|].
  clear. rewrite (map_ext _ (fun x => nth x ps d)) by (intros; rewrite Nat2Z.id; reflexivity).
  induction ps as [|p ps IH]; cbn [length seq map nth]; [reflexivity|]. f_equal. rewrite <- seq_shift, map_map. exact IH.
Qed.
