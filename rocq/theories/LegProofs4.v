(** Lemmas: the loops that look for the roots. *)
From Coq Require Import ZArith Reals List Bool Permutation Lia Lra Psatz.
From Verif Require Import QuadSpec InterpSpec InterpProofs LegModel LegSpec LegProofs LegProofs2 LegProofs3.
Import ListNotations.
Local Open Scope R_scope.

(** ** sorting *)
Lemma insert_perm x l : Permutation (insert x l) (x :: l).
Proof. induction l as [|y l IH]; cbn [insert]; [reflexivity|]. destruct (Rle_dec x y); [reflexivity|]. rewrite IH. apply perm_swap. Qed.
Lemma sort_perm l : Permutation (sort l) l.
Proof. induction l as [|x l IH]; cbn [sort fold_right]; [reflexivity|]. change (fold_right insert [] l) with (sort l). rewrite insert_perm, IH. reflexivity. Qed.
Lemma ascending_cons a l : ascending (a :: l) <-> (forall b, In b l -> a <= b) /\ ascending l.
Proof.
  revert a. induction l as [|c l IH]; intros a; cbn [ascending]; [split; [intros; split; [intros b []|exact I]|auto]|].
  change ((a <= c /\ ascending (c :: l)) <-> (forall b, In b (c :: l) -> a <= b) /\ ascending (c :: l)). split; intros (H1 & H2); split; auto.
  - intros b [<-|Hb]; [exact H1|]. apply IH in H2. destruct H2 as (H2 & _). specialize (H2 b Hb). lra.
  - apply H1. left. reflexivity.
Qed.
Lemma insert_ascending x l : ascending l -> ascending (insert x l).
Proof.
  induction l as [|y l IH]; intros H; cbn [insert]; [exact I|]. destruct (Rle_dec x y) as [E|E].
  - apply ascending_cons. split; [|exact H]. intros b [<-|Hb]; [exact E|]. apply ascending_cons in H. destruct H as (H & _). specialize (H b Hb). lra.
  - apply ascending_cons in H. destruct H as (H1 & H2). apply ascending_cons. split; [|apply IH, H2].
    intros b Hb. apply (Permutation_in _ (insert_perm x l)) in Hb. destruct Hb as [<-|Hb]; [lra|apply H1, Hb].
Qed.
Lemma sort_ascending l : ascending (sort l).
Proof. induction l as [|x l IH]; cbn [sort fold_right]; [exact I|]. apply insert_ascending, IH. Qed.
Lemma ascending_unique l : forall l', Permutation l l' -> ascending l -> ascending l' -> l = l'.
Proof.
  induction l as [|a l IH]; intros l' P H H'; [apply Permutation_nil in P; congruence|].
  destruct l' as [|b l']; [symmetry in P; apply Permutation_nil in P; discriminate P|].
  apply ascending_cons in H. apply ascending_cons in H'. destruct H as (H1 & H2). destruct H' as (H1' & H2').
  assert (a = b) as ->.
  { assert (In b (a :: l)) as [->|Hb] by (apply (Permutation_in _ (Permutation_sym P)); left; reflexivity); [reflexivity|].
    assert (In a (b :: l')) as [->|Ha] by (apply (Permutation_in _ P); left; reflexivity); [reflexivity|]. specialize (H1 b Hb). specialize (H1' a Ha). lra. }
  f_equal. apply IH; try assumption. apply (Permutation_cons_inv P).
Qed.
Lemma ascending_app l a : ascending l -> (forall b, In b l -> b <= a) -> ascending (l ++ [a]).
Proof.
  induction l as [|c l IH]; intros H Hb; [exact I|]. apply ascending_cons in H. destruct H as (H1 & H2). cbn [app]. apply ascending_cons. split.
  - intros b Hi. apply in_app_or in Hi. destruct Hi as [Hi|[<-|[]]]; [apply H1, Hi|apply Hb; left; reflexivity].
  - apply IH; [exact H2|]. intros b Hi. apply Hb. right. exact Hi.
Qed.
Lemma ascending_mirror l : ascending l -> ascending (map Ropp (rev l)).
Proof.
  induction l as [|a l IH]; intros H; [exact I|]. apply ascending_cons in H. destruct H as (H1 & H2). cbn [rev]. rewrite map_app. apply ascending_app; [apply IH, H2|].
  intros b Hb. apply in_map_iff in Hb. destruct Hb as (c & <- & Hc). apply in_rev in Hc. specialize (H1 c Hc). lra.
Qed.
Lemma opp_opp l : map Ropp (map Ropp l) = l.
Proof. rewrite map_map, <- (map_id l) at 1. rewrite map_id. rewrite <- (map_id l) at 2. apply map_ext. intros. ring. Qed.
Lemma sort_symmetric l : symmetric l -> symmetric (sort l).
Proof.
  intros S. unfold symmetric in *.
  assert (map Ropp (rev (sort l)) = sort l) as E.
  { apply ascending_unique; [|apply ascending_mirror, sort_ascending|apply sort_ascending].
    rewrite <- (Permutation_rev (sort l)), sort_perm. rewrite <- S. symmetry. apply Permutation_rev. }
  rewrite <- E at 2. rewrite opp_opp. reflexivity.
Qed.
Lemma symmetric_nth l : symmetric l <-> forall k, (k < length l)%nat -> nth (length l - S k) l 0 = - nth k l 0.
Proof.
  unfold symmetric. split.
  - intros E k Hk. rewrite <- (rev_nth l 0 Hk), E. rewrite <- Ropp_0 at 1. apply map_nth.
  - intros H. apply (nth_ext _ _ 0 0); [rewrite rev_length, map_length; reflexivity|]. intros k Hk. rewrite rev_length in Hk. rewrite rev_nth, H by exact Hk. rewrite <- Ropp_0 at 2. rewrite map_nth. reflexivity.
Qed.
(** ** one pass *)
Fixpoint pull (r : nat -> R) (k : nat) (ls : list nat) : option R :=
  match ls with
  | [] => Some 0
  | l :: t => if (l =? k)%nat then pull r k t else match over 1 (r k - r l), pull r k t with Some q, Some s => Some (q + s) | _, _ => None end
  end.
Lemma repulsion_pull n r k : repulsion n r k = pull r k (seq 0 n).
Proof.
  unfold repulsion.
  assert (forall ls a, fold_left (fun m l => match m with Some m => if (l =? k)%nat then Some m else match over 1 (r k - r l) with Some q => Some (m + q) | None => None end | None => None end) ls (Some a)
    = match pull r k ls with Some s => Some (a + s) | None => None end) as G.
  { assert (forall ls, fold_left (fun m l => match m with Some m => if (l =? k)%nat then Some m else match over 1 (r k - r l) with Some q => Some (m + q) | None => None end | None => None end) ls None = None) as N
      by (induction ls; [reflexivity|assumption]).
    induction ls as [|l ls IH]; intros a; cbn [fold_left pull]; [f_equal; ring|]. destruct (l =? k)%nat; [apply IH|].
    destruct (over 1 (r k - r l)) as [q|]; [|apply N]. rewrite IH. destruct (pull r k ls); [f_equal; ring|reflexivity]. }
  rewrite G. destruct (pull r k (seq 0 n)); [f_equal; ring|reflexivity].
Qed.
Lemma pull_perm r k l l' : Permutation l l' -> pull r k l = pull r k l'.
Proof.
  induction 1 as [|x l l' _ IH|x y l|l l' l'' _ IH1 _ IH2]; cbn [pull]; [reflexivity|rewrite IH; reflexivity| |congruence].
  destruct (x =? k)%nat, (y =? k)%nat; try reflexivity. destruct (over 1 (r k - r x)), (over 1 (r k - r y)), (pull r k l); try reflexivity. f_equal. ring.
Qed.
Lemma over_opp a b : over a (- b) = option_map Ropp (over a b).
Proof. unfold over. destruct (Req_EM_T (- b) 0), (Req_EM_T b 0); try lra; [reflexivity|]. cbn. f_equal. field. assumption. Qed.
Lemma over_opp_l a b : over (- a) b = option_map Ropp (over a b).
Proof. unfold over. destruct (Req_EM_T b 0); [reflexivity|]. cbn. f_equal. field. assumption. Qed.
Lemma pull_mirror n r k : (forall l, (l < n)%nat -> r (n - S l)%nat = - r l) -> (k < n)%nat -> pull r (n - S k) (seq 0 n) = option_map Ropp (pull r k (seq 0 n)).
Proof.
  intros M Hk.
  assert (forall ls, (forall l, In l ls -> (l < n)%nat) -> pull r (n - S k) (map (fun l => n - S l)%nat ls) = option_map Ropp (pull r k ls)) as G.
  { induction ls as [|l ls IH]; intros H; cbn [map pull]; [cbn; f_equal; ring|]. rewrite IH by (intros; apply H; right; assumption). specialize (H l (or_introl eq_refl)).
    replace (n - S l =? n - S k)%nat with (l =? k)%nat by (destruct (Nat.eqb_spec l k), (Nat.eqb_spec (n - S l) (n - S k)); try reflexivity; lia).
    destruct (l =? k)%nat; [reflexivity|]. rewrite !M by assumption. replace (- r k - - r l) with (- (r k - r l)) by ring. rewrite over_opp.
    destruct (over 1 (r k - r l)), (pull r k ls); cbn; try reflexivity. f_equal. ring. }
  rewrite <- (G (seq 0 n)) by (intros l Hl; apply in_seq in Hl; lia). apply pull_perm.
  apply NoDup_Permutation; [apply seq_NoDup| |].
  -
    assert (forall ls, NoDup ls -> (forall l, In l ls -> (l < n)%nat) -> NoDup (map (fun l => n - S l)%nat ls)) as ND.
    { induction ls as [|l ls IH]; intros H B; [constructor|]. inversion H as [|? ? N H']; subst. cbn. constructor; [|apply IH; [exact H'|intros; apply B; right; assumption]].
      intros C. apply in_map_iff in C. destruct C as (a & Ea & Ha). apply N. replace l with a; [exact Ha|]. pose proof (B a (or_intror Ha)). pose proof (B l (or_introl eq_refl)). lia. }
    apply ND; [apply seq_NoDup|]. intros l Hl. apply in_seq in Hl. lia.
  - intros l. rewrite in_map_iff, in_seq. split.
    + intros H. exists (n - S l)%nat. split; [lia|]. apply in_seq. lia.
    + intros (a & <- & Ha). apply in_seq in Ha. lia.
Qed.
(** what the test does with the opposite of an estimate *)
Definition odd_test (test : R -> option (R * option R)) : Prop :=
  exists s, s * s = 1 /\ forall x, test (- x) = match test x with Some (f, q) => Some (s * f, option_map Ropp q) | None => None end.
Lemma m1_cases n : (-1) ^ n = 1 \/ (-1) ^ n = -1.
Proof. induction n as [|n [H|H]]; cbn [pow]; [left; reflexivity|right; rewrite H; ring|left; rewrite H; ring]. Qed.
Lemma over_scale s a b : s * s = 1 -> over (- s * a) (s * b) = option_map Ropp (over a b).
Proof.
  intros Hs. assert (s <> 0) by (intros ->; lra). unfold over. destruct (Req_EM_T (s * b) 0) as [E|E], (Req_EM_T b 0) as [F|F]; cbn.
  - reflexivity.
  - exfalso. apply Rmult_integral in E. tauto.
  - exfalso. apply E. rewrite F. ring.
  - f_equal. field. split; assumption.
Qed.
Lemma value_odd n : (0 <= n)%Z -> odd_test (value_test n).
Proof.
  intros Hn. exists ((-1) ^ Z.to_nat n). split; [apply m1_sq|]. intros x. unfold value_test. rewrite !evaluate_ok by exact Hn.
  destruct (parity (Z.to_nat n) x) as (-> & ->). f_equal. f_equal. rewrite <- (over_scale ((-1) ^ Z.to_nat n)) by apply m1_sq. cbn [pow]. f_equal. ring.
Qed.
Lemma slope_odd n : (0 <= n)%Z -> odd_test (slope_test n).
Proof.
  intros Hn. exists ((-1) ^ S (Z.to_nat n)). split; [apply m1_sq|]. intros x. unfold slope_test. rewrite !evaluate_ok by exact Hn.
  destruct (parity (Z.to_nat n) x) as (-> & ->). f_equal. f_equal. replace (- x * - x) with (x * x) by ring.
  destruct (over 1 (1 - x * x)) as [q|]; [|reflexivity]. rewrite <- (over_scale ((-1) ^ S (Z.to_nat n))) by apply m1_sq. cbn [pow]. f_equal. ring.
Qed.
Lemma refine_one_mirror test n r k : odd_test test -> (forall l, (l < n)%nat -> r (n - S l)%nat = - r l) -> (k < n)%nat ->
  refine_one test n r (n - S k) = match refine_one test n r k with Some (y, b) => Some (- y, b) | None => None end.
Proof.
  intros (s & Hs & T) M Hk. unfold refine_one. rewrite M, T by exact Hk. destruct (test (r k)) as [(f & q)|]; [|reflexivity].
  assert (Rabs (s * f) = Rabs f) as -> by (rewrite Rabs_mult; assert (s = 1 \/ s = -1) as [-> | ->] by (assert ((s - 1) * (s + 1) = 0) as Z by lra; apply Rmult_integral in Z; destruct Z; [left|right]; lra); [rewrite Rabs_R1|rewrite Rabs_left by lra]; ring).
  destruct (Rlt_dec (Rabs f) tolerance); [reflexivity|]. rewrite !repulsion_pull, pull_mirror by assumption.
  destruct (pull r k (seq 0 n)) as [m|]; [|reflexivity]. destruct q as [q|]; [|reflexivity]. cbn [option_map]. replace (- q - - m) with (- (q - m)) by ring. rewrite over_opp.
  destruct (over 1 (q - m)); [|reflexivity]. cbn. f_equal. f_equal. ring.
Qed.
Lemma collect_nth {A B} (f : A -> option B) (l : list A) d d' : forall m, collect (map f l) = Some m -> length m = length l /\ forall k, (k < length l)%nat -> f (nth k l d) = Some (nth k m d').
Proof.
  induction l as [|a l IH]; intros m H; cbn [map collect] in H.
  - injection H as <-. split; [reflexivity|]. intros k Hk. cbn in Hk. lia.
  - destruct (f a) as [b|] eqn:E; [|discriminate]. destruct (collect (map f l)) as [r|] eqn:C; [|discriminate]. injection H as <-.
    destruct (IH r eq_refl) as (L1 & L2). split; [cbn; congruence|]. intros [|k] Hk; cbn [nth]; [exact E|]. apply L2. cbn in Hk. lia.
Qed.
Lemma refine_nth test l m d : refine test l = Some m -> length m = length l /\ forall k, (k < length l)%nat -> refine_one test (length l) (fun k => nth k l 0) k = Some (nth k m d).
Proof.
  unfold refine. intros H. destruct (collect_nth _ _ 0%nat d _ H) as (A & B). rewrite seq_length in A, B. split; [exact A|]. intros k Hk. specialize (B k Hk). rewrite seq_nth in B by exact Hk. exact B.
Qed.
Lemma refine_symmetric test l m : odd_test test -> symmetric l -> refine test l = Some m -> symmetric (map fst m).
Proof.
  intros O S H. destruct (refine_nth test l m (0, true) H) as (A & B). apply symmetric_nth. rewrite map_length, A. intros k Hk.
  pose proof (refine_one_mirror test (length l) (fun k => nth k l 0) k O (proj1 (symmetric_nth l) S) Hk) as M. rewrite !B in M by lia.
  change 0 with (fst (0, true)). rewrite !map_nth. destruct (nth k m (0, true)) as (y & b). injection M as ->. reflexivity.
Qed.
Lemma spread_symmetric m : symmetric (spread m).
Proof.
  apply symmetric_nth. unfold spread. rewrite map_length, seq_length. intros k Hk.
  assert (forall j, (j < m)%nat -> nth j (map (fun k => (INR k + 0.5) * 2 / INR m - 1) (seq 0 m)) 0 = (INR j + 0.5) * 2 / INR m - 1) as N.
  { intros j Hj. set (h := fun k => (INR k + 0.5) * 2 / INR m - 1). rewrite (nth_indep (map h (seq 0 m)) 0 (h 0%nat)) by (rewrite map_length, seq_length; exact Hj). rewrite map_nth, seq_nth by exact Hj. reflexivity. }
  rewrite !N by lia. rewrite minus_INR, S_INR by lia. assert (INR m <> 0) by (apply not_0_INR; lia). field_simplify_eq; [lra|assumption].
Qed.
Lemma spread_length m : length (spread m) = m.
Proof. unfold spread. rewrite map_length, seq_length. reflexivity. Qed.
(** ** the loop *)
Definition small (test : R -> option (R * option R)) (x : R) : Prop := exists f q, test x = Some (f, q) /\ Rabs f < tolerance.
Lemma refine_found test l m : refine test l = Some m -> forallb snd m = true -> map fst m = l /\ Forall (small test) l.
Proof.
  intros H F. destruct (refine_nth test l m (0, true) H) as (A & B). rewrite forallb_forall in F.
  assert (forall k, (k < length l)%nat -> fst (nth k m (0, true)) = nth k l 0 /\ small test (nth k l 0)) as K.
  { intros k Hk. specialize (B k Hk). assert (k < length m)%nat as Hm by lia. specialize (F (nth k m (0, true)) (nth_In m (0, true) Hm)). unfold refine_one in B.
    destruct (test (nth k l 0)) as [(f & q)|] eqn:T; [|discriminate]. destruct (Rlt_dec (Rabs f) tolerance) as [R|R].
    - injection B as <-. split; [reflexivity|]. exists f, q. auto.
    - destruct (repulsion _ _ _), q; try discriminate. destruct (over 1 (r0 - r)); [|discriminate]. injection B as B. rewrite <- B in F. discriminate F. }
  split.
  - apply (nth_ext _ _ 0 0); [rewrite map_length; exact A|]. intros k Hk. rewrite map_length in Hk. change 0 with (fst (0, true)) at 1. rewrite map_nth. apply K. lia.
  - apply Forall_forall. intros x Hx. apply (In_nth l x 0) in Hx. destruct Hx as (k & Hk & <-). apply K, Hk.
Qed.
Lemma refine_moving test l m : refine test l = Some m -> forallb snd m = false -> exists x f q, In x l /\ test x = Some (f, q) /\ tolerance <= Rabs f.
Proof.
  intros H F. destruct (refine_nth test l m (0, true) H) as (A & B).
  assert (exists p, In p m /\ snd p = false) as (p & Hp & Sp).
  { clear - F. induction m as [|a m IH]; [discriminate|]. cbn in F. destruct (snd a) eqn:E; [destruct (IH F) as (p & ? & ?); exists p; split; [right|]; assumption|exists a; split; [left; reflexivity|exact E]]. }
  apply (In_nth m p (0, true)) in Hp. destruct Hp as (k & Hk & <-). specialize (B k ltac:(lia)). unfold refine_one in B.
  destruct (test (nth k l 0)) as [(f & q)|] eqn:T; [|discriminate]. destruct (Rlt_dec (Rabs f) tolerance) as [R|R].
  - injection B as B. rewrite <- B in Sp. discriminate.
  - exists (nth k l 0), f, q. split; [apply nth_In; lia|]. split; [exact T|lra].
Qed.
Lemma iterate_ok test fuel : forall l l', iterate test fuel l = Some l' ->
  length l' = length l /\ (odd_test test -> symmetric l -> symmetric l') /\
  (Forall (small test) l' \/ exists t, t 0%nat = l /\ t fuel = l' /\ forall i, (i < fuel)%nat -> exists m, refine test (t i) = Some m /\ t (S i) = map fst m /\ exists x f q, In x (t i) /\ test x = Some (f, q) /\ tolerance <= Rabs f).
Proof.
  induction fuel as [|fuel IH]; intros l l' H; cbn [iterate] in H.
  - injection H as <-. split; [reflexivity|]. split; [auto|]. right. exists (fun _ => l). split; [reflexivity|]. split; [reflexivity|]. intros i Hi. lia.
  - destruct (refine test l) as [m|] eqn:R; [|discriminate]. destruct (forallb snd m) eqn:F.
    + injection H as <-. destruct (refine_found test l m R F) as (-> & Fa). auto.
    + destruct (IH _ _ H) as (A & B & C). destruct (refine_nth test l m (0, true) R) as (Lm & _). rewrite map_length in A.
      split; [congruence|]. split; [intros O S; apply B; [exact O|exact (refine_symmetric test l m O S R)]|].
      destruct C as [C|(t & T0 & T1 & T2)]; [left; exact C|]. right. exists (fun i => match i with O => l | S j => t j end). split; [reflexivity|]. split; [exact T1|].
      intros [|i] Hi; [exists m; split; [exact R|]; split; [exact T0|exact (refine_moving test l m R F)]|apply T2; lia].
Qed.
(** ** what one step is *)
Definition others_prod (r : nat -> R) (k : nat) (ls : list nat) (t : R) : R := fold_right (fun l p => (if (l =? k)%nat then 1 else t - r l) * p) 1 ls.
Lemma pull_derive r k ls m : pull r k ls = Some m -> others_prod r k ls (r k) <> 0 /\ derivable_pt_lim (others_prod r k ls) (r k) (m * others_prod r k ls (r k)).
Proof.
  revert m. induction ls as [|l ls IH]; intros m H; cbn [pull] in H.
  - injection H as <-. unfold others_prod. cbn [fold_right]. split; [lra|]. replace (0 * 1) with 0 by ring. apply derivable_pt_lim_const.
  - assert (forall t, others_prod r k (l :: ls) t = (if (l =? k)%nat then 1 else t - r l) * others_prod r k ls t) as Fo by reflexivity. rewrite Fo.
    destruct (l =? k)%nat.
    + destruct (IH _ H) as (A & B). rewrite Rmult_1_l. split; [exact A|]. apply (derivable_ext (others_prod r k ls)); [intros; rewrite Fo; ring|exact B].
    + destruct (over 1 (r k - r l)) as [q|] eqn:O; [|discriminate]. destruct (pull r k ls) as [s|]; [|discriminate]. injection H as <-. destruct (IH _ eq_refl) as (A & B).
      unfold over in O. destruct (Req_EM_T (r k - r l) 0) as [E|E]; [discriminate|]. injection O as <-.
      split; [apply Rmult_integral_contrapositive_currified; assumption|].
      apply (derivable_ext (fun t => (t - r l) * others_prod r k ls t)); [intros; rewrite Fo; reflexivity|].
      replace ((1 / (r k - r l) + s) * ((r k - r l) * others_prod r k ls (r k))) with ((1 - 0) * others_prod r k ls (r k) + (r k - r l) * (s * others_prod r k ls (r k))) by (field; exact E).
      apply (derivable_pt_lim_mult (fun t => t - r l) (others_prod r k ls)); [|exact B]. apply (derivable_pt_lim_minus id (fun _ => r l)); [apply derivable_pt_lim_id|apply derivable_pt_lim_const].
Qed.
(** the test looks at the function [f] *)
Definition looks_at (test : R -> option (R * option R)) (f : R -> R) : Prop :=
  forall x v q, test x = Some (v, q) -> v = f x /\ forall c, q = Some c -> f x <> 0 /\ derivable_pt_lim f x (c * f x).
Lemma value_looks n : (0 <= n)%Z -> looks_at (value_test n) (L (Z.to_nat n)).
Proof.
  intros Hn x v q. unfold value_test. rewrite evaluate_ok by exact Hn. intros H. injection H as <- <-. split; [reflexivity|]. intros c. unfold over.
  destruct (Req_EM_T (L (Z.to_nat n) x) 0) as [E|E]; [discriminate|]. intros H. injection H as <-. split; [exact E|].
  replace (dL (Z.to_nat n) x / L (Z.to_nat n) x * L (Z.to_nat n) x) with (dL (Z.to_nat n) x) by (field; exact E). apply L_derive.
Qed.
Lemma second n x : exists d2, derivable_pt_lim (dL n) x d2 /\ (1 - x * x) * d2 = 2 * x * dL n x - INR n * (INR n + 1) * L n x.
Proof.
  destruct (poly_diff _ _ (dL_poly n)) as (d & _ & H). exists (d x). split; [apply H|].
  assert ((0 - (1 * x + x * 1)) * dL n x + (1 - x * x) * d x = - (INR n * (INR n + 1)) * L n x) as E; [|lra].
  eapply uniqueness_limite; [|apply L_ode]. apply (derivable_pt_lim_mult (fun t => 1 - t * t) (dL n)); [|apply H].
  apply (derivable_pt_lim_minus (fun _ => 1) (fun t => t * t)); [apply derivable_pt_lim_const|]. apply (derivable_pt_lim_mult id id); apply derivable_pt_lim_id.
Qed.
Lemma slope_looks n : (0 <= n)%Z -> looks_at (slope_test n) (dL (Z.to_nat n)).
Proof.
  intros Hn x v q. unfold slope_test. rewrite evaluate_ok by exact Hn. intros H. injection H as <- <-. split; [reflexivity|]. intros c. unfold over.
  destruct (Req_EM_T (1 - x * x) 0) as [E1|E1]; [discriminate|]. destruct (Req_EM_T (dL (Z.to_nat n) x) 0) as [E|E]; [discriminate|]. intros H. injection H as <-. split; [exact E|].
  destruct (second (Z.to_nat n) x) as (d2 & H2 & E2). rewrite INR_IZR_INZ, Z2Nat.id in E2 by exact Hn.
  replace (1 / (1 - x * x) * (2 * x * dL (Z.to_nat n) x - IZR n * (IZR n + 1) * L (Z.to_nat n) x) / dL (Z.to_nat n) x * dL (Z.to_nat n) x) with d2; [exact H2|].
  apply (Rmult_eq_reg_l (1 - x * x)); [|exact E1]. rewrite E2. field. split; assumption.
Qed.
(** a step is Newton's step for the function divided by the distances to the other estimates *)
Lemma newton_step test f n r k y : looks_at test f -> refine_one test n r k = Some (y, false) ->
  exists d, d <> 0 /\ derivable_pt_lim (fun t => f t / others_prod r k (seq 0 n) t) (r k) d /\ y = r k - f (r k) / others_prod r k (seq 0 n) (r k) / d.
Proof.
  intros T. unfold refine_one. destruct (test (r k)) as [(v & q)|] eqn:E; [|discriminate]. destruct (T _ _ _ E) as (-> & Q).
  destruct (Rlt_dec (Rabs (f (r k))) tolerance); [discriminate|]. rewrite repulsion_pull. destruct (pull r k (seq 0 n)) as [m|] eqn:Pm; [|discriminate].
  destruct q as [q|]; [|discriminate]. destruct (Q q eq_refl) as (N & Df). destruct (pull_derive _ _ _ _ Pm) as (A & B).
  unfold over. destruct (Req_EM_T (q - m) 0) as [F|F]; [discriminate|]. intros H. injection H as <-.
  set (p := others_prod r k (seq 0 n)) in *. exists ((q - m) * (f (r k) / p (r k))). split; [|split].
  - apply Rmult_integral_contrapositive_currified; [exact F|]. unfold Rdiv. apply Rmult_integral_contrapositive_currified; [exact N|apply Rinv_neq_0_compat, A].
  - replace ((q - m) * (f (r k) / p (r k))) with ((q * f (r k) * p (r k) - m * p (r k) * f (r k)) / Rsqr (p (r k))) by (unfold Rsqr; field; exact A).
    apply (derivable_pt_lim_div f p); assumption.
  - field. repeat split; assumption.
Qed.
(** when all the other estimates are roots the step goes to the remaining one *)
Lemma others_all (r rho : nat -> R) n k t : (k < n)%nat -> (forall l, (l < n)%nat -> l <> k -> r l = rho l) -> prodx rho n t = (t - rho k) * others_prod r k (seq 0 n) t.
Proof.
  intros Hk H.
  assert (forall m, (m <= n)%nat -> prodx rho m t = (if (k <? m)%nat then t - rho k else 1) * others_prod r k (seq 0 m) t) as G.
  { induction m as [|m IH]; intros Hm; [cbn; ring|]. cbn [prodx]. rewrite IH by lia. rewrite seq_S. cbn [Nat.add].
    assert (others_prod r k (seq 0 m ++ [m]) t = others_prod r k (seq 0 m) t * (if (m =? k)%nat then 1 else t - r m)) as ->.
    { unfold others_prod. generalize (seq 0 m). intros ls. induction ls as [|a ls IHl]; cbn [app fold_right]; [ring|]. rewrite IHl. ring. }
    destruct (Nat.eqb_spec m k) as [->|N].
    - replace (k <? k)%nat with false by (symmetry; apply Nat.ltb_irrefl). replace (k <? S k)%nat with true by (symmetry; apply Nat.ltb_lt; lia). ring.
    - rewrite (H m) by (try lia; assumption). destruct (Nat.ltb_spec k m), (Nat.ltb_spec k (S m)); try lia; ring. }
  rewrite G by lia. replace (k <? n)%nat with true by (symmetry; apply Nat.ltb_lt; lia). reflexivity.
Qed.
Lemma last_step test f n r rho k y : looks_at test f -> is_poly (S n) f -> distinct n rho -> (forall i, (i < n)%nat -> f (rho i) = 0) ->
  (k < n)%nat -> (forall l, (l < n)%nat -> l <> k -> r l = rho l) -> refine_one test n r k = Some (y, false) -> y = rho k.
Proof.
  intros T Pf Dr Zr Hk Ho. unfold refine_one. destruct (test (r k)) as [(v & q)|] eqn:E; [|discriminate]. destruct (T _ _ _ E) as (-> & Q).
  destruct (Rlt_dec (Rabs (f (r k))) tolerance); [discriminate|]. rewrite repulsion_pull. destruct (pull r k (seq 0 n)) as [m|] eqn:Pm; [|discriminate].
  destruct q as [q|]; [|discriminate]. destruct (Q q eq_refl) as (N & Df). destruct (pull_derive _ _ _ _ Pm) as (A & B).
  unfold over. destruct (Req_EM_T (q - m) 0) as [F|F]; [discriminate|]. intros H. injection H as <-.
  destruct (divide n rho 1 f) as (c & (cp & Lc & Ec) & Eo); [replace (n + 1)%nat with (S n) by lia; exact Pf|exact Dr|exact Zr|].
  assert (forall t, f t = c 0 * ((t - rho k) * others_prod r k (seq 0 n) t)) as Ef.
  { intros t. rewrite Eo, (others_all r rho n k t Hk Ho). replace (c t) with (c 0); [ring|]. rewrite !Ec. destruct cp as [|a [|b u]]; [reflexivity|cbn; ring|cbn in Lc; lia]. }
  set (p := others_prod r k (seq 0 n)) in *.
  assert (q * f (r k) = c 0 * ((1 - 0) * p (r k) + (r k - rho k) * (m * p (r k)))) as D.
  { eapply uniqueness_limite; [exact Df|]. apply (derivable_ext (fun t => c 0 * ((t - rho k) * p t))); [intros; symmetry; apply Ef|].
    apply (derivable_pt_lim_scal (fun t => (t - rho k) * p t)). apply (derivable_pt_lim_mult (fun t => t - rho k) p); [|exact B].
    apply (derivable_pt_lim_minus id (fun _ => rho k)); [apply derivable_pt_lim_id|apply derivable_pt_lim_const]. }
  rewrite Ef in D, N.
  assert (c 0 <> 0) as N0 by (intros C; apply N; rewrite C; ring). assert (r k - rho k <> 0) as N1 by (intros C; apply N; rewrite C; ring).
  assert ((q - m) * (r k - rho k) = 1) as W.
  { apply (Rmult_eq_reg_l (c 0 * p (r k))); [|apply Rmult_integral_contrapositive_currified; assumption]. lra. }
  assert (1 / (q - m) = r k - rho k) as ->; [|ring]. apply (Rmult_eq_reg_l (q - m)); [|exact F]. rewrite W. field. exact F.
Qed.
Lemma pull_some r k ls : (forall l, In l ls -> l <> k -> r k <> r l) -> exists m, pull r k ls = Some m.
Proof.
  induction ls as [|l ls IH]; intros H; cbn [pull]; [eauto|]. destruct (IH ltac:(intros; apply H; [right|]; assumption)) as (m & ->).
  destruct (Nat.eqb_spec l k) as [E|E]; [eauto|]. rewrite over_some; [eauto|]. specialize (H l (or_introl eq_refl) E). lra.
Qed.
Lemma tolerance_pos : 0 < tolerance.
Proof. unfold tolerance. apply Rinv_0_lt_compat, pow_lt. lra. Qed.
Lemma last_step_total test f n r rho k c : looks_at test f -> is_poly (S n) f -> distinct n rho -> (forall i, (i < n)%nat -> f (rho i) = 0) ->
  (k < n)%nat -> (forall l, (l < n)%nat -> l <> k -> r l = rho l) -> tolerance <= Rabs (f (r k)) -> test (r k) = Some (f (r k), Some c) -> refine_one test n r k = Some (rho k, false).
Proof.
  intros T Pf Dr Zr Hk Ho Big Et. pose proof tolerance_pos as TP.
  assert (f (r k) <> 0) as Nf by (intros C; rewrite C, Rabs_R0 in Big; lra).
  destruct (pull_some r k (seq 0 n)) as (m & Pm).
  { intros l Hl N C. apply in_seq in Hl. apply Nf. rewrite C, Ho by (try lia; assumption). apply Zr. lia. }
  destruct (refine_one test n r k) as [(y & b)|] eqn:E.
  - destruct b.
    + unfold refine_one in E. rewrite Et, repulsion_pull, Pm in E. destruct (Rlt_dec (Rabs (f (r k))) tolerance); [lra|]. destruct (over 1 (c - m)); discriminate E.
    + rewrite (last_step test f n r rho k y) by assumption. reflexivity.
  - exfalso. unfold refine_one in E. rewrite Et, repulsion_pull, Pm in E. destruct (Rlt_dec (Rabs (f (r k))) tolerance); [discriminate|].
    unfold over in E. destruct (Req_EM_T (c - m) 0) as [F|F]; [|discriminate]. destruct (T _ _ _ Et) as (_ & Q). destruct (Q c eq_refl) as (N & Df). destruct (pull_derive _ _ _ _ Pm) as (A & B).
    destruct (divide n rho 1 f) as (u & (cp & Lc & Ec) & Eo); [replace (n + 1)%nat with (S n) by lia; exact Pf|exact Dr|exact Zr|].
    assert (forall t, f t = u 0 * ((t - rho k) * others_prod r k (seq 0 n) t)) as Ef.
    { intros t. rewrite Eo, (others_all r rho n k t Hk Ho). replace (u t) with (u 0); [ring|]. rewrite !Ec. destruct cp as [|a [|b v]]; [reflexivity|cbn; ring|cbn in Lc; lia]. }
    set (p := others_prod r k (seq 0 n)) in *.
    assert (c * f (r k) = u 0 * ((1 - 0) * p (r k) + (r k - rho k) * (m * p (r k)))) as D.
    { eapply uniqueness_limite; [exact Df|]. apply (derivable_ext (fun t => u 0 * ((t - rho k) * p t))); [intros; symmetry; apply Ef|].
      apply (derivable_pt_lim_scal (fun t => (t - rho k) * p t)). apply (derivable_pt_lim_mult (fun t => t - rho k) p); [|exact B].
      apply (derivable_pt_lim_minus id (fun _ => rho k)); [apply derivable_pt_lim_id|apply derivable_pt_lim_const]. }
    rewrite Ef in D. replace c with m in D by lra. assert (u 0 * p (r k) = 0) as Z by lra. apply Rmult_integral in Z. destruct Z as [Z|Z]; [|contradiction]. apply N. rewrite Ef, Z. ring.
Qed.
(** ** symmetric rules *)
Lemma map_symmetric {B} (h : R -> B) l : (forall x, h (- x) = h x) -> symmetric l -> rev (map h l) = map h l.
Proof. intros E S. rewrite <- map_rev, S, map_map. apply map_ext. exact E. Qed.
Lemma collect_app {A} (l1 l2 : list (option A)) : collect (l1 ++ l2) = match collect l1, collect l2 with Some a, Some b => Some (a ++ b) | _, _ => None end.
Proof. induction l1 as [|[a|] l1 IH]; cbn; [destruct (collect l2); reflexivity| |reflexivity]. rewrite IH. destruct (collect l1), (collect l2); reflexivity. Qed.
Lemma collect_rev {A} (l : list (option A)) : collect (rev l) = option_map (@rev A) (collect l).
Proof. induction l as [|[a|] l IH]; cbn [rev collect]; [reflexivity| |]; rewrite collect_app, IH; destruct (collect l); reflexivity. Qed.
Lemma collect_symmetric (h : R -> option R) l w : (forall x, h (- x) = h x) -> symmetric l -> collect (map h l) = Some w -> rev w = w.
Proof. intros E S C. pose proof (collect_rev (map h l)) as H. rewrite (map_symmetric h l E S), C in H. injection H as H. symmetry. exact H. Qed.
Lemma gauss_weight_even n x : (0 <= n)%Z -> gauss_weight n (- x) = gauss_weight n x.
Proof.
  intros Hn. unfold gauss_weight. rewrite !evaluate_ok by exact Hn. destruct (parity (Z.to_nat n) x) as (_ & ->). f_equal.
  transitivity ((1 - x * x) * dL (Z.to_nat n) x * dL (Z.to_nat n) x * ((-1) ^ S (Z.to_nat n) * (-1) ^ S (Z.to_nat n))); [ring|]. rewrite m1_sq. ring.
Qed.
Lemma lobatto_weight_even n x : (1 <= n)%Z -> lobatto_weight n (- x) = lobatto_weight n x.
Proof.
  intros Hn. unfold lobatto_weight. rewrite !evaluate_ok by lia. destruct (parity (Z.to_nat (n - 1)) x) as (-> & _). f_equal.
  transitivity (IZR n * (IZR n - 1) * L (Z.to_nat (n - 1)) x * L (Z.to_nat (n - 1)) x * ((-1) ^ (Z.to_nat (n - 1)) * (-1) ^ (Z.to_nat (n - 1)))); [ring|]. rewrite m1_sq. ring.
Qed.
Lemma symmetric_ends l : symmetric l -> symmetric (-1 :: l ++ [1]).
Proof. unfold symmetric. intros S. cbn [rev]. rewrite rev_app_distr. cbn [rev app]. cbn [map]. rewrite map_app, S. cbn [map app]. assert (- -1 = 1) as -> by ring. assert (- (1) = -1) as -> by lra. reflexivity. Qed.
Lemma wsum_app f g1 : forall w1 g2 w2, length g1 = length w1 -> wsum f (g1 ++ g2) (w1 ++ w2) = wsum f g1 w1 + wsum f g2 w2.
Proof. induction g1 as [|a g1 IH]; intros [|b w1] g2 w2 H; cbn in H; try discriminate; cbn [app wsum]; [ring|]. rewrite IH by lia. ring. Qed.
Lemma wsum_rev f g : forall w, length g = length w -> wsum f (rev g) (rev w) = wsum f g w.
Proof. induction g as [|a g IH]; intros [|b w] H; cbn in H; try discriminate; [reflexivity|]. cbn [rev wsum]. rewrite wsum_app by (rewrite !rev_length; lia). rewrite IH by lia. cbn. ring. Qed.
Lemma wsum_odd f g w : length g = length w -> symmetric g -> rev w = w -> (forall x, f (- x) = - f x) -> wsum f g w = 0.
Proof.
  intros Lg S W O. assert (wsum f g w = - wsum f g w) as E; [|lra]. rewrite <- (wsum_rev f g w Lg) at 1. rewrite S, W. clear S W Lg.
  revert w. induction g as [|a g IH]; intros [|b w]; cbn [map wsum]; try ring. rewrite IH, O. ring.
Qed.
Lemma collect_length {A B} (h : A -> option B) l w : collect (map h l) = Some w -> length w = length l.
Proof. revert w. induction l as [|a l IH]; intros w H; cbn in H; [injection H as <-; reflexivity|]. destruct (h a); [|discriminate]. destruct (collect (map h l)); [|discriminate]. injection H as <-. cbn. f_equal. apply IH. reflexivity. Qed.
Lemma legendre_test n c x v q : (0 <= n)%Z -> legendre (Z.to_nat n) c -> value_test n x = Some (v, q) -> v = peval c x.
Proof. intros Hn Hc H. destruct (value_looks n Hn _ _ _ H) as (-> & _). symmetry. apply legendre_L, Hc. Qed.
