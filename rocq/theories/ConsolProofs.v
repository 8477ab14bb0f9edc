(** Lemmas for C32. *)
From Coq Require Import ZArith List Bool Lia Permutation ListDec.
From Verif Require Import ConsolModel ConsolSpec.
Import ListNotations.
Local Open Scope Z_scope.

Lemma key_eq t l : key t l = 4 * t + l.
Proof. unfold key. rewrite Z.shiftl_mul_pow2 by lia. lia. Qed.
Lemma key_inj t l t' l' : 0 <= l <= 3 -> 0 <= l' <= 3 -> key t l = key t' l' -> t = t' /\ l = l'.
Proof. rewrite !key_eq. lia. Qed.

Lemma find_app m m' k : find (m ++ m') k = match find m k with Some i => Some i | None => find m' k end.
Proof.
  unfold find. induction m as [|e m IH]; [reflexivity|]. cbn. destruct (fst e =? k); [reflexivity|exact IH].
Qed.
Lemma find_some m k i : find m k = Some i -> In (k, i) m.
Proof.
  unfold find. destruct (List.find _ m) as [e|] eqn:E; [|discriminate]. intros [= <-].
  apply find_some in E. destruct E as (I&K). apply Z.eqb_eq in K. subst. destruct e; exact I.
Qed.
Lemma find_none m k : find m k = None <-> ~ In k (map fst m).
Proof.
  unfold find. induction m as [|e m IH]; cbn; [tauto|]. destruct (Z.eqb_spec (fst e) k); [split; [discriminate|tauto]|].
  rewrite IH. tauto.
Qed.
Definition keys (ts : list (Z * Z)) : list Z := map (fun p => key (fst p) (snd p)) ts.
Lemma build_ok ts m i : NoDup (keys ts) -> (forall k, In k (keys ts) -> ~ In k (map fst m)) ->
  build m i ts = m ++ combine (keys ts) (seq i (length ts)).
Proof.
  revert m i; induction ts as [|(t, l) ts IH]; intros m i D A; cbn; [rewrite app_nil_r; reflexivity|].
  inversion D as [|? ? D1 D2]; subst. unfold insert.
  rewrite (proj2 (find_none m (key t l))) by (apply A; left; reflexivity).
  rewrite IH; [rewrite <- app_assoc; reflexivity|exact D2|].
  intros k K. rewrite map_app, in_app_iff. cbn. intros [H|[H|[]]]; [apply (A k); [right; exact K|exact H]|].
  subst. exact (D1 K).
Qed.
Lemma find_combine ks s k i : NoDup ks ->
  find (combine ks (seq s (length ks))) k = Some (s + i)%nat <-> nth_error ks i = Some k.
Proof.
  revert s i; induction ks as [|a ks IH]; intros s i D; cbn; [destruct i; split; discriminate|].
  inversion D as [|? ? D1 D2]; subst. unfold find. cbn. destruct (Z.eqb_spec a k).
  - subst. cbn. split; intros E.
    + injection E as E. assert (i = 0%nat) by lia. subst. reflexivity.
    + destruct i; [f_equal; lia|]. cbn in E. apply nth_error_In in E. contradiction.
  - fold (find (combine ks (seq (S s) (length ks))) k). destruct i.
    + split; [|intros [= E]; contradiction]. intros E. exfalso.
      apply find_some, in_combine_r, in_seq in E. lia.
    + cbn. rewrite <- IH by auto. replace (s + S i)%nat with (S s + i)%nat by lia. reflexivity.
Qed.
Lemma keys_nodup ts : NoDup ts -> Forall real_pair ts -> NoDup (keys ts).
Proof.
  induction ts as [|p ts IH]; intros D R; cbn; [constructor|]. inversion D; subst. inversion R as [|? ? R1 R2]; subst.
  constructor; auto. intros I. apply in_map_iff in I. destruct I as (q&E&I).
  rewrite Forall_forall in R2. pose proof (R2 q I) as Q. destruct R1, Q.
  apply key_inj in E; auto. destruct p, q. cbn in E. destruct E; subst. contradiction.
Qed.
Lemma find_types n act ts t l i : NoDup ts -> Forall real_pair ts -> 0 <= l <= 3 ->
  find (types (construct 0 n act ts)) (key t l) = Some i <-> nth_error ts i = Some (t, l).
Proof.
  intros D R L. cbn. pose proof (keys_nodup ts D R) as KD. rewrite build_ok by (auto; cbn; tauto). cbn.
  pose proof (find_combine (keys ts) 0 (key t l) i KD) as F. unfold keys in F at 2. rewrite map_length in F.
  change (0 + i)%nat with i in F. rewrite F. unfold keys. rewrite nth_error_map.
  destruct (nth_error ts i) as [(t', l')|] eqn:E; cbn; [|split; discriminate].
  assert (RP : real_pair (t', l')) by (rewrite Forall_forall in R; apply R; eapply nth_error_In; eauto).
  destruct RP. split; intros [= H1].
  - apply key_inj in H1; auto. destruct H1; subst; reflexivity.
  - subst; reflexivity.
Qed.
Lemma find_types_none n act ts t l : NoDup ts -> Forall real_pair ts -> 0 <= l <= 3 ->
  find (types (construct 0 n act ts)) (key t l) = None <-> ~ In (t, l) ts.
Proof.
  intros D R L. split.
  - intros E I. apply In_nth_error in I. destruct I as (i&I). rewrite <- (find_types n act) in I by auto. congruence.
  - intros N. destruct (find (types (construct 0 n act ts)) (key t l)) as [i|] eqn:E; auto.
    apply find_types in E; auto. apply nth_error_In in E. contradiction.
Qed.

(** * State as a list of what was set *)
Lemma nth_set {A} i (v : A) l j : (i < length l)%nat -> nth_error (set_nth i v l) j = if Nat.eqb j i then Some v else nth_error l j.
Proof.
  intros. unfold set_nth. destruct (Nat.eqb_spec j i).
  - subst. rewrite nth_error_app2; rewrite firstn_length_le by lia; [|lia]. rewrite Nat.sub_diag. reflexivity.
  - destruct (Nat.lt_ge_cases j i).
    + rewrite nth_error_app1 by (rewrite firstn_length_le; lia).
      rewrite <- (firstn_skipn i l) at 2. rewrite nth_error_app1 by (rewrite firstn_length_le; lia). reflexivity.
    + rewrite nth_error_app2; rewrite firstn_length_le by lia; [|lia].
      destruct (j - i)%nat as [|m] eqn:E; [lia|]. cbn.
      rewrite <- (firstn_skipn (S i) l) at 2. rewrite nth_error_app2; rewrite firstn_length_le by lia; [|lia].
      f_equal. lia.
Qed.
Lemma length_set {A} i (v : A) l : (i < length l)%nat -> length (set_nth i v l) = length l.
Proof. intros. unfold set_nth. rewrite app_length, firstn_length_le by lia. cbn [length]. rewrite skipn_length. lia. Qed.

Definition mem (p m : nat) (L : list (nat * nat)) : bool := existsb (fun e => Nat.eqb (fst e) p && Nat.eqb (snd e) m) L.
Lemma mem_in p m L : mem p m L = true <-> In (p, m) L.
Proof.
  unfold mem. rewrite existsb_exists. split.
  - intros ((a, b)&I&E). cbn in E. apply andb_true_iff in E. destruct E as (E1&E2). apply Nat.eqb_eq in E1, E2. subst. auto.
  - intros I. exists (p, m). cbn. rewrite !Nat.eqb_refl. auto.
Qed.
Definition col (m : nat) (L : list (nat * nat)) : list (nat * nat) := filter (fun e => Nat.eqb (snd e) m) L.
Record inv (n w : nat) (L : list (nat * nat)) (s : status) : Prop := {
  i_counts : length (counts s) = w;
  i_count : forall m, (m < w)%nat -> nth_error (counts s) m = Some (length (col m L));
  i_flags : length (flags s) = n;
  i_flag : forall p, (p < n)%nat -> exists row, nth_error (flags s) p = Some row /\ length row = w /\
             forall m, (m < w)%nat -> nth_error row m = Some (mem p m L);
  i_nodup : NoDup L;
  i_in : forall p m, In (p, m) L -> (p < n /\ m < w)%nat }.

Lemma inv_start n act ts : inv n (length ts) [] (construct 0 n act ts).
Proof.
  constructor; cbn.
  - apply repeat_length.
  - intros m M. rewrite nth_error_repeat by auto. reflexivity.
  - apply repeat_length.
  - intros p P. exists (repeat false (length ts)). rewrite nth_error_repeat by auto. repeat split; [apply repeat_length|].
    intros m M. rewrite nth_error_repeat by auto. reflexivity.
  - constructor.
  - intros p m [].
Qed.

Lemma set_ok n w L s ix t l m : inv n w L s -> find (types s) (key t l) = Some m -> (m < w)%nat ->
  0 <= ix < Z.of_nat n ->
  if mem (Z.to_nat ix) m L then set_receive ix t l s = Throw
  else exists s', set_receive ix t l s = Ok s' /\ inv n w ((Z.to_nat ix, m) :: L) s' /\ types s' = types s.
Proof.
  intros [I1 I2 I3 I4 I5 I6] F M X. unfold set_receive. rewrite F, I3.
  destruct (Z.ltb_spec ix 0); [lia|]. destruct (Z.leb_spec (Z.of_nat n) ix); [lia|]. cbn [orb].
  set (p := Z.to_nat ix). assert (P : (p < n)%nat) by (unfold p; lia).
  destruct (I4 p P) as (row&R1&R2&R3). rewrite R1, R3, I2 by auto.
  destruct (mem p m L) eqn:E; [reflexivity|]. eexists. split; [reflexivity|]. split; [|reflexivity].
  constructor; cbn [counts flags].
  - rewrite length_set; lia.
  - intros m' M'. rewrite nth_set by lia. cbn [col filter snd]. rewrite (Nat.eqb_sym m m').
    destruct (Nat.eqb_spec m' m); [subst; reflexivity|apply I2; auto].
  - rewrite length_set; lia.
  - intros p' P'. rewrite nth_set by lia. destruct (Nat.eqb_spec p' p).
    + subst p'. exists (set_nth m true row). split; [reflexivity|]. split; [rewrite length_set; lia|].
      intros m' M'. rewrite nth_set by lia. cbn [mem existsb fst snd]. rewrite Nat.eqb_refl, (Nat.eqb_sym m m').
      destruct (Nat.eqb_spec m' m); [subst; reflexivity|]. rewrite R3 by auto. reflexivity.
    + destruct (I4 p' P') as (row'&S1&S2&S3). exists row'. repeat split; auto. intros m' M'. rewrite S3 by auto.
      cbn [mem existsb fst snd]. destruct (Nat.eqb_spec p p'); [congruence|reflexivity].
  - constructor; auto. intros C. apply mem_in in C. congruence.
  - intros p' m' [C|C]; [injection C as <- <-; auto|apply I6; auto].
Qed.

(** Done means that every column is full *)
Lemma done_inv n w L s : inv n w L s -> (done s = true <-> forall p m, (p < n)%nat -> (m < w)%nat -> In (p, m) L).
Proof.
  intros [I1 I2 I3 I4 I5 I6]. unfold done. rewrite forallb_forall, I3.
  assert (C : forall m, (m < w)%nat -> length (col m L) = n <-> forall p, (p < n)%nat -> In (p, m) L).
  { intros m M.
    assert (ND : NoDup (map fst (col m L))).
    { assert (Q : forall l, NoDup l -> NoDup (map fst (col m l))).
      { induction l as [|(a, b) l IH]; intros D; cbn; [constructor|]. inversion D; subst.
        destruct (Nat.eqb_spec b m); auto. cbn. constructor; auto. subst b.
        intros K. apply in_map_iff in K. destruct K as ((c, d)&E&K). cbn in E. subst.
        apply filter_In in K. destruct K as (K1&K2). apply Nat.eqb_eq in K2. cbn in K2. subst. contradiction. }
      apply Q, I5. }
    assert (IN : forall p, In p (map fst (col m L)) <-> In (p, m) L).
    { intros p. rewrite in_map_iff. split.
      - intros ((c, d)&E&K). apply filter_In in K. destruct K as (K1&K2). apply Nat.eqb_eq in K2. cbn in *. subst. auto.
      - intros K. exists (p, m). split; auto. apply filter_In. cbn. rewrite Nat.eqb_refl. auto. }
    split.
    - intros E p P. apply IN.
      apply (NoDup_length_incl ND (l' := seq 0 n)); [rewrite map_length, seq_length; lia| |apply in_seq; lia].
      intros q Q. apply IN, I6 in Q. apply in_seq. lia.
    - intros A. rewrite <- (map_length fst). apply Nat.le_antisymm.
      + transitivity (length (seq 0 n)); [|rewrite seq_length; lia]. apply NoDup_incl_length; auto. intros q Q. apply IN, I6 in Q. apply in_seq. lia.
      + transitivity (length (seq 0 n)); [rewrite seq_length; lia|]. apply NoDup_incl_length; [apply seq_NoDup|]. intros q Q. apply in_seq in Q. apply IN, A. lia. }
  split.
  - intros A p m P M. apply (C m M); auto. apply Nat.eqb_eq, A. eapply nth_error_In, I2; auto.
  - intros A c I. apply In_nth_error in I. destruct I as (m&E). apply Nat.eqb_eq.
    assert (M : (m < w)%nat) by (rewrite <- I1; apply nth_error_Some; congruence).
    rewrite I2 in E by auto. injection E as <-. apply C; auto.
Qed.

(** * Sequences *)
Definition slot (ts : list (Z * Z)) (m : Z * Z * Z) (e : nat * nat) : Prop :=
  let '(ix, t, l) := m in fst e = Z.to_nat ix /\ nth_error ts (snd e) = Some (t, l).
Lemma slot_fun ts ms x y e : NoDup ts -> In x ms -> In y ms -> Forall (fun m => 0 <= fst (fst m)) ms ->
  slot ts x e -> slot ts y e -> x = y.
Proof.
  intros D X Y N SX SY. destruct x as ((ix, t), l), y as ((iy, t'), l'), e as (p, i). cbn in SX, SY.
  rewrite Forall_forall in N. pose proof (N _ X) as NX. pose proof (N _ Y) as NY. cbn in NX, NY.
  destruct SX as (A1&A2), SY as (B1&B2). assert (ix = iy) by lia. congruence.
Qed.

Lemma receive_ok n act ts ms : NoDup ts -> Forall real_pair ts -> Forall (fun m => 0 <= snd m <= 3) ms ->
  forall L s pre, inv n (length ts) L s -> types s = types (construct 0 n act ts) ->
  NoDup pre -> Forall (expected n ts) pre -> Forall2 (slot ts) pre L ->
  (NoDup (pre ++ ms) /\ Forall (expected n ts) ms ->
     exists s' L', receive ms s = Ok s' /\ inv n (length ts) L' s' /\ Forall2 (slot ts) (rev ms ++ pre) L') /\
  (~ (NoDup (pre ++ ms) /\ Forall (expected n ts) ms) -> receive ms s = Throw).
Proof.
  intros D R. induction ms as [|((ix, t), l) ms IH]; intros RL L s pre I TY DP EP SL.
  - split.
    + intros _. exists s, L. cbn. auto.
    + intros N. exfalso. apply N. rewrite app_nil_r. auto.
  - inversion RL as [|? ? RL1 RL2]; subst. cbn in RL1. cbn [receive].
    destruct (find (types s) (key t l)) as [m|] eqn:F.
    2: { split.
         - intros (_&E). inversion E as [|? ? E1 E2]; subst. cbn in E1. rewrite TY in F. apply find_types_none in F; auto. tauto.
         - intros _. unfold set_receive. rewrite F. reflexivity. }
    assert (FM : nth_error ts m = Some (t, l)) by (rewrite TY in F; apply find_types in F; auto).
    assert (M : (m < length ts)%nat) by (apply nth_error_Some; congruence).
    destruct (Z_lt_ge_dec ix 0) as [X0|X0]; [|destruct (Z_lt_ge_dec ix (Z.of_nat n)) as [X1|X1]].
    + split.
      * intros (_&E). inversion E as [|? ? E1 E2]; subst. cbn in E1. lia.
      * intros _. unfold set_receive. rewrite F. destruct (Z.ltb_spec ix 0); [reflexivity|lia].
    + pose proof (set_ok n (length ts) L s ix t l m I F M ltac:(lia)) as S.
      assert (PM : mem (Z.to_nat ix) m L = true <-> In (ix, t, l) pre).
      { rewrite mem_in. split.
        - intros Q. apply In_nth_error in Q. destruct Q as (j&Q).
          assert (XX : exists x, nth_error pre j = Some x /\ slot ts x (Z.to_nat ix, m)).
          { clear - SL Q. revert j Q. induction SL; intros j Q; [destruct j; discriminate|].
            destruct j; [injection Q as ->; eexists; split; [reflexivity|auto]|apply IHSL; auto]. }
          destruct XX as (x&Q1&Q2). apply nth_error_In in Q1.
          assert (EQ : x = (ix, t, l)).
          { destruct x as ((ix', t'), l'). cbn in Q2. destruct Q2 as (Q2&Q3). rewrite Forall_forall in EP.
            pose proof (EP _ Q1) as Q4. cbn in Q4. assert (ix = ix') by lia. congruence. }
          subst; auto.
        - intros Q. apply In_nth_error in Q. destruct Q as (j&Q).
          assert (XX : exists e, nth_error L j = Some e /\ slot ts (ix, t, l) e).
          { clear - SL Q. revert j Q. induction SL; intros j Q; [destruct j; discriminate|].
            destruct j; [injection Q as ->; eexists; split; [reflexivity|auto]|apply IHSL; auto]. }
          destruct XX as ((a, b)&Q1&Q2). cbn in Q2. destruct Q2 as (Q2&Q3). subst a.
          assert (b = m). { apply (NoDup_nth_error ts); auto; [apply nth_error_Some; congruence|congruence]. }
          subst. eapply nth_error_In; eauto. }
      destruct (mem (Z.to_nat ix) m L) eqn:ME.
      * rewrite S. assert (Q : In (ix, t, l) pre) by (apply PM; reflexivity). split; [|auto].
        intros (N&_). exfalso. apply NoDup_remove_2 in N. apply N. apply in_app_iff. auto.
      * destruct S as (s'&S1&S2&S3). rewrite S1.
        assert (NI : ~ In (ix, t, l) pre) by (intros Q; apply PM in Q; discriminate).
        assert (EX : expected n ts (ix, t, l)) by (cbn; split; [lia|eapply nth_error_In; eauto]).
        destruct (IH RL2 ((Z.to_nat ix, m) :: L) s' ((ix, t, l) :: pre) S2) as (A&B).
        -- congruence.
        -- constructor; auto.
        -- constructor; auto.
        -- constructor; auto. cbn. auto.
        -- assert (EQ : NoDup (pre ++ (ix, t, l) :: ms) <-> NoDup (((ix, t, l) :: pre) ++ ms)).
           { cbn. split; intros N.
             - constructor; [apply NoDup_remove_2 in N; auto|apply NoDup_remove_1 in N; auto].
             - inversion N; subst. apply (Permutation_NoDup (l := (ix, t, l) :: pre ++ ms)); auto.
               apply Permutation_middle. }
           split.
           ++ intros (N&E). inversion E; subst. destruct A as (s2&L2&A1&A2&A3); [split; [apply EQ; auto|auto]|].
              exists s2, L2. split; [auto|split; [auto|]]. cbn. rewrite <- app_assoc. exact A3.
           ++ intros N. apply B. intros (N1&N2). apply N. split; [apply EQ; auto|constructor; auto].
    + split.
      * intros (_&E). inversion E as [|? ? E1 E2]; subst. cbn in E1. lia.
      * intros _. unfold set_receive. rewrite F, (i_flags _ _ _ _ I).
        destruct (Z.leb_spec (Z.of_nat n) ix); [|lia]. rewrite orb_true_r. reflexivity.
Qed.

Lemma send_ok k s : (k <= requests s - current s)%nat -> send k s = Ok (seq (current s) k).
Proof.
  revert s; induction k; intros s K; [reflexivity|]. cbn [send]. unfold next_send.
  destruct (Nat.leb_spec (requests s) (current s)); [lia|]. rewrite IHk by (cbn; lia). reflexivity.
Qed.
Lemma send_throw k s : (requests s - current s < k)%nat -> send k s = Throw.
Proof.
  revert s; induction k; intros s K; [lia|]. cbn [send]. unfold next_send.
  destruct (Nat.leb_spec (requests s) (current s)); [reflexivity|]. rewrite IHk by (cbn; lia). reflexivity.
Qed.

(** All expected messages *)
Definition all_messages (n : nat) (ts : list (Z * Z)) : list (Z * Z * Z) :=
  flat_map (fun p => map (fun q => (Z.of_nat p, fst q, snd q)) ts) (seq 0 n).
Lemma all_length n ts : length (all_messages n ts) = (n * length ts)%nat.
Proof.
  unfold all_messages. assert (G : forall s, length (flat_map (fun p => map (fun q : Z * Z => (Z.of_nat p, fst q, snd q)) ts) (seq s n)) = (n * length ts)%nat).
  { induction n; intros; cbn; [reflexivity|]. rewrite app_length, map_length, IHn. reflexivity. }
  apply G.
Qed.
Lemma all_in n ts m : In m (all_messages n ts) <-> expected n ts m.
Proof.
  destruct m as ((ix, t), l). unfold all_messages, expected. rewrite in_flat_map. split.
  - intros (p&P&I). apply in_seq in P. apply in_map_iff in I. destruct I as ((a, b)&E&I). cbn in E. injection E as <- <- <-. split; [lia|auto].
  - intros (X&I). exists (Z.to_nat ix). split; [apply in_seq; lia|]. apply in_map_iff. exists (t, l). split; auto. cbn. f_equal. f_equal. lia.
Qed.
Lemma nodup_app {A} (l l' : list A) : NoDup l -> NoDup l' -> (forall x, In x l -> ~ In x l') -> NoDup (l ++ l').
Proof.
  intros D D' N. induction l; [exact D'|]. inversion D; subst. cbn. constructor.
  - rewrite in_app_iff. intros [C|C]; [auto|]. exact (N a (or_introl eq_refl) C).
  - apply IHl; auto. intros x X. apply N. right; auto.
Qed.
Lemma all_nodup n ts : NoDup ts -> NoDup (all_messages n ts).
Proof.
  intros D. unfold all_messages. generalize 0%nat. induction n; intros s; cbn; [constructor|].
  apply nodup_app; auto.
  - apply FinFun.Injective_map_NoDup; auto. intros (a, b) (c, d) E. cbn in E. congruence.
  - intros x X Y. apply in_map_iff in X. destruct X as (q&<-&_). apply in_flat_map in Y.
    destruct Y as (p&P&Y). apply in_seq in P. apply in_map_iff in Y. destruct Y as (r&E&_). injection E as E _ _. lia.
Qed.

(** Indices in the map belong to first occurrences *)
Lemma build_first ts m s k i : In (k, i) (build m s ts) ->
  In (k, i) m \/ (s <= i)%nat /\ nth_error (keys ts) (i - s) = Some k /\ ~ In k (firstn (i - s) (keys ts)) /\ ~ In k (map fst m).
Proof.
  revert m s; induction ts as [|(t, l) ts IH]; intros m s I; cbn [build] in I; [left; auto|].
  apply IH in I. unfold insert in I. destruct (find m (key t l)) as [x|] eqn:F.
  - destruct I as [I|(I1&I2&I3&I4)]; [left; auto|right]. split; [lia|].
    replace (i - s)%nat with (S (i - S s)) by lia. cbn. split; [auto|]. split; [|auto]. intros [E|C]; [|auto]. subst k.
    apply find_some in F. apply I4. apply in_map_iff. exists (key t l, x). auto.
  - destruct I as [I|(I1&I2&I3&I4)].
    + apply in_app_iff in I. destruct I as [I|[I|[]]]; [left; auto|right]. injection I as <- <-.
      rewrite Nat.sub_diag. cbn. apply find_none in F. repeat split; auto.
    + right. split; [lia|]. replace (i - s)%nat with (S (i - S s)) by lia. cbn. split; [auto|].
      rewrite map_app, in_app_iff in I4. cbn in I4. split; [|tauto]. intros [E|C]; [subst; tauto|auto].
Qed.
Definition unused (ts : list (Z * Z)) (j : nat) : Prop := forall k, find (build [] 0 ts) k <> Some j.
Lemma second_unused a b c p : unused (a ++ p :: b ++ p :: c) (length a + 1 + length b).
Proof.
  intros k F. apply find_some, build_first in F. destruct F as [[]|(_&F1&F2&_)]. rewrite Nat.sub_0_r in *.
  unfold keys in *. rewrite !map_app in *. cbn [map] in *. rewrite map_app in *. cbn [map] in *.
  set (h := fun p : Z * Z => key (fst p) (snd p)) in *.
  rewrite nth_error_app2 in F1 by (rewrite map_length; lia). rewrite map_length in F1.
  replace (length a + 1 + length b - length a)%nat with (S (length b)) in F1 by lia. cbn in F1.
  rewrite nth_error_app2 in F1 by (rewrite map_length; lia). rewrite map_length, Nat.sub_diag in F1. injection F1 as <-.
  apply F2. rewrite firstn_app, map_length. apply in_app_iff. right.
  replace (length a + 1 + length b - length a)%nat with (S (length b)) by lia. left. reflexivity.
Qed.
Lemma receive_unused n ts j ms s s' : unused ts j -> types s = build [] 0 ts -> (j < length (counts s))%nat ->
  nth_error (counts s) j = Some 0%nat -> length (flags s) = n -> receive ms s = Ok s' ->
  nth_error (counts s') j = Some 0%nat /\ length (flags s') = n.
Proof.
  intros U. revert s; induction ms as [|((ix, t), l) ms IH]; intros s T J C F R; cbn in R.
  - injection R as <-. auto.
  - destruct (set_receive ix t l s) as [s1| |] eqn:E; try discriminate. revert R. apply IH; clear IH;
    unfold set_receive in E; destruct (find (types s) (key t l)) as [m|] eqn:FD; try discriminate;
    destruct ((ix <? 0) || (Z.of_nat (length (flags s)) <=? ix)) eqn:B; try discriminate;
    apply orb_false_iff in B; destruct B as (B1&B2); apply Z.ltb_ge in B1; apply Z.leb_gt in B2;
    destruct (nth_error (flags s) (Z.to_nat ix)) as [row|]; try discriminate;
    destruct (nth_error row m) as [[|]|]; try discriminate;
    destruct (nth_error (counts s) m) as [cm|] eqn:CM; try discriminate; injection E as <-; cbn [types counts flags];
    (assert (M : (m < length (counts s))%nat) by (apply nth_error_Some; congruence)); auto.
    + rewrite length_set; auto.
    + rewrite nth_set by auto. destruct (Nat.eqb_spec j m); auto. subst. exfalso. rewrite T in FD. exact (U _ FD).
    + rewrite length_set; lia.
Qed.

Lemma pair_dec (p q : Z * Z) : {p = q} + {p <> q}.
Proof. decide equality; apply Z.eq_dec. Qed.
Lemma msg_dec (p q : Z * Z * Z) : {p = q} + {p <> q}.
Proof. decide equality; [apply Z.eq_dec|apply pair_dec]. Qed.
Lemma valid_dec n ts ms : (NoDup ms /\ Forall (expected n ts) ms) \/ ~ (NoDup ms /\ Forall (expected n ts) ms).
Proof.
  destruct (NoDup_dec msg_dec ms) as [D|D]; [|tauto].
  destruct (Forall_dec (expected n ts)) with (l := ms) as [F|F]; [|tauto|tauto].
  intros ((ix, t), l). unfold expected.
  destruct (Z_le_gt_dec 0 ix); [|right; lia]. destruct (Z_lt_ge_dec ix (Z.of_nat n)); [|right; lia].
  destruct (in_dec pair_dec (t, l) ts); [left; split; [lia|auto]|right; tauto].
Qed.
