(** C11-C14: containers and arrays. *)
From Coq Require Import ZArith Bool List Lia ZifyBool.
From Verif Require Import ArrModel ArrSpec ArrProofs.
Import ListNotations.
Local Open Scope Z_scope.

(** ** C11 *)

(** The byte count of Allocate is the sum of the chunk sizes; it throws
    exactly when some chunk size is not a multiple of 8. *)
Theorem C11_total_bytes ks : (forall k, In k ks -> 0 <= csize k) ->
  ((forall k, In k ks -> csize k mod 8 = 0) -> total_bytes 0 ks = Some (bytes ks)) /\
  ((exists k, In k ks /\ csize k mod 8 <> 0) -> total_bytes 0 ks = None).
Proof.
  intros P. rewrite (total_bytes_spec ks 0 P). split.
  - intros A. assert (forallb (fun k => csize k mod 8 =? 0) ks = true) as ->; [|f_equal; lia].
    apply forallb_forall. intros k Hk. apply Z.eqb_eq, A, Hk.
  - intros (k & Hk & N). destruct (forallb _ ks) eqn:E; [|reflexivity].
    rewrite forallb_forall in E. specialize (E k Hk). lia.
Qed.

(** The byte sizes of the array classes never make Allocate throw. *)
Theorem C11_array_sizes_aligned n sz : 0 <= n -> 0 <= sz ->
  0 <= byte_size n sz /\ byte_size n sz mod 8 = 0.
Proof.
  intros Hn Hs. destruct (byte_size_spec n sz Hn Hs) as [D B]. split; [nia|]. apply Z.mod_divide; [lia|exact D].
Qed.

Definition ranges_good (base : Z) (before after : list chunk) : Prop :=
  length after = length before /\
  (forall i k, nth_error before i = Some k ->
     exists p, nth_error after i = Some (mkC (csize k) (Some p)) /\
       base <= p /\ p + csize k <= base + bytes before /\
       ((forall k, In k before -> csize k mod 8 = 0) -> (p - base) mod 8 = 0)) /\
  (forall i j ki kj pi pj, (i < j)%nat ->
     nth_error after i = Some (mkC ki (Some pi)) -> nth_error after j = Some (mkC kj (Some pj)) ->
     pi + ki <= pj) /\
  (forall i ki kj pi pj,
     nth_error after i = Some (mkC ki (Some pi)) -> nth_error after (S i) = Some (mkC kj (Some pj)) ->
     pj = pi + ki).

Lemma ranges base before after : 0 < base -> (forall k, In k before -> 0 <= csize k) ->
  attach_chunks base before = COk after -> ranges_good base before after.
Proof.
  intros B P E. destruct (attach_chunks_spec _ _ _ E) as (A1 & A2 & A3).
  assert (forall i, 0 <= bytes (firstn i before)) as Pos.
  { intros i. apply (bytes_firstn_mono before 0 i P). lia. }
  assert (forall i k, nth_error before i = Some k ->
     nth_error after i = Some (mkC (csize k) (Some (base + bytes (firstn i before))))) as A4.
  { intros i k H. rewrite (A3 i k H). unfold addr. specialize (Pos i).
    destruct (Z.eqb_spec (base + bytes (firstn i before)) 0); [lia|reflexivity]. }
  assert (forall i s p, nth_error after i = Some (mkC s (Some p)) ->
     exists k, nth_error before i = Some k /\ s = csize k /\ p = base + bytes (firstn i before)) as A5.
  { intros i s p H. destruct (nth_error before i) as [k|] eqn:Ek.
    - rewrite (A4 i k Ek) in H. injection H as <- <-. eauto.
    - apply nth_error_None in Ek. assert (nth_error after i <> None) as N by congruence.
      apply nth_error_Some in N. lia. }
  assert (forall i k, nth_error before i = Some k -> (S i <= length before)%nat) as Len.
  { intros i k H. assert (nth_error before i <> None) as N by congruence. apply nth_error_Some in N. lia. }
  split; [exact A2|]. split; [|split].
  - intros i k H. exists (base + bytes (firstn i before)). split; [auto|]. split; [specialize (Pos i); lia|]. split.
    + pose proof (bytes_firstn_S before i k H). pose proof (bytes_firstn_mono before (S i) (length before) P (Len _ _ H)).
      rewrite firstn_all in *. lia.
    + intros Al. replace (base + bytes (firstn i before) - base) with (bytes (firstn i before)) by lia.
      apply bytes_aligned. intros x Hx. apply Al. rewrite <- (firstn_skipn i before). apply in_or_app; auto.
  - intros i j ki kj pi pj L Hi Hj.
    destruct (A5 _ _ _ Hi) as (a & Ea & -> & ->), (A5 _ _ _ Hj) as (b & Eb & -> & ->).
    pose proof (bytes_firstn_S before i a Ea). pose proof (bytes_firstn_mono before (S i) j P ltac:(lia)). lia.
  - intros i ki kj pi pj Hi Hj.
    destruct (A5 _ _ _ Hi) as (a & Ea & -> & ->), (A5 _ _ _ Hj) as (b & Eb & -> & ->).
    pose proof (bytes_firstn_S before i a Ea). lia.
Qed.

(** A successful Allocate lays the chunks out in registration order,
    contiguously, without overlap, inside the block and 8-aligned. *)
Theorem C11_allocate_layout base c c' : 0 < base -> (forall k, In k (chunks c) -> 0 <= csize k) ->
  c_allocate base c = COk c' ->
  cptr c' = Some base /\ cowns c' = cowns c /\
  (forall k, In k (chunks c) -> csize k mod 8 = 0) /\ ranges_good base (chunks c) (chunks c').
Proof.
  unfold c_allocate. intros B P H. destruct (cptr c); [discriminate|].
  destruct (total_bytes 0 (chunks c)) eqn:Et; [|discriminate].
  destruct (base =? 0); [discriminate|].
  destruct (attach_chunks base (chunks c)) eqn:E; [|discriminate]. injection H as <-. cbn.
  split; [reflexivity|]. split; [reflexivity|]. split; [|apply ranges; auto].
  rewrite (total_bytes_spec _ _ P) in Et. destruct (forallb _ _) eqn:F; [|discriminate].
  rewrite forallb_forall in F. intros k Hk. specialize (F k Hk). lia.
Qed.

(** The same for AttachTo; the container then does not own the block. *)
Theorem C11_attach_layout base c c' : 0 < base -> (forall k, In k (chunks c) -> 0 <= csize k) ->
  c_attach base c = COk c' ->
  cptr c' = Some base /\ cowns c' = false /\ ranges_good base (chunks c) (chunks c').
Proof.
  unfold c_attach. intros B P H. destruct (cptr c); [discriminate|].
  destruct (attach_chunks base (chunks c)) eqn:E; [|discriminate]. injection H as <-. cbn.
  unfold addr. destruct (Z.eqb_spec base 0); [lia|]. split; [reflexivity|]. split; [reflexivity|apply ranges; auto].
Qed.

(** Allocate succeeds whenever the container is empty, the chunks are
    detached and word-sized. *)
Theorem C11_allocate_succeeds base c : 0 < base -> cptr c = None ->
  (forall k, In k (chunks c) -> 0 <= csize k /\ csize k mod 8 = 0 /\ cat k = None) ->
  exists c', c_allocate base c = COk c'.
Proof.
  intros B Ec H. unfold c_allocate. rewrite Ec.
  rewrite (proj1 (C11_total_bytes (chunks c) (fun k Hk => proj1 (H k Hk))) (fun k Hk => proj1 (proj2 (H k Hk)))).
  destruct (Z.eqb_spec base 0); [lia|].
  destruct (attach_chunks_ok (chunks c) base) as [r ->]; [intros k Hk; apply H, Hk|eauto].
Qed.

(** Allocate after Detach gives the same layout again. *)
Theorem C11_reallocate base base' c c' : 0 < base -> 0 < base' -> (forall k, In k (chunks c) -> 0 <= csize k) ->
  c_allocate base c = COk c' ->
  exists c'', c_allocate base' (fst (c_detach c')) = COk c'' /\ cowns c'' = true /\
    ranges_good base' (chunks c) (chunks c'').
Proof.
  intros B B' P H. destruct (C11_allocate_layout _ _ _ B P H) as (E1 & E2 & E3 & E4 & E5 & _).
  set (d := fst (c_detach c')).
  assert (map csize (chunks d) = map csize (chunks c)) as Em.
  { unfold d. cbn. rewrite map_map. cbn. unfold c_allocate in H. destruct (cptr c); [discriminate|].
    destruct (total_bytes 0 (chunks c)); [|discriminate]. destruct (base =? 0); [discriminate|].
    destruct (attach_chunks base (chunks c)) eqn:Ea; [|discriminate]. injection H as <-. cbn.
    apply (attach_chunks_spec _ _ _ Ea). }
  assert (forall k, In k (chunks d) -> exists k', In k' (chunks c) /\ csize k' = csize k) as In'.
  { intros k Hk. apply (in_map csize) in Hk. rewrite Em in Hk. apply in_map_iff in Hk as (k' & E & Hk'). eauto. }
  assert (forall k, In k (chunks d) -> cat k = None) as Nc.
  { intros k Hk. unfold d in Hk. cbn in Hk. apply in_map_iff in Hk as (x & <- & _). reflexivity. }
  destruct (C11_allocate_succeeds base' d B' eq_refl) as [c'' E''].
  { intros k Hk. destruct (In' k Hk) as (k' & Hk' & <-). auto. }
  exists c''. split; [exact E''|].
  assert (forall k, In k (chunks d) -> 0 <= csize k) as Pd.
  { intros k Hk. destruct (In' k Hk) as (k' & Hk' & <-). auto. }
  destruct (C11_allocate_layout _ _ _ B' Pd E'') as (F1 & F2 & F3 & F4 & F5 & F6 & F7).
  split; [exact F2|].
  assert (length (chunks d) = length (chunks c)) as Ld.
  { rewrite <- (map_length csize (chunks d)), Em, map_length. reflexivity. }
  assert (forall l l', map csize l = map csize l' -> bytes l = bytes l') as Bm.
  { induction l as [|x l IH]; intros [|y l'] M; cbn in *; try discriminate; auto.
    injection M as M1 M2. rewrite M1, (IH l' M2). reflexivity. }
  split; [congruence|]. split; [|split; [exact F6|exact F7]].
  intros i k Hk. assert (exists k', nth_error (chunks d) i = Some k' /\ csize k' = csize k) as (k' & Ek' & Es).
  { pose proof (map_nth_error csize _ _ Hk) as M. rewrite <- Em in M.
    destruct (nth_error (chunks d) i) as [k'|] eqn:Ed.
    - exists k'. split; [reflexivity|]. rewrite (map_nth_error csize _ _ Ed) in M. congruence.
    - apply nth_error_None in Ed. assert (nth_error (chunks c) i <> None) as N by congruence.
      apply nth_error_Some in N. lia. }
  destruct (F5 i k' Ek') as (p & X1 & X2 & X3 & X4). exists p. rewrite Es in *.
  rewrite (Bm _ _ Em) in X3. repeat split; auto.
Qed.

Example C11_case : exists c', c_allocate 1000 (mkCont true None [mkC 16 None; mkC 0 None; mkC 24 None]) = COk c' /\
  chunks c' = [mkC 16 (Some 1000); mkC 0 (Some 1016); mkC 24 (Some 1016)].
Proof. eexists. split; reflexivity. Qed.

(** Block ownership: whatever the sequence of operations, the container
    frees only memory it allocated itself and holds no other, and releases
    it at destruction. *)
Theorem C11_container_memory xs : Forall cop_ok xs ->
  exists w, c_run (mkCW new_container []) xs = Some w /\
    (length (cw_live w) <= 1)%nat /\
    c_free (c_destroy (cw_c w)) (cw_live w) = Some [].
Proof.
  intros F. destruct (c_run_inv xs (mkCW new_container [])) as (w & E & I); [cbn; auto|exact F|].
  exists w. split; [exact E|]. unfold cinv in I. unfold c_destroy.
  destruct (cptr (cw_c w)) as [p|].
  - rewrite I. destruct (cowns (cw_c w)); cbn.
    + rewrite Z.eqb_refl. destruct (Z.eq_dec p p); [auto|congruence].
    + auto.
  - destruct I as [-> ->]. auto.
Qed.
(** AttachTo(NULL) followed by Allocate leaks the block. *)
Theorem C11_attach_null_refuted : exists xs w,
  c_run (mkCW new_container []) xs = Some w /\ c_free (c_destroy (cw_c w)) (cw_live w) = Some [64].
Proof. exists [PPush 8; PAttach 0; PDetach; PAttach 0; PAllocate 64]. eexists. split; reflexivity. Qed.
Example C11_memory_case : Forall cop_ok [PPush 8; PAllocate 64; PAllocate 72; PDetach; PAttach 100; PDetach; PAllocate 64] /\
  c_run (mkCW new_container []) [PPush 8; PAllocate 64; PAllocate 72; PDetach; PAttach 100; PDetach; PAllocate 64]
  = Some (mkCW (mkCont true (Some 64) [mkC 8 (Some 64)]) [64]).
Proof. split; [repeat constructor; cbn; lia|reflexivity]. Qed.

(** ** C12 *)

Theorem C12_byte_size n sz : 0 <= n -> 0 <= sz ->
  (8 | byte_size n sz) /\ n * sz <= byte_size n sz < n * sz + 8.
Proof. exact (byte_size_spec n sz). Qed.

Theorem C12_range s0 s1 s2 s3 i j k l :
  0 <= i < s0 -> 0 <= j < s1 -> 0 <= k < s2 -> 0 <= l < s3 ->
  0 <= idx1 i < s0 /\ 0 <= idx2 s1 i j < s0 * s1 /\
  0 <= idx3 s1 s2 i j k < s0 * s1 * s2 /\
  0 <= idx4 s1 s2 s3 i j k l < s0 * s1 * s2 * s3.
Proof.
  intros. rewrite idx4_idx2, idx3_idx2. split; [assumption|].
  assert (0 <= idx2 s1 i j < s0 * s1) by (apply idx2_range; assumption).
  assert (0 <= idx2 s2 (idx2 s1 i j) k < s0 * s1 * s2) by (apply idx2_range; assumption).
  split; [assumption|]. split; [assumption|]. apply idx2_range; assumption.
Qed.

Theorem C12_injective s1 s2 s3 i j k l i' j' k' l' :
  0 <= j < s1 -> 0 <= k < s2 -> 0 <= l < s3 ->
  0 <= j' < s1 -> 0 <= k' < s2 -> 0 <= l' < s3 ->
  (idx1 i = idx1 i' -> i = i') /\
  (idx2 s1 i j = idx2 s1 i' j' -> i = i' /\ j = j') /\
  (idx3 s1 s2 i j k = idx3 s1 s2 i' j' k' -> i = i' /\ j = j' /\ k = k') /\
  (idx4 s1 s2 s3 i j k l = idx4 s1 s2 s3 i' j' k' l' -> i = i' /\ j = j' /\ k = k' /\ l = l').
Proof.
  intros Hj Hk Hl Hj' Hk' Hl'.
  assert (idx2 s1 i j = idx2 s1 i' j' -> i = i' /\ j = j') as I2 by (apply idx2_inj; assumption).
  assert (idx3 s1 s2 i j k = idx3 s1 s2 i' j' k' -> i = i' /\ j = j' /\ k = k') as I3.
  { rewrite !idx3_idx2. intros E. apply idx2_inj in E as [E ->]; auto. destruct (I2 E); auto. }
  split; [auto|]. split; [exact I2|]. split; [exact I3|].
  rewrite !idx4_idx2. intros E. apply idx2_inj in E as [E ->]; auto. destruct (I3 E) as (? & ? & ?); auto.
Qed.

Theorem C12_surjective s0 s1 s2 s3 : 0 <= s0 -> 0 <= s1 -> 0 <= s2 ->
  (forall x, 0 <= x < s0 * s1 -> exists i j, 0 <= i < s0 /\ 0 <= j < s1 /\ idx2 s1 i j = x) /\
  (forall x, 0 <= x < s0 * s1 * s2 -> exists i j k, 0 <= i < s0 /\ 0 <= j < s1 /\ 0 <= k < s2 /\ idx3 s1 s2 i j k = x) /\
  (forall x, 0 <= x < s0 * s1 * s2 * s3 -> exists i j k l,
     0 <= i < s0 /\ 0 <= j < s1 /\ 0 <= k < s2 /\ 0 <= l < s3 /\ idx4 s1 s2 s3 i j k l = x).
Proof.
  intros H0 H1 H2.
  assert (forall x, 0 <= x < s0 * s1 -> exists i j, 0 <= i < s0 /\ 0 <= j < s1 /\ idx2 s1 i j = x) as S2.
  { intros; apply idx2_surj; assumption. }
  assert (forall x, 0 <= x < s0 * s1 * s2 -> exists i j k, 0 <= i < s0 /\ 0 <= j < s1 /\ 0 <= k < s2 /\ idx3 s1 s2 i j k = x) as S3.
  { intros x Hx. destruct (idx2_surj (s0 * s1) s2 x ltac:(nia) Hx) as (y & k & Hy & Hk & <-).
    destruct (S2 y Hy) as (i & j & Hi & Hj & <-). exists i, j, k. rewrite idx3_idx2. auto. }
  split; [exact S2|]. split; [exact S3|].
  intros x Hx. destruct (idx2_surj (s0 * s1 * s2) s3 x ltac:(nia) Hx) as (y & l & Hy & Hl & <-).
  destruct (S3 y Hy) as (i & j & k & Hi & Hj & Hk & <-). exists i, j, k, l. rewrite idx4_idx2. auto 8.
Qed.
Example C12_case : idx4 3 4 5 1 2 3 4 = 119 /\ 119 < 2 * 3 * 4 * 5 /\ byte_size 3 4 = 16.
Proof. repeat split. Qed.

(** The debug-build bounds test admits every valid index but also one past
    the end in each dimension. *)
Theorem C12_debug_check_complete s0 s1 i j : 0 <= i < s0 -> 0 <= j < s1 ->
  debug_ok1 s0 i = true /\ debug_ok2 s0 s1 i j = true.
Proof. unfold debug_ok1, debug_ok2. intros. split; lia. Qed.
Theorem C12_debug_check_refuted :
  (exists s0 i, 0 < s0 /\ debug_ok1 s0 i = true /\ ~ 0 <= idx1 i < s0) /\
  (exists s0 s1 i j, 0 < s0 /\ 0 < s1 /\ debug_ok2 s0 s1 i j = true /\ ~ 0 <= idx2 s1 i j < s0 * s1).
Proof.
  split.
  - exists 3, 3. repeat split; unfold idx1; lia.
  - exists 3, 4, 3, 0. repeat split; unfold idx2; lia.
Qed.

(** ** C13 *)
Section C13.
Context {V : Type} (zero : V).

(** No history releases memory that is not live. *)
Theorem C13_no_bad_free (xs : list op) : run zero empty_world xs <> WBadFree.
Proof.
  pose proof (run_safe zero xs _ empty_inv) as S. intros E. rewrite E in S. exact S.
Qed.

(** Every released block was allocated by an array, and is released once. *)
Theorem C13_freed_once xs w : run zero empty_world xs = WOk w ->
  NoDup (hfreed (wh w)) /\ incl (hfreed (wh w)) (halloc (wh w)).
Proof.
  intros E. pose proof (run_safe zero xs _ empty_inv) as S. rewrite E in S. destruct S as [[] _ _]. auto.
Qed.

(** Every block that is allocated and not yet released has exactly one
    owner, and it is live. *)
Theorem C13_one_owner xs w b : run zero empty_world xs = WOk w ->
  In b (halloc (wh w)) -> ~ In b (hfreed (wh w)) ->
  (exists! o, owned_by w o b) /\ hmem (wh w) b <> None.
Proof.
  intros E Ha Hf. pose proof (run_safe zero xs _ empty_inv) as S. rewrite E in S.
  destruct S as [[] U _]. split; [|auto]. destruct (g_all b Ha) as [H|[o H]]; [contradiction|].
  exists o. split; [exact H|]. intros o' H'. eapply U; eassumption.
Qed.

(** After every array has been destroyed, everything has been released. *)
Theorem C13_no_leak xs w : run zero empty_world xs = WOk w ->
  (forall o, wobj w o = None) -> forall b, In b (halloc (wh w)) <-> In b (hfreed (wh w)).
Proof.
  intros E N b. pose proof (run_safe zero xs _ empty_inv) as S. rewrite E in S.
  destruct S as [[] _ _]. split; [|apply g_incl].
  intros Ha. destruct (g_all b Ha) as [H|(o & a & Eo & _)]; [exact H|]. rewrite N in Eo. discriminate.
Qed.

(** Memory from outside the arrays is never released by them. *)
Theorem C13_external_memory_kept xs l ys w w' :
  run zero empty_world xs = WOk w ->
  run zero w (OExtNew l :: ys) = WOk w' ->
  ~ In (OExtFree (hnext (wh w))) ys ->
  hmem (wh w') (hnext (wh w)) <> None /\ ~ In (hnext (wh w)) (hfreed (wh w')).
Proof.
  intros E E' N. pose proof (run_safe zero xs _ empty_inv) as S. rewrite E in S. cbn in S.
  cbn [run step] in E'. set (w1 := mkW _ _ _) in E'.
  assert (winv w1) as W1 by (exact (step_safe zero w (OExtNew l) S)).
  assert (kept (hnext (wh w)) w1) as K1.
  { unfold kept, w1. cbn. rewrite upd_same. split; [discriminate|]. split; [|lia].
    intros H. destruct S as [[] _ _]. apply g_next in H. lia. }
  pose proof (run_kept zero _ ys w1 W1 K1 N) as K. pose proof (run_safe zero ys w1 W1) as S'.
  rewrite E' in K, S'. destruct K as (A & B & C). split; [exact A|].
  intros H. apply B. destruct S' as [[] _ _]. apply g_incl, H.
Qed.
End C13.

Example C13_case :
  let prog := [ONew KArr2 [2;3] 0 0 true; OCopy 0; ONew KArr [4] 0 0 true; OExtNew [1;2;3;4];
               ODetach 2; OAttach 2 (Some 4%nat); OAssign 1 0; ODestroy 0; ODestroy 2; ODestroy 1] in
  match run 0 empty_world prog with
  | WOk w => length (hfreed (wh w)) = length (halloc (wh w)) /\ (3 < length (halloc (wh w)))%nat /\ hmem (wh w) 4%nat = Some [1;2;3;4]
  | _ => False end.
Proof. vm_compute. repeat split; repeat constructor. Qed.

(** ** C14 *)
Theorem C14_assign {V} (zero : V) h a d l : assignable h a d l ->
  exists h' a', assign zero (Some d) h a = Fin true h' a' /\
    dims a' = dims d /\ dtype a' = dtype d /\ dloc a' = dloc d /\
    readable h' a' l /\ readable h' d l.
Proof. exact (assign_copies zero h a d l). Qed.

Theorem C14_self {V} (zero : V) h a l : readable h a l -> akind a <> KArr2 \/ owns a = false ->
  exists h', assign zero None h a = Fin true h' a /\ readable h' a l.
Proof. exact (self_assign_ok zero h a l). Qed.

(** Self-assignment of an owning two-dimensional array erases it. *)
Theorem C14_self_2d_zeroes {V} (zero : V) h a b l : akind a = KArr2 -> owned a b -> hmem h b = Some l ->
  Forall (fun x => 0 < x) (dims a) ->
  exists h' a', assign zero None h a = Fin true h' a' /\ dims a' = dims a /\
    readable h' a' (repeat zero (Z.to_nat (total (dims a)))).
Proof. exact (self_assign2_zero zero h a b l). Qed.

Definition ex_heap : @heap Z := mkH 2 (fun b => match b with 0%nat => Some [5;6] | 1%nat => Some [1;2;3;4;5;6] | _ => None end) [0;1]%nat [].
Theorem C14_self_refuted : exists (h : @heap Z) a l,
  readable h a l /\
  exists h' a' l', assign 0 None h a = Fin true h' a' /\ readable h' a' l' /\ l <> l'.
Proof.
  exists ex_heap, (mkA KArr2 true [1;2] 0 0 (Some 0%nat)), [5;6]. split.
  - exists 0%nat, [5;6]. repeat split. cbn. lia.
  - destruct (C14_self_2d_zeroes 0 ex_heap (mkA KArr2 true [1;2] 0 0 (Some 0%nat)) 0%nat [5;6]) as (h' & a' & E & _ & R);
      try reflexivity.
    + split; reflexivity.
    + repeat constructor; lia.
    + exists h', a', (repeat 0 2). split; [exact E|]. split; [exact R|]. discriminate.
Qed.

(** A successful Allocate gives the requested size (a zero argument keeps the
    current one) and zero-initialised owned memory. *)
Theorem C14_allocate {V} (zero : V) ds h a h' a' : akind a <> KStruct -> length ds = length (dims a) ->
  allocate zero ds h a = Fin true h' a' ->
  length (dims a') = length ds /\
  (forall i, nth i (dims a') 0 = if nth i ds 0 =? 0 then nth i (dims a) 0 else nth i ds 0) /\
  owns a' = true /\ dtype a' = dtype a /\ dloc a' = dloc a /\
  readable h' a' (repeat zero (Z.to_nat (total (dims a')))).
Proof.
  intros K L H. destruct (allocate_result zero ds h a h' a' K H) as (E & R). rewrite E at 1.
  split; [apply default_length, L|]. split; [|exact R]. intros i. rewrite E. apply default_nth, L.
Qed.
Example C14_allocate_case : exists h' a',
  allocate 0 [0; 4] ex_heap (mkA KArr2 true [1;2] 0 0 (Some 0%nat)) = Fin true h' a' /\ dims a' = [1; 4].
Proof. eexists. eexists. split; [vm_compute; reflexivity|reflexivity]. Qed.

(** Cases: unallocated destination, owned destination of another size, and
    an attached destination. *)
Example C14_case1 : assignable ex_heap (mkA KArr2 true [0;0] 0 0 None) (mkA KArr2 true [2;3] 1 2 (Some 1%nat)) [1;2;3;4;5;6].
Proof.
  constructor; cbn; try congruence; try (repeat constructor; lia).
  - exists 1%nat, [1;2;3;4;5;6]. repeat split. cbn. lia.
  - intros [|[|b]]; cbn; try lia; congruence.
  - split; [reflexivity|]. split; [intros b [_ H]; discriminate|discriminate].
Qed.
Example C14_case2 : assignable ex_heap (mkA KArr true [1;2] 0 0 (Some 0%nat)) (mkA KArr true [2;3] 1 2 (Some 1%nat)) [1;2;3;4;5;6].
Proof.
  constructor; cbn; try congruence; try (repeat constructor; lia).
  - exists 1%nat, [1;2;3;4;5;6]. repeat split. cbn. lia.
  - intros [|[|b]]; cbn; try lia; congruence.
  - split; [reflexivity|]. split; [|discriminate].
    intros b [_ H]. injection H as <-. split; [discriminate|]. split; [discriminate|].
    exists [5;6]. split; [reflexivity|cbn; lia].
Qed.
Example C14_case3 : assignable ex_heap (mkA KArr false [2] 1 2 (Some 0%nat)) (mkA KArr true [2] 1 2 (Some 1%nat)) [1;2].
Proof.
  constructor; cbn; try congruence; try (repeat constructor; lia).
  - exists 1%nat, [1;2;3;4;5;6]. repeat split. cbn. lia.
  - intros [|[|b]]; cbn; try lia; congruence.
  - split; [discriminate|]. split; [intros b [H _]; discriminate|].
    intros _ b H. injection H as <-. repeat split. exists [5;6]. split; [reflexivity|cbn; lia].
Qed.

Print Assumptions C11_total_bytes.
Print Assumptions C11_array_sizes_aligned.
Print Assumptions C11_allocate_layout.
Print Assumptions C11_attach_layout.
Print Assumptions C11_allocate_succeeds.
Print Assumptions C11_reallocate.
Print Assumptions C11_container_memory.
Print Assumptions C11_attach_null_refuted.
Print Assumptions C12_byte_size.
Print Assumptions C12_range.
Print Assumptions C12_injective.
Print Assumptions C12_surjective.
Print Assumptions C12_debug_check_complete.
Print Assumptions C12_debug_check_refuted.
Print Assumptions C13_no_bad_free.
Print Assumptions C13_freed_once.
Print Assumptions C13_one_owner.
Print Assumptions C13_no_leak.
Print Assumptions C13_external_memory_kept.
Print Assumptions C14_assign.
Print Assumptions C14_self.
Print Assumptions C14_self_2d_zeroes.
Print Assumptions C14_self_refuted.
Print Assumptions C14_allocate.
