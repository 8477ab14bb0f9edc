(** Theorems for C32. *)
From Coq Require Import ZArith List Bool Lia Permutation.
From Verif Require Import ConsolModel ConsolSpec ConsolProofs.
Import ListNotations.
Local Open Scope Z_scope.

(** C32: at the root, for distinct pairs that have data, a sequence of
    messages is accepted exactly when each is expected and none repeats. *)
Theorem C32_accepted n act ts ms : NoDup ts -> Forall real_pair ts -> Forall (fun m => 0 <= snd m <= 3) ms ->
  (NoDup ms /\ Forall (expected n ts) ms -> exists s, receive ms (construct 0 n act ts) = Ok s) /\
  (~ (NoDup ms /\ Forall (expected n ts) ms) -> receive ms (construct 0 n act ts) = Throw).
Proof.
  intros D R L. destruct (receive_ok n act ts ms D R L [] _ [] (inv_start n act ts) eq_refl (NoDup_nil _) (Forall_nil _) (Forall2_nil _)) as (A&B).
  cbn [app] in *. split; [|exact B]. intros H. destruct (A H) as (s&_&E&_). eauto.
Qed.

(** C32: Done is reported exactly when every expected message has arrived. *)
Theorem C32_done n act ts ms s : NoDup ts -> Forall real_pair ts -> Forall (fun m => 0 <= snd m <= 3) ms ->
  receive ms (construct 0 n act ts) = Ok s ->
  (done s = true <-> forall m, expected n ts m -> In m ms).
Proof.
  intros D R L E. destruct (receive_ok n act ts ms D R L [] _ [] (inv_start n act ts) eq_refl (NoDup_nil _) (Forall_nil _) (Forall2_nil _)) as (A&B).
  cbn [app] in *.
  destruct (valid_dec n ts ms) as [(ND&EX)|V]; [|rewrite B in E by exact V; discriminate].
  destruct (A (conj ND EX)) as (s'&L'&E'&I&F). rewrite E' in E. injection E as ->. rewrite app_nil_r in F.
  rewrite (done_inv _ _ _ _ I). split.
  - intros H ((ix, t), l) (X&T). apply In_nth_error in T. destruct T as (m&T).
    assert (Q : In (Z.to_nat ix, m) L') by (apply H; [lia|apply nth_error_Some; congruence]).
    apply in_rev.
    assert (Y : exists x, In x (rev ms) /\ slot ts x (Z.to_nat ix, m)).
    { clear - F Q. induction F; [destruct Q|]. destruct Q as [<-|Q]; [exists x; split; [left|]; auto|].
      destruct (IHF Q) as (z&Z1&Z2). exists z. split; [right|]; auto. }
    destruct Y as (((iy, t'), l')&Y1&Y2&Y3). cbn in Y2, Y3.
    assert (PX : expected n ts (iy, t', l')) by (rewrite Forall_forall in EX; apply EX, in_rev; auto). destruct PX as (PX&_).
    assert (ix = iy) by lia. assert ((t, l) = (t', l')) by congruence. congruence.
  - intros H p m P M. destruct (nth_error ts m) as [(t, l)|] eqn:T; [|apply nth_error_None in T; lia].
    assert (Q : In (Z.of_nat p, t, l) (rev ms)) by (apply in_rev; rewrite rev_involutive; apply H; cbn; split; [lia|eapply nth_error_In; eauto]).
    assert (Y : exists e, In e L' /\ slot ts (Z.of_nat p, t, l) e).
    { clear - F Q. induction F; [destruct Q|]. destruct Q as [<-|Q]; [exists y; split; [left|]; auto|].
      destruct (IHF Q) as (z&Z1&Z2). exists z. split; [right|]; auto. }
    destruct Y as ((a, b)&Y1&Y2&Y3). cbn in Y2, Y3. rewrite Nat2Z.id in Y2. subst a.
    assert (b = m) by (apply (NoDup_nth_error ts); auto; [apply nth_error_Some; congruence|congruence]). subst. auto.
Qed.

(** C32: so Done is reported after exactly one message for every patch and
    pair, in whatever order they came. *)
Theorem C32_count n act ts ms s : NoDup ts -> Forall real_pair ts -> Forall (fun m => 0 <= snd m <= 3) ms ->
  receive ms (construct 0 n act ts) = Ok s -> done s = true -> length ms = (n * length ts)%nat.
Proof.
  intros D R L E DN.
  destruct (valid_dec n ts ms) as [(ND&EX)|V]; [|rewrite (proj2 (C32_accepted n act ts ms D R L)) in E by exact V; discriminate].
  rewrite (C32_done n act ts ms s) in DN by auto.
  rewrite <- all_length. apply Nat.le_antisymm.
  - apply NoDup_incl_length; auto. intros m M. apply all_in. rewrite Forall_forall in EX. auto.
  - apply NoDup_incl_length; [apply all_nodup; auto|]. intros m M. apply DN, all_in, M.
Qed.

(** C32: a rank may ask for exactly one send request per active patch and
    pair; asking again throws. *)
Theorem C32_requests rank n act ts k : NoDup ts -> Forall real_pair ts ->
  ((k <= act * length ts)%nat -> send k (construct rank n act ts) = Ok (seq 0 k)) /\
  ((act * length ts < k)%nat -> send k (construct rank n act ts) = Throw).
Proof.
  intros D R.
  assert (LM : length (build [] 0 ts) = length ts).
  { rewrite build_ok by (try apply keys_nodup; auto; cbn; tauto). cbn. rewrite combine_length. unfold keys. rewrite map_length, seq_length. lia. }
  assert (RQ : requests (construct rank n act ts) = (act * length ts)%nat) by (destruct rank; cbn; rewrite LM; reflexivity).
  assert (CU : current (construct rank n act ts) = 0%nat) by (destruct rank; reflexivity).
  split; intros K.
  - rewrite send_ok; [rewrite CU; reflexivity|lia].
  - apply send_throw. lia.
Qed.

(** C32: tags of the first sixteen types come back as they were. *)
Theorem C32_tag ix t l : 0 <= ix < 2 ^ 25 -> 0 <= t < 16 -> 0 <= l < 4 ->
  exists tag, generate_tag ix t l = Some tag /\ parse_tag tag = (ix, t, l).
Proof.
  intros X T L. unfold generate_tag. rewrite key_eq, Z.shiftl_mul_pow2 by lia. change (2 ^ 6) with 64. unfold fits.
  destruct (Z.leb_spec 0 ix); [|lia]. destruct (Z.leb_spec (- 2 ^ 31) (ix * 64)); [|lia].
  destruct (Z.ltb_spec (ix * 64) (2 ^ 31)); [|lia]. destruct (Z.leb_spec (- 2 ^ 31) (ix * 64 + (4 * t + l))); [|lia].
  destruct (Z.ltb_spec (ix * 64 + (4 * t + l)) (2 ^ 31)); [|lia]. cbn [andb]. eexists. split; [reflexivity|].
  unfold parse_tag. rewrite !Z.shiftr_div_pow2 by lia.
  change 15 with (Z.ones 4). change 3 with (Z.ones 2). rewrite !Z.land_ones by lia.
  change (2 ^ 6) with 64. change (2 ^ 2) with 4. change (2 ^ 4) with 16.
  assert (E1 : (ix * 64 + (4 * t + l)) / 64 = ix) by (symmetry; apply (Z.div_unique _ _ _ (4 * t + l)); lia).
  assert (E2 : (ix * 64 + (4 * t + l)) / 4 = ix * 16 + t) by (symmetry; apply (Z.div_unique _ _ _ l); lia).
  assert (E3 : (ix * 64 + (4 * t + l)) mod 4 = l) by (symmetry; apply (Z.mod_unique _ _ (ix * 16 + t)); lia).
  assert (E4 : (ix * 16 + t) mod 16 = t) by (symmetry; apply (Z.mod_unique _ _ ix); lia).
  rewrite E1, E2, E3, E4. reflexivity.
Qed.

(** C32: the types from DataType_Divergence = 16 on do not fit.  The tag of
    such a type is the tag of another type of the next patch. *)
Theorem C32_tag_refuted ix t l : 0 <= ix < 2 ^ 24 -> 16 <= t <= 19 -> 0 <= l < 4 ->
  generate_tag ix t l <> None /\ generate_tag ix t l = generate_tag (ix + 1) (t - 16) l.
Proof.
  intros X T L. unfold generate_tag. rewrite !key_eq, !Z.shiftl_mul_pow2 by lia. change (2 ^ 6) with 64. unfold fits.
  destruct (Z.leb_spec 0 ix); [|lia]. destruct (Z.leb_spec (- 2 ^ 31) (ix * 64)); [|lia].
  destruct (Z.ltb_spec (ix * 64) (2 ^ 31)); [|lia]. destruct (Z.leb_spec (- 2 ^ 31) (ix * 64 + (4 * t + l))); [|lia].
  destruct (Z.ltb_spec (ix * 64 + (4 * t + l)) (2 ^ 31)); [|lia]. cbn [andb].
  destruct (Z.leb_spec 0 (ix + 1)); [|lia]. destruct (Z.leb_spec (- 2 ^ 31) ((ix + 1) * 64)); [|lia].
  destruct (Z.ltb_spec ((ix + 1) * 64) (2 ^ 31)); [|lia]. destruct (Z.leb_spec (- 2 ^ 31) ((ix + 1) * 64 + (4 * (t - 16) + l))); [|lia].
  destruct (Z.ltb_spec ((ix + 1) * 64 + (4 * (t - 16) + l)) (2 ^ 31)); [|lia]. cbn [andb]. split; [discriminate|f_equal; lia].
Qed.

(** C32: a type at DataLocation_None = -1 is taken for the type before it on
    the interfaces: asked for the pressure at DataLocation_REdge the root
    accepts surface pressure (13 at none) in its place. *)
Theorem C32_location_refuted : exists s, receive [(0, 13, -1)] (construct 0 1 1 [(12, 3)]) = Ok s /\ done s = true.
Proof. eexists. split; vm_compute; reflexivity. Qed.

(** C32: if a pair is requested twice Done is never reported. *)
Theorem C32_duplicate_refuted n act ts ms s : (0 < n)%nat -> (exists a b c p, ts = a ++ p :: b ++ p :: c) ->
  receive ms (construct 0 n act ts) = Ok s -> done s = false.
Proof.
  intros N (a&b&c&p&->) E. set (ts := a ++ p :: b ++ p :: c) in *. set (j := (length a + 1 + length b)%nat).
  assert (JL : (j < length ts)%nat) by (unfold ts, j; rewrite app_length; cbn; rewrite app_length; cbn; lia).
  destruct (receive_unused n ts j ms (construct 0 n act ts) s) as (C&F); auto.
  - apply second_unused.
  - cbn. rewrite repeat_length. auto.
  - cbn. apply nth_error_repeat. auto.
  - cbn. apply repeat_length.
  - destruct (done s) eqn:DN; auto. unfold done in DN. rewrite forallb_forall in DN.
    apply nth_error_In in C. apply DN in C. rewrite F in C. apply Nat.eqb_eq in C. lia.
Qed.

(** C32: away from the root Done is reported at once. *)
Theorem C32_other_rank rank n act ts : (0 < rank)%nat -> done (construct rank n act ts) = true.
Proof. intros. destruct rank; [lia|reflexivity]. Qed.

(** Three pairs of two patches arriving in a mixed order *)
Example C32_case : let ts := [(0, 0); (0, 3); (2, 0)] in
  let ms := [(1, 0, 3); (0, 2, 0); (0, 0, 0); (1, 2, 0); (1, 0, 0); (0, 0, 3)] in
  NoDup ts /\ Forall real_pair ts /\ Forall (fun m => 0 <= snd m <= 3) ms /\
  exists s s', receive ms (construct 0 2 1 ts) = Ok s /\ done s = true /\
    receive (removelast ms) (construct 0 2 1 ts) = Ok s' /\ done s' = false.
Proof.
  cbn zeta. split; [|split; [|split]].
  - repeat constructor; cbn; intuition discriminate.
  - repeat constructor; cbn; lia.
  - repeat constructor; cbn; lia.
  - do 2 eexists. repeat split; vm_compute; reflexivity.
Qed.

Print Assumptions C32_accepted. Print Assumptions C32_done. Print Assumptions C32_count. Print Assumptions C32_requests.
Print Assumptions C32_tag. Print Assumptions C32_tag_refuted. Print Assumptions C32_location_refuted.
Print Assumptions C32_duplicate_refuted. Print Assumptions C32_other_rank.
