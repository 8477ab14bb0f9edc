(** * C126 function timers: the record of a group *)
From Coq Require Import ZArith String List Lia Bool.
From Verif Require Import TimerModel TimerSpec.
Import ListNotations.
Local Open Scope Z_scope.

Definition record_of (l : list Z) : option group_data :=
  match l with [] => None | _ => Some (GroupData (ulong (total l)) (uint (Z.of_nat (length l)))) end.
Lemma elapsed_moment : forall now from, elapsed now from = ulong (moment now - moment from).
Proof. intros. unfold elapsed, moment, per_second. f_equal. lia. Qed.
Lemma add_record : forall d l, record_of (d :: l) = Some match record_of l with
  | Some r => GroupData (ulong (total_time r + ulong d)) (uint (entries r + 1)) | None => GroupData (ulong d) 1 end.
Proof.
  intros d l. destruct l as [|e l]; cbn [record_of].
  - cbn [total fold_right length]. rewrite Z.add_0_r. reflexivity.
  - cbn [total_time entries]. do 2 f_equal.
    + change (total (d :: e :: l)) with (d + total (e :: l)). unfold ulong. rewrite Zplus_mod_idemp_l, Zplus_mod_idemp_r. f_equal. lia.
    + unfold uint. rewrite Zplus_mod_idemp_l. f_equal. cbn [length]. lia.
Qed.
(** what the state is, after a history *)
Definition matches (h : history) (s : timing) : Prop :=
  (forall i, match timers s i with Some t => started h i = Some (moment (start t), group t) | None => started h i = None end) /\
  (forall g, g <> ""%string -> records s g = record_of (durations h g)) /\ records s "" = None.

Lemma time_matches : forall h s now c i t, matches h s -> timers s i = Some t -> ends c = Some i -> 
  forall s', s' = snd (time_of s t now true) -> timers s' = timers s /\ records s' "" = None /\ forall g, g <> ""%string -> records s' g = record_of (durations ((now, c) :: h) g).
Proof.
  intros h s now c i t (MT & MR & ME) T E s' ->.
  assert (forall g, durations ((now, c) :: h) g = if String.eqb (group t) g then (moment now - moment (start t)) :: durations h g else durations h g) as D.
  { intros g. pose proof (MT i) as Q. rewrite T in Q. cbn [durations]. rewrite E. destruct c; try discriminate; rewrite Q; reflexivity. }
  unfold time_of. destruct (String.eqb_spec (group t) "") as [G|G].
  - cbn [snd]. split; [reflexivity|]. split; [exact ME|]. intros g N. rewrite D. destruct (String.eqb_spec (group t) g) as [<-|]; [contradiction|]. apply MR. exact N.
  - assert (records s (group t) = record_of (durations h (group t))) as RG by (apply MR; exact G).
    destruct (records s (group t)) as [r|] eqn:R; cbn [snd]; (split; [reflexivity|]); split;
    try (cbn [records set_record]; destruct (String.eqb_spec "" (group t)); [congruence|exact ME]);
    intros g N; rewrite D; cbn [records set_record];
    (destruct (String.eqb_spec g (group t)) as [->|NG]; [rewrite String.eqb_refl, add_record, <- RG, elapsed_moment; reflexivity
     |destruct (String.eqb_spec (group t) g); [congruence|]; apply MR; exact N]).
Qed.

Lemma perform_matches : forall h s now c s', matches h s -> perform s now c = Done s' -> matches ((now, c) :: h) s'.
Proof.
  intros h s now c s' M H. pose proof M as (MT & MR & ME). destruct c as [i g|i|i d|i|i|g]; cbn [perform] in H.
  - destruct (timers s i) eqn:T; [discriminate|]. injection H as <-. split; [|split; [exact MR|exact ME]]. intros j. cbn [timers set_timer started]. rewrite (Nat.eqb_sym i j).
    destruct (Nat.eqb_spec j i); [reflexivity|apply MT].
  - destruct (timers s i) as [t|] eqn:T; [|discriminate]. injection H as <-. split; [|split; [exact MR|exact ME]]. intros j. cbn [timers set_timer started]. rewrite (Nat.eqb_sym i j).
    destruct (Nat.eqb_spec j i) as [->|]; [pose proof (MT i) as Q; rewrite T in Q; rewrite Q; reflexivity|apply MT].
  - destruct (timers s i) as [t|] eqn:T; [|discriminate]. injection H as H. destruct d.
    + destruct (time_matches h s now (Look i true) i t M T eq_refl s' (eq_sym H)) as (E1 & E2 & E3). split; [|split; assumption]. intros j. rewrite E1. cbn [started]. apply MT.
    + assert (s' = s) as ->. { rewrite <- H. unfold time_of. destruct (String.eqb _ _); reflexivity. } split; [intros j; cbn [started]; apply MT|split; [exact MR|exact ME]].
  - destruct (timers s i) as [t|] eqn:T; [|discriminate]. injection H as H.
    destruct (time_matches h s now (Stop i) i t M T eq_refl s' (eq_sym H)) as (E1 & E2 & E3). split; [|split; assumption]. intros j. rewrite E1. cbn [started]. apply MT.
  - destruct (timers s i) as [t|] eqn:T; [|discriminate]. injection H as <-.
    destruct (time_matches h s now (Destroy i) i t M T eq_refl _ eq_refl) as (E1 & E2 & E3). split; [|split; assumption]. intros j. cbn [timers set_timer started]. rewrite (Nat.eqb_sym i j).
    destruct (Nat.eqb_spec j i); [reflexivity|]. rewrite E1. apply MT.
  - destruct (records s g) as [r|] eqn:R; [|discriminate]. injection H as <-. split; [intros j; cbn [started]; apply MT|]. split.
    + intros k N. cbn [records set_record durations]. rewrite (String.eqb_sym g k). destruct (String.eqb_spec k g); [reflexivity|]. apply MR. exact N.
    + cbn [records set_record]. destruct (String.eqb_spec "" g); [reflexivity|exact ME].
Qed.
Lemma run_matches : forall p h s s', matches h s -> run_calls s p = Done s' -> matches (rev p ++ h) s'.
Proof.
  induction p as [|[now c] p IH]; intros h s s' M H; [injection H as <-; exact M|]. cbn [run_calls] in H. destruct (perform s now c) as [s1| |] eqn:E; try discriminate.
  cbn [rev]. rewrite <- app_assoc. cbn [app]. exact (IH _ _ _ (perform_matches _ _ _ _ _ M E) H).
Qed.
Lemma fresh_matches : matches [] fresh.
Proof. split; [|split]; intros; reflexivity. Qed.

(** ** After any program the record of a named group is made of the durations measured
    since it was last forgotten: their sum, their number, nothing if there are none. *)
Theorem C126_record : forall p s g, run_calls fresh p = Done s -> g <> ""%string ->
  let l := durations (rev p) g in
  records s g = match l with [] => None | _ => Some (GroupData (total l mod 2 ^ 64) (Z.of_nat (length l) mod 2 ^ 32)) end.
Proof.
  intros p s g H N l. destruct (run_matches p [] fresh s fresh_matches H) as (_ & R & _). rewrite app_nil_r in R. exact (R g N).
Qed.
Print Assumptions C126_record.

(** Timers without a name leave no record. *)
Theorem C126_unnamed : forall p s, run_calls fresh p = Done s -> records s "" = None.
Proof. intros p s H. destruct (run_matches p [] fresh s fresh_matches H) as (_ & _ & R). exact R. Qed.
Print Assumptions C126_unnamed.

(** ** The average: between the least and the greatest duration, as long as the clock
    does not go back and the numbers fit. *)
Lemma total_bounds : forall l a b, (forall d, In d l -> a <= d <= b) -> a * Z.of_nat (length l) <= total l <= b * Z.of_nat (length l).
Proof.
  induction l as [|d l IH]; intros a b H; [cbn; lia|]. specialize (IH a b (fun e I => H e (or_intror I))). specialize (H d (or_introl eq_refl)).
  cbn [total fold_right length]. fold (total l). lia.
Qed.
Theorem C126_average : forall p s g a b, run_calls fresh p = Done s -> g <> ""%string -> durations (rev p) g <> [] -> 0 <= a ->
  (forall d, In d (durations (rev p) g) -> a <= d <= b) -> total (durations (rev p) g) < 2 ^ 64 -> Z.of_nat (length (durations (rev p) g)) < 2 ^ 32 ->
  exists v, average s g = Some v /\ v = total (durations (rev p) g) / Z.of_nat (length (durations (rev p) g)) /\ a <= v <= b /\ count s g = Z.of_nat (length (durations (rev p) g)).
Proof.
  intros p s g a b H N NE A B T L. pose proof (C126_record p s g H N) as R. cbv zeta in R. set (l := durations (rev p) g) in *.
  pose proof (total_bounds l a b B) as TB. assert (1 <= Z.of_nat (length l)) as L1 by (destruct l; [contradiction|cbn [length]; lia]).
  assert (records s g = Some (GroupData (total l) (Z.of_nat (length l)))) as R'.
  { rewrite R. destruct l as [|d l0] eqn:El; [contradiction|]. rewrite !Z.mod_small by (split; [nia|assumption]). reflexivity. }
  exists (total l / Z.of_nat (length l)). unfold average, count. rewrite R'. cbn [entries total_time]. destruct (Z.eqb_spec (Z.of_nat (length l)) 0); [lia|].
  repeat split; [apply Z.div_le_lower_bound; lia|apply Z.div_le_upper_bound; lia].
Qed.
Print Assumptions C126_average.

(** durations are not negative if the clock does not go back *)
Lemma started_before : forall h i m g, started h i = Some (m, g) -> exists e, In e h /\ moment (fst e) = m.
Proof.
  induction h as [|[now c] h IH]; intros i m g H; [discriminate|]. cbn [started] in H.
  destruct c as [j k|j|j d|j|j|k]; try (destruct (IH _ _ _ H) as (e & I & E); exists e; split; [right; exact I|exact E]).
  - destruct (Nat.eqb j i); [injection H as <- <-; exists (now, Create j k); split; [left; reflexivity|reflexivity]|]. destruct (IH _ _ _ H) as (e & I & E). exists e. split; [right; exact I|exact E].
  - destruct (Nat.eqb j i); [|destruct (IH _ _ _ H) as (e & I & E); exists e; split; [right; exact I|exact E]].
    destruct (started h i) as [[m' k]|]; [|discriminate]. injection H as <- <-. exists (now, Restart j). split; [left; reflexivity|reflexivity].
  - destruct (Nat.eqb j i); [discriminate|]. destruct (IH _ _ _ H) as (e & I & E). exists e. split; [right; exact I|exact E].
Qed.
Theorem C126_forward : forall h g d, forward h -> In d (durations h g) -> 0 <= d.
Proof.
  induction h as [|[now c] h IH]; intros g d F I; [destruct I|].
  assert (forward h) as F' by (intros a b l1 l2 E; apply (F a b ((now, c) :: l1) l2); cbn [app]; congruence).
  assert (forall i m k, started h i = Some (m, k) -> 0 <= moment now - m) as P.
  { intros i m k S. destruct (started_before _ _ _ _ S) as (e & Ie & <-). pose proof (F e (now, c) [] h eq_refl Ie). cbn [fst] in *. lia. }
  cbn [durations] in I. destruct c as [j k|j|j dn|j|j|k]; cbn [ends] in I; try (exact (IH _ _ F' I));
  try (destruct dn; [|exact (IH _ _ F' I)]);
  try (destruct (started h j) as [[m k]|] eqn:S; [|exact (IH _ _ F' I)]; destruct (String.eqb k g); [destruct I as [<-|I]; [exact (P _ _ _ S)|]|]; exact (IH _ _ F' I)).
  destruct (String.eqb k g); [destruct I|exact (IH _ _ F' I)].
Qed.
Print Assumptions C126_forward.

Lemma time_timers : forall s t now d, timers (snd (time_of s t now d)) = timers s.
Proof. intros. unfold time_of. destruct (String.eqb _ _), d, (records s (group t)); reflexivity. Qed.
(** ** A measurement should be recorded once.  True of a timer that is only created and
    destroyed; a timer that is stopped is recorded again when it is destroyed, and the
    second time counts from the same start. *)
Theorem C126_scope : forall p s i g t0 t1, run_calls fresh p = Done s -> g <> ""%string -> timers s i = None ->
  exists s', run_calls s [(t0, Create i g); (t1, Destroy i)] = Done s' /\
  count s' g = (count s g + 1) mod 2 ^ 32 /\ (exists r, records s' g = Some r /\ total_time r = (match records s g with Some r => total_time r | None => 0 end + (moment t1 - moment t0)) mod 2 ^ 64) /\
  (forall k, k <> g -> records s' k = records s k) /\ (forall j, timers s' j = timers s j).
Proof.
  intros p s i g t0 t1 H N T. cbn [run_calls perform]. rewrite T. cbn [timers set_timer]. rewrite Nat.eqb_refl. eexists. split; [reflexivity|].
  unfold count, time_of. cbn [group start records set_timer]. destruct (String.eqb_spec g "") as [|_]; [contradiction|]. rewrite elapsed_moment.
  assert (forall j, timers (snd (time_of (set_timer s i (Some (Timer t0 g))) (Timer t0 g) t1 true)) j = if Nat.eqb j i then Some (Timer t0 g) else timers s j) as Q by (intros j; rewrite time_timers; reflexivity).
  destruct (records s g) as [r|]; cbn [snd records set_record set_timer timers]; rewrite String.eqb_refl; cbn [entries]; (split; [reflexivity|]); (split; [eexists; split; [reflexivity|cbn [total_time]]|]);
  try (unfold ulong; rewrite ?Zplus_mod_idemp_r; f_equal; lia);
  (split; [intros k NK; destruct (String.eqb_spec k g); [contradiction|reflexivity]|intros j; destruct (Nat.eqb_spec j i) as [->|]; congruence]).
Qed.
Print Assumptions C126_scope.
Theorem C126_refuted : forall i g t0 t1 t2, g <> ""%string -> exists s, run_calls fresh [(t0, Create i g); (t1, Stop i); (t2, Destroy i)] = Done s /\ count s g = 2 /\
  records s g = Some (GroupData (((moment t1 - moment t0) + (moment t2 - moment t0)) mod 2 ^ 64) 2).
Proof.
  intros i g t0 t1 t2 N. set (p := [(t0, Create i g); (t1, Stop i); (t2, Destroy i)]).
  assert (exists s, run_calls fresh p = Done s) as (s & H).
  { unfold p. cbn [run_calls perform fresh timers set_timer]. rewrite Nat.eqb_refl. rewrite time_timers. cbn [timers set_timer]. rewrite Nat.eqb_refl. eexists. reflexivity. }
  exists s. pose proof (C126_record p s g H N) as R. unfold p in R. cbn [rev app durations ends started] in R. rewrite Nat.eqb_refl, String.eqb_refl in R. cbn [length] in R.
  split; [exact H|]. unfold count. rewrite R. cbn [entries total fold_right]. split; [reflexivity|]. do 2 f_equal. rewrite Z.add_0_r. f_equal. lia.
Qed.
Print Assumptions C126_refuted.

(** ** Forgetting a group that has no record throws.  Model::Go forgets "Communicate"
    before its first step (src/atm/Model.cpp:392), which only Grid::Exchange records, after
    it has returned early if exchanges are blocked (src/atm/Grid.cpp:631-636). *)
Theorem C126_forget_refuted : forall p s now g, run_calls fresh p = Done s -> g <> ""%string ->
  (perform s now (Forget g) = Throws <-> durations (rev p) g = []).
Proof.
  intros p s now g H N. cbn [perform]. rewrite (C126_record p s g H N). destruct (durations (rev p) g); split; intros E; try reflexivity; discriminate.
Qed.
Print Assumptions C126_forget_refuted.
Theorem C126_blocked : forall p s now g, run_calls fresh p = Done s -> g <> ""%string -> (forall t i k, In (t, Create i k) p -> k <> g) -> perform s now (Forget g) = Throws.
Proof.
  intros p s now g H N NC. apply (C126_forget_refuted p s now g H N).
  assert (forall h, (forall t i k, In (t, Create i k) h -> k <> g) -> durations h g = [] /\ forall i m k, started h i = Some (m, k) -> k <> g) as Q.
  { induction h as [|[t c] h IH]; intros C; [split; [reflexivity|discriminate]|]. destruct IH as (D & S); [intros; apply (C t0 i); right; assumption|].
    split.
    - cbn [durations]. destruct c as [j k|j|j dn|j|j|k]; cbn [ends]; try exact D; try (destruct dn; [|exact D]);
      try (destruct (started h j) as [[m k]|] eqn:E; [|exact D]; destruct (String.eqb_spec k g); [exfalso; exact (S _ _ _ E e)|exact D]). destruct (String.eqb k g); [reflexivity|exact D].
    - intros i m k E. cbn [started] in E. destruct c as [j k'|j|j dn|j|j|k']; try exact (S _ _ _ E).
      + destruct (Nat.eqb j i); [injection E as <- <-; apply (C t j); left; reflexivity|exact (S _ _ _ E)].
      + destruct (Nat.eqb j i); [|exact (S _ _ _ E)]. destruct (started h i) as [[m' k']|] eqn:E'; [|discriminate]. injection E as <- <-. exact (S _ _ _ E').
      + destruct (Nat.eqb j i); [discriminate|exact (S _ _ _ E)]. }
  apply Q. intros t i k I. apply (NC t i). apply in_rev. exact I.
Qed.
Print Assumptions C126_blocked.

(** ** After 2^32 measurements the count is zero and the average divides by it. *)
Theorem C126_wrap_refuted : forall p s g, run_calls fresh p = Done s -> g <> ""%string ->
  (average s g = None <-> durations (rev p) g <> [] /\ Z.of_nat (length (durations (rev p) g)) mod 2 ^ 32 = 0).
Proof.
  intros p s g H N. unfold average. rewrite (C126_record p s g H N). destruct (durations (rev p) g) as [|d l] eqn:E; [split; [discriminate|intros (Q & _); contradiction]|].
  cbn [entries]. destruct (Z.eqb_spec (Z.of_nat (length (d :: l)) mod 2 ^ 32) 0) as [Z|Z]; split; try discriminate; try (intros; split; [discriminate|exact Z]); [reflexivity|intros (_ & Q); contradiction].
Qed.
Print Assumptions C126_wrap_refuted.

(** a clock that goes back one microsecond makes a duration of almost 2^64 *)
Example C126_case : exists s, run_calls fresh [((5, 10), Create 0 "Loop"); ((7, 4), Destroy 0); ((8, 0), Create 1 "Loop"); ((9, 6), Destroy 1)] = Done s /\ average s "Loop" = Some 1500000 /\ count s "Loop" = 2.
Proof. eexists. split; [reflexivity|]. split; vm_compute; reflexivity. Qed.
Example C126_back_case : exists s, run_calls fresh [((5, 10), Create 0 "Loop"); ((5, 9), Destroy 0)] = Done s /\ average s "Loop" = Some (2 ^ 64 - 1).
Proof. eexists. split; [reflexivity|]. vm_compute. reflexivity. Qed.
