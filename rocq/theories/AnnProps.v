(** * C44: announcements *)
From Coq Require Import ZArith Bool Ascii String Lia ZifyBool List.
From Verif Require Import AnnModel AnnSpec AnnProofs.
Import ListNotations.
Local Open Scope Z_scope.

(** the level stays between 0 and 16 for every sequence of calls, on every
    rank, with any changes of verbosity in between *)
Theorem C44_range : forall mpi rank cs s, calls mpi rank cs init = Ok s -> 0 <= lvl s <= 16.
Proof. intros mpi rank cs s H. apply (calls_range mpi rank cs init s H). cbn. lia. Qed.
Print Assumptions C44_range.

Section Level.
Context (mpi : bool) (rank : Z).
Notation silent := (silent mpi rank). Notation calls := (calls mpi rank).
Lemma banner_settings t s s' : banner mpi rank t s = Ok s' -> verb s' = verb s /\ only0 s' = only0 s.
Proof.
  assert (forall k u w, verb (write k u w) = verb w) as W by reflexivity.
  assert (forall k u w, only0 (write k u w) = only0 w) as W' by reflexivity.
  assert (forall k t n s, verb (Nat.iter n (write k t) s) = verb s) as I1.
  { intros k u n w. induction n as [|n IH]; [reflexivity|]. change (Nat.iter (S n) (write k u) w) with (write k u (Nat.iter n (write k u) w)). rewrite W. exact IH. }
  assert (forall k t n s, only0 (Nat.iter n (write k t) s) = only0 s) as I2.
  { intros k u n w. induction n as [|n IH]; [reflexivity|]. change (Nat.iter (S n) (write k u) w) with (write k u (Nat.iter n (write k u) w)). rewrite W'. exact IH. }
  unfold banner. destruct (silent s); [intros H; assert (s = s') as -> by congruence; split; reflexivity|].
  set (s1 := if flag s then _ else s). assert (verb s1 = verb s /\ only0 s1 = only0 s) as [L L'] by (subst s1; destruct (flag s); split; reflexivity). clearbody s1.
  assert (forall (x y : st), Ok x = Ok y -> x = y) as Inj by (intros x y H; congruence).
  destruct t as [t|]; intros H; apply Inj in H; rewrite <- H; clear H; rewrite W, W'.
  - destruct (BannerSize - 2 <? _); [rewrite !W, !W'; split; assumption|]. rewrite I1, I2, !W, !W'. split; assumption.
  - rewrite I1, I2. split; assumption.
Qed.
Lemma same_settings c s s' : do mpi rank c s = Ok s' ->
  match c with SetVerbosity _ | OnlyRankZero | AllRanks => True | _ => verb s' = verb s /\ only0 s' = only0 s end.
Proof.
  assert (forall n k t s, verb (Nat.iter n (write k t) s) = verb s /\ only0 (Nat.iter n (write k t) s) = only0 s) as It.
  { induction n as [|n IH]; intros k t w; [split; reflexivity|]. change (Nat.iter (S n) (write k t) w) with (write k t (Nat.iter n (write k t) w)). cbn [verb only0 write]. apply IH. }
  assert (forall x y : st, Ok x = Ok y -> x = y) as Inj by (intros x y H; congruence).
  assert (forall t s s', say mpi rank t s = Ok s' -> verb s' = verb s /\ only0 s' = only0 s) as Sy.
  { intros t w w'. unfold say. destruct (silent w); [intros H; apply Inj in H; subst; split; reflexivity|].
    set (s1 := if flag w then _ else w). assert (verb s1 = verb w /\ only0 s1 = only0 w) as [<- <-] by (subst s1; destruct (flag w); split; reflexivity). clearbody s1.
    destruct t as [t|]; [|intros H; apply Inj in H; subst; split; reflexivity]. destruct (BufferSize <=? _); [discriminate|].
    intros H. apply Inj in H. subst w'. cbn [verb only0 write]. apply It. }
  assert (forall t s s', start mpi rank t s = Ok s' -> verb s' = verb s /\ only0 s' = only0 s) as Stt.
  { intros t w w'. unfold start. destruct (lvl w =? MaxLevel); [intros H; apply Inj in H; subst; split; reflexivity|].
    destruct (silent w); [intros H; apply Inj in H; subst; split; reflexivity|].
    intros H. apply Inj in H. subst w'.
    set (s1 := if flag w then _ else w). assert (verb s1 = verb w /\ only0 s1 = only0 w) as [<- <-] by (subst s1; destruct (flag w); split; reflexivity). clearbody s1.
    destruct t; cbn [verb only0 set_lvl set_flag write]; apply It. }
  assert (forall t s s', end_ mpi rank t s = Ok s' -> verb s' = verb s /\ only0 s' = only0 s) as Ed.
  { intros t w w'. unfold end_. destruct (lvl w =? 0); [intros H; apply Inj in H; subst; split; reflexivity|].
    destruct (silent w) eqn:Q; [intros H; apply Inj in H; subst; split; reflexivity|].
    destruct t as [t|]; [|intros H; apply Inj in H; subst; split; reflexivity].
    destruct (flag w); [intros H; apply Inj in H; subst; split; reflexivity|].
    unfold say_text. rewrite Q. destruct (has_percent t); [discriminate|].
    destruct (say mpi rank (Some t) w) as [w1| |] eqn:E; try discriminate. intros H. apply Inj in H. subst w'. cbn [verb only0 set_lvl]. exact (Sy _ _ _ E). }
  destruct c; cbn [do]; intros H; try exact I.
  - exact (Sy _ _ _ H).
  - unfold say_v in H. destruct (silent s); [apply Inj in H; subst; split; reflexivity|]. destruct (verb s <? v); [apply Inj in H; subst; split; reflexivity|exact (Sy _ _ _ H)].
  - exact (Stt _ _ _ H).
  - unfold start_v in H. destruct (verb s <? v); [apply Inj in H; subst; split; reflexivity|exact (Stt _ _ _ H)].
  - exact (Ed _ _ _ H).
  - unfold end_v in H. destruct (verb s <? v); [apply Inj in H; subst; split; reflexivity|exact (Ed _ _ _ H)].
  - exact (banner_settings _ _ _ H).
Qed.
Lemma silent_eq s s' : only0 s' = only0 s -> silent s' = silent s.
Proof. intros E. unfold AnnModel.silent. rewrite E. reflexivity. Qed.

(** a block: the contents keep the level, so does the block *)
Lemma start_level t s s' : start mpi rank t s = Ok s' -> lvl s <> 16 -> lvl s' = lvl s + (if silent s then 0 else 1).
Proof.
  unfold start, MaxLevel. intros H N. replace (lvl s =? 16) with false in H by lia. destruct (silent s).
  - assert (s = s') as <- by congruence. lia.
  - assert (forall x y : st, Ok x = Ok y -> x = y) as Inj by (intros x y E; congruence). apply Inj in H. subst s'. cbn [set_lvl lvl].
    f_equal. destruct t; cbn [set_flag write lvl]; rewrite indent_lvl; destruct (flag s); reflexivity.
Qed.
Lemma end_level t s s' : end_ mpi rank t s = Ok s' -> (silent s = false -> lvl s <> 0) -> lvl s' = lvl s - (if silent s then 0 else 1).
Proof.
  unfold end_. destruct (lvl s =? 0) eqn:E.
  - intros H N. assert (s = s') as <- by congruence. destruct (silent s); [lia|]. specialize (N eq_refl). lia.
  - intros H N. destruct (silent s) eqn:Q; [assert (s = s') as <- by congruence; lia|].
    destruct t as [t|]; [|injection H as <-; reflexivity]. destruct (flag s); [injection H as <-; reflexivity|].
    destruct (say_text mpi rank t s) as [s1| |] eqn:E1; try discriminate. injection H as <-. cbn. rewrite (say_text_lvl _ _ _ _ _ E1). reflexivity.
Qed.
Definition keeps (cs : list call) (s : st) : Prop :=
  forall s', calls cs s = Ok s' -> lvl s' = lvl s /\ verb s' = verb s /\ only0 s' = only0 s.

(** any balanced sequence returns to its level, if the nesting fits *)
Theorem C44_balanced : forall n cs, balanced n cs -> forall s, 0 <= lvl s -> lvl s + Z.of_nat n <= 16 -> keeps cs s.
Proof.
  induction 1 as [n|n t|n v t|n t|n t c cs B IH|n v t c cs B IH|n a b B1 IH1 B2 IH2]; intros s P L s' H.
  - injection H as <-. repeat split; reflexivity.
  - cbn [AnnModel.calls] in H. destruct (do mpi rank _ s) as [s1| |] eqn:E; try discriminate. injection H as <-.
    split; [exact (say_lvl _ _ _ _ _ E)|exact (same_settings _ _ _ E)].
  - cbn [AnnModel.calls] in H. destruct (do mpi rank _ s) as [s1| |] eqn:E; try discriminate. injection H as <-.
    split; [|exact (same_settings _ _ _ E)]. cbn [do] in E. unfold say_v in E.
    destruct (silent s); [injection E as <-; reflexivity|]. destruct (verb s <? v); [injection E as <-; reflexivity|exact (say_lvl _ _ _ _ _ E)].
  - cbn [AnnModel.calls] in H. destruct (do mpi rank _ s) as [s1| |] eqn:E; try discriminate. injection H as <-.
    split; [exact (banner_lvl _ _ _ _ _ E)|exact (same_settings _ _ _ E)].
  - cbn [AnnModel.calls] in H. destruct (do mpi rank (Start t) s) as [s1| |] eqn:E; try discriminate.
    rewrite calls_app in H. destruct (calls cs s1) as [s2| |] eqn:E2; try discriminate. cbn [AnnModel.calls] in H.
    destruct (do mpi rank (End_ c) s2) as [s3| |] eqn:E3; try discriminate. injection H as <-.
    pose proof (same_settings _ _ _ E) as [V1 O1]. pose proof (same_settings _ _ _ E3) as [V3 O3].
    pose proof (start_level t s s1 E ltac:(lia)) as L1.
    destruct (IH s1 ltac:(destruct (silent s); lia) ltac:(destruct (silent s); lia) s2 E2) as (L2 & V2 & O2).
    assert (silent s2 = silent s) as Q by (apply silent_eq; congruence).
    pose proof (end_level c s2 s3 E3) as L3. rewrite Q in L3.
    split; [|split; congruence]. destruct (silent s); [rewrite L3 by discriminate; lia|rewrite L3 by (intros _; lia); lia].
  - cbn [AnnModel.calls] in H. destruct (do mpi rank (StartV v t) s) as [s1| |] eqn:E; try discriminate.
    rewrite calls_app in H. destruct (calls cs s1) as [s2| |] eqn:E2; try discriminate. cbn [AnnModel.calls] in H.
    destruct (do mpi rank (EndV v c) s2) as [s3| |] eqn:E3; try discriminate. injection H as <-.
    pose proof (same_settings _ _ _ E) as [V1 O1]. pose proof (same_settings _ _ _ E3) as [V3 O3].
    cbn [do] in E, E3. unfold start_v in E. unfold end_v in E3.
    destruct (verb s <? v) eqn:Vs.
    + injection E as <-. destruct (IH s P ltac:(lia) s2 E2) as (L2 & V2 & O2). rewrite V2, Vs in E3. injection E3 as <-. repeat split; assumption.
    + pose proof (start_level t s s1 E ltac:(lia)) as L1.
      destruct (IH s1 ltac:(destruct (silent s); lia) ltac:(destruct (silent s); lia) s2 E2) as (L2 & V2 & O2).
      assert (silent s2 = silent s) as Q by (apply silent_eq; congruence).
      replace (verb s2 <? v) with false in E3 by lia.
      pose proof (end_level c s2 s3 E3) as L3. rewrite Q in L3.
      split; [|split; congruence]. destruct (silent s); [rewrite L3 by discriminate; lia|rewrite L3 by (intros _; lia); lia].
  - rewrite calls_app in H. destruct (calls a s) as [s1| |] eqn:E1; try discriminate.
    destruct (IH1 s P L s1 E1) as (L1 & V1 & O1). destruct (IH2 s1 ltac:(lia) ltac:(lia) s' H) as (L2 & V2 & O2).
    repeat split; congruence.
Qed.
End Level.
Print Assumptions C44_balanced.

(** the text of a nest of announcements is its indented rendering *)
Theorem C44_text : forall mpi rank l s d, silent mpi rank s = false -> lvl s = Z.of_nat d -> (d + depths l <= 16)%nat ->
  (forall i, In i l -> tame i) ->
  exists s', calls mpi rank (flat_map calls_of l) s = Ok s' /\ lvl s' = lvl s /\
    flag s' = snd (texts d (flag s) l) /\ buffered (out s') = (buffered (out s) ++ fst (texts d (flag s) l))%string.
Proof.
  intros mpi rank l s d Q L D T.
  destruct (body_good mpi rank l (fun i _ => item_good mpi rank i) s d ""%string Q L D T) as (q & E & s' & E' & _ & _ & L' & F' & B').
  exists s'. unfold texts. rewrite E. cbn [append]. split; [exact E'|]. split; [exact L'|]. split; [exact F'|exact B'].
Qed.
Print Assumptions C44_text.
(** other ranks stay silent *)
Theorem C44_silent : forall rank cs s, 0 < rank -> only0 s = true ->
  (forall c, In c cs -> match c with SetVerbosity _ | OnlyRankZero | AllRanks => False | _ => True end) ->
  calls true rank cs s = Ok s.
Proof.
  intros rank cs s R O H.
  assert (silent true rank s = true) as Q by (unfold silent; rewrite O; cbn; lia).
  induction cs as [|c cs IH]; [reflexivity|]. cbn [calls].
  assert (do true rank c s = Ok s) as ->; [|apply IH; intros c' Hc; apply H; right; exact Hc].
  specialize (H c (or_introl eq_refl)). destruct c; try contradiction; cbn [do];
    unfold say_v, start_v, end_v, say, start, end_, banner; rewrite ?Q; try reflexivity.
  - destruct (lvl s =? MaxLevel); reflexivity.
  - destruct (verb s <? v); [reflexivity|]. destruct (lvl s =? MaxLevel); reflexivity.
  - destruct (lvl s =? 0); reflexivity.
  - destruct (verb s <? v); [reflexivity|]. destruct (lvl s =? 0); reflexivity.
Qed.
Print Assumptions C44_silent.

(** ** where nesting is lost *)
(** too deep a nest ends one level too low: the start of the innermost block is
    dropped but its end is not *)
Definition nest (n : nat) : list call := repeat (Start None) n ++ repeat (End_ None) n.
Lemma nest_balanced n : balanced n (nest n).
Proof.
  unfold nest. induction n as [|n IH]; [constructor|]. 
  replace (repeat (Start None) (S n) ++ repeat (End_ None) (S n)) with (Start None :: (repeat (Start None) n ++ repeat (End_ None) n) ++ [End_ None]).
  - constructor. exact IH.
  - cbn [repeat app]. f_equal. rewrite <- app_assoc. f_equal. symmetry. clear. induction n as [|n IH]; [reflexivity|]. cbn [repeat app] in *. f_equal. exact IH.
Qed.
Theorem C44_deep_refuted : exists cs s s', balanced 16 cs /\ lvl s = 1 /\ calls false 0 cs s = Ok s' /\ lvl s' = 0.
Proof.
  exists (nest 16), (St 0 false 1 false []). eexists. split; [apply nest_balanced|]. split; [reflexivity|].
  split; [vm_compute; reflexivity|reflexivity].
Qed.
Print Assumptions C44_deep_refuted.
(** verbosity or rank settings changed inside a block leave the level raised *)
Theorem C44_settings_refuted : exists cs cs' s s',
  cs = [StartV 1 (Some "a"%string); SetVerbosity 0; EndV 1 None] /\ calls false 0 cs (St 1 false 0 false []) = Ok s /\ lvl s = 1 /\
  cs' = [Start (Some "a"%string); OnlyRankZero; End_ None] /\ calls true 1 cs' init = Ok s' /\ lvl s' = 1.
Proof. do 4 eexists. split; [reflexivity|]. split; [reflexivity|]. split; [reflexivity|]. split; [reflexivity|]. split; reflexivity. Qed.
Print Assumptions C44_settings_refuted.
(** a closing remark with a percent sign is used as a format string, but only
    if something was printed inside the block *)
Theorem C44_percent_refuted : calls false 0 [Start (Some "a"%string); Say (Some "b"%string); End_ (Some "100%"%string)] init = Format /\
  exists s, calls false 0 [Start (Some "a"%string); End_ (Some "100%"%string)] init = Ok s.
Proof. split; [reflexivity|]. eexists. reflexivity. Qed.
Print Assumptions C44_percent_refuted.

Definition ex_items : list item :=
  [Line "Hello"; Block "Grid" [Line "levels"; Block "Patches" [] (Some "Done"%string)] None; Block "Run" [] None; Line "Bye"].
Example C44_case : (0 + depths ex_items <= 16)%nat /\ (forall i, In i ex_items -> tame i) /\
  exists s, calls false 0 (flat_map calls_of ex_items) init = Ok s /\ lvl s = 0 /\
  buffered (out s) = ("Hello" ++ newline ++ "Grid" ++ newline ++ "..levels" ++ newline ++ "..Patches.. Done" ++ newline ++ "Run" ++ newline ++ "Bye" ++ newline)%string.
Proof.
  split; [cbn; lia|].
  assert (forall i, In i ex_items -> tame i) as T.
  { intros i [<-|[<-|[<-|[<-|[]]]]]; [constructor; cbv; reflexivity| | |constructor; cbv; reflexivity].
    - constructor; [|discriminate]. intros i [<-|[<-|[]]]; [constructor; cbv; reflexivity|].
      constructor; [intros i []|]. intros r [= <-]. split; reflexivity.
    - constructor; [intros i []|discriminate]. }
  split; [exact T|].
  eexists. split; [vm_compute; reflexivity|]. split; vm_compute; reflexivity.
Qed.
Example C44_case_balanced : balanced 1 ([Start (Some "a"%string)] ++ [] ++ [End_ (Some "b"%string)]).
Proof. apply (b_block 0 _ _ []). constructor. Qed.
