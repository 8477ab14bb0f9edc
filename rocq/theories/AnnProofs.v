(** * Lemmas about announcements *)
From Coq Require Import ZArith Bool Ascii String Lia ZifyBool List.
From Verif Require Import AnnModel AnnSpec.
Import ListNotations.
Local Open Scope Z_scope.

Lemma sapp_assoc (a b c : string) : ((a ++ b) ++ c = a ++ b ++ c)%string.
Proof. induction a; cbn; congruence. Qed.
Lemma sapp_nil (a : string) : (a ++ "" = a)%string.
Proof. induction a; cbn; congruence. Qed.
Lemma buffered_app a b : buffered (a ++ b) = (buffered a ++ buffered b)%string.
Proof.
  unfold buffered. induction a as [|[k t] a IH]; cbn [app fold_right fst snd]; [reflexivity|].
  destruct k; rewrite IH; [rewrite sapp_assoc|]; reflexivity.
Qed.
Lemma buffered_one t : buffered [(Buffer, t)] = t.
Proof. cbn. apply sapp_nil. Qed.
Arguments buffered : simpl never.

(** what the elementary writes change *)
Definition same (s s' : st) : Prop := verb s' = verb s /\ only0 s' = only0 s.
Lemma indent_out n : forall s, let s' := Nat.iter n (write Buffer "..") s in
  lvl s' = lvl s /\ flag s' = flag s /\ verb s' = verb s /\ only0 s' = only0 s /\
  buffered (out s') = (buffered (out s) ++ dots n)%string.
Proof.
  induction n as [|n IH]; intros s.
  - cbn. rewrite sapp_nil. repeat split; reflexivity.
  - change (Nat.iter (S n) (write Buffer "..") s) with (write Buffer ".." (Nat.iter n (write Buffer "..") s)).
    specialize (IH s). cbn zeta in *. destruct IH as (A & B & C & D & E). destruct (Nat.iter n _ s) as [v o l f w]. cbn [lvl flag verb only0 out write] in *.
    repeat split; try assumption. rewrite buffered_app, E. rewrite buffered_one, sapp_assoc. f_equal.
    clear. induction n as [|n IH]; [reflexivity|]. cbn [dots]. rewrite sapp_assoc. cbn. cbn in IH. rewrite IH. reflexivity.
Qed.

Section Rank.
Context (mpi : bool) (rank : Z).
Notation silent := (silent mpi rank). Notation calls := (calls mpi rank).

Lemma calls_app a : forall b s, calls (a ++ b) s = match calls a s with Ok s' => calls b s' | e => e end.
Proof.
  induction a as [|c a IH]; intros b s; cbn [app AnnModel.calls]; [reflexivity|].
  destruct (do mpi rank c s); [apply IH|reflexivity|reflexivity].
Qed.

(** effect of a well-behaved call: same settings, text appended *)
Definition gives (s : st) (r : res) (l : Z) (f : bool) (t : string) : Prop :=
  exists s', r = Ok s' /\ verb s' = verb s /\ only0 s' = only0 s /\ lvl s' = l /\ flag s' = f /\
    buffered (out s') = (buffered (out s) ++ t)%string.

Lemma say_gives t s d : silent s = false -> lvl s = Z.of_nat d -> fits t ->
  gives s (say mpi rank (Some t) s) (lvl s) false (ended (flag s) ++ dots d ++ t ++ newline).
Proof.
  intros Q L F. unfold say. rewrite Q. unfold fits in F. unfold BufferSize. replace (1024 <=? _) with false by lia.
  set (s1 := if flag s then set_flag false (write Buffer newline s) else s).
  assert (lvl s1 = lvl s /\ verb s1 = verb s /\ only0 s1 = only0 s /\ flag s1 = false /\ buffered (out s1) = (buffered (out s) ++ ended (flag s))%string) as (L1 & V1 & O1 & F1 & B1).
  { subst s1. destruct (flag s) eqn:E; cbn; [|rewrite sapp_nil; repeat split; auto]. rewrite buffered_app, buffered_one. cbn. repeat split. }
  destruct (indent_out (Z.to_nat (lvl s1)) s1) as (A & B & C & D & E). cbn zeta in *. fold (indent s1) in *.
  eexists. split; [reflexivity|]. unfold write. cbn [verb only0 lvl flag out].
  rewrite C, D, A, B, V1, O1, L1, F1. repeat split; try reflexivity.
  rewrite !buffered_app, E, B1, L1, L, Nat2Z.id. rewrite ?buffered_one, ?sapp_assoc. reflexivity.
Qed.
Lemma start_gives t s d : silent s = false -> lvl s = Z.of_nat d -> (d < 16)%nat ->
  gives s (start mpi rank (Some t) s) (lvl s + 1) true (ended (flag s) ++ dots d ++ t).
Proof.
  intros Q L H. unfold start. rewrite Q. unfold MaxLevel. replace (lvl s =? 16) with false by lia.
  set (s1 := if flag s then write Buffer newline s else s).
  assert (lvl s1 = lvl s /\ verb s1 = verb s /\ only0 s1 = only0 s /\ buffered (out s1) = (buffered (out s) ++ ended (flag s))%string) as (L1 & V1 & O1 & B1).
  { subst s1. destruct (flag s) eqn:E; cbn; [|rewrite sapp_nil; repeat split; auto]. rewrite buffered_app, buffered_one. cbn. repeat split. }
  destruct (indent_out (Z.to_nat (lvl s1)) s1) as (A & B & C & D & E). cbn zeta in *. fold (indent s1) in *.
  eexists. split; [reflexivity|]. unfold write, set_flag, set_lvl. cbn [verb only0 lvl flag out].
  rewrite C, D, A, V1, O1, L1. repeat split; try reflexivity.
  rewrite !buffered_app, E, B1, L1, L, Nat2Z.id. rewrite ?buffered_one, ?sapp_assoc. reflexivity.
Qed.
Lemma end_gives c s d : silent s = false -> lvl s = Z.of_nat (S d) -> (forall r, c = Some r -> fits r /\ has_percent r = false) ->
  match c with
  | None => gives s (end_ mpi rank c s) (Z.of_nat d) (flag s) ""
  | Some r => gives s (end_ mpi rank c s) (Z.of_nat d) false ((if flag s then ".. " else dots (S d)) ++ r ++ newline)
  end.
Proof.
  intros Q L H. unfold end_. rewrite Q. replace (lvl s =? 0) with false by lia. destruct c as [r|].
  - destruct (H r eq_refl) as [F P]. destruct (flag s) eqn:Fl.
    + eexists. split; [reflexivity|]. unfold write, set_flag, set_lvl. cbn [verb only0 lvl flag out].
      repeat split; [lia|]. rewrite !buffered_app. rewrite ?buffered_one, ?sapp_assoc. reflexivity.
    + unfold say_text. rewrite Q, P. destruct (say_gives r s (S d) Q L F) as (s' & E & A & B & C & D & G). rewrite E.
      eexists. split; [reflexivity|]. unfold set_lvl. cbn [verb only0 lvl flag out]. repeat split; try assumption; [lia|].
      rewrite G, Fl. reflexivity.
  - eexists. split; [reflexivity|]. unfold set_lvl. cbn [verb only0 lvl flag out]. repeat split; [lia|]. rewrite sapp_nil. reflexivity.
Qed.

Lemma silent_same s s' : verb s' = verb s -> only0 s' = only0 s -> silent s' = silent s.
Proof. intros _ E. unfold AnnModel.silent. rewrite E. reflexivity. Qed.

Definition good (i : item) : Prop := forall s d, silent s = false -> lvl s = Z.of_nat d -> (d + depth i <= 16)%nat -> tame i ->
  gives s (calls (calls_of i) s) (lvl s) (snd (text d (flag s) i)) (fst (text d (flag s) i)).
Lemma body_good b : (forall i, In i b -> good i) -> forall s d p, silent s = false -> lvl s = Z.of_nat d -> (d + depths b <= 16)%nat ->
  (forall i, In i b -> tame i) ->
  let r := fold_left (fun '(t, o) j => let '(t', o') := text d o j in ((t ++ t')%string, o')) b (p, flag s) in
  exists q, fst r = (p ++ q)%string /\ gives s (calls (flat_map calls_of b) s) (lvl s) (snd r) q.
Proof.
  induction b as [|i b IH]; intros G s d p Q L H T; cbn zeta.
  - exists ""%string. cbn. split; [rewrite sapp_nil; reflexivity|]. exists s. rewrite sapp_nil. repeat split; reflexivity.
  - cbn [depths fold_right] in H. fold (depths b) in H.
    destruct (G i (or_introl eq_refl) s d Q L ltac:(lia) (T i (or_introl eq_refl))) as (s1 & E1 & V1 & O1 & L1 & F1 & B1).
    cbn [fold_left flat_map]. destruct (text d (flag s) i) as [t o] eqn:Et. cbn [fst snd] in *.
    destruct (IH (fun j Hj => G j (or_intror Hj)) s1 d (p ++ t)%string) as (q & Eq & s2 & E2 & V2 & O2 & L2 & F2 & B2).
    { rewrite (silent_same s s1 V1 O1). exact Q. } { congruence. } { lia. } { intros j Hj. apply T. right. exact Hj. }
    rewrite F1 in *. exists (t ++ q)%string. split; [rewrite Eq, sapp_assoc; reflexivity|].
    exists s2. rewrite calls_app, E1. repeat split; try congruence. rewrite B2, B1, sapp_assoc. reflexivity.
Qed.
Lemma item_good : forall i, good i.
Proof.
  fix IH 1. intros [t|t b c] s d Q L H T.
  - inversion T as [t' F|]; subst. cbn [calls_of AnnModel.calls do text fst snd].
    destruct (say_gives t s d Q L F) as (s' & E & R). exists s'. rewrite E. split; [reflexivity|exact R].
  - inversion T as [|t' b' c' Tb Tc]; subst. cbn [calls_of].
    change (Start (Some t) :: flat_map calls_of b ++ [End_ c]) with ([Start (Some t)] ++ flat_map calls_of b ++ [End_ c]).
    cbn [depth] in H. fold (depths b) in H.
    destruct (start_gives t s d Q L ltac:(lia)) as (s1 & E1 & V1 & O1 & L1 & F1 & B1).
    assert (forall i, In i b -> good i) as Gb by (clear -IH; induction b as [|i b IHb]; [intros i []|intros j [<-|Hj]; [apply IH|apply IHb; exact Hj]]).
    assert (silent s1 = false) as Q1 by (rewrite (silent_same s s1 V1 O1); exact Q).
    destruct (body_good b Gb s1 (S d) (ended (flag s) ++ dots d ++ t)%string Q1 ltac:(lia) ltac:(lia) Tb) as (q & Eq & s2 & E2 & V2 & O2 & L2 & F2 & B2).
    rewrite F1 in *. cbn [text].
    destruct (fold_left _ b _) as [tb o] eqn:Ef. cbn [fst snd] in *.
    assert (silent s2 = false) as Q2 by (rewrite (silent_same s1 s2 V2 O2); exact Q1).
    pose proof (end_gives c s2 d Q2 ltac:(lia) Tc) as E3.
    rewrite calls_app. cbn [AnnModel.calls do]. rewrite E1, calls_app, E2. cbn [AnnModel.calls do].
    destruct c as [r|]; destruct E3 as (s3 & E3 & V3 & O3 & L3 & F3 & B3); rewrite E3; exists s3; cbn [fst snd].
    + split; [reflexivity|]. split; [congruence|]. split; [congruence|]. split; [lia|]. split; [congruence|]. rewrite B3, B2, B1, F2, Eq, !sapp_assoc. reflexivity.
    + split; [reflexivity|]. split; [congruence|]. split; [congruence|]. split; [lia|]. split; [congruence|]. rewrite B3, B2, B1, Eq, sapp_nil, !sapp_assoc. reflexivity.
Qed.

(** ** the level stays in range *)
Lemma indent_lvl s : lvl (indent s) = lvl s.
Proof. unfold indent. destruct (indent_out (Z.to_nat (lvl s)) s) as (A & _). exact A. Qed.
Lemma say_lvl t s s' : say mpi rank t s = Ok s' -> lvl s' = lvl s.
Proof.
  unfold say. destruct (silent s); [intros [= <-]; reflexivity|].
  set (s1 := if flag s then _ else s). assert (lvl s1 = lvl s) as L by (subst s1; destruct (flag s); reflexivity). clearbody s1.
  destruct t as [t|]; [|intros [= <-]; exact L]. destruct (BufferSize <=? _); [discriminate|]. intros [= <-]. cbn. rewrite indent_lvl. exact L.
Qed.
Lemma say_text_lvl t s s' : say_text mpi rank t s = Ok s' -> lvl s' = lvl s.
Proof. unfold say_text. destruct (silent s); [intros [= <-]; reflexivity|]. destruct (has_percent t); [discriminate|apply say_lvl]. Qed.
Lemma iter_lvl k t n : forall s, lvl (Nat.iter n (write k t) s) = lvl s.
Proof. induction n as [|n IH]; intros s; [reflexivity|]. change (lvl (write k t (Nat.iter n (write k t) s)) = lvl s). apply IH. Qed.
Lemma start_lvl t s s' : start mpi rank t s = Ok s' -> lvl s' = lvl s \/ (lvl s <> 16 /\ lvl s' = lvl s + 1).
Proof.
  unfold start, MaxLevel. destruct (lvl s =? 16) eqn:E; [intros [= <-]; left; reflexivity|]. destruct (silent s); [intros [= <-]; left; reflexivity|].
  intros [= <-]. right. split; [lia|]. cbn. f_equal. destruct t; cbn; rewrite indent_lvl; destruct (flag s); reflexivity.
Qed.
Lemma end_lvl t s s' : end_ mpi rank t s = Ok s' -> lvl s' = lvl s \/ (lvl s <> 0 /\ lvl s' = lvl s - 1).
Proof.
  unfold end_. destruct (lvl s =? 0) eqn:E; [intros [= <-]; left; reflexivity|]. destruct (silent s); [intros [= <-]; left; reflexivity|].
  intros H. right. split; [lia|].
  destruct t as [t|]; [|injection H as <-; reflexivity].
  destruct (flag s); [injection H as <-; reflexivity|].
  destruct (say_text mpi rank t s) as [s1| |] eqn:E1; try discriminate. injection H as <-. cbn. rewrite (say_text_lvl _ _ _ E1). reflexivity.
Qed.
Lemma banner_lvl t s s' : banner mpi rank t s = Ok s' -> lvl s' = lvl s.
Proof.
  unfold banner. destruct (silent s); [intros H; assert (s = s') as -> by congruence; reflexivity|].
  set (s1 := if flag s then _ else s). assert (lvl s1 = lvl s) as L by (subst s1; destruct (flag s); reflexivity). clearbody s1.
  assert (forall k u w, lvl (write k u w) = lvl w) as W by reflexivity.
  assert (forall (x y : st), Ok x = Ok y -> x = y) as Inj by (intros x y H; congruence).
  destruct t as [t|]; intros H; apply Inj in H; rewrite <- H; clear H; rewrite W.
  - destruct (BannerSize - 2 <? _); [rewrite !W; exact L|]. rewrite iter_lvl, !W. exact L.
  - rewrite iter_lvl. exact L.
Qed.
Lemma do_range c s s' : do mpi rank c s = Ok s' -> 0 <= lvl s <= 16 -> 0 <= lvl s' <= 16.
Proof.
  intros H R. destruct c; cbn [do] in H; try (injection H as <-; exact R).
  - rewrite (say_lvl _ _ _ H). exact R.
  - unfold say_v in H. destruct (silent s); [injection H as <-; exact R|]. destruct (verb s <? v); [injection H as <-; exact R|]. rewrite (say_lvl _ _ _ H). exact R.
  - destruct (start_lvl _ _ _ H); lia.
  - unfold start_v in H. destruct (verb s <? v); [injection H as <-; exact R|]. destruct (start_lvl _ _ _ H); lia.
  - destruct (end_lvl _ _ _ H); lia.
  - unfold end_v in H. destruct (verb s <? v); [injection H as <-; exact R|]. destruct (end_lvl _ _ _ H); lia.
  - rewrite (banner_lvl _ _ _ H). exact R.
Qed.
Lemma calls_range cs : forall s s', calls cs s = Ok s' -> 0 <= lvl s <= 16 -> 0 <= lvl s' <= 16.
Proof.
  induction cs as [|c cs IH]; intros s s' H R; cbn [AnnModel.calls] in H; [injection H as <-; exact R|].
  destruct (do mpi rank c s) as [s1| |] eqn:E; try discriminate. exact (IH _ _ H (do_range _ _ _ E R)).
Qed.
End Rank.
