(** * Lemmas about the preference file parser *)
From Coq Require Import ZArith Bool Ascii Lia ZifyBool List.
From Verif Require Import PrefModel PrefSpec.
Import ListNotations.
Open Scope Z_scope.

Notation len l := (Z.of_nat (length l)).
Notation nuls k := (repeat NUL k).

Lemma get_at pre c post i : i = len pre -> get (pre ++ c :: post) i = Some c.
Proof.
  intros ->. unfold get. rewrite app_length. cbn [length]. replace (_ && _) with true by lia.
  rewrite Nat2Z.id, nth_error_app2, Nat.sub_diag by lia. reflexivity.
Qed.
Lemma put_at pre : forall x post c i, i = length pre -> put (pre ++ x :: post) i c = pre ++ c :: post.
Proof. induction pre as [|y pre IH]; intros x post c i ->; cbn; [reflexivity|]. f_equal. apply IH. reflexivity. Qed.
Lemma eqb_ne a b : a <> b -> Ascii.eqb a b = false.
Proof. intros H. destruct (Ascii.eqb_spec a b); [contradiction|reflexivity]. Qed.

Lemma strlen_at s : forall f pre post p, ~ In NUL s -> p = len pre -> (length s < f)%nat ->
  strlen f (pre ++ s ++ NUL :: post) p = Some (len s).
Proof.
  induction s as [|c s IH]; intros f pre post p N -> F; (destruct f as [|f]; [cbn in F; lia|]); cbn [strlen app].
  - rewrite get_at by reflexivity. reflexivity.
  - rewrite get_at by reflexivity. rewrite eqb_ne by (intros E; apply N; left; exact E).
    replace (pre ++ c :: s ++ NUL :: post) with ((pre ++ [c]) ++ s ++ NUL :: post) by (rewrite <- app_assoc; reflexivity).
    rewrite IH; [cbn; f_equal; lia|intros E; apply N; right; exact E|rewrite app_length; cbn; lia|cbn in F; lia].
Qed.
Lemma strchr_at s : forall f pre post p, ~ In NUL s -> ~ In EQ s -> p = len pre -> (length s < f)%nat ->
  strchr f (pre ++ s ++ EQ :: post) p EQ = Some (Some (p + len s)).
Proof.
  induction s as [|c s IH]; intros f pre post p N M -> F; (destruct f as [|f]; [cbn in F; lia|]); cbn [strchr app].
  - rewrite get_at by reflexivity. cbn. do 2 f_equal. lia.
  - rewrite get_at by reflexivity. rewrite !eqb_ne; [|intros E; apply N; left; exact E|intros E; apply M; left; exact E].
    replace (pre ++ c :: s ++ EQ :: post) with ((pre ++ [c]) ++ s ++ EQ :: post) by (rewrite <- app_assoc; reflexivity).
    rewrite IH; [cbn [length]; do 2 f_equal; lia|intros E; apply N; right; exact E|intros E; apply M; right; exact E|rewrite app_length; cbn; lia|cbn in F; lia].
Qed.
Lemma strchr_none s : forall f pre post p, ~ In NUL s -> ~ In EQ s -> p = len pre -> (length s < f)%nat ->
  strchr f (pre ++ s ++ NUL :: post) p EQ = Some None.
Proof.
  induction s as [|c s IH]; intros f pre post p N M -> F; (destruct f as [|f]; [cbn in F; lia|]); cbn [strchr app].
  - rewrite get_at by reflexivity. reflexivity.
  - rewrite get_at by reflexivity. rewrite !eqb_ne; [|intros E; apply N; left; exact E|intros E; apply M; left; exact E].
    replace (pre ++ c :: s ++ NUL :: post) with ((pre ++ [c]) ++ s ++ NUL :: post) by (rewrite <- app_assoc; reflexivity).
    apply IH; [intros E; apply N; right; exact E|intros E; apply M; right; exact E|rewrite app_length; cbn; lia|cbn in F; lia].
Qed.

Lemma rep_snoc {A} (x : A) k : repeat x (S k) = repeat x k ++ [x].
Proof. induction k as [|k IH]; [reflexivity|]. cbn [repeat app] in *. f_equal. exact IH. Qed.
Lemma last_split (t : txt) : t <> [] -> exists t' x, t = t' ++ [x] /\ hd_error (rev t) = Some x.
Proof.
  intros H. destruct (exists_last H) as (t' & x & E). exists t', x. split; [exact E|]. rewrite E, rev_app_distr. reflexivity.
Qed.

Lemma trim_end_at must core : core <> [] -> hd_error (rev core) <> Some SP ->
  forall k f pre post p, p = len pre -> (k < f)%nat ->
  trim_end must f (pre ++ core ++ sp k ++ post) p (len core + Z.of_nat k - 1) = TBuf (pre ++ core ++ nuls k ++ post).
Proof.
  intros NE L. destruct (last_split core NE) as (t & x & E & R). rewrite R in L.
  assert (x <> SP) as X by congruence. clear L R.
  induction k as [|k IH]; intros f pre post p -> F; (destruct f as [|f]; [lia|]); cbn [trim_end].
  - rewrite E. rewrite <- app_assoc. cbn [sp repeat app].
    replace (pre ++ t ++ x :: post) with ((pre ++ t) ++ x :: post) by (rewrite <- app_assoc; reflexivity).
    rewrite get_at by (rewrite !app_length; cbn; lia). rewrite eqb_ne by exact X. rewrite <- !app_assoc. reflexivity.
  - unfold sp. rewrite rep_snoc. rewrite <- app_assoc. cbn [app].
    assert (pre ++ core ++ repeat " "%char k ++ " "%char :: post = (pre ++ core ++ sp k) ++ SP :: post) as -> by (unfold sp; rewrite <- !app_assoc; reflexivity).
    rewrite get_at by (unfold sp; rewrite !app_length, repeat_length; lia). change (Ascii.eqb SP SP) with true. cbn iota.
    rewrite put_at by (unfold sp; rewrite !app_length, repeat_length; lia).
    assert (length core <> 0%nat) by (rewrite E, app_length; cbn; lia).
    replace (len core + Z.of_nat (S k) - 1 =? 0) with false by lia.
    replace ((pre ++ core ++ sp k) ++ NUL :: post) with (pre ++ core ++ sp k ++ NUL :: post) by (rewrite <- !app_assoc; reflexivity).
    replace (len core + Z.of_nat (S k) - 1 - 1) with (len core + Z.of_nat k - 1) by lia.
    rewrite IH by lia. rewrite rep_snoc, <- !app_assoc. reflexivity.
Qed.
Lemma trim_end_blank must : forall k f pre post p, p = len pre -> (S k < f)%nat ->
  trim_end must f (pre ++ sp (S k) ++ post) p (Z.of_nat k) = if must then TThrew else TBuf (pre ++ nuls (S k) ++ post).
Proof.
  induction k as [|k IH]; intros f pre post p -> F; (destruct f as [|f]; [lia|]); cbn [trim_end].
  - cbn [sp repeat app]. rewrite get_at by lia. change (Ascii.eqb " " SP) with true. cbn iota. rewrite put_at by lia. cbn. destruct must; reflexivity.
  - assert (pre ++ sp (S (S k)) ++ post = (pre ++ sp (S k)) ++ SP :: post) as -> by (unfold sp; rewrite (rep_snoc _ (S k)), <- !app_assoc; reflexivity).
    rewrite get_at by (unfold sp; rewrite !app_length, repeat_length; lia). change (Ascii.eqb SP SP) with true. cbn iota.
    rewrite put_at by (unfold sp; rewrite !app_length, repeat_length; lia).
    replace (Z.of_nat (S k) =? 0) with false by lia.
    replace ((pre ++ sp (S k)) ++ NUL :: post) with (pre ++ sp (S k) ++ NUL :: post) by (rewrite <- !app_assoc; reflexivity).
    replace (Z.of_nat (S k) - 1) with (Z.of_nat k) by lia.
    rewrite IH by lia. destruct must; [reflexivity|]. rewrite (rep_snoc NUL (S k)), <- !app_assoc. reflexivity.
Qed.
Lemma trim_start_at : forall k f pre x post p n, x <> SP -> 0 < n -> p = len pre -> (k < f)%nat ->
  trim_start f (pre ++ sp k ++ x :: post) p n = Some (pre ++ nuls k ++ x :: post, p + Z.of_nat k).
Proof.
  induction k as [|k IH]; intros f pre x post p n X N -> F; (destruct f as [|f]; [lia|]); cbn [trim_start]; replace (0 <? n) with true by lia.
  - cbn [sp repeat app]. rewrite get_at by reflexivity. rewrite eqb_ne by exact X. do 2 f_equal. lia.
  - unfold sp. cbn [repeat app]. rewrite get_at by reflexivity. change (Ascii.eqb " " SP) with true. cbn iota.
    rewrite put_at by lia.
    replace (pre ++ NUL :: repeat " "%char k ++ x :: post) with ((pre ++ [NUL]) ++ sp k ++ x :: post) by (rewrite <- app_assoc; reflexivity).
    rewrite IH by (try assumption; try lia; rewrite app_length; cbn; lia).
    f_equal. apply f_equal2; [rewrite <- app_assoc; reflexivity|lia].
Qed.
Lemma cstr_at s post : ~ In NUL s -> cstr (s ++ NUL :: post) = s.
Proof.
  induction s as [|c s IH]; intros N; cbn; [reflexivity|]. rewrite eqb_ne by (intros E; apply N; left; exact E).
  f_equal. apply IH. intros E. apply N. right. exact E.
Qed.
Lemma skipn_pre (pre s : text) : skipn (length pre) (pre ++ s) = s.
Proof. induction pre; cbn; [reflexivity|exact IHpre]. Qed.

Lemma not_in_sp c k : c <> SP -> ~ In c (sp k).
Proof. intros H I. apply repeat_spec in I. apply H. exact I. Qed.
Lemma tight_hd (t : txt) : t <> [] -> tight t -> exists x r, t = x :: r /\ x <> SP.
Proof. intros NE [H _]. destruct t as [|x r]; [congruence|]. exists x, r. split; [reflexivity|]. intros ->. apply H. reflexivity. Qed.
Lemma tight_rev (s t : txt) : t <> [] -> tight t -> hd_error (rev (s ++ t)) <> Some SP.
Proof.
  intros NE [_ H]. rewrite rev_app_distr. destruct (rev t) as [|x r] eqn:E; [|exact H].
  exfalso. apply NE. rewrite <- (rev_involutive t), E. reflexivity.
Qed.

(** one line *)
Definition outcome_of (b : text) (m : list (text * text)) (k : meaning) (r : line_result) : Prop :=
  match k with
  | Nothing => r = LNext b m
  | Pair n v => exists b', length b' = length b /\ r = LNext b' (insert m n v)
  | Refused => r = LThrew
  | Stray => r = LOut
  end.

Lemma steps_val : steps = 257%nat. Proof. reflexivity. Qed.
Ltac lens := rewrite ?app_length, ?repeat_length in *; cbn [length] in *; unfold sp in *; rewrite ?app_length, ?repeat_length in *; cbn [length] in *.

Lemma lead (l post : text) m : l <> [] -> hd_error l <> Some HASH -> ~ In NUL l -> (length l < 256)%nat ->
  do_line (l ++ NUL :: post) m =
    match strchr steps (l ++ NUL :: post) 0 EQ with
    | None => LOut
    | Some None => LThrew
    | Some (Some e) =>
        let b := put (l ++ NUL :: post) (Z.to_nat e) NUL in
        let eq := e + 1 in
        match strlen steps b 0 with
        | None => LOut
        | Some nl =>
            match trim_end true steps b 0 (size_pred nl) with
            | TOut => LOut | TThrew => LThrew
            | TBuf b =>
                match trim_start steps b 0 nl with
                | None => LOut
                | Some (b, name) =>
                    match strlen steps b eq with
                    | None => LOut
                    | Some vl =>
                        match trim_end false steps b eq (size_pred vl) with
                        | TOut => LOut | TThrew => LThrew
                        | TBuf b =>
                            match trim_start steps b eq vl with
                            | None => LOut
                            | Some (b, val) =>
                                LNext b (insert m (cstr (skipn (Z.to_nat name) b)) (cstr (skipn (Z.to_nat val) b)))
                            end
                        end
                    end
                end
            end
        end
    end.
Proof.
  intros NE H N L. unfold do_line. pose proof (strlen_at l steps [] post 0 N eq_refl ltac:(rewrite steps_val; lia)) as Hs. cbn [app] in Hs. rewrite Hs. clear Hs.
  destruct l as [|c l]; [congruence|]. replace (len (c :: l) =? 0) with false by (cbn; lia).
  replace (get ((c :: l) ++ NUL :: post) 0) with (Some c) by (symmetry; exact (get_at [] c _ 0 eq_refl)).
  rewrite eqb_ne by (intros ->; apply H; reflexivity). reflexivity.
Qed.

Lemma name_part a n b m post : tight n -> n <> [] -> ~ In EQ n -> ~ In NUL n -> hd_error (sp a ++ n) <> Some HASH ->
  ~ In NUL post -> forall more, (length (sp a ++ n ++ sp b ++ EQ :: post) < 256)%nat ->
  do_line ((sp a ++ n ++ sp b ++ EQ :: post) ++ NUL :: more) m =
  let b1 := (nuls a ++ n ++ nuls b ++ [NUL]) ++ post ++ NUL :: more in
  match strlen steps b1 (len (nuls a ++ n ++ nuls b ++ [NUL])) with
  | None => LOut
  | Some vl =>
      match trim_end false steps b1 (len (nuls a ++ n ++ nuls b ++ [NUL])) (size_pred vl) with
      | TOut => LOut | TThrew => LThrew
      | TBuf w =>
          match trim_start steps w (len (nuls a ++ n ++ nuls b ++ [NUL])) vl with
          | None => LOut
          | Some (w, val) =>
              LNext w (insert m (cstr (skipn a w)) (cstr (skipn (Z.to_nat val) w)))
          end
      end
  end.
Proof.
  intros T NE NQ NN NH NP more L.
  destruct (tight_hd n NE T) as (x & r & En & Xs).
  assert (~ In NUL (sp a ++ n ++ sp b)) as N1.
  { rewrite !in_app_iff. intros [I|[I|I]]; [exact (not_in_sp NUL a ltac:(discriminate) I)|exact (NN I)|exact (not_in_sp NUL b ltac:(discriminate) I)]. }
  assert (~ In EQ (sp a ++ n ++ sp b)) as Q1.
  { rewrite !in_app_iff. intros [I|[I|I]]; [exact (not_in_sp EQ a ltac:(discriminate) I)|exact (NQ I)|exact (not_in_sp EQ b ltac:(discriminate) I)]. }
  rewrite lead; [| | | |exact L].
  2: { destruct a; [|discriminate]. rewrite En. discriminate. }
  2: { rewrite En in NH |- *. destruct a; cbn in *; exact NH. }
  2: { intros I. rewrite !in_app_iff in I. rewrite !in_app_iff in N1. destruct I as [I|[I|[I|[I|I]]]]; [tauto|tauto|tauto|discriminate I|exact (NP I)]. }
  assert ((sp a ++ n ++ sp b ++ EQ :: post) ++ NUL :: more = [] ++ (sp a ++ n ++ sp b) ++ EQ :: (post ++ NUL :: more)) as -> by (rewrite <- !app_assoc; reflexivity).
  rewrite strchr_at by (try assumption; try reflexivity; rewrite steps_val; lens; lia). cbn [app].
  replace (0 + len (sp a ++ n ++ sp b)) with (len (sp a ++ n ++ sp b)) by lia.
  cbv zeta. rewrite Nat2Z.id, put_at by reflexivity.
  pose proof (strlen_at (sp a ++ n ++ sp b) steps [] (post ++ NUL :: more) 0 N1 eq_refl) as Hs. cbn [app] in Hs.
  rewrite Hs by (rewrite steps_val; lens; lia). clear Hs.
  replace (size_pred (len (sp a ++ n ++ sp b))) with (len (sp a ++ n) + Z.of_nat b - 1).
  2: { unfold size_pred. destruct (_ =? 0) eqn:E0; [exfalso; rewrite En in E0; lens; lia|lens; lia]. }
  replace ((sp a ++ n ++ sp b) ++ NUL :: post ++ NUL :: more) with ([] ++ (sp a ++ n) ++ sp b ++ (NUL :: post ++ NUL :: more)) by (cbn [app]; rewrite <- !app_assoc; reflexivity).
  rewrite (trim_end_at true (sp a ++ n)); [|rewrite En; destruct a; discriminate|apply tight_rev; assumption|reflexivity|rewrite steps_val; lens; lia].
  cbn [app]. rewrite En at 1. rewrite <- !app_assoc. cbn [app].
  pose proof (trim_start_at a steps [] x (r ++ nuls b ++ NUL :: post ++ NUL :: more) 0 (len (sp a ++ n ++ sp b)) Xs) as Ht. cbn [app] in Ht.
  rewrite Ht; [|rewrite En; lens; lia|reflexivity|rewrite steps_val; lens; lia]. clear Ht.
  replace (0 + Z.of_nat a) with (Z.of_nat a) by lia. rewrite Nat2Z.id.
  assert (nuls a ++ x :: r ++ nuls b ++ NUL :: post ++ NUL :: more = nuls a ++ n ++ nuls b ++ NUL :: post ++ NUL :: more) as -> by (rewrite En; reflexivity).
  replace (len (sp a ++ n ++ sp b) + 1) with (len (nuls a ++ n ++ nuls b ++ [NUL])) by (lens; lia).
  reflexivity.
Qed.

Lemma name_cstr a n b z : ~ In NUL n -> cstr (skipn a ((nuls a ++ n ++ nuls b ++ [NUL]) ++ z)) = n.
Proof.
  intros N. rewrite <- !app_assoc. cbn [app].
  replace a with (length (nuls a)) at 1 by apply repeat_length. rewrite skipn_pre.
  destruct b as [|b]; cbn [repeat app]; apply cstr_at; exact N.
Qed.
Lemma get_far b i : Z.of_nat (length b) <= i -> get b i = None.
Proof. intros H. unfold get. replace (i <? len b) with false by lia. rewrite andb_false_r. reflexivity. Qed.
Lemma trim_end_far must b p i : Z.of_nat (length b) <= p + i -> trim_end must steps b p i = TOut.
Proof.
  intros H. assert (exists f, steps = S f) as [f ->] by (exists 256%nat; reflexivity). cbn [trim_end]. rewrite get_far by exact H. reflexivity.
Qed.

Lemma line_ok l k : says l k -> forall post m, length (l ++ NUL :: post) = 256%nat ->
  outcome_of (l ++ NUL :: post) m k (do_line (l ++ NUL :: post) m).
Proof.
  induction 1 as [|r|l r k N S IH|a b c d n v Tn Tv NE NQ NN NV NH Vd Vc|l NE NH NQ NN|a r Na Nr|r Nr|a b n T NE NQ NN NH]; intros post m L; change "="%char with EQ in *; change nul with NUL in *.
  - cbn [outcome_of app]. unfold do_line. pose proof (strlen_at [] steps [] post 0 (fun x => x) eq_refl ltac:(rewrite steps_val; cbn; lia)) as Hs. cbn [app] in Hs. rewrite Hs. reflexivity.
  - cbn [outcome_of]. unfold do_line.
    replace (get (("#" :: r) ++ NUL :: post)%char 0) with (Some HASH) by (symmetry; exact (get_at [] HASH _ 0 eq_refl)).
    change (Ascii.eqb HASH HASH) with true.
    assert (exists n0, strlen steps (("#" :: r) ++ NUL :: post)%char 0 = Some n0) as (n0 & ->); [|destruct (n0 =? 0); reflexivity].
    rewrite steps_val. clear m.
    assert (forall s pre f p, p = len pre -> (length s < f)%nat -> exists n0, strlen f (pre ++ s ++ NUL :: post) p = Some n0) as G.
    { induction s as [|x s IH]; intros pre f p -> F; (destruct f as [|f]; [lia|]); cbn [strlen app]; rewrite get_at by reflexivity.
      - eexists. reflexivity.
      - destruct (Ascii.eqb x NUL); [eexists; reflexivity|].
        destruct (IH (pre ++ [x]) f (len pre + 1)) as (n0 & E); [rewrite app_length; cbn; lia|cbn in F; lia|].
        rewrite <- app_assoc in E. cbn [app] in E. rewrite E. eexists. reflexivity. }
    rewrite app_length in L. exact (G ("#"%char :: r) [] 257%nat 0 eq_refl ltac:(cbn in *; lia)).
  - rewrite <- app_assoc in L |- *. cbn [app] in L |- *. apply IH. exact L.
  - assert (~ In NUL (sp c ++ v ++ sp d)) as N2.
    { rewrite !in_app_iff. intros [I|[I|I]]; [exact (not_in_sp NUL c ltac:(discriminate) I)|exact (NV I)|exact (not_in_sp NUL d ltac:(discriminate) I)]. }
    assert (length (sp a ++ n ++ sp b ++ EQ :: sp c ++ v ++ sp d) < 256)%nat as L' by (rewrite app_length in L; cbn [length] in L; lia).
    cbn [outcome_of]. rewrite (name_part a n b m (sp c ++ v ++ sp d) Tn NE NQ NN NH N2 post L'). cbv zeta.
    set (pre := nuls a ++ n ++ nuls b ++ [NUL]).
    rewrite (strlen_at (sp c ++ v ++ sp d) steps pre post (len pre) N2 eq_refl) by (rewrite steps_val; lens; lia).
    destruct (list_eq_dec ascii_dec v []) as [Ev|Ev].
    + specialize (Vd Ev). specialize (Vc Ev). rewrite Ev in *. clear Ev v. subst d. destruct c as [|c]; [congruence|].
      replace (sp (S c) ++ [] ++ sp 0) with (sp (S c)) by (cbn [sp repeat app]; rewrite app_nil_r; reflexivity).
      replace (size_pred (len (sp (S c)))) with (Z.of_nat c) by (unfold size_pred, sp; rewrite repeat_length; destruct (_ =? 0) eqn:E0; lia).
      rewrite trim_end_blank by (try reflexivity; rewrite steps_val; lens; lia).
      pose proof (trim_start_at 0 steps pre NUL (nuls c ++ NUL :: post) (len pre) (len (sp (S c))) ltac:(discriminate) ltac:(unfold sp; rewrite repeat_length; lia) eq_refl ltac:(rewrite steps_val; lia)) as Ht.
      cbn [sp repeat app] in Ht |- *. rewrite Ht. clear Ht.
      eexists. split; [|f_equal; f_equal].
      * subst pre. lens. lia.
      * apply name_cstr. exact NN.
      * replace (Z.to_nat (len pre + Z.of_nat 0)) with (length pre) by lia. rewrite skipn_pre. reflexivity.
    + clear Vd Vc. destruct (tight_hd v Ev Tv) as (x & r & Er & Xs).
      replace (size_pred (len (sp c ++ v ++ sp d))) with (len (sp c ++ v) + Z.of_nat d - 1).
      2: { unfold size_pred. destruct (_ =? 0) eqn:E0; [exfalso; rewrite Er in E0; lens; lia|lens; lia]. }
      replace (pre ++ (sp c ++ v ++ sp d) ++ NUL :: post) with (pre ++ (sp c ++ v) ++ sp d ++ NUL :: post) by (rewrite <- !app_assoc; reflexivity).
      rewrite trim_end_at; [|rewrite Er; destruct c; discriminate|apply tight_rev; assumption|reflexivity|rewrite steps_val; lens; lia].
      replace (pre ++ (sp c ++ v) ++ nuls d ++ NUL :: post) with (pre ++ sp c ++ x :: (r ++ nuls d ++ NUL :: post)) by (rewrite Er, <- !app_assoc; reflexivity).
      rewrite trim_start_at; [|exact Xs|rewrite Er; lens; lia|reflexivity|rewrite steps_val; lens; lia].
      eexists. split; [|f_equal; f_equal].
      * subst pre. rewrite Er. lens. lia.
      * apply name_cstr. exact NN.
      * replace (pre ++ nuls c ++ x :: r ++ nuls d ++ NUL :: post) with ((pre ++ nuls c) ++ v ++ nuls d ++ NUL :: post) by (rewrite Er, <- !app_assoc; reflexivity).
        replace (Z.to_nat (len pre + Z.of_nat c)) with (length (pre ++ nuls c)) by (rewrite app_length, repeat_length; lia).
        rewrite skipn_pre. destruct d; cbn [repeat app]; apply cstr_at; exact NV.
  - cbn [outcome_of]. rewrite lead by (try assumption; rewrite app_length in L; cbn in L; lia).
    pose proof (strchr_none l steps [] post 0 NN NQ eq_refl) as Hs. cbn [app] in Hs.
    rewrite Hs by (rewrite steps_val; rewrite app_length in L; cbn in L; lia). reflexivity.
  - cbn [outcome_of]. destruct a as [|a]; [congruence|].
    rewrite lead; [|discriminate|discriminate| |rewrite app_length in L; cbn [length] in L; lia].
    2: { rewrite in_app_iff. intros [I|[I|I]]; [exact (not_in_sp NUL (S a) ltac:(discriminate) I)|discriminate I|exact (Nr I)]. }
    pose proof (strchr_at (sp (S a)) steps [] (r ++ NUL :: post) 0 (not_in_sp NUL (S a) ltac:(discriminate)) (not_in_sp EQ (S a) ltac:(discriminate)) eq_refl) as Hs.
    cbn [app] in Hs. rewrite <- app_assoc. cbn [app]. 
    rewrite Hs by (rewrite steps_val; lens; lia). clear Hs. cbv zeta.
    replace (Z.to_nat (0 + len (sp (S a)))) with (length (sp (S a))) by lia. rewrite put_at by reflexivity.
    pose proof (strlen_at (sp (S a)) steps [] (r ++ NUL :: post) 0 (not_in_sp NUL (S a) ltac:(discriminate)) eq_refl) as Hs.
    cbn [app] in Hs. rewrite Hs by (rewrite steps_val; lens; lia). clear Hs.
    replace (size_pred (len (sp (S a)))) with (Z.of_nat a) by (unfold size_pred, sp; rewrite repeat_length; destruct (_ =? 0) eqn:E0; lia).
    pose proof (trim_end_blank true a steps [] (NUL :: r ++ NUL :: post) 0 eq_refl) as Hs. cbn [app] in Hs.
    rewrite Hs by (rewrite steps_val; lens; lia). reflexivity.
  - cbn [outcome_of]. rewrite lead; [|discriminate|discriminate| |rewrite app_length in L; cbn [length] in *; lia].
    2: { intros [I|I]; [discriminate I|exact (Nr I)]. }
    pose proof (strchr_at [] steps [] (r ++ NUL :: post) 0 (fun x => x) (fun x => x) eq_refl ltac:(rewrite steps_val; cbn; lia)) as Hs.
    cbn [app] in Hs |- *.  rewrite Hs. clear Hs. cbn [length put Z.add Z.of_nat Z.to_nat]. cbv zeta.
    pose proof (strlen_at [] steps [] (r ++ NUL :: post) 0 (fun x => x) eq_refl ltac:(rewrite steps_val; cbn; lia)) as Hs.
    cbn [app] in Hs. change (put (EQ :: r ++ NUL :: post) 0 NUL) with (NUL :: r ++ NUL :: post). rewrite Hs. clear Hs.
    rewrite trim_end_far; [reflexivity|]. change (length (NUL :: r ++ NUL :: post)) with (length ((EQ :: r) ++ NUL :: post)).
    rewrite L. unfold size_pred. cbn. lia.
  - cbn [outcome_of].
    assert (length (sp a ++ n ++ sp b ++ EQ :: []) < 256)%nat as L' by (rewrite app_length in L; cbn [length] in L; lia).
    rewrite (name_part a n b m [] T NE NQ NN NH (fun x => x) post L'). cbv zeta.
    set (pre := nuls a ++ n ++ nuls b ++ [NUL]).
    rewrite (strlen_at [] steps pre post (len pre) (fun x => x) eq_refl) by (rewrite steps_val; cbn; lia).
    rewrite trim_end_far; [reflexivity|].
    replace (length (pre ++ [] ++ NUL :: post)) with 256%nat; [unfold size_pred; cbn [length Z.of_nat Z.eqb]; lia|].
    rewrite <- L. subst pre. lens. lia.
Qed.

(** ** every line has a meaning *)
Lemma split_first (x : ascii) l : ~ In x l \/ exists p r, l = p ++ x :: r /\ ~ In x p.
Proof.
  induction l as [|c l IH]; [left; intros []|]. destruct (ascii_dec c x) as [->|E].
  - right. exists [], l. split; [reflexivity|intros []].
  - destruct IH as [N|(p & r & -> & N)].
    + left. intros [F|F]; [exact (E F)|exact (N F)].
    + right. exists (c :: p), r. split; [reflexivity|]. intros [F|F]; [exact (E F)|exact (N F)].
Qed.
Lemma lead_blanks t : exists k r, t = sp k ++ r /\ hd_error r <> Some SP.
Proof.
  induction t as [|c t (k & r & E & H)]; [exists 0%nat, []; split; [reflexivity|discriminate]|].
  destruct (ascii_dec c SP) as [->|N].
  - exists (S k), r. split; [rewrite E; reflexivity|exact H].
  - exists 0%nat, (c :: t). split; [reflexivity|]. cbn. congruence.
Qed.
Lemma rev_sp k : rev (sp k) = sp k.
Proof.
  unfold sp. induction k as [|k IH]; [reflexivity|]. cbn [repeat rev]. rewrite IH. change [" "%char] with (repeat " "%char 1).
  rewrite <- repeat_app. rewrite Nat.add_comm. reflexivity.
Qed.
Lemma blanks t : (exists k, t = sp k) \/ exists a n b, t = sp a ++ n ++ sp b /\ tight n /\ n <> [].
Proof.
  destruct (lead_blanks t) as (a & r & -> & H). destruct r as [|x r]; [left; exists a; apply app_nil_r|]. right.
  destruct (lead_blanks (rev (x :: r))) as (b & n & E & H').
  assert (x :: r = rev n ++ sp b) as F by (rewrite <- (rev_involutive (x :: r)), E, rev_app_distr, rev_sp; reflexivity).
  assert (rev n <> []) as NN.
  { intros Z. rewrite Z in F. cbn in F. destruct b as [|b]; [discriminate F|]. injection F as F _. rewrite F in H. apply H. reflexivity. }
  exists a, (rev n), b. split; [rewrite F; reflexivity|]. split; [|exact NN].
  split; [|rewrite rev_involutive; exact H'].
  destruct (rev n) as [|y s]; [congruence|]. cbn [app] in F. injection F as <- _. exact H.
Qed.
Lemma says_total l : exists k, says l k.
Proof.
  assert (forall l, ~ In nul l -> exists k, says l k) as G.
  { clear l. intros l N. destruct l as [|c l']; [exists Nothing; constructor|].
    destruct (ascii_dec c "#"%char) as [->|H]; [exists Nothing; constructor|].
    set (l := c :: l') in *. assert (hd_error l <> Some "#"%char) as H' by (cbn; congruence). assert (l <> []) as NE by discriminate. clearbody l. clear c H l'.
    destruct (split_first "="%char l) as [Q|(p & r & -> & Q)]; [exists Refused; constructor; assumption|].
    assert (~ In nul p /\ ~ In nul r) as [Np Nr] by (split; intros I; apply N; apply in_or_app; [left; exact I|right; right; exact I]).
    destruct (blanks p) as [(a & ->)|(a & n & b & -> & T & E)].
    - destruct a as [|a]; [exists Stray; apply s_empty_name; exact Nr|].
      exists Refused. apply s_no_name; [discriminate|exact Nr].
    - assert (~ In nul n /\ ~ In "="%char n) as [Nn Qn].
      { split; intros I; [apply Np|apply Q]; rewrite !in_app_iff; right; left; exact I. }
      assert (hd_error (sp a ++ n) <> Some "#"%char) as Hn.
      { destruct (tight_hd n E T) as (x & s & -> & _). destruct a; cbn in *; exact H'. }
      destruct (blanks r) as [(c & ->)|(c & v & d & -> & Tv & Ev)].
      + destruct c as [|c].
        * exists Stray. rewrite <- !app_assoc. apply s_empty_value; assumption.
        * exists (Pair n []). replace (sp (S c)) with (sp (S c) ++ [] ++ sp 0) by (cbn [sp repeat app]; rewrite app_nil_r; reflexivity).
          rewrite <- !app_assoc. apply s_pair; try assumption; try (split; discriminate); try (intros []); auto; discriminate.
      + exists (Pair n v). rewrite <- !app_assoc. apply s_pair; try assumption; try congruence.
        intros I. apply Nr. rewrite !in_app_iff. right. left. exact I. }
  destruct (split_first nul l) as [N|(p & r & -> & N)]; [exact (G l N)|].
  destruct (G p N) as (k & K). exists k. apply s_hidden; assumption.
Qed.

(** ** lines of a file *)
Lemma getline_line l rest : forall room, ~ In nl l -> (length l <= room)%nat -> getline room (l ++ nl :: rest) = (l, rest, Good).
Proof.
  induction l as [|c l IH]; intros room N L; cbn [getline app]; [reflexivity|].
  rewrite eqb_ne by (intros E; apply N; left; exact E). destruct room as [|k]; [cbn in L; lia|].
  rewrite IH; [reflexivity|intros E; apply N; right; exact E|cbn in L; lia].
Qed.
Lemma getline_end l : forall room, ~ In nl l -> (length l <= room)%nat -> getline room l = (l, [], Eof).
Proof.
  induction l as [|c l IH]; intros room N L; cbn [getline]; [reflexivity|].
  rewrite eqb_ne by (intros E; apply N; left; exact E). destruct room as [|k]; [cbn in L; lia|].
  rewrite IH; [reflexivity|intros E; apply N; right; exact E|cbn in L; lia].
Qed.
Lemma getline_long l rest : forall room, ~ In nl l -> (room < length l)%nat -> exists r, getline room (l ++ rest) = (firstn room l, r, Fail).
Proof.
  induction l as [|c l IH]; intros room N L; [cbn in L; lia|]. cbn [getline app].
  rewrite eqb_ne by (intros E; apply N; left; exact E). destruct room as [|k]; [eexists; reflexivity|].
  destruct (IH k) as (r & E); [intros F; apply N; right; exact F|cbn in L; lia|]. rewrite E. eexists. reflexivity.
Qed.
Lemma store_length l b : length b = 256%nat -> (length l <= 255)%nat -> length (store l b) = 256%nat.
Proof. intros B L. unfold store. rewrite app_length. cbn [length]. rewrite skipn_length. lia. Qed.
Lemma store_eq l b : length b = 256%nat -> (length l <= 255)%nat -> exists post, store l b = l ++ NUL :: post /\ length (l ++ NUL :: post) = 256%nat.
Proof. intros B L. eexists. split; [reflexivity|]. exact (store_length l b B L). Qed.

Definition add_all (ps : list (txt * txt)) (m : list (txt * txt)) : list (txt * txt) :=
  fold_left (fun m p => insert m (fst p) (snd p)) ps m.

Lemma file_cons l ls rest : file_of (l :: ls) rest = l ++ nl :: file_of ls rest.
Proof. unfold file_of. cbn [map concat]. rewrite <- !app_assoc. reflexivity. Qed.
Lemma file_length ls rest : (length ls <= length (file_of ls rest))%nat.
Proof. unfold file_of. induction ls as [|l ls IH]; cbn; [lia|]. rewrite !app_length in *. cbn. lia. Qed.

(** consuming a prefix of well-behaved lines *)
Lemma lines_ok ls ks : Forall2 says ls ks -> Forall short ls -> Forall harmless ks -> forall fuel rest b m,
  length b = 256%nat -> exists b', length b' = 256%nat /\
  lines (length ls + fuel) (file_of ls rest) b m = lines fuel rest b' (add_all (pairs ks) m).
Proof.
  induction 1 as [|l k ls ks K W IH]; intros SH HM fuel rest b m B.
  - exists b. split; [exact B|reflexivity].
  - apply Forall_cons_iff in SH, HM. destruct SH as [[N L] SH]. destruct HM as [Hk HM]. specialize (IH SH HM).
    rewrite file_cons. cbn [length Nat.add lines]. change (Z.to_nat (BUF - 1)) with 255%nat. rewrite getline_line by assumption.
    destruct (store_eq l b B L) as (post & -> & B').
    pose proof (line_ok l k K post m B') as O. destruct k as [|n v| |]; cbn [outcome_of] in O; [| |destruct Hk|destruct Hk].
    + rewrite O. destruct (IH fuel rest (l ++ NUL :: post) m B') as (b' & B2 & E). exists b'. split; [exact B2|exact E].
    + destruct O as (b1 & B1 & ->). destruct (IH fuel rest b1 (insert m n v) ltac:(congruence)) as (b' & B2 & E). exists b'. split; [exact B2|exact E].
Qed.
Lemma parse_ok ls ks : Forall2 says ls ks -> Forall short ls -> Forall harmless ks -> forall rest b,
  length b = 256%nat -> exists f b', length b' = 256%nat /\ (length rest < f)%nat /\
  parse_preferences b (file_of ls rest) = lines f rest b' (add_all (pairs ks) []).
Proof.
  intros W SH HM rest b B. unfold parse_preferences.
  set (f := (S (length (file_of ls rest)) - length ls)%nat).
  destruct (lines_ok ls ks W SH HM f rest b [] B) as (b' & B' & E). exists f, b'. split; [exact B'|].
  pose proof (file_length ls rest). split.
  - subst f. unfold file_of. rewrite app_length.
    assert (length ls <= length (concat (map (fun l => l ++ [nl]) ls)))%nat; [|lia].
    clear. induction ls as [|l ls IH]; cbn; [lia|]. rewrite !app_length. cbn. lia.
  - etransitivity; [|exact E]. f_equal. subst f. lia.
Qed.
Lemma line_bad l k : says l k -> ~ harmless k -> short l -> forall f rest b m, length b = 256%nat ->
  lines (S f) (l ++ nl :: rest) b m = match k with Refused => Threw | _ => Outside end.
Proof.
  intros K H [N L] f rest b m B. cbn [lines]. change (Z.to_nat (BUF - 1)) with 255%nat. rewrite getline_line by assumption.
  destruct (store_eq l b B L) as (post & -> & B').
  pose proof (line_ok l k K post m B') as O. destruct k; cbn [outcome_of harmless] in *; try (exfalso; apply H; exact I); rewrite O; reflexivity.
Qed.
Lemma line_long l rest : ~ In nl l -> (255 < length l)%nat -> forall f b m, length b = 256%nat ->
  forall k, says (firstn 255 l) k ->
  lines (S f) (l ++ rest) b m = match k with Refused => Threw | Stray => Outside | _ => Forever end.
Proof.
  intros N L f b m B k K. cbn [lines]. change (Z.to_nat (BUF - 1)) with 255%nat.
  destruct (getline_long l rest 255 N L) as (r & ->).
  assert (length (firstn 255 l) <= 255)%nat as L' by (rewrite firstn_length; lia).
  destruct (store_eq _ b B L') as (post & -> & B').
  pose proof (line_ok _ k K post m B') as O. destruct k; cbn [outcome_of] in O.
  - rewrite O. reflexivity.
  - destruct O as (b1 & _ & ->). reflexivity.
  - rewrite O. reflexivity.
  - rewrite O. reflexivity.
Qed.

(** ** the map *)
Lemma text_eqb_spec a b : text_eqb a b = true <-> a = b.
Proof. unfold text_eqb. destruct (list_eq_dec ascii_dec a b); split; congruence. Qed.
Lemma lookup_value m n : lookup m n = value_of m n.
Proof. induction m as [|[k v] m IH]; cbn; [reflexivity|]. unfold text_eqb. destruct (list_eq_dec ascii_dec k n); [reflexivity|exact IH]. Qed.
Lemma value_app a b n : value_of (a ++ b) n = match value_of a n with Some v => Some v | None => value_of b n end.
Proof. induction a as [|[k v] a IH]; cbn; [reflexivity|]. destruct (list_eq_dec ascii_dec k n); [reflexivity|exact IH]. Qed.
Lemma value_in m n : existsb (fun e => text_eqb (fst e) n) m = true <-> value_of m n <> None.
Proof.
  induction m as [|[k v] m IH]; cbn; [split; congruence|]. unfold text_eqb at 1. destruct (list_eq_dec ascii_dec k n); cbn [orb]; [split; congruence|exact IH].
Qed.
Lemma insert_value m n v x : value_of (insert m n v) x = value_of (m ++ [(n, v)]) x.
Proof.
  unfold insert. destruct (existsb _ m) eqn:E; [|reflexivity]. rewrite value_app. cbn [value_of].
  destruct (list_eq_dec ascii_dec n x) as [<-|_].
  - apply value_in in E. destruct (value_of m n); [reflexivity|congruence].
  - destruct (value_of m x); reflexivity.
Qed.
Lemma add_all_value ps : forall m x, value_of (add_all ps m) x = value_of (m ++ ps) x.
Proof.
  unfold add_all. induction ps as [|[n v] ps IH]; intros m x; cbn [fold_left fst snd]; [rewrite app_nil_r; reflexivity|].
  rewrite IH, value_app, insert_value, !value_app. cbn [value_of].
  destruct (value_of m x); [reflexivity|]. destruct (list_eq_dec ascii_dec n x); reflexivity.
Qed.
Lemma insert_nodup m n v : NoDup (map fst m) -> NoDup (map fst (insert m n v)).
Proof.
  intros H. unfold insert. destruct (existsb _ m) eqn:E; [exact H|]. rewrite map_app. cbn [map fst].
  apply NoDup_Add with (a := n) (l := map fst m); [|split; [exact H|]].
  - pose proof (Add_app n (map fst m) []) as A. rewrite app_nil_r in A. exact A.
  - intros I. apply in_map_iff in I. destruct I as ([k w] & K & I). cbn in K. subst k.
    assert (existsb (fun e => text_eqb (fst e) n) m = true) as E'; [|congruence].
    apply existsb_exists. exists (n, w). split; [exact I|]. apply text_eqb_spec. reflexivity.
Qed.
Lemma add_all_nodup ps : forall m, NoDup (map fst m) -> NoDup (map fst (add_all ps m)).
Proof. unfold add_all. induction ps as [|p ps IH]; intros m H; cbn; [exact H|]. apply IH, insert_nodup, H. Qed.
Lemma insert_in m n v e : In e (insert m n v) -> In e (m ++ [(n, v)]).
Proof. unfold insert. destruct (existsb _ m); [intros I; apply in_or_app; left; exact I|exact (fun I => I)]. Qed.
