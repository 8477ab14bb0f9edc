(** * Lemmas about the command line parser *)
From Coq Require Import ZArith String Bool Ascii Lia ZifyBool List.
From Verif Require Import CmdModel CmdSpec.
Import ListNotations.
Open Scope Z_scope.

Section Proofs.
Context {V : Type} (on : V) (conv : kind -> string -> option V).

Lemma dashed_spec s : dashed s = true <-> option_word s.
Proof.
  unfold dashed, option_word. destruct s as [|a [|b [|c r]]]; split; try discriminate.
  - intros (c & r & E). discriminate E.
  - intros (c & r & E). discriminate E.
  - intros (c & r & E). discriminate E.
  - intros H. apply andb_prop in H. destruct H as [H1 H2]. apply Ascii.eqb_eq in H1, H2. subst. exists c, r. reflexivity.
  - intros (c' & r' & E). injection E as -> -> -> ->. reflexivity.
Qed.
Lemma flag_dashed p : pname p <> ""%string -> dashed (flag p) = true.
Proof. intros H. unfold flag. destruct (pname p) as [|c r]; [congruence|reflexivity]. Qed.
Lemma flag_inj p q : flag p = flag q -> pname p = pname q.
Proof. unfold flag. intros E. injection E as E. exact E. Qed.

Lemma arg_app pre w ws : arg (pre ++ w :: ws) (Z.of_nat (length pre)) = Some w.
Proof.
  unfold arg, argc. rewrite app_length. cbn [length].
  replace (_ && _) with true by lia. rewrite Nat2Z.id, nth_error_app2 by lia. rewrite Nat.sub_diag. reflexivity.
Qed.
Lemma arg_app1 pre w x ws : arg (pre ++ w :: x :: ws) (Z.of_nat (length pre) + 1) = Some x.
Proof.
  replace (pre ++ w :: x :: ws) with ((pre ++ [w]) ++ x :: ws) by (rewrite <- app_assoc; reflexivity).
  replace (Z.of_nat (length pre) + 1) with (Z.of_nat (length (pre ++ [w]))) by (rewrite app_length; cbn; lia).
  apply arg_app.
Qed.
Lemma argc_app pre ws : argc (pre ++ ws) = Z.of_nat (length pre) + Z.of_nat (length ws).
Proof. unfold argc. rewrite app_length. lia. Qed.

(** entries that do not match leave the state alone *)
Lemma params_miss argv ps : forall i s w, arg argv (command s) = Some w -> (forall p, In p ps -> flag p <> w) ->
  params on conv argv ps i s = Ok s.
Proof.
  induction ps as [|p ps IH]; intros i s w A N; cbn [params]; [reflexivity|].
  rewrite A. destruct (String.eqb_spec (flag p) w) as [E|E]; [exfalso; exact (N p (or_introl eq_refl) E)|].
  apply (IH _ _ w A). intros q Hq. apply N. right. exact Hq.
Qed.
Lemma params_skip argv ps rest : forall i s w, arg argv (command s) = Some w -> (forall p, In p ps -> flag p <> w) ->
  params on conv argv (ps ++ rest) i s = params on conv argv rest (i + length ps)%nat s.
Proof.
  induction ps as [|p ps IH]; intros i s w A N; cbn [params app length]; [f_equal; lia|].
  rewrite A. destruct (String.eqb_spec (flag p) w) as [E|E]; [exfalso; exact (N p (or_introl eq_refl) E)|].
  rewrite (IH _ _ w A) by (intros q Hq; apply N; right; exact Hq). f_equal. lia.
Qed.

Context (tbl : list param).
Context (ND : NoDup (map pname tbl)) (NE : ~ In ""%string (map pname tbl)).

Lemma split_at i p : nth_error tbl i = Some p -> exists l1 l2, tbl = l1 ++ p :: l2 /\ length l1 = i.
Proof. intros H. apply nth_error_split in H. destruct H as (l1 & l2 & E & L). exists l1, l2. split; [exact E|exact L]. Qed.
Lemma others l1 p l2 : tbl = l1 ++ p :: l2 -> forall q, In q l1 \/ In q l2 -> flag q <> flag p.
Proof.
  intros E q Hq F. apply flag_inj in F. rewrite E, map_app in ND. cbn [map] in ND. apply NoDup_remove_2 in ND. apply ND.
  rewrite in_app_iff. destruct Hq as [Hq|Hq]; [left|right]; rewrite <- F; apply in_map; exact Hq.
Qed.
Lemma named q : In q tbl -> pname q <> ""%string.
Proof. intros H E. apply NE. rewrite <- E. apply in_map. exact H. Qed.

(** one word *)
Lemma params_unknown argv s w : arg argv (command s) = Some w -> ~ known tbl w -> params on conv argv tbl 0 s = Ok s.
Proof. intros A N. apply (params_miss _ _ _ _ w A). intros p Hp E. apply N. exists p. split; [exact Hp|symmetry; exact E]. Qed.

Lemma params_switch pre i p ws s : nth_error tbl i = Some p -> pkind p = KBool -> command s = Z.of_nat (length pre) ->
  params on conv (pre ++ flag p :: ws) tbl 0 s = Ok (St (command s) true (err s) (put i on (vals s))).
Proof.
  intros Hi K C. destruct (split_at _ _ Hi) as (l1 & l2 & E & L). rewrite E.
  assert (arg (pre ++ flag p :: ws) (command s) = Some (flag p)) as A by (rewrite C; apply arg_app).
  rewrite (params_skip _ _ _ _ _ _ A) by (intros q Hq; apply (others _ _ _ E); left; exact Hq).
  cbn [params]. rewrite A, String.eqb_refl, K. cbn [nvals activate take]. rewrite argc_app. cbn [length].
  replace (_ <=? 0) with false by lia. cbn [Z.to_nat take nvals Z.ltb Z.compare negb andb Z.leb Z.eqb].
  replace (0 + length l1)%nat with i by lia.
  apply (params_miss _ _ _ _ (flag p)); [exact A|]. intros q Hq. apply (others _ _ _ E). right. exact Hq.
Qed.
Lemma params_last pre i p s : nth_error tbl i = Some p -> pkind p <> KBool -> command s = Z.of_nat (length pre) ->
  exists l, params on conv (pre ++ [flag p]) tbl 0 s = Ok (St (argc (pre ++ [flag p])) true true l).
Proof.
  intros Hi K C. destruct (split_at _ _ Hi) as (l1 & l2 & E & L). rewrite E.
  assert (arg (pre ++ [flag p]) (command s) = Some (flag p)) as A by (rewrite C; apply arg_app).
  rewrite (params_skip _ _ _ _ _ _ A) by (intros q Hq; apply (others _ _ _ E); left; exact Hq).
  cbn [params]. rewrite A, String.eqb_refl.
  replace (argc (pre ++ [flag p]) - command s <=? nvals (pkind p)) with true.
  - eexists. reflexivity.
  - rewrite argc_app. cbn [length]. destruct (pkind p); cbn [nvals]; try lia. congruence.
Qed.
Lemma params_value pre i p w ws s : nth_error tbl i = Some p -> pkind p <> KBool -> command s = Z.of_nat (length pre) ->
  params on conv (pre ++ flag p :: w :: ws) tbl 0 s =
  if dashed w then Ok (St (argc (pre ++ flag p :: w :: ws)) true true (vals s))
  else match conv (pkind p) w with
       | None => RThrew
       | Some v => Ok (St (command s + 1) true (err s) (put i v (vals s)))
       end.
Proof.
  intros Hi K C. destruct (split_at _ _ Hi) as (l1 & l2 & E & L). rewrite E.
  assert (arg (pre ++ flag p :: w :: ws) (command s) = Some (flag p)) as A by (rewrite C; apply arg_app).
  assert (arg (pre ++ flag p :: w :: ws) (command s + 1) = Some w) as A1 by (rewrite C; apply arg_app1).
  rewrite (params_skip _ _ _ _ _ _ A) by (intros q Hq; apply (others _ _ _ E); left; exact Hq).
  cbn [params]. rewrite A, String.eqb_refl.
  assert (nvals (pkind p) = 1) as N1 by (destruct (pkind p); try reflexivity; congruence).
  assert (activate on (pkind p) (0 + length l1) (vals s) = vals s) as ->
    by (destruct (pkind p); try reflexivity; congruence).
  rewrite N1. rewrite argc_app. cbn [length].
  replace (_ <=? 1) with false by lia. change (S (Z.to_nat 1)) with 2%nat. cbn [take]. rewrite N1.
  cbn [Z.ltb Z.compare negb]. rewrite argc_app. cbn [length].
  replace (command s + 0 + 1) with (command s + 1) by lia.
  replace (command s + 1 <? _) with true by lia. rewrite A1. cbn [option_map].
  destruct (dashed w) eqn:D; [reflexivity|]. cbn [Z.eqb negb].
  destruct (conv (pkind p) w) as [v|] eqn:Cv; [|reflexivity].
  replace (0 + length l1)%nat with i by lia. change (0 + 1) with 1. cbn [ Z.ltb Z.compare Pos.compare Pos.compare_cont negb Z.leb Z.eqb Pos.eqb andb].
  apply (params_miss _ _ _ _ w); [exact A1|]. intros q Hq F.
  assert (dashed w = true) as F'; [|congruence]. rewrite <- F. apply flag_dashed, named. rewrite E. apply in_or_app. right. right. exact Hq.
Qed.

(** the whole list *)
Definition assign (l : list (nat * V)) (vs : list V) : list V := fold_left (fun vs a => put (fst a) (snd a) vs) l vs.
Context (strict : bool).
Notation words := (words on conv (negb strict) tbl).

Lemma loop_end argv fuel s : argc argv <= command s -> loop on conv strict tbl argv fuel s = Parsed (err s) (vals s).
Proof. intros H. destruct fuel; cbn [loop]; replace (command s <? argc argv) with false by lia; reflexivity. Qed.
Lemma loop_step argv f s : command s < argc argv ->
  loop on conv strict tbl argv (S f) s =
  match params on conv argv tbl 0 (St (command s) false (err s) (vals s)) with
  | RWild => Wild
  | RThrew => Threw
  | Ok t =>
      if negb (found t) && strict then
        match arg argv (command t) with None => Wild | Some _ => Parsed true (vals t) end
      else loop on conv strict tbl argv f (St (command t + 1) (found t) (err t) (vals t))
  end.
Proof. intros H. cbn [loop]. replace (command s <? argc argv) with true by lia. reflexivity. Qed.

Lemma words_runs ws l : words ws l -> forall pre fuel fd vs, (length ws <= fuel)%nat ->
  loop on conv strict tbl (pre ++ ws) fuel (St (Z.of_nat (length pre)) fd false vs) = Parsed false (assign l vs).
Proof.
  induction 1 as [|i p ws l Hi K W IH|i p w v ws l Hi K D Cv W IH|w ws l Ln U W IH]; intros pre fuel fd vs F.
  - apply loop_end. rewrite argc_app. cbn. lia.
  - cbn [length] in F. destruct fuel as [|f]; [lia|]. rewrite loop_step by (rewrite argc_app; cbn; lia). cbn [command err vals].
    rewrite (params_switch pre i p ws (St _ false false vs) Hi K eq_refl). cbn [command err vals found negb andb].
    specialize (IH (pre ++ [flag p]) f true (put i on vs)). rewrite <- app_assoc in IH. cbn [app] in IH.
    replace (Z.of_nat (length pre) + 1) with (Z.of_nat (length (pre ++ [flag p]))) by (rewrite app_length; cbn; lia).
    rewrite IH by lia. reflexivity.
  - cbn [length] in F. destruct fuel as [|f]; [lia|]. rewrite loop_step by (rewrite argc_app; cbn; lia). cbn [command err vals].
    rewrite (params_value pre i p w ws (St _ false false vs) Hi K eq_refl), Cv.
    assert (dashed w = false) as -> by (destruct (dashed w) eqn:E; [|reflexivity]; exfalso; apply D, dashed_spec; exact E).
    cbn [command err vals found negb andb].
    specialize (IH (pre ++ [flag p; w]) f true (put i v vs)). rewrite <- app_assoc in IH. cbn [app] in IH.
    replace (Z.of_nat (length pre) + 1 + 1) with (Z.of_nat (length (pre ++ [flag p; w]))) by (rewrite app_length; cbn; lia).
    rewrite IH by lia. reflexivity.
  - cbn [length] in F. destruct fuel as [|f]; [lia|]. rewrite loop_step by (rewrite argc_app; cbn; lia). cbn [command err vals].
    rewrite (params_unknown _ (St _ false false vs) w (arg_app _ _ _) U). cbn [command err vals found].
    destruct strict; [discriminate Ln|]. cbn [negb andb].
    specialize (IH (pre ++ [w]) f false vs). rewrite <- app_assoc in IH. cbn [app] in IH.
    replace (Z.of_nat (length pre) + 1) with (Z.of_nat (length (pre ++ [w]))) by (rewrite app_length; cbn; lia).
    rewrite IH by lia. reflexivity.
Qed.

Lemma find_flag w : (exists i p, nth_error tbl i = Some p /\ w = flag p) \/ ~ known tbl w.
Proof.
  destruct (in_dec string_dec w (map flag tbl)) as [I|I].
  - left. apply in_map_iff in I. destruct I as (p & <- & Hp). apply In_nth_error in Hp. destruct Hp as [i Hi]. exists i, p. split; [exact Hi|reflexivity].
  - right. intros (p & Hp & E). apply I. rewrite E. apply in_map. exact Hp.
Qed.

Lemma runs_words fuel : forall ws pre fd vs, (length ws <= fuel)%nat ->
  match loop on conv strict tbl (pre ++ ws) fuel (St (Z.of_nat (length pre)) fd false vs) with
  | Parsed false _ => exists l, words ws l
  | Parsed true _ | Threw => True
  | Wild | Fuel => False
  end.
Proof.
  induction fuel as [|f IH]; intros ws pre fd vs F.
  - destruct ws; [|cbn in F; lia]. rewrite loop_end by (rewrite argc_app; cbn; lia). exists []. constructor.
  - destruct ws as [|w ws]; [rewrite loop_end by (rewrite argc_app; cbn; lia); exists []; constructor|]. cbn [length] in F.
    rewrite loop_step by (rewrite argc_app; cbn; lia). cbn [command err vals].
    destruct (find_flag w) as [(i & p & Hi & ->)|U].
    + destruct (kind_eqb (pkind p) KBool) eqn:K.
      * assert (pkind p = KBool) as K' by (destruct (pkind p); try discriminate; reflexivity). clear K.
        rewrite (params_switch pre i p ws (St _ false false vs) Hi K' eq_refl). cbn [command err vals found negb andb].
        specialize (IH ws (pre ++ [flag p]) true (put i on vs)). rewrite <- app_assoc in IH. cbn [app] in IH.
        replace (Z.of_nat (length pre) + 1) with (Z.of_nat (length (pre ++ [flag p]))) by (rewrite app_length; cbn; lia).
        specialize (IH ltac:(lia)). destruct (loop _ _ _ _ _ _ _) as [[]| | |]; try exact IH.
        destruct IH as (l & W). exists ((i, on) :: l). constructor; assumption.
      * assert (pkind p <> KBool) as K' by (intros E; rewrite E in K; discriminate). clear K.
        destruct ws as [|x ws].
        { destruct (params_last pre i p (St (Z.of_nat (length pre)) false false vs) Hi K' eq_refl) as (l & ->).
          cbn [command err vals found negb andb]. rewrite loop_end by (cbn [command]; lia). exact I. }
        rewrite (params_value pre i p x ws (St _ false false vs) Hi K' eq_refl).
        destruct (dashed x) eqn:D; [cbn [command err vals found negb andb]; rewrite loop_end by (cbn [command]; lia); exact I|].
        destruct (conv (pkind p) x) as [v|] eqn:Cv; [|exact I]. cbn [command err vals found negb andb].
        specialize (IH ws (pre ++ [flag p; x]) true (put i v vs)). rewrite <- app_assoc in IH. cbn [app] in IH.
        replace (Z.of_nat (length pre) + 1 + 1) with (Z.of_nat (length (pre ++ [flag p; x]))) by (rewrite app_length; cbn; lia).
        cbn [length] in F. specialize (IH ltac:(lia)). destruct (loop _ _ _ _ _ _ _) as [[]| | |]; try exact IH.
        destruct IH as (l & W). exists ((i, v) :: l). apply w_value; try assumption.
        intros O. apply dashed_spec in O. congruence.
    + rewrite (params_unknown _ (St _ false false vs) w (arg_app _ _ _) U). cbn [command err vals found].
      destruct strict eqn:Es; cbn [negb andb]; [rewrite arg_app; exact I|].
      specialize (IH ws (pre ++ [w]) false vs). rewrite <- app_assoc in IH. cbn [app] in IH.
      replace (Z.of_nat (length pre) + 1) with (Z.of_nat (length (pre ++ [w]))) by (rewrite app_length; cbn; lia).
      specialize (IH ltac:(lia)). destruct (loop _ _ _ _ _ _ _) as [[]| | |]; try exact IH.
      destruct IH as (l & W). exists l. apply w_skip; [reflexivity|exact U|exact W].
Qed.
End Proofs.

Lemma put_length {V} (v : V) : forall i l, length (put i v l) = length l.
Proof. induction i; destruct l; cbn; congruence. Qed.
Lemma put_nth {V} (v : V) : forall i l j, nth_error (put i v l) j =
  if Nat.eqb i j then option_map (fun _ => v) (nth_error l j) else nth_error l j.
Proof.
  induction i as [|i IH]; intros [|x l] j; cbn; try (destruct j; reflexivity).
  - destruct j; cbn; try reflexivity; destruct (Nat.eqb i j); reflexivity.
  - destruct j; cbn; [reflexivity|]. apply IH.
Qed.
Lemma assign_nth {V} (l : list (nat * V)) : forall vs j,
  nth_error (assign l vs) j = option_map (last_value l j) (nth_error vs j).
Proof.
  unfold assign, last_value. induction l as [|[i v] l IH]; intros vs j; cbn [fold_left fst snd].
  - destruct (nth_error vs j); reflexivity.
  - rewrite IH, put_nth. destruct (Nat.eqb i j); destruct (nth_error vs j); reflexivity.
Qed.
Lemma assign_length {V} (l : list (nat * V)) : forall vs, length (assign l vs) = length vs.
Proof. unfold assign. induction l as [|a l IH]; intros vs; cbn; [reflexivity|]. rewrite IH. apply put_length. Qed.
