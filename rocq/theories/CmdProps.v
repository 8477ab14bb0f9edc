(** * C42: command line parsing *)
From Coq Require Import ZArith String Bool Ascii Lia List.
From Verif Require Import CmdModel CmdSpec CmdProofs.
Import ListNotations.
Open Scope Z_scope.

Section Props.
Context {V : Type} (on : V) (conv : kind -> string -> option V) (strict : bool) (tbl : list param) (defaults : list V).
Notation parse := (parse_command_line on conv strict tbl defaults).
Notation words := (words on conv (negb strict) tbl).

(** a command line that is a sequence of options with their arguments is
    accepted, and every parameter ends at its last value or its default *)
Theorem C42_accepts : NoDup (map pname tbl) -> ~ In ""%string (map pname tbl) ->
  forall prog ws l, words ws l ->
  exists vs, parse (prog :: ws) = Parsed false vs /\
    forall i, nth_error vs i = option_map (last_value l i) (nth_error defaults i).
Proof.
  intros ND NE prog ws l W. exists (assign l defaults). split; [|intros i; apply assign_nth].
  exact (words_runs on conv tbl ND NE strict ws l W [prog] (length (prog :: ws)) false defaults ltac:(cbn; lia)).
Qed.

(** and nothing else is accepted; argv is never read beyond its end and the
    loop ends *)
Theorem C42_rejects : NoDup (map pname tbl) -> ~ In ""%string (map pname tbl) ->
  forall prog ws, match parse (prog :: ws) with
    | Parsed false _ => exists l, words ws l
    | Parsed true _ | Threw => forall l, ~ words ws l
    | Wild | Fuel => False
    end.
Proof.
  intros ND NE prog ws.
  pose proof (runs_words on conv tbl ND NE strict (length (prog :: ws)) ws [prog] false defaults ltac:(cbn; lia)) as H.
  pose proof (fun l W => words_runs on conv tbl ND NE strict ws l W [prog] (length (prog :: ws)) false defaults ltac:(cbn; lia)) as H'.
  change (loop on conv strict tbl ([prog] ++ ws) (length (prog :: ws)) _) with (parse (prog :: ws)) in H.
  change (loop on conv strict tbl ([prog] ++ ws) (length (prog :: ws)) _) with (parse (prog :: ws)) in H'.
  destruct (parse (prog :: ws)) as [[]| | |]; try exact H; intros l W; specialize (H' l W); discriminate.
Qed.

(** without any words the defaults stay *)
Theorem C42_defaults : forall prog, parse [prog] = Parsed false defaults /\ parse [] = Parsed false defaults.
Proof. intros prog. split; reflexivity. Qed.

(** the source's two variants differ only in unknown words: what the strict
    one accepts the lenient one accepts with the same assignments *)
Theorem C42_strict_lenient : forall ws l, CmdSpec.words on conv false tbl ws l -> CmdSpec.words on conv true tbl ws l.
Proof. induction 1; [constructor|econstructor; eassumption|econstructor; eassumption|discriminate]. Qed.
End Props.
Print Assumptions C42_accepts.
Print Assumptions C42_rejects.
Print Assumptions C42_defaults.
Print Assumptions C42_strict_lenient.

(** ** why names must be non-empty and distinct *)
Definition text (k : kind) (s : string) : option string := match k with KInt => if String.eqb s "x" then None else Some s | _ => Some s end.
(** with a parameter whose name is empty, the value "--" of another option is
    taken as an option again and the command line is refused *)
Theorem C42_empty_name_refuted : exists tbl ws l,
  NoDup (map pname tbl) /\ words "on"%string text false tbl ws l /\
  exists vs, parse_command_line "on"%string text true tbl [""; ""]%string ("prog"%string :: ws) = Parsed true vs.
Proof.
  exists [Param "s" KString; Param "" KString], ["--s"; "--"]%string, [(0%nat, "--"%string)].
  split; [repeat constructor; cbn; intuition discriminate|]. split.
  - change "--s"%string with (flag (Param "s" KString)). apply w_value with (p := Param "s" KString); [reflexivity|discriminate| |reflexivity|constructor].
    intros (c & r & E). discriminate.
  - eexists. vm_compute. reflexivity.
Qed.
Print Assumptions C42_empty_name_refuted.
(** of two parameters with one name only the first receives the value *)
Theorem C42_duplicate_name_refuted : exists tbl ws l vs,
  ~ In ""%string (map pname tbl) /\ words "on"%string text false tbl ws l /\
  parse_command_line "on"%string text true tbl ["0"; "0"]%string ("prog"%string :: ws) = Parsed false vs /\
  nth_error vs 1 <> Some (last_value l 1 "0"%string).
Proof.
  exists [Param "n" KString; Param "n" KString], ["--n"; "5"]%string, [(1%nat, "5"%string)], ["5"; "0"]%string.
  split; [cbn; intuition discriminate|]. split; [|split; [reflexivity|discriminate]].
  change "--n"%string with (flag (Param "n" KString)). apply w_value with (p := Param "n" KString); [reflexivity|discriminate| |reflexivity|constructor].
  intros (c & r & E). discriminate.
Qed.
Print Assumptions C42_duplicate_name_refuted.

(** ** a case with a switch, repeated options and a negative number *)
Definition ex_tbl : list param := [Param "case" KString; Param "levels" KInt; Param "verbose" KBool].
Example C42_case : NoDup (map pname ex_tbl) /\ ~ In ""%string (map pname ex_tbl) /\
  words "on"%string text false ex_tbl ["--levels"; "-3"; "--verbose"; "--levels"; "7"]%string
    [(1%nat, "-3"); (2%nat, "on"); (1%nat, "7")]%string /\
  parse_command_line "on"%string text true ex_tbl ["a"; "b"; "c"]%string
    ["prog"; "--levels"; "-3"; "--verbose"; "--levels"; "7"]%string = Parsed false ["a"; "7"; "on"]%string /\
  (exists vs, parse_command_line "on"%string text true ex_tbl ["a"; "b"; "c"]%string ["prog"; "--levels"; "--verbose"]%string = Parsed true vs) /\
  parse_command_line "on"%string text true ex_tbl ["a"; "b"; "c"]%string ["prog"; "--levels"; "x"]%string = Threw /\
  parse_command_line "on"%string text false ex_tbl ["a"; "b"; "c"]%string ["prog"; "--typo"; "--verbose"]%string = Parsed false ["a"; "b"; "on"]%string.
Proof.
  split; [repeat constructor; cbn; intuition discriminate|]. split; [cbn; intuition discriminate|]. split.
  { change "--levels"%string with (flag (Param "levels" KInt)). change "--verbose"%string with (flag (Param "verbose" KBool)).
    apply w_value with (p := Param "levels" KInt); [reflexivity|discriminate|intros (c & r & E); discriminate|reflexivity|].
    apply w_switch with (p := Param "verbose" KBool); [reflexivity|reflexivity|].
    apply w_value with (p := Param "levels" KInt); [reflexivity|discriminate|intros (c & r & E); discriminate|reflexivity|constructor]. }
  split; [vm_compute; reflexivity|]. split; [eexists; vm_compute; reflexivity|]. split; vm_compute; reflexivity.
Qed.
