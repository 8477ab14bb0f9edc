(** * What a command line means, independently of the parser *)
From Coq Require Import String Bool Ascii List.
From Verif Require Import CmdModel.
Import ListNotations.

Section Spec.
Context {V : Type} (on : V) (conv : kind -> string -> option V).
Context (lenient : bool) (tbl : list param).

(** a word that starts a new option: two dashes and at least one more sign *)
Definition option_word (s : string) : Prop := exists c r, s = ("--" ++ String c r)%string.
Definition known (s : string) : Prop := exists p, In p tbl /\ s = flag p.

(** [words ws l]: the words [ws] (after the program name) are a sequence of
    options with their arguments, giving the assignments [l] (number of the
    parameter, value) in order *)
Inductive words : list string -> list (nat * V) -> Prop :=
| w_end : words [] []
| w_switch i p ws l : nth_error tbl i = Some p -> pkind p = KBool ->
    words ws l -> words (flag p :: ws) ((i, on) :: l)
| w_value i p s v ws l : nth_error tbl i = Some p -> pkind p <> KBool ->
    ~ option_word s -> conv (pkind p) s = Some v ->
    words ws l -> words (flag p :: s :: ws) ((i, v) :: l)
| w_skip s ws l : lenient = true -> ~ known s -> words ws l -> words (s :: ws) l.

(** the value of the last assignment to parameter [i], or [d] *)
Definition last_value (l : list (nat * V)) (i : nat) (d : V) : V :=
  fold_left (fun d a => if Nat.eqb (fst a) i then snd a else d) l d.
End Spec.
