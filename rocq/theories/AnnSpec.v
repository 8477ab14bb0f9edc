(** * Nested announcements as a tree, and the text they should give *)
From Coq Require Import ZArith Bool Ascii String List.
From Verif Require Import AnnModel.
Import ListNotations.
Local Open Scope nat_scope.

(** a block has a title, contents and possibly a closing remark *)
Inductive item := Line (t : string) | Block (title : string) (body : list item) (close : option string).

(** the calls that announce an item *)
Fixpoint calls_of (i : item) : list call :=
  match i with
  | Line t => [Say (Some t)]
  | Block t b c => Start (Some t) :: flat_map calls_of b ++ [End_ c]
  end.

(** nesting depth *)
Fixpoint depth (i : item) : nat :=
  match i with Line _ => 0 | Block _ b _ => S (fold_right (fun j n => Nat.max (depth j) n) 0 b) end.
Definition depths (l : list item) : nat := fold_right (fun j n => Nat.max (depth j) n) 0 l.

(** texts that fit the buffer; closing remarks contain no '%' *)
Definition fits (t : string) : Prop := (Z.of_nat (String.length t) < 1024)%Z.
Inductive tame : item -> Prop :=
| t_line t : fits t -> tame (Line t)
| t_block t b c : (forall i, In i b -> tame i) -> (forall r, c = Some r -> fits r /\ has_percent r = false) -> tame (Block t b c).

(** what should appear: every item on a line of its own, indented by two dots
    per level; the closing remark follows the title of a block without
    contents on the same line, and otherwise is a line of the block.
    [open]: the last line has not been ended. *)
Fixpoint dots (n : nat) : string := match n with O => "" | S k => ".." ++ dots k end.
Definition ended (open : bool) : string := if open then newline else "".
Fixpoint text (d : nat) (open : bool) (i : item) : string * bool :=
  match i with
  | Line t => (ended open ++ dots d ++ t ++ newline, false)%string
  | Block t b c =>
      let '(s, o) := fold_left (fun '(s, o) j => let '(s', o') := text (S d) o j in ((s ++ s')%string, o'))
                       b ((ended open ++ dots d ++ t)%string, true) in
      match c with
      | None => (s, o)
      | Some r => ((s ++ (if o then ".. " else dots (S d)) ++ r ++ newline)%string, false)
      end
  end.
Definition texts (d : nat) (open : bool) (l : list item) : string * bool :=
  fold_left (fun '(s, o) j => let '(s', o') := text d o j in ((s ++ s')%string, o')) l (""%string, open).

(** the characters in the output buffer *)
Definition buffered (l : list (sink * string)) : string :=
  fold_right (fun e s => match fst e with Buffer => (snd e ++ s)%string | Stdout => s end) ""%string l.

(** balanced sequences of calls with at most [n] nested blocks; the two ends
    of a block carry the same verbosity *)
Inductive balanced : nat -> list call -> Prop :=
| b_nil n : balanced n []
| b_say n t : balanced n [Say t]
| b_sayv n v t : balanced n [SayV v t]
| b_banner n t : balanced n [Banner t]
| b_block n t c cs : balanced n cs -> balanced (S n) (Start t :: cs ++ [End_ c])
| b_blockv n v t c cs : balanced n cs -> balanced (S n) (StartV v t :: cs ++ [EndV v c])
| b_app n a b : balanced n a -> balanced n b -> balanced n (a ++ b).
