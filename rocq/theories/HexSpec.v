(** * Numbers by their digits *)
From Coq Require Import ZArith List String Ascii.
Import ListNotations.
Local Open Scope Z_scope.

(** the char is a digit of value [d]: its place in the usual order, in either case *)
Definition digit (c d : Z) : Prop :=
  exists i a, d = Z.of_nat i /\ (String.get i "0123456789ABCDEF" = Some a \/ String.get i "0123456789abcdef" = Some a) /\ c = Z.of_N (N_of_ascii a).
(** the number with these digits, the first the most significant *)
Definition number (ds : list Z) : Z := fold_left (fun v d => 16 * v + d) ds 0.
(** white space as C's isspace has it without \v and \f *)
Definition blank (c : Z) : Prop := In c [9; 10; 13; 32].
