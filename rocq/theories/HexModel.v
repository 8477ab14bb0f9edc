(** * Words and hexadecimal numbers in C strings
    src/base/StringHelper.h.  Memory from a pointer on is a list of chars (signed, -128 to
    127); the pointer may move to its end but not be read there: [None] and [Outside] are
    reads outside of the memory. *)
From Coq Require Import ZArith List Bool.
Import ListNotations.
Local Open Scope Z_scope.

Definition is_space (c : Z) : bool := ((c =? 32) || (c =? 9) || (c =? 13) || (c =? 10))%bool.
(** IgnoreWhitespace, 55-66, 70-81: the memory from the resulting pointer on *)
Fixpoint ignore_space (m : list Z) : option (list Z) :=
  match m with [] => None | c :: r => if is_space c then ignore_space r else Some m end.
(** FindWhitespace, 85-97, 101-113 *)
Fixpoint find_space (m : list Z) : option (list Z) :=
  match m with [] => None | c :: r => if (is_space c || (c =? 0))%bool then Some m else find_space r end.

(** StringToHex, 117-140.  int has 32 bits; a sum or a shift that leaves it is undefined *)
Inductive reading := Value (v : Z) | Outside | Overflow.
Definition fits (v : Z) : bool := (v <=? 2 ^ 31 - 1).
(** strlen *)
Fixpoint strlen (m : list Z) : option nat :=
  match m with [] => None | c :: r => if c =? 0 then Some 0%nat else option_map S (strlen r) end.
(** the sum in the order of the code, 128-136: [None] is the exit with -1 *)
Definition add_digit (v c : Z) : option (Z * Z) :=
  if ((48 <=? c) && (c <=? 57))%bool then Some (v + c, 48)
  else if ((65 <=? c) && (c <=? 70))%bool then Some (v + 10 + c, 65)
  else if ((97 <=? c) && (c <=? 102))%bool then Some (v + 10 + c, 97)
  else None.
(** the loop, 126-137: [i] is one more than nI *)
Fixpoint hex_loop (m : list Z) (i : nat) (v : Z) : reading :=
  match i with
  | O => Value v
  | S j =>
    if negb (fits (16 * v)) then Overflow
    else match nth_error m j with
    | None => Outside
    | Some c =>
      match add_digit (16 * v) c with
      | None => Value (-1)
      | Some (s, b) => if fits s then hex_loop m j (s - b) else Overflow
      end
    end
  end.
Definition string_to_hex (m : list Z) (len : Z) : reading :=
  if len =? 0 then match strlen m with None => Outside | Some n => hex_loop m n 0 end
  else hex_loop m (Z.to_nat len) 0.
