(** * What a preference file says *)
From Coq Require Import List Bool Ascii.
Import ListNotations.

Definition txt := list ascii.
Definition sp (n : nat) : txt := repeat " "%char n.
Definition nul : ascii := "000"%char.
Definition nl : ascii := "010"%char.

(** text without a blank at either end *)
Definition tight (t : txt) : Prop := hd_error t <> Some " "%char /\ hd_error (rev t) <> Some " "%char.

(** the meaning of one line.  A NUL in the line hides what follows. *)
Inductive meaning := Nothing | Pair (n v : txt) | Refused | Stray.
Inductive says : txt -> meaning -> Prop :=
| s_blank : says [] Nothing
| s_comment r : says ("#"%char :: r) Nothing
| s_hidden l r m : ~ In nul l -> says l m -> says (l ++ nul :: r) m
| s_pair a b c d n v : tight n -> tight v -> n <> [] -> ~ In "="%char n -> ~ In nul n -> ~ In nul v ->
    hd_error (sp a ++ n) <> Some "#"%char -> (v = [] -> d = 0) -> (v = [] -> c <> 0) ->
    says (sp a ++ n ++ sp b ++ "="%char :: sp c ++ v ++ sp d) (Pair n v)
| s_no_equal l : l <> [] -> hd_error l <> Some "#"%char -> ~ In "="%char l -> ~ In nul l -> says l Refused
| s_no_name a r : a <> 0 -> ~ In nul r -> says (sp a ++ "="%char :: r) Refused
| s_empty_name r : ~ In nul r -> says ("="%char :: r) Stray
| s_empty_value a b n : tight n -> n <> [] -> ~ In "="%char n -> ~ In nul n ->
    hd_error (sp a ++ n) <> Some "#"%char -> says (sp a ++ n ++ sp b ++ ["="%char]) Stray.

(** a file of newline-terminated lines *)
Definition file_of (ls : list txt) (rest : txt) : txt := concat (map (fun l => l ++ [nl]) ls) ++ rest.

(** the first value given to a name counts *)
Fixpoint value_of (ps : list (txt * txt)) (n : txt) : option txt :=
  match ps with
  | [] => None
  | (k, v) :: r => if list_eq_dec ascii_dec k n then Some v else value_of r n
  end.

(** no newline, and room for it in the 256 byte buffer *)
Definition short (l : txt) : Prop := ~ In nl l /\ (length l <= 255).
Fixpoint pairs (ks : list meaning) : list (txt * txt) :=
  match ks with [] => [] | Pair n v :: r => (n, v) :: pairs r | _ :: r => pairs r end.
Definition harmless (k : meaning) : Prop := match k with Nothing | Pair _ _ => True | _ => False end.
