(** * Names up to the case of their letters, and the names that the help gives *)
From Coq Require Import String Ascii NArith List.
Import ListNotations.
Local Open Scope string_scope.

Definition small : string := "abcdefghijklmnopqrstuvwxyz".
Definition capital : string := "ABCDEFGHIJKLMNOPQRSTUVWXYZ".
Definition pair_of_letters (a b : ascii) : Prop := exists i, get i small = Some a /\ get i capital = Some b.
(** the same character, or the same letter in another case *)
Definition same_letter (a b : ascii) : Prop := a = b \/ pair_of_letters a b \/ pair_of_letters b a.
Fixpoint same_name (s t : string) : Prop :=
  match s, t with
  | EmptyString, EmptyString => True
  | String a s', String b t' => same_letter a b /\ same_name s' t'
  | _, _ => False
  end.
(** a capital letter occurs *)
Fixpoint has_capital (s : string) : Prop :=
  match s with EmptyString => False | String a r => (exists i, get i capital = Some a) \/ has_capital r end.
Fixpoint all_of (P : ascii -> Prop) (s : string) : Prop := match s with EmptyString => True | String a r => P a /\ all_of P r end.
(** characters that the C library can classify when char is signed: ASCII and EOF *)
Definition classified (a : ascii) : Prop := (N_of_ascii a < 128)%N \/ N_of_ascii a = 255%N.

(** what help and error messages promise, src/atm/TempestInitialize.h:138-145, 287-290 *)
Definition help_vstagger : list string := ["LEV"; "INT"; "LOR"; "CPH"].
Definition help_vdisc : list string := ["FE"; "FV"].
Definition help_hmethod : list string := ["V1"; "V2"; "SPEX"].
Definition help_vmethod : list string := ["V1"; "V2"; "SCHUR"; "NONE"].
Definition help_timescheme : list string := ["Strang"; "ERK"; "ARS222"; "ARS232"; "ARK232"; "ARS343"; "ARS443"; "SSP3_332"].
