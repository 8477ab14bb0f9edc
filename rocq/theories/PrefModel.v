(** * Preference files
    src/base/Preferences.cpp:29-128 (ParsePreferences) and the lookups
    130-270.  The file is a list of characters.  The 256 byte buffer is a list
    of that length; every access is checked against it. *)
From Coq Require Import ZArith Bool Ascii List.
Import ListNotations.
Open Scope Z_scope.

Definition NUL : ascii := "000"%char.
Definition NL : ascii := "010"%char.
Definition SP : ascii := " "%char.
Definition EQ : ascii := "="%char.
Definition HASH : ascii := "#"%char.
Definition BUF : Z := 256.

Definition text := list ascii.

Inductive outcome :=
| Done (prefs : list (text * text))  (* contents of m_mapPreferences *)
| Threw                              (* _EXCEPTION *)
| Outside                            (* access outside szBuffer *)
| Forever.                           (* the loop never ends *)

(** access to szBuffer *)
Definition get (b : text) (i : Z) : option ascii :=
  if (0 <=? i) && (i <? Z.of_nat (length b)) then nth_error b (Z.to_nat i) else None.
Fixpoint put (b : text) (i : nat) (c : ascii) : text :=
  match b, i with
  | [], _ => []
  | _ :: r, O => c :: r
  | x :: r, S j => x :: put r j c
  end.

(** size_t arithmetic: 0 - 1 is the largest value *)
Definition size_pred (i : Z) : Z := if i =? 0 then 2 ^ 64 - 1 else i - 1.

(** std::istream::getline(szBuffer, 256) on the rest of the file: the
    characters stored, the rest, and the stream state afterwards.  The
    standard tests, before each character, end of file, then the delimiter,
    then whether n - 1 characters have been stored (failbit). *)
Inductive stream := Good | Eof | Fail.
Fixpoint getline (room : nat) (file : text) {struct file} : text * text * stream :=
  match file with
  | [] => ([], [], Eof)
  | c :: r =>
      if Ascii.eqb c NL then ([], r, Good)
      else match room with
           | O => ([], file, Fail)
           | S k => let '(l, r', s) := getline k r in (c :: l, r', s)
           end
  end.
(** the line and its terminator overwrite the front of the buffer *)
Definition store (l b : text) : text := l ++ NUL :: skipn (S (length l)) b.

(** strlen and strchr from offset p *)
Fixpoint strlen (fuel : nat) (b : text) (p : Z) : option Z :=
  match fuel with
  | O => None
  | S f => match get b p with
           | None => None
           | Some c => if Ascii.eqb c NUL then Some 0 else option_map (fun n => n + 1) (strlen f b (p + 1))
           end
  end.
Fixpoint strchr (fuel : nat) (b : text) (p : Z) (x : ascii) : option (option Z) :=
  match fuel with
  | O => None
  | S f => match get b p with
           | None => None
           | Some c => if Ascii.eqb c x then Some (Some p)
                       else if Ascii.eqb c NUL then Some None else strchr f b (p + 1) x
           end
  end.
Definition steps : nat := Z.to_nat (BUF + 1).

(** std::string(sz) *)
Fixpoint cstr (b : text) : text :=
  match b with [] => [] | c :: r => if Ascii.eqb c NUL then [] else c :: cstr r end.

(** "for (i = nLength-1;; i--)", lines 69-81 and 94-105; the name loop throws
    when it reaches i = 0, the value loop stops there *)
Inductive trimmed := TBuf (b : text) | TThrew | TOut.
Fixpoint trim_end (must : bool) (fuel : nat) (b : text) (p i : Z) : trimmed :=
  match fuel with
  | O => TOut
  | S f =>
      match get b (p + i) with
      | None => TOut
      | Some c =>
          if Ascii.eqb c SP then
            let b' := put b (Z.to_nat (p + i)) NUL in
            if i =? 0 then (if must then TThrew else TBuf b') else trim_end must f b' p (i - 1)
          else TBuf b
      end
  end.
(** "for (i = 0; i < nLength; i++)", lines 83-91 and 107-115: the i-- in the
    body and the i++ of the loop cancel (in size_t arithmetic), so i stays 0
    while the pointer moves *)
Fixpoint trim_start (fuel : nat) (b : text) (p len : Z) : option (text * Z) :=
  match fuel with
  | O => None
  | S f =>
      if 0 <? len then
        match get b p with
        | None => None
        | Some c =>
            if Ascii.eqb c SP then trim_start f (put b (Z.to_nat p) NUL) (p + 1) len
            else Some (b, p)
        end
      else Some (b, p)
  end.

(** std::map::insert keeps an existing entry *)
Definition text_eqb (a b : text) : bool := if list_eq_dec ascii_dec a b then true else false.
Definition insert (m : list (text * text)) (n v : text) : list (text * text) :=
  if existsb (fun e => text_eqb (fst e) n) m then m else m ++ [(n, v)].

(** the body of the loop for a buffer that holds a line, lines 50-121 *)
Inductive line_result := LNext (b : text) (m : list (text * text)) | LThrew | LOut.
Definition do_line (b : text) (m : list (text * text)) : line_result :=
  match strlen steps b 0 with
  | None => LOut
  | Some n0 =>
      if n0 =? 0 then LNext b m
      else match get b 0 with
      | None => LOut
      | Some c0 =>
          if Ascii.eqb c0 HASH then LNext b m
          else match strchr steps b 0 EQ with
          | None => LOut
          | Some None => LThrew
          | Some (Some e) =>
              let b := put b (Z.to_nat e) NUL in
              let eq := e + 1 in
              match strlen steps b 0 with
              | None => LOut
              | Some nl =>
                  match trim_end true steps b 0 (size_pred nl) with
                  | TOut => LOut | TThrew => LThrew
                  | TBuf b =>
                      match trim_start steps b 0 nl with
                      | None => LOut
                      | Some (b, name) =>
                          match strlen steps b eq with
                          | None => LOut
                          | Some vl =>
                              match trim_end false steps b eq (size_pred vl) with
                              | TOut => LOut | TThrew => LThrew
                              | TBuf b =>
                                  match trim_start steps b eq vl with
                                  | None => LOut
                                  | Some (b, val) =>
                                      LNext b (insert m (cstr (skipn (Z.to_nat name) b)) (cstr (skipn (Z.to_nat val) b)))
                                  end
                              end
                          end
                      end
                  end
              end
          end
      end
  end.

(** ParsePreferences, lines 29-124; [b] is the uninitialised buffer.  After a
    failed getline the stream stays failed: getline stores an empty line and
    eof() stays false, so the loop does not end. *)
Fixpoint lines (fuel : nat) (file b : text) (m : list (text * text)) : outcome :=
  match fuel with
  | O => Forever
  | S f =>
      let '(l, rest, s) := getline (Z.to_nat (BUF - 1)) file in
      let b := store l b in
      match s with
      | Eof => Done m
      | Good => match do_line b m with
                | LNext b m => lines f rest b m
                | LThrew => Threw
                | LOut => Outside
                end
      | Fail => match do_line b m with
                | LNext _ _ => Forever
                | LThrew => Threw
                | LOut => Outside
                end
      end
  end.
Definition parse_preferences (b file : text) : outcome := lines (S (length file)) file b [].

(** GetPreference, GetPreference_NoThrow, GetPreferenceAsString: lines
    130-160, 254-275 *)
Fixpoint lookup (m : list (text * text)) (n : text) : option text :=
  match m with [] => None | (k, v) :: r => if text_eqb k n then Some v else lookup r n end.
