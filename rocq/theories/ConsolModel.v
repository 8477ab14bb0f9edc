(** Model of ConsolidationStatus, src/atm/ConsolidationStatus.h and
    src/atm/ConsolidationStatus.cpp.  DataType and DataLocation values are the
    integers of the enumerations in src/base/DataType.h:25-49 and
    src/base/DataLocation.h:25-33.  No code in the repository calls the class
    any more; the loops that once sent and received are not modelled. *)
From Coq Require Import ZArith List Bool.
Import ListNotations.
Local Open Scope Z_scope.

(** DataTypeLocationPair as an int, ConsolidationStatus.h:58-60 *)
Definition key (t l : Z) : Z := Z.shiftl t 2 + l.
(** GenerateTag, ConsolidationStatus.h:108-115; [None]: the shift or the sum
    leaves the range of [int] *)
Definition fits (z : Z) : bool := (- 2 ^ 31 <=? z) && (z <? 2 ^ 31).
Definition generate_tag (ix t l : Z) : option Z :=
  if (0 <=? ix) && fits (Z.shiftl ix 6) && fits (Z.shiftl ix 6 + key t l) then Some (Z.shiftl ix 6 + key t l) else None.
(** ParseTag, ConsolidationStatus.h:120-129: patch, type and location *)
Definition parse_tag (tag : Z) : Z * Z * Z :=
  (Z.shiftr tag 6, Z.land (Z.shiftr tag 2) 15, Z.land tag 3).

(** m_mapDataTypes: keys (by their int, ConsolidationStatus.h:65-67) with
    indices; insert keeps an entry whose key is present *)
Definition dmap := list (Z * nat).
Definition find (m : dmap) (k : Z) : option nat :=
  match List.find (fun e => fst e =? k) m with Some e => Some (snd e) | None => None end.
Definition insert (m : dmap) (k : Z) (i : nat) : dmap :=
  match find m k with Some _ => m | None => m ++ [(k, i)] end.
(** The loop ConsolidationStatus.cpp:36-39 *)
Fixpoint build (m : dmap) (i : nat) (ts : list (Z * Z)) : dmap :=
  match ts with [] => m | (t, l) :: ts' => build (insert m (key t l) i) (S i) ts' end.

Record status := mkStatus {
  types : dmap;                    (* m_mapDataTypes *)
  counts : list nat;               (* m_vecReceiveStatusCount *)
  flags : list (list bool);        (* m_vecReceiveStatus, one row per patch *)
  requests : nat;                  (* m_vecSendRequests.size() *)
  current : nat }.                 (* m_nCurrentSendRequest *)

(** Constructor, ConsolidationStatus.cpp:22-66, on rank [rank] of a grid with
    [patches] patches of which [act] are active here *)
Definition construct (rank patches act : nat) (ts : list (Z * Z)) : status :=
  let m := build [] 0 ts in
  match rank with
  | O => mkStatus m (repeat 0%nat (length ts)) (repeat (repeat false (length ts)) patches) (act * length m) 0
  | _ => mkStatus m [] [] (act * length m) 0
  end.

(** Contains, ConsolidationStatus.cpp:70-80 *)
Definition contains (s : status) (t l : Z) : bool :=
  match find (types s) (key t l) with Some _ => true | None => false end.
(** Done, ConsolidationStatus.cpp:84-91 *)
Definition done (s : status) : bool := forallb (fun c => Nat.eqb c (length (flags s))) (counts s).

Inductive out (A : Type) := Ok (a : A) | Throw | Undef.
Arguments Ok {A}. Arguments Throw {A}. Arguments Undef {A}.
Definition set_nth {A} (i : nat) (v : A) (l : list A) : list A := firstn i l ++ v :: skipn (S i) l.

(** SetReceiveStatus, ConsolidationStatus.cpp:95-114 *)
Definition set_receive (ix t l : Z) (s : status) : out status :=
  match find (types s) (key t l) with
  | None => Throw
  | Some m =>
    if (ix <? 0) || (Z.of_nat (length (flags s)) <=? ix) then Throw else
    let p := Z.to_nat ix in
    match nth_error (flags s) p with
    | None => Undef
    | Some row =>
      match nth_error row m, nth_error (counts s) m with
      | Some b, Some c =>
        if b then Throw else
        Ok (mkStatus (types s) (set_nth m (S c) (counts s)) (set_nth p (set_nth m true row) (flags s)) (requests s) (current s))
      | _, _ => Undef
      end
    end
  end.

(** GetNextSendRequest, ConsolidationStatus.cpp:118-125: index of the request *)
Definition next_send (s : status) : out (nat * status) :=
  if (requests s <=? current s)%nat then Throw
  else Ok (current s, mkStatus (types s) (counts s) (flags s) (requests s) (S (current s))).

(** A sequence of received messages, and of send requests *)
Fixpoint receive (ms : list (Z * Z * Z)) (s : status) : out status :=
  match ms with
  | [] => Ok s
  | (ix, t, l) :: ms' =>
    match set_receive ix t l s with Ok s' => receive ms' s' | Throw => Throw | Undef => Undef end
  end.
Fixpoint send (k : nat) (s : status) : out (list nat) :=
  match k with
  | O => Ok []
  | S k' =>
    match next_send s with
    | Ok (i, s') => match send k' s' with Ok l => Ok (i :: l) | Throw => Throw | Undef => Undef end
    | Throw => Throw | Undef => Undef
    end
  end.
