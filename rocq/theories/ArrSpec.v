(** Specification vocabulary for C11-C14. *)
From Coq Require Import ZArith Bool List.
From Verif Require Import ArrModel.
Import ListNotations.
Local Open Scope Z_scope.

Section Spec.
Context {V : Type}.
Notation heap := (@heap V).

(** The array owns block [b] (is responsible for releasing it). *)
Definition owned (a : arr) (b : nat) : Prop := owns a = true /\ ptr a = Some b.
(** Object [o] of the program owns block [b]. *)
Definition owned_by (w : @world V) (o b : nat) : Prop :=
  exists a, wobj w o = Some a /\ owned a b.

(** [a] is attached to live memory large enough for its dimensions, and its
    elements are [l]. *)
Definition readable (h : heap) (a : arr) (l : list V) : Prop :=
  exists b m, ptr a = Some b /\ hmem h b = Some m /\
    (Z.to_nat (total (dims a)) <= length m)%nat /\ firstn (Z.to_nat (total (dims a))) m = l.
(** The state in which an assignment [a = d] must succeed. *)
Record assignable (h : heap) (a d : arr) (l : list V) : Prop := {
  as_src : readable h d l;
  as_pos : Forall (fun x => 0 < x) (dims d);
  as_next : forall b, hmem h b <> None -> (b < hnext h)%nat;
  as_rank : length (dims a) = length (dims d);
  as_kind : akind a <> KStruct;
  as_dst : (ptr a = None -> owns a = true) /\
           (forall b, owned a b -> ptr d <> Some b /\ hmem h b <> None /\
              (exists m, hmem h b = Some m /\ (Z.to_nat (total (dims a)) <= length m)%nat)) /\
           (owns a = false -> forall b, ptr a = Some b ->
              dims a = dims d /\ dtype a = dtype d /\ dloc a = dloc d /\
              exists m, hmem h b = Some m /\ (Z.to_nat (total (dims a)) <= length m)%nat) }.

End Spec.

(** Sum of the byte sizes of a list of chunks *)
Fixpoint bytes (ks : list chunk) : Z := match ks with [] => 0 | k :: ks' => csize k + bytes ks' end.

(** Operations with non-NULL AttachTo argument *)
Definition cop_ok (x : cop) : Prop := match x with PAttach b => b <> 0 | _ => True end.
