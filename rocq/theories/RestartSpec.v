(** What a restart file should hold and what reading it should return. *)
From Coq Require Import ZArith List.
From Verif Require Import RestartModel.
Import ListNotations.
Local Open Scope nat_scope.

(** The file: check word, time, parameters, patch data, then the two
    containers of every patch in order of the patch index. *)
Definition image (n : nat) (time : list Z) (g : grid) : list Z :=
  le 4 171456 ++ time ++ params g ++ pdata g ++
  concat (map (fun i => geo g i ++ acs g i) (seq 0 n)).

(** A grid of [n] patches, all of them initialised, whose containers have the
    sizes the code would give them and sizes that an [int] holds. *)
Record proper (rows count pdsize : list Z -> nat) (csize : list Z -> list Z -> nat -> nat * nat) (n : nat) (g : grid) : Prop := {
  p_some : 0 < n;
  p_index : (Z.of_nat n < 2 ^ 31)%Z;
  p_rows : rows (params g) = n;
  p_count : count (pdata g) = n;
  p_pdata : pdsize (params g) = length (pdata g);
  p_csize : forall i, i < n -> csize (params g) (pdata g) i = (length (geo g i), length (acs g i));
  p_fits : forall i, i < n -> (Z.of_nat (length (geo g i)) < 2 ^ 31 /\ Z.of_nat (length (acs g i)) < 2 ^ 31)%Z }.

(** The patches that were read hold what was written *)
Definition restored (n size r : nat) (g : grid) (l : list (nat * list Z * list Z)) : Prop :=
  NoDup (map (fun p => fst (fst p)) l) /\
  (forall i, In i (map (fun p => fst (fst p)) l) <-> i < n /\ i mod size = r) /\
  forall i a b, In (i, a, b) l -> a = geo g i /\ b = acs g i.
