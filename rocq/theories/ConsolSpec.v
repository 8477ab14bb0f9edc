(** What consolidation should do. *)
From Coq Require Import ZArith List.
Import ListNotations.
Local Open Scope Z_scope.

(** Types and locations that have data: DataType_State = 0 up to
    DataType_Richardson = 19, DataLocation_Node = 0 up to DataLocation_REdge = 3. *)
Definition real_pair (p : Z * Z) : Prop := 0 <= fst p <= 19 /\ 0 <= snd p <= 3.

(** The messages expected by the root: every requested pair for every patch. *)
Definition expected (patches : nat) (ts : list (Z * Z)) (m : Z * Z * Z) : Prop :=
  let '(ix, t, l) := m in 0 <= ix < Z.of_nat patches /\ In (t, l) ts.
