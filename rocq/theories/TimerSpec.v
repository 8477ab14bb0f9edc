(** * What the record of a group should hold, from the history of calls *)
From Coq Require Import ZArith String List Bool.
From Verif Require Import TimerModel.
Import ListNotations.
Local Open Scope Z_scope.

(** a moment in microseconds *)
Definition moment (t : timeval) : Z := 1000000 * fst t + snd t.
(** the histories below have the last call first *)
Definition history := list (timeval * call).
(** when timer [i] was started and for which group *)
Fixpoint started (h : history) (i : nat) : option (Z * string) :=
  match h with
  | [] => None
  | (now, c) :: h' =>
      match c with
      | Create j g => if Nat.eqb j i then Some (moment now, g) else started h' i
      | Restart j => if Nat.eqb j i then match started h' i with Some (_, g) => Some (moment now, g) | None => None end else started h' i
      | Destroy j => if Nat.eqb j i then None else started h' i
      | _ => started h' i
      end
  end.
(** the durations that group [g] should have in its record: those of the calls that end
    a measurement of a timer of the group, since the record was last forgotten *)
Definition ends (c : call) : option nat :=
  match c with Look i true => Some i | Stop i => Some i | Destroy i => Some i | _ => None end.
Fixpoint durations (h : history) (g : string) : list Z :=
  match h with
  | [] => []
  | (now, c) :: h' =>
      match c with
      | Forget k => if String.eqb k g then [] else durations h' g
      | _ => match ends c with
             | Some i => match started h' i with
                         | Some (m, k) => if String.eqb k g then (moment now - m) :: durations h' g else durations h' g
                         | None => durations h' g
                         end
             | None => durations h' g
             end
      end
  end.
Definition total (l : list Z) : Z := fold_right Z.add 0 l.
(** the clock does not go back *)
Definition forward (h : history) : Prop := forall a b l1 l2, h = l1 ++ b :: l2 -> In a l2 -> moment (fst a) <= moment (fst b).
