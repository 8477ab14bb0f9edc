(** * What the vertical coordinate should be *)
From Coq Require Import Reals List.
From Verif Require Import QuadSpec ColSpec.
Import ListNotations.
Local Open Scope R_scope.

(** a rule with n points and positive weights on [0, 1] *)
Definition unit_rule (n : nat) (G W : list R) : Prop :=
  length G = n /\ length W = n /\ increasing G /\ Forall (fun x => 0 <= x <= 1) G /\ Forall (fun w => 0 < w) W.
(** no point at the ends; points at both ends and equal weights there *)
Definition open_rule (G : list R) : Prop := Forall (fun x => 0 < x < 1) G.
Definition closed_rule (n : nat) (G W : list R) : Prop :=
  (2 <= n)%nat /\ nth 0 G 0 = 0 /\ nth (n - 1) G 0 = 1 /\ nth 0 W 0 = nth (n - 1) W 0.
(** an increasing map of the column onto itself *)
Definition stretches (F : R -> R) : Prop :=
  F 0 = 0 /\ F 1 = 1 /\ forall x y, 0 <= x -> x < y -> y <= 1 -> F x < F y.
(** bound a of the elements of a column with ne of them: equal, stretched by F *)
Definition bound (F : R -> R) (ne a : nat) : R := F (INR a / INR ne).
(** the point with coordinate g in element a *)
Definition place (F : R -> R) (ne a : nat) (g : R) : R := bound F ne a + g * (bound F ne (a + 1) - bound F ne a).
Definition width (F : R -> R) (ne a : nat) : R := bound F ne (a + 1) - bound F ne a.
(** the function in use *)
Definition map_of (stretch : option (R -> R)) : R -> R := match stretch with Some F => F | None => fun x => x end.
Definition rising (f : nat -> R) (n : nat) : Prop := forall i j, (i < j < n)%nat -> f i < f j.
