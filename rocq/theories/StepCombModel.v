(** * TimestepSchemeARS343b (src/atm/TimestepSchemeARS343b.cpp:25-238)
    The scheme calls StepExplicitCombine, StepImplicitCombine and
    StepAfterSubCycleCombine of the horizontal dynamics.  HighSpeedDynamics implements
    them; all other dynamics inherit the empty bodies of HorizontalDynamics.h:91-100,
    115-124, 161-167.  Only the state is modelled: no Combine function reads or writes
    tracers, except for hyperdiffusion. *)
From Coq Require Import ZArith List Bool Reals.
From Verif Require Import StepModel.
Import ListNotations.
Local Open Scope Z_scope.

Inductive cop :=
| ExplC (c : list (Z * R)) (s t : Z) (dt : R)
| ImplC (c : list (Z * R)) (s t : Z) (dt : R)
| PostC (t : Z)
| AfterC (t w : Z) (dt : R).
(** which class implements the dynamics *)
Inductive dynamics := Base | HighSpeed.

Section Comb.
Context {X : Type}.
Local Notation vec := (@vec X).
Local Notation mem := (@mem X).
Context (F : vec -> vec) (J : R -> vec -> vec) (P : vec -> vec) (A : R -> vec -> vec).
Context (d : dynamics) (n : Z).
(** the combination of data instances, HighSpeedDynamics.cpp:661-684, 1424-1448 *)
Definition csum (c : list (Z * R)) (m : mem) : vec := fun x =>
  match c with
  | [] => 0%R
  | (i, a) :: r => fold_left (fun s p => (s + snd p * m (fst p) x)%R) r (a * m i x)%R
  end.
(** HighSpeedDynamics.cpp:372-385, 1016-1029: an empty list is refused, and so is the
    target anywhere but in front *)
Definition refused (c : list (Z * R)) (t : Z) : bool :=
  match c with [] => true | _ :: r => existsb (fun p => fst p =? t) r end.
Definition cexec (o : cop) (m : mem) : option mem :=
  match o, d with
  | ExplC c s t dt, HighSpeed =>
      if refused c t || negb (forallb (fun p => ok n (fst p)) c) || negb (ok n s && ok n t) then None
      else Some (mset m t (fun x => (csum c m x + dt * F (m s) x)%R))
  | ImplC c s t dt, HighSpeed =>
      if refused c t || negb (forallb (fun p => ok n (fst p)) c) || negb (ok n s && ok n t) then None
      else Some (mset m t (fun x => (csum c m x + (J dt (m s) x - m s x))%R))
  | PostC t, _ => if ok n t then Some (mset m t (P (m t))) else None
  | AfterC t w dt, HighSpeed => if (t =? w) || negb (ok n t && ok n w) then None else Some (mset m t (A dt (m t)))
  | _, Base => Some m
  end.
Fixpoint crun (p : list cop) (m : mem) : option mem :=
  match p with [] => Some m | o :: p' => match cexec o m with Some m' => crun p' m' | None => None end end.
End Comb.

(** the constructor computes the combinations of TimestepSchemeARS343; m_iCopyInst,
    m_dCopyInst; Step, 171-238.
    PostProcessSubstage for tracers does not touch the state *)
Section Ars343b.
Context (g a42 a43 : R).
Definition copy_of (s : Z) : list (Z * R) := [(s, 1%R)].
Definition b343_c2 : list (Z * R) := [(0, u2_0 g a42 a43); (1, u2_1 g a42 a43); (2, u2_2 g)].
Definition b343_c3 : list (Z * R) := [(0, u3_0 g a42 a43); (1, u3_1 g a42 a43); (2, u3_2 g a42 a43); (3, u3_3 g a42 a43); (4, u3_4 g)].
Definition b343_c4 : list (Z * R) :=
  [(0, u4_0 g a42 a43); (1, u4_1 g a42 a43); (2, u4_2 g a42 a43); (3, u4_3 g a42 a43); (4, u4_4 g a43); (5, u4_5 g a43); (6, u4_6 g)].
Definition ars343b_step (dt : R) : list cop :=
  [ ExplC (copy_of 0) 0 1 (g * dt)%R; PostC 1; ImplC (copy_of 1) 1 2 (g * dt)%R;
    ExplC b343_c2 2 3 (a343_a32 g a42 a43 * dt)%R; PostC 3; ImplC (copy_of 3) 3 4 (g * dt)%R;
    ExplC b343_c3 4 5 (a43 * dt)%R; PostC 5; ImplC (copy_of 5) 5 6 (g * dt)%R;
    ExplC b343_c4 6 0 (g * dt)%R; PostC 0; AfterC 0 1 dt ].
End Ars343b.
