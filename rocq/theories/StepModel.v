(** Model of the data instances of a patch (GridPatch.cpp:1402-1560) and of
    the time steppers (TimestepScheme*.cpp) as programs over them.

    An instance is a vector indexed by an arbitrary type [X]: one entry per
    variable, node and level.  [kd] classifies the entries: the horizontal
    winds, the remaining state variables (those solved for by the implicit
    vertical step) and the tracers.  Doubles are real numbers.

    Simplifications:
    - HorizontalDynamics::StepExplicit and VerticalDynamics::StepExplicit add
      dt times a tendency of the source instance to the target instance
      (every store to the target in HorizontalDynamicsFEM.cpp and
      VerticalDynamicsFEM.cpp:616-1160 is "-=" or "+=").  The tendencies are
      arbitrary functions [FH], [FV].
    - VerticalDynamics::StepImplicit (VerticalDynamicsFEM.cpp:1230-1640)
      stores the solved variables, adds to the tracers (line 4278) and leaves
      the winds alone.  The solution is an arbitrary function [J].
    - HorizontalDynamics::StepImplicit does nothing (HorizontalDynamics.h:104).
    - Grid::PostProcessSubstage is an arbitrary function [P].
    - FilterNegativeTracers is not modelled (the identity).
    - StepAfterSubCycle (HorizontalDynamicsFEM.cpp:2637-2726) with the
      diffusion operators as arbitrary functions of the initial instance. *)
From Coq Require Import ZArith List Bool Reals.
Import ListNotations.
Local Open Scope Z_scope.

Inductive kind := Wind | Solved | Tracer.
(** DataType_State, DataType_Tracers *)
Inductive dtype := St | Tr.
Definition has (d : dtype) (k : kind) : bool :=
  match d, k with St, Wind => true | St, Solved => true | Tr, Tracer => true | _, _ => false end.

(** A coefficient of a combination: [None] where the program stores the
    literal 0.0 (or leaves the zero from Allocate). *)
Definition coef := option R.
Definition cval (c : coef) : R := match c with Some x => x | None => 0%R end.

(** One call made by a time stepper *)
Inductive op :=
| Copy (s t : Z) (d : dtype)
| Combine (c : list coef) (t : Z) (d : dtype)
| ExplH (s t : Z) (dt : R)
| ExplV (s t : Z) (dt : R)
| Impl (s t : Z) (dt : R)
| ImplTermsExpl (s t : Z) (dt : R)
| Post (t : Z) (d : dtype)
| After (s t w : Z) (dt : R).

(** ** GridPatch::LinearCombineData over any arithmetic, GridPatch.cpp:1438-1530 *)
Section Combine.
Context {T : Type} (zero : T) (add mul : T -> T -> T) (is0 : T -> bool).
Definition tmem : Type := Z -> T.
Definition tset (m : tmem) (t : Z) (v : T) : tmem := fun i => if i =? t then v else m i.
(** "Premultiply": Zero() or Scale() *)
Definition premultiply (c : list T) (t : Z) (m : tmem) : tmem :=
  let ct := nth (Z.to_nat t) c zero in
  tset m t (if is0 ct then zero else mul (m t) ct).
(** "Consider all other terms": AddProduct(m_datavec[m], dCoeff[m]) *)
Fixpoint add_terms (i : Z) (c : list T) (t : Z) (m : tmem) : tmem :=
  match c with
  | [] => m
  | x :: c' =>
      add_terms (i + 1) c' t
        (if (i =? t) || is0 x then m else tset m t (add (m t) (mul (m i) x)))
  end.
(** [None]: exception.  [n]: number of instances.  A negative destination is
    converted to an unsigned value by the first comparison and throws. *)
Definition linear_combine (n : Z) (c : list T) (t : Z) (m : tmem) : option tmem :=
  if (t <? 0) || (Z.of_nat (length c) <=? t) then None
  else if n <=? t then None
  else if n <? Z.of_nat (length c) then None
  else Some (add_terms 0 c t (premultiply c t m)).
(** GridPatch.cpp:1402-1436 *)
Definition copy_data (n : Z) (s t : Z) (m : tmem) : option tmem :=
  if (s <? 0) || (n <=? s) then None else if (t <? 0) || (n <=? t) then None
  else Some (tset m t (m s)).
(** GridPatch.cpp:1534-1560 *)
Definition zero_data (n : Z) (t : Z) (m : tmem) : option tmem :=
  if (t <? 0) || (n <=? t) then None else Some (tset m t zero).
End Combine.

Definition req0 (x : R) : bool := if Req_EM_T x 0 then true else false.

Section Run.
Context {X : Type} (kd : X -> kind).
Definition vec : Type := X -> R.
Definition mem : Type := Z -> vec.
Context (FH FV G : vec -> vec) (J : R -> vec -> vec) (P : vec -> vec).

(** Viscosity order 0 (or all coefficients zero), 2, 4: the new contents of
    the update and of the working instance as functions of the initial one. *)
Inductive visc := NoVisc | Visc2 (u : R -> vec -> vec) | Visc4 (u w : R -> vec -> vec).
Context (vi : visc).

(** Number of data instances, TimestepScheme::GetComponentDataInstances and
    GetTracerDataInstances (equal in every scheme) *)
Context (n : Z).
Definition ok (i : Z) : bool := (0 <=? i) && (i <? n).
Definition mset (m : mem) (t : Z) (v : vec) : mem := fun i => if i =? t then v else m i.
(** only the entries of data type [d] *)
Definition only (d : dtype) (v w : vec) : vec := fun x => if has d (kd x) then v x else w x.

(** CopyData and LinearCombineData act on every entry of their data type *)
Definition entry (m : mem) (x : X) : Z -> R := fun i => m i x.
Definition m_copy (s t : Z) (d : dtype) (m : mem) : option mem :=
  if ok s && ok t then Some (mset m t (only d (m s) (m t))) else None.
Definition m_combine (c : list coef) (t : Z) (d : dtype) (m : mem) : option mem :=
  let c' := map cval c in
  if (t <? 0) || (Z.of_nat (length c') <=? t) || (n <=? t) || (n <? Z.of_nat (length c')) then None
  else Some (mset m t (only d
    (fun x => add_terms Rplus Rmult req0 0 c' t (premultiply 0%R Rmult req0 c' t (entry m x)) t) (m t))).

Definition exec (o : op) (m : mem) : option mem :=
  match o with
  | Copy s t d => m_copy s t d m
  | Combine c t d => m_combine c t d m
  | ExplH s t dt => if ok s && ok t && negb (s =? t)
      then Some (mset m t (fun x => (m t x + dt * FH (m s) x)%R)) else None
  | ExplV s t dt => if ok s && ok t && negb (s =? t)
      then Some (mset m t (fun x => (m t x + dt * FV (m s) x)%R)) else None
  | Impl s t dt => if ok s && ok t
      then Some (mset m t (fun x => match kd x with
        | Wind => m t x
        | Solved => J dt (m s) x
        | Tracer => (m t x + (J dt (m s) x - m s x))%R end)) else None
  | ImplTermsExpl s t dt => if ok s && ok t && negb (s =? t)
      then Some (mset m t (fun x => (m t x + dt * G (m s) x)%R)) else None
  | Post t d => if ok t then Some (mset m t (only d (P (m t)) (m t))) else None
  | After s t w dt =>
      if ok s && ok t && ok w then
        if (s =? w) || (t =? w) then None
        else match vi with
          | NoVisc => Some (mset m t (m s))
          | Visc2 u => Some (mset m t (u dt (m s)))
          | Visc4 u wk => Some (mset (mset m w (wk dt (m s))) t (u dt (m s)))
          end
      else None
  end.
Fixpoint run (p : list op) (m : mem) : option mem :=
  match p with
  | [] => Some m
  | o :: p' => match exec o m with Some m' => run p' m' | None => None end
  end.
End Run.

(** ** The programs *)
Local Open Scope R_scope.
Definition copy2 (s t : Z) : list op := [Copy s t St; Copy s t Tr].
Definition combine2 (c : list coef) (t : Z) : list op := [Combine c t St; Combine c t Tr].
Definition post2 (t : Z) : list op := [Post t St; Post t Tr].
Definition S_ (x : R) : coef := Some x.

(** TimestepSchemeERK::Step calls only the horizontal dynamics; Strang calls
    both.  [v]: whether VerticalDynamics::StepExplicit is called as well. *)
Definition expl (v : bool) (s t : Z) (dt : R) : list op :=
  ExplH s t dt :: (if v then [ExplV s t dt] else []) ++ post2 t.

Inductive erk := ForwardEuler | RungeKutta4 | RungeKuttaSSP3 | KGU35 | SSPRK53.

(** Constructor, TimestepSchemeERK.cpp:24-81, TimestepSchemeStrang.cpp:25-119 *)
Definition cRK4 : list coef := [S_ (- 1 / 3); S_ (1 / 3); S_ (2 / 3); S_ (1 / 3); None].
Definition cSSP3A : list coef := [S_ (3 / 4); S_ (1 / 4); None].
Definition cSSP3B : list coef := [S_ (1 / 3); None; S_ (2 / 3); None; None].
Definition cKGU : list coef := [S_ (- 1 / 4); S_ (5 / 4); None; None; None].
Definition cSSP53A : list coef := [S_ 0.355909775063327; None; S_ 0.644090224936674; None].
Definition cSSP53B : list coef := [S_ 0.367933791638137; None; None; S_ 0.632066208361863].
Definition cSSP53C : list coef := [S_ 0.762406163401431; None; S_ 0.237593836598569; None; None].

(** TimestepSchemeERK.cpp:158-301, TimestepSchemeStrang.cpp:479-632.  The
    result is in instance 4. *)
Definition erk_prog (v : bool) (e : erk) (dt : R) : list op :=
  match e with
  | ForwardEuler => copy2 0 4 ++ expl v 0 4 dt
  | RungeKutta4 =>
      copy2 0 1 ++ expl v 0 1 (0.5 * dt) ++
      copy2 0 2 ++ expl v 1 2 (0.5 * dt) ++
      copy2 0 3 ++ expl v 2 3 dt ++
      combine2 cRK4 4 ++ expl v 3 4 (dt / 6)
  | RungeKuttaSSP3 =>
      copy2 0 1 ++ expl v 0 1 dt ++
      combine2 cSSP3A 2 ++ expl v 1 2 (0.25 * dt) ++
      combine2 cSSP3B 4 ++ expl v 2 4 (2 / 3 * dt)
  | KGU35 =>
      copy2 0 1 ++ expl v 0 1 (dt / 5) ++
      copy2 0 2 ++ expl v 1 2 (dt / 5) ++
      copy2 0 3 ++ expl v 2 3 (dt / 3) ++
      copy2 0 2 ++ expl v 3 2 (2 * dt / 3) ++
      combine2 cKGU 4 ++ expl v 2 4 (3 * dt / 4)
  | SSPRK53 =>
      copy2 0 1 ++ expl v 0 1 (0.377268915331368 * dt) ++
      copy2 1 2 ++ expl v 1 2 (0.377268915331368 * dt) ++
      combine2 cSSP53A 3 ++ expl v 2 3 (0.242995220537396 * dt) ++
      combine2 cSSP53B 0 ++ expl v 3 0 (0.238458932846290 * dt) ++
      combine2 cSSP53C 4 ++ expl v 0 4 (0.287632146308408 * dt)
  end.
(** TimestepSchemeERK::Step, TimestepSchemeERK.cpp:146-304 *)
Definition erk_step (e : erk) (dt : R) : list op :=
  erk_prog false e dt ++ copy2 4 0 ++ [After 4 0 2 dt].
(** TimestepSchemeStrang::Step, TimestepSchemeStrang.cpp:450-674.  [oc]: off-centering *)
Definition strang_step (e : erk) (oc : R) (first last : bool) (dt : R) : list op :=
  (if first then [Impl 0 0 (0.5 * dt)] else combine2 [S_ 1; S_ 1] 0) ++
  erk_prog true e dt ++
  copy2 4 1 ++ [After 4 1 2 dt] ++
  copy2 1 0 ++ [Impl 0 0 (0.5 * (1 + oc) * dt)] ++
  combine2 [S_ ((2 - oc) / 2); S_ (oc / 2)] 0 ++
  (if last then [] else combine2 [S_ 1; S_ (-1)] 1).

(** [copyS]: the pair of copies both with DataType_State *)
Definition copyS (s t : Z) : list op := [Copy s t St; Copy s t St].

(** TimestepSchemeARS222.cpp:27-39, 70-74, 78-118 *)
Section Ars222.
Definition a222_g : R := 1 - 0.5 * sqrt 2.
Definition a222_d : R := 1 - 1 / (2 * a222_g).
Definition a222_i10 : R := 1 - a222_g.
Definition a222_c2 : list coef :=
  [S_ (1 - a222_d / a222_g); S_ (a222_d / a222_g - a222_i10 / a222_g); S_ (a222_i10 / a222_g); None].
Definition ars222_step (dt : R) : list op :=
  copy2 0 1 ++ expl true 0 1 (a222_g * dt) ++
  copyS 1 2 ++ [Impl 2 2 (a222_g * dt)] ++ post2 2 ++
  combine2 a222_c2 3 ++ expl true 2 3 ((1 - a222_d) * dt) ++
  [Impl 3 3 (a222_g * dt)] ++ post2 3 ++
  copy2 3 2 ++ [After 2 1 3 dt] ++ copy2 1 0.
End Ars222.

(** TimestepSchemeARS232.cpp:24-40, 66-88, 90-150 *)
Definition a232_g : R := 1 - 1 / sqrt 2.
Definition a232_d : R := - 2 * sqrt 2 / 3.
Definition a232_c2 : list coef :=
  [S_ (1 - a232_d / a232_g); S_ (a232_d / a232_g - (1 - a232_g) / a232_g); S_ ((1 - a232_g) / a232_g); None; None; None].
Definition a232_c3 : list coef :=
  [S_ (1 - 0 / a232_g); S_ (0 / a232_g - (1 - a232_g) / a232_g); S_ ((1 - a232_g) / a232_g);
   S_ ((1 - a232_g) / (1 - a232_d) - a232_g / a232_g); S_ (a232_g / a232_g); S_ (- (1 - a232_g) / (1 - a232_d)); None].
Definition ars232_step (dt : R) : list op :=
  copy2 0 1 ++ expl true 0 1 (a232_g * dt) ++
  copy2 1 2 ++ [Impl 2 2 (a232_g * dt)] ++
  combine2 a232_c2 5 ++ copy2 5 3 ++ expl true 2 3 ((1 - a232_d) * dt) ++
  copy2 3 4 ++ [Impl 4 4 (a232_g * dt)] ++
  combine2 a232_c3 6 ++ expl true 4 6 (a232_g * dt) ++
  copy2 6 2 ++ [After 2 1 6 dt] ++ copy2 1 0.

(** TimestepSchemeARS343.cpp:25-140, 144-236.  The coefficients are functions
    of the constants dGamma, dA42 and dA43. *)
Section Ars343.
Context (g a42 a43 : R).
Definition a343_b1 : R := -1.5 * g * g + 4 * g - 0.25.
Definition a343_b2 : R := 1.5 * g * g - 5 * g + 1.25.
Definition a343_a31 : R :=
  (1 - 4.5 * g + 1.5 * g * g) * a42 + (2.75 - 10.5 * g + 3.75 * g * g) * a43 - 3.5 + 13 * g - 4.5 * g * g.
Definition a343_a32 : R :=
  (-1 + 4.5 * g - 1.5 * g * g) * a42 + (-2.75 + 10.5 * g - 3.75 * g * g) * a43 + 4 - 12.5 * g + 4.5 * g * g.
Definition a343_a41 : R := 1 - a42 - a43.
Definition a343_i10 : R := 0.5 * (1 - g).
Definition u2_0 := 1 - a343_a31 / g.
Definition u2_1 := a343_a31 / g - a343_i10 / g.
Definition u2_2 := a343_i10 / g.
Definition u3_7 := - a42 / a343_a32.
Definition u3_0 := 1 - a343_a41 / g + u3_7 * u2_0.
Definition u3_1 := a343_a41 / g - a343_b1 / g + u3_7 * u2_1.
Definition u3_2 := a343_b1 / g + u3_7 * u2_2.
Definition u3_3 := a42 / a343_a32 - a343_b2 / g.
Definition u3_4 := a343_b2 / g.
Definition u4_7 := - a343_b1 / a343_a32.
Definition u4_8 := - a343_b2 / a43.
Definition u4_0 := 1 - 0 / g + (u4_7 * u2_0 + u4_8 * u3_0).
Definition u4_1 := 0 / g - a343_b1 / g + (u4_7 * u2_1 + u4_8 * u3_1).
Definition u4_2 := a343_b1 / g + (u4_7 * u2_2 + u4_8 * u3_2).
Definition u4_3 := a343_b1 / a343_a32 - a343_b2 / g + u4_8 * u3_3.
Definition u4_4 := a343_b2 / g + u4_8 * u3_4.
Definition u4_5 := a343_b2 / a43 - g / g.
Definition u4_6 := g / g.
Definition a343_c2 : list coef := [S_ u2_0; S_ u2_1; S_ u2_2; None; None; None; None].
Definition a343_c3 : list coef := [S_ u3_0; S_ u3_1; S_ u3_2; S_ u3_3; S_ u3_4; None; None].
Definition a343_c4 : list coef := [S_ u4_0; S_ u4_1; S_ u4_2; S_ u4_3; S_ u4_4; S_ u4_5; S_ u4_6].
Definition ars343_step (dt : R) : list op :=
  copy2 0 1 ++ expl true 0 1 (g * dt) ++
  copy2 1 2 ++ [Impl 2 2 (g * dt)] ++
  combine2 a343_c2 3 ++ expl true 2 3 (a343_a32 * dt) ++
  copy2 3 4 ++ [Impl 4 4 (g * dt)] ++
  combine2 a343_c3 5 ++ expl true 4 5 (a43 * dt) ++
  copy2 5 6 ++ [Impl 6 6 (g * dt)] ++
  combine2 a343_c4 1 ++ expl true 6 1 (g * dt) ++
  copy2 1 0 ++ [After 1 0 2 dt].
End Ars343.
Definition a343_gamma : R := 0.4358665215084590.
Definition a343_A42 : R := 0.5529291480359398.
Definition a343_A43 : R := 0.5529291480359398.

(** TimestepSchemeARS443.cpp:26-43, 70-108, 110-190 *)
Definition a443_i (i j : nat) : R := nth j (nth i
  [[1/2; 0; 0; 0]; [1/6; 1/2; 0; 0]; [-1/2; 1/2; 1/2; 0]; [3/2; -3/2; 1/2; 1/2]] []) 0.
Definition a443_e (i j : nat) : R := nth j (nth i
  [[1/2; 0; 0; 0]; [11/18; 1/18; 0; 0]; [5/6; -5/6; 1/2; 0]; [1/4; 7/4; 3/4; -7/4]] []) 0.
Definition a443_c2 : list coef := let e := a443_e in let i := a443_i in
  [S_ (1 - e 1%nat 0%nat / e 0%nat 0%nat); S_ (e 1%nat 0%nat / e 0%nat 0%nat - i 1%nat 0%nat / i 0%nat 0%nat);
   S_ (i 1%nat 0%nat / i 0%nat 0%nat); None; None; None; None; None].
Definition a443_c3 : list coef := let e := a443_e in let i := a443_i in
  [S_ (1 - e 2%nat 0%nat / e 0%nat 0%nat); S_ (e 2%nat 0%nat / e 0%nat 0%nat - i 2%nat 0%nat / i 0%nat 0%nat);
   S_ (i 2%nat 0%nat / i 0%nat 0%nat);
   S_ (e 2%nat 1%nat / e 1%nat 1%nat - i 2%nat 1%nat / i 1%nat 1%nat); S_ (i 2%nat 1%nat / i 1%nat 1%nat);
   None; None; S_ (- e 2%nat 1%nat / e 1%nat 1%nat); None].
Definition a443_c4 : list coef := let e := a443_e in let i := a443_i in
  [S_ (1 - e 3%nat 0%nat / e 0%nat 0%nat); S_ (e 3%nat 0%nat / e 0%nat 0%nat - i 3%nat 0%nat / i 0%nat 0%nat);
   S_ (i 3%nat 0%nat / i 0%nat 0%nat);
   S_ (e 3%nat 1%nat / e 1%nat 1%nat - i 3%nat 1%nat / i 1%nat 1%nat); S_ (i 3%nat 1%nat / i 1%nat 1%nat);
   S_ (e 3%nat 2%nat / e 2%nat 2%nat - i 3%nat 2%nat / i 2%nat 2%nat); S_ (i 3%nat 2%nat / i 2%nat 2%nat);
   S_ (- e 3%nat 1%nat / e 1%nat 1%nat); S_ (- e 3%nat 2%nat / e 2%nat 2%nat); None].
Definition ars443_step (dt : R) : list op :=
  copy2 0 1 ++ expl true 0 1 (a443_e 0 0 * dt) ++
  copyS 1 2 ++ [Impl 2 2 (a443_i 0 0 * dt)] ++ post2 2 ++
  combine2 a443_c2 7 ++ copy2 7 3 ++ expl true 2 3 (a443_e 1 1 * dt) ++
  copyS 3 4 ++ [Impl 4 4 (a443_i 1 1 * dt)] ++ post2 4 ++
  combine2 a443_c3 8 ++ copy2 8 5 ++ expl true 4 5 (a443_e 2 2 * dt) ++
  copyS 5 6 ++ [Impl 6 6 (a443_i 2 2 * dt)] ++ post2 6 ++
  combine2 a443_c4 9 ++ expl true 6 9 (a443_e 3 3 * dt) ++
  [Impl 9 9 (a443_i 3 3 * dt)] ++ post2 9 ++
  copy2 9 2 ++ [After 2 1 9 dt] ++ copy2 1 0.

(** TimestepSchemeSSP3332.cpp:27-41, 66-104, 106-178 *)
Definition s332_g : R := 1 - 1 / sqrt 2.
Definition s332_c2 : list coef := let g := s332_g in
  [S_ (1 - (1 - 2 * g) / g); None; S_ ((1 - 2 * g) / g); None; None; None; None; None].
Definition s332_c3 : list coef := let g := s332_g in
  [S_ (1 + (1 - 2 * g) / g * 0.25 / 1 - 0.25 / 1 - (0.5 - g) / g); None;
   S_ ((0.5 - g) / g - (1 - 2 * g) / g * 0.25 / 1); S_ (0.25 / 1); None; None; None; None; None].
Definition s332_c4 : list coef := let g := s332_g in
  [S_ (1 - 1 / 6 / g); None; S_ (1 / 6 / g); S_ (1 / 6 / 1 - 1 / 6 / g); S_ (1 / 6 / g);
   S_ (1 / 6 / 0.25 - 2 / 3 / g); S_ (2 / 3 / g); S_ (- (1 / 6) / 1); S_ (- (1 / 6) / 0.25)].
Definition ssp3332_step (dt : R) : list op :=
  copyS 0 2 ++ [Impl 2 2 (s332_g * dt)] ++ post2 2 ++
  combine2 s332_c2 7 ++ copy2 7 3 ++ expl true 2 3 (1 * dt) ++
  copyS 3 4 ++ [Impl 4 4 (s332_g * dt)] ++ post2 4 ++
  combine2 s332_c3 8 ++ copy2 8 5 ++ expl true 4 5 (0.25 * dt) ++
  copyS 5 6 ++ [Impl 6 6 (s332_g * dt)] ++ post2 6 ++
  combine2 s332_c4 1 ++ expl true 6 1 (2 / 3 * dt) ++
  copy2 1 2 ++ [After 2 1 3 dt] ++ copy2 1 0.

(** TimestepSchemeGARK2.cpp:27-47, 72-88, 92-140 *)
Definition gk_g : R := 1 - 0.5 * sqrt 2.
Definition gk_a : R := 0.5.
Definition gk_c2 : list coef := [S_ (1 - 1 / gk_g); S_ (1 / gk_g - 1 / gk_g); S_ (1 / gk_g); None].
Definition gk_c3 : list coef :=
  [S_ (1 - gk_a / gk_g); S_ (gk_a / gk_g - (1 - gk_g) / gk_g); S_ ((1 - gk_g) / gk_g); None; None].
Definition gark2_step (dt : R) : list op :=
  copy2 0 1 ++ expl true 0 1 (gk_g * dt) ++
  copyS 1 2 ++ [Impl 2 2 (gk_g * dt)] ++ post2 2 ++
  combine2 gk_c2 3 ++
  combine2 gk_c3 4 ++ expl true 3 4 ((1 - gk_a) * dt) ++
  [Impl 4 4 (gk_g * dt)] ++ post2 4 ++
  copy2 4 2 ++ [After 2 1 4 dt] ++ copy2 1 0.

(** TimestepSchemeARK232.cpp:26-43, 68-92, 94-158; SubcycleStageExplicit
    162-192 with iNS = 2, SubcycleStageImplicitExplicitly 196-226 with
    iNS = 1 *)
Definition k232_g : R := 1 - 1 / sqrt 2.
Definition k232_d : R := 1 / (2 * sqrt 2).
Definition k232_a : R := 1 / 6 * (3 + 2 * sqrt 2).
Definition k232_c2 : list coef := let g := k232_g in let d := k232_d in let a := k232_a in
  [S_ (1 - (1 - a) / (2 * g)); S_ ((1 - a) / (2 * g) - d / g); S_ (d / g - d / g); S_ (d / g); None; None; None].
Definition k232_c3 : list coef := let g := k232_g in let d := k232_d in let a := k232_a in
  [S_ (1 - d / (2 * g)); S_ (d / (2 * g) - d / g); S_ (d / g - d / g); S_ (d / g);
   S_ (d / a - g / g); S_ (g / g); S_ (- d / a); None].
Definition ark232_step (dt : R) : list op :=
  copy2 0 1 ++ expl true 0 1 (2 * k232_g * dt / 2) ++ copy2 1 0 ++
  copy2 0 1 ++ expl true 0 1 (2 * k232_g * dt / 2) ++
  copy2 1 2 ++ [ImplTermsExpl 1 2 (k232_g * dt / 1)] ++ post2 2 ++
  copyS 2 3 ++ [Impl 3 3 (k232_g * dt)] ++ post2 3 ++
  combine2 k232_c2 6 ++ copy2 6 4 ++ expl true 3 4 (k232_a * dt) ++
  copyS 4 5 ++ [Impl 5 5 (k232_g * dt)] ++ post2 5 ++
  combine2 k232_c3 7 ++ expl true 5 7 (k232_g * dt) ++
  copy2 7 2 ++ [After 7 1 3 dt] ++ copy2 1 0.

(** TimestepSchemeARK4.cpp:28-51, 91-270, 278-440.  Every call is on
    DataType_State except the post-processing.  HorizontalDynamics::
    StepImplicit does nothing. *)
Section Ark4.
Definition k4_i (i j : nat) : R := nth j (nth i
  [[1/10; 0; 0; 0; 0; 0; 0]; [-1/6; 1/2; 0; 0; 0; 0; 0]; [1/6; -1/3; 1/2; 0; 0; 0; 0];
   [3/8; -3/8; 0; 1/2; 0; 0; 0]; [1/8; 0; 3/8; -1/2; 1/2; 0; 0]; [-1/2; 0; 3; -2; 0; 1/2; 0];
   [1/6; 0; 0; 0; 2/3; -1/2; 2/3]] []) 0.
Definition k4_e (i j : nat) : R := nth j (nth i
  [[0; 0; 0; 0; 0; 0; 0]; [1/3; 0; 0; 0; 0; 0; 0]; [1/6; 1/6; 0; 0; 0; 0; 0];
   [1/8; 0; 3/8; 0; 0; 0; 0]; [1/8; 0; 3/8; 1; 0; 0; 0]; [1/2; 0; -3/2; 1; 1; 0; 0];
   [1/6; 0; 0; 0; 2/3; 1/6; 0]] []) 0.
Context (dt : R).
Local Notation i := k4_i.
Local Notation e := k4_e.
(** the terms [I_k0, E_k0, I_k1, ...], first [n] of them, each multiplied by
    [f]: the slopes K0, Kh1, K1, Kh2, ... in instances 3, 4, 5, ... *)
Fixpoint k4_terms (n : nat) (r c : nat) (im : bool) (f : R -> R) : list coef :=
  match n with
  | O => []
  | S n' => S_ (f (if im then i r c else e r c)) ::
      k4_terms n' r (if im then c else S c) (negb im) f
  end.
(** m_du[k]fCombo *)
Definition k4_u (k : nat) : list coef :=
  S_ 1 :: None :: None :: k4_terms (2 * k - 1) k 0 true (fun a => dt * a).
(** m_dK0Combo; m_dK1Combo and m_dK2Combo as written: K1 uses I[0][0] for the
    coefficient of K0, K2 uses I[1][0] *)
Definition k4_K (k : nat) : list coef :=
  match k with
  | 0%nat => [S_ (- 1 / (dt * i 0 0)); S_ (1 / (dt * i 0 0)); None; None]
  | 1%nat => [S_ (- 1 / (dt * i 1 1)); None; S_ (1 / (dt * i 1 1)); S_ (- i 0 0 / i 1 1); S_ (- e 1 0 / i 1 1); None]
  | 2%nat => [S_ (- 1 / (dt * i 2 2)); None; S_ (1 / (dt * i 2 2)); S_ (- i 1 0 / i 2 2); S_ (- e 2 0 / i 2 2);
              S_ (- i 2 1 / i 2 2); S_ (- e 2 1 / i 2 2); None]
  | _ => S_ (- 1 / (dt * i k k)) :: None :: S_ (1 / (dt * i k k)) :: k4_terms (2 * k) k 0 true (fun a => - a / i k k) ++ [None]
  end.
(** m_dKh[k]Combo; Kh1 uses I[0][0] for the coefficient of K0 *)
Definition k4_Kh (k : nat) : list coef :=
  match k with
  | 1%nat => [S_ (- 1 / (dt * e 1 0)); S_ (1 / (dt * e 1 0)); None; S_ (- i 0 0 / e 1 0); None]
  | _ => let d := e k (k - 1) in
      S_ (- 1 / (dt * d)) :: S_ (1 / (dt * d)) :: None :: k4_terms (2 * k - 1) k 0 true (fun a => - a / d) ++ [None]
  end.
Definition ark4_step : list op :=
  [Copy 0 1 St; Impl 0 1 (i 0 0 * dt)] ++ post2 1 ++ [Combine (k4_K 0) 3 St] ++
  [Combine (k4_u 1) 1 St] ++ expl true 0 1 (e 1 0 * dt) ++ [Combine (k4_Kh 1) 4 St] ++
  [Copy 1 2 St; Impl 1 2 (i 1 1 * dt)] ++ post2 2 ++ [Combine (k4_K 1) 5 St] ++
  [Combine (k4_u 2) 1 St] ++ expl true 2 1 (e 2 1 * dt) ++ [Combine (k4_Kh 2) 6 St] ++
  [Copy 1 2 St; Impl 1 2 (i 2 2 * dt)] ++ post2 2 ++ [Combine (k4_K 2) 7 St] ++
  [Combine (k4_u 3) 1 St] ++ expl true 2 1 (i 2 2 * dt) ++ [Combine (k4_Kh 3) 8 St] ++
  [Copy 1 2 St; Impl 1 2 (i 3 3 * dt)] ++ post2 2 ++ [Combine (k4_K 3) 9 St] ++
  [Combine (k4_u 4) 1 St] ++ expl true 2 1 (e 4 3 * dt) ++ [Combine (k4_Kh 4) 10 St] ++
  [Combine (k4_u 4) 2 St; Impl 2 2 (i 4 4 * dt)] ++ post2 2 ++ [Combine (k4_K 4) 11 St] ++
  [Combine (k4_u 5) 1 St] ++ expl true 2 1 (e 5 4 * dt) ++ [Combine (k4_Kh 5) 12 St] ++
  [Copy 1 2 St; Impl 1 2 (i 5 5 * dt)] ++ post2 2 ++ [Combine (k4_K 5) 13 St] ++
  [Combine (k4_u 6) 1 St] ++ expl true 2 1 (e 6 5 * dt) ++
  [Copy 1 2 St; Impl 1 2 (e 6 5 * dt)] ++ post2 2 ++
  [Copy 2 1 St; After 2 1 3 dt; Copy 1 0 St].
End Ark4.

(** TimestepSchemeSplitExp.cpp:55-220.  [ns]: number of small steps; the
    division dDeltaT / ns. *)
Definition kguH (dt : R) : list op :=
  copy2 0 1 ++ expl false 0 1 (dt / 5) ++
  copy2 0 2 ++ expl false 1 2 (dt / 5) ++
  copy2 0 3 ++ expl false 2 3 (dt / 3) ++
  copy2 0 2 ++ expl false 3 2 (2 * dt / 3) ++
  combine2 cKGU 4 ++ expl false 2 4 (3 * dt / 4) ++
  copy2 4 0.
Definition explV (s t : Z) (dt : R) : list op := ExplV s t dt :: post2 t.
Definition small_step (h : R) : list op :=
  copy2 0 1 ++ explV 0 1 h ++
  combine2 cSSP3A 2 ++ explV 1 2 (0.25 * h) ++
  combine2 cSSP3B 4 ++ explV 2 4 (2 / 3 * h).
Fixpoint small_steps (k : nat) (dt h : R) : list op :=
  match k with
  | O => []
  | S O => small_step h ++ copy2 4 1 ++ [After 4 1 2 dt] ++ copy2 1 0
  | S k' => small_step h ++ copy2 4 0 ++ small_steps k' dt h
  end.
Definition splitexp_step (ns : nat) (dt : R) : list op :=
  kguH dt ++ small_steps ns dt (dt / INR ns).
