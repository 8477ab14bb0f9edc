(** Model of src/base/MathHelper.{h,cpp}.  [unsigned int] is 32 bits with
    wrap-around; signed overflow is undefined ([None]); doubles are reals. *)
From Coq Require Import ZArith Reals Bool List.
Local Open Scope Z_scope.

Definition wrap32 (x : Z) : Z := x mod 2 ^ 32.

(** Max, Min, Sign, Clamp: MathHelper.h:26-60, on integers *)
Definition Max (x1 x2 : Z) : Z := if x2 <? x1 then x1 else x2.
Definition Min (x1 x2 : Z) : Z := if x1 <? x2 then x1 else x2.
Definition Sign (x1 : Z) : Z := if x1 <? 0 then -1 else 1.
Definition Clamp (y x1 x2 : Z) : Z := if x2 <? y then x2 else if y <? x1 then x1 else y.

(** One iteration of the loop of ISqrt, MathHelper.h:68-78 *)
Definition isqrt_step (s : Z * Z * Z) : Z * Z * Z :=
  let '(irem, iroot, a) := s in
  let iroot := wrap32 (Z.shiftl iroot 1) in
  let irem := wrap32 (wrap32 (Z.shiftl irem 2) + Z.shiftr a 30) in
  let a := wrap32 (Z.shiftl a 2) in
  let iroot := wrap32 (iroot + 1) in
  if iroot <=? irem then (wrap32 (irem - iroot), wrap32 (iroot + 1), a)
  else (irem, wrap32 (iroot - 1), a).
Fixpoint isqrt_loop (n : nat) (s : Z * Z * Z) : Z * Z * Z :=
  match n with O => s | S n' => isqrt_loop n' (isqrt_step s) end.
(** ISqrt, MathHelper.h:65-81 *)
Definition ISqrt (a : Z) : Z :=
  let '(_, iroot, _) := isqrt_loop 16 (0, 0, a) in Z.shiftr iroot 1.

Definition in_int (x : Z) : bool := (- 2 ^ 31 <=? x) && (x <? 2 ^ 31).
(** IntPow, MathHelper.h:86-98; the loop runs p - 1 times. *)
Fixpoint intpow_loop (n : nat) (d iPow : Z) : option Z :=
  match n with
  | O => Some iPow
  | S n' => if in_int (iPow * d) then intpow_loop n' d (iPow * d) else None
  end.
Definition IntPow (d p : Z) : option Z :=
  if p =? 0 then Some 1 else intpow_loop (Z.to_nat (p - 1)) d d.

(** IFact, MathHelper.h:117-126: unsigned arithmetic, [q] wraps as well;
    [None] when the fuel runs out. *)
Fixpoint ifact_loop (fuel : nat) (p q f : Z) : option Z :=
  match fuel with
  | O => None
  | S fuel' => if q <=? p then ifact_loop fuel' p (wrap32 (q + 1)) (wrap32 (f * q)) else Some f
  end.
Definition IFact (fuel : nat) (p : Z) : option Z := ifact_loop fuel p 2 1.

Local Open Scope R_scope.
(** IPow, MathHelper.h:103-112 *)
Fixpoint ipow_loop (n : nat) (d dPow : R) : R :=
  match n with O => dPow | S n' => ipow_loop n' d (dPow * d) end.
Definition IPow (d : R) (p : nat) : R := ipow_loop p d 1.

(** LinearInterpolate, MathHelper.cpp:21-31 *)
Definition LinearInterpolate (x x1 x2 y1 y2 : R) : R :=
  let w := (x - x1) / (x2 - x1) in (1 - w) * y1 + w * y2.
(** QuadraticInterpolate, MathHelper.cpp:35-48 *)
Definition QuadraticInterpolate (x h y1 y2 y3 : R) : R :=
  1 / (2 * h * h) *
  (y1 * (x - h) * (x - 2 * h) - 2 * y2 * x * (x - 2 * h) + y3 * x * (x - h)).
(** CubicInterpolate, MathHelper.cpp:52-71 *)
Definition CubicInterpolate (x h y1 y2 y3 y4 : R) : R :=
  let xh := x - h in let x2h := x - 2 * h in let x3h := x - 3 * h in
  1 / (6 * h * h * h) *
  (- (y1 * xh * x2h * x3h) + y2 * 3 * x * x2h * x3h - y3 * 3 * x * xh * x3h + y4 * x * xh * x2h).
