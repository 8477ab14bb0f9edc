(** * Polynomial interpolation, src/base/PolynomialInterp.cpp
    double is R.  The arrays dX, dY are total functions of the index (the loops
    only use 0 .. nPoints - 1); a division by zero, which in the code yields an
    infinity or a NaN, is [None]. *)
From Coq Require Import Reals List Arith.
Import ListNotations.
Local Open Scope R_scope.

Definition div (a b : R) : option R := if Req_EM_T b 0 then None else Some (a / b).
Definition bind {A B} (o : option A) (f : A -> option B) : option B := match o with Some a => f a | None => None end.
Notation "x <- e ; f" := (bind e (fun x => f)) (at level 60, e at next level, right associativity).

(** a counted loop over the indices l carrying a state *)
Fixpoint loop {S} (body : nat -> S -> option S) (l : list nat) (s : S) : option S :=
  match l with [] => Some s | j :: r => t <- body j s; loop body r t end.
(** the outer loop that fills dCoeffs[0 .. n-1] *)
Fixpoint fill (f : nat -> option R) (l : list nat) : option (list R) :=
  match l with [] => Some [] | i :: r => a <- f i; b <- fill f r; Some (a :: b) end.

(** LagrangianPolynomialCoeffs, PolynomialInterp.cpp:26-47 (one coefficient, then all) *)
Definition lagrange1 (n : nat) (x : nat -> R) (s : R) (i : nat) : option R :=
  loop (fun j c => if i =? j then Some c else q <- div (s - x j) (x i - x j); Some (c * q)) (seq 0 n) 1.
Definition lagrange (n : nat) (x : nat -> R) (s : R) : option (list R) := fill (lagrange1 n x s) (seq 0 n).

(** the search for a matching node, PolynomialInterp.cpp:60-68, 131-139, 211-219;
    1.0e-14 is the decimal *)
Definition tol : R := / 10 ^ 14.
Definition matching (n : nat) (x : nat -> R) (s : R) : option nat :=
  find (fun i => if Rlt_dec (Rabs (s - x i)) tol then true else false) (seq 0 n).

(** the inner loop shared by the three derivative functions: product, sum of the
    inverse differences, of their squares, and of twice their cubes, skipping i and,
    if given, m; PolynomialInterp.cpp:79-87, 152-164, 232-244 (with m) and
    108-114, 186-194, 269-278 (without; there the product was computed by
    LagrangianPolynomialCoeffs).  The first two functions do not compute the
    higher sums; these have the same divisors, so they fail together. *)
Definition skip (i : nat) (m : option nat) (j : nat) : bool :=
  orb (j =? i) (match m with Some k => j =? k | None => false end).
Record sums := Sums { prod : R; sum1 : R; sum2 : R; sum3 : R }.
Definition inner (n : nat) (x : nat -> R) (s : R) (i : nat) (m : option nat) : option sums :=
  loop (fun j a => if skip i m j then Some a else
    q <- div (s - x j) (x i - x j);
    d <- div 1 (s - x j);
    Some (Sums (prod a * q) (sum1 a + d) (sum2 a + d * d) (sum3 a + 2 * d * d * d))) (seq 0 n) (Sums 1 0 0 0).

(** the factor multiplied to the product: without a match (or for i = match) *)
Definition factor1 (a : sums) : R := sum1 a.
Definition factor2 (a : sums) : R := sum1 a * sum1 a - sum2 a.
Definition factor3 (a : sums) : R := sum1 a * sum1 a * sum1 a - 3 * sum1 a * sum2 a + sum3 a.

(** DiffLagrangianPolynomialCoeffs, PolynomialInterp.cpp:51-118 *)
Definition diff1 (n : nat) (x : nat -> R) (s : R) (i : nat) : option R :=
  match matching n x s with
  | Some m =>
      a <- inner n x s i (Some m);
      if i =? m then Some (prod a * factor1 a)
      else q <- div (1 + (s - x m) * sum1 a) (x i - x m); Some (prod a * q)
  | None => a <- inner n x s i None; Some (prod a * factor1 a)
  end.
Definition diff (n : nat) (x : nat -> R) (s : R) : option (list R) := fill (diff1 n x s) (seq 0 n).

(** DiffDiffLagrangianPolynomialCoeffs, PolynomialInterp.cpp:122-198 *)
Definition diffdiff1 (n : nat) (x : nat -> R) (s : R) (i : nat) : option R :=
  match matching n x s with
  | Some m =>
      a <- inner n x s i (Some m);
      if i =? m then Some (prod a * factor2 a)
      else q <- div (2 * sum1 a + (s - x m) * (sum1 a * sum1 a - sum2 a)) (x i - x m); Some (prod a * q)
  | None => a <- inner n x s i None; Some (prod a * factor2 a)
  end.
Definition diffdiff (n : nat) (x : nat -> R) (s : R) : option (list R) := fill (diffdiff1 n x s) (seq 0 n).

(** DiffDiffDiffLagrangianPolynomialCoeffs, PolynomialInterp.cpp:202-282 *)
Definition diffdiffdiff1 (n : nat) (x : nat -> R) (s : R) (i : nat) : option R :=
  match matching n x s with
  | Some m =>
      a <- inner n x s i (Some m);
      if i =? m then Some (prod a * factor3 a)
      else q <- div (3 * (sum1 a * sum1 a - sum2 a)
             + (s - x m) * (sum1 a * sum1 a * sum1 a - 3 * sum1 a * sum2 a + sum3 a)) (x i - x m);
           Some (prod a * q)
  | None => a <- inner n x s i None; Some (prod a * factor3 a)
  end.
Definition diffdiffdiff (n : nat) (x : nat -> R) (s : R) : option (list R) := fill (diffdiffdiff1 n x s) (seq 0 n).

(** Interpolate, PolynomialInterp.cpp:286-313 *)
Definition interpolate (n : nat) (x y : nat -> R) (s : R) : option R :=
  loop (fun i v => c <- lagrange1 n x s i; Some (v + c * y i)) (seq 0 n) 0.

(** InterpolateCoeffs, PolynomialInterp.cpp:317-387: the workspace filled before
    the LAPACK call; position i * n + j, each row from the one before.
    dgesv itself is not modelled. *)
Fixpoint vander_rows (rows n : nat) (x : nat -> R) (mid : R) (prev : list R) : list R :=
  match rows with
  | O => []
  | S r => let row := map (fun j => (x j - mid) * nth j prev 0) (seq 0 n) in row ++ vander_rows r n x mid row
  end.
Definition workspace (n : nat) (x : nat -> R) (mid : R) : list R :=
  let first := repeat 1 n in first ++ vander_rows (n - 1) n x mid first.
