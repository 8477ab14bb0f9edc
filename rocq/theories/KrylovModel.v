(** * Jacobian-free Newton-Krylov solver
    src/atm/JacobianFreeNewtonKrylov.cpp.  double is R; a division by zero makes a
    value that is not finite.  The arrays of m_nEquationCount entries are only
    touched as a whole (loops up to nN and BLAS calls of that length) and are
    functions of the index; every other array is a list and each access to it is
    checked.  The BLAS routines are the reference ones over R
    (src/base/LinearAlgebra.h:153-319, LinearAlgebra.cpp:250-272). *)
From Coq Require Import ZArith Reals List.
From Verif Require Import PhysModel.
Import ListNotations.
Local Open Scope R_scope.

(** [Throw]: an exception.  [Undef]: an access outside an array or a read of an
    uninitialised variable.  [Nan]: a value that is not finite is used. *)
Inductive out (A : Type) := Ok (a : A) | Throw | Undef | Nan.
Arguments Ok {A}. Arguments Throw {A}. Arguments Undef {A}. Arguments Nan {A}.
Definition bind {A B} (x : out A) (f : A -> out B) : out B :=
  match x with Ok a => f a | Throw => Throw | Undef => Undef | Nan => Nan end.
Notation "x <- a ;; b" := (bind a (fun x => b)) (at level 100, a at next level, b at level 200, right associativity).
Notation "' p <- a ;; b" := (bind a (fun p => b)) (at level 100, p strict pattern, a at next level, b at level 200, right associativity).
(** for loops: [f s k] for each k of the list *)
Fixpoint loop {A} (f : A -> nat -> out A) (l : list nat) (s : A) : out A :=
  match l with [] => Ok s | k :: r => s' <- f s k ;; loop f r s' end.

Definition get (l : list R) (i : nat) : out R :=
  match nth_error l i with Some v => Ok v | None => Undef end.
Definition set {A} (l : list A) (i : nat) (v : A) : out (list A) :=
  if Nat.ltb i (length l) then Ok (firstn i l ++ v :: skipn (S i) l) else Undef.
Definition quo (a b : R) : out R := if Req_EM_T b 0 then Nan else Ok (a / b).

(** whole arrays *)
Definition vec := nat -> R.
Definition vdot (n : nat) (x y : vec) : R := fold_left (fun acc j => acc + x j * y j) (seq 0 n) 0.
Definition vnorm (n : nat) (x : vec) : R := sqrt (vdot n x x).
Definition axpy (a : R) (x y : vec) : vec := fun j => y j + a * x j.
Definition scal (x : vec) (a : R) : vec := fun j => a * x j.

(** the members; a row of m_dV that is not finite is [None] *)
Record solver := Solver { kN : nat; kM : nat; kEps : R; kV : list (option vec);
  kH : list R; kC : list R; kSn : list R; kS : list R }.
Definition zeros (n : nat) : list R := repeat 0 n.
(** InitializeJFNK, 41-88; [flag] is m_fInitialized, [None] if it was never
    assigned.  DataArray1D::Allocate throws for size zero
    (src/base/DataArray1D.h:107-132). *)
Definition initialize (flag : option bool) (n m : Z) (eps : R) : out solver :=
  match flag with
  | None => Undef
  | Some true => Throw
  | Some false =>
      if (m <? n)%Z then Throw
      else if (n =? 0)%Z then Throw
      else if (n <? 0)%Z then Undef
      else let n := Z.to_nat n in let m := Z.to_nat m in
        Ok (Solver n m eps (repeat (Some (fun _ => 0)) (S m)) (zeros (m * (m + 1) / 2))
              (zeros m) (zeros m) (zeros m))
  end.
(** the constructors, 25-27 and 31-37; the second leaves m_fInitialized unassigned *)
Definition default_then_initialize (n m : Z) (eps : R) : out solver := initialize (Some false) n m eps.
Definition construct (n m : Z) (eps : R) : out solver := initialize None n m eps.

Definition row (V : list (option vec)) (k : nat) : out vec :=
  match nth_error V k with
  | None => Undef
  | Some None => Nan
  | Some (Some v) => Ok v
  end.

(** dtpsv_('U', 'N', 'N', nn, ap, y): back substitution by columns *)
Definition dtpsv (nn : nat) (ap y : list R) : out (list R) :=
  loop (fun y j =>
    yj <- get y j ;;
    if Req_EM_T yj 0 then Ok y else
    (d <- get ap (j * (j + 1) / 2 + j) ;;
     t <- quo yj d ;;
     y1 <- set y j t ;;
     loop (fun y k => a <- get ap (j * (j + 1) / 2 + k) ;; yk <- get y k ;; set y k (yk - t * a))
       (rev (seq 0 j)) y1)) (rev (seq 0 nn)) y.

Section Step.
Context (F : vec -> vec) (n m : nat) (eps : R).

(** w = A V(:,i), 217-224 *)
Definition product (x fx v : vec) : out vec :=
  ie <- quo 1 eps ;;
  Ok (let w := F (axpy eps v x) in fun j => (w j - fx j) * ie).

(** Gram-Schmidt, 227-233 *)
Definition gram (V : list (option vec)) (u0 i : nat) (H : list R) (w : vec) : out (list R * vec) :=
  loop (fun '(H, w) k =>
    vk <- row V k ;;
    H1 <- set H (u0 + k) (vdot n w vk) ;;
    h <- get H1 (u0 + k) ;;
    Ok (H1, axpy (- h) vk w)) (seq 0 (S i)) (H, w).

(** the previous rotations, 243-249 *)
Definition rotations (C Sn : list R) (u0 i : nat) (H : list R) : out (list R) :=
  loop (fun H k =>
    c <- get C k ;; s <- get Sn k ;; a <- get H (u0 + k) ;; b <- get H (u0 + k + 1) ;;
    H1 <- set H (u0 + k + 1) (- s * a + c * b) ;;
    set H1 (u0 + k) (c * a + s * b)) (seq 0 i) H.

(** the body of the loop over i, 217-264, without the tests: new workspace and
    dError *)
Definition body (x fx : vec) (ib : R) (W : solver) (u0 i : nat) : out (solver * R) :=
  v <- row (kV W) i ;;
  w <- product x fx v ;;
  '(H1, w) <- gram (kV W) u0 i (kH W) w ;;
  let hx := vnorm n w in
  V' <- set (kV W) (i + 1) (if Req_EM_T hx 0 then None else Some (scal w (1 / hx))) ;;
  H2 <- rotations (kC W) (kSn W) u0 i H1 ;;
  a <- get H2 (u0 + i) ;;
  let '(c, s) := givens a hx in
  C' <- set (kC W) i c ;;
  Sn' <- set (kSn W) i s ;;
  si <- get (kS W) i ;;
  S1 <- set (kS W) (i + 1) (- s * si) ;;
  S2 <- set S1 i (c * si) ;;
  H3 <- set H2 (u0 + i) (c * a + s * hx) ;;
  r <- get S2 (i + 1) ;;
  Ok (Solver (kN W) (kM W) (kEps W) V' H3 C' Sn' S2, Rabs r * ib).

(** G += sum over j of Y[j] V(:,j), 276-278 and 300-302 *)
Definition update (V : list (option vec)) (Y : list R) (cnt : nat) (G : vec) : out vec :=
  loop (fun G j => y <- get Y j ;; v <- row V j ;; Ok (axpy y v G)) (seq 0 cnt) G.

(** the loop over i, 214-285; [k] iterations are left *)
Fixpoint inner (x fx : vec) (ib tol : R) (W : solver) (G : vec) (err : R) (u0 i k : nat) : out (solver * vec * R) :=
  match k with
  | O => Ok (W, G, err)
  | S k' =>
      '(W1, e) <- body x fx ib W u0 i ;;
      if Rle_dec e tol then
        (Y <- dtpsv (i + 1) (kH W1) (kS W1) ;;
         G1 <- update (kV W1) Y (i + 1) G ;;
         Ok (W1, G1, e))
      else inner x fx ib tol W1 G e (u0 + (i + 1)) (i + 1) k'
  end.

(** the loop over iIter, 193-323; [k] iterations are left, [err] is dError if
    assigned; result: workspace, m_dG and dError *)
Fixpoint outer (x fx : vec) (ib tol : R) (W : solver) (R0 : vec) (rn : R) (G : vec) (err : option R) (k : nat)
    : out (solver * vec * option R) :=
  match k with
  | O => Ok (W, G, err)
  | S k' =>
      ir <- quo 1 rn ;;
      let R1 := scal R0 ir in
      V1 <- set (kV W) 0 (Some R1) ;;
      S1 <- set (zeros (length (kS W))) 0 rn ;;
      s0 <- get S1 0 ;;
      let W1 := Solver (kN W) (kM W) (kEps W) V1 (zeros (length (kH W))) (kC W) (kSn W) S1 in
      let e := s0 * ib in
      if Rle_dec e tol then Ok (W1, G, Some e) else
      '(W2, G1, e1) <- inner x fx ib tol W1 G e 0 0 m ;;
      if Rle_dec e1 tol then Ok (W2, G1, Some e1) else
      (Y <- dtpsv m (kH W2) (kS W2) ;;
       G2 <- update (kV W2) Y (m + 1) G1 ;;
       ie <- quo 1 eps ;;
       let w := F (axpy eps G2 x) in
       let R2 := fun j => fx j - (w j - fx j) * ie in
       let rn2 := vnorm n R2 in
       let e2 := rn2 * ib in
       if Rle_dec e2 tol then Ok (W2, G2, Some e2)
       else outer x fx ib tol W2 R2 rn2 G2 (Some e2) k')
  end.
End Step.

(** PerformJFNK_NewtonStep, 153-339, on an initialised solver: workspace, the new
    dX and the returned value; 1.0e-14 is taken to be exactly 10^-14 *)
Definition newton_step (F : vec -> vec) (W : solver) (x : vec) (maxit : Z) (tol : R) : out (solver * vec * R) :=
  let fx := F x in
  let rn := vnorm (kN W) fx in
  if Rlt_dec (Rabs rn) (/ 10 ^ 14) then Ok (W, x, 0) else
  ib <- quo 1 rn ;;
  ie <- quo 1 (kEps W) ;;
  '(W1, G, err) <- outer F (kN W) (kM W) (kEps W) x fx ib tol W fx rn (fun _ => 0) None (Z.to_nat maxit) ;;
  match err with
  | None => Undef
  | Some e => if Rlt_dec tol e then Throw else Ok (W1, fun j => x j - G j, e)
  end.

(** PerformJFNK, 118-149; [k] iterations are left *)
Fixpoint newton_loop (F : vec -> vec) (W : solver) (x : vec) (soltol : R) (maxit : Z) (tol : R) (k : nat) : out (solver * vec * bool) :=
  match k with
  | O => Ok (W, x, false)
  | S k' =>
      '(W1, x1, g) <- newton_step F W x maxit tol ;;
      if Rlt_dec g soltol then Ok (W1, x1, true) else newton_loop F W1 x1 soltol maxit tol k'
  end.
Definition perform (F : vec -> vec) (W : solver) (x : vec) (nmax : Z) (soltol : R) (maxit : Z) (tol : R) : out (solver * vec * bool) :=
  newton_loop F W x soltol maxit tol (Z.to_nat nmax).
