(** * The stabilised bi-conjugate gradient step of the Newton solver
    PerformBICGSTAB_NewtonStep, src/atm/JacobianFreeNewtonKrylov.cpp:343-451.
    Conventions of KrylovModel: double is R, a division by zero makes a value that is
    not finite ([Nan]), a read of an unassigned variable is [Undef], the arrays of
    m_nEquationCount entries are functions of the index, the BLAS routines are those
    of src/base/LinearAlgebra.h:153-319 over the reference BLAS. *)
From Coq Require Import ZArith Reals List Bool.
From Verif Require Import KrylovModel.
Local Open Scope R_scope.

Section Step.
(** [n] is m_nEquationCount, [m] is m_nIterPerRestart, the size of m_dT (77) *)
Context (F : vec -> vec) (n m : nat) (eps : R).

(** A y by a difference of Evaluate, 394-399 and 411-416; a division for each entry *)
Definition image (x fx y : vec) : out vec :=
  if Req_EM_T eps 0 then Nan
  else Ok (let w := F (axpy eps y x) in fun j => (w j - fx j) / eps).
(** m_dT, of [m] entries: those from [n] on are only ever zero (77, 413-416) *)
Definition padded (t : vec) : vec := fun j => if Nat.ltb j n then t j else 0.

(** what one passage of the loop hands to the next: m_dR, m_dW, m_dY, m_dG,
    dRhoOld, dAlpha, dOmega *)
Record pass := Pass { qR : vec; qP : vec; qV : vec; qG : vec; qRho : R; qAlpha : R; qOmega : R }.

(** dOmega, 418-424.  m_dS has been given [n] entries by DCOPY
    (LinearAlgebra.h:181-183, line 407) and DDOT throws for vectors of different
    sizes (LinearAlgebra.h:270-272). *)
Definition weight (t s : vec) : out R :=
  let nt := vdot m (padded t) (padded t) in
  if Req_EM_T nt 0 then Ok 0
  else if negb (Nat.eqb m n) then Throw
  else quo (vdot n t s) nt.

(** the body of the loop, 377-436; [first] is i == 0.  Where [m] differs from [n],
    dOmega is zero at line 432 and the reference DAXPY does nothing for a zero
    factor.  Returns the new values, with the new dRhoNew as qRho, and dError. *)
Definition passage (x fx : vec) (first : bool) (q : pass) : out (pass * R) :=
  let rho := vdot n fx (qR q) in
  b1 <- quo rho (qRho q) ;;
  b2 <- quo (qAlpha q) (qOmega q) ;;
  let beta := b1 * b2 in
  let p := if first then qR q else axpy 1 (qR q) (scal (axpy (- qOmega q) (qV q) (qP q)) beta) in
  v <- image x fx p ;;
  alpha <- quo rho (vdot n fx v) ;;
  let s := axpy (- alpha) v (qR q) in
  t <- image x fx s ;;
  omega <- weight t s ;;
  let G := axpy omega s (axpy alpha p (qG q)) in
  let r := axpy (- omega) (padded t) s in
  Ok (Pass r p v G rho alpha omega, vdot n r r).

(** the loop over i, 374-443; [k] passages are left, [err] is dError if assigned *)
Fixpoint passages (x fx : vec) (tol : R) (first : bool) (q : pass) (err : option R) (k : nat) : out (pass * option R) :=
  match k with
  | O => Ok (q, err)
  | S k' =>
      '(q', e) <- passage x fx first q ;;
      if Rlt_dec e tol then Ok (q', Some e) else passages x fx tol false q' (Some e) k'
  end.

(** PerformBICGSTAB_NewtonStep, 343-451, on an initialised solver: the new dX and the
    value returned *)
Definition bicgstab (x : vec) (maxit : Z) (tol : R) : out (vec * R) :=
  let fx := F x in
  '(q, err) <- passages x fx tol true (Pass fx (fun _ => 0) (fun _ => 0) (fun _ => 0) 1 1 1) None (Z.to_nat maxit) ;;
  match err with
  | None => Undef
  | Some e => Ok (fun j => x j - qG q j, e)
  end.
End Step.
