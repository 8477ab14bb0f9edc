(** * Legendre polynomials
    src/base/LegendrePolynomial.cpp and the branches of
    src/base/GaussQuadrature.cpp and src/base/GaussLobattoQuadrature.cpp that
    use it (more than ten points).  double is R. *)
From Coq Require Import ZArith Reals List Bool.
Import ListNotations.
Local Open Scope R_scope.

(** [Unset]: the two outputs keep what they held (negative degree) *)
Inductive evaluation := Ev (v d : R) | Unset.

(** EvaluateValueAndDerivative, low orders, LegendrePolynomial.cpp:33-73 *)
Definition eval_low (n : Z) (x : R) : evaluation :=
  match n with
  | 0%Z => Ev 1.0 0.0
  | 1%Z => Ev x 1.0
  | 2%Z => Ev (1.5 * x * x - 0.5) (3.0 * x)
  | 3%Z => Ev ((2.5 * x * x - 1.5) * x) (7.5 * x * x - 1.5)
  | 4%Z => Ev ((4.375 * x * x - 3.75) * x * x + 0.375) (2.5 * (7.0 * x * x - 3.0) * x)
  | 5%Z => Ev (((7.875 * x * x - 8.75) * x * x + 1.875) * x) ((39.375 * x * x - 26.25) * x * x + 1.875)
  | 6%Z => Ev (((14.4375 * x * x - 19.6875) * x * x + 6.5625) * x * x - 0.3125) (((86.625 * x * x - 78.75) * x * x + 13.125) * x)
  | 7%Z => Ev ((((26.8125 * x * x - 43.3125) * x * x + 19.6875) * x * x - 2.1875) * x)
              (((187.6875 * x * x - 216.5625) * x * x + 59.0625) * x * x - 2.1875)
  | 8%Z => Ev ((((50.2734375 * x * x - 93.84375) * x * x + 54.140625) * x * x - 9.84375) * x * x + 0.2734375)
              ((((402.1875 * x * x - 563.0625) * x * x + 216.5625) * x * x - 19.6875) * x)
  | _ => Unset
  end.
(** one pass of the loop, LegendrePolynomial.cpp:92-107: dP0, dP1, dXk and the
    derivative stored at k; dPn[k] is dP1 after the pass.  The division is by
    1 - x^2 with |x| <> 1. *)
Definition rise (x : R) (s : R * R * R * R) (k : nat) : R * R * R * R :=
  let '(p0, p1, xk, _) := s in
  let pf := (2 * INR k - 1) / INR k * x * p1 - (INR k - 1) / INR k * p0 in
  let xk := xk * x in
  (p1, pf, xk, if Req_EM_T (Rabs x) 1 then 0.5 * xk * INR k * (INR k + 1) else INR k * (p1 - x * pf) / (1 - x * x)).
(** LegendrePolynomial.cpp:78-114 *)
Definition eval_high (n : Z) (x : R) : evaluation :=
  let '(_, v, _, d) := fold_left (rise x) (seq 2 (Z.to_nat n - 1)) (1, x, x * x, 1) in Ev v d.
(** EvaluateValueAndDerivative, LegendrePolynomial.cpp:26-115 *)
Definition evaluate (n : Z) (x : R) : evaluation := if (n <? 9)%Z then eval_low n x else eval_high n x.

(** The refinement loops.  [Off]: a division by zero, after which the values are
    not real numbers. *)
Inductive roots := Untouched | RootsThrow | Roots (l : list R) | Off.
Definition tolerance : R := / 10 ^ 14.
Definition over (a b : R) : option R := if Req_EM_T b 0 then None else Some (a / b).
(** dMod, LegendrePolynomial.cpp:633-640 and 717-724 *)
Definition repulsion (n : nat) (r : nat -> R) (k : nat) : option R :=
  fold_left (fun m l => match m with
                        | Some m => if (l =? k)%nat then Some m else match over 1 (r k - r l) with Some q => Some (m + q) | None => None end
                        | None => None
                        end) (seq 0 n) (Some 0).
(** what the two functions do with one estimate: the number whose size is
    tested, and the quotient of the next derivative by it.
    AllRoots, LegendrePolynomial.cpp:622-627 and 642 *)
Definition value_test (n : Z) (x : R) : option (R * option R) :=
  match evaluate n x with Ev v d => Some (v, over d v) | Unset => None end.
(** AllDerivativeRoots, LegendrePolynomial.cpp:706-711 and 726-733 *)
Definition slope_test (n : Z) (x : R) : option (R * option R) :=
  match evaluate n x with
  | Ev v d => Some (d, match over 1 (1 - x * x) with
                       | Some q => over (q * (2 * x * d - IZR n * (IZR n + 1) * v)) d
                       | None => None
                       end)
  | Unset => None
  end.
(** the loop over k, LegendrePolynomial.cpp:621-643 and 705-734: the new
    estimate and whether it is counted as found *)
Definition refine_one (test : R -> option (R * option R)) (n : nat) (r : nat -> R) (k : nat) : option (R * bool) :=
  match test (r k) with
  | Some (f, q) =>
      if Rlt_dec (Rabs f) tolerance then Some (r k, true)
      else match repulsion n r k, q with
           | Some m, Some q => match over 1 (q - m) with Some s => Some (r k - s, false) | None => None end
           | _, _ => None
           end
  | None => None
  end.
Fixpoint collect {A} (l : list (option A)) : option (list A) :=
  match l with
  | [] => Some []
  | Some a :: l' => match collect l' with Some r => Some (a :: r) | None => None end
  | None :: _ => None
  end.
Definition refine (test : R -> option (R * option R)) (l : list R) : option (list (R * bool)) :=
  collect (map (refine_one test (length l) (fun k => nth k l 0)) (seq 0 (length l))).
(** the loop over iter, LegendrePolynomial.cpp:616-652 and 696-743 *)
Fixpoint iterate (test : R -> option (R * option R)) (fuel : nat) (l : list R) : option (list R) :=
  match fuel with
  | O => Some l
  | S fuel' =>
      match refine test l with
      | Some m => if forallb snd m then Some (map fst m) else iterate test fuel' (map fst m)
      | None => None
      end
  end.
(** std::sort on finite values *)
Fixpoint insert (x : R) (l : list R) : list R :=
  match l with [] => [x] | y :: l' => if Rle_dec x y then x :: l else y :: insert x l' end.
Definition sort (l : list R) : list R := fold_right insert [] l.
(** LegendrePolynomial.cpp:611-614 and 691-694 *)
Definition spread (m : nat) : list R := map (fun k => (INR k + 0.5) * 2 / INR m - 1) (seq 0 m).
(** AllRoots, LegendrePolynomial.cpp:583-659; [null]: dRoots is NULL *)
Definition all_roots (n : Z) (null : bool) : roots :=
  if (n =? 0)%Z then Untouched else if (n <? 0)%Z then RootsThrow else if null then RootsThrow
  else match iterate (value_test n) (Z.to_nat (n + 10)) (spread (Z.to_nat n)) with Some l => Roots (sort l) | None => Off end.
(** AllDerivativeRoots, LegendrePolynomial.cpp:663-750 *)
Definition all_derivative_roots (n : Z) (null : bool) : roots :=
  if ((n =? 0) || (n =? 1))%Z then Untouched else if (n <? 0)%Z then RootsThrow else if null then RootsThrow
  else match iterate (slope_test n) (Z.to_nat (n + 10)) (spread (Z.to_nat n - 1)) with Some l => Roots (sort l) | None => Off end.

(** ** quadrature with more than ten points *)
Inductive points := Points (g w : list R) | PointsOff.
(** GaussQuadrature::GetPoints, GaussQuadrature.cpp:186-197 *)
Definition gauss_weight (n : Z) (x : R) : option R :=
  match evaluate n x with Ev _ d => over 2 ((1 - x * x) * d * d) | Unset => None end.
Definition gauss_points (n : Z) : points :=
  match all_roots n false with
  | Roots g => match collect (map (gauss_weight n) g) with Some w => Points g w | None => PointsOff end
  | _ => PointsOff
  end.
(** GaussLobattoQuadrature::GetPoints, GaussLobattoQuadrature.cpp:183-201 *)
Definition lobatto_weight (n : Z) (x : R) : option R :=
  match evaluate (n - 1) x with Ev v _ => over 2 (IZR n * (IZR n - 1) * v * v) | Unset => None end.
Definition lobatto_points (n : Z) : points :=
  match all_derivative_roots (n - 1) false with
  | Roots l => let g := -1 :: l ++ [1] in
               match collect (map (lobatto_weight n) g) with Some w => Points g w | None => PointsOff end
  | _ => PointsOff
  end.
