(** * Construction of the vertical operators, src/atm/LinearColumnOperatorFEM.cpp
    double is R, int is nat (the one subtraction that can go below zero is
    checked).  [Undefined] stands for reading or writing outside an array, for a
    division by zero, and for writing past the end of a coefficient row (which
    in the code would spill into the next row). *)
From Coq Require Import Reals List Arith Bool.
From Verif Require Import InterpModel ColModel.
Import ListNotations.
Local Open Scope R_scope.

Inductive outcome := Built (A : op) | Threw | Undefined.
(** const double ParamEpsilon = 1.0e-12 *)
Definition eps : R := / 10 ^ 12.

(** array read, pointer to a run of n entries, loop over a run of a row *)
Definition rd (l : list R) (i : nat) : option R := nth_error l i.
Definition sub (l : list R) (off n : nat) : option (nat -> R) :=
  if (off + n <=? length l)%nat then Some (fun j => nth (off + j) l 0) else None.
(** for (i = 0; i < m; i++) row[off+i] = g(i, row[off+i]) *)
Definition modify (row : list R) (off m : nat) (g : nat -> R -> R) : option (list R) :=
  if (off + m <=? length row)%nat
  then Some (map (fun k => if ((off <=? k) && (k <? off + m))%nat then g (k - off)%nat (nth k row 0) else nth k row 0) (seq 0 (length row)))
  else None.
Definition put (row : list R) (off : nat) (c : list R) : option (list R) := modify row off (length c) (fun i _ => nth i c 0).
Definition scale (row : list R) (off m : nat) (w : R) : option (list R) := modify row off m (fun _ v => v * w).
Definition add (row : list R) (off : nat) (w : R) (c : list R) : option (list R) := modify row off (length c) (fun i v => v + w * nth i c 0).

(** a finished row: coefficients, begin, end *)
Definition frow : Type := list R * nat * nat.
(** the loop over the output rows *)
Fixpoint rows (f : nat -> option frow) (l : list nat) : option (list frow) :=
  match l with [] => Some [] | k :: r => a <- f k; b <- rows f r; Some (a :: b) end.
Definition build (nin nout : nat) (f : nat -> option frow) : outcome :=
  if ((nin =? 0) || (nout =? 0))%bool%nat then Threw else
  match rows f (seq 0 nout) with
  | Some l => Built (Op nin (map (fun t : frow => fst (fst t)) l) (map (fun t : frow => snd (fst t)) l) (map (fun t : frow => snd t) l))
  | None => Undefined
  end.
Definition zero_row (nin : nat) : list R := repeat 0 nin.

(** the element search, LinearColumnOperatorFEM.cpp:86-97, 378-389, 520-531, 735-746:
    the element index and whether the point is on an interior element edge *)
Fixpoint search (edges : list R) (o : nat) (out : R) (n a : nat) : option (nat * bool) :=
  match n with
  | O => Some (a, false)
  | S n' =>
      e <- rd edges ((a + 1) * o);
      let next := e - eps in
      if Rlt_dec out next then Some (a, false)
      else if Rlt_dec out (next + 2 * eps) then Some (a, true)
      else search edges o out n' (S a)
  end.
(** one-sided errors and weights, LinearColumnOperatorFEM.cpp:159-174, 411-426, 768-783;
    pow(x, n) is x^n *)
Definition edge_weights (edges : list R) (o a : nat) : option (R * R) :=
  e0 <- rd edges (a * o); e1 <- rd edges ((a + 1) * o); e2 <- rd edges ((a + 2) * o);
  let el := (e1 - e0) ^ o in let er := (e2 - e1) ^ o in
  wl <- div er (el + er); wr <- div el (el + er); Some (wl, wr).

(** ** LinearColumnInterpFEM::Initialize, LinearColumnOperatorFEM.cpp:33-205 *)
Inductive source := Levels | Interfaces.
Definition interp_row (src : source) (o : nat) (nodes edges outs : list R) (l : nat) : option frow :=
  out <- rd outs l;
  s <- search edges o out (length nodes / o - 1) 0;
  let '(a, on) := s in
  match src with
  | Interfaces =>
      let row := zero_row (length nodes + 1) in
      if on then r <- put row ((a + 1) * o) [1]; Some (r, ((a + 1) * o)%nat, ((a + 1) * o + 1)%nat)
      else x <- sub edges (a * o) (o + 1); c <- lagrange (o + 1) x out; r <- put row (a * o) c;
           Some (r, (a * o)%nat, ((a + 1) * o + 1)%nat)
  | Levels =>
      let row := zero_row (length nodes) in
      f <- (if ((o =? 1) && (l =? 0))%bool%nat then
              x <- sub nodes (a * o) (o + 1); c <- lagrange (o + 1) x out; r <- put row (a * o) c;
              Some (r, (a * o)%nat, ((a + 2) * o)%nat)
            else if ((o =? 1) && (l =? length outs - 1))%bool%nat then
              match a with
              | O => None
              | S b => x <- sub nodes (b * o) (o + 1); c <- lagrange (o + 1) x out; r <- put row (b * o) c;
                       Some (r, (b * o)%nat, ((a + 1) * o)%nat)
              end
            else
              x <- sub nodes (a * o) o; c <- lagrange o x out; r <- put row (a * o) c;
              Some (r, (a * o)%nat, ((a + 1) * o)%nat));
      let '(r, b, e) := f in
      if on then
        w <- edge_weights edges o a;
        let '(wl, wr) := w in
        x <- sub nodes ((a + 1) * o) o; c <- lagrange o x out;
        r1 <- put r e c; r2 <- scale r1 b (e - b) wl; r3 <- scale r2 e o wr;
        Some (r3, b, (e + o)%nat)
      else Some (r, b, e)
  end.
Definition rows_in (src : source) (nodes : list R) : nat := match src with Interfaces => (length nodes + 1)%nat | Levels => length nodes end.
Definition interp (src : source) (o : nat) (nodes edges outs : list R) (zero : bool) : outcome :=
  if (o =? 0)%nat then Undefined else
  if (length nodes =? 0)%nat then Threw else
  if negb (length edges =? length nodes + 1)%nat then Threw else
  if negb (length nodes mod o =? 0)%nat then Threw else
  let first := zero && (if Rlt_dec (Rabs (nth 0 outs 0)) eps then true else false) in
  let last := zero && (if Rlt_dec (Rabs (nth (length outs - 1) outs 0 - 1)) eps then true else false) in
  build (rows_in src nodes) (length outs) (fun l =>
    if ((first && (l =? 0)) || (last && (l =? length outs - 1)))%bool%nat
    then Some (zero_row (rows_in src nodes), 0%nat, 0%nat)
    else interp_row src o nodes edges outs l).

(** ** LinearColumnDiffFEM::InitializeInterfaceMethod, LinearColumnOperatorFEM.cpp:341-473;
    first the rows of the operator from interfaces *)
Definition diff_row (ne o : nat) (edges outs : list R) (l : nat) : option frow :=
  out <- rd outs l;
  s <- search edges o out (ne - 1) 0;
  let '(a, on) := s in
  x <- sub edges (a * o) (o + 1); c <- diff (o + 1) x out; r <- put (zero_row (length edges)) (a * o) c;
  if on then
    w <- edge_weights edges o a;
    let '(wl, wr) := w in
    y <- sub edges ((a + 1) * o) (o + 1); d <- diff (o + 1) y out;
    r1 <- scale r (a * o) (o + 1) wl; r2 <- add r1 ((a + 1) * o) wr d;
    Some (r2, (a * o)%nat, ((a + 2) * o + 1)%nat)
  else Some (r, (a * o)%nat, ((a + 1) * o + 1)%nat).
Definition compose_outcome (A B : outcome) : outcome :=
  match A, B with
  | Built a, Built b => match compose a b with Ok c => Built c | Throw => Threw end
  | Threw, _ => Threw | Undefined, _ => Undefined
  | _, Threw => Threw | _, Undefined => Undefined
  end.
Definition diff_interface (src : source) (o : nat) (nodes edges outs : list R) (zero : bool) : outcome :=
  if (o =? 0)%nat then Undefined else
  if (length nodes =? 0)%nat then Threw else
  if negb (length edges =? length nodes + 1)%nat then Threw else
  if negb (length nodes mod o =? 0)%nat then Threw else
  let A := build (length nodes + 1) (length outs) (diff_row (length nodes / o) o edges outs) in
  match src with Interfaces => A | Levels => compose_outcome A (interp Levels o nodes edges edges zero) end.

(** ** LinearColumnDiffFEM::InitializeGLLNodes, LinearColumnOperatorFEM.cpp:703-810: the
    same with nVerticalOrder - 1 intervals per element and the nodes as edges *)
Definition diff_gll (o : nat) (nodes outs : list R) : outcome :=
  if (o <=? 1)%nat then Undefined else
  if (length nodes =? 0)%nat then Threw else
  if negb ((length nodes - 1) mod (o - 1) =? 0)%nat then Threw else
  build (length nodes) (length outs) (diff_row ((length nodes - 1) / (o - 1)) (o - 1) nodes outs).

(** ** LinearColumnInterpFEM::InitializeReconstructed, LinearColumnOperatorFEM.cpp:209-335 *)
(** kbegin and klast of the two one-sided stencils at interface k, already clipped *)
Definition left_first (o k : nat) : nat := (k - ((o - 2) / 2 + 1))%nat.
Definition left_last (n o k : nat) : nat := Nat.min (k + (o - 2) / 2 - 1) (n - 1).
Definition right_first (o k : nat) : nat := (k - (o - 2) / 2)%nat.
Definition right_last (n o k : nat) : nat := Nat.min (k + (o - 2) / 2) (n - 1).
(** weights of the one-sided interpolants, written to dCoeffLeft / dCoeffRight
    (nVerticalOrder entries) *)
Definition one_sided (o : nat) (nodes : list R) (b e : nat) (at_ : R) : option (list R) :=
  x <- sub nodes b (S e - b); c <- lagrange (S e - b) x at_;
  if (length c <=? o)%nat then Some c else None.
Definition interp_rec_row (o : nat) (nodes edges : list R) (k : nat) : option frow :=
  let n := length nodes in let m := length edges in
  out <- rd edges k;
  let w := if ((k =? 0) || (k =? m - 1))%bool%nat then 1 else 1 / 2 in
  r <- (if (k =? 0)%nat then Some (zero_row n)
        else c <- one_sided o nodes (left_first o k) (left_last n o k) out; add (zero_row n) (left_first o k) w c);
  let b := if (k =? 0)%nat then 0%nat else left_first o k in
  if (k =? m - 1)%nat then Some (r, b, n)
  else c <- one_sided o nodes (right_first o k) (right_last n o k) out;
       r' <- add r (right_first o k) w c; Some (r', b, S (right_last n o k)).
Definition interp_rec (o : nat) (nodes edges : list R) : outcome :=
  if (length nodes =? 0)%nat then Threw else
  if (length edges =? 0)%nat then Threw else
  if negb (o mod 2 =? 0)%nat then Threw else
  build (length nodes) (length edges) (interp_rec_row o nodes edges).
(** interfaces to levels, LinearColumnOperatorFEM.cpp:230-244 *)
Definition average_row (nodes edges : list R) (k : nat) : option frow :=
  e0 <- rd edges k; e1 <- rd edges (k + 1);
  r <- put (zero_row (length edges)) k [1 / 2; 1 / 2]; Some (r, k, (k + 2)%nat).
Definition average_rec (o : nat) (nodes edges : list R) : outcome :=
  if (length nodes =? 0)%nat then Threw else
  if (length edges =? 0)%nat then Threw else
  if negb (o mod 2 =? 0)%nat then Threw else
  build (length edges) (length nodes) (average_row nodes edges).

(** ** LinearColumnDiffFEM::InitializeReconstructed, LinearColumnOperatorFEM.cpp:924-1056 *)
(** from interfaces to levels *)
Definition slope_row (nodes edges : list R) (k : nat) : option frow :=
  e0 <- rd edges k; e1 <- rd edges (k + 1);
  u <- div (-1) (e1 - e0); v <- div 1 (e1 - e0);
  r <- put (zero_row (length edges)) k [u; v]; Some (r, k, (k + 2)%nat).
Definition slope_rec (nodes edges : list R) : outcome := build (length edges) (length nodes) (slope_row nodes edges).
(** differentiation on the stencil b .. e of the points xs *)
Definition stencil_row (xs : list R) (b e : nat) (at_ : R) : option frow :=
  x <- sub xs b (S e - b); c <- diff (S e - b) x at_;
  r <- put (zero_row (length xs)) b c; Some (r, b, S e).
Definition diff_rec (src dst : source) (o : nat) (nodes edges : list R) : outcome :=
  if (length nodes =? 0)%nat then Threw else
  if (length edges =? 0)%nat then Threw else
  if (o <? 2)%nat then Threw else
  if negb (o mod 2 =? 0)%nat then Threw else
  match src, dst with
  | Interfaces, Levels => slope_rec nodes edges
  | Levels, Levels => compose_outcome (slope_rec nodes edges) (interp_rec o nodes edges)
  | Interfaces, Interfaces =>
      build (length edges) (length edges) (fun k => out <- rd edges k;
        stencil_row edges (k - o / 2) (Nat.min (k + o / 2) (length edges - 1)) out)
  | Levels, Interfaces =>
      build (length nodes) (length edges) (fun k => out <- rd edges k;
        stencil_row nodes (k - o / 2) (Nat.min (k + o / 2 - 1) (length nodes - 1)) out)
  end.
