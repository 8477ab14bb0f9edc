(** * Flux correction, weak derivatives, diffusion and jump penalty on a column
    src/atm/FluxCorrectionFunction.cpp and src/atm/LinearColumnOperatorFEM.cpp.
    double is R, int is nat; conventions as in FemModel. *)
From Coq Require Import Reals List Arith Bool.
From Verif Require Import InterpModel ColModel FemModel.
Import ListNotations.
Local Open Scope R_scope.

(** ** FluxCorrectionFunction::GetDerivatives, FluxCorrectionFunction.cpp:25-109 *)
(** dCoeff before round n of the loop at FluxCorrectionFunction.cpp:54-66 *)
Fixpoint falling (N n : nat) (i : nat) : R :=
  match n with
  | O => 1
  | S m => if (i <? N - m)%nat then INR (N - m - i) * falling N m i else 0
  end.
(** dVan[i][c] and dB as handed to DGESV, FluxCorrectionFunction.cpp:39-78 *)
Definition van (t N : nat) (i c : nat) : R :=
  if (c =? 0)%nat then (-1) ^ (N - i)
  else if (c <=? t)%nat then falling N (c - 1) i
  else let s := (N - i + (c - t - 1))%nat in if Nat.even s then 2 / (INR s + 1) else 0.
Definition rhs (c : nat) : R := if (c =? 0)%nat then 1 else 0.
(** dB after DGESV and after the sign change and the shift,
    FluxCorrectionFunction.cpp:81-93: entry N - i; x is what DGESV returned *)
Definition slope (N : nat) (x : nat -> R) (i : nat) : R := INR (i + 1) * (x (N - i - 1)%nat * (-1) ^ (i + 1)).
(** FluxCorrectionFunction.cpp:97-108 for one node *)
Definition deriv_at (N : nat) (x : nat -> R) (node : R) : R :=
  2 * fst (fold_left (fun s i => (fst s + slope N x i * snd s, snd s * (2 * node - 1))) (seq 0 N) (0, 1)).
Inductive derivs := Values (l : list R) | Rejected | Overrun.
(** DGESV itself is not modelled: [x] is the solution it leaves in dB.  A type
    above the order writes outside dVan. *)
Definition get_derivatives (x : nat -> R) (t N : nat) (nodes : list R) : derivs :=
  if (t <? 1)%nat then Rejected else if (N <? 1)%nat then Rejected
  else if (N <? t)%nat then Overrun
  else if (length nodes =? 0)%nat then Rejected
  else Values (map (deriv_at N x) nodes).

Section Operators.
(** the solution left by DGESV for a given type and order, and GetPoints of the
    two quadrature classes *)
Context (sol : nat -> nat -> nat -> R).
Context (gauss lobatto : nat -> R -> R -> option (list R * list R)).

(** the derivative of the correction function of type 2 and order o + 1 at one
    node (ParamFluxCorrectionType = 2) *)
Definition correction_slope (o : nat) (node : R) : option R :=
  match get_derivatives (sol 2 (o + 1)) 2 (o + 1) [node] with Values (d :: _) => Some d | _ => None end.

(** ** LinearColumnDiffFEM::InitializeFluxCorrectionMethod, LinearColumnOperatorFEM.cpp:477-699 *)
Inductive row_result := Row (t : frow) | RThrow | RUndef.
Definition lift (r : option frow) : row_result := match r with Some t => Row t | None => RUndef end.
Fixpoint rows3 (f : nat -> row_result) (l : list nat) : option (option (list frow)) :=
  match l with
  | [] => Some (Some [])
  | k :: r => match f k with
              | RUndef => None
              | RThrow => Some None
              | Row t => match rows3 f r with Some (Some b) => Some (Some (t :: b)) | q => q end
              end
  end.
Definition build3 (nin nout : nat) (f : nat -> row_result) : outcome :=
  if ((nin =? 0) || (nout =? 0))%bool%nat then Threw else
  match rows3 f (seq 0 nout) with
  | Some (Some l) => Built (Op nin (map (fun t : frow => fst (fst t)) l) (map (fun t : frow => snd (fst t)) l) (map (fun t : frow => snd t) l))
  | Some None => Threw
  | None => Undefined
  end.
(** lines 555-686: the row of an output in element a *)
Definition flux_coeffs (nin o ne : nat) (nodes edges : list R) (zero : bool) (out : R) (a : nat) (on : bool) : option frow :=
  let n := length nodes in
  ea <- rd edges (a * o); eb <- rd edges ((a + 1) * o);
  let d := eb - ea in
  x <- sub nodes (a * o) o; c <- diff o x out; r0 <- put (zero_row nin) (a * o) c;
  r1 <- (if on then
           y <- sub nodes ((a + 1) * o) o; c' <- diff o y out; r <- put r0 ((a + 1) * o) c';
           scale r 0 n (1 / 2 * d)
         else scale r0 0 n d);
  nr <- div (out - ea) d;
  let nl := 1 - nr in
  dr <- correction_slope o nr; dl' <- correction_slope o nl;
  let dl := dl' * - (1) in
  lr <- lagrange o x ea; rl <- lagrange o x eb;
  ll <- (if (a =? 0)%nat then Some (zero_row o) else y <- sub nodes ((a - 1) * o) o; lagrange o y ea);
  rr <- (if (a =? ne - 1)%nat then Some (zero_row o) else y <- sub nodes ((a + 1) * o) o; lagrange o y eb);
  r2 <- (if negb (a =? 0)%nat then
           r <- (if on then Some r1 else add r1 ((a - 1) * o) (1 / 2 * dl) ll);
           add r (a * o) (- (1 / 2 * dl)) lr
         else if (negb zero && negb (ne =? 1)%nat)%bool then
           r <- add r1 (a * o) (1 / 2 * dl) rl; add r ((a + 1) * o) (- (1 / 2 * dl)) rr
         else Some r1);
  r3 <- (if negb (a =? ne - 1)%nat then
           r <- add r2 ((a + 1) * o) (1 / 2 * dr) rr; add r (a * o) (- (1 / 2 * dr)) rl
         else if (negb zero && negb (ne =? 1)%nat)%bool then
           r <- add r2 (a * o) (1 / 2 * dr) lr; add r ((a - 1) * o) (- (1 / 2 * dr)) ll
         else Some r2);
  r4 <- modify r3 0 n (fun _ v => v / d);
  Some (r4, (if (a =? 0)%nat then a * o else (a - 1) * o)%nat,
            (if (a =? ne - 1)%nat then (a + 1) * o else (a + 2) * o)%nat).
Definition flux_row (nin o : nat) (nodes edges outs : list R) (zero : bool) (l : nat) : row_result :=
  match (out <- rd outs l; s <- search edges o out (length nodes / o - 1) 0;
         lo <- rd edges 0; hi <- rd edges (length nodes); Some (out, s, lo, hi)) with
  | None => RUndef
  | Some (out, (a, on), lo, hi) =>
      if Rlt_dec out lo then RThrow else if Rlt_dec hi out then RThrow
      else lift (flux_coeffs nin o (length nodes / o) nodes edges zero out a on)
  end.
Definition flux_diff (src : source) (o : nat) (nodes edges outs : list R) (zero : bool) : outcome :=
  if (o =? 0)%nat then Undefined else
  if (length nodes =? 0)%nat then Threw else
  if negb (length edges =? length nodes + 1)%nat then Threw else
  if negb (length nodes mod o =? 0)%nat then Threw else
  build3 (rows_in src nodes) (length outs) (flux_row (rows_in src nodes) o nodes edges outs zero).

(** ** Operators assembled element by element *)
(** the coefficient array and the index bounds while they are being filled *)
Definition mat : Type := nat -> nat -> R.
Record filling := Filling { fm : mat; fb : nat -> nat; fe : nat -> nat }.
Definition set_coef (nr nc i j : nat) (v : R) (s : filling) : option filling :=
  if ((i <? nr) && (j <? nc))%bool%nat
  then Some (Filling (fun p q => if ((p =? i) && (q =? j))%bool%nat then v else fm s p q) (fb s) (fe s)) else None.
Definition set_bounds (nr i b e : nat) (s : filling) : option filling :=
  if (i <? nr)%nat
  then Some (Filling (fm s) (fun p => if (p =? i)%nat then b else fb s p) (fun p => if (p =? i)%nat then e else fe s p)) else None.
Definition finish (nr nc : nat) (s : option filling) : outcome :=
  match s with
  | None => Undefined
  | Some s => Built (Op nc (map (fun p => map (fm s p) (seq 0 nc)) (seq 0 nr)) (map (fb s) (seq 0 nr)) (map (fe s) (seq 0 nr)))
  end.
Definition empty : filling := Filling (fun _ _ => 0) (fun _ => 0%nat) (fun _ => 0%nat).
Fixpoint collect {A} (f : nat -> option A) (l : list nat) : option (list A) :=
  match l with [] => Some [] | i :: r => a <- f i; b <- collect f r; Some (a :: b) end.
Definition rd2 (D : list (list R)) (i j : nat) : option R := r <- nth_error D i; nth_error r j.
(** bounds of the rows of element a; w is 1 when the columns include the upper
    edge of the element, LinearColumnOperatorFEM.cpp:896-913, 1358-1375, 1474-1491 *)
Definition element_bounds (nr o ne w a : nat) (s : filling) : option filling :=
  s1 <- (if (a =? 0)%nat then set_bounds nr 0 0 (o + w) s else set_bounds nr (a * o) ((a - 1) * o) ((a + 1) * o + w) s);
  s2 <- (if (a =? ne - 1)%nat then set_bounds nr ((a + 1) * o) (a * o) ((a + 1) * o + w) s1 else Some s1);
  loop (fun j s => set_bounds nr (a * o + j) (a * o) ((a + 1) * o + w) s) (seq 1 (o - 1)) s2.

(** ** LinearColumnDiffFEM::InitializeVariationalNodeToREdge, LinearColumnOperatorFEM.cpp:814-920 *)
Definition variational_element (nr nc o ne : nat) (edges : list R) (a : nat) (s : filling) : option filling :=
  ea <- rd edges (a * o); eb <- rd edges ((a + 1) * o);
  g <- gauss o ea eb; let '(dG, dW) := g in
  gl <- lobatto (o + 1)%nat 0 1; let '(_, dWL) := gl in
  D <- collect (fun i => gi <- rd dG i; x <- sub edges (a * o) (o + 1); diff (o + 1) x gi) (seq 0 o);
  s' <- loop (fun j s =>
    wl <- rd dWL j;
    let w0 := wl * (eb - ea) in
    w1 <- (if ((j =? 0) && negb (a =? 0))%bool%nat then wo <- rd dWL o; em <- rd edges ((a - 1) * o); Some (w0 + wo * (ea - em)) else Some w0);
    w2 <- (if ((j =? o) && negb (a =? ne - 1))%bool%nat then wz <- rd dWL 0; ep <- rd edges ((a + 2) * o); Some (w1 + wz * (ep - eb)) else Some w1);
    loop (fun i s => dij <- rd2 D i j; wi <- rd dW i; v <- div (- dij * wi) w2; set_coef nr nc (j + a * o) (i + a * o) v s) (seq 0 o) s)
    (seq 0 (o + 1)) s;
  element_bounds nr o ne 0 a s'.
Definition variational (o : nat) (nodes edges : list R) : outcome :=
  if (o =? 0)%nat then Undefined else
  if (length nodes =? 0)%nat then Threw else
  if (length edges =? 0)%nat then Threw else
  let nr := length edges in let nc := length nodes in let ne := (length nodes / o)%nat in
  finish nr nc (loop (variational_element nr nc o ne edges) (seq 0 ne) empty).

(** ** LinearColumnDiffDiffFEM::Initialize on interfaces, LinearColumnOperatorFEM.cpp:1301-1376,
    and ::InitializeGLLNodes, 1387-1493; the latter takes the derivatives at the
    quadrature points, the former at the interfaces themselves *)
Definition diffusion_element (at_points : bool) (n o ne : nat) (edges : list R) (a : nat) (s : filling) : option filling :=
  ea <- rd edges (a * o); eb <- rd edges ((a + 1) * o);
  g <- lobatto (o + 1)%nat ea eb; let '(dG, dW) := g in
  D <- collect (fun i => y <- (if at_points then rd dG i else rd edges (a * o + i));
                         x <- sub edges (a * o) (o + 1); diff (o + 1) x y) (seq 0 (o + 1));
  s' <- loop (fun j s =>
    wj <- rd dW j;
    let w1 := if ((j =? 0) && negb (a =? 0))%bool%nat then wj * 2 else wj in
    let w2 := if ((j =? o) && negb (a =? ne - 1))%bool%nat then w1 * 2 else w1 in
    loop (fun i s => loop (fun k s =>
      dj <- rd2 D k j; di <- rd2 D k i; wk <- rd dW k; v <- div (dj * di * wk) w2;
      set_coef n n (j + a * o) (i + a * o) (fm s (j + a * o)%nat (i + a * o)%nat - v) s) (seq 0 (o + 1)) s) (seq 0 (o + 1)) s)
    (seq 0 (o + 1)) s;
  element_bounds n o ne 1 a s'.
Definition diffusion_edges (o : nat) (nodes edges : list R) : outcome :=
  if (o =? 0)%nat then Undefined else
  if (length edges =? 0)%nat then Threw else
  if negb (length nodes mod o =? 0)%nat then Threw else
  let n := length edges in let ne := (length nodes / o)%nat in
  finish n n (loop (diffusion_element false n o ne edges) (seq 0 ne) empty).
(** here nVerticalOrder is the number of nodes per element, one more than [o] *)
Definition diffusion_gll (order : nat) (nodes : list R) : outcome :=
  if (order <=? 1)%nat then Undefined else
  let o := (order - 1)%nat in
  if (length nodes =? 0)%nat then Threw else
  if negb ((length nodes - 1) mod o =? 0)%nat then Threw else
  let n := length nodes in let ne := ((length nodes - 1) / o)%nat in
  finish n n (loop (diffusion_element true n o ne nodes) (seq 0 ne) empty).

(** ** LinearColumnDiffDiffFEM::Initialize on levels, LinearColumnOperatorFEM.cpp:1093-1299.
    Row a * o + j is only touched in round a, so it is given row by row. *)
Definition unit_column (j i : nat) : R := if (i =? j)%nat then 1 else 0.
Definition diffusion_row (o ne : nat) (nodes edges : list R) (W : list R) (l : nat) : option frow :=
  let n := length nodes in let a := (l / o)%nat in let j := (l mod o)%nat in let ax := (a * o)%nat in
  ea <- rd edges (a * o); eb <- rd edges ((a + 1) * o);
  d' <- correction_slope o 1; d <- div d' (eb - ea);
  x <- sub nodes ax o;
  D <- collect (fun k => y <- rd nodes (ax + k); diff o x y) (seq 0 o);
  k0 <- fill (fun i => loop (fun k v => dj <- rd2 D k j; di <- rd2 D k i; w <- rd W (ax + k); Some (v - dj * di * w)) (seq 0 o) 0) (seq 0 o);
  r0 <- put (zero_row n) ax k0;
  pl <- interpolate o x (unit_column j) ea; pr <- interpolate o x (unit_column j) eb;
  r1 <- (if negb (a =? 0)%nat then
           c <- diff o x ea; r <- add r0 ax (- (1 / 2 * pl)) c;
           y <- sub nodes (ax - o) o; c' <- diff o y ea; add r (ax - o) (- (1 / 2 * pl)) c'
         else Some r0);
  r2 <- (if negb (a =? ne - 1)%nat then
           c <- diff o x eb; r <- add r1 ax (1 / 2 * pr) c;
           y <- sub nodes (ax + o) o; c' <- diff o y eb; add r (ax + o) (1 / 2 * pr) c'
         else Some r1);
  r3 <- (if (a + 1 <? ne)%nat then
           y <- sub nodes (ax + o) o; cr <- lagrange o y eb; cl <- lagrange o x eb;
           r <- add r2 ax (- (1 / 2 * pr * d)) cl; add r (ax + o) (1 / 2 * pr * d) cr
         else Some r2);
  r4 <- (if (0 <? a)%nat then
           cr <- lagrange o x ea; y <- sub nodes (ax - o) o; cl <- lagrange o y ea;
           r <- add r3 (ax - o) (1 / 2 * pl * d) cl; add r ax (- (1 / 2 * pl * d)) cr
         else Some r3);
  w <- rd W l; _ <- div 1 w;
  r5 <- modify r4 0 n (fun _ v => v / w);
  Some (r5, (if (a =? 0)%nat then 0 else (a - 1) * o)%nat, (if (a =? ne - 1)%nat then (a + 1) * o else (a + 2) * o)%nat).
(** the weights of all nodes, lines 1101-1115 *)
Definition node_weights (o ne : nat) (edges : list R) : option (list (list R)) :=
  collect (fun a => ea <- rd edges (a * o); eb <- rd edges ((a + 1) * o);
    g <- gauss o ea eb; if (length (snd g) =? o)%nat then Some (snd g) else None) (seq 0 ne).
Definition diffusion_levels (o : nat) (nodes edges : list R) : outcome :=
  if (o =? 0)%nat then Undefined else
  if (length nodes =? 0)%nat then Threw else
  if negb (length nodes mod o =? 0)%nat then Threw else
  let ne := (length nodes / o)%nat in
  match node_weights o ne edges with
  | None => Undefined
  | Some W => build (length nodes) (length nodes) (diffusion_row o ne nodes edges (concat W))
  end.

(** ** LinearColumnDiscPenaltyFEM::Initialize, LinearColumnOperatorFEM.cpp:1574-1727.
    [None] for a single element: nothing is initialised. *)
Definition left_row (o ne : nat) (nodes edges : list R) (l : nat) : option frow :=
  let n := length nodes in let a := (l / o)%nat in let i := (l mod o)%nat in let ax := (a * o)%nat in
  if (a + 1 <? ne)%nat then
    ea <- rd edges (a * o); eb <- rd edges ((a + 1) * o); z <- rd nodes l;
    s <- div (z - ea) (eb - ea); d' <- correction_slope o s; d <- div d' (eb - ea);
    x <- sub nodes ax o; cl <- lagrange o x eb; y <- sub nodes (ax + o) o; cr <- lagrange o y eb;
    r <- put (zero_row n) ax (map (fun c => - (1 / 2) * d * c) cl);
    r' <- put r (ax + o) (map (fun c => 1 / 2 * d * c) cr);
    Some (r', (a * o)%nat, ((a + 2) * o)%nat)
  else Some (zero_row n, 0%nat, 0%nat).
Definition right_row (o ne : nat) (nodes edges : list R) (l : nat) : option frow :=
  let n := length nodes in let a := (l / o)%nat in let i := (l mod o)%nat in let ax := (a * o)%nat in
  if (0 <? a)%nat then
    ea <- rd edges (a * o); eb <- rd edges ((a + 1) * o); z <- rd nodes l;
    s <- div (z - ea) (eb - ea); d' <- correction_slope o (1 - s); d <- div d' (- (eb - ea));
    x <- sub nodes (ax - o) o; cl <- lagrange o x ea; y <- sub nodes ax o; cr <- lagrange o y ea;
    r <- put (zero_row n) (ax - o) (map (fun c => - (1 / 2) * d * c) cl);
    r' <- put r ax (map (fun c => 1 / 2 * d * c) cr);
    Some (r', ((a - 1) * o)%nat, ((a + 1) * o)%nat)
  else Some (zero_row n, 0%nat, 0%nat).
(** the object: m_nVerticalOrder, m_nRFiniteElements, m_opLeft, m_opRight (absent
    if not initialised) *)
Record penalty := Penalty { pord : nat; pne : nat; pops : option (op * op) }.
Inductive pen_outcome := PenBuilt (P : penalty) | PenThrew | PenUndefined.
Definition pair_up (o ne : nat) (A B : outcome) : pen_outcome :=
  match A, B with
  | Built a, Built b => PenBuilt (Penalty o ne (Some (a, b)))
  | Threw, _ => PenThrew | _, Threw => PenThrew
  | _, _ => PenUndefined
  end.
Definition penalty_fem (o : nat) (nodes edges : list R) : pen_outcome :=
  if (o =? 0)%nat then PenUndefined else
  let ne := (length nodes / o)%nat in
  if (ne =? 1)%nat then PenBuilt (Penalty o ne None) else
  if (length nodes =? 0)%nat then PenThrew else
  if negb (length nodes mod o =? 0)%nat then PenThrew else
  pair_up o ne (build (length nodes) (length nodes) (left_row o ne nodes edges))
               (build (length nodes) (length nodes) (right_row o ne nodes edges)).
End Operators.

(** ** LinearColumnDiscPenaltyFEM::InitializeReconstructed, LinearColumnOperatorFEM.cpp:1731-1855.
    Rows k - 1 of the left and k of the right operator are written in round k
    only.  [jump]: value to the right of interface k minus the value to the left. *)
Definition jump_row (sgn : R) (o : nat) (nodes edges : list R) (k : nat) : option frow :=
  let n := length nodes in
  e <- rd edges k;
  cl <- one_sided o nodes (left_first o k) (left_last n o k) e;
  r <- add (zero_row n) (left_first o k) (- (sgn * (1 / 2))) cl;
  cr <- one_sided o nodes (right_first o k) (right_last n o k) e;
  r' <- add r (right_first o k) (sgn * (1 / 2)) cr;
  Some (r', left_first o k, S (right_last n o k)).
(** lines 1836-1846: only the range between the bounds is rescaled *)
Definition rescale (edges : list R) (k : nat) (t : frow) : option frow :=
  let '(r, b, e) := t in
  lo <- rd edges k; hi <- rd edges (k + 1);
  if (b <? e)%nat then _ <- div 1 (hi - lo); r' <- modify r b (e - b) (fun _ v => v / (hi - lo)); Some (r', b, e)
  else Some (r, b, e).
Definition rec_left_row (o : nat) (nodes edges : list R) (k : nat) : option frow :=
  t <- (if (k + 1 <? length edges - 1)%nat then jump_row 1 o nodes edges (k + 1) else Some (zero_row (length nodes), 0%nat, 0%nat));
  rescale edges k t.
Definition rec_right_row (o : nat) (nodes edges : list R) (k : nat) : option frow :=
  t <- (if ((0 <? k) && (k <? length edges - 1))%bool%nat then jump_row (-1) o nodes edges k else Some (zero_row (length nodes), 0%nat, 0%nat));
  rescale edges k t.
Definition penalty_rec (o : nat) (nodes edges : list R) : pen_outcome :=
  let n := length nodes in
  if (n =? 1)%nat then PenBuilt (Penalty 1 n None) else
  if (n =? 0)%nat then PenThrew else
  if (o =? 0)%nat then PenThrew else
  if negb (length edges =? n + 1)%nat then PenUndefined else
  pair_up 1 n (build n n (rec_left_row o nodes edges)) (build n n (rec_right_row o nodes edges)).

(** ** LinearColumnDiscPenaltyFEM::Apply, LinearColumnOperatorFEM.cpp:1859-1885, with
    unit strides; [w] is dWeight, one entry per interior element edge *)
Definition add_at (out : nat -> R) (k : nat) (v : R) : nat -> R := fun i => if (i =? k)%nat then out i + v else out i.
Definition pen_apply (P : penalty) (w col out : nat -> R) : nat -> R :=
  match pops P with
  | None => out
  | Some (L, Rt) =>
      let o := pord P in
      let out1 := fold_left (fun m a => fold_left (fun m i => add_at m (a * o + i) (apply1 L col (a * o + i) * w a)) (seq 0 o) m)
                    (seq 0 (pne P - 1)) out in
      fold_left (fun m a => fold_left (fun m i => add_at m (a * o + i) (apply1 Rt col (a * o + i) * w (a - 1)%nat)) (seq 0 o) m)
                    (seq 1 (pne P - 1)) out1
  end.
