(** * Column operators, src/atm/LinearColumnOperator.{h,cpp}
    double is R; int sizes and indices are nat.  A DataArray2D is the list of its
    rows.  Columns handed in as raw pointers are total functions of the index;
    the in and out columns are assumed not to overlap. *)
From Coq Require Import Reals List Arith.
Import ListNotations.
Local Open Scope R_scope.

(** LinearColumnOperator, LinearColumnOperator.h:309-330 (m_fInitialized is only
    used under DEBUG) *)
Record op := Op { ncol : nat; coef : list (list R); beg : list nat; fin : list nat }.
Definition nrow (A : op) : nat := length (coef A).
Definition getc (A : op) (r l : nat) : R := nth l (nth r (coef A) []) 0.
Inductive result := Ok (A : op) | Throw.

(** Initialize, LinearColumnOperator.cpp:37-45: Allocate throws on a zero size and
    clears the arrays *)
Definition initialize (nin nout : nat) : result :=
  if ((nin =? 0) || (nout =? 0))%bool%nat then Throw
  else Ok (Op nin (repeat (repeat 0 nin) nout) (repeat 0%nat nout) (repeat 0%nat nout)).

(** InitializeIdentity, LinearColumnOperator.cpp:49-62 *)
Definition identity (n : nat) : result :=
  if (n =? 0)%nat then Throw
  else Ok (Op n (map (fun i => map (fun j => if (j =? i)%nat then 1 else 0) (seq 0 n)) (seq 0 n))
             (map (fun i => i) (seq 0 n)) (map (fun i => S i) (seq 0 n))).

(** a loop  dOut += f(l)  for l from b below e *)
Definition accumulate (f : nat -> R) (init : R) (b e : nat) : R :=
  fold_left (fun s l => s + f l) (seq b (e - b)) init.

(** ComposeWith, LinearColumnOperator.cpp:66-120: the product over the whole
    intermediate range, then the range of non-zero entries of each row *)
Fixpoint scan (row : list R) (j : nat) (found : bool) (b e : nat) : nat * nat :=
  match row with
  | [] => (b, e)
  | c :: r => if Req_EM_T c 0 then scan r (S j) found b e
              else scan r (S j) true (if found then b else j) (S j)
  end.
Definition compose (A B : op) : result :=
  if negb (ncol A =? nrow B)%nat then Throw
  else if ((nrow A =? 0) || (ncol B =? 0))%bool%nat then Throw
  else
    let new := map (fun i => map (fun j => accumulate (fun k => getc A i k * getc B k j) 0 0 (ncol A)) (seq 0 (ncol B))) (seq 0 (nrow A)) in
    Ok (Op (ncol B) new (map (fun row => fst (scan row 0 false 0 0)) new) (map (fun row => snd (scan row 0 false 0 0)) new)).

(** Apply to one output level, LinearColumnOperator.h:80-97, 103-122, 128-149 *)
Definition apply1 (A : op) (col : nat -> R) (r : nat) : R :=
  accumulate (fun l => getc A r l * col l) 0 (nth r (beg A) 0%nat) (nth r (fin A) 0%nat).
Definition apply1_strided (A : op) (col : nat -> R) (r stride : nat) : R :=
  accumulate (fun l => let lx := (l * stride)%nat in getc A r l * col lx) 0 (nth r (beg A) 0%nat) (nth r (fin A) 0%nat).
Definition apply1_ref (A : op) (col ref : nat -> R) (refout : R) (r stride : nat) : R :=
  accumulate (fun l => let lx := (l * stride)%nat in getc A r l * (col lx - ref lx)) refout (nth r (beg A) 0%nat) (nth r (fin A) 0%nat).

(** Apply to all levels, LinearColumnOperator.h:155-173, 179-202; each level first
    stores the start value and then accumulates in place *)
Definition upd (m : nat -> R) (k : nat) (v : R) : nat -> R := fun i => if (i =? k)%nat then v else m i.
Definition accumulate_at (k : nat) (f : nat -> R) (b e : nat) (out : nat -> R) : nat -> R :=
  fold_left (fun m l => upd m k (m k + f l)) (seq b (e - b)) out.
Definition apply_strided (A : op) (col out : nat -> R) (sin sout : nat) : nat -> R :=
  fold_left (fun m k => let kx := (k * sout)%nat in
    accumulate_at kx (fun l => let lx := (l * sin)%nat in getc A k l * col lx) (nth k (beg A) 0%nat) (nth k (fin A) 0%nat) (upd m kx 0))
    (seq 0 (nrow A)) out.
Definition apply (A : op) (col out : nat -> R) : nat -> R :=
  fold_left (fun m k => accumulate_at k (fun l => getc A k l * col l) (nth k (beg A) 0%nat) (nth k (fin A) 0%nat) (upd m k 0))
    (seq 0 (nrow A)) out.
(** ApplyWithRef, LinearColumnOperator.h:207-230, 236-264 *)
Definition apply_ref_strided (A : op) (col ref out refout : nat -> R) (sin sout : nat) : nat -> R :=
  fold_left (fun m k => let kx := (k * sout)%nat in
    accumulate_at kx (fun l => let lx := (l * sin)%nat in getc A k l * (col lx - ref lx)) (nth k (beg A) 0%nat) (nth k (fin A) 0%nat)
      (upd m kx (refout kx)))
    (seq 0 (nrow A)) out.
Definition apply_ref (A : op) (col ref out refout : nat -> R) : nat -> R :=
  fold_left (fun m k => accumulate_at k (fun l => getc A k l * (col l - ref l)) (nth k (beg A) 0%nat) (nth k (fin A) 0%nat) (upd m k (refout k)))
    (seq 0 (nrow A)) out.
