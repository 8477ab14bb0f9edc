(** Model of the restart files: src/atm/OutputManagerComposite.cpp, with the
    part of Grid::DistributePatches (src/atm/Grid.cpp:1038-1062) and of
    GridPatch::InitializeDataLocal (src/atm/GridPatch.cpp:58-486) that decides
    which containers a rank holds and what their first bytes are.

    Bytes are integers.  A file is a list of bytes.  Messages between ranks
    are (tag, bytes) pairs that reach the root in an order chosen by [sched].
    Simplified: opening of files succeeds and writes do not run out of space;
    an exception on one rank is reported as the result of the whole call;
    container sizes outside [int] give [Undef]. *)
From Coq Require Import ZArith List Bool.
Import ListNotations.
Local Open Scope nat_scope.

(** [Hang]: the root waits for a message that no rank sends. *)
Inductive out (A : Type) := Ok (a : A) | Throw | Undef | Hang.
Arguments Ok {A}. Arguments Throw {A}. Arguments Undef {A}. Arguments Hang {A}.
Definition bind {A B} (x : out A) (f : A -> out B) : out B :=
  match x with Ok a => f a | Throw => Throw | Undef => Undef | Hang => Hang end.
Notation "x <- a ;; b" := (bind a (fun x => b)) (at level 100, a at next level, b at level 200, right associativity).

(** Little-endian storage of an integer in [k] bytes, and an [int] read back
    from the first four bytes of a buffer (OutputManagerComposite.cpp:389). *)
Fixpoint le (k : nat) (z : Z) : list Z :=
  match k with O => [] | S k' => (z mod 256)%Z :: le k' (z / 256)%Z end.
Fixpoint of_le (bs : list Z) : Z :=
  match bs with [] => 0%Z | b :: bs' => (b + 256 * of_le bs')%Z end.
Definition signed (z : Z) : Z := if (z <? 2 ^ 31)%Z then z else (z - 2 ^ 32)%Z.
Definition read_int (bs : list Z) : option Z :=
  if length bs <? 4 then None else Some (signed (of_le (firstn 4 bs))).
(** Value representable in [int] *)
Definition fits (n : nat) : bool := (Z.of_nat n <? 2 ^ 31)%Z.

(** m_iCheck, OutputManagerComposite.cpp:52 *)
Definition check : Z := 171456%Z.

(** What a rank has of the grid: bytes of the parameter container
    (Grid.cpp:61-78), of the patch data container (Grid.cpp:145-155) and, for
    each patch, of its geometric and active state containers after the patch
    index which both start with (GridPatch.cpp:288, 359, 484-485). *)
Record grid := mkGrid { params : list Z; pdata : list Z; gpay : nat -> list Z; apay : nat -> list Z }.
Definition geo (g : grid) (n : nat) : list Z := le 8 (Z.of_nat n) ++ gpay g n.
Definition acs (g : grid) (n : nat) : list Z := le 8 (Z.of_nat n) ++ apay g n.

(** Grid::DistributePatches, Grid.cpp:1038-1062: patches of rank [r] among the
    [rows] rows of m_aPatchBoxes. *)
Definition active (rows size r : nat) : list nat := filter (fun n => n mod size =? r) (seq 0 rows).

(** m_vecGridPatchByteSize on one rank, OutputManagerComposite.cpp:132-152 and
    486-506: rows are zero after Allocate, rows of active patches are set.
    The range check lets the index [count] through. *)
Definition set {A} (n : nat) (v : A) (t : list A) : list A := firstn n t ++ v :: skipn (S n) t.
Fixpoint fill (count : nat) (sz : nat -> nat * nat) (act : list nat) (t : list (nat * nat)) : out (list (nat * nat)) :=
  match act with
  | [] => Ok t
  | n :: act' =>
    if count <? n then Throw else
    if count <=? n then Undef else
    if fits (fst (sz n)) && fits (snd (sz n)) then fill count sz act' (set n (sz n) t) else Undef
  end.
Definition local_sizes (count : nat) (sz : nat -> nat * nat) (act : list nat) : out (list (nat * nat)) :=
  fill count sz act (repeat (0, 0) count).
(** The same on all ranks *)
Fixpoint collect {A} (l : list (out A)) : out (list A) :=
  match l with [] => Ok [] | x :: l' => a <- x ;; r <- collect l' ;; Ok (a :: r) end.
(** MPI_Reduce and MPI_Allreduce with MPI_MAX, OutputManagerComposite.cpp:156-176 and 508-514 *)
Fixpoint max2 (s t : list (nat * nat)) : list (nat * nat) :=
  match s, t with
  | p :: s', q :: t' => (Nat.max (fst p) (fst q), Nat.max (snd p) (snd q)) :: max2 s' t'
  | _, _ => []
  end.
Definition reduce (ts : list (list (nat * nat))) : list (nat * nat) :=
  match ts with [] => [] | t :: ts' => fold_left max2 ts' t end.
Definition sizes (rows count size : nat) (sz : nat -> nat * nat) : out (list (nat * nat)) :=
  ts <- collect (map (fun r => local_sizes count sz (active rows size r)) (seq 0 size)) ;; Ok (reduce ts).

(** m_vecGridPatchByteLoc, OutputManagerComposite.cpp:198-209 and 517-528 *)
Fixpoint locate_rest (l s : nat * nat) (rest : list (nat * nat)) : list (nat * nat) :=
  match rest with
  | [] => [l]
  | s' :: rest' => let a := snd l + snd s in l :: locate_rest (a, a + fst s') s' rest'
  end.
Definition locate (sz : list (nat * nat)) : out (list (nat * nat)) :=
  match sz with [] => Undef | s :: rest => Ok (locate_rest (0, fst s) s rest) end.

Definition pick (k : nat) (p : nat * nat) : nat := match k with O => fst p | _ => snd p end.
Definition entry (t : list (nat * nat)) (n k : nat) : out nat :=
  match nth_error t n with Some p => Ok (pick k p) | None => Undef end.
(** Bytes of a container passed to a stream with a length taken from the table *)
Definition take (n : nat) (bs : list Z) : out (list Z) :=
  if n <=? length bs then Ok (firstn n bs) else Undef.

(** seekp then write: a gap left by seeking past the end reads as zeros *)
Definition write_at (f : list Z) (pos : nat) (bs : list Z) : list Z :=
  match bs with
  | [] => f
  | _ => firstn pos f ++ repeat 0%Z (pos - length f) ++ bs ++ skipn (pos + length bs) f
  end.
(** One container written at its place, OutputManagerComposite.cpp:346-349, 358-361, 406-410 *)
Definition put (tab loc : list (nat * nat)) (ref n k : nat) (bs f : list Z) : out (list Z) :=
  s <- entry tab n k ;; l <- entry loc n k ;; b <- take s bs ;; Ok (write_at f (ref + l) b).

(** Root's own patches, OutputManagerComposite.cpp:323-362 *)
Fixpoint write_own (count : nat) (tab loc : list (nat * nat)) (ref : nat) (g : grid) (act : list nat) (f : list Z) : out (list Z) :=
  match act with
  | [] => Ok f
  | n :: act' =>
    if count <? n then Throw else
    f1 <- put tab loc ref n 0 (geo g n) f ;;
    f2 <- put tab loc ref n 1 (acs g n) f1 ;;
    write_own count tab loc ref g act' f2
  end.

(** Messages of the other ranks, OutputManagerComposite.cpp:241-289 *)
Definition message := (Z * list Z)%type.
Definition send (g : grid) (act : list nat) : out (list message) :=
  match act with
  | [] => Throw
  | _ => Ok (flat_map (fun n => [(0%Z, geo g n); (1%Z, acs g n)]) act)
  end.
Definition sends (g : grid) (rows size : nat) : out (list message) :=
  l <- collect (map (fun r => send g (active rows size r)) (seq 1 (size - 1))) ;; Ok (concat l).

(** Receive buffer, OutputManagerComposite.cpp:181-195.  It has as many
    doubles as the largest container has bytes, and a receive accepts that
    many bytes; [rows] is the number of doubles, [bytes] the contents. *)
Record buffer := mkBuffer { brows : nat; bytes : list Z }.
Definition largest (tab : list (nat * nat)) : nat :=
  fold_left (fun m p => Nat.max (Nat.max m (fst p)) (snd p)) tab 0.
Definition enlarge (tab : list (nat * nat)) (b : buffer) : buffer :=
  if brows b <? largest tab then mkBuffer (largest tab) (repeat 0%Z (8 * largest tab)) else b.

(** Receive loop, OutputManagerComposite.cpp:365-411; the messages not
    received are returned.  A message longer than the receive count is an MPI
    error ([Undef]). *)
Fixpoint receive (k : nat) (tab loc : list (nat * nat)) (ref : nat) (b : buffer) (ms : list message) (f : list Z) : out (list Z * list message) :=
  match k with
  | O => Ok (f, ms)
  | S k' =>
    match ms with
    | [] => Hang
    | (tag, m) :: ms' =>
      if brows b <? length m then Undef else
      let b' := mkBuffer (brows b) (m ++ skipn (length m) (bytes b)) in
      if (tag <? 0)%Z || (2 <=? tag)%Z then Throw else
      match read_int (bytes b') with
      | None => Undef
      | Some ix =>
        if (Z.of_nat (length loc) <? ix)%Z then Throw else
        if (ix <? 0)%Z then Undef else
        f' <- put tab loc ref (Z.to_nat ix) (Z.to_nat tag) (bytes b') f ;;
        receive k' tab loc ref b' ms' f'
      end
    end
  end.

Section Sizes.
(** Functions that the code computes from loaded data: rows of m_aPatchBoxes
    from the parameters (Grid.cpp:133), m_nInitializedPatchBoxes from the
    patch data (Grid.h:280-282), sizes of the parameter container and of the
    patch data container, and of the two containers of a patch
    (GridPatch.cpp:58-400). *)
Context (rows : list Z -> nat) (count : list Z -> nat).
Context (pdsize : list Z -> nat) (csize : list Z -> list Z -> nat -> nat * nat).

(** OutputManagerComposite::Output, OutputManagerComposite.cpp:108-420, on
    [size] ranks; [isopen] and [nout] are m_fIsFileOpen and m_ixOutputTime. *)
Definition output (isopen : bool) (nout : nat) (size : nat) (sched : list message -> list message) (time : list Z) (g : grid) (b : buffer)
  : out (list Z * list message) :=
  if negb isopen then Throw else
  if negb (nout =? 0) then Throw else
  let rw := rows (params g) in let ct := count (pdata g) in
  tab <- sizes rw ct size (fun n => (length (geo g n), length (acs g n))) ;;
  loc <- locate tab ;;
  let f := le 4 check ++ time ++ params g ++ pdata g in
  ms <- sends g rw size ;;
  let own := active rw size 0 in
  f1 <- write_own ct tab loc (length f) g own f ;;
  receive (2 * (ct - length own)) tab loc (length f) (enlarge tab b) (sched ms) f1.

(** An input stream: a read that meets the end of the file stores what there
    is and fails; a failed stream reads nothing more and does not seek. *)
Record stream := mkStream { sfile : list Z; spos : nat; sbad : bool }.
Definition sread (s : stream) (n : nat) (dst : list Z) : list Z * stream :=
  if sbad s then (dst, s) else
  let av := skipn (spos s) (sfile s) in
  if n <=? length av then (firstn n av ++ skipn n dst, mkStream (sfile s) (spos s + n) false)
  else (av ++ skipn (length av) dst, mkStream (sfile s) (length (sfile s)) true).
Definition sseek (s : stream) (p : nat) : stream :=
  if sbad s then s else mkStream (sfile s) p false.

(** One container read, OutputManagerComposite.cpp:553-556 and 565-568 *)
Definition get (tab loc : list (nat * nat)) (ref n k : nat) (dst : list Z) (s : stream) : out (list Z * stream) :=
  sz <- entry tab n k ;; l <- entry loc n k ;;
  if length dst <? sz then Undef else Ok (sread (sseek s (ref + l)) sz dst).
(** Patches of this rank, OutputManagerComposite.cpp:537-569.  [fg] and [fa]
    are the contents of new containers. *)
Fixpoint read_own (ct : nat) (tab loc : list (nat * nat)) (ref : nat) (fg fa : nat -> list Z) (act : list nat) (s : stream)
  : out (list (nat * list Z * list Z)) :=
  match act with
  | [] => Ok []
  | n :: act' =>
    if ct <? n then Throw else
    gs <- get tab loc ref n 0 (fg n) s ;;
    ss <- get tab loc ref n 1 (fa n) (snd gs) ;;
    rest <- read_own ct tab loc ref fg fa act' (snd ss) ;;
    Ok ((n, fst gs, fst ss) :: rest)
  end.

Record loaded := mkLoaded { ltime : list Z; lparams : list Z; lpdata : list Z; lpatches : list (nat * list Z * list Z) }.
(** OutputManagerComposite::Input, OutputManagerComposite.cpp:424-582, on rank
    [r] of [size]; [time0] is a default Time, [params0] the parameter container
    before the call.  The other ranks read the same file, so their size tables
    are those of the same parameters. *)
Definition input (size r : nat) (time0 params0 : list Z) (fresh_g fresh_a : nat -> list Z) (file : list Z) : out loaded :=
  let s0 := mkStream file 0 false in
  if length file <? 4 then Undef else
  let (chk, s1) := sread s0 4 [] in
  if negb (signed (of_le chk) =? check)%Z then Throw else
  let (time, s2) := sread s1 (length time0) time0 in
  let (ps, s3) := sread s2 (length params0) params0 in
  let (pd, s4) := sread s3 (pdsize ps) (repeat 0%Z (pdsize ps)) in
  let rw := rows ps in let ct := count pd in
  tab <- sizes rw ct size (csize ps pd) ;;
  loc <- locate tab ;;
  if sbad s4 then Throw else
  l <- read_own ct tab loc (spos s4) fresh_g fresh_a (active rw size r) s4 ;;
  Ok (mkLoaded time ps pd l).
End Sizes.
