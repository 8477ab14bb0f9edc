(** Model of the array and container classes:
    src/base/DataArray1D.h, DataArray2D.h, DataArray3D.h, DataArray4D.h,
    DataStruct.h, DataContainer.{h,cpp}.

    [size_t] is [Z] without wrap-around.  Memory is a map from block
    identifiers to lists of elements (the padding bytes of GetByteSize are
    accounted for only in [byte_size]).  malloc is assumed to succeed.  The
    release of malloc'ed memory with [delete[]] (DataArray1D.h:162 etc.) is
    modelled as free. *)
From Coq Require Import ZArith Bool List.
Import ListNotations.
Local Open Scope Z_scope.

(** ** Sizes and addressing *)

(** GetByteSize: DataArray1D.h:92-102, DataArray2D.h:99-107,
    DataArray3D.h:116-124, DataArray4D.h:124-133, DataStruct.h:58-66;
    [n] elements of [sz] bytes, sizeof(size_t) = 8. *)
Definition byte_size (n sz : Z) : Z :=
  if Z.rem (n * sz) 8 =? 0 then n * sz else (Z.quot (n * sz) 8 + 1) * 8.

(** operator(): DataArray1D.h:355-378, DataArray2D.h:459-490,
    DataArray3D.h (three-index accessor), DataArray4D.h:507-527 *)
Definition idx1 (i : Z) : Z := i.
Definition idx2 (s1 i j : Z) : Z := i * s1 + j.
Definition idx3 (s1 s2 i j k : Z) : Z := i * s1 * s2 + j * s2 + k.
Definition idx4 (s1 s2 s3 i j k l : Z) : Z := i * s1 * s2 * s3 + j * s2 * s3 + k * s3 + l.

(** Bounds test of the debug build: DataArray1D.h:357, DataArray2D.h:465,
    DataArray4D.h:509 (true = access allowed). *)
Definition debug_ok1 (s0 i : Z) : bool := negb (s0 <? i).
Definition debug_ok2 (s0 s1 i j : Z) : bool := negb ((s0 <? i) || (s1 <? j)).

(** ** Ownership and contents *)
Section Arrays.
Context {V : Type} (zero : V).

Record heap := mkH {
  hnext : nat;                      (* next fresh block *)
  hmem : nat -> option (list V);    (* live blocks *)
  halloc : list nat;                (* blocks obtained by arrays (malloc) *)
  hfreed : list nat }.              (* blocks released by arrays, in order *)

(** The class an object belongs to. *)
Inductive kind := KArr (* 1D, 3D, 4D *) | KArr2 | KStruct.

(** m_fOwnsData, m_sSize, m_eDataType, m_eDataLocation, m_data *)
Record arr := mkA {
  akind : kind; owns : bool; dims : list Z; dtype : Z; dloc : Z; ptr : option nat }.

(** Result of an operation on one object; [Fin false] is an exception. *)
Inductive outcome := Fin (ok : bool) (h : heap) (a : arr) | BadFree | BadAccess.

Definition total (ds : list Z) : Z := fold_right Z.mul 1 ds.
Definition upd {A} (f : nat -> option A) (b : nat) (x : option A) : nat -> option A :=
  fun c => if Nat.eqb c b then x else f c.

(** malloc of [n] elements *)
Definition malloc (h : heap) (n : Z) : heap * nat :=
  (mkH (S (hnext h)) (upd (hmem h) (hnext h) (Some (repeat zero (Z.to_nat n))))
       (halloc h ++ [hnext h]) (hfreed h), hnext h).
(** delete[] : [None] when the block is not live *)
Definition mfree (h : heap) (b : nat) : option heap :=
  match hmem h b with
  | None => None
  | Some _ => Some (mkH (hnext h) (upd (hmem h) b None) (halloc h) (hfreed h ++ [b]))
  end.

Definition bind (o : outcome) (f : heap -> arr -> outcome) : outcome :=
  match o with Fin true h a => f h a | _ => o end.
Definition is_attached (a : arr) : bool := match ptr a with None => false | _ => true end.

(** Detach: DataArray1D.h:160-166, DataArray2D.h:185-191, DataStruct.h:112-118 *)
Definition detach (h : heap) (a : arr) : outcome :=
  let a' := mkA (akind a) true (dims a) (dtype a) (dloc a) None in
  match owns a, ptr a with
  | true, Some b => match mfree h b with Some h' => Fin true h' a' | None => BadFree end
  | _, _ => Fin true h a'
  end.

(** Deallocate: DataArray1D.h:171-177, DataArray2D.h:196-202 *)
Definition deallocate (h : heap) (a : arr) : outcome :=
  if owns a then detach h a else Fin false h a.

(** Zero: DataArray1D.h:293-302, DataArray2D.h:339-348; elements only *)
Definition set_zero (h : heap) (a : arr) : outcome :=
  match ptr a with
  | None => Fin false h a
  | Some b =>
    match hmem h b with
    | None => BadAccess
    | Some l =>
      let n := Z.to_nat (total (dims a)) in
      if (n <=? length l)%nat then
        Fin true (mkH (hnext h) (upd (hmem h) b (Some (repeat zero n ++ skipn n l)))
                      (halloc h) (hfreed h)) a
      else BadAccess
    end
  end.

Fixpoint default_dims (ds own : list Z) : list Z :=
  match ds, own with
  | d :: ds', o :: own' => (if d =? 0 then o else d) :: default_dims ds' own'
  | _, _ => []
  end.
Fixpoint eq_dims (a b : list Z) : bool :=
  match a, b with
  | [], [] => true
  | x :: a', y :: b' => (x =? y) && eq_dims a' b'
  | _, _ => false
  end.

(** Allocate: DataArray1D.h:107-130, DataArray2D.h:112-147,
    DataArray3D.h:129-166, DataArray4D.h:138-183, DataStruct.h:71-86
    ([ds] = 0 for omitted arguments; for a DataStruct dims = [1]). *)
Definition allocate (ds : list Z) (h : heap) (a : arr) : outcome :=
  if negb (owns a) then Fin false h a else
  let ds' := default_dims ds (dims a) in
  if existsb (fun d => d =? 0) ds' then Fin false h a else
  let re := match ptr a with
            | None => true
            | _ => match akind a with KStruct => false | _ => negb (eq_dims (dims a) ds') end
            end in
  bind (if re then
          bind (detach h a) (fun h1 a1 =>
            let '(h2, b) := malloc h1 (total ds') in
            Fin true h2 (mkA (akind a1) (owns a1) ds' (dtype a1) (dloc a1) (Some b)))
        else Fin true h a)
    (fun h1 a1 => bind (set_zero h1 a1) (fun h2 a2 =>
       Fin true h2 (mkA (akind a2) true (dims a2) (dtype a2) (dloc a2) (ptr a2)))).

(** SetSize: DataArray1D.h:135-143, DataArray2D.h:152-162 *)
Definition set_size (ds : list Z) (h : heap) (a : arr) : outcome :=
  if is_attached a then Fin false h a
  else Fin true h (mkA (akind a) (owns a) ds (dtype a) (dloc a) (ptr a)).

(** AttachToData: DataArray1D.h:148-155, DataArray2D.h:173-180; the argument
    may be NULL. *)
Definition attach (b : option nat) (h : heap) (a : arr) : outcome :=
  if is_attached a then Fin false h a
  else Fin true h (mkA (akind a) false (dims a) (dtype a) (dloc a) b).

(** memcpy of the elements of [src] into [a] *)
Definition copy_data (h : heap) (a src : arr) : outcome :=
  match ptr a, ptr src with
  | Some d, Some s =>
    match hmem h d, hmem h s with
    | Some ld, Some ls =>
      let n := Z.to_nat (total (dims a)) in
      if ((n <=? length ld) && (n <=? length ls))%nat then
        Fin true (mkH (hnext h) (upd (hmem h) d (Some (firstn n ls ++ skipn n ld)))
                      (halloc h) (hfreed h)) a
      else BadAccess
    | _, _ => BadAccess
    end
  | _, _ => BadAccess
  end.

Definition set_types (a src : arr) : arr :=
  mkA (akind a) (owns a) (dims a) (dtype src) (dloc src) (ptr a).

(** Assign: DataArray1D.h:225-275, DataArray2D.h:273-326 (which deallocates
    and allocates unconditionally), DataArray3D.h:299-359,
    DataArray4D.h:297-367, DataStruct.h:144-162.
    [src = None] is self-assignment: the source then denotes the current
    state of the object itself. *)
Definition assign (src : option arr) (h : heap) (a : arr) : outcome :=
  let da (x : arr) := match src with Some d => d | None => x end in
  if negb (is_attached (da a)) then
    if is_attached a then Fin false h a
    else Fin true h (mkA (akind a) (owns a)
                      (match akind a with KStruct => dims a | _ => dims (da a) end)
                      (dtype (da a)) (dloc (da a)) (ptr a))
  else
  bind (if is_attached a then Fin true h a
        else bind (allocate (dims (da a)) h a) (fun h1 a1 => Fin true h1 (set_types a1 (da a1))))
  (fun h1 a1 =>
  bind (if is_attached a1 && owns a1 && (match akind a1 with KStruct => false | _ => true end) then
          bind (if eq_dims (dims a1) (dims (da a1)) then Fin true h1 a1
                else bind (deallocate h1 a1) (fun h2 a2 => allocate (dims (da a2)) h2 a2))
          (fun h2 a2 =>
          bind (match akind a2 with
                | KArr2 => bind (deallocate h2 a2) (fun h3 a3 => allocate (dims (da a3)) h3 a3)
                | _ => Fin true h2 a2
                end)
          (fun h3 a3 => Fin true h3 (set_types a3 (da a3))))
        else Fin true h1 a1)
  (fun h2 a2 =>
  if negb (eq_dims (dims (da a2)) (dims a2)) then Fin false h2 a2
  else if negb (dtype (da a2) =? dtype a2) then Fin false h2 a2
  else if negb (dloc (da a2) =? dloc a2) then Fin false h2 a2
  else copy_data h2 a2 (da a2))).

(** ** A program: a set of named arrays and the operations on them *)
Record world := mkW { wh : heap; wobj : nat -> option arr; wonext : nat }.

Inductive op :=
| ONew (k : kind) (ds : list Z) (ty lc : Z) (alloc : bool)  (* sized constructor *)
| OCopy (o : nat)                                           (* copy constructor *)
| OAllocate (o : nat) (ds : list Z)
| OSetSize (o : nat) (ds : list Z)
| OAttach (o : nat) (b : option nat)
| ODetach (o : nat)
| ODeallocate (o : nat)
| OAssign (o s : nat)
| OZero (o : nat)
| ODestroy (o : nat)
| OExtNew (l : list V)     (* memory obtained outside the arrays *)
| OExtFree (b : nat).      (* released by its owner *)

Inductive wres := WOk (w : world) | WThrow (w : world) | WBadFree | WBadAccess | WSkip (w : world).

Definition on_obj (w : world) (o : nat) (f : heap -> arr -> outcome) : wres :=
  match wobj w o with
  | None => WSkip w
  | Some a =>
    match f (wh w) a with
    | Fin ok h a' =>
      let w' := mkW h (upd (wobj w) o (Some a')) (wonext w) in
      if ok then WOk w' else WThrow w'
    | BadFree => WBadFree
    | BadAccess => WBadAccess
    end
  end.

(** A constructor that throws leaves no object. *)
Definition on_new (w : world) (r : outcome) : wres :=
  match r with
  | Fin true h a => WOk (mkW h (upd (wobj w) (wonext w) (Some a)) (S (wonext w)))
  | Fin false h _ => WThrow (mkW h (wobj w) (wonext w))
  | BadFree => WBadFree
  | BadAccess => WBadAccess
  end.

(** Constructors: DataArray1D.h:38-77, DataArray2D.h:36-90,
    DataArray3D.h:37-106, DataArray4D.h:38-113, DataStruct.h:36-50 *)
Definition step (w : world) (x : op) : wres :=
  match x with
  | ONew k ds ty lc al =>
    let a := mkA k true ds ty lc None in
    on_new w (if al then allocate (map (fun _ => 0) ds) (wh w) a else Fin true (wh w) a)
  | OCopy o =>
    match wobj w o with
    | None => WSkip w
    | Some s =>
      on_new w (if is_attached s || (match akind s with KArr2 => false | _ => true end)
                then assign (Some s) (wh w) (mkA (akind s) true
                       (match akind s with KStruct => dims s | _ => map (fun _ => 0) (dims s) end) 0 0 None)
                else Fin true (wh w) (mkA (akind s) true (dims s) (dtype s) (dloc s) None))
    end
  | OAllocate o ds => on_obj w o (allocate ds)
  | OSetSize o ds => on_obj w o (set_size ds)
  | OAttach o b => on_obj w o (attach b)
  | ODetach o => on_obj w o detach
  | ODeallocate o => on_obj w o deallocate
  | OAssign o s =>
    match wobj w s with
    | None => WSkip w
    | Some d => on_obj w o (assign (if Nat.eqb o s then None else Some d))
    end
  | OZero o => on_obj w o set_zero
  | ODestroy o =>
    match wobj w o with
    | None => WSkip w
    | Some a =>
      match detach (wh w) a with
      | Fin _ h _ => WOk (mkW h (upd (wobj w) o None) (wonext w))
      | BadFree => WBadFree
      | BadAccess => WBadAccess
      end
    end
  | OExtNew l =>
    let h := wh w in
    WOk (mkW (mkH (S (hnext h)) (upd (hmem h) (hnext h) (Some l)) (halloc h) (hfreed h))
             (wobj w) (wonext w))
  | OExtFree b =>
    let h := wh w in
    if existsb (Nat.eqb b) (halloc h) then WSkip w
    else WOk (mkW (mkH (hnext h) (upd (hmem h) b None) (halloc h) (hfreed h))
                  (wobj w) (wonext w))
  end.

(** A program continues after a caught exception; it stops at undefined
    behaviour. *)
Fixpoint run (w : world) (xs : list op) : wres :=
  match xs with
  | [] => WOk w
  | x :: xs' =>
    match step w x with
    | WOk w' | WThrow w' | WSkip w' => run w' xs'
    | WBadFree => WBadFree
    | WBadAccess => WBadAccess
    end
  end.

Definition empty_world : world := mkW (mkH 0 (fun _ => None) [] []) (fun _ => None) 0.

End Arrays.

(** ** DataContainer *)

(** A registered chunk: its byte size and, when attached, its address
    (DataChunk.h). *)
Record chunk := mkC { csize : Z; cat : option Z }.
(** m_fOwnsData, m_pAllocatedMemory, m_vecDataChunks (DataContainer.h:98-113) *)
Record container := mkCont { cowns : bool; cptr : option Z; chunks : list chunk }.

Inductive cexn := CAttached | CMisaligned | CChunkAttached | CNoMemory.
Inductive cres (A : Type) := COk (a : A) | CThrow (e : cexn) (a : A).
Arguments COk {A} a.
Arguments CThrow {A} e a.

(** DataContainer::DataContainer, DataContainer.cpp:36-39 *)
Definition new_container : container := mkCont true None [].
(** PushDataChunk, DataContainer.h:44-48 *)
Definition push_chunk (c : container) (k : chunk) : container * Z :=
  (mkCont (cowns c) (cptr c) (chunks c ++ [k]), Z.of_nat (length (chunks c ++ [k])) - 1).
(** GetTotalByteSize, DataContainer.cpp:55-74 *)
Fixpoint total_bytes (acc : Z) (ks : list chunk) : option Z :=
  match ks with
  | [] => Some acc
  | k :: ks' => if Z.rem (csize k) 8 =? 0 then total_bytes (acc + csize k) ks' else None
  end.
(** A pointer value; address 0 is NULL. *)
Definition addr (p : Z) : option Z := if p =? 0 then None else Some p.
(** The assignment loops, DataContainer.cpp:103-115 and 138-148; the result
    carries the chunks in the state they are left in. *)
Fixpoint attach_chunks (p : Z) (ks : list chunk) : cres (list chunk) :=
  match ks with
  | [] => COk []
  | k :: ks' =>
    match cat k with
    | Some _ => CThrow CChunkAttached ks
    | None =>
      match attach_chunks (p + csize k) ks' with
      | COk r => COk (mkC (csize k) (addr p) :: r)
      | CThrow e r => CThrow e (mkC (csize k) (addr p) :: r)
      end
    end
  end.
(** Allocate, DataContainer.cpp:78-116; [base] is the address returned by
    malloc. *)
Definition c_allocate (base : Z) (c : container) : cres container :=
  match cptr c with
  | Some _ => CThrow CAttached c
  | None =>
    match total_bytes 0 (chunks c) with
    | None => CThrow CMisaligned c
    | Some _ =>
      if base =? 0 then CThrow CNoMemory c else
      match attach_chunks base (chunks c) with
      | COk r => COk (mkCont (cowns c) (Some base) r)
      | CThrow e r => CThrow e (mkCont (cowns c) (Some base) r)
      end
    end
  end.
(** AttachTo, DataContainer.cpp:126-149 *)
Definition c_attach (base : Z) (c : container) : cres container :=
  match cptr c with
  | Some _ => CThrow CAttached c
  | None =>
    match attach_chunks base (chunks c) with
    | COk r => COk (mkCont false (addr base) r)
    | CThrow e r => CThrow e (mkCont false (addr base) r)
    end
  end.
(** Detach, DataContainer.cpp:153-168; the second component is the address
    freed, if any. *)
Definition c_detach (c : container) : container * option Z :=
  (mkCont true None (map (fun k => mkC (csize k) None) (chunks c)),
   if cowns c then cptr c else None).
(** Destructor, DataContainer.cpp:43-51: the address freed *)
Definition c_destroy (c : container) : option Z :=
  if cowns c then cptr c else None.

(** A program using one container.  [live] are the addresses obtained from
    malloc by the container and not yet freed; malloc returns the address
    given in the operation.  Exceptions are caught by the caller. *)
Inductive cop := PPush (size : Z) | PAllocate (base : Z) | PAttach (base : Z) | PDetach.
Record cworld := mkCW { cw_c : container; cw_live : list Z }.
Definition c_free (x : option Z) (live : list Z) : option (list Z) :=
  match x with
  | None => Some live
  | Some p => if existsb (Z.eqb p) live then Some (remove Z.eq_dec p live) else None
  end.
Definition c_mallocs (base : Z) (c : container) : bool :=
  match cptr c, total_bytes 0 (chunks c) with
  | None, Some _ => negb (base =? 0)
  | _, _ => false
  end.
Definition cres_val {A} (r : cres A) : A := match r with COk a => a | CThrow _ a => a end.
(** [None]: memory not owned was freed. *)
Definition c_step (w : cworld) (x : cop) : option cworld :=
  let c := cw_c w in
  match x with
  | PPush n => Some (mkCW (fst (push_chunk c (mkC n None))) (cw_live w))
  | PAllocate b =>
    Some (mkCW (cres_val (c_allocate b c))
               (if c_mallocs b c then b :: cw_live w else cw_live w))
  | PAttach b => Some (mkCW (cres_val (c_attach b c)) (cw_live w))
  | PDetach =>
    let (c', f) := c_detach c in
    match c_free f (cw_live w) with Some l => Some (mkCW c' l) | None => None end
  end.
Fixpoint c_run (w : cworld) (xs : list cop) : option cworld :=
  match xs with
  | [] => Some w
  | x :: xs' => match c_step w x with Some w' => c_run w' xs' | None => None end
  end.
