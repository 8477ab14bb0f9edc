(** Model of the exchange buffers: src/atm/Connectivity.{h,cpp},
    GridPatch::PackExchangeBuffer / UnpackExchangeBuffer and the registration
    functions of Grid.cpp.  Buffers are counted in doubles after the
    two-double MessageHeader; index arithmetic is in Z (no overflow). *)
From Coq Require Import ZArith Bool List.
From Verif Require Import PanelModel LayoutModel.
Import ListNotations.
Local Open Scope Z_scope.

(** ExchangeBuffer, Connectivity.h:238-328 (m_id, local active index and
    m_fFlippedCoordinate are not used by packing). *)
Record exbuf := mkEx {
  x_src : Z; x_tgt : Z; x_dir : direction; x_opp : direction;
  x_sproc : Z; x_tproc : Z;
  x_halo : Z; x_comp : Z; x_maxR : Z; x_bsize : Z;
  x_first : Z; x_second : Z; x_rev : bool }.

(** sizeof(MessageHeader) = 16 bytes = 2 doubles *)
Definition header_bytes : Z := 16.
Definition header_doubles : Z := 2.
(** CalculateByteSize, GetMessageSize: Connectivity.h:159-175 *)
Definition byte_size (e : exbuf) : Z := x_bsize e * x_maxR e * x_halo e * x_comp e * 8.
Definition message_size (e : exbuf) : Z := byte_size e + header_bytes.

(** Ascending and descending loops over [a, b) *)
Definition up (a b : Z) : list Z := map (fun n => a + Z.of_nat n) (seq 0 (Z.to_nat (b - a))).
Definition down (a b : Z) : list Z := rev (up a b).
Definition outer_i (li lj : list Z) : list (Z * Z) := flat_map (fun i => map (fun j => (i, j)) lj) li.
Definition outer_j (lj li : list Z) : list (Z * Z) := flat_map (fun j => map (fun i => (i, j)) li) lj.

(** Order in which ExchangeBuffer::Pack visits the columns,
    Connectivity.cpp:77-413 *)
Definition pack_cells (e : exbuf) (sA sB : Z) : option (list (Z * Z)) :=
  let h := x_halo e in let f := x_first e in let s := x_second e in
  match x_dir e with
  | Right => (* :77-116 *)
    if x_rev e then Some (outer_i (up (sA - 2 * h) (sA - h)) (down f s))
    else Some (outer_i (up (sA - 2 * h) (sA - h)) (up f s))
  | Top => (* :119-158 *)
    if x_rev e then Some (outer_j (up (sB - 2 * h) (sB - h)) (down f s))
    else Some (outer_j (up (sB - 2 * h) (sB - h)) (up f s))
  | Left => (* :161-200 *)
    if x_rev e then Some (outer_i (down h (2 * h)) (down f s))
    else Some (outer_i (down h (2 * h)) (up f s))
  | Bottom => (* :203-242 *)
    if x_rev e then Some (outer_j (down h (2 * h)) (down f s))
    else Some (outer_j (down h (2 * h)) (up f s))
  | TopRight => (* :245-285 *)
    if x_rev e then Some (outer_i (up (f - h + 1) (f + 1)) (up (s - h + 1) (s + 1)))
    else Some (outer_j (up (s - h + 1) (s + 1)) (up (f - h + 1) (f + 1)))
  | TopLeft => (* :288-327 *)
    if x_rev e then Some (outer_i (down f (f + h)) (up (s - h + 1) (s + 1)))
    else Some (outer_j (up (s - h + 1) (s + 1)) (down f (f + h)))
  | BottomLeft => (* :330-369 *)
    if x_rev e then Some (outer_i (down f (f + h)) (down s (s + h)))
    else Some (outer_j (down s (s + h)) (down f (f + h)))
  | BottomRight => (* :372-411 *)
    if x_rev e then Some (outer_i (up (f - h + 1) (f + 1)) (down s (s + h)))
    else Some (outer_j (down s (s + h)) (up (f - h + 1) (f + 1)))
  | _ => None
  end.
(** nTotalValues of both Pack and Unpack *)
Definition total_values (e : exbuf) (sR : Z) : Z :=
  match x_dir e with
  | Right | Top | Left | Bottom => sR * x_halo e * (x_second e - x_first e)
  | _ => sR * x_halo e * x_halo e
  end.
(** Order in which ExchangeBuffer::Unpack visits the columns,
    Connectivity.cpp:479-701 *)
Definition unpack_cells (e : exbuf) (sA sB : Z) : option (list (Z * Z)) :=
  let h := x_halo e in let f := x_first e in let s := x_second e in
  match x_dir e with
  | Right => Some (outer_i (down (sA - h) sA) (up f s))                       (* :479-502 *)
  | Top => Some (outer_j (down (sB - h) sB) (up f s))                         (* :505-528 *)
  | Left => Some (outer_i (up 0 h) (up f s))                                  (* :531-554 *)
  | Bottom => Some (outer_j (up 0 h) (up f s))                                (* :557-580 *)
  | TopRight => Some (outer_j (down (s + 1) (s + h + 1)) (down (f + 1) (f + h + 1)))   (* :583-611 *)
  | TopLeft => Some (outer_j (down (s + 1) (s + h + 1)) (up (f - h) f))       (* :614-642 *)
  | BottomLeft => Some (outer_j (up (s - h) s) (up (f - h) f))                (* :645-671 *)
  | BottomRight => Some (outer_j (up (s - h) s) (down (f + 1) (f + h + 1)))   (* :674-700 *)
  | _ => None
  end.
(** The consistency check at the start of Pack, Connectivity.cpp:55-64 *)
Definition pack_check (e : exbuf) (sA sB : Z) : bool :=
  match x_dir e with
  | Right | Left => x_second e <=? sB
  | Top | Bottom => x_second e <=? sA
  | _ => true
  end.

Section Data.
Context {V : Type}.
(** A DataArray3D, addressed by (alpha, beta, level) *)
Definition arr3 : Type := Z -> Z -> Z -> V.

(** All (alpha, beta, level) triples of a list of columns *)
Definition places (cells : list (Z * Z)) (sR : Z) : list (Z * Z * Z) :=
  flat_map (fun c => map (fun k => (c, k)) (up 0 sR)) cells.

(** ExchangeBuffer::Pack(DataArray3D): [sent] are the values written so far
    after the header (m_ixSendBuffer = 2 + length), [rows] the size of the
    send buffer in doubles; [None] is an exception. *)
Definition pack3 (e : exbuf) (rows sA sB sR : Z) (a : arr3) (sent : list V) : option (list V) :=
  if negb (pack_check e sA sB) then None else
  match pack_cells e sA sB with
  | None => None
  | Some cells =>
    if rows <? header_doubles + Z.of_nat (length sent) + total_values e sR then None
    else Some (sent ++ map (fun p => a (fst (fst p)) (snd (fst p)) (snd p)) (places cells sR))
  end.

(** Store values one after another at the given places; [None] when the
    values run out (a read beyond the message). *)
Definition store (a : arr3) (p : Z * Z * Z) (v : V) : arr3 :=
  fun i j k => if (i =? fst (fst p)) && (j =? snd (fst p)) && (k =? snd p) then v else a i j k.
Fixpoint write_all (ps : list (Z * Z * Z)) (vs : list V) (a : arr3) : option (arr3 * list V) :=
  match ps with
  | [] => Some (a, vs)
  | p :: ps' => match vs with [] => None | v :: vs' => write_all ps' vs' (store a p v) end
  end.
Inductive unpacked := UThrow | UOverread | UOk (a : arr3) (rest : list V) (pos : Z).
(** ExchangeBuffer::Unpack(DataArray3D): [rest] are the values of the message
    from position [pos] on, [rows] the size of the receive buffer as seen by
    the bound check. *)
Definition unpack3 (e : exbuf) (rows sA sB sR : Z) (a : arr3) (rest : list V) (pos : Z) : unpacked :=
  match unpack_cells e sA sB with
  | None => UThrow
  | Some cells =>
    if rows <? pos + total_values e sR then UThrow
    else match write_all (places cells sR) rest a with
         | None => UOverread
         | Some (a', rest') => UOk a' rest' (pos + total_values e sR)
         end
  end.

(** The Pack(DataArray3D) calls of one PackExchangeBuffer, in order, each with
    its number of levels *)
Fixpoint pack_all (e : exbuf) (rows sA sB : Z) (items : list (Z * arr3)) (sent : list V) : option (list V) :=
  match items with
  | [] => Some sent
  | (sR, a) :: items' =>
    match pack3 e rows sA sB sR a sent with
    | None => None
    | Some sent' => pack_all e rows sA sB items' sent'
    end
  end.
Inductive unpacked_all := AThrow | AOverread | AOk (items : list (Z * arr3)) (rest : list V) (pos : Z).
Fixpoint unpack_all (e : exbuf) (rows sA sB : Z) (items : list (Z * arr3)) (rest : list V) (pos : Z) : unpacked_all :=
  match items with
  | [] => AOk [] rest pos
  | (sR, a) :: items' =>
    match unpack3 e rows sA sB sR a rest pos with
    | UThrow => AThrow
    | UOverread => AOverread
    | UOk a' rest' pos' =>
      match unpack_all e rows sA sB items' rest' pos' with
      | AOk items'' rest'' pos'' => AOk ((sR, a') :: items'') rest'' pos''
      | r => r
      end
    end
  end.
(** Unpack loop of Grid::Exchange, Grid.cpp:666-686, for one array filled
    from several buffers, each with its own message. *)
Fixpoint unpack_seq (sA sB sR : Z) (l : list (exbuf * list V)) (a : arr3) : option arr3 :=
  match l with
  | [] => Some a
  | (e, vals) :: l' =>
    match unpack3 e (message_size e) sA sB sR a vals header_doubles with
    | UOk a' _ _ => unpack_seq sA sB sR l' a'
    | _ => None
    end
  end.
End Data.
Arguments arr3 : clear implicits.

(** Variables packed for each data type: Pack(Grid, DataArray4D),
    Connectivity.cpp:422-457, and PackExchangeBuffer, GridPatch.cpp:1292-1343.
    [loc c] is the location of state variable [c]. *)
Inductive location := LNode | LAEdge | LBEdge | LREdge | LNone.
Definition loc_eqb (a b : location) : bool :=
  match a, b with
  | LNode, LNode | LAEdge, LAEdge | LBEdge, LBEdge | LREdge, LREdge | LNone, LNone => true
  | _, _ => false
  end.
Inductive data_type := TState | TTracers | TVorticity | TDivergence | TTemperature | TRichardson | TTopographyDeriv.
(** (component, levels) in packing order, for [nR] radial elements *)
Definition packed_vars (t : data_type) (nC nT nR : Z) (loc : Z -> location) : list (Z * Z) :=
  match t with
  | TState =>
      map (fun c => (c, nR)) (filter (fun c => loc_eqb (loc c) LNode) (up 0 nC)) ++
      map (fun c => (c, nR + 1)) (filter (fun c => loc_eqb (loc c) LREdge) (up 0 nC))
  | TTracers => map (fun c => (c, nR)) (up 0 nT)
  | TTopographyDeriv => [(0, 2)]
  | _ => [(0, nR)]
  end.

(** Grid::RegisterExchangeBuffer(source, target, dir, first, second),
    Grid.cpp:1119-1252: the buffer registered, [None] for an exception.
    [opp]: result of GetOpposingDirection (direction, reverse, flipped). *)
Definition register (boxS : box) (src tgt : Z) (sproc tproc : Z) (dir : direction)
  (opp : option (direction * bool * bool)) (first second halo nC nT nR : Z) : option exbuf :=
  match opp with
  | None => None
  | Some (o, r, _) =>
    let bs := match dir with Right | Top | Left | Bottom => second - first | _ => halo end in
    let a0 := a_loc_begin boxS in let a1 := a_loc_end boxS in
    let b0 := bhalo boxS in let b1 := bB1 boxS - bB0 boxS - bhalo boxS in
    let bad :=
      match dir with
      | TopRight => (first <? a0 + bs - 1) || (second <? b0 + bs - 1)
      | TopLeft => (a1 - bs <? first) || (second <? b0 + bs - 1)
      | BottomLeft => (a1 - bs <? first) || (b1 - bs <? second)
      | BottomRight => (first <? a0 + bs - 1) || (b1 - bs <? second)
      | _ => false
      end in
    if bad then None else
    Some (mkEx src tgt dir o sproc tproc halo (if nT <? nC then nC else nT) (nR + 1) bs first second r)
  end.
(** RegisterExchangeBuffer(source, target, dir), Grid.cpp:1067-1114: the
    whole side, or the corner node. *)
Definition whole_side (b : box) (dir : direction) : option (Z * Z) :=
  let a0 := a_loc_begin b in let a1 := a_loc_end b in
  let b0 := bhalo b in let b1 := bB1 b - bB0 b - bhalo b in
  match dir with
  | Right | Left => Some (b0, b1)
  | Top | Bottom => Some (a0, a1)
  | TopRight => Some (a1 - 1, b1 - 1)
  | TopLeft => Some (a0, b1 - 1)
  | BottomLeft => Some (a0, b0)
  | BottomRight => Some (a1 - 1, b0)
  | _ => None
  end.

(** ** ExchangeBufferRegistry *)
(** MessageHeader without its constant first word: (first patch, second
    patch, direction), Connectivity.h:76-126; GetSendMessageHeader and
    GetRecvMessageHeader, Connectivity.h:180-201 *)
Definition header : Type := Z * Z * direction.
Definition send_header (e : exbuf) : header := (x_src e, x_tgt e, x_opp e).
Definition recv_header (e : exbuf) : header := (x_tgt e, x_src e, x_dir e).
Definition dir_index (d : direction) : Z :=
  match d with Unreachable => -2 | Middle => -1 | Right => 0 | Top => 1 | Left => 2 | Bottom => 3
  | TopRight => 4 | TopLeft => 5 | BottomLeft => 6 | BottomRight => 7 end.
Definition header_eqb (a b : header) : bool :=
  let '(a1, a2, a3) := a in let '(b1, b2, b3) := b in
  (a1 =? b1) && (a2 =? b2) && (dir_index a3 =? dir_index b3).

(** mapProcessorToBufferSize, a std::map ordered by processor,
    Connectivity.cpp:805-834 *)
Fixpoint map_add (p n : Z) (m : list (Z * Z)) : list (Z * Z) :=
  match m with
  | [] => [(p, n)]
  | (q, k) :: m' => if p <? q then (p, n) :: m else if p =? q then (q, k + n) :: m' else (q, k) :: map_add p n m'
  end.
Definition proc_sizes (regs : list exbuf) : list (Z * Z) :=
  fold_left (fun m e => map_add (x_tproc e) (message_size e) m) regs [].
(** Send buffer positions, Connectivity.cpp:887-918: the loop keeps the next
    free byte of each processor's buffer. *)
Fixpoint send_positions (regs : list exbuf) (next : Z -> Z) : list Z :=
  match regs with
  | [] => []
  | e :: regs' =>
    next (x_tproc e) ::
    send_positions regs' (fun q => if q =? x_tproc e then next q + message_size e else next q)
  end.
(** ExchangeBufferRegistry::Allocate, Connectivity.cpp:797-924: processors
    with buffer sizes, and for each registered buffer the offset of its send
    area; [None] for the exceptions. *)
Definition allocate (procs_before : nat) (regs : list exbuf) : option (list (Z * Z) * list Z) :=
  if negb (Nat.eqb procs_before 0) then None else
  if existsb (fun e => x_tproc e =? -1) regs then None else
  if existsb (fun e => negb (message_size e mod 8 =? 0)) regs then None else
  Some (proc_sizes regs, send_positions regs (fun _ => 0)).
(** m_vecRegistryByProcessor, Connectivity.cpp:863-884 *)
Definition by_proc (regs : list exbuf) (p : Z) : list exbuf := filter (fun e => x_tproc e =? p) regs.

(** A message is a sequence of blocks (header, size in bytes).  Headers are
    read at byte positions; between blocks there is no header ([None]). *)
Fixpoint header_at (msg : list (header * Z)) (pos : Z) : option header :=
  match msg with
  | [] => None
  | (h, n) :: msg' => if pos =? 0 then Some h else header_at msg' (pos - n)
  end.
(** First buffer with the given receive header, Connectivity.cpp:1020-1045 *)
Fixpoint find_buf (b : nat) (bufs : list exbuf) (h : header) : option (nat * exbuf) :=
  match bufs with
  | [] => None
  | e :: bufs' => if header_eqb (recv_header e) h then Some (b, e) else find_buf (S b) bufs' h
  end.
Inductive attach_res :=
| TThrow                          (* exception *)
| TGarbage                        (* a header read at a position that is no block *)
| TOk (at_ : list (nat * Z)).     (* (buffer, byte offset) in message order *)
(** AttachRecvBuffers, Connectivity.cpp:997-1057.  [total] is the size of the
    receive buffer; the loop advances by at least the header size, so [fuel]
    above total suffices. *)
Fixpoint attach_loop (fuel : nat) (bufs : list exbuf) (msg : list (header * Z)) (total pos : Z)
  (acc : list (nat * Z)) : attach_res :=
  match fuel with
  | O => TGarbage
  | S fuel' =>
    match header_at msg pos with
    | None => TGarbage
    | Some h =>
      match find_buf 0 bufs h with
      | None => TThrow
      | Some (b, e) =>
        let pos' := pos + message_size e in
        let acc' := acc ++ [(b, pos)] in
        if total <? pos' then TThrow
        else if pos' =? total then
          if Nat.eqb (length acc') (length bufs) then TOk acc' else TThrow
        else attach_loop fuel' bufs msg total pos' acc'
      end
    end
  end.
Definition attach (bufs : list exbuf) (msg : list (header * Z)) (total : Z) : attach_res :=
  attach_loop (S (Z.to_nat total)) bufs msg total 0 [].
(** Message sent to processor [p]: the send areas of the buffers for [p] in
    registration order (Send, Connectivity.cpp:963-993). *)
Definition message_to (regs : list exbuf) (p : Z) : list (header * Z) :=
  map (fun e => (send_header e, message_size e)) (by_proc regs p).
