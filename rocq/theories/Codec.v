(** Byte-level model of the posting-list format.  Model file: no proofs.
    Bytes are N below 256; a position is the byte address modulo the page/tuple start,
    which PostgreSQL keeps MAXALIGNed (8). *)
From Verif Require Import Base.
Local Open Scope N_scope.

Definition byte := N.

(** rum_ts_utils.c:31 / rum.h HIGHBIT, SEVENTHBIT, SIXMASK (rum.h:904-905). *)
Definition HIGHBIT : N := 0x80.
Definition SEVENTHBIT : N := 0x40.
Definition SIXMASK : N := 0x3F.
(** rum.h ALT_ADD_INFO_NULL_FLAG (rum.h:337). *)
Definition ALT_ADD_INFO_NULL_FLAG : N := 0x8000.

(** Conversion to char when a value is stored through [char *]. *)
Definition to_byte (v : N) : byte := N.land v 0xFF.

(** Block-increment loop of rumDataPageLeafWriteItemPointer (rumdatapage.c:189-197).
    [fuel] is always sufficient when started by [wr_block] (proved in CodecProof). *)
Fixpoint wr_block_loop (fuel : nat) (v : N) : list byte :=
  match fuel with
  | O => []
  | S f =>
      let b := to_byte (N.lor (N.ldiff v HIGHBIT) (if HIGHBIT <=? v then HIGHBIT else 0)) in
      if v <? HIGHBIT then [b] else b :: wr_block_loop f (N.shiftr v 7)
  end.
Definition wr_block (v : N) : list byte := wr_block_loop (S (N.size_nat v)) v.

(** Offset loop of rumDataPageLeafWriteItemPointer (rumdatapage.c:199-213). *)
Fixpoint wr_off_loop (fuel : nat) (o : N) (isnull : bool) : list byte :=
  match fuel with
  | O => []
  | S f =>
      if SEVENTHBIT <=? o
      then to_byte (N.lor (N.ldiff o HIGHBIT) HIGHBIT) :: wr_off_loop f (N.shiftr o 7) isnull
      else [to_byte (N.lor o (if isnull then SEVENTHBIT else 0))]
  end.
Definition wr_off (o : N) (isnull : bool) : list byte := wr_off_loop (S (N.size_nat o)) o isnull.

(** uint32 subtraction / addition (rumdatapage.c:185-186, rum.h:935). *)
Definition sub32 (a b : N) : N := (a + (2 ^ 32 - b mod 2 ^ 32)) mod 2 ^ 32.
Definition add32 (a b : N) : N := (a + b) mod 2 ^ 32.

(** memcpy of a fixed-width integer, little endian. *)
Fixpoint le_bytes (n : nat) (v : N) : list byte :=
  match n with
  | O => []
  | S n' => N.land v 0xFF :: le_bytes n' (N.shiftr v 8)
  end.
Fixpoint le_read (bs : list byte) : N :=
  match bs with
  | [] => 0
  | b :: r => N.lor b (N.shiftl (le_read r) 8)
  end.

(** rumDataPageLeafWriteItemPointer (rumdatapage.c:168-222).  In the alternative layout
    the 6 bytes bi_hi, bi_lo, ip_posid are copied with the NULL flag in ip_posid. *)
Definition rumDataPageLeafWriteItemPointer (alt : bool) (p prev : iptr) (isnull : bool)
  : list byte :=
  if alt then
    le_bytes 2 (N.shiftr (blk p) 16) ++ le_bytes 2 (N.land (blk p) 0xFFFF) ++
    le_bytes 2 (if isnull then N.lor (off p) ALT_ADD_INFO_NULL_FLAG else off p)
  else wr_block (sub32 (blk p) (blk prev)) ++ wr_off (off p) isnull.

(** Take the next byte; running out of bytes (reading past the buffer) is [None]. *)
Definition next_byte (bs : list byte) : option (byte * list byte) :=
  match bs with [] => None | b :: r => Some (b, r) end.

(** Block loop of rumDataPageLeafReadItemPointer (rum.h:921-930).  [None]: the buffer
    ends, or the shift count / value exceeds what the Assert on line 917 allows (shift
    beyond 31 bits is undefined behaviour in C). *)
Fixpoint rd_block_loop (bs : list byte) (i acc : N) : option (N * list byte) :=
  match bs with
  | [] => None
  | v :: r =>
      let x := N.ldiff v HIGHBIT in
      if (i <? 28) || ((i =? 28) && (x <? 16)) then
        let acc' := N.lor acc (N.shiftl x i) in
        if N.land v HIGHBIT =? 0 then Some (acc', r) else rd_block_loop r (i + 7) acc'
      else None
  end.

(** Offset loop of rumDataPageLeafReadItemPointer (rum.h:940-960). *)
Fixpoint rd_off_loop (bs : list byte) (i acc : N) : option (N * bool * list byte) :=
  match bs with
  | [] => None
  | v :: r =>
      if (i <? 14) || ((i =? 14) && (N.land v SIXMASK <? 4)) then
        if N.land v HIGHBIT =? 0
        then Some (N.lor acc (N.shiftl (N.land v SIXMASK) i),
                   negb (N.land v SEVENTHBIT =? 0), r)
        else rd_off_loop r (i + 7) (N.lor acc (N.shiftl (N.ldiff v HIGHBIT) i))
      else None
  end.

(** rumDataPageLeafReadItemPointer (rum.h:913-966). *)
Definition rumDataPageLeafReadItemPointer (bs : list byte) (prev : iptr)
  : option (iptr * bool * list byte) :=
  match rd_block_loop bs 0 0 with
  | None => None
  | Some (incr, r) =>
      match rd_off_loop r 0 0 with
      | None => None
      | Some (o, isnull, r') => Some (mkIp (add32 incr (blk prev)) o, isnull, r')
      end
  end.

(** The alternative-layout branch of rumDataPageLeafRead (rum.h:983-996). *)
Definition read_alt_pointer (bs : list byte) : option (iptr * bool * list byte) :=
  match bs with
  | h0 :: h1 :: l0 :: l1 :: o0 :: o1 :: r =>
      let hi := le_read [h0; h1] in
      let lo := le_read [l0; l1] in
      let o := le_read [o0; o1] in
      let b := N.lor (N.shiftl hi 16) lo in
      if N.land o ALT_ADD_INFO_NULL_FLAG =? 0 then Some (mkIp b o, false, r)
      else Some (mkIp b (N.ldiff o ALT_ADD_INFO_NULL_FLAG), true, r)
  | _ => None
  end.

(** Description of the attached column's type: pg_attribute's attbyval, attlen, attalign,
    attstorage (used at rumdatapage.c:235-243).  attlen = -2 (cstring) is not modelled:
    no table column can have that type. *)
Inductive attr :=
| AByVal (len : nat)               (* attbyval, attlen in {1,2,4,8} *)
| AFixed (len : nat) (align : N)   (* by reference, attlen > 0 *)
| AVar (align : N) (packable : bool). (* attlen = -1; packable = (attstorage <> 'p') *)

(** In-memory datum.  A varlena is given by its header form and payload:
    1-byte header, 4-byte uncompressed, 4-byte compressed, external TOAST pointer. *)
Inductive vform := V1 | V4U | V4C | VExt.
Inductive datum :=
| DVal (v : N)
| DFix (bs : list byte)
| DVar (f : vform) (payload : list byte).

Definition nlen {A} (l : list A) : N := N.of_nat (length l).

(** att_align_nominal: round up to a power-of-two alignment. *)
Definition align_to (a pos : N) : N := (pos + (a - 1)) / a * a.

(** VARATT_CAN_MAKE_SHORT: 4B uncompressed and VARSIZE - 4 + 1 <= 0x7F. *)
Definition can_make_short (d : datum) : bool :=
  match d with DVar V4U p => nlen p + 1 <=? 0x7F | _ => false end.

(** Total size of a varlena: VARSIZE_ANY. *)
Definition varsize (f : vform) (p : list byte) : N :=
  match f with V1 => nlen p + 1 | _ => nlen p + 4 end.

(** rumComputeDatumSize (rumdatapage.c:29-56).  Returns the new length. *)
Definition rumComputeDatumSize (len : N) (a : attr) (d : datum) : N :=
  match a, d with
  | AByVal n, _ => len + N.of_nat n
  | AFixed n al, _ => align_to al len + N.of_nat n
  | AVar al pk, DVar f p =>
      if pk && can_make_short d then len + (nlen p + 1)
      else match f with
           | V1 => len + varsize f p                     (* att_align_datum: short, no align *)
           | _ => align_to al len + varsize f p
           end
  | AVar _ _, _ => len (* ill-typed datum, excluded by datum_ok *)
  end.

Definition zeros (n : N) : list byte := repeat 0 (N.to_nat n).

(** rumDatumWrite (rumdatapage.c:64-157) at address [pos]; [None] = elog(ERROR). *)
Definition rumDatumWrite (pos : N) (a : attr) (d : datum) : option (list byte) :=
  match a, d with
  | AByVal n, DVal v =>
      if existsb (Nat.eqb n) [1; 2; 4; 8]%nat then Some (le_bytes n v) else None
  | AFixed n al, DFix bs => Some (zeros (align_to al pos - pos) ++ bs)
  | AVar al pk, DVar f p =>
      match f with
      | VExt => None
      | V1 => Some (to_byte (N.lor (N.shiftl (nlen p + 1) 1) 1) :: p)
      | V4U =>
          if pk && can_make_short d
          then Some (to_byte (N.lor (N.shiftl (nlen p + 1) 1) 1) :: p)
          else Some (zeros (align_to al pos - pos) ++ le_bytes 4 (N.shiftl (nlen p + 4) 2) ++ p)
      | V4C => Some (zeros (align_to al pos - pos) ++
                     le_bytes 4 (N.lor (N.shiftl (nlen p + 4) 2) 2) ++ p)
      end
  | _, _ => None
  end.

(** firstn/skipn that fail when the buffer is too short. *)
Definition take (n : nat) (bs : list byte) : option (list byte * list byte) :=
  if (n <=? length bs)%nat then Some (firstn n bs, skipn n bs) else None.

(** The datum part of rumDataPageLeafRead (rum.h:1006-1053): att_align_pointer skips
    padding for by-reference types; a varlena whose first byte is not zero is not aligned. *)
Definition rumDatumRead (pos : N) (a : attr) (bs : list byte) : option (datum * N * list byte) :=
  match a with
  | AByVal n =>
      match take n bs with
      | Some (v, r) => Some (DVal (le_read v), pos + N.of_nat n, r)
      | None => None
      end
  | AFixed n al =>
      match take (N.to_nat (align_to al pos - pos)) bs with
      | Some (_, r) =>
          match take n r with
          | Some (v, r') => Some (DFix v, align_to al pos + N.of_nat n, r')
          | None => None
          end
      | None => None
      end
  | AVar al _ =>
      let start :=
        match bs with
        | [] => None
        | b :: _ =>
            if b =? 0
            then match take (N.to_nat (align_to al pos - pos)) bs with
                 | Some (_, r) => Some (align_to al pos, r)
                 | None => None
                 end
            else Some (pos, bs)
        end in
      match start with
      | None => None
      | Some (pos', r) =>
          match r with
          | [] => None
          | h :: r1 =>
              if N.land h 1 =? 1 then
                if h =? 1 then None   (* external TOAST pointer: never stored *)
                else
                  let total := N.shiftr h 1 in
                  match take (N.to_nat (total - 1)) r1 with
                  | Some (p, r2) => Some (DVar V1 p, pos' + total, r2)
                  | None => None
                  end
              else
                match take 4 r with
                | Some (hd, r2) =>
                    let total := N.shiftr (le_read hd) 2 in
                    if total <? 4 then None else
                    match take (N.to_nat (total - 4)) r2 with
                    | Some (p, r3) =>
                        Some (DVar (if N.land h 3 =? 2 then V4C else V4U) p, pos' + total, r3)
                    | None => None
                    end
                | None => None
                end
          end
      end
  end.

(** rumPlaceToDataPageLeaf (rumdatapage.c:227-245) at address [pos]. *)
Definition rumPlaceToDataPageLeaf (alt : bool) (a : attr) (pos : N) (it : item datum) (prev : iptr)
  : option (list byte) :=
  let w := rumDataPageLeafWriteItemPointer alt (ip it) prev
             (match add it with None => true | _ => false end) in
  match add it with
  | None => Some w
  | Some d =>
      match rumDatumWrite (pos + nlen w) a d with
      | Some wd => Some (w ++ wd)
      | None => None
      end
  end.

(** rumDataPageLeafRead (rum.h:977-1056). Returns item, new address, rest of the buffer. *)
Definition rumDataPageLeafRead (alt : bool) (a : attr) (pos : N) (bs : list byte) (prev : iptr)
  : option (item datum * N * list byte) :=
  match (if alt then read_alt_pointer bs else rumDataPageLeafReadItemPointer bs prev) with
  | None => None
  | Some (p, isnull, r) =>
      let pos' := pos + (nlen bs - nlen r) in
      if isnull then Some (mkItem p None, pos', r)
      else match rumDatumRead pos' a r with
           | Some (d, pos'', r') => Some (mkItem p (Some d), pos'', r')
           | None => None
           end
  end.

(** Size loops of rumDataPageLeafGetItemPointerSize (rumdatapage.c:252-280). *)
Fixpoint sz_block_loop (fuel : nat) (v : N) : N :=
  match fuel with
  | O => 0
  | S f => if v <? HIGHBIT then 1 else 1 + sz_block_loop f (N.shiftr v 7)
  end.
Fixpoint sz_off_loop (fuel : nat) (o : N) : N :=
  match fuel with
  | O => 0
  | S f => if o <? SEVENTHBIT then 1 else 1 + sz_off_loop f (N.shiftr o 7)
  end.
Definition rumDataPageLeafGetItemPointerSize (p prev : iptr) : N :=
  let d := sub32 (blk p) (blk prev) in
  sz_block_loop (S (N.size_nat d)) d + sz_off_loop (S (N.size_nat (off p))) (off p).

(** rumCheckPlaceToDataPageLeaf (rumdatapage.c:284-305). *)
Definition rumCheckPlaceToDataPageLeaf (alt : bool) (a : attr) (it : item datum) (prev : iptr)
  (size : N) : N :=
  let size1 := if alt then size + 6 else size + rumDataPageLeafGetItemPointerSize (ip it) prev in
  match add it with
  | None => size1
  | Some d => rumComputeDatumSize size1 a d
  end.

(** Writing a whole posting list: the loops of RumFormTuple (ruminsert.c:219-231) and
    createPostingTree (ruminsert.c:80-88), started at address [pos]. *)
Fixpoint writePostingList (alt : bool) (a : attr) (pos : N) (its : list (item datum)) (prev : iptr)
  : option (list byte) :=
  match its with
  | [] => Some []
  | it :: rest =>
      match rumPlaceToDataPageLeaf alt a pos it prev with
      | None => None
      | Some w =>
          match writePostingList alt a (pos + nlen w) rest (ip it) with
          | None => None
          | Some ws => Some (w ++ ws)
          end
      end
  end.

(** Reading [n] items back: rumReadTuple (rumentrypage.c:22-37). *)
Fixpoint rumReadTuple (alt : bool) (a : attr) (n : nat) (pos : N) (bs : list byte) (prev : iptr)
  : option (list (item datum)) :=
  match n with
  | O => Some []
  | S n' =>
      match rumDataPageLeafRead alt a pos bs prev with
      | None => None
      | Some (it, pos', r) =>
          match rumReadTuple alt a n' pos' r (ip it) with
          | None => None
          | Some its => Some (it :: its)
          end
      end
  end.

(** Size of a posting list: the loop of RumFormTuple (ruminsert.c:168-180). *)
Fixpoint postingListSize (alt : bool) (a : attr) (its : list (item datum)) (prev : iptr) (size : N)
  : N :=
  match its with
  | [] => size
  | it :: rest =>
      postingListSize alt a rest (ip it) (rumCheckPlaceToDataPageLeaf alt a it prev size)
  end.

(** rumDataPageLeafReadPointer (rum.h:1063-1103): like rumDataPageLeafRead but skips the
    attached value. *)
Definition rumDatumSkip (pos : N) (a : attr) (bs : list byte) : option (N * list byte) :=
  match rumDatumRead pos a bs with
  | Some (_, pos', r) => Some (pos', r)
  | None => None
  end.

(** dataIsEnoughSpace, leaf branch (rumdatapage.c:790-810). *)
Definition dataIsEnoughSpaceLeaf (alt : bool) (a : attr) (it : item datum) (freespace : N) : bool :=
  rumCheckPlaceToDataPageLeaf alt a it ip_min 0 + 8 <=? freespace.
