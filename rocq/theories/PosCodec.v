(** Compressed word positions (the attached value of rum_tsvector_ops).  Model file: no proofs.
    A WordEntryPos is a 16-bit number: 2 bits of weight above 14 bits of position. *)
From Verif Require Import Base Codec.
Local Open Scope N_scope.

(** WEP_GETPOS, WEP_GETWEIGHT, WEP_SETWEIGHT (PostgreSQL tsearch/ts_type.h, used throughout
    rum_ts_utils.c). *)
Definition WEP_GETPOS (p : N) : N := N.land p 0x3FFF.
Definition WEP_GETWEIGHT (p : N) : N := N.shiftr p 14.
Definition WEP_SETWEIGHT (p w : N) : N := N.lor (N.shiftl w 14) (N.land p 0x3FFF).

(** SIXTHBIT (rum_ts_utils.c:964), LOWERMASK (rum.h:857). *)
Definition SIXTHBIT : N := 0x20.
Definition LOWERMASK : N := 0x1F.

(** uint16 subtraction (rum_ts_utils.c:978). *)
Definition sub16 (a b : N) : N := (a + (2 ^ 16 - b mod 2 ^ 16)) mod 2 ^ 16.

(** while loop of compress_pos (rum_ts_utils.c:980-995). *)
Fixpoint compress_one (fuel : nat) (delta w : N) : list byte :=
  match fuel with
  | O => []
  | S f =>
      if SIXTHBIT <=? delta
      then to_byte (N.lor (N.ldiff delta HIGHBIT) HIGHBIT) :: compress_one f (N.shiftr delta 7) w
      else [to_byte (N.lor delta (N.shiftl w 5))]
  end.
(** compress_pos (rum_ts_utils.c:966-997). *)
Fixpoint compress_loop (prev : N) (pos : list N) : list byte :=
  match pos with
  | [] => []
  | p :: r =>
      let delta := sub16 (WEP_GETPOS p) (WEP_GETPOS prev) in
      compress_one (S (N.size_nat delta)) delta (WEP_GETWEIGHT p) ++ compress_loop p r
  end.
Definition compress_pos (pos : list N) : list byte := compress_loop 0 pos.

(** decompress_pos (rum_ts_utils.c:999-1024).  [None]: the buffer ends, or the shift exceeds the
    width of int (undefined behaviour). *)
Fixpoint decompress_loop (bs : list byte) (i delta pos : N) : option (N * list byte) :=
  match bs with
  | [] => None
  | v :: r =>
      if i <? 25 then
        if N.land v HIGHBIT =? 0 then
          let delta' := N.land (N.lor delta (N.shiftl (N.land v LOWERMASK) i)) 0xFFFF in
          let pos' := (pos + delta') mod 2 ^ 16 in
          Some (WEP_SETWEIGHT pos' (N.shiftr v 5), r)
        else
          decompress_loop r (i + 7) (N.land (N.lor delta (N.shiftl (N.ldiff v HIGHBIT) i)) 0xFFFF) pos
      else None
  end.
Definition decompress_pos (bs : list byte) (pos : N) : option (N * list byte) := decompress_loop bs 0 0 pos.

(** count_pos (rum_ts_utils.c:1027-1040). *)
Definition count_pos (bs : list byte) : nat :=
  length (filter (fun b => N.land b HIGHBIT =? 0) bs).

(** The readers: count_pos, then that many decompress_pos starting from 0
    (rum_ts_utils.c:294-311, 1640-1661). *)
Fixpoint decompress_n (n : nat) (bs : list byte) (pos : N) : option (list N) :=
  match n with
  | O => Some []
  | S n' =>
      match decompress_pos bs pos with
      | None => None
      | Some (p, r) => match decompress_n n' r p with Some l => Some (p :: l) | None => None end
      end
  end.
Definition read_positions (bs : list byte) : option (list N) := decompress_n (count_pos bs) bs 0.

(** State of rum_ts_join_pos (rum_ts_utils.c:2269-2289): unread bytes, current position and
    number of positions consumed, per input. *)
Record jside := mkJ { j_in : list byte; j_pos : N; j_i : nat }.

(** Advance one input when more positions remain (rum_ts_utils.c:2299 and the like). *)
Definition jnext (s : jside) : option jside :=
  match decompress_pos (j_in s) (j_pos s) with
  | Some (p, r) => Some (mkJ r p (S (j_i s)))
  | None => None
  end.
Definition jstop (s : jside) : jside := mkJ (j_in s) (j_pos s) (S (j_i s)).

(** The first for(;;) of rum_ts_join_pos (rum_ts_utils.c:2291-2322). *)
Fixpoint join_loop (fuel c1 c2 : nat) (s1 s2 : jside) (out : list N)
  : option (jside * jside * list N) :=
  match fuel with
  | O => None
  | S f =>
      let p1 := WEP_GETPOS (j_pos s1) in
      let p2 := WEP_GETPOS (j_pos s2) in
      if p2 <? p1 then
        let out := out ++ [j_pos s2] in
        if (c2 <=? S (j_i s2))%nat then Some (s1, jstop s2, out)
        else match jnext s2 with Some s2' => join_loop f c1 c2 s1 s2' out | None => None end
      else if p1 <? p2 then
        let out := out ++ [j_pos s1] in
        if (c1 <=? S (j_i s1))%nat then Some (jstop s1, s2, out)
        else match jnext s1 with Some s1' => join_loop f c1 c2 s1' s2 out | None => None end
      else
        let out := out ++ [j_pos s1] in
        match (if (S (j_i s1) <? c1)%nat then jnext s1 else Some (jstop s1)),
              (if (S (j_i s2) <? c2)%nat then jnext s2 else Some (jstop s2)) with
        | Some s1', Some s2' =>
            if (c2 <=? j_i s2')%nat || (c1 <=? j_i s1')%nat then Some (s1', s2', out)
            else join_loop f c1 c2 s1' s2' out
        | _, _ => None
        end
  end.
(** The draining loops (rum_ts_utils.c:2324-2343). *)
Fixpoint drain (fuel c : nat) (s : jside) (out : list N) : option (list N) :=
  match fuel with
  | O => None
  | S f =>
      let out := out ++ [j_pos s] in
      if (c <=? S (j_i s))%nat then Some out
      else match jnext s with Some s' => drain f c s' out | None => None end
  end.
(** rum_ts_join_pos (rum_ts_utils.c:2266-2358). *)
Definition rum_ts_join_pos (in1 in2 : list byte) : option (list byte) :=
  let c1 := count_pos in1 in
  let c2 := count_pos in2 in
  match decompress_pos in1 0, decompress_pos in2 0 with
  | Some (p1, r1), Some (p2, r2) =>
      match join_loop (c1 + c2) c1 c2 (mkJ r1 p1 0) (mkJ r2 p2 0) [] with
      | Some (s1, s2, out) =>
          match (if (j_i s1 <? c1)%nat then drain c1 c1 s1 out
                 else if (j_i s2 <? c2)%nat then drain c2 c2 s2 out else Some out) with
          | Some pos => Some (compress_pos pos)
          | None => None
          end
      | None => None
      end
  | _, _ => None
  end.
