(** The scalar types of btree_rum.c: the value a < or <= scan starts from, comparison, distances.  Model file: no
    proofs.  The comparison functions belong to PostgreSQL (not in /repo) and are written from its source:
    int.c, float.c, cash.c, oid.c, timestamp.c, date.c, mac.c, network.c, varlena.c, varbit.c, char.c. *)
From Verif Require Import Base.
From Coq Require Import NArith ZArith QArith Bool List.
Import ListNotations.
Local Open Scope Z_scope.

(** btint2cmp, btint4cmp, btint8cmp, cash_cmp, btoidcmp, timestamp_cmp, date_cmp, time_cmp: signs only. *)
Definition intcmp (a b : Z) : Z := match Z.compare a b with Lt => -1 | Eq => 0 | Gt => 1 end.

(** A class: values a column can hold, comparison, start value. *)
Record scalarClass := mkClass { c_type : Type; c_valid : c_type -> Prop; c_cmp : c_type -> c_type -> Z; c_left : c_type }.

(** btree_rum.c:398-403 *)
Definition int2_class := mkClass Z (fun x => - 2 ^ 15 <= x < 2 ^ 15) intcmp (- 2 ^ 15).
(** btree_rum.c:413-417 *)
Definition int4_class := mkClass Z (fun x => - 2 ^ 31 <= x < 2 ^ 31) intcmp (- 2 ^ 31).
(** btree_rum.c:427-431 *)
Definition int8_class := mkClass Z (fun x => - 2 ^ 63 <= x < 2 ^ 63) intcmp (- 2 ^ 63).
(** btree_rum.c:483-489 *)
Definition money_class := mkClass Z (fun x => - 2 ^ 63 <= x < 2 ^ 63) intcmp (- 2 ^ 63).
(** btree_rum.c:491-503; oids are unsigned *)
Definition oid_class := mkClass Z (fun x => 0 <= x < 2 ^ 32) intcmp 0.
(** btree_rum.c:505-527; DT_NOBEGIN is the smallest int64 *)
Definition timestamp_class := mkClass Z (fun x => - 2 ^ 63 <= x < 2 ^ 63) intcmp (- 2 ^ 63).
(** btree_rum.c:530-536; microseconds of a day, 24:00:00 included *)
Definition time_class := mkClass Z (fun x => 0 <= x <= 86400000000) intcmp 0.
(** btree_rum.c:551-557; DATEVAL_NOBEGIN is the smallest int32 *)
Definition date_class := mkClass Z (fun x => - 2 ^ 31 <= x < 2 ^ 31) intcmp (- 2 ^ 31).

(** Floats: NaN equals itself and is above everything (float8_cmp_internal); finite values as rationals
    (-0 and 0 are equal). *)
Inductive flt := FNegInf | FFin (q : Q) | FPosInf | FNaN.
Definition fcmp (a b : flt) : Z :=
  match a, b with
  | FNaN, FNaN => 0 | FNaN, _ => 1 | _, FNaN => -1
  | FNegInf, FNegInf => 0 | FNegInf, _ => -1 | _, FNegInf => 1
  | FPosInf, FPosInf => 0 | FPosInf, _ => 1 | _, FPosInf => -1
  | FFin x, FFin y => match Qcompare x y with Lt => -1 | Eq => 0 | Gt => 1 end
  end.
(** float4 and float8, btree_rum.c:441-481 *)
Definition float_class := mkClass flt (fun _ => True) fcmp FNegInf.

(** timetz: local time and zone (seconds west); timetz_cmp_internal.  Zones are within 16 hours. *)
Definition timetz_cmp (a b : Z * Z) : Z :=
  let t1 := fst a + snd a * 1000000 in let t2 := fst b + snd b * 1000000 in
  if t2 <? t1 then 1 else if t1 <? t2 then -1
  else if snd b <? snd a then 1 else if snd a <? snd b then -1 else 0.
(** btree_rum.c:538-549 *)
Definition timetz_class := mkClass (Z * Z) (fun v => 0 <= fst v <= 86400000000 /\ -57600 < snd v < 57600) timetz_cmp (0, -24 * 3600).

(** interval: time, day, month; interval_cmp_value (128-bit arithmetic). *)
Definition interval_value (v : Z * Z * Z) : Z := let '(t, d, m) := v in t + (m * 30 + d) * 86400000000.
(** btree_rum.c:559-570 *)
Definition interval_class := mkClass (Z * Z * Z)
  (fun v => let '(t, d, m) := v in - 2 ^ 63 <= t < 2 ^ 63 /\ - 2 ^ 31 <= d < 2 ^ 31 /\ - 2 ^ 31 <= m < 2 ^ 31)
  (fun a b => intcmp (interval_value a) (interval_value b)) (- 2 ^ 63, 0, 0).

(** macaddr: high and low three bytes, unsigned (macaddr_cmp_internal).  btree_rum.c:572-580 *)
Definition macaddr_class := mkClass (Z * Z) (fun v => 0 <= fst v < 2 ^ 24 /\ 0 <= snd v < 2 ^ 24)
  (fun a b => if fst a <? fst b then -1 else if fst b <? fst a then 1 else intcmp (snd a) (snd b)) (0, 0).

(** bitncmp on bit lists: the first [n] bits. *)
Fixpoint bitncmp (a b : list bool) (n : nat) : Z :=
  match n, a, b with
  | S k, x :: a', y :: b' => if Bool.eqb x y then bitncmp a' b' k else if x then 1 else -1
  | _, _, _ => 0
  end.
(** inet, cidr: family (2 for IPv4, 3 for IPv6), prefix length, address; network_cmp_internal.
    btree_rum.c:582-590: "0.0.0.0/0" *)
Record inet := mkInet { in_family : Z; in_bits : nat; in_addr : list bool }.
Definition maxbits (f : Z) : nat := if f =? 2 then 32 else 128.
Definition network_cmp (a b : inet) : Z :=
  if in_family a =? in_family b then
    let o := bitncmp (in_addr a) (in_addr b) (Nat.min (in_bits a) (in_bits b)) in
    if negb (o =? 0) then o
    else if negb (Nat.eqb (in_bits a) (in_bits b)) then Z.of_nat (in_bits a) - Z.of_nat (in_bits b)
    else bitncmp (in_addr a) (in_addr b) (maxbits (in_family a))
  else in_family a - in_family b.
Definition inet_class := mkClass inet
  (fun v => (in_family v = 2 \/ in_family v = 3) /\ length (in_addr v) = maxbits (in_family v) /\ (in_bits v <= maxbits (in_family v))%nat)
  network_cmp (mkInet 2 0 (repeat false 32)).

(** memcmp of the common length, then the length (varstr_cmp in the C collation, byteacmp). *)
Fixpoint bytescmp (a b : list N) : Z :=
  match a, b with
  | [], [] => 0 | [], _ => -1 | _, [] => 1
  | x :: a', y :: b' => if (x <? y)%N then -1 else if (y <? x)%N then 1 else bytescmp a' b'
  end.
(** text, varchar, bytea: btree_rum.c:592-598, 608.  Simplification: the C collation. *)
Definition text_class := mkClass (list N) (fun l => Forall (fun x => x < 256)%N l) bytescmp [].

(** bit, varbit: number of bits and bytes (the unused bits of the last byte are 0); bitcmp: bytes, then the
    number of bits.  btree_rum.c:610-630 *)
Fixpoint memcmp (a b : list N) : Z :=
  match a, b with
  | x :: a', y :: b' => if (x <? y)%N then -1 else if (y <? x)%N then 1 else memcmp a' b'
  | _, _ => 0
  end.
Definition bit_class := mkClass (Z * list N) (fun v => 0 <= fst v /\ Forall (fun x => x < 256)%N (snd v))
  (fun a b => let o := memcmp (snd a) (snd b) in if negb (o =? 0) then o else if negb (fst a =? fst b) then (if fst a <? fst b then -1 else 1) else 0) (0, []).

(** char: CharGetDatum(SCHAR_MIN) is the byte 0x80; btcharcmp compares unsigned.  btree_rum.c:600-606 *)
Definition char_class := mkClass Z (fun x => 0 <= x < 256) (fun a b => a - b) ((-128) mod 256).

(** numeric: [None] is the NULL pointer; rum_numeric_cmp (btree_rum.c:644-667). *)
Definition rum_numeric_cmp {T} (numeric_cmp : T -> T -> Z) (a b : option T) : Z :=
  match a, b with None, None => 0 | None, Some _ => -1 | Some _, None => 1 | Some x, Some y => numeric_cmp x y end.
Definition numeric_class (T : Type) (numeric_cmp : T -> T -> Z) := mkClass (option T) (fun v => v <> None) (rum_numeric_cmp numeric_cmp) None.

(** ** Distances (RUM_SUPPORT_DIST, btree_rum.c:233-388) *)
(** The result, a double: finite (as a rational) or infinite. *)
Inductive dist := DFin (q : Q) | DInf.
Section Dist.
  Context {T : Type} (cmp : T -> T -> Z) (isinfinite : T -> bool) (subtract : T -> T -> Q).
  (** rum_*_distance (btree_rum.c:255-277) *)
  Definition distance (a b : T) : dist :=
    if isinfinite a || isinfinite b then (if isinfinite a && isinfinite b then DFin 0 else DInf)
    else DFin (if 0 <? cmp a b then subtract a b else subtract b a).
  (** rum_*_left_distance (btree_rum.c:280-302) *)
  Definition left_distance (a b : T) : dist :=
    if isinfinite a || isinfinite b then (if isinfinite a && isinfinite b then DFin 0 else DInf)
    else if 0 <? cmp a b then DInf else DFin (subtract b a).
  (** rum_*_right_distance (btree_rum.c:305-327) *)
  Definition right_distance (a b : T) : dist :=
    if isinfinite a || isinfinite b then (if isinfinite a && isinfinite b then DFin 0 else DInf)
    else if 0 <? cmp a b then DFin (subtract a b) else DInf.
End Dist.
(** int2subtract, int4subtract, int8subtract (also money), oidsubtract: conversions to double, then a
    double subtraction; [rnd] is the rounding of a real to a double. *)
Definition intsubtract (rnd : Q -> Q) (a b : Z) : Q := rnd (rnd (inject_Z a) - rnd (inject_Z b))%Q.
(** float4_is_infinite, float8_is_infinite (btree_rum.c:447-451, 469-473): also true of NaN. *)
Definition float_infinite (a : flt) : bool := match a with FFin _ => false | _ => true end.
(** float4subtract, float8subtract (btree_rum.c:453-457, 475-479).  Simplification: no overflow. *)
Definition floatsubtract (rnd : Q -> Q) (a b : flt) : Q := match a, b with FFin x, FFin y => rnd (x - y)%Q | _, _ => 0 end.
(** timestamp_is_infinite, timestamp_subtract (btree_rum.c:511-515): int64 subtraction, wrapping, then a
    double division. *)
Definition timestamp_infinite (a : Z) : bool := (a =? - 2 ^ 63) || (a =? 2 ^ 63 - 1).
Definition wrap64 (x : Z) : Z := (x + 2 ^ 63) mod 2 ^ 64 - 2 ^ 63.
Definition timestamp_subtract (rnd : Q -> Q) (a b : Z) : Q := rnd (rnd (inject_Z (wrap64 (a - b))) / 1000000)%Q.
