(** C24, C25, C26: the scalar operator classes.  Vocabulary: ScalarSpec.v, DistSpec.v, QuerySpec.v; model:
    Scalar.v, ScalarTypes.v, IndexScan.v. *)
From Verif Require Import Base Ord OrdProof Codec LeafSpec Entries Bulk BulkSpec BulkProof BTree EntryTree IndexSpec IndexExamples
  ScanEntry Scan TidBitmap IndexScan LeafCodec VacTreeSpec VacIndex VacScanSpec LifeSpec QuerySpec LifeQuery QueryExamples Scalar ScalarSpec ScalarTypes DistSpec ScalarProof ScalarTypesProof ScalarExamples.
From Coq Require Import NArith ZArith QArith Qabs List Permutation Sorted Bool Lia.
Import ListNotations.
Local Open Scope Z_scope.

(** C24.  After CREATE INDEX and any INSERTs and VACUUMs, a query with any number of conditions "column op constant"
    (<, <=, =, >=, > on any columns) returns, once each and never for recheck, exactly the rows satisfying
    all of them, provided the start value of each class used with < or <= is not above a value the
    column has or had in the table.  Conditions on the attached column are included; in an order_by_attach index
    the conditions are on the attached column and the one it is attached to, or on neither, and the
    attached values are not NULL (C38 shows what happens otherwise). *)
Theorem C24_scalar_queries_exact : forall (K : Type) (compareFn : N -> K -> K -> Z) altOf attrOf cmpA rawSize (dflt : K) useAlt addTo built history ix,
  table_index compareFn altOf attrOf cmpA rawSize dflt useAlt addTo built history ix ->
  let table := rows_now built history in
  forall attach leftmost curKeyOrdering tuplesort junk joinFn canPre estimate sortEnts visit iterate tbmMax,
  sorter tuplesort -> junk_harmless compareFn history ix junk -> (forall f a, joinFn addTo = Some f -> f a a = a) -> sorts_entries useAlt addTo cmpA sortEnts ->
  forall conds, conds <> [] ->
  (forall s, In s conds -> sc_op s = SLess \/ sc_op s = SLessEqual -> forall r e, In r (ever built history) -> In e (row_pairs addTo r) ->
    k_att (fst e) = sc_att s -> k_cat (fst e) = CatNormKey -> compareFn (sc_att s) (leftmost (sc_att s)) (k_val (fst e)) <= 0) ->
  (forall s, In s conds -> canPre (sc_att s) = false) ->
  (useAlt = true -> (exists s, In s conds /\ sc_att s = addTo) -> forall s, In s conds -> sc_att s = addTo \/ sc_att s = attach) ->
  (useAlt = true -> forall s r, In s conds -> sc_att s = addTo -> In r table -> r_attach r <> None) ->
  (forall s, In s conds -> sc_att s = addTo -> addTo <> attach) ->
  exists out,
    queryScan dflt addTo attach curKeyOrdering compareFn useAlt cmpA tuplesort junk joinFn canPre estimate sortEnts visit iterate tbmMax ix
      (map (scalarClause compareFn leftmost cmpA) conds) [] = Some out /\
    NoDup (map fst out) /\ (forall p re, In (p, re) out -> re = false) /\
    (forall p, In p (map fst out) <-> exists r, In r table /\ r_tid r = p /\ forall s, In s conds -> scalar_holds compareFn cmpA addTo attach conds r s).
Proof. exact scalar_query. Qed.
Print Assumptions C24_scalar_queries_exact.

(** An int4 column of six rows: all hypotheses hold; the answers to < 2, <= 2, = 2 and to >= 2 with a
    condition > 10 on the attached column. *)
Example C24_hypotheses_met : table_index zf alt1 val8 dcmp ksz 0%Z true 1 tbuilt (map EIns tadded) tix /\
  sorts_entries true 1 dcmp (sortDown true 1 dcmp) /\
  (forall r e, In r trows -> In e (row_pairs 1 r) -> k_cat (fst e) = CatNormKey -> zf (k_att (fst e)) (c_left int4_class) (k_val (fst e)) <= 0) /\
  (forall r, In r trows -> r_attach r <> None) /\
  blks (s_query [mkScond 1%N SLess 2 (DVal 0)]) = Some [9; 3; 4]%N /\
  blks (s_query [mkScond 1%N SLessEqual 2 (DVal 0)]) = Some [1; 9; 3; 5; 4]%N /\
  blks (s_query [mkScond 1%N SEqual 2 (DVal 0)]) = Some [1; 3; 5]%N /\
  blks (s_query [mkScond 1%N SGreaterEqual 2 (DVal 0); mkScond 2%N SGreater 10 (DVal 10)]) = Some [5; 4]%N.
Proof.
  split; [exact tix_index|]. split; [intro ents; apply sortDown_ok; exact dcmp_total|]. split; [exact trows_above|]. split; [exact trows_attached|]. exact s_query_values.
Qed.

(** C25.  The value a < or <= scan starts from is not above any storable value: int2, int4, int8, money, oid,
    timestamp(tz), time, date, float4 and float8 (NaN and infinities included), timetz, macaddr, inet and
    cidr, text and bytea (C collation), bit and varbit, numeric (for any comparison of numerics). *)
Theorem C25_start_values_minimal_partial : Forall starts_minimal
  [int2_class; int4_class; int8_class; money_class; oid_class; timestamp_class; time_class; date_class; float_class; timetz_class; macaddr_class; inet_class; text_class; bit_class] /\
  forall T numeric_cmp, starts_minimal (numeric_class T numeric_cmp).
Proof. exact classes_minimal. Qed.
Print Assumptions C25_start_values_minimal_partial.
Example C25_values : c_valid int4_class (- 2 ^ 31) /\ c_valid inet_class (mkInet 2 8 (repeat true 32)) /\ c_valid timetz_class (0, -57599) /\ c_valid bit_class (9, [255; 128]%N) /\
  c_valid text_class [0; 255]%N.
Proof.
  split; [cbn; lia|]. split; [cbn; split; [left; reflexivity|split; [reflexivity|lia]]|]. split; [cbn; lia|]. split; [cbn; split; [lia|repeat constructor]|]. cbn. repeat constructor.
Qed.

(** C25 is false of "char" (values below 0x80, the ASCII characters, are below the start value) and of interval
    (-300000 years is below it). *)
Theorem C25_refuted_char : ~ starts_minimal char_class /\ forall v, c_valid char_class v -> v < 128 -> 0 < c_cmp char_class (c_left char_class) v.
Proof. exact char_not_minimal. Qed.
Print Assumptions C25_refuted_char.
Theorem C25_refuted_interval : ~ starts_minimal interval_class /\ c_valid interval_class (0, 0, -3600000) /\
  0 < c_cmp interval_class (c_left interval_class) (0, 0, -3600000).
Proof. exact interval_not_minimal. Qed.
Print Assumptions C25_refuted_interval.
(** What follows for queries: in an index on a "char" column with 'a' to 'f', < 'd' and <= 'd' return nothing,
    although 'a' is there. *)
Theorem C25_refuted_char_query : table_index ccmp alt0 val8 dcmp ksz 0%Z false 0 [] (map EIns ctable) cix /\
  c_query [mkScond 1%N SLess 100 (DVal 0)] = Some [] /\ c_query [mkScond 1%N SLessEqual 100 (DVal 0)] = Some [] /\
  (exists r, In r ctable /\ forall s, In s [mkScond 1%N SLess 100 (DVal 0)] -> scalar_holds ccmp dcmp 0 0 [mkScond 1%N SLess 100 (DVal 0)] r s).
Proof.
  split; [exact cix_index|]. split; [exact (proj1 c_query_values)|]. split; [exact (proj1 (proj2 c_query_values))|].
  exists (crow 1 97). split; [left; reflexivity|]. intros s [<-|[]]. exists (mkKey 1%N 97 CatNormKey, mkItem (mkIp 1 1) None). split; [left; reflexivity|].
  split; [reflexivity|]. split; [reflexivity|]. reflexivity.
Qed.
Print Assumptions C25_refuted_char_query.

(** C26.  <=>, <=| and |=> are true distances (rounding to double being any monotone function exact on integers
    up to 2^53 that does not round a difference of the smallest double or more to 0): int2, int4, oid, and
    int8 and money up to 2^53; finite floats; finite timestamps within an int64 of each other. *)
Theorem C26_distances_partial : forall rnd, rounding rnd ->
  true_distance Z.lt Logic.eq (fun a => Z.abs a <= 2 ^ 53)
    (distance intcmp (fun _ => false) (intsubtract rnd)) (left_distance intcmp (fun _ => false) (intsubtract rnd)) (right_distance intcmp (fun _ => false) (intsubtract rnd)) /\
  true_distance flt_lt flt_eq flt_ok
    (distance fcmp float_infinite (floatsubtract rnd)) (left_distance fcmp float_infinite (floatsubtract rnd)) (right_distance fcmp float_infinite (floatsubtract rnd)) /\
  forall lo, true_distance Z.lt Logic.eq (ts_ok lo)
    (distance intcmp timestamp_infinite (timestamp_subtract rnd)) (left_distance intcmp timestamp_infinite (timestamp_subtract rnd)) (right_distance intcmp timestamp_infinite (timestamp_subtract rnd)).
Proof. intros rnd R. split; [exact (int_distance rnd R)|]. split; [exact (float_distance rnd R)|]. intro lo. exact (timestamp_distance rnd R lo). Qed.
Print Assumptions C26_distances_partial.
(** For small integers <=> is exactly the absolute difference. *)
Theorem C26_int_exact : forall rnd, rounding rnd -> forall a b, Z.abs a <= 2 ^ 53 -> Z.abs b <= 2 ^ 53 -> Z.abs (a - b) <= 2 ^ 53 ->
  deq (distance intcmp (fun _ => false) (intsubtract rnd) a b) (DFin (inject_Z (Z.abs (a - b)))).
Proof. exact int_distance_exact. Qed.
Print Assumptions C26_int_exact.
(** All int8: as claimed, except that distinct values beyond 2^53 may have distance 0. *)
Theorem C26_int8 : forall rnd, rounding rnd -> forall a b, let d := distance intcmp (fun _ => false) (intsubtract rnd) in
  deq (d a b) (d b a) /\ (match d a b with DFin q => (0 <= q)%Q | DInf => False end) /\ (a = b -> deq (d a b) (DFin 0)) /\
  (a <= b -> deq (left_distance intcmp (fun _ => false) (intsubtract rnd) a b) (d a b)) /\
  (b < a -> deq (right_distance intcmp (fun _ => false) (intsubtract rnd) a b) (d a b)).
Proof. exact int8_distance. Qed.
Print Assumptions C26_int8.
Example C26_hypotheses_met : rounding (fun x => x) /\ distance intcmp (fun _ => false) (intsubtract (fun x => x)) 3 10 = DFin 7 /\
  left_distance intcmp (fun _ => false) (intsubtract (fun x => x)) 10 3 = DInf /\ flt_ok (FFin (3 # 2 ^ 1074)) /\ ts_ok 0 1000000.
Proof.
  split; [exact exact_rounding|]. split; [reflexivity|]. split; [reflexivity|]. split; [exists 3; reflexivity|]. split; [cbn; lia|reflexivity].
Qed.

(** C26 is false of timestamps further apart than an int64 of microseconds: the subtraction wraps, and the
    distance of 294276-12-31 23:59:59.999999 and 4714-11-24 BC is negative; of infinities: the distance
    of -infinity and infinity (and of NaN and either) is 0; and |=> of equal values is infinite, not 0. *)
Theorem C26_refuted_timestamp : forall rnd, rounding rnd ->
  exists q, distance intcmp timestamp_infinite (timestamp_subtract rnd) 9223371331199999999 (-211813488000000000) = DFin q /\ (q < 0)%Q.
Proof. exact timestamp_overflow. Qed.
Print Assumptions C26_refuted_timestamp.
Theorem C26_refuted_infinities : forall rnd,
  distance fcmp float_infinite (floatsubtract rnd) FNegInf FPosInf = DFin 0 /\ fcmp FNegInf FPosInf <> 0 /\
  distance fcmp float_infinite (floatsubtract rnd) FNaN FPosInf = DFin 0 /\ fcmp FNaN FPosInf <> 0 /\
  distance intcmp timestamp_infinite (timestamp_subtract rnd) (- 2 ^ 63) (2 ^ 63 - 1) = DFin 0.
Proof. intro rnd. repeat split; discriminate. Qed.
Print Assumptions C26_refuted_infinities.
Theorem C26_refuted_right_equal : forall rnd a, right_distance intcmp (fun _ => false) (intsubtract rnd) a a = DInf.
Proof. intros rnd a. unfold right_distance, intcmp. rewrite Z.compare_refl. reflexivity. Qed.
Print Assumptions C26_refuted_right_equal.
