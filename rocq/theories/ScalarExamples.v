(** Concrete indexes and queries for C24 and C25. *)
From Coq Require Import NArith ZArith Lia List Permutation Sorted Bool Arith.
From Verif Require Import Base Ord OrdProof Codec CodecSpec LeafSpec Entries Bulk BulkSpec BulkProof BTree PostingTree PostingTreeSpec
  PropCodecProof PropTreeProof EntryTree IndexSpec IndexExamples ScanEntry Scan ScanSpec TidBitmap IndexScan LeafCodec VacTreeSpec VacIndex VacScanSpec LifeSpec QuerySpec LifeQuery QueryExamples Scalar ScalarSpec ScalarTypes ScalarTypesProof.
Import ListNotations.
Local Open Scope Z_scope.

(** ** int4: conditions on the table of QueryExamples.v (column 2 is the attached one) *)
Definition low4 : N -> Z := fun _ => c_left int4_class.
Definition s_query (conds : list (scond Z)) : option (list (iptr * bool)) :=
  queryScan 0%Z 1 2 (fun _ => false) zf true dcmp isort (fun _ => item_min) (fun _ => None) (fun _ => false) (fun _ _ => 0%N) (sortDown true 1 dcmp) (fun _ => []) (fun l => l) 1000 tix
    (map (scalarClause zf low4 dcmp) conds) [].
Definition blks (o : option (list (iptr * bool))) : option (list N) := option_map (map (fun x : iptr * bool => blk (fst x))) o.
Lemma s_query_values :
  blks (s_query [mkScond 1%N SLess 2 (DVal 0)]) = Some [9; 3; 4]%N /\
  blks (s_query [mkScond 1%N SLessEqual 2 (DVal 0)]) = Some [1; 9; 3; 5; 4]%N /\
  blks (s_query [mkScond 1%N SEqual 2 (DVal 0)]) = Some [1; 3; 5]%N /\
  blks (s_query [mkScond 1%N SGreaterEqual 2 (DVal 0); mkScond 2%N SGreater 10 (DVal 10)]) = Some [5; 4]%N.
Proof. vm_compute. auto. Qed.
Lemma trows_above r e : In r trows -> In e (row_pairs 1 r) -> k_cat (fst e) = CatNormKey -> zf (k_att (fst e)) (c_left int4_class) (k_val (fst e)) <= 0.
Proof.
  intros Hr He _. cbn in Hr. repeat (destruct Hr as [<-|Hr]; [cbn in He; repeat (destruct He as [<-|He]; [vm_compute; discriminate|]); destruct He|]). destruct Hr.
Qed.

(** ** "char": one column with 'a' ... 'f', no attached column (sql/char.sql) *)
Definition alt0 : N -> bool := fun n => (false && (n =? 0)%N)%bool.
Definition crow (b : N) (k : Z) : @hrow Z datum := mkRow (mkIp b 1) [[(k, CatNormKey, None)]] None.
Definition ctable : list (@hrow Z datum) := [crow 1 97; crow 2 98; crow 3 99; crow 4 100; crow 5 101; crow 6 102].
Definition ccmp : N -> Z -> Z -> Z := fun _ => c_cmp char_class.
Definition cix : @istate Z := match indexRun ccmp alt0 val8 dcmp ksz 0%Z (emptyIndex 0%Z) (table_calls ccmp dcmp false 0 isort [] ctable) with Some ix => ix | None => emptyIndex 0%Z end.
Lemma cix_run : indexRun ccmp alt0 val8 dcmp ksz 0%Z (emptyIndex 0%Z) (table_calls ccmp dcmp false 0 isort [] ctable) = Some cix.
Proof. vm_compute. reflexivity. Qed.
Definition c_query (conds : list (scond Z)) : option (list (iptr * bool)) :=
  queryScan 0%Z 0 0 (fun _ => false) ccmp false dcmp isort (fun _ => item_min) (fun _ => None) (fun _ => false) (fun _ _ => 0%N) (sortDown false 0 dcmp) (fun _ => []) (fun l => l) 1000 cix
    (map (scalarClause ccmp (fun _ => c_left char_class) dcmp) conds) [].
Lemma c_query_values :
  c_query [mkScond 1%N SLess 100 (DVal 0)] = Some [] /\ c_query [mkScond 1%N SLessEqual 100 (DVal 0)] = Some [] /\
  blks (c_query [mkScond 1%N SGreaterEqual 100 (DVal 0)]) = Some [4; 5; 6]%N.
Proof. vm_compute. auto. Qed.
Lemma crow_ok b k : hrow_ok ccmp (crow b k).
Proof.
  intros [|i] es E; cbn in E; [|destruct i; discriminate]; injection E as <-; (split; [reflexivity|]); repeat constructor.
Qed.
Lemma ccmp_columns : columns_ok ccmp alt0 val8 dcmp.
Proof.
  destruct table_example as ((_ & H2 & _) & _). split; [intro n; unfold ccmp; cbn; split; intros; lia|]. split; [exact H2|]. split; intro n.
  - split; [cbn; unfold legal_align; lia|]. discriminate.
  - cbn. auto.
Qed.
Lemma cix_index : table_index ccmp alt0 val8 dcmp ksz 0%Z false 0 [] (map EIns ctable) cix.
Proof.
  apply inserts_index.
  - exact ccmp_columns.
  - reflexivity.
  - cbn [map app]. repeat (apply Forall_cons; [apply crow_ok|]). apply Forall_nil.
  - cbn. repeat (constructor; [cbn; intuition discriminate|]). constructor.
  - intros r H. cbn in H. repeat (destruct H as [<-|H]; [discriminate|]). destruct H.
  - cbn [flat_map row_pairs col_pairs map app ctable crow fst r_cols r_tid r_attach option_map].
    assert (S : forall k it, row_okb (alt0 (k_att k)) (AByVal 8) it = true -> key_fits ksz (fst (k, it)) /\ storable (alt0 (k_att (fst (k, it)))) (val8 (k_att (fst (k, it)))) (snd (k, it))).
    { intros k it H. split; [destruct k as [n z [| | | |]]; vm_compute; discriminate|]. apply byval_small. apply row_okb_ok. exact H. }
    repeat (apply Forall_cons; [apply S; vm_compute; reflexivity|]). apply Forall_nil.
  - left. reflexivity.
  - exists isort. split; [exact isort_sorter|]. split; [intros k l []|exact cix_run].
Qed.
