(** Concrete indexes of tsqueries for C35 and C36. *)
From Coq Require Import NArith ZArith Lia List Permutation Sorted Bool Arith.
From Verif Require Import Base Ord OrdProof Codec CodecSpec CodecProof LeafSpec LeafCodecProof Entries EntriesSpec EntriesProof Bulk BulkSpec BulkProof BTree PostingTree PostingTreeSpec
  PropCodecProof PropTreeProof EntryTree IndexSpec IndexExamples ScanEntry Scan ScanSpec TidBitmap IndexScan LeafCodec VacTreeSpec VacIndex VacScanSpec LifeSpec QuerySpec LifeQuery QueryExamples ScalarExamples OrderExamples
  Array ArrayQuery Inverted InvertedSpec InvertedQuery.
Import ListNotations.
Local Open Scope Z_scope.

(** The additional information is a bytea. *)
Definition bytea : N -> attr := fun _ => AVar 4 true.
Definition vcol (q : option (tsquery Z)) : list (@stored Z datum) :=
  rumExtractEntries (zf 1) (isort_e (zf 1)) (fun _ => true) 0 (match q with Some q => extract_tsquery Z.eqb 0 q | None => None end).
Definition vrow (b : N) (q : option (tsquery Z)) : @hrow Z datum := mkRow (mkIp b 1) [vcol q] None.
Definition w (x : Z) : tsquery Z := TVal x 0 false.
(** 1 & !2;  !(1 | 2);  1 & !(2 & 3);  !7;  NULL;  (1 | 2) & (3 | 1 | 4);  1:A *)
Definition queries : list (option (tsquery Z)) :=
  [Some (TAnd (w 1) (TNot (w 2))); Some (TNot (TOr (w 1) (w 2))); Some (TAnd (w 1) (TNot (TAnd (w 2) (w 3)))); Some (TNot (w 7)); None;
   Some (TAnd (TOr (w 1) (w 2)) (TOr (w 3) (TOr (w 1) (w 4)))); Some (TVal 1 8 false)].
Definition vtable : list (@hrow Z datum) := map (fun p => vrow (fst p) (snd p)) (combine [1; 2; 3; 4; 5; 6; 7]%N queries).
Definition tsq_of (att : N) (r : @hrow Z datum) : option (tsquery Z) := nth (N.to_nat (blk (r_tid r)) - 1) queries None.
Definition vix : @istate Z :=
  match indexRun zf (alt2 0) bytea dcmp ksz 0%Z (emptyIndex 0%Z) (table_calls zf dcmp false 0 isort [] vtable) with Some ix => ix | None => emptyIndex 0%Z end.
Lemma v_columns : columns_ok zf (alt2 0) bytea dcmp.
Proof.
  destruct table_example as ((H1 & H2 & _) & _). split; [exact H1|]. split; [exact H2|]. split; intro n.
  - split; [cbn; unfold legal_align; lia|]. discriminate.
  - cbn. lia.
Qed.
Lemma v_rows r : In r vtable -> hrow_ok zf r.
Proof.
  intros H [|i] es E; cbn in H; (repeat destruct H as [<-|H]; [..|destruct H]); cbn in E; try (destruct i; discriminate E); injection E as <-; (split; [reflexivity|]); vm_compute; repeat constructor.
Qed.
Lemma none_small al pk x : add x = None -> row_ok false (AVar al pk) x -> storable false (AVar al pk) x.
Proof.
  intros Ha Hr. split; [exact Hr|]. intros prev pos wd Hp Hw. pose proof (item_size_eq false (AVar al pk) pos _ prev wd (proj1 Hr) Hw) as E. unfold rumCheckPlaceToDataPageLeaf in E. rewrite Ha in E.
  assert (H1 : (rumDataPageLeafGetItemPointerSize (ip x) prev <= 5 + 3)%N).
  { unfold rumDataPageLeafGetItemPointerSize. apply N.add_le_mono.
    - apply sz_block_bound. eapply N.lt_trans; [apply CodecProof.sub32_lt|]. reflexivity.
    - apply (sz_off_bound _ 2). destruct Hr as [((_ & Ho) & _) _]. eapply N.lt_trans; [exact Ho|]. reflexivity. }
  lia.
Qed.
Definition var_okb (it : item datum) : bool :=
  row_okb false (AVar 4 true) it && match add it with None => true | Some (DVar V4U bs) => (nlen bs <=? 2400)%N | _ => false end.
Lemma var_okb_ok it : var_okb it = true -> storable false (AVar 4 true) it.
Proof.
  unfold var_okb. intro H. apply andb_true_iff in H as [H1 H2]. apply row_okb_ok in H1. destruct it as [[b o] [d|]]; cbn [add] in H2; [|apply none_small; [reflexivity|exact H1]].
  destruct d as [|?|[] bs]; try discriminate. apply N.leb_le in H2. destruct H1 as [(Hip & _) Ho]. apply var_small; [unfold legal_align; lia|exact H2|exact Ho|exact Hip].
Qed.
Lemma vix_index : table_index zf (alt2 0) bytea dcmp ksz 0%Z false 0 [] (map EIns vtable) vix.
Proof.
  apply inserts_index.
  - apply v_columns.
  - reflexivity.
  - cbn [map app]. rewrite Forall_forall. exact v_rows.
  - cbn. repeat (constructor; [cbn; intuition discriminate|]). constructor.
  - intros r H. cbn in H. repeat (destruct H as [<-|H]; [discriminate|]). destruct H.
  - rewrite Forall_forall. intros [k it] Hp. split; [destruct k as [n z [| | | |]]; vm_compute; discriminate|]. cbn [fst snd]. change (alt2 0 (k_att k)) with false. apply var_okb_ok. revert k it Hp.
    assert (A : forallb (fun e => var_okb (snd e)) (flat_map (row_pairs 0) vtable) = true) by (vm_compute; reflexivity). rewrite forallb_forall in A. intros k it Hp. exact (A (k, it) Hp).
  - left. reflexivity.
  - exists isort. split; [exact isort_sorter|]. split; [intros k l []|vm_compute; reflexivity].
Qed.
Lemma v_column : query_column zf Z.eqb 0 vtable 1 (tsq_of 1).
Proof.
  split; [discriminate|]. split; [exact Z.eqb_eq|]. split; [intros x y; unfold zf; lia|]. exists (isort_e (zf 1)), (fun _ => true). split; [apply isort_sorts; exact zsub_total|].
  intros r H. cbn [vtable combine map In queries] in H. repeat destruct H as [<-|H]; [..|destruct H]; eexists; (split; [|reflexivity]); try (eexists; split; reflexivity).
Qed.
Lemma v_moderate r q : In r vtable -> tsq_of 1 r = Some q -> moderate q.
Proof.
  intros H E. cbn [vtable combine map In queries] in H. repeat destruct H as [<-|H]; [..|destruct H]; cbn in E; try discriminate; injection E as <-; (split; [apply Nat.leb_le|apply Z.ltb_lt]; vm_compute; reflexivity).
Qed.
Definition v_query (doc : tsvector Z) : option (list (iptr * bool)) :=
  queryScan 0%Z 0 0 (fun _ => false) zf false dcmp isort (fun _ => item_min) (fun _ => None) (fun _ => false) (fun _ _ => 0%N) (sortDown false 0 dcmp) (fun _ => []) (fun l => l) 1000 vix
    [invertedClause 0 1 doc] [].
Definition found_rows (doc : tsvector Z) : option (list (N * bool)) := option_map (map (fun x => (blk (fst x), snd x))) (v_query doc).
Lemma v_values :
  found_rows [(1, [0%N]); (3, [0%N])] = Some [(1, false); (3, false); (4, false); (6, false); (7, false)]%N /\
  found_rows [(9, [0%N])] = Some [(2, false); (4, false)]%N /\
  found_rows [(1, [0%N]); (2, []); (7, [])] = Some [(3, false); (6, false); (7, false)]%N /\
  found_rows [(1, [0%N])] = Some [(1, false); (4, false); (6, false); (7, false)]%N /\
  found_rows [] = Some [].
Proof. vm_compute. repeat split. Qed.

(** ** More than 256 operators *)
(** n+1 operators, each an operand of the one before. *)
Fixpoint deep (n : nat) (b : bool) : tsquery Z :=
  match n with O => TAnd (w 0) (w (-1)) | S m => if b then TAnd (w (Z.of_nat n)) (deep m false) else TOr (w (Z.of_nat n)) (deep m true) end.
Definition deepq : tsquery Z := deep 256 true.
Definition deep_path : option datum := match extract_tsquery Z.eqb 0 deepq with Some l => match filter (fun e => e_datum e =? -1) l with [e] => e_add e | _ => None end | None => None end.
Lemma deep_outside : (operators deepq false None = 257)%nat /\ (exists p, deep_path = Some (DVar V4U p) /\ tsvector_consistent [Some (Some (DVar V4U p)); None] = None).
Proof.
  split; [vm_compute; reflexivity|]. assert (H : match deep_path with Some (DVar V4U p) => tsvector_consistent [Some (Some (DVar V4U p)); None] | _ => Some true end = None) by (vm_compute; reflexivity).
  destruct deep_path as [[| |[] p]|]; try discriminate H. exists p. auto.
Qed.
