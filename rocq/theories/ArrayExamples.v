(** Concrete indexes and queries for C29 and C30. *)
From Coq Require Import NArith ZArith Lia List Permutation Sorted Bool Arith SpecFloat.
From Verif Require Import Base Ord OrdProof Codec CodecSpec LeafSpec Entries EntriesSpec EntriesProof Bulk BulkSpec BulkProof BTree PostingTree PostingTreeSpec
  PropCodecProof PropTreeProof EntryTree IndexSpec IndexExamples ScanEntry Scan ScanSpec TidBitmap IndexScan LeafCodec VacTreeSpec VacIndex VacScanSpec LifeSpec QuerySpec LifeQuery QueryExamples ScalarExamples OrderScan OrderSpec OrderExamples
  Array ArraySpec ArrayQuery.
Import ListNotations.
Local Open Scope Z_scope.

(** An int4[] column: what the index stores for an array. *)
Definition val4 : N -> attr := fun _ => AByVal 4.
Definition acol (a : option (list Z)) : list (@stored Z datum) :=
  rumExtractEntries (zf 1) (isort_e (zf 1)) (fun _ => true) 0 (option_map (extract_anyarray (zf 1) isort) a).
Definition arow (b : N) (a : option (list Z)) : @hrow Z datum := mkRow (mkIp b 1) [acol a] None.
Definition arrays : list (option (list Z)) := [Some [2; 1; 2]; Some [3; 2]; Some []; None; Some [5]; Some [3; 1; 2]].
Definition atable : list (@hrow Z datum) := map (fun p => arow (fst p) (snd p)) (combine [1; 2; 3; 4; 5; 6]%N arrays).
(** The array of the row, found by its address. *)
Definition arr_of (att : N) (r : @hrow Z datum) : option (list Z) := nth (N.to_nat (blk (r_tid r)) - 1) arrays None.
Definition aix : @istate Z :=
  match indexRun zf (alt2 0) val4 dcmp ksz 0%Z (emptyIndex 0%Z) (table_calls zf dcmp false 0 isort [] atable) with Some ix => ix | None => emptyIndex 0%Z end.
Lemma a_columns : columns_ok zf (alt2 0) val4 dcmp.
Proof.
  destruct table_example as ((H1 & H2 & _) & _). split; [exact H1|]. split; [exact H2|]. split; intro n.
  - split; [cbn; unfold legal_align; lia|]. discriminate.
  - cbn. auto.
Qed.
Lemma a_rows r : In r atable -> hrow_ok zf r.
Proof.
  intros H [|i] es E; cbn in H; (repeat destruct H as [<-|H]; [..|destruct H]); cbn in E; try (destruct i; discriminate E); injection E as <-; (split; [reflexivity|]); vm_compute; repeat constructor.
Qed.
Lemma aix_index : table_index zf (alt2 0) val4 dcmp ksz 0%Z false 0 [] (map EIns atable) aix.
Proof.
  apply inserts_index.
  - apply a_columns.
  - reflexivity.
  - cbn [map app]. rewrite Forall_forall. exact a_rows.
  - cbn. repeat (constructor; [cbn; intuition discriminate|]). constructor.
  - intros r H. cbn in H. repeat (destruct H as [<-|H]; [discriminate|]). destruct H.
  - assert (S : forall k it, row_okb (alt2 0 (k_att k)) (AByVal 4) it = true -> key_fits ksz (fst (k, it)) /\ storable (alt2 0 (k_att (fst (k, it)))) (val4 (k_att (fst (k, it)))) (snd (k, it))).
    { intros k it H. split; [destruct k as [n z [| | | |]]; vm_compute; discriminate|]. apply byval_small. apply row_okb_ok. exact H. }
    rewrite Forall_forall. intros [k it] Hp. apply S. revert k it Hp. assert (A : forallb (fun e => row_okb (alt2 0 (k_att (fst e))) (AByVal 4) (snd e)) (flat_map (row_pairs 0) atable) = true) by (vm_compute; reflexivity).
    rewrite forallb_forall in A. intros k it Hp. exact (A (k, it) Hp).
  - left. reflexivity.
  - exists isort. split; [exact isort_sorter|]. split; [intros k l []|vm_compute; reflexivity].
Qed.
Lemma a_column : array_column zf zf isort 0 atable 1 (arr_of 1).
Proof.
  split; [discriminate|]. split; [exact zsub_total|]. split; [reflexivity|]. exists (isort_e (zf 1)), (fun _ => true). split; [apply isort_sorts; exact zsub_total|].
  intros r H. cbn [atable combine map In arrays] in H. repeat destruct H as [<-|H]; [..|destruct H]; reflexivity.
Qed.

Definition half : float8 := S754_finite false (2 ^ 52) (-53).
Definition a_query (thr : float8) (conds : list (acond Z)) : option (list (iptr * bool)) :=
  queryScan 0%Z 0 0 (fun _ => false) zf false dcmp isort (fun _ => item_min) (fun _ => None) (fun _ => false) (fun _ _ => 0%N) (sortDown false 0 dcmp) (fun _ => []) (fun l => l) 1000 aix
    (map (arrayClause zf isort SmtCosine thr) conds) [].
Lemma a_query_values :
  option_map (map (fun x => (blk (fst x), snd x))) (a_query half [mkAcond 1%N AOverlap [3; 2; 3]]) = Some [(1, false); (2, false); (6, false)]%N /\
  option_map (map (fun x => (blk (fst x), snd x))) (a_query half [mkAcond 1%N AContains [2; 3]]) = Some [(2, false); (6, false)]%N /\
  option_map (map (fun x => (blk (fst x), snd x))) (a_query half [mkAcond 1%N AContains []]) = Some [(1, false); (2, false); (3, false); (5, false); (6, false)]%N /\
  option_map (map (fun x => (blk (fst x), snd x))) (a_query half [mkAcond 1%N AContained [2; 3]]) = Some [(1, true); (2, true); (3, true)]%N /\
  option_map (map (fun x => (blk (fst x), snd x))) (a_query half [mkAcond 1%N AEqual [3; 2]]) = Some [(2, true)]%N /\
  option_map (map (fun x => (blk (fst x), snd x))) (a_query half [mkAcond 1%N ASimilar [3; 2]; mkAcond 1%N AOverlap [1]]) = Some [(1, false); (6, false)]%N /\
  option_map (map (fun x => (blk (fst x), snd x))) (a_query fzero [mkAcond 1%N ASimilar [5]]) = Some [(5, false)]%N.
Proof. vm_compute. repeat split. Qed.

(** float8 comparison (float8_cmp_internal of PostgreSQL: a NaN is the greatest), as a lexicographic key. *)
Definition fkey (x : float8) : Z * (Z * Z) :=
  match x with
  | S754_nan => (3, (0, 0)) | S754_infinity false => (2, (0, 0)) | S754_infinity true => (-2, (0, 0)) | S754_zero _ => (0, (0, 0))
  | S754_finite false m e => (1, (e, Zpos m)) | S754_finite true m e => (-1, (- e, Zneg m))
  end.
Definition lex2 {S T} (f : S -> S -> Z) (g : T -> T -> Z) (a b : S * T) : Z := if f (fst a) (fst b) =? 0 then g (snd a) (snd b) else f (fst a) (fst b).
Lemma lex2_total {S T} (f : S -> S -> Z) (g : T -> T -> Z) : total_cmp f -> total_cmp g -> total_cmp (lex2 f g).
Proof.
  intros F G. split.
  - intros [a b]. unfold lex2. cbn. rewrite (tc_refl _ F). apply (tc_refl _ G).
  - intros [a b] [a' b']. unfold lex2. cbn. destruct (Z.eqb_spec (f a a') 0) as [E|E], (Z.eqb_spec (f a' a) 0) as [E'|E'].
    + apply (tc_anti _ G).
    + apply (cmp_sym_eq _ F) in E. contradiction.
    + apply (cmp_sym_eq _ F) in E'. contradiction.
    + apply (tc_anti _ F).
  - intros [a b] [a' b'] [a2 b2]. unfold lex2. cbn. destruct (Z.eqb_spec (f a a') 0) as [E|E], (Z.eqb_spec (f a' a2) 0) as [E'|E'].
    + intros H1 H2. pose proof (cmp_eq_l _ F a a' a2 E) as H. rewrite E' in H. destruct (Z.eqb_spec (f a a2) 0); [|cbn in H; lia]. eapply (tc_trans _ G); eassumption.
    + intros H1 H2. pose proof (cmp_eq_l _ F a a' a2 E) as H. destruct (Z.eqb_spec (f a a2) 0) as [E2|]; lia.
    + intros H1 H2. assert (f a a2 < 0) by (eapply (cmp_lt_le_trans _ F a a' a2); lia). destruct (Z.eqb_spec (f a a2) 0); lia.
    + intros H1 H2. assert (f a a2 < 0) by (eapply (cmp_lt_le_trans _ F a a' a2); lia). destruct (Z.eqb_spec (f a a2) 0); lia.
Qed.
Definition fcmp (x y : float8) : Z := lex2 (fun a b => a - b) (lex2 (fun a b => a - b) (fun a b => a - b)) (fkey x) (fkey y).
Lemma fcmp_total : total_cmp fcmp.
Proof.
  pose proof (lex2_total _ _ zsub_total (lex2_total _ _ zsub_total zsub_total)) as T. unfold fcmp. split.
  - intro x. apply (tc_refl _ T).
  - intros x y. apply (tc_anti _ T).
  - intros x y z. apply (tc_trans _ T).
Qed.
Definition a_order (conds : list (acond Z)) (orders : list (N * list Z)) : option (list (iptr * bool * list float8)) :=
  orderedScan fcmp finf 0%Z 0 0 (fun _ => false) zf false dcmp isort (fun _ => item_min) (fun _ => None) (fun _ => false) (fun _ _ => 0%N) (sortDown false 0 dcmp) (fun _ => []) (fun l => l) 1000 (@isort _) aix
    (map (arrayClause zf isort SmtJaccard half) conds) (map (fun o => arrayOrdering zf isort SmtJaccard (fst o) (snd o)) orders).
(** 1 / (1/3) = 3, 1 / (2/2) = 1, 1 / (2/3) = 1.5 *)
Lemma a_order_values : option_map (map (fun x => (blk (fst (fst x)), snd x))) (a_order [mkAcond 1%N AContains []] [(1%N, [2; 3])]) =
  Some [(2%N, [S754_finite false 4503599627370496 (-52)]); (6%N, [S754_finite false 6755399441055744 (-52)]); (1%N, [S754_finite false 6755399441055744 (-51)]); (3%N, [finf]); (5%N, [finf])].
Proof. vm_compute. reflexivity. Qed.
