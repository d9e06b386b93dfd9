(** Concrete indexes of documents for C49. *)
From Coq Require Import NArith ZArith Lia List Permutation Sorted Bool Arith.
From Verif Require Import Base Ord OrdProof Codec CodecSpec CodecProof LeafSpec LeafCodecProof PosCodec Entries EntriesSpec EntriesProof Bulk BulkSpec BulkProof BTree PostingTree PostingTreeSpec
  PropCodecProof PropTreeProof EntryTree IndexSpec IndexExamples ScanEntry Scan ScanSpec TidBitmap IndexScan LeafCodec VacTreeSpec VacIndex VacScanSpec LifeSpec QuerySpec LifeQuery QueryExamples OrderExamples InvertedExamples
  Tsq TsqSpec TsqExtract PropTsqProof PropTsq TextSearch TextSpec TextQuery.
Import ListNotations.
Local Open Scope Z_scope.

Definition wf : N -> list N -> list N -> Z := fun _ => word_compare.
Definition wsz : ekey (list N) -> N := fun _ => 16%N.
Lemma word_anti a : forall b, word_compare a b < 0 <-> 0 < word_compare b a.
Proof.
  induction a as [|x a IH]; intros [|y b]; cbn; try lia. rewrite (N.eqb_sym y x). destruct (N.eqb_spec x y) as [->|Hn]; [apply IH|]. destruct (N.ltb_spec x y), (N.ltb_spec y x); lia.
Qed.
Lemma word_total : total_cmp word_compare.
Proof. split; [intro x; apply wc_eq; reflexivity|intros; apply word_anti|exact (fun x y z => wc_trans x y z)]. Qed.
Lemma text_columns : columns_ok wf (alt2 0) bytea dcmp.
Proof. destruct v_columns as (_ & H2 & H3 & H4). split; [intro; exact word_total|]. auto. Qed.

Definition tcol (d : option document) : list (@stored (list N) datum) := rumExtractEntries word_compare (isort_e word_compare) (fun _ => true) [] (option_map (tsvectorEntries (fun w => w)) d).
(** Two tsvector columns. *)
Definition docs : list (option document * option document) :=
  [(Some [(bar, Some [2]%N); (foo, Some [1]%N)], Some []); (Some [(foo, Some [1]%N)], Some []); (Some [], None); (None, Some []);
   (Some [(bar, None); (foo, None)], Some []); (Some [(foobar, Some [1; 7]%N)], None); (Some exdoc, Some [(foo, Some [1]%N)])].
Definition drow (b : N) (d : option document * option document) : @hrow (list N) datum := mkRow (mkIp b 1) [tcol (fst d); tcol (snd d)] None.
Definition dtable : list (@hrow (list N) datum) := map (fun p => drow (fst p) (snd p)) (combine [1; 2; 3; 4; 5; 6; 7]%N docs).
Definition doc_of (att : N) (r : @hrow (list N) datum) : option document :=
  let d := nth (N.to_nat (blk (r_tid r)) - 1) docs (None, None) in if (att =? 1)%N then fst d else snd d.
Definition dix : @istate (list N) :=
  match indexRun wf (alt2 0) bytea dcmp wsz [] (emptyIndex []) (table_calls wf dcmp false 0 isort [] dtable) with Some ix => ix | None => emptyIndex [] end.
Definition d_query (canPre : N -> bool) (conds : list (N * option tsq)) : option (list (iptr * bool)) :=
  queryScan [] 0 0 (fun _ => false) wf false dcmp isort (fun _ => item_min) (fun _ => Some joinDatum) canPre (fun _ _ => 0%N) (sortDown false 0 dcmp) (fun _ => []) (fun l => l) 1000 dix
    (map (text_clause true (fun w => w) (fun w => w) sort_word) conds) [].
Definition rows_found (canPre : N -> bool) (conds : list (N * option tsq)) : option (list (N * bool)) := option_map (map (fun x => (blk (fst x), snd x))) (d_query canPre conds).
Definition on (w : list N) : tsq := QVal (mkOp w 0 false).

Lemma d_rows r : In r dtable -> hrow_ok wf r.
Proof.
  intros H i es E. cbn in H. repeat destruct H as [<-|H]; [..|destruct H]; cbn [r_cols drow fst snd] in E; (destruct i as [|[|i]]; cbn [nth_error] in E; [injection E as <-|injection E as <-|destruct i; discriminate E]); (split; [reflexivity|]); vm_compute; repeat constructor.
Qed.
Lemma dix_index : table_index wf (alt2 0) bytea dcmp wsz [] false 0 [] (map EIns dtable) dix.
Proof.
  apply inserts_index.
  - apply text_columns.
  - reflexivity.
  - cbn [map app]. rewrite Forall_forall. exact d_rows.
  - cbn. repeat (constructor; [cbn; intuition discriminate|]). constructor.
  - intros r H. cbn in H. repeat (destruct H as [<-|H]; [discriminate|]). destruct H.
  - rewrite Forall_forall. intros [k it] Hp. split; [destruct k as [n z [| | | |]]; vm_compute; discriminate|]. cbn [fst snd]. change (alt2 0 (k_att k)) with false. apply var_okb_ok. revert k it Hp.
    assert (A : forallb (fun e => var_okb (snd e)) (flat_map (row_pairs 0) dtable) = true) by (vm_compute; reflexivity). rewrite forallb_forall in A. intros k it Hp. exact (A (k, it) Hp).
  - left. reflexivity.
  - exists isort. split; [exact isort_sorter|]. split; [intros k l []|vm_compute; reflexivity].
Qed.
Lemma exdoc_valid : valid_doc exdoc.
Proof.
  split.
  - repeat (constructor; [cbn; intuition discriminate|]). constructor.
  - intros w l [E|[E|[E|[]]]]; injection E as <- <-; (split; [split; repeat constructor|]); (split; [discriminate|]);
      repeat (constructor; [vm_compute; discriminate|]); constructor.
Qed.
Lemma d_valid att r d : In r dtable -> doc_of att r = Some d -> valid_doc d.
Proof.
  intros H E. cbn [dtable combine map In docs] in H. unfold doc_of in E. repeat destruct H as [<-|H]; [..|destruct H]; cbn in E; destruct (att =? 1)%N; try discriminate; injection E as <-; try exact exdoc_valid.
  all: split; [cbn; repeat (constructor; [cbn; intuition discriminate|]); constructor|].
  all: intros w l Hw; cbn in Hw; repeat (destruct Hw as [E|Hw]; [first [discriminate E | injection E as <- <-; (split; [split; repeat constructor|]); (split; [discriminate|]); repeat (constructor; [vm_compute; discriminate|]); constructor]|]); destruct Hw.
Qed.
Lemma d_column att : att = 1%N \/ att = 2%N -> text_column wf (fun w => w) [] dtable att (doc_of att).
Proof.
  intro Ha. split; [lia|]. split; [exact (d_valid att)|]. exists (isort_e word_compare), (fun _ => true). split; [exact (isort_sorts word_compare word_total)|].
  intros r H. cbn [dtable combine map In docs] in H. destruct Ha as [-> | ->]; repeat destruct H as [<-|H]; try destruct H; reflexivity.
Qed.
Lemma d_words att : word_keys wf att (fun w => w) (fun w => w).
Proof. split; reflexivity. Qed.
(** Splits membership in a concrete document. *)
Ltac pick H := cbn [In] in H; repeat (destruct H as [H|H]; [first [discriminate H | injection H as <- <-]|]); try (now destruct H).
Lemma operands_fit q : (forall o, in_query o q -> o_prefix o = true -> o_weight o = 0%N \/ o = mkOp [102; 111]%N 1 true) ->
  forall r d, In r dtable -> doc_of 1 r = Some d -> forall o, in_query o q -> stripped_alike d o /\ weights_clear d o.
Proof.
  intros Hq r d H E o Ho. destruct (o_prefix o) eqn:Ep; [|apply exact_operand_restrictions; [exact (d_valid 1 r d H E)|exact Ep]].
  assert (Hs : stripped_alike d o).
  { intros (w & Hi & _) w' ps' Hw' _. unfold doc_of in E. cbn [dtable combine map In docs] in H. repeat destruct H as [<-|H]; [..|destruct H]; cbn in E; try discriminate; injection E as <-; cbn in Hi, Hw'; intuition congruence. }
  split; [exact Hs|]. destruct (Hq o Ho Ep) as [Hw| ->]; [left; exact Hw|]. right. intros w l w' l' e e' Hi Hi' Ha Ha' He He' Hpos.
  unfold doc_of in E. cbn [dtable combine map In docs] in H. repeat destruct H as [<-|H]; [..|destruct H]; cbn in E; try discriminate; injection E as <-; pick Hi; pick Hi';
    try (destruct Ha as [x Ex]; discriminate Ex); try (destruct Ha' as [x Ex]; discriminate Ex);
    cbn [In] in He, He'; repeat (destruct He as [<-|He]); try destruct He; repeat (destruct He' as [<-|He']); try destruct He';
    try reflexivity; vm_compute in Hpos; discriminate Hpos.
Qed.
Lemma small_positions q : distances_ok q -> total_distance q <= 100 -> forall r d, In r dtable -> doc_of 1 r = Some d -> positions_fit d q.
Proof.
  intros Hd Ht r d H E. split; [exact Hd|]. intros w l p Hi Hp. assert (Z.of_N (PosSpec.position p) <= 9); [|lia].
  unfold doc_of in E. cbn [dtable combine map In docs] in H. repeat destruct H as [<-|H]; [..|destruct H]; cbn in E; try discriminate; injection E as <-; pick Hi; cbn in Hp; repeat (destruct Hp as [<-|Hp]); try destruct Hp; vm_compute; discriminate.
Qed.
Definition tq2 : tsq := QPhrase 1 (on foo) (on bar).
Definition tq3 : tsq := QNot (on foo).
Definition tq4 : tsq := QAnd (QVal (mkOp foo 0 true)) (QNot (QVal (mkOp bar 8 false))).
Lemma fits_1 : query_fits dtable (doc_of 1) exquery1.
Proof.
  split; [cbn; repeat split; try lia; reflexivity|]. split.
  - intros o o' Ho Ho'. cbn in Ho, Ho'. repeat (destruct Ho as [Ho|Ho]); subst; repeat (destruct Ho' as [Ho'|Ho']); subst; cbn; intros E; try reflexivity; discriminate E.
  - intros r d H E. split; [apply (small_positions exquery1) with r; auto; [cbn; repeat split; try lia; reflexivity|vm_compute; discriminate]|].
    apply (operands_fit exquery1) with r; auto. intros o Ho. cbn in Ho. repeat (destruct Ho as [Ho|Ho]); subst; cbn; intro E'; try discriminate; auto.
Qed.
Lemma fits_2 : query_fits dtable (doc_of 1) tq2.
Proof.
  split; [cbn; repeat split; try lia; reflexivity|]. split.
  - intros o o' Ho Ho'. cbn in Ho, Ho'. repeat (destruct Ho as [Ho|Ho]); subst; repeat (destruct Ho' as [Ho'|Ho']); subst; cbn; intros E; try reflexivity; discriminate E.
  - intros r d H E. split; [apply (small_positions tq2) with r; auto; [cbn; repeat split; try lia; reflexivity|vm_compute; discriminate]|].
    apply (operands_fit tq2) with r; auto. intros o Ho. cbn in Ho. repeat (destruct Ho as [Ho|Ho]); subst; cbn; intro E'; try discriminate; auto.
Qed.
Lemma fits_3 : query_fits dtable (doc_of 1) tq3.
Proof.
  split; [cbn; repeat split; try lia; reflexivity|]. split.
  - intros o o' Ho Ho'. cbn in Ho, Ho'. subst. reflexivity.
  - intros r d H E. split; [apply (small_positions tq3) with r; auto; [cbn; repeat split; try lia; reflexivity|vm_compute; discriminate]|].
    apply (operands_fit tq3) with r; auto. intros o Ho. cbn in Ho. subst. cbn. discriminate.
Qed.
Lemma fits_4 : query_fits dtable (doc_of 1) tq4.
Proof.
  split; [cbn; repeat split; try lia; reflexivity|]. split.
  - intros o o' Ho Ho'. cbn in Ho, Ho'. repeat (destruct Ho as [Ho|Ho]); subst; repeat (destruct Ho' as [Ho'|Ho']); subst; cbn; intros E; try reflexivity; discriminate E.
  - intros r d H E. split; [apply (small_positions tq4) with r; auto; [cbn; repeat split; try lia; reflexivity|vm_compute; discriminate]|].
    apply (operands_fit tq4) with r; auto. intros o Ho. cbn in Ho. repeat (destruct Ho as [Ho|Ho]); subst; cbn; intro E'; try discriminate; auto.
Qed.
Lemma scan_1 : scan_fits (fun _ => true) [(1%N, Some exquery1)].
Proof. right. left. exists (1%N, Some exquery1), exquery1. split; [left; reflexivity|]. split; [reflexivity|]. exists (mkOp [102; 111]%N 1 true). split; [cbn; auto 10|reflexivity]. Qed.
Lemma scan_2 : scan_fits (fun _ => true) [(1%N, Some tq2)].
Proof. right. right. eexists. split; [reflexivity|]. intros q E. injection E as <-. left. reflexivity. Qed.
Lemma scan_3 : scan_fits (fun _ => true) [(1%N, Some tq3)].
Proof. right. right. eexists. split; [reflexivity|]. intros q E. injection E as <-. right. cbn. intros (? & ? & [] & _). Qed.
Lemma scan_4 : scan_fits (fun _ => true) [(1%N, Some tq4)].
Proof. right. left. exists (1%N, Some tq4), tq4. split; [left; reflexivity|]. split; [reflexivity|]. exists (mkOp foo 0 true). split; [cbn; auto 10|reflexivity]. Qed.
Lemma d_values :
  rows_found (fun _ => true) [(1%N, Some exquery1)] = Some [(7%N, false)] /\
  rows_found (fun _ => true) [(1%N, Some tq2)] = Some [(1%N, false); (7%N, false)] /\
  rows_found (fun _ => true) [(1%N, Some tq3)] = Some [(3%N, false); (5%N, true); (6%N, false)] /\
  rows_found (fun _ => true) [(1%N, Some tq4)] = Some [(1%N, true); (2%N, true); (5%N, true); (6%N, true); (7%N, true)] /\
  rows_found (fun _ => true) [(1%N, Some exquery1); (2%N, Some (on foo))] = Some [(7%N, false)].
Proof. vm_compute. repeat split. Qed.

(** ** A column to which another column's values are attached, in their order *)
Definition avals : list (option document * N) :=
  [(Some [(bar, Some [2]%N); (foo, Some [1]%N)], 50%N); (Some [(foo, Some [1]%N)], 20%N); (Some [], 40%N); (None, 10%N); (Some [(foobar, Some [1; 7]%N)], 30%N); (Some exdoc, 5%N)].
Definition arow (b : N) (d : option document * N) : @hrow (list N) datum := mkRow (mkIp b 1) [tcol (fst d); [([7%N], CatNormKey, None)]] (Some (DVal (snd d))).
Definition atable : list (@hrow (list N) datum) := map (fun p => arow (fst p) (snd p)) (combine [1; 2; 3; 4; 5; 6]%N avals).
Definition adoc_of (att : N) (r : @hrow (list N) datum) : option document := fst (nth (N.to_nat (blk (r_tid r)) - 1) avals (None, 0%N)).
Definition aix : @istate (list N) :=
  match indexRun wf alt1 val8 dcmp wsz [] (emptyIndex []) (table_calls wf dcmp true 1 isort [] atable) with Some ix => ix | None => emptyIndex [] end.
Definition a_query (conds : list (N * option tsq)) : option (list (iptr * bool)) :=
  queryScan [] 1 2 (fun _ => false) wf true dcmp isort (fun _ => item_min) (fun _ => None) (fun _ => true) (fun _ _ => 0%N) (sortDown true 1 dcmp) (fun _ => []) (fun l => l) 1000 aix
    (map (text_clause false (fun w => w) (fun w => w) sort_word) conds) [].
Lemma a_rows r : In r atable -> hrow_ok wf r.
Proof.
  intros H i es E. cbn in H. repeat destruct H as [<-|H]; [..|destruct H]; cbn [r_cols arow fst snd] in E; (destruct i as [|[|i]]; cbn [nth_error] in E; [injection E as <-|injection E as <-|destruct i; discriminate E]); (split; [reflexivity|]); vm_compute; repeat constructor.
Qed.
Lemma aix_index : table_index wf alt1 val8 dcmp wsz [] true 1 [] (map EIns atable) aix.
Proof.
  apply inserts_index.
  - destruct table_example as ((_ & H2 & H3 & H4) & _). split; [intro; exact word_total|]. auto.
  - reflexivity.
  - cbn [map app]. rewrite Forall_forall. exact a_rows.
  - cbn. repeat (constructor; [cbn; intuition discriminate|]). constructor.
  - intros r H. cbn in H. repeat (destruct H as [<-|H]; [discriminate|]). destruct H.
  - rewrite Forall_forall. intros [k it] Hp. split; [destruct k as [n z [| | | |]]; vm_compute; discriminate|]. cbn [fst snd]. apply byval_small. apply row_okb_ok. revert k it Hp.
    assert (A : forallb (fun e => row_okb (alt1 (k_att (fst e))) (AByVal 8) (snd e)) (flat_map (row_pairs 1) atable) = true) by (vm_compute; reflexivity). rewrite forallb_forall in A. intros k it Hp. exact (A (k, it) Hp).
  - right. constructor.
  - exists isort. split; [exact isort_sorter|]. split; [intros k l []|vm_compute; reflexivity].
Qed.
Lemma a_column : text_column wf (fun w => w) [] atable 1 (adoc_of 1).
Proof.
  split; [lia|]. split.
  - intros r d H E. cbn [atable combine map In avals] in H. unfold adoc_of in E. repeat destruct H as [<-|H]; [..|destruct H]; cbn in E; try discriminate; injection E as <-; try exact exdoc_valid.
    all: split; [cbn; repeat (constructor; [cbn; intuition discriminate|]); constructor|].
    all: intros w l Hw; cbn in Hw; repeat (destruct Hw as [E|Hw]; [first [discriminate E | injection E as <- <-; (split; [split; repeat constructor|]); (split; [discriminate|]); repeat (constructor; [vm_compute; discriminate|]); constructor]|]); destruct Hw.
  - exists (isort_e word_compare), (fun _ => true). split; [exact (isort_sorts word_compare word_total)|].
    intros r H. cbn [atable combine map In avals] in H. repeat destruct H as [<-|H]; try destruct H; reflexivity.
Qed.
Lemma a_values :
  option_map (map (fun x => (blk (fst x), snd x))) (a_query [(1%N, Some (QAnd (QVal (mkOp foo 0 true)) (QNot (on bar))))]) = Some [(6%N, true); (2%N, true); (5%N, true); (1%N, true)] /\
  option_map (map (fun x => (blk (fst x), snd x))) (a_query [(1%N, Some tq2)]) = Some [(6%N, true); (1%N, true)].
Proof. vm_compute. repeat split. Qed.
