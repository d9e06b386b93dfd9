(** Concrete indexes and queries for C55. *)
From Coq Require Import NArith ZArith Lia List Permutation Sorted Bool Arith.
From Verif Require Import Base Ord OrdProof Codec CodecSpec LeafSpec Entries Bulk BulkSpec BulkProof BTree PostingTree PostingTreeSpec
  PropCodecProof PropTreeProof EntryTree IndexSpec IndexExamples ScanEntry Scan ScanSpec TidBitmap IndexScan LeafCodec VacTreeSpec VacIndex VacScanSpec LifeSpec LifeExamples QuerySpec LifeQuery LifeQueryExamples QueryExamples ScalarExamples OrderScan OrderSpec OrderExamples FullScan FullSpec.
Import ListNotations.
Local Open Scope Z_scope.

(** Rows with one key in column 1. *)
Definition ftable : list (@hrow Z datum) := [orow 1 [1] (Some 3%N) 9; orow 2 [4] (Some 8%N) 2; orow 3 [4] None 4; orow 4 [2] (Some 10%N) 7].
Definition fix_of (addTo : N) (h : list (event Z)) : option (@istate Z) := indexLife zf (alt2 addTo) val8 dcmp ksz 0%Z addTo (emptyIndex 0%Z) h.
Definition deadAt (b : N) (p : iptr) : bool := (blk p =? b)%N.
Definition fhist (dead : list N) : list (event Z) := map EIns ftable ++ map (fun b => EVac (deadAt b)) dead.
Definition fix_state addTo dead : @istate Z := match fix_of addTo (fhist dead) with Some ix => ix | None => emptyIndex 0%Z end.
Lemma f_index addTo dead : In addTo [1; 3]%N -> In dead [[]; [1%N]; [4%N]; [2%N]] ->
  table_index zf (alt2 addTo) val8 dcmp ksz 0%Z false addTo [] (fhist dead) (fix_state addTo dead).
Proof.
  intros Ha Hd.
  assert (Ei : inserted (fhist dead) = ftable).
  { unfold fhist.
    cbn in Hd. destruct Hd as [<-|[<-|[<-|[<-|[]]]]]; reflexivity. }
  split.
  - apply o_columns.
  - reflexivity.
  - split; rewrite ?Ei.
    + cbn [map app ftable]. repeat (apply Forall_cons; [apply orow_ok; auto|]). apply Forall_nil.
    + constructor.
    + cbn in Hd. destruct Hd as [<-|[<-|[<-|[<-|[]]]]]; cbn; repeat (split; [cbn; intuition discriminate|]); exact I.
    + assert (S : forall k it, row_okb (alt2 addTo (k_att k)) (AByVal 8) it = true -> key_fits ksz (fst (k, it)) /\ storable (alt2 addTo (k_att (fst (k, it)))) (val8 (k_att (fst (k, it)))) (snd (k, it))).
      { intros k it H. split; [destruct k as [n z [| | | |]]; vm_compute; discriminate|]. apply byval_small. apply row_okb_ok. exact H. }
      cbn in Ha. destruct Ha as [<-|[<-|[]]]; cbn [flat_map row_pairs col_pairs map app ftable orow fst r_cols r_tid r_attach option_map];
        repeat (apply Forall_cons; [apply S; vm_compute; reflexivity|]); apply Forall_nil.
    + left. reflexivity.
  - unfold ever. rewrite Ei. intros r H. cbn in H. repeat (destruct H as [<-|H]; [discriminate|]). destruct H.
  - exists isort. split; [exact isort_sorter|]. split; [intros k l []|]. exists (emptyIndex 0%Z). split; [reflexivity|].
    cbn in Ha, Hd. destruct Ha as [<-|[<-|[]]]; destruct Hd as [<-|[<-|[<-|[<-|[]]]]]; vm_compute; reflexivity.
Qed.
Definition fquery (addTo attach : N) (curKey : N -> bool) (ix : @istate Z) (orders : list oord) := fullScan ocmp None 0%Z addTo attach curKey zf (fun _ => vjunk) isort ix orders.
Definition nocur (n : N) : bool := false.
Lemma f_columns t : In t [otable; ftable] -> forall addTo r, In r t -> has_column1 addTo r.
Proof.
  intros Ht addTo r Hr. assert (He : exists b k ks v n, r = orow b (k :: ks) v n).
  { destruct Ht as [<-|[<-|[]]]; cbn in Hr; repeat (destruct Hr as [<-|Hr]; [repeat eexists|]); destruct Hr. }
  destruct He as (b & k & ks & v & n & ->). eexists. split; [left; reflexivity|]. reflexivity.
Qed.
(** row 2 is deleted; its key is also that of row 3 *)
Lemma f_alive : column1_alive zf 1 (ever [] (fhist [2%N])) (rows_now [] (fhist [2%N])) (fix_state 1 [2%N]).
Proof.
  split.
  - intros e He Ea.
    assert (E : forallb (fun e => if (k_att (fst e) =? 1)%N then existsb (fun e' => rumCompareAttEntries zf (fst e') (fst e) =? 0) (flat_map (row_pairs 1) (rows_now [] (fhist [2%N]))) else true)
      (flat_map (row_pairs 1) (ever [] (fhist [2%N]))) = true) by (vm_compute; reflexivity).
    rewrite forallb_forall in E. specialize (E e He). cbv beta in E. rewrite Ea, N.eqb_refl in E. apply existsb_exists in E as (e' & H & E). exists e'. split; [exact H|]. apply Z.eqb_eq. exact E.
  - intros tuples t n st b pg Ht Hin _ Hd. exfalso. assert (E : match allTuples (fix_state 1 [2%N]) with Some l => forallb (fun t : etup Z => match t_data t with PTree _ => false | _ => true end) l | None => false end = true) by (vm_compute; reflexivity).
    rewrite Ht in E. rewrite forallb_forall in E. specialize (E t Hin). rewrite Hd in E. discriminate.
Qed.
(** seven rows with one key, in a posting tree; the VACUUM empties its first leaf *)
Definition drows : list (@hrow Z datum) := map (fun b => brow b [3]) [1; 2; 3; 4; 5; 6; 7]%N.
Definition dhist : list (event Z) := map EIns drows ++ [EVac (deadIn [1; 2; 3]%N)].
Definition dix : @istate Z := match indexLife zf off0 bigA zcmp ksz 0%Z 0 (emptyIndex 0%Z) dhist with Some ix => ix | None => emptyIndex 0%Z end.
Lemma dix_index : table_index zf off0 bigA zcmp ksz 0%Z false 0 [] dhist dix.
Proof.
  assert (Ei : inserted dhist = drows) by reflexivity. split.
  - exact ex_columns.
  - reflexivity.
  - split; rewrite ?Ei.
    + cbn [map app drows]. repeat (apply Forall_cons; [apply brow_ok; [reflexivity|repeat constructor]|]). apply Forall_nil.
    + constructor.
    + cbn [dhist drows map app fresh_tids]. repeat (split; [cbn; intuition discriminate|]). exact I.
    + apply Forall_forall. intros p Hp. apply in_flat_map in Hp as (r & Hr & Hp). cbn [map app] in Hr. unfold drows in Hr. apply in_map_iff in Hr as (b & <- & Hb).
      assert (Hlt : (b < 2 ^ 32)%N) by (cbn in Hb; repeat (destruct Hb as [<-|Hb]; [reflexivity|]); destruct Hb).
      unfold row_pairs in Hp. cbn [brow r_cols col_pairs] in Hp. rewrite app_nil_r in Hp. rewrite map_map in Hp. apply in_map_iff in Hp as (k & <- & _). split; [vm_compute; discriminate|].
      exact (bigrow_storable b Hlt).
    + left. reflexivity.
  - unfold ever. rewrite Ei. intros r H. cbn [map app] in H. unfold drows in H. apply in_map_iff in H as (b & <- & _). discriminate.
  - exists isort. split; [exact isort_sorter|]. split; [intros k l []|]. exists (emptyIndex 0%Z). split; [reflexivity|]. apply of_done. vm_compute. reflexivity.
Qed.
Lemma fc_1 t : full_covered zf 1 2 nocur t [o_att].
Proof.
  split; cbn [lives filter o_att od_clause noKey].
  - discriminate.
  - intros o [<-|[]]. reflexivity.
  - reflexivity.
  - intros o [<-|[]] H. exfalso. apply H. reflexivity.
  - intros o o' _ [<-|[]] _. reflexivity.
Qed.
Lemma fc_2 : full_covered zf 1 2 cur1 ftable [o_key 1 3].
Proof.
  split; cbn [lives filter o_key od_clause noKey].
  - discriminate.
  - intros o [<-|[]]. reflexivity.
  - intros o [<-|[]] H. discriminate H.
  - intros o [<-|[]] _. split; [reflexivity|]. split.
    + intros r e e' Hr He He' Ea Ea'. cbn in Hr. repeat (destruct Hr as [<-|Hr]; [cbn in He, He'; repeat (destruct He as [<-|He]; [try discriminate Ea; repeat (destruct He' as [<-|He']; [try discriminate Ea'; reflexivity|]); destruct He'|]); destruct He|]). destruct Hr.
    + intros k k' H. unfold zf in H. replace k' with k by lia. reflexivity.
  - intros o o' [<-|[]] _ H. discriminate H.
Qed.
Lemma fc_3 : full_covered zf 0 2 cur1 (rows_now [] dhist) [o_key 1 3].
Proof.
  split; cbn [lives filter o_key od_clause noKey].
  - discriminate.
  - intros o [<-|[]]. reflexivity.
  - intros o [<-|[]] H. discriminate H.
  - intros o [<-|[]] _. split; [reflexivity|]. split.
    + intros r e e' Hr He He' _ _. cbn in Hr. repeat (destruct Hr as [<-|Hr]; [cbn in He, He'; destruct He as [<-|[]]; destruct He' as [<-|[]]; reflexivity|]). destruct Hr.
    + intros k k' H. unfold zf in H. replace k' with k by lia. reflexivity.
  - intros o o' [<-|[]] _ H. discriminate H.
Qed.
