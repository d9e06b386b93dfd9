(** Queries on an index that was vacuumed, for C46 and C27. *)
From Coq Require Import NArith ZArith Lia List Permutation Sorted Bool Arith.
From Verif Require Import Base Ord OrdProof Codec CodecSpec CodecProof LeafPage LeafSpec Entries Bulk BulkSpec BulkProof BTree PostingTree PostingTreeSpec
  PropCodecProof PropTreeProof EntryTree IndexSpec IndexExamples ScanEntry Scan ScanSpec TidBitmap IndexScan VacTreeSpec VacIndex VacScanSpec LifeSpec LifeExamples QuerySpec QueryExamples.
Import ListNotations.
Local Open Scope Z_scope.

(** The first six INSERTs of LifeExamples.v, then a VACUUM that empties the first leaf of the posting tree of key 3 and leaves
    key 5 without rows, then one more INSERT. *)
Definition vhist : list (event Z) := firstn 6 lhist ++ [EVac (deadIn [1; 2; 3; 8]%N); EIns (brow 10 [3; 6]%Z)].
Definition vix : @istate Z := lix vhist.
(** what the memory of a scan holds when its first page is empty: some row that is not in the table *)
Definition vjunk : item datum := mkItem (mkIp 77 1) None.
Lemma vix_run : indexLife zf off0 bigA zcmp ksz 0%Z 0 lstart vhist = Some vix.
Proof. apply of_done. vm_compute. reflexivity. Qed.
Lemma vtable_ok : table_ok zf off0 bigA ksz 0 false lbuilt vhist.
Proof.
  destruct ltable_ok as [H1 H2 H3 H4 H5]. split; [| exact H2 | | |exact H5].
  - cbn [map lbuilt fst inserted vhist lhist firstn flat_map app]. repeat (apply Forall_cons; [apply brow_ok; [reflexivity|repeat constructor]|]). apply Forall_nil.
  - cbn [vhist lhist firstn fresh_tids lbuilt map fst app]. repeat (split; [cbn; intuition discriminate|]). exact I.
  - apply Forall_forall. intros p Hp. apply in_flat_map in Hp as (r & Hr & Hp). rewrite Forall_forall in H4.
    assert (Hb : exists b ks, r = brow b ks /\ (b < 2 ^ 32)%N).
    { cbn [map lbuilt fst inserted vhist lhist firstn flat_map app] in Hr. repeat (destruct Hr as [<-|Hr]; [eexists; eexists; split; reflexivity|]). destruct Hr. }
    destruct Hb as (b & ks & -> & Hb).
    unfold row_pairs in Hp. cbn [brow r_cols col_pairs] in Hp. rewrite app_nil_r in Hp. rewrite map_map in Hp. apply in_map_iff in Hp as (k & <- & _). split; [vm_compute; discriminate|].
    exact (bigrow_storable b Hb).
Qed.
Lemma vix_index : table_index zf off0 bigA zcmp ksz 0%Z false 0 lbuilt vhist vix.
Proof.
  split.
  - exact ex_columns.
  - reflexivity.
  - exact vtable_ok.
  - intros r H. cbn [ever lbuilt map fst inserted vhist lhist firstn flat_map app] in H. repeat (destruct H as [<-|H]; [discriminate|]). destruct H.
  - exists isort. split; [exact isort_sorter|]. split; [exact lsingle|]. exists lstart. split; [exact lstart_run|exact vix_run].
Qed.

Definition ipb (a b : iptr) : bool := (blk a =? blk b)%N && (off a =? off b)%N.
Definition junkb (st : list (page row)) (junk : row) : bool :=
  match ptScan st with Some rows => forallb (fun y => negb (ipb (ip y) (ip junk))) rows | None => true end.
Lemma junk_check st junk : off (ip junk) <> 0%N -> junkb st junk = true -> junk_ok st junk.
Proof.
  intros H0 H b pg _ _ _. left. split; [exact H0|]. intros rows E y Hy Ey. unfold junkb in H. unfold row in *. rewrite E in H. rewrite forallb_forall in H. specialize (H y Hy).
  rewrite Ey in H. unfold ipb in H. rewrite !N.eqb_refl in H. discriminate.
Qed.
Lemma vjunk_harmless : junk_harmless zf vhist vix (fun _ => vjunk).
Proof.
  intros _ q tuples t n st _ _ _ _ Hn. apply junk_check; [discriminate|].
  assert (E : forallb (fun st => junkb st vjunk) (i_trees vix) = true) by (vm_compute; reflexivity).
  rewrite forallb_forall in E. apply E. exact (nth_error_In _ _ Hn).
Qed.
(** The first leaf of the tree of key 3 is empty, so the scan does start from that memory. *)
Definition first_leaf (st : list (page row)) : option (list N) :=
  match leftmostLeaf (S (length st)) st 0 with
  | Some b => match nth_error st b with Some pg => Some (map (fun x => blk (ip x)) (p_items pg)) | None => None end
  | None => None
  end.
Lemma vix_empty_leaf : map first_leaf (i_trees vix) = [Some []; Some [4; 10]%N].
Proof. vm_compute. reflexivity. Qed.

Definition vrows : list (@hrow Z datum) := rows_now lbuilt vhist.
Definition v_three : clause Z := mkClause 1%N false [eqval 3] 0 anyOf None.
Definition v_five : clause Z := mkClause 1%N false [eqval 5; eqval 6] 0 anyOf None.
Definition vquery (conds : list (clause Z)) : option (list (N * bool)) :=
  option_map (map (fun o : iptr * bool => (blk (fst o), snd o)))
    (queryScan 0%Z 0 2 (fun _ => false) zf false zcmp isort (fun _ => vjunk) (fun _ => None) (fun _ => false) (fun _ _ => 0%N) (sortDown false 0 zcmp) (fun _ => []) (fun l => l) 1000 vix conds []).
Lemma vquery_values :
  map (fun r => blk (r_tid r)) vrows = [4; 5; 6; 7; 9; 10]%N /\
  vquery [v_three] = Some [(4, false); (5, false); (6, false); (7, false); (9, false); (10, false)]%N /\
  vquery [v_three; v_five] = Some [(4, false); (10, false)]%N /\
  vquery [c_from] = Some [(4, false); (5, false); (6, false); (7, false); (9, false); (10, false)]%N.
Proof. vm_compute. auto 10. Qed.
Notation vcovered := (covered zf 0%Z 0 2 false (fun _ => false) (fun _ => false) (ever lbuilt vhist) vrows).
Lemma v_not_fast conds : kept 0 2 conds <> [] -> ~ goes_fast (K := Z) 0%Z 0 2 (fun _ => false) (fun _ => false) conds [].
Proof. intros Hne (H & _). destruct (kept 0 2 conds) as [|c l]; [congruence|]. specialize (H c (or_introl eq_refl)). discriminate. Qed.
Lemma vcovered_1 : vcovered [v_three; v_five] [].
Proof.
  split.
  - intros q H f E. cbn in H. destruct H as [<-|[<-|[<-|[]]]]; discriminate.
  - intros q r Hq Hm E. discriminate E.
  - intros c [<-|[<-|[]]] _; reflexivity.
  - intros c [<-|[<-|[]]] E; discriminate E.
  - discriminate.
  - intro E. discriminate E.
  - intro H. exfalso. revert H. apply v_not_fast. discriminate.
Qed.
Lemma vcovered_2 : vcovered [c_from] [].
Proof.
  split.
  - intros q H f E. cbn in H. destruct H as [<-|[]]. cbn in E. injection E as <-. unfold zf. cbn [rq_att rq_key reqOf fromval qv_key cl_att c_from].
    split; [|split].
    + intros k _. destruct (Z.leb_spec 2 k); lia.
    + intros k k' _ _. destruct (Z.leb_spec 2 k); lia.
    + intros k k' _ _ H. replace k with k' by lia. reflexivity.
  - intros q r Hq Hm E. discriminate E.
  - intros c [<-|[]] _; reflexivity.
  - intros c [<-|[]] E; discriminate E.
  - discriminate.
  - intro E. discriminate E.
  - intro H. exfalso. revert H. apply v_not_fast. discriminate.
Qed.
