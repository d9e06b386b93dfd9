(** Concrete indexes and queries for C46 and C37. *)
From Coq Require Import NArith ZArith Lia List Permutation Sorted Bool Arith.
From Verif Require Import Base Ord OrdProof Codec CodecSpec LeafSpec Entries Bulk BulkSpec BulkProof BTree PostingTree PostingTreeSpec
  PropCodecProof PropTreeProof EntryTree IndexSpec IndexExamples ScanEntry Scan ScanSpec TidBitmap IndexScan LeafCodec VacTreeSpec VacIndex VacScanSpec LifeSpec QuerySpec LifeQuery.
Import ListNotations.
Local Open Scope Z_scope.

(** a sort of the query keys, largest current row first *)
Definition sortDown {A} (useAlt : bool) (addTo : N) (cmpA : A -> A -> Z) (ents : list (entry A)) : list nat :=
  isort (fun a b => cmpEntries useAlt addTo cmpA (ent ents b) (ent ents a)) (seq 0 (length ents)).
Lemma cmpEntries_total {A} useAlt addTo (cmpA : A -> A -> Z) : total_cmp cmpA -> total_cmp (cmpEntries useAlt addTo cmpA).
Proof.
  intro HA. split.
  - intro e. unfold cmpEntries. destruct (e_fin e); [reflexivity|]. rewrite N.eqb_refl. apply (tc_refl _ (cri_total _ cmpA HA)).
  - intros x y. unfold cmpEntries. destruct (e_fin x), (e_fin y); try reflexivity. rewrite (N.eqb_sym (e_att y)).
    destruct (N.eqb_spec (e_att x) (e_att y)) as [->|Hne]; cbn [negb]; [apply (tc_anti _ (cri_total _ cmpA HA))|].
    destruct (N.ltb_spec (e_att x) (e_att y)), (N.ltb_spec (e_att y) (e_att x)); cbn; lia.
  - intros x y z. unfold cmpEntries. destruct (e_fin x), (e_fin y), (e_fin z); try lia.
    destruct (N.eqb_spec (e_att x) (e_att y)) as [E1|N1]; cbn [negb].
    + rewrite E1. destruct (N.eqb_spec (e_att y) (e_att z)) as [E2|N2]; cbn [negb]; [apply (tc_trans _ (cri_total _ cmpA HA))|]. destruct (N.ltb_spec (e_att y) (e_att z)); lia.
    + destruct (N.eqb_spec (e_att y) (e_att z)) as [E2|N2]; cbn [negb].
      * rewrite E2 in *. destruct (N.eqb_spec (e_att x) (e_att z)); [contradiction|]. cbn [negb]. destruct (N.ltb_spec (e_att x) (e_att z)); lia.
      * destruct (N.eqb_spec (e_att x) (e_att z)) as [E3|N3]; cbn [negb]; destruct (N.ltb_spec (e_att x) (e_att y)), (N.ltb_spec (e_att y) (e_att z)); try destruct (N.ltb_spec (e_att x) (e_att z)); lia.
Qed.
Lemma sortDown_ok {A} useAlt addTo (cmpA : A -> A -> Z) : total_cmp cmpA -> forall ents,
  Permutation (sortDown useAlt addTo cmpA ents) (seq 0 (length ents)) /\
  StronglySorted (fun a b => 0 <= cmpEntries useAlt addTo cmpA (ent ents a) (ent ents b)) (sortDown useAlt addTo cmpA ents).
Proof.
  intros HA ents. pose proof (cmpEntries_total useAlt addTo cmpA HA) as T.
  destruct (isort_sorter (fun a b => cmpEntries useAlt addTo cmpA (ent ents b) (ent ents a)) (seq 0 (length ents))) as [P S].
  { split; intros; [apply (tc_refl _ T)|apply (tc_anti _ T)|]. eapply (tc_trans _ T); eauto. }
  split; [symmetry; exact P|]. unfold sortDown. revert S. generalize (isort (fun a b => cmpEntries useAlt addTo cmpA (ent ents b) (ent ents a)) (seq 0 (length ents))).
  intro l0; induction 1 as [|x l S IH F]; constructor; [exact IH|]. eapply Forall_impl; [|exact F]. cbn. intros b H. apply (cmp_le_sym _ T). exact H.
Qed.

(** The table of IndexExamples.v: two columns, the index ordered by the value attached to column 1 (column 2
    stands for the attached column).  Conditions: "column 1 contains key 4 or key 1" and "attached value
    at least 10". *)
Definition trows : list (@hrow Z datum) := map fst tbuilt ++ tadded.
Definition eqval (k : Z) : qval Z := mkQval k false None (fun _ => 0).
Definition geval (n : Z) : qval Z := mkQval n false None (fun d => if n <=? dval d then 0 else 1).
Definition anyOf (v : list (option (option datum))) : bool * bool := (existsb (fun o => match o with Some _ => true | None => false end) v, false).
Definition c_any : clause Z := mkClause 1%N false [eqval 4; eqval 1] 0 anyOf None.
Definition c_ge : clause Z := mkClause 2%N false [geval 10] 0 anyOf None.
(** "column 1 contains a key from 2 on" *)
Definition fromval (n : Z) : qval Z := mkQval n false (Some (fun k => if n <=? k then 0 else -1)) (fun _ => 0).
Definition c_from : clause Z := mkClause 1%N false [fromval 2] 0 anyOf None.
(** "everything in column 2", an extraction without keys asking for the whole column *)
Definition c_all : clause Z := mkClause 2%N false [] 2 (fun _ => (true, true)) None.
Definition tquery (conds : list (clause Z)) : option (list (N * bool)) :=
  match indexRun zf alt1 val8 dcmp ksz 0%Z (emptyIndex 0%Z) (table_calls zf dcmp true 1 isort tbuilt tadded) with
  | Some ix => option_map (map (fun o : iptr * bool => (blk (fst o), snd o)))
      (queryScan 0%Z 1 2 (fun _ => false) zf true dcmp isort (fun _ => item_min) (fun _ => None) (fun _ => false) (fun _ _ => 0%N) (sortDown true 1 dcmp) (fun _ => []) (fun l => l) 1000 ix conds [])
  | None => None
  end.
Lemma tquery_values :
  tquery [c_any; c_ge] = Some [(3, false); (12, false); (5, false); (4, false)]%N /\
  tquery [c_from] = Some [(1, false); (9, false); (3, false); (12, false); (5, false); (4, false)]%N /\
  tquery [c_all] = Some [(1, true); (3, true); (4, true); (5, true); (9, true); (12, true)]%N.
Proof. vm_compute. auto. Qed.

Notation tcovered := (covered zf 0%Z 1 2 true (fun _ => false) (fun _ => false) trows trows).
Lemma trows_attached r : In r trows -> r_attach r <> None.
Proof. intro H. cbn in H. repeat (destruct H as [<-|H]; [discriminate|]). destruct H. Qed.
Lemma not_fast conds : kept 1 2 conds <> [] -> ~ goes_fast (K := Z) 0%Z 1 2 (fun _ => false) (fun _ => false) conds [].
Proof. intros Hne (H & _). destruct (kept 1 2 conds) as [|c l]; [congruence|]. specialize (H c (or_introl eq_refl)). discriminate. Qed.
Lemma covered_1 : tcovered [c_any; c_ge] [].
Proof.
  split.
  - intros q H f E. cbn in H. destruct H as [<-|[<-|[]]]; discriminate.
  - intros q r Hq Hm _ _ Hr. apply trows_attached. exact Hr.
  - intros c [<-|[<-|[]]] _; reflexivity.
  - intros c [<-|[<-|[]]] E; discriminate E || (cbn; discriminate).
  - discriminate.
  - intros _. split; [intros o []|]. exists true. intros c H. cbn in H. destruct H as [<-|[]]. reflexivity.
  - intro H. exfalso. revert H. apply not_fast. discriminate.
Qed.
Lemma covered_2 : tcovered [c_from] [].
Proof.
  split.
  - intros q H f E. cbn in H. destruct H as [<-|[]]. cbn in E. injection E as <-. unfold zf. cbn [rq_att rq_key reqOf fromval qv_key cl_att c_from].
    split; [|split].
    + intros k _. destruct (Z.leb_spec 2 k); lia.
    + intros k k' _ _. destruct (Z.leb_spec 2 k); lia.
    + intros k k' _ _ H. replace k with k' by lia. reflexivity.
  - intros q r Hq Hm _ _ Hr. apply trows_attached. exact Hr.
  - intros c [<-|[]] _; reflexivity.
  - intros c [<-|[]] E; discriminate.
  - discriminate.
  - intros _. split; [intros o []|]. exists true. intros c H. cbn in H. destruct H as [<-|[]]. reflexivity.
  - intro H. exfalso. revert H. apply not_fast. discriminate.
Qed.
Lemma covered_3 : tcovered [c_all] [].
Proof.
  split.
  - intros q H f E. cbn in H. destruct H as [<-|[]]; discriminate.
  - intros q r Hq Hm _ _ Hr. apply trows_attached. exact Hr.
  - intros c [<-|[]] H. exfalso. apply H. left. reflexivity.
  - intros c [<-|[]] E; discriminate.
  - discriminate.
  - intros _. split; [intros o []|]. exists false. intros c H. cbn in H. destruct H as [<-|[]]. reflexivity.
  - intro H. exfalso. revert H. apply not_fast. discriminate.
Qed.

(** ** Rows with NULL attached value (C38) *)
Definition nrow (b : N) (ks : list Z) (v : option N) : @hrow Z datum :=
  mkRow (mkIp b 1) [map (fun k => (k, CatNormKey, None)) ks; [(7%Z, CatNormKey, None)]] (option_map DVal v).
Definition nadded : list (@hrow Z datum) := [nrow 3 [1; 4] None; nrow 5 [1; 4] (Some 10%N)].
Definition nix : @istate Z := match indexRun zf alt1 val8 dcmp ksz 0%Z (emptyIndex 0%Z) (table_calls zf dcmp true 1 isort [] nadded) with Some ix => ix | None => emptyIndex 0%Z end.
Definition nquery (conds : list (clause Z)) : option (list (iptr * bool)) :=
  queryScan 0%Z 1 2 (fun _ => false) zf true dcmp isort (fun _ => item_min) (fun _ => None) (fun _ => false) (fun _ _ => 0%N) (sortDown true 1 dcmp) (fun _ => []) (fun l => l) 1000 nix conds [].
Lemma nix_run : indexRun zf alt1 val8 dcmp ksz 0%Z (emptyIndex 0%Z) (table_calls zf dcmp true 1 isort [] nadded) = Some nix.
Proof. vm_compute. reflexivity. Qed.
Lemma nquery_loses : nquery [c_from] = Some [(mkIp 5 1, false)].
Proof. vm_compute. reflexivity. Qed.

(** [exix] of the table of IndexExamples.v *)
Definition tix : @istate Z := match indexRun zf alt1 val8 dcmp ksz 0%Z (emptyIndex 0%Z) (table_calls zf dcmp true 1 isort tbuilt tadded) with Some ix => ix | None => emptyIndex 0%Z end.
Lemma tix_index : table_index zf alt1 val8 dcmp ksz 0%Z true 1 tbuilt (map EIns tadded) tix.
Proof.
  destruct table_example as (H1 & _ & H2 & H3 & H4 & H5 & H6 & _). apply inserts_index.
  - exact H1.
  - reflexivity.
  - apply Forall_app. split; [apply Forall_map; exact H2|exact H3].
  - exact H4.
  - intros r H. cbn in H. repeat (destruct H as [<-|H]; [discriminate|]). destruct H.
  - exact H5.
  - right. exact H6.
  - exists isort. split; [exact isort_sorter|]. split; [|vm_compute; reflexivity].
    intros k l _. right. reflexivity.
Qed.
Lemma tnow : rows_now tbuilt (map EIns tadded) = trows /\ ever tbuilt (map EIns tadded) = trows.
Proof. split; reflexivity. Qed.
Lemma nrow_ok b v : hrow_ok zf (nrow b [1; 4] v).
Proof.
  intros [|[|i]] es E; cbn in E; [| |destruct i; discriminate]; injection E as <-; (split; [reflexivity|]); repeat constructor; try (vm_compute; reflexivity).
Qed.
Lemma nix_index : table_index zf alt1 val8 dcmp ksz 0%Z true 1 [] (map EIns nadded) nix.
Proof.
  destruct table_example as (H1 & _). apply inserts_index.
  - exact H1.
  - reflexivity.
  - cbn [map app]. repeat (apply Forall_cons; [apply nrow_ok|]). apply Forall_nil.
  - cbn. repeat (constructor; [cbn; intuition discriminate|]). constructor.
  - intros r H. cbn in H. repeat (destruct H as [<-|H]; [discriminate|]). destruct H.
  - cbn [flat_map row_pairs col_pairs map app nadded nrow fst r_cols r_tid r_attach option_map].
    assert (S : forall k it, row_okb (alt1 (k_att k)) (AByVal 8) it = true -> key_fits ksz (fst (k, it)) /\ storable (alt1 (k_att (fst (k, it)))) (val8 (k_att (fst (k, it)))) (snd (k, it))).
    { intros k it H. split; [destruct k as [n z [| | | |]]; vm_compute; discriminate|]. apply byval_small. apply row_okb_ok. exact H. }
    repeat (apply Forall_cons; [apply S; vm_compute; reflexivity|]). apply Forall_nil.
  - right. constructor.
  - exists isort. split; [exact isort_sorter|]. split; [intros k l []|exact nix_run].
Qed.
(** the row is not returned although it satisfies the only condition of the query *)
Lemma null_row_lost : nquery [c_from] = Some [(mkIp 5 1, false)] /\
  forall V, (forall r q, In r nadded -> In q (query_keys 0%Z 1 2 (fun _ => false) [c_from] []) -> shows None (infos zf 1 r q) (V r q)) ->
    exists r, In r nadded /\ r_tid r = mkIp 3 1 /\ forall c, In c [c_from] -> satisfies 0%Z 1 2 (V r) [c_from] r c.
Proof.
  split; [exact nquery_loses|]. intros V HV. exists (nrow 3 [1; 4] None). split; [left; reflexivity|]. split; [reflexivity|].
  intros c [<-|[]]. unfold satisfies. cbn [cl_att c_from N.eqb existsb andb].
  set (q := reqOf 1 (fromval 2)). specialize (HV (nrow 3 [1; 4] None) q (or_introl eq_refl) (or_introl eq_refl)).
  assert (V (nrow 3 [1; 4] None) q <> None) as Hv.
  { destruct HV as [[H _]|(a & t & _ & ->)]; [vm_compute in H; discriminate|discriminate]. }
  split; [reflexivity|]. split; [exists q; split; [left; reflexivity|exact Hv]|].
  cbn [cl_cons c_from cl_vals map cl_att]. fold q. unfold anyOf. cbn [existsb fst]. destruct (V _ q); [reflexivity|congruence].
Qed.
