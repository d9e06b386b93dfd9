(** Concrete indexes and queries for C27. *)
From Coq Require Import NArith ZArith Lia List Permutation Sorted Bool Arith.
From Verif Require Import Base Ord OrdProof Codec CodecSpec LeafSpec Entries Bulk BulkSpec BulkProof BTree PostingTree PostingTreeSpec
  PropCodecProof PropTreeProof EntryTree IndexSpec IndexExamples ScanEntry Scan ScanSpec TidBitmap IndexScan LeafCodec VacTreeSpec VacIndex VacScanSpec LifeSpec QuerySpec LifeQuery QueryExamples ScalarExamples OrderScan OrderSpec.
Import ListNotations.
Local Open Scope Z_scope.

(** Column 1: keys; column 2: a value, attached to column 1; column 3: a number. *)
Definition orow (b : N) (ks : list Z) (v : option N) (n : Z) : @hrow Z datum :=
  mkRow (mkIp b 1) [map (fun k => (k, CatNormKey, None)) ks;
                    [match v with Some v => (Z.of_N v, CatNormKey, None) | None => (0, CatNullItem, None) end];
                    [(n, CatNormKey, None)]] (option_map DVal v).
Definition otable : list (@hrow Z datum) :=
  [orow 1 [1; 4] (Some 3%N) 9; orow 2 [1] (Some 8%N) 2; orow 3 [1; 4] (Some 14%N) 4; orow 4 [2] (Some 10%N) 7; orow 5 [4] (Some 11%N) 5].
(** one of its rows without a value *)
Definition otable2 : list (@hrow Z datum) := [orow 1 [1; 4] (Some 3%N) 9; orow 2 [1] None 2].
Definition alt2 (addTo : N) : N -> bool := fun n => (false && (n =? addTo)%N)%bool.
Definition oix_of (addTo : N) (t : list (@hrow Z datum)) : @istate Z :=
  match indexRun zf (alt2 addTo) val8 dcmp ksz 0%Z (emptyIndex 0%Z) (table_calls zf dcmp false addTo isort [] t) with Some ix => ix | None => emptyIndex 0%Z end.
Definition oix := oix_of 1 otable.
Definition oix2 := oix_of 1 otable2.
Definition oix3 := oix_of 0 otable.
Lemma o_columns addTo : columns_ok zf (alt2 addTo) val8 dcmp.
Proof.
  destruct table_example as ((H1 & H2 & _) & _). split; [exact H1|]. split; [exact H2|]. split; intro n.
  - split; [cbn; unfold legal_align; lia|]. discriminate.
  - cbn. auto.
Qed.
Lemma orow_ok b ks v n : ks = [1] \/ ks = [4] \/ ks = [2] \/ ks = [1; 4] -> hrow_ok zf (orow b ks v n).
Proof.
  intros H [|[|[|i]]] es E; cbn in E; [| | |destruct i; discriminate]; injection E as <-.
  - destruct H as [-> |[-> |[-> | ->]]]; (split; [reflexivity|]); repeat constructor; try (vm_compute; reflexivity).
  - split; [reflexivity|]. destruct v; repeat constructor.
  - split; [reflexivity|]. repeat constructor.
Qed.
Lemma oix_index : table_index zf (alt2 1) val8 dcmp ksz 0%Z false 1 [] (map EIns otable) oix.
Proof.
  apply inserts_index.
  - apply o_columns.
  - reflexivity.
  - cbn [map app]. repeat (apply Forall_cons; [apply orow_ok; auto|]). apply Forall_nil.
  - cbn. repeat (constructor; [cbn; intuition discriminate|]). constructor.
  - intros r H. cbn in H. repeat (destruct H as [<-|H]; [discriminate|]). destruct H.
  - cbn [flat_map row_pairs col_pairs map app otable orow fst r_cols r_tid r_attach option_map].
    assert (S : forall k it, row_okb (alt2 1 (k_att k)) (AByVal 8) it = true -> key_fits ksz (fst (k, it)) /\ storable (alt2 1 (k_att (fst (k, it)))) (val8 (k_att (fst (k, it)))) (snd (k, it))).
    { intros k it H. split; [destruct k as [n z [| | | |]]; vm_compute; discriminate|]. apply byval_small. apply row_okb_ok. exact H. }
    repeat (apply Forall_cons; [apply S; vm_compute; reflexivity|]). apply Forall_nil.
  - left. reflexivity.
  - exists isort. split; [exact isort_sorter|]. split; [intros k l []|vm_compute; reflexivity].
Qed.
Lemma oix2_index : table_index zf (alt2 1) val8 dcmp ksz 0%Z false 1 [] (map EIns otable2) oix2.
Proof.
  apply inserts_index.
  - apply o_columns.
  - reflexivity.
  - cbn [map app]. repeat (apply Forall_cons; [apply orow_ok; auto|]). apply Forall_nil.
  - cbn. repeat (constructor; [cbn; intuition discriminate|]). constructor.
  - intros r H. cbn in H. repeat (destruct H as [<-|H]; [discriminate|]). destruct H.
  - cbn [flat_map row_pairs col_pairs map app otable2 orow fst r_cols r_tid r_attach option_map].
    assert (S : forall k it, row_okb (alt2 1 (k_att k)) (AByVal 8) it = true -> key_fits ksz (fst (k, it)) /\ storable (alt2 1 (k_att (fst (k, it)))) (val8 (k_att (fst (k, it)))) (snd (k, it))).
    { intros k it H. split; [destruct k as [n z [| | | |]]; vm_compute; discriminate|]. apply byval_small. apply row_okb_ok. exact H. }
    repeat (apply Forall_cons; [apply S; vm_compute; reflexivity|]). apply Forall_nil.
  - left. reflexivity.
  - exists isort. split; [exact isort_sorter|]. split; [intros k l []|vm_compute; reflexivity].
Qed.
Lemma oix3_index : table_index zf (alt2 0) val8 dcmp ksz 0%Z false 0 [] (map EIns otable) oix3.
Proof.
  apply inserts_index.
  - apply o_columns.
  - reflexivity.
  - cbn [map app]. repeat (apply Forall_cons; [apply orow_ok; auto|]). apply Forall_nil.
  - cbn. repeat (constructor; [cbn; intuition discriminate|]). constructor.
  - intros r H. cbn in H. repeat (destruct H as [<-|H]; [discriminate|]). destruct H.
  - cbn [flat_map row_pairs col_pairs map app otable orow fst r_cols r_tid r_attach option_map].
    assert (S : forall k it, row_okb (alt2 0 (k_att k)) (AByVal 8) it = true -> key_fits ksz (fst (k, it)) /\ storable (alt2 0 (k_att (fst (k, it)))) (val8 (k_att (fst (k, it)))) (snd (k, it))).
    { intros k it H. split; [destruct k as [n z [| | | |]]; vm_compute; discriminate|]. apply byval_small. apply row_okb_ok. exact H. }
    repeat (apply Forall_cons; [apply S; vm_compute; reflexivity|]). apply Forall_nil.
  - left. reflexivity.
  - exists isort. split; [exact isort_sorter|]. split; [intros k l []|vm_compute; reflexivity].
Qed.

(** distances: numbers and infinity *)
Definition ocmp (a b : option Z) : Z := match a, b with Some x, Some y => x - y | None, None => 0 | None, _ => 1 | _, None => -1 end.
Lemma ocmp_total : total_cmp ocmp.
Proof. split; [intros [x|]; cbn; lia|intros [x|] [y|]; cbn; lia|intros [x|] [y|] [z|]; cbn; lia]. Qed.
Lemma isort_items {T} : @sorts_items T isort.
Proof.
  intros cmp. assert (Hin : forall x l y, In y (ins_g cmp x l) <-> y = x \/ In y l).
  { intros x l y. induction l as [|z l IH]; cbn; [intuition|]. destruct (cmp x z <=? 0); cbn; [intuition|]. rewrite IH. intuition. }
  assert (Hperm : forall x l, Permutation (ins_g cmp x l) (x :: l)).
  { intros x l. induction l as [|z l IH]; cbn; [reflexivity|]. destruct (cmp x z <=? 0); [reflexivity|]. rewrite IH. apply perm_swap. }
  induction l as [|x l IH]; intros H1 H2 H3 H4; cbn [isort fold_right]; [split; [reflexivity|constructor]|].
  destruct IH as [P S]; [intros; apply H1; right; assumption|intros; apply H2; right; assumption|intros a b d Ha Hb Hd; apply H3; right; assumption|intros; apply H4; right; assumption|].
  split; [rewrite Hperm, P; reflexivity|].
  assert (Hs : forall y, In y (isort cmp l) -> In y l) by (intros y Hy; eapply Permutation_in; eauto). clear P.
  assert (Hgen : forall m, (forall y, In y m -> In y l) -> StronglySorted (fun a b => cmp a b <= 0) m -> StronglySorted (fun a b => cmp a b <= 0) (ins_g cmp x m)).
  { intros m Hm Sm. induction Sm as [|z m Sm IHm F]; cbn [ins_g]; [constructor; constructor|]. destruct (Z.leb_spec (cmp x z) 0) as [L|L].
    - constructor; [constructor; assumption|]. constructor; [exact L|]. rewrite Forall_forall in *. intros y Hy. apply (H3 x z y); [left; reflexivity|right; apply Hm; left; reflexivity|right; apply Hm; right; exact Hy|exact L|auto].
    - constructor; [apply IHm; intros; apply Hm; right; assumption|]. rewrite Forall_forall in *. intros y Hy. apply Hin in Hy as [-> |Hy]; [|auto].
      destruct (H2 x z (or_introl eq_refl) (or_intror (Hm z (or_introl eq_refl)))); [lia|assumption]. }
  apply Hgen; [exact Hs|exact S].
Qed.

Notation oord := (ordering Z (option Z)).
Definition noD : option Z := None.
(** ORDER BY column 2 <=> 10, through the attached value *)
Definition o_att : oord := mkOrd (mkClause 2%N false [eqval 10] 0 anyOf None) (fun _ => noD) (fun d => Some (Z.abs (10 - dval d))) (fun _ => noD).
(** ORDER BY the number of keys missing in column 1 *)
Definition o_miss : oord := mkOrd (mkClause 1%N false [eqval 1; eqval 4] 0 anyOf None)
  (fun v => Some (Z.of_nat (length (filter (fun o => match o with None => true | _ => false end) v)))) (fun _ => noD) (fun _ => noD).
(** ORDER BY column n <=> x, through the key *)
Definition o_key (n : N) (x : Z) : oord := mkOrd (mkClause n false [eqval x] 0 anyOf None) (fun _ => noD) (fun _ => noD) (fun k => Some (Z.abs (x - k))).
Definition c_fromAt (n : N) (x : Z) : clause Z := mkClause n false [fromval x] 0 anyOf None.
Definition oquery (addTo attach : N) (curKey : N -> bool) (ix : @istate Z) (conds : list (clause Z)) (orders : list oord) :=
  orderedScan ocmp None 0%Z addTo attach curKey zf false dcmp isort (fun _ => item_min) (fun _ => None) (fun _ => false) (fun _ _ => 0%N) (sortDown false addTo dcmp) (fun _ => []) (fun l => l) 1000 isort ix conds orders.
Definition cur3 (n : N) : bool := (n =? 3)%N.
Definition cur23 (n : N) : bool := (n =? 2)%N || (n =? 3)%N.
Definition cur1 (n : N) : bool := (n =? 1)%N.
Lemma oquery_values :
  oquery 1 2 cur3 oix [c_any] [o_att; o_miss] = Some [(mkIp 5 1, false, [Some 1; Some 1]); (mkIp 2 1, false, [Some 2; Some 1]); (mkIp 3 1, false, [Some 4; Some 0]); (mkIp 1 1, false, [Some 7; Some 0])] /\
  oquery 1 2 cur3 oix [c_fromAt 3 3] [o_key 3 6] = Some [(mkIp 4 1, false, [Some 1]); (mkIp 5 1, false, [Some 1]); (mkIp 3 1, false, [Some 2]); (mkIp 1 1, false, [Some 3])] /\
  oquery 1 2 cur3 oix2 [c_any] [o_att] = Some [(mkIp 1 1, false, [Some 7]); (mkIp 2 1, false, [None])].
Proof. vm_compute. auto. Qed.
Notation ocovered addTo attach curKey table := (covered zf 0%Z addTo attach false curKey (fun _ => false) table table).
Lemma o_not_fast addTo attach curKey conds orders : kept addTo attach conds <> [] -> ~ goes_fast (K := Z) 0%Z addTo attach curKey (fun _ => false) conds orders.
Proof. intros Hne (H & _). destruct (kept addTo attach conds) as [|c l]; [congruence|]. specialize (H c (or_introl eq_refl)). discriminate. Qed.
Lemma from_partial P n x : partial_ok zf P (reqOf n (fromval x)).
Proof.
  intros f E. cbn in E. injection E as <-. unfold zf. cbn [rq_att rq_key reqOf fromval qv_key]. split; [|split].
  - intros k _. destruct (Z.leb_spec x k); lia.
  - intros k k' _ _. destruct (Z.leb_spec x k); lia.
  - intros k k' _ _ H. replace k with k' by lia. reflexivity.
Qed.
Lemma exact_partial P n x : partial_ok zf P (reqOf n (eqval x)).
Proof. intros f E. discriminate. Qed.
Lemma o_covered addTo attach curKey table conds orders : conds <> [] -> kept addTo attach conds = conds -> kept addTo attach conds <> [] ->
  (forall c, In c conds -> cl_att c = addTo -> cl_att c <> attach) ->
  (forall q, In q (query_keys 0%Z addTo attach curKey conds orders) -> exists n x, q = reqOf n (fromval x) \/ q = reqOf n (eqval x)) ->
  ocovered addTo attach curKey table conds orders.
Proof.
  intros H0 H1 H2 H3 H4. split.
  - intros q Hq. destruct (H4 q Hq) as (n & x & [-> | ->]); [apply from_partial|apply exact_partial].
  - discriminate.
  - intros c Hc Hn. exfalso. apply Hn. rewrite H1. exact Hc.
  - exact H3.
  - intros E. contradiction.
  - discriminate.
  - intro H. exfalso. revert H. apply o_not_fast. exact H2.
Qed.
Ltac o_cov := apply o_covered; [discriminate|reflexivity|discriminate|intros c Hc; cbn in Hc; intuition subst; cbn in *; discriminate|
  intros q Hq; cbn in Hq; intuition subst; eexists _, _; (left; reflexivity) || (right; reflexivity)].
Lemma o_covered_1 : ocovered 1 2 cur3 otable [c_any] (map od_clause [o_att; o_miss]).
Proof. o_cov. Qed.
Lemma o_covered_2 : ocovered 1 2 cur3 otable [c_fromAt 3 3] (map od_clause [o_key 3 6]).
Proof. o_cov. Qed.
Lemma o_covered_3 : ocovered 1 2 cur3 otable2 [c_any] (map od_clause [o_att]).
Proof. o_cov. Qed.
Lemma o_covered_4 : ocovered 1 2 cur3 otable2 [c_any] (map od_clause [o_miss; o_att]).
Proof. o_cov. Qed.
Lemma o_covered_5 : ocovered 0 0 cur23 otable [c_fromAt 2 0; c_fromAt 3 0] (map od_clause [o_key 2 10; o_key 3 5]).
Proof. o_cov. Qed.
Lemma o_covered_6 : ocovered 1 2 cur1 otable [c_fromAt 1 2] (map od_clause [o_att; o_key 1 4]).
Proof. o_cov. Qed.
Lemma oc_1 : orders_covered zf 0%Z 1 2 cur3 otable [c_any] [o_att; o_miss].
Proof.
  split.
  - intros o _ _. exists c_any. split; [left; reflexivity|reflexivity].
  - intros o o' _ _ _ _ _ r Hr. cbn in Hr. repeat (destruct Hr as [<-|Hr]; [discriminate|]). destruct Hr.
  - intros o Ho _ Hc. exfalso. cbn in Ho. destruct Ho as [<-|[<-|[]]]; discriminate.
  - intros o o' Ho _ _ Hc. exfalso. cbn in Ho. destruct Ho as [<-|[<-|[]]]; discriminate.
Qed.
Lemma oc_2 : orders_covered zf 0%Z 1 2 cur3 otable [c_fromAt 3 3] [o_key 3 6].
Proof.
  split.
  - intros o Ho Ha. exfalso. cbn in Ho. destruct Ho as [<-|[]]; discriminate.
  - intros o o' Ho _ Ha. exfalso. cbn in Ho. destruct Ho as [<-|[]]; discriminate.
  - intros o Ho _ Hc. cbn in Ho. destruct Ho as [<-|[]]. split; [|split].
    + exists [], (c_fromAt 3 3), []. split; [reflexivity|]. split; [reflexivity|]. split; [intros c []|reflexivity].
    + intros r e e' Hr He He' Ea Ea'. cbn in Hr.
      repeat (destruct Hr as [<-|Hr]; [cbn in He, He'; repeat (destruct He as [<-|He]; [try discriminate Ea|]); try destruct He; repeat (destruct He' as [<-|He']; [try discriminate Ea'; try reflexivity|]); destruct He'|]). destruct Hr.
    + intros k k' E. unfold zf in E. replace k with k' by lia. reflexivity.
  - intros o o' Ho Ho' _ _. cbn in Ho, Ho'. destruct Ho as [<-|[]]. destruct Ho' as [<-|[]]. split; [discriminate|reflexivity].
Qed.
Lemma oc_3 : orders_covered zf 0%Z 1 2 cur3 otable2 [c_any] [o_att].
Proof.
  split.
  - intros o _ _. exists c_any. split; [left; reflexivity|reflexivity].
  - intros o o' _ Ho' _ Hk. exfalso. cbn in Ho'. destruct Ho' as [<-|[]]; discriminate.
  - intros o Ho _ Hc. exfalso. cbn in Ho. destruct Ho as [<-|[]]; discriminate.
  - intros o o' Ho _ _ Hc. exfalso. cbn in Ho. destruct Ho as [<-|[]]; discriminate.
Qed.
Lemma oquery_wrong :
  oquery 1 2 cur3 oix2 [c_any] [o_miss; o_att] = Some [(mkIp 1 1, false, [Some 0; Some 7]); (mkIp 2 1, false, [Some 1; Some 10])] /\
  oquery 0 0 cur23 oix3 [c_fromAt 2 0; c_fromAt 3 0] [o_key 2 10; o_key 3 5] =
    Some [(mkIp 4 1, false, [Some 0; Some 5]); (mkIp 5 1, false, [Some 1; Some 6]); (mkIp 2 1, false, [Some 2; Some 3]); (mkIp 3 1, false, [Some 4; Some 9]); (mkIp 1 1, false, [Some 7; Some 2])] /\
  oquery 1 2 cur1 oix [c_fromAt 1 2] [o_att; o_key 1 4] =
    Some [(mkIp 4 1, false, [Some 0; Some 4]); (mkIp 5 1, false, [Some 1; Some 4]); (mkIp 3 1, false, [Some 4; Some 4]); (mkIp 1 1, false, [Some 7; Some 4])].
Proof. vm_compute. auto. Qed.
