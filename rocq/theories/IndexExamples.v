(** Concrete indexes used as witnesses in PropIndex.v. *)
From Verif Require Import Base Ord OrdProof Codec CodecSpec CodecProof LeafPage LeafSpec LeafCodec LeafCodecProof PropCodecProof
  Entries EntriesProof Bulk BulkSpec BulkProof BTree BTreeInv PostingTree PostingTreeSpec PropTreeProof EntryTree IndexSpec IndexHeap.
From Coq Require Import NArith ZArith Lia List Bool Arith Permutation Sorted.
Import ListNotations.

Definition nk (z : Z) : ekey Z := mkKey 1 z CatNormKey.
Definition ksz : ekey Z -> N := fun _ => 16%N.
Definition off0 : N -> bool := fun _ => false.
Definition bigA : N -> attr := fun _ => big_attr.
(** integer keys, attached values of 2000 bytes *)
Definition ins1 (z : Z) (b : N) : @call Z := (false, nk z, [bigrow b]).
Definition excalls : list (@call Z) :=
  [ins1 3 1; ins1 1 2; ins1 5 3; ins1 4 4; ins1 2 5; ins1 6 6; ins1 3 8; ins1 3 7; ins1 3 7]%Z.
Definition exrun (calls : list (@call Z)) := indexRun zf off0 bigA zcmp ksz 0%Z (emptyIndex 0%Z) calls.
Definition exix : @istate Z := match exrun excalls with Some ix => ix | None => emptyIndex 0%Z end.

Lemma ex_columns : columns_ok zf off0 bigA zcmp.
Proof.
  split; [exact zf_total|]. split; [exact zero_total|]. split; intro n.
  - split; [cbn; unfold legal_align; lia|discriminate].
  - cbn. lia.
Qed.
Lemma ex_call_ok z b : (b < 2 ^ 32)%N -> call_ok off0 bigA zcmp ksz (ins1 z b).
Proof. intro H. split; [vm_compute; discriminate|]. apply bigrow_valid. exact H. Qed.
Lemma excalls_ok : Forall (call_ok off0 bigA zcmp ksz) excalls.
Proof. repeat (apply Forall_cons; [apply ex_call_ok; reflexivity|]). apply Forall_nil. Qed.
Lemma exix_run : exrun excalls = Some exix.
Proof.
  assert (H : match exrun excalls with Some _ => true | None => false end = true) by (vm_compute; reflexivity).
  unfold exix. destruct (exrun excalls); [reflexivity|discriminate].
Qed.
(** its entry tree has split, key 3 has a posting tree with its three rows *)
Definition rowblks (r : option (option (list row))) : option (option (list N)) := option_map (option_map (map (fun x => blk (ip x)))) r.
Lemma exix_facts : length (i_entry exix) = 3 /\ length (i_trees exix) = 1 /\
  rowblks (keyRows zf exix (nk 3)) = Some (Some [1; 7; 8]%N) /\ rowblks (keyRows zf exix (nk 4)) = Some (Some [4]%N) /\
  rowblks (keyRows zf exix (nk 9)) = Some None.
Proof. vm_compute. auto. Qed.

(** the seventh insertion moves key 3 to a posting tree; a crash after its first logged change
    leaves an unused tree *)
Definition exix6 : @istate Z := match exrun (firstn 6 excalls) with Some ix => ix | None => emptyIndex 0%Z end.
Definition excut : @istate Z :=
  match rumEntryInsert zf off0 bigA zcmp ksz 0%Z false exix6 (nk 3) [bigrow 8] with Some (s :: _, _) => s | _ => emptyIndex 0%Z end.
Lemma exix6_run : exrun (firstn 6 excalls) = Some exix6.
Proof.
  assert (H : match exrun (firstn 6 excalls) with Some _ => true | None => false end = true) by (vm_compute; reflexivity).
  unfold exix6. destruct (exrun (firstn 6 excalls)); [reflexivity|discriminate].
Qed.
Lemma excut_step : exists tr out, rumEntryInsert zf off0 bigA zcmp ksz 0%Z false exix6 (nk 3) [bigrow 8] = Some (excut :: tr, out).
Proof.
  assert (H : match rumEntryInsert zf off0 bigA zcmp ksz 0%Z false exix6 (nk 3) [bigrow 8] with Some (_ :: _, _) => true | _ => false end = true)
    by (vm_compute; reflexivity).
  unfold excut. destruct (rumEntryInsert zf off0 bigA zcmp ksz 0%Z false exix6 (nk 3) [bigrow 8]) as [[[|s tr] out]|]; try discriminate. eauto.
Qed.
Lemma ex_reach calls : forall ix acked tried ix', ireaches zf off0 bigA zcmp ksz 0%Z ix acked tried ->
  Forall (call_ok off0 bigA zcmp ksz) calls -> indexRun zf off0 bigA zcmp ksz 0%Z ix calls = Some ix' ->
  ireaches zf off0 bigA zcmp ksz 0%Z ix' (acked ++ calls) (tried ++ calls).
Proof.
  induction calls as [|[[b k] rows] calls IH]; intros ix acked tried ix' Hr Hc H; cbn [indexRun] in H.
  - injection H as <-. rewrite !app_nil_r. exact Hr.
  - apply Forall_cons_iff in Hc as [Hc1 Hc].
    destruct (rumEntryInsert zf off0 bigA zcmp ksz 0%Z b ix k rows) as [[tr [| |]]|] eqn:E; try discriminate.
    change (acked ++ (b, k, rows) :: calls) with (acked ++ [(b, k, rows)] ++ calls). change (tried ++ (b, k, rows) :: calls) with (tried ++ [(b, k, rows)] ++ calls).
    rewrite !app_assoc. eapply IH; [|exact Hc|exact H]. eapply ireaches_done; eauto.
Qed.
Lemma six_reach : ireaches zf off0 bigA zcmp ksz 0%Z exix6 (firstn 6 excalls) (firstn 6 excalls).
Proof.
  assert (H : Forall (call_ok off0 bigA zcmp ksz) (firstn 6 excalls)).
  { pose proof excalls_ok as H. rewrite <- (firstn_skipn 6 excalls) in H. apply Forall_app in H. apply H. }
  pose proof exix6_run as E. unfold exrun in E. revert H E. generalize (firstn 6 excalls) exix6. intros l ix H E.
  exact (ex_reach l (emptyIndex 0%Z) [] [] ix (ireaches_new _ _ _ _ _ _) H E).
Qed.
Lemma excut_reach : ireaches zf off0 bigA zcmp ksz 0%Z excut (firstn 6 excalls) (firstn 7 excalls) /\
  length (i_trees excut) = 1 /\ rowblks (keyRows zf excut (nk 3)) = Some (Some [1]%N).
Proof.
  split; [|vm_compute; auto]. destruct excut_step as (tr & out & E).
  change (firstn 7 excalls) with (firstn 6 excalls ++ [(false, nk 3, [bigrow 8])]).
  eapply ireaches_cut; [exact six_reach|apply ex_call_ok; reflexivity|exact E|right; left; reflexivity].
Qed.
Lemma growth_example : exists tr, rumEntryInsert zf off0 bigA zcmp ksz 0%Z false exix6 (nk 3) [bigrow 8] = Some (tr, Done) /\
  length (i_trees exix6) = 0 /\ length (i_trees (last tr exix6)) = 1.
Proof.
  assert (H : match rumEntryInsert zf off0 bigA zcmp ksz 0%Z false exix6 (nk 3) [bigrow 8] with
              | Some (tr, Done) => andb (length (i_trees exix6) =? 0)%nat (length (i_trees (last tr exix6)) =? 1)%nat | _ => false end = true) by (vm_compute; reflexivity).
  destruct (rumEntryInsert zf off0 bigA zcmp ksz 0%Z false exix6 (nk 3) [bigrow 8]) as [[tr [| |]]|]; [|discriminate H|discriminate H|discriminate H]. exists tr.
  apply andb_true_iff in H as [H1 H2]. split; [reflexivity|]. split; apply Nat.eqb_eq; assumption.
Qed.

(** an order_by_attach table: two columns, attached value with the first *)
Definition dval (d : datum) : Z := match d with DVal v => Z.of_N v | _ => 0 end.
Definition dcmp (x y : datum) : Z := (dval x - dval y)%Z.
Lemma dcmp_total : total_cmp dcmp.
Proof. unfold dcmp. split; intros; lia. Qed.
Definition alt1 : N -> bool := fun n => (true && (n =? 1)%N)%bool.
Definition val8 : N -> attr := fun _ => AByVal 8.
Definition trow (b : N) (ks : list Z) (v : N) : @hrow Z datum :=
  mkRow (mkIp b 1) [map (fun k => (k, CatNormKey, None)) ks; [(7%Z, CatNormKey, None)]] (Some (DVal v)).
Definition tbuilt : list (@hrow Z datum * bool) :=
  [(trow 3 [1; 2; 4]%Z 10, false); (trow 5 [2; 4]%Z 11, true); (trow 9 [1; 4]%Z 9, false); (trow 12 [4]%Z 10, false)].
Definition tadded : list (@hrow Z datum) := [trow 4 [1; 4]%Z 30; trow 1 [2]%Z 5].

Lemma trow_ok b ks v : (N.of_nat (length ks) < 2 ^ 31)%N -> ssorted (fun x y : Z => (x - y)%Z) ks -> hrow_ok zf (trow b ks v).
Proof.
  intros Hl Hs [|[|i]] es E; cbn in E; [| |destruct i; discriminate]; injection E as <-.
  - split; [rewrite map_length; exact Hl|]. clear Hl. induction Hs; cbn; constructor; [assumption|].
    apply Forall_map. eapply Forall_impl; [|eassumption]. intros y Hy. exact Hy.
  - split; [reflexivity|]. repeat constructor.
Qed.
Lemma table_example :
  columns_ok zf alt1 val8 dcmp /\ sorter (@isort (item datum)) /\
  Forall (fun rf => hrow_ok zf (fst rf)) tbuilt /\ Forall (hrow_ok zf) tadded /\
  NoDup (map r_tid (map fst tbuilt ++ tadded)) /\
  Forall (fun p => key_fits ksz (fst p) /\ storable (alt1 (k_att (fst p))) (val8 (k_att (fst p))) (snd p)) (flat_map (row_pairs 1) (map fst tbuilt ++ tadded)) /\
  StronglySorted (fun s t => (rumCompareItemPointers s t <= 0)%Z) (map (fun rf => r_tid (fst rf)) tbuilt) /\
  rowblks match indexRun zf alt1 val8 dcmp ksz 0%Z (emptyIndex 0%Z) (table_calls zf dcmp true 1 isort tbuilt tadded) with
          | Some ix => keyRows zf ix (nk 4) | None => None end = Some (Some [9; 3; 12; 5; 4]%N).
Proof.
  split; [|split; [exact isort_sorter|split; [|split; [|split; [|split; [|split]]]]]].
  - split; [exact zf_total|]. split; [exact dcmp_total|]. split; intro n.
    + split; [cbn; unfold legal_align; lia|]. intros _. exists 8. reflexivity.
    + cbn. auto.
  - repeat (apply Forall_cons; [apply trow_ok; [reflexivity|repeat constructor]|]). apply Forall_nil.
  - repeat (apply Forall_cons; [apply trow_ok; [reflexivity|repeat constructor]|]). apply Forall_nil.
  - cbn. repeat (constructor; [cbn; intuition discriminate|]). constructor.
  - cbn [flat_map row_pairs col_pairs map app tbuilt tadded trow fst r_cols r_tid r_attach].
    assert (S : forall k it, row_okb (alt1 (k_att k)) (AByVal 8) it = true -> key_fits ksz (fst (k, it)) /\ storable (alt1 (k_att (fst (k, it)))) (val8 (k_att (fst (k, it)))) (snd (k, it))).
    { intros k it H. split; [destruct k as [n z [| | | |]]; vm_compute; discriminate|]. apply byval_small. apply row_okb_ok. exact H. }
    repeat (apply Forall_cons; [apply S; vm_compute; reflexivity|]). apply Forall_nil.
  - cbn [map tbuilt fst r_tid trow]. repeat (apply SSorted_cons; [|repeat (apply Forall_cons; [vm_compute; discriminate|]); apply Forall_nil]). apply SSorted_nil.
  - vm_compute. reflexivity.
Qed.
