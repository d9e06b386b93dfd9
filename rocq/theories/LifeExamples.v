(** A concrete life of an index, for C48. *)
From Verif Require Import Base Ord OrdProof Codec CodecSpec CodecProof LeafPage LeafSpec Entries Bulk BulkSpec BulkProof BTree PostingTree PostingTreeSpec
  PropCodecProof PropTreeProof EntryTree IndexSpec IndexExamples VacTreeSpec VacIndex LifeSpec.
From Coq Require Import NArith ZArith Lia List Bool Arith Permutation Sorted.
Import ListNotations.

(** integer keys, attached values of 2000 bytes: three rows fill a leaf of a posting tree *)
Definition brow (b : N) (ks : list Z) : @hrow Z datum :=
  mkRow (mkIp b 1) [map (fun k => (k, CatNormKey, Some (DVar V4U (repeat 0%N 2000)))) ks] None.
Definition lbuilt : list (@hrow Z datum * bool) := [(brow 1 [3; 4]%Z, true); (brow 2 [3]%Z, true); (brow 3 [3; 5]%Z, true)].
Definition deadIn (l : list N) (t : iptr) : bool := existsb (N.eqb (blk t)) l.
(** six INSERTs; a VACUUM that empties a leaf of the posting tree of key 3 and the list of key 5; then the address of row 3
    is used again; another VACUUM *)
Definition lhist : list (event Z) :=
  [EIns (brow 4 [3; 6]%Z); EIns (brow 5 [3]%Z); EIns (brow 6 [3]%Z); EIns (brow 7 [3]%Z); EIns (brow 8 [3]%Z); EIns (brow 9 [3]%Z);
   EVac (deadIn [3; 4; 5; 6]%N); EIns (brow 3 [3; 9]%Z); EVac (deadIn [1; 8]%N)].
Definition lstart : @istate Z := match indexRun zf off0 bigA zcmp ksz 0%Z (emptyIndex 0%Z) (table_calls zf zcmp false 0 isort lbuilt []) with Some ix => ix | None => emptyIndex 0%Z end.
Definition lix (h : list (event Z)) : @istate Z := match indexLife zf off0 bigA zcmp ksz 0%Z 0 lstart h with Some ix => ix | None => emptyIndex 0%Z end.
Definition is_done {X} (o : option X) : bool := match o with Some _ => true | None => false end.
Lemma of_done {X} (o : option X) d : is_done o = true -> o = Some (match o with Some x => x | None => d end).
Proof. destruct o; [reflexivity|discriminate]. Qed.
Lemma lstart_run : indexRun zf off0 bigA zcmp ksz 0%Z (emptyIndex 0%Z) (table_calls zf zcmp false 0 isort lbuilt []) = Some lstart.
Proof. apply of_done. vm_compute. reflexivity. Qed.
Lemma lix_run : indexLife zf off0 bigA zcmp ksz 0%Z 0 lstart lhist = Some (lix lhist) /\ indexLife zf off0 bigA zcmp ksz 0%Z 0 lstart (firstn 6 lhist) = Some (lix (firstn 6 lhist)).
Proof. split; apply of_done; vm_compute; reflexivity. Qed.
Lemma brow_ok b ks : (N.of_nat (length ks) < 2 ^ 31)%N -> ssorted (fun x y : Z => (x - y)%Z) ks -> hrow_ok zf (brow b ks).
Proof.
  intros Hl Hs [|i] es E; cbn in E; [|destruct i; discriminate]; injection E as <-.
  split; [rewrite map_length; exact Hl|]. clear Hl. induction Hs; cbn; constructor; [assumption|].
  apply Forall_map. eapply Forall_impl; [|eassumption]. intros y Hy. exact Hy.
Qed.
Lemma ltable_ok : table_ok zf off0 bigA ksz 0 false lbuilt lhist.
Proof.
  split.
  - cbn [map lbuilt fst inserted lhist flat_map app]. repeat (apply Forall_cons; [apply brow_ok; [reflexivity|repeat constructor]|]). apply Forall_nil.
  - cbn [map lbuilt fst brow r_tid]. repeat (constructor; [cbn; intuition discriminate|]). constructor.
  - cbn [lhist fresh_tids lbuilt map fst app]. repeat (split; [cbn; intuition discriminate|]). exact I.
  - assert (H : forall (l : list (@hrow Z datum)), Forall (fun r => exists b ks, r = brow b ks /\ (b < 2 ^ 32)%N) l ->
      Forall (fun p : ekey Z * item datum => key_fits ksz (fst p) /\ storable (off0 (k_att (fst p))) (bigA (k_att (fst p))) (snd p)) (flat_map (row_pairs 0) l)).
    { intros l Hl. apply Forall_forall. intros p Hp. apply in_flat_map in Hp as (r & Hr & Hp). rewrite Forall_forall in Hl. destruct (Hl r Hr) as (b & ks & -> & Hb).
      unfold row_pairs in Hp. cbn [brow r_cols col_pairs] in Hp. rewrite app_nil_r in Hp. rewrite map_map in Hp. apply in_map_iff in Hp as (k & <- & _). split; [vm_compute; discriminate|].
      exact (bigrow_storable b Hb). }
    apply H. cbn [map lbuilt fst inserted lhist flat_map app]. repeat (apply Forall_cons; [eexists; eexists; split; [reflexivity|reflexivity]|]). apply Forall_nil.
  - left. reflexivity.
Qed.
Lemma lsingle : forall k l, In (k, l) (build_calls zf zcmp false 0 isort lbuilt) -> length l <= 1 \/ attr_align (bigA (k_att k)) = 1%N.
Proof.
  intros k l H. left. revert k l H. assert (E : forallb (fun c => length (snd c) <=? 1) (build_calls zf zcmp false 0 isort lbuilt) = true) by (vm_compute; reflexivity).
  intros k l H. rewrite forallb_forall in E. apply Nat.leb_le. exact (E _ H).
Qed.
(** before the first VACUUM; after it; at the end.  Keys 5 and 6 stay in the index without rows. *)
Lemma lfacts :
  map (length (A:=_)) (i_trees (lix (firstn 6 lhist))) = [4] /\
  rowblks (keyRows zf (lix (firstn 6 lhist)) (nk 3)) = Some (Some [1; 2; 3; 4; 5; 6; 7; 8; 9]%N) /\
  rowblks (keyRows zf (lix (firstn 7 lhist)) (nk 3)) = Some (Some [1; 2; 7; 8; 9]%N) /\
  rowblks (keyRows zf (lix lhist) (nk 3)) = Some (Some [2; 3; 7; 9]%N) /\
  rowblks (keyRows zf (lix lhist) (nk 5)) = Some (Some []) /\ rowblks (keyRows zf (lix lhist) (nk 9)) = Some (Some [3]%N) /\
  rowblks (keyRows zf (lix lhist) (nk 8)) = Some None.
Proof. vm_compute. auto 10. Qed.
(** the crash states of the first VACUUM: the page of key 5 and 6 is clean; the first leaf of the tree; the second; then the
    empty second leaf is unlinked *)
Lemma lcrash : exists tr, rumbulkdelete off0 bigA ksz (deadIn [3; 4; 5; 6]%N) (lix (firstn 6 lhist)) = Some (tr, Done) /\
  map (fun s => rowblks (keyRows zf s (nk 3))) tr =
    [Some (Some [1; 2; 3; 4; 5; 6; 7; 8; 9]); Some (Some [1; 2; 4; 5; 6; 7; 8; 9]); Some (Some [1; 2; 7; 8; 9]); Some (Some [1; 2; 7; 8; 9])]%N.
Proof.
  assert (H : match rumbulkdelete off0 bigA ksz (deadIn [3; 4; 5; 6]%N) (lix (firstn 6 lhist)) with
    | Some (tr, Done) => Some (map (fun s => rowblks (keyRows zf s (nk 3))) tr) | _ => None end =
    Some [Some (Some [1; 2; 3; 4; 5; 6; 7; 8; 9]); Some (Some [1; 2; 4; 5; 6; 7; 8; 9]); Some (Some [1; 2; 7; 8; 9]); Some (Some [1; 2; 7; 8; 9])]%N) by (vm_compute; reflexivity).
  revert H. generalize (rumbulkdelete off0 bigA ksz (deadIn [3; 4; 5; 6]%N) (lix (firstn 6 lhist))). intros [[tr [| |]]|] H; [|congruence|congruence|congruence].
  exists tr. split; [reflexivity|]. injection H as H. exact H.
Qed.
