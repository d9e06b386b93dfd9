(** C41: scans over posting-tree pages emptied by vacuum.
    Vocabulary: VacScanSpec.v, VacTreeSpec.v, ScanSpec.v; model: ScanEntry.v, Scan.v, VacuumTree.v, IndexScan.v (treeFound). *)
From Coq Require Import NArith ZArith Lia List Permutation Sorted Bool Arith.
From Verif Require Import Base Ord OrdProof Codec CodecSpec LeafSpec LeafCodec BTree PostingTree PostingTreeSpec PropTreeProof
  VacuumTree VacTreeSpec VacTreeExamples ScanEntry ScanEntryProof Scan ScanSpec ScanRegular ScanFast TidBitmap IndexScan PropFast VacScanSpec VacScanProof.
Import ListNotations.

(** What a scan meets in a tree reached by builds, insertions and vacuums, completed or cut: exactly the stored rows, in
    order, whatever pages are empty, in a form the scans below take. *)
Theorem C41_vacuumed_tree_found : forall alt a cmpA,
  config_ok alt a -> total_cmp cmpA -> safe_align a ->
  forall st must may junk, vreaches alt a cmpA st must may -> junk_ok st junk ->
  exists f refind rows, treeFound cmpA junk alt st = Some (f, refind) /\ ptScan st = Some rows /\
    (forall join, rows_found join f = rows) /\ (forall rs, f <> FMany rs) /\
    ssorted (compareRumItem alt cmpA) rows /\ (forall y, In y rows -> off (ip y) <> 0%N) /\
    found_ok (compareRumItem alt cmpA) f refind.
Proof. intros alt a cmpA H1 H2 H3. exact (vacuumed_found alt a cmpA H1 H2 H3). Qed.
Print Assumptions C41_vacuumed_tree_found.

(** C41, regular scan: any number of conditions and query keys, each query key a vacuumed tree with empty pages anywhere:
    the scan gives stored rows only, in order, and exactly the matching ones, provided the uninitialised memory does no
    harm ([junk_ok]).  Missing: harmful memory, where the claim is false (below), and the backward direction. *)
Theorem C41_regular_scan_of_vacuumed_trees_partial : forall (useAlt : bool) (addTo : N) (cmpA : datum -> datum -> Z), total_cmp cmpA ->
  forall joinFn visit iterate tbmMax (qs : list (qentry (A := datum))) (keys : list (skey datum)) (a : bool),
  isScanWithAltOrderKeys useAlt addTo keys = false -> query_ok qs keys ->
  (forall k, In k keys -> altOf useAlt addTo (sk_att k) = a) -> (forall q, In q qs -> altOf useAlt addTo (q_att q) = a) ->
  (forall q, In q qs -> exists at_ st must may junk, config_ok a at_ /\ safe_align at_ /\ vreaches a at_ cmpA st must may /\ junk_ok st junk /\
     treeFound cmpA junk a st = Some (q_found q, q_refind q)) ->
  (forall q q' y y', In q qs -> In q' qs -> In y (rows_found (joinFn (q_att q)) (q_found q)) ->
     In y' (rows_found (joinFn (q_att q')) (q_found q')) -> ip y = ip y' -> add y = add y') ->
  (exists k, In k keys /\ sk_order k = false) ->
  let out := scanRegular useAlt addTo cmpA joinFn visit iterate tbmMax (map start qs) keys in
  ssorted (compareRumItem a cmpA) (map (fun o => fst (fst o)) out) /\
  (forall p, (exists o, In o out /\ ip (fst (fst o)) = p) <-> (forall k, In k keys -> sk_order k = false -> matches addTo (rows joinFn qs) k p)) /\
  (forall x re s, In (x, re, s) out -> exists q, In q qs /\ In x (rows_found (joinFn (q_att q)) (q_found q))).
Proof.
  intros useAlt addTo cmpA HA joinFn visit iterate tbmMax qs keys a H1 H2 H3 H4 HV HS H7. cbv zeta.
  pose proof (vac_rows_ok cmpA HA joinFn a qs HV HS) as HR.
  assert (HF : forall q, In q qs -> found_ok (compareRumItem a cmpA) (q_found q) (q_refind q)) by (intros q Hq; apply (vac_key_ok cmpA HA joinFn a q (HV q Hq))).
  destruct (scanRegular_spec useAlt addTo cmpA HA joinFn visit iterate tbmMax qs keys a H1 H2 H3 H4 HR HF H7) as (R1 & R2 & R3).
  split; [exact R1|]. split; [exact R2|]. intros x re s Ho. apply (R3 x re s Ho).
Qed.
Print Assumptions C41_regular_scan_of_vacuumed_trees_partial.

(** C41, fast scan: one condition on one column. *)
Theorem C41_fast_scan_of_vacuumed_trees_partial : forall (useAlt : bool) (addTo : N) (cmpA : datum -> datum -> Z), total_cmp cmpA ->
  forall joinFn (qs : list (qentry (A := datum))) (keys : list (skey datum)) (sorted : list nat) (att0 : N) (ksearch : skey datum),
  let a := altOf useAlt addTo att0 in
  query_ok qs keys -> (forall q, In q qs -> q_att q = att0) ->
  (forall q, In q qs -> exists at_ st must may junk, config_ok a at_ /\ safe_align at_ /\ vreaches a at_ cmpA st must may /\ junk_ok st junk /\
     treeFound cmpA junk a st = Some (q_found q, q_refind q)) ->
  (forall q q' y y', In q qs -> In q' qs -> In y (rows_found (joinFn (q_att q)) (q_found q)) ->
     In y' (rows_found (joinFn (q_att q')) (q_found q')) -> ip y = ip y' -> add y = add y') ->
  filter (fun k => negb (sk_order k)) keys = [ksearch] -> pre_sound ksearch ->
  Permutation sorted (seq 0 (length qs)) ->
  StronglySorted (fun x y => 0 <= cmpEntries useAlt addTo cmpA (ent (startEntries useAlt addTo cmpA joinFn (map start qs)) x) (ent (startEntries useAlt addTo cmpA joinFn (map start qs)) y))%Z sorted ->
  let out := scanFast useAlt addTo cmpA joinFn (map start qs) keys sorted in
  ssorted (compareRumItem a cmpA) (map (fun o => fst (fst o)) out) /\
  (forall p, (exists o, In o out /\ ip (fst (fst o)) = p) <->
     (exists q y, In q qs /\ In y (rows_found (joinFn (q_att q)) (q_found q)) /\ ip y = p) /\ says addTo ksearch (sees (rows joinFn qs) ksearch p)) /\
  (forall x re s, In (x, re, s) out -> exists q, In q qs /\ In x (rows_found (joinFn (q_att q)) (q_found q))).
Proof.
  intros useAlt addTo cmpA HA joinFn qs keys sorted att0 ksearch a H1 H2 HV HS H5 H6 H7 H8. cbv zeta.
  pose proof (vac_rows_ok cmpA HA joinFn a qs HV HS) as HR.
  assert (HF : forall q, In q qs -> found_ok (compareRumItem a cmpA) (q_found q) (q_refind q)) by (intros q Hq; apply (vac_key_ok cmpA HA joinFn a q (HV q Hq))).
  destruct (C23_fast_scan_exact_partial datum useAlt addTo cmpA HA joinFn qs keys sorted att0 ksearch H1 H2 HR HF H5 H6) as (R1 & R2 & R3); [|exact H7|exact H8|].
  { intros q rs Hq E. exfalso. apply (vac_key_ok cmpA HA joinFn a q (HV q Hq)) in E. exact E. }
  split; [exact R1|]. split; [exact R2|]. intros x re s Ho. apply (R3 x re s Ho).
Qed.
Print Assumptions C41_fast_scan_of_vacuumed_trees_partial.

(** ** One query key, one condition: the key is there *)
Definition there (v : list (option (option datum))) : bool * bool := (match v with [Some _] => true | _ => false end, false).
Definition one_key : list (skey datum) := [mkSKey 1 false [0%nat] there None false None false].
Definition one_scan (junk : row) (st : list (page row)) : option (list iptr) :=
  option_map (fun fr => map (fun o => ip (fst (fst o)))
    (scanRegular false 0 zcmp (fun _ => None) (fun _ => []) (fun l => l) 100 [start (mkQe 1 (fst fr) 1 (snd fr))] one_key)) (treeFound zcmp junk false st).

Definition base_rows : list N := [10; 20; 30; 40; 50; 60; 70; 80; 90; 100; 110; 120; 130; 140]%N.
Lemma base_reached : vreaches false big_attr zcmp vac_base (map bigrow base_rows) (map bigrow base_rows).
Proof.
  assert (E0 : is_some (ptRun false big_attr zcmp (createPostingTree []) (singles base_rows)) = true) by (vm_compute; reflexivity).
  assert (S0 : forallb (fun i => N.ltb i (2 ^ 32)) base_rows = true) by (vm_compute; reflexivity).
  exact (vrun_new _ _ S0 (run_of_ok _ _ E0)).
Qed.
Lemma base_vacuumed dead : is_some (ptVacuum dead vac_base) = true ->
  vreaches false big_attr zcmp (vac_of vac_base dead) (filter (alive dead) (map bigrow base_rows)) (filter (alive dead) (map bigrow base_rows)).
Proof. intro H. exact (vac_of_ok _ _ _ _ base_reached H). Qed.

Definition first_gone : iptr -> bool := dead_in [10; 20; 30]%N.
Definition head_empty : list (page row) := vac_of vac_base first_gone.
Definition all_gone : list (page row) := vac_of vac_base (fun _ => true).
Definition addrs (l : option (list iptr)) : option (list (N * N)) := option_map (map (fun p => (blk p, off p))) l.

(** The first leaf emptied by vacuum: with memory that holds a dead row, or zeroes, all is well. *)
Lemma head_empty_reached : vreaches false big_attr zcmp head_empty (map bigrow (skipn 3 base_rows)) (map bigrow (skipn 3 base_rows)).
Proof.
  assert (E : is_some (ptVacuum first_gone vac_base) = true) by (vm_compute; reflexivity).
  exact (base_vacuumed first_gone E).
Qed.
Definition first_leaf (st : list (page row)) : option (nat * list row * option nat) :=
  match leftmostLeaf (S (length st)) st 0 with
  | Some b => match nth_error st b with Some pg => Some (b, p_items pg, p_right pg) | None => None end
  | None => None
  end.
Definition leaf_rows (st : list (page row)) (b : nat) : option (list N) := option_map (fun pg => map (fun r => blk (ip r)) (p_items pg)) (nth_error st b).
Definition head_shape (st : list (page row)) : bool :=
  match first_leaf st with
  | Some (_, [], Some c) => match leaf_rows st c with Some (_ :: _) => true | _ => false end
  | _ => false
  end.
Lemma head_shape_ok st junk : head_shape st = true -> off (ip junk) = 0%N -> junk_ok st junk.
Proof.
  unfold head_shape, first_leaf. intros H Hz b pg Hb Hg He. right. split; [exact Hz|]. intros c pg' Hr Hg'.
  unfold row in *. rewrite Hb, Hg, He, Hr in H. unfold leaf_rows, row in H. rewrite Hg' in H. cbn [option_map] in H. intro E. rewrite E in H. discriminate.
Qed.
Definition scan_avoids (st : list (page row)) (p : iptr) : bool :=
  match ptScan st with Some rows => forallb (fun r => negb (tid_eqb (ip r) p)) rows | None => true end.
Lemma scan_avoids_ok st junk : scan_avoids st (ip junk) = true -> off (ip junk) <> 0%N -> junk_ok st junk.
Proof.
  unfold scan_avoids. intros H Hz b pg _ _ _. left. split; [exact Hz|]. intros rows E y Hy. rewrite E, forallb_forall in H. specialize (H y Hy).
  intro Q. rewrite Q in H. unfold tid_eqb in H. rewrite !N.eqb_refl in H. discriminate.
Qed.
Example C41_hypotheses_met : config_ok false big_attr /\ total_cmp zcmp /\ safe_align big_attr /\
  vreaches false big_attr zcmp head_empty (map bigrow (skipn 3 base_rows)) (map bigrow (skipn 3 base_rows)) /\
  option_map (fun x => snd (fst x)) (first_leaf head_empty) = Some [] /\
  junk_ok head_empty (mkItem (mkIp 0 0) None) /\ junk_ok head_empty (bigrow 10) /\ junk_ok head_empty (bigrow 75) /\
  isScanWithAltOrderKeys false 0 one_key = false /\
  addrs (one_scan (mkItem (mkIp 0 0) None) head_empty) = Some (map (fun b => (b, 1)) (skipn 3 base_rows))%N /\
  addrs (one_scan (bigrow 10) head_empty) = Some (map (fun b => (b, 1)) (skipn 3 base_rows))%N /\
  addrs (one_scan (bigrow 75) head_empty) = Some (map (fun b => (b, 1)) (skipn 3 base_rows))%N.
Proof.
  destruct C12_example as (C1 & C2 & C3 & _). split; [exact C1|]. split; [exact C2|]. split; [exact C3|].
  split; [exact head_empty_reached|]. split; [vm_compute; reflexivity|].
  split; [apply head_shape_ok; [vm_compute; reflexivity|reflexivity]|].
  split; [apply scan_avoids_ok; [vm_compute; reflexivity|vm_compute; discriminate]|].
  split; [apply scan_avoids_ok; [vm_compute; reflexivity|vm_compute; discriminate]|].
  split; [reflexivity|]. split; [vm_compute; reflexivity|]. split; vm_compute; reflexivity.
Qed.

(** The condition on the memory is needed.  If it holds the first row of the second leaf - left there, say, by an earlier
    scan of the same tree - the scan takes that row for already given: a stored row is lost. *)
Theorem C41_stale_memory_loses_row_refuted : exists st must may rows junk out,
  vreaches false big_attr zcmp st must may /\ ptScan st = Some rows /\ In junk rows /\
  one_scan junk st = Some out /\ ~ In (ip junk) out.
Proof.
  exists head_empty, (map bigrow (skipn 3 base_rows)), (map bigrow (skipn 3 base_rows)), (map bigrow (skipn 3 base_rows)), (bigrow 40), (map (fun b => mkIp b 1) (skipn 4 base_rows)).
  split; [exact head_empty_reached|]. split; [vm_compute; reflexivity|]. split; [left; reflexivity|]. split; [vm_compute; reflexivity|].
  cbn [skipn base_rows map]. intro H. repeat (destruct H as [H|H]; [vm_compute in H; discriminate|]). exact H.
Qed.
Print Assumptions C41_stale_memory_loses_row_refuted.

(** Two query keys, either of which is enough. *)
Definition either (v : list (option (option datum))) : bool * bool := (existsb (fun o => match o with Some _ => true | None => false end) v, false).
Definition either_key : list (skey datum) := [mkSKey 1 false [0%nat; 1%nat] either None false None false].
Definition two_scan (junk : row) (st1 st2 : list (page row)) : option (list iptr) :=
  match treeFound zcmp junk false st1, treeFound zcmp junk false st2 with
  | Some fr1, Some fr2 =>
      Some (map (fun o => ip (fst (fst o))) (scanRegular false 0 zcmp (fun _ => None) (fun _ => []) (fun l => l) 100
        [start (mkQe 1 (fst fr1) 1 (snd fr1)); start (mkQe 1 (fst fr2) 1 (snd fr2))] either_key))
  | _, _ => None
  end.
(** ... Zeroed memory is not harmless either: after vacuum removed every row of one key's tree of several leaves, a query
    for that key or another loses the first row of the other key. *)
Theorem C41_zeroed_memory_loses_row_refuted : exists st1 st2 must1 may1 must2 may2 rows2 x out,
  vreaches false big_attr zcmp st1 must1 may1 /\ vreaches false big_attr zcmp st2 must2 may2 /\
  ptScan st1 = Some [] /\ ptScan st2 = Some rows2 /\ In x rows2 /\
  two_scan (mkItem (mkIp 0 0) None) st1 st2 = Some out /\ ~ In (ip x) out.
Proof.
  exists all_gone, vac_base, [], [], (map bigrow base_rows), (map bigrow base_rows), (map bigrow base_rows), (bigrow 10), (map (fun b => mkIp b 1) (skipn 1 base_rows)).
  split.
  { assert (E : is_some (ptVacuum (fun _ => true) vac_base) = true) by (vm_compute; reflexivity). exact (base_vacuumed _ E). }
  split; [exact base_reached|]. split; [vm_compute; reflexivity|]. split; [vm_compute; reflexivity|]. split; [left; reflexivity|].
  split; [vm_compute; reflexivity|].
  cbn [skipn base_rows map]. intro H. repeat (destruct H as [H|H]; [vm_compute in H; discriminate|]). exact H.
Qed.
Print Assumptions C41_zeroed_memory_loses_row_refuted.
(** Other null item pointers in the memory are given as rows. *)
Theorem C41_null_row_given_refuted : exists st must may,
  vreaches false big_attr zcmp st must may /\ ptScan st = Some [] /\
  one_scan (mkItem (mkIp 5 0) None) st = Some [mkIp 5 0].
Proof.
  exists all_gone, [], []. split; [|split; vm_compute; reflexivity].
  assert (E : is_some (ptVacuum (fun _ => true) vac_base) = true) by (vm_compute; reflexivity).
  exact (base_vacuumed _ E).
Qed.
Print Assumptions C41_null_row_given_refuted.
