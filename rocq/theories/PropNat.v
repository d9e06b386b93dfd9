(** C28: ordering by the attached column without a sort. *)
From Verif Require Import Base Ord OrdProof LeafPage ScanEntry Scan ScanSpec NatScan NatSpec NatProof.
From Coq Require Import NArith ZArith Bool Arith List Lia Permutation Sorted.
Import ListNotations.
Local Open Scope Z_scope.

(** A query on the column the values are attached to, in an index ordered by them; the scan is ordered by a one-sided
    distance to [v].  Query keys have posting lists, or there is one query key and its posting tree has no page of zero
    or three rows and no page boundary at [v] ([down_ok]).  Every matching row is returned, once, with the right recheck
    flag; first the rows on the operator's side, then the others; and nearest first - for <=| when no row is at
    distance 0. *)
Theorem C28_natural_scan_partial {A} (addTo : N) (cmpA : A -> A -> Z) (joinFn : joins A) (below : item A) (fwd : bool) (v : A)
  (qs : list (qentry (A := A))) (keys : list (skey A)) sortEnts ksearch :
  total_cmp cmpA -> query_ok qs keys -> (forall q, In q qs -> q_att q = addTo) -> rows_ok (compareRumItem true cmpA) (rows joinFn qs) ->
  (forall q, In q qs -> found_ok (compareRumItem true cmpA) (q_found q) (q_refind q)) -> (forall q, In q qs -> down_ok cmpA v (length qs) q) ->
  filter (fun k => negb (sk_order k)) keys = [ksearch] -> pre_sound ksearch -> sorts_dir cmpA sortEnts ->
  let out := naturalScan addTo cmpA joinFn below sortEnts fwd v qs keys in
  NoDup (map (fun o => ip (fst o)) out) /\
  (forall p, (exists o, In o out /\ ip (fst o) = p) <->
     (exists q y, In q qs /\ In y (rows_found (joinFn (q_att q)) (q_found q)) /\ ip y = p) /\ says addTo ksearch (sees (rows joinFn qs) ksearch p)) /\
  (forall x re, In (x, re) out -> (exists q, In q qs /\ In x (rows_found (joinFn (q_att q)) (q_found q))) /\ (re = true <-> asks_recheck (rows joinFn qs) ksearch (ip x))) /\
  (exists near far, out = near ++ far /\ (forall o, In o near -> upper cmpA v (fst o) = fwd) /\ (forall o, In o far -> upper cmpA v (fst o) = negb fwd) /\
     ssorted (cmpDir cmpA fwd) (map fst near) /\ ssorted (cmpDir cmpA (negb fwd)) (map fst far)) /\
  forall d, one_sided cmpA fwd v d ->
    (fwd = false -> forall q y a, In q qs -> In y (rows_found (joinFn (q_att q)) (q_found q)) -> add y = Some a -> cmpA v a <> 0) ->
    nearest_first d (map fst out).
Proof. intro CA. exact (natural_spec addTo cmpA CA joinFn below fwd v qs keys sortEnts ksearch). Qed.
Print Assumptions C28_natural_scan_partial.

(** The pass upwards alone, with posting trees under several query keys: exactly the matching rows not below [v],
    ascending. *)
Theorem C28_upward_pass_partial {A} (addTo : N) (cmpA : A -> A -> Z) (joinFn : joins A) (below : item A) (v : A)
  (qs : list (qentry (A := A))) (keys : list (skey A)) sortEnts ksearch :
  total_cmp cmpA -> query_ok qs keys -> (forall q, In q qs -> q_att q = addTo) -> rows_ok (compareRumItem true cmpA) (rows joinFn qs) ->
  (forall q, In q qs -> found_ok (compareRumItem true cmpA) (q_found q) (q_refind q)) -> (forall q, In q qs -> up_ok cmpA v q) ->
  filter (fun k => negb (sk_order k)) keys = [ksearch] -> pre_sound ksearch -> sorts_dir cmpA sortEnts ->
  let out := passD addTo cmpA joinFn below true (sortEnts true) (map (startMark cmpA true (markItem v)) qs) keys in
  ssorted (compareRumItem true cmpA) (map fst out) /\
  (forall p, (exists o, In o out /\ ip (fst o) = p) <->
     (exists q y, In q qs /\ In y (rows_found (joinFn (q_att q)) (q_found q)) /\ upper cmpA v y = true /\ ip y = p) /\ says addTo ksearch (sees (rows joinFn qs) ksearch p)) /\
  (forall x re, In (x, re) out -> (exists q, In q qs /\ In x (rows_found (joinFn (q_att q)) (q_found q))) /\ upper cmpA v x = true /\
     (re = true <-> asks_recheck (rows joinFn qs) ksearch (ip x))).
Proof.
  intros CA HQ Hqa HRW Hfo Hup HOne HPre HSrt.
  destruct (HSrt true (startEntriesD addTo cmpA joinFn below true (map (startMark cmpA true (markItem v)) qs))) as [P1 P2].
  unfold startEntriesD in P1 at 2. rewrite !map_length in P1.
  exact (pass_spec addTo cmpA CA joinFn below true v qs keys (sortEnts true) ksearch HQ Hqa HRW Hfo Hup HOne HPre P1 P2).
Qed.
Print Assumptions C28_upward_pass_partial.

(** ** Examples: integers attached, distances |a - v|. *)
Definition zc (a b : Z) : Z := a - b.
Lemma zc_total : total_cmp zc. Proof. constructor; unfold zc; intros; lia. Qed.
Definition distR (v : Z) (a : option Z) : option Z := match a with Some a => if v <=? a then Some (a - v) else None | None => None end.
Definition distL (v : Z) (a : option Z) : option Z := match a with Some a => if a <=? v then Some (v - a) else None | None => None end.
Lemma distR_ok v : one_sided zc true v (distR v).
Proof.
  constructor; unfold onside, zc, distR.
  - intros a H. destruct (Z.leb_spec v a); [discriminate|lia].
  - intros a b da db H1 H2 H3. destruct (Z.leb_spec v a), (Z.leb_spec v b); try discriminate. intros E1 E2. injection E1 as <-. injection E2 as <-. lia.
  - intros a H. destruct (Z.leb_spec v a); [lia|reflexivity].
  - reflexivity.
Qed.
Lemma distL_ok v : one_sided zc false v (distL v).
Proof.
  constructor; unfold onside, zc, distL.
  - intros a H. destruct (Z.leb_spec a v); [discriminate|lia].
  - intros a b da db H1 H2 H3. destruct (Z.leb_spec a v), (Z.leb_spec b v); try discriminate. intros E1 E2. injection E1 as <-. injection E2 as <-. lia.
  - intros a H. destruct (Z.leb_spec a v); [lia|reflexivity].
  - reflexivity.
Qed.
Definition nit (v : Z) : item Z := mkItem (mkIp (Z.to_N v) 1) (Some v).
(** rows [f .. f+n-1], each with its number attached. *)
Definition rng (f n : Z) : list (item Z) := map (fun i => nit (f + Z.of_nat i)) (seq 0 (Z.to_nat n)).
(** One word; two words, both wanted; the ordering key. *)
Definition k_one : skey Z := mkSKey 1%N false [0%nat] (fun v => (match v with [Some _] => true | _ => false end, false)) (Some (fun l => forallb (fun b => b) l)) false None true.
Definition k_both : skey Z := mkSKey 1%N false [0%nat; 1%nat] (fun v => (match v with [Some _; Some _] => true | _ => false end, false)) (Some (fun l => forallb (fun b => b) l)) false None true.
Definition k_ord : skey Z := mkSKey 2%N true [] (fun _ => (false, false)) None false None true.
Fixpoint ins_e (le : nat -> nat -> bool) (n : nat) (l : list nat) : list nat := match l with [] => [n] | m :: r => if le n m then n :: l else m :: ins_e le n r end.
Definition sort_e (d : bool) (es : list (entry Z)) : list nat :=
  fold_right (ins_e (fun a b => 0 <=? cmpEntDir zc d (ent es a) (ent es b))) [] (seq 0 (length es)).
(** A leaf level whose right bounds are the last rows, and a search in it. *)
Definition leaves (l : list (list (item Z))) : list (leaf Z) := map (fun its => mkLeaf its (last its item_min)) l.
Definition searches (chain : list (leaf Z)) (x : item Z) : nat := length (filter (fun pg => compareRumItem true zc (lf_bound pg) x <? 0) (removelast chain)).
Definition q_tree (l : list (list (item Z))) : qentry (A := Z) := mkQe 1%N (FTree (leaves l) item_min) 10%N (searches (leaves l)).
Definition q_list (l : list (item Z)) : qentry (A := Z) := mkQe 1%N (FList l) 10%N (fun _ => O).
Definition natural (fwd : bool) (v : Z) qs keys : list (option Z) := map (fun o => add (fst o)) (naturalScan 1%N zc (fun _ => None) (nit 777) sort_e fwd v qs keys).

Lemma ins_e_perm le n l : Permutation (ins_e le n l) (n :: l).
Proof. induction l as [|m r IH]; cbn [ins_e]; [apply Permutation_refl|]. destruct (le n m); [apply Permutation_refl|]. eapply perm_trans; [apply perm_skip; exact IH|apply perm_swap]. Qed.
Lemma cmpEnt_total d : forall e1 e2 e3 : entry Z, (0 <= cmpEntDir zc d e1 e2 \/ 0 <= cmpEntDir zc d e2 e1) /\
  (0 <= cmpEntDir zc d e1 e2 -> 0 <= cmpEntDir zc d e2 e3 -> 0 <= cmpEntDir zc d e1 e3).
Proof.
  intros e1 e2 e3. pose proof (ScanFastD.cmpDir_total zc zc_total d) as T. unfold cmpEntDir.
  pose proof (cmp_le_sym _ T (e_cur e1) (e_cur e2)) as S1. pose proof (cmp_le_sym _ T (e_cur e2) (e_cur e1)) as S2.
  pose proof (cmp_le_sym _ T (e_cur e3) (e_cur e2)) as S3. pose proof (cmp_le_sym _ T (e_cur e3) (e_cur e1)) as S4.
  pose proof (tc_trans _ T (e_cur e3) (e_cur e2) (e_cur e1)) as S5.
  destruct (e_fin e1), (e_fin e2), (e_fin e3); try (split; intros; lia);
    repeat match goal with |- context [(?a =? ?b)%N] => destruct (N.eqb_spec a b) | |- context [(?a <? ?b)%N] => destruct (N.ltb_spec a b) end; cbn [negb];
    split; intros; try lia.
Qed.
Lemma sort_e_ok : sorts_dir zc sort_e.
Proof.
  intros d ents. unfold sort_e. set (le := fun a b => 0 <=? cmpEntDir zc d (ent ents a) (ent ents b)).
  assert (P : forall l, Permutation (fold_right (ins_e le) [] l) l).
  { induction l as [|n l IH]; [apply Permutation_refl|]. cbn [fold_right]. eapply perm_trans; [apply ins_e_perm|apply perm_skip; exact IH]. }
  split; [apply P|]. generalize (seq 0 (length ents)). clear P.
  assert (INS : forall n l, StronglySorted (fun a b => 0 <= cmpEntDir zc d (ent ents a) (ent ents b)) l -> StronglySorted (fun a b => 0 <= cmpEntDir zc d (ent ents a) (ent ents b)) (ins_e le n l)).
  { intros n l. induction l as [|m r IH]; intro S; cbn [ins_e]; [constructor; constructor|]. apply StronglySorted_inv in S as [S F].
    unfold le at 1. destruct (Z.leb_spec 0 (cmpEntDir zc d (ent ents n) (ent ents m))) as [L|L].
    - constructor; [constructor; assumption|]. constructor; [exact L|]. eapply Forall_impl; [|exact F]. cbv beta. intros k Hk.
      apply (proj2 (cmpEnt_total d (ent ents n) (ent ents m) (ent ents k))); assumption.
    - constructor; [apply IH; exact S|]. apply Forall_forall. intros k Hk. apply (Permutation_in _ (ins_e_perm le n r)) in Hk. destruct Hk as [<-|Hk].
      + destruct (proj1 (cmpEnt_total d (ent ents m) (ent ents n) (ent ents n))) as [G|G]; [exact G|lia].
      + rewrite Forall_forall in F. apply F. exact Hk. }
  induction l as [|n l IH]; [constructor|]. cbn [fold_right]. apply INS. exact IH.
Qed.

(** Two words, posting lists: rows 4..9 and 2, 5, 6, 8, 12 around 6. *)
Definition two_lists : list (qentry (A := Z)) := [q_list (rng 4 6); q_list (rng 2 1 ++ rng 5 2 ++ rng 8 1 ++ rng 12 1)].
Example ex_two : natural true 6 two_lists [k_both; k_ord] = [Some 6; Some 8; Some 5] /\ natural false 6 two_lists [k_both; k_ord] = [Some 5; Some 6; Some 8].
Proof. split; vm_compute; reflexivity. Qed.
(** One word, a posting tree of three leaf pages. *)
Definition one_tree : list (qentry (A := Z)) := [q_tree [rng 1 4; rng 10 5; rng 20 7]].
Example ex_tree : natural true 12 one_tree [k_one; k_ord] = map Some [12; 13; 14; 20; 21; 22; 23; 24; 25; 26; 11; 10; 4; 3; 2; 1].
Proof. vm_compute. reflexivity. Qed.

Lemma sorted_by_check (l : list (item Z)) : forallb (fun o => let '(x, y) := o in compareRumItem true zc x y <? 0) (combine l (tl l)) = true -> ssorted (compareRumItem true zc) l.
Proof.
  induction l as [|x [|y l] IH]; intro H; [constructor|apply ssorted_cons; constructor|]. cbn [tl combine forallb] in H. apply andb_true_iff in H as [H1 H2]. apply Z.ltb_lt in H1.
  specialize (IH H2). apply ssorted_cons; [exact IH|]. constructor; [exact H1|].
  apply (ssorted_inv (compareRumItem true zc)) in IH as [_ F]. eapply Forall_impl; [|exact F]. cbv beta. intros z. apply (cmp_lt_trans _ (cri_total true zc zc_total)). exact H1.
Qed.
Lemma pre_all_sound (k : skey Z) : (forall v, fst (sk_cons k v) = true -> forall o, In o v -> o <> None) -> sk_pre k = Some (fun l => forallb (fun b => b) l) -> pre_sound k.
Proof.
  intros HC HP f T v E HF HL F2. rewrite HP in E. injection E as <-. destruct (fst (sk_cons k v)) eqn:EC; [|reflexivity]. exfalso.
  assert (X : forallb (fun b => b) T = true); [|congruence]. apply forallb_forall. intros b Hb.
  clear HF HL. specialize (HC v EC). clear EC. induction F2 as [|b' o T v H F2 IH]; [destruct Hb|]. destruct Hb as [<-|Hb].
  - destruct H as [H|H]; [exact H|]. exfalso. apply (HC o); [left; reflexivity|exact H].
  - apply IH; [|exact Hb]. intros o' Ho. apply HC. right. exact Ho.
Qed.
Lemma k_both_sound : pre_sound k_both.
Proof.
  apply pre_all_sound; [|reflexivity]. intros v H o Ho. cbn in H. destruct v as [|[a|] [|[b|] [|c v]]]; try discriminate. destruct Ho as [<-|[<-|[]]]; discriminate.
Qed.
Lemma k_one_sound : pre_sound k_one.
Proof. apply pre_all_sound; [|reflexivity]. intros v H o Ho. cbn in H. destruct v as [|[a|] [|c v]]; try discriminate. destruct Ho as [<-|[]]. discriminate. Qed.

Example C28_example_two : let out := naturalScan 1%N zc (fun _ => None) (nit 777) sort_e true 6 two_lists [k_both; k_ord] in
  nearest_first (distR 6) (map fst out) /\ NoDup (map (fun o => ip (fst o)) out).
Proof.
  assert (H := C28_natural_scan_partial 1%N zc (fun _ => None) (nit 777) true 6 two_lists [k_both; k_ord] sort_e k_both zc_total). cbv zeta in H |- *.
  destruct H as (H1 & _ & _ & _ & H5).
  - split.
    + intros k n [<-|[<-|[]]]; cbn [sk_ents k_both k_ord]; [intros [<-|[<-|[]]]; eexists; split; reflexivity|intros []].
    + intros [|[|n]] q E; cbn in E; [| |destruct n; discriminate]; exists k_both; (split; [left; reflexivity|]); cbn; auto.
  - intros q [<-|[<-|[]]]; reflexivity.
  - split.
    + intros C [<-|[<-|[]]]; (split; [apply sorted_by_check; vm_compute; reflexivity|]); cbn; intros y Hy;
        repeat (destruct Hy as [<-|Hy]; [cbn; discriminate|]); destruct Hy.
    + intros C C' y y' HC HC' Hy Hy' E. assert (X : forall C y, In C (rows (fun _ => None) two_lists) -> In y C -> add y = Some (Z.of_N (blk (ip y)))).
      { intros D z [<-|[<-|[]]]; cbn; intro Hz; repeat (destruct Hz as [<-|Hz]; [reflexivity|]); destruct Hz. }
      pose proof (X C y HC Hy) as E1. pose proof (X C' y' HC' Hy') as E2. unfold compareRumItem. rewrite E1, E2, E. unfold zc. rewrite Z.sub_diag, Z.eqb_refl. apply (tc_refl _ cip_total).
  - intros q [<-|[<-|[]]]; exact I.
  - intros q [<-|[<-|[]]]; exact I.
  - reflexivity.
  - exact k_both_sound.
  - exact sort_e_ok.
  - split; [apply H5; [apply distR_ok|discriminate]|exact H1].
Qed.
Example C28_example_tree : let out := naturalScan 1%N zc (fun _ => None) (nit 777) sort_e false 12 one_tree [k_one; k_ord] in
  NoDup (map (fun o => ip (fst o)) out) /\ forall y, In y (rng 1 4 ++ rng 10 5 ++ rng 20 7) -> exists o, In o out /\ ip (fst o) = ip y.
Proof.
  assert (H := C28_natural_scan_partial 1%N zc (fun _ => None) (nit 777) false 12 one_tree [k_one; k_ord] sort_e k_one zc_total). cbv zeta in H |- *.
  assert (SR : ssorted (compareRumItem true zc) (flat_map lf_items (leaves [rng 1 4; rng 10 5; rng 20 7]))) by (apply sorted_by_check; vm_compute; reflexivity).
  destruct H as (H1 & H2 & _).
  - split.
    + intros k n [<-|[<-|[]]]; cbn [sk_ents k_one k_ord]; [intros [<-|[]]; eexists; split; reflexivity|intros []].
    + intros [|n] q E; cbn in E; [|destruct n; discriminate]; exists k_one; (split; [left; reflexivity|]); cbn; auto.
  - intros q [<-|[]]; reflexivity.
  - split.
    + intros C [<-|[]]. split; [exact SR|]. cbn. intros y Hy. repeat (destruct Hy as [<-|Hy]; [cbn; discriminate|]); destruct Hy.
    + intros C C' y y' HC HC' Hy Hy' E. assert (X : forall C y, In C (rows (fun _ => None) one_tree) -> In y C -> add y = Some (Z.of_N (blk (ip y)))).
      { intros D z [<-|[]]; cbn; intro Hz; repeat (destruct Hz as [<-|Hz]; [reflexivity|]); destruct Hz. }
      pose proof (X C y HC Hy) as E1. pose proof (X C' y' HC' Hy') as E2. unfold compareRumItem. rewrite E1, E2, E. unfold zc. rewrite Z.sub_diag, Z.eqb_refl. apply (tc_refl _ cip_total).
  - intros q [<-|[]]. cbn [q_found q_tree found_ok q_refind]. split; [eexists; eexists; split; [reflexivity|left; discriminate]|]. split.
    + intros pg1 pg pg2 rest y E Hy. destruct pg1 as [|a [|b [|c pg1]]]; injection E; intros; subst; try (destruct pg1; discriminate); try discriminate; cbn in Hy;
        repeat (destruct Hy as [<-|Hy]; [vm_compute; discriminate|]); destruct Hy.
    + intro x. unfold searches. set (f := fun pg => compareRumItem true zc (lf_bound pg) x <? 0). split.
      { cbn [leaves map removelast filter]. destruct (f _), (f _); cbn [length]; lia. }
      cbn [leaves map removelast filter]. unfold f. cbn [lf_bound].
      destruct (Z.ltb_spec (compareRumItem true zc (last (rng 1 4) item_min) x) 0) as [L1|L1];
      destruct (Z.ltb_spec (compareRumItem true zc (last (rng 10 5) item_min) x) 0) as [L2|L2]; cbn [length firstn flat_map lf_items].
      * intros y Hy. apply (cmp_le_lt_trans _ (cri_total true zc zc_total) y (last (rng 10 5) item_min)); [|exact L2].
        cbn in Hy. repeat (destruct Hy as [<-|Hy]; [vm_compute; discriminate|]); destruct Hy.
      * intros y Hy. apply (cmp_le_lt_trans _ (cri_total true zc zc_total) y (last (rng 1 4) item_min)); [|exact L1].
        cbn in Hy. repeat (destruct Hy as [<-|Hy]; [vm_compute; discriminate|]); destruct Hy.
      * exfalso. assert (L3 : compareRumItem true zc (last (rng 1 4) item_min) x < 0) by (apply (cmp_lt_trans _ (cri_total true zc zc_total) _ (last (rng 10 5) item_min)); [vm_compute; reflexivity|exact L2]). lia.
      * intros y [].
  - intros q [<-|[]]. cbn [down_ok q_found q_tree q_refind]. split; [right|split; [right|split; [|reflexivity]]].
    + exists (mkLeaf (rng 10 5) (nit 14)), (nit 14). split; [vm_compute; reflexivity|]. split; [vm_compute; tauto|reflexivity].
    + exists (mkLeaf (rng 10 5) (nit 14)), (nit 10). split; [vm_compute; reflexivity|]. split; [vm_compute; tauto|reflexivity].
    + intros pg [<-|[<-|[<-|[]]]]; split; vm_compute; discriminate.
  - reflexivity.
  - exact k_one_sound.
  - exact sort_e_ok.
  - split; [exact H1|]. intros y Hy. apply H2. split; [exists (q_tree [rng 1 4; rng 10 5; rng 20 7]), y; split; [left; reflexivity|]; split; [exact Hy|reflexivity]|].
    cbn in Hy. split; [right|intros _ subs E; discriminate].
    repeat (destruct Hy as [<-|Hy]; [vm_compute; reflexivity|]); destruct Hy.
Qed.

(** ** Where it fails *)
(** ORDER BY column <=| v: the rows with the value v itself come after all rows below it. *)
Theorem C28_equal_rows_last_refuted : natural false 5 [q_list (rng 1 5)] [k_one; k_ord] = map Some [4; 3; 2; 1; 5] /\
  ~ nearest_first (distL 5) (map fst (naturalScan 1%N zc (fun _ => None) (nit 777) sort_e false 5 [q_list (rng 1 5)] [k_one; k_ord])).
Proof.
  split; [vm_compute; reflexivity|]. intro H.
  assert (E : map fst (naturalScan 1%N zc (fun _ => None) (nit 777) sort_e false 5 [q_list (rng 1 5)] [k_one; k_ord]) = map nit [4; 3; 2; 1; 5]) by (vm_compute; reflexivity).
  rewrite E in H. unfold nearest_first in H. cbn [map] in H. apply StronglySorted_inv in H as [_ H]. rewrite Forall_forall in H.
  specialize (H (nit 5) ltac:(cbn; tauto)). cbn in H. lia.
Qed.
(** The argument falls between the last row of a leaf page and the first of the next: the rows below it are not
    returned, by either operator. *)
Theorem C28_page_boundary_refuted : natural false 7 one_tree [k_one; k_ord] = map Some [10; 11; 12; 13; 14; 20; 21; 22; 23; 24; 25; 26] /\
  natural true 7 one_tree [k_one; k_ord] = map Some [10; 11; 12; 13; 14; 20; 21; 22; 23; 24; 25; 26] /\
  natural true 12 one_tree [k_one; k_ord] = map Some [12; 13; 14; 20; 21; 22; 23; 24; 25; 26; 11; 10; 4; 3; 2; 1].
Proof. repeat split; vm_compute; reflexivity. Qed.
(** A leaf page of three rows: going down from its first row reads memory before the list, and starts over. *)
Theorem C28_three_rows_refuted : exists out, natural false 12 [q_tree [rng 1 4; rng 10 3]] [k_one; k_ord] = out /\ In (Some 777) out.
Proof. eexists. split; [reflexivity|]. vm_compute. tauto. Qed.
(** Two words, one with a posting tree, downwards: row 8 has both words and is not returned. *)
Definition tree_and_list : list (qentry (A := Z)) := [q_tree [rng 1 7; rng 8 9; rng 20 7]; q_list (rng 1 1 ++ rng 3 3 ++ rng 8 1 ++ rng 13 1 ++ rng 22 1)].
Theorem C28_two_words_tree_refuted : ~ In (Some 8) (natural false 26 tree_and_list [k_both; k_ord]) /\
  In (nit 8) (flat_map lf_items (leaves [rng 1 7; rng 8 9; rng 20 7])) /\ In (nit 8) (rng 1 1 ++ rng 3 3 ++ rng 8 1 ++ rng 13 1 ++ rng 22 1).
Proof.
  split; [|split; vm_compute; tauto].
  assert (E : forallb (fun a => match a with Some 8 => false | _ => true end) (natural false 26 tree_and_list [k_both; k_ord]) = true) by (vm_compute; reflexivity).
  intro H. rewrite forallb_forall in E. specialize (E _ H). exact (Bool.diff_false_true E).
Qed.
Print Assumptions C28_equal_rows_last_refuted.
Print Assumptions C28_page_boundary_refuted.
Print Assumptions C28_three_rows_refuted.
Print Assumptions C28_two_words_tree_refuted.
