(** C22: a regular scan returns exactly the matching rows.  Model: ScanEntry.v, Scan.v; what a scan
    has to return: ScanSpec.v. *)
From Coq Require Import Lia ZifyN Permutation NArith ZArith List Bool.
From Verif Require Import Base Ord OrdProof ScanEntry ScanEntryProof Scan ScanSpec ScanRegular TidBitmap TidBitmapProof PropBitmap ScanBitmap.
Import ListNotations.
Local Open Scope Z_scope.

(** C22: for every query whose rows come in one order ([a]: by attached column or by row) - any number
    of conditions, query keys, posting lists, posting trees and multi-key searches, any match
    functions - the regular scan gives stored rows in ascending order, each once, and exactly those every
    search condition matches; the recheck flag of a row is set iff a condition asks for it; and the
    ordering keys see the row's true additional information when no recheck is asked for. *)
Theorem C22_regular_scan_exact : forall (A : Type) (useAlt : bool) (addTo : N) (cmpA : A -> A -> Z), total_cmp cmpA ->
  forall joinFn visit iterate tbmMax (qs : list (qentry (A := A))) (keys : list (skey A)) (a : bool),
  let cmp := compareRumItem a cmpA in
  isScanWithAltOrderKeys useAlt addTo keys = false ->
  query_ok qs keys ->
  (forall k, In k keys -> altOf useAlt addTo (sk_att k) = a) -> (forall q, In q qs -> altOf useAlt addTo (q_att q) = a) ->
  rows_ok cmp (rows joinFn qs) ->
  (forall q, In q qs -> found_ok cmp (q_found q) (q_refind q)) ->
  (exists k, In k keys /\ sk_order k = false) ->
  let out := scanRegular useAlt addTo cmpA joinFn visit iterate tbmMax (map start qs) keys in
  ssorted cmp (map (fun o => fst (fst o)) out) /\
  (forall p, (exists o, In o out /\ ip (fst (fst o)) = p) <-> (forall k, In k keys -> sk_order k = false -> matches addTo (rows joinFn qs) k p)) /\
  (forall x re st, In (x, re, st) out -> (exists q, In q qs /\ In x (rows_found (joinFn (q_att q)) (q_found q))) /\
     (re = true <-> exists k, In k keys /\ sk_order k = false /\ asks_recheck (rows joinFn qs) k (ip x)) /\
     (re = false -> forall k, In k keys -> sk_order k = true -> checkAt (s_ents st) k (ip x) = sees (rows joinFn qs) k (ip x))).
Proof.
  intros A useAlt addTo cmpA CA joinFn visit iterate tbmMax qs keys a. cbv zeta. intros H1 H2 H3 H4 H5 H6 H7.
  destruct (scanRegular_spec useAlt addTo cmpA CA joinFn visit iterate tbmMax qs keys a H1 H2 H3 H4 H5 H6 H7) as (R1 & R2 & R3).
  split; [exact R1|]. split; [exact R2|]. intros x re st Ho. destruct (R3 x re st Ho) as (S1 & S2 & S3 & _). auto.
Qed.
Print Assumptions C22_regular_scan_exact.

(** The common order is there whenever the scan does not collect conditions in a bitmap. *)
Theorem C22_common_order : forall (A : Type) (useAlt : bool) (addTo : N) (qs : list (qentry (A := A))) (keys : list (skey A)),
  isScanWithAltOrderKeys useAlt addTo keys = false -> query_ok qs keys -> keys <> [] ->
  exists a, (forall k, In k keys -> altOf useAlt addTo (sk_att k) = a) /\ (forall q, In q qs -> altOf useAlt addTo (q_att q) = a).
Proof. intros A useAlt addTo qs keys. exact (one_order useAlt addTo qs keys). Qed.
Print Assumptions C22_common_order.

(** C22 on an index ordered by the attached column, with conditions on both kinds of columns: the
    conditions on usual columns are collected in a bitmap first, which may degrade at any point.  No
    matching row is lost; rows match all conditions on the ordered column; if at most one usual
    condition was collected, rows given without recheck match all conditions.  Missing: exactness with
    several usual conditions and their recheck flags, see C22_lost_recheck_refuted and
    C40_intersect_refuted. *)
Theorem C22_attach_ordered_scan_partial : forall (A : Type) (useAlt : bool) (addTo : N) (cmpA : A -> A -> Z), total_cmp cmpA ->
  forall joinFn visit iterate tbmMax, (forall l, Permutation (iterate l) l) ->
  forall (qs : list (qentry (A := A))) (keys : list (skey A)),
  let cmp := compareRumItem true cmpA in
  isScanWithAltOrderKeys useAlt addTo keys = true ->
  query_ok qs keys -> NoDup (flat_map sk_ents keys) ->
  (forall q, In q qs -> found_ok (cmpAt useAlt addTo cmpA (q_att q)) (q_found q) (q_refind q) /\
     ssorted (cmpAt useAlt addTo cmpA (q_att q)) (rows_found (joinFn (q_att q)) (q_found q)) /\
     forall y, In y (rows_found (joinFn (q_att q)) (q_found q)) -> (1 <= off (ip y) <= MAX_TUPLES_PER_PAGE)%N) ->
  (forall q q' y y', In q qs -> In q' qs -> q_att q = addTo -> q_att q' = addTo ->
     In y (rows_found (joinFn (q_att q)) (q_found q)) -> In y' (rows_found (joinFn (q_att q')) (q_found q')) -> ip y = ip y' -> cmp y y' = 0) ->
  (exists k, In k keys /\ sk_order k = false /\ sk_att k = addTo) ->
  (exists k, In k keys /\ sk_order k = false /\ sk_att k <> addTo) ->
  let out := scanRegular useAlt addTo cmpA joinFn visit iterate tbmMax (map start qs) keys in
  ssorted cmp (map (fun o => fst (fst o)) out) /\
  (forall p, (forall k, In k keys -> sk_order k = false -> matches addTo (rows joinFn qs) k p) -> exists o, In o out /\ ip (fst (fst o)) = p) /\
  (forall x re st, In (x, re, st) out ->
     (forall k, In k keys -> sk_order k = false -> sk_att k = addTo ->
        matches addTo (rows joinFn qs) k (ip x) /\ (asks_recheck (rows joinFn qs) k (ip x) -> re = true)) /\
     ((length (filter (usual addTo) keys) <= 1)%nat -> re = false ->
        forall k, In k keys -> sk_order k = false -> matches addTo (rows joinFn qs) k (ip x))).
Proof. intros A useAlt addTo cmpA CA joinFn visit iterate tbmMax IT qs keys. exact (scanAlt_spec useAlt addTo cmpA CA joinFn visit iterate tbmMax IT qs keys). Qed.
Print Assumptions C22_attach_ordered_scan_partial.

(** ** Witnesses *)
Definition zc (a b : Z) : Z := a - b.
Lemma zc_total : total_cmp zc.
Proof. unfold zc; constructor; intros; lia. Qed.
Definition rw (b o : N) : item Z := mkItem (mkIp b o) None.
Definition rv (b o : N) (a : Z) : item Z := mkItem (mkIp b o) (Some a).
(** All query keys present; no recheck unless [re]. *)
Definition all_of (re : bool) (v : list (option (option Z))) : bool * bool := (forallb (fun o => match o with Some _ => true | None => false end) v, re).
Definition key_and (att : N) (ents : list nat) (re : bool) : skey Z := mkSKey att false ents (all_of re) None false None false.
Definition key_order (att : N) (ents : list nat) : skey Z := mkSKey att true ents (all_of false) None false None false.
Definition tids {S} (l : list (item Z * bool * S)) : list (N * N * bool) := map (fun o => (blk (ip (fst (fst o))), off (ip (fst (fst o))), snd (fst o))) l.

Definition ex_qs : list (qentry (A := Z)) :=
  [ mkQe 1 (FList [rw 1 1; rw 2 1; rw 3 1]) 3 (fun _ => O);
    mkQe 1 (FTree [mkLeaf [rw 1 2; rw 1 3] (rw 1 3); mkLeaf [rw 2 1; rw 3 1] (rw 0 0)] item_min) 4
      (fun x => if compareRumItem false zc (rw 1 3) x <? 0 then 1%nat else 0%nat);
    mkQe 2 (FMany [rw 2 1; rv 2 1 5; rw 3 1; rw 4 4]) 4 (fun _ => O) ].
Definition ex_keys : list (skey Z) := [key_and 1 [0; 1]%nat false; key_and 2 [2]%nat true; key_order 1 [0]%nat].

Lemma ex_sorted l : (fix go l := match l with [] => true | x :: r => forallb (fun y => compareRumItem false zc x y <? 0) r && go r end) l = true ->
  ssorted (compareRumItem false zc) l.
Proof.
  induction l as [|x r IH]; intros H; [constructor|]. apply andb_true_iff in H as [H1 H2]. apply ssorted_cons; [apply IH; exact H2|].
  apply Forall_forall. intros y Hy. rewrite forallb_forall in H1. specialize (H1 y Hy). apply Z.ltb_lt in H1. exact H1.
Qed.

Example C22_hypotheses_met :
  isScanWithAltOrderKeys false 0 ex_keys = false /\ query_ok ex_qs ex_keys /\
  (forall k, In k ex_keys -> altOf false 0 (sk_att k) = false) /\ (forall q, In q ex_qs -> altOf false 0 (q_att q) = false) /\
  rows_ok (compareRumItem false zc) (rows (fun _ => None) ex_qs) /\
  (forall q, In q ex_qs -> found_ok (compareRumItem false zc) (q_found q) (q_refind q)) /\
  (exists k, In k ex_keys /\ sk_order k = false) /\
  tids (scanRegular false 0 zc (fun _ => None) (fun _ => []) (fun l => l) 100 (map start ex_qs) ex_keys) = [(2%N, 1%N, true); (3%N, 1%N, true)].
Proof.
  split; [reflexivity|]. split.
  { split.
    - intros k n [<-|[<-|[<-|[]]]] Hn; cbn [sk_ents sk_att key_and key_order ex_keys] in *.
      + destruct Hn as [<-|[<-|[]]]; eexists; (split; [reflexivity|reflexivity]).
      + destruct Hn as [<-|[]]; eexists; (split; [reflexivity|reflexivity]).
      + destruct Hn as [<-|[]]; eexists; (split; [reflexivity|reflexivity]).
    - intros n q Hq. destruct n as [|[|[|n]]]; [exists (key_and 1 [0; 1]%nat false)|exists (key_and 1 [0; 1]%nat false)|exists (key_and 2 [2]%nat true)|].
      + split; [left; reflexivity|left; reflexivity].
      + split; [left; reflexivity|right; left; reflexivity].
      + split; [right; left; reflexivity|left; reflexivity].
      + destruct n; discriminate. }
  split; [reflexivity|]. split; [reflexivity|]. split.
  { split.
    - intros C HC. assert (HC' : In C [[rw 1 1; rw 2 1; rw 3 1]; [rw 1 2; rw 1 3; rw 2 1; rw 3 1]; [rv 2 1 5; rw 3 1; rw 4 4]]) by exact HC. clear HC.
      destruct HC' as [<-|[<-|[<-|[]]]]; (split; [apply ex_sorted; vm_compute; reflexivity|]);
        intros y Hy; cbn [In] in Hy; repeat destruct Hy as [<-|Hy]; try discriminate; destruct Hy.
    - intros C C' y y' _ _ _ _ E. unfold compareRumItem. cbn. rewrite E. apply cip_eq. reflexivity. }
  split.
  { intros q [<-|[<-|[<-|[]]]]; [exact I| |exact I]. split; [|split].
    - eexists; eexists; split; [reflexivity|left; discriminate].
    - intros pg1 pg pg2 rest y E Hy. destruct pg1 as [|a [|b [|? ?]]]; cbn in E; inversion E; subst; cbn in Hy;
        repeat destruct Hy as [<-|Hy]; try (vm_compute; discriminate); destruct Hy.
    - intros x. cbn [q_refind]. destruct (compareRumItem false zc (rw 1 3) x <? 0) eqn:E.
      + split; [cbn; lia|]. intros y Hy. cbn in Hy. apply Z.ltb_lt in E. destruct Hy as [<-|[<-|[]]]; [|exact E].
        eapply (cmp_lt_trans _ (cri_total false zc zc_total)); [|exact E]. vm_compute. reflexivity.
      + split; [cbn; lia|]. intros y []. }
  split; [exists (key_and 1 [0; 1]%nat false); split; [left; reflexivity|reflexivity]|].
  vm_compute. reflexivity.
Qed.

(** An index ordered by the attached column: column 1 is the ordered one. *)
Definition ex_aqs : list (qentry (A := Z)) :=
  [ mkQe 1 (FList [rv 3 1 10; rv 1 1 20; rv 2 1 30]) 3 (fun _ => O);
    mkQe 2 (FList [rw 1 1; rw 3 1; rw 4 1]) 3 (fun _ => O) ].
Example C22_attach_ordered_hypotheses_met :
  let keys := [key_and 1 [0]%nat false; key_and 2 [1]%nat false] in
  isScanWithAltOrderKeys true 1 keys = true /\ query_ok ex_aqs keys /\ NoDup (flat_map sk_ents keys) /\
  (forall q, In q ex_aqs -> found_ok (cmpAt true 1 zc (q_att q)) (q_found q) (q_refind q) /\
     ssorted (cmpAt true 1 zc (q_att q)) (rows_found None (q_found q)) /\
     forall y, In y (rows_found None (q_found q)) -> (1 <= off (ip y) <= MAX_TUPLES_PER_PAGE)%N) /\
  (length (filter (usual 1) keys) <= 1)%nat /\
  tids (scanRegular true 1 zc (fun _ => None) (fun _ => []) (fun l => l) 100 (map start ex_aqs) keys) = [(3%N, 1%N, false); (1%N, 1%N, false)].
Proof.
  split; [reflexivity|]. split.
  { split.
    - intros k n [<-|[<-|[]]] [<-|[]]; eexists; (split; [reflexivity|reflexivity]).
    - intros n q Hq. destruct n as [|[|n]]; [exists (key_and 1 [0]%nat false)|exists (key_and 2 [1]%nat false)|destruct n; discriminate].
      + split; [left; reflexivity|left; reflexivity].
      + split; [right; left; reflexivity|left; reflexivity]. }
  split; [cbn; constructor; [intros [H|[]]; discriminate|constructor; [intros []|constructor]]|].
  split.
  { intros q [<-|[<-|[]]]; (split; [exact I|split]).
    - unfold cmpAt, altOf. cbn [q_att q_found rows_found]. change (true && (1 =? 1)%N) with true.
      repeat (apply ssorted_cons; [|apply Forall_forall; intros y Hy; cbn [In] in Hy; repeat destruct Hy as [<-|Hy]; try (vm_compute; reflexivity); destruct Hy]). constructor.
    - intros y Hy. cbn in Hy. repeat destruct Hy as [<-|Hy]; try (vm_compute; split; discriminate). destruct Hy.
    - unfold cmpAt, altOf. cbn [q_att q_found rows_found]. change (true && (2 =? 1)%N) with false. apply ex_sorted. vm_compute. reflexivity.
    - intros y Hy. cbn in Hy. repeat destruct Hy as [<-|Hy]; try (vm_compute; split; discriminate). destruct Hy. }
  split; [vm_compute; repeat constructor|]. vm_compute. reflexivity.
Qed.

(** ** What the code does not guarantee *)
(** An index ordered by the attached column; one condition on the ordered column and ORDER BY on the
    attached column (no query keys of its own, column number 2).  The scan believes some conditions
    have to be collected in a bitmap, collects none, and returns no row. *)
Theorem C22_order_by_attached_refuted :
  let qs := [mkQe 1 (FList [rv 3 1 10; rv 1 1 20]) 2 (fun _ => O)] in
  let keys := [key_and 1 [0]%nat false; key_order 2 []] in
  query_ok qs keys /\
  (forall k, In k keys -> sk_order k = false -> matches 1 (rows (fun _ => None) qs) k (mkIp 3 1)) /\
  scanRegular true 1 zc (fun _ => None) (fun _ => []) (fun l => l) 100 (map start qs) keys = [].
Proof.
  split.
  { split.
    - intros k n [<-|[<-|[]]] Hn; [|destruct Hn]. destruct Hn as [<-|[]]. eexists; (split; [reflexivity|reflexivity]).
    - intros n q Hq. destruct n as [|n]; [|destruct n; discriminate]. eexists; split; [left; reflexivity|left; reflexivity]. }
  split; [|vm_compute; reflexivity].
  intros k [<-|[<-|[]]] Ho; [|discriminate]. split.
  - exists O, (rv 3 1 10). split; [left; reflexivity|split; [left; reflexivity|reflexivity]].
  - split; [right; reflexivity|]. intros _ subs E. discriminate.
Qed.

(** The same index; a condition on a usual column only, and an ordering key on the ordered column
    (its query key 1).  No condition is left for the main loop, which then returns no row. *)
Theorem C22_only_usual_conditions_refuted :
  let qs := [mkQe 2 (FList [rw 1 1; rw 3 1]) 2 (fun _ => O); mkQe 1 (FList [rv 3 1 10; rv 1 1 20]) 2 (fun _ => O)] in
  let keys := [key_and 2 [0]%nat false; key_order 1 [1]%nat] in
  query_ok qs keys /\
  (forall k, In k keys -> sk_order k = false -> matches 1 (rows (fun _ => None) qs) k (mkIp 3 1)) /\
  scanRegular true 1 zc (fun _ => None) (fun _ => []) (fun l => l) 100 (map start qs) keys = [].
Proof.
  split.
  { split.
    - intros k n [<-|[<-|[]]] [<-|[]]; eexists; (split; [reflexivity|reflexivity]).
    - intros n q Hq. destruct n as [|[|n]]; [| |destruct n; discriminate].
      + eexists; split; [left; reflexivity|left; reflexivity].
      + eexists; split; [right; left; reflexivity|left; reflexivity]. }
  split; [|vm_compute; reflexivity].
  intros k [<-|[<-|[]]] Ho; [|discriminate]. split.
  - exists O, (rw 3 1). split; [left; reflexivity|split; [right; left; reflexivity|reflexivity]].
  - split; [right; reflexivity|]. intros E. discriminate E.
Qed.

(** The same index; the usual condition asks for a recheck of row (1,1) but not of the last row it
    saw, (4,1): the row (1,1) is returned without recheck. *)
Theorem C22_lost_recheck_refuted :
  let qs := [mkQe 1 (FList [rv 1 1 20]) 1 (fun _ => O); mkQe 2 (FList [rv 1 1 7; rw 4 1]) 2 (fun _ => O)] in
  let picky v := match v with [Some (Some _)] => (true, true) | [Some None] => (true, false) | _ => (false, false) end in
  let k2 := mkSKey 2%N false [1]%nat picky None false None false in
  let keys := [key_and 1 [0]%nat false; k2] in
  asks_recheck (rows (fun _ => None) qs) k2 (mkIp 1 1) /\
  tids (scanRegular true 1 zc (fun _ => None) (fun _ => []) (fun l => l) 100 (map start qs) keys) = [(1%N, 1%N, false)].
Proof. split; [split; reflexivity|vm_compute; reflexivity]. Qed.

(** A row needing recheck stops the closing loop before the ordering key is caught up: the ordering
    key then does not see the row's additional information, although the row has it. *)
Theorem C22_ordering_after_recheck_refuted :
  let qs := [mkQe 1 (FList [rw 2 1]) 1 (fun _ => O); mkQe 2 (FList [rv 1 1 7; rv 2 1 8]) 2 (fun _ => O)] in
  let ko := key_order 2 [1]%nat in
  let keys := [key_and 1 [0]%nat true; ko] in
  sees (rows (fun _ => None) qs) ko (mkIp 2 1) = [Some (Some 8)] /\
  map (fun o => (ip (fst (fst o)), checkAt (s_ents (snd o)) ko (ip (fst (fst o)))))
      (scanRegular false 0 zc (fun _ => None) (fun _ => []) (fun l => l) 100 (map start qs) keys) = [(mkIp 2 1, [None])].
Proof. split; vm_compute; reflexivity. Qed.
