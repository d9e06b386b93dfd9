(** C23: the fast scan and the regular scan agree.  Model: ScanEntry.v, Scan.v; what a scan has to
    return: ScanSpec.v. *)
From Coq Require Import Lia ZifyN Permutation Sorted NArith ZArith List Bool.
From Verif Require Import Base Ord OrdProof ScanEntry ScanEntryProof Scan ScanSpec ScanRegular TidBitmap PropScan ScanFast.
Import ListNotations.
Local Open Scope Z_scope.

(** C23: for every query with one search condition, any number of query keys, any number of ordering
    keys, all on one column: whatever the posting lists and trees hold, whatever the estimates of
    their sizes and whichever way ties are broken when the entries are sorted at the start, the fast
    scan returns stored rows in ascending order, each once, and exactly those known under some query
    key and satisfying the condition; the recheck flag is set iff the condition asks for it; and all
    keys, ordering keys included, see the row's true additional information.  The pre-filter may be
    any function that refuses no satisfiable set of query keys.  A whole-column query key may only
    come with a condition satisfied by rows with no query key (that is when the code adds one).
    Missing: several conditions, or several columns, where the claim is false (see below). *)
Theorem C23_fast_scan_exact_partial : forall (A : Type) (useAlt : bool) (addTo : N) (cmpA : A -> A -> Z), total_cmp cmpA ->
  forall joinFn (qs : list (qentry (A := A))) (keys : list (skey A)) (sorted : list nat) (att0 : N) (ksearch : skey A),
  let cmp := cmpAt useAlt addTo cmpA att0 in
  query_ok qs keys -> (forall q, In q qs -> q_att q = att0) ->
  rows_ok cmp (rows joinFn qs) -> (forall q, In q qs -> found_ok cmp (q_found q) (q_refind q)) ->
  filter (fun k => negb (sk_order k)) keys = [ksearch] -> pre_sound ksearch ->
  (forall q rs, In q qs -> q_found q = FMany rs -> sk_every ksearch = true \/ fst (sk_cons ksearch (map (fun _ => None) (sk_ents ksearch))) = true) ->
  let started := startEntries useAlt addTo cmpA joinFn (map start qs) in
  Permutation sorted (seq 0 (length qs)) ->
  StronglySorted (fun a b => 0 <= cmpEntries useAlt addTo cmpA (ent started a) (ent started b)) sorted ->
  let out := scanFast useAlt addTo cmpA joinFn (map start qs) keys sorted in
  ssorted cmp (map (fun o => fst (fst o)) out) /\
  (forall p, (exists o, In o out /\ ip (fst (fst o)) = p) <->
     (exists q y, In q qs /\ In y (rows_found (joinFn (q_att q)) (q_found q)) /\ ip y = p) /\ says addTo ksearch (sees (rows joinFn qs) ksearch p)) /\
  (forall x re st, In (x, re, st) out -> (exists q, In q qs /\ In x (rows_found (joinFn (q_att q)) (q_found q))) /\
     (re = true <-> asks_recheck (rows joinFn qs) ksearch (ip x)) /\
     forall k, In k keys -> checkAt (f_ents st) k (ip x) = sees (rows joinFn qs) k (ip x)).
Proof. intros A useAlt addTo cmpA CA joinFn qs keys sorted att0 ksearch. exact (scanFast_spec useAlt addTo cmpA CA joinFn qs keys sorted att0 ksearch). Qed.
Print Assumptions C23_fast_scan_exact_partial.

(** C23: under the same hypotheses the fast scan and the regular scan return the same rows, in the
    same order, with the same recheck flags, unless a row known only to an ordering key satisfies the
    condition without any of the condition's query keys. *)
Theorem C23_fast_equals_regular_partial : forall (A : Type) (useAlt : bool) (addTo : N) (cmpA : A -> A -> Z), total_cmp cmpA ->
  forall joinFn visit iterate tbmMax (qs : list (qentry (A := A))) (keys : list (skey A)) (sorted : list nat) (att0 : N) (ksearch : skey A),
  let cmp := cmpAt useAlt addTo cmpA att0 in
  query_ok qs keys -> (forall k, In k keys -> sk_ents k <> [] -> sk_att k = att0) ->
  (forall k, In k keys -> altOf useAlt addTo (sk_att k) = altOf useAlt addTo att0) ->
  rows_ok cmp (rows joinFn qs) -> (forall q, In q qs -> found_ok cmp (q_found q) (q_refind q)) ->
  filter (fun k => negb (sk_order k)) keys = [ksearch] -> pre_sound ksearch ->
  let none := map (fun _ => None) (sk_ents ksearch) in
  (forall q rs, In q qs -> q_found q = FMany rs -> sk_every ksearch = true \/ fst (sk_cons ksearch none) = true) ->
  ((forall q y, In q qs -> In y (rows_found (joinFn (q_att q)) (q_found q)) -> exists n y', In n (sk_ents ksearch) /\ In y' (nth n (rows joinFn qs) []) /\ ip y' = ip y) \/
   ~ says addTo ksearch none) ->
  let started := startEntries useAlt addTo cmpA joinFn (map start qs) in
  Permutation sorted (seq 0 (length qs)) ->
  StronglySorted (fun a b => 0 <= cmpEntries useAlt addTo cmpA (ent started a) (ent started b)) sorted ->
  map (fun o => (ip (fst (fst o)), snd (fst o))) (scanFast useAlt addTo cmpA joinFn (map start qs) keys sorted) =
  map (fun o => (ip (fst (fst o)), snd (fst o))) (scanRegular useAlt addTo cmpA joinFn visit iterate tbmMax (map start qs) keys).
Proof.
  intros A useAlt addTo cmpA CA joinFn visit iterate tbmMax qs keys sorted att0 ksearch.
  exact (fast_equals_regular useAlt addTo cmpA CA joinFn visit iterate tbmMax qs keys sorted att0 ksearch).
Qed.
Print Assumptions C23_fast_equals_regular_partial.

(** ** Witnesses *)
(** A condition on the query keys 0 and 1 (both needed; the values' sum must be even, which the
    pre-filter cannot know) and an ordering key on 1. *)
Definition even_sum (v : list (option (option Z))) : bool * bool :=
  match v with
  | [Some (Some a); Some (Some b)] => (Z.even (a + b), a =? 4)
  | _ => (false, false)
  end.
Definition fk : skey Z := mkSKey 1 false [0; 1]%nat even_sum (Some (forallb (fun b => b))) false None false.
Definition ex_fqs : list (qentry (A := Z)) :=
  [ mkQe 1 (FList [rv 1 1 2; rv 2 1 3; rv 3 1 4; rv 9 1 1]) 9 (fun _ => O);
    mkQe 1 (FTree [mkLeaf [rv 1 2 0; rv 1 3 0] (rv 1 3 0); mkLeaf [rv 2 1 0; rv 3 1 6; rv 4 4 0] (rv 4 4 0); mkLeaf [rv 9 1 3] (rw 0 0)] item_min) 4
      (fun x => if compareRumItem false zc (rv 4 4 0) x <? 0 then 2%nat else if compareRumItem false zc (rv 1 3 0) x <? 0 then 1%nat else 0%nat) ].
Example C23_hypotheses_met :
  let keys := [fk; key_order 1 [1]%nat] in
  let none := map (fun _ => None) (sk_ents fk) in
  let cmp := cmpAt false 0 zc 1 in
  query_ok ex_fqs keys /\ (forall k, In k keys -> sk_att k = 1%N) /\
  rows_ok cmp (rows (fun _ => None) ex_fqs) /\ (forall q, In q ex_fqs -> found_ok cmp (q_found q) (q_refind q)) /\
  filter (fun k => negb (sk_order k)) keys = [fk] /\ pre_sound fk /\
  (forall q rs, In q ex_fqs -> q_found q = FMany rs -> sk_every fk = true \/ fst (sk_cons fk none) = true) /\
  ~ says 0 fk none /\
  let started := startEntries false 0 zc (fun _ => None) (map start ex_fqs) in
  Permutation [1; 0]%nat (seq 0 (length ex_fqs)) /\
  StronglySorted (fun a b => 0 <= cmpEntries false 0 zc (ent started a) (ent started b)) [1; 0]%nat /\
  tids (scanFast false 0 zc (fun _ => None) (map start ex_fqs) keys [1; 0]%nat) = [(3%N, 1%N, true); (9%N, 1%N, false)].
Proof.
  cbv zeta. split.
  { split.
    - intros k n [<-|[<-|[]]] Hn; cbn [sk_ents fk key_order] in Hn.
      + destruct Hn as [<-|[<-|[]]]; eexists; (split; [reflexivity|reflexivity]).
      + destruct Hn as [<-|[]]; eexists; (split; [reflexivity|reflexivity]).
    - intros n q Hq. exists fk. split; [left; reflexivity|]. destruct n as [|[|n]]; [left; reflexivity|right; left; reflexivity|destruct n; discriminate]. }
  split; [intros k [<-|[<-|[]]]; reflexivity|]. split.
  { split.
    - intros C HC. assert (HC' : In C [[rv 1 1 2; rv 2 1 3; rv 3 1 4; rv 9 1 1]; [rv 1 2 0; rv 1 3 0; rv 2 1 0; rv 3 1 6; rv 4 4 0; rv 9 1 3]]) by exact HC. clear HC.
      destruct HC' as [<-|[<-|[]]]; (split; [apply ex_sorted; vm_compute; reflexivity|]);
        intros y Hy; cbn [In] in Hy; repeat destruct Hy as [<-|Hy]; try discriminate; destruct Hy.
    - intros C C' y y' _ _ _ _ E. unfold cmpAt, compareRumItem. cbn. rewrite E. apply cip_eq. reflexivity. }
  split.
  { intros q [<-|[<-|[]]]; [exact I|]. split; [|split].
    - eexists; eexists; split; [reflexivity|left; discriminate].
    - intros pg1 pg pg2 rest y E Hy. destruct pg1 as [|a [|b [|c [|? ?]]]]; cbn in E; inversion E; subst; cbn in Hy;
        repeat destruct Hy as [<-|Hy]; try (vm_compute; discriminate); destruct Hy.
    - intros x. cbn [q_refind].
      assert (T : forall y z, cmpAt false 0 zc 1 y z < 0 -> cmpAt false 0 zc 1 z x < 0 -> cmpAt false 0 zc 1 y x < 0) by (intros y z; apply (cmp_lt_trans _ (cri_total false zc zc_total))).
      destruct (compareRumItem false zc (rv 4 4 0) x <? 0) eqn:E1; [|destruct (compareRumItem false zc (rv 1 3 0) x <? 0) eqn:E2].
      + split; [cbn; lia|]. intros y Hy. cbn in Hy. apply Z.ltb_lt in E1.
        repeat destruct Hy as [<-|Hy]; try exact E1; try (apply (T _ (rv 4 4 0)); [vm_compute; reflexivity|exact E1]). destruct Hy.
      + split; [cbn; lia|]. intros y Hy. cbn in Hy. apply Z.ltb_lt in E2.
        repeat destruct Hy as [<-|Hy]; try exact E2; try (apply (T _ (rv 1 3 0)); [vm_compute; reflexivity|exact E2]). destruct Hy.
      + split; [cbn; lia|]. intros y []. }
  split; [reflexivity|]. split.
  { intros f T v E Hf L F. cbn in E. injection E as <-. cbn [sk_ents fk length] in L. cbn [sk_cons fk].
    destruct T as [|b1 [|b2 [|? ?]]]; try discriminate. inversion F as [|? o1 ? ? P1 F1]; subst. inversion F1 as [|? o2 ? ? P2 F2]; subst. inversion F2; subst.
    destruct P1 as [->| ->]; [|reflexivity]. destruct P2 as [->| ->]; [discriminate|]. destruct o1 as [[|]|]; reflexivity. }
  split; [intros q rs [<-|[<-|[]]] E; discriminate|].
  split; [intros [[H|H] _]; discriminate|].
  split; [apply perm_swap|]. split; [repeat constructor; vm_compute; discriminate|]. vm_compute. reflexivity.
Qed.

(** ** What the code does not guarantee *)
(** A condition with one query key: the value must be positive. *)
Definition positive (v : list (option (option Z))) : bool * bool := match v with [Some (Some a)] => (0 <? a, false) | _ => (false, false) end.
Definition kp (att : N) (n : nat) : skey Z := mkSKey att false [n] positive (Some (forallb (fun b => b))) false None false.
Lemma kp_sound att n : pre_sound (kp att n).
Proof.
  intros f T v E Hf L F. cbn in E. injection E as <-. cbn [sk_cons kp sk_ents length] in *. destruct T as [|b [|? ?]]; try discriminate.
  inversion F as [|? o ? ? P1 F1]; subst. inversion F1; subst. destruct P1 as [->| ->]; [discriminate|reflexivity].
Qed.
(** Two conditions on the same column, each with one query key.  At row 1 the first condition fails and
    the entries move on (to rows 2 and 3); the second condition is then tried on the new position,
    fails, and the entries move on again: row 3, which satisfies both, is lost.  The regular scan
    returns it. *)
Theorem C23_two_conditions_refuted :
  let qs := [mkQe 1 (FList [rv 1 1 0; rv 2 1 0; rv 3 1 5]) 3 (fun _ => O); mkQe 1 (FList [rv 1 1 0; rv 3 1 5]) 2 (fun _ => O)] in
  let keys := [kp 1 0; kp 1 1] in
  let started := startEntries false 0 zc (fun _ => None) (map start qs) in
  Permutation [1; 0]%nat (seq 0 (length qs)) /\
  StronglySorted (fun a b => 0 <= cmpEntries false 0 zc (ent started a) (ent started b)) [1; 0]%nat /\
  (forall k, In k keys -> pre_sound k /\ matches 0 (rows (fun _ => None) qs) k (mkIp 3 1)) /\
  tids (scanRegular false 0 zc (fun _ => None) (fun _ => []) (fun l => l) 100 (map start qs) keys) = [(3%N, 1%N, false)] /\
  tids (scanFast false 0 zc (fun _ => None) (map start qs) keys [1; 0]%nat) = [].
Proof.
  cbv zeta. split; [apply perm_swap|]. split; [repeat constructor; vm_compute; discriminate|]. split; [|split; vm_compute; reflexivity].
  intros k [<-|[<-|[]]]; (split; [apply kp_sound|]); (split; [|split; [right; reflexivity|intro E; discriminate E]]).
  - exists O, (rv 3 1 5). split; [left; reflexivity|]. split; [right; right; left; reflexivity|reflexivity].
  - exists 1%nat, (rv 3 1 5). split; [left; reflexivity|]. split; [right; left; reflexivity|reflexivity].
Qed.

(** Conditions on two columns (both with a pre-filter): entries are ordered by column first, so the
    pre-filter always sees the query keys of the first column as missing, and nothing is returned -
    even if there is only one row, and it satisfies both. *)
Theorem C23_two_columns_refuted :
  let qs := [mkQe 1 (FList [rv 1 1 5]) 1 (fun _ => O); mkQe 2 (FList [rv 1 1 5]) 1 (fun _ => O)] in
  let keys := [kp 1 0; kp 2 1] in
  let started := startEntries false 0 zc (fun _ => None) (map start qs) in
  Permutation [0; 1]%nat (seq 0 (length qs)) /\
  StronglySorted (fun a b => 0 <= cmpEntries false 0 zc (ent started a) (ent started b)) [0; 1]%nat /\
  (forall k, In k keys -> pre_sound k /\ matches 0 (rows (fun _ => None) qs) k (mkIp 1 1)) /\
  tids (scanRegular false 0 zc (fun _ => None) (fun _ => []) (fun l => l) 100 (map start qs) keys) = [(1%N, 1%N, false)] /\
  tids (scanFast false 0 zc (fun _ => None) (map start qs) keys [0; 1]%nat) = [].
Proof.
  cbv zeta. split; [apply Permutation_refl|]. split; [repeat constructor; vm_compute; discriminate|]. split; [|split; vm_compute; reflexivity].
  intros k [<-|[<-|[]]]; (split; [apply kp_sound|]); (split; [|split; [right; reflexivity|intro E; discriminate E]]).
  - exists O, (rv 1 1 5). split; [left; reflexivity|]. split; [left; reflexivity|reflexivity].
  - exists 1%nat, (rv 1 1 5). split; [left; reflexivity|]. split; [left; reflexivity|reflexivity].
Qed.

(** A row known only to an ordering key, and a condition satisfied by rows without any of its query
    keys: the fast scan returns the row, the regular scan does not. *)
Theorem C23_ordering_key_rows_refuted :
  let qs := [mkQe 1 (FList [rv 1 1 5]) 1 (fun _ => O); mkQe 1 (FList [rv 2 1 5]) 1 (fun _ => O)] in
  let none v := match v with [None] => (true, false) | _ => (false, false) end in
  let keys := [mkSKey 1 false [0]%nat none (Some (fun _ => true)) false None false; key_order 1 [1]%nat] in
  tids (scanRegular false 0 zc (fun _ => None) (fun _ => []) (fun l => l) 100 (map start qs) keys) = [] /\
  tids (scanFast false 0 zc (fun _ => None) (map start qs) keys [1; 0]%nat) = [(2%N, 1%N, false)].
Proof. cbv zeta. split; vm_compute; reflexivity. Qed.
