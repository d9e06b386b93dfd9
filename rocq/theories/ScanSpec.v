(** What a scan has to return, said of the rows stored under each query key.

    [Cs] lists, for each query key of the query, the index rows it matches; a search condition names
    its query keys by number. *)
From Verif Require Import Base Ord ScanEntry ScanEntryProof Scan.
From Coq Require Import NArith ZArith Bool List.
Import ListNotations.
Local Open Scope Z_scope.

Section Spec.
  Context {A : Type}.
  Notation item := (item A).
  Notation skey := (skey A).

  Definition tid_eqb (p q : iptr) : bool := (blk p =? blk q)%N && (off p =? off q)%N.
  (** The additional information of the row [p] under a query key, when the row is there. *)
  Definition present (C : list item) (p : iptr) : option (option A) :=
    option_map add (find (fun y => tid_eqb (ip y) p) C).
  (** What a condition sees of the row [p]: for each of its query keys, whether it is there and with
      which additional information. *)
  Definition sees (Cs : list (list item)) (k : skey) (p : iptr) : list (option (option A)) :=
    map (fun n => present (nth n Cs []) p) (sk_ents k).
  (** The value of the attached column a condition sees: that of the first query key that has one. *)
  Definition attached_seen (v : list (option (option A))) (a : A) : Prop :=
    exists v1 v2, v = v1 ++ Some (Some a) :: v2 /\ Forall (fun o => o = None \/ o = Some None) v1.
  (** The condition [k] holds of a row seen as [v]: the operator class's match function says so, and
      so do the conditions on the attached column, when there are any. *)
  Definition says (addTo : N) (k : skey) (v : list (option (option A))) : Prop :=
    (sk_every k = true \/ fst (sk_cons k v) = true) /\
    (sk_att k = addTo -> forall subs, sk_subs k = Some subs -> exists a, attached_seen v a /\ Forall (fun f => f a = 0) subs).
  (** ... and the row is known under at least one of its query keys. *)
  Definition matches (addTo : N) (Cs : list (list item)) (k : skey) (p : iptr) : Prop :=
    (exists n y, In n (sk_ents k) /\ In y (nth n Cs []) /\ ip y = p) /\ says addTo k (sees Cs k p).
  (** The condition asks for a recheck of the row. *)
  Definition asks_recheck (Cs : list (list item)) (k : skey) (p : iptr) : Prop :=
    sk_every k = false /\ snd (sk_cons k (sees Cs k p)) = true.

  (** The pre-filter of a condition is sound: if it refuses a set of query keys, the match function
      refuses every row that has only query keys of the set. *)
  Definition pre_sound (k : skey) : Prop :=
    forall f T v, sk_pre k = Some f -> f T = false -> length T = length (sk_ents k) ->
    Forall2 (fun b o => b = true \/ o = None) T v -> fst (sk_cons k v) = false.

  (** The rows of all query keys are in the same order, the one given by [cmp]: ascending under each
      key, and the same row at the same place under all keys. *)
  Definition rows_ok (cmp : item -> item -> Z) (Cs : list (list item)) : Prop :=
    (forall C, In C Cs -> ssorted cmp C /\ forall y, In y C -> off (ip y) <> 0%N) /\
    (forall C C' y y', In C Cs -> In C' Cs -> In y C -> In y' C' -> ip y = ip y' -> cmp y y' = 0).

  (** The rows a query key stands for: those of its posting list, those of the leaf pages of its
      posting tree, or - several index keys - one row per TID with the informations joined. *)
  Definition rows_found (join : option (A -> A -> A)) (f : found A) : list item :=
    match f with
    | FNone => []
    | FList l => l
    | FTree chain _ => flat_map lf_items chain
    | FMany rows => collapse join None rows
    end.
  (** The scan takes its first row from uninitialised memory when the first leaf page is empty.  Junk
      that does no harm: an item pointer that is not null and not that of a stored row; or a null one,
      when the second page is not empty (or there is none). *)
  Definition harmless (junk : item) (rest : list (leaf A)) : Prop :=
    (off (ip junk) <> 0%N /\ forall y, In y (flat_map lf_items rest) -> ip y <> ip junk) \/
    (off (ip junk) = 0%N /\ (rest = [] \/ exists pg rest', rest = pg :: rest' /\ lf_items pg <> [])).
  (** A leaf level the scan may meet: the first page is not empty or the junk does no harm, right bounds
      are not below the page's rows and a search from the root arrives at or before the row looked for.
      Pages may be empty. *)
  Definition found_ok (cmp : item -> item -> Z) (f : found A) (refind : item -> nat) : Prop :=
    match f with
    | FTree chain junk =>
        (exists pg rest, chain = pg :: rest /\ (lf_items pg <> [] \/ harmless junk rest)) /\
        (forall pg1 pg pg2 rest y, chain = pg1 ++ pg :: pg2 :: rest -> In y (lf_items pg) -> cmp y (lf_bound pg) <= 0) /\
        (forall x, (refind x < length chain)%nat /\ forall y, In y (flat_map lf_items (firstn (refind x) chain)) -> cmp y x < 0)
    | _ => True
    end.
  (** The query: for each query key its column, what the index has for it, an estimate and where
      searches in its tree arrive; every query key belongs to a condition and has its column. *)
  Record qentry := mkQe { q_att : N; q_found : found A; q_predict : N; q_refind : item -> nat }.
  Definition start (q : qentry) : entry A := startScanEntry (q_att q) (q_found q) (q_predict q) (q_refind q).
  Definition rows (join : joins A) (qs : list qentry) : list (list item) := map (fun q => rows_found (join (q_att q)) (q_found q)) qs.
  Definition query_ok (qs : list qentry) (keys : list skey) : Prop :=
    (forall k n, In k keys -> In n (sk_ents k) -> exists q, nth_error qs n = Some q /\ q_att q = sk_att k) /\
    (forall n q, nth_error qs n = Some q -> exists k, In k keys /\ In n (sk_ents k)).
End Spec.
