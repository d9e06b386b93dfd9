(** Specification vocabulary for C52: a query running while rows are inserted into the index. *)
From Verif Require Import Base Entries Codec LeafPage LeafCodec BTree PostingTree EntryTree IndexSpec ScanConcSpec.
From Coq Require Import NArith ZArith List.
Import ListNotations.

Section Spec.
  Context {K : Type}.
  Variable compareFn : N -> K -> K -> Z.
  Variable altOf : N -> bool.
  Variable attrOf : N -> attr.
  Variable cmpA : datum -> datum -> Z.
  Variable rawSize : ekey K -> N.
  Variable dflt : K.

  (** The states the index goes through after [ix] while the insertions [calls] run one after another, each logged
      change being a state; an insertion may stop after any number of changes (crash, or an error). *)
  Inductive iinserting : @istate K -> list (@call K) -> list (@istate K) -> Prop :=
  | iins_none ix : iinserting ix [] []
  | iins_more ix build k rows calls tr out n later : call_ok altOf attrOf cmpA rawSize (build, k, rows) ->
      rumEntryInsert compareFn altOf attrOf cmpA rawSize dflt build ix k rows = Some (tr, out) ->
      iinserting (last (firstn n tr) ix) calls later ->
      iinserting ix ((build, k, rows) :: calls) (firstn n tr ++ later).

  (** The page reads of a query never see the posting tree of key [k] as one page at one moment and as several
      pages at a later one. *)
  Definition isettled (k : ekey K) (sched : nat -> @istate K) : Prop := forall u tuples t n,
    allTuples (sched u) = Some tuples -> In t tuples -> rumCompareAttEntries compareFn (t_key t) k = 0%Z -> t_data t = PTree n ->
    settled (fun v => nth n (i_trees (sched (u + v))) []).

  (** The rows a search for a key finds in one state of the index. *)
  Definition rowsOf (ix : @istate K) (k : ekey K) : option (list row) :=
    match keyRows compareFn ix k with Some (Some rows) => Some rows | Some None => Some [] | None => None end.
End Spec.
