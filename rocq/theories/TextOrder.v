(** ORDER BY column <=> tsquery inside an index of documents (C50): the ordering the scan is given. *)
From Coq Require Import QArith NArith ZArith Bool List.
From Verif Require Import Base Codec PosCodec Entries Bulk ScanEntry Scan IndexScan OrderScan Tsq TextSearch TextQuery TsRank.
Import ListNotations.
Local Open Scope Z_scope.

(** Comparison of distances (rumsort.c:176-183, [<] and [>] on float8); [None]: infinity.  Simplification: finite distances are
    rational numbers, see TsRank.v. *)
Definition farCompare (x y : option Q) : Z :=
  match x, y with
  | Some a, Some b => match (a ?= b)%Q with Lt => -1 | Eq => 0 | Gt => 1 end
  | Some _, None => -1
  | None, Some _ => 1
  | None, None => 0
  end.
(** The ordering "column [fst s] <=> query [snd s]" of the classes with positions: the query keys are those of the
    condition "column @@ query" (strategy-independent: rum_extract_tsquery, rum_ts_utils.c:1383-1407), the distance is what
    rum_tsquery_distance (rum_ts_utils.c:2048-2069) says about them, called with key->entryRes, nuserentries, the item map
    (extra_data) and the attached values (rumget.c:2417-2446).  [itemAddr]: addresses of the query's items.
    Distances by attached value or by key do not exist for these classes. *)
Definition text_ordering {K} (build : list N -> K) (read : K -> list N) (qsort : list operand -> list operand)
    (qsortD : list docr -> list docr) (cast : Q -> Q) (itemAddr : nat -> Z) (s : N * tsq) : ordering K (option Q) :=
  mkOrd (text_clause true build read qsort (fst s, Some (snd s)))
    (fun v => match rum_extract_tsquery_internal build qsort (snd s) with
              | Some (ents, m) => rum_tsquery_distance qsortD cast itemAddr m (map checkOf v) (map bytesOf v) (length ents) (Some (snd s))
              | None => None
              end)
    (fun _ => None) (fun _ => None).
