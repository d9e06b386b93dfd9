(** C14: vacuum of a posting list.  Model: Vacuum.v, Codec.v. *)
From Verif Require Import Base Ord Codec CodecSpec LeafSpec LeafCodec PropCodecProof Vacuum VacuumProof.
From Coq Require Import NArith ZArith List Lia.
Import ListNotations.

(** C14.  A stored posting list [src] (whatever bytes follow it) of rows in index order; [dead] the
    callback's verdict.  The count returned is the number of rows not dead.  No new list is made iff
    no row is dead; else the new list is not longer than the old one (the buffer the code allocates),
    and reading it back gives exactly the rows not dead, in order, with their attached values. *)
Theorem C14_vacuum_posting_list : forall alt a dead cmpA (rows : list (item datum)) src rest,
  config_ok alt a -> Forall (item_ok alt a) rows -> ssorted (compareRumItem alt cmpA) rows ->
  writePostingList alt a 0 rows ip_min = Some src ->
  let kept := filter (fun it => negb (dead (ip it))) rows in
  exists cleaned, rumVacuumPostingList alt a dead (src ++ rest) (length rows) = Some (length kept, cleaned) /\
    match cleaned with
    | None => forall x, In x rows -> dead (ip x) = false
    | Some bytes =>
        (exists x, In x rows /\ dead (ip x) = true) /\ (nlen bytes <= nlen src)%N /\
        forall rest', exists rows', rumReadTuple alt a (length kept) 0 (bytes ++ rest') ip_min = Some rows' /\
          map row_of rows' = map row_of kept
    end.
Proof. intros alt a dead cmpA rows src rest Hcfg Hok Hs Hw. exact (vacuum_list alt a dead Hcfg cmpA rows src rest Hok Hs Hw). Qed.
Print Assumptions C14_vacuum_posting_list.

(** C14, what the page keeps: the stored list afterwards reads back as the live rows, whether or not
    anything was removed. *)
Theorem C14_vacuum_stored_list : forall alt a dead (rows : list (item datum)) src rest,
  Forall (item_ok alt a) rows -> writePostingList alt a 0 rows ip_min = Some src ->
  let kept := filter (fun it => negb (dead (ip it))) rows in
  exists bytes, vacuumStored alt a dead (src ++ rest) (length rows) = Some (length kept, bytes) /\
    exists rows', rumReadTuple alt a (length kept) 0 bytes ip_min = Some rows' /\ map row_of rows' = map row_of kept.
Proof. intros alt a dead rows src rest Hok Hw. exact (vacuum_stored alt a dead rows src rest Hok Hw). Qed.
Print Assumptions C14_vacuum_stored_list.

Definition vrows : list (item datum) :=
  [ mkItem (mkIp 0 1) None; mkItem (mkIp 100 300) (Some (DVar V4U [1; 2; 3]%N));
    mkItem (mkIp 9000 5) (Some (DVar V4U (repeat 7%N 200))); mkItem (mkIp 9000 6) (Some (DVar V1 [8]%N));
    mkItem (mkIp 4000000000 65535) (Some (DVar V4C [9; 9]%N)) ].
Example C14_hypotheses_met : config_ok false (AVar 4 true) /\ Forall (item_ok false (AVar 4 true)) vrows /\
  ssorted (compareRumItem false (fun _ _ => 0%Z)) vrows /\
  (let dead := fun p => (off p =? 300)%N || (off p =? 6)%N in
   match writePostingList false (AVar 4 true) 0 vrows ip_min with
   | Some src => match rumVacuumPostingList false (AVar 4 true) dead (src ++ [1; 2]%N) 5 with
                 | Some (n, Some b) => n = 3 /\ option_map (map row_of) (rumReadTuple false (AVar 4 true) 3 0 b ip_min) =
                                        Some (map row_of (filter (fun it => negb (dead (ip it))) vrows)) /\ (nlen b < nlen src)%N
                 | _ => False end
   | None => False end).
Proof.
  split; [split; [right; right; left; reflexivity|discriminate]|]. split; [apply items_okb; vm_compute; reflexivity|].
  split; [repeat constructor|]. vm_compute. auto.
Qed.
