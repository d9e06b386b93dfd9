(** C03, C04: word positions kept as attached value.  Vocabulary: PosSpec.v; model: PosCodec.v. *)
From Verif Require Import Base PosCodec PosSpec PosProof.
Local Open Scope N_scope.

(** C03.  Every position list of a tsvector is read back exactly (entry = position and weight),
    with the right count; each stored byte is a byte, and the compressed form takes at most 3 of
    the 4 bytes per position that rum_extract_tsvector allocates. *)
Theorem C03_positions_roundtrip : forall l : list N, pos_list l ->
  read_positions (compress_pos l) = Some l /\ count_pos (compress_pos l) = length l /\
  (length (compress_pos l) <= 3 * length l)%nat /\ Forall (fun b => b < 256) (compress_pos l).
Proof. exact pos_roundtrip. Qed.
Print Assumptions C03_positions_roundtrip.

Example C03_hypotheses_met :
  let l := [1 + 3 * 16384; 32; 64 + 2 * 16384; 4095; 16383 + 16384] in
  pos_list l /\ length (compress_pos l) = 9%nat.
Proof. split; [split; repeat constructor|reflexivity]. Qed.

(** C04.  The joined value is read back as an ascending list holding the entries of the first
    list and those entries of the second whose position the first lacks, and nothing else; it
    fits the buffer allocated (4 bytes per position). *)
Theorem C04_join_is_union : forall l1 l2 : list N,
  pos_list l1 -> pos_list l2 -> l1 <> [] -> l2 <> [] ->
  exists bytes l, rum_ts_join_pos (compress_pos l1) (compress_pos l2) = Some bytes /\
    read_positions bytes = Some l /\ pos_list l /\ (length bytes <= 4 * length l)%nat /\
    forall p, In p l <-> In p l1 \/ (In p l2 /\ forall q, In q l1 -> position q <> position p).
Proof. exact join_spec. Qed.
Print Assumptions C04_join_is_union.

Example C04_hypotheses_met :
  let l1 := [3; 40 + 16384; 5000] in let l2 := [1; 40; 4000; 16000] in
  pos_list l1 /\ pos_list l2 /\
  option_map read_positions (rum_ts_join_pos (compress_pos l1) (compress_pos l2)) =
    Some (Some [1; 3; 40 + 16384; 4000; 5000; 16000]).
Proof. split; [split; repeat constructor|]. split; [split; repeat constructor|reflexivity]. Qed.
