(** C53: sessions that insert into one posting tree at the same time. *)
From Verif Require Import Base Ord Codec CodecSpec LeafPage LeafSpec LeafCodec BTree PostingTree PostingTreeSpec PropTreeProof BTreeConc PostingTreeConc PostingTreeConcSpec PostingTreeConcProof.
From Coq Require Import List NArith ZArith Bool Arith.
Import ListNotations.

(** A posting tree was created with [rows0].  Any number of sessions then insert one row each; the moments at which
    they lock, change and release pages are interleaved in any way ([sched]: whose turn it is).  At every moment no
    session has failed, every page is sound, and the tree holds exactly the rows it started with and those of the
    sessions that are past their change of a leaf, in order and each once. *)
Theorem C53_overlapping_insertions : forall alt a cmpA, config_ok alt a -> total_cmp cmpA -> safe_align a ->
  forall build rows0 rows, ssorted (compareRumItem alt cmpA) rows0 -> Forall (storable alt a) rows0 -> fits_page alt a rows0 -> Forall (storable alt a) rows ->
  forall sched, let '(st, ws) := ptOverlap alt a cmpA build (createPostingTree rows0) rows sched in
  length ws = length rows /\ holds_so_far alt a cmpA rows0 rows st ws /\
  forall i w, nth_error ws i = Some w -> ~ failed w.
Proof.
  intros alt a cmpA Hc HA Hs build rows0 rows H1 H2 H3 H4 sched.
  pose proof (overlap_holds alt a cmpA Hc HA Hs build rows0 rows H1 H2 H3 H4 sched) as H. destruct (ptOverlap _ _ _ _ _ _ _). exact H.
Qed.
Print Assumptions C53_overlapping_insertions.

(** A row a search of the tree finds at one moment is found at every later one. *)
Theorem C53_rows_stay : forall alt a cmpA, config_ok alt a -> total_cmp cmpA -> safe_align a ->
  forall build rows0 rows, ssorted (compareRumItem alt cmpA) rows0 -> Forall (storable alt a) rows0 -> fits_page alt a rows0 -> Forall (storable alt a) rows ->
  forall sched more stored stored',
  ptScan (fst (ptOverlap alt a cmpA build (createPostingTree rows0) rows sched)) = Some stored ->
  ptScan (fst (ptOverlap alt a cmpA build (createPostingTree rows0) rows (sched ++ more))) = Some stored' ->
  incl stored stored'.
Proof. exact overlap_grows. Qed.
Print Assumptions C53_rows_stay.

(** The sessions never wait for each other in a circle: as long as one of them is not done, one of them can go on. *)
Theorem C53_no_deadlock : forall alt a cmpA, config_ok alt a -> total_cmp cmpA -> safe_align a ->
  forall build rows0 rows, ssorted (compareRumItem alt cmpA) rows0 -> Forall (storable alt a) rows0 -> fits_page alt a rows0 -> Forall (storable alt a) rows ->
  forall sched, let '(st, ws) := ptOverlap alt a cmpA build (createPostingTree rows0) rows sched in
  ~ all_done ws -> exists i w s, nth_error ws i = Some w /\ ptAct alt a cmpA build (free ws i) st 0 w = Some s.
Proof.
  intros alt a cmpA Hc HA Hs build rows0 rows H1 H2 H3 H4 sched.
  pose proof (overlap_goes alt a cmpA Hc HA Hs build rows0 rows H1 H2 H3 H4 sched) as H. destruct (ptOverlap _ _ _ _ _ _ _). exact H.
Qed.
Print Assumptions C53_no_deadlock.

(** If every session gets its turn again and again, all of them come to their end. *)
Theorem C53_all_finish : forall alt a cmpA, config_ok alt a -> total_cmp cmpA -> safe_align a ->
  forall build rows0 rows, ssorted (compareRumItem alt cmpA) rows0 -> Forall (storable alt a) rows0 -> fits_page alt a rows0 -> Forall (storable alt a) rows ->
  forall f, fair (length rows) f ->
  exists n, forall m, n <= m -> all_done (snd (ptOverlap alt a cmpA build (createPostingTree rows0) rows (map f (seq 0 m)))).
Proof. exact overlap_ends. Qed.
Print Assumptions C53_all_finish.

(** When all sessions are done the tree takes any further batch, without an error and with every row reachable. *)
Theorem C53_tree_left_behind : forall alt a cmpA, config_ok alt a -> total_cmp cmpA -> safe_align a ->
  forall build rows0 rows, ssorted (compareRumItem alt cmpA) rows0 -> Forall (storable alt a) rows0 -> fits_page alt a rows0 -> Forall (storable alt a) rows ->
  forall sched build' batch, let '(st, ws) := ptOverlap alt a cmpA build (createPostingTree rows0) rows sched in
  all_done ws -> valid_batch alt a cmpA batch -> exists trace, ptInsert alt a cmpA build' st batch = Some (trace, false).
Proof.
  intros alt a cmpA Hc HA Hs build rows0 rows H1 H2 H3 H4 sched build' batch.
  pose proof (overlap_after alt a cmpA Hc HA Hs build rows0 rows H1 H2 H3 H4 sched build' batch) as H. destruct (ptOverlap _ _ _ _ _ _ _). exact H.
Qed.
Print Assumptions C53_tree_left_behind.

(** Ten sessions; after three rounds three of them are in the middle of a split, after seven all are done. *)
Lemma C53_hypotheses_met :
  config_ok false big_attr /\ total_cmp zcmp /\ safe_align big_attr /\
  ssorted (compareRumItem false zcmp) ten_old /\ Forall (storable false big_attr) ten_old /\ fits_page false big_attr ten_old /\
  Forall (storable false big_attr) ten /\
  length (filter splitting (snd (ten_after 3))) = 3 /\
  option_map (map (fun r => blk (ip r))) (ptScan (fst (ten_after 3))) = Some [10; 11; 12; 15; 20; 22; 25; 30; 35]%N /\
  forallb doneb (snd (ten_after 7)) = true /\
  option_map (map (fun r => blk (ip r))) (ptScan (fst (ten_after 7))) = Some [10; 11; 12; 15; 17; 20; 22; 25; 27; 30; 32; 35; 37]%N.
Proof. exact C53_example. Qed.
Lemma C53_fair_met : fair (length ten) (fun t => t mod 10).
Proof.
  intros i t Hi. exists (i + t * 10). assert (Hi' : i < 10) by exact Hi. split.
  - rewrite Nat.mul_comm. cbn. apply Nat.le_trans with (t + 0); [rewrite Nat.add_0_r; apply Nat.le_refl|]. rewrite (Nat.add_comm i). rewrite <- Nat.add_assoc.
    apply Nat.add_le_mono_l. apply Nat.le_0_l.
  - rewrite Nat.mod_add by discriminate. apply Nat.mod_small. exact Hi'.
Qed.
