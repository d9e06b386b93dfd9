(** C52: a query running while rows are inserted into the index. *)
From Verif Require Import Base Ord OrdProof Codec CodecSpec LeafPage LeafSpec LeafCodec LeafCodecProof Entries BulkSpec BTree BTreeInv BTreeFind BTreeIns PostingTree PostingTreeProof
  PostingTreeSpec PropTreeProof EntryTree EntryTreeProof IndexSpec IndexProof IndexExamples ScanEntry ScanConc ScanConcSpec ScanConcTree ScanConcProof PropScanConc
  IndexConc IndexConcSpec IndexConcProof BulkProof.
From Coq Require Import List NArith ZArith Bool Arith Lia.
Import ListNotations.

Lemma last_firstn_in {A} (l : list A) x n : In (last (firstn n l) x) (x :: l).
Proof.
  revert x n. induction l as [|y l IH]; intros x [|n]; cbn [firstn]; try (left; reflexivity). rewrite last_cons_eq. destruct (IH y n) as [H|H]; right; [left|right]; exact H.
Qed.

Section Reach.
  Context {K : Type}.
  Variable compareFn : N -> K -> K -> Z.
  Variable altOf : N -> bool.
  Variable attrOf : N -> attr.
  Variable cmpA : datum -> datum -> Z.
  Variable rawSize : ekey K -> N.
  Variable dflt : K.
  Notation reach := (ireaches compareFn altOf attrOf cmpA rawSize dflt).
  Lemma inserting_reach ix calls later : iinserting compareFn altOf attrOf cmpA rawSize dflt ix calls later -> forall acked tried, reach ix acked tried ->
    reach (last later ix) acked (tried ++ calls) /\ forall s, In s (ix :: later) -> exists c1, reach s acked (tried ++ c1).
  Proof.
    induction 1 as [ix|ix build k rows calls tr out n later Hc Hi Hl IH]; intros acked tried Hr.
    - rewrite app_nil_r. split; [exact Hr|]. intros s [<-|[]]. exists []. rewrite app_nil_r. exact Hr.
    - assert (Hs : forall s, In s (ix :: tr) -> reach s acked (tried ++ [(build, k, rows)])) by (intros s Hs; eapply ireaches_cut; eauto).
      destruct (IH acked (tried ++ [(build, k, rows)]) (Hs _ (last_firstn_in tr ix n))) as [A B]. rewrite <- app_assoc in A. split.
      + assert (E : last (firstn n tr ++ later) ix = last later (last (firstn n tr) ix)).
        { clear. revert ix. induction (firstn n tr) as [|y l IHl]; intro ix; [reflexivity|]. cbn [app]. rewrite !last_cons_eq. apply IHl. }
        rewrite E. exact A.
      + intros s [<-|Hin]; [exists []; rewrite app_nil_r; exact Hr|]. apply in_app_iff in Hin as [Hin|Hin].
        * exists [(build, k, rows)]. apply Hs. right. rewrite <- (firstn_skipn n tr). apply in_app_iff. left. exact Hin.
        * destruct (B s (or_intror Hin)) as [c1 H1]. exists ((build, k, rows) :: c1). rewrite <- app_assoc in H1. exact H1.
  Qed.
End Reach.

(** The index is in any state insertions (some of them cut short) lead to.  A query for one key then reads it, page
    by page, while further insertions run, of any keys (one at a time, each logged change visible at once, any of
    them cut short).  Whatever states its page reads see, the query comes to an end without error; the rows it gets
    are in index order without repetition; they include every row of the key that a search found in the index at the
    moment of the query's first page read, hence every row whose insertion was completed before; and every one of
    them was inserted with that key - provided the posting tree of that key is not
    seen as one page by one page read of the query and as several pages by a later one. *)
Theorem C52_query_during_insertions_partial {K} compareFn useAlt addTo attrOf cmpA rawSize (dflt : K) ix acked tried calls later sched k junk :
  let altOf := altOf useAlt addTo in
  columns_ok compareFn altOf attrOf cmpA ->
  ireaches compareFn altOf attrOf cmpA rawSize dflt ix acked tried ->
  iinserting compareFn altOf attrOf cmpA rawSize dflt ix calls later ->
  observed (ix :: later) sched -> isettled compareFn k sched ->
  exists rows0 fuel s n out, rowsOf compareFn (sched 0) k = Some rows0 /\
    startKeyC compareFn sched fuel k junk = Some s /\ runKeyC useAlt addTo cmpA sched n s = (out, Some true) /\
    let got := regular useAlt addTo cmpA (k_att k) None out in
    let cmp := compareRumItem (altOf (k_att k)) cmpA in
    ssorted cmp got /\ incl rows0 got /\
    (forall x, In x (given compareFn k acked) -> exists y, In y got /\ cmp y x = 0%Z) /\
    (forall x, In x got -> In x (given compareFn k (tried ++ calls))).
Proof.
  intros altF Hcols Hr Hi Ho Hs.
  destruct (watch_of compareFn useAlt addTo attrOf cmpA rawSize dflt Hcols ix acked tried calls later sched Hr Hi Ho) as (Ge & Gp & tau & GL & GTL & W1 & W2 & W3 & W4 & W5 & W6 & W7 & W8).
  destruct (inserting_reach compareFn altF attrOf cmpA rawSize dflt ix calls later Hi acked tried Hr) as [HrN Hall].
  destruct (Hall (sched 0) (W8 0)) as [c1 Hr0].
  destruct (index_crashes compareFn altF attrOf cmpA rawSize dflt Hcols true _ _ _ eq_refl Hr0) as [[B0 _] _].
  destruct (index_crashes compareFn altF attrOf cmpA rawSize dflt Hcols true _ _ _ eq_refl HrN) as [[BN _] _].
  destruct (B0 k) as (r0 & K0 & F0). destruct (BN k) as (rN & KN & FN).
  assert (R0 : rowsOf compareFn (sched 0) k = Some (match r0 with Some l => l | None => [] end)) by (unfold rowsOf; rewrite K0; destruct r0; reflexivity).
  assert (RN : rowsOf compareFn (last later ix) k = Some (match rN with Some l => l | None => [] end)) by (unfold rowsOf; rewrite KN; destruct rN; reflexivity).
  destruct (key_scan compareFn useAlt addTo attrOf cmpA rawSize Hcols ix later sched Ge Gp tau GL GTL W1 W2 W3 W4 W5 W6 W7 W8 k junk _ _ Hs R0 RN)
    as (fuel & s & n & out & H1 & H2 & H3 & H4 & H5).
  exists (match r0 with Some l => l | None => [] end), fuel, s, n, out. split; [exact R0|]. split; [exact H1|]. split; [exact H2|]. cbv zeta. split; [exact H3|]. split; [exact H4|]. split.
  - intros x Hx. destruct r0 as [l|].
    + destruct F0 as (_ & _ & F & _). destruct (F x Hx) as (y & Hy & E). exists y. split; [apply H4; exact Hy|exact E].
    + exfalso. rewrite (given_none compareFn k acked F0) in Hx. exact Hx.
  - intros x Hx. apply H5 in Hx. destruct rN as [l|]; [|destruct Hx]. destruct FN as (_ & _ & _ & F). exact (F x Hx).
Qed.

(** ** a concrete index *)
(** Key 3 has a posting tree of several pages; rows are then added to key 3 and to a new key. *)
Definition wcalls : list (@call Z) := excalls ++ [ins1 3 9].
Definition wix : @istate Z := match exrun wcalls with Some ix => ix | None => emptyIndex 0%Z end.
Definition itrace (ix : @istate Z) (z : Z) (b : N) : list (@istate Z) :=
  match rumEntryInsert zf off0 bigA zcmp ksz 0%Z false ix (nk z) [bigrow b] with Some (tr, _) => tr | None => [] end.
Definition wlater (ix : @istate Z) : list (@istate Z) :=
  let t1 := itrace ix 3 2 in let t2 := itrace (last t1 ix) 7 9 in t1 ++ t2 ++ itrace (last t2 (last t1 ix)) 3 3.
(** the first [k] page reads see [ix], all others the last state *)
Definition iswitch (k : nat) (ix : @istate Z) (later : list (@istate Z)) (t : nat) : @istate Z := if t <? k then ix else last later ix.

Lemma iswitch_observed k ix later : observed (ix :: later) (iswitch k ix later).
Proof.
  exists (fun t => if t <? k then 0 else length later). split.
  - intros t t' L. destruct (Nat.ltb_spec t k), (Nat.ltb_spec t' k); lia.
  - intro t. unfold iswitch. destruct (t <? k); [reflexivity|].
    clear. revert ix. induction later as [|s tr IH]; intro ix; [reflexivity|]. rewrite last_cons_eq. exact (IH s).
Qed.
Lemma wix_reach : ireaches zf off0 bigA zcmp ksz 0%Z wix wcalls wcalls.
Proof.
  assert (H : Forall (call_ok off0 bigA zcmp ksz) wcalls) by (apply Forall_app; split; [exact excalls_ok|apply Forall_cons; [apply ex_call_ok; reflexivity|apply Forall_nil]]).
  assert (E : exrun wcalls = Some wix).
  { assert (E : match exrun wcalls with Some _ => true | None => false end = true) by (vm_compute; reflexivity). unfold wix. destruct (exrun wcalls); [reflexivity|discriminate]. }
  unfold exrun in E. revert H E. generalize wcalls wix. intros l ix H E. exact (ex_reach l (emptyIndex 0%Z) [] [] ix (ireaches_new _ _ _ _ _ _) H E).
Qed.
Lemma itrace_inserting ix z b calls later : (b < 2 ^ 32)%N -> itrace ix z b <> [] -> iinserting zf off0 bigA zcmp ksz 0%Z (last (itrace ix z b) ix) calls later ->
  iinserting zf off0 bigA zcmp ksz 0%Z ix (ins1 z b :: calls) (itrace ix z b ++ later).
Proof.
  intros Hb Hne Hl. unfold itrace in *. destruct (rumEntryInsert _ _ _ _ _ _ _ _ _ _) as [[tr out]|] eqn:E; [|congruence].
  rewrite <- (firstn_all tr) at 1. econstructor; [apply (ex_call_ok z b Hb)|exact E|]. rewrite firstn_all. exact Hl.
Qed.
Lemma itrace_one ix z b : (b < 2 ^ 32)%N -> itrace ix z b <> [] -> iinserting zf off0 bigA zcmp ksz 0%Z ix [ins1 z b] (itrace ix z b).
Proof. intros Hb Hne. rewrite <- (app_nil_r (itrace ix z b)). apply itrace_inserting; auto. constructor. Qed.
Lemma wix_inserting : iinserting zf off0 bigA zcmp ksz 0%Z wix [ins1 3 2; ins1 7 9; ins1 3 3] (wlater wix).
Proof.
  assert (H1 : match itrace wix 3 2 with [] => false | _ => true end = true) by (vm_compute; reflexivity).
  assert (H2 : match itrace (last (itrace wix 3 2) wix) 7 9 with [] => false | _ => true end = true) by (vm_compute; reflexivity).
  assert (H3 : match itrace (last (itrace (last (itrace wix 3 2) wix) 7 9) (last (itrace wix 3 2) wix)) 3 3 with [] => false | _ => true end = true) by (vm_compute; reflexivity).
  unfold wlater. cbv zeta. apply itrace_inserting; [reflexivity|destruct (itrace wix 3 2); [discriminate H1|discriminate]|].
  apply itrace_inserting; [reflexivity|destruct (itrace (last (itrace wix 3 2) wix) 7 9); [discriminate H2|discriminate]|].
  apply itrace_one; [reflexivity|].
  destruct (itrace (last (itrace (last (itrace wix 3 2) wix) 7 9) (last (itrace wix 3 2) wix)) 3 3); [discriminate H3|discriminate].
Qed.
Lemma wix_settled k q : isettled zf q (iswitch k wix (wlater wix)).
Proof.
  assert (H : forallb (fun s => match i_trees s with [t] => negb (leaf_root t) | _ => false end) [wix; last (wlater wix) wix] = true) by (vm_compute; reflexivity).
  intros u tuples t n _ _ _ _ H0. exfalso. rewrite forallb_forall in H.
  assert (Hin : In (iswitch k wix (wlater wix) (u + 0)) [wix; last (wlater wix) wix]) by (unfold iswitch; destruct (_ <? _); [left|right; left]; reflexivity).
  specialize (H _ Hin). destruct (i_trees (iswitch k wix (wlater wix) (u + 0))) as [|t0 [|t2 l]]; try discriminate H. apply negb_true_iff in H.
  destruct n as [|n]; cbn [nth] in H0; [rewrite H in H0; discriminate H0|]. destruct n; discriminate H0.
Qed.
(** The hypotheses of the theorem hold for it, the query for key 3 starting with one state and ending with another;
    the rows read include the four rows of the beginning. *)
Lemma C52_hypotheses_met :
  columns_ok zf (altOf false 0) bigA zcmp /\ ireaches zf (altOf false 0) bigA zcmp ksz 0%Z wix wcalls wcalls /\
  iinserting zf (altOf false 0) bigA zcmp ksz 0%Z wix [ins1 3 2; ins1 7 9; ins1 3 3] (wlater wix) /\
  observed (wix :: wlater wix) (iswitch 4 wix (wlater wix)) /\ isettled zf (nk 3) (iswitch 4 wix (wlater wix)) /\
  option_map (map (fun r => blk (ip r))) (rowsOf zf (iswitch 4 wix (wlater wix) 0) (nk 3)) = Some [1; 7; 8; 9]%N /\
  option_map (map (fun r => blk (ip r))) (rowsOf zf (last (wlater wix) wix) (nk 3)) = Some [1; 2; 3; 7; 8; 9]%N /\
  match startKeyC zf (iswitch 4 wix (wlater wix)) 9 (nk 3) item_min with
  | Some s => let '(out, b) := runKeyC false 0 zcmp (iswitch 4 wix (wlater wix)) 20 s in
              b = Some true /\ incl [1; 7; 8; 9]%N (map (fun r => blk (ip r)) (regular false 0 zcmp 1 None out))
  | None => False
  end.
Proof.
  split; [exact ex_columns|]. split; [exact wix_reach|]. split; [exact wix_inserting|]. split; [apply iswitch_observed|]. split; [exact (wix_settled 4 (nk 3))|].
  split; [vm_compute; reflexivity|]. split; [vm_compute; reflexivity|].
  assert (H : match startKeyC zf (iswitch 4 wix (wlater wix)) 9 (nk 3) item_min with
    | Some s => let '(out, b) := runKeyC false 0 zcmp (iswitch 4 wix (wlater wix)) 20 s in
        match b with Some true => true | _ => false end &&
        forallb (fun n => existsb (N.eqb n) (map (fun r => blk (ip r)) (regular false 0 zcmp 1 None out))) [1; 7; 8; 9]%N
    | None => false end = true) by (vm_compute; reflexivity).
  destruct (startKeyC _ _ _ _ _) as [s|]; [|discriminate H]. destruct (runKeyC _ _ _ _ _ s) as [out b]. apply andb_true_iff in H as [H1 H2].
  split; [destruct b as [[]|]; [reflexivity|discriminate H1|discriminate H1]|]. intros n Hn. rewrite forallb_forall in H2. specialize (H2 n Hn).
  apply existsb_exists in H2 as (m & Hm & E). apply N.eqb_eq in E. subst m. exact Hm.
Qed.

Print Assumptions C52_query_during_insertions_partial.
Print Assumptions C52_hypotheses_met.
