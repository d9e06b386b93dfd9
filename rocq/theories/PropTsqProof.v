(** Proofs of the full-text properties (statements: PropTsq.v). *)
From Coq Require Import Lia ZifyN Sorted Permutation.
From Verif Require Import Base Ord OrdProof Codec PosCodec PosSpec PosProof Tsq TsqSpec TsqProof TsqPhrase TsqExec TsqExtract.
Local Open Scope Z_scope.

Lemma fit_bounded d q : positions_fit d q -> exists M, bounded d M /\ M + total_distance q < 16384.
Proof.
  intros [_ H]. exists (16383 - total_distance q). split; [|lia]. intros w l p Hi Hp. specialize (H w l p Hi Hp). lia.
Qed.

(* from an entry of the extraction to the operands it serves *)
Lemma entry_operand {K} (build : list N -> K) qsort q ents m k o :
  sorts_words qsort -> modes_agree q -> rum_extract_tsquery_internal build qsort q = Some (ents, m) ->
  nth_error (items q) k = Some (Some o) ->
  nth_error ents (nth k m O) = Some (build (o_word o), o_prefix o).
Proof.
  intros Hq Hm He Hk. destruct (extract_query_spec build qsort q Hq) as (es & m' & E & _ & _ & Hin & Hmap).
  rewrite He in E. injection E as -> ->. destruct (Hmap k o Hk) as (e & Hn & Hw).
  rewrite nth_error_map, Hn. cbn. rewrite Hw. f_equal. f_equal. apply Hm.
  - apply Hin. eapply nth_error_In. exact Hn.
  - apply in_items. eapply nth_error_In. exact Hk.
  - exact Hw.
Qed.
Lemma asks_same o wt w : asks_for (mkOp (o_word o) wt (o_prefix o)) w <-> asks_for o w.
Proof. reflexivity. Qed.

Definition verdict (d : document) (q : tsq) (res : bool * bool) : Prop :=
  (matches d q -> fst res = true) /\ (fst res = true -> snd res = false -> matches d q).

Lemma consistent_reported d q m check add :
  positions_fit d q ->
  (forall k o, nth_error (items q) k = Some (Some o) ->
     reports d o (nth (nth k m O) check false) (nth (nth k m O) add None)) ->
  let res := rum_tsquery_consistent m check add (Some q) in
  verdict d q res /\
  (snd res = true -> weighted_under_not false q \/ exists o, in_query o q /\ stripped d o).
Proof.
  intros Hfit Hrep. destruct (fit_bounded d q Hfit) as (M & HM & Hlt).
  assert (placed (fun i o => reports d o (nth (nth i m O) check false) (nth (nth i m O) add None)) 0 q) as Hp.
  { apply placed_items. intros k o Hk. apply Hrep. exact Hk. }
  destruct (execute_spec d M HM (mkChk m check add false) eq_refl q 0 false Hp (proj1 Hfit) Hlt) as [Hs Hmb].
  unfold rum_tsquery_consistent, verdict.
  destruct (rum_TS_execute _ _ 0 q); cbn in *; repeat split; try tauto; try discriminate.
Qed.

Lemma consistent_found qsort q d ents m check add :
  sorts_words qsort -> rum_extract_tsquery_internal (fun w => w) qsort q = Some (ents, m) ->
  valid_doc d -> positions_fit d q -> modes_agree q ->
  (forall o, in_query o q -> stripped_alike d o /\ weights_clear d o) ->
  (forall j w pm, nth_error ents j = Some (w, pm) ->
     found (asks_for (mkOp w 0 pm)) (rum_extract_tsvector_internal (fun w => w) d) (nth j check false) (nth j add None)) ->
  let res := rum_tsquery_consistent m check add (Some q) in
  verdict d q res /\
  (snd res = true -> weighted_under_not false q \/ exists o, in_query o q /\ stripped d o).
Proof.
  intros Hq He Hv Hfit Hm Hcl Hf. apply consistent_reported; [exact Hfit|]. intros k o Hk.
  pose proof (entry_operand _ _ _ _ _ _ _ Hq Hm He Hk) as Hn. specialize (Hf _ _ _ Hn).
  assert (in_query o q) as Hin by (apply in_items; eapply nth_error_In; exact Hk).
  destruct (Hcl o Hin) as [Hsa Hwc]. apply found_reports; assumption.
Qed.

Lemma timestamp_found qsort q d ents m check add :
  sorts_words qsort -> rum_extract_tsquery_internal (fun w => w) qsort q = Some (ents, m) ->
  modes_agree q ->
  (forall j w pm, nth_error ents j = Some (w, pm) ->
     (nth j check false = true <-> exists w' ps, In (w', ps) d /\ asks_for (mkOp w 0 pm) w')) ->
  verdict d q (rum_tsquery_timestamp_consistent m check add (Some q)).
Proof.
  intros Hq He Hm Hf.
  assert (placed (fun i o => reports_presence d o (nth (nth i m O) check false)) 0 q) as Hp.
  { apply placed_items. intros k o Hk. pose proof (entry_operand _ _ _ _ _ _ _ Hq Hm He Hk) as Hn. exact (Hf _ _ _ Hn). }
  pose proof (execute_nopos d (mkChk m check add true) eq_refl q 0 false Hp) as Hs.
  unfold rum_tsquery_timestamp_consistent, verdict.
  destruct (rum_TS_execute _ _ 0 q); cbn in *; repeat split; try tauto; try discriminate.
Qed.

Lemma prefilter_found qsort q d ents m check :
  sorts_words qsort -> rum_extract_tsquery_internal (fun w => w) qsort q = Some (ents, m) ->
  modes_agree q ->
  (forall j w pm, nth_error ents j = Some (w, pm) ->
     (exists w' ps, In (w', ps) d /\ asks_for (mkOp w 0 pm) w') -> nth j check false = true) ->
  matches d q -> rum_tsquery_pre_consistent m check (Some q) = true.
Proof.
  intros Hq He Hm Hf Hmat. unfold rum_tsquery_pre_consistent.
  destruct (fst (pg_TS_execute (pre_checkcondition_rum m check) false 0 q)) eqn:E; try reflexivity. exfalso.
  refine (pre_execute m check d q false 0 _ E Hmat).
  apply placed_items. intros k o Hk Hx. pose proof (entry_operand _ _ _ _ _ _ _ Hq Hm He Hk) as Hn. exact (Hf _ _ _ Hn Hx).
Qed.

Lemma prefilter_reported q d m check :
  (forall k o, nth_error (items q) k = Some (Some o) ->
     (exists w ps, In (w, ps) d /\ asks_for o w) -> nth (nth k m O) check false = true) ->
  matches d q -> rum_tsquery_pre_consistent m check (Some q) = true.
Proof.
  intros Hf Hmat. unfold rum_tsquery_pre_consistent.
  destruct (fst (pg_TS_execute (pre_checkcondition_rum m check) false 0 q)) eqn:E; try reflexivity. exfalso.
  refine (pre_execute m check d q false 0 _ E Hmat). apply placed_items. exact Hf.
Qed.

Lemma phrase_reported d n l r m check add :
  let q := QPhrase n l r in
  positions_fit d q ->
  (forall k o, nth_error (items q) k = Some (Some o) ->
     reports d o (nth (nth k m O) check false) (nth (nth k m O) add None)) ->
  (matches d q -> rum_tsquery_consistent m check add (Some q) = (true, false)) /\
  (~ matches d q -> rum_tsquery_consistent m check add (Some q) = (false, false)).
Proof.
  intros q Hfit Hrep. destruct (fit_bounded d q Hfit) as (M & HM & Hlt).
  assert (placed (fun i o => reports d o (nth (nth i m O) check false) (nth (nth i m O) add None)) 0 q) as Hp.
  { apply placed_items. intros k o Hk. apply Hrep. exact Hk. }
  pose proof (phrase_top d M HM (mkChk m check add false) eq_refl n l r 0 false Hp (proj1 Hfit) Hlt) as H. cbn zeta in H.
  unfold rum_tsquery_consistent. unfold q in *. clear q. cbn [rum_TS_execute f_no_pos].
  destruct (fst (rum_phrase_execute (checkcondition_rum (mkChk m check add false)) (mkF true false false) 0 (QPhrase n l r))); split; intros; try reflexivity; contradiction.
Qed.

Lemma ends_unique d q : (exists r, ends_at d q r) /\
  forall r r', ends_at d q r -> ends_at d q r' ->
    match r, r' with
    | Unknown, Unknown => True
    | At P w, At P' w' => w = w' /\ forall p, P p <-> P' p
    | _, _ => False
    end.
Proof.
  split; [destruct (ends_total d q) as (r & Hr & _); eauto|]. intros r r' H H'. exact (ends_det d q r r' H H').
Qed.

Lemma two_words d n a b : matches d (QPhrase n (QVal a) (QVal b)) <->
  ~ stripped d a /\ ~ stripped d b /\ exists p, occurs_at d a p /\ occurs_at d b (p + n).
Proof.
  split.
  - intros (P & w & p & He & Hp). inversion He as [| | | |? ? ? ? ? ? A B C D| |? ? ? SL wL SR wR ? A B C D E| | | | | |]; subst.
    + exfalso. exact (D p Hp).
    + inversion A as [|? ? Na Ha| | | | | | | | | | |]; subst. inversion B as [|? ? Nb Hb| | | | | | | | | | |]; subst.
      apply E in Hp. destruct Hp as [H1 H2]. split; [exact Na|]. split; [exact Nb|]. exists (p - 0 - n).
      split; [apply Ha; exact H2|]. apply Hb. replace (p - 0 - n + n) with p by lia. exact H1.
  - intros (Na & Nb & p & Ha & Hb). exists (fun x => occurs_at d b x /\ occurs_at d a (x - 0 - n)), (0 + n + 0), (p + n).
    split.
    + apply (E_phrase d n (QVal a) (QVal b) (occurs_at d a) 0 (occurs_at d b) 0).
      * apply E_value; [exact Na|reflexivity].
      * apply E_value; [exact Nb|reflexivity].
      * intros H. exact (H p Ha).
      * intros H. exact (H (p + n) Hb).
      * reflexivity.
    + split; [exact Hb|]. replace (p + n - 0 - n) with p by lia. exact Ha.
Qed.

Lemma mapping_words qsort q : sorts_words qsort ->
  exists ents m, rum_extract_tsquery_internal (fun w => w) qsort q = Some (ents, m) /\
    NoDup (map fst ents) /\ length m = qsize q /\
    forall k o, nth_error (items q) k = Some (Some o) ->
      exists pm, nth_error ents (nth k m O) = Some (o_word o, pm) /\
        (exists o', in_query o' q /\ o_word o' = o_word o /\ o_prefix o' = pm) /\
        ((forall o', in_query o' q -> o_word o' = o_word o -> o_prefix o' = o_prefix o) -> pm = o_prefix o).
Proof.
  intros Hq. destruct (extract_query_spec (fun w => w) qsort q Hq) as (es & m & E & Hn & Hl & Hin & Hmap).
  eexists _, m. split; [exact E|]. split.
  { rewrite map_map. cbn. exact Hn. }
  split; [exact Hl|]. intros k o Hk. destruct (Hmap k o Hk) as (e & Hne & Hw). exists (o_prefix e).
  assert (in_query e q) as Hie by (apply Hin; eapply nth_error_In; exact Hne).
  split; [rewrite nth_error_map, Hne; cbn; rewrite Hw; reflexivity|]. split; [exists e; auto|].
  intros H. apply H; assumption.
Qed.

(** *** hashed keys *)
Section Hash.
Context {H : Type} (h : list N -> H).
Lemma hash_found d o present add : valid_doc d -> o_prefix o = false ->
  (forall w ps, In (w, ps) d -> h w = h (o_word o) -> w = o_word o) ->
  found (fun k => k = h (o_word o)) (rum_extract_tsvector_internal h d) present add ->
  found (asks_for o) (rum_extract_tsvector_internal (fun w => w) d) present add.
Proof.
  intros Hv Hp Hinj (sel & Hsel & Hpres & Hj).
  exists (map (fun e => (o_word o, snd e)) sel). split; [|split].
  - intros [w a]. cbn [fst]. rewrite in_map_iff. unfold rum_extract_tsvector_internal. unfold asks_for. rewrite Hp. split.
    + intros ([k x] & E & Hi). injection E as <- <-. apply Hsel in Hi. destruct Hi as [Hi Hk]. cbn in Hk. subst k.
      unfold rum_extract_tsvector_internal in Hi. apply in_map_iff in Hi. destruct Hi as ([w' ps] & E & Hi). injection E as E1 <-.
      split; [|reflexivity]. apply in_map_iff. exists (w', ps). rewrite (Hinj w' ps Hi E1). rewrite (Hinj w' ps Hi E1) in Hi. split; [reflexivity|exact Hi].
    + intros [Hi ->]. apply in_map_iff in Hi. destruct Hi as ([w' ps] & E & Hi). injection E as E1 <-. subst w'.
      exists (h (o_word o), option_map compress_pos ps). split; [reflexivity|]. apply Hsel. split; [|reflexivity].
      unfold rum_extract_tsvector_internal. apply in_map_iff. exists (o_word o, ps). auto.
  - rewrite Hpres. destruct sel; cbn; split; congruence.
  - rewrite map_map. cbn. exact Hj.
Qed.
Lemma hash_consistent qsort q d ents m check add :
  sorts_words qsort -> rum_extract_tsquery_internal h qsort q = Some (ents, m) ->
  valid_doc d -> positions_fit d q ->
  (forall o, in_query o q -> o_prefix o = false) ->
  (forall o w ps, in_query o q -> In (w, ps) d -> h w = h (o_word o) -> w = o_word o) ->
  (forall j k pm, nth_error ents j = Some (k, pm) ->
     found (fun k' => k' = k) (rum_extract_tsvector_internal h d) (nth j check false) (nth j add None)) ->
  let res := rum_tsquery_consistent m check add (Some q) in
  verdict d q res /\
  (snd res = true -> weighted_under_not false q \/ exists o, in_query o q /\ stripped d o).
Proof.
  intros Hq He Hv Hfit Hpf Hinj Hf. apply consistent_reported; [exact Hfit|]. intros k o Hk.
  assert (modes_agree q) as Hm by (intros x y Hx Hy _; rewrite (Hpf x Hx), (Hpf y Hy); reflexivity).
  pose proof (entry_operand _ _ _ _ _ _ _ Hq Hm He Hk) as Hn. specialize (Hf _ _ _ Hn).
  assert (in_query o q) as Hin by (apply in_items; eapply nth_error_In; exact Hk).
  destruct (exact_operand_restrictions d o Hv (Hpf o Hin)) as [Hsa Hwc].
  apply found_reports; try assumption. apply hash_found; try assumption; [apply Hpf; exact Hin|].
  intros w ps Hi E. eapply Hinj; eassumption.
Qed.
End Hash.

(** *** boolean checkers for the examples *)
Fixpoint ins_word (o : operand) (l : list operand) : list operand :=
  match l with [] => [o] | x :: r => if word_compare (o_word o) (o_word x) <=? 0 then o :: l else x :: ins_word o r end.
Definition sort_word (l : list operand) : list operand := fold_right ins_word [] l.
Lemma wc_total a : forall b, word_compare a b <= 0 \/ word_compare b a <= 0.
Proof.
  induction a as [|x a IH]; intros [|y b]; cbn; try lia. rewrite (N.eqb_sym y x).
  destruct (N.eqb_spec x y); [apply IH|]. destruct (N.ltb_spec x y), (N.ltb_spec y x); lia.
Qed.
Lemma sort_word_ok : sorts_words sort_word.
Proof.
  assert (forall o l, Permutation (o :: l) (ins_word o l)) as HP.
  { intros o l. induction l as [|x l IH]; cbn; [reflexivity|]. destruct (_ <=? 0); [reflexivity|].
    rewrite perm_swap. constructor. exact IH. }
  intros l. split.
  - induction l as [|x l IH]; cbn; [reflexivity|]. rewrite <- HP. constructor. exact IH.
  - induction l as [|x l IH]; cbn; [constructor|]. fold (sort_word l). revert IH. generalize (sort_word l). clear.
    induction l as [|y l IHl]; intros Hs; cbn; [repeat constructor|].
    destruct (Z.leb_spec (word_compare (o_word x) (o_word y)) 0) as [E|E].
    + constructor; [exact Hs|]. inversion Hs as [|? ? Hs' Hy]; subst. constructor; [exact E|].
      eapply Forall_impl; [|exact Hy]. intros z Hz. eapply wc_trans; eassumption.
    + inversion Hs as [|? ? Hs' Hy]; subst. constructor; [apply IHl; exact Hs'|].
      assert (word_compare (o_word y) (o_word x) <= 0) as Hyx by (destruct (wc_total (o_word x) (o_word y)); [lia|assumption]).
      clear - Hy Hyx. induction l as [|z l IH]; cbn; [repeat constructor; exact Hyx|].
      inversion Hy; subst. destruct (_ <=? 0); [constructor; [exact Hyx|constructor; assumption]|constructor; [assumption|apply IH; assumption]].
Qed.
Lemma found_eval {K} (hits : K -> Prop) (hitb : K -> bool) keyed present add :
  (forall k, hitb k = true <-> hits k) ->
  (let sel := filter (fun e => hitb (fst e)) keyed in
   present = negb (match sel with [] => true | _ => false end) /\ join_all None (map snd sel) = Some add) ->
  found hits keyed present add.
Proof.
  intros Hh [Hp Hj]. eexists. split; [|split; [|exact Hj]].
  - intros e. rewrite filter_In, Hh. reflexivity.
  - rewrite Hp. destruct (filter _ keyed); cbn; split; congruence.
Qed.
