(** Proofs: ORDER BY column <=> tsquery in a whole index (C50). *)
From Coq Require Import QArith Lqa NArith ZArith Lia List Permutation Sorted Bool Arith.
From Verif Require Import VacTreeSpec VacIndex VacScanSpec LifeSpec LifeProof LifeQuery Base Ord OrdProof Codec PosCodec PosSpec PosProof Tsq TsqSpec TsqProof TsqPhrase TsqExec TsqExtract PropTsqProof Entries EntriesSpec EntriesProof Bulk BulkSpec EntryTree IndexSpec ScanEntry Scan TidBitmap IndexScan OrderScan QuerySpec OrderSpec EntryFound IndexScanProof OrderScanProof
  Array ArrayQuery InvertedQuery TextSearch TextSpec TextQuery TsRank TsRankSpec TsRankProof TsRankScore TsRankWords TsRankEqual TextOrder TextOrderSpec.
Import ListNotations.
Local Open Scope Z_scope.

(** ** Comparison of distances *)
Lemma far_le x y : farCompare x y <= 0 <-> not_farther x y.
Proof.
  destruct x as [a|], y as [b|]; cbn; try (split; [auto|lia]); try (split; [lia|tauto]).
  destruct (Qcompare_spec a b) as [H|H|H]; split; intro; try lia; lra.
Qed.
Lemma far_anti x y : farCompare x y < 0 <-> 0 < farCompare y x.
Proof.
  destruct x as [a|], y as [b|]; cbn; try lia. rewrite <- (Qcompare_antisym b a). destruct (b ?= a)%Q; cbn; lia.
Qed.
Lemma far_total : total_cmp farCompare.
Proof.
  split.
  - intros [a|]; cbn; [|reflexivity]. rewrite (proj1 (Qeq_alt a a) (Qeq_refl a)). reflexivity.
  - exact far_anti.
  - intros x y z. rewrite !far_le. destruct x, y, z; cbn; try tauto. apply Qle_trans.
Qed.
Lemma lex_nearer a : forall b, lex_le farCompare a b -> nearer_first a b.
Proof.
  induction a as [|x a IH]; intros [|y b] H; cbn [lex_le nearer_first] in *; auto. split.
  - apply far_le. destruct H as [H|[H _]]; lia.
  - intro Hyx. apply far_le in Hyx. destruct H as [H|[_ H]]; [apply far_anti in H; lia|]. apply IH. exact H.
Qed.
Lemma sorted_nearer {T} (f : T -> list (option Q)) l : StronglySorted (fun a b => lex_le farCompare (f a) (f b)) l -> StronglySorted (fun a b => nearer_first (f a) (f b)) l.
Proof. induction 1 as [|a l _ IH H]; constructor; auto. eapply Forall_impl; [|exact H]. intros b. apply lex_nearer. Qed.

(** ** No key shown: infinitely far *)
Lemma nothing_far qsortD cast itemAddr m check add nkeys q : sorts_docr qsortD -> keeps_sign cast -> (forall j, nth j check false = false) -> rum_tsquery_distance qsortD cast itemAddr m check add nkeys (Some q) = None.
Proof.
  intros H1 H2 Hc. cbn [rum_tsquery_distance]. pose proof (addinfo_scored qsortD cast H1 H2 itemAddr m check add nkeys q) as Hb. destruct (distance_scored _ _ Hb (nonempty_dec _)) as (_ & D & _). apply D.
  assert (E : docrepAddinfo itemAddr m add (fun j => nth j check false) 0 (items q) = []).
  { destruct (docrepAddinfo itemAddr m add (fun j => nth j check false) 0 (items q)) as [|x l] eqn:E; [reflexivity|]. exfalso.
    assert (Hx : In x (docrepAddinfo itemAddr m add (fun j => nth j check false) 0 (items q))) by (rewrite E; left; reflexivity). apply addinfo_in in Hx as (k & o & bs & p & _ & Hk & _). rewrite Hc in Hk. discriminate. }
  rewrite E. assert (En : qsortD [] = []) by (destruct (H1 []) as [P _]; apply Permutation_nil; exact P). rewrite En. intro H. exact (H eq_refl).
Qed.

(** ** The occurrences the index sees *)
Lemma positions_in d w l : valid_doc d -> In (w, Some l) d -> positions_of d w = l.
Proof.
  intros [Hnd _] H. unfold positions_of. induction d as [|[w0 p0] d IH]; [destruct H|]. cbn [find fst]. cbn [map fst] in Hnd. inversion Hnd as [|? ? N1 N2]; subst. destruct (list_eq_dec N.eq_dec w0 w) as [->|Hn].
  - destruct H as [E|H]; [injection E as ->; reflexivity|]. exfalso. apply N1. apply in_map_iff. exists (w, Some l). auto.
  - destruct H as [E|H]; [congruence|]. exact (IH N2 H).
Qed.
Lemma positions_out d w : (forall ps, ~ In (w, ps) d) -> positions_of d w = [].
Proof.
  intro H. unfold positions_of. induction d as [|[w0 p0] d IH]; [reflexivity|]. cbn [find fst]. destruct (list_eq_dec N.eq_dec w0 w) as [->|Hn]; [exfalso; apply (H p0); left; reflexivity|]. apply IH. intros ps Hp. apply (H ps). right. exact Hp.
Qed.
Section Occs.
  Variables (itemAddr : nat -> Z) (m : list nat) (check : list bool) (add : list (option (list byte))) (d : document) (q : tsq).
  Variables (Hv : valid_doc d) (Hd : words_ascend d) (Hpos : positioned d q) (Hnp : no_prefix q) (Honce : words_once q).
  Variable (Hinj : forall i j, TsRankEqual.item q i -> TsRankEqual.item q j -> nth i m O = nth j m O -> i = j).
  Variable (Hrep : forall k o wt, nth_error (items q) k = Some (Some o) -> reports d (mkOp (o_word o) wt false) (nth (nth k m O) check false) (nth (nth k m O) add None)).
  Lemma occs_index l : forall i ck, (forall k x, nth_error l k = Some x -> nth_error (items q) (i + k) = Some x) ->
    (forall k, (i <= k)%nat -> TsRankEqual.item q k -> ck (nth k m O) = nth (nth k m O) check false) ->
    docrepAddinfo itemAddr m add ck i l = index_occurrences itemAddr m d i l.
  Proof.
    induction l as [|x l IH]; intros i ck Hi Hinv; [reflexivity|].
    assert (Hi' : forall k y, nth_error l k = Some y -> nth_error (items q) (S i + k) = Some y) by (intros k y Hk; replace (S i + k)%nat with (i + S k)%nat by lia; apply Hi; exact Hk).
    assert (Hinv' : forall k, (S i <= k)%nat -> TsRankEqual.item q k -> ck (nth k m O) = nth (nth k m O) check false) by (intros k Hk; apply Hinv; lia).
    cbn [docrepAddinfo index_occurrences]. destruct x as [o|]; [|apply IH; assumption].
    assert (Hk : nth_error (items q) i = Some (Some o)) by (specialize (Hi 0%nat _ eq_refl); rewrite Nat.add_0_r in Hi; exact Hi).
    assert (Hit : TsRankEqual.item q i) by (exists o; exact Hk). rewrite (Hinv i (le_n _) Hit). destruct (one_operand itemAddr itemAddr m check add d q Hv Hd Hpos Hnp Hinj Hrep i o Hk) as [[H1 H2]|(lp & f & n & bs & H1 & H2 & H3 & H4 & H5 & H6 & H7)].
    - rewrite H2. cbn [negb]. rewrite positions_out; [cbn [map app]; apply IH; assumption|]. intros ps Hp. pose proof (proj2 (proj1 (Hrep i o 0%N Hk))) as G. rewrite H2 in G. discriminate G. exists (o_word o), ps. split; [exact Hp|reflexivity].
    - rewrite H5, H6, H7. cbn [negb]. rewrite (positions_in d (o_word o) lp Hv H4). f_equal; [apply map_ext; intro e; rewrite getpos_position; unfold WEP_GETWEIGHT; rewrite N.shiftr_div_pow2; reflexivity|]. apply IH; [exact Hi'|]. intros k Hkk Hik.
      destruct (Nat.eqb_spec (nth k m O) (nth i m O)) as [E|E]; [|exact (Hinv' k Hkk Hik)]. apply Hinj in E; auto. lia.
  Qed.
End Occs.
Lemma agreeing_distance qsortD cast ln itemAddr alloc qsort q d ents m check add :
  sorts_docr qsortD -> keeps_sign cast -> sorts_words qsort -> rum_extract_tsquery_internal (fun w => w) qsort q = Some (ents, m) ->
  valid_doc d -> describes d ents check add -> agreeing qsortD itemAddr alloc qsort d q ->
  same_distance (rum_tsquery_distance qsortD cast itemAddr m check add (length ents) (Some q)) (rum_ts_distance qsortD cast ln alloc d (Some q) DEF_NORM_METHOD).
Proof.
  intros H1 H2 Hsw He Hv Hf (A1 & A2 & Hnp & Honce & A5 & A6 & A7 & A8). apply (index_equals_operator qsortD cast ln itemAddr alloc qsort q d ents m check add); auto.
  assert (Hm : modes_agree q) by (intros o o' H H' _; rewrite (Hnp o H), (Hnp o' H'); reflexivity).
  assert (Hent : forall k o, nth_error (items q) k = Some (Some o) -> nth_error ents (nth k m O) = Some (o_word o, o_prefix o)) by (intros k o Hk; exact (entry_operand (fun w => w) qsort q ents m k o Hsw Hm He Hk)).
  rewrite (occs_index itemAddr m check add d q Hv A1 A5 Hnp).
  - exact (A7 ents m He).
  - intros i j (o & Hi) (o' & Hj) E. pose proof (Hent _ _ Hi) as E1. pose proof (Hent _ _ Hj) as E2. rewrite E, E2 in E1. injection E1 as E1 _. exact (once_items q Honce _ _ _ _ Hi Hj (eq_sym E1)).
  - intros k o wt Hk. pose proof (Hf _ _ _ (Hent _ _ Hk)) as Hx. rewrite (item_prefix q Hnp k o Hk) in Hx. destruct (exact_operand_restrictions d (mkOp (o_word o) wt false) Hv eq_refl) as [R1 R2]. exact (found_reports d (mkOp (o_word o) wt false) _ _ Hv R1 R2 Hx).
  - auto.
  - auto.
Qed.

Section Order.
  Context {K : Type}.
  Variable compareFn : N -> K -> K -> Z.
  Hypothesis HK : forall n, total_cmp (compareFn n).
  Variables (build : list N -> K) (read : K -> list N) (dflt : K) (addTo attach : N) (table : list (@hrow K datum)).
  Variable doc : N -> @hrow K datum -> option document.
  Variables (curKeyOrdering canPre : N -> bool) (useAlt : bool).
  Variables (qsort : list operand -> list operand) (qsortD : list docr -> list docr) (cast : Q -> Q) (itemAddr : nat -> Z).
  Variables (conds : list (N * option tsq)) (orders : list (N * tsq)).
  Hypothesis Hqs : sorts_words qsort.
  Hypothesis Hne : conds <> [].
  Definition both : list (N * option tsq) := conds ++ map (fun o => (fst o, Some (snd o))) orders.
  Hypothesis HC : forall s, In s both -> text_column compareFn build dflt table (fst s) (doc (fst s)).
  Hypothesis HW : forall s q, In s both -> snd s = Some q -> keys_fit compareFn (fst s) build read table (doc (fst s)) q.
  Hypothesis HM : forall s q, In s both -> snd s = Some q -> modes_agree q.
  Hypothesis HF : true = true -> forall s q, In s both -> snd s = Some q -> query_fits table (doc (fst s)) q.
  Hypothesis Hkind : forall s, In s both -> fst s <> addTo.
  Hypothesis Hord : forall o, In o orders -> fst o <> attach /\ curKeyOrdering (fst o) = false.
  Hypothesis Hscan : ordered_fits canPre conds orders.
  Notation clauseOf := (text_clause true build read qsort).
  Notation ordOf := (text_ordering build read qsort qsortD cast itemAddr).
  Notation wordReq att o := (mkReq att (build (o_word o)) CatNormKey (if o_prefix o then Some (fun k => gin_cmp_prefix (read (build (o_word o))) (read k)) else None) false).

  Lemma both_ne : both <> [].
  Proof. unfold both. destruct conds; [contradiction|discriminate]. Qed.
  Lemma in_conds s : In s conds -> In s both.
  Proof. intro H. apply in_app_iff. left. exact H. Qed.
  Lemma in_orders o : In o orders -> In (fst o, Some (snd o)) both.
  Proof. intro H. apply in_app_iff. right. apply in_map_iff. eauto. Qed.
  Let att_of := clause_att build read true qsort Hqs.
  Let reqs_of := reqs build read dflt true qsort Hqs.
  Lemma some_operand (q : tsq) : exists o, in_query o q.
  Proof. induction q as [o|q IH|l IH r _|l IH r _|n l IH r _]; [exists o; reflexivity|exact IH|destruct IH as (o & H); exists o; left; exact H|destruct IH as (o & H); exists o; left; exact H|destruct IH as (o & H); exists o; left; exact H]. Qed.
  Lemma order_live o : noKey (clauseOf (fst o, Some (snd o))) = false.
  Proof.
    destruct (reqs_of (fst o) (snd o)) as (ents & m & _ & _ & Hex & _ & _ & _ & _ & _ & ->). destruct (some_operand (snd o)) as (x & Hx). destruct (Hex x Hx) as (e & He & _). destruct ents; [destruct He|]. cbn. apply andb_false_r.
  Qed.
  Lemma order_clauses : map od_clause (map ordOf orders) = map (fun o => clauseOf (fst o, Some (snd o))) orders.
  Proof. rewrite map_map. reflexivity. Qed.
  Lemma live_all : live (map od_clause (map ordOf orders)) = map (fun o => clauseOf (fst o, Some (snd o))) orders.
  Proof. rewrite order_clauses. unfold live. apply filter_all. intros c Hc. apply in_map_iff in Hc as (o & <- & _). rewrite order_live. reflexivity. Qed.
  Lemma lives_all : lives (map ordOf orders) = map ordOf orders.
  Proof. unfold lives. apply filter_all. intros c Hc. apply in_map_iff in Hc as (o & <- & _). cbn [od_clause text_ordering]. rewrite order_live. reflexivity. Qed.
  Lemma order_bare o : In o orders -> bare attach curKeyOrdering (clauseOf (fst o, Some (snd o))) = false.
  Proof. intro Ho. destruct (Hord o Ho) as [H1 H2]. unfold bare. rewrite att_of. cbn [fst]. rewrite H2. apply N.eqb_neq in H1. rewrite H1. reflexivity. Qed.
  Lemma kept_conds : kept addTo attach (map clauseOf conds) = map clauseOf conds.
  Proof.
    unfold kept. apply filter_all. intros c Hc. destruct (existsb (fun c' => (cl_att c' =? addTo)%N) (map clauseOf conds)) eqn:E; [|rewrite andb_false_r; reflexivity].
    exfalso. apply existsb_exists in E as (c' & Hc' & E). apply in_map_iff in Hc' as (s & <- & Hs). apply N.eqb_eq in E. rewrite att_of in E. exact (Hkind s (in_conds s Hs) E).
  Qed.
  Lemma order_key q : In q (query_keys dflt addTo attach curKeyOrdering (map clauseOf conds) (map od_clause (map ordOf orders))) <-> exists s, In s both /\ In q (requests dflt (clauseOf s)).
  Proof.
    unfold query_keys. rewrite kept_conds, live_all. destruct (map clauseOf conds) as [|c0 l0] eqn:E0; [apply map_eq_nil in E0; contradiction|]. rewrite <- E0. clear c0 l0 E0. rewrite in_app_iff, !in_flat_map. split.
    - intros [(c & Hc & Hq)|(c & Hc & Hq)]; apply in_map_iff in Hc as (s & <- & Hs).
      + exists s. split; [apply in_conds; exact Hs|exact Hq].
      + rewrite order_bare in Hq by exact Hs. exists (fst s, Some (snd s)). split; [apply in_orders; exact Hs|exact Hq].
    - intros (s & Hs & Hq). apply in_app_iff in Hs as [Hs|Hs]; [left|right].
      + exists (clauseOf s). split; [apply (in_map clauseOf); exact Hs|exact Hq].
      + apply in_map_iff in Hs as (o & <- & Ho). exists (clauseOf (fst o, Some (snd o))). split; [apply in_map_iff; eauto|]. rewrite order_bare by exact Ho. exact Hq.
  Qed.
  Lemma prefix_slow s q o : In s both -> snd s = Some q -> in_query o q -> o_prefix o = true ->
    ~ (forall q, In q (query_keys dflt addTo attach curKeyOrdering (map clauseOf conds) (map od_clause (map ordOf orders))) -> rq_partial q = None).
  Proof.
    intros Hs Eq Ho Hp H3. destruct s as [att oq]. cbn [snd] in Eq. subst oq. destruct (reqs_of att q) as (ents & m & _ & Hin & Hex & Er & _). destruct (Hex o Ho) as (e & He & Ew).
    assert (Epe : o_prefix e = true) by (rewrite <- Hp; apply (HM _ _ Hs eq_refl); [apply Hin; exact He|exact Ho|exact Ew]).
    specialize (H3 (wordReq att e)). cbn [rq_partial] in H3. rewrite Epe in H3. discriminate H3. apply order_key. exists (att, Some q). split; [exact Hs|]. rewrite Er. apply in_app_iff. left. apply in_map_iff. exists e. split; [rewrite Epe; reflexivity|exact He].
  Qed.
  Lemma order_covered ever : covered compareFn dflt addTo attach useAlt curKeyOrdering canPre ever table (map clauseOf conds) (map od_clause (map ordOf orders)).
  Proof.
    split.
    - intros q Hq. apply order_key in Hq as (s & Hs & Hq). exact (text_partial compareFn HK build read dflt table doc curKeyOrdering true qsort both Hqs HW HM s q Hs Hq _).
    - intros q r Hq _ _ Ea _. exfalso. apply order_key in Hq as (s & Hs & Hq). apply (req_att build read dflt true qsort Hqs s q) in Hq. apply (Hkind s Hs). congruence.
    - intros c Hc Hk. rewrite kept_conds in Hk. contradiction.
    - intros c Hc E. apply in_map_iff in Hc as (s & <- & Hs). rewrite att_of in *. exfalso. exact (Hkind s (in_conds s Hs) E).
    - intro E. apply map_eq_nil in E. contradiction.
    - intros _. rewrite live_all. split; [intros o Ho; apply in_map_iff in Ho as (x & <- & Hx); apply order_bare; exact Hx|]. exists false. intros c Hc. apply N.eqb_neq. rewrite kept_conds in Hc. apply in_app_iff in Hc as [Hc|Hc]; apply in_map_iff in Hc as (s & <- & Hs); rewrite att_of.
      + exact (Hkind s (in_conds s Hs)).
      + exact (Hkind _ (in_orders s Hs)).
    - intros (H1 & H2 & H3). rewrite kept_conds in H1. rewrite live_all in H2. destruct Hscan as [(s & Hs & Hp)|[(o & Ho & Hp)|[(s & q & Hs & Eq & o & Hoq & Hp)|[(o & Ho & x & Hx & Hp)|(att & q & Ec & Hrm & Ho)]]]].
      + exfalso. specialize (H1 (clauseOf s) (in_map _ _ _ Hs)). rewrite att_of in H1. congruence.
      + exfalso. assert (Hi : In (clauseOf (fst o, Some (snd o))) (map (fun o => clauseOf (fst o, Some (snd o))) orders)) by (apply in_map_iff; eauto). specialize (H2 _ Hi). unfold orderAtt in H2. rewrite att_of in H2. cbn [fst] in H2.
        destruct (Hord o Ho) as [Hat _]. apply N.eqb_neq in Hat. rewrite Hat in H2. congruence.
      + exfalso. exact (prefix_slow s q o (in_conds s Hs) Eq Hoq Hp H3).
      + exfalso. exact (prefix_slow _ (snd o) x (in_orders o Ho) eq_refl Hx Hp H3).
      + unfold fast_ok. rewrite kept_conds, live_all. assert (Emc : map clauseOf conds = [clauseOf (att, Some q)]) by (rewrite Ec; reflexivity). rewrite Emc. split; [|split].
        * intros c Hc _. apply in_map_iff in Hc as (o & <- & Hoo). rewrite !att_of. cbn [fst]. apply Ho. exact Hoo.
        * apply (text_pre build read dflt addTo attach table doc useAlt true qsort both Hqs HF Hkind).
        * assert (Eh : holds_of_none (clauseOf (att, Some q)) = false).
          { destruct (reqs_of att q) as (ents & m & _ & _ & _ & _ & Ev & Ecn & _). unfold holds_of_none. rewrite Ecn. specialize (Ev (fun _ => None)). cbn beta in Ev.
            assert (El : map (fun _ : qval K => @None (option datum)) (cl_vals (clauseOf (att, Some q))) = map (fun _ => None) ents) by exact Ev. rewrite El. rewrite (consistent_none true); [reflexivity| |exact Hrm].
            intro j. rewrite map_map. cbn. clear. revert j. induction ents; intros [|j]; cbn; auto. }
          rewrite Eh. rewrite <- Emc. intros k Hk. pose proof (H3 k Hk) as Hnp. apply order_key in Hk as (s & Hs & Hk). unfold isMany. rewrite Hnp.
          assert (Hrs : forall q', snd s = Some q' -> requires_match q' = true).
          { intros q' E. apply in_app_iff in Hs as [Hs|Hs]; [rewrite Ec in Hs; destruct Hs as [<-|[]]; cbn in E; congruence|]. apply in_map_iff in Hs as (o & <- & Hoo). cbn in E. injection E as <-. apply Ho. exact Hoo. }
          destruct s as [a [tq|]]; [|destruct Hk]. destruct (reqs_of a tq) as (ents & m & _ & _ & _ & Er & _). rewrite Er, (Hrs tq eq_refl), app_nil_r in Hk. apply in_map_iff in Hk as (o & <- & _). reflexivity.
  Qed.
  Lemma order_orders : orders_covered compareFn dflt addTo attach curKeyOrdering table (map clauseOf conds) (map ordOf orders).
  Proof.
    assert (A : forall o, In o (lives (map ordOf orders)) -> cl_att (od_clause o) <> attach /\ curKeyOrdering (cl_att (od_clause o)) = false).
    { intros x Hx. rewrite lives_all in Hx. apply in_map_iff in Hx as (o & <- & Ho). cbn [od_clause text_ordering]. rewrite att_of. exact (Hord o Ho). }
    split.
    - intros o Ho E. destruct (A o Ho). contradiction.
    - intros o o' Ho _ E. destruct (A o Ho). contradiction.
    - intros o Ho _ E. destruct (A o Ho) as [_ H]. rewrite H in E. discriminate E.
    - intros o o' Ho _ _ E. destruct (A o Ho) as [_ H]. rewrite H in E. discriminate E.
  Qed.

  (** ** The distance of a row *)
  Variable joinFn : N -> option (datum -> datum -> datum).
  Hypothesis Hjoin : true = true -> forall s, In s both -> joinFn (fst s) = Some joinDatum.
  Variable V : @hrow K datum -> qreq K -> option (option datum).
  Hypothesis HV : forall r q, In r table -> In q (query_keys dflt addTo attach curKeyOrdering (map clauseOf conds) (map od_clause (map ordOf orders))) -> shows (joinFn (rq_att q)) (infos compareFn addTo r q) (V r q).
  Lemma HVboth : forall r q, In r table -> In q (query_keys dflt addTo attach curKeyOrdering (map clauseOf both) []) -> shows (joinFn (rq_att q)) (infos compareFn addTo r q) (V r q).
  Proof. intros r q Hr Hq. apply HV; [exact Hr|]. apply order_key. apply (query_key build read dflt addTo attach table doc curKeyOrdering useAlt true qsort both Hqs both_ne HF Hkind) in Hq. exact Hq. Qed.
  Lemma row_distance r o : In r table -> In o orders ->
    exists ents m check add, rum_extract_tsquery_internal (fun w => w) qsort (snd o) = Some (ents, m) /\
      od_fn (ordOf o) (map (fun v => V r (reqOf (cl_att (od_clause (ordOf o))) v)) (cl_vals (od_clause (ordOf o)))) = rum_tsquery_distance qsortD cast itemAddr m check add (length ents) (Some (snd o)) /\
      match doc (fst o) r with Some d => describes d ents check add | None => forall j, nth j check false = false end.
  Proof.
    intros Hr Ho. destruct o as [att q]. cbn [fst snd]. pose proof (in_orders _ Ho) as Hs. cbn [fst snd] in Hs. destruct (reqs_of att q) as (ents & m & E1 & Hin & _ & Er & Ev & Ec & _).
    exists (map (fun e => (o_word e, o_prefix e)) ents), m, (map checkOf (map (fun o => V r (wordReq att o)) ents)), (map bytesOf (map (fun o => V r (wordReq att o)) ents)). split; [exact E1|].
    assert (Eb : exists l, rum_extract_tsquery_internal build qsort q = Some (l, m) /\ length l = length ents).
    { clear - E1. unfold rum_extract_tsquery_internal in *. destruct (fill_map (SortAndUniqItems qsort q) (items q)); [|discriminate]. injection E1 as E <-. eexists. split; [reflexivity|]. apply (f_equal (@length _)) in E. rewrite !map_length in E. rewrite map_length. exact E. }
    destruct Eb as (l & Eb & El). split.
    - cbn [od_fn od_clause text_ordering fst snd]. rewrite Eb, Ev, El, map_length. reflexivity.
    - assert (Hsh : forall o, In o ents -> shows (joinFn att) (infos compareFn addTo r (wordReq att o)) (V r (wordReq att o))).
      { intros o Hoe. assert (X := HV r (wordReq att o) Hr). cbn [rq_att] in X. apply X. apply order_key. exists (att, Some q). split; [exact Hs|]. rewrite Er. apply in_app_iff. left. apply in_map_iff. eauto. }
      destruct (doc att r) as [d|] eqn:Hd.
      + intros j w pm Hj. rewrite nth_error_map in Hj. destruct (nth_error ents j) as [o|] eqn:Ej; [|discriminate]. injection Hj as <- <-. assert (Hoe : In o ents) by (eapply nth_error_In; exact Ej).
        assert (X1 : nth j (map checkOf (map (fun o => V r (wordReq att o)) ents)) false = checkOf (V r (wordReq att o))) by (rewrite map_map; apply nth_error_nth; rewrite nth_error_map, Ej; reflexivity).
        assert (X2 : nth j (map bytesOf (map (fun o => V r (wordReq att o)) ents)) None = bytesOf (V r (wordReq att o))) by (rewrite map_map; apply nth_error_nth; rewrite nth_error_map, Ej; reflexivity).
        assert (HNO : forall x p, asks compareFn (mkReq att x CatNormKey p false) (mkKey att dflt CatEmptyItem) = false) by (intros x p; apply norm_other; discriminate).
        rewrite X1, X2. destruct (word_asks compareFn HK build read dflt addTo attach table doc curKeyOrdering true qsort both HW HM joinFn V HVboth att q o Hs (Hin o Hoe) r d Hr Hd) as [W1 W2].
        apply (shows_found compareFn HK build dflt addTo table att (doc att) (HC _ Hs) (wordReq att o) _ r d eq_refl Hr Hd W1 (HNO _ _) W2 _ (Hkind _ Hs)).
        specialize (Hsh o Hoe). pose proof (Hjoin eq_refl _ Hs) as Ej'. cbn [fst] in Ej'. rewrite Ej' in Hsh. exact Hsh.
      + intro j. rewrite map_map. destruct (nth_in_or_default j (map (fun o => checkOf (V r (wordReq att o))) ents) false) as [Hi|E]; [|exact E]. apply in_map_iff in Hi as (o & Eo & Hoe). rewrite <- Eo.
        specialize (Hsh o Hoe). rewrite (infos_col' compareFn addTo att) in Hsh by reflexivity. destruct (col_null_doc compareFn build dflt addTo table att (doc att) (HC _ Hs) r Hr Hd) as (a & Eca). rewrite Eca in Hsh. cbn [filter fst] in Hsh.
        rewrite norm_other in Hsh by discriminate. destruct Hsh as [[_ ->]|(? & ? & P & _)]; [reflexivity|apply Permutation_nil in P; discriminate].
  Qed.
End Order.

Theorem text_order (K : Type) (compareFn : N -> K -> K -> Z) altOf attrOf cmpA rawSize (dflt : K) useAlt addTo built history ix :
  table_index compareFn altOf attrOf cmpA rawSize dflt useAlt addTo built history ix ->
  let table := rows_now built history in
  forall attach curKeyOrdering tuplesort junk joinFn canPre estimate sortEnts visit iterate tbmMax sortItems,
  sorter tuplesort -> junk_harmless compareFn history ix junk -> (forall f a, joinFn addTo = Some f -> f a a = a) -> sorts_entries useAlt addTo cmpA sortEnts -> sorts_items sortItems ->
  forall build read qsort qsortD cast itemAddr (doc : N -> @hrow K datum -> option document), sorts_words qsort -> sorts_docr qsortD -> keeps_sign cast ->
  forall conds orders, conds <> [] ->
  (forall att q, In (att, q) conds \/ (exists q', In (att, q') orders /\ q = Some q') ->
     text_column compareFn build dflt table att (doc att) /\ att <> addTo /\ joinFn att = Some joinDatum /\
     forall q0, q = Some q0 -> keys_fit compareFn att build read table (doc att) q0 /\ query_fits table (doc att) q0) ->
  (forall o, In o orders -> fst o <> attach /\ curKeyOrdering (fst o) = false) ->
  ordered_fits canPre conds orders ->
  exists out,
    orderedScan farCompare None dflt addTo attach curKeyOrdering compareFn useAlt cmpA tuplesort junk joinFn canPre estimate sortEnts visit iterate tbmMax sortItems ix
      (map (text_clause true build read qsort) conds) (map (text_ordering build read qsort qsortD cast itemAddr) orders) = Some out /\
    NoDup (map (fun s => fst (fst s)) out) /\
    StronglySorted (fun a b => nearer_first (snd a) (snd b)) out /\
    (forall p re ds, In (p, re, ds) out -> exists r, In r table /\ r_tid r = p /\
       (forall s, In s conds -> exists d, doc (fst s) r = Some d /\ (re = false -> tsmatches d (snd s))) /\
       (re = true -> exists s q d, In s conds /\ snd s = Some q /\ doc (fst s) r = Some d /\ (weighted_under_not false q \/ exists o, in_query o q /\ stripped d o)) /\
       (re = false -> Forall2 (fun o x => match doc (fst o) r with
          | None => x = None
          | Some d => exists ents m check add, rum_extract_tsquery_internal (fun w => w) qsort (snd o) = Some (ents, m) /\ describes d ents check add /\
                        x = rum_tsquery_distance qsortD cast itemAddr m check add (length ents) (Some (snd o)) end) orders ds)) /\
    (forall r, In r table -> (forall s, In s conds -> exists d, doc (fst s) r = Some d /\ tsmatches d (snd s)) -> exists re ds, In (r_tid r, re, ds) out).
Proof.
  intros Hti table attach curKeyOrdering tuplesort junk joinFn canPre estimate sortEnts visit iterate tbmMax sortItems Ht HJ Hid Hse Hsi build read qsort qsortD cast itemAddr doc Hqs HqD Hcast conds orders Hne HAll Hord Hscan.
  pose proof (proj1 (ti_columns _ _ _ _ _ _ _ _ _ _ _ Hti)) as HK.
  assert (HB : forall s, In s (both conds orders) -> text_column compareFn build dflt table (fst s) (doc (fst s)) /\ fst s <> addTo /\ joinFn (fst s) = Some joinDatum /\
     forall q0, snd s = Some q0 -> keys_fit compareFn (fst s) build read table (doc (fst s)) q0 /\ query_fits table (doc (fst s)) q0).
  { intros [att q] Hs. apply (HAll att q). apply in_app_iff in Hs as [Hs|Hs]; [left; exact Hs|right]. apply in_map_iff in Hs as ([a q'] & E & Hs). injection E as <- <-. exists q'. auto. }
  assert (HC : forall s, In s (both conds orders) -> text_column compareFn build dflt table (fst s) (doc (fst s))) by (intros s Hs; apply (HB s Hs)).
  assert (HW : forall s q, In s (both conds orders) -> snd s = Some q -> keys_fit compareFn (fst s) build read table (doc (fst s)) q) by (intros s q Hs E; apply (HB s Hs); exact E).
  assert (HF : true = true -> forall s q, In s (both conds orders) -> snd s = Some q -> query_fits table (doc (fst s)) q) by (intros _ s q Hs E; apply (HB s Hs); exact E).
  assert (HM : forall s q, In s (both conds orders) -> snd s = Some q -> modes_agree q) by (intros s q Hs E; destruct (HF eq_refl s q Hs E) as (_ & H & _); exact H).
  assert (Hkind : forall s, In s (both conds orders) -> fst s <> addTo) by (intros s Hs; apply (HB s Hs)).
  assert (Hjoin : true = true -> forall s, In s (both conds orders) -> joinFn (fst s) = Some joinDatum) by (intros _ s Hs; apply (HB s Hs)).
  set (cl := text_clause true build read qsort) in *. set (od := text_ordering build read qsort qsortD cast itemAddr) in *.
  pose proof (order_covered compareFn HK build read dflt addTo attach table doc curKeyOrdering canPre useAlt qsort qsortD cast itemAddr conds orders Hqs Hne HW HM HF Hkind Hord Hscan (ever built history)) as Hcov. fold cl od in Hcov.
  pose proof (order_orders compareFn build read dflt addTo attach table curKeyOrdering qsort qsortD cast itemAddr conds orders Hqs Hord) as Hoc. fold cl od in Hoc.
  destruct (order_table K (option Q) compareFn altOf attrOf cmpA rawSize dflt useAlt addTo built history ix Hti attach curKeyOrdering tuplesort junk joinFn canPre estimate sortEnts visit iterate tbmMax farCompare None sortItems Ht HJ Hid Hse far_total Hsi
    (map cl conds) (map od orders) Hcov Hoc) as (V & out & Hq & HV & Hnd & Hp & Hso & Hre). fold table in HV, Hp, Hre.
  assert (Htid : forall r r', In r table -> In r' table -> r_tid r' = r_tid r -> r' = r).
  { intros r r' Hr Hr' E. eapply NoDup_map_eq; [exact (now_tids _ _ _ _ _ _ _ _ _ _ _ Hti)|exact Hr'|exact Hr|exact E]. }
  assert (Hlv : lives (map od orders) = map od orders) by (apply (lives_all build read dflt qsort qsortD cast itemAddr orders Hqs)).
  assert (Hdn : forall s, In s conds -> ((cl_att (cl s) =? attach)%N && existsb (fun c' : clause K => (cl_att c' =? addTo)%N) (map cl conds)) = false).
  { intros s Hs. apply andb_false_iff. right. destruct (existsb (fun c' : clause K => (cl_att c' =? addTo)%N) (map cl conds)) eqn:E; [|reflexivity]. exfalso. apply existsb_exists in E as (c & Hc & E). apply in_map_iff in Hc as (s' & <- & Hs'). apply N.eqb_eq in E. unfold cl in E. rewrite (clause_att build read true qsort Hqs) in E.
    apply (Hkind s'); [apply in_conds; exact Hs'|exact E]. }
  assert (Hsat : forall r s, In s conds -> (satisfies dflt addTo attach (V r) (map cl conds) r (cl s) <-> holds dflt (V r) (cl s))).
  { intros r s Hs. unfold satisfies. rewrite (Hdn s Hs). reflexivity. }
  assert (Hkey : forall r, (forall s, In s conds -> holds dflt (V r) (cl s)) -> existsb noKey (map cl conds) = false).
  { intros r Hh. destruct (existsb noKey _) eqn:E; [|reflexivity]. exfalso. apply existsb_exists in E as (c & Hc & E). apply in_map_iff in Hc as (s & <- & Hs). destruct (Hh s Hs) as (H1 & (q & Hq' & _) & _).
    unfold noKey in E. rewrite H1 in E. cbn [orb] in E. apply andb_true_iff in E as [E1 E2]. unfold requests, hidden in Hq'. apply Z.eqb_eq in E1. rewrite E1 in Hq'. cbn in Hq'. rewrite app_nil_r in Hq'. destruct (cl_vals (cl s)); [destruct Hq'|discriminate]. }
  assert (HVb : existsb noKey (map cl conds) = false -> _) by (intro Hk; exact (HVboth compareFn build read dflt addTo attach table doc curKeyOrdering canPre useAlt qsort qsortD cast itemAddr conds orders Hqs Hne HF Hkind Hord Hscan joinFn V (HV Hk))). cbv beta in HVb.
  assert (Hhold : existsb noKey (map cl conds) = false -> forall r s, In s conds -> In r table -> _) by
    (intros Hk r s Hs Hr; exact (holds_text compareFn HK build read dflt addTo attach table doc curKeyOrdering useAlt true qsort (both conds orders) Hqs (both_ne canPre conds orders Hne Hscan) HC HW HM HF Hkind joinFn Hjoin V (HVb Hk) r s (in_conds conds orders s Hs) Hr)).
  assert (Hans : existsb noKey (map cl conds) = false -> forall r s q d, In s conds -> snd s = Some q -> In r table -> doc (fst s) r = Some d -> _) by
    (intros Hk r s q d Hs Eq Hr Hd; exact (row_answer compareFn HK build read dflt addTo attach table doc curKeyOrdering useAlt true qsort (both conds orders) Hqs (both_ne canPre conds orders Hne Hscan) HC HW HM HF Hkind joinFn Hjoin V (HVb Hk) r s q d (in_conds conds orders s Hs) Eq Hr Hd)).
  cbv beta in Hhold, Hans.
  exists out. split; [exact Hq|]. split; [exact Hnd|]. split; [exact (sorted_nearer snd out Hso)|]. split.
  - intros p re ds Hin. assert (Hin' : In p (map (fun s => fst (fst s)) out)) by (apply in_map_iff; exists (p, re, ds); auto). apply Hp in Hin' as (r & Hr & <- & Hs). exists r. split; [exact Hr|]. split; [reflexivity|].
    assert (Hh : forall s, In s conds -> holds dflt (V r) (cl s)) by (intros s Hsc; apply Hsat; [exact Hsc|]; apply Hs; apply in_map; exact Hsc).
    pose proof (Hkey r Hh) as Hk. destruct (Hre r re ds Hr Hin) as [Hrc Hds]. split; [|split].
    + intros s Hsc. destruct (Hhold Hk r s Hsc Hr) as [H1 _]. destruct (H1 (Hh s Hsc)) as (d & Ed & Ea). exists d. split; [exact Ed|]. intros ->. destruct (snd s) as [q|] eqn:Eq.
      * destruct (Hans Hk r s q d Hsc Eq Hr Ed) as [[_ A] _]. cbn [tsmatches]. apply A; [exact Ea|]. destruct (snd (answer build read true qsort V r s)) eqn:Es; [|reflexivity]. exfalso. assert (false = true); [|discriminate]. apply Hrc. exists (cl s). split; [apply in_map; exact Hsc|]. split; [|exact Es].
        exact (Hdn s Hsc).
      * exfalso. unfold answer, text_clause, textClause in Ea. rewrite Eq in Ea. cbn [cl_cons] in Ea. discriminate.
    + intros ->. destruct (proj1 Hrc eq_refl) as (c & Hc & _ & Er). apply in_map_iff in Hc as (s & <- & Hsc). destruct (Hhold Hk r s Hsc Hr) as [H1 _]. destruct (H1 (Hh s Hsc)) as (d & Ed & Ea). destruct (snd s) as [q|] eqn:Eq.
      * exists s, q, d. split; [exact Hsc|]. split; [exact Eq|]. split; [exact Ed|]. destruct (Hans Hk r s q d Hsc Eq Hr Ed) as [_ B]. exact (B eq_refl Er).
      * exfalso. unfold answer, text_clause, textClause in Ea. rewrite Eq in Ea. cbn [cl_cons] in Ea. discriminate.
    + intros ->. rewrite Hlv in Hds. assert (Hrow : forall o, In o orders -> _) by (intros o Ho; exact (row_distance compareFn HK build read dflt addTo attach table doc curKeyOrdering canPre useAlt qsort qsortD cast itemAddr conds orders Hqs Hne HC HW HM HF Hkind Hord Hscan joinFn Hjoin V (HV Hk) r o Hr Ho)).
      cbv beta in Hrow. clear - Hds Hrow Hord HqD Hcast Hqs. remember (map od orders) as l eqn:El. revert orders El Hrow Hord. induction Hds as [|x d l ds Hd Hds IH]; intros [|o orders] El Hrow Hord; try discriminate; constructor.
      * injection El as -> ->. specialize (Hd (fun _ => eq_refl)). unfold distance_of in Hd. cbn [od_clause od text_ordering] in Hd. rewrite (clause_att build read true qsort Hqs) in Hd. cbn [fst] in Hd. destruct (Hord o (or_introl eq_refl)) as [H1 H2]. apply N.eqb_neq in H1. rewrite H1, H2 in Hd.
        destruct (Hrow o (or_introl eq_refl)) as (ents & m & check & add & E1 & E2 & E3). cbn [od_clause text_ordering] in E2. rewrite (clause_att build read true qsort Hqs) in E2. cbn [fst] in E2.
        assert (Ed : d = rum_tsquery_distance qsortD cast itemAddr m check add (length ents) (Some (snd o))) by (rewrite <- E2; exact Hd).
        destruct (doc (fst o) r) as [dd|]; [exists ents, m, check, add; auto|]. rewrite Ed. apply nothing_far; assumption.
      * injection El as -> ->. apply IH; [reflexivity|intros; apply Hrow; right; assumption|intros; apply Hord; right; assumption].
  - intros r Hr Hm. assert (Hk : existsb noKey (map cl conds) = false).
    { destruct (existsb noKey _) eqn:E; [|reflexivity]. exfalso. apply existsb_exists in E as (c & Hc & E). apply in_map_iff in Hc as (s & <- & Hs).
      pose proof (nokey_spec build read dflt table doc true qsort conds Hqs s r Hs Hr (Hm s Hs)) as Hnk. fold cl in Hnk. congruence. }
    assert (Hin : In (r_tid r) (map (fun s => fst (fst s)) out)).
    { apply Hp. exists r. split; [exact Hr|]. split; [reflexivity|]. intros c Hc. apply in_map_iff in Hc as (s & <- & Hs). apply Hsat; [exact Hs|]. destruct (Hm s Hs) as (d & Ed & Hd). destruct (Hhold Hk r s Hs Hr) as [_ H2]. exact (H2 d Ed Hd). }
    apply in_map_iff in Hin as ([[p re] ds] & E & Hin). cbn in E. subst p. exists re, ds. exact Hin.
Qed.
