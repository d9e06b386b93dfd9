(** Proofs: a tsvector searched for in a whole index of tsqueries (C36). *)
From Coq Require Import NArith ZArith Lia List Permutation Sorted Bool Arith.
From Verif Require Import VacTreeSpec VacIndex VacScanSpec LifeSpec LifeProof LifeQuery Base Ord OrdProof Codec Entries EntriesSpec EntriesProof Bulk BulkSpec EntryTree IndexSpec ScanEntry Scan TidBitmap IndexScan QuerySpec EntryFound IndexScanProof
  Array ArrayQuery Inverted InvertedSpec InvertedProof InvertedTree InvertedEval InvertedMake.
Import ListNotations.
Local Open Scope Z_scope.

Lemma filter_one {T} (f : T -> bool) l e0 : NoDup l -> In e0 l -> f e0 = true -> (forall e, In e l -> f e = true -> e = e0) -> filter f l = [e0].
Proof.
  induction l as [|a l IH]; intros Hn Hin H0 Hu; [destruct Hin|]. apply NoDup_cons_iff in Hn as [Ha Hn]. cbn [filter]. destruct Hin as [->|Hin].
  - rewrite H0. f_equal. apply filter_none. intros e He. destruct (f e) eqn:E; [|reflexivity]. exfalso. rewrite (Hu e (or_intror He) E) in He. contradiction.
  - destruct (f a) eqn:E; [rewrite (Hu a (or_introl eq_refl) E) in Ha; contradiction|]. apply IH; auto. intros e He. apply Hu. right. exact He.
Qed.

Section Column.
  Context {K : Type}.
  Variable compareFn : N -> K -> K -> Z.
  Hypothesis HK : forall n, total_cmp (compareFn n).
  Variables (eqb : K -> K -> bool) (dflt : K) (addTo : N) (table : list (@hrow K datum)).
  Variables (att : N) (tsq : @hrow K datum -> option (tsquery K)).
  Hypothesis HC : query_column compareFn eqb dflt table att tsq.
  Hypothesis Hat : att <> addTo.
  Notation keyReq x := (mkReq att x CatNormKey None false).
  Notation nullReq := (mkReq att dflt CatNullKey None false).
  Lemma Heq x y : eqb x y = true <-> x = y. Proof. apply HC. Qed.
  Lemma Hcmp x y : compareFn att x y = 0 <-> x = y. Proof. apply HC. Qed.
  Definition entries (c : cwrap K) : list (@keyEntry K datum) :=
    map (fun e => Entries.mkEntry (fst e) false (Some (DVar V4U (snd e)))) (extract_wraps eqb c [] []) ++ (if check_allnegative c then [Entries.mkEntry dflt true None] else []).

  Lemma col_null r : In r table -> tsq r = None -> col addTo att r = [(mkKey att dflt CatNullItem, mkItem (r_tid r) None)].
  Proof.
    intros Hr E. destruct HC as (H1 & _ & _ & qs & hd & HS & Hcol). destruct (Hcol r Hr) as (es & Hes & Hn). rewrite E in Hes. subst es. unfold col, row_pairs.
    erewrite (col_filter (fun k => (k_att k =? att)%N) addTo r att _ (r_cols r) 1%N); [|intros k Ek; apply N.eqb_eq; exact Ek|exact H1|exact Hn]. cbn [rumExtractEntries map filter fst k_att]. rewrite N.eqb_refl. destruct (N.eqb_spec att addTo); [contradiction|reflexivity].
  Qed.
  Lemma entries_inj c e e' : In e (entries c) -> In e' (entries c) -> e_isnull e = e_isnull e' -> (e_isnull e = false -> e_datum e = e_datum e') -> e = e'.
  Proof.
    destruct (extract_spec_words eqb Heq c) as [D _]. unfold entries. intros H H' En Ed. apply in_app_iff in H, H'.
    assert (N : forall e, In e (if check_allnegative c then [Entries.mkEntry dflt true None] else []) -> e = @Entries.mkEntry K datum dflt true None) by (intros e0 H0; destruct (check_allnegative c); [destruct H0 as [<-|[]]; reflexivity|destruct H0]).
    destruct H as [H|H], H' as [H'|H'].
    - apply in_map_iff in H as (a & <- & Ha), H' as (b & <- & Hb). cbn in Ed. assert (a = b) as ->; [|reflexivity]. eapply NoDup_map_eq; [exact D|exact Ha|exact Hb|]. apply Ed. reflexivity.
    - apply N in H'. subst e'. apply in_map_iff in H as (a & <- & _). discriminate.
    - apply N in H. subst e. apply in_map_iff in H' as (b & <- & _). discriminate.
    - apply N in H, H'. congruence.
  Qed.
  Lemma entries_nonempty c : occs c [] <> [] -> entries c <> [].
  Proof.
    intro H. destruct (occs c []) as [|[x o] l] eqn:E; [contradiction|]. unfold entries. destruct (extract_spec_words eqb Heq c) as [_ D]. intro E0. apply app_eq_nil in E0 as [E0 _]. apply map_eq_nil in E0. rewrite E0 in D.
    destruct (D x (flat_map occ_bytes (of_word eqb x (occs c [])))) as [_ D']. apply D'. split; [|reflexivity]. rewrite E. unfold of_word. cbn [filter fst]. rewrite (proj2 (Heq x x) eq_refl). discriminate.
  Qed.
  Lemma col_some r q c : In r table -> tsq r = Some q -> extract_tsquery eqb dflt q = Some (entries c) -> occs c [] <> [] ->
    NoDup (col addTo att r) /\ forall p, In p (col addTo att r) <-> exists e, In e (entries c) /\ p = (mkKey att (e_datum e) (if e_isnull e then CatNullKey else CatNormKey), mkItem (r_tid r) (e_add e)).
  Proof.
    intros Hr E EX Hoc. destruct HC as (H1 & _ & _ & qs & hd & HS & Hcol). destruct (Hcol r Hr) as (es & Hes & Hn). rewrite E in Hes. destruct Hes as (l & El & ->). rewrite EX in El. injection El as <-.
    assert (Ec : col addTo att r = map (fun '(k, c, a) => (mkKey att k c, mkItem (r_tid r) a)) (rumExtractEntries (compareFn att) qs hd dflt (Some (entries c)))).
    { unfold col, row_pairs. erewrite (col_filter (fun k => (k_att k =? att)%N) addTo r att _ (r_cols r) 1%N); [|intros k Ek; apply N.eqb_eq; exact Ek|exact H1|exact Hn].
      rewrite filter_all; [|intros e He; apply in_map_iff in He as ([[k c'] a] & <- & _); cbn; apply N.eqb_refl]. apply map_ext. intros [[k c'] a]. destruct (N.eqb_spec att addTo); [contradiction|reflexivity]. }
    pose proof (extract_spec (compareFn att) (HK att) qs hd dflt (entries c) HS (entries_nonempty c Hoc)) as X. cbn zeta in X. rewrite Ec. set (out := rumExtractEntries _ _ _ _ _) in *. clearbody out. destruct X as (X1 & X2 & X3). split.
    - apply FinFun.Injective_map_NoDup; [intros [[k c1] a] [[k' c1'] a'] EE; congruence|]. clear - X1 HK. induction X1 as [|x l H IH F]; constructor; [|exact IH]. intro Hin. rewrite Forall_forall in F. specialize (F x Hin). destruct x as [[k c1] a]. cbn in F. unfold rumCompareEntries in F. rewrite Z.eqb_refl in F. cbn [negb] in F. destruct (negb _); [lia|]. pose proof (tc_refl _ (HK att) k). lia.
    - intro p. rewrite in_map_iff. split.
      + intros (s & <- & Hs). destruct (X2 s Hs) as (e & He & ->). exists e. split; [exact He|reflexivity].
      + intros (e & He & ->). destruct (X3 e He) as (s & Hs & Es). destruct (X2 s Hs) as (e' & He' & ->). exists (stored_of e'). split; [|exact Hs]. assert (e' = e) as ->; [|reflexivity].
        unfold stored_of, rumCompareEntries in Es. cbn in Es. apply (entries_inj c); auto.
        * destruct (e_isnull e'), (e_isnull e); cbn in Es; try reflexivity; discriminate.
        * intro En. rewrite En in Es. destruct (e_isnull e); cbn in Es; [discriminate|]. apply Hcmp. exact Es.
  Qed.
  Lemma asks_norm x k cc : asks compareFn (keyReq x) (mkKey att k cc) = true <-> cc = CatNormKey /\ k = x.
  Proof.
    unfold asks. cbn. unfold rumCompareAttEntries. cbn [k_att k_val k_cat]. rewrite N.eqb_refl. cbn [negb]. rewrite Z.eqb_eq. unfold rumCompareEntries.
    destruct cc; cbn; (split; [intro H; try discriminate H|intros [H E]; try discriminate H]).
    - split; [reflexivity|]. apply Hcmp. exact H.
    - apply Hcmp. exact E.
  Qed.
  Lemma asks_null k cc : asks compareFn nullReq (mkKey att k cc) = true <-> cc = CatNullKey.
  Proof.
    unfold asks. cbn. unfold rumCompareAttEntries. cbn [k_att k_val k_cat]. rewrite N.eqb_refl. cbn [negb]. rewrite Z.eqb_eq. unfold rumCompareEntries.
    destruct cc; cbn; (split; [intro H; try discriminate H; reflexivity|intro H; try discriminate H; reflexivity]).
  Qed.
  Lemma infos_col' r q : rq_att q = att -> infos compareFn addTo r q = map (fun e => add (snd e)) (filter (fun e => asks compareFn q (fst e)) (col addTo att r)).
  Proof.
    intro Hq. unfold infos, col. f_equal. rewrite filter_filter. apply filter_ext_in. intros e _. destruct (asks compareFn q (fst e)) eqn:E; [|symmetry; apply andb_false_r].
    rewrite andb_true_r. apply asks_att in E. rewrite E, Hq. symmetry. apply N.eqb_refl.
  Qed.
  Lemma shows_word join r q c x o : In r table -> tsq r = Some q -> extract_tsquery eqb dflt q = Some (entries c) -> occs c [] <> [] ->
    shows join (infos compareFn addTo r (keyReq x)) o -> word_shows eqb c x o.
  Proof.
    intros Hr E EX Hoc. rewrite infos_col' by reflexivity. destruct (col_some r q c Hr E EX Hoc) as [Hnd Hin]. destruct (extract_spec_words eqb Heq c) as [D1 D2]. unfold word_shows.
    assert (A : forall e, In e (entries c) -> forall p, p = (mkKey att (e_datum e) (if e_isnull e then CatNullKey else CatNormKey), mkItem (r_tid r) (e_add e)) -> asks compareFn (keyReq x) (fst p) = true ->
      of_word eqb x (occs c []) <> [] /\ e = Entries.mkEntry x false (Some (DVar V4U (flat_map occ_bytes (of_word eqb x (occs c [])))))).
    { intros e He p -> Ha. cbn [fst] in Ha. apply asks_norm in Ha as [Ha1 Ha2]. destruct (e_isnull e) eqn:En; [discriminate|]. unfold entries in He. apply in_app_iff in He as [He|He]; [|destruct (check_allnegative c); [destruct He as [<-|[]]; discriminate|destruct He]].
      apply in_map_iff in He as ([y b] & <- & Hb). cbn in Ha2. subst y. apply D2 in Hb as [Hb1 ->]. auto. }
    destruct (of_word eqb x (occs c [])) as [|a0 l0] eqn:EW.
    - rewrite filter_none; [intros [[_ ->]|(? & ? & P & _)]; [reflexivity|apply Permutation_nil in P; discriminate]|]. intros p Hp. apply Hin in Hp as (e & He & ->). destruct (asks compareFn (keyReq x) _) eqn:Ea; [|reflexivity]. exfalso. destruct (A e He _ eq_refl Ea) as [A1 _]. contradiction.
    - rewrite <- EW in *. assert (Hne : of_word eqb x (occs c []) <> []) by (rewrite EW; discriminate). set (e0 := Entries.mkEntry x false (Some (DVar V4U (flat_map occ_bytes (of_word eqb x (occs c [])))))) in *.
      assert (He0 : In e0 (entries c)) by (unfold entries; apply in_app_iff; left; apply in_map_iff; exists (x, flat_map occ_bytes (of_word eqb x (occs c []))); split; [reflexivity|apply D2; auto]).
      rewrite (filter_one _ _ (mkKey att x CatNormKey, mkItem (r_tid r) (e_add e0)) Hnd).
      + intros [[H0 _]|(a1 & t & P & ->)]; [discriminate H0|]. cbn [map] in P. apply Permutation_length_1_inv in P. injection P as -> ->. exists V4U. reflexivity.
      + apply Hin. exists e0. auto.
      + cbn [fst]. apply asks_norm. auto.
      + intros p Hp Ha. apply Hin in Hp as (e & He & ->). destruct (A e He _ eq_refl Ha) as [_ ->]. reflexivity.
  Qed.
  Lemma shows_nullkey join r q c o : In r table -> tsq r = Some q -> extract_tsquery eqb dflt q = Some (entries c) -> occs c [] <> [] ->
    shows join (infos compareFn addTo r nullReq) o -> isSet o = check_allnegative c.
  Proof.
    intros Hr E EX Hoc HS. pose proof (shows_some _ _ _ HS) as S. rewrite infos_col' in S by reflexivity. destruct (col_some r q c Hr E EX Hoc) as [Hnd Hin].
    assert (A : (exists p, In p (filter (fun e => asks compareFn nullReq (fst e)) (col addTo att r))) <-> check_allnegative c = true).
    { split.
      - intros (p & Hp). apply filter_In in Hp as [Hp Ha]. apply Hin in Hp as (e & He & ->). cbn [fst] in Ha. apply asks_null in Ha. unfold entries in He. apply in_app_iff in He as [He|He]; [apply in_map_iff in He as (b & <- & _); discriminate|]. destruct (check_allnegative c); [reflexivity|destruct He].
      - intro Hc. exists (mkKey att dflt CatNullKey, mkItem (r_tid r) None). apply filter_In. split; [|apply asks_null; reflexivity]. apply Hin. exists (Entries.mkEntry dflt true None). split; [unfold entries; rewrite Hc; apply in_app_iff; right; left; reflexivity|reflexivity]. }
    destruct o as [o|]; cbn [isSet].
    - symmetry. apply A. destruct (filter _ (col addTo att r)) as [|p l]; [|exists p; left; reflexivity]. exfalso. destruct S as [S _]. apply S; [discriminate|reflexivity].
    - symmetry. destruct (check_allnegative c); [|reflexivity]. exfalso. destruct A as [_ A]. destruct (A eq_refl) as (p & Hp). destruct S as [_ S]. apply S; [|reflexivity]. destruct (filter _ _); [destruct Hp|discriminate].
  Qed.
  Lemma shows_no join r q o : In r table -> tsq r = None -> rq_att q = att -> (rq_cat q = CatNormKey \/ rq_cat q = CatNullKey) -> rq_partial q = None -> shows join (infos compareFn addTo r q) o -> o = None.
  Proof.
    intros Hr E Ha Hc Hp. rewrite infos_col' by exact Ha. rewrite (col_null r Hr E). cbn [filter fst]. replace (asks compareFn q (mkKey att dflt CatNullItem)) with false.
    - intros [[_ ->]|(? & ? & P & _)]; [reflexivity|apply Permutation_nil in P; discriminate].
    - symmetry. unfold asks. rewrite Hp. unfold rumCompareAttEntries, rumCompareEntries. cbn [k_att k_val k_cat]. rewrite Ha, N.eqb_refl. destruct Hc as [-> | ->]; reflexivity.
  Qed.
End Column.

(** ** Queries *)
Lemma consist_nothing v : Forall (fun o => o = None) v -> tsvector_consistent v = Some false.
Proof.
  intro H. unfold tsvector_consistent. assert (A : keys_loop (removelast v) true [] = Some (false, true, [])).
  { assert (H' : Forall (fun o => o = None) (removelast v)) by (clear - H; induction H as [|a l Ha Hl IH]; [constructor|]; cbn [removelast]; destruct l; [constructor|constructor; assumption]). rewrite <- (app_nil_r (removelast v)), (keys_none _ [] _ _ H'). reflexivity. }
  rewrite A. replace (last v None) with (@None (option datum)); [reflexivity|]. clear A. induction H as [|a l -> Hl IH]; [reflexivity|]. cbn [last]. destruct l; [reflexivity|exact IH].
Qed.
Definition clause_of {K} (dflt : K) (s : N * tsvector K) : clause K := invertedClause dflt (fst s) (snd s).
Section Query.
  Context {K : Type}.
  Variable compareFn : N -> K -> K -> Z.
  Hypothesis HK : forall n, total_cmp (compareFn n).
  Variables (eqb : K -> K -> bool) (dflt : K) (addTo attach : N) (table : list (@hrow K datum)).
  Variable tsq : N -> @hrow K datum -> option (tsquery K).
  Notation clauseOf := (clause_of dflt).
  Variables (curKeyOrdering canPre : N -> bool) (useAlt : bool).
  Variable conds : list (N * tsvector K).
  Hypothesis Hne : conds <> [].
  Hypothesis HC : forall s, In s conds -> query_column compareFn eqb dflt table (fst s) (tsq (fst s)) /\ fst s <> addTo /\ canPre (fst s) = false /\ is_tsvector (snd s).
  Hypothesis HM : forall s r q, In s conds -> In r table -> tsq (fst s) r = Some q -> moderate q.
  Notation keyReq att x := (mkReq att x CatNormKey None false).
  Notation nullReq att := (mkReq att dflt CatNullKey None false).

  Lemma no_addto : existsb (fun c' => (cl_att c' =? addTo)%N) (map clauseOf conds) = false.
  Proof.
    destruct (existsb _ _) eqn:E; [|reflexivity]. exfalso. apply existsb_exists in E as (c & Hc & E). apply in_map_iff in Hc as (s & <- & Hs). apply N.eqb_eq in E. exact (proj1 (proj2 (HC s Hs)) E).
  Qed.
  Lemma kept_all : kept addTo attach (map clauseOf conds) = map clauseOf conds.
  Proof. unfold kept. rewrite no_addto. apply filter_all. intros c _. rewrite andb_false_r. reflexivity. Qed.
  Lemma sat_holds V r s : satisfies dflt addTo attach V (map clauseOf conds) r (clauseOf s) <-> holds dflt V (clauseOf s).
  Proof. unfold satisfies. rewrite no_addto, andb_false_r. reflexivity. Qed.
  Lemma reqs s : requests dflt (clauseOf s) = match snd s with [] => [] | _ => map (fun w => keyReq (fst s) (fst w)) (snd s) ++ [nullReq (fst s)] end.
  Proof.
    unfold requests, hidden, clause_of, invertedClause, modeOf. cbn [cl_att cl_vals cl_mode Z.ltb Z.eqb orb Z.compare]. rewrite app_nil_r. unfold tsvectorVals. destruct (snd s) as [|w l]; [reflexivity|]. rewrite map_app, map_map. reflexivity.
  Qed.
  Lemma req_form s q : In s conds -> In q (requests dflt (clauseOf s)) -> rq_partial q = None /\ rq_att q = fst s /\ (rq_cat q = CatNormKey \/ rq_cat q = CatNullKey).
  Proof.
    intros Hs Hq. rewrite reqs in Hq. destruct (snd s); [destruct Hq|]. apply in_app_iff in Hq as [Hq|[<-|[]]]; [apply in_map_iff in Hq as (x & <- & _)|]; auto.
  Qed.
  Lemma query_key q : In q (query_keys dflt addTo attach curKeyOrdering (map clauseOf conds) []) <-> exists s, In s conds /\ In q (requests dflt (clauseOf s)).
  Proof.
    unfold query_keys. rewrite kept_all. cbn [live filter flat_map]. rewrite app_nil_r. destruct (map clauseOf conds) as [|c0 l0] eqn:E0; [apply map_eq_nil in E0; contradiction|]. rewrite <- E0. rewrite in_flat_map. split.
    - intros (c & Hc & Hq). apply in_map_iff in Hc as (s & <- & Hs). eauto.
    - intros (s & Hs & Hq). exists (clauseOf s). split; [apply (in_map clauseOf); exact Hs|exact Hq].
  Qed.
  Lemma inverted_covered ever : covered compareFn dflt addTo attach useAlt curKeyOrdering canPre ever table (map clauseOf conds) [].
  Proof.
    split.
    - intros q Hq f Ef. apply query_key in Hq as (s & Hs & Hq). destruct (req_form s q Hs Hq) as [Hp _]. congruence.
    - intros q r Hq _ _ Ea. apply query_key in Hq as (s & Hs & Hq). destruct (req_form s q Hs Hq) as (_ & Hp & _). exfalso. exact (proj1 (proj2 (HC s Hs)) (eq_trans (eq_sym Hp) Ea)).
    - intros c Hc Hk. rewrite kept_all in Hk. contradiction.
    - intros c Hc E. apply in_map_iff in Hc as (s & <- & Hs). exfalso. exact (proj1 (proj2 (HC s Hs)) E).
    - intro E. apply map_eq_nil in E. contradiction.
    - intros _. split; [intros o []|]. exists false. intros c Hc. rewrite kept_all, app_nil_r in Hc. apply in_map_iff in Hc as (s & <- & Hs). apply N.eqb_neq. exact (proj1 (proj2 (HC s Hs))).
    - intros (H & _ & _). exfalso. destruct conds as [|s l] eqn:E; [contradiction|]. rewrite <- E in *. assert (Hs : In s conds) by (rewrite E; left; reflexivity). destruct (HC s Hs) as (_ & _ & Hp & _).
      specialize (H (clauseOf s)). rewrite kept_all in H. specialize (H (in_map clauseOf conds s Hs)). cbn in H. congruence.
  Qed.
  (** What the query keys show of a row. *)
  Variables (joinFn : N -> option (datum -> datum -> datum)).
  Variable V : @hrow K datum -> qreq K -> option (option datum).
  Hypothesis HV : forall r q, In r table -> In q (query_keys dflt addTo attach curKeyOrdering (map clauseOf conds) []) -> shows (joinFn (rq_att q)) (infos compareFn addTo r q) (V r q).
  Lemma mx_doc (doc : tsvector K) : (forall x y, eqb x y = true <-> x = y) -> forall x, In x (map fst doc) <-> mx eqb (map fst doc) x = true.
  Proof.
    clear. intros Heq x. unfold mx. rewrite existsb_exists. split; [intro H; exists x; split; [exact H|apply Heq; reflexivity]|]. intros (y & Hy & E). apply Heq in E. subst y. exact Hy.
  Qed.
  Lemma holds_inverted r s : In s conds -> In r table ->
    (holds dflt (V r) (clauseOf s) -> exists q, tsq (fst s) r = Some q /\ matches_words (snd s) q) /\
    (forall q, snd s <> [] -> tsq (fst s) r = Some q -> needs_words q false None -> matches_words (snd s) q -> holds dflt (V r) (clauseOf s)).
  Proof.
    intros Hs Hr. destruct (HC s Hs) as (Hcol & Ha & _ & Hdoc). set (att := fst s) in *. set (doc := snd s) in *.
    assert (Hsh : forall q, In q (requests dflt (clauseOf s)) -> shows (joinFn (rq_att q)) (infos compareFn addTo r q) (V r q)).
    { intros q Hq. apply HV; [exact Hr|]. apply query_key. eauto. }
    pose proof (reqs s) as Rq. fold att doc in Rq.
    assert (Hvals : doc <> [] -> map (fun v => V r (reqOf (cl_att (clauseOf s)) v)) (cl_vals (clauseOf s)) = map (fun w => V r (keyReq att (fst w))) doc ++ [V r (nullReq att)]).
    { intro Hd. cbn [clause_of invertedClause cl_att cl_vals]. fold att doc. unfold tsvectorVals. destruct doc as [|w l]; [contradiction|]. rewrite map_app, map_map. reflexivity. }
    assert (Hqs : forall q, tsq att r = Some q -> doc <> [] -> exists b, tsvector_consistent (map (fun w => V r (keyReq att (fst w))) doc ++ [V r (nullReq att)]) = Some b /\ (b = true -> matches_words doc q) /\ (needs_words q false None -> matches_words doc q -> b = true)).
    { intros q Eq Hd. pose proof (HM s r q Hs Hr Eq) as Hmod. assert (Hplain : plain q /\ exists l, extract_tsquery eqb dflt q = Some l).
      { destruct Hcol as (_ & _ & _ & qs & hd & _ & Hc). destruct (Hc r Hr) as (es & He & _). rewrite Eq in He. destruct He as (l & El & _). split; [|eauto]. unfold extract_tsquery in El. destruct (make_query_item_wrap q None false) eqn:Em; [|discriminate]. exact (make_plain q _ _ _ Em). }
      destruct Hplain as [Hplain _]. pose proof (Heq compareFn eqb dflt table att (tsq att) Hcol) as HE. destruct (stored eqb HE dflt q Hplain Hmod) as (c & EX & Hoc & Hans).
      assert (Hd' : requests dflt (clauseOf s) = map (fun w => keyReq att (fst w)) doc ++ [nullReq att]) by (rewrite Rq; destruct doc; [contradiction|reflexivity]).
      destruct (Hans (map fst doc) (map (fun w => V r (keyReq att (fst w))) doc) (V r (nullReq att)) Hdoc) as (b & B1 & B2 & B3).
      - assert (HW : forall w, In w doc -> word_shows eqb c (fst w) (V r (keyReq att (fst w)))).
        { intros w Hw. apply (shows_word compareFn HK eqb dflt addTo table att (tsq att) Hcol Ha (joinFn att) r q c (fst w)); auto. apply (Hsh (keyReq att (fst w))). rewrite Hd'. apply in_app_iff. left. apply in_map_iff. eauto. }
        clear - HW. induction doc as [|w l IH]; [constructor|]. cbn [map]. constructor; [apply HW; left; reflexivity|]. apply IH. intros w' Hw'. apply HW. right. exact Hw'.
      - apply (shows_nullkey compareFn HK eqb dflt addTo table att (tsq att) Hcol Ha (joinFn att) r q c); auto. apply (Hsh (nullReq att)). rewrite Hd'. apply in_app_iff. right. left. reflexivity.
      - exists b. split; [exact B1|]. pose proof (qb_true (fun x _ => In x (map fst doc)) (mx eqb (map fst doc)) q Hplain (fun x _ => mx_doc doc HE x)) as Q. unfold matches_words. rewrite Q. auto. }
    split.
    - intros (_ & (q0 & Hq0 & HV0) & Hc). assert (Hd : doc <> []) by (intro E; rewrite Rq, E in Hq0; destruct Hq0). rewrite (Hvals Hd) in Hc. cbn [clause_of invertedClause cl_cons fst] in Hc.
      destruct (tsq att r) as [q|] eqn:Eq.
      + exists q. split; [reflexivity|]. destruct (Hqs q eq_refl Hd) as (b & B1 & B2 & _). rewrite B1 in Hc. auto.
      + exfalso. apply HV0. destruct (req_form s q0 Hs Hq0) as (F1 & F2 & F3). apply (shows_no compareFn eqb dflt addTo table att (tsq att) Hcol Ha (joinFn (rq_att q0)) r q0 (V r q0)); auto.
    - intros q Hd Eq HN Hmat. destruct (Hqs q Eq Hd) as (b & B1 & _ & B3). specialize (B3 HN Hmat). subst b. split; [reflexivity|]. split; [|rewrite (Hvals Hd); cbn [clause_of invertedClause cl_cons fst]; rewrite B1; reflexivity].
      destruct (existsb (fun q0 => isSet (V r q0)) (requests dflt (clauseOf s))) eqn:Ex.
      + apply existsb_exists in Ex as (q0 & Hq0 & E0). exists q0. split; [exact Hq0|]. destruct (V r q0); [discriminate|discriminate E0].
      + exfalso. assert (Hnone : forall q0, In q0 (requests dflt (clauseOf s)) -> V r q0 = None).
        { intros q0 Hq0. destruct (V r q0) eqn:E0; [|reflexivity]. assert (existsb (fun q0 => isSet (V r q0)) (requests dflt (clauseOf s)) = true) by (apply existsb_exists; exists q0; split; [exact Hq0|rewrite E0; reflexivity]). congruence. }
        rewrite consist_nothing in B1; [discriminate|]. rewrite Rq in Hnone. destruct doc as [|w0 l0] eqn:Ed; [contradiction|]. rewrite <- Ed in *. apply Forall_app. split.
        * rewrite Forall_map, Forall_forall. intros w Hw. apply Hnone. apply in_app_iff. left. apply in_map_iff. eauto.
        * constructor; [|constructor]. apply Hnone. apply in_app_iff. right. left. reflexivity.
  Qed.
End Query.

Theorem inverted_query (K : Type) (compareFn : N -> K -> K -> Z) altOf attrOf cmpA rawSize (dflt : K) useAlt addTo built history ix :
  table_index compareFn altOf attrOf cmpA rawSize dflt useAlt addTo built history ix ->
  let table := rows_now built history in
  forall attach curKeyOrdering tuplesort junk joinFn canPre estimate sortEnts visit iterate tbmMax,
  sorter tuplesort -> junk_harmless compareFn history ix junk -> (forall f a, joinFn addTo = Some f -> f a a = a) -> sorts_entries useAlt addTo cmpA sortEnts ->
  forall (eqb : K -> K -> bool) (tsq : N -> @hrow K datum -> option (tsquery K)),
  forall conds, conds <> [] ->
  (forall s, In s conds -> query_column compareFn eqb dflt table (fst s) (tsq (fst s)) /\ fst s <> addTo /\ canPre (fst s) = false /\ is_tsvector (snd s)) ->
  (forall s r q, In s conds -> In r table -> tsq (fst s) r = Some q -> moderate q) ->
  exists out,
    queryScan dflt addTo attach curKeyOrdering compareFn useAlt cmpA tuplesort junk joinFn canPre estimate sortEnts visit iterate tbmMax ix
      (map (fun s => invertedClause dflt (fst s) (snd s)) conds) [] = Some out /\
    NoDup (map fst out) /\
    (forall p re, In (p, re) out -> re = false /\ exists r, In r table /\ r_tid r = p /\
       forall s, In s conds -> exists q, tsq (fst s) r = Some q /\ matches_words (snd s) q /\ (unweighted q -> matches (snd s) q)) /\
    (forall r, In r table ->
       (forall s, In s conds -> snd s <> [] /\ exists q, tsq (fst s) r = Some q /\ needs_words q false None /\ (matches_words (snd s) q \/ unweighted q /\ matches (snd s) q)) ->
       In (r_tid r, false) out).
Proof.
  intros Hti table attach curKeyOrdering tuplesort junk joinFn canPre estimate sortEnts visit iterate tbmMax Ht HJ Hid Hse eqb tsq conds Hne HC HM.
  pose proof (proj1 (ti_columns _ _ _ _ _ _ _ _ _ _ _ Hti)) as HK.
  pose proof (inverted_covered compareFn eqb dflt addTo attach table tsq curKeyOrdering canPre useAlt conds Hne HC HM (ever built history)) as Hcov.
  destruct (query_table K compareFn altOf attrOf cmpA rawSize dflt useAlt addTo built history ix Hti attach curKeyOrdering tuplesort junk joinFn canPre estimate sortEnts visit iterate tbmMax Ht HJ Hid Hse _ [] Hcov)
    as (V & out & Hq & HV & Hnd & Hp & Hre). fold table in HV, Hp, Hre. set (cl := @clause_of K dflt) in *.
  assert (Hsat : forall r s, satisfies dflt addTo attach (V r) (map cl conds) r (cl s) <-> holds dflt (V r) (cl s)) by (intros r s; exact (sat_holds compareFn eqb dflt addTo attach table tsq canPre conds HC (V r) r s)).
  assert (Hkey : forall r, In r table -> (forall s, In s conds -> holds dflt (V r) (cl s)) -> existsb noKey (map cl conds) = false).
  { intros r Hr Hh. destruct (existsb noKey _) eqn:E; [|reflexivity]. exfalso. apply existsb_exists in E as (c & Hc & E). apply in_map_iff in Hc as (s & <- & Hs). destruct (Hh s Hs) as (_ & (q & Hq' & _) & _).
    unfold cl in Hq', E. rewrite reqs in Hq'. unfold noKey in E. cbn [cl_isnull clause_of invertedClause orb cl_vals] in E. apply andb_true_iff in E as [_ E]. destruct (snd s); [destruct Hq'|]. cbn in E. discriminate. }
  assert (Hhold : existsb noKey (map cl conds) = false -> forall r s, In s conds -> In r table -> _) by (intros Hk r s Hs Hr; exact (holds_inverted compareFn HK eqb dflt addTo attach table tsq curKeyOrdering canPre conds Hne HC HM joinFn V (HV Hk) r s Hs Hr)).
  cbv beta in Hhold.
  assert (Hfalse : forall r re, In r table -> In (r_tid r, re) out -> re = false).
  { intros r re Hr Hin. destruct re; [|reflexivity]. exfalso. destruct (proj1 (Hre r true Hr Hin) eq_refl) as (c & Hc & _ & E). apply in_map_iff in Hc as (s & <- & Hs). discriminate E. }
  exists out. split; [exact Hq|]. split; [exact Hnd|]. split.
  - intros p re Hin. assert (Hin' : In p (map fst out)) by (apply in_map_iff; exists (p, re); auto). apply Hp in Hin' as (r & Hr & <- & Hs). split; [exact (Hfalse r re Hr Hin)|]. exists r. split; [exact Hr|]. split; [reflexivity|].
    assert (Hh : forall s, In s conds -> holds dflt (V r) (cl s)) by (intros s Hsc; apply Hsat; apply Hs; apply in_map; exact Hsc).
    intros s Hsc. destruct (Hhold (Hkey r Hr Hh) r s Hsc Hr) as [H1 _]. destruct (H1 (Hh s Hsc)) as (q & E1 & E2). exists q. split; [exact E1|]. split; [exact E2|]. intro U. apply (unweighted_matches _ _ U). exact E2.
  - intros r Hr Hh. assert (Hk : existsb noKey (map cl conds) = false).
    { destruct (existsb noKey _) eqn:E; [|reflexivity]. exfalso. apply existsb_exists in E as (c & Hc & E). apply in_map_iff in Hc as (s & <- & Hs). destruct (Hh s Hs) as [Hd _]. unfold cl, noKey in E. cbn [cl_isnull clause_of invertedClause orb cl_vals] in E. apply andb_true_iff in E as [_ E].
      unfold tsvectorVals in E. destruct (snd s); [contradiction|]. cbn in E. discriminate. }
    assert (Hin : In (r_tid r) (map fst out)).
    { apply Hp. exists r. split; [exact Hr|]. split; [reflexivity|]. intros c Hc. apply in_map_iff in Hc as (s & <- & Hs). apply Hsat. destruct (Hh s Hs) as (Hd & q & E1 & E2 & E3). destruct (Hhold Hk r s Hs Hr) as [_ H2]. apply (H2 q Hd E1 E2).
      destruct E3 as [E3|[U E3]]; [exact E3|]. apply (unweighted_matches _ _ U). exact E3. }
    apply in_map_iff in Hin as ([p re] & E & Hin). cbn in E. subst p. rewrite (Hfalse r re Hr Hin) in Hin. exact Hin.
Qed.
Lemma no_negation_needs {K} (q : tsquery K) : no_negation q -> forall parent, needs_words q false parent.
Proof.
  assert (A : forall q : tsquery K, no_negation q -> ~ query_true (fun _ _ => False) q).
  { clear. induction q as [x w p|q IH|l IHl r IHr|l IHl r IHr|d l IHl r IHr]; cbn; tauto. }
  induction q as [x w p|q IH|l IHl r IHr|l IHl r IHr|d l IHl r IHr]; intros H parent; cbn [needs_words]; auto.
  - destruct H.
  - split; [right; right; apply A; exact H|]. destruct H. auto.
  - split; [right; right; apply A; exact H|]. destruct H. auto.
Qed.

Lemma find_word {K} (eqb : K -> K -> bool) (dflt : K) (na : bool) x (ws : list (K * list byte)) :
  find (fun e : @keyEntry K datum => negb (e_isnull e) && eqb x (e_datum e)) (map (fun e => Entries.mkEntry (fst e) false (Some (DVar V4U (snd e)))) ws ++ (if na then [Entries.mkEntry dflt true None] else [])) =
  option_map (fun e => Entries.mkEntry (fst e) false (Some (DVar V4U (snd e)))) (find (fun e => eqb x (fst e)) ws).
Proof.
  induction ws as [|e l IH]; cbn [map app find].
  - destruct na; reflexivity.
  - simpl. destruct (eqb x (fst e)); [reflexivity|]. exact IH.
Qed.
Lemma find_null {K} (dflt : K) (na : bool) (ws : list (K * list byte)) :
  find (fun e : @keyEntry K datum => e_isnull e) (map (fun e => Entries.mkEntry (fst e) false (Some (DVar V4U (snd e)))) ws ++ (if na then [Entries.mkEntry dflt true None] else [])) =
  if na then Some (Entries.mkEntry dflt true None) else None.
Proof. induction ws as [|e l IH]; cbn [map app find]; [destruct na; reflexivity|exact IH]. Qed.

(** The match function on what extraction stored. *)
Lemma stored_answer (K : Type) (eqb : K -> K -> bool) (dflt : K) q l : (forall x y, eqb x y = true <-> x = y) ->
  extract_tsquery eqb dflt q = Some l -> moderate q ->
  forall xs, NoDup xs ->
  let shown x := option_map (fun e => e_add e) (find (fun e => negb (e_isnull e) && eqb x (e_datum e)) l) in
  let nullshown := option_map (fun e => e_add e) (find (fun e => e_isnull e) l) in
  exists b, tsvector_consistent (map shown xs ++ [nullshown]) = Some b /\
    (b = true -> query_true (fun x _ => In x xs) q) /\ (needs_words q false None -> query_true (fun x _ => In x xs) q -> b = true).
Proof.
  intros HE EX Hmod xs Hnd shown nullshown. assert (Hplain : plain q) by (unfold extract_tsquery in EX; destruct (make_query_item_wrap q None false) eqn:Em; [|discriminate]; exact (make_plain q _ _ _ Em)).
  destruct (stored eqb HE dflt q Hplain Hmod) as (c & EX' & Hoc & Hans). rewrite EX in EX'. injection EX' as ->. destruct (extract_spec_words eqb HE c) as [D1 D2].
  assert (HW : forall x, word_shows eqb c x (shown x)).
  { intro x. unfold word_shows, shown. set (ws := extract_wraps eqb c [] []) in *.
    rewrite find_word. destruct (find (fun e : K * list byte => eqb x (fst e)) ws) as [[y b]|] eqn:Ef.
    - apply find_some in Ef as [Ef1 Ef2]. cbn [fst] in Ef2. apply HE in Ef2. subst y. apply D2 in Ef1 as [Ef1 ->]. cbn [option_map e_add snd]. destruct (of_word eqb x (occs c [])); [contradiction|]. exists V4U. reflexivity.
    - destruct (of_word eqb x (occs c [])) as [|e0 l0] eqn:Eo; [reflexivity|]. exfalso. destruct (D2 x (flat_map occ_bytes (of_word eqb x (occs c [])))) as [_ D]. assert (Hno : of_word eqb x (occs c []) <> []) by (clear -Eo; intro E; rewrite E in Eo; discriminate Eo). specialize (D (conj Hno eq_refl)). clear Eo Hno. apply (find_none _ _ Ef) in D. cbn [fst] in D. rewrite (proj2 (HE x x) eq_refl) in D. discriminate. }
  destruct (Hans xs (map shown xs) nullshown Hnd) as (b & B1 & B2 & B3).
  - clear - HW. induction xs as [|x l IH]; constructor; [apply HW|exact IH].
  - unfold nullshown. rewrite find_null. destruct (check_allnegative c); reflexivity.
  - exists b. split; [exact B1|]. rewrite (qb_true (fun x _ => In x xs) (mx eqb xs) q Hplain); [auto|]. intros x _. unfold mx. rewrite existsb_exists. split; [intro H; exists x; split; [exact H|apply HE; reflexivity]|]. intros (y & Hy & E). apply HE in E. subst y. exact Hy.
Qed.
