(** Proofs: array conditions and orderings on a whole index (C29, C30). *)
From Coq Require Import NArith ZArith Lia List Permutation Sorted Bool Arith SpecFloat.
From Verif Require Import VacTreeSpec VacIndex VacScanSpec LifeSpec LifeProof LifeQuery Base Ord OrdProof Codec Entries EntriesSpec EntriesProof Bulk BulkSpec EntryTree IndexSpec ScanEntry Scan TidBitmap IndexScan QuerySpec EntryFound IndexScanProof
  Array ArraySpec ArrayFloat ArrayProof OrderScan OrderSpec OrderScanProof.
Import ListNotations.
Local Open Scope Z_scope.

(** ** The keys of a column *)
Lemma col_filter {K} (f : ekey K -> bool) addTo (r : @hrow K datum) att es : forall cols n,
  (forall k, f k = true -> k_att k = att) -> (n <= att)%N -> nth_error cols (N.to_nat att - N.to_nat n) = Some es ->
  filter (fun e => f (fst e)) (col_pairs addTo r n cols) =
  filter (fun e => f (fst e)) (map (fun '(k, c, a) => (mkKey att k c, mkItem (r_tid r) (if (att =? addTo)%N then r_attach r else a))) es).
Proof.
  assert (Hno : forall l n, (forall k, f k = true -> k_att k = att) -> (att < n)%N -> filter (fun e => f (fst e)) (col_pairs addTo r n l) = []).
  { clear. induction l as [|es' l IH]; intros n Hf Hn; [reflexivity|]. cbn [col_pairs]. rewrite filter_app, (IH (n + 1)%N Hf) by lia. rewrite app_nil_r.
    apply filter_none. intros e He. apply in_map_iff in He as ([[k c] a] & <- & _). cbn [fst]. destruct (f (mkKey n k c)) eqn:E; [|reflexivity]. apply Hf in E. cbn in E. lia. }
  induction cols as [|es' cols IH]; intros n Hf Hn Hnth; [destruct (N.to_nat att - N.to_nat n)%nat; discriminate|].
  cbn [col_pairs]. rewrite filter_app. destruct (N.eq_dec n att) as [->|Hne].
  - rewrite Nat.sub_diag in Hnth. injection Hnth as ->. rewrite (Hno cols (att + 1)%N Hf) by lia. rewrite app_nil_r. reflexivity.
  - rewrite (filter_none _ (map _ es')).
    + cbn [app]. apply IH; [exact Hf|lia|]. replace (N.to_nat att - N.to_nat n)%nat with (S (N.to_nat att - N.to_nat (n + 1))) in Hnth by lia. exact Hnth.
    + intros e He. apply in_map_iff in He as ([[k c] a] & <- & _). cbn [fst]. destruct (f (mkKey n k c)) eqn:E; [|reflexivity]. apply Hf in E. cbn in E. lia.
Qed.

Section Column.
  Context {K : Type}.
  Variable compareFn : N -> K -> K -> Z.
  Hypothesis HK : forall n, total_cmp (compareFn n).
  Variables (cmp : N -> K -> K -> Z) (qsort : (K -> K -> Z) -> list K -> list K) (dflt : K) (addTo : N) (table : list (@hrow K datum)).
  Hypothesis HQ : sorter qsort.
  Hypothesis HR : Forall (hrow_ok compareFn) table.
  Variables (att : N) (arr : @hrow K datum -> option (list K)).
  Hypothesis HC : array_column compareFn cmp qsort dflt table att arr.
  Hypothesis Hat : att <> addTo.
  Notation ecmp := (cmp att).
  Notation keyReq x := (mkReq att x CatNormKey None false).

  Lemma ecmp_ok : total_cmp ecmp. Proof. apply HC. Qed.
  Lemma ecmp_eq x y : ecmp x y = 0 <-> compareFn att x y = 0. Proof. apply HC. Qed.

  (** What a row stores in the column. *)
  Definition col (r : @hrow K datum) : list (ekey K * item datum) := filter (fun e => (k_att (fst e) =? att)%N) (row_pairs addTo r).
  Lemma infos_col r q : rq_att q = att -> infos compareFn addTo r q = map (fun e => add (snd e)) (filter (fun e => asks compareFn q (fst e)) (col r)).
  Proof.
    intro Hq. unfold infos, col. f_equal. rewrite filter_filter. apply filter_ext_in. intros e _. destruct (asks compareFn q (fst e)) eqn:E; [|symmetry; apply andb_false_r].
    rewrite andb_true_r. apply asks_att in E. rewrite E, Hq. symmetry. apply N.eqb_refl.
  Qed.
  Lemma col_spec r : In r table -> match arr r with
    | None => col r = [(mkKey att dflt CatNullItem, mkItem (r_tid r) None)]
    | Some a => if Z.of_nat (length a) =? 0 then col r = [(mkKey att dflt CatEmptyItem, mkItem (r_tid r) None)]
      else nelems ecmp qsort a < 2 ^ 31 /\ exists l, col r = map (fun x => (mkKey att x CatNormKey, mkItem (r_tid r) (Some (int32_datum (nelems ecmp qsort a))))) l /\
        ssorted (compareFn att) l /\ (forall x, ArraySpec.has ecmp l x <-> ArraySpec.has ecmp a x)
    end.
  Proof.
    intro Hr. destruct HC as (H1 & OK & Heq & qsortE & haveDups & HS & Hcol). specialize (Hcol r Hr).
    assert (Ecol : forall es, nth_error (r_cols r) (N.to_nat att - 1) = Some es ->
      col r = map (fun '(k, c, a) => (mkKey att k c, mkItem (r_tid r) a)) es).
    { intros es Hes. unfold col, row_pairs. rewrite (col_filter (fun k => (k_att k =? att)%N) addTo r att es (r_cols r) 1%N); [|intros k Ek; apply N.eqb_eq; exact Ek|exact H1|exact Hes].
      rewrite filter_all; [|intros e He; apply in_map_iff in He as ([[k c] a] & <- & _); cbn; apply N.eqb_refl].
      apply map_ext. intros [[k c] a]. destruct (N.eqb_spec att addTo); [contradiction|reflexivity]. }
    assert (Hlen : forall es, nth_error (r_cols r) (N.to_nat att - 1) = Some es -> (N.of_nat (length es) < 2 ^ 31)%N).
    { intros es Hes. rewrite Forall_forall in HR. exact (proj1 (HR r Hr _ _ Hes)). }
    destruct (arr r) as [a|]; cbn [option_map] in Hcol; [|exact (Ecol _ Hcol)].
    destruct (Z.eqb_spec (Z.of_nat (length a)) 0) as [E0|E0].
    - destruct a; [|discriminate]. exact (Ecol _ Hcol).
    - assert (Ha : a <> []) by (intros ->; apply E0; reflexivity). set (n := int32_datum (nelems ecmp qsort a)) in *.
      assert (Hne : extract_anyarray ecmp qsort a <> []).
      { unfold extract_anyarray. intro E. apply map_eq_nil in E. apply (proj1 (elems_nil ecmp OK qsort HQ a)) in E. contradiction. }
      pose proof (extract_spec (compareFn att) (HK att) qsortE haveDups dflt _ HS Hne) as X. cbn zeta in X.
      set (es := rumExtractEntries _ _ _ _ _) in *. destruct X as (X1 & X2 & X3).
      set (l := map (fun s : @stored K datum => fst (fst s)) es).
      assert (Ees : es = map (fun x => (x, CatNormKey, Some n)) l).
      { unfold l. rewrite map_map. transitivity (map (fun x : @stored K datum => x) es); [symmetry; apply map_id|]. apply map_ext_in. intros s Hs. destruct (X2 s Hs) as (e & He & ->).
        unfold extract_anyarray in He. apply in_map_iff in He as (x & <- & _). reflexivity. }
      assert (Hl : ssorted (compareFn att) l).
      { clear - X1 Ees. rewrite Ees in X1. clear Ees. clearbody l. induction l as [|x l IH]; [constructor|]. cbn [map] in X1. apply ssorted_inv in X1 as [X1 X2]. apply ssorted_cons; [apply IH; exact X1|].
        rewrite Forall_map in X2. eapply Forall_impl; [|exact X2]. intros y Hy. exact Hy. }
      assert (Hhas : forall x, ArraySpec.has ecmp l x <-> ArraySpec.has ecmp a x).
      { intro x. rewrite <- (has_elems ecmp OK qsort HQ a x). split.
        - intros (y & Hy & E). unfold l in Hy. apply in_map_iff in Hy as (s & <- & Hs). destruct (X2 s Hs) as (e & He & ->). unfold extract_anyarray in He. apply in_map_iff in He as (z & <- & Hz). exists z. auto.
        - intros (y & Hy & E). destruct (X3 (Entries.mkEntry y false (Some n))) as (s & Hs & Es); [unfold extract_anyarray; apply in_map_iff; exists y; auto|].
          exists (fst (fst s)). split; [exact (in_map (fun s : @stored K datum => fst (fst s)) es s Hs)|]. pose proof Hs as Hs'. rewrite Ees in Hs'. apply in_map_iff in Hs' as (z & <- & Hz). cbn in Es |- *.
          apply Heq. unfold rumCompareEntries in Es. cbn in Es. apply Heq in E. pose proof (cmp_eq_l _ (HK att) _ _ z E). apply (cmp_sym_eq _ (HK att)) in Es. rewrite Es in H. cbn in H. lia. }
      split.
      + assert (Hle : (length (elems ecmp qsort a) <= length l)%nat).
        { apply (apart_le ecmp OK); [apply sorted_apart; apply elems_sorted; assumption| |intro x; rewrite Hhas, (has_elems ecmp OK qsort HQ a x); auto].
          pose proof (sorted_apart (compareFn att) l Hl) as A. clear - A Heq. induction A as [|x l H _ IH]; constructor; [|exact IH]. eapply Forall_impl; [|exact H]. intros y Hy E. apply Hy, Heq, E. }
        specialize (Hlen es Hcol). rewrite Ees, map_length in Hlen. unfold nelems. lia.
      + exists l. split; [|auto]. rewrite (Ecol es Hcol), Ees, map_map. reflexivity.
  Qed.
  (** What a query key shows of the row. *)
  Definition shown (o : option (option datum)) (r : @hrow K datum) (x : K) : Prop :=
    match arr r with
    | Some a => (ArraySpec.has ecmp a x /\ o = Some (Some (int32_datum (nelems ecmp qsort a)))) \/ (~ ArraySpec.has ecmp a x /\ o = None)
    | None => o = None
    end.
  Lemma asks_key x k c : asks compareFn (keyReq x) (mkKey att k c) = true <-> c = CatNormKey /\ ecmp x k = 0.
  Proof.
    unfold asks. cbn. unfold rumCompareAttEntries. cbn [k_att k_val k_cat]. rewrite N.eqb_refl. cbn [negb]. rewrite Z.eqb_eq. unfold rumCompareEntries.
    destruct c; cbn; (split; [intro H; try discriminate H|intros [H E]; try discriminate H]).
    - split; [reflexivity|]. apply ecmp_eq. apply (cmp_sym_eq _ (HK att)). exact H.
    - apply (cmp_sym_eq _ (HK att)). apply ecmp_eq. exact E.
  Qed.
  Lemma shows_key join r x o : In r table -> shows join (infos compareFn addTo r (keyReq x)) o -> shown o r x.
  Proof.
    intros Hr. rewrite (infos_col r (keyReq x) eq_refl). pose proof (col_spec r Hr) as C. unfold shown. destruct (arr r) as [a|].
    - destruct (Z.eqb_spec (Z.of_nat (length a)) 0) as [E0|E0].
      + destruct a; [|discriminate]. rewrite C. cbn [filter fst]. replace (asks compareFn (keyReq x) (mkKey att dflt CatEmptyItem)) with false by (symmetry; apply not_true_is_false; rewrite asks_key; intros [H _]; discriminate H).
        intros [[_ ->]|(? & ? & P & _)]; [|apply Permutation_nil in P; discriminate]. right. split; [intros (y & [] & _)|reflexivity].
      + destruct C as (_ & l & Ec & Hs & Hh). rewrite Ec. set (d := int32_datum _).
        assert (E : map (fun e => add (snd e)) (filter (fun e : ekey K * item datum => asks compareFn (keyReq x) (fst e)) (map (fun x => (mkKey att x CatNormKey, mkItem (r_tid r) (Some d))) l)) =
          map (fun _ => Some d) (filter (fun y => ecmp x y =? 0) l)).
        { clear Ec Hs Hh. induction l as [|y l IH]; [reflexivity|]. cbn [map filter fst]. destruct (asks compareFn (keyReq x) (mkKey att y CatNormKey)) eqn:A; destruct (Z.eqb_spec (ecmp x y) 0) as [E|E]; cbn [map]; try (rewrite IH; reflexivity).
          - apply asks_key in A. tauto.
          - exfalso. rewrite (proj2 (asks_key x y CatNormKey) (conj eq_refl E)) in A. discriminate. }
        rewrite E. clear E. destruct (filter (fun y => ecmp x y =? 0) l) as [|y [|z f]] eqn:Ef.
        * intros [[_ ->]|(? & ? & P & _)]; [|apply Permutation_nil in P; discriminate]. right. split; [|reflexivity]. rewrite <- Hh. intros (y & Hy & E).
          assert (H : In y []) by (rewrite <- Ef; apply filter_In; split; [exact Hy|apply Z.eqb_eq; exact E]). destruct H.
        * intros [[H _]|(a0 & t & P & ->)]; [discriminate H|]. left. split.
          -- apply Hh. exists y. assert (H : In y [y]) by (left; reflexivity). rewrite <- Ef in H. apply filter_In in H as [H1 H2]. apply Z.eqb_eq in H2. auto.
          -- cbn [map] in P. apply Permutation_length_1_inv in P. injection P as -> ->. reflexivity.
        * exfalso. assert (Hy : In y (y :: z :: f) /\ In z (y :: z :: f)) by (split; [left|right; left]; reflexivity). rewrite <- Ef in Hy. destruct Hy as [Hy Hz].
          apply filter_In in Hy as [_ Hy]. apply filter_In in Hz as [_ Hz]. apply Z.eqb_eq in Hy, Hz.
          assert (Ss : ssorted (compareFn att) (filter (fun y => ecmp x y =? 0) l)).
          { clear - Hs. induction Hs as [|u l H IH F]; [constructor|]. cbn [filter]. destruct (_ =? 0); [|exact IH]. apply ssorted_cons; [exact IH|]. rewrite Forall_forall in *. intros w Hw. apply filter_In in Hw. apply F. tauto. }
          rewrite Ef in Ss. apply ssorted_inv in Ss as [_ Ss]. apply Forall_inv in Ss. apply ecmp_eq in Hy, Hz. apply (cmp_sym_eq _ (HK att)) in Hy. pose proof (cmp_eq_l _ (HK att) y x z Hy). rewrite Hz in H. cbn in H. lia.
    - rewrite C. cbn [filter fst]. replace (asks compareFn (keyReq x) (mkKey att dflt CatNullItem)) with false by (symmetry; apply not_true_is_false; rewrite asks_key; intros [H _]; discriminate H).
      intros [[_ ->]|(? & ? & P & _)]; [reflexivity|apply Permutation_nil in P; discriminate].
  Qed.
  Lemma shows_empty join r o : In r table -> shows join (infos compareFn addTo r (mkReq att dflt CatEmptyItem None false)) o -> (o <> None <-> arr r = Some []).
  Proof.
    intros Hr H. rewrite (shows_some _ _ _ H). rewrite infos_col by reflexivity. pose proof (col_spec r Hr) as C.
    assert (A : forall c, asks compareFn (mkReq att dflt CatEmptyItem None false) (mkKey att dflt c) = match c with CatEmptyItem => true | _ => false end /\
      forall x, asks compareFn (mkReq att dflt CatEmptyItem None false) (mkKey att x CatNormKey) = false).
    { intro c. unfold asks. cbn. unfold rumCompareAttEntries. cbn. rewrite N.eqb_refl. destruct c; split; reflexivity. }
    destruct (arr r) as [a|]; [destruct (Z.eqb_spec (Z.of_nat (length a)) 0) as [E0|E0]|].
    - destruct a; [|discriminate]. rewrite C. cbn [filter fst]. rewrite (proj1 (A CatEmptyItem)). split; [reflexivity|discriminate].
    - destruct C as (_ & l & Ec & _). rewrite Ec. rewrite filter_none; [split; [intro Hn; contradiction|intro Hn; injection Hn as ->; contradiction]|].
      intros e He. apply in_map_iff in He as (x & <- & _). cbn [fst]. apply (A CatNormKey).
    - rewrite C. cbn [filter fst]. rewrite (proj1 (A CatNullItem)). split; [intro Hn; contradiction|discriminate].
  Qed.
  Lemma shows_all join r o : In r table -> shows join (infos compareFn addTo r (mkReq att dflt CatEmptyQuery None true)) o -> (o <> None <-> arr r <> None).
  Proof.
    intros Hr H. rewrite (shows_some _ _ _ H). rewrite infos_col by reflexivity. pose proof (col_spec r Hr) as C.
    assert (A : forall x c, asks compareFn (mkReq att dflt CatEmptyQuery None true) (mkKey att x c) = match c with CatNullItem => false | _ => true end).
    { intros x c. unfold asks. cbn. rewrite N.eqb_refl. destruct c; reflexivity. }
    destruct (arr r) as [a|]; [destruct (Z.eqb_spec (Z.of_nat (length a)) 0) as [E0|E0]|].
    - rewrite C. cbn [filter fst]. rewrite A. split; discriminate.
    - destruct C as (_ & l & Ec & _ & Hh). rewrite Ec. split; [discriminate|intros _]. destruct a as [|x a]; [contradiction|].
      destruct (proj2 (Hh x) (has_in ecmp ecmp_ok (x :: a) x (or_introl eq_refl))) as (y & Hy & _). rewrite filter_all; [destruct l; [destruct Hy|discriminate]|].
      intros e He. apply in_map_iff in He as (z & <- & _). apply A.
    - rewrite C. cbn [filter fst]. rewrite A. split; [intro Hn; contradiction|intro Hn; contradiction].
  Qed.
End Column.

(** ** What the operator class's functions make of it *)
Lemma int32_back n : 0 <= n < 2 ^ 31 -> datum_int32 (int32_datum n) = n.
Proof.
  intro H. cbn [datum_int32 int32_datum]. rewrite Z2N.id by lia. rewrite Z.mod_small by lia. destruct (Z.ltb_spec n (2 ^ 31)); lia.
Qed.
Lemma distFromSml_spec t na nb n : (if n =? 0 then finf else distFromSml (getSimilarity t na nb n)) =
  if (n =? 0) || SFeqb (similarity t na nb n) (S754_zero false) then S754_infinity false else SFdiv 53 1024 (binary_normalize 53 1024 1 0 false) (similarity t na nb n).
Proof. destruct (n =? 0); [reflexivity|]. cbn [orb]. change (similarity t na nb n) with (getSimilarity t na nb n). reflexivity. Qed.
Section Answers.
  Context {K : Type}.
  Variable ecmp : K -> K -> Z.
  Hypothesis OK : total_cmp ecmp.
  Variable qsort : (K -> K -> Z) -> list K -> list K.
  Hypothesis HQ : sorter qsort.
  Variables (f : K -> option (option datum)) (a q : list K).
  Hypothesis Hsmall : a <> [] -> nelems ecmp qsort a < 2 ^ 31.
  Notation has := (ArraySpec.has ecmp).
  Notation els := (elems ecmp qsort).
  Hypothesis Hf : forall x, In x (els q) -> (has a x /\ f x = Some (Some (int32_datum (nelems ecmp qsort a)))) \/ (~ has a x /\ f x = None).

  Lemma set_has x : In x (els q) -> (isSet (f x) = true <-> has a x).
  Proof. intro H. destruct (Hf x H) as [[H1 ->]|[H1 ->]]; cbn; split; intro; auto; try discriminate; contradiction. Qed.
  Lemma has_ne x : has a x -> a <> [].
  Proof. intros (y & Hy & _) ->. destruct Hy. Qed.
  Lemma info_has x : In x (els q) -> has a x -> info (f x) = Some (nelems ecmp qsort a).
  Proof.
    intros H1 H. destruct (Hf x H1) as [[_ ->]|[H2 _]]; [|contradiction]. cbn [info]. f_equal. apply int32_back. split; [unfold nelems; lia|]. apply Hsmall. exact (has_ne x H).
  Qed.
  Lemma info_none x : In x (els q) -> ~ has a x -> info (f x) = None.
  Proof. intros H1 H. destruct (Hf x H1) as [[H2 _]|[_ ->]]; [contradiction|reflexivity]. Qed.
  Lemma has_dec x : In x (els q) -> has a x \/ ~ has a x.
  Proof. intro H. destruct (Hf x H) as [[H1 _]|[H1 _]]; auto. Qed.

  Lemma overlap_answer : fst (anyarray_consistent SmtCosine fzero AOverlap (map f (els q))) = true <-> overlaps ecmp a q.
  Proof.
    cbn [anyarray_consistent fst]. rewrite existsb_exists. split.
    - intros (o & Ho & E). apply in_map_iff in Ho as (x & <- & Hx). exists x. split; [apply set_has; assumption|]. apply (has_elems ecmp OK qsort HQ). exact (has_in ecmp OK _ _ Hx).
    - intros (x & H1 & H2). apply (has_elems ecmp OK qsort HQ) in H2 as (y & Hy & E). exists (f y). split; [apply in_map; exact Hy|]. apply set_has; [exact Hy|]. exact (has_eq ecmp OK a x y E H1).
  Qed.
  Lemma contains_answer : fst (anyarray_consistent SmtCosine fzero AContains (map f (els q))) = true <-> contains ecmp a q.
  Proof.
    cbn [anyarray_consistent fst]. rewrite forallb_forall. split.
    - intros H x Hx. destruct (proj2 (has_elems ecmp OK qsort HQ q x) (has_in ecmp OK _ _ Hx)) as (y & Hy & E). apply (has_eq ecmp OK a y x); [apply (cmp_sym_eq _ OK); exact E|].
      apply set_has; [exact Hy|]. apply H. apply in_map. exact Hy.
    - intros H o Ho. apply in_map_iff in Ho as (x & <- & Hx). apply set_has; [exact Hx|]. apply H. exact (elems_in ecmp OK qsort HQ _ _ Hx).
  Qed.
  Lemma nelems_le (b c : list K) : contains ecmp c b -> nelems ecmp qsort b <= nelems ecmp qsort c.
  Proof.
    intro H. unfold nelems. apply inj_le. apply (apart_le ecmp OK); try (apply sorted_apart, elems_sorted; assumption). intros x. rewrite !(has_elems ecmp OK qsort HQ). intros (y & Hy & E).
    apply (has_eq ecmp OK c y x); [apply (cmp_sym_eq _ OK); exact E|]. exact (H y Hy).
  Qed.
  Lemma contained_answer : contains ecmp q a -> fst (anyarray_consistent SmtCosine fzero AContained (map f (els q))) = true.
  Proof.
    intro H. cbn [anyarray_consistent fst]. rewrite forallb_forall. intros o Ho. apply in_map_iff in Ho as (x & <- & Hx). destruct (has_dec x Hx) as [Hh|Hh]; [rewrite (info_has x Hx Hh)|rewrite (info_none x Hx Hh); reflexivity].
    rewrite map_length. pose proof (nelems_le a q H) as L. change (Z.of_nat (length (els q))) with (nelems ecmp qsort q). destruct (Z.ltb_spec (nelems ecmp qsort q) (nelems ecmp qsort a)); [lia|reflexivity].
  Qed.
  Lemma same_contains (b c : list K) : same ecmp b c -> contains ecmp b c /\ contains ecmp c b.
  Proof.
    intro H. unfold contains. induction H as [|x y b c E H [I1 I2]]; [split; intros ? []|]. split.
    - intros z [<-|Hz]; apply has_cons; [left; apply (cmp_sym_eq _ OK); exact E|right; auto].
    - intros z [<-|Hz]; apply has_cons; [left; exact E|right; auto].
  Qed.
  Lemma equal_answer : same ecmp a q -> fst (anyarray_consistent SmtCosine fzero AEqual (map f (els q))) = true.
  Proof.
    intro H. apply same_contains in H as [H1 H2]. cbn [anyarray_consistent fst]. rewrite forallb_forall. intros o Ho. apply in_map_iff in Ho as (x & <- & Hx).
    assert (Hh : has a x) by (apply H1; exact (elems_in ecmp OK qsort HQ _ _ Hx)). rewrite (info_has x Hx Hh), (proj2 (set_has x Hx) Hh). cbn [andb]. rewrite map_length.
    pose proof (nelems_le a q H2). pose proof (nelems_le q a H1). change (Z.of_nat (length (els q))) with (nelems ecmp qsort q). apply Z.eqb_eq. lia.
  Qed.
  Lemma checks_common : in_common ecmp a q (checks (map f (els q))).
  Proof.
    unfold checks. assert (E : length (filter isSet (map f (els q))) = length (filter (inb ecmp a) (els q))).
    { assert (H : forall x, In x (els q) -> isSet (f x) = inb ecmp a x).
      { intros x Hx. apply eq_true_iff_eq. rewrite (set_has x Hx), (inb_has ecmp a x). reflexivity. }
      revert H. clear. induction (els q) as [|x l IH]; intro H; [reflexivity|]. cbn [map filter]. rewrite <- (H x (or_introl eq_refl)). destruct (isSet (f x)); cbn [length]; rewrite IH; auto; intros y Hy; apply H; right; exact Hy. }
    rewrite E. apply common_swap. apply (common_filter ecmp OK qsort HQ q a).
  Qed.
  Lemma first_info : 0 < checks (map f (els q)) -> firstInfo (map f (els q)) = nelems ecmp qsort a.
  Proof.
    intro H. unfold checks in H. assert (Hex : exists x, In x (els q) /\ has a x).
    { destruct (filter isSet (map f (els q))) as [|o l] eqn:E; [cbn in H; lia|]. assert (Ho : In o (o :: l)) by (left; reflexivity). rewrite <- E in Ho. apply filter_In in Ho as [Ho S]. apply in_map_iff in Ho as (x & <- & Hx). exists x. split; [exact Hx|apply set_has; assumption]. }
    destruct Hex as (x & Hx & Hh). assert (Hi : forall l, (forall y, In y l -> In y (els q)) -> In x l -> firstInfo (map f l) = nelems ecmp qsort a); [|exact (Hi (els q) (fun _ h => h) Hx)].
    clear H. induction l as [|y l IH]; intros Hs Hl; [destruct Hl|]. cbn [map firstInfo]. destruct (has_dec y (Hs y (or_introl eq_refl))) as [Hy|Hy].
    - rewrite (info_has y (Hs y (or_introl eq_refl)) Hy). reflexivity.
    - rewrite (info_none y (Hs y (or_introl eq_refl)) Hy). destruct Hl as [->|Hl]; [contradiction|]. apply IH; [intros z Hz; apply Hs; right; exact Hz|exact Hl].
  Qed.
  Lemma nonempty_common : 0 < checks (map f (els q)) -> a <> [] /\ q <> [].
  Proof.
    intro H. pose proof checks_common as C. split; intro E.
    - apply (common_zero ecmp OK) in C. assert (checks (map f (els q)) = 0); [|lia]. apply C. rewrite E. intros (x & (y & [] & _) & _).
    - apply (common_zero ecmp OK) in C. assert (checks (map f (els q)) = 0); [|lia]. apply C. rewrite E. intros (x & _ & (y & [] & _)).
  Qed.
  Lemma similar_answer t thr : SFltb fzero thr = true -> (fst (anyarray_consistent t thr ASimilar (map f (els q))) = true <-> similar ecmp t thr a q).
  Proof.
    intro Hthr. cbn [anyarray_consistent fst]. rewrite map_length. change (Z.of_nat (length (els q))) with (nelems ecmp qsort q). pose proof checks_common as C. destruct (Z.ltb_spec 0 (checks (map f (els q)))) as [P|P].
    - rewrite (first_info P). destruct (nonempty_common P) as [Ha Hq]. split.
      + intro H. split; [exact Ha|]. split; [exact Hq|]. do 3 eexists. split; [apply (nelems_distinct ecmp OK qsort HQ)|]. split; [apply (nelems_distinct ecmp OK qsort HQ)|]. split; [exact C|exact H].
      + intros (_ & _ & na & nb & n & H1 & H2 & H3 & H). rewrite (distinct_unique ecmp OK _ _ _ (nelems_distinct ecmp OK qsort HQ a) H1), (distinct_unique ecmp OK _ _ _ (nelems_distinct ecmp OK qsort HQ q) H2), (in_common_unique ecmp OK _ _ _ _ C H3). exact H.
    - split; [discriminate|]. intros (_ & _ & na & nb & n & H1 & H2 & H3 & H). exfalso. rewrite (in_common_unique ecmp OK _ _ _ _ H3 C) in H.
      assert (E : checks (map f (els q)) = 0) by (unfold checks in *; lia). rewrite E in H. pose proof (no_similarity t na nb thr Hthr) as Hno. unfold fge in Hno. change (similarity t na nb 0) with (getSimilarity t na nb 0) in H. rewrite Hno in H. discriminate.
  Qed.
  Lemma ordering_answer t : far ecmp t a q (anyarray_ordering t (map f (els q))).
  Proof.
    unfold anyarray_ordering, far. rewrite map_length. change (Z.of_nat (length (els q))) with (nelems ecmp qsort q). pose proof checks_common as C.
    do 3 eexists. split; [apply (nelems_distinct ecmp OK qsort HQ)|]. split; [apply (nelems_distinct ecmp OK qsort HQ)|]. split; [exact C|]. rewrite <- distFromSml_spec.
    destruct (Z.ltb_spec 0 (checks (map f (els q)))) as [P|P]; [rewrite (first_info P)|]; (destruct (Z.eqb_spec (checks (map f (els q))) 0); [try lia|]); try reflexivity. unfold checks in *. lia.
  Qed.
End Answers.
Lemma distance_spec {K} (ecmp : K -> K -> Z) (OK : total_cmp ecmp) qsort (HQ : sorter qsort) t a b : a <> [] -> b <> [] -> far ecmp t a b (anyarray_distance ecmp qsort t a b).
Proof.
  intros Ha Hb. pose proof (intersect_common ecmp OK qsort HQ a b) as C. do 3 eexists. split; [apply (nelems_distinct ecmp OK qsort HQ)|]. split; [apply (nelems_distinct ecmp OK qsort HQ)|]. split; [exact C|].
  assert (E : anyarray_distance ecmp qsort t a b = distFromSml (getSimilarity t (nelems ecmp qsort a) (nelems ecmp qsort b) (getNumOfIntersect ecmp qsort a b))) by (destruct a; [congruence|destruct b; [congruence|reflexivity]]).
  rewrite <- distFromSml_spec. rewrite E. destruct (Z.eqb_spec (getNumOfIntersect ecmp qsort a b) 0) as [->|]; [|reflexivity]. apply disjoint_far; apply (nelems_pos ecmp OK qsort HQ); assumption.
Qed.

(** ** Queries *)
(** An ordering column <=> array. *)
Definition arrayOrdering {K} (cmp : N -> K -> K -> Z) qsort t (att : N) (q : list K) : ordering K float8 :=
  mkOrd (arrayOrderClause cmp qsort att q) (anyarray_ordering t) (fun _ => finf) (fun _ => finf).

Section Query.
  Context {K : Type}.
  Variable compareFn : N -> K -> K -> Z.
  Hypothesis HK : forall n, total_cmp (compareFn n).
  Variables (cmp : N -> K -> K -> Z) (qsort : (K -> K -> Z) -> list K -> list K) (dflt : K) (addTo attach : N) (table : list (@hrow K datum)).
  Hypothesis HQ : sorter qsort.
  Hypothesis HR : Forall (hrow_ok compareFn) table.
  Variable arr : N -> @hrow K datum -> option (list K).
  Variables (t : simType) (thr : float8).
  Notation clauseOf := (arrayClause cmp qsort t thr).
  Variables (curKeyOrdering canPre : N -> bool) (useAlt : bool).
  Variables (conds : list (acond K)) (orders : list (N * list K)).
  Hypothesis Hne : conds <> [].
  Hypothesis HC : forall s, In s conds -> array_column compareFn cmp qsort dflt table (ac_att s) (arr (ac_att s)) /\ ac_att s <> addTo /\ canPre (ac_att s) = false.
  Hypothesis HO : forall o, In o orders -> array_column compareFn cmp qsort dflt table (fst o) (arr (fst o)) /\ fst o <> addTo /\ fst o <> attach /\ curKeyOrdering (fst o) = false.
  Hypothesis Hthr : forall s, In s conds -> ac_op s = ASimilar -> SFltb fzero thr = true.
  Notation orderClauses := (map (fun o => arrayOrderClause cmp qsort (fst o) (snd o)) orders).
  Notation keyReq att x := (mkReq att x CatNormKey None false).

  Lemma reqs_of att c : map (reqOf att) (arrayVals c qsort []) = [] .
  Proof. reflexivity. Qed.
  Lemma vals_req att q : map (reqOf att) (arrayVals (cmp att) qsort q) = map (fun x => keyReq att x) (elems (cmp att) qsort q).
  Proof. unfold arrayVals. rewrite map_map. reflexivity. Qed.
  Lemma no_addto : existsb (fun c' => (cl_att c' =? addTo)%N) (map clauseOf conds) = false.
  Proof.
    destruct (existsb _ _) eqn:E; [|reflexivity]. exfalso. apply existsb_exists in E as (c & Hc & E). apply in_map_iff in Hc as (s & <- & Hs). apply N.eqb_eq in E. exact (proj1 (proj2 (HC s Hs)) E).
  Qed.
  Lemma kept_all : kept addTo attach (map clauseOf conds) = map clauseOf conds.
  Proof. unfold kept. rewrite no_addto. apply filter_all. intros c _. rewrite andb_false_r. reflexivity. Qed.
  Lemma sat_holds V r s : satisfies dflt addTo attach V (map clauseOf conds) r (clauseOf s) <-> holds dflt V (clauseOf s).
  Proof. unfold satisfies. rewrite no_addto, andb_false_r. reflexivity. Qed.
  Lemma no_partial c q : (exists s, In s conds /\ c = clauseOf s) \/ In c orderClauses -> In q (requests dflt c) -> rq_partial q = None /\ rq_att q <> addTo.
  Proof.
    intros Hc Hq. assert (A : exists att q' m cons, c = mkClause att false (arrayVals (cmp att) qsort q') m cons None /\ att <> addTo).
    { destruct Hc as [(s & Hs & ->)|Hc]; [do 4 eexists; split; [reflexivity|]; apply HC; exact Hs|]. apply in_map_iff in Hc as (o & <- & Ho). do 4 eexists. split; [reflexivity|]. apply (HO o Ho). }
    destruct A as (att & q' & m & cons & -> & Ha). unfold requests in Hq. apply in_app_iff in Hq as [Hq|Hq]; cbn [cl_att cl_vals] in Hq.
    - rewrite vals_req in Hq. apply in_map_iff in Hq as (x & <- & _). split; [reflexivity|exact Ha].
    - unfold hidden in Hq. cbn [cl_att] in Hq. destruct (_ =? 1); [destruct Hq as [<-|[]]; split; [reflexivity|exact Ha]|]. destruct (_ =? 2); [destruct Hq as [<-|[]]; split; [reflexivity|exact Ha]|destruct Hq].
  Qed.
  Lemma query_key q : In q (query_keys dflt addTo attach curKeyOrdering (map clauseOf conds) orderClauses) ->
    (exists s, In s conds /\ In q (requests dflt (clauseOf s))) \/ (exists o, In o orders /\ In q (requests dflt (arrayOrderClause cmp qsort (fst o) (snd o)))).
  Proof.
    unfold query_keys. rewrite kept_all. intro H. apply in_app_iff in H as [H|H].
    - left. destruct (map clauseOf conds) as [|c0 l0] eqn:E0; [apply map_eq_nil in E0; contradiction|]. rewrite <- E0 in H. apply in_flat_map in H as (c & Hc & Hq). apply in_map_iff in Hc as (s & <- & Hs). eauto.
    - right. apply in_flat_map in H as (c & Hc & Hq). apply filter_In in Hc as [Hc _]. apply in_map_iff in Hc as (o & <- & Ho). exists o. split; [exact Ho|]. destruct (bare _ _ _); [destruct Hq|exact Hq].
  Qed.
  Lemma query_key' q : In q (query_keys dflt addTo attach curKeyOrdering (map clauseOf conds) orderClauses) -> rq_partial q = None /\ rq_att q <> addTo.
  Proof.
    intro H. apply query_key in H as [(s & Hs & Hq)|(o & Ho & Hq)]; eapply no_partial; try exact Hq; [left; eauto|right]. apply (in_map (fun o => arrayOrderClause cmp qsort (fst o) (snd o)) orders o Ho).
  Qed.
  Lemma array_covered ever : covered compareFn dflt addTo attach useAlt curKeyOrdering canPre ever table (map clauseOf conds) orderClauses.
  Proof.
    split.
    - intros q Hq f Ef. apply query_key' in Hq as [Hq _]. congruence.
    - intros q r Hq _ _ Ea. apply query_key' in Hq as [_ Hq]. contradiction.
    - intros c Hc Hk. rewrite kept_all in Hk. contradiction.
    - intros c Hc E. apply in_map_iff in Hc as (s & <- & Hs). exfalso. exact (proj1 (proj2 (HC s Hs)) E).
    - intro E. apply map_eq_nil in E. contradiction.
    - intros _. split.
      + intros o Ho. apply filter_In in Ho as [Ho _]. apply in_map_iff in Ho as (o' & <- & Ho). destruct (HO o' Ho) as (_ & _ & H1 & H2). unfold bare. cbn. rewrite H2. destruct (N.eqb_spec (fst o') attach); [contradiction|reflexivity].
      + exists false. intros c Hc. rewrite kept_all in Hc. apply in_app_iff in Hc as [Hc|Hc].
        * apply in_map_iff in Hc as (s & <- & Hs). apply N.eqb_neq. exact (proj1 (proj2 (HC s Hs))).
        * apply filter_In in Hc as [Hc _]. apply in_map_iff in Hc as (o & <- & Ho). apply N.eqb_neq. exact (proj1 (proj2 (HO o Ho))).
    - intros (H & _ & _). exfalso. destruct conds as [|s l] eqn:E; [contradiction|]. rewrite <- E in *. assert (Hs : In s conds) by (rewrite E; left; reflexivity). destruct (HC s Hs) as (_ & _ & Hp).
      specialize (H (clauseOf s)). rewrite kept_all in H. specialize (H (in_map clauseOf conds s Hs)). cbn in H. congruence.
  Qed.

  (** What the query keys show of a row. *)
  Variables (joinFn : N -> option (datum -> datum -> datum)).
  Variable V : @hrow K datum -> qreq K -> option (option datum).
  Hypothesis HV : forall r q, In r table -> In q (query_keys dflt addTo attach curKeyOrdering (map clauseOf conds) orderClauses) ->
       shows (joinFn (rq_att q)) (infos compareFn addTo r q) (V r q).
  Lemma cond_key s q : In s conds -> In q (requests dflt (clauseOf s)) -> In q (query_keys dflt addTo attach curKeyOrdering (map clauseOf conds) orderClauses).
  Proof.
    intros Hs Hq. unfold query_keys. rewrite kept_all. apply in_app_iff. left. destruct (map clauseOf conds) as [|c0 l0] eqn:E0; [apply map_eq_nil in E0; contradiction|]. rewrite <- E0.
    apply in_flat_map. exists (clauseOf s). split; [apply in_map; exact Hs|exact Hq].
  Qed.
  Lemma array_small att r a : array_column compareFn cmp qsort dflt table att (arr att) -> att <> addTo -> In r table -> arr att r = Some a -> a <> [] -> nelems (cmp att) qsort a < 2 ^ 31.
  Proof.
    intros Hc Ha Hr E Hn. pose proof (col_spec compareFn HK cmp qsort dflt addTo table HQ HR att (arr att) Hc Ha r Hr) as C. rewrite E in C.
    destruct (Z.eqb_spec (Z.of_nat (length a)) 0) as [E0|]; [destruct a; [contradiction|discriminate]|]. apply C.
  Qed.
  Lemma holds_array r s : In s conds -> In r table ->
    (checked_again (ac_op s) = false -> holds dflt (V r) (clauseOf s) -> array_holds cmp t thr arr r s) /\
    (array_holds cmp t thr arr r s -> holds dflt (V r) (clauseOf s)).
  Proof.
    intros Hs Hr. destruct (HC s Hs) as (Hc & Ha & _). set (att := ac_att s) in *. set (q := ac_arr s) in *. pose proof (ecmp_ok compareFn cmp qsort dflt table att (arr att) Hc) as OK.
    set (f := fun x => V r (keyReq att x)).
    assert (Hreq : requests dflt (clauseOf s) = map (fun x => keyReq att x) (elems (cmp att) qsort q) ++ hidden dflt (clauseOf s)) by (unfold requests; cbn [cl_att cl_vals arrayClause]; fold att q; rewrite vals_req; reflexivity).
    assert (Hvals : map (fun v => V r (reqOf (cl_att (clauseOf s)) v)) (cl_vals (clauseOf s)) = map f (elems (cmp att) qsort q)).
    { cbn [cl_att cl_vals arrayClause]. fold att q. unfold arrayVals. rewrite map_map. reflexivity. }
    assert (Hsh : forall x, In x (elems (cmp att) qsort q) -> shown cmp qsort att (arr att) (f x) r x).
    { intros x Hx. apply (shows_key compareFn HK cmp qsort dflt addTo table HQ HR att (arr att) Hc Ha (joinFn att)); [exact Hr|]. apply HV; [exact Hr|]. apply (cond_key s); [exact Hs|]. rewrite Hreq. apply in_app_iff. left. apply in_map_iff. eauto. }
    assert (Hempty : In (mkReq att dflt CatEmptyItem None false) (hidden dflt (clauseOf s)) -> (V r (mkReq att dflt CatEmptyItem None false) <> None <-> arr att r = Some [])).
    { intro Hin. apply (shows_empty compareFn HK cmp qsort dflt addTo table HQ HR att (arr att) Hc Ha (joinFn att)); [exact Hr|]. apply HV; [exact Hr|]. apply (cond_key s); [exact Hs|]. rewrite Hreq. apply in_app_iff. right. exact Hin. }
    assert (Hall : In (mkReq att dflt CatEmptyQuery None true) (hidden dflt (clauseOf s)) -> (V r (mkReq att dflt CatEmptyQuery None true) <> None <-> arr att r <> None)).
    { intro Hin. apply (shows_all compareFn HK cmp qsort dflt addTo table HQ HR att (arr att) Hc Ha (joinFn att)); [exact Hr|]. apply HV; [exact Hr|]. apply (cond_key s); [exact Hs|]. rewrite Hreq. apply in_app_iff. right. exact Hin. }
    assert (Hmode : modeOf (clauseOf s) = array_mode (ac_op s) (nelems (cmp att) qsort q)).
    { unfold modeOf. cbn [cl_mode arrayClause]. fold att q. destruct (ac_op s); cbn; try reflexivity; destruct (0 <? _); reflexivity. }
    assert (Hnq : 0 < nelems (cmp att) qsort q <-> q <> []).
    { split; [intros H E; rewrite E in H; discriminate H|]. intro H. pose proof (nelems_pos (cmp att) OK qsort HQ q H). lia. }
    unfold holds, array_holds. fold att q. rewrite Hvals. set (rq := requests dflt (clauseOf s)) in *. clearbody rq. cbn [cl_isnull cl_cons arrayClause]. unfold hidden in *. rewrite Hmode in *. cbn [cl_att arrayClause] in *. fold att in Hreq, Hempty, Hall.
    destruct (arr att r) as [a|] eqn:Ea.
    - assert (Hf : forall x, In x (elems (cmp att) qsort q) -> (ArraySpec.has (cmp att) a x /\ f x = Some (Some (int32_datum (nelems (cmp att) qsort a)))) \/ (~ ArraySpec.has (cmp att) a x /\ f x = None)).
      { intros x Hx. specialize (Hsh x Hx). unfold shown in Hsh. rewrite Ea in Hsh. exact Hsh. }
      pose proof (fun H => array_small att r a Hc Ha Hr Ea H) as Hsmall.
      assert (Hany : overlaps (cmp att) a q -> exists q0, In q0 rq /\ V r q0 <> None).
      { intros (x & H1 & H2). apply (has_elems (cmp att) OK qsort HQ) in H2 as (y & Hy & E). exists (keyReq att y). rewrite Hreq. split; [apply in_app_iff; left; apply in_map_iff; eauto|].
        change (f y <> None). destruct (Hf y Hy) as [[_ ->]|[Hn _]]; [discriminate|]. exfalso. apply Hn. exact (has_eq (cmp att) OK a x y E H1). }
      destruct (ac_op s) eqn:Eop; cbn [checked_again array_op array_mode] in *.
      + split.
        * intros _ (_ & _ & H). exists a. split; [reflexivity|]. exact (proj1 (overlap_answer (cmp att) OK qsort HQ f a q Hf) H).
        * intros (a' & E & H). injection E as <-. split; [reflexivity|]. split; [apply Hany; exact H|]. exact (proj2 (overlap_answer (cmp att) OK qsort HQ f a q Hf) H).
      + split.
        * intros _ (_ & _ & H). exists a. split; [reflexivity|]. exact (proj1 (contains_answer (cmp att) OK qsort HQ f a q Hf) H).
        * intros (a' & E & H). injection E as <-. split; [reflexivity|]. split; [|exact (proj2 (contains_answer (cmp att) OK qsort HQ f a q Hf) H)].
          destruct (Z.ltb_spec 0 (nelems (cmp att) qsort q)) as [P|P].
          -- apply Hany. assert (Hq : q <> []) by (apply Hnq; exact P). destruct q as [|x q']; [contradiction|]. exists x. split; [apply H; left; reflexivity|]. apply (has_in (cmp att) OK). left. reflexivity.
          -- exists (mkReq att dflt CatEmptyQuery None true). rewrite Hreq. split; [apply in_app_iff; right; left; reflexivity|]. apply Hall; [left; reflexivity|discriminate].
      + split; [discriminate|]. intros (a' & E & H). injection E as <-. split; [reflexivity|]. split; [|exact (contained_answer (cmp att) OK qsort HQ f a q Hsmall Hf H)].
        destruct a as [|x a']; [exists (mkReq att dflt CatEmptyItem None false); rewrite Hreq; split; [apply in_app_iff; right; left; reflexivity|apply Hempty; [left; reflexivity|reflexivity]]|].
        apply Hany. exists x. split; [apply (has_in (cmp att) OK); left; reflexivity|apply H; left; reflexivity].
      + split; [discriminate|]. intros (a' & E & H). injection E as <-. split; [reflexivity|]. split; [|exact (equal_answer (cmp att) OK qsort HQ f a q Hsmall Hf H)].
        inversion H as [E1 E2|x y a' q' E1 H' E2 E3].
        * rewrite <- E2 in *. cbn in Hreq, Hempty. exists (mkReq att dflt CatEmptyItem None false). rewrite Hreq. split; [left; reflexivity|]. apply Hempty; [left; reflexivity|]. rewrite <- E1. reflexivity.
        * apply Hany. rewrite <- E2, <- E3. exists x. split; [apply (has_in (cmp att) OK); left; reflexivity|]. exists y. split; [left; reflexivity|exact E1].
      + specialize (Hthr s Hs Eop). split.
        * intros _ (_ & _ & H). exists a. split; [reflexivity|]. exact (proj1 (similar_answer (cmp att) OK qsort HQ f a q Hsmall Hf t thr Hthr) H).
        * intros (a' & E & H). injection E as <-. split; [reflexivity|]. pose proof (proj2 (similar_answer (cmp att) OK qsort HQ f a q Hsmall Hf t thr Hthr) H) as H1. split; [|exact H1].
          apply Hany. cbn [anyarray_consistent fst] in H1. destruct (Z.ltb_spec 0 (checks (map f (elems (cmp att) qsort q)))) as [P|]; [|discriminate].
          destruct (existsb isSet (map f (elems (cmp att) qsort q))) eqn:Ex; [exact (proj1 (overlap_answer (cmp att) OK qsort HQ f a q Hf) Ex)|]. exfalso. unfold checks in P.
          destruct (filter isSet (map f (elems (cmp att) qsort q))) as [|o l] eqn:El; [cbn in P; lia|]. assert (Ho : In o (o :: l)) by (left; reflexivity). rewrite <- El in Ho. apply filter_In in Ho.
          assert (existsb isSet (map f (elems (cmp att) qsort q)) = true) by (apply existsb_exists; exists o; exact Ho). congruence.
    - assert (Hnone : forall q0, In q0 rq -> V r q0 = None).
      { intros q0 Hq. rewrite Hreq in Hq. apply in_app_iff in Hq as [Hq|Hq].
        - apply in_map_iff in Hq as (x & <- & Hx). specialize (Hsh x Hx). unfold shown in Hsh. rewrite Ea in Hsh. exact Hsh.
        - clear - Hq Hempty Hall. revert Hq Hempty Hall. destruct (_ =? 1); [|destruct (_ =? 2)]; intros Hq Hempty Hall; [| |destruct Hq]; destruct Hq as [<-|[]].
          + clear Hall. destruct (V r _) eqn:E; [|reflexivity]. specialize (Hempty (or_introl eq_refl)). destruct Hempty as [H _]. discriminate H. discriminate.
          + clear Hempty. destruct (V r _) eqn:E; [|reflexivity]. specialize (Hall (or_introl eq_refl)). destruct Hall as [H _]. exfalso. apply H; [discriminate|reflexivity]. }
      split.
      + intros _ (_ & (q0 & Hq & H) & _). rewrite (Hnone q0 Hq) in H. contradiction.
      + intros (a & E & _). discriminate E.
  Qed.
End Query.

Lemma nokey_spec {K} cmp qsort t thr (s : acond K) : (exists V r, array_holds (K := K) cmp t thr V r s) -> total_cmp (cmp (ac_att s)) -> sorter qsort -> noKey (arrayClause cmp qsort t thr s) = false.
Proof.
  intros (arr & r & a & Ea & H) OK HQ. unfold noKey. cbn [cl_isnull arrayClause orb cl_vals]. unfold arrayVals. rewrite map_length. unfold modeOf. cbn [cl_mode arrayClause].
  destruct (elems (cmp (ac_att s)) qsort (ac_arr s)) as [|x l] eqn:E; [|cbn [length Nat.eqb]; apply andb_false_r]. unfold nelems. rewrite E. apply (proj1 (elems_nil _ OK qsort HQ _)) in E. rewrite E in H.
  destruct (ac_op s); cbn [array_op] in H; try reflexivity; exfalso.
  - destruct H as (x & _ & (y & [] & _)).
  - destruct H as (_ & H & _). contradiction.
Qed.
Theorem array_query (K : Type) (compareFn : N -> K -> K -> Z) altOf attrOf cmpA rawSize (dflt : K) useAlt addTo built history ix :
  table_index compareFn altOf attrOf cmpA rawSize dflt useAlt addTo built history ix ->
  let table := rows_now built history in
  forall attach curKeyOrdering tuplesort junk joinFn canPre estimate sortEnts visit iterate tbmMax,
  sorter tuplesort -> junk_harmless compareFn history ix junk -> (forall f a, joinFn addTo = Some f -> f a a = a) -> sorts_entries useAlt addTo cmpA sortEnts ->
  forall (cmp : N -> K -> K -> Z) qsort (arr : N -> @hrow K datum -> option (list K)) t thr, sorter qsort ->
  forall conds, conds <> [] ->
  (forall s, In s conds -> array_column compareFn cmp qsort dflt table (ac_att s) (arr (ac_att s)) /\ ac_att s <> addTo /\ canPre (ac_att s) = false) ->
  (forall s, In s conds -> ac_op s = ASimilar -> SFltb fzero thr = true) ->
  exists out,
    queryScan dflt addTo attach curKeyOrdering compareFn useAlt cmpA tuplesort junk joinFn canPre estimate sortEnts visit iterate tbmMax ix
      (map (arrayClause cmp qsort t thr) conds) [] = Some out /\
    NoDup (map fst out) /\
    (forall p, In p (map fst out) -> exists r, In r table /\ r_tid r = p) /\
    (forall r, In r table -> (forall s, In s conds -> array_holds cmp t thr arr r s) -> In (r_tid r) (map fst out)) /\
    (forall r re, In r table -> In (r_tid r, re) out ->
       (re = true <-> exists s, In s conds /\ checked_again (ac_op s) = true) /\
       forall s, In s conds -> checked_again (ac_op s) = false -> array_holds cmp t thr arr r s).
Proof.
  intros Hti table attach curKeyOrdering tuplesort junk joinFn canPre estimate sortEnts visit iterate tbmMax Ht HJ Hid Hse cmp qsort arr t thr HQ conds Hne HC Hthr.
  pose proof (proj1 (ti_columns _ _ _ _ _ _ _ _ _ _ _ Hti)) as HK. pose proof (now_rows _ _ _ _ _ _ _ _ _ _ _ Hti) as HR. fold table in HR.
  assert (HO : forall o, In o (@nil (N * list K)) -> array_column compareFn cmp qsort dflt table (fst o) (arr (fst o)) /\ fst o <> addTo /\ fst o <> attach /\ curKeyOrdering (fst o) = false) by (intros o []).
  pose proof (array_covered compareFn cmp qsort dflt addTo attach (rows_now built history) arr t thr curKeyOrdering canPre useAlt conds [] Hne HC HO Hthr (ever built history)) as Hcov. cbn [map] in Hcov.
  destruct (query_table K compareFn altOf attrOf cmpA rawSize dflt useAlt addTo built history ix Hti attach curKeyOrdering tuplesort junk joinFn canPre estimate sortEnts visit iterate tbmMax Ht HJ Hid Hse (map (arrayClause cmp qsort t thr) conds) [] Hcov)
    as (V & out & Hq & HV & Hnd & Hp & Hre). fold table in HV, Hp, Hre.
  assert (Htid : forall r r', In r table -> In r' table -> r_tid r' = r_tid r -> r' = r).
  { intros r r' Hr Hr' E. eapply NoDup_map_eq; [exact (now_tids _ _ _ _ _ _ _ _ _ _ _ Hti)|exact Hr'|exact Hr|exact E]. }
  assert (Hhold : existsb noKey (map (arrayClause cmp qsort t thr) conds) = false -> forall r s, In s conds -> In r table ->
    (checked_again (ac_op s) = false -> holds dflt (V r) (arrayClause cmp qsort t thr s) -> array_holds cmp t thr arr r s) /\ (array_holds cmp t thr arr r s -> holds dflt (V r) (arrayClause cmp qsort t thr s))).
  { intros Hk r s Hs Hr. exact (holds_array compareFn HK cmp qsort dflt addTo attach table HQ HR arr t thr curKeyOrdering canPre conds [] Hne HC Hthr joinFn V (HV Hk) r s Hs Hr). }
  assert (Hsat : forall r s, satisfies dflt addTo attach (V r) (map (arrayClause cmp qsort t thr) conds) r (arrayClause cmp qsort t thr s) <-> holds dflt (V r) (arrayClause cmp qsort t thr s)).
  { intros r s. exact (sat_holds compareFn cmp qsort dflt addTo attach table arr t thr canPre conds HC (V r) r s). }
  assert (Hkey : forall r, In r table -> (forall s, In s conds -> holds dflt (V r) (arrayClause cmp qsort t thr s)) -> existsb noKey (map (arrayClause cmp qsort t thr) conds) = false).
  { intros r Hr Hh. destruct (existsb noKey _) eqn:E; [|reflexivity]. exfalso. apply existsb_exists in E as (c & Hc & E). apply in_map_iff in Hc as (s & <- & Hs). destruct (Hh s Hs) as (_ & (q & Hq' & _) & _).
    unfold noKey in E. cbn [cl_isnull arrayClause orb] in E. apply andb_true_iff in E as [E1 E2]. apply Nat.eqb_eq, length_zero_iff_nil in E2. apply Z.eqb_eq in E1. unfold requests, hidden in Hq'. rewrite E1, E2 in Hq'. destruct Hq'. }
  exists out. split; [exact Hq|]. split; [exact Hnd|]. split; [|split].
  - intros p H. apply Hp in H as (r & Hr & E & _). eauto.
  - intros r Hr Hh. apply Hp. exists r. split; [exact Hr|]. split; [reflexivity|]. intros c Hc. apply in_map_iff in Hc as (s & <- & Hs). apply Hsat.
    apply Hhold; [|exact Hs|exact Hr|exact (Hh s Hs)]. destruct (existsb noKey _) eqn:E; [|reflexivity]. exfalso. apply existsb_exists in E as (c & Hc & E). apply in_map_iff in Hc as (s' & <- & Hs').
    rewrite nokey_spec in E; [discriminate|exists arr, r; exact (Hh s' Hs')| |exact HQ]. destruct (HC s' Hs') as ((_ & OK & _) & _). exact OK.
  - intros r re Hr Hin. assert (Hh : forall s, In s conds -> holds dflt (V r) (arrayClause cmp qsort t thr s)).
    { assert (Hin' : In (r_tid r) (map fst out)) by (apply in_map_iff; exists (r_tid r, re); auto). apply Hp in Hin' as (r' & Hr' & E & H). apply (Htid r r' Hr Hr') in E. subst r'.
      intros s Hs. apply Hsat. apply H. apply in_map. exact Hs. }
    split; [|intros s Hs Ho; apply (Hhold (Hkey r Hr Hh) r s Hs Hr); [exact Ho|apply Hh; exact Hs]].
    rewrite (Hre r re Hr Hin). split.
    + intros (c & Hc & _ & E). apply in_map_iff in Hc as (s & <- & Hs). exists s. split; [exact Hs|]. cbn [cl_cons arrayClause] in E. destruct (ac_op s); cbn in E |- *; congruence.
    + intros (s & Hs & E). exists (arrayClause cmp qsort t thr s). split; [apply in_map; exact Hs|]. split.
      * rewrite (no_addto compareFn cmp qsort dflt addTo table arr t thr canPre conds HC). apply andb_false_r.
      * cbn [cl_cons arrayClause]. destruct (ac_op s); cbn in E |- *; congruence.
Qed.
Theorem array_order (K : Type) (compareFn : N -> K -> K -> Z) altOf attrOf cmpA rawSize (dflt : K) useAlt addTo built history ix :
  table_index compareFn altOf attrOf cmpA rawSize dflt useAlt addTo built history ix ->
  let table := rows_now built history in
  forall attach curKeyOrdering tuplesort junk joinFn canPre estimate sortEnts visit iterate tbmMax dcmp sortItems,
  sorter tuplesort -> junk_harmless compareFn history ix junk -> (forall f a, joinFn addTo = Some f -> f a a = a) -> sorts_entries useAlt addTo cmpA sortEnts ->
  total_cmp dcmp -> sorts_items sortItems ->
  forall (cmp : N -> K -> K -> Z) qsort (arr : N -> @hrow K datum -> option (list K)) t thr, sorter qsort ->
  forall conds orders, conds <> [] ->
  (forall s, In s conds -> array_column compareFn cmp qsort dflt table (ac_att s) (arr (ac_att s)) /\ ac_att s <> addTo /\ canPre (ac_att s) = false) ->
  (forall o, In o orders -> array_column compareFn cmp qsort dflt table (fst o) (arr (fst o)) /\ fst o <> addTo /\ fst o <> attach /\ curKeyOrdering (fst o) = false /\ snd o <> []) ->
  (forall s, In s conds -> ac_op s = ASimilar -> SFltb fzero thr = true) ->
  exists out,
    orderedScan dcmp finf dflt addTo attach curKeyOrdering compareFn useAlt cmpA tuplesort junk joinFn canPre estimate sortEnts visit iterate tbmMax sortItems ix
      (map (arrayClause cmp qsort t thr) conds) (map (fun o => arrayOrdering cmp qsort t (fst o) (snd o)) orders) = Some out /\
    NoDup (map (fun s => fst (fst s)) out) /\
    (forall p, In p (map (fun s => fst (fst s)) out) -> exists r, In r table /\ r_tid r = p) /\
    (forall r, In r table -> (forall s, In s conds -> array_holds cmp t thr arr r s) -> In (r_tid r) (map (fun s => fst (fst s)) out)) /\
    StronglySorted (fun a b => lex_le dcmp (snd a) (snd b)) out /\
    (forall r re ds, In r table -> In (r_tid r, re, ds) out ->
       (re = true <-> exists s, In s conds /\ checked_again (ac_op s) = true) /\
       (forall s, In s conds -> checked_again (ac_op s) = false -> array_holds cmp t thr arr r s) /\
       (re = false -> Forall2 (fun o d => match arr (fst o) r with Some a => far (cmp (fst o)) t a (snd o) d | None => d = finf end) orders ds)).
Proof.
  intros Hti table attach curKeyOrdering tuplesort junk joinFn canPre estimate sortEnts visit iterate tbmMax dcmp sortItems Ht HJ Hid Hse Hdt Hsi cmp qsort arr t thr HQ conds orders Hne HC HO' Hthr.
  pose proof (proj1 (ti_columns _ _ _ _ _ _ _ _ _ _ _ Hti)) as HK. pose proof (now_rows _ _ _ _ _ _ _ _ _ _ _ Hti) as HR. fold table in HR.
  assert (HO : forall o, In o orders -> array_column compareFn cmp qsort dflt table (fst o) (arr (fst o)) /\ fst o <> addTo /\ fst o <> attach /\ curKeyOrdering (fst o) = false) by (intros o Ho; destruct (HO' o Ho) as (H1 & H2 & H3 & H4 & _); auto).
  assert (Eoc : map od_clause (map (fun o => arrayOrdering cmp qsort t (fst o) (snd o)) orders) = map (fun o => arrayOrderClause cmp qsort (fst o) (snd o)) orders) by (rewrite map_map; reflexivity).
  pose proof (array_covered compareFn cmp qsort dflt addTo attach (rows_now built history) arr t thr curKeyOrdering canPre useAlt conds orders Hne HC HO Hthr (ever built history)) as Hcov. rewrite <- Eoc in Hcov.
  assert (Hlive : forall o, In o orders -> noKey (arrayOrderClause cmp qsort (fst o) (snd o)) = false).
  { intros o Ho. destruct (HO' o Ho) as ((_ & OK & _) & _ & _ & _ & Hn). unfold noKey. cbn [cl_isnull arrayOrderClause orb cl_vals]. unfold arrayVals. rewrite map_length.
    destruct (elems (cmp (fst o)) qsort (snd o)) eqn:E; [apply (proj1 (elems_nil _ OK qsort HQ _)) in E; contradiction|]. apply andb_false_r. }
  assert (Hlives : lives (map (fun o => arrayOrdering cmp qsort t (fst o) (snd o)) orders) = map (fun o => arrayOrdering cmp qsort t (fst o) (snd o)) orders).
  { unfold lives. apply filter_all. intros x Hx. apply in_map_iff in Hx as (o & <- & Ho). cbn [od_clause arrayOrdering]. rewrite (Hlive o Ho). reflexivity. }
  assert (Hoc : orders_covered compareFn dflt addTo attach curKeyOrdering table (map (arrayClause cmp qsort t thr) conds) (map (fun o => arrayOrdering cmp qsort t (fst o) (snd o)) orders)).
  { assert (A : forall o, In o (lives (map (fun o => arrayOrdering cmp qsort t (fst o) (snd o)) orders)) -> cl_att (od_clause o) <> attach /\ curKeyOrdering (cl_att (od_clause o)) = false).
    { intros x Hx. rewrite Hlives in Hx. apply in_map_iff in Hx as (o & <- & Ho). destruct (HO o Ho) as (_ & _ & H1 & H2). auto. }
    split.
    - intros o Ho E. destruct (A o Ho). contradiction.
    - intros o o' Ho _ E. destruct (A o Ho). contradiction.
    - intros o Ho _ E. destruct (A o Ho) as [_ H]. rewrite H in E. discriminate E.
    - intros o o' Ho _ _ E. destruct (A o Ho) as [_ H]. rewrite H in E. discriminate E. }
  destruct (order_table K float8 compareFn altOf attrOf cmpA rawSize dflt useAlt addTo built history ix Hti attach curKeyOrdering tuplesort junk joinFn canPre estimate sortEnts visit iterate tbmMax dcmp finf sortItems Ht HJ Hid Hse Hdt Hsi
    (map (arrayClause cmp qsort t thr) conds) (map (fun o => arrayOrdering cmp qsort t (fst o) (snd o)) orders) Hcov Hoc) as (V & out & Hq & HV & Hnd & Hp & Hso & Hre). fold table in HV, Hp, Hre. rewrite Eoc in HV.
  assert (Htid : forall r r', In r table -> In r' table -> r_tid r' = r_tid r -> r' = r).
  { intros r r' Hr Hr' E. eapply NoDup_map_eq; [exact (now_tids _ _ _ _ _ _ _ _ _ _ _ Hti)|exact Hr'|exact Hr|exact E]. }
  assert (Hhold : existsb noKey (map (arrayClause cmp qsort t thr) conds) = false -> forall r s, In s conds -> In r table ->
    (checked_again (ac_op s) = false -> holds dflt (V r) (arrayClause cmp qsort t thr s) -> array_holds cmp t thr arr r s) /\ (array_holds cmp t thr arr r s -> holds dflt (V r) (arrayClause cmp qsort t thr s))).
  { intros Hk r s Hs Hr. exact (holds_array compareFn HK cmp qsort dflt addTo attach table HQ HR arr t thr curKeyOrdering canPre conds orders Hne HC Hthr joinFn V (HV Hk) r s Hs Hr). }
  assert (Hsat : forall r s, satisfies dflt addTo attach (V r) (map (arrayClause cmp qsort t thr) conds) r (arrayClause cmp qsort t thr s) <-> holds dflt (V r) (arrayClause cmp qsort t thr s)).
  { intros r s. exact (sat_holds compareFn cmp qsort dflt addTo attach table arr t thr canPre conds HC (V r) r s). }
  assert (Hkey : forall r, In r table -> (forall s, In s conds -> holds dflt (V r) (arrayClause cmp qsort t thr s)) -> existsb noKey (map (arrayClause cmp qsort t thr) conds) = false).
  { intros r Hr Hh. destruct (existsb noKey _) eqn:E; [|reflexivity]. exfalso. apply existsb_exists in E as (c & Hc & E). apply in_map_iff in Hc as (s & <- & Hs). destruct (Hh s Hs) as (_ & (q & Hq' & _) & _).
    unfold noKey in E. cbn [cl_isnull arrayClause orb] in E. apply andb_true_iff in E as [E1 E2]. apply Nat.eqb_eq, length_zero_iff_nil in E2. apply Z.eqb_eq in E1. unfold requests, hidden in Hq'. rewrite E1, E2 in Hq'. destruct Hq'. }
  exists out. split; [exact Hq|]. split; [exact Hnd|]. split; [|split; [|split; [exact Hso|]]].
  - intros p H. apply Hp in H as (r & Hr & E & _). eauto.
  - intros r Hr Hh. apply Hp. exists r. split; [exact Hr|]. split; [reflexivity|]. intros c Hc. apply in_map_iff in Hc as (s & <- & Hs). apply Hsat.
    apply Hhold; [|exact Hs|exact Hr|exact (Hh s Hs)]. destruct (existsb noKey _) eqn:E; [|reflexivity]. exfalso. apply existsb_exists in E as (c & Hc & E). apply in_map_iff in Hc as (s' & <- & Hs').
    rewrite nokey_spec in E; [discriminate|exists arr, r; exact (Hh s' Hs')| |exact HQ]. destruct (HC s' Hs') as ((_ & OK & _) & _). exact OK.
  - intros r re ds Hr Hin. assert (Hh : forall s, In s conds -> holds dflt (V r) (arrayClause cmp qsort t thr s)).
    { assert (Hin' : In (r_tid r) (map (fun s => fst (fst s)) out)) by (apply in_map_iff; exists (r_tid r, re, ds); auto). apply Hp in Hin' as (r' & Hr' & E & H). apply (Htid r r' Hr Hr') in E. subst r'.
      intros s Hs. apply Hsat. apply H. apply in_map. exact Hs. }
    pose proof (Hkey r Hr Hh) as Hk. destruct (Hre r re ds Hr Hin) as [Hre1 Hre2]. split; [|split].
    + rewrite Hre1. split.
      * intros (c & Hc & _ & E). apply in_map_iff in Hc as (s & <- & Hs). exists s. split; [exact Hs|]. cbn [cl_cons arrayClause] in E. destruct (ac_op s); cbn in E |- *; congruence.
      * intros (s & Hs & E). exists (arrayClause cmp qsort t thr s). split; [apply in_map; exact Hs|]. split.
        -- rewrite (no_addto compareFn cmp qsort dflt addTo table arr t thr canPre conds HC). apply andb_false_r.
        -- cbn [cl_cons arrayClause]. destruct (ac_op s); cbn in E |- *; congruence.
    + intros s Hs Ho; apply (Hhold Hk r s Hs Hr); [exact Ho|apply Hh; exact Hs].
    + intro Ef. rewrite Hlives in Hre2.
      assert (Hkeys : forall o q, In o orders -> In q (requests dflt (arrayOrderClause cmp qsort (fst o) (snd o))) ->
        In q (query_keys dflt addTo attach curKeyOrdering (map (arrayClause cmp qsort t thr) conds) (map (fun o => arrayOrderClause cmp qsort (fst o) (snd o)) orders))).
      { intros o q Ho Hq'. unfold query_keys. apply in_app_iff. right. apply in_flat_map. exists (arrayOrderClause cmp qsort (fst o) (snd o)). split.
        - apply filter_In. split; [apply (in_map (fun o => arrayOrderClause cmp qsort (fst o) (snd o)) orders o Ho)|]. rewrite (Hlive o Ho). reflexivity.
        - destruct (HO o Ho) as (_ & _ & H1 & H2). unfold bare. cbn [cl_att arrayOrderClause]. rewrite H2. destruct (N.eqb_spec (fst o) attach); [contradiction|exact Hq']. }
      assert (G : forall os ds, (forall o, In o os -> In o orders) -> Forall2 (fun (o : ordering K float8) d => (keyed attach curKeyOrdering o = true -> re = false) -> distance_of finf addTo attach curKeyOrdering (V r) r o d) (map (fun o => arrayOrdering cmp qsort t (fst o) (snd o)) os) ds ->
        Forall2 (fun o d => match arr (fst o) r with Some a => far (cmp (fst o)) t a (snd o) d | None => d = finf end) os ds); [|exact (G orders ds (fun _ h => h) Hre2)].
      clear Hre2 Hin ds. induction os as [|o os IH]; intros ds Hsub H; cbn [map] in H; inversion H as [|x d l l' H1 H2]; subst; constructor; [|apply IH; [intros o' Ho'; apply Hsub; right; exact Ho'|exact H2]].
      clear IH H H2. assert (Ho : In o orders) by (apply Hsub; left; reflexivity). specialize (H1 (fun _ => eq_refl)). destruct (HO o Ho) as (Hc & Ha & Hna & Hcur).
      unfold distance_of in H1. cbn [od_clause arrayOrdering cl_att arrayOrderClause cl_vals od_fn] in H1. rewrite Hcur in H1. destruct (N.eqb_spec (fst o) attach) as [|_]; [contradiction|].
      rewrite H1. clear H1. set (att := fst o) in *. set (q := snd o) in *. pose proof (ecmp_ok compareFn cmp qsort dflt table att (arr att) Hc) as OK.
      set (f := fun x => V r (mkReq att x CatNormKey None false)).
      assert (Hvals : map (fun v => V r (reqOf att v)) (arrayVals (cmp att) qsort q) = map f (elems (cmp att) qsort q)) by (unfold arrayVals; rewrite map_map; reflexivity). rewrite Hvals.
      assert (Hsh : forall x, In x (elems (cmp att) qsort q) -> shown cmp qsort att (arr att) (f x) r x).
      { intros x Hx. apply (shows_key compareFn HK cmp qsort dflt addTo table HQ HR att (arr att) Hc Ha (joinFn att)); [exact Hr|]. apply (HV Hk r (mkReq att x CatNormKey None false) Hr). apply (Hkeys o _ Ho).
        unfold requests. apply in_app_iff. left. cbn [cl_att cl_vals arrayOrderClause]. fold att q. unfold arrayVals. rewrite map_map. apply in_map_iff. exists x. split; [reflexivity|exact Hx]. }
      destruct (arr att r) as [a|] eqn:Ea.
      * apply ordering_answer; [exact OK|exact HQ| |].
        -- intro Hn. exact (array_small compareFn HK cmp qsort dflt addTo table HQ HR arr att r a Hc Ha Hr Ea Hn).
        -- intros x Hx. specialize (Hsh x Hx). unfold shown in Hsh. rewrite Ea in Hsh. exact Hsh.
      * unfold anyarray_ordering. replace (checks (map f (elems (cmp att) qsort q))) with 0; [reflexivity|]. symmetry. unfold checks. rewrite filter_none; [reflexivity|].
        intros x Hx. apply in_map_iff in Hx as (y & <- & Hy). specialize (Hsh y Hy). unfold shown in Hsh. rewrite Ea in Hsh. rewrite Hsh. reflexivity.
Qed.
