(** Proofs: from a stored tsquery to its answer for a document (C36). *)
From Coq Require Import NArith ZArith Lia Bool List Arith Permutation.
From Verif Require Import Base Codec Entries Array Inverted InvertedCodec InvertedSpec InvertedProof InvertedTree InvertedEval.
Import ListNotations.
Local Open Scope Z_scope.

Section Make.
  Context {K : Type}.
  Fixpoint qb (m : K -> bool) (q : tsquery K) : bool :=
    match q with
    | TVal x _ _ => m x
    | TNot q' => negb (qb m q')
    | TAnd l r => qb m l && qb m r
    | TOr l r => qb m l || qb m r
    | TPhrase _ _ _ => false
    end.
  Lemma qb_true (D : K -> N -> Prop) m q : plain q -> (forall x w, D x w <-> m x = true) -> (query_true D q <-> qb m q = true).
  Proof.
    intros Hp H. induction q as [x w p|q IH|l IHl r IHr|l IHl r IHr|d l IHl r IHr]; cbn [query_true qb] in *.
    - apply H.
    - rewrite (IH Hp), negb_true_iff. destruct (qb m q); split; congruence.
    - rewrite andb_true_iff, (IHl (proj1 Hp)), (IHr (proj2 Hp)). reflexivity.
    - rewrite orb_true_iff, (IHl (proj1 Hp)), (IHr (proj2 Hp)). reflexivity.
    - destruct Hp.
  Qed.
  Definition comb (m : K -> bool) (parent : option bool) (ws : list (wrap K)) : bool :=
    match parent with Some false => existsb (wtruth m) ws | _ => forallb (wtruth m) ws end.
  Fixpoint wops (w : wrap K) : nat := match w with WVal _ _ => 0%nat | WOp _ ops => S (fold_right (fun o a => wops o + a)%nat 0%nat ops) end.
  Fixpoint wleaves (w : wrap K) : nat := match w with WVal _ _ => 1%nat | WOp _ ops => fold_right (fun o a => wleaves o + a)%nat 0%nat ops end.
  Definition sumn (f : wrap K -> nat) (l : list (wrap K)) : nat := fold_right (fun o a => f o + a)%nat 0%nat l.
  Lemma sumn_app f a b : sumn f (a ++ b) = (sumn f a + sumn f b)%nat.
  Proof. unfold sumn. induction a as [|x a IH]; [reflexivity|]. cbn [app fold_right]. rewrite IH. lia. Qed.
  Definition wisOp (w : wrap K) : bool := match w with WVal _ _ => false | WOp _ _ => true end.
  Fixpoint wclean (w : wrap K) : Prop :=
    match w with WVal _ _ => True | WOp _ ops => fold_right (fun o P => (wisOp o = true -> wtruth (fun _ => false) o = false) /\ wclean o /\ P) True ops end.
  Definition clean_in (parent : option bool) (w : wrap K) : Prop := (parent <> None -> wisOp w = true -> wtruth (fun _ => false) w = false) /\ wclean w.
  Lemma wclean_op b ops : Forall (clean_in (Some b)) ops -> wclean (WOp b ops).
  Proof. cbn. induction 1 as [|o l [H1 H2] _ IH]; cbn; [exact I|]. split; [apply H1; discriminate|]. auto. Qed.
  Lemma make_spec q : plain q -> forall parent not, exists ws, make_query_item_wrap q parent not = Some ws /\ ws <> [] /\
    (parent = None -> exists w, ws = [w]) /\ (forall m, comb m parent ws = xorb not (qb m q)) /\
    sumn wops ws = operators q not parent /\ sumn wleaves ws = words q /\
    (needs_words q not parent -> Forall (clean_in parent) ws).
  Proof.
    induction q as [x w p|q IH|l IHl r IHr|l IHl r IHr|d l IHl r IHr]; intros Hp parent not.
    - cbn in Hp. subst p. exists [WVal x not]. cbn [make_query_item_wrap]. split; [reflexivity|]. split; [discriminate|]. split; [eauto|]. split.
      + intro m. unfold comb. destruct parent as [[]|]; cbn; rewrite ?andb_true_r, ?orb_false_r; reflexivity.
      + split; [reflexivity|]. split; [reflexivity|]. intros _. constructor; [|constructor]. split; [discriminate|exact I].
    - destruct (IH Hp parent (negb not)) as (ws & A & B & C & D & E & F & G). exists ws. cbn [make_query_item_wrap qb operators words needs_words]. repeat (split; [assumption|]). split; [|auto]. intro m. rewrite D. destruct not, (qb m q); reflexivity.
    - destruct Hp as [Hl Hr]. set (oper := negb not).
      assert (EO : (if not then negb true else true) = oper) by (unfold oper; destruct not; reflexivity).
      destruct (IHl Hl (Some oper) not) as (wl & A1 & A2 & _ & A4 & A5 & A6 & A7). destruct (IHr Hr (Some oper) not) as (wr & B1 & B2 & _ & B4 & B5 & B6 & B7).
      assert (TR : forall m, comb m (Some oper) (wl ++ wr) = xorb not (qb m (TAnd l r))).
      { intro m. specialize (A4 m). specialize (B4 m). unfold comb, oper in *. cbn [qb]. destruct not; cbn [negb] in *; [rewrite existsb_app, A4, B4|rewrite forallb_app, A4, B4]; destruct (qb m l), (qb m r); reflexivity. }
      assert (NW : forall (m : K -> bool), wtruth m (WOp oper (wl ++ wr)) = xorb not (qb m (TAnd l r))).
      { intro m. rewrite <- TR. unfold comb. cbn [wtruth]. destruct oper; reflexivity. }
      assert (OP : forall k, (k = if (match parent with Some o => Bool.eqb o oper | None => false end) then (operators l not (Some oper) + operators r not (Some oper))%nat else S (operators l not (Some oper) + operators r not (Some oper))) -> operators (TAnd l r) not parent = k).
      { intros k ->. cbn [operators]. fold oper. destruct parent as [o|]; [|reflexivity]. destruct (Bool.eqb o oper) eqn:E; [apply Bool.eqb_prop in E; subst o|]; reflexivity. }
      assert (Hfalse : plain (TAnd l r)) by (split; assumption).
      pose proof (qb_true (fun _ _ => False) (fun _ => false) (TAnd l r) Hfalse ltac:(intros; split; [tauto|discriminate])) as QF.
      destruct (match parent with Some o => Bool.eqb o oper | None => false end) eqn:EP.
      + destruct parent as [o|]; [|discriminate]. apply Bool.eqb_prop in EP. subst o. exists (wl ++ wr). cbn [make_query_item_wrap]. rewrite EO, Bool.eqb_reflx, A1, B1. split; [reflexivity|].
        split; [intro E; apply app_eq_nil in E as [E _]; contradiction|]. split; [discriminate|]. split; [exact TR|]. split; [rewrite sumn_app, A5, B5; symmetry; apply OP; reflexivity|]. split; [rewrite sumn_app, A6, B6; reflexivity|].
        intros (_ & N1 & N2). fold oper in N1, N2. apply Forall_app. auto.
      + exists [WOp oper (wl ++ wr)]. cbn [make_query_item_wrap]. rewrite EO. split.
        { destruct parent as [o|]; [|rewrite A1, B1; reflexivity]. replace (Bool.eqb oper o) with false by (destruct oper, o; cbn in *; congruence). rewrite A1, B1. reflexivity. }
        split; [discriminate|]. split; [eauto|]. split; [intro m; rewrite <- NW; unfold comb; cbn [existsb forallb]; rewrite orb_false_r, andb_true_r; destruct parent as [[]|]; reflexivity|].
        split; [rewrite (OP _ eq_refl); unfold sumn; cbn [fold_right wops]; fold (sumn wops (wl ++ wr)); rewrite sumn_app, A5, B5; lia|].
        split; [unfold sumn; cbn [fold_right wleaves]; fold (sumn wleaves (wl ++ wr)); rewrite sumn_app, A6, B6; cbn [words]; lia|].
        intros (N0 & N1 & N2). fold oper in N0, N1, N2. constructor; [|constructor]. split; [|apply wclean_op, Forall_app; auto]. intros Hpar _. rewrite NW.
        destruct N0 as [N0|[N0|N0]]; [contradiction|subst parent; cbn in EP; rewrite Bool.eqb_reflx in EP; discriminate|]. destruct not; cbn [query_true] in N0; destruct (qb (fun _ => false) (TAnd l r)); cbn; try reflexivity; exfalso; apply N0; cbn [query_true] in QF; [intro Q; apply QF in Q; discriminate|apply QF; reflexivity].
    - destruct Hp as [Hl Hr]. pose (oper := not).
      assert (EO : (if not then negb false else false) = oper) by (unfold oper; destruct not; reflexivity).
      destruct (IHl Hl (Some oper) not) as (wl & A1 & A2 & _ & A4 & A5 & A6 & A7). destruct (IHr Hr (Some oper) not) as (wr & B1 & B2 & _ & B4 & B5 & B6 & B7).
      assert (TR : forall m, comb m (Some oper) (wl ++ wr) = xorb not (qb m (TOr l r))).
      { intro m. specialize (A4 m). specialize (B4 m). unfold comb, oper in *. cbn [qb]. destruct not; cbn [negb] in *; [rewrite forallb_app, A4, B4|rewrite existsb_app, A4, B4]; destruct (qb m l), (qb m r); reflexivity. }
      assert (NW : forall (m : K -> bool), wtruth m (WOp oper (wl ++ wr)) = xorb not (qb m (TOr l r))).
      { intro m. rewrite <- TR. unfold comb. cbn [wtruth]. destruct oper; reflexivity. }
      assert (OP : forall k, (k = if (match parent with Some o => Bool.eqb o oper | None => false end) then (operators l not (Some oper) + operators r not (Some oper))%nat else S (operators l not (Some oper) + operators r not (Some oper))) -> operators (TOr l r) not parent = k).
      { intros k ->. cbn [operators]. fold oper. destruct parent as [o|]; [|reflexivity]. destruct (Bool.eqb o oper) eqn:E; [apply Bool.eqb_prop in E; subst o|]; reflexivity. }
      assert (Hfalse : plain (TOr l r)) by (split; assumption).
      pose proof (qb_true (fun _ _ => False) (fun _ => false) (TOr l r) Hfalse ltac:(intros; split; [tauto|discriminate])) as QF.
      destruct (match parent with Some o => Bool.eqb o oper | None => false end) eqn:EP.
      + destruct parent as [o|]; [|discriminate]. apply Bool.eqb_prop in EP. subst o. exists (wl ++ wr). cbn [make_query_item_wrap]. rewrite EO, Bool.eqb_reflx, A1, B1. split; [reflexivity|].
        split; [intro E; apply app_eq_nil in E as [E _]; contradiction|]. split; [discriminate|]. split; [exact TR|]. split; [rewrite sumn_app, A5, B5; symmetry; apply OP; reflexivity|]. split; [rewrite sumn_app, A6, B6; reflexivity|].
        intros (_ & N1 & N2). fold oper in N1, N2. apply Forall_app. auto.
      + exists [WOp oper (wl ++ wr)]. cbn [make_query_item_wrap]. rewrite EO. split.
        { destruct parent as [o|]; [|rewrite A1, B1; reflexivity]. replace (Bool.eqb oper o) with false by (destruct oper, o; cbn in *; congruence). rewrite A1, B1. reflexivity. }
        split; [discriminate|]. split; [eauto|]. split; [intro m; rewrite <- NW; unfold comb; cbn [existsb forallb]; rewrite orb_false_r, andb_true_r; destruct parent as [[]|]; reflexivity|].
        split; [rewrite (OP _ eq_refl); unfold sumn; cbn [fold_right wops]; fold (sumn wops (wl ++ wr)); rewrite sumn_app, A5, B5; lia|].
        split; [unfold sumn; cbn [fold_right wleaves]; fold (sumn wleaves (wl ++ wr)); rewrite sumn_app, A6, B6; cbn [words]; lia|].
        intros (N0 & N1 & N2). fold oper in N0, N1, N2. constructor; [|constructor]. split; [|apply wclean_op, Forall_app; auto]. intros Hpar _. rewrite NW.
        destruct N0 as [N0|[N0|N0]]; [contradiction|subst parent; cbn in EP; rewrite Bool.eqb_reflx in EP; discriminate|]. destruct not; cbn [query_true] in N0; destruct (qb (fun _ => false) (TOr l r)); cbn; try reflexivity; exfalso; apply N0; cbn [query_true] in QF; [intro Q; apply QF in Q; discriminate|apply QF; reflexivity].
    - destruct Hp.
  Qed.
  Lemma make_plain (q : tsquery K) : forall parent not ws, make_query_item_wrap q parent not = Some ws -> plain q.
  Proof.
    induction q as [x w p|q IH|l IHl r IHr|l IHl r IHr|d l IHl r IHr]; intros parent not ws H; cbn [make_query_item_wrap plain] in *.
    - destruct p; [discriminate|reflexivity].
    - exact (IH _ _ _ H).
    - assert (A : exists p wl wr, make_query_item_wrap l p not = Some wl /\ make_query_item_wrap r p not = Some wr).
      { destruct parent as [o|]; [destruct (Bool.eqb _ o)|]; match type of H with match ?a with _ => _ end = _ => destruct a as [wl|] eqn:E1; [|discriminate]; match type of H with match ?b with _ => _ end = _ => destruct b as [wr|] eqn:E2; [|discriminate] end end; eauto. }
      destruct A as (p & wl & wr & E1 & E2). eauto.
    - assert (A : exists p wl wr, make_query_item_wrap l p not = Some wl /\ make_query_item_wrap r p not = Some wr).
      { destruct parent as [o|]; [destruct (Bool.eqb _ o)|]; match type of H with match ?a with _ => _ end = _ => destruct a as [wl|] eqn:E1; [|discriminate]; match type of H with match ?b with _ => _ end = _ => destruct b as [wr|] eqn:E2; [|discriminate] end end; eauto. }
      destruct A as (p & wl & wr & E1 & E2). eauto.
    - discriminate.
  Qed.
  Lemma unweighted_matches (doc : tsvector K) q : unweighted q -> (matches doc q <-> matches_words doc q).
  Proof.
    unfold matches, matches_words. induction q as [x w p|q IH|l IHl r IHr|l IHl r IHr|d l IHl r IHr]; cbn [unweighted query_true]; intro H.
    - subst w. unfold in_doc. split.
      + intros (ps & Hin & _). apply in_map_iff. exists (x, ps). auto.
      + intro Hin. apply in_map_iff in Hin as ([y ps] & <- & Hin). exists ps. auto.
    - rewrite (IH H). reflexivity.
    - rewrite (IHl (proj1 H)), (IHr (proj2 H)). reflexivity.
    - rewrite (IHl (proj1 H)), (IHr (proj2 H)). reflexivity.
    - reflexivity.
  Qed.
  (** Sizes after calc_wraps. *)
  Lemma width_wops c : N.to_nat (@width K c) = wops (erase c).
  Proof.
    induction c as [x b|k s b ops IH] using cwrap_ind'; [reflexivity|]. cbn [width erase wops]. rewrite N2Nat.inj_add. cbn [Nat.add]. change (N.to_nat 1) with 1%nat. cbn [Nat.add]. f_equal. induction IH as [|o l Ho _ IHl]; [reflexivity|]. cbn [fold_right map]. rewrite N2Nat.inj_add, Ho, IHl. reflexivity.
  Qed.
  Definition wsize (w : wrap K) : nat := (wops w + wleaves w)%nat.
  Lemma wsize_pos w : (1 <= wsize w)%nat.
  Proof. unfold wsize. destruct w as [x b|b ops]; cbn; lia. Qed.
  Lemma sumn_size l : (sumn wops l + sumn wleaves l = sumn wsize l)%nat.
  Proof. unfold sumn, wsize. induction l as [|a l IH]; [reflexivity|]. cbn [fold_right]. lia. Qed.
  Lemma sum_small m c : faithful c -> forall p r, In r (recs m c p) -> Z.abs (nr_sum r) <= 1 + Z.of_nat (wsize (erase c)).
  Proof.
    induction c as [x b|k s b ops IH] using cwrap_ind'; intros HF p r Hr; [destruct Hr|]. assert (SZ : wsize (erase (COp k s b ops)) = S (sumn wsize (map erase ops))).
    { rewrite <- sumn_size. reflexivity. }
    rewrite SZ. cbn [recs In] in Hr. destruct Hr as [<-|Hr].
    - cbn [nr_sum]. destruct HF as [-> _]. unfold cstart. assert (L1 : (length (filter cnot ops) <= length ops)%nat) by apply filter_le.
      assert (L2 : (length ops <= sumn wsize (map erase ops))%nat). { unfold sumn. clear. induction ops as [|o l IHl]; [cbn; lia|]. cbn [length map fold_right]. pose proof (wsize_pos (erase o)). lia. }
      destruct b; lia.
    - apply in_flat_map in Hr as (o & Ho & Hr). rewrite Forall_forall in IH. pose proof (IH o Ho (faithful_ops _ _ _ _ _ HF Ho) k r Hr) as B.
      assert (L : (wsize (erase o) <= sumn wsize (map erase ops))%nat). { unfold sumn. clear - Ho. induction ops as [|a l IHl]; [destruct Ho|]. cbn [map fold_right]. destruct Ho as [->|Ho]; [lia|specialize (IHl Ho); lia]. }
      lia.
  Qed.
  Lemma occs_leaves c : forall ups, length (@occs K c ups) = wleaves (erase c).
  Proof.
    induction c as [x b|k s b ops IH] using cwrap_ind'; intro ups; [reflexivity|]. cbn [occs erase wleaves]. induction IH as [|o l Ho _ IHl]; [reflexivity|]. cbn [flat_map map fold_right]. rewrite app_length, (Ho _), IHl. reflexivity.
  Qed.
  Lemma words_pos (q : tsquery K) : (1 <= words q)%nat.
  Proof. induction q; cbn; lia. Qed.
  Lemma clean_erase c : wclean (erase c) -> cclean c.
  Proof.
    induction c as [x b|k s b ops IH] using cwrap_ind'; intro H; [exact I|]. cbn [erase wclean cclean] in *. induction IH as [|o l Ho _ IHl]; [exact I|]. cbn [map fold_right] in *. destruct H as (H1 & H2 & H3). split; [|auto].
    intro Hop. rewrite ctruth_erase. apply H1. destruct o; [discriminate|reflexivity].
  Qed.
End Make.

(** ** A query of one word *)
Section Leaf.
  Context {K : Type}.
  Variable eqb : K -> K -> bool.
  Hypothesis Heq : forall x y, eqb x y = true <-> x = y.
  Lemma keys_none (v : list (option (option datum))) rest af nodes : Forall (fun o => o = None) v -> keys_loop (v ++ rest) af nodes = keys_loop rest af nodes.
  Proof. induction 1 as [|o v -> _ IH]; [reflexivity|exact IH]. Qed.
  Lemma leaf_split x b (xs : list K) v : NoDup xs -> Forall2 (word_shows eqb (CVal x b)) xs v ->
    (mx eqb xs x = false /\ Forall (fun o => o = None) v) \/
    (mx eqb xs x = true /\ exists v1 v2 form, v = v1 ++ Some (Some (DVar form (pathBytes b []))) :: v2 /\ Forall (fun o => o = None) v1 /\ Forall (fun o => o = None) v2).
  Proof.
    unfold mx. intros Hnd H. induction H as [|y o l v Ho _ IH]; [left; split; [reflexivity|constructor]|]. apply NoDup_cons_iff in Hnd as [Hy Hnd]. specialize (IH Hnd). cbn [existsb].
    unfold word_shows, of_word in Ho. cbn [occs filter fst] in Ho. destruct (eqb y x) eqn:E; cbn [orb].
    - right. split; [reflexivity|]. destruct Ho as (form & ->). exists [], v, form. cbn [flat_map occ_bytes fst snd]. unfold occ_bytes. cbn [fst snd]. rewrite app_nil_r. split; [reflexivity|]. split; [constructor|].
      destruct IH as [[_ IH]|[IH _]]; [exact IH|]. exfalso. apply existsb_exists in IH as (z & Hz & E2). apply Heq in E, E2. congruence.
    - subst o. destruct IH as [[I1 I2]|(I1 & v1 & v2 & form & -> & I2 & I3)]; [left; split; [exact I1|constructor; auto]|]. right. split; [exact I1|]. exists (None :: v1), v2, form. split; [reflexivity|]. split; [constructor; auto|exact I3].
  Qed.
  Lemma consist_leaf x b xs v nullv : NoDup xs -> Forall2 (word_shows eqb (CVal x b)) xs v -> isSet nullv = b -> tsvector_consistent (v ++ [nullv]) = Some (xorb b (mx eqb xs x)).
  Proof.
    intros Hnd H Hn. unfold tsvector_consistent. rewrite removelast_last, last_last, Hn. destruct (leaf_split x b xs v Hnd H) as [[-> Hv]|(-> & v1 & v2 & form & -> & H1 & H2)].
    - rewrite <- (app_nil_r v), (keys_none v [] _ _ Hv). destruct b; reflexivity.
    - rewrite (keys_none v1 _ _ _ H1). destruct b; [|reflexivity]. rewrite keys_loop_set by discriminate. change (path_loop _ _ None []) with (Some [mkNode 0 (-1) false]).
      rewrite <- (app_nil_r v2), (keys_none v2 [] _ _ H2). reflexivity.
  Qed.
End Leaf.

(** ** Any stored query *)
Section Stored.
  Context {K : Type}.
  Variable eqb : K -> K -> bool.
  Hypothesis Heq : forall x y, eqb x y = true <-> x = y.
  Variable dflt : K.
  Lemma stored q : plain q -> moderate q -> exists c,
    extract_tsquery eqb dflt q = Some (map (fun e => Entries.mkEntry (fst e) false (Some (DVar V4U (snd e)))) (extract_wraps eqb c [] []) ++
      (if check_allnegative c then [Entries.mkEntry dflt true None] else [])) /\ occs c [] <> [] /\
    forall xs v nullv, NoDup xs -> Forall2 (word_shows eqb c) xs v -> isSet nullv = check_allnegative c ->
      exists b, tsvector_consistent (v ++ [nullv]) = Some b /\ (b = true -> qb (mx eqb xs) q = true) /\ (needs_words q false None -> qb (mx eqb xs) q = true -> b = true).
  Proof.
    intros Hp [Hops Hwords]. destruct (make_spec q Hp None false) as (l & A & _ & C & D & E & F & G). destruct (C eq_refl) as (w & ->). destruct (calc_wraps w 1) as [c n'] eqn:EC. exists c. unfold extract_tsquery. rewrite A, EC. split; [reflexivity|].
    apply calc_spec in EC as (_ & Hnum & HF & He). split.
    { intro E0. pose proof (occs_leaves c []) as L. rewrite E0, He in L. unfold sumn in F. cbn [fold_right length] in F, L. pose proof (words_pos q). lia. }
    intros xs v nullv Hnd Hv Hnull.
    assert (TR : forall m, ctruth m c = qb m q). { intro m. rewrite ctruth_erase, He. specialize (D m). cbn in D. rewrite andb_true_r in D. rewrite D. destruct (qb m q); reflexivity. }
    destruct (isOp c) eqn:EO.
    - assert (Hw : (width c <= 256)%N). { pose proof (width_wops c) as W. rewrite He in W. unfold sumn in E. cbn [fold_right] in E. lia. }
      assert (Hs : forall r, In r (recs (fun _ => false) c 0) -> Z.abs (nr_sum r) < 2 ^ 29).
      { intros r Hr. pose proof (sum_small _ c HF 0%N r Hr) as B. rewrite He in B. unfold wsize in B. unfold sumn in E, F. cbn [fold_right] in E, F. change (2 ^ 29) with 536870912. change (2 ^ 28) with 268435456 in Hwords. lia. }
      rewrite (consist_op eqb Heq c Hnum EO Hw Hs xs Hnd v nullv Hv). eexists. split; [reflexivity|]. rewrite <- TR. destruct (touched (mx eqb xs) c) eqn:ET.
      + split; [apply ev_sound; exact HF|]. intros N H. apply ev_complete; auto. apply clean_erase. rewrite He. specialize (G N). inversion G as [|? ? [_ G1] _ EQ]. exact G1.
      + rewrite Hnull, (untouched_truth _ _ ET), allnegative_truth. auto.
    - destruct c as [x b|]; [|discriminate]. rewrite (consist_leaf eqb Heq x b xs v nullv Hnd Hv Hnull). eexists. split; [reflexivity|]. rewrite <- TR. cbn [ctruth]. auto.
  Qed.
End Stored.
