(** The first pass of vacuum: dead rows leave the leaves. *)
From Verif Require Import Ord BTree BTreeInv VacuumTree VacTreeInv.
From Coq Require Import List ZArith Bool Arith Lia.
Import ListNotations.

Lemma filter_length_eq {A} (f : A -> bool) l : length (filter f l) = length l -> filter f l = l.
Proof.
  induction l as [|a l IH]; [auto|]. cbn [filter]. destruct (f a); cbn [length]; intro H; [f_equal; apply IH; lia|].
  assert (length (filter f l) <= length l) by (clear; induction l as [|b l IH]; [cbn; lia|]; cbn [filter]; destruct (f b); cbn [length]; lia). lia.
Qed.
Lemma last_cons_app {A} (l l' : list A) d : last (l ++ l') d = last l' (last l d).
Proof.
  revert d. induction l as [|a l IH]; intro d; [reflexivity|]. cbn [app]. destruct (l ++ l') as [|b r] eqn:E.
  - apply app_eq_nil in E as [-> ->]. reflexivity.
  - change (last (a :: b :: r) d) with (last (b :: r) d). rewrite IH. destruct l as [|c l].
    + cbn [last]. cbn [app] in E. subst l'. clear. revert b. induction r as [|x r IHr]; intro b; [reflexivity|]. change (last (b :: x :: r) d) with (last (x :: r) d). change (last (b :: x :: r) a) with (last (x :: r) a). apply IHr.
    + change (last (a :: c :: l) d) with (last (c :: l) d). reflexivity.
Qed.

Section Clean.
  Context {T : Type}.
  Variable cmp : T -> T -> Z.
  Hypothesis OK : total_cmp cmp.
  Variable ifit : list (T * nat) -> Prop.
  Variable ok : T -> Prop.
  Variable fit : list T -> Prop.
  Variable live : T -> bool.
  Hypothesis Hfit : forall l, ssorted cmp l -> Forall ok l -> fit l -> fit (filter live l).
  Notation page := (page T).
  Notation store := (list page).
  Notation Str := (Str cmp ifit ok fit).

  Definition with_items (pg : page) (l : list T) : page :=
    mkPage (p_leaf pg) l (p_downs pg) (p_bound pg) (p_left pg) (p_right pg) (p_deleted pg).
  Definition cleaned (V : nat -> Prop) (st st' : store) : Prop :=
    length st' = length st /\
    forall b pg, get st b = Some pg -> exists l, get st' b = Some (with_items pg l) /\ (l = p_items pg \/ (p_leaf pg = true /\ l = filter live (p_items pg))) /\
      (V b -> l = filter live (p_items pg)).
  Lemma filter_twice (l : list T) : filter live (filter live l) = filter live l.
  Proof. induction l as [|x l IH]; [reflexivity|]. cbn [filter]. destruct (live x) eqn:E; [cbn [filter]; rewrite E, IH; reflexivity|exact IH]. Qed.
  Lemma with_same (pg : page) : with_items pg (p_items pg) = pg.
  Proof. destruct pg; reflexivity. Qed.
  Lemma cleaned_refl (st : store) : cleaned (fun _ => False) st st.
  Proof. split; [reflexivity|]. intros b pg Hg. exists (p_items pg). rewrite with_same. split; [exact Hg|]. split; [auto|intros []]. Qed.
  Lemma cleaned_trans V V' st st1 st2 : cleaned V st st1 -> cleaned V' st1 st2 -> cleaned (fun b => V b \/ V' b) st st2.
  Proof.
    intros [L1 H1] [L2 H2]. split; [congruence|]. intros b pg Hg. destruct (H1 b pg Hg) as (l & G1 & O1 & V1). destruct (H2 b _ G1) as (l2 & G2 & O2 & V2). exists l2. cbn [with_items p_items p_leaf] in *.
    split; [exact G2|]. destruct O1 as [->|[Hlf ->]].
    - split; [exact O2|]. intros [Hv|Hv]; [|exact (V2 Hv)]. pose proof (V1 Hv) as E. destruct O2 as [->|[_ ->]]; congruence.
    - rewrite filter_twice in *. assert (l2 = filter live (p_items pg)) by (destruct O2 as [->|[_ ->]]; reflexivity). split; auto.
  Qed.
  Lemma cleaned_weaken (V V' : nat -> Prop) st st' : (forall b, V' b -> V b) -> cleaned V st st' -> cleaned V' st st'.
  Proof. intros HV [L H]. split; [exact L|]. intros b pg Hg. destruct (H b pg Hg) as (l & A & B & C). exists l. auto. Qed.
  Lemma cleaned_none V st st' b : cleaned V st st' -> get st b = None -> get st' b = None.
  Proof. intros [L _] H. unfold get in *. apply nth_error_None in H. apply nth_error_None. lia. Qed.
  Lemma cleaned_kids V st st' b : cleaned V st st' -> kids st' b = kids st b.
  Proof.
    intro H. unfold kids. destruct (get st b) as [pg|] eqn:E; [|rewrite (cleaned_none _ _ _ _ H E); reflexivity]. destruct H as [_ H]. destruct (H b pg E) as (l & -> & _). reflexivity.
  Qed.
  Lemma cleaned_under V st st' : cleaned V st st' -> forall h b, under h st' b = under h st b.
  Proof.
    intros H h. induction h as [|h IH]; intro b; [reflexivity|]. cbn [under]. rewrite (cleaned_kids _ _ _ b H). apply flat_map_ext. exact IH.
  Qed.
  Lemma cleaned_get V st st' b pg' : cleaned V st st' -> get st' b = Some pg' -> exists pg, get st b = Some pg /\ exists l, pg' = with_items pg l /\ (l = p_items pg \/ (p_leaf pg = true /\ l = filter live (p_items pg))).
  Proof.
    intros H Hg. destruct (get st b) as [pg|] eqn:E; [|rewrite (cleaned_none _ _ _ _ H E) in Hg; discriminate]. exists pg. split; [reflexivity|]. destruct H as [_ H]. destruct (H b pg E) as (l & G & O & _).
    rewrite G in Hg. injection Hg as <-. exists l. auto.
  Qed.
  Lemma cleaned_incl (pg : page) l x : (l = p_items pg \/ (p_leaf pg = true /\ l = filter live (p_items pg))) -> In x l -> In x (p_items pg).
  Proof. intros [->|[_ ->]] H; [exact H|]. apply filter_In in H. apply H. Qed.
  Lemma cleaned_links V st st' : cleaned V st st' -> forall L prv, links st prv L -> links st' prv L.
  Proof.
    intros [_ H] L. induction L as [|b L IH]; intros prv Hl; [exact I|]. destruct Hl as (pg & Hg & H1 & H2 & H3). destruct (H b pg Hg) as (l & G & _). exists (with_items pg l). split; [exact G|]. cbn. auto.
  Qed.
  Lemma cleaned_str V st st' root lvl : cleaned V st st' -> Str st root lvl -> Str st' root lvl.
  Proof.
    intros HC [S1 S2 S3 S4 S5 S6 S7 S8 S9 S10]. pose proof (fun b => cleaned_kids V st st' b HC) as Hk. pose proof (cleaned_under V st st' HC) as Hu. constructor.
    - exact S1.
    - exact S2.
    - intros h L HL. apply (cleaned_links V st st' HC). eauto.
    - intros h L L' HL HL'. rewrite (flat_map_ext _ _ Hk). eauto.
    - intros h L b HL Hb. destruct (S5 h L b HL Hb) as (pg & Hg & P1 & P2 & P3 & P4). destruct HC as [_ HC]. destruct (HC b pg Hg) as (l & G & O & _). exists (with_items pg l). split; [exact G|]. cbn [with_items p_leaf p_deleted p_items p_downs].
      split; [exact P1|]. split; [exact P2|]. split.
      + intro E. destruct (P3 E) as (Q1 & Q2 & Q3 & Q4). split; [exact Q1|]. destruct O as [->|[_ ->]]; [auto|]. split; [apply ssorted_filter; exact Q2|]. split; [apply Forall_forall; intros x Hx; apply filter_In in Hx as [Hx _]; rewrite Forall_forall in Q3; auto|auto].
      + intro E. destruct (P4 E) as (Q1 & Q2). split; [|exact Q2]. destruct O as [->|[_ ->]]; [exact Q1|]. rewrite Q1. reflexivity.
    - intros L1 b L2 pg' HL Hg'. destruct (cleaned_get V st st' b pg' HC Hg') as (pg & Hg & l & -> & O). cbn [with_items p_items p_bound].
      destruct (S6 L1 b L2 pg HL Hg) as [A B]. split.
      + intros a pa' Ha Hga'. destruct (cleaned_get V st st' a pa' HC Hga') as (pa & Hga & la & -> & Oa). cbn [with_items p_bound]. destruct (A a pa Ha Hga) as [A1 A2]. split; [|exact A2].
        intros x Hx. apply A1. exact (cleaned_incl pg l x O Hx).
      + intros Hn x Hx. apply (B Hn). exact (cleaned_incl pg l x O Hx).
    - intros h L1 b L2 pg' d1 k c d2 x px' HL Hg' Ed Hn Hx Hgx'. destruct (cleaned_get V st st' b pg' HC Hg') as (pg & Hg & l & -> & _). destruct (cleaned_get V st st' x px' HC Hgx') as (px & Hgx & lx & -> & _).
      cbn [with_items p_downs p_bound] in *. rewrite Hu in Hx. eauto.
    - intros h L1 b L2 pg' x px' HL Hn Hg' Hx Hgx'. destruct (cleaned_get V st st' b pg' HC Hg') as (pg & Hg & l & -> & _). destruct (cleaned_get V st st' x px' HC Hgx') as (px & Hgx & lx & -> & _).
      cbn [with_items p_downs p_bound] in *. rewrite Hu in Hx. eauto.
    - intros h b L HL. rewrite Hk. eauto.
    - intros h b L HL. rewrite Hk. eauto.
  Qed.
  Lemma cleaned_full V st st' lvl : cleaned V st st' -> full st lvl -> full st' lvl.
  Proof. intros HC HF h L b HL Hb. rewrite (cleaned_kids V st st' b HC). eauto. Qed.

  Lemma clean_page st b pg : get st b = Some pg -> p_leaf pg = true -> cleaned (fun x => x = b) st (upd st b (with_items pg (filter live (p_items pg)))).
  Proof.
    intros Hg Hlf. split; [apply upd_length|]. intros x px Hx. destruct (Nat.eq_dec b x) as [<-|Hn].
    - rewrite Hg in Hx. injection Hx as <-. exists (filter live (p_items pg)). split; [unfold get; apply nth_upd_same; eapply nth_some_lt; eauto|auto].
    - exists (p_items px). rewrite with_same. split; [unfold get; rewrite nth_upd_other by exact Hn; exact Hx|]. split; [auto|]. intro E. congruence.
  Qed.

  Lemma vacuumLeaves_spec : forall fuel h isRoot st root lvl L b, Str st root lvl -> nth_error lvl h = Some L -> In b L -> h < fuel ->
    exists tr v, vacuumLeaves live fuel isRoot st b = Some (tr, v) /\ cleaned (fun x => In x (under h st b)) st (last tr st) /\ Forall (cleaned (fun _ => False) st) tr /\
      (v = false -> isRoot = false \/ h <> 0 -> forall x, items_at st x <> [] -> items_at (last tr st) x <> []).
  Proof.
    induction fuel as [|f IH]; intros h isRoot st root lvl L b HS HL Hb Hf; [lia|]. destruct (S_page _ _ _ _ _ _ _ HS h L b HL Hb) as (pg & Hg & Hlf & _).
    cbn [vacuumLeaves]. rewrite Hg, Hlf. destruct h as [|h]; cbn [Nat.eqb under].
    - destruct (Nat.eqb_spec (length (filter live (p_items pg))) (length (p_items pg))) as [E|E].
      + exists [], false. split; [reflexivity|]. split; [|split; [constructor|auto]]. cbn [last]. split; [reflexivity|]. intros x px Hx. exists (p_items px). rewrite with_same. split; [exact Hx|]. split; [auto|].
        intros [<-|[]]. rewrite Hg in Hx. injection Hx as <-. symmetry. apply filter_length_eq. exact E.
      + eexists [_], _. split; [reflexivity|]. pose proof (clean_page st b pg Hg ltac:(rewrite Hlf; reflexivity)) as HC. unfold set_page. unfold with_items in HC. split.
        * cbn [last]. eapply cleaned_weaken; [|exact HC]. intros x [<-|[]]. reflexivity.
        * split; [constructor; [|constructor]; eapply cleaned_weaken; [|exact HC]; intros x []|]. cbn [last]. intros Hv [-> |]; [|congruence]. cbn [negb andb] in Hv. apply Nat.eqb_neq in Hv.
          intros x Hx. destruct (Nat.eq_dec b x) as [<-|Hn].
          -- unfold items_at, get. rewrite nth_upd_same by (eapply nth_some_lt; eauto). cbn [p_items]. intro E0. rewrite E0 in Hv. apply Hv. reflexivity.
          -- unfold items_at, get in *. rewrite nth_upd_other by exact Hn. exact Hx.
    - assert (Ek : kids st b = map snd (p_downs pg)) by (unfold kids; rewrite Hg; reflexivity). rewrite Ek.
      assert (Hin : forall c, In c (map snd (p_downs pg)) -> exists Lk, nth_error lvl h = Some Lk /\ In c Lk).
      { intros c Hc. destruct (s_level lvl h) as [Lk HLk]; [apply nth_some_lt in HL; lia|]. exists Lk. split; [exact HLk|]. rewrite <- (S_kids _ _ _ _ _ _ _ HS h Lk L HLk HL). apply in_flat_map. exists b. rewrite Ek. auto. }
      clear Hg Hlf Ek. revert Hin. generalize (p_downs pg) as d. clear pg HL Hb. intro d.
      assert (K : forall st1, cleaned (fun _ => False) st st1 -> (forall c, In c (map snd d) -> exists Lk, nth_error lvl h = Some Lk /\ In c Lk) ->
        exists tr v, each (vacuumLeaves live f false) st1 d = Some (tr, v) /\ cleaned (fun x => In x (flat_map (under h st) (map snd d))) st1 (last tr st1) /\ Forall (cleaned (fun _ => False) st1) tr /\ (v = false -> forall x, items_at st1 x <> [] -> items_at (last tr st1) x <> [])).
      { induction d as [|[k c] d IHd]; intros st1 HC1 Hin; cbn [each map flat_map snd].
        - exists [], false. split; [reflexivity|]. split; [|split; [constructor|auto]]. cbn [last]. eapply cleaned_weaken; [|apply cleaned_refl]. intros x [].
        - destruct (Hin c (or_introl eq_refl)) as (Lk & HLk & Hc). pose proof (cleaned_str _ _ _ _ _ HC1 HS) as HS1.
          destruct (IH h false st1 root lvl Lk c HS1 HLk Hc ltac:(lia)) as (tr1 & v1 & E1 & C1 & F1 & N1). rewrite E1.
          assert (HC2 : cleaned (fun _ => False) st (last tr1 st1)) by (eapply cleaned_weaken; [|exact (cleaned_trans _ _ _ _ _ HC1 C1)]; intros x []).
          destruct (IHd (last tr1 st1) HC2 ltac:(intros c' Hc'; apply Hin; right; exact Hc')) as (tr2 & v2 & E2 & C2 & F2 & N2). rewrite E2.
          exists (tr1 ++ tr2), (v1 || v2). split; [reflexivity|]. rewrite last_cons_app. split.
          + eapply cleaned_weaken; [|exact (cleaned_trans _ _ _ _ _ C1 C2)]. intros x Hx. cbn [snd] in Hx. apply in_app_iff in Hx as [Hx|Hx]; [left|right; exact Hx]. rewrite (cleaned_under _ _ _ HC1). exact Hx.
          + split.
            * apply Forall_app. split; [exact F1|]. eapply Forall_impl; [|exact F2]. intros s Hs. eapply cleaned_weaken; [|exact (cleaned_trans _ _ _ _ _ C1 Hs)]. intros x [].
            * intro Hv. apply orb_false_iff in Hv as [-> ->]. intros x Hx. apply (N2 eq_refl). apply (N1 eq_refl (or_introl eq_refl)). exact Hx. }
      intro Hin. destruct (K st (cleaned_refl st) Hin) as (tr & v & R1 & R2 & R3 & R4). exists tr, v. auto.
  Qed.

  (** the rows afterwards *)
  Lemma cleaned_rows V st st' lvl root : Str st root lvl -> cleaned V st st' ->
    filter live (rows_of_leaves st' lvl) = filter live (rows_of_leaves st lvl) /\ (forall x, In x (rows_of_leaves st' lvl) -> In x (rows_of_leaves st lvl)) /\
    ((forall L b, nth_error lvl 0 = Some L -> In b L -> V b) -> rows_of_leaves st' lvl = filter live (rows_of_leaves st lvl)).
  Proof.
    intros HS [_ HC]. pose proof (s_len cmp ifit ok fit st root lvl HS) as Hne. pose proof (fun b => s_get cmp ifit ok fit st root lvl HS 0 (hd [] lvl) b) as Hget. unfold rows_of_leaves. destruct lvl as [|L l]; [congruence|]. cbn [nth_error hd] in *.
    clear HS Hne. specialize (fun b => Hget b eq_refl).
    assert (K : filter live (flat_map (items_at st') L) = filter live (flat_map (items_at st) L) /\ (forall x, In x (flat_map (items_at st') L) -> In x (flat_map (items_at st) L)) /\
      ((forall b, In b L -> V b) -> flat_map (items_at st') L = filter live (flat_map (items_at st) L))).
    { induction L as [|b L IH]; [cbn; auto|]. destruct IH as (I1 & I2 & I3); [intros b' Hb'; apply Hget; right; exact Hb'|]. cbn [flat_map].
      destruct (Hget b (or_introl eq_refl)) as [pg Hg]. destruct (HC b pg Hg) as (lx & G & O & HV). assert (E : items_at st' b = lx) by (unfold items_at; rewrite G; reflexivity). assert (E' : items_at st b = p_items pg) by (unfold items_at; rewrite Hg; reflexivity).
      rewrite E, E', !filter_app. split; [|split].
      - rewrite I1. f_equal. destruct O as [->|[_ ->]]; [reflexivity|apply filter_twice].
      - intros x Hx. apply in_app_iff in Hx as [Hx|Hx]; apply in_app_iff; [left|right; auto]. exact (cleaned_incl pg lx x O Hx).
      - intro H. rewrite (HV (H b (or_introl eq_refl))), I3; [reflexivity|]. intros b' Hb'. apply H. right. exact Hb'. }
    destruct K as (K1 & K2 & K3). split; [exact K1|]. split; [exact K2|]. intro H. apply K3. intros b Hb. apply (H L b eq_refl Hb).
  Qed.
End Clean.
