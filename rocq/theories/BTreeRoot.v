(** Splitting the root keeps the invariant and adds a level. *)
From Verif Require Import Ord BTree BTreeInv BTreeFind BTreeParent BTreeSplit.
From Coq Require Import List ZArith Bool Arith Lia.
Import ListNotations.

Section Root.
  Context {T : Type}.
  Variable cmp : T -> T -> Z.
  Hypothesis OK : total_cmp cmp.
  Variable ifit : list (T * nat) -> Prop.
  Variable lbound : bool.
  Variable ok : T -> Prop.
  Variable fit : list T -> Prop.
  Variable tnull : T.
  Variable rkey : T -> list T -> list (T * nat) -> T.

  Notation page := (page T).
  Notation store := (list page).
  Notation Inv := (Inv cmp ifit lbound ok fit).
  Notation body := (body cmp ifit lbound ok fit).
  Notation ble := (ble cmp).
  Notation blt := (blt cmp).

  Section S.
    Context (tight : bool) (st : store) (root : nat) (G : @ghost T).
    Hypothesis HI : Inv tight st root G.
    Context (pg : page) (k : T) (li ri : list T) (ld rd : list (T * nat)) (zl zr : bnd T).
    Hypothesis Hg : get st root = Some pg.
    Let h := top G.
    Let r := length st.
    Let l := S r.
    Let kr := rkey (p_bound pg) ri rd.
    Let rp := mkPage (p_leaf pg) ri rd (p_bound pg) (Some l) None false.
    Let lp := mkPage (p_leaf pg) li ld k None (Some r) false.
    Let np := mkPage false [] [(k, l); (kr, r)] tnull None None false.
    Let st' := splitRoot tnull rkey st root pg k li ri ld rd.
    Definition rootG : @ghost T :=
      mkG (removelast (lv G) ++ [[l; r]; [root]])
          (fun x => if x =? r then zr else if x =? l then BMin else slo G x)
          (fun x => if x =? l then zl else if x =? r then shi G root else shi G x).
    Hypothesis H1 : blt BMin zl.
    Hypothesis H2 : ble zl zr.
    Hypothesis H3 : ble zr (BAt k).
    Hypothesis H4 : h = 0 -> zr = BAt k.
    Hypothesis H5 : blt zr (shi G root).
    Hypothesis HL : body tight G h BMin zl lp.
    Hypothesis HR : body tight G h zr (shi G root) rp.
    Hypothesis Hfit : ifit [(k, l); (kr, r)].

    Lemma sr_lv : exists X, lv G = X ++ [[root]] /\ removelast (lv G) = X /\ length X = h.
    Proof.
      destruct (I_top _ _ _ _ _ _ _ _ _ HI) as [X E]. exists X. split; [exact E|]. split.
      - rewrite E. apply removelast_last.
      - unfold h, top. rewrite E, app_length. simpl. lia.
    Qed.
    Lemma sr_root_lt : root < r.
    Proof. unfold r. eapply nth_some_lt. exact Hg. Qed.
    Lemma sr_get_r : get st' r = Some rp.
    Proof.
      unfold st', splitRoot, get. rewrite nth_error_app2; rewrite upd_length; [|unfold r; lia].
      fold r. rewrite Nat.sub_diag. reflexivity.
    Qed.
    Lemma sr_get_l : get st' l = Some lp.
    Proof.
      unfold st', splitRoot, get. rewrite nth_error_app2; rewrite upd_length; [|unfold l, r; lia].
      fold r. unfold l. replace (S r - r) with 1 by lia. reflexivity.
    Qed.
    Lemma sr_get_root : get st' root = Some np.
    Proof.
      pose proof sr_root_lt. unfold st', splitRoot, get. rewrite nth_error_app1; [|rewrite upd_length; exact H].
      apply nth_upd_same. exact H.
    Qed.
    Lemma sr_get_other x px : x <> root -> get st x = Some px -> get st' x = Some px.
    Proof.
      intros Hn Hx. unfold st', splitRoot, get. rewrite nth_error_app1; [|rewrite upd_length; eapply nth_some_lt; exact Hx].
      rewrite nth_upd_other by auto. exact Hx.
    Qed.

    Lemma sr_at h0 x : at_ rootG h0 x <->
      (h0 < h /\ at_ G h0 x) \/ (h0 = h /\ (x = l \/ x = r)) \/ (h0 = S h /\ x = root).
    Proof.
      destruct sr_lv as (X & EX & ER & EL). unfold at_. cbn [rootG lv]. rewrite ER, EX. split.
      - intros (L & E & Hx). destruct (Nat.lt_ge_cases h0 h) as [Hlt|Hge].
        + left. split; [exact Hlt|]. exists L. rewrite nth_error_app1 in E |- * by lia. auto.
        + rewrite nth_error_app2 in E by lia. rewrite EL in E. destruct (h0 - h) as [|[|n]] eqn:En; cbn [nth_error] in E.
          * injection E as <-. right; left. split; [lia|]. destruct Hx as [<-|[<-|[]]]; auto.
          * injection E as <-. right; right. split; [lia|]. destruct Hx as [<-|[]]; auto.
          * destruct n; discriminate.
      - intros [[Hlt (L & E & Hx)]|[[-> Hx]|[-> ->]]].
        + exists L. rewrite nth_error_app1 in E |- * by lia. auto.
        + exists [l; r]. rewrite nth_error_app2 by lia. rewrite EL, Nat.sub_diag. split; [reflexivity|]. simpl. intuition.
        + exists [root]. rewrite nth_error_app2 by lia. rewrite EL. replace (S h - h) with 1 by lia. split; [reflexivity|left; reflexivity].
    Qed.
    Lemma sr_fresh h0 x : at_ G h0 x -> x < r.
    Proof. intros H. unfold r. exact (at_valid _ _ _ _ _ _ _ _ _ HI _ _ H). Qed.
    Lemma sr_slo h0 x : at_ G h0 x -> slo rootG x = slo G x.
    Proof.
      intro H. apply sr_fresh in H. cbn [rootG slo]. unfold l. destruct (Nat.eqb_spec x r); [lia|]. destruct (Nat.eqb_spec x (S r)); [lia|reflexivity].
    Qed.
    Lemma sr_shi h0 x : at_ G h0 x -> shi rootG x = shi G x.
    Proof.
      intro H. apply sr_fresh in H. cbn [rootG shi]. unfold l. destruct (Nat.eqb_spec x (S r)); [lia|]. destruct (Nat.eqb_spec x r); [lia|reflexivity].
    Qed.
    Lemma sr_slo_l : slo rootG l = BMin.
    Proof. cbn [rootG slo]. rewrite Nat.eqb_refl. destruct (Nat.eqb_spec l r); [unfold l in *; lia|reflexivity]. Qed.
    Lemma sr_slo_r : slo rootG r = zr.
    Proof. cbn [rootG slo]. rewrite Nat.eqb_refl. reflexivity. Qed.
    Lemma sr_shi_l : shi rootG l = zl.
    Proof. cbn [rootG shi]. rewrite Nat.eqb_refl. reflexivity. Qed.
    Lemma sr_shi_r : shi rootG r = shi G root.
    Proof. cbn [rootG shi]. rewrite Nat.eqb_refl. destruct (Nat.eqb_spec r l); [unfold l in *; lia|reflexivity]. Qed.

    Lemma sr_body h0 lo hi px : h0 <= h -> body tight G h0 lo hi px -> body tight rootG h0 lo hi px.
    Proof.
      intro Hle. apply (body_mono cmp OK). intros h' x E Hx. split; [apply sr_at; left; split; [lia|exact Hx]|].
      split; [exact (sr_slo _ _ Hx)|]. rewrite (sr_shi _ _ Hx). apply ble_refl. exact OK.
    Qed.

    Lemma sr_inv : Inv tight st' root rootG.
    Proof.
      pose proof (at_root _ _ _ _ _ _ _ _ _ HI) as Hat. fold h in Hat.
      destruct (page_facts cmp ifit lbound ok fit tight st root G HI _ _ _ Hat Hg) as (A & B & C & D & E & _).
      destruct (root_right _ _ _ _ _ _ _ _ _ HI pg Hg) as [Hrr Hrl].
      destruct sr_lv as (X & EX & ER & EL).
      pose proof sr_root_lt as Hrlt.
      constructor.
      - exists (X ++ [[l; r]]). cbn [rootG lv]. rewrite ER, <- app_assoc. reflexivity.
      - cbn [rootG lv]. rewrite ER, concat_app. pose proof (I_nodup _ _ _ _ _ _ _ _ _ HI) as N. rewrite EX, concat_app in N.
        cbn [concat app] in N |- *. apply nodup_app in N as (N1 & N2 & N3). apply nodup_app.
        split; [exact N1|]. split.
        + unfold l. repeat constructor; simpl; intuition lia.
        + intros x Hx Hx'.
          assert (Hlt : x < r).
          { apply in_concat in Hx as (L & HLi & Hx). apply In_nth_error in HLi as [h0 HLi].
            apply (sr_fresh h0). exists L. split; [|exact Hx]. rewrite EX. rewrite nth_error_app1; [exact HLi|]. eapply nth_some_lt; eauto. }
          simpl in Hx'. unfold l in Hx'. destruct Hx' as [E0|[E0|[E0|[]]]]; try lia. apply (N3 x Hx). left; exact E0.
      - intros h0 L E0. cbn [rootG lv] in E0. rewrite ER in E0. destruct (Nat.lt_ge_cases h0 h) as [Hlt|Hge].
        + rewrite nth_error_app1 in E0 by lia.
          assert (EL' : nth_error (lv G) h0 = Some L) by (rewrite EX, nth_error_app1 by lia; exact E0).
          eapply links_ext; [|exact (I_links _ _ _ _ _ _ _ _ _ HI _ _ EL')].
          intros x Hx px Hpx. exists px. split; [|auto]. apply sr_get_other; [|exact Hpx].
          intros ->. assert (at_ G h0 root) by (exists L; auto).
          pose proof (at_root_top _ _ _ _ _ _ _ _ _ HI _ H). unfold h in Hlt. lia.
        + rewrite nth_error_app2 in E0 by lia. rewrite EL in E0. destruct (h0 - h) as [|[|n]]; cbn [nth_error] in E0.
          * injection E0 as <-. cbn [links hd_error]. exists lp. rewrite sr_get_l. repeat split; auto.
            exists rp. rewrite sr_get_r. repeat split; auto.
          * injection E0 as <-. cbn [links hd_error]. exists np. rewrite sr_get_root. repeat split; auto.
          * destruct n; discriminate.
      - intros h0 x Hx. apply sr_at in Hx as [[Hlt Hx]|[[-> [->| ->]]|[-> ->]]].
        + assert (Hn : x <> root) by (intros ->; pose proof (at_root_top _ _ _ _ _ _ _ _ _ HI _ Hx); unfold h in Hlt; lia).
          destruct (I_page _ _ _ _ _ _ _ _ _ HI _ _ Hx) as (px & Hgx & A' & B' & C' & D' & E' & F').
          exists px. split; [apply sr_get_other; auto|]. rewrite (sr_slo _ _ Hx), (sr_shi _ _ Hx).
          split; [exact A'|]. split; [exact B'|]. split; [exact C'|]. split; [exact D'|]. split.
          * intros b' Eb. pose proof (right_at _ _ _ _ _ _ _ _ _ HI _ _ _ _ Hx Hgx Eb) as Hb'.
            rewrite (sr_slo _ _ Hb'). apply E'. exact Eb.
          * apply sr_body; [lia|exact F'].
        + exists lp. rewrite sr_get_l, sr_slo_l, sr_shi_l. split; [reflexivity|]. split; [exact A|]. split; [reflexivity|].
          split; [exact H1|]. split; [auto|]. split.
          * intros b' Eb. cbn [p_right lp] in Eb. injection Eb as <-. rewrite sr_slo_r. cbn [p_bound lp]. auto.
          * apply sr_body; [lia|exact HL].
        + exists rp. rewrite sr_get_r, sr_slo_r, sr_shi_r. split; [reflexivity|]. split; [exact A|]. split; [reflexivity|].
          split; [exact H5|]. split; [discriminate|]. split; [discriminate|]. apply sr_body; [lia|exact HR].
        + exists np. rewrite sr_get_root, (sr_slo _ _ Hat), (sr_shi _ _ Hat).
          split; [reflexivity|]. split; [reflexivity|]. split; [reflexivity|]. split; [exact C|].
          split; [intros _; exact (root_slo _ _ _ _ _ _ _ _ _ HI)|]. split; [discriminate|].
          cbn [BTreeInv.body]. split; [reflexivity|]. split; [exact Hfit|]. cbn [p_downs np]. split.
          * constructor; [apply sr_at; right; left; auto|]. constructor; [apply sr_at; right; left; auto|constructor].
          * split.
            -- unfold rightmost. cbn [p_right np negb dok slot_ok]. rewrite sr_shi_l, sr_shi_r, sr_slo_r.
               repeat split; auto; [apply ble_refl; exact OK|discriminate].
            -- split; [intros _ Hc; cbn [p_right np] in Hc; congruence|].
               exists (k, l), [(kr, r)]. split; [reflexivity|]. cbn [snd]. rewrite sr_slo_l. exact (root_slo _ _ _ _ _ _ _ _ _ HI).
    Qed.

    Lemma sr_chg gone used : stay st G root gone -> (h = 0 -> page_chg (p_items pg) (li ++ ri) gone used) ->
      (h <> 0 -> used = []) -> rows_chg st G st' rootG gone used.
    Proof.
      intros Hs Hi0 Hu x.
      assert (Hi : h = 0 -> forall x, In x li \/ In x ri <-> (In x (p_items pg) /\ gone x = false) \/ In x used).
      { intros E y. rewrite <- in_app_iff. apply (Hi0 E). }
      rewrite (contents_in' cmp ifit lbound ok fit _ _ _ _ _ sr_inv), (contents_in' cmp ifit lbound ok fit _ _ _ _ _ HI).
      pose proof (at_root _ _ _ _ _ _ _ _ _ HI) as Hat. fold h in Hat. split.
      - intros (c & pc & Hc & Hgc & Hx). apply sr_at in Hc as [[Hlt Hc]|[[Eh Hc]|[Eh _]]]; [|symmetry in Eh|lia].
        + assert (Hn : c <> root) by (intros ->; pose proof (at_root_top _ _ _ _ _ _ _ _ _ HI _ Hc); unfold h in Hlt; lia).
          destruct (page_get cmp ifit lbound ok fit tight st root G HI _ _ Hc) as [px Hpx].
          rewrite (sr_get_other c px Hn Hpx) in Hgc. injection Hgc as <-. left. split; [exists c, px; auto|exact (Hs c px x Hc Hn Hpx Hx)].
        + assert (Hy : In x li \/ In x ri).
          { destruct Hc as [->| ->]; [rewrite sr_get_l in Hgc; injection Hgc as <-; auto|rewrite sr_get_r in Hgc; injection Hgc as <-; auto]. }
          apply (Hi Eh) in Hy as [[Hy Hy']|Hy]; [|auto]. left. split; [exists root, pg; rewrite <- Eh; auto|exact Hy'].
      - intros Hy.
        destruct (Nat.eq_dec h 0) as [Eh|Eh].
        + assert (Hz : (In x (p_items pg) /\ gone x = false) \/ In x used).
          { destruct Hy as [[(c & pc & Hc & Hgc & Hx) Hx']|Hx]; [|auto]. left. split; [|exact Hx'].
            rewrite <- Eh in Hc. unfold h in Hc. apply (at_top _ _ _ _ _ _ _ _ _ HI) in Hc. subst c. rewrite Hg in Hgc. injection Hgc as <-. exact Hx. }
          apply (Hi Eh) in Hz as [Hz|Hz].
          * exists l, lp. rewrite sr_get_l. split; [apply sr_at; right; left; auto|auto].
          * exists r, rp. rewrite sr_get_r. split; [apply sr_at; right; left; auto|auto].
        + rewrite (Hu Eh) in Hy. destruct Hy as [[(c & pc & Hc & Hgc & Hx) Hx']|[]].
          exists c, pc. split; [apply sr_at; left; split; [lia|exact Hc]|]. split; [|exact Hx].
          apply sr_get_other; [|exact Hgc]. intros ->. pose proof (at_root_top _ _ _ _ _ _ _ _ _ HI _ Hc). unfold h in Eh. lia.
    Qed.

    Lemma sr_rows used : (h = 0 -> forall x, In x li \/ In x ri <-> In x (p_items pg) \/ In x used) ->
      (h <> 0 -> used = []) -> rows_add st G st' rootG used.
    Proof.
      intros Hi Hu x. assert (Hp : h = 0 -> page_chg (p_items pg) (li ++ ri) (fun _ => false) used).
      { intros E y. rewrite in_app_iff, (Hi E y). tauto. }
      pose proof (sr_chg (fun _ => false) used (fun _ _ _ _ _ _ _ => eq_refl) Hp Hu x) as K. cbn beta in K. tauto.
    Qed.

    Lemma sr_complete X : complete_but st root G X ->
      (forall k0 c0, In (k0, c0) (p_downs pg) -> exists k', In (k', c0) (ld ++ rd)) ->
      (forall x, X x -> exists hx k', h = S hx /\ at_ G hx x /\ In (k', x) (ld ++ rd)) ->
      complete st' root rootG.
    Proof.
      intros Hc Hd HX h0 x Hx Hxr _. apply sr_at in Hx as [[Hlt Hx]|[[-> Hx]|[_ E]]]; [| |tauto].
      - assert (K : forall k', In (k', x) (ld ++ rd) -> h = S h0 ->
          exists p px k1, at_ rootG (S h0) p /\ get st' p = Some px /\ In (k1, x) (p_downs px)).
        { intros k' Hk' Eh. apply in_app_iff in Hk' as [Hk'|Hk'].
          - exists l, lp, k'. rewrite sr_get_l. split; [apply sr_at; right; left; auto|auto].
          - exists r, rp, k'. rewrite sr_get_r. split; [apply sr_at; right; left; auto|auto]. }
        assert (K2 : ~ X x -> exists p px k1, at_ rootG (S h0) p /\ get st' p = Some px /\ In (k1, x) (p_downs px)).
        { intro HnX. destruct (Hc h0 x Hx Hxr HnX) as (p & px & k1 & Hp & Hgp & Hpin).
          destruct (Nat.eq_dec p root) as [->|Hn].
          - rewrite Hg in Hgp. injection Hgp as <-. destruct (Hd _ _ Hpin) as [k' Hk']. apply (K k' Hk').
            symmetry. exact (at_root_top _ _ _ _ _ _ _ _ _ HI _ Hp).
          - exists p, px, k1. split; [|split; [apply sr_get_other; auto|exact Hpin]].
            apply sr_at. left. split; [|exact Hp]. pose proof (at_le_top _ _ _ Hp) as Hle.
            destruct (Nat.eq_dec (S h0) h) as [E|E]; [|fold h in Hle; lia]. exfalso. apply Hn.
            rewrite E in Hp. exact (at_top _ _ _ _ _ _ _ _ _ HI _ Hp). }
        destruct (in_dec Nat.eq_dec x (map snd (ld ++ rd))) as [Hin|Hnin].
        + apply in_map_iff in Hin as ([k' c] & E & Hin). simpl in E. subst c.
          destruct (Nat.eq_dec h (S h0)) as [Eh|Eh]; [eauto|]. apply K2.
          intro Hxx. destruct (HX x Hxx) as (hx & k1 & Eh1 & Hax & _). apply Eh. rewrite Eh1. f_equal.
          exact (at_inj _ _ _ _ _ _ _ _ _ HI _ _ _ Hax Hx).
        + apply K2. intro Hxx. destruct (HX x Hxx) as (hx & k1 & _ & _ & Hin). apply Hnin.
          change x with (snd (k1, x)). apply in_map. exact Hin.
      - destruct Hx as [->| ->].
        + exists root, np, k. rewrite sr_get_root. split; [apply sr_at; auto|]. split; [reflexivity|left; reflexivity].
        + exists root, np, kr. rewrite sr_get_root. split; [apply sr_at; auto|]. split; [reflexivity|right; left; reflexivity].
    Qed.
  End S.
End Root.
