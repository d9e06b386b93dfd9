(** Overlapping insertions keep the tree and never lose their path. *)
From Verif Require Import Ord BTree BTreeInv BTreeFind BTreeParent BTreeSplit BTreeRoot BTreeIns BTreeConc BTreeConcInv.
From Coq Require Import List ZArith Bool Arith Lia.
Import ListNotations.

Lemma nth_upd {A} (l : list A) i j x : i < length l -> nth_error (upd l i x) j = if j =? i then Some x else nth_error l j.
Proof.
  intro H. destruct (Nat.eqb_spec j i) as [->|Hn]; [apply nth_upd_same; exact H|apply nth_upd_other; auto].
Qed.

Section CProof.
  Context {T : Type}.
  Variable cmp : T -> T -> Z.
  Hypothesis OK : total_cmp cmp.
  Variable ifit : list (T * nat) -> Prop.
  Variable lbound : bool.
  Variable ok : T -> Prop.
  Variable fit : list T -> Prop.
  Variable kok : T -> Prop.
  Variable rbound : page T -> T.
  Variable tnull : T.
  Variable ienough : list (T * nat) -> T -> bool.
  Variable locate : bool -> list (T * nat) -> T -> nat.
  Variable leafFind : list T -> T -> bool * nat.
  Variable leafEnough : list T -> T -> bool.
  Variable leafPlace : bool -> T -> list T -> list T -> option (list T * list T).
  Variable leafSplit : list T -> list T -> nat -> option (list T * list T * list T).
  Variable isep : bool -> list (T * nat) -> nat.
  Variable rkey : T -> list T -> list (T * nat) -> T.
  Variable multi : bool.
  Hypothesis Hkok : kok_ok ifit ok kok rkey.
  Hypothesis Hien : ienough_ok ifit kok ienough.
  Hypothesis Hisep : isep_ok ifit kok ienough isep.
  Hypothesis Hiroot : iroot_ok ifit kok.
  Hypothesis Hrbd : rbound_ok cmp ifit lbound ok fit rbound.
  Hypothesis Hloc : locate_ok cmp lbound locate.
  Hypothesis Hfind : leafFind_ok cmp ok leafFind.
  Hypothesis Hplace : leafPlace_ok cmp ok fit leafEnough leafPlace multi.
  Hypothesis Hsplit : leafSplit_ok cmp ok fit leafFind leafEnough leafSplit multi.

  Context (tight : bool) (root : nat).
  Notation page := (page T).
  Notation store := (list page).
  Notation ghost := (@ghost T).
  Notation writer := (writer T).
  Notation Inv := (Inv cmp ifit lbound ok fit tight).
  Notation body := (body cmp ifit lbound ok fit tight).
  Notation ble := (ble cmp).
  Notation blt := (blt cmp).
  Notation tiled := (tiled cmp).
  Notation chg := (chg cmp root).
  Notation pgf := (page_facts cmp ifit lbound ok fit tight).
  Notation act := (act cmp rbound ienough tnull locate leafFind leafEnough leafPlace leafSplit isep rkey).

  (** ** what is known of every writer *)
  Definition hid (w : writer) : option nat :=
    match w with WWalk _ _ rb _ _ _ | WRoot _ _ rb | WLevel _ _ rb _ _ => Some rb | _ => None end.
  Definition rbOf (w : writer) : option nat :=
    match w with WWalk _ _ rb _ _ _ | WRoot _ _ rb | WLevel _ _ rb _ _ | WPlace _ _ rb _ _ _ => Some rb | _ => None end.
  (** a right half whose left half is still locked *)
  Definition hidden (ws : list writer) (c : nat) : Prop := exists i w, nth_error ws i = Some w /\ hid w = Some c.
  Definition awaits (ws : list writer) (c p : nat) : Prop :=
    exists i k lb off up, nth_error ws i = Some (WPlace k lb c p off up).
  Definition home (st : store) (ws : list writer) (c p : nat) : Prop :=
    (exists px k, get st p = Some px /\ In (k, c) (p_downs px)) \/ awaits ws c p.
  Fixpoint stk (G : ghost) (ws : list writer) (h b : nat) (stack : list (nat * nat)) : Prop :=
    match stack with
    | [] => b = root
    | (p, _) :: up => b <> root /\ exists h', h < h' /\ at_ G h' p /\ ~ hidden ws p /\ stk G ws h' p up
    end.
  Definition pend (st : store) (G : ghost) (ws : list writer) (h lb rb : nat) (k : T) : Prop :=
    at_ G h lb /\ at_ G h rb /\ kok k /\ (exists pl, get st lb = Some pl /\ p_right pl = Some rb) /\
    ble (slo G rb) (BAt k) /\ lb <> root /\ ~ hidden ws lb.
  Definition ahead (st : store) (G : ghost) (ws : list writer) (h b c : nat) : Prop :=
    exists p, at_ G (S h) p /\ home st ws c p /\ ble (slo G b) (slo G p).
  Definition wok (st : store) (G : ghost) (ws : list writer) (w : writer) : Prop :=
    match w with
    | WDown x b stack => ok x /\ exists h, at_ G h b /\ blt (slo G b) (BAt x) /\ ~ hidden ws b /\ stk G ws h b stack
    | WWalk k lb rb b off up => exists h h', pend st G ws h lb rb k /\ h < h' /\ at_ G h' b /\ ~ hidden ws b /\ stk G ws h' b up
    | WRoot k lb rb => exists h, pend st G ws h lb rb k
    | WLevel k lb rb b lm => exists h h', pend st G ws h lb rb k /\ at_ G h' b /\ S h <= h' /\ b <> root /\ ~ hidden ws b /\
        (h' = S h -> ahead st G ws h b lb) /\
        match lm with None => slo G b = BMin | Some m => at_ G (h' - 1) m /\ slo G m = BMin /\ ~ hidden ws m end
    | WPlace k lb rb p off up => exists h pg k0, at_ G h lb /\ at_ G h rb /\ at_ G (S h) p /\ kok k /\
        get st p = Some pg /\ 1 <= off /\ nth_error (p_downs pg) (off - 1) = Some (k0, lb) /\
        ble (shi G lb) (slo G rb) /\ ble (slo G rb) (BAt k) /\
        slot_ok cmp (slo G) (negb (rightmost pg)) (shi G p) k0 (skipn off (p_downs pg)) (shi G rb) /\
        ~ hidden ws p /\ stk G ws (S h) p up
    | WDone => True
    | WLost | WBroken => False
    end.

  Record CI (st : store) (G : ghost) (ws : list writer) : Prop := {
    ci_inv : Inv st root G;
    ci_tile : tiled st G;
    ci_lock : forall i j wi wj b, nth_error ws i = Some wi -> nth_error ws j = Some wj ->
      locked wi = Some b -> locked wj = Some b -> i = j;
    ci_rb : forall i j wi wj b, nth_error ws i = Some wi -> nth_error ws j = Some wj ->
      rbOf wi = Some b -> rbOf wj = Some b -> i = j;
    ci_nodown : forall i w c, nth_error ws i = Some w -> rbOf w = Some c ->
      forall h q qx k, at_ G h q -> get st q = Some qx -> ~ In (k, c) (p_downs qx);
    ci_home : forall h c, at_ G h c -> c <> root -> ~ hidden ws c -> exists p, at_ G (S h) p /\ home st ws c p;
    ci_ok : forall i w, nth_error ws i = Some w -> wok st G ws w }.

  Lemma hidden_dec ws c : hidden ws c \/ ~ hidden ws c.
  Proof.
    assert (D : {In (Some c) (map hid ws)} + {~ In (Some c) (map hid ws)}).
    { apply in_dec. intros [a|] [b|]; try (right; congruence); [|left; reflexivity]. destruct (Nat.eq_dec a b); [left|right]; congruence. }
    destruct D as [D|D].
    - left. apply in_map_iff in D as (w & E & Hin). apply In_nth_error in Hin as [i Hi]. exists i, w. auto.
    - right. intros (i & w & Hi & E). apply D. apply in_map_iff. exists w. split; [exact E|]. eapply nth_error_In; eauto.
  Qed.
  Lemma hid_rb w c : hid w = Some c -> rbOf w = Some c.
  Proof. destruct w; simpl; congruence. Qed.

  (** ** stability *)
  Section Stable.
    Context (st st' : store) (G G' : ghost) (ws ws' : list writer) (b : nat) (own new : option nat).
    Hypothesis HI : Inv st root G.
    Hypothesis HI' : Inv st' root G'.
    Hypothesis HC : chg b own new st G st' G'.
    Hypothesis Hh : forall h c, at_ G h c -> hidden ws' c -> hidden ws c.
    Hypothesis Hm : forall h c p, at_ G h c -> at_ G (S h) p -> home st ws c p ->
      exists p', at_ G' (S h) p' /\ home st' ws' c p' /\ ble (slo G p) (slo G' p').

    Lemma at_chg h x : at_ G h x -> exists h', h <= h' /\ at_ G' h' x.
    Proof.
      intro H. destruct (Nat.eq_dec x root) as [->|Hn].
      - exists (top G'). split; [|exact (at_root _ _ _ _ _ _ _ _ _ HI')]. rewrite (at_root_top _ _ _ _ _ _ _ _ _ HI _ H). exact (c_top _ _ _ _ _ _ _ _ _ HC).
      - exists h. split; [lia|]. exact (c_at _ _ _ _ _ _ _ _ _ HC _ _ H Hn).
    Qed.
    Lemma at_low h h' x : at_ G h x -> h < h' -> (exists y, at_ G h' y) -> at_ G' h x.
    Proof.
      intros H Hlt [y Hy]. apply (c_at _ _ _ _ _ _ _ _ _ HC _ _ H). pose proof (at_le_top _ _ _ Hy).
      eapply (at_not_root _ _ _ _ _ _ _ _ _ HI); [exact H|lia].
    Qed.
    Lemma stk_chg : forall stack h h1 x, at_ G h x -> (x <> root -> h1 = h) -> stk G ws h x stack -> stk G' ws' h1 x stack.
    Proof.
      induction stack as [|[p o] up IH]; intros h h1 x Hx Hl H; cbn [stk] in *; [exact H|].
      destruct H as (Hn & h2 & Hlt & Hp & Hc & H). split; [exact Hn|]. rewrite (Hl Hn).
      destruct (at_chg _ _ Hp) as (h3 & Hle & Hp'). exists h3. split; [lia|]. split; [exact Hp'|]. split; [intro K; apply Hc; exact (Hh _ _ Hp K)|].
      apply (IH h2 h3 p Hp); [|exact H]. intro Hpn. pose proof (c_at _ _ _ _ _ _ _ _ _ HC _ _ Hp Hpn) as Hp2.
      exact (at_inj _ _ _ _ _ _ _ _ _ HI' _ _ _ Hp' Hp2).
    Qed.
    Lemma stk_chg_eq stack h x : at_ G h x -> at_ G' h x -> stk G ws h x stack -> stk G' ws' h x stack.
    Proof. intros Hx Hx' H. eapply stk_chg; eauto. Qed.
    Lemma pend_chg h lb rb k : lb <> b -> pend st G ws h lb rb k -> pend st' G' ws' h lb rb k.
    Proof.
      intros Hb (A & B & C & (pl & D & D') & E & F & H).
      assert (Hrr : rb <> root).
      { intros ->. apply F. rewrite (at_root_top _ _ _ _ _ _ _ _ _ HI _ B) in A. exact (at_top _ _ _ _ _ _ _ _ _ HI _ A). }
      split; [exact (c_at _ _ _ _ _ _ _ _ _ HC _ _ A F)|]. split; [exact (c_at _ _ _ _ _ _ _ _ _ HC _ _ B Hrr)|]. split; [exact C|].
      split; [destruct (c_keep _ _ _ _ _ _ _ _ _ HC _ _ _ A Hb D) as (px' & Hg & _ & Er); exists px'; split; [exact Hg|congruence]|].
      split; [rewrite (c_slo _ _ _ _ _ _ _ _ _ HC _ _ B); exact E|]. split; [exact F|]. intro K. apply H. exact (Hh _ _ A K).
    Qed.
    Lemma ahead_chg h x c : at_ G h c -> (exists h0, at_ G h0 x) -> ahead st G ws h x c -> ahead st' G' ws' h x c.
    Proof.
      intros Hc (h0 & Hx) (p & Hp & Hho & Hle). destruct (Hm _ _ _ Hc Hp Hho) as (p' & P1 & P2 & P3). exists p'. split; [exact P1|].
      split; [exact P2|]. rewrite (c_slo _ _ _ _ _ _ _ _ _ HC _ _ Hx). eapply (ble_trans cmp OK); eauto.
    Qed.
    Lemma wok_chg w : locked w <> Some b -> wok st G ws w -> wok st' G' ws' w.
    Proof.
      intros Hl. destruct w as [x c stack|k lb rb c off up|k lb rb|k lb rb c lm|k lb rb p off up| | |]; cbn [wok locked] in *; auto.
      - intros (A & h & B & C & D & E). split; [exact A|]. destruct (at_chg _ _ B) as (h1 & Hle & B'). exists h1.
        split; [exact B'|]. split; [rewrite (c_slo _ _ _ _ _ _ _ _ _ HC _ _ B); exact C|]. split; [intro K; apply D; exact (Hh _ _ B K)|].
        eapply (stk_chg stack h h1 c B); [|exact E]. intro Hn. pose proof (c_at _ _ _ _ _ _ _ _ _ HC _ _ B Hn) as B2.
        exact (at_inj _ _ _ _ _ _ _ _ _ HI' _ _ _ B' B2).
      - intros (h & h' & A & B & C & D & E). destruct (at_chg _ _ C) as (h1 & Hle & C'). exists h, h1.
        split; [apply pend_chg; [congruence|exact A]|]. split; [lia|]. split; [exact C'|]. split; [intro K; apply D; exact (Hh _ _ C K)|].
        eapply (stk_chg up h' h1 c C); [|exact E]. intro Hn. pose proof (c_at _ _ _ _ _ _ _ _ _ HC _ _ C Hn) as C2.
        exact (at_inj _ _ _ _ _ _ _ _ _ HI' _ _ _ C' C2).
      - intros (h & A). exists h. apply pend_chg; [congruence|exact A].
      - intros (h & h' & A & B & C & D & E & F & H). exists h, h'. split; [apply pend_chg; [congruence|exact A]|].
        split; [exact (c_at _ _ _ _ _ _ _ _ _ HC _ _ B D)|]. split; [exact C|]. split; [exact D|]. split; [intro K; apply E; exact (Hh _ _ B K)|].
        split; [intro Eh; apply ahead_chg; [apply A|eauto|auto]|]. destruct lm as [m|].
        + destruct H as (H1 & H2 & H3). split; [eapply at_low; [exact H1| |exists c; exact B]; lia|].
          split; [rewrite (c_slo _ _ _ _ _ _ _ _ _ HC _ _ H1); exact H2|]. intro K. apply H3. exact (Hh _ _ H1 K).
        + rewrite (c_slo _ _ _ _ _ _ _ _ _ HC _ _ B). exact H.
      - intros (h & pg & k0 & A & B & C & D & E & F & H & I & J & K & L & M).
        assert (Hpb : p <> b) by congruence.
        assert (C' : at_ G' (S h) p).
        { destruct (Nat.eq_dec p root) as [->|Hn]; [|exact (c_at _ _ _ _ _ _ _ _ _ HC _ _ C Hn)].
          rewrite (at_root_top _ _ _ _ _ _ _ _ _ HI _ C), <- (c_lev _ _ _ _ _ _ _ _ _ HC ltac:(congruence)). exact (at_root _ _ _ _ _ _ _ _ _ HI'). }
        assert (Hex : exists y, at_ G (S h) y) by eauto.
        destruct (c_keep _ _ _ _ _ _ _ _ _ HC _ _ _ C Hpb E) as (pg' & Eg & Ed & Er). exists h, pg', k0.
        split; [eapply at_low; [exact A| |exact Hex]; lia|]. split; [eapply at_low; [exact B| |exact Hex]; lia|]. split; [exact C'|]. split; [exact D|].
        split; [exact Eg|]. split; [exact F|]. split; [rewrite Ed; exact H|].
        rewrite (c_slo _ _ _ _ _ _ _ _ _ HC _ _ B). split; [eapply (ble_trans cmp OK); [exact (c_shi _ _ _ _ _ _ _ _ _ HC _ _ A)|exact I]|].
        split; [exact J|]. split.
        { assert (Erm : rightmost pg' = rightmost pg) by (unfold rightmost; rewrite Er; reflexivity).
          rewrite Ed, Erm, (c_same _ _ _ _ _ _ _ _ _ HC _ _ C Hpb). eapply (slot_mono cmp OK); [exact (c_shi _ _ _ _ _ _ _ _ _ HC _ _ B)|].
          unfold slot_ok in *. destruct (skipn off (p_downs pg)) as [|[k2 c2] d2] eqn:Es; [exact K|].
          assert (Hc2 : at_ G h c2).
          { destruct (pgf st root G HI _ _ _ C E) as (_ & _ & _ & _ & _ & Hb). destruct Hb as (_ & _ & Hch & _). rewrite Forall_forall in Hch.
            apply (Hch (k2, c2)). rewrite <- (firstn_skipn off (p_downs pg)), Es. apply in_app_iff. right; left; reflexivity. }
          rewrite (c_slo _ _ _ _ _ _ _ _ _ HC _ _ Hc2). exact K. }
        split; [intro X; apply L; exact (Hh _ _ C X)|]. eapply stk_chg_eq; eauto.
    Qed.
  End Stable.

  Lemma rb_at st G ws w c : wok st G ws w -> rbOf w = Some c -> exists h, at_ G h c.
  Proof.
    destruct w as [x b stack|k lb rb b off up|k lb rb|k lb rb b lm|k lb rb p off up| | |]; cbn [wok rbOf]; intros H E; try discriminate; injection E as <-.
    - destruct H as (h & h' & (A & B & _) & _). eauto.
    - destruct H as (h & (A & B & _)). eauto.
    - destruct H as (h & h' & (A & B & _) & _). eauto.
    - destruct H as (h & pg & k0 & A & B & _). eauto.
  Qed.
  Lemma lock_at st G ws w c : wok st G ws w -> locked w = Some c -> exists h, at_ G h c.
  Proof.
    destruct w as [x b stack|k lb rb b off up|k lb rb|k lb rb b lm|k lb rb p off up| | |]; cbn [wok locked]; intros H E; try discriminate; injection E as <-.
    - destruct H as (h & h' & (A & B & _) & _). eauto.
    - destruct H as (h & (A & B & _)). eauto.
    - destruct H as (h & h' & (A & B & _) & _). eauto.
    - destruct H as (h & pg & k0 & A & B & C & _). eauto.
  Qed.

  (** ** one step *)
  Section Step.
    Context (st st' : store) (G G' : ghost) (ws : list writer) (i : nat) (w w' : writer) (b : nat) (own new : option nat).
    Hypothesis HCI : CI st G ws.
    Hypothesis Hw : nth_error ws i = Some w.
    Hypothesis HI' : Inv st' root G'.
    Hypothesis HT' : tiled st' G'.
    Hypothesis HC : chg b own new st G st' G'.
    Hypothesis Hb : forall j wj, j <> i -> nth_error ws j = Some wj -> locked wj <> Some b.
    Hypothesis Hlock : forall q, locked w' = Some q -> forall j wj, j <> i -> nth_error ws j = Some wj -> locked wj <> Some q.
    Hypothesis Hrb : forall c, rbOf w' = Some c -> rbOf w = Some c \/ new = Some c.
    Hypothesis Hhid' : forall c, hid w' = Some c -> hid w = Some c \/ new = Some c.
    Hypothesis Hnew : forall c, new = Some c -> hid w' = Some c /\ forall h, ~ at_ G h c.
    Hypothesis Hown : forall c, own = Some c -> rbOf w = Some c /\ rbOf w' <> Some c.
    Hypothesis Hplc : forall k lb c p off up, w = WPlace k lb c p off up -> own = Some c /\ p = b.
    Hypothesis Hhid : forall c, hid w = Some c -> hid w' = Some c \/
      exists k lb p off up h, w' = WPlace k lb c p off up /\ at_ G' h c /\ at_ G' (S h) p.
    Let ws' := upd ws i w'.
    Let HI : Inv st root G := ci_inv _ _ _ HCI.

    Lemma nth_ws' j : nth_error ws' j = if j =? i then Some w' else nth_error ws j.
    Proof. apply nth_upd. eapply nth_some_lt; exact Hw. Qed.
    Lemma hidden_step h c : at_ G h c -> hidden ws' c -> hidden ws c.
    Proof.
      intros Hc (j & wj & Hj & E). rewrite nth_ws' in Hj. destruct (j =? i).
      - injection Hj as <-. destruct (Hhid' _ E) as [K|K]; [exists i, w; auto|]. exfalso. destruct (Hnew _ K) as [_ K']. exact (K' _ Hc).
      - exists j, wj. auto.
    Qed.
    Lemma home_step h c p : at_ G h c -> at_ G (S h) p -> home st ws c p ->
      exists p', at_ G' (S h) p' /\ home st' ws' c p' /\ ble (slo G p) (slo G' p').
    Proof.
      intros Hc Hp [(px & k & Hg & Hin)|(j & k & lb & off & up & Hj)].
      - destruct (c_downs _ _ _ _ _ _ _ _ _ HC _ _ _ _ _ Hp Hg Hin) as (p' & px' & k' & A & B & D & E). exists p'. split; [exact A|].
        split; [left; eauto|exact E].
      - destruct (Nat.eq_dec j i) as [->|Hn].
        + rewrite Hw in Hj. injection Hj as Hj. destruct (Hplc _ _ _ _ _ _ Hj) as [E1 ->].
          destruct (c_own _ _ _ _ _ _ _ _ _ HC _ _ E1 Hc) as (p' & px' & k' & A & B & D & E). exists p'. split; [exact A|].
          split; [left; eauto|exact E].
        + exists p. assert (Hpb : p <> b) by (intros ->; exact (Hb j _ Hn Hj eq_refl)). split.
          { destruct (Nat.eq_dec p root) as [->|Hpn]; [|exact (c_at _ _ _ _ _ _ _ _ _ HC _ _ Hp Hpn)].
            rewrite (at_root_top _ _ _ _ _ _ _ _ _ HI _ Hp), <- (c_lev _ _ _ _ _ _ _ _ _ HC ltac:(congruence)). exact (at_root _ _ _ _ _ _ _ _ _ HI'). }
          split; [|rewrite (c_slo _ _ _ _ _ _ _ _ _ HC _ _ Hp); apply ble_refl; exact OK].
          right. exists j, k, lb, off, up. rewrite nth_ws'. destruct (Nat.eqb_spec j i); [congruence|exact Hj].
    Qed.
    Lemma step_ci : wok st' G' ws' w' -> CI st' G' ws'.
    Proof.
      intro Hok. constructor; [exact HI'|exact HT'| | | | |].
      - intros j1 j2 w1 w2 q H1 H2 L1 L2. rewrite nth_ws' in H1, H2.
        destruct (Nat.eqb_spec j1 i) as [E1|E1], (Nat.eqb_spec j2 i) as [E2|E2]; [congruence| | |].
        + injection H1 as <-. exfalso. exact (Hlock _ L1 _ _ E2 H2 L2).
        + injection H2 as <-. exfalso. exact (Hlock _ L2 _ _ E1 H1 L1).
        + exact (ci_lock _ _ _ HCI _ _ _ _ _ H1 H2 L1 L2).
      - assert (K : forall j wj c, j <> i -> nth_error ws j = Some wj -> rbOf wj = Some c -> rbOf w' = Some c -> False).
        { intros j wj c Hn Hj Ej E. destruct (Hrb _ E) as [E'|E'].
          - apply Hn. exact (ci_rb _ _ _ HCI _ _ _ _ _ Hj Hw Ej E').
          - destruct (rb_at _ _ _ _ _ (ci_ok _ _ _ HCI _ _ Hj) Ej) as [h Hat]. destruct (Hnew _ E') as [_ N]. exact (N _ Hat). }
        intros j1 j2 w1 w2 q H1 H2 L1 L2. rewrite nth_ws' in H1, H2.
        destruct (Nat.eqb_spec j1 i) as [E1|E1], (Nat.eqb_spec j2 i) as [E2|E2]; [congruence| | |].
        + injection H1 as <-. exfalso. exact (K _ _ _ E2 H2 L2 L1).
        + injection H2 as <-. exfalso. exact (K _ _ _ E1 H1 L1 L2).
        + exact (ci_rb _ _ _ HCI _ _ _ _ _ H1 H2 L1 L2).
      - assert (Dat : forall h q qx k c, at_ G h q -> get st q = Some qx -> In (k, c) (p_downs qx) -> exists h0, at_ G h0 c).
        { intros h q qx k c H1 H2 H3. destruct (down_level cmp ifit lbound ok fit tight st root G HI _ _ _ _ _ H1 H2 H3) as (h' & _ & K). eauto. }
        intros j wj c Hj Ej h q qx k Hq Hgq Hin. rewrite nth_ws' in Hj. destruct (Nat.eqb_spec j i) as [->|Hn].
        + injection Hj as <-. destruct (Hrb _ Ej) as [Er|Er].
          * destruct (c_new _ _ _ _ _ _ _ _ _ HC _ _ _ _ _ Hq Hgq Hin) as [(h' & q' & qx' & k' & A & B & D)|[E|[E _]]].
            -- exact (ci_nodown _ _ _ HCI _ _ _ Hw Er _ _ _ _ A B D).
            -- destruct (Hown _ E) as [_ N]. congruence.
            -- destruct (rb_at _ _ _ _ _ (ci_ok _ _ _ HCI _ _ Hw) Er) as [h0 Hat]. exact (E _ Hat).
          * destruct (Hnew _ Er) as [_ N]. destruct (c_new _ _ _ _ _ _ _ _ _ HC _ _ _ _ _ Hq Hgq Hin) as [(h' & q' & qx' & k' & A & B & D)|[E|[_ E]]].
            -- destruct (Dat _ _ _ _ _ A B D) as [h0 Hat]. exact (N _ Hat).
            -- destruct (Hown _ E) as [Er' _]. destruct (rb_at _ _ _ _ _ (ci_ok _ _ _ HCI _ _ Hw) Er') as [h0 Hat]. exact (N _ Hat).
            -- congruence.
        + destruct (c_new _ _ _ _ _ _ _ _ _ HC _ _ _ _ _ Hq Hgq Hin) as [(h' & q' & qx' & k' & A & B & D)|[E|[E _]]].
          * exact (ci_nodown _ _ _ HCI _ _ _ Hj Ej _ _ _ _ A B D).
          * destruct (Hown _ E) as [Er _]. apply Hn. exact (ci_rb _ _ _ HCI _ _ _ _ _ Hj Hw Ej Er).
          * destruct (rb_at _ _ _ _ _ (ci_ok _ _ _ HCI _ _ Hj) Ej) as [h0 Hat]. exact (E _ Hat).
      - intros h c Hc Hcr Hnh. destruct (c_fresh _ _ _ _ _ _ _ _ _ HC _ _ Hc) as [(h0 & Hc0)|[E|(p & px & k & A & B & D)]].
        + assert (h0 = h) as ->.
          { exact (at_inj _ _ _ _ _ _ _ _ _ HI' _ _ _ (c_at _ _ _ _ _ _ _ _ _ HC _ _ Hc0 Hcr) Hc). }
          destruct (hidden_dec ws c) as [(j & wj & Hj & Ej)|Hd].
          * destruct (Nat.eq_dec j i) as [->|Hn].
            -- rewrite Hw in Hj. injection Hj as <-. destruct (Hhid _ Ej) as [E|(k & lb & p & off & up & h1 & E & H1 & H2)].
               ++ destruct Hnh. exists i, w'. rewrite nth_ws', Nat.eqb_refl. auto.
               ++ rewrite (at_inj _ _ _ _ _ _ _ _ _ HI' _ _ _ H1 Hc) in H2. exists p. split; [exact H2|]. right. exists i, k, lb, off, up. rewrite nth_ws', Nat.eqb_refl. congruence.
            -- destruct Hnh. exists j, wj. rewrite nth_ws'. destruct (Nat.eqb_spec j i); [congruence|auto].
          * destruct (ci_home _ _ _ HCI _ _ Hc0 Hcr Hd) as (p & Hp & Hho). destruct (home_step _ _ _ Hc0 Hp Hho) as (p' & A & B & _). eauto.
        + destruct Hnh. destruct (Hnew _ E) as [E' _]. exists i, w'. rewrite nth_ws', Nat.eqb_refl. auto.
        + exists p. split; [exact A|]. left. eauto.
      - intros j wj Hj. rewrite nth_ws' in Hj. destruct (Nat.eqb_spec j i) as [->|Hn]; [injection Hj as <-; exact Hok|].
        eapply (wok_chg st st' G G' ws ws' b own new HI HI' HC); [exact hidden_step|exact home_step|exact (Hb _ _ Hn Hj)|exact (ci_ok _ _ _ HCI _ _ Hj)].
    Qed.
  End Step.

  (** ** locks and right halves *)
  Lemma free_spec (ws : list writer) i b : free ws i b = true -> forall j wj, j <> i -> nth_error ws j = Some wj -> locked wj <> Some b.
  Proof.
    unfold free. rewrite forallb_forall. intros H j wj Hn Hj E. specialize (H j). rewrite Hj, E in H.
    destruct (Nat.eqb_spec j i); [congruence|]. cbn [orb] in H. rewrite Nat.eqb_refl in H. cbn [negb] in H.
    assert (false = true) by (apply H; apply in_seq; apply nth_some_lt in Hj; lia). discriminate.
  Qed.
  Lemma hid_pend st G ws w c : wok st G ws w -> hid w = Some c -> exists h lb k, locked w = Some lb /\ pend st G ws h lb c k.
  Proof.
    destruct w as [x b stack|k lb rb b off up|k lb rb|k lb rb b lm|k lb rb p off up| | |]; cbn [wok hid locked]; intros H E; try discriminate; injection E as <-.
    - destruct H as (h & h' & A & _). eauto 6.
    - destruct H as (h & A). eauto 6.
    - destruct H as (h & h' & A & _). eauto 6.
  Qed.

  (** ** how a step brings a writer forward *)
  (** [b'] lies on a lower level than [b], or to its right *)
  Definition later (G : ghost) (b b' : nat) : Prop :=
    exists h, at_ G h b /\ ((exists h', h' < h /\ at_ G h' b') \/ exists L1 L2, nth_error (lv G) h = Some (L1 ++ b :: L2) /\ In b' L2).
  Definition moves (G : ghost) (w w' : writer) : Prop :=
    match w, w' with
    | WDown _ b _, WDown _ b' _ => later G b b'
    | WWalk _ lb _ b _ _, WWalk _ lb' _ b' _ _ => lb' = lb /\ later G b b'
    | WWalk _ lb _ _ _ _, WRoot _ lb' _ => lb' = lb
    | WRoot _ lb _, WLevel _ lb' _ _ _ => lb' = lb
    | WLevel _ lb _ b _, WLevel _ lb' _ b' _ => lb' = lb /\ later G b b'
    | WWalk _ lb _ _ _ _, WPlace _ lb' _ _ _ _ | WRoot _ lb _, WPlace _ lb' _ _ _ _ | WLevel _ lb _ _ _, WPlace _ lb' _ _ _ _ => lb' = lb
    | _, _ => False
    end.
  (** the writer has split a page one level above its former place *)
  Definition climbs (G : ghost) (w w' : writer) : Prop :=
    match w, w' with
    | WDown _ _ _, WWalk _ lb' _ _ _ _ => at_ G 0 lb' /\ lb' <> root
    | WPlace _ lb _ _ _ _, WWalk _ lb' _ _ _ _ => exists h, at_ G h lb /\ at_ G (S h) lb' /\ lb' <> root
    | _, _ => False
    end.
  Definition prog (G : ghost) (w : writer) (G' : ghost) (w' : writer) : Prop :=
    evolve root G G' /\
    ((w' = WDone /\ top G' <= S (top G)) \/ (top G' = top G /\ climbs G w w') \/ (G' = G /\ moves G w w')).

  Section Move.
    Context (st : store) (G : ghost) (ws : list writer).
    Hypothesis HCI : CI st G ws.
    Let HI : Inv st root G := ci_inv _ _ _ HCI.

    Lemma root_clean : ~ hidden ws root.
    Proof.
      intros (j & wj & Hj & E). destruct (hid_pend _ _ _ _ _ (ci_ok _ _ _ HCI _ _ Hj) E) as (h & lb & k & _ & A & B & _ & _ & _ & N & _).
      apply N. rewrite (at_root_top _ _ _ _ _ _ _ _ _ HI _ B) in A. exact (at_top _ _ _ _ _ _ _ _ _ HI _ A).
    Qed.
    Lemma right_clean h b pg r : at_ G h b -> get st b = Some pg -> p_right pg = Some r ->
      (forall j wj, nth_error ws j = Some wj -> hid wj <> None -> locked wj <> Some b) -> ~ hidden ws r.
    Proof.
      intros Hb Hg Hr Hf (j & wj & Hj & E). destruct (hid_pend _ _ _ _ _ (ci_ok _ _ _ HCI _ _ Hj) E) as (h0 & lb & k & Hl & A & B & _ & (pl & Gl & Rl) & _).
      assert (Hr' : at_ G h r) by (eapply (right_at cmp ifit lbound ok fit tight st root G HI); eauto).
      assert (h0 = h) as -> by exact (at_inj _ _ _ _ _ _ _ _ _ HI _ _ _ B Hr').
      assert (lb = b) as -> by (eapply (right_inj cmp OK ifit lbound ok fit tight st root G HI); eauto).
      apply (Hf _ _ Hj); congruence.
    Qed.
    Lemma child_clean h p pg k c : at_ G h p -> get st p = Some pg -> In (k, c) (p_downs pg) -> ~ hidden ws c.
    Proof.
      intros Hp Hg Hin (j & wj & Hj & E). exact (ci_nodown _ _ _ HCI _ _ _ Hj (hid_rb _ _ E) _ _ _ _ Hp Hg Hin).
    Qed.
    Lemma stk_right h b r stack pg : at_ G h b -> get st b = Some pg -> p_right pg = Some r -> stk G ws h b stack -> stk G ws h r stack.
    Proof.
      intros Hb Hg Hr. destruct stack as [|[p o] up]; cbn [stk].
      - intros ->. destruct (root_right _ _ _ _ _ _ _ _ _ HI _ Hg) as [E _]. congruence.
      - intros (Hn & H). split; [|exact H]. intros ->. assert (Hr' : at_ G h root) by (eapply (right_at cmp ifit lbound ok fit tight st root G HI); eauto).
        apply Hn. rewrite (at_root_top _ _ _ _ _ _ _ _ _ HI _ Hr') in Hb. exact (at_top _ _ _ _ _ _ _ _ _ HI _ Hb).
    Qed.

    Lemma chg_refl : chg (length st) None None st G st G.
    Proof.
      constructor; auto; try discriminate.
      - intros. apply ble_refl. exact OK.
      - intros h x px Hx _ Hg. exists px. auto.
      - intros h p px k c Hp Hg Hin. exists p, px, k. split; [exact Hp|]. split; [exact Hg|]. split; [exact Hin|]. apply ble_refl. exact OK.
      - intros h p px k c Hp Hg Hin. left. exists h, p, px, k. auto.
      - intros h c Hc. left. eauto.
    Qed.
    Lemma right_later h b pg r : at_ G h b -> get st b = Some pg -> p_right pg = Some r -> later G b r.
    Proof.
      intros Hb Hg Hr. destruct (at_split G _ _ Hb) as (L1 & L2 & HL). exists h. split; [exact Hb|]. right. exists L1, L2. split; [exact HL|].
      pose proof (I_links _ _ _ _ _ _ _ _ _ HI _ _ HL) as Hk. apply links_at in Hk as (pg' & Hg' & Hr' & _).
      rewrite Hg in Hg'. injection Hg' as <-. rewrite Hr in Hr'. destruct L2 as [|r' L2]; [discriminate|]. injection Hr' as <-. left; reflexivity.
    Qed.

    Context (i : nat) (w : writer).
    Hypothesis Hw : nth_error ws i = Some w.

    (** a step that changes no page *)
    Lemma move_ci w' : (forall k lb c p off up, w <> WPlace k lb c p off up) ->
      (forall q, locked w' = Some q -> forall j wj, j <> i -> nth_error ws j = Some wj -> locked wj <> Some q) ->
      (forall c, rbOf w' = Some c -> rbOf w = Some c) -> (forall c, hid w' = Some c -> hid w = Some c) ->
      (forall c, hid w = Some c -> hid w' = Some c \/
        exists k lb p off up h, w' = WPlace k lb c p off up /\ at_ G h c /\ at_ G (S h) p) ->
      wok st G ws w' -> CI st G (upd ws i w').
    Proof.
      intros Hnp Hlk Hrb Hhid' Hhid Hok.
      assert (Hfr : forall wj, wok st G ws wj -> locked wj <> Some (length st)).
      { intros wj Hj E. destruct (lock_at _ _ _ _ _ Hj E) as [h Hat]. pose proof (at_valid _ _ _ _ _ _ _ _ _ HI _ _ Hat). lia. }
      assert (Hb : forall j wj, j <> i -> nth_error ws j = Some wj -> locked wj <> Some (length st)).
      { intros j wj _ Hj. exact (Hfr _ (ci_ok _ _ _ HCI _ _ Hj)). }
      assert (Hp : forall k lb c p off up, w = WPlace k lb c p off up -> None = Some c /\ p = length st).
      { intros k lb c p off up E. destruct (Hnp _ _ _ _ _ _ E). }
      eapply (step_ci st st G G ws i w w' (length st) None None HCI Hw HI (ci_tile _ _ _ HCI) chg_refl Hb Hlk); auto; try discriminate.
      eapply (wok_chg st st G G ws (upd ws i w') (length st) None None HI HI chg_refl); [| |exact (Hfr _ Hok)|exact Hok].
      - eapply (hidden_step G ws i w w' None Hw); auto. discriminate.
      - eapply (home_step st st G G ws i w w' (length st) None None HCI Hw HI chg_refl Hb Hp).
    Qed.
  End Move.

  (** ** what a step does to the rows *)
  Definition leaves (C C' : list T) (w w' : writer) : Prop :=
    (forall y, In y C -> In y C') /\
    (forall y, In y C' -> In y C \/ exists b s, w = WDown y b s) /\
    match w with
    | WDown x _ _ => (exists b s, w' = WDown x b s /\ forall y, In y C' -> In y C) \/
        ((forall y b s, w' <> WDown y b s) /\ exists y, In y C' /\ cmp y x = 0%Z)
    | _ => forall y b s, w' <> WDown y b s
    end.
  Definition stepped (st : store) (G : ghost) (ws : list writer) (i : nat) (w : writer) (st' : store) (w' : writer) : Prop :=
    exists G', CI st' G' (upd ws i w') /\ leaves (contents st G) (contents st' G') w w' /\ prog G w G' w'.

  Lemma leaves_same C w w' : (forall x b s, w <> WDown x b s) -> (forall x b s, w' <> WDown x b s) -> leaves C C w w'.
  Proof. intros H H'. split; [auto|]. split; [auto|]. destruct w; try exact H'. destruct (H x b stack eq_refl). Qed.

  Lemma tail_move C G w w' : leaves C C w w' -> moves G w w' -> leaves C C w w' /\ prog G w G w'.
  Proof. intros A B. split; [exact A|]. split; [apply evolve_refl|auto]. Qed.
  Lemma chg_evolve b own new st G st' G' : chg b own new st G st' G' -> evolve root G G'.
  Proof. intros H h x Hx Hn. split; [exact (c_at _ _ _ _ _ _ _ _ _ H _ _ Hx Hn)|exact (c_slo _ _ _ _ _ _ _ _ _ H _ _ Hx)]. Qed.
  Lemma tail_done C C' b own st G st' G' w : leaves C C' w WDone -> chg b own None st G st' G' -> leaves C C' w WDone /\ prog G w G' WDone.
  Proof. intros A B. split; [exact A|]. split; [exact (chg_evolve _ _ _ _ _ _ _ B)|]. left. split; [reflexivity|exact (c_up _ _ _ _ _ _ _ _ _ B)]. Qed.
  Lemma tail_climb C C' b own new st G st' G' w w' : leaves C C' w w' -> chg b own new st G st' G' -> b <> root -> climbs G w w' -> leaves C C' w w' /\ prog G w G' w'.
  Proof. intros A B Hb D. split; [exact A|]. split; [exact (chg_evolve _ _ _ _ _ _ _ B)|]. right; left. split; [exact (c_lev _ _ _ _ _ _ _ _ _ B Hb)|exact D]. Qed.

  Section Acts.
    Context (st : store) (G : ghost) (ws : list writer) (i : nat).
    Hypothesis HCI : CI st G ws.
    Let HI : Inv st root G := ci_inv _ _ _ HCI.
    Notation frees := (free_spec ws i).
    Notation getp := (page_get cmp ifit lbound ok fit tight st root G HI).

    Lemma walk_found h lb rb k b pg o : pend st G ws h lb rb k -> at_ G (S h) b -> get st b = Some pg -> 1 <= o ->
      forall k0, nth_error (p_downs pg) (o - 1) = Some (k0, lb) -> ~ hidden ws b -> (exists w, nth_error ws i = Some w /\ rbOf w = Some rb) ->
      forall up, stk G ws (S h) b up -> wok st G ws (WPlace k lb rb b o up).
    Proof.
      intros (A & B & C & (pl & D & D') & E & F & N) Hb Hg Ho k0 Hn Hc (w & Hw & Er) up Hs. cbn [wok]. exists h, pg, k0.
      split; [exact A|]. split; [exact B|]. split; [exact Hb|]. split; [exact C|]. split; [exact Hg|]. split; [exact Ho|]. split; [exact Hn|].
      destruct (pgf st root G HI _ _ _ A D) as (_ & _ & _ & _ & K & _). destruct (K _ D') as [K1 _]. split; [exact K1|]. split; [exact E|].
      split; [|auto]. eapply (found_slot cmp OK ifit lbound ok fit tight st root G HI h lb rb pl b pg o k0); eauto.
      - exact (ci_tile _ _ _ HCI).
      - exact (ci_nodown _ _ _ HCI _ _ _ Hw Er).
    Qed.
    Lemma place_home h b lb w : at_ G h b -> nth_error ws i = Some w -> rbOf w <> Some lb \/ True ->
      (forall j wj, j <> i -> nth_error ws j = Some wj -> locked wj <> Some b) ->
      (forall k l c p off up, w <> WPlace k l c p off up) -> forall pg, get st b = Some pg -> (forall k, ~ In (k, lb) (p_downs pg)) -> ~ home st ws lb b.
    Proof.
      intros Hb Hw _ Hf Hnp pg Hg Hno [(px & k & Hgx & Hin)|(j & k & l & off & up & Hj)].
      - rewrite Hg in Hgx. injection Hgx as <-. exact (Hno _ Hin).
      - destruct (Nat.eq_dec j i) as [->|Hn]; [rewrite Hw in Hj; injection Hj as Hj; exact (Hnp _ _ _ _ _ _ Hj)|]. exact (Hf _ _ Hn Hj eq_refl).
    Qed.

    Lemma act_walk k lb rb b off up st' w' : nth_error ws i = Some (WWalk k lb rb b off up) ->
      act (free ws i) st root (WWalk k lb rb b off up) = Some (st', w') -> stepped st G ws i (WWalk k lb rb b off up) st' w'.
    Proof.
      intros Hw. cbn [BTreeConc.act]. destruct (free ws i b) eqn:Ef; cbn [negb]; [|discriminate]. pose proof (frees _ Ef) as Hf.
      pose proof (ci_ok _ _ _ HCI _ _ Hw) as (h & h' & Hp & Hlt & Hb & Hc & Hs). destruct (getp _ _ Hb) as [pg Hg]. rewrite Hg.
      assert (Hnp : forall k1 lb1 c p off1 up1, WWalk k lb rb b off up <> WPlace k1 lb1 c p off1 up1) by discriminate.
      assert (Hlb : at_ G h lb) by apply Hp.
      assert (Hbl : lb <> b) by (intros ->; pose proof (at_inj _ _ _ _ _ _ _ _ _ HI _ _ _ Hb Hlb); lia).
      destruct (findChildPtr pg lb off) as [o|] eqn:Ec.
      - intro E. injection E as <- <-. destruct (findChildPtr_some _ _ _ _ Ec) as (Ho & k0 & Hn).
        assert (h' = S h) as -> by (eapply (parent_level cmp ifit lbound ok fit tight st root G HI); [split; [exact Hb|eauto 6]|exact Hlb]).
        exists G. split; [|apply tail_move; [apply leaves_same; discriminate|reflexivity]]. eapply (move_ci st G ws HCI i _ Hw); auto.
        + intros q E. injection E as <-. exact Hf.
        + discriminate.
        + intros c E. injection E as <-. right. exists k, lb, b, o, up, h. split; [reflexivity|]. split; [apply Hp|exact Hb].
        + eapply walk_found; eauto.
      - destruct (p_right pg) as [r|] eqn:Er; intro E; injection E as <- <-; exists G; (split; [|apply tail_move; [apply leaves_same; discriminate|cbn [moves]; first [reflexivity|split; [reflexivity|first [eapply (right_later st G ws HCI); eassumption|exists (S h'); split; [exact Hb|left; exists h'; split; [lia|exact Hm1]]]]]]]);
          eapply (move_ci st G ws HCI i _ Hw); auto; try (intros q E; injection E as <-; intros j wj Hn Hj E; apply Hn; exact (ci_lock _ _ _ HCI _ _ _ _ _ Hj Hw E eq_refl)).
        + cbn [wok]. exists h, h'. split; [exact Hp|]. split; [exact Hlt|].
          split; [eapply (right_at cmp ifit lbound ok fit tight st root G HI); eauto|].
          split; [|exact (stk_right st G ws HCI _ _ _ _ _ Hb Hg Er Hs)]. apply (right_clean st G ws HCI _ b pg r Hb Hg Er).
          intros j wj Hj Hh. destruct (Nat.eq_dec j i) as [->|Hn]; [|exact (Hf _ _ Hn Hj)]. rewrite Hw in Hj. injection Hj as <-. cbn [locked]. congruence.
        + cbn [wok]. eauto.
    Qed.

    Lemma act_root k lb rb st' w' : nth_error ws i = Some (WRoot k lb rb) ->
      act (free ws i) st root (WRoot k lb rb) = Some (st', w') -> stepped st G ws i (WRoot k lb rb) st' w'.
    Proof.
      intros Hw. cbn [BTreeConc.act]. destruct (free ws i root) eqn:Ef; cbn [negb]; [|discriminate]. pose proof (frees _ Ef) as Hf.
      pose proof (ci_ok _ _ _ HCI _ _ Hw) as (h & Hp). pose proof (at_root _ _ _ _ _ _ _ _ _ HI) as Hb. destruct (getp _ _ Hb) as [pg Hg]. rewrite Hg.
      assert (Hnp : forall k1 lb1 c p off1 up1, WRoot k lb rb <> WPlace k1 lb1 c p off1 up1) by discriminate.
      assert (Hlb : at_ G h lb) by apply Hp. assert (Hlr : lb <> root) by apply Hp. assert (Hlc : ~ hidden ws lb) by apply Hp.
      destruct (findChildPtr pg lb 0) as [o|] eqn:Ec.
      - intro E. injection E as <- <-. destruct (findChildPtr_some _ _ _ _ Ec) as (Ho & k0 & Hn).
        assert (Et : top G = S h) by (eapply (parent_level cmp ifit lbound ok fit tight st root G HI); [split; [exact Hb|eauto 6]|exact Hlb]).
        rewrite Et in Hb. exists G. split; [|apply tail_move; [apply leaves_same; discriminate|reflexivity]]. eapply (move_ci st G ws HCI i _ Hw); auto.
        + intros q E. injection E as <-. exact Hf.
        + discriminate.
        + intros c E. injection E as <-. right. exists k, lb, root, o, [], h. split; [reflexivity|]. split; [apply Hp|exact Hb].
        + eapply walk_found; eauto; [exact (root_clean st G ws HCI)|]. reflexivity.
      - assert (Hlt : h < top G).
        { pose proof (at_le_top _ _ _ Hlb). destruct (Nat.eq_dec h (top G)) as [Eh|Eh]; [|lia]. destruct Hlr. rewrite Eh in Hlb. exact (at_top _ _ _ _ _ _ _ _ _ HI _ Hlb). }
        destruct (ci_home _ _ _ HCI _ _ Hlb Hlr Hlc) as (p & Hpp & Hho).
        assert (Hlt2 : S h < top G).
        { destruct (Nat.eq_dec (S h) (top G)) as [Eh|Eh]; [|lia]. exfalso. rewrite Eh in Hpp. rewrite (at_top _ _ _ _ _ _ _ _ _ HI _ Hpp) in Hho.
          eapply (place_home _ root lb _ Hb Hw); eauto. intros kk. eapply findChildPtr_none; eauto. }
        pose proof (pgf st root G HI _ _ _ Hb Hg) as (_ & _ & _ & _ & _ & Hbd). destruct (top G) as [|t] eqn:Et; [lia|].
        destruct Hbd as (_ & _ & Hch & _ & _ & [kf cf] & df & Edf & Esl). rewrite Edf. intro E. injection E as <- <-.
        cbn [snd] in Esl. rewrite (root_slo _ _ _ _ _ _ _ _ _ HI) in Esl. rewrite Forall_forall in Hch.
        assert (Hcf : at_ G t cf) by (apply (Hch (kf, cf)); rewrite Edf; left; reflexivity).
        exists G. split; [|apply tail_move; [apply leaves_same; discriminate|reflexivity]]. eapply (move_ci st G ws HCI i _ Hw); auto.
        + intros q E. injection E as <-. intros j wj Hn Hj E. apply Hn. exact (ci_lock _ _ _ HCI _ _ _ _ _ Hj Hw E eq_refl).
        + cbn [wok]. exists h, t. split; [exact Hp|]. split; [exact Hcf|]. split; [lia|]. split; [eapply (at_not_root _ _ _ _ _ _ _ _ _ HI); [exact Hcf|lia]|].
          split; [eapply (child_clean st G ws HCI); [exact Hb|exact Hg|rewrite Edf; left; reflexivity]|]. split; [|congruence].
          intros _. exists p. split; [exact Hpp|]. split; [exact Hho|]. rewrite <- Esl. apply ble_min.
    Qed.

    Lemma act_level k lb rb b lm st' w' : nth_error ws i = Some (WLevel k lb rb b lm) ->
      act (free ws i) st root (WLevel k lb rb b lm) = Some (st', w') -> stepped st G ws i (WLevel k lb rb b lm) st' w'.
    Proof.
      intros Hw. cbn [BTreeConc.act]. destruct (free ws i b) eqn:Ef; cbn [negb]; [|discriminate]. pose proof (frees _ Ef) as Hf.
      pose proof (ci_ok _ _ _ HCI _ _ Hw) as (h & h' & Hp & Hb & Hle & Hbr & Hc & Hah & Hlm). destruct (getp _ _ Hb) as [pg Hg]. rewrite Hg.
      assert (Hnp : forall k1 lb1 c p off1 up1, WLevel k lb rb b lm <> WPlace k1 lb1 c p off1 up1) by discriminate.
      assert (Hlb : at_ G h lb) by apply Hp. assert (Hlr : lb <> root) by apply Hp. assert (Hlc : ~ hidden ws lb) by apply Hp.
      pose proof (pgf st root G HI _ _ _ Hb Hg) as (Hleaf & _ & _ & _ & _ & Hbd). destruct h' as [|h']; [lia|]. rewrite Hleaf. cbn [Nat.eqb].
      assert (Hlt : S h' < top G).
      { pose proof (at_le_top _ _ _ Hb). destruct (Nat.eq_dec (S h') (top G)) as [Eh|Eh]; [|lia]. destruct Hbr. rewrite Eh in Hb. exact (at_top _ _ _ _ _ _ _ _ _ HI _ Hb). }
      replace (S h' - 1) with h' in Hlm by lia.
      assert (Hm : exists m, match lm with Some m => Some m | None => option_map snd (hd_error (p_downs pg)) end = Some m /\
        at_ G h' m /\ slo G m = BMin /\ ~ hidden ws m).
      { destruct lm as [m|]; [exists m; auto|]. destruct Hbd as (_ & _ & Hch & _ & _ & [kf cf] & df & Edf & Esl). exists cf. rewrite Edf.
        split; [reflexivity|]. rewrite Forall_forall in Hch. split; [apply (Hch (kf, cf)); rewrite Edf; left; reflexivity|]. split; [cbn [snd] in Esl; congruence|].
        eapply (child_clean st G ws HCI); [exact Hb|exact Hg|rewrite Edf; left; reflexivity]. }
      destruct Hm as (m & -> & Hm1 & Hm2 & Hm3).
      assert (Hlk : forall q, Some lb = Some q -> forall j wj, j <> i -> nth_error ws j = Some wj -> locked wj <> Some q).
      { intros q E. injection E as <-. intros j wj Hn Hj E. apply Hn. exact (ci_lock _ _ _ HCI _ _ _ _ _ Hj Hw E eq_refl). }
      destruct (findChildPtr pg lb 0) as [o|] eqn:Ec.
      - intro E. injection E as <- <-. destruct (findChildPtr_some _ _ _ _ Ec) as (Ho & k0 & Hn).
        assert (S h' = S h) as Eh by (eapply (parent_level cmp ifit lbound ok fit tight st root G HI); [split; [exact Hb|eauto 6]|exact Hlb]).
        rewrite Eh in *. exists G. split; [|apply tail_move; [apply leaves_same; discriminate|reflexivity]]. eapply (move_ci st G ws HCI i _ Hw); auto.
        + intros q E. injection E as <-. exact Hf.
        + discriminate.
        + intros c E. injection E as <-. right. exists k, lb, b, o, [(root, 0)], h. split; [reflexivity|]. split; [apply Hp|exact Hb].
        + eapply walk_found; eauto. cbn [stk]. split; [exact Hbr|]. exists (top G). split; [exact Hlt|].
          split; [exact (at_root _ _ _ _ _ _ _ _ _ HI)|]. split; [exact (root_clean st G ws HCI)|reflexivity].
      - assert (Hahp : S h' = S h -> exists p, at_ G (S h') p /\ home st ws lb p /\ ble (slo G b) (slo G p) /\ p <> b).
        { intro Eh. destruct (Hah Eh) as (p & A & B & D). rewrite <- Eh in A. exists p. split; [exact A|]. split; [exact B|]. split; [exact D|]. intros ->.
          eapply (place_home _ b lb _ Hb Hw); eauto. intros kk. eapply findChildPtr_none; eauto. }
        destruct (p_right pg) as [r|] eqn:Er; intro E; injection E as <- <-; exists G; (split; [|apply tail_move; [apply leaves_same; discriminate|cbn [moves]; first [reflexivity|split; [reflexivity|first [eapply (right_later st G ws HCI); eassumption|exists (S h'); split; [exact Hb|left; exists h'; split; [lia|exact Hm1]]]]]]]);
          eapply (move_ci st G ws HCI i _ Hw); auto.
        + assert (Hr : at_ G (S h') r) by (eapply (right_at cmp ifit lbound ok fit tight st root G HI); eauto).
          cbn [wok]. exists h, (S h'). split; [exact Hp|]. split; [exact Hr|]. split; [exact Hle|]. split; [eapply (at_not_root _ _ _ _ _ _ _ _ _ HI); [exact Hr|exact Hlt]|].
          split.
          { apply (right_clean st G ws HCI _ b pg r Hb Hg Er).
            intros j wj Hj Hh. destruct (Nat.eq_dec j i) as [->|Hn]; [|exact (Hf _ _ Hn Hj)]. rewrite Hw in Hj. injection Hj as <-. cbn [locked].
            intro E. injection E as ->. pose proof (at_inj _ _ _ _ _ _ _ _ _ HI _ _ _ Hb Hlb). lia. }
          split; [|replace (S h' - 1) with h' by lia; auto].
          intro Eh. destruct (Hahp Eh) as (p & A & B & D & N). rewrite Eh in A. exists p. split; [exact A|]. split; [exact B|]. rewrite <- Eh in A.
          pose proof (page_order cmp OK ifit lbound ok fit tight st root G HI _ _ _ Hb A N D) as K.
          destruct (page_after cmp OK ifit lbound ok fit tight st root G HI _ _ _ _ _ Hb A Hg Er K) as [->|K2]; [apply ble_refl; exact OK|].
          eapply (ble_trans cmp OK); [|exact K2]. apply blt_ble. eapply (slo_lt_shi cmp ifit lbound ok fit tight st root G HI); eauto.
        + cbn [wok]. exists h, h'. split; [exact Hp|]. split; [exact Hm1|]. split.
          { destruct (Nat.eq_dec (S h') (S h)) as [Eh|Eh]; [|lia]. exfalso. destruct (Hahp Eh) as (p & A & B & D & N). apply N.
            eapply (page_last cmp OK ifit lbound ok fit tight st root G HI); eauto. }
          split; [eapply (at_not_root _ _ _ _ _ _ _ _ _ HI); [exact Hm1|lia]|]. split; [exact Hm3|]. split; [|exact Hm2].
          intros _. destruct (ci_home _ _ _ HCI _ _ Hlb Hlr Hlc) as (p & Hpp & Hho). exists p. split; [exact Hpp|]. split; [exact Hho|].
          rewrite Hm2. apply ble_min.
    Qed.

    (** ** steps that change pages *)
    Lemma dok_lim sl sh nr lim lim' (d : list (T * nat)) : ble lim lim' -> dok cmp sl sh nr lim d -> dok cmp sl sh nr lim' d.
    Proof.
      intro Hl. induction d as [|[k c] d IH]; [auto|]. cbn [dok]. intros [H1 H2]. split; [|auto].
      destruct d as [|[k2 c2] d]; [|exact H1]. destruct H1 as [A B]. split; [eapply (ble_trans cmp OK); eauto|exact B].
    Qed.
    Lemma last_in_app {A} (u v : list A) d e : u ++ v = d ++ [e] -> v <> [] -> exists v0, v = v0 ++ [e].
    Proof.
      intros E Hv. destruct v as [|a v0 _] using rev_ind; [congruence|]. rewrite app_assoc in E. apply app_inj_tail in E as [_ ->]. eauto.
    Qed.
    Lemma placed_last (d1 d2 : list (T * nat)) k0 lb k rb d0 kk c : placed d1 k0 lb d2 k rb = d0 ++ [(kk, c)] ->
      exists d0' c', d1 ++ (k0, lb) :: d2 = d0' ++ [(kk, c')].
    Proof.
      unfold placed. intro E. destruct d2 as [|a d2 _] using rev_ind.
      - change (d1 ++ (k, lb) :: [(k0, rb)]) with (d1 ++ [(k, lb)] ++ [(k0, rb)]) in E. rewrite app_assoc in E. apply app_inj_tail in E as [_ E]. injection E as <- _.
        exists d1, lb. reflexivity.
      - assert (E' : (d1 ++ (k, lb) :: (k0, rb) :: d2) ++ [a] = d0 ++ [(kk, c)]) by (rewrite <- app_assoc; exact E).
        apply app_inj_tail in E' as [_ ->]. exists (d1 ++ (k0, lb) :: d2), c. rewrite <- app_assoc. reflexivity.
    Qed.

    (** another page than the root was split *)
    Lemma snr_step h b w own st' G' k q o up : nth_error ws i = Some w -> hid w = None ->
      (forall j wj, j <> i -> nth_error ws j = Some wj -> locked wj <> Some b) ->
      (forall c, own = Some c -> rbOf w = Some c) ->
      (forall k lb c p off up, w = WPlace k lb c p off up -> own = Some c /\ p = b) ->
      kok k -> ble (slo G' (length st)) (BAt k) ->
      at_ G h b -> ~ hidden ws b -> stk G ws h b ((q, o) :: up) ->
      Inv st' root G' -> tiled st' G' -> chg b own (Some (length st)) st G st' G' -> at_ G' h b -> at_ G' h (length st) ->
      (exists pl, get st' b = Some pl /\ p_right pl = Some (length st)) ->
      CI st' G' (upd ws i (WWalk k b (length st) q o up)).
    Proof.
      intros Hw Hh Hf Ho Hp Hk Hlk Hb Hc Hs HI' HT' HC Hb' Hr' Hpl.
      assert (Hno : forall c, Some (length st) = Some c -> hid (WWalk k b (length st) q o up) = Some c /\ forall h, ~ at_ G h c).
      { intros c E. injection E as <-. split; [reflexivity|]. intros h0 H0. pose proof (at_valid _ _ _ _ _ _ _ _ _ HI _ _ H0). lia. }
      assert (Hhs : forall h c, at_ G h c -> hidden (upd ws i (WWalk k b (length st) q o up)) c -> hidden ws c).
      { eapply (hidden_step G ws i w _ (Some (length st)) Hw); auto. }
      eapply (step_ci st st' G G' ws i w _ b own (Some (length st)) HCI Hw HI' HT' HC Hf); auto.
      - intros p E. injection E as <-. exact Hf.
      - intros c E. pose proof (Ho c E) as Er. split; [exact Er|]. cbn [rbOf]. intro E2. injection E2 as <-.
        destruct (rb_at _ _ _ _ _ (ci_ok _ _ _ HCI _ _ Hw) Er) as [h0 H0]. pose proof (at_valid _ _ _ _ _ _ _ _ _ HI _ _ H0). lia.
      - rewrite Hh. discriminate.
      - cbn [wok]. cbn [stk] in Hs. destruct Hs as (Hn & h' & Hlt & Hq & Hqc & Hs).
        destruct (at_chg st st' G G' b own (Some (length st)) HI HI' HC _ _ Hq) as (h2 & Hle & Hq'). exists h, h2.
        split.
        { split; [exact Hb'|]. split; [exact Hr'|]. split; [exact Hk|]. split; [exact Hpl|]. split; [exact Hlk|]. split; [exact Hn|]. intro K. apply Hc. eauto. }
        split; [lia|]. split; [exact Hq'|]. split; [intro K; apply Hqc; eauto|].
        eapply (stk_chg st st' G G' ws _ b own (Some (length st)) HI HI' HC Hhs up h' h2 q Hq); [|exact Hs].
        intro Hqn. exact (at_inj _ _ _ _ _ _ _ _ _ HI' _ _ _ Hq' (c_at _ _ _ _ _ _ _ _ _ HC _ _ Hq Hqn)).
    Qed.
    (** a change after which the writer has finished *)
    Lemma done_step b w own st' G' : nth_error ws i = Some w -> hid w = None ->
      (forall j wj, j <> i -> nth_error ws j = Some wj -> locked wj <> Some b) ->
      (forall c, own = Some c -> rbOf w = Some c) ->
      (forall k lb c p off up, w = WPlace k lb c p off up -> own = Some c /\ p = b) ->
      Inv st' root G' -> tiled st' G' -> chg b own None st G st' G' -> CI st' G' (upd ws i WDone).
    Proof.
      intros Hw Hh Hf Ho Hp HI' HT' HC.
      eapply (step_ci st st' G G' ws i w WDone b own None HCI Hw HI' HT' HC Hf); auto; try discriminate.
      - intros c E. split; [auto|discriminate].
      - rewrite Hh. discriminate.
      - exact I.
    Qed.

    Lemma placeDown_skip (d : list (T * nat)) off k0 c k r : nth_error d (off - 1) = Some (k0, c) -> 1 <= off ->
      exists d1 d2, d = d1 ++ (k0, c) :: d2 /\ placeDown d off k c r = placed d1 k0 c d2 k r /\ skipn off d = d2.
    Proof.
      intros Hn Ho. apply nth_error_split in Hn as (d1 & d2 & E & El). exists d1, d2. split; [exact E|]. subst d. split.
      - unfold placeDown, placed. rewrite <- El, firstn_app, Nat.sub_diag, firstn_all. simpl. rewrite app_nil_r.
        rewrite skipn_app, Nat.sub_diag, skipn_all. reflexivity.
      - replace off with (length (d1 ++ [(k0, c)])) by (rewrite app_length; simpl; lia).
        change (d1 ++ (k0, c) :: d2) with (d1 ++ [(k0, c)] ++ d2). rewrite app_assoc, skipn_app, skipn_all, Nat.sub_diag. reflexivity.
    Qed.
    Lemma placed_in (d1 d2 : list (T * nat)) k0 lb k rb kk c : In (kk, c) (placed d1 k0 lb d2 k rb) ->
      (exists k', In (k', c) (d1 ++ (k0, lb) :: d2)) \/ Some rb = Some c.
    Proof.
      unfold placed. rewrite in_app_iff. intros [H|[H|[H|H]]].
      - left. exists kk. apply in_app_iff. auto.
      - injection H as <- <-. left. exists k0. apply in_app_iff. right; left; reflexivity.
      - injection H as <- <-. auto.
      - left. exists kk. apply in_app_iff. right; right; exact H.
    Qed.
    Lemma leaves_add w w' st' G' : (forall x b s, w <> WDown x b s) -> (forall x b s, w' <> WDown x b s) ->
      rows_add st G st' G' [] -> leaves (contents st G) (contents st' G') w w'.
    Proof.
      intros H H' HR. split; [intros y Hy; apply HR; auto|]. split; [intros y Hy; apply HR in Hy as [Hy|[]]; auto|].
      destruct w; try exact H'. destruct (H x b stack eq_refl).
    Qed.

    Lemma act_place k lb rb p off up st' w' : nth_error ws i = Some (WPlace k lb rb p off up) ->
      act (free ws i) st root (WPlace k lb rb p off up) = Some (st', w') -> stepped st G ws i (WPlace k lb rb p off up) st' w'.
    Proof.
      intros Hw. cbn [BTreeConc.act].
      pose proof (ci_ok _ _ _ HCI _ _ Hw) as (h & pg & k0 & Hlb & Hrb & Hp & Hk & Hg & Ho & Hn & Hlr & Hrk & Hsl & Hc & Hs). rewrite Hg.
      assert (Hf : forall j wj, j <> i -> nth_error ws j = Some wj -> locked wj <> Some p).
      { intros j wj Hji Hj E. apply Hji. exact (ci_lock _ _ _ HCI _ _ _ _ _ Hj Hw E eq_refl). }
      assert (Hpl : forall k1 lb1 c p1 off1 up1, WPlace k lb rb p off up = WPlace k1 lb1 c p1 off1 up1 -> Some rb = Some c /\ p1 = p).
      { intros k1 lb1 c p1 off1 up1 E. injection E as -> -> -> -> -> ->. auto. }
      assert (Hown : forall c, Some rb = Some c -> rbOf (WPlace k lb rb p off up) = Some c) by auto.
      destruct (placeDown_skip _ _ _ _ k rb Hn Ho) as (d1 & d2 & Ed & Epl & Esk). rewrite Epl.
      assert (Hpend : slot_ok cmp (slo G) (negb (rightmost pg)) (shi G p) k0 d2 (shi G rb)) by (rewrite <- Esk; exact Hsl).
      assert (PF := place_facts cmp OK ifit lbound ok fit tight st root G HI h p lb rb pg d1 d2 k0 k Hp Hg Hrb Ed Hlr Hrk Hpend).
      assert (Hifit : ifit (d1 ++ (k0, lb) :: d2)) by (decompose [and] PF; assumption).
      assert (Hitems : p_items pg = []) by (decompose [and] PF; assumption).
      set (d := placed d1 k0 lb d2 k rb) in *.
      assert (D1 : forall kk c, In (kk, c) (p_downs pg) -> exists k', In (k', c) d) by (intros kk c; eapply place_children; eauto).
      assert (D2 : forall kk c, In (kk, c) d -> (exists k', In (k', c) (p_downs pg)) \/ Some rb = Some c) by (intros kk c; rewrite Ed; apply placed_in).
      assert (D3 : forall c, Some rb = Some c -> exists k', In (k', c) d) by (intros c E; injection E as <-; exists k0; apply place_rb).
      assert (D4 : p_right pg <> None -> forall d0 kk c, d = d0 ++ [(kk, c)] -> ble (shi G p) (BAt kk)).
      { intros Hr d0 kk c E. apply placed_last in E as (d0' & c' & E). rewrite <- Ed in E. destruct (ci_tile _ _ _ HCI _ _ _ Hp Hg) as [_ K]. exact (K Hr _ _ _ E). }
      rewrite Ed. destruct (ienough (d1 ++ (k0, lb) :: d2) k) eqn:Een.
      - intro E. injection E as <- <-. assert (Hfit := Hien d1 k0 lb d2 k rb Hk Hifit Een).
        assert (Hb := place_body cmp OK ifit lbound ok fit tight st root G HI h p lb rb pg d1 d2 k0 k Hp Hg Hrb Ed Hlr Hrk Hpend Hfit). fold d in Hb.
        destruct (chg_set cmp OK ifit lbound ok fit tight st root G HI (ci_tile _ _ _ HCI) (S h) p pg (p_items pg) d (Some rb) Hp Hg Hb D1 D2 D3 D4) as (HI' & HT' & HC).
        exists G. split; [eapply (done_step p _ (Some rb)); eauto|]. eapply tail_done; [|exact HC]. apply leaves_add; try discriminate.
        eapply (set_page_rows cmp ifit lbound ok fit tight st root G HI (S h) p pg); eauto; try discriminate.
      - destruct (Hisep (rightmost pg) d1 k0 lb d2 k rb Hk Hifit Een) as (Hsep & Hfl & Hfr). fold d in Hsep, Hfl, Hfr.
        set (sep := isep (rightmost pg) d) in *.
        destruct (place_halves cmp OK ifit lbound ok fit tight st root G HI h p lb rb pg d1 d2 k0 k Hp Hg Hrb Ed Hlr Hrk Hpend sep (k, lb) (p_left pg) Hsep Hfl Hfr)
          as (c1 & c2 & k2 & rd' & Hin1 & Erd & H1 & H2 & H3 & H5 & HBL & HBR).
        fold d in Hin1, Erd, H1, H2, H3, H5, HBL, HBR.
        assert (Efs : firstn sep d ++ skipn sep d = d) by apply firstn_skipn.
        set (ld := firstn sep d) in *. set (rd := skipn sep d) in *. set (k' := fst (last ld (k, lb))) in *.
        destruct Hkok as (_ & Hk2 & Hk3).
        assert (Hkk' : kok k') by (apply (Hk2 ld (k', c1) Hfl Hin1)).
        assert (Hkr : kok (rkey (p_bound pg) [] rd)) by (apply Hk3; right; split; [reflexivity|]; split; [rewrite Erd; discriminate|exact Hfr]).
        rewrite <- Efs in D1, D2, D3.
        assert (H1' : blt (slo G p) (slo G c2)) by (eapply (blt_le_trans cmp OK); eauto).
        assert (HBL' : forall rr, body G (S h) (slo G p) (slo G c2) (mkPage (p_leaf pg) [] ld k' (p_left pg) (Some rr) false)).
        { intro rr. destruct (HBL rr) as (B1 & B2 & B3 & B4 & B5 & B6). split; [exact B1|]. split; [exact B2|]. split; [exact B3|]. split; [|split; [exact B5|exact B6]].
          eapply dok_lim; [exact H2|exact B4]. }
        assert (L1 : forall d0 kk c, ld = d0 ++ [(kk, c)] -> ble (slo G c2) (BAt kk)).
        { intros d0 kk c E. replace kk with k'; [exact H3|]. unfold k'. rewrite E, last_last. reflexivity. }
        assert (L2 : p_right pg <> None -> forall d0 kk c, rd = d0 ++ [(kk, c)] -> ble (shi G p) (BAt kk)).
        { intros Hr d0 kk c E. apply (D4 Hr (ld ++ d0) kk c). rewrite <- app_assoc, <- E. symmetry. exact Efs. }
        destruct up as [|[q o] up'].
        + intro E. injection E as <- <-. cbn [stk] in Hs. subst p.
          assert (Et : S h = top G) by exact (at_root_top _ _ _ _ _ _ _ _ _ HI _ Hp).
          rewrite (root_slo _ _ _ _ _ _ _ _ _ HI) in H1', HBL'.
          destruct (root_right _ _ _ _ _ _ _ _ _ HI _ Hg) as [Hrr Hrl]. rewrite Et, Hrl in HBL'.
          assert (HR' : forall ll, body G (top G) (slo G c2) (shi G root) (mkPage (p_leaf pg) [] rd (p_bound pg) (Some ll) None false)).
          { intro ll. rewrite <- Et. rewrite <- Hrr. apply HBR. }
          destruct (chg_sr cmp OK ifit lbound ok fit tnull rkey tight st root G HI (ci_tile _ _ _ HCI) pg k' [] [] ld rd (slo G c2) (Some rb) Hg H1' H3
            ltac:(intro; lia) H5 HBL' HR' (Hiroot _ _ _ _ Hkk' Hkr) D1 D2 D3 L1) as (G' & HI' & HT' & HC & HR).
          exists G'. split; [eapply (done_step root _ (Some rb)); eauto|]. eapply tail_done; [|exact HC]. apply leaves_add; try discriminate. apply HR; [intro; lia|auto].
        + destruct (freeRight (free ws i) pg) eqn:Efr; [|discriminate].
          assert (Hpr : p <> root) by (cbn [stk] in Hs; tauto).
          destruct (chg_snr cmp OK ifit lbound ok fit tight st root G HI (ci_tile _ _ _ HCI) (S h) p pg k' [] [] ld rd (slo G c2) (Some rb) Hp Hg Hpr H1' H3
            ltac:(intro; lia) H5 HBL' (HBR (Some p)) D1 D2 D3 L1 L2) as (G' & HI' & HT' & HC & A1 & A2 & A3 & A4 & HR).
          assert (Esp : splitNonRoot st p pg k' [] [] ld rd = (fst (splitNonRoot st p pg k' [] [] ld rd), length st)) by reflexivity.
          rewrite Esp. intro E. injection E as <- <-. exists G'.
          split; [|eapply tail_climb; [apply leaves_add; try discriminate; apply HR; [intro; lia|auto]|exact HC|exact Hpr|cbn [climbs]; eauto]].
          eapply (snr_step (S h) p _ (Some rb)); eauto. rewrite A3. exact H3.
    Qed.

    Lemma act_leaf x b stack pg st' w' : nth_error ws i = Some (WDown x b stack) -> ok x ->
      (forall j wj, j <> i -> nth_error ws j = Some wj -> locked wj <> Some b) ->
      at_ G 0 b -> get st b = Some pg -> in_range cmp (slo G b) (shi G b) x -> ~ hidden ws b -> stk G ws 0 b stack ->
      actLeaf tnull leafFind leafEnough leafPlace leafSplit rkey (free ws i) st root b pg stack x = Some (st', w') ->
      stepped st G ws i (WDown x b stack) st' w'.
    Proof.
      intros Hw Hx Hf Hb Hg Hr Hc Hs. unfold actLeaf.
      assert (Hnp : forall k1 lb1 c p off1 up1, WDown x b stack <> WPlace k1 lb1 c p off1 up1) by discriminate.
      assert (Hnp' : forall k1 lb1 c p off1 up1, WDown x b stack = WPlace k1 lb1 c p off1 up1 -> @None nat = Some c /\ p = b) by discriminate.
      assert (Hno : forall c, @None nat = Some c -> rbOf (WDown x b stack) = Some c) by discriminate.
      destruct (leaf_facts cmp ifit lbound ok fit tight st root G HI b pg Hb Hg) as (_ & Hdn & Hsi & Hoi & _).
      pose proof (Hfind (p_items pg) x Hsi Hoi Hx) as Hff.
      assert (Hcin : forall y, In y (p_items pg) -> In y (contents st G)).
      { intros y Hy. apply (contents_in cmp ifit lbound ok fit tight st root G HI). eauto. }
      destruct (fst (leafFind (p_items pg) x)) eqn:Efd.
      { intro E. injection E as <- <-. exists G. split.
        - eapply (move_ci st G ws HCI i _ Hw); auto; try discriminate. exact I.
        - split; [|split; [apply evolve_refl|left; split; [reflexivity|lia]]].
          split; [auto|]. split; [auto|]. right. split; [discriminate|]. destruct (proj1 Hff eq_refl) as (y & Hy & Ey). eauto. }
      assert (Hnf : forall y, In y (p_items pg) -> cmp y x <> 0%Z).
      { intros y Hy E. assert (false = true) by (apply Hff; eauto). discriminate. }
      assert (Hs1 : ssorted cmp [x]) by (repeat constructor).
      assert (Ho1 : Forall ok [x]) by (repeat constructor; exact Hx).
      assert (Htl : multi = true /\ tight = true \/ @nil T = []) by auto.
      assert (One : forall used rest : list T, [x] = used ++ rest -> used <> [] -> used = [x]).
      { intros used rest E Hu. destruct used as [|a used]; [congruence|]. destruct used; [injection E as <- _; reflexivity|discriminate]. }
      assert (Lv : forall G' s w1, (forall y b s, w1 <> WDown y b s) -> rows_ins cmp (contents st G) [x] (contents s G') -> leaves (contents st G) (contents s G') (WDown x b stack) w1).
      { intros G' s w1 Hw1 (A & B & C). split; [exact A|]. split; [intros y Hy; destruct (B y Hy) as [K|[<-|[]]]; eauto|]. right. split; [exact Hw1|].
        apply C. left; reflexivity. }
      destruct (leafEnough (p_items pg) x) eqn:Hen.
      - destruct (leaf_place_case cmp OK ifit lbound ok fit leafEnough leafPlace multi Hplace tight st root G HI b pg x [] Hb Hg Hr Hnf Hs1 Ho1 Htl Hen) as
          (items' & used & added & rest & P1 & P2 & P3 & P4 & P5 & P6 & P7).
        rewrite P1. intro E. injection E as <- <-. apply (One _ _ P2) in P3. subst used.
        destruct (chg_set cmp OK ifit lbound ok fit tight st root G HI (ci_tile _ _ _ HCI) 0 b pg items' (p_downs pg) None Hb Hg P4) as (HI' & HT' & HC); eauto; try discriminate.
        { intros Hr0. rewrite Hdn. intros d0 k c E. destruct d0; discriminate. }
        exists G. split; [eapply (done_step b _ None); eauto|]. eapply tail_done; [|exact HC]. apply Lv; [discriminate|].
        eapply rows_add_ins; eauto.
        + eapply (set_page_rows cmp ifit lbound ok fit tight st root G HI 0 b pg); eauto. congruence.
        + intros y Hy. destruct (P7 y Hy) as [K|(o & Hoo & Eo)]; eauto.
      - destruct (leaf_split_case cmp OK ifit lbound ok fit leafFind leafEnough leafSplit multi Hsplit tight st root G HI b pg x [] Hb Hg Hr Hnf Hs1 Ho1 Htl Hen) as
          (l & r & used & rest & P1 & P2 & P3 & H1 & H5 & HBL & HBR & Hrows & Hlne & Hrne).
        rewrite P1. apply (One _ _ P2) in P3. subst used. set (k := last l x) in *.
        assert (Hkk : kok k).
        { destruct Hkok as (Hk1 & _). apply Hk1. destruct (HBL None 0) as (_ & _ & _ & Ho & _). cbn [p_items] in Ho.
          rewrite Forall_forall in Ho. apply Ho. unfold k. destruct l as [|a l0]; [congruence|]. apply (in_rev_last a l0 x). }
        assert (Hkr : kok (rkey (p_bound pg) r [])).
        { destruct Hkok as (_ & _ & Hk3). apply Hk3. left. split; [exact Hrne|]. apply (HBR None). }
        assert (H2 : ble (BAt k) (BAt k)) by (apply ble_refl; exact OK).
        assert (D1 : forall (kk : T) (c : nat), In (kk, c) (p_downs pg) -> exists k', In (k', c) (@nil (T * nat) ++ [])) by (rewrite Hdn; intros kk c []).
        assert (D2 : forall (kk : T) (c : nat), In (kk, c) (@nil (T * nat) ++ []) -> (exists k', In (k', c) (p_downs pg)) \/ None = Some c) by (intros kk c []).
        assert (D3 : forall c : nat, None = Some c -> exists k' : T, In (k', c) (@nil (T * nat) ++ [])) by discriminate.
        assert (L1 : forall d0 (kk : T) (c : nat), [] = d0 ++ [(kk, c)] -> ble (BAt k) (BAt kk)) by (intros d0 kk c E; destruct d0; discriminate).
        assert (HR1 : forall st1 G1, rows_add st G st1 G1 [x] -> rows_ins cmp (contents st G) [x] (contents st1 G1)).
        { intros st1 G1 HR. eapply rows_add_ins; eauto. }
        destruct stack as [|[q o] up].
        + intro E. injection E as <- <-. cbn [stk] in Hs. subst b.
          assert (Et : 0 = top G) by exact (at_root_top _ _ _ _ _ _ _ _ _ HI _ Hb).
          rewrite (root_slo _ _ _ _ _ _ _ _ _ HI) in H1, HBL.
          destruct (root_right _ _ _ _ _ _ _ _ _ HI _ Hg) as [Hrr Hrl].
          assert (HL' : forall rr, body G (top G) BMin (BAt k) (mkPage (p_leaf pg) l [] k None (Some rr) false)).
          { intro rr. rewrite <- Et. apply HBL. }
          assert (HR' : forall ll, body G (top G) (BAt k) (shi G root) (mkPage (p_leaf pg) r [] (p_bound pg) (Some ll) None false)).
          { intro ll. rewrite <- Et. rewrite <- Hrr. apply HBR. }
          destruct (chg_sr cmp OK ifit lbound ok fit tnull rkey tight st root G HI (ci_tile _ _ _ HCI) pg k l r [] [] (BAt k) None Hg H1 H2
            (fun _ => eq_refl) H5 HL' HR' (Hiroot _ _ _ _ Hkk Hkr) D1 D2 D3 L1) as (G' & HI' & HT' & HC & HR).
          exists G'. split; [eapply (done_step root _ None); eauto|]. eapply tail_done; [|exact HC]. apply Lv; [discriminate|]. apply HR1. apply HR; [auto|lia].
        + destruct (freeRight (free ws i) pg) eqn:Efr; [|discriminate].
          assert (Hbr : b <> root) by (cbn [stk] in Hs; tauto).
          destruct (chg_snr cmp OK ifit lbound ok fit tight st root G HI (ci_tile _ _ _ HCI) 0 b pg k l r [] [] (BAt k) None Hb Hg Hbr H1 H2
            (fun _ => eq_refl) H5 (HBL (p_left pg)) (HBR (Some b)) D1 D2 D3 L1) as (G' & HI' & HT' & HC & A1 & A2 & A3 & A4 & HR).
          { intros _ d0 kk c E. destruct d0; discriminate. }
          assert (Esp : splitNonRoot st b pg k l r [] [] = (fst (splitNonRoot st b pg k l r [] []), length st)) by reflexivity.
          rewrite Esp. intro E. injection E as <- <-. exists G'.
          split; [|eapply tail_climb; [apply Lv; [discriminate|]; apply HR1; apply HR; [auto|congruence]|exact HC|exact Hbr|cbn [climbs]; auto]].
          eapply (snr_step 0 b _ None); eauto. rewrite A3. exact H2.
    Qed.

    Lemma act_down x b stack st' w' : nth_error ws i = Some (WDown x b stack) ->
      act (free ws i) st root (WDown x b stack) = Some (st', w') -> stepped st G ws i (WDown x b stack) st' w'.
    Proof.
      intros Hw. cbn [BTreeConc.act]. destruct (free ws i b) eqn:Ef; cbn [negb]; [|discriminate]. pose proof (frees _ Ef) as Hf.
      pose proof (ci_ok _ _ _ HCI _ _ Hw) as (Hx & h & Hb & Hl & Hc & Hs). destruct (getp _ _ Hb) as [pg Hg]. rewrite Hg.
      assert (Hnp : forall k1 lb1 c p off1 up1, WDown x b stack <> WPlace k1 lb1 c p off1 up1) by discriminate.
      rewrite (moveRight_eq cmp OK ifit lbound ok fit rbound Hrbd tight st root G HI _ _ _ x Hb Hg).
      assert (Lv : forall b' s', leaves (contents st G) (contents st G) (WDown x b stack) (WDown x b' s')).
      { intros b' s'. split; [auto|]. split; [auto|]. left. eauto 6. }
      assert (Hmr : b = root -> moveRight cmp (@p_bound T) pg x = false).
      { intros ->. unfold moveRight. destruct (root_right _ _ _ _ _ _ _ _ _ HI pg Hg) as [-> _]. reflexivity. }
      destruct (moveRight cmp (@p_bound T) pg x) eqn:Em.
      - assert (Hbr : b =? root = false) by (apply Nat.eqb_neq; intro E; specialize (Hmr E); discriminate).
        rewrite Hbr. cbn [negb andb].
        destruct (step_right cmp OK ifit lbound ok fit tight st root G HI _ _ _ _ Hb Hg Hl Em) as (r & Er & Hrat & Hrx). rewrite Er.
        intro E. injection E as <- <-. exists G. split; [|apply tail_move; [apply Lv|exact (right_later st G ws HCI _ _ _ _ Hb Hg Er)]]. eapply (move_ci st G ws HCI i _ Hw); auto; try discriminate.
        cbn [wok]. split; [exact Hx|]. exists h. split; [exact Hrat|]. split; [exact Hrx|]. split; [|exact (stk_right st G ws HCI _ _ _ _ _ Hb Hg Er Hs)].
        apply (right_clean st G ws HCI _ b pg r Hb Hg Er).
        intros j wj Hj Hh. destruct (Nat.eq_dec j i) as [->|Hn]; [|exact (Hf _ _ Hn Hj)]. rewrite Hw in Hj. injection Hj as <-. destruct (Hh eq_refl).
      - rewrite andb_false_r. pose proof (pgf st root G HI _ _ _ Hb Hg) as (Hleaf & _). rewrite Hleaf. destruct h as [|h]; cbn [Nat.eqb].
        + apply act_leaf; auto. eapply (leaf_target cmp ifit lbound ok fit tight st root G HI); eauto.
        + destruct (step_down cmp OK ifit lbound ok fit locate Hloc tight st root G HI _ _ _ _ Hb Hg Hl (fun _ => Em)) as (k & c & En & Hcc & Hcx). rewrite En.
          intro E. injection E as <- <-. exists G. split; [|apply tail_move; [apply Lv|exists (S h); split; [exact Hb|left; exists h; split; [lia|exact Hcc]]]]. eapply (move_ci st G ws HCI i _ Hw); auto; try discriminate.
          cbn [wok]. split; [exact Hx|]. exists h. split; [exact Hcc|]. split; [exact Hcx|].
          split; [eapply (child_clean st G ws HCI); [exact Hb|exact Hg|eapply nth_error_In; exact En]|].
          cbn [stk]. split; [eapply (at_not_root _ _ _ _ _ _ _ _ _ HI); [exact Hcc|]; pose proof (at_le_top _ _ _ Hb); lia|].
          exists (S h). split; [lia|]. auto.
    Qed.

    Theorem act_ci w st' w' : nth_error ws i = Some w -> act (free ws i) st root w = Some (st', w') -> stepped st G ws i w st' w'.
    Proof.
      intros Hw. destruct w; intro H; try discriminate.
      - apply act_down; auto.
      - apply act_walk; auto.
      - apply act_root; auto.
      - apply act_level; auto.
      - apply act_place; auto.
    Qed.
  End Acts.

  (** ** nobody waits in a circle *)
  Lemma forallb_false {A} (f : A -> bool) l : forallb f l = false -> exists x, In x l /\ f x = false.
  Proof.
    induction l as [|a l IH]; cbn [forallb]; [discriminate|]. intro H. apply andb_false_iff in H as [H|H]; [exists a; simpl; auto|].
    destruct (IH H) as (x & Hx & E). exists x. simpl. auto.
  Qed.
  Lemma free_false (ws : list writer) i b : free ws i b = false -> exists j wj, j <> i /\ nth_error ws j = Some wj /\ locked wj = Some b.
  Proof.
    intro H. apply forallb_false in H as (j & _ & E). apply orb_false_iff in E as [E1 E2]. apply Nat.eqb_neq in E1.
    destruct (nth_error ws j) as [wj|] eqn:Ej; [|discriminate]. destruct (locked wj) as [q|] eqn:El; [|discriminate].
    apply negb_false_iff, Nat.eqb_eq in E2. subst q. exists j, wj. auto.
  Qed.
  (** what a writer that waits is waiting for *)
  Definition wants (fr : nat -> bool) (st : store) (w : writer) : Prop :=
    match w with
    | WDown _ _ _ => exists q, fr q = false
    | WWalk _ _ _ b _ _ | WLevel _ _ _ b _ => fr b = false
    | WRoot _ _ _ => fr root = false
    | WPlace _ _ _ p _ _ => exists pg r, get st p = Some pg /\ p_right pg = Some r /\ fr r = false
    | WDone | WLost | WBroken => True
    end.
  Lemma freeRight_false fr (pg : page) : freeRight fr pg = false -> exists r, p_right pg = Some r /\ fr r = false.
  Proof. unfold freeRight. destruct (p_right pg) as [r|]; [eauto|discriminate]. Qed.
  Lemma act_none fr st w : act fr st root w = None -> wants fr st w.
  Proof.
    destruct w as [x b stack|k lb rb b off up|k lb rb|k lb rb b lm|k lb rb p off up| | |]; cbn [BTreeConc.act wants]; auto.
    - destruct (fr b) eqn:Ef; cbn [negb]; [|eauto]. destruct (get st b) as [pg|]; [|discriminate].
      destruct (negb (b =? root) && moveRight cmp rbound pg x); [destruct (p_right pg); discriminate|].
      destruct (p_leaf pg); [|destruct (nth_error (p_downs pg) _) as [[? ?]|]; discriminate].
      unfold actLeaf. destruct (fst (leafFind (p_items pg) x)); [discriminate|].
      destruct (leafEnough (p_items pg) x); [destruct (leafPlace _ _ _ _) as [[? ?]|]; discriminate|].
      destruct (leafSplit _ _ _) as [[[? ?] ?]|]; [|discriminate]. destruct stack as [|[q o] up]; [discriminate|].
      destruct (freeRight fr pg) eqn:Er; [destruct (splitNonRoot _ _ _ _ _ _ _ _); discriminate|]. apply freeRight_false in Er as (r & _ & E). eauto.
    - destruct (fr b) eqn:Ef; cbn [negb]; [|auto]. destruct (get st b) as [pg|]; [|discriminate].
      destruct (findChildPtr pg lb off); [discriminate|]. destruct (p_right pg); discriminate.
    - destruct (fr root) eqn:Ef; cbn [negb]; [|auto]. destruct (get st root) as [pg|]; [|discriminate].
      destruct (findChildPtr pg lb 0); [discriminate|]. destruct (p_downs pg) as [|[? ?] ?]; discriminate.
    - destruct (fr b) eqn:Ef; cbn [negb]; [|auto]. destruct (get st b) as [pg|]; [|discriminate]. destruct (p_leaf pg); [discriminate|].
      destruct (match lm with Some m => Some m | None => option_map snd (hd_error (p_downs pg)) end) as [m|]; [|discriminate].
      destruct (findChildPtr pg lb 0); [discriminate|]. destruct (p_right pg); discriminate.
    - destruct (get st p) as [pg|] eqn:Eg; [|discriminate]. destruct (ienough (p_downs pg) k); [discriminate|].
      destruct up as [|[q o] up']; [discriminate|].
      destruct (freeRight fr pg) eqn:Er; [destruct (splitNonRoot _ _ _ _ _ _ _ _); discriminate|]. apply freeRight_false in Er as (r & Er & E). eauto.
  Qed.
  Definition can_go (st : store) (ws : list writer) : Prop :=
    exists i w s, nth_error ws i = Some w /\ act (free ws i) st root w = Some s.
  Lemma holder_goes st G ws : CI st G ws -> forall n m h b L1 L2 j w, top G - h < n -> length L2 < m ->
    nth_error (lv G) h = Some (L1 ++ b :: L2) -> nth_error ws j = Some w -> locked w = Some b -> can_go st ws.
  Proof.
    intro HCI. pose proof (ci_inv _ _ _ HCI) as HI. induction n as [|n IHn]; [lia|]. induction m as [|m IHm]; [lia|].
    intros h b L1 L2 j w Hn Hm HL Hj Hl.
    assert (Hb : at_ G h b) by (exists (L1 ++ b :: L2); split; [exact HL|apply in_app_iff; right; left; reflexivity]).
    destruct (act (free ws j) st root w) as [s|] eqn:Ea; [exists j, w, s; auto|]. apply act_none in Ea.
    assert (Up : forall h' b', at_ G h' b' -> h < h' -> free ws j b' = false -> can_go st ws).
    { intros h' b' Hb' Hlt Hfr. destruct (free_false _ _ _ Hfr) as (j' & w2 & _ & Hj' & Hl'). destruct (at_split G _ _ Hb') as (M1 & M2 & HM).
      apply (IHn (S (length M2)) h' b' M1 M2 j' w2); auto. pose proof (at_le_top _ _ _ Hb'). lia. }
    pose proof (ci_ok _ _ _ HCI _ _ Hj) as Hok.
    destruct w as [x c stack|k lb rb c off up|k lb rb|k lb rb c lm|k lb rb p off up| | |]; cbn [wok wants locked] in *; try discriminate; injection Hl as ->.
    - destruct Hok as (h0 & h1 & (A & _) & B & C & _). apply (Up h1 c C); [|exact Ea]. rewrite (at_inj _ _ _ _ _ _ _ _ _ HI _ _ _ Hb A). exact B.
    - destruct Hok as (h0 & (A & _ & _ & _ & _ & N & _)). apply (Up (top G) root (at_root _ _ _ _ _ _ _ _ _ HI)); [|exact Ea].
      pose proof (at_le_top _ _ _ Hb). destruct (Nat.eq_dec h (top G)) as [E|E]; [|lia]. destruct N. rewrite E in Hb. exact (at_top _ _ _ _ _ _ _ _ _ HI _ Hb).
    - destruct Hok as (h0 & h1 & (A & _) & B & C & _). apply (Up h1 c B); [|exact Ea]. rewrite (at_inj _ _ _ _ _ _ _ _ _ HI _ _ _ Hb A). lia.
    - destruct Ea as (pg & r & Hg & Hr & Hfr). destruct (free_false _ _ _ Hfr) as (j' & w2 & _ & Hj' & Hl').
      pose proof (I_links _ _ _ _ _ _ _ _ _ HI _ _ HL) as Hk. apply links_at in Hk as (pg' & Hg' & Hr' & _).
      rewrite Hg in Hg'. injection Hg' as <-. rewrite Hr in Hr'. destruct L2 as [|r' L2]; [discriminate|]. injection Hr' as <-.
      apply (IHm h r (L1 ++ [b]) L2 j' w2); auto; [simpl in Hm; lia|]. rewrite <- app_assoc. exact HL.
  Qed.
  Lemma holder_goes' st G ws j w b : CI st G ws -> nth_error ws j = Some w -> locked w = Some b -> can_go st ws.
  Proof.
    intros HCI Hj Hl. destruct (lock_at _ _ _ _ _ (ci_ok _ _ _ HCI _ _ Hj) Hl) as [h Hb]. destruct (at_split G _ _ Hb) as (M1 & M2 & HM).
    eapply (holder_goes st G ws HCI (S (top G - h)) (S (length M2))); eauto.
  Qed.
  (** as long as a writer is not done, some writer can take a step *)
  Theorem no_deadlock st G ws i w : CI st G ws -> nth_error ws i = Some w -> w <> WDone -> can_go st ws.
  Proof.
    intros HCI Hi Hd. destruct (act (free ws i) st root w) as [s|] eqn:Ea; [exists i, w, s; auto|]. apply act_none in Ea.
    pose proof (ci_ok _ _ _ HCI _ _ Hi) as Hok.
    destruct w as [x c stack|k lb rb c off up|k lb rb|k lb rb c lm|k lb rb p off up| | |]; cbn [wok wants] in *; try tauto; try congruence.
    - destruct Ea as (q & Hq). destruct (free_false _ _ _ Hq) as (j' & w2 & _ & Hj' & Hl'). eapply holder_goes'; eauto.
    - eapply holder_goes'; eauto. reflexivity.
    - eapply holder_goes'; eauto. reflexivity.
    - eapply holder_goes'; eauto. reflexivity.
    - eapply holder_goes'; eauto. reflexivity.
  Qed.

  (** ** any schedule *)
  Notation sysStep := (sysStep cmp rbound ienough tnull locate leafFind leafEnough leafPlace leafSplit isep rkey root).
  Notation overlap := (overlap cmp rbound ienough tnull locate leafFind leafEnough leafPlace leafSplit isep rkey root).
  Definition past (w : writer) : Prop := forall y b s, w <> WDown y b s.
  Record OI (C0 rows : list T) (s : store * list writer) (G : ghost) : Prop := {
    oi_ci : CI (fst s) G (snd s);
    oi_len : length (snd s) = length rows;
    oi_keep : forall y, In y C0 -> In y (contents (fst s) G);
    oi_only : forall y, In y (contents (fst s) G) -> In y C0 \/
      exists i w, nth_error rows i = Some y /\ nth_error (snd s) i = Some w /\ past w;
    oi_row : forall i x w, nth_error rows i = Some x -> nth_error (snd s) i = Some w ->
      (exists b k, w = WDown x b k) \/ (past w /\ exists y, In y (contents (fst s) G) /\ cmp y x = 0%Z) }.

  Lemma oi_step C0 rows s G i : OI C0 rows s G -> exists G', OI C0 rows (sysStep s i) G' /\
    (forall y, In y (contents (fst s) G) -> In y (contents (fst (sysStep s i)) G')) /\ evolve root G G' /\
    (forall w st' w', nth_error (snd s) i = Some w -> act (free (snd s) i) (fst s) root w = Some (st', w') ->
       sysStep s i = (st', upd (snd s) i w') /\ prog G w G' w').
  Proof.
    destruct s as [st ws]. intros H. unfold BTreeConc.sysStep. cbn [fst snd] in *. destruct (nth_error ws i) as [w|] eqn:Ew; [|exists G; split; [exact H|]; split; [auto|]; split; [apply evolve_refl|discriminate]].
    destruct (act (free ws i) st root w) as [[st' w']|] eqn:Ea; cycle 1.
    { exists G. split; [exact H|]. split; [auto|]. split; [apply evolve_refl|]. intros w0 st' w' E1 E2. injection E1 as <-. congruence. }
    cbn [fst snd].
    destruct (act_ci st G ws i (oi_ci _ _ _ _ H) w st' w' Ew Ea) as (G' & HCI' & (L1 & L2 & L3) & Hpr). exists G'.
    assert (Hlt : i < length ws) by (eapply nth_some_lt; eauto).
    assert (Hlen := oi_len _ _ _ _ H). cbn [snd] in Hlen.
    split; [|split; [exact L1|]; split; [exact (proj1 Hpr)|]; intros w0 s0 w1 E1 E2; injection E1 as <-; rewrite Ea in E2; injection E2 as <- <-; auto]. constructor; cbn [fst snd].
    - exact HCI'.
    - rewrite upd_length. exact Hlen.
    - intros y Hy. apply L1. exact (oi_keep _ _ _ _ H y Hy).
    - intros y Hy. destruct (L2 y Hy) as [K|(b & k & ->)].
      + destruct (oi_only _ _ _ _ H y K) as [K2|(j & wj & K1 & K2 & K3)]; [auto|]. right. cbn [snd] in K2. destruct (Nat.eq_dec j i) as [->|Hn].
        * rewrite Ew in K2. injection K2 as <-. exists i, w'. split; [exact K1|]. rewrite nth_upd by exact Hlt. rewrite Nat.eqb_refl. split; [reflexivity|].
          destruct w as [x b stack|k lb rb b off up|k lb rb|k lb rb b lm|k lb rb p off up| | |]; try exact L3. destruct (K3 x b stack eq_refl).
        * exists j, wj. split; [exact K1|]. rewrite nth_upd by exact Hlt. destruct (Nat.eqb_spec j i); [congruence|auto].
      + assert (exists x, nth_error rows i = Some x) as (x & Hx).
        { destruct (nth_error rows i) eqn:E; [eauto|]. apply nth_error_None in E. lia. }
        destruct (oi_row _ _ _ _ H i x _ Hx Ew) as [(b' & k' & E)|[K _]]; [|destruct (K y b k eq_refl)]. injection E as <- _ _.
        destruct L3 as [(b2 & k2 & _ & K)|[K _]].
        * cbn [snd] in *. specialize (K y Hy). destruct (oi_only _ _ _ _ H y K) as [K2|(j & wj & K1 & K2 & K3)]; [auto|]. right. cbn [snd] in K2.
          destruct (Nat.eq_dec j i) as [->|Hn]; [rewrite Ew in K2; injection K2 as <-; destruct (K3 y b k eq_refl)|].
          exists j, wj. split; [exact K1|]. rewrite nth_upd by exact Hlt. destruct (Nat.eqb_spec j i); [congruence|auto].
        * right. exists i, w'. split; [exact Hx|]. rewrite nth_upd by exact Hlt. rewrite Nat.eqb_refl. auto.
    - intros j x wj Hx Hj. rewrite nth_upd in Hj by exact Hlt. destruct (Nat.eqb_spec j i) as [->|Hn].
      + injection Hj as <-. destruct (oi_row _ _ _ _ H i x w Hx Ew) as [(b & k & ->)|[K (y & Hy & Ey)]].
        * destruct L3 as [(b2 & k2 & -> & _)|K]; [left; eauto|right; exact K].
        * right. split; [|exists y; split; [apply L1; exact Hy|exact Ey]].
          destruct w as [x1 b stack|k lb rb b off up|k lb rb|k lb rb b lm|k lb rb p off up| | |]; try exact L3. destruct (K x1 b stack eq_refl).
      + destruct (oi_row _ _ _ _ H j x wj Hx Hj) as [K|[K (y & Hy & Ey)]]; [auto|]. right. split; [exact K|]. exists y. split; [apply L1; exact Hy|exact Ey].
  Qed.
  Lemma oi_sched C0 rows sched : forall s G, OI C0 rows s G -> exists G', OI C0 rows (fold_left sysStep sched s) G' /\
    forall y, In y (contents (fst s) G) -> In y (contents (fst (fold_left sysStep sched s)) G').
  Proof.
    induction sched as [|i sched IH]; intros s G H; cbn [fold_left]; [eauto|].
    destruct (oi_step _ _ _ _ i H) as (G1 & H1 & K1 & _). destruct (IH _ _ H1) as (G2 & H2 & K2). exists G2. auto.
  Qed.
  Lemma oi_start st G rows : Inv st root G -> tiled st G -> complete st root G -> Forall ok rows ->
    OI (contents st G) rows (st, map (fun x => WDown x root []) rows) G.
  Proof.
    intros HI HT Hc Ho.
    assert (Hn : forall i w, nth_error (map (fun x => WDown x root []) rows) i = Some w -> exists x, nth_error rows i = Some x /\ w = WDown x root []).
    { intros i w H. rewrite nth_error_map in H. destruct (nth_error rows i) as [x|]; [|discriminate]. injection H as <-. eauto. }
    assert (Hnh : forall c, ~ hidden (map (fun x => WDown x root []) rows) c).
    { intros c (i & w & Hi & E). destruct (Hn _ _ Hi) as (x & _ & ->). discriminate. }
    constructor; cbn [fst snd].
    - constructor; auto.
      + intros i j wi wj b Hi Hj E. destruct (Hn _ _ Hi) as (x & _ & ->). discriminate.
      + intros i j wi wj b Hi Hj E. destruct (Hn _ _ Hi) as (x & _ & ->). discriminate.
      + intros i w c Hi E. destruct (Hn _ _ Hi) as (x & _ & ->). discriminate.
      + intros h c Hat Hr _. destruct (Hc h c Hat Hr (fun F => F)) as (q & pq & kq & A & B & D). exists q. split; [exact A|]. left. eauto.
      + intros i w Hi. destruct (Hn _ _ Hi) as (x & Hx & ->). cbn [wok]. split; [rewrite Forall_forall in Ho; apply Ho; eapply nth_error_In; eauto|].
        exists (top G). split; [exact (at_root _ _ _ _ _ _ _ _ _ HI)|]. split; [rewrite (root_slo _ _ _ _ _ _ _ _ _ HI); unfold BTreeInv.blt; simpl; lia|].
        split; [apply Hnh|reflexivity].
    - apply map_length.
    - auto.
    - auto.
    - intros i x w Hx Hi. destruct (Hn _ _ Hi) as (x' & Hx' & ->). left. rewrite Hx in Hx'. injection Hx' as <-. eauto.
  Qed.
  (** the states a reader may see *)
  Fixpoint trail (s : store * list writer) (sched : list nat) : list store :=
    match sched with [] => [] | i :: r => fst (sysStep s i) :: trail (sysStep s i) r end.
  Lemma oi_grows C0 rows sched : forall s G, OI C0 rows s G ->
    exists G', grows cmp ifit lbound ok fit (@incl T) tight root (fst s) G (trail s sched) G'.
  Proof.
    induction sched as [|i sched IH]; intros s G H; cbn [trail]; [exists G; constructor|].
    destruct (oi_step _ _ _ _ i H) as (G1 & H1 & K1 & E1 & _). destruct (IH _ _ H1) as (G2 & H2). exists G2.
    econstructor; [exact (ci_inv _ _ _ (oi_ci _ _ _ _ H1))|exact E1|exact K1|exact H2].
  Qed.
  (** when every writer is done, the tree has all its downlinks *)
  Lemma oi_done C0 rows s G : OI C0 rows s G -> (forall i w, nth_error (snd s) i = Some w -> w = WDone) -> complete (fst s) root G.
  Proof.
    intros H Hd h c Hat Hr _. destruct (ci_home _ _ _ (oi_ci _ _ _ _ H) h c Hat Hr) as (p & Hp & [(px & k & A & B)|(i & k & lb & off & up & Hi)]).
    - intros (i & w & Hi & E). rewrite (Hd _ _ Hi) in E. discriminate.
    - eauto 6.
    - pose proof (Hd _ _ Hi). discriminate.
  Qed.
  (** ** every schedule has only finitely many steps that are not waits *)
  Fixpoint after (b : nat) (l : list nat) : nat :=
    match l with [] => 0 | x :: l' => if x =? b then length l' else after b l' end.
  Lemma after_le b l : after b l <= length l.
  Proof. induction l as [|x l IH]; cbn [after length]; [lia|]. destruct (x =? b); lia. Qed.
  Lemma after_lt A b B c : NoDup (A ++ b :: B) -> In c B -> after c (A ++ b :: B) < after b (A ++ b :: B).
  Proof.
    intros N Hc. assert (Eb : after b (A ++ b :: B) = length B).
    { clear Hc. induction A as [|x A IH]; cbn [app after]; [rewrite Nat.eqb_refl; reflexivity|]. inversion N; subst.
      destruct (Nat.eqb_spec x b) as [->|]; [|auto]. destruct H1. apply in_app_iff. right; left; reflexivity. }
    rewrite Eb. clear Eb. induction A as [|x A IH]; cbn [app after].
    - inversion N; subst. destruct (Nat.eqb_spec b c) as [->|]; [tauto|]. clear N H1 n. induction B as [|y B IHB]; [destruct Hc|].
      cbn [after length]. inversion H2; subst. destruct (Nat.eqb_spec y c) as [->|]; [lia|]. destruct Hc as [Hc|Hc]; [congruence|]. specialize (IHB Hc H3). lia.
    - inversion N; subst. destruct (Nat.eqb_spec x c) as [->|]; [|auto]. destruct H1. apply in_app_iff. right; right; exact Hc.
  Qed.
  Definition pages (G : ghost) : list nat := concat (rev (lv G)).
  Lemma pages_split G h L : nth_error (lv G) h = Some L -> exists A B, pages G = A ++ L ++ B /\
    forall h' b, h' < h -> at_ G h' b -> In b B.
  Proof.
    intro H. unfold pages, at_. apply nth_error_split in H as (l1 & l2 & -> & El). exists (concat (rev l2)), (concat (rev l1)). split.
    - rewrite rev_app_distr. cbn [rev]. rewrite !concat_app. cbn [concat]. rewrite app_nil_r, <- app_assoc. reflexivity.
    - intros h' b Hlt (L' & HL & Hb). rewrite nth_error_app1 in HL by lia. apply in_concat. exists L'. split; [|exact Hb].
      apply -> in_rev. eapply nth_error_In; eauto.
  Qed.
  Lemma nodup_concat_rev (l : list (list nat)) : NoDup (concat l) -> NoDup (concat (rev l)).
  Proof.
    intro H. eapply Permutation.Permutation_NoDup; [|exact H]. clear H. induction l as [|x l IH]; [constructor|].
    cbn [concat rev]. rewrite concat_app. cbn [concat]. rewrite app_nil_r. etransitivity; [apply Permutation.Permutation_app_comm|].
    apply Permutation.Permutation_app_tail. exact IH.
  Qed.
  Lemma later_lt st G b b' : Inv st root G -> later G b b' -> after b' (pages G) < after b (pages G).
  Proof.
    intros HI (h & Hb & K).
    assert (N : NoDup (pages G)) by (apply nodup_concat_rev; exact (I_nodup _ _ _ _ _ _ _ _ _ HI)).
    destruct K as [(h' & Hlt & Hb')|(L1 & L2 & HL & Hb')].
    - destruct (at_split G _ _ Hb) as (L1 & L2 & HL). destruct (pages_split G h _ HL) as (A & B & E & HB).
      rewrite E, <- app_assoc in *. cbn [app] in *. rewrite app_assoc in *. apply after_lt; [exact N|]. apply in_app_iff. right. eapply HB; eauto.
    - destruct (pages_split G h _ HL) as (A & B & E & HB).
      rewrite E, <- app_assoc in *. cbn [app] in *. rewrite app_assoc in *. apply after_lt; [exact N|]. apply in_app_iff. left. exact Hb'.
  Qed.
  Fixpoint levelIn (l : list (list nat)) (b : nat) : nat :=
    match l with [] => 0 | x :: l' => if existsb (Nat.eqb b) x then 0 else S (levelIn l' b) end.
  Lemma levelIn_at st G h b : Inv st root G -> at_ G h b -> levelIn (lv G) b = h.
  Proof.
    intros HI Hb. assert (K : forall l, (forall h h' L L', nth_error l h = Some L -> nth_error l h' = Some L' -> In b L -> In b L' -> h = h') ->
      forall h L, nth_error l h = Some L -> In b L -> levelIn l b = h).
    { clear. induction l as [|x l IH]; intros Hu [|h] L HL Hb; cbn [nth_error] in HL; try discriminate; cbn [levelIn].
      - injection HL as ->. assert (E : existsb (Nat.eqb b) L = true) by (apply existsb_exists; exists b; split; [exact Hb|apply Nat.eqb_refl]). rewrite E. reflexivity.
      - destruct (existsb (Nat.eqb b) x) eqn:E.
        + apply existsb_exists in E as (y & Hy & E). apply Nat.eqb_eq in E. subst y. exact (Hu 0 (S h) x L eq_refl HL Hy Hb).
        + f_equal. eapply IH; eauto. intros h1 h2 L1 L2 H1 H2 B1 B2. specialize (Hu (S h1) (S h2) L1 L2 H1 H2 B1 B2). lia. }
    destruct Hb as (L & HL & Hb). eapply K; eauto. intros h1 h2 L1 L2 H1 H2 B1 B2.
    eapply (at_inj _ _ _ _ _ _ _ _ _ HI); [exists L1; eauto|exists L2; eauto].
  Qed.
  (** how far up and how far along a writer is *)
  Definition lev (G : ghost) (w : writer) : nat :=
    match w with WWalk _ lb _ _ _ _ | WRoot _ lb _ | WLevel _ lb _ _ _ | WPlace _ lb _ _ _ _ => S (levelIn (lv G) lb) | _ => 0 end.
  Definition pos (G : ghost) (w : writer) : nat :=
    let P := length (pages G) in
    match w with
    | WDown _ b _ => after b (pages G)
    | WWalk _ _ _ b _ _ => P + 3 + after b (pages G)
    | WRoot _ _ _ => P + 2
    | WLevel _ _ _ b _ => 1 + after b (pages G)
    | _ => 0
    end.
  Definition isDone (w : writer) : bool := match w with WDone => true | _ => false end.
  Fixpoint sum (f : writer -> nat) (ws : list writer) : nat := match ws with [] => 0 | w :: ws' => f w + sum f ws' end.
  Definition open (w : writer) : nat := if isDone w then 0 else 1.
  Definition height (G : ghost) (ws : list writer) : nat := top G + sum open ws.
  Definition climb (B : nat) (G : ghost) (w : writer) : nat := if isDone w then 0 else B + 1 - lev G w.
  Definition toClimb (G : ghost) (ws : list writer) : nat := sum (climb (height G ws) G) ws.

  Lemma sum_upd f ws i w w' : nth_error ws i = Some w -> sum f (upd ws i w') + f w = sum f ws + f w'.
  Proof.
    revert i. induction ws as [|x ws IH]; intros [|i] H; cbn [nth_error] in H; try discriminate.
    - injection H as ->. cbn. lia.
    - specialize (IH i H). unfold upd in *. cbn [firstn skipn app sum] in *. lia.
  Qed.
  Lemma sum_le f g ws : (forall i w, nth_error ws i = Some w -> f w <= g w) -> sum f ws <= sum g ws.
  Proof.
    induction ws as [|x ws IH]; intro H; cbn [sum]; [lia|]. pose proof (H 0 x eq_refl). assert (sum f ws <= sum g ws) by (apply IH; intros i w Hi; exact (H (S i) w Hi)). lia.
  Qed.
  Lemma lev_level st G ws w : CI st G ws -> wok st G ws w -> lev G w <= top G.
  Proof.
    intros HCI Hw. pose proof (ci_inv _ _ _ HCI) as HI.
    assert (K : forall h lb, at_ G h lb -> lb <> root -> S (levelIn (lv G) lb) <= top G).
    { intros h lb Hat Hn. rewrite (levelIn_at _ _ _ _ HI Hat). pose proof (at_le_top _ _ _ Hat). destruct (Nat.eq_dec h (top G)) as [E|E]; [|lia]. subst h.
      destruct Hn. exact (at_top _ _ _ _ _ _ _ _ _ HI _ Hat). }
    destruct w as [x b stack|k lb rb b off up|k lb rb|k lb rb b lm|k lb rb p off up| | |]; cbn [wok lev] in *; try lia.
    - destruct Hw as (h & h' & A & _). eapply K; apply A.
    - destruct Hw as (h & A). eapply K; apply A.
    - destruct Hw as (h & h' & A & _). eapply K; apply A.
    - destruct Hw as (h & pg & k0 & A & _ & B & _). rewrite (levelIn_at _ _ _ _ HI A). exact (at_le_top _ _ _ B).
  Qed.
  Lemma lev_keep st G ws w st' G' : CI st G ws -> wok st G ws w -> Inv st' root G' ->
    (forall h x, at_ G h x -> x <> root -> at_ G' h x) -> lev G' w = lev G w.
  Proof.
    intros HCI Hw HI' Hk. pose proof (ci_inv _ _ _ HCI) as HI.
    assert (K : forall h lb, at_ G h lb -> lb <> root -> S (levelIn (lv G') lb) = S (levelIn (lv G) lb)).
    { intros h lb Hat Hn. rewrite (levelIn_at _ _ _ _ HI Hat). rewrite (levelIn_at _ _ _ _ HI' (Hk _ _ Hat Hn)). reflexivity. }
    destruct w as [x b stack|k lb rb b off up|k lb rb|k lb rb b lm|k lb rb p off up| | |]; cbn [wok lev] in *; try reflexivity.
    - destruct Hw as (h & h' & A & _). eapply K; apply A.
    - destruct Hw as (h & A). eapply K; apply A.
    - destruct Hw as (h & h' & A & _). eapply K; apply A.
    - destruct Hw as (h & pg & k0 & A & _ & B & _). eapply K; [exact A|]. eapply (at_not_root _ _ _ _ _ _ _ _ _ HI); [exact A|]. pose proof (at_le_top _ _ _ B). lia.
  Qed.
  (** the measure *)
  Lemma less st G ws i w st' G' w' : CI st G ws -> nth_error ws i = Some w -> w <> WDone -> CI st' G' (upd ws i w') -> prog G w G' w' ->
    toClimb G' (upd ws i w') < toClimb G ws \/
    (toClimb G' (upd ws i w') = toClimb G ws /\ sum (pos G') (upd ws i w') < sum (pos G) ws).
  Proof.
    intros HCI Hw Hnd HCI' (Hev & Hp). assert (Hk : forall h x, at_ G h x -> x <> root -> at_ G' h x) by (intros h x Hx Hn; apply (Hev h x Hx Hn)). pose proof (ci_inv _ _ _ HCI) as HI. pose proof (ci_inv _ _ _ HCI') as HI'.
    assert (Hlt : i < length ws) by (eapply nth_some_lt; eauto).
    assert (Hopen : open w = 1) by (destruct w; try reflexivity; congruence).
    pose proof (sum_upd open ws i w w' Hw) as Hu. rewrite Hopen in Hu.
    pose proof (lev_level _ _ _ _ HCI (ci_ok _ _ _ HCI _ _ Hw)) as Hl.
    assert (Hcw : climb (height G ws) G w = height G ws + 1 - lev G w) by (destruct w; try reflexivity; congruence).
    pose proof (sum_upd (climb (height G ws) G) ws i w w' Hw) as Hs. rewrite Hcw in Hs.
    assert (Hh0 : top G <= height G ws) by (unfold height; lia).
    (* the other writers *)
    assert (Ho : forall B', B' <= height G ws -> sum (climb B' G') (upd ws i w') + climb (height G ws) G w' <= sum (climb (height G ws) G) (upd ws i w') + climb B' G' w').
    { intros B' HB. pose proof (sum_upd (climb B' G') (upd ws i w') i w' WDone ltac:(rewrite nth_upd by exact Hlt; rewrite Nat.eqb_refl; reflexivity)) as X1.
      pose proof (sum_upd (climb (height G ws) G) (upd ws i w') i w' WDone ltac:(rewrite nth_upd by exact Hlt; rewrite Nat.eqb_refl; reflexivity)) as X2.
      change (climb B' G' WDone) with 0 in X1. change (climb (height G ws) G WDone) with 0 in X2.
      assert (X3 : sum (climb B' G') (upd (upd ws i w') i WDone) <= sum (climb (height G ws) G) (upd (upd ws i w') i WDone)).
      { apply sum_le. intros j wj Hj. rewrite nth_upd in Hj by (rewrite upd_length; exact Hlt). destruct (Nat.eqb_spec j i) as [->|Hn]; [injection Hj as <-; reflexivity|].
        rewrite nth_upd in Hj by exact Hlt. destruct (Nat.eqb_spec j i); [congruence|]. unfold climb. destruct (isDone wj); [lia|].
        rewrite (lev_keep _ _ _ _ _ _ HCI (ci_ok _ _ _ HCI _ _ Hj) HI' Hk). lia. }
      lia. }
    destruct Hp as [(-> & Ht)|[(Ht & Hcl)|(-> & Hm)]].
    - left. unfold toClimb. assert (HB : height G' (upd ws i WDone) <= height G ws) by (unfold height; cbn [open isDone] in Hu; lia).
      pose proof (Ho _ HB) as X. set (B' := height G' (upd ws i WDone)) in *. change (climb B' G' WDone) with 0 in X. change (climb (height G ws) G WDone) with 0 in X, Hs. lia.
    - left. unfold toClimb.
      assert (Hw' : isDone w' = false /\ lev G' w' = S (lev G w)).
      { destruct w as [x b stack|k lb rb b off up|k lb rb|k lb rb b lm|k lb rb p off up| | |]; cbn [climbs] in Hcl; try tauto;
          destruct w' as [x' b' stack'|k' lb' rb' b' off' up'|k' lb' rb'|k' lb' rb' b' lm'|k' lb' rb' p' off' up'| | |]; try tauto; (split; [reflexivity|]); cbn [lev].
        - destruct Hcl as [A B]. rewrite (levelIn_at _ _ _ _ HI' (Hk _ _ A B)). reflexivity.
        - destruct Hcl as (h & A & B & D). rewrite (levelIn_at _ _ _ _ HI' (Hk _ _ B D)), (levelIn_at _ _ _ _ HI A). reflexivity. }
      destruct Hw' as [Hw1 Hw2].
      assert (Ho' : open w' = 1) by (unfold open; rewrite Hw1; reflexivity). rewrite Ho' in Hu.
      assert (EB : height G' (upd ws i w') = height G ws) by (unfold height; lia). rewrite EB.
      pose proof (Ho _ (Nat.le_refl _)) as X.
      assert (C1 : climb (height G ws) G' w' = height G ws + 1 - lev G' w') by (unfold climb; rewrite Hw1; reflexivity). lia.
    - right.
      assert (Hw' : isDone w' = false /\ lev G w' = lev G w /\ pos G w' < pos G w).
      { assert (Ha : forall b, after b (pages G) <= length (pages G)) by (intro; apply after_le).
        destruct w as [x b stack|k lb rb b off up|k lb rb|k lb rb b lm|k lb rb p off up| | |]; cbn [moves] in Hm; try tauto;
          destruct w' as [x' b' stack'|k' lb' rb' b' off' up'|k' lb' rb'|k' lb' rb' b' lm'|k' lb' rb' p' off' up'| | |]; try tauto; (split; [reflexivity|]); cbn [lev pos].
        - split; [reflexivity|]. eapply later_lt; eauto.
        - destruct Hm as [-> Hm]. split; [reflexivity|]. pose proof (later_lt _ _ _ _ HI Hm). lia.
        - subst. split; [reflexivity|lia].
        - subst. split; [reflexivity|lia].
        - subst. split; [reflexivity|]. specialize (Ha b'). lia.
        - subst. split; [reflexivity|lia].
        - destruct Hm as [-> Hm]. split; [reflexivity|]. pose proof (later_lt _ _ _ _ HI Hm). lia.
        - subst. split; [reflexivity|lia]. }
      destruct Hw' as (Hw1 & Hw2 & Hw3).
      assert (Ho' : open w' = 1) by (unfold open; rewrite Hw1; reflexivity). rewrite Ho' in Hu.
      assert (EB : height G (upd ws i w') = height G ws) by (unfold height; lia). unfold toClimb. rewrite EB.
      assert (C1 : climb (height G ws) G w' = height G ws + 1 - lev G w') by (unfold climb; rewrite Hw1; reflexivity). split; [lia|].
      pose proof (sum_upd (pos G) ws i w w' Hw). lia.
  Qed.

  (** ** under a fair schedule everybody finishes *)
  Definition turns (f : nat -> nat) (n m : nat) : list nat := map f (seq n m).
  Lemma step_wait s i : sysStep s i = s \/ exists w st' w', nth_error (snd s) i = Some w /\ act (free (snd s) i) (fst s) root w = Some (st', w').
  Proof.
    unfold BTreeConc.sysStep. destruct (nth_error (snd s) i) as [w|] eqn:E; [|auto]. destruct (act (free (snd s) i) (fst s) root w) as [[st' w']|] eqn:Ea; [|auto]. right. eauto 6.
  Qed.
  Lemma all_done_dec (ws : list writer) : (forall i w, nth_error ws i = Some w -> w = WDone) \/ exists i w, nth_error ws i = Some w /\ w <> WDone.
  Proof.
    induction ws as [|w ws [IH|(i & w0 & A & B)]]; [left; intros [|i] w H; discriminate| |right; exists (S i), w0; auto].
    assert (D : w = WDone \/ w <> WDone) by (destruct w; try (right; discriminate); left; reflexivity).
    destruct D as [->|D]; [left|right; exists 0, w; auto]. intros [|i] w0 H; cbn [nth_error] in H; [congruence|eauto].
  Qed.
  Theorem fair_end C0 rows f : (forall i n, i < length rows -> exists m, n <= m /\ f m = i) ->
    forall s G, OI C0 rows s G -> forall n, exists m, forall i w, nth_error (snd (fold_left sysStep (turns f n m) s)) i = Some w -> w = WDone.
  Proof.
    intro Hfair.
    assert (K : forall a b s G, OI C0 rows s G -> toClimb G (snd s) < a -> sum (pos G) (snd s) < b ->
      forall n, exists m, forall i w, nth_error (snd (fold_left sysStep (turns f n m) s)) i = Some w -> w = WDone).
    { induction a as [|a IHa]; [intros; lia|]. induction b as [|b IHb]; [intros; lia|]. intros s G H Ha Hb n.
      destruct (all_done_dec (snd s)) as [D|(i & w & Hi & Hnd)]; [exists 0; exact D|].
      destruct (no_deadlock (fst s) G (snd s) i w (oi_ci _ _ _ _ H) Hi Hnd) as (j & wj & r & Hj & Hr).
      assert (Hjl : j < length rows) by (rewrite <- (oi_len _ _ _ _ H); eapply nth_some_lt; eauto).
      destruct (Hfair j n Hjl) as (m & Hm & Ef).
      (* the first step that is not a wait *)
      assert (F : exists q, fold_left sysStep (turns f n q) s = s /\ exists w0 st' w', nth_error (snd s) (f (n + q)) = Some w0 /\
        act (free (snd s) (f (n + q))) (fst s) root w0 = Some (st', w')).
      { assert (F : forall d n, f (n + d) = j -> exists q, fold_left sysStep (turns f n q) s = s /\ exists w0 st' w', nth_error (snd s) (f (n + q)) = Some w0 /\
          act (free (snd s) (f (n + q))) (fst s) root w0 = Some (st', w')).
        { induction d as [|d IHd]; intros n0 E.
          - exists 0. split; [reflexivity|]. rewrite E. destruct r as [st' w']. eauto 6.
          - destruct (step_wait s (f n0)) as [E0|X]; [|exists 0; split; [reflexivity|]; rewrite Nat.add_0_r; exact X].
            destruct (IHd (S n0)) as (q & Q1 & Q2); [rewrite <- E; f_equal; lia|]. exists (S q). unfold turns. cbn [seq map fold_left]. rewrite E0. split; [exact Q1|].
            replace (n0 + S q) with (S n0 + q) by lia. exact Q2. }
        apply (F (m - n)). rewrite <- Ef. f_equal. lia. }
      destruct F as (q & Q1 & w0 & st' & w' & Q2 & Q3).
      destruct (oi_step _ _ _ _ (f (n + q)) H) as (G' & H' & _ & _ & Hpr). destruct (Hpr _ _ _ Q2 Q3) as [Es Hp].
      assert (Hnd0 : w0 <> WDone) by (intros ->; discriminate).
      assert (HL := less (fst s) G (snd s) _ w0 st' G' w' (oi_ci _ _ _ _ H) Q2 Hnd0).
      rewrite Es in H'. specialize (HL (oi_ci _ _ _ _ H') Hp).
      assert (R : exists m', forall i w, nth_error (snd (fold_left sysStep (turns f (n + S q) m') (st', upd (snd s) (f (n + q)) w'))) i = Some w -> w = WDone).
      { destruct HL as [HL|[HL1 HL2]].
        - eapply (IHa (S (sum (pos G') (upd (snd s) (f (n + q)) w')))); [exact H'|cbn [snd]; lia|cbn [snd]; lia].
        - eapply IHb; [exact H'|cbn [snd]; lia|cbn [snd]; lia]. }
      destruct R as (m' & R). exists (S q + m'). unfold turns. rewrite seq_app, map_app, fold_left_app.
      replace (seq n (S q)) with (seq n q ++ [n + q]) by (symmetry; apply seq_S). rewrite map_app, fold_left_app. cbn [map fold_left].
      unfold turns in Q1. rewrite Q1, Es. exact R. }
    intros s G H n. eapply (K (S (toClimb G (snd s))) (S (sum (pos G) (snd s)))); eauto.
  Qed.
  Lemma done_stays sched : forall s : store * list writer, (forall i w, nth_error (snd s) i = Some w -> w = WDone) ->
    fold_left sysStep sched s = s.
  Proof.
    induction sched as [|i sched IH]; intros s H; [reflexivity|]. cbn [fold_left].
    assert (E : sysStep s i = s).
    { unfold BTreeConc.sysStep. destruct (nth_error (snd s) i) as [w|] eqn:E; [|reflexivity]. rewrite (H _ _ E). reflexivity. }
    rewrite E. auto.
  Qed.
End CProof.
