(** Search in a tree that satisfies the invariant: descent, lookup, scan, parent search. *)
From Verif Require Import Ord BTree BTreeInv.
From Coq Require Import List ZArith Bool Arith Lia.
Import ListNotations.

Section Find.
  Context {T : Type}.
  Variable cmp : T -> T -> Z.
  Hypothesis OK : total_cmp cmp.
  Variable ifit : list (T * nat) -> Prop.
  Variable lbound : bool.
  Variable ok : T -> Prop.
  Variable fit : list T -> Prop.
  Variable rbound : page T -> T.
  Variable locate : bool -> list (T * nat) -> T -> nat.
  Variable leafFind : list T -> T -> bool * nat.

  (** What the proofs need of findChildPage: the downlink followed exists, and it is the
      first one, or its predecessor's key is below [x], or its own key equals [x] (for the
      last downlink only when the page has a right neighbour). *)
  Definition locate_ok : Prop := forall rm d x, d <> [] ->
    (rm = false -> lbound = true -> forall d0 k c, d = d0 ++ [(k, c)] -> (cmp x k <= 0)%Z) ->
    let o := locate rm d x in
    1 <= o <= length d /\
    (o = 1 \/ (exists k c, nth_error d (o - 2) = Some (k, c) /\ 2 <= o /\ (cmp k x < 0)%Z)
     \/ (exists k c, nth_error d (o - 1) = Some (k, c) /\ cmp k x = 0%Z /\ (o < length d \/ rm = false))).
  (** What they need of isMoveRight's bound. *)
  Definition rbound_ok : Prop := forall tight st root G, BTreeInv.Inv cmp ifit lbound ok fit tight st root G ->
    forall h b pg, at_ G h b -> get st b = Some pg -> p_right pg <> None -> cmp (rbound pg) (p_bound pg) = 0%Z.
  Hypothesis Hrb : rbound_ok.
  Hypothesis Hloc : locate_ok.
  (** What they need of findItem. *)
  Definition leafFind_ok : Prop := forall items x, ssorted cmp items -> Forall ok items -> ok x ->
    (fst (leafFind items x) = true <-> exists y, In y items /\ cmp y x = 0%Z).
  Hypothesis Hfind : leafFind_ok.

  Notation page := (page T).
  Notation store := (list page).
  Notation Inv := (Inv cmp ifit lbound ok fit).
  Notation page_ok := (page_ok cmp ifit lbound ok fit).
  Notation ble := (ble cmp).
  Notation blt := (blt cmp).
  Notation in_range := (in_range cmp).

  Section State.
    Context (tight : bool) (st : store) (root : nat) (G : @ghost T).
    Hypothesis HI : Inv tight st root G.

    Lemma page_get h b : at_ G h b -> exists pg, get st b = Some pg.
    Proof. intro H. destruct (I_page _ _ _ _ _ _ _ _ _ HI _ _ H) as (pg & Hg & _). eauto. Qed.
    Lemma page_facts h b pg : at_ G h b -> get st b = Some pg ->
      p_leaf pg = (h =? 0) /\ p_deleted pg = false /\ blt (slo G b) (shi G b) /\
      (p_left pg = None -> slo G b = BMin) /\
      (forall b', p_right pg = Some b' ->
         ble (shi G b) (slo G b') /\ ble (slo G b') (BAt (p_bound pg)) /\
         (h = 0 -> slo G b' = BAt (p_bound pg))) /\
      body cmp ifit lbound ok fit tight G h (slo G b) (shi G b) pg.
    Proof.
      intros H Hg. destruct (I_page _ _ _ _ _ _ _ _ _ HI _ _ H) as (pg' & Hg' & F).
      rewrite Hg in Hg'. injection Hg' as <-. exact F.
    Qed.
    Lemma slo_lt_shi h b : at_ G h b -> blt (slo G b) (shi G b).
    Proof. intro H. destruct (page_get _ _ H) as [pg Hg]. apply (page_facts _ _ _ H Hg). Qed.

    Lemma moveRight_eq h b pg x : at_ G h b -> get st b = Some pg ->
      moveRight cmp rbound pg x = moveRight cmp (@p_bound T) pg x.
    Proof.
      intros Hat Hg. unfold moveRight. destruct (p_right pg) as [r|] eqn:Er; [|reflexivity].
      assert (E : cmp (rbound pg) (p_bound pg) = 0%Z) by (apply (Hrb tight st root G HI h b pg Hat Hg); congruence).
      assert (E' := cmp_sym_eq _ OK _ _ E).
      destruct (Z.ltb_spec 0 (cmp x (rbound pg))) as [H|H], (Z.ltb_spec 0 (cmp x (p_bound pg))) as [H'|H']; auto; exfalso.
      - pose proof (tc_trans _ OK x (p_bound pg) (rbound pg)). lia.
      - pose proof (tc_trans _ OK x (rbound pg) (p_bound pg)). lia.
    Qed.

    (** moving right keeps the target reachable *)
    Lemma step_right h b pg x : at_ G h b -> get st b = Some pg -> blt (slo G b) (BAt x) ->
      moveRight cmp (@p_bound T) pg x = true ->
      exists r, p_right pg = Some r /\ at_ G h r /\ blt (slo G r) (BAt x).
    Proof.
      intros Hat Hg Hx Hm. unfold moveRight in Hm. destruct (p_right pg) as [r|] eqn:Er; [|discriminate].
      apply Z.ltb_lt in Hm. exists r. split; [reflexivity|].
      split; [eapply right_at; eauto|].
      destruct (page_facts _ _ _ Hat Hg) as (_ & _ & _ & _ & Hr & _). specialize (Hr _ Er).
      assert (Hb : blt (BAt (p_bound pg)) (BAt x)) by (apply bat_lt, (cmp_gt_lt _ OK); exact Hm).
      eapply ble_lt_trans; [exact OK| |exact Hb]. apply Hr.
    Qed.

    (** descending keeps the target reachable *)
    Lemma step_down h b pg x : at_ G (S h) b -> get st b = Some pg -> blt (slo G b) (BAt x) ->
      (lbound = true -> moveRight cmp (@p_bound T) pg x = false) ->
      exists k c, nth_error (p_downs pg) (locate (rightmost pg) (p_downs pg) x - 1) = Some (k, c) /\
        at_ G h c /\ blt (slo G c) (BAt x).
    Proof.
      intros Hat Hg Hx Hm. destruct (page_facts _ _ _ Hat Hg) as (_ & _ & _ & _ & _ & Hb).
      destruct Hb as (_ & _ & Hch & Hd & Hlb & kc & d & Ed & Es).
      set (rm := rightmost pg) in *. set (dd := p_downs pg) in *.
      assert (Hne : dd <> []) by (rewrite Ed; discriminate).
      destruct (Hloc rm dd x Hne) as (Ho & Hc).
      { intros Hrm Hlbt d0 k c E. specialize (Hm Hlbt). unfold moveRight in Hm. unfold rm, rightmost in Hrm.
        destruct (p_right pg) as [r|] eqn:Er; [|discriminate]. apply Z.ltb_ge in Hm.
        specialize (Hlb Hlbt ltac:(discriminate) d0 k c E). apply (tc_trans _ OK) with (p_bound pg); lia. }
      set (o := locate rm dd x) in *.
      destruct (nth_error dd (o - 1)) as [[k c]|] eqn:En.
      2: { apply nth_error_None in En. lia. }
      exists k, c. split; [reflexivity|].
      assert (Hc' : at_ G h c). { rewrite Forall_forall in Hch. apply (Hch (k, c)). eapply nth_error_In; eauto. }
      split; [exact Hc'|].
      destruct Hc as [E1|[(k1 & c1 & E2 & Ho2 & Hk)|(k1 & c1 & E2 & Hk & Hlast)]].
      - rewrite E1 in En. rewrite Ed in En. simpl in En. injection En as ->. simpl in Es. rewrite <- Es. exact Hx.
      - apply nth_error_split in E2 as (d1 & d2 & E2 & El).
        rewrite E2 in En. rewrite nth_error_app2 in En by lia.
        replace (o - 1 - length d1) with 1 in En by lia. destruct d2 as [|kc' d2]; [discriminate|].
        simpl in En. injection En as ->. rewrite E2 in Hd.
        pose proof (dok_prev_key cmp OK _ _ _ _ _ _ _ _ _ _ Hd) as Hpk.
        eapply ble_lt_trans; [exact OK|exact Hpk|]. apply bat_lt. exact Hk.
      - injection E2 as <- <-.
        apply nth_error_split in En as (d1 & d2 & E2 & El). rewrite E2 in Hd.
        assert (Hkk : blt (slo G c) (BAt k)).
        { eapply (dok_key_gt cmp OK); [exact Hd|eapply slo_lt_shi; eauto|].
          destruct Hlast as [Hl|Hl].
          - left. intros ->. assert (length dd = length (d1 ++ [(k, c)])) by (rewrite E2; reflexivity).
            rewrite app_length in H. simpl in H. lia.
          - right. fold rm. rewrite Hl. reflexivity. }
        eapply blt_le_trans; [exact OK|exact Hkk|]. apply bat_le. lia.
    Qed.

    (** a leaf where the move-right test fails is the one that can hold [x] *)
    Lemma leaf_target b pg x : at_ G 0 b -> get st b = Some pg -> blt (slo G b) (BAt x) ->
      moveRight cmp (@p_bound T) pg x = false -> in_range (slo G b) (shi G b) x.
    Proof.
      intros Hat Hg Hx Hm. split; [exact Hx|].
      destruct (page_facts _ _ _ Hat Hg) as (_ & _ & _ & _ & _ & Hb & _). rewrite Hb. unfold hi_of, moveRight in *.
      destruct (p_right pg); [|apply ble_max]. apply Z.ltb_ge in Hm. apply bat_le. exact Hm.
    Qed.

    (** the stack: pages above with a valid level *)
    Fixpoint stack_ok (h : nat) (stack : list (nat * nat)) : Prop :=
      match stack with
      | [] => h = top G
      | (p, _) :: up => h < top G /\ at_ G (S h) p /\ stack_ok (S h) up
      end.

    Lemma findLeaf_spec fuel : forall h L1 b L2 stack x,
      nth_error (lv G) h = Some (L1 ++ b :: L2) ->
      blt (slo G b) (BAt x) -> stack_ok h stack ->
      S (length L2) + length (concat (firstn h (lv G))) <= fuel ->
      exists b' stack', findLeaf cmp rbound locate fuel st root b stack x = Some (b', stack') /\
        at_ G 0 b' /\ in_range (slo G b') (shi G b') x /\ stack_ok 0 stack'.
    Proof.
      induction fuel as [|f IH]; intros h L1 b L2 stack x HL Hx Hst Hf; [lia|].
      assert (Hat : at_ G h b) by (exists (L1 ++ b :: L2); split; [exact HL|apply in_app_iff; right; left; reflexivity]).
      destruct (page_get _ _ Hat) as [pg Hg]. cbn [findLeaf]. rewrite Hg. rewrite (moveRight_eq _ _ _ x Hat Hg).
      destruct (page_facts _ _ _ Hat Hg) as (Hleaf & _ & _ & _ & Hr & Hbody).
      assert (Hmr : b = root -> moveRight cmp (@p_bound T) pg x = false).
      { intros ->. unfold moveRight. destruct (root_right _ _ _ _ _ _ _ _ _ HI pg Hg) as [-> _]. reflexivity. }
      destruct (moveRight cmp (@p_bound T) pg x) eqn:Em.
      - assert (Hbr : b =? root = false) by (apply Nat.eqb_neq; intro E; specialize (Hmr E); discriminate).
        rewrite Hbr. cbn [negb andb].
        destruct (step_right _ _ _ _ Hat Hg Hx Em) as (r & Er & Hrat & Hrx). rewrite Er.
        pose proof (I_links _ _ _ _ _ _ _ _ _ HI _ _ HL) as Hl. apply links_at in Hl as (pg' & Hg' & Hr' & _).
        rewrite Hg in Hg'. injection Hg' as <-. rewrite Er in Hr'. destruct L2 as [|r' L2]; [discriminate|].
        simpl in Hr'. injection Hr' as ->.
        apply (IH h (L1 ++ [b]) r' L2); auto.
        + rewrite <- app_assoc. exact HL.
        + simpl in Hf. lia.
      - rewrite andb_false_r. rewrite Hleaf. destruct h as [|h].
        + simpl. exists b, stack. split; [reflexivity|]. split; [exact Hat|]. split; [|exact Hst].
          eapply leaf_target; eauto.
        + cbn [Nat.eqb]. destruct (step_down _ _ _ _ Hat Hg Hx (fun _ => Em)) as (k & c & En & Hc & Hcx).
          rewrite En. destruct (at_split G _ _ Hc) as (M1 & M2 & HM).
          apply (IH h M1 c M2); auto.
          * cbn [stack_ok]. split; [|auto].
            pose proof (at_lt G _ _ Hat). unfold top. lia.
          * assert (E : firstn (S h) (lv G) = firstn h (lv G) ++ [M1 ++ c :: M2]).
            { clear - HM. revert HM. generalize (M1 ++ c :: M2) as M. generalize (lv G) as l.
              induction h as [|h IHh]; intros l M HM; destruct l as [|a l]; try discriminate.
              - simpl in HM. injection HM as ->. reflexivity.
              - simpl in HM. specialize (IHh _ _ HM). change (firstn (S (S h)) (a :: l)) with (a :: firstn (S h) l).
                rewrite IHh. reflexivity. }
            rewrite E, concat_app, app_length in Hf. simpl in Hf. rewrite app_nil_r, app_length in Hf. simpl in Hf. lia.
    Qed.

    Lemma findLeaf_root x :
      exists b stack, findLeaf cmp rbound locate (S (length st)) st root root [] x = Some (b, stack) /\
        at_ G 0 b /\ in_range (slo G b) (shi G b) x /\ stack_ok 0 stack.
    Proof.
      apply (findLeaf_spec _ (top G) [] root []).
      - apply (top_root _ _ _ _ _ _ _ _ _ HI).
      - rewrite (root_slo _ _ _ _ _ _ _ _ _ HI). unfold blt. simpl. lia.
      - reflexivity.
      - pose proof (concat_bound _ _ _ _ _ _ _ _ _ HI). pose proof (concat_firstn_le (lv G) (top G)). simpl. lia.
    Qed.

    (** ** contents *)
    Lemma level0 : exists L, nth_error (lv G) 0 = Some L /\ contents st G = flat_map (items_at st) L.
    Proof.
      pose proof (lv_nonempty _ _ _ _ _ _ _ _ _ HI) as H. unfold contents.
      destruct (lv G) as [|L l]; [congruence|]. exists L. split; reflexivity.
    Qed.
    Lemma contents_in x : In x (contents st G) <-> exists b pg, at_ G 0 b /\ get st b = Some pg /\ In x (p_items pg).
    Proof.
      destruct level0 as (L & HL & ->). rewrite in_flat_map. split.
      - intros (b & Hb & Hx). assert (Hat : at_ G 0 b) by (exists L; auto).
        destruct (page_get _ _ Hat) as [pg Hg]. exists b, pg. unfold items_at in Hx. rewrite Hg in Hx. auto.
      - intros (b & pg & (L' & HL' & Hb) & Hg & Hx). rewrite HL in HL'. injection HL' as <-.
        exists b. split; [exact Hb|]. unfold items_at. rewrite Hg. exact Hx.
    Qed.
    Lemma leaf_items b pg : at_ G 0 b -> get st b = Some pg ->
      ssorted cmp (p_items pg) /\ Forall ok (p_items pg) /\
      (forall x, In x (p_items pg) -> in_range (slo G b) (shi G b) x).
    Proof. intros Hat Hg. destruct (page_facts _ _ _ Hat Hg) as (_ & _ & _ & _ & _ & Hb). unfold body, leaf_body in Hb. tauto. Qed.

    (** pages of a level left to right have ascending, disjoint ranges *)
    Lemma level_order : forall h L1 b L2, nth_error (lv G) h = Some (L1 ++ b :: L2) ->
      forall b', In b' L2 -> ble (shi G b) (slo G b').
    Proof.
      intros h L1 b L2. revert L1 b. induction L2 as [|c L2 IH]; intros L1 b HL b' Hb'; [destruct Hb'|].
      assert (Hat : at_ G h b) by (eexists; split; [exact HL|apply in_app_iff; right; left; reflexivity]).
      assert (Hc : at_ G h c) by (eexists; split; [exact HL|apply in_app_iff; right; right; left; reflexivity]).
      destruct (page_get _ _ Hat) as [pg Hg].
      pose proof (I_links _ _ _ _ _ _ _ _ _ HI _ _ HL) as Hl. apply links_at in Hl as (pg' & Hg' & Hr' & _).
      rewrite Hg in Hg'. injection Hg' as <-. simpl in Hr'.
      destruct (page_facts _ _ _ Hat Hg) as (_ & _ & _ & _ & Hr & _). destruct (Hr _ Hr') as [Hbc _].
      destruct Hb' as [<-|Hb']; [exact Hbc|].
      eapply ble_trans; [exact OK|exact Hbc|]. eapply ble_trans; [exact OK|apply blt_ble; eapply slo_lt_shi; eauto|].
      apply (IH (L1 ++ [b])); [rewrite <- app_assoc; exact HL|exact Hb'].
    Qed.
    Lemma first_only h L1 b L2 : nth_error (lv G) h = Some (L1 ++ b :: L2) -> slo G b = BMin -> L1 = [].
    Proof.
      intros HL Hs. destruct L1 as [|a L1]; [reflexivity|exfalso].
      assert (H : ble (shi G a) (slo G b)).
      { apply (level_order h [] a (L1 ++ b :: L2)); [exact HL|]. apply in_app_iff. right; left; reflexivity. }
      assert (Ha : at_ G h a) by (eexists; split; [exact HL|left; reflexivity]).
      rewrite Hs in H. apply slo_lt_shi in Ha. apply ble_min_eq in H. rewrite H in Ha.
      eapply (ble_nlt cmp OK); [apply ble_min|exact Ha].
    Qed.

    Lemma contents_sorted : ssorted cmp (contents st G).
    Proof.
      destruct level0 as (L & HL & ->).
      assert (K : forall L2 L1, L = L1 ++ L2 -> ssorted cmp (flat_map (items_at st) L2)).
      { induction L2 as [|b L2 IH]; intros L1 E; [constructor|]. cbn [flat_map].
        assert (Hat : at_ G 0 b) by (exists L; split; [exact HL|rewrite E; apply in_app_iff; right; left; reflexivity]).
        destruct (page_get _ _ Hat) as [pg Hg]. destruct (leaf_items _ _ Hat Hg) as (Hs & _ & Hrg).
        apply ssorted_app. unfold items_at at 1. rewrite Hg. split; [exact Hs|]. split.
        - apply (IH (L1 ++ [b])). rewrite <- app_assoc. exact E.
        - intros x y Hx Hy. unfold items_at in Hx. rewrite Hg in Hx. apply in_flat_map in Hy as (b' & Hb' & Hy).
          assert (Hat' : at_ G 0 b') by (exists L; split; [exact HL|rewrite E; apply in_app_iff; right; right; exact Hb']).
          destruct (page_get _ _ Hat') as [pg' Hg']. unfold items_at in Hy. rewrite Hg' in Hy.
          destruct (leaf_items _ _ Hat' Hg') as (_ & _ & Hrg'). destruct (Hrg _ Hx) as [_ Hx1]. destruct (Hrg' _ Hy) as [Hy1 _].
          cut (blt (BAt x) (BAt y)); [intro Hc; exact Hc|]. eapply ble_lt_trans; [exact OK| |exact Hy1]. eapply ble_trans; [exact OK|exact Hx1|].
          rewrite E in HL. eapply level_order; eauto. }
      apply (K L []). reflexivity.
    Qed.
    Lemma contents_ok : Forall ok (contents st G).
    Proof.
      apply Forall_forall. intros x Hx. apply contents_in in Hx as (b & pg & Hat & Hg & Hx).
      destruct (leaf_items _ _ Hat Hg) as (_ & H & _). rewrite Forall_forall in H. auto.
    Qed.

    (** equal rows live on the leaf whose range holds them *)
    Lemma in_range_unique b b' x : at_ G 0 b -> at_ G 0 b' ->
      in_range (slo G b) (shi G b) x -> in_range (slo G b') (shi G b') x -> b = b'.
    Proof.
      intros (L & HL & Hb) (L' & HL' & Hb') [H1 H2] [H1' H2']. rewrite HL in HL'. injection HL' as <-.
      apply in_split in Hb as (L1 & L2 & ->). apply in_app_iff in Hb' as [Hb'|[<-|Hb']]; [|reflexivity|].
      - exfalso. apply in_split in Hb' as (M1 & M2 & ->).
        rewrite <- app_assoc in HL. cbn [app] in HL.
        assert (ble (shi G b') (slo G b)) by (eapply level_order; [exact HL|apply in_app_iff; right; left; reflexivity]).
        eapply (ble_nlt cmp OK); [exact (ble_trans cmp OK _ _ _ H2' H)|exact H1].
      - exfalso. assert (ble (shi G b) (slo G b')) by (eapply level_order; [exact HL|exact Hb']).
        eapply (ble_nlt cmp OK); [exact (ble_trans cmp OK _ _ _ H2 H)|exact H1'].
    Qed.
    Lemma in_range_eq lo hi x y : cmp x y = 0%Z -> in_range lo hi x -> in_range lo hi y.
    Proof.
      intros E [H1 H2]. assert (E' := cmp_sym_eq _ OK _ _ E). split.
      - eapply blt_le_trans; [exact OK|exact H1|]. apply bat_le. lia.
      - eapply ble_trans; [exact OK| |exact H2]. apply bat_le. lia.
    Qed.
    Lemma found_in_leaf b pg x : at_ G 0 b -> get st b = Some pg -> in_range (slo G b) (shi G b) x ->
      ((exists y, In y (p_items pg) /\ cmp y x = 0%Z) <-> exists y, In y (contents st G) /\ cmp y x = 0%Z).
    Proof.
      intros Hat Hg Hx. split.
      - intros (y & Hy & E). exists y. split; [|exact E]. apply contents_in. eauto.
      - intros (y & Hy & E). apply contents_in in Hy as (b' & pg' & Hat' & Hg' & Hy).
        destruct (leaf_items _ _ Hat' Hg') as (_ & _ & Hr). specialize (Hr _ Hy).
        assert (b = b') by (apply (in_range_unique b b' x); auto; eapply in_range_eq; eauto). subst b'.
        rewrite Hg in Hg'. injection Hg' as <-. eauto.
    Qed.

    Lemma lookup_spec x : ok x ->
      exists r, lookup cmp rbound locate leafFind st root x = Some r /\
        (r = true <-> exists y, In y (contents st G) /\ cmp y x = 0%Z).
    Proof.
      intro Hx. destruct (findLeaf_root x) as (b & stack & Hf & Hat & Hr & _).
      unfold lookup. rewrite Hf. destruct (page_get _ _ Hat) as [pg Hg]. rewrite Hg.
      exists (fst (leafFind (p_items pg) x)). split; [reflexivity|].
      destruct (leaf_items _ _ Hat Hg) as (Hs & Ho & _).
      rewrite (Hfind _ _ Hs Ho Hx). apply (found_in_leaf _ _ _ Hat Hg Hr).
    Qed.

    (** ** scan *)
    Lemma leftmost_spec fuel : forall h b L, nth_error (lv G) h = Some (b :: L) -> h < fuel ->
      exists b0 L0, nth_error (lv G) 0 = Some (b0 :: L0) /\ leftmostLeaf fuel st b = Some b0.
    Proof.
      induction fuel as [|f IH]; intros h b L HL Hf; [lia|].
      assert (Hat : at_ G h b) by (exists (b :: L); split; [exact HL|left; reflexivity]).
      destruct (page_get _ _ Hat) as [pg Hg]. cbn [leftmostLeaf]. rewrite Hg.
      destruct (page_facts _ _ _ Hat Hg) as (Hleaf & _ & _ & _ & _ & Hbody). rewrite Hleaf.
      destruct h as [|h]; simpl.
      - eauto.
      - destruct Hbody as (_ & _ & Hch & _ & _ & [k c] & d & Ed & Es). rewrite Ed.
        rewrite Ed in Hch. apply Forall_inv in Hch. simpl in Hch, Es.
        rewrite (first_slo _ _ _ _ _ _ _ _ _ HI _ _ _ HL) in Es.
        destruct (at_split G _ _ Hch) as (M1 & M2 & HM).
        pose proof (first_only _ _ _ _ HM (eq_sym Es)) as ->.
        apply (IH h c M2); [exact HM|lia].
    Qed.

    Lemma walk_spec fuel : forall L1 b L2, nth_error (lv G) 0 = Some (L1 ++ b :: L2) -> length L2 < fuel ->
      walkRight fuel st b = Some (flat_map (items_at st) (b :: L2)).
    Proof.
      induction fuel as [|f IH]; intros L1 b L2 HL Hf; [lia|].
      assert (Hat : at_ G 0 b) by (eexists; split; [exact HL|apply in_app_iff; right; left; reflexivity]).
      destruct (page_get _ _ Hat) as [pg Hg]. cbn [walkRight]. rewrite Hg.
      destruct (page_facts _ _ _ Hat Hg) as (Hleaf & Hdel & _). rewrite Hleaf, Hdel. cbn [Nat.eqb negb orb].
      pose proof (I_links _ _ _ _ _ _ _ _ _ HI _ _ HL) as Hl. apply links_at in Hl as (pg' & Hg' & Hr' & _).
      rewrite Hg in Hg'. injection Hg' as <-. rewrite Hr'.
      assert (Ei : items_at st b = p_items pg) by (unfold items_at; rewrite Hg; reflexivity).
      cbn [flat_map]. rewrite Ei. destruct L2 as [|r L2]; cbn [hd_error].
      - simpl. rewrite app_nil_r. reflexivity.
      - rewrite (IH (L1 ++ [b]) r L2); [reflexivity|rewrite <- app_assoc; exact HL|simpl in Hf; lia].
    Qed.

    Lemma levels_bound : (forall L, In L (lv G) -> L <> []) -> length (lv G) <= length (concat (lv G)).
    Proof.
      generalize (lv G) as l. induction l as [|L l IH]; intro H; [simpl; lia|].
      simpl. rewrite app_length. assert (length l <= length (concat l)) by (apply IH; intros; apply H; right; auto).
      pose proof (H L (or_introl eq_refl)). destruct L; [congruence|simpl; lia].
    Qed.
    Lemma level_nonempty h : h <= top G -> exists b L, nth_error (lv G) h = Some (b :: L).
    Proof.
      (* downwards from the root *)
      assert (K : forall d h, h + d = top G -> exists b L, nth_error (lv G) h = Some (b :: L)).
      { induction d as [|d IH]; intros h' E.
        - exists root, []. replace h' with (top G) by lia. apply (top_root _ _ _ _ _ _ _ _ _ HI).
        - destruct (IH (S h') ltac:(lia)) as (b & L & HL).
          assert (Hat : at_ G (S h') b) by (exists (b :: L); split; [exact HL|left; reflexivity]).
          destruct (page_get _ _ Hat) as [pg Hg]. destruct (page_facts _ _ _ Hat Hg) as (_ & _ & _ & _ & _ & Hb).
          destruct Hb as (_ & _ & Hch & _ & _ & kc & d0 & Ed & _). rewrite Ed in Hch. apply Forall_inv in Hch.
          destruct Hch as (M & HM & Hin). destruct M as [|m M]; [destruct Hin|]. eauto. }
      intro H. apply (K (top G - h)). lia.
    Qed.
    Lemma levels_le : length (lv G) <= length st.
    Proof.
      etransitivity; [|apply (concat_bound _ _ _ _ _ _ _ _ _ HI)]. apply levels_bound.
      intros L HL. apply In_nth_error in HL as [h HL]. pose proof (nth_some_lt _ _ _ HL).
      destruct (level_nonempty h) as (b & L' & HL'); [unfold top; lia|]. rewrite HL in HL'. injection HL' as ->. discriminate.
    Qed.

    Lemma scan_spec : scan st root = Some (contents st G).
    Proof.
      unfold scan.
      destruct (leftmost_spec (S (length st)) (top G) root []) as (b0 & L0 & HL & Hl).
      - apply (top_root _ _ _ _ _ _ _ _ _ HI).
      - pose proof levels_le. unfold top. lia.
      - rewrite Hl. rewrite (walk_spec (S (length st)) [] b0 L0).
        + unfold contents. destruct (lv G) as [|L l]; [discriminate|]. simpl in HL. injection HL as ->. reflexivity.
        + exact HL.
        + pose proof (concat_bound _ _ _ _ _ _ _ _ _ HI) as Hb. clear - HL Hb.
          destruct (lv G) as [|L l]; [discriminate|]. simpl in HL. injection HL as ->. simpl in Hb. rewrite app_length in Hb. lia.
    Qed.
  End State.
End Find.

(** The right bound kept as a field of the page. *)
Lemma p_bound_ok {T} (cmp : T -> T -> Z) (OK : total_cmp cmp) ifit lbound ok fit : rbound_ok cmp ifit lbound ok fit (@p_bound T).
Proof. intros tight st root G HI h b pg _ _ _. apply (tc_refl _ OK). Qed.
