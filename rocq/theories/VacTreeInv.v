(** Structural invariant of a posting tree under vacuum, and its relation to the invariant of BTreeInv.v. *)
From Verif Require Import Ord BTree BTreeInv BTreeFind VacuumTree.
From Coq Require Import List ZArith Bool Arith Lia.
Import ListNotations.

Section Struct.
  Context {T : Type}.
  Variable cmp : T -> T -> Z.
  Variable ifit : list (T * nat) -> Prop.
  Variable ok : T -> Prop.
  Variable fit : list T -> Prop.
  Notation page := (page T).
  Notation store := (list page).

  Definition kids (st : store) (b : nat) : list nat := match get st b with Some pg => map snd (p_downs pg) | None => [] end.
  Fixpoint under (h : nat) (st : store) (b : nat) : list nat :=
    match h with O => [b] | S h' => flat_map (under h' st) (kids st b) end.

  Record Str (st : store) (root : nat) (lvl : list (list nat)) : Prop := {
    S_top : exists X, lvl = X ++ [[root]];
    S_nodup : NoDup (concat lvl);
    S_links : forall h L, nth_error lvl h = Some L -> links st None L;
    S_kids : forall h L L', nth_error lvl h = Some L -> nth_error lvl (S h) = Some L' -> flat_map (kids st) L' = L;
    S_page : forall h L b, nth_error lvl h = Some L -> In b L -> exists pg, get st b = Some pg /\ p_leaf pg = (h =? 0) /\ p_deleted pg = false /\
      (h = 0 -> p_downs pg = [] /\ ssorted cmp (p_items pg) /\ Forall ok (p_items pg) /\ fit (p_items pg)) /\
      (h <> 0 -> p_items pg = [] /\ ifit (p_downs pg));
    S_leaf : forall L1 b L2 pg, nth_error lvl 0 = Some (L1 ++ b :: L2) -> get st b = Some pg ->
      (forall a pa, In a L1 -> get st a = Some pa -> (forall x, In x (p_items pg) -> (cmp (p_bound pa) x < 0)%Z) /\ (L2 <> [] -> (cmp (p_bound pa) (p_bound pg) < 0)%Z)) /\
      (L2 <> [] -> forall x, In x (p_items pg) -> (cmp x (p_bound pg) <= 0)%Z);
    S_key : forall h L1 b L2 pg d1 k c d2 x px, nth_error lvl (S h) = Some (L1 ++ b :: L2) -> get st b = Some pg -> p_downs pg = d1 ++ (k, c) :: d2 ->
      d2 <> [] \/ L2 <> [] -> In x (under h st c) -> get st x = Some px -> (cmp (p_bound px) k <= 0)%Z;
    S_bound : forall h L1 b L2 pg x px, nth_error lvl (S h) = Some (L1 ++ b :: L2) -> L2 <> [] -> get st b = Some pg ->
      In x (under (S h) st b) -> get st x = Some px -> (cmp (p_bound px) (p_bound pg) <= 0)%Z;
    S_first : forall h b L, nth_error lvl (S h) = Some (b :: L) -> kids st b <> [];
    S_last : forall h b L, nth_error lvl (S h) = Some (L ++ [b]) -> kids st b <> [] }.

  (** no childless internal page *)
  Definition full (st : store) (lvl : list (list nat)) : Prop := forall h L b, nth_error lvl (S h) = Some L -> In b L -> kids st b <> [].

  Lemma links_get (st : store) : forall L prv b, links st prv L -> In b L -> exists pg, get st b = Some pg.
  Proof. induction L as [|a L IH]; intros prv b H Hb; [destruct Hb|]. destruct H as (pg & Hg & _ & _ & H). destruct Hb as [<-|Hb]; [eauto|eapply IH; eauto]. Qed.

  Section Facts.
    Context (st : store) (root : nat) (lvl : list (list nat)) (HS : Str st root lvl).

    Lemma s_level h : h < length lvl -> exists L, nth_error lvl h = Some L.
    Proof. intro H. destruct (nth_error lvl h) eqn:E; [eauto|]. apply nth_error_None in E. lia. Qed.
    Lemma s_len : lvl <> [].
    Proof. destruct (S_top _ _ _ HS) as [X E]. rewrite E. destruct X; discriminate. Qed.
    Lemma s_topn : nth_error lvl (length lvl - 1) = Some [root].
    Proof.
      destruct (S_top _ _ _ HS) as [X E]. rewrite E, app_length. cbn [length]. rewrite nth_error_app2 by lia. replace (length X + 1 - 1 - length X) with 0 by lia. reflexivity.
    Qed.
    Lemma s_nonempty : forall n h L, h + n = length lvl - 1 -> nth_error lvl h = Some L -> L <> [].
    Proof.
      induction n as [|n IH]; intros h L E HL.
      - replace h with (length lvl - 1) in HL by lia. rewrite s_topn in HL. injection HL as <-. discriminate.
      - destruct (s_level (S h)) as [L' HL']; [lia|]. pose proof (IH (S h) L' ltac:(lia) HL') as Hne. destruct L' as [|b L']; [congruence|].
        rewrite <- (S_kids _ _ _ HS h _ _ HL HL'). cbn [flat_map]. pose proof (S_first _ _ _ HS h b L' HL') as H. destruct (kids st b); [congruence|discriminate].
    Qed.
    Lemma s_nonempty' h L : nth_error lvl h = Some L -> L <> [].
    Proof. intro H. pose proof (nth_some_lt _ _ _ H). apply (s_nonempty (length lvl - 1 - h) h L); [lia|exact H]. Qed.

    Lemma s_inj h h' L L' b : nth_error lvl h = Some L -> nth_error lvl h' = Some L' -> In b L -> In b L' -> h = h'.
    Proof.
      assert (K : forall h h' L L' b, h < h' -> nth_error lvl h = Some L -> nth_error lvl h' = Some L' -> In b L -> In b L' -> False).
      { clear h h' L L' b. intros h h' L L' b Hlt H H' Hb Hb'.
        apply nth_error_split in H as (l1 & l2 & E & El).
        pose proof (S_nodup _ _ _ HS) as N. rewrite E in H', N.
        rewrite concat_app in N. simpl in N. apply nodup_app in N as (_ & N & _).
        rewrite nth_error_app2 in H' by lia. destruct (h' - length l1) as [|k] eqn:Ek; [lia|].
        simpl in H'. apply nodup_app in N as (_ & _ & N). eapply N; [exact Hb|]. eapply nth_concat; eauto. }
      intros H H' Hb Hb'. destruct (Nat.lt_trichotomy h h') as [Hlt|[E|Hlt]]; auto; exfalso; eapply K; eauto.
    Qed.
    Lemma s_nodup h L : nth_error lvl h = Some L -> NoDup L.
    Proof.
      intro H. apply nth_error_split in H as (l1 & l2 & E & _).
      pose proof (S_nodup _ _ _ HS) as N. rewrite E, concat_app in N. simpl in N.
      apply nodup_app in N as (_ & N & _). apply nodup_app in N as (N & _ & _). exact N.
    Qed.
    Lemma s_get h L b : nth_error lvl h = Some L -> In b L -> exists pg, get st b = Some pg.
    Proof. intros H Hb. destruct (S_page _ _ _ HS h L b H Hb) as (pg & Hg & _). eauto. Qed.

    (** the leaves under the pages of a level, in order, are the leaf level *)
    Lemma s_under : forall h L L0, nth_error lvl h = Some L -> nth_error lvl 0 = Some L0 -> flat_map (under h st) L = L0.
    Proof.
      induction h as [|h IH]; intros L L0 HL H0.
      - rewrite HL in H0. injection H0 as ->. clear. induction L0 as [|b L IH]; [reflexivity|]. cbn [flat_map under app]. f_equal. exact IH.
      - destruct (s_level h) as [L' HL']; [apply nth_some_lt in HL; lia|]. rewrite <- (IH L' L0 HL' H0). rewrite <- (S_kids _ _ _ HS h L' L HL' HL).
        clear. induction L as [|b L IH]; [reflexivity|]. cbn [flat_map]. rewrite flat_map_app, <- IH. reflexivity.
    Qed.
    Lemma s_right h L1 b L2 pg : nth_error lvl h = Some (L1 ++ b :: L2) -> get st b = Some pg ->
      p_right pg = hd_error L2 /\ p_left pg = match L1 with [] => None | _ => Some (last L1 0) end.
    Proof. intros HL Hg. pose proof (S_links _ _ _ HS _ _ HL) as H. apply links_at in H as (pg' & Hg' & H1 & H2). rewrite Hg in Hg'. injection Hg' as <-. auto. Qed.

    (** ** a forward scan *)
    Definition rows_of_leaves : list T := match lvl with [] => [] | L :: _ => flat_map (items_at st) L end.
    Lemma s_leftmost : forall fuel h b L, nth_error lvl h = Some (b :: L) -> h < fuel -> exists b0 L0, nth_error lvl 0 = Some (b0 :: L0) /\ leftmostLeaf fuel st b = Some b0.
    Proof.
      induction fuel as [|f IH]; intros h b L HL Hf; [lia|]. destruct (S_page _ _ _ HS h _ b HL (or_introl eq_refl)) as (pg & Hg & Hlf & _).
      cbn [leftmostLeaf]. rewrite Hg, Hlf. destruct h as [|h]; cbn [Nat.eqb].
      - exists b, L. auto.
      - pose proof (S_first _ _ _ HS h b L HL) as Hk. destruct (s_level h) as [L' HL']; [apply nth_some_lt in HL; lia|].
        pose proof (S_kids _ _ _ HS h _ _ HL' HL) as Ek. cbn [flat_map] in Ek. unfold kids in Hk, Ek at 1. rewrite Hg in Hk, Ek. destruct (p_downs pg) as [|[k c] d]; [contradiction|].
        cbn [map snd app] in Ek. subst L'. apply (IH h c _ HL'). lia.
    Qed.
    Lemma s_walk : forall fuel L1 b L2, nth_error lvl 0 = Some (L1 ++ b :: L2) -> length L2 < fuel -> walkRight fuel st b = Some (flat_map (items_at st) (b :: L2)).
    Proof.
      induction fuel as [|f IH]; intros L1 b L2 HL Hf; [lia|]. destruct (S_page _ _ _ HS 0 _ b HL ltac:(apply in_app_iff; right; left; reflexivity)) as (pg & Hg & Hlf & Hd & _).
      cbn [walkRight]. rewrite Hg, Hlf, Hd. cbn [Nat.eqb negb orb]. destruct (s_right _ _ _ _ _ HL Hg) as [Hr _]. rewrite Hr. cbn [flat_map]. unfold items_at at 1. rewrite Hg.
      destruct L2 as [|c L2]; cbn [hd_error].
      - cbn [flat_map]. rewrite app_nil_r. reflexivity.
      - rewrite (IH (L1 ++ [b]) c L2); [reflexivity|rewrite <- app_assoc; exact HL|cbn in Hf; lia].
    Qed.
    Lemma s_valid h L b : nth_error lvl h = Some L -> In b L -> b < length st.
    Proof. intros H Hb. destruct (s_get _ _ _ H Hb) as [pg Hg]. eapply nth_some_lt; eauto. Qed.
    Lemma s_concat : length (concat lvl) <= length st.
    Proof.
      rewrite <- (seq_length (length st) 0). apply NoDup_incl_length; [apply (S_nodup _ _ _ HS)|]. intros x Hx. apply in_concat in Hx as (L & HL & Hx). apply in_seq.
      apply In_nth_error in HL as [h HL]. pose proof (s_valid h L x HL Hx). lia.
    Qed.
    Lemma s_levels : length lvl <= length st.
    Proof.
      pose proof s_concat as H. enough (length lvl <= length (concat lvl)) by lia.
      assert (Hn : forall L, In L lvl -> L <> []) by (intros L HL; apply In_nth_error in HL as [h HL]; exact (s_nonempty' h L HL)).
      clear - Hn. induction lvl as [|L l IH]; [cbn; lia|]. cbn [concat length]. rewrite app_length. pose proof (Hn L (or_introl eq_refl)). destruct L; [congruence|]. cbn [length].
      assert (length l <= length (concat l)) by (apply IH; intros L' H'; apply Hn; right; exact H'). lia.
    Qed.
    Lemma s_level_le h L : nth_error lvl h = Some L -> length L <= length st.
    Proof.
      intro H. pose proof s_concat. apply nth_error_split in H as (l1 & l2 & E & _). rewrite E, concat_app, app_length in H0. cbn [concat] in H0. rewrite app_length in H0. lia.
    Qed.
    Lemma s_scan : scan st root = Some rows_of_leaves.
    Proof.
      pose proof s_levels as Hl. pose proof s_len as Hn. unfold scan.
      destruct (s_leftmost (S (length st)) (length lvl - 1) root [] s_topn ltac:(lia)) as (b0 & L0 & H0 & E). rewrite E.
      rewrite (s_walk (S (length st)) [] b0 L0 H0); [|pose proof (s_level_le _ _ H0) as H; cbn in H; lia].
      unfold rows_of_leaves. destruct lvl as [|L l]; [congruence|]. cbn in H0. injection H0 as ->. reflexivity.
    Qed.
  End Facts.
End Struct.
