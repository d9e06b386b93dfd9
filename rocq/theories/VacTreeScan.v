(** The second pass of vacuum: the traversal that deletes empty pages. *)
From Verif Require Import Ord BTree BTreeInv VacuumTree VacTreeInv VacTreeClean VacTreeDel.
From Coq Require Import List ZArith Bool Arith Lia.
Import ListNotations.

Definition leaves (lvl : list (list nat)) : list nat := match lvl with [] => [] | L :: _ => L end.
Lemma last_default (l : list nat) a b : l <> [] -> last l a = last l b.
Proof. intro H. destruct l as [|x l] using rev_ind; [congruence|]. rewrite !last_last. reflexivity. Qed.

Section Scan.
  Context {T : Type}.
  Variable cmp : T -> T -> Z.
  Variable ifit : list (T * nat) -> Prop.
  Variable ok : T -> Prop.
  Variable fit : list T -> Prop.
  Hypothesis Hifit : forall d1 kc d2, ifit (d1 ++ kc :: d2) -> ifit (d1 ++ d2).
  Notation page := (page T).
  Notation store := (list page).
  Notation Str := (Str cmp ifit ok fit).

  (** what every step keeps *)
  Definition ext (st : store) (lvl : list (list nat)) (st' : store) (lvl' : list (list nat)) : Prop :=
    (forall b, items_at st' b = items_at st b) /\ (forall b, incl (kids st' b) (kids st b)) /\
    hd_error (leaves lvl') = hd_error (leaves lvl) /\ last (leaves lvl') 0 = last (leaves lvl) 0 /\ incl (leaves lvl') (leaves lvl) /\ rows_of_leaves st' lvl' = rows_of_leaves st lvl.
  Lemma ext_refl st lvl : ext st lvl st lvl.
  Proof. repeat split; auto using incl_refl. Qed.
  Lemma ext_trans st lvl st1 lvl1 st2 lvl2 : ext st lvl st1 lvl1 -> ext st1 lvl1 st2 lvl2 -> ext st lvl st2 lvl2.
  Proof.
    intros (A1 & A2 & A3 & A4 & A5 & A6) (B1 & B2 & B3 & B4 & B5 & B6). repeat split; try congruence.
    - intro b. eapply incl_tran; [apply B2|apply A2].
    - eapply incl_tran; eauto.
  Qed.
  Lemma under_ext (st st' : store) : (forall b, incl (kids st' b) (kids st b)) -> forall h b, incl (under h st' b) (under h st b).
  Proof.
    intros H h. induction h as [|h IH]; intro b; [apply incl_refl|]. cbn [under]. intros x Hx. apply in_flat_map in Hx as (c & Hc & Hx). apply in_flat_map. exists c. split; [apply H; exact Hc|apply IH; exact Hx].
  Qed.
  (** an empty leaf of [U] is the leftmost or the rightmost *)
  Definition reclaimed (st : store) (lvl : list (list nat)) (U : list nat) : Prop :=
    forall x, In x U -> In x (leaves lvl) -> items_at st x = [] -> hd_error (leaves lvl) = Some x \/ last (leaves lvl) 0 = x.
  Lemma reclaimed_ext st lvl st' lvl' U U' : ext st lvl st' lvl' -> incl U' U -> reclaimed st lvl U -> reclaimed st' lvl' U'.
  Proof. intros (A1 & _ & A3 & A4 & A5 & _) Hu H x Hx Hl Hi. rewrite A3, A4. apply H; [apply Hu; exact Hx|apply A5; exact Hl|rewrite <- A1; exact Hi]. Qed.
  Definition childless (st : store) (lvl : list (list nat)) (x : nat) : Prop := exists h L, nth_error lvl (S h) = Some L /\ In x L /\ kids st x = [].
  Definition good (root : nat) (R : list T) (s : store) : Prop := exists lvl, Str s root lvl /\ rows_of_leaves s lvl = R.

  Lemma items_st' (st : store) l d r p pp D1 D2 pd pl pr : get st d = Some pd -> get st l = Some pl -> get st r = Some pr -> get st p = Some pp ->
    d <> p -> l <> p -> r <> p -> l <> d -> l <> r -> d <> r ->
    forall b, items_at (st' st l d r p pp D1 D2 pd pl pr) b = items_at st b.
  Proof.
    intros H1 H2 H3 H4 N1 N2 N3 N4 N5 N6 b. unfold st', items_at, get in *.
    destruct (Nat.eq_dec d b) as [<-|M1]; [rewrite nth_upd_same by (rewrite !upd_length; eapply nth_some_lt; eauto); rewrite H1; reflexivity|]. rewrite (nth_upd_other _ d b) by exact M1.
    destruct (Nat.eq_dec p b) as [<-|M2]; [rewrite nth_upd_same by (rewrite !upd_length; eapply nth_some_lt; eauto); rewrite H4; reflexivity|]. rewrite (nth_upd_other _ p b) by exact M2.
    destruct (Nat.eq_dec r b) as [<-|M3]; [rewrite nth_upd_same by (rewrite !upd_length; eapply nth_some_lt; eauto); rewrite H3; reflexivity|]. rewrite (nth_upd_other _ r b) by exact M3.
    destruct (Nat.eq_dec l b) as [<-|M4]; [rewrite nth_upd_same by (rewrite ?upd_length; eapply nth_some_lt; eauto); rewrite H2; reflexivity|]. rewrite (nth_upd_other _ l b) by exact M4. reflexivity.
  Qed.
  Lemma leaves_del lvl h A l d r B : nth_error lvl h = Some (A ++ l :: d :: r :: B) ->
    hd_error (leaves (upd lvl h (A ++ l :: r :: B))) = hd_error (leaves lvl) /\ last (leaves (upd lvl h (A ++ l :: r :: B))) 0 = last (leaves lvl) 0 /\ incl (leaves (upd lvl h (A ++ l :: r :: B))) (leaves lvl).
  Proof.
    intro H. destruct lvl as [|L0 ll]; [destruct h; discriminate|]. destruct h as [|h]; cbn [upd leaves]; [|auto using incl_refl]. cbn in H. injection H as ->. split; [destruct A; reflexivity|]. split.
    - replace (A ++ l :: r :: B) with ((A ++ [l]) ++ (r :: B)) by (rewrite <- app_assoc; reflexivity). replace (A ++ l :: d :: r :: B) with ((A ++ [l; d]) ++ (r :: B)) by (rewrite <- app_assoc; reflexivity).
      rewrite !last_cons_app. apply last_default. discriminate.
    - intros x Hx. apply in_app_iff in Hx. apply in_app_iff. cbn [In] in *. tauto.
  Qed.

  (** one page, its children already visited *)
  Lemma try_delete st root lvl h L b Lp p pp D1 k D2 : Str st root lvl -> nth_error lvl h = Some L -> In b L -> nth_error lvl (S h) = Some Lp -> In p Lp ->
    get st p = Some pp -> p_downs pp = D1 ++ (k, b) :: D2 -> (forall x, childless st lvl x -> x = b) ->
    forall pg, get st b = Some pg -> noItems pg = true ->
    (h = 0 /\ (hd_error L = Some b \/ last L 0 = b) /\ deletePage st b p (S (length D1)) = Some None) \/
    (exists st1 lvl1, deletePage st b p (S (length D1)) = Some (Some st1) /\ Str st1 root lvl1 /\ ext st lvl st1 lvl1 /\
      (forall h0, h < h0 -> nth_error lvl1 h0 = nth_error lvl h0) /\
      (forall x px, x <> p -> get st x = Some px -> exists px', get st1 x = Some px' /\ p_downs px' = p_downs px) /\
      (exists pp', get st1 p = Some pp' /\ p_downs pp' = D1 ++ D2) /\
      (forall x, childless st1 lvl1 x -> x = p)).
  Proof.
    intros HS HL Hb HP Hp Hpp ED Hch pg Hg Hno. apply in_split in Hb as (L1 & L2 & EL). subst L. apply in_split in Hp as (P1 & P2 & EP). subst Lp.
    pose proof (S_links _ _ _ _ _ _ _ HS h _ HL) as Hln. apply links_at in Hln as (pg0 & Hg0 & Hr & Hl). rewrite Hg in Hg0. injection Hg0 as <-.
    assert (Hkid : kids st b = []). { unfold kids. rewrite Hg. unfold noItems in Hno. destruct (p_items pg), (p_downs pg); try discriminate. reflexivity. }
    destruct L1 as [|l A _] using rev_ind.
    { left. destruct h as [|h]; [|exfalso; exact (S_first _ _ _ _ _ _ _ HS h b L2 HL Hkid)]. split; [reflexivity|]. split; [left; reflexivity|]. unfold deletePage. rewrite Hg, Hl. reflexivity. }
    destruct L2 as [|r B].
    { left. destruct h as [|h]; [|exfalso; exact (S_last _ _ _ _ _ _ _ HS h b _ HL Hkid)]. split; [reflexivity|]. split; [right; apply last_last|]. unfold deletePage. rewrite Hg, Hr. cbn [hd_error]. destruct (p_left pg); reflexivity. }
    right. rewrite <- app_assoc in HL. cbn [app] in HL.
    destruct (s_get cmp ifit ok fit st root lvl HS h _ l HL ltac:(apply in_app_iff; right; left; reflexivity)) as [pl Hpl].
    destruct (s_get cmp ifit ok fit st root lvl HS h _ r HL ltac:(apply in_app_iff; right; right; right; left; reflexivity)) as [pr Hpr].
    pose proof (del_ok cmp ifit ok fit st root lvl HS h A l b r B HL p pp D1 k D2 Hpp ED pg pl pr Hg Hpl Hpr Hno) as Hdel.
    pose proof (del_str cmp ifit ok fit Hifit st root lvl HS h A l b r B HL P1 p P2 HP pp D1 k D2 Hpp ED pg pl pr Hg Hpl Hpr Hno) as HS'.
    pose proof (del_rows cmp ifit ok fit st root lvl HS h A l b r B HL P1 p P2 HP pp D1 k D2 Hpp ED pg pl pr Hg Hpl Hpr Hno) as HR.
    pose proof (ne_ld cmp ifit ok fit st root lvl HS h A l b r B HL pp D1 k D2 ED pg pl Hg Hpl) as (N1 & N2 & N3 & _).
    pose proof (ne_lp cmp ifit ok fit st root lvl HS h A l b r B HL P1 p P2 HP) as N4. pose proof (ne_dp cmp ifit ok fit st root lvl HS h A l b r B HL P1 p P2 HP) as N5. pose proof (ne_rp cmp ifit ok fit st root lvl HS h A l b r B HL P1 p P2 HP) as N6.
    exists (VacTreeDel.st' st l b r p pp D1 D2 pg pl pr), (VacTreeDel.lvl' lvl h A l r B). split; [exact Hdel|]. split; [exact HS'|]. split; [|split; [|split; [|split]]].
    - destruct (leaves_del lvl h A l b r B HL) as (Q1 & Q2 & Q3). split; [|split; [|split; [exact Q1|split; [exact Q2|split; [exact Q3|exact HR]]]]].
      + apply items_st'; auto.
      + intro x. exact (kids_incl cmp ifit ok fit st root lvl HS h A l b r B HL P1 p P2 HP pp D1 k D2 Hpp ED pg pl pr Hg Hpl Hpr x).
    - intros h0 H0. unfold lvl'. apply nth_upd_other. lia.
    - intros x px Hx Hgx. exact (del_frame cmp ifit ok fit st root lvl HS h A l b r B HL P1 p P2 HP pp D1 k D2 Hpp ED pg pl pr Hg Hpl Hpr x px Hx Hgx).
    - exact (del_parent cmp ifit ok fit st root lvl HS h A l b r B HL P1 p P2 HP pp D1 D2 Hpp pg pl pr).
    - intros x (h0 & L & H0 & Hx & Hk). refine (del_childless cmp ifit ok fit st root lvl HS h A l b r B HL P1 p P2 HP pp D1 k D2 Hpp ED pg pl pr Hg Hpl Hpr _ h0 L x H0 Hx Hk).
      intros h1 L1 y H1 Hy Hky. apply Hch. exists h1, L1. auto.
  Qed.

  Definition scanned root R h p (D1 : list (T * nat)) kb D2 st lvl (tr : list store) (gone : bool) lvl' : Prop :=
    let st' := last tr st in
    Str st' root lvl' /\ ext st lvl st' lvl' /\ Forall (good root R) tr /\
    (forall h0, h < h0 -> nth_error lvl' h0 = nth_error lvl h0) /\
    (forall h0 L x px, h < h0 -> nth_error lvl h0 = Some L -> In x L -> x <> p -> get st x = Some px -> exists px', get st' x = Some px' /\ p_downs px' = p_downs px) /\
    (exists pp', get st' p = Some pp' /\ p_downs pp' = if gone then D1 ++ D2 else D1 ++ kb :: D2) /\
    (forall x, childless st' lvl' x -> gone = true /\ x = p) /\
    (gone = false -> reclaimed st' lvl' (under h st' (snd kb))).
  Definition scan_at root (f : nat) : Prop := forall h st lvl L b Lp p pp D1 k D2, h < f -> Str st root lvl -> full st lvl ->
    nth_error lvl h = Some L -> In b L -> nth_error lvl (S h) = Some Lp -> In p Lp -> get st p = Some pp -> p_downs pp = D1 ++ (k, b) :: D2 ->
    exists tr gone lvl', scanToDelete f st b (Some (p, S (length D1))) = Some (tr, gone) /\ scanned root (rows_of_leaves st lvl) h p D1 (k, b) D2 st lvl tr gone lvl'.

  Lemma full_of st lvl root b : Str st root lvl -> (forall x, childless st lvl x -> x = b) -> kids st b <> [] -> full st lvl.
  Proof. intros HS Hc Hk h L x HL Hx E. assert (x = b) by (apply Hc; exists h, L; auto). congruence. Qed.
  Lemma last_or_nil {A} (l : list A) : l = [] \/ exists l' x, l = l' ++ [x].
  Proof. destruct l as [|x l _] using rev_ind; eauto. Qed.

  Lemma loop_spec root f h : scan_at root f -> h < f ->
    forall rest n D1 st lvl Lb b pb, length rest <= n -> Str st root lvl -> nth_error lvl (S h) = Some Lb -> In b Lb -> get st b = Some pb -> p_downs pb = D1 ++ rest ->
    (forall x, childless st lvl x -> x = b) -> (forall kc, In kc D1 -> reclaimed st lvl (under h st (snd kc))) ->
    exists tr lvl', delEach (fun st c i => scanToDelete f st c (Some (b, i))) n st b (S (length D1)) = Some tr /\
      let st' := last tr st in
      Str st' root lvl' /\ ext st lvl st' lvl' /\ Forall (good root (rows_of_leaves st lvl)) tr /\
      (forall h0, S h <= h0 -> nth_error lvl' h0 = nth_error lvl h0) /\
      (forall h0 L x px, S h <= h0 -> nth_error lvl h0 = Some L -> In x L -> x <> b -> get st x = Some px -> exists px', get st' x = Some px' /\ p_downs px' = p_downs px) /\
      (forall x, childless st' lvl' x -> x = b) /\
      reclaimed st' lvl' (under (S h) st' b).
  Proof.
    intros IH Hf. induction rest as [|[k c] rest IHr]; intros n D1 st lvl Lb b pb Hn HS HL Hb Hg ED Hch Hrec.
    - exists [], lvl. rewrite app_nil_r in ED. split.
      + destruct n; cbn [delEach]; rewrite Hg, ED; (replace (S (length D1) <=? length D1) with false by (symmetry; apply Nat.leb_gt; lia)); reflexivity.
      + cbn [last]. split; [exact HS|]. split; [apply ext_refl|]. split; [constructor|]. split; [auto|]. split; [eauto|]. split; [exact Hch|].
        cbn [under]. unfold kids. rewrite Hg, ED. intros x Hx. apply in_flat_map in Hx as (c & Hc & Hx). apply in_map_iff in Hc as (kc & <- & Hkc). exact (Hrec kc Hkc x Hx).
    - cbn [length] in Hn. destruct n as [|n]; [lia|]. cbn [delEach]. rewrite Hg, ED.
      replace (S (length D1) <=? length (D1 ++ (k, c) :: rest)) with true by (symmetry; apply Nat.leb_le; rewrite app_length; cbn [length]; lia).
      replace (S (length D1) - 1) with (length D1) by lia. rewrite nth_error_app2 by lia. rewrite Nat.sub_diag. cbn [nth_error].
      assert (Hkb : kids st b = map snd D1 ++ c :: map snd rest) by (unfold kids; rewrite Hg, ED, map_app; reflexivity).
      assert (HF : full st lvl) by (apply (full_of st lvl root b HS Hch); rewrite Hkb; destruct (map snd D1); discriminate).
      destruct (s_level lvl h) as [Lk HLk]; [apply nth_some_lt in HL; lia|].
      assert (Hc : In c Lk). { rewrite <- (S_kids _ _ _ _ _ _ _ HS h Lk Lb HLk HL). apply in_flat_map. exists b. split; [exact Hb|]. rewrite Hkb. apply in_app_iff. right. left. reflexivity. }
      destruct (IH h st lvl Lk c Lb b pb D1 k rest Hf HS HF HLk Hc HL Hb Hg ED) as (tr1 & gone & lvl1 & E1 & HS1 & X1 & G1 & V1 & F1 & (pb1 & Hg1 & Ed1) & C1 & R1).
      rewrite E1. set (st1 := last tr1 st) in *.
      assert (HL1 : nth_error lvl1 (S h) = Some Lb) by (rewrite V1 by lia; exact HL).
      assert (Hnext : exists tr2 lvl2, delEach (fun st c i => scanToDelete f st c (Some (b, i))) n st1 b (if gone then S (length D1) else S (S (length D1))) = Some tr2 /\
        let st' := last tr2 st1 in
        Str st' root lvl2 /\ ext st1 lvl1 st' lvl2 /\ Forall (good root (rows_of_leaves st1 lvl1)) tr2 /\
        (forall h0, S h <= h0 -> nth_error lvl2 h0 = nth_error lvl1 h0) /\
        (forall h0 L x px, S h <= h0 -> nth_error lvl1 h0 = Some L -> In x L -> x <> b -> get st1 x = Some px -> exists px', get st' x = Some px' /\ p_downs px' = p_downs px) /\
        (forall x, childless st' lvl2 x -> x = b) /\ reclaimed st' lvl2 (under (S h) st' b)).
      { assert (HD1 : forall kc, In kc D1 -> reclaimed st1 lvl1 (under h st1 (snd kc))).
        { intros kc Hkc. eapply reclaimed_ext; [exact X1| |exact (Hrec kc Hkc)]. apply under_ext. apply X1. }
        destruct gone.
        - apply (IHr n D1 st1 lvl1 Lb b pb1); auto; [lia|]. intros x Hx. apply (C1 x Hx).
        - replace (S (length D1)) with (length (D1 ++ [(k, c)])) by (rewrite app_length; cbn; lia).
          apply (IHr n (D1 ++ [(k, c)]) st1 lvl1 Lb b pb1); auto; [lia|rewrite <- app_assoc; exact Ed1|intros x Hx; apply (C1 x Hx)|].
          intros kc Hkc. apply in_app_iff in Hkc as [Hkc|[<-|[]]]; [exact (HD1 kc Hkc)|exact (R1 eq_refl)]. }
      destruct Hnext as (tr2 & lvl2 & E2 & HS2 & X2 & G2 & V2 & F2 & C2 & R2). rewrite E2. exists (tr1 ++ tr2), lvl2. split; [reflexivity|]. cbv zeta. rewrite last_cons_app. fold st1.
      split; [exact HS2|]. split; [exact (ext_trans _ _ _ _ _ _ X1 X2)|]. split.
      + apply Forall_app. split; [exact G1|]. assert (E : rows_of_leaves st1 lvl1 = rows_of_leaves st lvl) by apply X1. rewrite E in G2. exact G2.
      + split; [intros h0 H0; rewrite V2, V1 by lia; reflexivity|]. split; [|split; assumption].
        intros h0 L x px H0 HL0 Hx Hne Hgx. destruct (F1 h0 L x px ltac:(lia) HL0 Hx Hne Hgx) as (px1 & Hgx1 & Ex1).
        destruct (F2 h0 L x px1 H0 ltac:(rewrite V1 by lia; exact HL0) Hx Hne Hgx1) as (px2 & Hgx2 & Ex2). exists px2. split; [exact Hgx2|congruence].
  Qed.

  Lemma scan_spec root : forall f, scan_at root f.
  Proof.
    induction f as [|f IH]; intros h st lvl L b Lp p pp D1 k D2 Hf HS HF HL Hb HP Hp Hpp ED; [lia|].
    destruct (S_page _ _ _ _ _ _ _ HS h L b HL Hb) as (pg & Hg & Hlf & Hdl & Q0 & Q1). cbn [scanToDelete]. rewrite Hg, Hlf.
    assert (Hbp : b <> p). { intro E. exact (n_Sn _ (s_inj cmp ifit ok fit st root lvl HS _ _ _ _ b HL HP Hb (eq_ind_r (fun x => In x Lp) Hp E))). }
    (* after the children *)
    assert (Hkids : exists tr lvl1, (if h =? 0 then Some [] else delEach (fun st c i => scanToDelete f st c (Some (b, i))) (length (p_downs pg)) st b 1) = Some tr /\
      let st1 := last tr st in
      Str st1 root lvl1 /\ ext st lvl st1 lvl1 /\ Forall (good root (rows_of_leaves st lvl)) tr /\ (forall h0, h <= h0 -> nth_error lvl1 h0 = nth_error lvl h0) /\
      (forall h0 L x px, h <= h0 -> nth_error lvl h0 = Some L -> In x L -> x <> b -> get st x = Some px -> exists px', get st1 x = Some px' /\ p_downs px' = p_downs px) /\
      (forall x, childless st1 lvl1 x -> x = b) /\ (h <> 0 -> reclaimed st1 lvl1 (under h st1 b))).
    { destruct h as [|h].
      - exists [], lvl. cbn [Nat.eqb last]. split; [reflexivity|]. split; [exact HS|]. split; [apply ext_refl|]. split; [constructor|]. split; [auto|]. split; [eauto|]. split; [|congruence].
        intros x (h0 & L0 & H0 & Hx & Hk). exfalso. exact (HF h0 L0 x H0 Hx Hk).
      - cbn [Nat.eqb]. destruct (loop_spec root f h IH ltac:(lia) (p_downs pg) (length (p_downs pg)) [] st lvl L b pg (le_n _) HS HL Hb Hg eq_refl) as (tr & lvl1 & E & R1 & R2 & R3 & R4 & R5 & R6 & R7).
        + intros x (h0 & L0 & H0 & Hx & Hk). exfalso. exact (HF h0 L0 x H0 Hx Hk).
        + intros kc [].
        + exists tr, lvl1. split; [exact E|]. cbv zeta. auto 10. }
    destruct Hkids as (tr & lvl1 & E & HS1 & X1 & G1 & V1 & F1 & C1 & R1). rewrite E. set (st1 := last tr st) in *.
    assert (HL1 : nth_error lvl1 h = Some L) by (rewrite V1 by lia; exact HL).
    assert (HP1 : nth_error lvl1 (S h) = Some Lp) by (rewrite V1 by lia; exact HP).
    destruct (S_page _ _ _ _ _ _ _ HS1 h L b HL1 Hb) as (pg1 & Hg1 & Hlf1 & Hdl1 & Q01 & Q11). rewrite Hg1.
    destruct (F1 (S h) Lp p pp ltac:(lia) HP Hp ltac:(congruence) Hpp) as (pp1 & Hpp1 & Ep1). rewrite ED in Ep1.
    assert (ER : rows_of_leaves st1 lvl1 = rows_of_leaves st lvl) by apply X1.
    assert (Hframe : forall h0 L x px, h < h0 -> nth_error lvl h0 = Some L -> In x L -> get st x = Some px -> exists px', get st1 x = Some px' /\ p_downs px' = p_downs px).
    { intros h0 L0 x px H0 HL0 Hx Hgx. apply (F1 h0 L0 x px ltac:(lia) HL0 Hx); [|exact Hgx]. intros ->. pose proof (s_inj cmp ifit ok fit st root lvl HS _ _ _ _ b HL HL0 Hb Hx). lia. }
    assert (Hleaf : h = 0 -> forall U, incl U [b] -> (p_items pg1 <> [] \/ hd_error L = Some b \/ last L 0 = b) -> reclaimed st1 lvl1 U).
    { intros -> U HU Hor x Hx _ Hi. destruct (HU x Hx) as [<-|[]]. unfold items_at in Hi. rewrite Hg1 in Hi. assert (El : leaves lvl1 = L) by (destruct lvl1; [discriminate|cbn in HL1; injection HL1 as ->; reflexivity]). rewrite El.
      destruct Hor as [Hor|Hor]; [congruence|exact Hor]. }
    assert (Hkeep : (h = 0 -> p_items pg1 <> [] \/ hd_error L = Some b \/ last L 0 = b) -> (h <> 0 -> p_downs pg1 <> []) ->
      scanned root (rows_of_leaves st lvl) h p D1 (k, b) D2 st lvl tr false lvl1).
    { intros Hz Hnz. split; [exact HS1|]. split; [exact X1|]. split; [exact G1|]. split; [intros h0 H0; apply V1; lia|]. split; [intros h0 L0 x px H0 HL0 Hx _ Hgx; exact (Hframe h0 L0 x px H0 HL0 Hx Hgx)|]. split; [exists pp1; auto|].
      split.
      - intros x Hx. exfalso. pose proof (C1 x Hx) as ->. destruct Hx as (h0 & L0 & H0 & Hx & Hk). pose proof (s_inj cmp ifit ok fit st1 root lvl1 HS1 _ _ _ _ b HL1 H0 Hb Hx) as Eh.
        unfold kids in Hk. fold st1 in Hk. rewrite Hg1 in Hk. apply map_eq_nil in Hk. apply Hnz; [lia|exact Hk].
      - intros _. cbn [snd]. fold st1. destruct (Nat.eq_dec h 0) as [E0|E0]; [|exact (R1 E0)]. apply (Hleaf E0); [rewrite E0; apply incl_refl|exact (Hz E0)]. }
    destruct (noItems pg1) eqn:Hno.
    - destruct (try_delete st1 root lvl1 h L b Lp p pp1 D1 k D2 HS1 HL1 Hb HP1 Hp Hpp1 Ep1 C1 pg1 Hg1 Hno) as [(E0 & Hor & Ed)|(st2 & lvl2 & Ed & HS2 & X2 & V2 & F2 & HP2 & C2)]; rewrite Ed.
      + exists tr, false, lvl1. split; [reflexivity|]. apply Hkeep; [intros _; right; exact Hor|congruence].
      + exists (tr ++ [st2]), true, lvl2. split; [reflexivity|]. unfold scanned. cbv zeta. rewrite last_last. split; [exact HS2|]. split; [exact (ext_trans _ _ _ _ _ _ X1 X2)|]. split.
        * apply Forall_app. split; [exact G1|]. constructor; [|constructor]. exists lvl2. split; [exact HS2|]. rewrite <- ER. apply X2.
        * split; [intros h0 H0; rewrite V2, V1 by lia; reflexivity|]. split; [|split; [exact HP2|split; [intros x Hx; split; [reflexivity|exact (C2 x Hx)]|discriminate]]].
          intros h0 L0 x px H0 HL0 Hx Hne Hgx. destruct (Hframe h0 L0 x px H0 HL0 Hx Hgx) as (px1 & Hg2 & E2). destruct (F2 x px1 Hne Hg2) as (px2 & Hg3 & E3). exists px2. split; [exact Hg3|congruence].
    - exists tr, false, lvl1. split; [reflexivity|]. unfold noItems in Hno. apply Hkeep.
      + intro E0. left. intro Ei. rewrite Ei, (proj1 (Q01 E0)) in Hno. discriminate.
      + intros E0 Edn. rewrite Edn, (proj1 (Q11 E0)) in Hno. discriminate.
  Qed.

  (** rumScanToDelete from the root *)
  Theorem scan_root st root lvl : Str st root lvl -> full st lvl ->
    exists tr lvl', scanToDelete (S (length st)) st root None = Some (tr, false) /\ let st' := last tr st in
      Str st' root lvl' /\ full st' lvl' /\ ext st lvl st' lvl' /\ Forall (good root (rows_of_leaves st lvl)) tr /\ (length lvl > 1 -> reclaimed st' lvl' (leaves lvl')).
  Proof.
    intros HS HF. pose proof (s_topn cmp ifit ok fit st root lvl HS) as HT. pose proof (s_levels cmp ifit ok fit st root lvl HS) as Hlv. pose proof (s_len cmp ifit ok fit st root lvl HS) as Hne.
    destruct (S_page _ _ _ _ _ _ _ HS _ _ root HT (or_introl eq_refl)) as (pg & Hg & Hlf & _). cbn [scanToDelete]. rewrite Hg, Hlf.
    destruct (length lvl - 1) as [|h] eqn:Eh; cbn [Nat.eqb].
    - cbn [last]. rewrite Hg. exists [], lvl. split; [reflexivity|]. cbn [last]. split; [exact HS|]. split; [exact HF|]. split; [apply ext_refl|]. split; [constructor|]. lia.
    - destruct (loop_spec root (length st) h (scan_spec root _) ltac:(destruct lvl; [congruence|cbn [length] in *; lia]) (p_downs pg) (length (p_downs pg)) [] st lvl [root] root pg (le_n _) HS HT (or_introl eq_refl) Hg eq_refl)
        as (tr & lvl' & E & HS' & X & G & V & F & C & R).
      + intros x (h0 & L0 & H0 & Hx & Hk). exfalso. exact (HF h0 L0 x H0 Hx Hk).
      + intros kc [].
      + cbn [length] in E. rewrite E. assert (HT' : nth_error lvl' (S h) = Some [root]) by (rewrite V by lia; exact HT).
        destruct (s_get cmp ifit ok fit (last tr st) root lvl' HS' (S h) _ root HT' (or_introl eq_refl)) as [pg' Hg']. rewrite Hg'. exists tr, lvl'. split; [reflexivity|]. cbv zeta.
        split; [exact HS'|]. split; [apply (full_of _ _ root root HS' C); exact (S_first _ _ _ _ _ _ _ HS' h root [] HT')|]. split; [exact X|]. split; [exact G|]. intros _.
        destruct lvl' as [|L0 ll]; [cbn [leaves]; intros x []|]. cbn [leaves]. pose proof (s_under cmp ifit ok fit (last tr st) root (L0 :: ll) HS' (S h) [root] L0 HT' eq_refl) as Eu.
        cbn [flat_map] in Eu. rewrite app_nil_r in Eu. intros x Hx. apply R. unfold reclaimed in R. change (In x (under (S h) (last tr st) root)). rewrite Eu. exact Hx.
  Qed.
End Scan.
