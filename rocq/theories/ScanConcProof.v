(** The reader of ScanConc.v over a growing tree.  Proof file. *)
From Verif Require Import Base Ord OrdProof LeafPage BTree BTreeInv BTreeFind BTreeIns ScanEntry ScanEntryProof ScanConc ScanConcSpec ScanConcTree.
From Coq Require Import List NArith ZArith Bool Arith Lia.
Import ListNotations.

Section Rest.
  Context {A : Type}.
  Notation item := (item A).
  Definition rest (e : entry A) : list item := if (e_off e <? 0)%Z then [] else skipn (Z.to_nat (e_off e)) (e_list e).
  Lemma at_off_rest e : at_off (e_list e) (e_off e) = match rest e with [] => None | y :: _ => Some y end.
  Proof.
    unfold at_off, rest. destruct (Z.ltb_spec (e_off e) 0) as [L|L].
    - replace (0 <=? e_off e)%Z with false by (symmetry; apply Z.leb_gt; lia). reflexivity.
    - replace (0 <=? e_off e)%Z with true by (symmetry; apply Z.leb_le; lia). cbn [andb].
      destruct (Z.ltb_spec (e_off e) (Z.of_nat (length (e_list e)))) as [H|H].
      + destruct (nth_error (e_list e) (Z.to_nat (e_off e))) as [y|] eqn:E; [|apply nth_error_None in E; lia].
        apply nth_error_split in E as (l1 & l2 & E & El). rewrite E, <- El, skipn_app, skipn_all2, Nat.sub_diag by lia. reflexivity.
      + rewrite skipn_all2 by lia. reflexivity.
  Qed.
  Lemma rest_next e y r : rest e = y :: r -> rest (set_cur e y (e_off e + 1)) = r.
  Proof.
    unfold rest. cbn [set_cur e_off e_list]. destruct (Z.ltb_spec (e_off e) 0) as [L|L]; [discriminate|]. intro E.
    replace (e_off e + 1 <? 0)%Z with false by (symmetry; apply Z.ltb_ge; lia).
    replace (Z.to_nat (e_off e + 1)) with (1 + Z.to_nat (e_off e)) by lia. rewrite <- skipn_skipn_, E. reflexivity.
  Qed.
  Lemma rest_found l1 y l2 c att' s f p rf : rest (mkEntry att' s (l1 ++ y :: l2) (Z.of_nat (length l1) + 1) c f p rf) = l2.
  Proof.
    unfold rest. cbn [e_off e_list]. replace (Z.of_nat (length l1) + 1 <? 0)%Z with false by (symmetry; apply Z.ltb_ge; lia).
    apply app_tail_inv.
  Qed.
End Rest.

Lemma regular_incl {A} useAlt addTo (cmpA : A -> A -> Z) att l : forall m, incl (regular useAlt addTo cmpA att m l) l.
  Proof.
    induction l as [|x l IH]; intros m z Hz; [destruct Hz|]. cbn [regular] in Hz.
    destruct m as [w|]; [destruct (cmpAt useAlt addTo cmpA att x w <=? 0)%Z|]; [right; eapply IH; eauto| |]; (destruct Hz as [->|Hz]; [left; reflexivity|right; eapply IH; eauto]).
  Qed.

Section Reader.
  Context {A : Type}.
  Variables (useAlt : bool) (addTo : N) (cmpA : A -> A -> Z).
  Hypothesis CA : total_cmp cmpA.
  Variable att : N.
  Notation item := (item A).
  Notation cmp := (cmpAt useAlt addTo cmpA att).
  Variable ifit : list (item * nat) -> Prop.
  Variable lbound : bool.
  Variable ok : item -> Prop.
  Variable fit : list item -> Prop.
  Hypothesis Hok : forall x, ok x -> ip_valid (ip x) = true.
  Context (sched : nat -> list (page item)) (G : nat -> @ghost item) (idx : nat -> nat) (N : nat).
  Hypothesis M : moments cmp ifit lbound ok fit true 0 (@incl item) sched G idx N.
  (** Leaves stay where they are. *)
  Hypothesis Hstay : forall t t' b, t <= t' -> at_ (G t) 0 b -> at_ (G t') 0 b /\ slo (G t') b = slo (G t) b.
  (** All rows ever in the tree, and the rows owed to the scan. *)
  Variables (Cend C0 : list item).
  Hypothesis Hend : forall t, incl (contents (sched t) (G t)) Cend.
  Hypothesis Hold : forall t, incl C0 (contents (sched t) (G t)).
  Let OK : total_cmp cmp := cmpAt_total useAlt addTo cmpA CA att.
  Notation HI := (m_inv _ _ _ _ _ _ _ _ _ _ _ _ M).
  Notation turn := (turn useAlt addTo cmpA sched).
  Notation runC := (runC useAlt addTo cmpA sched).
  Notation blt := (blt cmp).

  Definition far (e : entry A) : item := last (rest e) (e_cur e).
  (** Where a row still to come is. *)
  Definition place (c : cscan A) (z : item) : Prop :=
    In z (rest (c_ent c)) \/ ((cmp (far (c_ent c)) z < 0)%Z /\ blt (slo (G (c_time c)) (c_blk c)) (BAt z)).
  Record Q (c : cscan A) : Prop := {
    q_at : at_ (G (c_time c)) 0 (c_blk c);
    q_att : e_att (c_ent c) = att;
    q_fin : e_fin (c_ent c) = false;
    q_cur : ip_valid (ip (e_cur (c_ent c))) = true;
    q_sorted : ssorted cmp (rest (c_ent c));
    q_le : Forall (fun y => cmp (e_cur (c_ent c)) y <= 0)%Z (rest (c_ent c));
    q_in : Forall (fun y => ip_valid (ip y) = true /\ In y Cend) (rest (c_ent c)) }.
  Definition more (c : cscan A) : list item := filter (fun y => (0 <? cmp y (e_cur (c_ent c)))%Z) (items_at (sched (c_time c)) (c_blk c)).
  Definition less (c c' : cscan A) : Prop :=
    lex4 (N - idx (c_time c)) (rightOf G (c_time c) 0 (c_blk c)) (length (more c)) (length (rest (c_ent c)))
         (N - idx (c_time c')) (rightOf G (c_time c') 0 (c_blk c')) (length (more c')) (length (rest (c_ent c'))).

  Lemma last_sorted (x : item) l : ssorted cmp (x :: l) -> (cmp x (last l x) <= 0)%Z.
  Proof.
    intro H. destruct l as [|y l _] using rev_ind; [pose proof (tc_refl _ OK x); cbn [last]; lia|]. rewrite last_last.
    change (x :: l ++ [y]) with ([x] ++ l ++ [y]) in H. apply ssorted_app in H as (_ & _ & H).
    specialize (H x y (or_introl eq_refl) ltac:(apply in_app_iff; right; left; reflexivity)). lia.
  Qed.
  Lemma later_head x l z : ssorted cmp (x :: l) -> In z l -> (cmp x z < 0)%Z.
  Proof. intros H Hz. change (x :: l) with ([x] ++ l) in H. apply ssorted_app in H as (_ & _ & H). exact (H x z (or_introl eq_refl) Hz). Qed.
  Lemma last_mem (x : item) l : In (last l x) (x :: l).
  Proof. destruct l as [|y l _] using rev_ind; [left; reflexivity|]. rewrite last_last. right. apply in_app_iff. right; left; reflexivity. Qed.
  Lemma more_le (s : list (page item)) b x y : (cmp x y <= 0)%Z ->
    length (filter (fun z => (0 <? cmp z y)%Z) (items_at s b)) <= length (filter (fun z => (0 <? cmp z x)%Z) (items_at s b)).
  Proof.
    intro H. induction (items_at s b) as [|a l IH]; [reflexivity|]. cbn [filter].
    destruct (Z.ltb_spec 0 (cmp a y)) as [L|L], (Z.ltb_spec 0 (cmp a x)) as [L'|L']; cbn [length]; try lia.
    exfalso. pose proof (tc_trans _ OK a x y). lia.
  Qed.
  Lemma more_lt (s : list (page item)) b x y : (cmp x y < 0)%Z -> In y (items_at s b) ->
    length (filter (fun z => (0 <? cmp z y)%Z) (items_at s b)) < length (filter (fun z => (0 <? cmp z x)%Z) (items_at s b)).
  Proof.
    intros H Hy. apply in_split in Hy as (l1 & l2 & E). rewrite E.
    assert (K : forall l, length (filter (fun z => (0 <? cmp z y)%Z) l) <= length (filter (fun z => (0 <? cmp z x)%Z) l)).
    { induction l as [|a l IH]; [reflexivity|]. cbn [filter].
      destruct (Z.ltb_spec 0 (cmp a y)) as [L|L], (Z.ltb_spec 0 (cmp a x)) as [L'|L']; cbn [length]; try lia.
      exfalso. pose proof (tc_trans _ OK a x y). lia. }
    rewrite !filter_app, !app_length. cbn [filter]. pose proof (K l1). pose proof (K l2).
    pose proof (tc_refl _ OK y). assert (0 < cmp y x)%Z by (apply (cmp_lt_gt _ OK); exact H).
    replace (0 <? cmp y y)%Z with false by (symmetry; apply Z.ltb_ge; lia).
    replace (0 <? cmp y x)%Z with true by (symmetry; apply Z.ltb_lt; lia). cbn [length]. lia.
  Qed.

  (** A row to the right of where a leaf begins is on it or after all its rows. *)
  Lemma leaf_or_after t b pg z : at_ (G t) 0 b -> get (sched t) b = Some pg -> In z (contents (sched t) (G t)) -> blt (slo (G t) b) (BAt z) ->
    In z (p_items pg) \/ (blt (shi (G t) b) (BAt z) /\ forall y, In y (p_items pg) -> (cmp y z < 0)%Z).
  Proof.
    intros Hat Hg Hz Hlo. destruct (leaf_items _ _ _ _ _ _ _ _ _ (HI t) _ _ Hat Hg) as (_ & _ & Hr).
    destruct (Z_lt_dec (bcmp cmp (shi (G t) b) (BAt z)) 0) as [L|L].
    - right. split; [exact L|]. intros y Hy. destruct (Hr y Hy) as [_ Hy2].
      apply bat_lt. exact (ble_lt_trans cmp OK _ _ _ Hy2 L).
    - left. assert (Hin : in_range cmp (slo (G t) b) (shi (G t) b) z) by (split; [exact Hlo|apply (nblt cmp OK); exact L]).
      apply contents_in with (1 := HI t) in Hz as (b' & pg' & Hat' & Hg' & Hz').
      destruct (leaf_items _ _ _ _ _ _ _ _ _ (HI t) _ _ Hat' Hg') as (_ & _ & Hr'). specialize (Hr' z Hz').
      assert (b = b') as <- by exact (in_range_unique cmp OK ifit lbound ok fit true _ _ _ (HI t) b b' z Hat Hat' Hin Hr').
      rewrite Hg in Hg'. injection Hg' as <-. exact Hz'.
  Qed.
  Lemma page_rows t b pg : at_ (G t) 0 b -> get (sched t) b = Some pg ->
    Forall (fun y => ip_valid (ip y) = true /\ In y Cend) (p_items pg).
  Proof.
    intros Hat Hg. destruct (leaf_items _ _ _ _ _ _ _ _ _ (HI t) _ _ Hat Hg) as (_ & Ho & _). apply Forall_forall. intros y Hy. split.
    - apply Hok. rewrite Forall_forall in Ho. auto.
    - apply (Hend t). eapply contents_in; eauto. exact (HI t).
  Qed.

  Lemma border_sorted x l : ssorted cmp l ->
    border cmp x l 0 = (-1)%Z \/ (exists y r, l = y :: r /\ border cmp x l 0 = 0%Z /\ (cmp y x < 0)%Z).
  Proof.
    intro Hs. destruct l as [|y r]; [left; reflexivity|]. cbn [border]. destruct (Z.ltb_spec 0 (cmp x y)) as [L|L].
    - right. exists y, r. split; [reflexivity|]. split; [reflexivity|]. apply (cmp_gt_lt _ OK). exact L.
    - left. assert (H : Forall (fun z => cmp x z <= 0)%Z r).
      { apply Forall_forall. intros z Hz. pose proof (later_head y r z Hs Hz). pose proof (tc_trans _ OK x y z). lia. }
      clear Hs. generalize (0 + 1)%Z as i. induction r as [|z r IH]; intro i; [reflexivity|]. apply Forall_cons_iff in H as [H1 H2]. cbn [border].
      replace (0 <? cmp x z)%Z with false by (symmetry; apply Z.ltb_ge; lia). apply IH. exact H2.
  Qed.

  (** After a page read the measure can be compared in the tree read from. *)
  Lemma less_later t t' b e b' e' : t < t' ->
    (rightOf G t 0 b' < rightOf G t 0 b \/ (b' = b /\ (cmp (e_cur e) (e_cur e') < 0)%Z /\ In (e_cur e') (items_at (sched t) b))) ->
    less (mkC t b e) (mkC t' b' e').
  Proof.
    intros Ht H. unfold less, more. cbn [c_time c_blk c_ent].
    pose proof (m_mono _ _ _ _ _ _ _ _ _ _ _ _ M t t' ltac:(lia)). pose proof (m_bound _ _ _ _ _ _ _ _ _ _ _ _ M t').
    destruct (Nat.eq_dec (idx t) (idx t')) as [E|E]; [|left; lia].
    destruct (m_same _ _ _ _ _ _ _ _ _ _ _ _ M _ _ E) as [Es EG]. right. split; [lia|]. unfold rightOf in *. rewrite <- EG, <- Es.
    destruct H as [H|(-> & H & Hin)]; [left; exact H|]. right. split; [lia|]. left. apply more_lt; assumption.
  Qed.

  Lemma turn_step c : Q c ->
    match turn c with
    | CErr => False
    | CGo c' => Q c' /\ less c c' /\ forall z, In z C0 -> place c z -> place c' z
    | CBack c' =>
        if e_fin (c_ent c') then forall z, In z C0 -> ~ place c z
        else Q c' /\ less c c' /\ In (e_cur (c_ent c')) Cend /\
          forall z, In z C0 -> place c z -> z = e_cur (c_ent c') \/ ((cmp (e_cur (c_ent c')) z < 0)%Z /\ place c' z)
    end.
  Proof.
    destruct c as [t b e]. intros [Qat Qatt Qfin Qcur Qs Qle Qin]. cbn [c_time c_blk c_ent] in *. unfold ScanConc.turn. cbn [c_time c_blk c_ent].
    rewrite at_off_rest. destruct (rest e) as [|y r] eqn:Er.
    2: { (* next row of the copy *)
      pose proof (rest_next e y r Er) as Er'. cbn [c_ent set_cur e_fin e_cur]. rewrite Qfin.
      apply Forall_cons_iff in Qin as [Hy Qin]. apply Forall_cons_iff in Qle as [Hle _].
      assert (Hlast : forall z, (cmp (far e) z < 0)%Z -> (cmp y z < 0)%Z /\ (cmp (last r y) z < 0)%Z).
      { intros z Hz. unfold far in Hz. rewrite Er in Hz. replace (last (y :: r) (e_cur e)) with (last r y) in Hz.
        2: { destruct r as [|a r]; [reflexivity|]. cbn [last]. clear. revert a. induction r as [|b r IH]; intro a; [reflexivity|]. cbn [last] in *. apply IH. }
        split; [|exact Hz]. pose proof (last_sorted y r Qs). apply (cmp_le_lt_trans _ OK) with (last r y); assumption. }
      assert (Hhd : forall z, In z r -> (cmp y z < 0)%Z) by (intros z Hz; exact (later_head y r z Qs Hz)).
      split; [|split; [|split; [tauto|]]].
      - constructor; cbn [c_time c_blk c_ent]; rewrite ?Er'; auto; cbn [set_cur e_cur e_att e_fin]; auto; [tauto| |].
        + apply ssorted_inv in Qs as [Qs _]. exact Qs.
        + apply Forall_forall. intros z Hz. specialize (Hhd z Hz). lia.
      - unfold less, more. cbn [c_time c_blk c_ent]. rewrite Er, Er'. cbn [set_cur e_cur length]. right. split; [lia|]. right. split; [lia|].
        right. split; [apply more_le; exact Hle|lia].
      - intros z Hz [Hp|[Hp1 Hp2]]; cbn [c_ent c_time c_blk] in *.
        + rewrite Er in Hp. destruct Hp as [->|Hp]; [left; reflexivity|]. right. split; [apply Hhd; exact Hp|]. left. cbn [c_ent]. rewrite Er'. exact Hp.
        + right. destruct (Hlast z Hp1) as [H1 H2]. split; [exact H1|]. right. cbn [c_ent c_time c_blk]. unfold far. rewrite Er'. cbn [set_cur e_cur]. auto. }
    (* the copy is used up: read the page *)
    assert (Hfar : far e = e_cur e) by (unfold far; rewrite Er; reflexivity).
    destruct (page_get _ _ _ _ _ _ _ _ _ (HI t) _ _ Qat) as [pg Hg]. rewrite Hg.
    destruct (BTreeFind.page_facts _ _ _ _ _ _ _ _ _ (HI t) _ _ _ Qat Hg) as (Hleaf & _ & _ & _ & Hright & Hbody). rewrite Hleaf. cbn [Nat.eqb negb].
    destruct (leaf_items _ _ _ _ _ _ _ _ _ (HI t) _ _ Qat Hg) as (Hs & Ho & Hrg).
    assert (Hhi : shi (G t) b = hi_of pg) by apply Hbody.
    pose proof (page_rows t b pg Qat Hg) as Hrows.
    pose proof (scanPage_spec useAlt addTo cmpA CA (leafOf pg) (rightmost pg) e (e_cur e) false) as Hsp. cbv zeta in Hsp. rewrite Qatt in Hsp.
    cbn [leafOf lf_items lf_bound] in Hsp. specialize (Hsp Hs).
    destruct (scanPage useAlt addTo cmpA (leafOf pg) (rightmost pg) e (e_cur e) false) as [e1 fnd].
    destruct Hsp as ((Ea & Esrc & Ef & Ep & Erf) & Hsp).
    { intro Hrm. apply Forall_forall. intros y Hy. destruct (Hrg y Hy) as [_ Hy2]. rewrite Hhi in Hy2. unfold hi_of in Hy2. unfold rightmost in Hrm.
      destruct (p_right pg); [apply bat_le; exact Hy2|discriminate]. }
    { exact Qcur. }
    assert (Hbef : forall y, before cmp false (e_cur e) y = true <-> (cmp y (e_cur e) <= 0)%Z).
    { intro y. unfold before. cbn [negb]. rewrite andb_true_r, orb_true_iff, Z.ltb_lt, Z.leb_le. lia. }
    assert (Hbef2 : forall y, before cmp false (e_cur e) y = false <-> (cmp (e_cur e) y < 0)%Z).
    { intro y. rewrite <- not_true_iff_false, Hbef. split; intro H; [apply (cmp_gt_lt _ OK); lia|apply (cmp_lt_gt _ OK) in H; lia]. }
    destruct fnd.
    - (* a later row on this page *)
      destruct Hsp as (pre & l1 & y & l2 & post & Ei & Hpre & Hy & El & Eo & Ec).
      apply Hbef2 in Hy.
      destruct e1 as [a1 s1 li1 o1 c1 f1 p1 rf1]. cbn [e_att e_src e_list e_off e_cur e_fin e_predict e_refind] in *. rewrite Qatt in Ea. rewrite Qfin in Ef. subst li1 o1 c1 a1 f1.
      cbn [c_ent e_fin e_cur].
      set (e' := mkEntry att s1 (l1 ++ y :: l2) (Z.of_nat (length l1) + 1) y false p1 rf1).
      assert (Erest : rest e' = l2) by apply rest_found. assert (Ecur : e_cur e' = y) by reflexivity.
      assert (Hyin : In y (p_items pg)) by (rewrite Ei; apply in_app_iff; right; apply in_app_iff; left; apply in_app_iff; right; left; reflexivity).
      assert (Hs2 : ssorted cmp (y :: l2 ++ post)).
      { rewrite Ei in Hs. rewrite <- app_assoc in Hs. apply ssorted_app in Hs as (_ & Hs & _). apply ssorted_app in Hs as (_ & Hs & _). exact Hs. }
      assert (Hs3 : ssorted cmp (y :: l2)).
      { change (y :: l2 ++ post) with ((y :: l2) ++ post) in Hs2. apply ssorted_app in Hs2 as (Hs2 & _). exact Hs2. }
      assert (Hl2 : forall z, In z l2 -> In z (p_items pg)).
      { intros z Hz. rewrite Ei. apply in_app_iff. right. apply in_app_iff. left. apply in_app_iff. right. right. exact Hz. }
      destruct (Hstay t (S t) b ltac:(lia) Qat) as [Hat' Elo].
      split; [|split; [|split]].
      + constructor; cbn [c_time c_blk c_ent]; rewrite ?Erest, ?Ecur; auto.
        * rewrite Forall_forall in Hrows. apply Hrows. exact Hyin.
        * apply ssorted_inv in Hs3 as [H _]. exact H.
        * apply Forall_forall. intros z Hz. pose proof (later_head y l2 z Hs3 Hz). lia.
        * apply Forall_forall. intros z Hz. rewrite Forall_forall in Hrows. apply Hrows. auto.
      + apply less_later; [lia|]. right. split; [reflexivity|]. rewrite Ecur. split; [exact Hy|]. unfold items_at. rewrite Hg. exact Hyin.
      + rewrite Forall_forall in Hrows. apply Hrows. exact Hyin.
      + intros z Hz [Hp|[Hp1 Hp2]]; cbn [c_ent c_time c_blk] in *; [rewrite Er in Hp; destruct Hp|]. rewrite Hfar in Hp1.
        assert (Hlow : forall w, In w (pre ++ l1) -> (cmp w (e_cur e) <= 0)%Z) by (rewrite Forall_forall in Hpre; intros w Hw; apply Hbef, Hpre; exact Hw).
        destruct (leaf_or_after t b pg z Qat Hg (Hold t z Hz) Hp2) as [Hin|[Hsh Hall]].
        * assert (Hz2 : z = y \/ In z l2 \/ In z post).
          { assert (K : In z (pre ++ l1) -> False) by (intro K; specialize (Hlow z K); apply (cmp_lt_gt _ OK) in Hp1; lia).
            rewrite Ei in Hin. rewrite !in_app_iff in Hin. rewrite in_app_iff in K. cbn [In] in Hin. destruct Hin as [H|[[H|[H|H]]|H]]; auto; tauto. }
          destruct Hz2 as [->|[Hz2|Hz2]]; [left; reflexivity| |].
          -- right. split; [exact (later_head y l2 z Hs3 Hz2)|]. left. cbn [c_ent]. rewrite Erest. exact Hz2.
          -- right. assert (Hyz : forall w, In w (y :: l2) -> (cmp w z < 0)%Z).
             { intros w Hw. change (y :: l2 ++ post) with ((y :: l2) ++ post) in Hs2. apply ssorted_app in Hs2 as (_ & _ & H). exact (H w z Hw Hz2). }
             split; [apply Hyz; left; reflexivity|]. right. cbn [c_ent c_time c_blk]. unfold far. rewrite Erest, Ecur. split.
             ++ apply Hyz. apply last_mem.
             ++ rewrite Elo. exact Hp2.
        * right. split; [apply Hall; exact Hyin|]. right. cbn [c_ent c_time c_blk]. unfold far. rewrite Erest, Ecur. split.
          -- apply Hall. destruct (last_mem y l2) as [E|E]; [rewrite <- E; exact Hyin|apply Hl2; exact E].
          -- rewrite Elo. exact Hp2.
    - (* no later row on this page *)
      destruct Hsp as (Hle & Ec).
      assert (Hle' : forall y, In y (p_items pg) -> (cmp y (e_cur e) <= 0)%Z) by (rewrite Forall_forall in Hle; intros y Hy; apply Hbef, Hle; exact Hy).
      assert (Hbeyond : forall z, In z C0 -> place (mkC t b e) z -> (cmp (e_cur e) z < 0)%Z /\ blt (shi (G t) b) (BAt z)).
      { intros z Hz [Hp|[Hp1 Hp2]]; cbn [c_ent c_time c_blk] in *; [rewrite Er in Hp; destruct Hp|]. rewrite Hfar in Hp1. split; [exact Hp1|].
        destruct (leaf_or_after t b pg z Qat Hg (Hold t z Hz) Hp2) as [Hin|[Hsh _]]; [|exact Hsh].
        exfalso. specialize (Hle' z Hin). apply (cmp_lt_gt _ OK) in Hp1. lia. }
      unfold rightmost in *. destruct (p_right pg) as [r|] eqn:Epr.
      2: { cbn [c_ent finish e_fin]. intros z Hz Hp. destruct (Hbeyond z Hz Hp) as [_ H]. rewrite Hhi in H. unfold hi_of in H. rewrite Epr in H.
           unfold BTreeInv.blt in H. cbn in H. lia. }
      pose proof (right_at _ _ _ _ _ _ _ _ _ (HI t) _ _ _ _ Qat Hg Epr) as Hrat.
      destruct (Hright r eq_refl) as (_ & _ & Erlo). specialize (Erlo eq_refl).
      destruct (Hstay t (S t) r ltac:(lia) Hrat) as [Hrat' Erlo'].
      destruct (Hstay t (S (S t)) r ltac:(lia) Hrat) as [Hrat'' Erlo''].
      destruct (page_get _ _ _ _ _ _ _ _ _ (HI (S t)) _ _ Hrat') as [pg' Hg']. rewrite Hg'.
      destruct (BTreeFind.page_facts _ _ _ _ _ _ _ _ _ (HI (S t)) _ _ _ Hrat' Hg') as (Hleaf' & Hdel' & _). rewrite Hleaf', Hdel'. cbn [Nat.eqb negb orb].
      destruct (leaf_items _ _ _ _ _ _ _ _ _ (HI (S t)) _ _ Hrat' Hg') as (Hs' & _ & _).
      pose proof (page_rows (S t) r pg' Hrat' Hg') as Hrows'.
      assert (Hzr : forall z, In z C0 -> place (mkC t b e) z -> blt (slo (G (S (S t))) r) (BAt z)).
      { intros z Hz Hp. destruct (Hbeyond z Hz Hp) as [_ H]. rewrite Erlo'', Erlo. rewrite Hhi in H. unfold hi_of in H. rewrite Epr in H. exact H. }
      assert (Hless : forall e', less (mkC t b e) (mkC (S (S t)) r e')).
      { intro e'. apply less_later; [lia|]. left. eapply (rightOf_next _ _ _ _ _ _ _ _ _ _ _ _ M); eauto. }
      rewrite Qcur, Qatt. destruct (border_sorted (e_cur e) (p_items pg') Hs') as [Eb|(y & l & El & Eb & Hy)]; rewrite Eb.
      + (* all rows of the next page come later *)
        cbn [Z.ltb Z.compare]. change (-1 <? 0)%Z with true. cbn iota.
        assert (Erest : rest (set_list e1 (p_items pg') (-1)) = []) by reflexivity.
        split; [|split; [apply Hless|]].
        * constructor; cbn [c_time c_blk c_ent set_list e_att e_fin e_cur]; rewrite ?Ea, ?Ef, ?Ec; auto; change (rest _) with (@nil item); constructor.
        * intros z Hz Hp. right. cbn [c_ent c_time c_blk]. unfold far. rewrite Erest. cbn [last set_list e_cur]. rewrite Ec.
          split; [apply (Hbeyond z Hz Hp)|apply Hzr; assumption].
      + (* some come before curItem *)
        change (0 <? 0)%Z with false. cbn iota. rewrite El. cbn [Z.to_nat nth set_cur set_list e_list e_att e_src e_off e_fin e_predict e_refind c_ent e_cur].
        rewrite Ef, Qfin. change (0 + 1)%Z with 1%Z.
        set (e' := set_cur (set_list e1 (y :: l) 0) y 1). assert (Eatt' : e_att e' = att) by (cbn; congruence). assert (Efin' : e_fin e' = false) by (cbn; congruence).
        assert (Erest : rest e' = l) by reflexivity. assert (Ecur : e_cur e' = y) by reflexivity.
        rewrite El in Hs', Hrows'. apply Forall_cons_iff in Hrows' as [Hyy Hl].
        assert (Hhd : forall z, In z l -> (cmp y z < 0)%Z) by (intros z Hz; exact (later_head y l z Hs' Hz)).
        split; [|split; [apply Hless|split; [tauto|]]].
        * constructor; cbn [c_time c_blk c_ent]; rewrite ?Erest, ?Ecur; auto; [tauto| |].
          -- apply ssorted_inv in Hs' as [H _]. exact H.
          -- apply Forall_forall. intros z Hz. specialize (Hhd z Hz). lia.
        * intros z Hz Hp. right. destruct (Hbeyond z Hz Hp) as [Hcz _].
          assert (Hyz : (cmp y z < 0)%Z) by (apply (cmp_lt_trans _ OK) with (e_cur e); assumption).
          split; [exact Hyz|]. unfold place. cbn [c_time c_blk c_ent]. rewrite Erest.
          assert (Hlo' : blt (slo (G (S t)) r) (BAt z)) by (rewrite Erlo', <- Erlo''; apply Hzr; assumption).
          destruct (leaf_or_after (S t) r pg' z Hrat' Hg' (Hold (S t) z Hz) Hlo') as [Hin|[_ Hall]].
          -- left. rewrite El in Hin. destruct Hin as [->|Hin]; [pose proof (tc_refl _ OK z); lia|exact Hin].
          -- right. unfold far. rewrite Erest, Ecur. split; [|apply Hzr; assumption].
             apply Hall. rewrite El. apply last_mem.
  Qed.

  (** ** the whole run *)
  Definition past_lt (m : option item) (z : item) : Prop := match m with None => True | Some y => (cmp y z < 0)%Z end.
  Notation regular := (regular useAlt addTo cmpA att).
  Lemma run_from : forall c m, Q c -> (forall z, In z C0 -> past_lt m z -> place c z) ->
    exists n out c', runC n c = (out, Some c') /\ e_fin (c_ent c') = true /\ incl out Cend /\
      forall z, In z C0 -> past_lt m z -> In z (regular m out).
  Proof.
    apply (lex4_ind (fun c => forall m, Q c -> (forall z, In z C0 -> past_lt m z -> place c z) ->
      exists n out c', runC n c = (out, Some c') /\ e_fin (c_ent c') = true /\ incl out Cend /\
      forall z, In z C0 -> past_lt m z -> In z (regular m out))
      (fun c => N - idx (c_time c)) (fun c => rightOf G (c_time c) 0 (c_blk c)) (fun c => length (more c)) (fun c => length (rest (c_ent c)))).
    intros c IH m Hq Hp. pose proof (turn_step c Hq) as Ht.
    assert (Er : forall n, runC (S n) c = match turn c with CErr => ([], None) | CGo c' => runC n c'
      | CBack c' => let '(out, r) := runC n c' in (if e_fin (c_ent c') then out else e_cur (c_ent c') :: out, r) end).
    { intro n. cbn [ScanConc.runC]. rewrite (q_fin _ Hq). reflexivity. }
    destruct (turn c) as [|c'|c']; [destruct Ht| |].
    - destruct Ht as (Hq' & Hl & Hpl). destruct (IH c' Hl m Hq') as (n & out & c2 & Hr & Hf & Hi & Hz).
      { intros z Hz Hm. apply Hpl; auto. }
      exists (S n), out, c2. rewrite Er. auto.
    - destruct (e_fin (c_ent c')) eqn:Ef.
      + exists 1, [], c'. rewrite Er. cbn [ScanConc.runC]. split; [reflexivity|]. split; [exact Ef|]. split; [intros x []|].
        intros z Hz Hm. destruct (Ht z Hz (Hp z Hz Hm)).
      + destruct Ht as (Hq' & Hl & Hin & Hpl). set (y := e_cur (c_ent c')) in *.
        set (m' := match m with Some w => if (cmp y w <=? 0)%Z then m else Some y | None => Some y end).
        assert (Hm' : forall z, In z C0 -> past_lt m z -> z = y \/ past_lt m' z).
        { intros z Hz Hm. destruct (Hpl z Hz (Hp z Hz Hm)) as [->|[H _]]; [left; reflexivity|right]. unfold m'.
          destruct m as [w|]; [|exact H]. destruct (cmp y w <=? 0)%Z; [exact Hm|exact H]. }
        assert (Hm2 : forall z, past_lt m' z -> past_lt m z).
        { intros z H. unfold m' in H. destruct m as [w|]; [|exact I]. destruct (Z.leb_spec (cmp y w) 0) as [L|L]; [exact H|].
          cbn [past_lt] in *. apply (cmp_lt_trans _ OK) with y; [apply (cmp_gt_lt _ OK); exact L|exact H]. }
        destruct (IH c' Hl m' Hq') as (n & out & c2 & Hr & Hf & Hi & Hz).
        { intros z Hz Hm. destruct (Hpl z Hz (Hp z Hz (Hm2 z Hm))) as [->|[_ H]]; [|exact H]. exfalso.
          unfold m' in Hm. destruct m as [w|]; [destruct (Z.leb_spec (cmp y w) 0) as [L|L]|]; cbn [past_lt] in Hm.
          - apply (cmp_lt_gt _ OK) in Hm. lia.
          - pose proof (tc_refl _ OK y). lia.
          - pose proof (tc_refl _ OK y). lia. }
        exists (S n), (y :: out), c2. rewrite Er, Hr. split; [reflexivity|]. split; [exact Hf|]. split.
        { intros x [<-|Hx]; auto. }
        intros z Hz0 Hm. cbn [ScanConc.regular].
        destruct (Hm' z Hz0 Hm) as [->|H].
        * destruct m as [w|]; [|left; reflexivity]. cbn [past_lt] in Hm. apply (cmp_lt_gt _ OK) in Hm.
          replace (cmp y w <=? 0)%Z with false by (symmetry; apply Z.leb_gt; lia). left; reflexivity.
        * specialize (Hz z Hz0 H). unfold m' in Hz. destruct m as [w|]; [|right; exact Hz]. destruct (cmp y w <=? 0)%Z; [exact Hz|right; exact Hz].
  Qed.

  (** What a query gets is strictly ascending. *)
  Lemma regular_sorted l : forall m, ssorted cmp (regular m l) /\ Forall (past_lt m) (regular m l).
  Proof.
    induction l as [|x l IH]; intro m; cbn [ScanConc.regular]; [split; constructor|].
    assert (K : (forall w, m = Some w -> (cmp w x < 0)%Z) -> ssorted cmp (x :: regular (Some x) l) /\ Forall (past_lt m) (x :: regular (Some x) l)).
    { intro Hm. destruct (IH (Some x)) as [Hs Hf]. split.
      - apply ssorted_cons; [exact Hs|exact Hf].
      - constructor; [destruct m as [w|]; [exact (Hm w eq_refl)|exact I]|]. eapply Forall_impl; [|exact Hf]. intros z Hz. cbn beta in Hz. cbn [past_lt] in Hz.
        destruct m as [w|]; [|exact I]. cbn [past_lt]. apply (cmp_lt_trans _ OK) with x; auto. }
    destruct m as [w|]; [|apply K; discriminate]. destruct (Z.leb_spec (cmp x w) 0) as [L|L]; [apply IH|].
    apply K. intros w' E. injection E as <-. apply (cmp_gt_lt _ OK). exact L.
  Qed.
  (** ** from the start *)
  Lemma start_scan junk : C0 <> [] ->
    exists fuel c, startC sched fuel att junk = Some c /\ Q c /\ (forall z, In z C0 -> place c z).
  Proof.
    intro Hne. destruct (leftmostC_spec cmp ifit lbound ok fit true 0 _ sched G idx N M (top (G 0)) 0 0) as (t & b & Hl & _ & Hat & Hs & _).
    - exact (at_root _ _ _ _ _ _ _ _ _ (HI 0)).
    - exact (root_slo _ _ _ _ _ _ _ _ _ (HI 0)).
    - destruct (page_get _ _ _ _ _ _ _ _ _ (HI t) _ _ Hat) as [pg Hg].
      exists (S (top (G 0))). unfold startC. rewrite Hl, Hg. eexists. split; [reflexivity|].
      destruct (leaf_items _ _ _ _ _ _ _ _ _ (HI t) _ _ Hat Hg) as (Hso & _ & Hrg).
      destruct (Hstay t (S t) b ltac:(lia) Hat) as [Hat' Elo].
      assert (Hlow : forall z, blt (slo (G t) b) (BAt z)) by (intro z; rewrite Hs; unfold BTreeInv.blt; cbn; lia).
      assert (Hpn : p_items pg <> []).
      { destruct (BTreeFind.page_facts _ _ _ _ _ _ _ _ _ (HI t) _ _ _ Hat Hg) as (_ & _ & _ & _ & _ & Hb).
        destruct Hb as (Hhi & _ & _ & _ & _ & _ & Ht). intro E. destruct (p_right pg) as [r|] eqn:Er.
        - destruct (Ht (or_introl eq_refl) ltac:(discriminate) (p_bound pg)) as (y & Hy & _); [|rewrite E in Hy; destruct Hy].
          split; [apply Hlow|]. rewrite Hhi. unfold hi_of. rewrite Er. apply ble_refl. exact OK.
        - destruct C0 as [|z C1] eqn:EC; [congruence|]. 
          destruct (leaf_or_after t b pg z Hat Hg) as [Hin|[Hsh _]]; [apply (Hold t); left; reflexivity|apply Hlow|rewrite E in Hin; destruct Hin|].
          rewrite Hhi in Hsh. unfold hi_of in Hsh. rewrite Er in Hsh. unfold BTreeInv.blt in Hsh. cbn in Hsh. lia. }
      pose proof (page_rows t b pg Hat Hg) as Hrows.
      destruct (p_items pg) as [|y l] eqn:Ei; [congruence|]. cbn [nth].
      set (e := mkEntry att Mem (y :: l) 0 y false 0 (fun _ => 0)). assert (Er : rest e = y :: l) by reflexivity. assert (Ec : e_cur e = y) by reflexivity.
      split.
      + constructor; cbn [c_time c_blk c_ent]; rewrite ?Er, ?Ec; auto.
        * apply Forall_cons_iff in Hrows as [H _]. tauto.
        * constructor; [pose proof (tc_refl _ OK y); lia|]. apply Forall_forall. intros z Hz. pose proof (later_head y l z Hso Hz). lia.
      + intros z Hz. unfold place. cbn [c_time c_blk c_ent]. unfold far. rewrite Er, Ec.
        destruct (leaf_or_after t b pg z Hat Hg (Hold t z Hz) (Hlow z)) as [Hin|[_ Hall]]; [left; rewrite <- Ei; exact Hin|].
        right. split; [|rewrite Elo; apply Hlow]. apply Hall. rewrite Ei.
        replace (last (y :: l) y) with (last l y); [apply last_mem|]. destruct l as [|a l]; reflexivity.
  Qed.

  Lemma scan_complete junk : C0 <> [] ->
    exists fuel c n out c', startC sched fuel att junk = Some c /\ runC n c = (out, Some c') /\ e_fin (c_ent c') = true /\
      incl out Cend /\ incl C0 (regular None out) /\ ssorted cmp (regular None out).
  Proof.
    intro Hne. destruct (start_scan junk Hne) as (fuel & c & Hs & Hq & Hp).
    destruct (run_from c None Hq (fun z Hz _ => Hp z Hz)) as (n & out & c' & Hr & Hf & Hi & Hz).
    exists fuel, c, n, out, c'. split; [exact Hs|]. split; [exact Hr|]. split; [exact Hf|]. split; [exact Hi|].
    split; [intros z Hz0; exact (Hz z Hz0 I)|]. apply regular_sorted.
  Qed.
End Reader.
