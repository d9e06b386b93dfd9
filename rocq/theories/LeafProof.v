(** Proofs about leaf pages. *)
From Verif Require Import Base Ord OrdProof LeafPage.
From Coq Require Import NArith ZifyBool ZifyNat ZifyN.
Local Open Scope Z_scope.

Section LeafFacts.
  Context {T : Type} (cmp : T -> T -> Z) (tmin : T).
  Context (OK : total_cmp cmp).

  Definition idx_ok (items : list T) (e : @idx T) : Prop :=
    exists k, i_off e = S k /\ (k < length items)%nat /\
      i_key e = match k with O => tmin | S k' => nth k' items tmin end.

  Lemma build_idx_ok items : forall pre l i j prev maxoff,
    items = pre ++ l -> i = S (length pre) -> prev = last pre tmin ->
    Forall (idx_ok items) (build_idx i j maxoff prev l).
  Proof.
    intros pre l. revert pre. induction l as [|x r IH]; intros pre i j prev maxoff Hi Hl Hp; cbn [build_idx]; [constructor|].
    assert (IH' : forall j', Forall (idx_ok items) (build_idx (S i) j' maxoff x r)).
    { intro j'. apply (IH (pre ++ [x])).
      - rewrite <- app_assoc. exact Hi.
      - rewrite app_length. simpl. lia.
      - rewrite last_last. reflexivity. }
    destruct (_ <? _)%nat; [|apply IH'].
    constructor; [|apply IH'].
    exists (length pre). cbn [i_off i_key]. split; [lia|]. split.
    - subst items. rewrite app_length. simpl. lia.
    - subst prev. destruct pre as [|p0 pre'] using rev_ind; [reflexivity|].
      rewrite last_last, app_length. simpl.
      replace (length pre' + 1)%nat with (S (length pre')) by lia.
      subst items. rewrite <- app_assoc, app_nth2, Nat.sub_diag by lia. reflexivity.
  Qed.

  Lemma build_idx_len i : forall j maxoff prev l, (i * 33 + 33 * length l <= 33 * (maxoff + 1))%nat ->
    (j <= 32)%nat ->
    (j + length (build_idx (T:=T) i j maxoff prev l) <= 32)%nat.
  Proof.
    intros j maxoff prev l. revert i j prev.
    induction l as [|x r IH]; intros i j prev H Hj; cbn [build_idx length]; [lia|].
    unfold RumDataLeafIndexCount.
    destruct (Nat.ltb_spec ((j + 1) * maxoff) (i * (32 + 1))) as [L|L].
    - cbn [length]. cbn [length] in H.
      assert (j < 32)%nat.
      { destruct (Nat.eq_dec j 32) as [->|]; [|lia]. nia. }
      specialize (IH (S i) (S j) x ltac:(lia) ltac:(lia)). lia.
    - apply IH; cbn [length] in H; lia.
  Qed.

  (** The in-page index never has more than its 32 slots. *)
  Lemma index_count items : (length (updateItemIndexes tmin items) <= RumDataLeafIndexCount)%nat.
  Proof.
    unfold updateItemIndexes, RumDataLeafIndexCount.
    pose proof (build_idx_len 1 0 (length items) tmin items). lia.
  Qed.

  Lemma ssorted_nth (items : list T) d : ssorted cmp items ->
    forall i j, (i < j)%nat -> (j < length items)%nat -> cmp (nth i items d) (nth j items d) < 0.
  Proof.
    induction items as [|a l IH]; intros Hs i j Hij Hj; [simpl in Hj; lia|].
    apply (ssorted_inv cmp) in Hs as [Hs Hf]. rewrite Forall_forall in Hf.
    destruct j as [|j]; [lia|]. simpl in Hj. destruct i as [|i]; simpl.
    - apply Hf. apply nth_In. lia.
    - apply IH; auto; lia.
  Qed.

  Lemma narrow_spec items key ix : forall first,
    Forall (idx_ok items) ix -> cmp tmin key < 0 ->
    (1 <= first)%nat -> (first <= length items \/ length items = 0 /\ first = 1)%nat ->
    (forall k, (k < first - 1)%nat -> cmp (nth k items tmin) key < 0) ->
    ssorted cmp items ->
    let '(f, m) := narrow cmp ix key first (length items) in
    (1 <= f)%nat /\ (m <= length items)%nat /\
    (forall k, (k < f - 1)%nat -> cmp (nth k items tmin) key < 0) /\
    ((m = length items /\ (f <= length items \/ length items = 0 /\ f = 1)%nat) \/
     ((f <= m)%nat /\ (1 <= m)%nat /\ 0 <= cmp (nth (m - 1) items tmin) key)).
  Proof.
    induction ix as [|e r IH]; intros first Hix Hmin H1 H2 Hpre Hs; cbn [narrow].
    - repeat split; auto.
    - apply Forall_cons_iff in Hix as [(k & Ho & Hk & Hkey) Hr].
      destruct (Z.ltb_spec (cmp (i_key e) key) 0) as [L|L].
      + apply IH; auto; try lia. rewrite Ho. intros k' Hk'.
        destruct k as [|k0]; [lia|]. rewrite Hkey in L.
        destruct (Nat.eq_dec k' k0) as [->|Hne]; [exact L|].
        apply (cmp_lt_trans _ OK _ (nth k0 items tmin)); [|exact L].
        apply ssorted_nth; auto; lia.
      + rewrite Ho. replace (S k - 1)%nat with k by lia.
        split; [exact H1|]. split; [lia|]. split; [exact Hpre|]. right.
        destruct k as [|k0].
        * rewrite Hkey in L. lia.
        * rewrite Hkey in L. replace (S k0 - 1)%nat with k0 by lia.
          assert (first <= S k0)%nat; [|repeat split; auto; lia].
          destruct (Nat.le_gt_cases first (S k0)) as [|G]; [assumption|].
          specialize (Hpre k0 ltac:(lia)). lia.
  Qed.

  Lemma lin_find_spec key full : forall l i,
    let '(b, o) := lin_find cmp l i full key in
    (exists a x c, l = a ++ x :: c /\ Forall (fun y => 0 < cmp key y) a /\ o = (i + length a)%nat /\
        cmp key x <= 0 /\ (b = true <-> cmp key x = 0))
    \/ (Forall (fun y => 0 < cmp key y) l /\ b = false /\ o = S full).
  Proof.
    induction l as [|x r IH]; intro i; cbn [lin_find].
    - right. auto.
    - destruct (Z.eqb_spec (cmp key x) 0) as [E|E].
      + left. exists [], x, r. repeat split; auto; simpl; lia.
      + destruct (Z.ltb_spec (cmp key x) 0) as [L|L].
        * left. exists [], x, r. repeat split; auto; simpl; try lia; intros; try discriminate; lia.
        * specialize (IH (S i)). destruct (lin_find cmp r (S i) full key) as [b o].
          destruct IH as [(a & y & c & -> & Ha & Ho & Hy & Hb)|(Hf & Hb & Ho)].
          -- left. exists (x :: a), y, c. repeat split; auto; try (simpl; lia); try apply Hb.
             constructor; [lia|exact Ha].
          -- right. repeat split; auto. constructor; [lia|exact Hf].
  Qed.

  (** Specification of the leaf search. *)
  Definition position_of (items : list T) (key : T) (found : bool) (off : nat) : Prop :=
    (1 <= off <= S (length items))%nat /\
    Forall (fun x => cmp x key < 0) (firstn (off - 1) items) /\
    Forall (fun x => 0 <= cmp x key) (skipn (off - 1) items) /\
    (found = true <-> exists x, In x items /\ cmp x key = 0) /\
    (found = true -> exists x, nth_error items (off - 1) = Some x /\ cmp x key = 0).

  Lemma position_intro items key a x c (b : bool) :
    ssorted cmp items -> items = a ++ x :: c ->
    Forall (fun y => cmp y key < 0) a -> cmp key x <= 0 -> (b = true <-> cmp key x = 0) ->
    position_of items key b (S (length a)).
  Proof.
    intros Hs Hi Ha Hx Hb. unfold position_of.
    replace (S (length a) - 1)%nat with (length a) by lia.
    assert (Hfn : firstn (length a) items = a).
    { subst items. rewrite firstn_app, Nat.sub_diag, firstn_all. simpl. apply app_nil_r. }
    assert (Hsk : skipn (length a) items = x :: c).
    { subst items. rewrite skipn_app, Nat.sub_diag, skipn_all. reflexivity. }
    rewrite Hfn, Hsk.
    assert (Hge : Forall (fun y => 0 <= cmp y key) (x :: c)).
    { subst items. apply (ssorted_app cmp) in Hs as (_ & Hs & _).
      apply (ssorted_inv cmp) in Hs as [_ Hf]. constructor; [apply (cmp_le_sym _ OK); exact Hx|].
      eapply Forall_impl; [|exact Hf]. simpl. intros y Hy. apply (cmp_le_sym _ OK).
      assert (cmp key y < 0) by (eapply (cmp_le_lt_trans _ OK); eauto). lia. }
    split; [subst items; rewrite app_length; simpl; lia|].
    split; [exact Ha|]. split; [exact Hge|]. split.
    - rewrite Hb. split.
      + intro E. exists x. split; [subst items; apply in_app_iff; right; left; reflexivity|].
        apply (cmp_sym_eq _ OK); exact E.
      + intros (y & Hy & E). subst items. apply in_app_iff in Hy as [Hy|[->|Hy]].
        * rewrite Forall_forall in Ha. specialize (Ha _ Hy). lia.
        * apply (cmp_sym_eq _ OK); exact E.
        * apply (ssorted_app cmp) in Hs as (_ & Hs & _).
          apply (ssorted_inv cmp) in Hs as [_ Hf]. rewrite Forall_forall in Hf. specialize (Hf _ Hy).
          assert (cmp key y < 0) by (eapply (cmp_le_lt_trans _ OK); eauto).
          apply (cmp_sym_eq _ OK) in E. lia.
    - intro E. exists x. split; [|apply (cmp_sym_eq _ OK); apply Hb; exact E].
      subst items. rewrite nth_error_app2 by lia. rewrite Nat.sub_diag. reflexivity.
  Qed.

  Lemma position_end items key :
    Forall (fun y => cmp y key < 0) items -> position_of items key false (S (length items)).
  Proof.
    intro H. unfold position_of. replace (S (length items) - 1)%nat with (length items) by lia.
    rewrite firstn_all, skipn_all. split; [lia|]. split; [exact H|]. split; [constructor|].
    split; [|discriminate].
    split; [discriminate|]. intros (x & Hx & E). rewrite Forall_forall in H. specialize (H _ Hx). lia.
  Qed.

  Lemma findInLeafPage_spec items key :
    ssorted cmp items -> cmp tmin key < 0 ->
    let '(found, off) := findInLeafPage cmp tmin items key in position_of items key found off.
  Proof.
    intros Hs Hmin. unfold findInLeafPage.
    assert (Hix : Forall (idx_ok items) (updateItemIndexes tmin items))
      by (apply (build_idx_ok items []); reflexivity).
    assert (H2 : (1 <= length items \/ length items = 0 /\ 1 = 1)%nat) by lia.
    pose proof (narrow_spec items key _ 1 Hix Hmin ltac:(lia) H2 ltac:(intros; lia) Hs) as Hn.
    destruct (narrow cmp (updateItemIndexes tmin items) key 1 (length items)) as [f m].
    destruct Hn as (Hf1 & Hm & Hpre & Hcase).
    set (A := firstn (f - 1) items).
    set (S0 := firstn (m + 1 - f) (skipn (f - 1) items)).
    set (B := skipn (m + 1 - f) (skipn (f - 1) items)).
    assert (Hsplit : items = A ++ S0 ++ B).
    { unfold A, S0, B. rewrite firstn_skipn, firstn_skipn. reflexivity. }
    assert (HA : Forall (fun y => cmp y key < 0) A).
    { apply Forall_forall. intros x Hx. apply (In_nth _ _ tmin) in Hx as (k & Hk & <-).
      unfold A in *. rewrite firstn_length in Hk.
      assert (nth k (firstn (f - 1) items) tmin = nth k items tmin) as ->.
      { rewrite <- (firstn_skipn (f - 1) items) at 2. rewrite app_nth1; [reflexivity|].
        rewrite firstn_length. lia. }
      apply Hpre. lia. }
    assert (HlA : length A = (f - 1)%nat).
    { unfold A. rewrite firstn_length. destruct Hcase as [(-> & Hc)|Hc]; lia. }
    pose proof (lin_find_spec key (length items) S0 f) as Hl.
    destruct (lin_find cmp S0 f (length items) key) as [b o].
    destruct Hl as [(a & x & c & HS & Ha & Ho & Hx & Hb)|(Hall & -> & ->)].
    - replace o with (S (length (A ++ a))) by (rewrite app_length; lia).
      apply (position_intro _ _ _ x (c ++ B)); auto.
      + rewrite Hsplit, HS. rewrite <- !app_assoc. reflexivity.
      + apply Forall_app. split; [exact HA|]. eapply Forall_impl; [|exact Ha].
        simpl. intros y Hy. apply (cmp_gt_lt _ OK). exact Hy.
    - assert (HB : B = []).
      { destruct Hcase as [(-> & Hc)|(Hfm & Hm1 & Hge)].
        - unfold B. rewrite skipn_all2; [reflexivity|]. rewrite skipn_length. lia.
        - exfalso. rewrite Forall_forall in Hall.
          assert (Hin : In (nth (m - 1) items tmin) S0).
          { rewrite Hsplit at 1. rewrite app_nth2 by lia.
            rewrite app_nth1; [apply nth_In|];
              unfold S0; rewrite firstn_length, skipn_length; lia. }
          specialize (Hall _ Hin). apply (cmp_le_sym _ OK) in Hge. lia. }
      rewrite HB, app_nil_r in Hsplit.
      apply position_end. rewrite Hsplit. apply Forall_app. split; [exact HA|].
      eapply Forall_impl; [|exact Hall]. simpl. intros y Hy. apply (cmp_gt_lt _ OK). exact Hy.
  Qed.

  Lemma findInLeafPage_spec_split items key :
    ssorted cmp items -> cmp tmin key < 0 -> (forall x, In x items -> cmp x key <> 0) ->
    exists pre olds, items = pre ++ olds /\ (forall x, In x pre -> cmp x key < 0) /\
      (forall x, In x olds -> cmp key x < 0).
  Proof.
    intros Hs Hmin Hnf. pose proof (findInLeafPage_spec items key Hs Hmin) as Hp.
    destruct (findInLeafPage cmp tmin items key) as [fd off]. destruct Hp as (_ & Hpre & Hpost & _).
    exists (firstn (off - 1) items), (skipn (off - 1) items). split; [symmetry; apply firstn_skipn|].
    rewrite Forall_forall in Hpre, Hpost. split; [exact Hpre|].
    intros x Hx. specialize (Hpost x Hx).
    assert (cmp x key <> 0).
    { apply Hnf. rewrite <- (firstn_skipn (off - 1) items). apply in_app_iff. right; exact Hx. }
    apply (cmp_gt_lt _ OK). lia.
  Qed.
End LeafFacts.

Section Place.
  Context {T : Type} (cmp : T -> T -> Z) (tmin : T) (sz : T -> T -> N -> N) (psz : N).
  Context (OK : total_cmp cmp).

  Lemma place_loop_total fuel : forall rm (bound : T) (olds news : list T) (prev : T) pos free (stop : bool),
    (2 * (length olds + length news) + (if stop then 0 else 1) < fuel)%nat ->
    exists r, place_loop cmp sz fuel rm bound olds news prev pos free stop = Some r.
  Proof.
    induction fuel as [|f IH]; intros rm bound olds news prev pos free stop Hf; [lia|].
    cbn [place_loop].
    assert (Hcopy : forall o olds' news' p, (length olds' + length news' < length olds + length news)%nat ->
      exists r, match place_loop cmp sz f rm bound olds' news' o p free stop with
                | Some (w, rest, e) => Some (o :: w, rest, e) | None => None end = Some r).
    { intros o olds' news' p Hlt.
      destruct (IH rm bound olds' news' o p free stop) as [[[w rest] e] ->]; [lia|eexists; reflexivity]. }
    assert (Hins : forall n news', stop = false -> (length news' < length news)%nat ->
      exists r, (if (sz n prev (pos mod 8) - pos mod 8 <=? free)%N
        then match place_loop cmp sz f rm bound olds news' n (sz n prev pos)
                     (free - (sz n prev (pos mod 8) - pos mod 8)) stop with
             | Some (w, rest, e) => Some (n :: w, rest, e) | None => None end
        else place_loop cmp sz f rm bound olds news prev pos free true) = Some r).
    { intros n news' -> Hlt. destruct (_ <=? _)%N.
      - destruct (IH rm bound olds news' n (sz n prev pos)
          (free - (sz n prev (pos mod 8) - pos mod 8))%N false) as [[[w rest] e] ->]; [lia|eexists; reflexivity].
      - apply IH. lia. }
    destruct olds as [|o olds'], news as [|n news']; cbn [length] in *.
    - eexists; reflexivity.
    - destruct stop; [eexists; reflexivity|]. destruct rm; [apply Hins; auto|].
      destruct (0 <=? cmp bound n); [apply Hins; auto|eexists; reflexivity].
    - apply Hcopy. simpl. lia.
    - destruct ((if stop then -1 else cmp o n) <=? 0) eqn:E.
      + apply Hcopy. destruct (_ =? 0); simpl; lia.
      + apply Hins; [destruct stop; [discriminate|reflexivity]|lia].
  Qed.

  (** The loop merges the consumed part of the batch into the old items. *)
  Lemma place_loop_merge fuel : forall rm (bound : T) (olds news : list T) (prev : T) pos free (stop : bool) w rest e,
    place_loop cmp sz fuel rm bound olds news prev pos free stop = Some (w, rest, e) ->
    exists used, news = used ++ rest /\ w = rumMergeRumItems cmp used olds /\
      (forall x, In x used -> rm = true \/ 0 <= cmp bound x \/ exists o, In o olds /\ cmp x o <= 0) /\
      (stop = true -> used = []).
  Proof.
    induction fuel as [|f IH]; intros rm bound olds news prev pos free stop w rest e; [discriminate|].
    cbn [place_loop].
    assert (Hstop : forall olds, rumMergeRumItems cmp [] olds = olds) by (intros []; reflexivity).
    destruct olds as [|o olds'], news as [|n news'].
    - intro H. injection H as <- <- <-. exists []. repeat split; auto; try (intros x []).
    - destruct stop.
      { intro H. injection H as <- <- <-. exists []. repeat split; auto; try (intros x []). }
      assert (Hins : (rm = true \/ 0 <= cmp bound n) ->
        (if (sz n prev (pos mod 8) - pos mod 8 <=? free)%N
        then match place_loop cmp sz f rm bound [] news' n (sz n prev pos)
                     (free - (sz n prev (pos mod 8) - pos mod 8)) false with
             | Some (w, rest, e) => Some (n :: w, rest, e) | None => None end
        else place_loop cmp sz f rm bound [] (n :: news') prev pos free true) = Some (w, rest, e) ->
        exists used, n :: news' = used ++ rest /\ w = rumMergeRumItems cmp used [] /\
        (forall x, In x used -> rm = true \/ 0 <= cmp bound x \/ exists o, In o (@nil T) /\ cmp x o <= 0) /\
        (false = true -> used = [])).
      { intros Hn. destruct (_ <=? _)%N.
        - destruct (place_loop cmp sz f rm bound [] news' _ _ _ false) as [[[w0 r0] e0]|] eqn:E; [|discriminate].
          intro H. injection H as <- <- <-. apply IH in E as (used & -> & -> & Hb & _).
          exists (n :: used). split; [reflexivity|]. split.
          { rewrite !merge_nil_r. reflexivity. }
          split; [|discriminate]. intros x [->|Hx]; [tauto|auto].
        - intro H. apply IH in H as (used & H1 & -> & Hb & Hu). exists used. repeat split; auto; try discriminate. }
      destruct rm; [apply Hins; auto|].
      destruct (Z.leb_spec 0 (cmp bound n)); [apply Hins; auto|].
      intro H0. injection H0 as <- <- <-. exists []. repeat split; auto; try (intros x []).
    - destruct (place_loop cmp sz f rm bound olds' [] _ _ _ stop) as [[[w0 r0] e0]|] eqn:E; [|discriminate].
      intro H. injection H as <- <- <-. apply IH in E as (used & H1 & -> & Hb & Hu).
      symmetry in H1. apply app_eq_nil in H1 as [-> ->]. exists []. rewrite !Hstop. repeat split; auto; try (intros x []).
    - destruct stop.
      + cbn [Z.leb Z.eqb Z.compare]. 
        destruct (place_loop cmp sz f rm bound olds' (n :: news') _ _ _ true) as [[[w0 r0] e0]|] eqn:E; [|discriminate].
        intro H. injection H as <- <- <-. apply IH in E as (used & H1 & -> & Hb & Hu).
        specialize (Hu eq_refl). subst used. exists []. rewrite !Hstop. repeat split; auto; try (intros x []).
      + destruct (Z.leb_spec (cmp o n) 0) as [L|L].
        * destruct (Z.eqb_spec (cmp o n) 0) as [E0|E0].
          -- destruct (place_loop cmp sz f rm bound olds' news' _ _ _ false) as [[[w0 r0] e0]|] eqn:E; [|discriminate].
             intro H. injection H as <- <- <-. apply IH in E as (used & -> & -> & Hb & _).
             exists (n :: used). split; [reflexivity|].
             assert (En := cmp_sym_eq _ OK _ _ E0).
             split; [rewrite merge_cons, En; reflexivity|].
             split; [|discriminate]. intros x [<-|Hx].
             ++ right; right. exists o. split; [left; reflexivity|lia].
             ++ destruct (Hb x Hx) as [?|[?|(o' & Ho & ?)]]; auto. right; right. exists o'. split; [right|]; auto.
          -- destruct (place_loop cmp sz f rm bound olds' (n :: news') _ _ _ false) as [[[w0 r0] e0]|] eqn:E; [|discriminate].
             intro H. injection H as <- <- <-. apply IH in E as (used & H1 & -> & Hb & _).
             exists used. split; [exact H1|]. split.
             ++ destruct used as [|u used]; [rewrite !Hstop; reflexivity|].
                simpl in H1. injection H1 as -> _. rewrite merge_cons.
                assert (0 < cmp u o) by (apply (cmp_lt_gt _ OK); lia).
                replace (0 <? cmp u o) with true by lia. reflexivity.
             ++ split; [|discriminate]. intros x Hx.
                destruct (Hb x Hx) as [?|[?|(o' & Ho & ?)]]; auto. right; right. exists o'. split; [right|]; auto.
        * destruct (_ <=? _)%N.
          -- destruct (place_loop cmp sz f rm bound (o :: olds') news' _ _ _ false) as [[[w0 r0] e0]|] eqn:E; [|discriminate].
             intro H. injection H as <- <- <-. apply IH in E as (used & -> & -> & Hb & _).
             exists (n :: used). split; [reflexivity|].
             assert (En := cmp_gt_lt _ OK _ _ L).
             split.
             ++ rewrite merge_cons. replace (0 <? cmp n o) with false by lia.
                replace (cmp n o =? 0) with false by lia. reflexivity.
             ++ split; [|discriminate]. intros x [<-|Hx]; [|auto].
                right; right. exists o. split; [left; reflexivity|lia].
          -- intro H. apply IH in H as (used & H1 & H2 & Hb & Hu). exists used.
             repeat split; auto; try discriminate.
  Qed.

  Lemma merge_prefix pre : forall used olds,
    (forall x y, In x used -> In y pre -> cmp y x < 0) ->
    rumMergeRumItems cmp used (pre ++ olds) = pre ++ rumMergeRumItems cmp used olds.
  Proof.
    induction pre as [|p pre IH]; intros used olds H; [reflexivity|].
    destruct used as [|u used].
    - rewrite !merge_nil_l. reflexivity.
    - cbn [app]. rewrite merge_cons.
      assert (0 < cmp u p) by (apply (cmp_lt_gt _ OK); apply H; left; reflexivity).
      replace (0 <? cmp u p) with true by lia. f_equal. apply IH.
      intros x y Hx Hy. apply H; [exact Hx|right; exact Hy].
  Qed.

  (** dataPlaceToPage: contents. *)
  Lemma place_leaf_spec rm bound items batch key btl :
    batch = key :: btl -> ssorted cmp items -> ssorted cmp batch -> cmp tmin key < 0 ->
    (rm = true \/ forall x, In x items -> cmp x bound <= 0) ->
    exists items' used rest e,
      dataPlaceToPageLeaf cmp tmin sz psz rm bound items batch = Some (items', rest, e) /\
      batch = used ++ rest /\ items' = rumMergeRumItems cmp used items /\
      (rm = true \/ forall x, In x used -> cmp x bound <= 0).
  Proof.
    intros Hbt Hs Hsb Hmin Hbound. subst batch. unfold dataPlaceToPageLeaf.
    pose proof (findInLeafPage_spec cmp tmin OK items key Hs Hmin) as Hp.
    destruct (findInLeafPage cmp tmin items key) as [fd off].
    destruct Hp as (Hoff & Hpre & Hpost & _ & _).
    set (pre := firstn (off - 1) items) in *. set (olds := skipn (off - 1) items) in *.
    destruct (place_loop_total (2 * (length olds + length (key :: btl)) + 2) rm bound olds (key :: btl)
      (last pre tmin) (run_size sz tmin pre 0) (leafFree tmin sz psz items) false) as [[[w rest] e] E]; [lia|].
    rewrite E. apply place_loop_merge in E as (used & Hu & -> & Hb & _).
    exists (pre ++ rumMergeRumItems cmp used olds), used, rest, e. split; [reflexivity|].
    split; [exact Hu|]. split.
    - assert (Hi : items = pre ++ olds) by (symmetry; apply firstn_skipn).
      rewrite Hi at 1. symmetry. apply merge_prefix. intros x y Hx Hy.
      rewrite Forall_forall in Hpre. specialize (Hpre _ Hy).
      assert (Hx' : In x (key :: btl)) by (rewrite Hu; apply in_app_iff; left; exact Hx).
      destruct Hx' as [<-|Hx']; [exact Hpre|].
      apply (ssorted_inv cmp) in Hsb as [_ Hf]. rewrite Forall_forall in Hf.
      apply (cmp_lt_trans _ OK _ key); auto.
    - destruct Hbound as [?|Hbound]; [left; assumption|]. destruct rm; [left; reflexivity|right].
      intros x Hx. destruct (Hb x Hx) as [|[G|(o & Ho & Hle)]]; [discriminate| |].
      + apply (cmp_le_sym _ OK). exact G.
      + apply (tc_trans _ OK _ o); [exact Hle|]. apply Hbound.
        unfold olds in Ho. rewrite <- (firstn_skipn (off - 1) items). apply in_app_iff. right; exact Ho.
  Qed.

  (** Progress: a batch whose head is not on the page and passes the room check is consumed. *)
  Lemma place_leaf_progress rm bound items batch key btl items' rest e :
    batch = key :: btl -> ssorted cmp items -> cmp tmin key < 0 ->
    (forall x, In x items -> cmp x key <> 0) ->
    (rm = true \/ cmp key bound <= 0) ->
    (forall prev pos, In prev (tmin :: items) -> cmp prev key < 0 ->
        (sz key prev (pos mod 8) - pos mod 8 <= leafFree tmin sz psz items)%N) ->
    dataPlaceToPageLeaf cmp tmin sz psz rm bound items batch = Some (items', rest, e) ->
    (length rest < length batch)%nat.
  Proof.
    intros -> Hs Hmin Hnf Hbound Hroom. unfold dataPlaceToPageLeaf.
    pose proof (findInLeafPage_spec cmp tmin OK items key Hs Hmin) as Hp.
    destruct (findInLeafPage cmp tmin items key) as [fd off].
    destruct Hp as (Hoff & Hpre & Hpost & _ & _).
    set (pre := firstn (off - 1) items) in *. set (olds := skipn (off - 1) items) in *.
    assert (Hlast : In (last pre tmin) (tmin :: items) /\ cmp (last pre tmin) key < 0).
    { assert (Hsub : forall x, In x pre -> In x items).
      { intros x Hx. rewrite <- (firstn_skipn (off - 1) items). apply in_app_iff. left; exact Hx. }
      destruct pre as [|p0 pre0] using rev_ind; [simpl; auto|]. rewrite last_last.
      assert (Hin : In p0 (pre0 ++ [p0])) by (apply in_app_iff; right; left; reflexivity).
      split; [right; auto|]. rewrite Forall_forall in Hpre. auto. }
    specialize (Hroom (last pre tmin) (run_size sz tmin pre 0) (proj1 Hlast) (proj2 Hlast)).
    apply N.leb_le in Hroom.
    cbn [length]. replace (2 * (length olds + S (length btl)) + 2)%nat with
      (S (2 * (length olds + S (length btl)) + 1)) by lia.
    cbn [place_loop].
    assert (Hdone : forall oo w r ee, 
      match place_loop cmp sz (2 * (length olds + S (length btl)) + 1) rm bound oo btl key
              (sz key (last pre tmin) (run_size sz tmin pre 0))
              (leafFree tmin sz psz items - (sz key (last pre tmin) (run_size sz tmin pre 0 mod 8) - run_size sz tmin pre 0 mod 8)) false with
      | Some (w, rest, e) => Some (key :: w, rest, e) | None => None end = Some (w, r, ee) ->
      (length r < S (length btl))%nat).
    { intros oo w r ee.
      destruct (place_loop cmp sz _ rm bound oo btl _ _ _ false) as [[[w0 r0] e0]|] eqn:E; [|discriminate].
      intro H. injection H as <- <- <-. apply place_loop_merge in E as (used & Hu & _).
      rewrite Hu, app_length. lia. }
    destruct olds as [|o olds'] eqn:Eo.
    - rewrite Hroom.
      destruct rm.
      + match goal with |- match ?t with _ => _ end = _ -> _ => destruct t as [[[w r] ee]|] eqn:E end; [|discriminate].
        intro H. injection H as <- <- <-. eapply Hdone. exact E.
      + destruct Hbound as [|Hb]; [discriminate|]. apply (cmp_le_sym _ OK) in Hb.
        replace (0 <=? cmp bound key) with true by lia.
        match goal with |- match ?t with _ => _ end = _ -> _ => destruct t as [[[w r] ee]|] eqn:E end; [|discriminate].
        intro H. injection H as <- <- <-. eapply Hdone. exact E.
    - assert (Ho : 0 < cmp o key).
      { apply Forall_cons_iff in Hpost as [Hp _].
        assert (cmp o key <> 0).
        { apply Hnf. rewrite <- (firstn_skipn (off - 1) items). apply in_app_iff. right.
          change (skipn (off - 1) items) with (skipn (off - 1) items). fold olds. rewrite Eo. left; reflexivity. }
        lia. }
      replace (cmp o key <=? 0) with false by lia. rewrite Hroom.
      match goal with |- match ?t with _ => _ end = _ -> _ => destruct t as [[[w r] ee]|] eqn:E end; [|discriminate].
      intro H. injection H as <- <- <-. eapply Hdone. exact E.
  Qed.

  (** ** split *)
  Lemma split_at_app l : forall prev pos total a b,
    split_at sz l prev pos total = Some (a, b) -> l = a ++ b /\ a <> [].
  Proof.
    induction l as [|x r IH]; intros prev pos total a b; cbn [split_at]; [discriminate|].
    destruct (_ <? _)%N.
    - intro H. injection H as <- <-. split; [reflexivity|discriminate].
    - destruct (split_at sz r x _ total) as [[a' b']|] eqn:E; [|discriminate].
      intro H. injection H as <- <-. apply IH in E as [-> _]. split; [reflexivity|discriminate].
  Qed.

  Lemma split_at_some l : forall prev pos total, l <> [] ->
    (total / 2 < run_size sz prev l pos)%N -> exists r, split_at sz l prev pos total = Some r.
  Proof.
    induction l as [|x r IH]; intros prev pos total Hne Ht; [contradiction|].
    cbn [split_at]. cbn [run_size] in Ht. destruct (N.ltb_spec (total / 2) (sz x prev pos)); [eexists; reflexivity|].
    destruct r as [|y r]; [cbn [run_size] in Ht; lia|].
    destruct (IH x (sz x prev pos) total ltac:(discriminate) Ht) as [[a b] ->]. eexists; reflexivity.
  Qed.

  Lemma total_max_run l : forall prev total mx, fst (total_max sz prev l total mx) = run_size sz prev l total.
  Proof.
    induction l as [|x r IH]; intros prev total mx; cbn [total_max run_size]; [reflexivity|]. apply IH.
  Qed.

  Lemma append_fit_spec news : forall prev total mx u t,
    append_fit sz psz news prev total mx = (u, t) ->
    news = u ++ skipn (length u) news /\ t = run_size sz prev u total.
  Proof.
    induction news as [|n r IH]; intros prev total mx u t; cbn [append_fit].
    - intro H. injection H as <- <-. split; reflexivity.
    - destruct (_ <? _)%N.
      + destruct (append_fit sz psz r n _ _) as [u' t'] eqn:E. intro H. injection H as <- <-.
        apply IH in E as [E1 E2]. split; [simpl; f_equal; exact E1|exact E2].
      + intro H. injection H as <- <-. split; reflexivity.
  Qed.

  Lemma last_cons (l : list T) : forall x d, last (x :: l) d = last l x.
  Proof.
    induction l as [|y l IH]; intros x d; [reflexivity|].
    change (last (x :: y :: l) d) with (last (y :: l) d). rewrite !IH. reflexivity.
  Qed.

  Lemma run_size_app l1 : forall prev l2 pos,
    run_size sz prev (l1 ++ l2) pos = run_size sz (last l1 prev) l2 (run_size sz prev l1 pos).
  Proof.
    induction l1 as [|x r IH]; intros prev l2 pos; [reflexivity|].
    cbn [app run_size]. rewrite IH, last_cons. reflexivity.
  Qed.
End Place.
