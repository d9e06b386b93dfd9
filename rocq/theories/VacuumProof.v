(** Proofs about Vacuum.v. *)
From Verif Require Import Base Ord OrdProof NBits Codec CodecSpec CodecProof LeafSpec LeafPage LeafCodec LeafCodecProof Vacuum.
From Coq Require Import NArith ZArith Lia List Bool ZifyBool ZifyNat ZifyN.
Import ListNotations.
Local Open Scope N_scope.

(** ** rewriting an item read from the list gives the same bytes *)
Lemma stored_write pos a d : datum_ok a d -> rumDatumWrite pos a (stored a d) = rumDatumWrite pos a d.
Proof.
  destruct a as [n|n al|al pk], d as [v|bs|f p]; cbn [datum_ok stored]; try reflexivity. destruct f; try reflexivity. intros _.
  destruct (pk && can_make_short (DVar V4U p)) eqn:E; [|reflexivity]. cbn [rumDatumWrite]. rewrite E. reflexivity.
Qed.
Lemma stored_place alt a pos it prev : item_ok alt a it -> rumPlaceToDataPageLeaf alt a pos (stored_item a it) prev = rumPlaceToDataPageLeaf alt a pos it prev.
Proof.
  intros (_ & _ & H). unfold rumPlaceToDataPageLeaf, stored_item. cbn [ip add]. destruct (add it) as [d|]; [|reflexivity].
  rewrite stored_write by exact H. reflexivity.
Qed.

Lemma write_app alt a l1 : forall l2 pos prev w1 w2, writePostingList alt a pos l1 prev = Some w1 ->
  writePostingList alt a (pos + nlen w1) l2 (match l1 with [] => prev | _ => ip (last l1 item_min) end) = Some w2 ->
  writePostingList alt a pos (l1 ++ l2) prev = Some (w1 ++ w2).
Proof.
  induction l1 as [|x l1 IH]; intros l2 pos prev w1 w2 H1 H2; cbn [writePostingList app] in *.
  - apply Some_inj in H1. subst w1. change (nlen []) with 0 in H2. rewrite N.add_0_r in H2. exact H2.
  - destruct (rumPlaceToDataPageLeaf alt a pos x prev) as [w|]; [|discriminate].
    destruct (writePostingList alt a (pos + nlen w) l1 (ip x)) as [ws|] eqn:E; [|discriminate]. apply Some_inj in H1. subst w1.
    rewrite nlen_app, N.add_assoc in H2. rewrite (IH l2 _ _ ws w2 E), app_assoc; [reflexivity|].
    destruct l1 as [|y l1]; exact H2.
Qed.

Section Vac.
  Variable alt : bool.
  Variable a : attr.
  Variable dead : iptr -> bool.
  Definition live (it : item datum) : bool := negb (dead (ip it)).
  Definition lastip (l : list (item datum)) : iptr := match l with [] => ip_min | _ => ip (last l item_min) end.

  Lemma lastip_snoc l x : lastip (l ++ [x]) = ip x.
  Proof. unfold lastip. rewrite last_last. destruct l; reflexivity. Qed.
  Lemma lastip_ok l : Forall (item_ok alt a) l -> ip_ok (lastip l).
  Proof.
    intro H. destruct l as [|x l]; [split; reflexivity|]. destruct (exists_last (l := x :: l)) as (l' & y & E); [discriminate|].
    rewrite E, lastip_snoc. rewrite E in H. apply Forall_app in H as [_ H]. apply Forall_cons_iff in H as [H _]. apply H.
  Qed.
  Lemma write_snoc l it w0 w : writePostingList alt a 0 l ip_min = Some w0 -> rumPlaceToDataPageLeaf alt a (nlen w0) it (lastip l) = Some w ->
    writePostingList alt a 0 (l ++ [it]) ip_min = Some (w0 ++ w).
  Proof.
    intros H1 H2. apply write_app; [exact H1|]. fold (lastip l). rewrite N.add_0_l. cbn [writePostingList]. rewrite H2. rewrite app_nil_r. reflexivity.
  Qed.

  (** invariant of the loop: [don] items read, [its] to come *)
  Lemma vacuum_loop_ok its : forall don w0 ws rest dst,
    Forall (item_ok alt a) (don ++ its) ->
    writePostingList alt a 0 don ip_min = Some w0 ->
    writePostingList alt a (nlen w0) its (lastip don) = Some ws ->
    match dst with
    | None => filter live don = don
    | Some d => writePostingList alt a 0 (filter live don) ip_min = Some d /\ filter live don <> don
    end ->
    exists dst', vacuum_loop alt a dead (length its) w0 (ws ++ rest) (lastip don) dst (lastip (filter live don)) (length (filter live don)) =
      Some (length (filter live (don ++ its)), dst') /\
      match dst' with
      | None => filter live (don ++ its) = don ++ its
      | Some d => writePostingList alt a 0 (filter live (don ++ its)) ip_min = Some d /\ filter live (don ++ its) <> don ++ its
      end.
  Proof.
    induction its as [|it its IH]; intros don w0 ws rest dst Hok H0 Hs Hd; cbn [length vacuum_loop].
    - exists dst. rewrite app_nil_r. auto.
    - cbn [writePostingList] in Hs. destruct (rumPlaceToDataPageLeaf alt a (nlen w0) it (lastip don)) as [w|] eqn:Ew; [|discriminate].
      destruct (writePostingList alt a (nlen w0 + nlen w) its (ip it)) as [ws'|] eqn:Ews; [|discriminate]. apply Some_inj in Hs. subst ws.
      assert (Hdon : Forall (item_ok alt a) don) by (apply Forall_app in Hok; apply Hok).
      assert (Hit : item_ok alt a it) by (rewrite Forall_forall in Hok; apply Hok; apply in_app_iff; right; left; reflexivity).
      rewrite <- app_assoc. rewrite (item_read_write alt a _ it _ w (ws' ++ rest) Hit (lastip_ok don Hdon) Ew).
      assert (Ef : firstn (length (w ++ ws' ++ rest) - length (ws' ++ rest)) (w ++ ws' ++ rest) = w).
      { rewrite app_length. replace (length w + length (ws' ++ rest) - length (ws' ++ rest))%nat with (length w) by lia.
        rewrite firstn_app, firstn_all, Nat.sub_diag. cbn [firstn]. apply app_nil_r. }
      rewrite Ef. change (ip (stored_item a it)) with (ip it).
      assert (Hok' : Forall (item_ok alt a) ((don ++ [it]) ++ its)) by (rewrite <- app_assoc; exact Hok).
      pose proof (write_snoc don it w0 w H0 Ew) as H0'.
      assert (Hs' : writePostingList alt a (nlen (w0 ++ w)) its (lastip (don ++ [it])) = Some ws') by (rewrite lastip_snoc, nlen_app; exact Ews).
      assert (Efi : filter live (don ++ [it]) = filter live don ++ (if dead (ip it) then [] else [it])).
      { rewrite filter_app. cbn [filter]. unfold live at 2. destruct (dead (ip it)); reflexivity. }
      assert (Hlen : (length (filter live don) <= length don)%nat).
      { clear. induction don as [|x l IH]; cbn [filter length]; [lia|]. destruct (live x); cbn [length]; lia. }
      replace (don ++ it :: its) with ((don ++ [it]) ++ its) by (rewrite <- app_assoc; reflexivity).
      destruct (dead (ip it)) eqn:Ed.
      + rewrite app_nil_r in Efi.
        specialize (IH (don ++ [it]) (w0 ++ w) ws' rest (Some (match dst with None => w0 | Some d => d end)) Hok' H0' Hs').
        rewrite lastip_snoc, Efi in IH. apply IH. split.
        * destruct dst as [d|]; [apply Hd|]. rewrite Hd. exact H0.
        * intro E. apply (f_equal (@length _)) in E. rewrite app_length in E. cbn [length] in E. lia.
      + destruct dst as [d|].
        * rewrite stored_place by exact Hit.
          destruct Hd as [Hd1 Hd2]. destruct (item_write_ok alt a (nlen d) it (lastip (filter live don)) Hit) as [w' Ew']. rewrite Ew'.
          specialize (IH (don ++ [it]) (w0 ++ w) ws' rest (Some (d ++ w')) Hok' H0' Hs').
          rewrite Efi, !lastip_snoc, app_length, Nat.add_1_r in IH. apply IH. split.
          -- apply write_snoc; assumption.
          -- intro E. apply app_inj_tail in E as [E _]. contradiction.
        * specialize (IH (don ++ [it]) (w0 ++ w) ws' rest None Hok' H0' Hs').
          rewrite Efi, !lastip_snoc, app_length, Nat.add_1_r in IH. apply IH. rewrite Hd. reflexivity.
  Qed.

  Lemma filter_same (l : list (item datum)) : filter live l = l <-> forall x, In x l -> dead (ip x) = false.
  Proof.
    induction l as [|x l IH]; cbn [filter In]; [split; auto; intros _ y []|]. unfold live at 1. destruct (dead (ip x)) eqn:E; cbn [negb].
    - split; [|intro H; specialize (H x (or_introl eq_refl)); congruence]. intro H.
      assert ((length (filter live l) <= length l)%nat).
      { clear. induction l as [|y l IH]; cbn [filter length]; [lia|]. destruct (live y); cbn [length]; lia. }
      apply (f_equal (@length _)) in H. cbn [length] in H. lia.
    - split; [intros H y [<-|Hy]; [exact E|]; injection H as H; apply IH; assumption|]. intro H. f_equal. apply IH. auto.
  Qed.

  Lemma vacuum_list_bytes rows src rest : Forall (item_ok alt a) rows -> writePostingList alt a 0 rows ip_min = Some src ->
    exists cleaned, rumVacuumPostingList alt a dead (src ++ rest) (length rows) = Some (length (filter live rows), cleaned) /\
      match cleaned with
      | None => filter live rows = rows
      | Some d => writePostingList alt a 0 (filter live rows) ip_min = Some d /\ filter live rows <> rows
      end.
  Proof.
    intros Hok Hw. destruct (vacuum_loop_ok rows [] [] src rest None Hok eq_refl Hw eq_refl) as (dst & H1 & H2). eauto.
  Qed.

  (** ** sizes *)
  Lemma sz_block_sub d1 d2 : d1 + d2 < 2 ^ 32 ->
    sz_block_loop (S (N.size_nat (d1 + d2))) (d1 + d2) <= sz_block_loop (S (N.size_nat d1)) d1 + sz_block_loop (S (N.size_nat d2)) d2.
  Proof.
    intro H.
    assert (Hpos : forall n v, 1 <= sz_block_loop (S n) v) by (intros; cbn [sz_block_loop]; destruct (_ <? _); lia).
    assert (K : forall m, m < 2 ^ 32 -> 0 < m -> forall s, s <= 2 * m -> sz_block_loop (S (N.size_nat s)) s <= 1 + sz_block_loop (S (N.size_nat m)) m).
    { intros m Hm Hm0 s Hs. pose proof (size_nat_pow7 m) as Hp.
      transitivity (sz_block_loop (S (S (N.size_nat m))) (128 * m)).
      - apply sz_block_mono; [lia| |lia]. rewrite pow7_step. eapply N.lt_le_trans; [apply N.mul_lt_mono_pos_l; [lia|exact Hp]|].
        apply N.mul_le_mono_l. apply N.pow_le_mono_r; lia.
      - remember (S (N.size_nat m)) as q. cbn [sz_block_loop]. unfold HIGHBIT. destruct (N.ltb_spec (128 * m) 0x80); [lia|].
        rewrite shiftr_7. replace (128 * m / 128) with m by (rewrite N.mul_comm, N.div_mul; lia). lia. }
    destruct (N.eq_dec d1 0) as [->|N1]; [specialize (Hpos (N.size_nat 0) 0); change (0 + d2) with d2; lia|].
    destruct (N.le_ge_cases d1 d2) as [L|L].
    - specialize (K d2 ltac:(lia) ltac:(lia) (d1 + d2) ltac:(lia)). specialize (Hpos (N.size_nat d1) d1). lia.
    - specialize (K d1 ltac:(lia) ltac:(lia) (d1 + d2) ltac:(lia)). specialize (Hpos (N.size_nat d2) d2). lia.
  Qed.
  Lemma ip_size_sub x q p : blk p <= blk q -> blk q <= blk x -> blk x < 2 ^ 32 ->
    rumDataPageLeafGetItemPointerSize x p <= rumDataPageLeafGetItemPointerSize q p + rumDataPageLeafGetItemPointerSize x q.
  Proof.
    intros H1 H2 H3. unfold rumDataPageLeafGetItemPointerSize.
    assert (E : forall u v, blk v <= blk u -> blk u < 2 ^ 32 -> sub32 (blk u) (blk v) = blk u - blk v).
    { intros u v Hv Hu. unfold sub32. change (2^32) with 4294967296 in *. lia. }
    rewrite (E x p), (E q p), (E x q) by lia.
    pose proof (sz_block_sub (blk q - blk p) (blk x - blk q)) as K.
    replace (blk q - blk p + (blk x - blk q)) with (blk x - blk p) in K by lia. specialize (K ltac:(lia)). lia.
  Qed.
  Hypothesis Hcfg : config_ok alt a.
  Notation sz := (rumCheckPlaceToDataPageLeaf alt a).
  Definition rising (p q : iptr) : Prop := alt = true \/ blk p <= blk q.
  Lemma attr_ok_cfg : attr_ok a.
  Proof. destruct Hcfg as [H _]. destruct a; cbn in *; auto. Qed.
  Lemma sz_mono x prev p q : item_ok alt a x -> p <= q -> sz x prev p <= sz x prev q.
  Proof.
    intros (_ & _ & Hd) H. unfold rumCheckPlaceToDataPageLeaf. destruct (add x) as [d|]; [|destruct alt; lia].
    apply datum_size_mono; [exact Hd|apply attr_ok_cfg|destruct alt; lia].
  Qed.
  (** dropping the item between [p] and [x] *)
  Lemma sz_drop x q p pos : item_ok alt a x -> item_ok alt a q -> rising p (ip q) -> rising (ip q) (ip x) ->
    sz x p pos <= sz x (ip q) (sz q p pos).
  Proof.
    intros Hx Hq Hpq Hqx.
    assert (Hq' : pos + (if alt then 6 else rumDataPageLeafGetItemPointerSize (ip q) p) <= sz q p pos).
    { destruct Hq as (_ & _ & Hd). unfold rumCheckPlaceToDataPageLeaf. destruct (add q) as [d|]; [|destruct alt; lia].
      pose proof (datum_size_ge a d (if alt then pos + 6 else pos + rumDataPageLeafGetItemPointerSize (ip q) p) Hd). destruct alt; lia. }
    transitivity (sz x (ip q) (pos + (if alt then 6 else rumDataPageLeafGetItemPointerSize (ip q) p))); [|apply sz_mono; assumption].
    unfold rumCheckPlaceToDataPageLeaf.
    assert (Hip : (if alt then pos + 6 else pos + rumDataPageLeafGetItemPointerSize (ip x) p) <=
                  (if alt then pos + (if alt then 6 else rumDataPageLeafGetItemPointerSize (ip q) p) + 6
                   else pos + (if alt then 6 else rumDataPageLeafGetItemPointerSize (ip q) p) + rumDataPageLeafGetItemPointerSize (ip x) (ip q))).
    { unfold rising in *. destruct alt; [lia|]. destruct Hx as ((Hb & _) & _). pose proof (ip_size_sub (ip x) (ip q) p). destruct Hpq, Hqx; try discriminate. lia. }
    destruct (add x) as [d|] eqn:Ed; [|exact Hip]. destruct Hx as (_ & _ & Hd). rewrite Ed in Hd. apply datum_size_mono; [exact Hd|apply attr_ok_cfg|exact Hip].
  Qed.
  Fixpoint chain (p : iptr) (l : list (item datum)) : Prop :=
    match l with [] => True | x :: r => rising p (ip x) /\ chain (ip x) r end.
  Lemma rising_trans p q r : rising p q -> rising q r -> rising p r.
  Proof. unfold rising. intros [H|H] [H'|H']; auto. right. lia. Qed.
  Lemma chain_weak p q l : rising p q -> chain q l -> chain p l.
  Proof. intros H. destruct l as [|x l]; cbn [chain]; [auto|]. intros [H1 H2]. split; [eapply rising_trans; eauto|exact H2]. Qed.
  Lemma size_mono l : forall p pos pos', Forall (item_ok alt a) l -> pos <= pos' -> postingListSize alt a l p pos <= postingListSize alt a l p pos'.
  Proof.
    induction l as [|x l IH]; intros p pos pos' H Hp; cbn [postingListSize]; [exact Hp|]. apply Forall_cons_iff in H as [Hx H].
    apply IH; [exact H|]. apply sz_mono; assumption.
  Qed.
  Lemma size_drop l : forall q p pos, Forall (item_ok alt a) l -> item_ok alt a q -> rising p (ip q) -> chain (ip q) l ->
    postingListSize alt a l p pos <= postingListSize alt a l (ip q) (sz q p pos).
  Proof.
    destruct l as [|x l]; intros q p pos H Hq Hr Hc; cbn [postingListSize chain] in *.
    - unfold rumCheckPlaceToDataPageLeaf. destruct Hq as (_ & _ & Hd). destruct (add q) as [d|]; [|destruct alt; lia].
      pose proof (datum_size_ge a d (if alt then pos + 6 else pos + rumDataPageLeafGetItemPointerSize (ip q) p) Hd). destruct alt; lia.
    - apply Forall_cons_iff in H as [Hx H]. destruct Hc as [Hc1 Hc]. apply size_mono; [exact H|]. apply sz_drop; assumption.
  Qed.
  Lemma filter_chain l : forall p, chain p l -> chain p (filter live l).
  Proof.
    induction l as [|x l IH]; intros p; cbn [chain filter]; [auto|]. intros [H1 H2]. specialize (IH _ H2). destruct (live x); cbn [chain]; [auto|].
    eapply chain_weak; eauto.
  Qed.
  Lemma filter_size l : forall p pos, Forall (item_ok alt a) l -> chain p l ->
    postingListSize alt a (filter live l) p pos <= postingListSize alt a l p pos.
  Proof.
    induction l as [|x l IH]; intros p pos H Hc; cbn [filter postingListSize]; [lia|]. apply Forall_cons_iff in H as [Hx H]. destruct Hc as [Hc1 Hc].
    destruct (live x); cbn [postingListSize]; [apply IH; assumption|].
    transitivity (postingListSize alt a (filter live l) (ip x) (sz x p pos)); [|apply IH; assumption].
    apply size_drop; [|exact Hx|exact Hc1|apply filter_chain; exact Hc]. apply Forall_forall. intros y Hy. apply filter_In in Hy as [Hy _].
    rewrite Forall_forall in H. auto.
  Qed.

  Lemma ssorted_chain cmpA l : ssorted (compareRumItem alt cmpA) l -> chain ip_min l.
  Proof.
    assert (K : forall l p, rising p (match l with [] => p | x :: _ => ip x end) -> ssorted (compareRumItem alt cmpA) l -> chain p l).
    { induction l0 as [|x l0 IH]; intros p Hp Hs; [exact I|]. cbn [chain]. split; [exact Hp|]. apply ssorted_inv in Hs as [Hs Hf].
      apply IH; [|exact Hs]. destruct l0 as [|y l0]; [right; lia|]. apply Forall_cons_iff in Hf as [Hf _].
      unfold rising. destruct alt; [auto|right]. unfold compareRumItem, rumCompareItemPointers in Hf.
      destruct (N.eqb_spec (blk (ip x)) (blk (ip y))); [lia|]. destruct (N.ltb_spec (blk (ip y)) (blk (ip x))); lia. }
    intro H. apply K; [|exact H]. destruct l; right; cbn; lia.
  Qed.

  (** ** the whole statement *)
  Lemma vacuum_list cmpA rows src rest : Forall (item_ok alt a) rows -> ssorted (compareRumItem alt cmpA) rows ->
    writePostingList alt a 0 rows ip_min = Some src ->
    exists cleaned, rumVacuumPostingList alt a dead (src ++ rest) (length rows) = Some (length (filter live rows), cleaned) /\
      match cleaned with
      | None => forall x, In x rows -> dead (ip x) = false
      | Some bytes =>
          (exists x, In x rows /\ dead (ip x) = true) /\ nlen bytes <= nlen src /\
          forall rest', exists rows', rumReadTuple alt a (length (filter live rows)) 0 (bytes ++ rest') ip_min = Some rows' /\
            map row_of rows' = map row_of (filter live rows)
      end.
  Proof.
    intros Hok Hs Hw. destruct (vacuum_list_bytes rows src rest Hok Hw) as (cleaned & H1 & H2). exists cleaned. split; [exact H1|].
    assert (Hokf : Forall (item_ok alt a) (filter live rows)).
    { apply Forall_forall. intros y Hy. apply filter_In in Hy as [Hy _]. rewrite Forall_forall in Hok. auto. }
    destruct cleaned as [bytes|]; [|apply filter_same; exact H2]. destruct H2 as [H2 H3]. split; [|split].
    - clear - H3. induction rows as [|x rows IH]; [cbn in H3; congruence|]. destruct (dead (ip x)) eqn:E; [exists x; split; [left; reflexivity|exact E]|].
      destruct IH as (y & Hy & Ey); [|exists y; split; [right; exact Hy|exact Ey]]. intro H. apply H3. cbn [filter]. unfold live at 1. rewrite E, H. reflexivity.
    - pose proof (filter_size rows ip_min 0 Hok (ssorted_chain cmpA rows Hs)) as Hsz.
      rewrite (posting_size_eq alt a _ _ _ _ Hok Hw), (posting_size_eq alt a _ _ _ _ Hokf H2) in Hsz. lia.
    - intro rest'. exists (map (stored_item a) (filter live rows)). split.
      + apply posting_read_write; auto. split; reflexivity.
      + rewrite map_map. apply map_ext. intro it. apply stored_row.
  Qed.

  Lemma filter_length_le (rows : list (item datum)) : (length (filter live rows) <= length rows)%nat.
  Proof. induction rows as [|x rows IH]; cbn [filter length]; [lia|]. destruct (live x); cbn [length]; lia. Qed.
  Lemma filter_length_same (rows : list (item datum)) : length (filter live rows) = length rows -> filter live rows = rows.
  Proof.
    induction rows as [|x rows IH]; [reflexivity|]. cbn [filter]. destruct (live x); cbn [length]; intro H; [f_equal; apply IH; lia|].
    pose proof (filter_length_le rows). lia.
  Qed.

  Lemma vacuum_stored rows src rest : Forall (item_ok alt a) rows -> writePostingList alt a 0 rows ip_min = Some src ->
    exists bytes, vacuumStored alt a dead (src ++ rest) (length rows) = Some (length (filter live rows), bytes) /\
      exists rows', rumReadTuple alt a (length (filter live rows)) 0 bytes ip_min = Some rows' /\
        map row_of rows' = map row_of (filter live rows).
  Proof.
    intros Hok Hw. destruct (vacuum_list_bytes rows src rest Hok Hw) as (cleaned & H1 & H2).
    assert (Hokf : Forall (item_ok alt a) (filter live rows)).
    { apply Forall_forall. intros y Hy. apply filter_In in Hy as [Hy _]. rewrite Forall_forall in Hok. auto. }
    assert (Hst : forall l, map row_of (map (stored_item a) l) = map row_of l).
    { intro l. rewrite map_map. apply map_ext. intro it. apply stored_row. }
    unfold vacuumStored. rewrite H1. destruct (Nat.eqb_spec (length (filter live rows)) (length rows)) as [E|E].
    - exists (src ++ rest). rewrite E, (filter_length_same _ E). split; [reflexivity|]. exists (map (stored_item a) rows). split; [|apply Hst].
      apply posting_read_write; auto. split; reflexivity.
    - destruct cleaned as [d|]; [|rewrite H2 in E; congruence]. destruct H2 as [H2 _]. exists d. split; [reflexivity|].
      exists (map (stored_item a) (filter live rows)). split; [|apply Hst]. rewrite <- (app_nil_r d). apply posting_read_write; auto. split; reflexivity.
  Qed.
End Vac.
