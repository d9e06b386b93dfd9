(** Lemmas about the bitmap of row addresses (TidBitmap.v). *)
From Coq Require Import Lia ZifyN ZifyBool Permutation NArith List Bool.
From Verif Require Import Base TidBitmap.
Import ListNotations.
Local Open Scope N_scope.

Lemma lookup_set k e tab k' : pt_lookup k' (pt_set k e tab) = if k =? k' then Some e else pt_lookup k' tab.
Proof.
  unfold pt_lookup, pt_set. cbn [find fst]. destruct (N.eqb_spec k k') as [->|Hk]; [reflexivity|].
  f_equal. unfold pt_delete. induction tab as [|[q p] tab IH]; [reflexivity|]. cbn [filter fst find].
  destruct (N.eqb_spec q k) as [->|Hq]; cbn [negb find fst].
  - destruct (N.eqb_spec k k'); [congruence|exact IH].
  - destruct (q =? k'); [reflexivity|exact IH].
Qed.
Lemma lookup_delete k tab k' : pt_lookup k' (pt_delete k tab) = if k =? k' then None else pt_lookup k' tab.
Proof.
  unfold pt_lookup, pt_delete. induction tab as [|[q p] tab IH]; [destruct (k =? k'); reflexivity|]. cbn [filter fst find].
  destruct (N.eqb_spec q k) as [->|Hq]; cbn [negb find fst].
  - rewrite IH. destruct (N.eqb_spec k k'); reflexivity.
  - destruct (N.eqb_spec q k') as [->|]; [|exact IH]. destruct (N.eqb_spec k k'); [congruence|reflexivity].
Qed.
Lemma lookup_in k e tab : pt_lookup k tab = Some e -> In (k, e) tab.
Proof.
  unfold pt_lookup. destruct (find _ tab) as [[q p]|] eqn:E; [|discriminate]. cbn. intros [= <-].
  destruct (find_some _ _ E) as [Hi Hq]. cbn in Hq. apply N.eqb_eq in Hq. subst q. exact Hi.
Qed.
Lemma in_lookup k e tab : NoDup (map fst tab) -> In (k, e) tab -> pt_lookup k tab = Some e.
Proof.
  unfold pt_lookup. induction tab as [|[q p] tab IH]; [intros _ []|]. cbn [map fst find In]. intros Hn [[= -> ->]|Hi].
  - rewrite N.eqb_refl. reflexivity.
  - inversion Hn as [|? ? Hq Hn']; subst. destruct (N.eqb_spec q k) as [->|Hk]; [|exact (IH Hn' Hi)].
    exfalso. apply Hq. apply in_map_iff. exists (k, e). auto.
Qed.
Lemma in_delete_keys x k tab : In x (map fst (pt_delete k tab)) -> In x (map fst tab) /\ x <> k.
Proof.
  unfold pt_delete. rewrite !in_map_iff. intros ([q e] & <- & Hi). apply filter_In in Hi. destruct Hi as [Hi Hk].
  cbn in *. split; [exists (q, e); auto|]. destruct (N.eqb_spec q k); [discriminate|assumption].
Qed.
Lemma nodup_delete k tab : NoDup (map fst tab) -> NoDup (map fst (pt_delete k tab)).
Proof.
  unfold pt_delete. induction tab as [|[q p] tab IH]; [intros H; exact H|]. cbn [map fst filter]. intros Hn.
  inversion Hn as [|? ? Hq Hn']; subst. destruct (negb (q =? k)); [|exact (IH Hn')]. cbn [map fst]. constructor; [|exact (IH Hn')].
  intros Hi. apply (in_delete_keys q k tab) in Hi. tauto.
Qed.
Lemma nodup_set k e tab : NoDup (map fst tab) -> NoDup (map fst (pt_set k e tab)).
Proof.
  intros Hn. cbn [pt_set map fst]. constructor; [|apply nodup_delete; exact Hn]. intros Hi. apply in_delete_keys in Hi. tauto.
Qed.

(** The shortcuts of the code change nothing. *)
Lemma lossy_lookup t p : tbm_page_is_lossy t p =
  match pt_lookup (p - p mod PAGES_PER_CHUNK) (tb_tab t) with
  | Some e => pe_chunk e && N.testbit (pe_bits e) (p mod PAGES_PER_CHUNK) | None => false end.
Proof.
  unfold tbm_page_is_lossy. destruct (N.eqb_spec (nchunks t) 0) as [H0|]; [|reflexivity].
  destruct (pt_lookup _ _) as [e|] eqn:E; [|reflexivity]. destruct (pe_chunk e) eqn:Hc; [|reflexivity]. exfalso.
  apply lookup_in in E. unfold nchunks in H0.
  assert (In (p - p mod PAGES_PER_CHUNK, e) (filter (fun e => pe_chunk (snd e)) (tb_tab t))) as Hi by (apply filter_In; auto).
  destruct (filter _ _); [destruct Hi|cbn in H0; lia].
Qed.
Lemma find_lookup t p : tbm_find_pageentry t p =
  match pt_lookup p (tb_tab t) with Some e => if pe_chunk e then None else Some e | None => None end.
Proof.
  unfold tbm_find_pageentry. destruct (N.eqb_spec (nentries t) 0) as [H0|]; [|reflexivity].
  unfold nentries in H0. destruct (tb_tab t); [reflexivity|cbn in H0; lia].
Qed.

(** Well-formed table. *)
Definition tb_ok (t : tbm) : Prop :=
  NoDup (map fst (tb_tab t)) /\
  forall k e, pt_lookup k (tb_tab t) = Some e -> pe_chunk e = true -> k mod PAGES_PER_CHUNK = 0.
Definition exact_at (t : tbm) (p : N) (e : pentry) : Prop := pt_lookup p (tb_tab t) = Some e /\ pe_chunk e = false.
Definition mem (t : tbm) (tid : iptr) : Prop :=
  tbm_page_is_lossy t (blk tid) = true \/
  exists e, exact_at t (blk tid) e /\ N.testbit (pe_bits e) (off tid - 1) = true.

Lemma contains_mem t tid : fst (rum_tbm_contains_tid t tid) = true <-> mem t tid.
Proof.
  unfold rum_tbm_contains_tid, mem. rewrite find_lookup. destruct (tbm_page_is_lossy t (blk tid)); [cbn; split; auto|].
  destruct (pt_lookup (blk tid) (tb_tab t)) as [e|] eqn:E.
  - destruct (pe_chunk e) eqn:Hc; cbn.
    + split; [discriminate|]. intros [H|(e' & [H1 H2] & _)]; congruence.
    + split; [intros H; right; exists e; repeat split; assumption|]. intros [H|(e' & [H1 H2] & H3)]; congruence.
  - cbn. split; [discriminate|]. intros [H|(e' & [H1 H2] & _)]; congruence.
Qed.
Lemma contains_sure t tid : rum_tbm_contains_tid t tid = (true, false) ->
  exists e, exact_at t (blk tid) e /\ N.testbit (pe_bits e) (off tid - 1) = true.
Proof.
  unfold rum_tbm_contains_tid. rewrite find_lookup. destruct (tbm_page_is_lossy t (blk tid)); [discriminate|].
  destruct (pt_lookup (blk tid) (tb_tab t)) as [e|] eqn:E; [|discriminate].
  destruct (pe_chunk e) eqn:Hc; [discriminate|]. intros [= H]. exists e. repeat split; assumption.
Qed.

(** [t'] knows no more than [t], and loses no row. *)
Definition coarser (t t' : tbm) : Prop :=
  tb_ok t' /\ (forall tid, mem t tid -> mem t' tid) /\
  (forall p e, exact_at t' p e -> exact_at t p e).
Lemma coarser_refl t : tb_ok t -> coarser t t.
Proof. intros H. split; [exact H|]. split; auto. Qed.
Lemma coarser_trans a b c : coarser a b -> coarser b c -> coarser a c.
Proof. intros (H1 & H2 & H3) (H4 & H5 & H6). split; [assumption|]. split; auto. Qed.

Lemma chunk_base p : (p - p mod PAGES_PER_CHUNK) mod PAGES_PER_CHUNK = 0.
Proof.
  unfold PAGES_PER_CHUNK. pose proof (N.div_mod p 256 ltac:(lia)) as H.
  replace (p - p mod 256) with (p / 256 * 256) by lia. apply N.mod_mul. lia.
Qed.
Lemma base_self p : p mod PAGES_PER_CHUNK = 0 -> p - p mod PAGES_PER_CHUNK = p.
Proof. intros ->. lia. Qed.
Lemma setbit_1 n : N.testbit (N.setbit 1 n) 0 = true.
Proof. rewrite N.setbit_eqb. destruct (n =? 0); reflexivity. Qed.
Lemma base_eq p q : p - p mod PAGES_PER_CHUNK = q - q mod PAGES_PER_CHUNK -> p mod PAGES_PER_CHUNK = q mod PAGES_PER_CHUNK -> p = q.
Proof. unfold PAGES_PER_CHUNK. pose proof (N.mod_le p 256 ltac:(lia)). pose proof (N.mod_le q 256 ltac:(lia)). lia. Qed.

Lemma mark_lossy_spec t p : tb_ok t ->
  coarser t (tbm_mark_page_lossy t p) /\ tbm_page_is_lossy (tbm_mark_page_lossy t p) p = true.
Proof.
  intros [Hn Hc]. unfold tbm_mark_page_lossy.
  set (b := p mod PAGES_PER_CHUNK). set (c := p - b).
  set (tab := if b =? 0 then tb_tab t else pt_delete p (tb_tab t)).
  set (page := match pt_lookup c tab with None => mkPE true false 0 | Some q => if pe_chunk q then q else mkPE true false 1 end).
  assert (c mod PAGES_PER_CHUNK = 0) as Hcb by apply chunk_base.
  assert (forall k, pt_lookup k tab = if negb (b =? 0) && (p =? k) then None else pt_lookup k (tb_tab t)) as Htab.
  { intros k. unfold tab. destruct (b =? 0); cbn [negb andb]; [reflexivity|]. apply lookup_delete. }
  assert (pt_lookup c tab = pt_lookup c (tb_tab t)) as Hlc.
  { rewrite Htab. destruct (N.eqb_spec b 0) as [|Hb]; [reflexivity|]. cbn [negb andb]. destruct (N.eqb_spec p c) as [E|]; [|reflexivity].
    exfalso. rewrite <- E in Hcb. fold b in Hcb. contradiction. }
  assert (pe_chunk page = true) as Hpc.
  { unfold page. destruct (pt_lookup c tab) as [q|]; [|reflexivity]. destruct (pe_chunk q) eqn:E; [exact E|reflexivity]. }
  assert (NoDup (map fst tab)) as Hnt by (unfold tab; destruct (b =? 0); [exact Hn|apply nodup_delete; exact Hn]).
  set (np := mkPE (pe_chunk page) (pe_recheck page) (N.setbit (pe_bits page) b)).
  assert (tbm_page_is_lossy (mkTbm (pt_set c np tab) (tb_max t)) p = true) as Hlossy.
  { rewrite lossy_lookup. cbn [tb_tab]. fold b. fold c. rewrite lookup_set, N.eqb_refl. cbn [np pe_chunk pe_bits]. rewrite Hpc, N.setbit_eq. reflexivity. }
  split; [|exact Hlossy]. split; [|split].
  - split; [apply nodup_set; exact Hnt|]. cbn [tb_tab]. intros k e. rewrite lookup_set.
    destruct (N.eqb_spec c k) as [<-|Hk]; [intros _ _; exact Hcb|]. rewrite Htab. destruct (_ && _); [discriminate|]. apply Hc.
  - intros tid Hm. destruct (N.eq_dec (blk tid) p) as [Hp|Hp]; [left; rewrite Hp; exact Hlossy|].
    destruct Hm as [Hm|(e & [He1 He2] & Hb)].
    + left. revert Hm. rewrite !lossy_lookup. cbn [tb_tab]. rewrite lookup_set.
      set (cb := blk tid - blk tid mod PAGES_PER_CHUNK). destruct (N.eqb_spec c cb) as [E|E].
      * cbn [np pe_chunk pe_bits]. rewrite Hpc. unfold page. rewrite Hlc, E. destruct (pt_lookup cb (tb_tab t)) as [q|]; [|discriminate].
        destruct (pe_chunk q); [|discriminate]. cbn [andb]. intros Hq. rewrite N.setbit_eqb, Hq. apply orb_true_r.
      * rewrite Htab. destruct (negb (b =? 0) && (p =? cb)) eqn:Ec; [|tauto]. intros _. exfalso.
        apply andb_true_iff in Ec. destruct Ec as [E1 E2]. apply N.eqb_eq in E2. assert (p mod PAGES_PER_CHUNK = 0) as E3 by (rewrite E2; apply chunk_base).
        fold b in E3. rewrite E3 in E1. discriminate.
    + destruct (N.eq_dec c (blk tid)) as [E|E].
      * left. rewrite lossy_lookup. cbn [tb_tab]. rewrite <- E. rewrite (base_self c Hcb), lookup_set, N.eqb_refl. rewrite Hcb.
        cbn [np pe_chunk pe_bits]. rewrite Hpc. unfold page. rewrite Hlc, E, He1, He2. cbn [pe_bits andb]. apply setbit_1.
      * right. exists e. split; [|exact Hb]. split; [|exact He2]. cbn [tb_tab]. rewrite lookup_set.
        destruct (N.eqb_spec c (blk tid)); [contradiction|]. rewrite Htab. destruct (N.eqb_spec p (blk tid)); [congruence|]. rewrite andb_false_r. exact He1.
  - intros k e [H1 H2]. cbn [tb_tab] in H1. rewrite lookup_set in H1. destruct (N.eqb_spec c k) as [E|E].
    + injection H1 as <-. cbn [np pe_chunk] in H2. congruence.
    + rewrite Htab in H1. destruct (_ && _); [discriminate|]. split; assumption.
Qed.

Lemma lossify_loop_spec l : forall t, tb_ok t -> coarser t (lossify_loop l t).
Proof.
  induction l as [|p l IH]; intros t Ht; cbn [lossify_loop]; [apply coarser_refl; exact Ht|].
  destruct (pt_lookup p (tb_tab t)) as [e|]; [|apply IH; exact Ht]. destruct (pe_chunk e); [apply IH; exact Ht|].
  destruct (_ =? 0); [apply IH; exact Ht|]. destruct (mark_lossy_spec t p Ht) as [Hm _].
  destruct (_ <=? _); [exact Hm|]. eapply coarser_trans; [exact Hm|]. apply IH. apply Hm.
Qed.
Lemma coarser_tab t m : tb_ok t -> coarser t (mkTbm (tb_tab t) m).
Proof.
  intros H. split; [exact H|]. split; [|intros p e He; exact He].
  intros tid Hm. destruct Hm as [Hm|Hm]; [left|right; exact Hm]. rewrite lossy_lookup in *. exact Hm.
Qed.
Lemma lossify_spec visit t : tb_ok t -> coarser t (tbm_lossify visit t).
Proof.
  intros H. unfold tbm_lossify. pose proof (lossify_loop_spec (visit t) t H) as Hl.
  destruct (_ <? _); [|exact Hl]. eapply coarser_trans; [exact Hl|]. apply coarser_tab. apply Hl.
Qed.

(** Replacing one entry by one with more bits. *)
Lemma get_pageentry_spec t p t' e : tb_ok t -> tbm_get_pageentry t p = (t', e) ->
  tb_ok t' /\ pt_lookup p (tb_tab t') = Some e /\ tb_max t' = tb_max t /\
  (forall k, k <> p -> pt_lookup k (tb_tab t') = pt_lookup k (tb_tab t)) /\
  (pt_lookup p (tb_tab t) = Some e \/ pt_lookup p (tb_tab t) = None /\ e = mkPE false false 0).
Proof.
  intros Ht. unfold tbm_get_pageentry. destruct (pt_lookup p (tb_tab t)) as [q|] eqn:E; intros [= <- <-].
  - repeat split; auto; apply Ht.
  - cbn [tb_tab tb_max]. rewrite lookup_set, N.eqb_refl. split; [split|].
    + apply nodup_set. apply Ht.
    + cbn [tb_tab]. intros k e. rewrite lookup_set. destruct (N.eqb_spec p k); [intros [= <-]; discriminate|apply Ht].
    + repeat split; auto. intros k Hk. rewrite lookup_set. destruct (N.eqb_spec p k); [congruence|reflexivity].
Qed.

Lemma lossy_ext t t' : (forall k, pt_lookup k (tb_tab t') = pt_lookup k (tb_tab t)) -> forall p, tbm_page_is_lossy t' p = tbm_page_is_lossy t p.
Proof. intros H p. rewrite !lossy_lookup, H. reflexivity. Qed.

(** What a table after one update of the entry of page [p] holds.  [bit] may become set. *)
Lemma update_mem t t' p e e' : tb_ok t ->
  (forall k, k <> p -> pt_lookup k (tb_tab t') = pt_lookup k (tb_tab t)) ->
  pt_lookup p (tb_tab t') = Some e' ->
  (pt_lookup p (tb_tab t) = Some e \/ pt_lookup p (tb_tab t) = None /\ e = mkPE false false 0) ->
  pe_chunk e' = pe_chunk e -> (forall k, N.testbit (pe_bits e) k = true -> N.testbit (pe_bits e') k = true) ->
  forall tid, mem t tid -> mem t' tid.
Proof.
  intros Ht Hk Hp He Hc Hb tid [Hm|(q & [Hq1 Hq2] & Hq3)].
  - left. revert Hm. rewrite !lossy_lookup. set (c := blk tid - _). destruct (N.eq_dec c p) as [E|E].
    + rewrite E, Hp. destruct He as [He|[He _]]; rewrite He; [|discriminate]. rewrite Hc. destruct (pe_chunk e); [|discriminate]. cbn. apply Hb.
    + rewrite (Hk _ E). tauto.
  - right. destruct (N.eq_dec (blk tid) p) as [E|E].
    + exists e'. unfold exact_at. rewrite E, Hp. rewrite E in Hq1. destruct He as [He|[He _]]; rewrite He in Hq1; [|discriminate].
      injection Hq1 as <-. repeat split; [congruence|]. apply Hb. exact Hq3.
    + exists q. unfold exact_at. rewrite (Hk _ E). repeat split; assumption.
Qed.
Lemma update_ok t p e' : tb_ok t -> (pe_chunk e' = true -> p mod PAGES_PER_CHUNK = 0) ->
  tb_ok (mkTbm (pt_set p e' (tb_tab t)) (tb_max t)).
Proof.
  intros [Hn Hc] Hp. split; [apply nodup_set; exact Hn|]. cbn [tb_tab]. intros k e. rewrite lookup_set.
  destruct (N.eqb_spec p k) as [<-|]; [intros [= <-]; exact Hp|apply Hc].
Qed.

Lemma finish_spec visit a : tb_ok a -> coarser a (shrink visit a).
Proof. intros H. unfold shrink. destruct (_ <? _); [apply lossify_spec; exact H|apply coarser_refl; exact H]. Qed.

(** [holds t S sure]: the table covers [S], and what it has exactly, unflagged, is in [S]. *)
Definition covers (t : tbm) (S : iptr -> Prop) : Prop := forall tid, S tid -> mem t tid.
Definition tight (flagged : bool) (t : tbm) (S : iptr -> Prop) : Prop :=
  forall tid e, 1 <= off tid -> exact_at t (blk tid) e -> N.testbit (pe_bits e) (off tid - 1) = true ->
    (flagged = true -> pe_recheck e = false) -> S tid.
Lemma coarser_covers t t' S : coarser t t' -> covers t S -> covers t' S.
Proof. intros (_ & H & _) Hc tid Hs. apply H, Hc, Hs. Qed.
Lemma coarser_tight f t t' S : coarser t t' -> tight f t S -> tight f t' S.
Proof. intros (_ & _ & H) Ht tid e Ho He. apply Ht; auto. Qed.

Lemma add_spec visit f t S tid t' : tb_ok t -> covers t S -> tight f t S ->
  tbm_add_tuple visit t tid false = Some t' ->
  tb_ok t' /\ covers t' (fun x => S x \/ x = tid) /\ tight f t' (fun x => S x \/ x = tid).
Proof.
  intros Ht Hcov Hti. unfold tbm_add_tuple. destruct ((off tid <? 1) || (MAX_TUPLES_PER_PAGE <? off tid)) eqn:Eo; [discriminate|].
  assert (1 <= off tid) as Hoff by (apply orb_false_iff in Eo; destruct Eo as [E _]; apply N.ltb_ge in E; exact E). clear Eo.
  destruct (tbm_page_is_lossy t (blk tid)) eqn:El.
  { intros [= <-]. split; [exact Ht|]. split; [|intros x e H1 H2 H3 H4; left; exact (Hti x e H1 H2 H3 H4)].
    intros x [Hx| ->]; [apply Hcov; exact Hx|left; exact El]. }
  destruct (tbm_get_pageentry t (blk tid)) as [t1 e] eqn:Eg. destruct (get_pageentry_spec _ _ _ _ Ht Eg) as (H1 & H2 & H3 & H4 & H5).
  set (bit := if pe_chunk e then 0 else off tid - 1). rewrite orb_false_r.
  set (e' := mkPE (pe_chunk e) (pe_recheck e) (N.setbit (pe_bits e) bit)).
  set (t2 := mkTbm (pt_set (blk tid) e' (tb_tab t1)) (tb_max t1)). intros [= <-].
  assert (tb_ok t2) as Ht2 by (apply update_ok; [exact H1|]; intros Hch; apply (proj2 H1 _ _ H2); exact Hch).
  assert (forall k, k <> blk tid -> pt_lookup k (tb_tab t2) = pt_lookup k (tb_tab t)) as Hk.
  { intros k Hk. cbn [t2 tb_tab]. rewrite lookup_set. destruct (N.eqb_spec (blk tid) k); [congruence|]. apply H4. exact Hk. }
  assert (pt_lookup (blk tid) (tb_tab t2) = Some e') as Hp by (cbn [t2 tb_tab]; rewrite lookup_set, N.eqb_refl; reflexivity).
  assert (covers t2 (fun x => S x \/ x = tid)) as Hc2.
  { intros x [Hx| ->].
    - refine (update_mem t t2 (blk tid) e e' Ht Hk Hp H5 eq_refl _ x (Hcov x Hx)). intros k Hbk. cbn [e' pe_bits]. rewrite N.setbit_eqb, Hbk. apply orb_true_r.
    - destruct (pe_chunk e) eqn:Hch.
      + left. rewrite lossy_lookup. pose proof (proj2 H1 _ _ H2 Hch) as Hm. rewrite (base_self _ Hm), Hp, Hm. unfold e', bit. cbn [pe_chunk pe_bits]. rewrite ?Hch. cbn [andb]. apply N.setbit_eq.
      + right. exists e'. split; [split; [exact Hp|unfold e'; cbn [pe_chunk]; congruence]|]. unfold e', bit. cbn [pe_bits]. rewrite ?Hch. apply N.setbit_eq. }
  assert (tight f t2 (fun x => S x \/ x = tid)) as Hti2.
  { intros x q Hx [Hq1 Hq2] Hb Hf. destruct (N.eq_dec (blk x) (blk tid)) as [E|E].
    - rewrite E, Hp in Hq1. injection Hq1 as <-. cbn [e' pe_chunk pe_bits pe_recheck] in *. unfold bit in Hb. rewrite Hq2 in Hb.
      rewrite N.setbit_eqb in Hb. apply orb_true_iff in Hb. destruct Hb as [Hb|Hb].
      + right. apply N.eqb_eq in Hb. destruct x as [bx ox], tid as [bt ot]. cbn in *. f_equal; [exact E|lia].
      + left. destruct H5 as [H5|[_ He]]; [|rewrite He in Hb; discriminate]. apply (Hti x e Hx); [rewrite E; split; assumption|exact Hb|exact Hf].
    - left. rewrite (Hk _ E) in Hq1. apply (Hti x q Hx); [split; [exact Hq1|exact Hq2]|exact Hb|exact Hf]. }
  pose proof (finish_spec visit t2 Ht2) as Hfin. split; [apply Hfin|]. split; [eapply coarser_covers|eapply coarser_tight]; eassumption.
Qed.

Lemma add_page_spec visit f t S p : tb_ok t -> covers t S -> tight f t S ->
  let t' := tbm_add_page visit t p in
  tb_ok t' /\ covers t' (fun x => S x \/ blk x = p) /\ tight f t' S.
Proof.
  intros Ht Hc Hti t'. unfold t', tbm_add_page. destruct (mark_lossy_spec t p Ht) as [Hm Hl].
  set (t1 := tbm_mark_page_lossy t p) in *. assert (tb_ok t1) as H1 by apply Hm.
  pose proof (finish_spec visit t1 H1) as Hf. split; [apply Hf|]. split.
  - intros x [Hx|<-]; apply Hf; [apply Hm, Hc, Hx|left; exact Hl].
  - eapply coarser_tight; [exact Hf|]. eapply coarser_tight; [exact Hm|exact Hti].
Qed.

(** *** union *)
Lemma mark_fold_spec bits base ks : forall a, tb_ok a ->
  let a' := fold_left (fun a k => if N.testbit bits k then tbm_mark_page_lossy a (base + k) else a) ks a in
  coarser a a' /\ forall k, In k ks -> N.testbit bits k = true -> tbm_page_is_lossy a' (base + k) = true.
Proof.
  induction ks as [|k ks IH]; intros a Ha; cbn [fold_left]; [split; [apply coarser_refl; exact Ha|intros _ []]|].
  destruct (N.testbit bits k) eqn:Ek.
  - destruct (mark_lossy_spec a (base + k) Ha) as [Hm Hl]. destruct (IH _ (proj1 Hm)) as [H1 H2].
    split; [eapply coarser_trans; eassumption|]. intros q [<-|Hq] Hb; [|apply H2; assumption].
    destruct H1 as (_ & H1 & _). specialize (H1 (mkIp (base + k) 0) (or_introl Hl)). destruct H1 as [H1|(e & He & Hb')]; [exact H1|].
    exfalso. (* an exact entry cannot appear for a page that is lossy already *)
    destruct (IH _ (proj1 Hm)) as [(_ & _ & Hx) _]. cbn [blk] in He. apply Hx in He. destruct He as [He1 He2].
    revert Hl. rewrite lossy_lookup. cbn. clear - He1 He2 Ha Hm.
    intros Hl. unfold tbm_mark_page_lossy in He1. cbn [tb_tab] in He1. rewrite lookup_set in He1.
    destruct (N.eqb_spec (base + k - (base + k) mod PAGES_PER_CHUNK) (base + k)) as [E|E].
    + injection He1 as <-. cbn [pe_chunk] in He2. destruct (pt_lookup _ _) as [q|]; [destruct (pe_chunk q) eqn:Eq; cbn in He2; congruence|discriminate].
    + destruct (N.eqb_spec ((base + k) mod PAGES_PER_CHUNK) 0) as [E0|E0]; [rewrite E0 in E; lia|].
      rewrite lookup_delete, N.eqb_refl in He1. discriminate.
  - destruct (IH a Ha) as [H1 H2]. split; [exact H1|]. intros q [<-|Hq] Hb; [congruence|apply H2; assumption].
Qed.

(** Rows an entry of a table stands for. *)
Definition of_entry (p : N) (e : pentry) (x : iptr) : Prop :=
  if pe_chunk e then blk x - blk x mod PAGES_PER_CHUNK = p /\ N.testbit (pe_bits e) (blk x mod PAGES_PER_CHUNK) = true
  else blk x = p /\ N.testbit (pe_bits e) (off x - 1) = true.
Lemma in_chunk_bits k : k < 256 -> In k chunk_bits.
Proof. intros H. unfold chunk_bits. apply in_map_iff. exists (N.to_nat k). split; [lia|]. apply in_seq. lia. Qed.

Lemma union_page_spec visit f a S S' p e (T : iptr -> Prop) : tb_ok a -> covers a S -> tight f a S' ->
  (pe_chunk e = true -> p mod PAGES_PER_CHUNK = 0) ->
  (pe_chunk e = false -> forall x, 1 <= off x -> of_entry p e x -> (f = true -> pe_recheck e = false) -> T x) ->
  let a' := tbm_union_page visit a p e in
  tb_ok a' /\ covers a' (fun x => S x \/ of_entry p e x) /\ tight f a' (fun x => S' x \/ T x).
Proof.
  intros Ha Hc Hti Hpe HT a'. unfold a', tbm_union_page, of_entry in *. destruct (pe_chunk e) eqn:Hch.
  { specialize (Hpe eq_refl). destruct (mark_fold_spec (pe_bits e) p chunk_bits a Ha) as [H1 H2].
    set (a1 := fold_left _ _ _) in *. pose proof (finish_spec visit a1 (proj1 H1)) as Hf.
    split; [apply Hf|]. split.
    - intros x [Hx|[Hx1 Hx2]]; apply Hf; [apply H1, Hc, Hx|]. left.
      assert (blk x mod PAGES_PER_CHUNK < 256) as Hlt by (apply N.mod_upper_bound; discriminate).
      specialize (H2 _ (in_chunk_bits _ Hlt) Hx2). replace (p + blk x mod PAGES_PER_CHUNK) with (blk x) in H2; [exact H2|].
      rewrite <- Hx1. pose proof (N.mod_le (blk x) PAGES_PER_CHUNK ltac:(discriminate)). lia.
    - eapply coarser_tight; [exact Hf|]. eapply coarser_tight; [exact H1|]. intros x q H3 H4 H5 H6. left. exact (Hti x q H3 H4 H5 H6). }
  destruct (tbm_page_is_lossy a p) eqn:El.
  { split; [exact Ha|]. split; [|intros x q H3 H4 H5 H6; left; exact (Hti x q H3 H4 H5 H6)].
    intros x [Hx|[<- _]]; [apply Hc; exact Hx|left; exact El]. }
  destruct (tbm_get_pageentry a p) as [a1 ae] eqn:Eg. destruct (get_pageentry_spec _ _ _ _ Ha Eg) as (H1 & H2 & H3 & H4 & H5).
  set (ae' := if pe_chunk ae then mkPE true (pe_recheck ae) (N.setbit (pe_bits ae) 0)
              else mkPE false (pe_recheck ae || pe_recheck e) (N.lor (pe_bits ae) (pe_bits e))).
  set (a2 := mkTbm (pt_set p ae' (tb_tab a1)) (tb_max a1)).
  assert (pe_chunk ae' = pe_chunk ae) as Hcc by (unfold ae'; destruct (pe_chunk ae); reflexivity).
  assert (tb_ok a2) as Ha2 by (apply update_ok; [exact H1|]; rewrite Hcc; intros H; exact (proj2 H1 _ _ H2 H)).
  assert (forall k, k <> p -> pt_lookup k (tb_tab a2) = pt_lookup k (tb_tab a)) as Hk.
  { intros k Hk. cbn [a2 tb_tab]. rewrite lookup_set. destruct (N.eqb_spec p k); [congruence|]. apply H4. exact Hk. }
  assert (pt_lookup p (tb_tab a2) = Some ae') as Hp by (cbn [a2 tb_tab]; rewrite lookup_set, N.eqb_refl; reflexivity).
  assert (covers a2 (fun x => S x \/ (blk x = p /\ N.testbit (pe_bits e) (off x - 1) = true))) as Hc2.
  { intros x [Hx|[Hx1 Hx2]].
    - refine (update_mem a a2 p ae ae' Ha Hk Hp H5 Hcc _ x (Hc x Hx)). intros k Hbk. unfold ae'.
      destruct (pe_chunk ae); cbn [pe_bits]; [rewrite N.setbit_eqb, Hbk; apply orb_true_r|rewrite N.lor_spec, Hbk; reflexivity].
    - destruct (pe_chunk ae) eqn:Hca.
      + left. pose proof (proj2 H1 _ _ H2 Hca) as Hm. rewrite lossy_lookup, Hx1, (base_self _ Hm), Hp, Hm, Hcc. unfold ae'. cbn. apply N.setbit_eq.
      + right. exists ae'. rewrite Hx1. split; [split; [exact Hp|exact Hcc]|]. unfold ae'. cbn [pe_bits]. rewrite N.lor_spec, Hx2. apply orb_true_r. }
  assert (tight f a2 (fun x => S' x \/ T x)) as Hti2.
  { intros x q Hx [Hq1 Hq2] Hb Hfl. destruct (N.eq_dec (blk x) p) as [E|E].
    - rewrite E, Hp in Hq1. injection Hq1 as <-. assert (pe_chunk ae = false) as Hca by congruence. unfold ae' in *. rewrite Hca in Hb, Hfl. cbn [pe_bits pe_recheck] in *.
      rewrite N.lor_spec in Hb. apply orb_true_iff in Hb.
      assert (f = true -> pe_recheck ae = false /\ pe_recheck e = false) as Hfl' by (intros H; apply orb_false_iff; exact (Hfl H)).
      destruct Hb as [Hb|Hb].
      + left. destruct H5 as [H5|[_ He]]; [|rewrite He in Hb; discriminate].
        apply (Hti x ae Hx); [rewrite E; split; assumption|exact Hb|intros H; apply Hfl'; exact H].
      + right. apply (HT eq_refl x Hx); [split; [exact E|exact Hb]|intros H; apply Hfl'; exact H].
    - left. rewrite (Hk _ E) in Hq1. apply (Hti x q Hx); [split; [exact Hq1|exact Hq2]|exact Hb|exact Hfl]. }
  pose proof (finish_spec visit a2 Ha2) as Hfin. split; [apply Hfin|]. split; [eapply coarser_covers|eapply coarser_tight]; eassumption.
Qed.

Lemma covers_weaken t (S S' : iptr -> Prop) : (forall x, S' x -> S x) -> covers t S -> covers t S'.
Proof. intros H Hc x Hx. apply Hc, H, Hx. Qed.
Lemma tight_weaken f t (S S' : iptr -> Prop) : (forall x, S x -> S' x) -> tight f t S -> tight f t S'.
Proof. intros H Ht x e H1 H2 H3 H4. apply H. eapply Ht; eassumption. Qed.

Lemma union_fold_spec visit f (T : iptr -> Prop) : forall es a S S', tb_ok a -> covers a S -> tight f a S' ->
  (forall p e, In (p, e) es -> (pe_chunk e = true -> p mod PAGES_PER_CHUNK = 0) /\
    (pe_chunk e = false -> forall x, 1 <= off x -> of_entry p e x -> (f = true -> pe_recheck e = false) -> T x)) ->
  let a' := fold_left (fun a e => tbm_union_page visit a (fst e) (snd e)) es a in
  tb_ok a' /\ covers a' (fun x => S x \/ exists p e, In (p, e) es /\ of_entry p e x) /\ tight f a' (fun x => S' x \/ T x).
Proof.
  induction es as [|[p e] es IH]; intros a S S' Ha Hc Ht He; cbn [fold_left].
  - split; [exact Ha|]. split; [|eapply tight_weaken; [|exact Ht]; auto]. eapply covers_weaken; [|exact Hc]. intros x [Hx|(p & e & [] & _)]; exact Hx.
  - destruct (He p e (or_introl eq_refl)) as [H1 H2]. destruct (union_page_spec visit f a S S' p e T Ha Hc Ht H1 H2) as (H3 & H4 & H5).
    cbn [fst snd]. destruct (IH _ _ _ H3 H4 H5) as (H6 & H7 & H8); [intros q e' Hi; apply He; right; exact Hi|].
    split; [exact H6|]. split.
    + eapply covers_weaken; [|exact H7]. intros x [Hx|(q & e' & [[= <- <-]|Hi] & Hx)]; [left; left; exact Hx|left; right; exact Hx|right; exists q, e'; auto].
    + eapply tight_weaken; [|exact H8]. intros x [[Hx|Hx]|Hx]; auto.
Qed.

Lemma mem_entry t x : mem t x -> exists p e, pt_lookup p (tb_tab t) = Some e /\ of_entry p e x.
Proof.
  intros [Hm|(e & [H1 H2] & H3)].
  - rewrite lossy_lookup in Hm. destruct (pt_lookup _ _) as [e|] eqn:E in Hm; [|discriminate]. apply andb_true_iff in Hm. destruct Hm as [Hc Hb].
    eexists _, e. split; [exact E|]. unfold of_entry. rewrite Hc. auto.
  - exists (blk x), e. split; [exact H1|]. unfold of_entry. rewrite H2. auto.
Qed.

Lemma union_spec visit iterate f a b A A' B B' : (forall l, Permutation (iterate l) l) ->
  tb_ok a -> tb_ok b -> covers a A -> tight f a A' -> covers b B -> tight f b B' ->
  let t := tbm_union visit iterate a b in
  tb_ok t /\ covers t (fun x => A x \/ B x) /\ tight f t (fun x => A' x \/ B' x).
Proof.
  intros Hit Ha Hb Hca Hta Hcb Htb t. unfold t, tbm_union.
  destruct (union_fold_spec visit f B' (iterate (tb_tab b)) a A A' Ha Hca Hta) as (H1 & H2 & H3).
  - intros p e Hi. apply (Permutation_in _ (Hit _)) in Hi. apply (in_lookup _ _ _ (proj1 Hb)) in Hi. split.
    + intros Hc. exact (proj2 Hb _ _ Hi Hc).
    + intros Hc x Hx. unfold of_entry. rewrite Hc. intros [Hx1 Hx2] Hf. apply (Htb x e Hx); [rewrite Hx1; split; assumption|exact Hx2|exact Hf].
  - split; [exact H1|]. split; [|exact H3]. eapply covers_weaken; [|exact H2]. intros x [Hx|Hx]; [left; exact Hx|right].
    apply Hcb in Hx. destruct (mem_entry _ _ Hx) as (p & e & Hl & Ho). exists p, e. split; [|exact Ho].
    apply (Permutation_in _ (Permutation_sym (Hit _))). apply lookup_in. exact Hl.
Qed.

(** *** intersection *)
Lemma lookup_flat_map (g : N -> pentry -> option pentry) tab k : NoDup (map fst tab) ->
  pt_lookup k (flat_map (fun e => match g (fst e) (snd e) with Some p => [(fst e, p)] | None => [] end) tab) =
  match pt_lookup k tab with Some e => g k e | None => None end.
Proof.
  induction tab as [|[q e] tab IH]; [reflexivity|]. cbn [map fst]. intros Hn. inversion Hn as [|? ? Hq Hn']; subst. specialize (IH Hn').
  cbn [flat_map fst snd]. unfold pt_lookup in *. cbn [find fst]. destruct (N.eqb_spec q k) as [->|Hk]; cbn [option_map snd].
  - destruct (g k e) as [p|]; cbn [app find fst option_map snd]; [rewrite N.eqb_refl; reflexivity|]. rewrite IH.
    destruct (find _ tab) as [[q' e']|] eqn:Ef; [|reflexivity]. exfalso. apply Hq. destruct (find_some _ _ Ef) as [Hi Hb]. cbn in Hb. apply N.eqb_eq in Hb. subst q'.
    apply in_map_iff. exists (k, e'). auto.
  - destruct (g q e) as [p|]; cbn [app find fst]; [|exact IH]. destruct (N.eqb_spec q k); [contradiction|exact IH].
Qed.
Lemma keys_flat_map (g : N -> pentry -> option pentry) tab : NoDup (map fst tab) ->
  NoDup (map fst (flat_map (fun e => match g (fst e) (snd e) with Some p => [(fst e, p)] | None => [] end) tab)).
Proof.
  induction tab as [|[q e] tab IH]; [intros H; exact H|]. cbn [map fst flat_map snd]. intros Hn. inversion Hn as [|? ? Hq Hn']; subst.
  destruct (g q e) as [p|]; [|exact (IH Hn')]. cbn [app map fst]. constructor; [|exact (IH Hn')]. intros Hi. apply Hq.
  apply in_map_iff in Hi. destruct Hi as ([k p'] & Hk & Hi). cbn in Hk. subst k. apply in_flat_map in Hi. destruct Hi as ([k e'] & Hi & Hx).
  cbn [fst snd] in Hx. destruct (g k e'); [|destruct Hx]. destruct Hx as [[= <- <-]|[]]. apply in_map_iff. exists (k, e'). auto.
Qed.

Lemma clear_fold_spec (c : N -> bool) ks : forall w k,
  N.testbit (fold_left (fun w k => if c k then N.clearbit w k else w) ks w) k = N.testbit w k && negb (c k && existsb (N.eqb k) ks).
Proof.
  induction ks as [|q ks IH]; intros w k; cbn [fold_left existsb]; [rewrite andb_false_r; cbn; rewrite andb_true_r; reflexivity|].
  rewrite IH. destruct (N.eqb_spec k q) as [->|Hk]; cbn [orb].
  - destruct (c q) eqn:E; cbn [andb negb]; [rewrite N.clearbit_eq; destruct (existsb _ _); cbn; rewrite ?andb_true_r, ?andb_false_r; reflexivity|reflexivity].
  - destruct (c q); [|reflexivity]. rewrite (N.clearbit_neq w q k ltac:(congruence)). reflexivity.
Qed.
Lemma bits_nonzero w k : N.testbit w k = true -> (w =? 0) = false.
Proof. intros H. destruct (N.eqb_spec w 0) as [->|]; [rewrite N.bits_0 in H; discriminate|reflexivity]. Qed.

Lemma mem_find t x : mem t x -> tbm_page_is_lossy t (blk x) = false ->
  exists e, tbm_find_pageentry t (blk x) = Some e /\ exact_at t (blk x) e /\ N.testbit (pe_bits e) (off x - 1) = true.
Proof.
  intros [Hm|(e & [H1 H2] & H3)] Hl; [congruence|]. exists e. rewrite find_lookup, H1, H2. repeat split; assumption.
Qed.

Lemma intersect_spec a b A A' B B' : tb_ok a -> tb_ok b -> covers a A -> tight true a A' -> covers b B -> tight true b B' ->
  let t := tbm_intersect a b in
  tb_ok t /\ covers t (fun x => A x /\ B x) /\ tight true t (fun x => A' x /\ B' x).
Proof.
  intros Ha Hb Hca Hta Hcb Htb t.
  pose proof (lookup_flat_map (fun k e => tbm_intersect_page k e b) (tb_tab a)) as Hlk. cbv beta in Hlk.
  split; [split|split].
  - apply (keys_flat_map (fun k e => tbm_intersect_page k e b)). apply Ha.
  - intros k e. unfold t. cbn [tbm_intersect tb_tab]. rewrite Hlk by apply Ha. destruct (pt_lookup k (tb_tab a)) as [ae|] eqn:E; [|discriminate].
    intros Hi Hc. apply (proj2 Ha _ _ E). unfold tbm_intersect_page in Hi. destruct (pe_chunk ae); [reflexivity|].
    destruct (tbm_page_is_lossy b k); [injection Hi as <-; discriminate|]. destruct (tbm_find_pageentry b k) as [be|]; [|discriminate].
    destruct (_ =? 0); [discriminate|]. injection Hi as <-. discriminate.
  - intros x [Hx Hy]. apply Hca in Hx. apply Hcb in Hy. destruct (mem_entry _ _ Hx) as (p & e & Hl & Ho). unfold of_entry in Ho.
    destruct (pe_chunk e) eqn:Hc.
    + destruct Ho as [Hp Hbit]. left. rewrite lossy_lookup. unfold t. cbn [tbm_intersect tb_tab]. rewrite Hlk by apply Ha. rewrite Hp, Hl.
      unfold tbm_intersect_page. rewrite Hc. set (w := fold_left _ _ _).
      assert (N.testbit w (blk x mod PAGES_PER_CHUNK) = true) as Hw.
      { unfold w.
        rewrite (clear_fold_spec (fun k => N.testbit (pe_bits e) k && negb (tbm_page_is_lossy b (p + k)) && match tbm_find_pageentry b (p + k) with None => true | Some _ => false end)).
        rewrite Hbit. cbn [andb].
        replace (p + blk x mod PAGES_PER_CHUNK) with (blk x) by (rewrite <- Hp; pose proof (N.mod_le (blk x) PAGES_PER_CHUNK ltac:(discriminate)); lia).
        destruct (tbm_page_is_lossy b (blk x)) eqn:El; [reflexivity|]. destruct (mem_find _ _ Hy El) as (be & -> & _). reflexivity. }
      rewrite (bits_nonzero _ _ Hw). cbn [pe_chunk pe_bits andb]. exact Hw.
    + destruct Ho as [Hp Hbit]. right. unfold exact_at, t. cbn [tbm_intersect tb_tab]. rewrite Hlk by apply Ha. rewrite Hp, Hl.
      unfold tbm_intersect_page. rewrite Hc. rewrite <- Hp. destruct (tbm_page_is_lossy b (blk x)) eqn:El.
      * eexists. split; [split; reflexivity|]. exact Hbit.
      * destruct (mem_find _ _ Hy El) as (be & -> & _ & Hbb).
        assert (N.testbit (N.land (pe_bits e) (pe_bits be)) (off x - 1) = true) as Hw by (rewrite N.land_spec, Hbit, Hbb; reflexivity).
        rewrite (bits_nonzero _ _ Hw). eexists. split; [split; reflexivity|]. exact Hw.
  - intros x e Hx [He1 He2] Hbit Hf. specialize (Hf eq_refl). unfold t in He1. cbn [tbm_intersect tb_tab] in He1. rewrite Hlk in He1 by apply Ha.
    destruct (pt_lookup (blk x) (tb_tab a)) as [ae|] eqn:E; [|discriminate]. unfold tbm_intersect_page in He1.
    destruct (pe_chunk ae) eqn:Hc; [exfalso; revert He1; cbv zeta; generalize (fold_left (fun w k => if N.testbit (pe_bits ae) k && negb (tbm_page_is_lossy b (blk x + k)) && match tbm_find_pageentry b (blk x + k) with Some _ => false | None => true end then N.clearbit w k else w) chunk_bits (pe_bits ae)); intros w; destruct (w =? 0); intros He1; [discriminate He1|]; injection He1 as <-; discriminate He2|].
    destruct (tbm_page_is_lossy b (blk x)); [injection He1 as <-; discriminate|].
    rewrite find_lookup in He1. destruct (pt_lookup (blk x) (tb_tab b)) as [be|] eqn:Eb; [|discriminate]. destruct (pe_chunk be) eqn:Hcb'; [discriminate|].
    destruct (_ =? 0); [discriminate|]. injection He1 as <-. cbn [pe_bits pe_recheck] in *. rewrite N.land_spec in Hbit. apply andb_true_iff in Hbit.
    apply orb_false_iff in Hf. split.
    + apply (Hta x ae Hx); [split; assumption|apply Hbit|intros _; apply Hf].
    + apply (Htb x be Hx); [split; assumption|apply Hbit|intros _; apply Hf].
Qed.
