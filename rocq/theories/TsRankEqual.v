(** C43: the index and the operator compute the same distance. *)
From Coq Require Import QArith Qfield Lqa NArith ZArith Lia Bool List Permutation Sorted Arith.
From Verif Require Import Base Ord Codec PosCodec PosSpec PosProof Tsq TsqSpec TsqProof TsqPhrase TsqExec TsqExtract PropTsqProof TextSearch TextQuery TsRank TsRankSpec TsRankProof TsRankScore TsRankWords.
Import ListNotations.
Local Open Scope Z_scope.

(** ** Sums of covers depend on which covers are of one kind, only *)
Definition same_kinds {A B} (k1 : A -> Z) (k2 : B -> Z) (l1 : list A) (l2 : list B) : Prop :=
  forall i j a a' b b', nth_error l1 i = Some a -> nth_error l1 j = Some a' -> nth_error l2 i = Some b -> nth_error l2 j = Some b' -> (k1 a = k1 a' <-> k2 b = k2 b').
Lemma count_same {A B} (k1 : A -> Z) (k2 : B -> Z) x y (R : A -> B -> Prop) l1 l2 : Forall2 R l1 l2 -> (forall a b, R a b -> In a l1 -> In b l2 -> (k1 a = x <-> k2 b = y)) -> count_occ Z.eq_dec (map k1 l1) x = count_occ Z.eq_dec (map k2 l2) y.
Proof.
  induction 1 as [|a b l1 l2 H H2 IH]; intro Hk; [reflexivity|]. cbn [map count_occ]. rewrite IH by (intros; apply Hk; auto; right; assumption).
  destruct (Hk a b H (or_introl eq_refl) (or_introl eq_refl)) as [E1 E2]. destruct (Z.eq_dec (k1 a) x), (Z.eq_dec (k2 b) y); auto; tauto.
Qed.
Lemma windows_sum_same {A B} (k1 : A -> Z) (r1 : A -> Q) (k2 : B -> Z) (r2 : B -> Q) (R : A -> B -> Prop) (HR : forall a b, R a b -> (r1 a == r2 b)%Q) :
  forall l1 l2, Forall2 R l1 l2 -> forall s1 s2, Forall2 R s1 s2 -> (forall a b a' b', R a b -> R a' b' -> In a (s1 ++ l1) -> In a' (s1 ++ l1) -> In b (s2 ++ l2) -> In b' (s2 ++ l2) -> (k1 a = k1 a' <-> k2 b = k2 b')) ->
  (windows_sum k1 r1 (map k1 s1) l1 == windows_sum k2 r2 (map k2 s2) l2)%Q.
Proof.
  induction 1 as [|a b l1 l2 H H2 IH]; intros s1 s2 Hs Hk; cbn [windows_sum]; [reflexivity|].
  rewrite (count_same k1 k2 (k1 a) (k2 b) R s1 s2 Hs).
  - rewrite (HR a b H). specialize (IH (a :: s1) (b :: s2)). cbn [map] in IH. rewrite IH; [reflexivity|constructor; assumption|].
    intros; apply Hk; auto; repeat match goal with Hx : In _ ((_ :: _) ++ _) |- _ => cbn [app] in Hx; destruct Hx as [Hx|Hx]; [subst; apply in_or_app; right; left; reflexivity|apply in_app_iff in Hx as [Hx|Hx]; apply in_or_app; [left|right; right]; exact Hx] end.
    all: match goal with |- In ?x _ => idtac end.
    all: match goal with Hx : In ?x (?y :: _ ++ _) |- In ?x _ => destruct Hx as [Hx|Hx]; [subst; apply in_or_app; right; left; reflexivity|apply in_app_iff in Hx as [Hx|Hx]; apply in_or_app; [left|right; right]; exact Hx] end.
  - intros a0 b0 HR0 Ha Hb. apply Hk; auto; apply in_or_app; (left; assumption) || (right; left; reflexivity).
Qed.

(** ** Relabelled occurrences *)
Section Relabel.
  Variables (slot : nat -> nat) (q : tsq) (Hq : no_phrase q) (item : nat -> Prop).
  Hypothesis Hitem : placed (fun k _ => item k) 0 q.
  Hypothesis Hinj : forall i j, item i -> item j -> slot i = slot j -> i = j.
  (** Occurrence of the index [x], of the operator [y]. *)
  Definition twin (x y : docr) : Prop := exists i, item i /\ d_ops x = [slot i] /\ d_ops y = [i] /\ d_class x = d_class y /\ d_pos x = d_pos y.
  Definition twin_ops (a b : opdata) : Prop :=
    (forall i, item i -> isSome (a (slot i)) = isSome (b i)) /\ (forall j, isSome (a j) = true -> exists i, item i /\ j = slot i) /\ (forall i, isSome (b i) = true -> item i).
  Lemma twin_none : twin_ops no_ops no_ops.
  Proof. split; [reflexivity|]. split; intros ? H; discriminate. Qed.
  Lemma twin_mark (f g : docr -> opdata -> opdata) x y a b : (forall z o j, isSome (f z o j) = existsb (Nat.eqb j) (d_ops z) || isSome (o j)) -> (forall z o j, isSome (g z o j) = existsb (Nat.eqb j) (d_ops z) || isSome (o j)) ->
    twin x y -> twin_ops a b -> twin_ops (f x a) (g y b).
  Proof.
    intros Hf Hg (i & Hi & E1 & E2 & _) (T1 & T2 & T3). split; [|split].
    - intros k Hk. rewrite Hf, Hg, E1, E2, (T1 k Hk). cbn [existsb]. rewrite !orb_false_r. f_equal. destruct (Nat.eqb_spec (slot k) (slot i)) as [E|E], (Nat.eqb_spec k i) as [E'|E']; try congruence. destruct (E' (Hinj k i Hk Hi E)).
    - intros j H. rewrite Hf, E1 in H. cbn [existsb] in H. rewrite orb_false_r in H. apply orb_true_iff in H as [H|H]; [apply Nat.eqb_eq in H; exists i; auto|exact (T2 j H)].
    - intros j H. rewrite Hg, E2 in H. cbn [existsb] in H. rewrite orb_false_r in H. apply orb_true_iff in H as [H|H]; [apply Nat.eqb_eq in H; subst; exact Hi|exact (T3 j H)].
  Qed.
  Lemma evalb_placed skip P P' q' : forall i, placed (fun k _ => item k) i q' -> (forall k, item k -> P k = P' k) -> evalb skip P i q' = evalb skip P' i q'.
  Proof.
    induction q' as [o|a IH|l IHl r IHr|l IHl r IHr|n l IHl r IHr]; intros i H Hp; cbn [evalb placed] in *; auto; try (rewrite (IH (S i)) by auto; reflexivity);
      try (destruct H as [H1 H2]; rewrite (IHl _ H2 Hp), (IHr _ H1 Hp); reflexivity).
  Qed.
  Lemma twin_execute skip a b : twin_ops a b -> execute slot q skip a = execute (fun i => i) q skip b.
  Proof. intros (T1 & _). rewrite !execute_spec by exact Hq. apply evalb_placed; [exact Hitem|]. intros k Hk. apply T1. exact Hk. Qed.
  Lemma twin_up l1 l2 : Forall2 twin l1 l2 -> forall k a b, twin_ops a b -> upscan slot q k a l1 = upscan (fun i => i) q k b l2.
  Proof.
    induction 1 as [|x y l1 l2 H H2 IH]; intros k a b Ho; cbn [upscan]; [reflexivity|]. assert (Hm : twin_ops (markUp x a) (markUp y b)) by (apply twin_mark; auto; intros; apply markUp_isSome).
    rewrite (twin_execute true _ _ Hm). destruct (execute (fun i => i) q true (markUp y b)); [reflexivity|]. apply IH. exact Hm.
  Qed.
  Lemma twin_down k1 k2 l1 l2 : Forall2 twin l1 l2 -> forall k a b, twin_ops a b ->
    match downscan k1 slot q k a l1, downscan k2 (fun i => i) q k b l2 with Some (i, a'), Some (j, b') => i = j /\ twin_ops a' b' | None, None => True | _, _ => False end.
  Proof.
    induction 1 as [|x y l1 l2 H H2 IH]; intros k a b Ho; cbn [downscan]; [exact I|]. assert (Hm : twin_ops (markDown k1 x a) (markDown k2 y b)) by (apply twin_mark; auto; intros; apply markDown_isSome).
    rewrite (twin_execute false _ _ Hm). destruct (execute (fun i => i) q false (markDown k2 y b)); [auto|]. apply IH. exact Hm.
  Qed.
  Definition twin_cover (c1 c2 : cover) : Prop := c_begin c1 = c_begin c2 /\ c_end c1 = c_end c2 /\ c_p c1 = c_p c2 /\ c_q c1 = c_q c2 /\ twin_ops (c_ops c1) (c_ops c2).
  Lemma twin_pos l1 l2 : Forall2 twin l1 l2 -> forall k, d_pos (nth k l1 (mkDocr [] 0 0 0)) = d_pos (nth k l2 (mkDocr [] 0 0 0)).
  Proof. induction 1 as [|x y l1 l2 H H2 IH]; intros [|k]; cbn [nth]; auto. destruct H as (i & _ & _ & _ & _ & E). exact E. Qed.
  Lemma forall2_firstn {A B} (R : A -> B -> Prop) n : forall l1 l2, Forall2 R l1 l2 -> Forall2 R (firstn n l1) (firstn n l2).
  Proof. induction n as [|n IH]; intros l1 l2 H; cbn [firstn]; [constructor|]. destruct H; constructor; auto. Qed.
  Lemma forall2_skipn {A B} (R : A -> B -> Prop) n : forall l1 l2, Forall2 R l1 l2 -> Forall2 R (skipn n l1) (skipn n l2).
  Proof. induction n as [|n IH]; intros l1 l2 H; cbn [skipn]; [exact H|]. destruct H; [constructor|auto]. Qed.
  Lemma forall2_rev {A B} (R : A -> B -> Prop) l1 l2 : Forall2 R l1 l2 -> Forall2 R (rev l1) (rev l2).
  Proof. induction 1; cbn [rev]; [constructor|]. apply Forall2_app; [assumption|]. constructor; [assumption|constructor]. Qed.
  Lemma twin_Cover k1 k2 l1 l2 : Forall2 twin l1 l2 -> forall pos,
    match Cover k1 slot q pos l1, Cover k2 (fun i => i) q pos l2 with Some c1, Some c2 => twin_cover c1 c2 | None, None => True | _, _ => False end.
  Proof.
    induction 1 as [|x y l1 l2 H H2 IH]; intro pos; cbn [Cover]; [exact I|]. assert (Hall : Forall2 twin (x :: l1) (y :: l2)) by (constructor; assumption).
    rewrite (twin_up _ _ Hall pos _ _ twin_none). destruct (upscan (fun i => i) q pos no_ops (y :: l2)) as [last|]; [|exact I]. rewrite (twin_pos _ _ Hall). set (top := d_pos (nth (last - pos) (y :: l2) _)). destruct (top <=? 0); [exact I|].
    pose proof (twin_down k1 k2 _ _ (forall2_rev _ _ _ (forall2_firstn _ (S (last - pos)) _ _ Hall)) last _ _ twin_none) as Hd.
    destruct (downscan k1 slot q last no_ops _) as [[b1 o1]|], (downscan k2 (fun i => i) q last no_ops _) as [[b2 o2]|]; try destruct Hd; [|apply IH]. subst b2.
    rewrite (twin_pos _ _ Hall). destruct (_ <=? top); [|apply IH]. split; [reflexivity|]. split; [reflexivity|]. split; [reflexivity|]. split; [reflexivity|assumption].
  Qed.
  Lemma twin_loop k1 k2 l1 l2 : Forall2 twin l1 l2 -> forall fuel pos, Forall2 twin_cover (coverLoop k1 slot q fuel pos l1) (coverLoop k2 (fun i => i) q fuel pos l2).
  Proof.
    intro H. induction fuel as [|f IH]; intro pos; cbn [coverLoop]; [constructor|]. pose proof (twin_Cover k1 k2 _ _ (forall2_skipn _ pos _ _ H) pos) as Hc.
    destruct (Cover k1 slot q pos (skipn pos l1)) as [c1|], (Cover k2 (fun i => i) q pos (skipn pos l2)) as [c2|]; try destruct Hc; [|constructor]. constructor; [split; auto|]. rewrite H0. apply IH.
  Qed.
  Lemma forall2_len {A B} (R : A -> B -> Prop) l1 l2 : Forall2 R l1 l2 -> length l1 = length l2.
  Proof. induction 1; cbn [length]; congruence. Qed.
  Lemma twin_covers k1 k2 l1 l2 : Forall2 twin l1 l2 -> Forall2 twin_cover (covers k1 slot q l1) (covers k2 (fun i => i) q l2).
  Proof. intro H. unfold covers. rewrite (forall2_len _ _ _ H). apply twin_loop. exact H. Qed.
  (** *** ranks *)
  Variables (len1 len2 : nat).
  Hypothesis Hlen1 : forall i, item i -> (slot i < len1)%nat.
  Hypothesis Hlen2 : forall i, item i -> (i < len2)%nat.
  Lemma twin_nitems a b : twin_ops a b ->
    length (filter (fun j => match a j with Some _ => true | None => false end) (seq 0 len1)) = length (filter (fun j => match b j with Some _ => true | None => false end) (seq 0 len2)).
  Proof.
    intros (T1 & T2 & T3). set (L1 := filter _ (seq 0 len1)). set (L2 := filter _ (seq 0 len2)). rewrite <- (map_length slot L2). apply Permutation_length. apply NoDup_Permutation.
    - apply NoDup_filter, seq_NoDup.
    - assert (Hin : forall i, In i L2 -> item i) by (intros i Hi; apply filter_In in Hi as [_ Hi]; apply T3; unfold isSome; destruct (b i); [reflexivity|discriminate]).
      assert (Hnd : NoDup L2) by apply NoDup_filter, seq_NoDup. clearbody L2. induction Hnd as [|i L2 Hn Hnd IH]; cbn [map]; constructor; [|apply IH; intros; apply Hin; right; assumption].
      intro H. apply in_map_iff in H as (j & E & Hj). assert (j = i) by (apply Hinj; auto; apply Hin; [right; exact Hj|left; reflexivity]). subst. contradiction.
    - intro j. unfold L1, L2. rewrite filter_In, in_map_iff, in_seq. split.
      + intros [_ H]. destruct (T2 j) as (i & Hi & ->); [unfold isSome; destruct (a j); [reflexivity|discriminate]|]. exists i. split; [reflexivity|]. apply filter_In. split; [apply in_seq; specialize (Hlen2 i Hi); lia|].
        specialize (T1 i Hi). unfold isSome in T1. destruct (a (slot i)); [|discriminate]. destruct (b i); [reflexivity|discriminate].
      + intros (i & <- & Hi). apply filter_In in Hi as [_ H]. assert (Hit : item i) by (apply T3; unfold isSome; destruct (b i); [reflexivity|discriminate]). specialize (T1 i Hit). split; [specialize (Hlen1 i Hit); lia|].
        unfold isSome in T1. destruct (a (slot i)); [reflexivity|]. destruct (b i); discriminate.
  Qed.
  Lemma twin_inv l1 l2 : Forall2 twin l1 l2 -> invSum l1 = invSum l2.
  Proof. induction 1 as [|x y l1 l2 H H2 IH]; [reflexivity|]. cbn [invSum fold_right]. fold (invSum l1). fold (invSum l2). rewrite IH. destruct H as (i & _ & _ & _ & -> & _). reflexivity. Qed.
  Lemma twin_rank l1 l2 c1 c2 : Forall2 twin l1 l2 -> twin_cover c1 c2 -> coverRank len1 l1 c1 = coverRank len2 l2 c2.
  Proof.
    intros H (E1 & E2 & E3 & E4 & E5). unfold coverRank. rewrite E1, E2, E3, E4, (twin_nitems _ _ E5). rewrite (twin_inv _ _ (forall2_firstn _ (S (c_end c2 - c_begin c2)) _ _ (forall2_skipn _ (c_begin c2) _ _ H))). reflexivity.
  Qed.
  (** *** kinds of covers *)
  Lemma same_ops_key (w1 w2 : list docr) : (forall x y, In x w1 -> In y w2 -> d_ops x = d_ops y -> d_addr x = d_addr y) -> map d_ops w1 = map d_ops w2 -> coverKey w1 = coverKey w2.
  Proof.
    intros H E. unfold coverKey. generalize 0. revert w2 H E. induction w1 as [|x w1 IH]; intros [|y w2] H E z; try discriminate; [reflexivity|]. cbn [map] in E. injection E as E1 E2. cbn [fold_left].
    rewrite (H x y (or_introl eq_refl) (or_introl eq_refl) E1). apply IH; [|exact E2]. intros u v Hu Hv; apply H; right; assumption.
  Qed.
  Lemma twin_map_ops (w1 w1' w2 w2' : list docr) : Forall2 twin w1 w1' -> Forall2 twin w2 w2' -> (map d_ops w1 = map d_ops w2 <-> map d_ops w1' = map d_ops w2').
  Proof.
    intro H. revert w2 w2'. induction H as [|x y w1 w1' H H2 IH]; intros w2 w2' H'; destruct H' as [|x' y' w2 w2' H' H2']; cbn [map]; [split; auto|split; discriminate|split; discriminate|].
    specialize (IH _ _ H2'). destruct H as (i & Hi & E1 & E2 & _). destruct H' as (j & Hj & E1' & E2' & _). rewrite E1, E2, E1', E2'. split; intro E; injection E as Ei Et; [apply Hinj in Ei; auto|]; subst; f_equal; apply IH; exact Et.
  Qed.
  Lemma in_window_list (doc : list docr) b e x : In x (window doc b e) -> In x doc.
  Proof. unfold window. intro H. rewrite <- (firstn_skipn b doc). apply in_or_app. right. rewrite <- (firstn_skipn (S (e - b)) (skipn b doc)). apply in_or_app. left. exact H. Qed.
  Theorem twin_score l1 l2 k1 k2 method : Forall2 twin l1 l2 -> addr_by_ops l1 -> addr_by_ops l2 -> tells_apart l1 -> tells_apart l2 ->
    has method RANK_NORM_EXTDIST = false -> has method RANK_NORM_RDIVRPLUS1 = false ->
    (calc_score_docr k1 slot q len1 l1 method == calc_score_docr k2 (fun i => i) q len2 l2 method)%Q.
  Proof.
    intros H A1 A2 K1 K2 M1 M2. pose proof (twin_covers k1 k2 _ _ H) as Hc. unfold calc_score_docr. rewrite M1, M2. cbn [andb]. set (c1 := covers k1 slot q l1) in *. set (c2 := covers k2 (fun i => i) q l2) in *.
    rewrite (windows_fold (fun c => coverKey (window l1 (c_begin c) (c_end c))) (coverRank len1 l1) (fun c => c) (fun c => coverKey (firstn (S (c_end c - c_begin c)) (skipn (c_begin c) l1))) (coverRank len1 l1) c1) with (seen := []); [|intros c _; split; reflexivity|split; [constructor|split; [intros k n w []|reflexivity]]].
    rewrite (windows_fold (fun c => coverKey (window l2 (c_begin c) (c_end c))) (coverRank len2 l2) (fun c => c) (fun c => coverKey (firstn (S (c_end c - c_begin c)) (skipn (c_begin c) l2))) (coverRank len2 l2) c2) with (seen := []); [|intros c _; split; reflexivity|split; [constructor|split; [intros k n w []|reflexivity]]].
    rewrite !map_id. cbn [fold_right]. rewrite (windows_sum_same (fun c => coverKey (window l1 (c_begin c) (c_end c))) (coverRank len1 l1) (fun c => coverKey (window l2 (c_begin c) (c_end c))) (coverRank len2 l2) twin_cover) with (l2 := c2) (s1 := []) (s2 := []); [reflexivity| |exact Hc|constructor|].
    - intros a b Hab. rewrite (twin_rank _ _ _ _ H Hab). reflexivity.
    - intros a b a' b' (E1 & E2 & _) (E1' & E2' & _) _ _ _ _. rewrite E1, E2, E1', E2'. set (u := c_begin b). set (v := c_end b). set (u' := c_begin b'). set (v' := c_end b').
      assert (T : forall u v, Forall2 twin (window l1 u v) (window l2 u v)) by (intros; unfold window; apply forall2_firstn, forall2_skipn; exact H).
      split; intro E.
      + apply same_ops_key; [intros x y Hx Hy; apply A2; eapply in_window_list; eassumption|]. apply (twin_map_ops _ _ _ _ (T u v) (T u' v')). apply K1. exact E.
      + apply same_ops_key; [intros x y Hx Hy; apply A1; eapply in_window_list; eassumption|]. apply (twin_map_ops _ _ _ _ (T u v) (T u' v')). apply K2. exact E.
  Qed.
End Relabel.

(** ** Sorting without ties *)
Lemma sorted_unique (l : list docr) : forall l', Permutation l l' -> NoDup (map d_pos l) -> StronglySorted (fun x y => d_pos x <= d_pos y) l -> StronglySorted (fun x y => d_pos x <= d_pos y) l' -> l = l'.
Proof.
  induction l as [|x l IH]; intros l' Hp Hnd S1 S2; [apply Permutation_nil in Hp; auto|]. destruct l' as [|y l']; [apply Permutation_sym, Permutation_nil in Hp; discriminate|].
  inversion S1 as [|? ? S1' F1]; subst. inversion S2 as [|? ? S2' F2]; subst. rewrite Forall_forall in F1, F2. cbn [map] in Hnd. inversion Hnd as [|? ? N1 N2]; subst.
  assert (E : x = y).
  { pose proof (Permutation_in x Hp (or_introl eq_refl)) as [E|Hx]; [auto|]. pose proof (Permutation_in y (Permutation_sym Hp) (or_introl eq_refl)) as [E|Hy]; [auto|]. exfalso. apply N1. apply in_map_iff. exists y. split; [|exact Hy]. specialize (F1 _ Hy). specialize (F2 _ Hx). lia. }
  subst y. f_equal. apply IH; auto. exact (Permutation_cons_inv Hp).
Qed.
Lemma forall2_perm {A B} (R : A -> B -> Prop) l2 l2' : Permutation l2 l2' -> forall l1, Forall2 R l1 l2 -> exists l1', Permutation l1 l1' /\ Forall2 R l1' l2'.
Proof.
  induction 1 as [|y l l' Hp IH|y z l|l l' l'' H1 IH1 H2 IH2]; intros l1 H.
  - inversion H; subst. exists []. split; constructor.
  - inversion H as [|x ? t ? Hx Ht]; subst. destruct (IH _ Ht) as (t' & H1 & H2). exists (x :: t'). split; constructor; assumption.
  - inversion H as [|x ? t ? Hx Ht]; subst. inversion Ht as [|x' ? t' ? Hx' Ht']; subst. exists (x' :: x :: t'). split; [constructor|]. constructor; [assumption|constructor; assumption].
  - destruct (IH1 _ H) as (t & H3 & H4). destruct (IH2 _ H4) as (t' & H5 & H6). exists t'. split; [eapply Permutation_trans; eassumption|exact H6].
Qed.
Lemma forall2_sorted {A} (R : docr -> A -> Prop) (p : A -> Z) l1 l2 : (forall x y, R x y -> d_pos x = p y) -> Forall2 R l1 l2 -> StronglySorted (fun x y => p x <= p y) l2 -> StronglySorted (fun x y => d_pos x <= d_pos y) l1.
Proof.
  intros HR H. induction H as [|x y l1 l2 H H2 IH]; intro S; [constructor|]. inversion S as [|? ? S' F]; subst. constructor; [apply IH; exact S'|]. rewrite Forall_forall in *. intros z Hz.
  assert (exists u, In u l2 /\ R z u) as (u & Hu & Hzu). { clear - H2 Hz. induction H2 as [|a b l1 l2 Hab H2 IH]; [destruct Hz|]. destruct Hz as [->|Hz]; [exists b; split; [left; reflexivity|exact Hab]|]. destruct (IH Hz) as (u & H1 & H3). exists u. split; [right; exact H1|exact H3]. }
  rewrite (HR _ _ H), (HR _ _ Hzu). apply F. exact Hu.
Qed.
Lemma twin_sorted qsortD slot item l1 l2 : sorts_docr qsortD -> Forall2 (twin slot item) l1 l2 -> NoDup (map d_pos l1) -> Forall2 (twin slot item) (qsortD l1) (qsortD l2).
Proof.
  intros Hsort H Hnd. destruct (Hsort l1) as [P1 S1]. destruct (Hsort l2) as [P2 S2]. destruct (forall2_perm _ _ _ P2 _ H) as (l & Hp & Hl).
  assert (S : StronglySorted (fun x y => d_pos x <= d_pos y) l) by (apply (forall2_sorted (twin slot item) d_pos l (qsortD l2)); [intros x y (i & _ & _ & _ & _ & E); exact E|exact Hl|exact S2]).
  replace (qsortD l1) with l; [exact Hl|]. apply sorted_unique; [|eapply Permutation_NoDup; [apply Permutation_map; exact Hp|exact Hnd]|exact S|exact S1]. eapply Permutation_trans; [apply Permutation_sym; exact Hp|exact P1].
Qed.

(** ** The two lists of occurrences *)
Lemma once_items q : words_once q -> forall i j o o', nth_error (items q) i = Some (Some o) -> nth_error (items q) j = Some (Some o') -> o_word o = o_word o' -> i = j.
Proof.
  unfold words_once, operands. generalize (items q). intro l. induction l as [|x l IH]; intros Hnd i j o o' Hi Hj E; [destruct i; discriminate|].
  assert (G : forall k u, nth_error l k = Some (Some u) -> In (o_word u) (map o_word (flat_map (fun x => match x with Some o => [o] | None => [] end) l))) by (intros k u Hk; apply in_map, in_flat_map; exists (Some u); split; [exact (nth_error_In _ _ Hk)|left; reflexivity]).
  destruct x as [u|]; cbn [flat_map app map] in Hnd.
  - inversion Hnd as [|? ? N1 N2]; subst. destruct i as [|i], j as [|j]; cbn [nth_error] in *; [reflexivity| | |f_equal; eapply IH; eassumption].
    + injection Hi as ->. exfalso. apply N1. rewrite E. exact (G _ _ Hj).
    + injection Hj as ->. exfalso. apply N1. rewrite <- E. exact (G _ _ Hi).
  - destruct i as [|i], j as [|j]; cbn [nth_error] in *; try discriminate. f_equal. eapply IH; eassumption.
Qed.
Lemma single_list {A} (l : list A) a : NoDup l -> l <> [] -> (forall x, In x l -> x = a) -> l = [a].
Proof.
  intros Hnd Hne H. destruct l as [|x [|y l]]; [congruence|rewrite (H x (or_introl eq_refl)); reflexivity|]. exfalso. inversion Hnd as [|? ? N _]; subst. apply N. rewrite (H x (or_introl eq_refl)), (H y (or_intror (or_introl eq_refl))). left. reflexivity.
Qed.
Lemma sorted_positions_equal l1 : forall l2, (forall e, In e l1 <-> In e l2) -> StronglySorted (fun p q => (position p < position q)%N) l1 -> StronglySorted (fun p q => (position p < position q)%N) l2 -> l1 = l2.
Proof.
  induction l1 as [|x l1 IH]; intros [|y l2] H S1 S2; [reflexivity|exfalso; apply (proj2 (H y)); left; reflexivity|exfalso; apply (proj1 (H x)); left; reflexivity|].
  inversion S1 as [|? ? S1' F1]; subst. inversion S2 as [|? ? S2' F2]; subst. rewrite Forall_forall in F1, F2.
  assert (E : x = y). { destruct (proj1 (H x) (or_introl eq_refl)) as [E|Hx]; [auto|]. destruct (proj2 (H y) (or_introl eq_refl)) as [E|Hy]; [auto|]. specialize (F1 _ Hy). specialize (F2 _ Hx). lia. }
  subst y. f_equal. apply IH; auto. intro e. split; intro He.
  - destruct (proj1 (H e) (or_intror He)) as [E|Hx]; [|exact Hx]. subst e. specialize (F1 _ He). lia.
  - destruct (proj2 (H e) (or_intror He)) as [E|Hx]; [|exact Hx]. subst e. specialize (F2 _ He). lia.
Qed.
Lemma mask_one k e : right_weight (mkOp [] (2 ^ k) false) e <-> weight e = k.
Proof.
  unfold right_weight. cbn [o_weight]. split.
  - intros [H|H]; [exfalso; revert H; apply N.pow_nonzero; lia|]. destruct (N.eq_dec (weight e) k) as [E|E]; [exact E|]. rewrite N.pow2_bits_false in H by congruence. discriminate.
  - intros <-. right. apply N.pow2_bits_true.
Qed.
Lemma decoded_exact d w l present bs : valid_doc d -> In (w, Some l) d -> (forall wt, reports d (mkOp w wt false) present (Some bs)) -> present = true /\ decoded bs = l.
Proof.
  intros Hv Hin Hr. assert (Hp : present = true) by (apply (Hr 0%N); exists w, (Some l); split; [exact Hin|reflexivity]). split; [exact Hp|].
  destruct (Hr 0%N) as [_ H0]. destruct (H0 Hp) as [_ H1]. destruct (H1 bs eq_refl) as (l' & E & _ & _ & S & _). unfold decoded. rewrite E.
  assert (Hu : forall ps, In (w, ps) d -> ps = Some l). { intros ps H. destruct Hv as [Hnd _]. clear - Hnd Hin H. induction d as [|[w0 p0] d IH]; [destruct H|]. cbn [map fst] in Hnd. inversion Hnd as [|? ? N1 N2]; subst.
    destruct Hin as [E|Hin], H as [E'|H]; [congruence| | |auto]; exfalso; apply N1; [injection E as -> ->; apply in_map_iff; exists (w, ps)|injection E' as -> ->; apply in_map_iff; exists (w, Some l)]; auto. }
  apply sorted_positions_equal; [|exact S|].
  - intro e. destruct (Hr (2 ^ weight e)%N) as [_ H2]. destruct (H2 Hp) as [_ H3]. destruct (H3 bs eq_refl) as (l2 & E2 & _ & _ & _ & Ho). rewrite E in E2. injection E2 as <-.
    assert (Dec : forall e', Z.of_N (position e') = Z.of_N (position e) -> weight e' = weight e -> e' = e) by (intros e' Ep Ew; unfold position, weight in *; rewrite (N.div_mod e' 16384), (N.div_mod e 16384) by lia; rewrite Ew; f_equal; lia).
    assert (Ha : asks_for (mkOp w (2 ^ weight e) false) w) by reflexivity.
    split; intro He.
    + destruct (proj1 (Ho (Z.of_N (position e)))) as (w' & lw & e' & G1 & G2 & G3 & G4 & G5); [exists e; split; [exact He|]; split; [apply (mask_one (weight e) e); reflexivity|reflexivity]|]. unfold asks_for in G2. cbn in G2. subst w'. specialize (Hu _ G1). injection Hu as ->.
      apply (mask_one (weight e) e') in G4. rewrite <- (Dec e'); auto.
    + destruct (proj2 (Ho (Z.of_N (position e)))) as (e' & G1 & G2 & G3); [exists w, l, e; split; [exact Hin|]; split; [exact Ha|]; split; [exact He|]; split; [apply (mask_one (weight e) e); reflexivity|reflexivity]|].
      apply (mask_one (weight e) e') in G2. rewrite <- (Dec e'); auto.
  - destruct Hv as [_ Hv]. destruct (Hv _ _ Hin) as ((_ & Hs) & _). exact Hs.
Qed.
Lemma nodup_parts {A} (a b : list A) : NoDup (a ++ b) -> NoDup a /\ NoDup b.
Proof.
  induction a as [|x a IH]; cbn [app]; intro H; [split; [constructor|exact H]|]. inversion H as [|? ? N1 N2]; subst. destruct (IH N2) as [H1 H2]. split; [|exact H2]. constructor; [|exact H1]. intro Hx. apply N1. apply in_or_app. left. exact Hx.
Qed.
Section Lists.
  Variables (itemAddr alloc : nat -> Z) (m : list nat) (check : list bool) (add : list (option (list byte))) (d : document) (q : tsq).
  Variables (Hv : valid_doc d) (Hd : words_ascend d) (Hpos : positioned d q) (Hnp : no_prefix q) (Honce : words_once q).
  Definition item (k : nat) : Prop := exists o, nth_error (items q) k = Some (Some o).
  Variable (Hinj : forall i j, item i -> item j -> nth i m O = nth j m O -> i = j).
  Variable (Hrep : forall k o wt, nth_error (items q) k = Some (Some o) -> reports d (mkOp (o_word o) wt false) (nth (nth k m O) check false) (nth (nth k m O) add None)).
  Lemma same_one k o : nth_error (items q) k = Some (Some o) -> sameItems (items q) o = [k].
  Proof.
    intro Hk. apply single_list; [apply NoDup_filter, seq_NoDup| |].
    - intro E. assert (H : In k (sameItems (items q) o)) by (apply sameItems_in; exists o; auto). rewrite E in H. destruct H.
    - intros j Hj. apply sameItems_in in Hj as (o' & H1 & H2). exact (once_items q Honce _ _ _ _ H1 Hk H2).
  Qed.
  Lemma item_prefix k o : nth_error (items q) k = Some (Some o) -> o_prefix o = false.
  Proof. intro H. apply Hnp. apply in_items. exact (nth_error_In _ _ H). Qed.
  (** What a single operand gives. *)
  Lemma one_operand k o : nth_error (items q) k = Some (Some o) ->
    (find_wordentry d o = None /\ nth (nth k m O) check false = false) \/
    exists l f n bs, find_wordentry d o = Some (f, n) /\ firstn n (skipn f d) = [(o_word o, Some l)] /\ l <> [] /\ In (o_word o, Some l) d /\ nth (nth k m O) check false = true /\ nth (nth k m O) add None = Some bs /\ decoded bs = l.
  Proof.
    intro Hk. pose proof (item_prefix _ _ Hk) as Hp. pose proof (find_spec d Hd o) as Hf. pose proof (fun wt => Hrep k o wt Hk) as Hr. assert (Hask : forall w, asks_for o w <-> w = o_word o) by (intro w; unfold asks_for; rewrite Hp; reflexivity).
    assert (Hask' : forall wt w, asks_for (mkOp (o_word o) wt false) w <-> w = o_word o) by (intros; reflexivity).
    destruct (find_wordentry d o) as [[f n]|].
    - right. destruct Hf as [H1 H2]. assert (Hne : firstn n (skipn f d) <> []) by (intro E; rewrite E in H1; cbn in H1; lia). destruct (firstn n (skipn f d)) as [|[w ps] t] eqn:Ef; [congruence|].
      destruct (proj1 (H2 (w, ps)) (or_introl eq_refl)) as [Hin Ha]. cbn [fst] in Ha. apply Hask in Ha. subst w. destruct ps as [l|]; [|exfalso; apply (Hpos o); [apply in_items; exact (nth_error_In _ _ Hk)|exists (o_word o); split; [exact Hin|apply Hask; reflexivity]]].
      destruct Hv as [Hnd Hv']. destruct (Hv' _ _ Hin) as (_ & Hl & _). assert (Hsel : (o_word o, Some l) :: t = [(o_word o, Some l)]).
      { apply single_list; [|discriminate|].
        - rewrite <- Ef. assert (Hd' : NoDup d) by (apply (NoDup_map_inv fst); exact Hnd). rewrite <- (firstn_skipn f d) in Hd'. apply nodup_parts in Hd' as [_ Hd']. rewrite <- (firstn_skipn n (skipn f d)) in Hd'. apply nodup_parts in Hd' as [Hd' _]. exact Hd'.
        - intros [w' ps'] H. apply H2 in H as [H3 H4]. cbn [fst] in H4. apply Hask in H4. subst w'. f_equal. clear - Hnd Hin H3. induction d as [|[w0 p0] d' IH]; [destruct H3|]. cbn [map fst] in Hnd. inversion Hnd as [|? ? N1 N2]; subst.
          destruct Hin as [E|Hin], H3 as [E'|H3]; [congruence| | |auto]; exfalso; apply N1; [injection E as -> ->; apply in_map_iff; exists (o_word o, ps')|injection E' as -> ->; apply in_map_iff; exists (o_word o, Some l)]; auto. }
      assert (Hc : nth (nth k m O) check false = true) by (apply (Hr 0%N); exists (o_word o), (Some l); split; [exact Hin|apply Hask'; reflexivity]).
      destruct (nth (nth k m O) add None) as [bs|] eqn:Ea; [|exfalso; destruct (Hr 0%N) as [_ G]; destruct (G Hc) as [G1 _]; apply (Hpos o); [apply in_items; exact (nth_error_In _ _ Hk)|]; destruct (proj1 G1 eq_refl) as (w & G2 & G3); exists w; split; [exact G2|apply Hask; apply Hask' in G3; exact G3]].
      exists l, f, n, bs. rewrite Ef, Hsel. split; [reflexivity|]. split; [reflexivity|]. split; [exact Hl|]. split; [exact Hin|]. split; [exact Hc|]. split; [reflexivity|]. rewrite Hc in Hr. exact (proj2 (decoded_exact d (o_word o) l true bs (conj Hnd Hv') Hin Hr)).
    - left. split; [reflexivity|]. destruct (nth (nth k m O) check false) eqn:Ec; [|reflexivity]. exfalso. destruct (proj1 (proj1 (Hr 0%N)) eq_refl) as (w & ps & G1 & G2). apply (Hf _ G1). cbn [fst]. apply Hask. apply Hask' in G2. exact G2.
  Qed.
  Lemma lists_twin l : forall i ck ex cur, (forall k x, nth_error l k = Some x -> nth_error (items q) (i + k) = Some x) ->
    (forall k, (i <= k)%nat -> item k -> ex k = false /\ ck (nth k m O) = nth (nth k m O) check false) ->
    Forall2 (twin (fun k => nth k m O) item) (docrepAddinfo itemAddr m add ck i l) (docrep alloc (items q) d ex cur i l).
  Proof.
    induction l as [|x l IH]; intros i ck ex cur Hi Hinv; [constructor|].
    assert (Hi' : forall k y, nth_error l k = Some y -> nth_error (items q) (S i + k) = Some y) by (intros k y Hk; replace (S i + k)%nat with (i + S k)%nat by lia; apply Hi; exact Hk).
    assert (Hinv' : forall k, (S i <= k)%nat -> item k -> ex k = false /\ ck (nth k m O) = nth (nth k m O) check false) by (intros k Hk; apply Hinv; lia).
    cbn [docrepAddinfo docrep]. destruct x as [o|]; [|apply IH; assumption].
    assert (Hk : nth_error (items q) i = Some (Some o)) by (specialize (Hi 0%nat _ eq_refl); rewrite Nat.add_0_r in Hi; exact Hi).
    assert (Hit : item i) by (exists o; exact Hk). destruct (Hinv i (le_n _) Hit) as [He Hc]. rewrite He, Hc. destruct (one_operand i o Hk) as [[H1 H2]|(lp & f & n & bs & H1 & H2 & H3 & H4 & H5 & H6 & H7)].
    - rewrite H1, H2. cbn [negb]. apply IH; assumption.
    - rewrite H1, H5, H6, H2, (same_one i o Hk). cbn [negb]. apply Forall2_app.
      + cbn [entryOccs]. rewrite app_nil_r, H7. assert (Tw : forall (r : list N), Forall2 (twin (fun k => nth k m O) item) (map (fun p => mkDocr [nth i m O] (itemAddr i) (WEP_GETWEIGHT p) (Z.of_N (WEP_GETPOS p))) r) (map (fun p => mkDocr [i] (alloc cur) (WEP_GETWEIGHT p) (Z.of_N (WEP_GETPOS p))) r)).
        { induction r as [|p r IHr]; cbn [map]; constructor; [|exact IHr]. exists i. cbn [d_ops d_class d_pos]. auto. }
        destruct lp as [|p0 r0]; [congruence|]. apply Tw.
      + apply IH; [exact Hi'|]. intros k Hkk Hik. destruct (Hinv' k Hkk Hik) as [E1 E2]. split.
        * cbn [existsb]. rewrite E1, orb_false_r. destruct (Nat.eqb_spec k i) as [E|E]; [lia|reflexivity].
        * destruct (Nat.eqb_spec (nth k m O) (nth i m O)) as [E|E]; [|exact E2]. apply Hinj in E; auto. lia.
  Qed.
  Lemma twins : Forall2 (twin (fun k => nth k m O) item) (idoc itemAddr m check add q) (odoc alloc d q).
  Proof. apply lists_twin; [auto|]. intros k _ _. auto. Qed.
  Lemma idoc_addr : addr_by_ops (idoc itemAddr m check add q).
  Proof.
    intros x y Hx Hy E. apply addinfo_in in Hx as (k & o & bs & p & H1 & _ & _ & _ & ->). apply addinfo_in in Hy as (k' & o' & bs' & p' & H1' & _ & _ & _ & ->). cbn [d_ops d_addr Nat.add] in *. injection E as E. f_equal. apply Hinj; [exists o; auto|exists o'; auto|exact E].
  Qed.
  Lemma docrep_later l : forall i ex cur x, (forall k y, nth_error l k = Some y -> nth_error (items q) (i + k) = Some y) -> In x (docrep alloc (items q) d ex cur i l) -> exists j, (i <= j)%nat /\ d_ops x = [j].
  Proof.
    intros i ex cur x Hi H. apply (docrep_in alloc (items q) d Hd) in H as (o & w & ps & p & a & H1 & _ & _ & _ & ->). apply In_nth_error in H1 as (k & Hk). exists (i + k)%nat. split; [lia|]. cbn [d_ops]. apply same_one. apply Hi. exact Hk.
  Qed.
  Lemma docrep_addr l : forall i ex cur, (forall k y, nth_error l k = Some y -> nth_error (items q) (i + k) = Some y) -> addr_by_ops (docrep alloc (items q) d ex cur i l).
  Proof.
    induction l as [|x l IH]; intros i ex cur Hi; [intros u v []|].
    assert (Hi' : forall k y, nth_error l k = Some y -> nth_error (items q) (S i + k) = Some y) by (intros k y Hk; replace (S i + k)%nat with (i + S k)%nat by lia; apply Hi; exact Hk).
    cbn [docrep]. destruct x as [o|]; [|apply IH; exact Hi']. destruct (ex i); [apply IH; exact Hi'|].
    assert (Hk : nth_error (items q) i = Some (Some o)) by (specialize (Hi 0%nat _ eq_refl); rewrite Nat.add_0_r in Hi; exact Hi).
    destruct (one_operand i o Hk) as [[H1 H2]|(lp & f & n & bs & H1 & H2 & _)]; rewrite H1; [apply IH; exact Hi'|]. rewrite H2, (same_one i o Hk).
    assert (Occ : forall u, In u (entryOccs alloc [i] cur [(o_word o, Some lp)]) -> d_ops u = [i] /\ d_addr u = alloc cur) by (intros u Hu; cbn [entryOccs] in Hu; rewrite app_nil_r in Hu; apply in_map_iff in Hu as (p & <- & _); split; reflexivity).
    intros u v Hu Hw E. apply in_app_iff in Hu as [Hu|Hu], Hw as [Hw|Hw].
    - rewrite (proj2 (Occ _ Hu)), (proj2 (Occ _ Hw)). reflexivity.
    - destruct (docrep_later _ _ _ _ _ Hi' Hw) as (j & Hj & Ej). rewrite (proj1 (Occ _ Hu)), Ej in E. injection E as E. lia.
    - destruct (docrep_later _ _ _ _ _ Hi' Hu) as (j & Hj & Ej). rewrite (proj1 (Occ _ Hw)), Ej in E. injection E as E. lia.
    - exact (IH _ _ _ Hi' u v Hu Hw E).
  Qed.
  Lemma odoc_nodup : places_distinct d q -> forall l i ex cur, (forall k y, nth_error l k = Some y -> nth_error (items q) (i + k) = Some y) -> NoDup (map d_pos (docrep alloc (items q) d ex cur i l)).
  Proof.
    intro Hpd. induction l as [|x l IH]; intros i ex cur Hi; [constructor|].
    assert (Hi' : forall k y, nth_error l k = Some y -> nth_error (items q) (S i + k) = Some y) by (intros k y Hk; replace (S i + k)%nat with (i + S k)%nat by lia; apply Hi; exact Hk).
    cbn [docrep]. destruct x as [o|]; [|apply IH; exact Hi']. destruct (ex i); [apply IH; exact Hi'|].
    assert (Hk : nth_error (items q) i = Some (Some o)) by (specialize (Hi 0%nat _ eq_refl); rewrite Nat.add_0_r in Hi; exact Hi).
    destruct (one_operand i o Hk) as [[H1 H2]|(lp & f & n & bs & H1 & H2 & H3 & H4 & _)]; rewrite H1; [apply IH; exact Hi'|]. rewrite H2, (same_one i o Hk).
    assert (Eo : entryOccs alloc [i] cur [(o_word o, Some lp)] = map (fun p => mkDocr [i] (alloc cur) (WEP_GETWEIGHT p) (Z.of_N (WEP_GETPOS p))) lp) by (cbn [entryOccs]; rewrite app_nil_r; destruct lp; [congruence|reflexivity]). rewrite Eo.
    rewrite map_app, map_map. cbn [d_pos]. assert (Ep : forall p, Z.of_N (WEP_GETPOS p) = Z.of_N (position p)) by (intro p; pose proof (posat_position p) as E; unfold posat in E; lia).
    assert (Hask : asks_for o (o_word o)) by (unfold asks_for; rewrite (item_prefix _ _ Hk); reflexivity). assert (Hino : in_query o q) by (apply in_items; exact (nth_error_In _ _ Hk)).
    assert (NA : forall (a b : list Z), NoDup a -> NoDup b -> (forall z, In z a -> ~ In z b) -> NoDup (a ++ b)). { clear. induction a as [|z a IHa]; intros b Ha Hb H; [exact Hb|]. inversion Ha; subst. cbn [app]. constructor; [|apply IHa; auto; intros u Hu; apply H; right; exact Hu]. intro Hin. apply in_app_iff in Hin as [Hin|Hin]; [contradiction|]. exact (H z (or_introl eq_refl) Hin). }
    apply NA; [|apply IH; exact Hi'|].
    - destruct Hv as [_ Hv']. destruct (Hv' _ _ H4) as ((_ & Hs) & _). clear - Hs Ep. induction Hs as [|p r Hs IHs F]; cbn [map]; constructor; [|exact IHs]. intro H. apply in_map_iff in H as (p' & E & Hp'). rewrite Forall_forall in F. specialize (F _ Hp'). rewrite !Ep in E. lia.
    - intros z Hz Hz'. apply in_map_iff in Hz as (p & <- & Hp). apply in_map_iff in Hz' as (u & Eu & Hu). apply (docrep_in alloc (items q) d Hd) in Hu as (o' & w & ps & p' & a & G1 & G2 & G3 & G4 & ->). cbn [d_pos] in Eu.
      apply In_nth_error in G1 as (k & Gk). pose proof (Hi' _ _ Gk) as Gk'. destruct ps as [l'|]; [|apply (Hpos o'); [apply in_items; exact (nth_error_In _ _ Gk')|exists w; auto]].
      assert (Hin' : In p' l') by (destruct Hv as [_ Hv']; destruct (Hv' _ _ G2) as (_ & Hne & _); destruct l'; [congruence|exact G4]).
      assert (Ew : o_word o = w) by (apply (Hpd o o' (o_word o) w lp l' p p'); auto; [apply in_items; exact (nth_error_In _ _ Gk')|rewrite !Ep in Eu; lia]).
      assert (Ew' : w = o_word o') by (unfold asks_for in G3; rewrite (item_prefix _ _ Gk') in G3; exact G3). pose proof (once_items q Honce _ _ _ _ Hk Gk' ltac:(congruence)). lia.
  Qed.
End Lists.

(** ** Distances *)
Lemma same_distance_of a b : (a == b)%Q -> same_distance (distanceOf a) (distanceOf b).
Proof.
  intro E. unfold distanceOf. destruct (Qeq_bool a 0) eqn:Ea, (Qeq_bool b 0) eqn:Eb; cbn [same_distance]; auto.
  - apply Qeq_bool_iff in Ea. apply Qeq_bool_neq in Eb. apply Eb. rewrite <- E. exact Ea.
  - apply Qeq_bool_iff in Eb. apply Qeq_bool_neq in Ea. apply Ea. rewrite E. exact Eb.
  - rewrite E. reflexivity.
Qed.
Lemma items_length q : length (items q) = qsize q.
Proof. induction q as [o|a IH|l IHl r IHr|l IHl r IHr|n l IHl r IHr]; cbn [items qsize length]; rewrite ?app_length; lia. Qed.
Lemma index_equals_operator qsortD cast ln itemAddr alloc qsort q d ents m check add :
  sorts_docr qsortD -> keeps_sign cast -> sorts_words qsort -> rum_extract_tsquery_internal (fun w => w) qsort q = Some (ents, m) ->
  valid_doc d -> words_ascend d -> no_phrase q -> no_prefix q -> words_once q -> positioned d q -> places_distinct d q ->
  (forall j w pm, nth_error ents j = Some (w, pm) -> found (asks_for (mkOp w 0 pm)) (rum_extract_tsvector_internal (fun w => w) d) (nth j check false) (nth j add None)) ->
  tells_apart (qsortD (docrepAddinfo itemAddr m add (fun j => nth j check false) 0 (items q))) -> tells_apart (qsortD (docrep alloc (items q) d (fun _ => false) 0 0 (items q))) ->
  same_distance (rum_tsquery_distance qsortD cast itemAddr m check add (length ents) (Some q)) (rum_ts_distance qsortD cast ln alloc d (Some q) DEF_NORM_METHOD).
Proof.
  intros Hsort Hcast Hsw He Hv Hd Hq Hnp Honce Hpos Hpd Hf K1 K2. apply same_distance_of. unfold rum_ts_score, calc_score_addinfo, calc_score.
  assert (Hm : modes_agree q) by (intros o o' H H' _; rewrite (Hnp o H), (Hnp o' H'); reflexivity).
  assert (Hent : forall k o, nth_error (items q) k = Some (Some o) -> nth_error ents (nth k m O) = Some (o_word o, o_prefix o)) by (intros k o Hk; exact (entry_operand (fun w => w) qsort q ents m k o Hsw Hm He Hk)).
  assert (Hinj : forall i j, item q i -> item q j -> nth i m O = nth j m O -> i = j).
  { intros i j (o & Hi) (o' & Hj) E. pose proof (Hent _ _ Hi) as E1. pose proof (Hent _ _ Hj) as E2. rewrite E, E2 in E1. injection E1 as E1 _. exact (once_items q Honce _ _ _ _ Hi Hj (eq_sym E1)). }
  assert (Hrep : forall k o wt, nth_error (items q) k = Some (Some o) -> reports d (mkOp (o_word o) wt false) (nth (nth k m O) check false) (nth (nth k m O) add None)).
  { intros k o wt Hk. pose proof (Hf _ _ _ (Hent _ _ Hk)) as Hx. rewrite (item_prefix q Hnp k o Hk) in Hx. destruct (exact_operand_restrictions d (mkOp (o_word o) wt false) Hv eq_refl) as [R1 R2]. exact (found_reports d (mkOp (o_word o) wt false) _ _ Hv R1 R2 Hx). }
  pose proof (twins itemAddr alloc m check add d q Hv Hd Hpos Hnp Honce Hinj Hrep) as T.
  assert (Hn2 : NoDup (map d_pos (odoc alloc d q))) by (apply (odoc_nodup itemAddr alloc m check add d q Hv Hd Hpos Hnp Honce Hinj Hrep Hpd); auto).
  assert (Hn1 : NoDup (map d_pos (idoc itemAddr m check add q))). { replace (map d_pos (idoc itemAddr m check add q)) with (map d_pos (odoc alloc d q)); [exact Hn2|]. clear - T. induction T as [|x y l1 l2 (i & _ & _ & _ & _ & E) T IH]; cbn [map]; [reflexivity|]. rewrite IH, E. reflexivity. }
  pose proof (twin_sorted qsortD _ _ _ _ Hsort T Hn1) as TS.
  assert (A1 : addr_by_ops (qsortD (idoc itemAddr m check add q))) by (intros x y Hx Hy; apply (idoc_addr itemAddr m check add q Hinj); eapply Permutation_in; try eassumption; apply Permutation_sym, Hsort).
  assert (A2 : addr_by_ops (qsortD (odoc alloc d q))) by (intros x y Hx Hy; apply (docrep_addr itemAddr alloc m check add d q Hv Hd Hpos Hnp Honce Hinj Hrep (items q) 0%nat (fun _ => false) 0%nat); auto; eapply Permutation_in; try eassumption; apply Permutation_sym, Hsort).
  assert (Sc : forall k1 k2, (calc_score_docr k1 (fun i => nth i m O) q (length ents) (qsortD (idoc itemAddr m check add q)) DEF_NORM_METHOD == calc_score_docr k2 (fun i => i) q (qsize q) (qsortD (odoc alloc d q)) DEF_NORM_METHOD)%Q).
  { intros k1 k2. apply (twin_score (fun i => nth i m O) q Hq (item q)); auto.
    - apply placed_items. intros k o Hk. exists o. exact Hk.
    - intros i (o & Hi). apply nth_error_Some. rewrite (Hent _ _ Hi). discriminate.
    - intros i (o & Hi). rewrite <- items_length. apply nth_error_Some. congruence. }
  fold (idoc itemAddr m check add q). fold (odoc alloc d q). change (has DEF_NORM_METHOD RANK_NORM_LOGLENGTH) with false. change (has DEF_NORM_METHOD RANK_NORM_LENGTH) with false. change (has DEF_NORM_METHOD RANK_NORM_UNIQ) with false. change (has DEF_NORM_METHOD RANK_NORM_LOGUNIQ) with false. cbn [andb].
  destruct Hcast as (_ & _ & Hc). destruct T as [|x y l1 l2 Hxy T]; [reflexivity|]. apply Hc, Hc. apply Sc.
Qed.

(** ** Phrases in the index *)
Definition all_zero (ops : opdata) : Prop := forall j p, ops j = Some p -> p = 0%N.
Lemma zero_phrase slot n a b ops : 1 <= n -> all_zero ops -> execute slot (QPhrase n (QVal a) (QVal b)) false ops = false.
Proof.
  intros Hn Hz. unfold execute. cbn [pg_execute rum_phrase_execute qsize]. unfold checkcondition_QueryOperand. destruct (ops (slot 2%nat)) as [p|] eqn:E2; cbn [Nat.add]; rewrite ?E2; [|reflexivity]. destruct (ops (slot 1%nat)) as [p'|] eqn:E1; [|reflexivity].
  rewrite (Hz _ _ E1), (Hz _ _ E2). cbn [f_no_pos]. unfold phrase_and. cbn [e_neg e_pos e_width andb]. unfold rum_phrase_output. cbn [phrase_merge]. unfold posat. change (WEP_GETPOS 0) with 0%N. cbn [Z.of_N].
  destruct (Z.ltb_spec (0 + (n + 0)) (0 + 0)); [lia|]. destruct (Z.eqb_spec (0 + (n + 0)) (0 + 0)); [lia|]. reflexivity.
Qed.
Lemma zero_down x ops : all_zero ops -> all_zero (markDown true x ops).
Proof. intros H j p. unfold markDown. destruct (existsb (Nat.eqb j) (d_ops x)); [|apply H]. destruct (ops j) eqn:E; intro E'; injection E' as <-; [exact (H _ _ E)|reflexivity]. Qed.
Lemma phrase_downscan slot n a b down : 1 <= n -> forall k ops, all_zero ops -> downscan true slot (QPhrase n (QVal a) (QVal b)) k ops down = None.
Proof. intro Hn. induction down as [|x down IH]; intros k ops Hz; cbn [downscan]; [reflexivity|]. rewrite (zero_phrase slot n a b _ Hn (zero_down x ops Hz)). apply IH. apply zero_down. exact Hz. Qed.
Lemma phrase_covers slot n a b doc : 1 <= n -> covers true slot (QPhrase n (QVal a) (QVal b)) doc = [].
Proof.
  intro Hn. assert (H : forall rest pos, Cover true slot (QPhrase n (QVal a) (QVal b)) pos rest = None).
  { induction rest as [|x rest IH]; intro pos; cbn [Cover]; [reflexivity|]. destruct (upscan slot _ pos no_ops (x :: rest)) as [last|]; [|reflexivity]. destruct (_ <=? 0); [reflexivity|].
    rewrite phrase_downscan; [apply IH|exact Hn|]. intros j p E. discriminate. }
  unfold covers. cbn [coverLoop]. rewrite H. reflexivity.
Qed.

(** ** The sum by words *)
Lemma by_words_sum doc rank kind ws : tells_apart doc -> addr_by_ops doc -> by_words doc kind ->
  (windows_sum (fun w => coverKey (window doc (fst w) (snd w))) rank [] ws == windows_sum kind rank [] ws)%Q.
Proof.
  intros Hk Ha Hb. apply (windows_sum_same (fun w => coverKey (window doc (fst w) (snd w))) rank kind rank eq) with (s1 := []) (s2 := []); [intros a b ->; reflexivity| |constructor|].
  - induction ws; constructor; auto.
  - intros a b a' b' <- <- _ _ _ _. rewrite (Hb a a'). split; [apply Hk|]. intro E. apply same_ops_key; [|exact E]. intros x y Hx Hy. apply Ha; eapply in_window_list; eassumption.
Qed.
