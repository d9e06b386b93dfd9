(** Proofs for PropSpill.v: the heap, the merge and the tapes. *)
From Verif Require Import Base Codec NBits CodecProof Qsort QsortProof Spill.
From Coq Require Import NArith ZArith Arith Lia Bool List Permutation Sorting.Sorted.
Import ListNotations.

Lemma par_spec k : 0 < k -> k = 2 * ((k - 1) / 2) + 1 \/ k = 2 * ((k - 1) / 2) + 2.
Proof. intro H. pose proof (Nat.div_mod (k - 1) 2 ltac:(lia)). pose proof (Nat.mod_upper_bound (k - 1) 2 ltac:(lia)). lia. Qed.

Section Heap.
  Context {B : Type}.
  Variable d : B.
  Variable c : B -> B -> Z.
  Notation at' := (at' d).
  Notation par k := ((k - 1) / 2).
  Lemma upd_upd i x y (l : list B) : i < length l -> upd i x (upd i y l) = upd i x l.
  Proof.
    intro H. apply (at_ext d); [rewrite !upd_length; rewrite ?upd_length; auto|]. intros k Hk. rewrite !at_upd; rewrite ?upd_length; auto. destruct (k =? i); reflexivity.
  Qed.
  Lemma upd_move i j x (h : list B) : i < length h -> j < length h -> i <> j -> Permutation (upd j x (upd i (at' h j) h)) (upd i x h).
  Proof.
    intros Hi Hj Hn. pose proof (swap_perm d i j (upd i x h)) as H. rewrite upd_length in H by auto. specialize (H Hi Hj).
    unfold swap in H. rewrite upd_upd in H by auto. rewrite (at_upd d i x h i Hi), Nat.eqb_refl in H. rewrite (at_upd d i x h j Hi) in H.
    destruct (Nat.eqb_spec j i); [lia|]. exact H.
  Qed.
  Lemma siftUp_perm fuel : forall h j x, j < length h -> j < fuel -> Permutation (siftUp d c fuel h j x) (upd j x h).
  Proof.
    induction fuel as [|f IH]; intros h j x Hj Hf; [lia|]. cbn [siftUp].
    destruct (Nat.ltb_spec 0 j) as [H0|H0]; [|reflexivity]. cbv zeta. destruct (_ <=? _)%Z; [reflexivity|].
    pose proof (par_spec j H0). rewrite IH; rewrite ?upd_length; try lia. apply upd_move; lia.
  Qed.
  Lemma siftDown_perm fuel : forall h i x, i < length h -> length h - i < fuel -> Permutation (siftDown d c fuel h i x) (upd i x h).
  Proof.
    induction fuel as [|f IH]; intros h i x Hi Hf; [lia|]. cbn [siftDown]. cbv zeta.
    destruct (Nat.leb_spec (length h) (2 * i + 1)) as [H0|H0]; [reflexivity|].
    set (j := if _ && _ then _ else _). assert (Hj : i < j < length h).
    { unfold j. destruct (Nat.ltb_spec (2 * i + 1 + 1) (length h)); cbn [andb]; [destruct (0 <? _)%Z|]; lia. }
    clearbody j. destruct (_ <=? _)%Z; [reflexivity|]. rewrite IH; rewrite ?upd_length; try lia. apply upd_move; lia.
  Qed.
  Lemma upd_0 x (h : list B) : h <> [] -> upd 0 x h = x :: tl h.
  Proof. destruct h; [congruence|]. reflexivity. Qed.
  Lemma insert_perm h x : Permutation (heap_insert d c h x) (x :: h).
  Proof.
    unfold heap_insert. rewrite siftUp_perm; rewrite ?app_length; cbn [length]; try lia.
    unfold upd. rewrite firstn_app, Nat.sub_diag, firstn_all. cbn [firstn]. rewrite app_nil_r, skipn_all2 by (rewrite app_length; cbn [length]; lia).
    apply Permutation_sym, Permutation_cons_append.
  Qed.
  Lemma replace_perm h x : h <> [] -> Permutation (heap_replace_top d c h x) (x :: tl h).
  Proof.
    intro H. unfold heap_replace_top. assert (length h <> 0) by (destruct h; [congruence|discriminate]). rewrite siftDown_perm by lia. rewrite upd_0 by exact H. reflexivity.
  Qed.
  Lemma split_last h n : length h = S n -> h = firstn n h ++ [at' h n].
  Proof.
    intro H. rewrite <- (firstn_skipn n h) at 1. f_equal. apply (at_ext d); [rewrite skipn_length; cbn; lia|].
    intros k Hk. rewrite skipn_length in Hk. replace k with 0 by lia. unfold Qsort.at'. cbn [nth].
    rewrite <- (firstn_skipn n h) at 2. rewrite app_nth2 by (rewrite firstn_length; lia). rewrite firstn_length, Nat.min_l by lia. rewrite Nat.sub_diag. reflexivity.
  Qed.
  Lemma delete_perm h : Permutation (heap_delete_top d c h) (tl h).
  Proof.
    unfold heap_delete_top. destruct (length h - 1) as [|n] eqn:E.
    - destruct h as [|x [|y h]]; [reflexivity|reflexivity|cbn in E; lia].
    - assert (El : length h = S (S n)) by lia. pose proof (split_last h (S n) El) as Es. rewrite Es at 3.
      assert (Hn : firstn (S n) h <> []) by (destruct h; [discriminate|cbn; discriminate]).
      rewrite replace_perm by exact Hn. destruct (firstn (S n) h); [congruence|]. cbn [tl app]. apply Permutation_cons_append.
  Qed.

  Variable P : B -> Prop.
  Hypothesis Hanti : forall x y, P x -> P y -> ((c x y < 0)%Z <-> (0 < c y x)%Z).
  Hypothesis Htrans : forall x y z, P x -> P y -> P z -> (c x y <= 0)%Z -> (c y z <= 0)%Z -> (c x z <= 0)%Z.
  Notation le := (QsortProof.le c).
  Definition heap (h : list B) : Prop := forall k, 0 < k -> k < length h -> le (at' h (par k)) (at' h k).
  Lemma at_P' l k : Forall P l -> k < length l -> P (at' l k).
  Proof. intros H Hk. rewrite Forall_forall in H. apply H, at_in, Hk. Qed.
  Lemma le_total x y : P x -> P y -> ~ le x y -> le y x.
  Proof. intros Hx Hy H. unfold QsortProof.le in *. assert (0 < c x y)%Z by lia. apply (Hanti y x Hy Hx) in H0. lia. Qed.
  Lemma upd_P i x h : Forall P h -> P x -> i < length h -> Forall P (upd i x h).
  Proof.
    intros H Hx Hi. unfold upd. rewrite <- (firstn_skipn i h) in H. apply Forall_app in H as [H1 H2]. apply Forall_app. split; [exact H1|].
    constructor; [exact Hx|]. rewrite <- (firstn_skipn (S i) h) in H2. rewrite skipn_app in H2. rewrite firstn_length in H2.
    apply Forall_app in H2 as [_ H2]. destruct (Nat.leb_spec (S i) (length h)).
    - rewrite Nat.min_l in H2 by lia. replace (i - S i) with 0 in H2 by lia. exact H2.
    - lia.
  Qed.
  Lemma heap_hole h j x : j < length h ->
    (forall k, 0 < k -> k < length h -> k <> j -> par k <> j -> le (at' h (par k)) (at' h k)) ->
    (forall k, 0 < k -> k < length h -> par k = j -> le x (at' h k)) -> (0 < j -> le (at' h (par j)) x) -> heap (upd j x h).
  Proof.
    intros Hj a b e k Hk Hkl. rewrite upd_length in Hkl by auto. rewrite !at_upd by auto. pose proof (par_spec k Hk).
    destruct (Nat.eqb_spec k j) as [->|Hn].
    - destruct (Nat.eqb_spec (par j) j); [lia|]. apply e. exact Hk.
    - destruct (Nat.eqb_spec (par k) j) as [E|E]; [apply b; auto|apply a; auto].
  Qed.
  Lemma siftUp_heap fuel : forall h j x, Forall P h -> P x -> j < length h -> j < fuel ->
    (forall k, 0 < k -> k < length h -> k <> j -> par k <> j -> le (at' h (par k)) (at' h k)) ->
    (forall k, 0 < k -> k < length h -> par k = j -> le x (at' h k)) ->
    (forall k, 0 < k -> k < length h -> par k = j -> 0 < j -> le (at' h (par j)) (at' h k)) -> heap (siftUp d c fuel h j x).
  Proof.
    induction fuel as [|f IH]; intros h j x HP Hx Hj Hf a b cc; [lia|]. cbn [siftUp].
    destruct (Nat.ltb_spec 0 j) as [H0|H0]; [|apply heap_hole; auto; lia]. cbv zeta. pose proof (par_spec j H0) as Hp.
    destruct (Z.leb_spec 0 (c x (at' h (par j)))) as [C|C].
    - apply heap_hole; auto. intros _. unfold QsortProof.le. assert (P (at' h (par j))) by (apply at_P'; auto; lia).
      destruct (Z.lt_ge_cases 0 (c (at' h (par j)) x)); [|lia]. apply (Hanti x) in H1; auto. lia.
    - assert (Hxi : le x (at' h (par j))) by (unfold QsortProof.le; lia).
      assert (Hil : par j < j) by lia. remember (par j) as i eqn:Ei.
      apply IH; rewrite ?upd_length by lia; try lia; auto.
      + apply upd_P; auto. apply at_P'; auto; lia.
      + intros k Hk Hkl Hki Hpk. pose proof (par_spec k Hk). rewrite !at_upd by lia.
        destruct (Nat.eqb_spec k j) as [->|Hkj]; [congruence|]. destruct (Nat.eqb_spec (par k) j) as [E|E]; [apply cc; auto|apply a; auto].
      + intros k Hk Hkl Hpk. pose proof (par_spec k Hk). rewrite at_upd by lia.
        destruct (Nat.eqb_spec k j) as [->|Hkj]; [exact Hxi|].
        apply (Htrans _ (at' h i)); auto; try (apply at_P'; auto; lia). rewrite <- Hpk. apply a; auto. lia.
      + intros k Hk Hkl Hpk Hi0. pose proof (par_spec k Hk). pose proof (par_spec i Hi0). rewrite !at_upd by lia.
        assert (Hii : le (at' h (par i)) (at' h i)) by (apply a; try lia).
        destruct (Nat.eqb_spec (par i) j); [lia|]. destruct (Nat.eqb_spec k j) as [->|Hkj]; [exact Hii|].
        apply (Htrans _ (at' h i)); auto; try (apply at_P'; auto; lia). rewrite <- Hpk at 1. apply a; auto. lia.
  Qed.
  Lemma siftDown_heap fuel : forall h i x, Forall P h -> P x -> i < length h -> length h - i < fuel ->
    (forall k, 0 < k -> k < length h -> k <> i -> par k <> i -> le (at' h (par k)) (at' h k)) ->
    (0 < i -> le (at' h (par i)) x) ->
    (forall k, 0 < k -> k < length h -> par k = i -> 0 < i -> le (at' h (par i)) (at' h k)) -> heap (siftDown d c fuel h i x).
  Proof.
    induction fuel as [|f IH]; intros h i x HP Hx Hi Hf a b cc; [lia|]. cbn [siftDown]. cbv zeta.
    destruct (Nat.leb_spec (length h) (2 * i + 1)) as [H0|H0].
    { apply heap_hole; auto. intros k Hk Hkl Hpk. pose proof (par_spec k Hk). lia. }
    set (j := if _ && _ then _ else _).
    assert (Hj : i < j < length h /\ par j = i /\ forall k, 0 < k -> k < length h -> par k = i -> le (at' h j) (at' h k)).
    { assert (E1 : par (2 * i + 1) = i) by (pose proof (par_spec (2 * i + 1) ltac:(lia)); lia).
      assert (E2 : par (2 * i + 1 + 1) = i) by (pose proof (par_spec (2 * i + 1 + 1) ltac:(lia)); lia).
      assert (R : forall k, k < length h -> le (at' h k) (at' h k)).
      { intros k Hk. pose proof (at_P' h k HP Hk) as Q. unfold QsortProof.le. pose proof (Hanti _ _ Q Q). lia. }
      unfold j. destruct (Nat.ltb_spec (2 * i + 1 + 1) (length h)) as [L|L]; cbn [andb]; [destruct (Z.ltb_spec 0 (c (at' h (2 * i + 1)) (at' h (2 * i + 1 + 1)))) as [G|G]|];
      (split; [lia|split; [assumption|]]); intros k Hk Hkl Hpk; pose proof (par_spec k Hk) as Hc; rewrite Hpk in Hc.
      - destruct Hc as [->| ->]; [|replace (2 * i + 2) with (2 * i + 1 + 1) by lia; apply R; lia].
        apply le_total; [apply at_P'; auto; lia|apply at_P'; auto; lia|]. unfold QsortProof.le. lia.
      - destruct Hc as [->| ->]; [apply R; lia|]. replace (2 * i + 2) with (2 * i + 1 + 1) by lia. exact G.
      - destruct Hc as [->| ->]; [apply R; lia|lia]. }
    clearbody j. destruct Hj as (Hj & Hpj & Hmin).
    destruct (Z.leb_spec (c x (at' h j)) 0) as [C|C].
    - apply heap_hole; auto. intros k Hk Hkl Hpk. apply (Htrans _ (at' h j)); auto; try (apply at_P'; auto; lia). exact (Hmin k Hk Hkl Hpk).
    - assert (Hjx : le (at' h j) x) by (apply le_total; auto; [apply at_P'; auto; lia|unfold QsortProof.le; lia]).
      apply IH; rewrite ?upd_length by lia; try lia; auto.
      + apply upd_P; auto. apply at_P'; auto; lia.
      + intros k Hk Hkl Hkj Hpk. pose proof (par_spec k Hk). rewrite !at_upd by lia.
        destruct (Nat.eqb_spec k i) as [->|Hki].
        * destruct (Nat.eqb_spec (par i) i); [lia|]. apply cc; auto; lia.
        * destruct (Nat.eqb_spec (par k) i) as [E|E]; [apply Hmin; auto|apply a; auto].
      + intros _. rewrite at_upd by lia. rewrite Hpj, Nat.eqb_refl. exact Hjx.
      + intros k Hk Hkl Hpk _. pose proof (par_spec k Hk). rewrite !at_upd by lia. rewrite Hpj, Nat.eqb_refl.
        destruct (Nat.eqb_spec k i); [lia|]. rewrite <- Hpk at 1. apply a; auto; lia.
  Qed.
  Lemma at_app_l (h : list B) r k : k < length h -> at' (h ++ r) k = at' h k.
  Proof. intro H. unfold Qsort.at'. apply app_nth1. exact H. Qed.
  Lemma insert_heap h x : Forall P h -> P x -> heap h -> heap (heap_insert d c h x).
  Proof.
    intros HP Hx H. unfold heap_insert. apply siftUp_heap; rewrite ?app_length; cbn [length]; try lia; auto; try (intros k Hk Hkl Hp; pose proof (par_spec k Hk); lia).
    - apply Forall_app. auto.
    - intros k Hk Hkl Hn Hp. pose proof (par_spec k Hk). rewrite !at_app_l by lia. apply H; lia.
  Qed.
  Lemma replace_heap h x : Forall P h -> P x -> h <> [] -> heap h -> heap (heap_replace_top d c h x).
  Proof.
    intros HP Hx Hn H. unfold heap_replace_top. assert (length h <> 0) by (destruct h; [congruence|discriminate]).
    apply siftDown_heap; try lia; auto.
  Qed.
  Lemma delete_heap h : Forall P h -> heap h -> heap (heap_delete_top d c h).
  Proof.
    intros HP H. unfold heap_delete_top. destruct (length h - 1) as [|n] eqn:E; [intros k Hk Hl; cbn in Hl; lia|].
    assert (El : length h = S (S n)) by lia. pose proof (split_last h (S n) El) as Es.
    assert (Ef : length (firstn (S n) h) = S n) by (rewrite firstn_length; lia).
    assert (HPf : Forall P (firstn (S n) h)) by (rewrite Es in HP; apply Forall_app in HP; apply HP).
    apply replace_heap; [exact HPf|apply at_P'; auto; lia|destruct (firstn (S n) h); [discriminate|congruence]|].
    intros k Hk Hkl. rewrite Ef in Hkl. pose proof (par_spec k Hk). specialize (H k Hk ltac:(lia)). rewrite Es in H. rewrite !at_app_l in H by lia. exact H.
  Qed.
  Lemma heap_top h : Forall P h -> heap h -> forall k, k < length h -> le (at' h 0) (at' h k).
  Proof.
    intros HP H k. induction k as [k IH] using lt_wf_ind. intro Hk. destruct (Nat.eq_dec k 0) as [->|Hn].
    - pose proof (at_P' h 0 HP Hk) as Q. unfold QsortProof.le. pose proof (Hanti _ _ Q Q). lia.
    - pose proof (par_spec k ltac:(lia)). apply (Htrans _ (at' h (par k))); try (apply at_P'; auto; lia); [apply IH; lia|apply H; lia].
  Qed.
End Heap.

Section Merge.
  Context {A : Type}.
  Variable d : A.
  Variable cmp : A -> A -> Z.
  Notation dd := (d, 0).
  Notation hc := (hcmp cmp).
  Notation loop := (mergeLoop d cmp).
  Definition covered (h : list (A * nat)) (tapes : list (list A)) : Prop := forall t, nth t tapes [] <> [] -> exists x, In (x, t) h.
  Lemma nth_split_tape (tapes : list (list A)) t y r : nth t tapes [] = y :: r ->
    t < length tapes /\ Permutation (concat tapes) (y :: concat (upd t r tapes)).
  Proof.
    intro E. assert (L : t < length tapes).
    { destruct (Nat.lt_ge_cases t (length tapes)); [auto|]. rewrite nth_overflow in E by auto. discriminate. }
    split; [exact L|]. unfold upd. rewrite concat_app. cbn [concat].
    pose proof (nth_split tapes [] L) as (l1 & l2 & El & Hl). rewrite E in El. subst tapes. subst t.
    rewrite firstn_app, Nat.sub_diag, firstn_all. cbn [firstn]. rewrite app_nil_r.
    replace (skipn (S (length l1)) (l1 ++ (y :: r) :: l2)) with l2.
    - rewrite concat_app. cbn [concat]. change ((y :: r) ++ concat l2) with (y :: r ++ concat l2). apply Permutation_sym, Permutation_middle.
    - rewrite skipn_app, skipn_all2 by lia. replace (S (length l1) - length l1) with 1 by lia. reflexivity.
  Qed.
  Lemma nth_upd_tape (tapes : list (list A)) t r s : t < length tapes -> nth s (upd t r tapes) [] = if s =? t then r else nth s tapes [].
  Proof. intro H. apply (at_upd [] t r tapes s H). Qed.
  Lemma covered_next h tapes x t l y r : covered ((x, t) :: l) tapes -> nth t tapes [] = y :: r -> Permutation h ((y, t) :: l) -> covered h (upd t r tapes).
  Proof.
    intros C E Hp s Hs. destruct (nth_split_tape _ _ _ _ E) as [L _]. rewrite nth_upd_tape in Hs by auto.
    destruct (Nat.eqb_spec s t) as [Est|Hn]; [subst s|].
    - exists y. apply (Permutation_in _ (Permutation_sym Hp)). left. reflexivity.
    - destruct (C s Hs) as (z & [Hz|Hz]); [injection Hz as _ <-; congruence|]. exists z. apply (Permutation_in _ (Permutation_sym Hp)). right. exact Hz.
  Qed.
  Lemma covered_end h tapes x t l : covered ((x, t) :: l) tapes -> nth t tapes [] = [] -> Permutation h l -> covered h tapes.
  Proof.
    intros C E Hp s Hs. destruct (C s Hs) as (z & [Hz|Hz]); [injection Hz as _ <-; congruence|]. exists z. apply (Permutation_in _ (Permutation_sym Hp)). exact Hz.
  Qed.
  Lemma covered_nil tapes : covered [] tapes -> concat tapes = [].
  Proof.
    intro C. destruct (concat tapes) as [|z r] eqn:E; [reflexivity|exfalso].
    assert (Hz : In z (concat tapes)) by (rewrite E; left; reflexivity). apply in_concat in Hz as (l & Hl & Hz).
    destruct (In_nth tapes l [] Hl) as (t & Ht & Et). destruct (C t) as (x & []). rewrite Et. destruct l; [destruct Hz|discriminate].
  Qed.
  Lemma loop_perm fuel : forall h tapes, covered h tapes -> length h + length (concat tapes) <= fuel ->
    Permutation (loop fuel h tapes) (map fst h ++ concat tapes).
  Proof.
    induction fuel as [|f IH]; intros h tapes C Hf.
    - destruct h; [|cbn in Hf; lia]. rewrite (covered_nil _ C). reflexivity.
    - destruct h as [|(x, t) l]; [rewrite (covered_nil _ C); reflexivity|]. cbn [mergeLoop map fst app]. apply perm_skip.
      destruct (nth t tapes []) as [|y r] eqn:E.
      + pose proof (delete_perm dd hc ((x, t) :: l)) as Hp. cbn [tl] in Hp. rewrite IH.
        * apply Permutation_app_tail, Permutation_map, Hp.
        * eapply covered_end; [exact C|exact E|exact Hp].
        * rewrite (Permutation_length Hp). cbn [length] in Hf. lia.
      + pose proof (replace_perm dd hc ((x, t) :: l) (y, t) ltac:(discriminate)) as Hp. cbn [tl] in Hp.
        destruct (nth_split_tape _ _ _ _ E) as [L Hc]. rewrite IH.
        * rewrite Hc, <- Permutation_middle. rewrite (Permutation_map fst Hp). reflexivity.
        * eapply covered_next; [exact C|exact E|exact Hp].
        * rewrite (Permutation_length Hp). cbn [length] in *. apply Permutation_length in Hc. cbn [length] in Hc. lia.
  Qed.
  Lemma begin_spec runs : forall t h h' tapes, beginmerge d cmp t runs h = (h', tapes) ->
    length tapes = length runs /\ Permutation (map fst h' ++ concat tapes) (map fst h ++ concat runs) /\
    (forall e, In e h -> In e h') /\ (forall s, nth s tapes [] <> [] -> exists x, In (x, t + s) h') /\
    (forall e, In e h' -> In e h \/ exists s y r, e = (y, t + s) /\ nth s runs [] = y :: r /\ nth s tapes [] = r) /\
    (forall s z, nth s tapes [] = z -> nth s runs [] = z \/ exists y, nth s runs [] = y :: z).
  Proof.
    induction runs as [|[|x r] rs IH]; intros t h h' tapes E; cbn [beginmerge] in E.
    - injection E as <- <-. split; [reflexivity|]. split; [reflexivity|]. split; [auto|]. split; [intros [|s]; cbn; congruence|]. split; [auto|].
      intros [|s] z; cbn; auto.
    - destruct (beginmerge d cmp (S t) rs h) as [h1 ts] eqn:E1. injection E as <- <-. destruct (IH _ _ _ _ E1) as (I1 & I2 & I3 & I4 & I5 & I6).
      split; [cbn; lia|]. split; [exact I2|]. split; [exact I3|]. split; [|split].
      + intros [|s] Hs; cbn [nth] in Hs; [congruence|]. destruct (I4 s Hs) as (x & Hx). exists x. replace (t + S s) with (S t + s) by lia. exact Hx.
      + intros e He. destruct (I5 e He) as [H|(s & y & r & Ee & En & Et)]; [left; exact H|right]. exists (S s), y, r. split; [rewrite Ee; f_equal; lia|auto].
      + intros [|s] z; cbn [nth]; [auto|apply I6].
    - destruct (beginmerge d cmp (S t) rs (heap_insert dd hc h (x, t))) as [h1 ts] eqn:E1. injection E as <- <-.
      destruct (IH _ _ _ _ E1) as (I1 & I2 & I3 & I4 & I5 & I6). pose proof (insert_perm dd hc h (x, t)) as Hp.
      assert (Hx : In (x, t) h1) by (apply I3, (Permutation_in _ (Permutation_sym Hp)); left; reflexivity).
      split; [cbn; lia|]. split; [|split; [|split; [|split]]].
      + cbn [concat]. rewrite Permutation_app_comm, <- app_assoc, (Permutation_app_comm (concat ts)), I2. rewrite (Permutation_map fst Hp). cbn [map fst].
        rewrite (Permutation_app_comm r). rewrite <- app_assoc. cbn [app]. rewrite <- Permutation_middle. apply perm_skip. apply Permutation_app_head, Permutation_app_comm.
      + intros e He. apply I3, (Permutation_in _ (Permutation_sym Hp)). right. exact He.
      + intros [|s] Hs; cbn [nth] in Hs; [exists x; rewrite Nat.add_0_r; exact Hx|]. destruct (I4 s Hs) as (z & Hz). exists z. replace (t + S s) with (S t + s) by lia. exact Hz.
      + intros e He. destruct (I5 e He) as [H|(s & y & r' & Ee & En & Et)].
        * apply (Permutation_in _ Hp) in H as [<-|H]; [right; exists 0, x, r; rewrite Nat.add_0_r; auto|left; exact H].
        * right. exists (S s), y, r'. split; [rewrite Ee; f_equal; lia|auto].
      + intros [|s] z; cbn [nth]; [intros <-; right; exists x; reflexivity|apply I6].
  Qed.
  Lemma merge_perm runs : Permutation (mergeRuns d cmp runs) (concat runs).
  Proof.
    unfold mergeRuns. destruct (beginmerge d cmp 0 runs []) as [h tapes] eqn:E. destruct (begin_spec _ _ _ _ _ E) as (I1 & I2 & I3 & I4 & _).
    cbn [map app] in I2. rewrite loop_perm; [exact I2|exact I4|]. apply Permutation_length in I2. rewrite app_length, map_length in I2. lia.
  Qed.

  Variable P : A -> Prop.
  Hypothesis Hanti : forall x y, P x -> P y -> ((cmp x y < 0)%Z <-> (0 < cmp y x)%Z).
  Hypothesis Htrans : forall x y z, P x -> P y -> P z -> (cmp x y <= 0)%Z -> (cmp y z <= 0)%Z -> (cmp x z <= 0)%Z.
  Notation le := (fun x y => (cmp x y <= 0)%Z).
  Let P2 (e : A * nat) : Prop := P (fst e).
  Lemma hanti2 : forall x y, P2 x -> P2 y -> ((hc x y < 0)%Z <-> (0 < hc y x)%Z).
  Proof. intros x y. apply Hanti. Qed.
  Lemma htrans2 : forall x y z, P2 x -> P2 y -> P2 z -> (hc x y <= 0)%Z -> (hc y z <= 0)%Z -> (hc x z <= 0)%Z.
  Proof. intros x y z. apply Htrans. Qed.
  Definition ahead (h : list (A * nat)) (tapes : list (list A)) : Prop := forall x t y, In (x, t) h -> In y (nth t tapes []) -> le x y.
  Definition sortedRuns (tapes : list (list A)) : Prop := forall t, StronglySorted le (nth t tapes []) /\ Forall P (nth t tapes []).
  Lemma loop_sorted fuel : forall h tapes, heap dd hc h -> Forall P2 h -> sortedRuns tapes -> covered h tapes -> ahead h tapes ->
    length h + length (concat tapes) <= fuel -> StronglySorted le (loop fuel h tapes).
  Proof.
    induction fuel as [|f IH]; intros h tapes Hh HP Hr C Ha Hf; [constructor|]. destruct h as [|(x, t) l]; [constructor|].
    cbn [mergeLoop]. assert (Px : P x) by exact (Forall_inv HP).
    assert (Htop : forall z, In z (map fst ((x, t) :: l)) -> le x z).
    { intros z Hz. apply in_map_iff in Hz as (e & <- & He). destruct (In_nth _ e dd He) as (k & Hk & <-).
      exact (heap_top dd hc P2 hanti2 htrans2 _ HP Hh k Hk). }
    assert (Hall : forall z, In z (map fst ((x, t) :: l) ++ concat tapes) -> le x z).
    { intros z Hz. apply in_app_or in Hz as [Hz|Hz]; [apply Htop, Hz|]. apply in_concat in Hz as (q & Hq & Hz).
      destruct (In_nth tapes q [] Hq) as (s & Hs & Es). destruct (C s) as (w & Hw); [rewrite Es; destruct q; [destruct Hz|discriminate]|].
      rewrite <- Es in Hz. apply (Htrans x w z); [exact Px| | |apply Htop; exact (in_map fst _ _ Hw)|exact (Ha w s z Hw Hz)].
      - rewrite Forall_forall in HP. exact (HP _ Hw).
      - destruct (Hr s) as [_ G]. rewrite Forall_forall in G. exact (G z Hz). }
    destruct (nth t tapes []) as [|y r] eqn:E.
    - pose proof (delete_perm dd hc ((x, t) :: l)) as Hp. cbn [tl] in Hp.
      assert (C' : covered (heap_delete_top dd hc ((x, t) :: l)) tapes) by (eapply covered_end; [exact C|exact E|exact Hp]).
      assert (Hf' : length (heap_delete_top dd hc ((x, t) :: l)) + length (concat tapes) <= f) by (rewrite (Permutation_length Hp); cbn [length] in Hf; lia).
      constructor.
      + apply IH; auto.
        * apply (delete_heap dd hc P2 hanti2 htrans2); auto.
        * rewrite Forall_forall in *. intros e He. apply HP. right. exact (Permutation_in _ Hp He).
        * intros w s z Hw Hz. apply (Ha w s z); [right; exact (Permutation_in _ Hp Hw)|exact Hz].
      + apply Forall_forall. intros z Hz. apply Hall. apply (Permutation_in _ (loop_perm f _ _ C' Hf')) in Hz. cbn [map fst app]. right.
        apply in_app_or in Hz as [Hz|Hz]; apply in_or_app; [left|right; exact Hz]. exact (Permutation_in _ (Permutation_map fst Hp) Hz).
    - pose proof (replace_perm dd hc ((x, t) :: l) (y, t) ltac:(discriminate)) as Hp. cbn [tl] in Hp.
      destruct (nth_split_tape _ _ _ _ E) as [L Hc]. destruct (Hr t) as [S1 S2]. rewrite E in S1, S2.
      assert (C' : covered (heap_replace_top dd hc ((x, t) :: l) (y, t)) (upd t r tapes)) by (eapply covered_next; [exact C|exact E|exact Hp]).
      assert (Hf' : length (heap_replace_top dd hc ((x, t) :: l) (y, t)) + length (concat (upd t r tapes)) <= f).
      { rewrite (Permutation_length Hp). cbn [length] in *. apply Permutation_length in Hc. cbn [length] in Hc. lia. }
      constructor.
      + apply IH; auto.
        * apply (replace_heap dd hc P2 hanti2 htrans2); auto; [exact (Forall_inv S2)|discriminate].
        * rewrite Forall_forall in *. intros e He. apply (Permutation_in _ Hp) in He as [<-|He]; [exact (S2 y (or_introl eq_refl))|apply HP; right; exact He].
        * intro s. rewrite nth_upd_tape by auto. destruct (s =? t); [|apply Hr]. split; [inversion S1; auto|exact (Forall_inv_tail S2)].
        * intros w s z Hw Hz. rewrite nth_upd_tape in Hz by auto. apply (Permutation_in _ Hp) in Hw as [Hw|Hw].
          -- injection Hw as <- <-. rewrite Nat.eqb_refl in Hz. inversion S1 as [|? ? _ G]; subst. rewrite Forall_forall in G. exact (G z Hz).
          -- apply (Ha w s z); [right; exact Hw|]. destruct (Nat.eqb_spec s t) as [->|]; [rewrite E; right; exact Hz|exact Hz].
      + apply Forall_forall. intros z Hz. apply Hall. apply (Permutation_in _ (loop_perm f _ _ C' Hf')) in Hz. cbn [map fst app]. right.
        apply (Permutation_in _ (Permutation_app (Permutation_map fst Hp) (Permutation_refl _))) in Hz. cbn [map fst app] in Hz.
        apply (Permutation_in (l := y :: map fst l ++ concat (upd t r tapes)) (l' := map fst l ++ concat tapes)); [|exact Hz].
        rewrite Hc. apply Permutation_middle.
  Qed.
  Lemma begin_heap runs : forall t h, heap dd hc h -> Forall P2 h -> Forall (Forall P) runs -> heap dd hc (fst (beginmerge d cmp t runs h)) /\ Forall P2 (fst (beginmerge d cmp t runs h)).
  Proof.
    induction runs as [|[|x r] rs IH]; intros t h Hh HP HR; cbn [beginmerge]; [auto| |]; pose proof (Forall_inv HR) as Hx; apply Forall_inv_tail in HR.
    - specialize (IH (S t) h Hh HP HR). destruct (beginmerge d cmp (S t) rs h). exact IH.
    - assert (Px : P2 (x, t)) by exact (Forall_inv Hx). specialize (IH (S t) (heap_insert dd hc h (x, t))).
      destruct (beginmerge d cmp (S t) rs (heap_insert dd hc h (x, t))). apply IH; [apply (insert_heap dd hc P2 hanti2 htrans2); auto| |exact HR].
      rewrite Forall_forall in *. intros e He. apply (Permutation_in _ (insert_perm dd hc h (x, t))) in He as [<-|He]; auto.
  Qed.
  Lemma merge_sorted runs : Forall (fun r => StronglySorted le r /\ Forall P r) runs -> StronglySorted le (mergeRuns d cmp runs).
  Proof.
    intro HR. assert (HRP : Forall (Forall P) runs) by (eapply Forall_impl; [|exact HR]; intros r Hr; apply Hr).
    assert (Hn : forall s, StronglySorted le (nth s runs []) /\ Forall P (nth s runs [])).
    { intro s. destruct (Nat.lt_ge_cases s (length runs)) as [L|L]; [rewrite Forall_forall in HR; apply HR, nth_In, L|]. rewrite nth_overflow by auto. split; constructor. }
    unfold mergeRuns. pose proof (begin_heap runs 0 [] ltac:(intros k Hk Hl; cbn in Hl; lia) (Forall_nil _) HRP) as [B1 B2].
    destruct (beginmerge d cmp 0 runs []) as [h tapes] eqn:E. cbn [fst] in B1, B2. destruct (begin_spec _ _ _ _ _ E) as (I1 & I2 & I3 & I4 & I5 & I6).
    apply loop_sorted; auto.
    - intro s. destruct (I6 s _ eq_refl) as [H|(y & H)]; destruct (Hn s) as [N1 N2]; rewrite H in N1, N2; [auto|]. split; [inversion N1; auto|exact (Forall_inv_tail N2)].
    - intros x t y Hx Hy. destruct (I5 _ Hx) as [[]|(s & y' & r & Ee & En & Et)]. injection Ee as -> ->. rewrite Et in Hy. destruct (Hn s) as [N1 _]. rewrite En in N1.
      inversion N1 as [|? ? _ G]; subst. rewrite Forall_forall in G. exact (G y Hy).
    - cbn [map app] in I2. apply Permutation_length in I2. rewrite app_length, map_length in I2. lia.
  Qed.
End Merge.

Section Tape.
  Context {A : Type}.
  Variable d : A.
  Variable cmp : A -> A -> Z.
  Variable image : A -> list byte.
  Variable parse : list byte -> A.
  Variable size : N.
  Variable ra : bool.
  Hypothesis Hsize : (size + 4 < 2 ^ 32)%N.
  Variable Q : A -> Prop.
  Hypothesis Hlen : forall x, Q x -> length (image x) = N.to_nat size.
  Hypothesis Hparse : forall x, Q x -> parse (image x) = x.
  Notation write := (writeRun image size ra).
  Notation read := (readRun parse size ra).
  Lemma readBytes_app n a b : length a = n -> readBytes n (a ++ b) = Some (a, b).
  Proof.
    intro H. unfold readBytes. rewrite app_length. destruct (Nat.leb_spec n (length a + length b)); [|lia].
    rewrite firstn_app, skipn_app, <- H, Nat.sub_diag, firstn_all, skipn_all. cbn [firstn skipn]. rewrite app_nil_r. reflexivity.
  Qed.
  Lemma read_write l : Forall Q l -> forall fuel rest, length l < fuel -> read fuel (write l ++ rest) = Some (l, rest).
  Proof.
    induction l as [|x l IH]; intros HQ fuel rest Hf; (destruct fuel as [|f]; [lia|]); cbn [readRun].
    - unfold writeRun. cbn [flat_map app]. rewrite (readBytes_app 4 (le_bytes 4 0) rest (le_bytes_length 4 0)).
      rewrite le_read_bytes by reflexivity. reflexivity.
    - pose proof (Forall_inv HQ) as Qx. apply Forall_inv_tail in HQ. unfold writeRun. cbn [flat_map]. unfold writetup. rewrite <- !app_assoc.
      rewrite (readBytes_app 4 (lenWord size)) by apply le_bytes_length. unfold lenWord at 1. rewrite le_read_bytes by exact Hsize.
      destruct (N.eqb_spec (size + 4) 0); [lia|]. rewrite (readBytes_app (N.to_nat size) (image x)) by (apply Hlen; exact Qx).
      change (flat_map (fun x => lenWord size ++ image x ++ (if ra then lenWord size else [])) l) with (flat_map (writetup image size ra) l).
      assert (Hr : forall r, read f (flat_map (writetup image size ra) l ++ le_bytes 4 0 ++ r) = Some (l, r)).
      { intro r. rewrite app_assoc. apply (IH HQ f r). cbn [length] in Hf. lia. }
      destruct ra.
      + rewrite (readBytes_app 4 (lenWord size)) by apply le_bytes_length. rewrite Hr, Hparse by exact Qx. reflexivity.
      + cbn [app]. rewrite Hr, Hparse by exact Qx. reflexivity.
  Qed.
  Lemma write_length l : length l < S (length (write l)).
  Proof.
    unfold writeRun. rewrite app_length. induction l as [|x l IH]; cbn [flat_map length]; [lia|]. unfold writetup at 1. rewrite !app_length. unfold lenWord at 1. rewrite le_bytes_length. lia.
  Qed.
  Lemma readRuns_write rs : Forall (Forall Q) rs -> readRuns parse size ra (map write rs) = Some rs.
  Proof.
    induction rs as [|r rs IH]; intro H; [reflexivity|]. cbn [map readRuns]. rewrite <- (app_nil_r (write r)) at 2.
    rewrite (read_write r (Forall_inv H) _ []) by apply write_length. rewrite IH by exact (Forall_inv_tail H). reflexivity.
  Qed.
  Lemma merge_Q rs : Forall (Forall Q) rs -> Forall Q (mergeRuns d cmp rs).
  Proof.
    intro H. apply Forall_forall. intros x Hx. apply (Permutation_in _ (merge_perm d cmp rs)) in Hx. apply in_concat in Hx as (l & Hl & Hx).
    rewrite Forall_forall in H. specialize (H l Hl). rewrite Forall_forall in H. exact (H x Hx).
  Qed.
  (** What a pass does to the runs, whatever property of runs the merge keeps. *)
  Variable R : list A -> Prop.
  Hypothesis HR : forall rs, Forall R rs -> R (mergeRuns d cmp rs).
  Lemma firstn_map {X Y} (f : X -> Y) n l : firstn n (map f l) = map f (firstn n l).
  Proof. revert l. induction n; intros [|x l]; cbn; congruence. Qed.
  Lemma skipn_map {X Y} (f : X -> Y) n l : skipn n (map f l) = map f (skipn n l).
  Proof. revert l. induction n; intros [|x l]; cbn; congruence. Qed.
  Lemma Forall_split {X} (G : X -> Prop) n l : Forall G l -> Forall G (firstn n l) /\ Forall G (skipn n l).
  Proof. intro H. rewrite <- (firstn_skipn n l) in H. apply Forall_app in H. exact H. Qed.
  Lemma pass_spec k fuel : 0 < k -> forall rs, length rs <= fuel -> Forall (Forall Q) rs -> Forall R rs ->
    exists rs', mergePass d cmp image parse size ra fuel k (map write rs) = Some (map write rs') /\
      Permutation (concat rs') (concat rs) /\ Forall (Forall Q) rs' /\ Forall R rs' /\
      length rs' <= length rs /\ (1 < k -> 1 < length rs -> length rs' < length rs).
  Proof.
    intro Hk. induction fuel as [|f IH]; intros rs Hf HQ Hr.
    - destruct rs; [|cbn in Hf; lia]. exists []. cbn. repeat split; auto; lia.
    - destruct rs as [|r rs]; [exists []; cbn; repeat split; auto; lia|]. set (l := r :: rs) in *.
      assert (El : map write l = write r :: map write rs) by reflexivity. cbn [mergePass]. rewrite El. rewrite <- El.
      rewrite firstn_map, skipn_map. destruct (Forall_split _ k _ HQ) as [Q1 Q2]. destruct (Forall_split _ k _ Hr) as [R1 R2].
      rewrite readRuns_write by exact Q1.
      assert (Hs : length (skipn k l) <= f) by (rewrite skipn_length; cbn [length l] in *; lia).
      destruct (IH (skipn k l) Hs Q2 R2) as (rs' & E & Hp & Q' & R' & L' & _). rewrite E.
      exists (mergeRuns d cmp (firstn k l) :: rs'). split; [reflexivity|]. split; [|split; [|split; [|split]]].
      + cbn [concat]. rewrite (merge_perm d cmp), Hp, <- concat_app, firstn_skipn. reflexivity.
      + constructor; [apply merge_Q; exact Q1|exact Q'].
      + constructor; [apply HR; exact R1|exact R'].
      + rewrite skipn_length in L'. cbn [length] in *. unfold l in *. cbn [length] in *. lia.
      + intros H1 H2. rewrite skipn_length in L'. unfold l in *. cbn [length] in *. lia.
  Qed.
  Lemma passes_spec k fuel : 1 < k -> forall rs, length rs < fuel -> Forall (Forall Q) rs -> Forall R rs ->
    exists out, passes d cmp image parse size ra fuel k (map write rs) = Some out /\ Permutation out (concat rs) /\ R out.
  Proof.
    intro Hk. induction fuel as [|f IH]; intros rs Hf HQ Hr; [lia|]. cbn [passes]. rewrite map_length.
    destruct (Nat.leb_spec (length rs) k) as [L|L].
    - rewrite readRuns_write by exact HQ. exists (mergeRuns d cmp rs). split; [reflexivity|]. split; [apply merge_perm|apply HR; exact Hr].
    - destruct (pass_spec k (length rs) ltac:(lia) rs ltac:(lia) HQ Hr) as (rs' & E & Hp & Q' & R' & _ & L'). rewrite E.
      destruct (IH rs' ltac:(lia) Q' R') as (out & Eo & Po & Ro). exists out. split; [exact Eo|]. split; [rewrite Po; exact Hp|exact Ro].
  Qed.
  Variable sortRun : (A -> A -> Z) -> list A -> list A.
  Lemma spill_spec k chunks : 1 < k -> Forall (Forall Q) chunks -> (forall l, In l chunks -> Permutation (sortRun cmp l) l /\ R (sortRun cmp l)) ->
    exists out, spillSort d cmp image parse size ra sortRun k chunks = Some out /\ Permutation out (concat chunks) /\ R out.
  Proof.
    intros Hk HQ Hs. unfold spillSort. rewrite <- (map_map (sortRun cmp) write).
    destruct (passes_spec k (S (length chunks)) Hk (map (sortRun cmp) chunks)) as (out & E & Hp & Ho).
    - rewrite map_length. lia.
    - apply Forall_forall. intros l' Hl. apply in_map_iff in Hl as (l & <- & Hl). destruct (Hs l Hl) as [Hp _].
      rewrite Forall_forall in HQ. specialize (HQ l Hl). apply Forall_forall. intros x Hx. rewrite Forall_forall in HQ. apply HQ. exact (Permutation_in _ Hp Hx).
    - apply Forall_forall. intros l' Hl. apply in_map_iff in Hl as (l & <- & Hl). apply (Hs l Hl).
    - exists out. split; [exact E|]. split; [|exact Ho]. rewrite Hp. clear - Hs. induction chunks as [|c cs IH]; [reflexivity|]. cbn [map concat].
      apply Permutation_app; [apply Hs; left; reflexivity|apply IH; intros l Hl; apply Hs; right; exact Hl].
  Qed.
End Tape.

(** ** the bytes of an item *)
Definition item_ok (nKeys : nat) (it : sortItem) : Prop :=
  ip_ok (fst (fst it)) /\ length (snd it) = nKeys /\ Forall (fun v => (v < 2 ^ 64)%N) (snd it).
Lemma distances_len ds : length (flat_map (le_bytes 8) ds) = 8 * length ds.
Proof. induction ds as [|v ds IH]; [reflexivity|]. cbn [flat_map length]. rewrite app_length, IH, le_bytes_length. lia. Qed.
Lemma parse_distances ds : Forall (fun v => (v < 2 ^ 64)%N) ds -> parseDistances (length ds) (flat_map (le_bytes 8) ds) = ds.
Proof.
  induction ds as [|v ds IH]; intro H; [reflexivity|]. cbn [flat_map length parseDistances].
  assert (E1 : forall r, firstn 8 (le_bytes 8 v ++ r) = le_bytes 8 v) by reflexivity.
  assert (E2 : forall r, skipn 8 (le_bytes 8 v ++ r) = r) by reflexivity. rewrite E1, E2.
  rewrite le_read_bytes by exact (Forall_inv H). rewrite IH by exact (Forall_inv_tail H). reflexivity.
Qed.
Lemma image_length pad n it : item_ok n it -> length (imageItem pad it) = N.to_nat (RumSortItemSize n).
Proof.
  destruct it as [[p re] ds]. intros (_ & H & _). cbn [snd] in H. unfold imageItem, RumSortItemSize. rewrite !app_length, !le_bytes_length, distances_len, H. cbn [length]. lia.
Qed.
Lemma parse_image pad n it : item_ok n it -> parseItem n (imageItem pad it) = it.
Proof.
  destruct it as [[p re] ds]. intros ([Hb Ho] & H & Hd). cbn [fst snd] in *.
  assert (Hhi : (N.shiftr (blk p) 16 < 2 ^ 16)%N).
  { rewrite N.shiftr_div_pow2. apply N.div_lt_upper_bound; [discriminate|]. change (2^16*2^16)%N with (2^32)%N. exact Hb. }
  assert (Hlo : (N.land (blk p) 0xFFFF < 2 ^ 16)%N).
  { change 0xFFFF%N with (N.ones 16). rewrite N.land_ones. apply N.mod_lt. discriminate. }
  unfold parseItem, imageItem.
  assert (E1 : forall v r, firstn 2 (le_bytes 2 v ++ r) = le_bytes 2 v) by reflexivity.
  assert (E2 : forall v r, skipn 2 (le_bytes 2 v ++ r) = r) by reflexivity.
  assert (E4 : forall v w r, skipn 4 (le_bytes 2 v ++ le_bytes 2 w ++ r) = r) by reflexivity.
  assert (E6 : forall u v w r, skipn 6 (le_bytes 2 u ++ le_bytes 2 v ++ le_bytes 2 w ++ r) = r) by reflexivity.
  assert (E8 : forall u v w x y r, skipn 8 (le_bytes 2 u ++ le_bytes 2 v ++ le_bytes 2 w ++ [x; y] ++ r) = r) by reflexivity.
  rewrite E8, E6, E4, E2, !E1. rewrite !le_read_bytes by assumption. rewrite <- H, parse_distances by exact Hd.
  assert (Hblk : N.lor (N.shiftl (N.shiftr (blk p) 16) 16) (N.land (blk p) 0xFFFF) = blk p).
  { rewrite N.lor_comm, lor_shiftl_add by exact Hlo. change 0xFFFF%N with (N.ones 16). rewrite N.land_ones, N.shiftr_div_pow2.
    rewrite N.add_comm, N.mul_comm. symmetry. apply N.div_mod. discriminate. }
  rewrite Hblk. destruct p, re; reflexivity.
Qed.
