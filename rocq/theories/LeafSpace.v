(** Space accounting on leaf pages. *)
From Verif Require Import Base Ord OrdProof LeafPage LeafProof.
From Coq Require Import NArith ZifyBool ZifyNat ZifyN.
Local Open Scope N_scope.
Ltac Zify.zify_post_hook ::= Z.div_mod_to_equations.

Section Space.
  Context {T : Type} (cmp : T -> T -> Z) (tmin : T) (sz : T -> T -> N -> N) (psz : N).
  Context (OK : total_cmp cmp).
  (** legal items *)
  Variable ok : T -> Prop.
  Hypothesis ok_min : ok tmin.
  Hypothesis sz_gt : forall x p pos, ok x -> ok p -> pos < sz x p pos.
  Hypothesis sz_mono : forall x p pos pos', ok x -> ok p -> pos <= pos' -> sz x p pos <= sz x p pos'.
  (** a period of the alignment *)
  Variable al : N.
  Hypothesis al_pos : 0 < al.
  Hypothesis sz_per : forall x p pos k, ok x -> ok p -> sz x p (pos + al * k) = sz x p pos + al * k.
  (** a nearer predecessor never makes an item longer *)
  Hypothesis sz_prev : forall x p q pos, ok x -> ok p -> ok q ->
    (cmp p q <= 0)%Z -> (cmp q x < 0)%Z -> sz x q pos <= sz x p pos.

  Notation R := (run_size sz).

  Lemma R_mono l : forall p pos pos', Forall ok l -> ok p -> pos <= pos' -> R p l pos <= R p l pos'.
  Proof.
    induction l as [|x r IH]; intros p pos pos' Hl Hp H; cbn [run_size]; [exact H|].
    apply Forall_cons_iff in Hl as [Hx Hr]. apply IH; auto.
  Qed.
  Lemma R_ge l : forall p pos, Forall ok l -> ok p -> pos + N.of_nat (length l) <= R p l pos.
  Proof.
    induction l as [|x r IH]; intros p pos Hl Hp; cbn [run_size length]; [lia|].
    apply Forall_cons_iff in Hl as [Hx Hr]. specialize (IH x (sz x p pos) Hr Hx).
    specialize (sz_gt x p pos Hx Hp). lia.
  Qed.
  Lemma R_per l : forall p pos k, Forall ok l -> ok p -> R p l (pos + al * k) = R p l pos + al * k.
  Proof.
    induction l as [|x r IH]; intros p pos k Hl Hp; cbn [run_size]; [reflexivity|].
    apply Forall_cons_iff in Hl as [Hx Hr]. rewrite sz_per by auto. apply IH; auto.
  Qed.
  (** moving a run to another position changes its length by less than the alignment *)
  Lemma R_shift l p pos d : Forall ok l -> ok p -> R p l (pos + d) <= R p l pos + d + (al - 1).
  Proof.
    intros Hl Hp. set (k := (d + (al - 1)) / al).
    assert (Hk : d <= al * k /\ al * k <= d + (al - 1)).
    { unfold k. pose proof (N.mul_div_le (d + (al - 1)) al ltac:(lia)).
      pose proof (N.mul_succ_div_gt (d + (al - 1)) al ltac:(lia)). nia. }
    pose proof (R_mono l p (pos + d) (pos + al * k) Hl Hp ltac:(lia)).
    rewrite R_per in H by auto. lia.
  Qed.
  Lemma R_shift_down l p pos d : Forall ok l -> ok p -> R p l pos + d <= R p l (pos + d) + (al - 1).
  Proof.
    intros Hl Hp. set (k := d / al).
    assert (Hk : al * k <= d /\ d <= al * k + (al - 1)).
    { unfold k. pose proof (N.mul_div_le d al ltac:(lia)).
      pose proof (N.mul_succ_div_gt d al ltac:(lia)). nia. }
    pose proof (R_mono l p (pos + al * k) (pos + d) Hl Hp ltac:(lia)).
    rewrite R_per in H by auto. lia.
  Qed.
  (** a nearer predecessor never makes a run longer *)
  Lemma R_prev l p q pos : Forall ok l -> ok p -> ok q -> (cmp p q <= 0)%Z ->
    (match l with [] => True | x :: _ => (cmp q x < 0)%Z end) -> R q l pos <= R p l pos.
  Proof.
    intros Hl Hp Hq Hpq Hx. destruct l as [|x r]; cbn [run_size]; [lia|].
    apply Forall_cons_iff in Hl as [Ho Hr]. apply R_mono; auto.
  Qed.

  Lemma Forall_skipn {A} (P : A -> Prop) n l : Forall P l -> Forall P (skipn n l).
  Proof. intro H. rewrite <- (firstn_skipn n l) in H. apply Forall_app in H. tauto. Qed.
  Lemma Forall_firstn {A} (P : A -> Prop) n l : Forall P l -> Forall P (firstn n l).
  Proof. intro H. rewrite <- (firstn_skipn n l) in H. apply Forall_app in H. tauto. Qed.
  Lemma ok_last l : Forall ok l -> ok (last l tmin).
  Proof.
    intro H. destruct l as [|y l] using rev_ind; [exact ok_min|]. rewrite last_last.
    apply Forall_app in H as [_ H]. inversion H; assumption.
  Qed.

  (** Inserting one item between [pre] and [olds]. *)
  Lemma insert_space pre n olds budget :
    Forall ok pre -> ok n -> Forall ok olds ->
    (cmp (last pre tmin) n < 0)%Z -> (match olds with [] => True | o :: _ => (cmp n o < 0)%Z end) ->
    (sz n (last pre tmin) (R tmin pre 0) <= R tmin pre 0 + budget) ->
    R tmin (pre ++ olds) 0 + budget + (al - 1) <= psz ->
    R tmin (pre ++ n :: olds) 0 <= psz.
  Proof.
    intros Hpre Hn Holds Hln Hno Hb Hp. rewrite (run_size_app sz) in *. cbn [run_size].
    set (p := R tmin pre 0) in *. set (q := last pre tmin) in *.
    assert (Hq : ok q) by (apply ok_last; exact Hpre).
    assert (R n olds (sz n q p) <= R q olds (sz n q p)).
    { apply R_prev; auto. lia. }
    assert (R q olds (sz n q p) <= R q olds (p + budget)) by (apply R_mono; auto).
    pose proof (R_shift olds q p budget Holds Hq). lia.
  Qed.

  (** The batch loop, items without alignment. *)
  Lemma place_loop_space : al = 1 -> forall fuel rm (bound : T) olds news prev prev0 pos free stop w rest e,
    Forall ok olds -> Forall ok news -> ok prev -> ok prev0 -> ssorted cmp olds -> ssorted cmp news ->
    (cmp prev0 prev <= 0)%Z ->
    (forall x, In x olds -> (cmp prev x < 0)%Z) -> (forall x, In x news -> (cmp prev x < 0)%Z) ->
    R prev0 olds pos + free <= psz ->
    place_loop cmp sz fuel rm bound olds news prev pos free stop = Some (w, rest, e) ->
    R prev w pos = e /\ e <= psz.
  Proof.
    intros Hal fuel.
    assert (Heq : forall x p pos k, ok x -> ok p -> sz x p (pos + k) = sz x p pos + k).
    { intros. pose proof (sz_per x p pos k). rewrite Hal, !N.mul_1_l in H1. auto. }
    induction fuel as [|f IH]; intros rm bound olds news prev prev0 pos free stop w rest e
      Ho Hn Hp Hp0 Hso Hsn Hpp Hlo Hln Hsp; [discriminate|].
    cbn [place_loop].
    assert (Hcopy : forall o olds' news', olds = o :: olds' -> Forall ok news' -> ssorted cmp news' ->
       (forall x, In x news' -> (cmp o x < 0)%Z) ->
       match place_loop cmp sz f rm bound olds' news' o (sz o prev pos) free stop with
       | Some (w, rest, e) => Some (o :: w, rest, e) | None => None end = Some (w, rest, e) ->
       R prev w pos = e /\ e <= psz).
    { intros o olds' news' -> Hn' Hsn' Hln'.
      destruct (place_loop cmp sz f rm bound olds' news' o _ free stop) as [[[w0 r0] e0]|] eqn:E; [|discriminate].
      intro H. injection H as <- <- <-. cbn [run_size].
      apply Forall_cons_iff in Ho as [Hoo Ho]. apply (ssorted_inv cmp) in Hso as [Hso Hf].
      rewrite Forall_forall in Hf.
      eapply (IH rm bound olds' news' o o); eauto.
      - rewrite (tc_refl _ OK). lia.
      - cbn [run_size] in Hsp.
        pose proof (sz_prev o prev0 prev pos Hoo Hp0 Hp Hpp (Hlo o (or_introl eq_refl))).
        pose proof (R_mono olds' o _ _ Ho Hoo H). lia. }
    assert (Hins : forall n news', news = n :: news' -> (forall x, In x olds -> (cmp n x < 0)%Z) ->
       (if sz n prev (pos mod 8) - pos mod 8 <=? free
        then match place_loop cmp sz f rm bound olds news' n (sz n prev pos)
                     (free - (sz n prev (pos mod 8) - pos mod 8)) stop with
             | Some (w, rest, e) => Some (n :: w, rest, e) | None => None end
        else place_loop cmp sz f rm bound olds news prev pos free true) = Some (w, rest, e) ->
       R prev w pos = e /\ e <= psz).
    { intros n news' -> Hno.
      assert (Hn0 := Hn). assert (Hsn0 := Hsn). assert (Hln0 := Hln).
      apply Forall_cons_iff in Hn as [Hnn Hn]. apply (ssorted_inv cmp) in Hsn as [Hsn Hf].
      rewrite Forall_forall in Hf.
      destruct (N.leb_spec (sz n prev (pos mod 8) - pos mod 8) free) as [L|L].
      - destruct (place_loop cmp sz f rm bound olds news' n _ _ stop) as [[[w0 r0] e0]|] eqn:E; [|discriminate].
        intro H. injection H as <- <- <-. cbn [run_size].
        assert (Hq : sz n prev pos = pos + (sz n prev (pos mod 8) - pos mod 8)).
        { pose proof (Heq n prev (pos mod 8) (pos - pos mod 8) Hnn Hp).
          pose proof (sz_gt n prev (pos mod 8) Hnn Hp).
          assert (pos mod 8 <= pos) by (apply N.mod_le; lia).
          replace (pos mod 8 + (pos - pos mod 8)) with pos in H by lia. lia. }
        eapply (IH rm bound olds news' n prev0); eauto.
        + assert (cmp prev n < 0)%Z by (apply Hln; left; reflexivity).
          apply (tc_trans _ OK _ prev); [exact Hpp|lia].
        + rewrite Hq. pose proof (R_per olds prev0 pos (sz n prev (pos mod 8) - pos mod 8) Ho Hp0).
          rewrite Hal, N.mul_1_l in H. rewrite H. lia.
      - intro H. eapply (IH rm bound olds (n :: news') prev prev0); eauto. }
    destruct olds as [|o olds'], news as [|n news'].
    - intro H. injection H as <- <- <-. cbn [run_size] in *. split; [reflexivity|lia].
    - assert (Hend : Some (@nil T, n :: news', pos) = Some (w, rest, e) -> R prev w pos = e /\ e <= psz).
      { intro H. injection H as <- <- <-. cbn [run_size] in *. split; [reflexivity|lia]. }
      destruct stop; [exact Hend|]. destruct rm; [apply (Hins n news'); auto; try (intros x [])|].
      destruct (0 <=? cmp bound n)%Z; [apply (Hins n news'); auto; try (intros x [])|exact Hend].
    - apply (Hcopy o olds' []); auto; try constructor; try (intros x []).
    - destruct (Z.leb_spec (if stop then -1 else cmp o n) 0) as [L|L].
      + destruct (Z.eqb_spec (if stop then -1 else cmp o n) 0) as [E|E].
        * destruct stop; [discriminate|]. apply Forall_cons_iff in Hn as [Hnn Hn].
          apply (ssorted_inv cmp) in Hsn as [Hsn Hf]. rewrite Forall_forall in Hf.
          apply (Hcopy o olds' news'); auto. intros x Hx. apply (cmp_le_lt_trans _ OK _ n); [lia|auto].
        * destruct stop.
          { (* stopped: the batch is only carried along *)
            destruct (place_loop cmp sz f rm bound olds' (n :: news') o _ free true) as [[[w0 r0] e0]|] eqn:E1; [|discriminate].
            intro H. injection H as <- <- <-.
            (* the carried batch plays no role; reuse the loop on an empty batch *)
            assert (Hempty : forall g ol p ps w r e', place_loop cmp sz g rm bound ol (n :: news') p ps free true = Some (w, r, e') ->
              place_loop cmp sz g rm bound ol [] p ps free true = Some (w, [], e')).
            { clear. induction g as [|g IH]; intros ol p ps w r e'; [discriminate|]. cbn [place_loop].
              destruct ol as [|o ol].
              - intro H. injection H as <- <- <-. reflexivity.
              - cbn [Z.leb Z.eqb Z.compare]. destruct (place_loop cmp sz g rm bound ol (n :: news') o _ free true) as [[[w0 r0] e0]|] eqn:E; [|discriminate].
                intro H. injection H as <- <- <-. rewrite (IH _ _ _ _ _ _ E). reflexivity. }
            apply Hempty in E1. cbn [run_size].
            apply Forall_cons_iff in Ho as [Hoo Ho]. apply (ssorted_inv cmp) in Hso as [Hso Hf].
            rewrite Forall_forall in Hf.
            eapply (IH rm bound olds' [] o o); eauto.
            - constructor.
            - rewrite (tc_refl _ OK). lia.
            - intros x [].
            - cbn [run_size] in Hsp.
              pose proof (sz_prev o prev0 prev pos Hoo Hp0 Hp Hpp (Hlo o (or_introl eq_refl))).
              pose proof (R_mono olds' o _ _ Ho Hoo H). lia. }
          apply (Hcopy o olds' (n :: news')); auto. intros x [<-|Hx]; [lia|].
          apply (ssorted_inv cmp) in Hsn as [Hsn Hf]. rewrite Forall_forall in Hf.
          apply (cmp_lt_trans _ OK _ n); [lia|auto].
      + destruct stop; [lia|]. apply (Hins n news'); auto. apply (cmp_gt_lt _ OK) in L.
        intros x [<-|Hx]; [exact L|]. apply (ssorted_inv cmp) in Hso as [Hso Hf]. rewrite Forall_forall in Hf.
        apply (cmp_lt_trans _ OK _ o); auto.
  Qed.

  (** dataPlaceToPage never writes past the data area: batch without alignment. *)
  Lemma place_leaf_space rm bound items batch items' rest e :
    al = 1 -> Forall ok items -> Forall ok batch -> ssorted cmp items -> ssorted cmp batch ->
    (forall x, In x items -> (cmp tmin x < 0)%Z) -> (forall x, In x batch -> (cmp tmin x < 0)%Z) ->
    R tmin items 0 <= psz ->
    dataPlaceToPageLeaf cmp tmin sz psz rm bound items batch = Some (items', rest, e) ->
    R tmin items' 0 = e /\ e <= psz.
  Proof.
    intros Hal Hoi Hob Hsi Hsb Hmi Hmb Hsp. unfold dataPlaceToPageLeaf.
    destruct batch as [|key btl]; [discriminate|].
    pose proof (findInLeafPage_spec cmp tmin OK items key Hsi (Hmb key (or_introl eq_refl))) as Hp.
    destruct (findInLeafPage cmp tmin items key) as [fd off].
    destruct Hp as (Hoff & Hpre & Hpost & _ & _).
    set (pre := firstn (off - 1) items) in *. set (olds := skipn (off - 1) items) in *.
    destruct (place_loop _ _ _ _ _ _ _ _ _ _ _) as [[[w r] e0]|] eqn:E; [|discriminate].
    intro H. injection H as <- <- <-.
    assert (Hi : items = pre ++ olds) by (symmetry; apply firstn_skipn).
    assert (Hopre : Forall ok pre) by (apply Forall_firstn; auto).
    assert (Hoolds : Forall ok olds) by (apply Forall_skipn; auto).
    assert (Hsplit := Hsi). rewrite Hi in Hsplit. apply (ssorted_app cmp) in Hsplit as (Hs1 & Hs2 & Hs3).
    rewrite (run_size_app sz).
    assert (Hlast : forall x, In x olds -> (cmp (last pre tmin) x < 0)%Z).
    { intros x Hx. destruct pre as [|y l] eqn:Epre using rev_ind.
      - apply Hmi. rewrite Hi. exact Hx.
      - rewrite last_last. apply Hs3; [apply in_app_iff; right; left; reflexivity|exact Hx]. }
    assert (Hlastk : (cmp (last pre tmin) key < 0)%Z).
    { destruct pre as [|y l] eqn:Epre using rev_ind.
      - apply Hmb; left; reflexivity.
      - rewrite last_last. rewrite Forall_forall in Hpre. apply Hpre. apply in_app_iff; right; left; reflexivity. }
    assert (Hlastb : forall x, In x (key :: btl) -> (cmp (last pre tmin) x < 0)%Z).
    { intros x [<-|Hx]; [exact Hlastk|]. apply (ssorted_inv cmp) in Hsb as [_ Hf]. rewrite Forall_forall in Hf.
      apply (cmp_lt_trans _ OK _ key); auto. }
    assert (Hol : ok (last pre tmin)) by (apply ok_last; auto).
    assert (Hrefl : (cmp (last pre tmin) (last pre tmin) <= 0)%Z) by (rewrite (tc_refl _ OK); lia).
    assert (Hroom : R (last pre tmin) olds (R tmin pre 0) + leafFree tmin sz psz items <= psz).
    { unfold leafFree. rewrite <- (run_size_app sz), <- Hi. lia. }
    exact (place_loop_space Hal _ _ _ _ _ _ _ _ _ _ _ _ _ Hoolds Hob Hol Hol Hs2 Hsb Hrefl Hlast Hlastb Hroom E).
  Qed.

  (** Size of a run after one item has been put in. *)
  Lemma insert_total S pre n olds :
    Forall ok pre -> ok n -> Forall ok olds -> al <= 8 ->
    (cmp (last pre tmin) n < 0)%Z -> (match olds with [] => True | o :: _ => (cmp n o < 0)%Z end) ->
    (sz n (last pre tmin) (R tmin pre 0) <= R tmin pre 0 + S) ->
    (forall x p q pos, ok x -> ok p -> ok q -> sz x q pos <= sz x p pos + 8) ->
    R tmin (pre ++ n :: olds) 0 <= R tmin (pre ++ olds) 0 + S + 7 /\
    R tmin (pre ++ olds) 0 <= R tmin (pre ++ n :: olds) 0 + 15.
  Proof.
    intros Hpre Hn Holds Hal Hln Hno HS Hre. rewrite !(run_size_app sz). cbn [run_size].
    set (p := R tmin pre 0) in *. set (q := last pre tmin) in *.
    assert (Hq : ok q) by (apply ok_last; exact Hpre). split.
    - assert (R n olds (sz n q p) <= R q olds (sz n q p)) by (apply R_prev; auto; lia).
      assert (R q olds (sz n q p) <= R q olds (p + S)) by (apply R_mono; auto).
      pose proof (R_shift olds q p S Holds Hq). lia.
    - assert (R n olds p <= R n olds (sz n q p)).
      { apply R_mono; auto. pose proof (sz_gt n q p Hn Hq). lia. }
      assert (R q olds p <= R n olds p + 15); [|lia].
      destruct olds as [|o r]; cbn [run_size]; [lia|].
      apply Forall_cons_iff in Holds as [Ho Hr].
      pose proof (R_mono r o _ _ Hr Ho (Hre o n q p Ho Hn Hq)).
      pose proof (R_shift r o (sz o n p) 8 Hr Ho). lia.
  Qed.

  (** Split: where the split point is, in bytes. *)
  Lemma split_at_size l : forall prev pos total a b,
    split_at sz l prev pos total = Some (a, b) ->
    exists a0 x, a = a0 ++ [x] /\
      total / 2 < R prev a pos /\
      R prev a pos = sz x (last a0 prev) (R prev a0 pos) /\
      (a0 = [] \/ R prev a0 pos <= total / 2).
  Proof.
    induction l as [|x r IH]; intros prev pos total a b; cbn [split_at]; [discriminate|].
    destruct (N.ltb_spec (total / 2) (sz x prev pos)) as [L|L].
    - intro H. injection H as <- <-. exists [], x. cbn. auto.
    - destruct (split_at sz r x _ total) as [[a' b']|] eqn:E; [|discriminate].
      intro H. injection H as <- <-. apply IH in E as (a0 & y & -> & H1 & H2 & H3).
      exists (x :: a0), y. cbn [app run_size]. rewrite (last_cons a0).
      repeat split; auto. right. destruct H3 as [->|H3]; [exact L|exact H3].
  Qed.

  (** Both halves fit when no item takes more than [S] bytes, the sequence is at most one
      item longer than a page and restarting the encoding costs at most 8 bytes. *)
  Lemma split_space (S : N) seq total a b :
    Forall ok seq ->
    (forall x p pos, In x seq -> ok p -> sz x p pos <= pos + S) ->
    (forall x p pos, ok x -> ok p -> sz x tmin pos <= sz x p pos + 8) ->
    al <= 8 -> 3 * S + 32 <= psz -> 128 <= psz -> total = R tmin seq 0 -> total <= psz + S + 8 ->
    split_at sz seq tmin 0 total = Some (a, b) ->
    R tmin a 0 <= psz /\ R tmin b 0 <= psz.
  Proof.
    intros Hok HS Hre Hal H3S Hps Ht Htot Hsp.
    pose proof (split_at_app sz seq _ _ _ _ _ Hsp) as [Hseq _].
    apply split_at_size in Hsp as (a0 & x & Ha & Hgt & Hsz & Hle).
    assert (Hoka : Forall ok a /\ Forall ok b) by (rewrite Hseq in Hok; apply Forall_app in Hok; exact Hok).
    destruct Hoka as [Hoka Hokb].
    assert (Hok0 : ok (last a0 tmin)) by (rewrite Ha in Hoka; apply Forall_app in Hoka as [? _]; apply ok_last; auto).
    split.
    - rewrite Hsz. assert (Hx : In x seq) by (rewrite Hseq, Ha; apply in_app_iff; left; apply in_app_iff; right; left; reflexivity).
      pose proof (HS x (last a0 tmin) (R tmin a0 0) Hx Hok0).
      destruct Hle as [->|Hle]; [cbn [run_size] in *; lia|]. lia.
    - rewrite Hseq, (run_size_app sz) in Ht.
      set (pa := R tmin a 0) in *. set (la := last a tmin) in *.
      assert (Hla : ok la) by (apply ok_last; auto).
      assert (H1 : R la b pa >= R la b 0 + pa - (al - 1)).
      { pose proof (R_shift_down b la 0 pa Hokb Hla). rewrite N.add_0_l in H. lia. }
      assert (H2 : R tmin b 0 <= R la b 0 + 8 + (al - 1)).
      { destruct b as [|y r]; cbn [run_size]; [lia|].
        apply Forall_cons_iff in Hokb as [Hy Hr].
        pose proof (R_mono r y _ _ Hr Hy (Hre y la 0 Hy Hla)).
        pose proof (R_shift r y (sz y la 0) 8 Hr Hy). lia. }
      lia.
  Qed.

  (** every item of the run takes at most [M] bytes at its place *)
  Definition incr_le (M : N) (prev : T) (l : list T) (pos : N) : Prop :=
    forall a0 x r, l = a0 ++ x :: r ->
      sz x (last a0 prev) (R prev a0 pos) <= R prev a0 pos + M.

  Lemma incr_le_cons M prev x r pos : sz x prev pos <= pos + M -> incr_le M x r (sz x prev pos) ->
    incr_le M prev (x :: r) pos.
  Proof.
    intros H1 H2 a0 y r' E. destruct a0 as [|z a0]; cbn [app] in E; injection E as <- E.
    - exact H1.
    - rewrite (last_cons a0). cbn [run_size]. apply (H2 a0 y r'). exact E.
  Qed.

  Lemma total_max_incr l : forall prev total mx t m, Forall ok l -> ok prev ->
    total_max sz prev l total mx = (t, m) -> mx <= m /\ incr_le m prev l total.
  Proof.
    induction l as [|x r IH]; intros prev total mx t m Hl Hp; cbn [total_max].
    - intro H. injection H as <- <-. split; [lia|]. intros a0 y r' E. destruct a0; discriminate.
    - apply Forall_cons_iff in Hl as [Hx Hr]. intro H. apply IH in H as [H1 H2]; auto. split; [lia|].
      apply incr_le_cons; [|exact H2]. pose proof (sz_gt x prev total Hx Hp). lia.
  Qed.

  Lemma append_fit_bound news : forall prev total mx u t, Forall ok news -> ok prev ->
    append_fit sz psz news prev total mx = (u, t) ->
    u = [] /\ t = total \/
    exists u0 n M, u = u0 ++ [n] /\ t + 2 * M + 16 < 2 * psz /\ mx <= M /\ incr_le M prev u0 total.
  Proof.
    induction news as [|n r IH]; intros prev total mx u t Hn Hp; cbn [append_fit].
    - intro H. injection H as <- <-. left. auto.
    - apply Forall_cons_iff in Hn as [Hx Hr].
      destruct (N.ltb_spec (sz n prev total + 2 * mx + 2 * 8) (2 * psz)) as [L|L].
      + destruct (append_fit sz psz r n _ _) as [u' t'] eqn:E. intro H. injection H as <- <-.
        right. apply IH in E as [[-> ->]|(u0 & n' & M & -> & H1 & H2 & H3)]; auto.
        * exists [], n, mx. split; [reflexivity|]. split; [lia|]. split; [lia|].
          intros a0 y r' E. destruct a0; discriminate.
        * exists (n :: u0), n', M. split; [reflexivity|]. split; [exact H1|]. split; [lia|].
          apply incr_le_cons; [|exact H3]. pose proof (sz_gt n prev total Hx Hp). lia.
      + intro H. injection H as <- <-. left. auto.
  Qed.

  Lemma incr_le_app M prev l1 l2 pos : incr_le M prev l1 pos -> incr_le M (last l1 prev) l2 (R prev l1 pos) ->
    incr_le M prev (l1 ++ l2) pos.
  Proof.
    revert prev pos. induction l1 as [|x l1 IH]; intros prev pos H1 H2; [exact H2|].
    cbn [app]. apply incr_le_cons.
    - apply (H1 [] x l1). reflexivity.
    - apply IH.
      + intros a0 y r E. specialize (H1 (x :: a0) y r). rewrite (last_cons a0) in H1. cbn [run_size] in H1.
        apply H1. rewrite E. reflexivity.
      + rewrite (last_cons l1) in H2. exact H2.
  Qed.
  Lemma incr_le_weaken M M' prev l pos : M <= M' -> incr_le M prev l pos -> incr_le M' prev l pos.
  Proof. intros H H1 a0 x r E. specialize (H1 a0 x r E). lia. Qed.

  (** Split after appending part of a batch, items without alignment. *)
  Lemma split_space_append (S : N) items batch total mx used total' a b :
    al = 1 -> Forall ok items -> Forall ok batch ->
    (forall x p pos, In x (items ++ batch) -> ok p -> sz x p pos <= pos + S) ->
    (forall x p pos, ok x -> ok p -> sz x tmin pos <= sz x p pos + 8) ->
    3 * S + 32 <= psz -> 128 <= psz -> R tmin items 0 <= psz ->
    total_max sz tmin items 0 0 = (total, mx) ->
    append_fit sz psz batch (last items tmin) total mx = (used, total') ->
    split_at sz (items ++ used) tmin 0 total' = Some (a, b) ->
    R tmin a 0 <= psz /\ R tmin b 0 <= psz.
  Proof.
    intros Hal Hoi Hob HS Hre H3S Hps Hfit Htm Haf Hsp.
    assert (Ht : total = R tmin items 0) by (rewrite <- (total_max_run sz items tmin 0 0), Htm; reflexivity).
    pose proof (total_max_incr _ _ _ _ _ _ Hoi ok_min Htm) as [_ Hinc].
    pose proof (append_fit_spec sz psz _ _ _ _ _ _ Haf) as [Hb Ht'].
    assert (Hou : Forall ok used) by (rewrite Hb in Hob; apply Forall_app in Hob; tauto).
    assert (HokS : Forall ok (items ++ used)) by (apply Forall_app; auto).
    assert (Htot : total' = R tmin (items ++ used) 0) by (rewrite (run_size_app sz), <- Ht; exact Ht').
    assert (HSu : forall x p pos, In x (items ++ used) -> ok p -> sz x p pos <= pos + S).
    { intros x p pos Hx. apply HS. apply in_app_iff in Hx as [Hx|Hx]; apply in_app_iff; [left; exact Hx|right].
      rewrite Hb. apply in_app_iff. left; exact Hx. }
    destruct (append_fit_bound _ _ _ _ _ _ Hob (ok_last _ Hoi) Haf) as [[-> ->]|(u0 & n & M & Hu & HM & HmxM & Hi2)].
    - rewrite app_nil_r in *. assert (R tmin items 0 <= psz + S) by lia. apply (split_space S items (R tmin items 0) a b); auto; try lia. congruence.
    - pose proof (split_at_app sz _ _ _ _ _ _ Hsp) as [Hseq _].
      apply split_at_size in Hsp as (a0 & x & Ea & Hgt & Hsz & Hle).
      assert (Hoka : Forall ok a /\ Forall ok b) by (rewrite Hseq in HokS; apply Forall_app in HokS; exact HokS).
      destruct Hoka as [Hoka Hokb].
      assert (Hok0 : ok (last a0 tmin)) by (rewrite Ea in Hoka; apply Forall_app in Hoka as [? _]; apply ok_last; auto).
      assert (Hx : In x (items ++ used)) by (rewrite Hseq, Ea; apply in_app_iff; left; apply in_app_iff; right; left; reflexivity).
      split.
      + rewrite Hsz. pose proof (HSu x (last a0 tmin) (R tmin a0 0) Hx Hok0) as HxS.
        destruct Hle as [->|Hle]; [cbn [run_size] in *; lia|].
        destruct b as [|y b'].
        * rewrite app_nil_r in Hseq. rewrite Hseq, Hsz in Htot. lia.
        * assert (Hinc' : incr_le M tmin (items ++ u0) 0).
          { apply incr_le_app; [apply (incr_le_weaken mx); auto; lia|]. rewrite <- Ht. exact Hi2. }
          (* x is not the last element *)
          assert (exists r, items ++ u0 = a0 ++ x :: r) as [r Er].
          { rewrite Hu, app_assoc, Ea in Hseq.
            destruct (y :: b') as [|z c _] eqn:Eb using rev_ind; [discriminate|].
            rewrite app_assoc in Hseq. apply app_inj_tail in Hseq as [Hseq _].
            exists c. rewrite Hseq, <- app_assoc. reflexivity. }
          specialize (Hinc' _ _ _ Er). lia.
      + rewrite Hseq, (run_size_app sz) in Htot.
        set (pa := R tmin a 0) in *. set (la := last a tmin) in *.
        assert (Hla : ok la) by (apply ok_last; auto).
        assert (H1 : R la b pa >= R la b 0 + pa).
        { pose proof (R_shift_down b la 0 pa Hokb Hla). rewrite N.add_0_l in H. lia. }
        assert (H2 : R tmin b 0 <= R la b 0 + 8).
        { destruct b as [|y r]; cbn [run_size]; [lia|].
          apply Forall_cons_iff in Hokb as [Hy Hr].
          pose proof (R_mono r y _ _ Hr Hy (Hre y la 0 Hy Hla)).
          pose proof (R_shift r y (sz y la 0) 8 Hr Hy). lia. }
        lia.
  Qed.

  (** One item inserted, aligned to 8 with a length that is a multiple of 8. *)
  Lemma insert_space8 pre n olds b :
    Forall ok pre -> ok n -> Forall ok olds -> al = 8 ->
    (cmp (last pre tmin) n < 0)%Z -> (match olds with [] => True | o :: _ => (cmp n o < 0)%Z end) ->
    (sz n (last pre tmin) (R tmin pre 0) <= (R tmin pre 0 + 7) / 8 * 8 + 8 * b) ->
    R tmin (pre ++ olds) 0 + 8 * b + 8 <= psz ->
    R tmin (pre ++ n :: olds) 0 <= psz.
  Proof.
    intros Hpre Hn Holds Hal Hln Hno Hb Hp. rewrite (run_size_app sz) in *. cbn [run_size].
    set (p := R tmin pre 0) in *. set (q := last pre tmin) in *.
    assert (Hq : ok q) by (apply ok_last; exact Hpre).
    assert (R n olds (sz n q p) <= R q olds (sz n q p)).
    { apply R_prev; auto. lia. }
    assert (R q olds (sz n q p) <= R q olds (p + 8 * (b + 1))).
    { apply R_mono; auto. lia. }
    pose proof (R_per olds q p (b + 1) Holds Hq) as HR. rewrite Hal in HR. lia.
  Qed.

  (** The right page is not empty when no item takes half of the sequence. *)
  Lemma split_right_nonempty (S : N) seq total a b :
    Forall ok seq -> (forall x p pos, In x seq -> ok p -> sz x p pos <= pos + S) ->
    total = R tmin seq 0 -> 2 * S + 1 < total ->
    split_at sz seq tmin 0 total = Some (a, b) -> b <> [].
  Proof.
    intros Hok HS Ht Hbig Hsp ->.
    pose proof (split_at_app sz _ _ _ _ _ _ Hsp) as [Hseq _].
    apply split_at_size in Hsp as (a0 & x & Ea & Hgt & Hsz & Hle).
    rewrite app_nil_r in Hseq. rewrite <- Hseq in *.
    assert (Hx : In x seq) by (rewrite Ea; apply in_app_iff; right; left; reflexivity).
    assert (Hok0 : ok (last a0 tmin)) by (rewrite Ea in Hok; apply Forall_app in Hok as [? _]; apply ok_last; auto).
    pose proof (HS x (last a0 tmin) (R tmin a0 0) Hx Hok0).
    destruct Hle as [->|Hle]; [cbn [run_size] in *; lia|]. lia.
  Qed.
End Space.
