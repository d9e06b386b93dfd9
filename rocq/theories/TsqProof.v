(** Proofs about Tsq.v. *)
From Coq Require Import Lia ZifyN Sorted Permutation.
From Verif Require Import Base Ord Codec PosCodec PosSpec PosProof Tsq TsqSpec.
Local Open Scope Z_scope.

(** *** the merge loop *)
Lemma merge_eq eL eR eB lo ro L R : phrase_merge eL eR eB lo ro L R =
  match L, R with
  | [], [] => []
  | [], r :: R' =>
      if negb eR then [] else
      if INT_MAX <? posat ro r then phrase_merge eL eR eB lo ro L R'
      else if INT_MAX =? posat ro r then keep (if eB then posat ro r else 0) (phrase_merge eL eR eB lo ro L R')
      else keep (posat ro r) (phrase_merge eL eR eB lo ro L R')
  | l :: L', [] => if negb eL then [] else keep (posat lo l) (phrase_merge eL eR eB lo ro L' R)
  | l :: L', r :: R' =>
      if posat lo l <? posat ro r then keep (if eL then posat lo l else 0) (phrase_merge eL eR eB lo ro L' R)
      else if posat lo l =? posat ro r then keep (if eB then posat ro r else 0) (phrase_merge eL eR eB lo ro L' R')
      else keep (if eR then posat ro r else 0) (phrase_merge eL eR eB lo ro L R')
  end.
Proof. destruct L, R; reflexivity. Qed.

Definition inpos (off : Z) (l : list N) (p : Z) : Prop := exists e, In e l /\ p = posat off e.
Definition okside (off : Z) (l : list N) : Prop :=
  StronglySorted (fun a b => posat off a < posat off b) l /\ Forall (fun e => 0 < posat off e < 16384) l.
Lemma inpos_cons off x l p : inpos off (x :: l) p <-> p = posat off x \/ inpos off l p.
Proof.
  split.
  - intros [e [[->|Hi] ->]]; [left; reflexivity|right; exists e; auto].
  - intros [->|[e [Hi ->]]]; [exists x|exists e]; cbn; auto.
Qed.
Lemma inpos_nil off p : inpos off [] p <-> False.
Proof. split; [intros [e [[] _]]|tauto]. Qed.
Lemma okside_cons off x l : okside off (x :: l) ->
  okside off l /\ 0 < posat off x < 16384 /\ forall p, inpos off l p -> posat off x < p.
Proof.
  intros [Hs Hf]. inversion Hs as [|a b Hs' Hx]; subst. inversion Hf as [|a b Hfx Hf']; subst.
  split; [split; assumption|]. split; [assumption|]. intros p [e [Hi ->]].
  rewrite Forall_forall in Hx. exact (Hx e Hi).
Qed.
Lemma okside_ge off l p : okside off l -> inpos off l p -> 0 < p < 16384.
Proof. intros [_ Hf] [e [Hi ->]]. rewrite Forall_forall in Hf. exact (Hf e Hi). Qed.

Lemma posat_to_N p : 0 < p < 16384 -> posat 0 (Z.to_N (p mod 65536)) = p.
Proof.
  intros H. unfold posat. rewrite Z.mod_small by lia. rewrite getpos_position. unfold position.
  rewrite N.mod_small by lia. lia.
Qed.
Lemma okside_cons_intro x l : 0 < x < 16384 -> okside 0 l -> (forall p, inpos 0 l p -> x < p) ->
  okside 0 (Z.to_N (x mod 65536) :: l).
Proof.
  intros Hx [Hs Hf] Hlt. split; constructor; try assumption.
  - apply Forall_forall. intros e He. rewrite posat_to_N by assumption. apply Hlt. exists e. auto.
  - rewrite posat_to_N; assumption.
Qed.
Lemma okside_nil off : okside off [].
Proof. split; constructor. Qed.

Definition emitted (eL eR eB : bool) (pl pr : Prop) : Prop :=
  (eL = true /\ pl /\ ~ pr) \/ (eR = true /\ pr /\ ~ pl) \/ (eB = true /\ pl /\ pr).

Lemma keep_case (b : bool) x rest : 0 < x < 16384 -> okside 0 rest -> (forall p, inpos 0 rest p -> x < p) ->
  okside 0 (keep (if b then x else 0) rest) /\
  (forall p, inpos 0 (keep (if b then x else 0) rest) p <-> (b = true /\ p = x) \/ inpos 0 rest p).
Proof.
  intros Hx Ho Hlt. destruct b; unfold keep.
  - destruct (Z.ltb_spec 0 x); [|lia]. split; [apply okside_cons_intro; assumption|].
    intros p. rewrite inpos_cons, posat_to_N by assumption. intuition.
  - cbn. split; [assumption|]. intros p. intuition discriminate.
Qed.

Lemma merge_spec eL eR eB lo ro L : forall R, okside lo L -> okside ro R ->
  okside 0 (phrase_merge eL eR eB lo ro L R) /\
  forall p, inpos 0 (phrase_merge eL eR eB lo ro L R) p <-> emitted eL eR eB (inpos lo L p) (inpos ro R p).
Proof.
  induction L as [|l L' IHL]; induction R as [|r R' IHR]; intros HL HR; rewrite merge_eq.
  - split; [apply okside_nil|]. intros p. unfold emitted. rewrite !inpos_nil. tauto.
  - destruct (okside_cons _ _ _ HR) as (HR' & Hr & Hlt). specialize (IHR HL HR'). destruct IHR as [Ho Hi].
    destruct eR.
    + cbn [negb].
      assert (INT_MAX = 2147483647) as HM by reflexivity.
      destruct (Z.ltb_spec INT_MAX (posat ro r)); [lia|]. destruct (Z.eqb_spec INT_MAX (posat ro r)); [lia|].
      destruct (keep_case true (posat ro r) _ Hr Ho) as [K1 K2].
      { intros p Hp. apply Hlt. apply Hi in Hp. unfold emitted in Hp. rewrite inpos_nil in Hp. tauto. }
      split; [exact K1|]. intros p. cbn [negb] in K2. rewrite K2, Hi. unfold emitted. rewrite inpos_cons, inpos_nil. intuition.
    + cbn [negb]. split; [apply okside_nil|]. intros p. unfold emitted. rewrite !inpos_nil. intuition discriminate.
  - destruct (okside_cons _ _ _ HL) as (HL' & Hl & Hlt). destruct (IHL [] HL' HR) as [Ho Hi].
    destruct eL.
    + cbn [negb].
      destruct (keep_case true (posat lo l) _ Hl Ho) as [K1 K2].
      { intros p Hp. apply Hlt. apply Hi in Hp. unfold emitted in Hp. rewrite inpos_nil in Hp. tauto. }
      split; [exact K1|]. intros p. cbn [negb] in K2. rewrite K2, Hi. unfold emitted. rewrite inpos_cons, inpos_nil. intuition.
    + cbn [negb]. split; [apply okside_nil|]. intros p. unfold emitted. rewrite !inpos_nil. intuition discriminate.
  - destruct (okside_cons _ _ _ HL) as (HL' & Hl & HltL). destruct (okside_cons _ _ _ HR) as (HR' & Hr & HltR).
    destruct (Z.ltb_spec (posat lo l) (posat ro r)) as [Hlr|Hlr];
      [|destruct (Z.eqb_spec (posat lo l) (posat ro r)) as [He|He]].
    + destruct (IHL (r :: R') HL' HR) as [Ho Hi].
      destruct (keep_case eL (posat lo l) _ Hl Ho) as [K1 K2].
      { intros p Hp. apply Hi in Hp. unfold emitted in Hp. rewrite inpos_cons in Hp.
        destruct Hp as [[_ [Hp _]]|[[_ [[->|Hp] _]]|[_ [Hp _]]]]; auto; try lia;
          specialize (HltR p Hp); lia. }
      split; [exact K1|]. intros p. rewrite K2, Hi. unfold emitted. rewrite !inpos_cons.
      assert (p = posat lo l -> ~ (p = posat ro r \/ inpos ro R' p)) as N1.
      { intros -> [E|E]; [lia|]. specialize (HltR _ E). lia. }
      assert (p = posat lo l -> ~ inpos lo L' p) as N2.
      { intros -> E. specialize (HltL _ E). lia. }
      tauto.
    + destruct (IHL R' HL' HR') as [Ho Hi].
      destruct (keep_case eB (posat ro r) _ Hr Ho) as [K1 K2].
      { intros p Hp. apply Hi in Hp. unfold emitted in Hp.
        destruct Hp as [[_ [Hp _]]|[[_ [Hp _]]|[_ [Hp _]]]]; auto; rewrite <- He; auto. }
      split; [exact K1|]. intros p. rewrite K2, Hi. unfold emitted. rewrite !inpos_cons.
      assert (p = posat ro r -> p = posat lo l) as E1 by lia.
      assert (p = posat lo l -> p = posat ro r) as E2 by lia.
      assert (p = posat lo l -> ~ inpos lo L' p) as N2.
      { intros -> E. specialize (HltL _ E). lia. }
      assert (p = posat ro r -> ~ inpos ro R' p) as N3.
      { intros -> E. specialize (HltR _ E). lia. }
      tauto.
    + destruct (IHR HL HR') as [Ho Hi].
      destruct (keep_case eR (posat ro r) _ Hr Ho) as [K1 K2].
      { intros p Hp. apply Hi in Hp. unfold emitted in Hp. rewrite inpos_cons in Hp.
        destruct Hp as [[_ [[->|Hp] _]]|[[_ [Hp _]]|[_ [[->|Hp] _]]]]; auto; try lia;
          specialize (HltL p Hp); lia. }
      split; [exact K1|]. intros p. rewrite K2, Hi. unfold emitted. rewrite !inpos_cons.
      assert (p = posat ro r -> ~ (p = posat lo l \/ inpos lo L' p)) as N1.
      { intros -> [E|E]; [lia|]. specialize (HltL _ E). lia. }
      assert (p = posat ro r -> ~ inpos ro R' p) as N2.
      { intros -> E. specialize (HltR _ E). lia. }
      tauto.
Qed.

Lemma keep_len x l : (length (keep x l) <= S (length l))%nat.
Proof. unfold keep. destruct (0 <? x); cbn; lia. Qed.
Lemma keep0_len l : length (keep 0 l) = length l.
Proof. reflexivity. Qed.
(** max_npos of the callers is never exceeded (rum_ts_utils.c:466). *)
Lemma merge_len eL eR eB lo ro L : forall R,
  let n := length (phrase_merge eL eR eB lo ro L R) in
  (n <= length L + length R)%nat /\
  (eR = false -> n <= length L)%nat /\ (eL = false -> n <= length R)%nat.
Proof.
  induction L as [|l L' IHL]; induction R as [|r R' IHR]; cbn zeta in *; rewrite merge_eq.
  - cbn. lia.
  - destruct IHR as (H1 & H2 & H3). destruct eR; cbn [negb].
    + destruct (INT_MAX <? posat ro r).
      * cbn [length] in *. split; [lia|]. split; [discriminate|]. intros E. specialize (H3 E). lia.
      * destruct (INT_MAX =? posat ro r).
        -- pose proof (keep_len (if eB then posat ro r else 0) (phrase_merge eL true eB lo ro [] R')).
           cbn [length]. cbn [length] in H1, H2. split; [lia|]. split; [discriminate|]. intros E. specialize (H3 E). lia.
        -- pose proof (keep_len (posat ro r) (phrase_merge eL true eB lo ro [] R')).
           cbn [length]. cbn [length] in H1, H2. split; [lia|]. split; [discriminate|]. intros E. specialize (H3 E). lia.
    + cbn. lia.
  - destruct (IHL []) as (H1 & H2 & H3). destruct eL; cbn [negb].
    + pose proof (keep_len (posat lo l) (phrase_merge true eR eB lo ro L' [])). cbn [length] in *.
      split; [lia|]. split; [|discriminate]. intros E. specialize (H2 E). lia.
    + cbn. lia.
  - destruct (posat lo l <? posat ro r); [|destruct (posat lo l =? posat ro r)].
    + destruct (IHL (r :: R')) as (H1 & H2 & H3).
      pose proof (keep_len (if eL then posat lo l else 0) (phrase_merge eL eR eB lo ro L' (r :: R'))). cbn [length] in *.
      split; [lia|]. split; [intros E; specialize (H2 E); lia|]. intros E. specialize (H3 E). subst eL. rewrite keep0_len. lia.
    + destruct (IHL R') as (H1 & H2 & H3).
      pose proof (keep_len (if eB then posat ro r else 0) (phrase_merge eL eR eB lo ro L' R')). cbn [length] in *.
      split; [lia|]. split; intros E; [specialize (H2 E)|specialize (H3 E)]; lia.
    + destruct IHR as (H1 & H2 & H3).
      pose proof (keep_len (if eR then posat ro r else 0) (phrase_merge eL eR eB lo ro (l :: L') R')). cbn [length] in *.
      split; [lia|]. split; [|intros E; specialize (H3 E); lia]. intros E. specialize (H2 E). subst eR. rewrite keep0_len. lia.
Qed.

(** *** sets of positions *)
Definition eset (e : edata) (p : Z) : Prop := if e_neg e then ~ inpos 0 (e_pos e) p else inpos 0 (e_pos e) p.
Lemma inpos_dec off l p : inpos off l p \/ ~ inpos off l p.
Proof.
  induction l as [|x l IH]; [right; rewrite inpos_nil; tauto|]. rewrite inpos_cons.
  destruct (Z.eq_dec p (posat off x)); tauto.
Qed.
Lemma inpos_shift off l p : inpos off l p <-> inpos 0 l (p - off).
Proof. unfold inpos, posat. split; intros [e [Hi He]]; exists e; (split; [assumption|lia]). Qed.
Lemma eset_dec e p : eset e p \/ ~ eset e p.
Proof. unfold eset. pose proof (inpos_dec 0 (e_pos e) p). destruct (e_neg e); tauto. Qed.
Lemma inpos_nonempty off l : l <> [] -> exists p, inpos off l p.
Proof. destruct l as [|x l]; [congruence|]. intros _. exists (posat off x), x. cbn; auto. Qed.
Lemma empty_inpos off l : (forall p, ~ inpos off l p) -> l = [].
Proof. destruct l as [|x l]; [reflexivity|]. intros H. exfalso. apply (H (posat off x)). exists x. cbn; auto. Qed.
Lemma inpos_neg l : okside 0 l -> ~ inpos 0 l (-1).
Proof. intros H Hi. apply (okside_ge 0 l) in Hi; [lia|assumption]. Qed.
Definition useful (e : edata) : Prop := okside 0 (e_pos e) /\ (e_neg e = false -> e_pos e <> []).
Lemma useful_some e : useful e -> exists p, eset e p.
Proof.
  intros [Ho Hn]. unfold eset. destruct (e_neg e); [exists (-1); apply inpos_neg; assumption|].
  apply inpos_nonempty, Hn. reflexivity.
Qed.
Definition outcome (t : tern) (e : edata) : Prop :=
  match t with TYes => useful e | TNo => e_pos e = [] /\ e_neg e = false | TMaybe => False end.
Lemma output_outcome eL eR eB lo ro L R w t out : okside lo L -> okside ro R ->
  rum_phrase_output eL eR eB lo ro L R = (t, out) ->
  outcome t (mkE out false w) /\ okside 0 out /\
  forall p, inpos 0 out p <-> emitted eL eR eB (inpos lo L p) (inpos ro R p).
Proof.
  intros HL HR H. unfold rum_phrase_output in H. destruct (merge_spec eL eR eB lo ro L R HL HR) as [Ho Hi].
  destruct (phrase_merge eL eR eB lo ro L R) as [|x out'] eqn:E; injection H as <- <-.
  - split; [split; reflexivity|]. split; assumption.
  - split; [split; [exact Ho|discriminate]|]. split; assumption.
Qed.

Lemma phrase_and_spec L R lo ro w t e : okside lo (e_pos L) -> okside ro (e_pos R) ->
  phrase_and L R lo ro w = (t, e) ->
  outcome t e /\ e_width e = w /\ okside 0 (e_pos e) /\ (forall p, eset e p <-> eset L (p - lo) /\ eset R (p - ro)) /\
  (forall p, inpos 0 (e_pos e) p -> inpos lo (e_pos L) p \/ inpos ro (e_pos R) p).
Proof.
  intros HL HR H. unfold phrase_and in H.
  assert (forall p, (inpos lo (e_pos L) p \/ ~ inpos lo (e_pos L) p) /\ (inpos ro (e_pos R) p \/ ~ inpos ro (e_pos R) p)) as Hd
    by (intros p; split; apply inpos_dec).
  unfold eset.
  destruct (e_neg L) eqn:NL; destruct (e_neg R) eqn:NR; cbn [andb] in H;
    match type of H with (let '(_, _) := ?x in _) = _ => destruct x as [t' out] eqn:E end;
    apply (output_outcome _ _ _ _ _ _ _ w) in E; try assumption; destruct E as (Ht & Ho & Hi);
    injection H as <- <-; cbn [e_neg e_pos e_width];
    (split; [try exact Ht; try (split; [exact Ho|discriminate])|]);
    (split; [reflexivity|]); (split; [exact Ho|]); (split; intros p; rewrite <- ?inpos_shift, Hi; unfold emitted; specialize (Hd p));
    intuition discriminate.
Qed.
Lemma phrase_or_spec L R lo ro w t e : okside lo (e_pos L) -> okside ro (e_pos R) ->
  phrase_or L R lo ro w = (t, e) ->
  outcome t e /\ e_width e = w /\ okside 0 (e_pos e) /\ (forall p, eset e p <-> eset L (p - lo) \/ eset R (p - ro)) /\
  (forall p, inpos 0 (e_pos e) p -> inpos lo (e_pos L) p \/ inpos ro (e_pos R) p).
Proof.
  intros HL HR H. unfold phrase_or in H.
  assert (forall p, (inpos lo (e_pos L) p \/ ~ inpos lo (e_pos L) p) /\ (inpos ro (e_pos R) p \/ ~ inpos ro (e_pos R) p)) as Hd
    by (intros p; split; apply inpos_dec).
  unfold eset.
  destruct (e_neg L) eqn:NL; destruct (e_neg R) eqn:NR; cbn [andb] in H;
    match type of H with (let '(_, _) := ?x in _) = _ => destruct x as [t' out] eqn:E end;
    apply (output_outcome _ _ _ _ _ _ _ w) in E; try assumption; destruct E as (Ht & Ho & Hi);
    injection H as <- <-; cbn [e_neg e_pos e_width];
    (split; [try exact Ht; try (split; [exact Ho|discriminate])|]);
    (split; [reflexivity|]); (split; [exact Ho|]); (split; intros p; rewrite <- ?inpos_shift, Hi; unfold emitted; specialize (Hd p));
    intuition discriminate.
Qed.

