(** The phrase executor computes the declarative set of match ends. *)
From Coq Require Import Lia ZifyN Sorted Permutation.
From Verif Require Import Base Ord Codec PosCodec PosSpec PosProof Tsq TsqSpec TsqProof.
Local Open Scope Z_scope.

(** *** the phrase executor computes the set of ends *)
Fixpoint placed (good : nat -> operand -> Prop) (i : nat) (q : tsq) : Prop :=
  match q with
  | QVal o => good i o
  | QNot a => placed good (S i) a
  | QAnd l r | QOr l r | QPhrase _ l r => placed good (S i) r /\ placed good (S i + qsize r) l
  end.
Lemma items_len q : length (items q) = qsize q.
Proof. induction q; cbn; rewrite ?app_length; lia. Qed.
Lemma placed_items (good : nat -> operand -> Prop) q : forall i,
  (forall k o, nth_error (items q) k = Some (Some o) -> good (i + k)%nat o) -> placed good i q.
Proof.
  induction q as [o|a IH|l IHl r IHr|l IHl r IHr|n l IHl r IHr]; intros i H; cbn [placed items] in *.
  - replace i with (i + 0)%nat by lia. apply H. reflexivity.
  - apply IH. intros k o Hk. replace (S i + k)%nat with (i + S k)%nat by lia. apply H. exact Hk.
  - split.
    + apply IHr. intros k o Hk. replace (S i + k)%nat with (i + S k)%nat by lia. apply H. cbn.
      rewrite nth_error_app1; [exact Hk|]. apply nth_error_Some. congruence.
    + apply IHl. intros k o Hk. replace (S i + qsize r + k)%nat with (i + S (qsize r + k))%nat by lia. apply H. cbn.
      rewrite nth_error_app2; rewrite items_len; [|lia]. replace (qsize r + k - qsize r)%nat with k by lia. exact Hk.
  - split.
    + apply IHr. intros k o Hk. replace (S i + k)%nat with (i + S k)%nat by lia. apply H. cbn.
      rewrite nth_error_app1; [exact Hk|]. apply nth_error_Some. congruence.
    + apply IHl. intros k o Hk. replace (S i + qsize r + k)%nat with (i + S (qsize r + k))%nat by lia. apply H. cbn.
      rewrite nth_error_app2; rewrite items_len; [|lia]. replace (qsize r + k - qsize r)%nat with k by lia. exact Hk.
  - split.
    + apply IHr. intros k o Hk. replace (S i + k)%nat with (i + S k)%nat by lia. apply H. cbn.
      rewrite nth_error_app1; [exact Hk|]. apply nth_error_Some. congruence.
    + apply IHl. intros k o Hk. replace (S i + qsize r + k)%nat with (i + S (qsize r + k))%nat by lia. apply H. cbn.
      rewrite nth_error_app2; rewrite items_len; [|lia]. replace (qsize r + k - qsize r)%nat with k by lia. exact Hk.
Qed.

Definition upto (M w : Z) (l : list N) : Prop := forall p, inpos 0 l p -> p <= M + w.
Definition agrees (d : document) (M : Z) (q : tsq) (res : tern * edata) : Prop :=
  let '(t, e) := res in
  match t with
  | TNo => e_pos e = [] /\ e_neg e = false /\ 0 <= e_width e <= total_distance q /\
           exists P, ends_at d q (At P (e_width e)) /\ forall p, ~ P p
  | TYes => 0 <= e_width e <= total_distance q /\ useful e /\ upto M (e_width e) (e_pos e) /\
            ends_at d q (At (eset e) (e_width e))
  | TMaybe => ends_at d q Unknown
  end.
Lemma td_nonneg q : distances_ok q -> 0 <= total_distance q.
Proof. induction q; cbn; intros; try lia; intuition. Qed.

Lemma shifted M w off lim l : okside 0 l -> upto M w l -> 0 <= off -> M + w + off < lim -> lim <= 16384 -> okside off l.
Proof.
  intros [Hs Hf] Hu Ho Hl Hm. split.
  - clear Hu Hf. induction Hs as [|a l Hs IH Hx]; constructor; [assumption|].
    apply Forall_forall. intros b Hb. rewrite Forall_forall in Hx. specialize (Hx b Hb). unfold posat in *. lia.
  - apply Forall_forall. intros e He. rewrite Forall_forall in Hf. specialize (Hf e He).
    specialize (Hu (posat 0 e)). assert (inpos 0 l (posat 0 e)) as Hi by (exists e; auto). specialize (Hu Hi).
    unfold posat in *. lia.
Qed.
Lemma nowhere_useful e w : useful e -> ~ nowhere (At (eset e) w).
Proof. intros H Hn. destruct (useful_some e H) as [p Hp]. exact (Hn p Hp). Qed.
Lemma ends_ext d q P T w : ends_at d q (At P w) -> (forall p, T p <-> P p) -> ends_at d q (At T w).
Proof.
  intros H HT. inversion H; subst;
    match goal with Hx : forall p, P p <-> _ |- _ => pose proof Hx as HP | Hx : forall p, ~ P p |- _ => pose proof Hx as HP end.
  - apply E_value; [assumption|]. intros p. rewrite HT. apply HP.
  - eapply E_not; [eassumption|]. intros p. rewrite HT. apply HP.
  - eapply E_phrase_none; [eassumption|eassumption|assumption|]. intros p. rewrite HT. apply HP.
  - eapply E_phrase; [eassumption|eassumption|assumption|assumption|]. intros p. rewrite HT. apply HP.
  - eapply E_and_none; [eassumption|eassumption|assumption|]. intros p. rewrite HT. apply HP.
  - eapply E_and; [eassumption|eassumption|assumption|assumption|]. intros p. rewrite HT. apply HP.
  - eapply E_or_none; [eassumption|eassumption|assumption|assumption|]. intros p. rewrite HT. apply HP.
  - eapply E_or; [eassumption|eassumption|assumption|eassumption|eassumption|]. intros p. rewrite HT. apply HP.
Qed.

Section Phrase.
Variable d : document.
Variable M : Z.
Variable chk : nat -> operand -> bool -> tern * edata.
Let fl := mkF true false false.
Let good (i : nat) (o : operand) := agrees d M (QVal o) (chk i o true).

(* the shared end of AND and PHRASE *)
Lemma and_finish L R lo ro w t e lim q T :
  useful L -> useful R -> okside lo (e_pos L) -> okside ro (e_pos R) ->
  upto M (e_width L) (e_pos L) -> upto M (e_width R) (e_pos R) ->
  phrase_and L R lo ro w = (t, e) -> 0 <= w <= total_distance q -> M + w < lim ->
  e_width L + lo <= w -> e_width R + ro <= w ->
  (forall p, eset L (p - lo) /\ eset R (p - ro) <-> T p) -> ends_at d q (At T w) ->
  agrees d M q (t, e).
Proof.
  intros UL UR HL HR uL uR H Hw Hlim H1 H2 HT He.
  destruct (phrase_and_spec _ _ _ _ _ _ _ HL HR H) as (Ho & Hew & Hok & Hset & Hin).
  assert (ends_at d q (At (eset e) (e_width e))) as Hends.
  { rewrite Hew. eapply ends_ext; [exact He|]. intros p. rewrite Hset. apply HT. }
  assert (upto M (e_width e) (e_pos e)) as Hup.
  { rewrite Hew. intros p Hp. apply Hin in Hp. rewrite (inpos_shift lo (e_pos L)), (inpos_shift ro (e_pos R)) in Hp.
    destruct Hp as [Hp|Hp]; [specialize (uL _ Hp)|specialize (uR _ Hp)]; lia. }
  rewrite <- Hew in Hw.
  destruct t; cbn in *.
  - destruct Ho as [E1 E2]. repeat split; auto; try lia. exists (eset e). split; [exact Hends|].
    intros p. unfold eset. rewrite E1, E2. rewrite inpos_nil. tauto.
  - auto.
  - destruct Ho.
Qed.
Lemma or_finish L R lo ro w t e lim q T :
  okside lo (e_pos L) -> okside ro (e_pos R) ->
  upto M (e_width L) (e_pos L) -> upto M (e_width R) (e_pos R) ->
  phrase_or L R lo ro w = (t, e) -> 0 <= w <= total_distance q -> M + w < lim ->
  e_width L + lo <= w -> e_width R + ro <= w ->
  (forall p, eset L (p - lo) \/ eset R (p - ro) <-> T p) -> ends_at d q (At T w) ->
  agrees d M q (t, e).
Proof.
  intros HL HR uL uR H Hw Hlim H1 H2 HT He.
  destruct (phrase_or_spec _ _ _ _ _ _ _ HL HR H) as (Ho & Hew & Hok & Hset & Hin).
  assert (ends_at d q (At (eset e) (e_width e))) as Hends.
  { rewrite Hew. eapply ends_ext; [exact He|]. intros p. rewrite Hset. apply HT. }
  assert (upto M (e_width e) (e_pos e)) as Hup.
  { rewrite Hew. intros p Hp. apply Hin in Hp. rewrite (inpos_shift lo (e_pos L)), (inpos_shift ro (e_pos R)) in Hp.
    destruct Hp as [Hp|Hp]; [specialize (uL _ Hp)|specialize (uR _ Hp)]; lia. }
  rewrite <- Hew in Hw.
  destruct t; cbn in *.
  - destruct Ho as [E1 E2]. repeat split; auto; try lia. exists (eset e). split; [exact Hends|].
    intros p. unfold eset. rewrite E1, E2. rewrite inpos_nil. tauto.
  - auto.
  - destruct Ho.
Qed.
Lemma no_width e q : agrees d M q (TNo, e) -> eset e = (fun p => inpos 0 [] p) /\ exists P, ends_at d q (At P (e_width e)) /\ forall p, ~ P p.
Proof.
  cbn. intros (E1 & E2 & Hw & P & He & HP). split; [|exists P; auto].
  unfold eset. rewrite E1, E2. reflexivity.
Qed.

Lemma phrase_execute_spec q : forall i, placed good i q -> distances_ok q -> M + total_distance q < 16384 ->
  agrees d M q (rum_phrase_execute chk fl i q).
Proof.
  induction q as [o|a IH|l IHl r IHr|l IHl r IHr|n l IHl r IHr]; intros i Hp Hd Hm; cbn [rum_phrase_execute placed distances_ok total_distance] in *.
  - exact Hp.
  - specialize (IH _ Hp Hd Hm). cbn [fl f_calc_not negb].
    destruct (rum_phrase_execute chk fl (S i) a) as [t e]. destruct t; cbn in IH.
    + destruct IH as (E1 & E2 & Hw & P & He & HP). cbn. split; [exact Hw|].
      split; [split; cbn; [rewrite E1; apply okside_nil|discriminate]|].
      split; [rewrite E1; intros p Hx; apply inpos_nil in Hx; tauto|].
      eapply E_not; [exact He|]. intros p. unfold eset. cbn. rewrite E1, inpos_nil. split; [intros _; apply HP|tauto].
    + destruct IH as (Hw & [Ho Hn] & Hu & He). destruct (e_pos e) as [|x l] eqn:Ep.
      * assert (e_neg e = true) as En by (destruct (e_neg e); [reflexivity|specialize (Hn eq_refl); congruence]).
        cbn. repeat split; auto; try lia. exists (fun _ => False). split; [|tauto].
        eapply E_not; [exact He|]. intros p. unfold eset. rewrite En, Ep, inpos_nil. tauto.
      * cbn. split; [exact Hw|]. split; [split; cbn; [exact Ho|discriminate]|]. split; [exact Hu|].
        eapply E_not; [exact He|]. intros p. unfold eset. cbn. rewrite Ep.
        pose proof (inpos_dec 0 (x :: l) p). destruct (e_neg e); cbn; tauto.
    + cbn. apply E_not_unknown. exact IH.
  - (* AND *)
    destruct Hp as [Hpr Hpl]. destruct Hd as [Hdl Hdr]. pose proof (td_nonneg _ Hdl). pose proof (td_nonneg _ Hdr).
    specialize (IHl _ Hpl Hdl ltac:(lia)). specialize (IHr _ Hpr Hdr ltac:(lia)).
    destruct (rum_phrase_execute chk fl (S i + qsize r) l) as [lm L].
    destruct (rum_phrase_execute chk fl (S i) r) as [rm R].
    assert (forall X, ends_at d l X -> nowhere X -> forall Y, ends_at d r Y -> agrees d M (QAnd l r) (TNo, e_zero)) as Hnl.
    { intros X HX HN Y HY. cbn. repeat split; try lia. exists (fun _ => False). split; [|tauto].
      eapply E_and_none; [exact HX|exact HY|left; exact HN|tauto]. }
    assert (forall X, ends_at d l X -> forall Y, ends_at d r Y -> nowhere Y -> agrees d M (QAnd l r) (TNo, e_zero)) as Hnr.
    { intros X HX Y HY HN. cbn. repeat split; try lia. exists (fun _ => False). split; [|tauto].
      eapply E_and_none; [exact HX|exact HY|right; exact HN|tauto]. }
    assert (exists Y, ends_at d r Y) as [Y HY].
    { destruct rm; cbn in IHr; [destruct IHr as (_ & _ & _ & P & He & _)| |]; eexists; [exact He|apply IHr|exact IHr]. }
    assert (exists X, ends_at d l X) as [X HX].
    { destruct lm; cbn in IHl; [destruct IHl as (_ & _ & _ & P & He & _)| |]; eexists; [exact He|apply IHl|exact IHl]. }
    destruct lm; cbn [agrees] in IHl.
    + destruct IHl as (E1 & E2 & Hw & P & He & HP). eapply Hnl; [exact He|exact HP|exact HY].
    + destruct rm; cbn [agrees] in IHr.
      * destruct IHr as (E1 & E2 & Hw & P & He & HP). eapply Hnr; [exact HX|exact He|exact HP].
      * destruct IHl as (WL & UL & upL & EL). destruct IHr as (WR & UR & upR & ER).
        set (mw := Z.max (e_width L) (e_width R)).
        destruct (phrase_and L R (mw - e_width L) (mw - e_width R) mw) as [t e] eqn:E.
        apply (and_finish L R (mw - e_width L) (mw - e_width R) mw t e 16384 (QAnd l r)
                 (fun p => eset L (p - mw + e_width L) /\ eset R (p - mw + e_width R))); try assumption; try (cbn [total_distance]; lia).
        -- apply (shifted M (e_width L) _ 16384); try lia; [apply UL|assumption].
        -- apply (shifted M (e_width R) _ 16384); try lia; [apply UR|assumption].
        -- intros p. replace (p - (mw - e_width L)) with (p - mw + e_width L) by lia.
           replace (p - (mw - e_width R)) with (p - mw + e_width R) by lia. reflexivity.
        -- eapply E_and; [exact EL|exact ER|apply nowhere_useful; exact UL|apply nowhere_useful; exact UR|reflexivity].
      * destruct IHl as (WL & UL & upL & EL). eapply E_and_unknown; [exact EL|exact IHr|apply nowhere_useful; exact UL|tauto|tauto].
    + destruct rm; cbn [agrees] in IHr.
      * destruct IHr as (E1 & E2 & Hw & P & He & HP). eapply Hnr; [exact HX|exact He|exact HP].
      * destruct IHr as (WR & UR & upR & ER). eapply E_and_unknown; [exact IHl|exact ER|tauto|apply nowhere_useful; exact UR|tauto].
      * eapply E_and_unknown; [exact IHl|exact IHr|tauto|tauto|tauto].
  - (* OR *)
    destruct Hp as [Hpr Hpl]. destruct Hd as [Hdl Hdr]. pose proof (td_nonneg _ Hdl). pose proof (td_nonneg _ Hdr).
    specialize (IHl _ Hpl Hdl ltac:(lia)). specialize (IHr _ Hpr Hdr ltac:(lia)).
    destruct (rum_phrase_execute chk fl (S i + qsize r) l) as [lm L].
    destruct (rum_phrase_execute chk fl (S i) r) as [rm R].
    destruct lm, rm; cbn [agrees] in IHl, IHr.
    + destruct IHl as (E1 & E2 & Hw & P & He & HP). destruct IHr as (E1' & E2' & Hw' & P' & He' & HP').
      cbn. repeat split; try lia. exists (fun _ => False). split; [|tauto].
      eapply E_or_none; [exact He|exact He'|exact HP|exact HP'|tauto].
    + destruct IHl as (E1 & E2 & Hw & P & He & HP). destruct IHr as (WR & UR & upR & ER).
      cbn [e_width]. set (mw := Z.max 0 (e_width R)).
      destruct (phrase_or (mkE (e_pos L) (e_neg L) 0) R (mw - 0) (mw - e_width R) mw) as [t e] eqn:E.
      apply (or_finish (mkE (e_pos L) (e_neg L) 0) R (mw - 0) (mw - e_width R) mw t e 16384 (QOr l r)
               (fun p => P (p - mw + 0) \/ eset R (p - mw + e_width R))); cbn [e_pos e_neg e_width total_distance]; try assumption; try lia.
      -- rewrite E1. apply okside_nil.
      -- apply (shifted M (e_width R) _ 16384); try lia; [apply UR|assumption].
      -- rewrite E1. intros p Hx. apply inpos_nil in Hx. tauto.
      -- intros p. replace (p - (mw - e_width R)) with (p - mw + e_width R) by lia. unfold eset at 1. cbn.
         rewrite E1, E2, inpos_nil. specialize (HP (p - mw + 0)). tauto.
      -- eapply E_or; [exact He|exact ER|intros [_ Hx]; exact (nowhere_useful _ _ UR Hx)|left; split; [exact HP|reflexivity]|
           right; split; [apply nowhere_useful; exact UR|reflexivity]|reflexivity].
    + destruct IHl as (E1 & E2 & Hw & P & He & HP).
      eapply E_or_unknown; [exact He|exact IHr|intros [_ []]|tauto].
    + destruct IHr as (E1 & E2 & Hw & P & He & HP). destruct IHl as (WL & UL & upL & EL).
      cbn [e_width]. set (mw := Z.max (e_width L) 0).
      destruct (phrase_or L (mkE (e_pos R) (e_neg R) 0) (mw - e_width L) (mw - 0) mw) as [t e] eqn:E.
      apply (or_finish L (mkE (e_pos R) (e_neg R) 0) (mw - e_width L) (mw - 0) mw t e 16384 (QOr l r)
               (fun p => eset L (p - mw + e_width L) \/ P (p - mw + 0))); cbn [e_pos e_neg e_width total_distance]; try assumption; try lia.
      -- apply (shifted M (e_width L) _ 16384); try lia; [apply UL|assumption].
      -- rewrite E1. apply okside_nil.
      -- rewrite E1. intros p Hx. apply inpos_nil in Hx. tauto.
      -- intros p. replace (p - (mw - e_width L)) with (p - mw + e_width L) by lia. unfold eset at 2. cbn.
         rewrite E1, E2, inpos_nil. specialize (HP (p - mw + 0)). tauto.
      -- eapply E_or; [exact EL|exact He|intros [Hx _]; exact (nowhere_useful _ _ UL Hx)|
           right; split; [apply nowhere_useful; exact UL|reflexivity]|left; split; [exact HP|reflexivity]|reflexivity].
    + destruct IHl as (WL & UL & upL & EL). destruct IHr as (WR & UR & upR & ER).
      set (mw := Z.max (e_width L) (e_width R)).
      destruct (phrase_or L R (mw - e_width L) (mw - e_width R) mw) as [t e] eqn:E.
      apply (or_finish L R (mw - e_width L) (mw - e_width R) mw t e 16384 (QOr l r)
               (fun p => eset L (p - mw + e_width L) \/ eset R (p - mw + e_width R))); try assumption; try (cbn [total_distance]; lia).
      -- apply (shifted M (e_width L) _ 16384); try lia; [apply UL|assumption].
      -- apply (shifted M (e_width R) _ 16384); try lia; [apply UR|assumption].
      -- intros p. replace (p - (mw - e_width L)) with (p - mw + e_width L) by lia.
         replace (p - (mw - e_width R)) with (p - mw + e_width R) by lia. reflexivity.
      -- eapply E_or; [exact EL|exact ER|intros [Hx _]; exact (nowhere_useful _ _ UL Hx)|
           right; split; [apply nowhere_useful; exact UL|reflexivity]|right; split; [apply nowhere_useful; exact UR|reflexivity]|reflexivity].
    + destruct IHl as (WL & UL & upL & EL). eapply E_or_unknown; [exact EL|exact IHr|intros [_ []]|tauto].
    + destruct IHr as (E1 & E2 & Hw & P & He & HP). eapply E_or_unknown; [exact IHl|exact He|intros [[] _]|tauto].
    + destruct IHr as (WR & UR & upR & ER). eapply E_or_unknown; [exact IHl|exact ER|intros [[] _]|tauto].
    + eapply E_or_unknown; [exact IHl|exact IHr|intros [[] _]|tauto].
  - (* PHRASE *)
    destruct Hp as [Hpr Hpl]. destruct Hd as [Hn [Hdl Hdr]]. pose proof (td_nonneg _ Hdl). pose proof (td_nonneg _ Hdr).
    specialize (IHl _ Hpl Hdl ltac:(lia)). specialize (IHr _ Hpr Hdr ltac:(lia)).
    destruct (rum_phrase_execute chk fl (S i + qsize r) l) as [lm L].
    destruct (rum_phrase_execute chk fl (S i) r) as [rm R].
    assert (forall X, ends_at d l X -> nowhere X -> forall Y, ends_at d r Y -> agrees d M (QPhrase n l r) (TNo, e_zero)) as Hnl.
    { intros X HX HN Y HY. cbn. repeat split; try lia. exists (fun _ => False). split; [|tauto].
      eapply E_phrase_none; [exact HX|exact HY|left; exact HN|tauto]. }
    assert (forall X, ends_at d l X -> forall Y, ends_at d r Y -> nowhere Y -> agrees d M (QPhrase n l r) (TNo, e_zero)) as Hnr.
    { intros X HX Y HY HN. cbn. repeat split; try lia. exists (fun _ => False). split; [|tauto].
      eapply E_phrase_none; [exact HX|exact HY|right; exact HN|tauto]. }
    assert (exists Y, ends_at d r Y) as [Y HY].
    { destruct rm; cbn in IHr; [destruct IHr as (_ & _ & _ & P & He & _)| |]; eexists; [exact He|apply IHr|exact IHr]. }
    assert (exists X, ends_at d l X) as [X HX].
    { destruct lm; cbn in IHl; [destruct IHl as (_ & _ & _ & P & He & _)| |]; eexists; [exact He|apply IHl|exact IHl]. }
    cbn [fl f_no_pos].
    destruct lm; cbn [agrees] in IHl.
    + destruct IHl as (E1 & E2 & Hw & P & He & HP). eapply Hnl; [exact He|exact HP|exact HY].
    + destruct rm; cbn [agrees] in IHr.
      * destruct IHr as (E1 & E2 & Hw & P & He & HP). eapply Hnr; [exact HX|exact He|exact HP].
      * destruct IHl as (WL & UL & upL & EL). destruct IHr as (WR & UR & upR & ER).
        set (w := n + e_width L + e_width R).
        destruct (phrase_and L R (n + e_width R) 0 w) as [t e] eqn:E.
        apply (and_finish L R (n + e_width R) 0 w t e 16384 (QPhrase n l r)
                 (fun p => eset R p /\ eset L (p - e_width R - n))); try assumption; try (cbn [total_distance]; lia).
        -- apply (shifted M (e_width L) _ 16384); try lia; [apply UL|assumption].
        -- apply UR.
        -- intros p. replace (p - (n + e_width R)) with (p - e_width R - n) by lia. rewrite Z.sub_0_r. tauto.
        -- replace w with (e_width L + n + e_width R) by (unfold w; lia).
           eapply E_phrase; [exact EL|exact ER|apply nowhere_useful; exact UL|apply nowhere_useful; exact UR|reflexivity].
      * destruct IHl as (WL & UL & upL & EL). eapply E_phrase_unknown; [exact EL|exact IHr|apply nowhere_useful; exact UL|tauto|tauto].
    + destruct rm; cbn [agrees] in IHr.
      * destruct IHr as (E1 & E2 & Hw & P & He & HP). eapply Hnr; [exact HX|exact He|exact HP].
      * destruct IHr as (WR & UR & upR & ER). eapply E_phrase_unknown; [exact IHl|exact ER|tauto|apply nowhere_useful; exact UR|tauto].
      * eapply E_phrase_unknown; [exact IHl|exact IHr|tauto|tauto|tauto].
Qed.
End Phrase.
