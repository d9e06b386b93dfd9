(** Proofs about the regular scan. *)
From Verif Require Import Base Ord OrdProof LeafPage ScanEntry ScanEntryProof TidBitmap Scan ScanSpec.
From Coq Require Import NArith ZArith Bool Arith List Lia.
Import ListNotations.
Local Open Scope Z_scope.

Section Regular.
  Context {A : Type}.
  Variables (useAlt : bool) (addTo : N) (cmpA : A -> A -> Z).
  Hypothesis CA : total_cmp cmpA.
  Variable joinFn : joins A.
  Variables (visit : tbm -> list N) (iterate : list (N * pentry) -> list (N * pentry)) (tbmMax : N).
  Notation item := (item A).
  Notation entry := (entry A).
  Notation skey := (skey A).
  Notation kst := (kst A).
  Notation cmpAt := (cmpAt useAlt addTo cmpA).
  Notation getItem := (entryGetItem useAlt addTo cmpA joinFn).
  Notation rep := (rep useAlt addTo cmpA joinFn).
  Notation ent := (@ent A).

  (** ** Small facts *)
  Lemma Some_inj {T} (a b : T) : Some a = Some b -> a = b.
  Proof. intro H. injection H. auto. Qed.
  Lemma tid_eqb_eq p q : tid_eqb p q = true <-> p = q.
  Proof.
    unfold tid_eqb. rewrite andb_true_iff, !N.eqb_eq. destruct p, q. cbn. split; [intros [-> ->]; reflexivity|intro H; injection H; auto].
  Qed.
  Lemma cip_eqb p q : (rumCompareItemPointers p q =? 0) = tid_eqb p q.
  Proof.
    apply eq_true_iff_eq. rewrite Z.eqb_eq, tid_eqb_eq. apply cip_eq.
  Qed.
  Lemma ent_update ents n f m : ent (update ents n f) m = if (m =? n)%nat && (n <? length ents)%nat then f (ent ents m) else ent ents m.
  Proof.
    unfold update, Scan.ent.
    assert (G : forall (l : list entry) s, nth m (map (fun ie : nat * entry => if (fst ie =? n)%nat then f (snd ie) else snd ie) (combine (seq s (length l)) l)) noEntry
      = if (m + s =? n)%nat && (m <? length l)%nat then f (nth m l noEntry) else nth m l noEntry).
    { revert m. intros m' l. revert m'. induction l as [|a l IH]; intros m' s.
      - cbn [length seq combine map nth]. destruct m'; rewrite andb_false_r; reflexivity.
      - cbn [length seq combine map]. destruct m' as [|m'].
        + cbn [nth fst snd]. rewrite Nat.add_0_l. change (0 <? S (length l))%nat with true. rewrite andb_true_r. reflexivity.
        + cbn [nth]. rewrite IH. replace (m' + S s)%nat with (S m' + s)%nat by lia. reflexivity. }
    rewrite G, Nat.add_0_r. destruct (Nat.eqb_spec m n) as [->|]; [|reflexivity]. reflexivity.
  Qed.
  Lemma update_length ents n (f : entry -> entry) : length (update ents n f) = length ents.
  Proof. unfold update. rewrite map_length, combine_length, seq_length. lia. Qed.
  Lemma ent_map (g : entry -> entry) ents n : g noEntry = noEntry -> ent (map g ents) n = g (ent ents n).
  Proof. intro H. unfold Scan.ent. rewrite <- H at 1. apply map_nth. Qed.

  (** Remaining rows are within the bound. *)
  Lemma collapse_length (join : option (A -> A -> A)) rest : forall c, (length (collapse join c rest) <= length rest + match c with None => 0 | Some _ => 1 end)%nat.
  Proof.
    induction rest as [|x r IH]; intro c; cbn [collapse].
    - destruct c; cbn [length]; lia.
    - destruct c as [y|]; [|specialize (IH (Some x)); cbn in *; lia].
      destruct (_ =? 0).
      + match goal with |- context [collapse _ (Some ?z) r] => specialize (IH (Some z)) end. cbn [length] in *. lia.
      + specialize (IH (Some x)). cbn [length] in *. lia.
  Qed.
  Lemma rep_bound e s : rep e s -> (length s + 1 <= e_bound e)%nat.
  Proof.
    intros [_ H]. unfold e_bound. destruct (e_src e) as [|chain pos|rest c]; cbv iota in H |- *.
    - destruct H as (_ & _ & ->). rewrite skipn_length. lia.
    - destruct H as (_ & _ & pg & pre & post & Hn & Hi & _ & -> & _).
      rewrite !app_length, skipn_length.
      pose proof (rows_next chain pos pg Hn) as E. 
      assert (L : length (rows_of (skipn pos chain)) = (length (lf_items pg) + length (rows_of (skipn (S pos) chain)))%nat) by (rewrite E, app_length; reflexivity).
      rewrite Hi, !app_length in L.
      assert (L2 : (length (rows_of (skipn pos chain)) <= length (rows_of chain))%nat).
      { rewrite <- (firstn_skipn pos chain) at 2. unfold rows_of. rewrite flat_map_app, app_length. lia. }
      unfold rows_of in *. lia.
    - destruct H as (-> & ->). cbn [length]. destruct c as [|x|].
      + pose proof (collapse_length (joinFn (e_att e)) rest None) as H. cbn iota in H. lia.
      + pose proof (collapse_length (joinFn (e_att e)) rest (Some x)) as H. cbn iota in H. lia.
      + cbn. lia.
  Qed.
  Lemma rep_ext_att e s : rep e s -> e_fin e = false.
  Proof. intros [H _]. exact H. Qed.

  (** ** The state of one entry *)
  Section Order.
    Variable cmp : item -> item -> Z.
    Hypothesis OK : total_cmp cmp.

    (** Not yet asked for its first row, which will be that of [C]. *)
    Definition gives (e : entry) (C : list item) : Prop :=
      e_fin e = false /\ (length C + 1 <= e_bound e)%nat /\ e_att (getItem e) = e_att e /\
      match C with
      | [] => e_fin (getItem e) = true
      | x :: r => rep (getItem e) r /\ e_cur (getItem e) = x /\ moved (getItem e)
      end.
    Lemma rep_gives e C : rep e C -> gives e C.
    Proof.
      intro H. split; [exact (rep_ext_att _ _ H)|]. split; [exact (rep_bound _ _ H)|].
      exact (entryGetItem_full useAlt addTo cmpA CA joinFn e C H).
    Qed.
    Definition started (e : entry) (C : list item) : Prop := (e_fin e = true /\ C = []) \/ gives e C.
    (** All rows left behind are at or before [p]. *)
    Definition at_ok (p : item) (e : entry) (C : list item) : Prop :=
      (e_fin e = true /\ Forall (fun y => cmp y p <= 0) C) \/
      (exists don rest, C = don ++ e_cur e :: rest /\ rep e rest /\ Forall (fun y => cmp y p <= 0) don).
    (** ... and the current row is behind [p]. *)
    Definition pos_ok (p : item) (e : entry) (C : list item) : Prop :=
      at_ok p e C /\ (e_fin e = false -> cmp p (e_cur e) < 0).

    Lemma at_ok_mono p q e C : cmp p q <= 0 -> at_ok p e C -> at_ok q e C.
    Proof.
      intros Hpq [[H1 H2]|(d & r & H1 & H2 & H3)].
      - left. split; [exact H1|]. eapply Forall_impl; [|exact H2]. intros y Hy. apply (tc_trans _ OK y p q); assumption.
      - right. exists d, r. split; [exact H1|]. split; [exact H2|]. eapply Forall_impl; [|exact H3]. intros y Hy. apply (tc_trans _ OK y p q); assumption.
    Qed.
    Lemma get_at_ok p e C : cmpAt (e_att e) = cmp -> at_ok p e C -> e_fin e = false -> cmp (e_cur e) p <= 0 ->
      at_ok p (getItem e) C /\ e_att (getItem e) = e_att e.
    Proof.
      intros Hc [[H1 H2]|(d & r & H1 & H2 & H3)] Hf Hcur; [congruence|].
      destruct (entryGetItem_spec useAlt addTo cmpA CA joinFn e r H2) as [E1 E2].
      split; [|exact E1].
      destruct r as [|x r].
      - left. split; [exact E2|]. rewrite H1. apply Forall_app. split; [exact H3|constructor; [exact Hcur|constructor]].
      - destruct E2 as [E2 E3]. right. exists (d ++ [e_cur e]), r. rewrite E3, <- app_assoc. split; [exact H1|]. split; [exact E2|].
        apply Forall_app. split; [exact H3|constructor; [exact Hcur|constructor]].
    Qed.
    Lemma start_pos_ok p e C : started e C -> Forall (fun y => cmp p y < 0) C ->
      let e' := if e_fin e then e else getItem e in
      pos_ok p e' C /\ e_att e' = e_att e.
    Proof.
      intros [[H1 H2]|H1] HF; cbv zeta.
      - rewrite H1. split; [|reflexivity]. split; [left; split; [exact H1|subst C; constructor]|congruence].
      - destruct H1 as (F & _ & E1 & E2). rewrite F.
        split; [|exact E1]. destruct C as [|x r].
        + split; [left; split; [exact E2|constructor]|congruence].
        + destruct E2 as (E2 & E3 & _). split.
          * right. exists [], r. rewrite E3. split; [reflexivity|]. split; [exact E2|constructor].
          * intros _. rewrite E3. inversion HF; assumption.
    Qed.
    Lemma advance_loop_ok p C : forall fuel e s, cmpAt (e_att e) = cmp -> rep e s -> at_ok p e C -> (length s < fuel)%nat ->
      let e' := advance_loop useAlt addTo cmpA joinFn cmp fuel p e in pos_ok p e' C /\ e_att e' = e_att e.
    Proof.
      induction fuel as [|f IH]; intros e s Hc Hr Ha Hl; [lia|]. cbn [advance_loop]. cbv zeta.
      rewrite (rep_ext_att _ _ Hr). cbn [negb andb].
      destruct (Z.leb_spec (cmp (e_cur e) p) 0) as [L|L].
      - destruct (get_at_ok p e C Hc Ha (rep_ext_att _ _ Hr) L) as [G1 G2].
        destruct (entryGetItem_spec useAlt addTo cmpA CA joinFn e s Hr) as [E1 E2].
        destruct s as [|x r].
        + destruct f; cbn [advance_loop]; [|rewrite E2; cbn [negb andb]]; (split; [split; [exact G1|congruence]|exact G2]).
        + destruct E2 as [E2 E3]. cbn [length] in Hl.
          destruct (IH (getItem e) r) as [I1 I2]; [rewrite E1; exact Hc|exact E2|exact G1|lia|]. split; [exact I1|congruence].
      - split; [|reflexivity]. split; [exact Ha|]. intros _. apply (cmp_gt_lt cmp OK). exact L.
    Qed.
    Lemma advance_loop_pos p e C fuel : cmpAt (e_att e) = cmp -> at_ok p e C -> (e_bound e <= fuel)%nat ->
      let e' := advance_loop useAlt addTo cmpA joinFn cmp fuel p e in pos_ok p e' C /\ e_att e' = e_att e.
    Proof.
      intros Hc Ha Hb. destruct Ha as [[H1 H2]|(d & r & H1 & H2 & H3)].
      - assert (E : advance_loop useAlt addTo cmpA joinFn cmp fuel p e = e).
        { destruct fuel; cbn [advance_loop]; [reflexivity|]. rewrite H1. reflexivity. }
        cbv zeta. rewrite E. split; [|reflexivity]. split; [left; split; assumption|congruence].
      - apply (advance_loop_ok p C fuel e r Hc H2); [right; exists d, r; auto|].
        pose proof (rep_bound _ _ H2). lia.
    Qed.
    Lemma advance_pos p e C : cmpAt (e_att e) = cmp -> at_ok p e C -> ip_valid (ip p) = true ->
      let e' := advance useAlt addTo cmpA joinFn p e in pos_ok p e' C /\ e_att e' = e_att e.
    Proof. intros Hc Ha Hv. unfold advance. rewrite Hv, Hc. apply advance_loop_pos; auto. Qed.

    (** Catching up to [p]: behind it only smaller rows are left. *)
    Definition caught (p : item) (e : entry) (C : list item) : Prop :=
      (e_fin e = true /\ Forall (fun y => cmp y p < 0) C) \/
      (exists don rest, C = don ++ e_cur e :: rest /\ rep e rest /\ Forall (fun y => cmp y p < 0) don /\ cmp p (e_cur e) <= 0).
    (** Behind it only smaller rows are left, but it may stand on a smaller one. *)
    Definition behind (p : item) (e : entry) (C : list item) : Prop :=
      (e_fin e = true /\ Forall (fun y => cmp y p < 0) C) \/
      (exists don rest, C = don ++ e_cur e :: rest /\ rep e rest /\ Forall (fun y => cmp y p < 0) don).
    Lemma caught_at p e C : caught p e C -> at_ok p e C.
    Proof.
      intros [[H1 H2]|(d & r & H1 & H2 & H3 & _)]; [left; split; [exact H1|]|right; exists d, r; split; [exact H1|split; [exact H2|]]]; (eapply Forall_impl; [|eassumption]); cbn; intros; lia.
    Qed.
    Lemma pos_behind q p e C : cmp q p < 0 -> pos_ok q e C -> behind p e C.
    Proof.
      intros Hq [[[H1 H2]|(d & r & H1 & H2 & H3)] _].
      - left. split; [exact H1|]. eapply Forall_impl; [|exact H2]. intros y Hy. apply (cmp_le_lt_trans cmp OK y q p); assumption.
      - right. exists d, r. split; [exact H1|]. split; [exact H2|]. eapply Forall_impl; [|exact H3]. intros y Hy. apply (cmp_le_lt_trans cmp OK y q p); assumption.
    Qed.
    Lemma behind_at p e C : behind p e C -> at_ok p e C.
    Proof.
      intros [[H1 H2]|(d & r & H1 & H2 & H3)]; [left; split; [exact H1|]|right; exists d, r; split; [exact H1|split; [exact H2|]]]; (eapply Forall_impl; [|eassumption]); cbn; intros; lia.
    Qed.
    Lemma catchup_loop_ok p C : forall fuel e s, cmpAt (e_att e) = cmp -> rep e s -> behind p e C -> (length s < fuel)%nat ->
      let e' := catchup_loop useAlt addTo cmpA joinFn cmp fuel p e in caught p e' C /\ e_att e' = e_att e.
    Proof.
      induction fuel as [|f IH]; intros e s Hc Hr Ha Hl; [lia|]. cbn [catchup_loop]. cbv zeta.
      rewrite (rep_ext_att _ _ Hr). cbn [negb andb].
      destruct Ha as [[H1 H2]|(d & r0 & H1 & H2 & H3)]; [pose proof (rep_ext_att _ _ Hr); congruence|].
      destruct (Z.ltb_spec (cmp (e_cur e) p) 0) as [L|L].
      - destruct (entryGetItem_spec useAlt addTo cmpA CA joinFn e s Hr) as [E1 E2].
        destruct (entryGetItem_spec useAlt addTo cmpA CA joinFn e r0 H2) as [_ E2'].
        assert (HF : Forall (fun y => cmp y p < 0) (d ++ [e_cur e])) by (apply Forall_app; split; [exact H3|constructor; [exact L|constructor]]).
        assert (G : behind p (getItem e) C).
        { destruct r0 as [|x r].
          - left. split; [exact E2'|]. rewrite H1. exact HF.
          - destruct E2' as [E2' E3]. right. exists (d ++ [e_cur e]), r. rewrite E3, <- app_assoc. split; [exact H1|]. split; [exact E2'|exact HF]. }
        destruct s as [|x r].
        + assert (Cg : caught p (getItem e) C).
          { destruct G as [G|(d' & r' & _ & G & _)]; [left; exact G|]. pose proof (rep_ext_att _ _ G). congruence. }
          destruct f; cbn [catchup_loop]; [|rewrite E2; cbn [negb andb]]; (split; [exact Cg|exact E1]).
        + destruct E2 as [E2 E3]. cbn [length] in Hl.
          destruct (IH (getItem e) r) as [I1 I2]; [rewrite E1; exact Hc|exact E2|exact G|lia|]. split; [exact I1|congruence].
      - split; [|reflexivity]. right. exists d, r0. split; [exact H1|]. split; [exact H2|]. split; [exact H3|]. apply (cmp_ge_le cmp OK). exact L.
    Qed.
    Lemma catchup_ok p e C att : cmpAt (e_att e) = cmp -> cmpAt att = cmp -> behind p e C ->
      let e' := catchup useAlt addTo cmpA joinFn att p e in caught p e' C /\ e_att e' = e_att e.
    Proof.
      intros Hc Hk Ha. unfold catchup. rewrite Hk. destruct Ha as [[H1 H2]|(d & r & H1 & H2 & H3)].
      - assert (E : catchup_loop useAlt addTo cmpA joinFn cmp (e_bound e) p e = e).
        { destruct (e_bound e); cbn [catchup_loop]; [reflexivity|]. rewrite H1. reflexivity. }
        cbv zeta. rewrite E. split; [|reflexivity]. left. split; assumption.
      - apply (catchup_loop_ok p C (e_bound e) e r Hc H2); [right; exists d, r; auto|].
        pose proof (rep_bound _ _ H2). lia.
    Qed.

    (** ** What an entry shows of a row *)
    Lemma find_eq (C : list item) y : In y C -> (forall y', In y' C -> ip y' = ip y -> y' = y) -> present C (ip y) = Some (add y).
    Proof.
      intros Hin Hu. unfold present. destruct (find _ C) as [z|] eqn:F.
      - apply find_some in F as [F1 F2]. apply tid_eqb_eq in F2. rewrite (Hu z F1 F2). reflexivity.
      - apply (find_none _ _ F) in Hin. assert (tid_eqb (ip y) (ip y) = true) by (apply tid_eqb_eq; reflexivity). congruence.
    Qed.
    Lemma find_no (C : list item) p : (forall y, In y C -> ip y <> p) -> present C p = None.
    Proof.
      intro H. unfold present. destruct (find _ C) as [z|] eqn:F; [|reflexivity].
      apply find_some in F as [F1 F2]. apply tid_eqb_eq in F2. exfalso. apply (H z F1 F2).
    Qed.
    (** One list in which a row is at one place. *)
    Definition uniq (C : list item) : Prop := ssorted cmp C /\ forall y y', In y C -> In y' C -> ip y = ip y' -> cmp y y' = 0.
    Lemma uniq_eq C y y' : uniq C -> In y C -> In y' C -> ip y = ip y' -> y = y'.
    Proof.
      intros [Hs Ha] H1 H2 E. specialize (Ha _ _ H1 H2 E).
      destruct (in_split _ _ H1) as (l1 & l2 & ->). rewrite (ssorted_app cmp) in Hs.
      destruct Hs as (S1 & S2 & S3). apply (ssorted_inv cmp) in S2 as [S2 S4].
      apply in_app_or in H2 as [H2|H2].
      - specialize (S3 y' y H2 (or_introl eq_refl)). apply (cmp_sym_eq cmp OK) in Ha. lia.
      - destruct H2 as [H2|H2]; [exact H2|]. rewrite Forall_forall in S4. specialize (S4 y' H2). lia.
    Qed.
    (** An entry that has left behind only rows before [x] and stands at or after it shows [x]. *)
    Lemma caught_shows x e C : uniq C -> (forall y, In y C -> ip y = ip x -> cmp y x = 0) -> caught x e C ->
      (if negb (e_fin e) && (rumCompareItemPointers (ip (e_cur e)) (ip x) =? 0) then Some (add (e_cur e)) else None) = present C (ip x).
    Proof.
      intros HU HA [[H1 H2]|(d & r & H1 & H2 & H3 & H4)].
      - rewrite H1. cbn [negb andb]. symmetry. apply find_no. intros y Hy E. rewrite Forall_forall in H2.
        specialize (H2 y Hy). specialize (HA y Hy E). lia.
      - rewrite (rep_ext_att _ _ H2). cbn [negb andb]. rewrite cip_eqb.
        assert (IC : In (e_cur e) C) by (rewrite H1; apply in_or_app; right; left; reflexivity).
        destruct (tid_eqb (ip (e_cur e)) (ip x)) eqn:E.
        + apply tid_eqb_eq in E. rewrite <- E. symmetry. apply find_eq; [exact IC|]. intros y' Hy' E'. apply (uniq_eq C); auto.
        + symmetry. apply find_no. intros y Hy Ey. specialize (HA y Hy Ey).
          destruct HU as [HS _]. rewrite H1 in Hy, HS. rewrite (ssorted_app cmp) in HS. destruct HS as (S1 & S2 & S3).
          apply (ssorted_inv cmp) in S2 as [S2 S4]. apply in_app_or in Hy as [Hy|[Hy|Hy]].
          * rewrite Forall_forall in H3. specialize (H3 y Hy). lia.
          * subst y. rewrite Ey in E. assert (tid_eqb (ip x) (ip x) = true) by (apply tid_eqb_eq; reflexivity). congruence.
          * rewrite Forall_forall in S4. specialize (S4 y Hy).
            pose proof (cmp_le_lt_trans cmp OK x (e_cur e) y H4 S4) as L. apply (cmp_lt_gt cmp OK) in L. lia.
    Qed.
    Lemma pos_caught p x e C : uniq C -> cmp p x < 0 -> pos_ok p e C -> (e_fin e = false -> cmp x (e_cur e) <= 0) -> caught x e C.
    Proof.
      intros HU Hpx HP Hx. pose proof (pos_behind p x e C Hpx HP) as [B|(d & r & B1 & B2 & B3)].
      - left. exact B.
      - right. exists d, r. split; [exact B1|]. split; [exact B2|]. split; [exact B3|]. apply Hx. apply (rep_ext_att _ _ B2).
    Qed.

    (** ** The state of a scan *)
    Hypothesis EqIp : forall x y, cmp x y = 0 -> ip x = ip y.
    Hypothesis MinLt : forall x, ip_valid (ip x) = true -> cmp item_min x < 0.
    Variable alt : bool.
    Variable Cs : list (list item).
    Variable atts : list N.
    Notation C_ n := (nth n Cs []).
    (** The query keys that take part. *)
    Variable usedb : nat -> bool.
    Hypothesis used_lt : forall n, usedb n = true -> (n < length Cs)%nat.
    Hypothesis HC : forall n, usedb n = true -> cmpAt (nth n atts 0%N) = cmp.
    Hypothesis HR : forall n y, usedb n = true -> In y (C_ n) -> ip_valid (ip y) = true.
    Hypothesis HS : forall n, usedb n = true -> ssorted cmp (C_ n).
    Hypothesis HA : forall n m y y', usedb n = true -> usedb m = true -> In y (C_ n) -> In y' (C_ m) -> ip y = ip y' -> cmp y y' = 0.
    Notation useKey := (useKey (A:=A) addTo alt).
    Definition key_ok (k : skey) : Prop :=
      (useKey k = true -> cmpAt (sk_att k) = cmp /\ forall n, In n (sk_ents k) -> usedb n = true) /\
      (sk_order k = true -> forall n, In n (sk_ents k) -> usedb n = true -> cmpAt (sk_att k) = cmp).
    Definition is_row (y : item) : Prop := exists n, usedb n = true /\ In y (C_ n).

    Lemma HU n : usedb n = true -> uniq (C_ n).
    Proof. intro U. split; [apply HS; exact U|]. intros y y' H1 H2 E. apply (HA n n); auto. Qed.
    Lemma row_eq y y' : is_row y -> is_row y' -> ip y = ip y' -> cmp y y' = 0.
    Proof. intros (n & U & I) (m & U' & I') E. apply (HA n m); auto. Qed.

    Definition Est (Q : entry -> list item -> Prop) (ents : list entry) : Prop :=
      length ents = length Cs /\ (forall n, (n < length Cs)%nat -> e_att (ent ents n) = nth n atts 0%N) /\
      forall n, usedb n = true -> Q (ent ents n) (C_ n).
    Lemma Est_cmp Q ents n : Est Q ents -> usedb n = true -> cmpAt (e_att (ent ents n)) = cmp.
    Proof. intros (_ & H & _) U. rewrite H by (apply used_lt; exact U). apply HC. exact U. Qed.
    Lemma Est_impl (Q Q' : entry -> list item -> Prop) ents : (forall e C, Q e C -> Q' e C) -> Est Q ents -> Est Q' ents.
    Proof. intros H (E1 & E2 & E3). split; [exact E1|]. split; [exact E2|]. intros n U. apply H, E3, U. Qed.

    (** *** keyGetItem *)
    Lemma minItem_spec (ents : list entry) p ns : Est (pos_ok p) ents -> (forall n, In n ns -> usedb n = true) -> forall m,
      match minItem useAlt addTo cmpA (map (ent ents) ns) m with
      | None => m = None /\ forall n, In n ns -> e_fin (ent ents n) = true
      | Some x => ((exists n, In n ns /\ e_fin (ent ents n) = false /\ x = e_cur (ent ents n)) \/ m = Some x) /\
          (forall n, In n ns -> e_fin (ent ents n) = false -> cmp x (e_cur (ent ents n)) <= 0) /\
          (forall z, m = Some z -> cmp x z <= 0)
      end.
    Proof.
      intros HE. induction ns as [|n ns IH]; intros HN m; cbn [map minItem].
      - destruct m as [z|]; [|split; [reflexivity|intros n []]].
        split; [right; reflexivity|]. split; [intros n []|]. intros z' E. apply Some_inj in E. subst z'. rewrite (tc_refl _ OK). lia.
      - assert (HN' : forall n0, In n0 ns -> usedb n0 = true) by (intros; apply HN; right; assumption).
        specialize (IH HN').
        destruct (e_fin (ent ents n)) eqn:Fn.
        + specialize (IH m). destruct (minItem _ _ _ _ m) as [x|].
          * destruct IH as (I1 & I2 & I3). split; [|split; [|exact I3]].
            -- destruct I1 as [(n' & I1 & I1')|I1]; [left; exists n'; split; [right; exact I1|exact I1']|right; exact I1].
            -- intros n' [E|Hn'] Fn'; [subst n'; congruence|apply I2; assumption].
          * destruct IH as (I1 & I2). split; [exact I1|]. intros n' [E|Hn']; [subst n'; exact Fn|apply I2; exact Hn'].
        + set (c := e_cur (ent ents n)) in *.
          assert (STEP : forall m', m' = Some c -> (forall z, m = Some z -> cmp c z <= 0) ->
            match minItem useAlt addTo cmpA (map (ent ents) ns) m' with
            | None => m = None /\ forall n0, In n0 (n :: ns) -> e_fin (ent ents n0) = true
            | Some x => ((exists n0, In n0 (n :: ns) /\ e_fin (ent ents n0) = false /\ x = e_cur (ent ents n0)) \/ m = Some x) /\
                (forall n0, In n0 (n :: ns) -> e_fin (ent ents n0) = false -> cmp x (e_cur (ent ents n0)) <= 0) /\
                (forall z, m = Some z -> cmp x z <= 0)
            end).
          { intros m' Hm' Hcz. specialize (IH m'). destruct (minItem _ _ _ _ m') as [x|]; [|destruct IH as [IH _]; congruence].
            destruct IH as (I1 & I2 & I3). specialize (I3 c Hm'). split; [|split].
            - left. destruct I1 as [(n' & I1 & I1')|I1]; [exists n'; split; [right; exact I1|exact I1']|].
              exists n. split; [left; reflexivity|]. split; [exact Fn|]. fold c. congruence.
            - intros n' [E|Hn'] Fn'; [subst n'; fold c; exact I3|apply I2; assumption].
            - intros z Hz. apply (tc_trans _ OK x c z); auto. }
          destruct m as [z|].
          * rewrite (Est_cmp _ _ n HE) by (apply HN; left; reflexivity). fold c.
            destruct (Z.ltb_spec (cmp c z) 0) as [L|L].
            -- apply STEP; [reflexivity|]. intros z' E. apply Some_inj in E. subst z'. lia.
            -- specialize (IH (Some z)). destruct (minItem _ _ _ _ (Some z)) as [x|]; [|destruct IH as [IH _]; discriminate].
               destruct IH as (I1 & I2 & I3). split; [|split; [|exact I3]].
               ++ destruct I1 as [(n' & I1 & I1')|I1]; [left; exists n'; split; [right; exact I1|exact I1']|right; exact I1].
               ++ intros n' [E|Hn'] Fn'; [subst n'; fold c|apply I2; assumption].
                  apply (tc_trans _ OK x z c); [apply I3; reflexivity|apply (cmp_ge_le cmp OK); exact L].
          * apply STEP; [reflexivity|]. intros z E. discriminate.
    Qed.

    Definition says_b (k : skey) (p : iptr) : bool * bool := callConsistentFn addTo k (sees Cs k p).
    Definition ks_ok (k : skey) (ks : kst) : Prop :=
      ip_valid (ip (ks_cur ks)) = true ->
      (exists n, In n (sk_ents k) /\ In (ks_cur ks) (C_ n)) /\ (ks_match ks, ks_re ks) = says_b k (ip (ks_cur ks)) /\
      (sk_att k = addTo -> ks_outer ks = newOuter addTo k (sees Cs k (ip (ks_cur ks))) None).
    (** Where the key stands when everything up to [p] is done. *)
    Definition ks_at (p : item) (k : skey) (ks : kst) : Prop :=
      ks_fin ks = false /\ ks_ok k ks /\ ip_valid (ip (ks_cur ks)) = true /\ cmp p (ks_cur ks) < 0 /\
      forall n y, In n (sk_ents k) -> In y (C_ n) -> cmp p y < 0 -> cmp (ks_cur ks) y <= 0.

    Lemma pos_in p e C : pos_ok p e C -> e_fin e = false -> In (e_cur e) C.
    Proof. intros [[[H1 _]|(d & r & H1 & _)] _] F; [congruence|]. rewrite H1. apply in_or_app. right. left. reflexivity. Qed.
    Lemma pos_rest p e C y : ssorted cmp C -> pos_ok p e C -> In y C -> cmp p y < 0 -> e_fin e = false /\ cmp (e_cur e) y <= 0.
    Proof.
      intros S [[[H1 H2]|(d & r & H1 & H2 & H3)] _] Hy L.
      - rewrite Forall_forall in H2. specialize (H2 y Hy). apply (cmp_lt_gt cmp OK) in L. lia.
      - split; [apply (rep_ext_att _ _ H2)|]. rewrite H1 in Hy, S. rewrite (ssorted_app cmp) in S. destruct S as (S1 & S2 & S3).
        apply (ssorted_inv cmp) in S2 as [S2 S4]. apply in_app_or in Hy as [Hy|[Hy|Hy]].
        + rewrite Forall_forall in H3. specialize (H3 y Hy). apply (cmp_lt_gt cmp OK) in L. lia.
        + subst y. rewrite (tc_refl _ OK). lia.
        + rewrite Forall_forall in S4. specialize (S4 y Hy). lia.
    Qed.

    Lemma keyGetItem_spec p ents k ks : Est (pos_ok p) ents -> (forall n, In n (sk_ents k) -> usedb n = true) ->
      ks_fin ks = false -> ks_ok k ks ->
      let ks' := keyGetItem useAlt addTo cmpA ents k ks in
      if ks_fin ks' then forall n y, In n (sk_ents k) -> In y (C_ n) -> cmp y p <= 0 else ks_at p k ks'.
    Proof.
      intros HE HN Hf Hk. cbv zeta. unfold keyGetItem.
      pose proof (minItem_spec ents p (sk_ents k) HE HN None) as M.
      destruct (minItem _ _ _ _ None) as [x|].
      - destruct M as ([(n0 & M1 & M2 & M3)|M1] & M4 & _); [|discriminate].
        assert (E3 := proj2 (proj2 HE)).
        assert (IX : In x (C_ n0)) by (subst x; apply (pos_in p); [apply E3, HN; exact M1|exact M2]).
        assert (VX : ip_valid (ip x) = true) by (apply (HR n0); [apply HN; exact M1|exact IX]).
        assert (LX : cmp p x < 0) by (subst x; apply (E3 n0 (HN n0 M1)); exact M2).
        assert (MX : forall n y, In n (sk_ents k) -> In y (C_ n) -> cmp p y < 0 -> cmp x y <= 0).
        { intros n y Hn Hy L. destruct (pos_rest p (ent ents n) (C_ n) y) as [F1 F2]; auto.
          apply (tc_trans _ OK x (e_cur (ent ents n)) y); [apply M4; assumption|exact F2]. }
        rewrite cip_eqb. destruct (tid_eqb (ip (ks_cur ks)) (ip x)) eqn:E.
        + rewrite Hf. apply tid_eqb_eq in E.
          assert (VK : ip_valid (ip (ks_cur ks)) = true) by (rewrite E; exact VX).
          destruct (Hk VK) as [(n1 & K1 & K2) K3].
          assert (EQ : cmp (ks_cur ks) x = 0) by (apply (HA n1 n0); auto).
          assert (EQ' := cmp_sym_eq cmp OK _ _ EQ).
          split; [exact Hf|]. split; [exact Hk|]. split; [exact VK|]. split.
          * apply (cmp_lt_le_trans cmp OK p x); [exact LX|lia].
          * intros n y Hn Hy L. apply (tc_trans _ OK (ks_cur ks) x y); [lia|apply (MX n); assumption].
        + unfold testKey. destruct (callConsistentFn addTo k (checkAt ents k (ip x))) as [res re] eqn:CC. cbn [ks_fin].
          split; [reflexivity|]. cbn [ks_cur ks_match ks_re].
          split; [|split; [exact VX|split; [exact LX|exact MX]]].
          intros _. cbn [ks_cur ks_match ks_re ks_outer]. split; [exists n0; split; [exact M1|exact IX]|].
          assert (CS : checkAt ents k (ip x) = sees Cs k (ip x)).
          { unfold checkAt, sees. apply map_ext_in. intros n Hn.
            apply caught_shows; [apply HU, HN, Hn| |].
            * intros y Hy Ey. apply (HA n n0); auto.
            * apply (pos_caught p); [apply HU, HN, Hn|exact LX|apply E3, HN, Hn|]. intro F. apply M4; assumption. }
          rewrite CS in CC |- *. split; [rewrite <- CC; reflexivity|].
          intro Ea. unfold newOuter. rewrite Ea, N.eqb_refl. reflexivity.
      - destruct M as [_ M]. cbn [ks_fin]. intros n y Hn Hy. specialize (M n Hn).
        destruct (proj2 (proj2 HE) n (HN n Hn)) as [[[_ G]|(d & r & _ & G & _)] _].
        + rewrite Forall_forall in G. apply G. exact Hy.
        + apply rep_ext_att in G. congruence.
    Qed.

    (** *** The keys together *)
    Definition keys_at (p : item) (keys : list (skey * kst)) : Prop :=
      forall k ks, In (k, ks) keys -> useKey k = true -> ks_at p k ks.
    Definition keys_ok (keys : list (skey * kst)) : Prop :=
      forall k ks, In (k, ks) keys -> useKey k = true -> ks_fin ks = false /\ ks_ok k ks.
    Lemma keysGet_spec p ents : Est (pos_ok p) ents -> forall keys it,
      Forall key_ok (map fst keys) -> keys_ok keys ->
      match keysGet useAlt addTo cmpA alt ents keys it with
      | None => exists k, In k (map fst keys) /\ useKey k = true /\ forall n y, In n (sk_ents k) -> In y (C_ n) -> cmp y p <= 0
      | Some (keys', it') =>
          map fst keys' = map fst keys /\ keys_at p keys' /\
          match it' with
          | None => it = None /\ forall k, In k (map fst keys) -> useKey k = false
          | Some x => (it = Some x \/ exists k ks, In (k, ks) keys' /\ useKey k = true /\ x = ks_cur ks) /\
              (forall k ks, In (k, ks) keys' -> useKey k = true -> cmp x (ks_cur ks) <= 0) /\
              (forall z, it = Some z -> cmp x z <= 0)
          end
      end.
    Proof.
      intros HE. induction keys as [|[k ks] r IH]; intros it HK HKS; cbn [keysGet map fst].
      - split; [reflexivity|]. split; [intros k ks []|]. destruct it as [z|].
        + split; [left; reflexivity|]. split; [intros k ks []|]. intros z' E. apply Some_inj in E. subst. rewrite (tc_refl _ OK). lia.
        + split; [reflexivity|intros k []].
      - cbn [map fst] in HK. inversion HK as [|? ? K1 K2]; subst.
        assert (KR : keys_ok r) by (intros k' ks' H; apply HKS; right; exact H).
        destruct (useKey k) eqn:UK.
        + destruct (HKS k ks (or_introl eq_refl) UK) as [F1 F2]. destruct (proj1 K1 UK) as [KC KN].
          pose proof (keyGetItem_spec p ents k ks HE KN F1 F2) as G. cbv zeta in G.
          destruct (ks_fin (keyGetItem useAlt addTo cmpA ents k ks)) eqn:Fk.
          * exists k. split; [left; reflexivity|]. split; [exact UK|exact G].
          * set (ks1 := keyGetItem useAlt addTo cmpA ents k ks) in *.
            set (it1 := match it with None => ks_cur ks1 | Some x => if cmpAt (sk_att k) (ks_cur ks1) x <? 0 then ks_cur ks1 else x end).
            assert (I1 : (it1 = ks_cur ks1 \/ it = Some it1) /\ cmp it1 (ks_cur ks1) <= 0 /\ forall z, it = Some z -> cmp it1 z <= 0).
            { unfold it1. destruct it as [z|].
              - rewrite KC. destruct (Z.ltb_spec (cmp (ks_cur ks1) z) 0) as [L|L].
                + split; [left; reflexivity|]. split; [rewrite (tc_refl _ OK); lia|]. intros z' E. apply Some_inj in E. subst z'. lia.
                + split; [right; reflexivity|]. split; [apply (cmp_ge_le cmp OK); exact L|]. intros z' E. apply Some_inj in E. subst z'. rewrite (tc_refl _ OK). lia.
              - split; [left; reflexivity|]. split; [rewrite (tc_refl _ OK); lia|]. intros z E. discriminate. }
            specialize (IH (Some it1) K2 KR). destruct (keysGet _ _ _ _ _ r (Some it1)) as [[r' it']|].
            -- destruct IH as (J1 & J2 & J3). cbn [map fst]. split; [congruence|]. split.
               ++ intros k' ks' [E|H'] U'; [injection E as <- <-; exact G|apply J2; assumption].
               ++ destruct it' as [x|]; [|destruct J3 as [J3 _]; discriminate].
                  destruct J3 as (J3 & J4 & J5). specialize (J5 it1 eq_refl). destruct I1 as (I1 & I2 & I3).
                  split; [|split].
                  ** destruct J3 as [J3|(k' & ks' & J3 & J3')].
                     --- apply Some_inj in J3. subst x. destruct I1 as [I1|I1]; [right; exists k, ks1; split; [left; reflexivity|split; [exact UK|exact I1]]|left; exact I1].
                     --- right. exists k', ks'. split; [right; exact J3|exact J3'].
                  ** intros k' ks' [E|H'] U'; [injection E as <- <-|apply (J4 k'); assumption].
                     apply (tc_trans _ OK x it1 (ks_cur ks1)); assumption.
                  ** intros z Hz. apply (tc_trans _ OK x it1 z); auto.
            -- destruct IH as (k' & J1 & J2 & J3). exists k'. split; [right; exact J1|split; assumption].
        + specialize (IH it K2 KR). destruct (keysGet _ _ _ _ _ r it) as [[r' it']|].
          * destruct IH as (J1 & J2 & J3). cbn [map fst]. split; [congruence|]. split.
            -- intros k' ks' [E|H'] U'; [injection E as <- <-; congruence|apply J2; assumption].
            -- destruct it' as [x|].
               ++ destruct J3 as (J3 & J4 & J5). split; [|split; [|exact J5]].
                  ** destruct J3 as [J3|(k' & ks' & J3 & J3')]; [left; exact J3|right; exists k', ks'; split; [right; exact J3|exact J3']].
                  ** intros k' ks' [E|H'] U'; [injection E as <- <-; congruence|apply (J4 k'); assumption].
               ++ destruct J3 as [J3 J4]. split; [exact J3|]. intros k' [E|H']; [subst k'; exact UK|apply J4; exact H'].
          * destruct IH as (k' & J1 & J2 & J3). exists k'. split; [right; exact J1|split; assumption].
    Qed.

    (** *** The answer of a condition *)
    Lemma outerOf_seen (v : list (option (option A))) a : outerOf v = Some a <-> attached_seen v a.
    Proof.
      induction v as [|o v IH]; cbn [outerOf].
      - split; [discriminate|]. intros (v1 & v2 & E & _). destruct v1; discriminate.
      - assert (SK : forall o', o' = None \/ o' = Some None -> outerOf v = Some a <-> attached_seen (o' :: v) a).
        { intros o' Ho'. rewrite IH. split.
          - intros (v1 & v2 & -> & F). exists (o' :: v1), v2. split; [reflexivity|constructor; assumption].
          - intros (v1 & v2 & E & F). destruct v1 as [|o1 v1]; cbn [app] in E.
            + injection E as E1 E2. destruct Ho'; congruence.
            + injection E as E1 E2. inversion F; subst. exists v1, v2. split; [reflexivity|assumption]. }
        destruct o as [[b|]|].
        + split.
          * intro E. apply Some_inj in E. subst b. exists [], v. split; [reflexivity|constructor].
          * intros (v1 & v2 & E & F). destruct v1 as [|o1 v1]; cbn [app] in E.
            -- injection E as E1 E2. congruence.
            -- injection E as E1 E2. inversion F as [|? ? [F1|F1] F2]; subst; discriminate.
        + apply SK. right. reflexivity.
        + apply SK. left. reflexivity.
    Qed.
    Lemma callAdd_iff (k : skey) v : callAddInfoConsistentFn addTo k v = true <->
      (sk_att k = addTo -> forall subs, sk_subs k = Some subs -> exists a, attached_seen v a /\ Forall (fun f => f a = 0) subs).
    Proof.
      unfold callAddInfoConsistentFn. destruct (N.eqb_spec (sk_att k) addTo) as [E|E]; cbn [negb].
      - destruct (sk_subs k) as [subs|].
        + destruct (outerOf v) as [a|] eqn:O.
          * apply outerOf_seen in O as O'. rewrite forallb_forall. split.
            -- intros H _ subs' E'. apply Some_inj in E'. subst subs'. exists a. split; [exact O'|].
               apply Forall_forall. intros f Hf. apply Z.eqb_eq, H, Hf.
            -- intros H f Hf. destruct (H E subs eq_refl) as (b & B1 & B2). apply outerOf_seen in B1.
               assert (a = b) by congruence. subst b. rewrite Forall_forall in B2. apply Z.eqb_eq, B2, Hf.
          * split; [discriminate|]. intro H. destruct (H E subs eq_refl) as (b & B1 & B2). apply outerOf_seen in B1. congruence.
        + split; [intros _ _ subs H; discriminate|reflexivity].
      - split; [intros _ H; contradiction|reflexivity].
    Qed.
    Lemma says_iff (k : skey) v : fst (callConsistentFn addTo k v) = true <-> says addTo k v.
    Proof.
      unfold callConsistentFn, says. destruct (sk_every k).
      - cbn [fst andb]. rewrite callAdd_iff. split; [intro H; split; [left; reflexivity|exact H]|intros [_ H]; exact H].
      - destruct (sk_cons k v) as [res re]. cbn [fst]. rewrite andb_true_iff, callAdd_iff. split.
        + intros [H1 H2]. split; [right; exact H1|exact H2].
        + intros [[H1|H1] H2]; [discriminate|split; assumption].
    Qed.
    Lemma recheck_iff (k : skey) p : snd (says_b k p) = true <-> asks_recheck Cs k p.
    Proof.
      unfold says_b, callConsistentFn, asks_recheck. destruct (sk_every k).
      - cbn [snd]. split; [discriminate|intros [H _]; discriminate].
      - destruct (sk_cons k (sees Cs k p)) as [res re]. cbn [snd]. split; [intro H; split; [reflexivity|exact H]|intros [_ H]; exact H].
    Qed.

    (** *** One round of the loop *)
    Variable tb : iptr -> bool * bool.
    Definition good (keys : list skey) (p : iptr) : Prop :=
      (forall k, In k keys -> useKey k = true -> matches addTo Cs k p) /\ fst (tb p) = true.
    Definition Keys (keys : list skey) : Prop := Forall key_ok keys /\ exists k, In k keys /\ useKey k = true.

    Lemma key_row (k : skey) ks p : key_ok k -> useKey k = true -> ks_at p k ks -> is_row (ks_cur ks).
    Proof.
      intros [K _] U (_ & H & V & _). destruct (H V) as [(n & H1 & H2) _]. exists n. split; [apply K; assumption|exact H2].
    Qed.
    (** The item found: the first candidate behind [p]; it is the answer when all keys agree. *)
    Lemma round p ents (keys keys' : list (skey * kst)) x :
      Est (pos_ok p) ents -> Keys (map fst keys) -> map fst keys' = map fst keys -> keys_at p keys' ->
      (exists k ks, In (k, ks) keys' /\ useKey k = true /\ x = ks_cur ks) ->
      (forall k ks, In (k, ks) keys' -> useKey k = true -> cmp x (ks_cur ks) <= 0) ->
      is_row x /\ cmp p x < 0 /\
      (forall y, is_row y -> cmp p y < 0 -> cmp y x < 0 -> ~ good (map fst keys) (ip y)) /\
      (allMatch addTo alt keys' x && fst (tb (ip x)) = true <-> good (map fst keys) (ip x)).
    Proof.
      intros HE [HK _] HM HKA (k0 & ks0 & X1 & X2 & X3) HX.
      assert (KOK : forall k ks, In (k, ks) keys' -> key_ok k).
      { intros k ks H. rewrite Forall_forall in HK. apply HK. rewrite <- HM. apply (in_map fst) in H. exact H. }
      assert (RX : is_row x) by (subst x; apply (key_row k0 ks0 p); [apply (KOK _ _ X1)|exact X2|apply HKA; assumption]).
      assert (PX : cmp p x < 0) by (subst x; apply (HKA k0 ks0 X1 X2)).
      split; [exact RX|]. split; [exact PX|].
      assert (UP : forall y, is_row y -> cmp p y < 0 -> good (map fst keys) (ip y) -> forall k ks, In (k, ks) keys' -> useKey k = true -> cmp (ks_cur ks) y <= 0).
      { intros y RY PY [GY _] k ks Hk Uk.
        destruct (GY k) as [(n & y' & Y1 & Y2 & Y3) _]; [rewrite <- HM; apply (in_map fst) in Hk; exact Hk|exact Uk|].
        assert (Un : usedb n = true) by (apply (proj1 (KOK k ks Hk)); assumption).
        assert (EY : cmp y y' = 0) by (apply row_eq; [exact RY|exists n; split; assumption|congruence]).
        assert (EY' := cmp_sym_eq cmp OK _ _ EY).
        apply (tc_trans _ OK (ks_cur ks) y' y); [|lia].
        destruct (HKA k ks Hk Uk) as (_ & _ & _ & _ & L). apply (L n); [exact Y1|exact Y2|].
        apply (cmp_lt_le_trans cmp OK p y); [exact PY|lia]. }
      split.
      - intros y RY PY LY GY. specialize (UP y RY PY GY k0 ks0 X1 X2). rewrite <- X3 in UP.
        apply (cmp_lt_gt cmp OK) in LY. lia.
      - rewrite andb_true_iff. unfold allMatch. rewrite forallb_forall. split.
        + intros [G1 G2]. split; [|exact G2]. intros k Hk Uk. rewrite <- HM in Hk. apply in_map_iff in Hk as ([k' ks] & Ek & Hk). cbn [fst] in Ek. subst k'.
          specialize (G1 (k, ks) Hk). cbn [fst snd] in G1. rewrite Uk in G1. cbn [negb orb] in G1. apply andb_true_iff in G1 as [G1 G3].
          rewrite cip_eqb in G3. apply tid_eqb_eq in G3. destruct (HKA k ks Hk Uk) as (_ & O & V & _).
          destruct (O V) as ((n & N1 & N2) & N3 & _). split.
          * exists n, (ks_cur ks). split; [exact N1|]. split; [exact N2|]. symmetry. exact G3.
          * apply says_iff. change (fst (says_b k (ip x)) = true). rewrite G3, <- N3. exact G1.
        + intros G. split; [|apply G]. intros [k ks] Hk. cbn [fst snd]. destruct (useKey k) eqn:Uk; [|reflexivity]. cbn [negb orb].
          pose proof (UP x RX PX G k ks Hk Uk) as L1. pose proof (HX k ks Hk Uk) as L2.
          assert (E : cmp x (ks_cur ks) = 0) by (apply (cmp_le_sym cmp OK) in L1; lia).
          apply EqIp in E. rewrite cip_eqb. apply andb_true_iff. split; [|apply tid_eqb_eq; exact E].
          destruct (HKA k ks Hk Uk) as (_ & O & V & _). destruct (O V) as (_ & N3 & N4).
          destruct G as [G _]. destruct (G k) as [_ S]; [rewrite <- HM; apply (in_map fst) in Hk; exact Hk|exact Uk|].
          apply says_iff in S. change (fst (says_b k (ip x)) = true) in S. rewrite E, <- N3 in S. exact S.
    Qed.

    (** *** Advancing, catching up *)
    Lemma getNext_att fuel : forall chain pos (e : entry), e_att (entryGetNextItem useAlt addTo cmpA fuel chain pos e) = e_att e.
    Proof.
      induction fuel as [|f IH]; intros chain pos e; cbn [entryGetNextItem]; [reflexivity|].
      destruct (at_off (e_list e) (e_off e)); [reflexivity|]. destruct (nth_error chain pos) as [pg|]; [|reflexivity].
      assert (SA : e_att (fst (scanPage useAlt addTo cmpA pg (is_last chain pos) e (e_cur e) false)) = e_att e).
      { unfold scanPage. cbv zeta. destruct (_ && _); [reflexivity|]. destruct (scan_narrow _ _ _ _ _ _) as [a b].
        destruct (scan_bound _ _ _ _) as [[c d]|]; [|reflexivity]. destruct (at_off _ _); reflexivity. }
      destruct (scanPage _ _ _ _ _ _ _ _) as [e1 found]. cbn [fst] in SA. destruct found; [exact SA|].
      destruct (is_last chain pos); [exact SA|]. destruct (nth_error chain (S pos)); [|exact SA].
      destruct (ip_valid _); [|exact SA]. destruct (_ <? 0); [rewrite IH; exact SA|exact SA].
    Qed.
    Lemma getItem_att e : e_att (getItem e) = e_att e.
    Proof.
      unfold entryGetItem. destruct (e_src e) as [|chain pos|rest c].
      - destruct (at_off _ _); reflexivity.
      - apply getNext_att.
      - destruct c; [| |reflexivity]; destruct (collect_loop _ _ _) as [[o c'] r]; destruct o; reflexivity.
    Qed.
    Lemma catchup_att att x e : e_att (catchup useAlt addTo cmpA joinFn att x e) = e_att e.
    Proof.
      unfold catchup. generalize (e_bound e) as f. intro f. revert e. induction f as [|f IH]; intro e; cbn [catchup_loop]; [reflexivity|].
      destruct (_ && _); [rewrite IH; apply getItem_att|reflexivity].
    Qed.
    Lemma advance_att x e : e_att (advance useAlt addTo cmpA joinFn x e) = e_att e.
    Proof.
      unfold advance. destruct (ip_valid _).
      - generalize (cmpAt (e_att e)) as c, (e_bound e) as f. intros c f. revert e. induction f as [|f IH]; intro e; cbn [advance_loop]; [reflexivity|].
        destruct (_ && _); [rewrite IH; apply getItem_att|reflexivity].
      - destruct (e_fin e); [reflexivity|apply getItem_att].
    Qed.
    Definition ready (past : item) : entry -> list item -> Prop :=
      if ip_valid (ip past) then at_ok past else started.
    Definition point (past : item) : item := if ip_valid (ip past) then past else item_min.

    (** *** How many rows are left *)
    Definition left (p : item) (C : list item) : nat := length (filter (fun y => 0 <? cmp y p) C).
    Definition content (n : nat) : list item := if usedb n then C_ n else [].
    Definition measure (p : item) : nat := list_sum (map (fun n => left p (content n)) (seq 0 (length Cs))).
    Lemma total_bound_sum (ents : list entry) : total_bound ents = list_sum (map (fun n => e_bound (ent ents n)) (seq 0 (length ents))).
    Proof.
      unfold total_bound. induction ents as [|e r IH]; [reflexivity|]. cbn [fold_right length seq map list_sum].
      cbn [ent nth]. change (list_sum (e_bound e :: ?l)) with (e_bound e + list_sum l)%nat. rewrite IH. rewrite <- seq_shift, map_map. reflexivity.
    Qed.
    Lemma sum_le (f g : nat -> nat) l : (forall n, In n l -> (f n <= g n)%nat) -> (list_sum (map f l) <= list_sum (map g l))%nat.
    Proof.
      induction l as [|a l IH]; intro H; [cbn; lia|]. cbn [map list_sum fold_right]. 
      change (f a + list_sum (map f l) <= g a + list_sum (map g l))%nat.
      pose proof (H a (or_introl eq_refl)). assert (list_sum (map f l) <= list_sum (map g l))%nat by (apply IH; intros; apply H; right; assumption). lia.
    Qed.
    Lemma sum_lt (f g : nat -> nat) l a : (forall n, In n l -> (f n <= g n)%nat) -> In a l -> (f a < g a)%nat -> (list_sum (map f l) < list_sum (map g l))%nat.
    Proof.
      induction l as [|b l IH]; intros H Ha L; [destruct Ha|]. cbn [map list_sum fold_right].
      change (f b + list_sum (map f l) < g b + list_sum (map g l))%nat.
      pose proof (H b (or_introl eq_refl)).
      assert (HL : forall n, In n l -> (f n <= g n)%nat) by (intros; apply H; right; assumption).
      pose proof (sum_le f g l HL). destruct Ha as [->|Ha]; [lia|]. specialize (IH HL Ha L). lia.
    Qed.
    Lemma left_mono p q C : cmp p q <= 0 -> (left q C <= left p C)%nat.
    Proof.
      intro L. unfold left. induction C as [|y C IH]; [cbn; lia|]. cbn [filter].
      destruct (Z.ltb_spec 0 (cmp y q)) as [Lq|Lq]; destruct (Z.ltb_spec 0 (cmp y p)) as [Lp|Lp]; cbn [length]; try lia.
      pose proof (tc_trans _ OK y p q Lp L). lia.
    Qed.
    Lemma left_strict p x C : cmp p x < 0 -> In x C -> (left x C < left p C)%nat.
    Proof.
      intros L Hx. unfold left. induction C as [|y C IH]; [destruct Hx|]. cbn [filter].
      assert (M : (left x C <= left p C)%nat) by (apply (left_mono p x C); lia). unfold left in M.
      destruct Hx as [->|Hx].
      - rewrite (tc_refl _ OK). assert (P : 0 <? cmp x p = true) by (apply Z.ltb_lt, (cmp_lt_gt cmp OK); exact L). rewrite P. cbn [length Z.ltb Z.compare]. lia.
      - specialize (IH Hx). destruct (Z.ltb_spec 0 (cmp y x)) as [Lq|Lq]; destruct (Z.ltb_spec 0 (cmp y p)) as [Lp|Lp]; cbn [length]; try lia.
        pose proof (tc_trans _ OK y p x Lp ltac:(lia)). lia.
    Qed.
    Lemma measure_strict p x : is_row x -> cmp p x < 0 -> (measure x < measure p)%nat.
    Proof.
      intros (n & U & I) L. unfold measure. apply sum_lt with (a := n).
      - intros m _. apply left_mono. lia.
      - apply in_seq. pose proof (used_lt n U). lia.
      - unfold content. rewrite U. apply left_strict; assumption.
    Qed.
    Lemma filter_le {T} (f : T -> bool) l : (length (filter f l) <= length l)%nat.
    Proof. induction l as [|a l IH]; [reflexivity|]. cbn [filter]. destruct (f a); cbn [length]; lia. Qed.
    Lemma left_bound past e C : ready past e C -> (left (point past) C <= e_bound e)%nat.
    Proof.
      unfold ready, point. destruct (ip_valid (ip past)).
      - intros [[H1 H2]|(d & r & H1 & H2 & H3)].
        + unfold left. assert (E : filter (fun y => 0 <? cmp y past) C = []).
          { clear -H2. induction C as [|y C IH]; [reflexivity|]. inversion H2; subst. cbn [filter]. destruct (Z.ltb_spec 0 (cmp y past)); [lia|apply IH; assumption]. }
          rewrite E. cbn. lia.
        + unfold left. rewrite H1, filter_app, app_length.
          assert (E : filter (fun y => 0 <? cmp y past) d = []).
          { clear -H3. induction d as [|y d IH]; [reflexivity|]. inversion H3; subst. cbn [filter]. destruct (Z.ltb_spec 0 (cmp y past)); [lia|apply IH; assumption]. }
          rewrite E. cbn [length]. pose proof (filter_le (fun y => 0 <? cmp y past) (e_cur e :: r)) as F. cbn [length] in F.
          pose proof (rep_bound _ _ H2). lia.
      - intros [[H1 H2]|H1]; unfold left.
        + subst C. cbn. lia.
        + pose proof (filter_le (fun y => 0 <? cmp y item_min) C). destruct H1 as (_ & HB & _). lia.
    Qed.
    Lemma measure_bound past ents : Est (ready past) ents -> (measure (point past) <= total_bound ents)%nat.
    Proof.
      intros (E1 & E2 & E3). rewrite total_bound_sum, E1. apply sum_le. intros n _. unfold content.
      destruct (usedb n) eqn:U; [apply left_bound, E3, U|]. cbn. lia.
    Qed.

    Hypothesis HUE : forall n, (n < length Cs)%nat -> negb (alt && negb (addTo =? nth n atts 0%N)%N) = usedb n.
    Lemma useEnt_usedb ents n Q : Est Q ents -> (n < length Cs)%nat -> useEnt addTo alt (ent ents n) = usedb n.
    Proof. intros (E1 & E2 & _) L. unfold useEnt. rewrite (E2 n L). apply HUE. exact L. Qed.
    Lemma useEnt_att (e e' : entry) : e_att e = e_att e' -> useEnt addTo alt e = useEnt addTo alt e'.
    Proof. unfold useEnt. intros ->. reflexivity. Qed.

    Lemma advanceAll past ents : Est (ready past) ents ->
      let ents' := map (fun e => if useEnt addTo alt e then advance useAlt addTo cmpA joinFn past e else e) ents in
      Est (pos_ok (point past)) ents'.
    Proof.
      intros HE. pose proof HE as (E1 & E2 & E3). cbv zeta.
      set (g := fun e => if useEnt addTo alt e then advance useAlt addTo cmpA joinFn past e else e).
      assert (G0 : g noEntry = noEntry).
      { unfold g. destruct (useEnt _ _ _); [|reflexivity]. unfold advance. destruct (ip_valid _); reflexivity. }
      split; [rewrite map_length; exact E1|]. split.
      - intros n L. rewrite ent_map by exact G0. unfold g. destruct (useEnt _ _ _); [rewrite advance_att|]; apply E2; exact L.
      - intros n U. rewrite ent_map by exact G0. unfold g. rewrite (useEnt_usedb ents n _ HE) by (apply used_lt; exact U). rewrite U.
        specialize (E3 n U). unfold ready in E3. unfold point. destruct (ip_valid (ip past)) eqn:V.
        + apply advance_pos; [apply (Est_cmp _ _ _ HE U)|exact E3|exact V].
        + unfold advance. rewrite V. apply start_pos_ok; [exact E3|].
          apply Forall_forall. intros y Hy. apply MinLt. apply (HR n); assumption.
    Qed.

    (** catching up the entries of one ordering key *)
    Lemma catch_key k x : sk_order k = true -> key_ok k -> forall ns ents, incl ns (sk_ents k) -> Est (behind x) ents ->
      let ents' := fold_left (fun es n => update es n (catchup useAlt addTo cmpA joinFn (sk_att k) x)) ns ents in
      Est (behind x) ents' /\ (forall n, usedb n = true -> In n ns -> caught x (ent ents' n) (C_ n)) /\
      (forall n, usedb n = true -> caught x (ent ents n) (C_ n) -> caught x (ent ents' n) (C_ n)).
    Proof.
      intros Ok [_ KO]. induction ns as [|m ns IH]; intros ents Hin HE; cbn [fold_left].
      - split; [exact HE|]. split; [intros n _ []|auto].
      - set (ents1 := update ents m (catchup useAlt addTo cmpA joinFn (sk_att k) x)).
        pose proof HE as (E1 & E2 & E3).
        assert (CB : forall e C, caught x e C -> behind x e C).
        { intros e C [H|(d & r & H1 & H2 & H3 & _)]; [left; exact H|right; exists d, r; auto]. }
        assert (CM : usedb m = true -> caught x (ent ents1 m) (C_ m)).
        { intro U. unfold ents1. rewrite ent_update, Nat.eqb_refl. cbn [andb]. 
          assert (L : (m <? length ents)%nat = true) by (apply Nat.ltb_lt; rewrite E1; apply used_lt; exact U).
          rewrite L. apply catchup_ok; [apply (Est_cmp _ _ _ HE U)|apply (KO Ok m); [apply Hin; left; reflexivity|exact U]|apply E3; exact U]. }
        assert (HE1 : Est (behind x) ents1).
        { split; [unfold ents1; rewrite update_length; exact E1|]. split.
          - intros n L. unfold ents1. rewrite ent_update. destruct (_ && _); [rewrite catchup_att|]; apply E2; exact L.
          - intros n U. destruct (Nat.eq_dec n m) as [->|N]; [apply CB, CM, U|]. unfold ents1. rewrite ent_update.
            destruct (Nat.eqb_spec n m); [contradiction|]. cbn [andb]. apply E3, U. }
        destruct (IH ents1) as (I1 & I2 & I3); [intros n Hn; apply Hin; right; exact Hn|exact HE1|].
        split; [exact I1|]. split.
        + intros n U [E|Hn]; [subst n; apply I3; [exact U|apply CM; exact U]|apply I2; assumption].
        + intros n U Cg. apply I3; [exact U|]. destruct (Nat.eq_dec n m) as [->|N]; [apply CM, U|]. unfold ents1. rewrite ent_update.
          destruct (Nat.eqb_spec n m); [contradiction|]. cbn [andb]. exact Cg.
    Qed.
    Lemma finishKeys_spec x : forall keys ents, Forall key_ok (map fst keys) -> Est (behind x) ents ->
      let '(ents', re) := finishKeys useAlt addTo cmpA joinFn ents keys x in
      Est (behind x) ents' /\ re = existsb (fun kk => negb (sk_order (fst kk)) && ks_re (snd kk)) keys /\
      (re = false -> forall k ks n, In (k, ks) keys -> sk_order k = true -> In n (sk_ents k) -> usedb n = true -> caught x (ent ents' n) (C_ n)) /\
      (forall n, usedb n = true -> caught x (ent ents n) (C_ n) -> caught x (ent ents' n) (C_ n)).
    Proof.
      induction keys as [|[k ks] r IH]; intros ents HK HE; cbn [finishKeys map fst] in *.
      - split; [exact HE|]. split; [reflexivity|]. split; [intros _ k ks n []|auto].
      - inversion HK as [|? ? K1 K2]; subst. cbn [existsb fst snd]. destruct (sk_order k) eqn:O; cbn [negb andb orb].
        + destruct (catch_key k x O K1 (sk_ents k) ents (incl_refl _) HE) as (C1 & C2 & C3).
          specialize (IH _ K2 C1). destruct (finishKeys _ _ _ _ _ r x) as [ents' re].
          destruct IH as (I1 & I2 & I3 & I4). split; [exact I1|]. split; [exact I2|]. split.
          * intros Re k' ks' n [E|H'] O' Hn U; [injection E as <- <-; apply I4; [exact U|apply C2; assumption]|apply (I3 Re k' ks'); assumption].
          * intros n U Cg. apply I4; [exact U|]. apply C3; assumption.
        + destruct (ks_re ks); cbn [orb].
          * split; [exact HE|]. split; [reflexivity|]. split; [discriminate|auto].
          * specialize (IH ents K2 HE). destruct (finishKeys _ _ _ _ ents r x) as [ents' re].
            destruct IH as (I1 & I2 & I3 & I4). split; [exact I1|]. split; [exact I2|]. split; [|exact I4].
            intros Re k' ks' n [E|H'] O'; [injection E as <- <-; congruence|apply (I3 Re k' ks'); assumption].
    Qed.

    (** *** The loop *)
    Definition loop_post (keys : list skey) (past : item) (r : option (sst (A:=A) * item * bool)) (t : tbm) : Prop :=
      match r with
      | None => forall y, is_row y -> cmp (point past) y < 0 -> ~ good keys (ip y)
      | Some (st', x, re) =>
          is_row x /\ cmp (point past) x < 0 /\ good keys (ip x) /\
          (forall y, is_row y -> cmp (point past) y < 0 -> cmp y x < 0 -> ~ good keys (ip y)) /\
          Est (behind x) (s_ents st') /\ map fst (s_keys st') = keys /\ keys_ok (s_keys st') /\ s_alt st' = alt /\ s_tbm st' = t /\
          (exists fre, re = fre || (alt && snd (tb (ip x))) /\
             (fre = existsb (fun kk => negb (sk_order (fst kk)) && ks_re (snd kk)) (s_keys st')) /\
             (fre = false -> forall k n, In k keys -> sk_order k = true -> In n (sk_ents k) -> usedb n = true -> caught x (ent (s_ents st') n) (C_ n))) /\
          (forall k ks, In (k, ks) (s_keys st') -> useKey k = true -> ks_re ks = snd (says_b k (ip x)) /\
             (sk_att k = addTo -> ks_outer ks = newOuter addTo k (sees Cs k (ip x)) None))
      end.

    Lemma regular_loop_spec keys : Keys keys -> forall fuel st past,
      s_alt st = alt -> (forall p, tb p = if alt then rum_tbm_contains_tid (s_tbm st) p else (true, false)) ->
      Est (ready past) (s_ents st) -> map fst (s_keys st) = keys -> keys_ok (s_keys st) ->
      (measure (point past) < fuel)%nat ->
      loop_post keys past (regular_loop useAlt addTo cmpA joinFn fuel st past) (s_tbm st).
    Proof.
      intros HK. induction fuel as [|f IH]; intros st past Ha Ht HE HM HKS Hf; [lia|].
      cbn [regular_loop]. rewrite Ha.
      pose proof (advanceAll past (s_ents st) HE) as HP. cbv zeta in HP.
      set (ents := map _ (s_ents st)) in *.
      destruct (forallb (fun e => e_fin e) (filter (useEnt addTo alt) ents)) eqn:FA.
      { cbn [loop_post]. intros y (n & U & I) L _. rewrite forallb_forall in FA.
        destruct (pos_rest (point past) (ent ents n) (C_ n) y) as [F _]; [apply HS, U|apply HP, U|exact I|exact L|].
        assert (X : e_fin (ent ents n) = true).
        { apply FA. apply filter_In. split; [apply nth_In; rewrite (proj1 HP); apply used_lt, U|].
          rewrite (useEnt_usedb ents n _ HP) by (apply used_lt, U). exact U. }
        congruence. }
      pose proof (keysGet_spec (point past) ents HP (s_keys st) None) as KG.
      rewrite HM in KG. specialize (KG (proj1 HK) HKS).
      destruct (keysGet _ _ _ _ ents (s_keys st) None) as [[keys' it']|].
      2:{ cbn [loop_post]. destruct KG as (k & K1 & K2 & K3). intros y RY L [G _].
          destruct (G k K1 K2) as [(n & y' & Y1 & Y2 & Y3) _].
          assert (KU : usedb n = true) by (destruct HK as [HK _]; rewrite Forall_forall in HK; apply (proj1 (HK k K1) K2), Y1).
          assert (EY : cmp y y' = 0) by (apply row_eq; [exact RY|exists n; split; assumption|congruence]).
          specialize (K3 n y' Y1 Y2). pose proof (cmp_lt_le_trans cmp OK (point past) y y' L ltac:(lia)) as L'.
          apply (cmp_lt_gt cmp OK) in L'. lia. }
      destruct KG as (G1 & G2 & G3). destruct it' as [x|].
      2:{ exfalso. destruct G3 as [_ G3]. destruct HK as [_ (k & K1 & K2)]. rewrite (G3 k K1) in K2. discriminate. }
      destruct G3 as ([G3|G3] & G4 & _); [discriminate|].
      destruct (round (point past) ents (s_keys st) keys' x HP) as (R1 & R2 & R3 & R4); [rewrite HM; exact HK|congruence|exact G2|exact G3|exact G4|].
      rewrite HM in R3, R4.
      assert (TB : (if alt then rum_tbm_contains_tid (s_tbm st) (ip x) else (true, false)) = tb (ip x)) by (symmetry; apply Ht).
      rewrite TB. destruct (tb (ip x)) as [inb brecheck] eqn:TBx. cbn [fst] in R4.
      assert (VX : ip_valid (ip x) = true) by (destruct R1 as (n & U & I); apply (HR n x); assumption).
      assert (KO' : keys_ok keys').
      { intros k ks H U. destruct (G2 k ks H U) as (F & O & _). split; assumption. }
      assert (BH : Est (behind x) ents) by (eapply Est_impl; [|exact HP]; intros e C; apply pos_behind; exact R2).
      destruct (allMatch addTo alt keys' x && inb) eqn:AM.
      - pose proof (finishKeys_spec x keys' ents) as FK. rewrite G1 in FK. specialize (FK (proj1 HK) BH).
        destruct (finishKeys _ _ _ _ ents keys' x) as [ents' fre]. destruct FK as (F1 & F2 & F3 & _).
        cbn [loop_post s_ents s_keys s_alt s_tbm].
        split; [exact R1|]. split; [exact R2|]. split; [apply R4; reflexivity|]. split; [exact R3|]. split; [exact F1|].
        split; [congruence|]. split; [exact KO'|]. split; [reflexivity|]. split; [reflexivity|]. split.
        + exists fre. rewrite TBx. cbn [snd]. split; [reflexivity|]. split; [exact F2|].
          intros Fr k n Hk O Hn U. rewrite <- G1 in Hk. apply in_map_iff in Hk as ([k' ks] & Ek & Hk). cbn [fst] in Ek. subst k'.
          apply (F3 Fr k ks); assumption.
        + intros k ks H U. destruct (G2 k ks H U) as (_ & O & V & _). destruct (O V) as (_ & N3 & N4).
          apply andb_true_iff in AM as [AM _]. unfold allMatch in AM. rewrite forallb_forall in AM. specialize (AM (k, ks) H). cbn [fst snd] in AM.
          rewrite U in AM. cbn [negb orb] in AM. apply andb_true_iff in AM as [_ AM]. rewrite cip_eqb in AM. apply tid_eqb_eq in AM.
          rewrite AM. split; [rewrite <- N3; reflexivity|exact N4].
      - assert (PX : point x = x) by (unfold point; rewrite VX; reflexivity).
        specialize (IH (mkSst ents keys' alt (s_tbm st)) x eq_refl Ht). cbn [s_ents s_keys s_tbm] in IH. rewrite PX in IH.
        assert (RE : Est (ready x) ents).
        { unfold ready. rewrite VX. eapply Est_impl; [|exact BH]. intros e C. apply behind_at. }
        specialize (IH RE ltac:(congruence) KO').
        pose proof (measure_strict _ x R1 R2) as MS. specialize (IH ltac:(lia)).
        assert (NG : ~ good keys (ip x)) by (intro G; apply R4 in G; congruence).
        assert (STEP : forall y, is_row y -> cmp (point past) y < 0 -> cmp x y >= 0 -> ~ good keys (ip y)).
        { intros y RY L GE G. destruct (Z.lt_trichotomy (cmp y x) 0) as [L1|[L1|L1]].
          - apply (R3 y); assumption.
          - apply EqIp in L1. apply NG. rewrite <- L1. exact G.
          - apply (cmp_gt_lt cmp OK) in L1. lia. }
        unfold loop_post in IH |- *. destruct (regular_loop _ _ _ _ f _ x) as [[[st' x'] re]|].
        + rewrite PX in IH. destruct IH as (I1 & I2 & I3 & I4 & I5).
          split; [exact I1|]. split; [apply (cmp_lt_trans cmp OK _ x x'); assumption|]. split; [exact I3|]. split; [|exact I5].
          intros y RY L LX. destruct (Z.lt_ge_cases (cmp x y) 0) as [L1|L1]; [apply I4; assumption|apply STEP; auto; lia].
        + rewrite PX in IH. intros y RY L. destruct (Z.lt_ge_cases (cmp x y) 0) as [L1|L1]; [apply IH; assumption|apply STEP; auto; lia].
    Qed.

    (** *** All rows *)
    Definition out_ok (keys : list skey) (x : item) (re : bool) (st : sst (A:=A)) : Prop :=
      is_row x /\ good keys (ip x) /\
      exists fre, re = fre || (alt && snd (tb (ip x))) /\
        fre = existsb (fun kk => negb (sk_order (fst kk)) && ks_re (snd kk)) (s_keys st) /\ map fst (s_keys st) = keys /\
        (forall k ks, In (k, ks) (s_keys st) -> useKey k = true -> ks_re ks = snd (says_b k (ip x)) /\
           (sk_att k = addTo -> ks_outer ks = newOuter addTo k (sees Cs k (ip x)) None)) /\
        (fre = false -> forall k n, In k keys -> sk_order k = true -> In n (sk_ents k) -> usedb n = true -> caught x (ent (s_ents st) n) (C_ n)).
    Notation row o := (fst (fst o)).
    Definition run_post (keys : list skey) (p : item) (out : list (item * bool * sst (A:=A))) : Prop :=
      ssorted cmp (map (fun o => row o) out) /\ Forall (fun o => cmp p (row o) < 0) out /\
      Forall (fun o => out_ok keys (row o) (snd (fst o)) (snd o)) out /\
      (forall y, is_row y -> cmp p y < 0 -> good keys (ip y) -> exists o, In o out /\ ip (row o) = ip y).
    Lemma run_spec keys : Keys keys -> forall fuel st past,
      (alt = false \/ ip_valid (ip past) = true) ->
      s_alt st = alt -> (forall p, tb p = if alt then rum_tbm_contains_tid (s_tbm st) p else (true, false)) ->
      Est (ready past) (s_ents st) -> map fst (s_keys st) = keys -> keys_ok (s_keys st) ->
      (measure (point past) < fuel)%nat ->
      run_post keys (point past) (runRegular useAlt addTo cmpA joinFn visit iterate tbmMax fuel st past).
    Proof.
      intros HK. induction fuel as [|f IH]; intros st past Hp Ha Ht HE HM HKS Hf; [lia|].
      cbn [runRegular]. unfold scanGetItemRegular. rewrite Ha.
      assert (NP : alt && negb (ip_valid (ip past)) = false) by (destruct Hp as [-> | ->]; [reflexivity|apply andb_false_r]).
      rewrite NP. cbv zeta.
      pose proof (measure_bound past (s_ents st) HE) as MB.
      pose proof (regular_loop_spec keys HK (S (total_bound (s_ents st))) st past Ha Ht HE HM HKS ltac:(lia)) as L.
      unfold loop_post in L. destruct (regular_loop _ _ _ _ _ st past) as [[[st' x] re]|].
      - destruct L as (L1 & L2 & L3 & L4 & L5 & L6 & L7 & L8 & L9 & (fre & L10 & L11 & L12) & L13).
        assert (VX : ip_valid (ip x) = true) by (destruct L1 as (n & U & I); apply (HR n x); assumption).
        assert (PX : point x = x) by (unfold point; rewrite VX; reflexivity).
        pose proof (measure_strict _ x L1 L2) as MS.
        specialize (IH st' x (or_intror VX) L8). rewrite PX, L9 in IH.
        assert (RE : Est (ready x) (s_ents st')).
        { unfold ready. rewrite VX. eapply Est_impl; [|exact L5]. intros e C. apply behind_at. }
        destruct (IH Ht RE L6 L7 ltac:(lia)) as (I1 & I2 & I3 & I4). clear IH.
        split; [|split; [|split]].
        + cbn [map fst]. apply (ssorted_cons cmp); [exact I1|]. apply Forall_map. exact I2.
        + constructor; [exact L2|]. eapply Forall_impl; [|exact I2]. cbn. intros o Ho. apply (cmp_lt_trans cmp OK _ x); assumption.
        + constructor; [|exact I3]. cbn [fst snd]. split; [exact L1|]. split; [exact L3|]. exists fre. auto.
        + intros y RY L G. destruct (Z.lt_trichotomy (cmp y x) 0) as [C|[C|C]].
          * exfalso. apply (L4 y); assumption.
          * apply EqIp in C. eexists. split; [left; reflexivity|]. cbn [fst]. congruence.
          * apply (cmp_gt_lt cmp OK) in C. destruct (I4 y RY C G) as (o & O1 & O2). exists o. split; [right; exact O1|exact O2].
      - split; [constructor|]. split; [constructor|]. split; [constructor|]. intros y RY L' G. exfalso. apply (L y); assumption.
    Qed.
    (** The same, from a first call that has prepared the state [st]. *)
    Lemma run_first keys : Keys keys -> forall f st past,
      s_alt st = alt -> (forall p, tb p = if alt then rum_tbm_contains_tid (s_tbm st) p else (true, false)) ->
      Est (ready past) (s_ents st) -> map fst (s_keys st) = keys -> keys_ok (s_keys st) ->
      (measure (point past) <= f)%nat ->
      run_post keys (point past)
        (match regular_loop useAlt addTo cmpA joinFn (S (total_bound (s_ents st))) st past with
         | None => []
         | Some (st', x, re) => (x, re, st') :: runRegular useAlt addTo cmpA joinFn visit iterate tbmMax f st' x
         end).
    Proof.
      intros HK f st past Ha Ht HE HM HKS Hf.
      pose proof (measure_bound past (s_ents st) HE) as MB.
      pose proof (regular_loop_spec keys HK (S (total_bound (s_ents st))) st past Ha Ht HE HM HKS ltac:(lia)) as L.
      unfold loop_post in L. destruct (regular_loop _ _ _ _ _ st past) as [[[st' x] re]|].
      - destruct L as (L1 & L2 & L3 & L4 & L5 & L6 & L7 & L8 & L9 & (fre & L10 & L11 & L12) & L13).
        assert (VX : ip_valid (ip x) = true) by (destruct L1 as (n & U & I); apply (HR n x); assumption).
        assert (PX : point x = x) by (unfold point; rewrite VX; reflexivity).
        pose proof (measure_strict _ x L1 L2) as MS.
        pose proof (run_spec keys HK f st' x (or_intror VX) L8) as IH. rewrite PX, L9 in IH.
        assert (RE : Est (ready x) (s_ents st')).
        { unfold ready. rewrite VX. eapply Est_impl; [|exact L5]. intros e C. apply behind_at. }
        destruct (IH Ht RE L6 L7 ltac:(lia)) as (I1 & I2 & I3 & I4). clear IH.
        split; [|split; [|split]].
        + cbn [map fst]. apply (ssorted_cons cmp); [exact I1|]. apply Forall_map. exact I2.
        + constructor; [exact L2|]. eapply Forall_impl; [|exact I2]. cbn. intros o Ho. apply (cmp_lt_trans cmp OK _ x); assumption.
        + constructor; [|exact I3]. cbn [fst snd]. split; [exact L1|]. split; [exact L3|]. exists fre. auto.
        + intros y RY L G. destruct (Z.lt_trichotomy (cmp y x) 0) as [C|[C|C]].
          * exfalso. apply (L4 y); assumption.
          * apply EqIp in C. eexists. split; [left; reflexivity|]. cbn [fst]. congruence.
          * apply (cmp_gt_lt cmp OK) in C. destruct (I4 y RY C G) as (o & O1 & O2). exists o. split; [right; exact O1|exact O2].
      - split; [constructor|]. split; [constructor|]. split; [constructor|]. intros y RY L' G. exfalso. apply (L y); assumption.
    Qed.
  End Order.

  (** ** The scan from its start *)
  Notation qentry := (@qentry A).
  Lemma rows_nth_app : forall (chain : list (leaf A)) i pg, nth_error chain i = Some pg -> is_last chain i = false ->
    exists p1 p2 r, chain = p1 ++ pg :: p2 :: r.
  Proof.
    intros chain i pg Hn Hl. apply nth_error_split in Hn as (l1 & l2 & -> & <-).
    destruct l2 as [|p2 r]; [|exists l1, p2, r; reflexivity].
    exfalso. unfold is_last in Hl. rewrite app_length in Hl. cbn [length] in Hl. apply Nat.eqb_neq in Hl. lia.
  Qed.
  Lemma start_started (q : qentry) cmp : cmpAt (q_att q) = cmp -> ssorted cmp (rows_found (joinFn (q_att q)) (q_found q)) ->
    (forall y, In y (rows_found (joinFn (q_att q)) (q_found q)) -> off (ip y) <> 0%N) -> found_ok cmp (q_found q) (q_refind q) ->
    started (start q) (rows_found (joinFn (q_att q)) (q_found q)).
  Proof.
    intros Hc Hs Hv Hok. unfold start, startScanEntry. destruct (q_found q) as [|l|chain junk|rows]; cbn [rows_found] in *.
    - left. split; reflexivity.
    - destruct l as [|x l]; [left; split; reflexivity|]. right. apply rep_gives. split; [reflexivity|]. cbn [e_src e_att e_list e_off].
      rewrite Hc. split; [exact Hs|]. split; [lia|reflexivity].
    - destruct Hok as ((pg & rest & Ec & NE) & HB & HRf). right.
      assert (CO : chain_ok cmp chain).
      { split; [exact Hs|]. split.
        * apply Forall_forall. intros y Hy. unfold valid_row, ip_valid. specialize (Hv y Hy). apply negb_true_iff, N.eqb_neq. exact Hv.
        * intros i pg' Hn Hl. destruct (rows_nth_app _ _ _ Hn Hl) as (p1 & p2 & r & E). apply Forall_forall. intros y Hy.
          apply (HB p1 pg' p2 r y E Hy). }
      assert (RO : refind_ok cmp chain (q_refind q)).
      { intro x. destruct (HRf x) as [H1 H2]. split; [exact H1|]. apply Forall_forall. exact H2. }
      destruct (lf_items pg) as [|x0 l0] eqn:El.
      { destruct NE as [NE|NE]; [congruence|].
        assert (E0 : match chain with [] => [] | pg :: _ => lf_items pg end = []) by (rewrite Ec; exact El). rewrite E0. cbn [nth].
        set (e := mkEntry (q_att q) (Tree chain 0) [] 0 junk false (q_predict q) (q_refind q)).
        assert (LB : (length (flat_map lf_items chain) + 1 <= e_bound e)%nat) by (unfold e_bound, e; cbn [e_list e_src length]; lia).
        assert (LE : (length chain - 0 < 2 * (length chain - 0) + 2)%nat) by lia.
        split; [reflexivity|]. split; [exact LB|]. 
        assert (GE : getItem e = ScanEntry.entryGetNextItem useAlt addTo cmpA (2 * (length chain - 0) + 2) chain 0 e) by reflexivity. rewrite GE. clear GE.
        assert (ER : rows_of (skipn 1 chain) = rows_of chain) by (rewrite Ec; cbn [skipn rows_of flat_map]; rewrite El; reflexivity).
        destruct NE as [[NV NI]|[NV NI]].
        - assert (V : valid_row junk) by (unfold valid_row, ip_valid; apply negb_true_iff, N.eqb_neq; exact NV).
          pose proof (junk_first useAlt addTo cmpA CA joinFn (2 * (length chain - 0) + 2) chain 0 pg e eq_refl eq_refl) as J.
          change (e_att e) with (q_att q) in J. change (e_refind e) with (q_refind q) in J. change (e_cur e) with junk in J. rewrite Hc, ER in J.
          apply J; [exact CO|exact RO|rewrite Ec; reflexivity|exact El|reflexivity|exact V| |exact LE].
          apply Forall_forall. intros y Hy E. rewrite <- Hc in E. apply cmpAt_eq_ip in E. apply (NI y); [|congruence].
          unfold rows_of in Hy. rewrite Ec in Hy. cbn [flat_map] in Hy. rewrite El in Hy. exact Hy.
        - assert (V : ip_valid (ip junk) = false) by (unfold ip_valid; rewrite NV; reflexivity).
          replace (2 * (length chain - 0) + 2)%nat with (S (2 * (length chain - 0) + 1)) by lia.
          pose proof (junk_null useAlt addTo cmpA joinFn (2 * (length chain - 0) + 1) chain pg rest e eq_refl eq_refl) as J.
          change (e_att e) with (q_att q) in J. change (e_refind e) with (q_refind q) in J. change (e_cur e) with junk in J. rewrite Hc in J.
          apply J; [exact CO|exact RO|exact Ec|exact El|reflexivity|exact V|exact NI]. }
      clear NE. assert (NE : lf_items pg <> []) by (rewrite El; discriminate). clear El. subst chain.
      apply rep_gives. split; [reflexivity|]. cbn [e_src e_att e_list e_off e_refind].
      rewrite Hc. split; [exact CO|split].
      + exact RO.
      + exists pg, [], []. split; [reflexivity|]. split; [rewrite app_nil_r; reflexivity|]. split; [exact NE|].
        split; [|left; split; reflexivity]. reflexivity.
    - right. apply rep_gives. split; [reflexivity|]. cbn [e_src e_list]. split; reflexivity.
  Qed.

  Lemma nth_start (qs : list qentry) n : (n < length qs)%nat -> exists q, nth_error qs n = Some q /\
    ent (map start qs) n = start q /\ nth n (rows joinFn qs) [] = rows_found (joinFn (q_att q)) (q_found q).
  Proof.
    intro L. destruct (nth_error qs n) as [q|] eqn:E; [|apply nth_error_None in E; lia]. exists q. split; [reflexivity|]. split.
    - unfold Scan.ent. apply nth_error_nth. rewrite nth_error_map, E. reflexivity.
    - apply nth_error_nth. unfold rows. rewrite nth_error_map, E. reflexivity.
  Qed.
  Lemma start_att (q : qentry) : e_att (start q) = q_att q.
  Proof. unfold start, startScanEntry. destruct (q_found q) as [|[|]| |]; reflexivity. Qed.

  (** One order for all keys and query keys. *)
  Lemma one_order (qs : list qentry) keys : isScanWithAltOrderKeys useAlt addTo keys = false -> query_ok qs keys -> keys <> [] ->
    exists a, (forall k, In k keys -> altOf useAlt addTo (sk_att k) = a) /\ (forall q, In q qs -> altOf useAlt addTo (q_att q) = a).
  Proof.
    intros H (Q1 & Q2) NE.
    assert (KK : exists a, forall k : skey, In k keys -> altOf useAlt addTo (sk_att k) = a).
    { unfold isScanWithAltOrderKeys in H. apply andb_false_iff in H as [H|H]; [apply andb_false_iff in H as [H|H]|].
      - apply negb_false_iff, Nat.eqb_eq in H. destruct keys as [|k [|]]; try discriminate.
        exists (altOf useAlt addTo (sk_att k)). intros k' [<-|[]]. reflexivity.
      - exists true. intros k Hk. destruct (altOf useAlt addTo (sk_att k)) eqn:E; [reflexivity|]. exfalso.
        assert (X : existsb (fun k : skey => negb (useAlt && (addTo =? sk_att k)%N)) keys = true).
        { apply existsb_exists. exists k. split; [exact Hk|]. unfold altOf in E. rewrite N.eqb_sym, E. reflexivity. }
        congruence.
      - exists false. intros k Hk. destruct (altOf useAlt addTo (sk_att k)) eqn:E; [|reflexivity]. exfalso.
        assert (X : existsb (fun k : skey => useAlt && (addTo =? sk_att k)%N) keys = true).
        { apply existsb_exists. exists k. split; [exact Hk|]. unfold altOf in E. rewrite N.eqb_sym, E. reflexivity. }
        congruence. }
    destruct KK as [a KK]. exists a. split; [exact KK|]. intros q Hq. apply In_nth_error in Hq as [n Hn].
    destruct (Q2 n q Hn) as (k & K1 & K2). destruct (Q1 k n K1 K2) as (q' & E1 & E2). rewrite Hn in E1. apply Some_inj in E1. subst q'.
    rewrite E2. apply KK, K1.
  Qed.

  Lemma cmp_of a att : altOf useAlt addTo att = a -> cmpAt att = compareRumItem a cmpA.
  Proof. unfold ScanEntry.cmpAt. intros ->. reflexivity. Qed.

  Theorem scanRegular_spec (qs : list qentry) (keys : list skey) a :
    let cmp := compareRumItem a cmpA in
    isScanWithAltOrderKeys useAlt addTo keys = false ->
    query_ok qs keys ->
    (forall k, In k keys -> altOf useAlt addTo (sk_att k) = a) -> (forall q, In q qs -> altOf useAlt addTo (q_att q) = a) ->
    rows_ok cmp (rows joinFn qs) ->
    (forall q, In q qs -> found_ok cmp (q_found q) (q_refind q)) ->
    (exists k, In k keys /\ sk_order k = false) ->
    let out := scanRegular useAlt addTo cmpA joinFn visit iterate tbmMax (map start qs) keys in
    ssorted cmp (map (fun o => fst (fst o)) out) /\
    (forall p, (exists o, In o out /\ ip (fst (fst o)) = p) <-> (forall k, In k keys -> sk_order k = false -> matches addTo (rows joinFn qs) k p)) /\
    (forall x re st, In (x, re, st) out -> (exists q, In q qs /\ In x (rows_found (joinFn (q_att q)) (q_found q))) /\
       (re = true <-> exists k, In k keys /\ sk_order k = false /\ asks_recheck (rows joinFn qs) k (ip x)) /\
       (re = false -> forall k, In k keys -> sk_order k = true -> checkAt (s_ents st) k (ip x) = sees (rows joinFn qs) k (ip x)) /\
       map fst (s_keys st) = keys /\
       (forall k ks, In (k, ks) (s_keys st) -> sk_order k = false -> sk_att k = addTo -> ks_outer ks = newOuter addTo k (sees (rows joinFn qs) k (ip x)) None)).
  Proof.
    intros cmp Halt HQ Hka Hqa (HR1 & HR2) Hfo (k1 & K1 & K1o). cbv zeta.
    set (Cs := rows joinFn qs) in *.
    assert (OK : total_cmp cmp) by (apply cri_total; exact CA).
    assert (LC : length Cs = length qs) by (unfold Cs, rows; rewrite map_length; reflexivity).
    set (atts := map q_att qs).
    set (usedb := fun n => (n <? length Cs)%nat).
    assert (UB : forall n, usedb n = (n <? length Cs)%nat) by reflexivity.
    assert (UL : forall n, usedb n = true -> (n < length Cs)%nat) by (intros n; apply Nat.ltb_lt).
    assert (QN : forall n, usedb n = true -> exists q, nth_error qs n = Some q /\ In q qs /\ nth n atts 0%N = q_att q /\ nth n Cs [] = rows_found (joinFn (q_att q)) (q_found q) /\ In (nth n Cs []) Cs).
    { intros n U. rewrite UB in U. apply Nat.ltb_lt in U. rewrite LC in U. destruct (nth_start qs n U) as (q & E1 & E2 & E3).
      exists q. split; [exact E1|]. split; [apply nth_error_In in E1; exact E1|]. split; [|split; [exact E3|apply nth_In; rewrite LC; exact U]].
      apply nth_error_nth. unfold atts. rewrite nth_error_map, E1. reflexivity. }
    assert (NA : forall att, altOf useAlt addTo att = a -> cmpAt att = cmp) by (intros att H; apply cmp_of; exact H).
    pose proof (fun x y (E : cmp x y = 0) => cmpAt_eq_ip (A:=A)) as _.
    assert (EqIp : forall x y, cmp x y = 0 -> ip x = ip y).
    { intros x y E. apply (cmpAt_eq_ip useAlt addTo cmpA (sk_att k1)). rewrite (NA (sk_att k1) (Hka k1 K1)). exact E. }
    assert (MinLt : forall x, ip_valid (ip x) = true -> cmp item_min x < 0).
    { intros x V. rewrite <- (NA (sk_att k1) (Hka k1 K1)). apply cmpAt_min. exact V. }
    assert (HC : forall n, usedb n = true -> cmpAt (nth n atts 0%N) = cmp).
    { intros n U. destruct (QN n U) as (q & _ & Q2 & -> & _). apply NA, Hqa, Q2. }
    assert (HR : forall n y, usedb n = true -> In y (nth n Cs []) -> ip_valid (ip y) = true).
    { intros n y U Hy. destruct (QN n U) as (q & _ & _ & _ & _ & Q5). destruct (HR1 _ Q5) as [_ V]. specialize (V y Hy).
      unfold ip_valid. apply negb_true_iff, N.eqb_neq. exact V. }
    assert (HS : forall n, usedb n = true -> ssorted cmp (nth n Cs [])).
    { intros n U. destruct (QN n U) as (q & _ & _ & _ & _ & Q5). apply (HR1 _ Q5). }
    assert (HA : forall n m y y', usedb n = true -> usedb m = true -> In y (nth n Cs []) -> In y' (nth m Cs []) -> ip y = ip y' -> cmp y y' = 0).
    { intros n m y y' U U' Hy Hy' E. destruct (QN n U) as (q & _ & _ & _ & _ & Q5). destruct (QN m U') as (q' & _ & _ & _ & _ & Q5').
      apply (HR2 _ _ y y' Q5 Q5' Hy Hy' E). }
    assert (HUE : forall n, (n < length Cs)%nat -> negb (false && negb (addTo =? nth n atts 0%N)%N) = usedb n).
    { intros n L. symmetry. apply Nat.ltb_lt. exact L. }
    assert (UK : forall k : skey, Scan.useKey addTo false k = negb (sk_order k)) by (intro k; unfold Scan.useKey; cbn [andb]; rewrite orb_false_r; reflexivity).
    assert (KOK : forall k, In k keys -> key_ok cmp false usedb k).
    { intros k Hk. assert (KN : forall n, In n (sk_ents k) -> usedb n = true).
      { intros n Hn. destruct HQ as (Q1 & _). destruct (Q1 k n Hk Hn) as (q & E & _). rewrite UB, LC. apply Nat.ltb_lt, nth_error_Some. rewrite E. discriminate. }
      split; [intros _; split; [apply NA, Hka, Hk|exact KN]|intros _ n Hn _; apply NA, Hka, Hk]. }
    assert (HK : Keys cmp false usedb keys).
    { split; [apply Forall_forall; exact KOK|]. exists k1. split; [exact K1|]. rewrite UK, K1o. reflexivity. }
    set (past := mkItem (A:=A) ip_invalid None).
    assert (PV : ip_valid (ip past) = false) by reflexivity.
    assert (HE : Est Cs atts usedb (ready cmp past) (map start qs)).
    { split; [rewrite map_length; symmetry; exact LC|]. split.
      - intros n L. rewrite LC in L. destruct (nth_start qs n L) as (q & E1 & E2 & _). rewrite E2, start_att.
        symmetry. apply nth_error_nth. unfold atts. rewrite nth_error_map, E1. reflexivity.
      - intros n U. destruct (QN n U) as (q & Q1 & Q2 & _ & Q4 & Q5).
        assert (L : (n < length qs)%nat) by (apply nth_error_Some; rewrite Q1; discriminate).
        destruct (nth_start qs n L) as (q' & E1 & E2 & _). rewrite Q1 in E1. apply Some_inj in E1. subst q'.
        unfold ready. rewrite PV, E2, Q4. apply start_started with (cmp := cmp).
        + apply NA, Hqa, Q2.
        + rewrite <- Q4. apply (HR1 _ Q5).
        + rewrite <- Q4. apply (HR1 _ Q5).
        + apply Hfo, Q2. }
    set (tb := fun _ : iptr => (true, false)).
    assert (RUN := run_spec cmp OK EqIp MinLt false Cs atts usedb UL HC HR HS HA tb HUE keys HK (S (total_bound (map start qs)))
      (startRegular useAlt addTo tbmMax (map start qs) keys) past (or_introl eq_refl) Halt (fun _ => eq_refl) HE).
    assert (KM : map fst (s_keys (startRegular useAlt addTo tbmMax (map start qs) keys)) = keys).
    { unfold startRegular. cbn [s_keys]. rewrite map_map. cbn [fst]. apply map_id. }
    assert (KS : keys_ok false Cs (s_keys (startRegular useAlt addTo tbmMax (map start qs) keys))).
    { intros k ks H _. cbn [startRegular s_keys] in H. apply in_map_iff in H as (k' & E & _). injection E as _ <-.
      split; [reflexivity|]. intro V. discriminate. }
    specialize (RUN KM KS). assert (MB : (measure cmp Cs usedb (point past) <= total_bound (map start qs))%nat) by (eapply measure_bound; eauto).
    specialize (RUN ltac:(lia)).
    fold (scanRegular useAlt addTo cmpA joinFn visit iterate tbmMax (map start qs) keys) in RUN.
    change (runRegular useAlt addTo cmpA joinFn visit iterate tbmMax (S (total_bound (map start qs))) (startRegular useAlt addTo tbmMax (map start qs) keys) past)
      with (scanRegular useAlt addTo cmpA joinFn visit iterate tbmMax (map start qs) keys) in RUN.
    set (out := scanRegular useAlt addTo cmpA joinFn visit iterate tbmMax (map start qs) keys) in *.
    destruct RUN as (R1 & R2 & R3 & R4).
    assert (GOOD : forall p, good false Cs tb keys p <-> (forall k, In k keys -> sk_order k = false -> matches addTo Cs k p)).
    { intro p. unfold good. split.
      - intros [G _] k Hk O. apply G; [exact Hk|]. rewrite UK, O. reflexivity.
      - intro G. split; [|reflexivity]. intros k Hk U. apply G; [exact Hk|]. rewrite UK in U. apply negb_true_iff in U. exact U. }
    split; [exact R1|]. split.
    - intro p. rewrite <- GOOD. split.
      + intros (o & O1 & O2). rewrite Forall_forall in R3. destruct (R3 o O1) as (_ & G & _). rewrite <- O2. exact G.
      + intro G. destruct (proj1 (GOOD p) G k1 K1 K1o) as [(n & y & Y1 & Y2 & Y3) _].
        assert (RY : is_row Cs usedb y).
        { exists n. split; [|exact Y2]. apply (proj1 (KOK k1 K1)); [rewrite UK, K1o; reflexivity|exact Y1]. }
        rewrite <- Y3 in G. destruct (R4 y RY) as (o & O1 & O2); [|exact G|].
        * unfold point. rewrite PV. apply MinLt. destruct RY as (m & U & I). apply (HR m y U I).
        * exists o. split; [exact O1|congruence].
    - intros x re st Ho. rewrite Forall_forall in R3. destruct (R3 _ Ho) as (RX & G & fre & F1 & F2 & F3 & F4 & F5). cbn [fst snd] in *.
      rewrite orb_false_r in F1. subst re. split.
      { destruct RX as (m & U & I). destruct (QN m U) as (q & _ & Q2 & _ & Q4 & _). exists q. rewrite <- Q4. split; assumption. }
      split.
      + rewrite F2, existsb_exists. split.
        * intros ([k ks] & I & H). cbn [fst snd] in H. apply andb_true_iff in H as [H1 H2]. exists k.
          assert (U : Scan.useKey addTo false k = true) by (rewrite UK; exact H1).
          split; [rewrite <- F3; apply (in_map fst) in I; exact I|]. split; [apply negb_true_iff; exact H1|].
          apply recheck_iff. rewrite <- (proj1 (F4 k ks I U)). exact H2.
        * intros (k & I & O & H). rewrite <- F3 in I. apply in_map_iff in I as ([k' ks] & E & I). cbn [fst] in E. subst k'.
          exists (k, ks). split; [exact I|]. cbn [fst snd]. rewrite O. cbn [negb andb].
          rewrite (proj1 (F4 k ks I ltac:(rewrite UK, O; reflexivity))); apply recheck_iff; exact H.
      + split; [|split; [exact F3|intros k ks I O; apply (F4 k ks I); rewrite UK, O; reflexivity]].
        intros Fr k Hk O. unfold checkAt, sees. apply map_ext_in. intros n Hn.
        assert (U : usedb n = true).
        { destruct HQ as (Q1 & _). destruct (Q1 k n Hk Hn) as (q & E & _). rewrite UB, LC. apply Nat.ltb_lt, nth_error_Some. rewrite E. discriminate. }
        apply caught_shows with (cmp := cmp).
        * exact OK.
        * split; [apply HS, U|]. intros y y' H1 H2 E. apply (HA n n); assumption.
        * intros y Hy E. destruct RX as (m & U' & I). apply (HA n m); assumption.
        * apply (F5 Fr k n); assumption.
  Qed.
End Regular.
