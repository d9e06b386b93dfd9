(** C58: the options attach, to and order_by_attach.  Model: Options.v. *)
From Coq Require Import NArith Arith List Bool Lia.
From Verif Require Import Validate Options.
Import ListNotations.

(** The [k]th (from 1) column of the index is [c]. *)
Definition is_column (index : list column) (k : nat) (c : column) : Prop := 1 <= k /\ nth_error index (k - 1) = Some c.
(** What the options ask for: both columns named, different, in the table and in the index; the one attached to has a class
    without attached values of its own; with order_by_attach the attached one is passed by value. *)
Definition options_ok (table : list N) (index : list column) (o : options) (attach to : nat) : Prop :=
  exists ca ct, is_column index attach ca /\ is_column index to ct /\ attach <> to /\
    o_attach o = Some (c_name ca) /\ o_to o = Some (c_name ct) /\ In (c_name ca) table /\ In (c_name ct) table /\
    c_config ct = None /\ (o_order o = true -> c_byval ca = true).
(** The values attached to the entries of a column: those of the attached column, or those its class asks for. *)
Definition attached_type (index : list column) (attach to k : nat) (ty : option oid) : Prop :=
  (k = to -> exists ca, is_column index attach ca /\ ty = Some (c_type ca)) /\
  (k <> to -> exists c, is_column index k c /\ ty = c_config c).

Lemma find_zero n names : forall k, 1 <= k -> (find_name k names n = 0 <-> ~ In n names).
Proof.
  induction names as [|m names IH]; intros k Hk; cbn [find_name In]; [tauto|]. destruct (N.eqb_spec m n) as [E|E]; [split; [lia|intro H; exfalso; apply H; left; exact E]|].
  rewrite IH by lia. tauto.
Qed.
Lemma find_some names n : forall k, In n names -> exists j, find_name k names n = k + j /\ nth_error names j = Some n.
Proof.
  induction names as [|m names IH]; intros k H; [destruct H|]. cbn [find_name]. destruct (N.eqb_spec m n) as [->|E]; [exists 0; split; [lia|reflexivity]|].
  destruct H as [H|H]; [contradiction|]. destruct (IH (S k) H) as (j & E1 & E2). exists (S j). split; [lia|exact E2].
Qed.
Lemma attnum_column index n k : NoDup (map c_name index) -> (get_attnum (map c_name index) n = k /\ k <> 0 <-> exists c, is_column index k c /\ c_name c = n).
Proof.
  intro ND. split.
  - intros [E Hk]. assert (Hin : In n (map c_name index)). { destruct (in_dec N.eq_dec n (map c_name index)) as [H|H]; [exact H|]. apply (find_zero n _ 1 (le_n 1)) in H. unfold get_attnum in E. congruence. }
    destruct (find_some _ n 1 Hin) as (j & E1 & E2). unfold get_attnum in E. rewrite nth_error_map in E2. destruct (nth_error index j) as [c|] eqn:Ec; [|discriminate E2]. injection E2 as E2.
    exists c. split; [|exact E2]. split; [lia|]. replace (k - 1) with j by lia. exact Ec.
  - intros (c & [H1 H2] & <-). assert (Hn : nth_error (map c_name index) (k - 1) = Some (c_name c)) by (rewrite nth_error_map, H2; reflexivity).
    destruct (find_some _ (c_name c) 1 (nth_error_In _ _ Hn)) as (j & E1 & E2). unfold get_attnum. rewrite E1.
    assert (j = k - 1); [|lia]. apply (proj1 (NoDup_nth_error (map c_name index)) ND); [apply nth_error_Some; congruence|congruence].
Qed.
Lemma option_spec table index o k : NoDup (map c_name index) ->
  (columnOption table (map c_name index) o = Some k <-> (o = None /\ k = 0) \/ exists c, o = Some (c_name c) /\ In (c_name c) table /\ is_column index k c).
Proof.
  intro ND. destruct o as [n|]; cbn [columnOption].
  - pose proof (find_zero n table 1 (le_n 1)) as HT. fold (get_attnum table n) in HT. pose proof (attnum_column index n (get_attnum (map c_name index) n) ND) as HI.
    destruct (Nat.eqb_spec (get_attnum table n) 0) as [E|E].
    + split; [discriminate|]. intros [[? _]|(c & Ho & Hin & _)]; [discriminate|]. injection Ho as ->. apply HT in E. contradiction.
    + destruct (Nat.eqb_spec (get_attnum (map c_name index) n) 0) as [E0|E0].
      * split; [discriminate|]. intros [[? _]|(c & Ho & Hin & Hc)]; [discriminate|]. injection Ho as ->.
        destruct (proj2 (attnum_column index (c_name c) k ND)) as [X Y]; [exists c; auto|]. congruence.
      * split.
        -- intro H. injection H as <-. right. destruct (proj1 HI (conj eq_refl E0)) as (c & Hc & <-). exists c. split; [reflexivity|]. split; [|exact Hc].
           destruct (in_dec N.eq_dec (c_name c) table) as [H|H]; [exact H|]. exfalso. apply E, HT, H.
        -- intros [[? _]|(c & Ho & Hin & Hc)]; [discriminate|]. injection Ho as ->. f_equal. apply (attnum_column index (c_name c) k ND). exists c. auto.
  - split; [intro H; injection H as <-; auto|]. intros [[_ ->]|(c & H & _)]; [reflexivity|discriminate].
Qed.
Lemma columns_spec all attach to alt : forall cols i tys, 1 <= i -> initColumns all attach to alt i cols = Some tys <->
  length tys = length cols /\ forall j c, nth_error cols j = Some c ->
    (i + j = to -> c_config c = None /\ exists ca, nth_error all (attach - 1) = Some ca /\ (alt = true -> c_byval ca = true) /\ nth_error tys j = Some (Some (c_type ca))) /\
    (i + j <> to -> nth_error tys j = Some (c_config c)).
Proof.
  induction cols as [|c cols IH]; intros i tys Hi.
  - cbn. split; [intro H; injection H as <-; split; [reflexivity|intros [|j] ? H; discriminate H]|]. intros [H _]. destruct tys; [reflexivity|discriminate H].
  - cbn [initColumns]. cbv zeta. split.
    + intro H. destruct (if to =? i then _ else _) as [ty|] eqn:E; [|discriminate H]. destruct (initColumns _ _ _ _ _ cols) as [tl|] eqn:El; [|discriminate H]. injection H as <-.
      apply IH in El as [L El]; [|lia]. split; [cbn [length]; lia|]. intros [|j] c' Hc; cbn in Hc.
      * injection Hc as <-. rewrite Nat.add_0_r. destruct (Nat.eqb_spec to i) as [Et|Et]; [|split; [intro; congruence|intros _; injection E as <-; reflexivity]].
        split; [intros _|intro; congruence]. destruct (c_config c); [discriminate E|]. split; [reflexivity|]. destruct (nth_error all (attach - 1)) as [ca|]; [|discriminate E].
        exists ca. split; [reflexivity|]. destruct alt, (c_byval ca); cbn in E; try discriminate E; injection E as <-; (split; [congruence|reflexivity]).
      * specialize (El j c' Hc). replace (S i + j) with (i + S j) in El by lia. exact El.
    + intros [L H]. destruct tys as [|ty tl]; [discriminate L|]. injection L as L. pose proof (H 0 c eq_refl) as [H1 H2]. rewrite Nat.add_0_r in H1, H2. cbn [nth_error] in H1, H2.
      assert (El : initColumns all attach to alt (S i) cols = Some tl).
      { apply IH; [lia|]. split; [exact L|]. intros j c' Hc. specialize (H (S j) c' Hc). replace (i + S j) with (S i + j) in H by lia. exact H. }
      rewrite El. destruct (Nat.eqb_spec to i) as [Et|Et].
      * destruct (H1 (eq_sym Et)) as (Hc & ca & Ha & Hb & Ht). rewrite Hc, Ha. injection Ht as ->. destruct alt; [rewrite (Hb eq_refl)|]; reflexivity.
      * specialize (H2 (not_eq_sym Et)). injection H2 as <-. reflexivity.
Qed.

(** (1) An index is opened exactly if it has no options or options that fit its columns and the table's; what is attached to
    the entries of each column is then as asked for. *)
Theorem C58_options_accepted : forall table index rd attach to alt tys, NoDup (map c_name index) ->
  (initState table index rd = Some (attach, to, alt, tys) <->
   length tys = length index /\
   ((rd = None /\ attach = 0 /\ to = 0 /\ alt = false) \/ (exists o, rd = Some o /\ options_ok table index o attach to /\ alt = o_order o)) /\
   forall k ty, 1 <= k -> nth_error tys (k - 1) = Some ty -> attached_type index attach to k ty).
Proof.
  intros table index rd attach to alt tys ND.
  assert (HC : forall a t b, (t = 0 \/ exists ct ca, is_column index t ct /\ is_column index a ca /\ c_config ct = None /\ (b = true -> c_byval ca = true)) ->
     (initColumns index a t b 1 index = Some tys <-> length tys = length index /\ forall k ty, 1 <= k -> nth_error tys (k - 1) = Some ty -> attached_type index a t k ty)).
  { intros a t b Ht. rewrite columns_spec by lia. split; intros [L H]; (split; [exact L|]).
    - intros k ty Hk Hty. destruct (nth_error index (k - 1)) as [c|] eqn:Ec.
      + destruct (H _ _ Ec) as [H1 H2]. replace (1 + (k - 1)) with k in H1, H2 by lia. split; intro E.
        * destruct (H1 E) as (_ & ca & Ha & _ & Hx). assert (ty = Some (c_type ca)) by congruence. destruct Ht as [Ht|(ct & ca' & _ & Ha' & _)]; [lia|]. exists ca. split; [split; [apply Ha'|exact Ha]|assumption].
        * exists c. split; [split; [exact Hk|exact Ec]|]. specialize (H2 E). congruence.
      + exfalso. apply nth_error_None in Ec. assert (k - 1 < length tys) by (apply nth_error_Some; congruence). lia.
    - intros j c Hc. destruct (nth_error tys j) as [ty|] eqn:Ety; [|exfalso; apply nth_error_None in Ety; assert (j < length index) by (apply nth_error_Some; congruence); lia].
      specialize (H (S j) ty ltac:(lia)). replace (S j - 1) with j in H by lia. destruct (H Ety) as [H1 H2]. replace (1 + j) with (S j) by lia. split; intro E.
      + destruct Ht as [Ht|(ct & ca & Hct & Hca & Hn & Hb)]; [lia|]. destruct Hct as [_ Hct]. rewrite <- E in Hct. replace (S j - 1) with j in Hct by lia.
        assert (ct = c) by congruence. subst ct. split; [exact Hn|]. exists ca. split; [apply Hca|]. split; [exact Hb|]. destruct (H1 E) as (ca' & [_ Hca'] & ->). destruct Hca as [_ Hca]. congruence.
      + destruct (H2 E) as (c' & [_ Hc'] & ->). replace (S j - 1) with j in Hc' by lia. congruence. }
  unfold initState, initOptions. destruct rd as [o|].
  - pose proof (option_spec table index (o_attach o)) as HA. pose proof (option_spec table index (o_to o)) as HT. split.
    + destruct (columnOption table _ (o_attach o)) as [a|] eqn:Ea; [|discriminate]. destruct (columnOption table _ (o_to o)) as [t|] eqn:Et; [|discriminate].
      destruct (match o_to o with Some _ => t =? a | None => false end) eqn:Ed; [discriminate|]. destruct (negb (negb (a =? 0) && negb (t =? 0))) eqn:Ez; [discriminate|].
      apply negb_false_iff, andb_true_iff in Ez as [Ez1 Ez2]. apply negb_true_iff, Nat.eqb_neq in Ez1, Ez2.
      destruct (initColumns index a t (o_order o) 1 index) as [tys'|] eqn:Ec; [|discriminate]. intro H. injection H as <- <- <- <-.
      destruct (proj1 (HA a ND) eq_refl) as [[_ X]|(ca & A1 & A2 & A3)]; [contradiction|]. destruct (proj1 (HT t ND) eq_refl) as [[_ X]|(ct & T1 & T2 & T3)]; [contradiction|].
      rewrite T1 in Ed. apply Nat.eqb_neq in Ed.
      assert (HX : c_config ct = None /\ (o_order o = true -> c_byval ca = true)).
      { pose proof (proj1 (columns_spec index a t (o_order o) index 1 tys' (le_n 1)) Ec) as [_ H]. destruct (H (t - 1) ct (proj2 T3)) as [H1 _]. destruct (H1 ltac:(lia)) as (Hn & ca' & Ha' & Hb & _).
        split; [exact Hn|]. assert (ca' = ca) by (destruct A3; congruence). subst ca'. exact Hb. }
      apply HC in Ec; [|right; exists ct, ca; tauto]. destruct Ec as [L H]. split; [exact L|]. split; [|exact H]. right. exists o. split; [reflexivity|]. split; [|reflexivity].
      exists ca, ct. repeat (split; [tauto || congruence|]). tauto.
    + intros (L & [(X & _)|(o' & Ho & (ca & ct & A & T & D & A1 & T1 & A2 & T2 & Hn & Hb) & ->)] & H); [discriminate X|]. injection Ho as <-.
      rewrite (proj2 (HA attach ND)) by (right; exists ca; auto). rewrite (proj2 (HT to ND)) by (right; exists ct; auto). rewrite T1.
      destruct (Nat.eqb_spec to attach); [congruence|]. destruct A as [A0 A]. destruct T as [T0 T]. destruct (Nat.eqb_spec attach 0); [lia|]. destruct (Nat.eqb_spec to 0); [lia|]. cbn [negb andb].
      rewrite (proj2 (HC attach to (o_order o) ltac:(right; exists ct, ca; repeat split; auto))); [reflexivity|split; assumption].
  - split.
    + destruct (initColumns index 0 0 false 1 index) as [tys'|] eqn:Ec; [|discriminate]. intro H. injection H as <- <- <- <-. apply HC in Ec; [|left; reflexivity]. destruct Ec as [L H]. split; [exact L|]. split; [left; auto|exact H].
    + intros (L & [(_ & -> & -> & ->)|(o' & Ho & _)] & H); [|discriminate Ho]. rewrite (proj2 (HC 0 0 false (or_introl eq_refl))); [reflexivity|split; assumption].
Qed.
Print Assumptions C58_options_accepted.

(** ALTER TABLE ... RENAME COLUMN: the table's columns; the index keeps its options.  The index's own columns are renamed with
    it or not ([follow]), depending on the version of PostgreSQL. *)
Definition rename (old new : N) (names : list N) : list N := map (fun n => if N.eqb n old then new else n) names.
Definition rename_in_index (follow : bool) (old new : N) (index : list column) : list column :=
  map (fun c => if follow && N.eqb (c_name c) old then mkColumn new (c_type c) (c_byval c) (c_config c) else c) index.

(** (2) Renaming other columns does no harm. *)
Theorem C58_other_columns_renamed : forall table index o attach to old new follow,
  options_ok table index o attach to -> o_attach o <> Some old -> o_to o <> Some old ->
  options_ok (rename old new table) (rename_in_index follow old new index) o attach to.
Proof.
  intros table index o attach to old new follow (ca & ct & [A0 A] & [T0 T] & D & A1 & T1 & A2 & T2 & Hn & Hb) Na Nt. rewrite A1 in Na. rewrite T1 in Nt.
  assert (Ea : N.eqb (c_name ca) old = false) by (apply N.eqb_neq; congruence). assert (Et : N.eqb (c_name ct) old = false) by (apply N.eqb_neq; congruence).
  exists ca, ct. unfold is_column, rename_in_index. rewrite !nth_error_map, A, T. cbn [option_map]. rewrite Ea, Et, !andb_false_r. split; [split; [exact A0|reflexivity]|]. split; [split; [exact T0|reflexivity]|].
  split; [exact D|]. split; [exact A1|]. split; [exact T1|]. split; [|split; [|split; [exact Hn|exact Hb]]]; unfold rename; apply in_map_iff; [exists (c_name ca); rewrite Ea|exists (c_name ct); rewrite Et]; auto.
Qed.
Print Assumptions C58_other_columns_renamed.

(** (3) Renaming a column the options name does: the options keep the old name, and the index can no longer be opened, neither
    for queries nor for inserts. *)
Theorem C58_renamed_column_refuted : forall table index o old new follow,
  o_attach o = Some old \/ o_to o = Some old -> new <> old ->
  initState (rename old new table) (rename_in_index follow old new index) (Some o) = None.
Proof.
  intros table index o old new follow Ho Hne. assert (E : get_attnum (rename old new table) old = 0).
  { apply find_zero; [lia|]. unfold rename. intro H. apply in_map_iff in H as (n & E & _). destruct (N.eqb_spec n old); congruence. }
  assert (C : forall names, columnOption (rename old new table) names (Some old) = None) by (intro names; cbn [columnOption]; rewrite E; reflexivity).
  unfold initState, initOptions. destruct Ho as [-> | ->]; rewrite C; [reflexivity|]. destruct (columnOption _ _ (o_attach o)); reflexivity.
Qed.
Print Assumptions C58_renamed_column_refuted.

(** tsvector column 1 named 5, timestamp column 2 named 7; attach the second to the first. *)
Example C58_hypotheses_met :
  let index := [mkColumn 5 TSVECTOROID false None; mkColumn 7 TIMESTAMPOID true None] in let o := mkOptions (Some 7%N) (Some 5%N) true in
  NoDup (map c_name index) /\ initState [3; 5; 7]%N index (Some o) = Some (2, 1, true, [Some TIMESTAMPOID; None]) /\
  options_ok [3; 5; 7]%N index o 2 1 /\
  initState (rename 7 9 [3; 5; 7]%N) index (Some o) = None /\ initState (rename 3 9 [3; 5; 7]%N) index (Some o) <> None /\
  initState [3; 5; 7]%N index (Some (mkOptions (Some 5%N) (Some 7%N) true)) = None.
Proof.
  cbv zeta. split; [repeat constructor; cbn; intuition discriminate|]. split; [reflexivity|]. split.
  - do 2 eexists. split; [split; [|reflexivity]; lia|]. split; [split; [|reflexivity]; lia|]. cbn. repeat (split; [auto; fail|]). auto 10.
  - split; [reflexivity|]. split; [discriminate|reflexivity].
Qed.
