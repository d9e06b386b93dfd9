(** C57: what amvalidate accepts.  Model: Validate.v. *)
From Coq Require Import ZArith NArith List Bool Lia.
From Verif Require Import Validate.
Import ListNotations.
Local Open Scope Z_scope.

(** A function can be called with arguments of these types, all or all but the last ones, and returns one value of
    the type [ret]. *)
Definition callable (coercible : oid -> oid -> bool) (f : proc) (ret : oid) (atleast : nat) (types : list oid) : Prop :=
  pr_ret f = ret /\ pr_retset f = false /\ (atleast <= length (pr_args f) <= length types)%nat /\
  forall k t a, nth_error types k = Some t -> nth_error (pr_args f) k = Some a -> coercible t a = true.

(** What the queries of a class are for extractQuery, for consistent and preConsistent; timestamps with time zone are
    handled by the functions for timestamps without. *)
Definition asTimestamp (t : oid) : oid := if N.eqb t TIMESTAMPTZOID then TIMESTAMPOID else t.
Definition queryType (t : oid) : oid := if N.eqb t TSVECTOROID then TSQUERYOID else if N.eqb t TSQUERYOID then TSVECTOROID else asTimestamp t.
Definition consistentQuery (t : oid) : oid :=
  if N.eqb t TSQUERYOID then TSVECTOROID
  else if N.eqb t TSVECTOROID || N.eqb t TIMESTAMPOID || N.eqb t TIMESTAMPTZOID || N.eqb t ANYARRAYOID then asTimestamp t else INTERNALOID.
Definition byAttached (t : oid) : bool := N.eqb t TSVECTOROID || N.eqb t ANYARRAYOID.
Definition storedType (c : opclass) : oid := if N.eqb (opckeytype c) 0 then opcintype c else opckeytype c.
Notation I := INTERNALOID.

(** The interface: support number, result, smallest number of arguments, arguments. *)
Inductive interface (c : opclass) : Z -> oid -> nat -> list oid -> Prop :=
| i_compare : interface c 1 INT4OID 2 [storedType c; storedType c]
| i_extractValue : interface c 2 I 2 [asTimestamp (opcintype c); I; I; I; I]
| i_extractQuery : interface c 3 I 5 [queryType (opcintype c); I; INT2OID; I; I; I; I]
| i_consistent : interface c 4 BOOLOID 6 [I; INT2OID; consistentQuery (opcintype c); INT4OID; I; I; I; I]
| i_comparePartial : interface c 5 INT4OID 4 [asTimestamp (storedType c); asTimestamp (storedType c); INT2OID; I]
| i_config : interface c 6 VOIDOID 1 [I]
| i_preConsistent : interface c 7 BOOLOID 8 [I; INT2OID; opcintype c; INT4OID; I; I; I; I]
| i_orderingAttached : byAttached (opcintype c) = true -> interface c 8 FLOAT8OID 9 [I; INT2OID; opcintype c; INT4OID; I; I; I; I; I]
| i_orderingKey : byAttached (opcintype c) = false -> interface c 8 FLOAT8OID 3 [opcintype c; opcintype c; INT2OID]
| i_outerOrdering : interface c 9 FLOAT8OID 3 [asTimestamp (opcintype c); asTimestamp (opcintype c); INT2OID]
| i_join : interface c 10 BYTEAOID 2 [I; I].

(** An operator of the family: a strategy number of 1 to 63, two arguments, a Boolean or, for ORDER BY, a distance. *)
Definition operator_ok (coercible : oid -> oid -> bool) (o : amop) : Prop :=
  1 <= ao_strategy o <= 63 /\ opr_binary (ao_opr o) = true /\
  coercible (ao_left o) (opr_left (ao_opr o)) = true /\ coercible (ao_right o) (opr_right (ao_opr o)) = true /\
  opr_result (ao_opr o) = if ao_order o then (if N.eqb (ao_left o) TSVECTOROID then FLOAT4OID else FLOAT8OID) else BOOLOID.
(** A function is registered for the class. *)
Definition registered (c : opclass) (procs : list amproc) (n : Z) : Prop :=
  exists p, In p procs /\ ap_left p = opcintype c /\ ap_right p = opcintype c /\ ap_num p = n.

Section Proof.
  Variable coercible : oid -> oid -> bool.
  Lemma fit_spec types : forall args, argsFit coercible types args = true <->
    forall k t a, nth_error types k = Some t -> nth_error args k = Some a -> coercible t a = true.
  Proof.
    induction types as [|t types IH]; intro args.
    - cbn. split; [intros _ [|k] ? ? H; discriminate H|reflexivity].
    - destruct args as [|a args]; cbn [argsFit].
      + split; [intros _ k ? ? _ H; destruct k; discriminate H|reflexivity].
      + rewrite andb_true_iff, IH. split.
        * intros [H1 H2] [|k] t' a' Ht Ha; cbn in Ht, Ha; [congruence|exact (H2 k t' a' Ht Ha)].
        * intro H. split; [exact (H O t a eq_refl eq_refl)|intros k t' a' Ht Ha; exact (H (S k) t' a' Ht Ha)].
  Qed.
  Lemma signature_spec f ret mi ma types : check_amproc_signature coercible f ret mi ma types = true <->
    length (firstn ma types) = ma /\ callable coercible f ret mi (firstn ma types) \/ (length (firstn ma types) < ma)%nat /\ check_amproc_signature coercible f ret mi ma types = true.
  Proof.
    assert (HL := firstn_le_length ma types). destruct (Nat.eq_dec (length (firstn ma types)) ma) as [E|E].
    - split; [|intros [[_ H]|[H _]]; [|lia]].
      + intro H. left. split; [exact E|]. unfold check_amproc_signature in H. rewrite !andb_true_iff, N.eqb_eq, negb_true_iff, !Nat.leb_le, fit_spec in H.
        destruct H as ((((H1 & H2) & H3) & H4) & H5). unfold callable. rewrite E. repeat split; auto.
      + destruct H as (H1 & H2 & H3 & H4). unfold check_amproc_signature. rewrite !andb_true_iff, N.eqb_eq, negb_true_iff, !Nat.leb_le, fit_spec. rewrite E in H3. repeat split; auto; lia.
    - split; [intro H; right; split; [lia|exact H]|]. intros [[H _]|[_ H]]; [lia|exact H].
  Qed.
  Lemma sig_full f ret mi ma types : length (firstn ma types) = ma ->
    (check_amproc_signature coercible f ret mi ma types = true <-> callable coercible f ret mi (firstn ma types)).
  Proof. intro E. rewrite signature_spec. split; [intros [[_ H]|[H _]]; [exact H|lia]|intro H; left; auto]. Qed.
  Lemma support_spec c n f : check_support coercible c n f = true <->
    exists ret mi types, interface c n ret mi types /\ callable coercible f ret mi types.
  Proof.
    split.
    - intro H. assert (D : n = 1 \/ n = 2 \/ n = 3 \/ n = 4 \/ n = 5 \/ n = 6 \/ n = 7 \/ n = 8 \/ n = 9 \/ n = 10).
      { unfold check_support in H. destruct n as [|p|p]; try discriminate. do 4 (destruct p as [p|p|]; try discriminate; auto 12). }
      destruct D as [->|[->|[->|[->|[->|[->|[->|[->|[->| ->]]]]]]]]]; cbn [check_support] in H.
      + do 3 eexists. split; [apply i_compare|]. exact (proj1 (sig_full _ _ _ 2 [_; _] eq_refl) H).
      + do 3 eexists. split; [apply i_extractValue|]. exact (proj1 (sig_full _ _ _ 5 [_; _; _; _; _] eq_refl) H).
      + do 3 eexists. split; [apply i_extractQuery|]. unfold queryType. destruct (N.eqb _ TSVECTOROID); [|destruct (N.eqb _ TSQUERYOID)]; exact (proj1 (sig_full _ _ _ 7 [_; _; _; _; _; _; _] eq_refl) H).
      + do 3 eexists. split; [apply i_consistent|]. unfold consistentQuery. destruct (N.eqb _ TSQUERYOID); [|destruct (_ || _)]; exact (proj1 (sig_full _ _ _ 8 [_; _; _; _; _; _; _; _] eq_refl) H).
      + do 3 eexists. split; [apply i_comparePartial|]. exact (proj1 (sig_full _ _ _ 4 [_; _; _; _] eq_refl) H).
      + do 3 eexists. split; [apply i_config|]. exact (proj1 (sig_full _ _ _ 1 [_] eq_refl) H).
      + do 3 eexists. split; [apply i_preConsistent|]. exact (proj1 (sig_full _ _ _ 8 [_; _; _; _; _; _; _; _] eq_refl) H).
      + destruct (N.eqb (opcintype c) TSVECTOROID || N.eqb (opcintype c) ANYARRAYOID) eqn:E.
        * do 3 eexists. split; [apply i_orderingAttached; exact E|]. exact (proj1 (sig_full _ _ _ 9 [_; _; _; _; _; _; _; _; _; _] eq_refl) H).
        * do 3 eexists. split; [apply i_orderingKey; exact E|]. exact (proj1 (sig_full _ _ _ 3 [_; _; _] eq_refl) H).
      + do 3 eexists. split; [apply i_outerOrdering|]. exact (proj1 (sig_full _ _ _ 3 [_; _; _] eq_refl) H).
      + do 3 eexists. split; [apply i_join|]. exact (proj1 (sig_full _ _ _ 2 [_; _] eq_refl) H).
    - intros (ret & mi & types & Hi & H). destruct Hi; cbn [check_support].
      + apply (proj2 (sig_full _ _ _ 2 [_; _] eq_refl)). exact H.
      + apply (proj2 (sig_full _ _ _ 5 [_; _; _; _; _] eq_refl)). exact H.
      + unfold queryType in H. destruct (N.eqb _ TSVECTOROID); [|destruct (N.eqb _ TSQUERYOID)]; apply (proj2 (sig_full _ _ _ 7 [_; _; _; _; _; _; _] eq_refl)); exact H.
      + unfold consistentQuery in H. destruct (N.eqb _ TSQUERYOID); [|destruct (_ || _)]; apply (proj2 (sig_full _ _ _ 8 [_; _; _; _; _; _; _; _] eq_refl)); exact H.
      + apply (proj2 (sig_full _ _ _ 4 [_; _; _; _] eq_refl)). exact H.
      + apply (proj2 (sig_full _ _ _ 1 [_] eq_refl)). exact H.
      + apply (proj2 (sig_full _ _ _ 8 [_; _; _; _; _; _; _; _] eq_refl)). exact H.
      + unfold byAttached in H0. rewrite H0. apply (proj2 (sig_full _ _ _ 9 [_; _; _; _; _; _; _; _; _; _] eq_refl)). exact H.
      + unfold byAttached in H0. rewrite H0. apply (proj2 (sig_full _ _ _ 3 [_; _; _] eq_refl)). exact H.
      + apply (proj2 (sig_full _ _ _ 3 [_; _; _] eq_refl)). exact H.
      + apply (proj2 (sig_full _ _ _ 2 [_; _] eq_refl)). exact H.
  Qed.
  Lemma operator_spec o : check_operator coercible o = true <-> operator_ok coercible o.
  Proof.
    unfold check_operator, operator_ok, check_amop_signature. rewrite andb_true_iff, negb_true_iff, orb_false_iff, !Z.ltb_ge.
    destruct (ao_order o); rewrite !andb_true_iff, N.eqb_eq; tauto.
  Qed.
  Lemma set_spec c n : 0 <= n < 64 -> forall procs s, N.testbit (fold_left (fun s p => if N.eqb (ap_left p) (opcintype c) && N.eqb (ap_right p) (opcintype c) && (0 <? ap_num p) && (ap_num p <? 64)
                          then N.setbit s (Z.to_N (ap_num p)) else s) procs s) (Z.to_N n) = true <-> N.testbit s (Z.to_N n) = true \/ (0 < n /\ registered c procs n).
  Proof.
    clear coercible. intros Hn procs. induction procs as [|p procs IH]; intro s; cbn [fold_left].
    - split; [auto|]. intros [H|(_ & p & [] & _)]. exact H.
    - rewrite IH. clear IH. assert (R : registered c (p :: procs) n <-> (ap_left p = opcintype c /\ ap_right p = opcintype c /\ ap_num p = n) \/ registered c procs n).
      { split; [intros (q & [->|H] & H'); [left; exact H'|right; exists q; auto]|]. intros [H|(q & H & H')]; [exists p; split; [left; reflexivity|exact H]|exists q; split; [right; exact H|exact H']]. }
      rewrite R. destruct (_ && _) eqn:E.
      + rewrite !andb_true_iff, !N.eqb_eq, !Z.ltb_lt in E. destruct E as (((E1 & E2) & E3) & E4). rewrite N.setbit_eqb, orb_true_iff, N.eqb_eq.
        split; [intros [[H|H]|H]; [right; split; [lia|left; repeat split; auto; lia]|auto|tauto]|].
        intros [H|(Hp & [(H1 & H2 & H3)|H])]; [auto|left; left; congruence|auto].
      + split; [tauto|]. intros [H|(Hp & [(H1 & H2 & H3)|H])]; [auto| |auto]. exfalso. rewrite !andb_false_iff, !N.eqb_neq, !Z.ltb_ge in E. intuition lia.
  Qed.
  Lemma functionset_spec c procs n : 0 < n < 64 -> (N.testbit (functionset c procs) (Z.to_N n) = true <-> registered c procs n).
  Proof. clear coercible. intro Hn. unfold functionset. rewrite set_spec by lia. rewrite N.bits_0. split; [intros [H|[_ H]]; [discriminate|exact H]|intro H; right; split; [lia|exact H]]. Qed.
End Proof.

Lemma get_some c procs n : registered c procs n -> isSome (index_getproc c procs n) = true.
Proof.
  intros (p & Hp & E1 & E2 & E3). unfold index_getproc. destruct (find _ procs) eqn:E; [reflexivity|]. exfalso. apply (find_none _ _ E) in Hp.
  rewrite E1, E2, E3, !N.eqb_refl, Z.eqb_refl in Hp. discriminate Hp.
Qed.
Lemma get_in c procs n f : index_getproc c procs n = Some f ->
  exists p, In p procs /\ ap_left p = opcintype c /\ ap_right p = opcintype c /\ ap_num p = n /\ ap_proc p = f.
Proof.
  unfold index_getproc. destruct (find _ procs) as [p|] eqn:E; [|discriminate]. intro H. injection H as <-. apply find_some in E as [Hp E].
  rewrite !andb_true_iff, !N.eqb_eq, Z.eqb_eq in E. exists p. tauto.
Qed.

(** (1) A class is accepted exactly if the functions of its family are registered with equal types, those of the class
    have the interface of their number, the operators have theirs, and extractValue, extractQuery and consistent are
    there. *)
Theorem C57_accepted_classes : forall coercible c procs oprs, rumvalidate coercible c procs oprs = true <->
  (forall p, In p procs -> ap_left p = ap_right p) /\
  (forall p, In p procs -> ap_left p = opcintype c -> exists ret mi types, interface c (ap_num p) ret mi types /\ callable coercible (ap_proc p) ret mi types) /\
  (forall o, In o oprs -> operator_ok coercible o) /\
  (forall n, In n [2; 3; 4] -> registered c procs n).
Proof.
  intros co c procs oprs. unfold rumvalidate. rewrite !andb_true_iff, !forallb_forall.
  assert (HP : forall p, check_proc co c p = true <-> ap_left p = ap_right p /\ (ap_left p = opcintype c -> exists ret mi types, interface c (ap_num p) ret mi types /\ callable co (ap_proc p) ret mi types)).
  { intro p. unfold check_proc. destruct (N.eqb_spec (ap_left p) (opcintype c)) as [E|E]; cbn [negb].
    - rewrite andb_true_iff, N.eqb_eq, support_spec. tauto.
    - rewrite N.eqb_eq. tauto. }
  assert (HC : complete (functionset c procs) = true <-> forall n, In n [2; 3; 4] -> registered c procs n).
  { pose proof (functionset_spec c procs 2 ltac:(lia)) as H2. pose proof (functionset_spec c procs 3 ltac:(lia)) as H3. pose proof (functionset_spec c procs 4 ltac:(lia)) as H4.
    change (Z.to_N 2) with 2%N in H2. change (Z.to_N 3) with 3%N in H3. change (Z.to_N 4) with 4%N in H4. unfold complete. rewrite andb_true_iff, forallb_forall. split.
    - intros [H H'] n [<-|[<-|[<-|[]]]]; [apply H2|apply H3|apply H4; exact H'].
      + specialize (H 2%N ltac:(cbn; tauto)). cbn in H. rewrite !orb_false_r in H. exact H.
      + specialize (H 3%N ltac:(cbn; tauto)). cbn in H. rewrite !orb_false_r in H. exact H.
    - intro H. pose proof (proj2 H2 (H 2 ltac:(cbn; tauto))) as G2. pose proof (proj2 H3 (H 3 ltac:(cbn; tauto))) as G3. pose proof (proj2 H4 (H 4 ltac:(cbn; tauto))) as G4.
      split; [|exact G4]. intros i Hi. cbn [In] in Hi. destruct Hi as [<-|[<-|[<-|[<-|[<-|[<-|[<-|[<-|[<-|[<-|[]]]]]]]]]]]; rewrite ?G2, ?G3, ?G4; cbn; rewrite ?orb_true_r; reflexivity. }
  rewrite HC. split.
  - intros [[H1 H2] H3]. split; [intros p Hp; apply HP, H1; exact Hp|]. split; [intros p Hp; apply HP, H1; exact Hp|]. split; [intros o Ho; apply operator_spec, H2; exact Ho|exact H3].
  - intros (H1 & H2 & H3 & H4). split; [split|exact H4]; [intros p Hp; apply HP; split; auto|intros o Ho; apply operator_spec; auto].
Qed.
Print Assumptions C57_accepted_classes.

(** (2) The index of an accepted class can be opened if the type has a comparison, of the class or of its own. *)
Theorem C57_accepted_class_opens : forall coercible c procs oprs hasCmp, rumvalidate coercible c procs oprs = true ->
  (registered c procs 1 \/ hasCmp = true) -> exists s, initSupport c procs hasCmp = Some s.
Proof.
  intros co c procs oprs hc H Hc. apply C57_accepted_classes in H as (_ & _ & _ & H). unfold initSupport.
  rewrite (get_some c procs 2), (get_some c procs 3), (get_some c procs 4) by (apply H; cbn; tauto). destruct Hc as [Hc| ->]; [rewrite (get_some c procs 1 Hc)|rewrite orb_true_r]; eexists; reflexivity.
Qed.
Print Assumptions C57_accepted_class_opens.

(** (3) ORDER BY on a column of an accepted class that has an ordering function: for tsvector and arrays by the values
    attached to the query's keys; for every other type by the column's own value, which needs a by-value type, one query
    value and a condition on the column with one key. *)
Theorem C57_order_by_of_accepted_class : forall coercible c procs oprs hasCmp s, rumvalidate coercible c procs oprs = true ->
  initSupport c procs hasCmp = Some s -> registered c procs 8 -> forall nQueryValues byval searched,
  (byAttached (opcintype c) = true -> initOrdering s nQueryValues byval searched = ByAddInfo) /\
  (byAttached (opcintype c) = false -> initOrdering s nQueryValues byval searched <> ByAddInfo /\
     (initOrdering s nQueryValues byval searched = ByCurrentKey <->
        nQueryValues = 1 /\ byval = true /\ exists n rest, searched = n :: rest /\ n <= 1 /\ n <> 0)).
Proof.
  intros co c procs oprs hc s H Hs H8 nq bv se. apply C57_accepted_classes in H as (_ & H & _).
  pose proof (get_some c procs 8 H8) as G. destruct (index_getproc c procs 8) as [f|] eqn:E; [|discriminate G]. destruct (get_in c procs 8 f E) as (p & Hp & P1 & P2 & P3 & <-).
  assert (S : canOrdering s = true /\ ordering_nargs s = length (pr_args (ap_proc p))).
  { unfold initSupport in Hs. rewrite E in Hs. destruct (_ && _) in Hs; [|discriminate Hs]. injection Hs as <-. split; reflexivity. }
  destruct S as [S1 S2]. destruct (H p Hp P1) as (ret & mi & ty & Hi & (_ & _ & L & _)). unfold initOrdering. rewrite S1, S2. cbn [andb negb]. rewrite P3 in Hi.
  inversion Hi as [| | | | | | |B X1 X2 X3|B X1 X2 X3| |]; subst; cbn [length] in L.
  - destruct (Nat.eqb_spec (length (pr_args (ap_proc p))) 3) as [Q|_]; [lia|]. split; [reflexivity|congruence].
  - replace (length (pr_args (ap_proc p)) =? 3)%nat with true by (symmetry; apply Nat.eqb_eq; lia). split; [congruence|]. intros _.
    destruct (Z.eqb_spec nq 1) as [->|N1]; cbn [negb]; [|split; [discriminate|split; [discriminate|intros (? & _); contradiction]]].
    destruct bv; cbn [negb]; [|split; [discriminate|split; [discriminate|intros (_ & ? & _); discriminate]]].
    destruct se as [|n se]; [split; [discriminate|split; [discriminate|intros (_ & _ & n & r & X & _); discriminate X]]|].
    destruct (Z.ltb_spec 1 n); [split; [discriminate|split; [discriminate|intros (_ & _ & m & r & X & ? & ?); injection X as <- <-; lia]]|].
    destruct (Z.eqb_spec n 0) as [N0|N0]; [split; [discriminate|split; [discriminate|intros (_ & _ & m & r & X & ? & ?); injection X as <- <-; lia]]|].
    split; [discriminate|]. split; [|reflexivity]. intros _. split; [reflexivity|]. split; [reflexivity|]. exists n, se. auto.
Qed.
Print Assumptions C57_order_by_of_accepted_class.

(** rum_timestamptz_ops of versions 1.0 and 1.1 (rum_init.sql:319-339), and what version 1.2 adds (rum_init.sql:1705-1706,
    rum--1.1--1.2.sql:188-189). *)
Definition timestamptz_class := mkClass TIMESTAMPTZOID TIMESTAMPTZOID.
Definition tz (n : Z) (ret : oid) (args : list oid) : amproc := mkAmproc TIMESTAMPTZOID TIMESTAMPTZOID n (mkProc ret false args).
Definition timestamptz_procs : list amproc :=
  [tz 1 INT4OID [TIMESTAMPTZOID; TIMESTAMPTZOID]; tz 2 I [TIMESTAMPOID; I; I; I; I]; tz 3 I [TIMESTAMPOID; I; INT2OID; I; I; I; I];
   tz 4 BOOLOID [I; INT2OID; TIMESTAMPOID; INT4OID; I; I; I; I]; tz 5 INT4OID [TIMESTAMPOID; TIMESTAMPOID; INT2OID; I]; tz 6 VOIDOID [I];
   tz 9 FLOAT8OID [TIMESTAMPOID; TIMESTAMPOID; INT2OID]].
Definition key_distance : amproc := tz 8 FLOAT8OID [TIMESTAMPTZOID; TIMESTAMPTZOID; INT2OID].
Definition tzop (ord : bool) (n : Z) : amop :=
  mkAmop TIMESTAMPTZOID TIMESTAMPTZOID n ord (mkOpr (if ord then FLOAT8OID else BOOLOID) true TIMESTAMPTZOID TIMESTAMPTZOID).
Definition timestamptz_oprs : list amop := map (tzop false) [1; 2; 3; 4; 5] ++ map (tzop true) [20; 21; 22].

(** (4) That a class has the function its ORDER BY operators need is not checked: rum_timestamptz_ops before version 1.2
    is accepted, with three such operators, but every ORDER BY on its column fails. *)
Theorem C57_ordering_function_not_required_refuted : exists s,
  rumvalidate N.eqb timestamptz_class timestamptz_procs timestamptz_oprs = true /\ In (tzop true 20) timestamptz_oprs /\
  initSupport timestamptz_class timestamptz_procs true = Some s /\
  forall nQueryValues byval searched, initOrdering s nQueryValues byval searched = OrderError.
Proof. eexists. split; [vm_compute; reflexivity|]. split; [cbn; tauto|]. split; [vm_compute; reflexivity|]. intros. reflexivity. Qed.
Print Assumptions C57_ordering_function_not_required_refuted.

Example C57_hypotheses_met : exists s, rumvalidate N.eqb timestamptz_class (timestamptz_procs ++ [key_distance]) timestamptz_oprs = true /\
  registered timestamptz_class (timestamptz_procs ++ [key_distance]) 8 /\ initSupport timestamptz_class (timestamptz_procs ++ [key_distance]) false = Some s /\
  initOrdering s 1 true [1] = ByCurrentKey /\ initOrdering s 1 true [] = OrderError /\
  rumvalidate N.eqb timestamptz_class (tl (tl timestamptz_procs)) timestamptz_oprs = false /\
  rumvalidate N.eqb timestamptz_class (tz 7 BOOLOID [I; INT2OID] :: timestamptz_procs) timestamptz_oprs = false /\
  rumvalidate N.eqb timestamptz_class timestamptz_procs [tzop false 64] = false.
Proof.
  eexists. split; [vm_compute; reflexivity|]. split; [exists key_distance; split; [cbn; tauto|repeat split]|]. split; [vm_compute; reflexivity|].
  repeat split; vm_compute; reflexivity.
Qed.
