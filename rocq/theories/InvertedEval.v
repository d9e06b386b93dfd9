(** Proofs: what ruminv_tsvector_consistent answers for a stored query and a document (C36). *)
From Coq Require Import NArith ZArith Lia Bool List Arith Permutation.
From Verif Require Import Base Codec Entries Array Inverted InvertedCodec InvertedSpec InvertedProof InvertedTree.
Import ListNotations.
Local Open Scope Z_scope.

(** ** Truth of wrapped queries *)
Section Truth.
  Context {K : Type}.
  Notation cwrap := (cwrap K).
  Notation wrap := (wrap K).
  Fixpoint ctruth (m : K -> bool) (c : cwrap) : bool :=
    match c with CVal x b => xorb b (m x) | COp _ _ true ops => forallb (ctruth m) ops | COp _ _ false ops => existsb (ctruth m) ops end.
  Fixpoint wtruth (m : K -> bool) (c : wrap) : bool :=
    match c with WVal x b => xorb b (m x) | WOp true ops => forallb (wtruth m) ops | WOp false ops => existsb (wtruth m) ops end.
  Lemma ctruth_erase m c : ctruth m c = wtruth m (erase c).
  Proof.
    induction c as [x b|k s b ops IH] using cwrap_ind'; [reflexivity|]. cbn [erase ctruth wtruth]. destruct b.
    - induction IH as [|o l Ho _ IHl]; [reflexivity|]. cbn. rewrite Ho, IHl. reflexivity.
    - induction IH as [|o l Ho _ IHl]; [reflexivity|]. cbn. rewrite Ho, IHl. reflexivity.
  Qed.
  Lemma allnegative_truth c : check_allnegative c = ctruth (fun _ => false) c.
  Proof.
    induction c as [x b|k s b ops IH] using cwrap_ind'; [cbn; rewrite xorb_false_r; reflexivity|]. cbn [check_allnegative ctruth]. destruct b; (induction IH as [|o l Ho _ IHl]; [reflexivity|]; cbn; rewrite Ho, IHl; reflexivity).
  Qed.
  Variable m : K -> bool.
  Lemma untouched_truth c : touched m c = false -> ctruth m c = ctruth (fun _ => false) c.
  Proof.
    induction c as [x b|k s b ops IH] using cwrap_ind'; [cbn; intros ->; reflexivity|]. cbn [touched ctruth]. intro H.
    assert (A : forall o, In o ops -> ctruth m o = ctruth (fun _ => false) o).
    { intros o Ho. rewrite Forall_forall in IH. apply (IH o Ho). destruct (touched m o) eqn:E; [|reflexivity]. assert (existsb (touched m) ops = true) by (apply existsb_exists; eauto). congruence. }
    clear - A. destruct b; (induction ops as [|o l IH]; [reflexivity|]; cbn; rewrite (A o (or_introl eq_refl)), IH; [reflexivity|intros o' Ho'; apply A; right; exact Ho']).
  Qed.
  Definition answer (o : cwrap) : bool := match o with CVal x b => xorb b (m x) | COp _ _ _ _ => ev m o end.
  Lemma contrib_answer o : contrib m o + (if cnot o then 1 else 0) = if answer o then 1 else 0.
  Proof. destruct o as [x b|k s b ops]; cbn [contrib cnot answer]; [destruct b, (m x); reflexivity|destruct (ev m _); reflexivity]. Qed.
  Lemma filter_le {X} (f : X -> bool) l : (length (filter f l) <= length l)%nat.
  Proof. clear m. induction l as [|a l IH]; [reflexivity|]. cbn [filter]. destruct (f a); cbn [length]; lia. Qed.
  Lemma start_sum b ops : (0 <? cstart b ops + sumZ (map (contrib m) ops)) = if b then forallb answer ops else existsb answer ops.
  Proof.
    assert (A : Z.of_nat (length (filter cnot ops)) + sumZ (map (contrib m) ops) = Z.of_nat (length (filter answer ops))).
    { induction ops as [|o l IH]; [reflexivity|]. cbn [filter map sumZ fold_right]. fold (sumZ (map (contrib m) l)). pose proof (contrib_answer o) as C. destruct (cnot o), (answer o); cbn [length] in *; lia. }
    unfold cstart. destruct b.
    - pose proof (filter_le answer ops) as L.
      assert (B : forallb answer ops = true <-> length (filter answer ops) = length ops).
      { clear A. induction ops as [|o l IH]; [cbn; tauto|]. pose proof (filter_le answer l) as L'. specialize (IH L'). cbn [filter forallb length] in *. destruct (answer o); cbn [andb length] in *.
        - rewrite IH. split; [intros ->; reflexivity|intro E; injection E; auto].
        - split; [discriminate|]. intro E. exfalso. lia. }
      destruct (forallb answer ops); [|destruct (Z.ltb_spec 0 (Z.of_nat (length (filter cnot ops)) + 1 - Z.of_nat (length ops) + sumZ (map (contrib m) ops))); [exfalso|reflexivity]].
      + destruct B as [B _]. specialize (B eq_refl). apply Z.ltb_lt. lia.
      + destruct B as [_ B]. enough (false = true) by discriminate. apply B. lia.
    - assert (B : existsb answer ops = true <-> (0 < length (filter answer ops))%nat).
      { clear A. induction ops as [|o l IH]; [cbn; split; [discriminate|lia]|]. cbn [filter existsb]. destruct (answer o); cbn [orb length]; [split; [lia|reflexivity]|exact IH]. }
      rewrite A. destruct (existsb answer ops); [destruct B as [B _]; specialize (B eq_refl); apply Z.ltb_lt; lia|]. apply Z.ltb_ge. destruct (Nat.eq_dec (length (filter answer ops)) 0) as [->|]; [lia|]. destruct B as [_ B]. enough (false = true) by discriminate. apply B. lia.
  Qed.
  Lemma faithful_ops k s b (ops : list cwrap) o : faithful (COp k s b ops) -> In o ops -> faithful o.
  Proof. cbn. intros [_ H] Ho. induction ops as [|a l IH]; [destruct Ho|]. destruct H as [H1 H2]. destruct Ho as [->|Ho]; auto. Qed.
  Lemma ev_sound c : faithful c -> ev m c = true -> ctruth m c = true.
  Proof.
    induction c as [x b|k s b ops IH] using cwrap_ind'; intros HF H; [exact H|]. rewrite ev_op in H. apply andb_true_iff in H as [_ H]. destruct (HF) as [-> _]. rewrite start_sum in H.
    assert (A : forall o, In o ops -> answer o = true -> ctruth m o = true).
    { intros o Ho Ha. rewrite Forall_forall in IH. destruct o; [exact Ha|]. apply (IH _ Ho); [exact (faithful_ops _ _ _ _ _ HF Ho)|exact Ha]. }
    cbn [ctruth]. destruct b.
    - rewrite forallb_forall in *. auto.
    - rewrite existsb_exists in *. destruct H as (o & Ho & H). eauto.
  Qed.
  (** No operand that is an operation is true without words. *)
  Definition isOp (c : cwrap) : bool := match c with COp _ _ _ _ => true | CVal _ _ => false end.
  Fixpoint cclean (c : cwrap) : Prop :=
    match c with CVal _ _ => True | COp _ _ _ ops => fold_right (fun o P => (isOp o = true -> ctruth (fun _ => false) o = false) /\ cclean o /\ P) True ops end.
  Lemma cclean_ops k s b ops o : cclean (COp k s b ops) -> In o ops -> (isOp o = true -> ctruth (fun _ => false) o = false) /\ cclean o.
  Proof. cbn. intros H Ho. induction ops as [|a l IH]; [destruct Ho|]. destruct H as (H1 & H2 & H3). destruct Ho as [->|Ho]; auto. Qed.
  Lemma ev_complete c : faithful c -> cclean c -> touched m c = true -> ctruth m c = true -> ev m c = true.
  Proof.
    induction c as [x b|k s b ops IH] using cwrap_ind'; intros HF HC HT H; [exact H|]. rewrite ev_op. cbn [touched] in HT. rewrite HT. destruct (HF) as [-> _]. rewrite start_sum. cbn [andb].
    assert (A : forall o, In o ops -> ctruth m o = true -> answer o = true).
    { intros o Ho Ha. rewrite Forall_forall in IH. destruct o as [|k' s' b' ops']; [exact Ha|]. destruct (cclean_ops _ _ _ _ _ HC Ho) as [C1 C2]. apply (IH _ Ho); [exact (faithful_ops _ _ _ _ _ HF Ho)|exact C2| |exact Ha].
      destruct (touched m (COp k' s' b' ops')) eqn:E; [reflexivity|]. rewrite (untouched_truth _ E), (C1 eq_refl) in Ha. discriminate. }
    cbn [ctruth] in H. destruct b.
    - rewrite forallb_forall in *. auto.
    - rewrite existsb_exists in *. destruct H as (o & Ho & H). eauto.
  Qed.
End Truth.

(** ** The entries extracted from a query *)
Section Entries.
  Context {K : Type}.
  Variable eqb : K -> K -> bool.
  Hypothesis Heq : forall x y, eqb x y = true <-> x = y.
  Lemma eqb_dec x y : (eqb x y = true /\ x = y) \/ (eqb x y = false /\ x <> y).
  Proof. destruct (eqb x y) eqn:E; [left; split; [reflexivity|apply Heq; exact E]|right; split; [reflexivity|]]. intro H. apply Heq in H. congruence. Qed.
  Definition addOcc (ctx : list (K * list N)) (e : K * occ) : list (K * list N) := addPath eqb (fst e) (pathBytes (fst (snd e)) (snd (snd e))) ctx.
  Lemma extract_fold c : forall ups ctx, extract_wraps eqb c ups ctx = fold_left addOcc (occs c ups) ctx.
  Proof.
    induction c as [x b|k s b ops IH] using cwrap_ind'; intros ups ctx; [reflexivity|]. cbn [extract_wraps occs]. revert ctx.
    induction IH as [|o l Ho _ IHl]; intro ctx; [reflexivity|]. cbn [flat_map]. rewrite fold_left_app, <- Ho. apply IHl.
  Qed.
  Definition lookup (x : K) (ctx : list (K * list N)) : option (list N) := option_map snd (find (fun e => eqb x (fst e)) ctx).
  Lemma lookup_add x y p ctx : lookup x (addPath eqb y p ctx) = if eqb x y then Some (match lookup x ctx with Some b => b ++ p | None => p end) else lookup x ctx.
  Proof.
    unfold lookup. induction ctx as [|[z b] l IH]; cbn [addPath find fst snd].
    - destruct (eqb x y); reflexivity.
    - destruct (eqb_dec y z) as [[E ->]|[E Hyz]]; rewrite E; cbn [find fst].
      + destruct (eqb x z); reflexivity.
      + destruct (eqb_dec x z) as [[E2 ->]|[E2 Hxz]]; rewrite E2; [|exact IH]. destruct (eqb_dec z y) as [[_ E3]|[E3 _]]; [congruence|]. rewrite E3. reflexivity.
  Qed.
  Lemma addPath_keys y p ctx : map fst (addPath eqb y p ctx) = if existsb (eqb y) (map fst ctx) then map fst ctx else map fst ctx ++ [y].
  Proof.
    induction ctx as [|[z b] l IH]; [reflexivity|]. cbn [addPath map fst existsb]. destruct (eqb y z); [reflexivity|]. cbn [map fst orb]. rewrite IH. destruct (existsb _ _); reflexivity.
  Qed.
  Lemma addPath_nodup y p ctx : NoDup (map fst ctx) -> NoDup (map fst (addPath eqb y p ctx)).
  Proof.
    intro H. rewrite addPath_keys. destruct (existsb (eqb y) (map fst ctx)) eqn:E; [exact H|]. apply NoDup_rev in H. rewrite <- (rev_involutive (map fst ctx)). change [y] with (rev [y]). rewrite <- rev_app_distr. apply NoDup_rev. cbn [app]. constructor; [|exact H].
    intro Hin. apply in_rev in Hin. assert (existsb (eqb y) (map fst ctx) = true) by (apply existsb_exists; exists y; split; [exact Hin|apply Heq; reflexivity]). congruence.
  Qed.
  Definition occ_bytes (e : K * occ) : list N := pathBytes (fst (snd e)) (snd (snd e)).
  Definition of_word (x : K) (l : list (K * occ)) : list (K * occ) := filter (fun e => eqb x (fst e)) l.
  Lemma fold_spec l : forall ctx, NoDup (map fst ctx) -> NoDup (map fst (fold_left addOcc l ctx)) /\
    forall x, lookup x (fold_left addOcc l ctx) = match of_word x l with [] => lookup x ctx | f => Some (match lookup x ctx with Some b => b | None => [] end ++ flat_map occ_bytes f) end.
  Proof.
    induction l as [|e l IH]; intros ctx H; [split; [exact H|reflexivity]|]. cbn [fold_left]. destruct (IH (addOcc ctx e) (addPath_nodup _ _ _ H)) as [I1 I2]. split; [exact I1|]. intro x. rewrite I2. unfold addOcc. rewrite lookup_add. unfold of_word. cbn [filter].
    destruct (eqb x (fst e)); [|reflexivity]. destruct (filter _ l) as [|a f]; cbn [flat_map]; fold (occ_bytes e); destruct (lookup x ctx); rewrite ?app_nil_r; cbn [app]; rewrite ?app_assoc; reflexivity.
  Qed.
  Lemma lookup_in x b ctx : NoDup (map fst ctx) -> (lookup x ctx = Some b <-> In (x, b) ctx).
  Proof.
    unfold lookup. induction ctx as [|[z c] l IH]; intro H; [cbn; split; [discriminate|intros []]|]. cbn [map fst] in H. apply NoDup_cons_iff in H as [H1 H2]. cbn [find fst In]. destruct (eqb_dec x z) as [[E ->]|[E Hne]]; rewrite E.
    - cbn. split; [intro Hb; injection Hb as ->; left; reflexivity|]. intros [Hb|Hb]; [injection Hb as ->; reflexivity|]. exfalso. apply H1. apply in_map_iff. exists (z, b). auto.
    - rewrite (IH H2). split; [tauto|]. intros [Hb|Hb]; [congruence|exact Hb].
  Qed.
  (** The entries: each word once, with all its paths. *)
  Lemma extract_spec_words c : let l := extract_wraps eqb c [] [] in
    NoDup (map fst l) /\ forall x b, In (x, b) l <-> of_word x (occs c []) <> [] /\ b = flat_map occ_bytes (of_word x (occs c [])).
  Proof.
    cbv zeta. rewrite extract_fold. destruct (fold_spec (occs c []) [] (NoDup_nil _)) as [H1 H2]. split; [exact H1|]. intros x b. rewrite <- (lookup_in x b _ H1), H2. cbn.
    destruct (of_word x (occs c [])); [split; [discriminate|intros [H _]; contradiction]|]. split; [intro H; injection H as <-; split; [discriminate|reflexivity]|intros [_ ->]; reflexivity].
  Qed.
End Entries.

(** ** Permutations of the paths *)
Lemma total_perm P Q n : Permutation P Q -> total P n = total Q n.
Proof. induction 1; cbn [total]; try lia; congruence. Qed.
Lemma T_of_perm P Q n : Permutation P Q -> T_of P n = T_of Q n.
Proof. unfold T_of. induction 1; cbn [existsb]; try congruence. rewrite !orb_assoc. f_equal. apply orb_comm. Qed.
Lemma filter_or {X} (f g : X -> bool) l : (forall x, In x l -> f x = true -> g x = false) -> Permutation (filter f l ++ filter g l) (filter (fun x => f x || g x) l).
Proof.
  induction l as [|a l IH]; intro H; [constructor|]. cbn [filter]. specialize (IH (fun x Hx => H x (or_intror Hx))). pose proof (H a (or_introl eq_refl)) as Ha. destruct (f a) eqn:Ef.
  - rewrite (Ha eq_refl). cbn [orb app]. constructor. exact IH.
  - destruct (g a); cbn [orb]; [|exact IH]. apply Permutation_sym, Permutation_cons_app, Permutation_sym. exact IH.
Qed.
Lemma words_perm {K X} (eqb : K -> K -> bool) (Heq : forall x y, eqb x y = true <-> x = y) (l : list (K * X)) xs : NoDup xs ->
  Permutation (flat_map (fun x => filter (fun e => eqb x (fst e)) l) xs) (filter (fun e => existsb (fun x => eqb x (fst e)) xs) l).
Proof.
  induction 1 as [|x xs Hx _ IH]; [cbn; rewrite (proj2 (filter_none_nil _ _)); [constructor|reflexivity]|]. cbn [flat_map existsb].
  eapply Permutation_trans; [apply Permutation_app_head; exact IH|]. apply filter_or. intros e _ E. apply Heq in E. subst x. destruct (existsb _ xs) eqn:E; [|reflexivity]. exfalso. apply existsb_exists in E as (y & Hy & E). apply Heq in E. subst y. contradiction.
Qed.

(** ** The answer *)
Section Consist.
  Context {K : Type}.
  Variable eqb : K -> K -> bool.
  Hypothesis Heq : forall x y, eqb x y = true <-> x = y.
  Variable c : cwrap K.
  Hypothesis Hnum : numbered c 1.
  Hypothesis Hop : isOp c = true.
  Hypothesis Hw : (width c <= 256)%N.
  Hypothesis Hsums : forall r, In r (recs (fun _ => false) c 0) -> Z.abs (nr_sum r) < 2 ^ 29.
  Variable xs : list K.
  Hypothesis Hxs : NoDup xs.
  Definition mx (y : K) : bool := existsb (fun x => eqb x y) xs.
  Notation R := (recs mx c 0).
  Definition get (n : N) : option nrec := find (fun r => (nr_num r =? n)%N) R.
  Definition base (n : N) : Z := match get n with Some r => nr_sum r | None => 0 end.
  Definition par (n : N) : N := match get n with Some r => nr_par r | None => (n - 1)%N end.
  Definition Ef (n : N) : bool := match get n with Some r => nr_E r | None => false end.
  Lemma get_in r : In r R -> get (nr_num r) = Some r.
  Proof.
    intro H. unfold get. pose proof (recs_nodup mx c 1 0 Hnum) as D. induction R as [|a l IH]; [destruct H|]. cbn [find map] in *. apply NoDup_cons_iff in D as [D1 D2]. destruct H as [->|H]; [rewrite N.eqb_refl; reflexivity|].
    destruct (N.eqb_spec (nr_num a) (nr_num r)) as [E|]; [|exact (IH H D2)]. exfalso. apply D1. rewrite E. apply in_map. exact H.
  Qed.
  Lemma get_some n r : get n = Some r -> In r R /\ nr_num r = n.
  Proof. intro H. apply find_some in H as [H1 H2]. apply N.eqb_eq in H2. auto. Qed.
  Lemma par_ok n : (1 < n)%N -> (1 <= par n < n)%N.
  Proof.
    intro H. unfold par. destruct (get n) as [r|] eqn:E; [|lia]. apply get_some in E as [Hr <-]. destruct (recs_range mx c 1 0 r Hnum Hr) as [_ [[E _]|E]]; lia.
  Qed.
  (** Nodes do not depend on the document, up to their answers. *)
  Lemma recs_sums (m m' : K -> bool) (t : cwrap K) : forall p, map (fun r => (nr_num r, nr_sum r, nr_par r)) (recs m t p) = map (fun r => (nr_num r, nr_sum r, nr_par r)) (recs m' t p).
  Proof.
    clear. induction t as [x b|k s b ops IH] using cwrap_ind'; intro p; [reflexivity|]. cbn [recs map]. f_equal. induction IH as [|o l Ho _ IHl]; [reflexivity|]. cbn [flat_map]. rewrite !map_app, (Ho k), IHl. reflexivity.
  Qed.
  Lemma sums_ok r : In r R -> Z.abs (nr_sum r) < 2 ^ 29.
  Proof.
    intro H. assert (Hin : In (nr_num r, nr_sum r, nr_par r) (map (fun r => (nr_num r, nr_sum r, nr_par r)) R)) by (apply in_map_iff; exists r; auto).
    rewrite (recs_sums mx (fun _ => false) c 0) in Hin. apply in_map_iff in Hin as (r' & E & Hr). injection E as E1 E2 E3. rewrite <- E2. apply Hsums. exact Hr.
  Qed.
  (** Every path is a chain of nodes. *)
  Lemma occs_chain (t : cwrap K) : forall n ups e, numbered t n -> (forall r, In r (recs mx t (tops ups)) -> In r R) -> (1 <= n)%N -> (n = 1%N <-> ups = []) -> (forall o, ups = [] -> t = o -> isOp o = true) ->
    Forall step_ok ups -> chain base par ups -> In e (occs t ups) -> occ_ok base par (snd e).
  Proof.
    induction t as [x b|k s b ops IH] using cwrap_ind'; intros n ups e Hn HR H1 Hroot Hnv Hst Hch He.
    - destruct He as [<-|[]]. cbn [snd]. split; [exact Hch|]. split; [|exact Hst]. cbn [snd]. intro E. specialize (Hnv _ E eq_refl). discriminate.
    - apply numbered_op in Hn as [-> Hn]. cbn [occs] in He. apply in_flat_map in He as (o & Ho & He). rewrite Forall_forall in IH. destruct (numbereds_in ops o Ho _ Hn) as (n' & A & B & C).
      set (r0 := mkRec n s (tops ups) (touched mx (COp n s b ops)) (ev mx (COp n s b ops))). assert (Hr0 : In r0 R) by (apply HR; left; reflexivity). pose proof (get_in r0 Hr0) as G. cbn [nr_num r0] in G.
      apply (IH o Ho n' ((n, s) :: ups) e C).
      + intros r Hr. apply HR. cbn [recs]. right. apply in_flat_map. exists o. split; [exact Ho|exact Hr].
      + lia.
      + split; [lia|discriminate].
      + intros o' E. discriminate E.
      + constructor; [|exact Hst]. destruct (recs_range mx c 1 0 r0 Hnum Hr0) as [Q _]. cbn [nr_num r0] in Q. split; [cbn [fst]; lia|]. cbn [snd]. exact (sums_ok r0 Hr0).
      + cbn [chain]. unfold base, par at 1. rewrite G. cbn [nr_sum nr_par r0]. repeat split; try assumption; try (intros; reflexivity); tauto.
      + exact He.
  Qed.
  Lemma all_ok : Forall (fun e => occ_ok base par (snd e)) (occs c []).
  Proof.
    rewrite Forall_forall. intros e He. apply (occs_chain c 1 [] e Hnum); auto; try lia; try tauto; cbn; auto. intros o _ <-. exact Hop.
  Qed.
  (** What the query keys show: for each word of the document the paths of the word in the query. *)
  Definition word_occs (x : K) : list occ := map snd (of_word eqb x (occs c [])).
  Definition word_shows (x : K) (o : option (option datum)) : Prop :=
    match of_word eqb x (occs c []) with [] => o = None | l => exists form, o = Some (Some (DVar form (flat_map occ_bytes l))) end.
  Definition ws (x : K) : option (list occ) := match word_occs x with [] => None | l => Some l end.
  Lemma bytes_occs (l : list (K * occ)) : Forall (fun e => occ_ok base par (snd e)) l -> flat_map occ_bytes l = occs_bytes (map snd l).
  Proof.
    induction 1 as [|e l (_ & He & _) _ IH]; [reflexivity|]. cbn [flat_map map occs_bytes]. fold (occs_bytes (map snd l)). rewrite <- IH. f_equal. unfold occ_bytes, pathBytes. destruct (snd (snd e)); [contradiction|reflexivity].
  Qed.
  Lemma word_key x o : word_shows x o -> key_shows base par o (ws x).
  Proof.
    unfold word_shows, ws, word_occs. pose proof all_ok as H. assert (HF : Forall (fun e => occ_ok base par (snd e)) (of_word eqb x (occs c []))).
    { rewrite Forall_forall in *. intros e He. apply H. unfold of_word in He. apply filter_In in He. tauto. }
    pose proof (bytes_occs _ HF) as HB. destruct (of_word eqb x (occs c [])) as [|a l]; [intros ->; reflexivity|]. intros (form & ->). rewrite HB. cbn [map key_shows]. exists form. split; [reflexivity|].
    split; [discriminate|]. change (snd a :: map snd l) with (map (@snd K occ) (a :: l)). rewrite Forall_map. exact HF.
  Qed.
  Lemma found_ws x : found (ws x) = word_occs x.
  Proof. unfold ws. destruct (word_occs x); reflexivity. Qed.
  Lemma perm_hits : Permutation (flat_map found (map ws xs)) (hits mx (occs c [])).
  Proof.
    replace (flat_map found (map ws xs)) with (map snd (flat_map (fun x => filter (fun e => eqb x (fst e)) (occs c [])) xs)).
    - unfold hits. apply Permutation_map. exact (words_perm eqb Heq (occs c []) xs Hxs).
    - clear. induction xs as [|x l IH]; [reflexivity|]. cbn [flat_map map]. rewrite map_app, IH, found_ws. reflexivity.
  Qed.
  Lemma chain_up ups n : chain base par ups -> (1 < n)%N -> existsb (fun u => (fst u =? n)%N) ups = true -> existsb (fun u => (fst u =? par n)%N) ups = true.
  Proof.
    clear Hnum Hop Hw Hsums Hxs Heq. induction ups as [|[k s] r IH]; intros Hc Hn H; [discriminate|]. destruct Hc as (_ & _ & H1 & H2 & Hr). cbn [existsb fst] in *. apply orb_true_iff in H as [H|H].
    - apply N.eqb_eq in H. subst k. rewrite H2 by lia. destruct r as [|[k' s'] r']; [exfalso; destruct H1 as [_ H1]; specialize (H1 eq_refl); lia|]. cbn [tops existsb fst]. rewrite N.eqb_refl, orb_true_r. reflexivity.
    - rewrite (IH Hr Hn H). apply orb_true_r.
  Qed.
  Lemma root_rec : exists r, In r R /\ nr_num r = 1%N /\ nr_T r = touched mx c /\ nr_E r = ev mx c.
  Proof.
    destruct c as [|k s b ops]; [discriminate Hop|]. destruct (proj1 (numbered_op k s b ops 1) Hnum) as [-> _]. exists (mkRec 1 s 0 (touched mx (COp 1 s b ops)) (ev mx (COp 1 s b ops))). split; [left; reflexivity|]. auto.
  Qed.
  Notation HT := (T_of (hits mx (occs c []))).
  Lemma rec_T r : In r R -> nr_T r = HT (nr_num r).
  Proof. intro H. exact (recs_touched mx c 1 [] 0 r Hnum (fun u F => False_ind _ F) H). Qed.
  Lemma rec_E r : In r R -> nr_E r = nr_T r && (0 <? nr_sum r + total (hits mx (occs c [])) (nr_num r) + kids R (nr_num r)).
  Proof.
    intro H. rewrite (recs_eval mx c 1 0 r Hnum ltac:(lia) H). pose proof (here_split mx c [] (nr_num r)) as HS. cbn [tops] in HS. rewrite HS, Z.add_assoc. reflexivity.
  Qed.
  Lemma hit_on n : HT n = true -> exists e, In e (occs c []) /\ mx (fst e) = true /\ on n (snd e) = true.
  Proof.
    unfold T_of, hits. intro H. apply existsb_exists in H as (o & Ho & H). apply in_map_iff in Ho as (e & <- & He). apply filter_In in He as [He Hm]. exists e. auto.
  Qed.
  Lemma hit_rec n : HT n = true -> exists r, In r R /\ nr_num r = n.
  Proof.
    intro H. apply hit_on in H as (e & He & _ & Hon). destruct (occs_recs mx c 1 [] e n 0 Hnum He Hon) as [(u & [] & _)|Hr]. exact Hr.
  Qed.
  Lemma ok_sent n : (1 <= n)%N -> sent par HT Ef (map nr_num R) n n = kids R n.
  Proof.
    intro Hn. unfold sent, kids. f_equal. assert (A : forall r, In r R -> ((n <? nr_num r)%N && (par (nr_num r) =? n)%N && (1 <? nr_num r)%N && HT (nr_num r) && Ef (nr_num r)) = ((nr_par r =? n)%N && nr_E r)).
    { intros r Hr. rewrite <- (rec_T r Hr). pose proof (rec_E r Hr) as HE. unfold par, Ef. rewrite (get_in r Hr). destruct (recs_range mx c 1 0 r Hnum Hr) as [Q1 Q2]. destruct (N.eqb_spec (nr_par r) n) as [E|]; [|rewrite andb_false_r; reflexivity].
      destruct (N.ltb_spec n (nr_num r)); [|lia]. destruct (N.ltb_spec 1 (nr_num r)); [|lia]. cbn [andb]. destruct (nr_T r); [reflexivity|]. rewrite HE. reflexivity. }
    revert A. generalize R. intro l. generalize HT. intros f A. induction l as [|r l IH]; [reflexivity|]. cbn [map filter]. rewrite (A r (or_introl eq_refl)). destruct (_ && _); cbn [length]; rewrite (IH (fun r Hr => A r (or_intror Hr))); reflexivity.
  Qed.
  Lemma consist_op v nullv : Forall2 word_shows xs v -> tsvector_consistent (v ++ [nullv]) = Some (if touched mx c then ev mx c else isSet nullv).
  Proof.
    intro H. unfold tsvector_consistent. rewrite removelast_last, last_last.
    assert (HK : Forall2 (key_shows base par) v (map ws xs)).
    { clear - H Hnum Hop Hw Hsums. induction H as [|x o l v Ho _ IH]; constructor; [|exact IH]. apply word_key. exact Ho. }
    destruct (run_keys base par par_ok v (map ws xs) HK [] [] true (Forall_nil _)) as (nodes & K1 & K2 & K3).
    { intros n Hn. cbn. unfold nth_node. destruct (N.to_nat (n - 1)); reflexivity. }
    rewrite K1. cbn [app andb] in *. set (P := flat_map found (map ws xs)) in *. pose proof perm_hits as HP. fold P in HP.
    assert (KN : node_is par HT (S_of base (hits mx (occs c []))) None nodes).
    { eapply node_is_ext; [| |exact K3]; intro n; [apply T_of_perm; exact HP|]. unfold S_of. rewrite (total_perm _ _ n HP). reflexivity. }
    assert (HA : forallb (fun w : option (list occ) => match w with Some _ => false | None => true end) (map ws xs) = negb (touched mx c)).
    { rewrite (touched_hits mx c []), negb_involutive. assert (EP : (match hits mx (occs c []) with [] => true | _ => false end) = match P with [] => true | _ => false end).
      { destruct (hits mx (occs c [])), P; try reflexivity; exfalso; [apply Permutation_sym in HP|]; exact (Permutation_nil_cons HP). }
      rewrite EP. unfold P. clear. induction xs as [|x l IH]; [reflexivity|]. cbn [map forallb flat_map]. unfold ws at 1. rewrite found_ws. destruct (word_occs x); [exact IH|reflexivity]. }
    rewrite HA. destruct root_rec as (r0 & Hr0 & N0 & T0 & E0).
    assert (HN : nodes_loop (length nodes) nodes = (0 <? Z.of_nat (length nodes)) && HT 1%N && Ef 1%N).
    { apply (run_nodes base par par_ok HT (S_of base (hits mx (occs c []))) Ef (map nr_num R)).
      - exact (recs_nodup mx c 1 0 Hnum).
      - intros n Hn. apply hit_rec in Hn as (r & Hr & <-). apply in_map. exact Hr.
      - intros n Hn HTn. apply hit_on in HTn as (e & He & Hm & Hon). unfold T_of. apply existsb_exists. exists (snd e). split; [unfold hits; apply in_map; apply filter_In; auto|]. apply chain_up; [|exact Hn|exact Hon].
        pose proof all_ok as AO. rewrite Forall_forall in AO. exact (proj1 (AO e He)).
      - intros n HTn. assert (Hn1 : (1 <= n)%N) by (apply hit_rec in HTn as (r & Hr & <-); destruct (recs_range mx c 1 0 r Hnum Hr) as [Q _]; lia). rewrite (ok_sent n Hn1).
        destruct (hit_rec n HTn) as (r & Hr & E). unfold Ef, S_of, base. rewrite <- E. rewrite (get_in r Hr). rewrite (rec_E r Hr), (rec_T r Hr), E, HTn. reflexivity.
      - apply Nat.le_refl.
      - eapply node_is_ext; [reflexivity| |exact KN]. intro n. cbv beta. rewrite (sent_most base par HT (fun _ => 0) Ef (map nr_num R)); [lia|]. intros m Hm. assert (Hm1 : (1 <= m)%N) by (apply hit_rec in Hm as (r & Hr & <-); destruct (recs_range mx c 1 0 r Hnum Hr) as [Q _]; lia).
        pose proof (seen_length base par par_ok nodes _ _ None m KN Hm1 Hm). lia. }
    rewrite HN. pose proof (rec_T r0 Hr0) as RT. rewrite N0 in RT. rewrite <- RT, T0. assert (EE : Ef 1%N = ev mx c) by (unfold Ef; rewrite <- N0, (get_in r0 Hr0); exact E0). rewrite EE.
    destruct (touched mx c) eqn:ET; cbn [negb andb orb].
    - rewrite T0 in RT. pose proof (seen_length base par par_ok nodes _ _ None 1%N KN ltac:(lia) (eq_sym RT)) as L. destruct (Z.ltb_spec 0 (Z.of_nat (length nodes))); [reflexivity|lia].
    - rewrite andb_false_r. destruct (isSet nullv); reflexivity.
  Qed.
End Consist.
