(** Proofs: the search of inverted search computes the truth of the stored query (C36). *)
From Coq Require Import NArith ZArith Lia Bool List Arith.
From Verif Require Import Base Codec Entries Array Inverted InvertedCodec InvertedSpec.
Import ListNotations.
Local Open Scope Z_scope.

(** ** The node array *)
Lemma nth_set nodes i t j : (N.to_nat i < length nodes)%nat -> nth_node (set_node nodes i t) j = if (j =? i)%N then t else nth_node nodes j.
Proof.
  intro H. unfold nth_node, set_node. assert (L : length (firstn (N.to_nat i) nodes) = N.to_nat i) by (apply firstn_length_le; lia). destruct (N.eqb_spec j i) as [->|Hne].
  - rewrite app_nth2 by lia. rewrite L, Nat.sub_diag. reflexivity.
  - destruct (N.lt_total j i) as [Hl|[->|Hl]]; [|contradiction|].
    + rewrite app_nth1 by lia. rewrite <- (firstn_skipn (N.to_nat i) nodes) at 2. rewrite app_nth1 by lia. reflexivity.
    + rewrite app_nth2 by lia. rewrite L. destruct (N.to_nat j - N.to_nat i)%nat as [|d] eqn:E; [lia|]. cbn [nth]. rewrite <- (firstn_skipn (S (N.to_nat i)) nodes) at 2. rewrite app_nth2; rewrite firstn_length_le by lia; [|lia].
      f_equal. lia.
Qed.
Lemma set_length nodes i t : (N.to_nat i < length nodes)%nat -> length (set_node nodes i t) = length nodes.
Proof. intro H. unfold set_node. rewrite app_length. cbn [length]. rewrite firstn_length_le, skipn_length by lia. lia. Qed.
Lemma nth_grow nodes k j : nth_node (nodes ++ repeat unseen k) j = nth_node nodes j.
Proof.
  unfold nth_node. destruct (Nat.lt_ge_cases (N.to_nat j) (length nodes)).
  - apply app_nth1. exact H.
  - rewrite app_nth2 by exact H. rewrite (nth_overflow nodes) by exact H. clear. generalize (N.to_nat j - length nodes)%nat. induction k as [|k IH]; intros [|n]; try reflexivity. cbn. apply IH.
Qed.
Lemma nth_seen nodes i : nth_node nodes i <> unseen -> (N.to_nat i < length nodes)%nat.
Proof. intro H. destruct (Nat.lt_ge_cases (N.to_nat i) (length nodes)); [assumption|]. exfalso. apply H. unfold nth_node. apply nth_overflow. assumption. Qed.

(** ** One step of a path *)
Definition step1 (num : N) (sum : Z) (not : bool) (child : option N) (nodes : list tmpNode) : list tmpNode :=
  let index := (num - 1)%N in
  let nodes := match child with Some c => set_node nodes c (mkNode (t_sum (nth_node nodes c)) (Z.of_N index) not) | None => nodes end in
  let nodes := nodes ++ repeat unseen (N.to_nat num - length nodes) in
  let nodes := if t_parent (nth_node nodes index) =? -2 then set_node nodes index (mkNode sum (-1) false) else nodes in
  let t := nth_node nodes index in
  match child with
  | None => set_node nodes index (mkNode (if not then t_sum t - 1 else t_sum t + 1) (t_parent t) (t_not t))
  | Some _ => nodes end.
Definition next (num : N) : option N := if (num - 1 =? 0)%N then None else Some (num - 1)%N.
Fixpoint run_path (not : bool) (ups : list (N * Z)) (child : option N) (nodes : list tmpNode) : option N * list tmpNode :=
  match ups with
  | [] => (child, nodes)
  | (num, sum) :: r => run_path false r (next num) (step1 num sum not child nodes)
  end.
Definition step_ok (u : N * Z) : Prop := (1 <= fst u <= 256)%N /\ Z.abs (snd u) < 2 ^ 29.

Lemma path_loop_step f num sum not child nodes rest : step_ok (num, sum) ->
  path_loop (S f) (encode_varbyte num ++ encode_varbyte (sumVal sum not) ++ rest) child nodes =
  path_loop f rest (next num) (step1 num sum not child nodes).
Proof.
  intros [H1 H2]. cbn [fst snd] in *. destruct (sumVal_spec sum not H2) as (S1 & S2 & S3 & S4).
  destruct (encode_varbyte num ++ encode_varbyte (sumVal sum not) ++ rest) as [|x l] eqn:E.
  { exfalso. apply app_eq_nil in E as [E _]. exact (encode_nonempty _ E). }
  cbn [path_loop]. rewrite <- E. rewrite decode_encode by lia. rewrite decode_encode by exact S1. rewrite S2, S3, S4.
  replace ((num =? 0)%N || (256 <? num)%N) with false; [|symmetry; apply orb_false_iff; split; [apply N.eqb_neq; lia|apply N.ltb_ge; lia]].
  unfold step1, next. rewrite N2Z.inj_abs_N. replace (negb ((if not then 1 else 0) =? 0)%N) with not by (destruct not; reflexivity).
  replace (if negb (negb (sum <? 0)) then - Z.abs sum else Z.abs sum) with sum; [reflexivity|]. destruct (Z.ltb_spec sum 0); cbn [negb]; lia.
Qed.
Lemma path_loop_run ups : forall not child nodes rest f, Forall step_ok ups -> (length (pathUp not ups ++ rest) <= f)%nat ->
  exists f', (length rest <= f')%nat /\ path_loop f (pathUp not ups ++ rest) child nodes = path_loop f' rest (fst (run_path not ups child nodes)) (snd (run_path not ups child nodes)).
Proof.
  induction ups as [|[num sum] r IH]; intros not child nodes rest f Ho Hf; [exists f; split; [exact Hf|reflexivity]|].
  inversion Ho as [|? ? H1 H2 E]; subst. cbn [pathUp run_path] in *. rewrite <- !app_assoc in *.
  assert (Hn : (0 < length (encode_varbyte num))%nat) by (pose proof (encode_nonempty num); destruct (encode_varbyte num); [congruence|cbn; lia]).
  rewrite !app_length in Hf. destruct f as [|f]; [lia|]. rewrite path_loop_step by exact H1. apply IH; [exact H2|]. rewrite app_length. lia.
Qed.

Lemma filter_none_nil {X} (f : X -> bool) l : filter f l = [] <-> forall x, In x l -> f x = false.
Proof.
  split.
  - intros H x Hx. destruct (f x) eqn:E; [|reflexivity]. exfalso. assert (In x (filter f l)) by (apply filter_In; auto). rewrite H in H0. destruct H0.
  - induction l as [|a l IH]; intro H; [reflexivity|]. cbn [filter]. rewrite (H a (or_introl eq_refl)). apply IH. intros x Hx. apply H. right. exact Hx.
Qed.
(** ** Paths seen as a forest *)
Definition tops (ups : list (N * Z)) : N := match ups with [] => 0%N | (n, _) :: _ => n end.
Definition occ : Type := bool * list (N * Z).
Definition delta (o : occ) : Z := if fst o then -1 else 1.
Definition T_of (P : list occ) (n : N) : bool := existsb (fun o : occ => existsb (fun u => (fst u =? n)%N) (snd o)) P.
Fixpoint total (P : list occ) (n : N) : Z := match P with [] => 0 | o :: r => (if (tops (snd o) =? n)%N then delta o else 0) + total r n end.
Lemma total_app P Q n : total (P ++ Q) n = total P n + total Q n.
Proof. induction P as [|o P IH]; [reflexivity|]. cbn [app total]. rewrite IH. lia. Qed.
Definition occs_bytes (l : list occ) : list N := flat_map (fun o => pathUp (fst o) (snd o)) l.
(** Facts on the numbering: start value and parent (0: none) of every node. *)
Section Forest.
  Variables (base : N -> Z) (par : N -> N).
  Definition parent_field (n : N) : Z := if (n =? 1)%N then -1 else Z.of_N (par n) - 1.
  (** A path: each node with its start value, followed by its parent, up to node 1. *)
  Fixpoint chain (ups : list (N * Z)) : Prop :=
    match ups with
    | [] => True
    | (n, s) :: r => s = base n /\ (1 <= n)%N /\ (n = 1%N <-> r = []) /\ (n <> 1%N -> par n = tops r) /\ chain r
    end.
  Definition node_is (T : N -> bool) (S : N -> Z) (pend : option N) (nodes : list tmpNode) : Prop :=
    forall n, (1 <= n)%N ->
      if T n then t_sum (nth_node nodes (n - 1)) = S n /\ t_not (nth_node nodes (n - 1)) = false /\
          (if match pend with Some c => (n - 1 =? c)%N | None => false end then t_parent (nth_node nodes (n - 1)) = -1 \/ t_parent (nth_node nodes (n - 1)) = parent_field n
           else t_parent (nth_node nodes (n - 1)) = parent_field n)
      else nth_node nodes (n - 1) = unseen.
  Definition touch (T : N -> bool) (ups : list (N * Z)) : N -> bool := fun n => T n || existsb (fun u => (fst u =? n)%N) ups.
  Definition bump (S : N -> Z) (n : N) (d : Z) : N -> Z := fun m => if (m =? n)%N then S m + d else S m.
  Hypothesis Hpar : forall n, (1 < n)%N -> (1 <= par n < n)%N.

  Lemma node_is_ext T T' S S' pend nodes : (forall n, T n = T' n) -> (forall n, S n = S' n) -> node_is T S pend nodes -> node_is T' S' pend nodes.
  Proof. intros HT HS H n Hn. specialize (H n Hn). rewrite <- HT, <- HS. exact H. Qed.
  Lemma unseen_parent nodes T S pend n : node_is T S pend nodes -> (1 <= n)%N -> (t_parent (nth_node nodes (n - 1)) =? -2) = negb (T n).
  Proof.
    intros H Hn. specialize (H n Hn). destruct (T n); cbn [negb]; [|rewrite H; reflexivity]. apply Z.eqb_neq. destruct H as (_ & _ & H).
    assert (E : t_parent (nth_node nodes (n - 1)) = -1 \/ t_parent (nth_node nodes (n - 1)) = parent_field n) by (destruct (match pend with Some c => _ | None => _ end); auto).
    unfold parent_field in E. destruct E as [E|E]; rewrite E; [discriminate|]. destruct (N.eqb_spec n 1); [discriminate|]. lia.
  Qed.
  Lemma seen_length nodes T S pend n : node_is T S pend nodes -> (1 <= n)%N -> T n = true -> (N.to_nat (n - 1) < length nodes)%nat.
  Proof.
    intros H Hn HT. apply nth_seen. intro E. pose proof (unseen_parent nodes T S pend n H Hn) as U. rewrite E, HT in U. discriminate.
  Qed.
  (** Later steps of a path. *)
  Lemma run_rest ups : forall c nodes T S, chain ups -> ups <> [] -> (1 <= c)%N -> T (c + 1)%N = true -> par (c + 1) = tops ups -> (forall n, T n = false -> S n = base n) ->
    node_is T S (Some c) nodes ->
    fst (run_path false ups (Some c) nodes) = None /\ node_is (touch T ups) S None (snd (run_path false ups (Some c) nodes)).
  Proof.
    induction ups as [|[n s] r IH]; intros c nodes T S Hc Hne Hc1 HT Hp HS Hn; [contradiction|]. destruct Hc as (Hs & H1 & Hroot & Hpar' & Hr). cbn [tops] in Hp. cbn [run_path].
    set (nodes1 := set_node nodes c (mkNode (t_sum (nth_node nodes c)) (Z.of_N (n - 1)) false)).
    assert (Lc : (N.to_nat c < length nodes)%nat) by (pose proof (seen_length nodes T S (Some c) (c + 1)%N Hn ltac:(lia) HT); replace (c + 1 - 1)%N with c in * by lia; assumption).
    assert (N1 : node_is T S None nodes1).
    { intros m Hm. unfold nodes1. specialize (Hn m Hm). rewrite nth_set by exact Lc. destruct (N.eqb_spec (m - 1) c) as [E|E].
      - assert (m = c + 1)%N by lia. subst m. rewrite HT in *. destruct Hn as (Hn1 & Hn2 & _). cbn. rewrite E in Hn1. split; [exact Hn1|]. split; [reflexivity|]. unfold parent_field. destruct (N.eqb_spec (c + 1) 1); [lia|]. rewrite Hp. lia.
      - cbv beta iota in Hn. rewrite (proj2 (N.eqb_neq (m - 1) c) E) in Hn. exact Hn. }
    set (nodes2 := nodes1 ++ repeat unseen (N.to_nat n - length nodes1)).
    assert (N2 : node_is T S None nodes2) by (intros m Hm; unfold nodes2; rewrite nth_grow; exact (N1 m Hm)).
    assert (L2 : (N.to_nat (n - 1) < length nodes2)%nat) by (unfold nodes2; rewrite app_length, repeat_length; lia).
    set (nodes3 := if t_parent (nth_node nodes2 (n - 1)) =? -2 then set_node nodes2 (n - 1) (mkNode s (-1) false) else nodes2).
    assert (N3 : node_is (touch T [(n, s)]) S (next n) nodes3).
    { unfold nodes3. rewrite (unseen_parent nodes2 T S None n N2 H1). unfold touch. cbn [existsb fst]. intros m Hm. pose proof (N2 m Hm) as M. destruct (T n) eqn:En; cbn [negb].
      - replace (T m || ((n =? m)%N || false)) with (T m) by (destruct (N.eqb_spec n m) as [<-|]; [rewrite En; reflexivity|cbn; rewrite orb_false_r; reflexivity]).
        destruct (T m); [|exact M]. destruct M as (M1 & M2 & M3). split; [exact M1|]. split; [exact M2|]. destruct (match next n with Some _ => _ | None => _ end); [right; exact M3|exact M3].
      - rewrite nth_set by exact L2. destruct (N.eqb_spec n m) as [<-|Hnm].
        + rewrite N.eqb_refl. replace (T n || (true || false)) with true by (destruct (T n); reflexivity). cbn. rewrite (HS n En), Hs. split; [reflexivity|]. split; [reflexivity|].
          unfold next. destruct (N.eqb_spec (n - 1) 0) as [E0|E0]; [unfold parent_field; destruct (N.eqb_spec n 1); [reflexivity|lia]|]. rewrite N.eqb_refl. left. reflexivity.
        + destruct (N.eqb_spec (m - 1) (n - 1)); [lia|]. cbn [orb]. rewrite orb_false_r. destruct (T m); [|exact M]. destruct M as (M1 & M2 & M3). split; [exact M1|]. split; [exact M2|]. destruct (match next n with Some _ => _ | None => _ end); [right; exact M3|exact M3]. }
    change (step1 n s false (Some c) nodes) with nodes3. clearbody nodes3. unfold next in *. destruct (N.eqb_spec (n - 1) 0) as [E0|E0].
    - assert (r = []) as -> by (apply Hroot; lia). cbn [run_path fst snd]. split; [reflexivity|]. exact N3.
    - assert (Hrn : r <> []) by (intro E; apply Hroot in E; lia).
      destruct (IH (n - 1)%N nodes3 (touch T [(n, s)]) S Hr Hrn ltac:(lia)) as [I1 I2].
      + unfold touch. cbn [existsb fst]. replace (n - 1 + 1)%N with n by lia. rewrite N.eqb_refl. rewrite orb_true_r. reflexivity.
      + replace (n - 1 + 1)%N with n by lia. apply Hpar'. lia.
      + intros m Hm. apply HS. unfold touch in Hm. apply orb_false_iff in Hm. tauto.
      + exact N3.
      + split; [exact I1|]. eapply node_is_ext; [|reflexivity|exact I2]. intro m. unfold touch. cbn [existsb fst]. rewrite orb_false_r, <- orb_assoc. reflexivity.
  Qed.
  (** A whole path. *)
  Lemma run_whole ups not nodes T S : chain ups -> ups <> [] -> (forall n, T n = false -> S n = base n) -> node_is T S None nodes ->
    fst (run_path not ups None nodes) = None /\ node_is (touch T ups) (bump S (tops ups) (if not then -1 else 1)) None (snd (run_path not ups None nodes)).
  Proof.
    destruct ups as [|[n s] r]; intros Hc Hne HS Hn; [contradiction|]. destruct Hc as (Hs & H1 & Hroot & Hpar' & Hr). cbn [run_path tops].
    set (nodes2 := nodes ++ repeat unseen (N.to_nat n - length nodes)).
    assert (N2 : node_is T S None nodes2) by (intros m Hm; unfold nodes2; rewrite nth_grow; exact (Hn m Hm)).
    assert (L2 : (N.to_nat (n - 1) < length nodes2)%nat) by (unfold nodes2; rewrite app_length, repeat_length; lia).
    set (d := if not then -1 else 1).
    assert (N3 : node_is (touch T [(n, s)]) (bump S n d) (next n) (step1 n s not None nodes)).
    { unfold step1. fold nodes2. clearbody nodes2. rewrite (unseen_parent nodes2 T S None n N2 H1). set (nodes3 := if negb (T n) then _ else nodes2).
      assert (L3 : (N.to_nat (n - 1) < length nodes3)%nat) by (unfold nodes3; destruct (negb (T n)); [rewrite set_length; exact L2|exact L2]).
      assert (E3 : t_sum (nth_node nodes3 (n - 1)) = S n /\ t_not (nth_node nodes3 (n - 1)) = false /\ (t_parent (nth_node nodes3 (n - 1)) = -1 \/ t_parent (nth_node nodes3 (n - 1)) = parent_field n)).
      { unfold nodes3. pose proof (N2 n H1) as M. destruct (T n) eqn:En; cbn [negb].
        - destruct M as (M1 & M2 & M3). auto.
        - rewrite nth_set by exact L2. rewrite N.eqb_refl. cbn. rewrite (HS n En). auto. }
      assert (O3 : forall m, (1 <= m)%N -> m <> n -> nth_node nodes3 (m - 1) = nth_node nodes2 (m - 1)).
      { intros m Hm Hnm. unfold nodes3. destruct (negb (T n)); [|reflexivity]. rewrite nth_set by exact L2. destruct (N.eqb_spec (m - 1) (n - 1)); [lia|reflexivity]. }
      intros m Hm. rewrite nth_set by exact L3. unfold touch, bump. cbn [existsb fst]. rewrite orb_false_r. destruct (N.eqb_spec n m) as [<-|Hnm].
      - rewrite !N.eqb_refl, orb_true_r. cbn [t_sum t_not t_parent]. destruct E3 as (E1 & E2 & E3). split; [rewrite E1; unfold d; destruct not; lia|]. split; [exact E2|].
        unfold next. destruct (N.eqb_spec (n - 1) 0) as [E0|E0]; [|rewrite N.eqb_refl; exact E3]. unfold parent_field in *. destruct (N.eqb_spec n 1); [tauto|lia].
      - destruct (N.eqb_spec (m - 1) (n - 1)); [lia|]. destruct (N.eqb_spec m n); [congruence|]. rewrite orb_false_r, O3 by assumption. pose proof (N2 m Hm) as M.
        destruct (T m); [|exact M]. destruct M as (M1 & M2 & M3). split; [exact M1|]. split; [exact M2|]. destruct (match next n with Some _ => _ | None => _ end); [right; exact M3|exact M3]. }
    clearbody nodes2. unfold next in *. destruct (N.eqb_spec (n - 1) 0) as [E0|E0].
    - assert (r = []) as -> by (apply Hroot; lia). cbn [run_path fst snd]. split; [reflexivity|exact N3].
    - assert (Hrn : r <> []) by (intro E; apply Hroot in E; lia). set (nodes4 := step1 n s not None nodes) in *. clearbody nodes4.
      destruct (run_rest r (n - 1)%N nodes4 (touch T [(n, s)]) (bump S n d) Hr Hrn ltac:(lia)) as [I1 I2].
      + unfold touch. cbn [existsb fst]. replace (n - 1 + 1)%N with n by lia. rewrite N.eqb_refl. rewrite orb_true_r. reflexivity.
      + replace (n - 1 + 1)%N with n by lia. apply Hpar'. lia.
      + intros m Hm. unfold touch in Hm. cbn [existsb fst] in Hm. apply orb_false_iff in Hm as [Hm1 Hm2]. unfold bump. destruct (N.eqb_spec m n) as [->|]; [rewrite N.eqb_refl in Hm2; discriminate|]. apply HS. exact Hm1.
      + exact N3.
      + split; [exact I1|]. eapply node_is_ext; [|reflexivity|exact I2]. intro m. unfold touch. cbn [existsb fst]. rewrite orb_false_r, <- orb_assoc. reflexivity.
  Qed.

  (** All paths of all keys. *)
  Definition occ_ok (o : occ) : Prop := chain (snd o) /\ snd o <> [] /\ Forall step_ok (snd o).
  Definition S_of (P : list occ) (n : N) : Z := base n + total P n.
  Lemma untouched_total P n : Forall occ_ok P -> T_of P n = false -> total P n = 0.
  Proof.
    induction 1 as [|o P (_ & Hne & _) _ IH]; [reflexivity|]. cbn [T_of existsb total]. intro H. apply orb_false_iff in H as [H1 H2]. rewrite (IH H2). destruct (snd o) as [|[m s] r]; [contradiction|]. cbn [tops existsb fst] in *. apply orb_false_iff in H1 as [-> _]. reflexivity.
  Qed.
  Lemma run_occs l : forall P nodes f, Forall occ_ok l -> Forall occ_ok P -> node_is (T_of P) (S_of P) None nodes -> (length (occs_bytes l) <= f)%nat ->
    exists nodes', path_loop f (occs_bytes l) None nodes = Some nodes' /\ node_is (T_of (P ++ l)) (S_of (P ++ l)) None nodes'.
  Proof.
    induction l as [|o l IH]; intros P nodes f Hl HP Hn Hf.
    - exists nodes. rewrite app_nil_r. split; [destruct f; reflexivity|exact Hn].
    - inversion Hl as [|? ? (Hc & Hne & Hs) Hl' E]; subst. cbn [occs_bytes flat_map] in *. fold (occs_bytes l) in *.
      destruct (path_loop_run (snd o) (fst o) None nodes (occs_bytes l) f Hs Hf) as (f' & Hf' & ->).
      destruct (run_whole (snd o) (fst o) nodes (T_of P) (S_of P) Hc Hne) as [R1 R2].
      + intros n Hn0. unfold S_of. rewrite untouched_total by assumption. lia.
      + exact Hn.
      + rewrite R1. destruct (IH (P ++ [o]) (snd (run_path (fst o) (snd o) None nodes)) f' Hl') as (nodes' & I1 & I2).
        * apply Forall_app. split; [exact HP|]. constructor; [split; auto|constructor].
        * eapply node_is_ext; [| |exact R2].
          -- intro n. unfold touch, T_of. rewrite existsb_app. cbn [existsb]. rewrite orb_false_r. reflexivity.
          -- intro n. unfold bump, S_of. rewrite total_app. cbn [total]. fold (delta o). rewrite (N.eqb_sym (tops (snd o)) n). destruct (N.eqb_spec n (tops (snd o))); lia.
        * exact Hf'.
        * exists nodes'. rewrite <- app_assoc in I2. auto.
  Qed.
  (** The keys: [Some l]: the document has the word, [l] being its occurrences in the query. *)
  Definition key_shows (o : option (option datum)) (w : option (list occ)) : Prop :=
    match w with None => o = None | Some l => exists form, o = Some (Some (DVar form (occs_bytes l))) /\ l <> [] /\ Forall occ_ok l end.
  Definition found (w : option (list occ)) : list occ := match w with Some l => l | None => [] end.
  Lemma occs_nonempty l : l <> [] -> Forall occ_ok l -> occs_bytes l <> [].
  Proof.
    destruct l as [|[b [|[n s] u]] l]; [contradiction| |]; intros _ H E; inversion H as [|? ? (_ & Hne & _) HH EE]; subst; [contradiction|].
    cbn [occs_bytes flat_map fst snd pathUp] in E. apply app_eq_nil in E as [E _]. apply app_eq_nil in E as [E _]. exact (encode_nonempty _ E).
  Qed.
  Lemma keys_loop_set form (p : list N) rest af nodes : p <> [] ->
    keys_loop (Some (Some (DVar form p)) :: rest) af nodes = match path_loop (length p) p None nodes with Some nodes' => keys_loop rest false nodes' | None => None end.
  Proof. destruct p; [contradiction|reflexivity]. Qed.
  Lemma run_keys v ws : Forall2 key_shows v ws -> forall P nodes af, Forall occ_ok P -> node_is (T_of P) (S_of P) None nodes ->
    exists nodes', keys_loop v af nodes = Some (false, af && forallb (fun w => match w with Some _ => false | None => true end) ws, nodes') /\
      Forall occ_ok (P ++ flat_map found ws) /\ node_is (T_of (P ++ flat_map found ws)) (S_of (P ++ flat_map found ws)) None nodes'.
  Proof.
    induction 1 as [|o w v ws Ho _ IH]; intros P nodes af HP Hn.
    - exists nodes. cbn. rewrite andb_true_r, app_nil_r. auto.
    - destruct w as [l|]; cbn [key_shows] in Ho.
      + destruct Ho as (form & -> & Hne & Hl). cbn [flat_map found forallb]. rewrite andb_false_r. destruct (run_occs l P nodes (length (occs_bytes l)) Hl HP Hn (Nat.le_refl _)) as (nodes1 & R1 & R2).
        destruct (IH (P ++ l) nodes1 false) as (nodes' & I1 & I2 & I3); [apply Forall_app; auto|exact R2|]. exists nodes'. rewrite <- app_assoc in I2, I3. split; [|auto].
        rewrite keys_loop_set by (apply occs_nonempty; assumption). rewrite R1. exact I1.
      + subst o. cbn [keys_loop flat_map found app forallb andb]. apply IH; assumption.
  Qed.

  (** The loop over the nodes. *)
  Variables (T : N -> bool) (S0 : N -> Z) (E : N -> bool) (nums : list N).
  Hypothesis Hnodup : NoDup nums.
  Hypothesis Hnums : forall n, T n = true -> In n nums.
  Hypothesis Hpos : T 0%N = false.
  Hypothesis Hup : forall n, (1 < n)%N -> T n = true -> T (par n) = true.
  Definition sent (j : N) (n : N) : Z := Z.of_nat (length (filter (fun c => (j <? c)%N && (par c =? n)%N && (1 <? c)%N && T c && E c) nums)).
  Hypothesis HE : forall n, T n = true -> E n = (0 <? S0 n + sent n n).
  Lemma sent_step k n : T (k + 1)%N = true -> sent k n = sent (k + 1) n + (if (par (k + 1) =? n)%N && (1 <? k + 1)%N && E (k + 1)%N then 1 else 0).
  Proof.
    intro HT. pose proof (Hnums (k + 1)%N HT) as Hin. unfold sent. revert Hin Hnodup. clear - HT. induction nums as [|c l IH]; intros Hin Hnd; [destruct Hin|]. apply NoDup_cons_iff in Hnd as [Hc Hnd]. cbn [filter].
    destruct (N.eq_dec c (k + 1)) as [->|Hne].
    - destruct (N.ltb_spec k (k + 1)); [|lia]. destruct (N.ltb_spec (k + 1) (k + 1)); [lia|]. cbn [andb]. rewrite HT.
      assert (Heq : filter (fun c => (k <? c)%N && (par c =? n)%N && (1 <? c)%N && T c && E c) l = filter (fun c => (k + 1 <? c)%N && (par c =? n)%N && (1 <? c)%N && T c && E c) l).
      { apply filter_ext_in. intros c Hin'. assert (c <> k + 1)%N by (intros ->; contradiction). replace (k + 1 <? c)%N with (k <? c)%N; [reflexivity|]. destruct (N.ltb_spec k c), (N.ltb_spec (k + 1) c); lia. }
      rewrite Heq. destruct (par (k + 1) =? n)%N, (1 <? k + 1)%N, (E (k + 1)%N); cbn [andb length]; lia.
    - destruct Hin as [->|Hin]; [contradiction|]. specialize (IH Hin Hnd). replace (k + 1 <? c)%N with (k <? c)%N by (destruct (N.ltb_spec k c), (N.ltb_spec (k + 1) c); lia).
      destruct (_ && _ && _ && _ && _); cbn [length]; lia.
  Qed.
  Lemma sent_none k n : T (k + 1)%N = false -> sent k n = sent (k + 1) n.
  Proof.
    intro HT. unfold sent. do 2 f_equal. apply filter_ext. intro c. destruct (N.eq_dec c (k + 1)) as [->|]; [rewrite HT, !andb_false_r; reflexivity|].
    replace (k + 1 <? c)%N with (k <? c)%N; [reflexivity|]. destruct (N.ltb_spec k c), (N.ltb_spec (k + 1) c); lia.
  Qed.
  Lemma run_nodes j : forall nodes, (j <= length nodes)%nat -> node_is T (fun n => S0 n + sent (N.of_nat j) n) None nodes ->
    nodes_loop j nodes = (0 <? Z.of_nat j) && T 1%N && E 1%N.
  Proof.
    induction j as [|j IH]; intros nodes Hj Hn; [reflexivity|]. cbn [nodes_loop]. set (n := N.of_nat (S j)) in *. replace (N.of_nat j) with (n - 1)%N by lia.
    pose proof (unseen_parent nodes T _ None n Hn ltac:(lia)) as U. rewrite U. pose proof (Hn n ltac:(lia)) as M. rewrite negb_involutive. destruct (T n) eqn:ET.
    - destruct M as (M1 & M2 & M3). rewrite M1, M2, M3. rewrite <- (HE n ET). cbn [andb]. destruct (N.eq_dec n 1) as [E1|E1].
      + assert (j = 0)%nat by lia. subst j. replace n with 1%N in * by lia. rewrite ET. cbn. destruct (E 1%N); reflexivity.
      + assert (Hpn : (1 <= par n < n)%N) by (apply Hpar; lia). pose proof (Hup n ltac:(lia) ET) as HTp.
        replace (parent_field n) with (Z.of_N (par n - 1)) by (unfold parent_field; destruct (N.eqb_spec n 1); lia).
        assert (Hst : forall m, sent (N.of_nat j) m = sent n m + (if (par n =? m)%N && E n then 1 else 0)).
        { intro m. replace n with (N.of_nat j + 1)%N in * by lia. rewrite (sent_step (N.of_nat j) m ET). destruct (N.ltb_spec 1 (N.of_nat j + 1)); [|lia]. rewrite andb_true_r. reflexivity. }
        assert (Hgoal : (0 <? Z.of_nat (S j)) && T 1%N && E 1%N = (0 <? Z.of_nat j) && T 1%N && E 1%N) by (destruct (Z.ltb_spec 0 (Z.of_nat (S j))), (Z.ltb_spec 0 (Z.of_nat j)); try lia; reflexivity).
        rewrite Hgoal. destruct (E n) eqn:EE.
        * destruct (Z.eqb_spec (Z.of_N (par n - 1)) (-1)); [lia|]. rewrite N2Z.id. pose proof (seen_length nodes T _ None (par n) Hn ltac:(lia) HTp) as Lp.
          apply IH; [rewrite set_length by exact Lp; lia|]. intros m Hm. specialize (Hn m Hm). rewrite nth_set by exact Lp. rewrite Hst. destruct (N.eqb_spec (m - 1) (par n - 1)) as [Em|Em].
          -- assert (m = par n) by lia. subst m. rewrite HTp in *. destruct Hn as (Q1 & Q2 & Q3). cbn [t_sum t_not t_parent]. rewrite N.eqb_refl. cbn [andb]. rewrite Q1. split; [lia|]. auto.
          -- destruct (N.eqb_spec (par n) m); [lia|]. cbn [andb]. rewrite Z.add_0_r. exact Hn.
        * apply IH; [lia|]. eapply node_is_ext; [reflexivity| |exact Hn]. intro m. rewrite Hst, andb_false_r. lia.
    - cbn [andb]. rewrite IH.
      + destruct (N.eq_dec n 1) as [E1|E1]; [replace 1%N with n by lia; rewrite ET, !andb_false_r; reflexivity|]. destruct (Z.ltb_spec 0 (Z.of_nat (S j))), (Z.ltb_spec 0 (Z.of_nat j)); try lia; reflexivity.
      + lia.
      + eapply node_is_ext; [reflexivity| |exact Hn]. intro m. cbv beta. replace n with (N.of_nat j + 1)%N in * by lia. rewrite (sent_none (N.of_nat j) m ET). reflexivity.
  Qed.
  Lemma sent_most k n : (forall c, T c = true -> (c <= k)%N) -> sent k n = 0.
  Proof.
    clear Hnodup Hnums Hpos Hup HE Hpar. intro H. unfold sent. rewrite (proj2 (filter_none_nil _ _)); [reflexivity|]. intros c _. destruct (T c) eqn:ET; [|rewrite andb_false_r; reflexivity]. specialize (H c ET). destruct (N.ltb_spec k c); [lia|reflexivity].
  Qed.
End Forest.
