(** Proofs about covers and scores (C43). *)
From Verif Require Import Base Ord Codec PosCodec Tsq TsqSpec TsRank TsRankSpec.
From Coq Require Import QArith Qfield Lqa NArith ZArith Lia Bool List Permutation Sorted Arith.
Import ListNotations.
Local Open Scope Z_scope.

(** ** Executing a query *)
Fixpoint evalb (skip : bool) (P : nat -> bool) (i : nat) (q : tsq) : bool :=
  match q with
  | QVal _ => P i
  | QNot a => if skip then true else negb (evalb skip P (S i) a)
  | QAnd l r => evalb skip P (S i + qsize r) l && evalb skip P (S i) r
  | QOr l r => evalb skip P (S i + qsize r) l || evalb skip P (S i) r
  | QPhrase _ _ _ => false
  end%nat.
Definition isSome {A} (o : option A) : bool := match o with Some _ => true | None => false end.
Lemma pg_execute_spec slot ops skip q : no_phrase q -> forall i,
  pg_execute (checkcondition_QueryOperand slot ops) skip i q = if evalb skip (fun i => isSome (ops (slot i))) i q then TYes else TNo.
Proof.
  induction q as [o|a IH|l IHl r IHr|l IHl r IHr|n l IHl r IHr]; cbn [no_phrase pg_execute evalb]; intros H i.
  - unfold checkcondition_QueryOperand. destruct (ops (slot i)); reflexivity.
  - destruct skip; [reflexivity|]. rewrite (IH H). destruct (evalb _ _ _ a); reflexivity.
  - destruct H as [Hl Hr]. rewrite (IHl Hl), (IHr Hr). destruct (evalb _ _ _ l), (evalb _ _ _ r); reflexivity.
  - destruct H as [Hl Hr]. rewrite (IHl Hl), (IHr Hr). destruct (evalb _ _ _ l), (evalb _ _ _ r); reflexivity.
  - destruct H.
Qed.
Lemma execute_spec slot q skip ops : no_phrase q -> execute slot q skip ops = evalb skip (fun i => isSome (ops (slot i))) 0 q.
Proof. intro H. unfold execute. rewrite (pg_execute_spec slot ops skip q H). destruct (evalb _ _ _ _); reflexivity. Qed.
Lemma evalb_said (P : nat -> bool) (P' : nat -> Prop) q : no_phrase q -> (forall i, P i = true <-> P' i) -> forall i, evalb false P i q = true <-> items_said P' i q.
Proof.
  intros Hq HP. induction q as [o|a IH|l IHl r IHr|l IHl r IHr|n l IHl r IHr]; cbn [no_phrase evalb items_said] in *; intro i.
  - apply HP.
  - rewrite negb_true_iff, <- (IH Hq). destruct (evalb _ _ _ a); split; intro H; try discriminate; try reflexivity; try (exfalso; apply H; reflexivity); intro; discriminate.
  - rewrite andb_true_iff, (IHl (proj1 Hq)), (IHr (proj2 Hq)). reflexivity.
  - rewrite orb_true_iff, (IHl (proj1 Hq)), (IHr (proj2 Hq)). reflexivity.
  - destruct Hq.
Qed.
Lemma evalb_mono P P' q : (forall i, P i = true -> P' i = true) -> forall i, evalb true P i q = true -> evalb true P' i q = true.
Proof.
  intro H. induction q as [o|a IH|l IHl r IHr|l IHl r IHr|n l IHl r IHr]; cbn [evalb]; intros i E; auto.
  - apply andb_true_iff in E as [E1 E2]. rewrite (IHl _ E1), (IHr _ E2). reflexivity.
  - apply orb_true_iff in E as [E|E]; apply orb_true_iff; auto.
Qed.
Lemma evalb_ext skip P P' q : (forall i, P i = P' i) -> forall i, evalb skip P i q = evalb skip P' i q.
Proof. intro H. induction q as [o|a IH|l IHl r IHr|l IHl r IHr|n l IHl r IHr]; cbn [evalb]; intro i; rewrite ?H, ?IH, ?IHl, ?IHr; reflexivity. Qed.
Lemma evalb_skip P q : forall i, evalb false P i q = true -> evalb true P i q = true.
Proof.
  induction q as [o|a IH|l IHl r IHr|l IHl r IHr|n l IHl r IHr]; cbn [evalb]; intros i E; auto.
  - apply andb_true_iff in E as [E1 E2]. rewrite (IHl _ E1), (IHr _ E2). reflexivity.
  - apply orb_true_iff in E as [E|E]; apply orb_true_iff; auto.
Qed.

(** ** Marks *)
Lemma existsb_eqb j l : existsb (Nat.eqb j) l = true <-> In j l.
Proof. rewrite existsb_exists. split; [intros (x & H & E); apply Nat.eqb_eq in E; subst; exact H|intro H; exists j; split; [exact H|apply Nat.eqb_refl]]. Qed.
Lemma markUp_isSome x ops j : isSome (markUp x ops j) = existsb (Nat.eqb j) (d_ops x) || isSome (ops j).
Proof. unfold markUp. destruct (existsb _ _); reflexivity. Qed.
Lemma markDown_isSome keyed x ops j : isSome (markDown keyed x ops j) = existsb (Nat.eqb j) (d_ops x) || isSome (ops j).
Proof. unfold markDown. destruct (existsb _ _); reflexivity. Qed.

Lemma ne_skipn {A} n : forall (l : list A) k, nth_error (skipn n l) k = nth_error l (n + k).
Proof. induction n as [|n IH]; intros [|x l] k; cbn; auto. destruct k; reflexivity. Qed.
Lemma ne_firstn {A} n : forall (l : list A) k, (k < n)%nat -> nth_error (firstn n l) k = nth_error l k.
Proof. induction n as [|n IH]; intros [|x l] [|k] H; cbn; auto; try lia. apply IH. lia. Qed.
Lemma skipn_plus {A} a : forall b (l : list A), skipn b (skipn a l) = skipn (a + b) l.
Proof. induction a as [|a IH]; intros b [|x l]; cbn; auto. destruct b; reflexivity. Qed.

Section Cover.
  Variables (keyed : bool) (slot : nat -> nat) (q : tsq) (Hq : no_phrase q).
  Definition marked (l : list docr) (j : nat) : bool := existsb (fun x => existsb (Nat.eqb j) (d_ops x)) l.
  Definition runs (skip : bool) (l : list docr) : bool := evalb skip (fun i => marked l (slot i)) 0 q.
  Lemma runs_app skip ops l : (forall j, isSome (ops j) = marked l j) -> execute slot q skip ops = runs skip l.
  Proof. intro H. rewrite (execute_spec _ _ _ _ Hq). apply evalb_ext. intro i. apply H. Qed.
  Lemma marked_perm l l' j : Permutation l l' -> marked l j = marked l' j.
  Proof.
    intro P. apply eq_true_iff_eq. unfold marked. rewrite !existsb_exists. split; intros (x & H & E); exists x; (split; [|exact E]); [eapply Permutation_in; [exact P|exact H]|eapply Permutation_in; [apply Permutation_sym; exact P|exact H]].
  Qed.
  Lemma marked_app l l' j : marked (l ++ l') j = marked l j || marked l' j.
  Proof. apply existsb_app. Qed.

  (** The upward scan finds the shortest prefix (after [done]) of which the query holds. *)
  Lemma upscan_spec rest : forall done ops k, (forall j, isSome (ops j) = marked done j) ->
    match upscan slot q k ops rest with
    | Some last => exists n, last = (k + n)%nat /\ (n < length rest)%nat /\ runs true (done ++ firstn (S n) rest) = true /\ forall m, (m < n)%nat -> runs true (done ++ firstn (S m) rest) = false
    | None => forall m, (m < length rest)%nat -> runs true (done ++ firstn (S m) rest) = false
    end.
  Proof.
    induction rest as [|x rest IH]; intros done ops k Ho; cbn [upscan]; [intros m Hm; cbn in Hm; lia|].
    assert (Ho' : forall j, isSome (markUp x ops j) = marked (done ++ [x]) j).
    { intro j. rewrite markUp_isSome, marked_app, Ho. cbn. rewrite orb_false_r. apply orb_comm. }
    rewrite (runs_app true _ (done ++ [x]) Ho'). destruct (runs true (done ++ [x])) eqn:E.
    - exists 0%nat. rewrite Nat.add_0_r. split; [reflexivity|]. split; [cbn; lia|]. split; [exact E|]. intros m Hm. lia.
    - specialize (IH (done ++ [x]) (markUp x ops) (S k) Ho'). destruct (upscan _ _ _ _ rest) as [last|].
      + destruct IH as (n & -> & Hn & H1 & H2). exists (S n). split; [lia|]. split; [cbn; lia|]. split; [rewrite <- app_assoc in H1; exact H1|].
        intros [|m] Hm; [exact E|]. specialize (H2 m ltac:(lia)). rewrite <- app_assoc in H2. exact H2.
      + intros [|m] Hm; [exact E|]. cbn in Hm. specialize (IH m ltac:(lia)). rewrite <- app_assoc in IH. exact IH.
  Qed.
  Lemma downscan_spec down : forall done ops k, (forall j, isSome (ops j) = marked done j) ->
    match downscan keyed slot q k ops down with
    | Some (b, ops') => exists n, b = (k - n)%nat /\ (n < length down)%nat /\ runs false (done ++ firstn (S n) down) = true /\ (forall m, (m < n)%nat -> runs false (done ++ firstn (S m) down) = false) /\
        forall j, isSome (ops' j) = marked (done ++ firstn (S n) down) j
    | None => forall m, (m < length down)%nat -> runs false (done ++ firstn (S m) down) = false
    end.
  Proof.
    induction down as [|x down IH]; intros done ops k Ho; cbn [downscan]; [intros m Hm; cbn in Hm; lia|].
    assert (Ho' : forall j, isSome (markDown keyed x ops j) = marked (done ++ [x]) j).
    { intro j. rewrite markDown_isSome, marked_app, Ho. cbn. rewrite orb_false_r. apply orb_comm. }
    rewrite (runs_app false _ (done ++ [x]) Ho'). destruct (runs false (done ++ [x])) eqn:E.
    - exists 0%nat. split; [lia|]. split; [cbn; lia|]. split; [exact E|]. split; [intros m Hm; lia|exact Ho'].
    - specialize (IH (done ++ [x]) (markDown keyed x ops) (pred k) Ho'). destruct (downscan _ _ _ _ _ down) as [[b ops']|].
      + destruct IH as (n & -> & Hn & H1 & H2 & H3). exists (S n). split; [lia|]. split; [cbn; lia|]. rewrite <- app_assoc in H1. split; [exact H1|]. split.
        * intros [|m] Hm; [exact E|]. specialize (H2 m ltac:(lia)). rewrite <- app_assoc in H2. exact H2.
        * intro j. rewrite H3, <- app_assoc. reflexivity.
      + intros [|m] Hm; [exact E|]. cbn in Hm. specialize (IH m ltac:(lia)). rewrite <- app_assoc in IH. exact IH.
  Qed.

  Variable doc : list docr.
  Definition win (b e : nat) : list docr := firstn (S e - b) (skipn b doc).
  Lemma win_nth b e x : In x (win b e) <-> exists k, (b <= k <= e)%nat /\ nth_error doc k = Some x.
  Proof.
    unfold win. split.
    - intro H. apply In_nth_error in H as (n & H). assert (n < S e - b)%nat.
      { assert (nth_error (firstn (S e - b) (skipn b doc)) n <> None) as Hn by congruence. apply nth_error_Some in Hn. rewrite firstn_length in Hn. lia. }
      rewrite ne_firstn in H by assumption. rewrite ne_skipn in H. exists (b + n)%nat. split; [lia|exact H].
    - intros (k & Hk & H). apply (nth_error_In _ (k - b)). rewrite ne_firstn by lia. rewrite ne_skipn. replace (b + (k - b))%nat with k by lia. exact H.
  Qed.
  Lemma win_marked b e j : marked (win b e) j = true <-> in_window doc b e j.
  Proof.
    unfold marked, in_window. rewrite existsb_exists. split.
    - intros (x & Hx & E). apply win_nth in Hx as (k & Hk & Hx). apply existsb_eqb in E. exists k, x. auto.
    - intros (k & x & Hk & Hx & E). exists x. split; [apply win_nth; exists k; auto|apply existsb_eqb; exact E].
  Qed.
  Lemma win_holds b e : runs false (win b e) = true <-> window_holds slot q doc b e.
  Proof. unfold runs, window_holds. apply evalb_said; [exact Hq|]. intro i. apply win_marked. Qed.
  Lemma win_mono b e b' e' : (b <= b')%nat -> (e' <= e)%nat -> runs true (win b' e') = true -> runs true (win b e) = true.
  Proof.
    intros H1 H2. unfold runs. apply evalb_mono. intro i. rewrite !win_marked. intros (k & x & Hk & Hx & Hj). exists k, x. split; [lia|auto].
  Qed.
  Lemma win_up pos n : firstn (S n) (skipn pos doc) = win pos (pos + n).
  Proof. unfold win. f_equal. lia. Qed.
  Lemma win_down pos n m : (m <= n)%nat -> (pos + n < length doc)%nat -> firstn (S m) (rev (win pos (pos + n))) = rev (win (pos + n - m) (pos + n)).
  Proof.
    intros H1 H2. rewrite firstn_rev. f_equal. unfold win. rewrite skipn_firstn_comm, skipn_plus, firstn_length, skipn_length. f_equal; [lia|]. f_equal. lia.
  Qed.
  Lemma runs_rev skip l : runs skip (rev l) = runs skip l.
  Proof. unfold runs. apply evalb_ext. intro i. apply marked_perm. apply Permutation_sym, Permutation_rev. Qed.

  (** Occurrences are sorted and have positions. *)
  Variable (Hs : StronglySorted (fun x y => d_pos x <= d_pos y) doc) (Hp : Forall (fun x => 1 <= d_pos x) doc).
  Lemma sorted_nth (l : list docr) : StronglySorted (fun x y => d_pos x <= d_pos y) l -> forall i j x y, (i <= j)%nat -> nth_error l i = Some x -> nth_error l j = Some y -> d_pos x <= d_pos y.
  Proof.
    induction 1 as [|a l H IH Hf]; intros i j x y Hij Hx Hy; [destruct i; discriminate|]. rewrite Forall_forall in Hf. destruct i as [|i]; destruct j as [|j]; cbn in Hx, Hy; try lia.
    - injection Hx as <-. injection Hy as <-. lia.
    - injection Hx as <-. apply Hf. exact (nth_error_In _ _ Hy).
    - apply (IH i j x y); auto. lia.
  Qed.
  Definition at_ (k : nat) : Z := d_pos (nth k doc (mkDocr [] 0 0 0)).
  Lemma at_rest pos k : (pos <= k)%nat -> d_pos (nth (k - pos) (skipn pos doc) (mkDocr [] 0 0 0)) = at_ k.
  Proof.
    intro H. unfold at_. f_equal. rewrite <- (firstn_skipn pos doc) at 2. destruct (Nat.le_gt_cases (length doc) pos) as [Hl|Hl].
    - rewrite (skipn_all2 doc) by lia. rewrite app_nil_r, firstn_all2 by lia. rewrite !nth_overflow; [reflexivity|lia|cbn; lia].
    - rewrite app_nth2; rewrite firstn_length; [f_equal; lia|lia].
  Qed.
  Definition agree : Prop := forall b e, runs true (win b e) = true -> runs false (win b e) = true.
  Definition cover_ok (c : cover) : Prop :=
    (c_begin c <= c_end c < length doc)%nat /\ runs false (win (c_begin c) (c_end c)) = true /\
    (forall b', (c_begin c < b' <= c_end c)%nat -> runs false (win b' (c_end c)) = false) /\
    c_p c = at_ (c_begin c) /\ c_q c = at_ (c_end c) /\ forall j, isSome (c_ops c j) = marked (win (c_begin c) (c_end c)) j.
  Lemma at_bounds i j : (i <= j < length doc)%nat -> 1 <= at_ i <= at_ j.
  Proof.
    intro H. unfold at_. destruct (nth_error doc i) as [x|] eqn:Ex; [|apply nth_error_None in Ex; lia]. destruct (nth_error doc j) as [y|] eqn:Ey; [|apply nth_error_None in Ey; lia].
    rewrite (nth_error_nth _ _ _ Ex), (nth_error_nth _ _ _ Ey). split; [rewrite Forall_forall in Hp; apply Hp; exact (nth_error_In _ _ Ex)|]. apply (sorted_nth doc Hs i j); auto. lia.
  Qed.
  Lemma Cover_spec rest : forall pos, rest = skipn pos doc ->
    match Cover keyed slot q pos rest with
    | Some c => (pos <= c_begin c)%nat /\ cover_ok c /\ (agree ->
        (forall e', (c_begin c <= e' < c_end c)%nat -> runs true (win (c_begin c) e') = false) /\
        forall b e, (pos <= b <= e)%nat -> (e < length doc)%nat -> runs true (win b e) = true -> (c_end c <= e)%nat /\ ((b <= c_begin c)%nat \/ (c_end c < e)%nat))
    | None => agree -> forall b e, (pos <= b <= e)%nat -> (e < length doc)%nat -> runs true (win b e) = false
    end.
  Proof.
    induction rest as [|x rest IH]; intros pos Er.
    - cbn [Cover]. intros _ b e Hbe He. assert (length (skipn pos doc) = 0)%nat by (rewrite <- Er; reflexivity). rewrite skipn_length in H. lia.
    - cbn [Cover]. pose proof (upscan_spec (x :: rest) [] no_ops pos (fun _ => eq_refl)) as Hup.
      assert (Hlen : length (x :: rest) = (length doc - pos)%nat) by (rewrite Er, skipn_length; reflexivity).
      assert (Er' : rest = skipn (S pos) doc) by (replace (S pos) with (pos + 1)%nat by lia; rewrite <- skipn_plus, <- Er; reflexivity).
      destruct (upscan slot q pos no_ops (x :: rest)) as [last|].
      + destruct Hup as (n & -> & Hn & H1 & H2). cbn [app] in H1, H2. rewrite Er, at_rest by lia.
        assert (Hlt : (pos + n < length doc)%nat) by (rewrite Hlen in Hn; lia).
        destruct (at_bounds (pos + n) (pos + n)) as [Hpos _]; [lia|]. destruct (Z.leb_spec (at_ (pos + n)) 0) as [Hc|_]; [lia|].
        replace (pos + n - pos)%nat with n by lia. rewrite win_up. rewrite Er, win_up in H1.
        assert (H2' : forall m, (m < n)%nat -> runs true (win pos (pos + m)) = false) by (intros m Hm; rewrite <- win_up, <- Er; apply H2; exact Hm).
        pose proof (downscan_spec (rev (win pos (pos + n))) [] no_ops (pos + n) (fun _ => eq_refl)) as Hd.
        assert (Hwl : length (rev (win pos (pos + n))) = S n) by (rewrite rev_length; unfold win; rewrite firstn_length, skipn_length; lia). rewrite Hwl in Hd.
        destruct (downscan keyed slot q (pos + n) no_ops _) as [[b ops]|].
        * destruct Hd as (m & -> & Hm & D1 & D2 & D3). cbn [app] in D1, D2, D3. rewrite win_down, runs_rev in D1 by lia. rewrite at_rest by lia.
          destruct (at_bounds (pos + n - m) (pos + n)) as [_ Hle]; [lia|]. destruct (Z.leb_spec (at_ (pos + n - m)) (at_ (pos + n))) as [_|Hc]; [|lia].
          cbn [c_begin c_end]. split; [lia|]. split.
          -- split; cbn [c_begin c_end c_p c_q c_ops]; [lia|]. split; [exact D1|]. split; [|split; [reflexivity|split; [reflexivity|]]].
             ++ intros b' Hb'. specialize (D2 (pos + n - b')%nat ltac:(lia)). rewrite win_down, runs_rev in D2 by lia. replace (pos + n - (pos + n - b'))%nat with b' in D2 by lia. exact D2.
             ++ intro j. rewrite D3, win_down by lia. apply marked_perm. apply Permutation_sym, Permutation_rev.
          -- intro Ha. split.
             ++ intros e' He'. destruct (runs true (win (pos + n - m) e')) eqn:E; [|reflexivity]. exfalso. specialize (H2' (e' - pos)%nat ltac:(lia)). replace (pos + (e' - pos))%nat with e' in H2' by lia.
                rewrite (win_mono pos e' (pos + n - m) e') in H2' by (auto; lia). discriminate.
             ++ intros b e Hbe He Hr. assert (He' : (pos + n <= e)%nat).
                { destruct (Nat.le_gt_cases (pos + n) e) as [H|H]; [exact H|]. exfalso. specialize (H2' (e - pos)%nat ltac:(lia)). replace (pos + (e - pos))%nat with e in H2' by lia. rewrite (win_mono pos e b e) in H2' by (auto; lia). discriminate. }
                split; [exact He'|]. destruct (Nat.le_gt_cases b (pos + n - m)) as [H|H]; [left; exact H|]. right. destruct (Nat.le_gt_cases e (pos + n)) as [H'|H']; [|exact H'].
                exfalso. assert (e = pos + n)%nat by lia. subst e. specialize (D2 (pos + n - b)%nat ltac:(lia)). rewrite win_down, runs_rev in D2 by lia. replace (pos + n - (pos + n - b))%nat with b in D2 by lia. rewrite (Ha _ _ Hr) in D2. discriminate.
        * specialize (IH (S pos) Er'). assert (Hno : agree -> False).
          { intro Ha. specialize (Hd n ltac:(lia)). cbn [app] in Hd. rewrite win_down, runs_rev in Hd by lia. replace (pos + n - n)%nat with pos in Hd by lia. rewrite (Ha _ _ H1) in Hd. discriminate. }
          destruct (Cover keyed slot q (S pos) rest) as [c|].
          -- destruct IH as (I1 & I2 & I3). split; [lia|]. split; [exact I2|]. intro Ha. destruct (Hno Ha).
          -- intro Ha. destruct (Hno Ha).
      + intros _ b e Hbe He. destruct (runs true (win b e)) eqn:E; [|reflexivity]. exfalso. specialize (Hup (e - pos)%nat ltac:(rewrite Hlen; lia)). cbn [app] in Hup. rewrite Er, win_up in Hup. replace (pos + (e - pos))%nat with e in Hup by lia.
        rewrite (win_mono pos e b e) in Hup by (auto; lia). discriminate.
  Qed.
  Lemma loop_ok fuel : forall pos c, In c (coverLoop keyed slot q fuel pos doc) -> (pos <= c_begin c)%nat /\ cover_ok c.
  Proof.
    induction fuel as [|f IH]; intros pos c H; cbn [coverLoop] in H; [destruct H|]. pose proof (Cover_spec _ pos eq_refl) as Hc. destruct (Cover keyed slot q pos (skipn pos doc)) as [c0|]; [|destruct H].
    destruct Hc as (H1 & H2 & _). destruct H as [<-|H]; [auto|]. apply IH in H as [H3 H4]. split; [lia|exact H4].
  Qed.
  Lemma loop_sorted fuel : forall pos, StronglySorted (fun c c' => (c_begin c < c_begin c')%nat) (coverLoop keyed slot q fuel pos doc).
  Proof.
    induction fuel as [|f IH]; intro pos; cbn [coverLoop]; [constructor|]. destruct (Cover keyed slot q pos (skipn pos doc)) as [c|]; [|constructor]. constructor; [apply IH|]. rewrite Forall_forall. intros c' H. apply loop_ok in H. lia.
  Qed.
  (** The fuel is enough: after the last cover there is none. *)
  Lemma loop_end fuel : forall pos, (length doc < fuel + pos)%nat -> coverLoop keyed slot q (S fuel) pos doc = coverLoop keyed slot q fuel pos doc.
  Proof.
    induction fuel as [|f IH]; intros pos H.
    - cbn [coverLoop]. rewrite skipn_all2 by lia. reflexivity.
    - change (coverLoop keyed slot q (S (S f)) pos doc) with (match Cover keyed slot q pos (skipn pos doc) with None => [] | Some c => c :: coverLoop keyed slot q (S f) (S (c_begin c)) doc end).
      change (coverLoop keyed slot q (S f) pos doc) with (match Cover keyed slot q pos (skipn pos doc) with None => [] | Some c => c :: coverLoop keyed slot q f (S (c_begin c)) doc end) at 1.
      pose proof (Cover_spec _ pos eq_refl) as Hc. destruct (Cover keyed slot q pos (skipn pos doc)) as [c|]; [|reflexivity]. f_equal. apply IH. lia.
  Qed.
  Lemma loop_complete fuel : agree -> forall pos b e, (length doc < fuel + pos)%nat -> (pos <= b <= e)%nat -> (e < length doc)%nat -> runs true (win b e) = true ->
    (forall b' e', (b <= b')%nat -> (e' <= e)%nat -> (b' <= e')%nat -> (b' <> b \/ e' <> e) -> runs true (win b' e') = false) ->
    exists c, In c (coverLoop keyed slot q fuel pos doc) /\ span c = (b, e).
  Proof.
    intro Ha. induction fuel as [|f IH]; intros pos b e Hf Hbe He Hr Hmin; [lia|]. cbn [coverLoop]. pose proof (Cover_spec _ pos eq_refl) as Hc. destruct (Cover keyed slot q pos (skipn pos doc)) as [c|].
    - destruct Hc as (H1 & H2 & H3). destruct (H3 Ha) as [H4 H5]. destruct (H5 b e Hbe He Hr) as [H6 H7]. destruct H2 as (L & R & _).
      destruct (Nat.le_gt_cases b (c_begin c)) as [Hb|Hb].
      + exists c. split; [left; reflexivity|]. unfold span. destruct (Nat.eq_dec (c_begin c) b) as [<-|Hn]; [destruct (Nat.eq_dec (c_end c) e) as [<-|Hn]; [reflexivity|]|].
        * exfalso. specialize (Hmin (c_begin c) (c_end c) ltac:(lia) ltac:(lia) ltac:(lia) ltac:(auto)). unfold runs in Hmin. rewrite (evalb_skip _ _ _ R) in Hmin. discriminate.
        * exfalso. specialize (Hmin (c_begin c) (c_end c) ltac:(lia) ltac:(lia) ltac:(lia) ltac:(auto)). unfold runs in Hmin. rewrite (evalb_skip _ _ _ R) in Hmin. discriminate.
      + destruct (IH (S (c_begin c)) b e) as (c' & Hc' & Es); auto; try lia. exists c'. split; [right; exact Hc'|exact Es].
    - rewrite (Hc Ha b e Hbe He) in Hr. discriminate.
  Qed.
End Cover.

(** ** The covers are the minimal windows *)
Section Minimal.
  Variables (keyed : bool) (slot : nat -> nat) (q : tsq) (Hq : no_phrase q) (doc : list docr).
  Variable (Hs : StronglySorted (fun x y => d_pos x <= d_pos y) doc) (Hp : Forall (fun x => 1 <= d_pos x) doc).
  Lemma loop_prefix fuel : agree slot q doc -> forall pos c, In c (coverLoop keyed slot q fuel pos doc) -> forall e', (c_begin c <= e' < c_end c)%nat -> runs slot q true (win doc (c_begin c) e') = false.
  Proof.
    intro Ha. induction fuel as [|f IH]; intros pos c H; cbn [coverLoop] in H; [destruct H|]. pose proof (Cover_spec keyed slot q Hq doc Hs Hp _ pos eq_refl) as Hc. destruct (Cover keyed slot q pos (skipn pos doc)) as [c0|]; [|destruct H].
    destruct Hc as (_ & _ & H3). destruct (H3 Ha) as [H4 _]. destruct H as [<-|H]; [exact H4|]. exact (IH _ _ H).
  Qed.
  Lemma holds_runs b e : agree slot q doc -> (window_holds slot q doc b e <-> runs slot q true (win doc b e) = true).
  Proof. intro Ha. rewrite <- (win_holds slot q Hq). split; [apply evalb_skip|apply Ha]. Qed.
  Lemma covers_minimal : agree slot q doc -> forall b e, In (b, e) (map span (covers keyed slot q doc)) <-> minimal_window slot q doc b e.
  Proof.
    intros Ha b e. split.
    - intro H. apply in_map_iff in H as (c & Es & H). injection Es as <- <-. pose proof (loop_prefix _ Ha _ _ H) as Hpre. apply (loop_ok keyed slot q Hq doc Hs Hp) in H as (_ & L & R & M & _).
      split; [exact L|]. split; [apply (win_holds slot q Hq); exact R|]. intros b' e' H1 H2 H3 Hn Hh. apply (win_holds slot q Hq) in Hh.
      destruct (Nat.eq_dec e' (c_end c)) as [->|He'].
      + rewrite (M b') in Hh by (destruct Hn; lia). discriminate.
      + assert (runs slot q true (win doc (c_begin c) e') = true) as Hr by (apply (win_mono slot q doc (c_begin c) e' b' e'); [lia|lia|apply evalb_skip; exact Hh]). rewrite (Hpre e') in Hr by lia. discriminate.
    - intros (L & H & M). apply (holds_runs b e Ha) in H. destruct (loop_complete keyed slot q Hq doc Hs Hp (S (length doc)) Ha 0 b e) as (c & Hc & Es); auto; try lia.
      + intros b' e' H1 H2 H3 Hn. destruct (runs slot q true (win doc b' e')) eqn:E; [|reflexivity]. exfalso. apply (M b' e'); auto. apply (holds_runs b' e' Ha). exact E.
      + apply in_map_iff. exists c. auto.
  Qed.
  Lemma covers_some : agree slot q doc -> (covers keyed slot q doc <> [] <-> exists b e, (b <= e < length doc)%nat /\ window_holds slot q doc b e).
  Proof.
    intro Ha. split.
    - intro H. destruct (covers keyed slot q doc) as [|c l] eqn:E; [destruct (H eq_refl)|]. exists (c_begin c), (c_end c). assert (Hc : In (c_begin c, c_end c) (map span (covers keyed slot q doc))) by (rewrite E; left; reflexivity).
      apply (covers_minimal Ha) in Hc as (H1 & H2 & _). auto.
    - intros (b & e & Hbe & H) E. unfold covers in E. cbn [coverLoop] in E. pose proof (Cover_spec keyed slot q Hq doc Hs Hp _ 0%nat eq_refl) as Hc. destruct (Cover keyed slot q 0 (skipn 0 doc)) as [c|]; [discriminate|].
      apply (holds_runs b e Ha) in H. rewrite (Hc Ha b e) in H by lia. discriminate.
  Qed.
End Minimal.

(** When the query needs no NOT to be evaluated. *)
Fixpoint all_off (P : nat -> bool) (i : nat) (q : tsq) : Prop :=
  match q with
  | QVal _ => P i = false
  | QNot a => all_off P (S i) a
  | QAnd l r | QOr l r | QPhrase _ l r => all_off P (S i + qsize r) l /\ all_off P (S i) r
  end%nat.
Fixpoint neg_off (P : nat -> bool) (i : nat) (q : tsq) : Prop :=
  match q with
  | QVal _ => True
  | QNot a => no_not a /\ all_off P (S i) a
  | QAnd l r | QOr l r | QPhrase _ l r => neg_off P (S i + qsize r) l /\ neg_off P (S i) r
  end%nat.
Lemma all_off_false P q : no_not q -> forall i, all_off P i q -> evalb false P i q = false.
Proof.
  induction q as [o|a IH|l IHl r IHr|l IHl r IHr|n l IHl r IHr]; cbn; intros Hn i H; auto; try contradiction.
  - rewrite (IHl (proj1 Hn) _ (proj1 H)). reflexivity.
  - rewrite (IHl (proj1 Hn) _ (proj1 H)), (IHr (proj2 Hn) _ (proj2 H)). reflexivity.
Qed.
Lemma neg_off_agree P q : forall i, neg_off P i q -> evalb true P i q = true -> evalb false P i q = true.
Proof.
  induction q as [o|a IH|l IHl r IHr|l IHl r IHr|n l IHl r IHr]; cbn [neg_off evalb]; intros i H E; auto.
  - destruct H as [H1 H2]. rewrite (all_off_false P a H1 _ H2). reflexivity.
  - apply andb_true_iff in E as [E1 E2]. rewrite (IHl _ (proj1 H) E1), (IHr _ (proj2 H) E2). reflexivity.
  - apply orb_true_iff in E as [E|E]; apply orb_true_iff; [left; exact (IHl _ (proj1 H) E)|right; exact (IHr _ (proj2 H) E)].
Qed.
Lemma all_off_mono P P' q : (forall i, P' i = true -> P i = true) -> forall i, all_off P i q -> all_off P' i q.
Proof.
  intro Hm. induction q as [o|a IH|l IHl r IHr|l IHl r IHr|n l IHl r IHr]; cbn [all_off]; intros i H; auto.
  - destruct (P' i) eqn:E; [|reflexivity]. apply Hm in E. congruence.
  - split; [apply IHl|apply IHr]; tauto.
  - split; [apply IHl|apply IHr]; tauto.
  - split; [apply IHl|apply IHr]; tauto.
Qed.
Lemma neg_off_mono P P' q : (forall i, P' i = true -> P i = true) -> forall i, neg_off P i q -> neg_off P' i q.
Proof.
  intro Hm. induction q as [o|a IH|l IHl r IHr|l IHl r IHr|n l IHl r IHr]; cbn [neg_off]; intros i H; auto.
  - split; [apply H|]. apply (all_off_mono P P'); [exact Hm|apply H].
  - split; [apply IHl|apply IHr]; tauto.
  - split; [apply IHl|apply IHr]; tauto.
  - split; [apply IHl|apply IHr]; tauto.
Qed.
Lemma neg_off_windows slot q doc : neg_off (fun i => marked doc (slot i)) 0 q -> agree slot q doc.
Proof.
  intros H b e E. unfold runs in *. apply neg_off_agree; [|exact E]. apply (neg_off_mono (fun i => marked doc (slot i))); [|exact H].
  intro i. unfold marked. rewrite !existsb_exists. intros (x & Hx & Hj). exists x. split; [|exact Hj]. apply (win_nth slot) in Hx as (k & _ & Hk). exact (nth_error_In _ _ Hk).
Qed.
Lemma no_not_off P q : no_not q -> forall i, neg_off P i q.
Proof. induction q as [o|a IH|l IHl r IHr|l IHl r IHr|n l IHl r IHr]; cbn; intros H i; tauto || (split; [apply IHl|apply IHr]; tauto). Qed.

(** ** Scores *)
Lemma upscan_range slot q rest : forall k ops last, upscan slot q k ops rest = Some last -> (k <= last < k + length rest)%nat.
Proof.
  induction rest as [|x r IH]; intros k ops last H; cbn [upscan] in H; [discriminate|]. destruct (execute _ _ _ _); [injection H as <-; cbn; lia|]. apply IH in H. cbn. lia.
Qed.
Lemma downscan_range keyed slot q down : forall k ops b ops', downscan keyed slot q k ops down = Some (b, ops') -> (b <= k /\ k - b < length down)%nat.
Proof.
  induction down as [|x r IH]; intros k ops b ops' H; cbn [downscan] in H; [discriminate|]. destruct (execute _ _ _ _); [injection H as <- _; cbn; lia|]. apply IH in H. cbn. lia.
Qed.
Lemma Cover_range keyed slot q rest : forall pos c, Cover keyed slot q pos rest = Some c -> (pos <= c_begin c < pos + length rest)%nat.
Proof.
  induction rest as [|x rest IH]; intros pos c H; cbn [Cover] in H; [discriminate|].
  assert (Hrec : Cover keyed slot q (S pos) rest = Some c -> (pos <= c_begin c < pos + length (x :: rest))%nat) by (intro E; apply IH in E; cbn; lia).
  destruct (upscan slot q pos no_ops (x :: rest)) as [last|] eqn:Eu; [|discriminate]. apply upscan_range in Eu. destruct (_ <=? 0); [discriminate|].
  destruct (downscan _ _ _ _ _ _) as [[b ops]|] eqn:Ed; [|exact (Hrec H)]. apply downscan_range in Ed. rewrite rev_length, firstn_length in Ed. destruct (_ <=? _); [|exact (Hrec H)]. injection H as <-. cbn [c_begin]. lia.
Qed.
Lemma loop_range keyed slot q doc fuel : forall pos c, In c (coverLoop keyed slot q fuel pos doc) -> (c_begin c < length doc)%nat.
Proof.
  induction fuel as [|f IH]; intros pos c H; cbn [coverLoop] in H; [destruct H|]. destruct (Cover keyed slot q pos (skipn pos doc)) as [c0|] eqn:E; [|destruct H]. destruct H as [<-|H]; [|exact (IH _ _ H)].
  apply Cover_range in E. rewrite skipn_length in E. lia.
Qed.
Lemma weights_pos c : (0 < weights c)%Q.
Proof. unfold weights. destruct c as [|[p|[p|p|]|]]; reflexivity. Qed.
Lemma invSum_nonneg l : (0 <= invSum l)%Q.
Proof. induction l as [|x l IH]; cbn [invSum fold_right]; [apply Qle_refl|]. fold (invSum l). pose proof (weights_pos (d_class x)). lra. Qed.
Lemma invSum_pos l : l <> [] -> (0 < invSum l)%Q.
Proof. destruct l as [|x l]; [intro H; destruct (H eq_refl)|]. intros _. cbn [invSum fold_right]. fold (invSum l). pose proof (weights_pos (d_class x)). pose proof (invSum_nonneg l). lra. Qed.
Lemma Qdiv_pos a b : (0 < a)%Q -> (0 < b)%Q -> (0 < a / b)%Q.
Proof. intros Ha Hb. apply Qlt_shift_div_l; [exact Hb|]. lra. Qed.
Lemma inject_pos z : 0 < z -> (0 < inject_Z z)%Q.
Proof. intro H. unfold Qlt. cbn. lia. Qed.
Lemma coverRank_pos len doc c : (c_begin c < length doc)%nat -> (0 < coverRank len doc c)%Q.
Proof.
  intro H. unfold coverRank. set (n := (c_end c - c_begin c)%nat). apply Qdiv_pos.
  - assert (H1 : (0 < inject_Z (Z.of_nat n + 1) / invSum (firstn (S n) (skipn (c_begin c) doc)))%Q).
    { apply Qdiv_pos; [apply inject_pos; lia|]. apply invSum_pos. intro E. apply (f_equal (@length docr)) in E. rewrite firstn_length, skipn_length in E. change (length (@nil docr)) with 0%nat in E. lia. }
    destruct (Nat.ltb_spec 0 (length (filter (fun j => match c_ops c j with Some _ => true | None => false end) (seq 0 len)))) as [Hn|_]; [|exact H1].
    apply Qmult_lt_0_compat; [exact H1|]. apply inject_pos. lia.
  - apply inject_pos. destruct (Z.ltb_spec (c_q c - c_p c - Z.of_nat n) 0) as [_|Hn]; [|lia]. assert (0 <= Z.of_nat n / 2) by (apply Z.div_pos; lia). lia.
Qed.
Definition acc_ok (l : list (Z * Z * Q)) : Prop := Forall (fun e => 0 < snd (fst e) /\ (0 < snd e)%Q) l.
Lemma addCover_ok key r l : (0 < r)%Q -> acc_ok l -> acc_ok (addCover key r l) /\ addCover key r l <> [].
Proof.
  intro Hr. assert (A : forall n w, 0 < n -> (0 <= w)%Q -> (0 < w + r / inject_Z n / inject_Z n / (164493406685 # 100000000000))%Q).
  { intros n w Hn Hw. assert (0 < r / inject_Z n / inject_Z n / (164493406685 # 100000000000))%Q by (repeat apply Qdiv_pos; try exact Hr; try (apply inject_pos; exact Hn); reflexivity). lra. }
  induction 1 as [|[[k n] w] l [H1 H2] H IH]; cbn [addCover].
  - split; [|discriminate]. constructor; [|constructor]. split; [reflexivity|]. apply A; [lia|apply Qle_refl].
  - cbn [fst snd] in H1, H2. destruct (k =? key); (split; [|discriminate]).
    + constructor; [|exact H]. split; [cbn; lia|]. apply A; [lia|]. apply Qlt_le_weak. exact H2.
    + constructor; [split; assumption|]. apply IH.
Qed.
Lemma addCover_fold {A} (key : A -> Z) (r : A -> Q) cs : (forall c, In c cs -> (0 < r c)%Q) -> forall l, acc_ok l ->
  acc_ok (fold_left (fun l c => addCover (key c) (r c) l) cs l) /\ (cs <> [] -> fold_left (fun l c => addCover (key c) (r c) l) cs l <> []).
Proof.
  induction cs as [|c cs IH]; intros Hc l Hl; cbn [fold_left]; [split; [exact Hl|intro H; destruct (H eq_refl)]|].
  destruct (addCover_ok (key c) (r c) l (Hc c (or_introl eq_refl)) Hl) as [H1 H2]. destruct (IH (fun c' H => Hc c' (or_intror H)) _ H1) as [H3 H4]. split; [exact H3|]. intros _.
  destruct cs as [|c' cs]; [exact H2|]. apply H4. discriminate.
Qed.
Lemma sum_pos (l : list (Z * Z * Q)) : acc_ok l -> (0 <= fold_right (fun e s => snd e + s) 0 l)%Q /\ (l <> [] -> (0 < fold_right (fun e s => snd e + s) 0 l)%Q).
Proof.
  induction 1 as [|e l [_ H] _ [IH _]]; cbn [fold_right]; [split; [apply Qle_refl|intro E; destruct (E eq_refl)]|]. split; [|intros _]; lra.
Qed.
Lemma Qle_bool_false x y : Qle_bool x y = false -> (y < x)%Q.
Proof. intro H. apply Qnot_le_lt. intro Hle. apply Qle_bool_iff in Hle. congruence. Qed.
(** The raw score: positive if there is a cover, zero otherwise. *)
Lemma docr_score keyed slot q len doc method : let W := calc_score_docr keyed slot q len doc method in
  (covers keyed slot q doc <> [] -> (0 < W)%Q) /\ (covers keyed slot q doc = [] -> (W == 0)%Q).
Proof.
  cbv zeta. unfold calc_score_docr. set (cs := covers keyed slot q doc). 
  set (key := fun c => coverKey (firstn (S (c_end c - c_begin c)) (skipn (c_begin c) doc))).
  destruct (addCover_fold key (coverRank len doc) cs) with (l := @nil (Z * Z * Q)) as [A1 A2]; [|constructor|].
  { intros c Hc. apply coverRank_pos. exact (loop_range _ _ _ _ _ _ _ Hc). }
  unfold key in A1, A2. cbv beta in A1, A2. fold key in A1, A2.
  change (fun (l : list (Z * Z * Q)) (c : cover) => addCover (key c) (coverRank len doc c) l) with (fun (l : list (Z * Z * Q)) (c : cover) => addCover (coverKey (firstn (S (c_end c - c_begin c)) (skipn (c_begin c) doc))) (coverRank len doc c) l) in *.
  set (acc := fold_left _ cs []) in *. set (W := fold_right _ 0%Q acc). destruct (sum_pos acc A1) as [S1 S2]. fold W in S1, S2. split.
  - intro Hne. specialize (S2 (A2 Hne)). set (W' := if _ && _ && _ then _ else W). assert (H' : (0 < W')%Q).
    { unfold W'. destruct (has method RANK_NORM_EXTDIST); [|exact S2]. destruct (Nat.eqb_spec (length cs) 0) as [E|E]; [exact S2|]. destruct (Qle_bool (sumDist None cs) 0) eqn:Es; [exact S2|]. cbn [negb andb].
      apply Qle_bool_false in Es. apply Qdiv_pos; [exact S2|]. apply Qdiv_pos; [apply inject_pos; lia|exact Es]. }
    destruct (has method RANK_NORM_RDIVRPLUS1); [|exact H']. apply Qdiv_pos; [exact H'|lra].
  - intro E. assert (EW : W = 0%Q) by (unfold W, acc; rewrite E; reflexivity). rewrite E. cbn [length Nat.eqb negb]. rewrite andb_false_r. cbn [andb]. rewrite EW. destruct (has method RANK_NORM_RDIVRPLUS1); reflexivity.
Qed.
