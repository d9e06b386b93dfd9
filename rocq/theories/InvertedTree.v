(** Proofs: numbered operator trees (C36). *)
From Coq Require Import NArith ZArith Lia Bool List Arith Permutation.
From Verif Require Import Base Codec Entries Array Inverted InvertedCodec InvertedSpec InvertedProof.
Import ListNotations.
Local Open Scope Z_scope.

Section Ind.
  Context {K : Type}.
  Variable P : cwrap K -> Prop.
  Hypothesis HV : forall x b, P (CVal x b).
  Hypothesis HO : forall k s b ops, Forall P ops -> P (COp k s b ops).
  Fixpoint cwrap_ind' (c : cwrap K) : P c :=
    match c with
    | CVal x b => HV x b
    | COp k s b ops => HO k s b ops ((fix go (l : list (cwrap K)) : Forall P l := match l with [] => Forall_nil P | o :: r => Forall_cons o (cwrap_ind' o) (go r) end) ops)
    end.
End Ind.
Section WInd.
  Context {K : Type}.
  Variable P : wrap K -> Prop.
  Hypothesis HV : forall x b, P (WVal x b).
  Hypothesis HO : forall b ops, Forall P ops -> P (WOp b ops).
  Fixpoint wrap_ind' (c : wrap K) : P c :=
    match c with
    | WVal x b => HV x b
    | WOp b ops => HO b ops ((fix go (l : list (wrap K)) : Forall P l := match l with [] => Forall_nil P | o :: r => Forall_cons o (wrap_ind' o) (go r) end) ops)
    end.
End WInd.

Section Tree.
  Context {K : Type}.
  Notation cwrap := (cwrap K).
  Notation wrap := (wrap K).
  Fixpoint width (c : cwrap) : N := match c with CVal _ _ => 0%N | COp _ _ _ ops => (1 + fold_right (fun o a => width o + a) 0 ops)%N end.
  Definition widths (l : list cwrap) : N := fold_right (fun o a => width o + a)%N 0%N l.
  Fixpoint numbered (c : cwrap) (n : N) : Prop :=
    match c with
    | CVal _ _ => True
    | COp k _ _ ops => k = n /\ (fix go (l : list cwrap) (n : N) : Prop := match l with [] => True | o :: r => numbered o n /\ go r (n + width o)%N end) ops (n + 1)%N
    end.
  Fixpoint numbereds (l : list cwrap) (n : N) : Prop := match l with [] => True | o :: r => numbered o n /\ numbereds r (n + width o)%N end.
  Lemma numbered_op k s b ops n : numbered (COp k s b ops) n <-> k = n /\ numbereds ops (n + 1)%N.
  Proof. reflexivity. Qed.
  Lemma numbereds_in l o : In o l -> forall n, numbereds l n -> exists n', (n <= n')%N /\ (n' + width o <= n + widths l)%N /\ numbered o n'.
  Proof.
    induction l as [|a l IH]; intros Hin n H; [destruct Hin|]. destruct H as [H1 H2]. cbn [widths fold_right] in *. fold (widths l) in *. destruct Hin as [->|Hin].
    - exists n. split; [lia|]. split; [lia|exact H1].
    - destruct (IH Hin _ H2) as (n' & A & B & C). exists n'. split; [lia|]. split; [lia|exact C].
  Qed.
  (** Different operands have disjoint numbers. *)
  Lemma numbereds_split l1 o l2 : forall n, numbereds (l1 ++ o :: l2) n -> exists n1, n1 = (n + widths l1)%N /\ numbereds l1 n /\ numbered o n1 /\ numbereds l2 (n1 + width o)%N.
  Proof.
    induction l1 as [|a l1 IH]; intros n H; cbn [app numbereds] in *.
    - exists n. cbn. split; [lia|]. tauto.
    - destruct H as [H1 H2]. destruct (IH _ H2) as (n1 & -> & A & B & C). exists (n + width a + widths l1)%N. cbn [widths fold_right]. fold (widths l1). split; [lia|]. tauto.
  Qed.

  (** calc_wraps. *)
  Definition cnot (c : cwrap) : bool := match c with CVal _ b => b | COp _ _ _ _ => false end.
  Definition cstart (isAnd : bool) (ops : list cwrap) : Z :=
    let n := Z.of_nat (length (filter cnot ops)) in if isAnd then n + 1 - Z.of_nat (length ops) else n.
  Fixpoint faithful (c : cwrap) : Prop :=
    match c with CVal _ _ => True | COp _ s b ops => s = cstart b ops /\ fold_right (fun o P => faithful o /\ P) True ops end.
  Fixpoint erase (c : cwrap) : wrap := match c with CVal x b => WVal x b | COp _ _ b ops => WOp b (map erase ops) end.
  Fixpoint calcs (ops : list wrap) (n : N) : list cwrap * N :=
    match ops with [] => ([], n) | o :: r => let '(o', n1) := calc_wraps o n in let '(r', n2) := calcs r n1 in (o' :: r', n2) end.
  Lemma calc_op b ops n : calc_wraps (WOp b ops) n = let '(ops', n') := calcs ops (n + 1)%N in (COp n (startSum b ops) b ops', n').
  Proof. reflexivity. Qed.
  Lemma calc_spec (w : wrap) : forall n c n', calc_wraps w n = (c, n') -> n' = (n + width c)%N /\ numbered c n /\ faithful c /\ erase c = w.
  Proof.
    induction w as [x b|b ops IH] using wrap_ind'; intros n c n' H.
    - injection H as <- <-. cbn. repeat split. lia.
    - rewrite calc_op in H. destruct (calcs ops (n + 1)%N) as [ops' m] eqn:E. injection H as <- <-.
      assert (A : forall n0 ops' m, calcs ops n0 = (ops', m) -> m = (n0 + widths ops')%N /\ numbereds ops' n0 /\ fold_right (fun o P => faithful o /\ P) True ops' /\ map erase ops' = ops).
      { clear - IH. induction IH as [|w ops Hw _ IHl]; intros n0 ops' m E; cbn [calcs] in E.
        - injection E as <- <-. cbn. repeat split. lia.
        - destruct (calc_wraps w n0) as [o' n1] eqn:E1. destruct (calcs ops n1) as [r' n2] eqn:E2. injection E as <- <-. apply Hw in E1 as (-> & A1 & A2 & <-). apply IHl in E2 as (-> & B1 & B2 & <-).
          cbn [widths fold_right numbereds map]. fold (widths r'). split; [lia|]. tauto. }
      apply A in E as (-> & A1 & A2 & A3). cbn [width faithful erase]. fold (widths ops'). split; [lia|]. split; [apply numbered_op; auto|]. split; [|rewrite A3; reflexivity]. split; [|exact A2].
      unfold startSum, cstart. rewrite <- A3. rewrite map_length. clear. assert (H : length (filter isNot (map erase ops')) = length (filter cnot ops')); [|rewrite H; reflexivity].
      induction ops' as [|o l IH]; [reflexivity|]. cbn [map filter]. replace (isNot (erase o)) with (cnot o) by (destruct o; reflexivity). destruct (cnot o); cbn [length]; rewrite IH; reflexivity.
  Qed.

  (** ** The document *)
  Variable m : K -> bool.
  Fixpoint touched (c : cwrap) : bool := match c with CVal x _ => m x | COp _ _ _ ops => existsb touched ops end.
  Definition sumZ (l : list Z) : Z := fold_right Z.add 0 l.
  Fixpoint ev (c : cwrap) : bool :=
    match c with
    | CVal x b => xorb b (m x)
    | COp _ s _ ops => existsb touched ops && (0 <? s + sumZ (map (fun o => match o with CVal x b => if m x then if b then -1 else 1 else 0 | COp _ _ _ _ => if ev o then 1 else 0 end) ops))
    end.
  Definition contrib (o : cwrap) : Z := match o with CVal x b => if m x then if b then -1 else 1 else 0 | COp _ _ _ _ => if ev o then 1 else 0 end.
  Lemma ev_op k s b ops : ev (COp k s b ops) = existsb touched ops && (0 <? s + sumZ (map contrib ops)).
  Proof. reflexivity. Qed.

  Record nrec := mkRec { nr_num : N; nr_sum : Z; nr_par : N; nr_T : bool; nr_E : bool }.
  Fixpoint recs (c : cwrap) (p : N) : list nrec :=
    match c with CVal _ _ => [] | COp k s _ ops => mkRec k s p (touched c) (ev c) :: flat_map (fun o => recs o k) ops end.
  Fixpoint occs (c : cwrap) (ups : list (N * Z)) : list (K * occ) :=
    match c with CVal x b => [(x, (b, ups))] | COp k s _ ops => flat_map (fun o => occs o ((k, s) :: ups)) ops end.
  Definition here (t : N) (l : list (N * Z)) : Z := sumZ (map (fun d => if (fst d =? t)%N then snd d else 0) l).
  Fixpoint msgs (c : cwrap) (p : N) : list (N * Z) :=
    match c with
    | CVal x b => if m x then [(p, if b then -1 else 1)] else []
    | COp k _ _ ops => (if ev c then [(p, 1)] else []) ++ flat_map (fun o => msgs o k) ops
    end.
  Lemma sumZ_app a b : sumZ (a ++ b) = sumZ a + sumZ b.
  Proof. unfold sumZ. induction a as [|x a IH]; [reflexivity|]. cbn [app fold_right]. rewrite IH. lia. Qed.
  Lemma here_app t a b : here t (a ++ b) = here t a + here t b.
  Proof. unfold here. rewrite map_app. apply sumZ_app. Qed.
  Lemma here_none t l : (forall d, In d l -> fst d <> t) -> here t l = 0.
  Proof. induction l as [|d l IH]; intro H; [reflexivity|]. cbn. destruct (N.eqb_spec (fst d) t) as [E|]; [exfalso; exact (H d (or_introl eq_refl) E)|]. exact (IH (fun d Hd => H d (or_intror Hd))). Qed.

  (** Numbers stay in the range of the subtree. *)
  Lemma recs_range c : forall n p r, numbered c n -> In r (recs c p) -> (n <= nr_num r < n + width c)%N /\ ((nr_num r = n /\ nr_par r = p) \/ (n <= nr_par r < nr_num r)%N).
  Proof.
    induction c as [x b|k s b ops IH] using cwrap_ind'; intros n p r H Hr; [destruct Hr|]. apply numbered_op in H as [-> H]. cbn [recs In] in Hr. destruct Hr as [<-|Hr].
    - cbn [nr_num nr_par width]. split; [lia|]. left. auto.
    - apply in_flat_map in Hr as (o & Ho & Hr). rewrite Forall_forall in IH. destruct (numbereds_in ops o Ho _ H) as (n' & A & B & C). destruct (IH o Ho n' n r C Hr) as [D E]. cbn [width]. fold (widths ops). split; [lia|]. right. destruct E as [[E1 E2]|E]; lia.
  Qed.
  Lemma recs_nodup c : forall n p, numbered c n -> NoDup (map nr_num (recs c p)).
  Proof.
    induction c as [x b|k s b ops IH] using cwrap_ind'; intros n p H; [constructor|]. apply numbered_op in H as [-> H]. cbn [recs map nr_num].
    assert (A : forall l n0, Forall (fun c => forall n p, numbered c n -> NoDup (map nr_num (recs c p))) l -> numbereds l n0 -> NoDup (map nr_num (flat_map (fun o => recs o n) l)) /\ forall r, In r (flat_map (fun o => recs o n) l) -> (n0 <= nr_num r)%N).
    { clear. induction l as [|o l IH]; intros n0 HF H; [split; [constructor|intros r []]|]. inversion HF as [|? ? H1 H2 E]; subst. destruct H as [H3 H4]. destruct (IH _ H2 H4) as [I1 I2]. cbn [flat_map]. split.
      - rewrite map_app. assert (B : forall x, In x (map nr_num (recs o n)) -> ~ In x (map nr_num (flat_map (fun o => recs o n) l))).
        { intros x Hx Hy. apply in_map_iff in Hx as (r & <- & Hr). apply in_map_iff in Hy as (r' & E & Hr'). apply I2 in Hr'. destruct (recs_range o n0 n r H3 Hr) as [A _]. lia. }
        pose proof (H1 _ n H3) as D. clear - I1 B D. induction (map nr_num (recs o n)) as [|x l' IH]; [exact I1|]. cbn [app]. apply NoDup_cons_iff in D as [D1 D2]. constructor.
        + intro Hx. apply in_app_iff in Hx as [Hx|Hx]; [contradiction|]. exact (B x (or_introl eq_refl) Hx).
        + apply IH; [intros y Hy; apply B; right; exact Hy|exact D2].
      - intros r Hr. apply in_app_iff in Hr as [Hr|Hr]; [|specialize (I2 r Hr); lia]. destruct (recs_range o n0 n r H3 Hr) as [A _]. lia. }
    destruct (A ops (n + 1)%N IH H) as [A1 A2]. constructor; [|exact A1]. intro Hin. apply in_map_iff in Hin as (r & E & Hr). apply A2 in Hr. lia.
  Qed.
  Lemma msgs_range c : forall n p d, numbered c n -> In d (msgs c p) -> fst d = p \/ (n <= fst d < n + width c)%N.
  Proof.
    induction c as [x b|k s b ops IH] using cwrap_ind'; intros n p d H Hd.
    - cbn in Hd. destruct (m x); [|destruct Hd]. destruct Hd as [<-|[]]. left. reflexivity.
    - apply numbered_op in H as [-> H]. cbn [msgs] in Hd. apply in_app_iff in Hd as [Hd|Hd]; [destruct (ev _); [destruct Hd as [<-|[]]; left; reflexivity|destruct Hd]|].
      right. apply in_flat_map in Hd as (o & Ho & Hd). rewrite Forall_forall in IH. destruct (numbereds_in ops o Ho _ H) as (n' & A & B & C). cbn [width]. fold (widths ops). destruct (IH o Ho n' n d C Hd); lia.
  Qed.
  Lemma here_top o n k : numbered o n -> (k < n)%N -> here k (msgs o k) = contrib o.
  Proof.
    intros H Hk. destruct o as [x b|k' s b ops].
    - cbn. destruct (m x); [|reflexivity]. unfold here. cbn. rewrite N.eqb_refl. lia.
    - cbn [msgs]. rewrite here_app. rewrite (here_none k (flat_map _ ops)).
      + unfold contrib. destruct (ev _); [|reflexivity]. unfold here. cbn. rewrite N.eqb_refl. reflexivity.
      + intros d Hd. apply numbered_op in H as [-> H]. apply in_flat_map in Hd as (o & Ho & Hd). destruct (numbereds_in ops o Ho _ H) as (n' & A & B & C). destruct (msgs_range o n' n d C Hd); lia.
  Qed.
  (** Every node's answer, from what is sent to it. *)
  Lemma recs_eval c : forall n p r, numbered c n -> (p < n)%N -> In r (recs c p) -> nr_E r = nr_T r && (0 <? nr_sum r + here (nr_num r) (msgs c p)).
  Proof.
    induction c as [x b|k s b ops IH] using cwrap_ind'; intros n p r H Hp Hr; [destruct Hr|]. apply numbered_op in H as [-> H]. cbn [recs In msgs] in *. rewrite here_app.
    destruct Hr as [<-|Hr].
    - cbn [nr_E nr_T nr_sum nr_num]. rewrite (here_none n (if ev _ then _ else _)) by (intros d Hd; destruct (ev _); [destruct Hd as [<-|[]]; cbn; lia|destruct Hd]).
      replace (here n (flat_map (fun o => msgs o n) ops)) with (sumZ (map contrib ops)); [rewrite ev_op; reflexivity|].
      assert (A : forall l n0, numbereds l n0 -> (n < n0)%N -> sumZ (map contrib l) = here n (flat_map (fun o => msgs o n) l)).
      { clear. induction l as [|o l IH]; intros n0 H Hn; [reflexivity|]. destruct H as [H1 H2]. cbn [map flat_map]. rewrite here_app, (here_top o n0 n H1 Hn), <- (IH _ H2) by lia. reflexivity. }
      apply (A ops _ H). lia.
    - apply in_flat_map in Hr as (o & Ho & Hr). apply in_split in Ho as (l1 & l2 & ->). destruct (numbereds_split _ _ _ _ H) as (n1 & -> & H1 & H2 & H3). set (n1 := (n + 1 + widths l1)%N) in *.
      rewrite Forall_forall in IH. pose proof (IH o (in_elt o l1 l2) n1 n r H2 ltac:(lia) Hr) as Eq. destruct (recs_range o n1 n r H2 Hr) as [R _].
      rewrite flat_map_app. cbn [flat_map]. rewrite !here_app. rewrite (here_none (nr_num r) (if ev _ then _ else _)), (here_none (nr_num r) (flat_map _ l1)), (here_none (nr_num r) (flat_map _ l2)).
      + rewrite Eq. f_equal. f_equal. lia.
      + intros d Hd. apply in_flat_map in Hd as (o' & Ho' & Hd). destruct (numbereds_in l2 o' Ho' _ H3) as (n' & A & B & C). destruct (msgs_range o' n' n d C Hd); lia.
      + intros d Hd. apply in_flat_map in Hd as (o' & Ho' & Hd). destruct (numbereds_in l1 o' Ho' _ H1) as (n' & A & B & C). destruct (msgs_range o' n' n d C Hd); lia.
      + intros d Hd. destruct (ev _); [destruct Hd as [<-|[]]; cbn; lia|destruct Hd].
  Qed.
  (** What is sent: by the words, and by operators. *)
  Definition hits (l : list (K * occ)) : list occ := map snd (filter (fun o => m (fst o)) l).
  Lemma hits_app a b : hits (a ++ b) = hits a ++ hits b.
  Proof. unfold hits. rewrite filter_app, map_app. reflexivity. Qed.
  Definition kids (l : list nrec) (t : N) : Z := Z.of_nat (length (filter (fun r => (nr_par r =? t)%N && nr_E r) l)).
  Lemma kids_app a b t : kids (a ++ b) t = kids a t + kids b t.
  Proof. unfold kids. rewrite filter_app, app_length. lia. Qed.
  Lemma here_split c : forall ups t, here t (msgs c (tops ups)) = total (hits (occs c ups)) t + kids (recs c (tops ups)) t.
  Proof.
    induction c as [x b|k s b ops IH] using cwrap_ind'; intros ups t.
    - cbn. unfold hits. cbn. destruct (m x); cbn; [|reflexivity]. unfold here. cbn. unfold delta. cbn. destruct (tops ups =? t)%N; lia.
    - cbn [msgs occs recs]. rewrite here_app. change (mkRec k s (tops ups) ?a ?b :: ?l) with ([mkRec k s (tops ups) a b] ++ l). rewrite kids_app.
      replace (kids [_] t) with (here t (if ev (COp k s b ops) then [(tops ups, 1)] else [])).
      + enough (A : here t (flat_map (fun o => msgs o k) ops) = total (hits (flat_map (fun o => occs o ((k, s) :: ups)) ops)) t + kids (flat_map (fun o => recs o k) ops) t) by lia.
        induction IH as [|o l Ho _ IHl]; [reflexivity|]. cbn [flat_map]. rewrite here_app, hits_app, total_app, kids_app, IHl. specialize (Ho ((k, s) :: ups) t). cbn [tops] in Ho. lia.
      + unfold kids. cbn [filter nr_par nr_E]. destruct (ev (COp k s b ops)); unfold here; cbn; destruct (tops ups =? t)%N; reflexivity.
  Qed.
  (** Numbers on paths. *)
  Definition on (n : N) (o : occ) : bool := existsb (fun u => (fst u =? n)%N) (snd o).
  Lemma occs_range c : forall n ups e k, numbered c n -> In e (occs c ups) -> on k (snd e) = true -> (exists u, In u ups /\ fst u = k) \/ (n <= k < n + width c)%N.
  Proof.
    induction c as [x b|k0 s b ops IH] using cwrap_ind'; intros n ups e k H He Hk.
    - destruct He as [<-|[]]. left. unfold on in Hk. apply existsb_exists in Hk as (u & Hu & E). apply N.eqb_eq in E. eauto.
    - apply numbered_op in H as [-> H]. cbn [occs] in He. apply in_flat_map in He as (o & Ho & He). rewrite Forall_forall in IH. destruct (numbereds_in ops o Ho _ H) as (n' & A & B & C). cbn [width]. fold (widths ops).
      destruct (IH o Ho n' _ e k C He Hk) as [(u & [<-|Hu] & E)|E]; [right; cbn in E; lia|left; eauto|right; lia].
  Qed.
  Lemma occs_recs c : forall n ups e k p, numbered c n -> In e (occs c ups) -> on k (snd e) = true -> (exists u, In u ups /\ fst u = k) \/ exists r, In r (recs c p) /\ nr_num r = k.
  Proof.
    induction c as [x b|k0 s b ops IH] using cwrap_ind'; intros n ups e k p H He Hk.
    - destruct He as [<-|[]]. left. unfold on in Hk. apply existsb_exists in Hk as (u & Hu & E). apply N.eqb_eq in E. eauto.
    - apply numbered_op in H as [-> H]. cbn [occs] in He. apply in_flat_map in He as (o & Ho & He). rewrite Forall_forall in IH. destruct (numbereds_in ops o Ho _ H) as (n' & A & B & C). cbn [recs].
      destruct (IH o Ho n' _ e k n C He Hk) as [(u & [<-|Hu] & E)|(r & Hr & E)]; [right; eexists; split; [left; reflexivity|exact E]|left; eauto|right; exists r; split; [right; apply in_flat_map; eauto|exact E]].
  Qed.
  Lemma on_ups c : forall ups e u, In u ups -> In e (occs c ups) -> on (fst u) (snd e) = true.
  Proof.
    induction c as [x b|k0 s b ops IH] using cwrap_ind'; intros ups e u Hu He.
    - destruct He as [<-|[]]. unfold on. apply existsb_exists. exists u. split; [exact Hu|apply N.eqb_refl].
    - cbn [occs] in He. apply in_flat_map in He as (o & Ho & He). rewrite Forall_forall in IH. exact (IH o Ho ((k0, s) :: ups) e u (or_intror Hu) He).
  Qed.
  Lemma touched_hits c : forall ups, touched c = negb (match hits (occs c ups) with [] => true | _ => false end).
  Proof.
    induction c as [x b|k0 s b ops IH] using cwrap_ind'; intro ups.
    - cbn. unfold hits. cbn. destruct (m x); reflexivity.
    - cbn [touched occs]. induction IH as [|o l Ho _ IHl]; [reflexivity|]. cbn [existsb flat_map]. rewrite hits_app, IHl, (Ho ((k0, s) :: ups)). destruct (hits (occs o _)); reflexivity.
  Qed.
  Lemma recs_touched c : forall n ups p r, numbered c n -> (forall u, In u ups -> (fst u < n)%N) -> In r (recs c p) -> nr_T r = T_of (hits (occs c ups)) (nr_num r).
  Proof.
    assert (Tapp : forall a b n, T_of (a ++ b) n = T_of a n || T_of b n) by (intros; unfold T_of; apply existsb_app).
    induction c as [x b|k0 s b ops IH] using cwrap_ind'; intros n ups p r H Hups Hr; [destruct Hr|]. apply numbered_op in H as [-> H]. cbn [recs In] in Hr. destruct Hr as [<-|Hr].
    - cbn [nr_T nr_num]. rewrite (touched_hits (COp n s b ops) ups). set (l := occs (COp n s b ops) ups).
      assert (A : forall e, In e (hits l) -> on n e = true).
      { intros e He. unfold hits in He. apply in_map_iff in He as (e' & <- & He). apply filter_In in He as [He _]. unfold l in He. cbn [occs] in He. apply in_flat_map in He as (o & Ho & He). exact (on_ups o ((n, s) :: ups) e' (n, s) (or_introl eq_refl) He). }
      destruct (hits l) as [|e h]; [reflexivity|]. cbn [T_of existsb negb]. specialize (A e (or_introl eq_refl)). unfold on in A. rewrite A. reflexivity.
    - apply in_flat_map in Hr as (o & Ho & Hr). apply in_split in Ho as (l1 & l2 & ->). destruct (numbereds_split _ _ _ _ H) as (n1 & -> & H1 & H2 & H3). set (n1 := (n + 1 + widths l1)%N) in *.
      rewrite Forall_forall in IH. destruct (recs_range o n1 n r H2 Hr) as [R _].
      rewrite (IH o (in_elt o l1 l2) n1 ((n, s) :: ups) n r H2); [|intros u [<-|Hu]; [cbn; lia|specialize (Hups u Hu); lia]|exact Hr].
      cbn [occs]. rewrite flat_map_app. cbn [flat_map]. rewrite !hits_app, !Tapp.
      assert (A : forall l n0, numbereds l n0 -> (n < n0)%N -> (n0 + widths l <= nr_num r \/ nr_num r < n0)%N -> (n < nr_num r)%N -> T_of (hits (flat_map (fun o => occs o ((n, s) :: ups)) l)) (nr_num r) = false).
      { clear - Hups. intros l n0 Hl Hn Hr Hr2. unfold T_of. destruct (existsb _ _) eqn:E; [|reflexivity]. exfalso. apply existsb_exists in E as (e & He & E). unfold hits in He. apply in_map_iff in He as (e' & <- & He). apply filter_In in He as [He _].
        apply in_flat_map in He as (o' & Ho' & He). destruct (numbereds_in l o' Ho' _ Hl) as (n' & A & B & C). destruct (occs_range o' n' _ e' _ C He E) as [(u & [<-|Hu] & Eu)|Er]; [cbn in Eu; lia|specialize (Hups u Hu); lia|lia]. }
      rewrite (A l1 (n + 1)%N H1), (A l2 _ H3) by lia. cbn [orb]. rewrite orb_false_r. reflexivity.
  Qed.
End Tree.
