(** Proofs about the fast scan. *)
From Verif Require Import Base Ord OrdProof LeafPage ScanEntry ScanEntryProof TidBitmap Scan ScanSpec ScanRegular.
From Coq Require Import NArith ZArith Bool Arith List Lia Permutation Sorted.
Import ListNotations.
Local Open Scope Z_scope.

Lemma fsum_le (f g : nat -> nat) l : (forall n, In n l -> (f n <= g n)%nat) -> (list_sum (map f l) <= list_sum (map g l))%nat.
Proof.
  induction l as [|a l IH]; intro H; [cbn; lia|].
  change (f a + list_sum (map f l) <= g a + list_sum (map g l))%nat.
  pose proof (H a (or_introl eq_refl)). assert (list_sum (map f l) <= list_sum (map g l))%nat by (apply IH; intros; apply H; right; assumption). lia.
Qed.
Lemma fsum_lt (f g : nat -> nat) l a : (forall n, In n l -> (f n <= g n)%nat) -> In a l -> (f a < g a)%nat -> (list_sum (map f l) < list_sum (map g l))%nat.
Proof.
  induction l as [|b l IH]; intros H Ha L; [destruct Ha|].
  change (f b + list_sum (map f l) < g b + list_sum (map g l))%nat.
  pose proof (H b (or_introl eq_refl)).
  assert (HL : forall n, In n l -> (f n <= g n)%nat) by (intros; apply H; right; assumption).
  pose proof (fsum_le f g l HL). destruct Ha as [->|Ha]; [lia|]. specialize (IH HL Ha L). lia.
Qed.

Lemma SSorted_app {T} (R : T -> T -> Prop) l1 l2 :
  StronglySorted R (l1 ++ l2) <-> StronglySorted R l1 /\ StronglySorted R l2 /\ forall x y, In x l1 -> In y l2 -> R x y.
Proof.
  induction l1 as [|a l1 IH]; cbn [app].
  - split; [intro H; split; [constructor|split; [exact H|intros x y []]]|tauto].
  - split.
    + intro H. apply StronglySorted_inv in H as [H1 H2]. apply IH in H1 as (I1 & I2 & I3). apply Forall_app in H2 as [F1 F2].
      split; [constructor; assumption|]. split; [exact I2|]. intros x y [<-|Hx] Hy; [rewrite Forall_forall in F2; auto|auto].
    + intros (H1 & H2 & H3). apply StronglySorted_inv in H1 as [H1 H1']. constructor.
      * apply IH. split; [exact H1|]. split; [exact H2|]. intros x y Hx Hy. apply H3; [right; exact Hx|exact Hy].
      * apply Forall_app. split; [exact H1'|]. apply Forall_forall. intros y Hy. apply H3; [left; reflexivity|exact Hy].
Qed.
Lemma SSorted_ext {T} (R R' : T -> T -> Prop) l : (forall x y, In x l -> In y l -> R x y -> R' x y) -> StronglySorted R l -> StronglySorted R' l.
Proof.
  induction l as [|a l IH]; intros H S; [constructor|]. apply StronglySorted_inv in S as [S1 S2]. constructor.
  - apply IH; [|exact S1]. intros x y Hx Hy. apply H; right; assumption.
  - apply Forall_forall. intros y Hy. rewrite Forall_forall in S2. apply H; [left; reflexivity|right; exact Hy|auto].
Qed.

Section Fast.
  Context {A : Type}.
  Variables (useAlt : bool) (addTo : N) (cmpA : A -> A -> Z).
  Hypothesis CA : total_cmp cmpA.
  Variable joinFn : joins A.
  Notation item := (item A).
  Notation entry := (entry A).
  Notation skey := (skey A).
  Notation kst := (kst A).
  Notation cmpAt := (cmpAt useAlt addTo cmpA).
  Notation getItem := (entryGetItem useAlt addTo cmpA joinFn).
  Notation findItem := (entryFindItem useAlt addTo cmpA).
  Notation rep := (rep useAlt addTo cmpA joinFn).
  Notation ent := (@ent A).
  Notation cmpE := (cmpEntries useAlt addTo cmpA).
  Notation bubble := (bubble useAlt addTo cmpA).
  Notation entryShift := (entryShift useAlt addTo cmpA joinFn).
  Notation shiftAll := (shiftAll useAlt addTo cmpA joinFn).

  (** ** The source of an entry does not change its kind *)
  Definition is_coll (e : entry) : bool := match e_src e with Coll _ _ => true | _ => false end.
  Lemma scanPage_src pg rm e x b : e_src (fst (scanPage useAlt addTo cmpA pg rm e x b)) = e_src e.
  Proof.
    unfold scanPage. cbv zeta. destruct (_ && _); [reflexivity|]. destruct (scan_narrow _ _ _ _ _ _) as [a c].
    destruct (scan_bound _ _ _ _) as [[d f]|]; [|reflexivity]. destruct (at_off _ _); reflexivity.
  Qed.
  Lemma coll_src (e e' : entry) : e_src e' = e_src e -> is_coll e' = is_coll e.
  Proof. unfold is_coll. intros ->. reflexivity. Qed.
  Lemma getNext_coll fuel : forall chain pos e, is_coll e = false -> is_coll (entryGetNextItem useAlt addTo cmpA fuel chain pos e) = false.
  Proof.
    induction fuel as [|f IH]; intros chain pos e H; cbn [entryGetNextItem]; [exact H|].
    destruct (at_off (e_list e) (e_off e)); [exact H|]. destruct (nth_error chain pos) as [pg|]; [|exact H].
    pose proof (scanPage_src pg (is_last chain pos) e (e_cur e) false) as SA.
    destruct (scanPage _ _ _ _ _ _ _ _) as [e1 found]. cbn [fst] in SA. apply coll_src in SA. rewrite H in SA.
    destruct found; [exact SA|]. destruct (is_last chain pos); [exact SA|]. destruct (nth_error chain (S pos)); [|exact SA].
    destruct (ip_valid _); [|reflexivity]. destruct (_ <? 0); [apply IH; reflexivity|reflexivity].
  Qed.
  Lemma getItem_coll e : is_coll e = false -> is_coll (getItem e) = false.
  Proof.
    intro H. unfold entryGetItem. destruct (e_src e) as [|chain pos|rest c] eqn:E.
    - destruct (at_off _ _); unfold is_coll; cbn; rewrite E; reflexivity.
    - apply getNext_coll. exact H.
    - unfold is_coll in H. rewrite E in H. discriminate.
  Qed.
  Lemma find_right_coll fuel : forall chain p e x, is_coll e = false -> is_coll (find_right useAlt addTo cmpA fuel chain p e x) = false.
  Proof.
    induction fuel as [|f IH]; intros chain p e x H; cbn [find_right]; [exact H|].
    destruct (nth_error chain (S p)) as [pg|]; [|exact H].
    pose proof (scanPage_src pg (is_last chain (S p)) (set_src e (Tree chain (S p))) x true) as SA.
    destruct (scanPage _ _ _ _ _ _ _ _) as [e1 found]. cbn [fst] in SA. apply coll_src in SA.
    destruct found; [exact SA|]. apply IH. exact SA.
  Qed.
  Lemma findItem_coll e x : is_coll e = false -> is_coll (findItem e x) = false.
  Proof.
    intro H. unfold entryFindItem. cbv zeta. destruct (_ =? 0)%nat; [exact H|].
    match goal with |- context [match ?o with Some e' => e' | None => _ end] => remember o as il eqn:IL end.
    destruct il as [e'|].
    - destruct (0 <=? _); [|discriminate]. destruct (_ && _); [apply Some_inj in IL; subst; exact H|].
      destruct (if 0 <=? e_off e then _ else None) as [[y o]|]; [|discriminate]. apply Some_inj in IL. subst. exact H.
    - destruct (e_src e) as [|chain pos|rest c] eqn:E; [exact H| |unfold is_coll in H; rewrite E in H; discriminate].
      destruct (nth_error chain pos) as [pg|]; [|exact H].
      pose proof (scanPage_src pg (is_last chain pos) e x true) as SA.
      destruct (scanPage _ _ _ _ _ _ _ _) as [e1 found]. cbn [fst] in SA. apply coll_src in SA. rewrite H in SA.
      destruct found; [exact SA|]. destruct (nth_error chain (e_refind e x)) as [pg'|]; [|exact SA].
      pose proof (scanPage_src pg' (is_last chain (e_refind e x)) (set_src e1 (Tree chain (e_refind e x))) x true) as SB.
      destruct (scanPage _ _ _ _ _ _ _ _) as [e2 found']. cbn [fst] in SB. apply coll_src in SB.
      destruct found'; [exact SB|]. apply find_right_coll. exact SB.
  Qed.

  (** ** The scan: all query keys belong to one column *)
  Variable att0 : N.
  Notation cmp := (cmpAt att0).
  Let OK : total_cmp cmp := cmpAt_total useAlt addTo cmpA CA att0.
  Variable Cs : list (list item).
  Notation C_ n := (nth n Cs []).
  Variable keys0 : list skey.
  Variable plain : nat -> bool.
  Hypothesis HR : forall n y, In y (C_ n) -> ip_valid (ip y) = true.
  Hypothesis HS : forall n, ssorted cmp (C_ n).
  Hypothesis HA : forall n m y y', In y (C_ n) -> In y' (C_ m) -> ip y = ip y' -> cmp y y' = 0.

  (** [v] tells no more than [w]. *)
  Definition le_vec (v w : list (option (option A))) : Prop := Forall2 (fun a b => a = None \/ a = b) v w.
  (** No part of what is known of the row satisfies one of the conditions. *)
  Definition dead (p : iptr) : Prop :=
    exists k, In k keys0 /\ sk_order k = false /\ sk_every k = false /\ forall v, le_vec v (sees Cs k p) -> fst (sk_cons k v) = false.
  Definition gone (lo y : item) : Prop := cmp y lo <= 0 \/ dead (ip y).
  Definition fpos (lo : item) (e : entry) (C : list item) : Prop :=
    (e_fin e = true /\ forall y, In y C -> gone lo y) \/
    (exists don rest, C = don ++ e_cur e :: rest /\ rep e rest /\ moved e /\ forall y, In y don -> gone lo y).
  Definition fent (lo : item) (n : nat) (e : entry) : Prop :=
    e_att e = att0 /\ (plain n = true -> is_coll e = false) /\ fpos lo e (C_ n).
  Definition above (lo : item) (e : entry) : Prop := e_fin e = false -> cmp lo (e_cur e) < 0.
  Definition rem (n : nat) (e : entry) : nat :=
    if e_fin e then 0%nat else length (filter (fun y => cmp (e_cur e) y <=? 0) (C_ n)).

  Lemma rem_split n e don rest : C_ n = don ++ e_cur e :: rest -> e_fin e = false -> rem n e = S (length rest).
  Proof.
    intros E F. unfold rem. rewrite F. pose proof (HS n) as S. rewrite E in S |- *. apply (ssorted_app cmp) in S as (_ & S2 & S3).
    apply (ssorted_inv cmp) in S2 as [_ S4].
    rewrite filter_app. assert (D : filter (fun y => cmp (e_cur e) y <=? 0) don = []).
    { clear - OK S3. induction don as [|a d IH]; [reflexivity|]. cbn [filter].
      specialize (S3 a (e_cur e) (or_introl eq_refl) (or_introl eq_refl)) as L. apply (cmp_lt_gt _ OK) in L.
      destruct (Z.leb_spec (cmp (e_cur e) a) 0); [lia|]. apply IH. intros x y Hx Hy. apply S3; [right; exact Hx|exact Hy]. }
    rewrite D. cbn [app filter]. rewrite (tc_refl _ OK). cbn [Z.leb Z.compare length]. f_equal.
    rewrite forallb_filter_id; [reflexivity|]. apply forallb_forall. intros y Hy. rewrite Forall_forall in S4. apply Z.leb_le. specialize (S4 y Hy). lia.
  Qed.
  Lemma gone_mono lo lo' y : cmp lo lo' <= 0 -> gone lo y -> gone lo' y.
  Proof. intros L [G|G]; [left; apply (tc_trans _ OK y lo lo'); assumption|right; exact G]. Qed.
  Lemma fent_mono lo lo' n e : cmp lo lo' <= 0 -> fent lo n e -> fent lo' n e.
  Proof.
    intros L (F1 & F2 & F3). split; [exact F1|]. split; [exact F2|]. destruct F3 as [[G1 G2]|(d & r & G1 & G2 & G3 & G4)].
    - left. split; [exact G1|]. intros y Hy. apply (gone_mono lo); auto.
    - right. exists d, r. split; [exact G1|]. split; [exact G2|]. split; [exact G3|]. intros y Hy. apply (gone_mono lo); auto.
  Qed.
  Lemma fent_in lo n e : fent lo n e -> e_fin e = false -> In (e_cur e) (C_ n).
  Proof. intros (_ & _ & [[G _]|(d & r & G & _)]) F; [congruence|]. rewrite G. apply in_or_app. right. left. reflexivity. Qed.
  (** A row an entry has behind it is gone. *)
  Lemma behind_gone lo n e y : fent lo n e -> In y (C_ n) -> (e_fin e = false -> cmp y (e_cur e) < 0) -> gone lo y.
  Proof.
    intros (_ & _ & [[G1 G2]|(d & r & G1 & G2 & G3 & G4)]) Hy L; [auto|].
    pose proof (HS n) as S. rewrite G1 in S, Hy. apply (ssorted_app cmp) in S as (_ & S2 & _). apply (ssorted_inv cmp) in S2 as [_ S4].
    specialize (L (rep_ext_att _ _ _ _ _ _ G2)).
    apply in_app_or in Hy as [Hy|[Hy|Hy]]; [auto| |].
    - subst y. rewrite (tc_refl _ OK) in L. lia.
    - rewrite Forall_forall in S4. specialize (S4 y Hy). apply (cmp_lt_gt _ OK) in L. lia.
  Qed.

  Lemma get_step lo lo' n e : fent lo n e -> e_fin e = false -> cmp lo lo' <= 0 -> cmp (e_cur e) lo' <= 0 ->
    fent lo' n (getItem e) /\ (e_fin (getItem e) = false -> cmp (e_cur e) (e_cur (getItem e)) < 0) /\ (rem n (getItem e) < rem n e)%nat.
  Proof.
    intros (F1 & F2 & F3) F L1 L2. destruct F3 as [[G _]|(d & r & G1 & G2 & G3 & G4)]; [congruence|].
    pose proof (rem_split n e d r G1 F) as RM.
    destruct (entryGetItem_full useAlt addTo cmpA CA joinFn e r G2) as [E1 E2].
    assert (DG : forall y, In y (d ++ [e_cur e]) -> gone lo' y).
    { intros y Hy. apply in_app_or in Hy as [Hy|[<-|[]]]; [apply (gone_mono lo); auto|left; exact L2]. }
    destruct r as [|x r].
    - split; [|split; [congruence|unfold rem at 1; rewrite E2; lia]]. split; [congruence|]. split; [intro P; apply getItem_coll; auto|].
      left. split; [exact E2|]. rewrite G1. exact DG.
    - destruct E2 as (E2 & E3 & E4).
      assert (SP : C_ n = (d ++ [e_cur e]) ++ e_cur (getItem e) :: r) by (rewrite E3, <- app_assoc; exact G1).
      split; [|split].
      + split; [congruence|]. split; [intro P; apply getItem_coll; auto|]. right. exists (d ++ [e_cur e]), r.
        split; [exact SP|]. split; [exact E2|]. split; [exact E4|exact DG].
      + intros _. pose proof (HS n) as S. rewrite SP in S. apply (ssorted_app cmp) in S as (_ & _ & S). apply S; [apply in_or_app; right; left; reflexivity|left; reflexivity].
      + rewrite RM, (rem_split n (getItem e) _ _ SP (rep_ext_att _ _ _ _ _ _ E2)). cbn [length]. lia.
  Qed.
  Lemma find_step lo n e z : fent lo n e -> e_fin e = false -> plain n = true -> cmp (e_cur e) z < 0 -> ip_valid (ip z) = true ->
    (forall y, In y (C_ n) -> cmp (e_cur e) y <= 0 -> cmp y z < 0 -> dead (ip y)) ->
    fent lo n (findItem e z) /\ (e_fin (findItem e z) = false -> cmp z (e_cur (findItem e z)) <= 0) /\ (rem n (findItem e z) < rem n e)%nat.
  Proof.
    intros (F1 & F2 & F3) F P L V HD. destruct F3 as [[G _]|(d & r & G1 & G2 & G3 & G4)]; [congruence|].
    pose proof (rem_split n e d r G1 F) as RM. specialize (F2 P).
    assert (NC : forall rest c, e_src e <> Coll rest c) by (intros rest c E; unfold is_coll in F2; rewrite E in F2; discriminate).
    assert (NO : e_off e <> 0) by (unfold moved in G3; unfold is_coll in F2; destruct (e_src e); [lia|lia|discriminate]).
    assert (L' : cmpAt (e_att e) (e_cur e) z < 0) by (rewrite F1; exact L).
    destruct (entryFindItem_spec useAlt addTo cmpA CA joinFn e r z G2 NC L' NO V) as [E1 E2]. rewrite F1 in E1, E2.
    assert (INR : forall y, In y (d ++ [e_cur e]) -> gone lo y).
    { intros y Hy. apply in_app_or in Hy as [Hy|[<-|[]]]; [auto|]. right. apply HD; [rewrite G1; apply in_or_app; right; left; reflexivity|rewrite (tc_refl _ OK); lia|exact L]. }
    assert (RIN : forall y, In y r -> In y (C_ n) /\ cmp (e_cur e) y <= 0).
    { intros y Hy. split; [rewrite G1; apply in_or_app; right; right; exact Hy|].
      pose proof (HS n) as S. rewrite G1 in S. apply (ssorted_app cmp) in S as (_ & S & _). apply (ssorted_inv cmp) in S as [_ S].
      rewrite Forall_forall in S. specialize (S y Hy). lia. }
    destruct E2 as [[E2 E3]|(a & y & r' & E2 & E3 & E4 & E5 & E6 & E7)].
    - split; [|split; [congruence|unfold rem at 1; rewrite E2; lia]]. split; [exact E1|]. split; [intros _; apply findItem_coll; exact F2|].
      left. split; [exact E2|]. intros y Hy. rewrite G1 in Hy.
      replace (d ++ e_cur e :: r) with ((d ++ [e_cur e]) ++ r) in Hy by (rewrite <- app_assoc; reflexivity).
      apply in_app_or in Hy as [Hy|Hy]; [auto|]. rewrite Forall_forall in E3. specialize (E3 y Hy). apply Z.ltb_lt in E3.
      right. destruct (RIN y Hy). apply HD; auto.
    - assert (SP : C_ n = ((d ++ [e_cur e]) ++ a) ++ e_cur (findItem e z) :: r') by (rewrite E6, G1, E2, <- !app_assoc; reflexivity).
      split; [|split].
      + split; [exact E1|]. split; [intros _; apply findItem_coll; exact F2|]. right. exists ((d ++ [e_cur e]) ++ a), r'.
        split; [exact SP|]. split; [exact E5|]. split; [exact E7|]. intros w Hw. apply in_app_or in Hw as [Hw|Hw]; [auto|].
        rewrite Forall_forall in E3. specialize (E3 w Hw). apply Z.ltb_lt in E3. right.
        destruct (RIN w) as [R1 R2]; [rewrite E2; apply in_or_app; left; exact Hw|]. apply HD; auto.
      + intros _. rewrite E6. apply Z.ltb_ge in E4. apply (cmp_ge_le _ OK). exact E4.
      + rewrite RM, (rem_split n (findItem e z) _ _ SP (rep_ext_att _ _ _ _ _ _ E5)), E2, app_length. cbn [length]. lia.
  Qed.

  (** ** The order of the entries *)
  Definition kv (e : entry) : option item := if e_fin e then None else Some (e_cur e).
  Definition cmpO (a b : option item) : Z :=
    match a, b with
    | None, None => 0 | None, Some _ => 1 | Some _, None => -1 | Some x, Some y => cmp x y
    end.
  Lemma cmpO_total : total_cmp cmpO.
  Proof.
    constructor.
    - intros [x|]; [apply (tc_refl _ OK)|reflexivity].
    - intros [x|] [y|]; cbn [cmpO]; try lia. apply (tc_anti _ OK).
    - intros [x|] [y|] [z|]; cbn [cmpO]; try lia. apply (tc_trans _ OK).
  Qed.
  Lemma cmpE_O e1 e2 : e_att e1 = att0 -> e_att e2 = att0 -> cmpE e1 e2 = cmpO (kv e1) (kv e2).
  Proof.
    intros E1 E2. unfold cmpEntries, kv. rewrite E1, E2. destruct (e_fin e1), (e_fin e2); try reflexivity.
    rewrite N.eqb_refl. reflexivity.
  Qed.
  Definition desc (K : nat -> option item) (l : list nat) : Prop := StronglySorted (fun a b => 0 <= cmpO (K a) (K b)) l.
  Definition Kof (ents : list entry) (n : nat) : option item := kv (ent ents n).

  Lemma bubble_spec ents n : forall rpre post, exists P1 P2, rev rpre = P1 ++ P2 /\ bubble ents n rpre post = P1 ++ n :: P2 ++ post /\
    (forall p, In p P2 -> 0 < cmpE (ent ents n) (ent ents p)) /\
    (P1 = [] \/ exists P1' p, P1 = P1' ++ [p] /\ cmpE (ent ents n) (ent ents p) <= 0).
  Proof.
    induction rpre as [|p r IH]; intro post; cbn [Scan.bubble].
    - exists [], []. repeat split; auto. intros p [].
    - destruct (Z.ltb_spec 0 (cmpE (ent ents n) (ent ents p))) as [L|L].
      + destruct (IH (p :: post)) as (P1 & P2 & I1 & I2 & I3 & I4). exists P1, (P2 ++ [p]). cbn [rev]. rewrite I1, I2, <- !app_assoc.
        split; [reflexivity|]. split; [reflexivity|]. split; [|exact I4]. intros q Hq. apply in_app_or in Hq as [Hq|[<-|[]]]; auto.
      + exists (rev (p :: r)), []. rewrite app_nil_r. split; [reflexivity|]. split; [reflexivity|]. split; [intros q []|].
        right. exists (rev r), p. split; [reflexivity|exact L].
  Qed.
  Lemma desc_move K P n Q P1 P2 : desc K (P ++ Q) -> P = P1 ++ P2 -> (forall p, In p P2 -> 0 < cmpO (K n) (K p)) ->
    (P1 = [] \/ exists P1' p, P1 = P1' ++ [p] /\ cmpO (K n) (K p) <= 0) -> (forall q, In q Q -> 0 <= cmpO (K n) (K q)) ->
    desc K (P1 ++ n :: P2 ++ Q).
  Proof.
    intros D -> H2 H1 HQ. unfold desc in *. rewrite <- app_assoc in D. apply SSorted_app in D as (D1 & D2 & D3).
    apply SSorted_app. split; [exact D1|]. split.
    - constructor; [exact D2|]. apply Forall_forall. intros q Hq. apply in_app_or in Hq as [Hq|Hq]; [specialize (H2 q Hq); lia|auto].
    - intros x y Hx [<-|Hy]; [|auto]. destruct H1 as [->|(P1' & p & -> & L)]; [destruct Hx|].
      assert (L' : 0 <= cmpO (K p) (K n)) by (apply (cmp_le_sym _ cmpO_total); exact L).
      apply in_app_or in Hx as [Hx|[<-|[]]]; [|exact L'].
      apply SSorted_app in D1 as (_ & _ & D1). specialize (D1 x p Hx (or_introl eq_refl)).
      apply (cmp_le_sym _ cmpO_total). apply (cmp_le_sym _ cmpO_total) in D1, L'. apply (tc_trans _ cmpO_total _ (K p)); assumption.
  Qed.

  Lemma minPredict_spec (ents : list entry) : forall l j best, (l <> [] \/ best <> None) ->
    exists m q, minPredict ents l j best = Some (m, q) /\ ((exists q', best = Some (m, q')) \/ (j <= m < j + length l)%nat).
  Proof.
    induction l as [|n r IH]; intros j best H; cbn [minPredict].
    - destruct best as [[m q]|]; [|destruct H; congruence]. exists m, q. split; [reflexivity|]. left. exists q. reflexivity.
    - match goal with |- context [minPredict ents r (S j) ?b] => destruct (IH (S j) b) as (m & q & I1 & I2) end.
      { right. destruct best as [[b q]|]; [destruct (_ <? _)%N|]; discriminate. }
      exists m, q. split; [exact I1|]. cbn [length]. destruct I2 as [(q' & I2)|I2]; [|right; lia].
      destruct best as [[b q0]|].
      + destruct (_ <? _)%N; injection I2; intros; subst; [right; lia|left; exists q'; reflexivity].
      + injection I2. intros; subst. right. lia.
  Qed.
  Lemma shift_shape ents sorted i fnd : (i < length sorted)%nat -> exists P n Q, sorted = P ++ n :: Q /\ (i <= length P)%nat /\
    entryShift i fnd (ents, sorted) =
      (let e := ent ents n in
       let e' := if fnd then findItem e (e_cur (ent ents (nth (i - 1) sorted O))) else if e_fin e then e else getItem e in
       let ents' := update ents n (fun _ => e') in (ents', bubble ents' n (rev P) Q)).
  Proof.
    intro L. unfold Scan.entryShift.
    destruct (minPredict_spec ents (skipn i sorted) i None) as (m & q & M1 & M2).
    { left. intro E. pose proof (skipn_length i sorted) as SL. rewrite E in SL. cbn in SL. lia. }
    rewrite M1. destruct M2 as [(q' & M2)|M2]; [discriminate|]. rewrite skipn_length in M2.
    destruct (nth_error sorted m) as [n|] eqn:E; [|apply nth_error_None in E; lia].
    apply nth_error_split in E as (P & Q & E1 & E2). exists P, n, Q. split; [exact E1|]. split; [lia|].
    assert (N1 : nth m sorted O = n) by (rewrite E1, app_nth2, E2, Nat.sub_diag by lia; reflexivity).
    rewrite N1. cbv zeta. f_equal. f_equal.
    - f_equal. rewrite E1, <- E2, firstn_app, firstn_all, Nat.sub_diag. cbn [firstn]. apply app_nil_r.
    - rewrite E1, <- E2. replace (P ++ n :: Q) with ((P ++ [n]) ++ Q) by (rewrite <- app_assoc; reflexivity).
      replace (S (length P)) with (length (P ++ [n])) by (rewrite app_length; cbn; lia). rewrite skipn_app, skipn_all, Nat.sub_diag. reflexivity.
  Qed.

  Definition FI (lo : item) (ents : list entry) (sorted : list nat) : Prop :=
    length ents = length Cs /\ Permutation sorted (seq 0 (length Cs)) /\ desc (Kof ents) sorted /\
    forall n, (n < length Cs)%nat -> fent lo n (ent ents n).
  Definition total (ents : list entry) : nat := list_sum (map (fun n => rem n (ent ents n)) (seq 0 (length Cs))).

  Lemma FI_in lo ents sorted n : FI lo ents sorted -> In n sorted -> (n < length Cs)%nat.
  Proof. intros (_ & P & _) H. apply (Permutation_in _ P) in H. apply in_seq in H. lia. Qed.
  Lemma FI_nodup lo ents sorted : FI lo ents sorted -> NoDup sorted.
  Proof. intros (_ & P & _). apply (Permutation_NoDup (Permutation_sym P)). apply seq_NoDup. Qed.
  Lemma FI_att lo ents sorted n : FI lo ents sorted -> (n < length Cs)%nat -> e_att (ent ents n) = att0.
  Proof. intros (_ & _ & _ & F) H. apply F. exact H. Qed.

  (** One entry moved forward and put back in its place. *)
  Lemma move_spec lo ents P n Q e' : FI lo ents (P ++ n :: Q) -> fent lo n e' -> 0 <= cmpO (kv e') (Kof ents n) -> (rem n e' < rem n (ent ents n))%nat ->
    let ents' := update ents n (fun _ => e') in
    exists P1 P2, P = P1 ++ P2 /\ bubble ents' n (rev P) Q = P1 ++ n :: P2 ++ Q /\
      (P1 = [] \/ exists P1' p, P1 = P1' ++ [p] /\ cmpO (kv e') (Kof ents p) <= 0) /\
      FI lo ents' (P1 ++ n :: P2 ++ Q) /\ (total ents' < total ents)%nat /\
      ent ents' n = e' /\ (forall m, m <> n -> ent ents' m = ent ents m).
  Proof.
    intros HF HE HK HM. cbv zeta. set (ents' := update ents n (fun _ => e')).
    assert (Hn : (n < length Cs)%nat) by (apply (FI_in _ _ _ _ HF); apply in_or_app; right; left; reflexivity).
    pose proof (FI_nodup _ _ _ HF) as ND.
    pose proof HF as (FL & FP & FD & FE).
    assert (E1 : ent ents' n = e').
    { unfold ents'. rewrite ent_update, Nat.eqb_refl, FL. apply Nat.ltb_lt in Hn. rewrite Hn. reflexivity. }
    assert (E2 : forall m, m <> n -> ent ents' m = ent ents m).
    { intros m Hm. unfold ents'. rewrite ent_update. apply Nat.eqb_neq in Hm. rewrite Hm. reflexivity. }
    apply NoDup_remove_2 in ND.
    assert (KE : forall m, In m (P ++ Q) -> Kof ents' m = Kof ents m).
    { intros m Hm. unfold Kof. rewrite E2; [reflexivity|]. intros ->. auto. }
    assert (Kn : Kof ents' n = kv e') by (unfold Kof; rewrite E1; reflexivity).
    assert (AT : forall m, (m < length Cs)%nat -> e_att (ent ents' m) = att0).
    { intros m Hm. destruct (Nat.eq_dec m n) as [->|N]; [rewrite E1; apply HE|rewrite E2 by exact N; apply FE; exact Hm]. }
    assert (IL : forall m, In m (P ++ n :: Q) -> (m < length Cs)%nat) by (intros m; apply (FI_in _ _ _ _ HF)).
    assert (IL' : forall m, In m (P ++ Q) -> (m < length Cs)%nat).
    { intros m Hm. apply IL. apply in_app_or in Hm as [Hm|Hm]; apply in_or_app; [left|right; right]; exact Hm. }
    destruct (bubble_spec ents' n (rev P) Q) as (P1 & P2 & B1 & B2 & B3 & B4). rewrite rev_involutive in B1.
    assert (CE : forall p, In p P -> cmpE (ent ents' n) (ent ents' p) = cmpO (kv e') (Kof ents p)).
    { intros p Hp. assert (Hp' : In p (P ++ Q)) by (apply in_or_app; left; exact Hp).
      rewrite cmpE_O; [|apply AT; exact Hn|apply AT, IL'; exact Hp']. rewrite E1. f_equal. apply (KE p Hp'). }
    assert (L4 : P1 = [] \/ exists P1' p, P1 = P1' ++ [p] /\ cmpO (kv e') (Kof ents p) <= 0).
    { destruct B4 as [B4|(P1' & p & B4 & B5)]; [left; exact B4|]. right. exists P1', p. split; [exact B4|]. rewrite <- CE; [exact B5|].
      rewrite B1, B4. apply in_or_app. left. apply in_or_app. right. left. reflexivity. }
    exists P1, P2. split; [exact B1|]. split; [exact B2|]. split; [exact L4|]. split; [|split; [|split; [exact E1|exact E2]]].
    - split; [unfold ents'; rewrite update_length; exact FL|]. split; [|split].
      + eapply Permutation_trans; [|exact FP]. rewrite B1, <- app_assoc. apply Permutation_app_head, Permutation_middle.
      + apply (desc_move (Kof ents') P n Q P1 P2).
        * unfold desc in FD |- *. apply SSorted_app in FD as (D1 & D2 & D3). apply StronglySorted_inv in D2 as [D2 _].
          apply (SSorted_ext (fun a b => 0 <= cmpO (Kof ents a) (Kof ents b))).
          -- intros x y Hx Hy. rewrite !KE by assumption. tauto.
          -- apply SSorted_app. split; [exact D1|]. split; [exact D2|]. intros x y Hx Hy. apply D3; [exact Hx|right; exact Hy].
        * exact B1.
        * intros p Hp. assert (IP : In p P) by (rewrite B1; apply in_or_app; right; exact Hp).
          rewrite Kn, (KE p) by (apply in_or_app; left; exact IP). rewrite <- CE by exact IP. apply B3. exact Hp.
        * destruct L4 as [L4|(P1' & p & L4 & L5)]; [left; exact L4|]. right. exists P1', p. split; [exact L4|].
          rewrite Kn, (KE p); [exact L5|]. apply in_or_app. left. rewrite B1, L4. apply in_or_app. left. apply in_or_app. right. left. reflexivity.
        * intros q Hq. rewrite Kn, (KE q) by (apply in_or_app; right; exact Hq).
          unfold desc in FD. apply SSorted_app in FD as (_ & D2 & _). apply StronglySorted_inv in D2 as [_ D2]. rewrite Forall_forall in D2.
          specialize (D2 q Hq). apply (cmp_le_sym _ cmpO_total). apply (cmp_le_sym _ cmpO_total) in D2. apply (cmp_le_sym _ cmpO_total) in HK.
          apply (tc_trans _ cmpO_total _ (Kof ents n)); assumption.
      + intros m Hm. destruct (Nat.eq_dec m n) as [->|N]; [rewrite E1; exact HE|rewrite E2 by exact N; apply FE; exact Hm].
    - unfold total. apply fsum_lt with (a := n).
      + intros m Hm. destruct (Nat.eq_dec m n) as [->|N]; [rewrite E1; lia|rewrite E2 by exact N; lia].
      + apply in_seq. lia.
      + rewrite E1. exact HM.
  Qed.

  (** The entries at the smallest row all move on, each once. *)
  Lemma shift_group x : forall g j ents U G, length G = g -> length U = j -> FI x ents (U ++ G) ->
    (forall n, In n G -> e_fin (ent ents n) = false /\ cmp (e_cur (ent ents n)) x = 0) -> (forall n, In n U -> above x (ent ents n)) ->
    let r := fold_left (fun s j => entryShift j false s) (seq j g) (ents, U ++ G) in
    FI x (fst r) (snd r) /\ (forall n, (n < length Cs)%nat -> above x (ent (fst r) n)) /\ (total (fst r) + g <= total ents)%nat.
  Proof.
    induction g as [|g IH]; intros j ents U G LG LU HF HG HU; cbn [seq fold_left]; cbv zeta.
    - destruct G; [|discriminate]. rewrite app_nil_r in *. cbn [fst snd]. split; [exact HF|]. split; [|lia].
      intros n Hn. apply HU. pose proof HF as (_ & FP & _). apply (Permutation_in _ (Permutation_sym FP)). apply in_seq. lia.
    - destruct (shift_shape ents (U ++ G) j false) as (P & n & Q & S1 & S2 & S3); [rewrite app_length; lia|].
      rewrite S3. clear S3. cbv zeta.
      assert (PG : exists G1, P = U ++ G1 /\ G = G1 ++ n :: Q).
      { destruct (app_eq_app _ _ _ _ S1) as (l & [[H1 H2]|[H1 H2]]).
        - assert (l = []) by (destruct l as [|a l']; [reflexivity|exfalso; apply (f_equal (@length nat)) in H1; rewrite app_length in H1; cbn in H1; lia]).
          subst l. rewrite app_nil_r in H1. cbn [app] in H2. exists []. rewrite app_nil_r. split; [congruence|symmetry; exact H2].
        - exists l. split; [exact H1|exact H2]. }
      destruct PG as (G1 & EP & EG).
      assert (NG : In n G) by (rewrite EG; apply in_or_app; right; left; reflexivity).
      destruct (HG n NG) as [NF NX]. rewrite NF.
      assert (Hn : (n < length Cs)%nat) by (apply (FI_in _ _ _ n HF); apply in_or_app; right; exact NG).
      destruct (get_step x x n (ent ents n)) as (G2 & G3 & G4); [apply HF; exact Hn|exact NF|rewrite (tc_refl _ OK); lia|lia|].
      assert (NX' := cmp_sym_eq _ OK _ _ NX).
      assert (AB : above x (getItem (ent ents n))).
      { intros F. specialize (G3 F). apply (cmp_le_lt_trans _ OK x (e_cur (ent ents n))); [lia|exact G3]. }
      assert (KX : forall m, In m G -> Kof ents m = Some (e_cur (ent ents m))).
      { intros m Hm. unfold Kof, kv. destruct (HG m Hm) as [-> _]. reflexivity. }
      assert (BIG : forall m, In m G -> 0 < cmpO (kv (getItem (ent ents n))) (Kof ents m)).
      { intros m Hm. rewrite (KX m Hm). unfold kv. destruct (e_fin (getItem (ent ents n))) eqn:F; [reflexivity|]. cbn [cmpO].
        apply (cmp_lt_gt _ OK). apply (cmp_le_lt_trans _ OK _ x); [destruct (HG m Hm); lia|apply AB; exact F]. }
      rewrite S1 in HF.
      destruct (move_spec x ents P n Q _ HF G2) as (P1 & P2 & M1 & M2 & M3 & M4 & M5 & M6 & M7); [specialize (BIG n NG); lia|exact G4|].
      rewrite M2. 
      assert (SPL : exists U2, U = P1 ++ U2 /\ P2 = U2 ++ G1).
      { rewrite EP in M1. destruct (app_eq_app _ _ _ _ M1) as (l & [[H1 H2]|[H1 H2]]); [exists l; split; assumption|].
        destruct M3 as [->|(P1' & p & M3 & M3')]; [exists []; destruct U; [|discriminate]; destruct l; [|discriminate]; split; [reflexivity|symmetry; exact H2]|].
        destruct l as [|a l] using rev_ind; [exists []; rewrite app_nil_r in H1; rewrite app_nil_r; split; [symmetry; exact H1|symmetry; exact H2]|clear IHl].
        exfalso. rewrite M3, app_assoc in H1. apply app_inj_tail in H1 as [_ ->].
        assert (IG : In a G) by (rewrite EG, H2; apply in_or_app; left; apply in_or_app; left; apply in_or_app; right; left; reflexivity).
        specialize (BIG a IG). lia. }
      destruct SPL as (U2 & -> & ->).
      set (ents' := update ents n (fun _ => getItem (ent ents n))) in *.
      assert (RW : P1 ++ n :: (U2 ++ G1) ++ Q = (P1 ++ n :: U2) ++ (G1 ++ Q)) by (rewrite <- !app_assoc; reflexivity).
      rewrite RW in *.
      assert (ND := FI_nodup _ _ _ HF). rewrite EP in ND. 
      assert (NN : forall m, In m (P1 ++ U2) \/ In m (G1 ++ Q) -> m <> n).
      { intros m Hm ->. apply NoDup_remove_2 in ND. apply ND. destruct Hm as [Hm|Hm].
        - apply in_or_app. left. apply in_or_app. left. exact Hm.
        - apply in_app_or in Hm as [Hm|Hm]; apply in_or_app; [left; apply in_or_app; right; exact Hm|right; exact Hm]. }
      specialize (IH (S j) ents' (P1 ++ n :: U2) (G1 ++ Q)).
      destruct IH as (I1 & I2 & I3).
      + rewrite EG, app_length in LG. cbn [length] in LG. rewrite app_length. lia.
      + rewrite app_length in *. cbn [length]. lia.
      + exact M4.
      + intros m Hm. rewrite M7 by (apply NN; right; exact Hm). apply HG. rewrite EG.
        apply in_app_or in Hm as [Hm|Hm]; apply in_or_app; [left|right; right]; exact Hm.
      + intros m Hm. destruct (Nat.eq_dec m n) as [->|N]; [rewrite M6; exact AB|]. rewrite M7 by exact N. apply HU.
        apply in_app_or in Hm as [Hm|[Hm|Hm]]; [apply in_or_app; left; exact Hm|congruence|apply in_or_app; right; exact Hm].
      + split; [exact I1|]. split; [exact I2|]. lia.
  Qed.
  Definition group (ents : list entry) (U G : list nat) (x : item) : Prop :=
    G <> [] /\ (forall n, In n G -> e_fin (ent ents n) = false /\ cmp (e_cur (ent ents n)) x = 0) /\ (forall n, In n U -> above x (ent ents n)).
  Lemma shiftAll_spec lo x ents U G : FI lo ents (U ++ G) -> cmp lo x <= 0 -> group ents U G x ->
    let r := shiftAll (length U) (ents, U ++ G) in
    FI x (fst r) (snd r) /\ (forall n, (n < length Cs)%nat -> above x (ent (fst r) n)) /\ (total (fst r) < total ents)%nat.
  Proof.
    intros HF L (G1 & G2 & G3). cbv zeta. unfold Scan.shiftAll. cbn [snd].
    replace (length (U ++ G) - length U)%nat with (length G) by (rewrite app_length; lia).
    assert (HF' : FI x ents (U ++ G)).
    { destruct HF as (F1 & F2 & F3 & F4). split; [exact F1|]. split; [exact F2|]. split; [exact F3|]. intros n Hn. apply (fent_mono lo); auto. }
    destruct (shift_group x (length G) (length U) ents U G eq_refl eq_refl HF' G2 G3) as (S1 & S2 & S3).
    split; [exact S1|]. split; [exact S2|]. destruct G; [congruence|]. cbn [length] in *. lia.
  Qed.

  (** ** The border *)
  Lemma borderLoop_spec ents (keys : list (skey * kst)) : forall l no prev i k,
    (forall n, In n ((no ++ [prev]) ++ l) -> e_att (ent ents n) = att0) ->
    desc (Kof ents) ((no ++ [prev]) ++ l) -> i = length (no ++ [prev]) ->
    (exists D1 D2, no ++ [prev] = D1 ++ D2 /\ length D1 = k /\ D2 <> [] /\ (forall d, In d D2 -> cmpO (Kof ents d) (Kof ents prev) = 0) /\
        forall d, In d D1 -> 0 < cmpO (Kof ents d) (Kof ents prev)) ->
    let '(i', k', pre) := borderLoop useAlt addTo cmpA ents keys no prev l i k in
    if pre then i' = length ((no ++ [prev]) ++ l) /\
      exists U G, (no ++ [prev]) ++ l = U ++ G /\ length U = k' /\ G <> [] /\
        (forall d, In d G -> cmpO (Kof ents d) (Kof ents (last G O)) = 0) /\ forall d, In d U -> 0 < cmpO (Kof ents d) (Kof ents (last G O))
    else exists F b c R, (no ++ [prev]) ++ l = (F ++ [b]) ++ c :: R /\ i' = length (F ++ [b]) /\
        preConsistentCheck keys (F ++ [b]) = false /\ 0 < cmpO (Kof ents b) (Kof ents c).
  Proof.
    induction l as [|n r IH]; intros no prev i k HAt HD Hi HG; cbn [borderLoop].
    - rewrite app_nil_r in *. split; [exact Hi|]. destruct HG as (D1 & D2 & H1 & H2 & H3 & H4 & H5). exists D1, D2.
      assert (E : last D2 O = prev).
      { destruct D2 as [|a D2] using rev_ind; [congruence|]. rewrite app_assoc in H1. apply app_inj_tail in H1 as [_ ->]. apply last_last. }
      rewrite E. split; [exact H1|]. split; [exact H2|]. split; [exact H3|]. split; [exact H4|exact H5].
    - assert (CE : cmpE (ent ents n) (ent ents prev) = cmpO (Kof ents n) (Kof ents prev)).
      { apply cmpE_O; apply HAt; apply in_or_app; [right; left; reflexivity|left; apply in_or_app; right; left; reflexivity]. }
      rewrite CE.
      assert (RW : (no ++ [prev]) ++ n :: r = ((no ++ [prev]) ++ [n]) ++ r) by (rewrite <- !app_assoc; reflexivity).
      assert (LS : S i = length ((no ++ [prev]) ++ [n])) by (rewrite app_length; cbn [length]; lia).
      destruct (Z.ltb_spec (cmpO (Kof ents n) (Kof ents prev)) 0) as [L|L].
      + destruct (preConsistentCheck keys (no ++ [prev])) eqn:PC.
        * rewrite RW in HAt, HD |- *. apply (IH (no ++ [prev]) n (S i) i); [exact HAt|exact HD|exact LS|].
          exists (no ++ [prev]), [n]. split; [reflexivity|]. split; [lia|]. split; [discriminate|]. split.
          -- intros d [<-|[]]. apply (tc_refl _ cmpO_total).
          -- intros d Hd. destruct HG as (D1 & D2 & H1 & H2 & H3 & H4 & H5). rewrite H1 in Hd. apply (cmp_lt_gt _ cmpO_total).
             apply in_app_or in Hd as [Hd|Hd].
             ++ specialize (H5 d Hd). apply (cmp_lt_trans _ cmpO_total _ (Kof ents prev)); [exact L|apply (cmp_gt_lt _ cmpO_total); exact H5].
             ++ specialize (H4 d Hd). apply (cmp_lt_le_trans _ cmpO_total _ (Kof ents prev)); [exact L|]. apply (cmp_sym_eq _ cmpO_total) in H4. lia.
        * exists no, prev, n, r. split; [reflexivity|]. split; [exact Hi|]. split; [exact PC|]. apply (cmp_lt_gt _ cmpO_total). exact L.
      + rewrite RW in HAt, HD |- *. apply (IH (no ++ [prev]) n (S i) k); [exact HAt|exact HD|exact LS|].
        destruct HG as (D1 & D2 & H1 & H2 & H3 & H4 & H5).
        assert (EQ : cmpO (Kof ents prev) (Kof ents n) = 0).
        { unfold desc in HD. apply SSorted_app in HD as (HD & _). apply SSorted_app in HD as (_ & _ & HD).
          specialize (HD prev n ltac:(apply in_or_app; right; left; reflexivity) ltac:(left; reflexivity)).
          apply (cmp_le_sym _ cmpO_total) in L. lia. }
        exists D1, (D2 ++ [n]). rewrite app_assoc, <- H1. split; [reflexivity|]. split; [exact H2|]. split; [destruct D2; discriminate|]. split.
        * intros d Hd. apply in_app_or in Hd as [Hd|[<-|[]]]; [|apply (tc_refl _ cmpO_total)]. specialize (H4 d Hd).
          assert (X1 : cmpO (Kof ents d) (Kof ents n) <= 0) by (apply (tc_trans _ cmpO_total _ (Kof ents prev)); lia).
          apply (cmp_sym_eq _ cmpO_total) in H4, EQ.
          assert (X2 : cmpO (Kof ents n) (Kof ents d) <= 0) by (apply (tc_trans _ cmpO_total _ (Kof ents prev)); lia).
          apply (cmp_le_sym _ cmpO_total) in X2. lia.
        * intros d Hd. specialize (H5 d Hd). apply (cmp_gt_lt _ cmpO_total) in H5. apply (cmp_lt_gt _ cmpO_total).
          apply (cmp_sym_eq _ cmpO_total) in EQ. apply (cmp_le_lt_trans _ cmpO_total _ (Kof ents prev)); [lia|exact H5].
  Qed.

  (** ** Pre-filtering *)
  Hypothesis HPre : forall k, In k keys0 -> sk_order k = false -> pre_sound k.

  Lemma present_in (C : list item) p a : present C p = Some a -> exists y, In y C /\ ip y = p.
  Proof.
    unfold present. destruct (find _ C) as [z|] eqn:F; [|discriminate]. intros _. apply find_some in F as [F1 F2]. apply tid_eqb_eq in F2. exists z. auto.
  Qed.
  Lemma pre_refuses (keys : list (skey * kst)) no : map fst keys = keys0 -> preConsistentCheck keys no = false ->
    exists k f, In k keys0 /\ sk_order k = false /\ sk_every k = false /\ sk_pre k = Some f /\
      f (map (fun n => negb (existsb (Nat.eqb n) no)) (sk_ents k)) = false.
  Proof.
    intros HK H. unfold preConsistentCheck in H.
    assert (X : existsb (fun kk : skey * kst => negb (sk_order (fst kk) || sk_every (fst kk) ||
      match sk_pre (fst kk) with None => true | Some f => forallb (fun b => b) (map (fun n => negb (existsb (Nat.eqb n) no)) (sk_ents (fst kk))) || f (map (fun n => negb (existsb (Nat.eqb n) no)) (sk_ents (fst kk))) end)) keys = true).
    { clear HK. induction keys as [|kk r IH]; [discriminate|]. cbn [forallb existsb] in *. apply andb_false_iff in H as [H|H]; [rewrite H; reflexivity|].
      rewrite IH by exact H. apply orb_true_r. }
    apply existsb_exists in X as ([k ks] & X1 & X2). cbn [fst] in X2. apply negb_true_iff in X2.
    apply orb_false_iff in X2 as [X2 X3]. apply orb_false_iff in X2 as [X2 X4].
    destruct (sk_pre k) as [f|] eqn:E; [|discriminate]. apply orb_false_iff in X3 as [_ X3].
    exists k, f. split; [rewrite <- HK; apply (in_map fst) in X1; exact X1|]. auto.
  Qed.
  Lemma pre_dead (keys : list (skey * kst)) no (y : item) : map fst keys = keys0 -> preConsistentCheck keys no = false ->
    (forall m y', In m no -> In y' (C_ m) -> ip y' = ip y -> dead (ip y)) -> dead (ip y).
  Proof.
    intros HK HP HD. destruct (pre_refuses keys no HK HP) as (k & f & K1 & K2 & K3 & K4 & K5).
    destruct (existsb (fun n => existsb (Nat.eqb n) no && match present (C_ n) (ip y) with Some _ => true | None => false end) (sk_ents k)) eqn:X.
    - apply existsb_exists in X as (n & _ & X). apply andb_true_iff in X as [X1 X2]. apply existsb_exists in X1 as (m & X1 & X3). apply Nat.eqb_eq in X3. subst m.
      destruct (present (C_ n) (ip y)) as [a|] eqn:PR; [|discriminate]. destruct (present_in _ _ _ PR) as (y' & Y1 & Y2). apply (HD n y'); auto.
    - exists k. split; [exact K1|]. split; [exact K2|]. split; [exact K3|]. intros v LV.
      apply (HPre k K1 K2 f _ v K4 K5); [apply map_length|].
      unfold le_vec, sees in LV. clear - LV X. revert v LV X. induction (sk_ents k) as [|n r IH]; intros v LV X; cbn [map] in *.
      + inversion LV. constructor.
      + inversion LV as [|a b v' w' L1 L2]; subst. cbn [existsb] in X. apply orb_false_iff in X as [X1 X2]. constructor; [|apply IH; assumption].
        destruct (existsb (Nat.eqb n) no); [right|left; reflexivity]. cbn [andb] in X1.
        destruct (present (C_ n) (ip y)); [discriminate|]. destruct L1; assumption.
  Qed.
  Lemma dead_ip (p q : iptr) : p = q -> dead p -> dead q. Proof. intros ->. auto. Qed.

  (** Rows before all current rows, and after [lo], are dead. *)
  Lemma between_dead lo ents sorted n y : FI lo ents sorted -> (n < length Cs)%nat -> In y (C_ n) -> cmp lo y < 0 ->
    (e_fin (ent ents n) = false -> cmp y (e_cur (ent ents n)) < 0) -> dead (ip y).
  Proof.
    intros (_ & _ & _ & F) Hn Hy L H. destruct (behind_gone lo n _ y (F n Hn) Hy H) as [G|G]; [|exact G].
    apply (cmp_lt_gt _ OK) in L. lia.
  Qed.

  (** ** What the match functions see *)
  Lemma check_entry lo ents sorted x n : FI lo ents sorted -> (n < length Cs)%nat -> cmp lo x < 0 -> (exists m, In x (C_ m)) ->
    (e_fin (ent ents n) = false -> cmp x (e_cur (ent ents n)) <= 0) ->
    let o := if negb (e_fin (ent ents n)) && (rumCompareItemPointers (ip (e_cur (ent ents n))) (ip x) =? 0) then Some (add (e_cur (ent ents n))) else None in
    o = present (C_ n) (ip x) \/ (o = None /\ dead (ip x)).
  Proof.
    intros HF Hn Lx (m & Hx) Hmin. cbv zeta. rewrite cip_eqb.
    assert (FE := proj2 (proj2 (proj2 HF)) n Hn).
    assert (UN : forall y y', In y (C_ n) -> In y' (C_ n) -> ip y' = ip y -> y' = y).
    { intros y y' Hy Hy' E. pose proof (HA n n y' y Hy' Hy E) as Z0. pose proof (HS n) as S.
      destruct (in_split _ _ Hy) as (l1 & l2 & EL). rewrite EL in S, Hy'. apply (ssorted_app cmp) in S as (_ & S2 & S3). apply (ssorted_inv cmp) in S2 as [_ S4].
      apply in_app_or in Hy' as [Hy'|[Hy'|Hy']].
      - specialize (S3 y' y Hy' (or_introl eq_refl)). lia.
      - symmetry. exact Hy'.
      - rewrite Forall_forall in S4. specialize (S4 y' Hy'). apply (cmp_lt_gt _ OK) in S4. lia. }
    destruct (present (C_ n) (ip x)) as [a|] eqn:PR.
    - unfold present in PR. destruct (find _ (C_ n)) as [z|] eqn:F; [|discriminate]. cbn [option_map] in PR. apply Some_inj in PR. subst a.
      apply find_some in F as [F1 F2]. apply tid_eqb_eq in F2. pose proof (HA n m z x F1 Hx F2) as Z0.
      destruct (e_fin (ent ents n)) eqn:FN.
      + right. split; [reflexivity|]. rewrite <- F2. apply (between_dead lo ents sorted n z HF Hn F1); [|congruence].
        apply (cmp_lt_le_trans _ OK lo x); [exact Lx|]. apply (cmp_sym_eq _ OK) in Z0. lia.
      + destruct (tid_eqb (ip (e_cur (ent ents n))) (ip x)) eqn:TE; cbn [negb andb].
        * apply tid_eqb_eq in TE. left. f_equal. f_equal. symmetry. apply UN; [exact (fent_in lo n _ FE FN)|exact F1|congruence].
        * right. split; [reflexivity|]. rewrite <- F2. apply (between_dead lo ents sorted n z HF Hn F1).
          -- apply (cmp_lt_le_trans _ OK lo x); [exact Lx|]. apply (cmp_sym_eq _ OK) in Z0. lia.
          -- intros _. specialize (Hmin eq_refl). destruct (Z.eq_dec (cmp x (e_cur (ent ents n))) 0) as [E0|NE].
             ++ exfalso. apply cmpAt_eq_ip in E0. rewrite E0 in TE. assert (X : tid_eqb (ip (e_cur (ent ents n))) (ip (e_cur (ent ents n))) = true) by (apply tid_eqb_eq; reflexivity). congruence.
             ++ apply (cmp_le_lt_trans _ OK z x); lia.
    - left. destruct (e_fin (ent ents n)) eqn:FN; [reflexivity|]. cbn [negb andb].
      destruct (tid_eqb (ip (e_cur (ent ents n))) (ip x)) eqn:TE; [|reflexivity]. exfalso. apply tid_eqb_eq in TE.
      unfold present in PR. destruct (find _ (C_ n)) as [z|] eqn:F; [discriminate|]. 
      pose proof (find_none _ _ F _ (fent_in lo n _ FE FN)) as X. cbn beta in X. rewrite TE in X.
      assert (X2 : tid_eqb (ip x) (ip x) = true) by (apply tid_eqb_eq; reflexivity). congruence.
  Qed.
  Lemma check_sees lo ents sorted x k : FI lo ents sorted -> cmp lo x < 0 -> (exists m, In x (C_ m)) ->
    (forall n, (n < length Cs)%nat -> e_fin (ent ents n) = false -> cmp x (e_cur (ent ents n)) <= 0) ->
    (forall n, In n (sk_ents k) -> (n < length Cs)%nat) ->
    le_vec (checkAt ents k (ip x)) (sees Cs k (ip x)) /\ (checkAt ents k (ip x) = sees Cs k (ip x) \/ dead (ip x)).
  Proof.
    intros HF Lx Hx Hmin HK. unfold checkAt, sees, le_vec. induction (sk_ents k) as [|n r IH]; cbn [map]; [split; [constructor|left; reflexivity]|].
    destruct IH as [I1 I2]; [intros; apply HK; right; assumption|].
    assert (Hn : (n < length Cs)%nat) by (apply HK; left; reflexivity).
    pose proof (check_entry lo ents sorted x n HF Hn Lx Hx (Hmin n Hn)) as CE. cbv zeta in CE.
    split.
    - constructor; [|exact I1]. destruct CE as [->|[-> _]]; [right; reflexivity|left; reflexivity].
    - destruct CE as [->|[_ D]]; [|right; exact D]. destruct I2 as [->|D]; [left; reflexivity|right; exact D].
  Qed.

  (** ** The match functions: one search condition *)
  Variable ksearch : skey.
  Hypothesis HOne : filter (fun k => negb (sk_order k)) keys0 = [ksearch].
  Hypothesis HEnts : forall k n, In k keys0 -> In n (sk_ents k) -> (n < length Cs)%nat.
  Hypothesis HPlain : forall n, (n < length Cs)%nat -> plain n = true \/
    (sk_every ksearch = true \/ fst (sk_cons ksearch (map (fun _ => None) (sk_ents ksearch))) = true).

  Lemma one_in : In ksearch keys0 /\ sk_order ksearch = false.
  Proof.
    assert (H : In ksearch (filter (fun k => negb (sk_order k)) keys0)) by (rewrite HOne; left; reflexivity).
    apply filter_In in H as [H1 H2]. split; [exact H1|]. apply negb_true_iff. exact H2.
  Qed.
  Lemma one_only k : In k keys0 -> sk_order k = false -> k = ksearch.
  Proof.
    intros H1 H2. assert (H : In k (filter (fun k => negb (sk_order k)) keys0)) by (apply filter_In; split; [exact H1|rewrite H2; reflexivity]).
    rewrite HOne in H. destruct H as [H|[]]. symmetry. exact H.
  Qed.
  Definition good (p : iptr) : Prop := says addTo ksearch (sees Cs ksearch p).
  Lemma le_vec_refl v : le_vec v v.
  Proof. unfold le_vec. induction v as [|a v IH]; constructor; [right; reflexivity|exact IH]. Qed.
  Lemma dead_not_good p : dead p -> ~ good p.
  Proof.
    intros (k & K1 & K2 & K3 & K4) [G _]. apply one_only in K1; [|exact K2]. subst k. destruct G as [G|G]; [congruence|].
    rewrite K4 in G; [discriminate|]. apply le_vec_refl.
  Qed.
  Lemma all_plain (keys : list (skey * kst)) no n : map fst keys = keys0 -> preConsistentCheck keys no = false -> (n < length Cs)%nat -> plain n = true.
  Proof.
    intros HK HP Hn. destruct (HPlain n Hn) as [P|P]; [exact P|]. exfalso.
    destruct (pre_refuses keys no HK HP) as (k & f & K1 & K2 & K3 & K4 & K5). pose proof (one_only k K1 K2). subst k.
    destruct P as [P|P]; [congruence|].
    rewrite (HPre ksearch K1 K2 f _ (map (fun _ => None) (sk_ents ksearch)) K4 K5) in P; [discriminate|apply map_length|].
    clear. induction (sk_ents ksearch); cbn [map]; constructor; auto.
  Qed.

  Lemma consistent_none kpos : forall (keys : list (skey * kst)) es ok, filter (fun k => negb (sk_order k)) (map fst keys) = [] ->
    consistentLoop useAlt addTo cmpA joinFn kpos keys es ok = (keys, es, ok).
  Proof.
    induction keys as [|[k ks] r IH]; intros es ok H; cbn [consistentLoop]; [reflexivity|]. cbn [map fst filter] in H.
    destruct (sk_order k); cbn [negb] in H; [|discriminate]. rewrite IH by exact H. reflexivity.
  Qed.
  Lemma no_recheck (keys : list (skey * kst)) : filter (fun k => negb (sk_order k)) (map fst keys) = [] ->
    existsb (fun kk : skey * kst => negb (sk_order (fst kk)) && ks_re (snd kk)) keys = false.
  Proof.
    induction keys as [|[k ks] r IH]; intro H; cbn [existsb]; [reflexivity|]. cbn [map fst filter] in H.
    destruct (sk_order k) eqn:E; cbn [negb] in H; [|discriminate]. cbn [fst]. rewrite E. cbn [negb andb orb]. apply IH. exact H.
  Qed.
  Lemma consistent_one kpos : forall (keys : list (skey * kst)) es ok, filter (fun k => negb (sk_order k)) (map fst keys) = [ksearch] ->
    let p := ip (e_cur (ent (fst es) (last (snd es) O))) in
    let rr := callConsistentFn addTo ksearch (checkAt (fst es) ksearch p) in
    exists keys', consistentLoop useAlt addTo cmpA joinFn kpos keys es ok = (keys', (if fst rr then es else shiftAll kpos es), ok && fst rr) /\
      map fst keys' = map fst keys /\ existsb (fun kk : skey * kst => negb (sk_order (fst kk)) && ks_re (snd kk)) keys' = snd rr.
  Proof.
    induction keys as [|[k ks] r IH]; intros es ok H; cbn [consistentLoop]; [discriminate|]. cbv zeta. cbn [map fst filter] in H.
    destruct (sk_order k) eqn:E; cbn [negb] in H.
    - destruct (IH es ok H) as (keys' & I1 & I2 & I3). rewrite I1. exists ((k, ks) :: keys'). split; [reflexivity|]. cbn [map fst existsb snd].
      rewrite E. cbn [negb andb orb]. split; [f_equal; exact I2|exact I3].
    - injection H. intros H' ->. destruct (callConsistentFn addTo ksearch _) as [res re] eqn:CC. cbn [fst snd].
      rewrite consistent_none by exact H'.
      eexists. split; [reflexivity|]. cbn [map fst existsb snd]. split; [reflexivity|]. rewrite E. cbn [negb andb ks_re].
      rewrite no_recheck by exact H'. apply orb_false_r.
  Qed.

  (** ** The loop *)
  Lemma last_in {T} (l : list T) d : l <> [] -> In (last l d) l.
  Proof.
    intro H. destruct l as [|a l] using rev_ind; [congruence|]. rewrite last_last. apply in_or_app. right. left. reflexivity.
  Qed.
  Lemma group_of lo ents U G : FI lo ents (U ++ G) -> G <> [] -> e_fin (ent ents (last G O)) = false ->
    (forall d, In d G -> cmpO (Kof ents d) (Kof ents (last G O)) = 0) -> (forall d, In d U -> 0 < cmpO (Kof ents d) (Kof ents (last G O))) ->
    let x := e_cur (ent ents (last G O)) in
    group ents U G x /\ (exists m, In x (C_ m)) /\ (forall n, (n < length Cs)%nat -> e_fin (ent ents n) = false -> cmp x (e_cur (ent ents n)) <= 0).
  Proof.
    intros HF NE NF HG HU. cbv zeta. set (x := e_cur (ent ents (last G O))).
    assert (KX : Kof ents (last G O) = Some x) by (unfold Kof, kv; rewrite NF; reflexivity). rewrite KX in *.
    assert (G1 : forall n, In n G -> e_fin (ent ents n) = false /\ cmp (e_cur (ent ents n)) x = 0).
    { intros n Hn. specialize (HG n Hn). unfold Kof, kv in HG. destruct (e_fin (ent ents n)); [discriminate|]. split; [reflexivity|exact HG]. }
    assert (G2 : forall n, In n U -> above x (ent ents n)).
    { intros n Hn F. specialize (HU n Hn). unfold Kof, kv in HU. rewrite F in HU. apply (cmp_gt_lt _ OK). exact HU. }
    split; [split; [exact NE|split; assumption]|]. split.
    - exists (last G O). assert (Hl : (last G O < length Cs)%nat) by (apply (FI_in _ _ _ _ HF); apply in_or_app; right; apply last_in; exact NE).
      apply (fent_in lo); [apply HF; exact Hl|exact NF].
    - intros n Hn F. assert (IS : In n (U ++ G)).
      { pose proof HF as (_ & FP & _). apply (Permutation_in _ (Permutation_sym FP)). apply in_seq. lia. }
      apply in_app_or in IS as [IS|IS]; [specialize (G2 n IS F); lia|]. destruct (G1 n IS) as [_ Z0]. apply (cmp_sym_eq _ OK) in Z0. lia.
  Qed.

  Lemma border_start lo ents n0 r (keys : list (skey * kst)) : FI lo ents (n0 :: r) ->
    let '(i', k', pre) := borderLoop useAlt addTo cmpA ents keys [] n0 r 1 0 in
    if pre then i' = length (n0 :: r) /\ exists U G, n0 :: r = U ++ G /\ length U = k' /\ G <> [] /\
        (forall d, In d G -> cmpO (Kof ents d) (Kof ents (last G O)) = 0) /\ forall d, In d U -> 0 < cmpO (Kof ents d) (Kof ents (last G O))
    else exists F b c R, n0 :: r = (F ++ [b]) ++ c :: R /\ i' = length (F ++ [b]) /\
        preConsistentCheck keys (F ++ [b]) = false /\ 0 < cmpO (Kof ents b) (Kof ents c).
  Proof.
    intro HF. apply (borderLoop_spec ents keys r [] n0 1%nat 0%nat).
    - intros n Hn. apply (FI_att _ _ _ _ HF). apply (FI_in _ _ _ _ HF). exact Hn.
    - apply HF.
    - reflexivity.
    - exists [], [n0]. split; [reflexivity|]. split; [reflexivity|]. split; [discriminate|]. split; [|intros d []].
      intros d [<-|[]]. apply (tc_refl _ cmpO_total).
  Qed.

  Definition no_more (lo : item) : Prop := forall n y, (n < length Cs)%nat -> In y (C_ n) -> cmp lo y < 0 -> ~ good (ip y).
  (** The state in which a row is handed out. *)
  Definition handed (lo : item) (st : fst_ (A := A)) (x : item) (re : bool) : Prop :=
    exists lo1 U G, f_sorted st = U ++ G /\ f_incr st = Some (length U) /\ FI lo1 (f_ents st) (U ++ G) /\ cmp lo lo1 <= 0 /\ cmp lo1 x < 0 /\
      group (f_ents st) U G x /\ map fst (f_keys st) = keys0 /\ (exists m, (m < length Cs)%nat /\ In x (C_ m)) /\ good (ip x) /\
      (re = snd (callConsistentFn addTo ksearch (sees Cs ksearch (ip x)))) /\
      (forall k, In k keys0 -> checkAt (f_ents st) k (ip x) = sees Cs k (ip x)) /\
      (forall n y, (n < length Cs)%nat -> In y (C_ n) -> cmp lo y < 0 -> cmp y x < 0 -> ~ good (ip y)).
  Lemma fast_loop_spec : forall fuel st lo, FI lo (f_ents st) (f_sorted st) -> (forall n, (n < length Cs)%nat -> above lo (ent (f_ents st) n)) ->
    map fst (f_keys st) = keys0 -> (total (f_ents st) < fuel)%nat ->
    match fast_loop useAlt addTo cmpA joinFn fuel st with
    | None => no_more lo
    | Some (st', x, re) => handed lo st' x re /\ (total (f_ents st') <= total (f_ents st))%nat
    end.
  Proof.
    induction fuel as [|f IH]; intros st lo HF HAb HK HL; [lia|]. cbn [fast_loop].
    destruct (f_sorted st) as [|n0 r] eqn:ES.
    { intros n y Hn. pose proof HF as (_ & FP & _). apply Permutation_nil in FP. destruct (length Cs); [lia|discriminate]. }
    rewrite <- ES in *. pose proof (border_start lo (f_ents st) n0 r (f_keys st)) as BS. rewrite <- ES in BS. specialize (BS HF).
    destruct (borderLoop useAlt addTo cmpA (f_ents st) (f_keys st) [] n0 r 1 0) as [[i k] pre]. destruct pre.
    - destruct BS as (B1 & U & G & B2 & B3 & B4 & B5 & B6).
      assert (LE : nth (i - 1) (f_sorted st) O = last G O /\ last (f_sorted st) O = last G O).
      { rewrite B1, B2. destruct G as [|z G] using rev_ind; [congruence|]. rewrite last_last, app_assoc, last_last. split; [|reflexivity].
        rewrite app_length. cbn [length]. rewrite app_nth2, Nat.add_sub, Nat.sub_diag by lia. reflexivity. }
      destruct LE as [LE1 LE2]. rewrite LE1.
      destruct (e_fin (ent (f_ents st) (last G O))) eqn:FN.
      + (* all entries are finished *)
        intros n y Hn Hy L. apply dead_not_good. apply (between_dead lo (f_ents st) (f_sorted st) n y HF Hn Hy L).
        intros F. exfalso. assert (KN : Kof (f_ents st) (last G O) = None) by (unfold Kof, kv; rewrite FN; reflexivity). rewrite KN in *.
        assert (IS : In n (U ++ G)).
        { pose proof HF as (_ & FP & _). rewrite <- B2. apply (Permutation_in _ (Permutation_sym FP)). apply in_seq. lia. }
        assert (KS : Kof (f_ents st) n = Some (e_cur (ent (f_ents st) n))) by (unfold Kof, kv; rewrite F; reflexivity).
        apply in_app_or in IS as [IS|IS]; [specialize (B6 n IS)|specialize (B5 n IS)]; rewrite KS in *; cbn [cmpO] in *; lia.
      + pose proof HF as HF'. rewrite B2 in HF'.
        destruct (group_of lo (f_ents st) U G HF' B4 FN B5 B6) as (GR & GX & GM). set (x := e_cur (ent (f_ents st) (last G O))) in *.
        assert (ML : (last G O < length Cs)%nat) by (apply (FI_in _ _ _ _ HF'); apply in_or_app; right; apply last_in; exact B4).
        assert (LX : cmp lo x < 0) by (apply (HAb _ ML); exact FN).
        assert (KE1 : forall n, In n (sk_ents ksearch) -> (n < length Cs)%nat) by (intros n; apply HEnts, one_in).
        destruct (check_sees lo (f_ents st) (f_sorted st) x ksearch HF LX GX GM KE1) as [CV CS].
        assert (BT : forall n y, (n < length Cs)%nat -> In y (C_ n) -> cmp lo y < 0 -> cmp y x < 0 -> ~ good (ip y)).
        { intros n y Hn Hy L1 L2. apply dead_not_good. apply (between_dead lo (f_ents st) (f_sorted st) n y HF Hn Hy L1).
          intro F. apply (cmp_lt_le_trans _ OK y x); [exact L2|apply GM; assumption]. }
        destruct (consistent_one k (f_keys st) (f_ents st, f_sorted st) true) as (keys' & C1 & C2 & C3); [rewrite HK; exact HOne|].
        cbn [fst snd] in C1, C3. rewrite LE2 in C1, C3. fold x in C1, C3. rewrite C1. cbn [andb].
        destruct (fst (callConsistentFn addTo ksearch (checkAt (f_ents st) ksearch (ip x)))) eqn:RES.
        * (* the row is handed out *)
          cbn [fst snd]. rewrite LE2. fold x.
          assert (ND : ~ dead (ip x)).
          { intros (k1 & K1 & K2 & K3 & K4). apply one_only in K1; [|exact K2]. subst k1.
            unfold callConsistentFn in RES. rewrite K3 in RES. specialize (K4 _ CV). clear - RES K4. revert RES K4.
            destruct (sk_cons ksearch (checkAt (f_ents st) ksearch (ip x))) as [a b]. cbn [fst]. intros RES ->. discriminate. }
          destruct CS as [CS|CS]; [|contradiction]. rewrite CS in RES, C3.
          split; [|cbn [f_ents]; lia]. exists lo, U, G. cbn [f_sorted f_incr f_ents f_keys]. rewrite B3.
          split; [exact B2|]. split; [reflexivity|]. split; [exact HF'|]. split; [rewrite (tc_refl _ OK); lia|]. split; [exact LX|]. split; [exact GR|].
          split; [congruence|]. split; [exists (last G O); split; [exact ML|apply (fent_in lo); [apply HF; exact ML|exact FN]]|].
          split; [apply says_iff; exact RES|]. split; [exact C3|]. split; [|exact BT].
          intros k1 Hk1. destruct (check_sees lo (f_ents st) (f_sorted st) x k1 HF LX GX GM (fun n => HEnts k1 n Hk1)) as [_ [E|D]]; [exact E|contradiction].
        * (* rejected *)
          rewrite B2, <- B3. destruct (shiftAll_spec lo x (f_ents st) U G HF' ltac:(lia) GR) as (S1 & S2 & S3).
          destruct (shiftAll (length U) (f_ents st, U ++ G)) as [ents' sorted'] eqn:SA. cbn [fst snd] in *.
          specialize (IH (mkFst ents' sorted' keys' (f_incr st)) x S1 S2 ltac:(cbn [f_keys]; congruence) ltac:(cbn [f_ents]; lia)).
          cbn [f_ents] in IH.
          assert (NG : ~ good (ip x)).
          { destruct CS as [CS|CS]; [|apply dead_not_good; exact CS]. rewrite CS in RES. intro Gd. apply says_iff in Gd. congruence. }
          assert (UP : forall n y, (n < length Cs)%nat -> In y (C_ n) -> cmp lo y < 0 -> cmp y x <= 0 -> ~ good (ip y)).
          { intros n y Hn Hy L1 L2. destruct (Z.eq_dec (cmp y x) 0) as [E|N]; [|apply (BT n y Hn Hy L1); lia].
            apply cmpAt_eq_ip in E. rewrite E. exact NG. }
          destruct (fast_loop useAlt addTo cmpA joinFn f (mkFst ents' sorted' keys' (f_incr st))) as [[[st' x'] re']|].
          -- destruct IH as [(lo1 & U' & G' & I1 & I2 & I3 & I4 & I5 & I6 & I7 & I8 & I9 & I10 & I11 & I12) I13]. split; [|lia].
             exists lo1, U', G'. split; [exact I1|]. split; [exact I2|]. split; [exact I3|]. split; [apply (tc_trans _ OK lo x lo1); lia|].
             split; [exact I5|]. split; [exact I6|]. split; [exact I7|]. split; [exact I8|]. split; [exact I9|]. split; [exact I10|]. split; [exact I11|].
             intros n y Hn Hy L1 L2. destruct (Z.le_gt_cases (cmp y x) 0) as [E|E]; [apply (UP n y); assumption|].
             apply (I12 n y Hn Hy); [apply (cmp_gt_lt _ OK); exact E|exact L2].
          -- intros n y Hn Hy L1. destruct (Z.le_gt_cases (cmp y x) 0) as [E|E]; [apply (UP n y); assumption|].
             apply (IH n y Hn Hy). apply (cmp_gt_lt _ OK). exact E.
    - destruct BS as (F & b & c & R & B1 & B2 & B3 & B4).
      assert (NB : nth (i - 1) (f_sorted st) O = b).
      { rewrite B1, B2, app_nth1 by (rewrite app_length; cbn; lia). rewrite app_length. cbn [length]. rewrite app_nth2, Nat.add_sub, Nat.sub_diag by lia. reflexivity. }
      rewrite NB. set (ents := f_ents st) in *.
      assert (FD : desc (Kof ents) ((F ++ [b]) ++ c :: R)) by (rewrite <- B1; apply HF).
      assert (BIG : forall m, In m (F ++ [b]) -> 0 <= cmpO (Kof ents m) (Kof ents b)).
      { intros m Hm. apply in_app_or in Hm as [Hm|[<-|[]]]; [|rewrite (tc_refl _ cmpO_total); lia].
        unfold desc in FD. apply SSorted_app in FD as (FD & _). apply SSorted_app in FD as (_ & _ & FD). apply FD; [exact Hm|left; reflexivity]. }
      assert (FL : forall m, In m (F ++ [b]) -> (m < length Cs)%nat).
      { intros m Hm. apply (FI_in _ _ _ _ HF). rewrite B1. apply in_or_app. left. exact Hm. }
      destruct (e_fin (ent ents b)) eqn:FB.
      + (* too few query keys are left *)
        intros n y Hn Hy L. apply dead_not_good. apply (pre_dead (f_keys st) (F ++ [b]) y HK B3).
        intros m y' Hm Hy' E. apply (dead_ip (ip y')); [exact E|]. apply (between_dead lo ents (f_sorted st) m y' HF (FL m Hm) Hy').
        * pose proof (HA m n y' y Hy' Hy E) as Z0. apply (cmp_sym_eq _ OK) in Z0. apply (cmp_lt_le_trans _ OK lo y); [exact L|lia].
        * intro F0. exfalso. specialize (BIG m Hm). unfold Kof, kv in BIG. rewrite FB, F0 in BIG. cbn [cmpO] in BIG. lia.
      + destruct (shift_shape ents (f_sorted st) i true) as (P & n & Q & S1 & S2 & S3).
        { rewrite B1, app_length, <- B2. cbn [length]. lia. }
        rewrite S3. cbv zeta. rewrite NB. set (z := e_cur (ent ents b)) in *.
        assert (KB : Kof ents b = Some z) by (unfold Kof, kv; rewrite FB; reflexivity).
        assert (Hb : (b < length Cs)%nat) by (apply FL; apply in_or_app; right; left; reflexivity).
        assert (Hn : (n < length Cs)%nat) by (apply (FI_in _ _ _ _ HF); rewrite S1; apply in_or_app; right; left; reflexivity).
        assert (NR : In n (c :: R)).
        { assert (E : (F ++ [b]) ++ c :: R = P ++ n :: Q) by congruence.
          destruct (app_eq_app _ _ _ _ E) as (l & [[H1 H2]|[H1 H2]]); [|rewrite H2; apply in_or_app; right; left; reflexivity].
          assert (l = []) by (destruct l as [|a l']; [reflexivity|exfalso; apply (f_equal (@length nat)) in H1; rewrite (app_length P), <- B2 in H1; cbn [length] in H1; lia]).
          subst l. cbn [app] in H2. rewrite <- H2. left. reflexivity. }
        assert (SM : cmpO (Kof ents n) (Some z) < 0).
        { rewrite KB in B4. apply (cmp_gt_lt _ cmpO_total) in B4.
          destruct NR as [->|NR]; [exact B4|]. unfold desc in FD. apply SSorted_app in FD as (_ & FD & _). apply StronglySorted_inv in FD as [_ FD].
          rewrite Forall_forall in FD. specialize (FD n NR). apply (cmp_le_sym _ cmpO_total) in FD. apply (cmp_le_lt_trans _ cmpO_total _ (Kof ents c)); assumption. }
        assert (FN : e_fin (ent ents n) = false) by (unfold Kof, kv in SM; destruct (e_fin (ent ents n)); [discriminate|reflexivity]).
        assert (CZ : cmp (e_cur (ent ents n)) z < 0) by (unfold Kof, kv in SM; rewrite FN in SM; exact SM).
        assert (IZ : In z (C_ b)) by (apply (fent_in lo); [apply HF; exact Hb|exact FB]).
        destruct (find_step lo n (ent ents n) z) as (E1 & E2 & E3).
        * apply HF. exact Hn.
        * exact FN.
        * apply (all_plain (f_keys st) (F ++ [b])); assumption.
        * exact CZ.
        * apply (HR b). exact IZ.
        * intros y Hy L1 L2. apply (pre_dead (f_keys st) (F ++ [b]) y HK B3).
          assert (LY : cmp lo y < 0) by (apply (cmp_lt_le_trans _ OK lo (e_cur (ent ents n))); [apply (HAb n Hn); exact FN|exact L1]).
          intros m y' Hm Hy' E. apply (dead_ip (ip y')); [exact E|].
          pose proof (HA m n y' y Hy' Hy E) as Z0.
          apply (between_dead lo ents (f_sorted st) m y' HF (FL m Hm) Hy').
          -- apply (cmp_sym_eq _ OK) in Z0. apply (cmp_lt_le_trans _ OK lo y); [exact LY|lia].
          -- intro F0. specialize (BIG m Hm). unfold Kof in BIG at 1. unfold kv in BIG. rewrite F0, KB in BIG. cbn [cmpO] in BIG.
             apply (cmp_ge_le _ OK) in BIG. apply (cmp_le_lt_trans _ OK y' y); [lia|]. apply (cmp_lt_le_trans _ OK y z); assumption.
        * rewrite S1 in HF.
          destruct (move_spec lo ents P n Q _ HF E1) as (P1 & P2 & M1 & M2 & M3 & M4 & M5 & M6 & M7).
          { unfold Kof, kv at 2. rewrite FN. unfold kv. destruct (e_fin (findItem (ent ents n) z)) eqn:F0; cbn [cmpO]; [lia|].
            specialize (E2 eq_refl). apply Z.lt_le_incl, (cmp_lt_gt _ OK). apply (cmp_lt_le_trans _ OK _ z); assumption. }
          { exact E3. }
          rewrite M2. specialize (IH (mkFst (update ents n (fun _ => findItem (ent ents n) z)) (P1 ++ n :: P2 ++ Q) (f_keys st) (f_incr st)) lo).
          cbn [f_ents f_sorted f_keys] in IH. specialize (IH M4).
          match type of IH with ?X -> _ => assert (AB : X) end.
          { intros m Hm. destruct (Nat.eq_dec m n) as [->|N]; [|rewrite M7 by exact N; apply HAb; exact Hm].
            rewrite M6. intro F0. specialize (E2 F0). apply (cmp_lt_le_trans _ OK lo z); [|exact E2].
            apply (HAb b Hb). exact FB. }
          specialize (IH AB HK ltac:(lia)).
          destruct (fast_loop useAlt addTo cmpA joinFn f _) as [[[st' x'] re']|]; [|exact IH].
          destruct IH as [I1 I2]. split; [exact I1|lia].
  Qed.

  (** ** The whole run *)
  Lemma rem_bound lo n e : fent lo n e -> (rem n e <= e_bound e)%nat.
  Proof.
    intros (_ & _ & [[F _]|(d & r & G1 & G2 & _)]); [unfold rem; rewrite F; lia|].
    rewrite (rem_split n e d r G1 (rep_ext_att _ _ _ _ _ _ G2)). pose proof (rep_bound _ _ _ _ _ _ G2). lia.
  Qed.
  Lemma bound_sum (ents : list entry) : total_bound ents = list_sum (map (fun n => e_bound (ent ents n)) (seq 0 (length ents))).
  Proof.
    induction ents as [|e r IH]; [reflexivity|]. cbn [total_bound fold_right length seq map].
    change (fold_right (fun e n => (e_bound e + n)%nat) 0%nat r) with (total_bound r). rewrite IH, <- seq_shift, map_map. reflexivity.
  Qed.
  Lemma total_le lo ents sorted : FI lo ents sorted -> (total ents <= total_bound ents)%nat.
  Proof.
    intros (F1 & _ & _ & F4). rewrite bound_sum, F1. unfold total. apply fsum_le. intros n Hn. apply in_seq in Hn. apply (rem_bound lo). apply F4. lia.
  Qed.
  Definition readied (st : fst_ (A := A)) : list entry * list nat :=
    match f_incr st with None => (f_ents st, f_sorted st) | Some k => shiftAll k (f_ents st, f_sorted st) end.
  Definition ready (lo : item) (st : fst_ (A := A)) : Prop :=
    FI lo (fst (readied st)) (snd (readied st)) /\ (forall n, (n < length Cs)%nat -> above lo (ent (fst (readied st)) n)) /\ map fst (f_keys st) = keys0.
  Lemma runFast_spec : forall fuel st lo, ready lo st -> (total (fst (readied st)) < fuel)%nat ->
    let out := runFast useAlt addTo cmpA joinFn fuel st in
    ssorted cmp (map (fun o => fst (fst o)) out) /\
    (forall x re st', In (x, re, st') out -> cmp lo x < 0 /\ (exists m, (m < length Cs)%nat /\ In x (C_ m)) /\ good (ip x) /\
       re = snd (callConsistentFn addTo ksearch (sees Cs ksearch (ip x))) /\
       forall k, In k keys0 -> checkAt (f_ents st') k (ip x) = sees Cs k (ip x)) /\
    (forall n y, (n < length Cs)%nat -> In y (C_ n) -> cmp lo y < 0 -> good (ip y) -> exists o, In o out /\ ip (fst (fst o)) = ip y).
  Proof.
    induction fuel as [|f IH]; intros st lo (R1 & R2 & R3) L; [lia|]. cbv zeta. cbn [runFast].
    unfold scanGetItemFast. fold (readied st). destruct (readied st) as [ents sorted] eqn:RD. cbn [fst snd] in *.
    pose proof (total_le lo ents sorted R1) as TB.
    pose proof (fast_loop_spec (S (total_bound ents)) (mkFst ents sorted (f_keys st) (f_incr st)) lo R1 R2 R3 ltac:(cbn [f_ents]; lia)) as FL.
    match type of FL with match ?t with _ => _ end => destruct t as [[[st' x] re]|] end.
    - destruct FL as [(lo1 & U & G & H1 & H2 & H3 & H4 & H5 & H6 & H7 & H8 & H9 & H10 & H11 & H12) H13]. cbn [f_ents] in H13.
      destruct (shiftAll_spec lo1 x (f_ents st') U G H3 ltac:(lia) H6) as (S1 & S2 & S3).
      assert (RD' : readied st' = shiftAll (length U) (f_ents st', U ++ G)) by (unfold readied; rewrite H2, H1; reflexivity).
      rewrite <- RD' in S1, S2, S3.
      destruct (IH st' x) as (I1 & I2 & I3); [split; [exact S1|split; [exact S2|exact H7]]|lia|].
      assert (LX : cmp lo x < 0) by (apply (cmp_le_lt_trans _ OK lo lo1); assumption).
      split; [|split].
      + cbn [map fst]. apply ssorted_cons; [exact I1|]. apply Forall_forall. intros z Hz. apply in_map_iff in Hz as ([[z' rz] sz] & <- & Hz). cbn [fst].
        apply (I2 _ _ _ Hz).
      + intros z rz sz [E|Hz].
        * injection E as <- <- <-. repeat (split; [assumption|]). exact H11.
        * destruct (I2 _ _ _ Hz) as (J1 & J2). split; [apply (cmp_lt_trans _ OK lo x); assumption|exact J2].
      + intros n y Hn Hy Ly Gy. destruct (Z.lt_trichotomy (cmp y x) 0) as [C|[C|C]].
        * exfalso. apply (H12 n y Hn Hy Ly C Gy).
        * exists (x, re, st'). split; [left; reflexivity|]. cbn [fst]. apply cmpAt_eq_ip in C. congruence.
        * destruct (I3 n y Hn Hy) as (o & O1 & O2); [apply (cmp_gt_lt _ OK); exact C|exact Gy|]. exists o. split; [right; exact O1|exact O2].
    - split; [constructor|]. split; [intros x re st' []|]. intros n y Hn Hy Ly Gy. exfalso. apply (FL n y Hn Hy Ly Gy).
  Qed.
End Fast.

Section Top.
  Context {A : Type}.
  Variables (useAlt : bool) (addTo : N) (cmpA : A -> A -> Z).
  Hypothesis CA : total_cmp cmpA.
  Variable joinFn : joins A.
  Notation item := (item A).
  Notation entry := (entry A).
  Notation skey := (skey A).
  Notation qentry := (qentry (A := A)).
  Notation cmpAt := (cmpAt useAlt addTo cmpA).
  Notation getItem := (entryGetItem useAlt addTo cmpA joinFn).

  Lemma ent_start (ents : list entry) n : ent (startEntries useAlt addTo cmpA joinFn ents) n = let e := ent ents n in if e_fin e then e else getItem e.
  Proof. exact (ent_map (fun e => if e_fin e then e else getItem e) ents n eq_refl). Qed.

  Theorem scanFast_spec (qs : list qentry) (keys : list skey) (sorted : list nat) att0 ksearch :
    let cmp := cmpAt att0 in
    query_ok qs keys -> (forall q, In q qs -> q_att q = att0) ->
    rows_ok cmp (rows joinFn qs) -> (forall q, In q qs -> found_ok cmp (q_found q) (q_refind q)) ->
    filter (fun k => negb (sk_order k)) keys = [ksearch] -> pre_sound ksearch ->
    (forall q rs, In q qs -> q_found q = FMany rs -> sk_every ksearch = true \/ fst (sk_cons ksearch (map (fun _ => None) (sk_ents ksearch))) = true) ->
    let started := startEntries useAlt addTo cmpA joinFn (map start qs) in
    Permutation sorted (seq 0 (length qs)) ->
    StronglySorted (fun a b => 0 <= cmpEntries useAlt addTo cmpA (ent started a) (ent started b)) sorted ->
    let out := scanFast useAlt addTo cmpA joinFn (map start qs) keys sorted in
    ssorted cmp (map (fun o => fst (fst o)) out) /\
    (forall p, (exists o, In o out /\ ip (fst (fst o)) = p) <->
       (exists q y, In q qs /\ In y (rows_found (joinFn (q_att q)) (q_found q)) /\ ip y = p) /\ says addTo ksearch (sees (rows joinFn qs) ksearch p)) /\
    (forall x re st, In (x, re, st) out -> (exists q, In q qs /\ In x (rows_found (joinFn (q_att q)) (q_found q))) /\
       (re = true <-> asks_recheck (rows joinFn qs) ksearch (ip x)) /\
       forall k, In k keys -> checkAt (f_ents st) k (ip x) = sees (rows joinFn qs) k (ip x)).
  Proof.
    intros cmp HQ Hqa (HR1 & HR2) Hfo HOne HPre HMany started0 HPerm HSort. cbv zeta.
    set (Cs := rows joinFn qs) in *.
    assert (OK : total_cmp cmp) by (apply cmpAt_total; exact CA).
    assert (LC : length Cs = length qs) by (unfold Cs, rows; rewrite map_length; reflexivity).
    assert (QN : forall n, (n < length Cs)%nat -> exists q, nth_error qs n = Some q /\ In q qs /\ ent (map start qs) n = start q /\ nth n Cs [] = rows_found (joinFn (q_att q)) (q_found q) /\ In (nth n Cs []) Cs).
    { intros n L. rewrite LC in L. destruct (nth_start joinFn qs n L) as (q & E1 & E2 & E3).
      exists q. split; [exact E1|]. split; [apply nth_error_In in E1; exact E1|]. split; [exact E2|]. split; [exact E3|apply nth_In; rewrite LC; exact L]. }
    assert (NI : forall n, In (nth n Cs []) Cs \/ nth n Cs [] = []).
    { intro n. destruct (Nat.lt_ge_cases n (length Cs)) as [L|L]; [left; apply nth_In; exact L|right; apply nth_overflow; exact L]. }
    assert (HR : forall n y, In y (nth n Cs []) -> ip_valid (ip y) = true).
    { intros n y Hy. destruct (NI n) as [I|I]; [|rewrite I in Hy; destruct Hy]. destruct (HR1 _ I) as [_ V]. specialize (V y Hy).
      unfold ip_valid. apply negb_true_iff, N.eqb_neq. exact V. }
    assert (HS : forall n, ssorted cmp (nth n Cs [])).
    { intros n. destruct (NI n) as [I|I]; [apply (HR1 _ I)|rewrite I; constructor]. }
    assert (HA : forall n m y y', In y (nth n Cs []) -> In y' (nth m Cs []) -> ip y = ip y' -> cmp y y' = 0).
    { intros n m y y' Hy Hy' E. destruct (NI n) as [I|I]; [|rewrite I in Hy; destruct Hy]. destruct (NI m) as [J|J]; [|rewrite J in Hy'; destruct Hy'].
      apply (HR2 _ _ y y' I J Hy Hy' E). }
    set (plain := fun n => match nth_error qs n with Some q => match q_found q with FMany _ => false | _ => true end | None => true end).
    assert (HEnts : forall k n, In k keys -> In n (sk_ents k) -> (n < length Cs)%nat).
    { intros k n Hk Hn. destruct HQ as (Q1 & _). destruct (Q1 k n Hk Hn) as (q & E & _). rewrite LC. apply nth_error_Some. rewrite E. discriminate. }
    assert (HPre' : forall k, In k keys -> sk_order k = false -> pre_sound k).
    { intros k Hk Ho. assert (I : In k (filter (fun k => negb (sk_order k)) keys)) by (apply filter_In; split; [exact Hk|rewrite Ho; reflexivity]).
      rewrite HOne in I. destruct I as [<-|[]]. exact HPre. }
    assert (HPlain : forall n, (n < length Cs)%nat -> plain n = true \/ (sk_every ksearch = true \/ fst (sk_cons ksearch (map (fun _ => None) (sk_ents ksearch))) = true)).
    { intros n L. destruct (QN n L) as (q & E & I & _). unfold plain. rewrite E. destruct (q_found q) as [|l|ch|rs] eqn:F; [left; reflexivity..|].
      right. apply (HMany q rs I F). }
    assert (FE : forall n, (n < length Cs)%nat ->
      fent useAlt addTo cmpA joinFn att0 Cs keys plain item_min n (ent started0 n) /\ above useAlt addTo cmpA att0 item_min (ent started0 n) /\
      (rem useAlt addTo cmpA att0 Cs n (ent started0 n) <= e_bound (ent (map start qs) n))%nat).
    { intros n L. destruct (QN n L) as (q & E & I & E2 & E3 & E4).
      unfold started0. rewrite ent_start, E2. cbv zeta.
      assert (AT : e_att (start q) = att0) by (rewrite start_att; apply Hqa; exact I).
      assert (ST : started useAlt addTo cmpA joinFn (start q) (rows_found (joinFn (q_att q)) (q_found q))).
      { apply start_started with (cmp := cmp); [exact CA|rewrite (Hqa q I); reflexivity| | |apply Hfo; exact I]; rewrite <- E3; apply (HR1 _ E4). }
      assert (PC : plain n = true -> is_coll (start q) = false).
      { unfold plain. rewrite E. unfold start, startScanEntry. destruct (q_found q) as [|[|]|ch|rs]; [reflexivity..|discriminate]. }
      destruct ST as [[F EC]|RP].
      - rewrite F. split; [|split; [intro F'; congruence|unfold rem; rewrite F; lia]].
        split; [exact AT|]. split; [exact PC|]. left. split; [exact F|]. rewrite E3, EC. intros y [].
      - destruct RP as (F & RB & G1 & G2). rewrite F.
        destruct (rows_found (joinFn (q_att q)) (q_found q)) as [|x rest] eqn:ER.
        + split; [|split; [intro F'; congruence|unfold rem; rewrite G2; lia]].
          split; [congruence|]. split; [intro P; apply getItem_coll; auto|]. left. split; [exact G2|]. rewrite E3. intros y [].
        + destruct G2 as (G2 & G3 & G4).
          assert (SP : nth n Cs [] = [] ++ e_cur (getItem (start q)) :: rest) by (rewrite E3, G3; reflexivity).
          split; [|split].
          * split; [congruence|]. split; [intro P; apply getItem_coll; auto|]. right. exists [], rest. split; [exact SP|]. split; [exact G2|]. split; [exact G4|intros y []].
          * intros _. apply cmpAt_min. apply (HR n). rewrite SP. left. reflexivity.
          * rewrite (rem_split useAlt addTo cmpA CA att0 Cs plain HR HS HA n _ _ _ SP (rep_ext_att _ _ _ _ _ _ G2)). cbn [length] in RB. lia. }
    set (st0 := startFast useAlt addTo cmpA joinFn (map start qs) keys sorted).
    assert (LS : length started0 = length Cs) by (unfold started0, startEntries; rewrite !map_length; symmetry; exact LC).
    assert (RDY : ready useAlt addTo cmpA joinFn att0 Cs keys plain item_min st0).
    { split; [|split].
      - change (FI useAlt addTo cmpA joinFn att0 Cs keys plain item_min started0 sorted).
        split; [exact LS|]. split; [rewrite LC; exact HPerm|]. split; [|intros n L; apply (FE n L)].
        unfold desc. revert HSort. apply SSorted_ext. intros a b Ha Hb H.
        assert (La : (a < length Cs)%nat) by (apply (Permutation_in _ HPerm) in Ha; apply in_seq in Ha; lia).
        assert (Lb : (b < length Cs)%nat) by (apply (Permutation_in _ HPerm) in Hb; apply in_seq in Hb; lia).
        rewrite cmpE_O with (att0 := att0) in H; [exact H|apply (FE a La)|apply (FE b Lb)].
      - intros n L. apply (FE n L).
      - cbn [st0 startFast f_keys]. rewrite map_map. cbn [fst]. apply map_id. }
    assert (TT : (total useAlt addTo cmpA att0 Cs (fst (readied useAlt addTo cmpA joinFn st0)) < S (total_bound (map start qs)))%nat).
    { change (fst (readied useAlt addTo cmpA joinFn st0)) with started0. rewrite bound_sum. unfold total. apply Nat.lt_succ_r.
      rewrite map_length, LC. apply fsum_le. intros n Hn. apply in_seq in Hn. apply FE. rewrite LC. lia. }
    pose proof (runFast_spec useAlt addTo cmpA CA joinFn att0 Cs keys plain HR HS HA HPre' ksearch HOne HEnts HPlain
      (S (total_bound (map start qs))) st0 item_min RDY TT) as RUN. cbv zeta in RUN.
    change (runFast useAlt addTo cmpA joinFn (S (total_bound (map start qs))) st0) with (scanFast useAlt addTo cmpA joinFn (map start qs) keys sorted) in RUN.
    set (out := scanFast useAlt addTo cmpA joinFn (map start qs) keys sorted) in *.
    destruct RUN as (R1 & R2 & R3).
    assert (IN : forall x, (exists m, (m < length Cs)%nat /\ In x (nth m Cs [])) <-> (exists q, In q qs /\ In x (rows_found (joinFn (q_att q)) (q_found q)))).
    { intro x. split.
      - intros (m & L & I). destruct (QN m L) as (q & _ & Iq & _ & E & _). exists q. rewrite <- E. split; assumption.
      - intros (q & Iq & I). destruct (In_nth_error _ _ Iq) as (m & E). assert (L : (m < length Cs)%nat) by (rewrite LC; apply nth_error_Some; rewrite E; discriminate).
        exists m. split; [exact L|]. destruct (QN m L) as (q' & E' & _ & _ & E3 & _). rewrite E in E'. apply Some_inj in E'. subst q'. rewrite E3. exact I. }
    split; [exact R1|]. split.
    - intro p. split.
      + intros ([[x re] st] & O1 & O2). cbn [fst] in O2. destruct (R2 _ _ _ O1) as (_ & J1 & J2 & _). apply IN in J1 as (q & J1 & J3).
        split; [exists q, x; auto|]. rewrite <- O2. exact J2.
      + intros [(q & y & Q1 & Q2 & Q3) G]. assert (X : exists m, (m < length Cs)%nat /\ In y (nth m Cs [])) by (apply IN; exists q; auto).
        destruct X as (m & L & I). rewrite <- Q3 in G. destruct (R3 m y L I) as (o & O1 & O2); [apply cmpAt_min; apply (HR m y I)|exact G|].
        exists o. split; [exact O1|congruence].
    - intros x re st Ho. destruct (R2 _ _ _ Ho) as (_ & J1 & _ & J3 & J4). split; [apply IN; exact J1|]. split; [|exact J4].
      rewrite J3. apply recheck_iff.
  Qed.

  Lemma same_order (cmp : item -> item -> Z) (OK : total_cmp cmp) {S S'} : forall (l : list (item * bool * S)) (l' : list (item * bool * S')),
    ssorted cmp (map (fun o => fst (fst o)) l) -> ssorted cmp (map (fun o => fst (fst o)) l') ->
    (forall o, In o l -> exists o', In o' l' /\ ip (fst (fst o')) = ip (fst (fst o))) ->
    (forall o', In o' l' -> exists o, In o l /\ ip (fst (fst o)) = ip (fst (fst o'))) ->
    (forall o o', In o l -> In o' l' -> ip (fst (fst o)) = ip (fst (fst o')) -> cmp (fst (fst o)) (fst (fst o')) = 0 /\ snd (fst o) = snd (fst o')) ->
    map (fun o => (ip (fst (fst o)), snd (fst o))) l = map (fun o => (ip (fst (fst o)), snd (fst o))) l'.
  Proof.
    induction l as [|o l IH]; intros l' S1 S2 H1 H2 H3.
    - destruct l' as [|o' l']; [reflexivity|]. destruct (H2 o' (or_introl eq_refl)) as (o & [] & _).
    - destruct l' as [|o' l']; [destruct (H1 o (or_introl eq_refl)) as (o' & [] & _)|].
      cbn [map] in S1, S2. apply (ssorted_inv cmp) in S1 as [S1 F1]. apply (ssorted_inv cmp) in S2 as [S2 F2]. rewrite Forall_forall in F1, F2.
      assert (F1' : forall u, In u l -> cmp (fst (fst o)) (fst (fst u)) < 0) by (intros u Hu; apply F1; apply in_map_iff; exists u; auto).
      assert (F2' : forall u, In u l' -> cmp (fst (fst o')) (fst (fst u)) < 0) by (intros u Hu; apply F2; apply in_map_iff; exists u; auto).
      assert (E : ip (fst (fst o)) = ip (fst (fst o'))).
      { destruct (H1 o (or_introl eq_refl)) as (u' & [<-|U1] & U2); [symmetry; exact U2|].
        destruct (H2 o' (or_introl eq_refl)) as (u & [<-|V1] & V2); [exact V2|]. exfalso.
        destruct (H3 o u' (or_introl eq_refl) (or_intror U1) (eq_sym U2)) as [Z1 _].
        destruct (H3 u o' (or_intror V1) (or_introl eq_refl) V2) as [Z2 _].
        specialize (F1' u V1). specialize (F2' u' U1).
        assert (X : cmp (fst (fst o)) (fst (fst o')) < 0) by (apply (cmp_lt_le_trans _ OK _ (fst (fst u))); [exact F1'|lia]).
        assert (Y : cmp (fst (fst o)) (fst (fst u')) < 0) by (apply (cmp_lt_trans _ OK _ (fst (fst o'))); assumption). lia. }
      destruct (H3 o o' (or_introl eq_refl) (or_introl eq_refl) E) as [ZO SO].
      cbn [map]. f_equal; [rewrite E, SO; reflexivity|]. apply IH; [exact S1|exact S2| | |].
      + intros u Hu. destruct (H1 u (or_intror Hu)) as (u' & [<-|U1] & U2); [|exists u'; auto]. exfalso.
        destruct (H3 u o' (or_intror Hu) (or_introl eq_refl) (eq_sym U2)) as [Z1 _]. specialize (F1' u Hu).
        assert (X : cmp (fst (fst o)) (fst (fst o')) < 0) by (apply (cmp_lt_le_trans _ OK _ (fst (fst u))); [exact F1'|lia]). lia.
      + intros u' Hu'. destruct (H2 u' (or_intror Hu')) as (u & [<-|U1] & U2); [|exists u; auto]. exfalso.
        destruct (H3 o u' (or_introl eq_refl) (or_intror Hu') U2) as [Z1 _]. specialize (F2' u' Hu').
        assert (X : cmp (fst (fst o)) (fst (fst u')) < 0) by (apply (cmp_le_lt_trans _ OK _ (fst (fst o'))); [lia|exact F2']). lia.
      + intros u u' Hu Hu'. apply H3; right; assumption.
  Qed.

  Lemma unseen (Cs : list (list item)) (k : skey) p : ~ (exists n y, In n (sk_ents k) /\ In y (nth n Cs []) /\ ip y = p) ->
    sees Cs k p = map (fun _ => None) (sk_ents k).
  Proof.
    intro H. unfold sees. apply map_ext_in. intros n Hn. destruct (present (nth n Cs []) p) as [a|] eqn:E; [|reflexivity]. exfalso.
    destruct (present_in _ _ _ E) as (y & Y1 & Y2). apply H. exists n, y. auto.
  Qed.
  Lemma seen_dec (Cs : list (list item)) (k : skey) p : (exists n y, In n (sk_ents k) /\ In y (nth n Cs []) /\ ip y = p) \/ ~ (exists n y, In n (sk_ents k) /\ In y (nth n Cs []) /\ ip y = p).
  Proof.
    destruct (existsb (fun n => existsb (fun y => tid_eqb (ip y) p) (nth n Cs [])) (sk_ents k)) eqn:E.
    - left. apply existsb_exists in E as (n & N1 & N2). apply existsb_exists in N2 as (y & Y1 & Y2). apply tid_eqb_eq in Y2. exists n, y. auto.
    - right. intros (n & y & N1 & Y1 & Y2). assert (X : existsb (fun n => existsb (fun y => tid_eqb (ip y) p) (nth n Cs [])) (sk_ents k) = true).
      { apply existsb_exists. exists n. split; [exact N1|]. apply existsb_exists. exists y. split; [exact Y1|]. apply tid_eqb_eq. exact Y2. }
      congruence.
  Qed.

  Theorem fast_equals_regular visit iterate tbmMax (qs : list qentry) (keys : list skey) (sorted : list nat) att0 ksearch :
    let cmp := cmpAt att0 in
    query_ok qs keys -> (forall k, In k keys -> sk_ents k <> [] -> sk_att k = att0) ->
    (forall k, In k keys -> altOf useAlt addTo (sk_att k) = altOf useAlt addTo att0) ->
    rows_ok cmp (rows joinFn qs) -> (forall q, In q qs -> found_ok cmp (q_found q) (q_refind q)) ->
    filter (fun k => negb (sk_order k)) keys = [ksearch] -> pre_sound ksearch ->
    let none := map (fun _ => None) (sk_ents ksearch) in
    (forall q rs, In q qs -> q_found q = FMany rs -> sk_every ksearch = true \/ fst (sk_cons ksearch none) = true) ->
    ((forall q y, In q qs -> In y (rows_found (joinFn (q_att q)) (q_found q)) -> exists n y', In n (sk_ents ksearch) /\ In y' (nth n (rows joinFn qs) []) /\ ip y' = ip y) \/
     ~ says addTo ksearch none) ->
    let started := startEntries useAlt addTo cmpA joinFn (map start qs) in
    Permutation sorted (seq 0 (length qs)) ->
    StronglySorted (fun a b => 0 <= cmpEntries useAlt addTo cmpA (ent started a) (ent started b)) sorted ->
    map (fun o => (ip (fst (fst o)), snd (fst o))) (scanFast useAlt addTo cmpA joinFn (map start qs) keys sorted) =
    map (fun o => (ip (fst (fst o)), snd (fst o))) (scanRegular useAlt addTo cmpA joinFn visit iterate tbmMax (map start qs) keys).
  Proof.
    intros cmp HQ Hka Hkb HRows Hfo HOne HPre none HMany HKn started0 HPerm HSort.
    assert (OK : total_cmp cmp) by (apply cmpAt_total; exact CA).
    assert (KI : In ksearch keys /\ sk_order ksearch = false).
    { assert (I : In ksearch (filter (fun k => negb (sk_order k)) keys)) by (rewrite HOne; left; reflexivity).
      apply filter_In in I as [I1 I2]. split; [exact I1|apply negb_true_iff; exact I2]. }
    assert (KO : forall k, In k keys -> sk_order k = false -> k = ksearch).
    { intros k Hk Ho. assert (I : In k (filter (fun k => negb (sk_order k)) keys)) by (apply filter_In; split; [exact Hk|rewrite Ho; reflexivity]).
      rewrite HOne in I. destruct I as [<-|[]]. reflexivity. }
    assert (Hqa : forall q, In q qs -> q_att q = att0).
    { intros q Iq. destruct HQ as [Q1 Q2]. destruct (In_nth_error _ _ Iq) as (n & E). destruct (Q2 n q E) as (k & K1 & K2).
      destruct (Q1 k n K1 K2) as (q' & E' & E2). rewrite E in E'. apply Some_inj in E'. subst q'. rewrite E2. apply Hka; [exact K1|]. intro X. rewrite X in K2. destruct K2. }
    assert (Hkc : forall k, In k keys -> useAlt && (addTo =? sk_att k)%N = useAlt && (addTo =? att0)%N).
    { intros k Hk. specialize (Hkb k Hk). unfold altOf in Hkb. rewrite !(N.eqb_sym addTo). exact Hkb. }
    assert (EC : cmp = compareRumItem (altOf useAlt addTo att0) cmpA) by reflexivity.
    assert (HAlt : isScanWithAltOrderKeys useAlt addTo keys = false).
    { unfold isScanWithAltOrderKeys. destruct (negb _); [cbn [andb]|reflexivity].
      destruct (useAlt && (addTo =? att0)%N) eqn:E.
      - apply andb_false_iff. left. destruct (existsb _ keys) eqn:X; [|reflexivity]. apply existsb_exists in X as (k & K1 & K2).
        cbv beta in K2; rewrite (Hkc k K1) in K2; discriminate.
      - apply andb_false_iff. right. destruct (existsb (fun k => useAlt && (addTo =? sk_att k)%N) keys) eqn:X; [|reflexivity]. apply existsb_exists in X as (k & K1 & K2).
        cbv beta in K2; rewrite (Hkc k K1) in K2; discriminate. }
    destruct (scanFast_spec qs keys sorted att0 ksearch HQ Hqa HRows Hfo HOne HPre HMany HPerm HSort) as (A1 & A2 & A3).
    destruct (scanRegular_spec useAlt addTo cmpA CA joinFn visit iterate tbmMax qs keys (altOf useAlt addTo att0) HAlt HQ) as (B1 & B2 & B3).
    { exact Hkb. }
    { intros q Iq. rewrite (Hqa q Iq). reflexivity. }
    { exact HRows. } { exact Hfo. } { exists ksearch. exact KI. }
    assert (SAME : forall p, (exists o, In o (scanFast useAlt addTo cmpA joinFn (map start qs) keys sorted) /\ ip (fst (fst o)) = p) <->
      (exists o, In o (scanRegular useAlt addTo cmpA joinFn visit iterate tbmMax (map start qs) keys) /\ ip (fst (fst o)) = p)).
    { intro p. rewrite A2, B2. split.
      - intros [(q & y & Iq & Iy & E) G] k Hk Ho. rewrite (KO k Hk Ho). split; [|exact G].
        destruct HKn as [HKn|HKn]; [rewrite <- E; apply (HKn q y Iq Iy)|].
        destruct (seen_dec (rows joinFn qs) ksearch p) as [D|D]; [exact D|]. exfalso. rewrite (unseen _ _ _ D) in G. apply HKn. exact G.
      - intro H. destruct (H ksearch (proj1 KI) (proj2 KI)) as [(n & y & N1 & Y1 & Y2) G]. split; [|exact G].
        destruct HQ as [Q1 _]. destruct (Q1 ksearch n (proj1 KI) N1) as (q & E & _). exists q, y. split; [apply nth_error_In in E; exact E|]. split; [|exact Y2].
        assert (L : (n < length qs)%nat) by (apply nth_error_Some; rewrite E; discriminate).
        destruct (nth_start joinFn qs n L) as (q' & E' & _ & E3). rewrite E in E'. apply Some_inj in E'. subst q'. rewrite <- E3. exact Y1. }
    apply (same_order cmp OK); [exact A1|exact B1| | |].
    - intros o Ho. destruct (proj1 (SAME (ip (fst (fst o)))) (ex_intro _ o (conj Ho eq_refl))) as (o' & O1 & O2). exists o'. auto.
    - intros o Ho. destruct (proj2 (SAME (ip (fst (fst o)))) (ex_intro _ o (conj Ho eq_refl))) as (o' & O1 & O2). exists o'. auto.
    - intros [[x re] st] [[x' re'] st'] H H' E. cbn [fst snd] in *.
      destruct (A3 _ _ _ H) as ((q & Q1 & Q2) & R & _). destruct (B3 _ _ _ H') as ((q' & Q1' & Q2') & R' & _). split.
      + destruct HRows as [_ HR2]. apply (HR2 (rows_found (joinFn (q_att q)) (q_found q)) (rows_found (joinFn (q_att q')) (q_found q'))); [| |assumption..].
        * unfold rows. apply in_map_iff. exists q. auto.
        * unfold rows. apply in_map_iff. exists q'. auto.
      + apply eq_true_iff_eq. rewrite R, R'. rewrite E. split.
        * intro X. exists ksearch. split; [apply KI|]. split; [apply KI|exact X].
        * intros (k & K1 & K2 & K3). rewrite <- (KO k K1 K2). exact K3.
  Qed.
End Top.

(** ** The attached value the fast scan remembers *)
Section Outer.
  Context {A : Type}.
  Variables (useAlt : bool) (addTo : N) (cmpA : A -> A -> Z) (joinFn : joins A).
  Notation skey := (skey A).
  Notation kst := (kst A).
  Definition outers_at (ents : list (entry A)) (keys : list (skey * kst)) (p : iptr) : Prop :=
    forall k ks, In (k, ks) keys -> sk_order k = false -> sk_att k = addTo -> ks_outer ks = newOuter addTo k (checkAt ents k p) None.
  Lemma consistentLoop_keys kpos : forall keys es ok, let '(keys', _, _) := consistentLoop useAlt addTo cmpA joinFn kpos keys es ok in map fst keys' = map fst keys.
  Proof.
    induction keys as [|[k ks] r IH]; intros es ok; cbn [consistentLoop]; [reflexivity|]. destruct (sk_order k).
    - specialize (IH es ok). destruct (consistentLoop _ _ _ _ kpos r es ok) as [[r' es'] ok']. cbn [map fst]. rewrite IH. reflexivity.
    - destruct (callConsistentFn _ _ _) as [res re]. specialize (IH (if res then es else shiftAll useAlt addTo cmpA joinFn kpos es) (ok && res)).
      destruct (consistentLoop _ _ _ _ kpos r _ _) as [[r' es'] ok']. cbn [map fst]. rewrite IH. reflexivity.
  Qed.
  Lemma consistentLoop_true kpos : forall keys es ok keys' es', consistentLoop useAlt addTo cmpA joinFn kpos keys es ok = (keys', es', true) ->
    es' = es /\ ok = true /\ outers_at (fst es) keys' (ip (e_cur (ent (fst es) (last (snd es) O)))).
  Proof.
    induction keys as [|[k ks] r IH]; intros es ok keys' es' H; cbn [consistentLoop] in H.
    - injection H as <- <- ->. split; [reflexivity|]. split; [reflexivity|]. intros k ks [].
    - destruct (sk_order k) eqn:O.
      + destruct (consistentLoop _ _ _ _ kpos r es ok) as [[r' es1] ok'] eqn:E. injection H as <- <- ->.
        destruct (IH _ _ _ _ E) as (H1 & H2 & H3). split; [exact H1|]. split; [exact H2|].
        intros k' ks' [Ek|Hin] O' Ea; [injection Ek as <- <-; congruence|apply H3; assumption].
      + destruct (callConsistentFn _ _ _) as [res re]. destruct (consistentLoop _ _ _ _ kpos r _ _) as [[r' es1] ok'] eqn:E. injection H as <- <- ->.
        destruct (IH _ _ _ _ E) as (H1 & H2 & H3). apply andb_true_iff in H2 as [H2 ->]. split; [exact H1|]. split; [exact H2|].
        intros k' ks' [Ek|Hin] O' Ea; [|apply H3; assumption]. injection Ek as <- <-. cbn [ks_outer]. unfold newOuter. rewrite Ea, N.eqb_refl. reflexivity.
  Qed.
  Lemma fast_loop_outer : forall fuel st st' x re, fast_loop useAlt addTo cmpA joinFn fuel st = Some (st', x, re) ->
    map fst (f_keys st') = map fst (f_keys st) /\ outers_at (f_ents st') (f_keys st') (ip x).
  Proof.
    induction fuel as [|f IH]; intros st st' x re H; cbn [fast_loop] in H; [discriminate|].
    destruct (f_sorted st) as [|n0 r]; [discriminate|]. destruct (borderLoop _ _ _ _ _ _ _ _ _ _) as [[i k] pre].
    destruct (e_fin _); [discriminate|]. destruct pre.
    - pose proof (consistentLoop_keys k (f_keys st) (f_ents st, n0 :: r) true) as HK.
      destruct (consistentLoop _ _ _ _ k (f_keys st) _ true) as [[keys es] ok] eqn:E. destruct ok.
      + injection H as <- <- <-. cbn [f_keys f_ents]. split; [exact HK|]. destruct (consistentLoop_true _ _ _ _ _ _ E) as (-> & _ & H3). exact H3.
      + destruct (IH _ _ _ _ H) as [H1 H2]. cbn [f_keys] in H1. split; [congruence|exact H2].
    - destruct (entryShift _ _ _ _ i true _) as [ents sorted]. destruct (IH _ _ _ _ H) as [H1 H2]. cbn [f_keys] in H1. split; [exact H1|exact H2].
  Qed.
  Lemma scanFast_outer : forall fuel st x re st', In (x, re, st') (runFast useAlt addTo cmpA joinFn fuel st) ->
    map fst (f_keys st') = map fst (f_keys st) /\ outers_at (f_ents st') (f_keys st') (ip x).
  Proof.
    induction fuel as [|f IH]; intros st x re st' H; cbn [runFast] in H; [destruct H|].
    destruct (scanGetItemFast _ _ _ _ st) as [[[st1 x1] re1]|] eqn:E; [|destruct H].
    unfold scanGetItemFast in E. destruct (match f_incr st with None => _ | Some _ => _ end) as [ents sorted].
    destruct (fast_loop_outer _ _ _ _ _ E) as [H1 H2]. cbn [f_keys] in H1. destruct H as [H|H].
    - injection H as <- <- <-. auto.
    - destruct (IH _ _ _ _ H) as [H3 H4]. split; [congruence|exact H4].
  Qed.
End Outer.
