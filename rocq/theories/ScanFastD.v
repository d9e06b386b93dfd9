(** The fast scan in either direction (NatScan.v), over entries known only by what they give next: the proof of
    ScanFast.v again. *)
From Verif Require Import Base Ord OrdProof LeafPage ScanEntry ScanEntryProof TidBitmap Scan ScanSpec ScanRegular ScanFast NatScan.
From Coq Require Import NArith ZArith Bool Arith List Lia Permutation Sorted.
Import ListNotations.
Local Open Scope Z_scope.

Lemma cmpDir_total {A} (cmpA : A -> A -> Z) : total_cmp cmpA -> forall fwd, total_cmp (cmpDir cmpA fwd).
Proof.
  intros CA fwd. pose proof (cri_total true cmpA CA) as T. unfold cmpDir. destruct fwd; [exact T|]. constructor.
  - intro x. rewrite (tc_refl _ T). reflexivity.
  - intros x y. pose proof (tc_anti _ T y x). lia.
  - intros x y z H1 H2. pose proof (cmp_le_sym _ T y x). pose proof (cmp_le_sym _ T z y). pose proof (cmp_le_sym _ T z x).
    assert (compareRumItem true cmpA z x <= 0); [|lia]. apply (tc_trans _ T z y x); lia.
Qed.
Lemma cmpDir_eq_ip {A} (cmpA : A -> A -> Z) fwd x y : cmpDir cmpA fwd x y = 0 -> ip x = ip y.
Proof.
  intro H. assert (Z0 : compareRumItem true cmpA x y = 0) by (unfold cmpDir in H; destruct fwd; lia). revert Z0. unfold compareRumItem.
  destruct (add x), (add y); try (intro; lia); try (intro H0; apply cip_eq; exact H0).
  destruct (Z.eqb_spec (cmpA a a0) 0); [intro H0; apply cip_eq; exact H0|lia].
Qed.

Section FastD.
  Context {A : Type}.
  Variables (addTo : N) (cmpA : A -> A -> Z).
  Hypothesis CA : total_cmp cmpA.
  Variable joinFn : joins A.
  Variable below : item A.
  Variable fwd : bool.
  Notation item := (item A).
  Notation entry := (entry A).
  Notation skey := (skey A).
  Notation kst := (kst A).
  Notation getItem := (getDir addTo cmpA joinFn below fwd).
  Notation findItem := (findDir addTo cmpA below fwd).
  Notation ent := (@ent A).
  Notation cmpE := (cmpEntDir cmpA fwd).
  Notation bubble := (bubbleD cmpA fwd).
  Notation entryShift := (entryShiftD addTo cmpA joinFn below fwd).
  Notation shiftAll := (shiftAllD addTo cmpA joinFn below fwd).
  Notation cmp := (cmpDir cmpA fwd).
  Let OK : total_cmp cmp := cmpDir_total cmpA CA fwd.

  Variable Cs : list (list item).
  Notation C_ n := (nth n Cs []).
  Variable keys0 : list skey.
  Hypothesis HR : forall n y, In y (C_ n) -> ip_valid (ip y) = true.
  Hypothesis HS : forall n, ssorted cmp (C_ n).
  Hypothesis HA : forall n m y y', In y (C_ n) -> In y' (C_ m) -> ip y = ip y' -> cmp y y' = 0.
  (** [repD e s]: [e] stands on a row, and the rows it will give next are [s]. *)
  Variable repD : entry -> list item -> Prop.
  Hypothesis rep_fin : forall e s, repD e s -> e_fin e = false.
  Hypothesis rep_bnd : forall e s, repD e s -> (length s + 1 <= e_bound e)%nat.
  Hypothesis get_spec : forall e s, repD e s ->
    e_att (getItem e) = e_att e /\ match s with [] => e_fin (getItem e) = true | x :: r => repD (getItem e) r /\ e_cur (getItem e) = x end.
  Hypothesis find_spec : (1 < length Cs)%nat -> forall e s x, repD e s -> cmp (e_cur e) x < 0 -> ip_valid (ip x) = true ->
    e_att (findItem e x) = e_att e /\
    ((e_fin (findItem e x) = true /\ Forall (fun z => (cmp z x <? 0) = true) s) \/
     (exists a y r, s = a ++ y :: r /\ Forall (fun z => (cmp z x <? 0) = true) a /\ (cmp y x <? 0) = false /\ repD (findItem e x) r /\ e_cur (findItem e x) = y)).
  (** The column of the entries. *)
  Variable att0 : N.

  (** [v] tells no more than [w]. *)
  Definition le_vec (v w : list (option (option A))) : Prop := Forall2 (fun a b => a = None \/ a = b) v w.
  (** No part of what is known of the row satisfies one of the conditions. *)
  Definition dead (p : iptr) : Prop :=
    exists k, In k keys0 /\ sk_order k = false /\ sk_every k = false /\ forall v, le_vec v (sees Cs k p) -> fst (sk_cons k v) = false.
  Definition gone (lo y : item) : Prop := cmp y lo <= 0 \/ dead (ip y).
  Definition fpos (lo : item) (e : entry) (C : list item) : Prop :=
    (e_fin e = true /\ forall y, In y C -> gone lo y) \/
    (exists don rest, C = don ++ e_cur e :: rest /\ repD e rest /\ forall y, In y don -> gone lo y).
  Definition fent (lo : item) (n : nat) (e : entry) : Prop :=
    e_att e = att0 /\ fpos lo e (C_ n).
  Definition above (lo : item) (e : entry) : Prop := e_fin e = false -> cmp lo (e_cur e) < 0.
  Definition rem (n : nat) (e : entry) : nat :=
    if e_fin e then 0%nat else length (filter (fun y => cmp (e_cur e) y <=? 0) (C_ n)).

  Lemma rem_split n e don rest : C_ n = don ++ e_cur e :: rest -> e_fin e = false -> rem n e = S (length rest).
  Proof.
    intros E F. unfold rem. rewrite F. pose proof (HS n) as S. rewrite E in S |- *. apply (ssorted_app cmp) in S as (_ & S2 & S3).
    apply (ssorted_inv cmp) in S2 as [_ S4].
    rewrite filter_app. assert (D : filter (fun y => cmp (e_cur e) y <=? 0) don = []).
    { clear - OK S3. induction don as [|a d IH]; [reflexivity|]. cbn [filter].
      specialize (S3 a (e_cur e) (or_introl eq_refl) (or_introl eq_refl)) as L. apply (cmp_lt_gt _ OK) in L.
      destruct (Z.leb_spec (cmp (e_cur e) a) 0); [lia|]. apply IH. intros x y Hx Hy. apply S3; [right; exact Hx|exact Hy]. }
    rewrite D. cbn [app filter]. rewrite (tc_refl _ OK). cbn [Z.leb Z.compare length]. f_equal.
    rewrite forallb_filter_id; [reflexivity|]. apply forallb_forall. intros y Hy. rewrite Forall_forall in S4. apply Z.leb_le. specialize (S4 y Hy). lia.
  Qed.
  Lemma gone_mono lo lo' y : cmp lo lo' <= 0 -> gone lo y -> gone lo' y.
  Proof. intros L [G|G]; [left; apply (tc_trans _ OK y lo lo'); assumption|right; exact G]. Qed.
  Lemma fent_mono lo lo' n e : cmp lo lo' <= 0 -> fent lo n e -> fent lo' n e.
  Proof.
    intros L (F1 & F3). split; [exact F1|]. destruct F3 as [[G1 G2]|(d & r & G1 & G2 & G4)].
    - left. split; [exact G1|]. intros y Hy. apply (gone_mono lo); auto.
    - right. exists d, r. split; [exact G1|]. split; [exact G2|]. intros y Hy. apply (gone_mono lo); auto.
  Qed.
  Lemma fent_in lo n e : fent lo n e -> e_fin e = false -> In (e_cur e) (C_ n).
  Proof. intros (_ & [[G _]|(d & r & G & _)]) F; [congruence|]. rewrite G. apply in_or_app. right. left. reflexivity. Qed.
  (** A row an entry has behind it is gone. *)
  Lemma behind_gone lo n e y : fent lo n e -> In y (C_ n) -> (e_fin e = false -> cmp y (e_cur e) < 0) -> gone lo y.
  Proof.
    intros (_ & [[G1 G2]|(d & r & G1 & G2 & G4)]) Hy L; [auto|].
    pose proof (HS n) as S. rewrite G1 in S, Hy. apply (ssorted_app cmp) in S as (_ & S2 & _). apply (ssorted_inv cmp) in S2 as [_ S4].
    specialize (L (rep_fin _ _ G2)).
    apply in_app_or in Hy as [Hy|[Hy|Hy]]; [auto| |].
    - subst y. rewrite (tc_refl _ OK) in L. lia.
    - rewrite Forall_forall in S4. specialize (S4 y Hy). apply (cmp_lt_gt _ OK) in L. lia.
  Qed.

  Lemma get_step lo lo' n e : fent lo n e -> e_fin e = false -> cmp lo lo' <= 0 -> cmp (e_cur e) lo' <= 0 ->
    fent lo' n (getItem e) /\ (e_fin (getItem e) = false -> cmp (e_cur e) (e_cur (getItem e)) < 0) /\ (rem n (getItem e) < rem n e)%nat.
  Proof.
    intros (F1 & F3) F L1 L2. destruct F3 as [[G _]|(d & r & G1 & G2 & G4)]; [congruence|].
    pose proof (rem_split n e d r G1 F) as RM.
    destruct (get_spec e r G2) as [E1 E2].
    assert (DG : forall y, In y (d ++ [e_cur e]) -> gone lo' y).
    { intros y Hy. apply in_app_or in Hy as [Hy|[<-|[]]]; [apply (gone_mono lo); auto|left; exact L2]. }
    destruct r as [|x r].
    - split; [|split; [congruence|unfold rem at 1; rewrite E2; lia]]. split; [congruence|].
      left. split; [exact E2|]. rewrite G1. exact DG.
    - destruct E2 as (E2 & E3).
      assert (SP : C_ n = (d ++ [e_cur e]) ++ e_cur (getItem e) :: r) by (rewrite E3, <- app_assoc; exact G1).
      split; [|split].
      + split; [congruence|]. right. exists (d ++ [e_cur e]), r.
        split; [exact SP|]. split; [exact E2|exact DG].
      + intros _. pose proof (HS n) as S. rewrite SP in S. apply (ssorted_app cmp) in S as (_ & _ & S). apply S; [apply in_or_app; right; left; reflexivity|left; reflexivity].
      + rewrite RM, (rem_split n (getItem e) _ _ SP (rep_fin _ _ E2)). cbn [length]. lia.
  Qed.
  Lemma find_step lo n e z : (1 < length Cs)%nat -> fent lo n e -> e_fin e = false -> cmp (e_cur e) z < 0 -> ip_valid (ip z) = true ->
    (forall y, In y (C_ n) -> cmp (e_cur e) y <= 0 -> cmp y z < 0 -> dead (ip y)) ->
    fent lo n (findItem e z) /\ (e_fin (findItem e z) = false -> cmp z (e_cur (findItem e z)) <= 0) /\ (rem n (findItem e z) < rem n e)%nat.
  Proof.
    intros P (F1 & F3) F L V HD. destruct F3 as [[G _]|(d & r & G1 & G2 & G4)]; [congruence|].
    pose proof (rem_split n e d r G1 F) as RM.
    destruct (find_spec P e r z G2 L V) as [E1 E2]. rewrite F1 in E1.
    assert (INR : forall y, In y (d ++ [e_cur e]) -> gone lo y).
    { intros y Hy. apply in_app_or in Hy as [Hy|[<-|[]]]; [auto|]. right. apply HD; [rewrite G1; apply in_or_app; right; left; reflexivity|rewrite (tc_refl _ OK); lia|exact L]. }
    assert (RIN : forall y, In y r -> In y (C_ n) /\ cmp (e_cur e) y <= 0).
    { intros y Hy. split; [rewrite G1; apply in_or_app; right; right; exact Hy|].
      pose proof (HS n) as S. rewrite G1 in S. apply (ssorted_app cmp) in S as (_ & S & _). apply (ssorted_inv cmp) in S as [_ S].
      rewrite Forall_forall in S. specialize (S y Hy). lia. }
    destruct E2 as [[E2 E3]|(a & y & r' & E2 & E3 & E4 & E5 & E6)].
    - split; [|split; [congruence|unfold rem at 1; rewrite E2; lia]]. split; [exact E1|].
      left. split; [exact E2|]. intros y Hy. rewrite G1 in Hy.
      replace (d ++ e_cur e :: r) with ((d ++ [e_cur e]) ++ r) in Hy by (rewrite <- app_assoc; reflexivity).
      apply in_app_or in Hy as [Hy|Hy]; [auto|]. rewrite Forall_forall in E3. specialize (E3 y Hy). apply Z.ltb_lt in E3.
      right. destruct (RIN y Hy). apply HD; auto.
    - assert (SP : C_ n = ((d ++ [e_cur e]) ++ a) ++ e_cur (findItem e z) :: r') by (rewrite E6, G1, E2, <- !app_assoc; reflexivity).
      split; [|split].
      + split; [exact E1|]. right. exists ((d ++ [e_cur e]) ++ a), r'.
        split; [exact SP|]. split; [exact E5|]. intros w Hw. apply in_app_or in Hw as [Hw|Hw]; [auto|].
        rewrite Forall_forall in E3. specialize (E3 w Hw). apply Z.ltb_lt in E3. right.
        destruct (RIN w) as [R1 R2]; [rewrite E2; apply in_or_app; left; exact Hw|]. apply HD; auto.
      + intros _. rewrite E6. apply Z.ltb_ge in E4. apply (cmp_ge_le _ OK). exact E4.
      + rewrite RM, (rem_split n (findItem e z) _ _ SP (rep_fin _ _ E5)), E2, app_length. cbn [length]. lia.
  Qed.

  (** ** The order of the entries *)
  Definition kv (e : entry) : option item := if e_fin e then None else Some (e_cur e).
  Definition cmpO (a b : option item) : Z :=
    match a, b with
    | None, None => 0 | None, Some _ => 1 | Some _, None => -1 | Some x, Some y => cmp x y
    end.
  Lemma cmpO_total : total_cmp cmpO.
  Proof.
    constructor.
    - intros [x|]; [apply (tc_refl _ OK)|reflexivity].
    - intros [x|] [y|]; cbn [cmpO]; try lia. apply (tc_anti _ OK).
    - intros [x|] [y|] [z|]; cbn [cmpO]; try lia. apply (tc_trans _ OK).
  Qed.
  Lemma cmpE_O e1 e2 : e_att e1 = att0 -> e_att e2 = att0 -> cmpE e1 e2 = cmpO (kv e1) (kv e2).
  Proof.
    intros E1 E2. unfold cmpEntDir, kv. rewrite E1, E2. destruct (e_fin e1), (e_fin e2); try reflexivity.
    rewrite N.eqb_refl. reflexivity.
  Qed.
  Definition desc (K : nat -> option item) (l : list nat) : Prop := StronglySorted (fun a b => 0 <= cmpO (K a) (K b)) l.
  Definition Kof (ents : list entry) (n : nat) : option item := kv (ent ents n).

  Lemma bubble_spec ents n : forall rpre post, exists P1 P2, rev rpre = P1 ++ P2 /\ bubble ents n rpre post = P1 ++ n :: P2 ++ post /\
    (forall p, In p P2 -> 0 < cmpE (ent ents n) (ent ents p)) /\
    (P1 = [] \/ exists P1' p, P1 = P1' ++ [p] /\ cmpE (ent ents n) (ent ents p) <= 0).
  Proof.
    induction rpre as [|p r IH]; intro post; cbn [bubbleD].
    - exists [], []. repeat split; auto. intros p [].
    - destruct (Z.ltb_spec 0 (cmpE (ent ents n) (ent ents p))) as [L|L].
      + destruct (IH (p :: post)) as (P1 & P2 & I1 & I2 & I3 & I4). exists P1, (P2 ++ [p]). cbn [rev]. rewrite I1, I2, <- !app_assoc.
        split; [reflexivity|]. split; [reflexivity|]. split; [|exact I4]. intros q Hq. apply in_app_or in Hq as [Hq|[<-|[]]]; auto.
      + exists (rev (p :: r)), []. rewrite app_nil_r. split; [reflexivity|]. split; [reflexivity|]. split; [intros q []|].
        right. exists (rev r), p. split; [reflexivity|exact L].
  Qed.
  Lemma desc_move K P n Q P1 P2 : desc K (P ++ Q) -> P = P1 ++ P2 -> (forall p, In p P2 -> 0 < cmpO (K n) (K p)) ->
    (P1 = [] \/ exists P1' p, P1 = P1' ++ [p] /\ cmpO (K n) (K p) <= 0) -> (forall q, In q Q -> 0 <= cmpO (K n) (K q)) ->
    desc K (P1 ++ n :: P2 ++ Q).
  Proof.
    intros D -> H2 H1 HQ. unfold desc in *. rewrite <- app_assoc in D. apply SSorted_app in D as (D1 & D2 & D3).
    apply SSorted_app. split; [exact D1|]. split.
    - constructor; [exact D2|]. apply Forall_forall. intros q Hq. apply in_app_or in Hq as [Hq|Hq]; [specialize (H2 q Hq); lia|auto].
    - intros x y Hx [<-|Hy]; [|auto]. destruct H1 as [->|(P1' & p & -> & L)]; [destruct Hx|].
      assert (L' : 0 <= cmpO (K p) (K n)) by (apply (cmp_le_sym _ cmpO_total); exact L).
      apply in_app_or in Hx as [Hx|[<-|[]]]; [|exact L'].
      apply SSorted_app in D1 as (_ & _ & D1). specialize (D1 x p Hx (or_introl eq_refl)).
      apply (cmp_le_sym _ cmpO_total). apply (cmp_le_sym _ cmpO_total) in D1, L'. apply (tc_trans _ cmpO_total _ (K p)); assumption.
  Qed.

  Lemma minPredict_spec (ents : list entry) : forall l j best, (l <> [] \/ best <> None) ->
    exists m q, minPredict ents l j best = Some (m, q) /\ ((exists q', best = Some (m, q')) \/ (j <= m < j + length l)%nat).
  Proof.
    induction l as [|n r IH]; intros j best H; cbn [minPredict].
    - destruct best as [[m q]|]; [|destruct H; congruence]. exists m, q. split; [reflexivity|]. left. exists q. reflexivity.
    - match goal with |- context [minPredict ents r (S j) ?b] => destruct (IH (S j) b) as (m & q & I1 & I2) end.
      { right. destruct best as [[b q]|]; [destruct (_ <? _)%N|]; discriminate. }
      exists m, q. split; [exact I1|]. cbn [length]. destruct I2 as [(q' & I2)|I2]; [|right; lia].
      destruct best as [[b q0]|].
      + destruct (_ <? _)%N; injection I2; intros; subst; [right; lia|left; exists q'; reflexivity].
      + injection I2. intros; subst. right. lia.
  Qed.
  Lemma shift_shape ents sorted i fnd : (i < length sorted)%nat -> exists P n Q, sorted = P ++ n :: Q /\ (i <= length P)%nat /\
    entryShift i fnd (ents, sorted) =
      (let e := ent ents n in
       let e' := if fnd then findItem e (e_cur (ent ents (nth (i - 1) sorted O))) else if e_fin e then e else getItem e in
       let ents' := update ents n (fun _ => e') in (ents', bubble ents' n (rev P) Q)).
  Proof.
    intro L. unfold entryShiftD.
    destruct (minPredict_spec ents (skipn i sorted) i None) as (m & q & M1 & M2).
    { left. intro E. pose proof (skipn_length i sorted) as SL. rewrite E in SL. cbn in SL. lia. }
    rewrite M1. destruct M2 as [(q' & M2)|M2]; [discriminate|]. rewrite skipn_length in M2.
    destruct (nth_error sorted m) as [n|] eqn:E; [|apply nth_error_None in E; lia].
    apply nth_error_split in E as (P & Q & E1 & E2). exists P, n, Q. split; [exact E1|]. split; [lia|].
    assert (N1 : nth m sorted O = n) by (rewrite E1, app_nth2, E2, Nat.sub_diag by lia; reflexivity).
    rewrite N1. cbv zeta. f_equal. f_equal.
    - f_equal. rewrite E1, <- E2, firstn_app, firstn_all, Nat.sub_diag. cbn [firstn]. apply app_nil_r.
    - rewrite E1, <- E2. replace (P ++ n :: Q) with ((P ++ [n]) ++ Q) by (rewrite <- app_assoc; reflexivity).
      replace (S (length P)) with (length (P ++ [n])) by (rewrite app_length; cbn; lia). rewrite skipn_app, skipn_all, Nat.sub_diag. reflexivity.
  Qed.

  Definition FI (lo : item) (ents : list entry) (sorted : list nat) : Prop :=
    length ents = length Cs /\ Permutation sorted (seq 0 (length Cs)) /\ desc (Kof ents) sorted /\
    forall n, (n < length Cs)%nat -> fent lo n (ent ents n).
  Definition total (ents : list entry) : nat := list_sum (map (fun n => rem n (ent ents n)) (seq 0 (length Cs))).

  Lemma FI_in lo ents sorted n : FI lo ents sorted -> In n sorted -> (n < length Cs)%nat.
  Proof. intros (_ & P & _) H. apply (Permutation_in _ P) in H. apply in_seq in H. lia. Qed.
  Lemma FI_nodup lo ents sorted : FI lo ents sorted -> NoDup sorted.
  Proof. intros (_ & P & _). apply (Permutation_NoDup (Permutation_sym P)). apply seq_NoDup. Qed.
  Lemma FI_att lo ents sorted n : FI lo ents sorted -> (n < length Cs)%nat -> e_att (ent ents n) = att0.
  Proof. intros (_ & _ & _ & F) H. apply F. exact H. Qed.

  (** One entry moved forward and put back in its place. *)
  Lemma move_spec lo ents P n Q e' : FI lo ents (P ++ n :: Q) -> fent lo n e' -> 0 <= cmpO (kv e') (Kof ents n) -> (rem n e' < rem n (ent ents n))%nat ->
    let ents' := update ents n (fun _ => e') in
    exists P1 P2, P = P1 ++ P2 /\ bubble ents' n (rev P) Q = P1 ++ n :: P2 ++ Q /\
      (P1 = [] \/ exists P1' p, P1 = P1' ++ [p] /\ cmpO (kv e') (Kof ents p) <= 0) /\
      FI lo ents' (P1 ++ n :: P2 ++ Q) /\ (total ents' < total ents)%nat /\
      ent ents' n = e' /\ (forall m, m <> n -> ent ents' m = ent ents m).
  Proof.
    intros HF HE HK HM. cbv zeta. set (ents' := update ents n (fun _ => e')).
    assert (Hn : (n < length Cs)%nat) by (apply (FI_in _ _ _ _ HF); apply in_or_app; right; left; reflexivity).
    pose proof (FI_nodup _ _ _ HF) as ND.
    pose proof HF as (FL & FP & FD & FE).
    assert (E1 : ent ents' n = e').
    { unfold ents'. rewrite ent_update, Nat.eqb_refl, FL. apply Nat.ltb_lt in Hn. rewrite Hn. reflexivity. }
    assert (E2 : forall m, m <> n -> ent ents' m = ent ents m).
    { intros m Hm. unfold ents'. rewrite ent_update. apply Nat.eqb_neq in Hm. rewrite Hm. reflexivity. }
    apply NoDup_remove_2 in ND.
    assert (KE : forall m, In m (P ++ Q) -> Kof ents' m = Kof ents m).
    { intros m Hm. unfold Kof. rewrite E2; [reflexivity|]. intros ->. auto. }
    assert (Kn : Kof ents' n = kv e') by (unfold Kof; rewrite E1; reflexivity).
    assert (AT : forall m, (m < length Cs)%nat -> e_att (ent ents' m) = att0).
    { intros m Hm. destruct (Nat.eq_dec m n) as [->|N]; [rewrite E1; apply HE|rewrite E2 by exact N; apply FE; exact Hm]. }
    assert (IL : forall m, In m (P ++ n :: Q) -> (m < length Cs)%nat) by (intros m; apply (FI_in _ _ _ _ HF)).
    assert (IL' : forall m, In m (P ++ Q) -> (m < length Cs)%nat).
    { intros m Hm. apply IL. apply in_app_or in Hm as [Hm|Hm]; apply in_or_app; [left|right; right]; exact Hm. }
    destruct (bubble_spec ents' n (rev P) Q) as (P1 & P2 & B1 & B2 & B3 & B4). rewrite rev_involutive in B1.
    assert (CE : forall p, In p P -> cmpE (ent ents' n) (ent ents' p) = cmpO (kv e') (Kof ents p)).
    { intros p Hp. assert (Hp' : In p (P ++ Q)) by (apply in_or_app; left; exact Hp).
      rewrite cmpE_O; [|apply AT; exact Hn|apply AT, IL'; exact Hp']. rewrite E1. f_equal. apply (KE p Hp'). }
    assert (L4 : P1 = [] \/ exists P1' p, P1 = P1' ++ [p] /\ cmpO (kv e') (Kof ents p) <= 0).
    { destruct B4 as [B4|(P1' & p & B4 & B5)]; [left; exact B4|]. right. exists P1', p. split; [exact B4|]. rewrite <- CE; [exact B5|].
      rewrite B1, B4. apply in_or_app. left. apply in_or_app. right. left. reflexivity. }
    exists P1, P2. split; [exact B1|]. split; [exact B2|]. split; [exact L4|]. split; [|split; [|split; [exact E1|exact E2]]].
    - split; [unfold ents'; rewrite update_length; exact FL|]. split; [|split].
      + eapply Permutation_trans; [|exact FP]. rewrite B1, <- app_assoc. apply Permutation_app_head, Permutation_middle.
      + apply (desc_move (Kof ents') P n Q P1 P2).
        * unfold desc in FD |- *. apply SSorted_app in FD as (D1 & D2 & D3). apply StronglySorted_inv in D2 as [D2 _].
          apply (SSorted_ext (fun a b => 0 <= cmpO (Kof ents a) (Kof ents b))).
          -- intros x y Hx Hy. rewrite !KE by assumption. tauto.
          -- apply SSorted_app. split; [exact D1|]. split; [exact D2|]. intros x y Hx Hy. apply D3; [exact Hx|right; exact Hy].
        * exact B1.
        * intros p Hp. assert (IP : In p P) by (rewrite B1; apply in_or_app; right; exact Hp).
          rewrite Kn, (KE p) by (apply in_or_app; left; exact IP). rewrite <- CE by exact IP. apply B3. exact Hp.
        * destruct L4 as [L4|(P1' & p & L4 & L5)]; [left; exact L4|]. right. exists P1', p. split; [exact L4|].
          rewrite Kn, (KE p); [exact L5|]. apply in_or_app. left. rewrite B1, L4. apply in_or_app. left. apply in_or_app. right. left. reflexivity.
        * intros q Hq. rewrite Kn, (KE q) by (apply in_or_app; right; exact Hq).
          unfold desc in FD. apply SSorted_app in FD as (_ & D2 & _). apply StronglySorted_inv in D2 as [_ D2]. rewrite Forall_forall in D2.
          specialize (D2 q Hq). apply (cmp_le_sym _ cmpO_total). apply (cmp_le_sym _ cmpO_total) in D2. apply (cmp_le_sym _ cmpO_total) in HK.
          apply (tc_trans _ cmpO_total _ (Kof ents n)); assumption.
      + intros m Hm. destruct (Nat.eq_dec m n) as [->|N]; [rewrite E1; exact HE|rewrite E2 by exact N; apply FE; exact Hm].
    - unfold total. apply fsum_lt with (a := n).
      + intros m Hm. destruct (Nat.eq_dec m n) as [->|N]; [rewrite E1; lia|rewrite E2 by exact N; lia].
      + apply in_seq. lia.
      + rewrite E1. exact HM.
  Qed.

  (** The entries at the smallest row all move on, each once. *)
  Lemma shift_group x : forall g j ents U G, length G = g -> length U = j -> FI x ents (U ++ G) ->
    (forall n, In n G -> e_fin (ent ents n) = false /\ cmp (e_cur (ent ents n)) x = 0) -> (forall n, In n U -> above x (ent ents n)) ->
    let r := fold_left (fun s j => entryShift j false s) (seq j g) (ents, U ++ G) in
    FI x (fst r) (snd r) /\ (forall n, (n < length Cs)%nat -> above x (ent (fst r) n)) /\ (total (fst r) + g <= total ents)%nat.
  Proof.
    induction g as [|g IH]; intros j ents U G LG LU HF HG HU; cbn [seq fold_left]; cbv zeta.
    - destruct G; [|discriminate]. rewrite app_nil_r in *. cbn [fst snd]. split; [exact HF|]. split; [|lia].
      intros n Hn. apply HU. pose proof HF as (_ & FP & _). apply (Permutation_in _ (Permutation_sym FP)). apply in_seq. lia.
    - destruct (shift_shape ents (U ++ G) j false) as (P & n & Q & S1 & S2 & S3); [rewrite app_length; lia|].
      rewrite S3. clear S3. cbv zeta.
      assert (PG : exists G1, P = U ++ G1 /\ G = G1 ++ n :: Q).
      { destruct (app_eq_app _ _ _ _ S1) as (l & [[H1 H2]|[H1 H2]]).
        - assert (l = []) by (destruct l as [|a l']; [reflexivity|exfalso; apply (f_equal (@length nat)) in H1; rewrite app_length in H1; cbn in H1; lia]).
          subst l. rewrite app_nil_r in H1. cbn [app] in H2. exists []. rewrite app_nil_r. split; [congruence|symmetry; exact H2].
        - exists l. split; [exact H1|exact H2]. }
      destruct PG as (G1 & EP & EG).
      assert (NG : In n G) by (rewrite EG; apply in_or_app; right; left; reflexivity).
      destruct (HG n NG) as [NF NX]. rewrite NF.
      assert (Hn : (n < length Cs)%nat) by (apply (FI_in _ _ _ n HF); apply in_or_app; right; exact NG).
      destruct (get_step x x n (ent ents n)) as (G2 & G3 & G4); [apply HF; exact Hn|exact NF|rewrite (tc_refl _ OK); lia|lia|].
      assert (NX' := cmp_sym_eq _ OK _ _ NX).
      assert (AB : above x (getItem (ent ents n))).
      { intros F. specialize (G3 F). apply (cmp_le_lt_trans _ OK x (e_cur (ent ents n))); [lia|exact G3]. }
      assert (KX : forall m, In m G -> Kof ents m = Some (e_cur (ent ents m))).
      { intros m Hm. unfold Kof, kv. destruct (HG m Hm) as [-> _]. reflexivity. }
      assert (BIG : forall m, In m G -> 0 < cmpO (kv (getItem (ent ents n))) (Kof ents m)).
      { intros m Hm. rewrite (KX m Hm). unfold kv. destruct (e_fin (getItem (ent ents n))) eqn:F; [reflexivity|]. cbn [cmpO].
        apply (cmp_lt_gt _ OK). apply (cmp_le_lt_trans _ OK _ x); [destruct (HG m Hm); lia|apply AB; exact F]. }
      rewrite S1 in HF.
      destruct (move_spec x ents P n Q _ HF G2) as (P1 & P2 & M1 & M2 & M3 & M4 & M5 & M6 & M7); [specialize (BIG n NG); lia|exact G4|].
      rewrite M2. 
      assert (SPL : exists U2, U = P1 ++ U2 /\ P2 = U2 ++ G1).
      { rewrite EP in M1. destruct (app_eq_app _ _ _ _ M1) as (l & [[H1 H2]|[H1 H2]]); [exists l; split; assumption|].
        destruct M3 as [->|(P1' & p & M3 & M3')]; [exists []; destruct U; [|discriminate]; destruct l; [|discriminate]; split; [reflexivity|symmetry; exact H2]|].
        destruct l as [|a l] using rev_ind; [exists []; rewrite app_nil_r in H1; rewrite app_nil_r; split; [symmetry; exact H1|symmetry; exact H2]|clear IHl].
        exfalso. rewrite M3, app_assoc in H1. apply app_inj_tail in H1 as [_ ->].
        assert (IG : In a G) by (rewrite EG, H2; apply in_or_app; left; apply in_or_app; left; apply in_or_app; right; left; reflexivity).
        specialize (BIG a IG). lia. }
      destruct SPL as (U2 & -> & ->).
      set (ents' := update ents n (fun _ => getItem (ent ents n))) in *.
      assert (RW : P1 ++ n :: (U2 ++ G1) ++ Q = (P1 ++ n :: U2) ++ (G1 ++ Q)) by (rewrite <- !app_assoc; reflexivity).
      rewrite RW in *.
      assert (ND := FI_nodup _ _ _ HF). rewrite EP in ND. 
      assert (NN : forall m, In m (P1 ++ U2) \/ In m (G1 ++ Q) -> m <> n).
      { intros m Hm ->. apply NoDup_remove_2 in ND. apply ND. destruct Hm as [Hm|Hm].
        - apply in_or_app. left. apply in_or_app. left. exact Hm.
        - apply in_app_or in Hm as [Hm|Hm]; apply in_or_app; [left; apply in_or_app; right; exact Hm|right; exact Hm]. }
      specialize (IH (S j) ents' (P1 ++ n :: U2) (G1 ++ Q)).
      destruct IH as (I1 & I2 & I3).
      + rewrite EG, app_length in LG. cbn [length] in LG. rewrite app_length. lia.
      + rewrite app_length in *. cbn [length]. lia.
      + exact M4.
      + intros m Hm. rewrite M7 by (apply NN; right; exact Hm). apply HG. rewrite EG.
        apply in_app_or in Hm as [Hm|Hm]; apply in_or_app; [left|right; right]; exact Hm.
      + intros m Hm. destruct (Nat.eq_dec m n) as [->|N]; [rewrite M6; exact AB|]. rewrite M7 by exact N. apply HU.
        apply in_app_or in Hm as [Hm|[Hm|Hm]]; [apply in_or_app; left; exact Hm|congruence|apply in_or_app; right; exact Hm].
      + split; [exact I1|]. split; [exact I2|]. lia.
  Qed.
  Definition group (ents : list entry) (U G : list nat) (x : item) : Prop :=
    G <> [] /\ (forall n, In n G -> e_fin (ent ents n) = false /\ cmp (e_cur (ent ents n)) x = 0) /\ (forall n, In n U -> above x (ent ents n)).
  Lemma shiftAll_spec lo x ents U G : FI lo ents (U ++ G) -> cmp lo x <= 0 -> group ents U G x ->
    let r := shiftAll (length U) (ents, U ++ G) in
    FI x (fst r) (snd r) /\ (forall n, (n < length Cs)%nat -> above x (ent (fst r) n)) /\ (total (fst r) < total ents)%nat.
  Proof.
    intros HF L (G1 & G2 & G3). cbv zeta. unfold shiftAllD. cbn [snd].
    replace (length (U ++ G) - length U)%nat with (length G) by (rewrite app_length; lia).
    assert (HF' : FI x ents (U ++ G)).
    { destruct HF as (F1 & F2 & F3 & F4). split; [exact F1|]. split; [exact F2|]. split; [exact F3|]. intros n Hn. apply (fent_mono lo); auto. }
    destruct (shift_group x (length G) (length U) ents U G eq_refl eq_refl HF' G2 G3) as (S1 & S2 & S3).
    split; [exact S1|]. split; [exact S2|]. destruct G; [congruence|]. cbn [length] in *. lia.
  Qed.

  (** ** The border *)
  Lemma borderLoop_spec ents (keys : list (skey * kst)) : forall l no prev i k,
    (forall n, In n ((no ++ [prev]) ++ l) -> e_att (ent ents n) = att0) ->
    desc (Kof ents) ((no ++ [prev]) ++ l) -> i = length (no ++ [prev]) ->
    (exists D1 D2, no ++ [prev] = D1 ++ D2 /\ length D1 = k /\ D2 <> [] /\ (forall d, In d D2 -> cmpO (Kof ents d) (Kof ents prev) = 0) /\
        forall d, In d D1 -> 0 < cmpO (Kof ents d) (Kof ents prev)) ->
    let '(i', k', pre) := borderLoopD cmpA fwd ents keys no prev l i k in
    if pre then i' = length ((no ++ [prev]) ++ l) /\
      exists U G, (no ++ [prev]) ++ l = U ++ G /\ length U = k' /\ G <> [] /\
        (forall d, In d G -> cmpO (Kof ents d) (Kof ents (last G O)) = 0) /\ forall d, In d U -> 0 < cmpO (Kof ents d) (Kof ents (last G O))
    else exists F b c R, (no ++ [prev]) ++ l = (F ++ [b]) ++ c :: R /\ i' = length (F ++ [b]) /\
        preConsistentCheck keys (F ++ [b]) = false /\ 0 < cmpO (Kof ents b) (Kof ents c).
  Proof.
    induction l as [|n r IH]; intros no prev i k HAt HD Hi HG; cbn [borderLoopD].
    - rewrite app_nil_r in *. split; [exact Hi|]. destruct HG as (D1 & D2 & H1 & H2 & H3 & H4 & H5). exists D1, D2.
      assert (E : last D2 O = prev).
      { destruct D2 as [|a D2] using rev_ind; [congruence|]. rewrite app_assoc in H1. apply app_inj_tail in H1 as [_ ->]. apply last_last. }
      rewrite E. split; [exact H1|]. split; [exact H2|]. split; [exact H3|]. split; [exact H4|exact H5].
    - assert (CE : cmpE (ent ents n) (ent ents prev) = cmpO (Kof ents n) (Kof ents prev)).
      { apply cmpE_O; apply HAt; apply in_or_app; [right; left; reflexivity|left; apply in_or_app; right; left; reflexivity]. }
      rewrite CE.
      assert (RW : (no ++ [prev]) ++ n :: r = ((no ++ [prev]) ++ [n]) ++ r) by (rewrite <- !app_assoc; reflexivity).
      assert (LS : S i = length ((no ++ [prev]) ++ [n])) by (rewrite app_length; cbn [length]; lia).
      destruct (Z.ltb_spec (cmpO (Kof ents n) (Kof ents prev)) 0) as [L|L].
      + destruct (preConsistentCheck keys (no ++ [prev])) eqn:PC.
        * rewrite RW in HAt, HD |- *. apply (IH (no ++ [prev]) n (S i) i); [exact HAt|exact HD|exact LS|].
          exists (no ++ [prev]), [n]. split; [reflexivity|]. split; [lia|]. split; [discriminate|]. split.
          -- intros d [<-|[]]. apply (tc_refl _ cmpO_total).
          -- intros d Hd. destruct HG as (D1 & D2 & H1 & H2 & H3 & H4 & H5). rewrite H1 in Hd. apply (cmp_lt_gt _ cmpO_total).
             apply in_app_or in Hd as [Hd|Hd].
             ++ specialize (H5 d Hd). apply (cmp_lt_trans _ cmpO_total _ (Kof ents prev)); [exact L|apply (cmp_gt_lt _ cmpO_total); exact H5].
             ++ specialize (H4 d Hd). apply (cmp_lt_le_trans _ cmpO_total _ (Kof ents prev)); [exact L|]. apply (cmp_sym_eq _ cmpO_total) in H4. lia.
        * exists no, prev, n, r. split; [reflexivity|]. split; [exact Hi|]. split; [exact PC|]. apply (cmp_lt_gt _ cmpO_total). exact L.
      + rewrite RW in HAt, HD |- *. apply (IH (no ++ [prev]) n (S i) k); [exact HAt|exact HD|exact LS|].
        destruct HG as (D1 & D2 & H1 & H2 & H3 & H4 & H5).
        assert (EQ : cmpO (Kof ents prev) (Kof ents n) = 0).
        { unfold desc in HD. apply SSorted_app in HD as (HD & _). apply SSorted_app in HD as (_ & _ & HD).
          specialize (HD prev n ltac:(apply in_or_app; right; left; reflexivity) ltac:(left; reflexivity)).
          apply (cmp_le_sym _ cmpO_total) in L. lia. }
        exists D1, (D2 ++ [n]). rewrite app_assoc, <- H1. split; [reflexivity|]. split; [exact H2|]. split; [destruct D2; discriminate|]. split.
        * intros d Hd. apply in_app_or in Hd as [Hd|[<-|[]]]; [|apply (tc_refl _ cmpO_total)]. specialize (H4 d Hd).
          assert (X1 : cmpO (Kof ents d) (Kof ents n) <= 0) by (apply (tc_trans _ cmpO_total _ (Kof ents prev)); lia).
          apply (cmp_sym_eq _ cmpO_total) in H4, EQ.
          assert (X2 : cmpO (Kof ents n) (Kof ents d) <= 0) by (apply (tc_trans _ cmpO_total _ (Kof ents prev)); lia).
          apply (cmp_le_sym _ cmpO_total) in X2. lia.
        * intros d Hd. specialize (H5 d Hd). apply (cmp_gt_lt _ cmpO_total) in H5. apply (cmp_lt_gt _ cmpO_total).
          apply (cmp_sym_eq _ cmpO_total) in EQ. apply (cmp_le_lt_trans _ cmpO_total _ (Kof ents prev)); [lia|exact H5].
  Qed.

  (** ** Pre-filtering *)
  Hypothesis HPre : forall k, In k keys0 -> sk_order k = false -> pre_sound k.

  Lemma present_in (C : list item) p a : present C p = Some a -> exists y, In y C /\ ip y = p.
  Proof.
    unfold present. destruct (find _ C) as [z|] eqn:F; [|discriminate]. intros _. apply find_some in F as [F1 F2]. apply tid_eqb_eq in F2. exists z. auto.
  Qed.
  Lemma pre_refuses (keys : list (skey * kst)) no : map fst keys = keys0 -> preConsistentCheck keys no = false ->
    exists k f, In k keys0 /\ sk_order k = false /\ sk_every k = false /\ sk_pre k = Some f /\
      f (map (fun n => negb (existsb (Nat.eqb n) no)) (sk_ents k)) = false.
  Proof.
    intros HK H. unfold preConsistentCheck in H.
    assert (X : existsb (fun kk : skey * kst => negb (sk_order (fst kk) || sk_every (fst kk) ||
      match sk_pre (fst kk) with None => true | Some f => forallb (fun b => b) (map (fun n => negb (existsb (Nat.eqb n) no)) (sk_ents (fst kk))) || f (map (fun n => negb (existsb (Nat.eqb n) no)) (sk_ents (fst kk))) end)) keys = true).
    { clear HK. induction keys as [|kk r IH]; [discriminate|]. cbn [forallb existsb] in *. apply andb_false_iff in H as [H|H]; [rewrite H; reflexivity|].
      rewrite IH by exact H. apply orb_true_r. }
    apply existsb_exists in X as ([k ks] & X1 & X2). cbn [fst] in X2. apply negb_true_iff in X2.
    apply orb_false_iff in X2 as [X2 X3]. apply orb_false_iff in X2 as [X2 X4].
    destruct (sk_pre k) as [f|] eqn:E; [|discriminate]. apply orb_false_iff in X3 as [_ X3].
    exists k, f. split; [rewrite <- HK; apply (in_map fst) in X1; exact X1|]. auto.
  Qed.
  Lemma pre_dead (keys : list (skey * kst)) no (y : item) : map fst keys = keys0 -> preConsistentCheck keys no = false ->
    (forall m y', In m no -> In y' (C_ m) -> ip y' = ip y -> dead (ip y)) -> dead (ip y).
  Proof.
    intros HK HP HD. destruct (pre_refuses keys no HK HP) as (k & f & K1 & K2 & K3 & K4 & K5).
    destruct (existsb (fun n => existsb (Nat.eqb n) no && match present (C_ n) (ip y) with Some _ => true | None => false end) (sk_ents k)) eqn:X.
    - apply existsb_exists in X as (n & _ & X). apply andb_true_iff in X as [X1 X2]. apply existsb_exists in X1 as (m & X1 & X3). apply Nat.eqb_eq in X3. subst m.
      destruct (present (C_ n) (ip y)) as [a|] eqn:PR; [|discriminate]. destruct (present_in _ _ _ PR) as (y' & Y1 & Y2). apply (HD n y'); auto.
    - exists k. split; [exact K1|]. split; [exact K2|]. split; [exact K3|]. intros v LV.
      apply (HPre k K1 K2 f _ v K4 K5); [apply map_length|].
      unfold le_vec, sees in LV. clear - LV X. revert v LV X. induction (sk_ents k) as [|n r IH]; intros v LV X; cbn [map] in *.
      + inversion LV. constructor.
      + inversion LV as [|a b v' w' L1 L2]; subst. cbn [existsb] in X. apply orb_false_iff in X as [X1 X2]. constructor; [|apply IH; assumption].
        destruct (existsb (Nat.eqb n) no); [right|left; reflexivity]. cbn [andb] in X1.
        destruct (present (C_ n) (ip y)); [discriminate|]. destruct L1; assumption.
  Qed.
  Lemma dead_ip (p q : iptr) : p = q -> dead p -> dead q. Proof. intros ->. auto. Qed.

  (** Rows before all current rows, and after [lo], are dead. *)
  Lemma between_dead lo ents sorted n y : FI lo ents sorted -> (n < length Cs)%nat -> In y (C_ n) -> cmp lo y < 0 ->
    (e_fin (ent ents n) = false -> cmp y (e_cur (ent ents n)) < 0) -> dead (ip y).
  Proof.
    intros (_ & _ & _ & F) Hn Hy L H. destruct (behind_gone lo n _ y (F n Hn) Hy H) as [G|G]; [|exact G].
    apply (cmp_lt_gt _ OK) in L. lia.
  Qed.

  (** ** What the match functions see *)
  Lemma check_entry lo ents sorted x n : FI lo ents sorted -> (n < length Cs)%nat -> cmp lo x < 0 -> (exists m, In x (C_ m)) ->
    (e_fin (ent ents n) = false -> cmp x (e_cur (ent ents n)) <= 0) ->
    let o := if negb (e_fin (ent ents n)) && (rumCompareItemPointers (ip (e_cur (ent ents n))) (ip x) =? 0) then Some (add (e_cur (ent ents n))) else None in
    o = present (C_ n) (ip x) \/ (o = None /\ dead (ip x)).
  Proof.
    intros HF Hn Lx (m & Hx) Hmin. cbv zeta. rewrite cip_eqb.
    assert (FE := proj2 (proj2 (proj2 HF)) n Hn).
    assert (UN : forall y y', In y (C_ n) -> In y' (C_ n) -> ip y' = ip y -> y' = y).
    { intros y y' Hy Hy' E. pose proof (HA n n y' y Hy' Hy E) as Z0. pose proof (HS n) as S.
      destruct (in_split _ _ Hy) as (l1 & l2 & EL). rewrite EL in S, Hy'. apply (ssorted_app cmp) in S as (_ & S2 & S3). apply (ssorted_inv cmp) in S2 as [_ S4].
      apply in_app_or in Hy' as [Hy'|[Hy'|Hy']].
      - specialize (S3 y' y Hy' (or_introl eq_refl)). lia.
      - symmetry. exact Hy'.
      - rewrite Forall_forall in S4. specialize (S4 y' Hy'). apply (cmp_lt_gt _ OK) in S4. lia. }
    destruct (present (C_ n) (ip x)) as [a|] eqn:PR.
    - unfold present in PR. destruct (find _ (C_ n)) as [z|] eqn:F; [|discriminate]. cbn [option_map] in PR. apply Some_inj in PR. subst a.
      apply find_some in F as [F1 F2]. apply tid_eqb_eq in F2. pose proof (HA n m z x F1 Hx F2) as Z0.
      destruct (e_fin (ent ents n)) eqn:FN.
      + right. split; [reflexivity|]. rewrite <- F2. apply (between_dead lo ents sorted n z HF Hn F1); [|congruence].
        apply (cmp_lt_le_trans _ OK lo x); [exact Lx|]. apply (cmp_sym_eq _ OK) in Z0. lia.
      + destruct (tid_eqb (ip (e_cur (ent ents n))) (ip x)) eqn:TE; cbn [negb andb].
        * apply tid_eqb_eq in TE. left. f_equal. f_equal. symmetry. apply UN; [exact (fent_in lo n _ FE FN)|exact F1|congruence].
        * right. split; [reflexivity|]. rewrite <- F2. apply (between_dead lo ents sorted n z HF Hn F1).
          -- apply (cmp_lt_le_trans _ OK lo x); [exact Lx|]. apply (cmp_sym_eq _ OK) in Z0. lia.
          -- intros _. specialize (Hmin eq_refl). destruct (Z.eq_dec (cmp x (e_cur (ent ents n))) 0) as [E0|NE].
             ++ exfalso. apply cmpDir_eq_ip in E0. rewrite E0 in TE. assert (X : tid_eqb (ip (e_cur (ent ents n))) (ip (e_cur (ent ents n))) = true) by (apply tid_eqb_eq; reflexivity). congruence.
             ++ apply (cmp_le_lt_trans _ OK z x); lia.
    - left. destruct (e_fin (ent ents n)) eqn:FN; [reflexivity|]. cbn [negb andb].
      destruct (tid_eqb (ip (e_cur (ent ents n))) (ip x)) eqn:TE; [|reflexivity]. exfalso. apply tid_eqb_eq in TE.
      unfold present in PR. destruct (find _ (C_ n)) as [z|] eqn:F; [discriminate|]. 
      pose proof (find_none _ _ F _ (fent_in lo n _ FE FN)) as X. cbn beta in X. rewrite TE in X.
      assert (X2 : tid_eqb (ip x) (ip x) = true) by (apply tid_eqb_eq; reflexivity). congruence.
  Qed.
  Lemma check_sees lo ents sorted x k : FI lo ents sorted -> cmp lo x < 0 -> (exists m, In x (C_ m)) ->
    (forall n, (n < length Cs)%nat -> e_fin (ent ents n) = false -> cmp x (e_cur (ent ents n)) <= 0) ->
    (forall n, In n (sk_ents k) -> (n < length Cs)%nat) ->
    le_vec (checkAt ents k (ip x)) (sees Cs k (ip x)) /\ (checkAt ents k (ip x) = sees Cs k (ip x) \/ dead (ip x)).
  Proof.
    intros HF Lx Hx Hmin HK. unfold checkAt, sees, le_vec. induction (sk_ents k) as [|n r IH]; cbn [map]; [split; [constructor|left; reflexivity]|].
    destruct IH as [I1 I2]; [intros; apply HK; right; assumption|].
    assert (Hn : (n < length Cs)%nat) by (apply HK; left; reflexivity).
    pose proof (check_entry lo ents sorted x n HF Hn Lx Hx (Hmin n Hn)) as CE. cbv zeta in CE.
    split.
    - constructor; [|exact I1]. destruct CE as [->|[-> _]]; [right; reflexivity|left; reflexivity].
    - destruct CE as [->|[_ D]]; [|right; exact D]. destruct I2 as [->|D]; [left; reflexivity|right; exact D].
  Qed.

  (** ** The match functions: one search condition *)
  Variable ksearch : skey.
  Hypothesis HOne : filter (fun k => negb (sk_order k)) keys0 = [ksearch].
  Hypothesis HEnts : forall k n, In k keys0 -> In n (sk_ents k) -> (n < length Cs)%nat.

  Lemma one_in : In ksearch keys0 /\ sk_order ksearch = false.
  Proof.
    assert (H : In ksearch (filter (fun k => negb (sk_order k)) keys0)) by (rewrite HOne; left; reflexivity).
    apply filter_In in H as [H1 H2]. split; [exact H1|]. apply negb_true_iff. exact H2.
  Qed.
  Lemma one_only k : In k keys0 -> sk_order k = false -> k = ksearch.
  Proof.
    intros H1 H2. assert (H : In k (filter (fun k => negb (sk_order k)) keys0)) by (apply filter_In; split; [exact H1|rewrite H2; reflexivity]).
    rewrite HOne in H. destruct H as [H|[]]. symmetry. exact H.
  Qed.
  Definition good (p : iptr) : Prop := says addTo ksearch (sees Cs ksearch p).
  Lemma le_vec_refl v : le_vec v v.
  Proof. unfold le_vec. induction v as [|a v IH]; constructor; [right; reflexivity|exact IH]. Qed.
  Lemma dead_not_good p : dead p -> ~ good p.
  Proof.
    intros (k & K1 & K2 & K3 & K4) [G _]. apply one_only in K1; [|exact K2]. subst k. destruct G as [G|G]; [congruence|].
    rewrite K4 in G; [discriminate|]. apply le_vec_refl.
  Qed.

  Lemma consistent_none kpos : forall (keys : list (skey * kst)) es ok, filter (fun k => negb (sk_order k)) (map fst keys) = [] ->
    consistentLoopD addTo cmpA joinFn below fwd kpos keys es ok = (keys, es, ok).
  Proof.
    induction keys as [|[k ks] r IH]; intros es ok H; cbn [consistentLoopD]; [reflexivity|]. cbn [map fst filter] in H.
    destruct (sk_order k); cbn [negb] in H; [|discriminate]. rewrite IH by exact H. reflexivity.
  Qed.
  Lemma no_recheck (keys : list (skey * kst)) : filter (fun k => negb (sk_order k)) (map fst keys) = [] ->
    existsb (fun kk : skey * kst => negb (sk_order (fst kk)) && ks_re (snd kk)) keys = false.
  Proof.
    induction keys as [|[k ks] r IH]; intro H; cbn [existsb]; [reflexivity|]. cbn [map fst filter] in H.
    destruct (sk_order k) eqn:E; cbn [negb] in H; [|discriminate]. cbn [fst]. rewrite E. cbn [negb andb orb]. apply IH. exact H.
  Qed.
  Lemma consistent_one kpos : forall (keys : list (skey * kst)) es ok, filter (fun k => negb (sk_order k)) (map fst keys) = [ksearch] ->
    let p := ip (e_cur (ent (fst es) (last (snd es) O))) in
    let rr := callConsistentFn addTo ksearch (checkAt (fst es) ksearch p) in
    exists keys', consistentLoopD addTo cmpA joinFn below fwd kpos keys es ok = (keys', (if fst rr then es else shiftAll kpos es), ok && fst rr) /\
      map fst keys' = map fst keys /\ existsb (fun kk : skey * kst => negb (sk_order (fst kk)) && ks_re (snd kk)) keys' = snd rr.
  Proof.
    induction keys as [|[k ks] r IH]; intros es ok H; cbn [consistentLoopD]; [discriminate|]. cbv zeta. cbn [map fst filter] in H.
    destruct (sk_order k) eqn:E; cbn [negb] in H.
    - destruct (IH es ok H) as (keys' & I1 & I2 & I3). rewrite I1. exists ((k, ks) :: keys'). split; [reflexivity|]. cbn [map fst existsb snd].
      rewrite E. cbn [negb andb orb]. split; [f_equal; exact I2|exact I3].
    - injection H. intros H' ->. destruct (callConsistentFn addTo ksearch _) as [res re] eqn:CC. cbn [fst snd].
      rewrite consistent_none by exact H'.
      eexists. split; [reflexivity|]. cbn [map fst existsb snd]. split; [reflexivity|]. rewrite E. cbn [negb andb ks_re].
      rewrite no_recheck by exact H'. apply orb_false_r.
  Qed.

  (** ** The loop *)
  Lemma last_in {T} (l : list T) d : l <> [] -> In (last l d) l.
  Proof.
    intro H. destruct l as [|a l] using rev_ind; [congruence|]. rewrite last_last. apply in_or_app. right. left. reflexivity.
  Qed.
  Lemma group_of lo ents U G : FI lo ents (U ++ G) -> G <> [] -> e_fin (ent ents (last G O)) = false ->
    (forall d, In d G -> cmpO (Kof ents d) (Kof ents (last G O)) = 0) -> (forall d, In d U -> 0 < cmpO (Kof ents d) (Kof ents (last G O))) ->
    let x := e_cur (ent ents (last G O)) in
    group ents U G x /\ (exists m, In x (C_ m)) /\ (forall n, (n < length Cs)%nat -> e_fin (ent ents n) = false -> cmp x (e_cur (ent ents n)) <= 0).
  Proof.
    intros HF NE NF HG HU. cbv zeta. set (x := e_cur (ent ents (last G O))).
    assert (KX : Kof ents (last G O) = Some x) by (unfold Kof, kv; rewrite NF; reflexivity). rewrite KX in *.
    assert (G1 : forall n, In n G -> e_fin (ent ents n) = false /\ cmp (e_cur (ent ents n)) x = 0).
    { intros n Hn. specialize (HG n Hn). unfold Kof, kv in HG. destruct (e_fin (ent ents n)); [discriminate|]. split; [reflexivity|exact HG]. }
    assert (G2 : forall n, In n U -> above x (ent ents n)).
    { intros n Hn F. specialize (HU n Hn). unfold Kof, kv in HU. rewrite F in HU. apply (cmp_gt_lt _ OK). exact HU. }
    split; [split; [exact NE|split; assumption]|]. split.
    - exists (last G O). assert (Hl : (last G O < length Cs)%nat) by (apply (FI_in _ _ _ _ HF); apply in_or_app; right; apply last_in; exact NE).
      apply (fent_in lo); [apply HF; exact Hl|exact NF].
    - intros n Hn F. assert (IS : In n (U ++ G)).
      { pose proof HF as (_ & FP & _). apply (Permutation_in _ (Permutation_sym FP)). apply in_seq. lia. }
      apply in_app_or in IS as [IS|IS]; [specialize (G2 n IS F); lia|]. destruct (G1 n IS) as [_ Z0]. apply (cmp_sym_eq _ OK) in Z0. lia.
  Qed.

  Lemma border_start lo ents n0 r (keys : list (skey * kst)) : FI lo ents (n0 :: r) ->
    let '(i', k', pre) := borderLoopD cmpA fwd ents keys [] n0 r 1 0 in
    if pre then i' = length (n0 :: r) /\ exists U G, n0 :: r = U ++ G /\ length U = k' /\ G <> [] /\
        (forall d, In d G -> cmpO (Kof ents d) (Kof ents (last G O)) = 0) /\ forall d, In d U -> 0 < cmpO (Kof ents d) (Kof ents (last G O))
    else exists F b c R, n0 :: r = (F ++ [b]) ++ c :: R /\ i' = length (F ++ [b]) /\
        preConsistentCheck keys (F ++ [b]) = false /\ 0 < cmpO (Kof ents b) (Kof ents c).
  Proof.
    intro HF. apply (borderLoop_spec ents keys r [] n0 1%nat 0%nat).
    - intros n Hn. apply (FI_att _ _ _ _ HF). apply (FI_in _ _ _ _ HF). exact Hn.
    - apply HF.
    - reflexivity.
    - exists [], [n0]. split; [reflexivity|]. split; [reflexivity|]. split; [discriminate|]. split; [|intros d []].
      intros d [<-|[]]. apply (tc_refl _ cmpO_total).
  Qed.

  Definition no_more (lo : item) : Prop := forall n y, (n < length Cs)%nat -> In y (C_ n) -> cmp lo y < 0 -> ~ good (ip y).
  (** The state in which a row is handed out. *)
  Definition handed (lo : item) (st : fst_ (A := A)) (x : item) (re : bool) : Prop :=
    exists lo1 U G, f_sorted st = U ++ G /\ f_incr st = Some (length U) /\ FI lo1 (f_ents st) (U ++ G) /\ cmp lo lo1 <= 0 /\ cmp lo1 x < 0 /\
      group (f_ents st) U G x /\ map fst (f_keys st) = keys0 /\ (exists m, (m < length Cs)%nat /\ In x (C_ m)) /\ good (ip x) /\
      (re = snd (callConsistentFn addTo ksearch (sees Cs ksearch (ip x)))) /\
      (forall k, In k keys0 -> checkAt (f_ents st) k (ip x) = sees Cs k (ip x)) /\
      (forall n y, (n < length Cs)%nat -> In y (C_ n) -> cmp lo y < 0 -> cmp y x < 0 -> ~ good (ip y)).
  Lemma fast_loopD_spec : forall fuel st lo, FI lo (f_ents st) (f_sorted st) -> (forall n, (n < length Cs)%nat -> above lo (ent (f_ents st) n)) ->
    map fst (f_keys st) = keys0 -> (total (f_ents st) < fuel)%nat ->
    match fast_loopD addTo cmpA joinFn below fwd fuel st with
    | None => no_more lo
    | Some (st', x, re) => handed lo st' x re /\ (total (f_ents st') <= total (f_ents st))%nat
    end.
  Proof.
    induction fuel as [|f IH]; intros st lo HF HAb HK HL; [lia|]. cbn [fast_loopD].
    destruct (f_sorted st) as [|n0 r] eqn:ES.
    { intros n y Hn. pose proof HF as (_ & FP & _). apply Permutation_nil in FP. destruct (length Cs); [lia|discriminate]. }
    rewrite <- ES in *. pose proof (border_start lo (f_ents st) n0 r (f_keys st)) as BS. rewrite <- ES in BS. specialize (BS HF).
    destruct (borderLoopD cmpA fwd (f_ents st) (f_keys st) [] n0 r 1 0) as [[i k] pre]. destruct pre.
    - destruct BS as (B1 & U & G & B2 & B3 & B4 & B5 & B6).
      assert (LE : nth (i - 1) (f_sorted st) O = last G O /\ last (f_sorted st) O = last G O).
      { rewrite B1, B2. destruct G as [|z G] using rev_ind; [congruence|]. rewrite last_last, app_assoc, last_last. split; [|reflexivity].
        rewrite app_length. cbn [length]. rewrite app_nth2, Nat.add_sub, Nat.sub_diag by lia. reflexivity. }
      destruct LE as [LE1 LE2]. rewrite LE1.
      destruct (e_fin (ent (f_ents st) (last G O))) eqn:FN.
      + (* all entries are finished *)
        intros n y Hn Hy L. apply dead_not_good. apply (between_dead lo (f_ents st) (f_sorted st) n y HF Hn Hy L).
        intros F. exfalso. assert (KN : Kof (f_ents st) (last G O) = None) by (unfold Kof, kv; rewrite FN; reflexivity). rewrite KN in *.
        assert (IS : In n (U ++ G)).
        { pose proof HF as (_ & FP & _). rewrite <- B2. apply (Permutation_in _ (Permutation_sym FP)). apply in_seq. lia. }
        assert (KS : Kof (f_ents st) n = Some (e_cur (ent (f_ents st) n))) by (unfold Kof, kv; rewrite F; reflexivity).
        apply in_app_or in IS as [IS|IS]; [specialize (B6 n IS)|specialize (B5 n IS)]; rewrite KS in *; cbn [cmpO] in *; lia.
      + pose proof HF as HF'. rewrite B2 in HF'.
        destruct (group_of lo (f_ents st) U G HF' B4 FN B5 B6) as (GR & GX & GM). set (x := e_cur (ent (f_ents st) (last G O))) in *.
        assert (ML : (last G O < length Cs)%nat) by (apply (FI_in _ _ _ _ HF'); apply in_or_app; right; apply last_in; exact B4).
        assert (LX : cmp lo x < 0) by (apply (HAb _ ML); exact FN).
        assert (KE1 : forall n, In n (sk_ents ksearch) -> (n < length Cs)%nat) by (intros n; apply HEnts, one_in).
        destruct (check_sees lo (f_ents st) (f_sorted st) x ksearch HF LX GX GM KE1) as [CV CS].
        assert (BT : forall n y, (n < length Cs)%nat -> In y (C_ n) -> cmp lo y < 0 -> cmp y x < 0 -> ~ good (ip y)).
        { intros n y Hn Hy L1 L2. apply dead_not_good. apply (between_dead lo (f_ents st) (f_sorted st) n y HF Hn Hy L1).
          intro F. apply (cmp_lt_le_trans _ OK y x); [exact L2|apply GM; assumption]. }
        destruct (consistent_one k (f_keys st) (f_ents st, f_sorted st) true) as (keys' & C1 & C2 & C3); [rewrite HK; exact HOne|].
        cbn [fst snd] in C1, C3. rewrite LE2 in C1, C3. fold x in C1, C3. rewrite C1. cbn [andb].
        destruct (fst (callConsistentFn addTo ksearch (checkAt (f_ents st) ksearch (ip x)))) eqn:RES.
        * (* the row is handed out *)
          cbn [fst snd]. rewrite LE2. fold x.
          assert (ND : ~ dead (ip x)).
          { intros (k1 & K1 & K2 & K3 & K4). apply one_only in K1; [|exact K2]. subst k1.
            unfold callConsistentFn in RES. rewrite K3 in RES. specialize (K4 _ CV). clear - RES K4. revert RES K4.
            destruct (sk_cons ksearch (checkAt (f_ents st) ksearch (ip x))) as [a b]. cbn [fst]. intros RES ->. discriminate. }
          destruct CS as [CS|CS]; [|contradiction]. rewrite CS in RES, C3.
          split; [|cbn [f_ents]; lia]. exists lo, U, G. cbn [f_sorted f_incr f_ents f_keys]. rewrite B3.
          split; [exact B2|]. split; [reflexivity|]. split; [exact HF'|]. split; [rewrite (tc_refl _ OK); lia|]. split; [exact LX|]. split; [exact GR|].
          split; [congruence|]. split; [exists (last G O); split; [exact ML|apply (fent_in lo); [apply HF; exact ML|exact FN]]|].
          split; [apply says_iff; exact RES|]. split; [exact C3|]. split; [|exact BT].
          intros k1 Hk1. destruct (check_sees lo (f_ents st) (f_sorted st) x k1 HF LX GX GM (fun n => HEnts k1 n Hk1)) as [_ [E|D]]; [exact E|contradiction].
        * (* rejected *)
          rewrite B2, <- B3. destruct (shiftAll_spec lo x (f_ents st) U G HF' ltac:(lia) GR) as (S1 & S2 & S3).
          destruct (shiftAll (length U) (f_ents st, U ++ G)) as [ents' sorted'] eqn:SA. cbn [fst snd] in *.
          specialize (IH (mkFst ents' sorted' keys' (f_incr st)) x S1 S2 ltac:(cbn [f_keys]; congruence) ltac:(cbn [f_ents]; lia)).
          cbn [f_ents] in IH.
          assert (NG : ~ good (ip x)).
          { destruct CS as [CS|CS]; [|apply dead_not_good; exact CS]. rewrite CS in RES. intro Gd. apply says_iff in Gd. congruence. }
          assert (UP : forall n y, (n < length Cs)%nat -> In y (C_ n) -> cmp lo y < 0 -> cmp y x <= 0 -> ~ good (ip y)).
          { intros n y Hn Hy L1 L2. destruct (Z.eq_dec (cmp y x) 0) as [E|N]; [|apply (BT n y Hn Hy L1); lia].
            apply cmpDir_eq_ip in E. rewrite E. exact NG. }
          destruct (fast_loopD addTo cmpA joinFn below fwd f (mkFst ents' sorted' keys' (f_incr st))) as [[[st' x'] re']|].
          -- destruct IH as [(lo1 & U' & G' & I1 & I2 & I3 & I4 & I5 & I6 & I7 & I8 & I9 & I10 & I11 & I12) I13]. split; [|lia].
             exists lo1, U', G'. split; [exact I1|]. split; [exact I2|]. split; [exact I3|]. split; [apply (tc_trans _ OK lo x lo1); lia|].
             split; [exact I5|]. split; [exact I6|]. split; [exact I7|]. split; [exact I8|]. split; [exact I9|]. split; [exact I10|]. split; [exact I11|].
             intros n y Hn Hy L1 L2. destruct (Z.le_gt_cases (cmp y x) 0) as [E|E]; [apply (UP n y); assumption|].
             apply (I12 n y Hn Hy); [apply (cmp_gt_lt _ OK); exact E|exact L2].
          -- intros n y Hn Hy L1. destruct (Z.le_gt_cases (cmp y x) 0) as [E|E]; [apply (UP n y); assumption|].
             apply (IH n y Hn Hy). apply (cmp_gt_lt _ OK). exact E.
    - destruct BS as (F & b & c & R & B1 & B2 & B3 & B4).
      assert (NB : nth (i - 1) (f_sorted st) O = b).
      { rewrite B1, B2, app_nth1 by (rewrite app_length; cbn; lia). rewrite app_length. cbn [length]. rewrite app_nth2, Nat.add_sub, Nat.sub_diag by lia. reflexivity. }
      rewrite NB. set (ents := f_ents st) in *.
      assert (FD : desc (Kof ents) ((F ++ [b]) ++ c :: R)) by (rewrite <- B1; apply HF).
      assert (BIG : forall m, In m (F ++ [b]) -> 0 <= cmpO (Kof ents m) (Kof ents b)).
      { intros m Hm. apply in_app_or in Hm as [Hm|[<-|[]]]; [|rewrite (tc_refl _ cmpO_total); lia].
        unfold desc in FD. apply SSorted_app in FD as (FD & _). apply SSorted_app in FD as (_ & _ & FD). apply FD; [exact Hm|left; reflexivity]. }
      assert (FL : forall m, In m (F ++ [b]) -> (m < length Cs)%nat).
      { intros m Hm. apply (FI_in _ _ _ _ HF). rewrite B1. apply in_or_app. left. exact Hm. }
      destruct (e_fin (ent ents b)) eqn:FB.
      + (* too few query keys are left *)
        intros n y Hn Hy L. apply dead_not_good. apply (pre_dead (f_keys st) (F ++ [b]) y HK B3).
        intros m y' Hm Hy' E. apply (dead_ip (ip y')); [exact E|]. apply (between_dead lo ents (f_sorted st) m y' HF (FL m Hm) Hy').
        * pose proof (HA m n y' y Hy' Hy E) as Z0. apply (cmp_sym_eq _ OK) in Z0. apply (cmp_lt_le_trans _ OK lo y); [exact L|lia].
        * intro F0. exfalso. specialize (BIG m Hm). unfold Kof, kv in BIG. rewrite FB, F0 in BIG. cbn [cmpO] in BIG. lia.
      + destruct (shift_shape ents (f_sorted st) i true) as (P & n & Q & S1 & S2 & S3).
        { rewrite B1, app_length, <- B2. cbn [length]. lia. }
        rewrite S3. cbv zeta. rewrite NB. set (z := e_cur (ent ents b)) in *.
        assert (KB : Kof ents b = Some z) by (unfold Kof, kv; rewrite FB; reflexivity).
        assert (Hb : (b < length Cs)%nat) by (apply FL; apply in_or_app; right; left; reflexivity).
        assert (Hn : (n < length Cs)%nat) by (apply (FI_in _ _ _ _ HF); rewrite S1; apply in_or_app; right; left; reflexivity).
        assert (NR : In n (c :: R)).
        { assert (E : (F ++ [b]) ++ c :: R = P ++ n :: Q) by congruence.
          destruct (app_eq_app _ _ _ _ E) as (l & [[H1 H2]|[H1 H2]]); [|rewrite H2; apply in_or_app; right; left; reflexivity].
          assert (l = []) by (destruct l as [|a l']; [reflexivity|exfalso; apply (f_equal (@length nat)) in H1; rewrite (app_length P), <- B2 in H1; cbn [length] in H1; lia]).
          subst l. cbn [app] in H2. rewrite <- H2. left. reflexivity. }
        assert (SM : cmpO (Kof ents n) (Some z) < 0).
        { rewrite KB in B4. apply (cmp_gt_lt _ cmpO_total) in B4.
          destruct NR as [->|NR]; [exact B4|]. unfold desc in FD. apply SSorted_app in FD as (_ & FD & _). apply StronglySorted_inv in FD as [_ FD].
          rewrite Forall_forall in FD. specialize (FD n NR). apply (cmp_le_sym _ cmpO_total) in FD. apply (cmp_le_lt_trans _ cmpO_total _ (Kof ents c)); assumption. }
        assert (FN : e_fin (ent ents n) = false) by (unfold Kof, kv in SM; destruct (e_fin (ent ents n)); [discriminate|reflexivity]).
        assert (CZ : cmp (e_cur (ent ents n)) z < 0) by (unfold Kof, kv in SM; rewrite FN in SM; exact SM).
        assert (IZ : In z (C_ b)) by (apply (fent_in lo); [apply HF; exact Hb|exact FB]).
        destruct (find_step lo n (ent ents n) z) as (E1 & E2 & E3).
        * pose proof (proj1 (proj2 HF)) as PM. apply Permutation_length in PM. rewrite seq_length, B1, !app_length in PM. cbn [length] in PM. lia.
        * apply HF. exact Hn.
        * exact FN.
        * exact CZ.
        * apply (HR b). exact IZ.
        * intros y Hy L1 L2. apply (pre_dead (f_keys st) (F ++ [b]) y HK B3).
          assert (LY : cmp lo y < 0) by (apply (cmp_lt_le_trans _ OK lo (e_cur (ent ents n))); [apply (HAb n Hn); exact FN|exact L1]).
          intros m y' Hm Hy' E. apply (dead_ip (ip y')); [exact E|].
          pose proof (HA m n y' y Hy' Hy E) as Z0.
          apply (between_dead lo ents (f_sorted st) m y' HF (FL m Hm) Hy').
          -- apply (cmp_sym_eq _ OK) in Z0. apply (cmp_lt_le_trans _ OK lo y); [exact LY|lia].
          -- intro F0. specialize (BIG m Hm). unfold Kof in BIG at 1. unfold kv in BIG. rewrite F0, KB in BIG. cbn [cmpO] in BIG.
             apply (cmp_ge_le _ OK) in BIG. apply (cmp_le_lt_trans _ OK y' y); [lia|]. apply (cmp_lt_le_trans _ OK y z); assumption.
        * rewrite S1 in HF.
          destruct (move_spec lo ents P n Q _ HF E1) as (P1 & P2 & M1 & M2 & M3 & M4 & M5 & M6 & M7).
          { unfold Kof, kv at 2. rewrite FN. unfold kv. destruct (e_fin (findItem (ent ents n) z)) eqn:F0; cbn [cmpO]; [lia|].
            specialize (E2 eq_refl). apply Z.lt_le_incl, (cmp_lt_gt _ OK). apply (cmp_lt_le_trans _ OK _ z); assumption. }
          { exact E3. }
          rewrite M2. specialize (IH (mkFst (update ents n (fun _ => findItem (ent ents n) z)) (P1 ++ n :: P2 ++ Q) (f_keys st) (f_incr st)) lo).
          cbn [f_ents f_sorted f_keys] in IH. specialize (IH M4).
          match type of IH with ?X -> _ => assert (AB : X) end.
          { intros m Hm. destruct (Nat.eq_dec m n) as [->|N]; [|rewrite M7 by exact N; apply HAb; exact Hm].
            rewrite M6. intro F0. specialize (E2 F0). apply (cmp_lt_le_trans _ OK lo z); [|exact E2].
            apply (HAb b Hb). exact FB. }
          specialize (IH AB HK ltac:(lia)).
          destruct (fast_loopD addTo cmpA joinFn below fwd f _) as [[[st' x'] re']|]; [|exact IH].
          destruct IH as [I1 I2]. split; [exact I1|lia].
  Qed.

  (** ** The whole run *)
  Lemma rem_bound lo n e : fent lo n e -> (rem n e <= e_bound e)%nat.
  Proof.
    intros (_ & [[F _]|(d & r & G1 & G2 & _)]); [unfold rem; rewrite F; lia|].
    rewrite (rem_split n e d r G1 (rep_fin _ _ G2)). pose proof (rep_bnd _ _ G2). lia.
  Qed.
  Lemma bound_sum (ents : list entry) : total_bound ents = list_sum (map (fun n => e_bound (ent ents n)) (seq 0 (length ents))).
  Proof.
    induction ents as [|e r IH]; [reflexivity|]. cbn [total_bound fold_right length seq map].
    change (fold_right (fun e n => (e_bound e + n)%nat) 0%nat r) with (total_bound r). rewrite IH, <- seq_shift, map_map. reflexivity.
  Qed.
  Lemma total_le lo ents sorted : FI lo ents sorted -> (total ents <= total_bound ents)%nat.
  Proof.
    intros (F1 & _ & _ & F4). rewrite bound_sum, F1. unfold total. apply fsum_le. intros n Hn. apply in_seq in Hn. apply (rem_bound lo). apply F4. lia.
  Qed.
  Definition readied (st : fst_ (A := A)) : list entry * list nat :=
    match f_incr st with None => (f_ents st, f_sorted st) | Some k => shiftAll k (f_ents st, f_sorted st) end.
  Definition ready (lo : item) (st : fst_ (A := A)) : Prop :=
    FI lo (fst (readied st)) (snd (readied st)) /\ (forall n, (n < length Cs)%nat -> above lo (ent (fst (readied st)) n)) /\ map fst (f_keys st) = keys0.
  Lemma runFastD_spec : forall fuel st lo, ready lo st -> (total (fst (readied st)) < fuel)%nat ->
    let out := runFastD addTo cmpA joinFn below fwd fuel st in
    ssorted cmp (map fst out) /\
    (forall x re, In (x, re) out -> cmp lo x < 0 /\ (exists m, (m < length Cs)%nat /\ In x (C_ m)) /\ good (ip x) /\
       re = snd (callConsistentFn addTo ksearch (sees Cs ksearch (ip x)))) /\
    (forall n y, (n < length Cs)%nat -> In y (C_ n) -> cmp lo y < 0 -> good (ip y) -> exists o, In o out /\ ip (fst o) = ip y).
  Proof.
    induction fuel as [|f IH]; intros st lo (R1 & R2 & R3) L; [lia|]. cbv zeta. cbn [runFastD].
    unfold scanGetItemFastD. fold (readied st). destruct (readied st) as [ents sorted] eqn:RD. cbn [fst snd] in *.
    pose proof (total_le lo ents sorted R1) as TB.
    pose proof (fast_loopD_spec (S (total_bound ents)) (mkFst ents sorted (f_keys st) (f_incr st)) lo R1 R2 R3 ltac:(cbn [f_ents]; lia)) as FL.
    match type of FL with match ?t with _ => _ end => destruct t as [[[st' x] re]|] end.
    - destruct FL as [(lo1 & U & G & H1 & H2 & H3 & H4 & H5 & H6 & H7 & H8 & H9 & H10 & H11 & H12) H13]. cbn [f_ents] in H13.
      destruct (shiftAll_spec lo1 x (f_ents st') U G H3 ltac:(lia) H6) as (S1 & S2 & S3).
      assert (RD' : readied st' = shiftAll (length U) (f_ents st', U ++ G)) by (unfold readied; rewrite H2, H1; reflexivity).
      rewrite <- RD' in S1, S2, S3.
      destruct (IH st' x) as (I1 & I2 & I3); [split; [exact S1|split; [exact S2|exact H7]]|lia|].
      assert (LX : cmp lo x < 0) by (apply (cmp_le_lt_trans _ OK lo lo1); assumption).
      split; [|split].
      + cbn [map fst]. apply ssorted_cons; [exact I1|]. apply Forall_forall. intros z Hz. apply in_map_iff in Hz as ([z' rz] & <- & Hz). cbn [fst].
        apply (I2 _ _ Hz).
      + intros z rz [E|Hz].
        * injection E as <- <-. repeat (split; [assumption|]). exact H10.
        * destruct (I2 _ _ Hz) as (J1 & J2). split; [apply (cmp_lt_trans _ OK lo x); assumption|exact J2].
      + intros n y Hn Hy Ly Gy. destruct (Z.lt_trichotomy (cmp y x) 0) as [C|[C|C]].
        * exfalso. apply (H12 n y Hn Hy Ly C Gy).
        * exists (x, re). split; [left; reflexivity|]. cbn [fst]. apply cmpDir_eq_ip in C. congruence.
        * destruct (I3 n y Hn Hy) as (o & O1 & O2); [apply (cmp_gt_lt _ OK); exact C|exact Gy|]. exists o. split; [right; exact O1|exact O2].
    - split; [constructor|]. split; [intros x re []|]. intros n y Hn Hy Ly Gy. exfalso. apply (FL n y Hn Hy Ly Gy).
  Qed.
End FastD.
