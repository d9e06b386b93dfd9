(** Vacuum of a whole tree: both passes. *)
From Verif Require Import Ord BTree BTreeInv VacuumTree VacTreeInv VacTreeClean VacTreeDel VacTreeScan.
From Coq Require Import List ZArith Bool Arith Lia.
Import ListNotations.

Section All.
  Context {T : Type}.
  Variable cmp : T -> T -> Z.
  Hypothesis OK : total_cmp cmp.
  Variable ifit : list (T * nat) -> Prop.
  Variable ok : T -> Prop.
  Variable fit : list T -> Prop.
  Variable live : T -> bool.
  Hypothesis Hifit : forall d1 kc d2, ifit (d1 ++ kc :: d2) -> ifit (d1 ++ d2).
  Hypothesis Hfit : forall l, ssorted cmp l -> Forall ok l -> fit l -> fit (filter live l).
  Notation page := (page T).
  Notation store := (list page).
  Notation Str := (Str cmp ifit ok fit).

  Definition midway (root : nat) (R : list T) (s : store) : Prop := exists lvl, Str s root lvl /\ (forall x, In x (rows_of_leaves s lvl) -> In x R) /\ filter live (rows_of_leaves s lvl) = filter live R.

  Lemma vacuumTree_spec st root lvl : Str st root lvl -> full st lvl ->
    exists tr lvl', vacuumTree live st root = Some tr /\ let st' := last tr st in
      Str st' root lvl' /\ full st' lvl' /\ rows_of_leaves st' lvl' = filter live (rows_of_leaves st lvl) /\
      Forall (midway root (rows_of_leaves st lvl)) tr /\
      hd_error (leaves lvl') = hd_error (leaves lvl) /\ last (leaves lvl') 0 = last (leaves lvl) 0 /\ incl (leaves lvl') (leaves lvl) /\
      (forall x, In x (leaves lvl') -> items_at st' x = [] -> items_at st x = [] \/ hd_error (leaves lvl') = Some x \/ last (leaves lvl') 0 = x).
  Proof.
    intros HS HF. unfold vacuumTree. pose proof (s_topn cmp ifit ok fit st root lvl HS) as HT. pose proof (s_levels cmp ifit ok fit st root lvl HS) as Hlv. pose proof (s_len cmp ifit ok fit st root lvl HS) as Hne.
    destruct (vacuumLeaves_spec cmp ifit ok fit live Hfit (S (length st)) (length lvl - 1) true st root lvl [root] root HS HT (or_introl eq_refl) ltac:(lia)) as (tr & v & E & C & F & N).
    pose proof (cleaned_str cmp ifit ok fit live Hfit _ _ _ _ _ C HS) as HS1. pose proof (cleaned_full live _ _ _ _ C HF) as HF1.
    destruct (cleaned_rows cmp ifit ok fit live _ _ _ _ _ HS C) as (_ & _ & R3).
    assert (ER : rows_of_leaves (last tr st) lvl = filter live (rows_of_leaves st lvl)).
    { apply R3. intros L b HL Hb. rewrite <- (s_under cmp ifit ok fit st root lvl HS _ _ L HT HL) in Hb. cbn [flat_map] in Hb. rewrite app_nil_r in Hb. exact Hb. }
    assert (FM : Forall (midway root (rows_of_leaves st lvl)) tr).
    { eapply Forall_impl; [|exact F]. intros s Hs. exists lvl. split; [exact (cleaned_str cmp ifit ok fit live Hfit _ _ _ _ _ Hs HS)|]. destruct (cleaned_rows cmp ifit ok fit live _ _ _ _ _ HS Hs) as (Q1 & Q2 & _). auto. }
    rewrite E. destruct v.
    - destruct (scan_root cmp ifit ok fit Hifit (last tr st) root lvl HS1 HF1) as (tr2 & lvl2 & E2 & HS2 & HF2 & X & G & R). replace (length (last tr st)) with (length st) in E2 by (symmetry; apply C). rewrite E2.
      exists (tr ++ tr2), lvl2. split; [reflexivity|]. cbv zeta. rewrite last_cons_app. split; [exact HS2|]. split; [exact HF2|]. destruct X as (X1 & X2 & X3 & X4 & X5 & X6).
      split; [congruence|]. split; [|split; [exact X3|split; [exact X4|split; [exact X5|]]]].
      + apply Forall_app. split; [exact FM|]. eapply Forall_impl; [|exact G]. intros s (lvls & Hs & Er). exists lvls. split; [exact Hs|]. rewrite Er, ER. split; [|apply filter_twice].
        intros x Hx. apply filter_In in Hx. apply Hx.
      + intros x Hx Hi. right. destruct lvl as [|L0 [|L1 ll]]; [congruence| |].
        * cbn in HT. injection HT as ->. assert (Ex : x = root) by (destruct (X5 x Hx) as [<-|[]]; reflexivity). subst x. rewrite X3. left. reflexivity.
        * apply R; [cbn; lia|exact Hx|exact Hx|exact Hi].
    - exists tr, lvl. split; [reflexivity|]. cbv zeta. split; [exact HS1|]. split; [exact HF1|]. split; [exact ER|]. split; [exact FM|]. split; [reflexivity|]. split; [reflexivity|]. split; [apply incl_refl|].
      intros x Hx Hi. destruct lvl as [|L0 [|L1 ll]]; [congruence| |].
      + cbn in HT. injection HT as ->. destruct Hx as [<-|[]]. right. left. reflexivity.
      + destruct (items_at st x) eqn:Ei; [left; reflexivity|]. exfalso. revert Hi. apply (N eq_refl); [right; cbn; lia|congruence].
  Qed.

  (** the leaf chain *)
  Inductive chain (st : store) (root : nat) : nat -> Prop :=
  | chain_first b : leftmostLeaf (S (length st)) st root = Some b -> chain st root b
  | chain_next b pg c : chain st root b -> get st b = Some pg -> p_right pg = Some c -> chain st root c.
  Lemma chain_iff st root lvl : Str st root lvl -> forall b, chain st root b <-> In b (leaves lvl).
  Proof.
    intros HS. pose proof (s_topn cmp ifit ok fit st root lvl HS) as HT. pose proof (s_levels cmp ifit ok fit st root lvl HS) as Hlv. pose proof (s_len cmp ifit ok fit st root lvl HS) as Hne.
    destruct (s_leftmost cmp ifit ok fit st root lvl HS (S (length st)) _ root [] HT ltac:(lia)) as (b0 & L0 & HL & E). assert (El : leaves lvl = b0 :: L0) by (destruct lvl; [congruence|cbn in HL; injection HL as ->; reflexivity]). rewrite El.
    intro b. split.
    - induction 1 as [b H|b pg c H IH Hg Hr]; [rewrite E in H; injection H as <-; left; reflexivity|].
      apply in_split in IH as (L1 & L2 & Es). rewrite Es in HL. pose proof (S_links _ _ _ _ _ _ _ HS 0 _ HL) as Hln. apply links_at in Hln as (pg' & Hg' & Hr' & _). rewrite Hg in Hg'. injection Hg' as <-.
      rewrite Hr in Hr'. destruct L2 as [|c' L2]; cbn in Hr'; [discriminate|]. injection Hr' as <-. rewrite Es. apply in_app_iff. right. right. left. reflexivity.
    - intro Hb. apply in_split in Hb as (L1 & L2 & Es). revert b L2 Es. induction L1 as [|a L1 IH] using rev_ind; intros b L2 Es.
      + cbn in Es. injection Es as <- _. apply chain_first. exact E.
      + rewrite <- app_assoc in Es. cbn [app] in Es. rewrite Es in HL. pose proof (S_links _ _ _ _ _ _ _ HS 0 _ HL) as Hln. apply links_at in Hln as (pg' & Hg' & Hr' & _). cbn in Hr'.
        exact (chain_next st root a pg' b (IH a (b :: L2) Es) Hg' Hr').
  Qed.
  Lemma chain_ends st root lvl b pg : Str st root lvl -> In b (leaves lvl) -> get st b = Some pg ->
    (p_left pg = None <-> hd_error (leaves lvl) = Some b) /\ (p_right pg = None <-> last (leaves lvl) 0 = b).
  Proof.
    intros HS Hb Hg. assert (HL : nth_error lvl 0 = Some (leaves lvl)) by (destruct lvl; [destruct Hb|reflexivity]). pose proof (s_nodup cmp ifit ok fit st root lvl HS 0 _ HL) as N.
    apply in_split in Hb as (L1 & L2 & Es). rewrite Es in *. pose proof (S_links _ _ _ _ _ _ _ HS 0 _ HL) as Hln. apply links_at in Hln as (pg' & Hg' & Hr & Hl). rewrite Hg in Hg'. injection Hg' as <-. rewrite Hr, Hl. split.
    - destruct L1 as [|a L1]; [cbn; tauto|]. cbn. split; [discriminate|]. intro E. injection E as ->. exfalso. cbn in N. inversion N as [|? ? N1 _]; subst. apply N1. apply in_app_iff. right. left. reflexivity.
    - rewrite last_cons_app. destruct L2 as [|c L2]; [cbn; tauto|]. cbn [hd_error]. split; [discriminate|]. intro E. exfalso. apply NoDup_remove_2 in N. apply N. apply in_app_iff. right.
      rewrite <- E at 1. change (last (b :: c :: L2) (last L1 0)) with (last (c :: L2) (last L1 0)). destruct (exists_last (l := c :: L2)) as (l' & x & ->); [discriminate|]. rewrite last_last. apply in_app_iff. right. left. reflexivity.
  Qed.
End All.
