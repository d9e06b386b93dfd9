(** Back: a structurally sound tree without childless internal pages satisfies the invariant of BTreeInv.v. *)
From Verif Require Import Ord BTree BTreeInv BTreeFind VacuumTree VacTreeInv.
From Coq Require Import List ZArith Bool Arith Lia.
Import ListNotations.

Lemma last_last {A} (l : list A) d d' : l <> [] -> last l d = last l d'.
Proof. induction l as [|a l IH]; [congruence|]. intros _. destruct l; [reflexivity|]. cbn [last]. apply IH. discriminate. Qed.
Lemma last_app_ne {A} (l l' : list A) d : l' <> [] -> last (l ++ l') d = last l' d.
Proof. induction l as [|a l IH]; intro H; [reflexivity|]. cbn [app last]. destruct (l ++ l') eqn:E; [destruct l; [cbn in E; congruence|discriminate]|]. rewrite <- IH; auto. Qed.

Section To.
  Context {T : Type}.
  Variable cmp : T -> T -> Z.
  Hypothesis OK : total_cmp cmp.
  Variable ifit : list (T * nat) -> Prop.
  Variable ok : T -> Prop.
  Variable fit : list T -> Prop.
  Notation page := (page T).
  Notation store := (list page).
  Notation ble := (ble cmp).
  Notation blt := (blt cmp).
  Notation Inv := (Inv cmp ifit false ok fit).
  Notation Str := (Str cmp ifit ok fit).

  Fixpoint hgt (lvl : list (list nat)) (b : nat) : nat :=
    match lvl with [] => 0 | L :: r => if in_dec Nat.eq_dec b L then 0 else S (hgt r b) end.
  Definition bound_of (st : store) (b : nat) : bnd T := match get st b with Some pg => BAt (p_bound pg) | None => BMin end.
  Definition high_of (st : store) (b : nat) : bnd T := match get st b with Some pg => hi_of pg | None => BMin end.
  Fixpoint low_of (st : store) (prv : bnd T) (L : list nat) (x : nat) : bnd T :=
    match L with [] => BMin | a :: L' => if a =? x then prv else low_of st (bound_of st a) L' x end.
  Lemma low_of_at st : forall L1 prv x L2, ~ In x L1 -> low_of st prv (L1 ++ x :: L2) x = match L1 with [] => prv | _ => bound_of st (last L1 0) end.
  Proof.
    induction L1 as [|a L1 IH]; intros prv x L2 Hn; cbn [app low_of].
    - rewrite Nat.eqb_refl. reflexivity.
    - destruct (Nat.eqb_spec a x) as [->|]; [exfalso; apply Hn; left; reflexivity|]. rewrite IH by (intro H; apply Hn; right; exact H). destruct L1; reflexivity.
  Qed.

  Section Str2Inv.
    Context (st : store) (root : nat) (lvl : list (list nat)).
    Hypothesis HS : Str st root lvl.
    Hypothesis HF : full st lvl.

    Lemma hgt_at h L b : nth_error lvl h = Some L -> In b L -> hgt lvl b = h.
    Proof.
      intros HL Hb. pose proof (S_nodup _ _ _ _ _ _ _ HS) as N. clear HS HF. revert h HL N. induction lvl as [|L0 l IH]; intros h HL N; [destruct h; discriminate|].
      cbn [hgt]. cbn [concat] in N. apply nodup_app in N as (_ & N & D). destruct h as [|h]; cbn in HL.
      - injection HL as ->. destruct (in_dec Nat.eq_dec b L); [reflexivity|contradiction].
      - destruct (in_dec Nat.eq_dec b L0) as [H|H]; [exfalso; apply (D b H); apply in_concat; exists L; split; [eapply nth_error_In; eauto|exact Hb]|]. f_equal. apply IH; auto.
    Qed.
    Definition L0 : list nat := match lvl with [] => [] | L :: _ => L end.
    Lemma L0_eq : nth_error lvl 0 = Some L0.
    Proof. unfold L0. pose proof (s_len cmp ifit ok fit st root lvl HS). destruct lvl; [congruence|reflexivity]. Qed.
    Definition gslo (b : nat) : bnd T := match under (hgt lvl b) st b with x :: _ => low_of st BMin L0 x | [] => BMin end.
    Definition gshi (b : nat) : bnd T := high_of st (last (under (hgt lvl b) st b) 0).
    Definition gG : @ghost T := mkG lvl gslo gshi.

    Lemma under_ne : forall h L b, nth_error lvl h = Some L -> In b L -> under h st b <> [].
    Proof.
      induction h as [|h IH]; intros L b HL Hb; [discriminate|]. cbn [under]. pose proof (HF h L b HL Hb) as Hk.
      destruct (s_level lvl h) as [L' HL']; [apply nth_some_lt in HL; lia|]. pose proof (S_kids _ _ _ _ _ _ _ HS h L' L HL' HL) as Ek.
      destruct (kids st b) as [|c r] eqn:E; [congruence|]. cbn [flat_map]. assert (Hc : In c L') by (rewrite <- Ek; apply in_flat_map; exists b; split; [exact Hb|rewrite E; left; reflexivity]).
      pose proof (IH L' c HL' Hc). destruct (under h st c); [congruence|discriminate].
    Qed.
    (** the leaves under a page are a run of the leaf level *)
    Lemma under_run h L1 b L2 : nth_error lvl h = Some (L1 ++ b :: L2) -> L0 = flat_map (under h st) L1 ++ under h st b ++ flat_map (under h st) L2.
    Proof. intro HL. rewrite <- (s_under cmp ifit ok fit st root lvl HS h _ _ HL L0_eq), flat_map_app. reflexivity. Qed.
    Lemma L0_nodup : NoDup L0.
    Proof. exact (s_nodup cmp ifit ok fit st root lvl HS 0 L0 L0_eq). Qed.
    Lemma leaf_get x : In x L0 -> exists pg, get st x = Some pg.
    Proof. intro H. exact (s_get cmp ifit ok fit st root lvl HS 0 L0 x L0_eq H). Qed.
    Lemma low_at A x B : L0 = A ++ x :: B -> low_of st BMin L0 x = match A with [] => BMin | _ => bound_of st (last A 0) end.
    Proof. intro E. rewrite E. apply low_of_at. pose proof L0_nodup as N. rewrite E in N. apply NoDup_remove_2 in N. intro H. apply N. apply in_app_iff. auto. Qed.
    Lemma high_at A x B : L0 = A ++ x :: B -> high_of st x = match B with [] => BMax | _ => bound_of st x end.
    Proof.
      intro E. assert (HL : nth_error lvl 0 = Some (A ++ x :: B)) by (rewrite L0_eq, E; reflexivity). destruct (leaf_get x) as [pg Hg]; [rewrite E; apply in_app_iff; right; left; reflexivity|].
      unfold high_of, bound_of. rewrite Hg. unfold hi_of. destruct (s_right cmp ifit ok fit st root lvl HS 0 A x B pg HL Hg) as [-> _]. destruct B; reflexivity.
    Qed.
    (** a run of leaves: its lower end is below its upper end *)
    Lemma run_lt A x M B y : L0 = A ++ (x :: M) ++ B -> y = last (x :: M) 0 -> blt (low_of st BMin L0 x) (high_of st y).
    Proof.
      intros E Ey. rewrite (low_at A x (M ++ B)) by exact E.
      assert (Ex : x :: M = removelast (x :: M) ++ [y]) by (rewrite Ey; apply app_removelast_last; discriminate).
      assert (E2 : L0 = (A ++ removelast (x :: M)) ++ y :: B) by (rewrite E; rewrite Ex at 1; rewrite <- !app_assoc; reflexivity).
      rewrite (high_at _ _ _ E2). assert (HB : exists t, In y L0 /\ get st y = Some t).
      { assert (Hy : In y L0) by (rewrite E2; apply in_app_iff; right; left; reflexivity). destruct (leaf_get y Hy) as [t Ht]. eauto. }
      destruct HB as (t & Hy & Ht). destruct B as [|z B].
      - destruct A as [|a A]; [unfold BTreeInv.blt; cbn; lia|]. unfold bound_of. destruct (get st (last (a :: A) 0)); unfold BTreeInv.blt; cbn; lia.
      - unfold bound_of at 2. rewrite Ht. destruct A as [|a A]; [unfold BTreeInv.blt; cbn; lia|]. set (q := last (a :: A) 0).
        assert (Hq : In q (a :: A)) by (unfold q; destruct (@exists_last _ (a :: A)) as (l' & w & Ew); [discriminate|]; rewrite Ew, last_last with (d' := w) by (destruct l'; discriminate); rewrite last_app_ne by discriminate; cbn [last]; apply in_app_iff; right; left; reflexivity).
        unfold bound_of. destruct (leaf_get q) as [pq Hgq]; [rewrite E; apply in_app_iff; left; exact Hq|]. rewrite Hgq.
        assert (HL : nth_error lvl 0 = Some (((a :: A) ++ removelast (x :: M)) ++ y :: z :: B)) by (rewrite L0_eq, E2; reflexivity).
        destruct (S_leaf _ _ _ _ _ _ _ HS _ _ _ t HL Ht) as [Hl _]. destruct (Hl q pq ltac:(apply in_app_iff; left; exact Hq) Hgq) as [_ H]. apply H. discriminate.
    Qed.
    Lemma gslo_at h L b : nth_error lvl h = Some L -> In b L -> exists x M, under h st b = x :: M /\ gslo b = low_of st BMin L0 x /\ gshi b = high_of st (last (x :: M) 0).
    Proof.
      intros HL Hb. pose proof (under_ne h L b HL Hb) as Hn. unfold gslo, gshi. rewrite (hgt_at h L b HL Hb). destruct (under h st b) as [|x M]; [congruence|]. exists x, M. auto.
    Qed.
    Lemma g_lt h L b : nth_error lvl h = Some L -> In b L -> blt (gslo b) (gshi b).
    Proof.
      intros HL Hb. destruct (gslo_at h L b HL Hb) as (x & M & Eu & -> & ->). apply in_split in Hb as (L1 & L2 & ->). pose proof (under_run h L1 b L2 HL) as E. rewrite Eu in E. eapply run_lt; eauto.
    Qed.
    (** neighbours touch *)
    Lemma g_next h L1 b b' L2 : nth_error lvl h = Some (L1 ++ b :: b' :: L2) -> gslo b' = gshi b /\ gslo b' = bound_of st (last (under h st b) 0) /\ In (last (under h st b) 0) (under h st b) /\ In (last (under h st b) 0) L0.
    Proof.
      intro HL. destruct (gslo_at h _ b HL ltac:(apply in_app_iff; right; left; reflexivity)) as (x & M & Eu & _ & Eh).
      destruct (gslo_at h _ b' HL ltac:(apply in_app_iff; right; right; left; reflexivity)) as (x' & M' & Eu' & El & _).
      pose proof (under_run h (L1 ++ [b]) b' L2 ltac:(rewrite <- app_assoc; exact HL)) as E. rewrite flat_map_app in E. cbn [flat_map] in E. rewrite app_nil_r, Eu, Eu' in E.
      set (A := flat_map (under h st) L1) in E. cbn [app] in E. rewrite (low_at (A ++ x :: M) x' _ E) in El.
      set (y := last (x :: M) 0) in *. assert (Ex : x :: M = removelast (x :: M) ++ [y]) by (apply app_removelast_last; discriminate).
      assert (Ey : last (A ++ x :: M) 0 = y) by (apply last_app_ne; discriminate).
      assert (El' : gslo b' = bound_of st y) by (rewrite El, Ey; destruct A; reflexivity). rewrite Eu. fold y. split; [|split; [exact El'|]].
      - rewrite El', Eh. assert (E2 : L0 = (A ++ removelast (x :: M)) ++ y :: x' :: M' ++ flat_map (under h st) L2).
        { rewrite E, Ex at 1. rewrite <- !app_assoc. reflexivity. }
        rewrite (high_at _ _ _ E2). reflexivity.
      - assert (In y (x :: M)) by (rewrite Ex; apply in_app_iff; right; left; reflexivity). split; [assumption|]. rewrite E. apply in_app_iff. left. apply in_app_iff. right. assumption.
    Qed.
    Lemma kid_level h L L' b c : nth_error lvl h = Some L -> nth_error lvl (S h) = Some L' -> In b L' -> In c (kids st b) -> In c L.
    Proof. intros HL HL' Hb Hc. rewrite <- (S_kids _ _ _ _ _ _ _ HS h L L' HL HL'). apply in_flat_map. eauto. Qed.

    Theorem str_inv : Inv false st root gG /\ complete st root gG.
    Proof.
      split; [constructor|].
      - exact (S_top _ _ _ _ _ _ _ HS).
      - exact (S_nodup _ _ _ _ _ _ _ HS).
      - exact (S_links _ _ _ _ _ _ _ HS).
      - intros h b (L & HL & Hb). cbn [gG lv] in HL. destruct (S_page _ _ _ _ _ _ _ HS h L b HL Hb) as (pg & Hg & Hlf & Hdl & Hleaf & Hint).
        exists pg. split; [exact Hg|]. split; [exact Hlf|]. split; [exact Hdl|]. cbn [gG slo shi]. split; [exact (g_lt h L b HL Hb)|].
        apply in_split in Hb as (L1 & L2 & ->). destruct (s_right cmp ifit ok fit st root lvl HS h L1 b L2 pg HL Hg) as [Hr Hl].
        split; [|split].
        + intro E. rewrite E in Hl. destruct L1; [|discriminate]. destruct (gslo_at h _ b HL ltac:(left; reflexivity)) as (x & M & Eu & -> & _).
          pose proof (under_run h [] b L2 HL) as Er. rewrite Eu in Er. cbn [flat_map app] in Er. rewrite (low_at [] x _ Er). reflexivity.
        + intros b' E. rewrite Hr in E. destruct L2 as [|b2 L2]; [discriminate|]. cbn in E. injection E as ->. destruct (g_next h L1 b b' L2 HL) as (E1 & E2 & E3 & E4).
          rewrite E1 at 1. split; [apply (ble_refl cmp OK)|]. set (y := last (under h st b) 0) in *. destruct (leaf_get y E4) as [py Hgy]. unfold bound_of in E2. rewrite Hgy in E2. split.
          * rewrite E2. destruct h as [|h].
            -- cbn [under] in E3. destruct E3 as [E3|[]]. subst y. rewrite <- E3 in Hgy. rewrite Hg in Hgy. injection Hgy as <-. apply (ble_refl cmp OK).
            -- exact (S_bound _ _ _ _ _ _ _ HS h L1 b (b' :: L2) pg y py HL ltac:(discriminate) Hg E3 Hgy).
          * intros ->. rewrite E2. cbn [under] in E3. destruct E3 as [E3|[]]. rewrite <- E3 in Hgy. rewrite Hg in Hgy. injection Hgy as <-. reflexivity.
        + destruct h as [|h]; cbn [body].
          * destruct (Hleaf eq_refl) as (P1 & P2 & P3 & P4). destruct (gslo_at 0 _ b HL ltac:(apply in_app_iff; right; left; reflexivity)) as (x & M & Eu & El & Eh).
            cbn [under] in Eu. injection Eu as <- <-. cbn [last] in Eh. pose proof L0_eq as E0. rewrite HL in E0. injection E0 as E0.
            rewrite (low_at L1 b L2 (eq_sym E0)) in El. assert (Eh' : gshi b = hi_of pg) by (rewrite Eh; unfold high_of; rewrite Hg; reflexivity).
            destruct (S_leaf _ _ _ _ _ _ _ HS L1 b L2 pg HL Hg) as [Hlo Hhi].
            split; [exact Eh'|]. split; [exact P1|]. split; [exact P2|]. split; [exact P3|]. split; [exact P4|]. split; [|intros [X|X]; discriminate].
            intros x Hx. split.
            -- rewrite El. destruct L1 as [|a L1]; [unfold BTreeInv.blt; cbn; lia|]. set (q := last (a :: L1) 0). assert (Hq : In q (a :: L1)).
               { unfold q. rewrite (app_removelast_last 0 (l := a :: L1)) at 2 by discriminate. apply in_app_iff. right. left. reflexivity. }
               destruct (leaf_get q) as [pq Hgq]; [rewrite <- E0; apply in_app_iff; left; exact Hq|]. unfold bound_of. rewrite Hgq. exact (proj1 (Hlo q pq Hq Hgq) x Hx).
            -- rewrite Eh'. unfold hi_of. rewrite Hr. destruct L2 as [|c L2]; [apply ble_max|]. apply (Hhi ltac:(discriminate) x Hx).
          * destruct (Hint ltac:(discriminate)) as [P1 P2]. split; [exact P1|]. split; [exact P2|].
            destruct (s_level lvl h) as [Lk HLk]; [apply nth_some_lt in HL; lia|]. assert (Hb : In b (L1 ++ b :: L2)) by (apply in_app_iff; right; left; reflexivity).
            assert (Hkids : kids st b = map snd (p_downs pg)) by (unfold kids; rewrite Hg; reflexivity).
            pose proof (S_kids _ _ _ _ _ _ _ HS h Lk _ HLk HL) as Ek. rewrite flat_map_app in Ek. cbn [flat_map] in Ek. rewrite Hkids in Ek.
            assert (Eu : under (S h) st b = flat_map (under h st) (map snd (p_downs pg))) by (cbn [under]; rewrite Hkids; reflexivity).
            split; [|split; [|split; [discriminate|]]].
            -- rewrite Forall_forall. intros kc Hin. exists Lk. split; [exact HLk|]. rewrite <- Ek. apply in_app_iff. right. apply in_app_iff. left. apply in_map. exact Hin.
            -- assert (K : forall d2 d1, p_downs pg = d1 ++ d2 -> dok cmp gslo gshi (negb (rightmost pg)) (gshi b) d2).
               { induction d2 as [|[k c] d2 IH]; intros d1 E; [exact I|]. cbn [dok]. split; [|apply (IH (d1 ++ [(k, c)])); rewrite <- app_assoc; exact E].
                 assert (Hc : In c Lk) by (rewrite <- Ek, E, map_app; apply in_app_iff; right; apply in_app_iff; left; apply in_app_iff; right; left; reflexivity).
                 destruct (gslo_at h Lk c HLk Hc) as (x & M & Eux & _ & Ehx).
                 assert (Hlast : In (last (x :: M) 0) (under h st c)) by (rewrite Eux; rewrite (app_removelast_last 0 (l := x :: M)) at 2 by discriminate; apply in_app_iff; right; left; reflexivity).
                 assert (HlastL : In (last (x :: M) 0) L0).
                 { apply in_split in Hc as (C1 & C2 & EC). rewrite EC in HLk. rewrite (under_run h C1 c C2 HLk). apply in_app_iff. right. apply in_app_iff. left. exact Hlast. }
                 destruct (leaf_get _ HlastL) as [py Hgy]. destruct d2 as [|[k' c'] d2]; cbn [slot_ok].
                 - destruct (gslo_at (S h) _ b HL Hb) as (x0 & M0 & Eub & _ & Ehb). assert (Elast : last (x0 :: M0) 0 = last (x :: M) 0).
                   { rewrite <- Eub, Eu, E, map_app, flat_map_app. cbn [map snd flat_map]. rewrite app_nil_r, Eux. apply last_app_ne. discriminate. }
                   rewrite Elast in Ehb. split; [rewrite Ehb, Ehx; apply (ble_refl cmp OK)|]. intro Hnr. unfold rightmost in Hnr. rewrite Hr in Hnr. destruct L2 as [|b2 L2]; [discriminate|].
                   pose proof (S_key _ _ _ _ _ _ _ HS h L1 b (b2 :: L2) pg d1 k c [] _ py HL Hg E ltac:(right; discriminate) Hlast Hgy) as Hk.
                   rewrite Ehx. unfold high_of. rewrite Hgy. unfold hi_of. destruct (p_right py) eqn:Er; [exact Hk|]. exfalso.
                   destruct (g_next (S h) L1 b b2 L2 HL) as (G1 & G2 & _). pose proof (g_lt (S h) _ b2 HL ltac:(apply in_app_iff; right; right; left; reflexivity)) as Hlt.
                   rewrite G1, Ehb in Hlt. unfold high_of in Hlt. rewrite Hgy in Hlt. unfold hi_of in Hlt. rewrite Er in Hlt. unfold BTreeInv.blt in Hlt. destruct (gshi b2); cbn in Hlt; lia.
                 - assert (Ek2 : exists C1 C2, Lk = C1 ++ c :: c' :: C2).
                   { rewrite <- Ek, E, map_app. cbn [map snd]. exists (flat_map (kids st) L1 ++ map snd d1), (map snd d2 ++ flat_map (kids st) L2). rewrite <- !app_assoc. reflexivity. }
                   destruct Ek2 as (C1 & C2 & EC). rewrite EC in HLk. destruct (g_next h C1 c c' C2 HLk) as (G1 & G2 & _). rewrite G1 at 1. split; [apply (ble_refl cmp OK)|].
                   rewrite G2, Eux. unfold bound_of. rewrite Hgy. exact (S_key _ _ _ _ _ _ _ HS h L1 b L2 pg d1 k c ((k', c') :: d2) _ py HL Hg E ltac:(left; discriminate) Hlast Hgy). }
               apply (K (p_downs pg) []). reflexivity.
            -- pose proof (HF h _ b HL Hb) as Hk. rewrite Hkids in Hk. destruct (p_downs pg) as [|[k c] d] eqn:Ed; [contradiction|]. exists (k, c), d. split; [reflexivity|]. cbn [snd gG slo].
               assert (Hc : In c Lk) by (rewrite <- Ek; apply in_app_iff; right; left; reflexivity).
               destruct (gslo_at h Lk c HLk Hc) as (x & M & Eux & El & _). destruct (gslo_at (S h) _ b HL Hb) as (x0 & M0 & Eub & El0 & _).
               rewrite Eu in Eub. cbn [map snd flat_map] in Eub. rewrite Eux in Eub. injection Eub as <- _. congruence.
      - intros h b (L & HL & Hb) Hn _. cbn [gG lv] in HL. destruct (s_level lvl (S h)) as [L' HL'].
        { destruct (Nat.eq_dec (S h) (length lvl)) as [E|E]; [|apply nth_some_lt in HL; lia]. exfalso. pose proof (s_topn cmp ifit ok fit st root lvl HS) as Ht. replace (length lvl - 1) with h in Ht by lia. rewrite HL in Ht. injection Ht as ->. destruct Hb as [<-|[]]. congruence. }
        rewrite <- (S_kids _ _ _ _ _ _ _ HS h L L' HL HL') in Hb. apply in_flat_map in Hb as (p & Hp & Hb). destruct (s_get cmp ifit ok fit st root lvl HS (S h) L' p HL' Hp) as [pg Hg].
        unfold kids in Hb. rewrite Hg in Hb. apply in_map_iff in Hb as ([k c] & E & Hin). cbn in E. subst c. exists p, pg, k. split; [exists L'; auto|]. auto.
    Qed.
    Lemma str_contents : contents st gG = rows_of_leaves st lvl.
    Proof. reflexivity. Qed.
  End Str2Inv.
End To.
