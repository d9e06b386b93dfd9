(** Evaluation of whole queries: soundness of the match functions and of the pre-filter. *)
From Coq Require Import Lia ZifyN Sorted Permutation.
From Verif Require Import Base Ord Codec PosCodec PosSpec PosProof Tsq TsqSpec TsqProof TsqPhrase.
Local Open Scope Z_scope.

(** *** the declarative meaning is unique *)
Definition same_ends (a b : where_matches) : Prop :=
  match a, b with
  | Unknown, Unknown => True
  | At P w, At P' w' => w = w' /\ forall p, P p <-> P' p
  | _, _ => False
  end.
Lemma same_nowhere a b : same_ends a b -> (nowhere a <-> nowhere b).
Proof. destruct a, b; cbn; try tauto. intros [_ H]. split; intros Hn p Hp; apply (Hn p); apply H; exact Hp. Qed.
Lemma or_width_det r1 r2 w1 w2 : same_ends r1 r2 -> or_width r1 w1 -> or_width r2 w2 -> w1 = w2.
Proof.
  intros Hs H1 H2. pose proof (same_nowhere _ _ Hs) as Hn. destruct r1 as [|P1 v1]; [destruct H1|].
  destruct r2 as [|P2 v2]; [destruct H2|]. unfold or_width in *. destruct Hs as [Hw _]. subst v2.
  destruct H1 as [[A1 B1]|[A1 B1]], H2 as [[A2 B2]|[A2 B2]]; subst; tauto.
Qed.

Definition both_rule (f : Z -> Z -> Z) (g : Z -> Z -> (Z -> Prop) -> (Z -> Prop) -> Z -> Prop) (L R a : where_matches) : Prop :=
  ((nowhere L \/ nowhere R) /\ exists T, a = At T 0 /\ forall p, ~ T p) \/
  (~ nowhere L /\ ~ nowhere R /\ (L = Unknown \/ R = Unknown) /\ a = Unknown) \/
  (~ nowhere L /\ ~ nowhere R /\ exists SL wL SR wR T, L = At SL wL /\ R = At SR wR /\ a = At T (f wL wR) /\
     forall p, T p <-> g wL wR SL SR p).
Lemma both_det f g L R L' R' a b :
  (forall wL wR A A' B B' p, (forall x, A x <-> A' x) -> (forall x, B x <-> B' x) -> (g wL wR A B p <-> g wL wR A' B' p)) ->
  same_ends L L' -> same_ends R R' -> both_rule f g L R a -> both_rule f g L' R' b -> same_ends a b.
Proof.
  intros Hg SL SR Ha Hb. pose proof (same_nowhere _ _ SL) as Nl. pose proof (same_nowhere _ _ SR) as Nr.
  destruct Ha as [[Ha (T & -> & HT)]|[(Ha1 & Ha2 & Ha3 & ->)|(Ha1 & Ha2 & A & wA & B & wB & T & -> & -> & -> & HT)]];
  destruct Hb as [[Hb (T' & -> & HT')]|[(Hb1 & Hb2 & Hb3 & ->)|(Hb1 & Hb2 & A' & wA' & B' & wB' & T' & -> & -> & -> & HT')]];
    cbn [same_ends]; try tauto.
  - split; [reflexivity|]. intros p. specialize (HT p). specialize (HT' p). tauto.
  - destruct Ha3 as [->| ->]; [destruct SL|destruct SR].
  - destruct Hb3 as [->| ->]; [destruct SL|destruct SR].
  - destruct SL as [-> SL], SR as [-> SR]. split; [reflexivity|]. intros p. rewrite HT, HT'. apply Hg; assumption.
Qed.
Definition or_rule (L R a : where_matches) : Prop :=
  (nowhere L /\ nowhere R /\ exists T, a = At T 0 /\ forall p, ~ T p) \/
  (~ (nowhere L /\ nowhere R) /\ (L = Unknown \/ R = Unknown) /\ a = Unknown) \/
  (~ (nowhere L /\ nowhere R) /\ exists SL wL SR wR w1 w2 T, L = At SL wL /\ R = At SR wR /\ or_width L w1 /\ or_width R w2 /\
     a = At T (Z.max w1 w2) /\ forall p, T p <-> SL (p - Z.max w1 w2 + w1) \/ SR (p - Z.max w1 w2 + w2)).
Lemma or_det L R L' R' a b : same_ends L L' -> same_ends R R' -> or_rule L R a -> or_rule L' R' b -> same_ends a b.
Proof.
  intros SL SR Ha Hb. pose proof (same_nowhere _ _ SL) as Nl. pose proof (same_nowhere _ _ SR) as Nr.
  destruct Ha as [(Ha1 & Ha2 & T & -> & HT)|[(Ha1 & Ha3 & ->)|(Ha1 & A & wA & B & wB & w1 & w2 & T & -> & -> & W1 & W2 & -> & HT)]];
  destruct Hb as [(Hb1 & Hb2 & T' & -> & HT')|[(Hb1 & Hb3 & ->)|(Hb1 & A' & wA' & B' & wB' & w1' & w2' & T' & -> & -> & W1' & W2' & -> & HT')]];
    cbn [same_ends]; try tauto.
  - split; [reflexivity|]. intros p. specialize (HT p). specialize (HT' p). tauto.
  - destruct Ha3 as [->| ->]; [destruct SL|destruct SR].
  - destruct Hb3 as [->| ->]; [destruct SL|destruct SR].
  - rewrite <- (or_width_det _ _ _ _ SL W1 W1') in *. rewrite <- (or_width_det _ _ _ _ SR W2 W2') in *.
    destruct SL as [_ SL], SR as [_ SR]. split; [reflexivity|]. intros p. rewrite HT, HT', SL, SR. reflexivity.
Qed.
Definition and_set (wL wR : Z) (A B : Z -> Prop) (p : Z) : Prop := A (p - Z.max wL wR + wL) /\ B (p - Z.max wL wR + wR).
Definition phrase_set (n wL wR : Z) (A B : Z -> Prop) (p : Z) : Prop := B p /\ A (p - wR - n).
Lemma and_inv d l r a : ends_at d (QAnd l r) a -> exists L R, ends_at d l L /\ ends_at d r R /\ both_rule Z.max and_set L R a.
Proof.
  intros H. inversion H; subst.
  - exists L, R. repeat split; try assumption. left. split; [assumption|]. exists T. auto.
  - exists L, R. repeat split; try assumption. right; left. auto.
  - exists (At SL wL), (At SR wR). repeat split; try assumption. right; right. repeat split; try assumption.
    exists SL, wL, SR, wR, T. auto.
Qed.
Lemma phrase_inv d n l r a : ends_at d (QPhrase n l r) a ->
  exists L R, ends_at d l L /\ ends_at d r R /\ both_rule (fun wL wR => wL + n + wR) (phrase_set n) L R a.
Proof.
  intros H. inversion H; subst.
  - exists L, R. repeat split; try assumption. left. split; [assumption|]. exists T. auto.
  - exists L, R. repeat split; try assumption. right; left. auto.
  - exists (At SL wL), (At SR wR). repeat split; try assumption. right; right. repeat split; try assumption.
    exists SL, wL, SR, wR, T. auto.
Qed.
Lemma or_inv d l r a : ends_at d (QOr l r) a -> exists L R, ends_at d l L /\ ends_at d r R /\ or_rule L R a.
Proof.
  intros H. inversion H; subst.
  - exists L, R. repeat split; try assumption. left. repeat split; try assumption. exists T. auto.
  - exists L, R. repeat split; try assumption. right; left. auto.
  - exists (At SL wL), (At SR wR). repeat split; try assumption. right; right. split; [assumption|].
    exists SL, wL, SR, wR, w1, w2, T. auto 10.
Qed.
Lemma ends_det d q : forall a b, ends_at d q a -> ends_at d q b -> same_ends a b.
Proof.
  induction q as [o|x IH|l IHl r IHr|l IHl r IHr|n l IHl r IHr]; intros a b Ha Hb.
  - inversion Ha as [? S1|? P N1 HP| | | | | | | | | | |]; inversion Hb as [? S2|? P' N2 HP'| | | | | | | | | | |]; subst; cbn; try tauto.
    split; [reflexivity|]. intros p. rewrite HP, HP'. reflexivity.
  - inversion Ha as [| |? Ha1|? P w T Ha1 HT| | | | | | | | |]; inversion Hb as [| |? Hb1|? P' w' T' Hb1 HT'| | | | | | | | |]; subst;
      pose proof (IH _ _ Ha1 Hb1) as Hs; cbn in *; try tauto.
    destruct Hs as [-> Hs]. split; [reflexivity|]. intros p. rewrite HT, HT', Hs. reflexivity.
  - apply and_inv in Ha, Hb. destruct Ha as (L & R & HL & HR & Ha), Hb as (L' & R' & HL' & HR' & Hb).
    eapply both_det; [|exact (IHl _ _ HL HL')|exact (IHr _ _ HR HR')|exact Ha|exact Hb].
    intros wL wR A A' B B' p EA EB. unfold and_set. rewrite EA, EB. reflexivity.
  - apply or_inv in Ha, Hb. destruct Ha as (L & R & HL & HR & Ha), Hb as (L' & R' & HL' & HR' & Hb).
    eapply or_det; [exact (IHl _ _ HL HL')|exact (IHr _ _ HR HR')|exact Ha|exact Hb].
  - apply phrase_inv in Ha, Hb. destruct Ha as (L & R & HL & HR & Ha), Hb as (L' & R' & HL' & HR' & Hb).
    eapply both_det; [|exact (IHl _ _ HL HL')|exact (IHr _ _ HR HR')|exact Ha|exact Hb].
    intros wL wR A A' B B' p EA EB. unfold phrase_set. rewrite EA, EB. reflexivity.
Qed.

(** *** operands *)
Lemma weight_ok_right o e : weight_ok o e = true <-> right_weight o e.
Proof.
  unfold weight_ok, right_weight. rewrite orb_true_iff, N.eqb_eq, getweight_weight.
  rewrite <- N.bit0_odd, N.shiftr_spec by lia. rewrite N.add_0_l. reflexivity.
Qed.
Lemma mask_bit l : forall m k, N.testbit (fold_left (fun m post => N.lor m (N.shiftl 1 (WEP_GETWEIGHT post))) l m) k = true <->
  N.testbit m k = true \/ exists e, In e l /\ weight e = k.
Proof.
  induction l as [|x l IH]; intros m k; cbn [fold_left].
  - split; [tauto|]. intros [H|[e [[] _]]]. exact H.
  - rewrite IH, N.lor_spec, orb_true_iff, getweight_weight.
    assert (N.testbit (N.shiftl 1 (weight x)) k = true <-> weight x = k) as ->.
    { rewrite N.shiftl_1_l, N.pow2_bits_eqb, N.eqb_eq. reflexivity. }
    split.
    + intros [[H|H]|[e [H1 H2]]]; [auto|right; exists x; cbn; auto|right; exists e; cbn; auto].
    + intros [H|[e [[->|H1] H2]]]; eauto.
Qed.
Lemma mask_test o l : o_weight o <> 0%N ->
  (N.land (fold_left (fun m post => N.lor m (N.shiftl 1 (WEP_GETWEIGHT post))) l 0) (o_weight o) =? 0)%N = false <->
  exists e, In e l /\ right_weight o e.
Proof.
  intros Hw. rewrite N.eqb_neq. split.
  - intros H. destruct (N.bits_inj_iff (N.land (fold_left (fun m post => N.lor m (N.shiftl 1 (WEP_GETWEIGHT post))) l 0%N) (o_weight o)) 0) as [_ _].
    set (v := N.land _ _) in *. assert (N.testbit v (N.log2 v) = true) as Hb by (apply N.bit_log2; exact H).
    unfold v in Hb at 1. rewrite N.land_spec in Hb. apply andb_true_iff in Hb. destruct Hb as [H1 H2].
    apply mask_bit in H1. destruct H1 as [H1|[e [Hi He]]]; [rewrite N.bits_0 in H1; discriminate|].
    exists e. split; [exact Hi|]. right. rewrite He. exact H2.
  - intros [e [Hi [He|He]]]; [contradiction|]. intros H0.
    assert (N.testbit (N.land (fold_left (fun m post => N.lor m (N.shiftl 1 (WEP_GETWEIGHT post))) l 0%N) (o_weight o)) (weight e) = true) as Hb.
    { rewrite N.land_spec, He, andb_true_r. apply mask_bit. right. exists e. auto. }
    rewrite H0, N.bits_0 in Hb. discriminate.
Qed.

Lemma posat_position e : posat 0 e = Z.of_N (position e).
Proof. unfold posat. rewrite getpos_position. lia. Qed.
Lemma sorted_filter (f : N -> bool) l : StronglySorted (fun p q => (position p < position q)%N) l ->
  StronglySorted (fun a b => posat 0 a < posat 0 b) (filter f l).
Proof.
  induction 1 as [|a l Hs IH Hx]; cbn; [constructor|]. destruct (f a); [|exact IH]. constructor; [exact IH|].
  apply Forall_forall. intros b Hb. apply filter_In in Hb. rewrite Forall_forall in Hx. specialize (Hx b (proj1 Hb)).
  rewrite !posat_position. lia.
Qed.
Definition bounded (d : document) (M : Z) : Prop :=
  forall w l p, In (w, Some l) d -> In p l -> Z.of_N (position p) <= M.

Lemma absent_operand d o : ~ (exists w ps, In (w, ps) d /\ asks_for o w) ->
  ~ value_matches d o /\ ends_at d (QVal o) (At (fun _ => False) 0).
Proof.
  intros Hn. split.
  - intros (w & ps & Hi & Ha & _). apply Hn. eauto.
  - apply E_value.
    + intros (w & Hi & Ha). apply Hn. eauto.
    + intros p. split; [tauto|]. intros (w & l & e & Hi & Ha & _). apply Hn. eauto.
Qed.

Section Check.
Variable d : document.
Variable M : Z.
Hypothesis HM : bounded d M.

(** One operand, as reported by the scan. *)
Lemma chk_phrase cv i o : cv_recheckPhrase cv = false ->
  reports d o (nth (nth i (cv_map cv) O) (cv_check cv) false) (nth (nth i (cv_map cv) O) (cv_add cv) None) ->
  agrees d M (QVal o) (checkcondition_rum cv i o true).
Proof.
  intros Hr [Hpres Hinfo]. unfold checkcondition_rum. set (j := nth i (cv_map cv) O) in *.
  destruct (nth j (cv_check cv) false).
  - cbn [negb]. destruct (proj1 Hpres eq_refl) as (w0 & ps0 & Hi0 & Ha0). destruct (Hinfo eq_refl) as [Hnull Hpos].
    destruct (nth j (cv_add cv) None) as [bs|].
    + rewrite Hr. destruct (Hpos bs eq_refl) as (l & Hread & Hne & H1 & Hs & Hocc). unfold decoded. rewrite Hread.
      assert (~ stripped d o) as Hns by (intros Hx; apply Hnull in Hx; discriminate).
      set (k := filter (weight_ok o) l).
      assert (forall p, inpos 0 k p <-> occurs_at d o p) as Hk.
      { intros p. rewrite <- Hocc. unfold inpos, k. split.
        - intros [e [He ->]]. apply filter_In in He. exists e. rewrite <- weight_ok_right, posat_position. tauto.
        - intros [e (He & Hw & ->)]. exists e. rewrite filter_In, weight_ok_right, posat_position. tauto. }
      assert (okside 0 k) as Hok.
      { split; [apply sorted_filter; exact Hs|]. apply Forall_forall. intros e He. apply filter_In in He.
        rewrite Forall_forall in H1. specialize (H1 e (proj1 He)). rewrite posat_position.
        pose proof (N.mod_upper_bound e 16384). unfold position in *. lia. }
      assert (upto M 0 k) as Hup.
      { intros p Hp. apply Hk in Hp. destruct Hp as (w & l' & e & Hi & _ & He & _ & ->). specialize (HM _ _ _ Hi He). lia. }
      assert (ends_at d (QVal o) (At (eset (mkE k false 0)) 0)) as He by (apply E_value; [exact Hns|exact Hk]).
      destruct k as [|x k'] eqn:Ek; cbn.
      * repeat split; try lia. exists (eset (mkE [] false 0)). split; [exact He|]. intros p. cbn. rewrite inpos_nil. tauto.
      * repeat split; try lia; try exact He; try exact Hup; try apply Hok. discriminate.
    + cbn. apply E_value_unknown. apply Hnull. reflexivity.
  - cbn. repeat split; try lia. exists (fun _ => False). split; [|tauto]. apply absent_operand.
    intros Hx. apply Hpres in Hx. discriminate.
Qed.

Definition sound (res : tern) (P : Prop) : Prop := match res with TYes => P | TNo => ~ P | TMaybe => True end.
Lemma chk_value cv i o : cv_recheckPhrase cv = false ->
  reports d o (nth (nth i (cv_map cv) O) (cv_check cv) false) (nth (nth i (cv_map cv) O) (cv_add cv) None) ->
  sound (fst (checkcondition_rum cv i o false)) (value_matches d o) /\
  (fst (checkcondition_rum cv i o false) = TMaybe -> stripped d o).
Proof.
  intros Hr [Hpres Hinfo]. unfold checkcondition_rum. set (j := nth i (cv_map cv) O) in *.
  destruct (nth j (cv_check cv) false).
  - cbn [negb]. destruct (proj1 Hpres eq_refl) as (w0 & ps0 & Hi0 & Ha0). destruct (Hinfo eq_refl) as [Hnull Hpos].
    destruct (nth j (cv_add cv) None) as [bs|].
    + rewrite Hr. destruct (Hpos bs eq_refl) as (l & Hread & Hne & H1 & Hs & Hocc). unfold decoded. rewrite Hread.
      assert (~ stripped d o) as Hns by (intros Hx; apply Hnull in Hx; discriminate).
      assert ((exists e, In e l /\ right_weight o e) <-> value_matches d o) as Hv.
      { split.
        - intros (e & He & Hw). destruct (proj1 (Hocc (Z.of_N (position e)))) as (w & l' & e' & Hi & Ha & Hi' & Hw' & _); [eauto|].
          exists w, (Some l'). repeat split; try assumption. exists e'. auto.
        - intros (w & [l'|] & Hi & Ha & Hx); [|exfalso; apply Hns; exists w; auto]. destruct Hx as (e' & Hi' & Hw').
          destruct (proj2 (Hocc (Z.of_N (position e')))) as (e & He & Hw & _); [|eauto].
          exists w, l', e'. auto. }
      destruct (N.eqb_spec (o_weight o) 0) as [E0|E0]; cbn [fst].
      * split; [|discriminate]. cbn. apply Hv. destruct l as [|e l']; [congruence|]. exists e. split; [left; reflexivity|left; exact E0].
      * pose proof (mask_test o l E0) as Hm.
        destruct (N.land _ _ =? 0)%N; (split; [|discriminate]); cbn; rewrite <- Hv, <- Hm; [discriminate|reflexivity].
    + cbn. split; [exact I|]. intros _. apply Hnull. reflexivity.
  - cbn. split; [|discriminate]. apply absent_operand. intros Hx. apply Hpres in Hx. discriminate.
Qed.
End Check.

(** *** every query has a meaning *)
Definition listed (P : Z -> Prop) : Prop :=
  exists (l : list Z) (neg : bool), forall p, P p <-> if neg then ~ In p l else In p l.
Lemma in_z_dec (p : Z) l : In p l \/ ~ In p l.
Proof. destruct (in_dec Z.eq_dec p l); auto. Qed.
Lemma fresh_z (l : list Z) : exists p, ~ In p l.
Proof.
  assert (exists m, forall x, In x l -> x <= m) as [m Hm].
  { induction l as [|x l [m IH]]; [exists 0; intros x []|]. exists (Z.max x m). intros y [->|Hy]; [lia|]. specialize (IH y Hy). lia. }
  exists (m + 1). intros H. specialize (Hm _ H). lia.
Qed.
Lemma listed_empty P w : listed P -> nowhere (At P w) \/ ~ nowhere (At P w).
Proof.
  intros (l & [|] & HP); cbn.
  - right. intros Hn. destruct (fresh_z l) as [p Hp]. apply (Hn p). apply HP. exact Hp.
  - destruct l as [|x l]; [left; intros p; rewrite HP; tauto|]. right. intros Hn. apply (Hn x). apply HP. left; reflexivity.
Qed.
Lemma listed_not P : listed P -> listed (fun p => ~ P p).
Proof.
  intros (l & b & HP). exists l, (negb b). intros p. rewrite HP. pose proof (in_z_dec p l). destruct b; cbn; tauto.
Qed.
Lemma listed_shift P k : listed P -> listed (fun p => P (p - k)).
Proof.
  intros (l & b & HP). exists (map (fun x => x + k) l), b. intros p. rewrite HP.
  assert (In p (map (fun x => x + k) l) <-> In (p - k) l) as Hi.
  { rewrite in_map_iff. split; [intros [x [<- Hx]]; replace (x + k - k) with x by lia; exact Hx|].
    intros H. exists (p - k). split; [lia|exact H]. }
  destruct b; rewrite Hi; reflexivity.
Qed.
Lemma listed_and P Q : listed P -> listed Q -> listed (fun p => P p /\ Q p).
Proof.
  intros (l & b & HP) (l' & b' & HQ). set (keepin := fun (x : Z) (m : list Z) => if in_dec Z.eq_dec x m then true else false).
  assert (forall x m, keepin x m = true <-> In x m) as Hk.
  { intros x m. unfold keepin. destruct (in_dec Z.eq_dec x m); split; congruence || tauto. }
  assert (forall x m, negb (keepin x m) = true <-> ~ In x m) as Hk'.
  { intros x m. rewrite <- Hk. destruct (keepin x m); cbn; split; congruence. }
  destruct b, b'.
  - exists (l ++ l'), true. intros p. rewrite HP, HQ, in_app_iff. tauto.
  - exists (filter (fun x => negb (keepin x l)) l'), false. intros p. rewrite HP, HQ, filter_In, Hk'. tauto.
  - exists (filter (fun x => negb (keepin x l')) l), false. intros p. rewrite HP, HQ, filter_In, Hk'. tauto.
  - exists (filter (fun x => keepin x l') l), false. intros p. rewrite HP, HQ, filter_In, Hk. tauto.
Qed.
Lemma listed_dec P : listed P -> forall p, P p \/ ~ P p.
Proof. intros (l & b & HP) p. rewrite HP. pose proof (in_z_dec p l). destruct b; tauto. Qed.
Lemma listed_ext P Q : (forall p, P p <-> Q p) -> listed P -> listed Q.
Proof. intros H (l & b & HP). exists l, b. intros p. rewrite <- H. apply HP. Qed.
Lemma listed_or P Q : listed P -> listed Q -> listed (fun p => P p \/ Q p).
Proof.
  intros HP HQ. apply (listed_ext (fun p => ~ (~ P p /\ ~ Q p))).
  - intros p. destruct (listed_dec P HP p), (listed_dec Q HQ p); tauto.
  - apply listed_not, listed_and; apply listed_not; assumption.
Qed.

Definition asks_forb (o : operand) (w : list N) : bool :=
  if o_prefix o then if list_eq_dec N.eq_dec (firstn (length (o_word o)) w) (o_word o) then true else false
  else if list_eq_dec N.eq_dec w (o_word o) then true else false.
Lemma asks_forb_ok o w : asks_forb o w = true <-> asks_for o w.
Proof.
  unfold asks_forb, asks_for. destruct (o_prefix o).
  - destruct (list_eq_dec N.eq_dec (firstn (length (o_word o)) w) (o_word o)) as [E|E]; split; try congruence.
    + intros _. exists (skipn (length (o_word o)) w). rewrite <- E at 1. symmetry. apply firstn_skipn.
    + intros [rest ->]. exfalso. apply E. rewrite firstn_app, Nat.sub_diag, firstn_all, firstn_O, app_nil_r. reflexivity.
  - destruct (list_eq_dec N.eq_dec w (o_word o)); split; congruence.
Qed.
Definition strippedb (d : document) (o : operand) : bool :=
  existsb (fun '(w, ps) => asks_forb o w && match ps with None => true | Some _ => false end) d.
Lemma strippedb_ok d o : strippedb d o = true <-> stripped d o.
Proof.
  unfold strippedb, stripped. rewrite existsb_exists. split.
  - intros ([w ps] & Hi & H). apply andb_true_iff in H. destruct H as [H1 H2]. apply asks_forb_ok in H1.
    destruct ps; [discriminate|]. exists w. auto.
  - intros (w & Hi & Ha). exists (w, None). split; [exact Hi|]. apply asks_forb_ok in Ha. rewrite Ha. reflexivity.
Qed.
Definition occ_list (d : document) (o : operand) : list Z :=
  flat_map (fun '(w, ps) => if asks_forb o w then match ps with Some l => map (fun e => Z.of_N (position e)) (filter (weight_ok o) l) | None => [] end else []) d.
Lemma occ_list_ok d o p : In p (occ_list d o) <-> occurs_at d o p.
Proof.
  unfold occ_list, occurs_at. rewrite in_flat_map. split.
  - intros ([w ps] & Hi & H). destruct (asks_forb o w) eqn:E; [|destruct H]. apply asks_forb_ok in E.
    destruct ps as [l|]; [|destruct H]. apply in_map_iff in H. destruct H as (e & <- & He). apply filter_In in He.
    exists w, l, e. rewrite <- weight_ok_right. tauto.
  - intros (w & l & e & Hi & Ha & He & Hw & ->). exists (w, Some l). split; [exact Hi|]. apply asks_forb_ok in Ha. rewrite Ha.
    apply in_map_iff. exists e. split; [reflexivity|]. apply filter_In. rewrite weight_ok_right. auto.
Qed.

Definition listed_ends (r : where_matches) : Prop := match r with Unknown => True | At P _ => listed P end.
Lemma listed_ends_empty r : listed_ends r -> nowhere r \/ ~ nowhere r.
Proof. destruct r; cbn [listed_ends]; [cbn; tauto|apply listed_empty]. Qed.
Lemma listed_false : listed (fun _ => False).
Proof. exists [], false. intros p. cbn. tauto. Qed.
Lemma ends_total d q : exists r, ends_at d q r /\ listed_ends r.
Proof.
  induction q as [o|a [r [Hr Lr]]|l [L [HL LL]] r [R [HR LR]]|l [L [HL LL]] r [R [HR LR]]|n l [L [HL LL]] r [R [HR LR]]].
  - destruct (strippedb d o) eqn:E.
    + exists Unknown. split; [|exact I]. apply E_value_unknown, strippedb_ok, E.
    + exists (At (occurs_at d o) 0). split.
      * apply E_value; [|reflexivity]. intros H. apply strippedb_ok in H. congruence.
      * exists (occ_list d o), false. intros p. symmetry. apply occ_list_ok.
  - destruct r as [|P w].
    + exists Unknown. split; [apply E_not_unknown; exact Hr|exact I].
    + exists (At (fun p => ~ P p) w). split; [eapply E_not; [exact Hr|reflexivity]|apply listed_not; exact Lr].
  - destruct (listed_ends_empty _ LL) as [NL|NL]; [|destruct (listed_ends_empty _ LR) as [NR|NR]].
    + exists (At (fun _ => False) 0). split; [eapply E_and_none; [exact HL|exact HR|tauto|tauto]|apply listed_false].
    + exists (At (fun _ => False) 0). split; [eapply E_and_none; [exact HL|exact HR|tauto|tauto]|apply listed_false].
    + destruct L as [|SL wL]; [exists Unknown; split; [eapply E_and_unknown; [exact HL|exact HR|tauto|tauto|tauto]|exact I]|].
      destruct R as [|SR wR]; [exists Unknown; split; [eapply E_and_unknown; [exact HL|exact HR|tauto|tauto|tauto]|exact I]|].
      exists (At (fun p => SL (p - Z.max wL wR + wL) /\ SR (p - Z.max wL wR + wR)) (Z.max wL wR)). split; [eapply E_and; [exact HL|exact HR|exact NL|exact NR|reflexivity]|]. cbn.
      apply listed_and.
      * apply (listed_ext (fun p => SL (p - (Z.max wL wR - wL)))); [|apply listed_shift; exact LL].
        intros p. replace (p - (Z.max wL wR - wL)) with (p - Z.max wL wR + wL) by lia. reflexivity.
      * apply (listed_ext (fun p => SR (p - (Z.max wL wR - wR)))); [|apply listed_shift; exact LR].
        intros p. replace (p - (Z.max wL wR - wR)) with (p - Z.max wL wR + wR) by lia. reflexivity.
  - assert (nowhere L /\ nowhere R \/ ~ (nowhere L /\ nowhere R)) as [N|N].
    { destruct (listed_ends_empty _ LL), (listed_ends_empty _ LR); tauto. }
    + exists (At (fun _ => False) 0). split; [eapply E_or_none; [exact HL|exact HR|tauto|tauto|tauto]|apply listed_false].
    + destruct L as [|SL wL]; [exists Unknown; split; [eapply E_or_unknown; [exact HL|exact HR|exact N|tauto]|exact I]|].
      destruct R as [|SR wR]; [exists Unknown; split; [eapply E_or_unknown; [exact HL|exact HR|exact N|tauto]|exact I]|].
      assert (exists w1, or_width (At SL wL) w1) as [w1 W1].
      { destruct (listed_ends_empty _ LL); [exists 0; left; auto|exists wL; right; auto]. }
      assert (exists w2, or_width (At SR wR) w2) as [w2 W2].
      { destruct (listed_ends_empty _ LR); [exists 0; left; auto|exists wR; right; auto]. }
      exists (At (fun p => SL (p - Z.max w1 w2 + w1) \/ SR (p - Z.max w1 w2 + w2)) (Z.max w1 w2)). split; [eapply E_or; [exact HL|exact HR|exact N|exact W1|exact W2|reflexivity]|]. cbn.
      apply listed_or.
      * apply (listed_ext (fun p => SL (p - (Z.max w1 w2 - w1)))); [|apply listed_shift; exact LL].
        intros p. replace (p - (Z.max w1 w2 - w1)) with (p - Z.max w1 w2 + w1) by lia. reflexivity.
      * apply (listed_ext (fun p => SR (p - (Z.max w1 w2 - w2)))); [|apply listed_shift; exact LR].
        intros p. replace (p - (Z.max w1 w2 - w2)) with (p - Z.max w1 w2 + w2) by lia. reflexivity.
  - destruct (listed_ends_empty _ LL) as [NL|NL]; [|destruct (listed_ends_empty _ LR) as [NR|NR]].
    + exists (At (fun _ => False) 0). split; [eapply E_phrase_none; [exact HL|exact HR|tauto|tauto]|apply listed_false].
    + exists (At (fun _ => False) 0). split; [eapply E_phrase_none; [exact HL|exact HR|tauto|tauto]|apply listed_false].
    + destruct L as [|SL wL]; [exists Unknown; split; [eapply E_phrase_unknown; [exact HL|exact HR|tauto|tauto|tauto]|exact I]|].
      destruct R as [|SR wR]; [exists Unknown; split; [eapply E_phrase_unknown; [exact HL|exact HR|tauto|tauto|tauto]|exact I]|].
      exists (At (fun p => SR p /\ SL (p - wR - n)) (wL + n + wR)). split; [eapply E_phrase; [exact HL|exact HR|exact NL|exact NR|reflexivity]|]. cbn.
      apply listed_and; [exact LR|].
      apply (listed_ext (fun p => SL (p - (wR + n)))); [|apply listed_shift; exact LL].
      intros p. replace (p - (wR + n)) with (p - wR - n) by lia. reflexivity.
Qed.

(** *** whole queries, index with positions *)
Lemma phrase_in_neg chk b i q : rum_phrase_execute chk (mkF true false b) i q = rum_phrase_execute chk (mkF true false false) i q.
Proof.
  revert i. induction q as [o|a IH|l IHl r IHr|l IHl r IHr|n l IHl r IHr]; intros i; cbn [rum_phrase_execute f_calc_not f_no_pos]; try reflexivity.
  - rewrite IH. reflexivity.
  - rewrite IHl, IHr. reflexivity.
  - rewrite IHl, IHr. reflexivity.
  - rewrite IHl, IHr. reflexivity.
Qed.
Lemma placed_impl (g1 g2 : nat -> operand -> Prop) q : forall i, (forall k o, g1 k o -> g2 k o) -> placed g1 i q -> placed g2 i q.
Proof.
  induction q as [o|a IH|l IHl r IHr|l IHl r IHr|n l IHl r IHr]; intros i H Hp; cbn [placed] in *; auto; destruct Hp; split; auto.
Qed.

Section Exec.
Variable d : document.
Variable M : Z.
Hypothesis HM : bounded d M.
Variable cv : chkval.
Hypothesis Hcv : cv_recheckPhrase cv = false.
Let good (i : nat) (o : operand) :=
  reports d o (nth (nth i (cv_map cv) O) (cv_check cv) false) (nth (nth i (cv_map cv) O) (cv_add cv) None).

Lemma phrase_top n l r i b : let q := QPhrase n l r in placed good i q -> distances_ok q -> M + total_distance q < 16384 ->
  match fst (rum_phrase_execute (checkcondition_rum cv) (mkF true false b) i q) with
  | TYes => matches d q
  | TNo => ~ matches d q
  | TMaybe => ~ matches d q
  end.
Proof.
  intros q Hp Hd Hm. rewrite phrase_in_neg.
  assert (placed (fun i o => agrees d M (QVal o) (checkcondition_rum cv i o true)) i q) as Hp'.
  { eapply placed_impl; [|exact Hp]. intros k o Hg. apply chk_phrase; assumption. }
  pose proof (phrase_execute_spec d M (checkcondition_rum cv) q i Hp' Hd Hm) as H.
  destruct (rum_phrase_execute (checkcondition_rum cv) (mkF true false false) i q) as [t e]. cbn [fst]. destruct t; cbn [agrees] in H.
  - destruct H as (_ & _ & _ & P & He & HP). intros (P' & w' & p & He' & Hx).
    destruct (ends_det d q _ _ He He') as [_ Hs]. apply (HP p), Hs, Hx.
  - destruct H as (_ & Hu & _ & He). destruct (useful_some e Hu) as [p Hpp]. exists (eset e), (e_width e), p. split; assumption.
  - intros (P' & w' & p & He' & Hx). destruct (ends_det d q _ _ H He').
Qed.

Lemma execute_spec q : forall i b, placed good i q -> distances_ok q -> M + total_distance q < 16384 ->
  sound (rum_TS_execute (checkcondition_rum cv) (mkF true false b) i q) (matches d q) /\
  (rum_TS_execute (checkcondition_rum cv) (mkF true false b) i q = TMaybe ->
     weighted_under_not b q \/ exists o, in_query o q /\ stripped d o).
Proof.
  induction q as [o|a IH|l IHl r IHr|l IHl r IHr|n l IHl r IHr]; intros i b Hp Hd Hm;
    cbn [rum_TS_execute placed distances_ok total_distance matches weighted_under_not in_query f_calc_not f_no_pos f_in_neg negb] in *.
  - destruct (b && negb (o_weight o =? 0)%N && negb (o_weight o =? 15)%N) eqn:E.
    + split; [exact I|]. intros _. left. apply andb_true_iff in E. destruct E as [E E3]. apply andb_true_iff in E.
      destruct E as [E1 E2]. apply negb_true_iff, N.eqb_neq in E2, E3. auto.
    + destruct (chk_value d cv i o Hcv Hp) as [Hs Hm']. split; [exact Hs|]. intros Hx. right. exists o. auto.
  - destruct (IH (S i) true Hp Hd Hm) as [Hs Hmb].
    destruct (rum_TS_execute (checkcondition_rum cv) (mkF true false true) (S i) a); cbn in *; split; try tauto; discriminate.
  - destruct Hp as [Hpr Hpl], Hd as [Hdl Hdr]. pose proof (td_nonneg _ Hdl). pose proof (td_nonneg _ Hdr).
    destruct (IHl _ b Hpl Hdl ltac:(lia)) as [Hsl Hml]. destruct (IHr _ b Hpr Hdr ltac:(lia)) as [Hsr Hmr].
    cbn [plus] in *.
    destruct (rum_TS_execute (checkcondition_rum cv) (mkF true false b) (S (i + qsize r)) l), (rum_TS_execute (checkcondition_rum cv) (mkF true false b) (S i) r);
      cbn in Hsl, Hsr |- *; (split; [tauto|]); intros Hx; try discriminate;
      try (destruct (Hml eq_refl) as [Hy|(o & Hy & Hz)]; [tauto|right; exists o; tauto]);
      try (destruct (Hmr eq_refl) as [Hy|(o & Hy & Hz)]; [tauto|right; exists o; tauto]).
  - destruct Hp as [Hpr Hpl], Hd as [Hdl Hdr]. pose proof (td_nonneg _ Hdl). pose proof (td_nonneg _ Hdr).
    destruct (IHl _ b Hpl Hdl ltac:(lia)) as [Hsl Hml]. destruct (IHr _ b Hpr Hdr ltac:(lia)) as [Hsr Hmr].
    cbn [plus] in *.
    destruct (rum_TS_execute (checkcondition_rum cv) (mkF true false b) (S (i + qsize r)) l), (rum_TS_execute (checkcondition_rum cv) (mkF true false b) (S i) r);
      cbn in Hsl, Hsr |- *; (split; [tauto|]); intros Hx; try discriminate;
      try (destruct (Hml eq_refl) as [Hy|(o & Hy & Hz)]; [tauto|right; exists o; tauto]);
      try (destruct (Hmr eq_refl) as [Hy|(o & Hy & Hz)]; [tauto|right; exists o; tauto]).
  - pose proof (phrase_top n l r i b Hp Hd Hm) as H. cbn zeta in H. cbn [matches] in H.
    destruct (fst (rum_phrase_execute (checkcondition_rum cv) (mkF true false b) i (QPhrase n l r))); cbn; split; try discriminate; exact H.
Qed.
End Exec.

(** *** whole queries, index without positions *)
Section NoPos.
Variable d : document.
Variable cv : chkval.
Hypothesis Hcv : cv_recheckPhrase cv = true.
Let good (i : nat) (o : operand) := reports_presence d o (nth (nth i (cv_map cv) O) (cv_check cv) false).
Lemma chk_nopos i o want : good i o ->
  checkcondition_rum cv i o want = (TMaybe, e_zero) \/
  (checkcondition_rum cv i o want = (TNo, e_zero) /\ ~ exists w ps, In (w, ps) d /\ asks_for o w).
Proof.
  unfold good, reports_presence, checkcondition_rum. set (j := nth i (cv_map cv) O). intros Hp.
  destruct (nth j (cv_check cv) false); cbn [negb].
  - left. destruct (nth j (cv_add cv) None); [rewrite Hcv|]; reflexivity.
  - right. split; [reflexivity|]. intros Hx. apply Hp in Hx. discriminate.
Qed.
Definition crude (q : tsq) (res : tern * edata) : Prop :=
  let '(t, e) := res in
  match t with
  | TNo => e_pos e = [] /\ e_neg e = false /\ exists P w, ends_at d q (At P w) /\ forall p, ~ P p
  | TYes => e_pos e = [] /\ e_neg e = true /\ exists P w, ends_at d q (At P w) /\ forall p, P p
  | TMaybe => True
  end.
Lemma everywhere_not (P : Z -> Prop) (w : Z) : (forall p, P p) -> ~ nowhere (At P w).
Proof. intros H Hn. exact (Hn 0 (H 0)). Qed.
Lemma both_empty L R lo ro w : e_pos L = [] -> e_pos R = [] -> e_neg L = true -> e_neg R = true ->
  phrase_and L R lo ro w = (TYes, mkE [] true w).
Proof. intros A B C D. unfold phrase_and, rum_phrase_output. rewrite A, B, C, D. reflexivity. Qed.
Lemma phrase_nopos q : forall i b, placed good i q -> crude q (rum_phrase_execute (checkcondition_rum cv) (mkF true true b) i q).
Proof.
  induction q as [o|a IH|l IHl r IHr|l IHl r IHr|n l IHl r IHr]; intros i b Hp; cbn [rum_phrase_execute placed f_calc_not f_no_pos negb] in *.
  - destruct (chk_nopos i o true Hp) as [->|[-> Hn]]; cbn; [exact I|]. repeat split. exists (fun _ => False), 0.
    split; [apply absent_operand; exact Hn|tauto].
  - specialize (IH (S i) b Hp). destruct (rum_phrase_execute (checkcondition_rum cv) (mkF true true b) (S i) a) as [t e].
    destruct t; cbn in IH |- *.
    + destruct IH as (E1 & E2 & P & w & He & HP). repeat split; auto. exists (fun _ => True), w. split; [|tauto].
      eapply E_not; [exact He|]. intros p. specialize (HP p). tauto.
    + destruct IH as (E1 & E2 & P & w & He & HP). rewrite E1. cbn. repeat split. exists (fun _ => False), w. split; [|tauto].
      eapply E_not; [exact He|]. intros p. specialize (HP p). tauto.
    + exact I.
  - destruct Hp as [Hpr Hpl]. specialize (IHl _ b Hpl). specialize (IHr _ b Hpr).
    destruct (ends_total d l) as (XL & HXL & _), (ends_total d r) as (XR & HXR & _).
    destruct (rum_phrase_execute (checkcondition_rum cv) (mkF true true b) (S i + qsize r) l) as [lm L].
    destruct (rum_phrase_execute (checkcondition_rum cv) (mkF true true b) (S i) r) as [rm R].
    assert (nowhere XL \/ nowhere XR -> crude (QAnd l r) (TNo, e_zero)) as Hno.
    { intros H. cbn. repeat split. exists (fun _ => False), 0. split; [eapply E_and_none; [exact HXL|exact HXR|exact H|tauto]|tauto]. }
    assert (forall q' X P w, ends_at d q' X -> ends_at d q' (At P w) -> (forall p, ~ P p) -> nowhere X) as Hnw.
    { intros q' X P w H1 H2 H3. apply (same_nowhere _ _ (ends_det d q' _ _ H1 H2)). exact H3. }
    destruct lm; cbn [crude] in IHl.
    + destruct IHl as (_ & _ & P & w & He & HP). apply Hno. left. eapply Hnw; eassumption.
    + destruct rm; cbn [crude] in IHr.
      * destruct IHr as (_ & _ & P & w & He & HP). apply Hno. right. eapply Hnw; eassumption.
      * destruct IHl as (A1 & A2 & P & w & He & HP), IHr as (B1 & B2 & P' & w' & He' & HP').
        rewrite both_empty by assumption. cbn. repeat split. exists (fun _ => True), (Z.max w w'). split; [|tauto].
        eapply E_and; [exact He|exact He'|apply everywhere_not; exact HP|apply everywhere_not; exact HP'|].
        intros p. split; auto.
      * exact I.
    + destruct rm; cbn [crude] in IHr; [|exact I|exact I].
      destruct IHr as (_ & _ & P & w & He & HP). apply Hno. right. eapply Hnw; eassumption.
  - destruct Hp as [Hpr Hpl]. specialize (IHl _ b Hpl). specialize (IHr _ b Hpr).
    destruct (rum_phrase_execute (checkcondition_rum cv) (mkF true true b) (S i + qsize r) l) as [lm L].
    destruct (rum_phrase_execute (checkcondition_rum cv) (mkF true true b) (S i) r) as [rm R].
    destruct lm, rm; cbn [crude] in IHl, IHr; try exact I.
    + destruct IHl as (A1 & A2 & P & w & He & HP), IHr as (B1 & B2 & P' & w' & He' & HP').
      cbn. repeat split. exists (fun _ => False), 0. split; [|tauto]. eapply E_or_none; [exact He|exact He'|exact HP|exact HP'|tauto].
    + destruct IHl as (A1 & A2 & P & w & He & HP), IHr as (B1 & B2 & P' & w' & He' & HP').
      unfold phrase_or, rum_phrase_output. cbn [e_pos e_neg e_width]. rewrite A1, A2, B1, B2. cbn. repeat split.
      exists (fun _ => True), (Z.max 0 w'). split; [|tauto].
      eapply E_or; [exact He|exact He'|intros [_ Hx]; exact (everywhere_not _ w' HP' Hx)|left; split; [exact HP|reflexivity]|
        right; split; [apply everywhere_not; exact HP'|reflexivity]|]. intros p. split; auto.
    + destruct IHl as (A1 & A2 & P & w & He & HP), IHr as (B1 & B2 & P' & w' & He' & HP').
      unfold phrase_or, rum_phrase_output. cbn [e_pos e_neg e_width]. rewrite A1, A2, B1, B2. cbn. repeat split.
      exists (fun _ => True), (Z.max w 0). split; [|tauto].
      eapply E_or; [exact He|exact He'|intros [Hx _]; exact (everywhere_not _ w HP Hx)|
        right; split; [apply everywhere_not; exact HP|reflexivity]|left; split; [exact HP'|reflexivity]|]. intros p. split; auto.
    + destruct IHl as (A1 & A2 & P & w & He & HP), IHr as (B1 & B2 & P' & w' & He' & HP').
      unfold phrase_or, rum_phrase_output. cbn [e_pos e_neg e_width]. rewrite A1, A2, B1, B2. cbn. repeat split.
      exists (fun _ => True), (Z.max w w'). split; [|tauto].
      eapply E_or; [exact He|exact He'|intros [Hx _]; exact (everywhere_not _ w HP Hx)|
        right; split; [apply everywhere_not; exact HP|reflexivity]|right; split; [apply everywhere_not; exact HP'|reflexivity]|]. intros p. split; auto.
  - destruct Hp as [Hpr Hpl]. specialize (IHl _ b Hpl). specialize (IHr _ b Hpr).
    destruct (ends_total d l) as (XL & HXL & _), (ends_total d r) as (XR & HXR & _).
    destruct (rum_phrase_execute (checkcondition_rum cv) (mkF true true b) (S i + qsize r) l) as [lm L].
    destruct (rum_phrase_execute (checkcondition_rum cv) (mkF true true b) (S i) r) as [rm R].
    assert (nowhere XL \/ nowhere XR -> crude (QPhrase n l r) (TNo, e_zero)) as Hno.
    { intros H. cbn. repeat split. exists (fun _ => False), 0. split; [eapply E_phrase_none; [exact HXL|exact HXR|exact H|tauto]|tauto]. }
    assert (forall q' X P w, ends_at d q' X -> ends_at d q' (At P w) -> (forall p, ~ P p) -> nowhere X) as Hnw.
    { intros q' X P w H1 H2 H3. apply (same_nowhere _ _ (ends_det d q' _ _ H1 H2)). exact H3. }
    destruct lm; cbn [crude] in IHl.
    + destruct IHl as (_ & _ & P & w & He & HP). apply Hno. left. eapply Hnw; eassumption.
    + destruct rm; cbn [crude] in IHr; [|exact I|exact I].
      destruct IHr as (_ & _ & P & w & He & HP). apply Hno. right. eapply Hnw; eassumption.
    + destruct rm; cbn [crude] in IHr; [|exact I|exact I].
      destruct IHr as (_ & _ & P & w & He & HP). apply Hno. right. eapply Hnw; eassumption.
Qed.
Lemma execute_nopos q : forall i b, placed good i q ->
  sound (rum_TS_execute (checkcondition_rum cv) (mkF true true b) i q) (matches d q).
Proof.
  induction q as [o|a IH|l IHl r IHr|l IHl r IHr|n l IHl r IHr]; intros i b Hp;
    cbn [rum_TS_execute placed matches f_calc_not f_no_pos f_in_neg negb] in *.
  - destruct (b && negb (o_weight o =? 0)%N && negb (o_weight o =? 15)%N); [exact I|].
    destruct (chk_nopos i o false Hp) as [->|[-> Hn]]; cbn; [exact I|]. apply absent_operand; exact Hn.
  - specialize (IH (S i) true Hp).
    destruct (rum_TS_execute (checkcondition_rum cv) (mkF true true true) (S i) a); cbn in *; tauto.
  - destruct Hp as [Hpr Hpl]. specialize (IHl _ b Hpl). specialize (IHr _ b Hpr).
    destruct (rum_TS_execute (checkcondition_rum cv) (mkF true true b) (S i + qsize r) l), (rum_TS_execute (checkcondition_rum cv) (mkF true true b) (S i) r);
      cbn in *; tauto.
  - destruct Hp as [Hpr Hpl]. specialize (IHl _ b Hpl). specialize (IHr _ b Hpr).
    destruct (rum_TS_execute (checkcondition_rum cv) (mkF true true b) (S i + qsize r) l), (rum_TS_execute (checkcondition_rum cv) (mkF true true b) (S i) r);
      cbn in *; tauto.
  - pose proof (phrase_nopos (QPhrase n l r) i b Hp) as H.
    assert (fst (rum_phrase_execute (checkcondition_rum cv) (mkF true true b) i (QPhrase n l r)) <> TYes) as Hy.
    { cbn [rum_phrase_execute f_no_pos].
      destruct (rum_phrase_execute (checkcondition_rum cv) (mkF true true b) (S i + qsize r) l) as [[] ?]; cbn; try discriminate;
      destruct (rum_phrase_execute (checkcondition_rum cv) (mkF true true b) (S i) r) as [[] ?]; cbn; discriminate. }
    destruct (rum_phrase_execute (checkcondition_rum cv) (mkF true true b) i (QPhrase n l r)) as [t e]. cbn [fst] in *.
    destruct t; cbn in *; [|congruence|exact I]. destruct H as (_ & _ & P & w & He & HP).
    intros (P' & w' & p & He' & Hx). destruct (ends_det d _ _ _ He He') as [_ Hs]. apply (HP p), Hs, Hx.
Qed.
End NoPos.
