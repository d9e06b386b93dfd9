(** Proofs: start values (C25) and distances (C26). *)
From Coq Require Import NArith ZArith QArith Qabs Lia Lqa List Bool.
From Verif Require Import Base ScalarTypes DistSpec.
Import ListNotations.
Local Open Scope Z_scope.

Lemma intcmp_spec a b : (intcmp a b < 0 <-> a < b) /\ (intcmp a b = 0 <-> a = b) /\ (0 < intcmp a b <-> b < a).
Proof. unfold intcmp. destruct (Z.compare_spec a b); lia. Qed.
Lemma intcmp_le a b : a <= b -> intcmp a b <= 0.
Proof. intro H. destruct (intcmp_spec a b) as (_ & _ & H1). lia. Qed.
Lemma bitncmp_zero n : forall l k, bitncmp (repeat false n) l k <= 0.
Proof. induction n as [|n IH]; intros l k; destruct k, l as [|x l]; cbn; try lia. destruct x; cbn; [lia|apply IH]. Qed.
Lemma classes_minimal : Forall starts_minimal
  [int2_class; int4_class; int8_class; money_class; oid_class; timestamp_class; time_class; date_class; float_class; timetz_class; macaddr_class; inet_class; text_class; bit_class] /\
  forall T numeric_cmp, starts_minimal (numeric_class T numeric_cmp).
Proof.
  split.
  - repeat (apply Forall_cons; [|]); try apply Forall_nil; intros v Hv; cbn [c_type c_valid c_cmp c_left int2_class int4_class int8_class money_class oid_class timestamp_class time_class date_class float_class timetz_class macaddr_class inet_class text_class bit_class] in *;
      try (apply intcmp_le; lia).
    + destruct v; cbn; lia.
    + destruct v as [t z]. unfold timetz_cmp. cbn [fst snd] in *. destruct (Z.ltb_spec (t + z * 1000000) (0 + -24 * 3600 * 1000000)); [lia|].
      destruct (Z.ltb_spec (0 + -24 * 3600 * 1000000) (t + z * 1000000)); [lia|]. destruct (Z.ltb_spec z (-24 * 3600)); [lia|]. destruct (Z.ltb_spec (-24 * 3600) z); lia.
    + destruct v as [h l]. cbn [fst snd] in *. destruct (Z.ltb_spec 0 h); [lia|]. destruct (Z.ltb_spec h 0); [lia|]. apply intcmp_le. lia.
    + destruct Hv as ([Hf|Hf] & Hl & Hb); unfold network_cmp; cbn [in_family in_bits in_addr]; rewrite Hf.
      * cbn [Z.eqb Pos.eqb]. rewrite Nat.min_0_l. assert (E0 : forall l, bitncmp (repeat false 32) l 0 = 0) by (intro l; destruct l; reflexivity). rewrite E0. cbn [Z.eqb negb].
        destruct (Nat.eqb 0 (in_bits v)); cbn [negb]; [apply bitncmp_zero|]. lia.
      * cbn. lia.
    + destruct v; cbn; lia.
    + destruct v as [n l]. cbn [fst snd] in *. change (memcmp [] l) with 0. cbn. destruct n; cbn; lia.
  - intros T f v Hv. cbn in *. destruct v; cbn; lia.
Qed.
Lemma char_not_minimal : ~ starts_minimal char_class /\ forall v, c_valid char_class v -> v < 128 -> 0 < c_cmp char_class (c_left char_class) v.
Proof.
  split.
  - intro H. specialize (H 97). cbn in H. specialize (H ltac:(lia)). apply H. reflexivity.
  - intros v _ Hv. change (0 < 128 - v). cbn [c_type char_class] in v, Hv. lia.
Qed.
Lemma interval_not_minimal : ~ starts_minimal interval_class /\ c_valid interval_class (0, 0, -3600000) /\
  0 < c_cmp interval_class (c_left interval_class) (0, 0, -3600000).
Proof.
  assert (H : c_valid interval_class (0, 0, -3600000)) by (cbn; lia).
  assert (H2 : 0 < c_cmp interval_class (c_left interval_class) (0, 0, -3600000)) by reflexivity.
  split; [|auto]. intro Hm. specialize (Hm _ H). lia.
Qed.

(** ** distances *)
Local Open Scope Q_scope.
Section Dist.
  Variable rnd : Q -> Q.
  Hypothesis R : rounding rnd.
  Lemma rnd_eq x y : x == y -> rnd x == rnd y.
  Proof. intro E. apply Qle_antisym; apply (r_mono _ R); rewrite E; apply Qle_refl. Qed.
  Lemma rnd_0 x : x == 0 -> rnd x == 0.
  Proof. intro E. rewrite (rnd_eq x (inject_Z 0) E). apply (r_int _ R). cbn. lia. Qed.
  Lemma rnd_nonneg x : 0 <= x -> 0 <= rnd x.
  Proof. intro H. rewrite <- (rnd_0 0 (Qeq_refl 0)). apply (r_mono _ R). exact H. Qed.

  (** any order and subtraction such that larger minus smaller is a non-negative number, zero on equal
      values only *)
  Lemma distance_generic {T} (cmp : T -> T -> Z) isinf (sub : T -> T -> Q) (lt eq : T -> T -> Prop) (ok : T -> Prop) :
    (forall a, ok a -> isinf a = false) ->
    (forall a b, ok a -> ok b -> ((0 < cmp a b)%Z <-> lt b a)) ->
    (forall a b, ok a -> ok b -> ~ lt b a -> ~ lt a b -> eq a b) -> (forall a b, ok a -> ok b -> eq a b -> ~ lt a b /\ ~ lt b a) ->
    (forall a b, ok a -> ok b -> lt a b -> ~ lt b a) ->
    (forall a b, ok a -> ok b -> eq a b -> sub a b == 0) ->
    (forall a b, ok a -> ok b -> lt b a -> 0 <= sub a b /\ ~ sub a b == 0) ->
    true_distance lt eq ok (distance cmp isinf sub) (left_distance cmp isinf sub) (right_distance cmp isinf sub).
  Proof.
    intros Hfin Hlt Htri Heq Hasym Hz Hpos a b Ha Hb. unfold distance, left_distance, right_distance. rewrite (Hfin a Ha), (Hfin b Hb). cbn [orb].
    pose proof (Hlt a b Ha Hb) as L1. pose proof (Hlt b a Hb Ha) as L2.
    destruct (Z.ltb_spec 0 (cmp a b)) as [G1|G1], (Z.ltb_spec 0 (cmp b a)) as [G2|G2]; cbn [deq].
    - exfalso. apply (Hasym b a Hb Ha); [apply L1; exact G1|apply L2; exact G2].
    - assert (Hl : lt b a) by (apply L1; exact G1). destruct (Hpos a b Ha Hb Hl) as [P1 P2]. split; [apply Qeq_refl|]. split; [exact P1|].
      split; [split; [intro H; contradiction|intro H; destruct (Heq a b Ha Hb H); contradiction]|]. split; [contradiction|]. split; [reflexivity|]. split; [intros _; apply Qeq_refl|contradiction].
    - assert (Hl : lt a b) by (apply L2; exact G2). destruct (Hpos b a Hb Ha Hl) as [P1 P2]. assert (Hn : ~ lt b a) by (apply Hasym; auto). split; [apply Qeq_refl|]. split; [exact P1|].
      split; [split; [intro H; contradiction|intro H; destruct (Heq a b Ha Hb H); contradiction]|]. split; [intros _; apply Qeq_refl|]. split; [contradiction|]. split; [contradiction|reflexivity].
    - assert (N1 : ~ lt b a) by (rewrite <- L1; lia). assert (N2 : ~ lt a b) by (rewrite <- L2; lia). pose proof (Htri a b Ha Hb N1 N2) as E.
      pose proof (Hz a b Ha Hb E) as E1. assert (Eb : eq b a) by (apply Htri; auto). pose proof (Hz b a Hb Ha Eb) as E2.
      split; [rewrite E1, E2; apply Qeq_refl|]. split; [rewrite E2; apply Qle_refl|]. split; [tauto|]. split; [intros _; apply Qeq_refl|]. split; [contradiction|]. split; [contradiction|reflexivity].
  Qed.

  Lemma inject_lt a b : (a < b)%Z -> 1 # (2 ^ 1074) <= inject_Z b - inject_Z a.
  Proof.
    intro H. apply (Qle_trans _ 1).
    - unfold Qle. cbn [Qnum Qden]. lia.
    - assert (inject_Z (a + 1) <= inject_Z b) as HL by (rewrite <- Zle_Qle; lia). rewrite inject_Z_plus in HL. change (inject_Z 1) with 1 in HL. lra.
  Qed.
  Lemma diff_int a b : inject_Z a - inject_Z b == inject_Z (a - b).
  Proof. unfold Qminus. rewrite <- inject_Z_opp, <- inject_Z_plus. apply Qeq_refl. Qed.
  Lemma Qabs_ge x y : x <= y -> x <= Qabs y.
  Proof. intro H. eapply Qle_trans; [exact H|apply Qle_Qabs]. Qed.
  (** int2, int4, oid; int8 and money up to 2^53 *)
  Lemma int_distance : true_distance Z.lt Logic.eq (fun a => (Z.abs a <= 2 ^ 53)%Z)
    (distance intcmp (fun _ => false) (intsubtract rnd)) (left_distance intcmp (fun _ => false) (intsubtract rnd)) (right_distance intcmp (fun _ => false) (intsubtract rnd)).
  Proof.
    apply distance_generic; auto.
    - intros a b _ _. apply intcmp_spec.
    - intros. lia.
    - intros. lia.
    - intros. lia.
    - intros a b Ha Hb ->. unfold intsubtract. apply rnd_0. ring.
    - intros a b Ha Hb H. unfold intsubtract.
      assert (E : rnd (inject_Z a) - rnd (inject_Z b) == inject_Z a - inject_Z b) by (rewrite (r_int _ R a Ha), (r_int _ R b Hb); apply Qeq_refl).
      pose proof (inject_lt b a H) as HL. split.
      + apply rnd_nonneg. rewrite E. eapply Qle_trans; [|exact HL]. discriminate.
      + apply (r_nonzero _ R). apply Qabs_ge. rewrite E. exact HL.
  Qed.
  (** exact values when also the difference is at most 2^53 *)
  Lemma int_distance_exact a b : (Z.abs a <= 2 ^ 53)%Z -> (Z.abs b <= 2 ^ 53)%Z -> (Z.abs (a - b) <= 2 ^ 53)%Z ->
    deq (distance intcmp (fun _ => false) (intsubtract rnd) a b) (DFin (inject_Z (Z.abs (a - b)))).
  Proof.
    intros Ha Hb Hd. unfold distance, intsubtract. cbn [orb]. destruct (intcmp_spec a b) as (_ & _ & Hc). cbn [deq].
    destruct (Z.ltb_spec 0 (intcmp a b)) as [H|H].
    - rewrite (rnd_eq _ (inject_Z (a - b))); [|rewrite (r_int _ R a Ha), (r_int _ R b Hb); apply diff_int]. rewrite (r_int _ R _ Hd). rewrite Z.abs_eq by lia. apply Qeq_refl.
    - rewrite (rnd_eq _ (inject_Z (b - a))); [|rewrite (r_int _ R a Ha), (r_int _ R b Hb); apply diff_int]. rewrite (r_int _ R) by lia. rewrite Z.abs_neq by lia. rewrite Z.opp_sub_distr, Z.add_comm. apply Qeq_refl.
  Qed.
  (** int8 and money in general: everything but "zero only on equal values" *)
  Lemma int8_distance a b : let d := distance intcmp (fun _ => false) (intsubtract rnd) in
    deq (d a b) (d b a) /\ (match d a b with DFin q => 0 <= q | DInf => False end) /\ (a = b -> deq (d a b) (DFin 0)) /\
    ((a <= b)%Z -> deq (left_distance intcmp (fun _ => false) (intsubtract rnd) a b) (d a b)) /\
    ((b < a)%Z -> deq (right_distance intcmp (fun _ => false) (intsubtract rnd) a b) (d a b)).
  Proof.
    cbn zeta. unfold distance, left_distance, right_distance. cbn [orb]. destruct (intcmp_spec a b) as (_ & _ & H1). destruct (intcmp_spec b a) as (_ & _ & H2).
    assert (Hp : forall x y, (y <= x)%Z -> 0 <= intsubtract rnd x y).
    { intros x y H. unfold intsubtract. apply rnd_nonneg. assert (rnd (inject_Z y) <= rnd (inject_Z x)) by (apply (r_mono _ R); rewrite <- Zle_Qle; exact H). lra. }
    assert (Hz : forall x, intsubtract rnd x x == 0) by (intro x; unfold intsubtract; apply rnd_0; ring).
    destruct (Z.ltb_spec 0 (intcmp a b)) as [G1|G1], (Z.ltb_spec 0 (intcmp b a)) as [G2|G2]; cbn [deq].
    - exfalso. lia.
    - split; [apply Qeq_refl|]. split; [apply Hp; lia|]. split; [lia|]. split; [lia|]. intros _. apply Qeq_refl.
    - split; [apply Qeq_refl|]. split; [apply Hp; lia|]. split; [lia|]. split; [intros _; apply Qeq_refl|lia].
    - assert (a = b) by lia. subst b. split; [apply Qeq_refl|]. split; [apply Hp; lia|]. split; [intros _; apply Hz|]. split; [intros _; apply Qeq_refl|lia].
  Qed.

  Lemma fcmp_fin x y : (0 < fcmp (FFin x) (FFin y))%Z <-> y < x.
  Proof.
    cbn [fcmp]. rewrite Qlt_alt. rewrite <- (Qcompare_antisym x y). destruct (x ?= y) eqn:E; cbn [CompOpp]; split; intro; try lia; try discriminate; reflexivity.
  Qed.
  Lemma float_gap x y : is_float x -> is_float y -> y < x -> 1 # (2 ^ 1074) <= x - y.
  Proof.
    intros (n & En) (m & Em). rewrite En, Em. generalize (2 ^ 1074)%positive. intros D H. unfold Qlt in H. cbn [Qnum Qden] in H.
    assert (n - m >= 1)%Z by nia. assert (E : (n # D) - (m # D) == (n - m) # D) by (unfold Qeq, Qminus, Qplus, Qopp; cbn [Qnum Qden]; lia).
    rewrite E. unfold Qle. cbn [Qnum Qden]. nia.
  Qed.
  Lemma float_distance : true_distance flt_lt flt_eq flt_ok
    (distance fcmp float_infinite (floatsubtract rnd)) (left_distance fcmp float_infinite (floatsubtract rnd)) (right_distance fcmp float_infinite (floatsubtract rnd)).
  Proof.
    apply distance_generic; unfold flt_ok, flt_lt, flt_eq.
    - intros [| | |] H; try destruct H; reflexivity.
    - intros [|x| |] [|y| |] Ha Hb; try contradiction. apply fcmp_fin.
    - intros [|x| |] [|y| |] Ha Hb; try contradiction. intros H1 H2. apply Qle_antisym; apply Qnot_lt_le; assumption.
    - intros [|x| |] [|y| |] Ha Hb; try contradiction. intros E. split; rewrite E; apply Qlt_irrefl.
    - intros [|x| |] [|y| |] Ha Hb; try contradiction. intros H H2. apply (Qlt_irrefl x). eapply Qlt_trans; eauto.
    - intros [|x| |] [|y| |] Ha Hb; try contradiction. intros E. cbn [floatsubtract]. apply rnd_0. rewrite E. ring.
    - intros [|x| |] [|y| |] Ha Hb; try contradiction. intros H. cbn [floatsubtract]. pose proof (float_gap x y Ha Hb H) as G. split.
      + apply rnd_nonneg. lra.
      + apply (r_nonzero _ R). apply Qabs_ge. exact G.
  Qed.
  Lemma wrap64_id x : (- 2 ^ 63 <= x < 2 ^ 63)%Z -> wrap64 x = x.
  Proof. intro H. unfold wrap64. rewrite Z.mod_small; lia. Qed.
  Lemma div6_nonneg x : 0 <= x -> 0 <= x / 1000000.
  Proof. intro H. unfold Qdiv. apply Qmult_le_0_compat; [exact H|]. discriminate. Qed.
  Lemma timestamp_sub_pos a b : (- 2 ^ 63 <= a - b < 2 ^ 63)%Z -> (b < a)%Z -> 0 <= timestamp_subtract rnd a b /\ ~ timestamp_subtract rnd a b == 0.
  Proof.
    intros Hw H. unfold timestamp_subtract. rewrite wrap64_id by exact Hw.
    assert (H1 : 1 <= rnd (inject_Z (a - b))).
    { assert (E : rnd (inject_Z 1) == 1) by (apply (r_int _ R); cbn; lia). rewrite <- E. apply (r_mono _ R). rewrite <- Zle_Qle. lia. }
    assert (H2 : 1 # 1000000 <= rnd (inject_Z (a - b)) / 1000000).
    { unfold Qdiv. change (/ 1000000) with (1 # 1000000). rewrite <- (Qmult_1_l (1 # 1000000)) at 1. apply Qmult_le_compat_r; [exact H1|discriminate]. }
    split.
    - apply rnd_nonneg. eapply Qle_trans; [|exact H2]. discriminate.
    - apply (r_nonzero _ R). apply Qabs_ge. eapply Qle_trans; [|exact H2]. unfold Qle. cbn [Qnum Qden]. lia.
  Qed.
  Lemma timestamp_distance lo : true_distance Z.lt Logic.eq (ts_ok lo)
    (distance intcmp timestamp_infinite (timestamp_subtract rnd)) (left_distance intcmp timestamp_infinite (timestamp_subtract rnd)) (right_distance intcmp timestamp_infinite (timestamp_subtract rnd)).
  Proof.
    apply distance_generic.
    - intros a [_ H]. exact H.
    - intros a b _ _. apply intcmp_spec.
    - intros. lia.
    - intros. lia.
    - intros. lia.
    - intros a b Ha Hb ->. unfold timestamp_subtract. rewrite Z.sub_diag. rewrite wrap64_id by lia. apply rnd_0. rewrite (rnd_0 (inject_Z 0)) by reflexivity. reflexivity.
    - intros a b [Ha _] [Hb _] H. apply timestamp_sub_pos; lia.
  Qed.
  (** the last and the first finite timestamp *)
  Lemma timestamp_overflow : exists q, distance intcmp timestamp_infinite (timestamp_subtract rnd) 9223371331199999999%Z (-211813488000000000)%Z = DFin q /\ q < 0.
  Proof.
    eexists. split; [reflexivity|]. unfold timestamp_subtract.
    change (wrap64 (9223371331199999999 - -211813488000000000)) with (-9011559254509551617)%Z.
    assert (E : rnd (inject_Z (-1)) == inject_Z (-1)) by (apply (r_int _ R); cbn; lia).
    assert (H1 : rnd (inject_Z (-9011559254509551617)) <= -1 # 1).
    { eapply Qle_trans; [apply (r_mono _ R (inject_Z (-9011559254509551617)) (inject_Z (-1)))|]; [rewrite <- Zle_Qle; lia|]. rewrite E. apply Qle_refl. }
    set (x := rnd (inject_Z (-9011559254509551617))) in *.
    assert (H2 : x / 1000000 <= -1 # 1000000).
    { unfold Qdiv. change (/ 1000000) with (1 # 1000000). change (-1 # 1000000) with ((-1 # 1) * (1 # 1000000)). apply Qmult_le_compat_r; [exact H1|discriminate]. }
    assert (H3 : rnd (x / 1000000) <= 0).
    { rewrite <- (rnd_0 0 (Qeq_refl 0)). apply (r_mono _ R). eapply Qle_trans; [exact H2|discriminate]. }
    assert (H4 : ~ rnd (x / 1000000) == 0).
    { apply (r_nonzero _ R). rewrite <- Qabs_opp. apply Qabs_ge. apply (Qle_trans _ (1 # 1000000)); [unfold Qle; cbn [Qnum Qden]; lia|]. lra. }
    apply Qnot_le_lt. intro H5. apply H4. apply Qle_antisym; assumption.
  Qed.
End Dist.
Lemma exact_rounding : rounding (fun x => x).
Proof.
  split; [auto| |].
  - intros. apply Qeq_refl.
  - intros x H E. assert (Qabs x == 0) as E' by (rewrite E; reflexivity). rewrite E' in H. apply H. reflexivity.
Qed.
