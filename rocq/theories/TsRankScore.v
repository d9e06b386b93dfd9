(** C43: signs of score and distance; the score in closed form. *)
From Verif Require Import Base Ord Codec PosCodec Tsq TsqSpec TsRank TsRankSpec TsRankProof.
From Coq Require Import QArith Qfield Lqa NArith ZArith Lia Bool List Permutation Sorted Arith.
Import ListNotations.
Local Open Scope Z_scope.

(** ** Score and distance *)
Definition scored (s : Q) (b : Prop) : Prop := (b -> (0 < s)%Q) /\ (~ b -> (s == 0)%Q).
Lemma distance_scored s b : scored s b -> (b \/ ~ b) ->
  (0 <= s)%Q /\ (distanceOf s = None <-> ~ b) /\ forall x, distanceOf s = Some x -> (0 < x)%Q /\ (x * s == 1)%Q.
Proof.
  intros [H1 H2] Hd. split; [destruct Hd as [Hb|Hb]; [apply Qlt_le_weak; auto|rewrite (H2 Hb); apply Qle_refl]|]. unfold distanceOf. destruct (Qeq_bool s 0) eqn:E.
  - apply Qeq_bool_iff in E. split; [|discriminate]. split; [|reflexivity]. intros _ Hb. specialize (H1 Hb). rewrite E in H1. exact (Qlt_irrefl _ H1).
  - assert (Hn : ~ (s == 0)%Q) by (intro H; apply Qeq_bool_iff in H; congruence). assert (Hb : b) by (destruct Hd as [Hb|Hb]; [exact Hb|destruct (Hn (H2 Hb))]). specialize (H1 Hb).
    split; [split; [discriminate|intro Hc; destruct (Hc Hb)]|]. intros x Ex. injection Ex as <-. split; [apply Qdiv_pos; [reflexivity|exact H1]|]. field. exact Hn.
Qed.
Lemma nonempty_dec {A} (l : list A) : l <> [] \/ ~ l <> [].
Proof. destruct l; [right; intro H; exact (H eq_refl)|left; discriminate]. Qed.
Lemma covers_nil keyed slot q : covers keyed slot q [] = [].
Proof. reflexivity. Qed.
Section Signs.
  Variables (qsortD : list docr -> list docr) (cast ln : Q -> Q).
  Variables (Hsort : sorts_docr qsortD) (Hcast : keeps_sign cast) (Hln : positive_above_1 ln).
  Lemma qsort_nil : qsortD [] = [].
  Proof. apply Permutation_nil. apply Hsort. Qed.
  Lemma cast_scored s b : scored s b -> scored (cast s) b.
  Proof. intros [H1 H2]. destruct Hcast as (C1 & C2 & _). split; [intro Hb; apply C1; auto|intro Hb; apply C2; auto]. Qed.
  Lemma div_scored s k (b : Prop) : (b -> (0 < k)%Q) -> scored s b -> scored (s / k)%Q b.
  Proof. intros Hk [H1 H2]. split; [intro Hb; apply Qdiv_pos; auto|]. intro Hb. rewrite (H2 Hb). unfold Qdiv. ring. Qed.
  Lemma docr_scored keyed slot q len doc method : scored (calc_score_docr keyed slot q len doc method) (covers keyed slot q doc <> []).
  Proof. destruct (docr_score keyed slot q len doc method) as [H1 H2]. split; [exact H1|]. intro H. apply H2. destruct (covers keyed slot q doc); [reflexivity|]. exfalso. apply H. discriminate. Qed.
  Lemma addinfo_scored itemAddr map check add nkeys q :
    scored (calc_score_addinfo qsortD cast itemAddr map check add nkeys q) (covers true (fun i => nth i map O) q (qsortD (docrepAddinfo itemAddr map add (fun j => nth j check false) 0 (items q))) <> []).
  Proof.
    unfold calc_score_addinfo. destruct (docrepAddinfo itemAddr map add (fun j => nth j check false) 0 (items q)) as [|x doc].
    - rewrite qsort_nil, covers_nil. split; [intro H; destruct (H eq_refl)|intros _; reflexivity].
    - apply cast_scored, cast_scored, docr_scored.
  Qed.
  Lemma count_length_nonneg txt : 0 <= count_length txt.
  Proof. induction txt as [|e txt IH]; cbn [count_length fold_right]; [lia|]. fold (count_length txt). destruct (snd e) as [[|p r]|]; lia. Qed.
  Lemma count_length_pos txt : (0 < length txt)%nat -> 1 <= count_length txt.
  Proof. destruct txt as [|e txt]; cbn [length]; [lia|]. intros _. cbn [count_length fold_right]. fold (count_length txt). pose proof (count_length_nonneg txt). destruct (snd e) as [[|p r]|]; cbn [length]; lia. Qed.
  Lemma inject_gt1 z : 1 < z -> (1 < inject_Z z)%Q.
  Proof. intro H. unfold Qlt. cbn. lia. Qed.
  Lemma calc_scored alloc txt q method :
    scored (calc_score qsortD cast ln alloc txt q method) (covers false (fun i => i) q (qsortD (docrep alloc (items q) txt (fun _ => false) 0 0 (items q))) <> []).
  Proof.
    unfold calc_score. destruct (docrep alloc (items q) txt (fun _ => false) 0 0 (items q)) as [|x doc].
    - rewrite qsort_nil, covers_nil. split; [intro H; destruct (H eq_refl)|intros _; reflexivity].
    - set (c := covers _ _ _ _ <> []). apply cast_scored.
      assert (G : forall (cond : bool) s k, (cond = true -> (0 < k)%Q) -> scored s c -> scored (if cond then (s / k)%Q else s) c) by (intros [|] s k Hk Hs; [apply div_scored; [intros _; apply Hk; reflexivity|exact Hs]|exact Hs]).
      assert (Hpos : forall m bit, (has m bit && (0 <? Z.of_nat (length txt))) = true -> (0 < length txt)%nat) by (intros m bit H; apply andb_true_iff in H as [_ H]; apply Z.ltb_lt in H; lia).
      apply G; [|apply G; [|apply G; [|apply G; [|apply cast_scored, docr_scored]]]]; intro H.
      + apply Hpos in H. apply Qdiv_pos; apply Hln; [apply inject_gt1; lia|reflexivity].
      + apply Hpos in H. apply inject_pos. lia.
      + apply andb_true_iff in H as [_ H]. apply Z.ltb_lt in H. apply inject_pos. exact H.
      + apply Hpos in H. apply Hln. apply inject_gt1. pose proof (count_length_pos txt H). lia.
  Qed.
End Signs.

(** ** Closed form *)
Lemma Qsum_cons (e : Z * Z * Q) l : (fold_right (fun e s => snd e + s) 0 (e :: l) = snd e + fold_right (fun e s => snd e + s) 0 l)%Q.
Proof. reflexivity. Qed.
Definition tallied (seen : list Z) (l : list (Z * Z * Q)) : Prop :=
  NoDup (map (fun e => fst (fst e)) l) /\ (forall k n w, In (k, n, w) l -> n = Z.of_nat (count_occ Z.eq_dec seen k)) /\ forall k, ~ In k (map (fun e => fst (fst e)) l) -> count_occ Z.eq_dec seen k = 0%nat.
Definition key_of (e : Z * Z * Q) : Z := fst (fst e).
Definition part (r : Q) (n : Z) : Q := (r / inject_Z n / inject_Z n / (164493406685 # 100000000000))%Q.
Lemma addCover_new key r l : ~ In key (map key_of l) -> addCover key r l = l ++ [(key, 1, (0 + part r 1)%Q)].
Proof.
  induction l as [|[[k n] w] l IH]; intro H; [reflexivity|]. cbn [addCover]. cbn [map] in H. change (key_of (k, n, w)) with k in H. destruct (Z.eqb_spec k key) as [E|_]; [exfalso; apply H; left; exact E|].
  cbn [app]. f_equal. apply IH. intro Hin. apply H. right. exact Hin.
Qed.
Lemma addCover_old key r l1 n w l2 : ~ In key (map key_of l1) -> addCover key r (l1 ++ (key, n, w) :: l2) = l1 ++ (key, n + 1, (w + part r (n + 1))%Q) :: l2.
Proof.
  induction l1 as [|[[k m] v] l IH]; intro H; cbn [app addCover]; [rewrite Z.eqb_refl; reflexivity|]. cbn [map] in H. change (key_of (k, m, v)) with k in H. destruct (Z.eqb_spec k key) as [E|_]; [exfalso; apply H; left; exact E|].
  f_equal. apply IH. intro Hin. apply H. right. exact Hin.
Qed.
Lemma Qsum_app (l1 l2 : list (Z * Z * Q)) : (fold_right (fun e s => snd e + s) 0 (l1 ++ l2) == fold_right (fun e s => snd e + s) 0 l1 + fold_right (fun e s => snd e + s) 0 l2)%Q.
Proof. induction l1 as [|e l1 IH]; cbn [app fold_right]; [ring|]. rewrite IH. ring. Qed.
Lemma part_sq r n : 0 < n -> (part r n == r / (inject_Z n * inject_Z n) / (164493406685 # 100000000000))%Q.
Proof. intro Hn. unfold part. field. pose proof (inject_pos n Hn). intro E. rewrite E in H. exact (Qlt_irrefl _ H). Qed.
Lemma count_other seen key (k : Z) : k <> key -> count_occ Z.eq_dec (key :: seen) k = count_occ Z.eq_dec seen k.
Proof. intro H. apply count_occ_cons_neq. congruence. Qed.
Lemma addCover_tallied key r l seen : tallied seen l ->
  tallied (key :: seen) (addCover key r l) /\
  (fold_right (fun e s => snd e + s) 0 (addCover key r l) == fold_right (fun e s => snd e + s) 0 l + r / (inject_Z (1 + Z.of_nat (count_occ Z.eq_dec seen key)) * inject_Z (1 + Z.of_nat (count_occ Z.eq_dec seen key))) / (164493406685 # 100000000000))%Q.
Proof.
  intros (T1 & T2 & T3). fold key_of in T1, T3. destruct (in_dec Z.eq_dec key (map key_of l)) as [Hin|Hin].
  - apply in_map_iff in Hin as ([[k n] w] & Ek & Hin). change (k = key) in Ek. subst k. apply in_split in Hin as (l1 & l2 & ->). pose proof T1 as T1'. rewrite map_app in T1. cbn [map] in T1. apply NoDup_remove_2 in T1. change (key_of (key, n, w)) with key in T1.
    assert (Hn1 : ~ In key (map key_of l1)) by (intro H; apply T1, in_or_app; left; exact H). assert (Hn2 : ~ In key (map key_of l2)) by (intro H; apply T1, in_or_app; right; exact H).
    rewrite addCover_old by exact Hn1. pose proof (T2 key n w ltac:(apply in_or_app; right; left; reflexivity)) as En.
    split; [|rewrite !Qsum_app; cbn [fold_right snd]; replace (1 + Z.of_nat (count_occ Z.eq_dec seen key)) with (n + 1) by lia; rewrite <- part_sq by lia; ring].
    assert (Em : map key_of (l1 ++ (key, n + 1, (w + part r (n + 1))%Q) :: l2) = map key_of (l1 ++ (key, n, w) :: l2)) by (rewrite !map_app; reflexivity).
    split; [fold key_of; rewrite Em; exact T1'|]. split.
    + intros k n' w' H. apply in_app_iff in H as [H|[H|H]].
      * rewrite count_other; [apply (T2 k n' w'); apply in_or_app; left; exact H|]. intros ->. apply Hn1. apply in_map_iff. exists (key, n', w'). auto.
      * injection H as <- <- <-. rewrite count_occ_cons_eq by reflexivity. lia.
      * rewrite count_other; [apply (T2 k n' w'); apply in_or_app; right; right; exact H|]. intros ->. apply Hn2. apply in_map_iff. exists (key, n', w'). auto.
    + intros k Hk. fold key_of in Hk. rewrite Em in Hk. rewrite count_other; [apply T3; exact Hk|]. intros ->. apply Hk. rewrite map_app. apply in_or_app. right. left. reflexivity.
  - rewrite addCover_new by exact Hin. pose proof (T3 _ Hin) as E0. split; [|rewrite Qsum_app, E0; cbn [fold_right snd]; change (1 + Z.of_nat 0) with 1; rewrite <- part_sq by lia; ring].
    split; [|split].
    + fold key_of. rewrite map_app. cbn [map]. change (key_of (key, 1, (0 + part r 1)%Q)) with key. apply (Permutation_NoDup (l := key :: map key_of l)); [apply Permutation_cons_append|]. constructor; assumption.
    + intros k n w H. apply in_app_iff in H as [H|[H|[]]].
      * rewrite count_other; [exact (T2 _ _ _ H)|]. intros ->. apply Hin. apply in_map_iff. exists (key, n, w). auto.
      * injection H as <- <- <-. rewrite count_occ_cons_eq by reflexivity. lia.
    + intros k Hk. fold key_of in Hk. rewrite map_app in Hk. rewrite count_other; [apply T3; intro H; apply Hk, in_or_app; left; exact H|]. intros ->. apply Hk, in_or_app. right. left. reflexivity.
Qed.
Lemma windows_fold {A B} (kind : B -> Z) (rank : B -> Q) (sp : A -> B) (key : A -> Z) (r : A -> Q) cs :
  (forall c, In c cs -> key c = kind (sp c) /\ (r c == rank (sp c))%Q) -> forall seen l, tallied seen l ->
  (fold_right (fun e s => snd e + s) 0 (fold_left (fun l c => addCover (key c) (r c) l) cs l) == fold_right (fun e s => snd e + s) 0 l + windows_sum kind rank seen (map sp cs))%Q.
Proof.
  induction cs as [|c cs IH]; intros Hc seen l Hl; cbn [fold_left map windows_sum]; [ring|]. destruct (Hc c (or_introl eq_refl)) as [E1 E2].
  destruct (addCover_tallied (key c) (r c) l seen Hl) as [T1 T2]. rewrite (IH (fun c' H => Hc c' (or_intror H)) _ _ T1), T2, <- E1, E2. ring.
Qed.
Lemma invSum_inverse l : invSum l = inverse_weights l.
Proof. induction l as [|x l IH]; [reflexivity|]. cbn [invSum inverse_weights fold_right]. fold (invSum l). fold (inverse_weights l). rewrite IH. unfold weights. destruct (d_class x) as [|[p|[p|p|]|]]; reflexivity. Qed.
Lemma filter_same {A} (f g : A -> bool) l : (forall x, In x l -> f x = g x) -> filter f l = filter g l.
Proof. induction l as [|x l IH]; intro H; [reflexivity|]. cbn. rewrite (H x (or_introl eq_refl)), IH; [reflexivity|]. intros y Hy. apply H. right. exact Hy. Qed.

Section Closed.
  Variables (keyed : bool) (slot : nat -> nat) (q : tsq) (Hq : no_phrase q) (doc : list docr).
  Variable (Hs : StronglySorted (fun x y => d_pos x <= d_pos y) doc) (Hp : Forall (fun x => 1 <= d_pos x) doc).
  Lemma rank_closed len c : cover_ok slot q doc c -> (coverRank len doc c == window_rank len doc (span c))%Q.
  Proof.
    intros (B & _ & _ & Ep & Eq & Eo). unfold coverRank, window_rank, span. cbn [fst snd]. fold (window doc (c_begin c) (c_end c)). set (l := window doc (c_begin c) (c_end c)). rewrite invSum_inverse.
    assert (El : length l = S (c_end c - c_begin c)) by (unfold l, window; rewrite firstn_length, skipn_length; lia).
    replace (Z.of_nat (c_end c - c_begin c) + 1) with (Z.of_nat (length l)) by lia.
    replace (length (filter (fun j => match c_ops c j with Some _ => true | None => false end) (seq 0 len))) with (operands_in len l).
    2:{ unfold operands_in. f_equal. apply filter_same. intros j _. transitivity (marked l j); [reflexivity|]. unfold l, window. replace (S (c_end c - c_begin c)) with (S (c_end c) - c_begin c)%nat by lia. exact (eq_sym (Eo j)). }
    assert (En : noise doc (c_begin c) (c_end c) = (if c_q c - c_p c - Z.of_nat (c_end c - c_begin c) <? 0 then Z.of_nat (c_end c - c_begin c) / 2 else c_q c - c_p c - Z.of_nat (c_end c - c_begin c))) by (rewrite Ep, Eq; reflexivity).
    rewrite <- En. destruct (Nat.ltb_spec 0 (operands_in len l)) as [Hn|Hn].
    - rewrite Nat.max_r by lia. reflexivity.
    - replace (operands_in len l) with 0%nat by lia. change (inject_Z (Z.of_nat (Nat.max 1 0))) with 1%Q. unfold Qdiv. ring.
  Qed.
  (** Windows listed from left to right are determined by their members. *)
  Lemma ascending_unique (ws : list (nat * nat)) : forall ws', (forall w, In w ws <-> In w ws') -> StronglySorted (fun w w' => (fst w < fst w')%nat) ws -> StronglySorted (fun w w' => (fst w < fst w')%nat) ws' -> ws = ws'.
  Proof.
    induction ws as [|w ws IH]; intros [|w' ws'] H H1 H2; [reflexivity|exfalso; apply (proj2 (H w')); left; reflexivity|exfalso; apply (proj1 (H w)); left; reflexivity|].
    inversion H1 as [|? ? S1 F1]; subst. inversion H2 as [|? ? S2 F2]; subst. rewrite Forall_forall in F1, F2.
    assert (E : w = w'). { destruct (proj1 (H w) (or_introl eq_refl)) as [E|Hin]; [auto|]. destruct (proj2 (H w') (or_introl eq_refl)) as [E|Hin']; [auto|]. specialize (F1 _ Hin'). specialize (F2 _ Hin). lia. }
    subst w'. f_equal. apply IH; auto. intro x. split; intro Hx.
    - destruct (proj1 (H x) (or_intror Hx)) as [E|Hin]; [|exact Hin]. subst x. specialize (F1 _ Hx). lia.
    - destruct (proj2 (H x) (or_intror Hx)) as [E|Hin]; [|exact Hin]. subst x. specialize (F2 _ Hx). lia.
  Qed.
  Lemma spans_sorted : StronglySorted (fun w w' => (fst w < fst w')%nat) (map span (covers keyed slot q doc)).
  Proof.
    pose proof (loop_sorted keyed slot q Hq doc Hs Hp (S (length doc)) 0) as H. fold (covers keyed slot q doc) in H. induction H as [|c l H IH F]; cbn [map]; [constructor|]. constructor; [exact IH|].
    rewrite Forall_forall in *. intros w Hw. apply in_map_iff in Hw as (c' & <- & Hc'). cbn. apply F. exact Hc'.
  Qed.
  Theorem score_closed len method ws : agree slot q doc -> has method RANK_NORM_EXTDIST = false -> has method RANK_NORM_RDIVRPLUS1 = false ->
    (forall b e, In (b, e) ws <-> minimal_window slot q doc b e) -> StronglySorted (fun w w' => (fst w < fst w')%nat) ws ->
    (calc_score_docr keyed slot q len doc method == windows_sum (fun w => coverKey (window doc (fst w) (snd w))) (window_rank len doc) [] ws)%Q.
  Proof.
    intros Ha M1 M2 Hw Hsw. assert (Ew : ws = map span (covers keyed slot q doc)).
    { apply ascending_unique; [|exact Hsw|exact spans_sorted]. intros [b e]. rewrite Hw. symmetry. apply covers_minimal; assumption. }
    unfold calc_score_docr. rewrite M1, M2. cbn [andb]. rewrite Ew. set (cs := covers keyed slot q doc).
    rewrite (windows_fold (fun w => coverKey (window doc (fst w) (snd w))) (window_rank len doc) span (fun c => coverKey (firstn (S (c_end c - c_begin c)) (skipn (c_begin c) doc))) (coverRank len doc) cs) with (seen := []).
    - cbn [fold_right]. ring.
    - intros c Hc. split; [reflexivity|]. apply rank_closed. unfold cs, covers in Hc. apply (loop_ok keyed slot q Hq doc Hs Hp) in Hc as [_ Hc]. exact Hc.
    - split; [constructor|]. split; [intros k n w []|reflexivity].
  Qed.
End Closed.
