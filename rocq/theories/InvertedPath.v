(** Proofs: the stored paths read back (C35). *)
From Coq Require Import NArith ZArith Lia Bool List Arith.
From Verif Require Import Base Codec Entries Array Inverted InvertedCodec InvertedSpec InvertedProof InvertedTree InvertedEval InvertedMake.
Import ListNotations.
Local Open Scope Z_scope.

Definition path_step_ok (u : N * Z) : Prop := (fst u < 2 ^ 32)%N /\ Z.abs (snd u) < 2 ^ 29.
Lemma read_step f num sum not rest : path_step_ok (num, sum) ->
  read_path (S f) (encode_varbyte num ++ encode_varbyte (sumVal sum not) ++ rest) = option_map (cons (num, sum, not)) (read_path f rest).
Proof.
  intros [H1 H2]. cbn [fst snd] in *. destruct (sumVal_spec sum not H2) as (S1 & S2 & S3 & S4).
  destruct (encode_varbyte num ++ encode_varbyte (sumVal sum not) ++ rest) as [|x l] eqn:E.
  { exfalso. apply app_eq_nil in E as [E _]. exact (encode_nonempty _ E). }
  cbn [read_path]. rewrite <- E. rewrite decode_encode by exact H1. rewrite decode_encode by exact S1. set (sv := sumVal sum not) in *. clearbody sv.
  assert (T0 : N.testbit sv 0 = not). { change 1%N with (N.ones 1) in S2 at 1. rewrite N.land_ones in S2. change (2 ^ 1)%N with 2%N in S2. pose proof (N.bit0_mod sv) as B. rewrite S2 in B. destruct (N.testbit sv 0), not; cbn in B; congruence. }
  assert (T1 : N.testbit sv 1 = (sum <? 0)).
  { destruct (N.testbit sv 1) eqn:E1.
    - destruct (sum <? 0); [reflexivity|]. cbn [negb] in S3. apply N.eqb_eq in S3. assert (B : N.testbit (N.land sv 2) 1 = true) by (rewrite N.land_spec, E1; reflexivity). rewrite S3 in B. discriminate.
    - destruct (sum <? 0); [|reflexivity]. cbn [negb] in S3. exfalso. apply N.eqb_neq in S3. apply S3. apply N.bits_inj_0. intro n. rewrite N.land_spec. destruct (N.eq_dec n 1) as [->|Hn]; [rewrite E1; reflexivity|]. replace (N.testbit 2 n) with false; [apply andb_false_r|]. symmetry. change 2%N with (2 ^ 1)%N. apply N.pow2_bits_false. congruence. }
  rewrite T0, T1. rewrite N.shiftr_div_pow2 in S4. change (2 ^ 2)%N with 4%N in S4. rewrite S4. f_equal. f_equal. f_equal. f_equal. rewrite N2Z.inj_abs_N. destruct (Z.ltb_spec sum 0); lia.
Qed.
Lemma read_up ups : forall not rest f, Forall path_step_ok ups -> (length (pathUp not ups ++ rest) <= f)%nat ->
  exists f', (length rest <= f')%nat /\ read_path f (pathUp not ups ++ rest) = option_map (app (match ups with [] => [] | (n, s) :: r => (n, s, not) :: map (fun u => (fst u, snd u, false)) r end)) (read_path f' rest).
Proof.
  induction ups as [|[num sum] r IH]; intros not rest f Ho Hf.
  - exists f. split; [exact Hf|]. cbn [pathUp app]. destruct (read_path f rest); reflexivity.
  - inversion Ho as [|? ? H1 H2 E]; subst. cbn [pathUp] in *. rewrite <- !app_assoc in *.
    assert (Hn : (0 < length (encode_varbyte num))%nat) by (pose proof (encode_nonempty num); destruct (encode_varbyte num); [congruence|cbn; lia]).
    rewrite !app_length in Hf. destruct f as [|f]; [lia|]. rewrite read_step by exact H1. destruct (IH false rest f H2) as (f' & L & E); [rewrite app_length; lia|]. exists f'. split; [exact L|]. rewrite E.
    destruct (read_path f' rest) as [l|]; [|reflexivity]. cbn [option_map app]. f_equal. f_equal. destruct r as [|[n s] r]; reflexivity.
Qed.
Lemma read_occs {K} (l : list (K * occ)) : Forall (fun e => Forall path_step_ok (snd (snd e))) l -> forall f, (length (flat_map occ_bytes l) <= f)%nat ->
  read_path f (flat_map occ_bytes l) = Some (flat_map (fun e => steps_of (snd e)) l).
Proof.
  induction 1 as [|e l He _ IH]; intros f Hf; [destruct f; reflexivity|]. cbn [flat_map] in *. unfold occ_bytes at 1. unfold occ_bytes at 1 in Hf. destruct e as [x [b ups]]. cbn [fst snd] in *. unfold pathBytes in *. unfold steps_of at 1. cbn [fst snd]. destruct ups as [|[n s] r].
  - destruct b; [|exact (IH f Hf)]. rewrite <- app_assoc in *. rewrite !app_length in Hf. destruct f as [|f]; [cbn in Hf; lia|]. change (N.lor 4 1) with (sumVal 1 true) in *. rewrite read_step by (split; cbn; lia). rewrite IH; [reflexivity|]. cbn in Hf. lia.
  - destruct (read_up ((n, s) :: r) b (flat_map occ_bytes l) f He Hf) as (f' & L & ->). rewrite (IH f' L). reflexivity.
Qed.
Lemma occs_steps {K} (m : K -> bool) c : forall ups e u p, In e (occs c ups) -> In u (snd (snd e)) -> In u ups \/ exists r, In r (recs m c p) /\ nr_num r = fst u /\ nr_sum r = snd u.
Proof.
  induction c as [x b|k s b ops IH] using cwrap_ind'; intros ups e u p He Hu; cbn [occs] in He.
  - destruct He as [<-|[]]. left. exact Hu.
  - apply in_flat_map in He as (o & Ho & He). rewrite Forall_forall in IH. destruct (IH o Ho _ e u k He Hu) as [[<-|H]|(r & Hr & H)].
    + right. eexists. split; [left; reflexivity|]. split; reflexivity.
    + left. exact H.
    + right. exists r. split; [|exact H]. cbn [recs]. right. apply in_flat_map. exists o. auto.
Qed.
Lemma occs_word_paths {K} (c : cwrap K) : forall ups, occs c ups = word_paths c ups.
Proof.
  induction c as [x b|k s b ops IH] using cwrap_ind'; intro ups; [reflexivity|]. cbn [occs word_paths]. induction IH as [|o l Ho _ IHl]; [reflexivity|]. cbn [flat_map]. rewrite (Ho _), IHl. reflexivity.
Qed.
Lemma paths_read_back {K} (eqb : K -> K -> bool) q w : (forall x y, eqb x y = true <-> x = y) ->
  make_query_item_wrap q None false = Some [w] -> Z.of_nat (operators q false None) < 2 ^ 28 -> Z.of_nat (words q) < 2 ^ 28 ->
  let c := fst (calc_wraps w 1) in
  NoDup (map fst (extract_wraps eqb c [] [])) /\
  (forall x, In x (map fst (extract_wraps eqb c [] [])) <-> In x (map fst (word_paths c []))) /\
  forall x b, In (x, b) (extract_wraps eqb c [] []) ->
    read_path (length b) b = Some (flat_map (fun e => steps_of (snd e)) (filter (fun e => eqb x (fst e)) (word_paths c []))).
Proof.
  intros Heq Hm H1 H2. cbv zeta. destruct (calc_wraps w 1) as [c n'] eqn:EC. cbn [fst]. apply calc_spec in EC as (_ & Hnum & HF & He).
  destruct (make_spec q (make_plain q _ _ _ Hm) None false) as (l & A & _ & _ & _ & E & F & _). rewrite Hm in A. injection A as <-. unfold sumn in E, F. cbn [fold_right] in E, F.
  assert (HS : Forall (fun e => Forall path_step_ok (snd (snd e))) (occs c [])).
  { rewrite Forall_forall. intros e Hin. rewrite Forall_forall. intros u Hu. destruct (occs_steps (fun _ => false) c [] e u 0%N Hin Hu) as [[]|(r & Hr & E1 & E2)].
    destruct (recs_range (fun _ => false) c 1 0 r Hnum Hr) as [Q _]. pose proof (sum_small _ c HF 0%N r Hr) as B. rewrite He in B. pose proof (width_wops c) as W. rewrite He in W. unfold wsize in B. split; [rewrite <- E1|rewrite <- E2].
    - change (2 ^ 32)%N with 4294967296%N. change (2 ^ 28) with 268435456 in H1. lia.
    - change (2 ^ 29) with 536870912. change (2 ^ 28) with 268435456 in *. lia. }
  destruct (extract_spec_words eqb Heq c) as [D1 D2]. rewrite <- occs_word_paths. split; [exact D1|]. split.
  - intro x. split.
    + intro Hin. apply in_map_iff in Hin as ([y b] & <- & Hin). apply D2 in Hin as [Hin _]. cbn [fst]. unfold of_word in Hin. destruct (filter _ (occs c [])) as [|e l0] eqn:Ef; [contradiction|]. assert (Hl : In e (e :: l0)) by (left; reflexivity). rewrite <- Ef in Hl. apply filter_In in Hl as [Hl Hx]. apply Heq in Hx. subst y. apply in_map. exact Hl.
    + intro Hin. apply in_map_iff in Hin as (e & <- & Hin). apply in_map_iff. exists (fst e, flat_map occ_bytes (of_word eqb (fst e) (occs c []))). split; [reflexivity|]. apply D2. split; [|reflexivity]. intro E0. assert (Hl : In e (of_word eqb (fst e) (occs c []))) by (apply filter_In; split; [exact Hin|apply Heq; reflexivity]). rewrite E0 in Hl. destruct Hl.
  - intros x b Hin. apply D2 in Hin as [_ ->]. apply read_occs; [|apply Nat.le_refl]. unfold of_word. rewrite Forall_forall in *. intros e Hin. apply filter_In in Hin as [Hin _]. apply HS. exact Hin.
Qed.
(** The search reads the same steps. *)
Lemma search_reads : forall f p steps child nodes, read_path f p = Some steps -> Forall (fun s : step => (1 <= fst (fst s) <= 256)%N) steps ->
  path_loop f p child nodes = Some (snd (fold_left (fun st (s : step) => (next (fst (fst s)), step1 (fst (fst s)) (snd (fst s)) (snd s) (fst st) (snd st))) steps (child, nodes))).
Proof.
  induction f as [|f IH]; intros p steps child nodes H HF.
  - destruct p; [|discriminate]. injection H as <-. reflexivity.
  - destruct p as [|x p']; [injection H as <-; reflexivity|]. cbn [read_path path_loop] in *. set (p := x :: p') in *. clearbody p. destruct (decode_varbyte p) as [[num p1]|]; [|discriminate]. destruct (decode_varbyte p1) as [[sv p2]|]; [|discriminate].
    destruct (read_path f p2) as [l|] eqn:E; [|discriminate]. cbn [option_map] in H. injection H as <-. inversion HF as [|? ? H1 H2 EE]; subst. cbn [fst snd] in *.
    replace ((num =? 0)%N || (256 <? num)%N) with false; [|symmetry; apply orb_false_iff; split; [apply N.eqb_neq; lia|apply N.ltb_ge; lia]].
    cbn [fold_left fst snd]. fold (next num). rewrite <- (IH p2 l (next num)); [|exact E|exact H2]. unfold next, step1.
    assert (T0 : negb (N.land sv 1 =? 0)%N = N.testbit sv 0).
    { change 1%N with (N.ones 1). rewrite N.land_ones. change (2 ^ 1)%N with 2%N. rewrite <- N.bit0_mod. destruct (N.testbit sv 0); reflexivity. }
    assert (T1 : negb (N.land sv 2 =? 0)%N = N.testbit sv 1).
    { destruct (N.testbit sv 1) eqn:E1.
      - apply negb_true_iff, N.eqb_neq. intro E0. assert (B : N.testbit (N.land sv 2) 1 = true) by (rewrite N.land_spec, E1; reflexivity). rewrite E0 in B. discriminate.
      - apply negb_false_iff, N.eqb_eq. apply N.bits_inj_0. intro n. rewrite N.land_spec. destruct (N.eq_dec n 1) as [->|Hn]; [rewrite E1; reflexivity|]. replace (N.testbit 2 n) with false; [apply andb_false_r|]. symmetry. change 2%N with (2 ^ 1)%N. apply N.pow2_bits_false. congruence. }
    rewrite T0, T1, N.shiftr_div_pow2. change (2 ^ 2)%N with 4%N. reflexivity.
Qed.
