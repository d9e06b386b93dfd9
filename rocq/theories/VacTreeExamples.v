(** Concrete trees for PropVacTree.v. *)
From Verif Require Import Base Ord OrdProof Codec CodecSpec LeafPage LeafSpec LeafCodec BTree PostingTree PostingTreeSpec PropTreeProof VacuumTree VacTreeSpec.
From Coq Require Import NArith ZArith Lia List Bool Arith.
Import ListNotations.

Definition dead_in (l : list N) (p : iptr) : bool := existsb (N.eqb (blk p)) l.
Definition run_of (st : list (page row)) (l : list N) : list (page row) := match ptRun false big_attr zcmp st (singles l) with Some s => s | None => [] end.
Definition vac_of (st : list (page row)) (dead : iptr -> bool) : list (page row) := match ptVacuum dead st with Some tr => last tr st | None => [] end.
Definition vac_base : list (page row) := run_of (createPostingTree []) [10; 20; 30; 40; 50; 60; 70; 80; 90; 100; 110; 120; 130; 140]%N.
Definition vac_once : list (page row) := vac_of vac_base (dead_in [10; 20; 30; 50; 60; 70; 80; 90; 100; 110; 120]%N).
Definition vac_again : list (page row) := run_of vac_once [55; 75]%N.
Definition vac_twice : list (page row) := vac_of vac_again (dead_in [130]%N).


Definition is_some {A} (o : option A) : bool := match o with Some _ => true | None => false end.
Lemma is_some_ex {A} (o : option A) : is_some o = true -> exists x, o = Some x.
Proof. destruct o; [eauto|discriminate]. Qed.
Lemma run_of_ok st l : is_some (ptRun false big_attr zcmp st (singles l)) = true -> ptRun false big_attr zcmp st (singles l) = Some (run_of st l).
Proof. unfold run_of. destruct (ptRun _ _ _ _ _); [reflexivity|discriminate]. Qed.
Lemma singles_rows l : concat (map snd (singles l)) = map bigrow l.
Proof. induction l as [|i l IH]; [reflexivity|]. cbn. f_equal. exact IH. Qed.
Lemma singles_valid l : forallb (fun i => N.ltb i (2 ^ 32)) l = true -> Forall (fun h => valid_batch false big_attr zcmp (snd h)) (singles l).
Proof.
  intro H. unfold singles. rewrite Forall_map. apply Forall_forall. intros i Hi. apply bigrow_valid. apply N.ltb_lt. rewrite forallb_forall in H. exact (H i Hi).
Qed.
Lemma empty_fits : fits_page false big_attr [].
Proof. exists []. split; [reflexivity|vm_compute; discriminate]. Qed.

(** histories *)
Lemma vrun_new l st : forallb (fun i => N.ltb i (2 ^ 32)) l = true -> ptRun false big_attr zcmp (createPostingTree []) (singles l) = Some st ->
  vreaches false big_attr zcmp st (map bigrow l) (map bigrow l).
Proof.
  intros Hl E. pose proof (vr_build false big_attr zcmp [] (singles l) st (SSorted_nil _) (Forall_nil _) empty_fits (singles_valid l Hl) E) as H. cbn [app] in H. rewrite singles_rows in H. exact H.
Qed.
Lemma vrun_more l : forall st must may st', forallb (fun i => N.ltb i (2 ^ 32)) l = true -> vreaches false big_attr zcmp st must may -> ptRun false big_attr zcmp st (singles l) = Some st' ->
  vreaches false big_attr zcmp st' (must ++ map bigrow l) (may ++ map bigrow l).
Proof.
  induction l as [|i l IH]; intros st must may st' Hl H E; cbn [singles map ptRun] in E.
  - injection E as <-. rewrite !app_nil_r. exact H.
  - cbn [forallb] in Hl. apply andb_true_iff in Hl as [Hi Hl]. destruct (ptInsert false big_attr zcmp false st [bigrow i]) as [[tr [|]]|] eqn:Ei; try discriminate.
    pose proof (vr_insert _ _ _ st must may false (bigrow i) tr H (bigrow_storable i (proj1 (N.ltb_lt _ _) Hi)) Ei) as H'.
    pose proof (IH (last tr st) _ _ st' Hl H' E) as H2. rewrite <- !app_assoc in H2. exact H2.
Qed.
Lemma vac_of_ok st must may dead : vreaches false big_attr zcmp st must may -> is_some (ptVacuum dead st) = true ->
  vreaches false big_attr zcmp (vac_of st dead) (filter (alive dead) must) (filter (alive dead) may).
Proof.
  intros H Hs. apply is_some_ex in Hs as [tr E]. unfold vac_of. rewrite E. exact (vr_vacuum _ _ _ st must may dead tr H E).
Qed.

Lemma vac_twice_ok : config_ok false big_attr /\ total_cmp zcmp /\ safe_align big_attr /\
  vreaches false big_attr zcmp vac_twice [bigrow 40; bigrow 140; bigrow 55; bigrow 75] [bigrow 40; bigrow 140; bigrow 55; bigrow 75] /\
  option_map (map (fun r => blk (ip r))) (ptScan vac_twice) = Some [40; 55; 75; 140]%N /\
  map (@p_deleted _) vac_twice = [false; false; false; true; true; false].
Proof.
  destruct C12_example as (C1 & C2 & C3 & _). split; [exact C1|]. split; [exact C2|]. split; [exact C3|]. split.
  - assert (E0 : is_some (ptRun false big_attr zcmp (createPostingTree []) (singles [10; 20; 30; 40; 50; 60; 70; 80; 90; 100; 110; 120; 130; 140]%N)) = true) by (vm_compute; reflexivity).
    assert (S0 : forallb (fun i => N.ltb i (2 ^ 32)) [10; 20; 30; 40; 50; 60; 70; 80; 90; 100; 110; 120; 130; 140]%N = true) by (vm_compute; reflexivity).
    assert (H0 : vreaches false big_attr zcmp vac_base (map bigrow [10; 20; 30; 40; 50; 60; 70; 80; 90; 100; 110; 120; 130; 140]%N) (map bigrow [10; 20; 30; 40; 50; 60; 70; 80; 90; 100; 110; 120; 130; 140]%N)) by exact (vrun_new _ _ S0 (run_of_ok _ _ E0)).
    assert (E1 : is_some (ptVacuum (dead_in [10; 20; 30; 50; 60; 70; 80; 90; 100; 110; 120]%N) vac_base) = true) by (vm_compute; reflexivity).
    assert (H1 : vreaches false big_attr zcmp vac_once [bigrow 40; bigrow 130; bigrow 140] [bigrow 40; bigrow 130; bigrow 140]) by exact (vac_of_ok _ _ _ _ H0 E1).
    assert (E2 : is_some (ptRun false big_attr zcmp vac_once (singles [55; 75]%N)) = true) by (vm_compute; reflexivity).
    assert (S1 : forallb (fun i => N.ltb i (2 ^ 32)) [55; 75]%N = true) by (vm_compute; reflexivity).
    assert (H2 : vreaches false big_attr zcmp vac_again [bigrow 40; bigrow 130; bigrow 140; bigrow 55; bigrow 75] [bigrow 40; bigrow 130; bigrow 140; bigrow 55; bigrow 75]) by exact (vrun_more [55; 75]%N _ _ _ _ S1 H1 (run_of_ok _ _ E2)).
    assert (E3 : is_some (ptVacuum (dead_in [130]%N) vac_again) = true) by (vm_compute; reflexivity).
    exact (vac_of_ok _ _ _ _ H2 E3).
  - split; vm_compute; reflexivity.
Qed.

(** a three-level tree *)
Definition mid (p : iptr) : bool := N.leb 511 (blk p) && N.leb (blk p) 1020.
Definition keys3 : list N := map N.of_nat (seq 1 1540).
Definition check3 (ks : list N) (dd : iptr -> bool) (n : nat) (x : row) : bool :=
  match ptRun false big_attr zcmp (createPostingTree []) (singles ks) with
  | Some st =>
      match ptVacuum dd st with
      | Some tr =>
          match nth_error tr n with
          | Some s => negb (is_some (ptLookup false zcmp s x)) && negb (is_some (ptInsert false big_attr zcmp false s [x]))
          | None => false
          end
      | None => false
      end
  | None => false
  end.
Lemma check3_true : check3 keys3 mid 339 (bigrow 700) = true.
Proof. vm_cast_no_check (eq_refl true). Qed.
Lemma keys3_small : forallb (fun i => N.ltb i (2 ^ 32)) keys3 = true.
Proof. vm_compute. reflexivity. Qed.
Lemma childless_page : exists st must may dead tr s x,
  vreaches false big_attr zcmp st must may /\ ptVacuum dead st = Some tr /\ In s tr /\ storable false big_attr x /\
  ptLookup false zcmp s x = None /\ ptInsert false big_attr zcmp false s [x] = None.
Proof.
  pose proof check3_true as H. pose proof keys3_small as Hk. pose proof (bigrow_storable 700 eq_refl) as Hx. revert H Hk Hx. generalize keys3 as ks. generalize mid as dd. generalize 339 as n. generalize (bigrow 700) as x. intros x n dd ks H Hk Hx. unfold check3 in H.
  destruct (ptRun false big_attr zcmp (createPostingTree []) (singles ks)) as [st|] eqn:E; [|discriminate]. pose proof (vrun_new ks st Hk E) as H0.
  destruct (ptVacuum dd st) as [tr|] eqn:Ev; [|discriminate]. destruct (nth_error tr n) as [s|] eqn:En; [|discriminate].
  apply andb_true_iff in H as [H1 H2]. exists st, (map bigrow ks), (map bigrow ks), dd, tr, s, x. split; [exact H0|]. split; [exact Ev|]. split; [eapply nth_error_In; eauto|].
  split; [exact Hx|]. split.
  - destruct (ptLookup _ _ _ _); [discriminate|reflexivity].
  - destruct (ptInsert _ _ _ _ _ _); [discriminate|reflexivity].
Qed.

(** after a crash in an insertion *)
Definition check_stay (st : list (page row)) (dd : iptr -> bool) : bool := match ptVacuum dd st with Some tr => match ptScan (last tr st) with Some (_ :: _) => true | _ => false end | None => false end.
Lemma dead_rows_stay : exists st acked tried dead tr rows x,
  reaches false big_attr zcmp st acked tried /\ ptVacuum dead st = Some tr /\ ptScan (last tr st) = Some rows /\
  In x rows /\ dead (ip x) = true.
Proof.
  destruct half_split_lost as [Hr _]. assert (H : check_stay half_split9 (fun _ => true) = true) by (vm_compute; reflexivity).
  exists half_split9, (map bigrow [1; 2; 3; 4; 5; 6; 8; 9]%N), (map bigrow [1; 2; 3; 4; 5; 6; 7; 8; 9]%N), (fun _ => true). revert H Hr. generalize half_split9 as st. intros st H Hr. unfold check_stay in H.
  destruct (ptVacuum (fun _ => true) st) as [tr|]; [|discriminate]. destruct (ptScan (last tr st)) as [[|x rows]|] eqn:Es; try discriminate.
  exists tr, (x :: rows), x. split; [exact Hr|]. split; [reflexivity|]. split; [exact Es|]. split; [left; reflexivity|reflexivity].
Qed.

Definition nine : list (page row) := run_of (createPostingTree []) [10; 20; 30; 40; 50; 60; 70; 80; 90]%N.
Definition first_cut (st : list (page row)) (x : row) : list (page row) := match ptInsert false big_attr zcmp false st [x] with Some (s :: _, _) => s | _ => [] end.
Definition has_cut (st : list (page row)) (x : row) : bool := match ptInsert false big_attr zcmp false st [x] with Some (_ :: _, _) => true | _ => false end.
Lemma first_cut_ok st acked tried x : reaches false big_attr zcmp st acked tried -> valid_batch false big_attr zcmp [x] -> has_cut st x = true -> reaches false big_attr zcmp (first_cut st x) acked (tried ++ [x]).
Proof.
  unfold has_cut, first_cut. intros Hr Hv H. destruct (ptInsert false big_attr zcmp false st [x]) as [[[|s tr] lost]|] eqn:E; try discriminate. exact (reaches_cut _ _ _ _ _ _ _ _ _ _ _ Hr Hv E (or_introl eq_refl)).
Qed.
Definition nine_cut : list (page row) := first_cut nine (bigrow 55).
Lemma nine_cut_reached : reaches false big_attr zcmp nine_cut (map bigrow [10; 20; 30; 40; 50; 60; 70; 80; 90]%N) (map bigrow [10; 20; 30; 40; 50; 60; 70; 80; 90; 55]%N).
Proof.
  assert (H0 : reaches false big_attr zcmp (createPostingTree []) [] []) by (apply reaches_new; [constructor|constructor|exact empty_fits]).
  assert (E0 : is_some (ptRun false big_attr zcmp (createPostingTree []) (singles [10; 20; 30; 40; 50; 60; 70; 80; 90]%N)) = true) by (vm_compute; reflexivity).
  assert (S0 : forallb (fun i => N.ltb i (2 ^ 32)) [10; 20; 30; 40; 50; 60; 70; 80; 90]%N = true) by (vm_compute; reflexivity).
  assert (H9 : reaches false big_attr zcmp nine (map bigrow [10; 20; 30; 40; 50; 60; 70; 80; 90]%N) (map bigrow [10; 20; 30; 40; 50; 60; 70; 80; 90]%N)) by exact (reaches_run _ _ _ _ _ H0 (singles_valid _ S0) (run_of_ok _ _ E0)).
  assert (H : has_cut nine (bigrow 55) = true) by (vm_compute; reflexivity).
  exact (first_cut_ok _ _ _ _ H9 (bigrow_valid 55 eq_refl) H).
Qed.
Definition check_hidden (st : list (page row)) (dd : iptr -> bool) (x : row) (p : list N) : bool :=
  match ptVacuum dd st with
  | Some tr =>
      match ptScan (last tr st), ptLookup false zcmp (last tr st) x with
      | Some rows, Some false =>
          existsb (fun r : row => N.eqb (blk (ip r)) (blk (ip x)) && N.eqb (off (ip r)) (off (ip x)) && match add r with Some (DVar V4U q) => if list_eq_dec N.eq_dec q p then true else false | _ => false end) rows
      | _, _ => false
      end
  | None => false
  end.
Lemma check_hidden_ok st dd b o p : check_hidden st dd (mkItem (mkIp b o) (Some (DVar V4U p))) p = true ->
  exists tr rows, ptVacuum dd st = Some tr /\ ptScan (last tr st) = Some rows /\ In (mkItem (mkIp b o) (Some (DVar V4U p))) rows /\ ptLookup false zcmp (last tr st) (mkItem (mkIp b o) (Some (DVar V4U p))) = Some false.
Proof.
  unfold check_hidden. destruct (ptVacuum dd st) as [tr|] eqn:Ev; [|discriminate]. destruct (ptScan (last tr st)) as [rows|] eqn:Es; [|discriminate]. destruct (ptLookup _ _ _ _) as [[|]|] eqn:El; try discriminate. intro H.
  exists tr, rows. split; [reflexivity|]. split; [exact Es|]. split; [|exact El]. apply existsb_exists in H as (r & Hr & H). destruct r as [[b' o'] ad]. cbn [ip add blk off] in H. apply andb_true_iff in H as [H H3]. apply andb_true_iff in H as [H1 H2].
  apply N.eqb_eq in H1, H2. subst b' o'. destruct ad as [[v|v|fm q]|]; try discriminate. destruct fm; try discriminate. destruct (list_eq_dec N.eq_dec q p) as [->|]; [exact Hr|discriminate].
Qed.
Lemma live_row_hidden : exists st acked tried dead tr rows x,
  reaches false big_attr zcmp st acked tried /\ In x acked /\ dead (ip x) = false /\ ptVacuum dead st = Some tr /\
  ptScan (last tr st) = Some rows /\ In x rows /\ ptLookup false zcmp (last tr st) x = Some false.
Proof.
  assert (H : check_hidden nine_cut (dead_in [40; 50; 55]%N) (bigrow 60) (repeat 0%N 2000) = true) by (vm_compute; reflexivity).
  pose proof nine_cut_reached as Hr. revert H Hr. generalize nine_cut as st. intros st H Hr.
  destruct (check_hidden_ok st (dead_in [40; 50; 55]%N) 60 1 (repeat 0%N 2000) H) as (tr & rows & H1 & H2 & H3 & H4).
  exists st, (map bigrow [10; 20; 30; 40; 50; 60; 70; 80; 90]%N), (map bigrow [10; 20; 30; 40; 50; 60; 70; 80; 90; 55]%N), (dead_in [40; 50; 55]%N), tr, rows, (bigrow 60).
  split; [exact Hr|]. split; [do 5 right; left; reflexivity|]. split; [reflexivity|]. split; [exact H1|]. split; [exact H2|]. split; [exact H3|exact H4].
Qed.
