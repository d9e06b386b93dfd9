(** Property theorems: posting-list codec, item order, leaf pages (C01, C02, C05-C09).
    Statements only; the proofs are the named lemmas. *)
From Verif Require Import Base Ord OrdProof Codec CodecSpec CodecProof LeafPage LeafProof LeafSpec LeafCodec LeafCodecProof PropCodecProof.
From Coq Require Import NArith ZArith Lia.

(** C01.  Whatever rows are written, and wherever ([pos]) and whatever follows ([rest]), the
    reader gives back the same rows: addresses, order, NULL flags, attached values. *)
Theorem C01_posting_list_round_trip :
  forall (alt : bool) (a : attr) (rows : list (item datum)) (pos : N),
  Forall (item_ok alt a) rows ->
  exists bytes, writePostingList alt a pos rows ip_min = Some bytes /\
    forall rest, exists rows',
      rumReadTuple alt a (length rows) pos (bytes ++ rest) ip_min = Some rows' /\
      map row_of rows' = map row_of rows.
Proof. exact posting_round_trip. Qed.
Print Assumptions C01_posting_list_round_trip.

Definition ex_attr : attr := AVar 4 true.
Definition ex_rows : list (item datum) :=
  [ mkItem (mkIp 0 1) None;
    mkItem (mkIp 0 300) (Some (DVar V4U [1; 2; 3]%N));
    mkItem (mkIp 4000000000 65535) (Some (DVar V4U (repeat 7%N 200)));
    mkItem (mkIp 4000000000 65535) (Some (DVar V4C [9; 9]%N)) ].
Example C01_hypotheses_met : Forall (item_ok false ex_attr) ex_rows.
Proof. apply items_okb; vm_compute; reflexivity. Qed.
Example C01_reads_back : exists bs, writePostingList false ex_attr 3 ex_rows ip_min = Some bs /\
  option_map (map row_of) (rumReadTuple false ex_attr 4 3 bs ip_min) = Some (map row_of ex_rows).
Proof. eexists. split; [vm_compute; reflexivity|vm_compute; reflexivity]. Qed.

(** C02.  Predicted size = written size, for one item and for a list. *)
Theorem C02_item_size_exact :
  forall alt a pos it prev w, item_ok alt a it ->
  rumPlaceToDataPageLeaf alt a pos it prev = Some w ->
  rumCheckPlaceToDataPageLeaf alt a it prev pos = (pos + nlen w)%N.
Proof. exact item_size_eq. Qed.
Print Assumptions C02_item_size_exact.

Theorem C02_list_size_exact :
  forall alt a rows pos prev bs, Forall (item_ok alt a) rows ->
  writePostingList alt a pos rows prev = Some bs ->
  postingListSize alt a rows prev pos = (pos + nlen bs)%N.
Proof. exact posting_size_eq. Qed.
Print Assumptions C02_list_size_exact.

(** The room check, made without knowing the predecessor or the position, bounds the bytes written. *)
Theorem C02_room_check_bounds_write :
  forall alt a it prev pos free w,
  item_ok alt a it -> (blk prev <= blk (ip it))%N ->
  dataIsEnoughSpaceLeaf alt a it free = true ->
  rumPlaceToDataPageLeaf alt a pos it prev = Some w -> (nlen w <= free)%N.
Proof. exact room_check_bytes. Qed.
Print Assumptions C02_room_check_bounds_write.

Example C02_hypotheses_met :
  let it := mkItem (mkIp 70000 12) (Some (DVar V4U (repeat 1%N 300))) in
  item_ok false ex_attr it /\ dataIsEnoughSpaceLeaf false ex_attr it 320 = true /\
  exists w, rumPlaceToDataPageLeaf false ex_attr 5 it (mkIp 69999 3) = Some w.
Proof. cbn zeta. split; [|split; [vm_compute; reflexivity|eexists; vm_compute; reflexivity]].
  unfold item_ok, ip_ok. cbn. split; [lia|]. split; [discriminate|]. split; [right; right; left; reflexivity|reflexivity]. Qed.

(** C05.  The item order is a total order; in the default layout it is row-address order, in
    the attach-ordered layout attached value first, NULL before every value, then address. *)
Theorem C05_total_order : forall (A : Type) alt (cmpA : A -> A -> Z),
  total_cmp cmpA -> total_cmp (compareRumItem alt cmpA).
Proof. exact @cri_total. Qed.
Print Assumptions C05_total_order.

Theorem C05_default_layout_is_row_order : forall (A : Type) (cmpA : A -> A -> Z) (x y : item A),
  ((compareRumItem false cmpA x y < 0)%Z <->
     (blk (ip x) < blk (ip y) \/ (blk (ip x) = blk (ip y) /\ off (ip x) < off (ip y)))%N) /\
  (compareRumItem false cmpA x y = 0%Z <-> ip x = ip y).
Proof. exact @cri_default. Qed.
Print Assumptions C05_default_layout_is_row_order.

Theorem C05_attach_layout : forall (A : Type) (cmpA : A -> A -> Z) (x y : item A), total_cmp cmpA ->
  ((compareRumItem true cmpA x y < 0)%Z <->
     match add x, add y with
     | None, Some _ => True
     | Some _, None => False
     | None, None => (rumCompareItemPointers (ip x) (ip y) < 0)%Z
     | Some u, Some v => (cmpA u v < 0)%Z \/ (cmpA u v = 0%Z /\ (rumCompareItemPointers (ip x) (ip y) < 0)%Z)
     end).
Proof. exact @cri_attach. Qed.
Print Assumptions C05_attach_layout.

(** C06.  Merging new rows into stored rows is set union, stored rows winning ties. *)
Theorem C06_merge_is_union : forall (A : Type) alt (cmpA : A -> A -> Z) (new stored : list (item A)),
  total_cmp cmpA ->
  let cmp := compareRumItem alt cmpA in
  ssorted cmp new -> ssorted cmp stored ->
  let merged := rumMergeRumItems cmp new stored in
  ssorted cmp merged /\
  (forall x, In x merged <-> In x stored \/ (In x new /\ forall y, In y stored -> cmp x y <> 0%Z)).
Proof. exact @merge_items_spec. Qed.
Print Assumptions C06_merge_is_union.

Example C06_hypotheses_met :
  let cmp := compareRumItem true Z.sub in
  let new := [mkItem (mkIp 5 5) None; mkItem (mkIp 1 1) (Some 3%Z); mkItem (mkIp 2 1) (Some 9%Z)] in
  let stored := [mkItem (mkIp 1 1) (Some 3%Z); mkItem (mkIp 0 1) (Some 4%Z)] in
  ssorted cmp new /\ ssorted cmp stored /\ length (rumMergeRumItems cmp new stored) = 4%nat.
Proof. cbn zeta. repeat split; repeat constructor. Qed.

(** C07.  Lookup on a leaf page: found iff stored; the offset returned is the row's own, or
    the place where it belongs.  The sparse index has at most its 32 slots. *)
Theorem C07_leaf_lookup : forall alt (cmpA : datum -> datum -> Z) (items : list (item datum)) (key : item datum),
  total_cmp cmpA ->
  let cmp := compareRumItem alt cmpA in
  ssorted cmp items -> (cmp item_min key < 0)%Z ->
  let '(found, off) := findOnPage alt cmpA items key in
  (1 <= off <= S (length items))%nat /\
  (found = true <-> exists x, In x items /\ cmp x key = 0%Z) /\
  (found = true -> exists x, nth_error items (off - 1) = Some x /\ cmp x key = 0%Z) /\
  (forall x, In x (firstn (off - 1) items) -> (cmp x key < 0)%Z) /\
  (forall x, In x (skipn (off - 1) items) -> (0 <= cmp x key)%Z).
Proof. exact leaf_lookup. Qed.
Print Assumptions C07_leaf_lookup.

Theorem C07_index_fits : forall (items : list (item datum)),
  (length (updateItemIndexes item_min items) <= 32)%nat.
Proof. exact (fun items => index_count item_min items). Qed.
Print Assumptions C07_index_fits.

Definition big_page (n : nat) : list (item datum) :=
  map (fun i => mkItem (mkIp (N.of_nat i) 1) None) (seq 0 n).
Example C07_big_page : findOnPage false (fun _ _ => 0%Z) (big_page 500) (mkItem (mkIp 317 1) None) = (true, 318%nat)
  /\ findOnPage false (fun _ _ => 0%Z) (big_page 500) (mkItem (mkIp 317 2) None) = (false, 319%nat)
  /\ length (updateItemIndexes item_min (big_page 500)) = 32%nat.
Proof. vm_compute. auto. Qed.

(** C08.  Placing a batch: contents. *)
Theorem C08_place_contents : forall alt a cmpA rm bound (items batch : list (item datum)),
  config_ok alt a -> total_cmp cmpA ->
  let cmp := compareRumItem alt cmpA in
  batch <> [] -> Forall (row_ok alt a) items -> Forall (row_ok alt a) batch ->
  ssorted cmp items -> ssorted cmp batch ->
  (rm = true \/ forall x, In x items -> (cmp x bound <= 0)%Z) ->
  exists items' used rest e,
    placeOnPage alt a cmpA rm bound items batch = Some (items', rest, e) /\
    batch = used ++ rest /\ ssorted cmp items' /\
    (forall x, In x items' <-> In x items \/ (In x used /\ forall y, In y items -> cmp x y <> 0%Z)) /\
    (rm = true \/ forall x, In x items' -> (cmp x bound <= 0)%Z).
Proof. exact (fun alt a cmpA rm bound items batch Hc HA => page_place alt a cmpA HA rm bound items batch). Qed.
Print Assumptions C08_place_contents.

(** C08, space: a batch of rows whose attached column needs no alignment never overruns the page. *)
Theorem C08_batch_fits : forall alt a cmpA rm bound (items batch items' rest : list (item datum)) e,
  config_ok alt a -> total_cmp cmpA -> attr_align a = 1%N ->
  let cmp := compareRumItem alt cmpA in
  Forall (row_ok alt a) items -> Forall (row_ok alt a) batch ->
  ssorted cmp items -> ssorted cmp batch -> fits_page alt a items ->
  placeOnPage alt a cmpA rm bound items batch = Some (items', rest, e) ->
  fits_page alt a items'.
Proof. exact page_batch_fits. Qed.
Print Assumptions C08_batch_fits.

(** C08, space and progress: one row that passes the room check is stored and the page still
    fits, for alignment up to 4 or widths that are multiples of 8. *)
Theorem C08_single_fits : forall alt a cmpA rm bound (items : list (item datum)) n,
  config_ok alt a -> total_cmp cmpA -> safe_align a ->
  let cmp := compareRumItem alt cmpA in
  Forall (row_ok alt a) items -> row_ok alt a n -> ssorted cmp items ->
  (forall x, In x items -> cmp x n <> 0%Z) ->
  (rm = true \/ forall x, In x (n :: items) -> (cmp x bound <= 0)%Z) ->
  fits_page alt a items ->
  dataIsEnoughSpaceLeaf alt a n (freeOnPage alt a items) = true ->
  exists items' e, placeOnPage alt a cmpA rm bound items [n] = Some (items', [], e) /\
    (forall x, In x items' <-> In x items \/ x = n) /\ fits_page alt a items'.
Proof. exact page_single_fits. Qed.
Print Assumptions C08_single_fits.

Example C08_hypotheses_met :
  let cmpA := fun x y : datum => 0%Z in
  config_ok false ex_attr /\ safe_align ex_attr /\ ssorted (compareRumItem false cmpA) (big_page 500) /\
  Forall (row_ok false ex_attr) (big_page 500) /\
  dataIsEnoughSpaceLeaf false ex_attr (mkItem (mkIp 20 7) None) (freeOnPage false ex_attr (big_page 500)) = true /\
  exists items' e, placeOnPage false ex_attr cmpA false (mkItem (mkIp 1000 1) None) (big_page 500)
    [mkItem (mkIp 20 7) None] = Some (items', [], e) /\ length items' = 501%nat.
Proof. exact C08_example. Qed.

(** C08 fails for 8-byte-aligned columns whose width is not a multiple of 8 (e.g. timetz,
    12 bytes): a row that passes the room check overruns the page. *)
Theorem C08_align8_refuted :
  let a := AFixed 12 8 in let cmpA := fun x y : datum => 0%Z in
  exists items n items' e,
    Forall (row_ok false a) items /\ row_ok false a n /\
    ssorted (compareRumItem false cmpA) items /\ fits_page false a items /\
    dataIsEnoughSpaceLeaf false a n (freeOnPage false a items) = true /\
    placeOnPage false a cmpA true item_min items [n] = Some (items', [], e) /\
    ~ fits_page false a items'.
Proof. exact align8_overrun. Qed.
Print Assumptions C08_align8_refuted.

(** C08 fails for batches (index build) when later rows of the page are aligned: the batch
    uses up the free space and realignment of the following rows overruns the page. *)
Theorem C08_aligned_batch_refuted :
  let a := AFixed 6 4 in let cmpA := fun x y : datum => 0%Z in
  exists items batch items' e,
    Forall (row_ok false a) items /\ Forall (row_ok false a) batch /\
    ssorted (compareRumItem false cmpA) items /\ ssorted (compareRumItem false cmpA) batch /\
    fits_page false a items /\
    match batch with n :: _ => dataIsEnoughSpaceLeaf false a n (freeOnPage false a items) = true | [] => False end /\
    placeOnPage false a cmpA true item_min items batch = Some (items', [], e) /\
    ~ fits_page false a items'.
Proof. exact aligned_batch_overrun. Qed.
Print Assumptions C08_aligned_batch_refuted.

(** C09.  A split distributes exactly the old rows and the consumed new rows, in order, with
    the last left row as separator. *)
Theorem C09_split_contents : forall alt a cmpA (items : list (item datum)) n btl,
  config_ok alt a -> total_cmp cmpA ->
  let cmp := compareRumItem alt cmpA in
  let batch := n :: btl in let off := snd (findOnPage alt cmpA items n) in
  items <> [] -> Forall (row_ok alt a) items -> Forall (row_ok alt a) batch ->
  ssorted cmp items -> ssorted cmp batch -> (forall x, In x items -> cmp x n <> 0%Z) ->
  exists l r used rest, splitPage alt a items batch off = Some (l, r, rest) /\
    batch = used ++ rest /\ ssorted cmp (l ++ r) /\
    (forall x, In x (l ++ r) <-> In x items \/ In x used) /\ l <> [] /\
    (forall x, In x l -> (cmp x (last l item_min) <= 0)%Z) /\
    (forall x, In x r -> (cmp (last l item_min) x < 0)%Z).
Proof. exact (fun alt a cmpA items n btl Hc HA => page_split alt a cmpA Hc HA items n btl). Qed.
Print Assumptions C09_split_contents.

(** C09, space: when no row takes more than about a third of a page, both halves fit. *)
Theorem C09_split_fits : forall alt a cmpA (B : N) (items : list (item datum)) n btl l r rest,
  config_ok alt a -> total_cmp cmpA ->
  let cmp := compareRumItem alt cmpA in
  let batch := n :: btl in let off := snd (findOnPage alt cmpA items n) in
  items <> [] -> Forall (row_ok alt a) items -> Forall (row_ok alt a) batch ->
  ssorted cmp items -> ssorted cmp batch -> (forall x, In x items -> cmp x n <> 0%Z) ->
  fits_page alt a items -> (3 * B + 32 <= RumDataPageSize)%N ->
  (forall x, In x items \/ In x batch -> takes_at_most alt a B x) ->
  (attr_align a = 1%N \/ btl = []) ->
  splitPage alt a items batch off = Some (l, r, rest) ->
  fits_page alt a l /\ fits_page alt a r.
Proof. exact page_split_fits. Qed.
Print Assumptions C09_split_fits.

(** A full page splits into two non-empty pages under the same size bound. *)
Theorem C09_split_both_nonempty : forall alt a cmpA (B : N) (items : list (item datum)) n btl l r rest,
  config_ok alt a -> total_cmp cmpA ->
  let cmp := compareRumItem alt cmpA in
  let off := snd (findOnPage alt cmpA items n) in
  items <> [] -> Forall (row_ok alt a) items -> Forall (row_ok alt a) (n :: btl) ->
  ssorted cmp items -> (forall x, In x items -> cmp x n <> 0%Z) ->
  fits_page alt a items -> (3 * B + 32 <= RumDataPageSize)%N ->
  (forall x, In x items \/ In x (n :: btl) -> takes_at_most alt a B x) ->
  dataIsEnoughSpaceLeaf alt a n (freeOnPage alt a items) = false ->
  splitPage alt a items (n :: btl) off = Some (l, r, rest) ->
  l <> [] /\ r <> [] /\ exists used, used <> [] /\ n :: btl = used ++ rest /\
    (forall x, In x (l ++ r) <-> In x items \/ In x used) /\
    (length used = 1%nat \/ forall y, In y items -> (cmp y n < 0)%Z).
Proof. exact page_split_nonempty. Qed.
Print Assumptions C09_split_both_nonempty.

Example C09_hypotheses_met :
  let cmpA := fun x y : datum => 0%Z in
  let n := mkItem (mkIp 1 1) None in
  let items := map (fun i => mkItem (mkIp (2 * N.of_nat i) 1) None) (seq 0 700) in
  ssorted (compareRumItem false cmpA) items /\
  exists l r, splitPage false ex_attr items [n] (snd (findOnPage false cmpA items n)) = Some (l, r, []) /\
    (length l + length r = 701)%nat /\ (length r <> 0)%nat.
Proof. exact C09_example. Qed.

(** C09 fails for large attached values (about half a page each): the left half overruns. *)
Theorem C09_large_value_refuted :
  let a := AVar 4 true in let cmpA := fun x y : datum => 0%Z in
  exists items n l r, Forall (row_ok false a) items /\ row_ok false a n /\
    ssorted (compareRumItem false cmpA) items /\ fits_page false a items /\
    fits_page false a [n] /\
    dataIsEnoughSpaceLeaf false a n (freeOnPage false a items) = false /\
    splitPage false a items [n] (snd (findOnPage false cmpA items n)) = Some (l, r, []) /\
    ~ fits_page false a l.
Proof. exact large_value_overrun. Qed.
Print Assumptions C09_large_value_refuted.
