(** Proofs about the posting-list codec. *)
From Verif Require Import Base Codec NBits.
From Coq Require Import Lia ZifyBool ZifyNat ZifyN.
Ltac Zify.zify_post_hook ::= Z.div_mod_to_equations.
Local Open Scope N_scope.
Arguments N.add : simpl never.
Arguments N.mul : simpl never.
Arguments N.pow : simpl never.
Arguments N.div : simpl never.
Arguments N.modulo : simpl never.
Arguments N.land : simpl never.
Arguments N.lor : simpl never.
Arguments N.ldiff : simpl never.
Arguments N.shiftl : simpl never.
Arguments N.shiftr : simpl never.

Lemma Some_inj {A} (x y : A) : Some x = Some y -> x = y.
Proof. congruence. Qed.

(** ** block increment *)
Lemma wr_block_loop_S f v :
  wr_block_loop (S f) v =
  if v <? 128 then [v] else (v mod 128 + 128) :: wr_block_loop f (v / 128).
Proof.
  cbn [wr_block_loop]. unfold to_byte, HIGHBIT.
  destruct (N.ltb_spec v 128) as [H|H].
  - destruct (N.leb_spec 128 v); [lia|]. change 0x80 with 128. rewrite last_byte by exact H. reflexivity.
  - destruct (N.leb_spec 128 v); [|lia]. rewrite cont_byte, shiftr_7. reflexivity.
Qed.

Lemma pow7_step k : 2 ^ (7 * N.of_nat (S k)) = 128 * 2 ^ (7 * N.of_nat k).
Proof.
  replace (7 * N.of_nat (S k)) with (7 + 7 * N.of_nat k) by lia.
  rewrite N.pow_add_r. reflexivity.
Qed.

Lemma rd_wr_block_loop fuel : forall v i acc k rest,
  v < 2 ^ (7 * N.of_nat fuel) -> (0 < fuel)%nat ->
  i = 7 * k -> k <= 4 -> acc < 2 ^ i -> v * 2 ^ i < 2 ^ 32 ->
  rd_block_loop (wr_block_loop fuel v ++ rest) i acc = Some (acc + v * 2 ^ i, rest).
Proof.
  induction fuel as [|f IH]; intros v i acc k rest Hv Hf Hi Hk Hacc Hmax; [lia|].
  rewrite wr_block_loop_S. destruct (N.ltb_spec v 128) as [H|H].
  - cbn [app rd_block_loop]. unfold HIGHBIT. change 0x80 with 128.
    rewrite ldiff_last, land_128_last by exact H.
    replace ((i <? 28) || (i =? 28) && (v <? 16)) with true.
    + rewrite lor_shiftl_add by exact Hacc. reflexivity.
    + symmetry. destruct (N.ltb_spec i 28) as [Hl|Hl]; [reflexivity|].
      assert (i = 28) by lia. subst i. replace k with 4 in * by lia.
      change (2 ^ (7 * 4)) with 268435456 in *. change (2^32) with 4294967296 in *. lia.
  - assert (Hk3 : k <= 3).
    { assert (k <> 4); [|lia]. intros ->. subst i.
      change (2 ^ (7 * 4)) with 268435456 in *. change (2^32) with 4294967296 in *. lia. }
    cbn [app rd_block_loop]. unfold HIGHBIT. change 0x80 with 128.
    rewrite ldiff_cont, land_128_cont by (apply N.mod_lt; lia).
    replace (i <? 28) with true by (symmetry; apply N.ltb_lt; lia). cbn [orb].
    rewrite lor_shiftl_add by exact Hacc.
    assert (Hp : 2 ^ (i + 7) = 2 ^ i * 128) by (rewrite N.pow_add_r; reflexivity).
    assert (Hm := N.mod_lt v 128 ltac:(lia)).
    assert (Hdm : v = 128 * (v / 128) + v mod 128) by (apply N.div_mod; lia).
    rewrite pow7_step in Hv.
    rewrite (IH (v / 128) (i + 7) _ (k + 1)).
    + f_equal. f_equal. rewrite Hp.
      set (q := v / 128) in *. set (m := v mod 128) in *. set (e := 2 ^ i) in *.
      rewrite Hdm at 1. nia.
    + apply N.div_lt_upper_bound; lia.
    + destruct f; [|lia]. change (2 ^ (7 * N.of_nat 0)) with 1 in Hv. lia.
    + lia.
    + lia.
    + rewrite Hp. nia.
    + rewrite Hp. nia.
Qed.

Lemma rd_wr_block v rest : v < 2 ^ 32 -> rd_block_loop (wr_block v ++ rest) 0 0 = Some (v, rest).
Proof.
  intro H. unfold wr_block.
  rewrite (rd_wr_block_loop _ v 0 0 0); try lia.
  - f_equal. f_equal. change (2^0) with 1. lia.
  - eapply N.lt_le_trans; [apply size_nat_pow7|]. apply N.pow_le_mono_r; lia.
Qed.

(** ** offset *)
Lemma seventh_null o : o < 64 -> forall b : bool,
  to_byte (N.lor o (if b then SEVENTHBIT else 0)) = o + (if b then 64 else 0).
Proof.
  intros H b. unfold to_byte, SEVENTHBIT. change 0xFF with 255. rewrite land_255.
  destruct b.
  - change 0x40 with (N.shiftl 1 6) at 1. rewrite lor_shiftl_add by exact H.
    change (1 * 2^6) with 64. apply N.mod_small. lia.
  - rewrite N.lor_0_r, N.add_0_r. apply N.mod_small. lia.
Qed.

Lemma wr_off_loop_S f o b :
  wr_off_loop (S f) o b =
  if 64 <=? o then (o mod 128 + 128) :: wr_off_loop f (o / 128) b
  else [o + (if b then 64 else 0)].
Proof.
  cbn [wr_off_loop]. unfold SEVENTHBIT. change 0x40 with 64.
  destruct (N.leb_spec 64 o) as [H|H].
  - unfold to_byte, HIGHBIT. rewrite cont_byte, shiftr_7. reflexivity.
  - change (64) with SEVENTHBIT at 1. rewrite seventh_null by exact H. reflexivity.
Qed.

Lemma off_last_facts o (b : bool) : o < 64 ->
  N.land (o + (if b then 64 else 0)) SIXMASK = o /\
  (N.land (o + (if b then 64 else 0)) HIGHBIT =? 0) = true /\
  negb (N.land (o + (if b then 64 else 0)) SEVENTHBIT =? 0) = b.
Proof.
  intro H.
  assert (Hs : forall n, n < 64 ->
    ((N.land (n + (if b then 64 else 0)) SIXMASK =? n) &&
     (N.land (n + (if b then 64 else 0)) HIGHBIT =? 0) &&
     Bool.eqb (negb (N.land (n + (if b then 64 else 0)) SEVENTHBIT =? 0)) b) = true).
  { destruct b; apply (N_sweep 64 (fun n => _)); vm_compute; reflexivity. }
  specialize (Hs o H). apply andb_true_iff in Hs as [Hs H3].
  apply andb_true_iff in Hs as [H1 H2]. apply N.eqb_eq in H1. apply eqb_prop in H3. auto.
Qed.

Lemma land63_cont x : x < 128 -> N.land (x + 128) SIXMASK = x mod 64.
Proof.
  intro H. apply N.eqb_eq.
  apply (N_sweep 128 (fun x => N.land (x + 128) SIXMASK =? x mod 64)); [vm_compute; reflexivity|exact H].
Qed.

Lemma rd_wr_off_loop fuel : forall o b i acc k rest,
  o < 2 ^ (7 * N.of_nat fuel) -> o < 64 * 2 ^ (7 * (N.of_nat fuel - 1)) -> (0 < fuel)%nat ->
  i = 7 * k -> k <= 2 -> acc < 2 ^ i -> o * 2 ^ i < 2 ^ 16 ->
  rd_off_loop (wr_off_loop fuel o b ++ rest) i acc = Some (acc + o * 2 ^ i, b, rest).
Proof.
  induction fuel as [|f IH]; intros o b i acc k rest Hv Hv2 Hf Hi Hk Hacc Hmax; [lia|].
  rewrite wr_off_loop_S. destruct (N.leb_spec 64 o) as [H|H].
  - assert (Hk3 : k <= 1).
    { assert (k <> 2); [|lia]. intros ->. subst i.
      change (2 ^ (7 * 2)) with 16384 in *. change (2^16) with 65536 in *. lia. }
    cbn [app rd_off_loop]. 
    replace (i <? 14) with true by (symmetry; apply N.ltb_lt; lia). cbn [orb].
    unfold HIGHBIT. change 0x80 with 128.
    rewrite ldiff_cont, land_128_cont by (apply N.mod_lt; lia).
    rewrite lor_shiftl_add by exact Hacc.
    assert (Hp : 2 ^ (i + 7) = 2 ^ i * 128) by (rewrite N.pow_add_r; reflexivity).
    assert (Hm := N.mod_lt o 128 ltac:(lia)).
    assert (Hdm : o = 128 * (o / 128) + o mod 128) by (apply N.div_mod; lia).
    destruct f as [|f'].
    { change (2 ^ (7 * (N.of_nat 1 - 1))) with 1 in Hv2. lia. }
    rewrite pow7_step in Hv.
    rewrite (IH (o / 128) b (i + 7) _ (k + 1)).
    + f_equal. f_equal. f_equal. rewrite Hp.
      set (q := o / 128) in *. set (m := o mod 128) in *. set (e := 2 ^ i) in *.
      rewrite Hdm at 1. nia.
    + apply N.div_lt_upper_bound; lia.
    + replace (N.of_nat (S (S f')) - 1) with (N.of_nat (S f')) in Hv2 by lia.
      replace (N.of_nat (S f') - 1) with (N.of_nat f') by lia.
      rewrite pow7_step in Hv2. apply N.div_lt_upper_bound; lia.
    + lia.
    + lia.
    + lia.
    + rewrite Hp. nia.
    + rewrite Hp. nia.
  - cbn [app rd_off_loop].
    destruct (off_last_facts o b H) as (H1 & H2 & H3).
    rewrite H1, H2, H3.
    replace ((i <? 14) || (i =? 14) && (o <? 4)) with true.
    + rewrite lor_shiftl_add by exact Hacc. reflexivity.
    + symmetry. destruct (N.ltb_spec i 14) as [Hl|Hl]; [reflexivity|].
      assert (i = 14) by lia. subst i. replace k with 2 in * by lia.
      change (2 ^ (7 * 2)) with 16384 in *. change (2^16) with 65536 in *. lia.
Qed.

Lemma rd_wr_off o b rest : o < 2 ^ 16 -> rd_off_loop (wr_off o b ++ rest) 0 0 = Some (o, b, rest).
Proof.
  intro H. unfold wr_off.
  rewrite (rd_wr_off_loop _ o b 0 0 0); try lia.
  - f_equal. f_equal. f_equal. change (2^0) with 1. lia.
  - eapply N.lt_le_trans; [apply size_nat_pow7|]. apply N.pow_le_mono_r; lia.
  - replace (N.of_nat (S (N.size_nat o)) - 1) with (N.of_nat (N.size_nat o)) by lia.
    pose proof (size_nat_pow7 o). lia.
Qed.

(** ** item pointer, both layouts *)
Lemma add_sub32 a b : a < 2 ^ 32 -> b < 2 ^ 32 -> add32 (sub32 a b) b = a.
Proof. unfold add32, sub32. change (2^32) with 4294967296. intros. lia. Qed.

Lemma sub32_lt a b : sub32 a b < 2 ^ 32.
Proof. unfold sub32. apply N.mod_lt. discriminate. Qed.

Lemma read_write_ip p prev b rest : ip_ok p -> ip_ok prev ->
  rumDataPageLeafReadItemPointer (rumDataPageLeafWriteItemPointer false p prev b ++ rest) prev
  = Some (p, b, rest).
Proof.
  intros [Hb Ho] [Hpb Hpo]. unfold rumDataPageLeafReadItemPointer, rumDataPageLeafWriteItemPointer.
  rewrite <- app_assoc, rd_wr_block by apply sub32_lt.
  rewrite rd_wr_off by exact Ho. rewrite add_sub32 by assumption. destruct p; reflexivity.
Qed.

Lemma le_read_bytes n : forall v, v < 2 ^ (8 * N.of_nat n) -> le_read (le_bytes n v) = v.
Proof.
  induction n as [|n IH]; intros v H.
  - change (2 ^ (8 * N.of_nat 0)) with 1 in H. simpl. lia.
  - cbn [le_bytes le_read]. rewrite shiftr_8.
    assert (Hp : 2 ^ (8 * N.of_nat (S n)) = 256 * 2 ^ (8 * N.of_nat n)).
    { replace (8 * N.of_nat (S n)) with (8 + 8 * N.of_nat n) by lia. rewrite N.pow_add_r. reflexivity. }
    rewrite IH by (apply N.div_lt_upper_bound; lia).
    change 0xFF with 255. rewrite land_255.
    rewrite lor_shiftl_add by (change (2^8) with 256; apply N.mod_lt; lia).
    change (2^8) with 256. lia.
Qed.

Lemma le_bytes_length n v : length (le_bytes n v) = n.
Proof. revert v. induction n; intro v; simpl; [reflexivity|f_equal; apply IHn]. Qed.

Lemma le_bytes_2 v : le_bytes 2 v = [N.land v 255; N.land (N.shiftr v 8) 255].
Proof. reflexivity. Qed.

Lemma alt_flag_facts o : o < 2 ^ 15 ->
  (N.land o ALT_ADD_INFO_NULL_FLAG =? 0) = true /\
  N.lor o ALT_ADD_INFO_NULL_FLAG = o + 32768 /\
  (N.land (N.lor o ALT_ADD_INFO_NULL_FLAG) ALT_ADD_INFO_NULL_FLAG =? 0) = false /\
  N.ldiff (N.lor o ALT_ADD_INFO_NULL_FLAG) ALT_ADD_INFO_NULL_FLAG = o.
Proof.
  intro H. unfold ALT_ADD_INFO_NULL_FLAG.
  assert (H0 : N.land o 0x8000 = 0).
  { apply N.bits_inj. intro n. rewrite N.land_spec, N.bits_0.
    change 0x8000 with (2^15). rewrite N.pow2_bits_eqb.
    destruct (N.eqb_spec 15 n) as [<-|]; [|apply andb_false_r].
    destruct (N.eq_dec o 0) as [->|Hz]; [reflexivity|].
    rewrite N.bits_above_log2; [reflexivity|]. apply N.log2_lt_pow2; lia. }
  split; [rewrite H0; reflexivity|].
  split. { change 0x8000 with (N.shiftl 1 15) at 1. rewrite lor_shiftl_add by exact H. reflexivity. }
  split.
  - rewrite N.land_lor_distr_l, H0. reflexivity.
  - apply N.bits_inj. intro n. rewrite N.ldiff_spec, N.lor_spec.
    assert (Hn := f_equal (fun x => N.testbit x n) H0). cbv beta in Hn.
    rewrite N.land_spec, N.bits_0 in Hn.
    destruct (N.testbit o n), (N.testbit 0x8000 n); try reflexivity; discriminate.
Qed.

Lemma read_write_alt p prev b rest : ip_ok p -> off p < 2 ^ 15 ->
  read_alt_pointer (rumDataPageLeafWriteItemPointer true p prev b ++ rest) = Some (p, b, rest).
Proof.
  intros [Hb Ho] Ho'. unfold rumDataPageLeafWriteItemPointer.
  rewrite <- !app_assoc. rewrite !le_bytes_2. cbn [app read_alt_pointer].
  assert (Hhi : N.shiftr (blk p) 16 < 2 ^ 16).
  { rewrite N.shiftr_div_pow2. apply N.div_lt_upper_bound; [discriminate|].
    change (2^16*2^16) with (2^32). exact Hb. }
  assert (Hlo : N.land (blk p) 0xFFFF < 2 ^ 16).
  { change 0xFFFF with (N.ones 16). rewrite N.land_ones. apply N.mod_lt. discriminate. }
  rewrite <- !le_bytes_2.
  rewrite !le_read_bytes; try (change (2 ^ (8 * N.of_nat 2)) with (2^16)); try assumption.
  - assert (Hblk : N.lor (N.shiftl (N.shiftr (blk p) 16) 16) (N.land (blk p) 0xFFFF) = blk p).
    { rewrite N.lor_comm, lor_shiftl_add by exact Hlo.
      change 0xFFFF with (N.ones 16). rewrite N.land_ones, N.shiftr_div_pow2.
      rewrite N.add_comm, N.mul_comm. symmetry. apply N.div_mod. discriminate. }
    rewrite Hblk.
    destruct (alt_flag_facts (off p) Ho') as (F1 & F2 & F3 & F4).
    destruct b.
    + rewrite F3, F4. destruct p; reflexivity.
    + rewrite F1. destruct p; reflexivity.
  - destruct (alt_flag_facts (off p) Ho') as (F1 & F2 & F3 & F4).
    destruct b; [rewrite F2|]; change (2^16) with 65536; change (2^15) with 32768 in *; lia.
Qed.

(** ** attached values *)
From Verif Require Import CodecSpec.

Lemma nlen_app {A} (x y : list A) : nlen (x ++ y) = nlen x + nlen y.
Proof. unfold nlen. rewrite app_length. lia. Qed.
Lemma nlen_cons {A} (x : A) (y : list A) : nlen (x :: y) = 1 + nlen y.
Proof. unfold nlen. simpl. lia. Qed.
Lemma nlen_zeros n : nlen (zeros n) = n.
Proof. unfold nlen, zeros. rewrite repeat_length. lia. Qed.
Lemma nlen_le_bytes n v : nlen (le_bytes n v) = N.of_nat n.
Proof. unfold nlen. rewrite le_bytes_length. reflexivity. Qed.

Lemma take_app n (x rest : list byte) : length x = n -> take n (x ++ rest) = Some (x, rest).
Proof.
  intros H. unfold take. rewrite app_length.
  destruct (Nat.leb_spec n (length x + length rest)); [|lia].
  subst n. rewrite firstn_app, skipn_app, Nat.sub_diag, firstn_all, skipn_all. simpl.
  rewrite app_nil_r. reflexivity.
Qed.

Lemma align_ge a pos : legal_align a -> pos <= align_to a pos.
Proof. unfold align_to. intros [->|[->|[->| ->]]]; lia. Qed.
Lemma align_lt a pos : legal_align a -> align_to a pos < pos + 8.
Proof. unfold align_to. intros [->|[->|[->| ->]]]; lia. Qed.
Lemma align_idem a pos : legal_align a -> align_to a (align_to a pos) = align_to a pos.
Proof. unfold align_to. intros [->|[->|[->| ->]]]; lia. Qed.
Lemma align_mono a p q : legal_align a -> p <= q -> align_to a p <= align_to a q.
Proof. unfold align_to. intros [->|[->|[->| ->]]]; lia. Qed.
Lemma align_shift a p k : legal_align a -> align_to a (p + 8 * k) = align_to a p + 8 * k.
Proof. unfold align_to. intros [->|[->|[->| ->]]]; lia. Qed.

(** The form in which a datum comes back. *)
Definition stored (a : attr) (d : datum) : datum :=
  match a, d with
  | AVar _ pk, DVar V4U p => if pk && can_make_short d then DVar V1 p else d
  | _, _ => d
  end.

Lemma stored_value a d : value_of (stored a d) = value_of d.
Proof.
  destruct a as [| |al pk]; try reflexivity. destruct d as [| |[] p]; try reflexivity.
  cbn [stored]. destruct (pk && can_make_short _); reflexivity.
Qed.

Lemma short_hdr n : n <= 127 -> 1 <= n ->
  let h := to_byte (N.lor (N.shiftl n 1) 1) in
  (N.land h 1 =? 1) = true /\ (h =? 1) = false /\ (h =? 0) = false /\ N.shiftr h 1 = n.
Proof.
  intros H H1.
  assert (Hs : forall m, m < 128 -> ((m =? 0) || let h := to_byte (N.lor (N.shiftl m 1) 1) in
     (N.land h 1 =? 1) && negb (h =? 1) && negb (h =? 0) && (N.shiftr h 1 =? m)) = true).
  { apply (N_sweep 128 (fun m => _)). vm_compute. reflexivity. }
  specialize (Hs n ltac:(lia)). cbv zeta in *.
  destruct (N.eqb_spec n 0); [lia|]. cbn [orb] in Hs.
  apply andb_true_iff in Hs as [Hs H4]. apply andb_true_iff in Hs as [Hs H3].
  apply andb_true_iff in Hs as [Hs H2]. apply N.eqb_eq in H4.
  apply negb_true_iff in H2, H3. auto.
Qed.

Lemma long_hdr n (c : bool) rest : n < 2 ^ 30 ->
  let w := if c then N.lor (N.shiftl n 2) 2 else N.shiftl n 2 in
  exists h r, le_bytes 4 w ++ rest = h :: r /\
    (N.land h 1 =? 1) = false /\ (N.land h 3 =? 2) = c /\
    take 4 (h :: r) = Some (le_bytes 4 w, rest) /\ N.shiftr (le_read (le_bytes 4 w)) 2 = n.
Proof.
  intros H w.
  assert (Hw : w = 4 * n + (if c then 2 else 0)).
  { unfold w. destruct c.
    - rewrite N.lor_comm, lor_shiftl_add by reflexivity. change (2^2) with 4. lia.
    - rewrite N.shiftl_mul_pow2. change (2^2) with 4. lia. }
  assert (Hb : le_bytes 4 w = N.land w 255 :: le_bytes 3 (N.shiftr w 8)) by reflexivity.
  exists (N.land w 255), (le_bytes 3 (N.shiftr w 8) ++ rest).
  assert (Hl1 : N.land (N.land w 255) 1 = w mod 2).
  { rewrite <- N.land_assoc. change (N.land 255 1) with (N.ones 1). apply N.land_ones. }
  assert (Hl3 : N.land (N.land w 255) 3 = w mod 4).
  { rewrite <- N.land_assoc. change (N.land 255 3) with (N.ones 2). apply N.land_ones. }
  rewrite Hl1, Hl3.
  split; [reflexivity|]. split; [destruct c; lia|]. split; [destruct c; lia|].
  split.
  - change (N.land w 255 :: le_bytes 3 (N.shiftr w 8) ++ rest) with (le_bytes 4 w ++ rest).
    apply take_app. apply le_bytes_length.
  - rewrite le_read_bytes. 2:{ change (2 ^ (8 * N.of_nat 4)) with 4294967296.
      change (2^30) with 1073741824 in H. destruct c; lia. }
    rewrite N.shiftr_div_pow2. change (2^2) with 4. destruct c; lia.
Qed.

Lemma datum_write_ok pos a d : datum_ok a d -> exists w, rumDatumWrite pos a d = Some w.
Proof.
  destruct a as [n|n al|al pk], d as [v|bs|[] p]; cbn [datum_ok rumDatumWrite]; try contradiction;
    intro H; try (eexists; reflexivity).
  - destruct H as [Hn _]. destruct Hn as [->|[->|[->| ->]]]; eexists; reflexivity.
  - destruct (pk && can_make_short _); eexists; reflexivity.
Qed.

Lemma datum_size_eq pos a d w : datum_ok a d -> rumDatumWrite pos a d = Some w ->
  rumComputeDatumSize pos a d = pos + nlen w.
Proof.
  destruct a as [n|n al|al pk], d as [v|bs|f p]; cbn [datum_ok rumDatumWrite rumComputeDatumSize];
    try contradiction.
  - intros [Hn _] H.
    destruct Hn as [->|[->|[->| ->]]]; cbn in H; apply Some_inj in H; subst w; unfold nlen; simpl length; lia.
  - intros [Hal Hl] H. apply Some_inj in H; subst w. rewrite nlen_app, nlen_zeros. unfold nlen at 1. rewrite Hl.
    pose proof (align_ge al pos Hal). lia.
  - destruct f; cbn [varsize]; try contradiction.
    + intros [Hal Hl] H. apply Some_inj in H; subst w.
      cbn [can_make_short]. rewrite andb_false_r. rewrite nlen_cons. lia.
    + intros [Hal Hl] H. destruct (pk && can_make_short (DVar V4U p)) eqn:E.
      * apply Some_inj in H; subst w. rewrite nlen_cons. lia.
      * apply Some_inj in H; subst w. rewrite !nlen_app, nlen_zeros, nlen_le_bytes.
        pose proof (align_ge al pos Hal). lia.
    + intros [Hal Hl] H. apply Some_inj in H; subst w. cbn [can_make_short]. rewrite andb_false_r.
      rewrite !nlen_app, nlen_zeros, nlen_le_bytes.
      pose proof (align_ge al pos Hal). lia.
Qed.

(* skipping padding: what att_align_pointer does on a 4-byte-header varlena *)
Lemma var_start al pos h r : legal_align al ->
  (match zeros (align_to al pos - pos) ++ h :: r with
   | [] => None
   | b :: _ => if b =? 0
     then match take (N.to_nat (align_to al pos - pos)) (zeros (align_to al pos - pos) ++ h :: r) with
          | Some (_, r') => Some (align_to al pos, r') | None => None end
     else Some (pos, zeros (align_to al pos - pos) ++ h :: r)
   end) = Some (align_to al pos, h :: r).
Proof.
  intro Hal. pose proof (align_ge al pos Hal) as Hge.
  assert (Hz : length (zeros (align_to al pos - pos)) = N.to_nat (align_to al pos - pos))
    by (unfold zeros; apply repeat_length).
  rewrite take_app by exact Hz.
  unfold zeros. destruct (N.to_nat (align_to al pos - pos)) eqn:E.
  - cbn [repeat app]. assert (align_to al pos = pos) as -> by lia. destruct (h =? 0); reflexivity.
  - cbn [repeat app]. reflexivity.
Qed.

Lemma datum_read_write pos a d w rest : datum_ok a d -> rumDatumWrite pos a d = Some w ->
  rumDatumRead pos a (w ++ rest) = Some (stored a d, pos + nlen w, rest).
Proof.
  intros Hok Hw. assert (Hsz := datum_size_eq pos a d w Hok Hw). revert Hok Hw.
  destruct a as [n|n al|al pk], d as [v|bs|f p]; cbn [datum_ok rumDatumWrite];
    try contradiction.
  - intros [Hn Hv] H. cbn [rumDatumRead stored].
    assert (w = le_bytes n v) as ->.
    { destruct Hn as [->|[->|[->| ->]]]; cbn [existsb Nat.eqb orb] in H; apply Some_inj in H; subst w; reflexivity. }
    rewrite take_app by apply le_bytes_length. rewrite le_read_bytes by exact Hv.
    rewrite nlen_le_bytes. reflexivity.
  - intros [Hal Hl] H. apply Some_inj in H; subst w. cbn [rumDatumRead stored].
    rewrite <- app_assoc, take_app by (unfold zeros; apply repeat_length).
    rewrite take_app by exact Hl. rewrite <- Hsz. reflexivity.
  - destruct f; try contradiction; intros [Hal Hl] H.
    + apply Some_inj in H; subst w. cbn [rumDatumRead stored].
      destruct (short_hdr (nlen p + 1) ltac:(lia) ltac:(lia)) as (E1 & E2 & E3 & E4).
      cbn [app]. rewrite E3. cbn [app]. rewrite E1, E2, E4.
      rewrite take_app by (unfold nlen; lia).
      rewrite nlen_cons. do 3 f_equal. lia.
    + destruct (pk && can_make_short (DVar V4U p)) eqn:E.
      * apply Some_inj in H; subst w. cbn [rumDatumRead stored]. rewrite E.
        assert (Hs : nlen p + 1 <= 127).
        { apply andb_true_iff in E as [_ E]. cbn [can_make_short] in E. apply N.leb_le in E. exact E. }
        destruct (short_hdr (nlen p + 1) Hs ltac:(lia)) as (E1 & E2 & E3 & E4).
        cbn [app]. rewrite E3. cbn [app]. rewrite E1, E2, E4.
        rewrite take_app by (unfold nlen; lia).
        rewrite nlen_cons. do 3 f_equal. lia.
      * apply Some_inj in H; subst w.
        destruct (long_hdr (nlen p + 4) false (p ++ rest) Hl) as (h & r & F1 & F2 & F3 & F4 & F5).
        cbn [rumDatumRead stored]. rewrite E.
        rewrite <- !app_assoc. cbv zeta in F1, F4, F5. rewrite F1.
        rewrite var_start by exact Hal. rewrite F2, F4, F5.
        destruct (N.ltb_spec (nlen p + 4) 4); [lia|].
        rewrite take_app by (unfold nlen; lia). rewrite F3.
        do 3 f_equal. rewrite !nlen_app, nlen_zeros, nlen_le_bytes.
        pose proof (align_ge al pos Hal). lia.
    + apply Some_inj in H; subst w.
      destruct (long_hdr (nlen p + 4) true (p ++ rest) Hl) as (h & r & F1 & F2 & F3 & F4 & F5).
      cbn [rumDatumRead stored].
      rewrite <- !app_assoc. cbv zeta in F1, F4, F5. rewrite F1.
      rewrite var_start by exact Hal. rewrite F2, F4, F5.
      destruct (N.ltb_spec (nlen p + 4) 4); [lia|].
      rewrite take_app by (unfold nlen; lia). rewrite F3.
      do 3 f_equal. rewrite !nlen_app, nlen_zeros, nlen_le_bytes.
      pose proof (align_ge al pos Hal). lia.
Qed.

(** ** items and lists *)
Definition stored_item (a : attr) (it : item datum) : item datum :=
  mkItem (ip it) (match add it with None => None | Some d => Some (stored a d) end).

Lemma stored_row a it : row_of (stored_item a it) = row_of it.
Proof.
  unfold row_of, stored_item. simpl. destruct (add it) as [d|]; [|reflexivity].
  rewrite stored_value. reflexivity.
Qed.

Lemma item_read_write alt a pos it prev w rest :
  item_ok alt a it -> ip_ok prev -> rumPlaceToDataPageLeaf alt a pos it prev = Some w ->
  rumDataPageLeafRead alt a pos (w ++ rest) prev = Some (stored_item a it, pos + nlen w, rest).
Proof.
  intros (Hip & Halt & Hd) Hprev. unfold rumPlaceToDataPageLeaf, rumDataPageLeafRead.
  assert (Hrd : forall b r,
    (if alt then read_alt_pointer (rumDataPageLeafWriteItemPointer alt (ip it) prev b ++ r)
     else rumDataPageLeafReadItemPointer (rumDataPageLeafWriteItemPointer alt (ip it) prev b ++ r) prev)
    = Some (ip it, b, r)).
  { intros b r. destruct alt; [apply read_write_alt; auto|apply read_write_ip; auto]. }
  unfold stored_item. destruct (add it) as [d|].
  - specialize (Hrd false).
    set (wp := rumDataPageLeafWriteItemPointer alt (ip it) prev false) in *.
    destruct (rumDatumWrite (pos + nlen wp) a d) as [wd|] eqn:Ew; [|discriminate].
    intro H. apply Some_inj in H; subst w. rewrite <- app_assoc, Hrd.
    replace (pos + (nlen (wp ++ wd ++ rest) - nlen (wd ++ rest))) with (pos + nlen wp)
      by (rewrite !nlen_app; lia).
    rewrite (datum_read_write _ _ _ _ _ Hd Ew). rewrite nlen_app. do 3 f_equal. lia.
  - intro H. apply Some_inj in H; subst w. rewrite Hrd. do 3 f_equal. rewrite nlen_app. lia.
Qed.

Lemma item_write_ok alt a pos it prev : item_ok alt a it ->
  exists w, rumPlaceToDataPageLeaf alt a pos it prev = Some w.
Proof.
  intros (_ & _ & Hd). unfold rumPlaceToDataPageLeaf. destruct (add it) as [d|].
  - destruct (datum_write_ok (pos + nlen (rumDataPageLeafWriteItemPointer alt (ip it) prev false)) a d Hd)
      as [w Hw]. rewrite Hw. eexists; reflexivity.
  - eexists; reflexivity.
Qed.

Lemma posting_write_ok alt a its : forall pos prev, Forall (item_ok alt a) its ->
  exists bs, writePostingList alt a pos its prev = Some bs.
Proof.
  induction its as [|it its IH]; intros pos prev H; cbn [writePostingList]; [eexists; reflexivity|].
  apply Forall_cons_iff in H as [Hi Hr].
  destruct (item_write_ok alt a pos it prev Hi) as [w ->].
  destruct (IH (pos + nlen w) (ip it) Hr) as [ws ->]. eexists; reflexivity.
Qed.

Lemma posting_read_write alt a its : forall pos prev bs rest,
  Forall (item_ok alt a) its -> ip_ok prev ->
  writePostingList alt a pos its prev = Some bs ->
  rumReadTuple alt a (length its) pos (bs ++ rest) prev = Some (map (stored_item a) its).
Proof.
  induction its as [|it its IH]; intros pos prev bs rest H Hprev; cbn [writePostingList length rumReadTuple map];
    [reflexivity|].
  apply Forall_cons_iff in H as [Hi Hr].
  destruct (rumPlaceToDataPageLeaf alt a pos it prev) as [w|] eqn:Ew; [|discriminate].
  destruct (writePostingList alt a (pos + nlen w) its (ip it)) as [ws|] eqn:Ews; [|discriminate].
  intro E. injection E as <-. rewrite <- app_assoc.
  rewrite (item_read_write _ _ _ _ _ _ _ Hi Hprev Ew). cbn [ip stored_item].
  rewrite (IH _ _ _ _ Hr (proj1 Hi) Ews). reflexivity.
Qed.

Lemma posting_round_trip alt a its pos : Forall (item_ok alt a) its ->
  exists bs, writePostingList alt a pos its ip_min = Some bs /\
    forall rest, exists its',
      rumReadTuple alt a (length its) pos (bs ++ rest) ip_min = Some its' /\
      map row_of its' = map row_of its.
Proof.
  intro H. destruct (posting_write_ok alt a its pos ip_min H) as [bs Hbs].
  exists bs. split; [exact Hbs|]. intro rest. exists (map (stored_item a) its). split.
  - apply posting_read_write; auto. split; reflexivity.
  - rewrite map_map. apply map_ext. intro it. apply stored_row.
Qed.

(** ** sizes *)
Lemma sz_block_len f : forall v, sz_block_loop f v = nlen (wr_block_loop f v).
Proof.
  induction f as [|f IH]; intro v; cbn [sz_block_loop wr_block_loop]; [reflexivity|].
  destruct (v <? HIGHBIT); [reflexivity|]. rewrite nlen_cons, IH. reflexivity.
Qed.
Lemma sz_off_len f b : forall o, sz_off_loop f o = nlen (wr_off_loop f o b).
Proof.
  induction f as [|f IH]; intro v; cbn [sz_off_loop wr_off_loop]; [reflexivity|].
  unfold SEVENTHBIT. destruct (N.ltb_spec v 0x40), (N.leb_spec 0x40 v); try lia; [reflexivity|].
  rewrite nlen_cons, IH. reflexivity.
Qed.

Lemma ip_size_eq alt p prev b :
  nlen (rumDataPageLeafWriteItemPointer alt p prev b) =
  if alt then 6 else rumDataPageLeafGetItemPointerSize p prev.
Proof.
  unfold rumDataPageLeafWriteItemPointer. destruct alt.
  - rewrite !nlen_app, !nlen_le_bytes. reflexivity.
  - rewrite nlen_app. unfold rumDataPageLeafGetItemPointerSize, wr_block, wr_off.
    rewrite sz_block_len, (sz_off_len _ b). reflexivity.
Qed.

Lemma item_size_eq alt a pos it prev w : item_ok alt a it ->
  rumPlaceToDataPageLeaf alt a pos it prev = Some w ->
  rumCheckPlaceToDataPageLeaf alt a it prev pos = pos + nlen w.
Proof.
  intros (_ & _ & Hd). unfold rumPlaceToDataPageLeaf, rumCheckPlaceToDataPageLeaf.
  destruct (add it) as [d|].
  - set (wp := rumDataPageLeafWriteItemPointer alt (ip it) prev false).
    assert (Hwp : nlen wp = if alt then 6 else rumDataPageLeafGetItemPointerSize (ip it) prev)
      by apply ip_size_eq.
    replace (if alt then pos + 6 else pos + rumDataPageLeafGetItemPointerSize (ip it) prev)
      with (pos + nlen wp) by (rewrite Hwp; destruct alt; reflexivity).
    destruct (rumDatumWrite (pos + nlen wp) a d) as [wd|] eqn:Ew; [|discriminate].
    intro H. apply Some_inj in H; subst w. rewrite (datum_size_eq _ _ _ _ Hd Ew), nlen_app. lia.
  - intro H. apply Some_inj in H; subst w. rewrite ip_size_eq. destruct alt; reflexivity.
Qed.

Lemma posting_size_eq alt a its : forall pos prev bs, Forall (item_ok alt a) its ->
  writePostingList alt a pos its prev = Some bs ->
  postingListSize alt a its prev pos = pos + nlen bs.
Proof.
  induction its as [|it its IH]; intros pos prev bs H; cbn [writePostingList postingListSize].
  - intro E. injection E as <-. unfold nlen. simpl. lia.
  - apply Forall_cons_iff in H as [Hi Hr].
    destruct (rumPlaceToDataPageLeaf alt a pos it prev) as [w|] eqn:Ew; [|discriminate].
    destruct (writePostingList alt a (pos + nlen w) its (ip it)) as [ws|] eqn:Ews; [|discriminate].
    intro E. injection E as <-.
    rewrite (item_size_eq _ _ _ _ _ _ Hi Ew), (IH _ _ _ Hr Ews), nlen_app. lia.
Qed.

(** byte sizes are monotone in the value *)
Lemma sz_block_mono f : forall v f' v', v <= v' -> v' < 2 ^ (7 * N.of_nat f') -> (0 < f')%nat ->
  sz_block_loop f v <= sz_block_loop f' v'.
Proof.
  induction f as [|f IH]; intros v f' v' Hv Hf' Hpos; cbn [sz_block_loop]; [lia|].
  destruct f' as [|f']; [lia|]. cbn [sz_block_loop]. unfold HIGHBIT. rewrite !shiftr_7.
  destruct (N.ltb_spec v 0x80) as [H|H].
  - destruct (v' <? 0x80); lia.
  - destruct (N.ltb_spec v' 0x80) as [H'|H']; [lia|].
    rewrite pow7_step in Hf'.
    assert (sz_block_loop f (v / 128) <= sz_block_loop f' (v' / 128)); [|lia].
    apply IH.
    + lia.
    + apply N.div_lt_upper_bound; lia.
    + destruct f'; [|lia]. change (2 ^ (7 * N.of_nat 0)) with 1 in Hf'. lia.
Qed.

Lemma ip_size_worst p prev : blk prev <= blk p -> blk p < 2 ^ 32 ->
  rumDataPageLeafGetItemPointerSize p prev <= rumDataPageLeafGetItemPointerSize p ip_min.
Proof.
  intros H Hp. unfold rumDataPageLeafGetItemPointerSize.
  assert (E : forall b, b <= blk p -> sub32 (blk p) b = blk p - b).
  { intros b Hb. unfold sub32. change (2^32) with 4294967296 in *. lia. }
  rewrite (E (blk prev) H), (E (blk ip_min)) by (simpl; lia).
  assert (sz_block_loop (S (N.size_nat (blk p - blk prev))) (blk p - blk prev) <=
          sz_block_loop (S (N.size_nat (blk p - blk ip_min))) (blk p - blk ip_min)); [|lia].
  apply sz_block_mono; [simpl; lia| |lia].
  eapply N.lt_le_trans; [apply size_nat_pow7|]. apply N.pow_le_mono_r; lia.
Qed.

Lemma datum_size_bound a d p0 p : datum_ok a d ->
  rumComputeDatumSize p a d - p <= rumComputeDatumSize p0 a d - p0 + 7.
Proof.
  destruct a as [n|n al|al pk], d as [v|bs|f pl]; cbn [datum_ok rumComputeDatumSize];
    try contradiction.
  - lia.
  - intros [Hal _]. pose proof (align_lt al p Hal). pose proof (align_ge al p0 Hal).
    pose proof (align_ge al p Hal). lia.
  - destruct f; try contradiction; intros [Hal _];
      destruct (pk && can_make_short _); try lia;
      pose proof (align_lt al p Hal); pose proof (align_ge al p0 Hal);
      pose proof (align_ge al p Hal); lia.
Qed.
Lemma datum_size_ge a d p : datum_ok a d -> p <= rumComputeDatumSize p a d.
Proof.
  destruct a as [n|n al|al pk], d as [v|bs|f pl]; cbn [datum_ok rumComputeDatumSize];
    try contradiction.
  - lia.
  - intros [Hal _]. pose proof (align_ge al p Hal). lia.
  - destruct f; try contradiction; intros [Hal _];
      destruct (pk && can_make_short _); try lia; pose proof (align_ge al p Hal); lia.
Qed.

Lemma room_check_bound alt a it prev pos free :
  item_ok alt a it -> blk prev <= blk (ip it) ->
  dataIsEnoughSpaceLeaf alt a it free = true ->
  rumCheckPlaceToDataPageLeaf alt a it prev pos <= pos + free.
Proof.
  intros (Hip & _ & Hd) Hprev. unfold dataIsEnoughSpaceLeaf. intro Hf. apply N.leb_le in Hf.
  unfold rumCheckPlaceToDataPageLeaf in *.
  assert (Hw := ip_size_worst (ip it) prev Hprev (proj1 Hip)).
  destruct (add it) as [d|].
  - destruct alt.
    + pose proof (datum_size_bound a d (0 + 6) (pos + 6) Hd).
      pose proof (datum_size_ge a d (0 + 6) Hd). lia.
    + set (s := rumDataPageLeafGetItemPointerSize (ip it) prev) in *.
      set (s0 := rumDataPageLeafGetItemPointerSize (ip it) ip_min) in *.
      pose proof (datum_size_bound a d (0 + s0) (pos + s) Hd).
      pose proof (datum_size_ge a d (0 + s0) Hd). lia.
  - destruct alt; lia.
Qed.
