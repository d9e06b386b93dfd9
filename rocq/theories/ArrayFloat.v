(** Proofs: the float8 arithmetic of array similarity (C30). *)
From Coq Require Import NArith ZArith Lia List Bool Arith SpecFloat Zpower.
From Verif Require Import Array.
Local Open Scope Z_scope.

Lemma digits_log p : Zdigits2 (Zpos p) = Z.log2 (Zpos p) + 1.
Proof.
  assert (H : digits2_pos p = Pos.size p) by (induction p as [p IH|p IH|]; cbn; congruence). cbn [Zdigits2]. rewrite H. destruct p; cbn; lia.
Qed.
Lemma digits_pos m : 0 < m -> Zdigits2 m = Z.log2 m + 1.
Proof. destruct m as [|p|p]; try lia. intros _. apply digits_log. Qed.

(** Positive and at least 1. *)
Definition big (x : float8) : Prop :=
  match x with S754_finite false m e => 0 <= Z.log2 (Zpos m) + e | S754_infinity false => True | _ => False end.

Lemma shr1_log r : 2 <= shr_m r -> 0 < shr_m (shr_1 r) /\ Z.log2 (shr_m (shr_1 r)) = Z.log2 (shr_m r) - 1.
Proof.
  destruct r as [m rr s]. cbn [shr_m]. destruct m as [|p|p]; try lia. intro H. destruct p as [p|p|]; cbn [shr_1 shr_m]; try lia; (split; [lia|]).
  - change (Zpos p~1) with (2 * Zpos p + 1). rewrite Z.log2_succ_double by lia. lia.
  - change (Zpos p~0) with (2 * Zpos p). rewrite Z.log2_double by lia. lia.
Qed.
Lemma iter_log n : forall r, 0 < shr_m r -> Zpos n <= Z.log2 (shr_m r) ->
  0 < shr_m (iter_pos shr_1 n r) /\ Z.log2 (shr_m (iter_pos shr_1 n r)) = Z.log2 (shr_m r) - Zpos n.
Proof.
  assert (two : forall m, 1 <= Z.log2 m -> 2 <= m) by (intros m H; destruct (Z.le_gt_cases 2 m) as [|G]; [assumption|]; pose proof (Z.log2_le_mono m 1 ltac:(lia)) as H1; change (Z.log2 1) with 0 in H1; lia).
  induction n as [n IH|n IH|]; intros r P L; cbn [iter_pos].
  - destruct (shr1_log r) as [P1 L1]; [apply two; lia|]. destruct (IH (shr_1 r)) as [P2 L2]; [exact P1|lia|]. destruct (IH (iter_pos shr_1 n (shr_1 r))) as [P3 L3]; [exact P2|lia|]. split; [exact P3|lia].
  - destruct (IH r) as [P2 L2]; [exact P|lia|]. destruct (IH (iter_pos shr_1 n r)) as [P3 L3]; [exact P2|lia|]. split; [exact P3|lia].
  - apply shr1_log. apply two. lia.
Qed.
Lemma record_m m l : shr_m (shr_record_of_loc m l) = m.
Proof. destruct l as [|[| |]]; reflexivity. Qed.
Lemma shr_big m e l : 0 < m -> 0 <= Z.log2 m + e -> let '(r, e') := shr_fexp 53 1024 m e l in 0 < shr_m r /\ 0 <= Z.log2 (shr_m r) + e'.
Proof.
  intros Hm H. unfold shr_fexp, shr, fexp, emin. rewrite (digits_pos m Hm).
  set (n := Z.max (Z.log2 m + 1 + e - 53) (3 - 1024 - 53) - e). destruct n as [|p|p] eqn:En; try (rewrite record_m; auto).
  destruct (iter_log p (shr_record_of_loc m l)) as [P L]; rewrite ?record_m; [exact Hm|lia|]. rewrite record_m in L. split; [exact P|lia].
Qed.
Lemma even_le m l : 0 < m -> 0 < round_nearest_even m l /\ Z.log2 m <= Z.log2 (round_nearest_even m l).
Proof.
  intro H. assert (A : m <= round_nearest_even m l <= m + 1) by (destruct l as [|[| |]]; cbn; try destruct (Z.even m); lia). split; [lia|]. apply Z.log2_le_mono. lia.
Qed.
Lemma round_big m e l : 0 < m -> 0 <= Z.log2 m + e -> big (binary_round_aux 53 1024 false m e l).
Proof.
  intros Hm H. unfold binary_round_aux. pose proof (shr_big m e l Hm H) as S1. destruct (shr_fexp 53 1024 m e l) as [r e1]. destruct S1 as [P1 L1].
  destruct (even_le (shr_m r) (loc_of_shr_record r) P1) as [P2 L2]. set (m2 := round_nearest_even (shr_m r) (loc_of_shr_record r)) in *.
  pose proof (shr_big m2 e1 loc_Exact P2 ltac:(lia)) as S2. destruct (shr_fexp 53 1024 m2 e1 loc_Exact) as [r2 e2]. destruct S2 as [P3 L3].
  destruct (shr_m r2) as [|p|p]; try lia. destruct (_ <=? _); [exact L3|exact I].
Qed.
Lemma shift_log d m : Z.log2 (Zpos (shift_pos d m)) = Z.log2 (Zpos m) + Zpos d.
Proof. rewrite shift_pos_correct, Z.mul_comm. change (Z.pow_pos 2 d) with (2 ^ Zpos d). rewrite Z.log2_mul_pow2 by lia. lia. Qed.
Lemma align_log m e e' : let '(m', e2) := shl_align m e e' in Z.log2 (Zpos m') + e2 = Z.log2 (Zpos m) + e.
Proof. unfold shl_align. destruct (e' - e) as [|p|p] eqn:E; try reflexivity. rewrite shift_log. lia. Qed.
Lemma normalize_big p e : 0 <= Z.log2 (Zpos p) + e -> big (binary_normalize 53 1024 (Zpos p) e false).
Proof.
  intro H. cbn [binary_normalize]. unfold binary_round. pose proof (align_log p e (fexp 53 1024 (Zpos (digits2_pos p) + e))) as L. destruct (shl_align _ _ _) as [m' e']. apply round_big; lia.
Qed.
Lemma of_int_big n : 1 <= n -> big (of_int n).
Proof. intro H. unfold of_int. destruct n as [|p|p]; try lia. apply normalize_big. pose proof (Z.log2_nonneg (Zpos p)). lia. Qed.
Lemma mul_big x y : big x -> big y -> big (fmul x y).
Proof.
  intros Hx Hy. destruct x as [|[]| |[] mx ex]; try solve [destruct Hx]; destruct y as [|[]| |[] my ey]; try solve [destruct Hy]; try exact I. unfold fmul. cbn [big SFmul xorb] in *. apply round_big; [lia|]. rewrite Pos2Z.inj_mul. pose proof (Z.log2_mul_below (Zpos mx) (Zpos my)). lia.
Qed.
Lemma sqrt_big x : big x -> big (fsqrt x).
Proof.
  intro H. destruct x as [|[]| |[] m e]; try solve [destruct H]; try exact I. unfold fsqrt. cbn [big SFsqrt] in *. unfold SFsqrt_core_binary. rewrite digits_log.
  set (e' := Z.min _ _). assert (He : 2 * e' <= e) by (assert (e' <= Z.div2 e) by apply Z.le_min_r; rewrite Z.div2_div in *; pose proof (Z.mul_div_le e 2); lia). clearbody e'.
  assert (Hm' : exists m', match e - 2 * e' with Z0 => Zpos m | Zpos p => Z.shiftl (Zpos m) (e - 2 * e') | Zneg _ => 0 end = m' /\ 0 < m' /\ 0 <= Z.log2 m' + 2 * e').
  { eexists. split; [reflexivity|]. destruct (e - 2 * e') as [|p|p] eqn:E; [split; lia| |lia]. rewrite Z.shiftl_mul_pow2 by lia. split; [apply Z.mul_pos_pos; [lia|apply Z.pow_pos_nonneg; lia]|].
    rewrite Z.log2_mul_pow2 by lia. lia. }
  destruct Hm' as (m' & -> & Pm & Lm). pose proof (Z.sqrtrem_spec m' ltac:(lia)) as S. destruct (Z.sqrtrem m') as [q r]. destruct S as [S1 S2].
  assert (Pq : 0 < q) by nia. apply round_big; [exact Pq|].
  assert (Hq : m' < (q + 1) * (q + 1)) by nia. pose proof (Z.log2_spec m' Pm) as [A1 A2]. pose proof (Z.log2_spec q Pq) as [B1 B2].
  destruct (Z.le_gt_cases 0 (Z.log2 q + e')) as [?|Hn]; [assumption|exfalso].
  assert (C1 : q + 1 <= 2 ^ (- e')) by (assert (2 ^ Z.succ (Z.log2 q) <= 2 ^ (- e')) by (apply Z.pow_le_mono_r; lia); lia).
  assert (C2 : (q + 1) * (q + 1) <= 2 ^ (- e') * 2 ^ (- e')) by (apply Z.mul_le_mono_nonneg; lia).
  assert (Hq0 : 0 <= Z.log2 q) by apply Z.log2_nonneg.
  assert (C3 : 2 ^ (- e') * 2 ^ (- e') = 2 ^ (- (2 * e'))) by (rewrite <- Z.pow_add_r by lia; f_equal; lia).
  assert (C4 : 2 ^ (- (2 * e')) <= 2 ^ Z.log2 m') by (apply Z.pow_le_mono_r; lia). lia.
Qed.
Lemma add_big x y : big x -> big y -> big (fadd x y).
Proof.
  intros Hx Hy. destruct x as [|[]| |[] mx ex]; try solve [destruct Hx]; destruct y as [|[]| |[] my ey]; try solve [destruct Hy]; try exact I. unfold fadd. cbn [big SFadd Bool.eqb cond_Zopp] in *. set (ez := Z.min ex ey).
  assert (A : Z.log2 (Zpos (fst (shl_align mx ex ez))) + ez = Z.log2 (Zpos mx) + ex).
  { pose proof (align_log mx ex ez) as H. unfold shl_align in *. destruct (ez - ex) as [|p|p] eqn:E; cbn [fst] in *; lia. }
  rewrite <- Pos2Z.inj_add. apply normalize_big.
  assert (Z.log2 (Zpos (fst (shl_align mx ex ez))) <= Z.log2 (Zpos (fst (shl_align mx ex ez) + fst (shl_align my ey ez)))) by (apply Z.log2_le_mono; lia). lia.
Qed.

Lemma int0 : of_int 0 = fzero.
Proof. reflexivity. Qed.
(** Without common elements the similarity is never positive. *)
Lemma no_similarity t na nb thr : SFltb fzero thr = true -> fge (getSimilarity t na nb 0) thr = false.
Proof.
  intro H. assert (A : forall y, fge (fdiv fzero y) thr = false).
  { intro y. unfold fge, SFltb, SFleb in *. destruct thr as [s|[]| |[] m e]; try discriminate H; destruct y as [[]|[]| |[] m' e']; reflexivity. }
  unfold getSimilarity. rewrite int0. destruct t; [apply A|apply A|]. unfold fge, SFltb, SFleb in *. destruct thr as [s|[]| |[] m e]; try discriminate H; reflexivity.
Qed.
Lemma zero_big y : big y -> fdiv fzero y = fzero.
Proof. intro H; destruct y as [|[]| |[] m e]; try solve [destruct H]; reflexivity. Qed.
Lemma disjoint_far t na nb : 1 <= na -> 1 <= nb -> distFromSml (getSimilarity t na nb 0) = finf.
Proof.
  intros Ha Hb. apply of_int_big in Ha, Hb. assert (E : getSimilarity t na nb 0 = fzero); [|rewrite E; reflexivity].
  unfold getSimilarity. rewrite int0. destruct t; [apply zero_big, sqrt_big, mul_big; assumption| |reflexivity].
  pose proof (add_big _ _ Ha Hb) as H. replace (fsub (fadd (of_int na) (of_int nb)) fzero) with (fadd (of_int na) (of_int nb)); [apply zero_big; exact H|].
  destruct (fadd (of_int na) (of_int nb)) as [|[]| |[] m e]; try solve [destruct H]; reflexivity.
Qed.
