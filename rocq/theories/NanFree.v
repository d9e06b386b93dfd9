(** Proofs for PropArrayDist.v: the similarity of two arrays is not a NaN. *)
From Verif Require Import Array.
From Coq Require Import ZArith Lia Bool Floats.SpecFloat.
Local Open Scope Z_scope.

Notation prec := 53. Notation emax := 1024.
Notation round_aux := (binary_round_aux prec emax).
Lemma digits_bounds m : 2 ^ (Zpos (digits2_pos m) - 1) <= Zpos m < 2 ^ Zpos (digits2_pos m).
Proof.
  induction m as [p IH|p IH|]; cbn [digits2_pos]; [| |lia]; rewrite Pos2Z.inj_succ;
  replace (Z.succ (Zpos (digits2_pos p)) - 1) with (Z.succ (Zpos (digits2_pos p) - 1)) by lia; rewrite !Z.pow_succ_r by lia; lia.
Qed.
Lemma shr_1_m r : 0 <= shr_m r -> shr_m (shr_1 r) = shr_m r / 2.
Proof.
  destruct r as [m a b]. cbn [shr_m]. destruct m as [|[p|p|]|p]; intro H; cbn [shr_1 shr_m]; try reflexivity; try lia.
Qed.
Lemma iter_shr p : forall r, 0 <= shr_m r -> shr_m (iter_pos shr_1 p r) = shr_m r / 2 ^ Zpos p.
Proof.
  induction p as [p IH|p IH|]; intros r H; cbn [iter_pos].
  - assert (H1 : 0 <= shr_m (shr_1 r)) by (rewrite shr_1_m by auto; apply Z.div_pos; lia).
    assert (H2 : 0 <= shr_m (iter_pos shr_1 p (shr_1 r))) by (rewrite IH by auto; apply Z.div_pos; [auto|apply Z.pow_pos_nonneg; lia]).
    rewrite IH, IH, shr_1_m by auto. rewrite !Z.div_div by (try apply Z.pow_nonzero; try apply Z.pow_pos_nonneg; try apply Z.mul_pos_pos; try apply Z.pow_pos_nonneg; lia).
    f_equal. rewrite (Pos2Z.inj_xI p). rewrite Z.pow_add_r, Z.mul_comm by lia. replace (2 * Zpos p) with (Zpos p + Zpos p) by lia. rewrite Z.pow_add_r by lia. lia.
  - assert (H2 : 0 <= shr_m (iter_pos shr_1 p r)) by (rewrite IH by auto; apply Z.div_pos; [auto|apply Z.pow_pos_nonneg; lia]).
    rewrite IH, IH by auto. rewrite Z.div_div by (try apply Z.pow_nonzero; try apply Z.pow_pos_nonneg; lia).
    f_equal. rewrite (Pos2Z.inj_xO p). replace (2 * Zpos p) with (Zpos p + Zpos p) by lia. rewrite Z.pow_add_r by lia. reflexivity.
  - rewrite shr_1_m by auto. reflexivity.
Qed.
Lemma record_m m l : shr_m (shr_record_of_loc m l) = m.
Proof. destruct l as [|[| |]]; reflexivity. Qed.
Lemma shr_m_0 m e l : 0 <= m -> 0 <= shr_m (fst (shr_fexp prec emax m e l)).
Proof.
  intro H. unfold shr_fexp, shr. destruct (_ - e) as [|p|p]; cbn [fst]; rewrite ?record_m; auto. rewrite iter_shr by (rewrite record_m; auto). rewrite record_m.
  apply Z.div_pos; [auto|apply Z.pow_pos_nonneg; lia].
Qed.
Lemma nearest_le m l : m <= round_nearest_even m l <= m + 1.
Proof. destruct l as [|[| |]]; cbn; try lia. destruct (Z.even m); lia. Qed.
(** Never a NaN. *)
Lemma round_aux_num s m e l : 0 <= m -> round_aux s m e l <> S754_nan.
Proof.
  intro H. unfold binary_round_aux. pose proof (shr_m_0 m e l H) as H1. destruct (shr_fexp prec emax m e l) as [r e1]. cbn [fst] in H1.
  pose proof (nearest_le (shr_m r) (loc_of_shr_record r)) as H2. pose proof (shr_m_0 (round_nearest_even (shr_m r) (loc_of_shr_record r)) e1 loc_Exact ltac:(lia)) as H3.
  destruct (shr_fexp prec emax (round_nearest_even _ _) e1 loc_Exact) as [r2 e2]. cbn [fst] in H3. destruct (shr_m r2); [discriminate| |lia]. destruct (Zle_bool e2 _); discriminate.
Qed.
Lemma round_num s m e : binary_round prec emax s m e <> S754_nan.
Proof. unfold binary_round. destruct (shl_align m e _) as [mz ez]. apply round_aux_num. lia. Qed.
Lemma normalize_num m e s : binary_normalize prec emax m e s <> S754_nan.
Proof. destruct m; [discriminate|apply round_num|apply round_num]. Qed.
(** Not to zero, with enough room below; to a finite number, with enough room above. *)
Lemma shr_fexp_pos m e l : 0 < m -> -1000 <= e ->
  0 < shr_m (fst (shr_fexp prec emax m e l)) /\ e <= snd (shr_fexp prec emax m e l) /\
  forall hi, m < 2 ^ (hi - e) -> shr_m (fst (shr_fexp prec emax m e l)) < 2 ^ (hi - snd (shr_fexp prec emax m e l)).
Proof.
  intros Hm He. destruct m as [|p|p]; try lia. pose proof (digits_bounds p) as [D1 D2]. set (d := Zpos (digits2_pos p)) in *.
  assert (Hd : 1 <= d) by (unfold d; lia). unfold shr_fexp, shr. cbn [Zdigits2]. fold d. unfold fexp, emin.
  replace (Z.max (d + e - 53) (3 - 1024 - 53) - e) with (d - 53) by lia.
  destruct (d - 53) as [|k|k] eqn:E; cbn [fst snd]; rewrite ?record_m; [auto with zarith| |auto with zarith].
  rewrite iter_shr by (rewrite record_m; lia). rewrite record_m. assert (P : 0 < 2 ^ Zpos k) by (apply Z.pow_pos_nonneg; lia).
  split; [|split; [lia|]].
  - apply Z.div_str_pos. split; [exact P|]. apply Z.le_trans with (2 ^ (d - 1)); [apply Z.pow_le_mono_r; lia|exact D1].
  - intros hi Hh. assert (L : d - 1 < hi - e).
    { apply (Z.pow_lt_mono_r_iff 2); [lia| |lia]. destruct (Z.lt_ge_cases (hi - e) 0); [|lia]. rewrite (Z.pow_neg_r 2 (hi - e)) in Hh by lia. lia. }
    apply Z.div_lt_upper_bound; [exact P|]. rewrite <- Z.pow_add_r by lia. replace (Zpos k + (hi - (e + Zpos k))) with (hi - e) by lia. exact Hh.
Qed.
Lemma round_aux_pos s m e l : 0 < m -> -1000 <= e ->
  (round_aux s m e l = S754_infinity s \/ exists m' e', round_aux s m e l = S754_finite s m' e' /\ e <= e') /\
  forall hi, hi <= 900 -> m < 2 ^ (hi - e) -> round_aux s m e l <> S754_infinity s.
Proof.
  intros Hm He. unfold binary_round_aux. pose proof (shr_fexp_pos m e l Hm He) as (A1 & A2 & A3). destruct (shr_fexp prec emax m e l) as [r e1]. cbn [fst snd] in *.
  pose proof (nearest_le (shr_m r) (loc_of_shr_record r)) as H2. set (m2 := round_nearest_even _ _) in *.
  pose proof (shr_fexp_pos m2 e1 loc_Exact ltac:(lia) ltac:(lia)) as (B1 & B2 & B3). destruct (shr_fexp prec emax m2 e1 loc_Exact) as [r2 e2]. cbn [fst snd] in *.
  destruct (shr_m r2) as [|q|q]; try lia. split.
  - destruct (Zle_bool e2 _); [right; exists q, e2; split; [reflexivity|lia]|left; reflexivity].
  - intros hi Hhi Hb. specialize (A3 hi Hb).
    assert (L1 : 0 <= hi - e1). { destruct (Z.lt_ge_cases (hi - e1) 0); [|lia]. rewrite (Z.pow_neg_r 2 (hi - e1)) in A3 by lia. lia. }
    assert (M : m2 < 2 ^ (hi + 1 - e1)). { replace (hi + 1 - e1) with (Z.succ (hi - e1)) by lia. rewrite Z.pow_succ_r by lia. lia. }
    specialize (B3 (hi + 1) M). assert (L : 0 <= hi + 1 - e2). { destruct (Z.lt_ge_cases (hi + 1 - e2) 0); [|lia]. rewrite (Z.pow_neg_r 2 (hi + 1 - e2)) in B3 by lia. lia. }
    assert (Zle_bool e2 (emax - prec) = true) by (apply Zle_imp_le_bool; lia). rewrite H. discriminate.
Qed.
Lemma shift_pos_val k m : Zpos (shift_pos k m) = Zpos m * 2 ^ Zpos k.
Proof. rewrite shift_pos_correct, Zpower_pos_nat, Zpower_nat_Z, positive_nat_Z. lia. Qed.
Lemma round_pos s m e : -900 <= e ->
  (binary_round prec emax s m e = S754_infinity s \/ exists m' e', binary_round prec emax s m e = S754_finite s m' e' /\ e - 52 <= e') /\
  forall hi, hi <= 900 -> Zpos m < 2 ^ (hi - e) -> binary_round prec emax s m e <> S754_infinity s.
Proof.
  intro He. unfold binary_round, shl_align. set (d := Zpos (digits2_pos m)). assert (Hd : 1 <= d) by (unfold d; lia). clearbody d. unfold fexp, emin.
  assert (Hf : Z.max (d + e - 53) (3 - 1024 - 53) = d + e - 53) by lia. rewrite Hf.
  assert (G : forall mz ez, (mz, ez) = (match d + e - 53 - e with Zneg k => (shift_pos k m, d + e - 53) | _ => (m, e) end) ->
    e - 52 <= ez /\ forall hi, Zpos m < 2 ^ (hi - e) -> Zpos mz < 2 ^ (hi - ez)).
  { intros mz ez Em. destruct (d + e - 53 - e) as [|k|k] eqn:E; injection Em as -> ->; (split; [lia|]); try (intros hi Hh; exact Hh).
    intros hi Hh. rewrite shift_pos_val. replace (hi - (d + e - 53)) with ((hi - e) + Zpos k) by lia.
    assert (0 <= hi - e). { destruct (Z.lt_ge_cases (hi - e) 0); [|lia]. rewrite (Z.pow_neg_r 2 (hi - e)) in Hh by lia. lia. }
    rewrite Z.pow_add_r by lia. apply Z.mul_lt_mono_pos_r; [apply Z.pow_pos_nonneg; lia|exact Hh]. }
  destruct (match d + e - 53 - e with Zneg k => (shift_pos k m, d + e - 53) | _ => (m, e) end) as [mz ez] eqn:E. destruct (G mz ez eq_refl) as [G1 G2].
  destruct (round_aux_pos s (Zpos mz) ez loc_Exact ltac:(lia) ltac:(lia)) as [R1 R2]. split.
  - destruct R1 as [R1|(m' & e' & R1 & R3)]; [left; exact R1|right; exists m', e'; split; [exact R1|lia]].
  - intros hi Hhi Hm. exact (R2 hi Hhi (G2 hi Hm)).
Qed.
Lemma of_int_pos n : 1 <= n < 2 ^ 31 -> exists m e, of_int n = S754_finite false m e /\ -52 <= e.
Proof.
  intro H. unfold of_int, binary_normalize. destruct n as [|p|p]; try lia. destruct (round_pos false p 0 ltac:(lia)) as [[R|(m & e & R & He)] R2].
  - exfalso. exact (R2 31 ltac:(lia) ltac:(change (31 - 0) with 31; lia) R).
  - exists m, e. split; [exact R|lia].
Qed.
Lemma fdiv_num x y : (x = fzero \/ exists s m e, x = S754_finite s m e) -> y <> S754_nan -> (x = fzero -> y <> S754_zero false /\ y <> S754_zero true) -> fdiv x y <> S754_nan.
Proof.
  intros Hx Hy H0. unfold fdiv. destruct Hx as [->|(s & m & e & ->)].
  - destruct (H0 eq_refl) as [N1 N2]. destruct y as [[|]|b| |b p q]; cbn; congruence.
  - destruct y as [b|b| |b p q]; cbn [SFdiv]; try discriminate; [congruence|].
    destruct (SFdiv_core_binary prec emax (Zpos m) e (Zpos p) q) as [[mz ez] lz] eqn:E. apply round_aux_num.
    unfold SFdiv_core_binary in E. cbv zeta in E. set (m' := match _ with Z0 => Zpos m | Zpos _ => _ | Zneg _ => 0 end) in E. assert (Hm : 0 <= m').
    { unfold m'. destruct (e - q - _); try lia. apply Z.shiftl_nonneg. lia. }
    clearbody m'. pose proof (Z_div_mod m' (Zpos p) ltac:(lia)) as D. destruct (Z.div_eucl m' (Zpos p)) as [a b']. injection E as <- <- <-. nia.
Qed.
Lemma fsqrt_pos m e : -200 <= e -> exists s, fsqrt (S754_finite false m e) = S754_infinity s \/ exists m' e', fsqrt (S754_finite false m e) = S754_finite s m' e'.
Proof.
  intro He. exists false. unfold fsqrt, SFsqrt. destruct (SFsqrt_core_binary prec emax (Zpos m) e) as [[mz ez] lz] eqn:E.
  unfold SFsqrt_core_binary in E. cbv zeta in E. set (d := Zdigits2 (Zpos m)) in *. assert (Hd : 1 <= d) by (unfold d, Zdigits2; lia).
  set (e' := Z.min (fexp prec emax (Z.div2 (d + e + 1))) (Z.div2 e)) in E.
  assert (H1 : -300 <= e' /\ 0 <= e - 2 * e').
  { unfold e', fexp, emin. rewrite !Z.div2_div. pose proof (Z.div_mod e 2 ltac:(lia)). pose proof (Z.mod_pos_bound e 2 ltac:(lia)).
    pose proof (Z.div_mod (d + e + 1) 2 ltac:(lia)). pose proof (Z.mod_pos_bound (d + e + 1) 2 ltac:(lia)). lia. }
  clearbody e'. destruct H1 as [H1 H2]. set (m' := match e - 2 * e' with Z0 => Zpos m | Zpos _ => Z.shiftl (Zpos m) (e - 2 * e') | Zneg _ => 0 end) in E.
  assert (Hm : 1 <= m').
  { unfold m'. destruct (e - 2 * e') eqn:Es; try lia. rewrite Z.shiftl_mul_pow2 by lia. assert (0 < 2 ^ Zpos p) by (apply Z.pow_pos_nonneg; lia). nia. }
  clearbody m'. pose proof (Z.sqrtrem_sqrt m') as S1. destruct (Z.sqrtrem m') as [q r]. cbn [fst] in S1. injection E as <- <- <-.
  assert (Hq : 1 <= q) by (rewrite S1; change 1 with (Z.sqrt 1); apply Z.sqrt_le_mono; exact Hm).
  destruct (round_aux_pos false q e' (if Zeq_bool r 0 then loc_Exact else loc_Inexact (if Zle_bool r q then Lt else Gt)) ltac:(lia) ltac:(lia)) as [[R|(a & b & R & _)] _]; [left; exact R|right; exists a, b; exact R].
Qed.
Lemma similarity_num t na nb i : 1 <= na < 2 ^ 31 -> 1 <= nb < 2 ^ 31 -> 0 <= i < 2 ^ 31 -> getSimilarity t na nb i <> S754_nan.
Proof.
  intros Ha Hb Hi. destruct (of_int_pos na Ha) as (m1 & e1 & E1 & L1). destruct (of_int_pos nb Hb) as (m2 & e2 & E2 & L2).
  assert (Hn : (i = 0 /\ of_int i = fzero) \/ exists m e, of_int i = S754_finite false m e).
  { destruct (Z.eq_dec i 0) as [->|Hz]; [left; auto|]. destruct (of_int_pos i ltac:(lia)) as (m & e & E & _). right. exists m, e. exact E. }
  assert (Hx : of_int i = fzero \/ exists s m e, of_int i = S754_finite s m e).
  { destruct Hn as [[_ H]|(m & e & H)]; [left; exact H|right; exists false, m, e; exact H]. }
  destruct t; cbn [getSimilarity].
  - rewrite E1, E2. unfold fmul. cbn [SFmul xorb].
    destruct (round_aux_pos false (Zpos (m1 * m2)) (e1 + e2) loc_Exact ltac:(lia) ltac:(lia)) as [[R|(a & b & R & Lb)] _]; rewrite R.
    + apply fdiv_num; [exact Hx|discriminate|split; discriminate].
    + destruct (fsqrt_pos a b ltac:(lia)) as (s & [Q|(c & f & Q)]); rewrite Q; (apply fdiv_num; [exact Hx|discriminate|split; discriminate]).
  - rewrite E1, E2. unfold fadd. cbn [SFadd cond_Zopp].
    set (ez := Z.min e1 e2). set (z := _ + _). assert (Hz : 0 < z) by (unfold z; lia). clearbody z. destruct z as [|z|z]; try lia. cbn [binary_normalize].
    destruct (round_pos false z ez ltac:(unfold ez; lia)) as [[R|(a & b & R & Lb)] _]; rewrite R.
    + apply fdiv_num; [exact Hx| |]; destruct Hn as [[_ H]|(m & e & H)]; rewrite H; cbn; try discriminate; split; discriminate.
    + apply fdiv_num; [exact Hx| |]; destruct Hn as [[_ H]|(m & e & H)]; rewrite H.
      * cbn. discriminate.
      * unfold fsub. cbn [SFsub cond_Zopp]. apply normalize_num.
      * intros _. cbn. split; discriminate.
      * discriminate.
  - apply normalize_num.
Qed.
Lemma distance_num sml : sml <> S754_nan -> distFromSml sml <> S754_nan.
Proof.
  intro H. unfold distFromSml. destruct (feq sml fzero); [discriminate|]. apply fdiv_num; [right|exact H|vm_compute; discriminate].
  exists false. do 2 eexists. vm_compute. reflexivity.
Qed.
