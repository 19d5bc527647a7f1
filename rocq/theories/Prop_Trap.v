(** Properties C25, C27 and C31 once more: decimal exponents at which no literal at all is
    converted, and literals that are converted to a wrong number. *)
From Coq Require Import ZArith Reals List Bool String Lia Lra.
From Coq Require Import ZifyBool ZifyNat.
From Flocq Require Import Core Binary Bits.
From Verif Require Import Outcome VTac LimbsModel LimbsSpec BigIntModel JsBigintModel BigFloatModel BigSpec LimbsProofs ShiftProofs JsBigintProofs JsDivProofs
  BigFloatSpec BigFloatProofs Prop_JsBigint RangeMapSpec Prop_BigFloat TokenizerModel TokenizerSpec TokenizerProofs TokenizerRun TokenizerLex TokenizerNum
  TokenizerTotal TokenizerGrammar SerializerSpec SerializerProofs JsBitsProofs NumberSafe DivTrap Prop_Small.
Import ListNotations.
Open Scope Z_scope.

(** * Exponents that are never converted *)

(** Exponents [-e] for which the top limb of 5^e is small. *)
Definition lost_exponent (e : Z) : Prop :=
  28 <= e <= 50 \/ 56 <= e <= 77 \/ 83 <= e <= 95 \/ 97 <= e <= 104 \/ 111 <= e <= 132 \/ 138 <= e <= 160 \/ 166 <= e <= 188 \/
  193 <= e <= 215 \/ 221 <= e <= 243 \/ 249 <= e <= 270 \/ 276 <= e <= 297 \/ 304 <= e <= 324 \/ 331 <= e <= 344.

Fixpoint interval (n : nat) (a : Z) : list Z := match n with O => [] | S n => a :: interval n (a + 1) end.
Lemma interval_in n : forall a x, a <= x < a + Z.of_nat n -> In x (interval n a).
Proof. induction n as [|n IH]; intros a x H; [lia|]. cbn [interval]. destruct (Z.eq_dec a x); [left; assumption|right; apply IH; lia]. Qed.
Lemma lost_hopeless e : lost_exponent e -> exists hb, hopeless e hb = true.
Proof.
  intros H.
  assert (Hin : In e (map fst traps)).
  { assert (L : forall a n, a <= e <= a + Z.of_nat n - 1 -> forallb (fun x => existsb (Z.eqb x) (map fst traps)) (interval n a) = true -> In e (map fst traps)).
    { intros a n He Hf. pose proof (proj1 (forallb_forall _ _) Hf e (interval_in n a e ltac:(lia))) as G. cbv beta in G.
      apply existsb_exists in G as (x & Hx & Ex). apply Z.eqb_eq in Ex. subst x. exact Hx. }
    unfold lost_exponent in H.
    destruct H as [H|[H|[H|[H|[H|[H|[H|[H|[H|[H|[H|[H|H]]]]]]]]]]]].
    - apply (L 28 23%nat); [lia|vm_compute; reflexivity].
    - apply (L 56 22%nat); [lia|vm_compute; reflexivity].
    - apply (L 83 13%nat); [lia|vm_compute; reflexivity].
    - apply (L 97 8%nat); [lia|vm_compute; reflexivity].
    - apply (L 111 22%nat); [lia|vm_compute; reflexivity].
    - apply (L 138 23%nat); [lia|vm_compute; reflexivity].
    - apply (L 166 23%nat); [lia|vm_compute; reflexivity].
    - apply (L 193 23%nat); [lia|vm_compute; reflexivity].
    - apply (L 221 23%nat); [lia|vm_compute; reflexivity].
    - apply (L 249 22%nat); [lia|vm_compute; reflexivity].
    - apply (L 276 22%nat); [lia|vm_compute; reflexivity].
    - apply (L 304 21%nat); [lia|vm_compute; reflexivity].
    - apply (L 331 14%nat); [lia|vm_compute; reflexivity]. }
  apply in_map_iff in Hin as ([e' hb] & E & Hi). cbn [fst] in E. subst e'. exists hb.
  exact (proj1 (forallb_forall _ _) traps_hopeless (e, hb) Hi).
Qed.
Lemma lost_range e : lost_exponent e -> 28 <= e <= 344.
Proof. unfold lost_exponent. lia. Qed.

Lemma increase_loop_bound m : jwf m -> forall fuel s e, jwf s -> 0 < jval s < 2 * jval m ->
  match increase_loop fuel m s e with Ok (s', e') => jwf s' /\ jval m <= jval s' < 2 * jval m | Panic => False | NoFuel => True end.
Proof.
  intros Hm. induction fuel as [|fuel IH]; intros s e Hs Ps; [exact I|]. cbn [increase_loop]. rewrite cmp_pos by (auto; lia).
  destruct (Z.compare_spec (jval s) (jval m)); [split; [exact Hs|lia]| |split; [exact Hs|lia]].
  destruct (jb_shl_on_u64_spec s 1 Hs) as [s1 [E1 [H1 V1]]]; [apply pos_items; [exact Hs|lia]|lia|]. rewrite E1. cbn [obind]. apply IH; [exact H1|lia].
Qed.

(** With such an exponent, no significand between 0 and 5^e * 2^55 is ever converted: neither
    1e-28 nor pi with 28 to 50 decimal places. *)
Theorem C25_lost_refuted : forall e f fuel, lost_exponent e -> jwf (bf_sig f) -> 0 < jval (bf_sig f) < 5 ^ e * 2 ^ 55 -> bf_exp f = - e ->
  to_bin fuel f 54 = NoFuel.
Proof.
  intros e f fuel He Hf Hv Hx. destruct (lost_hopeless e He) as [hb Hh]. pose proof (lost_range e He) as Re.
  pose proof (Z.pow_pos_nonneg 5 e ltac:(lia) ltac:(lia)) as P5.
  unfold to_bin. rewrite jb_is_zero_spec by exact Hf. destruct (Z.eqb_spec (jval (bf_sig f)) 0) as [E|_]; [lia|].
  destruct (Z.eqb_spec (bf_exp f) 0) as [E|_]; [lia|]. destruct (Z.ltb_spec 0 (bf_exp f)) as [E|_]; [lia|].
  destruct (jb_from_u64_spec Positive 5) as [H5 V5]; [pose proof B_val; lia|].
  destruct (C24_pow_u64_exact (jb_from_u64 Positive 5) (- bf_exp f) H5) as (q & Eq & Hq & Vq); [rewrite V5; discriminate|lia|].
  rewrite V5 in Vq. cbn [sign_int] in Vq. rewrite Hx in Vq. replace (- - e) with e in Vq by lia. change (1 * 5) with 5 in Vq.
  rewrite Eq. cbn [obind]. destruct (one_shl_spec 54 ltac:(lia)) as (m & Em & Hm & Vm). rewrite Em. cbn [obind].
  destruct (jb_mul_spec q m Hq Hm) as (pm & Epm & Hpm & Vpm). rewrite Epm. cbn [obind]. rewrite Vq, Vm in Vpm.
  unfold increase_significand_to. rewrite jb_is_zero_spec by exact Hf. destruct (Z.eqb_spec (jval (bf_sig f)) 0) as [E|_]; [lia|].
  pose proof (increase_loop_bound pm Hpm fuel (bf_sig f) (bf_exp f) Hf ltac:(lia)) as Hinc.
  destruct (increase_loop fuel pm (bf_sig f) (bf_exp f)) as [[s x]| |]; [|contradiction|reflexivity]. cbn [obind bf_sig].
  destruct Hinc as [Hs Vs].
  assert (Vq' : val (jb_items q) = 5 ^ e) by (rewrite <- (jabs q Hq), Vq; lia).
  assert (Vs' : val (jb_items s) = jval s) by (rewrite <- (jabs s Hs); lia).
  unfold jb_div_mod. rewrite jb_is_zero_spec by exact Hq. destruct (Z.eqb_spec (jval q) 0) as [E|_]; [lia|].
  rewrite cmp_vec_spec by (apply Hs || apply Hq).
  destruct (Z.compare_spec (val (jb_items s)) (val (jb_items q))) as [E|E|E]; [lia|lia|].
  rewrite (div_hopeless e hb); [reflexivity|exact Hh|lia|apply Hs|apply Hq|exact Vq'|]. lia.
Qed.
Print Assumptions C25_lost_refuted.
Theorem C27_lost_refuted : forall e f fuel, lost_exponent e -> jwf (bf_sig f) -> 0 < jval (bf_sig f) < 5 ^ e * 2 ^ 55 -> bf_exp f = - e ->
  (let! g := to_bin fuel f 54 in to_f64 fuel g) = NoFuel.
Proof. intros e f fuel H1 H2 H3 H4. rewrite (C25_lost_refuted e) by assumption. reflexivity. Qed.
Print Assumptions C27_lost_refuted.

(** Every literal with such an exponent stops the tokenizer for good, after every sequence of
    tokens and whatever follows. *)
Theorem C31_lost_refuted : forall e a ta nl f n, lost_exponent e -> lexseq a ta nl f -> number_ok n -> next_ok f (number_text n) ->
  number_exp10 n = - e -> 0 < number_mantissa n < 5 ^ e * 2 ^ 55 -> - 2 ^ 63 < exp_value n < 2 ^ 63 ->
  Z.of_nat (List.length (nl_frac n)) <= 2 ^ 63 ->
  exists f0, forall fuel q, (f0 <= fuel)%nat -> next_ok is_terminal q -> tokenize fuel (a ++ number_text n ++ q) = NoFuel.
Proof.
  intros e a ta nl f n He Ha Hn Hx Ee Hm Lv Lf. pose proof (lost_range e He) as Re.
  destruct (lexseq_reads a ta nl f Ha) as [f0 H]. exists f0. intros fuel q Hfu Hq.
  rewrite H; [|exact Hfu|].
  - rewrite number_hangs; [reflexivity|exact Hn|exact Lf|exact Lv|lia|lia| |exact Hq].
    intros fl b Hb Vb. unfold number_token, bigfloat_to_f64. rewrite (C25_lost_refuted e); cbn [bf_sig bf_exp]; try assumption; [reflexivity|lia].
  - assert (Hne : number_text n <> []).
    { unfold number_text. destruct Hn as [[_ [->|[c [l' [-> _]]]]] _]; destruct (nl_neg n); discriminate. }
    destruct (number_text n); [congruence|exact Hx].
Qed.
Print Assumptions C31_lost_refuted.
(** pi with 28 decimal places is such a literal; 27 places are fine. *)
Example C31_lost_case :
  let n := {| nl_neg := false; nl_int := txt "3"; nl_frac := txt "1415926535897932384626433832"; nl_exp := None |} in
  number_ok n /\ number_text n = txt "3.1415926535897932384626433832" /\ lost_exponent 28 /\ number_exp10 n = - 28 /\
  0 < number_mantissa n < 5 ^ 28 * 2 ^ 55 /\ exp_value n = 0 /\
  tokenize 300 (txt "[3.1415926535897932384626433832]") = NoFuel /\
  tokenize 300 (txt "[3.141592653589793238462643383]") = Ok [TArrayBegin; TNumber 0x400921FB54442D18; TArrayEnd].
Proof.
  cbv zeta. split; [split; [split; [repeat constructor|right; exists 51, []; split; [reflexivity|lia]]|split; [repeat constructor|exact I]]|].
  split; [reflexivity|]. split; [left; lia|]. split; [reflexivity|]. split; [vm_compute; split; reflexivity|]. split; [reflexivity|].
  split; vm_compute; reflexivity.
Qed.

(** * A wrong number *)

(** With 53 decimal places most literals below 4 are converted right, some never, and some to a
    number that has nothing to do with them: this one, about 1.5, becomes 62772.6. *)
Definition wrong_literal : number_lit :=
  {| nl_neg := false; nl_int := txt "1"; nl_frac := txt "54771594891142316712520022264448780250316910928628710"; nl_exp := None |}.
Lemma wrong_bits : (62771 < B2R 53 1024 (b64_of_bits 4678860209233152847))%R.
Proof.
  rewrite <- FF2R_B2FF.
  replace (B2FF 53 1024 (b64_of_bits 4678860209233152847)) with (F754_finite false 8627395649948495 (-37)) by (vm_compute; reflexivity).
  unfold FF2R, F2R. cbn [Fnum Fexp cond_Zopp]. change (bpow radix2 (-37)) with (/ IZR (Z.pow_pos 2 37))%R. change (Z.pow_pos 2 37) with 137438953472. lra.
Qed.
Lemma rne64_below x : (x <= 2)%R -> (rne64 x <= 2)%R.
Proof.
  intros H. unfold rne64. apply Rle_trans with (round radix2 (FLT_exp (-1074) 53) ZnearestE 2).
  - apply round_le; [apply FLT_exp_valid; reflexivity|apply valid_rnd_N|exact H].
  - rewrite round_generic; [lra|apply valid_rnd_N|]. change 2%R with (bpow radix2 1). apply generic_format_bpow. vm_compute. discriminate.
Qed.
Theorem C27_wrong_refuted : exists n bits, number_ok n /\ number_exp10 n = -53 /\ (dec_real (number_mantissa n) (number_exp10 n) < 2)%R /\
  (forall fuel, (600 <= fuel)%nat -> tokenize fuel (number_text n) = Ok [TNumber bits]) /\
  (62771 < B2R 53 1024 (b64_of_bits bits))%R /\
  ~ f64_nearest bits Positive (dec_real (number_mantissa n) (number_exp10 n)).
Proof.
  exists wrong_literal, 4678860209233152847.
  split; [split; [split; [repeat constructor|right; exists 49, []; split; [reflexivity|lia]]|split; [repeat constructor|exact I]]|].
  split; [reflexivity|].
  assert (Hv : (dec_real (number_mantissa wrong_literal) (number_exp10 wrong_literal) < 2)%R).
  { change (number_exp10 wrong_literal) with (-53). change (number_mantissa wrong_literal) with 154771594891142316712520022264448780250316910928628710.
    unfold dec_real. change (powerRZ 10 (-53)) with (/ 10 ^ 53)%R. rewrite (pow_IZR 10 53).
    change (10 ^ Z.of_nat 53) with 100000000000000000000000000000000000000000000000000000. lra. }
  split; [exact Hv|]. split.
  { intros fuel Hf. replace fuel with (600 + (fuel - 600))%nat by lia. generalize (fuel - 600)%nat. intros k. vm_compute. reflexivity. }
  split; [exact wrong_bits|]. intros (_ & H & _). pose proof (rne64_below _ (Rlt_le _ _ Hv)) as H2. destruct H as (_ & H & _).
  - apply Rle_lt_trans with (1 := H2). change 2%R with (bpow radix2 1). apply bpow_lt. lia.
  - cbn [neg_bit] in H. rewrite <- H in H2. pose proof wrong_bits. lra.
Qed.
Print Assumptions C27_wrong_refuted.
Example C27_wrong_case : number_text wrong_literal = txt "1.54771594891142316712520022264448780250316910928628710".
Proof. reflexivity. Qed.
