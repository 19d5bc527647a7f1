(** Number and bigint literals in the tokenizer. *)
From Coq Require Import ZArith List Bool Lia.
From Coq Require Import ZifyBool ZifyNat.
From Verif Require Import Outcome LimbsModel LimbsSpec BigIntModel JsBigintModel BigFloatModel BigSpec
  LimbsProofs ShiftProofs JsBigintProofs RangeMapModel RangeMapSpec TokenizerModel TokenizerSpec
  TokenizerProofs TokenizerRun TokenizerLex.
Import ListNotations.
Open Scope Z_scope.

Definition dec_from (v : Z) (l : list Z) : Z := fold_left (fun a c => a * 10 + (c - 48)) l v.
Definition signed (neg : bool) : sign := if neg then Negative else Positive.

Lemma i64_ok n : - 2 ^ 63 <= n < 2 ^ 63 -> i64 n = Ok n.
Proof. intros H. unfold i64. replace ((- 2 ^ 63 <=? n) && (n <? 2 ^ 63)) with true by lia. reflexivity. Qed.

Lemma digit_range c : is_digit c = true -> 48 <= c <= 57.
Proof. unfold is_digit. lia. Qed.

Lemma from_digit_spec c : is_digit c = true -> jwf (from_digit c) /\ jval (from_digit c) = c - 48.
Proof.
  intros H. apply digit_range in H. unfold from_digit, digit_to_number.
  destruct (jb_from_u64_spec Positive (c - 0x30)) as [H1 H2]; [pose proof B_val; lia|].
  split; [exact H1|]. rewrite H2. unfold sign_int. lia.
Qed.

Lemma add_digit_spec b c : jwf b -> is_digit c = true ->
  exists b', add_digit b c = Ok b' /\ jwf b' /\ jval b' = jval b * 10 + (c - 48).
Proof.
  intros Hb Hc. unfold add_digit.
  destruct (jb_from_u64_spec Positive 10) as [H1 H2]; [pose proof B_val; lia|].
  destruct (jb_mul_spec b _ Hb H1) as [m [E [Hm Vm]]]. rewrite E. cbn [obind].
  destruct (from_digit_spec c Hc) as [D1 D2]. destruct (jb_add_spec m _ Hm D1) as [A1 A2].
  eexists. split; [reflexivity|]. split; [exact A1|]. rewrite A2, D2, Vm, H2. unfold sign_int. lia.
Qed.

Lemma dec_from_app v a b : dec_from v (a ++ b) = dec_from (dec_from v a) b.
Proof. apply fold_left_app. Qed.

Lemma dec_from_ge v l : 0 <= v -> all_digits l -> v <= dec_from v l.
Proof.
  intros Hv H. revert v Hv. induction H as [|c l Hc H IH]; intros v Hv; cbn [dec_from fold_left]; [lia|].
  apply digit_range in Hc. specialize (IH (v * 10 + (c - 48)) ltac:(lia)). unfold dec_from in IH. lia.
Qed.

Lemma run_int_digits fuel s l : all_digits l -> forall b, jwf b ->
  exists b', run fuel (ParseInt b s) l = Ok ([], ParseInt b' s) /\ jwf b' /\ jval b' = dec_from (jval b) l.
Proof.
  induction 1 as [|c l Hc H IH]; intros b Hb; [exists b; auto|].
  destruct (add_digit_spec b c Hb Hc) as [b1 [E1 [H1 V1]]].
  destruct (IH b1 H1) as [b2 [E2 [H2 V2]]]. exists b2.
  assert (E : step fuel (ParseInt b s) c = Ok ([], ParseInt b1 s)).
  { cbn [step]. unfold cls_int. rewrite Hc, E1. reflexivity. }
  pose proof (digit_range c Hc). rewrite (step_nil _ _ c _ _ ltac:(lia) E). split; [exact E2|]. split; [exact H2|].
  cbn [dec_from fold_left]. rewrite V2, V1. reflexivity.
Qed.

Lemma run_frac_digits fuel s l : all_digits l -> forall b fe, jwf b ->
  fe <= 2 ^ 63 - 1 -> - 2 ^ 63 + Z.of_nat (length l) <= fe ->
  exists b', run fuel (ParseFrac b s fe) l = Ok ([], ParseFrac b' s (fe - Z.of_nat (length l))) /\ jwf b' /\
    jval b' = dec_from (jval b) l.
Proof.
  induction 1 as [|c l Hc H IH]; intros b fe Hb Hu Hl.
  - exists b. cbn [length]. rewrite Z.sub_0_r. auto.
  - cbn [length] in *. destruct (add_digit_spec b c Hb Hc) as [b1 [E1 [H1 V1]]].
    destruct (IH b1 (fe - 1) H1 ltac:(lia) ltac:(lia)) as [b2 [E2 [H2 V2]]]. exists b2.
    assert (E : step fuel (ParseFrac b s fe) c = Ok ([], ParseFrac b1 s (fe - 1))).
    { cbn [step]. unfold cls_frac, frac_add_digit. rewrite Hc, E1. cbn [obind]. rewrite i64_ok by lia. reflexivity. }
    pose proof (digit_range c Hc). rewrite (step_nil _ _ c _ _ ltac:(lia) E).
    replace (fe - Z.of_nat (S (length l))) with (fe - 1 - Z.of_nat (length l)) by lia.
    split; [exact E2|]. split; [exact H2|]. cbn [dec_from fold_left]. rewrite V2, V1. reflexivity.
Qed.

Lemma run_exp_digits fuel b s fe es l : all_digits l -> forall e, 0 <= e -> dec_from e l < 2 ^ 63 ->
  run fuel (ParseExp b s fe es e) l = Ok ([], ParseExp b s fe es (dec_from e l)).
Proof.
  induction 1 as [|c l Hc H IH]; intros e He Hl; [reflexivity|].
  pose proof (digit_range c Hc).
  assert (L : e * 10 + (c - 48) <= dec_from (e * 10 + (c - 48)) l) by (apply dec_from_ge; [lia|exact H]).
  cbn [dec_from fold_left] in *. fold (dec_from (e * 10 + (c - 48)) l) in *.
  assert (E : step fuel (ParseExp b s fe es e) c = Ok ([], ParseExp b s fe es (e * 10 + (c - 48)))).
  { cbn [step]. unfold cls_exp, exp_add_digit, digit_to_number. rewrite Hc. rewrite i64_ok by lia. cbn [obind].
    change 0x30 with 48. rewrite i64_ok by lia. reflexivity. }
  rewrite (step_nil _ _ c _ _ ltac:(lia) E). apply IH; lia.
Qed.

(** A state in which significand [b], sign [s] and decimal exponent [fe] have been read. *)
Definition num_at (st : tstate) (b : jsbigint) (s : sign) (fe : Z) : Prop :=
  (st = ParseZero s /\ b = jb_zero /\ fe = 0) \/ (st = ParseInt b s /\ fe = 0) \/ st = ParseFrac b s fe.

Lemma run_sign fuel neg c rest : is_digit c = true ->
  run fuel Initial ((if neg : bool then [45] else []) ++ c :: rest) =
  run fuel (if c =? 48 then ParseZero (signed neg) else ParseInt (from_digit c) (signed neg)) rest.
Proof.
  intros Hc. apply digit_range in Hc. destruct neg; cbn [app signed].
  - assert (E : step fuel Initial 45 = Ok ([], ParseMinus)) by (cbn [step]; rewrite push_initial by lia; reflexivity).
    rewrite (step_nil _ _ 45 _ _ ltac:(lia) E).
    apply step_nil; [lia|]. cbn [step]. destruct (Z.eqb_spec c 48); [reflexivity|].
    unfold is_nonzero_digit. replace ((49 <=? c) && (c <=? 57)) with true by lia. reflexivity.
  - apply step_nil; [lia|]. cbn [step]. rewrite push_initial by lia. f_equal. destruct (Z.eqb_spec c 48) as [->|N]; [reflexivity|].
    unfold cls_initial. classes.
    replace (_ || (c =? 46)) with false by lia. replace ((49 <=? c) && (c <=? 57)) with true by lia. reflexivity.
Qed.

Lemma run_int_part (fuel : nat) neg l : int_part l -> exists st b,
  (forall fuel' rest, run fuel' Initial ((if neg : bool then [45] else []) ++ l ++ rest) = run fuel' st rest) /\
  num_at st b (signed neg) 0 /\ (st = ParseZero (signed neg) \/ st = ParseInt b (signed neg)) /\
  jwf b /\ jval b = dec_value l /\ (st = ParseZero (signed neg) <-> l = [48]).
Proof.
  intros [Hd [->|[c [l' [-> N]]]]].
  - exists (ParseZero (signed neg)), jb_zero. cbn [app]. split; [intros; apply run_sign; reflexivity|].
    split; [left; auto|]. split; [auto|]. split; [apply jb_zero_wf|]. split; [reflexivity|]. tauto.
  - inversion Hd as [|c0 l0 Hc Hl]; subst. destruct (from_digit_spec c Hc) as [D1 D2].
    destruct (run_int_digits fuel (signed neg) l' Hl _ D1) as [b [E [Hb V]]].
    exists (ParseInt b (signed neg)), b. split.
    + intros fuel' rest. cbn [app]. rewrite run_sign by exact Hc. rewrite (proj2 (Z.eqb_neq c 48) N).
      destruct (run_int_digits fuel' (signed neg) l' Hl _ D1) as [b1 [E1 [Hb1 V1]]].
      rewrite (run_app_ok _ _ _ _ _ _ E1), prepend_nil. replace b1 with b; [reflexivity|].
      apply jwf_inj; auto. congruence.
    + split; [right; left; auto|]. split; [auto|]. split; [exact Hb|]. split; [rewrite V, D2; reflexivity|].
      split; [discriminate|]. intros H. inversion H. congruence.
Qed.

(** The fraction. *)
Lemma run_fraction fuel st b s l : num_at st b s 0 -> (st = ParseZero s \/ st = ParseInt b s) -> jwf b ->
  all_digits l -> l <> [] -> Z.of_nat (length l) <= 2 ^ 63 -> exists b',
  run fuel st (46 :: l) = Ok ([], ParseFrac b' s (- Z.of_nat (length l))) /\ jwf b' /\ jval b' = dec_from (jval b) l.
Proof.
  intros Hat Hst Hb Hl Hne Hlen.
  assert (E0 : step fuel st 46 = Ok ([], ParseFracBegin b s)).
  { destruct Hat as [[-> [-> _]]|[[-> _]| ->]]; [reflexivity|reflexivity|]. destruct Hst; discriminate. }
  rewrite (step_nil _ _ 46 _ _ ltac:(lia) E0). destruct Hl as [|c l Hc Hl]; [congruence|]. clear Hne.
  destruct (add_digit_spec b c Hb Hc) as [b1 [E1 [H1 V1]]]. cbn [length] in *.
  destruct (run_frac_digits fuel s l Hl b1 (-1) H1 ltac:(lia) ltac:(lia)) as [b2 [E2 [H2 V2]]].
  exists b2. assert (E : step fuel (ParseFracBegin b s) c = Ok ([], ParseFrac b1 s (-1))).
  { cbn [step]. unfold frac_add_digit. rewrite Hc, E1. cbn [obind]. rewrite i64_ok by lia. reflexivity. }
  pose proof (digit_range c Hc). rewrite (step_nil _ _ c _ _ ltac:(lia) E), E2.
  replace (-1 - Z.of_nat (length l)) with (- Z.of_nat (S (length l))) by lia. split; [reflexivity|].
  split; [exact H2|]. cbn [dec_from fold_left]. rewrite V2, V1. reflexivity.
Qed.

(** The exponent. *)
Lemma run_exp_letter fuel st b s fe l : num_at st b s fe -> l = 101 \/ l = 69 ->
  step fuel st l = Ok ([], ParseExpBegin b s fe Positive 0).
Proof. intros [[-> [-> ->]]|[[-> ->]| ->]] [->| ->]; reflexivity. Qed.

Definition exp_sign (sg : list Z) : sign := match sg with [45] => Negative | _ => Positive end.

Lemma run_exponent fuel st b s fe l sg ds : num_at st b s fe -> l = 101 \/ l = 69 ->
  sg = [] \/ sg = [43] \/ sg = [45] -> ds <> [] -> all_digits ds -> dec_value ds < 2 ^ 63 ->
  run fuel st (l :: sg ++ ds) = Ok ([], ParseExp b s fe (exp_sign sg) (dec_value ds)).
Proof.
  intros Hat Hl Hsg Hne Hd Hv.
  rewrite (step_nil _ _ l _ _ ltac:(lia) (run_exp_letter fuel _ _ _ _ _ Hat Hl)).
  destruct Hd as [|c ds Hc Hd]; [congruence|]. clear Hne.
  pose proof (digit_range c Hc) as Rc.
  assert (L : c - 48 <= dec_from (c - 48) ds) by (apply dec_from_ge; [lia|exact Hd]).
  unfold dec_value in *. cbn [fold_left] in *. change (0 * 10 + (c - 48)) with (c - 48) in *.
  fold (dec_from (c - 48) ds) in *.
  assert (A : forall es, step fuel (ParseExpBegin b s fe es 0) c = Ok ([], ParseExp b s fe es (c - 48))).
  { intros es. cbn [step]. unfold cls_exp_begin, exp_add_digit, digit_to_number. rewrite Hc.
    rewrite i64_ok by lia. cbn [obind]. change 0x30 with 48. rewrite i64_ok by lia. reflexivity. }
  assert (A' : forall es, step fuel (ParseExpSign b s fe es 0) c = Ok ([], ParseExp b s fe es (c - 48))).
  { intros es. cbn [step]. unfold cls_exp, exp_add_digit, digit_to_number. rewrite Hc.
    rewrite i64_ok by lia. cbn [obind]. change 0x30 with 48. rewrite i64_ok by lia. reflexivity. }
  destruct Hsg as [->|[->| ->]]; cbn [app exp_sign].
  - rewrite (step_nil _ _ c _ _ ltac:(lia) (A _)). apply run_exp_digits; [exact Hd|lia|lia].
  - assert (E : step fuel (ParseExpBegin b s fe Positive 0) 43 = Ok ([], ParseExpSign b s fe Positive 0)) by reflexivity.
    rewrite (step_nil _ _ 43 _ _ ltac:(lia) E), (step_nil _ _ c _ _ ltac:(lia) (A' _)).
    apply run_exp_digits; [exact Hd|lia|lia].
  - assert (E : step fuel (ParseExpBegin b s fe Positive 0) 45 = Ok ([], ParseExpSign b s fe Negative 0)) by reflexivity.
    rewrite (step_nil _ _ 45 _ _ ltac:(lia) E), (step_nil _ _ c _ _ ltac:(lia) (A' _)).
    apply run_exp_digits; [exact Hd|lia|lia].
Qed.

(** Converting a zero significand. *)
Lemma number_token_zero fuel b s e : jwf b -> jval b = 0 -> number_token fuel b s e = Ok (TNumber 0).
Proof.
  intros Hb V. unfold number_token, bigfloat_to_f64, to_bin. cbn [bf_sig].
  rewrite jb_is_zero_spec, V by exact Hb. reflexivity.
Qed.

Lemma num_at_closes fuel st b s fe t : num_at st b s fe -> number_token fuel b s fe = Ok t ->
  tend fuel st = Ok [t] /\
  forall c, 0 <= c -> is_terminal c = true -> push fuel st c = prepend [t] (push fuel Initial c).
Proof.
  intros Hat Ht.
  assert (T : forall c, is_terminal c = true -> is_digit c = false /\ (c =? 46) = false /\ is_e c = false /\ (c =? 110) = false)
    by (intros c Hc; classes; lia).
  destruct Hat as [[-> [-> ->]]|[[-> ->]| ->]].
  - rewrite number_token_zero in Ht by (apply jb_zero_wf || reflexivity). inversion Ht; subst.
    split; [reflexivity|]. intros c Pc Hc. rewrite push_step by exact Pc. cbn [step]. unfold cls_zero.
    destruct (T c Hc) as [T1 [T2 [T3 T4]]]. rewrite T2, T3, T4, Hc. reflexivity.
  - cbn [tend]. rewrite Ht. split; [reflexivity|]. intros c Pc Hc. rewrite push_step by exact Pc. cbn [step].
    unfold cls_int. destruct (T c Hc) as [T1 [T2 [T3 T4]]]. rewrite T1, T2, T3, T4, Hc, Ht. reflexivity.
  - cbn [tend]. rewrite Ht. split; [reflexivity|]. intros c Pc Hc. rewrite push_step by exact Pc. cbn [step].
    unfold cls_frac. destruct (T c Hc) as [T1 [T2 [T3 T4]]]. rewrite T1, T3, Hc, Ht. reflexivity.
Qed.

Lemma exp_closes fuel b s fe es e x t :
  i64 (fe + match es with Positive => e | Negative => - e end) = Ok x -> number_token fuel b s x = Ok t ->
  tend fuel (ParseExp b s fe es e) = Ok [t] /\
  forall c, 0 <= c -> is_terminal c = true ->
    push fuel (ParseExp b s fe es e) c = prepend [t] (push fuel Initial c).
Proof.
  intros Hx Ht. cbn [tend]. unfold exp_state_into_token. rewrite Hx. cbn [obind]. rewrite Ht. split; [reflexivity|].
  intros c Pc Hc. rewrite push_step by exact Pc. cbn [step]. unfold cls_exp.
  assert (is_digit c = false) as -> by (classes; lia). rewrite Hc.
  unfold exp_state_into_token. rewrite Hx. cbn [obind]. rewrite Ht. reflexivity.
Qed.

(** Sign, integer part and fraction. *)
Lemma run_mantissa n : int_part (nl_int n) -> all_digits (nl_frac n) -> Z.of_nat (length (nl_frac n)) <= 2 ^ 63 ->
  exists st2 b2, (forall fuel rest, run fuel Initial ((if nl_neg n then [45] else []) ++ nl_int n ++
      (match nl_frac n with [] => [] | f => 46 :: f end) ++ rest) = run fuel st2 rest) /\
      num_at st2 b2 (signed (nl_neg n)) (- Z.of_nat (length (nl_frac n))) /\ jwf b2 /\ jval b2 = number_mantissa n.
Proof.
  intros Hi Hf Lf.
  destruct (run_int_part O (nl_neg n) (nl_int n) Hi) as [st1 [b1 [R1 [A1 [S1 [W1 [V1 _]]]]]]].
  unfold number_mantissa. destruct (nl_frac n) as [|c l] eqn:En.
    - exists st1, b1. cbn [length app]. change (- Z.of_nat 0) with 0. rewrite app_nil_r. auto.
    - destruct (run_fraction O st1 b1 _ (c :: l) A1 S1 W1 Hf ltac:(discriminate) Lf) as [b2 [E2 [W2 V2]]].
      exists (ParseFrac b2 (signed (nl_neg n)) (- Z.of_nat (length (c :: l)))), b2.
      split.
      + intros fuel rest. rewrite R1.
        destruct (run_fraction fuel st1 b1 _ (c :: l) A1 S1 W1 Hf ltac:(discriminate) Lf) as [b3 [E3 [W3 V3]]].
        rewrite (run_app_ok _ _ _ _ _ _ E3), prepend_nil. replace b3 with b2; [reflexivity|].
        apply jwf_inj; auto. congruence.
      + split; [right; right; reflexivity|]. split; [exact W2|].
        rewrite V2, V1. unfold dec_value. rewrite fold_left_app. reflexivity.
Qed.

(** Every number literal is read as the conversion of its mantissa and decimal exponent. *)
Lemma reads_number n : number_ok n ->
  Z.of_nat (length (nl_frac n)) <= 2 ^ 63 -> - 2 ^ 63 < exp_value n < 2 ^ 63 -> - 2 ^ 63 <= number_exp10 n ->
  exists b, jwf b /\ jval b = number_mantissa n /\
  forall fuel t, number_token fuel b (signed (nl_neg n)) (number_exp10 n) = Ok t ->
    reads fuel (number_text n) [t] is_terminal.
Proof.
  intros [Hi [Hf He]] Lf Lv Lx.
  destruct (run_mantissa n Hi Hf Lf) as [st2 [b2 [R2 [A2 [W2 V2]]]]]. exists b2. split; [exact W2|]. split; [exact V2|].
  intros fuel t Ht. unfold number_exp10, exp_value, number_text in *.
  change [t] with (([] : list token) ++ [t]).
  destruct (nl_exp n) as [[[l sg] ds]|] eqn:Ee.
  - destruct He as [Hl [Hsg [Hne Hds]]].
    assert (P : 0 <= dec_value ds) by (apply (dec_from_ge 0 ds); [lia|exact Hds]).
    assert (Dv : dec_value ds < 2 ^ 63 /\
      (match sg with [45] => - dec_value ds | _ => dec_value ds end) =
      match exp_sign sg with Positive => dec_value ds | Negative => - dec_value ds end).
    { destruct Hsg as [->|[->| ->]]; cbn [exp_sign]; split; try reflexivity; lia. }
    destruct Dv as [Dv De]. rewrite De in *.
    destruct (exp_closes fuel b2 (signed (nl_neg n)) (- Z.of_nat (length (nl_frac n))) (exp_sign sg) (dec_value ds)
      (match exp_sign sg with Positive => dec_value ds | Negative => - dec_value ds end - Z.of_nat (length (nl_frac n))) t)
      as [C1 C2].
    { rewrite i64_ok; [f_equal; lia|]. destruct (exp_sign sg); lia. }
    { exact Ht. }
    eapply reads_run; [|exact C1|exact C2].
    rewrite R2. apply run_exponent; auto.
  - rewrite Z.sub_0_l in Ht. destruct (num_at_closes _ _ _ _ _ _ A2 Ht) as [C1 C2].
    eapply reads_run; [|exact C1|exact C2]. rewrite R2. reflexivity.
Qed.

(** * BigInt literals *)
Lemma reads_bigint fuel neg l : int_part l -> exists b, jwf b /\
  jval b = (if neg : bool then - dec_value l else dec_value l) /\
  reads fuel ((if neg then [45] else []) ++ l ++ [110]) [TBigInt b] is_terminal.
Proof.
  intros Hi. destruct (run_int_part fuel neg l Hi) as [st [b [R [A [S [W [V _]]]]]]].
  assert (C : forall b', tend fuel (ParseBigInt b') = Ok [TBigInt b'] /\ forall c, 0 <= c -> is_terminal c = true ->
    push fuel (ParseBigInt b') c = prepend [TBigInt b'] (push fuel Initial c)).
  { intros b'. split; [reflexivity|]. intros c Pc Hc. rewrite push_step by exact Pc. cbn [step]. rewrite Hc. reflexivity. }
  destruct A as [[-> [-> _]]|[[-> _]| ->]].
  - exists jb_zero. split; [apply jb_zero_wf|]. change (jval jb_zero) with 0 in *. split; [destruct neg; lia|].
    change [TBigInt jb_zero] with (([] : list token) ++ [TBigInt jb_zero]).
    destruct (C jb_zero) as [C1 C2]. eapply reads_run; [|exact C1|exact C2]. rewrite R.
    assert (E : step fuel (ParseZero (signed neg)) 110 = Ok ([], ParseBigInt jb_zero)) by reflexivity.
    rewrite (step_nil _ _ 110 _ _ ltac:(lia) E). reflexivity.
  - exists (into_bigint_state b (signed neg)).
    assert (HB : jwf (into_bigint_state b (signed neg)) /\
      jval (into_bigint_state b (signed neg)) = if neg then - dec_value l else dec_value l).
    { destruct neg; cbn [signed into_bigint_state]; [|auto]. destruct (jb_negative_spec b W) as [N1 N2].
      rewrite N2, V. auto. }
    split; [apply HB|]. split; [apply HB|].
    match goal with |- reads _ _ [?t] _ => change [t] with (([] : list token) ++ [t]) end.
    destruct (C (into_bigint_state b (signed neg))) as [C1 C2]. eapply reads_run; [|exact C1|exact C2]. rewrite R.
    assert (E : step fuel (ParseInt b (signed neg)) 110 = Ok ([], ParseBigInt (into_bigint_state b (signed neg)))) by reflexivity.
    rewrite (step_nil _ _ 110 _ _ ltac:(lia) E). reflexivity.
  - destruct S; discriminate.
Qed.
