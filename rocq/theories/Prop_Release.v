(** C91: number literals in a build without overflow checks. *)
From Coq Require Import ZArith List Bool String Lia Reals Lra.
From Flocq Require Import Core BinarySingleNaN Binary Bits.
From Coq Require Import ZifyBool ZifyNat.
From Verif Require Import Outcome VTac LimbsModel LimbsSpec BigIntModel JsBigintModel BigFloatModel BigSpec JsBigintProofs BigIntProofs LimbsProofs TextSpec BigFloatSpec BigFloatRound TokenizerModel TokenizerSpec TokenizerProofs TokenizerRun TokenizerNum
  JsTextSpec ReleaseModel ReleaseProofs.
Import ListNotations.
Open Scope Z_scope.

(** Where the debug build does not panic, both builds read the same. *)
Theorem C91_same : forall fuel text, tokenize fuel text <> Panic -> tokenize_r (convert fuel) text = tokenize fuel text.
Proof. intros fuel text H. destruct (tokenize_same fuel text) as [E|E]; [destruct (H E)|exact E]. Qed.
Print Assumptions C91_same.

(** The end of a literal: the end of the text, or white space, punctuation, quote or slash. *)
Definition ended (q : list Z) : Prop := match q with [] => True | c :: _ => 0 <= c /\ is_terminal c = true end.

Lemma exp_terminal c : 0 <= c -> is_terminal c = true -> get_transition exp_map c = Ok (Some XTerminal).
Proof.
  intros H0 H. rewrite get_exp by exact H0. unfold cls_exp.
  assert (is_digit c = false) as -> by (classes; lia). rewrite H. reflexivity.
Qed.
Lemma exponent_sum fe es e : wrap64 (fe + match es with Positive => wrap64 e | Negative => wrap64 (- wrap64 e) end) =
  wrap64 (match es with Positive => e | Negative => - e end + fe).
Proof.
  destruct es.
  - rewrite wrap64_wrap, Z.add_comm. reflexivity.
  - rewrite wrap64_wrap. apply wrap64_eq. replace (fe + - wrap64 e) with (fe - wrap64 e) by lia.
    rewrite <- (Zminus_mod_idemp_r fe (wrap64 e)), wrap64_mod, Zminus_mod_idemp_r. f_equal. lia.
Qed.

(** The exponent is read modulo 2^64: every literal with an exponent part, whatever its value, is
    converted with the [i64] that has the same lowest 64 bits. *)
Theorem C91_modulo : forall n, number_ok n -> nl_exp n <> None -> Z.of_nat (List.length (nl_frac n)) <= 2 ^ 63 ->
  exists b, jwf b /\ jval b = number_mantissa n /\ forall conv q, ended q ->
    tokenize_r conv (number_text n ++ q) =
    (let! bits := conv b (if nl_neg n then Negative else Positive) (wrap64 (number_exp10 n)) in
     let! ts := tokenize_r conv q in Ok (TNumber bits :: ts)).
Proof.
  intros n [Hi [Hf He]] Hx Lf. destruct (run_mantissa n Hi Hf Lf) as [st [b [R [A [W V]]]]].
  exists b. split; [exact W|]. split; [exact V|]. intros conv q Hq.
  unfold number_exp10, exp_value, number_text. destruct (nl_exp n) as [[[l sg] ds]|]; [|congruence]. clear Hx.
  destruct He as [Hl [Hsg [Hne Hds]]].
  set (head := (if nl_neg n then [45] else []) ++ nl_int n ++ (match nl_frac n with [] => [] | f => 46 :: f end)).
  replace (((if nl_neg n then [45] else []) ++ nl_int n ++ (match nl_frac n with [] => [] | f => 46 :: f end) ++ l :: sg ++ ds) ++ q)
    with (head ++ (l :: sg ++ ds) ++ q) by (unfold head; rewrite <- !app_assoc; reflexivity).
  assert (Rh : run O Initial head = Ok ([], st)).
  { specialize (R O []). rewrite app_nil_r in R. exact R. }
  unfold tokenize_r at 1. rewrite run_r_app, (run_quiet O conv st head Initial Rh). cbn [obind]. rewrite prepend_nil.
  rewrite run_r_app, (exponent_r conv st b _ _ l sg ds A Hl Hsg Hds Hne). cbn [obind]. rewrite prepend_nil.
  set (x := wrap64 (match sg with [45] => - dec_value ds | _ => dec_value ds end - Z.of_nat (List.length (nl_frac n)))).
  assert (Ex : exp_state_into_token_r conv b (signed (nl_neg n)) (- Z.of_nat (List.length (nl_frac n))) (exp_sign sg) (wrap64 (dec_value ds))
    = number_token_r conv b (signed (nl_neg n)) x).
  { unfold exp_state_into_token_r. f_equal. rewrite exponent_sum. unfold x. f_equal. destruct Hsg as [->|[->| ->]]; reflexivity. }
  destruct q as [|c q].
  - cbn [run_r obind tend_r]. rewrite Ex. unfold number_token_r, signed. destruct (conv b _ x); reflexivity.
  - destruct Hq as [H0 Ht]. cbn [run_r push_r]. rewrite (exp_terminal c H0 Ht). cbn [obind]. rewrite Ex. unfold number_token_r, signed.
    destruct (conv b _ x) as [bits| |]; cbn [obind]; try reflexivity. unfold tokenize_r. cbn [run_r].
    change (push_r conv Initial c) with (push O Initial c). destruct (push O Initial c) as [[t s]| |]; cbn [obind]; try reflexivity.
    change ([TNumber bits] ++ t) with (TNumber bits :: t). destruct (run_r conv s q) as [[t' s']| |]; cbn [prepend obind]; try reflexivity.
    destruct (tend_r conv s'); reflexivity.
Qed.
Print Assumptions C91_modulo.

(** So literals whose exponents differ by a multiple of 2^64 are read alike, whatever the
    conversion. *)
Definition same_but_exponent (n n' : number_lit) : Prop :=
  nl_neg n = nl_neg n' /\ nl_int n = nl_int n' /\ nl_frac n = nl_frac n' /\ nl_exp n <> None /\ nl_exp n' <> None.
Theorem C91_congruent : forall n n', number_ok n -> number_ok n' -> same_but_exponent n n' -> Z.of_nat (List.length (nl_frac n)) <= 2 ^ 63 ->
  exp_value n mod 2 ^ 64 = exp_value n' mod 2 ^ 64 -> forall conv q, ended q ->
  tokenize_r conv (number_text n ++ q) = tokenize_r conv (number_text n' ++ q).
Proof.
  intros n n' Hn Hn' (E1 & E2 & E3 & X & X') Lf Hv conv q Hq.
  destruct (C91_modulo n Hn X Lf) as (b & W & V & H). destruct (C91_modulo n' Hn' X' ltac:(rewrite <- E3; exact Lf)) as (b' & W' & V' & H').
  rewrite H, H' by exact Hq. assert (b = b') as <-.
  { apply jwf_inj; auto. rewrite V, V'. unfold number_mantissa. rewrite E2, E3. reflexivity. }
  rewrite E1. replace (wrap64 (number_exp10 n')) with (wrap64 (number_exp10 n)); [reflexivity|].
  apply wrap64_eq. unfold number_exp10. rewrite E3, <- (Zminus_mod_idemp_l (exp_value n)), Hv, Zminus_mod_idemp_l. reflexivity.
Qed.
Print Assumptions C91_congruent.

Lemma huge_decimal m e : 1 <= m -> 1024 <= e -> (bpow radix2 1024 <= dec_real m e)%R.
Proof.
  intros Hm He. unfold dec_real. apply Rle_trans with (1 * bpow radix2 e)%R; [rewrite Rmult_1_l; apply bpow_le, He|].
  apply Rmult_le_compat; [lra|apply bpow_ge_0|apply IZR_le, Hm|].
  rewrite bpow_powerRZ. destruct e as [|p|p]; try lia. cbn [powerRZ]. apply pow_incr. cbn. lra.
Qed.

(** So every literal that reads as a finite number has counterparts with greater and greater
    exponents that read as the same number, though their value is infinity. *)
Theorem C91_finite_refuted : forall n n' fuel bits, number_ok n -> number_ok n' -> same_but_exponent n n' ->
  Z.of_nat (List.length (nl_frac n)) <= 2 ^ 62 -> 1 <= number_mantissa n -> - 2 ^ 62 <= exp_value n ->
  (exists k, 1 <= k /\ exp_value n' = exp_value n + k * 2 ^ 64) ->
  tokenize_r (convert fuel) (number_text n) = Ok [TNumber bits] -> is_finite 53 1024 (b64_of_bits bits) = true ->
  tokenize_r (convert fuel) (number_text n') = Ok [TNumber bits] /\ ~ literal_value n' bits.
Proof.
  intros n n' fuel bits Hn Hn' Hs Lf Hm Hx (k & Hk & Ek) E Hfin. split.
  - rewrite <- (app_nil_r (number_text n')), <- (C91_congruent n n' Hn Hn' Hs ltac:(lia)), app_nil_r; [exact E| |exact I].
    rewrite Ek, Z_mod_plus_full. reflexivity.
  - intros (_ & _ & H). assert (L : (bpow radix2 1024 <= dec_real (number_mantissa n') (number_exp10 n'))%R).
    { destruct Hs as (E1 & E2 & E3 & _). apply huge_decimal; [unfold number_mantissa in *; rewrite <- E2, <- E3; exact Hm|].
      unfold number_exp10. rewrite <- E3, Ek. lia. }
    rewrite (H (rne64_ge_bpow _ L)) in Hfin. discriminate.
Qed.
Print Assumptions C91_finite_refuted.

(** 1e18446744073709551617 reads as 10, and 1e-18446744073709551614 as 100; the debug build panics. *)
Example C91_case :
  tokenize_r (convert 500) (txt "[1e18446744073709551617]") = Ok [TArrayBegin; TNumber 0x4024000000000000; TArrayEnd] /\
  tokenize_r (convert 500) (txt "1e-18446744073709551614") = Ok [TNumber 0x4059000000000000] /\
  tokenize_r (convert 500) (txt "1e1") = Ok [TNumber 0x4024000000000000] /\
  tokenize 50 (txt "[1e18446744073709551617]") = Panic.
Proof. vm_compute. repeat split. Qed.

(** * C14: from_i64 *)
(** Without overflow checks the conversion of an integer is right for every argument. *)
Theorem C14_release : forall n, - 2 ^ 63 <= n < 2 ^ 63 -> bival (bi_from_i64_r n) = n /\
  (n <> - 2 ^ 63 -> bi_from_i64 n = Ok (bi_from_i64_r n)).
Proof.
  intros n Hn. pose proof B_val as HB. unfold bi_from_i64_r, bi_from_i64, bival.
  assert (Hp : n * sign_int (if n <? 0 then Negative else Positive) = Z.abs n).
  { destruct (n <? 0) eqn:E; cbn [sign_int]; lia. }
  rewrite Hp. cbn [bi_sign bi_value]. rewrite val_cons, val_nil. split.
  - assert (E : wrap64 (Z.abs n) mod B = Z.abs n).
    { replace B with (2 ^ 64) by lia. rewrite wrap64_mod. apply Z.mod_small. lia. }
    rewrite E. destruct (n <? 0) eqn:E2; lia.
  - intros Hm. destruct (2 ^ 63 <=? Z.abs n) eqn:E; [lia|]. rewrite wrap64_id by lia. reflexivity.
Qed.
Print Assumptions C14_release.
Example C14_release_case : bival (bi_from_i64_r (- 2 ^ 63)) = - 2 ^ 63 /\ bi_from_i64 (- 2 ^ 63) = Panic.
Proof. vm_compute. split; reflexivity. Qed.
