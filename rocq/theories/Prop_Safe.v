(** Properties C13, C23, C25, C26, C27, C31, C45 and C70 once more: what never happens, whatever the
    fuel.  Even where the division or the conversion does not return, it does not panic; the
    tokenizer panics on texts whose exponents do not fit the integers of the code, and only there;
    the converter panics through a semicolon in a constant or a bigint, and only there. *)
From Coq Require Import ZArith List Bool String Lia.
From Coq Require Import ZifyBool ZifyNat.
From Verif Require Import Outcome VTac LimbsModel LimbsSpec BigIntModel JsBigintModel BigFloatModel BigSpec LimbsProofs ShiftProofs JsBigintProofs
  Prop_JsBigint RangeMapSpec TokenizerModel TokenizerSpec TokenizerProofs TokenizerRun TokenizerLex TokenizerNum TokenizerTotal TokenizerGrammar
  NumberSafe TokenizerSafe ValueModel ParserModel ParserSpec TextSpec ParserRun ParserModules Prop_Parser SerializerModel SerializerSpec SerializerProofs SerializerDjs
  Prop_Serializer TextProofs ConvertSpec Prop_Text Prop_Convert.
Import ListNotations.
Open Scope Z_scope.
Local Notation jwf := BigSpec.jwf.

(** * C23: division *)

(** Dividing by a number other than zero never panics.  Whatever comes back when |a| >= |b| is a
    well-formed non-zero quotient and a remainder smaller than the divisor, with the sign of the
    product, and is right modulo 2^(64 (n + 1)) if |b| >= 2^(64 n): the only wrong results are
    those of subtractions that wrapped. *)
Theorem C23_returned : forall a b fuel, jwf a -> jwf b -> jval b <> 0 ->
  jb_div_mod fuel a b <> Panic /\
  forall q r, jb_div_mod fuel a b = Ok (q, r) -> jwf q /\ jwf r /\
    (Z.abs (jval b) <= Z.abs (jval a) ->
     0 < jval q * (Z.sgn (jval a) * Z.sgn (jval b)) /\ 0 <= jval r * (Z.sgn (jval a) * Z.sgn (jval b)) /\ Z.abs (jval r) < Z.abs (jval b) /\
     forall n, 0 <= n -> 2 ^ (64 * n) <= Z.abs (jval b) ->
       (2 ^ (64 * (n + 1)) | Z.abs (jval q) * Z.abs (jval b) + Z.abs (jval r) - Z.abs (jval a))).
Proof.
  intros a b fuel Ha Hb Hn. pose proof (jb_div_mod_safe a b Ha Hb Hn fuel) as H. cbv beta in H.
  destruct (jb_div_mod fuel a b) as [[q r]| |]; [|contradiction|split; discriminate]. split; [discriminate|].
  intros q' r' [= <- <-]. destruct H as (H1 & H2 & _ & H3 & H4 & H5). split; [exact H1|]. split; [exact H2|]. intros Hge.
  destruct (H5 Hge) as (Q & R & M). split; [|split; [exact H4|split; [exact R|]]].
  - assert (S1 : Z.sgn (jval a) <> 0) by (rewrite Z.sgn_null_iff; lia).
    assert (S2 : Z.sgn (jval b) <> 0) by (rewrite Z.sgn_null_iff; lia).
    assert (jval q * (Z.sgn (jval a) * Z.sgn (jval b)) <> 0) by (rewrite !Z.mul_eq_0; tauto). lia.
  - intros n H0 Hl. assert (Hlen : n + 1 <= Z.of_nat (List.length (jb_items b))).
    { rewrite jabs in Hl by auto. pose proof (val_bound (jb_items b) (canon_limbs _ (proj1 Hb))) as Hv.
      destruct (Z.le_gt_cases (n + 1) (Z.of_nat (List.length (jb_items b)))) as [L|L]; [exact L|]. exfalso.
      assert (B ^ Z.of_nat (List.length (jb_items b)) <= 2 ^ (64 * n)); [|lia].
      rewrite B_eq, <- Z.pow_mul_r by lia. apply Z.pow_le_mono_r; lia. }
    apply Z.divide_trans with (B ^ Z.of_nat (List.length (jb_items b))).
    + rewrite B_eq, <- Z.pow_mul_r by lia. exists (2 ^ (64 * Z.of_nat (List.length (jb_items b)) - 64 * (n + 1))).
      rewrite <- Z.pow_add_r by lia. f_equal. lia.
    + pose proof (Bpow_pos (Z.of_nat (List.length (jb_items b))) ltac:(lia)) as HP. apply Z.mod_divide; [lia|].
      rewrite Zminus_mod, M, Z.sub_diag, Z.mod_0_l by lia. reflexivity.
Qed.
Print Assumptions C23_returned.
(** A wrong quotient that comes back, 2^128 for (2^128 + 1) / (2^64 + 1): off by 2^192. *)
Example C23_returned_case : exists q r, jb_div_mod 100 (jb 3 [1; 0; 1]) (jb 2 [1; 1]) = Ok (q, r) /\
  jval q * jval (jb 2 [1; 1]) + jval r = jval (jb 3 [1; 0; 1]) + 2 ^ 192.
Proof. eexists _, _. split; vm_compute; reflexivity. Qed.

(** * C25, C26, C27: conversion of decimals *)

(** [to_bin] and [to_f64] never panic; a significand that comes back is positive and has at most
    the bits that were asked for, a double is a 64-bit pattern. *)
Theorem C25_no_panic : forall f p fuel, jwf (bf_sig f) -> 0 < jval (bf_sig f) -> - 2 ^ 63 < bf_exp f < 2 ^ 63 -> 1 <= p < 256 ->
  to_bin fuel f p <> Panic /\
  forall g, to_bin fuel f p = Ok g -> jwf (bf_sig g) /\ 0 < jval (bf_sig g) < 2 ^ p.
Proof.
  intros f p fuel Hs Ps He Hp. pose proof (to_bin_safe f p (conj Hs Ps) He Hp fuel) as H. cbv beta in H.
  destruct (to_bin fuel f p) as [g| |]; [|contradiction|split; discriminate]. split; [discriminate|].
  intros g' [= <-]. destruct H as [[H1 H2] H3]. auto.
Qed.
Print Assumptions C25_no_panic.
Theorem C26_no_panic : forall f fuel, jwf (bf_sig f) -> 0 <= jval (bf_sig f) ->
  to_f64 fuel f <> Panic /\ forall bits, to_f64 fuel f = Ok bits -> 0 <= bits < 2 ^ 64.
Proof.
  intros f fuel Hs Ps. destruct (Z.eq_dec (jval (bf_sig f)) 0) as [E|N].
  - unfold to_f64, get_f64_bits. rewrite jb_is_zero_spec by auto. destruct (Z.eqb_spec (jval (bf_sig f)) 0) as [_|]; [|lia].
    split; [discriminate|]. intros bits [= <-]. destruct (bf_sign f); vm_compute; intuition discriminate.
  - assert (Hp : 0 < jval (bf_sig f)) by lia. pose proof (to_f64_safe f (conj Hs Hp) fuel) as H. cbv beta in H.
    destruct (to_f64 fuel f) as [g| |]; [|contradiction|split; discriminate]. split; [discriminate|]. intros bits [= <-]. exact H.
Qed.
Print Assumptions C26_no_panic.
Theorem C27_no_panic : forall f fuel, jwf (bf_sig f) -> 0 <= jval (bf_sig f) -> - 2 ^ 63 < bf_exp f < 2 ^ 63 ->
  (let! g := to_bin fuel f 54 in to_f64 fuel g) <> Panic /\
  forall bits, (let! g := to_bin fuel f 54 in to_f64 fuel g) = Ok bits -> 0 <= bits < 2 ^ 64.
Proof.
  intros f fuel Hs Ps He. pose proof (decimal_safe f Hs Ps He fuel) as H. cbv beta in H.
  destruct (let! g := to_bin fuel f 54 in to_f64 fuel g) as [g| |]; [|contradiction|split; discriminate].
  split; [discriminate|]. intros bits [= <-]. exact H.
Qed.
Print Assumptions C27_no_panic.
(** 1e-51 is below the exponents for which every conversion is known to return, and is converted
    (to the right double); 3e-51 is not, whatever the fuel (C27_decimal_refuted). *)
Example C27_no_panic_case :
  (let! g := to_bin 3000 {| bf_sig := jb 1 [1]; bf_sign := Positive; bf_exp := -51; bf_rem := false |} 54 in to_f64 3000 g) = Ok 0x3557f1fb6f10934c /\
  (let! g := to_bin 3000 {| bf_sig := jb 1 [3]; bf_sign := Positive; bf_exp := -51; bf_rem := false |} 54 in to_f64 3000 g) = NoFuel.
Proof. vm_compute. split; reflexivity. Qed.

(** * C31: tokenizing *)

(** Texts whose exponents fit never make the tokenizer panic, and what comes back is well-formed. *)
Theorem C31_no_panic : forall text fuel, chars text -> ranged text ->
  tokenize fuel text <> Panic /\ forall ts, tokenize fuel text = Ok ts -> Forall tok_ok ts.
Proof.
  intros text fuel Hc Hr. pose proof (tokenize_safe text Hc Hr fuel) as H. cbv beta in H.
  destruct (tokenize fuel text) as [ts| |]; [|contradiction|split; discriminate]. split; [discriminate|]. intros ts' [= <-]. exact H.
Qed.
Print Assumptions C31_no_panic.

Lemma i64_panic n : 2 ^ 63 <= n -> i64 n = Panic.
Proof. intros H. unfold i64. replace ((- 2 ^ 63 <=? n) && (n <? 2 ^ 63)) with false by lia. reflexivity. Qed.
Lemma run_panic fuel st c l : 0 <= c -> step fuel st c = Panic -> run fuel st (c :: l) = Panic.
Proof. intros Hc E. cbn [run]. rewrite push_step, E by exact Hc. reflexivity. Qed.
Lemma exp_overflow fuel b s fe es l : all_digits l -> forall e, 0 <= e < 2 ^ 63 -> 2 ^ 63 <= dec_from e l ->
  run fuel (ParseExp b s fe es e) l = Panic.
Proof.
  induction 1 as [|c l Hc H IH]; intros e He Hl; [cbn in Hl; lia|]. pose proof (digit_range c Hc).
  cbn [dec_from fold_left] in Hl. fold (dec_from (e * 10 + (c - 48)) l) in Hl.
  destruct (Z.le_gt_cases (2 ^ 63) (e * 10 + (c - 48))) as [L|L].
  - apply run_panic; [lia|]. cbn [step]. unfold cls_exp, exp_add_digit, digit_to_number. rewrite Hc. change 0x30 with 48.
    destruct (Z.le_gt_cases (2 ^ 63) (e * 10)) as [L'|L']; [rewrite i64_panic by lia; reflexivity|].
    rewrite i64_ok by lia. cbn [obind]. rewrite i64_panic by lia. reflexivity.
  - assert (E : step fuel (ParseExp b s fe es e) c = Ok ([], ParseExp b s fe es (e * 10 + (c - 48)))).
    { cbn [step]. unfold cls_exp, exp_add_digit, digit_to_number. rewrite Hc. rewrite i64_ok by lia. cbn [obind].
      change 0x30 with 48. rewrite i64_ok by lia. reflexivity. }
    rewrite (step_nil _ _ c _ _ ltac:(lia) E). apply IH; lia.
Qed.
Lemma exponent_overflow fuel st b s fe l sg ds : num_at st b s fe -> l = 101 \/ l = 69 ->
  sg = [] \/ sg = [43] \/ sg = [45] -> all_digits ds -> 2 ^ 63 <= dec_value ds ->
  run fuel st (l :: sg ++ ds) = Panic.
Proof.
  intros Hat Hl Hsg Hd Hv.
  rewrite (step_nil _ _ l _ _ ltac:(lia) (run_exp_letter fuel _ _ _ _ _ Hat Hl)).
  destruct Hd as [|c ds Hc Hd]; [cbn in Hv; lia|]. pose proof (digit_range c Hc) as Rc.
  unfold dec_value in *. cbn [fold_left] in *. change (0 * 10 + (c - 48)) with (c - 48) in *.
  assert (A : forall es, step fuel (ParseExpBegin b s fe es 0) c = Ok ([], ParseExp b s fe es (c - 48))).
  { intros es. cbn [step]. unfold cls_exp_begin, exp_add_digit, digit_to_number. rewrite Hc.
    rewrite i64_ok by lia. cbn [obind]. change 0x30 with 48. rewrite i64_ok by lia. reflexivity. }
  assert (A' : forall es, step fuel (ParseExpSign b s fe es 0) c = Ok ([], ParseExp b s fe es (c - 48))).
  { intros es. cbn [step]. unfold cls_exp, exp_add_digit, digit_to_number. rewrite Hc.
    rewrite i64_ok by lia. cbn [obind]. change 0x30 with 48. rewrite i64_ok by lia. reflexivity. }
  destruct Hsg as [->|[->| ->]]; cbn [app].
  - rewrite (step_nil _ _ c _ _ ltac:(lia) (A _)). apply exp_overflow; [exact Hd|lia|exact Hv].
  - assert (E : step fuel (ParseExpBegin b s fe Positive 0) 43 = Ok ([], ParseExpSign b s fe Positive 0)) by reflexivity.
    rewrite (step_nil _ _ 43 _ _ ltac:(lia) E), (step_nil _ _ c _ _ ltac:(lia) (A' _)).
    apply exp_overflow; [exact Hd|lia|exact Hv].
  - assert (E : step fuel (ParseExpBegin b s fe Positive 0) 45 = Ok ([], ParseExpSign b s fe Negative 0)) by reflexivity.
    rewrite (step_nil _ _ 45 _ _ ltac:(lia) E), (step_nil _ _ c _ _ ltac:(lia) (A' _)).
    apply exp_overflow; [exact Hd|lia|exact Hv].
Qed.
Lemma literal_overflow n : number_ok n -> Z.of_nat (List.length (nl_frac n)) <= 2 ^ 63 -> 2 ^ 63 <= Z.abs (exp_value n) ->
  forall fuel q, tokenize fuel (number_text n ++ q) = Panic.
Proof.
  intros [Hi [Hf He]] Lf Lv fuel q. destruct (run_mantissa n Hi Hf Lf) as [st2 [b2 [R2 [A2 _]]]].
  rewrite tokenize_run. unfold number_text, exp_value in *. destruct (nl_exp n) as [[[l sg] ds]|]; [|cbn in Lv; lia].
  destruct He as [Hl [Hsg [Hne Hds]]]. rewrite <- !app_assoc, R2. rewrite run_app.
  assert (P : 0 <= dec_value ds) by (apply (dec_from_ge 0 ds); [lia|exact Hds]).
  rewrite (exponent_overflow fuel st2 _ _ _ l sg ds A2 Hl Hsg Hds); [reflexivity|]. destruct Hsg as [->|[->| ->]]; lia.
Qed.

(** The converse: after every sequence of tokens, every literal with an exponent of 2^63 or more
    in magnitude panics, whatever follows. *)
Theorem C31_exponent_panics : forall a ta nl f n, lexseq a ta nl f -> number_ok n -> next_ok f (number_text n) ->
  Z.of_nat (List.length (nl_frac n)) <= 2 ^ 63 -> 2 ^ 63 <= Z.abs (exp_value n) ->
  exists f0, forall fuel q, (f0 <= fuel)%nat -> tokenize fuel (a ++ number_text n ++ q) = Panic.
Proof.
  intros a ta nl f n Ha Hn Hx Lf Lv. destruct (lexseq_reads a ta nl f Ha) as [f0 H]. exists f0. intros fuel q Hfu.
  rewrite H; [rewrite (literal_overflow n Hn Lf Lv); reflexivity|exact Hfu|].
  assert (Hne : number_text n <> []).
  { unfold number_text. destruct Hn as [[_ [->|[c [l' [-> _]]]]] _]; destruct (nl_neg n); discriminate. }
  destruct (number_text n); [congruence|exact Hx].
Qed.
Print Assumptions C31_exponent_panics.
(** -2^63 itself, and -2^63 + 1, which the tokenizer hands on to the conversion (the significand is 0,
    so it returns). *)
Example C31_exponent_case :
  let n := {| nl_neg := true; nl_int := txt "1"; nl_frac := txt "5"; nl_exp := Some (101, [45], txt "9223372036854775808") |} in
  number_ok n /\ exp_value n = - 2 ^ 63 /\ number_text n = txt "-1.5e-9223372036854775808" /\
  tokenize 50 (txt "[true," ++ number_text n ++ txt ";") = Panic /\
  tokenize 50 (txt "[true,0e-9223372036854775807") = Ok [TArrayBegin; TId (txt "true"); TComma; TNumber 0].
Proof.
  cbv zeta. split; [|vm_compute; repeat split; reflexivity]. split; [split; [repeat constructor|right; exists 49, []; split; [reflexivity|lia]]|].
  split; [repeat constructor|]. cbn [nl_exp]. split; [auto|]. split; [auto|]. split; [discriminate|repeat constructor].
Qed.

(** * C45: parsing *)

(** For every file system whose texts have exponents that fit, and every fuel: parsing panics only
    if one of the files has a semicolon in a constant. *)
Theorem C45_ranged_panic_only : forall io tf R k depth,
  (forall p text, io p = Some text -> chars text /\ ranged text) -> parse io tf depth (fresh R k) = Panic ->
  exists p text ts, io p = Some text /\ tokenize tf text = Ok ts /\ semicolon_in_constant ts.
Proof.
  intros io tf R k depth H. apply C45_modules_panic_only. intros p text E. destruct (H p text E). apply C31_no_panic; assumption.
Qed.
Print Assumptions C45_ranged_panic_only.

(** * C70: converting *)

Lemma consts_panic_mono show peek f f' : (f <= f')%nat -> forall s, write_consts show peek f s = Panic -> write_consts show peek f' s = Panic.
Proof.
  revert f'. induction f as [|f IH]; intros f' Hf s H.
  - cbn [write_consts] in H. destruct (peek (dj_todo s)); discriminate.
  - destruct f' as [|f']; [lia|]. cbn [write_consts] in *. destruct (peek (dj_todo s)) as [a|]; [|discriminate].
    destruct (consts_and_any show a s) as [s'| |]; cbn [obind] in *; [apply IH; [lia|exact H]|reflexivity|discriminate].
Qed.
Lemma consts_ok_mono show peek f f' : (f <= f')%nat -> forall s t, write_consts show peek f s = Ok t -> write_consts show peek f' s = Ok t.
Proof.
  revert f'. induction f as [|f IH]; intros f' Hf s t H.
  - cbn [write_consts] in H. destruct f'; cbn [write_consts]; destruct (peek (dj_todo s)); congruence.
  - destruct f' as [|f']; [lia|]. cbn [write_consts] in *. destruct (peek (dj_todo s)) as [a|]; [|exact H].
    destruct (consts_and_any show a s) as [s'| |]; cbn [obind] in *; [apply IH; [lia|exact H]|discriminate|discriminate].
Qed.
Lemma djs_panic_mono show peek f f' v cjs : (f <= f')%nat -> to_djs show peek f v cjs = Panic -> to_djs show peek f' v cjs = Panic.
Proof.
  intros Hf. unfold to_djs. cbv zeta. set (s0 := {| dj_out := []; dj_todo := _; dj_refs := _ |}). intros H.
  destruct (write_consts show peek f s0) as [s| |] eqn:E; cbn [obind] in H; [|rewrite (consts_panic_mono _ _ _ _ Hf _ E); reflexivity|discriminate].
  rewrite (consts_ok_mono _ _ _ _ Hf _ _ E). exact H.
Qed.
Lemma has_bigint : forall v, no_bigint v \/ exists b, sub v (ABigint b).
Proof.
  induction v as [v IH] using any_children_ind.
  assert (H : (forall c, In c (children v) -> no_bigint c) \/ exists c b, In c (children v) /\ sub c (ABigint b)).
  { induction (children v) as [|c l IHl]; [left; intros c []|].
    destruct (IH c (or_introl eq_refl)) as [H|[b H]]; [|right; exists c, b; split; [left; reflexivity|exact H]].
    destruct IHl as [G|(c' & b & G1 & G2)]; [intros; apply IH; right; assumption| |right; exists c', b; split; [right; exact G1|exact G2]].
    left. intros c' [<-|Hc]; auto. }
  destruct H as [H|(c & b & H1 & H2)]; [|right; exists b; eapply sub_child; eauto].
  destruct v as [ |b|f|s|b|i l|i l]; try (left; intros x Hx y ->; inversion Hx as [|? c ? Hc Hs]; subst; exact (H _ Hc _ Hs _ eq_refl)).
  right. exists b. constructor.
Qed.

(** For every file system whose texts have exponents that fit, every fuel and at least two file
    names: the converter panics only if a file has a semicolon in a constant or the value of the
    input has a bigint in it. *)
Theorem C70_panic_only : forall show peek disk io tf depth cfuel prog input output rest, any_order peek ->
  (forall p text, io p = Some text -> Forall scalar_value text /\ ranged text) ->
  app_run show peek disk tf depth cfuel (prog :: input :: output :: rest) io = Panic ->
  (exists p text ts, io p = Some text /\ tokenize tf text = Ok ts /\ semicolon_in_constant ts) \/
  (exists c d v b, parse io tf depth (fresh input 0) = Ok (c, inl (d, v)) /\ sub v (ABigint b)).
Proof.
  intros show peek disk io tf depth cfuel prog input output rest order Hio.
  assert (Hch : forall text, Forall scalar_value text -> chars text).
  { intros text. apply Forall_impl. unfold scalar_value. lia. }
  unfold app_run. fold (fresh input 0). destruct (file_to_data_type output) as [dt|] eqn:Edt; [|discriminate].
  destruct (parse io tf depth (fresh input 0)) as [[c [[d v]|err]]| |] eqn:E; cbn [obind]; try discriminate.
  - intros H. right. destruct (has_bigint v) as [Hb|[b Hb]]; [exfalso|exists c, d, v, b; auto].
    assert (Hu : SerializerSpec.units v).
    { apply text_units. eapply C73_well_formed; [|exact E]. intros p text Ep. apply (Hio p text Ep). }
    pose proof (C74_one_heap _ _ _ _ _ _ _ _ E) as Hh.
    assert (Hw : forall text, write_out disk io output text <> Panic).
    { intros text. unfold write_out. destruct (disk output text); discriminate. }
    destruct (C55_total_partial show v Hb Hu) as [[text Hj] Hdj]. specialize (Hdj Hh peek order).
    assert (Hd : forall cjs, to_djs show peek cfuel v cjs <> Panic).
    { intros cjs Hp. destruct (Hdj cjs) as [f0 Hf]. destruct (Hf (Nat.max f0 cfuel) ltac:(lia)) as [x Hx].
      rewrite (djs_panic_mono show peek cfuel (Nat.max f0 cfuel) v cjs ltac:(lia) Hp) in Hx. discriminate. }
    unfold file_to_data_type in Edt. repeat match type of Edt with context [if ?b then _ else _] => destruct b end; try discriminate; injection Edt as <-.
    + rewrite Hj in H. exact (Hw _ H).
    + specialize (Hd true). destruct (to_djs show peek cfuel v true) as [x| |]; [exact (Hw _ H)|congruence|discriminate].
    + specialize (Hd false). destruct (to_djs show peek cfuel v false) as [x| |]; [exact (Hw _ H)|congruence|discriminate].
  - intros _. left. apply (C45_ranged_panic_only io tf input 0 depth); [|exact E]. intros p text Ep. destruct (Hio p text Ep). auto.
Qed.
Print Assumptions C70_panic_only.
Lemma calm_ranged text : calm text -> ranged text.
Proof. intros [H1 H2]. split; [exact H1|]. intros p d frac n ex v q E Hd Hf He Hl. destruct (H2 p d frac n ex v q E Hd Hf He Hl). lia. Qed.
(** Both ways to panic, on files with such texts. *)
Example C70_panic_case :
  let io : fs := fun p => if str_eqb p (txt "b") then Some (txt "[7n]") else if str_eqb p (txt "s") then Some (txt "const a=[1;") else None in
  ranged (txt "[7n]")
  /\ app_run show_two first_key good_disk 100 2 10 [txt "nanvm"; txt "b"; txt "o.d.cjs"] io = Panic
  /\ app_run show_two first_key good_disk 100 2 10 [txt "nanvm"; txt "s"; txt "o.json"] io = Panic.
Proof.
  cbv zeta. split; [apply calm_ranged, plain_calm; [cbn; lia|vm_compute; repeat constructor; discriminate]|].
  split; vm_compute; reflexivity.
Qed.
