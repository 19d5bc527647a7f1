(** Panic freedom of the tokenizer on texts whose exponents fit the integers of the code. *)
From Coq Require Import ZArith List Bool Lia.
From Coq Require Import ZifyBool ZifyNat.
From Verif Require Import Outcome LimbsModel LimbsSpec BigIntModel JsBigintModel BigFloatModel BigSpec
  LimbsProofs ShiftProofs JsBigintProofs RangeMapModel RangeMapSpec Prop_BigFloat TokenizerModel TokenizerSpec
  TokenizerProofs TokenizerRun TokenizerLex TokenizerNum TokenizerTotal NumberSafe.
Import ListNotations.
Open Scope Z_scope.

(** Texts in which everything that looks like a number has an exponent part, and a decimal exponent
    (that of the exponent part minus the number of digits of the fraction), that fit an [i64]
    strictly; the length of the text is one of a Rust string.  (Strings, comments and identifiers
    are not told apart, so this only restricts more.) *)
Definition ranged (text : list Z) : Prop :=
  Z.of_nat (List.length text) < 2 ^ 63 /\
  forall p d frac n ex v q, text = p ++ (d :: frac ++ ex) ++ q -> is_digit d = true -> fraction frac n -> exponent_part ex v ->
    longest ex q -> - 2 ^ 63 < v - n /\ - 2 ^ 63 < v < 2 ^ 63.

Lemma number_safe b s e : nat_ok b -> - 2 ^ 63 < e < 2 ^ 63 -> safe (fun fuel => number_token fuel b s e) tok_ok.
Proof.
  intros [Hb Vb] He. unfold number_token, bigfloat_to_f64.
  refine (safe_bind (fun fuel => let! g := to_bin fuel {| bf_sig := b; bf_sign := s; bf_exp := e; bf_rem := false |} 54 in to_f64 fuel g)
    (fun _ bits => Ok (TNumber bits)) _ _ (decimal_safe {| bf_sig := b; bf_sign := s; bf_exp := e; bf_rem := false |} Hb Vb He) _).
  intros bits Hbits. exact (safe_ok _ _ _ (fun _ => eq_refl) Hbits).
Qed.

Lemma back_good toks st c p : 0 <= c -> st = Initial \/ (exists s, st = ParseString s) -> Forall tok_ok toks ->
  safe (fun fuel => prepend toks (push fuel st c)) (fun v => good v (p ++ [c])).
Proof.
  intros Hc Hst Ht.
  assert (H : exists v, (forall fuel, push fuel st c = Ok v) /\ good v (p ++ [c])).
  { destruct Hst as [->|[s ->]]; [apply initial_good|apply string_good]; exact Hc. }
  destruct H as [[a s'] [H [G1 G2]]]. apply (safe_ok _ _ (toks ++ a, s')).
  - intros. rewrite H. reflexivity.
  - split; [|exact G2]. cbn [fst] in *. apply Forall_app. auto.
Qed.

Lemma number_good b s e c p : 0 <= c -> nat_ok b -> - 2 ^ 63 < e < 2 ^ 63 ->
  safe (fun fuel => let! n := number_token fuel b s e in prepend [n] (push fuel Initial c)) (fun v => good v (p ++ [c])).
Proof.
  intros Hc Hb He. apply (safe_bind (fun fuel => number_token fuel b s e) (fun fuel n => prepend [n] (push fuel Initial c)) tok_ok);
    [apply number_safe; auto|]. intros t Ot. apply back_good; auto.
Qed.

Lemma exponent_bound text p d frac n l es sg ds q : ranged text -> text = p ++ (d :: frac ++ l :: sg ++ ds) ++ q ->
  is_digit d = true -> fraction frac n -> (l = 101 \/ l = 69) -> match es with Positive => sg = [] \/ sg = [43] | Negative => sg = [45] end ->
  all_digits ds -> ds <> [] -> 0 <= dec_value ds < 2 ^ 63.
Proof.
  intros [_ H] -> Hd Hf Hl Hs Ha Hne. destruct (digit_run q) as (ds' & q' & -> & Hd' & Hq').
  destruct (dec_grows ds ds' Ha Hd') as [G1 G2].
  assert (Hx : - 2 ^ 63 < match es with Positive => dec_value (ds ++ ds') | Negative => - dec_value (ds ++ ds') end < 2 ^ 63).
  { refine (proj2 (H p d frac n (l :: sg ++ ds ++ ds') _ q' _ Hd Hf _ _)).
    - apps.
    - right. exists l, sg, (ds ++ ds'). split; [reflexivity|]. split; [exact Hl|]. split; [apply Forall_app; auto|].
      destruct es; [left; split; [exact Hs|reflexivity]|right; split; [exact Hs|reflexivity]].
    - destruct q' as [|c q']; [exact I|]. split; [exact Hq'|]. split; [discriminate|]. intros El. exfalso. destruct ds; [congruence|].
      cbn [length app] in El. rewrite app_length in El. cbn [length] in El. lia. }
  destruct es; lia.
Qed.
Lemma fraction_bound text p frac n q : ranged text -> text = p ++ frac ++ q -> fraction frac n -> 0 <= n < 2 ^ 63.
Proof.
  intros [H _] -> [[_ ->]|(fs & -> & _ & ->)]; [lia|]. rewrite !app_length in H. cbn [length] in H. lia.
Qed.

Section Whole.
(** The whole text. *)
Variable text : list Z.
Hypothesis Hranged : ranged text.

Lemma exp_digit_good b s fe es c p q p' d frac l sg ds : nat_ok b -> is_digit c = true ->
  p = p' ++ d :: frac ++ l :: sg ++ ds -> is_digit d = true -> fraction frac (- fe) -> (l = 101 \/ l = 69) ->
  match es with Positive => sg = [] \/ sg = [43] | Negative => sg = [45] end -> all_digits ds -> text = p ++ c :: q ->
  safe (fun fuel => let! st' := exp_add_digit b s fe es (dec_value ds) c in Ok (([] : list token), st')) (fun v => good v (p ++ [c])).
Proof.
  intros Hb Hc -> Hd Hf Hl Hs Ha Et.
  assert (Hd' : all_digits (ds ++ [c])) by (apply Forall_app; auto).
  assert (L2 : 0 <= dec_value (ds ++ [c]) < 2 ^ 63).
  { apply (exponent_bound text p' d frac (- fe) l es sg (ds ++ [c]) q Hranged); auto; [|destruct ds; discriminate].
    rewrite Et. apps. }
  assert (E : dec_value (ds ++ [c]) = dec_value ds * 10 + (c - 48)).
  { unfold dec_value. rewrite fold_left_app. reflexivity. }
  destruct (dec_grows ds [c] Ha ltac:(repeat constructor; exact Hc)) as [L1 _].
  apply digit_range in Hc as Rc.
  apply (safe_ok _ _ ([], ParseExp b s fe es (dec_value (ds ++ [c])))).
  - intros _. unfold exp_add_digit, digit_to_number. rewrite i64_ok by lia. cbn [obind].
    change 0x30 with 48. rewrite <- E. rewrite i64_ok by lia. reflexivity.
  - split; [constructor|]. cbn [snd after]. split; [exact Hb|].
    exists p', d, frac, l, sg, (ds ++ [c]). split; [apps|].
    repeat (split; [auto|]). destruct ds; discriminate.
Qed.

(** The exponent of a number that ends. *)
Lemma exp_range p d frac fe ex v q : text = p ++ (d :: frac ++ ex) ++ q -> is_digit d = true -> fraction frac (- fe) -> exponent_part ex v ->
  longest ex q -> - 2 ^ 63 < fe + v < 2 ^ 63.
Proof.
  intros Et Hd Hf He Hl. destruct Hranged as [_ H]. destruct (H p d frac (- fe) ex v q Et Hd Hf He Hl).
  destruct (fraction_bound text (p ++ [d]) frac (- fe) (ex ++ q) Hranged) as [Hn _]; [rewrite Et; cbn [app]; rewrite <- !app_assoc; reflexivity|exact Hf|]. lia.
Qed.
Lemma exp_token_conv b s fe es e : nat_ok b -> - 2 ^ 63 < fe + match es with Positive => e | Negative => - e end < 2 ^ 63 ->
  safe (fun fuel => exp_state_into_token fuel b s fe es e) tok_ok.
Proof.
  intros Hb He. refine (safe_ext _ _ _ (number_safe b s _ Hb He) _). intros fuel.
  unfold exp_state_into_token. rewrite i64_ok by lia. reflexivity.
Qed.
Lemma exp_token_good b s fe es e c p : 0 <= c -> nat_ok b -> - 2 ^ 63 < fe + match es with Positive => e | Negative => - e end < 2 ^ 63 ->
  safe (fun fuel => let! n := exp_state_into_token fuel b s fe es e in prepend [n] (push fuel Initial c)) (fun v => good v (p ++ [c])).
Proof.
  intros Hc Hb He. apply (safe_bind (fun fuel => exp_state_into_token fuel b s fe es e) (fun fuel n => prepend [n] (push fuel Initial c)) tok_ok);
    [apply exp_token_conv; auto|]. intros t Ot. apply back_good; auto.
Qed.

Ltac done := refine (safe_ok _ _ _ (fun _ => eq_refl) _); (split; [cbn [fst]; solve [repeat constructor]|cbn [snd after]; try exact I]).

Lemma push_good st p c q : after st p -> 0 <= c -> text = p ++ c :: q ->
  safe (fun fuel => push fuel st c) (fun v => good v (p ++ [c])).
Proof.
  intros Ha Hc Et.
  assert (HB : forall st0 toks, st0 = Initial \/ (exists s, st0 = ParseString s) -> Forall tok_ok toks ->
    safe (fun fuel => prepend toks (push fuel st0 c)) (fun v => good v (p ++ [c]))).
  { intros. apply back_good; auto. }
  assert (HI : forall t, tok_ok t -> safe (fun fuel => prepend [t] (push fuel Initial c)) (fun v => good v (p ++ [c]))).
  { intros. apply HB; auto. }
  assert (HN : forall b s e, nat_ok b -> - 2 ^ 63 < e < 2 ^ 63 ->
    safe (fun fuel => let! n := number_token fuel b s e in prepend [n] (push fuel Initial c)) (fun v => good v (p ++ [c]))).
  { intros. apply number_good; auto. }
  assert (HZ : nat_ok jb_zero) by (split; [apply jb_zero_wf|reflexivity || (change (jval jb_zero) with 0; lia)]).
  assert (Hno : fraction [] (- 0)) by (left; auto).
  cut (safe (fun fuel => step fuel st c) (fun v => good v (p ++ [c]))).
  { intros H. apply (safe_ext _ _ _ H). intros fuel. apply push_step. exact Hc. }
  destruct st; cbn [step] in *; cbn [after] in Ha.
  - destruct (initial_good c p Hc) as [v [H G]]. exact (safe_ok _ _ v H G).
  - destruct (ident_part c); [done|apply HI; exact I].
  - destruct (string_good s c (p ++ [c]) Hc) as [v [H G]]. exact (safe_ok _ _ v H G).
  - destruct (cls_escape c) as [[]|]; [unfold continue_string_state; done..| |]; [done; lia|]. apply HB; [right; eauto|repeat constructor].
  - destruct (hex_value c) as [v|] eqn:Ev.
    + unfold unicode_push, continue_string_state. destruct (Z.eqb_spec index 3) as [->|N].
      * destruct (from_u32 _); done.
      * replace ((0 <=? index) && (index <=? 2)) with true by lia. done. lia.
    + apply HB; [right; eauto|repeat constructor].
  - destruct (Z.eqb_spec c 48) as [->|]; [done; eauto|]. destruct (is_nonzero_digit c) eqn:E; [|apply HI; exact I]. done.
    assert (Hd : is_digit c = true) by (classes; lia).
    destruct (from_digit_spec c Hd) as [D1 D2]. split; [split; [exact D1|]; apply digit_range in Hd; lia|]. eauto.
  - destruct Ha as [p' ->]. unfold cls_zero. destruct (Z.eqb_spec c 46) as [->|N1].
    { done. split; [exact HZ|]. exists p', 48. split; [apps|reflexivity]. }
    destruct (is_e c) eqn:E2.
    { done. split; [exact HZ|]. split; [reflexivity|]. split; [reflexivity|].
      exists p', 48, [], c. split; [apps|]. split; [reflexivity|]. split; [exact Hno|]. unfold is_e in E2. lia. }
    destruct (c =? 110); [done; apply jb_zero_wf|].
    destruct (is_terminal c); apply HI; cbn; [lia|exact I].
  - destruct Ha as [Hb (p' & d & -> & Hd)]. unfold cls_int. destruct (is_digit c) eqn:E0.
    { destruct (add_digit_ok b c Hb E0) as [b' [Eb Hb']]. rewrite Eb. cbn [obind]. done. eauto. }
    destruct (Z.eqb_spec c 46) as [->|N1].
    { done. split; [exact Hb|]. exists p', d. split; [apps|exact Hd]. }
    destruct (is_e c) eqn:E2.
    { done. split; [exact Hb|]. split; [reflexivity|]. split; [reflexivity|].
      exists p', d, [], c. split; [apps|]. split; [exact Hd|]. split; [exact Hno|]. unfold is_e in E2. lia. }
    destruct (c =? 110).
    { done. destruct s; cbn [into_bigint_state]; [apply Hb|]. apply jb_negative_spec. apply Hb. }
    destruct (is_terminal c); [apply HN; [exact Hb|lia]|apply HI; exact I].
  - destruct Ha as [Hb (p' & d & -> & Hd)]. destruct (is_digit c) eqn:E0; [|apply HI; exact I].
    destruct (add_digit_ok b c Hb E0) as [b' [Eb Hb']]. unfold frac_add_digit. rewrite Eb. cbn [obind].
    rewrite i64_ok by lia. cbn [obind]. done. split; [exact Hb'|].
    exists p', d, [c]. split; [apps|]. split; [exact Hd|]. split; [repeat constructor; exact E0|]. reflexivity.
  - destruct Ha as [Hb (p' & d & ds & -> & Hd & Hds & ->)].
    assert (Hf : fraction (46 :: ds) (- - Z.of_nat (length ds))) by (right; exists ds; rewrite Z.opp_involutive; auto).
    unfold cls_frac. destruct (is_digit c) eqn:E0.
    { destruct (add_digit_ok b c Hb E0) as [b' [Eb Hb']]. unfold frac_add_digit. rewrite Eb. cbn [obind].
      assert (L : Z.of_nat (length (ds ++ [c])) < 2 ^ 63).
      { refine (proj2 (fraction_bound text (p' ++ [d]) (46 :: ds ++ [c]) _ q Hranged _ _)); [rewrite Et; apps|].
        right. exists (ds ++ [c]). split; [reflexivity|]. split; [apply Forall_app; auto|reflexivity]. }
      rewrite app_length in L. cbn [length] in L. rewrite i64_ok by lia. cbn [obind]. done. split; [exact Hb'|].
      exists p', d, (ds ++ [c]). split; [apps|]. split; [exact Hd|]. split; [apply Forall_app; auto|].
      rewrite app_length. cbn. lia. }
    destruct (is_e c) eqn:E2.
    { done. split; [exact Hb|]. split; [reflexivity|]. split; [reflexivity|].
      exists p', d, (46 :: ds), c. split; [apps|]. split; [exact Hd|]. split; [exact Hf|]. unfold is_e in E2. lia. }
    destruct (is_terminal c); [apply HN; [exact Hb|]|apply HI; exact I].
    rewrite <- (Z.add_0_r (- Z.of_nat _)). apply (exp_range p' d (46 :: ds) (- Z.of_nat (length ds)) [] 0 (c :: q)); auto; [rewrite Et; apps|left; auto|].
    split; [exact E0|]. split; [unfold is_e in E2; lia|discriminate].
  - destruct Ha as [Hb [-> [-> (p' & d & frac & l & -> & Hd & Hf & Hl)]]].
    unfold cls_exp_begin. destruct (is_digit c) eqn:E0.
    { apply (exp_digit_good b s fe Positive c _ q p' d frac l [] []); auto; constructor. }
    destruct (Z.eqb_spec c 43) as [->|N1].
    { done. split; [exact Hb|]. split; [reflexivity|]. exists p', d, frac, l. split; [apps|]. auto. }
    destruct (Z.eqb_spec c 45) as [->|N2].
    { done. split; [exact Hb|]. split; [reflexivity|]. exists p', d, frac, l. split; [apps|]. auto. }
    destruct (is_terminal c); [|apply HI; exact I]. apply exp_token_good; [exact Hc|exact Hb|].
    apply (exp_range p' d frac fe [l] 0 (c :: q)); auto; [rewrite Et; apps| |].
    + right. exists l, [], []. split; [reflexivity|]. split; [exact Hl|]. split; [constructor|]. left. auto.
    + split; [exact E0|]. split; [discriminate|lia].
  - destruct Ha as [Hb [-> (p' & d & frac & l & -> & Hd & Hf & Hl)]].
    assert (Hsg : match es with Positive => [match es with Positive => 43 | Negative => 45 end] = [] \/ [match es with Positive => 43 | Negative => 45 end] = [43]
                  | Negative => [match es with Positive => 43 | Negative => 45 end] = [45] end) by (destruct es; auto).
    unfold cls_exp. destruct (is_digit c) eqn:E0.
    { apply (exp_digit_good b s fe es c _ q p' d frac l [match es with Positive => 43 | Negative => 45 end] []); auto; constructor. }
    destruct (is_terminal c); [|apply HI; exact I]. apply exp_token_good; [exact Hc|exact Hb|].
    apply (exp_range p' d frac fe [l; match es with Positive => 43 | Negative => 45 end] _ (c :: q)); auto; [rewrite Et; apps| |].
    + right. exists l, [match es with Positive => 43 | Negative => 45 end], []. split; [reflexivity|]. split; [exact Hl|]. split; [constructor|].
      destruct es; [left|right]; auto.
    + split; [exact E0|]. split; discriminate.
  - destruct Ha as [Hb (p' & d & frac & l & sg & ds & -> & Hd & Hf & Hl & Hs & Hds & -> & Hne)]. unfold cls_exp. destruct (is_digit c) eqn:E0.
    { apply (exp_digit_good b s fe es c _ q p' d frac l sg ds); auto. }
    destruct (is_terminal c); [|apply HI; exact I]. apply exp_token_good; [exact Hc|exact Hb|].
    apply (exp_range p' d frac fe (l :: sg ++ ds) _ (c :: q)); auto; [rewrite Et; apps| |].
    + right. exists l, sg, ds. split; [reflexivity|]. split; [exact Hl|]. split; [exact Hds|]. destruct es; [left|right]; auto.
    + split; [exact E0|]. split; [discriminate|]. cbn [length]. rewrite app_length. destruct ds; [congruence|]. cbn [length]. lia.
  - destruct (is_terminal c); apply HI; [exact Ha|exact I].
  - destruct (is_space c); [done|apply HI; exact I].
  - destruct (c =? 47); [done|]. destruct (c =? 42); done.
  - destruct ((c =? 10) || (c =? 13)); done.
  - destruct (c =? 42); done.
  - destruct (c =? 47); [done|]. destruct (c =? 42); done.
  - destruct Ha as [t [Ht Ot]].
    assert (HE : safe (fun fuel => let! tok := unwrap (operator_to_token s) in prepend [tok] (push fuel Initial c)) (fun v => good v (p ++ [c]))).
    { rewrite Ht. cbn [unwrap obind]. apply HI. exact Ot. }
    destruct (operator_to_token (s ++ [c])) as [t'|] eqn:E'; [|exact HE].
    destruct (is_op c); [|exact HE]. done. exists t'. split; [exact E'|apply (op_token_ok _ _ E')].
Qed.

Lemma run_good q : forall st p, after st p -> chars q -> text = p ++ q ->
  safe (fun fuel => run fuel st q) (fun v => good v (p ++ q)).
Proof.
  induction q as [|c q IH]; intros st p Ha Hc Et.
  - refine (safe_ok _ _ ([], st) (fun _ => eq_refl) _). rewrite app_nil_r. split; [constructor|exact Ha].
  - inversion Hc as [|c0 t0 Pc Ht]; subst c0 t0. cbn [run].
    refine (safe_bind (fun fuel => push fuel st c) (fun fuel '(a, st') => _) _ _ (push_good st p c q Ha Pc Et) _).
    intros [a st'] [G1 G2]. replace (p ++ c :: q) with ((p ++ [c]) ++ q) in * by (rewrite <- app_assoc; reflexivity).
    cbn [fst snd] in *.
    refine (safe_bind (fun fuel => run fuel st' q) (fun fuel '(b, st'') => _) _ _ (IH st' (p ++ [c]) G2 Ht Et) _).
    intros [b st''] [G3 G4]. refine (safe_ok _ _ _ (fun _ => eq_refl) _). split; [apply Forall_app; auto|exact G4].
Qed.

Lemma tend_good st : after st text -> safe (fun fuel => tend fuel st) (Forall tok_ok).
Proof.
  intros Ha.
  assert (HN : forall b s e, nat_ok b -> - 2 ^ 63 < e < 2 ^ 63 -> safe (fun fuel => let! n := number_token fuel b s e in Ok [n]) (Forall tok_ok)).
  { intros b s e Hb He. refine (safe_bind _ (fun _ n => Ok [n]) _ _ (number_safe b s e Hb He) _).
    intros t Ht. refine (safe_ok _ _ _ (fun _ => eq_refl) _). auto. }
  assert (D : forall l, Forall tok_ok l -> safe (fun _ => Ok l) (Forall tok_ok)).
  { intros l H. exact (safe_ok _ _ _ (fun _ => eq_refl) H). }
  destruct st; cbn [tend after] in *; try (apply D; solve [repeat constructor]).
  - apply D. constructor; [cbn; lia|constructor].
  - apply HN; [apply Ha|lia].
  - destruct Ha as [Hb (p' & d & ds & Et & Hd & Hds & ->)]. apply HN; [exact Hb|].
    rewrite <- (Z.add_0_r (- Z.of_nat _)). apply (exp_range p' d (46 :: ds) (- Z.of_nat (length ds)) [] 0 []); auto; [rewrite Et; apps| | |exact I].
    + rewrite !app_nil_r. reflexivity.
    + right. exists ds. rewrite Z.opp_involutive. auto.
    + left. auto.
  - destruct Ha as [Hb (p' & d & frac & l & sg & ds & Et & Hd & Hf & Hl & Hs & Hds & -> & Hne)].
    refine (safe_bind _ (fun _ n => Ok [n]) _ _ (exp_token_conv b s fe es (dec_value ds) Hb _) _).
    + apply (exp_range p' d frac fe (l :: sg ++ ds) _ []); auto; [rewrite Et, app_nil_r; reflexivity| |exact I].
      right. exists l, sg, ds. split; [reflexivity|]. split; [exact Hl|]. split; [exact Hds|]. destruct es; [left|right]; auto.
    + intros t Ht. refine (safe_ok _ _ _ (fun _ => eq_refl) _). auto.
  - apply D. constructor; [exact Ha|constructor].
  - destruct Ha as [t [Ht Ot]]. rewrite Ht. apply D. auto.
Qed.
End Whole.

Lemma tokenize_safe text : chars text -> ranged text -> safe (fun fuel => tokenize fuel text) (Forall tok_ok).
Proof.
  intros Hc Hr.
  refine (safe_ext (fun fuel => let! (a, st) := run fuel Initial text in let! l := tend fuel st in Ok (a ++ l)) _ _ _ _).
  - refine (safe_bind _ (fun fuel '(a, st) => _) _ _ (run_good text Hr text Initial [] I Hc eq_refl) _).
    intros [a st] [G1 G2]. cbn [fst snd app] in *.
    refine (safe_bind _ (fun fuel l => _) _ _ (tend_good text Hr st G2) _).
    intros l Hl. refine (safe_ok _ _ _ (fun _ => eq_refl) _). apply Forall_app; auto.
  - intros fuel. rewrite tokenize_run. unfold finish. reflexivity.
Qed.
