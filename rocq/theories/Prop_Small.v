(** Properties C23, C25, C27 and C31 once more: exponents below -27.  For each of them there
    are literals on which the conversion, hence the tokenizer, never returns. *)
From Coq Require Import ZArith Reals List Bool String Lia.
From Coq Require Import ZifyBool ZifyNat.
From Verif Require Import Outcome VTac LimbsModel LimbsSpec BigIntModel JsBigintModel BigFloatModel BigSpec LimbsProofs ShiftProofs JsBigintProofs JsDivProofs
  BigFloatSpec BigFloatProofs Prop_JsBigint RangeMapSpec Prop_BigFloat TokenizerModel TokenizerSpec TokenizerProofs TokenizerRun TokenizerLex TokenizerNum
  TokenizerTotal TokenizerGrammar SerializerSpec SerializerProofs.
Import ListNotations.
Open Scope Z_scope.

Lemma lex_below k b0 bs : std_vec_cmp (repeat 0 k ++ b0 - 1 :: bs) (repeat 0 k ++ b0 :: bs) = Lt.
Proof.
  induction k as [|k IH]; cbn [repeat app std_vec_cmp]; [|exact IH].
  rewrite (proj2 (Z.compare_lt_iff _ _)) by lia. reflexivity.
Qed.

(** The loop of the division makes no progress: the lowest limbs are compared first, so the
    right digit 1 is taken for too big, and 0 is subtracted. *)
Lemma div_loop_odd k b0 bs : canon (b0 :: bs) -> 0 < b0 -> bs <> [] -> (0 < k)%nat ->
  forall fuel res, jb_div_loop fuel (repeat 0 k ++ b0 - 1 :: bs) (b0 :: bs) res = NoFuel.
Proof.
  intros Hb Hb0 Hbs Hk. pose proof B_val as HB.
  set (a := repeat 0 k ++ b0 - 1 :: bs). set (b := b0 :: bs) in *.
  pose proof (canon_limbs b Hb) as Lb. apply limbs_cons in Lb as [L0 Lbs].
  assert (Hlast : forall x, last (x :: bs) 1 = last bs 1) by (intros x; destruct bs; [congruence|reflexivity]).
  assert (Hla : last a 1 = last b 1).
  { unfold a, b. rewrite Hlast. destruct bs as [|y bs'] eqn:E; [congruence|]. clear -E.
    induction k as [|k IH]; [reflexivity|]. cbn [repeat app]. destruct (repeat 0 k ++ b0 - 1 :: y :: bs') eqn:E'; [destruct k; discriminate|].
    exact IH. }
  assert (Ca : canon a).
  { split; [|rewrite Hla; apply Hb]. apply limbs_app. split; [apply limbs_repeat0|]. apply limbs_cons. split; [lia|exact Lbs]. }
  assert (Hlen : List.length a = (k + List.length b)%nat) by (unfold a, b; rewrite app_length, repeat_length; reflexivity).
  assert (Hvb : 1 <= val b) by (unfold b; rewrite val_cons; pose proof (val_nonneg bs Lbs); nia).
  assert (Hva : val a = B ^ Z.of_nat k * (val b - 1)).
  { unfold a, b. rewrite val_app, val_repeat0, repeat_length, !val_cons. ring. }
  assert (HvB : B <= val b).
  { unfold b. rewrite val_cons. assert (0 < val bs); [|nia].
    assert (Cbs : canon bs) by (split; [exact Lbs|rewrite <- (Hlast b0); apply Hb]).
    destruct (Z.eq_dec (val bs) 0) as [E|E]; [|pose proof (val_nonneg bs Lbs); lia].
    exfalso. apply Hbs. apply canon_inj; auto. }
  assert (Hge : val b <= val a).
  { assert (B ^ 1 <= B ^ Z.of_nat k) by (apply Z.pow_le_mono_r; lia). nia. }
  destruct (estimate_spec a b Ca Hb ltac:(discriminate) Hge) as (qi & qd & He & _ & _ & _ & _ & Hq).
  assert (qi = k /\ qd = 1) as [-> ->].
  { destruct Hq as [(_ & -> & ->)|(H & _)]; [|lia]. rewrite Hlen, Hla. split; [lia|]. apply Z.div_same. apply Hb. }
  assert (Hm : mul_vec b (q_vec k 1) = Ok (repeat 0 k ++ b)).
  { destruct (mul_vec_spec b (q_vec k 1)) as (m & Em & Hm & Vm); [apply canon_limbs, Hb|apply q_vec_limbs; lia|discriminate|apply q_vec_nonnil|].
    rewrite Em. f_equal. apply canon_inj; [exact Hm| |rewrite Vm, q_vec_val, val_app, val_repeat0, repeat_length; ring].
    split; [apply limbs_app; split; [apply limbs_repeat0|apply canon_limbs, Hb]|].
    clear -Hb. destruct Hb as [_ Hb]. induction k as [|k IH]; [exact Hb|]. cbn [repeat app]. destruct (repeat 0 k ++ b) eqn:E; [destruct k; discriminate|exact IH]. }
  assert (Hm0 : mul_vec b (q_vec k (1 - 1)) = Ok []).
  { destruct (mul_vec_spec b (q_vec k (1 - 1))) as (m & Em & Hm' & Vm); [apply canon_limbs, Hb|apply q_vec_limbs; lia|discriminate|apply q_vec_nonnil|].
    rewrite Em. f_equal. apply canon_inj; [exact Hm'|auto|]. rewrite Vm, q_vec_val, val_nil. ring. }
  assert (Hs : normalize_vec (sub_vec a []) = a).
  { destruct (sub_vec_norm_spec a [] Ca canon_nil ltac:(rewrite val_nil; lia)) as [H1 H2]. unfold sub_vec_norm in *.
    apply canon_inj; auto. rewrite H2, val_nil. lia. }
  assert (Hc : cmp_vec a b <> Lt) by (rewrite cmp_vec_spec by auto; intros E; exact (proj2 (Z.nlt_ge _ _) Hge (proj1 (Z.compare_lt_iff _ _) E))).
  induction fuel as [|fuel IH]; intros res; [reflexivity|]. cbn [jb_div_loop].
  destruct (cmp_vec a b) eqn:E; [|congruence|]; rewrite He; cbn [obind]; rewrite Hm; cbn [obind]; unfold a, b at 1; rewrite lex_below; fold a; 
    change (1 =? 0) with false; cbv iota; rewrite Hm0; cbn [obind]; rewrite Hs; apply IH.
Qed.

(** Every odd divisor above 2^64 has dividends, of every length, on which the division never
    returns. *)
Lemma odd_limbs b : jwf b -> 2 ^ 64 < Z.abs (jval b) -> Z.odd (jval b) = true ->
  exists b0 bs, jb_items b = b0 :: bs /\ 0 < b0 /\ bs <> [].
Proof.
  intros Hb Hlt Hodd. rewrite jabs in Hlt by exact Hb. pose proof B_val as HB. pose proof B_eq as HBe. pose proof (proj1 Hb) as Cb.
  assert (Ho : Z.odd (val (jb_items b)) = true).
  { rewrite <- (jabs b Hb). destruct (Z.abs_eq_or_opp (jval b)) as [->| ->]; [exact Hodd|]. rewrite Z.odd_opp. exact Hodd. }
  destruct (jb_items b) as [|b0 bs]; [discriminate|]. exists b0, bs. split; [reflexivity|]. pose proof (canon_limbs _ Cb) as L.
  apply limbs_cons in L as [L0 Lb]. rewrite val_cons in Hlt, Ho. split.
  - destruct (Z.eq_dec b0 0) as [->|]; [|lia]. rewrite Z.add_0_l, Z.odd_mul in Ho. rewrite HBe in Ho. discriminate.
  - intros ->. rewrite val_nil in Hlt. lia.
Qed.
Theorem C23_div_mod_odd_refuted : forall b k, jwf b -> 2 ^ 64 < Z.abs (jval b) -> Z.odd (jval b) = true -> (0 < k)%nat ->
  forall a, jwf a -> Z.abs (jval a) = (Z.abs (jval b) - 1) * (2 ^ 64) ^ Z.of_nat k -> forall fuel, jb_div_mod fuel a b = NoFuel.
Proof.
  intros b k Hb Hlt Hodd Hk a Ha Hv fuel. destruct (odd_limbs b Hb Hlt Hodd) as (b0 & bs & Eb & Hb0 & Hbs).
  pose proof (proj1 Hb) as Cb. pose proof (proj1 Ha) as Ca. rewrite !jabs in * by assumption. rewrite Eb in *. pose proof B_eq as HB. pose proof B_val as HB'.
  pose proof (canon_limbs _ Cb) as L. apply limbs_cons in L as [L0 Lb].
  assert (Ea : jb_items a = repeat 0 k ++ b0 - 1 :: bs).
  { apply canon_inj; [exact Ca| |].
    - split; [apply limbs_app; split; [apply limbs_repeat0|apply limbs_cons; split; [lia|exact Lb]]|].
      destruct Cb as [_ Cb]. clear -Cb Hbs. destruct bs as [|y bs]; [congruence|]. induction k as [|k IH]; [exact Cb|]. cbn [repeat app].
      destruct (repeat 0 k ++ b0 - 1 :: y :: bs) eqn:E; [destruct k; discriminate|exact IH].
    - rewrite Hv, val_app, val_repeat0, repeat_length, !val_cons, HB. ring. }
  unfold jb_div_mod. rewrite jb_is_zero_spec by exact Hb. destruct (Z.eqb_spec (jval b) 0) as [E|E]; [rewrite E in Hodd; discriminate|].
  rewrite Eb, cmp_vec_spec by assumption. rewrite Ea.
  assert (Hgt : val (b0 :: bs) < val (jb_items a)).
  { rewrite Hv. assert ((2 ^ 64) ^ 1 <= (2 ^ 64) ^ Z.of_nat k) by (apply Z.pow_le_mono_r; lia). nia. }
  rewrite Ea in Hgt. rewrite (proj2 (Z.compare_gt_iff _ _) Hgt). rewrite div_loop_odd by assumption. reflexivity.
Qed.
Print Assumptions C23_div_mod_odd_refuted.
Example C23_odd_case : let b := jb 2 [1; 1] in let a := jb 3 [0; 0; 1] in
  jwf a /\ jwf b /\ jval b = 2 ^ 64 + 1 /\ jval a = (jval b - 1) * 2 ^ 64 /\ jb_div_mod 1000 a b = NoFuel.
Proof. cbv zeta. split; [jwf_tac|]. split; [jwf_tac|]. vmc. Qed.

(** 5^e is odd and above 2^64. *)
Lemma five_odd e : 0 <= e -> Z.odd (5 ^ e) = true.
Proof. intros He. destruct (Z.eq_dec e 0) as [->|]; [reflexivity|]. rewrite Z.odd_pow by lia. reflexivity. Qed.
Lemma five_big e : 28 <= e -> 2 ^ 64 < 5 ^ e.
Proof. intros He. apply Z.lt_le_trans with (5 ^ 28); [reflexivity|]. apply Z.pow_le_mono_r; lia. Qed.

(** The conversion never returns for (5^e - 1) * 2^(64 k) * 10^-e. *)
Theorem C25_small_refuted : forall e k f p, 28 <= e < 2 ^ 64 -> (0 < k)%nat -> 0 < p <= 63 ->
  jwf (bf_sig f) -> jval (bf_sig f) = (5 ^ e - 1) * (2 ^ 64) ^ Z.of_nat k -> bf_exp f = - e ->
  forall fuel, to_bin fuel f p = NoFuel.
Proof.
  intros e k f p He Hk Hp Hf Hv Hx fuel. pose proof (five_big e ltac:(lia)) as Hbig.
  assert (Hpow : (2 ^ 64) ^ 1 <= (2 ^ 64) ^ Z.of_nat k) by (apply Z.pow_le_mono_r; lia).
  unfold to_bin. rewrite jb_is_zero_spec by exact Hf. destruct (Z.eqb_spec (jval (bf_sig f)) 0) as [E|_]; [nia|].
  destruct (Z.eqb_spec (bf_exp f) 0) as [E|_]; [lia|]. destruct (Z.ltb_spec 0 (bf_exp f)) as [E|_]; [lia|].
  destruct (jb_from_u64_spec Positive 5) as [H5 V5]; [pose proof B_val; lia|].
  destruct (C24_pow_u64_exact (jb_from_u64 Positive 5) (- bf_exp f) H5) as (q & Eq & Hq & Vq); [rewrite V5; discriminate|lia|].
  rewrite V5 in Vq. cbn [sign_int] in Vq. rewrite Hx in Vq. replace (- - e) with e in Vq by lia. change (1 * 5) with 5 in Vq.
  rewrite Eq. cbn [obind]. destruct (one_shl_spec p ltac:(lia)) as (m & Em & Hm & Vm). rewrite Em. cbn [obind].
  destruct (jb_mul_spec q m Hq Hm) as (pm & Epm & Hpm & Vpm). rewrite Epm. cbn [obind].
  assert (Hle : jval pm <= jval (bf_sig f)).
  { rewrite Vpm, Vq, Vm, Hv. assert (2 ^ p <= 2 ^ 63) by (apply Z.pow_le_mono_r; lia).
    assert (5 ^ e * 2 ^ p <= 5 ^ e * 2 ^ 63) by (apply Z.mul_le_mono_nonneg_l; lia).
    assert ((5 ^ e - 1) * (2 ^ 64) ^ 1 <= (5 ^ e - 1) * (2 ^ 64) ^ Z.of_nat k) by (apply Z.mul_le_mono_nonneg_l; lia). lia. }
  unfold increase_significand_to. rewrite jb_is_zero_spec by exact Hf. destruct (Z.eqb_spec (jval (bf_sig f)) 0) as [E|_]; [nia|].
  assert (Ppm : 0 <= jval pm) by (rewrite Vpm, Vq, Vm; apply Z.mul_nonneg_nonneg; apply Z.pow_nonneg; lia).
  destruct fuel as [|fuel]; [reflexivity|]. cbn [increase_loop]. rewrite cmp_pos by assumption.
  destruct (Z.compare_spec (jval (bf_sig f)) (jval pm)) as [E|E|E]; [| lia |]; cbn [obind bf_sig];
    (rewrite (C23_div_mod_odd_refuted q k Hq); [reflexivity| | |exact Hk|exact Hf|]);
    rewrite ?Vq; try (apply five_odd; lia); rewrite ?(Z.abs_eq (5 ^ e)) by lia; try lia; rewrite Hv, Z.abs_eq; nia.
Qed.
Print Assumptions C25_small_refuted.

(** Every integer is the value of a [JsBigint]. *)
Lemma canon_surj n : forall v, 0 <= v < B ^ Z.of_nat n -> exists l, canon l /\ val l = v.
Proof.
  pose proof B_val as HB. induction n as [|n IH]; intros v Hv.
  - exists []. split; [auto|]. change (B ^ Z.of_nat 0) with 1 in Hv. rewrite val_nil. lia.
  - rewrite Nat2Z.inj_succ, Z.pow_succ_r in Hv by lia. destruct (IH (v / B)) as (l & Hl & Vl).
    { split; [apply Z.div_pos; lia|]. apply Z.div_lt_upper_bound; lia. }
    exists (normalize_vec (v mod B :: l)). pose proof (Z.mod_pos_bound v B ltac:(lia)).
    assert (L : limbs (v mod B :: l)) by (apply limbs_cons; split; [lia|apply canon_limbs, Hl]).
    split; [apply normalize_canon, L|]. rewrite normalize_val, val_cons, Vl. pose proof (Z.div_mod v B ltac:(lia)). lia.
Qed.
Lemma jsbigint_surj v : 0 <= v -> exists b, jwf b /\ jval b = v.
Proof.
  intros Hv. pose proof B_val as HB. destruct (canon_surj (Z.to_nat v) v) as (l & Hl & Vl).
  { split; [exact Hv|]. rewrite Z2Nat.id by exact Hv. apply Z.pow_gt_lin_r; lia. }
  exists (jb (Z.of_nat (List.length l)) l). split; [split; [exact Hl|cbn [jb_len jb_items jb]; lia]|].
  unfold jval. cbn [jb_len jb_items jb]. destruct (Z.ltb_spec (Z.of_nat (List.length l)) 0); [lia|exact Vl].
Qed.

(** -27 is the boundary: a decimal exponent is converted right for all significands iff it is
    at least -27. *)
Theorem C27_boundary : forall e, - 2 ^ 63 < e < 2 ^ 63 ->
  ((forall f, jwf (bf_sig f) -> 0 < jval (bf_sig f) -> bf_rem f = false -> bf_exp f = e ->
     exists bits f0, (forall fuel, (f0 <= fuel)%nat -> (let! g := to_bin fuel f 54 in to_f64 fuel g) = Ok bits) /\
       f64_nearest bits (bf_sign f) (dec_real (jval (bf_sig f)) (bf_exp f)))
   <-> -27 <= e).
Proof.
  intros e He. split.
  - intros H. destruct (Z_le_gt_dec (-27) e) as [L|L]; [exact L|]. exfalso.
    pose proof (five_big (- e) ltac:(lia)) as Hbig.
    destruct (jsbigint_surj ((5 ^ (- e) - 1) * (2 ^ 64) ^ Z.of_nat 1)) as (b & Hb & Vb); [lia|].
    destruct (H {| bf_sig := b; bf_sign := Positive; bf_exp := e; bf_rem := false |}) as (bits & f0 & Hf & _); cbn [bf_sig bf_rem bf_exp]; auto.
    { rewrite Vb. lia. }
    specialize (Hf f0 (Nat.le_refl _)). rewrite (C25_small_refuted (- e) 1) in Hf; cbn [bf_sig bf_exp]; try assumption; try discriminate; lia.
  - intros L f H1 H2 H3 H4. apply C27_decimal_partial; auto. lia.
Qed.
Print Assumptions C27_boundary.

(** A literal whose conversion never returns stops the tokenizer. *)
Lemma number_hangs n : number_ok n -> Z.of_nat (List.length (nl_frac n)) <= 2 ^ 63 -> - 2 ^ 63 < exp_value n < 2 ^ 63 -> - 2 ^ 63 <= number_exp10 n ->
  number_mantissa n <> 0 ->
  (forall fuel b, jwf b -> jval b = number_mantissa n -> number_token fuel b (signed (nl_neg n)) (number_exp10 n) = NoFuel) ->
  forall fuel q, next_ok is_terminal q -> tokenize fuel (number_text n ++ q) = NoFuel.
Proof.
  intros [Hi [Hf He]] Lf Lv Lx Hm Hang fuel q Hq.
  destruct (run_mantissa n Hi Hf Lf) as [st2 [b2 [R2 [A2 [W2 V2]]]]].
  pose proof (Hang fuel b2 W2 V2) as Ht. unfold number_exp10, exp_value, number_text in *.
  assert (Fin : forall st, tend fuel st = NoFuel -> (forall c, 0 <= c -> is_terminal c = true -> step fuel st c = NoFuel) -> forall pre, run fuel Initial pre = Ok ([], st) ->
    tokenize fuel (pre ++ q) = NoFuel).
  { intros st H1 H2 pre Hr. rewrite tokenize_run, (run_app_ok _ _ _ _ _ _ Hr), prepend_nil. destruct q as [|c q].
    - unfold finish. cbn [run obind]. rewrite H1. reflexivity.
    - destruct Hq as [Pc Tc]. cbn [run]. rewrite push_step, H2 by assumption. reflexivity. }
  destruct (nl_exp n) as [[[l sg] ds]|] eqn:Ee.
  - destruct He as [Hl [Hsg [Hne Hds]]].
    assert (P : 0 <= dec_value ds) by (apply (dec_from_ge 0 ds); [lia|exact Hds]).
    assert (Dv : dec_value ds < 2 ^ 63 /\
      (match sg with [45] => - dec_value ds | _ => dec_value ds end) =
      match exp_sign sg with Positive => dec_value ds | Negative => - dec_value ds end).
    { destruct Hsg as [->|[->| ->]]; cbn [exp_sign]; split; try reflexivity; lia. }
    destruct Dv as [Dv De]. rewrite De in *.
    assert (Ei : i64 (- Z.of_nat (List.length (nl_frac n)) + match exp_sign sg with Positive => dec_value ds | Negative => - dec_value ds end)
      = Ok (match exp_sign sg with Positive => dec_value ds | Negative => - dec_value ds end - Z.of_nat (List.length (nl_frac n)))).
    { rewrite i64_ok; [f_equal; lia|]. destruct (exp_sign sg); lia. }
    apply (Fin (ParseExp b2 (signed (nl_neg n)) (- Z.of_nat (List.length (nl_frac n))) (exp_sign sg) (dec_value ds))).
    + cbn [tend]. unfold exp_state_into_token. rewrite Ei. cbn [obind]. rewrite Ht. reflexivity.
    + intros c Pc Hc. cbn [step]. unfold cls_exp. assert (is_digit c = false) as -> by (classes; lia). rewrite Hc.
      unfold exp_state_into_token. rewrite Ei. cbn [obind]. rewrite Ht. reflexivity.
    + rewrite R2. apply run_exponent; auto.
  - rewrite Z.sub_0_l in Ht. apply (Fin st2); [| |rewrite R2; reflexivity]; destruct A2 as [[-> [-> E0]]|[[-> E0]| ->]].
    + exfalso. apply Hm. rewrite <- V2. reflexivity.
    + cbn [tend]. rewrite E0 in Ht. rewrite Ht. reflexivity.
    + cbn [tend]. rewrite Ht. reflexivity.
    + exfalso. apply Hm. rewrite <- V2. reflexivity.
    + intros c Pc Hc. assert (T : is_digit c = false /\ (c =? 46) = false /\ is_e c = false /\ (c =? 110) = false) by (classes; lia).
      destruct T as (T1 & T2 & T3 & T4). cbn [step]. unfold cls_int. rewrite T1, T2, T3, T4, Hc. rewrite E0 in Ht. rewrite Ht. reflexivity.
    + intros c Pc Hc. assert (T : is_digit c = false /\ (c =? 46) = false /\ is_e c = false /\ (c =? 110) = false) by (classes; lia).
      destruct T as (T1 & T2 & T3 & T4). cbn [step]. unfold cls_frac. rewrite T1, T3, Hc, Ht. reflexivity.
Qed.

(** Every literal for (5^e - 1) * 2^(64 k) * 10^-e hangs, with or without fraction and exponent
    part, whatever follows. *)
Theorem C31_small_refuted : forall n e k, 28 <= e < 2 ^ 63 -> (0 < k)%nat -> number_ok n ->
  number_exp10 n = - e -> number_mantissa n = (5 ^ e - 1) * (2 ^ 64) ^ Z.of_nat k ->
  Z.of_nat (List.length (nl_frac n)) <= 2 ^ 63 -> - 2 ^ 63 < exp_value n < 2 ^ 63 ->
  forall fuel q, next_ok is_terminal q -> tokenize fuel (number_text n ++ q) = NoFuel.
Proof.
  intros n e k He Hk Hn Hx Hm L1 L2. pose proof (five_big e ltac:(lia)) as Hbig.
  assert (Hpow : (2 ^ 64) ^ 1 <= (2 ^ 64) ^ Z.of_nat k) by (apply Z.pow_le_mono_r; lia).
  apply number_hangs; try assumption; [lia|nia|]. intros fuel b Hb Vb. unfold number_token, bigfloat_to_f64.
  rewrite (C25_small_refuted e k); cbn [bf_sig bf_exp]; try assumption; try reflexivity; try lia.
Qed.
Print Assumptions C31_small_refuted.

(** There are such literals for every exponent. *)
Theorem C31_every_exponent_refuted : forall e, 28 <= e < 2 ^ 63 -> exists n, number_ok n /\ exp_value n = - e /\ nl_frac n = [] /\
  forall fuel q, next_ok is_terminal q -> tokenize fuel (number_text n ++ q) = NoFuel.
Proof.
  intros e He. pose proof (five_big e ltac:(lia)) as Hbig. set (m := (5 ^ e - 1) * (2 ^ 64) ^ Z.of_nat 1). assert (Pm : 0 < m) by (unfold m; lia).
  destruct (digits_form (S (Z.to_nat m)) m) as (D1 & D2 & D3); [lia|]. destruct (digits_form (S (Z.to_nat e)) e) as (E1 & E2 & E3); [lia|].
  set (dm := digits (S (Z.to_nat m)) m) in *. set (de := digits (S (Z.to_nat e)) e) in *. clearbody dm de.
  assert (Hd : forall l, Forall (fun c => 48 <= c <= 57) l -> all_digits l) by (intros l; apply Forall_impl; intros c Hc; classes; lia).
  set (n := {| nl_neg := false; nl_int := dm; nl_frac := []; nl_exp := Some (101, [45], de) |}).
  assert (Hok : number_ok n).
  { split; [split; [apply Hd, D1|]|split; [constructor|]]; cbn [nl_int nl_exp n].
    - right. destruct D3 as [[D3 _]|[_ D3]]; [lia|exact D3].
    - split; [auto|]. split; [auto|]. split; [|apply Hd, E1]. destruct E3 as [[E3 _]|[_ (c & r & -> & _)]]; [lia|discriminate]. }
  assert (Hv : exp_value n = - e) by (unfold exp_value, n; cbn [nl_exp]; rewrite E2; reflexivity).
  exists n. split; [exact Hok|]. split; [exact Hv|]. split; [reflexivity|].
  apply (C31_small_refuted n e 1); try assumption; try lia.
  - unfold number_exp10. rewrite Hv. cbn [nl_frac n List.length]. lia.
  - unfold number_mantissa. cbn [nl_int nl_frac n]. rewrite app_nil_r. exact D2.
  - cbn [nl_frac n List.length]. lia.
Qed.
Print Assumptions C31_every_exponent_refuted.

(** The shortest: (5^28 - 1) * 2^64 * 10^-28. *)
Definition c31_small : number_lit :=
  {| nl_neg := false; nl_int := txt "687194767359999999981553255926290448384"; nl_frac := []; nl_exp := Some (101, [45], txt "28") |}.
Example C31_small_case : number_mantissa c31_small = (5 ^ 28 - 1) * 2 ^ 64 /\ number_exp10 c31_small = -28
  /\ number_text c31_small = txt "687194767359999999981553255926290448384e-28" /\ tokenize 500 (number_text c31_small) = NoFuel
  /\ tokenize 500 (txt "687194767359999999981553255926290448384e-27") = Ok [TNumber 0x4264000000000000].
Proof. vm_compute. repeat split; reflexivity. Qed.
