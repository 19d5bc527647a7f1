(** C85: the exponent of a BigFloat is an [i64] (big_numbers/big_float.rs).  ExpModel checks every
    operation on it; the theorems compare it with BigFloatModel, where the exponent is unbounded,
    and with the magnitudes of the numbers. *)
From Coq Require Import ZArith List Bool Lia String.
From Coq Require Import ZifyBool ZifyNat.
From Verif Require Import Outcome LimbsModel LimbsSpec BigUintModel BigIntModel JsBigintModel BigSpec
  LimbsProofs JsBigintProofs JsDivProofs Prop_JsBigint BigFloatModel BigFloatProofs BigFloatSpec BigFloatReal
  BigFloatRound Prop_BigFloat TokenizerModel TokenizerSpec TokenizerRun FuelMono ExpModel VTac.
Import ListNotations.
Open Scope Z_scope.

Definition is_i64 (n : Z) : Prop := - 2 ^ 63 <= n < 2 ^ 63.

Lemma i64_in n : is_i64 n -> i64 n = Ok n.
Proof. unfold is_i64, i64. intros. replace ((- 2 ^ 63 <=? n) && (n <? 2 ^ 63)) with true by lia. reflexivity. Qed.
Lemma i64_out n : ~ is_i64 n -> i64 n = Panic.
Proof. unfold is_i64, i64. intros. replace ((- 2 ^ 63 <=? n) && (n <? 2 ^ 63)) with false by lia. reflexivity. Qed.

(** * The same result or a panic *)

Definition trap {A} (o o' : outcome A) : Prop := o = o' \/ o = Panic.
Lemma trap_refl {A} (o : outcome A) : trap o o. Proof. left. reflexivity. Qed.
Lemma trap_bind {A B} (o o' : outcome A) (k k' : A -> outcome B) : trap o o' -> (forall a, trap (k a) (k' a)) ->
  trap (obind o k) (obind o' k').
Proof.
  intros [->| ->] H; [|right; reflexivity]. destruct o'; cbn [obind]; [apply H|left; reflexivity|left; reflexivity].
Qed.
Lemma trap_i64 {A} n (k : Z -> outcome A) o' : trap (k n) o' -> trap (let! x := i64 n in k x) o'.
Proof.
  intros H. unfold i64. destruct ((- 2 ^ 63 <=? n) && (n <? 2 ^ 63)); cbn [obind]; [exact H|right; reflexivity].
Qed.

Lemma increase_loop_trap m fuel : forall s e, trap (increase_loop_c fuel m s e) (increase_loop fuel m s e).
Proof.
  induction fuel as [|fuel IH]; intros s e; [left; reflexivity|]. cbn [increase_loop increase_loop_c].
  destruct (jb_compare s m); try apply trap_refl. apply trap_bind; [apply trap_refl|]. intros s'. apply trap_i64, IH.
Qed.
Lemma decrease_loop_trap m fuel : forall s e r, trap (decrease_loop_c fuel m s e r) (decrease_loop fuel m s e r).
Proof.
  induction fuel as [|fuel IH]; intros s e r; [left; reflexivity|]. cbn [decrease_loop decrease_loop_c].
  destruct (jb_compare s m); try apply trap_refl; apply trap_i64, IH.
Qed.
Lemma increase_to_trap fuel f m : trap (increase_significand_to_c fuel f m) (increase_significand_to fuel f m).
Proof.
  unfold increase_significand_to_c, increase_significand_to. destruct (jb_is_zero _); [apply trap_refl|].
  apply trap_bind; [apply increase_loop_trap|]. intros [s e]. apply trap_refl.
Qed.
Lemma increase_trap fuel f p : trap (increase_significand_c fuel f p) (increase_significand fuel f p).
Proof.
  unfold increase_significand_c, increase_significand. destruct (jb_is_zero _); [apply trap_refl|].
  apply trap_bind; [apply trap_refl|]. intros m. apply increase_to_trap.
Qed.
Lemma decrease_trap fuel f p : trap (decrease_significand_c fuel f p) (decrease_significand fuel f p).
Proof.
  unfold decrease_significand_c, decrease_significand. destruct (jb_is_zero _); [apply trap_refl|].
  apply trap_bind; [apply trap_refl|]. intros m. apply trap_bind; [apply decrease_loop_trap|]. intros [[s e] r]. apply trap_refl.
Qed.
Lemma to_bin_trap fuel f p : trap (to_bin_c fuel f p) (to_bin fuel f p).
Proof.
  unfold to_bin_c, to_bin. destruct (jb_is_zero _); [apply trap_refl|].
  destruct (bf_exp f =? 0); [apply trap_bind; [apply increase_trap|intros; apply decrease_trap]|].
  destruct (0 <? bf_exp f).
  - do 2 (apply trap_bind; [apply trap_refl|intros ?]). apply trap_bind; [apply increase_trap|intros; apply decrease_trap].
  - apply trap_i64. do 3 (apply trap_bind; [apply trap_refl|intros ?]). apply trap_bind; [apply increase_to_trap|intros f1].
    apply trap_bind; [apply trap_refl|]. intros [q r]. apply decrease_trap.
Qed.
Lemma to_f64_trap fuel f : trap (to_f64_c fuel f) (to_f64 fuel f).
Proof.
  unfold to_f64_c, to_f64, get_f64_bits. destruct (jb_is_zero _); [apply trap_refl|].
  apply trap_bind; [apply increase_trap|intros v1]. apply trap_bind; [apply decrease_trap|intros v2].
  apply trap_i64, trap_i64. replace (bf_exp v2 + 52 + 1) with (bf_exp v2 + 53) by lia.
  destruct (_ && _); [apply trap_refl|]. destruct (_ && _); [|apply trap_refl].
  apply trap_bind; [apply decrease_trap|]. intros v3. apply trap_refl.
Qed.

(** * When the loops overflow *)

Lemma increase_loop_ok m fuel : forall s e s' e', is_i64 e -> increase_loop fuel m s e = Ok (s', e') ->
  e' <= e /\ increase_loop_c fuel m s e = if - 2 ^ 63 <=? e' then Ok (s', e') else Panic.
Proof.
  induction fuel as [|fuel IH]; intros s e s' e' He H; [discriminate|]. cbn [increase_loop increase_loop_c] in *.
  assert (D : Ok (s, e) = Ok (s', e') -> e' <= e /\ Ok (s, e) = if - 2 ^ 63 <=? e' then Ok (s', e') else Panic).
  { intros [= <- <-]. split; [lia|]. destruct He. destruct (Z.leb_spec (- 2 ^ 63) e); [reflexivity|lia]. }
  destruct (jb_compare s m); try exact (D H). clear D. destruct (jb_shl_on_u64 s 1) as [s1| |]; cbn [obind] in *; try discriminate.
  destruct (Z.le_gt_cases (- 2 ^ 63) (e - 1)) as [L|L].
  - assert (He' : is_i64 (e - 1)) by (destruct He; split; lia). rewrite i64_in by exact He'. cbn [obind].
    destruct (IH _ _ _ _ He' H) as [L' E]. split; [lia|exact E].
  - rewrite i64_out by (unfold is_i64; lia). cbn [obind].
    assert (Le : e' <= e - 1).
    { clear - H. revert s1 e s' e' H. induction fuel as [|fuel IH]; intros s1 e s' e' H; [discriminate|]. cbn [increase_loop] in H.
      destruct (jb_compare s1 m); try (inversion H; lia). destruct (jb_shl_on_u64 s1 1); try discriminate. cbn [obind] in H. apply IH in H. lia. }
    split; [lia|]. destruct (Z.leb_spec (- 2 ^ 63) e'); [lia|reflexivity].
Qed.

Lemma decrease_loop_ok m fuel : forall s e r s' e' r', is_i64 e -> decrease_loop fuel m s e r = Ok (s', e', r') ->
  e <= e' /\ decrease_loop_c fuel m s e r = if e' <? 2 ^ 63 then Ok (s', e', r') else Panic.
Proof.
  induction fuel as [|fuel IH]; intros s e r s' e' r' He H; [discriminate|]. cbn [decrease_loop decrease_loop_c] in *.
  assert (D : Ok (s, e, r) = Ok (s', e', r') -> e <= e' /\ Ok (s, e, r) = if e' <? 2 ^ 63 then Ok (s', e', r') else Panic).
  { intros [= <- <- <-]. split; [lia|]. destruct He. destruct (Z.ltb_spec e (2 ^ 63)); [reflexivity|lia]. }
  assert (Up : forall fuel s e r s' e' r', decrease_loop fuel m s e r = Ok (s', e', r') -> e <= e').
  { clear. induction fuel as [|fuel IH]; intros s e r s' e' r' H; [discriminate|]. cbn [decrease_loop] in H.
    destruct (jb_compare s m); try (inversion H; lia); apply IH in H; lia. }
  destruct (jb_compare s m); try exact (D H); clear D;
  (destruct (Z.le_gt_cases (2 ^ 63) (e + 1)) as [L|L];
   [rewrite i64_out by (unfold is_i64; lia); cbn [obind]; apply Up in H; split; [lia|];
    destruct (Z.ltb_spec e' (2 ^ 63)); [lia|reflexivity]
   |assert (He' : is_i64 (e + 1)) by (destruct He; split; lia); rewrite i64_in by exact He'; cbn [obind];
    destruct (IH _ _ _ _ _ _ He' H) as [L' E]; split; [lia|exact E]]).
Qed.

Lemma increase_to_ok fuel f m f' : is_i64 (bf_exp f) -> increase_significand_to fuel f m = Ok f' ->
  increase_significand_to_c fuel f m = if - 2 ^ 63 <=? bf_exp f' then Ok f' else Panic.
Proof.
  intros He. unfold increase_significand_to, increase_significand_to_c. destruct (jb_is_zero _).
  - intros [= <-]. destruct He. destruct (Z.leb_spec (- 2 ^ 63) (bf_exp f)); [reflexivity|lia].
  - destruct (increase_loop _ _ _ _) as [[s e]| |] eqn:E; cbn [obind]; try discriminate. intros [= <-].
    destruct (increase_loop_ok _ _ _ _ _ _ He E) as [_ ->]. cbn [bf_exp]. destruct (- 2 ^ 63 <=? e); reflexivity.
Qed.
Lemma increase_ok fuel f p f' : is_i64 (bf_exp f) -> increase_significand fuel f p = Ok f' ->
  increase_significand_c fuel f p = if - 2 ^ 63 <=? bf_exp f' then Ok f' else Panic.
Proof.
  intros He. unfold increase_significand, increase_significand_c. destruct (jb_is_zero _) eqn:Z.
  - intros [= <-]. destruct He. destruct (Z.leb_spec (- 2 ^ 63) (bf_exp f)); [reflexivity|lia].
  - destruct (one_shl p); cbn [obind]; try discriminate. apply increase_to_ok, He.
Qed.
Lemma decrease_ok fuel f p f' : is_i64 (bf_exp f) -> decrease_significand fuel f p = Ok f' ->
  decrease_significand_c fuel f p = if bf_exp f' <? 2 ^ 63 then Ok f' else Panic.
Proof.
  intros He. unfold decrease_significand, decrease_significand_c. destruct (jb_is_zero _).
  - intros [= <-]. destruct He. destruct (Z.ltb_spec (bf_exp f) (2 ^ 63)); [reflexivity|lia].
  - destruct (one_shl p); cbn [obind]; try discriminate.
    destruct (decrease_loop _ _ _ _ _) as [[[s e] r]| |] eqn:E; cbn [obind]; try discriminate. intros [= <-].
    destruct (decrease_loop_ok _ _ _ _ _ _ _ _ He E) as [_ ->]. cbn [bf_exp]. destruct (e <? 2 ^ 63); reflexivity.
Qed.

(** * Bit lengths *)

Lemma log2_shift v k : 0 < v -> 0 <= k -> Z.log2 (v * 2 ^ k) = Z.log2 v + k.
Proof. intros. rewrite Z.log2_mul_pow2 by lia. lia. Qed.
Lemma log2_drop v k : 0 <= k -> 0 < v / 2 ^ k -> Z.log2 (v / 2 ^ k) = Z.log2 v - k.
Proof.
  intros Hk Hv. assert (Pk : 0 < 2 ^ k) by (apply Z.pow_pos_nonneg; lia).
  assert (Hpos : 0 < v) by (destruct (Z.le_gt_cases v 0) as [L|L]; [|lia]; pose proof (Z.div_le_mono v 0 (2 ^ k) Pk L); rewrite Z.div_0_l in *; lia).
  rewrite <- Z.shiftr_div_pow2 in * by lia. rewrite Z.log2_shiftr by lia.
  destruct (Z.le_gt_cases 0 (Z.log2 v - k)); [lia|].
  rewrite Z.shiftr_div_pow2 in Hv by lia. pose proof (Z.log2_spec v Hpos) as [_ U].
  assert (2 ^ Z.succ (Z.log2 v) <= 2 ^ k) by (apply Z.pow_le_mono_r; lia).
  rewrite Z.div_small in Hv by lia. lia.
Qed.
Lemma log2_le_pow v n : 0 < v -> 2 ^ n <= v -> n <= Z.log2 v.
Proof. intros. destruct (Z.le_gt_cases n 0); [pose proof (Z.log2_nonneg v); lia|]. apply Z.log2_le_pow2; lia. Qed.
Lemma log2_lt_pow v n : 0 < v -> v < 2 ^ n -> Z.log2 v < n.
Proof. intros. apply Z.log2_lt_pow2; lia. Qed.

(** The exponents after the two loops. *)
Lemma inc_exp f p : jwf (bf_sig f) -> 0 < jval (bf_sig f) -> 0 <= p < 2 ^ 64 ->
  exists f' f0, (forall fuel, (f0 <= fuel)%nat -> increase_significand fuel f p = Ok f') /\
    jwf (bf_sig f') /\ 0 < jval (bf_sig f') /\ p <= Z.log2 (jval (bf_sig f')) /\
    bf_exp f' + Z.log2 (jval (bf_sig f')) = bf_exp f + Z.log2 (jval (bf_sig f)) /\
    bf_exp f' = Z.min (bf_exp f) (bf_exp f + Z.log2 (jval (bf_sig f)) - p) /\ bf_sign f' = bf_sign f.
Proof.
  intros Hs Ps Hp. destruct (increase_spec f p Hs Ps Hp) as (k & f' & f0 & Hk & F & H1 & V1 & X1 & S1 & R1 & L1 & U1).
  pose proof (Z.pow_pos_nonneg 2 p ltac:(lia) ltac:(lia)) as Pp.
  assert (P1 : 0 < jval (bf_sig f')) by lia.
  pose proof (log2_le_pow _ _ P1 L1) as G. pose proof (log2_shift _ k Ps Hk) as E. rewrite <- V1 in E.
  exists f', f0. split; [exact F|]. split; [exact H1|]. split; [exact P1|]. split; [exact G|]. split; [lia|]. split; [|exact S1].
  destruct U1 as [U1|U1]; [subst k; lia|].
  assert (Z.log2 (jval (bf_sig f')) < p + 1) by (apply log2_lt_pow; [exact P1|rewrite Z.pow_add_r by lia; lia]). lia.
Qed.
Lemma dec_exp f p : jwf (bf_sig f) -> 0 < jval (bf_sig f) -> 1 <= p < 2 ^ 64 ->
  exists f' f0, (forall fuel, (f0 <= fuel)%nat -> decrease_significand fuel f p = Ok f') /\
    jwf (bf_sig f') /\ 0 < jval (bf_sig f') /\ Z.log2 (jval (bf_sig f')) <= p - 1 /\
    bf_exp f' + Z.log2 (jval (bf_sig f')) = bf_exp f + Z.log2 (jval (bf_sig f)) /\
    bf_exp f' = Z.max (bf_exp f) (bf_exp f + Z.log2 (jval (bf_sig f)) - (p - 1)) /\ bf_sign f' = bf_sign f.
Proof.
  intros Hs Ps Hp. destruct (decrease_spec f p Hs Ps ltac:(lia)) as (k & f' & f0 & Hk & F & H1 & V1 & X1 & S1 & R1 & L1 & U1).
  pose proof (Z.pow_pos_nonneg 2 (p - 1) ltac:(lia) ltac:(lia)) as Pp.
  assert (P1 : 0 < jval (bf_sig f')).
  { destruct U1 as [U1|U1]; [rewrite V1, U1, Z.pow_0_r, Z.div_1_r; exact Ps|]. specialize (U1 ltac:(lia)). lia. }
  pose proof (log2_lt_pow _ _ P1 L1) as G. assert (E : Z.log2 (jval (bf_sig f')) = Z.log2 (jval (bf_sig f)) - k).
  { rewrite V1. apply log2_drop; [exact Hk|]. rewrite <- V1. exact P1. }
  exists f', f0. split; [exact F|]. split; [exact H1|]. split; [exact P1|]. split; [lia|]. split; [lia|]. split; [|exact S1].
  destruct U1 as [U1|U1]; [subst k; lia|]. specialize (U1 ltac:(lia)). apply log2_le_pow in U1; lia.
Qed.

(** * C85 *)

(** Whatever the exponent, the code returns what the unbounded arithmetic returns, or panics. *)
Theorem C85_sound : forall fuel f bits, bigfloat_to_f64_c fuel f = Ok bits -> bigfloat_to_f64 fuel f = Ok bits.
Proof.
  intros fuel f bits H.
  assert (T : trap (bigfloat_to_f64_c fuel f) (bigfloat_to_f64 fuel f)).
  { unfold bigfloat_to_f64_c, bigfloat_to_f64. apply trap_bind; [apply to_bin_trap|]. intros g. apply to_f64_trap. }
  destruct T as [T|T]; congruence.
Qed.
Print Assumptions C85_sound.

(** [to_f64] overflows exactly when the leading bit of the number, of weight 2^(exp + log2), is above
    2^(2^63 - 1) or more than 53 places above the least exponent; everywhere else it is the
    conversion of C26. *)
Theorem C85_to_f64_iff : forall f, jwf (bf_sig f) -> 0 < jval (bf_sig f) -> is_i64 (bf_exp f) ->
  let top := bf_exp f + Z.log2 (jval (bf_sig f)) in
  exists f0, forall fuel, (f0 <= fuel)%nat ->
    (- 2 ^ 63 + 53 <= top < 2 ^ 63 -> to_f64_c fuel f = to_f64 fuel f /\ exists bits, to_f64 fuel f = Ok bits) /\
    (~ (- 2 ^ 63 + 53 <= top < 2 ^ 63) -> to_f64_c fuel f = Panic).
Proof.
  intros f Hs Ps He top.
  destruct (inc_exp f 53 Hs Ps ltac:(lia)) as (v1 & n1 & F1 & H1 & P1 & L1 & T1 & X1 & S1).
  destruct (dec_exp v1 54 H1 P1 ltac:(lia)) as (v2 & n2 & F2 & H2 & P2 & L2 & T2 & X2 & S2).
  assert (E2 : bf_exp v2 = top - 53) by (unfold top in *; lia).
  assert (Hz : jb_is_zero (bf_sig f) = false) by (rewrite jb_is_zero_spec by auto; lia).
  assert (Sub : exists n3, forall fuel, (n3 <= fuel)%nat -> -1074 <= top <= -1023 ->
    exists v3, decrease_significand fuel v2 ((top + 1076) mod B) = Ok v3 /\ jwf (bf_sig v3) /\ 0 < jval (bf_sig v3) < B /\ is_i64 (bf_exp v3)).
  { destruct (Z_lt_le_dec top (-1074)) as [C|C]; [exists 0%nat; intros; lia|]. destruct (Z_lt_le_dec (-1023) top) as [C'|C']; [exists 0%nat; intros; lia|].
    rewrite Z.mod_small by (rewrite B_eq; lia).
    destruct (dec_exp v2 (top + 1076) H2 P2 ltac:(lia)) as (v3 & n3 & F3 & H3 & P3 & L3 & T3 & X3 & S3).
    exists n3. intros fuel Hfu _. exists v3. split; [apply F3, Hfu|]. split; [exact H3|]. split; [|split; lia].
    split; [exact P3|]. rewrite B_eq. apply Z.log2_lt_cancel. rewrite Z.log2_pow2 by lia. lia. }
  destruct Sub as [n3 Sub]. exists (Nat.max n1 (Nat.max n2 n3)). intros fuel Hfu.
  assert (I : increase_significand_c fuel f 53 = if - 2 ^ 63 <=? bf_exp v1 then Ok v1 else Panic)
    by (apply increase_ok; [exact He|apply F1; lia]).
  assert (He1 : bf_exp v1 <= bf_exp f) by lia.
  unfold to_f64_c. rewrite Hz, I. destruct He as [He He'].
  destruct (Z.leb_spec (- 2 ^ 63) (bf_exp v1)) as [C1|C1]; cbn [obind]; [|split; [intros; exfalso; lia|reflexivity]].
  rewrite (decrease_ok fuel v1 54 v2) by (try (apply F2; lia); split; lia).
  destruct (Z.ltb_spec (bf_exp v2) (2 ^ 63)) as [C2|C2]; cbn [obind]; [|split; [intros; exfalso; lia|reflexivity]].
  destruct (Z_lt_le_dec (bf_exp v2 + 52) (2 ^ 63)) as [C3|C3];
    [|rewrite i64_out by (unfold is_i64; lia); split; [intros; exfalso; lia|reflexivity]].
  rewrite i64_in by (split; lia). cbn [obind].
  destruct (Z_lt_le_dec (bf_exp v2 + 53) (2 ^ 63)) as [C4|C4];
    [|rewrite i64_out by (unfold is_i64; lia); split; [intros; exfalso; lia|reflexivity]].
  rewrite i64_in by (split; lia). cbn [obind]. split; [intros _|intros N; exfalso; apply N; lia].
  unfold to_f64, get_f64_bits. rewrite Hz, F1 by lia. cbn [obind]. rewrite F2 by lia. cbn [obind].
  replace (bf_exp v2 + 52 + 1) with (bf_exp v2 + 53) by lia. rewrite E2. replace (top - 53 + 53) with top by lia.
  assert (FR : forall v, jwf (bf_sig v) -> 0 < jval (bf_sig v) < B -> exists fr, get_frac_round v = Ok fr).
  { intros v A1 A2. eexists. apply get_frac_round_spec; assumption. }
  assert (B2 : jval (bf_sig v2) < B) by (rewrite B_eq; apply Z.log2_lt_cancel; rewrite Z.log2_pow2 by lia; lia).
  destruct ((-1022 <=? top) && (top <=? 1023)).
  { split; [reflexivity|]. destruct (FR v2 H2 (conj P2 B2)) as [fr ->]. cbn [obind].
    destruct (fr =? Z.shiftl 1 53); eexists; reflexivity. }
  destruct ((-1074 <=? top) && (top <=? -1023)) eqn:CS.
  - destruct (Sub fuel ltac:(lia) ltac:(lia)) as (v3 & F3 & H3 & P3 & X3).
    rewrite (decrease_ok fuel v2 _ v3) by (try exact F3; split; lia).
    destruct X3. destruct (Z.ltb_spec (bf_exp v3) (2 ^ 63)); [|lia]. rewrite F3. cbn [obind]. split; [reflexivity|].
    destruct (FR v3 H3 P3) as [fr ->]. eexists. reflexivity.
  - split; [reflexivity|]. destruct (1023 <? top); eexists; reflexivity.
Qed.
Print Assumptions C85_to_f64_iff.

(** So it is false that every double has its conversion: 1 * 2^(-2^63) and 2^60 * 2^(2^63 - 1) panic
    instead of becoming 0 and infinity. *)
Theorem C85_to_f64_refuted : exists f g, jwf (bf_sig f) /\ jval (bf_sig f) = 1 /\ bf_exp f = - 2 ^ 63 /\ to_f64_c 100 f = Panic /\ to_f64 100 f = Ok 0 /\
  jwf (bf_sig g) /\ jval (bf_sig g) = 2 ^ 60 /\ bf_exp g = 2 ^ 63 - 1 /\ to_f64_c 100 g = Panic /\ to_f64 100 g = Ok (2047 * 2 ^ 52).
Proof.
  exists (bf (jb_from_u64 Positive 1) Positive (- 2 ^ 63) false), (bf (jb_from_u64 Positive (2 ^ 60)) Positive (2 ^ 63 - 1) false).
  destruct (jb_from_u64_spec Positive 1) as [W1 V1]; [rewrite B_eq; lia|].
  destruct (jb_from_u64_spec Positive (2 ^ 60)) as [W2 V2]; [rewrite B_eq; lia|].
  split; [exact W1|]. split; [exact V1|]. split; [reflexivity|]. split; [vmc|]. split; [vmc|].
  split; [exact W2|]. split; [exact V2|]. split; [reflexivity|]. split; vmc.
Qed.
Print Assumptions C85_to_f64_refuted.

(** ** The conversion of decimals *)

Lemma log2_pow5 n : 0 <= n -> 2 * n <= Z.log2 (5 ^ n) <= 3 * n.
Proof.
  intros Hn. split.
  - apply log2_le_pow; [apply Z.pow_pos_nonneg; lia|]. rewrite Z.pow_mul_r by lia. apply Z.pow_le_mono_l. lia.
  - enough (Z.log2 (5 ^ n) < 3 * n + 1) by lia. apply log2_lt_pow; [apply Z.pow_pos_nonneg; lia|].
    rewrite Z.pow_add_r, Z.pow_mul_r by lia. assert (5 ^ n <= (2 ^ 3) ^ n) by (apply Z.pow_le_mono_l; lia).
    pose proof (Z.pow_pos_nonneg (2 ^ 3) n ltac:(lia) Hn). lia.
Qed.
Lemma log2_product a b : 0 < a -> 0 < b -> Z.log2 a + Z.log2 b <= Z.log2 (a * b) <= Z.log2 a + Z.log2 b + 1.
Proof. intros. split; [apply Z.log2_mul_below; lia|]. pose proof (Z.log2_mul_above a b ltac:(lia) ltac:(lia)). lia. Qed.

(** increase to p + 1 bits, decrease to p bits: the exponents on the way. *)
Lemma inc_dec_c f p : jwf (bf_sig f) -> 0 < jval (bf_sig f) -> 1 <= p < 2 ^ 64 -> is_i64 (bf_exp f) ->
  let top := bf_exp f + Z.log2 (jval (bf_sig f)) in
  exists f' f0, (forall fuel, (f0 <= fuel)%nat ->
      (let! f1 := increase_significand fuel f p in decrease_significand fuel f1 p) = Ok f' /\
      (- 2 ^ 63 + p <= top < 2 ^ 63 + (p - 1) -> (let! f1 := increase_significand_c fuel f p in decrease_significand_c fuel f1 p) = Ok f') /\
      (2 ^ 63 + (p - 1) <= top -> (let! f1 := increase_significand_c fuel f p in decrease_significand_c fuel f1 p) = Panic)) /\
    jwf (bf_sig f') /\ 0 < jval (bf_sig f') /\ bf_exp f' + Z.log2 (jval (bf_sig f')) = top /\ bf_exp f' = top - (p - 1).
Proof.
  intros Hs Ps Hp He top.
  destruct (inc_exp f p Hs Ps ltac:(lia)) as (v1 & n1 & F1 & H1 & P1 & L1 & T1 & X1 & S1).
  destruct (dec_exp v1 p H1 P1 ltac:(lia)) as (v2 & n2 & F2 & H2 & P2 & L2 & T2 & X2 & S2).
  exists v2, (Nat.max n1 n2). split; [|split; [exact H2|]; split; [exact P2|]; unfold top; split; lia].
  intros fuel Hfu. rewrite F1 by lia. cbn [obind]. split; [apply F2; lia|].
  rewrite (increase_ok fuel f p v1) by (try exact He; apply F1; lia). pose proof (Z.log2_nonneg (jval (bf_sig f))).
  destruct He as [He He'].
  assert (E2 : bf_exp v2 = top - (p - 1)) by (unfold top in *; lia).
  split; intros Ht.
  - destruct (Z.leb_spec (- 2 ^ 63) (bf_exp v1)); [|lia]. cbn [obind].
    rewrite (decrease_ok fuel v1 p v2) by (try (apply F2; lia); split; lia).
    destruct (Z.ltb_spec (bf_exp v2) (2 ^ 63)); [reflexivity|lia].
  - destruct (Z.leb_spec (- 2 ^ 63) (bf_exp v1)); [|reflexivity]. cbn [obind].
    rewrite (decrease_ok fuel v1 p v2) by (try (apply F2; lia); split; lia).
    destruct (Z.ltb_spec (bf_exp v2) (2 ^ 63)); [lia|reflexivity].
Qed.

(** Decimals with exponents from -27 to 2^60 and significands of at most 2^60 bits (those of every text
    shorter than 2^58 characters): no overflow, the result is that of unbounded arithmetic, which is the nearest double (C27).
    Missing: smaller exponents, on most of which the conversion does not return anyway (C27). *)
Theorem C85_decimal_partial : forall f, jwf (bf_sig f) -> 0 < jval (bf_sig f) -> bf_rem f = false ->
  -27 <= bf_exp f <= 2 ^ 60 -> Z.log2 (jval (bf_sig f)) < 2 ^ 60 ->
  exists bits f0, (forall fuel, (f0 <= fuel)%nat -> bigfloat_to_f64_c fuel f = Ok bits /\ bigfloat_to_f64 fuel f = Ok bits).
Proof.
  intros f Hs Ps Hr He Hv.
  assert (Hz : jb_is_zero (bf_sig f) = false) by (rewrite jb_is_zero_spec by auto; lia).
  assert (Lv : 0 <= Z.log2 (jval (bf_sig f)) < 2 ^ 60) by (split; [apply Z.log2_nonneg|exact Hv]).
  clear Hv. assert (Big : 2 ^ 63 = 8 * 2 ^ 60) by reflexivity.
  enough (G : exists g f0, (forall fuel, (f0 <= fuel)%nat -> to_bin_c fuel f 54 = Ok g /\ to_bin fuel f 54 = Ok g) /\
    jwf (bf_sig g) /\ 0 < jval (bf_sig g) /\ is_i64 (bf_exp g) /\ -2000 <= bf_exp g + Z.log2 (jval (bf_sig g)) < 2 ^ 63).
  { destruct G as (g & f0 & G & Hg & Pg & Eg & Tg). destruct (C85_to_f64_iff g Hg Pg Eg) as [f1 F1].
    destruct (F1 (Nat.max f0 f1) ltac:(lia)) as [A _]. destruct A as [_ [bits Eb]]; [lia|].
    exists bits, (Nat.max f0 f1). intros fuel Hfu. destruct (G fuel ltac:(lia)) as [G1 G2]. unfold bigfloat_to_f64_c, bigfloat_to_f64.
    rewrite G1, G2. cbn [obind]. destruct (F1 fuel ltac:(lia)) as [A _]. destruct A as [-> _]; [lia|].
    enough (to_f64 fuel g = Ok bits) by auto. pose proof (to_f64_more (Nat.max f0 f1) fuel g Hfu) as M.
    rewrite Eb in M. exact M. }
  destruct five_wf as [H5 V5].
  destruct (Z.eq_dec (bf_exp f) 0) as [E0|E0]; [|destruct (Z_lt_le_dec 0 (bf_exp f)) as [E1|E1]].
  - destruct (inc_dec_c f 54 Hs Ps ltac:(lia)) as (g & f0 & F & Hg & Pg & Tg & Xg); [split; lia|].
    exists g, f0. split; [|split; [exact Hg|]; split; [exact Pg|]; split; [split|]; lia].
    intros fuel Hfu. destruct (F fuel Hfu) as (F1 & F2 & _). unfold to_bin, to_bin_c. rewrite Hz, (proj2 (Z.eqb_eq _ _) E0).
    split; [apply F2; lia|exact F1].
  - destruct (C24_pow_u64_exact _ (bf_exp f) H5 ltac:(lia) ltac:(lia)) as [p5 [Ep [Hp5 Vp]]].
    destruct (jb_mul_spec (bf_sig f) p5 Hs Hp5) as [s [Es [Hs2 Vs]]].
    rewrite V5 in Vp. pose proof (Z.pow_pos_nonneg 5 (bf_exp f) ltac:(lia) ltac:(lia)) as P5.
    pose proof (log2_pow5 (bf_exp f) ltac:(lia)) as B5. pose proof (log2_product _ _ Ps P5) as BM. rewrite Vp in Vs. rewrite <- Vs in BM.
    assert (Ps2 : 0 < jval s) by (rewrite Vs; apply Z.mul_pos_pos; assumption).
    destruct (inc_dec_c {| bf_sig := s; bf_sign := bf_sign f; bf_exp := bf_exp f; bf_rem := bf_rem f |} 54 Hs2 Ps2 ltac:(lia))
      as (g & f0 & F & Hg & Pg & Tg & Xg); [cbn [bf_exp]; split; lia|]. cbn [bf_sig bf_exp] in *.
    exists g, f0. split; [|split; [exact Hg|]; split; [exact Pg|]; split; [split|]; lia].
    intros fuel Hfu. destruct (F fuel Hfu) as (F1 & F2 & _). unfold to_bin, to_bin_c.
    rewrite Hz, (proj2 (Z.eqb_neq _ _) E0), (proj2 (Z.ltb_lt _ _) E1), Ep. cbn [obind]. rewrite Es. cbn [obind].
    split; [apply F2; lia|exact F1].
  - destruct (C24_pow_u64_exact _ (- bf_exp f) H5 ltac:(lia) ltac:(lia)) as [p5 [Ep [Hp5 Vp]]].
    destruct (one_shl_spec 54 ltac:(lia)) as [m [Em [Hm Vm]]].
    destruct (jb_mul_spec p5 m Hp5 Hm) as [pm [Epm [Hpm Vpm]]]. rewrite V5 in Vp.
    assert (P5 : 0 < 5 ^ (- bf_exp f)) by (apply Z.pow_pos_nonneg; lia).
    assert (P5le : 5 ^ (- bf_exp f) <= 2 ^ 63).
    { apply Z.le_trans with (5 ^ 27); [apply Z.pow_le_mono_r; lia|]. vm_compute. discriminate. }
    rewrite Vp, Vm in Vpm.
    assert (Bpm : 0 < jval pm <= 2 ^ 63 * 2 ^ 54) by (rewrite Vpm; split; [lia|apply Z.mul_le_mono_nonneg_r; lia]).
    destruct (increase_to_spec f pm Hs Ps Hpm ltac:(lia)) as (k & f1 & n1 & Hk & F1 & H1 & V1 & X1 & S1 & R1 & L1 & U1).
    pose proof (log2_shift _ k Ps Hk) as E. rewrite <- V1 in E.
    assert (P1 : 0 < jval (bf_sig f1)) by lia.
    assert (Bk : k <= 118).
    { destruct U1 as [U1|U1]; [lia|]. assert (Z.log2 (jval (bf_sig f1)) < 118) by (apply log2_lt_pow; [exact P1|]; apply Z.lt_le_trans with (1 := U1);
        change (2 ^ 118) with (2 * (2 ^ 63 * 2 ^ 54)); lia). lia. }
    assert (Hge : 5 ^ (- bf_exp f) * 2 ^ 54 <= jval (bf_sig f1)) by lia.
    destruct (C23_div_mod_partial (bf_sig f1) p5 0 (jval p5) H1 Hp5 ltac:(lia)) as [q [r [n2 [F2 [Hq [Hr2 [Vq Vr]]]]]]].
    { cbn [Z.of_nat]. rewrite Z.pow_0_r. lia. }
    { lia. }
    rewrite Vp in Vq. rewrite Z.quot_div_nonneg in Vq by lia.
    assert (Bq : 0 < jval q <= jval (bf_sig f1)).
    { rewrite Vq. split; [apply Z.div_str_pos; lia|]. apply Z.div_le_upper_bound; [lia|]. clear - P5 P1. nia. }
    assert (Lq : Z.log2 (jval q) <= Z.log2 (jval (bf_sig f1))) by (apply Z.log2_le_mono; lia).
    pose proof (Z.log2_nonneg (jval q)) as Nq.
    destruct (dec_exp {| bf_sig := q; bf_sign := bf_sign f; bf_exp := bf_exp f1; bf_rem := bf_rem f || negb (jb_is_zero r) |} 54 Hq ltac:(cbn [bf_sig]; lia) ltac:(lia))
      as (g & n3 & F3 & Hg & Pg & Lg & Tg & Xg & Sg). cbn [bf_sig bf_exp] in *.
    exists g, (Nat.max n1 (Nat.max n2 n3)). split; [|split; [exact Hg|]; split; [exact Pg|]; split; [split|]; lia].
    intros fuel Hfu. unfold to_bin, to_bin_c. rewrite Hz, (proj2 (Z.eqb_neq _ _) E0), (proj2 (Z.ltb_ge _ _) E1).
    rewrite i64_in by (split; lia). cbn [obind]. rewrite Ep. cbn [obind]. rewrite Em. cbn [obind]. rewrite Epm. cbn [obind].
    rewrite (increase_to_ok fuel f pm f1) by (try (apply F1; lia); split; lia). rewrite F1 by lia.
    destruct (Z.leb_spec (- 2 ^ 63) (bf_exp f1)); [|lia]. cbn [obind]. rewrite F2 by lia. cbn [obind]. split; [|apply F3; lia].
    rewrite (decrease_ok fuel _ 54 g) by (try (apply F3; lia); cbn [bf_exp]; split; lia).
    destruct (Z.ltb_spec (bf_exp g) (2 ^ 63)); [reflexivity|lia].
Qed.
Print Assumptions C85_decimal_partial.

(** Above 2^62 every decimal overflows: the literal [1e4611686018427387904] never becomes infinity.  (It
    would need 2^61 bytes before; the panic is that of a machine without a memory limit.) *)
Theorem C85_large_refuted : forall f p, jwf (bf_sig f) -> 0 < jval (bf_sig f) -> 2 ^ 62 <= bf_exp f < 2 ^ 63 -> 1 <= p < 256 ->
  exists f0, forall fuel, (f0 <= fuel)%nat -> to_bin_c fuel f p = Panic.
Proof.
  intros f p Hs Ps He Hp.
  assert (Hz : jb_is_zero (bf_sig f) = false) by (rewrite jb_is_zero_spec by auto; lia).
  destruct five_wf as [H5 V5]. assert (Big : 2 ^ 63 = 2 * 2 ^ 62) by reflexivity. assert (0 < 2 ^ 62 - 1000) by reflexivity.
  destruct (C24_pow_u64_exact _ (bf_exp f) H5 ltac:(lia) ltac:(lia)) as [p5 [Ep [Hp5 Vp]]].
  destruct (jb_mul_spec (bf_sig f) p5 Hs Hp5) as [s [Es [Hs2 Vs]]].
  rewrite V5 in Vp. pose proof (Z.pow_pos_nonneg 5 (bf_exp f) ltac:(lia) ltac:(lia)) as P5.
  pose proof (log2_pow5 (bf_exp f) ltac:(lia)) as B5. pose proof (log2_product _ _ Ps P5) as BM. rewrite Vp in Vs. rewrite <- Vs in BM.
  assert (Ps2 : 0 < jval s) by (rewrite Vs; apply Z.mul_pos_pos; assumption).
  pose proof (Z.log2_nonneg (jval (bf_sig f))) as Nv.
  destruct (inc_dec_c {| bf_sig := s; bf_sign := bf_sign f; bf_exp := bf_exp f; bf_rem := bf_rem f |} p Hs2 Ps2 ltac:(lia))
    as (g & f0 & F & _); [cbn [bf_exp]; split; lia|]. cbn [bf_sig bf_exp] in *.
  exists f0. intros fuel Hfu. destruct (F fuel Hfu) as (_ & _ & F3). unfold to_bin_c.
  rewrite Hz, (proj2 (Z.eqb_neq (bf_exp f) 0)), (proj2 (Z.ltb_lt 0 (bf_exp f))), Ep by lia. cbn [obind]. rewrite Es. cbn [obind].
  apply F3. lia.
Qed.
Print Assumptions C85_large_refuted.

(** The least exponent panics at once: it cannot be negated.  The tokenizer accepts it in a literal
    with a fraction, [0.1e-9223372036854775807]: the digit after the point lowers the exponent by
    one.  Without the check the conversion would start to compute 5^(2^63). *)
Theorem C85_least_refuted : forall fuel, exists b,
  run fuel Initial (txt "0.1e-9223372036854775807"%string) = Ok ([], ParseExp b Positive (-1) Negative (2 ^ 63 - 1)) /\ jval b = 1 /\
  forall fuel', exp_state_into_token_c fuel' b Positive (-1) Negative (2 ^ 63 - 1) = Panic.
Proof.
  intros fuel. eexists. split; [vm_compute; reflexivity|]. split; [vm_compute; reflexivity|]. intros fuel'. reflexivity.
Qed.
Print Assumptions C85_least_refuted.

(** Example: 3 * 2^-1100 and 3 * 2^(2^63 - 56) (0 and infinity), at the edge 2^(2^63 - 1) and one above, 12e20 both ways. *)
Example C85_case :
  to_f64_c 100 (bf (jb_from_u64 Positive 3) Positive (-1100) false) = Ok 0 /\
  to_f64_c 100 (bf (jb_from_u64 Positive 1) Negative (2 ^ 63 - 1) false) = Ok (2 ^ 63 + 2047 * 2 ^ 52) /\
  to_f64_c 100 (bf (jb_from_u64 Positive 2) Negative (2 ^ 63 - 1) false) = Panic /\
  to_f64_c 100 (bf (jb_from_u64 Positive (2 ^ 53)) Positive (- 2 ^ 63) false) = Ok 0 /\
  to_f64_c 100 (bf (jb_from_u64 Positive (2 ^ 53 - 1)) Positive (- 2 ^ 63) false) = Panic /\
  bigfloat_to_f64_c 100 (bf (jb_from_u64 Positive 12) Positive 20 false) = Ok 0x445043561a882930 /\
  bigfloat_to_f64_c 200 (bf (jb_from_u64 Positive 12) Positive (-20) false) = bigfloat_to_f64 200 (bf (jb_from_u64 Positive 12) Positive (-20) false).
Proof. repeat split; vmc. Qed.
