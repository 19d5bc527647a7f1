(** Properties C05, C13 and C23 once more: the divisors for which the division is right for
    every dividend, exactly. *)
From Coq Require Import ZArith List Bool Lia.
From Coq Require Import ZifyBool ZifyNat.
From Verif Require Import Outcome VTac LimbsModel LimbsSpec BigUintModel BigIntModel JsBigintModel BigSpec LimbsProofs ShiftProofs BigUintProofs
  BigIntProofs JsBigintProofs JsDivProofs Prop_BigUint Prop_BigInt Prop_JsBigint.
Import ListNotations.
Open Scope Z_scope.

(** [x] is one digit in base 2^64 followed by zeros; the digit is at most [top]. *)
Definition one_digit (top x : Z) : Prop := exists d k, 0 < d <= top /\ x = d * (2 ^ 64) ^ Z.of_nat k.

(** A canonical vector: zeros, a non-zero limb, the rest. *)
Lemma first_limb b : canon b -> b <> [] -> exists j b0 bs, b = repeat 0 j ++ b0 :: bs /\ 0 < b0.
Proof.
  intros [Hl Hc] Hn. revert Hl Hc Hn. induction b as [|x b IH]; intros Hl Hc Hn; [congruence|]. apply limbs_cons in Hl as [Hx Hl].
  destruct (Z.eq_dec x 0) as [->|Hx0]; [|exists O, x, b; split; [reflexivity|lia]].
  destruct b as [|y b]; [cbn in Hc; congruence|]. destruct (IH Hl Hc ltac:(discriminate)) as (j & b0 & bs & -> & H0).
  exists (S j), b0, bs. split; [reflexivity|exact H0].
Qed.
Lemma last_after (l : list Z) x bs : bs <> [] -> last (l ++ x :: bs) 1 = last bs 1.
Proof.
  intros H. destruct bs as [|y bs]; [congruence|]. induction l as [|z l IH]; [reflexivity|]. cbn [app].
  destruct (l ++ x :: y :: bs) eqn:E; [destruct l; discriminate|]. exact IH.
Qed.
Lemma last_shift k (l : list Z) : l <> [] -> last (repeat 0 k ++ l) 1 = last l 1.
Proof.
  intros H. induction k as [|k IH]; [reflexivity|]. cbn [repeat app]. destruct (repeat 0 k ++ l) eqn:E; [destruct k, l; cbn in *; congruence|]. exact IH.
Qed.
Lemma shift_val k l : val (repeat 0 k ++ l) = B ^ Z.of_nat k * val l.
Proof. rewrite val_app, val_repeat0, repeat_length. ring. Qed.

Lemma one_digit_dec top b : top < 2 ^ 64 -> canon b -> b <> [] -> one_digit top (val b) \/ ~ one_digit top (val b).
Proof.
  intros Ht Hb Hn. destruct (first_limb b Hb Hn) as (j & b0 & bs & -> & H0). pose proof (canon_limbs _ Hb) as L. apply limbs_app in L as [_ L].
  apply limbs_cons in L as [L0 Lb]. pose proof B_eq as HBe. pose proof B_val as HB.
  assert (N : forall d k, 0 < d <= top -> val (repeat 0 j ++ b0 :: bs) = d * (2 ^ 64) ^ Z.of_nat k -> bs = [] /\ b0 = d).
  { intros d k Hd Hv. assert (E : repeat 0 j ++ b0 :: bs = repeat 0 k ++ [d]).
    { apply canon_inj; [exact Hb| |].
      - split; [apply limbs_app; split; [apply limbs_repeat0|apply limbs_cons; split; [lia|constructor]]|]. rewrite last_last. lia.
      - rewrite Hv, shift_val, val_cons, val_nil, HBe. ring. }
    clear -E H0. revert k E. induction j as [|j IH]; intros [|k] E; cbn in E; injection E; intros; subst; try lia; eauto.
    destruct j; discriminate. }
  destruct (Z_le_gt_dec b0 top) as [Hle|Hgt]; [|right; intros (d & k & Hd & Hv); destruct (N d k Hd Hv); lia].
  destruct bs as [|y bs]; [|right; intros (d & k & Hd & Hv); destruct (N d k Hd Hv); discriminate].
  left. exists b0, j. split; [lia|]. rewrite shift_val, val_cons, val_nil, HBe. ring.
Qed.

(** * BigUint *)
Lemma bu_stuck b : canon b -> b <> [] -> ~ one_digit (2 ^ 64 - 1) (val b) ->
  exists a, canon a /\ val b <= val a /\ forall fuel, bu_div_mod fuel a b = NoFuel.
Proof.
  intros Hb Hn Hf. pose proof B_val as HB. pose proof B_eq as HBe. destruct (first_limb b Hb Hn) as (j & b0 & bs & -> & H0).
  pose proof (canon_limbs _ Hb) as L. apply limbs_app in L as [_ L]. apply limbs_cons in L as [L0 Lb].
  assert (Hbs : bs <> []).
  { intros ->. apply Hf. exists b0, j. split; [lia|]. rewrite shift_val, val_cons, val_nil, HBe. ring. }
  (* a = B * b with the lowest non-zero limb decreased by one *)
  exists (repeat 0 (S j) ++ b0 - 1 :: bs).
  assert (Hl : last (repeat 0 (S j) ++ b0 - 1 :: bs) 1 = last (repeat 0 j ++ b0 :: bs) 1) by (rewrite !last_after by exact Hbs; reflexivity).
  assert (Ca : canon (repeat 0 (S j) ++ b0 - 1 :: bs)).
  { split; [apply limbs_app; split; [apply limbs_repeat0|apply limbs_cons; split; [lia|exact Lb]]|rewrite Hl; apply Hb]. }
  assert (Hlen : Nat.sub (List.length (repeat 0 (S j) ++ b0 - 1 :: bs)) (List.length (repeat 0 j ++ b0 :: bs)) = 1%nat).
  { rewrite !app_length, !repeat_length. cbn [List.length]. lia. }
  assert (Hv : val (repeat 0 (S j) ++ b0 - 1 :: bs) = B * val (repeat 0 j ++ b0 :: bs) - B ^ Z.of_nat (S j)).
  { rewrite !shift_val, !val_cons, Nat2Z.inj_succ, Z.pow_succ_r by lia. ring. }
  assert (Hp : 0 < B ^ Z.of_nat j) by (apply Z.pow_pos_nonneg; lia).
  assert (Hbv : B ^ Z.of_nat j * B <= val (repeat 0 j ++ b0 :: bs)).
  { rewrite shift_val, val_cons. assert (0 < val bs); [|nia].
    assert (Cbs : canon bs) by (split; [exact Lb|rewrite <- (last_after (repeat 0 j) b0 bs Hbs); apply Hb]).
    destruct (Z.eq_dec (val bs) 0) as [E|E]; [|pose proof (val_nonneg bs Lb); lia]. exfalso. apply Hbs. apply canon_inj; auto. }
  split; [exact Ca|]. split; [rewrite Hv, Nat2Z.inj_succ, Z.pow_succ_r by lia; nia|].
  apply C05_div_mod_diverges; auto.
  - rewrite !app_length, !repeat_length. cbn [List.length]. lia.
  - rewrite Hlen, Hv, <- HBe. change (Z.of_nat 1) with 1. rewrite Z.pow_1_r, Nat2Z.inj_succ, Z.pow_succ_r by lia. nia.
Qed.

Lemma one_digit_lt x : one_digit (2 ^ 64 - 1) x <-> exists d k, 0 < d < 2 ^ 64 /\ x = d * (2 ^ 64) ^ Z.of_nat k.
Proof. split; intros (d & k & H1 & H2); exists d, k; split; auto; lia. Qed.

(** The division is right for every dividend iff the divisor is one digit followed by zeros. *)
Theorem C05_boundary : forall b, canon b -> b <> [] ->
  ((forall a, canon a -> exists q r f0, (forall fuel, (f0 <= fuel)%nat -> bu_div_mod fuel a b = Ok (q, r)) /\
      val q = val a / val b /\ val r = val a mod val b)
   <-> one_digit (2 ^ 64 - 1) (val b)).
Proof.
  intros b Hb Hn. split.
  - intros H. destruct (one_digit_dec (2 ^ 64 - 1) b ltac:(lia) Hb Hn) as [D|D]; [exact D|]. exfalso. destruct (bu_stuck b Hb Hn D) as (a & Ca & _ & Hs).
    destruct (H a Ca) as (q & r & f0 & Hf & _). specialize (Hf f0 (Nat.le_refl _)). rewrite Hs in Hf. discriminate.
  - intros H a Ha. apply one_digit_lt in H as (d & k & Hd & Hv). destruct (C05_div_mod_partial a b k d Ha Hb Hd Hv) as (q & r & f0 & H1 & _ & _ & H2 & H3). eauto 8.
Qed.
Print Assumptions C05_boundary.
Example C05_boundary_case : one_digit (2 ^ 64 - 1) (val [0; 7]) /\ bu_div_mod 9 [5; 6; 15] [0; 7] = Ok ([2635249153387078803; 2], [5; 1]) /\
  ~ one_digit (2 ^ 64 - 1) (val [1; 7]) /\ bu_div_mod 1000 [0; 0; 7] [1; 7] = NoFuel.
Proof.
  split; [exists 7, 1%nat; split; [lia|reflexivity]|]. split; [vmc|]. split; [|vmc].
  intros (d & k & Hd & Hv). change (val [1; 7]) with (1 + 2 ^ 64 * 7) in Hv. destruct k as [|k].
  - change (Z.of_nat 0) with 0 in Hv. rewrite Z.pow_0_r in Hv. lia.
  - rewrite Nat2Z.inj_succ, Z.pow_succ_r in Hv by lia. lia.
Qed.

(** * BigInt *)
(** ECMAScript division: truncated quotient, remainder with the sign of the dividend. *)
Definition js_division (a b q r : Z) : Prop := a = q * b + r /\ Z.abs r < Z.abs b /\ 0 <= a * r.
Lemma js_division_quot a b q r : b <> 0 -> (js_division a b q r <-> q = Z.quot a b /\ r = Z.rem a b).
Proof.
  intros Hb. unfold js_division. split.
  - intros (E & Hr & Hs).
    assert (q = Z.quot a b) as ->.
    { pose proof (Z.quot_rem a b Hb) as E'. pose proof (Z.rem_bound_abs a b Hb) as Hr'. pose proof (Z.rem_sign_mul a b Hb) as Hs'. 
      assert (Hq : b * (q - Z.quot a b) = Z.rem a b - r) by lia.
      assert (Hlt : Z.abs (Z.rem a b - r) < Z.abs b).
      { destruct (Z.eq_dec a 0) as [->|Ha]; [rewrite Z.rem_0_l by exact Hb; lia|].
        generalize dependent (Z.rem a b). intros t _ Ht Hst _. clear E q.
        assert (0 <= r /\ 0 <= t \/ r <= 0 /\ t <= 0); [|lia].
        destruct (Z_lt_le_dec 0 a); [left|right]; split.
        - apply Z.mul_nonneg_cancel_l with a; lia.
        - apply Z.mul_nonneg_cancel_r with a; lia.
        - apply Z.opp_nonneg_nonpos, (Z.mul_nonneg_cancel_l (- a)); lia.
        - apply Z.opp_nonneg_nonpos, (Z.mul_nonneg_cancel_l (- a)); lia. }
      rewrite <- Hq, Z.abs_mul in Hlt. assert (Z.abs (q - Z.quot a b) < 1); [|lia].
      apply Z.mul_lt_mono_pos_l with (Z.abs b); lia. }
    split; [reflexivity|]. pose proof (Z.quot_rem a b Hb). lia.
  - intros [-> ->]. split; [pose proof (Z.quot_rem a b Hb); lia|]. split; [apply Z.rem_bound_abs, Hb|]. rewrite Z.mul_comm. apply Z.rem_sign_mul, Hb.
Qed.

Theorem C13_boundary : forall b, bicanon b -> bival b <> 0 ->
  ((forall a, bicanon a -> exists q r f0, (forall fuel, (f0 <= fuel)%nat -> bi_div_mod fuel a b = Ok (q, r)) /\
      js_division (bival a) (bival b) (bival q) (bival r))
   <-> one_digit (2 ^ 64 - 1) (Z.abs (bival b)) /\ (0 < bival b \/ bival b = -1)).
Proof.
  intros b Hb Hn. pose proof (bicanon_canon b Hb) as Cb.
  assert (Hab : Z.abs (bival b) = val (bi_value b)).
  { pose proof (val_nonneg _ (canon_limbs _ Cb)). unfold bival. destruct (bi_sign b); lia. }
  assert (Hnn : bi_value b <> []) by (intros E; unfold bival in Hn; rewrite E, val_nil in Hn; destruct (bi_sign b); lia).
  split.
  - intros H. assert (D : one_digit (2 ^ 64 - 1) (Z.abs (bival b))).
    { rewrite Hab. destruct (one_digit_dec (2 ^ 64 - 1) _ ltac:(lia) Cb Hnn) as [D|D]; [exact D|]. exfalso.
      destruct (bu_stuck _ Cb Hnn D) as (a & Ca & _ & Hs).
      destruct (H {| bi_sign := Positive; bi_value := a |}) as (q & r & f0 & Hf & _); [split; [exact Ca|reflexivity]|].
      specialize (Hf f0 (Nat.le_refl _)). unfold bi_div_mod in Hf. cbn [bi_value bi_sign] in Hf. rewrite Hs in Hf. destruct (bi_is_zero b); discriminate. }
    split; [exact D|]. destruct (Z_lt_le_dec 0 (bival b)) as [|Hneg]; [left; assumption|right].
    destruct (Z.eq_dec (bival b) (-1)) as [|Hn1]; [assumption|exfalso].
    (* 1 / b has remainder -1 *)
    destruct (H {| bi_sign := Positive; bi_value := [1] |}) as (q & r & f0 & Hf & Hd).
    { split; [split; [apply limbs_cons; split; [pose proof B_val; lia|constructor]|cbn; lia]|reflexivity]. }
    apply one_digit_lt in D as (d & k & Hd' & Hv).
    destruct (C13_div_mod_partial {| bi_sign := Positive; bi_value := [1] |} b k d) as (q' & r' & f1 & Hf' & Hq & Hr); auto.
    { split; [split; [apply limbs_cons; split; [pose proof B_val; lia|constructor]|cbn; lia]|reflexivity]. }
    specialize (Hf (Nat.max f0 f1) ltac:(lia)). rewrite Hf' in Hf by lia. injection Hf as <- <-.
    apply js_division_quot in Hd as [_ Hd]; [|exact Hn]. change (bival {| bi_sign := Positive; bi_value := [1] |}) with 1 in *.
    rewrite Z.sgn_neg, Hd in Hr by lia. assert (E : Z.rem 1 (bival b) = 1); [|lia].
    rewrite <- (Z.opp_involutive (bival b)), Z.rem_opp_r' . apply Z.rem_small. lia.
  - intros [D Hs] a Ha. apply one_digit_lt in D as (d & k & Hd & Hv).
    destruct (C13_div_mod_partial a b k d Ha Hb Hd Hv) as (q & r & f0 & H1 & H2 & H3). exists q, r, f0. split; [exact H1|].
    apply js_division_quot; [exact Hn|]. split; [exact H2|]. rewrite H3. destruct Hs as [Hs|Hs]; [rewrite Z.sgn_pos by exact Hs; lia|].
    rewrite Hs. change (-1) with (- (1)). rewrite Z.rem_opp_r', Z.rem_1_r. reflexivity.
Qed.
Print Assumptions C13_boundary.

(** * JsBigint *)
(** The loop makes no progress when the estimated digit is 1 and the shifted divisor comes later
    in the order of the vectors. *)
Lemma js_stuck a b k : canon a -> canon b -> b <> [] -> val b <= val a -> estimate a b = Ok (k, 1) ->
  std_vec_cmp a (repeat 0 k ++ b) = Lt -> forall fuel res, jb_div_loop fuel a b res = NoFuel.
Proof.
  intros Ca Hb Hn Hge He Hx. pose proof B_val as HB.
  assert (Hm : mul_vec b (q_vec k 1) = Ok (repeat 0 k ++ b)).
  { destruct (mul_vec_spec b (q_vec k 1)) as (m & Em & Hm & Vm); [apply canon_limbs, Hb|apply q_vec_limbs; lia|exact Hn|apply q_vec_nonnil|].
    rewrite Em. f_equal. apply canon_inj; [exact Hm| |rewrite Vm, q_vec_val, shift_val; ring].
    split; [apply limbs_app; split; [apply limbs_repeat0|apply canon_limbs, Hb]|]. rewrite last_shift by exact Hn. apply Hb. }
  assert (Hm0 : mul_vec b (q_vec k (1 - 1)) = Ok []).
  { destruct (mul_vec_spec b (q_vec k (1 - 1))) as (m & Em & Hm' & Vm); [apply canon_limbs, Hb|apply q_vec_limbs; lia|exact Hn|apply q_vec_nonnil|].
    rewrite Em. f_equal. apply canon_inj; [exact Hm'|auto|]. rewrite Vm, q_vec_val, val_nil. ring. }
  assert (Hs : normalize_vec (sub_vec a []) = a).
  { destruct (sub_vec_norm_spec a [] Ca canon_nil ltac:(rewrite val_nil; pose proof (val_nonneg a (canon_limbs _ Ca)); lia)) as [H1 H2]. unfold sub_vec_norm in *.
    apply canon_inj; auto. rewrite H2, val_nil. lia. }
  assert (Hc : cmp_vec a b <> Lt) by (rewrite cmp_vec_spec by auto; intros E; exact (proj2 (Z.nlt_ge _ _) Hge (proj1 (Z.compare_lt_iff _ _) E))).
  induction fuel as [|fuel IH]; intros res; [reflexivity|]. cbn [jb_div_loop].
  destruct (cmp_vec a b) eqn:E; [|congruence|]; rewrite He; cbn [obind]; rewrite Hm; cbn [obind]; rewrite Hx;
    change (1 =? 0) with false; cbv iota; rewrite Hm0; cbn [obind]; rewrite Hs; apply IH.
Qed.

Lemma lex_shift k x y l m : x < y -> std_vec_cmp (repeat 0 k ++ x :: l) (repeat 0 k ++ y :: m) = Lt.
Proof.
  intros H. induction k as [|k IH]; cbn [repeat app std_vec_cmp]; [|exact IH].
  rewrite (proj2 (Z.compare_lt_iff _ _)) by lia. reflexivity.
Qed.

Lemma jb_stuck b : canon b -> b <> [] -> ~ one_digit (2 ^ 63) (val b) ->
  exists a, canon a /\ val b < val a /\ forall fuel res, jb_div_loop fuel a b res = NoFuel.
Proof.
  intros Hb Hn Hf. pose proof B_val as HB. pose proof B_eq as HBe. destruct (first_limb b Hb Hn) as (j & b0 & bs & -> & H0).
  pose proof (canon_limbs _ Hb) as L. apply limbs_app in L as [_ L]. apply limbs_cons in L as [L0 Lb].
  assert (Hp : 0 < B ^ Z.of_nat j) by (apply Z.pow_pos_nonneg; lia).
  assert (Dbs : bs = [] \/ bs <> []) by (destruct bs; [left; reflexivity|right; discriminate]). destruct Dbs as [->|Hbs].
  - (* one digit above 2^63: the dividend is the next power of 2^64 *)
    assert (Hd : 2 ^ 63 < b0).
    { destruct (Z_lt_le_dec (2 ^ 63) b0) as [|Hle]; [assumption|]. exfalso. apply Hf. exists b0, j. split; [lia|]. rewrite shift_val, val_cons, val_nil, HBe. ring. }
    assert (Ca : canon (repeat 0 (S j) ++ [1])).
    { split; [apply limbs_app; split; [apply limbs_repeat0|apply limbs_cons; split; [lia|constructor]]|]. rewrite last_last. lia. }
    assert (Hlt : val (repeat 0 j ++ [b0]) < val (repeat 0 (S j) ++ [1])).
    { rewrite !shift_val, !val_cons, !val_nil, Nat2Z.inj_succ, Z.pow_succ_r by lia. nia. }
    exists (repeat 0 (S j) ++ [1]). split; [exact Ca|]. split; [exact Hlt|]. apply js_stuck with O; auto; [lia| |].
    + unfold estimate. rewrite !rev_app_distr. cbn [rev app]. destruct (Z.leb_spec b0 1); [lia|].
      cbn [repeat]. rewrite repeat_cons, rev_app_distr. cbn [rev app]. rewrite !app_length, !repeat_length. cbn [List.length].
      destruct (Nat.ltb_spec (j + 1 + 1 - 1) (j + 1 - 1 + 1)); [lia|]. rewrite Z.mul_1_l, Z.add_0_r.
      rewrite <- (Z.div_unique B b0 1 (B - b0)) by lia. rewrite Z.mod_small by lia. replace (j + 1 + 1 - 1 - (j + 1 - 1) - 1)%nat with O by lia. reflexivity.
    + cbn [repeat]. rewrite repeat_cons, <- app_assoc. cbn [app]. apply lex_shift. lia.
  - exists (repeat 0 (S j) ++ b0 - 1 :: bs).
    assert (Hl : last (repeat 0 (S j) ++ b0 - 1 :: bs) 1 = last (repeat 0 j ++ b0 :: bs) 1) by (rewrite !last_after by exact Hbs; reflexivity).
    assert (Ca : canon (repeat 0 (S j) ++ b0 - 1 :: bs)).
    { split; [apply limbs_app; split; [apply limbs_repeat0|apply limbs_cons; split; [lia|exact Lb]]|rewrite Hl; apply Hb]. }
    assert (Hv : val (repeat 0 (S j) ++ b0 - 1 :: bs) = B * val (repeat 0 j ++ b0 :: bs) - B ^ Z.of_nat (S j)).
    { rewrite !shift_val, !val_cons, Nat2Z.inj_succ, Z.pow_succ_r by lia. ring. }
    assert (Hbv : B ^ Z.of_nat j * B <= val (repeat 0 j ++ b0 :: bs)).
    { rewrite shift_val, val_cons. assert (0 < val bs); [|nia].
      assert (Cbs : canon bs) by (split; [exact Lb|rewrite <- (last_after (repeat 0 j) b0 bs Hbs); apply Hb]).
      destruct (Z.eq_dec (val bs) 0) as [E|E]; [|pose proof (val_nonneg bs Lb); lia]. exfalso. apply Hbs. apply canon_inj; auto. }
    assert (Hlt : val (repeat 0 j ++ b0 :: bs) < val (repeat 0 (S j) ++ b0 - 1 :: bs)) by (rewrite Hv, Nat2Z.inj_succ, Z.pow_succ_r by lia; nia).
    split; [exact Ca|]. split; [exact Hlt|]. apply js_stuck with 1%nat; auto; [lia| |].
    + destruct (estimate_spec (repeat 0 (S j) ++ b0 - 1 :: bs) _ Ca Hb Hn ltac:(lia)) as (qi & qd & He & _ & _ & _ & _ & Hq).
      rewrite He. destruct Hq as [(_ & -> & ->)|(H & _)]; [|lia]. rewrite Hl, Z.div_same by apply Hb. f_equal. f_equal.
      rewrite !app_length, !repeat_length. cbn [List.length]. lia.
    + cbn [repeat app std_vec_cmp]. apply lex_shift. lia.
Qed.

Lemma jb_of_limbs l : canon l -> jwf (jb (Z.of_nat (List.length l)) l) /\ jval (jb (Z.of_nat (List.length l)) l) = val l.
Proof.
  intros Hl. split; [split; [exact Hl|cbn [jb_len jb_items jb]; lia]|].
  unfold jval. cbn [jb_len jb_items jb]. destruct (Z.ltb_spec (Z.of_nat (List.length l)) 0); [lia|reflexivity].
Qed.

(** For dividends at least as big as the divisor (for the others it is always wrong, see
    [C23_div_mod_small_refuted]) the division is right iff the divisor is one digit of at most
    2^63 followed by zeros, and positive or -1. *)
Theorem C23_boundary : forall b, jwf b -> jval b <> 0 ->
  ((forall a, jwf a -> Z.abs (jval b) <= Z.abs (jval a) -> exists q r f0, (forall fuel, (f0 <= fuel)%nat -> jb_div_mod fuel a b = Ok (q, r)) /\
      js_division (jval a) (jval b) (jval q) (jval r))
   <-> one_digit (2 ^ 63) (Z.abs (jval b)) /\ (0 < jval b \/ jval b = -1)).
Proof.
  intros b Hb Hn. pose proof (proj1 Hb) as Cb. pose proof (jabs b Hb) as Hab. pose proof B_val as HB.
  assert (Hnn : jb_items b <> []) by (intros E; rewrite E, val_nil in Hab; lia).
  split.
  - intros H. assert (D : one_digit (2 ^ 63) (Z.abs (jval b))).
    { rewrite Hab. destruct (one_digit_dec (2 ^ 63) _ ltac:(lia) Cb Hnn) as [D|D]; [exact D|]. exfalso.
      destruct (jb_stuck _ Cb Hnn D) as (a & Ca & Hlt & Hs). destruct (jb_of_limbs a Ca) as [Wa Va].
      destruct (H _ Wa) as (q & r & f0 & Hf & _); [rewrite (jabs _ Wa), Hab; cbn [jb_items jb]; lia|].
      specialize (Hf f0 (Nat.le_refl _)). unfold jb_div_mod in Hf. cbn [jb_items jb] in Hf.
      rewrite jb_is_zero_spec in Hf by exact Hb. destruct (Z.eqb_spec (jval b) 0); [lia|].
      rewrite cmp_vec_spec in Hf by assumption. rewrite (proj2 (Z.compare_gt_iff _ _) Hlt), Hs in Hf. discriminate. }
    split; [exact D|]. destruct (Z_lt_le_dec 0 (jval b)) as [|Hneg]; [left; assumption|right].
    destruct (Z.eq_dec (jval b) (-1)) as [|Hn1]; [assumption|exfalso].
    (* (|b| + 1) / b has remainder -1 *)
    destruct D as (d & k & Hd' & Hv).
    assert (Hx : exists a, jwf a /\ jval a = Z.abs (jval b) + 1).
    { destruct (jb_of_limbs (jb_items b) Cb) as [W V]. destruct (jb_of_limbs [1]) as [W1 V1].
      { split; [apply limbs_cons; split; [lia|constructor]|cbn; lia]. }
      destruct (jb_add_spec _ _ W W1) as [Ws Vs]. eexists. split; [exact Ws|]. rewrite Vs, V, V1, Hab. reflexivity. }
    destruct Hx as (a & Wa & Va).
    destruct (H a Wa ltac:(lia)) as (q & r & f0 & Hf & Hd).
    destruct (C23_div_mod_partial a b k d Wa Hb Hd' Hv ltac:(lia)) as (q' & r' & f1 & Hf' & _ & _ & Hq & Hr).
    specialize (Hf (Nat.max f0 f1) ltac:(lia)). rewrite Hf' in Hf by lia. injection Hf as <- <-.
    apply js_division_quot in Hd as [_ Hd]; [|exact Hn].
    rewrite Z.sgn_neg, Hd in Hr by lia. assert (E : Z.rem (jval a) (jval b) = 1); [|lia].
    rewrite <- (Z.opp_involutive (jval b)), Z.rem_opp_r'. rewrite Va. symmetry. apply Z.rem_unique with 1; lia.
  - intros [D Hs] a Ha Hge. destruct D as (d & k & Hd & Hv).
    destruct (C23_div_mod_partial a b k d Ha Hb Hd Hv Hge) as (q & r & f0 & H1 & _ & _ & H2 & H3). exists q, r, f0. split; [exact H1|].
    apply js_division_quot; [exact Hn|]. split; [exact H2|]. rewrite H3. destruct Hs as [Hs|Hs]; [rewrite Z.sgn_pos by exact Hs; lia|].
    rewrite Hs. change (-1) with (- (1)). rewrite Z.rem_opp_r', Z.rem_1_r. reflexivity.
Qed.
Print Assumptions C23_boundary.
Example C23_boundary_case : one_digit (2 ^ 63) (Z.abs (jval (jb (-2) [0; 5]))) /\
  ~ one_digit (2 ^ 63) (Z.abs (jval (jb 1 [2 ^ 63 + 1]))) /\ jb_div_mod 1000 (jb 2 [0; 1]) (jb 1 [2 ^ 63 + 1]) = NoFuel /\
  js_division 7 (-2) (-3) 1.
Proof.
  split; [exists 5, 1%nat; split; [lia|reflexivity]|]. split; [|split; [vmc|unfold js_division; lia]].
  intros (d & k & Hd & Hv). change (Z.abs (jval (jb 1 [2 ^ 63 + 1]))) with (2 ^ 63 + 1) in Hv. destruct k as [|k].
  - change (Z.of_nat 0) with 0 in Hv. rewrite Z.pow_0_r in Hv. lia.
  - rewrite Nat2Z.inj_succ, Z.pow_succ_r in Hv by lia. lia.
Qed.
