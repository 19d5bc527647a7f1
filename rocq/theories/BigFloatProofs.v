(** Proofs about big_float.rs, integer part. *)
From Coq Require Import ZArith List Bool Lia.
From Coq Require Import ZifyBool ZifyNat.
From Verif Require Import Outcome LimbsModel LimbsSpec BigUintModel BigIntModel JsBigintModel BigSpec
  LimbsProofs ShiftProofs BigUintProofs JsBigintProofs JsBitsProofs JsDivProofs BigFloatModel
  Prop_JsBigint.
Import ListNotations.
Open Scope Z_scope.

Lemma one_shl_spec p : 0 <= p < 2 ^ 64 ->
  exists m, one_shl p = Ok m /\ jwf m /\ jval m = 2 ^ p.
Proof.
  intros Hp. unfold one_shl.
  destruct (jb_from_u64_spec Positive 1) as [H1 V1]; [pose proof B_val; lia|].
  destruct (jb_from_u64_spec Positive p) as [H2 V2]; [rewrite B_eq; lia|].
  cbn [sign_int] in *. rewrite Z.mul_1_l in *.
  destruct (C21_shl_exact _ _ H1 H2) as [r [Er [Hr Vr]]]; [lia|].
  exists r. split; [exact Er|]. split; [exact Hr|]. rewrite Vr, V1, V2. lia.
Qed.

Lemma cmp_pos a b : jwf a -> jwf b -> 0 <= jval b -> jb_compare a b = (jval a ?= jval b).
Proof. intros. apply C17_compare_partial; auto. Qed.

Lemma pos_items a : jwf a -> 0 < jval a -> jb_items a <> [].
Proof. intros Ha Hp. rewrite jval_zero_iff by auto. lia. Qed.

Lemma pow2_ge n : 0 <= n -> n < 2 ^ n.
Proof. intros. apply Z.pow_gt_lin_r; lia. Qed.

(** k doublings reach m. *)
Lemma increase_loop_spec m : jwf m -> 0 < jval m ->
  forall n s e, jwf s -> 0 < jval s -> jval m <= jval s * 2 ^ Z.of_nat n ->
  exists k s', 0 <= k /\ (forall fuel, (S n <= fuel)%nat -> increase_loop fuel m s e = Ok (s', e - k)) /\
    jwf s' /\ jval s' = jval s * 2 ^ k /\ jval m <= jval s' /\ (k = 0 \/ jval s' < 2 * jval m).
Proof.
  intros Hm Pm. induction n as [|n IH]; intros s e Hs Ps Hle.
  - rewrite Z.pow_0_r in Hle. exists 0, s. split; [lia|]. split.
    + intros [|fuel] Hf; [lia|]. cbn [increase_loop]. rewrite cmp_pos by (auto; lia).
      rewrite Z.sub_0_r. destruct (Z.compare_spec (jval s) (jval m)); try reflexivity. lia.
    + rewrite Z.pow_0_r. repeat split; try apply Hs; lia.
  - destruct (Z_le_gt_dec (jval m) (jval s)) as [Hc|Hc].
    + exists 0, s. split; [lia|]. split.
      * intros [|fuel] Hf; [lia|]. cbn [increase_loop]. rewrite cmp_pos by (auto; lia).
        rewrite Z.sub_0_r. destruct (Z.compare_spec (jval s) (jval m)); try reflexivity. lia.
      * rewrite Z.pow_0_r. repeat split; try apply Hs; lia.
    + destruct (jb_shl_on_u64_spec s 1 Hs (pos_items _ Hs Ps)) as [s1 [E1 [H1 V1]]]; [lia|].
      rewrite Z.pow_1_r in V1.
      destruct (IH s1 (e - 1) H1) as [k [s' [Hk [Hf [H' [V' [L' U']]]]]]].
      * lia.
      * rewrite V1. rewrite Nat2Z.inj_succ, Z.pow_succ_r in Hle by lia. lia.
      * exists (k + 1), s'. split; [lia|]. split.
        -- intros [|fuel] Hfl; [lia|]. cbn [increase_loop]. rewrite cmp_pos by (auto; lia).
           rewrite (proj2 (Z.compare_lt_iff _ _)) by lia. rewrite E1. cbn [obind].
           rewrite Hf by lia. do 2 f_equal. lia.
        -- split; [exact H'|]. split; [rewrite V', V1, Z.pow_add_r by lia; lia|].
           split; [exact L'|]. right. destruct U' as [U'|U']; [|exact U'].
           rewrite V', U', Z.pow_0_r, V1. lia.
Qed.

Lemma increase_to_spec f m : jwf (bf_sig f) -> 0 < jval (bf_sig f) -> jwf m -> 0 < jval m ->
  exists k f' f0, 0 <= k /\ (forall fuel, (f0 <= fuel)%nat -> increase_significand_to fuel f m = Ok f') /\
    jwf (bf_sig f') /\ jval (bf_sig f') = jval (bf_sig f) * 2 ^ k /\ bf_exp f' = bf_exp f - k /\
    bf_sign f' = bf_sign f /\ bf_rem f' = bf_rem f /\ jval m <= jval (bf_sig f') /\
    (k = 0 \/ jval (bf_sig f') < 2 * jval m).
Proof.
  intros Hs Ps Hm Pm.
  destruct (increase_loop_spec m Hm Pm (Z.to_nat (jval m)) (bf_sig f) (bf_exp f) Hs Ps)
    as [k [s' [Hk [Hf [H' [V' [L' U']]]]]]].
  { rewrite Z2Nat.id by lia. pose proof (pow2_ge (jval m) ltac:(lia)).
    assert (1 * 2 ^ jval m <= jval (bf_sig f) * 2 ^ jval m) by (apply Z.mul_le_mono_nonneg_r; lia). lia. }
  exists k, {| bf_sig := s'; bf_sign := bf_sign f; bf_exp := bf_exp f - k; bf_rem := bf_rem f |},
    (S (Z.to_nat (jval m))).
  split; [exact Hk|]. split.
  - intros fuel Hfu. unfold increase_significand_to. rewrite jb_is_zero_spec by auto.
    destruct (Z.eqb_spec (jval (bf_sig f)) 0); [lia|]. rewrite Hf by auto. reflexivity.
  - cbn. auto 10.
Qed.

Lemma increase_spec f p : jwf (bf_sig f) -> 0 < jval (bf_sig f) -> 0 <= p < 2 ^ 64 ->
  exists k f' f0, 0 <= k /\ (forall fuel, (f0 <= fuel)%nat -> increase_significand fuel f p = Ok f') /\
    jwf (bf_sig f') /\ jval (bf_sig f') = jval (bf_sig f) * 2 ^ k /\ bf_exp f' = bf_exp f - k /\
    bf_sign f' = bf_sign f /\ bf_rem f' = bf_rem f /\ 2 ^ p <= jval (bf_sig f') /\
    (k = 0 \/ jval (bf_sig f') < 2 * 2 ^ p).
Proof.
  intros Hs Ps Hp. destruct (one_shl_spec p Hp) as [m [Em [Hm Vm]]].
  pose proof (Z.pow_pos_nonneg 2 p ltac:(lia) ltac:(lia)) as Hpp.
  destruct (increase_to_spec f m Hs Ps Hm ltac:(lia)) as [k [f' [f0 [Hk [Hf R]]]]].
  exists k, f', f0. split; [exact Hk|]. split; [|rewrite Vm in R; exact R].
  intros fuel Hfu. unfold increase_significand. rewrite jb_is_zero_spec by auto.
  destruct (Z.eqb_spec (jval (bf_sig f)) 0); [lia|]. rewrite Em. cbn [obind]. auto.
Qed.

Lemma last_bit_spec s : jwf s -> 0 <= jval s -> jb_get_last_bit s = jval s mod 2.
Proof.
  intros Hs Ps. unfold jb_get_last_bit.
  assert (E : jval s = val (jb_items s)).
  { rewrite (jval_sign s) in *. pose proof (jwf_neg_pos s Hs). destruct (jb_sign s); cbn [sign_int] in *; [lia|].
    specialize (H eq_refl). lia. }
  destruct Hs as [[Hl _] _]. rewrite E. destruct (jb_items s) as [|d l]; [reflexivity|].
  assert (Hd : 0 <= d) by (apply limbs_cons in Hl; lia).
  rewrite val_cons, land1 by exact Hd. rewrite B_eq. rewrite Z.add_mod by lia.
  rewrite <- (Z.mul_mod_idemp_l (2 ^ 64)) by lia. change (2 ^ 64 mod 2) with 0. rewrite Z.mul_0_l, Z.mod_0_l by lia.
  rewrite Z.add_0_r, Z.mod_mod by lia. reflexivity.
Qed.

Lemma shr1_spec s : jwf s -> 0 <= jval s ->
  jwf (jb_shr_on_u64 s 1) /\ jval (jb_shr_on_u64 s 1) = jval s / 2.
Proof.
  intros Hs Ps. destruct (jb_shr_on_u64_spec s 1 Hs ltac:(lia)) as [H1 H2]. split; [exact H1|].
  apply H2. left. split; [exact Ps|]. apply shr_exact_le1; [change (1 mod 64) with 1|]; lia.
Qed.

Lemma decrease_loop_spec m : jwf m -> 0 < jval m ->
  forall n s e r, jwf s -> 0 <= jval s -> jval s < jval m * 2 ^ Z.of_nat n ->
  exists k s', 0 <= k /\
    (forall fuel, (S n <= fuel)%nat ->
       decrease_loop fuel m s e r = Ok (s', e + k, r || negb (jval s mod 2 ^ k =? 0))) /\
    jwf s' /\ jval s' = jval s / 2 ^ k /\ jval s' < jval m /\ (k = 0 \/ jval m <= 2 * jval s' + 1).
Proof.
  intros Hm Pm. induction n as [|n IH]; intros s e r Hs Ps Hlt.
  - rewrite Z.pow_0_r in Hlt. exists 0, s. split; [lia|]. split.
    + intros [|fuel] Hf; [lia|]. cbn [decrease_loop]. rewrite cmp_pos by (auto; lia).
      rewrite (proj2 (Z.compare_lt_iff _ _)) by lia. rewrite Z.pow_0_r, Z.mod_1_r, orb_false_r, Z.add_0_r. reflexivity.
    + rewrite Z.pow_0_r, Z.div_1_r. repeat split; try apply Hs; lia.
  - destruct (Z_lt_le_dec (jval s) (jval m)) as [Hc|Hc].
    + exists 0, s. split; [lia|]. split.
      * intros [|fuel] Hf; [lia|]. cbn [decrease_loop]. rewrite cmp_pos by (auto; lia).
        rewrite (proj2 (Z.compare_lt_iff _ _)) by lia. rewrite Z.pow_0_r, Z.mod_1_r, orb_false_r, Z.add_0_r. reflexivity.
      * rewrite Z.pow_0_r, Z.div_1_r. repeat split; try apply Hs; lia.
    + destruct (shr1_spec s Hs Ps) as [H1 V1].
      pose proof (Z.div_mod (jval s) 2 ltac:(lia)) as Hdm.
      pose proof (Z.mod_pos_bound (jval s) 2 ltac:(lia)) as Hmb.
      destruct (IH (jb_shr_on_u64 s 1) (e + 1) (if jb_get_last_bit s =? 1 then true else r) H1)
        as [k [s' [Hk [Hf [H' [V' [L' U']]]]]]].
      * lia.
      * rewrite V1. rewrite Nat2Z.inj_succ, Z.pow_succ_r in Hlt by lia. lia.
      * pose proof (Z.pow_pos_nonneg 2 k ltac:(lia) Hk) as Pk.
        exists (k + 1), s'. split; [lia|]. split.
        -- intros [|fuel] Hfl; [lia|]. cbn [decrease_loop]. rewrite cmp_pos by (auto; lia).
           assert (Hmod : jval s mod 2 ^ (k + 1) = jval s mod 2 + 2 * ((jval s / 2) mod 2 ^ k)).
           { replace (2 ^ (k + 1)) with (2 * 2 ^ k) by (rewrite Z.pow_add_r by lia; lia).
             apply Z.rem_mul_r; lia. }
           assert (Hr : r || negb (jval s mod 2 ^ (k + 1) =? 0) =
                     (if jb_get_last_bit s =? 1 then true else r) || negb ((jval s / 2) mod 2 ^ k =? 0)).
           { rewrite Hmod, last_bit_spec by auto.
             pose proof (Z.mod_pos_bound (jval s / 2) (2 ^ k) Pk).
             destruct (Z.eqb_spec (jval s mod 2) 1) as [E1|E1].
             - rewrite orb_true_l. destruct r; [reflexivity|]. lia.
             - f_equal. f_equal. lia. }
           rewrite Hr. specialize (Hf fuel ltac:(lia)). rewrite V1 in Hf.
           replace (e + (k + 1)) with (e + 1 + k) by lia.
           destruct (Z.compare_spec (jval s) (jval m)); [exact Hf|lia|exact Hf].
        -- split; [exact H'|]. split.
           { rewrite V', V1. replace (2 ^ (k + 1)) with (2 * 2 ^ k) by (rewrite Z.pow_add_r by lia; lia).
             apply Z.div_div; lia. }
           split; [exact L'|]. right. destruct U' as [U'|U']; [|exact U'].
           rewrite V', U', Z.pow_0_r, V1, Z.div_1_r. lia.
Qed.

Lemma decrease_spec f p : jwf (bf_sig f) -> 0 < jval (bf_sig f) -> 0 <= p < 2 ^ 64 ->
  exists k f' f0, 0 <= k /\ (forall fuel, (f0 <= fuel)%nat -> decrease_significand fuel f p = Ok f') /\
    jwf (bf_sig f') /\ jval (bf_sig f') = jval (bf_sig f) / 2 ^ k /\ bf_exp f' = bf_exp f + k /\
    bf_sign f' = bf_sign f /\
    bf_rem f' = bf_rem f || negb (jval (bf_sig f) mod 2 ^ k =? 0) /\
    jval (bf_sig f') < 2 ^ p /\ (k = 0 \/ (0 < p -> 2 ^ (p - 1) <= jval (bf_sig f'))).
Proof.
  intros Hs Ps Hp. destruct (one_shl_spec p Hp) as [m [Em [Hm Vm]]].
  pose proof (Z.pow_pos_nonneg 2 p ltac:(lia) ltac:(lia)) as Hpp.
  destruct (decrease_loop_spec m Hm ltac:(lia) (Z.to_nat (jval (bf_sig f))) (bf_sig f) (bf_exp f) (bf_rem f) Hs)
    as [k [s' [Hk [Hf [H' [V' [L' U']]]]]]]; [lia| |].
  { rewrite Z2Nat.id by lia. pose proof (pow2_ge (jval (bf_sig f)) ltac:(lia)).
    assert (1 * 2 ^ jval (bf_sig f) <= jval m * 2 ^ jval (bf_sig f)) by (apply Z.mul_le_mono_nonneg_r; lia). lia. }
  exists k, {| bf_sig := s'; bf_sign := bf_sign f; bf_exp := bf_exp f + k;
               bf_rem := bf_rem f || negb (jval (bf_sig f) mod 2 ^ k =? 0) |},
    (S (Z.to_nat (jval (bf_sig f)))).
  split; [exact Hk|]. split.
  - intros fuel Hfu. unfold decrease_significand. rewrite jb_is_zero_spec by auto.
    destruct (Z.eqb_spec (jval (bf_sig f)) 0); [lia|]. rewrite Em. cbn [obind]. rewrite Hf by auto. reflexivity.
  - cbn. rewrite Vm in *. repeat (split; [auto; fail|]). destruct U' as [U'|U']; [left; exact U'|right].
    intros Hp0. replace p with (p - 1 + 1) in U' by lia. rewrite Z.pow_add_r in U' by lia. lia.
Qed.
