(** Proofs about BigIntModel. *)
From Coq Require Import ZArith List Bool Lia.
From Coq Require Import ZifyBool ZifyNat.
From Verif Require Import Outcome LimbsModel LimbsSpec LimbsProofs ShiftProofs
  BigUintModel BigUintProofs BigIntModel JsBigintModel BigSpec.
Import ListNotations.
Open Scope Z_scope.

Lemma bival_sign a : bival a = sign_int (bi_sign a) * val (bi_value a).
Proof. unfold bival, sign_int. destruct (bi_sign a); lia. Qed.

Lemma bicanon_canon a : bicanon a -> canon (bi_value a).
Proof. intros [H _]; exact H. Qed.

Lemma bi_mk s v : canon v -> (v = [] -> s = Positive) ->
  bicanon {| bi_sign := s; bi_value := v |}.
Proof. intros H1 H2. split; auto. Qed.

Lemma bi_add_spec a b : bicanon a -> bicanon b ->
  bicanon (bi_add a b) /\ bival (bi_add a b) = bival a + bival b.
Proof.
  intros [Ha Hsa] [Hb Hsb]. unfold bi_add.
  pose proof (bu_add_val (bi_value a) (bi_value b) ltac:(auto) ltac:(auto)) as Hadd.
  pose proof (bu_add_canon (bi_value a) (bi_value b) Ha Hb) as Hcadd.
  destruct (bu_sub_spec (bi_value a) (bi_value b) Ha Hb) as [Hc1 Hv1].
  destruct (bu_sub_spec (bi_value b) (bi_value a) Hb Ha) as [Hc2 Hv2].
  rewrite bu_cmp_spec by auto.
  destruct a as [sa va], b as [sb vb]; cbn [bi_sign bi_value] in *.
  pose proof (val_nonneg va ltac:(auto)) as Hna. pose proof (val_nonneg vb ltac:(auto)) as Hnb.
  assert (Hz : forall v, canon v -> v = [] <-> val v = 0).
  { intros v Hv; split; [intros ->; reflexivity|apply canon_val0; auto]. }
  destruct sa, sb; cbn [sign_eqb]; unfold bival; cbn [bi_sign bi_value];
    try destruct (Z.compare_spec (val va) (val vb)) as [E|E|E];
    unfold bi_zero, bu_zero, bicanon; cbn [bi_sign bi_value]; rewrite ?val_nil;
    (split; [split; auto|lia]).
  all: intros H; first
    [ apply (Hz _ Hc2) in H; lia
    | apply (Hz _ Hc1) in H; lia
    | apply (Hz _ Hcadd) in H; rewrite Hadd in H; apply Hsa; apply Hz; auto; lia ].
Qed.

Lemma bi_neg_spec a : bicanon a -> bicanon (bi_neg a) /\ bival (bi_neg a) = - bival a.
Proof.
  intros [Ha Hs]. unfold bi_neg. destruct a as [s v]; cbn [bi_sign bi_value] in *.
  destruct v as [|x v]; cbn [bu_is_zero].
  - rewrite (Hs eq_refl). split; [split; auto|reflexivity].
  - unfold bival, bicanon; cbn [bi_sign bi_value]. split; [split; [auto|discriminate]|].
    destruct s; lia.
Qed.

Lemma bi_sub_spec a b : bicanon a -> bicanon b ->
  bicanon (bi_sub a b) /\ bival (bi_sub a b) = bival a - bival b.
Proof.
  intros Ha Hb. unfold bi_sub. destruct (bi_neg_spec b Hb) as [Hn Hv].
  destruct (bi_add_spec a _ Ha Hn) as [H1 H2]. split; auto. rewrite H2, Hv. lia.
Qed.

Lemma mul_sign_int s t : sign_int (mul_sign s t) = sign_int s * sign_int t.
Proof. destruct s, t; reflexivity. Qed.

Lemma bi_mul_spec a b : bicanon a -> bicanon b ->
  exists r, bi_mul a b = Ok r /\ bicanon r /\ bival r = bival a * bival b.
Proof.
  intros [Ha Hsa] [Hb Hsb]. unfold bi_mul, bi_is_zero.
  destruct (bu_mul_spec (bi_value a) (bi_value b) ltac:(auto) ltac:(auto)) as [r [Er [Hr Hvr]]].
  rewrite !bival_sign. rewrite !bu_is_zero_spec by auto.
  destruct ((val (bi_value a) =? 0) || (val (bi_value b) =? 0)) eqn:E.
  - exists bi_zero. split; [reflexivity|]. split; [split; [apply canon_nil|reflexivity]|].
    cbn. nia.
  - rewrite Er. cbn [obind]. eexists; split; [reflexivity|].
    unfold bi_normalize; cbn [bi_sign bi_value]. rewrite normalize_id by auto.
    rewrite bu_is_zero_spec by auto.
    destruct (val r =? 0) eqn:E0; [nia|].
    split; [split; cbn [bi_sign bi_value]; auto|].
    + intros ->. cbn in E0. lia.
    + rewrite bival_sign; cbn [bi_sign bi_value]. rewrite mul_sign_int, Hvr. ring.
Qed.

Lemma bi_cmp_spec a b : bicanon a -> bicanon b ->
  bi_cmp a b = if (bival a <? 0) && (bival b <? 0) then (bival b ?= bival a) else (bival a ?= bival b).
Proof.
  intros [Ha Hsa] [Hb Hsb]. unfold bi_cmp, bival.
  rewrite bu_cmp_spec by auto.
  destruct a as [sa va], b as [sb vb]; cbn [bi_sign bi_value] in *.
  pose proof (val_nonneg va ltac:(auto)) as Hna. pose proof (val_nonneg vb ltac:(auto)) as Hnb.
  destruct sa, sb; cbn [sign_eqb sign_int].
  - destruct ((val va <? 0) && (val vb <? 0)) eqn:E; [lia|reflexivity].
  - assert (0 < val vb) by (apply canon_pos; auto; intros ->; specialize (Hsb eq_refl); discriminate).
    destruct ((val va <? 0) && (- val vb <? 0)) eqn:E; [lia|].
    symmetry. apply Z.compare_gt_iff; lia.
  - assert (0 < val va) by (apply canon_pos; auto; intros ->; specialize (Hsa eq_refl); discriminate).
    destruct ((- val va <? 0) && (val vb <? 0)) eqn:E; [lia|].
    symmetry. apply Z.compare_lt_iff; lia.
  - assert (0 < val va) by (apply canon_pos; auto; intros ->; specialize (Hsa eq_refl); discriminate).
    assert (0 < val vb) by (apply canon_pos; auto; intros ->; specialize (Hsb eq_refl); discriminate).
    destruct ((- val va <? 0) && (- val vb <? 0)) eqn:E; [|lia].
    rewrite Z.compare_opp. reflexivity.
Qed.

Lemma bi_from_i64_spec n : - 2 ^ 63 < n < 2 ^ 63 -> n <> 0 ->
  exists r, bi_from_i64 n = Ok r /\ bicanon r /\ bival r = n.
Proof.
  intros Hn Hnz. unfold bi_from_i64. pose proof B_val as HB.
  assert (Hp : n * sign_int (if n <? 0 then Negative else Positive) = Z.abs n).
  { destruct (n <? 0) eqn:E; cbn [sign_int]; lia. }
  rewrite Hp. destruct (2 ^ 63 <=? Z.abs n) eqn:E; [lia|].
  eexists; split; [reflexivity|]. rewrite Z.mod_small by lia.
  split.
  - split; cbn [bi_value bi_sign]; [|discriminate].
    split; [apply limbs_cons; split; [lia|auto]|cbn; lia].
  - unfold bival; cbn [bi_value bi_sign]. rewrite val_cons, val_nil.
    destruct (n <? 0) eqn:E2; lia.
Qed.

(** Division for divisors of the form +- d * 2^(64 k). *)
Lemma bi_div_mod_top a b k d : bicanon a -> bicanon b -> 0 < d < B ->
  Z.abs (bival b) = d * B ^ Z.of_nat k ->
  exists q r f0, (forall fuel, (f0 <= fuel)%nat -> bi_div_mod fuel a b = Ok (q, r)) /\
    bival q = Z.quot (bival a) (bival b) /\
    bival r = Z.sgn (bival b) * Z.rem (bival a) (bival b).
Proof.
  intros [Ha Hsa] [Hb Hsb] Hd Hbv.
  assert (Habs : Z.abs (bival b) = val (bi_value b)).
  { unfold bival. pose proof (val_nonneg (bi_value b) ltac:(auto)). destruct (bi_sign b); lia. }
  rewrite Habs in Hbv.
  destruct (bu_div_mod_top (bi_value a) (bi_value b) k d Ha Hb Hd Hbv) as [q [r [f0 [Hf [Hq [Hr [Hvq Hvr]]]]]]].
  pose proof (Bpow_pos (Z.of_nat k) ltac:(lia)) as HP.
  assert (Hbpos : 0 < val (bi_value b)) by nia.
  unfold bi_div_mod, bi_is_zero. rewrite bu_is_zero_spec by auto.
  destruct (val (bi_value b) =? 0) eqn:E; [lia|].
  eexists _, _, f0. split.
  - intros fuel Hfuel. rewrite (Hf fuel Hfuel). cbn [obind]. reflexivity.
  - pose proof (val_nonneg (bi_value a) ltac:(auto)) as Hna.
    unfold bival; cbn [bi_sign bi_value]. rewrite Hvq, Hvr.
    destruct (bi_sign a), (bi_sign b); cbn [mul_sign sign_eqb].
    + rewrite Z.quot_div_nonneg, Z.rem_mod_nonneg by lia. rewrite Z.sgn_pos by lia. lia.
    + rewrite Z.quot_opp_r, Z.rem_opp_r by lia.
      rewrite Z.quot_div_nonneg, Z.rem_mod_nonneg by lia. rewrite Z.sgn_neg by lia. lia.
    + rewrite Z.quot_opp_l, Z.rem_opp_l by lia.
      rewrite Z.quot_div_nonneg, Z.rem_mod_nonneg by lia. rewrite Z.sgn_pos by lia. lia.
    + rewrite Z.quot_opp_opp, Z.rem_opp_opp by lia.
      rewrite Z.quot_div_nonneg, Z.rem_mod_nonneg by lia. rewrite Z.sgn_neg by lia. lia.
Qed.

Lemma bi_div_top a b k d : bicanon a -> bicanon b -> 0 < d < B ->
  Z.abs (bival b) = d * B ^ Z.of_nat k ->
  exists q f0, (forall fuel, (f0 <= fuel)%nat -> bi_div fuel a b = Ok q) /\
    bival q = Z.quot (bival a) (bival b).
Proof.
  intros Ha Hb Hd Hbv.
  destruct (bi_div_mod_top a b k d Ha Hb Hd Hbv) as [q [r [f0 [Hf [Hq _]]]]].
  exists q, f0. split; [|exact Hq]. intros fuel Hfuel. specialize (Hf fuel Hfuel).
  unfold bi_div_mod in Hf. unfold bi_div, bu_div. unfold bi_is_zero in *.
  destruct (bu_is_zero (bi_value b)); [discriminate|].
  destruct (bu_div_mod fuel (bi_value a) (bi_value b)) as [[q' r']| |]; cbn [obind] in *; try discriminate.
  injection Hf as <- _. reflexivity.
Qed.
