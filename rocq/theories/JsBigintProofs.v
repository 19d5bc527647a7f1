(** Proofs about JsBigintModel. *)
From Coq Require Import ZArith List Bool Lia.
From Coq Require Import ZifyBool ZifyNat.
From Verif Require Import Outcome LimbsModel LimbsSpec LimbsProofs ShiftProofs
  BigUintModel BigUintProofs BigIntModel BigIntProofs JsBigintModel BigSpec.
Import ListNotations.
Open Scope Z_scope.

Lemma jb_sign_neg a : jb_sign a = Negative <-> jb_len a < 0.
Proof. unfold jb_sign. destruct (jb_len a <? 0) eqn:E; split; intros; try discriminate; try lia; reflexivity. Qed.

Lemma jval_sign a : jval a = sign_int (jb_sign a) * val (jb_items a).
Proof. unfold jval, jb_sign. destruct (jb_len a <? 0); cbn [sign_int]; lia. Qed.

Lemma jwf_nonneg a : jwf a -> 0 <= val (jb_items a).
Proof. intros [H _]. apply val_nonneg; auto. Qed.

Lemma jwf_neg_pos a : jwf a -> jb_sign a = Negative -> 0 < val (jb_items a).
Proof.
  intros [Hc Hl] Hs. apply jb_sign_neg in Hs. apply canon_pos; auto.
  intros E. rewrite E in Hl. cbn in Hl. lia.
Qed.

Lemma jwf_nil a : jwf a -> jb_items a = [] -> jb_sign a = Positive.
Proof.
  intros H E. destruct (jb_sign a) eqn:Es; [reflexivity|].
  pose proof (jwf_neg_pos a H Es) as Hp. rewrite E in Hp. rewrite val_nil in Hp. lia.
Qed.

Lemma jval_neg_iff a : jwf a -> jval a < 0 <-> jb_sign a = Negative.
Proof.
  intros H. pose proof (jwf_nonneg a H). rewrite jval_sign.
  destruct (jb_sign a) eqn:E; cbn [sign_int].
  - split; [lia|discriminate].
  - pose proof (jwf_neg_pos a H E). split; [auto|lia].
Qed.

Lemma jval_zero_iff a : jwf a -> jb_items a = [] <-> jval a = 0.
Proof.
  intros H. rewrite jval_sign. split.
  - intros ->. rewrite val_nil. lia.
  - intros E. apply canon_val0; [apply H|]. destruct (jb_sign a); cbn [sign_int] in E; lia.
Qed.

Lemma jabs a : jwf a -> Z.abs (jval a) = val (jb_items a).
Proof. intros H. pose proof (jwf_nonneg a H). rewrite jval_sign. destruct (jb_sign a); cbn [sign_int]; lia. Qed.

Lemma new_items s v : jb_items (new_bigint s v) = v.
Proof. reflexivity. Qed.

Lemma new_wf s v : canon v -> jwf (new_bigint s v).
Proof.
  intros H. split; cbn [jb_items jb_len new_bigint]; auto.
  destruct s; cbn [sign_int]; lia.
Qed.

Lemma new_sign s v : v <> [] -> jb_sign (new_bigint s v) = s.
Proof.
  intros H. unfold jb_sign; cbn [new_bigint jb_len].
  destruct v; [congruence|]. destruct s; cbn [sign_int length]; [|]; destruct (_ <? 0) eqn:E; try reflexivity; lia.
Qed.

Lemma new_val s v : jval (new_bigint s v) = sign_int s * val v.
Proof.
  rewrite jval_sign, new_items. destruct v as [|x v].
  - rewrite val_nil. lia.
  - rewrite new_sign by congruence. reflexivity.
Qed.

Lemma jb_zero_wf : jwf jb_zero. Proof. apply new_wf, canon_nil. Qed.
Lemma jb_zero_val : jval jb_zero = 0. Proof. reflexivity. Qed.
#[global] Hint Resolve jb_zero_wf : core.

Lemma jb_from_u64_spec s n : 0 <= n < B ->
  jwf (jb_from_u64 s n) /\ jval (jb_from_u64 s n) = sign_int s * n.
Proof.
  intros Hn. unfold jb_from_u64. destruct (n =? 0) eqn:E.
  - split; [auto|]. rewrite jb_zero_val. lia.
  - split; [apply new_wf|rewrite new_val, val_cons, val_nil; lia].
    split; [apply limbs_cons; split; [lia|auto]|cbn; lia].
Qed.

Lemma one_lt_B : 0 <= 1 < B. Proof. pose proof B_val; lia. Qed.

Lemma jb_is_zero_spec a : jwf a -> jb_is_zero a = (jval a =? 0).
Proof.
  intros H. pose proof (jval_zero_iff a H) as E. unfold jb_is_zero.
  destruct (jb_items a); destruct (jval a =? 0) eqn:E2; try reflexivity.
  - assert (jval a = 0) by tauto. lia.
  - assert (z :: l = []) by (apply E; lia). discriminate.
Qed.

Lemma sub_vec_norm_spec a b : canon a -> canon b -> val b <= val a ->
  canon (sub_vec_norm a b) /\ val (sub_vec_norm a b) = val a - val b.
Proof.
  intros Ha Hb Hle. unfold sub_vec_norm. split.
  - apply normalize_canon, sub_vec_limbs.
  - rewrite normalize_val. apply sub_vec_val; auto. apply canon_len_le; auto.
Qed.

(** ** not, add, negative, sub, mul *)

Lemma jb_not_spec a : jwf a -> jwf (jb_not a) /\ jval (jb_not a) = - jval a - 1.
Proof.
  intros H. unfold jb_not. rewrite jb_is_zero_spec by auto.
  destruct (jval a =? 0) eqn:E.
  - destruct (jb_from_u64_spec Negative 1 one_lt_B) as [H1 H2]. split; auto.
    rewrite H2. cbn [sign_int]. lia.
  - pose proof canon_one as H1. destruct H as [Hc Hl]. rewrite (jval_sign a) in *.
    pose proof (val_nonneg (jb_items a) ltac:(auto)).
    destruct (jb_sign a) eqn:Es; cbn [sign_int] in *.
    + split; [apply new_wf, add_vec_canon; auto|].
      rewrite new_val, add_vec_val by auto. rewrite val_one. cbn [sign_int]. lia.
    + destruct (sub_vec_norm_spec (jb_items a) [1] Hc H1) as [H2 H3].
      { rewrite val_one. lia. }
      split; [apply new_wf; exact H2|]. rewrite new_val. unfold sub_vec_norm in H3.
      rewrite H3, val_one. cbn [sign_int]. lia.
Qed.

Lemma jb_add_spec a b : jwf a -> jwf b -> jwf (jb_add a b) /\ jval (jb_add a b) = jval a + jval b.
Proof.
  intros Ha Hb. unfold jb_add. rewrite (jval_sign a), (jval_sign b).
  destruct Ha as [Ca La], Hb as [Cb Lb].
  rewrite cmp_vec_spec by auto.
  destruct (jb_sign a) eqn:Sa, (jb_sign b) eqn:Sb; cbn [sign_eqb].
  2,3: destruct (Z.compare_spec (val (jb_items a)) (val (jb_items b))) as [E|E|E];
    [ split; [auto|rewrite jb_zero_val; cbn [sign_int]; lia]
    | destruct (sub_vec_norm_spec (jb_items b) (jb_items a) Cb Ca ltac:(lia)) as [H1 H2];
      (split; [apply new_wf; auto|rewrite new_val, H2; cbn [sign_int]; lia])
    | destruct (sub_vec_norm_spec (jb_items a) (jb_items b) Ca Cb ltac:(lia)) as [H1 H2];
      (split; [apply new_wf; auto|rewrite new_val, H2; cbn [sign_int]; lia]) ].
  all: (split; [apply new_wf, add_vec_canon; auto|rewrite new_val, add_vec_val by auto; cbn [sign_int]; lia]).
Qed.

Lemma opposite_int s : sign_int (opposite s) = - sign_int s.
Proof. destruct s; reflexivity. Qed.

Lemma jb_negative_spec a : jwf a -> jwf (jb_negative a) /\ jval (jb_negative a) = - jval a.
Proof.
  intros H. unfold jb_negative. rewrite jb_is_zero_spec by auto.
  destruct (jval a =? 0) eqn:E.
  - split; [auto|rewrite jb_zero_val; lia].
  - split; [apply new_wf, H|]. rewrite new_val, opposite_int, jval_sign. lia.
Qed.

Lemma jb_sub_spec a b : jwf a -> jwf b -> jwf (jb_sub a b) /\ jval (jb_sub a b) = jval a - jval b.
Proof.
  intros Ha Hb. unfold jb_sub. rewrite (jval_sign a), (jval_sign b).
  destruct Ha as [Ca La], Hb as [Cb Lb].
  rewrite cmp_vec_spec by auto.
  destruct (jb_sign a) eqn:Sa, (jb_sign b) eqn:Sb; cbn [sign_eqb negb].
  1,4: destruct (Z.compare_spec (val (jb_items a)) (val (jb_items b))) as [E|E|E];
    [ split; [auto|rewrite jb_zero_val; cbn [sign_int]; lia]
    | destruct (sub_vec_norm_spec (jb_items b) (jb_items a) Cb Ca ltac:(lia)) as [H1 H2];
      (split; [apply new_wf; auto|rewrite new_val, H2; cbn [sign_int opposite]; lia])
    | destruct (sub_vec_norm_spec (jb_items a) (jb_items b) Ca Cb ltac:(lia)) as [H1 H2];
      (split; [apply new_wf; auto|rewrite new_val, H2; cbn [sign_int]; lia]) ].
  all: (split; [apply new_wf, add_vec_canon; auto|rewrite new_val, add_vec_val by auto; cbn [sign_int]; lia]).
Qed.

Lemma jb_mul_spec a b : jwf a -> jwf b ->
  exists r, jb_mul a b = Ok r /\ jwf r /\ jval r = jval a * jval b.
Proof.
  intros Ha Hb. unfold jb_mul. rewrite !jb_is_zero_spec by auto.
  destruct ((jval a =? 0) || (jval b =? 0)) eqn:E.
  - exists jb_zero. split; [reflexivity|]. split; [auto|]. rewrite jb_zero_val. nia.
  - assert (jb_items a <> []) by (rewrite jval_zero_iff by auto; lia).
    assert (jb_items b <> []) by (rewrite jval_zero_iff by auto; lia).
    destruct (mul_vec_spec (jb_items a) (jb_items b)) as [r [Er [Hr Hv]]]; auto;
      [apply Ha|apply Hb|].
    rewrite Er. cbn [obind]. eexists; split; [reflexivity|]. split; [apply new_wf; auto|].
    rewrite new_val, mul_sign_int, Hv, !jval_sign. ring.
Qed.

(** ** compare, equals *)

Lemma jb_compare_spec a b : jwf a -> jwf b ->
  jb_compare a b = if (jval a <? 0) && (jval b <? 0) && (length (jb_items a) =? length (jb_items b))%nat
                   then (jval b ?= jval a) else (jval a ?= jval b).
Proof.
  intros Ha Hb. pose proof (jval_neg_iff a Ha) as Na. pose proof (jval_neg_iff b Hb) as Nb.
  pose proof (jwf_nonneg a Ha) as Pa. pose proof (jwf_nonneg b Hb) as Pb.
  pose proof (jwf_neg_pos a Ha) as Qa. pose proof (jwf_neg_pos b Hb) as Qb.
  pose proof (jb_sign_neg a) as Sa. pose proof (jb_sign_neg b) as Sb.
  rewrite (jval_sign a), (jval_sign b) in *. destruct Ha as [Ca La], Hb as [Cb Lb].
  assert (Hlt : forall x y, canon x -> canon y -> (length x < length y)%nat -> val x < val y)
    by (intros; apply canon_len_lt; auto).
  unfold jb_compare. rewrite cmp_vec_spec by auto.
  destruct (jb_sign a) eqn:Ea, (jb_sign b) eqn:Eb; cbn [sign_int] in *;
    try (assert (jb_len a < 0) by (apply Sa; reflexivity));
    try (assert (jb_len b < 0) by (apply Sb; reflexivity));
    try (assert (~ jb_len a < 0) by (intros HH; apply Sa in HH; discriminate));
    try (assert (~ jb_len b < 0) by (intros HH; apply Sb in HH; discriminate));
    try specialize (Qa eq_refl); try specialize (Qb eq_refl).
  - destruct (_ && _ && _) eqn:E; [lia|].
    destruct (Z.compare_spec (jb_len a) (jb_len b)) as [E1|E1|E1].
    + f_equal; lia.
    + symmetry. apply Z.compare_lt_iff. specialize (Hlt _ _ Ca Cb ltac:(lia)). lia.
    + symmetry. apply Z.compare_gt_iff. specialize (Hlt _ _ Cb Ca ltac:(lia)). lia.
  - destruct (_ && _ && _) eqn:E; [lia|].
    rewrite (proj2 (Z.compare_gt_iff (jb_len a) (jb_len b)) ltac:(lia)).
    symmetry. apply Z.compare_gt_iff. lia.
  - destruct (_ && _ && _) eqn:E; [lia|].
    rewrite (proj2 (Z.compare_lt_iff (jb_len a) (jb_len b)) ltac:(lia)).
    symmetry. apply Z.compare_lt_iff. lia.
  - destruct (_ && _ && _) eqn:E.
    + assert (jb_len a = jb_len b) by lia. rewrite H1, Z.compare_refl.
      replace (-1 * val (jb_items b)) with (- val (jb_items b)) by lia.
      replace (-1 * val (jb_items a)) with (- val (jb_items a)) by lia.
      rewrite Z.compare_opp. reflexivity.
    + destruct (Z.compare_spec (jb_len a) (jb_len b)) as [E1|E1|E1]; [lia| |].
      * symmetry. apply Z.compare_lt_iff. specialize (Hlt _ _ Cb Ca ltac:(lia)). lia.
      * symmetry. apply Z.compare_gt_iff. specialize (Hlt _ _ Ca Cb ltac:(lia)). lia.
Qed.

Lemma jb_equals_spec a b : jwf a -> jwf b -> jb_equals a b = (jval a =? jval b).
Proof.
  intros Ha Hb. unfold jb_equals. rewrite (jval_sign a), (jval_sign b).
  pose proof (jwf_nonneg a Ha) as Pa. pose proof (jwf_nonneg b Hb) as Pb.
  pose proof (jwf_neg_pos a Ha) as Qa. pose proof (jwf_neg_pos b Hb) as Qb.
  rewrite cmp_vec_spec by (apply Ha || apply Hb).
  destruct (jb_sign a), (jb_sign b); cbn [sign_eqb negb sign_int];
    try specialize (Qa eq_refl); try specialize (Qb eq_refl);
    try destruct (Z.compare_spec (val (jb_items a)) (val (jb_items b))); lia.
Qed.

(** Two well-formed values with the same denotation are identical. *)
Lemma jwf_inj a b : jwf a -> jwf b -> jval a = jval b -> a = b.
Proof.
  intros Ha Hb E.
  assert (Ei : jb_items a = jb_items b).
  { apply canon_inj; [apply Ha|apply Hb|]. rewrite <- (jabs a Ha), <- (jabs b Hb). congruence. }
  assert (Es : jb_sign a = jb_sign b).
  { pose proof (jval_neg_iff a Ha) as Na. pose proof (jval_neg_iff b Hb) as Nb.
    rewrite E in Na. destruct (jb_sign a), (jb_sign b); try reflexivity.
    - assert (Positive = Negative) by tauto. discriminate.
    - assert (Positive = Negative) by tauto. discriminate. }
  destruct Ha as [_ La], Hb as [_ Lb]. pose proof (jb_sign_neg a). pose proof (jb_sign_neg b).
  destruct a as [la va], b as [lb vb]. cbn [jb_len jb_items] in *. subst vb.
  f_equal. destruct (Z.eq_dec la lb); auto. exfalso.
  unfold jb_sign in Es; cbn [jb_len] in Es.
  destruct (la <? 0) eqn:E1, (lb <? 0) eqn:E2; try discriminate; lia.
Qed.

(** ** pow *)

Lemma jb_pow_loop_spec s n : forall res b e,
  limbs res -> limbs b -> res <> [] -> b <> [] -> canon res -> 0 < val res -> 0 < val b ->
  0 <= e < 2 ^ Z.of_nat n ->
  exists r, jb_pow_loop (S n) s res b e = Ok r /\ jwf r /\
            jval r = sign_int s * (val res * val b ^ e).
Proof.
  induction n as [|n IH]; intros res b e Hres Hb Nr Nb Cr Pr Pb He.
  - change (2 ^ Z.of_nat 0) with 1 in He. assert (e = 0) by lia; subst e.
    eexists. split; [reflexivity|]. split; [apply new_wf; auto|]. rewrite new_val, Z.pow_0_r; lia.
  - cbn [jb_pow_loop]. destruct (e =? 0) eqn:E0.
    { assert (e = 0) by lia; subst e. eexists. split; [reflexivity|].
      split; [apply new_wf; auto|]. rewrite new_val, Z.pow_0_r; lia. }
    rewrite land1, shiftr1 by lia.
    destruct (mul_vec_spec b b Hb Hb Nb Nb) as [bb [Ebb [Hbb Hvbb]]].
    assert (Hhalf : 0 <= e / 2 < 2 ^ Z.of_nat n).
    { rewrite Nat2Z.inj_succ, Z.pow_succ_r in He by lia.
      split; [apply Z.div_pos; lia|apply Z.div_lt_upper_bound; lia]. }
    assert (Nbb : bb <> []) by (intros ->; rewrite val_nil in Hvbb; nia).
    destruct (0 <? e mod 2) eqn:E1.
    + destruct (mul_vec_spec res b Hres Hb Nr Nb) as [rb [Erb [Hrb Hvrb]]].
      rewrite Erb, Ebb. cbn [obind].
      assert (Nrb : rb <> []) by (intros ->; rewrite val_nil in Hvrb; nia).
      destruct (IH rb bb (e / 2) ltac:(auto) ltac:(auto) Nrb Nbb Hrb ltac:(nia) ltac:(nia) Hhalf) as [r [Er [Hr Hvr]]].
      exists r. split; [exact Er|]. split; [auto|].
      rewrite Hvr, Hvrb, Hvbb. rewrite (pow_halve (val b) e) by lia. rewrite E1. ring.
    + rewrite Ebb. cbn [obind].
      destruct (IH res bb (e / 2) Hres ltac:(auto) Nr Nbb Cr Pr ltac:(nia) Hhalf) as [r [Er [Hr Hvr]]].
      exists r. split; [exact Er|]. split; [auto|].
      rewrite Hvr, Hvbb. rewrite (pow_halve (val b) e) by lia. rewrite E1. ring.
Qed.

Lemma neg_pow m e : 0 <= e -> (- m) ^ e = (if e mod 2 =? 0 then 1 else -1) * m ^ e.
Proof.
  intros He. pose proof (Z.mod_pos_bound e 2 ltac:(lia)).
  destruct (e mod 2 =? 0) eqn:E.
  - rewrite Z.pow_opp_even; [lia|]. apply Z.even_spec. rewrite Zmod_even in E. destruct (Z.even e); [reflexivity|lia].
  - rewrite Z.pow_opp_odd; [lia|]. apply Z.odd_spec. rewrite Zmod_odd in E. destruct (Z.odd e); [reflexivity|lia].
Qed.

Lemma jb_pow_u64_spec a e : jwf a -> jb_items a <> [] -> 0 <= e < 2 ^ 64 ->
  exists r, jb_pow_u64 a e = Ok r /\ jwf r /\ jval r = jval a ^ e.
Proof.
  intros Ha Hne He. unfold jb_pow_u64.
  set (s := if sign_eqb (jb_sign a) Positive || (Z.land e 1 =? 0) then Positive else Negative).
  destruct (jb_pow_loop_spec s 64 [1] (jb_items a) e) as [r [Er [Hr Hv]]];
    [ apply canon_limbs, canon_one | apply canon_limbs, Ha | congruence | exact Hne
    | apply canon_one | rewrite val_one; lia | apply canon_pos; [apply Ha|exact Hne]
    | exact He | ].
  - exists r. split; [exact Er|]. split; [auto|]. rewrite Hv, val_one, (jval_sign a).
    subst s. rewrite land1 by lia. destruct (jb_sign a); cbn [sign_eqb orb sign_int].
    + rewrite !Z.mul_1_l. reflexivity.
    + replace (-1 * val (jb_items a)) with (- val (jb_items a)) by lia.
      rewrite neg_pow by lia. destruct (e mod 2 =? 0); cbn [sign_int]; lia.
Qed.

(** The result of [pow]: right except for base -1 and an odd exponent, when it is +1. *)
Lemma jb_pow_spec a e : jwf a -> jwf e -> 0 <= jval e < 2 ^ 64 ->
  exists r, jb_pow a e = Ok r /\ jwf r /\
    jval r = (if (jval a =? -1) && Z.odd (jval e) then 1 else jval a ^ jval e).
Proof.
  intros Ha He Hr. unfold jb_pow.
  assert (Hs : jb_sign e = Positive).
  { destruct (jb_sign e) eqn:E; [reflexivity|]. apply jval_neg_iff in E; auto. lia. }
  rewrite Hs. cbn [sign_eqb].
  assert (H1 : (match jb_items a with [x] => x =? 1 | _ => false end) = (Z.abs (jval a) =? 1)).
  { rewrite jabs by auto. destruct Ha as [Ca _]. destruct (jb_items a) as [|x [|y l]] eqn:Ei.
    - reflexivity.
    - rewrite val_cons, val_nil. rewrite Z.mul_0_r, Z.add_0_r. reflexivity.
    - apply canon_cons in Ca as [Hx [Ca _]]. pose proof (canon_pos _ Ca ltac:(congruence)).
      rewrite val_cons. pose proof B_val. nia. }
  rewrite H1. destruct (jb_from_u64_spec Positive 1 one_lt_B) as [Hw Hv].
  cbn [sign_int] in Hv.
  destruct (Z.abs (jval a) =? 1) eqn:E1.
  { eexists; split; [reflexivity|]. split; [auto|]. rewrite Hv.
    destruct (jval a =? -1) eqn:E2; cbn [andb].
    - destruct (Z.odd (jval e)) eqn:Eo; [reflexivity|].
      replace (jval a) with (- (1)) by lia. rewrite Z.pow_opp_even, Z.pow_1_l; [reflexivity|lia|].
      apply Z.even_spec. rewrite <- Z.negb_odd, Eo. reflexivity.
    - replace (jval a) with 1 by lia. rewrite Z.pow_1_l; lia. }
  assert (E2 : (jval a =? -1) = false) by lia. rewrite E2. cbn [andb].
  rewrite !jb_is_zero_spec by auto.
  destruct (jval a =? 0) eqn:E3.
  { eexists; split; [reflexivity|]. assert (E0 : jval a = 0) by lia. rewrite E0.
    destruct (jval e =? 0) eqn:E4.
    - split; [auto|]. assert (E5 : jval e = 0) by lia. rewrite E5. exact Hv.
    - split; [auto|]. rewrite jb_zero_val, Z.pow_0_l; lia. }
  assert (Hne : jb_items a <> []) by (rewrite jval_zero_iff by auto; lia).
  assert (Hve : jval e = val (jb_items e)) by (rewrite jval_sign, Hs; cbn [sign_int]; lia).
  destruct (jb_items e) as [|x [|y l]] eqn:Ee.
  - eexists; split; [reflexivity|]. split; [auto|]. rewrite Hve, val_nil, Z.pow_0_r. exact Hv.
  - rewrite Hve, val_cons, val_nil, Z.mul_0_r, Z.add_0_r.
    apply jb_pow_u64_spec; auto. rewrite Hve, val_cons, val_nil in Hr. lia.
  - exfalso. destruct He as [Ce _]. rewrite Ee in Ce. apply canon_cons in Ce as [Hx [Ce _]].
    pose proof (canon_pos _ Ce ltac:(congruence)). rewrite Hve, val_cons in Hr.
    pose proof B_val. rewrite <- B_eq in Hr. nia.
Qed.

Lemma jb_pow_negative a e : jwf e -> jval e < 0 -> jb_pow a e = Panic.
Proof. intros He H. apply jval_neg_iff in H; auto. unfold jb_pow. rewrite H. reflexivity. Qed.

Lemma jb_pow_u64_zero e : 0 < e -> jb_pow_u64 jb_zero e = Panic.
Proof.
  intros He. unfold jb_pow_u64. cbn [jb_pow_loop]. destruct (e =? 0) eqn:E; [lia|].
  cbn [jb_items jb_zero new_bigint]. destruct (0 <? Z.land e 1); reflexivity.
Qed.
