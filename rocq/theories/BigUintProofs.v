(** Proofs about BigUintModel. *)
From Coq Require Import ZArith List Bool Lia.
From Coq Require Import ZifyBool ZifyNat.
From Verif Require Import Outcome LimbsModel LimbsSpec LimbsProofs ShiftProofs BigUintModel.
Import ListNotations.
Open Scope Z_scope.

Lemma bu_cmp_spec a b : canon a -> canon b -> bu_cmp a b = (val a ?= val b).
Proof. apply cmp_vec_spec. Qed.

Lemma bu_add_val a b : limbs a -> limbs b -> val (bu_add a b) = val a + val b.
Proof. apply add_vec_val. Qed.

Lemma bu_add_canon a b : canon a -> canon b -> canon (bu_add a b).
Proof. apply add_vec_canon. Qed.

Lemma bu_sub_spec a b : canon a -> canon b ->
  canon (bu_sub a b) /\ val (bu_sub a b) = Z.max 0 (val a - val b).
Proof.
  intros Ha Hb. unfold bu_sub. rewrite bu_cmp_spec by auto.
  destruct (Z.compare_spec (val a) (val b)) as [H|H|H].
  - split; [apply canon_nil|]. unfold bu_zero. rewrite val_nil. lia.
  - split; [apply canon_nil|]. unfold bu_zero. rewrite val_nil. lia.
  - split; [apply normalize_canon, sub_vec_limbs|].
    rewrite normalize_val, sub_vec_val; auto; [lia| |lia].
    apply canon_len_le; auto; lia.
Qed.

Lemma bu_is_zero_spec a : canon a -> bu_is_zero a = (val a =? 0).
Proof.
  intros Hc. destruct a as [|d a]; [reflexivity|]. cbn [bu_is_zero].
  pose proof (canon_pos (d :: a) Hc ltac:(congruence)). lia.
Qed.

Lemma bu_mul_spec a b : limbs a -> limbs b ->
  exists r, bu_mul a b = Ok r /\ canon r /\ val r = val a * val b.
Proof.
  intros Ha Hb. unfold bu_mul. destruct a as [|x a].
  { exists []. split; [reflexivity|]. split; [apply canon_nil|]. rewrite val_nil; lia. }
  destruct b as [|y b].
  { exists []. split; [reflexivity|]. split; [apply canon_nil|]. rewrite val_nil; lia. }
  cbn [bu_is_zero orb]. apply mul_vec_spec; auto; congruence.
Qed.

Lemma bu_shl_spec a n : canon a -> 0 <= n ->
  exists r, bu_shl a [n] = Ok r /\ canon r /\ val r = val a * 2 ^ n.
Proof.
  intros Ha Hn. unfold bu_shl. destruct a as [|x a].
  { exists []. split; [reflexivity|]. split; [apply canon_nil|]. rewrite val_nil; lia. }
  cbn [bu_is_zero orb]. apply shl_limbs_spec; auto. discriminate.
Qed.

Lemma bu_shl_zero a : bu_shl a [] = Ok a.
Proof. unfold bu_shl. destruct a; reflexivity. Qed.

Lemma bu_shl_big a n m rest : a <> [] -> bu_shl a (n :: m :: rest) = Panic.
Proof. intros H. unfold bu_shl. destruct a; [congruence|]. reflexivity. Qed.

Lemma bu_shr_spec a n : canon a -> 0 <= n ->
  exists r, bu_shr a [n] = Ok r /\ canon r /\ val r <= val a / 2 ^ n /\
            (val r = val a / 2 ^ n <-> shr_exact a n).
Proof.
  intros Ha Hn. unfold bu_shr. destruct a as [|x a].
  { exists []. rewrite val_nil, Z.div_0_l by (apply Z.pow_nonzero; lia).
    split; [reflexivity|]. split; [apply canon_nil|]. split; [lia|]. split; [|reflexivity].
    intros _. right. intros i _. replace (nth i [] 0) with 0 by (destruct i; reflexivity).
    destruct (Z.eq_dec (2 ^ (n mod 64 - 1)) 0) as [E|E];
      [rewrite E; reflexivity|apply Z.mod_0_l; auto]. }
  cbn [bu_is_zero orb].
  destruct (length (x :: a) <=? Z.to_nat (n / 64))%nat eqn:E.
  - exists []. split; [reflexivity|]. split; auto. rewrite val_nil.
    pose proof (Z.div_pos n 64 Hn ltac:(lia)).
    assert (Hsm : val (x :: a) / 2 ^ n = 0).
    { apply Z.div_small. split; [apply val_nonneg; auto|].
      eapply Z.lt_le_trans; [apply val_bound; auto|].
      rewrite (pow2_split n) by auto.
      pose proof (Bpow_mono (length (x :: a)) (Z.to_nat (n / 64)) ltac:(lia)) as Hm.
      rewrite Z2Nat.id in Hm by lia.
      assert (0 < 2 ^ (n mod 64)) by (apply Z.pow_pos_nonneg; [lia|apply Z.mod_pos_bound; lia]).
      pose proof (Bpow_pos (n / 64) ltac:(lia)). nia. }
    rewrite Hsm. split; [lia|]. split; auto. intros _. right. intros i Hi.
    rewrite nth_overflow by lia.
    destruct (Z.eq_dec (2 ^ (n mod 64 - 1)) 0) as [E2|E2];
      [rewrite E2; reflexivity|apply Z.mod_0_l; auto].
  - eexists; split; [reflexivity|]. apply shr_limbs_spec; auto.
Qed.

(** ** power *)

Lemma land1 n : 0 <= n -> Z.land n 1 = n mod 2.
Proof. intros. change 1 with (Z.ones 1). rewrite Z.land_ones by lia. reflexivity. Qed.

Lemma shiftr1 n : Z.shiftr n 1 = n / 2.
Proof. rewrite Z.shiftr_div_pow2 by lia. reflexivity. Qed.

Lemma pow_halve b e : 0 <= e -> b ^ e = (if 0 <? e mod 2 then b else 1) * (b * b) ^ (e / 2).
Proof.
  intros He. assert (Hbb : b * b = b ^ 2) by (rewrite Z.pow_2_r; reflexivity).
  rewrite Hbb, <- Z.pow_mul_r by (try apply Z.div_pos; lia).
  pose proof (Z.div_mod e 2 ltac:(lia)) as Hd. pose proof (Z.mod_pos_bound e 2 ltac:(lia)).
  destruct (0 <? e mod 2) eqn:E.
  - replace e with (1 + 2 * (e / 2)) at 1 by lia.
    rewrite Z.pow_add_r by (try apply Z.mul_nonneg_nonneg; try apply Z.div_pos; lia).
    rewrite Z.pow_1_r. reflexivity.
  - replace e with (2 * (e / 2)) at 1 by lia. lia.
Qed.

Lemma bu_pow_loop_spec n : forall res b e,
  limbs res -> limbs b -> 0 <= e < 2 ^ Z.of_nat n ->
  exists r, bu_pow_loop (S n) res b e = Ok r /\ limbs r /\ (canon res -> canon r) /\
            val r = val res * val b ^ e.
Proof.
  induction n as [|n IH]; intros res b e Hres Hb He.
  - change (2 ^ Z.of_nat 0) with 1 in He. assert (e = 0) by lia; subst e.
    exists res. split; [reflexivity|]. split; [auto|]. split; [auto|]. rewrite Z.pow_0_r; lia.
  - cbn [bu_pow_loop]. destruct (e =? 0) eqn:E0.
    { assert (e = 0) by lia; subst e. exists res. split; [reflexivity|]. split; [auto|]. split; [auto|]. rewrite Z.pow_0_r; lia. }
    rewrite land1, shiftr1 by lia.
    destruct (bu_mul_spec b b Hb Hb) as [bb [Ebb [Hbb Hvbb]]].
    assert (Hhalf : 0 <= e / 2 < 2 ^ Z.of_nat n).
    { rewrite Nat2Z.inj_succ, Z.pow_succ_r in He by lia.
      split; [apply Z.div_pos; lia|apply Z.div_lt_upper_bound; lia]. }
    destruct (0 <? e mod 2) eqn:E1.
    + destruct (bu_mul_spec res b Hres Hb) as [rb [Erb [Hrb Hvrb]]].
      rewrite Erb, Ebb. cbn [obind].
      destruct (IH rb bb (e / 2) ltac:(auto) ltac:(auto) Hhalf) as [r [Er [Hr [Hcr Hvr]]]].
      exists r. split; [exact Er|]. split; [auto|]. split; [auto|].
      rewrite Hvr, Hvrb, Hvbb. rewrite (pow_halve (val b) e) by lia. rewrite E1. ring.
    + rewrite Ebb. cbn [obind].
      destruct (IH res bb (e / 2) Hres ltac:(auto) Hhalf) as [r [Er [Hr [Hcr Hvr]]]].
      exists r. split; [exact Er|]. split; [auto|]. split; [auto|].
      rewrite Hvr, Hvbb. rewrite (pow_halve (val b) e) by lia. rewrite E1. ring.
Qed.

Lemma canon_one : canon [1].
Proof. split; [apply limbs_cons; split; [pose proof B_val; lia|auto]|cbn; lia]. Qed.
Lemma val_one : val [1] = 1. Proof. reflexivity. Qed.

Lemma bu_pow_u64_spec a e : limbs a -> 0 <= e < 2 ^ 64 ->
  exists r, bu_pow_u64 a e = Ok r /\ canon r /\ val r = val a ^ e.
Proof.
  intros Ha He. destruct (bu_pow_loop_spec 64 bu_one a e) as [r [Er [Hr [Hc Hv]]]]; auto.
  - apply canon_limbs, canon_one.
  - exists r. split; [exact Er|]. split; [apply Hc, canon_one|]. rewrite Hv. unfold bu_one. rewrite val_one. lia.
Qed.

Lemma bu_pow_spec a e : canon a -> canon e -> (length e <= 1)%nat ->
  exists r, bu_pow a e = Ok r /\ canon r /\ val r = val a ^ val e.
Proof.
  intros Ha He Hl. unfold bu_pow.
  pose proof (val_nonneg e ltac:(auto)) as Hen.
  destruct (bu_is_one a) eqn:E1.
  { destruct a as [|x [|y a]]; try discriminate. cbn in E1. apply Z.eqb_eq in E1; subst x.
    exists [1]. split; [reflexivity|]. split; [apply canon_one|]. rewrite val_one, Z.pow_1_l; lia. }
  destruct (bu_is_zero a) eqn:E2.
  { destruct a; [|discriminate]. rewrite val_nil. rewrite bu_is_zero_spec by auto.
    eexists; split; [reflexivity|]. destruct (val e =? 0) eqn:E3.
    - split; [apply canon_one|]. apply Z.eqb_eq in E3. rewrite E3. reflexivity.
    - split; [apply canon_nil|]. unfold bu_zero. rewrite val_nil, Z.pow_0_l; lia. }
  destruct e as [|x [|y e]]; [| |cbn [length] in Hl; lia].
  - exists [1]. split; [reflexivity|]. split; [apply canon_one|]. rewrite val_nil, Z.pow_0_r. reflexivity.
  - apply canon_cons in He as [Hx _].
    rewrite val_cons, val_nil. rewrite Z.mul_0_r, Z.add_0_r.
    apply bu_pow_u64_spec; auto.
Qed.

Lemma bu_pow_big a x y e : a <> [] -> a <> [1] -> bu_pow a (x :: y :: e) = Panic.
Proof.
  intros H1 H2. unfold bu_pow. destruct (bu_is_one a) eqn:E.
  - destruct a as [|z [|w a]]; try discriminate. cbn in E. apply Z.eqb_eq in E; subst; congruence.
  - destruct a; [congruence|]. reflexivity.
Qed.

(** ** division *)

Lemma bu_div_loop_unfold fuel a b res :
  canon a -> canon b -> b <> [] -> val b <= val a ->
  exists qi qd qd' m, estimate a b = Ok (qi, qd) /\ 1 <= qd < B /\
    qd' = (if qd * B ^ Z.of_nat qi * val b <=? val a then qd else qd - 1) /\
    canon m /\ val m = qd' * B ^ Z.of_nat qi * val b /\
    bu_div_loop (S fuel) a b res = bu_div_loop fuel (bu_sub a m) b (bu_add res (q_vec qi qd')).
Proof.
  intros Ha Hb Hnb Hge.
  destruct (estimate_spec a b Ha Hb Hnb Hge) as [qi [qd [Ee [Hqd _]]]].
  cbn [bu_div_loop]. rewrite bu_cmp_spec by auto.
  destruct (bu_mul_spec b (q_vec qi qd)) as [m [Em [Hm Hvm]]]; auto.
  { apply q_vec_limbs; lia. }
  destruct (bu_mul_spec b (q_vec qi (qd - 1))) as [m' [Em' [Hm' Hvm']]]; auto.
  { apply q_vec_limbs; lia. }
  rewrite q_vec_val in Hvm, Hvm'.
  rewrite Ee. cbn [obind]. rewrite Em. cbn [obind]. rewrite bu_cmp_spec by auto.
  exists qi, qd, (if qd * B ^ Z.of_nat qi * val b <=? val a then qd else qd - 1).
  destruct (qd * B ^ Z.of_nat qi * val b <=? val a) eqn:E.
  - exists m. split; [reflexivity|]. split; [auto|]. split; [reflexivity|]. split; [auto|].
    split; [rewrite Hvm; ring|].
    destruct (Z.compare_spec (val a) (val b)) as [H|H|H]; [| lia |].
    + destruct (Z.compare_spec (val a) (val m)); [reflexivity| |reflexivity]. nia.
    + destruct (Z.compare_spec (val a) (val m)); [reflexivity| |reflexivity]. nia.
  - exists m'. split; [reflexivity|]. split; [auto|]. split; [reflexivity|]. split; [auto|].
    split; [rewrite Hvm'; ring|].
    assert (Hlt : (val a ?= val m) = Lt) by (apply Z.compare_lt_iff; nia).
    rewrite Hlt. destruct (qd =? 0) eqn:E0; [lia|]. rewrite Em'. cbn [obind].
    destruct (Z.compare_spec (val a) (val b)) as [H|H|H]; [reflexivity|lia|reflexivity].
Qed.

(** Partial correctness for every divisor: a returned pair is right, or the remainder is
    zero and the quotient is too big. *)
Lemma bu_div_loop_partial fuel : forall a b res q r,
  canon a -> canon b -> b <> [] -> limbs res ->
  bu_div_loop fuel a b res = Ok (q, r) ->
  canon r /\ val r < val b /\
  (val q * val b + val r = val res * val b + val a \/
   (r = [] /\ val res * val b + val a < val q * val b)).
Proof.
  induction fuel as [|fuel IH]; intros a b res q r Ha Hb Hnb Hres He; [discriminate|].
  destruct (Z.lt_ge_cases (val a) (val b)) as [Hlt|Hge].
  - cbn [bu_div_loop] in He. rewrite bu_cmp_spec in He by auto.
    rewrite (proj2 (Z.compare_lt_iff _ _) Hlt) in He. injection He as <- <-.
    split; auto.
  - destruct (bu_div_loop_unfold fuel a b res Ha Hb Hnb ltac:(lia))
      as [qi [qd [qd' [m [_ [Hqd [Hqd' [Hm [Hvm Eq]]]]]]]]].
    rewrite Eq in He. destruct (bu_sub_spec a m Ha Hm) as [Hs Hvs].
    assert (Hlq : limbs (q_vec qi qd')).
    { apply q_vec_limbs. destruct (_ <=? _) in Hqd'; lia. }
    destruct (IH _ _ _ _ _ Hs Hb Hnb (add_vec_limbs _ _) He) as [Hc [Hlt Hor]].
    split; [auto|]. split; [auto|].
    unfold bu_add in Hor. rewrite add_vec_val, q_vec_val in Hor by auto. rewrite Hvs in Hor.
    destruct (Z.le_gt_cases (val m) (val a)) as [Hle|Hgt].
    + rewrite Z.max_r in Hor by lia. destruct Hor as [Hor|[-> Hor]]; [left; nia|right; split; [auto|nia]].
    + (* saturated: a becomes zero and the next iteration stops *)
      assert (Ez : bu_sub a m = []) by (apply canon_val0; auto; lia).
      rewrite Ez in He. right.
      destruct fuel as [|fuel]; [discriminate|]. cbn [bu_div_loop] in He.
      rewrite bu_cmp_spec in He by auto. rewrite val_nil in He.
      pose proof (canon_pos b Hb Hnb). rewrite (proj2 (Z.compare_lt_iff 0 (val b)) ltac:(lia)) in He.
      injection He as <- <-. split; [reflexivity|]. unfold bu_add. rewrite add_vec_val, q_vec_val by auto. nia.
Qed.

(** Total correctness for divisors [d * 2^(64 k)]. *)
Lemma bu_div_loop_top n : forall a b res k d,
  canon a -> canon b -> canon res -> 0 < d < B -> val b = d * B ^ Z.of_nat k ->
  val a < Z.of_nat n ->
  exists q r, (forall fuel, (n <= fuel)%nat -> bu_div_loop fuel a b res = Ok (q, r)) /\
    canon q /\ canon r /\ val r < val b /\ val q * val b + val r = val res * val b + val a.
Proof.
  induction n as [|n IH]; intros a b res k d Ha Hb Hres Hd Hvb Hn.
  - pose proof (val_nonneg a ltac:(auto)). lia.
  - pose proof (Bpow_pos (Z.of_nat k) ltac:(lia)) as HPk.
    assert (Hnb : b <> []) by (intros ->; rewrite val_nil in Hvb; nia).
    assert (Eb : b = q_vec k d).
    { apply canon_inj; auto. apply q_vec_canon; auto. rewrite q_vec_val; auto. }
    assert (Hlb : last b 1 = d) by (rewrite Eb; apply last_last).
    assert (Hlen : length b = S k).
    { rewrite Eb. unfold q_vec, new_resize. rewrite app_length, repeat_length. cbn [length]; lia. }
    destruct (Z.lt_ge_cases (val a) (val b)) as [Hlt|Hge].
    + exists res, a. split; [|auto].
      intros fuel Hf. destruct fuel as [|fuel]; [lia|].
      cbn [bu_div_loop]. rewrite bu_cmp_spec by auto.
      rewrite (proj2 (Z.compare_lt_iff _ _) Hlt). reflexivity.
    + destruct (estimate_spec a b Ha Hb Hnb ltac:(lia)) as [qi0 [qd0 [Ee0 [Hqd0 [_ [_ [Hle _]]]]]]].
      rewrite Hlb in Hle. rewrite Hlen in Hle. cbn [Nat.sub] in Hle. rewrite Nat.sub_0_r in Hle.
      assert (Hexact : qd0 * B ^ Z.of_nat qi0 * val b <= val a).
      { rewrite Hvb. rewrite Nat2Z.inj_add, Z.pow_add_r in Hle by lia. nia. }
      destruct (bu_div_loop_unfold 0 a b res Ha Hb Hnb ltac:(lia))
        as [qi [qd [qd' [m [Ee [Hqd [Hqd' [Hm [Hvm _]]]]]]]]].
      rewrite Ee0 in Ee. injection Ee as <- <-.
      destruct (qd0 * B ^ Z.of_nat qi0 * val b <=? val a) eqn:Ec; [|lia]. subst qd'.
      destruct (bu_sub_spec a m Ha Hm) as [Hs Hvs]. rewrite Z.max_r in Hvs by lia.
      pose proof (Bpow_pos (Z.of_nat qi0) ltac:(lia)) as HPq.
      assert (Hdec : val (bu_sub a m) < Z.of_nat n).
      { rewrite Hvs, Hvm. assert (0 < qd0 * B ^ Z.of_nat qi0 * val b); [|lia].
        apply Z.mul_pos_pos; [apply Z.mul_pos_pos; lia|nia]. }
      assert (Hresq : canon (bu_add res (q_vec qi0 qd0))).
      { apply bu_add_canon; auto. apply q_vec_canon; lia. }
      destruct (IH _ _ _ k d Hs Hb Hresq Hd Hvb Hdec) as [q [r [Hq [Hcq [Hcr [Hrb Heq]]]]]].
      exists q, r. split; [|split; [auto|split; [auto|split; [auto|]]]].
      * intros fuel Hf. destruct fuel as [|fuel]; [lia|].
        destruct (bu_div_loop_unfold fuel a b res Ha Hb Hnb ltac:(lia))
          as [qi2 [qd2 [qd2' [m2 [Ee2 [_ [Hqd2' [Hm2 [Hvm2 Eu]]]]]]]]].
        rewrite Ee0 in Ee2. injection Ee2 as <- <-. rewrite Ec in Hqd2'. subst qd2'.
        assert (m2 = m) by (apply canon_inj; auto; lia). subst m2.
        rewrite Eu. apply Hq. lia.
      * rewrite Heq. rewrite bu_add_val, q_vec_val, Hvs, Hvm by (auto; apply q_vec_limbs; lia). ring.
Qed.

Lemma bu_div_mod_top a b k d :
  canon a -> canon b -> 0 < d < B -> val b = d * B ^ Z.of_nat k ->
  exists q r f0, (forall fuel, (f0 <= fuel)%nat -> bu_div_mod fuel a b = Ok (q, r)) /\
    canon q /\ canon r /\ val q = val a / val b /\ val r = val a mod val b.
Proof.
  intros Ha Hb Hd Hvb. pose proof (Bpow_pos (Z.of_nat k) ltac:(lia)) as HPk.
  assert (Hvb0 : 0 < val b) by (rewrite Hvb; nia).
  assert (Hnz : bu_is_zero b = false) by (rewrite bu_is_zero_spec by auto; lia).
  unfold bu_div_mod. rewrite Hnz.
  pose proof (val_nonneg a ltac:(auto)) as Hna.
  rewrite bu_cmp_spec by auto. destruct (Z.compare_spec (val a) (val b)) as [E|E|E].
  - exists [1], [], O. split; [auto|]. split; [apply canon_one|]. split; [apply canon_nil|].
    rewrite E, Z.div_same, Z.mod_same by lia. auto.
  - exists [], a, O. split; [auto|]. split; [apply canon_nil|]. split; [auto|].
    rewrite Z.div_small, Z.mod_small by lia. auto.
  - destruct (bu_div_loop_top (Z.to_nat (val a + 1)) a b [] k d) as [q [r [Hq [Hcq [Hcr [Hrb Heq]]]]]]; auto; [lia|].
    exists q, r, (Z.to_nat (val a + 1)). split; [exact Hq|]. split; [auto|]. split; [auto|].
    rewrite val_nil in Heq. pose proof (val_nonneg r ltac:(auto)).
    split; [apply Z.div_unique_pos with (r := val r)|apply Z.mod_unique_pos with (q := val q)]; lia.
Qed.

(** Non-termination: the estimate is one too big and is corrected to zero, for ever. *)
Lemma bu_div_loop_stuck_gen a b qi : canon a -> canon b -> b <> [] -> val b <= val a ->
  estimate a b = Ok (qi, 1) -> val a < val b * B ^ Z.of_nat qi ->
  forall fuel res, bu_div_loop fuel a b res = NoFuel.
Proof.
  intros Ha Hb Hnb Hge Hest Hlt. induction fuel as [|fuel IH]; intros res; [reflexivity|].
  destruct (bu_div_loop_unfold fuel a b res Ha Hb Hnb Hge)
    as [qi0 [qd [qd' [m [Ee [Hqd [Hqd' [Hm [Hvm Eq]]]]]]]]].
  rewrite Hest in Ee. injection Ee as <- <-.
  destruct (1 * B ^ Z.of_nat qi * val b <=? val a) eqn:Ec; [lia|].
  assert (Hm0 : m = []) by (apply canon_val0; auto; rewrite Hvm, Hqd'; ring).
  rewrite Eq, Hm0.
  assert (Hsame : bu_sub a [] = a).
  { destruct (bu_sub_spec a [] Ha canon_nil) as [Hc Hv]. apply canon_inj; auto.
    rewrite Hv, val_nil. pose proof (val_nonneg a ltac:(auto)). lia. }
  rewrite Hsame. apply IH.
Qed.

Lemma bu_div_loop_stuck a b : canon a -> canon b -> b <> [] -> val b <= val a ->
  last a 1 = last b 1 -> val a < val b * B ^ Z.of_nat (length a - length b) ->
  forall fuel res, bu_div_loop fuel a b res = NoFuel.
Proof.
  intros Ha Hb Hnb Hge Hlast Hlt.
  destruct (estimate_spec a b Ha Hb Hnb Hge) as [qi0 [qd0 [Ee0 [Hqd0 [_ [_ [_ Hcase]]]]]]].
  assert (Hpos : 0 < last b 1).
  { destruct Hb as [Hl H0]. destruct (exists_last Hnb) as [b' [x Ex]].
    rewrite Ex in *. rewrite last_last in *. apply limbs_app in Hl as [_ Hl].
    apply limbs_cons in Hl. lia. }
  destruct Hcase as [[_ [Hqi Hqd2]]|[Hbad _]]; [|lia].
  rewrite Hlast, Z.div_same in Hqd2 by lia. subst qd0 qi0.
  eapply bu_div_loop_stuck_gen; eauto.
Qed.

(** A returned quotient is canonical: the step that would spoil it never returns. *)
Lemma bu_div_loop_canon fuel : forall a b res q r,
  canon a -> canon b -> b <> [] -> canon res ->
  bu_div_loop fuel a b res = Ok (q, r) -> canon q.
Proof.
  induction fuel as [|fuel IH]; intros a b res q r Ha Hb Hnb Hres He; [discriminate|].
  destruct (Z.lt_ge_cases (val a) (val b)) as [Hlt|Hge].
  - cbn [bu_div_loop] in He. rewrite bu_cmp_spec in He by auto.
    rewrite (proj2 (Z.compare_lt_iff _ _) Hlt) in He. injection He as <- <-. auto.
  - destruct (bu_div_loop_unfold fuel a b res Ha Hb Hnb ltac:(lia))
      as [qi [qd [qd' [m [Ee [Hqd [Hqd' [Hm [Hvm Eq]]]]]]]]].
    destruct (Z.eq_dec qd' 0) as [Hz|Hnz].
    + assert (qd = 1) by (destruct (_ <=? _) in Hqd'; lia). subst qd.
      rewrite (bu_div_loop_stuck_gen a b qi Ha Hb Hnb ltac:(lia) Ee) in He; [discriminate|].
      destruct (1 * B ^ Z.of_nat qi * val b <=? val a) eqn:Ec; lia.
    + rewrite Eq in He. refine (IH _ _ _ _ _ _ Hb Hnb _ He).
      * apply bu_sub_spec; auto.
      * apply bu_add_canon; auto. apply q_vec_canon. destruct (_ <=? _) in Hqd'; lia.
Qed.

Lemma bu_div_mod_canon fuel a b q r : canon a -> canon b ->
  bu_div_mod fuel a b = Ok (q, r) -> canon q.
Proof.
  intros Ha Hb He. unfold bu_div_mod in He. destruct (bu_is_zero b) eqn:Ez; [discriminate|].
  assert (Hnb : b <> []) by (intros ->; discriminate).
  destruct (bu_cmp a b).
  - injection He as <- <-. apply canon_one.
  - injection He as <- <-. apply canon_nil.
  - exact (bu_div_loop_canon fuel a b [] q r Ha Hb Hnb canon_nil He).
Qed.

Lemma bu_div_mod_stuck a b : canon a -> canon b -> (length b < length a)%nat -> b <> [] ->
  last a 1 = last b 1 -> val a < val b * B ^ Z.of_nat (length a - length b) ->
  forall fuel, bu_div_mod fuel a b = NoFuel.
Proof.
  intros Ha Hb Hl Hnb Hlast Hlt fuel.
  pose proof (canon_len_lt b a ltac:(auto) Ha Hl) as Hgt.
  unfold bu_div_mod. destruct b as [|x b]; [congruence|]. cbn [bu_is_zero].
  rewrite bu_cmp_spec by auto. rewrite (proj2 (Z.compare_gt_iff _ _) Hgt).
  apply bu_div_loop_stuck; auto. lia.
Qed.

Lemma bu_div_mod_partial fuel a b q r :
  canon a -> canon b -> bu_div_mod fuel a b = Ok (q, r) ->
  canon r /\ val r < val b /\
  (val a = val q * val b + val r \/ (val r = 0 /\ val a < val q * val b)).
Proof.
  intros Ha Hb He. unfold bu_div_mod in He.
  destruct (bu_is_zero b) eqn:Ez; [discriminate|].
  assert (Hnb : b <> []) by (intros ->; discriminate).
  pose proof (canon_pos b Hb Hnb).
  rewrite bu_cmp_spec in He by auto.
  destruct (Z.compare_spec (val a) (val b)) as [E|E|E].
  - injection He as <- <-. split; [apply canon_nil|]. unfold bu_zero. rewrite val_one, val_nil. split; [lia|left; lia].
  - injection He as <- <-. split; [auto|]. unfold bu_zero. rewrite val_nil. split; [lia|left; lia].
  - destruct (bu_div_loop_partial fuel a b [] q r Ha Hb Hnb ltac:(auto) He) as [H1 [H2 H3]].
    rewrite val_nil in H3. split; auto. split; auto.
    destruct H3 as [H3|[-> H3]]; [left; lia|right; rewrite val_nil; split; lia].
Qed.

(** ** values built through the API *)

Inductive bu_built : biguint -> Prop :=
| built_zero : bu_built bu_zero
| built_one : bu_built bu_one
| built_from n : 0 < n < 2 ^ 64 -> bu_built (bu_from_u64 n)
| built_add a b : bu_built a -> bu_built b -> bu_built (bu_add a b)
| built_sub a b : bu_built a -> bu_built b -> bu_built (bu_sub a b)
| built_mul a b r : bu_built a -> bu_built b -> bu_mul a b = Ok r -> bu_built r
| built_pow a b r : bu_built a -> bu_built b -> bu_pow a b = Ok r -> bu_built r
| built_shl a b r : bu_built a -> bu_built b -> bu_shl a b = Ok r -> bu_built r
| built_shr a b r : bu_built a -> bu_built b -> bu_shr a b = Ok r -> bu_built r
| built_quot fuel a b q r : bu_built a -> bu_built b -> bu_div_mod fuel a b = Ok (q, r) -> bu_built q
| built_rem fuel a b q r : bu_built a -> bu_built b -> bu_div_mod fuel a b = Ok (q, r) -> bu_built r.

Lemma bu_built_canon a : bu_built a -> canon a.
Proof.
  induction 1 as [| |n Hn|a b _ Ha _ Hb|a b _ Ha _ Hb|a b r _ Ha _ Hb E|a b r _ Ha _ Hb E
                 |a b r _ Ha _ Hb E|a b r _ Ha _ Hb E|fuel a b q r _ Ha _ Hb E|fuel a b q r _ Ha _ Hb E].
  - apply canon_nil.
  - apply canon_one.
  - split; [constructor; [lia|constructor]|cbn; lia].
  - apply bu_add_canon; auto.
  - apply bu_sub_spec; auto.
  - destruct (bu_mul_spec a b ltac:(auto) ltac:(auto)) as [r' [E' [H _]]]. congruence.
  - destruct b as [|x [|y b]].
    + destruct (bu_pow_spec a [] Ha Hb ltac:(cbn; lia)) as [r' [E' [H _]]]. congruence.
    + destruct (bu_pow_spec a [x] Ha Hb ltac:(cbn; lia)) as [r' [E' [H _]]]. congruence.
    + unfold bu_pow in E. destruct (bu_is_one a); [injection E as <-; apply canon_one|].
      destruct (bu_is_zero a); [injection E as <-; apply canon_nil|discriminate].
  - destruct b as [|x [|y b]].
    + rewrite bu_shl_zero in E. congruence.
    + apply canon_cons in Hb as [Hx _].
      destruct (bu_shl_spec a x Ha ltac:(lia)) as [r' [E' [H _]]]. congruence.
    + destruct a as [|z a]; [cbn in E; injection E as <-; auto|].
      rewrite bu_shl_big in E by congruence. discriminate.
  - destruct b as [|x b].
    + unfold bu_shr in E. destruct a; cbn in E; injection E as <-; auto.
    + apply canon_cons in Hb as [Hx _].
      destruct (bu_shr_spec a x Ha ltac:(lia)) as [r' [E' [H _]]].
      unfold bu_shr in E, E'. destruct (bu_is_zero a || _); congruence.
  - eapply bu_div_mod_canon in E; eauto.
  - destruct (bu_div_mod_partial fuel a b q r Ha Hb E); auto.
Qed.

(** Structural equality is numeric equality for built values. *)
Lemma bu_built_eq a b : bu_built a -> bu_built b -> (a = b <-> val a = val b).
Proof.
  intros Ha Hb. split; [congruence|]. apply canon_inj; apply bu_built_canon; auto.
Qed.

(** A simple sufficient condition for an exact right shift. *)
Lemma shr_exact_le1 v n : n mod 64 <= 1 -> 0 <= n -> shr_exact v n.
Proof.
  intros H Hn. pose proof (Z.mod_pos_bound n 64 ltac:(lia)).
  destruct (Z.eq_dec (n mod 64) 0) as [E|E]; [left; auto|].
  right. intros i _. replace (n mod 64 - 1) with 0 by lia. apply Z.mod_1_r.
Qed.
