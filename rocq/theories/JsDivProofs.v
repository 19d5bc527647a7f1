(** Proofs about the division of JsBigintModel. *)
From Coq Require Import ZArith List Bool Lia.
From Coq Require Import ZifyBool ZifyNat.
From Verif Require Import Outcome LimbsModel LimbsSpec LimbsProofs ShiftProofs
  BigUintModel BigUintProofs BigIntModel BigIntProofs JsBigintModel BigSpec JsBigintProofs.
Import ListNotations.
Open Scope Z_scope.

(** The lexicographic comparison of [Vec<u64>] is not [Less] against [0; ..; 0; x] of the
    same length when the top limb is at least [x]. *)
Lemma std_cmp_top lo : forall x y, limbs lo -> x <= y ->
  std_vec_cmp (lo ++ [y]) (repeat 0 (length lo) ++ [x]) <> Lt.
Proof.
  induction lo as [|d lo IH]; intros x y Hl Hxy.
  - cbn. destruct (Z.compare_spec y x); try discriminate. lia.
  - apply limbs_cons in Hl as [Hd Hl]. cbn [app length repeat std_vec_cmp].
    destruct (Z.compare_spec d 0); [apply IH; auto|lia|discriminate].
Qed.

Lemma top_two_lower a d : canon a -> 0 < d <= 2 ^ 63 -> (2 <= length a)%nat ->
  d * 2 <= val (skipn (length a - 2) a).
Proof.
  intros Ha Hd Hl. pose proof B_val as HB.
  assert (Hna : a <> []) by (intros ->; cbn in Hl; lia).
  pose proof (canon_lower a Ha Hna) as Hlow.
  rewrite skipn_val by auto.
  pose proof (Bpow_pos (Z.of_nat (length a - 2)) ltac:(lia)) as HP.
  apply Z.div_le_lower_bound; [exact HP|].
  replace (length a - 1)%nat with (S (length a - 2))%nat in Hlow by lia.
  rewrite Nat2Z.inj_succ, Z.pow_succ_r in Hlow by lia.
  assert (d * 2 <= B) by lia. nia.
Qed.

(** One step of the loop for a divisor d * B^k with d <= 2^63: the chosen quotient digit is
    positive and not too big. *)
Lemma jb_div_step a b k d res : canon a -> canon b -> 0 < d <= 2 ^ 63 ->
  val b = d * B ^ Z.of_nat k -> val b <= val a ->
  exists q m, (forall fuel, jb_div_loop (S fuel) a b res
                 = jb_div_loop fuel (normalize_vec (sub_vec a m)) b (add_vec res q)) /\
    canon q /\ canon m /\ 0 < val q /\ val m = val q * val b /\ val m <= val a.
Proof.
  intros Ha Hb Hd Hvb Hge. pose proof B_val as HB.
  pose proof (Bpow_pos (Z.of_nat k) ltac:(lia)) as HPk.
  assert (Hnb : b <> []) by (intros ->; rewrite val_nil in Hvb; clear - Hvb HPk Hd; nia).
  assert (Eb : b = q_vec k d).
  { apply canon_inj; auto. apply q_vec_canon; lia. rewrite q_vec_val; auto. }
  assert (Hlb : last b 1 = d) by (rewrite Eb; apply last_last).
  assert (Hlen : length b = S k).
  { rewrite Eb. unfold q_vec, new_resize. rewrite app_length, repeat_length. cbn [length]; lia. }
  destruct (estimate_spec a b Ha Hb Hnb ltac:(lia)) as [qi [qd [Ee [Hqd [Hl1 [Hl2 [Hle Hcase]]]]]]].
  rewrite Hlb, Hlen in *. cbn [Nat.sub] in *. rewrite Nat.sub_0_r in *.
  pose proof (Bpow_pos (Z.of_nat qi) ltac:(lia)) as HPq.
  assert (Hexact : qd * B ^ Z.of_nat qi * val b <= val a).
  { rewrite Hvb. rewrite Nat2Z.inj_add, Z.pow_add_r in Hle by lia. clear - Hle. lia. }
  assert (Hbpos : 0 < val b) by (rewrite Hvb; apply Z.mul_pos_pos; lia).
  destruct (mul_vec_spec b (q_vec qi qd)) as [m [Em [Hm Hvm]]]; auto;
    [apply q_vec_limbs; lia|apply q_vec_nonnil|]. rewrite q_vec_val in Hvm.
  destruct (std_vec_cmp a m) eqn:Ec.
  1,3: exists (q_vec qi qd), m; (split; [|split; [apply q_vec_canon; lia|split; [auto|
         rewrite q_vec_val; clear - Hqd HPq Hbpos Hexact Hvm; split; [apply Z.mul_pos_pos; lia|split; lia]]]]);
       intros fuel; cbn [jb_div_loop]; rewrite cmp_vec_spec by auto;
       rewrite Ee; cbn [obind]; rewrite Em; cbn [obind]; rewrite Ec;
       destruct (Z.compare_spec (val a) (val b)); [reflexivity|lia|reflexivity].
  (* Lt *)
  assert (Hq2 : 2 <= qd).
  { destruct Hcase as [[Hc1 [Hc2 Hc3]]|[Hc1 [Hc2 Hc3]]].
    - exfalso.
      assert (Hna : a <> []) by (intros ->; cbn in Hl1; lia).
      destruct (exists_last Hna) as [lo [y Ey]].
      assert (Hly : last a 1 = y) by (rewrite Ey; apply last_last). rewrite Hly in *.
      assert (Hlo : length a = S (length lo)) by (rewrite Ey, app_length; cbn; lia).
      assert (Hdq : d * qd <= y) by (rewrite Hc3; apply Z.mul_div_le; lia).
      assert (Hlim : limbs lo /\ limb y).
      { pose proof (canon_limbs a Ha) as Hla. rewrite Ey in Hla. apply limbs_app in Hla as [H1 H2].
        apply limbs_cons in H2. tauto. }
      assert (Emv : m = q_vec (length lo) (d * qd)).
      { apply canon_inj; auto.
        { apply q_vec_canon. split; [apply Z.mul_pos_pos; lia|lia]. }
        rewrite q_vec_val, Hvm, Hvb.
        replace (length lo) with (qi + k)%nat by lia. rewrite Nat2Z.inj_add, Z.pow_add_r by lia. ring. }
      rewrite Emv, Ey in Ec. unfold q_vec, new_resize in Ec.
      exact (std_cmp_top lo (d * qd) y (proj1 Hlim) Hdq Ec).
    - rewrite Hc3. apply Z.div_le_lower_bound; [lia|].
      apply (top_two_lower a d); auto; lia. }
  destruct (mul_vec_spec b (q_vec qi (qd - 1))) as [m' [Em' [Hm' Hvm']]]; auto;
    [apply q_vec_limbs; lia|apply q_vec_nonnil|]. rewrite q_vec_val in Hvm'.
  exists (q_vec qi (qd - 1)), m'.
  clear Hcase Hle Hl1 Hl2.
  split; [|split; [apply q_vec_canon; lia|split; [auto|]]].
  2:{ rewrite q_vec_val. clear - Hq2 HPq Hbpos Hexact Hvm'.
      assert (0 < (qd - 1) * B ^ Z.of_nat qi) by (apply Z.mul_pos_pos; lia).
      assert (0 < B ^ Z.of_nat qi * val b) by (apply Z.mul_pos_pos; lia).
      split; [lia|]. split; lia. }
  intros fuel; cbn [jb_div_loop]; rewrite cmp_vec_spec by auto;
       rewrite Ee; cbn [obind]; rewrite Em; cbn [obind]; rewrite Ec.
  destruct (qd =? 0) eqn:E0; [lia|]. rewrite Em'. cbn [obind].
  destruct (Z.compare_spec (val a) (val b)); [reflexivity|lia|reflexivity].
Qed.

Lemma jb_div_loop_top n : forall a b res k d,
  canon a -> canon b -> canon res -> 0 < d <= 2 ^ 63 -> val b = d * B ^ Z.of_nat k ->
  val a < Z.of_nat n ->
  exists q r, (forall fuel, (n <= fuel)%nat -> jb_div_loop fuel a b res = Ok (q, r)) /\
    canon q /\ canon r /\ val r < val b /\ val q * val b + val r = val res * val b + val a.
Proof.
  induction n as [|n IH]; intros a b res k d Ha Hb Hres Hd Hvb Hn.
  - pose proof (val_nonneg a ltac:(auto)). lia.
  - pose proof (Bpow_pos (Z.of_nat k) ltac:(lia)) as HPk.
    destruct (Z.lt_ge_cases (val a) (val b)) as [Hlt|Hge].
    + exists res, a. split; [|auto].
      intros fuel Hf. destruct fuel as [|fuel]; [lia|].
      cbn [jb_div_loop]. rewrite cmp_vec_spec by auto.
      rewrite (proj2 (Z.compare_lt_iff _ _) Hlt). reflexivity.
    + destruct (jb_div_step a b k d res Ha Hb Hd Hvb ltac:(lia)) as [q0 [m [Hstep [Hq0 [Hm [Hp [Hvm Hle]]]]]]].
      destruct (sub_vec_norm_spec a m Ha Hm Hle) as [Hs Hvs]. unfold sub_vec_norm in *.
      assert (Hdec : val (normalize_vec (sub_vec a m)) < Z.of_nat n).
      { rewrite Hvs, Hvm. assert (0 < val q0 * val b) by nia. lia. }
      assert (Hresq : canon (add_vec res q0)) by (apply add_vec_canon; auto).
      destruct (IH _ _ _ k d Hs Hb Hresq Hd Hvb Hdec) as [q [r [Hq [Hcq [Hcr [Hrb Heq]]]]]].
      exists q, r. split; [|split; [auto|split; [auto|split; [auto|]]]].
      * intros fuel Hf. destruct fuel as [|fuel]; [lia|]. rewrite Hstep. apply Hq. lia.
      * rewrite Heq, add_vec_val, Hvs, Hvm by auto. ring.
Qed.

(** div_mod when |a| >= |b| and |b| = d * 2^(64 k), d <= 2^63 *)
Lemma jb_div_mod_top a b k d : jwf a -> jwf b -> 0 < d <= 2 ^ 63 ->
  Z.abs (jval b) = d * B ^ Z.of_nat k -> Z.abs (jval b) <= Z.abs (jval a) ->
  exists q r f0, (forall fuel, (f0 <= fuel)%nat -> jb_div_mod fuel a b = Ok (q, r)) /\
    jwf q /\ jwf r /\
    jval q = Z.quot (jval a) (jval b) /\
    jval r = Z.sgn (jval b) * Z.rem (jval a) (jval b).
Proof.
  intros Ha Hb Hd Hvb Hge. pose proof (Bpow_pos (Z.of_nat k) ltac:(lia)) as HPk.
  rewrite !jabs in * by auto. pose proof (jwf_nonneg a Ha) as Na. pose proof (jwf_nonneg b Hb) as Nb.
  assert (Hbp : 0 < val (jb_items b)) by nia.
  assert (Hbnz : jval b <> 0) by (rewrite <- (jabs b Hb) in Hbp; lia).
  assert (Hmath : forall q r s, s = mul_sign (jb_sign a) (jb_sign b) ->
     q = val (jb_items a) / val (jb_items b) -> r = val (jb_items a) mod val (jb_items b) ->
     sign_int s * q = Z.quot (jval a) (jval b) /\
     sign_int s * r = Z.sgn (jval b) * Z.rem (jval a) (jval b)).
  { intros q r s -> -> ->. rewrite (jval_sign a), (jval_sign b).
    destruct (jb_sign a), (jb_sign b); cbn [mul_sign sign_eqb sign_int]; rewrite ?Z.mul_1_l;
      rewrite <- ?Z.opp_eq_mul_m1;
      replace (-1 * val (jb_items a)) with (- val (jb_items a)) by lia;
      replace (-1 * val (jb_items b)) with (- val (jb_items b)) by lia.
    + rewrite Z.quot_div_nonneg, Z.rem_mod_nonneg, Z.sgn_pos by lia. lia.
    + rewrite Z.quot_opp_r, Z.rem_opp_r, Z.sgn_neg by lia.
      rewrite Z.quot_div_nonneg, Z.rem_mod_nonneg by lia. lia.
    + rewrite Z.quot_opp_l, Z.rem_opp_l, Z.sgn_pos by lia.
      rewrite Z.quot_div_nonneg, Z.rem_mod_nonneg by lia. lia.
    + rewrite Z.quot_opp_opp, Z.rem_opp_opp, Z.sgn_neg by lia.
      rewrite Z.quot_div_nonneg, Z.rem_mod_nonneg by lia. lia. }
  unfold jb_div_mod. rewrite jb_is_zero_spec by auto. destruct (jval b =? 0) eqn:E0; [lia|].
  rewrite cmp_vec_spec by (apply Ha || apply Hb).
  destruct (Z.compare_spec (val (jb_items a)) (val (jb_items b))) as [E|E|E]; [|lia|].
  - exists (jb_from_u64 (mul_sign (jb_sign a) (jb_sign b)) 1), jb_zero, O.
    destruct (jb_from_u64_spec (mul_sign (jb_sign a) (jb_sign b)) 1 one_lt_B) as [Hw Hv].
    split; [auto|]. split; [auto|]. split; [auto|].
    destruct (Hmath 1 0 _ eq_refl) as [H1 H2].
    { rewrite E, Z.div_same; lia. } { rewrite E, Z.mod_same; lia. }
    rewrite Hv, jb_zero_val. split; [exact H1|]. lia.
  - destruct (jb_div_loop_top (Z.to_nat (val (jb_items a) + 1)) (jb_items a) (jb_items b) [] k d)
      as [q [r [Hq [Hcq [Hcr [Hrb Heq]]]]]]; auto; [apply Ha|apply Hb|lia|].
    exists (new_bigint (mul_sign (jb_sign a) (jb_sign b)) q), (new_bigint (mul_sign (jb_sign a) (jb_sign b)) r),
      (Z.to_nat (val (jb_items a) + 1)).
    split; [intros fuel Hf; rewrite (Hq fuel Hf); reflexivity|].
    split; [apply new_wf; auto|]. split; [apply new_wf; auto|]. rewrite !new_val.
    rewrite val_nil in Heq. pose proof (val_nonneg r ltac:(auto)).
    apply Hmath; auto; [apply Z.div_unique_pos with (r := val r)|apply Z.mod_unique_pos with (q := val q)]; lia.
Qed.

(** |a| < |b|: the returned "remainder" is plus or minus b. *)
Lemma jb_div_mod_small a b fuel : jwf a -> jwf b -> Z.abs (jval a) < Z.abs (jval b) ->
  exists q r, jb_div_mod fuel a b = Ok (q, r) /\ jwf q /\ jwf r /\ jval q = 0 /\
    Z.abs (jval r) = Z.abs (jval b).
Proof.
  intros Ha Hb Hlt. unfold jb_div_mod. rewrite jb_is_zero_spec by auto.
  destruct (jval b =? 0) eqn:E0; [lia|]. rewrite cmp_vec_spec by (apply Ha || apply Hb).
  rewrite !jabs in Hlt by auto. rewrite (proj2 (Z.compare_lt_iff _ _) Hlt).
  eexists _, _. split; [reflexivity|]. split; [auto|]. split; [apply new_wf, Hb|].
  split; [reflexivity|]. rewrite new_val, jabs by auto. pose proof (jwf_nonneg b Hb).
  destruct (mul_sign _ _); cbn [sign_int]; lia.
Qed.

(** Non-termination for two-limb dividends 2^64 + x and one-limb divisors d with quotient 1. *)
Lemma mul_vec_one d qd : 0 < d < B -> 0 <= qd < B -> d * qd < B -> 
  mul_vec [d] [qd] = Ok (normalize_vec [d * qd]).
Proof.
  intros Hd Hq Hp. destruct (mul_vec_spec [d] [qd]) as [m [Em [Hm Hv]]];
    try (apply limbs_cons; split; [lia|auto]); try congruence.
  rewrite Em. f_equal. apply canon_inj; auto.
  - apply normalize_canon, limbs_cons. split; [nia|auto].
  - rewrite Hv, normalize_val, !val_cons, !val_nil. lia.
Qed.

Lemma jb_div_loop_stuck x d : 0 <= x < B -> 2 ^ 63 < d < B -> B + x < 2 * d ->
  forall fuel res, jb_div_loop fuel [x; 1] [d] res = NoFuel.
Proof.
  intros Hx Hd Hlt. pose proof B_val as HB.
  assert (Ca : canon [x; 1]) by (split; [repeat (apply limbs_cons; split; [lia|]); auto|cbn; lia]).
  assert (Cd : canon [d]) by (split; [apply limbs_cons; split; [lia|auto]|cbn; lia]).
  assert (E2 : (B + x) / d = 1) by (symmetry; apply Z.div_unique_pos with (r := B + x - d); lia).
  assert (He : estimate [x; 1] [d] = Ok (0%nat, 1)).
  { unfold estimate. cbn [rev app]. destruct (d <=? 1) eqn:E; [lia|]. cbn [length Nat.sub Nat.add Nat.ltb Nat.leb].
    rewrite Z.mul_1_l, E2. rewrite Z.mod_small by lia. reflexivity. }
  induction fuel as [|fuel IH]; intros res; [reflexivity|]. cbn [jb_div_loop].
  rewrite cmp_vec_spec by auto. rewrite !val_cons, val_nil.
  rewrite (proj2 (Z.compare_gt_iff _ _)) by lia.
  rewrite He. cbn [obind]. change (q_vec 0 1) with [1]. change (q_vec 0 (1 - 1)) with [0].
  rewrite mul_vec_one by lia. cbn [obind]. rewrite Z.mul_1_r.
  rewrite normalize_id by auto. cbn [std_vec_cmp].
  rewrite (proj2 (Z.compare_lt_iff x d)) by lia. cbn [Z.eqb].
  change (1 =? 0) with false. cbn match.
  rewrite mul_vec_one by lia. cbn [obind]. rewrite Z.mul_0_r.
  change (normalize_vec [0]) with (@nil Z).
  destruct (sub_vec_norm_spec [x; 1] [] Ca canon_nil ltac:(rewrite val_nil, !val_cons, val_nil; lia)) as [H1 H2].
  unfold sub_vec_norm in *. rewrite val_nil, Z.sub_0_r in H2. rewrite (canon_inj _ _ H1 Ca H2). apply IH.
Qed.

Lemma jb_div_mod_stuck a b : jwf a -> jwf b ->
  2 ^ 64 <= Z.abs (jval a) < 2 * 2 ^ 64 -> 2 ^ 63 < Z.abs (jval b) < 2 ^ 64 ->
  Z.abs (jval a) < 2 * Z.abs (jval b) -> forall fuel, jb_div_mod fuel a b = NoFuel.
Proof.
  intros Ha Hb H1 H2 H3 fuel. pose proof B_val as HB. rewrite !jabs in * by auto.
  assert (Ea : jb_items a = [val (jb_items a) - B; 1]).
  { apply canon_inj; [apply Ha| |].
    - split; [repeat (apply limbs_cons; split; [lia|]); auto|cbn; lia].
    - rewrite (val_cons (_ - _)), val_one. lia. }
  assert (Eb : jb_items b = [val (jb_items b)]).
  { apply canon_inj; [apply Hb| |].
    - split; [repeat (apply limbs_cons; split; [lia|]); auto|cbn; lia].
    - rewrite (val_cons (val _)), val_nil. lia. }
  unfold jb_div_mod. rewrite jb_is_zero_spec by auto. pose proof (jabs b Hb).
  destruct (jval b =? 0) eqn:E0; [lia|]. rewrite cmp_vec_spec by (apply Ha || apply Hb).
  rewrite (proj2 (Z.compare_gt_iff _ _)) by lia.
  rewrite Ea, Eb. rewrite jb_div_loop_stuck by lia. reflexivity.
Qed.
