(** Proofs about the shift loops and the quotient estimate of LimbsModel. *)
From Coq Require Import ZArith List Bool Lia.
From Coq Require Import ZifyBool ZifyNat.
From Verif Require Import Outcome LimbsModel LimbsSpec LimbsProofs.
Import ListNotations.
Open Scope Z_scope.

Lemma lor_disjoint a b s : 0 <= s -> 0 <= b < 2 ^ s -> a mod 2 ^ s = 0 -> Z.lor a b = a + b.
Proof.
  intros Hs Hb Ha.
  assert (Hl : Z.land a b = 0).
  { apply Z.bits_inj'. intros n Hn. rewrite Z.land_spec, Z.bits_0.
    destruct (Z.lt_ge_cases n s).
    - replace (Z.testbit a n) with (Z.testbit (a mod 2 ^ s) n) by (apply Z.mod_pow2_bits_low; lia).
      rewrite Ha, Z.bits_0. reflexivity.
    - replace b with (b mod 2 ^ s) by (apply Z.mod_small; lia).
      rewrite Z.mod_pow2_bits_high by lia. apply andb_false_r. }
  rewrite <- Z.lxor_lor by auto. symmetry. apply Z.add_nocarry_lxor. exact Hl.
Qed.

Lemma B_split s : 0 <= s <= 64 -> B = 2 ^ s * 2 ^ (64 - s).
Proof. intros. rewrite <- Z.pow_add_r by lia. rewrite B_eq. f_equal; lia. Qed.

Lemma shl_loop_length s v : length (shl_loop s v) = length v.
Proof.
  induction v as [|d rest IH]; [reflexivity|]. cbn [shl_loop].
  destruct rest as [|d2 rest2]; [reflexivity|].
  destruct (shl_loop s (d2 :: rest2)) as [|e rest']; [simpl in IH; lia|].
  cbn [length] in *. lia.
Qed.

Lemma shl_loop_spec s v : 0 < s < 64 -> limbs v ->
  exists e r, shl_loop s (v ++ [0]) = e :: r /\ limbs (e :: r) /\ e mod 2 ^ s = 0 /\
              val (e :: r) = val v * 2 ^ s.
Proof.
  intros Hs. pose proof (B_split s ltac:(lia)) as HBs. pose proof B_val as HB.
  assert (H2 : 0 < 2 ^ s) by (apply Z.pow_pos_nonneg; lia).
  assert (H3 : 0 < 2 ^ (64 - s)) by (apply Z.pow_pos_nonneg; lia).
  induction v as [|d v IH]; intros Hl.
  - exists 0, []. cbn [app shl_loop]. repeat split; auto.
    + apply limbs_cons; split; [lia|auto].
  - apply limbs_cons in Hl as [Hd Hl].
    destruct (IH Hl) as [e [r [Er [Hlr [Hm Hv]]]]].
    assert (Hs1 : shl_loop s ((d :: v) ++ [0]) =
              (d * 2 ^ s) mod B :: Z.lor e (d * 2 ^ s / B) :: r).
    { cbn [app]. cbn [shl_loop]. destruct (v ++ [0]) as [|x y] eqn:E.
      - destruct v; discriminate.
      - rewrite Er. reflexivity. }
    assert (Hq : 0 <= d * 2 ^ s / B < 2 ^ s).
    { split; [apply Z.div_pos; nia|apply Z.div_lt_upper_bound; nia]. }
    apply limbs_cons in Hlr as [He Hlr].
    rewrite (lor_disjoint e (d * 2 ^ s / B) s ltac:(lia) Hq Hm) in Hs1.
    eexists _, _. split; [exact Hs1|].
    assert (Hmul : exists k, e = k * 2 ^ s) by (exists (e / 2 ^ s); pose proof (Z.div_mod e (2 ^ s) ltac:(lia)); lia).
    destruct Hmul as [k Hk].
    split; [|split].
    + apply limbs_cons; split; [apply Z.mod_pos_bound; lia|].
      apply limbs_cons; split; auto.
      assert (Hk1 : k < 2 ^ (64 - s)) by nia.
      assert (Hk2 : (k + 1) * 2 ^ s <= 2 ^ (64 - s) * 2 ^ s) by (apply Z.mul_le_mono_nonneg_r; lia).
      lia.
    + (* a multiple of 2^s modulo B = 2^s * 2^(64-s) *)
      rewrite HBs, (Z.mul_comm (2 ^ s)), Z.mul_mod_distr_r by lia.
      apply Z.mod_mul; lia.
    + rewrite !val_cons in *. pose proof (Z.div_mod (d * 2 ^ s) B ltac:(lia)). nia.
Qed.

Lemma land63 n : 0 <= n -> Z.land n (2 ^ 6 - 1) = n mod 64.
Proof. intros. replace (2 ^ 6 - 1) with (Z.ones 6) by reflexivity. rewrite Z.land_ones by lia. reflexivity. Qed.

Lemma pow2_split n : 0 <= n -> 2 ^ n = B ^ (n / 64) * 2 ^ (n mod 64).
Proof.
  intros. rewrite B_eq, <- Z.pow_mul_r, <- Z.pow_add_r by
    (try apply Z.mul_nonneg_nonneg; try apply Z.div_pos; try apply Z.mod_pos_bound; lia).
  f_equal. pose proof (Z.div_mod n 64 ltac:(lia)). lia.
Qed.

Theorem shl_limbs_spec v n : limbs v -> 0 <= n -> (v = [] -> n mod 64 = 0) ->
  exists r, shl_limbs v n = Ok r /\ canon r /\ val r = val v * 2 ^ n.
Proof.
  intros Hl Hn Hne. unfold shl_limbs. rewrite land63 by auto.
  assert (H0 : exists w, (if 0 <? n mod 64 then
               match v with [] => Panic | _ :: _ => Ok (shl_loop (n mod 64) (v ++ [0])) end
               else Ok v) = Ok w /\ limbs w /\ val w = val v * 2 ^ (n mod 64)).
  { pose proof (Z.mod_pos_bound n 64 ltac:(lia)).
    destruct (0 <? n mod 64) eqn:E.
    - destruct v as [|d v]; [specialize (Hne eq_refl); lia|].
      destruct (shl_loop_spec (n mod 64) (d :: v) ltac:(lia) Hl) as [e [r [Er [Hlr [_ Hv]]]]].
      rewrite Er. eexists; split; [reflexivity|]. auto.
    - replace (n mod 64) with 0 by lia. eexists; split; [reflexivity|]. split; auto.
      change (2 ^ 0) with 1; lia. }
  destruct H0 as [w [Ew [Hw Hvw]]]. rewrite Ew. cbn [obind].
  eexists; split; [reflexivity|].
  assert (Hlim : limbs (new_resize (Z.to_nat (n / 64)) ++ w)).
  { apply limbs_app; split; auto. apply limbs_repeat0. }
  split; [apply normalize_canon; auto|].
  rewrite normalize_val, val_app. unfold new_resize. rewrite val_repeat0, repeat_length, Hvw.
  rewrite (pow2_split n) by auto. rewrite Z2Nat.id by (apply Z.div_pos; lia). ring.
Qed.

(** ** right shift *)

Lemma land_pow2_mask e s : 0 < s -> 0 <= e ->
  0 <= Z.land e (2 ^ (s - 1)) <= e mod 2 ^ s /\
  (Z.land e (2 ^ (s - 1)) = e mod 2 ^ s <-> e mod 2 ^ (s - 1) = 0).
Proof.
  intros Hs He.
  set (p := 2 ^ (s - 1)). assert (Hp : 0 < p) by (apply Z.pow_pos_nonneg; lia).
  assert (H2p : 2 ^ s = p * 2).
  { unfold p. rewrite <- (Z.pow_1_r 2) at 3. rewrite <- Z.pow_add_r by lia. f_equal; lia. }
  assert (Hland : Z.land e p = p * ((e / p) mod 2)).
  { unfold p. apply Z.bits_inj'. intros i Hi. rewrite Z.land_spec.
    rewrite Z.mul_comm, <- Z.shiftl_mul_pow2 by lia. rewrite Z.shiftl_spec by lia.
    rewrite <- Z.shiftr_div_pow2 by lia.
    change (?x mod 2) with (x mod 2 ^ 1).
    destruct (Z.eq_dec i (s - 1)) as [->|Hneq].
    - rewrite Z.pow2_bits_true by lia. rewrite Z.sub_diag.
      rewrite Z.mod_pow2_bits_low by lia. rewrite Z.shiftr_spec by lia.
      rewrite andb_true_r. f_equal; lia.
    - rewrite Z.pow2_bits_false by lia. rewrite andb_false_r.
      destruct (Z.lt_ge_cases i (s - 1)).
      + rewrite Z.testbit_neg_r by lia. reflexivity.
      + rewrite Z.mod_pow2_bits_high by lia. reflexivity. }
  assert (Hmod : e mod 2 ^ s = e mod p + p * ((e / p) mod 2)).
  { rewrite H2p. rewrite Z.rem_mul_r by lia. reflexivity. }
  pose proof (Z.mod_pos_bound e p Hp). pose proof (Z.mod_pos_bound (e / p) 2 ltac:(lia)).
  rewrite Hland, Hmod. split; [nia|]. lia.
Qed.

Lemma val_mod_hd e v s : 0 <= s <= 64 -> val (e :: v) mod 2 ^ s = e mod 2 ^ s.
Proof.
  intros Hs. rewrite val_cons. rewrite (B_split s) by lia.
  replace (e + 2 ^ s * 2 ^ (64 - s) * val v) with (e + (2 ^ (64 - s) * val v) * 2 ^ s) by ring.
  apply Z.mod_add. assert (0 < 2 ^ s) by (apply Z.pow_pos_nonneg; lia). lia.
Qed.

Lemma shr_loop_spec s v : 0 < s < 64 -> limbs v ->
  limbs (shr_loop s (2 ^ (s - 1)) v) /\
  val (shr_loop s (2 ^ (s - 1)) v) <= val v / 2 ^ s /\
  (val (shr_loop s (2 ^ (s - 1)) v) = val v / 2 ^ s <->
   Forall (fun e => e mod 2 ^ (s - 1) = 0) (tl v)).
Proof.
  intros Hs. pose proof (B_split s ltac:(lia)) as HBs. pose proof B_val as HB.
  assert (H2 : 0 < 2 ^ s) by (apply Z.pow_pos_nonneg; lia).
  assert (H3 : 0 < 2 ^ (64 - s)) by (apply Z.pow_pos_nonneg; lia).
  induction v as [|d v IH]; intros Hl.
  - cbn [shr_loop tl]. rewrite val_nil. split; auto. rewrite Z.div_0_l by lia.
    split; [lia|]. split; auto.
  - apply limbs_cons in Hl as [Hd Hl]. cbn [tl].
    assert (Hdq : 0 <= d / 2 ^ s < 2 ^ (64 - s)).
    { split; [apply Z.div_pos; lia|apply Z.div_lt_upper_bound; lia]. }
    cbn [shr_loop]. destruct v as [|e v].
    + rewrite Z.shiftr_div_pow2 by lia. rewrite !val_cons, !val_nil.
      rewrite !Z.mul_0_r, !Z.add_0_r.
      split; [apply limbs_cons; split; auto|].
      { assert (2 ^ (64 - s) <= B) by nia. lia. }
      split; [lia|]. split; auto.
    + specialize (IH Hl). destruct IH as [IHl [IHle IHeq]].
      pose proof Hl as Hl'. apply limbs_cons in Hl' as [He Hl2].
      destruct (land_pow2_mask e s ltac:(lia) ltac:(lia)) as [Hm1 Hm2].
      rewrite Z.shiftr_div_pow2 by lia. rewrite Z.shiftl_mul_pow2 by lia.
      set (g := Z.land e (2 ^ (s - 1))) in *.
      pose proof (Z.mod_pos_bound e (2 ^ s) H2) as Hmb.
      assert (Hg : 0 <= g * 2 ^ (64 - s) < B) by nia.
      rewrite (Z.mod_small (g * 2 ^ (64 - s))) by exact Hg.
      rewrite Z.lor_comm. rewrite (lor_disjoint (g * 2 ^ (64 - s)) (d / 2 ^ s) (64 - s));
        [|lia|lia|apply Z.mod_mul; lia].
      split; [apply limbs_cons; split; [nia|exact IHl]|].
      rewrite val_cons.
      assert (Hdiv : val (d :: e :: v) / 2 ^ s
         = d / 2 ^ s + (e mod 2 ^ s) * 2 ^ (64 - s) + B * (val (e :: v) / 2 ^ s)).
      { rewrite (val_cons d). symmetry. apply Z.div_unique_pos with (r := d mod 2 ^ s).
        { apply Z.mod_pos_bound; lia. }
        pose proof (Z.div_mod d (2 ^ s) ltac:(lia)).
        pose proof (Z.div_mod (val (e :: v)) (2 ^ s) ltac:(lia)) as Hv.
        rewrite val_mod_hd in Hv by lia.
        rewrite Hv at 1. rewrite HBs. nia. }
      rewrite Hdiv. cbn [tl] in IHeq.
      split.
      { clear - Hm1 IHle H3 HB.
        set (x := val (shr_loop s (2 ^ (s - 1)) (e :: v))) in *.
        set (y := val (e :: v) / 2 ^ s) in *. set (h := e mod 2 ^ s) in *. set (p := 2 ^ (64 - s)) in *.
        assert (g * p <= h * p) by (apply Z.mul_le_mono_nonneg_r; lia). rewrite HB. lia. }
      rewrite Forall_cons_iff. rewrite <- IHeq, <- Hm2. split.
      * intros Heq.
        set (x := val (shr_loop s (2 ^ (s - 1)) (e :: v))) in *.
        set (y := val (e :: v) / 2 ^ s) in *.
        assert (Hxy : x = y) by nia. split; [|exact Hxy].
        rewrite Hxy in Heq. nia.
      * intros [Hg1 Hg2]. rewrite Hg1, Hg2. ring.
Qed.

Lemma skipn_val v k : limbs v -> val (skipn k v) = val v / B ^ Z.of_nat k.
Proof.
  intros Hl. destruct (Nat.le_gt_cases (length v) k) as [H|H].
  - rewrite skipn_all2 by lia. rewrite val_nil. symmetry. apply Z.div_small.
    pose proof (val_nonneg v Hl). pose proof (val_bound v Hl).
    pose proof (Bpow_mono (length v) k H). lia.
  - rewrite <- (firstn_skipn k v) at 2. rewrite val_app. rewrite firstn_length, Nat.min_l by lia.
    assert (Hf : limbs (firstn k v)).
    { rewrite <- (firstn_skipn k v) in Hl. apply limbs_app in Hl; tauto. }
    pose proof (val_nonneg _ Hf). pose proof (val_bound _ Hf) as Hb.
    rewrite firstn_length, Nat.min_l in Hb by lia.
    apply Z.div_unique_pos with (r := val (firstn k v)); lia.
Qed.

Lemma skipn_limbs v k : limbs v -> limbs (skipn k v).
Proof. intros Hl. rewrite <- (firstn_skipn k v) in Hl. apply limbs_app in Hl; tauto. Qed.

(** The exact domain on which the right shift of the limb vector is right: every limb
    above the one that becomes the lowest has its lowest [n mod 64 - 1] bits zero. *)
Lemma Forall_tl_skipn (P : Z -> Prop) v k : P 0 ->
  (Forall P (tl (skipn k v)) <-> forall i, (k < i)%nat -> P (nth i v 0)).
Proof.
  intros P0.
  assert (Ht : tl (skipn k v) = skipn (S k) v).
  { clear P0. revert v; induction k as [|k IH]; intros [|d v]; try reflexivity. apply IH. }
  rewrite Ht. clear Ht. split.
  - intros H i Hi. rewrite Forall_forall in H.
    destruct (Nat.lt_ge_cases i (length v)) as [Hlt|Hge].
    + apply H. replace (nth i v 0) with (nth (i - S k) (skipn (S k) v) 0).
      * apply nth_In. rewrite skipn_length. lia.
      * rewrite <- (firstn_skipn (S k) v) at 2.
        rewrite app_nth2 by (rewrite firstn_length; lia).
        rewrite firstn_length, Nat.min_l by lia. reflexivity.
    + rewrite nth_overflow by lia. exact P0.
  - intros H. rewrite Forall_forall. intros x Hx.
    destruct (In_nth _ _ 0 Hx) as [j [Hj <-]]. rewrite skipn_length in Hj.
    replace (nth j (skipn (S k) v) 0) with (nth (S k + j) v 0).
    + apply H. lia.
    + rewrite <- (firstn_skipn (S k) v) at 1.
      rewrite app_nth2 by (rewrite firstn_length; lia).
      rewrite firstn_length, Nat.min_l by lia. f_equal; lia.
Qed.

Theorem shr_limbs_spec v n : limbs v -> 0 <= n ->
  canon (shr_limbs v n) /\ val (shr_limbs v n) <= val v / 2 ^ n /\
  (val (shr_limbs v n) = val v / 2 ^ n <-> shr_exact v n).
Proof.
  intros Hl Hn. unfold shr_limbs. rewrite land63 by auto.
  pose proof (skipn_limbs v (Z.to_nat (n / 64)) Hl) as Hsl.
  pose proof (skipn_val v (Z.to_nat (n / 64)) Hl) as Hsv.
  rewrite Z2Nat.id in Hsv by (apply Z.div_pos; lia).
  pose proof (Z.mod_pos_bound n 64 ltac:(lia)) as Hmb.
  assert (H2 : 0 < 2 ^ (n mod 64)) by (apply Z.pow_pos_nonneg; lia).
  assert (H3 : 0 < B ^ (n / 64)) by (apply Bpow_pos, Z.div_pos; lia).
  assert (Hdd : val v / 2 ^ n = val (skipn (Z.to_nat (n / 64)) v) / 2 ^ (n mod 64)).
  { rewrite Hsv, Z.div_div by lia. rewrite <- pow2_split by lia. reflexivity. }
  rewrite Hdd. rewrite normalize_val.
  destruct (0 <? n mod 64) eqn:E.
  - destruct (shr_loop_spec (n mod 64) (skipn (Z.to_nat (n / 64)) v) ltac:(lia) Hsl) as [Ha [Hb Hc]].
    split; [apply normalize_canon; auto|]. split; [auto|].
    rewrite Hc. rewrite Forall_tl_skipn.
    2:{ apply Z.mod_0_l. assert (0 < 2 ^ (n mod 64 - 1)) by (apply Z.pow_pos_nonneg; lia). lia. }
    unfold shr_exact. pose proof (Z.div_pos n 64 Hn ltac:(lia)). split.
    + intros H0. right. intros i Hi. apply H0. lia.
    + intros [H0|H0]; [lia|]. intros i Hi. apply H0. lia.
  - assert (E0 : n mod 64 = 0) by lia. rewrite E0. change (2 ^ 0) with 1. rewrite Z.div_1_r.
    split; [apply normalize_canon; auto|]. split; [lia|].
    split; intros; [left; exact E0|reflexivity].
Qed.

(** ** the quotient estimate *)

Lemma rev_last (v : list Z) h t : rev v = h :: t -> v = rev t ++ [h].
Proof. intros H. rewrite <- (rev_involutive v), H. reflexivity. Qed.

Lemma estimate_spec a b : canon a -> canon b -> b <> [] -> val b <= val a ->
  exists qi qd, estimate a b = Ok (qi, qd) /\ 1 <= qd < B /\
    (length b <= length a)%nat /\ (qi + length b <= length a)%nat /\
    last b 1 * qd * B ^ Z.of_nat (qi + (length b - 1)) <= val a /\
    ((last b 1 <= last a 1 /\ qi = (length a - length b)%nat /\ qd = last a 1 / last b 1) \/
     (last a 1 < last b 1 /\ (qi + length b + 1 = length a)%nat /\
      qd = val (skipn (length a - 2) a) / last b 1)).
Proof.
  intros Ha Hb Hnb Hge. pose proof B_val as HB.
  assert (Hlen : (length b <= length a)%nat) by (apply canon_len_le; auto).
  assert (Hna : a <> []) by (intros ->; destruct b; [congruence|simpl in Hlen; lia]).
  unfold estimate.
  destruct (rev a) as [|ah ar] eqn:Era.
  { exfalso. apply Hna. rewrite <- (rev_involutive a), Era. reflexivity. }
  destruct (rev b) as [|bh br] eqn:Erb.
  { exfalso. apply Hnb. rewrite <- (rev_involutive b), Erb. reflexivity. }
  apply rev_last in Era. apply rev_last in Erb.
  assert (Hlasta : last a 1 = ah) by (rewrite Era; apply last_last).
  assert (Hlastb : last b 1 = bh) by (rewrite Erb; apply last_last).
  rewrite Hlasta, Hlastb.
  assert (Hbh : 0 < bh < B).
  { destruct Hb as [Hbl Hb0]. rewrite Hlastb in Hb0. rewrite Erb in Hbl.
    apply limbs_app in Hbl as [_ Hbl]. apply limbs_cons in Hbl. lia. }
  assert (Hah : 0 < ah < B).
  { destruct Ha as [Hal Ha0]. rewrite Hlasta in Ha0. rewrite Era in Hal.
    apply limbs_app in Hal as [_ Hal]. apply limbs_cons in Hal. lia. }
  assert (Hla : length a = S (length ar)) by (rewrite Era, app_length, rev_length; cbn [length]; lia).
  assert (Hlb : length b = S (length br)) by (rewrite Erb, app_length, rev_length; cbn [length]; lia).
  assert (Hal : limbs (rev ar)) by (pose proof (canon_limbs a Ha) as H; rewrite Era in H; apply limbs_app in H; tauto).
  assert (Hbl : limbs (rev br)) by (pose proof (canon_limbs b Hb) as H; rewrite Erb in H; apply limbs_app in H; tauto).
  assert (Hva : val a = val (rev ar) + B ^ Z.of_nat (length ar) * ah).
  { rewrite Era at 1. rewrite val_app, rev_length, val_cons, val_nil. ring. }
  assert (Hvb : val b = val (rev br) + B ^ Z.of_nat (length br) * bh).
  { rewrite Erb at 1. rewrite val_app, rev_length, val_cons, val_nil. ring. }
  pose proof (val_nonneg _ Hal) as Hnn.
  destruct (bh <=? ah) eqn:Ecmp.
  - destruct (length a - 1 <? length b - 1)%nat eqn:E1; [lia|].
    destruct (bh =? 0) eqn:E2; [lia|].
    exists (length a - 1 - (length b - 1))%nat, (ah / bh). split; [reflexivity|].
    assert (Hq1 : 1 <= ah / bh) by (apply Z.div_le_lower_bound; lia).
    assert (Hq2 : ah / bh < B) by (apply Z.div_lt_upper_bound; nia).
    split; [lia|]. split; [lia|]. split; [lia|]. split.
    + replace (length a - 1 - (length b - 1) + (length b - 1))%nat with (length ar) by lia.
      pose proof (Z.mul_div_le ah bh ltac:(lia)).
      pose proof (Bpow_pos (Z.of_nat (length ar)) ltac:(lia)). nia.
    + left. split; [lia|]. split; [lia|reflexivity].
  - (* the top limb of a is smaller: a is longer *)
    assert (Hlt : (length b < length a)%nat).
    { destruct (Nat.eq_dec (length a) (length b)) as [Heq|Hneq]; [|lia].
      exfalso. replace (length br) with (length ar) in * by lia.
      pose proof (val_bound _ Hal) as Hub. rewrite rev_length in Hub.
      pose proof (val_nonneg _ Hbl).
      pose proof (Bpow_pos (Z.of_nat (length ar)) ltac:(lia)). nia. }
    destruct ar as [|an ar']; [cbn [length] in *; lia|].
    destruct (length a - 1 <? length b - 1 + 1)%nat eqn:E1; [lia|].
    cbn [rev] in Hal, Hva, Era, Hnn. rewrite <- app_assoc in Era. cbn [app] in Era.
    apply limbs_app in Hal as [Hal Han]. apply limbs_cons in Han as [Han _].
    rewrite val_app, rev_length, val_cons, val_nil in Hva. cbn [length] in Hva, Hla.
    rewrite Bpow_S in Hva. pose proof (val_nonneg _ Hal) as Hnn2.
    set (P := B ^ Z.of_nat (length ar')) in *.
    assert (HP : 0 < P) by (apply Bpow_pos; lia).
    assert (Hq1 : 1 <= (ah * B + an) / bh) by (apply Z.div_le_lower_bound; nia).
    assert (Hq2 : (ah * B + an) / bh < B) by (apply Z.div_lt_upper_bound; nia).
    rewrite (Z.mod_small _ B) by lia.
    exists (length a - 1 - (length b - 1) - 1)%nat, ((ah * B + an) / bh). split; [reflexivity|].
    split; [lia|]. split; [lia|]. split; [lia|]. split.
    + replace (length a - 1 - (length b - 1) - 1 + (length b - 1))%nat with (length ar') by lia.
      fold P. pose proof (Z.mul_div_le (ah * B + an) bh ltac:(lia)). nia.
    + right. split; [lia|]. split; [lia|].
      assert (Hsk : skipn (length a - 2) a = [an; ah]).
      { rewrite Era. rewrite skipn_app, rev_length.
        rewrite skipn_all2 by (rewrite app_length, rev_length; cbn [length]; lia).
        rewrite app_length, rev_length. cbn [length].
        replace (length ar' + 2 - 2 - length ar')%nat with O by lia. reflexivity. }
      rewrite Hsk, !val_cons, val_nil. f_equal; ring.
Qed.

Lemma q_vec_val qi qd : val (q_vec qi qd) = qd * B ^ Z.of_nat qi.
Proof. unfold q_vec, new_resize. rewrite val_app, val_repeat0, repeat_length, val_cons, val_nil. ring. Qed.

Lemma q_vec_limbs qi qd : limb qd -> limbs (q_vec qi qd).
Proof. intros. apply limbs_app; split; [apply limbs_repeat0|]. apply limbs_cons; auto. Qed.

Lemma q_vec_canon qi qd : 0 < qd < B -> canon (q_vec qi qd).
Proof.
  intros. split; [apply q_vec_limbs; lia|]. unfold q_vec. rewrite last_last. lia.
Qed.

Lemma q_vec_nonnil qi qd : q_vec qi qd <> [].
Proof. unfold q_vec. intros H. destruct (new_resize qi); discriminate. Qed.
