(** Proofs about the bitwise operations and shifts of JsBigintModel. *)
From Coq Require Import ZArith List Bool Lia.
From Coq Require Import ZifyBool ZifyNat.
From Verif Require Import Outcome LimbsModel LimbsSpec LimbsProofs ShiftProofs
  BigUintModel BigUintProofs BigIntModel BigIntProofs JsBigintModel BigSpec JsBigintProofs.
Import ListNotations.
Open Scope Z_scope.

(** ** bitwise operations act on blocks of bits independently *)

Lemma testbit_block k x h i : 0 <= k -> 0 <= x < 2 ^ k -> 0 <= i ->
  Z.testbit (x + 2 ^ k * h) i = if i <? k then Z.testbit x i else Z.testbit h (i - k).
Proof.
  intros Hk Hx Hi. destruct (i <? k) eqn:E.
  - rewrite <- (Z.mod_pow2_bits_low (x + 2 ^ k * h) k i) by lia.
    rewrite (Z.mul_comm (2 ^ k)), Z.mod_add by lia. rewrite Z.mod_small by lia. reflexivity.
  - replace i with ((i - k) + k) at 1 by lia.
    rewrite <- Z.div_pow2_bits by lia.
    rewrite (Z.mul_comm (2 ^ k)), Z.div_add by lia. rewrite Z.div_small by lia. reflexivity.
Qed.

Record bitop (f : Z -> Z -> Z) (g : bool -> bool -> bool) : Prop := {
  bo_bits : forall x y i, 0 <= i -> Z.testbit (f x y) i = g (Z.testbit x i) (Z.testbit y i);
  bo_ff : g false false = false;
}.

Lemma bitop_and : bitop Z.land andb.
Proof. split; [intros; apply Z.land_spec|reflexivity]. Qed.
Lemma bitop_or : bitop Z.lor orb.
Proof. split; [intros; apply Z.lor_spec|reflexivity]. Qed.
Lemma bitop_xor : bitop Z.lxor xorb.
Proof. split; [intros; apply Z.lxor_spec|reflexivity]. Qed.

Lemma bitop_range f g k x y : bitop f g -> 0 <= k -> 0 <= x < 2 ^ k -> 0 <= y < 2 ^ k ->
  0 <= f x y < 2 ^ k.
Proof.
  intros [Hb Hff] Hk Hx Hy.
  assert (E : f x y = f x y mod 2 ^ k).
  { apply Z.bits_inj'. intros i Hi. destruct (i <? k) eqn:E.
    - rewrite Z.mod_pow2_bits_low by lia. reflexivity.
    - rewrite Z.mod_pow2_bits_high by lia. rewrite Hb by lia.
      rewrite <- (Z.mod_small x (2 ^ k)), <- (Z.mod_small y (2 ^ k)) by lia.
      rewrite !Z.mod_pow2_bits_high by lia. exact Hff. }
  rewrite E. apply Z.mod_pos_bound. apply Z.pow_pos_nonneg; lia.
Qed.

Lemma bitop_block f g k x y h1 h2 : bitop f g -> 0 <= k -> 0 <= x < 2 ^ k -> 0 <= y < 2 ^ k ->
  f (x + 2 ^ k * h1) (y + 2 ^ k * h2) = f x y + 2 ^ k * f h1 h2.
Proof.
  intros Hop Hk Hx Hy. pose proof (bitop_range f g k x y Hop Hk Hx Hy) as Hr.
  destruct Hop as [Hb Hff]. apply Z.bits_inj'. intros i Hi.
  rewrite Hb by lia. rewrite !testbit_block by auto.
  destruct (i <? k) eqn:E; rewrite Hb by lia; reflexivity.
Qed.

Lemma B_pow2 n : B ^ Z.of_nat n = 2 ^ (64 * Z.of_nat n).
Proof. rewrite B_eq, <- Z.pow_mul_r by lia. reflexivity. Qed.

(** extension of the shorter operand *)
Definition ext (v : list Z) (r : Z) (n : nat) : list Z := v ++ repeat r (n - length v).

Lemma ext_length v r n : (length v <= n)%nat -> length (ext v r n) = n.
Proof. intros. unfold ext. rewrite app_length, repeat_length. lia. Qed.

Lemma zip_repeat_ext long : forall short r, (length short <= length long)%nat ->
  zip_repeat long short r = combine long (ext short r (length long)).
Proof.
  induction long as [|a long IH]; intros short r Hl.
  - reflexivity.
  - cbn [zip_repeat length]. destruct short as [|b short].
    + cbn [tl]. rewrite IH by (cbn; lia). unfold ext. cbn [length app]. rewrite !Nat.sub_0_r. reflexivity.
    + cbn [tl]. cbn [length] in Hl. rewrite IH by lia. reflexivity.
Qed.

Lemma combine_op_val f g a : forall b, bitop f g -> limbs a -> limbs b -> length a = length b ->
  val (map (fun p => f (fst p) (snd p)) (combine a b)) = f (val a) (val b) /\
  limbs (map (fun p => f (fst p) (snd p)) (combine a b)).
Proof.
  induction a as [|x a IH]; intros [|y b] Hop Ha Hb Hl; try discriminate.
  - split; [|constructor]. cbn. symmetry. destruct Hop as [Hbit Hff].
    apply Z.bits_inj'. intros i Hi. rewrite Hbit by lia. rewrite !Z.bits_0. exact Hff.
  - apply limbs_cons in Ha as [Hx Ha]. apply limbs_cons in Hb as [Hy Hb].
    destruct (IH b Hop Ha Hb ltac:(cbn in Hl; lia)) as [Hv Hlm].
    cbn [combine map fst snd]. rewrite !val_cons. rewrite Hv.
    rewrite B_eq in *. split.
    + symmetry. apply (bitop_block f g 64); auto; lia.
    + apply limbs_cons. split; [rewrite B_eq; apply (bitop_range f g 64); auto; lia|auto].
Qed.

(** ** two's complement vectors *)

Definition tval (t : twos) : Z :=
  val (tc_vec t) - match tc_sign t with Positive => 0 | Negative => B ^ Z.of_nat (length (tc_vec t)) end.

Definition topbit (s : sign) : Z := match s with Positive => 0 | Negative => -1 end.

Lemma map_not64 v : limbs v ->
  limbs (map not64 v) /\ val (map not64 v) = B ^ Z.of_nat (length v) - 1 - val v.
Proof.
  induction v as [|d v IH]; intros H.
  - split; [constructor|reflexivity].
  - apply limbs_cons in H as [Hd Hv]. destruct (IH Hv) as [H1 H2]. cbn [map length].
    split.
    + apply limbs_cons. split; [unfold not64; lia|auto].
    + rewrite !val_cons, H2, Nat2Z.inj_succ, Z.pow_succ_r by lia. unfold not64. lia.
Qed.

Lemma to_twos_spec a : jwf a ->
  limbs (tc_vec (to_twos_complement a)) /\ tval (to_twos_complement a) = jval a /\
  length (tc_vec (to_twos_complement a)) = length (jb_items a) /\
  tc_sign (to_twos_complement a) = jb_sign a.
Proof.
  intros H. pose proof H as [Hc _]. unfold to_twos_complement, tval; cbn [tc_sign tc_vec].
  rewrite jval_sign. destruct (jb_sign a) eqn:Es; cbn [sign_int].
  - split; [auto|]. split; [lia|]. auto.
  - pose proof (jwf_neg_pos a H Es) as Hp.
    destruct (map_not64 (sub_vec (jb_items a) [1]) (sub_vec_limbs _ _)) as [H1 H2].
    rewrite map_length, sub_vec_length in *.
    split; [exact H1|]. split; [|auto].
    rewrite H2. rewrite sub_vec_val; auto.
    + rewrite val_one. lia.
    + apply canon_limbs, canon_one.
    + destruct (jb_items a); [rewrite val_nil in Hp; lia|cbn; lia].
    + rewrite val_one; lia.
Qed.

Lemma val_repeat_max n : val (repeat (B - 1) n) = B ^ Z.of_nat n - 1.
Proof.
  induction n as [|n IH]; [reflexivity|]. cbn [repeat]. rewrite val_cons, IH, Nat2Z.inj_succ, Z.pow_succ_r by lia. lia.
Qed.

Lemma limbs_repeat r n : limb r -> limbs (repeat r n).
Proof. intros. induction n; cbn; [constructor|apply limbs_cons; auto]. Qed.

Lemma ext_spec t n : limbs (tc_vec t) -> (length (tc_vec t) <= n)%nat ->
  limbs (ext (tc_vec t) (tc_repeat t) n) /\
  tval t = val (ext (tc_vec t) (tc_repeat t) n) + B ^ Z.of_nat n * topbit (tc_sign t).
Proof.
  intros Hl Hn. pose proof B_val as HB.
  assert (Hr : limb (tc_repeat t)).
  { unfold tc_repeat. destruct (tc_sign t); lia. }
  unfold ext. split; [apply limbs_app; split; [auto|apply limbs_repeat; auto]|].
  rewrite val_app. unfold tval, tc_repeat, topbit. destruct (tc_sign t).
  - rewrite val_repeat0. lia.
  - rewrite val_repeat_max. replace (Z.of_nat n) with (Z.of_nat (length (tc_vec t)) + Z.of_nat (n - length (tc_vec t))) by lia.
    rewrite Z.pow_add_r by lia. lia.
Qed.

Lemma tc_zip_spec f g l r : bitop f g -> (forall x y, f x y = f y x) ->
  limbs (tc_vec l) -> limbs (tc_vec r) ->
  let n := Nat.max (length (tc_vec l)) (length (tc_vec r)) in
  let v := map (fun p => f (fst p) (snd p)) (tc_zip l r) in
  limbs v /\ length v = n /\
  f (tval l) (tval r) = val v + B ^ Z.of_nat n * f (topbit (tc_sign l)) (topbit (tc_sign r)).
Proof.
  intros Hop Hcomm Hl Hr n v.
  destruct (ext_spec l n Hl ltac:(lia)) as [El Tl].
  destruct (ext_spec r n Hr ltac:(lia)) as [Er Tr].
  assert (Hll : length (ext (tc_vec l) (tc_repeat l) n) = n) by (apply ext_length; lia).
  assert (Hlr : length (ext (tc_vec r) (tc_repeat r) n) = n) by (apply ext_length; lia).
  assert (Hself : forall x z, ext x z (length x) = x).
  { intros. unfold ext. rewrite Nat.sub_diag. apply app_nil_r. }
  assert (Hv : limbs v /\ length v = n /\
    val v = f (val (ext (tc_vec l) (tc_repeat l) n)) (val (ext (tc_vec r) (tc_repeat r) n))).
  { subst v. unfold tc_zip. destruct (length (tc_vec l) <? length (tc_vec r))%nat eqn:E.
    - rewrite zip_repeat_ext by lia.
      assert (En : n = length (tc_vec r)) by (subst n; lia).
      rewrite <- En. assert (Ex : ext (tc_vec r) (tc_repeat r) n = tc_vec r) by (rewrite En; apply Hself).
      destruct (combine_op_val f g (tc_vec r) (ext (tc_vec l) (tc_repeat l) n) Hop Hr El ltac:(lia)) as [H1 H2].
      split; [exact H2|]. split; [rewrite map_length, combine_length; lia|].
      rewrite H1, Hcomm, Ex. reflexivity.
    - rewrite zip_repeat_ext by lia.
      assert (En : n = length (tc_vec l)) by (subst n; lia).
      rewrite <- En. assert (Ex : ext (tc_vec l) (tc_repeat l) n = tc_vec l) by (rewrite En; apply Hself).
      destruct (combine_op_val f g (tc_vec l) (ext (tc_vec r) (tc_repeat r) n) Hop Hl Er ltac:(lia)) as [H1 H2].
      split; [exact H2|]. split; [rewrite map_length, combine_length; lia|].
      rewrite H1, Ex. reflexivity. }
  destruct Hv as [H1 [H2 H3]]. split; [auto|]. split; [auto|].
  rewrite H3, Tl, Tr. pose proof (val_bound _ El) as Bl. pose proof (val_bound _ Er) as Br.
  pose proof (val_nonneg _ El). pose proof (val_nonneg _ Er).
  rewrite Hll in Bl. rewrite Hlr in Br. rewrite B_pow2 in *.
  apply (bitop_block f g); auto; lia.
Qed.

(** [from_twos_complement] of a normalized vector of [n] limbs. *)
Lemma from_twos_spec s w n : limbs w -> length w = n -> (s = Negative -> (0 < n)%nat) ->
  let r := from_twos_complement {| tc_sign := s; tc_vec := normalize_vec w |} in
  let R := val w + B ^ Z.of_nat n * topbit s in
  jwf r /\ (jval r = R <-> (0 <= R \/ - R <= B ^ Z.of_nat n - B ^ (Z.of_nat n - 1))).
Proof.
  intros Hw Hn Hpos r R. subst r R. unfold from_twos_complement; cbn [tc_sign tc_vec].
  pose proof (val_bound w Hw) as Hb. pose proof (val_nonneg w Hw) as Hnn. rewrite Hn in Hb.
  destruct s; cbn [topbit].
  - split; [apply new_wf, normalize_canon; auto|].
    rewrite new_val, normalize_val. cbn [sign_int]. split; [left; nia|intros; lia].
  - specialize (Hpos eq_refl).
    pose proof (normalize_canon w Hw) as Hc. pose proof (normalize_val w) as Hv.
    pose proof (normalize_length w) as Hlen.
    set (w' := normalize_vec w) in *.
    destruct (map_not64 (sub_vec w' [1]) (sub_vec_limbs _ _)) as [H1 H2].
    rewrite sub_vec_length in H2.
    assert (Hpow : B ^ Z.of_nat n = B * B ^ (Z.of_nat n - 1)).
    { rewrite <- Z.pow_succ_r by lia. f_equal. lia. }
    pose proof (Bpow_pos (Z.of_nat n - 1) ltac:(lia)) as Hp1. pose proof B_val as HB.
    destruct (list_eq_dec Z.eq_dec w' []) as [Ew|Ew].
    + rewrite Ew. cbn [sub_vec sub_loop map]. change (normalize_vec []) with (@nil Z).
      destruct (jb_from_u64_spec Negative 1 one_lt_B) as [G1 G2]. split; [exact G1|].
      change (match normalize_vec (map not64 (sub_vec [] [1])) with
              | [] => jb_from_u64 Negative 1 | _ :: _ => _ end) with (jb_from_u64 Negative 1).
      rewrite G2. cbn [sign_int]. rewrite Ew, val_nil in Hv. rewrite <- Hv.
      split; intros; nia.
    + pose proof (canon_pos w' Hc Ew) as Hpw. pose proof (canon_lower w' Hc Ew) as Hlow.
      pose proof (val_bound w' ltac:(auto)) as Hbw.
      rewrite sub_vec_val in H2; auto;
        [|apply canon_limbs, canon_one|destruct w'; [congruence|cbn; lia]|rewrite val_one; lia].
      rewrite val_one in H2.
      assert (Hval : val (normalize_vec (map not64 (sub_vec w' [1]))) = B ^ Z.of_nat (length w') - val w').
      { rewrite normalize_val, H2. lia. }
      pose proof (normalize_canon _ H1) as Hcc.
      destruct (normalize_vec (map not64 (sub_vec w' [1]))) as [|x l] eqn:El.
      { rewrite val_nil in Hval. lia. }
      split; [apply new_wf; auto|]. rewrite new_val, Hval. cbn [sign_int].
      assert (Hl' : (length w' <= n)%nat) by lia.
      assert (Hshort : length w' <> n -> B ^ Z.of_nat (length w') <= B ^ (Z.of_nat n - 1)).
      { intros Hq. replace (Z.of_nat n - 1) with (Z.of_nat (n - 1)) by (clear - Hpos; lia).
        apply Bpow_mono. clear - Hl' Hq; lia. }
      assert (Hbig : 2 * B ^ (Z.of_nat n - 1) <= B ^ Z.of_nat n).
      { rewrite Hpow. apply Z.mul_le_mono_nonneg_r; lia. }
      split.
      * intros He. right.
        assert (length w' = n).
        { destruct (Nat.eq_dec (length w') n) as [Hq|Hq]; auto. specialize (Hshort Hq).
          clear - Hshort He Hv Hbig Hp1 Hpw. lia. }
        rewrite H in *. replace (Z.of_nat (n - 1)) with (Z.of_nat n - 1) in Hlow by (clear - Hpos; lia).
        clear - Hlow Hv. lia.
      * intros [He|He]; [clear - He Hb; lia|].
        assert (length w' = n).
        { destruct (Nat.eq_dec (length w') n) as [Hq|Hq]; auto. specialize (Hshort Hq).
          clear - Hshort He Hv Hbig Hp1 Hpw Hbw. lia. }
        rewrite H. clear - Hv. lia.
Qed.

Lemma bitwise_spec f g (mk : twos -> twos -> twos) a b : bitop f g -> (forall x y, f x y = f y x) ->
  (forall l r, exists s, topbit s = f (topbit (tc_sign l)) (topbit (tc_sign r)) /\
     (s = Negative -> tc_sign l = Negative \/ tc_sign r = Negative) /\
     mk l r = {| tc_sign := s;
                 tc_vec := normalize_vec (map (fun p => f (fst p) (snd p)) (tc_zip l r)) |}) ->
  jwf a -> jwf b ->
  let R := f (jval a) (jval b) in
  let n := Z.of_nat (Nat.max (length (jb_items a)) (length (jb_items b))) in
  let r := from_twos_complement (mk (to_twos_complement a) (to_twos_complement b)) in
  jwf r /\ (jval r = R <-> 0 <= R \/ - R <= B ^ n - B ^ (n - 1)).
Proof.
  intros Hop Hcomm Hmk Ha Hb R n r.
  destruct (to_twos_spec a Ha) as [La [Va [Na Sa]]]. destruct (to_twos_spec b Hb) as [Lb [Vb [Nb Sb]]].
  destruct (Hmk (to_twos_complement a) (to_twos_complement b)) as [s [Hs [Hneg Em]]].
  subst r. rewrite Em.
  destruct (tc_zip_spec f g _ _ Hop Hcomm La Lb) as [Hl [Hlen Hf]].
  rewrite Na, Nb in *. rewrite Va, Vb in Hf.
  subst R n. rewrite Hf, <- Hs. apply from_twos_spec; auto.
  intros E. destruct (Hneg E) as [E1|E1].
  - rewrite Sa in E1. pose proof (jwf_neg_pos a Ha E1) as P. destruct (jb_items a); [rewrite val_nil in P; lia|cbn [length]; lia].
  - rewrite Sb in E1. pose proof (jwf_neg_pos b Hb E1) as P. destruct (jb_items b); [rewrite val_nil in P; lia|cbn [length]; lia].
Qed.

Lemma jb_and_spec a b : jwf a -> jwf b ->
  let R := Z.land (jval a) (jval b) in
  let n := Z.of_nat (Nat.max (length (jb_items a)) (length (jb_items b))) in
  jwf (jb_and a b) /\ (jval (jb_and a b) = R <-> 0 <= R \/ - R <= B ^ n - B ^ (n - 1)).
Proof.
  apply (bitwise_spec Z.land andb and_twos a b bitop_and Z.land_comm).
  intros l r. eexists. split; [|split; [|reflexivity]];
  destruct (tc_sign l), (tc_sign r); cbn; auto; try reflexivity; discriminate.
Qed.

Lemma jb_or_spec a b : jwf a -> jwf b ->
  let R := Z.lor (jval a) (jval b) in
  let n := Z.of_nat (Nat.max (length (jb_items a)) (length (jb_items b))) in
  jwf (jb_or a b) /\ (jval (jb_or a b) = R <-> 0 <= R \/ - R <= B ^ n - B ^ (n - 1)).
Proof.
  apply (bitwise_spec Z.lor orb or_twos a b bitop_or Z.lor_comm).
  intros l r. eexists. split; [|split; [|reflexivity]];
  destruct (tc_sign l), (tc_sign r); cbn; auto; try reflexivity; discriminate.
Qed.

Lemma jb_xor_spec a b : jwf a -> jwf b ->
  let R := Z.lxor (jval a) (jval b) in
  let n := Z.of_nat (Nat.max (length (jb_items a)) (length (jb_items b))) in
  jwf (jb_xor a b) /\ (jval (jb_xor a b) = R <-> 0 <= R \/ - R <= B ^ n - B ^ (n - 1)).
Proof.
  apply (bitwise_spec Z.lxor xorb xor_twos a b bitop_xor Z.lxor_comm).
  intros l r. eexists. split; [|split; [|reflexivity]];
  destruct (tc_sign l), (tc_sign r); cbn; auto; try reflexivity; discriminate.
Qed.

(** ** shifts *)

Lemma single_val x : val [x] = x. Proof. rewrite val_cons, val_nil. lia. Qed.

Lemma long_ge x y l : canon (x :: y :: l) -> B <= val (x :: y :: l).
Proof.
  intros Hc. apply canon_cons in Hc as [Hx [Hc _]]. pose proof (canon_pos _ Hc ltac:(congruence)).
  rewrite val_cons. pose proof B_val. nia.
Qed.

Lemma jb_shl_on_u64_spec a n : jwf a -> jb_items a <> [] -> 0 <= n ->
  exists r, jb_shl_on_u64 a n = Ok r /\ jwf r /\ jval r = jval a * 2 ^ n.
Proof.
  intros Ha Hne Hn. unfold jb_shl_on_u64.
  destruct (shl_limbs_spec (jb_items a) n) as [v [Ev [Hc Hv]]]; auto; [apply Ha|congruence|].
  rewrite Ev. cbn [obind]. eexists; split; [reflexivity|]. split; [apply new_wf; auto|].
  rewrite new_val, Hv, jval_sign. ring.
Qed.

Lemma jwf_eta a : jwf a -> new_bigint (jb_sign a) (jb_items a) = a.
Proof.
  intros H. apply jwf_inj; auto; [apply new_wf, H|]. rewrite new_val, jval_sign. reflexivity.
Qed.

Lemma shr_on_big_spec a n : jwf a -> 0 <= n -> Z.abs (jval a) < 2 ^ n ->
  jwf (shr_on_big (jb_sign a)) /\ jval (shr_on_big (jb_sign a)) = jval a / 2 ^ n.
Proof.
  intros Ha Hn Hlt. pose proof (jval_neg_iff a Ha) as Hneg.
  destruct (jb_from_u64_spec Negative 1 one_lt_B) as [Hw Hv].
  unfold shr_on_big. destruct (jb_sign a).
  - split; [auto|]. rewrite jb_zero_val. symmetry. apply Z.div_small.
    destruct (Z.lt_ge_cases (jval a) 0) as [H|H]; [apply Hneg in H; discriminate|lia].
  - assert (jval a < 0) by tauto. split; [auto|]. rewrite Hv.
    apply Z.div_unique_pos with (r := jval a + 2 ^ n); cbn [sign_int]; lia.
Qed.

(** magnitude shifted right; [shr_exact] is the exactness domain of C07 *)
Definition mag_shr (a : jsbigint) (n : Z) : list Z :=
  if (length (jb_items a) <=? Z.to_nat (n / 64))%nat then [] else shr_limbs (jb_items a) n.

Lemma mag_shr_spec a n : canon (jb_items a) -> 0 <= n ->
  canon (mag_shr a n) /\ val (mag_shr a n) <= val (jb_items a) / 2 ^ n /\
  (val (mag_shr a n) = val (jb_items a) / 2 ^ n <-> shr_exact (jb_items a) n).
Proof.
  intros Ca Hn. destruct (bu_shr_spec (jb_items a) n Ca Hn) as [r [Er H]].
  assert (mag_shr a n = r); [|congruence].
  unfold mag_shr. unfold bu_shr in Er. destruct (jb_items a) as [|x l] eqn:Ei.
  - destruct (length [] <=? Z.to_nat (n / 64))%nat eqn:E; [cbn in Er; congruence|cbn in E; lia].
  - cbn [bu_is_zero orb] in Er. destruct (length (x :: l) <=? Z.to_nat (n / 64))%nat; injection Er as <-; reflexivity.
Qed.

Lemma jb_shr_on_u64_mag a n : jwf a ->
  jb_shr_on_u64 a n = match mag_shr a n, jb_sign a with
                      | [], Negative => jb_from_u64 Negative 1
                      | _, s => new_bigint s (mag_shr a n)
                      end.
Proof.
  intros Ha. unfold jb_shr_on_u64, mag_shr.
  destruct (length (jb_items a) <=? Z.to_nat (n / 64))%nat; [|reflexivity].
  destruct (jb_sign a); reflexivity.
Qed.

Lemma ceil_neg m p : 0 < p -> 0 <= m -> - m / p = - (m / p) - (if m mod p =? 0 then 0 else 1).
Proof.
  intros Hp Hm. pose proof (Z.div_mod m p ltac:(lia)) as Hd. pose proof (Z.mod_pos_bound m p Hp).
  destruct (m mod p =? 0) eqn:E.
  - symmetry. apply Z.div_unique_pos with (r := 0); lia.
  - symmetry. apply Z.div_unique_pos with (r := p - m mod p); lia.
Qed.

Lemma shr_exact_pow2 v n : limbs v -> 0 <= n -> val v = 2 ^ n -> shr_exact v n.
Proof.
  intros Hl Hn Hv.
  destruct (Z.eq_dec (n mod 64) 0) as [E|E]; [left; auto|]. right. intros i Hi.
  assert (Hz : nth i v 0 = 0).
  { pose proof (skipn_val v i Hl) as Hs.
    assert (Hlt : val v < B ^ Z.of_nat i).
    { rewrite Hv, pow2_split by lia. pose proof (Z.mod_pos_bound n 64 ltac:(lia)).
      assert (Hle : B ^ (n / 64 + 1) <= B ^ Z.of_nat i) by (apply Z.pow_le_mono_r; pose proof B_val; lia).
      rewrite Z.pow_add_r, Z.pow_1_r in Hle by (try apply Z.div_pos; lia).
      assert (2 ^ (n mod 64) < B) by (rewrite B_eq; apply Z.pow_lt_mono_r; lia).
      pose proof (Bpow_pos (n / 64) ltac:(apply Z.div_pos; lia)). nia. }
    pose proof (val_nonneg v Hl). rewrite Z.div_small in Hs by lia.
    pose proof (skipn_limbs v i Hl) as Hsl.
    assert (Hnth : nth i v 0 = hd 0 (skipn i v)).
    { clear. revert v. induction i; intros [|x v]; cbn; auto. }
    rewrite Hnth. destruct (skipn i v) as [|x w]; [reflexivity|]. cbn [hd].
    apply limbs_cons in Hsl as [Hx Hw]. rewrite val_cons in Hs.
    pose proof (val_nonneg w Hw). pose proof B_val. nia. }
  rewrite Hz. apply Z.mod_0_l. pose proof (Z.mod_pos_bound n 64 ltac:(lia)).
  apply Z.pow_nonzero; lia.
Qed.

Lemma jb_shr_on_u64_spec a n : jwf a -> 0 <= n ->
  jwf (jb_shr_on_u64 a n) /\
  (jval (jb_shr_on_u64 a n) = jval a / 2 ^ n <->
   (0 <= jval a /\ shr_exact (jb_items a) n) \/
   (jval a < 0 /\ (- jval a <= 2 ^ n \/ (jval a mod 2 ^ n = 0 /\ shr_exact (jb_items a) n)))).
Proof.
  intros Ha Hn. rewrite jb_shr_on_u64_mag by auto.
  destruct (mag_shr_spec a n ltac:(apply Ha) Hn) as [Hc [Hle Hex]].
  pose proof (jval_neg_iff a Ha) as Hneg. pose proof (jwf_neg_pos a Ha) as Hpos.
  pose proof (jval_sign a) as Hjv. pose proof (jwf_nonneg a Ha) as Hnn.
  assert (Hp : 0 < 2 ^ n) by (apply Z.pow_pos_nonneg; lia).
  pose proof (val_nonneg (mag_shr a n) ltac:(auto)) as Hmn.
  set (m := val (jb_items a)) in *.
  destruct (jb_sign a) eqn:Es; cbn [sign_int] in Hjv.
  - assert (E : (match mag_shr a n with [] => new_bigint Positive (mag_shr a n)
                 | _ :: _ => new_bigint Positive (mag_shr a n) end) = new_bigint Positive (mag_shr a n))
      by (destruct (mag_shr a n); reflexivity).
    rewrite E. split; [apply new_wf; auto|]. rewrite new_val. cbn [sign_int]. rewrite !Z.mul_1_l in *.
    rewrite Hjv. rewrite Hex. split; [left; split; [lia|auto]|]. intros [[_ H]|[H _]]; [auto|lia].
  - specialize (Hpos eq_refl). assert (Hj : jval a = - m) by lia. rewrite Hj.
    rewrite ceil_neg by lia. pose proof (Z.div_mod m (2 ^ n) ltac:(lia)) as Hdm.
    pose proof (Z.mod_pos_bound m (2 ^ n) Hp) as Hmb.
    assert (Hmod : (- m) mod 2 ^ n = 0 <-> m mod 2 ^ n = 0).
    { split; intros H.
      - apply Z.mod_divide in H; [|lia]. apply Z.mod_divide; [lia|]. apply Z.divide_opp_r. exact H.
      - apply Z.mod_divide in H; [|lia]. apply Z.mod_divide; [lia|]. apply Z.divide_opp_r. exact H. }
    rewrite Hmod.
    assert (Hpw : m = 2 ^ n -> val (mag_shr a n) = 1).
    { intros E. rewrite (proj2 Hex). rewrite E, Z.div_same; lia. apply shr_exact_pow2; auto; [apply Ha]. }
    destruct (mag_shr a n) as [|x l] eqn:Em.
    + destruct (jb_from_u64_spec Negative 1 one_lt_B) as [Hw Hv]. split; [auto|].
      rewrite Hv. cbn [sign_int]. rewrite val_nil in *.
      split.
      * intros H. right. split; [lia|]. left.
        destruct (m mod 2 ^ n =? 0) eqn:E0; nia.
      * intros [[H _]|[_ [H|[H1 H2]]]]; [lia| |].
        -- assert (m < 2 ^ n) by (destruct (Z.eq_dec m (2 ^ n)) as [E|E]; [specialize (Hpw E); lia|lia]).
           rewrite Z.div_small, Z.mod_small by lia. destruct (m =? 0) eqn:E0; lia.
        -- apply Hex in H2. nia.
    + split; [apply new_wf; auto|]. rewrite new_val. cbn [sign_int].
      assert (Hxl : 0 < val (x :: l)) by (apply canon_pos; auto; congruence).
      split.
      * intros H. destruct (m mod 2 ^ n =? 0) eqn:E0; [|lia].
        right. split; [lia|]. right. split; [lia|]. apply Hex. lia.
      * intros [[H _]|[_ [H|[H1 H2]]]]; [lia| |].
        -- assert (m = 2 ^ n) by (destruct (Z.eq_dec m (2 ^ n)); auto; rewrite Z.div_small in Hle; lia).
           rewrite (Hpw H0), H0, Z.div_same, Z.mod_same by lia. reflexivity.
        -- apply Hex in H2. rewrite H2, H1. cbn. lia.
Qed.
