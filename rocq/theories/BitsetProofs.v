(** Proofs about bit subsets and boxed values. *)
From Coq Require Import ZArith List Bool Lia.
From Coq Require Import ZifyBool.
From Verif Require Import Outcome VTac BitsetModel BitsetSpec.
Import ListNotations.
Open Scope Z_scope.

(** ** Bits of 64-bit values *)
Lemma u64v_high v i : u64v v -> 64 <= i -> Z.testbit v i = false.
Proof.
  intros [H0 H1] Hi. destruct (Z.eq_dec v 0) as [->|]; [apply Z.bits_0|]. apply Z.bits_above_log2; [lia|].
  apply Z.lt_le_trans with 64; [|lia]. apply Z.log2_lt_pow2; lia.
Qed.
Lemma u64v_bits v : 0 <= v -> (forall i, 64 <= i -> Z.testbit v i = false) -> u64v v.
Proof.
  intros H0 H. split; [exact H0|].
  assert (E : v = v mod 2 ^ 64).
  { apply Z.bits_inj'. intros i Hi. rewrite Z.testbit_mod_pow2 by lia. destruct (Z.ltb_spec i 64); [reflexivity|]. rewrite H by lia. reflexivity. }
  rewrite E. apply Z.mod_pos_bound. lia.
Qed.
Lemma ones64 i : 0 <= i -> Z.testbit (2 ^ 64 - 1) i = (i <? 64).
Proof.
  intros Hi. change (2 ^ 64 - 1) with (Z.ones 64). destruct (Z.ltb_spec i 64).
  - apply Z.ones_spec_low. lia.
  - apply Z.ones_spec_high. lia.
Qed.
Lemma u64_not_bit v i : 0 <= i -> Z.testbit (u64_not v) i = xorb (Z.testbit v i) (i <? 64).
Proof. intros Hi. unfold u64_not. rewrite Z.lxor_spec, ones64 by exact Hi. reflexivity. Qed.

Lemma u64v_not v : u64v v -> u64v (u64_not v).
Proof.
  intros H. apply u64v_bits.
  - unfold u64_not. apply Z.lxor_nonneg. split; intros; [lia|destruct H; assumption].
  - intros i Hi. rewrite u64_not_bit by lia. rewrite (u64v_high v i H Hi). destruct (Z.ltb_spec i 64); [lia|reflexivity].
Qed.
Lemma u64v_land a b : u64v a -> u64v b -> u64v (Z.land a b).
Proof.
  intros Ha Hb. apply u64v_bits; [apply Z.land_nonneg; left; apply Ha|].
  intros i Hi. rewrite Z.land_spec, (u64v_high a i Ha Hi). reflexivity.
Qed.
Lemma u64v_lor a b : u64v a -> u64v b -> u64v (Z.lor a b).
Proof.
  intros Ha Hb. apply u64v_bits; [apply Z.lor_nonneg; split; [apply Ha|apply Hb]|].
  intros i Hi. rewrite Z.lor_spec, (u64v_high a i Ha Hi), (u64v_high b i Hb Hi). reflexivity.
Qed.
Lemma u64v_lxor a b : u64v a -> u64v b -> u64v (Z.lxor a b).
Proof.
  intros Ha Hb. apply u64v_bits; [apply Z.lxor_nonneg; split; intros; [apply Hb|apply Ha]|].
  intros i Hi. rewrite Z.lxor_spec, (u64v_high a i Ha Hi), (u64v_high b i Hb Hi). reflexivity.
Qed.
Lemma neg_bit_false v i : i < 0 -> Z.testbit v i = false.
Proof. apply Z.testbit_neg_r. Qed.

(** ** Patterns *)
Lemma land_tag tag mask : Z.land mask tag = tag <-> forall i, Z.testbit tag i = true -> Z.testbit mask i = true.
Proof.
  split.
  - intros E i Hi. rewrite <- E, Z.land_spec in Hi. apply andb_true_iff in Hi as [H _]. exact H.
  - intros H. apply Z.bits_inj'. intros i _. rewrite Z.land_spec. specialize (H i).
    destruct (Z.testbit tag i); [rewrite H by reflexivity; reflexivity|apply andb_false_r].
Qed.
Lemma from_tag_and_mask_ok tag mask :
  (forall i, Z.testbit tag i = true -> Z.testbit mask i = true) -> from_tag_and_mask tag mask = Ok {| bs_tag := tag; bs_mask := mask |}.
Proof. intros H. unfold from_tag_and_mask. apply land_tag in H. rewrite H, Z.eqb_refl. reflexivity. Qed.
Lemma from_tag_and_mask_panic tag mask i : Z.testbit tag i = true -> Z.testbit mask i = false -> from_tag_and_mask tag mask = Panic.
Proof.
  intros H1 H2. unfold from_tag_and_mask. destruct (Z.eqb_spec (Z.land mask tag) tag) as [E|]; [|reflexivity].
  exfalso. rewrite (proj1 (land_tag tag mask) E i H1) in H2. discriminate.
Qed.

Lemma has_member s v : pattern s -> u64v v -> has s v = true <-> member s v.
Proof.
  intros (Ht & Hm & Hs) Hv. unfold has. rewrite Z.eqb_eq. split.
  - intros E. split; [exact Hv|]. intros i Hi. rewrite <- E, Z.land_spec, Hi, andb_true_r. reflexivity.
  - intros [_ H]. apply Z.bits_inj'. intros i _. rewrite Z.land_spec. destruct (Z.testbit (bs_mask s) i) eqn:Ei.
    + rewrite andb_true_r. apply H, Ei.
    + rewrite andb_false_r. destruct (Z.testbit (bs_tag s) i) eqn:Et; [|reflexivity]. rewrite (Hs i Et) in Ei. discriminate.
Qed.
Lemma has_not_member s v : pattern s -> u64v v -> has s v = false <-> ~ member s v.
Proof. intros Hs Hv. rewrite <- (has_member s v Hs Hv). destruct (has s v); split; congruence. Qed.

Lemma tag_member s : pattern s -> member s (bs_tag s).
Proof. intros (Ht & _). split; [exact Ht|reflexivity]. Qed.
(** Flipping free bits stays inside. *)
Lemma free_member s v f : pattern s -> member s v -> u64v f -> (forall i, Z.testbit f i = true -> Z.testbit (bs_mask s) i = false) ->
  member s (Z.lxor v f).
Proof.
  intros Hs [Hv H] Hf Hfree. split; [apply u64v_lxor; assumption|]. intros i Hi. rewrite Z.lxor_spec, (H i Hi).
  destruct (Z.testbit f i) eqn:E; [rewrite (Hfree i E) in Hi; discriminate|]. apply xorb_false_r.
Qed.
Lemma bit_u64v i : 0 <= i < 64 -> u64v (2 ^ i).
Proof. intros H. split; [apply Z.pow_nonneg; lia|]. apply Z.pow_lt_mono_r; lia. Qed.
Lemma bit_is i j : 0 <= i -> Z.testbit (2 ^ i) j = (j =? i).
Proof. intros H. destruct (Z.eqb_spec j i) as [->|]; [apply Z.pow2_bits_true, H|apply Z.pow2_bits_false; lia]. Qed.

Lemma superposition_bit s i : pattern s -> 0 <= i < 64 -> Z.testbit (superposition s) i = negb (Z.testbit (bs_mask s) i).
Proof. intros _ Hi. unfold superposition. rewrite u64_not_bit by lia. destruct (Z.ltb_spec i 64); [apply xorb_true_r|lia]. Qed.
Lemma union_bit s i : pattern s -> 0 <= i < 64 -> Z.testbit (union s) i = Z.testbit (bs_tag s) i || negb (Z.testbit (bs_mask s) i).
Proof.
  intros Hp Hi. unfold union. rewrite Z.lxor_spec, superposition_bit by assumption.
  destruct Hp as (_ & _ & Hs). specialize (Hs i). destruct (Z.testbit (bs_tag s) i), (Z.testbit (bs_mask s) i); cbn; auto.
Qed.
Lemma superposition_u64 s : pattern s -> u64v (superposition s).
Proof. intros (_ & H & _). apply u64v_not, H. Qed.
Lemma union_u64 s : pattern s -> u64v (union s).
Proof. intros Hp. unfold union. apply u64v_lxor; [apply Hp|apply superposition_u64, Hp]. Qed.

(** [from_tag_and_union] where the union includes the tag. *)
Lemma from_union_ok tag un : u64v tag -> u64v un -> (forall i, Z.testbit tag i = true -> Z.testbit un i = true) ->
  exists r, from_tag_and_union tag un = Ok r /\ pattern r /\ bs_tag r = tag /\ union r = un /\
  forall i, 0 <= i < 64 -> Z.testbit (bs_mask r) i = negb (xorb (Z.testbit tag i) (Z.testbit un i)).
Proof.
  intros Ht Hu H. unfold from_tag_and_union, from_tag_and_superposition.
  assert (Hbit : forall i, 0 <= i < 64 -> Z.testbit (u64_not (Z.lxor tag un)) i = negb (xorb (Z.testbit tag i) (Z.testbit un i))).
  { intros i Hi. rewrite u64_not_bit, Z.lxor_spec by lia. destruct (Z.ltb_spec i 64); [apply xorb_true_r|lia]. }
  assert (Hsub : forall i, Z.testbit tag i = true -> Z.testbit (u64_not (Z.lxor tag un)) i = true).
  { intros i Hi. destruct (Z.lt_ge_cases i 0); [rewrite neg_bit_false in Hi by lia; discriminate|].
    destruct (Z.lt_ge_cases i 64); [|rewrite u64v_high in Hi by (assumption || lia); discriminate].
    rewrite Hbit by lia. rewrite Hi, (H i Hi). reflexivity. }
  rewrite from_tag_and_mask_ok by exact Hsub. eexists. split; [reflexivity|].
  assert (Hp : pattern {| bs_tag := tag; bs_mask := u64_not (Z.lxor tag un) |}).
  { split; [exact Ht|]. split; [apply u64v_not, u64v_lxor; assumption|exact Hsub]. }
  split; [exact Hp|]. split; [reflexivity|]. split; [|exact Hbit].
  apply Z.bits_inj'. intros i Hi. destruct (Z.lt_ge_cases i 64).
  - rewrite union_bit by (assumption || lia). cbn [bs_tag bs_mask]. rewrite Hbit, negb_involutive by lia.
    specialize (H i). destruct (Z.testbit tag i), (Z.testbit un i); cbn; auto; discriminate (H eq_refl).
  - rewrite !u64v_high; auto. apply union_u64, Hp.
Qed.
Lemma from_union_panic tag un i : 0 <= i < 64 -> Z.testbit tag i = true -> Z.testbit un i = false -> from_tag_and_union tag un = Panic.
Proof.
  intros Hi Ht Hu. unfold from_tag_and_union, from_tag_and_superposition. apply (from_tag_and_mask_panic _ _ i Ht).
  rewrite u64_not_bit, Z.lxor_spec, Ht, Hu by lia. destruct (Z.ltb_spec i 64); [reflexivity|lia].
Qed.

(** Membership by tag and union. *)
Lemma member_bounds s v : pattern s -> member s v <-> u64v v /\
  (forall i, Z.testbit (bs_tag s) i = true -> Z.testbit v i = true) /\ (forall i, Z.testbit v i = true -> Z.testbit (union s) i = true).
Proof.
  intros Hp. pose proof Hp as (Ht & Hm & Hs). split.
  - intros [Hv H]. split; [exact Hv|]. split.
    + intros i Hi. rewrite H by (apply Hs, Hi). exact Hi.
    + intros i Hi. destruct (Z.lt_ge_cases i 0); [rewrite neg_bit_false in Hi by lia; discriminate|].
      destruct (Z.lt_ge_cases i 64); [|rewrite u64v_high in Hi by (assumption || lia); discriminate].
      rewrite union_bit by (assumption || lia). destruct (Z.testbit (bs_mask s) i) eqn:E; [rewrite <- (H i E), Hi; reflexivity|apply orb_true_r].
  - intros (Hv & H1 & H2). split; [exact Hv|]. intros i Hi.
    destruct (Z.testbit (bs_tag s) i) eqn:Et; [apply H1, Et|].
    destruct (Z.testbit v i) eqn:Ev; [|reflexivity]. specialize (H2 i Ev). exfalso.
    assert (Hr : 0 <= i < 64).
    { split; [destruct (Z.lt_ge_cases i 0); [rewrite neg_bit_false in Ev by lia; discriminate|lia]|].
      destruct (Z.lt_ge_cases i 64); [assumption|rewrite u64v_high in Ev by (assumption || lia); discriminate]. }
    rewrite union_bit, Et, Hi in H2 by assumption. discriminate.
Qed.
Lemma tag_union s i : pattern s -> Z.testbit (bs_tag s) i = true -> Z.testbit (union s) i = true.
Proof. intros Hp. apply (proj2 (proj2 (proj1 (member_bounds s _ Hp) (tag_member s Hp)))). Qed.
Lemma union_member s : pattern s -> member s (union s).
Proof. intros Hp. apply member_bounds; [exact Hp|]. split; [apply union_u64, Hp|]. split; [intros; apply tag_union; assumption|auto]. Qed.

Lemma or_ok a b : pattern a -> pattern b -> exists r, or_unchecked a b = Ok r /\ pattern r
  /\ bs_tag r = Z.land (bs_tag a) (bs_tag b) /\ union r = Z.lor (union a) (union b).
Proof.
  intros Ha Hb. destruct (from_union_ok (Z.land (bs_tag a) (bs_tag b)) (Z.lor (union a) (union b))) as (r & E & Hp & Ht & Hu & _).
  - apply u64v_land; [apply Ha|apply Hb].
  - apply u64v_lor; apply union_u64; assumption.
  - intros i. rewrite Z.land_spec, Z.lor_spec. intros H. apply andb_true_iff in H as [H _]. rewrite (tag_union a i Ha H). reflexivity.
  - exists r. auto.
Qed.

(** ** Types by range *)
Lemma has_range s k v : u64v v -> 0 <= k <= 64 -> bs_mask s = Z.shiftl (Z.ones (64 - k)) k -> bs_tag s mod 2 ^ k = 0 -> u64v (bs_tag s) ->
  has s v = true <-> bs_tag s <= v < bs_tag s + 2 ^ k.
Proof.
  intros Hv Hk Hm Ht Hu. unfold has. rewrite Z.eqb_eq.
  assert (P : 0 < 2 ^ k) by (apply Z.pow_pos_nonneg; lia).
  assert (E : Z.land v (bs_mask s) = v - v mod 2 ^ k).
  { assert (E1 : Z.land v (bs_mask s) = Z.shiftl (Z.shiftr v k) k).
    { rewrite Hm. apply Z.bits_inj'. intros i Hi. rewrite Z.land_spec.
      rewrite !Z.shiftl_spec by lia.
      destruct (Z.lt_ge_cases i k).
      - rewrite !(Z.testbit_neg_r _ (i - k)) by lia. apply andb_false_r.
      - rewrite Z.shiftr_spec by lia. replace (i - k + k) with i by lia. destruct (Z.lt_ge_cases i 64).
        + rewrite Z.ones_spec_low by lia. apply andb_true_r.
        + rewrite (u64v_high v i Hv) by lia. reflexivity. }
    rewrite E1, Z.shiftr_div_pow2, Z.shiftl_mul_pow2 by lia. pose proof (Z.div_mod v (2 ^ k) ltac:(lia)). lia. }
  rewrite E. pose proof (Z.mod_pos_bound v (2 ^ k) P). split; [lia|]. intros Hr.
  assert (Ed : v / 2 ^ k = bs_tag s / 2 ^ k).
  { pose proof (Z.div_mod (bs_tag s) (2 ^ k) ltac:(lia)) as Ed. rewrite Ht in Ed.
    symmetry. apply Z.div_unique with (v - bs_tag s); lia. }
  pose proof (Z.div_mod v (2 ^ k) ltac:(lia)). pose proof (Z.div_mod (bs_tag s) (2 ^ k) ltac:(lia)). rewrite Ed in *. lia.
Qed.

Lemma is_type_range t v : u64v v -> is_type t v = true <-> in_range t v.
Proof.
  intros Hv. unfold in_range. pose proof Hv as [H0 H1]. destruct t; cbn [is_type subset_of type_range fst snd].
  - unfold is_type. cbn [subset_of]. rewrite negb_true_iff, <- not_true_iff_false.
    rewrite (has_range EXTENSION 51 v Hv) by (try reflexivity; cbn; unfold u64v; lia). cbn [EXTENSION bs_tag]. lia.
  - unfold is_type. cbn [subset_of]. rewrite (has_range BOOL 49 v Hv) by (try reflexivity; cbn; unfold u64v; lia). cbn [BOOL bs_tag]. lia.
  - unfold is_type. cbn [subset_of]. rewrite (has_range STRING 48 v Hv) by (try reflexivity; cbn; unfold u64v; lia). cbn [STRING bs_tag]. lia.
  - unfold is_type. cbn [subset_of]. rewrite (has_range NULL 49 v Hv) by (try reflexivity; cbn; unfold u64v; lia). cbn [NULL bs_tag]. lia.
  - unfold is_type. cbn [subset_of]. rewrite (has_range OBJECT 48 v Hv) by (try reflexivity; cbn; unfold u64v; lia). cbn [OBJECT bs_tag]. lia.
  - unfold is_type. cbn [subset_of]. rewrite (has_range ARRAY 48 v Hv) by (try reflexivity; cbn; unfold u64v; lia). cbn [ARRAY bs_tag]. lia.
  - unfold is_type. cbn [subset_of]. rewrite (has_range BIGINT 48 v Hv) by (try reflexivity; cbn; unfold u64v; lia). cbn [BIGINT bs_tag]. lia.
Qed.
Lemma is_ref_range v : u64v v -> is_ref v = true <-> 0xFFFC000000000000 <= v.
Proof.
  intros Hv. pose proof Hv as [H0 H1]. unfold is_ref. rewrite (has_range REF 50 v Hv) by (try reflexivity; cbn; unfold u64v; lia). cbn [REF bs_tag]. lia.
Qed.
Lemma range_exists v : u64v v -> exists t, in_range t v.
Proof.
  intros [H0 H1]. unfold in_range.
  destruct (Z.lt_ge_cases v 0xFFF8000000000000); [exists JNumber; cbn; lia|].
  destruct (Z.lt_ge_cases v 0xFFFA000000000000); [exists JBool; cbn; lia|].
  destruct (Z.lt_ge_cases v 0xFFFC000000000000); [exists JNull; cbn; lia|].
  destruct (Z.lt_ge_cases v 0xFFFD000000000000); [exists JString; cbn; lia|].
  destruct (Z.lt_ge_cases v 0xFFFE000000000000); [exists JObject; cbn; lia|].
  destruct (Z.lt_ge_cases v 0xFFFF000000000000); [exists JArray; cbn; lia|exists JBigint; cbn; lia].
Qed.
Lemma range_unique t t' v : in_range t v -> in_range t' v -> t = t'.
Proof. unfold in_range. destruct t, t'; cbn [type_range fst snd]; intros; try reflexivity; exfalso; lia. Qed.

Lemma get_type_range v t : u64v v -> get_type v = Ok t <-> in_range t v.
Proof.
  intros Hv. pose proof Hv as [H0 H1].
  assert (G : exists t', in_range t' v /\ get_type v = Ok t').
  { destruct (range_exists v Hv) as [t' Ht]. exists t'. split; [exact Ht|]. unfold get_type.
    destruct (is_ref v) eqn:Er.
    - apply is_ref_range in Er; [|exact Hv].
      assert (Erf : ref_type v = v / 2 ^ 48 - 0xFFFC).
      { unfold ref_type. rewrite Z.shiftr_div_pow2 by lia. change 3 with (Z.ones 2). rewrite Z.land_ones by lia.
        assert (0xFFFC <= v / 2 ^ 48 <= 0xFFFF).
        { split; [apply Z.div_le_lower_bound; lia|]. apply Z.lt_succ_r. apply Z.div_lt_upper_bound; lia. }
        symmetry. apply Z.mod_unique with 0x3FFF; [left|]; lia. }
      rewrite Erf. unfold in_range in Ht.
      assert (Hd : forall n, n * 2 ^ 48 <= v < n * 2 ^ 48 + 2 ^ 48 -> v / 2 ^ 48 = n).
      { intros n Hn. symmetry. apply Z.div_unique with (v - n * 2 ^ 48); lia. }
      destruct t'; cbn [type_range fst snd] in Ht; try (exfalso; lia).
      + rewrite (Hd 0xFFFC) by lia. reflexivity.
      + rewrite (Hd 0xFFFD) by lia. reflexivity.
      + rewrite (Hd 0xFFFE) by lia. reflexivity.
      + rewrite (Hd 0xFFFF) by lia. reflexivity.
    - assert (Hlt : ~ 0xFFFC000000000000 <= v) by (intros H; apply is_ref_range in H; [congruence|exact Hv]).
      destruct (is_type JNumber v) eqn:En.
      { apply is_type_range in En; [|exact Hv]. rewrite (range_unique _ _ _ Ht En). reflexivity. }
      destruct (is_type JNull v) eqn:El.
      { apply is_type_range in El; [|exact Hv]. rewrite (range_unique _ _ _ Ht El). reflexivity. }
      assert (Hb : forall x, is_type x v = false -> t' <> x) by (intros x Hx ->; apply is_type_range in Ht; [congruence|exact Hv]).
      destruct t'; try reflexivity; exfalso.
      + apply (Hb JNumber En). reflexivity.
      + unfold in_range in Ht. cbn in Ht. lia.
      + apply (Hb JNull El). reflexivity.
      + unfold in_range in Ht. cbn in Ht. lia.
      + unfold in_range in Ht. cbn in Ht. lia.
      + unfold in_range in Ht. cbn in Ht. lia. }
  destruct G as (t' & Ht & E). split.
  - intros E'. rewrite E in E'. injection E' as ->. exact Ht.
  - intros Ht'. rewrite (range_unique _ _ _ Ht' Ht). exact E.
Qed.


(** ** Storing and reading back *)
Lemma raw_round_trip s p : pattern s -> u64v p ->
  subset_value_to_raw_value s (raw_value_to_subset_value s p) = p <-> forall i, Z.testbit p i = true -> Z.testbit (superposition s) i = true.
Proof.
  intros Hp Hv. unfold subset_value_to_raw_value, raw_value_to_subset_value. split.
  - intros E i Hi. rewrite <- E, Z.land_spec in Hi. apply andb_true_iff in Hi as [H _]. exact H.
  - intros H. apply Z.bits_inj'. intros i Hi. rewrite Z.land_spec, Z.lor_spec.
    destruct (Z.lt_ge_cases i 64) as [H64|H64].
    + specialize (H i). rewrite superposition_bit in * by (assumption || lia).
      destruct Hp as (_ & _ & Hs). specialize (Hs i).
      destruct (Z.testbit p i), (Z.testbit (bs_mask s) i), (Z.testbit (bs_tag s) i); cbn in *; auto; try (discriminate (H eq_refl)); discriminate (Hs eq_refl).
    + rewrite (u64v_high p i Hv H64), (u64v_high (superposition s) i) by (try apply superposition_u64; assumption). reflexivity.
Qed.
Lemma raw_member s p : pattern s -> u64v p -> (forall i, Z.testbit p i = true -> Z.testbit (superposition s) i = true) ->
  member s (raw_value_to_subset_value s p).
Proof.
  intros Hp Hv H. unfold raw_value_to_subset_value. split; [apply u64v_lor; [apply Hp|exact Hv]|].
  intros i Hi. rewrite Z.lor_spec. destruct (Z.testbit p i) eqn:E; [|apply orb_false_r].
  exfalso. specialize (H i E).
  destruct (Z.lt_ge_cases i 0); [rewrite neg_bit_false in E by lia; discriminate|].
  destruct (Z.lt_ge_cases i 64); [|rewrite u64v_high in E by (assumption || lia); discriminate].
  rewrite superposition_bit, Hi in H by (assumption || lia). discriminate.
Qed.
Lemma raw_back s v : pattern s -> member s v -> raw_value_to_subset_value s (subset_value_to_raw_value s v) = v.
Proof.
  intros Hp [Hv H]. unfold subset_value_to_raw_value, raw_value_to_subset_value. apply Z.bits_inj'. intros i Hi. rewrite Z.lor_spec, Z.land_spec.
  destruct (Z.lt_ge_cases i 64) as [H64|H64].
  - rewrite superposition_bit by (assumption || lia). specialize (H i). destruct Hp as (_ & _ & Hs). specialize (Hs i).
    destruct (Z.testbit v i), (Z.testbit (bs_mask s) i), (Z.testbit (bs_tag s) i); cbn in *; auto; try (discriminate (H eq_refl)); try discriminate (Hs eq_refl).
  - rewrite (u64v_high v i Hv H64), (u64v_high (bs_tag s) i) by (apply Hp || assumption). apply andb_false_r.
Qed.

Lemma low_bits p k i : 0 <= k -> 0 <= p < 2 ^ k -> Z.testbit p i = true -> 0 <= i < k.
Proof.
  intros Hk Hp H. split.
  - destruct (Z.lt_ge_cases i 0); [rewrite neg_bit_false in H by lia; discriminate|assumption].
  - destruct (Z.lt_ge_cases i k) as [|Hi]; [assumption|]. exfalso.
    destruct (Z.eq_dec p 0) as [->|]; [rewrite Z.bits_0 in H; discriminate|].
    rewrite Z.bits_above_log2 in H; [discriminate|lia|]. apply Z.lt_le_trans with k; [apply Z.log2_lt_pow2; lia|exact Hi].
Qed.
Lemma pattern_of t s : subset_of t = Some s -> pattern s.
Proof.
  assert (G : forall s, Z.land (bs_mask s) (bs_tag s) = bs_tag s -> u64v (bs_tag s) -> u64v (bs_mask s) -> pattern s).
  { intros s0 E H1 H2. split; [exact H1|]. split; [exact H2|]. apply land_tag, E. }
  destruct t; cbn [subset_of]; intros E; [discriminate| | | | | |]; injection E as <-; apply G; try reflexivity; unfold u64v; cbn; lia.
Qed.
Lemma ext_pattern : pattern EXTENSION.
Proof. split; [|split; [|apply land_tag; reflexivity]]; unfold u64v; cbn; lia. Qed.
Lemma ref_pattern : pattern REF.
Proof. split; [|split; [|apply land_tag; reflexivity]]; unfold u64v; cbn; lia. Qed.
Lemma low48 t s : subset_of t = Some s -> forall i, 0 <= i < 48 -> Z.testbit (superposition s) i = true.
Proof.
  intros E i Hi. rewrite superposition_bit by (try apply (pattern_of t s E); lia).
  assert (Hm : exists m, bs_mask s = Z.shiftl m 48).
  { destruct t; cbn [subset_of] in E; [discriminate| | | | | |]; injection E as <-.
    - exists 0xFFFE. reflexivity. - exists 0xFFFF. reflexivity. - exists 0xFFFE. reflexivity.
    - exists 0xFFFF. reflexivity. - exists 0xFFFF. reflexivity. - exists 0xFFFF. reflexivity. }
  destruct Hm as [m ->]. rewrite Z.shiftl_spec_low by lia. reflexivity.
Qed.
Lemma store_low t s p : subset_of t = Some s -> 0 <= p < 2 ^ 48 ->
  u64v (raw_value_to_subset_value s p) /\ is_type t (raw_value_to_subset_value s p) = true /\
  subset_value_to_raw_value s (raw_value_to_subset_value s p) = p.
Proof.
  intros E Hp. pose proof (pattern_of t s E) as Hs. assert (Hv : u64v p) by (split; [lia|]; apply Z.lt_trans with (2 ^ 48); [lia|reflexivity]).
  assert (Hb : forall i, Z.testbit p i = true -> Z.testbit (superposition s) i = true).
  { intros i Hi. apply (low48 t s E). apply (low_bits p 48 i); [lia|exact Hp|exact Hi]. }
  pose proof (raw_member s p Hs Hv Hb) as Hm. split; [apply Hm|]. split.
  - unfold is_type. rewrite E. apply has_member; [exact Hs|apply Hm|exact Hm].
  - apply raw_round_trip; assumption.
Qed.
Lemma store_u64 x : storable x -> u64v (move_to_any x).
Proof.
  destruct x as [bits|b| |p|p|p|p]; cbn [storable move_to_any]; intros H.
  - unfold u64v. lia.
  - apply (store_low JBool BOOL); [reflexivity|]. destruct b; lia.
  - apply (store_low JNull NULL); [reflexivity|]. lia.
  - apply (store_low JString STRING); [reflexivity|assumption].
  - apply (store_low JObject OBJECT); [reflexivity|assumption].
  - apply (store_low JArray ARRAY); [reflexivity|assumption].
  - apply (store_low JBigint BIGINT); [reflexivity|assumption].
Qed.
Lemma store_type x : storable x -> is_type (boxed_type x) (move_to_any x) = true /\ from_any_internal (boxed_type x) (move_to_any x) = x.
Proof.
  destruct x as [bits|b| |p|p|p|p]; cbn [storable move_to_any boxed_type from_any_internal]; intros H.
  - split; [|reflexivity]. apply is_type_range; [unfold u64v; lia|exact H].
  - destruct (store_low JBool BOOL (if b then 1 else 0)) as (_ & H1 & H2); [reflexivity|destruct b; lia|].
    split; [exact H1|]. rewrite H2. destruct b; reflexivity.
  - destruct (store_low JNull NULL 0) as (_ & H1 & H2); [reflexivity|lia|]. split; [exact H1|reflexivity].
  - destruct (store_low JString STRING p) as (_ & H1 & H2); [reflexivity|assumption|]. split; [exact H1|rewrite H2; reflexivity].
  - destruct (store_low JObject OBJECT p) as (_ & H1 & H2); [reflexivity|assumption|]. split; [exact H1|rewrite H2; reflexivity].
  - destruct (store_low JArray ARRAY p) as (_ & H1 & H2); [reflexivity|assumption|]. split; [exact H1|rewrite H2; reflexivity].
  - destruct (store_low JBigint BIGINT p) as (_ & H1 & H2); [reflexivity|assumption|]. split; [exact H1|rewrite H2; reflexivity].
Qed.
Lemma is_type_unique v t t' : u64v v -> is_type t v = true -> is_type t' v = true -> t = t'.
Proof. intros Hv H1 H2. apply (range_unique t t' v); apply is_type_range; assumption. Qed.
Lemma get_type_is v t : u64v v -> get_type v = Ok t <-> is_type t v = true.
Proof. intros Hv. rewrite get_type_range, is_type_range by exact Hv. reflexivity. Qed.

(** The address behind a reference is the same whichever way it is read. *)
Lemma low_land v : Z.land v REF_SUBSET_SUPERPOSITION = v mod 2 ^ 48.
Proof. unfold REF_SUBSET_SUPERPOSITION. change 0xFFFFFFFFFFFF with (Z.ones 48). apply Z.land_ones. lia. Qed.
Lemma ref_sup t s : subset_of t = Some s -> t <> JBool -> t <> JNull -> superposition s = REF_SUBSET_SUPERPOSITION.
Proof. destruct t; cbn [subset_of]; intros E; try discriminate; try congruence; intros _ _; injection E as <-; reflexivity. Qed.

(** ** NaNs *)
Lemma nan_bits v : u64v v -> f64_is_nan v <-> (2047 <= (v / 2 ^ 52) mod 2048 /\ v mod 2 ^ 52 <> 0).
Proof.
  intros Hv. unfold f64_is_nan. rewrite Z.shiftr_div_pow2 by lia. change 2047 with (Z.ones 11) at 1. change (2 ^ 52 - 1) with (Z.ones 52).
  rewrite !Z.land_ones by lia. change (2 ^ 11) with 2048. pose proof (Z.mod_pos_bound (v / 2 ^ 52) 2048 ltac:(lia)). split; intros [H1 H2]; split; try assumption; lia.
Qed.
Lemma not_nan_storable v : u64v v -> ~ f64_is_nan v -> storable (BNumber v).
Proof.
  intros Hv Hn. cbn [storable]. pose proof Hv as [H0 H1]. split; [exact H0|].
  destruct (Z.lt_ge_cases v 0xFFF8000000000000) as [|Hge]; [assumption|]. exfalso. apply Hn. apply nan_bits; [exact Hv|].
  assert (E : v / 2 ^ 52 = 4095).
  { symmetry. apply Z.div_unique with (v - 4095 * 2 ^ 52); lia. }
  rewrite E. split; [cbn; lia|]. rewrite Z.mod_eq, E by lia. lia.
Qed.
