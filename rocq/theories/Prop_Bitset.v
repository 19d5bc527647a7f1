(** C59-C61: bit subsets, the types of boxed values, and storing and reading values.

    The values and types are in BitsetModel.v, the specifications in BitsetSpec.v. *)
From Coq Require Import ZArith List Bool Lia.
From Verif Require Import Outcome VTac BitsetModel BitsetSpec BitsetProofs.
Import ListNotations.
Open Scope Z_scope.

(** * C61: the algebra of bit subsets *)

(** [has] is membership. *)
Theorem C61_has : forall s v, pattern s -> u64v v -> (has s v = true <-> member s v) /\ (has s v = false <-> ~ member s v).
Proof. intros s v Hs Hv. split; [apply has_member|apply has_not_member]; assumption. Qed.
Print Assumptions C61_has.

(** A subset can be built from a tag and a mask exactly when the mask fixes every bit of the
    tag; otherwise the constructor panics. *)
Theorem C61_from_tag_and_mask : forall tag mask, u64v tag -> u64v mask ->
  ((forall i, Z.testbit tag i = true -> Z.testbit mask i = true) ->
     exists s, from_tag_and_mask tag mask = Ok s /\ pattern s /\ bs_tag s = tag /\ bs_mask s = mask)
  /\ ((exists i, Z.testbit tag i = true /\ Z.testbit mask i = false) -> from_tag_and_mask tag mask = Panic).
Proof.
  intros tag mask Ht Hm. split.
  - intros H. rewrite from_tag_and_mask_ok by exact H. eexists. split; [reflexivity|]. split; [split; [exact Ht|split; [exact Hm|exact H]]|]. split; reflexivity.
  - intros (i & H1 & H2). apply (from_tag_and_mask_panic tag mask i H1 H2).
Qed.
Print Assumptions C61_from_tag_and_mask.

(** The tag is the intersection of the members, the union their union, and the superposition
    the bits in which members differ. *)
Theorem C61_tag_union_superposition : forall s i, pattern s -> 0 <= i < 64 ->
  (Z.testbit (bs_tag s) i = true <-> forall v, member s v -> Z.testbit v i = true)
  /\ (Z.testbit (union s) i = true <-> exists v, member s v /\ Z.testbit v i = true)
  /\ (Z.testbit (superposition s) i = true <-> exists v w, member s v /\ member s w /\ Z.testbit v i = true /\ Z.testbit w i = false).
Proof.
  intros s i Hp Hi. split; [|split].
  - split.
    + intros H v Hv. apply (member_bounds s v Hp) in Hv. apply Hv, H.
    + intros H. apply H, tag_member, Hp.
  - split.
    + intros H. exists (union s). split; [apply union_member, Hp|exact H].
    + intros (v & Hv & H). apply (member_bounds s v Hp) in Hv. apply Hv, H.
  - rewrite superposition_bit by assumption. split.
    + intros H. apply negb_true_iff in H. exists (union s), (bs_tag s).
      split; [apply union_member, Hp|]. split; [apply tag_member, Hp|]. split.
      * rewrite union_bit, H by assumption. apply orb_true_r.
      * destruct (Z.testbit (bs_tag s) i) eqn:E; [|reflexivity]. rewrite (proj2 (proj2 Hp) i E) in H. discriminate.
    + intros (v & w & [_ Hv] & [_ Hw] & H1 & H2). destruct (Z.testbit (bs_mask s) i) eqn:E; [|reflexivity].
      rewrite (Hv i E) in H1. rewrite (Hw i E) in H2. congruence.
Qed.
Print Assumptions C61_tag_union_superposition.

(** [or_unchecked] never panics and gives the least subset that includes both. *)
Theorem C61_or_unchecked : forall a b, pattern a -> pattern b -> exists r, or_unchecked a b = Ok r /\ pattern r
  /\ (forall v, member a v \/ member b v -> member r v)
  /\ (forall c, pattern c -> (forall v, member a v \/ member b v -> member c v) -> forall v, member r v -> member c v).
Proof.
  intros a b Ha Hb. destruct (or_ok a b Ha Hb) as (r & E & Hr & Ht & Hu). exists r. split; [exact E|]. split; [exact Hr|]. split.
  - intros v Hv. apply member_bounds; [exact Hr|]. rewrite Ht, Hu. destruct Hv as [Hv|Hv].
    + apply (member_bounds a v Ha) in Hv as (H0 & H1 & H2). split; [exact H0|]. split; intros i Hi.
      * rewrite Z.land_spec in Hi. apply andb_true_iff in Hi as [Hi _]. auto.
      * rewrite Z.lor_spec, (H2 i Hi). reflexivity.
    + apply (member_bounds b v Hb) in Hv as (H0 & H1 & H2). split; [exact H0|]. split; intros i Hi.
      * rewrite Z.land_spec in Hi. apply andb_true_iff in Hi as [_ Hi]. auto.
      * rewrite Z.lor_spec, (H2 i Hi). apply orb_true_r.
  - intros c Hc H v Hv. apply (member_bounds r v Hr) in Hv as (H0 & H1 & H2). apply member_bounds; [exact Hc|]. split; [exact H0|].
    rewrite Ht in H1. rewrite Hu in H2.
    assert (Ta : member c (bs_tag a)) by (apply H; left; apply tag_member, Ha).
    assert (Tb : member c (bs_tag b)) by (apply H; right; apply tag_member, Hb).
    assert (Ua : member c (union a)) by (apply H; left; apply union_member, Ha).
    assert (Ub : member c (union b)) by (apply H; right; apply union_member, Hb).
    apply (member_bounds c _ Hc) in Ta as (_ & Ta & _). apply (member_bounds c _ Hc) in Tb as (_ & Tb & _).
    apply (member_bounds c _ Hc) in Ua as (_ & _ & Ua). apply (member_bounds c _ Hc) in Ub as (_ & _ & Ub). split.
    + intros i Hi. apply H1. rewrite Z.land_spec, (Ta i Hi), (Tb i Hi). reflexivity.
    + intros i Hi. specialize (H2 i Hi). rewrite Z.lor_spec in H2. apply orb_true_iff in H2 as [H2|H2]; auto.
Qed.
Print Assumptions C61_or_unchecked.

(** [or] panics unless both have the same free bits, and is the union when the tags differ in
    at most one bit. *)
Theorem C61_or : forall a b, pattern a -> pattern b ->
  (bs_mask a <> bs_mask b -> subset_or a b = Panic)
  /\ (bs_mask a = bs_mask b -> exists r, subset_or a b = Ok r /\ pattern r
      /\ (forall v, member a v \/ member b v -> member r v)
      /\ (forall k, (forall i, i <> k -> Z.testbit (bs_tag a) i = Z.testbit (bs_tag b) i) -> forall v, member r v <-> member a v \/ member b v)).
Proof.
  intros a b Ha Hb. unfold subset_or. split.
  - intros Hne. destruct (Z.eqb_spec (superposition a) (superposition b)) as [E|]; [|reflexivity]. exfalso. apply Hne.
    apply Z.bits_inj'. intros i Hi. destruct (Z.lt_ge_cases i 64).
    + assert (E' : Z.testbit (superposition a) i = Z.testbit (superposition b) i) by (rewrite E; reflexivity).
      rewrite !superposition_bit in E' by (assumption || lia). destruct (Z.testbit (bs_mask a) i), (Z.testbit (bs_mask b) i); auto.
    + rewrite !u64v_high by (try apply Ha; try apply Hb; assumption). reflexivity.
  - intros Em. destruct (Z.eqb_spec (superposition a) (superposition b)) as [E|Hne]; [|exfalso; apply Hne; unfold superposition; rewrite Em; reflexivity].
    destruct (C61_or_unchecked a b Ha Hb) as (r & Er & Hr & H1 & _). exists r. split; [exact Er|]. split; [exact Hr|]. split; [exact H1|].
    intros k Hk v. split; [|apply H1]. intros Hv.
    destruct (or_ok a b Ha Hb) as (r' & Er' & _ & Ht & Hu). rewrite Er in Er'. injection Er' as <-.
    apply (member_bounds r v Hr) in Hv as (H0 & Hl & Hh). rewrite Ht in Hl. rewrite Hu in Hh.
    assert (G : forall i, 0 <= i < 64 -> Z.testbit (bs_mask a) i = true ->
       (Z.testbit (bs_tag a) i = true -> Z.testbit (bs_tag b) i = true -> Z.testbit v i = true) /\
       (Z.testbit (bs_tag a) i = false -> Z.testbit (bs_tag b) i = false -> Z.testbit v i = false)).
    { intros i Hi Hm. split.
      - intros A B. apply Hl. rewrite Z.land_spec, A, B. reflexivity.
      - intros A B. destruct (Z.testbit v i) eqn:Ev; [|reflexivity]. specialize (Hh i Ev). rewrite Z.lor_spec, !union_bit, A, B, <- Em, Hm in Hh by assumption. discriminate. }
    assert (R : forall i, Z.testbit (bs_mask a) i = true -> 0 <= i < 64).
    { intros i Hi. split.
      - destruct (Z.lt_ge_cases i 0); [rewrite neg_bit_false in Hi by lia; discriminate|assumption].
      - destruct (Z.lt_ge_cases i 64); [assumption|rewrite u64v_high in Hi by (try apply Ha; assumption); discriminate]. }
    assert (O : forall i, i <> k -> Z.testbit (bs_mask a) i = true -> Z.testbit v i = Z.testbit (bs_tag a) i).
    { intros i Hi Hm. destruct (G i (R i Hm) Hm) as [G1 G2]. specialize (Hk i Hi). destruct (Z.testbit (bs_tag a) i); [apply G1; auto|apply G2; auto]. }
    destruct (Z.testbit (bs_mask a) k) eqn:Mk.
    + destruct (Bool.bool_dec (Z.testbit v k) (Z.testbit (bs_tag a) k)) as [Ek|Ek].
      * left. split; [exact H0|]. intros i Hm. destruct (Z.eq_dec i k) as [->|Hi]; [exact Ek|apply O; assumption].
      * right. split; [exact H0|]. rewrite <- Em. intros i Hm. destruct (Z.eq_dec i k) as [->|Hi].
        -- destruct (G k (R k Mk) Mk) as [G1 G2]. destruct (Z.testbit v k), (Z.testbit (bs_tag a) k), (Z.testbit (bs_tag b) k); auto; try congruence.
           all: try (discriminate (G1 eq_refl eq_refl)); try (discriminate (G2 eq_refl eq_refl)).
        -- rewrite <- Hk by exact Hi. apply O; assumption.
    + left. split; [exact H0|]. intros i Hm. apply O; [|exact Hm]. intros ->. congruence.
Qed.
Print Assumptions C61_or.

(** In general it is not the union: {1} or {2} also has 0 and 3. *)
Theorem C61_or_exact_refuted : exists a b r, pattern a /\ pattern b /\ subset_or a b = Ok r /\ exists v, member r v /\ ~ member a v /\ ~ member b v.
Proof.
  exists {| bs_tag := 1; bs_mask := 2 ^ 64 - 1 |}, {| bs_tag := 2; bs_mask := 2 ^ 64 - 1 |}, {| bs_tag := 0; bs_mask := 2 ^ 64 - 4 |}.
  assert (P : forall t m, Z.land m t = t -> u64v t -> u64v m -> pattern {| bs_tag := t; bs_mask := m |}).
  { intros t m H A B. split; [exact A|]. split; [exact B|]. apply land_tag, H. }
  assert (P1 : pattern {| bs_tag := 1; bs_mask := 2 ^ 64 - 1 |}) by (apply P; [reflexivity|unfold u64v; lia|unfold u64v; lia]).
  assert (P2 : pattern {| bs_tag := 2; bs_mask := 2 ^ 64 - 1 |}) by (apply P; [reflexivity|unfold u64v; lia|unfold u64v; lia]).
  assert (P3 : pattern {| bs_tag := 0; bs_mask := 2 ^ 64 - 4 |}) by (apply P; [reflexivity|unfold u64v; lia|unfold u64v; lia]).
  split; [exact P1|]. split; [exact P2|]. split; [vm_compute; reflexivity|].
  exists 3. split; [|split].
  - apply has_member; [exact P3|unfold u64v; lia|vm_compute; reflexivity].
  - apply has_not_member; [exact P1|unfold u64v; lia|vm_compute; reflexivity].
  - apply has_not_member; [exact P2|unfold u64v; lia|vm_compute; reflexivity].
Qed.
Print Assumptions C61_or_exact_refuted.

(** [and] is the intersection, and panics exactly when that is empty. *)
Theorem C61_and : forall a b, pattern a -> pattern b ->
  ((exists v, member a v /\ member b v) -> exists r, subset_and a b = Ok r /\ pattern r /\ forall v, member r v <-> member a v /\ member b v)
  /\ ((forall v, ~ (member a v /\ member b v)) -> subset_and a b = Panic).
Proof.
  intros a b Ha Hb.
  assert (Ut : u64v (Z.lor (bs_tag a) (bs_tag b))) by (apply u64v_lor; [apply Ha|apply Hb]).
  assert (Uu : u64v (Z.land (union a) (union b))) by (apply u64v_land; apply union_u64; assumption).
  assert (M : forall v, member a v /\ member b v <-> u64v v /\
     (forall i, Z.testbit (Z.lor (bs_tag a) (bs_tag b)) i = true -> Z.testbit v i = true) /\
     (forall i, Z.testbit v i = true -> Z.testbit (Z.land (union a) (union b)) i = true)).
  { intros v. rewrite (member_bounds a v Ha), (member_bounds b v Hb). split.
    - intros [(H0 & A1 & A2) (_ & B1 & B2)]. split; [exact H0|]. split; intros i Hi.
      + rewrite Z.lor_spec in Hi. apply orb_true_iff in Hi as [Hi|Hi]; auto.
      + rewrite Z.land_spec, A2, B2 by exact Hi. reflexivity.
    - intros (H0 & H1 & H2). split.
      + split; [exact H0|]. split; intros i Hi; [apply H1; rewrite Z.lor_spec, Hi; reflexivity|].
        specialize (H2 i Hi). rewrite Z.land_spec in H2. apply andb_true_iff in H2. apply H2.
      + split; [exact H0|]. split; intros i Hi; [apply H1; rewrite Z.lor_spec, Hi; apply orb_true_r|].
        specialize (H2 i Hi). rewrite Z.land_spec in H2. apply andb_true_iff in H2. apply H2. }
  split.
  - intros (v & Hv). apply M in Hv as (_ & H1 & H2).
    destruct (from_union_ok _ _ Ut Uu (fun i Hi => H2 i (H1 i Hi))) as (r & E & Hr & Et & Eu & _). exists r. split; [exact E|]. split; [exact Hr|].
    intros w. rewrite M, (member_bounds r w Hr), Et, Eu. reflexivity.
  - intros Hno. unfold subset_and. destruct (from_tag_and_union _ _) as [r| |] eqn:E; [exfalso|reflexivity|].
    + apply (Hno (Z.lor (bs_tag a) (bs_tag b))). apply M. split; [exact Ut|]. split; [auto|].
      unfold from_tag_and_union, from_tag_and_superposition, from_tag_and_mask in E.
      destruct (Z.eqb_spec (Z.land (u64_not (Z.lxor (Z.lor (bs_tag a) (bs_tag b)) (Z.land (union a) (union b)))) (Z.lor (bs_tag a) (bs_tag b))) (Z.lor (bs_tag a) (bs_tag b))) as [El|]; [|discriminate].
      intros i Hi. pose proof (proj1 (land_tag _ _) El i Hi) as H.
      assert (R : 0 <= i < 64).
      { split.
        - destruct (Z.lt_ge_cases i 0); [rewrite neg_bit_false in Hi by lia; discriminate|assumption].
        - destruct (Z.lt_ge_cases i 64); [assumption|rewrite u64v_high in Hi by assumption; discriminate]. }
      rewrite u64_not_bit, Z.lxor_spec, Hi in H by lia. destruct (Z.ltb_spec i 64); [|lia].
      destruct (Z.testbit (Z.land (union a) (union b)) i); [reflexivity|discriminate].
    + unfold from_tag_and_union, from_tag_and_superposition, from_tag_and_mask in E. destruct (_ =? _) in E; discriminate.
Qed.
Print Assumptions C61_and.

(** [split] by a mask of free bits gives the values with all the bits clear and with all the
    bits set; any other mask panics. *)
Theorem C61_split : forall s m, pattern s -> u64v m ->
  (m = 0 \/ (exists i, Z.testbit m i = true /\ Z.testbit (bs_mask s) i = true) -> split s m = Panic)
  /\ (m <> 0 -> (forall i, Z.testbit m i = true -> Z.testbit (bs_mask s) i = false) ->
      exists a b, split s m = Ok (a, b) /\ pattern a /\ pattern b
      /\ (forall v, member a v <-> member s v /\ forall i, Z.testbit m i = true -> Z.testbit v i = false)
      /\ (forall v, member b v <-> member s v /\ forall i, Z.testbit m i = true -> Z.testbit v i = true)
      /\ forall v, ~ (member a v /\ member b v)).
Proof.
  intros s m Hp Hm. pose proof Hp as (Ht & Hk & Hs). unfold split. split.
  - intros [->|(i & H1 & H2)]; [reflexivity|]. destruct (Z.eqb_spec m 0) as [->|_]; [reflexivity|].
    destruct (Z.eqb_spec (Z.land m (bs_mask s)) 0) as [E|_]; [|reflexivity]. exfalso.
    assert (E' : Z.testbit (Z.land m (bs_mask s)) i = false) by (rewrite E; apply Z.bits_0). rewrite Z.land_spec, H1, H2 in E'. discriminate.
  - intros Hn Hfree. destruct (Z.eqb_spec m 0) as [|_]; [contradiction|].
    assert (E0 : Z.land m (bs_mask s) = 0).
    { apply Z.bits_inj'. intros i _. rewrite Z.land_spec, Z.bits_0. destruct (Z.testbit m i) eqn:E; [rewrite (Hfree i E)|]; reflexivity. }
    rewrite E0. cbn [Z.eqb negb].
    assert (U : u64v (Z.lor (bs_mask s) m)) by (apply u64v_lor; assumption).
    assert (Pa : pattern {| bs_tag := bs_tag s; bs_mask := Z.lor (bs_mask s) m |}).
    { split; [exact Ht|]. split; [exact U|]. intros i Hi. cbn [bs_tag bs_mask] in *. rewrite Z.lor_spec, (Hs i Hi). reflexivity. }
    assert (Pb : pattern {| bs_tag := Z.lor (bs_tag s) m; bs_mask := Z.lor (bs_mask s) m |}).
    { split; [apply u64v_lor; assumption|]. split; [exact U|]. intros i Hi. cbn [bs_tag bs_mask] in *. rewrite Z.lor_spec in *. apply orb_true_iff in Hi as [Hi|Hi]; [rewrite (Hs i Hi); reflexivity|rewrite Hi; apply orb_true_r]. }
    rewrite !from_tag_and_mask_ok by (apply Pa || apply Pb). cbn [obind]. eexists _, _. split; [reflexivity|]. split; [exact Pa|]. split; [exact Pb|].
    assert (Tm : forall i, Z.testbit m i = true -> Z.testbit (bs_tag s) i = false).
    { intros i Hi. destruct (Z.testbit (bs_tag s) i) eqn:E; [|reflexivity]. specialize (Hs i E). rewrite (Hfree i Hi) in Hs. discriminate. }
    assert (Ma : forall v, member {| bs_tag := bs_tag s; bs_mask := Z.lor (bs_mask s) m |} v <-> member s v /\ forall i, Z.testbit m i = true -> Z.testbit v i = false).
    { intros v. unfold member. cbn [bs_tag bs_mask]. split.
      - intros [H0 H]. split; [split; [exact H0|]|]; intros i Hi.
        + apply H. rewrite Z.lor_spec, Hi. reflexivity.
        + rewrite H by (rewrite Z.lor_spec, Hi; apply orb_true_r). apply Tm, Hi.
      - intros [[H0 H1] H2]. split; [exact H0|]. intros i Hi. rewrite Z.lor_spec in Hi. apply orb_true_iff in Hi as [Hi|Hi]; [apply H1, Hi|]. rewrite (H2 i Hi), (Tm i Hi). reflexivity. }
    assert (Mb : forall v, member {| bs_tag := Z.lor (bs_tag s) m; bs_mask := Z.lor (bs_mask s) m |} v <-> member s v /\ forall i, Z.testbit m i = true -> Z.testbit v i = true).
    { intros v. unfold member. cbn [bs_tag bs_mask]. split.
      - intros [H0 H]. split; [split; [exact H0|]|]; intros i Hi.
        + rewrite H by (rewrite Z.lor_spec, Hi; reflexivity). rewrite Z.lor_spec. destruct (Z.testbit m i) eqn:E; [rewrite (Hfree i E) in Hi; discriminate|apply orb_false_r].
        + rewrite H by (rewrite Z.lor_spec, Hi; apply orb_true_r). rewrite Z.lor_spec, Hi. apply orb_true_r.
      - intros [[H0 H1] H2]. split; [exact H0|]. intros i Hi. rewrite Z.lor_spec in *. destruct (Z.testbit m i) eqn:E; [rewrite (H2 i E), orb_true_r; reflexivity|].
        rewrite orb_false_r in *. apply H1, Hi. }
    split; [exact Ma|]. split; [exact Mb|]. intros v [A B]. apply Ma in A as [_ A]. apply Mb in B as [_ B].
    assert (Hex : exists i, Z.testbit m i = true).
    { exists (Z.log2 m). apply Z.bit_log2. destruct Hm. lia. }
    destruct Hex as [i Hi]. specialize (A i Hi). specialize (B i Hi). congruence.
Qed.
Print Assumptions C61_split.

(** With a mask of one bit the two parts cover the subset. *)
Theorem C61_split_partition : forall s k a b, pattern s -> 0 <= k < 64 -> split s (2 ^ k) = Ok (a, b) ->
  forall v, member s v <-> (member a v \/ member b v).
Proof.
  intros s k a b Hp Hk E v. destruct (C61_split s (2 ^ k) Hp (bit_u64v k Hk)) as [P O].
  assert (Hf : forall i, Z.testbit (2 ^ k) i = true -> Z.testbit (bs_mask s) i = false).
  { intros i Hi. destruct (Z.testbit (bs_mask s) i) eqn:E1; [|reflexivity]. rewrite P in E by (right; exists i; auto). discriminate. }
  destruct (O ltac:(apply Z.pow_nonzero; lia) Hf) as (a' & b' & E' & _ & _ & Ma & Mb & _). rewrite E in E'. injection E' as <- <-.
  rewrite Ma, Mb. assert (B : forall i, Z.testbit (2 ^ k) i = true <-> i = k) by (intros i; rewrite bit_is by lia; apply Z.eqb_eq). split.
  - intros H. destruct (Z.testbit v k) eqn:Ev; [right|left]; (split; [exact H|]); intros i Hi; apply B in Hi; subst i; exact Ev.
  - intros [[H _]|[H _]]; exact H.
Qed.
Print Assumptions C61_split_partition.
(** With a mask of two bits they do not. *)
Theorem C61_split_partition_refuted : exists s m a b v, pattern s /\ u64v m /\ split s m = Ok (a, b) /\ member s v /\ ~ member a v /\ ~ member b v.
Proof.
  exists {| bs_tag := 0; bs_mask := 0 |}, 3, {| bs_tag := 0; bs_mask := 3 |}, {| bs_tag := 3; bs_mask := 3 |}, 1.
  assert (P : forall t m, Z.land m t = t -> u64v t -> u64v m -> pattern {| bs_tag := t; bs_mask := m |}).
  { intros t m H A B. split; [exact A|]. split; [exact B|]. apply land_tag, H. }
  assert (P0 : pattern {| bs_tag := 0; bs_mask := 0 |}) by (apply P; [reflexivity|unfold u64v; lia|unfold u64v; lia]).
  assert (P1 : pattern {| bs_tag := 0; bs_mask := 3 |}) by (apply P; [reflexivity|unfold u64v; lia|unfold u64v; lia]).
  assert (P2 : pattern {| bs_tag := 3; bs_mask := 3 |}) by (apply P; [reflexivity|unfold u64v; lia|unfold u64v; lia]).
  split; [exact P0|]. split; [unfold u64v; lia|]. split; [vm_compute; reflexivity|]. split; [|split].
  - apply has_member; [exact P0|unfold u64v; lia|reflexivity].
  - apply has_not_member; [exact P1|unfold u64v; lia|reflexivity].
  - apply has_not_member; [exact P2|unfold u64v; lia|reflexivity].
Qed.
Print Assumptions C61_split_partition_refuted.

(** Raw values and members of a subset are in bijection as long as the raw value fits. *)
Theorem C61_raw_values : forall s, pattern s ->
  (forall p, u64v p -> (subset_value_to_raw_value s (raw_value_to_subset_value s p) = p
     <-> forall i, Z.testbit p i = true -> Z.testbit (superposition s) i = true))
  /\ (forall p, u64v p -> (forall i, Z.testbit p i = true -> Z.testbit (superposition s) i = true) -> member s (raw_value_to_subset_value s p))
  /\ (forall v, member s v -> raw_value_to_subset_value s (subset_value_to_raw_value s v) = v).
Proof. intros s Hp. split; [|split]; intros; [apply raw_round_trip|apply raw_member|apply raw_back]; assumption. Qed.
Print Assumptions C61_raw_values.

Example C61_case : let s := {| bs_tag := 0xF0; bs_mask := 0xF8 |} in
  has s 0xF3 = true /\ has s 0xE3 = false /\ union s = 2 ^ 64 - 1 - 0x08
  /\ split s 2 = Ok ({| bs_tag := 0xF0; bs_mask := 0xFA |}, {| bs_tag := 0xF2; bs_mask := 0xFA |})
  /\ split s 8 = Panic
  /\ subset_and s {| bs_tag := 1; bs_mask := 1 |} = Ok {| bs_tag := 0xF1; bs_mask := 0xF9 |}
  /\ subset_and s {| bs_tag := 0; bs_mask := 0x10 |} = Panic.
Proof. vm_compute. repeat split. Qed.

(** * C60: every pattern has one type *)

(** Each 64-bit pattern satisfies exactly one of the tests, [get_type] finds it and does not
    panic, and the pattern is in the interval of the type. *)
Theorem C60_one_type : forall v, u64v v -> exists t, get_type v = Ok t /\ in_range t v /\ forall t', is_type t' v = true <-> t' = t.
Proof.
  intros v Hv. destruct (range_exists v Hv) as [t Ht]. exists t. split; [apply get_type_range; assumption|]. split; [exact Ht|].
  intros t'. split.
  - intros H. apply is_type_range in H; [|exact Hv]. apply (range_unique t' t v); assumption.
  - intros ->. apply is_type_range; assumption.
Qed.
Print Assumptions C60_one_type.
(** The patterns of each type. *)
Theorem C60_ranges : forall t v, u64v v -> is_type t v = true <-> in_range t v.
Proof. intros t v Hv. apply is_type_range, Hv. Qed.
Print Assumptions C60_ranges.
(** A value is a reference exactly when its type is one of the four types of blocks. *)
Theorem C60_is_ref : forall v, u64v v -> is_ref v = true <-> exists t, get_type v = Ok t /\ In t [JString; JObject; JArray; JBigint].
Proof.
  intros v Hv. rewrite is_ref_range by exact Hv. split.
  - intros H. destruct (range_exists v Hv) as [t Ht]. exists t. split; [apply get_type_range; assumption|].
    unfold in_range in Ht. destruct t; cbn [type_range fst snd] in Ht; cbn; auto 6; exfalso; lia.
  - intros (t & Ht & Hi). apply get_type_range in Ht; [|exact Hv]. unfold in_range in Ht.
    cbn in Hi. destruct Hi as [<-|[<-|[<-|[<-|[]]]]]; cbn [type_range fst snd] in Ht; lia.
Qed.
Print Assumptions C60_is_ref.
Example C60_case :
  get_type 0x3FF0000000000000 = Ok JNumber /\ get_type 0xFFF0000000000000 = Ok JNumber (* -Infinity *)
  /\ get_type 0x7FF8000000000000 = Ok JNumber (* NaN *) /\ get_type 0xFFF8000000000001 = Ok JBool
  /\ get_type 0xFFFB123456789ABC = Ok JNull /\ get_type 0xFFFD000000001000 = Ok JObject /\ is_type JArray 0xFFFD000000001000 = false.
Proof. vm_compute. repeat split. Qed.

(** * C59: storing and reading *)

(** A storable value is read back as itself with its own type ([try_move], the visitor), is
    rejected with every other type, and its block is found where it was. *)
Theorem C59_round_trip_partial : forall x, storable x ->
  try_move (boxed_type x) (move_to_any x) = Some x
  /\ get_type (move_to_any x) = Ok (boxed_type x)
  /\ to_visitor (move_to_any x) = Ok x
  /\ (forall t, t <> boxed_type x -> try_move t (move_to_any x) = None)
  /\ block_header (move_to_any x) = boxed_address x
  /\ (forall p, boxed_address x = Some p -> try_ref (boxed_type x) (move_to_any x) = Some p).
Proof.
  intros x Hx. pose proof (store_u64 x Hx) as Hv. destruct (store_type x Hx) as [Hi Hf].
  assert (Et : try_move (boxed_type x) (move_to_any x) = Some x) by (unfold try_move; rewrite Hi, Hf; reflexivity).
  assert (Eg : get_type (move_to_any x) = Ok (boxed_type x)) by (apply get_type_is; assumption).
  assert (Ea : forall p, boxed_address x = Some p -> Z.land (move_to_any x) REF_SUBSET_SUPERPOSITION = p).
  { intros p Hp. rewrite Z.land_comm. destruct x; try discriminate; cbn [boxed_address] in Hp; injection Hp as ->.
    - change (Z.land REF_SUBSET_SUPERPOSITION) with (subset_value_to_raw_value STRING). apply (store_low JString STRING p eq_refl Hx).
    - change (Z.land REF_SUBSET_SUPERPOSITION) with (subset_value_to_raw_value OBJECT). apply (store_low JObject OBJECT p eq_refl Hx).
    - change (Z.land REF_SUBSET_SUPERPOSITION) with (subset_value_to_raw_value ARRAY). apply (store_low JArray ARRAY p eq_refl Hx).
    - change (Z.land REF_SUBSET_SUPERPOSITION) with (subset_value_to_raw_value BIGINT). apply (store_low JBigint BIGINT p eq_refl Hx). }
  split; [exact Et|]. split; [exact Eg|]. split; [|split; [|split]].
  - unfold to_visitor. rewrite Eg. cbn [obind]. destruct x; cbn [boxed_type] in *; try (rewrite Et; reflexivity). reflexivity.
  - intros t Ht. unfold try_move. destruct (is_type t (move_to_any x)) eqn:E; [|reflexivity]. exfalso. apply Ht. apply (is_type_unique _ _ _ Hv E Hi).
  - unfold block_header. destruct (is_ref (move_to_any x)) eqn:Er.
    + apply C60_is_ref in Er as (t & E & Hin); [|exact Hv]. rewrite Eg in E. injection E as <-.
      destruct x; cbn in Hin; try (exfalso; intuition discriminate); cbn [boxed_address] in *; rewrite (Ea _ eq_refl); reflexivity.
    + destruct (boxed_address x) as [p|] eqn:Ep; [|reflexivity]. exfalso. rewrite <- not_true_iff_false in Er. apply Er. apply C60_is_ref; [exact Hv|].
      exists (boxed_type x). split; [exact Eg|]. destruct x; try discriminate; cbn; auto.
  - intros p Hp. unfold try_ref. destruct (subset_of (boxed_type x)) as [s|] eqn:Es; [|destruct x; discriminate].
    unfold is_type in Hi. rewrite Es in Hi. rewrite Hi, (Ea p Hp). reflexivity.
Qed.
Print Assumptions C59_round_trip_partial.

(** Every number that is not NaN is storable. *)
Theorem C59_numbers : forall bits, u64v bits -> ~ f64_is_nan bits -> try_move JNumber (move_to_any (BNumber bits)) = Some (BNumber bits).
Proof. intros bits Hv Hn. exact (proj1 (C59_round_trip_partial (BNumber bits) (not_nan_storable bits Hv Hn))). Qed.
Print Assumptions C59_numbers.
(** And so is every NaN with the sign bit clear. *)
Theorem C59_positive_nan : forall bits, 0 <= bits < 2 ^ 63 -> try_move JNumber (move_to_any (BNumber bits)) = Some (BNumber bits).
Proof. intros bits H. apply (C59_round_trip_partial (BNumber bits)). cbn [storable]. lia. Qed.
Print Assumptions C59_positive_nan.
(** A number is read back exactly when it is storable; all the others are NaNs. *)
Theorem C59_numbers_exactly : forall bits, u64v bits ->
  (try_move JNumber (move_to_any (BNumber bits)) = Some (BNumber bits) <-> storable (BNumber bits))
  /\ (~ storable (BNumber bits) -> f64_is_nan bits /\ try_move JNumber (move_to_any (BNumber bits)) = None).
Proof.
  intros bits Hv. split.
  - split; [|intros H; apply (C59_round_trip_partial (BNumber bits) H)].
    unfold try_move. cbn [move_to_any from_any_internal]. destruct (is_type JNumber bits) eqn:E; [|discriminate]. intros _.
    apply is_type_range in E; [exact E|exact Hv].
  - intros H. split.
    + apply nan_bits; [exact Hv|]. assert (Hge : 0xFFF8000000000000 <= bits) by (cbn [storable] in H; destruct Hv; lia). destruct Hv as [H0 H1].
      assert (E : bits / 2 ^ 52 = 4095) by (symmetry; apply Z.div_unique with (bits - 4095 * 2 ^ 52); lia).
      rewrite E. split; [cbn; lia|]. rewrite Z.mod_eq, E by lia. lia.
    + unfold try_move. cbn [move_to_any]. destruct (is_type JNumber bits) eqn:E; [|reflexivity]. apply is_type_range in E; [|exact Hv]. contradiction.
Qed.
Print Assumptions C59_numbers_exactly.

(** The negative quiet NaN, the result of 0/0 on x86-64, is read as a boolean, and another
    NaN as a string at an address of its payload. *)
Theorem C59_negative_nan_refuted : exists bits, u64v bits /\ f64_is_nan bits
  /\ try_move JNumber (move_to_any (BNumber bits)) = None /\ to_visitor (move_to_any (BNumber bits)) = Ok (BBool false).
Proof. exists 0xFFF8000000000000. split; [unfold u64v; lia|]. split; [split; [reflexivity|vm_compute; discriminate]|]. vm_compute. split; reflexivity. Qed.
Print Assumptions C59_negative_nan_refuted.
Theorem C59_nan_as_pointer_refuted : exists bits p, u64v bits /\ f64_is_nan bits
  /\ to_visitor (move_to_any (BNumber bits)) = Ok (BString p) /\ block_header (move_to_any (BNumber bits)) = Some p.
Proof. exists 0xFFFC123456789ABC, 0x123456789ABC. split; [unfold u64v; lia|]. split; [split; [reflexivity|vm_compute; discriminate]|]. vm_compute. split; reflexivity. Qed.
Print Assumptions C59_nan_as_pointer_refuted.
(** An address with more than 48 bits loses bits or changes the type. *)
Theorem C59_high_address_refuted : exists p, u64v p /\ to_visitor (move_to_any (BString p)) = Ok (BObject 0).
Proof. exists (2 ^ 48). split; [unfold u64v; lia|]. vm_compute. reflexivity. Qed.
Print Assumptions C59_high_address_refuted.

Example C59_case :
  try_move JNumber (move_to_any (BNumber 0x400921FB54442D18)) = Some (BNumber 0x400921FB54442D18)
  /\ try_move JBool (move_to_any (BBool true)) = Some (BBool true) /\ to_visitor (move_to_any BNull) = Ok BNull
  /\ to_visitor (move_to_any (BArray 0x7FFF12345678)) = Ok (BArray 0x7FFF12345678)
  /\ block_header (move_to_any (BBigint 0x7FFF12345678)) = Some 0x7FFF12345678
  /\ storable (BNumber 0x7FF8000000000000) /\ f64_is_nan 0x7FF8000000000000.
Proof. repeat split; vm_compute; congruence. Qed.

(** * C71: equality of [Any] is identity *)

(** Two values in [Any]s are equal exactly when they are the same value: the same bits of a
    number, the same boolean, or the same block with the same type. *)
Theorem C71_equality : forall x y, storable x -> storable y -> any_eq (move_to_any x) (move_to_any y) = true <-> x = y.
Proof.
  intros x y Hx Hy. unfold any_eq. rewrite Z.eqb_eq. split; [|intros ->; reflexivity]. intros E.
  destruct (C59_round_trip_partial x Hx) as (_ & _ & Ex & _). destruct (C59_round_trip_partial y Hy) as (_ & _ & Ey & _).
  rewrite E, Ey in Ex. injection Ex as ->. reflexivity.
Qed.
Print Assumptions C71_equality.
(** As an equality of JavaScript numbers it is wrong in both directions: 0 and -0 are
    different, NaN is equal to itself. *)
Theorem C71_number_equality_refuted :
  (exists a b, storable (BNumber a) /\ storable (BNumber b) /\ a = 0 /\ b = 2 ^ 63 /\ any_eq (move_to_any (BNumber a)) (move_to_any (BNumber b)) = false)
  /\ (exists a, storable (BNumber a) /\ f64_is_nan a /\ any_eq (move_to_any (BNumber a)) (move_to_any (BNumber a)) = true).
Proof.
  split.
  - exists 0, (2 ^ 63). repeat split; vm_compute; congruence.
  - exists 0x7FF8000000000000. repeat split; vm_compute; congruence.
Qed.
Print Assumptions C71_number_equality_refuted.
Example C71_case : any_eq (move_to_any (BString 0x1000)) (move_to_any (BString 0x2000)) = false /\ any_eq (move_to_any (BObject 0x1000)) (move_to_any (BObject 0x1000)) = true
  /\ any_eq (move_to_any (BObject 0x1000)) (move_to_any (BArray 0x1000)) = false.
Proof. vm_compute. repeat split. Qed.
