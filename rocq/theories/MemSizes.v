(** The size of an allocation, and the block behind the bits of an [Any]. *)
From Coq Require Import ZArith List Bool Lia.
From Verif Require Import Outcome BitsetModel LayoutModel LayoutSpec LayoutProofs MemModel MemSpec.
Import ListNotations.
Open Scope Z_scope.

(** ** References *)
Lemma high_bits v n m : 0 <= n -> 0 <= m ->
  Z.land v (Z.shiftl (Z.ones m) n) = Z.shiftl ((v / 2 ^ n) mod 2 ^ m) n.
Proof.
  intros Hn Hm. rewrite <- Z.shiftr_div_pow2, <- Z.land_ones by lia. apply Z.bits_inj'. intros i Hi.
  rewrite Z.land_spec. destruct (Z_lt_ge_dec i n).
  - rewrite !Z.shiftl_spec_low by lia. apply andb_false_r.
  - rewrite !Z.shiftl_spec_high by lia. rewrite Z.land_spec, Z.shiftr_spec by lia. replace (i - n + n) with i by lia. reflexivity.
Qed.
Lemma high_ones v n m : 0 <= n -> 0 <= m ->
  (Z.land v (Z.shiftl (Z.ones m) n) =? Z.shiftl (Z.ones m) n) = ((v / 2 ^ n) mod 2 ^ m =? Z.ones m).
Proof.
  intros Hn Hm. rewrite high_bits by lia. rewrite !Z.shiftl_mul_pow2 by lia. pose proof (Z.pow_pos_nonneg 2 n ltac:(lia) Hn).
  destruct (Z.eqb_spec ((v / 2 ^ n) mod 2 ^ m) (Z.ones m)) as [->|H1]; [apply Z.eqb_refl|]. apply Z.eqb_neq. nia.
Qed.
Lemma any_block_header v : any_block v = block_header v.
Proof.
  unfold any_block, block_header, is_ref, has. change (bs_mask REF) with (Z.shiftl (Z.ones 14) 50). change (bs_tag REF) with (Z.shiftl (Z.ones 14) 50).
  rewrite high_ones by lia. change (Z.ones 14) with (2 ^ 14 - 1). destruct (_ =? _); [|reflexivity].
  change REF_SUBSET_SUPERPOSITION with (Z.ones 48). rewrite Z.land_ones by lia. reflexivity.
Qed.
Lemma cell_target_header c : cell_target c = cell_header c.
Proof. destruct c; cbn [cell_target cell_header]; [reflexivity|apply any_block_header]. Qed.
Lemma any_bigint_type v : any_bigint v = is_type JBigint v.
Proof.
  unfold any_bigint, is_type, has. cbn [subset_of].
  match goal with |- _ = (Z.land v ?m =? ?t) => change m with (Z.shiftl (Z.ones 16) 48); change t with (Z.shiftl (Z.ones 16) 48) end.
  rewrite high_ones by lia. reflexivity.
Qed.

(** ** Sizes *)
Lemma align_to_eight k : 0 <= k < 60 -> align_to 8 (2 ^ k) = Ok (Z.max 8 (2 ^ k)).
Proof.
  intros Hk. assert (Hlt : 2 ^ k < 2 ^ 60) by (apply Z.pow_lt_mono_r; lia).
  destruct (align_to_ok 8 k ltac:(lia) ltac:(lia) ltac:(unfold usize_max; lia)) as (r & E & H). rewrite E. f_equal.
  eapply least_multiple_unique; [exact H|]. pose proof (Z.pow_pos_nonneg 2 k ltac:(lia) ltac:(lia)).
  destruct (Z_le_gt_dec k 3).
  - replace (Z.max 8 (2 ^ k)) with 8. 2:{ assert (2 ^ k <= 2 ^ 3) by (apply Z.pow_le_mono_r; lia). lia. }
    split; [|split; [lia|intros; lia]]. change 8 with (2 ^ 3). exists (2 ^ (3 - k)). rewrite <- Z.pow_add_r by lia. f_equal. lia.
  - assert (2 ^ 3 <= 2 ^ k) by (apply Z.pow_le_mono_r; lia). replace (Z.max 8 (2 ^ k)) with (2 ^ k) by lia.
    split; [apply Z.divide_refl|]. split; [lia|]. intros m (q & ->) Hm.
    assert (0 < q) by (destruct (Z_lt_ge_dec 0 q); [assumption|assert (q * 2 ^ k <= 0) by (apply Z.mul_nonpos_nonneg; lia); lia]).
    assert (1 * 2 ^ k <= q * 2 ^ k) by (apply Z.mul_le_mono_nonneg_r; lia). lia.
Qed.

Lemma pow2_60 k : 0 <= k < 60 -> 1 <= 2 ^ k < 2 ^ 60 /\ is_power_of_two (2 ^ k) = true.
Proof.
  intros Hk. assert (2 ^ k < 2 ^ 60) by (apply Z.pow_lt_mono_r; lia). pose proof (Z.pow_pos_nonneg 2 k ltac:(lia) ltac:(lia)).
  split; [lia|]. apply is_power_of_two_spec. exists k. split; [lia|reflexivity].
Qed.
Lemma uadd_if a b : uadd a b = if a + b <? 2 ^ 64 then Ok (a + b) else Panic.
Proof. unfold uadd, usize_max. destruct (Z.leb_spec (a + b) (2 ^ 64 - 1)), (Z.ltb_spec (a + b) (2 ^ 64)); try lia; reflexivity. Qed.
Lemma umul_if a b : umul a b = if a * b <? 2 ^ 64 then Ok (a * b) else Panic.
Proof. unfold umul, usize_max. destruct (Z.leb_spec (a * b) (2 ^ 64 - 1)), (Z.ltb_spec (a * b) (2 ^ 64)); try lia; reflexivity. Qed.

Lemma alloc_flexible k len n : (forall t, k <> KFixed t) -> 0 <= len -> bytes k len = 24 + n * len -> ty_size (item_ty k) = n -> 0 <= n ->
  alloc_size k len = if bytes k len <? 2 ^ 64 then Ok (bytes k len) else Panic.
Proof.
  intros Hk Hl -> <- Hn. unfold alloc_size.
  assert (Ef : flexible_header_layout isize_ty (item_ty k) = Ok {| fl_align := 8; fl_size := 8 |}) by (destruct k; reflexivity).
  assert (Es : kind_size k len = flexible_size isize_ty (item_ty k) len) by (destruct k; try reflexivity; exfalso; eapply Hk; reflexivity).
  assert (Ea : kind_align k = Ok 8) by (destruct k; try reflexivity; exfalso; eapply Hk; reflexivity).
  assert (Et : kind_ty k = isize_ty) by (destruct k; try reflexivity; exfalso; eapply Hk; reflexivity).
  rewrite Es, Ea, Et. unfold flexible_size. rewrite Ef. cbn [obind fl_size]. rewrite umul_if.
  set (s := ty_size (item_ty k)) in *. replace (24 + s * len) with (24 + len * s) by lia. assert (0 <= len * s) by nia.
  destruct (Z.ltb_spec (len * s) (2 ^ 64)); cbn [obind]; [|destruct (Z.ltb_spec (24 + len * s) (2 ^ 64)); [lia|reflexivity]].
  rewrite uadd_if. destruct (Z.ltb_spec (8 + len * s) (2 ^ 64)); cbn [obind]; [|destruct (Z.ltb_spec (24 + len * s) (2 ^ 64)); [lia|reflexivity]].
  unfold block_layout, block_header_layout. change (field_align_to isize_ty isize_ty 8) with (Ok {| fl_align := 8; fl_size := 8 |}). cbn [obind].
  unfold field_layout_layout. cbn [fl_size fl_align]. rewrite uadd_if.
  destruct (Z.ltb_spec (8 + (8 + len * s)) (2 ^ 64)); cbn [obind]; [|destruct (Z.ltb_spec (24 + len * s) (2 ^ 64)); [lia|reflexivity]].
  unfold local_layout. cbn [lay_align lay_size]. change (field_align_to {| ty_size := 8; ty_align := 8 |} u8_ty 8) with (Ok {| fl_align := 8; fl_size := 8 |}). cbn [obind].
  unfold field_layout_layout. cbn [fl_size fl_align]. rewrite uadd_if. replace (8 + (8 + (8 + len * s))) with (24 + len * s) by lia.
  destruct (24 + len * s <? 2 ^ 64); reflexivity.
Qed.
Lemma field_eight t k : 0 <= k < 60 -> ty_align t <= 2 ^ k -> field_align_to isize_ty t (2 ^ k) = Ok {| fl_align := Z.max 8 (2 ^ k); fl_size := Z.max 8 (2 ^ k) |}.
Proof.
  intros Hk Ht. destruct (pow2_60 k Hk) as [Hp E2]. unfold field_align_to. rewrite E2. cbn [negb]. destruct (Z.ltb_spec (2 ^ k) (ty_align t)); [lia|].
  cbn [ty_size isize_ty ty_align]. rewrite align_to_eight by exact Hk. cbn [obind]. do 2 f_equal. destruct (Z.ltb_spec (2 ^ k) 8); lia.
Qed.
Lemma alloc_fixed t len : power_of_two (ty_align t) -> 0 <= ty_size t ->
  alloc_size (KFixed t) len = if bytes (KFixed t) len <? 2 ^ 64 then Ok (bytes (KFixed t) len) else Panic.
Proof.
  intros (k & Hk & Ek) Hs. destruct (pow2_60 k Hk) as [Hp E2]. unfold alloc_size. cbn [kind_size kind_align kind_ty obind bytes]. rewrite Ek.
  unfold block_layout, block_header_layout. rewrite field_eight by lia. cbn [obind]. unfold field_layout_layout. cbn [fl_size fl_align]. rewrite uadd_if.
  destruct (Z.ltb_spec (Z.max 8 (2 ^ k) + ty_size t) (2 ^ 64)); cbn [obind].
  2:{ destruct (Z.ltb_spec (2 * Z.max 8 (2 ^ k) + ty_size t) (2 ^ 64)); [lia|reflexivity]. }
  assert (Em : exists j, 0 <= j < 60 /\ Z.max 8 (2 ^ k) = 2 ^ j).
  { destruct (Z_le_gt_dec k 3); [exists 3|exists k]; (split; [lia|]).
    - assert (2 ^ k <= 2 ^ 3) by (apply Z.pow_le_mono_r; lia). lia.
    - assert (2 ^ 3 <= 2 ^ k) by (apply Z.pow_le_mono_r; lia). lia. }
  destruct Em as (j & Hj & Ej). unfold local_layout. cbn [lay_align lay_size]. rewrite Ej. destruct (pow2_60 j Hj) as [Hpj _].
  change {| ty_size := 8; ty_align := 8 |} with isize_ty. rewrite field_eight by (try exact Hj; cbn; lia). rewrite <- Ej. cbn [obind].
  unfold field_layout_layout. cbn [fl_size fl_align]. rewrite uadd_if.
  replace (Z.max 8 (Z.max 8 (2 ^ k)) + (Z.max 8 (2 ^ k) + ty_size t)) with (2 * Z.max 8 (2 ^ k) + ty_size t) by lia.
  destruct (_ <? _); reflexivity.
Qed.
Lemma alloc_size_bytes k len : rust_kind k -> 0 <= len ->
  alloc_size k len = if bytes k len <? 2 ^ 64 then Ok (bytes k len) else Panic.
Proof.
  intros Hk Hl. destruct k; [apply alloc_flexible with 2|apply alloc_flexible with 16|apply alloc_flexible with 8|apply alloc_flexible with 8|destruct Hk; apply alloc_fixed; assumption];
    try discriminate; try reflexivity; cbn; lia.
Qed.

(** Goals about the targets of handles in terms of the model's functions. *)
Ltac tgt := cbn [target cell_target cell_header]; rewrite ?cell_target_header, ?any_block_header.
Ltac tgt_in H := cbn [target cell_target cell_header] in H; rewrite ?cell_target_header, ?any_block_header in H.
