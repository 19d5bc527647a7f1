(** Proofs about layouts. *)
From Coq Require Import ZArith List Bool Lia.
From Verif Require Import Outcome VTac BitsetModel BitsetSpec BitsetProofs LayoutModel LayoutSpec.
Import ListNotations.
Open Scope Z_scope.

Lemma pow2_pos k : 0 <= k -> 0 < 2 ^ k.
Proof. intros. apply Z.pow_pos_nonneg; lia. Qed.
Lemma pow2_divide j k : 0 <= j <= k -> (2 ^ j | 2 ^ k).
Proof. intros H. exists (2 ^ (k - j)). rewrite <- Z.pow_add_r by lia. f_equal. lia. Qed.
Lemma pow2_le_divide j k : 0 <= j -> 0 <= k -> 2 ^ j <= 2 ^ k -> (2 ^ j | 2 ^ k).
Proof. intros Hj Hk H. apply pow2_divide. split; [exact Hj|]. apply Z.pow_le_mono_r_iff with 2; lia. Qed.
Lemma is_power_of_two_spec a : is_power_of_two a = true <-> exists k, 0 <= k /\ a = 2 ^ k.
Proof.
  unfold is_power_of_two. rewrite andb_true_iff, Z.ltb_lt, Z.eqb_eq. split.
  - intros [H0 H]. exists (Z.log2 a). split; [apply Z.log2_nonneg|]. symmetry. exact H.
  - intros (k & Hk & ->). split; [apply pow2_pos, Hk|]. rewrite Z.log2_pow2 by exact Hk. reflexivity.
Qed.
Lemma not_low s k : 0 <= s < 2 ^ 64 -> 0 <= k <= 64 -> Z.land s (u64_not (2 ^ k - 1)) = s - s mod 2 ^ k.
Proof.
  intros Hs Hk.
  assert (E1 : Z.land s (u64_not (2 ^ k - 1)) = Z.shiftl (Z.shiftr s k) k).
  { apply Z.bits_inj'. intros i Hi. rewrite Z.land_spec, u64_not_bit by exact Hi.
    replace (2 ^ k - 1) with (Z.ones k) by (rewrite Z.ones_equiv; lia).
    rewrite Z.shiftl_spec by exact Hi.
    destruct (Z.lt_ge_cases i k).
    - rewrite Z.ones_spec_low by lia. rewrite (Z.testbit_neg_r _ (i - k)) by lia. destruct (Z.ltb_spec i 64); [apply andb_false_r|lia].
    - rewrite Z.ones_spec_high by lia. rewrite Z.shiftr_spec by lia. replace (i - k + k) with i by lia. destruct (Z.ltb_spec i 64); [apply andb_true_r|].
      rewrite (u64v_high s i Hs) by lia. reflexivity. }
  pose proof (pow2_pos k ltac:(lia)).
  rewrite E1, Z.shiftr_div_pow2, Z.shiftl_mul_pow2 by lia. pose proof (Z.div_mod s (2 ^ k) ltac:(lia)). lia.
Qed.
Lemma usub_ok a b : b <= a -> usub a b = Ok (a - b).
Proof. intros H. unfold usub. destruct (Z.leb_spec b a); [reflexivity|lia]. Qed.
Lemma uadd_ok a b : a + b <= usize_max -> uadd a b = Ok (a + b).
Proof. intros H. unfold uadd. destruct (Z.leb_spec (a + b) usize_max); [reflexivity|lia]. Qed.
Lemma uadd_panic a b : usize_max < a + b -> uadd a b = Panic.
Proof. intros H. unfold uadd. destruct (Z.leb_spec (a + b) usize_max); [lia|reflexivity]. Qed.
Lemma umul_ok a b : a * b <= usize_max -> umul a b = Ok (a * b).
Proof. intros H. unfold umul. destruct (Z.leb_spec (a * b) usize_max); [reflexivity|lia]. Qed.
Lemma umul_panic a b : usize_max < a * b -> umul a b = Panic.
Proof. intros H. unfold umul. destruct (Z.leb_spec (a * b) usize_max); [lia|reflexivity]. Qed.

(** Rounding up. *)
Lemma round_up_least a i : 0 < a -> least_multiple a i (i + a - 1 - (i + a - 1) mod a).
Proof.
  intros Ha. pose proof (Z.mod_pos_bound (i + a - 1) a Ha) as Hm. pose proof (Z.div_mod (i + a - 1) a ltac:(lia)) as Hd.
  split; [|split].
  - exists ((i + a - 1) / a). lia.
  - lia.
  - intros m [q ->] Hle. assert ((i + a - 1) / a <= q).
    { apply Z.lt_succ_r. apply Z.div_lt_upper_bound; [exact Ha|]. lia. }
    nia.
Qed.
Lemma least_multiple_unique a i r r' : least_multiple a i r -> least_multiple a i r' -> r = r'.
Proof. intros (H1 & H2 & H3) (H1' & H2' & H3'). specialize (H3 r' H1' H2'). specialize (H3' r H1 H2). lia. Qed.
Lemma least_multiple_bound a i r : 0 < a -> least_multiple a i r -> i <= r < i + a.
Proof. intros Ha H. rewrite (least_multiple_unique a i _ _ H (round_up_least a i Ha)). pose proof (Z.mod_pos_bound (i + a - 1) a Ha). lia. Qed.

Lemma align_to_ok i k : 0 <= i -> 0 <= k < 64 -> i + 2 ^ k - 1 <= usize_max ->
  exists r, align_to i (2 ^ k) = Ok r /\ least_multiple (2 ^ k) i r.
Proof.
  intros Hi Hk Hb. pose proof (pow2_pos k ltac:(lia)) as Hp. unfold align_to. rewrite usub_ok by lia. cbn [obind].
  rewrite uadd_ok by lia. cbn [obind]. eexists. split; [reflexivity|].
  rewrite not_low by (unfold usize_max in *; lia). replace (i + (2 ^ k - 1)) with (i + 2 ^ k - 1) by lia. apply round_up_least, Hp.
Qed.

Definition field_facts (t a : ty) (adj : Z) (f : field_layout) : Prop :=
  fl_align f = Z.max (ty_align t) adj /\ (ty_align t | fl_align f) /\ (adj | fl_align f) /\ (ty_align a | adj)
  /\ least_multiple adj (ty_size t) (fl_size f).
Lemma field_align_ok t a k : valid_ty t -> valid_ty a -> 0 <= k < 64 -> ty_align a <= 2 ^ k -> ty_size t + 2 ^ k - 1 <= usize_max ->
  exists f, field_align_to t a (2 ^ k) = Ok f /\ field_facts t a (2 ^ k) f.
Proof.
  intros [(kt & Hkt & Et) [Ht0 Ht]] [(ka & Hka & Ea) _] Hk Hle Hb. unfold field_align_to.
  assert (E2 : is_power_of_two (2 ^ k) = true) by (apply is_power_of_two_spec; exists k; split; [lia|reflexivity]).
  rewrite E2. cbn [negb]. destruct (Z.ltb_spec (2 ^ k) (ty_align a)); [lia|].
  destruct (align_to_ok (ty_size t) k Ht0 Hk Hb) as (r & Er & Hr). rewrite Er. cbn [obind]. eexists. split; [reflexivity|].
  unfold field_facts. cbn [fl_align fl_size]. rewrite Et, Ea in *.
  assert (Em : (if 2 ^ k <? 2 ^ kt then 2 ^ kt else 2 ^ k) = Z.max (2 ^ kt) (2 ^ k)) by (destruct (Z.ltb_spec (2 ^ k) (2 ^ kt)); lia).
  rewrite Em. split; [reflexivity|]. split; [|split; [|split; [|exact Hr]]].
  - destruct (Z.max_spec (2 ^ kt) (2 ^ k)) as [[Hm ->]|[Hm ->]]; [apply pow2_le_divide; lia|apply Z.divide_refl].
  - destruct (Z.max_spec (2 ^ kt) (2 ^ k)) as [[Hm ->]|[Hm ->]]; [apply Z.divide_refl|apply pow2_le_divide; lia].
  - apply pow2_le_divide; lia.
Qed.
Lemma field_facts_pow t a k f : valid_ty t -> 0 <= k < 64 -> field_facts t a (2 ^ k) f -> exists j, 0 <= j < 64 /\ fl_align f = 2 ^ j.
Proof.
  intros [(kt & Hkt & Et) _] Hk (E & _). rewrite E, Et.
  destruct (Z.max_spec (2 ^ kt) (2 ^ k)) as [[Hm ->]|[Hm ->]]; [exists k|exists kt]; auto.
Qed.
Lemma to_adjacent_plain f p : 0 <= p -> 0 <= fl_size f -> p + fl_size f < 2 ^ 64 -> to_adjacent f p = p + fl_size f.
Proof. intros. unfold to_adjacent. apply Z.mod_small. lia. Qed.
Lemma from_to_adjacent f p : 0 <= p < 2 ^ 64 -> from_adjacent f (to_adjacent f p) = p.
Proof.
  intros Hp. unfold from_adjacent, to_adjacent. rewrite Zminus_mod_idemp_l. replace (p + fl_size f - fl_size f) with p by lia.
  apply Z.mod_small, Hp.
Qed.

(** ** Memory *)
Lemma peek_head {H I} (m : memory H I) p v : peek ((p, v) :: m) p = Some v.
Proof. cbn [peek]. rewrite Z.eqb_refl. reflexivity. Qed.
Lemma peek_skip {H I} (m : memory H I) p q v : q <> p -> peek ((q, v) :: m) p = peek m p.
Proof. intros H0. cbn [peek]. destruct (Z.eqb_spec q p); [contradiction|reflexivity]. Qed.

Lemma write_items_short {H I} item : forall slots (src : list I) p (m : memory H I), (length src < slots)%nat -> write_items item p slots src m = Panic.
Proof.
  induction slots as [|n IH]; intros src p m Hl; [lia|]. cbn [write_items]. destruct src as [|x src]; [reflexivity|].
  apply IH. cbn [length] in Hl. lia.
Qed.
Lemma write_items_ok {H I} item : 0 < ty_size item -> forall slots (src : list I) p (m : memory H I),
  (slots <= length src)%nat -> 0 <= p -> p + Z.of_nat slots * ty_size item <= usize_max ->
  exists m', write_items item p slots src m = Ok m'
  /\ (forall q, (q < p \/ p + Z.of_nat slots * ty_size item <= q) -> peek m' q = peek m q)
  /\ slice item p slots m' = map (fun x => Some (VItem x)) (firstn slots src).
Proof.
  intros Hs. induction slots as [|n IH]; intros src p m Hl Hp Hb; cbn [write_items].
  - exists m. split; [reflexivity|]. split; [reflexivity|]. reflexivity.
  - destruct src as [|x src]; [cbn [length] in Hl; lia|]. cbn [length] in Hl.
    assert (E : (p + ty_size item) mod 2 ^ 64 = p + ty_size item) by (apply Z.mod_small; unfold usize_max in *; nia).
    rewrite E. destruct (IH src (p + ty_size item) ((p, VItem x) :: m)) as (m' & Em & Hq & Hsl); [lia|lia|nia|].
    exists m'. split; [exact Em|]. split.
    + intros q Hr. rewrite Hq by nia. apply peek_skip. nia.
    + cbn [slice firstn map]. rewrite E, Hsl. f_equal. rewrite Hq by lia. apply peek_head.
Qed.

(** ** Arena *)
Lemma align_offset_least p a : 0 < a -> least_multiple a p (p + align_offset p a).
Proof.
  intros Ha. unfold align_offset. pose proof (Z.mod_pos_bound (- p) a Ha) as Hm. pose proof (Z.div_mod (- p) a ltac:(lia)) as Hd.
  split; [|split].
  - exists (- (- p / a)). lia.
  - lia.
  - intros m [q ->] Hle. assert (- q <= - p / a) by (apply Z.div_le_lower_bound; lia). nia.
Qed.
Lemma arena_alloc_ok a l : valid_layout l -> 0 <= ar_start a <= ar_end a -> ar_end a + lay_align l + lay_size l <= 2 ^ 64 ->
  exists p, least_multiple (lay_align l) (ar_start a) p /\
  arena_alloc a l = if ar_end a <? p + lay_size l then Panic else Ok (p, {| ar_start := p + lay_size l; ar_end := ar_end a |}).
Proof.
  intros [(k & Hk & Ek) Hs] Ha Hb. pose proof (pow2_pos k ltac:(lia)) as Hp. rewrite <- Ek in Hp.
  exists (ar_start a + align_offset (ar_start a) (lay_align l)). split; [apply align_offset_least, Hp|].
  unfold arena_alloc. cbv zeta. pose proof (least_multiple_bound _ _ _ Hp (align_offset_least (ar_start a) (lay_align l) Hp)) as Hm.
  rewrite (Z.mod_small (ar_start a + align_offset (ar_start a) (lay_align l))) by lia. rewrite (Z.mod_small (ar_start a + align_offset (ar_start a) (lay_align l) + lay_size l)) by lia. reflexivity.
Qed.
Lemma packed_range : forall ls ps lo hi, Forall valid_layout ls -> packed lo hi ls ps ->
  lo <= packed_end lo ls ps /\ (ls <> [] -> packed_end lo ls ps <= hi).
Proof.
  induction ls as [|l ls IH]; intros ps lo hi Hv H; destruct ps as [|p ps]; try contradiction.
  - split; [cbn; lia|congruence].
  - cbn [packed packed_end] in *. destruct H as ((_ & H1 & _) & H2 & H3). apply Forall_cons_iff in Hv as [[_ Hs] Hv].
    destruct (IH ps (p + lay_size l) hi Hv H3) as [A B]. split; [lia|]. intros _. destruct ls as [|l' ls].
    + destruct ps; [cbn [packed_end]; lia|contradiction].
    + apply B. discriminate.
Qed.
Lemma packed_nth : forall ls ps lo hi i l p, Forall valid_layout ls -> packed lo hi ls ps -> nth_error ls i = Some l -> nth_error ps i = Some p ->
  lo <= p /\ p + lay_size l <= hi /\ (lay_align l | p).
Proof.
  induction ls as [|l0 ls IH]; intros ps lo hi i l p Hv H Hl Hp; destruct ps as [|p0 ps]; try contradiction; [destruct i; discriminate|].
  cbn [packed] in H. destruct H as ((Hd & H1 & _) & H2 & H3). apply Forall_cons_iff in Hv as [[_ Hs] Hv]. destruct i as [|i]; cbn [nth_error] in Hl, Hp.
  - injection Hl as <-. injection Hp as <-. auto.
  - destruct (IH ps _ hi i l p Hv H3 Hl Hp) as (A & B & C). split; [lia|]. auto.
Qed.
Lemma packed_apart : forall ls ps lo hi i j l l' p p', Forall valid_layout ls -> packed lo hi ls ps -> (i < j)%nat ->
  nth_error ls i = Some l -> nth_error ps i = Some p -> nth_error ls j = Some l' -> nth_error ps j = Some p' -> p + lay_size l <= p'.
Proof.
  induction ls as [|l0 ls IH]; intros ps lo hi i j l l' p p' Hv H Hij Hl Hp Hl' Hp'; destruct ps as [|p0 ps]; try contradiction; [destruct i; discriminate|].
  cbn [packed] in H. destruct H as (_ & H2 & H3). apply Forall_cons_iff in Hv as [_ Hv]. destruct j as [|j]; [lia|]. cbn [nth_error] in Hl', Hp'.
  destruct i as [|i]; cbn [nth_error] in Hl, Hp.
  - injection Hl as <-. injection Hp as <-. apply (packed_nth ls ps _ hi j l' p' Hv H3 Hl' Hp').
  - apply (IH ps _ hi i j l l' p p' Hv H3); auto. lia.
Qed.
