(** C92 and C93: the block of a flexible array in a build without overflow checks; allocators that
    return null. *)
From Coq Require Import ZArith List Bool Lia.
From Coq Require Import ZifyBool ZifyNat.
From Verif Require Import Outcome VTac LayoutModel LayoutSpec LayoutProofs ReleaseModel.
Import ListNotations.
Open Scope Z_scope.

(** Types of a Rust program: alignments up to 2^29, sizes below 2^61. *)
Definition small (t : ty) : Prop := valid_ty t /\ ty_align t <= 2 ^ 29 /\ ty_size t < 2 ^ 61.

(** The items of an array of [len] items, from [off] on, are inside a block of [n] bytes. *)
Definition all_inside (off size len n : Z) : Prop := forall i, 0 <= i < len -> off + i * size + size <= n.

Lemma parts bh header item : small bh -> small header -> small item ->
  exists a b f, flexible_align header item = Ok a /\ block_header_layout bh header a = Ok b /\ flexible_header_layout header item = Ok f /\
    ty_size bh <= fl_size b < 2 ^ 62 /\ ty_size header <= fl_size f < 2 ^ 62 /\
    (ty_align bh | fl_align b) /\ (ty_align header | fl_align b) /\ (ty_align item | fl_align b) /\
    (ty_align header | fl_size b) /\ (ty_align item | fl_size b) /\ (ty_align item | fl_size f) /\ fl_align b <= 2 ^ 29 /\ (exists j, 0 <= j < 64 /\ fl_align b = 2 ^ j).
Proof.
  intros (Vb & Ab & Sb) (Vh & Ah & Sh) (Vi & Ai & Si).
  pose proof Vi as ((k & Hk & Ek) & _ & _). pose proof Vh as ((kh & Hkh & Ekh) & _ & _). pose proof (pow2_pos k ltac:(lia)) as P.
  destruct (field_align_ok header item k Vh Vi Hk) as (f & E & F); [lia|unfold usize_max; lia|].
  pose proof F as (Ef & D1 & D2 & D3 & L). pose proof (least_multiple_bound _ _ _ P L) as LB.
  destruct (field_facts_pow header item k f Vh Hk F) as (j & Hj & Ej).
  assert (Bf : fl_align f <= 2 ^ 29) by lia.
  assert (Ph : 0 < ty_align header) by (rewrite Ekh; apply pow2_pos; lia).
  assert (Hle : ty_align header <= 2 ^ j) by lia.
  pose proof (pow2_pos j ltac:(lia)) as Pj.
  destruct (field_align_ok bh header j Vb Vh Hj Hle) as (b & E' & F'); [unfold usize_max; lia|].
  pose proof F' as (Ef' & D1' & D2' & D3' & L'). pose proof (least_multiple_bound _ _ _ Pj L') as LB'.
  assert (Efh : flexible_header_layout header item = Ok f) by (unfold flexible_header_layout; rewrite Ek; exact E).
  exists (fl_align f), b, f. split; [unfold flexible_align; rewrite Efh; reflexivity|].
  split; [unfold block_header_layout; rewrite Ej; exact E'|]. split; [exact Efh|]. pose proof (field_facts_pow bh header j b Vb Hj F') as HX. destruct Vb as [(kb & Hkb & Ekb) [Hbs _]]. destruct Vh as [_ [Hhs _]].
  split; [lia|]. split; [lia|]. split; [exact D1'|].
  assert (Dj : (2 ^ j | fl_size b)) by apply L'. rewrite Ej in D1, D2.
  split; [apply Z.divide_trans with (2 ^ j); assumption|].
  split; [rewrite Ek; apply Z.divide_trans with (2 ^ j); assumption|].
  split; [apply Z.divide_trans with (2 ^ j); assumption|].
  split; [rewrite Ek; apply Z.divide_trans with (2 ^ j); assumption|].
  split; [rewrite Ek; apply L|]. split; [lia|]. exact HX.
Qed.

Lemma wrapu_sum x y z : wrapu (x + wrapu (y + wrapu z)) = (x + y + z) mod 2 ^ 64.
Proof. unfold wrapu. rewrite Zplus_mod_idemp_r, Z.add_assoc, Zplus_mod_idemp_r. reflexivity. Qed.

(** The layout without checks is the right one modulo 2^64. *)
Lemma layout_r bh header item : small bh -> small header -> small item ->
  exists a off, items_offset bh header item = Ok off /\ ty_size bh + ty_size header <= off < 2 ^ 63 /\
  forall len, 0 <= len -> array_layout_r bh header item len = Ok {| lay_size := (off + len * ty_size item) mod 2 ^ 64; lay_align := a |} /\
    array_layout bh header item len = if off + len * ty_size item <=? usize_max then Ok {| lay_size := off + len * ty_size item; lay_align := a |} else Panic.
Proof.
  intros Hb Hh Hi. destruct (parts bh header item Hb Hh Hi) as (a & b & f & Ea & Eb & Ef & Sb & Sf & _).
  destruct Hi as ((_ & Hsi & _) & _). destruct Hb as ((_ & Hsb & _) & _). destruct Hh as ((_ & Hsh & _) & _).
  exists (fl_align b), (fl_size b + fl_size f). unfold items_offset, array_layout_r, array_layout, flexible_size_r, flexible_size, block_layout_r, block_layout.
  rewrite Ea. cbn [obind]. rewrite Eb, Ef. cbn [obind]. split; [reflexivity|]. split; [lia|]. intros len Hl.
  assert (0 <= len * ty_size item) by nia. split.
  - unfold field_layout_layout_r. rewrite wrapu_sum. reflexivity.
  - unfold umul, uadd, field_layout_layout. destruct (Z.leb_spec (fl_size b + fl_size f + len * ty_size item) usize_max) as [L|L].
    + destruct (Z.leb_spec (len * ty_size item) usize_max); [|lia]. cbn [obind].
      destruct (Z.leb_spec (fl_size f + len * ty_size item) usize_max); [|lia]. cbn [obind]. unfold uadd.
      destruct (Z.leb_spec (fl_size b + (fl_size f + len * ty_size item)) usize_max); [|lia]. cbn [obind]. do 2 f_equal. lia.
    + destruct (Z.leb_spec (len * ty_size item) usize_max); [|reflexivity]. cbn [obind].
      destruct (Z.leb_spec (fl_size f + len * ty_size item) usize_max); [|reflexivity]. cbn [obind]. unfold uadd.
      destruct (Z.leb_spec (fl_size b + (fl_size f + len * ty_size item)) usize_max); [lia|reflexivity].
Qed.

(** * C92 *)

(** With overflow checks every block that is requested has room for all its items. *)
Theorem C92_checked : forall bh header item len l, small bh -> small header -> small item -> 0 <= len ->
  array_layout bh header item len = Ok l ->
  array_layout_r bh header item len = Ok l /\ exists off, items_offset bh header item = Ok off /\ all_inside off (ty_size item) len (lay_size l).
Proof.
  intros bh header item len l Hb Hh Hi Hl. destruct (layout_r bh header item Hb Hh Hi) as (a & off & Eo & So & H). destruct (H len Hl) as [-> ->].
  destruct Hi as ((_ & Hsi & _) & _). destruct Hb as ((_ & Hsb & _) & _). destruct Hh as ((_ & Hsh & _) & _).
  destruct (Z.leb_spec (off + len * ty_size item) usize_max) as [L|L]; [|discriminate]. intros [= <-]. split.
  - rewrite Z.mod_small; [reflexivity|]. unfold usize_max in L. nia.
  - exists off. split; [exact Eo|]. intros i Hin. cbn [lay_size]. nia.
Qed.
Print Assumptions C92_checked.

(** Without, exactly when the size is below 2^64. *)
Theorem C92_exact : forall bh header item len, small bh -> small header -> small item -> 0 <= len ->
  exists l off, array_layout_r bh header item len = Ok l /\ items_offset bh header item = Ok off /\
  (all_inside off (ty_size item) len (lay_size l) <-> off + len * ty_size item < 2 ^ 64).
Proof.
  intros bh header item len Hb Hh Hi Hl. destruct (layout_r bh header item Hb Hh Hi) as (a & off & Eo & So & H). destruct (H len Hl) as [E _].
  destruct Hi as ((_ & Hsi & _) & _). destruct Hb as ((_ & Hsb & _) & _). destruct Hh as ((_ & Hsh & _) & _).
  eexists. exists off. split; [exact E|]. split; [exact Eo|]. cbn [lay_size]. split.
  - intros A. destruct (Z.eq_dec len 0) as [->|N]; [lia|]. specialize (A (len - 1) ltac:(lia)).
    pose proof (Z.mod_pos_bound (off + len * ty_size item) (2 ^ 64) ltac:(lia)). nia.
  - intros L i Hin. rewrite Z.mod_small by nia. nia.
Qed.
Print Assumptions C92_exact.

(** For every type of items that has a size there is a length for which the block has not even room
    for the first item; the checks catch it. *)
Theorem C92_overrun_refuted : forall bh item, small bh -> small item -> 0 < ty_size item ->
  exists len l off, 8 <= len < 2 ^ 64 /\ array_layout_r bh isize_ty item len = Ok l /\ items_offset bh isize_ty item = Ok off /\
    lay_size l < off + ty_size item /\ array_layout bh isize_ty item len = Panic.
Proof.
  intros bh item Hb Hi Hs. assert (Hh : small isize_ty) by (split; [split; [exists 3; split; [lia|reflexivity]|split; [cbn; lia|apply Z.divide_refl]]|cbn; lia]).
  destruct (layout_r bh isize_ty item Hb Hh Hi) as (a & off & Eo & So & H). destruct Hb as ((_ & Hsb & _) & _). cbn [isize_ty ty_size] in So.
  assert (Hi' : ty_size item < 2 ^ 61) by apply Hi. set (s := ty_size item) in *.
  assert (K : exists len r, 8 <= len < 2 ^ 64 /\ off + len * s = 1 * 2 ^ 64 + r /\ 0 <= r < off + s /\ r < 2 ^ 64).
  { destruct (Z.eq_dec s 1) as [E|N].
    - exists (2 ^ 64 - 1), (off - 1). rewrite E. lia.
    - assert (D : exists len, 2 ^ 64 <= len * s < 2 ^ 64 + s).
      { pose proof (Z.div_mod (2 ^ 64 + s - 1) s ltac:(lia)) as D. pose proof (Z.mod_pos_bound (2 ^ 64 + s - 1) s ltac:(lia)) as M.
        exists ((2 ^ 64 + s - 1) / s). lia. }
      destruct D as [len D]. exists len, (off + (len * s - 2 ^ 64)). nia. }
  destruct K as (len & r & Hlen & E & Hr & Hr2). exists len. destruct (H len ltac:(lia)) as [-> ->]. fold s. rewrite E, Z.add_comm, Z_mod_plus_full, Z.mod_small by lia.
  eexists. exists off. split; [exact Hlen|]. split; [reflexivity|]. split; [exact Eo|]. cbn [lay_size]. split; [lia|].
  destruct (Z.leb_spec (r + 1 * 2 ^ 64) usize_max) as [L|L]; [unfold usize_max in L; lia|reflexivity].
Qed.
Print Assumptions C92_overrun_refuted.

(** Even with the checks: for every type of items that has a size there is a length whose layout
    is built, unchecked, with a size beyond the limit of layouts (2^63 - 1). *)
Theorem C92_layout_refuted : forall bh item, small bh -> small item -> 0 < ty_size item ->
  exists len l, 0 <= len < 2 ^ 64 /\ array_layout bh isize_ty item len = Ok l /\ 2 ^ 63 - 1 < lay_size l.
Proof.
  intros bh item Hb Hi Hs. assert (Hh : small isize_ty) by (split; [split; [exists 3; split; [lia|reflexivity]|split; [cbn; lia|apply Z.divide_refl]]|cbn; lia]).
  destruct (layout_r bh isize_ty item Hb Hh Hi) as (a & off & Eo & So & H). destruct Hb as ((_ & Hsb & _) & _). cbn [isize_ty ty_size] in So.
  assert (Hi' : ty_size item < 2 ^ 61) by apply Hi. set (s := ty_size item) in *.
  assert (D : exists len, 2 ^ 63 - off <= len * s < 2 ^ 63 - off + s).
  { pose proof (Z.div_mod (2 ^ 63 - off + s - 1) s ltac:(lia)) as D. pose proof (Z.mod_pos_bound (2 ^ 63 - off + s - 1) s ltac:(lia)) as M.
    exists ((2 ^ 63 - off + s - 1) / s). lia. }
  destruct D as [len D]. exists len. destruct (H len ltac:(nia)) as [_ ->]. fold s.
  destruct (Z.leb_spec (off + len * s) usize_max) as [L|L]; [|unfold usize_max in L; lia].
  eexists. split; [nia|]. split; [reflexivity|]. cbn [lay_size]. lia.
Qed.
Print Assumptions C92_layout_refuted.

(** 2^60 numbers of 16 bytes: the block has 16 bytes. *)
Example C92_case : let item := {| ty_size := 16; ty_align := 8 |} in
  array_layout_r isize_ty isize_ty item (2 ^ 60) = Ok {| lay_size := 16; lay_align := 8 |} /\
  items_offset isize_ty isize_ty item = Ok 16 /\ array_layout isize_ty isize_ty item (2 ^ 60) = Panic /\
  array_layout isize_ty isize_ty item (2 ^ 59) = Ok {| lay_size := 2 ^ 63 + 16; lay_align := 8 |} /\
  array_layout_r isize_ty isize_ty item 3 = Ok {| lay_size := 64; lay_align := 8 |}.
Proof. vm_compute. repeat split. Qed.

(** * C93 *)

(** If the allocator gives a block that fits, all writes of the construction are inside. *)
Definition write_ok (p n : Z) (w : Z * Z) : Prop := inside (fst w) (snd w) p n.
Lemma writes_inside bh header item len p l : small bh -> small header -> small item -> 0 <= len ->
  array_layout bh header item len = Ok l -> 0 <= p -> p + lay_size l <= usize_max ->
  exists ws, array_writes bh header item len p = Ok ws /\ Forall (write_ok p (lay_size l)) ws.
Proof.
  intros Hb Hh Hi Hl. destruct (parts bh header item Hb Hh Hi) as (a & b & f & Ea & Eb & Ef & Sb & Sf & _).
  destruct Hi as ((_ & Hsi & _) & _). destruct Hb as ((_ & Hsb & _) & _). destruct Hh as ((_ & Hsh & _) & _).
  unfold array_layout, array_writes, flexible_size, block_layout. rewrite Ea. cbn [obind]. rewrite Eb, Ef. cbn [obind].
  unfold umul, field_layout_layout, uadd. assert (0 <= len * ty_size item) by nia.
  destruct (Z.leb_spec (len * ty_size item) usize_max); [|discriminate]. cbn [obind].
  destruct (Z.leb_spec (fl_size f + len * ty_size item) usize_max); [|discriminate]. cbn [obind].
  destruct (Z.leb_spec (fl_size b + (fl_size f + len * ty_size item)) usize_max); [|discriminate]. cbn [obind].
  intros [= <-] Hp Hfit. cbn [lay_size] in *. unfold usize_max in *.
  rewrite !to_adjacent_plain by (try lia; rewrite to_adjacent_plain; lia). eexists. split; [reflexivity|].
  unfold write_ok, inside. apply Forall_cons; [cbn [fst snd]; lia|]. apply Forall_cons; [cbn [fst snd]; lia|].
  apply Forall_forall. intros w Hw. apply in_map_iff in Hw as (i & <- & Hin). apply in_seq in Hin. cbn [fst snd].
  assert (0 <= Z.of_nat i * ty_size item) by nia. assert (Z.of_nat i * ty_size item + ty_size item <= len * ty_size item) by nia.
  rewrite Z.mod_small by lia. lia.
Qed.
Theorem C93_inside : forall alloc bh header item len l, small bh -> small header -> small item -> 0 <= len ->
  array_layout bh header item len = Ok l -> 0 <= alloc l -> alloc l + lay_size l <= usize_max ->
  exists ws, global_new alloc bh header item len = Ok ws /\ Forall (write_ok (alloc l) (lay_size l)) ws.
Proof.
  intros alloc bh header item len l Hb Hh Hi Hl E Hp Hf. unfold global_new. rewrite E. cbn [obind].
  exact (writes_inside bh header item len (alloc l) l Hb Hh Hi Hl E Hp Hf).
Qed.
Print Assumptions C93_inside.

(** A refusal is not noticed: for every allocator, when it returns null for an array, the global
    and the local manager write to address 0, and go on to write every item. *)
Theorem C93_null_refuted : forall alloc bh header item len l, small bh -> small header -> small item -> 0 <= len ->
  array_layout bh header item len = Ok l -> (forall m, alloc m = 0) ->
  (exists ws, global_new alloc bh header item len = Ok ws /\ In (0, ty_size bh) ws /\ Z.of_nat (length ws) = 2 + len) /\
  (lay_size l < 2 ^ 63 -> exists ws, local_new alloc bh header item len = Ok ws /\ In (0, 8) ws /\ Z.of_nat (length ws) = 3 + len).
Proof.
  intros alloc bh header item len l Hb Hh Hi Hl E Hnull. destruct (parts bh header item Hb Hh Hi) as (a & b & f & Ea & Eb & Ef & Sb & Sf & _ & _ & _ & _ & _ & _ & Bb & (j & Hj & Ej)).
  assert (W : forall p, exists ws, array_writes bh header item len p = Ok ((p, ty_size bh) :: ws) /\ Z.of_nat (length ws) = 1 + len).
  { intros p. unfold array_writes. rewrite Ea. cbn [obind]. rewrite Eb, Ef. cbn [obind]. eexists. split; [reflexivity|].
    cbn [length]. rewrite map_length, seq_length. lia. }
  split.
  - unfold global_new. rewrite E. cbn [obind]. rewrite Hnull. destruct (W 0) as (ws & -> & L). eexists. split; [reflexivity|]. split; [left; reflexivity|cbn [length]; lia].
  - intros Hsz. unfold local_new. rewrite E. cbn [obind].
    assert (Al : lay_align l = 2 ^ j /\ 0 <= lay_size l).
    { revert E. unfold array_layout. rewrite Ea. cbn [obind]. destruct (flexible_size header item len) as [n| |] eqn:En; cbn [obind]; try discriminate.
      unfold block_layout. rewrite Eb. cbn [obind]. unfold field_layout_layout, uadd. destruct (fl_size b + n <=? usize_max); cbn [obind]; try discriminate.
      intros [= <-]. cbn [lay_align lay_size]. split; [exact Ej|]. revert En. unfold flexible_size. rewrite Ef. cbn [obind]. unfold umul, uadd.
      destruct Hi as ((_ & Hsi & _) & _). destruct Hb as ((_ & Hsb & _) & _). destruct Hh as ((_ & Hsh & _) & _).
      destruct (_ <=? usize_max); cbn [obind]; try discriminate. destruct (_ <=? usize_max); try discriminate. intros [= <-]. nia. }
    destruct Al as [Al Hs0]. unfold local_layout. rewrite Al.
    assert (Vp : valid_ty {| ty_size := 8; ty_align := 8 |}) by (split; [exists 3; split; [lia|reflexivity]|split; [cbn; lia|apply Z.divide_refl]]).
    assert (Vu : valid_ty u8_ty) by (split; [exists 0; split; [lia|reflexivity]|split; [cbn; lia|apply Z.divide_refl]]).
    pose proof (pow2_pos j ltac:(lia)) as Pj.
    destruct (field_align_ok {| ty_size := 8; ty_align := 8 |} u8_ty j Vp Vu Hj) as (h & Eh & F); [cbn; lia|cbn [ty_size]; unfold usize_max; lia|].
    pose proof F as (_ & _ & _ & _ & L). pose proof (least_multiple_bound _ _ _ Pj L) as LB. cbn [ty_size] in LB.
    rewrite Eh. cbn [obind]. unfold field_layout_layout, uadd. destruct (Z.leb_spec (fl_size h + lay_size l) usize_max) as [L1|L1]; [|unfold usize_max in L1; lia].
    cbn [obind]. rewrite Hnull. destruct (W (to_adjacent h 0)) as (ws & -> & Lw). cbn [obind].
    eexists. split; [reflexivity|]. split; [left; reflexivity|cbn [length]; lia].
Qed.
Print Assumptions C93_null_refuted.

(** Three bytes: the block, and what happens if there is none. *)
Example C93_case :
  global_new (fun _ => 4096) isize_ty isize_ty u8_ty 3 = Ok [(4096, 8); (4104, 8); (4112, 1); (4113, 1); (4114, 1)] /\
  local_new (fun _ => 4096) isize_ty isize_ty u8_ty 3 = Ok [(4096, 8); (4104, 8); (4112, 8); (4120, 1); (4121, 1); (4122, 1)] /\
  global_new (fun _ => 0) isize_ty isize_ty u8_ty 3 = Ok [(0, 8); (8, 8); (16, 1); (17, 1); (18, 1)] /\
  small isize_ty /\ small u8_ty.
Proof.
  split; [vm_compute; reflexivity|]. split; [vm_compute; reflexivity|]. split; [vm_compute; reflexivity|].
  split; (split; [split; [|split; [cbn; lia|apply Z.divide_refl]]|cbn; lia]); [exists 3|exists 0]; split; try lia; reflexivity.
Qed.
