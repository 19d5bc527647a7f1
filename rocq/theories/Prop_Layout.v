(** C66, C68 and C69: the arena, field layouts and flexible arrays.

    The functions are in LayoutModel.v, the specifications in LayoutSpec.v. *)
From Coq Require Import ZArith List Bool Lia.
From Verif Require Import Outcome VTac LayoutModel LayoutSpec LayoutProofs.
Import ListNotations.
Open Scope Z_scope.

(** * C68: rounding and fields *)

(** Rounding to a power of two gives the least multiple that is not below the size; it panics
    exactly when that computation overflows. *)
Theorem C68_align_to : forall i k, 0 <= i -> 0 <= k < 64 ->
  (i + 2 ^ k - 1 <= usize_max -> exists r, align_to i (2 ^ k) = Ok r /\ least_multiple (2 ^ k) i r)
  /\ (usize_max < i + 2 ^ k - 1 -> align_to i (2 ^ k) = Panic).
Proof.
  intros i k Hi Hk. split; [apply align_to_ok; assumption|]. intros H. unfold align_to.
  pose proof (pow2_pos k ltac:(lia)). rewrite usub_ok by lia. cbn [obind]. rewrite uadd_panic by lia. reflexivity.
Qed.
Print Assumptions C68_align_to.

(** A field layout is refused when the alignment is not a power of two or is below that of the
    adjacent type. *)
Theorem C68_field_layout_refused : forall t a adj, (forall k, 0 <= k -> adj <> 2 ^ k) \/ adj < ty_align a -> field_align_to t a adj = Panic.
Proof.
  intros t a adj H. unfold field_align_to. destruct (is_power_of_two adj) eqn:E; cbn [negb]; [|reflexivity].
  apply is_power_of_two_spec in E as (k & Hk & E). destruct H as [H|H]; [destruct (H k Hk E)|].
  destruct (Z.ltb_spec adj (ty_align a)); [reflexivity|lia].
Qed.
Print Assumptions C68_field_layout_refused.

(** Otherwise, for every address aligned for the whole: the first value and the adjacent value
    are aligned and do not overlap, both are inside the block, there are less than
    [adjacent_align] bytes of padding, and the first can be found from the adjacent one. *)
Theorem C68_field_layout : forall t a k, valid_ty t -> valid_ty a -> 0 <= k < 64 -> ty_align a <= 2 ^ k -> ty_size t + 2 ^ k - 1 <= usize_max ->
  exists f, field_align_to t a (2 ^ k) = Ok f /\ forall a_size p, 0 <= a_size -> 0 <= p -> (fl_align f | p) -> p + fl_size f + a_size <= usize_max ->
    exists l, field_layout_layout f a_size = Ok l /\ lay_align l = fl_align f
    /\ (ty_align t | p) /\ (2 ^ k | to_adjacent f p) /\ (ty_align a | to_adjacent f p)
    /\ apart p (ty_size t) (to_adjacent f p) a_size
    /\ inside p (ty_size t) p (lay_size l) /\ inside (to_adjacent f p) a_size p (lay_size l)
    /\ lay_size l < ty_size t + 2 ^ k + a_size
    /\ from_adjacent f (to_adjacent f p) = p.
Proof.
  intros t a k Ht Ha Hk Hle Hb. destruct (field_align_ok t a k Ht Ha Hk Hle Hb) as (f & E & Ef & D1 & D2 & D3 & L). exists f. split; [exact E|].
  pose proof (pow2_pos k ltac:(lia)) as Hp2. pose proof (least_multiple_bound _ _ _ Hp2 L) as LB. destruct Ht as (_ & Hts & _).
  intros a_size p Hs Hp Hd Hb2. unfold field_layout_layout. rewrite uadd_ok by lia. cbn [obind]. eexists. split; [reflexivity|]. split; [reflexivity|].
  assert (Ea : to_adjacent f p = p + fl_size f) by (apply to_adjacent_plain; unfold usize_max in *; lia).
  assert (Dadj : (2 ^ k | to_adjacent f p)).
  { rewrite Ea. apply Z.divide_add_r; [apply Z.divide_trans with (fl_align f); assumption|apply L]. }
  split; [apply Z.divide_trans with (fl_align f); assumption|]. split; [exact Dadj|]. split; [apply Z.divide_trans with (2 ^ k); assumption|].
  rewrite from_to_adjacent by (unfold usize_max in *; lia). rewrite Ea. cbn [lay_size]. unfold apart, inside. repeat split; lia.
Qed.
Print Assumptions C68_field_layout.

(** The same for a block: header first, object after it. *)
Theorem C68_block_layout : forall header obj k object_size, valid_ty header -> valid_ty obj -> 0 <= k < 64 -> ty_align obj <= 2 ^ k ->
  0 <= object_size -> ty_size header + 2 ^ k + object_size <= usize_max ->
  exists f l, block_header_layout header obj (2 ^ k) = Ok f /\ block_layout header obj (2 ^ k) object_size = Ok l /\ valid_layout l
  /\ forall p, 0 <= p -> (lay_align l | p) -> p + lay_size l <= usize_max ->
     (ty_align header | p) /\ (2 ^ k | to_adjacent f p)
     /\ apart p (ty_size header) (to_adjacent f p) object_size
     /\ inside p (ty_size header) p (lay_size l) /\ inside (to_adjacent f p) object_size p (lay_size l).
Proof.
  intros h o k n Hh Ho Hk Hle Hn Hb. destruct (field_align_ok h o k Hh Ho Hk Hle ltac:(lia)) as (f & E & F). pose proof F as (Ef & D1 & D2 & D3 & L).
  pose proof (pow2_pos k ltac:(lia)) as Hp2. pose proof (least_multiple_bound _ _ _ Hp2 L) as LB. pose proof Hh as (_ & Hhs & _).
  exists f, {| lay_size := fl_size f + n; lay_align := fl_align f |}. split; [exact E|]. unfold block_layout, block_header_layout. rewrite E. cbn [obind].
  unfold field_layout_layout. rewrite uadd_ok by lia. split; [reflexivity|]. split.
  - destruct (field_facts_pow h o k f Hh Hk F) as (j & Hj & Ej). split; [exists j; split; [exact Hj|exact Ej]|cbn [lay_size]; lia].
  - cbn [lay_size lay_align]. intros p Hp Hd Hpb.
    assert (Ea : to_adjacent f p = p + fl_size f) by (apply to_adjacent_plain; unfold usize_max in *; lia).
    split; [apply Z.divide_trans with (fl_align f); assumption|]. split; [rewrite Ea; apply Z.divide_add_r; [apply Z.divide_trans with (fl_align f); assumption|apply L]|].
    rewrite Ea. unfold apart, inside. repeat split; lia.
Qed.
Print Assumptions C68_block_layout.

(** The local manager puts its pointer before every block: for every layout of a block the
    pointer and the block are aligned, do not overlap, and the pointer is found again. *)
Theorem C68_local_layout : forall b, valid_layout b -> 8 + lay_align b + lay_size b <= usize_max ->
  exists h l, local_layout b = Ok (h, l) /\ valid_layout l
  /\ forall p, 0 <= p -> (lay_align l | p) -> p + lay_size l <= usize_max ->
     (8 | p) /\ (lay_align b | to_adjacent h p) /\ apart p 8 (to_adjacent h p) (lay_size b)
     /\ inside p 8 p (lay_size l) /\ inside (to_adjacent h p) (lay_size b) p (lay_size l)
     /\ from_adjacent h (to_adjacent h p) = p.
Proof.
  intros b [(k & Hk & Ek) Hs] Hb. unfold local_layout. rewrite Ek in *.
  assert (V8 : valid_ty {| ty_size := 8; ty_align := 8 |}) by (split; [exists 3; split; [lia|reflexivity]|]; split; cbn [ty_size ty_align]; [lia|apply Z.divide_refl]).
  assert (V1 : valid_ty u8_ty) by (split; [exists 0; split; [lia|reflexivity]|]; split; cbn [u8_ty ty_size ty_align]; [lia|apply Z.divide_refl]).
  pose proof (pow2_pos k ltac:(lia)) as Hp2.
  destruct (field_align_ok {| ty_size := 8; ty_align := 8 |} u8_ty k V8 V1 Hk) as (f & E & F); [cbn [u8_ty ty_align]; lia|cbn [ty_size]; lia|].
  pose proof F as (Ef & D1 & D2 & D3 & L). cbn [ty_size ty_align] in *. pose proof (least_multiple_bound _ _ _ Hp2 L) as LB.
  exists f, {| lay_size := fl_size f + lay_size b; lay_align := fl_align f |}. rewrite E. cbn [obind].
  unfold field_layout_layout. rewrite uadd_ok by lia. split; [reflexivity|]. split.
  - destruct (field_facts_pow _ _ k f V8 Hk F) as (j & Hj & Ej). split; [exists j; split; [exact Hj|exact Ej]|cbn [lay_size]; lia].
  - cbn [lay_size lay_align]. intros p Hp Hd Hpb.
    assert (Ea : to_adjacent f p = p + fl_size f) by (apply to_adjacent_plain; unfold usize_max in *; lia).
    split; [apply Z.divide_trans with (fl_align f); assumption|]. split; [rewrite Ea; apply Z.divide_add_r; [apply Z.divide_trans with (fl_align f); assumption|apply L]|].
    rewrite from_to_adjacent by (unfold usize_max in *; lia). rewrite Ea. unfold apart, inside. repeat split; lia.
Qed.
Print Assumptions C68_local_layout.

Example C68_case :
  align_to 13 8 = Ok 16 /\ align_to 16 8 = Ok 16 /\ align_to (2 ^ 64 - 3) 8 = Panic /\ align_to 1 0 = Panic
  /\ field_align_to {| ty_size := 3; ty_align := 1 |} u8_ty 4 = Ok {| fl_align := 4; fl_size := 4 |}
  /\ field_align_to {| ty_size := 4; ty_align := 4 |} u8_ty 3 = Panic
  /\ field_align_to {| ty_size := 4; ty_align := 4 |} {| ty_size := 2; ty_align := 2 |} 1 = Panic
  /\ local_layout {| lay_size := 12; lay_align := 16 |} = Ok ({| fl_align := 16; fl_size := 16 |}, {| lay_size := 28; lay_align := 16 |}).
Proof. vm_compute. repeat split. Qed.

(** * C69: flexible arrays *)

(** The size covers the header and all the items: for every aligned address each item is
    aligned, inside, after the header, and the items do not overlap. *)
Theorem C69_items_inside : forall header item len, valid_ty header -> valid_ty item -> 0 <= len ->
  ty_size header + ty_align item + len * ty_size item <= usize_max ->
  exists f n a, flexible_header_layout header item = Ok f /\ flexible_size header item len = Ok n /\ flexible_align header item = Ok a
  /\ (ty_align header | a) /\ (ty_align item | a)
  /\ forall p, 0 <= p -> (a | p) -> p + n <= usize_max -> inside p (ty_size header) p n /\
     forall i, 0 <= i < len ->
       let q := to_adjacent f p + i * ty_size item in
       (ty_align item | q) /\ inside q (ty_size item) p n /\ apart p (ty_size header) q (ty_size item)
       /\ forall j, 0 <= j < len -> j <> i -> apart q (ty_size item) (to_adjacent f p + j * ty_size item) (ty_size item).
Proof.
  intros h it len Hh Hi Hlen Hb. pose proof Hi as ((k & Hk & Ek) & His & Hid). pose proof Hh as (_ & Hhs & _).
  pose proof (pow2_pos k ltac:(lia)) as Hp2.
  destruct (field_align_ok h it k Hh Hi Hk) as (f & E & F); [lia|nia|]. pose proof F as (Ef & D1 & D2 & D3 & L). pose proof (least_multiple_bound _ _ _ Hp2 L) as LB.
  assert (Efh : flexible_header_layout h it = Ok f) by (unfold flexible_header_layout; rewrite Ek; exact E).
  exists f, (fl_size f + len * ty_size it), (fl_align f). split; [exact Efh|]. unfold flexible_size, flexible_align. rewrite Efh. cbn [obind].
  rewrite umul_ok by lia. cbn [obind]. rewrite uadd_ok by (rewrite Ek in Hb; lia). split; [reflexivity|]. split; [reflexivity|]. split; [exact D1|]. split; [rewrite Ek; exact D2|].
  intros p Hp Hd Hpb. assert (0 <= len * ty_size it) by (apply Z.mul_nonneg_nonneg; lia).
  assert (Ea : to_adjacent f p = p + fl_size f) by (apply to_adjacent_plain; unfold usize_max in *; lia).
  split; [unfold inside; lia|]. intros i Hin. cbv zeta. rewrite Ea. unfold inside, apart.
  assert (i * ty_size it + ty_size it <= len * ty_size it) by nia. assert (0 <= i * ty_size it) by nia.
  split; [|split; [|split]].
  - rewrite Ek. apply Z.divide_add_r; [apply Z.divide_add_r; [apply Z.divide_trans with (fl_align f); assumption|apply L]|].
    apply Z.divide_mul_r. rewrite <- Ek. exact Hid.
  - lia.
  - lia.
  - intros j Hj Hne. assert (j < i \/ i < j) as [Hlt|Hlt] by lia.
    + right. nia.
    + left. nia.
Qed.
Print Assumptions C69_items_inside.

(** A length whose size does not fit panics instead of allocating too little. *)
Theorem C69_size_overflow : forall header item len, 0 <= len -> usize_max < len * ty_size item -> flexible_size header item len = Panic.
Proof.
  intros h it len Hl Hov. unfold flexible_size, flexible_header_layout, field_align_to, align_to.
  destruct (is_power_of_two (ty_align it)); [|reflexivity]. cbn [negb]. destruct (ty_align it <? ty_align it); [reflexivity|].
  unfold usub. destruct (1 <=? ty_align it); [|reflexivity]. cbn [obind]. unfold uadd at 1. destruct (_ <=? usize_max); [|reflexivity]. cbn [obind].
  rewrite umul_panic by exact Hov. reflexivity.
Qed.
Print Assumptions C69_size_overflow.

(** Construction with enough items: the size computed from the written block is the one it was
    allocated with, its items are the first [len] items in order, and nothing outside the
    block changes.  With too few items it panics. *)
Theorem C69_construct : forall (H I : Type) (hty item : ty) (len : H -> Z) (h : H) (src : list I) p (m : memory H I),
  valid_ty hty -> valid_ty item -> 0 < ty_size hty -> 0 < ty_size item -> 0 <= len h ->
  ty_size hty + ty_align item + len h * ty_size item <= usize_max ->
  exists n, result_size hty item len h = Ok n /\
  (0 <= p -> p + n <= usize_max ->
   (Z.of_nat (length src) < len h -> construct hty item len h src p m = Panic)
   /\ (len h <= Z.of_nat (length src) -> exists m', construct hty item len h src p m = Ok m'
       /\ object_size hty item len m' p = Ok n
       /\ items hty item len m' p = Ok (map (fun x => Some (VItem x)) (firstn (Z.to_nat (len h)) src))
       /\ forall q, q < p \/ p + n <= q -> peek m' q = peek m q)).
Proof.
  intros H I hty it len h src p m Hh Hi Hh0 Hi0 Hlen Hb.
  destruct (C69_items_inside hty it (len h) Hh Hi Hlen Hb) as (f & n & a & Ef & En & _). exists n. split; [exact En|]. intros Hp Hpb.
  pose proof Hi as ((k & Hk & Ek) & His & _). pose proof (pow2_pos k ltac:(lia)) as Hp2.
  destruct (field_align_ok hty it k Hh Hi Hk) as (f' & E & F); [lia|nia|].
  unfold flexible_header_layout in Ef. rewrite Ek, E in Ef. injection Ef as <-. pose proof F as (_ & _ & _ & _ & L). pose proof (least_multiple_bound _ _ _ Hp2 L) as LB.
  assert (Efh : flexible_header_layout hty it = Ok f') by (unfold flexible_header_layout; rewrite Ek; exact E).
  assert (En' : n = fl_size f' + len h * ty_size it).
  { unfold flexible_size in En. rewrite Efh in En. cbn [obind] in En. rewrite umul_ok in En by nia. cbn [obind] in En. unfold uadd in En. destruct (_ <=? _) in En; [|discriminate]. injection En as <-. reflexivity. }
  assert (Ea : to_adjacent f' p = p + fl_size f') by (apply to_adjacent_plain; unfold usize_max in *; nia).
  unfold construct. rewrite Efh. cbn [obind]. rewrite Ea. split.
  - intros Hlt. apply write_items_short. lia.
  - intros Hle. destruct (write_items_ok it Hi0 (Z.to_nat (len h)) src (p + fl_size f') ((p, VHeader h) :: m)) as (m' & Em & Hq & Hsl); [lia|lia|rewrite Z2Nat.id by lia; lia|].
    rewrite Z2Nat.id in Hq by lia. exists m'. split; [exact Em|].
    assert (Hpk : peek m' p = Some (VHeader h)) by (rewrite Hq by lia; apply peek_head).
    unfold object_size, items. rewrite Hpk, Efh. cbn [obind]. split; [exact En|]. split; [rewrite Ea, Hsl; reflexivity|].
    intros q Hr. rewrite Hq by nia. apply peek_skip. nia.
Qed.
Print Assumptions C69_construct.

(** The header of an array is a public field: safe code that holds the block mutably can set
    another length, and then the size for the release is not the allocated one.  This is a
    change of the value at the address of the header. *)
Theorem C69_written_header_refuted : exists (m m' : memory Z Z) n n', construct isize_ty isize_ty (fun h => h) 1 [42] 4096 [] = Ok m
  /\ result_size isize_ty isize_ty (fun h : Z => h) 1 = Ok n
  /\ m' = (4096, VHeader 3) :: m /\ object_size isize_ty isize_ty (fun h => h) m' 4096 = Ok n' /\ n <> n'
  /\ items isize_ty isize_ty (fun h => h) m' 4096 = Ok [Some (VItem 42); None; None].
Proof. eexists _, _, _, _. split; [vm_compute; reflexivity|]. split; [vm_compute; reflexivity|]. split; [reflexivity|]. split; [vm_compute; reflexivity|]. split; [discriminate|vm_compute; reflexivity]. Qed.
Print Assumptions C69_written_header_refuted.

Example C69_case :
  flexible_size {| ty_size := 2; ty_align := 2 |} {| ty_size := 4; ty_align := 4 |} 6 = Ok 28
  /\ flexible_align {| ty_size := 2; ty_align := 2 |} {| ty_size := 4; ty_align := 4 |} = Ok 4
  /\ flexible_size isize_ty isize_ty (2 ^ 61) = Panic
  /\ (exists m : memory Z Z, construct isize_ty {| ty_size := 2; ty_align := 2 |} (fun h => h) 3 [72; 105; 33; 0] 4096 [] = Ok m
      /\ items isize_ty {| ty_size := 2; ty_align := 2 |} (fun h => h) m 4096 = Ok [Some (VItem 72); Some (VItem 105); Some (VItem 33)]
      /\ peek m 4106 = Some (VItem 105)).
Proof. split; [vmc|]. split; [vmc|]. split; [vmc|]. eexists. split; [vm_compute; reflexivity|]. split; vmc. Qed.

(** * C66: the arena *)

(** For every sequence of allocations in a buffer, if the arena returns then the blocks are in
    order, each at the first aligned address after the previous one, and inside the buffer. *)
Theorem C66_packed_partial : forall ls lo hi, Forall valid_layout ls -> 0 <= lo <= hi ->
  (forall l, In l ls -> hi + lay_align l + lay_size l <= 2 ^ 64) ->
  match arena_allocs {| ar_start := lo; ar_end := hi |} ls with
  | Ok (ps, a) => packed lo hi ls ps /\ ar_start a = packed_end lo ls ps /\ ar_end a = hi
  | Panic => forall ps, ~ packed lo hi ls ps
  | NoFuel => False
  end.
Proof.
  induction ls as [|l ls IH]; intros lo hi Hv Hb Hin; cbn [arena_allocs].
  - cbn [packed packed_end ar_start ar_end]. auto.
  - apply Forall_cons_iff in Hv as [Hl Hv].
    destruct (arena_alloc_ok {| ar_start := lo; ar_end := hi |} l Hl Hb (Hin l (or_introl eq_refl))) as (p & Hp & E). cbn [ar_start ar_end] in *. rewrite E.
    destruct (Z.ltb_spec hi (p + lay_size l)) as [Hlt|Hle]; cbn [obind].
    + intros [|p' ps]; cbn [packed]; [intros []|]. intros (Hp' & H & _). rewrite (least_multiple_unique _ _ _ _ Hp' Hp) in H. lia.
    + destruct Hl as [_ Hls]. destruct Hp as (Hd & Hle' & Hm).
      specialize (IH (p + lay_size l) hi Hv ltac:(lia) (fun x Hx => Hin x (or_intror Hx))).
      destruct (arena_allocs {| ar_start := p + lay_size l; ar_end := hi |} ls) as [[ps a]| |]; cbn [obind].
      * destruct IH as (H1 & H2 & H3). cbn [packed packed_end]. split; [|split; assumption]. split; [split; [exact Hd|split; assumption]|]. split; assumption.
      * intros [|p' ps]; cbn [packed]; [intros []|]. intros (Hp' & _ & H). rewrite (least_multiple_unique _ _ _ _ Hp' (conj Hd (conj Hle' Hm))) in H. exact (IH ps H).
      * exact IH.
Qed.
Print Assumptions C66_packed_partial.

(** Hence the blocks are pairwise disjoint, aligned, and inside the buffer. *)
Theorem C66_disjoint_aligned_inside : forall ls lo hi ps a, Forall valid_layout ls -> 0 <= lo <= hi ->
  (forall l, In l ls -> hi + lay_align l + lay_size l <= 2 ^ 64) ->
  arena_allocs {| ar_start := lo; ar_end := hi |} ls = Ok (ps, a) ->
  length ps = length ls /\ forall i l p, nth_error ls i = Some l -> nth_error ps i = Some p ->
    (lay_align l | p) /\ inside p (lay_size l) lo (hi - lo)
    /\ forall j l' p', j <> i -> nth_error ls j = Some l' -> nth_error ps j = Some p' -> apart p (lay_size l) p' (lay_size l').
Proof.
  intros ls lo hi ps a Hv Hb Hin E. pose proof (C66_packed_partial ls lo hi Hv Hb Hin) as H. rewrite E in H. destruct H as (H & _ & _). split.
  - clear E Hv Hb Hin. revert lo ps H. induction ls as [|l ls IH]; intros lo [|p ps] H; try contradiction; [reflexivity|]. cbn [packed] in H. cbn [length]. f_equal. apply (IH (p + lay_size l)). apply H.
  - intros i l p Hl Hp. destruct (packed_nth ls ps lo hi i l p Hv H Hl Hp) as (A & B & C). split; [exact C|]. split; [unfold inside; lia|].
    intros j l' p' Hj Hl' Hp'. unfold apart. assert (i < j \/ j < i)%nat as [Hlt|Hlt] by lia.
    + left. apply (packed_apart ls ps lo hi i j l l' p p' Hv H Hlt); assumption.
    + right. apply (packed_apart ls ps lo hi j i l' l p' p Hv H Hlt); assumption.
Qed.
Print Assumptions C66_disjoint_aligned_inside.

(** The check can be passed by a size so large that the address wraps around: the arena
    returns a block far beyond its buffer. *)
Theorem C66_wrap_refuted : exists lo hi l p a, 0 <= lo <= hi /\ hi < 2 ^ 48 /\ valid_layout l /\ lay_size l <= usize_max
  /\ arena_alloc {| ar_start := lo; ar_end := hi |} l = Ok (p, a) /\ hi < p + lay_size l.
Proof.
  exists 4096, 8192, {| lay_size := 2 ^ 64 - 1024; lay_align := 1 |}, 4096, {| ar_start := 3072; ar_end := 8192 |}.
  split; [lia|]. split; [lia|]. split; [split; [exists 0; split; [lia|reflexivity]|cbn [lay_size]; lia]|]. split; [cbn [lay_size]; unfold usize_max; lia|].
  split; [vm_compute; reflexivity|cbn [lay_size]; lia].
Qed.
Print Assumptions C66_wrap_refuted.
(** Such a size can be requested: for bytes [flexible_size] does not overflow. *)
Theorem C66_wrap_reachable : exists len n, flexible_size isize_ty u8_ty len = Ok n /\ n = 2 ^ 64 - 1024.
Proof. exists (2 ^ 64 - 1032), (2 ^ 64 - 1024). split; [vm_compute; reflexivity|reflexivity]. Qed.
Print Assumptions C66_wrap_reachable.

Example C66_case :
  arena_allocs {| ar_start := 4097; ar_end := 4128 |} [{| lay_size := 1; lay_align := 1 |}; {| lay_size := 8; lay_align := 8 |}; {| lay_size := 4; lay_align := 4 |}]
  = Ok ([4097; 4104; 4112], {| ar_start := 4116; ar_end := 4128 |})
  /\ arena_allocs {| ar_start := 4097; ar_end := 4104 |} [{| lay_size := 1; lay_align := 1 |}; {| lay_size := 8; lay_align := 8 |}] = Panic.
Proof. vm_compute. repeat split. Qed.
