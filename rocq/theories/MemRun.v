(** Reference counting in histories of operations. *)
From Coq Require Import ZArith List Bool Lia Permutation.
From Verif Require Import Outcome VTac BitsetModel BitsetSpec BitsetProofs Prop_Bitset LayoutModel MemModel MemSpec MemSizes MemProofs.
Import ListNotations.
Open Scope Z_scope.

(** ** Bits of references *)
Lemma ref_type_small v : ref_type v = 0 \/ ref_type v = 1 \/ ref_type v = 2 \/ ref_type v = 3.
Proof.
  unfold ref_type. assert (H : 0 <= Z.land (Z.shiftr v 48) 3 < 4).
  { change 3 with (Z.ones 2) at 2. change 3 with (Z.ones 2). rewrite !Z.land_ones by lia. apply Z.mod_pos_bound. lia. }
  lia.
Qed.
Lemma any_kind_type v k t : u64v v -> kind_type k = Some t -> is_type t v = true -> is_ref v = true /\ any_kind v = k /\ raw_address t v = Z.land v REF_SUBSET_SUPERPOSITION.
Proof.
  intros Hv Hk Hi. assert (Hr : is_ref v = true).
  { apply C60_is_ref; [exact Hv|]. exists t. split; [apply get_type_is; assumption|]. destruct k; cbn [kind_type] in Hk; try discriminate; injection Hk as <-; cbn; auto. }
  split; [exact Hr|]. apply get_type_is in Hi; [|exact Hv]. unfold get_type in Hi. rewrite Hr in Hi. unfold any_kind. split.
  - destruct (ref_type v =? 0); [injection Hi as <-; destruct k; cbn in Hk; congruence|].
    destruct (ref_type v =? 1); [injection Hi as <-; destruct k; cbn in Hk; congruence|].
    destruct (ref_type v =? 2); [injection Hi as <-; destruct k; cbn in Hk; congruence|].
    destruct (ref_type v =? 3); [injection Hi as <-; destruct k; cbn in Hk; congruence|discriminate].
  - unfold raw_address. destruct (subset_of t) as [s|] eqn:Es.
    + unfold subset_value_to_raw_value. rewrite (ref_sup t s Es); [apply Z.land_comm| |]; intros ->; destruct k; discriminate.
    + destruct k; cbn in Hk; try discriminate; injection Hk as <-; discriminate.
Qed.
Lemma any_bits_ok k a v : any_bits k a = Some v -> 0 <= a < 2 ^ 48 -> u64v v /\ block_header v = Some a /\ any_kind v = k.
Proof.
  assert (G : forall x t, boxed_address x = Some a -> boxed_type x = t -> kind_type k = Some t -> storable x -> any_bits k a = Some (move_to_any x) ->
    u64v (move_to_any x) /\ block_header (move_to_any x) = Some a /\ any_kind (move_to_any x) = k).
  { intros x t Ha Ht Hk Hs _. pose proof (store_u64 x Hs) as Hv. destruct (C59_round_trip_partial x Hs) as (_ & Hg & _ & _ & Hb & _).
    split; [exact Hv|]. split; [congruence|]. apply (any_kind_type (move_to_any x) k t Hv Hk). apply get_type_is; [exact Hv|congruence]. }
  intros H Ha. destruct k; cbn [any_bits] in H; try discriminate; injection H as <-.
  - apply (G (BString a) JString); auto.
  - apply (G (BObject a) JObject); auto.
  - apply (G (BArray a) JArray); auto.
  - apply (G (BBigint a) JBigint); auto.
Qed.
Lemma bigint_any v : u64v v -> block_header v <> None -> any_kind v = KBigint -> any_bigint v = true.
Proof.
  intros Hv Hb Hk. rewrite any_bigint_type. apply get_type_is; [exact Hv|]. unfold block_header in Hb. unfold get_type. destruct (is_ref v); [|congruence].
  unfold any_kind in Hk. destruct (ref_type_small v) as [E|[E|[E|E]]]; rewrite E in *; try discriminate Hk; reflexivity.
Qed.
Lemma bad_bigint h zs all : Core h zs all -> bad all -> exists v, In (HRef (CAny v)) all /\ any_bigint v = true.
Proof.
  intros HC (v & Hv & Hb & Hk). exists v. split; [exact Hv|]. pose proof (c_ok _ _ _ HC) as Ho. rewrite Forall_forall in Ho.
  destruct (Ho _ Hv) as [Hu _]. apply bigint_any; assumption.
Qed.

(** ** Lists *)
Lemma pull_perm {A} i (l : list A) x r : pull i l = Some (x, r) -> Permutation l (x :: r).
Proof.
  revert l r. induction i as [|i IH]; intros [|y l] r H; cbn [pull] in H; try discriminate.
  - injection H as -> ->. apply Permutation_refl.
  - destruct (pull i l) as [[z l']|] eqn:E; [|discriminate]. injection H as -> <-. rewrite (IH l l' E). apply perm_swap.
Qed.
Lemma pull_cells_perm is l cs r : pull_cells is l = Some (cs, r) -> Permutation l (map HRef cs ++ r).
Proof.
  revert l cs r. induction is as [|i is IH]; intros l cs r H; cbn [pull_cells] in H.
  - injection H as <- <-. apply Permutation_refl.
  - destruct (pull i l) as [[[k a|c] l']|] eqn:E; try discriminate. destruct (pull_cells is l') as [[cs' r']|] eqn:E2; [|discriminate].
    injection H as <- <-. cbn [map app]. rewrite (pull_perm i l _ _ E). apply perm_skip, IH, E2.
Qed.
Lemma set_nth_length {A} j (x : A) l : length (set_nth j x l) = length l.
Proof. revert l. induction j as [|j IH]; intros [|y l]; cbn [set_nth length]; auto. Qed.
Lemma set_nth_perm {A} j (x : A) l y : nth_error l j = Some y -> Permutation (y :: set_nth j x l) (x :: l).
Proof.
  revert l. induction j as [|j IH]; intros [|z l] H; cbn [nth_error set_nth] in *; try discriminate.
  - injection H as ->. apply perm_swap.
  - rewrite perm_swap. rewrite (IH l H). apply perm_swap.
Qed.
Lemma assoc_set_same a b l : assoc a l = Some b -> assoc_set a b l = l.
Proof. induction l as [|[y d] l IH]; cbn [assoc assoc_set]; [reflexivity|]. destruct (y =? a); [intros [= ->]; reflexivity|intros H; rewrite IH by exact H; reflexivity]. Qed.
Lemma store_same a b h : find a h = Some b -> store a b h = h.
Proof. intros H. unfold store. rewrite assoc_set_same by exact H. destruct h; reflexivity. Qed.
Lemma with_count_same b n : n = b_count b -> with_count b n = b.
Proof. intros ->. destruct b; reflexivity. Qed.
Lemma inner_set_cells zs a b old c j l : assoc a l = Some b -> ~ In a zs -> nth_error (b_cells b) j = Some old ->
  Permutation (HRef old :: inner_of zs (assoc_set a (with_cells b (set_nth j c (b_cells b))) l)) (HRef c :: inner_of zs l).
Proof.
  intros Ha Hz Hj. induction l as [|[y d] l IH]; cbn [assoc assoc_set] in *; [discriminate|]. destruct (Z.eqb_spec y a) as [->|Hne]; cbn [inner_of].
  - injection Ha as ->. rewrite (proj2 (inb_out a zs) Hz). cbn [with_cells b_cells]. rewrite !app_comm_cons.
    apply Permutation_app_tail. exact (Permutation_map HRef (set_nth_perm j c (b_cells b) old Hj)).
  - rewrite !Permutation_middle. apply Permutation_app_head. apply IH, Ha.
Qed.

(** ** Changes of the references *)
Lemma Core_replace h zs x y all : Core h zs (x :: all) -> target y = target x -> hkind y = hkind x ->
  match y with HRef (CAny v) => u64v v | _ => True end -> (forall k a b, y = HMut k a -> find a h = Some b -> b_count b = 0) -> Core h zs (y :: all).
Proof.
  intros [H1 H2 H3 H4 H5 H6 H7 H8] Et Ek Hv Hm. constructor; auto.
  - apply Forall_cons; [|exact (Forall_inv_tail H4)]. apply Forall_inv in H4 as [_ H4]. split; [exact Hv|]. rewrite Et, Ek. exact H4.
  - intros a b Hf Hz. destruct (H5 a b Hf Hz) as [A B]. split; [exact A|]. rewrite B, !cnt_cons. unfold refers. rewrite Et. reflexivity.
  - intros k a b [E|Hi] Hf; [apply (Hm k a b E Hf)|apply (H6 k a b); [right; exact Hi|exact Hf]].
Qed.
Lemma Core_plain h zs c all : Core h zs all -> cell_header c = None -> match c with CAny v => u64v v | _ => True end -> Core h zs (HRef c :: all).
Proof.
  intros [H1 H2 H3 H4 H5 H6 H7 H8] Hc Hv. constructor; auto.
  - apply Forall_cons; [|exact H4]. split; [exact Hv|]. tgt. rewrite Hc. discriminate.
  - intros a b Hf Hz. destruct (H5 a b Hf Hz) as [A B]. split; [exact A|]. rewrite B, cnt_cons. unfold refers. tgt. rewrite Hc. reflexivity.
  - intros k a b [E|Hi] Hf; [discriminate|apply (H6 k a b Hi Hf)].
Qed.
Lemma Core_new h zs all a b : Core h zs all -> find a h = None -> block_ok a b -> b_count b = 0 ->
  Core {| hp_blocks := (a, b) :: hp_blocks h; hp_counter := hp_counter h + 1; hp_size := hp_size h + b_size b |} zs (HMut (b_kind b) a :: all).
Proof.
  intros [H1 H2 H3 H4 H5 H6 H7 H8] Hf Hb Hc.
  set (h' := {| hp_blocks := (a, b) :: hp_blocks h; hp_counter := hp_counter h + 1; hp_size := hp_size h + b_size b |}).
  assert (Fs : find a h' = Some b) by (unfold find; cbn [h' hp_blocks assoc]; rewrite Z.eqb_refl; reflexivity).
  assert (Fo : forall x, x <> a -> find x h' = find x h) by (intros x Hx; unfold find; cbn [h' hp_blocks assoc]; destruct (Z.eqb_spec a x); [congruence|reflexivity]).
  assert (Hnz : ~ In a zs) by (intros Hi; destruct (H3 a Hi) as (d & Hd); congruence).
  assert (Hno : forall x, In x all -> target x <> Some a).
  { intros x Hx E. rewrite Forall_forall in H4. destruct (H4 x Hx) as [_ H]. destruct (H a E) as (_ & d & Hd & _). congruence. }
  assert (C0 : cnt a all = 0).
  { pose proof (cnt_nonneg a all). destruct (Z.eq_dec (cnt a all) 0) as [|Hn]; [assumption|]. destruct (cnt_pos a all ltac:(lia)) as (x & Hx & E). destruct (Hno x Hx E). }
  constructor.
  - cbn [h' hp_blocks map fst]. apply NoDup_cons; [|exact H1]. apply assoc_none, Hf.
  - exact H2.
  - intros z Hz. rewrite Fo by (intros ->; contradiction). apply H3, Hz.
  - apply Forall_cons.
    + split; [exact I|]. cbn [target hkind]. intros x [= <-]. split; [exact Hnz|]. exists b. auto.
    + apply Forall_forall. intros x Hx. rewrite Forall_forall in H4. destruct (H4 x Hx) as [A B]. split; [exact A|]. intros t Et.
      destruct (B t Et) as (C & d & D & E). split; [exact C|]. exists d. rewrite Fo; [auto|]. intros ->. exact (Hno x Hx Et).
  - intros x d Hx Hz. rewrite cnt_cons. unfold refers. cbn [target]. destruct (Z.eqb_spec a x) as [<-|Hne].
    + rewrite Fs in Hx. injection Hx as <-. lia.
    + rewrite Fo in Hx by congruence. destruct (H5 x d Hx Hz). lia.
  - intros k x d [E|Hi] Hx.
    + injection E as _ <-. congruence.
    + rewrite Fo in Hx by (intros ->; exact (Hno _ Hi eq_refl)). apply (H6 k x d Hi Hx).
  - intros x d Hx. destruct (Z.eq_dec x a) as [->|Hne]; [congruence|]. rewrite Fo in Hx by exact Hne. auto.
  - cbn [h' hp_counter hp_size hp_blocks length total_size fold_right snd]. fold (total_size (hp_blocks h)). destruct H8. lia.
Qed.

(** ** States *)
Definition SInv (st : state) : Prop := Inv (st_heap st) [] (st_handles st ++ st_lost st).
Definition nblocks (st : state) : nat := length (hp_blocks (st_heap st)).
Lemma live_nil l : live_of [] l = length l.
Proof. induction l as [|[x b] l IH]; cbn [live_of inb existsb length]; [reflexivity|rewrite IH; reflexivity]. Qed.
Lemma references_inner st : references st = (st_handles st ++ st_lost st) ++ inner [] (st_heap st).
Proof. unfold references, inner. rewrite inner_nil, app_assoc. reflexivity. Qed.
Lemma init_inv : SInv init.
Proof.
  constructor; cbn; try (constructor); try reflexivity; intros; try contradiction; discriminate.
Qed.

(** What a step leaves of the blocks, other than the one it writes to. *)
Definition step_ok (st : state) (written created : option Z) (st' : state) : Prop :=
  SInv st' /\ (nblocks st' <= S (nblocks st))%nat
  /\ (forall a b', find a (st_heap st') = Some b' -> created = Some a \/ exists b, find a (st_heap st) = Some b /\ (written <> Some a -> same_content b b')).

Definition created (o : op) : option Z := match o with ONew _ _ _ a => Some a | _ => None end.

Lemma sinv_in st x : SInv st -> In x (st_handles st) -> ref_ok (st_heap st) [] x.
Proof.
  intros HS Hx. pose proof (c_ok _ _ _ HS) as H. rewrite Forall_forall in H. apply H. apply in_or_app. left. apply in_or_app. left. exact Hx.
Qed.
Lemma sinv_pull st i x rest : SInv st -> pull i (st_handles st) = Some (x, rest) -> Core (st_heap st) [] (x :: (rest ++ st_lost st) ++ inner [] (st_heap st)).
Proof.
  intros HS Hp. apply pull_perm in Hp. apply (Core_perm _ _ _ _ (Permutation_app_tail _ (Permutation_app_tail _ Hp)) HS).
Qed.
Lemma clone_inv st c all : Core (st_heap st) [] all -> In (HRef c) all -> exists h', clone_cell c (st_heap st) = ROk h' /\ Core h' [] (HRef c :: all) /\
  inner [] h' = inner [] (st_heap st) /\ length (hp_blocks h') = length (hp_blocks (st_heap st)) /\ kept [] (st_heap st) h'.
Proof.
  intros HC Hin. unfold clone_cell. pose proof (c_ok _ _ _ HC) as Ho. rewrite Forall_forall in Ho. destruct (Ho _ Hin) as [Hv Hx]. tgt_in Hx.
  destruct (cell_header c) as [a|] eqn:E.
  - destruct (Hx a eq_refl) as (_ & b & Hf & _). unfold counter_update. rewrite Hf. cbn [rbind]. eexists. split; [reflexivity|].
    split; [apply Core_clone; auto; tgt; congruence|]. split; [apply inner_store_count, Hf|]. split; [apply length_set|]. apply kept_store_count; auto.
  - eexists. split; [reflexivity|]. split; [apply Core_plain; [exact HC|exact E|destruct c; [exact I|exact Hv]]|]. split; [reflexivity|]. split; [reflexivity|apply kept_refl].
Qed.
Lemma kept_content h h' a b b' : kept [] h h' -> find a h = Some b -> find a h' = Some b' -> same_content b b'.
Proof. intros [K _] Hb Hb'. destruct (K a b' Hb') as (b0 & E & S). congruence. Qed.
Lemma kept_blocks (w c : option Z) h h' : kept [] h h' ->
  forall a b', find a h' = Some b' -> c = Some a \/ exists b, find a h = Some b /\ (w <> Some a -> same_content b b').
Proof. intros [K _] a b' Hb'. right. destruct (K a b' Hb') as (b & E & S). exists b. auto. Qed.

(** Dropping a handle. *)
Lemma drop_handle_inv fuel x h roots : (length (hp_blocks h) < fuel)%nat -> Inv h [] (x :: roots) ->
  (drop_handle fuel x h = RPanic /\ bad (x :: roots ++ inner [] h))
  \/ exists h', drop_handle fuel x h = ROk h' /\ Inv h' [] roots /\ (length (hp_blocks h') <= length (hp_blocks h))%nat /\ kept [] h h' /\ incl (inner [] h') (inner [] h).
Proof.
  intros Hfu HI. assert (El : forall h, live [] h = length (hp_blocks h)) by (intros; apply live_nil). rewrite <- El in Hfu. rewrite <- (El h). destruct x as [k a|c]; cbn [drop_handle].
  - pose proof (Forall_inv (c_ok _ _ _ HI)) as [_ Hx]. destruct (Hx a eq_refl) as (_ & b & Hf & Hk).
    assert (Hc : b_count b = 0) by (apply (c_mut _ _ _ HI k a b); [left; reflexivity|exact Hf]).
    assert (Hpos : exists n, live [] h = S n).
    { pose proof (live_aside [] a b b (hp_blocks h) (c_nodup _ _ _ HI) (fun H => H) Hf) as E. eexists. exact E. }
    destruct Hpos as (n & En).
    pose proof (delete_inv fuel n (HMut k a) a b (b_count b) h [] roots) as D. cbn [hkind] in D.
    rewrite (with_count_same b (b_count b) eq_refl), (store_same a b h Hf) in D.
    destruct D as [D|(h' & D1 & D2 & D3 & D4 & D5)]; auto.
    + intros c' h' zs' roots' Hl HI'. apply (drop_cell_inv n); auto; lia.
    + lia.
    + right. exists h'. rewrite <- (El h'). auto.
  - destruct (drop_cell_inv (live [] h) fuel c h [] roots (le_n _) Hfu HI) as [D|(h' & D1 & D2 & D3 & D4 & D5)]; [left; exact D|].
    right. exists h'. rewrite <- (El h'). auto.
Qed.

Lemma cells_count k len cs : cells_ok k len cs = true -> forall b, b_kind b = k -> b_len b = len -> b_cells b = cs -> slots b = Z.of_nat (length cs).
Proof.
  intros H b Ek El Ec. unfold slots. rewrite Ek, El, Ec. destruct k; cbn [cells_ok] in H.
  - destruct cs; [reflexivity|discriminate].
  - apply andb_true_iff in H as [_ H]. apply Z.eqb_eq in H. lia.
  - apply andb_true_iff in H as [_ H]. apply Z.eqb_eq in H. lia.
  - destruct cs; [reflexivity|discriminate].
  - reflexivity.
Qed.
Lemma cells_len k len cs : cells_ok k len cs = true -> 0 <= len.
Proof.
  destruct k; cbn [cells_ok]; intros H; try (destruct cs; [apply Z.leb_le, H|discriminate]); apply andb_true_iff in H as [H1 H2];
    try (apply Z.eqb_eq in H2; lia). apply Z.eqb_eq in H1. lia.
Qed.
Lemma read_cell_ok h zs all k a b j : Core h zs all -> find a h = Some b -> b_kind b = k ->
  (read_cell k a j h = RPanic /\ (length (b_cells b) <= j)%nat) \/ exists c, read_cell k a j h = ROk c /\ nth_error (b_cells b) j = Some c.
Proof.
  intros HC Hf Hk. unfold read_cell. rewrite Hf, (proj2 (kind_eqb_eq _ _) Hk). cbn [negb].
  destruct (c_block _ _ _ HC a b Hf) as (_ & Hcells & _). pose proof (cells_count _ _ _ Hcells b eq_refl eq_refl eq_refl) as Es.
  destruct (Z.leb_spec (slots b) (Z.of_nat j)); [left; split; [reflexivity|lia]|]. right. destruct (nth_error (b_cells b) j) as [c|] eqn:En; [exists c; auto|].
  exfalso. apply nth_error_None in En. lia.
Qed.
Lemma inner_cell h a b c : find a h = Some b -> In c (b_cells b) -> In (HRef c) (inner [] h).
Proof.
  intros Hf Hc. unfold inner. rewrite inner_nil. apply in_flat_map. exists (a, b). split; [apply assoc_in, Hf|]. apply in_map, Hc.
Qed.
Lemma get_cell_inv st k a b j : SInv st -> find a (st_heap st) = Some b -> b_kind b = k ->
  (get_cell k a j st = RPanic /\ (length (b_cells b) <= j)%nat) \/ exists st', get_cell k a j st = ROk st' /\ step_ok st None None st' /\ kept [] (st_heap st) (st_heap st') /\ st_lost st' = st_lost st.
Proof.
  intros HS Hf Hk. unfold get_cell. destruct (read_cell_ok _ _ _ k a b j HS Hf Hk) as [[E1 E2]|(c & E & Hn)].
  - left. rewrite E1. auto.
  - right. rewrite E. cbn [rbind]. apply nth_error_In in Hn.
    destruct (clone_inv st c _ HS) as (h' & Ec & HC & Ei & El & K); [apply in_or_app; right; apply (inner_cell _ a b); assumption|].
    rewrite Ec. cbn [rbind]. eexists. split; [reflexivity|]. split; [|split; [exact K|reflexivity]].
    split; [|split].
    + unfold SInv, Inv. cbn [st_heap st_handles st_lost]. rewrite Ei. exact HC.
    + unfold nblocks. cbn [st_heap]. lia.
    + apply kept_blocks, K.
Qed.
Lemma swap_cell_inv st i n k a x c rest rest2 keep j : SInv st -> pull i (st_handles st) = Some (x, rest) -> pull n rest = Some (HRef c, rest2) ->
  target x = Some a -> hkind x = k -> keep = x :: rest2 ->
  match swap_cell k a j c keep st with
  | ROk st' => step_ok st (Some a) None st' /\ (exists b old, find a (st_heap st) = Some b /\ nth_error (b_cells b) j = Some old
      /\ st' = {| st_heap := store a (with_cells b (set_nth j c (b_cells b))) (st_heap st); st_handles := HRef old :: keep; st_lost := st_lost st |})
  | RPanic => True | RStuck => True | _ => False end.
Proof.
  intros HS Hp Hn Ht Hk ->. pose proof (sinv_pull st i x rest HS Hp) as HC. pose proof (Forall_inv (c_ok _ _ _ HC)) as [_ Hx]. destruct (Hx a Ht) as (_ & b & Hf & Hkb).
  unfold swap_cell. destruct (read_cell_ok _ _ _ k a b j HS Hf ltac:(congruence)) as [[E1 E2]|(old & E & Hj)]; [rewrite E1; exact I|].
  rewrite E. cbn [rbind]. rewrite Hf. destruct (cells_ok k (b_len b) (set_nth j c (b_cells b))) eqn:Ec; [|exact I].
  split; [|exists b, old; auto]. set (b' := with_cells b (set_nth j c (b_cells b))) in *.
  destruct (c_block _ _ _ HS a b Hf) as (Hsz & _ & Hr).
  assert (P : Permutation (x :: (rest ++ st_lost st) ++ inner [] (st_heap st)) ((HRef old :: x :: rest2 ++ st_lost st) ++ inner [] (store a b' (st_heap st)))).
  { apply pull_perm in Hn. rewrite Hn. cbn [app]. rewrite (perm_swap x (HRef old)). apply perm_skip. rewrite !Permutation_middle. apply Permutation_app_head.
    symmetry. apply (inner_set_cells [] a b old c j (hp_blocks (st_heap st)) Hf (fun H => H) Hj). }
  pose proof (Core_perm _ _ _ _ P HC) as HC'.
  destruct (c_count _ _ _ HC' a b Hf (fun H => H)) as [Hp0 Hc0].
  split; [|split].
  - unfold SInv, Inv. cbn [st_heap st_handles st_lost].
    apply (Core_update (st_heap st) [] _ a b b' _ HC' Hf (fun H => H)); auto; try reflexivity.
    + split; [exact Hsz|]. split; [|exact Hr]. cbn [b' with_cells b_kind b_len b_cells]. rewrite Hkb, Hk. exact Ec.
    + exact (c_ok _ _ _ HC').
    + intros k' y Hy. destruct (Z.eqb_spec y a) as [->|]; [|exact Hy]. exact (c_mut _ _ _ HC' k' a b Hy Hf).
  - unfold nblocks. cbn [st_heap store hp_blocks]. rewrite length_set. lia.
  - intros y d' Hd'. right. cbn [st_heap] in Hd'. destruct (Z.eq_dec y a) as [->|Hne]; [exists b; split; [exact Hf|congruence]|].
    rewrite find_store_other in Hd' by exact Hne. exists d'. split; [exact Hd'|intros _; apply same_content_refl].
Qed.

Lemma pull_nth {A} i (l : list A) x r : pull i l = Some (x, r) -> nth_error l i = Some x.
Proof.
  revert l r. induction i as [|i IH]; intros [|y l] r H; cbn [pull nth_error] in *; try discriminate; [congruence|].
  destruct (pull i l) as [[z l']|] eqn:E; [|discriminate]. injection H as -> <-. apply (IH l l' E).
Qed.
Lemma of_outcome_cases {A} (x : outcome A) : (exists a, x = Ok a) \/ x = Panic \/ x = NoFuel.
Proof. destruct x; eauto. Qed.
Lemma alloc_size_total k len : alloc_size k len <> NoFuel.
Proof.
  assert (Fa : forall t a adj, field_align_to t a adj <> NoFuel).
  { intros t a adj. unfold field_align_to. destruct (negb _); [discriminate|]. destruct (adj <? _); [discriminate|]. unfold align_to, usub.
    destruct (1 <=? adj); [|discriminate]. cbn [obind]. unfold uadd. destruct (_ <=? _); discriminate. }
  assert (Ua : forall a b, uadd a b <> NoFuel) by (intros a b; unfold uadd; destruct (_ <=? _); discriminate).
  unfold alloc_size. destruct (kind_size k len) as [s| |] eqn:Es; cbn [obind]; try discriminate.
  2:{ exfalso. destruct k; cbn [kind_size] in Es; try discriminate; unfold flexible_size in Es;
      destruct (flexible_header_layout isize_ty _) as [f| |] eqn:Ef; try discriminate; cbn [obind] in Es;
      try (apply (Fa _ _ _ Ef)); unfold umul in Es; destruct (_ <=? _) in Es; try discriminate; cbn [obind] in Es; apply (Ua _ _ Es). }
  destruct (kind_align k) as [al| |] eqn:Ea; cbn [obind]; try discriminate.
  2:{ exfalso. destruct k; cbn [kind_align] in Ea; try discriminate; unfold flexible_align in Ea;
      destruct (flexible_header_layout isize_ty _) as [f| |] eqn:Ef; try discriminate; apply (Fa _ _ _ Ef). }
  unfold block_layout, block_header_layout. destruct (field_align_to isize_ty _ al) as [f| |] eqn:Ef; cbn [obind]; try discriminate; [|destruct (Fa _ _ _ Ef)].
  unfold field_layout_layout at 1. destruct (uadd (fl_size f) s) as [z| |] eqn:Ez; cbn [obind]; try discriminate; [|destruct (Ua _ _ Ez)].
  unfold local_layout. destruct (field_align_to _ u8_ty _) as [g| |] eqn:Eg; cbn [obind]; try discriminate; [|destruct (Fa _ _ _ Eg)].
  unfold field_layout_layout. destruct (uadd (fl_size g) _) as [y| |] eqn:Ey; cbn [obind]; try discriminate. destruct (Ua _ _ Ey).
Qed.

Definition step_result (o : op) (st : state) (r : res state) : Prop :=
  match r with
  | ROk st' => step_ok st (written o st) (created o) st'
  | RPanic => may_panic o st
  | RStuck => True
  | RFault | RNoFuel => False
  end.

Lemma drop_step st i x rest fuel all : SInv st -> (nblocks st < fuel)%nat -> pull i (st_handles st) = Some (x, rest) -> all = rest ->
  (drop_handle fuel x (st_heap st) = RPanic /\ ~ no_any_bigint st)
  \/ exists h', drop_handle fuel x (st_heap st) = ROk h' /\
     step_ok st None None {| st_heap := h'; st_handles := all; st_lost := st_lost st |} /\ kept [] (st_heap st) h'.
Proof.
  intros HS Hfu Hp ->. pose proof (sinv_pull st i x rest HS Hp) as HC.
  destruct (drop_handle_inv fuel x (st_heap st) (rest ++ st_lost st) Hfu HC) as [[E B]|(h' & E & HI & Hl & K & _)].
  - left. split; [exact E|]. intros Hno. destruct (bad_bigint _ _ _ HC B) as (v & Hv & Hb).
    rewrite (Hno v) in Hb; [discriminate|]. rewrite references_inner.
    apply (Permutation_in _ (Permutation_sym (Permutation_app_tail _ (Permutation_app_tail _ (pull_perm _ _ _ _ Hp))))). exact Hv.
  - right. exists h'. split; [exact E|]. split; [|exact K]. split; [exact HI|]. split; [unfold nblocks; cbn [st_heap]; lia|].
    apply kept_blocks, K.
Qed.

Lemma oob i j st x a b : nth_error (st_handles st) i = Some x -> target x = Some a -> find a (st_heap st) = Some b -> (length (b_cells b) <= j)%nat -> out_of_bounds i j st.
Proof. intros H1 H2 H3 H4. exists x, a, b. split; [exact H1|]. split; [exact H2|]. split; [apply assoc_in, H3|exact H4]. Qed.
Lemma swap_oob st i n k a x c rest rest2 keep j : SInv st -> pull i (st_handles st) = Some (x, rest) -> pull n rest = Some (HRef c, rest2) ->
  target x = Some a -> hkind x = k -> swap_cell k a j c keep st = RPanic -> out_of_bounds i j st.
Proof.
  intros HS Hp Hn Ht Hk. pose proof (sinv_pull st i x rest HS Hp) as HC. pose proof (Forall_inv (c_ok _ _ _ HC)) as [_ Hx]. destruct (Hx a Ht) as (_ & b & Hf & Hkb).
  unfold swap_cell. destruct (read_cell_ok _ _ _ k a b j HS Hf ltac:(congruence)) as [[E1 E2]|(old & E & Hj)].
  - intros _. apply (oob i j st x a b); auto. apply (pull_nth _ _ _ _ Hp).
  - rewrite E. cbn [rbind]. rewrite Hf. destruct (cells_ok _ _ _); discriminate.
Qed.

Lemma same_heap st hs : SInv {| st_heap := st_heap st; st_handles := hs; st_lost := st_lost st |} ->
  step_ok st None None {| st_heap := st_heap st; st_handles := hs; st_lost := st_lost st |}.
Proof.
  intros H. split; [exact H|]. split; [unfold nblocks; cbn [st_heap]; lia|]. apply kept_blocks, kept_refl.
Qed.

Lemma step_inv o st fuel : keeps_headers o = true -> SInv st -> (nblocks st < fuel)%nat -> step_result o st (step fuel o st).
Proof.
  intros Hk HS Hfu. destruct o as [k len is a|v|i|i|i|i|i|i|k i|i j|k i j|i j n|i j n|i n|k i n]; cbn [step]; try discriminate Hk.
  - (* ONew *)
    destruct (pull_cells is (st_handles st)) as [[cs rest]|] eqn:Ep; [|exact I]. destruct (cells_ok k len cs) eqn:Ec; cbn [negb]; [|exact I].
    destruct (alloc_size k len) as [size| |] eqn:Es; cbn [of_outcome rbind step_result may_panic].
    2:{ intros Hr. rewrite (alloc_size_bytes k len Hr (cells_len _ _ _ Ec)) in Es. destruct (Z.ltb_spec (bytes k len) (2 ^ 64)); [discriminate|assumption]. } 2:{ exact (alloc_size_total k len Es). }
    destruct ((0 <=? a) && (a <? 2 ^ 48)) eqn:Ea; cbn [andb]; [|exact I]. apply andb_true_iff in Ea as [Ea1 Ea2]. apply Z.leb_le in Ea1. apply Z.ltb_lt in Ea2.
    destruct (find a (st_heap st)) eqn:Ef; [exact I|]. cbn [step_result].
    set (b := {| b_kind := k; b_count := 0; b_len := len; b_cells := cs; b_size := size |}).
    split; [|split].
    + unfold SInv, Inv. cbn [st_heap st_handles st_lost]. unfold inner. cbn [hp_blocks inner_of inb existsb b b_cells]. fold (inner [] (st_heap st)).
      pose proof (Core_perm _ _ _ _ (Permutation_app_tail _ (Permutation_app_tail _ (pull_cells_perm _ _ _ _ Ep))) HS) as HC.
      pose proof (Core_new _ _ _ a b HC Ef) as HN. cbn [b b_kind b_size] in HN. 
      refine (Core_perm _ _ _ _ _ (HN _ eq_refl)).
      * cbn [app]. apply perm_skip. rewrite <- !app_assoc. rewrite (Permutation_app_comm (map HRef cs)). rewrite <- !app_assoc.
        do 2 apply Permutation_app_head. apply Permutation_app_comm.
      * split; [exact Es|]. split; [exact Ec|]. lia.
    + unfold nblocks. cbn [st_heap hp_blocks length]. lia.
    + intros x d' Hd'. cbn [st_heap] in Hd'. unfold find in Hd'. cbn [hp_blocks assoc] in Hd'. destruct (Z.eqb_spec a x) as [->|]; [left; reflexivity|].
      right. exists d'. split; [exact Hd'|intros _; apply same_content_refl].
  - (* OPlain *)
    destruct ((0 <=? v) && (v <? 2 ^ 64)) eqn:Ev; cbn [andb]; [|exact I]. apply andb_true_iff in Ev as [Ev1 Ev2]. apply Z.leb_le in Ev1. apply Z.ltb_lt in Ev2.
    destruct (is_ref v) eqn:Er; cbn [negb]; [exact I|]. apply same_heap.
    apply (Core_plain (st_heap st) [] (CAny v) _ HS); [cbn [cell_header]; unfold block_header; rewrite Er; reflexivity|split; assumption].
  - (* OToRef *)
    destruct (pull i (st_handles st)) as [[[k a|c] rest]|] eqn:Ep; [|exact I|exact I]. apply same_heap.
    apply (Core_replace _ _ (HMut k a) (HRef (CTyped k a)) _ (sinv_pull st i _ _ HS Ep)); auto. discriminate.
  - (* OTryToMut *)
    destruct (pull i (st_handles st)) as [[[k a|[k a|v]] rest]|] eqn:Ep; [exact I| |exact I|exact I].
    pose proof (sinv_pull st i _ _ HS Ep) as HC. pose proof (Forall_inv (c_ok _ _ _ HC)) as [_ Hx]. destruct (Hx a eq_refl) as (_ & b & Hf & _).
    unfold counter_update. rewrite Hf. cbn [rbind]. rewrite (with_count_same b) by lia. rewrite store_same by exact Hf. apply same_heap.
    unfold try_to_mut. destruct (Z.eqb_spec (b_count b) 0) as [E|E]; [|exact HC].
    apply (Core_replace _ _ (HRef (CTyped k a)) (HMut k a) _ HC); auto. intros k' a' b' [= <- <-] Hb'. congruence.
  - (* OClone *)
    destruct (nth_error (st_handles st) i) as [[k a|c]|] eqn:En; [exact I| |exact I]. apply nth_error_In in En.
    destruct (clone_inv st c _ HS) as (h' & Ec & HC & Ei & El & K); [apply in_or_app; left; apply in_or_app; left; exact En|].
    rewrite Ec. cbn [rbind step_result]. split; [|split].
    + unfold SInv, Inv. cbn [st_heap st_handles st_lost]. rewrite Ei. exact HC.
    + unfold nblocks. cbn [st_heap]. lia.
    + apply kept_blocks, K.
  - (* ODrop *)
    destruct (pull i (st_handles st)) as [[x rest]|] eqn:Ep; [|exact I].
    destruct (drop_step st i x rest fuel rest HS Hfu Ep eq_refl) as [[E B]|(h' & E & Hok & K)]; rewrite E; cbn [rbind step_result]; assumption.
  - (* OForget *)
    destruct (pull i (st_handles st)) as [[x rest]|] eqn:Ep; [|exact I]. cbn [step_result]. split; [|split; [unfold nblocks; cbn [st_heap]; lia|]].
    + unfold SInv, Inv. cbn [st_heap st_handles st_lost]. refine (Core_perm _ _ _ _ _ (sinv_pull st i _ _ HS Ep)).
      rewrite <- !app_assoc. cbn [app]. apply Permutation_middle.
    + apply kept_blocks, kept_refl.
  - (* OToAny *)
    destruct (pull i (st_handles st)) as [[[k a|[k a|v]] rest]|] eqn:Ep; [exact I| |exact I|exact I].
    destruct (any_bits k a) as [v|] eqn:Ev; [|exact I]. pose proof (sinv_pull st i _ _ HS Ep) as HC.
    pose proof (Forall_inv (c_ok _ _ _ HC)) as [_ Hx]. destruct (Hx a eq_refl) as (_ & b & Hf & _). destruct (c_block _ _ _ HS a b Hf) as (_ & _ & Ha).
    destruct (any_bits_ok k a v Ev Ha) as (Hv & Hb & Hkv). apply same_heap.
    apply (Core_replace _ _ (HRef (CTyped k a)) (HRef (CAny v)) _ HC); auto; [tgt; exact Hb|discriminate].
  - (* OTryMove *)
    destruct (pull i (st_handles st)) as [[[k0 a|[k0 a|v]] rest]|] eqn:Ep; try exact I. destruct (kind_type k) as [t|] eqn:Et; [|exact I].
    pose proof (sinv_pull st i _ _ HS Ep) as HC. destruct (is_type t v) eqn:Ei.
    + apply same_heap. pose proof (Forall_inv (c_ok _ _ _ HC)) as [Hv _]. destruct (any_kind_type v k t Hv Et Ei) as (Hr & Hkv & Ha).
      apply (Core_replace _ _ (HRef (CAny v)) (HRef (CTyped k (raw_address t v))) _ HC); auto; [|discriminate].
      tgt. unfold block_header. rewrite Hr, Ha. reflexivity.
    + destruct (drop_step st i _ rest fuel rest HS Hfu Ep eq_refl) as [[E B]|(h' & E & Hok & K)]; cbn [drop_handle] in E; rewrite E; cbn [rbind step_result]; assumption.
  - (* OGet *)
    assert (G : forall x k a, nth_error (st_handles st) i = Some x -> target x = Some a -> hkind x = k -> step_result (OGet i j) st (get_cell k a j st)).
    { intros x k a En Ht Hkx. destruct (sinv_in st x HS (nth_error_In _ _ En)) as [_ Hx]. destruct (Hx a Ht) as (_ & b & Hf & Hkb).
      destruct (get_cell_inv st k a b j HS Hf ltac:(congruence)) as [[E B]|(st' & E & Hok & _)]; rewrite E; cbn [step_result]; [|exact Hok].
      apply (oob i j st x a b En Ht Hf B). }
    destruct (nth_error (st_handles st) i) as [[k a|[k a|v]]|] eqn:En; try exact I; (eapply G; [reflexivity|reflexivity|reflexivity]).
  - (* OTryRefGet *)
    destruct (nth_error (st_handles st) i) as [[k0 a|[k0 a|v]]|] eqn:En; try exact I. destruct (kind_type k) as [t|] eqn:Et; [|exact I].
    assert (Hid : step_ok st (written (OTryRefGet k i j) st) None st).
    { split; [exact HS|]. split; [lia|]. apply kept_blocks, kept_refl. }
    destruct (try_ref t v) as [a|] eqn:Er; [|exact Hid].
    destruct (sinv_in st _ HS (nth_error_In _ _ En)) as [Hv Hx]. unfold try_ref in Er. destruct (subset_of t) as [s|] eqn:Es; [|discriminate].
    destruct (has s v) eqn:Eh; [|discriminate]. injection Er as <-. assert (Ei : is_type t v = true) by (unfold is_type; rewrite Es; exact Eh).
    destruct (any_kind_type v k t Hv Et Ei) as (Hr & Hkv & _). tgt_in Hx. unfold block_header in Hx. rewrite Hr in Hx.
    destruct (Hx _ eq_refl) as (_ & b & Hf & Hkb). cbn [hkind] in Hkb.
    destruct (get_cell_inv st k _ b j HS Hf ltac:(congruence)) as [[E B]|(st' & E & Hok & _)]; rewrite E; cbn [step_result]; [|exact Hok].
    apply (oob i j st (HRef (CAny v)) (Z.land v REF_SUBSET_SUPERPOSITION) b En); [tgt; unfold block_header; rewrite Hr; reflexivity|exact Hf|exact B].
  - (* OSet *)
    destruct (pull i (st_handles st)) as [[[k a|c] rest]|] eqn:Ep; [|exact I|exact I]. destruct (pull n rest) as [[[k' a'|c] rest2]|] eqn:En; [exact I| |exact I].
    pose proof (swap_cell_inv st i n k a (HMut k a) c rest rest2 _ j HS Ep En eq_refl eq_refl eq_refl) as HW.
    destruct (swap_cell k a j c (HMut k a :: rest2) st) eqn:E; cbn [step_result]; auto.
    + cbn [written]. rewrite (pull_nth _ _ _ _ Ep). apply HW.
    + apply (swap_oob st i n k a (HMut k a) c rest rest2 _ j HS Ep En eq_refl eq_refl E).
  - (* OCell *)
    destruct (pull i (st_handles st)) as [[[k a|[[| | | |t] a|v]] rest]|] eqn:Ep; try exact I. destruct (pull n rest) as [[[k' a'|c] rest2]|] eqn:En; [exact I| |exact I].
    pose proof (swap_cell_inv st i n _ a (HRef (CTyped (KFixed t) a)) c rest rest2 _ j HS Ep En eq_refl eq_refl eq_refl) as HW. cbn [hkind] in HW.
    destruct (swap_cell (KFixed t) a j c _ st) eqn:E; cbn [step_result]; auto.
    + cbn [written]. rewrite (pull_nth _ _ _ _ Ep). apply HW.
    + apply (swap_oob st i n _ a (HRef (CTyped (KFixed t) a)) c rest rest2 _ j HS Ep En eq_refl eq_refl E).
Qed.

(** ** Histories *)
Lemma run_inv os : forall st fuel, forallb keeps_headers os = true -> SInv st -> (nblocks st + length os < fuel)%nat ->
  match run fuel os st with
  | ROk st' => SInv st' /\ (nblocks st' <= nblocks st + length os)%nat
  | RFault | RNoFuel => False
  | RPanic | RStuck => True
  end.
Proof.
  induction os as [|o os IH]; intros st fuel Hk HS Hfu; cbn [run forallb length] in *.
  - split; [exact HS|lia].
  - apply andb_true_iff in Hk as [Ho Hk]. pose proof (step_inv o st fuel Ho HS ltac:(lia)) as Hst.
    destruct (step fuel o st) as [st1| | | |]; cbn [rbind step_result] in *; auto. destruct Hst as (HS1 & Hn & _).
    specialize (IH st1 fuel Hk HS1 ltac:(lia)). destruct (run fuel os st1); auto. destruct IH. split; [assumption|lia].
Qed.

(** ** Cycles *)

(** Ranks: a block holds references to blocks of smaller rank only. *)
Definition ranked (h : heap) : Prop :=
  exists rk : Z -> nat, forall a b c t, find a h = Some b -> In c (b_cells b) -> cell_target c = Some t -> (rk t < rk a)%nat.
Lemma step_lost o st fuel st' : plain_op o = true -> step fuel o st = ROk st' -> st_lost st' = st_lost st.
Proof.
  intros Hp H. destruct o as [k len is a|v|i|i|i|i|i|i|k i|i j|k i j|i j n|i j n|i n|k i n]; cbn [step] in H; try discriminate Hp;
    unfold get_cell, swap_cell, rbind in H;
    repeat match type of H with context [match ?x with _ => _ end] => destruct x eqn:?; try discriminate H end;
    injection H as <-; reflexivity.
Qed.

Lemma max_rank (rk : Z -> nat) (cs : list cell) : exists m, forall c t, In c cs -> cell_target c = Some t -> (rk t < m)%nat.
Proof.
  induction cs as [|c cs (m & IH)]; [exists O; intros c t []|]. destruct (cell_target c) as [x|] eqn:E.
  - exists (S (rk x + m))%nat. intros d t [<-|Hd] Ht; [rewrite E in Ht; injection Ht as <-; lia|specialize (IH d t Hd Ht); lia].
  - exists m. intros d t [<-|Hd] Ht; [congruence|apply (IH d t Hd Ht)].
Qed.
Lemma ranked_write h h' rk a : (forall a b c t, find a h = Some b -> In c (b_cells b) -> cell_target c = Some t -> (rk t < rk a)%nat) ->
  (forall x b', x <> a -> find x h' = Some b' -> exists b, find x h = Some b /\ b_cells b' = b_cells b) ->
  (forall x b' c, find x h' = Some b' -> In c (b_cells b') -> cell_target c <> Some a) -> ranked h'.
Proof.
  intros Hrk Ho Hno. destruct (find a h') as [b|] eqn:Eb.
  - destruct (max_rank rk (b_cells b)) as (m & Hm). exists (fun x => if x =? a then m else rk x). intros x d c t Hx Hc Ht.
    assert (Hta : t <> a) by (intros ->; exact (Hno x d c Hx Hc Ht)). destruct (Z.eqb_spec t a); [contradiction|]. destruct (Z.eqb_spec x a) as [->|Hxa].
    + rewrite Eb in Hx. injection Hx as ->. apply (Hm c t Hc Ht).
    + destruct (Ho x d Hxa Hx) as (d0 & Hd0 & Ec). rewrite Ec in Hc. apply (Hrk x d0 c t Hd0 Hc Ht).
  - exists rk. intros x d c t Hx Hc Ht. assert (Hxa : x <> a) by congruence. destruct (Ho x d Hxa Hx) as (d0 & Hd0 & Ec). rewrite Ec in Hc. apply (Hrk x d0 c t Hd0 Hc Ht).
Qed.
(** No place refers to a block with a mutable reference. *)
Lemma mut_exclusive h all k a all' : Core h [] all -> Permutation all (HMut k a :: all') -> forall x, In x all' -> target x <> Some a.
Proof.
  intros HC P. pose proof (Core_perm _ _ _ _ P HC) as HC'. pose proof (Forall_inv (c_ok _ _ _ HC')) as [_ Hx]. destruct (Hx a eq_refl) as (_ & b & Hf & _).
  pose proof (c_mut _ _ _ HC' k a b (or_introl eq_refl) Hf) as E0. destruct (c_count _ _ _ HC' a b Hf (fun H => H)) as [_ Ec].
  rewrite cnt_cons, E0 in Ec. unfold refers in Ec. cbn [target] in Ec. rewrite Z.eqb_refl in Ec. apply cnt_zero. lia.
Qed.
Lemma step_ranked o st fuel st' : plain_op o = true -> SInv st -> (nblocks st < fuel)%nat -> step fuel o st = ROk st' -> ranked (st_heap st) -> ranked (st_heap st').
Proof.
  intros Hp HS Hfu E (rk & Hrk). pose proof (step_inv o st fuel) as Hst.
  assert (Hk : keeps_headers o = true) by (destruct o; auto; discriminate Hp). specialize (Hst Hk HS Hfu). rewrite E in Hst. destruct Hst as (HS' & _ & Hb).
  assert (G : written o st = None -> created o = None -> ranked (st_heap st')).
  { intros Hw Hc. exists rk. intros a b c t Ha Hi Ht. destruct (Hb a b Ha) as [Hcr|(b0 & Hb0 & Hs)]; [congruence|].
    destruct (Hs ltac:(congruence)) as (_ & _ & Ec & _). rewrite Ec in Hi. apply (Hrk a b0 c t Hb0 Hi Ht). }
  destruct o as [k len is a|v|i|i|i|i|i|i|k i|i j|k i j|i j n|i j n|i n|k i n]; try discriminate Hp; try (apply G; reflexivity); clear G.
  - (* ONew *) cbn [step] in E. destruct (pull_cells is (st_handles st)) as [[cs rest]|] eqn:Ep; [|discriminate].
    apply (ranked_write (st_heap st) (st_heap st') rk a Hrk).
    + intros x b' Hne Hx. destruct (Hb x b' Hx) as [Hcr|(b0 & Hb0 & Hs)]; [cbn [created] in Hcr; congruence|]. exists b0. split; [exact Hb0|].
      destruct (Hs ltac:(discriminate)) as (_ & _ & Ec & _). exact Ec.
    + assert (Hm : exists r, st_handles st' = HMut k a :: r).
      { destruct (negb _) in E; [discriminate|]. destruct (of_outcome _) in E; cbn [rbind] in E; try discriminate. destruct (_ && _) in E; [|discriminate]. injection E as <-. eexists. reflexivity. }
      destruct Hm as (r & Hr). intros x b' c Hx Hc. unfold SInv, Inv in HS'. rewrite Hr in HS'. cbn [app] in HS'.
      apply (mut_exclusive (st_heap st') _ k a _ HS' (Permutation_refl _) (HRef c)). apply in_or_app. right. apply (inner_cell _ x b' c Hx Hc).
  - (* OSet *) cbn [step] in E. destruct (pull i (st_handles st)) as [[[k a|c] rest]|] eqn:Ep; try discriminate. destruct (pull n rest) as [[[k' a'|c] rest2]|] eqn:En; try discriminate.
    pose proof (swap_cell_inv st i n k a (HMut k a) c rest rest2 _ j HS Ep En eq_refl eq_refl eq_refl) as HW. rewrite E in HW.
    destruct HW as (_ & b & old & Hf & Hj & Est).
    apply (ranked_write (st_heap st) (st_heap st') rk a Hrk).
    + intros x b' Hne Hx. exists b'. rewrite Est in Hx. cbn [st_heap] in Hx. rewrite find_store_other in Hx by exact Hne. auto.
    + intros x b' d Hx Hd. assert (P : Permutation ((st_handles st' ++ st_lost st') ++ inner [] (st_heap st')) (HMut k a :: (HRef old :: rest2 ++ st_lost st) ++ inner [] (st_heap st'))).
      { rewrite Est at 1 2. cbn [st_handles st_lost app]. apply perm_swap. }
      apply (mut_exclusive (st_heap st') _ k a _ HS' P (HRef d)). apply in_or_app. right. apply (inner_cell _ x b' d Hx Hd).
Qed.
Lemma run_ranked os : forall st fuel st', forallb plain_op os = true -> SInv st -> ranked (st_heap st) -> (nblocks st + length os < fuel)%nat ->
  run fuel os st = ROk st' -> SInv st' /\ ranked (st_heap st') /\ st_lost st' = st_lost st.
Proof.
  induction os as [|o os IH]; intros st fuel st' Hp HS Hr Hfu E; cbn [run forallb length] in *.
  - injection E as <-. auto.
  - apply andb_true_iff in Hp as [Ho Hp]. assert (Hk : keeps_headers o = true) by (destruct o; auto; discriminate Ho).
    pose proof (step_inv o st fuel Hk HS ltac:(lia)) as Hst. destruct (step fuel o st) as [st1| | | |] eqn:Es; try discriminate E. cbn [rbind step_result] in *.
    destruct Hst as (HS1 & Hn & _). pose proof (step_ranked o st fuel st1 Ho HS ltac:(lia) Es Hr) as Hr1.
    destruct (IH st1 fuel st' Hp HS1 Hr1 ltac:(lia) E) as (A & B & C). rewrite (step_lost o st fuel st1 Ho Es) in C. auto.
Qed.

(** ** What the invariant says *)
Lemma find_allocated st a : SInv st -> (allocated a st <-> exists b, find a (st_heap st) = Some b).
Proof.
  intros HS. split; intros (b & Hb); exists b; [apply (in_assoc a b _ (c_nodup _ _ _ HS) Hb)|apply assoc_in, Hb].
Qed.
Lemma count_cnt a st : Z.of_nat (reference_count a st) = cnt a ((st_handles st ++ st_lost st) ++ inner [] (st_heap st)).
Proof. unfold reference_count. rewrite references_inner. reflexivity. Qed.
Lemma sinv_count st a b : SInv st -> In (a, b) (hp_blocks (st_heap st)) -> Z.of_nat (reference_count a st) = b_count b + 1 /\ 0 <= b_count b.
Proof.
  intros HS Hb. apply (in_assoc a b _ (c_nodup _ _ _ HS)) in Hb. destruct (c_count _ _ _ HS a b Hb (fun H => H)) as [A B]. rewrite count_cnt. lia.
Qed.
Lemma sinv_refs st x a : SInv st -> In x (references st) -> target x = Some a -> exists b, In (a, b) (hp_blocks (st_heap st)) /\ b_kind b = hkind x.
Proof.
  intros HS Hx Ht. rewrite references_inner in Hx. pose proof (c_ok _ _ _ HS) as Ho. rewrite Forall_forall in Ho. destruct (Ho x Hx) as [_ H].
  destruct (H a Ht) as (_ & b & Hf & Hk). exists b. split; [apply assoc_in, Hf|exact Hk].
Qed.
Lemma allocated_reachable st : SInv st -> ranked (st_heap st) -> st_lost st = [] -> forall a, allocated a st -> reachable st a.
Proof.
  intros HS (rk & Hrk) Hl.
  assert (Hmax : exists m, forall a, allocated a st -> (rk a <= m)%nat).
  { unfold allocated. induction (hp_blocks (st_heap st)) as [|[x b] l (m & IH)]; [exists O; intros a (b & [])|].
    exists (rk x + m)%nat. intros a (d & [E|Hd]); [injection E as -> ->; lia|]. specialize (IH a (ex_intro _ d Hd)). lia. }
  destruct Hmax as (m & Hm).
  assert (G : forall n a, (m - rk a <= n)%nat -> allocated a st -> reachable st a).
  { induction n as [|n IH]; intros a Hn Ha; pose proof Ha as (b & Hb); destruct (sinv_count st a b HS Hb) as [Hc H0];
      rewrite count_cnt in Hc; destruct (cnt_pos a _ ltac:(rewrite Hc; lia)) as (x & Hx & Ht); rewrite Hl, app_nil_r in Hx; apply in_app_or in Hx as [Hx|Hx];
      try (apply (reach_handle st x a Hx Ht)); unfold inner in Hx; rewrite inner_nil in Hx; apply in_flat_map in Hx as ([p d] & Hd & Hx); cbn [snd] in Hx;
      apply in_map_iff in Hx as (c & <- & Hc'); cbn [target] in Ht;
      pose proof (Hrk p d c a (in_assoc p d _ (c_nodup _ _ _ HS) Hd) Hc' Ht) as Hlt; assert (Hp : allocated p st) by (exists d; exact Hd); pose proof (Hm p Hp).
    - lia.
    - apply (reach_block st p a); [apply IH; [lia|exact Hp]|]. exists d, c. auto. }
  intros a Ha. apply (G (m - rk a)%nat a (le_n _) Ha).
Qed.
Lemma reachable_allocated st : SInv st -> forall a, reachable st a -> allocated a st.
Proof.
  intros HS a H. induction H as [x a Hx Ht|a b Ha IH (d & c & Hd & Hc & Ht)].
  - destruct (sinv_refs st x a HS ltac:(unfold references; apply in_or_app; auto) Ht) as (b & Hb & _). exists b. exact Hb.
  - destruct (sinv_refs st (HRef c) b HS) as (e & He & _); [|exact Ht|exists e; exact He].
    unfold references. apply in_or_app. right. apply in_or_app. right. apply in_flat_map. exists (a, d). split; [exact Hd|]. apply in_map, Hc.
Qed.
Lemma init_ranked : ranked (st_heap init).
Proof. exists (fun _ => O). intros a b c t H. discriminate. Qed.
