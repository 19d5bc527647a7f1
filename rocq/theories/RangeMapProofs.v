(** Proofs about range maps. *)
From Coq Require Import ZArith List Bool Lia Sorting.Sorted.
From Coq Require Import ZifyBool ZifyNat.
From Verif Require Import Outcome RangeMapModel RangeMapSpec.
Import ListNotations.
Open Scope Z_scope.

(** Computable lookup, equivalent to [rm_at]. *)
Fixpoint look {T} (m : list (Z * option T)) (k : Z) : option T :=
  match m with
  | [] => None
  | (key, v) :: m' => if k <=? key then v else look m' k
  end.

Lemma look_at {T} (m : list (Z * option T)) k v : rm_at m k v <-> look m k = v.
Proof.
  induction m as [|[key w] m IH]; cbn [look].
  - split.
    + intros [[pre [key [post [E _]]]]|[E _]]; [destruct pre; discriminate|congruence].
    + intros <-. right. auto.
  - destruct (Z.leb_spec k key) as [L|L].
    + split.
      * intros [[pre [key' [post [E [H F]]]]]|[E F]].
        -- destruct pre as [|p pre]; cbn in E; [congruence|].
           injection E as E1 E2. subst p. apply Forall_inv in F. cbn in F. lia.
        -- apply Forall_inv in F. cbn in F. lia.
      * intros <-. left. exists [], key, m. auto.
    + rewrite <- IH. split.
      * intros [[pre [key' [post [E [H F]]]]]|[E F]].
        -- destruct pre as [|p pre]; cbn in E; [injection E as -> ->; lia|].
           injection E as E1 E2. left. exists pre, key', post. split; [exact E2|]. split; [exact H|].
           apply Forall_inv_tail in F. exact F.
        -- right. split; [exact E|]. apply Forall_inv_tail in F. exact F.
      * intros [[pre [key' [post [E [H F]]]]]|[E F]].
        -- left. exists ((key, w) :: pre), key', post. subst m. split; [reflexivity|]. split; [exact H|].
           constructor; auto.
        -- right. split; [exact E|]. constructor; auto.
Qed.

Lemma look_split {T} (m : list (Z * option T)) k i key v :
  nth_error m i = Some (key, v) -> k <= key ->
  (forall j e, (j < i)%nat -> nth_error m j = Some e -> fst e < k) -> look m k = v.
Proof.
  revert i. induction m as [|[key' w] m IH]; intros i Hn Hk Hlt; [destruct i; discriminate|].
  cbn [look]. destruct i as [|i].
  - cbn in Hn. injection Hn as -> ->. destruct (Z.leb_spec k key); [reflexivity|lia].
  - pose proof (Hlt O (key', w) ltac:(lia) eq_refl) as H0. cbn in H0.
    destruct (Z.leb_spec k key'); [lia|]. apply (IH i); auto.
    intros j e Hj He. apply (Hlt (S j)); [lia|exact He].
Qed.

Lemma look_none {T} (m : list (Z * option T)) k :
  (forall j e, nth_error m j = Some e -> fst e < k) -> look m k = None.
Proof.
  intros H. apply look_at. right. split; [reflexivity|]. apply Forall_forall. intros e He.
  apply In_nth_error in He as [j Hj]. eauto.
Qed.

Lemma sorted_nth {T} (m : list (Z * T)) i j x y : rm_sorted m -> (i < j)%nat ->
  nth_error m i = Some x -> nth_error m j = Some y -> fst x < fst y.
Proof.
  intros Hs. revert i j. induction Hs as [|a m Hs IH Ha]; intros i j Hij Hx Hy; [destruct i; discriminate|].
  destruct i as [|i], j as [|j]; try lia.
  - cbn in *. injection Hx as ->. rewrite Forall_forall in Ha. apply Ha. eapply nth_error_In; eauto.
  - cbn in *. eapply IH; [|eauto|eauto]. lia.
Qed.

Lemma get_loop_spec {T} (m : list (Z * option T)) key : rm_sorted m -> 
  forall fuel b e, 0 <= b -> b - 1 <= e -> e < Z.of_nat (length m) -> b <= Z.of_nat (length m) ->
  e - b + 1 < Z.of_nat fuel ->
  (forall j x, Z.of_nat j < b -> nth_error m j = Some x -> fst x < key) ->
  (forall j x, e < Z.of_nat j -> nth_error m j = Some x -> key <= fst x) ->
  get_loop fuel m (Z.of_nat (length m)) key b e = Ok (look m key).
Proof.
  intros Hs. induction fuel as [|fuel IH]; intros b e Hb Hbe He Hbl Hf Hlo Hhi; [lia|].
  cbn [get_loop]. destruct (Z.leb_spec (Z.of_nat (length m)) b) as [L|L].
  - f_equal. symmetry. apply look_none. intros j x Hj. apply (Hlo j x); auto.
    assert (j < length m)%nat by (apply nth_error_Some; congruence). lia.
  - destruct (Z.ltb_spec e b) as [L2|L2].
    + destruct (nth_error m (Z.to_nat b)) as [[k v]|] eqn:En.
      * f_equal. symmetry. apply look_split with (i := Z.to_nat b) (key := k); auto.
        -- apply (Hhi (Z.to_nat b) (k, v)); [lia|exact En].
        -- intros j x Hj Hx. apply (Hlo j x); [lia|exact Hx].
      * apply nth_error_None in En. lia.
    + rewrite Z.shiftr_div_pow2 by lia. change (2 ^ 1) with 2. set (mid := b + (e - b) / 2).
      assert (Hmid : b <= mid <= e) by (unfold mid; lia). clearbody mid.
      destruct (nth_error m (Z.to_nat mid)) as [[k v]|] eqn:En; [|apply nth_error_None in En; lia].
      destruct (Z.leb_spec key k) as [L3|L3].
      * apply IH; try lia; auto. intros j x Hj Hx.
        destruct (Z.eq_dec (Z.of_nat j) mid) as [E|E].
        -- replace (Z.to_nat mid) with j in En by lia. rewrite En in Hx. injection Hx as <-. exact L3.
        -- pose proof (sorted_nth m (Z.to_nat mid) j _ _ Hs ltac:(lia) En Hx) as H. cbn in H. lia.
      * apply IH; try lia; auto. intros j x Hj Hx.
        destruct (Z.eq_dec (Z.of_nat j) mid) as [E|E].
        -- replace (Z.to_nat mid) with j in En by lia. rewrite En in Hx. injection Hx as <-. exact L3.
        -- pose proof (sorted_nth m j (Z.to_nat mid) _ _ Hs ltac:(lia) Hx En) as H. cbn in H. lia.
Qed.

(** No panic and termination for any list, sorted or not. *)
Lemma get_loop_total {T} (m : list (Z * option T)) key :
  forall fuel b e, 0 <= b -> b - 1 <= e -> e < Z.of_nat (length m) -> b <= Z.of_nat (length m) ->
  e - b + 1 < Z.of_nat fuel ->
  exists v, get_loop fuel m (Z.of_nat (length m)) key b e = Ok v.
Proof.
  induction fuel as [|fuel IH]; intros b e Hb Hbe He Hbl Hf; [lia|].
  cbn [get_loop]. destruct (Z.leb_spec (Z.of_nat (length m)) b) as [L|L]; [eauto|].
  destruct (Z.ltb_spec e b) as [L2|L2].
  - destruct (nth_error m (Z.to_nat b)) as [[k v]|] eqn:En; [eauto|]. apply nth_error_None in En. lia.
  - rewrite Z.shiftr_div_pow2 by lia. change (2 ^ 1) with 2. set (mid := b + (e - b) / 2).
    assert (Hmid : b <= mid <= e) by (unfold mid; lia). clearbody mid.
    destruct (nth_error m (Z.to_nat mid)) as [[k v]|] eqn:En; [|apply nth_error_None in En; lia].
    destruct (Z.leb_spec key k); apply IH; lia.
Qed.

Lemma as_i32_small n : 0 <= n < 2 ^ 31 -> as_i32 n = n.
Proof. intros H. unfold as_i32. rewrite Z.mod_small by lia. lia. Qed.

Lemma rm_get_spec {T} (m : list (Z * option T)) key : rm_sorted m -> Z.of_nat (length m) < 2 ^ 31 ->
  rm_get m key = Ok (look m key).
Proof.
  intros Hs Hl. unfold rm_get. rewrite as_i32_small by lia.
  apply get_loop_spec; auto; try lia.
  intros j x Hj Hx. assert (j < length m)%nat by (apply nth_error_Some; congruence). lia.
Qed.

Lemma rm_get_total {T} (m : list (Z * option T)) key : Z.of_nat (length m) < 2 ^ 31 ->
  exists v, rm_get m key = Ok v.
Proof. intros Hl. unfold rm_get. rewrite as_i32_small by lia. apply get_loop_total; lia. Qed.

Section Merge.
Context {T : Type} (eqb : T -> T -> bool) (Heq : forall x y, eqb x y = true <-> x = y).

(** Pure union; the left operand on conflict. *)
Definition punion (a b : option T) : option T := match a with Some x => Some x | None => b end.
Definition agree (a b : option T) : Prop := forall x y, a = Some x -> b = Some y -> x = y.

Lemma union_ok a b : agree a b -> union eqb a b = Ok (punion a b).
Proof.
  intros H. destruct a as [x|], b as [y|]; cbn; auto.
  rewrite (H x y eq_refl eq_refl). rewrite (proj2 (Heq y y) eq_refl). reflexivity.
Qed.

Lemma union_inv a b v : union eqb a b = Ok v -> agree a b /\ v = punion a b.
Proof.
  destruct a as [x|], b as [y|]; cbn; intros H; try (injection H as <-; split; [unfold agree; congruence|reflexivity]).
  destruct (eqb x y) eqn:E; [|discriminate]. injection H as <-. apply Heq in E. subst y.
  split; [unfold agree; congruence|reflexivity].
Qed.

Definition keys_gt (m : list (Z * option T)) (k : Z) : Prop := Forall (fun e => k < fst e) m.

Lemma look_gt m k k' : keys_gt m k -> k' <= k -> (exists key v m', m = (key, v) :: m') ->
  look m k' = look m (match m with (key, _) :: _ => key | [] => 0 end).
Proof.
  intros Hg Hk [key [v [m' ->]]]. cbn [look]. apply Forall_inv in Hg. cbn in Hg.
  destruct (Z.leb_spec k' key); [|lia]. destruct (Z.leb_spec key key); [reflexivity|lia].
Qed.

Lemma merge_nil_r a : merge_iter eqb a [] = Ok a.
Proof. destruct a as [|[k v] a]; reflexivity. Qed.
Lemma merge_nil_l b : merge_iter eqb [] b = Ok b.
Proof. destruct b as [|[k v] b]; reflexivity. Qed.
Lemma merge_cons ka va a kb vb b : merge_iter eqb ((ka, va) :: a) ((kb, vb) :: b) =
  let! v := union eqb va vb in
  if kb <? ka then let! r := merge_iter eqb ((ka, va) :: a) b in Ok ((kb, v) :: r)
  else if ka <? kb then let! r := merge_iter eqb a ((kb, vb) :: b) in Ok ((ka, v) :: r)
  else let! r := merge_iter eqb a b in Ok ((ka, v) :: r).
Proof. reflexivity. Qed.

Lemma look_head_lt k v m k' : k < k' -> look ((k, v) :: m) k' = @look T m k'.
Proof. intros H. cbn [look]. destruct (Z.leb_spec k' k); [lia|reflexivity]. Qed.
Lemma look_head_ge k v m k' : k' <= k -> look ((k, v) :: m) k' = (v : option T).
Proof. intros H. cbn [look]. destruct (Z.leb_spec k' k); [reflexivity|lia]. Qed.

(** merge of sorted maps: either every key agrees and it returns the pointwise union, or it
    panics and some entry key is in conflict. *)
Lemma merge_spec (a b : list (Z * option T)) : rm_sorted a -> rm_sorted b ->
  (exists m : list (Z * option T), merge_iter eqb a b = Ok m /\ rm_sorted m /\
     (forall k, agree (look a k) (look b k)) /\
     (forall k, look m k = punion (look a k) (look b k)) /\
     (forall lo, keys_gt a lo -> keys_gt b lo -> keys_gt m lo) /\
     (length m <= length a + length b)%nat) \/
  (merge_iter eqb a b = Panic /\
     exists k, In k (map fst a ++ map fst b) /\ ~ agree (look a k) (look b k)).
Proof.
  remember (length a + length b)%nat as n eqn:Hn.
  revert a b Hn. induction n as [n IH] using lt_wf_ind. intros a b Hn Sa Sb.
  destruct a as [|[ka va] a].
  { left. exists b. rewrite merge_nil_l. split; [reflexivity|]. split; [exact Sb|].
    split; [intros k x y H; discriminate|]. split; [reflexivity|]. split; [auto|cbn in *; lia]. }
  destruct b as [|[kb vb] b].
  { left. exists ((ka, va) :: a). rewrite merge_nil_r. split; [reflexivity|]. split; [exact Sa|].
    split; [intros k x y _ H; discriminate|].
    split; [intros k; cbn [look punion]; destruct (if k <=? ka then va else look a k); reflexivity|].
    split; [auto|cbn in *; lia]. }
  rewrite merge_cons. destruct (StronglySorted_inv Sa) as [Sa' Ga]. destruct (StronglySorted_inv Sb) as [Sb' Gb].
  assert (Ga' : keys_gt a ka) by exact Ga. assert (Gb' : keys_gt b kb) by exact Gb. clear Ga Gb.
  destruct (union eqb va vb) as [v| |] eqn:Eu.
  2: { right. cbn [obind]. split; [reflexivity|]. exists (Z.min ka kb). split.
       - destruct (Z.min_spec ka kb) as [[_ ->]|[_ ->]]; [left; reflexivity|].
         apply in_or_app. right. left. reflexivity.
       - rewrite !look_head_ge by lia. intros H. rewrite (union_ok _ _ H) in Eu. discriminate. }
  2: { destruct va, vb; cbn in Eu; try discriminate. destruct (eqb t t0); discriminate. }
  apply union_inv in Eu as [Hag ->]. cbn [obind].
  assert (Hcase : forall (a' b' : list (Z * option T)) k0, (length a' + length b' < n)%nat -> rm_sorted a' -> rm_sorted b' ->
    keys_gt a' k0 -> keys_gt b' k0 -> k0 <= ka -> k0 <= kb -> k0 = Z.min ka kb ->
    (forall k, k0 < k -> look a' k = look ((ka, va) :: a) k) ->
    (forall k, k0 < k -> look b' k = look ((kb, vb) :: b) k) ->
    (forall k, In k (map fst a' ++ map fst b') -> In k (map fst ((ka, va) :: a) ++ map fst ((kb, vb) :: b))) ->
    (exists m : list (Z * option T), (let! r := merge_iter eqb a' b' in Ok ((k0, punion va vb) :: r)) = Ok m /\ rm_sorted m /\
     (forall k, agree (look ((ka, va) :: a) k) (look ((kb, vb) :: b) k)) /\
     (forall k, look m k = punion (look ((ka, va) :: a) k) (look ((kb, vb) :: b) k)) /\
     (forall lo, keys_gt ((ka, va) :: a) lo -> keys_gt ((kb, vb) :: b) lo -> keys_gt m lo) /\
     (length m <= S (length a' + length b'))%nat) \/
    ((let! r := merge_iter eqb a' b' in Ok ((k0, punion va vb) :: r)) = Panic /\
     exists k, In k (map fst ((ka, va) :: a) ++ map fst ((kb, vb) :: b)) /\
       ~ agree (look ((ka, va) :: a) k) (look ((kb, vb) :: b) k))).
  { intros a' b' k0 Hlen Sa2 Sb2 G1 G2 H1 H2 H3 La Lb HIn.
    destruct (IH _ Hlen a' b' eq_refl Sa2 Sb2) as [[m [Em [Sm [Hg [Hl [Hk Hlen']]]]]]|[Em [k [Hin Hk]]]].
    - left. exists ((k0, punion va vb) :: m). rewrite Em. split; [reflexivity|].
      assert (Gm : keys_gt m k0) by auto.
      split; [constructor; [exact Sm|exact Gm]|].
      split; [|split; [|split]].
      + intros k. destruct (Z_le_gt_dec k k0) as [L|L].
        * rewrite !look_head_ge by lia. exact Hag.
        * rewrite <- La, <- Lb by lia. apply Hg.
      + intros k. destruct (Z_le_gt_dec k k0) as [L|L].
        * rewrite !look_head_ge by lia. reflexivity.
        * rewrite look_head_lt, Hl, La, Lb by lia. reflexivity.
      + intros lo K1 K2. constructor.
        * apply Forall_inv in K1. apply Forall_inv in K2. cbn in *. lia.
        * assert (lo < k0) by (apply Forall_inv in K1; apply Forall_inv in K2; cbn in *; lia).
          eapply Forall_impl; [|exact Gm]. cbn. intros; lia.
      + cbn [length]. lia.
    - right. rewrite Em. split; [reflexivity|]. exists k. split; [auto|].
      assert (k0 < k).
      { apply in_app_or in Hin. unfold keys_gt in *. rewrite Forall_forall in G1, G2.
        destruct Hin as [Hin|Hin]; apply in_map_iff in Hin as [e [<- He]]; auto. }
      rewrite <- La, <- Lb by lia. exact Hk. }
  assert (Mono : forall m k k', keys_gt m k -> k' <= k -> keys_gt m k').
  { intros m k k' G L. eapply Forall_impl; [|exact G]. cbn. intros; lia. }
  destruct (Z.ltb_spec kb ka) as [L1|L1]; [|destruct (Z.ltb_spec ka kb) as [L2|L2]].
  - destruct (Hcase ((ka, va) :: a) b kb) as [[m H]|H]; auto; try lia.
    + cbn [length] in *. lia.
    + constructor; [exact L1|apply (Mono _ ka); auto; lia].
    + intros k Hk. symmetry. apply look_head_lt. exact Hk.
    + intros k Hk. cbn [map fst app] in *. destruct Hk as [Hk|Hk]; [left; exact Hk|right].
      apply in_app_or in Hk. apply in_or_app. destruct Hk as [Hk|Hk]; [left|right; right]; exact Hk.
    + left. exists m. destruct H as [H1 [H2 [H3 [H4 [H5 H6]]]]]. repeat (split; [assumption|]). cbn [length] in *. lia.
  - destruct (Hcase a ((kb, vb) :: b) ka) as [[m H]|H]; auto; try lia.
    + cbn [length] in *. lia.
    + constructor; [exact L2|apply (Mono _ kb); auto; lia].
    + intros k Hk. symmetry. apply look_head_lt. exact Hk.
    + intros k Hk. cbn [map fst app] in *. right. exact Hk.
    + left. exists m. destruct H as [H1 [H2 [H3 [H4 [H5 H6]]]]]. repeat (split; [assumption|]). cbn [length] in *. lia.
  - assert (ka = kb) by lia. subst kb.
    destruct (Hcase a b ka) as [[m H]|H]; auto; try lia.
    + cbn [length] in *. lia.
    + intros k Hk. symmetry. apply look_head_lt. exact Hk.
    + intros k Hk. symmetry. apply look_head_lt. exact Hk.
    + intros k Hk. cbn [map fst app] in *. right. apply in_app_or in Hk. apply in_or_app.
      destruct Hk as [Hk|Hk]; [left|right; right]; exact Hk.
    + left. exists m. destruct H as [H1 [H2 [H3 [H4 [H5 H6]]]]]. repeat (split; [assumption|]). cbn [length] in *. lia.
Qed.

(** merge_list *)
Lemma merge_fold_spec (l : list (list (Z * option T))) : forall r : list (Z * option T), rm_sorted r -> Forall rm_sorted l ->
  match merge_fold eqb l r with
  | Ok m => rm_sorted (m : list (Z * option T)) /\
      (forall k v, look m k = Some v <-> look r k = Some v \/ exists a, In a l /\ look a k = Some v) /\
      (@length (Z * option T) m <= length r + list_sum (map (@length _) l))%nat
  | Panic => exists k a b x y, In a (r :: l) /\ In b (r :: l) /\ look a k = Some x /\ look b k = Some y /\ x <> y
  | NoFuel => False
  end.
Proof.
  induction l as [|a l IH]; intros r Sr Sl.
  - cbn [merge_fold]. split; [exact Sr|]. split; [|cbn; lia]. intros k v. split; [auto|].
    intros [H|[a [[] _]]]. exact H.
  - cbn [merge_fold]. unfold merge. inversion Sl as [|? ? Sa Sl']; subst.
    destruct (merge_spec a r Sa Sr) as [[m [Em [Sm [Hg [Hl [_ Hlen]]]]]]|[Em [k [_ Hk]]]]; rewrite Em; cbn [obind].
    + assert (Hm : forall k v, look m k = Some v <-> look a k = Some v \/ look r k = Some v).
      { intros k v. rewrite Hl. specialize (Hg k). unfold agree in Hg. destruct (look a k) as [x|]; cbn [punion].
        - split; [auto|]. intros [H|H]; [exact H|]. f_equal. apply (Hg x v); auto.
        - split; [auto|]. intros [H|H]; [discriminate|exact H]. }
      specialize (IH m Sm Sl'). destruct (merge_fold eqb l m) as [m'| |].
      * destruct IH as [Sm' [H1 H2]]. split; [exact Sm'|]. split.
        -- intros k v. rewrite H1, Hm. split.
           ++ intros [[H|H]|[a' [Hin H]]]; [right; exists a; split; [left; auto|auto]|left; auto|].
              right. exists a'. split; [right; auto|auto].
           ++ intros [H|[a' [[<-|Hin] H]]]; [auto|auto|]. right. exists a'. auto.
        -- cbn [map list_sum fold_right]. unfold list_sum in *. lia.
      * destruct IH as [k [a1 [a2 [x [y [I1 [I2 [L1 [L2 N]]]]]]]]].
        assert (Hr : forall a1 x, In a1 (m :: l) -> look a1 k = Some x ->
                  exists a2, In a2 (r :: a :: l) /\ look a2 k = Some x).
        { intros b z [<-|Hb] Hz.
          - apply Hm in Hz as [Hz|Hz]; [exists a|exists r]; cbn; auto.
          - exists b. cbn; auto. }
        destruct (Hr a1 x I1 L1) as [c1 [J1 K1]]. destruct (Hr a2 y I2 L2) as [c2 [J2 K2]].
        exists k, c1, c2, x, y. auto.
      * exact IH.
    + destruct (look a k) as [x|] eqn:E1; [|exfalso; apply Hk; intros ? ? H; discriminate].
      destruct (look r k) as [y|] eqn:E2; [|exfalso; apply Hk; intros ? ? _ H; discriminate].
      exists k, a, r, x, y. cbn. split; [auto|]. split; [auto|]. split; [exact E1|]. split; [exact E2|].
      intros ->. apply Hk. intros u w H1 H2. congruence.
Qed.

End Merge.
