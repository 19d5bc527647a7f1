(** The ordered maps and sets of ValueModel behave as maps and sets. *)
From Coq Require Import ZArith List Bool Lia Sorted.
From Verif Require Import ValueModel.
Import ListNotations.
Open Scope Z_scope.

Lemma str_cmp_refl a : str_cmp a a = Eq.
Proof. induction a as [|x a IH]; cbn; [reflexivity|]. rewrite Z.compare_refl. exact IH. Qed.

Lemma str_cmp_eq a b : str_cmp a b = Eq <-> a = b.
Proof.
  split; [|intros ->; apply str_cmp_refl].
  revert b. induction a as [|x a IH]; intros [|y b]; cbn; try discriminate; [reflexivity|].
  destruct (x ?= y) eqn:E; try discriminate. apply Z.compare_eq in E. intros H%IH. congruence.
Qed.

Lemma str_cmp_antisym a b : str_cmp b a = CompOpp (str_cmp a b).
Proof.
  revert b. induction a as [|x a IH]; intros [|y b]; cbn; try reflexivity.
  rewrite (Z.compare_antisym x y). destruct (x ?= y); cbn; auto.
Qed.

Lemma str_cmp_trans a b c : str_cmp a b = Lt -> str_cmp b c = Lt -> str_cmp a c = Lt.
Proof.
  revert b c. induction a as [|x a IH]; intros [|y b] [|z c]; cbn; try discriminate; auto.
  destruct (x ?= y) eqn:E1; try discriminate; destruct (y ?= z) eqn:E2; try discriminate; intros H1 H2.
  - apply Z.compare_eq in E1, E2. subst. rewrite Z.compare_refl. eauto.
  - apply Z.compare_eq in E1. subst. rewrite E2. reflexivity.
  - apply Z.compare_eq in E2. subst. rewrite E1. reflexivity.
  - rewrite Z.compare_lt_iff in *. assert (x ?= z = Lt) as -> by (rewrite Z.compare_lt_iff; lia). reflexivity.
Qed.

Lemma str_cmp_gt a b : str_cmp a b = Gt <-> str_cmp b a = Lt.
Proof. rewrite (str_cmp_antisym a b). destruct (str_cmp a b); cbn; split; congruence. Qed.

Definition klt {V} (a b : list Z * V) : Prop := str_cmp (fst a) (fst b) = Lt.
Definition sorted {V} (m : list (list Z * V)) : Prop := StronglySorted klt m.

Lemma bt_get_insert {V} (m : list (list Z * V)) k v k' :
  bt_get (bt_insert m k v) k' = if list_eq_dec Z.eq_dec k' k then Some v else bt_get m k'.
Proof.
  induction m as [|[a x] m IH]; cbn.
  - destruct (list_eq_dec Z.eq_dec k' k) as [->|n]; [rewrite str_cmp_refl; reflexivity|].
    destruct (str_cmp k' k) eqn:E; try reflexivity. apply str_cmp_eq in E. congruence.
  - destruct (str_cmp k a) eqn:E; cbn.
    + apply str_cmp_eq in E. subst a.
      destruct (list_eq_dec Z.eq_dec k' k) as [->|n]; [rewrite str_cmp_refl; reflexivity|].
      destruct (str_cmp k' k) eqn:E; try reflexivity. apply str_cmp_eq in E. congruence.
    + destruct (list_eq_dec Z.eq_dec k' k) as [->|n]; [rewrite str_cmp_refl; reflexivity|].
      destruct (str_cmp k' k) eqn:E'; try reflexivity. apply str_cmp_eq in E'. congruence.
    + rewrite IH. destruct (list_eq_dec Z.eq_dec k' k) as [->|n]; [|reflexivity].
      rewrite E. reflexivity.
Qed.

Lemma bt_insert_keys {V} (m : list (list Z * V)) k v k' :
  In k' (map fst (bt_insert m k v)) <-> k' = k \/ In k' (map fst m).
Proof.
  induction m as [|[a x] m IH]; cbn; [intuition|].
  destruct (str_cmp k a) eqn:E; cbn; [|intuition|rewrite IH; intuition].
  apply str_cmp_eq in E. subst. intuition.
Qed.

Lemma sorted_insert {V} (m : list (list Z * V)) k v : sorted m -> sorted (bt_insert m k v).
Proof.
  induction 1 as [|[a x] m Hm IH Ha]; cbn.
  - repeat constructor.
  - destruct (str_cmp k a) eqn:E.
    + apply str_cmp_eq in E. subst a. constructor; [exact Hm|exact Ha].
    + constructor; [constructor; assumption|]. constructor; [exact E|].
      rewrite Forall_forall in *. intros y Hy. specialize (Ha y Hy). unfold klt in *. cbn in *.
      eapply str_cmp_trans; eassumption.
    + constructor; [exact IH|]. rewrite Forall_forall. intros [y w] Hy. unfold klt. cbn.
      assert (In y (map fst (bt_insert m k v))) as Hk by (apply in_map_iff; exists (y, w); auto).
      apply bt_insert_keys in Hk as [->|Hk]; [apply str_cmp_gt; exact E|].
      apply in_map_iff in Hk as ([y' w'] & <- & Hin). rewrite Forall_forall in Ha. apply (Ha _ Hin).
Qed.

Lemma bt_get_None {V} (m : list (list Z * V)) k : bt_get m k = None <-> ~ In k (map fst m).
Proof.
  induction m as [|[a x] m IH]; cbn; [intuition|].
  destruct (str_cmp k a) eqn:E.
  - apply str_cmp_eq in E. subst. split; [discriminate|intuition].
  - assert (k <> a) by (intros ->; rewrite str_cmp_refl in E; discriminate). rewrite IH. intuition.
  - assert (k <> a) by (intros ->; rewrite str_cmp_refl in E; discriminate). rewrite IH. intuition.
Qed.

Lemma bt_get_In {V} (m : list (list Z * V)) k v : bt_get m k = Some v -> In (k, v) m.
Proof.
  induction m as [|[a x] m IH]; cbn; [discriminate|].
  destruct (str_cmp k a) eqn:E; auto. apply str_cmp_eq in E. subst. intros [=]. left. congruence.
Qed.

Lemma sorted_head {V} k (v : V) m k' : sorted ((k, v) :: m) -> In k' (map fst m) -> str_cmp k k' = Lt.
Proof.
  intros H Hin. inversion H as [|? ? _ Hf]; subst. rewrite Forall_forall in Hf.
  apply in_map_iff in Hin as ([a b] & <- & Hin). apply (Hf _ Hin).
Qed.

(** Sorted maps with the same lookups are the same. *)
Lemma sorted_ext {V} (m m' : list (list Z * V)) :
  sorted m -> sorted m' -> (forall k, bt_get m k = bt_get m' k) -> m = m'.
Proof.
  intros Hm. revert m'. induction m as [|[k v] m IH]; intros [|[k' v'] m'] Hm' H.
  - reflexivity.
  - specialize (H k'). cbn in H. rewrite str_cmp_refl in H. discriminate.
  - specialize (H k). cbn in H. rewrite str_cmp_refl in H. discriminate.
  - assert (k = k') as ->.
    { destruct (str_cmp k k') eqn:E; [apply str_cmp_eq; exact E| |].
      - pose proof (H k) as Hk. cbn in Hk. rewrite str_cmp_refl, E in Hk. symmetry in Hk.
        apply bt_get_In in Hk. assert (In k (map fst m')) as Hin by (apply in_map_iff; exists (k, v); auto).
        pose proof (sorted_head _ _ _ _ Hm' Hin) as Hlt. rewrite str_cmp_antisym, E in Hlt. discriminate.
      - pose proof (H k') as Hk. cbn in Hk. rewrite str_cmp_refl in Hk.
        rewrite (str_cmp_antisym k k'), E in Hk. cbn in Hk.
        apply bt_get_In in Hk. assert (In k' (map fst m)) as Hin by (apply in_map_iff; exists (k', v'); auto).
        pose proof (sorted_head _ _ _ _ Hm Hin) as Hlt. rewrite E in Hlt. discriminate. }
    pose proof (H k') as Hk. cbn in Hk. rewrite str_cmp_refl in Hk. injection Hk as ->.
    f_equal. inversion Hm; inversion Hm'; subst. apply IH; try assumption.
    intros k. specialize (H k). cbn in H. destruct (str_cmp k k') eqn:E; try exact H.
    apply str_cmp_eq in E. subst k.
    assert (bt_get m k' = None) as ->.
    { apply bt_get_None. intros Hin. pose proof (sorted_head _ _ _ _ Hm Hin) as Hlt. rewrite str_cmp_refl in Hlt. discriminate. }
    symmetry. apply bt_get_None. intros Hin. pose proof (sorted_head _ _ _ _ Hm' Hin) as Hlt. rewrite str_cmp_refl in Hlt. discriminate.
Qed.

(** Sets. *)
Lemma bs_contains_In m k : bs_contains m k = true <-> In k m.
Proof.
  unfold bs_contains. rewrite existsb_exists. split.
  - intros (x & Hx & E). destruct (str_cmp k x) eqn:C; try discriminate. apply str_cmp_eq in C. subst. exact Hx.
  - intros H. exists k. split; [exact H|]. rewrite str_cmp_refl. reflexivity.
Qed.
Lemma bs_contains_not m k : bs_contains m k = false <-> ~ In k m.
Proof. rewrite <- bs_contains_In. destruct (bs_contains m k); split; congruence. Qed.
Lemma bs_insert_In m k x : In x (bs_insert m k) <-> x = k \/ In x m.
Proof.
  induction m as [|a m IH]; cbn; [intuition|].
  destruct (str_cmp k a) eqn:E; cbn; [|intuition|rewrite IH; intuition].
  apply str_cmp_eq in E. subst. intuition.
Qed.
Lemma bs_remove_In m k x : In x (bs_remove m k) <-> In x m /\ x <> k.
Proof.
  unfold bs_remove. rewrite filter_In. split; intros [H1 H2]; split; auto.
  - intros ->. rewrite str_cmp_refl in H2. discriminate.
  - destruct (str_cmp k x) eqn:E; auto. apply str_cmp_eq in E. congruence.
Qed.

(** Values under a map function. *)
Definition vmap {V W} (f : V -> W) (m : list (list Z * V)) : list (list Z * W) :=
  map (fun kv => (fst kv, f (snd kv))) m.
Lemma vmap_insert {V W} (f : V -> W) m k v : vmap f (bt_insert m k v) = bt_insert (vmap f m) k (f v).
Proof.
  induction m as [|[a x] m IH]; cbn; [reflexivity|].
  destruct (str_cmp k a); cbn; [reflexivity|reflexivity|]. unfold vmap in *. rewrite IH. reflexivity.
Qed.
Lemma vmap_get {V W} (f : V -> W) m k : bt_get (vmap f m) k = option_map f (bt_get m k).
Proof.
  induction m as [|[a x] m IH]; cbn; [reflexivity|].
  destruct (str_cmp k a); cbn; auto.
Qed.
