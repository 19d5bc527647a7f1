From Coq Require Import ZArith List Bool Lia.
From Verif Require Import ThreadModel ThreadSpec.
Import ListNotations.
Open Scope Z_scope.

Lemma lsc : forall a l, list_sum (a :: l) = (a + list_sum l)%nat.
Proof. reflexivity. Qed.

Lemma sum_set : forall l i t x, nth_error l i = Some x ->
  (list_sum (map holds (set_thread i t l)) + holds x = list_sum (map holds l) + holds t)%nat.
Proof.
  induction l as [|y l IH]; intros [|i] t x H; cbn [nth_error set_thread map] in *; try discriminate; rewrite ?lsc.
  - inversion H; subst. lia.
  - specialize (IH i t x H). lia.
Qed.

Lemma nth_set_same : forall l i t x, nth_error l i = Some x -> nth_error (set_thread i t l) i = Some t.
Proof. induction l as [|y l IH]; intros [|i] t x H; cbn in *; try discriminate; eauto. Qed.

Lemma nth_set_other : forall l i j t, i <> j -> nth_error (set_thread i t l) j = nth_error l j.
Proof.
  induction l as [|y l IH]; intros [|i] [|j] t H; cbn in *; try congruence; auto.
Qed.

Lemma in_set : forall l i t x, In x (set_thread i t l) -> x = t \/ In x l.
Proof.
  induction l as [|y l IH]; intros [|i] t x H; cbn in *; try tauto.
  - destruct H; auto.
  - destruct H as [H|H]; [auto|]. apply IH in H. tauto.
Qed.

Lemma sum_ge : forall l x, In x l -> (holds x <= list_sum (map holds l))%nat.
Proof. induction l as [|y l IH]; intros x H; cbn [In map] in *; [tauto|]; rewrite lsc. destruct H; subst; [lia|]. specialize (IH x H). lia. Qed.

Lemma sum_ge_two : forall l i j x y, nth_error l i = Some x -> nth_error l j = Some y -> i <> j ->
  (holds x + holds y <= list_sum (map holds l))%nat.
Proof.
  induction l as [|z l IH]; intros [|i] [|j] x y Hi Hj Hn; cbn [nth_error map] in *; try discriminate; try congruence; rewrite lsc.
  - inversion Hi; subst. apply nth_error_In in Hj. apply sum_ge in Hj. lia.
  - inversion Hj; subst. apply nth_error_In in Hi. apply sum_ge in Hi. lia.
  - assert (i <> j) by congruence. specialize (IH i j x y Hi Hj H). lia.
Qed.

(** The invariant of atomic counters. *)
Record good (w : world) : Prop := {
  g_idle : forall t, In t (w_threads w) -> t_pending t = Idle;
  g_live : w_released w = false -> (1 <= owners w)%nat /\ w_count w = Z.of_nat (owners w) - 1;
  g_dead : w_released w = true -> owners w = 0%nat;
  g_excl : exclusive w }.

Lemma good_set : forall w i t t' c r, good w -> nth_error (w_threads w) i = Some t ->
  (1 <= holds t)%nat -> t_pending t' = Idle ->
  (r = false -> (1 <= owners w + holds t' - holds t)%nat /\ c = Z.of_nat (owners w + holds t' - holds t) - 1) ->
  (r = true -> (owners w + holds t' - holds t)%nat = 0%nat) ->
  (t_mut t' = true -> (owners w + holds t' - holds t)%nat = 1%nat) ->
  good (with_thread w c r i t').
Proof.
  intros w i t t' c r G Hi Hh Hp Hl Hd Hm.
  assert (Ho : owners (with_thread w c r i t') = (owners w + holds t' - holds t)%nat).
  { unfold owners, with_thread; cbn [w_threads]. pose proof (sum_set (w_threads w) i t' t Hi). lia. }
  assert (Hge : (holds t <= owners w)%nat) by (apply sum_ge; eapply nth_error_In; eauto).
  constructor; [|rewrite Ho; exact Hl|rewrite Ho; exact Hd|].
  - intros x Hx. apply in_set in Hx as [->|Hx]; [assumption|]. apply (g_idle _ G); assumption.
  - intros x Hx Hmx. rewrite Ho. cbn in Hx. apply In_nth_error in Hx as [j Hj].
    destruct (Nat.eq_dec i j) as [->|Hn].
    + rewrite (nth_set_same _ _ _ _ Hi) in Hj. inversion Hj; subst. auto.
    + rewrite nth_set_other in Hj by assumption.
      pose proof (g_excl _ G x (nth_error_In _ _ Hj) Hmx) as Ho1.
      pose proof (sum_ge_two _ _ _ _ _ Hi Hj Hn) as H2. fold (owners w) in H2.
      unfold holds in H2 at 2. rewrite Hmx in H2. lia.
Qed.

Ltac fin G Hin :=
  eapply good_set; eauto; cbn [t_refs t_mut t_pending];
  intros; try congruence; try lia;
  try match goal with H : t_mut ?t = true |- _ => pose proof (g_excl _ G t Hin H) end;
  unfold holds in *; cbn [t_refs t_mut t_pending pred] in *;
  repeat match goal with
  | H : t_refs ?t = _, K : context [t_refs ?t] |- _ => lazymatch K with H => fail | _ => rewrite H in K end
  | H : t_refs ?t = _ |- context [t_refs ?t] => rewrite H
  | H : t_mut ?t = _, K : context [t_mut ?t] |- _ => lazymatch K with H => fail | _ => rewrite H in K end
  | H : t_mut ?t = _ |- context [t_mut ?t] => rewrite H
  end; cbn [pred] in *; try congruence; try lia.

Lemma act_atomic : forall i a w, good w -> act HAtomic i a w <> Fault /\ forall w', act HAtomic i a w = Next w' -> good w'.
Proof.
  intros i a w G. unfold act.
  destruct (nth_error (w_threads w) i) as [t|] eqn:Hi; [|split; intros; discriminate].
  pose proof (nth_error_In _ _ Hi) as Hin.
  pose proof (g_idle _ G t Hin) as Hp. rewrite Hp.
  pose proof (sum_ge _ _ Hin) as Hge. fold (owners w) in Hge.
  destruct a as [u| |j| |].
  - destruct (t_refs t) as [|n] eqn:Hr; [split; intros; discriminate|].
    assert (Hh : (1 <= holds t)%nat) by (unfold holds; rewrite Hr; lia).
    destruct (w_released w) eqn:Hrel.
    { pose proof (g_dead _ G Hrel). lia. }
    destruct (g_live _ G Hrel) as [H1 Hc].
    destruct u; cbn.
    + split; [discriminate|]. intros w' E; inversion E; subst; clear E.
      fin G Hin.
    + rewrite Hrel. destruct (w_count w =? 0) eqn:E0.
      * apply Z.eqb_eq in E0. split; [discriminate|]. intros w' E; inversion E; subst; clear E.
        fin G Hin.
      * apply Z.eqb_neq in E0. split; [discriminate|]. intros w' E; inversion E; subst; clear E.
        fin G Hin.
    + rewrite Z.add_0_r. destruct (w_count w =? 0) eqn:E0.
      * apply Z.eqb_eq in E0. split; [discriminate|]. intros w' E; inversion E; subst; clear E.
        assert (t_mut t = false).
        { destruct (t_mut t) eqn:Em; [|reflexivity]. unfold holds in *. rewrite Em, Hr in *. lia. }
        fin G Hin.
      * apply Z.eqb_neq in E0. split; [discriminate|]. intros w' E; inversion E; subst; clear E.
        fin G Hin.
  - split; intros; discriminate.
  - destruct (t_refs t) as [|n] eqn:Hr; [split; intros; discriminate|].
    assert (Hh : (1 <= holds t)%nat) by (unfold holds; rewrite Hr; lia).
    destruct (nth_error (w_threads w) j) as [tj|] eqn:Hj; [|split; intros; discriminate].
    set (t1 := {| t_refs := n; t_mut := t_mut t; t_pending := Idle |}).
    cbn [with_thread w_threads].
    destruct (nth_error (set_thread i t1 (w_threads w)) j) as [t'|] eqn:Hj'; [|split; intros; discriminate].
    split; [discriminate|]. intros w' E; inversion E; subst; clear E.
    (* the sum does not change *)
    set (t2 := {| t_refs := S (t_refs t'); t_mut := t_mut t'; t_pending := t_pending t' |}).
    assert (Ho : list_sum (map holds (set_thread j t2 (set_thread i t1 (w_threads w)))) = owners w).
    { pose proof (sum_set _ _ t1 _ Hi) as S1. pose proof (sum_set _ _ t2 _ Hj') as S2.
      unfold owners. unfold holds at 2 4 in S1. unfold holds at 2 4 in S2. unfold t1 in S1 at 2 3; unfold t2 in S2 at 2 3. cbn [t_refs t_mut] in *. lia. }
    constructor; unfold owners, exclusive; cbn [w_threads w_released w_count with_thread]; unfold exclusive, owners; cbn [w_threads]; rewrite ?Ho.
    + intros x Hx. apply in_set in Hx as [->|Hx].
      * cbn. apply nth_error_In in Hj'. apply in_set in Hj' as [->|Hj']; [reflexivity|]. apply (g_idle _ G); assumption.
      * apply in_set in Hx as [->|Hx]; [reflexivity|]. apply (g_idle _ G); assumption.
    + apply (g_live _ G).
    + apply (g_dead _ G).
    + intros x Hx Hm. cbn [w_threads with_thread] in Hx |- *.
      match goal with |- ?g => change (list_sum (map holds (set_thread j t2 (set_thread i t1 (w_threads w)))) = 1%nat) end. rewrite Ho.
      apply in_set in Hx as [->|Hx].
      * cbn in Hm. apply nth_error_In in Hj'. apply in_set in Hj' as [->|Hj'].
        -- cbn in Hm. apply (g_excl _ G t Hin Hm).
        -- apply (g_excl _ G t' Hj' Hm).
      * apply in_set in Hx as [->|Hx]; [apply (g_excl _ G t Hin Hm)|apply (g_excl _ G x Hx Hm)].
  - destruct (t_mut t) eqn:Hm; [|split; intros; discriminate].
    assert (Hh : (1 <= holds t)%nat) by (unfold holds; rewrite Hm; lia).
    pose proof (g_excl _ G t Hin Hm) as Ho.
    destruct (w_released w) eqn:Hrel.
    { pose proof (g_dead _ G Hrel). lia. }
    split; [discriminate|]. intros w' E; inversion E; subst; clear E.
    fin G Hin.
  - destruct (t_mut t) eqn:Hm; [|split; intros; discriminate].
    assert (Hh : (1 <= holds t)%nat) by (unfold holds; rewrite Hm; lia).
    pose proof (g_excl _ G t Hin Hm) as Ho.
    split; [discriminate|]. intros w' E; inversion E; subst; clear E.
    destruct (w_released w) eqn:Hrel.
    { pose proof (g_dead _ G Hrel). lia. }
    destruct (g_live _ G Hrel) as [H1 Hc].
    fin G Hin.
Qed.

Lemma schedule_atomic : forall s w, good w -> exists w', schedule HAtomic s w = Some w' /\ good w'.
Proof.
  induction s as [|[i a] s IH]; intros w G; cbn [schedule].
  - eauto.
  - destruct (act_atomic i a w G) as [Hf Hn].
    destruct (act HAtomic i a w) as [w'| |] eqn:E; [apply IH; auto|congruence|apply IH; auto].
Qed.

Lemma start_owners : forall refs, owners (start refs) = list_sum refs.
Proof.
  intros refs. unfold owners, start; cbn [w_threads]. induction refs as [|n r IH]; [reflexivity|].
  cbn [map]. rewrite !lsc, IH. unfold holds; cbn [t_refs t_mut]. lia.
Qed.

Lemma start_good : forall refs, (1 <= list_sum refs)%nat -> good (start refs).
Proof.
  intros refs H. constructor.
  - intros t Ht. cbn in Ht. apply in_map_iff in Ht as (n & <- & _). reflexivity.
  - intros _. rewrite start_owners. cbn. lia.
  - discriminate.
  - intros t Ht Hm. cbn in Ht. apply in_map_iff in Ht as (n & <- & _). discriminate.
Qed.

(** [Cell] without interleaving is the same as atomic. *)
Lemma set_set : forall l i t t', set_thread i t (set_thread i t' l) = set_thread i t l.
Proof. induction l as [|y l IH]; intros [|i] t t'; cbn; f_equal; auto. Qed.

Lemma undisturbed_atomic : forall s w, good w -> schedule HCell (undisturbed s) w = schedule HAtomic s w.
Proof.
  induction s as [|[i a] s IH]; intros w G; [reflexivity|].
  destruct (act_atomic i a w G) as [Hf Hn].
  assert (Hsame : (forall u, a <> Start u) -> act HCell i a w = act HAtomic i a w).
  { intros Hu. unfold act. destruct (nth_error (w_threads w) i); [|reflexivity]. destruct a; try reflexivity. congruence. }
  destruct a as [u| |j| |]; cbn [undisturbed flat_map app]; fold (undisturbed s);
    try (cbn [schedule]; rewrite Hsame by discriminate;
         destruct (act HAtomic i _ w) as [w'| |] eqn:E; [apply IH; auto|reflexivity|apply IH; auto]).
  cbn [schedule].
  unfold act in *.
  destruct (nth_error (w_threads w) i) as [t|] eqn:Hi.
  2:{ rewrite ?Hi. apply IH; assumption. }
  pose proof (g_idle _ G t (nth_error_In _ _ Hi)) as Hp. rewrite Hp in *.
  destruct (t_refs t) as [|n] eqn:Hr.
  { rewrite ?Hi, ?Hp. apply IH; assumption. }
  destruct (w_released w) eqn:Hrel; [reflexivity|].
  cbn [with_thread w_threads w_released]. rewrite (nth_set_same _ _ _ _ Hi). cbn [t_pending t_refs t_mut].
  assert (E : complete (with_thread w (w_count w) false i {| t_refs := S n; t_mut := t_mut t; t_pending := Updating u (w_count w) |}) i
                {| t_refs := S n; t_mut := t_mut t; t_pending := Idle |} u (w_count w)
              = complete w i t u (w_count w)).
  { assert (Et : {| t_refs := S n; t_mut := t_mut t; t_pending := Idle |} = t) by (destruct t; cbn in *; congruence).
    unfold complete. rewrite Et, Hr. unfold with_thread; cbn [w_released w_threads]. rewrite Hrel. rewrite !set_set. reflexivity. }
  rewrite E. clear E.
  destruct (complete w i t u (w_count w)) as [w'| |] eqn:E; [apply IH; auto|reflexivity|].
  exfalso. unfold complete in E. destruct u; try discriminate; destruct (w_count w =? 0); try discriminate.
  destruct (w_released w); discriminate.
Qed.
