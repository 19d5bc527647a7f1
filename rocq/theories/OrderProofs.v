From Coq Require Import ZArith List Bool Lia Relations.
From Verif Require Import ThreadModel ThreadSpec ThreadProofs OrderModel OrderSpec.
Import ListNotations.
Open Scope nat_scope.

(** ** Traces *)
Lemma edge_ext o tr l p q : edge o tr p q -> edge o (tr ++ l) p q.
Proof.
  intros (i & e & j & f & H1 & H2 & H3). exists i, e, j, f.
  rewrite !nth_error_app1 by (apply nth_error_Some; congruence). auto.
Qed.
Lemma before_ext o tr l p q : before o tr p q -> before o (tr ++ l) p q.
Proof. induction 1; [apply t_step, edge_ext; assumption|eapply t_trans; eassumption]. Qed.
Lemma before_lt o tr p q : before o tr p q -> p < q /\ q < List.length tr.
Proof. induction 1 as [p q (i & e & j & f & H1 & H2 & H3 & _)|]; [split; [exact H3|apply nth_error_Some; congruence]|lia]. Qed.

(** [k] will be after position [p]. *)
Definition knows (o : ordering) (tr : trace) (k p : nat) : Prop :=
  exists q i e, nth_error tr q = Some (i, e) /\ (p = q \/ before o tr p q) /\ (i = k \/ e = EGive k).
Lemma knows_ext o tr l k p : knows o tr k p -> knows o (tr ++ l) k p.
Proof.
  intros (q & i & e & H1 & H2 & H3). exists q, i, e. split; [rewrite nth_error_app1; [exact H1|apply nth_error_Some; congruence]|].
  split; [destruct H2; [auto|right; apply before_ext; assumption]|exact H3].
Qed.
Lemma knows_self o tr k e p : nth_error tr p = Some (k, e) -> knows o tr k p.
Proof. intros H. exists p, k, e. auto. Qed.
Lemma knows_before o tr k p q e : knows o tr k p -> nth_error tr q = Some (k, e) -> (forall r, r <= p \/ before o tr p r -> r < q) -> before o tr p q.
Proof.
  intros (r & i & f & H1 & H2 & H3) Hq Hlt.
  assert (E : edge o tr r q).
  { exists i, f, k, e. split; [exact H1|]. split; [exact Hq|]. split; [apply Hlt; destruct H2 as [->|]; auto|]. destruct H3; auto. }
  destruct H2 as [->|H2]; [apply t_step, E|]. eapply t_trans; [exact H2|apply t_step, E].
Qed.
(** The next event of [k] is after what [k] knows. *)
Lemma knows_next o tr k p e l : knows o tr k p -> before o (tr ++ (k, e) :: l) p (List.length tr).
Proof.
  intros (r & i & f & H1 & H2 & H3).
  assert (Hr : r < List.length tr) by (apply nth_error_Some; congruence).
  assert (E : edge o (tr ++ (k, e) :: l) r (List.length tr)).
  { exists i, f, k, e. split; [rewrite nth_error_app1 by exact Hr; exact H1|]. split; [rewrite nth_error_app2, Nat.sub_diag by lia; reflexivity|].
    split; [exact Hr|]. destruct H3; auto. }
  destruct H2 as [->|H2]; [apply t_step, E|]. eapply t_trans; [apply before_ext, H2|apply t_step, E].
Qed.
Lemma knows_give o tr i j p : knows o tr i p -> knows o (tr ++ [(i, EGive j)]) j p.
Proof.
  intros H. exists (List.length tr), i, (EGive j). split; [rewrite nth_error_app2, Nat.sub_diag by lia; reflexivity|].
  split; [right; apply knows_next, H|auto].
Qed.

(** ** Owners *)
Definition owner (w : world) (k : nat) : Prop := exists t, nth_error (w_threads w) k = Some t /\ 1 <= holds t.
Definition mutable (w : world) (k : nat) : Prop := exists t, nth_error (w_threads w) k = Some t /\ t_mut t = true.
Lemma owner_with w c r i t t' k : nth_error (w_threads w) i = Some t ->
  owner (with_thread w c r i t') k <-> (k = i /\ 1 <= holds t') \/ (k <> i /\ owner w k).
Proof.
  intros Hi. unfold owner. cbn [with_thread w_threads]. destruct (Nat.eq_dec k i) as [->|Hn].
  - rewrite (nth_set_same _ _ t' _ Hi). split; [intros (x & [= <-] & H); auto|intros [[_ H]|[H _]]; [eauto|congruence]].
  - rewrite nth_set_other by congruence. split; [auto|intros [[H _]|[_ H]]; [congruence|exact H]].
Qed.
Lemma mutable_with w c r i t t' k : nth_error (w_threads w) i = Some t ->
  mutable (with_thread w c r i t') k <-> (k = i /\ t_mut t' = true) \/ (k <> i /\ mutable w k).
Proof.
  intros Hi. unfold mutable. cbn [with_thread w_threads]. destruct (Nat.eq_dec k i) as [->|Hn].
  - rewrite (nth_set_same _ _ t' _ Hi). split; [intros (x & [= <-] & H); auto|intros [[_ H]|[H _]]; [eauto|congruence]].
  - rewrite nth_set_other by congruence. split; [auto|intros [[H _]|[_ H]]; [congruence|exact H]].
Qed.
Lemma sole w i k t : nth_error (w_threads w) i = Some t -> owners w = holds t -> 1 <= holds t -> owner w k -> k = i.
Proof.
  intros Hi Ho _ (x & Hk & Hx). destruct (Nat.eq_dec k i); [assumption|].
  pose proof (sum_ge_two _ _ _ _ _ Hi Hk ltac:(congruence)). unfold owners in Ho. lia.
Qed.
Lemma mutable_owner w k : mutable w k -> owner w k.
Proof. intros (t & H & Hm). exists t. split; [exact H|]. unfold holds. rewrite Hm. lia. Qed.
Lemma mutable_sole w i k : good w -> mutable w i -> owner w k -> k = i.
Proof.
  intros G (t & H & Hm) Hk. pose proof (g_excl _ G t (nth_error_In _ _ H) Hm) as Ho.
  pose proof (sum_ge _ _ (nth_error_In _ _ H)) as Hs. fold (owners w) in Hs.
  assert (1 <= holds t) by (unfold holds; rewrite Hm; lia). apply (sole w i k t H); [lia|assumption|exact Hk].
Qed.
Lemma mutable_no_ref w i t : good w -> nth_error (w_threads w) i = Some t -> 0 < t_refs t -> forall k, ~ mutable w k.
Proof.
  intros G Hi Hr k Hk. assert (Hio : owner w i) by (exists t; split; [exact Hi|unfold holds; lia]).
  pose proof (mutable_sole w k i G Hk Hio) as ->. destruct Hk as (t' & Hk & Hm). rewrite Hi in Hk. injection Hk as <-.
  pose proof (g_excl _ G t (nth_error_In _ _ Hi) Hm) as Ho. pose proof (sum_ge _ _ (nth_error_In _ _ Hi)) as Hs. fold (owners w) in Hs.
  unfold holds in Hs. rewrite Hm in Hs. lia.
Qed.

(** ** The invariant *)
Section Inv.
Variable o : ordering.
(** What the next update of the counter is after. *)
Variable common : trace -> nat -> Prop.
(** The threads that may update the counter. *)
Variable allowed : nat -> Prop.
Hypothesis common_ext : forall tr l p, common tr p -> common (tr ++ l) p.
Hypothesis common_update : forall tr i p, allowed i -> knows o tr i p \/ p = List.length tr -> common (tr ++ [(i, EUpdate)]) p.
Hypothesis common_learn : forall tr i p, allowed i -> common tr p -> knows o (tr ++ [(i, EUpdate)]) i p.

Definition touches (e : event) : Prop := match e with EGive _ => False | _ => True end.
Record inv (w : world) (tr : trace) : Prop := {
  v_good : good w;
  v_ordered : ordered o tr;
  v_known : w_released w = false -> forall p i e, nth_error tr p = Some (i, e) -> touches e -> common tr p \/ exists k, owner w k /\ knows o tr k p;
  v_write : w_released w = false -> forall p i k, nth_error tr p = Some (i, EWrite) -> owner w k -> knows o tr k p;
  v_mut : w_released w = false -> forall k p i e, mutable w k -> nth_error tr p = Some (i, e) -> touches e -> knows o tr k p;
  v_free : w_released w = false -> forall p i, nth_error tr p <> Some (i, EFree) }.

(** Positions of a longer trace. *)
Lemma nth_snoc (tr : trace) x p y : nth_error (tr ++ [x]) p = Some y -> nth_error tr p = Some y \/ p = List.length tr /\ y = x.
Proof.
  intros H. destruct (Nat.lt_ge_cases p (List.length tr)) as [Hl|Hl].
  - left. rewrite nth_error_app1 in H by exact Hl. exact H.
  - rewrite nth_error_app2 in H by exact Hl. destruct (p - List.length tr) eqn:E; [|destruct n; discriminate].
    right. split; [lia|]. injection H as <-. reflexivity.
Qed.
Lemma ordered_snoc tr i e : ordered o tr -> (forall p j f, nth_error tr p = Some (j, f) -> conflict f e -> knows o tr i p) -> ordered o (tr ++ [(i, e)]).
Proof.
  intros H Hk p q j f j' f' Hlt Hp Hq Hc. apply nth_snoc in Hp as [Hp|[-> _]].
  - apply nth_snoc in Hq as [Hq|[-> [= <- <-]]].
    + apply before_ext. exact (H _ _ _ _ _ _ Hlt Hp Hq Hc).
    + apply knows_next. exact (Hk _ _ _ Hp Hc).
  - assert (q < List.length (tr ++ [(i, e)])) by (apply nth_error_Some; congruence). rewrite app_length in *. cbn in *. lia.
Qed.

Lemma step_inv i op w tr w' evs : (match op with Act (Start _) => allowed i | _ => True end) ->
  inv w tr -> step i op w = Some (w', evs) -> inv w' (tr ++ evs).
Proof.
  intros Hal I Hs.
  assert (Hself : forall e, knows o (tr ++ [(i, e)]) i (List.length tr)).
  { intros e. eapply knows_self. rewrite nth_error_app2, Nat.sub_diag by lia. reflexivity. }
  assert (Hskip : inv w (tr ++ [])) by (rewrite app_nil_r; exact I).
  pose proof (v_good _ _ I) as G.
  destruct op as [a| |].
  - cbn [step] in Hs. destruct (act_atomic i a w G) as [Hnf Hgood].
    destruct (act HAtomic i a w) as [w1| |] eqn:Ea; [|discriminate|injection Hs as <- <-; exact Hskip].
    specialize (Hgood _ eq_refl). injection Hs as <- <-.
    unfold act in Ea. destruct (nth_error (w_threads w) i) as [t|] eqn:Hi; [|discriminate].
    pose proof (nth_error_In _ _ Hi) as Hin. pose proof (g_idle _ G t Hin) as Hp. rewrite Hp in Ea.
    pose proof (sum_ge _ _ Hin) as Hge. fold (owners w) in Hge.
    destruct a as [u| |j| |]; cbn in Hal; try discriminate.
    + (* an update *)
      destruct (t_refs t) as [|n] eqn:Hr; [discriminate|].
      destruct (w_released w) eqn:Hrel; [discriminate|].
      assert (Hh : 1 <= holds t) by (unfold holds; lia).
      assert (Hio : owner w i) by (exists t; auto).
      assert (Hnm : forall k, ~ mutable w k) by (apply (mutable_no_ref w i t G Hi); lia).
      assert (Htm : t_mut t = false) by (destruct (t_mut t) eqn:E; [destruct (Hnm i); exists t; auto|reflexivity]).
      destruct (g_live _ G Hrel) as [H1 Hc].
      assert (Hord : ordered o (tr ++ [(i, EUpdate)])).
      { apply ordered_snoc; [apply (v_ordered _ _ I)|]. intros p j f Hpf Hcf. destruct f; cbn in Hcf; try contradiction. destruct (v_free _ _ I Hrel _ _ Hpf). }
      assert (Hwr : forall p j k, nth_error (tr ++ [(i, EUpdate)]) p = Some (j, EWrite) -> owner w k -> knows o (tr ++ [(i, EUpdate)]) k p).
      { intros p j k Hpw Hk. apply nth_snoc in Hpw as [Hpw|[_ [=]]]. apply knows_ext. exact (v_write _ _ I Hrel _ _ _ Hpw Hk). }
      assert (Hfr : forall p j, nth_error (tr ++ [(i, EUpdate)]) p <> Some (j, EFree)).
      { intros p j Hpf. apply nth_snoc in Hpf as [Hpf|[_ [=]]]. exact (v_free _ _ I Hrel _ _ Hpf). }
      assert (Hkn : forall p j e, nth_error (tr ++ [(i, EUpdate)]) p = Some (j, e) -> touches e ->
                common (tr ++ [(i, EUpdate)]) p \/ exists k, k <> i /\ owner w k /\ knows o (tr ++ [(i, EUpdate)]) k p).
      { intros p j e Hpe Hte. apply nth_snoc in Hpe as [Hpe|[-> _]]; [|left; apply common_update; auto].
        destruct (v_known _ _ I Hrel _ _ _ Hpe Hte) as [H|(k & Hk & H)]; [left; apply common_ext, H|].
        destruct (Nat.eq_dec k i) as [->|Hne]; [left; apply common_update; auto|]. right. exists k. split; [exact Hne|]. split; [exact Hk|apply knows_ext, H]. }
      assert (Hall : owners w = 1 -> forall p j e, nth_error (tr ++ [(i, EUpdate)]) p = Some (j, e) -> touches e -> knows o (tr ++ [(i, EUpdate)]) i p).
      { intros Ho p j e Hpe Hte. apply nth_snoc in Hpe as [Hpe|[-> _]]; [|apply Hself].
        destruct (v_known _ _ I Hrel _ _ _ Hpe Hte) as [H|(k & Hk & H)]; [apply common_learn; auto|].
        assert (k = i) as -> by (apply (sole w i k t Hi); auto; lia). apply knows_ext, H. }
      destruct u; cbn [complete amount] in Ea.
      * injection Ea as <-. cbn [with_thread w_released]. rewrite ?Hrel. cbn [app].
        assert (Hsame : forall k, owner (with_thread w (w_count w + 1) false i {| t_refs := S (t_refs t); t_mut := t_mut t; t_pending := Idle |}) k <-> owner w k).
        { intros k. rewrite (owner_with _ _ _ _ _ _ _ Hi). unfold holds at 1. cbn [t_refs t_mut]. split; [intros [[-> _]|[_ H]]; assumption|].
          intros H. destruct (Nat.eq_dec k i) as [->|]; [left; split; [reflexivity|lia]|right; auto]. }
        rewrite ?Hrel in Hgood. constructor; [exact Hgood|exact Hord| | | |exact (fun _ => Hfr)]; cbn [with_thread w_released]; intros _.
        -- intros p j e Hpe Hte. destruct (Hkn p j e Hpe Hte) as [H|(k & _ & Hk & H)]; [left; exact H|right; exists k; split; [apply Hsame; exact Hk|exact H]].
        -- intros p j k Hpw Hk. apply Hsame in Hk. exact (Hwr _ _ _ Hpw Hk).
        -- intros k p j e Hm. apply (mutable_with _ _ _ _ _ _ _ Hi) in Hm as [[_ Hm]|[_ Hm]]; [cbn in Hm; congruence|destruct (Hnm _ Hm)].
      * rewrite ?Hrel in Ea. destruct (Z.eqb_spec (w_count w) 0) as [E0|E0].
        -- injection Ea as <-. cbn [with_thread w_released]. replace (tr ++ [(i, EUpdate); (i, EFree)]) with ((tr ++ [(i, EUpdate)]) ++ [(i, EFree)]) by (rewrite <- app_assoc; reflexivity).
           constructor; cbn [with_thread w_released]; try (intros; discriminate); [exact Hgood|].
           apply ordered_snoc; [exact Hord|]. intros p j f Hpf Hcf. apply (Hall ltac:(lia) _ _ _ Hpf). destruct f; cbn in *; tauto.
        -- injection Ea as <-. cbn [with_thread w_released]. rewrite ?Hrel. cbn [app].
           assert (Hless : forall k, owner (with_thread w (w_count w + -1) false i {| t_refs := pred (t_refs t); t_mut := t_mut t; t_pending := Idle |}) k -> owner w k).
           { intros k. rewrite (owner_with _ _ _ _ _ _ _ Hi). intros [[-> _]|[_ H]]; assumption. }
           rewrite ?Hrel in Hgood. constructor; [exact Hgood|exact Hord| | | |exact (fun _ => Hfr)]; cbn [with_thread w_released]; intros _.
           ++ intros p j e Hpe Hte. destruct (Hkn p j e Hpe Hte) as [H|(k & Hne & Hk & H)]; [left; exact H|right; exists k; split; [|exact H]].
              apply (owner_with _ _ _ _ _ _ _ Hi). right. auto.
           ++ intros p j k Hpw Hk. apply Hless in Hk. exact (Hwr _ _ _ Hpw Hk).
           ++ intros k p j e Hm. apply (mutable_with _ _ _ _ _ _ _ Hi) in Hm as [[_ Hm]|[_ Hm]]; [cbn in Hm; congruence|destruct (Hnm _ Hm)].
      * destruct (Z.eqb_spec (w_count w) 0) as [E0|E0].
        -- injection Ea as <-. cbn [with_thread w_released]. rewrite ?Hrel in *. cbn [app].
           assert (Hsole : forall k, owner (with_thread w (w_count w + 0) false i {| t_refs := pred (t_refs t); t_mut := true; t_pending := Idle |}) k -> k = i).
           { intros k. rewrite (owner_with _ _ _ _ _ _ _ Hi). intros [[-> _]|[_ H]]; [reflexivity|]. apply (sole w i k t Hi); auto. lia. }
           assert (Hnew : owner (with_thread w (w_count w + 0) false i {| t_refs := pred (t_refs t); t_mut := true; t_pending := Idle |}) i).
           { apply (owner_with _ _ _ _ _ _ _ Hi). left. split; [reflexivity|]. unfold holds. cbn. lia. }
           assert (Ho : owners w = 1) by lia.
           constructor; [exact Hgood|exact Hord| | | |exact (fun _ => Hfr)]; cbn [with_thread w_released]; intros _.
           ++ intros p j e Hpe Hte. right. exists i. split; [exact Hnew|exact (Hall Ho _ _ _ Hpe Hte)].
           ++ intros p j k Hpw Hk. rewrite (Hsole _ Hk). apply (Hall Ho _ _ _ Hpw). exact Logic.I.
           ++ intros k p j e Hm Hpe Hte. rewrite (Hsole _ (mutable_owner _ _ Hm)). exact (Hall Ho _ _ _ Hpe Hte).
        -- injection Ea as <-. cbn [with_thread w_released]. rewrite ?Hrel in *. cbn [app].
           assert (Hsame : forall k, owner (with_thread w (w_count w + 0) false i t) k <-> owner w k).
           { intros k. rewrite (owner_with _ _ _ _ _ _ _ Hi). split; [intros [[-> _]|[_ H]]; assumption|].
             intros H. destruct (Nat.eq_dec k i) as [->|]; auto. }
           constructor; [exact Hgood|exact Hord| | | |exact (fun _ => Hfr)]; cbn [with_thread w_released]; intros _.
           ++ intros p j e Hpe Hte. destruct (Hkn p j e Hpe Hte) as [H|(k & _ & Hk & H)]; [left; exact H|right; exists k; split; [apply Hsame; exact Hk|exact H]].
           ++ intros p j k Hpw Hk. apply Hsame in Hk. exact (Hwr _ _ _ Hpw Hk).
           ++ intros k p j e Hm. apply (mutable_with _ _ _ _ _ _ _ Hi) in Hm as [[_ Hm]|[_ Hm]]; [cbn in Hm; congruence|destruct (Hnm _ Hm)].
    + (* a reference changes hands *)
      destruct (t_refs t) as [|n] eqn:Hr; [discriminate|]. destruct (nth_error (w_threads w) j) as [tj|] eqn:Hj; [|discriminate].
      set (t1 := {| t_refs := n; t_mut := t_mut t; t_pending := Idle |}) in *.
      set (w1' := with_thread w (w_count w) (w_released w) i t1) in *.
      destruct (nth_error (w_threads w1') j) as [t'|] eqn:Hj'; [|discriminate]. injection Ea as <-.
      set (t2 := {| t_refs := S (t_refs t'); t_mut := t_mut t'; t_pending := t_pending t' |}) in *.
      assert (Hh : 1 <= holds t) by (unfold holds; lia).
      assert (Hio : owner w i) by (exists t; auto).
      assert (Hnm : forall k, ~ mutable w k) by (apply (mutable_no_ref w i t G Hi); lia).
      assert (Hown : forall k, owner (with_thread w1' (w_count w) (w_released w) j t2) k -> k = j \/ owner w k).
      { intros k Hk. apply (owner_with _ _ _ _ _ _ _ Hj') in Hk as [[-> _]|[_ Hk]]; [auto|].
        apply (owner_with _ _ _ _ _ _ _ Hi) in Hk as [[-> _]|[_ Hk]]; auto. }
      assert (Hoj : owner (with_thread w1' (w_count w) (w_released w) j t2) j).
      { apply (owner_with _ _ _ _ _ _ _ Hj'). left. split; [reflexivity|]. unfold holds, t2. cbn. lia. }
      assert (Hok : forall k, k <> i -> owner w k -> owner (with_thread w1' (w_count w) (w_released w) j t2) k).
      { intros k Hne Hk. destruct (Nat.eq_dec k j) as [->|]; [exact Hoj|]. apply (owner_with _ _ _ _ _ _ _ Hj'). right. split; [assumption|].
        apply (owner_with _ _ _ _ _ _ _ Hi). right. auto. }
      constructor; [exact Hgood| | | | |]; cbn [with_thread w_released].
      * apply ordered_snoc; [apply (v_ordered _ _ I)|]. intros p k f _ Hcf. destruct f; cbn in Hcf; contradiction.
      * intros Hrel p k e Hpe Hte. apply nth_snoc in Hpe as [Hpe|[-> [= -> ->]]]; [|contradiction].
        destruct (v_known _ _ I Hrel _ _ _ Hpe Hte) as [H|(k' & Hk & H)]; [left; apply common_ext, H|right].
        destruct (Nat.eq_dec k' i) as [->|Hne]; [exists j; split; [exact Hoj|apply knows_give, H]|exists k'; split; [apply Hok; assumption|apply knows_ext, H]].
      * intros Hrel p k k' Hpw Hk. apply nth_snoc in Hpw as [Hpw|[_ [=]]].
        destruct (Hown _ Hk) as [->|Hk']; [apply knows_give; exact (v_write _ _ I Hrel _ _ _ Hpw Hio)|apply knows_ext; exact (v_write _ _ I Hrel _ _ _ Hpw Hk')].
      * intros Hrel k p k' e Hm. exfalso. apply (mutable_with _ _ _ _ _ _ _ Hj') in Hm as [[-> Hm]|[_ Hm]].
        -- cbn in Hm. destruct (Nat.eq_dec j i) as [->|Hne].
           ++ unfold w1' in Hj'. cbn [with_thread w_threads] in Hj'. rewrite (nth_set_same _ _ t1 _ Hi) in Hj'. injection Hj' as <-. cbn in Hm.
              apply (Hnm i). exists t. auto.
           ++ unfold w1' in Hj'. cbn [with_thread w_threads] in Hj'. rewrite nth_set_other in Hj' by congruence. apply (Hnm j). exists t'. auto.
        -- apply (mutable_with _ _ _ _ _ _ _ Hi) in Hm as [[-> Hm]|[_ Hm]]; [apply (Hnm i); exists t; auto|exact (Hnm _ Hm)].
      * intros Hrel p k Hpf. apply nth_snoc in Hpf as [Hpf|[_ [=]]]. exact (v_free _ _ I Hrel _ _ Hpf).
    + (* a mutable reference is dropped *)
      destruct (t_mut t) eqn:Hm; [|discriminate]. destruct (w_released w) eqn:Hrel; [discriminate|]. injection Ea as <-.
      constructor; cbn [with_thread w_released]; try (intros; discriminate); [exact Hgood|].
      apply ordered_snoc; [apply (v_ordered _ _ I)|]. intros p k f Hpf Hcf.
      apply (v_mut _ _ I Hrel i p k f); [exists t; auto|exact Hpf|destruct f; cbn in *; tauto].
    + (* a mutable reference becomes a reference *)
      destruct (t_mut t) eqn:Hm; [|discriminate]. injection Ea as <-. rewrite app_nil_r.
      assert (Hmi : mutable w i) by (exists t; auto).
      assert (Hsole : forall k, owner (with_thread w (w_count w) (w_released w) i {| t_refs := S (t_refs t); t_mut := false; t_pending := Idle |}) k -> k = i).
      { intros k Hk. apply (owner_with _ _ _ _ _ _ _ Hi) in Hk as [[-> _]|[_ Hk]]; [reflexivity|]. exact (mutable_sole _ _ _ G Hmi Hk). }
      assert (Hnew : owner (with_thread w (w_count w) (w_released w) i {| t_refs := S (t_refs t); t_mut := false; t_pending := Idle |}) i).
      { apply (owner_with _ _ _ _ _ _ _ Hi). left. split; [reflexivity|]. unfold holds. cbn. lia. }
      constructor; [exact Hgood|apply (v_ordered _ _ I)| | | |exact (v_free _ _ I)]; cbn [with_thread w_released]; intros Hrel.
      * intros p k e Hpe Hte. right. exists i. split; [exact Hnew|]. exact (v_mut _ _ I Hrel _ _ _ _ Hmi Hpe Hte).
      * intros p k k' Hpw Hk. rewrite (Hsole _ Hk). apply (v_mut _ _ I Hrel _ _ _ _ Hmi Hpw). exact Logic.I.
      * intros k p k' e Hk. apply mutable_owner in Hk as Hk'. apply Hsole in Hk'. subst k. apply (mutable_with _ _ _ _ _ _ _ Hi) in Hk as [[_ Hk]|[Hne _]]; [discriminate|congruence].
  - cbn [step] in Hs. destruct (nth_error (w_threads w) i) as [t|] eqn:Hi; [|injection Hs as <- <-; exact Hskip].
    destruct ((0 <? t_refs t) || t_mut t) eqn:Eh; [|injection Hs as <- <-; exact Hskip].
    destruct (w_released w) eqn:Hrel; [discriminate|]. injection Hs as <- <-.
    assert (Hio : owner w i).
    { exists t. split; [exact Hi|]. unfold holds. apply orb_true_iff in Eh as [Eh| ->]; [apply Nat.ltb_lt in Eh; lia|lia]. }
    constructor; [exact G| | | | |]; try intros _.
    + apply ordered_snoc; [apply (v_ordered _ _ I)|]. intros p k f Hpf Hcf. destruct f; cbn in Hcf; try contradiction.
      * exact (v_write _ _ I Hrel _ _ _ Hpf Hio).
      * destruct (v_free _ _ I Hrel _ _ Hpf).
    + intros p k e Hpe Hte. apply nth_snoc in Hpe as [Hpe|[-> _]]; [|right; exists i; split; [exact Hio|apply Hself]].
      destruct (v_known _ _ I Hrel _ _ _ Hpe Hte) as [H|(k' & Hk & H)]; [left; apply common_ext, H|right; exists k'; split; [exact Hk|apply knows_ext, H]].
    + intros p k k' Hpw Hk. apply nth_snoc in Hpw as [Hpw|[_ [=]]]. apply knows_ext. exact (v_write _ _ I Hrel _ _ _ Hpw Hk).
    + intros k p k' e Hm Hpe Hte. apply nth_snoc in Hpe as [Hpe|[-> _]]; [apply knows_ext; exact (v_mut _ _ I Hrel _ _ _ _ Hm Hpe Hte)|].
      pose proof (mutable_sole _ _ _ G Hm Hio) as <-. apply Hself.
    + intros p k Hpf. apply nth_snoc in Hpf as [Hpf|[_ [=]]]. exact (v_free _ _ I Hrel _ _ Hpf).
  - cbn [step] in Hs. destruct (nth_error (w_threads w) i) as [t|] eqn:Hi; [|injection Hs as <- <-; exact Hskip].
    destruct (t_mut t) eqn:Hm; [|injection Hs as <- <-; exact Hskip].
    destruct (w_released w) eqn:Hrel; [discriminate|]. injection Hs as <- <-.
    assert (Hmi : mutable w i) by (exists t; auto). pose proof (mutable_owner _ _ Hmi) as Hio.
    constructor; [exact G| | | | |]; try intros _.
    + apply ordered_snoc; [apply (v_ordered _ _ I)|]. intros p k f Hpf Hcf. apply (v_mut _ _ I Hrel _ _ _ _ Hmi Hpf). destruct f; cbn in *; tauto.
    + intros p k e Hpe Hte. apply nth_snoc in Hpe as [Hpe|[-> _]]; [|right; exists i; split; [exact Hio|apply Hself]].
      right. exists i. split; [exact Hio|apply knows_ext; exact (v_mut _ _ I Hrel _ _ _ _ Hmi Hpe Hte)].
    + intros p k k' Hpw Hk. pose proof (mutable_sole _ _ _ G Hmi Hk) as ->. apply nth_snoc in Hpw as [Hpw|[-> _]]; [|apply Hself].
      apply knows_ext. exact (v_write _ _ I Hrel _ _ _ Hpw Hio).
    + intros k p k' e Hk Hpe Hte. pose proof (mutable_sole _ _ _ G Hmi (mutable_owner _ _ Hk)) as ->. apply nth_snoc in Hpe as [Hpe|[-> _]]; [|apply Hself].
      apply knows_ext. exact (v_mut _ _ I Hrel _ _ _ _ Hmi Hpe Hte).
    + intros p k Hpf. apply nth_snoc in Hpf as [Hpf|[_ [=]]]. exact (v_free _ _ I Hrel _ _ Hpf).
Qed.

Lemma run_inv s : Forall (fun io => match snd io with Act (Start _) => allowed (fst io) | _ => True end) s ->
  forall w tr, inv w tr -> forall w' evs, run s w = Some (w', evs) -> inv w' (tr ++ evs).
Proof.
  induction 1 as [|[i op] s Hal _ IH]; intros w tr I w' evs H; cbn [run] in H.
  - injection H as <- <-. rewrite app_nil_r. exact I.
  - destruct (step i op w) as [[w1 e1]|] eqn:E1; [|discriminate]. destruct (run s w1) as [[w2 e2]|] eqn:E2; [|discriminate].
    injection H as <- <-. rewrite app_assoc. exact (IH _ _ (step_inv _ _ _ _ _ _ Hal I E1) _ _ E2).
Qed.
Lemma start_inv refs : (1 <= list_sum refs) -> inv (start refs) [].
Proof.
  intros H. assert (Hn : forall p (x : nat * event), nth_error [] p <> Some x) by (intros []; discriminate).
  constructor; [apply start_good, H| | | | |]; repeat intro; match goal with H : nth_error [] _ = _ |- _ => destruct (Hn _ _ H) end.
Qed.
End Inv.

Lemma step_no_fault i op w : good w -> exists w' evs, step i op w = Some (w', evs) /\ good w'.
Proof.
  intros G. destruct op as [a| |]; cbn [step].
  - destruct (act_atomic i a w G) as [Hn Hg]. destruct (act HAtomic i a w); [eauto|congruence|eauto].
  - destruct (nth_error (w_threads w) i) as [t|] eqn:Hi; [|eauto]. destruct ((0 <? t_refs t) || t_mut t) eqn:Eh; [|eauto].
    destruct (w_released w) eqn:Hrel; [|eauto]. exfalso. pose proof (g_dead _ G Hrel) as Ho. pose proof (sum_ge _ _ (nth_error_In _ _ Hi)) as Hs.
    unfold owners in Ho. rewrite Ho in Hs. unfold holds in Hs. apply orb_true_iff in Eh as [Eh|Eh]; [apply Nat.ltb_lt in Eh; lia|rewrite Eh in Hs; lia].
  - destruct (nth_error (w_threads w) i) as [t|] eqn:Hi; [|eauto]. destruct (t_mut t) eqn:Eh; [|eauto].
    destruct (w_released w) eqn:Hrel; [|eauto]. exfalso. pose proof (g_dead _ G Hrel) as Ho. pose proof (sum_ge _ _ (nth_error_In _ _ Hi)) as Hs.
    unfold owners in Ho. rewrite Ho in Hs. unfold holds in Hs. rewrite Eh in Hs; lia.
Qed.
Lemma run_no_fault s : forall w, good w -> exists w' evs, run s w = Some (w', evs) /\ good w'.
Proof.
  induction s as [|[i op] s IH]; intros w G; cbn [run]; [eauto|].
  destruct (step_no_fault i op w G) as (w1 & e1 & -> & G1). destruct (IH w1 G1) as (w2 & e2 & -> & G2). eauto.
Qed.
