(** Properties C76 and C77: panics that unwind through [RefMut::modify], through the
    construction of a block and through its destruction. *)
From Coq Require Import ZArith List Bool Permutation Lia.
From Coq Require Import ZifyBool ZifyNat.
From Verif Require Import UnwindModel UnwindSpec.
Import ListNotations.
Open Scope Z_scope.

(** ** Counting *)
Definition dropped (l : list event) : list Z := flat_map (fun e => match e with EDrop v => [v] | _ => [] end) l.
Lemma drops_dropped v l : drops v l = count_occ Z.eq_dec (dropped l) v.
Proof.
  induction l as [|[w|b|b] l IH]; [reflexivity| |exact IH|exact IH].
  assert (E : drops v (EDrop w :: l) = if v =? w then S (drops v l) else drops v l) by (unfold drops; cbn [filter]; destruct (v =? w); reflexivity).
  rewrite E.
  change (dropped (EDrop w :: l)) with (w :: dropped l). cbn [count_occ].
  destruct (Z.eqb_spec v w), (Z.eq_dec w v); congruence.
Qed.
Lemma dropped_app a b : dropped (a ++ b) = dropped a ++ dropped b.
Proof. apply flat_map_app. Qed.
Lemma dropped_map l : dropped (map EDrop l) = l.
Proof. induction l as [|v l IH]; [reflexivity|]. change (dropped (map EDrop (v :: l))) with (v :: dropped (map EDrop l)). rewrite IH. reflexivity. Qed.
Lemma frees_app b l m : frees b (l ++ m) = (frees b l + frees b m)%nat.
Proof. unfold frees. rewrite filter_app, app_length. reflexivity. Qed.
Lemma count_perm (a b : list Z) v : Permutation a b -> count_occ Z.eq_dec a v = count_occ Z.eq_dec b v.
Proof. intros H. apply Permutation_count_occ. exact H. Qed.
Lemma count_nodup (l : list Z) v : NoDup l -> count_occ Z.eq_dec l v = if in_dec Z.eq_dec v l then 1%nat else O.
Proof.
  intros H. destruct (in_dec Z.eq_dec v l) as [Hi|Hi].
  - apply NoDup_count_occ'; assumption.
  - apply count_occ_not_In. exact Hi.
Qed.

(** * C76 *)

Lemma owner_returns v fs made : linear v fs made -> (forall x c, ~ panics_at v fs x c) ->
  Permutation (v :: made) (dropped (owner v fs) ++ all_forgets v fs).
Proof.
  induction 1 as [v|v f fs made w more Ho Hr Hl IH|v f fs made Ho Hr]; intros Hn.
  - apply Permutation_refl.
  - cbn [owner all_forgets]. unfold modify. rewrite Hr, dropped_app, dropped_map. unfold owns in Ho. rewrite Hr in Ho.
    assert (IH' : Permutation (w :: more) (dropped (owner w fs) ++ all_forgets w fs)).
    { apply IH. intros x c Hp. apply (Hn x c). eapply pa_later; eassumption. }
    change (v :: made ++ more) with ((v :: made) ++ more). rewrite Ho, <- !app_assoc.
    apply Permutation_app_head. cbn [app]. rewrite IH'. rewrite !app_assoc. apply Permutation_app_tail. apply Permutation_app_comm.
  - exfalso. apply (Hn v (f v)). constructor. exact Hr.
Qed.
Lemma owner_panics v fs x c : panics_at v fs x c -> forall made, linear v fs made ->
  Permutation (x :: v :: made) (dropped (owner v fs) ++ all_forgets v fs).
Proof.
  induction 1 as [v f fs Hr|v f fs w x c Hr Hp IH]; intros made Hl;
    inversion Hl as [|? ? ? made' w' more Ho Hr' Hl'|? ? ? made' Ho Hr']; subst; try congruence.
  - cbn [owner all_forgets]. unfold modify. rewrite Hr, dropped_app, dropped_map. unfold owns in Ho. rewrite Hr in Ho.
    rewrite app_nil_r in *. rewrite Ho. cbn [dropped flat_map app]. rewrite <- app_assoc. apply (Permutation_middle (c_drops (f v)) (c_forgets (f v))).
  - rewrite Hr in Hr'. injection Hr' as <-. specialize (IH _ Hl').
    cbn [owner all_forgets]. unfold modify. rewrite Hr, dropped_app, dropped_map. unfold owns in Ho. rewrite Hr in Ho.
    change (v :: made' ++ more) with ((v :: made') ++ more). rewrite Ho, <- !app_assoc. rewrite Permutation_middle.
    apply Permutation_app_head. rewrite Permutation_middle. cbn [app]. rewrite IH.
    rewrite !app_assoc. apply Permutation_app_tail. apply Permutation_app_comm.
Qed.

(** If no closure panics, every value is dropped exactly once, unless it was forgotten. *)
Theorem C76_modify : forall v fs made, linear v fs made -> NoDup (v :: made) -> (forall x c, ~ panics_at v fs x c) ->
  forall x, In x (v :: made) -> (drops x (owner v fs) = if in_dec Z.eq_dec x (all_forgets v fs) then 0 else 1)%nat.
Proof.
  intros v fs made Hl Hnd Hn x Hx. pose proof (owner_returns v fs made Hl Hn) as P.
  pose proof (count_perm _ _ x P) as C. rewrite count_occ_app, count_nodup in C by exact Hnd.
  destruct (in_dec Z.eq_dec x (v :: made)) as [_|?]; [|contradiction]. rewrite drops_dropped.
  assert (N : NoDup (all_forgets v fs)).
  { apply (Permutation_NoDup P) in Hnd. clear -Hnd. induction (dropped (owner v fs)); [exact Hnd|]. inversion Hnd; auto. }
  rewrite (count_nodup _ x N) in C. destruct (in_dec Z.eq_dec x (all_forgets v fs)); lia.
Qed.
Print Assumptions C76_modify.

(** If a closure panics, the value that it was given is dropped twice (by the closure and at
    the end of the scope of the variable), unless the closure had forgotten it; every other
    value is dropped at most once. *)
Theorem C76_panic_refuted : forall v fs made x c, linear v fs made -> NoDup (v :: made) -> panics_at v fs x c ->
  (drops x (owner v fs) = if in_dec Z.eq_dec x (all_forgets v fs) then 1 else 2)%nat
  /\ forall y, y <> x -> (drops y (owner v fs) <= 1)%nat.
Proof.
  intros v fs made x c Hl Hnd Hp. pose proof (owner_panics v fs x c Hp made Hl) as P.
  assert (Hin : In x (v :: made)).
  { clear P Hnd. revert made Hl. induction Hp as [v f fs Hr|v f fs w x c Hr Hp IH]; intros made Hl; [left; reflexivity|].
    inversion Hl as [|? ? ? made' w' more Ho Hr' Hl'|]; subst; [|congruence]. rewrite Hr in Hr'. injection Hr' as <-.
    unfold owns in Ho. rewrite Hr in Ho. change (v :: made' ++ more) with ((v :: made') ++ more). apply in_app_iff.
    destruct (IH _ Hl') as [<-|Hi]; [|right; exact Hi]. left. apply (Permutation_in _ (Permutation_sym Ho)). rewrite !in_app_iff. cbn. auto. }
  assert (C : forall y, (count_occ Z.eq_dec (x :: v :: made) y = drops y (owner v fs) + count_occ Z.eq_dec (all_forgets v fs) y)%nat).
  { intros y. rewrite drops_dropped, <- count_occ_app. apply count_perm, P. }
  assert (Fx : (count_occ Z.eq_dec (all_forgets v fs) x = if in_dec Z.eq_dec x (all_forgets v fs) then 1 else 0)%nat).
  { destruct (in_dec Z.eq_dec x (all_forgets v fs)) as [Hi|Hi]; [|apply count_occ_not_In, Hi].
    apply (count_occ_In Z.eq_dec) in Hi. 
    assert (G : forall v fs x c, panics_at v fs x c -> forall made, linear v fs made -> NoDup (v :: made) -> NoDup (all_forgets v fs)).
    { clear. induction 1 as [v f fs Hr|v f fs w x c Hr Hp IH]; intros made Hl Hnd;
        inversion Hl as [|? ? ? made' w' more Ho Hr' Hl'|? ? ? made' Ho Hr']; subst; try congruence; cbn [all_forgets]; unfold owns in Ho; rewrite Hr in *.
      - rewrite app_nil_r in *. apply (Permutation_NoDup Ho) in Hnd. clear -Hnd. induction (c_drops (f v)); [exact Hnd|]. inversion Hnd; auto.
      - injection Hr' as <-. change (v :: made' ++ more) with ((v :: made') ++ more) in Hnd.
        rewrite Ho, <- !app_assoc in Hnd. cbn [app] in Hnd.
        assert (Hnd1 : NoDup (c_forgets (f v) ++ w :: more)) by (clear -Hnd; induction (c_drops (f v)); [exact Hnd|]; inversion Hnd; auto).
        assert (Hnd2 : NoDup (w :: more)) by (clear -Hnd1; induction (c_forgets (f v)); [exact Hnd1|]; inversion Hnd1; auto).
        specialize (IH _ Hl' Hnd2).
        assert (Hsub : forall y, In y (all_forgets w fs) -> In y (w :: more)).
        { pose proof (owner_panics w fs x c Hp more Hl') as P. intros y Hy.
          assert (Hy' : In y (x :: w :: more)) by (apply (Permutation_in _ (Permutation_sym P)), in_app_iff; auto).
          destruct Hy' as [<-|Hy']; [|exact Hy'].
          clear -Hp Hl'. revert more Hl'. induction Hp as [v f fs Hr|v f fs w x c Hr Hp IH]; intros made Hl; [left; reflexivity|].
          inversion Hl as [|? ? ? made' w' more Ho Hr' Hl'|]; subst; [|congruence]. rewrite Hr in Hr'. injection Hr' as <-.
          unfold owns in Ho. rewrite Hr in Ho. change (v :: made' ++ more) with ((v :: made') ++ more). apply in_app_iff.
          destruct (IH _ Hl') as [<-|Hi]; [|right; exact Hi]. left. apply (Permutation_in _ (Permutation_sym Ho)). rewrite !in_app_iff. cbn. auto. }
        clear -IH Hnd1 Hsub. induction (c_forgets (f v)) as [|a l IHl]; [exact IH|]. cbn [app] in *. inversion Hnd1; subst.
        constructor; [|auto]. rewrite in_app_iff in *. intros [Hy|Hy]; [auto|]. apply H1. right. apply Hsub, Hy. }
    rewrite (count_nodup _ x (G v fs x c Hp made Hl Hnd)). destruct (in_dec Z.eq_dec x (all_forgets v fs)) as [_|N]; [reflexivity|].
    rewrite (proj1 (count_occ_not_In Z.eq_dec _ _) N) in Hi. lia. }
  split.
  - specialize (C x). rewrite Fx in C. cbn [count_occ] in C. destruct (Z.eq_dec x x) as [_|?]; [|congruence].
    change (count_occ Z.eq_dec (v :: made) x) with (count_occ Z.eq_dec (v :: made) x) in C.
    pose proof (count_nodup _ x Hnd) as E. cbn [count_occ] in E. rewrite E in C.
    destruct (in_dec Z.eq_dec x (v :: made)) as [_|?]; [|contradiction]. destruct (in_dec Z.eq_dec x (all_forgets v fs)); lia.
  - intros y Hy. specialize (C y). cbn [count_occ] in C. destruct (Z.eq_dec x y) as [?|_]; [congruence|].
    pose proof (count_nodup _ y Hnd) as E. cbn [count_occ] in E. rewrite E in C. destruct (in_dec Z.eq_dec y (v :: made)); lia.
Qed.
Print Assumptions C76_panic_refuted.

(** The closure of the test in ref_mut.rs, then one that panics. *)
Definition c76_replace (v : Z) : call := {| c_drops := [v]; c_forgets := []; c_result := Some (v + 1) |}.
Definition c76_panic (v : Z) : call := {| c_drops := [v]; c_forgets := []; c_result := None |}.
Example C76_case :
  owner 5 [c76_replace; c76_replace] = [EDrop 5; EDrop 6; EDrop 7]
  /\ owner 5 [c76_replace; c76_panic] = [EDrop 5; EDrop 6; EDrop 6]
  /\ linear 5 [c76_replace; c76_panic] [6] /\ panics_at 5 [c76_replace; c76_panic] 6 (c76_panic 6).
Proof.
  repeat split.
  - change [6] with ([6] ++ []). eapply li_return; [apply Permutation_refl|reflexivity|]. apply li_panic; [apply Permutation_refl|reflexivity].
  - eapply pa_later; [reflexivity|]. constructor. reflexivity.
Qed.

(** * C77 *)
Section Panics.
Variable panics : Z -> bool.

Lemma slice_dropped vs : forall u l e, drop_slice panics u vs = (l, e) -> exists n, l = map EDrop (firstn n vs).
Proof.
  induction vs as [|v vs IH]; intros u l e; cbn [drop_slice].
  - intros [= <- _]. exists O. reflexivity.
  - destruct (panics v); [destruct u|].
    + intros [= <- _]. exists 1%nat. reflexivity.
    + destruct (drop_slice panics true vs) as [l' e'] eqn:E. intros [= <- _]. destruct (IH _ _ _ E) as [n ->]. exists (S n). reflexivity.
    + destruct (drop_slice panics u vs) as [l' e'] eqn:E. intros [= <- _]. destruct (IH _ _ _ E) as [n ->]. exists (S n). reflexivity.
Qed.
Lemma slice_all vs : forall u l e, drop_slice panics u vs = (l, e) -> e <> Abort -> l = map EDrop vs.
Proof.
  induction vs as [|v vs IH]; intros u l e; cbn [drop_slice].
  - intros [= <- _]. reflexivity.
  - destruct (panics v); [destruct u|].
    + intros [= _ <-]. congruence.
    + destruct (drop_slice panics true vs) as [l' e'] eqn:E. intros [= <- <-] H. cbn. f_equal. exact (IH _ _ _ E H).
    + destruct (drop_slice panics u vs) as [l' e'] eqn:E. intros [= <- <-] H. cbn. f_equal. exact (IH _ _ _ E H).
Qed.
Lemma slice_calm vs u : Forall (fun v => panics v = false) vs -> drop_slice panics u vs = (map EDrop vs, if u then Unwind else Ret tt).
Proof. induction 1 as [|v vs Hv _ IH]; cbn [drop_slice map]; [reflexivity|]. rewrite Hv, IH. reflexivity. Qed.
Lemma slice_unwinding vs l e : drop_slice panics true vs = (l, e) -> e = Unwind \/ e = Abort.
Proof.
  revert l e. induction vs as [|v vs IH]; intros l e; cbn [drop_slice].
  - intros [= _ <-]. auto.
  - destruct (panics v); [intros [= _ <-]; auto|]. destruct (drop_slice panics true vs) as [l' e'] eqn:E. intros [= _ <-]. exact (IH _ _ eq_refl).
Qed.
Lemma slice_ret vs u l x : drop_slice panics u vs = (l, Ret x) -> u = false /\ Forall (fun v => panics v = false) vs.
Proof.
  revert l. induction vs as [|v vs IH]; intros l; cbn [drop_slice].
  - destruct u; [discriminate|]. auto.
  - destruct (panics v) eqn:Ev; [destruct u; [discriminate|]|].
    + destruct (drop_slice panics true vs) as [l' e'] eqn:E. intros [= _ ->]. destruct (slice_unwinding _ _ _ E); discriminate.
    + destruct (drop_slice panics u vs) as [l' e'] eqn:E. intros [= _ ->]. destruct (IH _ eq_refl). auto.
Qed.
Lemma frees_drops b vs : frees b (map EDrop vs) = O.
Proof. induction vs; cbn; auto. Qed.
Lemma fill_owned len : forall src w rest u, fill len src = (w, rest, u) -> owned src = w ++ owned rest.
Proof.
  induction len as [|len IH]; intros src w rest u; cbn [fill].
  - intros [= <- <- _]. reflexivity.
  - destruct src as [|[v|] src].
    + intros [= <- <- _]. reflexivity.
    + destruct (fill len src) as [[w' rest'] u'] eqn:E. intros [= <- <- _]. cbn [owned flat_map app]. f_equal. apply (IH _ _ _ _ E).
    + intros [= <- <- _]. reflexivity.
Qed.
Lemma count_firstn (l : list Z) n v : (count_occ Z.eq_dec (firstn n l) v <= count_occ Z.eq_dec l v)%nat.
Proof. rewrite <- (firstn_skipn n l) at 2. rewrite count_occ_app. lia. Qed.
Lemma life_bound b header len src v :
  (count_occ Z.eq_dec (dropped (fst (life panics b header len src))) v <= count_occ Z.eq_dec (header :: owned src) v)%nat
  /\ (frees b (fst (life panics b header len src)) <= 1)%nat.
Proof.
  unfold life, new. destruct (fill len src) as [[w rest] u] eqn:Ef. pose proof (fill_owned _ _ _ _ _ Ef) as Eo.
  destruct (drop_slice panics u (owned rest)) as [l e] eqn:Es. destruct (slice_dropped _ _ _ _ Es) as [n En].
  assert (Hl : (count_occ Z.eq_dec (dropped (EAlloc b :: l)) v <= count_occ Z.eq_dec (owned rest) v)%nat).
  { rewrite En. change (dropped (EAlloc b :: map EDrop (firstn n (owned rest)))) with (dropped (map EDrop (firstn n (owned rest)))).
    rewrite dropped_map. apply count_firstn. }
  assert (Hfl : frees b (EAlloc b :: l) = O) by (rewrite En; apply frees_drops).
  assert (Hc : count_occ Z.eq_dec (header :: owned src) v = (count_occ Z.eq_dec [header] v + (count_occ Z.eq_dec w v + count_occ Z.eq_dec (owned rest) v))%nat).
  { change (header :: owned src) with ([header] ++ owned src). rewrite Eo, !count_occ_app. reflexivity. }
  destruct e as [[]| |]; cbn [fst]; [|rewrite Hfl, Hc; lia|rewrite Hfl, Hc; lia].
  unfold delete, object_drop, drop_value. destruct (drop_slice panics false w) as [l2 e2] eqn:E2. destruct (slice_dropped _ _ _ _ E2) as [m Em].
  assert (H2 : (count_occ Z.eq_dec (dropped l2) v <= count_occ Z.eq_dec w v)%nat) by (rewrite Em, dropped_map; apply count_firstn).
  assert (Hf2 : frees b l2 = O) by (rewrite Em; apply frees_drops).
  assert (H1 : count_occ Z.eq_dec (dropped [EDrop header]) v = count_occ Z.eq_dec [header] v) by reflexivity.
  assert (Z1 : dropped [EFree b] = []) by reflexivity.
  assert (F1 : frees b [EDrop header] = O) by reflexivity.
  assert (F2 : frees b [EFree b] = 1%nat) by (unfold frees; cbn; rewrite Z.eqb_refl; reflexivity).
  destruct e2 as [[]| |]; [destruct (panics header)| |]; cbn [fst]; rewrite ?dropped_app, ?count_occ_app, ?frees_app, ?Z1, ?H1, Hc, Hfl, ?F1, ?F2, Hf2; cbn [count_occ];
    split; try lia; change (if Z.eq_dec header v then 1%nat else 0%nat) with (count_occ Z.eq_dec [header] v) in *; lia.
Qed.
End Panics.

(** Whatever panics (the iterator, destructors), nothing is dropped twice and the block is
    freed at most once. *)
Theorem C77_once : forall panics b header len src, NoDup (header :: owned src) ->
  (forall v, drops v (fst (life panics b header len src)) <= 1)%nat /\ (frees b (fst (life panics b header len src)) <= 1)%nat.
Proof.
  intros panics b header len src Hnd. split; [|exact (proj2 (life_bound panics b header len src 0))].
  intros v. rewrite drops_dropped. pose proof (proj1 (life_bound panics b header len src v)) as H.
  rewrite (count_nodup _ v Hnd) in H. destruct (in_dec Z.eq_dec v (header :: owned src)); lia.
Qed.
Print Assumptions C77_once.

(** If nothing panics and the iterator gives at least as many items as it promised, the block
    holds the first of these; in the end all items and the header have been dropped once and
    the block is freed. *)
Theorem C77_complete : forall panics b header items more, (forall v, In v (header :: items ++ more) -> panics v = false) ->
  life panics b header (List.length items) (map Item (items ++ more))
  = (EAlloc b :: map EDrop more ++ map EDrop items ++ [EDrop header; EFree b], Ret tt).
Proof.
  intros panics b header items more Hp.
  assert (Ef : fill (List.length items) (map Item (items ++ more)) = (items, map Item more, false)).
  { clear. induction items as [|v items IH]; [destruct more; reflexivity|]. cbn [List.length fill app map]. rewrite IH. reflexivity. }
  assert (Eo : owned (map Item more) = more) by (clear; induction more as [|v l IH]; [reflexivity|]; cbn [map owned flat_map app]; f_equal; exact IH).
  unfold life, new. rewrite Ef, Eo.
  rewrite slice_calm by (apply Forall_forall; intros v Hv; apply Hp; right; apply in_app_iff; auto).
  unfold delete, object_drop, drop_value.
  rewrite slice_calm by (apply Forall_forall; intros v Hv; apply Hp; right; apply in_app_iff; auto).
  rewrite (Hp header (or_introl eq_refl)). cbn [app]. rewrite <- app_assoc. reflexivity.
Qed.
Print Assumptions C77_complete.

(** If the iterator panics, or ends, before the promised number of items, the block is never
    freed, and the items written so far and the header are never dropped; the items that the
    iterator has left are dropped. *)
Theorem C77_leak_refuted : forall panics b header items rest len, (List.length items < len)%nat -> NoDup (header :: items ++ owned rest) ->
  forall src, (src = map Item items /\ rest = [] \/ src = map Item items ++ Boom :: rest) ->
  let (l, e) := life panics b header len src in
  (e = Unwind \/ e = Abort) /\ frees b l = O /\ (forall v, In v (header :: items) -> drops v l = O)
  /\ ((forall v, In v (owned rest) -> panics v = false) -> forall v, In v (owned rest) -> drops v l = 1%nat).
Proof.
  intros panics b header items rest len Hlen Hnd src Hsrc.
  assert (Ef : fill len src = (items, rest, true)).
  { clear Hnd. revert len Hlen src Hsrc. induction items as [|v items IH]; intros [|len] Hlen src Hsrc; cbn [List.length map app] in *; try lia.
    - destruct Hsrc as [[-> ->]| ->]; reflexivity.
    - destruct Hsrc as [[-> ->]| ->]; cbn [fill]; [rewrite (IH len) with (src := map Item items)|rewrite (IH len) with (src := map Item items ++ Boom :: rest)];
        auto; lia. }
  unfold life, new. rewrite Ef. destruct (drop_slice panics true (owned rest)) as [l e] eqn:Es.
  destruct (slice_dropped _ _ _ _ _ Es) as [n En].
  assert (Hf : frees b (EAlloc b :: l) = O) by (rewrite En; apply frees_drops).
  assert (Hd : forall v, In v (header :: items) -> drops v (EAlloc b :: l) = O).
  { intros v Hv. rewrite drops_dropped. rewrite En. change (dropped (EAlloc b :: map EDrop (firstn n (owned rest)))) with (dropped (map EDrop (firstn n (owned rest)))).
    rewrite dropped_map. apply count_occ_not_In. intros Hi.
    assert (Hi' : In v (owned rest)) by (rewrite <- (firstn_skipn n (owned rest)); apply in_app_iff; auto).
    change (header :: items ++ owned rest) with ((header :: items) ++ owned rest) in Hnd. clear -Hnd Hv Hi'.
    induction (header :: items) as [|a k IH]; [destruct Hv|]. cbn [app] in Hnd. inversion Hnd; subst. destruct Hv as [->|Hv]; [|auto].
    apply H1, in_app_iff. auto. }
  assert (Hr : (forall v, In v (owned rest) -> panics v = false) -> forall v, In v (owned rest) -> drops v (EAlloc b :: l) = 1%nat).
  { intros Hp v Hv. rewrite slice_calm in Es by (apply Forall_forall; exact Hp). injection Es as <- _.
    rewrite drops_dropped. change (dropped (EAlloc b :: map EDrop (owned rest))) with (dropped (map EDrop (owned rest))). rewrite dropped_map.
    rewrite count_nodup.
    - destruct (in_dec Z.eq_dec v (owned rest)); [reflexivity|contradiction].
    - change (header :: items ++ owned rest) with ((header :: items) ++ owned rest) in Hnd. clear -Hnd.
      induction (header :: items) as [|a k IH]; [exact Hnd|]. inversion Hnd; auto. }
  destruct (slice_unwinding _ _ _ _ Es) as [-> | ->]; auto 10.
Qed.
Print Assumptions C77_leak_refuted.

(** If the destructor of one item panics, the other items are dropped, but not the header, and
    the block is not freed. *)
Theorem C77_drop_refuted : forall panics b header before v after, NoDup (before ++ v :: after) -> ~ In header (before ++ v :: after) ->
  panics v = true -> (forall w, In w (before ++ after) -> panics w = false) ->
  let (l, e) := delete panics b header (before ++ v :: after) in
  e = Unwind /\ frees b l = O /\ drops header l = O /\ forall w, In w (before ++ v :: after) -> drops w l = 1%nat.
Proof.
  intros panics b header before v after Hnd Hh Hv Hp.
  assert (E : drop_slice panics false (before ++ v :: after) = (map EDrop (before ++ v :: after), Unwind)).
  { clear Hnd Hh. induction before as [|w before IH]; cbn [app drop_slice map].
    - rewrite Hv, slice_calm by (apply Forall_forall; exact Hp). reflexivity.
    - rewrite (Hp w (or_introl eq_refl)), IH by (intros x Hx; apply Hp; right; exact Hx). reflexivity. }
  unfold delete, object_drop. rewrite E. split; [reflexivity|]. split; [apply frees_drops|]. split.
  - rewrite drops_dropped, dropped_map. apply count_occ_not_In, Hh.
  - intros w Hw. rewrite drops_dropped, dropped_map, count_nodup by exact Hnd.
    destruct (in_dec Z.eq_dec w (before ++ v :: after)); [reflexivity|contradiction].
Qed.
Print Assumptions C77_drop_refuted.

Definition calm (v : Z) : bool := false.
Example C77_case :
  life calm 1 10 2 [Item 11; Item 12; Item 13] = ([EAlloc 1; EDrop 13; EDrop 11; EDrop 12; EDrop 10; EFree 1], Ret tt)
  /\ life calm 1 10 3 [Item 11; Item 12] = ([EAlloc 1], Unwind)
  /\ life calm 1 10 3 [Item 11; Boom; Item 12] = ([EAlloc 1; EDrop 12], Unwind)
  /\ life (Z.eqb 12) 1 10 3 [Item 11; Item 12; Item 13] = ([EAlloc 1; EDrop 11; EDrop 12; EDrop 13], Unwind)
  /\ life (fun v => 12 <=? v) 1 10 3 [Item 11; Item 12; Item 13] = ([EAlloc 1; EDrop 11; EDrop 12; EDrop 13], Abort).
Proof. vm_compute. auto 10. Qed.
