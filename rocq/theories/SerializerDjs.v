(** The module writer: which blocks become constants, and in which order they are written. *)
From Coq Require Import ZArith List Bool String Lia.
From Coq Require Import Permutation.
From Verif Require Import Outcome JsBigintModel TokenizerModel TokenizerSpec ValueModel ParserModel ParserSpec
  SerializerModel SerializerSpec SerializerProofs.
Import ListNotations.
Open Scope Z_scope.
Notation any := ValueModel.any.

Definition opt_dec (a b : option Z) : {a = b} + {a <> b}.
Proof. decide equality. apply Z.eq_dec. Defined.

(** ** Graphs *)
Lemma any_children_ind (P : any -> Prop) : (forall a, (forall c, In c (children a) -> P c) -> P a) -> forall a, P a.
Proof. intros H. apply any_rect_all; intros; apply H; cbn [children]; try contradiction; assumption. Qed.

Fixpoint size (a : any) : nat :=
  match a with
  | AArray _ l => S (list_sum (map size l))
  | AObject _ l => S (list_sum (map (fun kv => size (snd kv)) l))
  | _ => 1%nat
  end.
Lemma list_sum_in l n : In n l -> (n <= list_sum l)%nat.
Proof. unfold list_sum. induction l as [|m l IH]; cbn [In fold_right]; [tauto|]. intros [->|H]; [lia|]. apply IH in H. lia. Qed.
Lemma size_child a c : In c (children a) -> (size c < size a)%nat.
Proof.
  destruct a; cbn [children size]; try contradiction; intros H.
  - apply (in_map size), list_sum_in in H. lia.
  - apply in_map_iff in H as (kv & <- & H). apply (in_map (fun kv => size (snd kv))), list_sum_in in H. lia.
Qed.
Lemma size_sub a b : sub a b -> (size b <= size a)%nat.
Proof. induction 1 as [|a c b H Hs IH]; [lia|]. apply size_child in H. lia. Qed.

(** The value at a place. *)
Definition at_place (r : any) (p : option (Z * nat)) (a : any) : Prop :=
  match p with
  | None => a = r
  | Some (j, k) => exists b, sub r b /\ ident_of b = Some j /\ nth_error (children b) k = Some a
  end.
Lemma place_at r i p : place r i p <-> exists a, at_place r p a /\ ident_of a = Some i.
Proof.
  split.
  - intros [H|b j k c H1 H2 H3 H4]; [exists r; cbn; auto|]. exists c. cbn. eauto 6.
  - destruct p as [[j k]|]; cbn; intros (a & H & Hi).
    + destruct H as (b & H1 & H2 & H3). eapply pl_child; eassumption.
    + subst a. constructor. exact Hi.
Qed.
Lemma at_place_fun r p a b : coherent r -> at_place r p a -> at_place r p b -> a = b.
Proof.
  intros Hc. destruct p as [[j k]|]; cbn; [|congruence]. intros (x & X1 & X2 & X3) (y & Y1 & Y2 & Y3).
  assert (x = y) by (eapply Hc; eassumption). congruence.
Qed.
Lemma at_place_sub r p a : at_place r p a -> sub r a.
Proof.
  destruct p as [[j k]|]; cbn; [|intros ->; apply sub_refl]. intros (b & H1 & _ & H3).
  eapply sub_trans; [exact H1|]. eapply sub_child; [eapply nth_error_In; exact H3|apply sub_refl].
Qed.

(** ** Association lists *)
Lemma find_id_app {V} (m m' : list (Z * V)) i : find_id (m ++ m') i = match find_id m i with Some v => Some v | None => find_id m' i end.
Proof. induction m as [|[j v] m IH]; cbn; [reflexivity|]. destruct (i =? j); auto. Qed.
Lemma find_id_in {V} (m : list (Z * V)) i v : find_id m i = Some v -> In (i, v) m.
Proof. induction m as [|[j w] m IH]; cbn; [discriminate|]. destruct (Z.eqb_spec i j) as [->|]; [intros [= ->]; auto|auto]. Qed.
Lemma in_find_id {V} (m : list (Z * V)) i v : In (i, v) m -> find_id m i <> None.
Proof. induction m as [|[j w] m IH]; cbn; [tauto|]. destruct (Z.eqb_spec i j) as [->|n]; [discriminate|]. intros [[= -> ->]|H]; [congruence|auto]. Qed.
Lemma find_id_remove {V} (m : list (Z * V)) i j : find_id (remove_id m i) j = if i =? j then None else find_id m j.
Proof.
  unfold remove_id. induction m as [|[k v] m IH]; cbn [filter fst find_id]; [destruct (i =? j); reflexivity|].
  destruct (Z.eqb_spec k i) as [->|Hk]; cbn [negb find_id].
  - rewrite IH. destruct (Z.eqb_spec i j) as [->|n]; [reflexivity|]. destruct (Z.eqb_spec j i); [congruence|reflexivity].
  - rewrite IH. destruct (Z.eqb_spec j k) as [->|]; [|reflexivity]. destruct (Z.eqb_spec i k); [congruence|reflexivity].
Qed.
Lemma find_id_mark (m : visited) i j : find_id (mark m i) j =
  match find_id m j with Some (b, f) => Some (b, if j =? i then true else f) | None => None end.
Proof.
  unfold mark. induction m as [|[k [b f]] m IH]; cbn [map find_id fst snd]; [reflexivity|].
  destruct (Z.eqb_spec k i) as [Hk|Hk]; cbn [find_id fst snd]; destruct (Z.eqb_spec j k) as [Hj|Hj];
    destruct (Z.eqb_spec j i) as [Hi|Hi]; try congruence; rewrite IH; destruct (Z.eqb_spec j i); congruence.
Qed.
Lemma mark_keys m i : map fst (mark m i) = map fst m.
Proof. unfold mark. rewrite map_map. apply map_ext. intros [k [b f]]. cbn [fst]. destruct (k =? i); reflexivity. Qed.

Lemma find_id_filter {V} f (m : list (Z * V)) i : find_id m i = None -> find_id (filter f m) i = None.
Proof.
  induction m as [|[j v] m IH]; cbn [find_id filter]; [reflexivity|]. destruct (Z.eqb_spec i j) as [->|n]; [discriminate|].
  intros H. destruct (f (j, v)); [|auto]. cbn [find_id]. destruct (Z.eqb_spec i j); [congruence|auto].
Qed.
Lemma filter_length_le {A} f (l : list A) : (List.length (filter f l) <= List.length l)%nat.
Proof. induction l as [|x l IH]; cbn; [lia|]. destruct (f x); cbn; lia. Qed.
Lemma filter_shorter {V} f (m : list (Z * V)) i : find_id m i <> None -> find_id (filter f m) i = None ->
  (List.length (filter f m) < List.length m)%nat.
Proof.
  induction m as [|[j v] m IH]; cbn [find_id filter]; [congruence|]. intros H1 H2.
  pose proof (filter_length_le f m). destruct (f (j, v)); cbn [List.length]; [|lia].
  cbn [find_id] in H2. destruct (i =? j); [discriminate|]. specialize (IH H1 H2). lia.
Qed.
Lemma filter_twice {A} f g (l : list A) : filter f (filter g l) = filter (fun x => g x && f x) l.
Proof. induction l as [|x l IH]; cbn; [reflexivity|]. destruct (g x); cbn; rewrite IH; reflexivity. Qed.

(** ** Tracking *)
Lemma track_eq a m : track a m =
  match ident_of a with
  | None => m
  | Some i => match find_id m i with
              | Some _ => mark m i
              | None => fold_left (fun m x => track x m) (children a) (m ++ [(i, (a, false))])
              end
  end.
Proof.
  destruct a as [ | | | | |i l|i l]; try reflexivity; cbn [track ident_of children]; destruct (find_id m i); try reflexivity.
  generalize (m ++ [(i, (AObject i l, false))]). generalize (AObject i l). intros _ m'.
  revert m'. induction l as [|kv l IH]; intros m'; [reflexivity|]. cbn [fold_left map]. apply IH.
Qed.

Section Track.
Variable r : any.
Hypothesis coh : coherent r.

Record tracked (m : visited) (P : option (Z * nat) -> Prop) : Prop := {
  tk_dom : forall i, find_id m i <> None <-> exists p, P p /\ place r i p;
  tk_val : forall i b f, find_id m i = Some (b, f) -> sub r b /\ ident_of b = Some i /\
    (f = true <-> exists p q, p <> q /\ P p /\ P q /\ place r i p /\ place r i q);
  tk_keys : NoDup (map fst m);
  tk_from : forall j k, P (Some (j, k)) -> find_id m j <> None }.

(** The places processed by tracking [a] at [p], from [m] to [m']. *)
Definition processed (P : option (Z * nat) -> Prop) (p : option (Z * nat)) (m m' : visited) (q : option (Z * nat)) : Prop :=
  P q \/ q = p \/ exists j k c, q = Some (j, k) /\ at_place r q c /\ find_id m j = None /\ find_id m' j <> None.

Lemma tracked_ext m P Q : (forall q, P q <-> Q q) -> tracked m P -> tracked m Q.
Proof.
  intros H [H1 H2 H3 H4]. split.
  - intros i. rewrite H1. split; intros (p & Hp & Hq); exists p; (split; [apply H; exact Hp|exact Hq]).
  - intros i b f Hf. destruct (H2 i b f Hf) as (A & B & C). split; [exact A|]. split; [exact B|]. rewrite C.
    split; intros (p & q & X1 & X2 & X3 & X4 & X5); exists p, q; rewrite ?H in *; auto.
  - exact H3.
  - intros j k Hjk. apply (H4 j k). apply H. exact Hjk.
Qed.

Lemma find_none_in (m : visited) i : find_id m i = None -> ~ In i (map fst m).
Proof. intros H Hin. apply in_map_iff in Hin as ([j v] & <- & Hin). apply (in_find_id m j v) in Hin. cbn in H. congruence. Qed.

Lemma track_inv a : forall m P p, tracked m P -> ~ P p -> at_place r p a ->
  (p = None \/ exists j k, p = Some (j, k) /\ find_id m j <> None) ->
  tracked (track a m) (processed P p m (track a m))
  /\ (forall j, find_id m j <> None -> find_id (track a m) j <> None)
  /\ (forall i, ident_of a = Some i -> find_id (track a m) i <> None).
Proof.
  induction a as [a IH] using any_children_ind. intros m P p Hm Hp Ha Hfrom.
  rewrite track_eq. destruct (ident_of a) as [i|] eqn:Ei.
  2: { (* not a block: the place holds no block *)
    split; [|split; [auto|discriminate]]. destruct Hm as [H1 H2 H3 H4].
    assert (Hno : forall i, ~ place r i p).
    { intros i Hi. apply place_at in Hi as (b & Hb & Hbi). rewrite (at_place_fun r p b a coh Hb Ha) in Hbi. congruence. }
    assert (Hnew : forall q, processed P p m m q <-> P q \/ q = p).
    { intros q. unfold processed. split; [|tauto]. intros [H|[H|(j & k & c & _ & _ & X & Y)]]; auto. congruence. }
    split.
    - intros j. rewrite H1. split; intros (q & Hq & Hpl); exists q; (split; [|exact Hpl]).
      + apply Hnew. auto.
      + apply Hnew in Hq as [Hq| ->]; [exact Hq|]. exfalso. exact (Hno j Hpl).
    - intros j b f Hf. destruct (H2 j b f Hf) as (A & B & C). split; [exact A|]. split; [exact B|]. rewrite C.
      split; intros (q & q' & X1 & X2 & X3 & X4 & X5); exists q, q'.
      + repeat (split; [solve [apply Hnew; auto|auto]|]). auto.
      + apply Hnew in X2 as [X2| ->]; [|exfalso; exact (Hno j X4)]. apply Hnew in X3 as [X3| ->]; [|exfalso; exact (Hno j X5)]. auto.
    - exact H3.
    - intros j k Hjk. apply Hnew in Hjk as [Hjk|Hjk]; [exact (H4 j k Hjk)|].
      destruct Hfrom as [->|(j' & k' & -> & Hf)]; [discriminate|]. injection Hjk as -> ->. exact Hf. }
  assert (Hpi : place r i p) by (apply place_at; eauto).
  assert (Hpl : forall j, place r j p -> j = i).
  { intros j Hj. apply place_at in Hj as (b & Hb & Hbi). rewrite (at_place_fun r p b a coh Hb Ha) in Hbi. congruence. }
  destruct (find_id m i) as [[b0 f0]|] eqn:Em.
  - (* visited before *)
    pose proof Hm as [H1 H2 H3 H4].
    assert (Hkeep : forall j, find_id (mark m i) j <> None <-> find_id m j <> None).
    { intros j. rewrite find_id_mark. destruct (find_id m j) as [[b f]|]; split; congruence. }
    assert (Hnew : forall q, processed P p m (mark m i) q <-> P q \/ q = p).
    { intros q. unfold processed. split; [|tauto]. intros [H|[H|(j & k & c & _ & _ & X & Y)]]; auto. apply Hkeep in Y. congruence. }
    split; [|split].
    + split.
      * intros j. rewrite Hkeep, H1. split; intros (q & Hq & Hj).
        -- exists q. split; [apply Hnew; auto|exact Hj].
        -- apply Hnew in Hq as [Hq| ->]; [eauto|]. apply Hpl in Hj. subst j. apply H1. congruence.
      * intros j b f. rewrite find_id_mark. destruct (find_id m j) as [[b' f']|] eqn:Ej; [|discriminate]. intros [= <- <-].
        destruct (H2 j b' f' Ej) as (A & B & C). split; [exact A|]. split; [exact B|].
        destruct (Z.eqb_spec j i) as [->|Hji].
        -- split; [intros _|reflexivity]. destruct (proj1 (H1 i)) as (q & Hq & Hqi); [congruence|].
           exists q, p. split; [intros ->; exact (Hp Hq)|]. split; [apply Hnew; auto|]. split; [apply Hnew; auto|]. auto.
        -- rewrite C. split; intros (q & q' & X1 & X2 & X3 & X4 & X5); exists q, q'.
           ++ repeat (split; [solve [apply Hnew; auto|auto]|]). auto.
           ++ apply Hnew in X2 as [X2| ->]; [|exfalso; apply Hji, Hpl, X4]. apply Hnew in X3 as [X3| ->]; [|exfalso; apply Hji, Hpl, X5]. auto.
      * rewrite mark_keys. exact H3.
      * intros j k Hjk. apply Hkeep. apply Hnew in Hjk as [Hjk|Hjk]; [exact (H4 j k Hjk)|].
        destruct Hfrom as [->|(j' & k' & -> & Hf)]; [discriminate|]. injection Hjk as -> ->. exact Hf.
    + intros j Hj. apply Hkeep. exact Hj.
    + intros j [= <-]. apply Hkeep. congruence.
  - (* first visit *)
    set (m0 := m ++ [(i, (a, false))]).
    assert (F0 : forall j, find_id m0 j = if j =? i then Some (a, false) else find_id m j).
    { intros j. unfold m0. rewrite find_id_app. cbn [find_id]. destruct (Z.eqb_spec j i) as [->|]; [rewrite Em; reflexivity|].
      destruct (find_id m j); reflexivity. }
    assert (K0 : tracked m0 (fun q => P q \/ q = p)).
    { pose proof Hm as [H1 H2 H3 H4].
      assert (Hnone : forall q, P q -> ~ place r i q) by (intros q Hq Hi; apply (proj2 (H1 i)); [eauto|exact Em]).
      split.
      - intros j. rewrite F0. destruct (Z.eqb_spec j i) as [->|Hji].
        + split; [intros _; exists p; auto|discriminate].
        + rewrite H1. split; intros (q & Hq & Hj); exists q; (split; [|exact Hj]); [auto|].
          destruct Hq as [Hq| ->]; [exact Hq|]. exfalso. apply Hji, Hpl, Hj.
      - intros j b f. rewrite F0. destruct (Z.eqb_spec j i) as [->|Hji].
        + intros [= <- <-]. split; [eapply at_place_sub; exact Ha|]. split; [exact Ei|].
          split; [discriminate|]. intros (q & q' & X1 & [X2| ->] & [X3| ->] & X4 & X5); exfalso; try (apply X1; reflexivity).
          * exact (Hnone q X2 X4). * exact (Hnone q X2 X4). * exact (Hnone q' X3 X5).
        + intros Hf. destruct (H2 j b f Hf) as (A & B & C). split; [exact A|]. split; [exact B|]. rewrite C.
          split; intros (q & q' & X1 & X2 & X3 & X4 & X5); exists q, q'.
          * auto 8.
          * destruct X2 as [X2| ->]; [|exfalso; apply Hji, Hpl, X4]. destruct X3 as [X3| ->]; [|exfalso; apply Hji, Hpl, X5]. auto.
      - unfold m0. rewrite map_app. cbn [map fst]. apply (Permutation.Permutation_NoDup (l := i :: map fst m));
          [apply Permutation.Permutation_cons_append|]. constructor; [apply find_none_in, Em|exact H3].
      - intros j k [Hjk|Hjk]; rewrite F0.
        + destruct (j =? i); [discriminate|]. exact (H4 j k Hjk).
        + destruct Hfrom as [->|(j' & k' & -> & Hf)]; [discriminate|]. injection Hjk as -> ->. destruct (j' =? i); [discriminate|exact Hf]. }
    (* the loop over the children *)
    set (Q := fun (n : nat) (mk : visited) q =>
      (P q \/ q = p) \/ (exists k c, q = Some (i, k) /\ (k < n)%nat /\ at_place r q c)
      \/ exists j k c, q = Some (j, k) /\ at_place r q c /\ find_id m0 j = None /\ find_id mk j <> None).
    assert (Hloop : forall suf pre mk, children a = pre ++ suf -> tracked mk (Q (List.length pre) mk) ->
      (forall j, find_id m0 j <> None -> find_id mk j <> None) ->
      let m' := fold_left (fun m x => track x m) suf mk in
      tracked m' (Q (List.length (children a)) m') /\ (forall j, find_id m0 j <> None -> find_id m' j <> None)).
    { induction suf as [|x suf IHs]; intros pre mk Hch Hk Hmono.
      - cbn. rewrite app_nil_r in Hch. rewrite Hch. auto.
      - cbn [fold_left]. assert (Hin : In x (children a)) by (rewrite Hch; apply in_elt).
        assert (Hat : at_place r (Some (i, List.length pre)) x).
        { exists a. split; [eapply at_place_sub; exact Ha|]. split; [exact Ei|]. rewrite Hch, nth_error_app2, Nat.sub_diag by lia. reflexivity. }
        assert (Hni : forall j, find_id m0 j = None -> j <> i) by (intros j Hj ->; rewrite F0, Z.eqb_refl in Hj; discriminate).
        assert (Hfresh : ~ Q (List.length pre) mk (Some (i, List.length pre))).
        { intros [[HP|Hq]|[(k & c & [= <-] & Hlt & _)|(j & k & c & [= <- <-] & _ & Hj & _)]].
          - apply (tk_from m P Hm) in HP. exact (HP Em).
          - subst p. pose proof (at_place_fun r _ _ _ coh Ha Hat) as E. subst x. apply size_child in Hin. lia.
          - lia.
          - exact (Hni i Hj eq_refl). }
        assert (Hi0 : find_id mk i <> None) by (apply Hmono; rewrite F0, Z.eqb_refl; discriminate).
        destruct (IH x Hin mk (Q (List.length pre) mk) (Some (i, List.length pre)) Hk Hfresh Hat) as (T1 & T2 & _);
          [right; eauto|].
        apply (IHs (pre ++ [x])).
        + rewrite <- app_assoc. exact Hch.
        + eapply tracked_ext; [|exact T1]. intros q. unfold processed, Q. rewrite app_length. cbn [List.length]. split.
          * intros [[H|[(k & c & E & Hlt & Hc)|(j & k & c & E & Hc & Hj & Hj')]]|[->|(j & k & c & E & Hc & Hj & Hj')]].
            -- auto.
            -- right. left. exists k, c. split; [exact E|]. split; [lia|exact Hc].
            -- right. right. exists j, k, c. auto.
            -- right. left. exists (List.length pre), x. split; [reflexivity|]. split; [lia|exact Hat].
            -- right. right. exists j, k, c. split; [exact E|]. split; [exact Hc|]. split; [|exact Hj'].
               destruct (find_id m0 j) eqn:E0; [|reflexivity]. exfalso. apply (Hmono j); congruence.
          * intros [H|[(k & c & E & Hlt & Hc)|(j & k & c & E & Hc & Hj & Hj')]].
            -- auto.
            -- destruct (Nat.eq_dec k (List.length pre)) as [->|Hne]; [auto|]. left. right. left. exists k, c. split; [exact E|]. split; [lia|exact Hc].
            -- destruct (find_id mk j) eqn:Ek.
               ++ left. right. right. exists j, k, c. split; [exact E|]. split; [exact Hc|]. split; [exact Hj|congruence].
               ++ right. right. exists j, k, c. auto.
        + intros j Hj. apply T2, Hmono, Hj. }
    destruct (Hloop (children a) [] m0) as (T1 & T2); [reflexivity| |auto|].
    { eapply tracked_ext; [|exact K0]. intros q. unfold Q. cbn [List.length]. split; [auto|].
      intros [H|[(k & c & _ & Hlt & _)|(j & k & c & _ & _ & X & Y)]]; [exact H|lia|congruence]. }
    set (m' := fold_left (fun m x => track x m) (children a) m0) in *.
    split; [|split].
    + eapply tracked_ext; [|exact T1]. intros q. unfold processed, Q. split.
      * intros [[H|H]|[(k & c & E & Hlt & Hc)|(j & k & c & E & Hc & Hj & Hj')]]; auto.
        -- right. right. exists i, k, c. split; [exact E|]. split; [exact Hc|]. split; [exact Em|].
           apply T2. rewrite F0, Z.eqb_refl. discriminate.
        -- right. right. exists j, k, c. split; [exact E|]. split; [exact Hc|]. split; [|exact Hj'].
           rewrite F0 in Hj. destruct (j =? i); [discriminate|exact Hj].
      * intros [H|[H|(j & k & c & E & Hc & Hj & Hj')]]; auto.
        right. destruct (Z.eq_dec j i) as [->|Hji].
        -- left. exists k, c. split; [exact E|]. split; [|exact Hc]. subst q. destruct Hc as (b & B1 & B2 & B3).
           assert (b = a) by (eapply coh; [exact B1|eapply at_place_sub; exact Ha|exact B2|exact Ei]). subst b.
           apply nth_error_Some. congruence.
        -- right. exists j, k, c. split; [exact E|]. split; [exact Hc|]. split; [|exact Hj'].
           rewrite F0. destruct (Z.eqb_spec j i); [congruence|exact Hj].
    + intros j Hj. apply T2. rewrite F0. destruct (j =? i); [discriminate|exact Hj].
    + intros j [= <-]. apply T2. rewrite F0, Z.eqb_refl. discriminate.
Qed.

(** After tracking the root: the blocks seen are those of the graph; those seen repeatedly are
    the shared ones. *)
Lemma track_root : let m := track r [] in
  NoDup (map fst m)
  /\ (forall i b f, find_id m i = Some (b, f) -> sub r b /\ ident_of b = Some i /\ (f = true <-> shared r i))
  /\ (forall b i, sub r b -> ident_of b = Some i -> find_id m i <> None).
Proof.
  intros m.
  destruct (track_inv r [] (fun _ => False) None) as (T1 & _ & T3); auto.
  { split; cbn; try tauto; try discriminate; [|constructor]. intros i. split; [congruence|intros (p & [] & _)]. }
  { reflexivity. }
  fold m in T1, T3.
  assert (Hall : forall b, sub r b -> forall p, at_place r p b -> processed (fun _ => False) None [] m p ->
    forall c, sub b c -> forall i, ident_of c = Some i -> find_id m i <> None).
  { intros b Hb p Hp Hpr c Hc. revert Hb p Hp Hpr. induction Hc as [b|b x c Hx Hc IH]; intros Hb p Hp Hpr i Hi.
    - apply (tk_dom _ _ T1). exists p. split; [exact Hpr|]. apply place_at. eauto.
    - apply In_nth_error in Hx as (k & Hk). destruct (ident_of b) as [j|] eqn:Ej.
      + assert (Hat : at_place r (Some (j, k)) x) by (exists b; auto).
        eapply (IH ltac:(eapply at_place_sub; exact Hat) (Some (j, k)) Hat); [|exact Hi].
        right. right. exists j, k, x. split; [reflexivity|]. split; [exact Hat|]. split; [reflexivity|].
        apply (tk_dom _ _ T1). exists p. split; [exact Hpr|]. apply place_at. eauto.
      + destruct b; cbn in Ej, Hk; try discriminate; destruct k; discriminate. }
  assert (Hroot : forall b i, sub r b -> ident_of b = Some i -> find_id m i <> None).
  { intros b i Hb Hi. eapply (Hall r (sub_refl r) None eq_refl); [right; left; reflexivity|exact Hb|exact Hi]. }
  assert (Hpr : forall i p, place r i p -> processed (fun _ => False) None [] m p).
  { intros i p [Hr|b j k c B1 B2 B3 B4]; [right; left; reflexivity|]. right. right. exists j, k, c.
    split; [reflexivity|]. split; [exists b; auto|]. split; [reflexivity|]. exact (Hroot b j B1 B2). }
  split; [exact (tk_keys _ _ T1)|]. split; [|exact Hroot].
  intros i b f Hf. destruct (tk_val _ _ T1 i b f Hf) as (A & B & C). split; [exact A|]. split; [exact B|]. rewrite C.
  unfold shared. split; intros (p & q & X); exists p, q; [tauto|]. destruct X as (X1 & X2 & X3). eauto 8.
Qed.
End Track.

(** ** Writing the constants *)
Section Write.
Variable show : Z -> list Z.
Variable r : any.
Hypothesis coh : coherent r.
Hypothesis nob : no_bigint r.
Hypothesis uni : units r.

Lemma consts_eq a s : consts_and_any show a s =
  match ident_of a with
  | None => Ok s
  | Some i => let! s' := oeach (consts_and_any show) (children a) s in define_const show i a s'
  end.
Proof.
  destruct a as [ | | | | |i l|i l]; try reflexivity. cbn [consts_and_any ident_of children].
  assert (E : forall s, oeach (fun kv => consts_and_any show (snd kv)) l s = oeach (consts_and_any show) (map snd l) s).
  { clear. induction l as [|kv l IH]; intros s; [reflexivity|]. cbn [oeach map].
    destruct (consts_and_any show (snd kv) s) as [s'| |]; cbn [obind]; [apply IH|reflexivity|reflexivity]. }
  rewrite E. reflexivity.
Qed.

Lemma index_of_app defs b i : index_of (defs ++ [b]) i =
  match index_of defs i with
  | Some k => Some k
  | None => match ident_of b with Some j => if i =? j then Some (List.length defs) else None | None => None end
  end.
Proof.
  induction defs as [|d defs IH]; cbn [index_of app List.length].
  - destruct (ident_of b) as [j|]; [destruct (i =? j)|]; reflexivity.
  - rewrite IH. destruct (ident_of d) as [j|]; [destruct (i =? j); [reflexivity|]|];
      destruct (index_of defs i); cbn [option_map]; try reflexivity;
      destruct (ident_of b) as [j'|]; try reflexivity; destruct (i =? j'); reflexivity.
Qed.
Lemma index_of_none defs i : index_of defs i = None <-> ~ In (Some i) (map ident_of defs).
Proof.
  induction defs as [|d defs IH]; cbn [index_of map In]; [tauto|].
  assert (E : option_map S (index_of defs i) = None <-> index_of defs i = None)
    by (destruct (index_of defs i); cbn; split; congruence).
  destruct (ident_of d) as [j|]; [destruct (Z.eqb_spec i j) as [->|n]|].
  - split; [discriminate|tauto].
  - rewrite E, IH. split; [|tauto]. intros H [[= H1]|H1]; [congruence|tauto].
  - rewrite E, IH. split; [|tauto]. intros H [H1|H1]; [discriminate|tauto].
Qed.
Lemma declarations_app bodies b : forall n, declarations n (bodies ++ [b]) =
  declarations n bodies ++ txt "const " ++ name_text (n + List.length bodies) ++ [61] ++ b ++ [59].
Proof.
  induction bodies as [|c bodies IH]; intros n.
  - cbn [List.length]. rewrite Nat.add_0_r. reflexivity.
  - change ((c :: bodies) ++ [b]) with (c :: (bodies ++ [b])). cbn [declarations List.length].
    rewrite IH, <- plus_n_Sm, plus_Sn_m, <- !app_assoc. reflexivity.
Qed.

Record writing (s : djs) (defs : list any) (bodies : list (list Z)) : Prop := {
  wt_refs : forall i, find_id (dj_refs s) i = index_of defs i;
  wt_len : List.length (dj_refs s) = List.length defs;
  wt_out : dj_out s = declarations O bodies;
  wt_bodies : List.length bodies = List.length defs;
  wt_nodup : NoDup (map ident_of defs);
  wt_defs : forall b, In b defs -> sub r b /\ ident_of b <> None;
  wt_todo : forall i b, In (i, b) (dj_todo s) -> sub r b /\ ident_of b = Some i;
  wt_shared : forall i, shared r i <-> find_id (dj_todo s) i <> None \/ index_of defs i <> None;
  wt_once : forall i, find_id (dj_todo s) i <> None -> index_of defs i = None;
  wt_text : forall k b t, nth_error defs k = Some b -> nth_error bodies k = Some t -> spelled show (index_of defs) b t;
  wt_before : forall k b c i, nth_error defs k = Some b -> inside b c -> ident_of c = Some i -> shared r i ->
    exists j, (j < k)%nat /\ index_of defs i = Some j }.

Definition cleared (a : any) (s : djs) : Prop := forall b i, sub a b -> ident_of b = Some i -> find_id (dj_todo s) i = None.

Lemma define_inv a i s defs bodies : sub r a -> ident_of a = Some i -> writing s defs bodies ->
  (forall c, In c (children a) -> cleared c s) ->
  exists s' defs' bodies', define_const show i a s = Ok s' /\ writing s' defs' bodies'
    /\ (exists f, dj_todo s' = filter f (dj_todo s)) /\ find_id (dj_todo s') i = None.
Proof.
  intros Ha Hi W Hc. unfold define_const. destruct (find_id (dj_todo s) i) as [b0|] eqn:Et.
  2: { exists s, defs, bodies. split; [reflexivity|]. split; [exact W|]. split; [exists (fun _ => true)|exact Et].
    clear. induction (dj_todo s) as [|x l IH]; cbn; congruence. }
  destruct W as [W1 W2 W3 W4 W5 W6 W7 W8 W9 W10 W11].
  assert (Hsh : shared r i) by (apply W8; left; congruence).
  assert (Hnew : index_of defs i = None) by (apply W9; congruence).
  destruct (with_refs_written show (dj_refs s) a) as (body & -> & Hw).
  { intros b Hb. apply nob. eapply sub_trans; eassumption. }
  { intros b Hb. apply uni. eapply sub_trans; eassumption. }
  cbn [obind].
  assert (Hsp : spelled show (find_id (dj_refs s)) a body).
  { inversion Hw as [a' j n Hj Hn|a' t Hn Hs]; subst; [|exact Hs]. rewrite W1 in Hn. congruence. }
  assert (Hin : forall c j, inside a c -> ident_of c = Some j -> index_of (defs ++ [a]) j = index_of defs j).
  { intros c j (x & Hx & Hxc) Hj. rewrite index_of_app, Hi. destruct (index_of defs j); [reflexivity|].
    destruct (Z.eqb_spec j i) as [->|]; [|reflexivity]. exfalso.
    pose proof (Hc x Hx c i Hxc Hj). congruence. }
  eexists. exists (defs ++ [a]), (bodies ++ [body]). split; [reflexivity|]. split; [|split]; cbn [dj_todo].
  - split; cbn [dj_out dj_todo dj_refs].
    + intros j. cbn [find_id]. rewrite index_of_app, Hi, W1, W2. destruct (Z.eqb_spec j i) as [->|]; [rewrite Hnew; reflexivity|].
      destruct (index_of defs j); reflexivity.
    + cbn [List.length]. rewrite app_length, W2. cbn. lia.
    + rewrite declarations_app, <- W3, W2, W4, const_name_text. cbn [Nat.add app]. reflexivity.
    + rewrite !app_length, W4. reflexivity.
    + rewrite map_app. cbn [map]. apply (Permutation.Permutation_NoDup (l := ident_of a :: map ident_of defs));
        [apply Permutation.Permutation_cons_append|]. constructor; [|exact W5]. rewrite Hi. apply index_of_none, Hnew.
    + intros b Hb. apply in_app_iff in Hb as [Hb|[<-|[]]]; [apply W6; exact Hb|]. split; [exact Ha|congruence].
    + intros j b Hb. apply W7. apply filter_In in Hb. apply Hb.
    + intros j. rewrite W8, find_id_remove, index_of_app, Hi. destruct (Z.eqb_spec i j) as [->|Hij].
      * rewrite Z.eqb_refl, Hnew. split; [right; discriminate|left; congruence].
      * destruct (Z.eqb_spec j i); [congruence|]. destruct (index_of defs j); split; auto; intros [H|H]; auto; congruence.
    + intros j. rewrite find_id_remove, index_of_app, Hi. destruct (Z.eqb_spec i j) as [->|Hij]; [congruence|].
      intros H. rewrite (W9 j H). destruct (Z.eqb_spec j i); congruence.
    + intros k b t Hk Hb. destruct (Nat.lt_ge_cases k (List.length defs)) as [Hlt|Hge].
      * rewrite nth_error_app1 in Hk by exact Hlt. rewrite nth_error_app1 in Hb by lia.
        apply (proj1 (proj2 (written_ext show (index_of defs) (index_of (defs ++ [a])))) b t); [exact (W10 k b t Hk Hb)|].
        intros c j Hcb Hj. rewrite index_of_app, Hi. destruct (index_of defs j) eqn:Ej; [reflexivity|].
        destruct (Z.eqb_spec j i) as [->|]; [|reflexivity]. exfalso.
        destruct (W11 k b c i Hk Hcb Hj Hsh) as (j' & _ & E). congruence.
      * rewrite nth_error_app2 in Hk by exact Hge. rewrite nth_error_app2 in Hb by lia.
        rewrite W4 in Hb. destruct (k - List.length defs)%nat; [|destruct n; discriminate]. injection Hk as <-. injection Hb as <-.
        apply (proj1 (proj2 (written_ext show (find_id (dj_refs s)) (index_of (defs ++ [a])))) a body); [exact Hsp|].
        intros c j Hca Hj. rewrite W1. symmetry. eapply Hin; eassumption.
    + intros k b c j Hk Hcb Hj Hshj. destruct (Nat.lt_ge_cases k (List.length defs)) as [Hlt|Hge].
      * rewrite nth_error_app1 in Hk by exact Hlt. destruct (W11 k b c j Hk Hcb Hj Hshj) as (n & Hn & E).
        exists n. split; [exact Hn|]. rewrite index_of_app, E. reflexivity.
      * rewrite nth_error_app2 in Hk by exact Hge. destruct (k - List.length defs)%nat; [|destruct n; discriminate]. injection Hk as <-.
        rewrite (Hin c j Hcb Hj). destruct Hcb as (x & Hx & Hxc).
        apply W8 in Hshj as [H|H]; [exfalso; apply H; exact (Hc x Hx c j Hxc Hj)|].
        destruct (index_of defs j) as [n|] eqn:E; [|congruence]. exists n. split; [|reflexivity].
        clear -E Hge. assert (n < List.length defs)%nat; [|lia]. revert n E Hge. clear. intros n E _. revert n E.
        induction defs as [|d defs IH]; intros n; cbn [index_of List.length]; [discriminate|].
        assert (H : option_map S (index_of defs j) = Some n -> (n < S (List.length defs))%nat).
        { destruct (index_of defs j) as [m|]; cbn; [|discriminate]. intros [= <-]. specialize (IH m eq_refl). lia. }
        destruct (ident_of d) as [j'|]; [destruct (j =? j')|]; auto. intros [= <-]. lia.
  - eexists. reflexivity.
  - rewrite find_id_remove, Z.eqb_refl. reflexivity.
Qed.

Lemma cleared_filter a s s' f : dj_todo s' = filter f (dj_todo s) -> cleared a s -> cleared a s'.
Proof. intros E H b i Hb Hi. rewrite E. apply find_id_filter. exact (H b i Hb Hi). Qed.

Lemma consts_inv a : forall s defs bodies, sub r a -> writing s defs bodies ->
  exists s' defs' bodies', consts_and_any show a s = Ok s' /\ writing s' defs' bodies'
    /\ (exists f, dj_todo s' = filter f (dj_todo s)) /\ cleared a s'.
Proof.
  induction a as [a IH] using any_children_ind. intros s defs bodies Ha W. rewrite consts_eq.
  destruct (ident_of a) as [i|] eqn:Ei.
  2: { exists s, defs, bodies. split; [reflexivity|]. split; [exact W|]. split.
    - exists (fun _ => true). clear. induction (dj_todo s) as [|x l IH]; cbn; congruence.
    - intros b i Hb Hi. inversion Hb as [|? c ? Hc]; subst; [congruence|]. destruct a; cbn in Ei, Hc; try discriminate; contradiction. }
  assert (Hloop : forall suf pre s defs bodies, children a = pre ++ suf -> writing s defs bodies -> (forall c, In c pre -> cleared c s) ->
    exists s' defs' bodies', oeach (consts_and_any show) suf s = Ok s' /\ writing s' defs' bodies'
      /\ (exists f, dj_todo s' = filter f (dj_todo s)) /\ (forall c, In c (children a) -> cleared c s')).
  { clear s defs bodies W. induction suf as [|x suf IHs]; intros pre s defs bodies Hch W Hpre.
    - exists s, defs, bodies. cbn. rewrite app_nil_r in Hch. subst pre. split; [reflexivity|]. split; [exact W|]. split; [|exact Hpre].
      exists (fun _ => true). clear. induction (dj_todo s) as [|x l IH]; cbn; congruence.
    - assert (Hin : In x (children a)) by (rewrite Hch; apply in_elt).
      destruct (IH x Hin s defs bodies) as (s1 & d1 & b1 & E1 & W1 & (f1 & F1) & C1);
        [eapply sub_trans; [exact Ha|eapply sub_child; [exact Hin|apply sub_refl]]|exact W|].
      destruct (IHs (pre ++ [x]) s1 d1 b1) as (s2 & d2 & b2 & E2 & W2 & (f2 & F2) & C2).
      + rewrite <- app_assoc. exact Hch.
      + exact W1.
      + intros c Hc. apply in_app_iff in Hc as [Hc|[<-|[]]]; [|exact C1]. eapply cleared_filter; [exact F1|]. exact (Hpre c Hc).
      + exists s2, d2, b2. cbn [oeach]. rewrite E1. cbn [obind]. split; [exact E2|]. split; [exact W2|]. split; [|exact C2].
        rewrite F2, F1, filter_twice. eexists. reflexivity. }
  destruct (Hloop (children a) [] s defs bodies eq_refl W) as (s1 & d1 & b1 & E1 & W1 & (f1 & F1) & C1); [intros c []|].
  rewrite E1. cbn [obind].
  destruct (define_inv a i s1 d1 b1 Ha Ei W1 C1) as (s2 & d2 & b2 & E2 & W2 & (f2 & F2) & N2).
  exists s2, d2, b2. split; [exact E2|]. split; [exact W2|]. split; [rewrite F2, F1, filter_twice; eexists; reflexivity|].
  intros b j Hb Hj. inversion Hb as [|? c ? Hc Hcb]; subst; [congruence|].
  rewrite F2. apply find_id_filter. exact (C1 c Hc b j Hcb Hj).
Qed.

Variable peek : list (Z * any) -> option any.
Hypothesis order : any_order peek.

Lemma write_consts_inv fuel : forall s defs bodies, writing s defs bodies -> (List.length (dj_todo s) <= fuel)%nat ->
  exists s' defs' bodies', write_consts show peek fuel s = Ok s' /\ writing s' defs' bodies' /\ dj_todo s' = [].
Proof.
  induction fuel as [|fuel IH]; intros s defs bodies W Hf; cbn [write_consts]; destruct order as [Hnil Hsome].
  - destruct (dj_todo s) eqn:E; [|cbn in Hf; lia]. rewrite Hnil. eauto 6.
  - destruct (dj_todo s) as [|x l] eqn:E; [rewrite Hnil; eauto 6|].
    destruct (Hsome (x :: l) ltac:(discriminate)) as (i & a & Hin & ->). rewrite <- E in *.
    destruct (wt_todo _ _ _ W i a Hin) as (Ha & Hi).
    destruct (consts_inv a s defs bodies Ha W) as (s1 & d1 & b1 & E1 & W1 & (f & F) & C). rewrite E1. cbn [obind].
    apply (IH s1 d1 b1 W1).
    assert (List.length (filter f (dj_todo s)) < List.length (dj_todo s))%nat; [|rewrite F; lia].
    apply (filter_shorter f (dj_todo s) i); [eapply in_find_id; exact Hin|]. rewrite <- F. exact (C a i (sub_refl a) Hi).
Qed.

(** ** The whole module *)
Lemma to_djs_text cjs : exists f0, forall fuel, (f0 <= fuel)%nat -> exists defs bodies body,
  to_djs show peek fuel r cjs = Ok (declarations O bodies ++ header cjs ++ body)
  /\ List.length bodies = List.length defs
  /\ NoDup (map ident_of defs)
  /\ (forall b, In b defs -> sub r b /\ ident_of b <> None)
  /\ (forall i, shared r i <-> In (Some i) (map ident_of defs))
  /\ (forall k b t, nth_error defs k = Some b -> nth_error bodies k = Some t -> spelled show (index_of defs) b t)
  /\ (forall k b c i, nth_error defs k = Some b -> inside b c -> ident_of c = Some i -> shared r i ->
      exists j, (j < k)%nat /\ index_of defs i = Some j)
  /\ written show (index_of defs) r body.
Proof.
  unfold to_djs. destruct (track_root r coh) as (Hnd & Hval & Hdom).
  set (todo := map _ _).
  assert (Hf : forall i b, In (i, b) todo <-> find_id (track r []) i = Some (b, true)).
  { intros i b. unfold todo. rewrite in_map_iff. split.
    - intros ([j [c f]] & [= <- <-] & Hin). apply filter_In in Hin as [Hin Hb]. cbn in Hb. subst f.
      clear -Hin Hnd. induction (track r []) as [|[k v] m IH]; [destruct Hin|]. cbn [find_id]. inversion Hnd; subst.
      destruct Hin as [[= -> ->]|Hin]; [rewrite Z.eqb_refl; reflexivity|].
      destruct (Z.eqb_spec j k) as [->|]; [|auto]. exfalso. apply H1. apply (in_map fst) in Hin. exact Hin.
    - intros H. exists (i, (b, true)). split; [reflexivity|]. apply filter_In. split; [apply find_id_in, H|reflexivity]. }
  assert (Hs : forall i, shared r i <-> find_id todo i <> None).
  { intros i. split.
    - intros H. assert (Hd : find_id (track r []) i <> None).
      { destruct H as (p & _ & _ & Hp & _). apply place_at in Hp as (a & Ha & Hi). eapply Hdom; [eapply at_place_sub; exact Ha|exact Hi]. }
      destruct (find_id (track r []) i) as [[b f]|] eqn:E; [|congruence]. destruct (Hval i b f E) as (_ & _ & Hsh).
      rewrite (proj2 Hsh H) in E. apply Hf in E. eapply in_find_id. exact E.
    - intros H. destruct (find_id todo i) as [b|] eqn:E; [|congruence]. apply find_id_in, Hf in E.
      apply (Hval i b true E). reflexivity. }
  exists (List.length todo). intros fuel Hfuel.
  destruct (write_consts_inv fuel {| dj_out := []; dj_todo := todo; dj_refs := [] |} [] []) as (s & defs & bodies & E & W & Ht).
  { split; cbn [dj_refs dj_out dj_todo find_id index_of List.length]; try reflexivity.
    - constructor.
    - intros b [].
    - intros i b Hin. apply Hf in Hin. destruct (Hval i b true Hin) as (A & B & _). auto.
    - intros i. rewrite Hs. split; [auto|]. intros [H|H]; [exact H|congruence].
    - intros [|k] b t Hk; discriminate.
    - intros [|k] b c i Hk; discriminate. }
  { exact Hfuel. }
  rewrite E. cbn [obind]. destruct (with_refs_written show (dj_refs s) r nob uni) as (body & -> & Hw). cbn [obind].
  destruct W as [W1 W2 W3 W4 W5 W6 W7 W8 W9 W10 W11].
  exists defs, bodies, body. split; [rewrite W3; reflexivity|]. split; [exact W4|]. split; [exact W5|]. split; [exact W6|].
  split; [|split; [exact W10|split; [exact W11|]]].
  - intros i. rewrite W8, Ht. cbn [find_id]. destruct (index_of defs i) eqn:Ei.
    + split; [intros _|right; discriminate]. destruct (in_dec (opt_dec) (Some i) (map ident_of defs)) as [H|H]; [exact H|].
      apply index_of_none in H. congruence.
    + apply index_of_none in Ei. tauto.
  - apply (proj1 (written_ext show (find_id (dj_refs s)) (index_of defs)) r body Hw). intros b i _ _. apply W1.
Qed.
End Write.

(** ** A module that is written contains no bigint *)
Section Bigint.
Variable show : Z -> list Z.
Variable r : any.
Hypothesis coh : coherent r.

Definition clean (refs : list (Z * nat)) : Prop :=
  forall b i, sub r b -> ident_of b = Some i -> find_id refs i <> None -> no_bigint b.

Lemma omap_in {A B} (f : A -> outcome B) l ys x : omap f l = Ok ys -> In x l -> exists y, f x = Ok y.
Proof.
  revert ys. induction l as [|z l IH]; intros ys H Hin; [destruct Hin|]. rewrite omap_cons in H.
  destruct (f z) eqn:E; cbn [obind] in H; try discriminate. destruct Hin as [->|Hin]; [eauto|].
  destruct (omap f l); cbn [obind] in H; try discriminate. eapply IH; eauto.
Qed.
Lemma no_bigint_children a : (forall x, a <> ABigint x) -> (forall c, In c (children a) -> no_bigint c) -> no_bigint a.
Proof. intros H Hc b Hb. inversion Hb as [|? c ? Hin Hs]; subst; [exact H|]. exact (Hc c Hin b Hs). Qed.

Lemma with_refs_clean refs a : forall t, sub r a -> clean refs -> with_refs show refs a = Ok t -> no_bigint a.
Proof.
  induction a as [ |b|f|s|b|i l IH|i l IH] using any_rect_all; intros t Ha Hc H;
    try (apply no_bigint_children; [discriminate|intros c []]).
  - cbn [with_refs] in H. destruct (find_id refs i) eqn:E; [apply (Hc _ i Ha eq_refl); congruence|].
    destruct (omap (with_refs show refs) l) as [ts| |] eqn:Eo; cbn [obind] in H; try discriminate.
    apply no_bigint_children; [discriminate|]. intros c Hin. destruct (omap_in _ _ _ c Eo Hin) as (y & Hy).
    eapply IH; [exact Hin|eapply sub_trans; [exact Ha|eapply sub_child; [exact Hin|apply sub_refl]]|exact Hc|exact Hy].
  - cbn [with_refs] in H. destruct (find_id refs i) eqn:E; [apply (Hc _ i Ha eq_refl); congruence|].
    destruct (omap _ l) as [ts| |] eqn:Eo; cbn [obind] in H; try discriminate.
    apply no_bigint_children; [discriminate|]. intros c Hin. pose proof Hin as Hin'. apply in_map_iff in Hin' as ([k x] & Hx & Hkx).
    cbn in Hx. subst x. destruct (omap_in _ _ _ _ Eo Hkx) as (y & Hy). cbn [fst snd] in Hy.
    destruct (with_refs show refs c) eqn:Ec; try discriminate.
    eapply IH; [exact Hin|eapply sub_trans; [exact Ha|eapply sub_child; [exact Hin|apply sub_refl]]|exact Hc|exact Ec].
Qed.

Lemma define_clean a i s s' : sub r a -> ident_of a = Some i -> clean (dj_refs s) -> define_const show i a s = Ok s' -> clean (dj_refs s').
Proof.
  intros Ha Hi Hc. unfold define_const. destruct (find_id (dj_todo s) i); [|intros [= <-]; exact Hc].
  destruct (with_refs show (dj_refs s) a) as [t| |] eqn:E; cbn [obind]; try discriminate. intros [= <-] b j Hb Hj. cbn [dj_refs find_id].
  destruct (Z.eqb_spec j i) as [->|]; [|apply Hc; assumption]. intros _.
  assert (b = a) by (eapply coh; eassumption). subst b. eapply with_refs_clean; eassumption.
Qed.

Lemma consts_clean a : forall s s', sub r a -> clean (dj_refs s) -> consts_and_any show a s = Ok s' -> clean (dj_refs s').
Proof.
  induction a as [a IH] using any_children_ind. intros s s' Ha Hc. rewrite consts_eq.
  destruct (ident_of a) as [i|] eqn:Ei; [|intros [= <-]; exact Hc].
  destruct (oeach (consts_and_any show) (children a) s) as [s1| |] eqn:E; cbn [obind]; try discriminate.
  apply define_clean; auto.
  assert (Hsub : forall c, In c (children a) -> sub r c) by (intros c Hin; eapply sub_trans; [exact Ha|eapply sub_child; [exact Hin|apply sub_refl]]).
  revert s E Hc. induction (children a) as [|x l IHl]; intros s E Hc; [injection E as <-; exact Hc|].
  cbn [oeach] in E. destruct (consts_and_any show x s) as [s2| |] eqn:Ex; cbn [obind] in E; try discriminate.
  eapply IHl; [intros; eapply IH; [right| | |]; eassumption|intros; apply Hsub; right; assumption|exact E|].
  eapply IH; [left; reflexivity|apply Hsub; left; reflexivity|exact Hc|exact Ex].
Qed.

Lemma to_djs_clean peek fuel cjs text : any_order peek -> to_djs show peek fuel r cjs = Ok text -> no_bigint r.
Proof.
  intros [Hnil Hsome]. unfold to_djs. set (todo := map _ _).
  assert (Hall : forall i a, In (i, a) todo -> sub r a).
  { intros i a Hin. apply in_map_iff in Hin as ([j [c f]] & [= <- <-] & Hin). apply filter_In in Hin as [Hin _].
    destruct (track_root r coh) as (Hnd & Hval & _).
    assert (E : find_id (track r []) j = Some (c, f)).
    { clear -Hin Hnd. induction (track r []) as [|[k v] m IH]; [destruct Hin|]. cbn [find_id]. inversion Hnd; subst.
      destruct Hin as [[= -> ->]|Hin]; [rewrite Z.eqb_refl; reflexivity|].
      destruct (Z.eqb_spec j k) as [->|]; [|auto]. exfalso. apply H1. apply (in_map fst) in Hin. exact Hin. }
    apply (Hval j c f E). }
  assert (Hloop : forall fuel s s', clean (dj_refs s) -> (forall i a, In (i, a) (dj_todo s) -> sub r a) ->
    write_consts show peek fuel s = Ok s' -> clean (dj_refs s')).
  { clear -Hnil Hsome coh. induction fuel as [|fuel IH]; intros s s' Hc Ht; cbn [write_consts].
    - destruct (peek (dj_todo s)); [discriminate|]. intros [= <-]. exact Hc.
    - destruct (peek (dj_todo s)) as [a|] eqn:Ep; [|intros [= <-]; exact Hc].
      assert (Ha : sub r a).
      { destruct (dj_todo s) as [|x l] eqn:E; [congruence|]. destruct (Hsome (x :: l) ltac:(discriminate)) as (i & a' & Hin & Ea).
        replace a with a' by congruence. eapply Ht. exact Hin. }
      destruct (consts_and_any show a s) as [s1| |] eqn:E; cbn [obind]; try discriminate.
      apply IH; [eapply consts_clean; eassumption|].
      intros i b Hin. apply (Ht i b). revert Hin. clear -E.
      assert (Hsub : forall a s s', consts_and_any show a s = Ok s' -> incl (dj_todo s') (dj_todo s)).
      { clear. induction a as [a IH] using any_children_ind. intros s s'. rewrite consts_eq.
        destruct (ident_of a) as [i|]; [|intros [= <-]; apply incl_refl].
        destruct (oeach (consts_and_any show) (children a) s) as [s1| |] eqn:E; cbn [obind]; try discriminate.
        intros H. apply incl_tran with (dj_todo s1).
        - unfold define_const in H. destruct (find_id (dj_todo s1) i); [|injection H as <-; apply incl_refl].
          destruct (with_refs show (dj_refs s1) a); cbn [obind] in H; try discriminate. injection H as <-. apply incl_filter.
        - clear H. revert s E. induction (children a) as [|x l IHl]; intros s E; [injection E as <-; apply incl_refl|].
          cbn [oeach] in E. destruct (consts_and_any show x s) as [s2| |] eqn:Ex; cbn [obind] in E; try discriminate.
          apply incl_tran with (dj_todo s2); [|eapply IH; [left; reflexivity|exact Ex]].
          apply IHl; [intros; eapply IH; [right|]; eassumption|exact E]. }
      apply (Hsub a s s1 E). }
  destruct (write_consts show peek fuel _) as [s| |] eqn:E; cbn [obind]; try discriminate.
  destruct (with_refs show (dj_refs s) r) as [body| |] eqn:Eb; cbn [obind]; try discriminate. intros _.
  eapply with_refs_clean; [apply sub_refl| |exact Eb]. refine (Hloop _ _ _ _ _ E); [|exact Hall]. intros b i _ _ H. cbn in H. congruence.
Qed.
End Bigint.
