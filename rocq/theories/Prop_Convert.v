(** Property C74: converting a file keeps its value (nanvm-lib/src/app/mod.rs with
    nanvm-lib/src/parser and nanvm-lib/src/serializer). *)
From Coq Require Import ZArith List Bool String Lia.
From Coq Require Import ZifyBool ZifyNat.
From Verif Require Import Outcome VTac TokenizerModel TokenizerSpec ValueModel ParserModel ParserSpec BTreeProofs TextSpec ParserProofs ParserRun
  ParserModules Prop_Parser SerializerModel SerializerSpec SerializerProofs SerializerRead Prop_Serializer TextProofs TextTokens Prop_Text TokenizerRun ParserHeap ParserTree ConvertSpec.
Import ListNotations.
Open Scope Z_scope.

(** ** Objects denoted by a module have their keys in order *)
Inductive ordered : tree -> Prop :=
| od_null : ordered VNull
| od_bool b : ordered (VBool b)
| od_number f : ordered (VNumber f)
| od_string s : ordered (VString s)
| od_bigint b : ordered (VBigint b)
| od_array l : Forall ordered l -> ordered (VArray l)
| od_object m : Forall (fun kv => ordered (snd kv)) m -> Sorted.StronglySorted (fun a b => text_before (fst a) (fst b)) m ->
    ordered (VObject (map (fun kv => (TextSpec.units (fst kv), snd kv)) m)).

Lemma before_irrefl s : ~ text_before s s.
Proof. induction s as [|x s IH]; intros H; inversion H; subst; [lia|auto]. Qed.
Lemma lookup_in l k t : lookup l k = Some t -> In (k, t) l.
Proof. induction l as [|[k' t'] l IH]; cbn; [discriminate|]. destruct (list_eq_dec Z.eq_dec k k'); [intros [= ->]; subst; auto|auto]. Qed.
Lemma in_lookup m k t : Sorted.StronglySorted (fun a b : list Z * tree => text_before (fst a) (fst b)) m -> In (k, t) m -> lookup m k = Some t.
Proof.
  induction 1 as [|[k' t'] m _ IH Hf]; cbn; [contradiction|]. intros [[= -> ->]|Hin].
  - destruct (list_eq_dec Z.eq_dec k k); congruence.
  - destruct (list_eq_dec Z.eq_dec k k') as [->|]; [|auto]. rewrite Forall_forall in Hf. apply Hf in Hin. cbn in Hin. destruct (before_irrefl _ Hin).
Qed.
Lemma object_ordered kvs o : Forall (fun kv => ordered (snd kv)) kvs -> is_object kvs o -> ordered (VObject o).
Proof.
  intros Hk (m & Hs & Hl & ->). constructor; [|exact Hs]. rewrite Forall_forall in *. intros [k t] Hin.
  apply (in_lookup _ _ _ Hs) in Hin. rewrite Hl in Hin. apply lookup_in in Hin. apply in_rev in Hin. apply (Hk _ Hin).
Qed.
Definition env_ordered (env : list (list Z * tree)) : Prop := Forall (fun kv => ordered (snd kv)) env.
Lemma scalar_ordered env tok t : env_ordered env -> scalar env tok t -> ordered t.
Proof. intros He H. destruct H; try constructor. apply lookup_in in H2. unfold env_ordered in He. rewrite Forall_forall in He. apply (He _ H2). Qed.
Lemma grammar_ordered (mods : list Z -> tree -> Prop) env : (forall m t, mods m t -> ordered t) -> env_ordered env ->
  (forall p d a d' t, gval mods env p d a d' t -> ordered t)
  /\ (forall p d a d' ts, gelems mods env p d a d' ts -> Forall ordered ts)
  /\ (forall f d a d' kvs, gmembers mods env f d a d' kvs -> Forall (fun kv => ordered (snd kv)) kvs).
Proof.
  intros Hm He. apply gval_mutind; intros; try (constructor; auto; fail).
  - eapply scalar_ordered; eassumption.
  - eapply Hm; eassumption.
  - eapply object_ordered; eassumption.
Qed.
Lemma module_ordered (mods : list Z -> tree -> Prop) : (forall m t, mods m t -> ordered t) -> forall env d nl toks d' t, env_ordered env -> gmodule mods env d nl toks d' t -> ordered t.
Proof.
  intros Hm env d nl toks d' t He H.
  assert (Hf : forall env d toks d' t, env_ordered env -> gfinal mods env d toks d' t -> ordered t).
  { intros env0 d0 toks0 d0' t0 He0 (a & b & n & _ & _ & Hv). apply (proj1 (grammar_ordered mods env0 Hm He0) _ _ _ _ _ Hv). }
  induction H; eauto.
  - apply IHgmodule. constructor; [|exact He]. eapply (proj1 (grammar_ordered mods env Hm He)); eassumption.
  - apply IHgmodule. constructor; [|exact He]. eapply Hm; eassumption.
Qed.
Lemma denotes_ordered io tf res n : forall p d t, denotes io tf res n p d t -> ordered t.
Proof.
  induction n as [|n IH]; intros p d t H; [contradiction|]. destruct H as (text & toks & _ & _ & H).
  eapply module_ordered; [|constructor|exact H]. intros m t' (d' & H'). apply (IH _ _ _ H').
Qed.

Lemma bmp_units s : bmp (TextSpec.units s) -> TextSpec.units s = s.
Proof.
  induction s as [|c s IH]; [reflexivity|]. unfold TextSpec.units. cbn [flat_map]. fold (TextSpec.units s). intros H. apply Forall_app in H as [H1 H2].
  rewrite (IH H2). unfold code_units in *. destruct (Z.leb_spec c 0xFFFF); [reflexivity|]. exfalso.
  inversion H1 as [|? ? _ H3]; subst. inversion H3 as [|? ? [_ H4] _]; subst. apply H4. unfold surrogate.
  pose proof (Z.mod_pos_bound (c - 0x10000) 0x400). lia.
Qed.
Lemma readable_ordered show : forall t, printable show t -> ordered t -> readable show t.
Proof.
  fix IH 1. intros [ |b|f|s|b|l|l] Hp Ho; inversion Hp; subst; try (constructor; assumption).
  - constructor. inversion Ho as [ | | | | |? Hl|]; subst. clear Hp Ho. rename H0 into H. revert H Hl.
    induction l as [|x l IHl]; intros H Hl; [constructor|]. inversion H; inversion Hl; subst.
    constructor; [apply IH; assumption|apply IHl; assumption].
  - rename H0 into H. inversion Ho as [ | | | | | |m Hm Hs E]. clear Hp Ho.
    assert (Hu : l = m).
    { rewrite <- E in H. rewrite <- E. clear -H. induction m as [|[k t] m IHm]; [reflexivity|]. cbn [map fst snd] in *. inversion H as [|? ? [Hb _] Hr]; subst. cbn [fst] in Hb.
      rewrite (bmp_units _ Hb), (IHm Hr). reflexivity. }
    subst m. rewrite ?E. clear E. constructor; [|exact Hs]. clear Hs. revert H Hm.
    induction l as [|[k t] l IHl]; intros H Hm; [constructor|]. inversion Hm; inversion H as [|? ? [Hb Hp] Hr]; subst.
    constructor; [split; [exact Hb|apply IH; assumption]|]. apply IHl; assumption.
Qed.

(** * C74 *)

(** Every value that the parser returns is the picture of one heap: wherever a block occurs in
    it, the block has the same content. *)
Theorem C74_one_heap : forall io tf depth R k c' d v, parse io tf depth (fresh R k) = Ok (c', inl (d, v)) -> coherent v.
Proof. intros io tf depth R k c' d v. apply parse_coherent. reflexivity. Qed.
Print Assumptions C74_one_heap.

(** The value of a JSON text is a tree: no block is used twice. *)
Theorem C74_tree : forall io tf depth c c' v, parse io tf depth c = Ok (c', inl (Json, v)) -> forall i, ~ shared v i.
Proof. exact parse_json_tree. Qed.
Print Assumptions C74_tree.

Lemma written_type output d : written_as output d -> file_to_data_type output = Some d.
Proof.
  assert (He : forall s w, ends_with (s ++ w) w = true).
  { intros s w. unfold ends_with. rewrite app_length. apply andb_true_iff. split; [apply Nat.leb_le; lia|].
    rewrite Nat.add_sub, skipn_app, skipn_all, Nat.sub_diag. apply str_eqb_eq. reflexivity. }
  assert (Hn : forall s w w' : list Z, (w <> [] /\ w' <> [] /\ last w 0 <> last w' 0 \/ exists p, (List.length p = List.length w' /\ exists q, w = q ++ p) /\ p <> w') ->
     ends_with (s ++ w) w' = false).
  { intros s w w' H. destruct (ends_with (s ++ w) w') eqn:E; [|reflexivity]. exfalso.
    unfold ends_with in E. apply andb_true_iff in E as [_ E]. apply str_eqb_eq in E.
    assert (E' : s ++ w = firstn (List.length (s ++ w) - List.length w') (s ++ w) ++ w') by (rewrite <- E at 2; symmetry; apply firstn_skipn).
    set (x := firstn _ _) in E'. clearbody x. clear E. destruct H as [(H1 & H2 & H3)|(p & (Hl & q & ->) & Hne)].
    - apply H3. assert (G : forall (a b : list Z), b <> [] -> last (a ++ b) 0 = last b 0).
      { clear. intros a b Hb. destruct (exists_last Hb) as (b' & z & ->). rewrite app_assoc, !last_last. reflexivity. }
      rewrite <- (G s w H1), E', (G x w' H2). reflexivity.
    - apply Hne. rewrite app_assoc in E'. apply (f_equal (@rev Z)) in E'. rewrite !rev_app_distr in E'.
      apply (f_equal (firstn (List.length p))) in E'. rewrite !firstn_app, !rev_length, Hl, Nat.sub_diag in E'. cbn [firstn] in E'.
      rewrite !app_nil_r in E'. rewrite <- Hl in E' at 1. rewrite <- (rev_length p), <- (rev_length w') in E'. rewrite !firstn_all in E'.
      apply (f_equal (@rev Z)) in E'. rewrite !rev_involutive in E'. exact E'. }
  intros [s|s|s]; unfold file_to_data_type; rewrite ?He; [reflexivity| |].
  - rewrite (Hn s (txt ".d.cjs") (txt ".json")) by (left; repeat split; discriminate). reflexivity.
  - rewrite (Hn s (txt ".d.mjs") (txt ".json")) by (left; repeat split; discriminate).
    rewrite (Hn s (txt ".d.mjs") (txt ".d.cjs")) by (right; exists (txt ".d.mjs"); split; [split; [reflexivity|exists []; reflexivity]|discriminate]).
    reflexivity.
Qed.

(** (When writes succeed.)  If the input file, with everything it imports, denotes the printable value [t], then the
    converter succeeds and writes a file that holds [t] in the dialect of the output's name;
    it changes no other file. *)
Theorem C74_convert_partial : forall show peek disk, any_order peek -> (forall p text, disk p text = Written) -> forall io tf n input d t, denotes io tf (at_root input) n input d t -> printable show t ->
  forall output o, written_as output o -> forall depth, (n <= depth)%nat ->
  exists f0, forall cfuel, (f0 <= cfuel)%nat -> forall prog rest,
  exists io' text toks, app_run show peek disk tf depth cfuel (prog :: input :: output :: rest) io = Ok (None, io')
    /\ io' output = Some text /\ (forall p, p <> output -> io' p = io p)
    /\ (exists g0, forall g, (g0 <= g)%nat -> tokenize g text = Ok toks) /\ holds o toks t.
Proof.
  intros show peek disk order Hdisk io tf n input d t Hd Hp output o Ho depth Hn.
  destruct (parse_complete io tf input n depth 0 d t Hd Hn) as (c' & v & Hv & <-).
  pose proof (readable_ordered show _ Hp (denotes_ordered _ _ _ _ _ _ _ Hd)) as Hr.
  pose proof (C74_one_heap _ _ _ _ _ _ _ _ Hv) as Hh.
  assert (Hw : forall text, fs_put io output (Some text) output = Some text /\ forall p, p <> output -> fs_put io output (Some text) p = io p).
  { intros text. unfold fs_put. split; [destruct (list_eq_dec Z.eq_dec output output); congruence|].
    intros p Hne. destruct (list_eq_dec Z.eq_dec p output); congruence. }
  assert (Ht : exists f0, forall cfuel, (f0 <= cfuel)%nat -> exists text toks,
    (match o with Json => to_json show v | Cjs => to_djs show peek cfuel v true | Mjs => to_djs show peek cfuel v false | Djs => Panic end) = Ok text
    /\ (exists g0, forall g, (g0 <= g)%nat -> tokenize g text = Ok toks) /\ holds o toks (erase v)).
  { destruct Ho.
    - destruct (json_reads show v Hr) as (text & toks & Ht & Hf & Hj). exists O. intros cfuel _. exists text, toks. auto.
    - exact (C56_denotes_partial show v Hh Hr peek order true).
    - exact (C56_denotes_partial show v Hh Hr peek order false). }
  destruct Ht as [f0 Hf]. exists f0. intros cfuel Hfuel prog rest. destruct (Hf cfuel Hfuel) as (text & toks & E & Htok & Hh').
  exists (fs_put io output (Some text)), text, toks. split; [|split; [apply Hw|split; [apply Hw|auto]]].
  unfold app_run. rewrite (written_type _ _ Ho). unfold fresh in Hv. rewrite Hv. cbn [obind].
  destruct Ho; rewrite E; cbn [obind]; unfold write_out; rewrite Hdisk; reflexivity.
Qed.
Print Assumptions C74_convert_partial.

(** The converter reads its own output: a file made from JSON, in any dialect, and a JSON file
    made from anything, denotes the same value as the input. *)
Theorem C74_read_back_partial : forall show peek disk, any_order peek -> (forall p text, disk p text = Written) -> forall io tf n input d t, denotes io tf (at_root input) n input d t -> printable show t ->
  forall output o, written_as output o -> d = Json \/ o = Json -> forall depth, (n <= depth)%nat ->
  exists f0, forall cfuel, (f0 <= cfuel)%nat -> forall prog rest,
  exists io', app_run show peek disk tf depth cfuel (prog :: input :: output :: rest) io = Ok (None, io')
    /\ exists g0, forall g, (g0 <= g)%nat -> exists n', denotes io' g (at_root output) n' output o t.
Proof.
  intros show peek disk order Hdisk io tf n input d t Hd Hp output o Ho Hj depth Hn.
  destruct (parse_complete io tf input n depth 0 d t Hd Hn) as (c' & v & Hv & <-).
  pose proof (readable_ordered show _ Hp (denotes_ordered _ _ _ _ _ _ _ Hd)) as Hr.
  pose proof (C74_one_heap _ _ _ _ _ _ _ _ Hv) as Hh.
  assert (Hw : forall text, fs_put io output (Some text) output = Some text).
  { intros text. unfold fs_put. destruct (list_eq_dec Z.eq_dec output output); congruence. }
  assert (Ht : exists f0, forall cfuel, (f0 <= cfuel)%nat -> exists text,
    (match o with Json => to_json show v | Cjs => to_djs show peek cfuel v true | Mjs => to_djs show peek cfuel v false | Djs => Panic end) = Ok text
    /\ exists g0, forall g io, (g0 <= g)%nat -> io output = Some text -> exists c'' b, parse io g 1 (fresh output 0) = Ok (c'', inl (o, b)) /\ erase b = erase v).
  { assert (Ho' : o = Json \/ o <> Json) by (destruct o; auto; right; discriminate). destruct Ho' as [->|Hne].
    - destruct (C53_round_trip_partial show v Hr) as (text & f0 & E & H). exists O. intros cfuel _. exists text. split; [exact E|].
      exists f0. intros g io0 Hg Hio. exact (H io0 g O (fresh output 0) Hg Hio).
    - destruct Hj as [->|]; [|congruence]. pose proof (C74_tree _ _ _ _ _ _ Hv) as Htree.
      destruct Ho; [congruence| |].
      + destruct (C58_read_back_partial show v Hh Hr peek order true Htree) as [f0 H]. exists f0. intros cfuel Hf. destruct (H cfuel Hf) as (text & E & g0 & Hg).
        exists text. split; [exact E|]. exists g0. intros g io0 Hl Hio. exact (Hg g io0 O (fresh _ 0) Hl Hio).
      + destruct (C58_read_back_partial show v Hh Hr peek order false Htree) as [f0 H]. exists f0. intros cfuel Hf. destruct (H cfuel Hf) as (text & E & g0 & Hg).
        exists text. split; [exact E|]. exists g0. intros g io0 Hl Hio. exact (Hg g io0 O (fresh _ 0) Hl Hio). }
  destruct Ht as [f0 Hf]. exists f0. intros cfuel Hfuel prog rest. destruct (Hf cfuel Hfuel) as (text & E & g0 & Hg).
  exists (fs_put io output (Some text)). split.
  - unfold app_run. rewrite (written_type _ _ Ho). unfold fresh in Hv. rewrite Hv. cbn [obind]. destruct Ho; rewrite E; cbn [obind]; unfold write_out; rewrite Hdisk; reflexivity.
  - exists g0. intros g Hl. apply (C39_modules (fs_put io output (Some text)) g output 0 o (erase v)). destruct (Hg g _ Hl (Hw text)) as (c'' & b & Hb & Eb). eauto.
Qed.
Print Assumptions C74_read_back_partial.

(** Two modules, written as JSON and as modules. *)
Definition c74_files : fs := fun p =>
  if str_eqb p (txt "a.mjs") then Some (txt "import x from ""b.json""" ++ [10] ++ txt "export default [x, {""k"": x}]")
  else if str_eqb p (txt "b.json") then Some (txt "[2]") else None.
Example C74_case :
  let go out := app_run show_two first_key good_disk 100 2 10 [txt "nanvm"; txt "a.mjs"; out] c74_files in
  (let! (e, io') := go (txt "o.json") in Ok (e, io' (txt "o.json"))) = Ok (None, Some (txt "[[2],{""k"":[2]}]"))
  /\ (let! (e, io') := go (txt "o.d.mjs") in Ok (e, io' (txt "o.d.mjs"))) = Ok (None, Some (txt "const _0=[2];export default [_0,{""k"":_0}]"))
  /\ (let! (e, io') := go (txt "o.d.cjs") in Ok (e, io' (txt "o.d.cjs"))) = Ok (None, Some (txt "const _0=[2];module.exports=[_0,{""k"":_0}]")).
Proof. vm_compute. auto. Qed.

Lemma two_shown : number_shown show_two 0x4000000000000000.
Proof. destruct C58_case_readable as [_ H]. inversion H as [ | | | |? H1|]; subst. inversion H1; subst. inversion H3 as [ | | | |? H5|]; subst. inversion H5; subst. inversion H6; subst. assumption. Qed.
Definition c74_tree : tree := VArray [VArray [VNumber 0x4000000000000000]; VObject [(txt "k", VArray [VNumber 0x4000000000000000])]].
Example C74_case_denotes : (exists n, denotes c74_files 100 (at_root (txt "a.mjs")) n (txt "a.mjs") Mjs c74_tree) /\ printable show_two c74_tree.
Proof.
  split.
  - apply (C39_modules c74_files 100 (txt "a.mjs") 0 Mjs c74_tree). exists 2%nat. eexists. eexists. split; vm_compute; reflexivity.
  - pose proof two_shown as H. repeat constructor; try exact H; unfold unit16, surrogate; cbn; lia.
Qed.

(** Where reading back fails: if the value of the input uses some block twice, a module is
    written without an error, and the parser rejects it. *)
Theorem C74_read_back_refuted : forall show peek disk, any_order peek -> (forall p text, disk p text = Written) -> forall io tf depth input c d v, parse io tf depth (fresh input 0) = Ok (c, inl (d, v)) ->
  printable show (erase v) -> (exists i, shared v i) -> forall output o, written_as output o -> o <> Json ->
  exists f0, forall cfuel, (f0 <= cfuel)%nat -> forall prog rest,
  exists io', app_run show peek disk tf depth cfuel (prog :: input :: output :: rest) io = Ok (None, io')
    /\ exists g0, forall g n d' t, (g0 <= g)%nat -> ~ denotes io' g (at_root output) n output d' t.
Proof.
  intros show peek disk order Hdisk io tf depth input c d v Hv Hp Hs output o Ho Hne.
  destruct (proj1 (C39_modules io tf input 0 d (erase v)) (ex_intro _ depth (ex_intro _ c (ex_intro _ v (conj Hv eq_refl))))) as [n Hd].
  pose proof (readable_ordered show _ Hp (denotes_ordered _ _ _ _ _ _ _ Hd)) as Hr.
  pose proof (C74_one_heap _ _ _ _ _ _ _ _ Hv) as Hh.
  assert (Hw : forall text, fs_put io output (Some text) output = Some text).
  { intros text. unfold fs_put. destruct (list_eq_dec Z.eq_dec output output); congruence. }
  assert (Ht : exists f0, forall cfuel, (f0 <= cfuel)%nat -> exists text,
    (match o with Cjs => to_djs show peek cfuel v true | Mjs => to_djs show peek cfuel v false | _ => Panic end) = Ok text
    /\ exists g0, forall g io dep c' d' b, (g0 <= g)%nat -> io output = Some text -> parse io g (S dep) (fresh output 0) <> Ok (c', inl (d', b))).
  { destruct Ho; [congruence| |].
    - destruct (C58_read_back_refuted show v Hh Hr peek order true Hs) as [f0 H]. exists f0. intros cfuel Hf. destruct (H cfuel Hf) as (text & E & g0 & Hg).
      exists text. split; [exact E|]. exists g0. intros g io0 dep c' d' b Hl Hio. exact (Hg g io0 dep (fresh _ 0) c' d' b Hl Hio).
    - destruct (C58_read_back_refuted show v Hh Hr peek order false Hs) as [f0 H]. exists f0. intros cfuel Hf. destruct (H cfuel Hf) as (text & E & g0 & Hg).
      exists text. split; [exact E|]. exists g0. intros g io0 dep c' d' b Hl Hio. exact (Hg g io0 dep (fresh _ 0) c' d' b Hl Hio). }
  destruct Ht as [f0 Hf]. exists f0. intros cfuel Hfuel prog rest. destruct (Hf cfuel Hfuel) as (text & E & g0 & Hg).
  exists (fs_put io output (Some text)). split.
  - unfold app_run. rewrite (written_type _ _ Ho). unfold fresh in Hv. rewrite Hv. cbn [obind]. destruct Ho; try congruence; rewrite E; cbn [obind]; unfold write_out; rewrite Hdisk; reflexivity.
  - exists g0. intros g n' d' t Hl Hden. destruct (parse_complete _ _ _ n' (S n') 0 _ _ Hden (Nat.le_succ_diag_r n')) as (c' & b & Hb & _).
    exact (Hg _ _ _ _ _ _ Hl (Hw text) Hb).
Qed.
Print Assumptions C74_read_back_refuted.
Example C74_shared_case : exists c v, parse c74_files 100 2 (fresh (txt "a.mjs") 0) = Ok (c, inl (Mjs, v)) /\ printable show_two (erase v) /\ exists i, shared v i.
Proof.
  eexists. eexists. split; [vm_compute; reflexivity|]. split; [exact (proj2 C74_case_denotes)|]. exists 0.
  exists (Some (2, O)), (Some (1, O)). split; [discriminate|]. split.
  - eapply pl_child; [apply sub_refl|reflexivity|reflexivity|reflexivity].
  - eapply pl_child; [eapply sub_child; [right; left; reflexivity|apply sub_refl]|reflexivity|reflexivity|reflexivity].
Qed.

(** * C70: the converter returns *)

Lemma text_units : forall v, text_tree (erase v) -> SerializerSpec.units v.
Proof.
  assert (Hu : forall u s, reads_as u s -> Forall unit16 u).
  { intros u s H. apply reads_as_units in H as [<- Hs]. induction Hs as [|c s Hc _ IH]; [constructor|]. rewrite units_cons. apply Forall_app. split; [|exact IH].
    unfold code_units, scalar_value, unit16 in *. pose proof (Z.mod_pos_bound (c - 0x10000) 0x400). pose proof (Z.div_lt_upper_bound (c - 0x10000) 0x400 0x400).
    pose proof (Z.div_pos (c - 0x10000) 0x400). destruct (Z.leb_spec c 0xFFFF); repeat constructor; lia. }
  assert (Hsub : forall a b, sub a b -> text_tree (erase a) -> text_tree (erase b)).
  { induction 1 as [a|a c b Hin _ IH]; [auto|]. intros H. apply IH. destruct a; cbn in Hin; try contradiction; cbn in H.
    - inversion H as [? _ Hc _| |? Hf|]; subst; [destruct (Hc _ eq_refl)|]. rewrite Forall_forall in Hf. apply Hf, in_map, Hin.
    - inversion H as [? _ _ Hc| | |? Hf]; subst; [destruct (Hc _ eq_refl)|]. rewrite Forall_forall in Hf. apply in_map_iff in Hin as ([k x] & <- & Hin).
      apply (Hf (k, erase x)). apply in_map_iff. exists (k, x). auto. }
  intros v Hv b Hb. pose proof (Hsub _ _ Hb Hv) as H. destruct b; try exact I; cbn in H.
  - inversion H as [? Hc _ _|? s Hr| |]; subst; [destruct (Hc _ eq_refl)|]. exact (Hu _ _ Hr).
  - inversion H as [? _ _ Hc| | |? Hf]; subst; [destruct (Hc _ eq_refl)|]. rewrite Forall_forall in *. intros [k x] Hin.
    destruct (Hf (k, erase x)) as [[s Hs] _]; [apply in_map_iff; exists (k, x); auto|]. exact (Hu _ _ Hs).
Qed.

(** For every finite file system whose texts the tokenizer handles and have no semicolon inside
    a constant: if the value of the input has no bigint, the converter returns. *)
Theorem C70_returns_partial : forall show peek disk io F prog input output rest, any_order peek ->
  (forall p text, io p = Some text -> In p F /\ Forall scalar_value text /\ calm text) ->
  exists t0, forall tf depth, (t0 <= tf)%nat -> (List.length F <= depth)%nat ->
  (forall p text ts, io p = Some text -> tokenize tf text = Ok ts -> ~ semicolon_in_constant ts) ->
  (forall c d v, parse io tf depth (fresh input 0) = Ok (c, inl (d, v)) -> no_bigint v) ->
  exists c0, forall cfuel, (c0 <= cfuel)%nat -> exists e io', app_run show peek disk tf depth cfuel (prog :: input :: output :: rest) io = Ok (e, io').
Proof.
  intros show peek disk io F prog input output rest order Hio.
  assert (Hch : forall text, Forall scalar_value text -> chars text).
  { intros text. apply Forall_impl. unfold scalar_value. lia. }
  destruct (C46_terminates_partial io F input) as [f1 Hf1].
  { intros p text E. destruct (Hio p text E) as (H1 & H2 & H3). auto. }
  destruct (tokenize_all io F) as [f2 Hf2].
  { intros p text _ E. destruct (Hio p text E) as (H1 & H2 & H3). auto. }
  exists (Nat.max f1 f2). intros tf depth Ht Hd Hs Hb.
  assert (Hn : parse io tf depth (fresh input 0) <> NoFuel) by (apply Hf1; lia).
  assert (Hp : parse io tf depth (fresh input 0) <> Panic).
  { intros E. destruct (C45_modules_panic_only io tf input 0 depth) as (p & text & ts & E1 & E2 & E3); [|exact E|exact (Hs _ _ _ E1 E2 E3)].
    intros p text Et. destruct (Hf2 p text tf (proj1 (Hio p text Et)) Et) as [ts ->]; [lia|discriminate]. }
  unfold app_run. fold (fresh input 0). destruct (file_to_data_type output) as [dt|] eqn:Edt; [|exists O; eauto].
  destruct (parse io tf depth (fresh input 0)) as [[c [[d v]|err]]| |] eqn:E; try congruence; cbn [obind]; [|exists O; eauto].
  specialize (Hb _ _ _ eq_refl).
  assert (Hu : SerializerSpec.units v).
  { apply text_units. eapply C73_well_formed; [|exact E]. intros p text Ep. apply (Hio p text Ep). }
  pose proof (C74_one_heap _ _ _ _ _ _ _ _ E) as Hh.
  assert (Hw : forall text, exists e io', write_out disk io output text = Ok (e, io')).
  { intros text. unfold write_out. destruct (disk output text); eauto. }
  destruct (C55_total_partial show v Hb Hu) as [[text Hj] Hdj]. specialize (Hdj Hh peek order).
  unfold file_to_data_type in Edt. repeat match type of Edt with context [if ?b then _ else _] => destruct b end; try discriminate; injection Edt as <-.
  - exists O. intros cfuel _. rewrite Hj. apply Hw.
  - destruct (Hdj true) as [f0 Hf]. exists f0. intros cfuel Hl. destruct (Hf cfuel Hl) as [x ->]. apply Hw.
  - destruct (Hdj false) as [f0 Hf]. exists f0. intros cfuel Hl. destruct (Hf cfuel Hl) as [x ->]. apply Hw.
Qed.
Print Assumptions C70_returns_partial.
Lemma plain_calm text : Z.of_nat (List.length text) < 2 ^ 63 -> Forall (fun c => c <> 46 /\ c <> 101 /\ c <> 69) text -> calm text.
Proof.
  intros Hlen H. split; [exact Hlen|]. intros p d frac n ex v q -> _ Hf He _.
  rewrite !Forall_app in H. destruct H as [_ [H _]]. inversion H as [|? ? _ H']; subst. apply Forall_app in H' as [H1 H2].
  destruct Hf as [[-> ->]|(fs & -> & _)]; [|inversion H1; subst; lia].
  destruct He as [[-> ->]|(x & sg & ds & -> & Hx & _)]; [lia|]. inversion H2; subst; lia.
Qed.
Example C70_returns_case :
  let io : fs := fun p => if str_eqb p (txt "m") then Some (txt "[2,[null,2]]") else None in
  (forall p text, io p = Some text -> In p [txt "m"] /\ Forall scalar_value text /\ calm text)
  /\ (forall p text ts, io p = Some text -> tokenize 100 text = Ok ts -> ~ semicolon_in_constant ts)
  /\ (forall c d v, parse io 100 1 (fresh (txt "m") 0) = Ok (c, inl (d, v)) -> no_bigint v)
  /\ (let! (e, io') := app_run show_two first_key good_disk 100 1 10 [txt "nanvm"; txt "m"; txt "o.d.cjs"] io in Ok (e, io' (txt "o.d.cjs")))
     = Ok (None, Some (txt "module.exports=[2,[null,2]]")).
Proof.
  cbv zeta. split; [|split; [|split]].
  - intros p text. destruct (str_eqb p (txt "m")) eqn:E; [|discriminate]. intros [= <-]. apply str_eqb_eq in E. subst p.
    split; [left; reflexivity|]. split; [unfold scalar_value; repeat (apply Forall_cons; [lia|]); constructor|].
    apply plain_calm; [cbn; lia|repeat (apply Forall_cons; [lia|]); constructor].
  - intros p text ts. destruct (str_eqb p (txt "m")) eqn:E; [|discriminate]. intros Ht H (pre & k & a & rest & ->).
    assert (G : exists t, tokenize 100 (txt "[2,[null,2]]") = Ok t /\ ~ In TSemicolon t).
    { eexists. split; [vm_compute; reflexivity|]. intros G. repeat (destruct G as [G|G]; [discriminate|]). exact G. }
    destruct G as (t & Et & G). assert (E' : text = txt "[2,[null,2]]") by congruence. rewrite E', Et in H. injection H as ->. apply G. apply in_app_iff. right. do 3 right. apply in_app_iff. right. left. reflexivity.
  - intros c d v H. vm_compute in H. injection H as <- <- <-.
    intros b Hb x ->. repeat match goal with
      | H : In _ (children _) |- _ => cbn in H; repeat (destruct H as [<-|H]); try contradiction
      | H : sub _ _ |- _ => inversion H; subst; clear H
      end.
  - vm_compute. reflexivity.
Qed.
