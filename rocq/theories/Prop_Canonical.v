(** Property C89: the JSON text written for a value depends on the value only
    (nanvm-lib/src/serializer, nanvm-lib/src/app/mod.rs). *)
From Coq Require Import ZArith List Bool String Lia.
From Verif Require Import Outcome VTac JsBigintModel TokenizerModel TokenizerSpec ValueModel ParserModel ParserSpec SerializerModel SerializerSpec
  ConvertSpec ParserProofs ParserRun ParserModules ParserMore SerializerProofs JsonCode SerializerDjs SerializerRead Prop_Parser Prop_Serializer Prop_Convert.
Import ListNotations.
Open Scope Z_scope.

(** * C89 *)
(** Two values with the same structure and the same scalars are written as the same text,
    wherever their blocks are and however they are shared. *)
Theorem C89_value : forall show a b, erase a = erase b -> to_json show a = to_json show b.
Proof.
  intros show a. unfold to_json. induction a as [ |x|f|s|x|i l IH|i l IH] using any_rect_all; intros [ |y|g|u|y|j m|j m]; cbn [erase]; intros E; try discriminate;
    try (injection E as ->; reflexivity); try reflexivity; injection E as E; cbn [write_json].
  - assert (H : SerializerModel.omap (write_json show) l = SerializerModel.omap (write_json show) m); [|rewrite H; reflexivity].
    revert m E. induction l as [|x l IHl]; intros [|y m] E; try discriminate; [reflexivity|]. injection E as E1 E2. cbn.
    rewrite (IH x (or_introl eq_refl) y E1). destruct (write_json show y); cbn; try reflexivity.
    cbn in IHl. rewrite (IHl (fun z Hz => IH z (or_intror Hz)) m E2). reflexivity.
  - set (F := fun kv : list Z * any => let! t := write_json show (snd kv) in Ok (js_string (fst kv) ++ 58 :: t)).
    assert (H : SerializerModel.omap F l = SerializerModel.omap F m); [|rewrite H; reflexivity].
    revert m E. induction l as [|[k x] l IHl]; intros [|[k' y] m] E; try discriminate; [reflexivity|]. injection E as -> E1 E2.
    assert (HF : F (k', x) = F (k', y)) by (unfold F; cbn [fst snd]; rewrite (IH x (or_introl eq_refl) y E1); reflexivity).
    cbn. rewrite HF. destruct (F (k', y)); cbn; try reflexivity.
    cbn in IHl. rewrite (IHl (fun z Hz => IH z (or_intror Hz)) m E2). reflexivity.
Qed.
Print Assumptions C89_value.

(** The text determines the value: for all values without bigints, whatever their strings, if
    the numbers in [Q] are printed differently, without the delimiters of JSON and not like the
    start of another value. *)
Theorem C89_injective_partial : forall show (Q : Z -> Prop), (forall f, Q f -> number_plain show f) -> (forall f g, Q f -> Q g -> show f = show g -> f = g) ->
  forall a b, simple Q (erase a) -> simple Q (erase b) -> (to_json show a = to_json show b <-> erase a = erase b).
Proof.
  intros show Q Hp Hi a b Ha Hb. split; [|apply C89_value]. intros E.
  destruct (simple_ok show Q a Ha) as [ta Ea], (simple_ok show Q b Hb) as [tb Eb].
  destruct (json_code show Q Hp Hi a Ha b ta tb [] [] Hb Ea Eb) as [H _]; [left; reflexivity|left; reflexivity|unfold to_json in E; congruence|exact H].
Qed.
Print Assumptions C89_injective_partial.

(** A value in which nothing is shared is written in a module as in JSON, after the words that
    export it, whatever the order of the hash map. *)
Theorem C89_module : forall show peek, any_order peek -> forall a, coherent a -> (forall i, ~ shared a i) ->
  forall fuel cjs, to_djs show peek fuel a cjs = let! text := to_json show a in Ok (header cjs ++ text).
Proof.
  intros show peek order a coh Hno fuel cjs. unfold to_djs, to_json. destruct (track_root a coh) as (Hnd & Hval & _).
  assert (Htodo : filter (fun jv : Z * (any * bool) => snd (snd jv)) (track a []) = []).
  { destruct (filter _ (track a [])) as [|[i [b f]] l] eqn:E; [reflexivity|]. exfalso.
    assert (Hin : In (i, (b, f)) (filter (fun jv : Z * (any * bool) => snd (snd jv)) (track a []))) by (rewrite E; left; reflexivity).
    apply filter_In in Hin as [Hin Hf]. cbn in Hf. subst f.
    assert (Hfind : find_id (track a []) i = Some (b, true)).
    { clear - Hin Hnd. induction (track a []) as [|[k v] m IH]; [destruct Hin|]. cbn [find_id]. inversion Hnd; subst.
      destruct Hin as [[= -> ->]|Hin]; [rewrite Z.eqb_refl; reflexivity|].
      destruct (Z.eqb_spec i k) as [->|]; [|auto]. exfalso. apply H1. apply (in_map fst) in Hin. exact Hin. }
    destruct (Hval i b true Hfind) as (_ & _ & Hs). exact (Hno i (proj1 Hs eq_refl)). }
  rewrite Htodo. cbn [map].
  assert (Hw : forall s, dj_todo s = [] -> write_consts show peek fuel s = Ok s).
  { intros s Hs. pose proof (proj1 order) as Hp. destruct fuel; cbn; rewrite Hs, Hp; reflexivity. }
  rewrite Hw by reflexivity. cbn [obind dj_refs dj_out]. rewrite with_refs_nil. destruct (write_json show a); reflexivity.
Qed.
Print Assumptions C89_module.

Lemma put_same io p x : fs_put io p x p = x.
Proof. unfold fs_put. destruct (list_eq_dec Z.eq_dec p p); congruence. Qed.

(** Whatever the files, the dialects and the sharing: two inputs with the same value are
    converted to the same JSON text, if the converter returns at all. *)
Theorem C89_convert : forall show peek disk, (forall p text, disk p text = Written) ->
  forall io1 io2 tf1 tf2 depth1 depth2 f1 f2 in1 in2 out1 out2 n1 n2 d1 d2 t prog1 prog2 rest1 rest2,
  denotes io1 tf1 (at_root in1) n1 in1 d1 t -> denotes io2 tf2 (at_root in2) n2 in2 d2 t ->
  (n1 <= depth1)%nat -> (n2 <= depth2)%nat -> written_as out1 Json -> written_as out2 Json ->
  forall io1' io2',
  app_run show peek disk tf1 depth1 f1 (prog1 :: in1 :: out1 :: rest1) io1 = Ok (None, io1') ->
  app_run show peek disk tf2 depth2 f2 (prog2 :: in2 :: out2 :: rest2) io2 = Ok (None, io2') ->
  io1' out1 = io2' out2.
Proof.
  intros show peek disk Hdisk io1 io2 tf1 tf2 depth1 depth2 f1 f2 in1 in2 out1 out2 n1 n2 d1 d2 t prog1 prog2 rest1 rest2 H1 H2 L1 L2 W1 W2 io1' io2' R1 R2.
  destruct (parse_complete io1 tf1 in1 n1 depth1 0 d1 t H1 L1) as (c1 & v1 & P1 & E1).
  destruct (parse_complete io2 tf2 in2 n2 depth2 0 d2 t H2 L2) as (c2 & v2 & P2 & E2).
  unfold app_run in R1, R2. rewrite (written_type _ _ W1) in R1. rewrite (written_type _ _ W2) in R2.
  unfold fresh in P1, P2. rewrite P1 in R1. rewrite P2 in R2. cbn [obind] in R1, R2.
  rewrite (C89_value show v1 v2) in R1 by congruence.
  destruct (to_json show v2) as [s| |]; cbn [obind] in R1, R2; try discriminate.
  unfold write_out in R1, R2. rewrite Hdisk in R1, R2. injection R1 as <-. injection R2 as <-. rewrite !put_same. reflexivity.
Qed.
Print Assumptions C89_convert.

(** Converting the JSON output once more gives the same text again. *)
Theorem C89_again_partial : forall show peek disk, any_order peek -> (forall p text, disk p text = Written) ->
  forall io tf n input d t, denotes io tf (at_root input) n input d t -> printable show t ->
  forall output output2, written_as output Json -> written_as output2 Json -> forall depth, (n <= depth)%nat -> forall cfuel prog rest,
  exists io' text, app_run show peek disk tf depth cfuel (prog :: input :: output :: rest) io = Ok (None, io') /\ io' output = Some text
    /\ exists g0, forall g depth2 cfuel2 prog2 rest2, (g0 <= g)%nat ->
       exists io2, app_run show peek disk g (S depth2) cfuel2 (prog2 :: output :: output2 :: rest2) io' = Ok (None, io2) /\ io2 output2 = Some text.
Proof.
  intros show peek disk order Hdisk io tf n input d t Hd Hp output output2 W1 W2 depth Hn cfuel prog rest.
  destruct (parse_complete io tf input n depth 0 d t Hd Hn) as (c' & v & Hv & <-).
  pose proof (readable_ordered show _ Hp (denotes_ordered _ _ _ _ _ _ _ Hd)) as Hr.
  destruct (C53_round_trip_partial show v Hr) as (text & f0 & E & H).
  exists (fs_put io output (Some text)), text. split; [|split; [apply put_same|]].
  - unfold app_run. rewrite (written_type _ _ W1). unfold fresh in Hv. rewrite Hv. cbn [obind]. rewrite E. cbn [obind]. unfold write_out. rewrite Hdisk. reflexivity.
  - exists f0. intros g depth2 cfuel2 prog2 rest2 Hg.
    destruct (H (fs_put io output (Some text)) g depth2 (fresh output 0) Hg (put_same _ _ _)) as (c2 & b & Hb & Eb).
    exists (fs_put (fs_put io output (Some text)) output2 (Some text)). split; [|apply put_same].
    unfold app_run. rewrite (written_type _ _ W2). unfold fresh in Hb. rewrite Hb. cbn [obind]. rewrite (C89_value show b v Eb), E. cbn [obind].
    unfold write_out. rewrite Hdisk. reflexivity.
Qed.
Print Assumptions C89_again_partial.

(** The same value from a module with sharing and from JSON with other white space and key order. *)
Example C89_case :
  let io := fun p => if str_eqb p (txt "a.mjs") then Some (txt "const x=[2]" ++ [10] ++ txt "export default {""b"":x,""a"":x}")
                     else if str_eqb p (txt "b.json") then Some (txt "{ ""a"" : [2], ""b"" : [ 2 ] }") else None in
  let go input := let! (e, io') := app_run show_two first_key good_disk 100 2 10 [txt "nanvm"; input; txt "o.json"] io in Ok (e, io' (txt "o.json")) in
  go (txt "a.mjs") = Ok (None, Some (txt "{""a"":[2],""b"":[2]}")) /\ go (txt "b.json") = Ok (None, Some (txt "{""a"":[2],""b"":[2]}")).
Proof. vm_compute. auto. Qed.

(** Numbers and strings that the reader would refuse are told apart as well. *)
Example C89_injective_case :
  let show f := if f =? 0 then txt "NaN" else txt "-inf" in let Q f := f = 0 \/ f = 1 in
  (forall f, Q f -> number_plain show f) /\ (forall f g, Q f -> Q g -> show f = show g -> f = g) /\
  let v s := AArray 1 [AString s; ANumber 0; ANumber 1] in
  simple Q (erase (v [0xD83D])) /\ to_json show (v [0xD83D]) = Ok (txt "[""" ++ [92] ++ txt "uD83D"",NaN,-inf]") /\ to_json show (v [92; 117]) = Ok (txt "[""" ++ [92; 92] ++ txt "u"",NaN,-inf]").
Proof.
  cbv zeta. split; [|split; [|split; [|vm_compute; auto]]].
  - intros f [-> | ->]; cbn -[In]; eexists _, _; (split; [reflexivity|]); (split; [repeat constructor; unfold stops; lia|cbn; lia]).
  - intros f g [-> | ->] [-> | ->] H; vm_compute in H; congruence.
  - cbn. apply si_array. repeat constructor; auto; unfold unit16; lia.
Qed.
