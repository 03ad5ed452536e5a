(** Properties C01-C05, C08, C36, C37, C40: parsing. *)
From Verif Require Import Base Spec Lex Alloc Mem MemProofs Api PureParse Dom Effect ParseTop
  Vocab ParseFacts OverRead PrintFacts Start Scene.

(** ** C01 Parse accepts exactly the JSON grammar *)
Theorem C01_parse_accepts_exactly_json : forall (VV : vols) s F v w A src t,
  inv s F -> handle s F v w A -> cstring s src t -> room s A (len_cost (lenN t)) ->
  judges (zj_Parse v src) s t /\ (slack_ok t 0 -> exists r s', zj_Parse v src s = Ok (r, s')).
Proof. exact @parse_judges. Qed.
Print Assumptions C01_parse_accepts_exactly_json.

Theorem C01_parseFast_accepts_exactly_json : forall (VV : vols) s F v w A src t,
  inv s F -> handle s F v w A -> kept s src t -> room s A (72 * (lenN t + 2)) ->
  judges (zj_ParseFast v src) s t /\
  (forall slack, text_at s src = t ++ 0 :: slack -> slack_ok t (length slack) ->
     exists r s', zj_ParseFast v src s = Ok (r, s')).
Proof. exact @parseFast_judges. Qed.
Print Assumptions C01_parseFast_accepts_exactly_json.

Definition text1 : bytes := txt " { ""a"" : [1, -2.5e+3, ""\u00e9\ud834\udd1eé"", true ] ,""a"":null}".
Definition json1 : json := JObj [(txt "a", JArr [JNum (txt "1"); JNum (txt "-2.5e+3"); JStr (txt "\u00e9\ud834\udd1eé"); JBool true]);
                                 (txt "a", JNull)].
Example text1_valid : json_text text1 json1.
Proof. apply valid_by; [apply has0_no|]; vm_compute; reflexivity. Qed.
Example C01_case : exists s F v A src, inv s F /\ empty s F v A /\ kept s src text1 /\
  room s A (len_cost (lenN text1)) /\ room s A (72 * (lenN text1 + 2)) /\ valid text1 /\ slack_ok text1 0.
Proof.
  destruct (text_scene text1) as (s & A & v & p & I & H & C & K & R); [apply has0_no; reflexivity|reflexivity|].
  exists s, nodocs, v, A, p. split; auto. split; auto. split; auto.
  split; [eapply N.le_trans; [|exact R]; apply N.add_le_mono_l; vm_compute; discriminate|].
  split; [eapply N.le_trans; [|exact R]; apply N.add_le_mono_l; vm_compute; discriminate|].
  split; [exists json1; apply text1_valid|]. apply slackb_ok. reflexivity.
Qed.
(** Both outcomes occur. *)
Example C01_run : run (A <- zj_NewAllocator ;; v <- zj_NewValue A ;; x <- parse_lit v text1 ;; y <- parse_lit v (txt "[01]") ;;
  z <- parse_lit v (txt """\ud800""") ;; ret (x, y, z)) = Ok (true, false, false).
Proof. vm_compute. reflexivity. Qed.

(** ** C02 Parse builds the tree the text denotes *)
Theorem C02_parse_builds : forall (VV : vols) s F v w A src t j,
  inv s F -> handle s F v w A -> cstring s src t -> room s A (len_cost (lenN t)) -> json_text t j ->
  exists s' F', zj_Parse v src s = Ok (true, s') /\ assigned s F v w j s' F'.
Proof. exact @parse_builds. Qed.
Print Assumptions C02_parse_builds.
Theorem C02_parseFast_builds : forall (VV : vols) s F v w A src t j,
  inv s F -> handle s F v w A -> kept s src t -> room s A (72 * (lenN t + 2)) -> json_text t j ->
  exists s' F', zj_ParseFast v src s = Ok (true, s') /\ assigned s F v w j s' F'.
Proof. exact @parseFast_builds. Qed.
Print Assumptions C02_parseFast_builds.
(** The hypotheses are those of C01_case with [text1_valid]; the tree read back through the API: *)
Example C02_run : run (A <- zj_NewAllocator ;; v <- zj_NewValue A ;; _ <- parse_lit v text1 ;;
   k <- lit (txt "a") ;; o <- zj_ObjGet 10 v k ;; x <- deref (wopt o) ;; e <- zj_ArrayGet 10 x 1 ;; y <- deref (wopt e) ;;
   n <- zj_GetNumStr y ;; q <- deref (match n with Some w => w | None => Null end) ;; cstr_at (At q)) = Ok (txt "-2.5e+3").
Proof. vm_compute. reflexivity. Qed.

(** ** C03 Parsing terminates and reads only the text and its terminator

    As stated the property is false: the literals are compared with 4-byte loads. *)
Theorem C03_refuted : exists s v src, text_at s src = txt "n" ++ [0] /\ zj_ParseFast v src s = Err EOob.
Proof.
  destruct (scene_prog (txt "n" ++ [0]) init) as [[[[[A v] u] p] s]|e] eqn:E; [|exfalso; vm_compute in E; discriminate].
  exists s, v, p. vm_compute in E. injection E as <- <- <- <- <-. split; vm_compute; reflexivity.
Qed.
Print Assumptions C03_refuted.
(** What holds: it always ends; it reads nothing outside the buffer if 3 bytes
    follow the terminator, or if no 'n', 't', 'f' stands too close to the end; and
    it never over-reads on a valid text. *)
Theorem C03_parseFast_terminates_partial : forall (VV : vols) s F v w A src t slack,
  inv s F -> handle s F v w A -> kept s src t -> room s A (72 * (lenN t + 2)) -> text_at s src = t ++ 0 :: slack ->
  (slack_ok t (length slack) \/ valid t -> exists r s', zj_ParseFast v src s = Ok (r, s')) /\
  (forall e, zj_ParseFast v src s = Err e -> e = EOob) /\
  ((3 <= length slack)%nat -> exists r s', zj_ParseFast v src s = Ok (r, s')).
Proof. exact @parseFast_total. Qed.
Print Assumptions C03_parseFast_terminates_partial.
(** Parse and ParseLen work on a copy in the arena with nothing behind it. *)
Theorem C03_parse_terminates_partial : forall (VV : vols) s F v w A src t,
  inv s F -> handle s F v w A -> cstring s src t -> room s A (len_cost (lenN t)) ->
  (slack_ok t 0 \/ valid t -> exists r s', zj_Parse v src s = Ok (r, s')) /\
  (forall e, zj_Parse v src s = Err e -> e = EOob).
Proof. exact @parse_total. Qed.
Print Assumptions C03_parse_terminates_partial.
(** Exactly when something outside the buffer is read.  [cut_literal t k] (Vocab.v): at
    some place of [t] where a value has to come, 'n' or 't' (or 'f') stands and fewer than
    three (four) readable bytes follow, the terminator and the [k] bytes behind it counted.
    In all other cases the call returns.  The places of a text where a value has to come are
    those where [null] can be put and the text be continued to a JSON text. *)
Theorem C03_parseFast_exactly : forall (VV : vols) s F v w A src t slack,
  inv s F -> handle s F v w A -> kept s src t -> room s A (72 * (lenN t + 2)) -> text_at s src = t ++ 0 :: slack ->
  (zj_ParseFast v src s = Err EOob <-> cut_literal t (length slack)) /\
  (~ cut_literal t (length slack) <-> exists r s', zj_ParseFast v src s = Ok (r, s')).
Proof. exact @parseFast_exact. Qed.
Print Assumptions C03_parseFast_exactly.
Theorem C03_parse_exactly : forall (VV : vols) s F v w A src t,
  inv s F -> handle s F v w A -> cstring s src t -> room s A (len_cost (lenN t)) ->
  (zj_Parse v src s = Err EOob <-> cut_literal t 0) /\
  (~ cut_literal t 0 <-> exists r s', zj_Parse v src s = Ok (r, s')).
Proof. exact @parse_exact. Qed.
Print Assumptions C03_parse_exactly.
Theorem C03_parseLen_exactly : forall (VV : vols) s F v w A src bs,
  inv s F -> handle s F v w A -> holds s src bs -> room s A (len_cost (lenN bs)) ->
  (zj_ParseLen v src (lenN bs) s = Err EOob <-> cut_literal (before0 bs) (length bs - length (before0 bs))) /\
  (~ cut_literal (before0 bs) (length bs - length (before0 bs)) <-> exists r s', zj_ParseLen v src (lenN bs) s = Ok (r, s')).
Proof. exact @parseLen_exact_over. Qed.
Print Assumptions C03_parseLen_exactly.
(** No JSON text is cut, so that only broken texts are affected. *)
Theorem C03_cut_invalid : forall t k, cut_literal t k -> ~ In 0 t -> ~ valid t.
Proof. exact cut_invalid. Qed.
Print Assumptions C03_cut_invalid.
Example C03_cut_case : cut_literal (txt "{""k"":[1, tr") 0 /\ cut_literal (txt "[fal") 0 /\ ~ cut_literal (txt "[fal") 1 /\
  ~ cut_literal (txt "{n") 0 /\ ~ cut_literal (txt """n") 0 /\ ~ cut_literal (txt "1n") 0.
Proof.
  split; [|split; [|split; [|split; [|split]]]].
  - exists (txt "{""k"":[1, "), 116, (txt "r"). split; [reflexivity|]. split; [|left; split; [auto|cbn; lia]].
    exists (txt "]}"). eexists. eapply valid_by; [apply has0_no; reflexivity|vm_compute; reflexivity].
  - exists (txt "["), 102, (txt "al"). split; [reflexivity|]. split; [|right; split; [auto|cbn; lia]].
    exists (txt "]"). eexists. eapply valid_by; [apply has0_no; reflexivity|vm_compute; reflexivity].
  - intro K. apply (ptop_exact (txt "[fal") [0]) in K; [vm_compute in K; discriminate|apply has0_no; reflexivity].
  - intro K. apply (ptop_exact (txt "{n") []) in K; [vm_compute in K; discriminate|apply has0_no; reflexivity].
  - intro K. apply (ptop_exact (txt """n") []) in K; [vm_compute in K; discriminate|apply has0_no; reflexivity].
  - intro K. apply (ptop_exact (txt "1n") []) in K; [vm_compute in K; discriminate|apply has0_no; reflexivity].
Qed.
Example C03_case : exists s F v A src, inv s F /\ empty s F v A /\ kept s src (txt "[12,]") /\ room s A (72 * (lenN (txt "[12,]") + 2)) /\
  slack_ok (txt "[12,]") 0 /\ ~ valid (txt "[12,]").
Proof.
  destruct (text_scene (txt "[12,]")) as (s & A & v & p & I & H & C & K & R); [apply has0_no; reflexivity|reflexivity|].
  exists s, nodocs, v, A, p. split; auto. split; auto. split; auto.
  split; [eapply N.le_trans; [|exact R]; apply N.add_le_mono_l; vm_compute; discriminate|].
  split; [apply slack_none; vm_compute; intuition discriminate|].
  intros [j J]. apply (ptop_complete _ _ []) in J. vm_compute in J. discriminate.
Qed.

(** ** C04 A failed parse leaves the value as it was *)
Theorem C04_parse_fails : forall (VV : vols) s F v w A src t s',
  inv s F -> handle s F v w A -> cstring s src t -> room s A (len_cost (lenN t)) ->
  zj_Parse v src s = Ok (false, s') -> untouched s F s'.
Proof. exact @parse_fails. Qed.
Print Assumptions C04_parse_fails.
Theorem C04_parseFast_fails : forall (VV : vols) s F v w A src t s',
  inv s F -> handle s F v w A -> kept s src t -> room s A (72 * (lenN t + 2)) ->
  zj_ParseFast v src s = Ok (false, s') -> untouched s F s'.
Proof. exact @parseFast_fails. Qed.
Print Assumptions C04_parseFast_fails.
Theorem C04_parseLen_fails : forall (VV : vols) s F v w A src bs s',
  inv s F -> handle s F v w A -> holds s src bs -> room s A (len_cost (lenN bs)) ->
  zj_ParseLen v src (lenN bs) s = Ok (false, s') -> untouched s F s'.
Proof. exact @parseLen_fails. Qed.
Print Assumptions C04_parseLen_fails.
(** C03_case gives a situation in which Parse returns false; on a value with content: *)
Example C04_run : run (A <- zj_NewAllocator ;; v <- zj_NewValue A ;; x <- parse_lit v (txt "{""k"":[1,2]}") ;;
  y <- parse_lit v (txt "{""k"":[1,{""m"":[3,4}") ;; t <- show v ;; ret (x, y, t)) = Ok (true, false, txt "{""k"":[1,2]}").
Proof. vm_compute. reflexivity. Qed.

(** ** C05 Stringify after Parse is minification *)
Theorem C05_stringify_parse_minifies : forall (VV : vols) s F v w A src t,
  inv s F -> handle s F v w A -> cstring s src t -> valid t -> room s A (len_cost (lenN t) + print_cost (lenN t)) ->
  exists s1, zj_Parse v src s = Ok (true, s1) /\
    exists n, forall fuel, (n <= fuel)%nat ->
      exists p s2, zj_Stringify fuel v s1 = Ok (p, s2) /\ string_at s2 p (minify t).
Proof. exact @parse_stringify. Qed.
Print Assumptions C05_stringify_parse_minifies.
Example C05_run : run (A <- zj_NewAllocator ;; v <- zj_NewValue A ;; _ <- parse_lit v text1 ;; show v)
  = Ok (txt "{""a"":[1,-2.5e+3,""\u00e9\ud834\udd1eé"",true],""a"":null}") /\
  minify text1 = txt "{""a"":[1,-2.5e+3,""\u00e9\ud834\udd1eé"",true],""a"":null}".
Proof. split; vm_compute; reflexivity. Qed.

(** ** C08 ParseLen looks at exactly the len bytes it is given

    False as stated: everything after a 0 byte is ignored. *)
Theorem C08_refuted : exists s s' v src bs, holds s src bs /\ ~ valid bs /\ zj_ParseLen v src (lenN bs) s = Ok (true, s').
Proof.
  destruct (scene_prog (txt "[1]" ++ [0; 88]) init) as [[[[[A v] u] p] s]|e] eqn:E; [|exfalso; vm_compute in E; discriminate].
  destruct (zj_ParseLen v p 5 s) as [[b s']|e] eqn:E2; [|exfalso; vm_compute in E; injection E as <- <- <- <- <-; vm_compute in E2; discriminate].
  exists s, s', v, p, (txt "[1]" ++ [0; 88]). split; [|split].
  - vm_compute in E. injection E as <- <- <- <- <-. intros i x Ei. do 5 (destruct i as [|i]; [injection Ei as <-; vm_compute; reflexivity|]).
    cbn in Ei. destruct i; discriminate.
  - intros [j J]. apply json_text_no0 in J. apply J. vm_compute. auto.
  - change (lenN (txt "[1]" ++ [0; 88])) with 5. rewrite E2. vm_compute in E. injection E as <- <- <- <- <-.
    vm_compute in E2. injection E2 as <- _. reflexivity.
Qed.
Print Assumptions C08_refuted.
(** What holds: it judges the bytes before the first 0 (all of them, if there is
    none); nothing is assumed about the caller's memory outside the len bytes. *)
Theorem C08_parseLen_judges_before0_partial : forall (VV : vols) s F v w A src bs,
  inv s F -> handle s F v w A -> holds s src bs -> room s A (len_cost (lenN bs)) ->
  judges (zj_ParseLen v src (lenN bs)) s (before0 bs) /\
  (slack_ok (before0 bs) (length bs - length (before0 bs)) -> exists r s', zj_ParseLen v src (lenN bs) s = Ok (r, s')).
Proof. exact @parseLen_judges. Qed.
Print Assumptions C08_parseLen_judges_before0_partial.
Theorem C08_parseLen_exact_partial : forall (VV : vols) s F v w A src bs,
  inv s F -> handle s F v w A -> holds s src bs -> room s A (len_cost (lenN bs)) -> ~ In 0 bs ->
  judges (zj_ParseLen v src (lenN bs)) s bs /\
  (forall j, json_text bs j -> exists s' F', zj_ParseLen v src (lenN bs) s = Ok (true, s') /\ assigned s F v w j s' F').
Proof. exact @parseLen_exact. Qed.
Print Assumptions C08_parseLen_exact_partial.
(** A buffer that ends with the last byte of the text, no terminator. *)
Example C08_run : run (A <- zj_NewAllocator ;; v <- zj_NewValue A ;; p <- user_buf (txt "[1,2]") ;; x <- zj_ParseLen v p 5 ;;
   y <- zj_ParseLen v p 4 ;; t <- show v ;; ret (x, y, t)) = Ok (true, false, txt "[1,2]").
Proof. vm_compute. reflexivity. Qed.
Example C08_case : exists s F v A src, inv s F /\ empty s F v A /\ holds s src (txt "[1,2]") /\ sbsize s (fst src) = Some 5 /\
  room s A (len_cost 5) /\ ~ In 0 (txt "[1,2]").
Proof.
  destruct (scene (txt "[1,2]")) as (s & A & v & u & p & _ & I & Hv & _ & _ & Ht & Hs & UB & Hu & _ & Hz); [vm_compute; reflexivity|].
  exists s, nodocs, v, A, p. split; auto. split; auto. split; [apply Hs|]. split.
  - exact Hz.
  - split; [unfold room; rewrite Hu; vm_compute; discriminate|apply has0_no; reflexivity].
Qed.

(** ** C36 Parsing into a child replaces it in place *)
Theorem C36_parse_child : forall (VV : vols) s F v a A src t j u b B p ju,
  inv s F -> on s F v a A -> cstring s src t -> room s A (len_cost (lenN t)) -> json_text t j ->
  on s F u b B -> path F b p a -> reads F b ju ->
  exists s' F', zj_Parse v src s = Ok (true, s') /\ inv s' F' /\ content s' F' v j /\ content s' F' u (jset p j ju) /\
    forall x k, key_is s F x k -> key_is s' F' x k.
Proof. exact @parse_child. Qed.
Print Assumptions C36_parse_child.
Example C36_run : run (A <- zj_NewAllocator ;; v <- zj_NewValue A ;; _ <- parse_lit v (txt "[0,{""k"":[7]},2]") ;;
   e <- zj_ArrayGet 10 v 1 ;; x <- deref (wopt e) ;; k <- lit (txt "k") ;; o <- zj_ObjGet 10 x k ;; y <- deref (wopt o) ;;
   _ <- parse_lit y (txt "{""z"": 1}") ;; show v) = Ok (txt "[0,{""k"":{""z"":1}},2]").
Proof. vm_compute. reflexivity. Qed.

(** ** C37 Insignificant whitespace never matters *)
Theorem C37_spacing : forall (VV : vols) s F v w A src t j,
  inv s F -> handle s F v w A -> cstring s src t -> room s A (len_cost (lenN t)) -> json_ok j -> spaced (tokens j) t ->
  exists s' F', zj_Parse v src s = Ok (true, s') /\ assigned s F v w j s' F'.
Proof. exact @parse_spacing. Qed.
Print Assumptions C37_spacing.
(** Every valid text is such a spacing, so this speaks about all of them. *)
Theorem C37_spacing_all : forall t j, json_text t j <-> json_ok j /\ spaced (tokens j) t.
Proof. exact SpecProofs.json_text_spaced. Qed.
Print Assumptions C37_spacing_all.
Example C37_case : json_ok json1 /\ spaced (tokens json1) text1 /\ spaced (tokens json1) (minify text1).
Proof.
  pose proof (proj1 (SpecProofs.json_text_spaced _ _) text1_valid) as [H1 H2]. split; auto. split; auto.
  apply SpecProofs.json_text_spaced. apply valid_by; [apply has0_no|]; vm_compute; reflexivity.
Qed.

(** ** C40 Nesting depth is unlimited *)
Theorem C40_nesting : forall (VV : vols) s F v w A src n,
  inv s F -> handle s F v w A -> cstring s src (repeat 91 n ++ repeat 93 n) ->
  room s A (len_cost (2 * N.of_nat n) + print_cost (2 * N.of_nat n)) -> (0 < n)%nat ->
  exists s1 F1, zj_Parse v src s = Ok (true, s1) /\ content s1 F1 v (nest (n - 1) (JArr [])) /\
    exists k, forall fuel, (k <= fuel)%nat ->
      exists p s2, zj_Stringify fuel v s1 = Ok (p, s2) /\ string_at s2 p (repeat 91 n ++ repeat 93 n).
Proof. exact @nesting_parse. Qed.
Print Assumptions C40_nesting.
Example C40_case : exists s F v A src, inv s F /\ empty s F v A /\ cstring s src (repeat 91 1000 ++ repeat 93 1000) /\
  room s A (len_cost (2 * 1000) + print_cost (2 * 1000)).
Proof.
  destruct (text_scene (repeat 91 1000 ++ repeat 93 1000)) as (s & A & v & p & I & H & C & K & R); [apply has0_no; vm_compute; reflexivity|vm_compute; reflexivity|].
  exists s, nodocs, v, A, p. split; auto. split; auto. split; auto.
  eapply N.le_trans; [|exact R]; apply N.add_le_mono_l; vm_compute; discriminate.
Qed.
