(** Properties C39, C41 and the double getter of C31. *)
From Coq Require Import QArith.
From Verif Require Import Base Spec Lex Alloc Mem MemProofs Api Dom Effect ParseTop Vocab ReadFacts PrintFacts Start Scene Double DoubleProofs DoubleFacts DoubleExact ParseEnds.
Open Scope N_scope.

(** ** C39 SetDouble stores a JSON number

    False as stated: an infinity or a NaN is accepted, and the document is then no
    JSON any more.  *)
Theorem C39_refuted : exists t,
  run (A <- zj_NewAllocator ;; v <- zj_NewValue A ;; _ <- parse_lit v (txt "[1]") ;; x <- zj_ArrayGet 9 v 0 ;; h <- deref (wopt x) ;;
       r <- zj_SetDouble h (DInf true) ;; t <- show v ;; ret (r, t)) = Ok (true, t) /\
  ~ exists j, json_text t j.
Proof.
  exists (txt "[-inf]"). split; [vm_compute; reflexivity|].
  intros (j & Hj). apply (PureParse.ptop_complete _ _ []) in Hj. vm_compute in Hj. discriminate.
Qed.
Print Assumptions C39_refuted.
(** No infinity and no NaN has a text that is a number. *)
Theorem C39_infinite_refuted : forall d, ~ finite d -> ~ number (g17 d).
Proof. exact g17_not_number. Qed.
Print Assumptions C39_infinite_refuted.
(** For every finite double: the call succeeds, and the value is now a JSON number. *)
Theorem C39_setDouble_partial : forall (VV : vols) s F v w A, inv s F -> handle s F v w A ->
  forall d, is_double d -> finite d -> room s A 104 ->
  exists s1 F1 t, zj_SetDouble v d s = Ok (true, s1) /\ assigned s F v w (JNum t) s1 F1 /\ number t.
Proof. exact @setDouble_stores. Qed.
Print Assumptions C39_setDouble_partial.
Theorem C39_setNum_partial : forall (VV : vols) s F v w A, inv s F -> handle s F v w A ->
  forall d, is_double d -> finite d -> room s A 104 ->
  exists s1 F1 t, zj_SetNum v d s = Ok (true, s1) /\ assigned s F v w (JNum t) s1 F1 /\ number t.
Proof. exact @setDouble_stores. Qed.
Print Assumptions C39_setNum_partial.
(** Whatever the double, nothing is written beyond the 32 bytes. *)
Theorem C39_setDouble_safe : forall (VV : vols) s F v w A, inv s F -> handle s F v w A ->
  forall d, is_double d -> room s A 104 ->
  exists s1 F1 t, zj_SetDouble v d s = Ok (true, s1) /\ assigned s F v w (JNum t) s1 F1.
Proof. exact @setDouble_accepts. Qed.
Print Assumptions C39_setDouble_safe.
(** Exactly: the call always succeeds, and the text it stores is a JSON number iff the
    double is finite. *)
Theorem C39_exactly : forall (VV : vols) s F v w A, inv s F -> handle s F v w A ->
  forall d, is_double d -> room s A 104 ->
  exists s1 F1 t, zj_SetDouble v d s = Ok (true, s1) /\ assigned s F v w (JNum t) s1 F1 /\ (number t <-> finite d).
Proof. exact @setDouble_exactly. Qed.
Print Assumptions C39_exactly.
(** The hypotheses: a fresh value; 0.1, the least and the greatest double. *)
Example C39_case : exists s v A, inv s nodocs /\ handle s nodocs v Null A /\ room s A 112 /\
  is_double (DFin false 7205759403792794 (-56)) /\ is_double (DFin true 1 (-1074)) /\ is_double (DFin false 9007199254740991 971).
Proof.
  destruct (scene []) as (s & A & v & u & p & _ & I & Hv & _ & _ & Ht & Hs & _ & Hu & Hc & _); [reflexivity|].
  exists s, v, A. split; auto. split; auto. split; [unfold room; rewrite Hu; vm_compute; discriminate|]. cbn. lia.
Qed.
Example C39_run : run (A <- zj_NewAllocator ;; v <- zj_NewValue A ;;
  _ <- zj_SetDouble v (DFin false 7205759403792794 (-56)) ;; t1 <- show v ;;
  _ <- zj_SetDouble v (DFin true 1 (-1074)) ;; t2 <- show v ;;
  _ <- zj_SetNum v (DFin false 9007199254740991 971) ;; t3 <- show v ;;
  _ <- zj_SetNum v (DFin true 0 (-1074)) ;; t4 <- show v ;;
  _ <- zj_SetNum v (DFin false 6755399441055744 (-42)) ;; t5 <- show v ;; ret [t1; t2; t3; t4; t5]) =
  Ok [txt "0.10000000000000001"; txt "-4.9406564584124654e-324"; txt "1.7976931348623157e+308"; txt "-0"; txt "1536"].
Proof. vm_compute. reflexivity. Qed.

(** ** C41 Doubles round-trip

    GetDouble after SetDouble returns the same double, for every finite double
    (subnormals and both zeros included). *)
Theorem C41_setDouble_getDouble : forall (VV : vols) s F v w A, inv s F -> handle s F v w A ->
  forall d, is_double d -> finite d -> room s A 112 ->
  exists s1 F1 t, zj_SetDouble v d s = Ok (true, s1) /\ assigned s F v w (JNum t) s1 F1 /\ number t /\
    exists s2, zj_GetDouble v s1 = Ok (Some d, s2) /\ untouched s1 F1 s2.
Proof. exact @setDouble_back. Qed.
Print Assumptions C41_setDouble_getDouble.
Theorem C41_setNum_getNum : forall (VV : vols) s F v w A, inv s F -> handle s F v w A ->
  forall d, is_double d -> finite d -> room s A 112 ->
  exists s1 F1 t, zj_SetNum v d s = Ok (true, s1) /\ assigned s F v w (JNum t) s1 F1 /\ number t /\
    exists s2, zj_GetNum v s1 = Ok (Some d, s2) /\ untouched s1 F1 s2.
Proof. exact @setDouble_back. Qed.
Print Assumptions C41_setNum_getNum.
Example C41_run : run (A <- zj_NewAllocator ;; v <- zj_NewValue A ;;
  _ <- zj_SetDouble v (DFin false 7205759403792794 (-56)) ;; d1 <- zj_GetDouble v ;;
  _ <- zj_SetDouble v (DFin true 1 (-1074)) ;; d2 <- zj_GetNum v ;;
  _ <- zj_SetNum v (DFin true 0 (-1074)) ;; d3 <- zj_GetDouble v ;; ret [d1; d2; d3]) =
  Ok [Some (DFin false 7205759403792794 (-56)); Some (DFin true 1 (-1074)); Some (DFin true 0 (-1074))].
Proof. vm_compute. reflexivity. Qed.

(** ** C31 for doubles

    The double getter reads in place like GetLong.  If the byte after the text is
    readable and cannot continue a number, the result is the double nearest to the
    value of the text, of two equally near ones the even one. *)
Theorem C31_getDouble_exact_partial : forall (VV : vols) s F v a A j f, inv s F -> on s F v a A -> reads F a j -> F a = Some f ->
  forall b neg q c, j = JNum b -> dec_value b neg q -> lenN b <= 128 -> room s A 8 -> ends c ->
  (forall p n, zj_GetNumFast v s = Ok (Some (At p, n), s) -> exists r, text_at s p = b ++ c :: r) ->
  exists d s', zj_GetDouble v s = Ok (Some d, s') /\ rounds neg q d /\ untouched s F s'.
Proof. exact @getDouble_exact. Qed.
Print Assumptions C31_getDouble_exact_partial.
(** There is only one such double. *)
Theorem C31_one_double : forall neg q d d', rounds neg q d -> rounds neg q d' -> d = d'.
Proof. exact rounds_unique. Qed.
Print Assumptions C31_one_double.
Theorem C31_every_number_has_a_value : forall b, number b -> exists neg q, dec_value b neg q.
Proof. exact number_value. Qed.
Print Assumptions C31_every_number_has_a_value.
Theorem C31_getDouble_refuted : run (A <- zj_NewAllocator ;; v <- zj_NewValue A ;; _ <- parse_lit v (txt "[1,2,3]") ;;
    x0 <- zj_ArrayGet 9 v 0 ;; h0 <- deref (wopt x0) ;; x1 <- zj_ArrayGet 9 v 1 ;; h1 <- deref (wopt x1) ;;
    x2 <- zj_ArrayGet 9 v 2 ;; h2 <- deref (wopt x2) ;;
    p0 <- lit (txt "12") ;; p1 <- lit (txt "34") ;; p2 <- lit (txt "x") ;;
    _ <- zj_SetNumStr h0 p0 ;; _ <- zj_SetNumStr h1 p1 ;; _ <- zj_SetStr h2 p2 ;;
    t <- show v ;; d <- zj_GetDouble h0 ;; ret (t, d)) =
  Ok (txt "[12,34,""x""]", Some (DFin false 5427189394702336 (-42))) /\
  (magnitude 5427189394702336 (-42) == 1234 # 1)%Q.
Proof. split; vm_compute; reflexivity. Qed.
Print Assumptions C31_getDouble_refuted.
Example C31_double_case : dec_value (txt "-12.5e3") true (12500 # 1).
Proof.
  exists (txt "12"), (txt "5"), (txt "e3"), 3%Z. split; [reflexivity|]. split.
  { right. exists 49, [50]. split; [lia|]. split; [repeat constructor; vm_compute; discriminate|reflexivity]. }
  split; [repeat constructor; vm_compute; discriminate|]. split; [|reflexivity].
  right. exists 101, [], [51]. split; [now left|]. split; [discriminate|]. split; [repeat constructor; vm_compute; discriminate|].
  split; [reflexivity|]. left. split; [now left|reflexivity].
Qed.
Example C31_double_run : run (A <- zj_NewAllocator ;; v <- zj_NewValue A ;; _ <- parse_lit v (txt "[-12.5e3,1e400,0.1]") ;;
    x0 <- zj_ArrayGet 9 v 0 ;; h0 <- deref (wopt x0) ;; x1 <- zj_ArrayGet 9 v 1 ;; h1 <- deref (wopt x1) ;;
    x2 <- zj_ArrayGet 9 v 2 ;; h2 <- deref (wopt x2) ;;
    a <- zj_GetDouble h0 ;; b <- zj_GetDouble h1 ;; c <- zj_GetDouble h2 ;; ret [a; b; c]) =
  Ok [Some (DFin true 6871947673600000 (-39)); Some (DInf false); Some (DFin false 7205759403792794 (-56))].
Proof. vm_compute. reflexivity. Qed.

(** 2^53 + 1 and 2^53 + 3 lie in the middle between two doubles. *)
Example C31_ties : run (A <- zj_NewAllocator ;; v <- zj_NewValue A ;; _ <- parse_lit v (txt "[9007199254740993,9007199254740995]") ;;
    x0 <- zj_ArrayGet 9 v 0 ;; h0 <- deref (wopt x0) ;; x1 <- zj_ArrayGet 9 v 1 ;; h1 <- deref (wopt x1) ;;
    a <- zj_GetDouble h0 ;; b <- zj_GetDouble h1 ;; ret [a; b]) =
  Ok [Some (DFin false 4503599627370496 1); Some (DFin false 4503599627370498 1)].
Proof. vm_compute. reflexivity. Qed.

(** Exactly: [r] being what can be read in memory after the number, GetDouble answers [d]
    if and only if the number has at most 128 bytes, the reader meets a byte that ends
    what it reads, and [d] is the double nearest to the value of the longest number of C
    (decimal or hexadecimal) that memory from the number on begins with. *)
Theorem C31_getDouble_exactly : forall (VV : vols) s F v a A f b, inv s F -> on s F v a A -> reads F a (JNum b) -> F a = Some f -> number b ->
  forall p n r d, room s A 8 -> zj_GetNumFast v s = Ok (Some (At p, n), s) -> text_at s p = b ++ r ->
  ((exists s', zj_GetDouble v s = Ok (Some d, s')) <->
   lenN b <= 128 /\ ~ goes_on (b ++ r) /\ exists u neg q, longest (b ++ r) u neg q /\ rounds neg q d).
Proof. exact @getDouble_exactly. Qed.
Print Assumptions C31_getDouble_exactly.
(** Otherwise the behaviour is undefined: a write beyond the local copy, or a read beyond
    readable memory. *)
Theorem C31_getDouble_otherwise : forall (VV : vols) s F v a A f b, inv s F -> on s F v a A -> reads F a (JNum b) -> F a = Some f -> number b ->
  forall p n r, room s A 8 -> zj_GetNumFast v s = Ok (Some (At p, n), s) -> text_at s p = b ++ r ->
  (128 < lenN b -> zj_GetDouble v s = Err EOverflow) /\ (lenN b <= 128 -> goes_on (b ++ r) -> zj_GetDouble v s = Err EOob).
Proof. exact @getDouble_otherwise. Qed.
Print Assumptions C31_getDouble_otherwise.
(** So the answer is right if nothing longer than the number is a number of C. *)
Theorem C31_getDouble_right : forall (VV : vols) s F v a A f b, inv s F -> on s F v a A -> reads F a (JNum b) -> F a = Some f -> number b ->
  forall p n r neg q, room s A 8 -> zj_GetNumFast v s = Ok (Some (At p, n), s) -> text_at s p = b ++ r ->
  dec_value b neg q -> lenN b <= 128 -> ~ goes_on (b ++ r) ->
  (forall k w neg' q', r = k ++ w -> k <> [] -> ~ c_number (b ++ k) neg' q') ->
  exists d s', zj_GetDouble v s = Ok (Some d, s') /\ rounds neg q d /\ untouched s F s'.
Proof. exact @getDouble_right. Qed.
Print Assumptions C31_getDouble_right.
(** "12" before "e+x": the e is read and given back. *)
Example C31_longest_case : ~ goes_on (txt "12e+x") /\ c_number (txt "12") false (12 # 1) /\ goes_on (txt "12e+") /\
  c_number (txt "0x1.8p+4") false (24 # 1).
Proof.
  assert (Nb : number (txt "12")).
  { exists [], (txt "12"), [], []. split; [now left|]. split; [|split; [now left|split; [now left|reflexivity]]]. right. exists 49, [50]. split; [lia|].
    split; [repeat constructor; vm_compute; discriminate|reflexivity]. }
  split; [|split; [|split]].
  - pose proof (atof_cases (txt "12") (txt "e+x") Nb) as K. change (txt "12" ++ txt "e+x") with (txt "12e+x") in K.
    destruct (atof (txt "12e+x")) as [y|e] eqn:E; [apply K|vm_compute in E; discriminate].
  - exists [], (txt "12"). split; [reflexivity|]. split; [|left; auto]. left. exists (txt "12"), [], 0%Z. split; [|reflexivity].
    exists [], []. split; [reflexivity|]. split; [now left|]. split; [repeat constructor; vm_compute; discriminate|]. split; [constructor|]. split; [discriminate|now left].
  - pose proof (atof_cases (txt "12") (txt "e+") Nb) as K. change (txt "12" ++ txt "e+") with (txt "12e+") in K.
    destruct (atof (txt "12e+")) as [y|e] eqn:E; [vm_compute in E; discriminate|apply K].
  - exists [], (txt "0x1.8p+4"). split; [reflexivity|]. split; [|left; auto]. right. exists 120, (txt "1.8p+4"), (txt "1"), (txt "8"), 4%Z. split; [auto|].
    split; [reflexivity|]. split; [|reflexivity]. exists (txt ".8"), (txt "p+4"). split; [reflexivity|]. split; [now right|].
    split; [repeat constructor; vm_compute; discriminate|]. split; [repeat constructor; vm_compute; discriminate|]. split; [discriminate|].
    right. exists 112, [43], (txt "4"). split; [auto|]. split; [discriminate|]. split; [repeat constructor; vm_compute; discriminate|]. split; [reflexivity|]. left. auto.
Qed.
(** "0" before "x1F": hexadecimal. *)
Example C31_hex_run : run (A <- zj_NewAllocator ;; v <- zj_NewValue A ;; _ <- parse_lit v (txt "[1,2,3]") ;;
    x0 <- zj_ArrayGet 9 v 0 ;; h0 <- deref (wopt x0) ;; x1 <- zj_ArrayGet 9 v 1 ;; h1 <- deref (wopt x1) ;;
    x2 <- zj_ArrayGet 9 v 2 ;; h2 <- deref (wopt x2) ;;
    p0 <- lit (txt "0") ;; p1 <- lit (txt "x1F") ;; p2 <- lit (txt "q") ;;
    _ <- zj_SetNumStr h0 p0 ;; _ <- zj_SetStr h1 p1 ;; _ <- zj_SetStr h2 p2 ;;
    t <- show v ;; d <- zj_GetDouble h0 ;; l <- zj_GetLong h0 ;; ret (t, d, l)) =
  Ok (txt "[0,""x1F"",""q""]", Some (DFin false 8725724278030336 (-48)), Some 0%Z) /\
  (magnitude 8725724278030336 (-48) == 31 # 1)%Q.
Proof. split; vm_compute; reflexivity. Qed.

(** ** C31 for parsed documents

    After a successful parse nothing has to be assumed about the byte after a
    number: [reach p v] goes to position [p] of the document with zj_Begin and
    zj_Next, and the getters called on what it finds there are exact, whatever
    the text, the position and the state. *)
Theorem C31_parsed_getLong : forall (VV : vols) s F v w A, inv s F -> handle s F v w A ->
  forall src t j p b z, cstring s src t -> json_text t j -> jget p j = Some (JNum b) ->
  int_value b z -> (long_min <= z <= long_max)%Z -> lenN b <= 128 -> room s A (len_cost (lenN t) + reach_cost p + 8) ->
  (exists s', (_ <- zj_Parse v src ;; h <- reach p v ;; zj_GetLong h) s = Ok (Some z, s')) /\
  (exists s', (_ <- zj_Parse v src ;; h <- reach p v ;; zj_GetLongLong h) s = Ok (Some z, s')).
Proof. exact @parsed_long. Qed.
Print Assumptions C31_parsed_getLong.
Theorem C31_parsed_getDouble : forall (VV : vols) s F v w A, inv s F -> handle s F v w A ->
  forall src t j p b neg q, cstring s src t -> json_text t j -> jget p j = Some (JNum b) ->
  dec_value b neg q -> lenN b <= 128 -> room s A (len_cost (lenN t) + reach_cost p + 8) ->
  exists d s', (_ <- zj_Parse v src ;; h <- reach p v ;; zj_GetDouble h) s = Ok (Some d, s') /\ rounds neg q d.
Proof. exact @parsed_double. Qed.
Print Assumptions C31_parsed_getDouble.
Theorem C31_parsedLen_getLong : forall (VV : vols) s F v w A, inv s F -> handle s F v w A ->
  forall src t j p b z, holds s src t -> json_text t j -> jget p j = Some (JNum b) ->
  int_value b z -> (long_min <= z <= long_max)%Z -> lenN b <= 128 -> room s A (len_cost (lenN t) + reach_cost p + 8) ->
  (exists s', (_ <- zj_ParseLen v src (lenN t) ;; h <- reach p v ;; zj_GetLong h) s = Ok (Some z, s')) /\
  (exists s', (_ <- zj_ParseLen v src (lenN t) ;; h <- reach p v ;; zj_GetLongLong h) s = Ok (Some z, s')).
Proof. exact @len_long. Qed.
Print Assumptions C31_parsedLen_getLong.
Theorem C31_parsedLen_getDouble : forall (VV : vols) s F v w A, inv s F -> handle s F v w A ->
  forall src t j p b neg q, holds s src t -> json_text t j -> jget p j = Some (JNum b) ->
  dec_value b neg q -> lenN b <= 128 -> room s A (len_cost (lenN t) + reach_cost p + 8) ->
  exists d s', (_ <- zj_ParseLen v src (lenN t) ;; h <- reach p v ;; zj_GetDouble h) s = Ok (Some d, s') /\ rounds neg q d.
Proof. exact @len_double. Qed.
Print Assumptions C31_parsedLen_getDouble.
(** The same for ParseFast, which does not copy the text, if text and terminator
    stay as they are. *)
Theorem C31_parsedFast_getLong : forall (VV : vols) s F v w A, inv s F -> handle s F v w A ->
  forall src t sl j p b z, text_at s src = t ++ 0 :: sl -> safetext s src (t ++ [0]) -> json_text t j -> jget p j = Some (JNum b) ->
  int_value b z -> (long_min <= z <= long_max)%Z -> lenN b <= 128 -> room s A (72 * (lenN t + 2) + reach_cost p + 8) ->
  (exists s', (_ <- zj_ParseFast v src ;; h <- reach p v ;; zj_GetLong h) s = Ok (Some z, s')) /\
  (exists s', (_ <- zj_ParseFast v src ;; h <- reach p v ;; zj_GetLongLong h) s = Ok (Some z, s')).
Proof. exact @fast_long. Qed.
Print Assumptions C31_parsedFast_getLong.
Theorem C31_parsedFast_getDouble : forall (VV : vols) s F v w A, inv s F -> handle s F v w A ->
  forall src t sl j p b neg q, text_at s src = t ++ 0 :: sl -> safetext s src (t ++ [0]) -> json_text t j -> jget p j = Some (JNum b) ->
  dec_value b neg q -> lenN b <= 128 -> room s A (72 * (lenN t + 2) + reach_cost p + 8) ->
  exists d s', (_ <- zj_ParseFast v src ;; h <- reach p v ;; zj_GetDouble h) s = Ok (Some d, s') /\ rounds neg q d.
Proof. exact @fast_double. Qed.
Print Assumptions C31_parsedFast_getDouble.
Definition deep : bytes := txt "{""a"":[1,{""b"": -12.5e3 }],""c"":7}".
Definition deep_json : json := JObj [(txt "a", JArr [JNum (txt "1"); JObj [(txt "b", JNum (txt "-12.5e3"))]]); (txt "c", JNum (txt "7"))].
Example C31_parsed_case : exists s F v A src, inv s F /\ empty s F v A /\ cstring s src deep /\ json_text deep deep_json /\
  jget [0; 1; 0]%nat deep_json = Some (JNum (txt "-12.5e3")) /\ room s A (len_cost (lenN deep) + reach_cost [0; 1; 0]%nat + 8).
Proof.
  destruct (text_scene deep) as (s & A & v & p & I & H & C & K & R); [apply has0_no; reflexivity|reflexivity|].
  exists s, nodocs, v, A, p. split; auto. split; auto. split; auto.
  split; [apply valid_by; [apply has0_no|]; vm_compute; reflexivity|]. split; [reflexivity|].
  eapply N.le_trans; [|exact R]. apply N.add_le_mono_l. vm_compute. discriminate.
Qed.
Example C31_parsed_run : run (A <- zj_NewAllocator ;; v <- zj_NewValue A ;; _ <- parse_lit v deep ;;
    h <- reach [0; 1; 0]%nat v ;; l <- zj_GetLong h ;; d <- zj_GetDouble h ;; g <- reach [1]%nat v ;; k <- zj_GetLongLong g ;; ret (l, d, k)) =
  Ok (Some (-12)%Z, Some (DFin true 6871947673600000 (-39)), Some 7%Z).
Proof. vm_compute. reflexivity. Qed.
