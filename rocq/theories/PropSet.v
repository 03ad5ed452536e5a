(** Properties C10-C14, C26, C30, C33: the setters. *)
From Verif Require Import Base Spec Lex LexProofs Alloc Mem MemProofs Api PureParse SpecProofs Dom Effect ParseTop StringifyProofs CacheProofs
  Update KeyProofs StrBuf AllocProofs Vocab ParseFacts PrintFacts ReadFacts SetFacts SetOnly EscProofs Start Scene.

(** ** C10 String setters accept exactly the valid string bodies

    Refuted: an escape from the range E000 to FFFF is valid JSON (Parse accepts
    it), and the string setters refuse it (a typing error in a bound). *)
Definition body_e000 : bytes := txt "a\ue000".
Theorem C10_refuted : exists b, strbody b /\ json_text (34 :: b ++ [34]) (JStr b) /\
  run (A <- zj_NewAllocator ;; v <- zj_NewValue A ;; u <- zj_NewValue A ;; r1 <- parse_lit v (34 :: b ++ [34]) ;;
       p <- lit b ;; r2 <- zj_SetStr u p ;; r3 <- zj_SetStrFast u p ;; r4 <- zj_SetKey u p ;; r5 <- zj_SetKeyFast u p ;;
       ret [r1; r2; r3; r4; r5]) = Ok [true; false; false; false; false].
Proof.
  exists body_e000. assert (V : json_text (34 :: body_e000 ++ [34]) (JStr body_e000)).
  { apply valid_by; [apply has0_no|]; vm_compute; reflexivity. }
  split; [|split; [exact V|vm_compute; reflexivity]].
  apply json_text_ok in V. now inversion V.
Qed.
Print Assumptions C10_refuted.
(** What holds: exactly the bodies without such an escape are accepted (and they
    are valid), and then the content is the text; else nothing changes. *)
Theorem C10_accepted_are_valid_partial : forall b, strbody_set b -> strbody b.
Proof. exact strbody_set_strbody. Qed.
Print Assumptions C10_accepted_are_valid_partial.
Theorem C10_plain_are_accepted_partial : forall b o, decodes b o -> ~ high_u_escape b -> strbody_set b.
Proof. exact strbody_set_complete. Qed.
Print Assumptions C10_plain_are_accepted_partial.
(** Exactly: the valid bodies in which no escape from E000 to FFFF occurs after a valid
    beginning. *)
Theorem C10_exactly : forall b, strbody_set b <-> strbody b /\ ~ exists x y c1 c2 c3 c4 v,
  b = x ++ 92 :: 117 :: c1 :: c2 :: c3 :: c4 :: y /\ strbody x /\ hex4 c1 c2 c3 c4 v /\ 57344 <= v.
Proof. exact strbody_set_exactly. Qed.
Print Assumptions C10_exactly.
(** Here the two readings differ: a backslash escaped, then plain letters. *)
Example C10_exact_case : strbody_set (txt "a\\ue000") /\ ~ strbody_set body_e000.
Proof.
  split.
  - apply ss_plain; [discriminate..|]. eapply ss_short; [reflexivity|]. do 5 (apply ss_plain; [discriminate..|]). apply ss_nil.
  - intro S. apply strbody_set_exactly in S as [_ S]. apply S. exists (txt "a"), [], 101, 48, 48, 48, 57344.
    split; [reflexivity|]. split; [apply strbody_plain; [discriminate..|apply strbody_nil]|]. split; [|discriminate].
    eexists 14, 0, 0, 0. repeat split.
Qed.
Theorem C10_setStr_partial : forall (VV : vols) s F v w A, inv s F -> handle s F v w A ->
  forall src b, given s src b -> room s A (lenN b + 72) ->
  exists r s', zj_SetStr v src s = Ok (r, s') /\ sets_iff s F v w (strbody_set b) (JStr b) r s'.
Proof. exact @setStr_exact. Qed.
Print Assumptions C10_setStr_partial.
Theorem C10_setStrFast_partial : forall (VV : vols) s F v w A, inv s F -> handle s F v w A ->
  forall src b, kept s src b -> room s A 72 ->
  exists r s', zj_SetStrFast v src s = Ok (r, s') /\ sets_iff s F v w (strbody_set b) (JStr b) r s'.
Proof. exact @setStrFast_exact. Qed.
Print Assumptions C10_setStrFast_partial.
Theorem C10_setKey_partial : forall (VV : vols) s F v w A, inv s F -> handle s F v w A -> father_known F w ->
  forall src b, given s src b -> room s A (72 + lenN b) ->
  exists r s', zj_SetKey v src s = Ok (r, s') /\ keys_iff s F v w (strbody_set b /\ key_open F w) b r s'.
Proof. exact @setKey_exact. Qed.
Print Assumptions C10_setKey_partial.
Theorem C10_setKeyFast_partial : forall (VV : vols) s F v w A, inv s F -> handle s F v w A -> father_known F w ->
  forall src b, kept s src b -> room s A 72 ->
  exists r s', zj_SetKeyFast v src s = Ok (r, s') /\ keys_iff s F v w (strbody_set b /\ key_open F w) b r s'.
Proof. exact @setKeyFast_exact. Qed.
Print Assumptions C10_setKeyFast_partial.
(** A document with an object in an array, a second document, and a text of the caller's. *)
Definition text3 : bytes := txt "[{""k"":[1]},2]".
Definition json3 : json := JArr [JObj [(txt "k", JArr [JNum (txt "1")])]; JNum (txt "2")].
Example text3_valid : json_text text3 json3.
Proof. apply valid_by; [apply has0_no|]; vm_compute; reflexivity. Qed.
Example C10_case : forall b, lenN b < 90000 -> ~ In 0 b ->
  exists s F v a A p f, inv s F /\ handle s F v (At a) A /\ reads F a json3 /\ father_known F (At a) /\ key_open F (At a) /\
    given s p b /\ kept s p b /\ room s A 900000000 /\ F a = Some f /\ fkey f = None.
Proof.
  intros b Hb N0.
  destruct (docs text3 json3 text3 json3 (b ++ [0])) as (s & F & A & v & a & fa & u & d & fb & p & I & Hv & R1 & Hu & R2 & _ & _ & Fa & Ka & Pa & _ & _ & _ & _ & T & Sf & Rm);
    try (apply has0_no; reflexivity); try apply text3_valid; try reflexivity.
  { rewrite lenN_app. unfold lenN at 2. cbn. lia. }
  apply safetext_app in Sf as [Sf _].
  assert (C : cstring s p b) by (split; auto; exists []; exact T).
  exists s, F, v, a, A, p, fa. split; auto. split; auto. split; auto. split.
  { intros a0 f0 q E Fa0 Pq. injection E as <-. congruence. }
  split; [exists fa; split; auto; now rewrite Pa|]. split; [split; auto; now apply safetext_src|].
  split; [split; auto|]. auto.
Qed.
Example C10_run : run (A <- zj_NewAllocator ;; v <- zj_NewValue A ;; _ <- parse_lit v text3 ;;
  x0 <- zj_ArrayGet 9 v 0 ;; h0 <- deref (wopt x0) ;; p <- lit (txt "a\n\ud834\udd1e") ;; r <- zj_SetStr h0 p ;; t <- show v ;;
  q <- lit (txt "a""") ;; r' <- zj_SetStr h0 q ;; t' <- show v ;; ret (r, t, r', t')) =
  Ok (true, txt "[""a\n\ud834\udd1e"",2]", false, txt "[""a\n\ud834\udd1e"",2]").
Proof. vm_compute. reflexivity. Qed.

(** ** C11 Number setters accept exactly the JSON numbers *)
Theorem C11_setNumStr : forall (VV : vols) s F v w A, inv s F -> handle s F v w A ->
  forall src b, given s src b -> room s A (lenN b + 72) ->
  exists r s', zj_SetNumStr v src s = Ok (r, s') /\ sets_iff s F v w (number b) (JNum b) r s'.
Proof. exact @setNumStr_exact. Qed.
Print Assumptions C11_setNumStr.
Theorem C11_setNumStrFast : forall (VV : vols) s F v w A, inv s F -> handle s F v w A ->
  forall src b, kept s src b -> room s A 72 ->
  exists r s', zj_SetNumStrFast v src s = Ok (r, s') /\ sets_iff s F v w (number b) (JNum b) r s'.
Proof. exact @setNumStrFast_exact. Qed.
Print Assumptions C11_setNumStrFast.
Theorem C11_setNumStr_getNumStr : forall (VV : vols) s F v w A, inv s F -> handle s F v w A ->
  forall src b, given s src b -> number b -> room s A (lenN b + 72 + (lenN b + 1)) ->
  exists s1 r s2, zj_SetNumStr v src s = Ok (true, s1) /\ zj_GetNumStr v s1 = Ok (r, s2) /\ text_out s2 (Some b) r.
Proof. exact @setNumStr_back. Qed.
Print Assumptions C11_setNumStr_getNumStr.
Example C11_run : run (A <- zj_NewAllocator ;; v <- zj_NewValue A ;; p <- lit (txt "-0.5e+7") ;; r <- zj_SetNumStr v p ;;
  w <- zj_GetNumStr v ;; t <- (match w with Some (At a) => cstr_at (At a) | _ => ret [] end) ;;
  q <- lit (txt "01") ;; r' <- zj_SetNumStr v q ;; q2 <- lit (txt "-1 ") ;; r2 <- zj_SetNumStrFast v q2 ;; t' <- show v ;; ret (r, t, r', r2, t')) =
  Ok (true, txt "-0.5e+7", false, false, txt "-0.5e+7").
Proof. vm_compute. reflexivity. Qed.

(** ** C12 The Len setters judge exactly len bytes

    For numbers the claim holds; for strings it is refuted by the same escapes as
    C10.  The hypotheses on the string cache say only that it was not in an
    allocator that has been released (see C29) and that its allocator has room;
    what it contains from earlier calls does not matter. *)
Theorem C12_refuted : exists b, strbody b /\
  run (A <- zj_NewAllocator ;; v <- zj_NewValue A ;; p <- lit b ;; r <- zj_SetStrLen v p (lenN b) ;;
       r2 <- zj_SetKeyLen v p (lenN b) ;; ret (r, r2)) = Ok (false, false).
Proof.
  exists body_e000. split; [|vm_compute; reflexivity].
  assert (V : json_text (34 :: body_e000 ++ [34]) (JStr body_e000)).
  { apply valid_by; [apply has0_no|]; vm_compute; reflexivity. }
  apply json_text_ok in V. now inversion V.
Qed.
Print Assumptions C12_refuted.
Theorem C12_setNumStrLen : forall (VV : vols) s F v w A, inv s F -> handle s F v w A ->
  forall src b, srctext s src b -> cache_live s -> cache_room s A (check_cost (lenN b) + lenN b + 72) ->
  exists r s', zj_SetNumStrLen v src (lenN b) s = Ok (r, s') /\ sets_iff s F v w (number b) (JNum b) r s'.
Proof. exact @setNumStrLen_exact. Qed.
Print Assumptions C12_setNumStrLen.
Theorem C12_setNumStrLenFast : forall (VV : vols) s F v w A, inv s F -> handle s F v w A ->
  forall src b, safetext s src b -> cache_live s -> cache_room s A (check_cost (lenN b) + 72) ->
  exists r s', zj_SetNumStrLenFast v src (lenN b) s = Ok (r, s') /\ sets_iff s F v w (number b) (JNum b) r s'.
Proof. exact @setNumStrLenFast_exact. Qed.
Print Assumptions C12_setNumStrLenFast.
Theorem C12_setStrLen_partial : forall (VV : vols) s F v w A, inv s F -> handle s F v w A ->
  forall src b, srctext s src b -> cache_live s -> cache_room s A (check_cost (lenN b) + lenN b + 72) ->
  exists r s', zj_SetStrLen v src (lenN b) s = Ok (r, s') /\ sets_iff s F v w (strbody_set b) (JStr b) r s'.
Proof. exact @setStrLen_exact. Qed.
Print Assumptions C12_setStrLen_partial.
Theorem C12_setStrLenFast_partial : forall (VV : vols) s F v w A, inv s F -> handle s F v w A ->
  forall src b, safetext s src b -> cache_live s -> cache_room s A (check_cost (lenN b) + 72) ->
  exists r s', zj_SetStrLenFast v src (lenN b) s = Ok (r, s') /\ sets_iff s F v w (strbody_set b) (JStr b) r s'.
Proof. exact @setStrLenFast_exact. Qed.
Print Assumptions C12_setStrLenFast_partial.
Theorem C12_setKeyLen_partial : forall (VV : vols) s F v w A, inv s F -> handle s F v w A -> father_known F w ->
  forall src b, srctext s src b -> cache_live s -> cache_room s A (check_cost (lenN b) + (72 + lenN b)) ->
  exists r s', zj_SetKeyLen v src (lenN b) s = Ok (r, s') /\ keys_iff s F v w (strbody_set b /\ key_open F w) b r s'.
Proof. exact @setKeyLen_exact. Qed.
Print Assumptions C12_setKeyLen_partial.
Theorem C12_setKeyLenFast_partial : forall (VV : vols) s F v w A, inv s F -> handle s F v w A -> father_known F w ->
  forall src b, safetext s src b -> cache_live s -> cache_room s A (check_cost (lenN b) + 72) ->
  exists r s', zj_SetKeyLenFast v src (lenN b) s = Ok (r, s') /\ keys_iff s F v w (strbody_set b /\ key_open F w) b r s'.
Proof. exact @setKeyLenFast_exact. Qed.
Print Assumptions C12_setKeyLenFast_partial.
(** The hypotheses, first without a cache, then with the one an earlier call made:
    the second run shows a long text, then short ones with and without a 0 byte. *)
Example C12_case : forall b, lenN b < 90000 -> exists s v A p,
  inv s nodocs /\ handle s nodocs v Null A /\ safetext s p b /\ cache_live s /\ cache_room s A (check_cost (lenN b) + lenN b + 72).
Proof.
  intros b Hb. destruct (scene b) as (s & A & v & u & p & _ & I & Hv & _ & _ & Ht & Hs & _ & Hu & Hc & _); [change two32 with 4294967296; lia|].
  exists s, v, A, p. split; auto. split; auto. split; auto. unfold cache_live, cache_room, cache_home. rewrite Hc.
  split; auto. unfold room. rewrite Hu. unfold check_cost. change two30 with 1073741824. lia.
Qed.
Example C12_run : run (A <- zj_NewAllocator ;; v <- zj_NewValue A ;;
  p <- user_buf (repeat 97 200) ;; r1 <- zj_SetStrLen v p 200 ;; q <- user_buf (txt "12" ++ [0] ++ txt "3") ;;
  r2 <- zj_SetNumStrLen v q 4 ;; r3 <- zj_SetNumStrLen v q 3 ;; r4 <- zj_SetStrLen v q 3 ;; r5 <- zj_SetNumStrLen v q 2 ;;
  t <- show v ;; ret ([r1; r2; r3; r4; r5], t)) = Ok ([true; false; false; false; true], txt "12").
Proof. vm_compute. reflexivity. Qed.

(** ** C13 Escape and unescape are inverse *)
Theorem C13_setStrEscape_back : forall (VV : vols) s F v w A, inv s F -> handle s F v w A ->
  forall src b, cstring s src b -> esc_room s A b -> decodes_back s (zj_SetStrEscape v src) (zj_GetUnEscapeStr v) b.
Proof. exact @setStrEscape_back. Qed.
Print Assumptions C13_setStrEscape_back.
Theorem C13_setStrLenEscape_back : forall (VV : vols) s F v w A, inv s F -> handle s F v w A ->
  forall src b, holds s src b -> esc_room s A b -> decodes_back s (zj_SetStrLenEscape v src (lenN b)) (zj_GetUnEscapeStr v) b.
Proof. exact @setStrLenEscape_back. Qed.
Print Assumptions C13_setStrLenEscape_back.
Theorem C13_setKeyEscape_back : forall (VV : vols) s F v w A, inv s F -> handle s F v w A -> father_known F w -> key_open F w ->
  forall src b, cstring s src b -> esc_room s A b -> decodes_back s (zj_SetKeyEscape v src) (zj_GetUnEscapeKey v) b.
Proof. exact @setKeyEscape_back. Qed.
Print Assumptions C13_setKeyEscape_back.
Theorem C13_setKeyLenEscape_back : forall (VV : vols) s F v w A, inv s F -> handle s F v w A -> father_known F w -> key_open F w ->
  forall src b, holds s src b -> esc_room s A b -> decodes_back s (zj_SetKeyLenEscape v src (lenN b)) (zj_GetUnEscapeKey v) b.
Proof. exact @setKeyLenEscape_back. Qed.
Print Assumptions C13_setKeyLenEscape_back.
Example C13_run : run (A <- zj_NewAllocator ;; v <- zj_NewValue A ;; p <- user_buf [34; 10; 0; 31; 92; 200] ;;
  _ <- zj_SetStrLenEscape v p 6 ;; t <- show v ;; w <- zj_GetUnEscapeStr v ;; a <- deref (match w with Some x => x | None => Null end) ;;
  d <- load a 7 ;; ret (t, d)) = Ok (txt """\""\n\u0000\u001f\\" ++ [200; 34], [34; 10; 0; 31; 92; 200; 0]).
Proof. vm_compute. reflexivity. Qed.

(** ** C14 Escaping setters never refuse a text and store valid JSON *)
Theorem C14_setStrEscape : forall (VV : vols) s F v w A, inv s F -> handle s F v w A ->
  forall src b, cstring s src b -> room s A (esc_cost b + 72) ->
  exists s' F', zj_SetStrEscape v src s = Ok (true, s') /\ assigned s F v w (JStr (escape_text b)) s' F'.
Proof. exact @setStrEscape_exact. Qed.
Print Assumptions C14_setStrEscape.
Theorem C14_setStrLenEscape : forall (VV : vols) s F v w A, inv s F -> handle s F v w A ->
  forall src b, holds s src b -> room s A (esc_cost b + 72) ->
  exists s' F', zj_SetStrLenEscape v src (lenN b) s = Ok (true, s') /\ assigned s F v w (JStr (escape_text b)) s' F'.
Proof. exact @setStrLenEscape_exact. Qed.
Print Assumptions C14_setStrLenEscape.
Theorem C14_setKeyEscape : forall (VV : vols) s F v w A, inv s F -> handle s F v w A -> father_known F w ->
  forall src b, cstring s src b -> room s A (esc_cost b + 72) ->
  exists r s', zj_SetKeyEscape v src s = Ok (r, s') /\ keys_iff s F v w (key_open F w) (escape_text b) r s'.
Proof. exact @setKeyEscape_exact. Qed.
Print Assumptions C14_setKeyEscape.
Theorem C14_setKeyLenEscape : forall (VV : vols) s F v w A, inv s F -> handle s F v w A -> father_known F w ->
  forall src b, holds s src b -> room s A (esc_cost b + 72) ->
  exists r s', zj_SetKeyLenEscape v src (lenN b) s = Ok (r, s') /\ keys_iff s F v w (key_open F w) (escape_text b) r s'.
Proof. exact @setKeyLenEscape_exact. Qed.
Print Assumptions C14_setKeyLenEscape.
(** What they store is a valid string body, the one that denotes [b], and at most
    six times as long. *)
Theorem C14_escaped_valid : forall b, strbody (escape_text b) /\ decodes (escape_text b) b /\ lenN (escape_text b) <= 6 * lenN b.
Proof. intro b. split; [exists b; apply escape_decodes|]. split; [apply escape_decodes|apply escape_text_len]. Qed.
Print Assumptions C14_escaped_valid.

(** ** C26 A setter changes only its target *)
Theorem C26_setNull : forall (VV : vols) s F v w A, inv s F -> handle s F v w A -> room s A 72 ->
  exists s' F', zj_SetNull v s = Ok (tt, s') /\ assigned s F v w JNull s' F'.
Proof. exact @setNull_exact. Qed.
Print Assumptions C26_setNull.
Theorem C26_setBool : forall (VV : vols) s F v w A, inv s F -> handle s F v w A -> forall b, room s A 72 ->
  exists s' F', zj_SetBool v b s = Ok (tt, s') /\ assigned s F v w (JBool b) s' F'.
Proof. exact @setBool_exact. Qed.
Print Assumptions C26_setBool.
Theorem C26_setArray : forall (VV : vols) s F v w A, inv s F -> handle s F v w A -> room s A 72 ->
  exists s' F', zj_SetArray v s = Ok (tt, s') /\ assigned s F v w (JArr []) s' F'.
Proof. exact @setArray_exact. Qed.
Print Assumptions C26_setArray.
Theorem C26_setObj : forall (VV : vols) s F v w A, inv s F -> handle s F v w A -> room s A 72 ->
  exists s' F', zj_SetObj v s = Ok (tt, s') /\ assigned s F v w (JObj []) s' F'.
Proof. exact @setObj_exact. Qed.
Print Assumptions C26_setObj.
(** The text and integer setters.  Which texts are accepted and what the integers print
    as is in C10-C12 and C30; the escaping setters are in C14, SetDouble in C39. *)
Theorem C26_setStr : forall (VV : vols) s F v w A, inv s F -> handle s F v w A ->
  forall src b, given s src b -> room s A (lenN b + 72) ->
  exists r s', zj_SetStr v src s = Ok (r, s') /\ only_target s F v w (JStr b) r s'.
Proof. exact @setStr_only. Qed.
Print Assumptions C26_setStr.
Theorem C26_setStrFast : forall (VV : vols) s F v w A, inv s F -> handle s F v w A ->
  forall src b, kept s src b -> room s A 72 ->
  exists r s', zj_SetStrFast v src s = Ok (r, s') /\ only_target s F v w (JStr b) r s'.
Proof. exact @setStrFast_only. Qed.
Print Assumptions C26_setStrFast.
Theorem C26_setNumStr : forall (VV : vols) s F v w A, inv s F -> handle s F v w A ->
  forall src b, given s src b -> room s A (lenN b + 72) ->
  exists r s', zj_SetNumStr v src s = Ok (r, s') /\ only_target s F v w (JNum b) r s'.
Proof. exact @setNumStr_only. Qed.
Print Assumptions C26_setNumStr.
Theorem C26_setNumStrFast : forall (VV : vols) s F v w A, inv s F -> handle s F v w A ->
  forall src b, kept s src b -> room s A 72 ->
  exists r s', zj_SetNumStrFast v src s = Ok (r, s') /\ only_target s F v w (JNum b) r s'.
Proof. exact @setNumStrFast_only. Qed.
Print Assumptions C26_setNumStrFast.
Theorem C26_setStrLen : forall (VV : vols) s F v w A, inv s F -> handle s F v w A ->
  forall src b, srctext s src b -> cache_live s -> cache_room s A (check_cost (lenN b) + lenN b + 72) ->
  exists r s', zj_SetStrLen v src (lenN b) s = Ok (r, s') /\ only_target s F v w (JStr b) r s'.
Proof. exact @setStrLen_only. Qed.
Print Assumptions C26_setStrLen.
Theorem C26_setStrLenFast : forall (VV : vols) s F v w A, inv s F -> handle s F v w A ->
  forall src b, safetext s src b -> cache_live s -> cache_room s A (check_cost (lenN b) + 72) ->
  exists r s', zj_SetStrLenFast v src (lenN b) s = Ok (r, s') /\ only_target s F v w (JStr b) r s'.
Proof. exact @setStrLenFast_only. Qed.
Print Assumptions C26_setStrLenFast.
Theorem C26_setNumStrLen : forall (VV : vols) s F v w A, inv s F -> handle s F v w A ->
  forall src b, srctext s src b -> cache_live s -> cache_room s A (check_cost (lenN b) + lenN b + 72) ->
  exists r s', zj_SetNumStrLen v src (lenN b) s = Ok (r, s') /\ only_target s F v w (JNum b) r s'.
Proof. exact @setNumStrLen_only. Qed.
Print Assumptions C26_setNumStrLen.
Theorem C26_setNumStrLenFast : forall (VV : vols) s F v w A, inv s F -> handle s F v w A ->
  forall src b, safetext s src b -> cache_live s -> cache_room s A (check_cost (lenN b) + 72) ->
  exists r s', zj_SetNumStrLenFast v src (lenN b) s = Ok (r, s') /\ only_target s F v w (JNum b) r s'.
Proof. exact @setNumStrLenFast_only. Qed.
Print Assumptions C26_setNumStrLenFast.
Theorem C26_setInt : forall (VV : vols) s F v w A, inv s F -> handle s F v w A ->
  forall z, (int_min <= z <= int_max)%Z -> room s A 96 ->
  exists s' F' t, zj_SetInt v z s = Ok (true, s') /\ assigned s F v w (JNum t) s' F'.
Proof. exact @setInt_only. Qed.
Print Assumptions C26_setInt.
Theorem C26_setLong : forall (VV : vols) s F v w A, inv s F -> handle s F v w A ->
  forall z, (long_min <= z <= long_max)%Z -> room s A 104 ->
  exists s' F' t, zj_SetLong v z s = Ok (true, s') /\ assigned s F v w (JNum t) s' F'.
Proof. exact @setLong_only. Qed.
Print Assumptions C26_setLong.
Theorem C26_setLongLong : forall (VV : vols) s F v w A, inv s F -> handle s F v w A ->
  forall z, (long_min <= z <= long_max)%Z -> room s A 104 ->
  exists s' F' t, zj_SetLongLong v z s = Ok (true, s') /\ assigned s F v w (JNum t) s' F'.
Proof. exact @setLongLong_only. Qed.
Print Assumptions C26_setLongLong.
Example C26_run : run (A <- zj_NewAllocator ;; v <- zj_NewValue A ;; u <- zj_NewValue A ;; _ <- parse_lit v text3 ;; _ <- parse_lit u text3 ;;
  x0 <- zj_ArrayGet 9 v 0 ;; h0 <- deref (wopt x0) ;; k <- lit (txt "k") ;; x1 <- zj_ObjGet 9 h0 k ;; h1 <- deref (wopt x1) ;;
  _ <- zj_SetBool h1 true ;; t1 <- show v ;; _ <- zj_SetArray h1 ;; t2 <- show v ;; _ <- zj_SetObj h1 ;; t3 <- show v ;; _ <- zj_SetNull h1 ;;
  t4 <- show v ;; t5 <- show u ;; ret [t1; t2; t3; t4; t5]) =
  Ok [txt "[{""k"":true},2]"; txt "[{""k"":[]},2]"; txt "[{""k"":{}},2]"; txt "[{""k"":null},2]"; txt "[{""k"":[1]},2]"].
Proof. vm_compute. reflexivity. Qed.

(** ** C30 Integers round-trip *)
Theorem C30_setInt : forall (VV : vols) s F v w A, inv s F -> handle s F v w A ->
  forall z, (int_min <= z <= int_max)%Z -> room s A 96 -> reads_back s F v w (zj_SetInt v z) z.
Proof. exact @setInt_back. Qed.
Print Assumptions C30_setInt.
Theorem C30_setLong : forall (VV : vols) s F v w A, inv s F -> handle s F v w A ->
  forall z, (long_min <= z <= long_max)%Z -> room s A 104 -> reads_back s F v w (zj_SetLong v z) z.
Proof. exact @setLong_back. Qed.
Print Assumptions C30_setLong.
Theorem C30_setLongLong : forall (VV : vols) s F v w A, inv s F -> handle s F v w A ->
  forall z, (long_min <= z <= long_max)%Z -> room s A 104 -> reads_back s F v w (zj_SetLongLong v z) z.
Proof. exact @setLongLong_back. Qed.
Print Assumptions C30_setLongLong.
Theorem C30_decimal_is_number : forall t z, decimal t z -> number t.
Proof. exact decimal_number. Qed.
Print Assumptions C30_decimal_is_number.
Example C30_run : run (A <- zj_NewAllocator ;; v <- zj_NewValue A ;; _ <- zj_SetLong v (-9223372036854775808)%Z ;; t <- show v ;;
  l <- zj_GetLong v ;; _ <- zj_SetInt v (-2147483648)%Z ;; i <- zj_GetInt v ;; t' <- show v ;; ret (t, l, i, t')) =
  Ok (txt "-9223372036854775808", Some (-9223372036854775808)%Z, Some (-2147483648)%Z, txt "-2147483648").
Proof. vm_compute. reflexivity. Qed.

(** ** C33 SetKey renames members and is refused on array elements

    [keys_iff]: on true the key is set, the content stays, and only the documents
    containing the member change, in that key only; on false nothing changes. *)
Theorem C33_setKey : forall (VV : vols) s F v w A, inv s F -> handle s F v w A -> father_known F w ->
  forall src b, given s src b -> strbody_set b -> room s A (72 + lenN b) ->
  exists r s', zj_SetKey v src s = Ok (r, s') /\ keys_iff s F v w (key_open F w) b r s'.
Proof. exact @setKey_good. Qed.
Print Assumptions C33_setKey.
Theorem C33_setKeyFast : forall (VV : vols) s F v w A, inv s F -> handle s F v w A -> father_known F w ->
  forall src b, kept s src b -> strbody_set b -> room s A 72 ->
  exists r s', zj_SetKeyFast v src s = Ok (r, s') /\ keys_iff s F v w (key_open F w) b r s'.
Proof. exact @setKeyFast_good. Qed.
Print Assumptions C33_setKeyFast.
Theorem C33_setKeyLen : forall (VV : vols) s F v w A, inv s F -> handle s F v w A -> father_known F w ->
  forall src b, srctext s src b -> strbody_set b -> cache_live s -> cache_room s A (check_cost (lenN b) + (72 + lenN b)) ->
  exists r s', zj_SetKeyLen v src (lenN b) s = Ok (r, s') /\ keys_iff s F v w (key_open F w) b r s'.
Proof. exact @setKeyLen_good. Qed.
Print Assumptions C33_setKeyLen.
Theorem C33_setKeyLenFast : forall (VV : vols) s F v w A, inv s F -> handle s F v w A -> father_known F w ->
  forall src b, safetext s src b -> strbody_set b -> cache_live s -> cache_room s A (check_cost (lenN b) + 72) ->
  exists r s', zj_SetKeyLenFast v src (lenN b) s = Ok (r, s') /\ keys_iff s F v w (key_open F w) b r s'.
Proof. exact @setKeyLenFast_good. Qed.
Print Assumptions C33_setKeyLenFast.
(** Elements of arrays are refused; roots, object members and empty values are not. *)
Theorem C33_array_element : forall (F : dom) p fp kids c fc, wfdom F -> F p = Some fp -> fvalue fp = VCont false kids -> In c kids ->
  F c = Some fc -> ~ key_open F (At c) /\ father_known F (At c).
Proof. exact array_element_closed. Qed.
Print Assumptions C33_array_element.
Theorem C33_object_member : forall (F : dom) p fp kids c fc, wfdom F -> F p = Some fp -> fvalue fp = VCont true kids -> In c kids ->
  F c = Some fc -> key_open F (At c) /\ father_known F (At c).
Proof. exact object_member_open. Qed.
Print Assumptions C33_object_member.
Example C33_run : run (A <- zj_NewAllocator ;; v <- zj_NewValue A ;; e <- zj_NewValue A ;; _ <- parse_lit v text3 ;;
  x0 <- zj_ArrayGet 9 v 0 ;; h0 <- deref (wopt x0) ;; k <- lit (txt "k") ;; x1 <- zj_ObjGet 9 h0 k ;; h1 <- deref (wopt x1) ;;
  n <- lit (txt "new\n") ;; r0 <- zj_SetKey h0 n ;; r1 <- zj_SetKey h1 n ;; r2 <- zj_SetKeyLen e n 3 ;; t <- show v ;; t' <- show e ;; ret (r0, r1, r2, t, t')) =
  Ok (false, true, true, txt "[{""new\n"":[1]},2]", txt "null").
Proof. vm_compute. reflexivity. Qed.
