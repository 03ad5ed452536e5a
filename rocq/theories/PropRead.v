(** Properties C07, C15-C18, C31, C32: reading. *)
From Verif Require Import Base Spec Lex Alloc Mem MemProofs Api PureParse SpecProofs Dom Effect ParseTop StringifyProofs CopyProofs GetProofs
  Vocab ParseFacts PrintFacts ReadFacts LongExact Start Scene.

(** ** C07 Reading does not write *)
Theorem C07_reading_call_keeps : forall (VV : vols) s F v a A j f fuel X (m : M X) r s',
  inv s F -> on s F v a A -> reads F a j -> F a = Some f -> json_ok j -> (forall k, fkey f = Some k -> strbody k) ->
  room s A (read_cost (fkey f) j) -> (jsteps j < fuel)%nat ->
  reading_call s fuel v X m -> m s = Ok (r, s') -> untouched s F s'.
Proof. exact @reading_keeps. Qed.
Print Assumptions C07_reading_call_keeps.
Theorem C07_reading_calls_keep : forall (VV : vols) s F s' F', reading_calls s F s' F' -> inv s F ->
  inv s' F' /\ (forall u j, content s F u j -> content s' F' u j) /\ (forall u k, key_is s F u k -> key_is s' F' u k) /\
  (forall u A, empty s F u A -> empty s' F' u A).
Proof. exact @reading_frame. Qed.
Print Assumptions C07_reading_calls_keep.

Definition text2 : bytes := txt "{""a"":[1,""x\u0041\n"",null,true],""b"":-12,""a"":{}}".
Definition json2 : json := JObj [(txt "a", JArr [JNum (txt "1"); JStr (txt "x\u0041\n"); JNull; JBool true]);
                                 (txt "b", JNum (txt "-12")); (txt "a", JObj [])].
Example text2_valid : json_text text2 json2.
Proof. apply valid_by; [apply has0_no|]; vm_compute; reflexivity. Qed.
(** A document, a key in a caller's buffer: the hypotheses of this file's theorems. *)
Example C07_case : exists s F v a A f p, inv s F /\ on s F v a A /\ reads F a json2 /\ F a = Some f /\ json_ok json2 /\
  (forall k, fkey f = Some k -> strbody k) /\ room s A (read_cost (fkey f) json2) /\ cstring s p (txt "a") /\
  holds s p (txt "a").
Proof.
  destruct (docs text2 json2 text2 json2 (txt "a" ++ [0])) as (s & F & A & v & a & fa & u & b & fb & p & I & Hv & R1 & Hu & R2 & _ & _ & Fa & Ka & _ & _ & _ & _ & _ & T & Sf & Rm);
    try (apply has0_no; reflexivity); try apply text2_valid; try reflexivity.
  exists s, F, v, a, A, fa, p. split; auto. split; auto. split; auto. split; auto.
  split; [eapply json_text_ok, text2_valid|]. split; [congruence|]. rewrite Ka.
  split; [unfold room in *; eapply N.le_trans; [|exact Rm]; apply N.add_le_mono_l; vm_compute; discriminate|].
  assert (C : cstring s p (txt "a")) by (split; [apply has0_no; reflexivity|exists []; exact T]). split; auto.
  apply (safetext_app s p (txt "a") [0]) in Sf as [Sf _]. apply Sf.
Qed.
(** Every reading call of the list, twice, and the document is printed the same. *)
Example C07_run : run (A <- zj_NewAllocator ;; v <- zj_NewValue A ;; _ <- parse_lit v text2 ;;
  t <- show v ;; _ <- zj_Copy 100 v ;; k <- lit (txt "a") ;; o <- zj_ObjGet 10 v k ;; x <- deref (wopt o) ;;
  e <- zj_ArrayGet 10 x 1 ;; y <- deref (wopt e) ;; _ <- zj_GetUnEscapeStr y ;; n <- zj_Next x ;; z <- deref (wopt n) ;; i <- zj_GetInt z ;;
  _ <- zj_GetKey z ;; _ <- zj_Type v ;; sz <- zj_SizeOf v ;; t' <- show v ;; ret (bytes_eqb t t', i, sz)) = Ok (true, Some (-12)%Z, 3).
Proof. vm_compute. reflexivity. Qed.

(** ** C15 GetUnEscapeStr decodes escapes as the standard says *)
Theorem C15_getUnEscapeStr_decodes : forall (VV : vols) s F v a A j f, inv s F -> on s F v a A -> reads F a j -> F a = Some f ->
  forall b o, j = JStr b -> decodes b o -> room s A (lenN b + 1) ->
  exists r s', zj_GetUnEscapeStr v s = Ok (r, s') /\ untouched s F s' /\ text_out s' (Some o) r.
Proof. exact @getUnEscapeStr_exact. Qed.
Print Assumptions C15_getUnEscapeStr_decodes.
Theorem C15_getUnEscapeKey_decodes : forall (VV : vols) s F v a A f, inv s F -> on s F v a A -> F a = Some f ->
  forall b o, fkey f = Some b -> decodes b o -> room s A (lenN b + 1) ->
  exists r s', zj_GetUnEscapeKey v s = Ok (r, s') /\ untouched s F s' /\ text_out s' (Some o) r.
Proof. exact @getUnEscapeKey_exact. Qed.
Print Assumptions C15_getUnEscapeKey_decodes.
Theorem C15_getUnEscapeStr_other : forall (VV : vols) s F v a A j f, inv s F -> on s F v a A -> reads F a j -> F a = Some f ->
  type_of j <> TString -> zj_GetUnEscapeStr v s = Ok (None, s).
Proof. exact @getUnEscapeStr_other. Qed.
Print Assumptions C15_getUnEscapeStr_other.
(** The decoding is a function, so the result is determined. *)
Example C15_case : decodes (txt "x\u0041\n\ud834\udd1e") (txt "xA" ++ [10; 240; 157; 132; 158]).
Proof.
  change (txt "xA" ++ [10; 240; 157; 132; 158]) with (120 :: utf8 65 ++ 10 :: utf8 119070 ++ []).
  apply (dec_plain 120); [lia|lia|lia|].
  apply (dec_u 48 48 52 49 65); [exists 0, 0, 4, 1; repeat split|unfold high_surrogate; lia|unfold low_surrogate; lia|].
  apply (dec_short 110); [reflexivity|].
  apply (dec_pair 100 56 51 52 100 100 49 101 55348 56606);
    [exists 13, 8, 3, 4; repeat split|unfold high_surrogate; lia|exists 13, 13, 1, 14; repeat split|unfold low_surrogate; lia|].
  constructor.
Qed.
Example C15_run : run (A <- zj_NewAllocator ;; v <- zj_NewValue A ;; _ <- parse_lit v (txt """x\u0041\n\ud834\udd1e""") ;;
  w <- zj_GetUnEscapeStr v ;; cstr_at (match w with Some w => w | None => Null end)) = Ok (txt "xA" ++ [10; 240; 157; 132; 158]).
Proof. vm_compute. reflexivity. Qed.

(** ** C16 ObjGet finds the first member with that key *)
Theorem C16_objGet_first : forall (VV : vols) s F v a A j f, inv s F -> on s F v a A -> reads F a j -> F a = Some f ->
  forall l key k, j = JObj l -> json_ok j -> cstring s key k -> room s A 16 -> forall fuel, (length l <= fuel)%nat ->
  exists r s', zj_ObjGet fuel v key s = Ok (r, s') /\ untouched s F s' /\
    child_out s' F A (option_map (fun x => (Some k, x)) (assoc k l)) r.
Proof. exact @objGet_exact. Qed.
Print Assumptions C16_objGet_first.
Theorem C16_objGetLen_first : forall (VV : vols) s F v a A j f, inv s F -> on s F v a A -> reads F a j -> F a = Some f ->
  forall l key k, j = JObj l -> holds s key k -> room s A 16 -> forall fuel, (length l <= fuel)%nat ->
  exists r s', zj_ObjGetLen fuel v key (lenN k) s = Ok (r, s') /\ untouched s F s' /\
    child_out s' F A (option_map (fun x => (Some k, x)) (assoc k l)) r.
Proof. exact @objGetLen_exact. Qed.
Print Assumptions C16_objGetLen_first.
Theorem C16_objGet_other : forall (VV : vols) s F v a A j f, inv s F -> on s F v a A -> reads F a j -> F a = Some f ->
  forall fuel key, type_of j <> TObject -> room s A 16 ->
  zj_ObjGet fuel v key s = Ok (None, s) /\ forall n, zj_ObjGetLen fuel v key n s = Ok (None, s).
Proof. exact @objGet_other. Qed.
Print Assumptions C16_objGet_other.
(** C07_case gives the hypotheses; duplicate key, missing key: *)
Example C16_values : assoc (txt "a") (match json2 with JObj l => l | _ => [] end) =
    Some (JArr [JNum (txt "1"); JStr (txt "x\u0041\n"); JNull; JBool true]) /\
  assoc (txt "c") (match json2 with JObj l => l | _ => [] end) = None.
Proof. split; vm_compute; reflexivity. Qed.
Example C16_run : run (A <- zj_NewAllocator ;; v <- zj_NewValue A ;; _ <- parse_lit v text2 ;; k <- lit (txt "a") ;; k2 <- lit (txt "c") ;;
  o <- zj_ObjGet 10 v k ;; x <- deref (wopt o) ;; t <- zj_Type x ;; o2 <- zj_ObjGet 10 v k2 ;;
  o3 <- zj_ObjGetLen 10 v k 1 ;; y <- deref (wopt o3) ;; t3 <- zj_Type y ;;
  ret (t, t3, match o2 with None => true | Some _ => false end)) = Ok (Some TArray, Some TArray, true).
Proof. vm_compute. reflexivity. Qed.

(** ** C17 ArrayGet and SizeOf agree with the element list *)
Theorem C17_sizeOf : forall (VV : vols) s F v a A j f, inv s F -> on s F v a A -> reads F a j -> F a = Some f ->
  zj_SizeOf v s = Ok (lenN (items j), s).
Proof. exact @size_exact. Qed.
Print Assumptions C17_sizeOf.
Theorem C17_arrayGet : forall (VV : vols) s F v a A j f, inv s F -> on s F v a A -> reads F a j -> F a = Some f ->
  forall l i, j = JArr l -> i < two32 -> room s A 16 -> forall fuel, (length l <= fuel)%nat ->
  exists r s', zj_ArrayGet fuel v i s = Ok (r, s') /\ untouched s F s' /\
    child_out s' F A (nth_error (items (JArr l)) (N.to_nat i)) r.
Proof. exact @arrayGet_exact. Qed.
Print Assumptions C17_arrayGet.
Theorem C17_arrayGet_other : forall (VV : vols) s F v a A j f, inv s F -> on s F v a A -> reads F a j -> F a = Some f ->
  forall i fuel, type_of j <> TArray -> room s A 16 -> zj_ArrayGet fuel v i s = Ok (None, s).
Proof. exact @arrayGet_other. Qed.
Print Assumptions C17_arrayGet_other.
Example C17_case : exists s F v a A f, inv s F /\ on s F v a A /\ reads F a (JArr [JNum (txt "4"); JStr (txt "b"); JArr []]) /\
  F a = Some f /\ room s A 16.
Proof.
  destruct (docs (txt "[4,""b"",[]]") (JArr [JNum (txt "4"); JStr (txt "b"); JArr []]) text2 json2 []) as (s & F & A & v & a & fa & u & b & fb & p & I & Hv & R1 & _ & _ & _ & _ & Fa & _ & _ & _ & _ & _ & _ & _ & _ & Rm);
    try (apply has0_no; reflexivity); try apply text2_valid; try reflexivity.
  - apply valid_by; [apply has0_no; reflexivity|vm_compute; reflexivity].
  - exists s, F, v, a, A, fa. split; auto. split; auto. split; auto. split; auto. unfold room in *. lia.
Qed.
Example C17_run : run (A <- zj_NewAllocator ;; v <- zj_NewValue A ;; _ <- parse_lit v (txt "[4,""b"",[]]") ;; n <- zj_SizeOf v ;;
  x0 <- zj_ArrayGet 9 v 0 ;; x2 <- zj_ArrayGet 9 v 2 ;; x3 <- zj_ArrayGet 9 v 3 ;;
  h0 <- deref (wopt x0) ;; t0 <- zj_Type h0 ;; h2 <- deref (wopt x2) ;; t2 <- zj_Type h2 ;;
  ret (n, t0, t2, match x3 with None => true | Some _ => false end)) = Ok (3, Some TNumber, Some TArray, true).
Proof. vm_compute. reflexivity. Qed.

(** ** C18 Begin/Next enumerate every child once, in order *)
Theorem C18_children : forall (VV : vols) s F v a A j, inv s F -> on s F v a A -> reads F a j -> room s A (16 * lenN (items j)) ->
  forall fuel, (length (items j) <= fuel)%nat ->
  exists hs s', children fuel v s = Ok (hs, s') /\ untouched s F s' /\ Forall2 (child_at s' F A) hs (items j).
Proof. exact @children_exact. Qed.
Print Assumptions C18_children.
(** C07_case and C17_case give the hypotheses for an object and an array. *)
Example C18_run : run (A <- zj_NewAllocator ;; v <- zj_NewValue A ;; _ <- parse_lit v text2 ;; hs <- children 9 v ;;
  match hs with
  | [x; y; z] => a <- zj_Type x ;; b <- zj_Type y ;; c <- zj_Type z ;; ret [a; b; c]
  | _ => ret []
  end) = Ok [Some TArray; Some TNumber; Some TObject].
Proof. vm_compute. reflexivity. Qed.

(** ** C31 Numeric getters convert exactly the stored number text

    As stated the property is false.  GetLong, GetLongLong and GetDouble convert the
    text in place, although it has no terminator: the digits of the next text in
    memory are taken for digits of this one. *)
Theorem C31_refuted : run (A <- zj_NewAllocator ;; v <- zj_NewValue A ;; _ <- parse_lit v (txt "[1,2,3]") ;;
    x0 <- zj_ArrayGet 9 v 0 ;; h0 <- deref (wopt x0) ;; x1 <- zj_ArrayGet 9 v 1 ;; h1 <- deref (wopt x1) ;;
    x2 <- zj_ArrayGet 9 v 2 ;; h2 <- deref (wopt x2) ;;
    p0 <- lit (txt "12") ;; p1 <- lit (txt "34") ;; p2 <- lit (txt "x") ;;
    _ <- zj_SetNumStr h0 p0 ;; _ <- zj_SetNumStr h1 p1 ;; _ <- zj_SetStr h2 p2 ;;
    t <- show v ;; i <- zj_GetInt h0 ;; l <- zj_GetLong h0 ;; ll <- zj_GetLongLong h0 ;; ret (t, i, l, ll)) =
  Ok (txt "[12,34,""x""]", Some 12%Z, Some 1234%Z, Some 1234%Z).
Proof. vm_compute. reflexivity. Qed.
Print Assumptions C31_refuted.
(** At the end of the memory in use they read bytes nobody wrote. *)
Theorem C31_overread_refuted : run (A <- zj_NewAllocator ;; v <- zj_NewValue A ;; _ <- parse_lit v (txt "[1]") ;;
    x0 <- zj_ArrayGet 9 v 0 ;; h0 <- deref (wopt x0) ;; p0 <- lit (txt "12") ;; _ <- zj_SetNumStr h0 p0 ;; zj_GetLong h0) = Err EOob.
Proof. vm_compute. reflexivity. Qed.
Print Assumptions C31_overread_refuted.
(** And all of them copy the text into a buffer of 128 bytes, whatever its length. *)
Theorem C31_overflow_refuted : run (A <- zj_NewAllocator ;; v <- zj_NewValue A ;; _ <- parse_lit v (repeat 49 129) ;; zj_GetInt v) = Err EOverflow.
Proof. vm_compute. reflexivity. Qed.
Print Assumptions C31_overflow_refuted.
(** What holds: GetInt is exact below 128 bytes (the integer part; fraction and
    exponent are dropped as atoi does) ... *)
Theorem C31_getInt_exact_partial : forall (VV : vols) s F v a A j f, inv s F -> on s F v a A -> reads F a j -> F a = Some f ->
  forall b z, j = JNum b -> int_value b z -> (int_min <= z <= int_max)%Z -> lenN b < 128 -> room s A 4 ->
  exists s', zj_GetInt v s = Ok (Some z, s') /\ untouched s F s'.
Proof. exact @getInt_exact. Qed.
Print Assumptions C31_getInt_exact_partial.
(** ... and GetLong and GetLongLong if the byte after the text (at the place that
    GetNumFast returns) is there and is no digit. *)
Theorem C31_getLong_exact_partial : forall (VV : vols) s F v a A j f, inv s F -> on s F v a A -> reads F a j -> F a = Some f ->
  forall b z c, j = JNum b -> int_value b z -> (long_min <= z <= long_max)%Z -> lenN b <= 128 -> room s A 8 ->
  ~ is_digit c -> (forall p n, zj_GetNumFast v s = Ok (Some (At p, n), s) -> exists r, text_at s p = b ++ c :: r) ->
  (exists s', zj_GetLong v s = Ok (Some z, s') /\ untouched s F s') /\
  (exists s', zj_GetLongLong v s = Ok (Some z, s') /\ untouched s F s').
Proof. exact @getLong_exact. Qed.
Print Assumptions C31_getLong_exact_partial.
(** Exactly: GetInt answers [z] if and only if [z] is the integer part, an int, and the
    text has at most 128 bytes (otherwise the behaviour is undefined). *)
Theorem C31_getInt_exactly : forall (VV : vols) s F v a A f b, inv s F -> on s F v a A -> reads F a (JNum b) -> F a = Some f -> number b ->
  forall z, room s A 4 ->
  ((exists s', zj_GetInt v s = Ok (Some z, s')) <-> lenN b <= 128 /\ int_value b z /\ (int_min <= z <= int_max)%Z).
Proof. exact @getInt_exactly. Qed.
Print Assumptions C31_getInt_exactly.
(** GetLong and GetLongLong answer the integer that the memory from the first byte of the
    number on begins with, [r] being what can be read there after the number. *)
Theorem C31_getLong_exactly : forall (VV : vols) s F v a A f b, inv s F -> on s F v a A -> reads F a (JNum b) -> F a = Some f -> number b ->
  forall p n r z, room s A 8 -> zj_GetNumFast v s = Ok (Some (At p, n), s) -> text_at s p = b ++ r ->
  ((exists s', zj_GetLong v s = Ok (Some z, s')) <-> lenN b <= 128 /\ starts_int (b ++ r) z /\ (long_min <= z <= long_max)%Z) /\
  ((exists s', zj_GetLongLong v s = Ok (Some z, s')) <-> lenN b <= 128 /\ starts_int (b ++ r) z /\ (long_min <= z <= long_max)%Z).
Proof. exact @getLong_exactly2. Qed.
Print Assumptions C31_getLong_exactly.
(** So they are right if and only if the number has a fraction or an exponent, or is
    followed by something that is no digit, or is 0 and followed by zeros and something
    that is no digit ([follows b r]). *)
Theorem C31_getLong_right_exactly : forall (VV : vols) s F v a A f b, inv s F -> on s F v a A -> reads F a (JNum b) -> F a = Some f -> number b ->
  forall p n r z, room s A 8 -> zj_GetNumFast v s = Ok (Some (At p, n), s) -> text_at s p = b ++ r -> int_value b z ->
  ((exists s', zj_GetLong v s = Ok (Some z, s')) <-> lenN b <= 128 /\ (long_min <= z <= long_max)%Z /\ follows b r) /\
  ((exists s', zj_GetLongLong v s = Ok (Some z, s')) <-> lenN b <= 128 /\ (long_min <= z <= long_max)%Z /\ follows b r).
Proof. exact @getLong_right2. Qed.
Print Assumptions C31_getLong_right_exactly.
Example C31_follows_case : follows [48] (txt "00x") /\ ~ follows (txt "12") (txt "34x") /\ ~ follows (txt "12") [].
Proof.
  split; [|split].
  - right. exists [48; 48], 120, []. split; [reflexivity|]. split; [repeat constructor; vm_compute; discriminate|]. split; [unfold is_digit; lia|]. right. auto.
  - intros [(c & Hc & _ & Nd)|(ds & c & r & E & _ & Nd & [->|[[K|K] _]])]; try discriminate.
    + apply Nd. destruct Hc as [<-|[<-|[]]]; vm_compute; split; discriminate.
    + injection E as <- _. apply Nd. vm_compute. split; discriminate.
  - intros [(c & Hc & _ & Nd)|(ds & c & r & E & _)].
    + apply Nd. destruct Hc as [<-|[<-|[]]]; vm_compute; split; discriminate.
    + destruct ds; discriminate.
Qed.
Example C31_zeros_run : run (A <- zj_NewAllocator ;; v <- zj_NewValue A ;; _ <- parse_lit v (txt "[1,2,3]") ;;
    x0 <- zj_ArrayGet 9 v 0 ;; h0 <- deref (wopt x0) ;; x1 <- zj_ArrayGet 9 v 1 ;; h1 <- deref (wopt x1) ;;
    x2 <- zj_ArrayGet 9 v 2 ;; h2 <- deref (wopt x2) ;;
    p0 <- lit (txt "0") ;; p1 <- lit (txt "0") ;; p2 <- lit (txt "x") ;;
    _ <- zj_SetNumStr h0 p0 ;; _ <- zj_SetNumStr h1 p1 ;; _ <- zj_SetStr h2 p2 ;; zj_GetLong h0) = Ok (Some 0%Z).
Proof. vm_compute. reflexivity. Qed.
Example C31_case : int_value (txt "-12.5e3") (-12)%Z.
Proof.
  exists [45], (txt "12"), (txt ".5"), (txt "e3"). split; [now right|]. split.
  { right. exists 49, [50]. split; [lia|]. split; [repeat constructor; vm_compute; discriminate|reflexivity]. }
  split; [right; exists [53]; split; [discriminate|]; split; [repeat constructor; vm_compute; discriminate|reflexivity]|].
  split; [right; exists 101, [], [51]; split; [now left|]; split; [now left|]; split; [discriminate|]; split; [repeat constructor; vm_compute; discriminate|reflexivity]|].
  split; reflexivity.
Qed.
Example C31_run : run (A <- zj_NewAllocator ;; v <- zj_NewValue A ;; _ <- parse_lit v (txt "[-12.5e3]") ;;
    x0 <- zj_ArrayGet 9 v 0 ;; h0 <- deref (wopt x0) ;; i <- zj_GetInt h0 ;; l <- zj_GetLong h0 ;; ret (i, l)) = Ok (Some (-12)%Z, Some (-12)%Z).
Proof. vm_compute. reflexivity. Qed.

(** ** C32 Typed access is exact *)
Theorem C32_type : forall (VV : vols) s F v a A j f, inv s F -> on s F v a A -> reads F a j -> F a = Some f ->
  zj_Type v s = Ok (Some (type_of j), s).
Proof. exact @type_exact. Qed.
Print Assumptions C32_type.
Theorem C32_isNull : forall (VV : vols) s F v a A j f, inv s F -> on s F v a A -> reads F a j -> F a = Some f ->
  exists r, zj_IsNull v s = Ok (r, s) /\ (r = true <-> j = JNull).
Proof. exact @isNull_exact. Qed.
Print Assumptions C32_isNull.
Theorem C32_getBool : forall (VV : vols) s F v a A j f, inv s F -> on s F v a A -> reads F a j -> F a = Some f ->
  zj_GetBool v s = Ok (match j with JBool b => Some b | _ => None end, s).
Proof. exact @getBool_exact. Qed.
Print Assumptions C32_getBool.
Theorem C32_getStr : forall (VV : vols) s F v a A j f, inv s F -> on s F v a A -> reads F a j -> F a = Some f ->
  room s A (olen (str_body j) + 1) ->
  exists r s', zj_GetStr v s = Ok (r, s') /\ untouched s F s' /\ text_out s' (str_body j) r.
Proof. exact @getStr_exact. Qed.
Print Assumptions C32_getStr.
Theorem C32_getStrFast : forall (VV : vols) s F v a A j f, inv s F -> on s F v a A -> reads F a j -> F a = Some f ->
  exists r, zj_GetStrFast v s = Ok (r, s) /\ text_in s (str_body j) r.
Proof. exact @getStrFast_exact. Qed.
Print Assumptions C32_getStrFast.
Theorem C32_getNumStr : forall (VV : vols) s F v a A j f, inv s F -> on s F v a A -> reads F a j -> F a = Some f ->
  room s A (olen (num_text j) + 1) ->
  exists r s', zj_GetNumStr v s = Ok (r, s') /\ untouched s F s' /\ text_out s' (num_text j) r.
Proof. exact @getNumStr_exact. Qed.
Print Assumptions C32_getNumStr.
Theorem C32_getNumFast : forall (VV : vols) s F v a A j f, inv s F -> on s F v a A -> reads F a j -> F a = Some f ->
  exists r, zj_GetNumFast v s = Ok (r, s) /\ text_in s (num_text j) r.
Proof. exact @getNumFast_exact. Qed.
Print Assumptions C32_getNumFast.
Theorem C32_getKey : forall (VV : vols) s F v a A f, inv s F -> on s F v a A -> F a = Some f -> room s A (olen (fkey f) + 1) ->
  exists r s', zj_GetKey v s = Ok (r, s') /\ untouched s F s' /\ text_out s' (fkey f) r.
Proof. exact @getKey_exact. Qed.
Print Assumptions C32_getKey.
Theorem C32_getKeyFast : forall (VV : vols) s F v a A f, inv s F -> on s F v a A -> F a = Some f ->
  exists r, zj_GetKeyFast v s = Ok (r, s) /\ text_in s (fkey f) r.
Proof. exact @getKeyFast_exact. Qed.
Print Assumptions C32_getKeyFast.
Theorem C32_empty : forall (VV : vols) s F v A, empty s F v A -> forall key fuel n,
  zj_Type v s = Ok (None, s) /\ zj_SizeOf v s = Ok (0, s) /\ zj_IsNull v s = Ok (false, s) /\ zj_GetBool v s = Ok (None, s) /\
  zj_GetStr v s = Ok (None, s) /\ zj_GetStrFast v s = Ok (None, s) /\ zj_GetUnEscapeStr v s = Ok (None, s) /\
  zj_GetNumStr v s = Ok (None, s) /\ zj_GetNumFast v s = Ok (None, s) /\
  zj_GetInt v s = Ok (None, s) /\ zj_GetLong v s = Ok (None, s) /\ zj_GetLongLong v s = Ok (None, s) /\
  zj_GetKey v s = Ok (None, s) /\ zj_GetKeyFast v s = Ok (None, s) /\ zj_GetUnEscapeKey v s = Ok (None, s) /\
  zj_ObjGet fuel v key s = Ok (None, s) /\ zj_ObjGetLen fuel v key n s = Ok (None, s) /\ zj_ArrayGet fuel v n s = Ok (None, s) /\
  zj_Begin v s = Ok (None, s) /\ zj_Next v s = Ok (None, s).
Proof. exact @empty_reads. Qed.
Print Assumptions C32_empty.
(** C07_case gives the hypotheses for an object and C01_case for an empty value; the answers on scalars: *)
Example C32_run : run (A <- zj_NewAllocator ;; v <- zj_NewValue A ;; e <- zj_Type v ;; _ <- parse_lit v (txt "[false]") ;;
    x0 <- zj_ArrayGet 9 v 0 ;; h0 <- deref (wopt x0) ;; t <- zj_Type h0 ;; b <- zj_GetBool h0 ;; n <- zj_IsNull h0 ;;
    st <- zj_GetStr h0 ;; ret (e, t, b, n, match st with None => true | _ => false end)) = Ok (None, Some TBool, Some false, false, true).
Proof. vm_compute. reflexivity. Qed.
