(** Properties C54-C61: the beta header. *)
From Verif Require Import Double Base Spec Lex Alloc AllocProofs Mem MemProofs Api PureParse Dom Effect LexProofs CacheProofs KeyProofs CopyProofs ParseTop Vocab ParseFacts StringifyProofs PrintFacts
  ReadFacts SetFacts TreeFacts MemFacts Start Scene TreeScene DoubleFacts Hist HistRun HistSim HistStep HistAll HistJudge Beta BetaHist BetaSim BetaFacts BetaCurrent BetaPlain BetaScene.

(** ** C54 The beta header parses JSON

    [bparses]: the call accepts exactly the JSON texts; an accepted text is then the content
    of the value, a refused one leaves everything as it is; and unless the buffer ends within
    three bytes after an unfinished literal (C03) it answers. *)
Theorem C54_parseFast : forall (VV : vols) s F v w A B, inv s F -> handle s F v w A -> forall src t sl, stays s src t sl ->
  room s A (72 * (lenN t + 2)) -> bparses s F v w B (z_ValueParseFast B v src) t (length sl).
Proof. exact @bparseFast. Qed.
Print Assumptions C54_parseFast.
Theorem C54_parse : forall (VV : vols) s F v w A B, inv s F -> handle s F v w A -> forall src t sl, stays s src t sl ->
  room s A (lenN t + 1 + 72 * (lenN t + 2)) -> bparses s F v w B (z_ValueParse B v src) t (length sl).
Proof. exact @bparse. Qed.
Print Assumptions C54_parse.
Definition beta_text : bytes := txt "{""a"" : [1, true], ""b"":""x""}".
Definition beta_json : json := JObj [(txt "a", JArr [JNum (txt "1"); JBool true]); (txt "b", JStr (txt "x"))].
Example C54_case : exists s A v p, inv s nodocs /\ empty s nodocs v A /\ stays s p beta_text [] /\ room s A (lenN beta_text + 1 + 72 * (lenN beta_text + 2)) /\
  json_text beta_text beta_json.
Proof.
  destruct (stays_scene beta_text []) as (s & A & v & p & I & E & St & R); [apply has0_no; reflexivity|reflexivity..|].
  exists s, A, v, p. split; auto. split; auto. split; auto. split.
  - eapply N.le_trans; [|exact R]. apply N.add_le_mono_l. vm_compute. discriminate.
  - apply valid_by; [apply has0_no|]; vm_compute; reflexivity.
Qed.
Definition bparse_lit (B : bmem) (v : addr) (t : bytes) : M (bool * bmem) := p <- lit t ;; z_ValueParse B v p.
Example C54_run : Scene.run (A <- zj_NewAllocator ;; vb <- z_ValueNew bstart A ;; x <- bparse_lit (snd vb) (fst vb) beta_text ;;
  t <- show (fst vb) ;; y <- bparse_lit (snd x) (fst vb) (txt "[01]") ;; u <- show (fst vb) ;; ret (fst x, t, fst y, u)) =
  Ok (true, txt "{""a"":[1,true],""b"":""x""}", false, txt "{""a"":[1,true],""b"":""x""}").
Proof. vm_compute. reflexivity. Qed.

(** ** C55 The length given to z_ValueParseLen

    Refuted: of the buffer [1]2 three bytes are given, and the call refuses them, for it
    parses the buffer up to its terminator. *)
Theorem C55_refuted : valid (txt "[1]") /\
  Scene.run (A <- zj_NewAllocator ;; vb <- z_ValueNew bstart A ;; p <- lit (txt "[1]2") ;; x <- z_ValueParseLen (snd vb) (fst vb) p 3 ;; ret (fst x)) = Ok false.
Proof. split; [exists (JArr [JNum (txt "1")]); apply valid_by; [apply has0_no|]; vm_compute; reflexivity|]. vm_compute. reflexivity. Qed.
Print Assumptions C55_refuted.
(** The other way round: four bytes that are no JSON text are accepted. *)
Theorem C55_shorter_refuted : ~ valid (txt "[1,2") /\
  Scene.run (A <- zj_NewAllocator ;; vb <- z_ValueNew bstart A ;; p <- lit (txt "[1,2]") ;; x <- z_ValueParseLen (snd vb) (fst vb) p 4 ;; ret (fst x)) = Ok true.
Proof.
  split; [|vm_compute; reflexivity]. intros (j & H). apply (jd_json _ judge_correct) in H; [|apply has0_no; reflexivity]. vm_compute in H. discriminate.
Qed.
Print Assumptions C55_shorter_refuted.
(** What holds: the text up to the terminator is parsed, as by z_ValueParse, whatever the
    length says (within the buffer). *)
Theorem C55_parseLen_partial : forall (VV : vols) s F v w A B, inv s F -> handle s F v w A -> forall src t sl len, stays s src t sl ->
  len <= lenN (t ++ 0 :: sl) -> room s A (len + 1 + 72 * (lenN t + 2)) -> bparses s F v w B (z_ValueParseLen B v src len) t (length sl).
Proof. exact @bparseLen. Qed.
Print Assumptions C55_parseLen_partial.
Example C55_case : exists s A v p, inv s nodocs /\ empty s nodocs v A /\ stays s p (txt "[1]2") [] /\ 3 <= lenN (txt "[1]2" ++ 0 :: []) /\
  room s A (3 + 1 + 72 * (lenN (txt "[1]2") + 2)).
Proof.
  destruct (stays_scene (txt "[1]2") []) as (s & A & v & p & I & E & St & R); [apply has0_no; reflexivity|reflexivity..|].
  exists s, A, v, p. split; auto. split; auto. split; auto. split; [vm_compute; discriminate|]. eapply N.le_trans; [|exact R]. apply N.add_le_mono_l. vm_compute. discriminate.
Qed.

(** ** C56 The caller's buffer after z_ValueParse and z_ValueParseLen

    Refuted: the document changes with the buffer, and is gone when the buffer is freed. *)
Definition buffer_case (parse : bmem -> addr -> addr -> M (bool * bmem)) (m : addr -> M unit) : res bytes :=
  Scene.run (A <- zj_NewAllocator ;; vb <- z_ValueNew bstart A ;; p <- lit (txt "[1,2]") ;; _ <- parse (snd vb) (fst vb) p ;; _ <- m p ;; show (fst vb)).
Theorem C56_refuted : forall parse, parse = z_ValueParse \/ parse = (fun B v p => z_ValueParseLen B v p 5) ->
  buffer_case parse (fun _ => ret tt) = Ok (txt "[1,2]") /\
  buffer_case parse (fun p => user_write (fst p) (txt "[9,8]" ++ [0])) = Ok (txt "[9,8]") /\
  exists e, buffer_case parse (fun p => user_free (fst p)) = Err e.
Proof. intros parse [-> | ->]; (split; [vm_compute; reflexivity|]); (split; [vm_compute; reflexivity|]); eexists; vm_compute; reflexivity. Qed.
Print Assumptions C56_refuted.
(** The copying setters do make copies ([forgets]: as in C09). *)
Theorem C56_setStr_partial : forall (VV : vols) s F v w A bs p s1, inv s F -> handle s F v w A -> user_buf bs s = Ok (p, s1) ->
  forall b sl B r B2 s2, bs = b ++ 0 :: sl -> ~ In 0 b -> room s A (lenN b + 72) -> z_ValueSetStr B v p s1 = Ok ((r, B2), s2) ->
  forgets VV (fst p) s1 F (strbody_set b) (assigned s1 F v w (JStr b)) r s2.
Proof. intros VV s F v w A bs p s1 I H U b sl B r B2 s2 Eb N0 R E. exact (setStr_copies VV s F v w A bs p s1 I H U b sl r s2 Eb N0 R (if_set_inv _ _ _ _ _ _ _ E)). Qed.
Print Assumptions C56_setStr_partial.
Theorem C56_setNumStr_partial : forall (VV : vols) s F v w A bs p s1, inv s F -> handle s F v w A -> user_buf bs s = Ok (p, s1) ->
  forall b sl B r B2 s2, bs = b ++ 0 :: sl -> ~ In 0 b -> room s A (lenN b + 72) -> z_ValueSetNumStr B v p s1 = Ok ((r, B2), s2) ->
  forgets VV (fst p) s1 F (number b) (assigned s1 F v w (JNum b)) r s2.
Proof. intros VV s F v w A bs p s1 I H U b sl B r B2 s2 Eb N0 R E. exact (setNumStr_copies VV s F v w A bs p s1 I H U b sl r s2 Eb N0 R (if_set_inv _ _ _ _ _ _ _ E)). Qed.
Print Assumptions C56_setNumStr_partial.
Theorem C56_setKey_partial : forall (VV : vols) s F v w A bs p s1, inv s F -> handle s F v w A -> user_buf bs s = Ok (p, s1) ->
  forall b sl B r B2 s2, father_known F w -> bs = b ++ 0 :: sl -> ~ In 0 b -> room s A (72 + lenN b) -> z_ValueSetKey B v p s1 = Ok ((r, B2), s2) ->
  forgets VV (fst p) s1 F (strbody_set b /\ key_open F w) (rekeyed s1 F v w b) r s2.
Proof. intros VV s F v w A bs p s1 I H U b sl B r B2 s2 Fk Eb N0 R E. exact (setKey_copies VV s F v w A bs p s1 I H U b sl r s2 Fk Eb N0 R (if_set_inv _ _ _ _ _ _ _ E)). Qed.
Print Assumptions C56_setKey_partial.
(** The hypotheses are those of C09_case. *)

(** ** C57 The getters answer what is there

    Refuted: two value objects for the first element; the first is asked, the second is set,
    the first answers what it answered before. *)
Definition stale_calls : list call :=
  [CNewAllocator; CNewValue 0; CParse PFast 0 (txt "[1]") []; CBegin 0; CBegin 0; CGetText true false 1; CSetText true KCopy 2 (txt "2"); CGetText true false 1; CStringify 0].
Definition answered (cs : list call) : res (list answer) := match Scene.run (brun 10 cs estart bstart) with Ok x => Ok (fst (fst x)) | Err e => Err e end.
Theorem C57_refuted : answered stale_calls =
  Ok [Arena 0; Value (Some 0%nat); Bool true; Value (Some 1%nat); Value (Some 2%nat); Text (Some (txt "1")); Bool true; Text (Some (txt "1")); Text (Some (txt "[2]"))].
Proof. vm_compute. reflexivity. Qed.
Print Assumptions C57_refuted.
(** What holds, for programs: as long as no two value objects stand for the same node, the
    program runs as if nothing were remembered.  [plain_run] has no memory; its getters
    answer the text, key or number that is there ([now]). *)
Theorem C57_program_partial : forall jd cs xs R, correct jd -> plain_run jd cs rstart = Some (xs, R) ->
  forall fuel, (bmost jd cs (rstart, []) <= fuel)%nat -> exists l E B s, brun fuel cs estart bstart init = Ok (((xs, E), B), s) /\ represents (lighten R l) E s.
Proof. exact plain_program. Qed.
Print Assumptions C57_program_partial.
(** ... and for single calls: a value object that remembers nothing answers what is there,
    and one that remembers an answer gives it again, whatever is there. *)
Theorem C57_text_partial : forall (VV : vols) s F v a A B, inv s F -> on s F v a A -> forall num f b, F a = Some f -> fvalue f = (if num : bool then VNum b else VStr b) ->
  cStr (B v) <> Undef -> room s A (lenN b + 1) ->
  answers s F B (if num then z_ValueGetNumStr B v else z_ValueGetString B v) (cStr (B v)) b (fun p => put_str B v (At p)).
Proof. exact @bgetText. Qed.
Print Assumptions C57_text_partial.
Theorem C57_key_partial : forall (VV : vols) s F v a A B, inv s F -> on s F v a A -> forall b, key_at F a (Some b) -> cKey (B v) <> Undef -> room s A (lenN b + 1) ->
  answers s F B (z_ValueGetKey B v) (cKey (B v)) b (fun p => put_ckey B v (At p)).
Proof. exact @bgetKey. Qed.
Print Assumptions C57_key_partial.
Theorem C57_unEscapeKey_partial : forall (VV : vols) s F v a A B, inv s F -> on s F v a A -> forall b d, key_at F a (Some b) -> decodes b d -> cUn (B v) <> Undef ->
  room s A (lenN b + 1) -> answers s F B (z_ValueGetUnEscapeKey B v) (cUn (B v)) d (fun p => put_un B v (At p)).
Proof. exact @bgetUnEscapeKey. Qed.
Print Assumptions C57_unEscapeKey_partial.
(** A program that asks twice, changes the value in between, and goes through the members. *)
Definition fresh_calls : list call :=
  [CNewAllocator; CNewValue 0; CParse PFast 0 (txt "{""k"":1,""l"":""a\tb""}") []; CBegin 0; CGetText true false 1; CGetText true false 1; CGetDouble 1; CGetDouble 1;
   CSetText false KCopy 1 (txt "x\n"); CGetText false false 1; CGetUnEscape 1; CGetKey false 1; CNext 1; CGetUnEscape 2; CGetUnEscape 2; CGetKey false 2; CStringify 0].
Definition fresh_answers : list answer :=
  [Arena 0; Value (Some 0%nat); Bool true; Value (Some 1%nat); Text (Some (txt "1")); Text (Some (txt "1")); Real (Some (DFin false 4503599627370496 (-52))); Real (Some (DFin false 4503599627370496 (-52)));
   Bool true; Text (Some (txt "x\n")); Text (Some [120; 10]); Text (Some (txt "k")); Value (Some 2%nat); Text (Some [97; 9; 98]); Text (Some [97; 9; 98]); Text (Some (txt "l"));
   Text (Some (txt "{""k"":""x\n"",""l"":""a\tb""}"))].
Example C57_program_case : option_map fst (plain_run the_judge fresh_calls rstart) = Some fresh_answers.
Proof. vm_compute. reflexivity. Qed.
Example C57_get_case : exists s F v a A, inv s F /\ on s F v a A /\ key_at F a (Some (txt "a")) /\ decodes (txt "a") (txt "a") /\ cKey (blank bstart v v) = Null /\ room s A (lenN (txt "a") + 1).
Proof.
  destruct keyed_scene as (s & F & v & a & A & vv & b & I & Ov & Ob & Ra & Rb & Ka & Kb & Pa & Pb & Nab & Rm).
  exists s, F, v, a, A. split; auto. split; auto. split; auto. split; [apply dec_plain; [discriminate..|apply dec_nil]|]. split.
  - unfold blank, setC. now destruct (addr_eqb_spec v v).
  - eapply N.le_trans; [|exact Rm]. apply N.add_le_mono_l. vm_compute. discriminate.
Qed.

(** ** C58 The remembered number and the remembered string

    Refuted: they share one pointer.  A value object is asked for its number, another one
    for the same node is given a string; asked for the decoded string, the first answers
    the pointer to the double.  And the other way round: asked for the number, it answers
    the pointer to a text, where no double was ever stored. *)
Definition two_views (t : bytes) : M (bmem * addr * addr) :=
  A <- zj_NewAllocator ;; vb <- z_ValueNew bstart A ;; x <- bparse_lit (snd vb) (fst vb) t ;; e <- z_ValueBegin (snd x) (fst vb) ;; f <- z_ValueBegin (snd e) (fst vb) ;;
  p <- deref (wopt (fst e)) ;; q <- deref (wopt (fst f)) ;; ret (snd f, p, q).
Theorem C58_refuted : exists p d q,
  Scene.run (x <- two_views (txt "[1]") ;; let '(B, e, f) := x in n <- z_ValueGetNum B e ;; z <- lit (txt "ab") ;; b <- z_ValueSetStr (snd n) f z ;;
       r <- z_ValueGetUnEscapeString (snd b) e ;; ret (fst n, fst r)) = Ok (Some (p, Some d), Some (At p)) /\
  Scene.run (x <- two_views (txt "[""ab""]") ;; let '(B, e, f) := x in r <- z_ValueGetUnEscapeString B e ;; z <- lit (txt "1") ;; b <- z_ValueSetNumStr (snd r) f z ;;
       n <- z_ValueGetNum (snd b) e ;; ret (fst r, fst n)) = Ok (Some (At q), Some (q, None)).
Proof. do 3 eexists. split; vm_compute; reflexivity. Qed.
Print Assumptions C58_refuted.
(** What holds: nothing else can happen.  If something is remembered it is answered, be it
    text or number; otherwise the text is decoded, and remembered.  (And never where each
    node has one value object, C57.) *)
Theorem C58_unEscape_partial : forall (VV : vols) s F v a A B, inv s F -> on s F v a A -> forall f b d, F a = Some f -> fvalue f = VStr b -> decodes b d ->
  room s A (lenN b + 1) -> answers s F B (z_ValueGetUnEscapeString B v) (alt_word (cAlt (B v))) d (fun p => put_alt B v (AText p)).
Proof. exact @bgetUnEscape. Qed.
Print Assumptions C58_unEscape_partial.
Theorem C58_num_partial : forall (VV : vols) s F v a A B, inv s F -> on s F v a A -> forall f b p, F a = Some f -> fvalue f = VNum b -> alt_word (cAlt (B v)) = At p ->
  z_ValueGetNum B v s = Ok ((Some (p, match cAlt (B v) with ANum _ d => Some d | _ => None end), B), s).
Proof. exact @bgetNum_again. Qed.
Print Assumptions C58_num_partial.

(** ** C59 Assigning to a member keeps its key

    Refuted: the member takes over the key of the source, if that has one. *)
Theorem C59_refuted :
  let prog (set : bmem -> addr -> addr -> M (bool * bmem)) :=
    A <- zj_NewAllocator ;; vb <- z_ValueNew bstart A ;; x <- bparse_lit (snd vb) (fst vb) (txt "{""a"":1,""b"":2}") ;;
    e <- z_ValueBegin (snd x) (fst vb) ;; p <- deref (wopt (fst e)) ;; f <- z_ValueNext (snd e) p ;; q <- deref (wopt (fst f)) ;;
    r <- set (snd f) p q ;; t <- show (fst vb) ;; ret (fst r, t) in
  Scene.run (prog (z_ValueSet 10)) = Ok (true, txt "{""b"":2,""b"":2}") /\
  Scene.run (prog (z_ValueSetFast 10)) = Ok (true, txt "{""b"":2}").
Proof. cbv zeta. split; vm_compute; reflexivity. Qed.
Print Assumptions C59_refuted.
(** What holds: the value becomes the one of the source; the key becomes the one of the source
    if both have one, and stays otherwise; no other key changes. *)
Theorem C59_set_partial : forall (VV : vols) s F v a A vv b C j ka kb B, inv s F -> on s F v a A -> on s F vv b C -> key_at F a ka -> reads F b j -> key_at F b kb ->
  room s C (120 + icost (kb, j)) -> forall fuel, (Datatypes.S (jsteps j) <= fuel)%nat -> (length (items j) <= fuel)%nat ->
  exists s' F', z_ValueSet fuel B v vv s = Ok ((true, blank B v), s') /\ inv s' F' /\ on s' F' v a A /\ reads F' a j /\
    key_at F' a (taken_key ka kb) /\ (forall x k, x <> a -> key_at F x k -> key_at F' x k).
Proof. exact @bset. Qed.
Print Assumptions C59_set_partial.
Theorem C59_setFast_partial : forall (VV : vols) s F v a A vv b C j ka kb B, inv s F -> on s F v a A -> on s F vv b C -> key_at F a ka -> reads F b j -> key_at F b kb ->
  movable F b -> ~ below F b a -> forall fuel, (length (items j) <= fuel)%nat ->
  exists s' F', z_ValueSetFast fuel B v vv s = Ok ((true, blank (blank B v) vv), s') /\ inv s' F' /\ on s' F' v a A /\ empty s' F' vv C /\ reads F' a j /\
    key_at F' a (taken_key ka kb) /\ (forall x k, x <> a -> x <> b -> key_at F x k -> key_at F' x k).
Proof. exact @bsetFast. Qed.
Print Assumptions C59_setFast_partial.
Example C59_case : exists s F v a A vv b, inv s F /\ on s F v a A /\ on s F vv b A /\ key_at F a (Some (txt "a")) /\ key_at F b (Some (txt "b")) /\
  reads F b (JArr [JNum (txt "1")]) /\ room s A (120 + icost (Some (txt "b"), JArr [JNum (txt "1")])) /\ movable F b /\ ~ below F b a /\
  taken_key (Some (txt "a")) (Some (txt "b")) = Some (txt "b").
Proof.
  destruct keyed_scene as (s & F & v & a & A & vv & b & I & Ov & Ob & Ra & Rb & Ka & Kb & Pa & Pb & Nab & Rm).
  exists s, F, v, a, A, vv, b. split; auto. split; auto. split; auto. split; auto. split; auto. split; auto.
  split; [eapply N.le_trans; [|exact Rm]; apply N.add_le_mono_l; vm_compute; discriminate|]. split; [now left|]. split; [|reflexivity].
  intro K. destruct Pa as (f & Fa & Pf). apply Nab. symmetry. eapply root_below; eauto. apply I.
Qed.

(** ** C60 Numbers in and out of the beta header

    A finite double is stored with 17 digits and read back unchanged; then it is
    remembered.  An infinity or a NaN is refused, and nothing changes (zzzjson.h answers true and
    stores a text that is no JSON number, C31). *)
Theorem C60_finite : forall (VV : vols) s F v w A B d, inv s F -> handle s F v w A -> is_double d -> Double.finite d -> room s A 112 ->
  exists s1 F1 p s2, z_ValueSetNum B v d s = Ok ((true, blank B v), s1) /\ assigned s F v w (JNum (g17 d)) s1 F1 /\
    z_ValueGetNum (blank B v) v s1 = Ok ((Some (p, Some d), put_alt (blank B v) v (ANum p d)), s2) /\ untouched s1 F1 s2.
Proof. exact @bsetNum_back. Qed.
Print Assumptions C60_finite.
Theorem C60_infinite : forall (VV : vols) s F v w A B d, inv s F -> handle s F v w A -> is_double d -> ~ Double.finite d -> room s A 104 ->
  exists s', z_ValueSetNum B v d s = Ok ((false, B), s') /\ untouched s F s'.
Proof. exact @bsetNum_infinite. Qed.
Print Assumptions C60_infinite.
Example C60_case : exists s v A, inv s nodocs /\ handle s nodocs v Null A /\ is_double (DFin true 5404319552844596 (-54)) /\ Double.finite (DFin true 5404319552844596 (-54)) /\
  is_double (DInf true) /\ ~ Double.finite (DInf true) /\ room s A 112.
Proof.
  destruct (stays_scene [] []) as (s & A & v & p & I & E & _ & R); [now intros []|reflexivity..|]. exists s, v, A. split; auto. split; auto.
  split; [split; [split; [discriminate|reflexivity]|split; [split; discriminate|right; discriminate]]|].
  split; [exact Logic.I|]. split; [exact Logic.I|]. split; [now intros []|]. eapply N.le_trans; [|exact R]. apply N.add_le_mono_l. vm_compute. discriminate.
Qed.

(** ** C61 Programs over the beta header

    If a program runs on the reference of BetaHist.v, where a document is a tree and a value
    object the number of a node with the answers it remembers, then it runs on the code, gives the
    same answers and leaves the same documents. *)
Theorem C61_program : forall jd, correct jd -> forall cs xs R K, brrun jd cs (rstart, []) = Some (xs, (R, K)) ->
  forall fuel, (bmost jd cs (rstart, []) <= fuel)%nat -> exists E B s, brun fuel cs estart bstart init = Ok (((xs, E), B), s) /\ represents R E s.
Proof. exact bprogram_most. Qed.
Print Assumptions C61_program.
Example C61_case : option_map fst (brrun the_judge stale_calls (rstart, [])) =
  Some [Arena 0; Value (Some 0%nat); Bool true; Value (Some 1%nat); Value (Some 2%nat); Text (Some (txt "1")); Bool true; Text (Some (txt "1")); Text (Some (txt "[2]"))].
Proof. vm_compute. reflexivity. Qed.
