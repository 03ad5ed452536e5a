(** Properties C06, C38: printing. *)
From Verif Require Import Base Spec Lex Alloc Mem MemProofs Api PureParse SpecProofs Dom Effect ParseTop StringifyProofs
  Vocab ParseFacts PrintFacts BuildFacts Start Scene.

(** ** C06 Stringify output is valid JSON and parses back to the same value *)
Theorem C06_stringify_valid : forall (VV : vols) s F v a A j,
  inv s F -> on s F v a A -> reads F a j -> json_ok j -> room s A (print_cost (lenN (print j))) ->
  exists n, forall fuel, (n <= fuel)%nat -> exists p s', zj_Stringify fuel v s = Ok (p, s') /\ untouched s F s' /\
    string_at s' p (print j) /\ json_text (print j) j.
Proof. exact @stringify_valid. Qed.
Print Assumptions C06_stringify_valid.
(** Parsing the printed text, into any value of any allocator. *)
Theorem C06_stringify_reparse : forall (VV : vols) s F v a A j u w B,
  inv s F -> on s F v a A -> reads F a j -> json_ok j -> handle s F u w B ->
  room s A (print_cost (lenN (print j)) + len_cost (lenN (print j))) ->
  room s B (print_cost (lenN (print j)) + len_cost (lenN (print j))) ->
  exists n, forall fuel, (n <= fuel)%nat -> exists p d s1 s2 F2, zj_Stringify fuel v s = Ok (p, s1) /\ p = At d /\
    zj_Parse u d s1 = Ok (true, s2) /\ assigned s1 F u w j s2 F2.
Proof. exact @stringify_reparse. Qed.
Print Assumptions C06_stringify_reparse.

Definition text3 : bytes := txt "{""k"":[1,{""m"":""\n""},[]],""n"":[[null]]}".
Definition json3 : json := JObj [(txt "k", JArr [JNum (txt "1"); JObj [(txt "m", JStr (txt "\n"))]; JArr []]);
                                 (txt "n", JArr [JArr [JNull]])].
Example text3_valid : json_text text3 json3.
Proof. apply valid_by; [apply has0_no|]; vm_compute; reflexivity. Qed.
Example C06_case : exists s F v a A u b, inv s F /\ on s F v a A /\ reads F a json3 /\ json_ok json3 /\ on s F u b A /\ u <> v /\
  room s A (print_cost (lenN (print json3)) + len_cost (lenN (print json3))).
Proof.
  destruct (docs text3 json3 (txt "7") (JNum (txt "7")) []) as (s & F & A & v & a & fa & u & b & fb & p & I & Hv & R1 & Hu & _ & Nuv & _ & _ & _ & _ & _ & _ & _ & _ & _ & _ & Rm);
    try (apply has0_no; reflexivity); try apply text3_valid; try reflexivity.
  - apply valid_by; [apply has0_no; reflexivity|vm_compute; reflexivity].
  - exists s, F, v, a, A, u, b. split; auto. split; auto. split; auto. split; [eapply json_text_ok, text3_valid|]. split; auto. split; auto.
    unfold room in *. eapply N.le_trans; [|exact Rm]. apply N.add_le_mono_l. vm_compute. discriminate.
Qed.
Example C06_run : run (A <- zj_NewAllocator ;; v <- zj_NewValue A ;; u <- zj_NewValue A ;; _ <- parse_lit v text3 ;;
  w <- zj_Stringify 100 v ;; d <- deref w ;; ok <- zj_Parse u d ;; t <- show u ;; ret (ok, t)) = Ok (true, text3).
Proof. vm_compute. reflexivity. Qed.

(** ** C38 String building is concatenation *)
Theorem C38_build : forall (VV : vols) s F A n l, inv s F -> alive s A -> 0 < n -> room s A (24 + n + 4 * lenN (appended l)) ->
  exists d s', build A n l s = Ok (d, s') /\ holds s' d (appended l) /\ untouched s F s'.
Proof. exact @build_exact. Qed.
Print Assumptions C38_build.
Definition ops1 : list append_op := [AStr (txt "ab"); AChar 99; AStr []; AStr (txt "defghijklm"); AChar 110].
Example C38_case : exists s F A, inv s F /\ alive s A /\ room s A (24 + 3 + 4 * lenN (appended ops1)).
Proof.
  destruct (text_scene (txt "")) as (s & A & v & p & I & (_ & [Al _] & _) & _ & _ & R); [apply has0_no; reflexivity|reflexivity|].
  exists s, nodocs, A. split; auto. split; auto. unfold room in *. eapply N.le_trans; [|exact R]. apply N.add_le_mono_l. vm_compute. discriminate.
Qed.
(** Starting with 3 bytes: three reallocations. *)
Example C38_run : run (A <- zj_NewAllocator ;; d <- build A 3 ops1 ;; t <- load d 14 ;; ret t) = Ok (txt "abcdefghijklmn").
Proof. vm_compute. reflexivity. Qed.
