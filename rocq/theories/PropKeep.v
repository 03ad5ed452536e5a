(** Property C70: the pointers zzzjson.h gives stay good. *)
From Verif Require Import Base Spec Mem Api Double Vocab Scene Hist HistRun HistSim HistStep HistAll HistJudge Dom BetaClient Keep.

(** ** C70 Texts got from zzzjson.h can be kept and passed on

    A program keeps every text pointer it was given, by the getters and by zj_Stringify,
    decides by the answers what to do next, and at any later time reads such a text or passes
    the pointer to any call that takes a text: to be parsed, in place or copied, as a text or
    a key to set, escaped, copied or stored as it is, as the key to look for or to delete
    (Keep.v).
    If it runs on the reference, where a pointer is simply the text it was got for, it runs
    on the code with the same result and leaves the same documents: the text is still there
    and still the same, whatever was called since. *)
Theorem C70_client : forall jd, correct jd -> forall X (p : pprog X) x R T, prplay jd p (rstart, []) = Some (x, (R, T)) ->
  forall fuel, (ppmost jd p (rstart, []) <= fuel)%nat ->
  exists E P s, pmplay fuel p (estart, []) init = Ok ((x, (E, P)), s) /\ represents R E s.
Proof. exact pclient. Qed.
Print Assumptions C70_client.
(** In particular: any calls [cs1], a call that gives a text, any calls [cs2].  What the
    pointer points to afterwards is what the call gave. *)
Theorem C70_kept : forall jd, correct jd -> forall cs1 g h cs2 rs R x,
  rrun jd (cs1 ++ pcall g h :: cs2) rstart = Some (rs, R) -> nth_error rs (length cs1) = Some x ->
  forall fuel, (most jd (cs1 ++ pcall g h :: cs2) rstart <= fuel)%nat ->
  exists Z s, pmplay fuel (pkeep cs1 g h cs2) (estart, []) init = Ok (((x, x), Z), s).
Proof. exact pkept. Qed.
Print Assumptions C70_kept.

(** The printed text, the key, the text of the first member, unescaped and as it is, are
    kept.  The member the key names is deleted.  The printed text is parsed in place by a new
    value, and the member looked for there; another value gets the unescaped text, escaped
    again, and the key.  Then the printed text is read.  Only objects are treated so. *)
Definition saver (t : bytes) : pprog (list answer) :=
  PAct (PApi CNewAllocator) (fun _ => PAct (PApi (CNewValue 0)) (fun _ => PAct (PApi (CParse PCopy 0 t [])) (fun _ =>
  PAct (PApi (CGetType 0)) (fun ty => match ty with
  | Type_ (Some TObject) =>
      PAct (PTake PPrint 0) (fun _ => PAct (PApi (CBegin 0)) (fun _ =>
      PAct (PTake PKey 1) (fun _ => PAct (PTake PUnEscape 1) (fun _ => PAct (PTake (PViewText false) 1) (fun _ =>
      PAct (PGive TDelete 0 1) (fun a1 => PAct (PApi (CNewValue 0)) (fun _ => PAct (PGive (TParse true) 2 0) (fun a2 => PAct (PGive TFind 2 1) (fun a3 =>
      PAct (PApi (CNewValue 0)) (fun _ => PAct (PGive TEscape 4 2) (fun a4 => PAct (PGive TKeyEscape 4 3) (fun a5 => PAct (PGive (TKey true) 4 1) (fun a6 =>
      PAct (PLook 0) (fun a7 => PAct (PApi (CStringify 0)) (fun a8 => PAct (PApi (CStringify 4)) (fun a9 => PAct (PApi (CGetKey false 4)) (fun a10 =>
      PAct (PApi (CGetText false false 3)) (fun a11 => PRet [a1; a2; a3; a4; a5; a6; a7; a8; a9; a10; a11]))))))))))))))))))
  | _ => PRet []
  end)))).
Definition saver_text : bytes := txt "{""k"":""a\n""}".
Definition saver_answers : list answer :=
  [Bool true; Bool true; Value (Some 3%nat); Bool true; Bool true; Bool true; Text (Some saver_text); Text (Some (txt "{}")); Text (Some (txt """a\n""")); Text (Some (txt "k")); Text (Some (txt "a\n"))].
Example C70_case : option_map fst (prplay the_judge (saver saver_text) (rstart, [])) = Some saver_answers.
Proof. vm_compute. reflexivity. Qed.
Example C70_run : exists Z s, pmplay (ppmost the_judge (saver saver_text) (rstart, [])) (saver saver_text) (estart, []) init = Ok ((saver_answers, Z), s).
Proof.
  pose proof C70_case as H. destruct (prplay the_judge (saver saver_text) (rstart, [])) as [[x [R T]]|] eqn:E; [|discriminate]. injection H as ->.
  destruct (C70_client the_judge judge_correct _ _ _ _ _ E _ (le_n _)) as (E' & P & s & Q & _). eauto.
Qed.
(** The printed text of a document that is changed, printed again and copied. *)
Definition saved_before : list call := [CNewAllocator; CNewValue 0; CParse PCopy 0 (txt "[""ab""]") []; CBegin 0].
Definition saved_after : list call := [CSetText true KLen 1 (txt "7"); CGetText true false 1; CStringify 0; CCopy 0; CSetNull 0].
Example C70_kept_case : match rrun the_judge (saved_before ++ pcall PPrint 0 :: saved_after) rstart with
  | Some (rs, _) => nth_error rs 4 = Some (Text (Some (txt "[""ab""]"))) /\ nth_error rs 7 = Some (Text (Some (txt "[7]")))
  | None => False end.
Proof. vm_compute. auto. Qed.
