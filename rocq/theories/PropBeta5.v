(** Property C69: the pointers the beta header gives stay good. *)
From Verif Require Import Base Spec Mem Api Double Vocab Scene Hist HistRun HistSim HistStep HistAll HistJudge Dom Beta BetaHist BetaSim BetaClient.

(** ** C69 Texts got from the beta header can be kept and passed on

    A program over the beta header keeps every text pointer the getters and z_ValueStringify
    gave it, decides by the answers what to do next, and at any later time reads such a text
    or passes the pointer to a setter, also one that stores it as it is, to a search, to a
    deletion or to be parsed, also in place (BetaClient.v).
    If it runs on the reference, where a pointer is simply the text it was got for, it runs
    on the code with the same result and leaves the same documents: the text is still there
    and still the same, though the value it was got from may have been set, moved or taken
    out since, and its caches cleared. *)
Theorem C69_client : forall jd, correct jd -> forall X (p : zprog X) x R K T, zrplay jd p ((rstart, []), []) = Some (x, ((R, K), T)) ->
  forall fuel, (zpmost jd p ((rstart, []), []) <= fuel)%nat ->
  exists E B P s, zmplay fuel p ((estart, bstart), []) init = Ok ((x, ((E, B), P)), s) /\ represents R E s.
Proof. exact zclient. Qed.
Print Assumptions C69_client.
(** In particular: any calls [cs1], a getter, any calls [cs2].  What the getter's pointer
    points to afterwards is what the getter gave. *)
Theorem C69_kept : forall jd, correct jd -> forall cs1 g h cs2 rs RK x,
  brrun jd (cs1 ++ gcall g h :: cs2) (rstart, []) = Some (rs, RK) -> nth_error rs (length cs1) = Some x ->
  forall fuel, (bmost jd (cs1 ++ gcall g h :: cs2) (rstart, []) <= fuel)%nat ->
  exists Z s, zmplay fuel (keep_prog cs1 g h cs2) ((estart, bstart), []) init = Ok (((x, x), Z), s).
Proof. exact zkept. Qed.
Print Assumptions C69_kept.
(** The same for the text z_ValueStringify gives. *)
Theorem C69_printed : forall jd, correct jd -> forall cs1 h cs2 rs RK x,
  brrun jd (cs1 ++ CStringify h :: cs2) (rstart, []) = Some (rs, RK) -> nth_error rs (length cs1) = Some x ->
  forall fuel, (bmost jd (cs1 ++ CStringify h :: cs2) (rstart, []) <= fuel)%nat ->
  exists Z s, zmplay fuel (print_prog cs1 h cs2) ((estart, bstart), []) init = Ok (((x, x), Z), s).
Proof. exact zprinted. Qed.
Print Assumptions C69_printed.

(** The key and the text of the first member are kept, the member is set to true; a new value
    gets the text and the key, without copies, and then the member the key names is
    looked for.  It is set to null, and the kept text is read.  Only objects are treated so. *)
Definition keeper (t : bytes) : zprog (list answer) :=
  ZAct (ZApi CNewAllocator) (fun _ => ZAct (ZApi (CNewValue 0)) (fun _ => ZAct (ZApi (CParse PCopy 0 t [])) (fun _ =>
  ZAct (ZApi (CGetType 0)) (fun ty => match ty with
  | Type_ (Some TObject) =>
      ZAct (ZApi (CBegin 0)) (fun _ => ZAct (ZTake GKey 1) (fun _ => ZAct (ZTake GUnStr 1) (fun _ => ZAct (ZTake GViewStr 1) (fun _ =>
      ZAct (ZApi (CSetBool 1 true)) (fun _ => ZAct (ZApi (CNewValue 0)) (fun _ => ZAct (ZSetText false true 2 2) (fun a1 => ZAct (ZSetKey true 2 0) (fun a2 =>
      ZAct (ZObjGet 0 0) (fun a3 => ZAct (ZApi (CSetNull 3)) (fun _ => ZAct (ZLook 1) (fun a4 => ZAct (ZLook 2) (fun a5 => ZAct (ZSetText false false 3 2) (fun a6 =>
      ZAct (ZApi (CStringify 0)) (fun a7 => ZAct (ZApi (CStringify 2)) (fun a8 => ZAct (ZApi (CGetKey false 2)) (fun a9 => ZRet [a1; a2; a3; a4; a5; a6; a7; a8; a9]))))))))))))))))
  | _ => ZRet []
  end)))).
Definition keeper_text : bytes := txt "{""k"":""a\n""}".
Definition keeper_answers : list answer :=
  [Bool true; Bool true; Value (Some 3%nat); Text (Some [97; 10]); Text (Some (txt "a\n")); Bool true; Text (Some (txt "{""k"":""a\n""}")); Text (Some (txt """a\n""")); Text (Some (txt "k"))].
Example C69_case : option_map fst (zrplay the_judge (keeper keeper_text) ((rstart, []), [])) = Some keeper_answers.
Proof. vm_compute. reflexivity. Qed.
Example C69_run : exists Z s, zmplay (zpmost the_judge (keeper keeper_text) ((rstart, []), [])) (keeper keeper_text) ((estart, bstart), []) init = Ok ((keeper_answers, Z), s).
Proof.
  pose proof C69_case as H. destruct (zrplay the_judge (keeper keeper_text) ((rstart, []), [])) as [[x [[R K] T]]|] eqn:E; [|discriminate]. injection H as ->.
  destruct (C69_client the_judge judge_correct _ _ _ _ _ _ E _ (le_n _)) as (E' & B & P & s & Q & _). eauto.
Qed.
(** The pointer to the text of a string whose value is set to a number, printed and copied. *)
Definition kept_before : list call := [CNewAllocator; CNewValue 0; CParse PCopy 0 (txt "[""ab""]") []; CBegin 0].
Definition kept_after : list call := [CSetText true KCopy 1 (txt "7"); CGetText true false 1; CStringify 0; CCopy 0; CSetNull 0].
Example C69_kept_case : match brrun the_judge (kept_before ++ gcall GStr 1 :: kept_after) (rstart, []) with
  | Some (rs, _) => nth_error rs 4 = Some (Text (Some (txt "ab"))) /\ nth_error rs 7 = Some (Text (Some (txt "[7]")))
  | None => False end.
Proof. vm_compute. auto. Qed.
(** A value is printed and the text parsed in place by a second value; then the key got from
    the first is used to delete the member there. *)
Definition again (t : bytes) : zprog (list answer) :=
  ZAct (ZApi CNewAllocator) (fun _ => ZAct (ZApi (CNewValue 0)) (fun _ => ZAct (ZApi (CParse PCopy 0 t [])) (fun _ => ZAct (ZApi (CBegin 0)) (fun _ =>
  ZAct (ZTake GKey 1) (fun _ => ZAct (ZPrint 0) (fun _ => ZAct (ZApi (CSetNull 0)) (fun _ => ZAct (ZApi (CNewValue 0)) (fun _ =>
  ZAct (ZParse true 2 1) (fun a1 => ZAct (ZApi (CStringify 2)) (fun a2 => ZAct (ZObjDel 2 0) (fun a3 => ZAct (ZApi (CStringify 2)) (fun a4 => ZAct (ZLook 1) (fun a5 =>
  ZRet [a1; a2; a3; a4; a5]))))))))))))).
Definition again_answers : list answer :=
  [Bool true; Text (Some (txt "{""k"":1}")); Bool true; Text (Some (txt "{}")); Text (Some (txt "{""k"":1}"))].
Example C69_again_case : option_map fst (zrplay the_judge (again (txt "{""k"":1}")) ((rstart, []), [])) = Some again_answers.
Proof. vm_compute. reflexivity. Qed.
Example C69_printed_case : match brrun the_judge (kept_before ++ CStringify 0 :: kept_after) (rstart, []) with
  | Some (rs, _) => nth_error rs 4 = Some (Text (Some (txt "[""ab""]"))) /\ nth_error rs 7 = Some (Text (Some (txt "[7]")))
  | None => False end.
Proof. vm_compute. auto. Qed.
