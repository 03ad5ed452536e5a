(** Properties C35, C29, C06 and C19: whole programs. *)
From Verif Require Import Double Base Spec Mem Dom AllocProofs PrintFacts CopyProofs Scene Hist HistRun HistSim HistStep HistAll HistJudge HistMany HistWorld HistTree HistDocs HistCover HistCoverMany.
From Verif Require OverRead.

(** ** C35 Every program does what the reference semantics says

    [rrun jd cs rstart = Some (rs, R)]: on the forest of documents of Hist.v, which knows
    no memory, the calls [cs] answer [rs] and leave the forest [R].  Then the model of the
    code, started with nothing allocated, runs the same calls without undefined behaviour,
    gives the same answers, and its memory represents [R].  [f0] only excludes that the
    model runs out of fuel; [jd] is any correct procedure deciding which texts are JSON,
    numbers, string bodies.

    Partial: the reference makes no promise ([rrun] is [None]) for programs that use a
    link which zj_Move or zj_Set damaged (see the refutation), that hang a container below
    itself, whose Fast arguments overlap, that hand to a parser a text on which it
    reads past the end (exactly those, C03_parse_exactly), that ask for a number longer than 128 bytes or outside the type
    of the getter, that read with zj_GetLong, zj_GetLongLong or zj_GetDouble a number which
    zj_SetNumStr, zj_SetNumStrLen or a copy wrote (nothing behind it ends it, C31 and the
    refutation), or that ask an allocator for more than 2^30 bytes in all.  Releases come
    with C29 below. *)
Theorem C35_program_partial : forall jd cs rs R, correct jd -> rrun jd cs rstart = Some (rs, R) ->
  exists f0, forall fuel, (f0 <= fuel)%nat ->
  exists E s, crun fuel cs estart init = Ok ((rs, E), s) /\ represents R E s.
Proof. exact program. Qed.
Print Assumptions C35_program_partial.

(** There is a correct judge, which runs. *)
Theorem C35_judge : correct the_judge.
Proof. exact judge_correct. Qed.
Print Assumptions C35_judge.

(** ** What a caller has to see to

    [contract c R] (HistCover.v) says of each call what has to hold when it is made: the
    value objects exist, texts are terminated and numbers in range, the allocator has
    room, a number that is converted in place is one that something ends, a value that is taken out of its container or appended to one is not behind
    damage of zj_Move or zj_Set, and nothing is hung below itself.  A program whose calls
    all meet this has a reference run, and the model of the code answers like it.  Nothing
    else can go wrong: that documents stay finite trees of well-formed texts is proved,
    not required.

    Partial: as above. *)
Theorem C35_contract_partial : forall jd cs, correct jd -> respects jd cs ->
  exists rs R, rrun jd cs rstart = Some (rs, R) /\
  exists f0, forall fuel, (f0 <= fuel)%nat ->
  exists E s, crun fuel cs estart init = Ok ((rs, E), s) /\ represents R E s.
Proof. exact respects_ok. Qed.
Print Assumptions C35_contract_partial.
(** A value is built and hung into a parsed document: every call meets its contract. *)
Definition polite : list call :=
  [CNewAllocator; CNewValue 0; CParse PCopy 0 (txt "[1,2]") []; CNewValue 0; CSetInt 1 7%Z; CAdd false true 0 1; CStringify 0].
Definition seen (R : rst) := (look R 0, look R 1, ru R, reads_as R 0).
Definition at_call (k : nat) := option_map (fun x => seen (snd x)) (rrun the_judge (firstn k polite) rstart).
Definition leaf (v : nval) : tnode := mkT None v None true true true.
Remark seen_at : map at_call (seq 0 7) =
  [Some (None, None, [], None); Some (None, None, [0], None); Some (Some (None, 0%nat), None, [16], None);
   Some (Some (Some (0, leaf (NCont false [1; 2])), 0%nat), None, [526], Some (JArr [JNum [49]; JNum [50]]));
   Some (Some (Some (0, leaf (NCont false [1; 2])), 0%nat), Some (None, 0%nat), [542], Some (JArr [JNum [49]; JNum [50]]));
   Some (Some (Some (0, leaf (NCont false [1; 2])), 0%nat), Some (Some (3, leaf (NNum [55])), 0%nat), [630], Some (JArr [JNum [49]; JNum [50]]));
   Some (Some (Some (0, leaf (NCont false [1; 2; 3])), 0%nat), Some (None, 0%nat), [630], Some (JArr [JNum [49]; JNum [50]; JNum [55]]))].
Proof. vm_compute. reflexivity. Qed.
Remark see k l : nth_error (map at_call (seq 0 7)) k = Some (Some l) -> at_call k = Some l.
Proof.
  intro H. assert (L : (k < length (map at_call (seq 0 7)))%nat) by (apply nth_error_Some; congruence). rewrite map_length, seq_length in L.
  rewrite (map_nth_error at_call k (seq 0 7) (d := k)) in H; [now injection H|].
  rewrite (nth_error_nth' _ 0%nat) by now rewrite seq_length. now rewrite seq_nth.
Qed.
Remark see_all k : match nth_error (map at_call (seq 0 7)) k with Some (Some l) => forall rs R, rrun the_judge (firstn k polite) rstart = Some (rs, R) -> seen R = l | _ => True end.
Proof.
  destruct (nth_error (map at_call (seq 0 7)) k) as [[l|]|] eqn:E; auto. apply see in E. intros rs R H. unfold at_call in E. rewrite H in E. cbn [option_map snd] in E. now injection E.
Qed.
Remark polite_json : json_text (txt "[1,2]") (JArr [JNum [49]; JNum [50]]).
Proof. apply (jd_json _ judge_correct); [cbn; intuition discriminate|vm_compute; reflexivity]. Qed.
Remark roomy_at R us A u n : ru R = us -> nth_error us A = Some u -> (u + n <=? two30) = true -> roomy R A n.
Proof. intros <- H L. exists u. split; auto. now apply N.leb_le. Qed.
Example C35_contract_case : respects the_judge polite.
Proof.
  intros k c rs R En E. pose proof (see_all k) as K. rewrite seen_at in K.
  destruct k as [|[|[|[|[|[|[|k]]]]]]]; [..|destruct k; discriminate]; cbn [nth_error] in K; specialize (K rs R E); clear E;
    cbn [nth_error polite] in En; injection En as <-; injection K as K1 K2 K3 K4; cbn [contract].
  - exact Logic.I.
  - eapply roomy_at; [exact K3|reflexivity|vm_compute; reflexivity].
  - exists None, 0%nat. split; [exact K1|]. split; [right; cbn; intuition discriminate|]. split; [vm_compute; reflexivity|]. split.
    + intro K. apply (OverRead.cut_invalid _ _ K); [apply has0_no; reflexivity|exists (JArr [JNum [49]; JNum [50]]); exact polite_json].
    + eapply roomy_at; [exact K3|reflexivity|vm_compute; reflexivity].
  - eapply roomy_at; [exact K3|reflexivity|vm_compute; reflexivity].
  - exists None, 0%nat. split; [exact K2|]. split; [split; vm_compute; discriminate|]. eapply roomy_at; [exact K3|reflexivity|vm_compute; reflexivity].
  - exists (Some (0, leaf (NCont false [1; 2]))), 0%nat. split; [exact K1|].
    exists (Some (3, leaf (NNum [55]))), 0%nat. split; [exact K2|]. split; [eapply roomy_at; [exact K3|reflexivity|vm_compute; reflexivity]|].
    intros a ta x tc [= <- <-] [= <- <-] _. assert (G3 : rG R 3 = Some (leaf (NNum [55]))).
    { clear -K2. unfold look in K2. destruct (nth_error (rh R) 1) as [[[i|] A]|]; try discriminate. destruct (rG R i) eqn:G; [|discriminate]. now injection K2 as -> -> _. }
    split; [|split].
    + intros t p H. rewrite G3 in H. injection H as <-. discriminate.
    + split; [discriminate|]. intro H. destruct (sb_first _ _ _ H) as (v & d & Ev & Hd & _). rewrite (nv_some _ _ _ G3) in Ev. now injection Ev as <-.
    + unfold extensible_without, extensible. cbn [leaf tvalue nkids tend]. split; [intros _; split; [now right|vm_compute; reflexivity]|].
      intros l r H. exfalso. assert (Hin : In 3 [1; 2]) by (change [1; 2] with (nkids (tvalue (leaf (NCont false [1; 2])))); rewrite H; apply in_or_app; right; now left). cbn in Hin. intuition discriminate.
  - exists (Some (0, leaf (NCont false [1; 2; 3]))), 0%nat. split; [exact K1|]. intros i t j [= <- <-] [n Hc]. unfold reads_as in K4. pose proof (read_fun _ _ _ _ _ _ Hc K4) as ->.
    eapply roomy_at; [exact K3|reflexivity|vm_compute; reflexivity].
Qed.

(** ** The reference without the damage of zj_Move and zj_Set

    [heal] repairs after every call what these two leave behind, and ends every number;
    [irun] is what the documentation promises. *)
Definition heal (R : rst) : rst :=
  with_forest R (fun x => option_map (fun t => mkT (tkey t) (tvalue t) (tpar t) true true true) (rG R x)).
Fixpoint irun (jd : judge) (cs : list call) (R : rst) : option (list answer * rst) :=
  match cs with
  | [] => Some ([], R)
  | c :: r =>
      match rstep jd c R with
      | None => None
      | Some (x, R1) =>
          match irun jd r (heal R1) with
          | None => None
          | Some (xs, R2) => Some (x :: xs, R2)
          end
      end
  end.

(** Moving the second element of an array away, then the one that was behind it. *)
Definition two_moves : list call :=
  [CNewAllocator; CNewValue 0; CParse PCopy 0 (txt "[1,2,3,4]") [];
   CArrayGet 0 1; CArrayGet 0 2; CMove 1; CMove 2; CStringify 0].
(** Appending after the last element was moved away. *)
Definition move_add : list call :=
  [CNewAllocator; CNewValue 0; CParse PCopy 0 (txt "[1,2]") [];
   CArrayGet 0 1; CMove 1; CNewValue 0; CSetInt 2 7%Z; CAdd false false 0 2; CStringify 0].
(** Appending to a container whose value came from zj_Set. *)
Definition set_add : list call :=
  [CNewAllocator; CNewValue 0; CParse PCopy 0 (txt "{}") []; CNewValue 0; CParse PCopy 1 (txt "[1,2]") [];
   CSet false 0 1; CNewValue 0; CSetInt 2 7%Z; CAdd false false 0 2; CStringify 0].

(** Reading the first of two numbers written one after the other. *)
Definition set_get : list call :=
  [CNewAllocator; CNewValue 0; CParse PCopy 0 (txt "[1,2,null]") []; CArrayGet 0 0; CArrayGet 0 1; CArrayGet 0 2;
   CSetText true KCopy 1 (txt "12"); CSetText true KCopy 2 (txt "34"); CSetText false KCopy 3 (txt "x"); CGetLong 1].

(** Full C35 fails: the model answers otherwise, or runs into undefined behaviour. *)
Theorem C35_refuted_moves : exists cs rs R, irun the_judge cs rstart = Some (rs, R) /\
  exists fuel rs' E s, crun fuel cs estart init = Ok ((rs', E), s) /\ rs' <> rs.
Proof.
  exists two_moves. destruct (irun the_judge two_moves rstart) as [[rs R]|] eqn:E; [|vm_compute in E; discriminate].
  exists rs, R. split; auto. exists 100%nat.
  assert (Ers : option_map fst (irun the_judge two_moves rstart) = Some rs) by now rewrite E.
  destruct (crun 100 two_moves estart init) as [[[rs' E'] s]|e] eqn:C; [|vm_compute in C; discriminate].
  exists rs', E', s. split; auto.
  assert (Crs : match crun 100 two_moves estart init with Ok ((x, _), _) => Some x | Err _ => None end = Some rs') by now rewrite C.
  clear E C. vm_compute in Ers, Crs. injection Ers as <-. injection Crs as <-. discriminate.
Qed.
Print Assumptions C35_refuted_moves.
Theorem C35_refuted_set : exists cs rs R, irun the_judge cs rstart = Some (rs, R) /\
  exists fuel rs' E s, crun fuel cs estart init = Ok ((rs', E), s) /\ rs' <> rs.
Proof.
  exists set_add. destruct (irun the_judge set_add rstart) as [[rs R]|] eqn:E; [|vm_compute in E; discriminate].
  exists rs, R. split; auto. exists 100%nat.
  assert (Ers : option_map fst (irun the_judge set_add rstart) = Some rs) by now rewrite E.
  destruct (crun 100 set_add estart init) as [[[rs' E'] s]|e] eqn:C; [|vm_compute in C; discriminate].
  exists rs', E', s. split; auto.
  assert (Crs : match crun 100 set_add estart init with Ok ((x, _), _) => Some x | Err _ => None end = Some rs') by now rewrite C.
  clear E C. vm_compute in Ers, Crs. injection Ers as <-. injection Crs as <-. discriminate.
Qed.
Print Assumptions C35_refuted_set.
Theorem C35_refuted_add : exists cs rs R, irun the_judge cs rstart = Some (rs, R) /\
  exists fuel, crun fuel cs estart init = Err EDeref.
Proof.
  exists move_add. destruct (irun the_judge move_add rstart) as [[rs R]|] eqn:E; [|vm_compute in E; discriminate].
  exists rs, R. split; auto. exists 100%nat. vm_compute. reflexivity.
Qed.
Print Assumptions C35_refuted_add.

Theorem C35_refuted_numbers : exists cs rs R, irun the_judge cs rstart = Some (rs, R) /\
  exists fuel rs' E s, crun fuel cs estart init = Ok ((rs', E), s) /\ rs' <> rs.
Proof.
  exists set_get. destruct (irun the_judge set_get rstart) as [[rs R]|] eqn:E; [|vm_compute in E; discriminate].
  exists rs, R. split; auto. exists 100%nat.
  assert (Ers : option_map fst (irun the_judge set_get rstart) = Some rs) by now rewrite E.
  destruct (crun 100 set_get estart init) as [[[rs' E'] s]|e] eqn:C; [|vm_compute in C; discriminate].
  exists rs', E', s. split; auto.
  assert (Crs : match crun 100 set_get estart init with Ok ((x, _), _) => Some x | Err _ => None end = Some rs') by now rewrite C.
  clear E C. vm_compute in Ers, Crs. injection Ers as <-. injection Crs as <-. discriminate.
Qed.
Print Assumptions C35_refuted_numbers.

(** ** A program that the theorem covers *)
Definition sample : list call :=
  [CNewAllocator; CNewAllocator; CNewValue 0; CParse PCopy 0 (txt "[1,{""a"":null}, ""x\\n"" ]") [];
   CNewValue 1; CSetInt 1 (-42)%Z; CAdd false false 0 1; CStringify 0;
   CBegin 0; CMove 2; CGetInt 2; CSetKey KLen 2 (txt "k");
   CArrayGet 0 0; CObjGet true 3 (txt "a"); CSetText false KLen 4 (txt "new"); CAdd true true 3 2; CStringify 0;
   CParse PFast 1 (txt "[") [0; 0; 0; 0]; CSet true 0 1; CStringify 0; CSize 3; CObjDel 3 (txt "a"); CStringify 3].
Example C35_case : option_map fst (rrun the_judge sample rstart) = Some
  [Arena 0; Arena 1; Value (Some 0%nat); Bool true; Value (Some 1%nat); Bool true; Bool true;
   Text (Some (txt "[1,{""a"":null},""x\\n"",-42]"));
   Value (Some 2%nat); Bool true; Int (Some 1%Z); Bool true;
   Value (Some 3%nat); Value (Some 4%nat); Bool true; Bool true;
   Text (Some (txt "[{""a"":""new"",""k"":1},""x\\n"",-42]"));
   Bool false; Bool true; Text (Some (txt "-42")); Num 2; Bool true; Text (Some (txt "{""k"":1}"))].
Proof. vm_compute. reflexivity. Qed.

(** Numbers of all kinds, read in place: parsed ones, moved ones, ones the program set. *)
Definition numbers : list call :=
  [CNewAllocator; CNewValue 0; CParse PCopy 0 (txt "[-9223372036854775808, 2.5e1,{""k"":0.1}]") [];
   CArrayGet 0 0; CGetLong 1; CArrayGet 0 1; CGetDouble 2; CGetDouble 0;
   CArrayGet 0 2; CObjGet false 3 (txt "k"); CAdd false true 0 4; CArrayGet 0 3; CGetDouble 5;
   CSetLongLong 5 9223372036854775807%Z; CGetLongLong 5; CGetDouble 5; CSetText true KFast 1 (txt "-0"); CGetDouble 1; CGetLong 1].
Example C35_numbers_case : option_map fst (rrun the_judge numbers rstart) = Some
  [Arena 0; Value (Some 0%nat); Bool true;
   Value (Some 1%nat); Int (Some (-9223372036854775808)%Z); Value (Some 2%nat); Real (Some (DFin false 7036874417766400 (-48))); Real None;
   Value (Some 3%nat); Value (Some 4%nat); Bool true; Value (Some 5%nat); Real (Some (DFin false 7205759403792794 (-56)));
   Bool true; Int (Some 9223372036854775807%Z); Real (Some (DFin false 4503599627370496 11)); Bool true; Real (Some (DFin true 0 (-1074))); Int (Some 0%Z)].
Proof. vm_compute. reflexivity. Qed.

(** ** C29 Programs over several groups of allocators, with releases

    [es] is a list of calls, each made by a group [g] on the allocators and value objects
    of that group, and of releases of all allocators of a group (HistMany.v).  The
    reference [wrun] keeps one forest per group; a release empties that group's and
    touches no other.  The model of the code does the same, whatever is released when.

    Partial: after the release of a group in which the scratch string of the length
    setters may be, the reference makes no promise for these setters (C29_refuted), and
    the allocators that are used together in one call must be released together (adding
    a value of another allocator stores the copy there). *)
Theorem C29_programs_partial : forall jd es rs W, correct jd -> wrun jd es wstart = Some (rs, W) ->
  exists f0, forall fuel, (f0 <= fuel)%nat ->
  exists Es s, erun fuel es wenv0 init = Ok ((rs, Es), s) /\ forall g, represents (wr W g) (Es g) s.
Proof. exact many. Qed.
Print Assumptions C29_programs_partial.

(** What the calls of a group that is not released answer does not depend on the other
    groups and their releases: leaving all of these out gives the same answers. *)
Theorem C29_alone_partial : forall jd es rs W g, correct jd -> wrun jd es wstart = Some (rs, W) -> ~ In (Release g) es ->
  exists f0, forall fuel, (f0 <= fuel)%nat -> exists Es s E s',
    erun fuel es wenv0 init = Ok ((rs, Es), s) /\ crun fuel (calls g es) estart init = Ok ((pick g es rs, E), s').
Proof. exact alone. Qed.
Print Assumptions C29_alone_partial.

(** Group 0 puts the scratch string into its allocator; groups 1 and 2 are used between
    its calls and released, 1 is used again after that. *)
Definition groups : list event :=
  [Do 0 CNewAllocator; Do 0 (CNewValue 0); Do 0 (CSetText false KLen 0 (txt "first"));
   Do 1 CNewAllocator; Do 1 (CNewValue 0); Do 1 (CParse PCopy 0 (txt "[1,2]") []);
   Do 1 (CSetText true KLen 0 (txt "17")); Do 1 (CStringify 0);
   Do 2 CNewAllocator; Do 2 CNewAllocator; Do 2 (CNewValue 1); Do 2 (CSetInt 0 3%Z);
   Release 1; Do 0 (CStringify 0); Do 2 (CGetInt 0);
   Do 1 CNewAllocator; Do 1 (CNewValue 0); Do 1 (CSetText false KLenFast 0 (txt "again"));
   Release 2; Do 1 (CStringify 0); Do 0 (CSetKey KLen 0 (txt "k")); Do 0 (CGetKey true 0)].
Example C29_programs_case : option_map fst (wrun the_judge groups wstart) = Some
  [Arena 0; Value (Some 0%nat); Bool true;
   Arena 0; Value (Some 0%nat); Bool true; Bool true; Text (Some (txt "17"));
   Arena 0; Arena 1; Value (Some 0%nat); Bool true;
   Done; Text (Some (txt """first""")); Int (Some 3%Z);
   Arena 0; Value (Some 0%nat); Bool true;
   Done; Text (Some (txt """again""")); Bool true; Text (Some (txt "k"))].
Proof. vm_compute. reflexivity. Qed.
Example C29_alone_case : ~ In (Release 0) groups /\
  option_map fst (rrun the_judge (calls 0 groups) rstart) =
    Some [Arena 0; Value (Some 0%nat); Bool true; Text (Some (txt """first""")); Bool true; Text (Some (txt "k"))].
Proof. split; [cbn; intuition discriminate|vm_compute; reflexivity]. Qed.
(** Releasing group 0 instead: the reference refuses the next length setter. *)
Example C29_programs_guard :
  is_some (wrun the_judge (groups ++ [Release 0]) wstart) = true /\
  is_some (wrun the_judge (groups ++ [Release 0; Do 1 (CSetText false KLen 0 (txt "x"))]) wstart) = false.
Proof. split; vm_compute; reflexivity. Qed.

(** What the caller has to see to, instead of the tests of the reference: [wcontract]
    (HistCoverMany.v) lists for each call what must hold before it, [wrespects] says that it
    does before every call of the program.  Then the reference runs, and the code agrees. *)
Theorem C29_contract_partial : forall jd es, correct jd -> wrespects jd es ->
  exists rs W, wrun jd es wstart = Some (rs, W) /\
  exists f0, forall fuel, (f0 <= fuel)%nat ->
  exists Es s, erun fuel es wenv0 init = Ok ((rs, Es), s) /\ forall g, represents (wr W g) (Es g) s.
Proof. exact wrespects_ok. Qed.
Print Assumptions C29_contract_partial.
(** Two groups use the scratch string, which group 0 holds; group 1 is released. *)
Definition polite_groups : list event :=
  [Do 0 CNewAllocator; Do 0 (CNewValue 0); Do 1 CNewAllocator; Do 1 (CNewValue 0);
   Do 0 (CSetText true KLen 0 (txt "7")); Do 1 (CSetText false KLenFast 0 (txt "a"));
   Release 1; Do 0 (CSetText true KLenFast 0 (txt "8")); Do 0 (CStringify 0)].
Definition seen_groups (W : world) := (look (wr W 0) 0, look (wr W 1) 0, ru (wr W 0), ru (wr W 1), (wc W, wdead W), reads_as (wr W 0) 0).
Definition at_event (k : nat) := option_map (fun x => seen_groups (snd x)) (wrun the_judge (firstn k polite_groups) wstart).
Definition short (v : nval) : tnode := mkT None v None true true false.
Definition seen_events :=
  [(None, None, [], [], ([], false), None);
   (None, None, [0], [], ([], false), None);
   (Some (None, 0%nat), None, [16], [], ([], false), None);
   (Some (None, 0%nat), None, [16], [0], ([], false), None);
   (Some (None, 0%nat), Some (None, 0%nat), [16], [16], ([], false), None);
   (Some (Some (0, short (NNum [55])), 0%nat), Some (None, 0%nat), [249], [16], ([0%nat], false), Some (JNum [55]));
   (Some (Some (0, short (NNum [55])), 0%nat), Some (Some (0, short (NStr [97])), 0%nat), [482], [249], ([0%nat], false), Some (JNum [55]));
   (Some (Some (0, short (NNum [55])), 0%nat), None, [482], [], ([0%nat], false), Some (JNum [55]));
   (Some (Some (0, short (NNum [56])), 0%nat), None, [715], [], ([0%nat], false), Some (JNum [56]))].
Remark see_groups k l rs W : nth_error seen_events k = Some l -> wrun the_judge (firstn k polite_groups) wstart = Some (rs, W) -> seen_groups W = l.
Proof.
  intros H E. assert (K : at_event k = Some l).
  { do 9 (destruct k as [|k]; [rewrite <- H; vm_compute; reflexivity|]). destruct k; discriminate H. }
  unfold at_event in K. rewrite E in K. now injection K.
Qed.
Remark roomy_one R u n : ru R = [u] -> (u + n <=? two30) = true -> roomy_all R n.
Proof. intros H L. unfold roomy_all. rewrite H. constructor; [now apply N.leb_le|constructor]. Qed.
Example C29_contract_case : wrespects the_judge polite_groups.
Proof.
  intros k e rs W En E. pose proof (fun l H => see_groups k l rs W H E) as K. clear E.
  destruct k as [|[|[|[|[|[|[|[|[|k]]]]]]]]]; [..|destruct k; discriminate En]; cbn [nth_error polite_groups] in En; injection En as <-;
    specialize (K _ eq_refl); injection K as K1 K2 K3 K4 K5 K6 K7; cbn [wcontract contract].
  - split; [exact Logic.I|]. intro Z. now elim Z.
  - split; [eapply roomy_at; [exact K3|reflexivity|vm_compute; reflexivity]|]. intro Z. now elim Z.
  - split; [exact Logic.I|]. intro Z. now elim Z.
  - split; [eapply roomy_at; [exact K4|reflexivity|vm_compute; reflexivity]|]. intro Z. now elim Z.
  - split.
    + exists None, 0%nat. split; [exact K1|]. split; [vm_compute; reflexivity|]. eapply roomy_one; [exact K3|vm_compute; reflexivity].
    + intros _. split; [exact K6|]. rewrite K5. now intros j [].
  - split.
    + exists None, 0%nat. split; [exact K2|]. split; [vm_compute; reflexivity|]. eapply roomy_one; [exact K4|vm_compute; reflexivity].
    + intros _. split; [exact K6|]. rewrite K5. intros j [<-|[]] _. eapply roomy_one; [exact K3|vm_compute; reflexivity].
  - exact Logic.I.
  - split.
    + exists (Some (0, short (NNum [55]))), 0%nat. split; [exact K1|]. split; [vm_compute; reflexivity|]. eapply roomy_one; [exact K3|vm_compute; reflexivity].
    + intros _. split; [exact K6|]. rewrite K5. intros j [<-|[]] H. now elim H.
  - split.
    + exists (Some (0, short (NNum [56]))), 0%nat. split; [exact K1|]. intros i t j [= <- <-] [n Hc]. unfold reads_as in K7. pose proof (read_fun _ _ _ _ _ _ Hc K7) as ->.
      eapply roomy_at; [exact K3|reflexivity|vm_compute; reflexivity].
    + intro Z. now elim Z.
Qed.

(** ** C06 Whatever a program did before, Stringify prints JSON

    Every text that a call of zj_Stringify in a program (of several groups, with
    releases) answers is a JSON text, or empty if the value has no content. *)
Theorem C06_programs : forall jd es rs W, correct jd -> wrun jd es wstart = Some (rs, W) ->
  exists f0, forall fuel, (f0 <= fuel)%nat -> exists Es s, erun fuel es wenv0 init = Ok ((rs, Es), s) /\
    forall n g h, nth_error es n = Some (Do g (CStringify h)) ->
      exists t, nth_error rs n = Some (Text (Some t)) /\ (t = [] \/ exists j, json_text t j).
Proof. exact texts_valid. Qed.
Print Assumptions C06_programs.
(** Every value [h] of every program can be printed (if its allocator [A] has room): the
    text is JSON; a new value parses it and prints it again. *)
Theorem C06_programs_again : forall jd cs rs R h A, correct jd -> rrun jd cs rstart = Some (rs, R) -> full R h A ->
  exists t j, json_text t j /\ forall u, nth_error (ru R) A = Some u -> u + again_cost (lenN t) <= two30 ->
    exists f0, forall fuel, (f0 <= fuel)%nat -> exists E s,
      crun fuel (cs ++ [CStringify h; CNewValue A; CParse PCopy (length (rh R)) t []; CStringify (length (rh R))]) estart init =
      Ok ((rs ++ [Text (Some t); Value (Some (length (rh R))); Bool true; Text (Some t)], E), s).
Proof. exact printed_again. Qed.
Print Assumptions C06_programs_again.
(** ** C19 Every value of every program can be copied; the copy prints like it and has its key *)
Theorem C19_programs_again : forall jd cs rs R h A, correct jd -> rrun jd cs rstart = Some (rs, R) -> full R h A ->
  exists t j, json_text t j /\ forall u, nth_error (ru R) A = Some u -> u + 2 * print_cost (lenN t) + 88 + icost (key_of R h, j) <= two30 ->
    exists f0, forall fuel, (f0 <= fuel)%nat -> exists E s,
      crun fuel (cs ++ [CStringify h; CCopy h; CStringify (length (rh R)); CGetKey true (length (rh R))]) estart init =
      Ok ((rs ++ [Text (Some t); Value (Some (length (rh R))); Text (Some t); Text (key_of R h)], E), s).
Proof. exact copied_again. Qed.
Print Assumptions C19_programs_again.

(** The groups above print three texts; the two values [0] and [3] of [sample] meet the
    hypotheses, with little of their allocator used. *)
Example C06_programs_case : exists rs W, wrun the_judge groups wstart = Some (rs, W) /\ nth_error groups 7 = Some (Do 1 (CStringify 0)).
Proof.
  destruct (wrun the_judge groups wstart) as [[rs W]|] eqn:E; [exists rs, W; split; reflexivity|].
  assert (K : is_some (wrun the_judge groups wstart) = true) by (vm_compute; reflexivity). rewrite E in K. discriminate.
Qed.
Definition fullb (R : rst) (h A : nat) : bool := match look R h with Some (Some _, B) => Nat.eqb A B | _ => false end.
Remark fullb_ok R h A : fullb R h A = true -> full R h A.
Proof. unfold fullb, full. destruct (look R h) as [[[[i t]|] B]|]; try discriminate. intro H. apply Nat.eqb_eq in H. subst B. eauto. Qed.
Example C06_programs_again_case : exists rs R u, rrun the_judge sample rstart = Some (rs, R) /\ full R 0 0 /\ full R 3 0 /\
  nth_error (ru R) 0 = Some u /\ u + again_cost 1000 <= two30.
Proof.
  destruct (rrun the_judge sample rstart) as [[rs R]|] eqn:E.
  - assert (K : option_map (fun x => (fullb (snd x) 0 0, fullb (snd x) 3 0, nth_error (ru (snd x)) 0)) (rrun the_judge sample rstart) =
                Some (true, true, Some 6852)) by (vm_compute; reflexivity).
    rewrite E in K. cbn [option_map snd] in K. injection K as K1 K2 K3. exists rs, R, 6852.
    pose proof (fullb_ok R 0 0 K1). pose proof (fullb_ok R 3 0 K2). split; [reflexivity|]. split; [assumption|]. split; [assumption|]. split; [assumption|]. vm_compute. discriminate.
  - assert (K : is_some (rrun the_judge sample rstart) = true) by (vm_compute; reflexivity). rewrite E in K. discriminate.
Qed.
