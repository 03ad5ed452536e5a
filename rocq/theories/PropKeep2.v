(** Property C71: the pointers zzzjson.h gives stay good while other allocators are released. *)
From Verif Require Import Base Spec AllocProofs PrintFacts Mem Api Double Vocab Scene Hist HistRun HistSim HistStep HistAll HistJudge HistMany HistWorld Dom BetaClient Keep KeepWorld HistDocs HistCover HistCoverMany KeepCover.
From Verif Require OverRead.

(** ** C71 Texts got from one document can be put into another one, and the first released

    A program works with any number of groups of allocators and releases groups as it likes.
    It keeps every text pointer it was given, decides by the answers what to do next, and reads
    the texts and passes the pointers on, to calls on any group: to any call on the group the
    text is from, and to all calls on the other groups that copy the text or only read it
    (KeepWorld.v).  It may do so until it releases the group the text is from.
    If it runs on the reference, where a pointer is simply the text it was got for, it runs
    on the code with the same result and leaves the same documents in all groups. *)
Theorem C71_client : forall jd, correct jd -> forall X (p : gprog X) x W T, grplay jd p (wstart, []) = Some (x, (W, T)) ->
  forall fuel, (gpmost jd p (wstart, []) <= fuel)%nat ->
  exists Es P s, gmplay fuel p (wenv0, []) init = Ok ((x, (Es, P)), s) /\ forall g, represents (wr W g) (Es g) s.
Proof. exact gclient. Qed.
Print Assumptions C71_client.
(** In particular: any calls and releases [es1], a call on group [g] that gives a text, any
    calls on any groups and any releases of others [es2].  What the pointer points to
    afterwards is what the call gave. *)
Theorem C71_kept : forall jd, correct jd -> forall es1 g v h es2 rs W x,
  wrun jd (es1 ++ Do g (pcall v h) :: es2) wstart = Some (rs, W) -> nth_error rs (length es1) = Some x -> ~ In (Release g) es2 ->
  forall fuel, (wmost jd (es1 ++ Do g (pcall v h) :: es2) wstart <= fuel)%nat ->
  exists Z s, gmplay fuel (gkeep es1 g v h es2) (wenv0, []) init = Ok (((x, x), Z), s).
Proof. exact gkept. Qed.
Print Assumptions C71_kept.
(** What the caller has to see to, instead of the tests of the reference: [gcontract]
    (KeepCover.v) lists for each statement what must hold before it, [grespects] says that it
    does whenever the program comes to one.  Then the reference runs, and the code agrees. *)
Theorem C71_contract : forall jd, correct jd -> forall X (p : gprog X), grespects jd p (wstart, []) ->
  exists x W T, grplay jd p (wstart, []) = Some (x, (W, T)) /\ forall fuel, (gpmost jd p (wstart, []) <= fuel)%nat ->
  exists Es P s, gmplay fuel p (wenv0, []) init = Ok ((x, (Es, P)), s) /\ forall g, represents (wr W g) (Es g) s.
Proof. exact gcontract_ok. Qed.
Print Assumptions C71_contract.

(** Of an object in group 0 the text of the first member, without a copy, and its key are kept.
    Group 1 gets the text as a string, with its length, and the key; group 2 parses the printed
    text.  Group 0 is released.  Then the other two are printed. *)
Definition carrier (t : bytes) : gprog (list answer) :=
  GAct (GIn 0 (PApi CNewAllocator)) (fun _ => GAct (GIn 0 (PApi (CNewValue 0))) (fun _ => GAct (GIn 0 (PApi (CParse PCopy 0 t []))) (fun _ =>
  GAct (GIn 1 (PApi CNewAllocator)) (fun _ => GAct (GIn 1 (PApi (CNewValue 0))) (fun _ =>
  GAct (GIn 2 (PApi CNewAllocator)) (fun _ => GAct (GIn 2 (PApi (CNewValue 0))) (fun _ =>
  GAct (GIn 0 (PTake PPrint 0)) (fun _ => GAct (GIn 0 (PApi (CBegin 0))) (fun _ =>
  GAct (GIn 0 (PTake PKey 1)) (fun _ => GAct (GIn 0 (PTake (PViewText false) 1)) (fun _ =>
  GAct (GIn 1 (PGive (TText false false) 0 2)) (fun a1 => GAct (GIn 1 (PGive (TKey false) 0 1)) (fun a2 =>
  GAct (GIn 2 (PGive (TParse false) 0 0)) (fun a3 => GAct (GIn 2 (PGive TFind 0 1)) (fun a4 =>
  GAct (GRelease 0) (fun _ =>
  GAct (GIn 1 (PTake PPrint 0)) (fun a5 => GAct (GIn 1 (PApi (CGetKey false 0))) (fun a6 => GAct (GIn 2 (PApi (CStringify 0))) (fun a7 =>
  GAct (GRelease 2) (fun _ => GAct (GIn 1 (PLook 3)) (fun a8 => GRet [a1; a2; a3; a4; a5; a6; a7; a8]))))))))))))))))))))).
Definition carrier_text : bytes := txt "{""k"":""ab""}".
Definition carrier_answers : list answer :=
  [Bool true; Bool true; Bool true; Value (Some 1%nat); Text (Some (txt """ab""")); Text (Some (txt "k")); Text (Some carrier_text); Text (Some (txt """ab"""))].
Example C71_case : option_map fst (grplay the_judge (carrier carrier_text) (wstart, [])) = Some carrier_answers.
Proof. vm_compute. reflexivity. Qed.
Example C71_run : exists Z s, gmplay (gpmost the_judge (carrier carrier_text) (wstart, [])) (carrier carrier_text) (wenv0, []) init = Ok ((carrier_answers, Z), s).
Proof.
  pose proof C71_case as H. destruct (grplay the_judge (carrier carrier_text) (wstart, [])) as [[x [W T]]|] eqn:E; [|discriminate]. injection H as ->.
  destruct (C71_client the_judge judge_correct _ _ _ _ _ E _ (le_n _)) as (Es & P & s & Q & _). eauto.
Qed.
Definition carried_before : list event := [Do 0 CNewAllocator; Do 0 (CNewValue 0); Do 0 (CParse PCopy 0 (txt "[""ab""]") []); Do 1 CNewAllocator; Do 1 (CNewValue 0)].
Definition carried_after : list event := [Do 1 (CParse PCopy 0 (txt "[1]") []); Do 0 (CSetNull 0); Release 1; Do 1 CNewAllocator; Do 1 (CNewValue 0); Do 1 (CStringify 0)].
Example C71_kept_case : match wrun the_judge (carried_before ++ Do 0 (pcall PPrint 0) :: carried_after) wstart with
  | Some (rs, _) => nth_error rs 5 = Some (Text (Some (txt "[""ab""]"))) | None => False end /\ ~ In (Release 0) carried_after.
Proof. split; [vm_compute; auto|]. cbn. intros [H|[H|[H|[H|[H|[H|[]]]]]]]; discriminate. Qed.
(** Without the copy the text is gone with the group it is from: a program that stores the kept
    text as it is in the other group, releases the first and prints the second reads memory
    that was freed.  The reference does not run it. *)
Definition careless : gprog answer :=
  GAct (GIn 0 (PApi CNewAllocator)) (fun _ => GAct (GIn 0 (PApi (CNewValue 0))) (fun _ => GAct (GIn 0 (PApi (CParse PCopy 0 (txt """a""") []))) (fun _ =>
  GAct (GIn 1 (PApi CNewAllocator)) (fun _ => GAct (GIn 1 (PApi (CNewValue 0))) (fun _ =>
  GAct (GIn 0 (PTake (PText false) 0)) (fun _ => GAct (GIn 1 (PGive (TText false true) 0 0)) (fun _ =>
  GAct (GRelease 0) (fun _ => GAct (GIn 1 (PApi (CStringify 0))) (fun a => GRet a))))))))).
Example C71_careless : grplay the_judge careless (wstart, []) = None /\ match gmplay 9 careless (wenv0, []) init with Err _ => True | _ => False end.
Proof. split; vm_compute; auto. Qed.
(** A program that respects the contract: what is printed of group 0 is parsed by group 1,
    looked at, and group 0 released. *)
Definition lender : list gstmt :=
  [GIn 0 (PApi CNewAllocator); GIn 0 (PApi (CNewValue 0)); GIn 0 (PApi (CSetText true KCopy 0 (txt "7"))); GIn 0 (PTake PPrint 0);
   GIn 1 (PApi CNewAllocator); GIn 1 (PApi (CNewValue 0)); GIn 1 (PGive (TParse false) 0 0); GIn 0 (PLook 0); GRelease 0; GIn 1 (PApi (CStringify 0))].
Definition lent (Z : gst) := let W := fst Z in (look (wr W 0) 0, look (wr W 1) 0, ru (wr W 0), ru (wr W 1), snd Z, reads_as (wr W 0) 0, reads_as (wr W 1) 0).
Definition at_stmt (k : nat) := option_map (fun x => lent (snd x)) (grplay the_judge (gseq (firstn k lender)) (wstart, [])).
Definition seven (stop : bool) : option (option (N * tnode) * nat) := Some (Some (0, mkT None (NNum [55]) None true true stop), 0%nat).
Definition lent_at :=
  [(None, None, [], [], [], None, None); (None, None, [0], [], [], None, None); (Some (None, 0%nat), None, [16], [], [], None, None);
   (seven false, None, [89], [], [], Some (JNum [55]), None);
   (seven false, None, [1145], [], [Some (0%nat, RC [55])], Some (JNum [55]), None);
   (seven false, None, [1145], [0], [Some (0%nat, RC [55])], Some (JNum [55]), None);
   (seven false, Some (None, 0%nat), [1145], [16], [Some (0%nat, RC [55])], Some (JNum [55]), None);
   (seven false, seven true, [1145], [234], [Some (0%nat, RC [55])], Some (JNum [55]), Some (JNum [55]));
   (seven false, seven true, [1145], [234], [Some (0%nat, RC [55])], Some (JNum [55]), Some (JNum [55]));
   (None, seven true, [], [234], [None], None, Some (JNum [55]))].
Remark see_lent k l Z : nth_error lent_at k = Some l -> grplay the_judge (gseq (firstn k lender)) (wstart, []) = Some (tt, Z) -> lent Z = l.
Proof.
  intros H E. assert (K : at_stmt k = Some l).
  { do 10 (destruct k as [|k]; [rewrite <- H; vm_compute; reflexivity|]). destruct k; discriminate H. }
  unfold at_stmt in K. rewrite E in K. now injection K.
Qed.
Remark room_at R u n : ru R = [u] -> (u + n <=? two30) = true -> roomy R 0 n.
Proof. intros H L. exists u. rewrite H. split; [reflexivity|now apply N.leb_le]. Qed.
Example C71_contract_case : grespects the_judge (gseq lender) (wstart, []).
Proof.
  apply gseq_respects. intros k c Z En E. pose proof (fun l H => see_lent k l Z H E) as K. clear E.
  destruct k as [|[|[|[|[|[|[|[|[|[|k]]]]]]]]]]; [..|destruct k; discriminate En]; cbn [nth_error lender] in En; injection En as <-;
    specialize (K _ eq_refl); injection K as K1 K2 K3 K4 K5 K6 K7; cbn [gcontract wcontract contract pcall].
  - split; [exact Logic.I|]. intro H. now elim H.
  - split; [eapply room_at; [exact K3|vm_compute; reflexivity]|]. intro H. now elim H.
  - split; [|intro H; now elim H]. exists None, 0%nat. split; [exact K1|]. split; [split; [vm_compute; intuition discriminate|vm_compute; reflexivity]|].
    eapply room_at; [exact K3|vm_compute; reflexivity].
  - split; [|intro H; now elim H]. do 2 eexists. split; [exact K1|]. intros i t j [= <- <-] [n Hc]. unfold reads_as in K6. pose proof (read_fun _ _ _ _ _ _ Hc K6) as ->.
    eapply room_at; [exact K3|vm_compute; reflexivity].
  - split; [exact Logic.I|]. intro H. now elim H.
  - split; [eapply room_at; [exact K4|vm_compute; reflexivity]|]. intro H. now elim H.
  - exists 0%nat, (RC [55]), false, [55]. split; [now rewrite K5|]. split; [reflexivity|]. split; [now right|]. exists (CParse PCopy 0 [55] []). split; [reflexivity|].
    split; [|intro H; now elim H]. exists None, 0%nat. split; [exact K2|]. split; [right; cbn; intuition discriminate|]. split; [vm_compute; reflexivity|]. split.
    + intro K. apply (OverRead.cut_invalid _ _ K); [apply has0_no; reflexivity|]. exists (JNum [55]).
      apply (jd_json _ judge_correct); [cbn; intuition discriminate|vm_compute; reflexivity].
    + eapply room_at; [exact K4|vm_compute; reflexivity].
  - exists 0%nat, (RC [55]). now rewrite K5.
  - exact Logic.I.
  - split; [|intro H; now elim H]. do 2 eexists. split; [exact K2|]. intros i t j [= <- <-] [n Hc]. unfold reads_as in K7. pose proof (read_fun _ _ _ _ _ _ Hc K7) as ->.
    eapply room_at; [exact K4|vm_compute; reflexivity].
Qed.
