(** Property C72: the pointers the beta header gives stay good while other allocators are released. *)
From Verif Require Import Base Spec AllocProofs PrintFacts Mem Api Double Vocab Scene Hist HistRun HistSim HistStep HistAll HistJudge Dom HistDocs HistCover Beta BetaHist BetaSim BetaClient BetaCover.
From Verif Require Import HistMany HistWorld HistCoverMany BetaLeak BetaWorld BetaCoverMany Keep KeepWorld BetaKeepWorld BetaKeepCover.

(** ** C72 Texts got from one document of the beta header can be put into another one, and the first released

    As C71, for the beta header.  A program works with any number of groups of allocators and
    releases groups as it likes.  It keeps every text pointer a getter or z_ValueStringify gave
    it, decides by the answers what to do next, and reads the texts and passes the pointers
    on: to any call on the group the text is from, and to calls on the other groups that copy
    the text or only read it.

    This fails for z_ValueParse: it makes a copy but parses the text of the caller
    (beta 1448-1460).  Group 1 parses what was printed of group 0, with success; group 0 is
    released; printing group 1 then reads memory that was freed. *)
Definition reparse (release : bool) : zgprog (list answer) :=
  ZGAct (ZIn 0 (ZApi CNewAllocator)) (fun _ => ZGAct (ZIn 0 (ZApi (CNewValue 0))) (fun _ => ZGAct (ZIn 0 (ZApi (CSetText false KCopy 0 (txt "a")))) (fun _ =>
  ZGAct (ZIn 1 (ZApi CNewAllocator)) (fun _ => ZGAct (ZIn 1 (ZApi (CNewValue 0))) (fun _ =>
  ZGAct (ZIn 0 (ZPrint 0)) (fun a1 => ZGAct (ZIn 1 (ZParse false 0 0)) (fun a2 =>
  let print := ZGAct (ZIn 1 (ZApi (CStringify 0))) (fun a3 => ZGRet [a1; a2; a3]) in
  if release then ZGAct (ZRelease 0) (fun _ => print) else print))))))).
Definition outcome {X Y} (r : res ((X * Y) * st)) : X + err := match r with Ok ((x, _), _) => inl x | Err e => inr e end.
Theorem C72_refuted : outcome (zgmplay 9 (reparse false) (zworld0, []) init) = inl [Text (Some (txt """a""")); Bool true; Text (Some (txt """a"""))] /\
  outcome (zgmplay 9 (reparse true) (zworld0, []) init) = inr EOob.
Proof. vm_compute. auto. Qed.
Print Assumptions C72_refuted.
(** All other uses are fine.  If a program runs on the reference, where a pointer is simply the
    text it was got for, it runs on the code with the same result and leaves the same
    documents in all groups.  The reference does not run programs that parse, or store as it
    is, a text of another group (BetaKeepWorld.v); parsing is what is missing here. *)
Theorem C72_client_partial : forall jd, correct jd -> forall X (p : zgprog X) x W Ks T, zgrplay jd p (zrstart, []) = Some (x, ((W, Ks), T)) ->
  forall fuel, (zgpmost jd p (zrstart, []) <= fuel)%nat ->
  exists Es B P s, zgmplay fuel p (zworld0, []) init = Ok ((x, ((Es, B), P)), s) /\ forall g, represents (wr W g) (Es g) s.
Proof. exact zgclient. Qed.
Print Assumptions C72_client_partial.
(** In particular: any calls and releases [es1], a getter or printing in group [g], any calls
    on any groups and any releases of others [es2].  What the pointer points to afterwards is
    what the call gave. *)
Theorem C72_kept : forall jd, correct jd -> forall es1 g v h es2 rs Z x,
  zwrun jd (es1 ++ Do g (zgiver_call v h) :: es2) zrstart = Some (rs, Z) -> nth_error rs (length es1) = Some x -> ~ In (Release g) es2 ->
  forall fuel, (zwmost jd (es1 ++ Do g (zgiver_call v h) :: es2) zrstart <= fuel)%nat ->
  exists Z' s, zgmplay fuel (zgkeep es1 g v h es2) (zworld0, []) init = Ok (((x, x), Z'), s).
Proof. exact zgkept. Qed.
Print Assumptions C72_kept.
(** What the caller has to see to, instead of the tests of the reference ([zgcontract],
    BetaKeepCover.v). *)
Theorem C72_contract_partial : forall jd, correct jd -> forall X (p : zgprog X), zgrespects jd p (zrstart, []) ->
  exists x W Ks T, zgrplay jd p (zrstart, []) = Some (x, ((W, Ks), T)) /\ forall fuel, (zgpmost jd p (zrstart, []) <= fuel)%nat ->
  exists Es B P s, zgmplay fuel p (zworld0, []) init = Ok ((x, ((Es, B), P)), s) /\ forall g, represents (wr W g) (Es g) s.
Proof. exact zgcontract_ok. Qed.
Print Assumptions C72_contract_partial.

(** Of an object in group 0 the unescaped text of the first member, its text without a copy and
    its key are kept.  Group 1 gets them as text and key; in group 2 the member with this key
    is looked up and, if it is there, deleted.  Group 0 is released, and what group 1
    remembers is read, released, and group 2 printed. *)
Definition movers (t : bytes) : zgprog (list answer) :=
  ZGAct (ZIn 0 (ZApi CNewAllocator)) (fun _ => ZGAct (ZIn 0 (ZApi (CNewValue 0))) (fun _ => ZGAct (ZIn 0 (ZApi (CParse PCopy 0 t []))) (fun _ =>
  ZGAct (ZIn 1 (ZApi CNewAllocator)) (fun _ => ZGAct (ZIn 1 (ZApi (CNewValue 0))) (fun _ =>
  ZGAct (ZIn 2 (ZApi CNewAllocator)) (fun _ => ZGAct (ZIn 2 (ZApi (CNewValue 0))) (fun _ => ZGAct (ZIn 2 (ZApi (CParse PCopy 0 (txt "{""k"":1}") []))) (fun _ =>
  ZGAct (ZIn 0 (ZApi (CBegin 0))) (fun _ => ZGAct (ZIn 0 (ZTake GUnStr 1)) (fun _ => ZGAct (ZIn 0 (ZTake GViewStr 1)) (fun _ => ZGAct (ZIn 0 (ZTake GKey 1)) (fun _ =>
  ZGAct (ZIn 1 (ZSetText false false 0 1)) (fun a1 => ZGAct (ZIn 1 (ZSetKey false 0 2)) (fun a2 => ZGAct (ZIn 2 (ZObjGet 0 2)) (fun a3 =>
  match a3 with
  | Value (Some _) => ZGAct (ZIn 2 (ZObjDel 0 2)) (fun a4 => ZGAct (ZIn 0 (ZLook 0)) (fun a5 => ZGAct (ZRelease 0) (fun _ =>
      ZGAct (ZIn 1 (ZTake GStr 0)) (fun a6 => ZGAct (ZIn 1 (ZApi (CGetKey false 0))) (fun a7 => ZGAct (ZIn 1 (ZApi (CSetNull 0))) (fun _ =>
      ZGAct (ZIn 2 (ZApi (CStringify 0))) (fun a8 => ZGAct (ZRelease 2) (fun _ => ZGAct (ZIn 1 (ZLook 3)) (fun a9 => ZGRet [a1; a2; a3; a4; a5; a6; a7; a8; a9])))))))))
  | _ => ZGRet []
  end))))))))))))))).
Definition movers_text : bytes := txt "{""k"":""a\n""}".
Definition movers_answers : list answer :=
  [Bool true; Bool true; Value (Some 1%nat); Bool true; Text (Some [97; 10]); Text (Some (txt "a\n")); Text (Some (txt "k")); Text (Some (txt "{}")); Text (Some (txt "a\n"))].
Example C72_case : option_map fst (zgrplay the_judge (movers movers_text) (zrstart, [])) = Some movers_answers.
Proof. vm_compute. reflexivity. Qed.
Example C72_run : exists Z s, zgmplay (zgpmost the_judge (movers movers_text) (zrstart, [])) (movers movers_text) (zworld0, []) init = Ok ((movers_answers, Z), s).
Proof.
  pose proof C72_case as H. destruct (zgrplay the_judge (movers movers_text) (zrstart, [])) as [[x [[W Ks] T]]|] eqn:E; [|discriminate H]. injection H as ->.
  destruct (C72_client_partial the_judge judge_correct _ _ _ _ _ _ E _ (le_n _)) as (Es & B & P & s & Q & _). eauto.
Qed.
Definition kept_1 : list event := [Do 0 CNewAllocator; Do 0 (CNewValue 0); Do 0 (CParse PCopy 0 (txt """ab""") []); Do 1 CNewAllocator; Do 1 (CNewValue 0)].
Definition kept_2 : list event := [Do 1 (CParse PCopy 0 (txt "[1]") []); Do 0 (CSetNull 0); Release 1; Do 1 CNewAllocator; Do 1 (CNewValue 0); Do 1 (CStringify 0)].
Example C72_kept_case : (match zwrun the_judge (kept_1 ++ Do 0 (zgiver_call (Some GStr) 0) :: kept_2) zrstart with
  | Some (rs, _) => nth_error rs 5 = Some (Text (Some (txt "ab"))) | None => False end) /\
  (match zwrun the_judge (kept_1 ++ Do 0 (zgiver_call None 0) :: kept_2) zrstart with
  | Some (rs, _) => nth_error rs 5 = Some (Text (Some (txt """ab"""))) | None => False end) /\ ~ In (Release 0) kept_2.
Proof. split; [vm_compute; auto|]. split; [vm_compute; auto|]. cbn. intros [H|[H|[H|[H|[H|[H|[]]]]]]]; discriminate. Qed.
(** The program of [C72_refuted] is not one the reference runs. *)
Example C72_reparse_case : zgrplay the_judge (reparse true) (zrstart, []) = None /\ zgrplay the_judge (reparse false) (zrstart, []) = None.
Proof. vm_compute. auto. Qed.
(** A program that respects the contract: the text of the number of group 0 is put into
    group 1, looked at, and group 0 released. *)
Definition giving : list zgstmt :=
  [ZIn 0 (ZApi CNewAllocator); ZIn 0 (ZApi (CNewValue 0)); ZIn 0 (ZApi (CSetText true KCopy 0 (txt "7"))); ZIn 0 (ZTake GNum 0);
   ZIn 1 (ZApi CNewAllocator); ZIn 1 (ZApi (CNewValue 0)); ZIn 1 (ZSetText true false 0 0); ZIn 0 (ZLook 0); ZRelease 0; ZIn 1 (ZApi (CStringify 0))].
Definition given (Z : zgst) := let W := fst (fst Z) in (look (wr W 0) 0, look (wr W 1) 0, ru (wr W 0), ru (wr W 1), snd Z, reads_as (wr W 1) 0).
Definition given_after (k : nat) := option_map (fun x => given (snd x)) (zgrplay the_judge (zgseq (firstn k giving)) (zrstart, [])).
Definition the_seven : option (option (N * tnode) * nat) := Some (Some (0, mkT None (NNum [55]) None true true false), 0%nat).
Definition given_at :=
  [(None, None, [], [], [], None); (None, None, [0], [], [], None); (Some (None, 0%nat), None, [48], [], [], None);
   (the_seven, None, [121], [], [], None);
   (the_seven, None, [123], [], [Some (0%nat, RC [55])], None);
   (the_seven, None, [123], [0], [Some (0%nat, RC [55])], None);
   (the_seven, Some (None, 0%nat), [123], [48], [Some (0%nat, RC [55])], None);
   (the_seven, the_seven, [123], [121], [Some (0%nat, RC [55])], Some (JNum [55]));
   (the_seven, the_seven, [123], [121], [Some (0%nat, RC [55])], Some (JNum [55]));
   (None, the_seven, [], [121], [None], Some (JNum [55]))].
Remark see_given k l Z : nth_error given_at k = Some l -> zgrplay the_judge (zgseq (firstn k giving)) (zrstart, []) = Some (tt, Z) -> given Z = l.
Proof.
  intros H E. assert (Q : given_after k = Some l).
  { do 10 (destruct k as [|k]; [rewrite <- H; vm_compute; reflexivity|]). destruct k; discriminate H. }
  unfold given_after in Q. rewrite E in Q. now injection Q.
Qed.
Remark room_given R u n : ru R = [u] -> (u + n <=? two30) = true -> roomy R 0 n.
Proof. intros H L. exists u. rewrite H. split; [reflexivity|now apply N.leb_le]. Qed.
Example C72_contract_case : zgrespects the_judge (zgseq giving) (zrstart, []).
Proof.
  apply zgseq_respects. intros k c Z En E. pose proof (fun l H => see_given k l Z H E) as Q. clear E. destruct Z as [[W Ks] T].
  destruct k as [|[|[|[|[|[|[|[|[|[|k]]]]]]]]]]; [..|destruct k; discriminate En]; cbn [nth_error giving] in En; injection En as <-;
    specialize (Q _ eq_refl); injection Q as Q1 Q2 Q3 Q4 Q5 Q6; cbn [zgcontract zwcontract zcontract contract BetaClient.gcall fst snd].
  - split; [exact Logic.I|]. intro H. now elim H.
  - split; [eapply room_given; [exact Q3|vm_compute; reflexivity]|]. intro H. now elim H.
  - split; [|intro H; now elim H]. exists None, 0%nat. split; [exact Q1|]. split; [split; [vm_compute; intuition discriminate|vm_compute; reflexivity]|].
    eapply room_given; [exact Q3|vm_compute; reflexivity].
  - split; [|intro H; now elim H]. do 2 eexists. split; [exact Q1|]. intros i t b [= <- <-] Hb k _ _. cbn in Hb. injection Hb as <-.
    eapply room_given; [exact Q3|vm_compute; reflexivity].
  - split; [exact Logic.I|]. intro H. now elim H.
  - split; [eapply room_given; [exact Q4|vm_compute; reflexivity]|]. intro H. now elim H.
  - exists 0%nat, 0%nat, 0%nat, (RC [55]), false, [55], (CSetText true KCopy 0 [55]). split; [reflexivity|]. split; [now rewrite Q5|]. split; [reflexivity|].
    split; [now right|]. split; [reflexivity|]. split; [|intro H; now elim H]. exists None, 0%nat. split; [exact Q2|].
    split; [split; [vm_compute; intuition discriminate|vm_compute; reflexivity]|]. eapply room_given; [exact Q4|vm_compute; reflexivity].
  - exists 0%nat, (RC [55]). now rewrite Q5.
  - exact Logic.I.
  - split; [|intro H; now elim H]. do 2 eexists. split; [exact Q2|]. intros i t j [= <- <-] [n Hc]. unfold reads_as in Q6. pose proof (read_fun _ _ _ _ _ _ Hc Q6) as ->.
    eapply room_given; [exact Q4|vm_compute; reflexivity].
Qed.
