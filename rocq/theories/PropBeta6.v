(** Properties C61, C64 and C69, with the contract of the calls spelled out. *)
From Verif Require Import Base Spec AllocProofs PrintFacts Mem Api Double Vocab Scene Hist HistRun HistSim HistStep HistAll HistJudge Dom HistDocs HistCover Beta BetaHist BetaSim BetaClient BetaCover.
From Verif Require Import HistMany HistWorld HistCoverMany BetaLeak BetaWorld BetaCoverMany.
From Verif Require OverRead.

(** What the caller has to see to, instead of the tests of the reference: [zcontract]
    (BetaCover.v) lists for each call what must hold before it, [zrespects] says that it does
    before every call of the program.  Then the reference runs, and the code agrees. *)
Theorem C61_contract : forall jd, correct jd -> forall cs, zrespects jd cs -> exists xs R K, brrun jd cs (rstart, []) = Some (xs, (R, K)) /\
  forall fuel, (bmost jd cs (rstart, []) <= fuel)%nat -> exists E B s, brun fuel cs estart bstart init = Ok (((xs, E), B), s) /\ represents R E s.
Proof. exact zrespects_ok. Qed.
Print Assumptions C61_contract.

(** The number in an array is asked for as text twice, then as a double. *)
Definition polite_beta : list call :=
  [CNewAllocator; CNewValue 0; CParse PCopy 0 (txt "[1]") []; CBegin 0; CGetText true false 1; CGetText true false 1; CGetDouble 1; CStringify 0].
Definition seen_beta (RK : rst * list kache) := (look (fst RK) 0, look (fst RK) 1, ru (fst RK), snd RK, reads_as (fst RK) 0).
Definition at_beta (n : nat) := option_map (fun x => seen_beta (snd x)) (brrun the_judge (firstn n polite_beta) (rstart, [])).
Definition the_array : option (option (N * tnode) * nat) := Some (Some (0, mkT None (NCont false [1]) None true true true), 0%nat).
Definition the_number : option (option (N * tnode) * nat) := Some (Some (1, mkT None (NNum [49]) (Some 0) true true true), 0%nat).
Definition beta_events :=
  [(None, None, [], [], None); (None, None, [0], [], None); (Some (None, 0%nat), None, [48], [kclear], None);
   (the_array, None, [412], [kclear], Some (JArr [JNum [49]]));
   (the_array, the_number, [460], [kclear; kclear], Some (JArr [JNum [49]]));
   (the_array, the_number, [462], [kclear; mkK (Some [49]) KNone None None], Some (JArr [JNum [49]]));
   (the_array, the_number, [462], [kclear; mkK (Some [49]) KNone None None], Some (JArr [JNum [49]]));
   (the_array, the_number, [470], [kclear; mkK (Some [49]) (KReal (DFin false 4503599627370496 (-52))) None None], Some (JArr [JNum [49]]))].
Remark see_beta n l xs R K : nth_error beta_events n = Some l -> brrun the_judge (firstn n polite_beta) (rstart, []) = Some (xs, (R, K)) -> seen_beta (R, K) = l.
Proof.
  intros H E. assert (Q : at_beta n = Some l).
  { do 8 (destruct n as [|n]; [rewrite <- H; vm_compute; reflexivity|]). destruct n; discriminate H. }
  unfold at_beta in Q. rewrite E in Q. now injection Q.
Qed.
Remark room_beta R u n : ru R = [u] -> (u + n <=? two30) = true -> roomy R 0 n.
Proof. intros H L. exists u. rewrite H. split; [reflexivity|now apply N.leb_le]. Qed.
Example C61_contract_case : zrespects the_judge polite_beta.
Proof.
  intros n c xs R K En E. pose proof (fun l H => see_beta n l xs R K H E) as Q. clear E.
  destruct n as [|[|[|[|[|[|[|[|n]]]]]]]]; [..|destruct n; discriminate En]; cbn [nth_error polite_beta] in En; injection En as <-;
    specialize (Q _ eq_refl); injection Q as Q1 Q2 Q3 Q4 Q5; cbn [zcontract contract].
  - exact Logic.I.
  - eapply room_beta; [exact Q3|vm_compute; reflexivity].
  - exists None, 0%nat. split; [exact Q1|]. split; [cbn; intuition|]. split; [vm_compute; reflexivity|]. split.
    + intro Cl. apply (OverRead.cut_invalid _ _ Cl); [apply has0_no; reflexivity|]. exists (JArr [JNum [49]]).
      apply (jd_json _ judge_correct); [apply has0_no; reflexivity|vm_compute; reflexivity].
    + eapply room_beta; [exact Q3|vm_compute; reflexivity].
  - do 2 eexists. split; [exact Q1|]. eapply room_beta; [exact Q3|vm_compute; reflexivity].
  - do 2 eexists. split; [exact Q2|]. intros i t b [= <- <-] Hb k _ _. cbn in Hb. injection Hb as <-. eapply room_beta; [exact Q3|vm_compute; reflexivity].
  - do 2 eexists. split; [exact Q2|]. intros i t b [= <- <-] Hb k Hk Hn. rewrite Q4 in Hk. injection Hk as <-. discriminate Hn.
  - do 2 eexists. split; [exact Q2|]. intros i t b [= <- <-] Hb k Hk. rewrite Q4 in Hk. injection Hk as <-. cbn [kAlt]. split; [reflexivity|]. eapply room_beta; [exact Q3|vm_compute; reflexivity].
  - do 2 eexists. split; [exact Q1|]. intros i t j [= <- <-] [m Hc]. unfold reads_as in Q5. pose proof (read_fun _ _ _ _ _ _ Hc Q5) as ->.
    eapply room_beta; [exact Q3|vm_compute; reflexivity].
Qed.

(** ** C69 likewise, for programs that keep the pointers they are given

    [stmt_contract] lists what must hold before each statement, [prog_respects] says that it
    does whenever the program comes to one, whatever it decides by the answers. *)
Theorem C69_contract : forall jd, correct jd -> forall X (p : zprog X), prog_respects jd p ((rstart, []), []) ->
  exists x R K T, zrplay jd p ((rstart, []), []) = Some (x, ((R, K), T)) /\ forall fuel, (zpmost jd p ((rstart, []), []) <= fuel)%nat ->
  exists E B P s, zmplay fuel p ((estart, bstart), []) init = Ok ((x, ((E, B), P)), s) /\ represents R E s.
Proof. exact prog_ok. Qed.
Print Assumptions C69_contract.
(** The text of a number is kept, parsed by a second value object and looked at. *)
Definition keeper : list zstmt :=
  [ZApi CNewAllocator; ZApi (CNewValue 0); ZApi (CNewValue 0); ZApi (CSetText true KCopy 0 (txt "7")); ZTake GNum 0; ZParse false 1 0; ZLook 0; ZPrint 1].
Definition seen_keeper (Z : zst) := let '((R, K), T) := Z in (look R 0, look R 1, ru R, K, T, reads_as R 1).
Definition at_keeper (n : nat) := option_map (fun x => seen_keeper (snd x)) (zrplay the_judge (zseq (firstn n keeper)) ((rstart, []), [])).
Definition a_seven (i : N) (stop : bool) : option (option (N * tnode) * nat) := Some (Some (i, mkT None (NNum [55]) None true true stop), 0%nat).
Definition asked : list kache := [mkK (Some [55]) KNone None None; kclear].
Definition keeper_events :=
  [(None, None, [], [], [], None); (None, None, [0], [], [], None); (Some (None, 0%nat), None, [48], [kclear], [], None);
   (Some (None, 0%nat), Some (None, 0%nat), [96], [kclear; kclear], [], None);
   (a_seven 0 false, Some (None, 0%nat), [169], [kclear; kclear], [], None);
   (a_seven 0 false, Some (None, 0%nat), [171], asked, [RC [55]], None);
   (a_seven 0 false, a_seven 1 true, [389], asked, [RC [55]], Some (JNum [55]));
   (a_seven 0 false, a_seven 1 true, [389], asked, [RC [55]], Some (JNum [55]))].
Remark see_keeper n l Z : nth_error keeper_events n = Some l -> zrplay the_judge (zseq (firstn n keeper)) ((rstart, []), []) = Some (tt, Z) -> seen_keeper Z = l.
Proof.
  intros H E. assert (Q : at_keeper n = Some l).
  { do 8 (destruct n as [|n]; [rewrite <- H; vm_compute; reflexivity|]). destruct n; discriminate H. }
  unfold at_keeper in Q. rewrite E in Q. now injection Q.
Qed.
Example C69_contract_case : prog_respects the_judge (zseq keeper) ((rstart, []), []).
Proof.
  apply zseq_respects. intros n c Z En E. pose proof (fun l H => see_keeper n l Z H E) as Q. clear E. destruct Z as [[R K] T].
  destruct n as [|[|[|[|[|[|[|[|n]]]]]]]]; [..|destruct n; discriminate En]; cbn [nth_error keeper] in En; injection En as <-;
    specialize (Q _ eq_refl); injection Q as Q1 Q2 Q3 Q4 Q5 Q6; cbn [stmt_contract gcall zcontract contract].
  - exact Logic.I.
  - eapply room_beta; [exact Q3|vm_compute; reflexivity].
  - eapply room_beta; [exact Q3|vm_compute; reflexivity].
  - exists None, 0%nat. split; [exact Q1|]. split; [split; [vm_compute; intuition discriminate|vm_compute; reflexivity]|]. eapply room_beta; [exact Q3|vm_compute; reflexivity].
  - do 2 eexists. split; [exact Q1|]. intros i t b [= <- <-] Hb k _ _. cbn in Hb. injection Hb as <-. eapply room_beta; [exact Q3|vm_compute; reflexivity].
  - exists false, [55]. split; [now rewrite Q5|]. split; [reflexivity|]. exists None, 0%nat. split; [exact Q2|]. split; [cbn; intuition|]. split; [vm_compute; reflexivity|]. split.
    + intro Cl. apply (OverRead.cut_invalid _ _ Cl); [apply has0_no; reflexivity|]. exists (JNum [55]).
      apply (jd_json _ judge_correct); [apply has0_no; reflexivity|vm_compute; reflexivity].
    + eapply room_beta; [exact Q3|vm_compute; reflexivity].
  - rewrite Q5. apply le_n.
  - do 2 eexists. split; [exact Q2|]. intros i t j [= <- <-] [m Hc]. unfold reads_as in Q6. pose proof (read_fun _ _ _ _ _ _ Hc Q6) as ->.
    eapply room_beta; [exact Q3|vm_compute; reflexivity].
Qed.

(** ** C64 likewise, for several groups of allocators with releases *)
Theorem C64_contract : forall jd es, correct jd -> zwrespects jd es -> exists rs W Ks, zwrun jd es zrstart = Some (rs, (W, Ks)) /\
  exists f0, forall fuel, (f0 <= fuel)%nat ->
  exists Es B s, zerun fuel es zworld0 init = Ok ((rs, (Es, B)), s) /\ forall g, represents (wr W g) (Es g) s.
Proof. exact zwrespects_ok. Qed.
Print Assumptions C64_contract.
(** Two groups use the scratch string, which group 0 holds; group 1 is released. *)
Definition two_groups : list event :=
  [Do 0 CNewAllocator; Do 0 (CNewValue 0); Do 1 CNewAllocator; Do 1 (CNewValue 0);
   Do 0 (CSetText true KLen 0 (txt "7")); Do 1 (CSetText false KLenFast 0 (txt "a")); Release 1; Do 0 (CGetText true false 0); Do 0 (CStringify 0)].
Definition seen_two (Z : zref) := let W := fst Z in (look (wr W 0) 0, look (wr W 1) 0, ru (wr W 0), ru (wr W 1), (wc W, wdead W), reads_as (wr W 0) 0).
Definition at_two (n : nat) := option_map (fun x => seen_two (snd x)) (zwrun the_judge (firstn n two_groups) zrstart).
Definition an_a : option (option (N * tnode) * nat) := Some (Some (0, mkT None (NStr [97]) None true true false), 0%nat).
Definition two_events :=
  [(None, None, [], [], ([], false), None); (None, None, [0], [], ([], false), None); (Some (None, 0%nat), None, [48], [], ([], false), None);
   (Some (None, 0%nat), None, [48], [0], ([], false), None); (Some (None, 0%nat), Some (None, 0%nat), [48], [48], ([], false), None);
   (a_seven 0 false, Some (None, 0%nat), [281], [48], ([0%nat], false), Some (JNum [55]));
   (a_seven 0 false, an_a, [514], [281], ([0%nat], false), Some (JNum [55]));
   (a_seven 0 false, None, [514], [], ([0%nat], false), Some (JNum [55]));
   (a_seven 0 false, None, [516], [], ([0%nat], false), Some (JNum [55]))].
Remark see_two n l xs Z : nth_error two_events n = Some l -> zwrun the_judge (firstn n two_groups) zrstart = Some (xs, Z) -> seen_two Z = l.
Proof.
  intros H E. assert (Q : at_two n = Some l).
  { do 9 (destruct n as [|n]; [rewrite <- H; vm_compute; reflexivity|]). destruct n; discriminate H. }
  unfold at_two in Q. rewrite E in Q. now injection Q.
Qed.
Remark all_beta R u n : ru R = [u] -> (u + n <=? two30) = true -> roomy_all R n.
Proof. intros H L. unfold roomy_all. rewrite H. constructor; [now apply N.leb_le|constructor]. Qed.
Example C64_contract_case : zwrespects the_judge two_groups.
Proof.
  intros n e xs Z En E. pose proof (fun l H => see_two n l xs Z H E) as Q. clear E.
  destruct n as [|[|[|[|[|[|[|[|[|n]]]]]]]]]; [..|destruct n; discriminate En]; cbn [nth_error two_groups] in En; injection En as <-;
    specialize (Q _ eq_refl); injection Q as Q1 Q2 Q3 Q4 Q5 Q6 Q7; cbn [zwcontract zcontract contract].
  - split; [exact Logic.I|]. intro H. now elim H.
  - split; [eapply room_beta; [exact Q3|vm_compute; reflexivity]|]. intro H. now elim H.
  - split; [exact Logic.I|]. intro H. now elim H.
  - split; [eapply room_beta; [exact Q4|vm_compute; reflexivity]|]. intro H. now elim H.
  - split.
    + exists None, 0%nat. split; [exact Q1|]. split; [vm_compute; reflexivity|]. eapply all_beta; [exact Q3|vm_compute; reflexivity].
    + intros _. split; [exact Q6|]. rewrite Q5. now intros j [].
  - split.
    + exists None, 0%nat. split; [exact Q2|]. split; [vm_compute; reflexivity|]. eapply all_beta; [exact Q4|vm_compute; reflexivity].
    + intros _. split; [exact Q6|]. rewrite Q5. intros j [<-|[]] _. eapply all_beta; [exact Q3|vm_compute; reflexivity].
  - exact Logic.I.
  - split; [|intro H; now elim H]. do 2 eexists. split; [exact Q1|]. intros i t b [= <- <-] Hb k _ _. cbn in Hb. injection Hb as <-. eapply room_beta; [exact Q3|vm_compute; reflexivity].
  - split; [|intro H; now elim H]. do 2 eexists. split; [exact Q1|]. intros i t j [= <- <-] [m Hc]. unfold reads_as in Q7. pose proof (read_fun _ _ _ _ _ _ Hc Q7) as ->.
    eapply room_beta; [exact Q3|vm_compute; reflexivity].
Qed.

(** ** C62 also with several groups and releases: every text z_ValueStringify answers is JSON *)
Theorem C62_groups : forall jd es rs W Ks, correct jd -> zwrun jd es zrstart = Some (rs, (W, Ks)) ->
  exists f0, forall fuel, (f0 <= fuel)%nat -> exists Es B s, zerun fuel es zworld0 init = Ok ((rs, (Es, B)), s) /\
    forall n g h, nth_error es n = Some (Do g (CStringify h)) -> exists t, nth_error rs n = Some (Text (Some t)) /\ (t = [] \/ exists j, json_text t j).
Proof. exact zworld_valid. Qed.
Print Assumptions C62_groups.
Example C62_groups_case : option_map fst (zwrun the_judge two_groups zrstart) = Some
  [Arena 0; Value (Some 0%nat); Arena 0; Value (Some 0%nat); Bool true; Bool true; Done; Text (Some (txt "7")); Text (Some (txt "7"))].
Proof. vm_compute. reflexivity. Qed.
