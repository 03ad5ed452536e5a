(** Property C77: the short names of the beta header do what the functions do. *)
From Verif Require Import Base Spec AllocProofs PrintFacts Mem Api Double Vocab Scene Hist HistRun HistSim HistStep HistAll HistJudge Dom HistDocs HistCover Beta BetaHist BetaSim BetaClient BetaCover.
From Verif Require Import HistMany HistWorld HistCoverMany BetaLeak BetaWorld BetaCoverMany Keep KeepWorld BetaKeepWorld BetaKeepCover Names BetaNames.
From Verif Require PropBeta7.

(** ** C77 A program may mix the two sets of names of the beta header

    The beta header offers its functions as z_Value... and z_Allocator..., and under short names.
    Each of the 52 functions is the same under both. *)
Theorem C77_functions : forall short, zapi_of short = zlong_api.
Proof. exact zapi_same. Qed.
Print Assumptions C77_functions.
(** Every call from any state: the same answer, the same memory, the same results remembered in
    the value objects, and the same failures. *)
Theorem C77_call : forall short fuel c E B, nbstep (zapi_of short) fuel c E B = bstep fuel c E B.
Proof. exact nbstep_same. Qed.
Print Assumptions C77_call.
(** Programs that keep pointers and work with several groups of allocators (C72), and choose
    the name anew for every statement. *)
Theorem C77_program : forall X fuel (p : nzprog X) Z s, nzplay fuel p Z s = zgmplay fuel (zspelt p) Z s.
Proof. exact nzplay_same. Qed.
Print Assumptions C77_program.
(** So what the reference of C72 says of a program with the functions, it says of this one. *)
Theorem C77_client : forall jd, correct jd -> forall X (p : nzprog X) x W Ks T, zgrplay jd (zspelt p) (zrstart, []) = Some (x, ((W, Ks), T)) ->
  forall fuel, (zgpmost jd (zspelt p) (zrstart, []) <= fuel)%nat ->
  exists Es B P s, nzplay fuel p (zworld0, []) init = Ok ((x, ((Es, B), P)), s) /\ forall g, represents (wr W g) (Es g) s.
Proof. exact nzclient. Qed.
Print Assumptions C77_client.

(** It is enough that the program respects the contract of the functions (BetaKeepCover.v). *)
Theorem C77_contract : forall jd, correct jd -> forall X (p : nzprog X), zgrespects jd (zspelt p) (zrstart, []) ->
  exists x W Ks T, zgrplay jd (zspelt p) (zrstart, []) = Some (x, ((W, Ks), T)) /\ forall fuel, (zgpmost jd (zspelt p) (zrstart, []) <= fuel)%nat ->
  exists Es B P s, nzplay fuel p (zworld0, []) init = Ok ((x, ((Es, B), P)), s) /\ forall g, represents (wr W g) (Es g) s.
Proof. exact nzcontract. Qed.
Print Assumptions C77_contract.

(** A string is set with the short name, its text got with the function and stored in another
    group with the short name; the first group is released with the short name. *)
Definition two_tongues : nzprog (list answer) :=
  NZAct true (ZIn 0 (ZApi CNewAllocator)) (fun _ => NZAct false (ZIn 0 (ZApi (CNewValue 0))) (fun _ =>
  NZAct true (ZIn 0 (ZApi (CSetText false KCopy 0 (txt "ab")))) (fun a1 => NZAct false (ZIn 1 (ZApi CNewAllocator)) (fun _ =>
  NZAct true (ZIn 1 (ZApi (CNewValue 0))) (fun _ => NZAct false (ZIn 0 (ZTake GStr 0)) (fun a2 =>
  NZAct true (ZIn 1 (ZSetText false false 0 0)) (fun a3 => NZAct true (ZRelease 0) (fun a4 =>
  NZAct true (ZIn 1 (ZApi (CStringify 0))) (fun a5 => NZRet [a1; a2; a3; a4; a5]))))))))).
Definition tongues_say : list answer := [Bool true; Text (Some (txt "ab")); Bool true; Done; Text (Some (txt """ab"""))].
Example C77_case : option_map fst (zgrplay the_judge (zspelt two_tongues) (zrstart, [])) = Some tongues_say.
Proof. vm_compute. reflexivity. Qed.
Example C77_run : exists Z s, nzplay (zgpmost the_judge (zspelt two_tongues) (zrstart, [])) two_tongues (zworld0, []) init = Ok ((tongues_say, Z), s).
Proof.
  pose proof C77_case as H. destruct (zgrplay the_judge (zspelt two_tongues) (zrstart, [])) as [[x [[W Ks] T]]|] eqn:E; [|discriminate H]. injection H as ->.
  destruct (C77_client the_judge judge_correct _ _ _ _ _ _ E _ (le_n _)) as (Es & B & P & s & Q & _). eauto.
Qed.
(** The program of C72 that respects the contract, with every second statement under the short
    name. *)
Fixpoint by_turns (short : bool) (cs : list zgstmt) : nzprog unit :=
  match cs with [] => NZRet tt | c :: r => NZAct short c (fun _ => by_turns (negb short) r) end.
Example C77_contract_case : zgrespects the_judge (zspelt (by_turns true PropBeta7.giving)) (zrstart, []).
Proof. exact PropBeta7.C72_contract_case. Qed.
