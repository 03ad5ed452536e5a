(** Property C76: the short names and the C++ methods do what the functions do. *)
From Verif Require Import Base Spec AllocProofs PrintFacts Mem Api Double Vocab Scene Hist HistRun HistSim HistStep HistAll HistJudge HistMany HistWorld Dom BetaClient Keep KeepWorld HistDocs HistCover HistCoverMany KeepCover Leak Cpp CppWorld Names NamesOwn.

(** ** C76 A program may use the three interfaces of zzzjson.h as it likes

    zzzjson.h offers its functions under their names, under short names without zj_, and for C++
    as methods of the value; GetNum and SetNum are further names of GetDouble and SetDouble.
    Each of the 64 functions is the same function under all names. *)
Theorem C76_functions : forall i num, api_of i num = long_api.
Proof. exact api_same. Qed.
Print Assumptions C76_functions.
(** Every call through any interface, from any state, good or bad: the same answer, the same
    memory and the same failures as the call of the function. *)
Theorem C76_call : forall i num fuel c E, nstep (api_of i num) fuel c E = cstep fuel c E.
Proof. exact nstep_same. Qed.
Print Assumptions C76_call.
(** A program that keeps text pointers, works with several groups of allocators and chooses the
    interface anew for every statement runs, from any state, as the program that uses only the
    functions. *)
Theorem C76_program : forall X fuel (p : nprog X) Z s, nmplay fuel p Z s = gmplay fuel (spelt p) Z s.
Proof. exact nmplay_same. Qed.
Print Assumptions C76_program.
(** So its answers are those of the reference, and the documents it leaves. *)
Theorem C76_client : forall jd, correct jd -> forall X (p : nprog X) x W T, grplay jd (spelt p) (wstart, []) = Some (x, (W, T)) ->
  forall fuel, (gpmost jd (spelt p) (wstart, []) <= fuel)%nat ->
  exists Es P s, nmplay fuel p (wenv0, []) init = Ok ((x, (Es, P)), s) /\ forall g, represents (wr W g) (Es g) s.
Proof. exact nclient. Qed.
Print Assumptions C76_client.
(** It is enough that the program respects the contract of the functions (KeepCover.v). *)
Theorem C76_contract : forall jd, correct jd -> forall X (p : nprog X), grespects jd (spelt p) (wstart, []) ->
  exists x W T, grplay jd (spelt p) (wstart, []) = Some (x, (W, T)) /\ forall fuel, (gpmost jd (spelt p) (wstart, []) <= fuel)%nat ->
  exists Es P s, nmplay fuel p (wenv0, []) init = Ok ((x, (Es, P)), s) /\ forall g, represents (wr W g) (Es g) s.
Proof. exact ncontract. Qed.
Print Assumptions C76_contract.
(** The method Allocator, that has no function: on any value after any such program it gives the
    allocator the value was made with, and changes nothing. *)
Theorem C76_allocator : forall R E s h o k, represents R E s -> nth_error (rh R) h = Some (o, k) ->
  exists v A, nth_error (eh E) h = Some v /\ nth_error (ea E) k = Some A /\ m_Allocator v s = Ok (A, s).
Proof. exact allocator_of. Qed.
Print Assumptions C76_allocator.
(** A value made with the allocator of another value is a value made with that allocator. *)
Theorem C76_beside : forall i num R E s h o k fuel, represents R E s -> nth_error (rh R) h = Some (o, k) ->
  beside (api_of i num) h E s = cstep fuel (CNewValue k) E s.
Proof. exact beside_same. Qed.
Print Assumptions C76_beside.

(** So a program may make its values so, in the midst of other statements (NamesOwn.v).  If it
    runs on the reference, where such a value is one of the allocator that value [h] is from, it
    runs on the code with the same result, which is that of the program that remembers the
    allocators itself. *)
Theorem C76_own : forall jd, correct jd -> forall X (p : oprog X) x W T, orplay jd p (wstart, []) = Some (x, (W, T)) ->
  forall fuel, (opmost jd p (wstart, []) <= fuel)%nat ->
  exists Es P s, omplay fuel p (wenv0, []) init = Ok ((x, (Es, P)), s) /\ forall g, represents (wr W g) (Es g) s.
Proof. exact oclient. Qed.
Print Assumptions C76_own.
Theorem C76_own_same : forall jd, correct jd -> forall X (p : oprog X) x W T, orplay jd p (wstart, []) = Some (x, (W, T)) ->
  forall fuel, (opmost jd p (wstart, []) <= fuel)%nat ->
  exists Z s Z' s', omplay fuel p (wenv0, []) init = Ok ((x, Z), s) /\ gmplay fuel (resolve jd p (wstart, [])) (wenv0, []) init = Ok ((x, Z'), s').
Proof. exact osame. Qed.
Print Assumptions C76_own_same.
(** It is enough that the latter respects the contract of the functions. *)
Theorem C76_own_contract : forall jd, correct jd -> forall X (p : oprog X), grespects jd (resolve jd p (wstart, [])) (wstart, []) ->
  exists x W T, orplay jd p (wstart, []) = Some (x, (W, T)) /\ forall fuel, (opmost jd p (wstart, []) <= fuel)%nat ->
  exists Es P s, omplay fuel p (wenv0, []) init = Ok ((x, (Es, P)), s) /\ forall g, represents (wr W g) (Es g) s.
Proof. exact ocontract. Qed.
Print Assumptions C76_own_contract.
(** The same in C++, with allocators that are objects (C74): with any mixture of interfaces the
    program runs as the one with the functions, from any state. *)
Theorem C76_objects : forall X fuel (p : nxprog X) Z s, nxplay fuel p Z s = xmplay fuel (xspelt p) Z s.
Proof. exact nxplay_same. Qed.
Print Assumptions C76_objects.
Theorem C76_objects_client : forall jd, correct jd -> forall X (p : nxprog X) x W T, grplay jd (as_g (xspelt p)) (wstart, []) = Some (x, (W, T)) ->
  forall fuel, (gpmost jd (as_g (xspelt p)) (wstart, []) <= fuel)%nat ->
  exists Es P L s, nxplay fuel p xstart init = Ok ((x, ((Es, P), L)), s) /\ forall g, represents (wr W g) (Es g) s.
Proof. exact nxclient. Qed.
Print Assumptions C76_objects_client.
Theorem C76_all_freed : forall X fuel (p : nxprog X) x Es P L s b, nxplay fuel p xstart init = Ok ((x, ((Es, P), L)), s) ->
  (forall g, ea (Es g) = []) -> sbsize s b <> None -> sbsize init b <> None \/ In b (xbuffers fuel (xspelt p) xstart init).
Proof. exact nxall_freed. Qed.
Print Assumptions C76_all_freed.

(** A program that uses all of them: a document made with short names, read with methods, its
    text stored in another document with functions, the first released with the short name. *)
Definition motley : nprog (list answer) :=
  NAct Short false (GIn 0 (PApi CNewAllocator)) (fun _ => NAct Method false (GIn 0 (PApi (CNewValue 0))) (fun _ =>
  NAct Short false (GIn 0 (PApi (CParse PCopy 0 (txt "[""ab""]") []))) (fun a1 =>
  NAct Method false (GIn 0 (PApi (CArrayGet 0 0))) (fun a2 => NAct Method false (GIn 0 (PTake (PText false) 1)) (fun a3 =>
  NAct Long false (GIn 1 (PApi CNewAllocator)) (fun _ => NAct Short false (GIn 1 (PApi (CNewValue 0))) (fun _ =>
  NAct Long false (GIn 1 (PGive (TText false false) 0 0)) (fun a4 =>
  NAct Short false (GRelease 0) (fun _ => NAct Method false (GIn 1 (PApi (CStringify 0))) (fun a5 =>
  NAct Short true (GIn 1 (PApi (CGetDouble 0))) (fun a6 => NAct Method false (GIn 1 (PApi (CSetInt 0 (-7)))) (fun a7 => NRet [a1; a2; a3; a4; a5; a6; a7])))))))))))).
Definition motley_answers : list answer :=
  [Bool true; Value (Some 1%nat); Text (Some (txt "ab")); Bool true; Text (Some (txt """ab""")); Real None; Bool true].
Example C76_case : option_map fst (grplay the_judge (spelt motley) (wstart, [])) = Some motley_answers.
Proof. vm_compute. reflexivity. Qed.
Example C76_run : exists Z s, nmplay (gpmost the_judge (spelt motley) (wstart, [])) motley (wenv0, []) init = Ok ((motley_answers, Z), s).
Proof.
  pose proof C76_case as H. destruct (grplay the_judge (spelt motley) (wstart, [])) as [[x [W T]]|] eqn:E; [|discriminate H]. injection H as ->.
  destruct (C76_client the_judge judge_correct _ _ _ _ _ E _ (le_n _)) as (Es & P & s & Q & _). eauto.
Qed.
(** And one whose second document is made with the allocator of the first. *)
Definition alone_made : nprog unit :=
  NAct Method false (GIn 0 (PApi CNewAllocator)) (fun _ => NAct Short false (GIn 0 (PApi (CNewValue 0))) (fun _ => NRet tt)).
Example C76_made : option_map (fun x => nth_error (rh (wr (fst (snd x)) 0)) 0) (grplay the_judge (spelt alone_made) (wstart, [])) = Some (Some (None, 0%nat)).
Proof. vm_compute. reflexivity. Qed.
Example C76_beside_case : exists Es P s v A, nmplay (gpmost the_judge (spelt alone_made) (wstart, [])) alone_made (wenv0, []) init = Ok ((tt, (Es, P)), s) /\
  nth_error (eh (Es 0%nat)) 0 = Some v /\ nth_error (ea (Es 0%nat)) 0 = Some A /\ m_Allocator v s = Ok (A, s) /\
  beside (api_of Method false) 0 (Es 0%nat) s = cstep 9 (CNewValue 0) (Es 0%nat) s.
Proof.
  pose proof C76_made as H. destruct (grplay the_judge (spelt alone_made) (wstart, [])) as [[[] [W T]]|] eqn:E; [|discriminate H].
  assert (K : nth_error (rh (wr W 0)) 0 = Some (None, 0%nat)) by exact (f_equal (fun o => match o with Some x => x | None => None end) H). clear H.
  destruct (C76_client the_judge judge_correct _ _ _ _ _ E _ (le_n _)) as (Es & P & s & Q & Rp).
  destruct (C76_allocator _ _ _ _ _ _ (Rp 0%nat) K) as (v & A & Hv & HA & Hm). exists Es, P, s, v, A. split; [exact Q|]. split; [exact Hv|]. split; [exact HA|]. split; [exact Hm|].
  exact (C76_beside Method false _ _ _ _ _ _ 9%nat (Rp 0%nat) K).
Qed.
(** In C++: an object and an allocator of NewAllocator in group 0, values through methods. *)
Definition methodical : nxprog (list answer) :=
  NXAct Method false (XLocal 0) (fun _ => NXAct Short false (XIn 0 (PApi CNewAllocator)) (fun _ => NXAct Method false (XIn 0 (PApi (CNewValue 0))) (fun _ =>
  NXAct Method false (XIn 0 (PApi (CSetText false KCopy 0 (txt "a")))) (fun a1 => NXAct Method false (XIn 0 (PApi (CStringify 0))) (fun a2 =>
  NXAct Short false (XEnd 0) (fun a3 => NXRet [a1; a2; a3])))))).
Example C76_objects_case : option_map fst (grplay the_judge (as_g (xspelt methodical)) (wstart, [])) = Some [Bool true; Text (Some (txt """a""")); Done].
Proof. vm_compute. reflexivity. Qed.
Example C76_freed_case : match nxplay 20 methodical xstart init with
  | Ok ((x, ((Es, P), L)), s) => x = [Bool true; Text (Some (txt """a""")); Done] /\ L = [1] /\ ea (Es 0%nat) = [] /\ map (fun b => is_some (sbsize s b)) [1; 2; 3; 4] = [false; false; false; false]
  | Err _ => False
  end.
Proof. vm_compute. auto. Qed.
(** Values of two allocators in one group; a member is found in the document of the second, and
    a value made with the allocator of the member is added to the document. *)
Definition own : oprog (list answer) :=
  let m c k := OAct Method false (OStmt (GIn 0 (PApi c))) k in
  OAct Short false (OStmt (GIn 0 (PApi CNewAllocator))) (fun _ => OAct Short false (OStmt (GIn 0 (PApi CNewAllocator))) (fun _ =>
  m (CNewValue 1) (fun _ => m (CParse PCopy 0 (txt "[[]]") []) (fun _ => m (CBegin 0) (fun _ =>
  OAct Method false (OBeside 0 1) (fun a1 => m (CSetBool 2 true) (fun _ => m (CAdd false true 0 2) (fun a2 => m (CStringify 0) (fun a3 => ORet [a1; a2; a3]))))))))).
Definition own_answers : list answer := [Value (Some 2%nat); Bool true; Text (Some (txt "[[],true]"))].
Example C76_own_case : option_map (fun x => (fst x, map snd (rh (wr (fst (snd x)) 0)))) (orplay the_judge own (wstart, [])) = Some (own_answers, [1; 1; 1]%nat).
Proof. vm_compute. reflexivity. Qed.
Example C76_own_run : exists Z s, omplay (opmost the_judge own (wstart, [])) own (wenv0, []) init = Ok ((own_answers, Z), s).
Proof.
  pose proof C76_own_case as H. destruct (orplay the_judge own (wstart, [])) as [[x [W T]]|] eqn:E; [|discriminate H].
  assert (K : x = own_answers) by exact (f_equal (fun o => match o with Some y => fst y | None => x end) H). clear H. subst x.
  destruct (C76_own the_judge judge_correct _ _ _ _ _ E _ (le_n _)) as (Es & P & s & Q & _). eauto.
Qed.
(** Programs that respect the contract. *)
Remark fresh_room R u n : ru R = [u] -> (u + n <=? two30) = true -> roomy R 0 n.
Proof. intros H L. exists u. rewrite H. split; [reflexivity|now apply N.leb_le]. Qed.
Example C76_contract_case : grespects the_judge (spelt alone_made) (wstart, []).
Proof.
  cbn [spelt alone_made grespects]. split; [split; [exact Logic.I|]; intro H; now elim H|]. intros a Z1 E1.
  assert (K : ru (wr (fst Z1) 0) = [0] /\ snd Z1 = []).
  { assert (Q : option_map (fun x => (ru (wr (fst (snd x)) 0), snd (snd x))) (gsstep the_judge (GIn 0 (PApi CNewAllocator)) (wstart, [])) = Some ([0], [])) by (vm_compute; reflexivity).
    rewrite E1 in Q. cbn [option_map fst snd] in Q. injection Q as Q1 Q2. auto. }
  clear E1. destruct K as [K1 K2]. split; [|intros b Z2 _; exact Logic.I].
  split; [apply (fresh_room _ 0 _ K1); vm_compute; reflexivity|]. intro H. now elim H.
Qed.
Definition own_made : oprog unit :=
  OAct Short false (OStmt (GIn 0 (PApi CNewAllocator))) (fun _ => OAct Method false (OStmt (GIn 0 (PApi (CNewValue 0)))) (fun _ =>
  OAct Method false (OBeside 0 0) (fun _ => ORet tt))).
Definition made_first : option (answer * gst) := gsstep the_judge (GIn 0 (PApi CNewAllocator)) (wstart, []).
Definition made_second : option (answer * gst) := match made_first with Some (_, Z) => gsstep the_judge (GIn 0 (PApi (CNewValue 0))) Z | None => None end.
Definition made_seen (Z : gst) := (ru (wr (fst Z) 0), rh (wr (fst Z) 0)).
Remark made_first_seen : option_map (fun x => made_seen (snd x)) made_first = Some ([0], []).
Proof. vm_compute. reflexivity. Qed.
Remark made_second_seen : option_map (fun x => made_seen (snd x)) made_second = Some ([16], [(None, 0%nat)]).
Proof. vm_compute. reflexivity. Qed.
Example C76_own_contract_case : grespects the_judge (resolve the_judge own_made (wstart, [])) (wstart, []).
Proof.
  unfold own_made. cbn [resolve in_place grespects]. split; [split; [exact Logic.I|]; intro H; now elim H|]. intros a Z1 E1. rewrite E1.
  pose proof made_first_seen as Q. pose proof made_second_seen as Q2. unfold made_second, made_first in Q, Q2. rewrite E1 in Q, Q2. clear E1.
  cbn [option_map snd] in Q. injection Q as K1 _. cbn [resolve in_place grespects]. split.
  - split; [apply (fresh_room _ 0 _ K1); vm_compute; reflexivity|]. intro H. now elim H.
  - intros b Z2 E2. rewrite E2 in Q2 |- *. clear E2. cbn [option_map snd] in Q2. injection Q2 as K2 K3. cbn [resolve in_place]. rewrite K3. cbn [nth_error grespects].
    split; [split; [apply (fresh_room _ 16 _ K2); vm_compute; reflexivity|]; intro H; now elim H|]. intros c Z3 E3. rewrite E3. exact Logic.I.
Qed.
