(** Property C74: programs with the C++ interface of zzzjson.h. *)
From Verif Require Import Base Spec Lex Alloc AllocProofs Mem MemProofs Api PureParse Dom Vocab Start Scene Cpp Hist HistRun HistStep HistAll HistJudge HistMany HistWorld HistCover HistCoverMany BetaClient Keep KeepWorld KeepCover Leak CppWorld.

(** ** C74 Programs with C++ allocator objects see what C programs see, and free everything

    A program [p] works with any number of groups of allocators.  [XLocal g] constructs an
    allocator object of class zj_Allocator, [XEnd g] lets the allocators of group [g] go in
    reverse order, objects by their destructor, the others by ReleaseAllocator; [XIn g c] is
    any statement of C70, through the methods of the values.  It may decide by the answers,
    keep texts and pass them to other groups.  [as_g p] is the same program in C: with
    zj_NewAllocator and zj_ReleaseAllocator; what it should see is said by the reference
    semantics of C71. *)
Theorem C74_client : forall jd, correct jd -> forall X (p : xprog X) x W T, grplay jd (as_g p) (wstart, []) = Some (x, (W, T)) ->
  forall fuel, (gpmost jd (as_g p) (wstart, []) <= fuel)%nat ->
  exists Es P L s, xmplay fuel p xstart init = Ok ((x, ((Es, P), L)), s) /\ forall g, represents (wr W g) (Es g) s.
Proof. exact xclient. Qed.
Print Assumptions C74_client.
Theorem C74_same : forall jd, correct jd -> forall X (p : xprog X) x W T, grplay jd (as_g p) (wstart, []) = Some (x, (W, T)) ->
  forall fuel, (gpmost jd (as_g p) (wstart, []) <= fuel)%nat ->
  exists Z s Z' s', xmplay fuel p xstart init = Ok ((x, Z), s) /\ gmplay fuel (as_g p) (wenv0, []) init = Ok ((x, Z'), s').
Proof. exact xsame. Qed.
Print Assumptions C74_same.
(** Within the contract of C71, call by call. *)
Theorem C74_contract : forall jd, correct jd -> forall X (p : xprog X), grespects jd (as_g p) (wstart, []) ->
  exists x W T, grplay jd (as_g p) (wstart, []) = Some (x, (W, T)) /\ forall fuel, (gpmost jd (as_g p) (wstart, []) <= fuel)%nat ->
  exists Es P L s, xmplay fuel p xstart init = Ok ((x, ((Es, P), L)), s) /\ forall g, represents (wr W g) (Es g) s.
Proof. exact xcontract_ok. Qed.
Print Assumptions C74_contract.
(** Whatever a program does, as long as it has not crashed: a block in use is static, a buffer
    of the caller, or belongs to an allocator of a group that has not ended.  So when all
    groups have ended everything is free. *)
Theorem C74_no_leak : forall X fuel (p : xprog X) x Es P L s b, xmplay fuel p xstart init = Ok ((x, ((Es, P), L)), s) -> sbsize s b <> None ->
  sbsize init b <> None \/ In b (xbuffers fuel p xstart init) \/ exists g A, In A (ea (Es g)) /\ owns s A b.
Proof. exact xno_leak. Qed.
Print Assumptions C74_no_leak.
Theorem C74_all_freed : forall X fuel (p : xprog X) x Es P L s b, xmplay fuel p xstart init = Ok ((x, ((Es, P), L)), s) ->
  (forall g, ea (Es g) = []) -> sbsize s b <> None -> sbsize init b <> None \/ In b (xbuffers fuel p xstart init).
Proof. exact xall_freed. Qed.
Print Assumptions C74_all_freed.

(** Two objects and an allocator of NewAllocator in group 0, one object in group 1, which gets
    the text of the first member as its own; group 0 ends, group 1 is printed and ends. *)
Definition guest (t : bytes) : xprog (list answer) :=
  XAct (XLocal 0) (fun _ => XAct (XLocal 0) (fun _ => XAct (XIn 0 (PApi CNewAllocator)) (fun _ => XAct (XIn 0 (PApi (CNewValue 1))) (fun _ =>
  XAct (XIn 0 (PApi (CParse PCopy 0 t []))) (fun _ => XAct (XIn 0 (PApi (CBegin 0))) (fun b => match b with
  | Value (Some h) =>
      XAct (XLocal 1) (fun a => XAct (XIn 1 (PApi (CNewValue 0))) (fun _ => XAct (XIn 0 (PTake (PViewText false) h)) (fun v =>
      XAct (XIn 1 (PGive (TText false false) 0 0)) (fun r => XAct (XEnd 0) (fun d => XAct (XIn 1 (PApi (CStringify 0))) (fun o =>
      XAct (XEnd 1) (fun e => XRet [a; v; r; d; o; e])))))))
  | _ => XAct (XEnd 0) (fun d => XRet [d])
  end)))))).
Definition guest_text : bytes := txt "{""k"":""a""}".
Definition guest_answers : list answer := [Arena 0; Text (Some (txt "a")); Bool true; Done; Text (Some (txt """a""")); Done].
Example C74_case : option_map fst (grplay the_judge (as_g (guest guest_text)) (wstart, [])) = Some guest_answers /\
  option_map fst (grplay the_judge (as_g (guest (txt "{}"))) (wstart, [])) = Some [Done].
Proof. vm_compute. auto. Qed.
Example C74_run : match xmplay 20 (guest guest_text) xstart init with
  | Ok ((x, ((Es, P), L)), s) => x = guest_answers /\ L = [5; 2; 1] /\ map ea [Es 0%nat; Es 1%nat] = [[]; []] /\
      map (fun b => is_some (sbsize s b)) [1; 2; 3; 4; 5; 6; 7] = [false; false; false; false; false; false; false] /\ xbuffers 20 (guest guest_text) xstart init = []
  | Err _ => False
  end.
Proof. vm_compute. intuition. Qed.
(** A program that respects the contract. *)
Definition visitor : xprog answer :=
  XAct (XLocal 0) (fun _ => XAct (XIn 0 (PApi (CNewValue 0))) (fun _ => XAct (XIn 0 (PApi (CSetNull 0))) (fun _ => XAct (XIn 0 (PTake PPrint 0)) (fun a => XAct (XEnd 0) (fun _ => XRet a))))).
Example C74_contract_case : grespects the_judge (as_g visitor) (wstart, []).
Proof.
  cbn [as_g visitor in_g grespects].
  split; [cbn [gcontract wcontract contract]; split; [exact Logic.I|intro H; now elim H]|]. intros a1 [W1 T1] E1. vm_compute in E1. injection E1 as <- <- <-.
  split; [cbn [gcontract wcontract contract]; split; [exists 0; split; [reflexivity|vm_compute; discriminate]|intro H; now elim H]|].
  intros a2 [W2 T2] E2. vm_compute in E2. injection E2 as <- <- <-.
  split; [cbn [gcontract wcontract contract]; split; [exists None, 0%nat; split; [reflexivity|]; exists 16; split; [reflexivity|vm_compute; discriminate]|intro H; now elim H]|].
  intros a3 [W3 T3] E3. vm_compute in E3. injection E3 as <- <- <-.
  split; [cbn [gcontract wcontract contract pcall]; split; [|intro H; now elim H]|].
  - do 2 eexists. split; [reflexivity|]. intros i t j [= <- <-] [n Hc]. assert (j = JNull) as -> by (destruct n; [discriminate|]; cbn in Hc; congruence).
    exists 88. split; [reflexivity|vm_compute; discriminate].
  - intros a4 Z4 _. split; [exact Logic.I|]. intros. exact Logic.I.
Qed.
