(** Property C75: programs with the classes of zzzjson.hpp and several groups of allocators. *)
From Verif Require Import Base Spec Alloc Mem MemProofs Dom AllocProofs Scene Hist HistRun HistSim HistStep HistAll HistJudge HistMany HistWorld HistCover HistCoverMany Leak Budget BetaClient Keep KeepWorld KeepCover Hpp HppAll HppClient HppCover HppWorld HppWorldCover HppWorldSame.

(** ** C75 Programs with the classes of zzzjson.hpp and several scopes of Allocator objects

    The Allocator objects of a program are in any number of groups; [YEnd g] destroys those of
    group [g], the last one constructed first, so that their memory and the wrapper objects in
    it go; [YIn g c] is any statement of C73 in group [g].  The program may decide by the
    answers, keep texts and pass them to objects of other groups.  [yrplay] says what it should
    see: each group has its own documents, as in C73, and a kept text is good until its group
    ends.  The classes give these answers, and the wrapper objects of each group stand for
    the values of its documents. *)
Theorem C75_client : forall jd, correct jd -> forall X (p : yprog X) x W T, yrplay jd p (wstart, []) = Some (x, (W, T)) ->
  exists f0, forall fuel, (f0 <= fuel)%nat ->
  exists Hs P s, ymplay fuel p ystart init = Ok ((x, (Hs, P)), s) /\ exists Es, (forall g, represents (wr W g) (Es g) s) /\ forall g, wrel (Hs g) (Es g) s.
Proof. exact yclient. Qed.
Print Assumptions C75_client.
(** The contract, call by call: what C73 asks for in the group of the call, and, for the calls
    that use the scratch string of the library, what C29 asks for. *)
Theorem C75_contract : forall jd, correct jd -> forall X (p : yprog X), yrespects jd p (wstart, []) ->
  exists x W T, yrplay jd p (wstart, []) = Some (x, (W, T)) /\ exists f0, forall fuel, (f0 <= fuel)%nat ->
  exists Hs P s, ymplay fuel p ystart init = Ok ((x, (Hs, P)), s) /\ exists Es, (forall g, represents (wr W g) (Es g) s) /\ forall g, wrel (Hs g) (Es g) s.
Proof. exact ycontract_ok. Qed.
Print Assumptions C75_contract.
(** The program sees what the same program written with zzzjson.h sees: [y_in_c] puts the
    function for each method, zj_ReleaseAllocator for each destructor, zj_NewValue with the
    allocator of the object for NewValue(), and zj_SetNumStrLen for SetNumStrLenFast. *)
Theorem C75_same : forall jd, correct jd -> forall X (p : yprog X) x W T, yrplay jd p (wstart, []) = Some (x, (W, T)) ->
  exists f0, forall fuel, (f0 <= fuel)%nat -> exists Z s Z' s', ymplay fuel p ystart init = Ok ((x, Z), s) /\
    gmplay fuel (y_in_c jd p (wstart, [])) (wenv0, []) init = Ok ((x, Z'), s').
Proof. exact y_in_c_same. Qed.
Print Assumptions C75_same.
(** Conversely a program [p] for zzzjson.h with several groups that does without
    zj_SetNumStrLenFast can be ported by putting the methods for the functions ([cstyle_g]). *)
Theorem C75_ported : forall jd, correct jd -> forall X (p : gprog X) x W T, plainly_g p -> yrplay jd (cstyle_g p) (wstart, []) = Some (x, (W, T)) ->
  exists f0, forall fuel, (f0 <= fuel)%nat -> exists Z s Z' s', ymplay fuel (cstyle_g p) ystart init = Ok ((x, Z), s) /\
    gmplay fuel p (wenv0, []) init = Ok ((x, Z'), s').
Proof. exact cstyle_g_same. Qed.
Print Assumptions C75_ported.
(** A statement in a group, also its end, leaves the documents and objects of the others. *)
Theorem C75_apart : forall jd c W T x W' T' j, ysstep jd c (W, T) = Some (x, (W', T')) -> j <> group_of c -> same_docs (wr W j) (wr W' j).
Proof. exact ysstep_apart. Qed.
Print Assumptions C75_apart.
(** A text got in group [j] by a part [p] of a program reads the same after any further part [q]
    that does not end group [j], whatever it does to the other groups. *)
Theorem C75_kept : forall jd, correct jd -> forall X Y (p : yprog X) (q : X -> yprog Y) k x W T y Z j r,
  yrplay jd p (wstart, []) = Some (x, (W, T)) -> nth_error T k = Some (Some (j, r)) -> yrplay jd (q x) (W, T) = Some (y, Z) -> spares j (q x) ->
  let a := Text (option_map snd (rtext r)) in
  exists f0, forall fuel, (f0 <= fuel)%nat -> exists Z' s, ymplay fuel (yreread p q k) ystart init = Ok (((a, a), Z'), s).
Proof. exact yreread_same. Qed.
Print Assumptions C75_kept.
(** Whatever a program does, as long as it has not crashed: a block in use is static, a buffer
    of the caller, or belongs to an Allocator object that was not destroyed.  So when all groups
    have ended everything is free. *)
Theorem C75_no_leak : forall X fuel (p : yprog X) x Hs P s b, ymplay fuel p ystart init = Ok ((x, (Hs, P)), s) -> sbsize s b <> None ->
  sbsize init b <> None \/ In b (ybuffers fuel p ystart init) \/ exists g A, In A (ha (Hs g)) /\ owns s A b.
Proof. exact yno_leak. Qed.
Print Assumptions C75_no_leak.
Theorem C75_all_freed : forall X fuel (p : yprog X) x Hs P s b, ymplay fuel p ystart init = Ok ((x, (Hs, P)), s) ->
  (forall g, ha (Hs g) = []) -> sbsize s b <> None -> sbsize init b <> None \/ In b (ybuffers fuel p ystart init).
Proof. exact yall_freed. Qed.
Print Assumptions C75_all_freed.

(** Two Allocator objects in group 0, one in group 1, which gets the text of the first member as
    its own; group 0 ends, group 1 is printed and ends. *)
Definition lodger (t : bytes) : yprog (list answer) :=
  YAct (YIn 0 (HApi (HC CNewAllocator))) (fun _ => YAct (YIn 0 (HApi (HC CNewAllocator))) (fun _ => YAct (YIn 0 (HApi (HC (CNewValue 1)))) (fun _ =>
  YAct (YIn 0 (HApi (HC (CParse PCopy 0 t [])))) (fun _ => YAct (YIn 0 (HApi (HC (CBegin 0)))) (fun b => match b with
  | Value (Some h) =>
      YAct (YIn 1 (HApi (HC CNewAllocator))) (fun a => YAct (YIn 1 (HApi (HC (CNewValue 0)))) (fun _ => YAct (YIn 0 (HTake (PViewText false) h)) (fun v =>
      YAct (YIn 1 (HGive (TText false false) 0 0)) (fun r => YAct (YEnd 0) (fun d => YAct (YIn 1 (HApi (HC (CStringify 0)))) (fun o =>
      YAct (YEnd 1) (fun e => YRet [a; v; r; d; o; e])))))))
  | _ => YAct (YEnd 0) (fun d => YRet [d])
  end))))).
Definition lodger_text : bytes := txt "{""k"":""a""}".
Definition lodger_answers : list answer := [Arena 0; Text (Some (txt "a")); Bool true; Done; Text (Some (txt """a""")); Done].
Example C75_case : option_map fst (yrplay the_judge (lodger lodger_text) (wstart, [])) = Some lodger_answers /\
  option_map fst (yrplay the_judge (lodger (txt "{}")) (wstart, [])) = Some [Done].
Proof. vm_compute. auto. Qed.
Example C75_run : match ymplay 20 (lodger lodger_text) ystart init with
  | Ok ((x, (Hs, P)), s) => x = lodger_answers /\ map ha [Hs 0%nat; Hs 1%nat] = [[]; []] /\ map hw [Hs 0%nat; Hs 1%nat] = [[]; []] /\
      map (fun b => is_some (sbsize s b)) [1; 2; 3; 4; 5; 6; 7] = [false; false; false; false; false; false; false] /\ ybuffers 20 (lodger lodger_text) ystart init = []
  | Err _ => False
  end.
Proof. vm_compute. intuition. Qed.
(** Handing the text on without a copy (SetStrLenFast) to the other group has no meaning: the
    text would go with group 0. *)
Example C75_fast_case : forall jd W t, ysstep jd (YIn 1 (HGive (TText false true) 0 0)) (W, [Some (0%nat, RV t)]) = None.
Proof. reflexivity. Qed.
(** A program that respects the contract. *)
Definition renter : yprog answer :=
  YAct (YIn 0 (HApi (HC CNewAllocator))) (fun _ => YAct (YIn 0 (HApi (HC (CNewValue 0)))) (fun _ => YAct (YIn 0 (HApi (HC (CSetNull 0)))) (fun _ =>
  YAct (YIn 0 (HTake PPrint 0)) (fun a => YAct (YEnd 0) (fun _ => YRet a))))).
Example C75_contract_case : yrespects the_judge renter (wstart, []).
Proof.
  cbn [renter yrespects].
  split; [cbn [yscontract]; split; [split; exact Logic.I|intro H; now elim H]|]. intros a1 [W1 T1] E1. vm_compute in E1. injection E1 as <- <- <-.
  split; [cbn [yscontract]; split; [cbn [hcontract contract as_c]; split; exists 0; split; [reflexivity|vm_compute; discriminate|reflexivity|vm_compute; discriminate]|intro H; now elim H]|].
  intros a2 [W2 T2] E2. vm_compute in E2. injection E2 as <- <- <-.
  split; [cbn [yscontract]; split; [cbn [hcontract contract as_c]; split; [exists None, 0%nat; split; [reflexivity|]; exists 24; split; [reflexivity|vm_compute; discriminate]|exact Logic.I]|intro H; now elim H]|].
  intros a3 [W3 T3] E3. vm_compute in E3. injection E3 as <- <- <-.
  split; [cbn [yscontract pcall]; split; [cbn [hcontract contract as_c]; split; [|exact Logic.I]|intro H; now elim H]|].
  - do 2 eexists. split; [reflexivity|]. intros i t j [= <- <-] [n Hc]. assert (j = JNull) as -> by (destruct n; [discriminate|]; cbn in Hc; congruence).
    exists 96. split; [reflexivity|vm_compute; discriminate].
  - intros a4 Z4 _. split; [exact Logic.I|]. intros. exact Logic.I.
Qed.
(** The printed text of group 1 is kept while its document is changed and group 0 ends. *)
Definition keeper : yprog unit :=
  YAct (YIn 0 (HApi (HC CNewAllocator))) (fun _ => YAct (YIn 0 (HApi (HC (CNewValue 0)))) (fun _ => YAct (YIn 1 (HApi (HC CNewAllocator))) (fun _ => YAct (YIn 1 (HApi (HC (CNewValue 0)))) (fun _ =>
  YAct (YIn 1 (HApi (HC (CParse PCopy 0 (txt "[1]") [])))) (fun _ => YAct (YIn 1 (HTake PPrint 0)) (fun _ => YRet tt)))))).
Definition changer : yprog answer :=
  YAct (YIn 1 (HApi (HC (CSetNull 0)))) (fun _ => YAct (YEnd 0) (fun _ => YAct (YIn 1 (HApi (HC (CStringify 0)))) (fun a => YRet a))).
Example C75_kept_case : match yrplay the_judge keeper (wstart, []) with
  | Some (_, (W, T)) => nth_error T 0 = Some (Some (1%nat, RC (txt "[1]"))) /\ option_map fst (yrplay the_judge changer (W, T)) = Some (Text (Some (txt "null")))
  | None => False
  end /\ spares 1 changer.
Proof. split; [vm_compute; auto|]. cbn. repeat (split; [discriminate|intro]). exact Logic.I. Qed.
(** The program in C. *)
Example C75_same_case : match gmplay 20 (y_in_c the_judge (lodger lodger_text) (wstart, [])) (wenv0, []) init with Ok ((x, _), _) => x | Err _ => [] end = lodger_answers.
Proof. vm_compute. reflexivity. Qed.
(** A C program that puts the text of a value of group 0 into a value of group 1. *)
Definition g_porter : gprog (list answer) :=
  GAct (GIn 0 (PApi CNewAllocator)) (fun _ => GAct (GIn 0 (PApi (CNewValue 0))) (fun _ => GAct (GIn 0 (PApi (CSetText false KCopy 0 (txt "a")))) (fun _ => GAct (GIn 0 (PTake (PText false) 0)) (fun _ =>
  GAct (GIn 1 (PApi CNewAllocator)) (fun _ => GAct (GIn 1 (PApi (CNewValue 0))) (fun _ => GAct (GIn 1 (PGive (TText false false) 0 0)) (fun a => GAct (GRelease 0) (fun _ =>
  GAct (GIn 1 (PApi (CStringify 0))) (fun d => GRet [a; d]))))))))).
Example C75_ported_case : plainly_g g_porter /\ option_map fst (yrplay the_judge (cstyle_g g_porter) (wstart, [])) = Some [Bool true; Text (Some (txt """a"""))].
Proof. split; [|vm_compute; reflexivity]. cbn. repeat (split; [try reflexivity; exact Logic.I|intro]). exact Logic.I. Qed.
