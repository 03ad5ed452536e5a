(** Property C78: what is in use after programs over the beta header that keep pointers. *)
From Verif Require Import Base Spec AllocProofs Mem Api Double Vocab Scene Hist HistRun HistStep HistAll HistMany HistWorld Leak Beta BetaHist BetaLeak BetaClient Keep KeepWorld BetaKeepWorld BetaKeepLeak Names BetaNames.

(** ** C78 Programs over the beta header that keep pointers leak nothing

    A program over the beta header works with any number of groups of allocators, decides by
    the answers, keeps the texts it is given and passes them on (C72); it may do so against the
    contract.  As long as it has not crashed, every block in use is static, a buffer the caller
    passed and has to leave (every parse call, and the calls that store without a copy; a text
    that was kept is no such buffer), or belongs to an allocator of a group that was not
    released. *)
Theorem C78_no_leak : forall X fuel (p : zgprog X) x Es B P s b, zgmplay fuel p (zworld0, []) init = Ok ((x, ((Es, B), P)), s) -> sbsize s b <> None ->
  sbsize init b <> None \/ In b (zgbuffers fuel p (zworld0, []) init) \/ exists g A, In A (ea (Es g)) /\ owns s A b.
Proof. exact zgno_leak. Qed.
Print Assumptions C78_no_leak.
(** So nothing the library allocated is in use when all groups are released. *)
Theorem C78_all_freed : forall X fuel (p : zgprog X) x Es B P s b, zgmplay fuel p (zworld0, []) init = Ok ((x, ((Es, B), P)), s) -> (forall g, ea (Es g) = []) ->
  sbsize s b <> None -> sbsize init b <> None \/ In b (zgbuffers fuel p (zworld0, []) init).
Proof. exact zgall_freed. Qed.
Print Assumptions C78_all_freed.
(** The same with any mixture of the short names and the functions (C77). *)
Theorem C78_names : forall X fuel (p : nzprog X) x Es B P s b, nzplay fuel p (zworld0, []) init = Ok ((x, ((Es, B), P)), s) -> (forall g, ea (Es g) = []) ->
  sbsize s b <> None -> sbsize init b <> None \/ In b (zgbuffers fuel (zspelt p) (zworld0, []) init).
Proof. intros X fuel p x Es B P s b. rewrite nzplay_same. apply zgall_freed. Qed.
Print Assumptions C78_names.

(** A text is set in group 0, got, stored in group 1 as it is, and printed; a text of the
    caller is parsed in group 0; both groups are released.  One buffer is left to the caller. *)
Definition tidy_guest (last : bool) : zgprog (list answer) :=
  ZGAct (ZIn 0 (ZApi CNewAllocator)) (fun _ => ZGAct (ZIn 0 (ZApi (CNewValue 0))) (fun _ => ZGAct (ZIn 0 (ZApi (CSetText false KCopy 0 (txt "a")))) (fun _ =>
  ZGAct (ZIn 1 (ZApi CNewAllocator)) (fun _ => ZGAct (ZIn 1 (ZApi (CNewValue 0))) (fun _ =>
  ZGAct (ZIn 0 (ZTake GStr 0)) (fun a1 => ZGAct (ZIn 1 (ZSetText false true 0 0)) (fun a2 => ZGAct (ZIn 1 (ZPrint 0)) (fun a3 =>
  ZGAct (ZIn 0 (ZApi (CParse PCopy 0 (txt "[]") []))) (fun a4 => ZGAct (ZRelease 1) (fun _ =>
  if last then ZGAct (ZRelease 0) (fun _ => ZGRet [a1; a2; a3; a4]) else ZGRet [a1; a2; a3; a4])))))))))).
Definition in_use (last : bool) :=
  match zgmplay 9 (tidy_guest last) (zworld0, []) init with
  | Ok ((x, ((Es, B), P)), s) => Some (x, map ea [Es 0%nat; Es 1%nat], filter (fun b => match sbsize s b with Some _ => true | None => false end) [1; 2; 3; 4; 5; 6],
      zgbuffers 9 (tidy_guest last) (zworld0, []) init)
  | Err _ => None
  end.
Definition guest_said : list answer := [Text (Some (txt "a")); Bool true; Text (Some (txt """a""")); Bool true].
Example C78_case : in_use true = Some (guest_said, [[]; []], [4], [4]) /\ in_use false = Some (guest_said, [[1]; []], [1; 4], [4]).
Proof. vm_compute. auto. Qed.
