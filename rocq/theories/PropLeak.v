(** Property C46: programs do not leak. *)
From Verif Require Import Double Base Spec Alloc Mem Dom AllocProofs Scene Hist HistRun HistSim HistStep HistAll HistJudge HistMany HistWorld Leak.

(** ** C46 Releasing the allocators frees all memory the library took

    [sbsize s b <> None]: block [b] is in use in state [s].  [init] is the state before
    the first call, in which only the static texts of the library are.  [buffers] lists,
    call by call, the blocks holding texts the caller handed to zj_ParseFast or to a Fast
    setter: these stay the caller's.

    At any moment of any program, every block in use is one of those, or it belongs to an
    allocator that the program has made and not released yet: whatever calls a program
    makes, nothing becomes unreachable.  This holds for every run that comes to an end,
    whether the reference semantics promises something about it or not. *)
Theorem C46_accounted : forall fuel es rs Es s b, erun fuel es wenv0 init = Ok ((rs, Es), s) -> sbsize s b <> None ->
  sbsize init b <> None \/ In b (buffers fuel es wenv0 init) \/
  exists g A ar k, In A (ea (Es g)) /\ sallocs s A = Some ar /\ In k ar /\ ckBlk k = b.
Proof. exact accounted_for. Qed.
Print Assumptions C46_accounted.

(** A program of the reference semantics that ends by releasing all its groups runs to its
    end and leaves in use only the static texts and the caller's own buffers. *)
Theorem C46_released : forall jd es gs rs W, correct jd -> wrun jd es wstart = Some (rs, W) ->
  (forall g c, In (Do g c) es -> In g gs) ->
  exists f0, forall fuel, (f0 <= fuel)%nat ->
  exists rs' Es s, erun fuel (es ++ map Release gs) wenv0 init = Ok ((rs ++ rs', Es), s) /\
    forall b, sbsize s b <> None -> sbsize init b <> None \/ In b (buffers fuel es wenv0 init).
Proof. exact released. Qed.
Print Assumptions C46_released.

(** There are exactly as many such buffers as there were Fast calls ... *)
Theorem C46_buffers : forall fuel es rs Es s, erun fuel es wenv0 init = Ok ((rs, Es), s) ->
  length (buffers fuel es wenv0 init) = length (filter lends_for_good es).
Proof. exact buffers_length. Qed.
Print Assumptions C46_buffers.

(** ... so that a program without any of them leaves nothing. *)
Theorem C46_nothing : forall fuel es gs rs Es s b,
  (forall g c, In (Do g c) es -> In g gs /\ keeps_buffer c = false) ->
  erun fuel (es ++ map Release gs) wenv0 init = Ok ((rs, Es), s) -> sbsize s b <> None -> sbsize init b <> None.
Proof. exact nothing_left. Qed.
Print Assumptions C46_nothing.

(** Two groups, three allocators, documents parsed, printed, changed and copied. *)
Definition busy : list event :=
  [Do 0 CNewAllocator; Do 0 (CNewValue 0); Do 0 (CParse PCopy 0 (txt "{""k"":[1,2,{}]}") []);
   Do 1 CNewAllocator; Do 1 CNewAllocator; Do 1 (CNewValue 1); Do 1 (CParse PFast 0 (txt "[1,2]") []);
   Do 0 (CSetText false KLen 0 (txt "first")); Do 0 (CStringify 0); Do 1 (CSetText false KFast 0 (txt "own")); Do 1 (CStringify 0)].
Definition in_use (es : list event) (n : nat) : option (list N * list N) :=
  match erun 2000 es wenv0 init with
  | Ok (_, s) => Some (filter (fun b => is_some (sbsize s b)) (map N.of_nat (seq 0 n)), buffers 2000 es wenv0 init)
  | Err _ => None
  end.
(** Blocks 5 and 7 are the two lent texts. *)
Example C46_case : is_some (wrun the_judge busy wstart) = true /\
  in_use busy 40 = Some ([0; 1; 3; 4; 5; 7], [5; 7]) /\
  in_use (busy ++ [Release 0; Release 1]) 40 = Some ([0; 5; 7], [5; 7]).
Proof. vm_compute. repeat split. Qed.
Example C46_groups_case : forall g c, In (Do g c) busy -> In g [0%nat; 1%nat].
Proof. intros g c H. cbn in H. repeat (destruct H as [H|H]; [injection H as <- _; cbn; auto|]). destruct H. Qed.
