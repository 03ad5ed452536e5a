(** Property C51: how much work a call does. *)
From Verif Require Import Double Base Spec Alloc Mem Dom AllocProofs ParseTop PrintFacts Scene Hist HistRun HistSim HistStep HistAll HistJudge HistMany HistWorld Footprint Work.

(** ** C51 The loops of a call go round once or twice for each value they are given

    The calls that follow pointers (printing, copying, searching, indexing, giving the
    children of a value a new parent) run with an argument [fuel]: each of their loops
    fails when it goes round more than [fuel] times.  [passes c R] is a bound for the call
    [c] in the reference state [R]: twice the values of the document that is printed or
    copied, the direct members of the container that is searched, nothing otherwise.
    (The loop of the parser has its own bound in the model, two rounds per byte and two.)

    A program runs with the largest of these bounds, whatever the documents look like. *)
Theorem C51_program : forall jd cs rs R, correct jd -> rrun jd cs rstart = Some (rs, R) ->
  forall fuel, (most jd cs rstart <= fuel)%nat ->
  exists E s, crun fuel cs estart init = Ok ((rs, E), s) /\ represents R E s.
Proof. exact program_most. Qed.
Print Assumptions C51_program.

(** Likewise for several groups of allocators of which some are released on the way. *)
Theorem C51_groups : forall jd es rs W, correct jd -> wrun jd es wstart = Some (rs, W) ->
  forall fuel, (wmost jd es wstart <= fuel)%nat ->
  exists Es s, erun fuel es wenv0 init = Ok ((rs, Es), s) /\ forall g, represents (wr W g) (Es g) s.
Proof. exact many_most. Qed.
Print Assumptions C51_groups.

(** The bound is linear in the values the program has made ([rn R]): no loop visits a
    value of a document more than three times. *)
Theorem C51_values : forall jd cs rs R, correct jd -> rrun jd cs rstart = Some (rs, R) ->
  (most jd cs rstart <= 3 * N.to_nat (rn R))%nat.
Proof. exact work_values. Qed.
Print Assumptions C51_values.

(** And so in the bytes it has asked of its allocators ([total R]): one round for each
    24 bytes will do. *)
Theorem C51_memory : forall jd cs rs R, correct jd -> rrun jd cs rstart = Some (rs, R) ->
  forall fuel, total R <= 24 * N.of_nat fuel ->
  exists E s, crun fuel cs estart init = Ok ((rs, E), s) /\ represents R E s.
Proof. exact work_memory. Qed.
Print Assumptions C51_memory.

(** A document: printing it takes at most two rounds for each byte of its text. *)
Theorem C51_document : forall t j, json_text t j -> 77 * lenN t + 1213 <= two30 ->
  forall fuel, (2 * length t <= fuel)%nat ->
  exists E s, crun fuel [CNewAllocator; CNewValue 0; CParse PCopy 0 t []; CStringify 0] estart init =
    Ok (([Arena 0; Value (Some 0%nat); Bool true; Text (Some (print j))], E), s).
Proof. exact work_document. Qed.
Print Assumptions C51_document.

(** A program that prints, copies, searches and adds: the bound is ten rounds, eight are
    enough and seven are not. *)
Definition working : list call :=
  [CNewAllocator; CNewValue 0; CParse PCopy 0 (txt "[1,[2]]") []; CNewValue 0; CSetCont true 1;
   CSetKey KCopy 0 (txt "k"); CAdd true false 1 0; CObjGet false 1 (txt "k"); CStringify 1].
Definition answered (fuel : nat) : option (list answer) :=
  match crun fuel working estart init with Ok ((rs, _), _) => Some rs | Err _ => None end.
Example C51_case : exists rs, option_map (fun x => (fst x, rn (snd x), total (snd x))) (rrun the_judge working rstart) = Some (rs, 9, 2260) /\
  most the_judge working rstart = 10%nat /\ answered 8 = Some rs /\ answered 7 = None.
Proof. eexists. vm_compute. repeat split. Qed.
Example C51_text_case : exists j, json_text (txt "[1,[2]]") j /\ 77 * lenN (txt "[1,[2]]") + 1213 <= two30.
Proof.
  exists (JArr [JNum (txt "1"); JArr [JNum (txt "2")]]). split; [|vm_compute; discriminate].
  apply (jd_json _ judge_correct); [|reflexivity]. vm_compute. intuition discriminate.
Qed.
