(** Property C50: how much memory a program holds. *)
From Verif Require Import Double Base Spec Alloc Mem Dom AllocProofs ParseTop PrintFacts Scene Hist HistRun HistSim HistStep HistAll HistJudge HistMany HistWorld Leak Count Footprint.

(** ** C50 An allocator holds little more memory than was asked for

    [owns s A b]: block [b] belongs to allocator [A]; [blocks_of s A l]: [l] lists the blocks
    of [A]; [sizes s l]: the bytes of the blocks [l], headers included.

    Whatever a program calls, in the contract or not, as long as it has not crashed no
    allocator has more than 20 blocks: each is at least twice as large as the one before,
    from 4 KiB to 2 GiB. *)
Theorem C50_blocks : forall fuel es rs Es s A l, erun fuel es wenv0 init = Ok ((rs, Es), s) ->
  NoDup l -> (forall b, In b l -> owns s A b) -> lenN l <= 20.
Proof. exact few_blocks. Qed.
Print Assumptions C50_blocks.

(** The reference charges each allocator for what is asked of it: [u], the entry of
    [ru (wr W g)].  The allocator holds at most [4 * u] bytes and the headers (4096 bytes
    and the headers at least), in a number of blocks logarithmic in [u].  A program may
    stop at any call, so the bound holds at every moment. *)
Theorem C50_program : forall jd es rs W, correct jd -> wrun jd es wstart = Some (rs, W) ->
  exists f0, forall fuel, (f0 <= fuel)%nat -> exists Es s, erun fuel es wenv0 init = Ok ((rs, Es), s) /\
    forall g k A u, nth_error (ea (Es g)) k = Some A -> nth_error (ru (wr W g)) k = Some u ->
      exists l, blocks_of s A l /\ sizes s l + 4096 <= 16 + 24 * lenN l + N.max 8192 (4 * u) /\
        2048 * 2 ^ lenN l <= N.max 4096 (2 * u).
Proof. exact frugal_program. Qed.
Print Assumptions C50_program.

(** A document: parsing a text of [n] bytes and printing the result takes memory linear
    in [n], however the text is nested. *)
Theorem C50_document : forall t j, json_text t j -> 77 * lenN t + 1213 <= two30 ->
  exists f0, forall fuel, (f0 <= fuel)%nat -> exists E s A l,
    crun fuel [CNewAllocator; CNewValue 0; CParse PCopy 0 t []; CStringify 0] estart init =
      Ok (([Arena 0; Value (Some 0%nat); Bool true; Text (Some (print j))], E), s) /\
    ea E = [A] /\ blocks_of s A l /\ lenN l <= 20 /\ sizes s l <= 308 * lenN t + 4592.
Proof. exact document_memory. Qed.
Print Assumptions C50_document.

(** A program with an allocator of two blocks: charged 4903 bytes, it holds 12352. *)
Definition printing : list event :=
  [Do 0 CNewAllocator; Do 0 (CNewValue 0); Do 0 (CParse PCopy 0 (txt "[[[]]]") []);
   Do 0 (CStringify 0); Do 0 (CStringify 0); Do 0 (CStringify 0); Do 0 (CStringify 0)].
Definition blocks_used (es : list event) : option (list (N * option N)) :=
  match erun 2000 es wenv0 init with
  | Ok ((_, Es), s) => Some (flat_map (fun A => match sallocs s A with Some ar => map (fun k => (ckBlk k, sbsize s (ckBlk k))) ar | None => [] end) (ea (Es 0%nat)))
  | Err _ => None
  end.
Example C50_case : option_map (fun x => ru (wr (snd x) 0%nat)) (wrun the_judge printing wstart) = Some [4903] /\
  blocks_used printing = Some [(3, Some 8216); (1, Some 4136)].
Proof. vm_compute. repeat split. Qed.
Example C50_text_case : exists j, json_text (txt "[[[]]]") j /\ 77 * lenN (txt "[[[]]]") + 1213 <= two30.
Proof.
  exists (JArr [JArr [JArr []]]). split; [|vm_compute; discriminate].
  apply (jd_json _ judge_correct); [|reflexivity]. vm_compute. intuition discriminate.
Qed.
