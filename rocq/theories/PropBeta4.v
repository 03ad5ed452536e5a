(** Properties C66-C68: memory of others, memory held and work done by programs over the beta header. *)
From Verif Require Import Base Spec Mem Api Double Vocab Scene MemProofs Hist HistRun HistSim HistStep HistAll HistJudge HistMany HistWorld Frame FrameRun
  Alloc AllocProofs Dom ParseTop PrintFacts Leak Count Footprint Work Beta BetaHist BetaSim BetaLeak BetaWorld BetaFrame BetaWork PropFrame.

(** ** C66 What others keep in memory neither matters nor changes, beta header

    As C49; the cached results of value objects (the map [Bm], Beta.v) are memory too.
    [ours B E Bm]: the value objects the program has are outside the blocks marked by [B],
    and so are the texts and doubles they remember.

    A call that succeeds without the blocks does the same with them, whatever they hold: same
    answer, same effect on the rest, none on them, and none on cached results kept in them;
    afterwards the program still has and remembers nothing in them. *)
Theorem C66_call : forall B fuel c E Bm s t x E' Bm' t', B 0 = false -> cut B s t -> ours B E Bm ->
  bstep fuel c E Bm t = Ok (((x, E'), Bm'), t') ->
  exists s', bstep fuel c E Bm s = Ok (((x, E'), Bm'), s') /\ cut B s' t' /\ Frame.same B s s' /\
    (forall y, B (fst y) = true -> Bm' y = Bm y) /\ ours B E' Bm'.
Proof. exact bstep_framed. Qed.
Print Assumptions C66_call.
(** Programs with several groups and releases, from any memory. *)
Theorem C66_program : forall B fuel es Es Bm s t rs Es' Bm' t', B 0 = false -> cut B s t -> (forall g, ours B (Es g) Bm) ->
  zerun fuel es (Es, Bm) t = Ok ((rs, (Es', Bm')), t') ->
  exists s', zerun fuel es (Es, Bm) s = Ok ((rs, (Es', Bm')), s') /\ cut B s' t' /\ Frame.same B s s' /\
    (forall y, B (fst y) = true -> Bm' y = Bm y).
Proof. exact zerun_framed. Qed.
Print Assumptions C66_program.
(** Programs in a memory in which others have put whatever they liked, cached results
    included: they get the answers of the reference semantics, their documents are in
    memory, and what the others had is as it was.  [dead]: as in C49. *)
Theorem C66_anywhere : forall jd es dead rs W Ks, correct jd -> zwrun jd es (wbegin dead, fun _ => []) = Some (rs, (W, Ks)) ->
  exists f0, forall fuel s Bm, (f0 <= fuel)%nat -> among_others s -> (dead = false -> scache s = Null) ->
  exists Es Bm' s', zerun fuel es (wenv0, Bm) s = Ok ((rs, (Es, Bm')), s') /\ Frame.same (foreign s) s s' /\
    (forall y, foreign s (fst y) = true -> Bm' y = Bm y) /\
    exists t', cut (foreign s) s' t' /\ forall g, represents (wr W g) (Es g) t'.
Proof. exact zanywhere. Qed.
Print Assumptions C66_anywhere.

(** In the memory of C49 with the ruined block; every cache word of the memory, also where
    the program's value objects will be, points into that block. *)
Definition ruinedB : bmem := fun _ => mkC (At (1, 5)) (AText (1, 6)) (At (1, 7)) (At (1, 8)).
Definition guest : list event :=
  [Do 0 CNewAllocator; Do 0 (CNewValue 0); Do 0 (CParse PCopy 0 (txt "[""a\n"",2]") []); Do 0 (CArrayGet 0 0); Do 0 (CGetText false false 1); Do 0 (CGetUnEscape 1);
   Do 0 (CGetText false false 1); Do 0 (CArrayGet 0 1); Do 0 (CGetDouble 2); Do 0 (CSetNull 1); Do 0 (CStringify 0); Release 0].
Definition guest_answers : list answer :=
  [Arena 0; Value (Some 0%nat); Bool true; Value (Some 1%nat); Text (Some (txt "a\n")); Text (Some [97; 10]);
   Text (Some (txt "a\n")); Value (Some 2%nat); Real (Some (DFin false 4503599627370496 (-51))); Done; Text (Some (txt "[null,2]")); Done].
Example C66_case : among_others ruined /\ option_map fst (zwrun the_judge guest (wbegin true, fun _ => [])) = Some guest_answers /\
  match zerun 20 guest (wenv0, ruinedB) ruined with
  | Ok ((rs, (_, Bm')), s') => rs = guest_answers /\ (Bm' (1, 3), sbytes s' (1, 77), sbsize s' 1, sbsize s' 2) = (ruinedB (1, 3), Some 7, Some 4136, None)
  | Err _ => False
  end.
Proof. split; [exact (proj1 C49_case)|]. split; vm_compute; [reflexivity|]. split; reflexivity. Qed.

(** ** C67 An allocator of the beta header holds little more memory than was asked for

    As C50: [owns s A b], block [b] belongs to allocator [A]; [blocks_of s A l], [l] lists the
    blocks of [A]; [sizes s l], the bytes of the blocks [l], headers included. *)
Theorem C67_blocks : forall fuel es rs W s A l, zerun fuel es zworld0 init = Ok ((rs, W), s) ->
  NoDup l -> (forall b, In b l -> owns s A b) -> lenN l <= 20.
Proof. exact zfew_blocks. Qed.
Print Assumptions C67_blocks.
(** [u]: what the reference charged the allocator for.  An answer from a cache is not charged. *)
Theorem C67_program : forall jd es rs W Ks, correct jd -> zwrun jd es zrstart = Some (rs, (W, Ks)) ->
  forall fuel, (zwmost jd es zrstart <= fuel)%nat -> exists Es B s, zerun fuel es zworld0 init = Ok ((rs, (Es, B)), s) /\
    forall g k A u, nth_error (ea (Es g)) k = Some A -> nth_error (ru (wr W g)) k = Some u ->
      exists l, blocks_of s A l /\ sizes s l + 4096 <= 16 + 24 * lenN l + N.max 8192 (4 * u) /\
        2048 * 2 ^ lenN l <= N.max 4096 (2 * u).
Proof. exact zfrugal. Qed.
Print Assumptions C67_program.
(** A document: memory linear in the bytes of its text, however it is nested, and at most two
    rounds of the printing loop for each of them. *)
Theorem C67_document : forall t j, json_text t j -> 77 * lenN t + 1245 <= two30 -> forall fuel, (2 * length t <= fuel)%nat ->
  exists E B s A l, brun fuel [CNewAllocator; CNewValue 0; CParse PCopy 0 t []; CStringify 0] estart bstart init =
      Ok ((([Arena 0; Value (Some 0%nat); Bool true; Text (Some (print j))], E), B), s) /\
    ea E = [A] /\ blocks_of s A l /\ lenN l <= 20 /\ sizes s l <= 308 * lenN t + 4592.
Proof. exact bdocument. Qed.
Print Assumptions C67_document.
(** Asked three times for the text of 100 letters, the value object has one copy made; asked
    after it was set anew each time, three. *)
Definition letters : bytes := repeat 97 100.
Definition asking (anew : bool) : list event :=
  [Do 0 CNewAllocator; Do 0 (CNewValue 0); Do 0 (CSetText false KFast 0 letters)] ++
  concat (repeat ([Do 0 (CGetText false false 0)] ++ if anew then [Do 0 (CSetText false KFast 0 letters)] else []) 3).
Definition zblocks_used (es : list event) : option (list (option N)) :=
  match zerun 0 es zworld0 init with
  | Ok ((_, (Es, _)), s) => Some (flat_map (fun A => match sallocs s A with Some ar => map (fun k => sbsize s (ckBlk k)) ar | None => [] end) (ea (Es 0%nat)))
  | Err _ => None
  end.
Example C67_case :
  option_map (fun x => ru (wr (fst (snd x)) 0%nat)) (zwrun the_judge (asking false) zrstart) = Some [221] /\ zblocks_used (asking false) = Some [Some 4136] /\
  option_map (fun x => ru (wr (fst (snd x)) 0%nat)) (zwrun the_judge (asking true) zrstart) = Some [639] /\ zblocks_used (asking true) = Some [Some 4136] /\
  zwmost the_judge (asking true) zrstart = 0%nat.
Proof. vm_compute. repeat split. Qed.
Example C67_text_case : exists j, json_text (txt "[1,[2]]") j /\ 77 * lenN (txt "[1,[2]]") + 1245 <= two30.
Proof.
  exists (JArr [JNum (txt "1"); JArr [JNum (txt "2")]]). split; [|vm_compute; discriminate].
  apply (jd_json _ judge_correct); [|reflexivity]. vm_compute. intuition discriminate.
Qed.

(** ** C68 The loops of a call of the beta header go round once or twice for each value they are given

    As C51, with the same bound for each call ([passes]). *)
Theorem C68_program : forall jd cs rs R K, correct jd -> brrun jd cs (rstart, []) = Some (rs, (R, K)) ->
  forall fuel, (bmost jd cs (rstart, []) <= fuel)%nat ->
  exists E B s, brun fuel cs estart bstart init = Ok (((rs, E), B), s) /\ represents R E s.
Proof. intros jd cs rs R K J. exact (bprogram_most jd J cs rs R K). Qed.
Print Assumptions C68_program.
(** No loop goes round more than three times for each value the program made, *)
Theorem C68_values : forall jd cs rs R K, correct jd -> brrun jd cs (rstart, []) = Some (rs, (R, K)) ->
  (bmost jd cs (rstart, []) <= 3 * N.to_nat (rn R))%nat.
Proof. exact bwork_values. Qed.
Print Assumptions C68_values.
(** nor more than once for each 24 bytes it asked for. *)
Theorem C68_memory : forall jd cs rs R K, correct jd -> brrun jd cs (rstart, []) = Some (rs, (R, K)) ->
  forall fuel, total R <= 24 * N.of_nat fuel ->
  exists E B s, brun fuel cs estart bstart init = Ok (((rs, E), B), s) /\ represents R E s.
Proof. exact bwork_memory. Qed.
Print Assumptions C68_memory.
Definition zworking : list call :=
  [CNewAllocator; CNewValue 0; CParse PCopy 0 (txt "[1,[2]]") []; CNewValue 0; CSetCont true 1;
   CSetKey KCopy 0 (txt "k"); CAdd true false 1 0; CObjGet false 1 (txt "k"); CGetKey false 2; CStringify 1].
Definition zanswered (fuel : nat) : option (list answer) :=
  match brun fuel zworking estart bstart init with Ok (((rs, _), _), _) => Some rs | Err _ => None end.
Example C68_case : exists rs, option_map (fun x => (fst x, rn (fst (snd x)), total (fst (snd x)))) (brrun the_judge zworking (rstart, [])) = Some (rs, 9, 2390) /\
  bmost the_judge zworking (rstart, []) = 10%nat /\ zanswered 8 = Some rs /\ zanswered 7 = None.
Proof. eexists. vm_compute. repeat split. Qed.
