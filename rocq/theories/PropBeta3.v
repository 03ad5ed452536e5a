(** Properties C64 and C65: several groups of allocators over the beta header. *)
From Verif Require Import Double Base Spec Lex Alloc AllocProofs Mem Dom Vocab Hist HistRun HistSim HistStep HistAll HistJudge HistMany HistWorld Scene Leak Count
  Beta BetaHist BetaSim BetaLeak BetaCount BetaWorld BetaWorld2.

(** ** C64 The beta header keeps groups of allocators apart

    [es] is a list of calls, each made by a group on the allocators and value objects of that
    group, and of releases of all allocators of a group, as in C29; [zerun] runs it over the
    functions of the beta header, [zwrun] over a reference that keeps for each group its
    documents and what the getters of its value objects remember.  A release empties the
    group's and touches no other.  As in C29, the reference makes no promise for a setter that
    takes a length once a group was released in which the scratch string of these setters
    may be. *)
Theorem C64_programs : forall jd es rs W Ks, correct jd -> zwrun jd es zrstart = Some (rs, (W, Ks)) ->
  exists f0, forall fuel, (f0 <= fuel)%nat ->
  exists Es B s, zerun fuel es zworld0 init = Ok ((rs, (Es, B)), s) /\ forall g, represents (wr W g) (Es g) s.
Proof. exact zmany. Qed.
Print Assumptions C64_programs.
(** Leaving out everything other groups do gives the same answers, also from the caches. *)
Theorem C64_alone : forall jd es rs Z g, correct jd -> zwrun jd es zrstart = Some (rs, Z) -> ~ In (Release g) es ->
  exists f0, forall fuel, (f0 <= fuel)%nat -> exists W s E B s',
    zerun fuel es zworld0 init = Ok ((rs, W), s) /\ brun fuel (calls g es) estart bstart init = Ok (((pick g es rs, E), B), s').
Proof. exact zalone. Qed.
Print Assumptions C64_alone.
(** The promise that is missing cannot be given: the setter uses freed memory. *)
Definition lengths : list event :=
  [Do 0 CNewAllocator; Do 0 (CNewValue 0); Do 0 (CSetText false KLen 0 (txt "first")); Do 1 CNewAllocator; Do 1 (CNewValue 0)].
Theorem C64_scratch :
  (match zerun 9 (lengths ++ [Do 1 (CSetText false KLen 0 (txt "x"))]) zworld0 init with Ok ((rs, _), _) => nth_error rs 5 = Some (Bool true) | Err _ => False end) /\
  (match zerun 9 (lengths ++ [Release 0; Do 1 (CSetText false KLen 0 (txt "x"))]) zworld0 init with Ok _ => False | Err e => e = EDeref end).
Proof. vm_compute. split; reflexivity. Qed.
Print Assumptions C64_scratch.
(** Group 0 asks for a text and for a number; group 1 does the same and is released, its number
    is used again; then group 0 gets what it remembers, and after a change the new text. *)
Definition apart : list event :=
  [Do 0 CNewAllocator; Do 0 (CNewValue 0); Do 0 (CParse PCopy 0 (txt "[""a\n"",2.5]") []); Do 0 (CArrayGet 0 0); Do 0 (CGetText false false 1); Do 0 (CGetUnEscape 1);
   Do 1 CNewAllocator; Do 1 (CNewValue 0); Do 1 (CParse PFast 0 (txt "7") []); Do 1 (CGetText true false 0); Do 1 (CGetDouble 0); Do 0 (CArrayGet 0 1); Do 0 (CGetDouble 2);
   Release 1; Do 0 (CGetText false false 1); Do 0 (CGetUnEscape 1); Do 0 (CGetDouble 2);
   Do 1 CNewAllocator; Do 1 (CNewValue 0); Do 1 (CSetText false KCopy 0 (txt "new")); Do 1 (CGetText false false 0);
   Do 0 (CSetText false KCopy 1 (txt "b")); Do 0 (CGetText false false 1); Do 0 (CStringify 0)].
Definition apart_answers : list answer :=
  [Arena 0; Value (Some 0%nat); Bool true; Value (Some 1%nat); Text (Some (txt "a\n")); Text (Some [97; 10]);
   Arena 0; Value (Some 0%nat); Bool true; Text (Some (txt "7")); Real (Some (DFin false 7881299347898368 (-50))); Value (Some 2%nat); Real (Some (DFin false 5629499534213120 (-51)));
   Done; Text (Some (txt "a\n")); Text (Some [97; 10]); Real (Some (DFin false 5629499534213120 (-51)));
   Arena 0; Value (Some 0%nat); Bool true; Text (Some (txt "new"));
   Bool true; Text (Some (txt "b")); Text (Some (txt "[""b"",2.5]"))].
Example C64_case : option_map fst (zwrun the_judge apart zrstart) = Some apart_answers /\ ~ In (Release 0) apart /\
  match zerun 20 apart zworld0 init with Ok ((rs, _), _) => rs = apart_answers | Err _ => False end.
Proof. split; [vm_compute; reflexivity|]. split; [cbn; intuition discriminate|vm_compute; reflexivity]. Qed.

(** ** C65 Programs over the beta header do not leak

    As C46 and C47.  [zbuffers] lists the blocks with texts the caller keeps for the library:
    those handed to a parse call (all three use the buffer in place, C56) or to a Fast setter.
    At any moment of any run every other block in use belongs to an allocator that was made and
    not released. *)
Theorem C65_accounted : forall fuel es rs W s b, zerun fuel es zworld0 init = Ok ((rs, W), s) -> sbsize s b <> None ->
  sbsize init b <> None \/ In b (zbuffers fuel es zworld0 init) \/
  exists g A ar k, In A (ea (fst W g)) /\ sallocs s A = Some ar /\ In k ar /\ ckBlk k = b.
Proof. exact zaccounted_for. Qed.
Print Assumptions C65_accounted.
Theorem C65_buffers : forall fuel es rs W s, zerun fuel es zworld0 init = Ok ((rs, W), s) ->
  length (zbuffers fuel es zworld0 init) = length (filter zlends es).
Proof. exact zbuffers_length. Qed.
Print Assumptions C65_buffers.
(** A program of the reference that releases its groups runs to its end, leaves only the
    caller's buffers, and the counters of the test mode (z_MEMORY_MODE 2) are equal. *)
Theorem C65_released : forall jd es gs rs Z, correct jd -> zwrun jd es zrstart = Some (rs, Z) -> (forall g c, In (Do g c) es -> In g gs) ->
  exists f0, forall fuel, (f0 <= fuel)%nat ->
  exists rs' W s, zerun fuel (es ++ map Release gs) zworld0 init = Ok ((rs ++ rs', W), s) /\
    (forall b, sbsize s b <> None -> sbsize init b <> None \/ In b (zbuffers fuel es zworld0 init)) /\ cNew (scnt s) = cFree (scnt s).
Proof. exact zreleased. Qed.
Print Assumptions C65_released.
(** Any run that returns: *)
Theorem C65_nothing : forall fuel es gs rs W s b, (forall g c, In (Do g c) es -> In g gs /\ zkeeps_buffer c = false) ->
  zerun fuel (es ++ map Release gs) zworld0 init = Ok ((rs, W), s) -> sbsize s b <> None -> sbsize init b <> None.
Proof. exact znothing_left. Qed.
Print Assumptions C65_nothing.
Theorem C65_count : forall fuel es rs W s, zerun fuel es zworld0 init = Ok ((rs, W), s) ->
  exists l, NoDup l /\ (forall b, In b l <-> ztaken fuel es s b) /\ cNew (scnt s) = u32 (cFree (scnt s) + lenN l) /\
    (existsb releases es = false -> cSize (scnt s) = u32 (sizes s l)).
Proof. exact zcount_in_use. Qed.
Print Assumptions C65_count.
Theorem C65_detects : forall fuel es rs W s, zerun fuel es zworld0 init = Ok ((rs, W), s) ->
  (forall l, NoDup l -> (forall b, In b l -> ztaken fuel es s b) -> lenN l < two32) ->
  (cNew (scnt s) = cFree (scnt s) <-> forall b, ~ ztaken fuel es s b).
Proof. exact zdetects. Qed.
Print Assumptions C65_detects.
Definition zin_use (es : list event) (n : nat) : option (list N * list N * (N * N)) :=
  match zerun 2000 es zworld0 init with
  | Ok (_, s) => Some (filter (fun b => is_some (sbsize s b)) (map N.of_nat (seq 0 n)), zbuffers 2000 es zworld0 init, (cNew (scnt s), cFree (scnt s)))
  | Err _ => None
  end.
(** The two parse calls of [apart] keep their texts in blocks 2 and 4; the allocators are 1, 3
    (released) and 5. *)
Example C65_case : zin_use apart 20 = Some ([0; 1; 2; 4; 5], [2; 4], (3, 1)) /\
  zin_use (apart ++ [Release 1; Release 0]) 20 = Some ([0; 2; 4], [2; 4], (3, 3)) /\ forall g c, In (Do g c) apart -> In g [1%nat; 0%nat].
Proof.
  split; [vm_compute; reflexivity|]. split; [vm_compute; reflexivity|].
  intros g c H. cbn in H. repeat (destruct H as [H|H]; [first [discriminate | injection H as <- _; cbn; auto]|]). destruct H.
Qed.
