(** Property C47: the counters of the test mode. *)
From Verif Require Import Double Base Spec Alloc Mem Dom AllocProofs Scene Hist HistRun HistSim HistStep HistAll HistJudge HistMany HistWorld Leak Count.

(** ** C47 AllocMemoryCount - FreeMemoryCount is the number of blocks the library holds

    Compiled with zj_MEMORY_MODE 2 the library counts what it obtains from malloc and what
    it gives to free; its own tests compare the two counters at the end.  [scnt s] are
    the counters: [cSize] is AllocMemorySize, [cNew] AllocMemoryCount, [cFree]
    FreeMemoryCount, all of the type zj_Size.  [taken fuel es s b]: after the program [es],
    block [b] is in use in state [s] and is neither one of the static texts nor a buffer
    the caller has lent.

    After any program, whatever it calls and releases in which order, the counters differ
    by the number of such blocks. *)
Theorem C47_count : forall fuel es rs Es s, erun fuel es wenv0 init = Ok ((rs, Es), s) ->
  exists l, NoDup l /\ (forall b, In b l <-> taken fuel es s b) /\ cNew (scnt s) = u32 (cFree (scnt s) + lenN l) /\
    (existsb releases es = false -> cSize (scnt s) = u32 (sizes s l)).
Proof. exact count_in_use. Qed.
Print Assumptions C47_count.

(** So the comparison made by the tests is exact: the counters are equal if and only if
    the library holds nothing, as long as there are fewer than 2^32 blocks. *)
Theorem C47_detects : forall fuel es rs Es s, erun fuel es wenv0 init = Ok ((rs, Es), s) ->
  (forall l, NoDup l -> (forall b, In b l -> taken fuel es s b) -> lenN l < two32) ->
  (cNew (scnt s) = cFree (scnt s) <-> forall b, ~ taken fuel es s b).
Proof. exact detects. Qed.
Print Assumptions C47_detects.

(** And it succeeds for every program that ends by releasing its allocators. *)
Theorem C47_equal : forall fuel es gs rs Es s, (forall g c, In (Do g c) es -> In g gs) ->
  erun fuel (es ++ map Release gs) wenv0 init = Ok ((rs, Es), s) -> cNew (scnt s) = cFree (scnt s).
Proof. exact equal_counts. Qed.
Print Assumptions C47_equal.
Theorem C47_released : forall jd es gs rs W, correct jd -> wrun jd es wstart = Some (rs, W) -> (forall g c, In (Do g c) es -> In g gs) ->
  exists f0, forall fuel, (f0 <= fuel)%nat ->
  exists rs' Es s, erun fuel (es ++ map Release gs) wenv0 init = Ok ((rs ++ rs', Es), s) /\ cNew (scnt s) = cFree (scnt s).
Proof. exact count_releases. Qed.
Print Assumptions C47_released.

(** Two groups, three allocators, one of which grows, and two lent texts. *)
Definition counting : list event :=
  [Do 0 CNewAllocator; Do 0 (CNewValue 0); Do 0 (CParse PCopy 0 (txt "{""k"":[1,2,{}]}") []);
   Do 1 CNewAllocator; Do 1 CNewAllocator; Do 1 (CNewValue 1); Do 1 (CParse PFast 0 (txt "[1,2]") []);
   Do 0 (CStringify 0); Do 0 (CStringify 0); Do 0 (CStringify 0); Do 0 (CStringify 0); Do 1 (CSetText false KFast 0 (txt "own"))].
Definition counters (es : list event) : option (N * N * N) :=
  match erun 2000 es wenv0 init with
  | Ok (_, s) => Some (cSize (scnt s), cNew (scnt s), cFree (scnt s))
  | Err _ => None
  end.
Example C47_case : is_some (wrun the_judge counting wstart) = true /\ counters counting = Some (20624, 4, 0) /\
  counters (counting ++ [Release 0]) = Some (20624, 4, 2) /\
  counters (counting ++ [Release 1; Release 0]) = Some (20624, 4, 4).
Proof. vm_compute. repeat split. Qed.
Example C47_groups_case : forall g c, In (Do g c) counting -> In g [1%nat; 0%nat].
Proof. intros g c H. cbn in H. repeat (destruct H as [H|H]; [injection H as <- _; cbn; auto|]). destruct H. Qed.
