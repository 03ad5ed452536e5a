(** Property C45: the allocator of the C++ interface. *)
From Verif Require Import Base Spec Lex Alloc AllocProofs Mem MemProofs Api PureParse Dom Vocab Start Scene MemFacts TreeScene Cpp.

(** ** C45 The C++ allocator object works like NewAllocator and ReleaseAllocator

    At any point of any program the constructor makes a new allocator, on which values
    can be made; what documents there are stay.  With that the theorems about documents
    ([inv], [handle], [room]) hold for values of C++ allocators. *)
Theorem C45_construct : forall (VV : vols) s F, inv s F -> exists A v s1 s2,
  cpp_new s = Ok (A, s1) /\ zj_NewValue A s1 = Ok (v, s2) /\
  inv s2 F /\ alive s2 A /\ sallocs s A = None /\ empty s2 F v A /\ room s2 A (two30 - 16) /\
  forall u w B, handle s F u w B -> handle s2 F u w B.
Proof.
  intros VV s F I. destruct (cpp_start VV s F I) as (A & v & s1 & s2 & E1 & E2 & I2 & Al & N & H & U & K).
  exists A, v, s1, s2. repeat (split; auto). unfold room. change two30 with 1073741824. lia.
Qed.
Print Assumptions C45_construct.
(** The destructor frees exactly the blocks of the allocator, at any point of any program,
    and must not run again for the same blocks: destroying a copy of the object as well is an error. *)
Theorem C45_destroy : forall s A, wfst s -> alive s A -> exists s', cpp_delete A s = Ok (tt, s') /\ wfst s' /\
  (forall ar k, sallocs s A = Some ar -> In k ar -> sbsize s' (ckBlk k) = None) /\
  (forall b, ~ (exists ar k, sallocs s A = Some ar /\ In k ar /\ ckBlk k = b) -> sbsize s' b = sbsize s b) /\
  (forall B, B <> A -> sallocs s' B = sallocs s B) /\
  cpp_delete A s' = Err EDeref.
Proof. exact cpp_anytime. Qed.
Print Assumptions C45_destroy.
(** Constructor, any requests whatsoever, destructor: the live blocks are those from before. *)
Theorem C45_requests : forall s l A s1 rs s2,
  (forall b, snext s <= b -> sbsize s b = None) ->
  cpp_new s = Ok (A, s1) -> requests A l s1 = Ok (rs, s2) ->
  exists s3, cpp_delete A s2 = Ok (tt, s3) /\ (forall b, sbsize s3 b = sbsize s b) /\ (exists e, cpp_delete A s3 = Err e).
Proof. exact cpp_released. Qed.
Print Assumptions C45_requests.
(** Documents that do not depend on the allocator do not change when it is destroyed. *)
Theorem C45_isolated : forall (VV : vols) s F A,
  inv s F -> isvol A -> alive s A -> exists s', cpp_delete A s = Ok (tt, s') /\
  inv s' F /\ forall v w B, handle s F v w B -> ~ vol s (fst v) -> handle s' F v w B.
Proof. exact cpp_delete_isolated. Qed.
Print Assumptions C45_isolated.
Example C45_case : exists s F, @inv novols s F /\ exists A, alive s A.
Proof.
  destruct (@cpp_start novols init nodocs init_inv) as (A & v & s1 & s2 & _ & _ & I & Al & _). eauto.
Qed.
Example C45_requests_case : exists A s1 rs s2, cpp_new init = Ok (A, s1) /\ requests A [16; 5000; 0; 3; 100000] s1 = Ok (rs, s2) /\
  rs = [(1, 24); (2, 24); (2, 5024); (2, 5024); (3, 24)] /\ sbsize s2 1 = Some 4120 /\ (forall b, snext init <= b -> sbsize init b = None).
Proof.
  eexists _, _, _, _. split; [vm_compute; reflexivity|]. split; [vm_compute; reflexivity|]. split; [reflexivity|]. split; [reflexivity|].
  intros b Hb. apply (w_next init (i_wf _ _ init_inv) b Hb).
Qed.
Example C45_isolated_case : exists (VV : vols) s F A, inv s F /\ isvol A /\ alive s A.
Proof.
  destruct (@new_isolated novols init nodocs 1 _ init_inv eq_refl) as (Hb & I & Al & _).
  exists (addvol novols 1 Hb). eexists _, _, 1. split; [exact I|]. split; [right; reflexivity|exact Al].
Qed.
(** Two documents, one of a C++ allocator; destroying it leaves the other; destroying it
    twice, as the destructors of two copies do, is an error. *)
Example C45_run :
  run (A <- cpp_new ;; B <- zj_NewAllocator ;; v <- value A (txt "[1, {""k"":""x""}]") ;; u <- value B (txt "[2]") ;;
    x <- show v ;; _ <- cpp_delete A ;; y <- show u ;; ret (x, y)) = Ok (txt "[1,{""k"":""x""}]", txt "[2]") /\
  run (A <- cpp_new ;; _ <- value A (txt "[1]") ;; _ <- cpp_delete A ;; cpp_delete A) = Err EDeref.
Proof. split; vm_compute; reflexivity. Qed.
