(** Properties C09, C27, C28, C29, C34: the caller's buffers, the arena, releasing allocators. *)
From Verif Require Import Base Spec Lex LexProofs Alloc AllocProofs Mem MemProofs Api PureParse SpecProofs Dom Effect ParseTop
  CacheProofs KeyProofs Vocab ParseFacts PrintFacts ReadFacts SetFacts Start Scene MemFacts ArenaExact TreeScene.

(** ** C09 The copying calls do not keep the caller's memory

    The caller makes a buffer [p] with contents [bs] and calls the library with it.
    [forgets]: the call succeeds exactly on the texts it is to accept, with the effect
    it is to have, and ([outlives]) whatever the caller then does with the buffer -
    overwriting it any number of times, freeing it - every document and every value
    stays as it is. *)
Theorem C09_parse : forall (VV : vols) s F v w A bs p s1, inv s F -> handle s F v w A -> user_buf bs s = Ok (p, s1) ->
  forall t sl r s2,
  bs = t ++ 0 :: sl -> ~ In 0 t -> room s A (len_cost (lenN t)) -> zj_Parse v p s1 = Ok (r, s2) ->
  forgets VV (fst p) s1 F (valid t) (parses VV s1 F v w t) r s2.
Proof. exact parse_copies. Qed.
Print Assumptions C09_parse.
Theorem C09_parseLen : forall (VV : vols) s F v w A bs p s1, inv s F -> handle s F v w A -> user_buf bs s = Ok (p, s1) ->
  forall r s2,
  room s A (len_cost (lenN bs)) -> zj_ParseLen v p (lenN bs) s1 = Ok (r, s2) ->
  forgets VV (fst p) s1 F (valid (before0 bs)) (parses VV s1 F v w (before0 bs)) r s2.
Proof. exact parseLen_copies. Qed.
Print Assumptions C09_parseLen.
Theorem C09_setStr : forall (VV : vols) s F v w A bs p s1, inv s F -> handle s F v w A -> user_buf bs s = Ok (p, s1) ->
  forall b sl r s2,
  bs = b ++ 0 :: sl -> ~ In 0 b -> room s A (lenN b + 72) -> zj_SetStr v p s1 = Ok (r, s2) ->
  forgets VV (fst p) s1 F (strbody_set b) (assigned s1 F v w (JStr b)) r s2.
Proof. exact setStr_copies. Qed.
Print Assumptions C09_setStr.
Theorem C09_setStrLen : forall (VV : vols) s F v w A bs p s1, inv s F -> handle s F v w A -> user_buf bs s = Ok (p, s1) ->
  forall b sl r s2,
  bs = b ++ sl -> cache_live s -> cache_room s A (check_cost (lenN b) + lenN b + 72) ->
  zj_SetStrLen v p (lenN b) s1 = Ok (r, s2) ->
  forgets VV (fst p) s1 F (strbody_set b) (assigned s1 F v w (JStr b)) r s2.
Proof. exact setStrLen_copies. Qed.
Print Assumptions C09_setStrLen.
Theorem C09_setNumStr : forall (VV : vols) s F v w A bs p s1, inv s F -> handle s F v w A -> user_buf bs s = Ok (p, s1) ->
  forall b sl r s2,
  bs = b ++ 0 :: sl -> ~ In 0 b -> room s A (lenN b + 72) -> zj_SetNumStr v p s1 = Ok (r, s2) ->
  forgets VV (fst p) s1 F (number b) (assigned s1 F v w (JNum b)) r s2.
Proof. exact setNumStr_copies. Qed.
Print Assumptions C09_setNumStr.
Theorem C09_setNumStrLen : forall (VV : vols) s F v w A bs p s1, inv s F -> handle s F v w A -> user_buf bs s = Ok (p, s1) ->
  forall b sl r s2,
  bs = b ++ sl -> cache_live s -> cache_room s A (check_cost (lenN b) + lenN b + 72) ->
  zj_SetNumStrLen v p (lenN b) s1 = Ok (r, s2) ->
  forgets VV (fst p) s1 F (number b) (assigned s1 F v w (JNum b)) r s2.
Proof. exact setNumStrLen_copies. Qed.
Print Assumptions C09_setNumStrLen.
Theorem C09_setKey : forall (VV : vols) s F v w A bs p s1, inv s F -> handle s F v w A -> user_buf bs s = Ok (p, s1) ->
  forall b sl r s2,
  father_known F w -> bs = b ++ 0 :: sl -> ~ In 0 b -> room s A (72 + lenN b) -> zj_SetKey v p s1 = Ok (r, s2) ->
  forgets VV (fst p) s1 F (strbody_set b /\ key_open F w) (rekeyed s1 F v w b) r s2.
Proof. exact setKey_copies. Qed.
Print Assumptions C09_setKey.
Theorem C09_setKeyLen : forall (VV : vols) s F v w A bs p s1, inv s F -> handle s F v w A -> user_buf bs s = Ok (p, s1) ->
  forall b sl r s2,
  father_known F w -> bs = b ++ sl -> cache_live s -> cache_room s A (check_cost (lenN b) + (72 + lenN b)) ->
  zj_SetKeyLen v p (lenN b) s1 = Ok (r, s2) ->
  forgets VV (fst p) s1 F (strbody_set b /\ key_open F w) (rekeyed s1 F v w b) r s2.
Proof. exact setKeyLen_copies. Qed.
Print Assumptions C09_setKeyLen.
(** The hypotheses, with any text in the buffer. *)
Example C09_case : forall t, ~ In 0 t -> lenN t < 90000 -> exists s v A p s1, inv s nodocs /\ handle s nodocs v Null A /\
  user_buf (t ++ [0]) s = Ok (p, s1) /\ room s A 900000000 /\ cache_live s /\ cache_room s A 900000000 /\ father_known nodocs Null.
Proof.
  intros t N0 Hl. destruct (scene []) as (s & A & v & u & p & _ & I & Hv & _ & _ & _ & _ & _ & Hu & Hc & _); [reflexivity|].
  exists s, v, A. destruct (user_buf (t ++ [0]) s) as [[q s1]|e] eqn:E.
  - exists q, s1. split; auto. split; auto. split; auto. assert (R : room s A 900000000) by (unfold room; rewrite Hu; vm_compute; discriminate).
    split; auto. split; [unfold cache_live; now rewrite Hc|]. split; [unfold cache_room, cache_home; rewrite Hc; auto|]. intros a K. discriminate.
  - exfalso. unfold user_buf in E. destruct (two32 <=? N.of_nat (length (t ++ [0]))) eqn:L; [|discriminate].
    apply N.leb_le in L. rewrite app_length in L. unfold lenN in Hl. cbn in L. change two32 with 4294967296 in L. lia.
Qed.
(** The copying calls survive overwriting and freeing; ParseFast and SetStrFast do not (they are not meant to). *)
Example C09_run :
  let after (m : addr -> addr -> M bool) := (A <- zj_NewAllocator ;; v <- zj_NewValue A ;; p <- user_buf (txt "[1,2]" ++ [0]) ;; _ <- m v p ;;
    t0 <- show v ;; _ <- user_write (fst p) (txt "[9,9]") ;; t1 <- show v ;; _ <- user_free (fst p) ;; t2 <- show v ;; ret [t0; t1; t2]) in
  let body (m : addr -> addr -> M bool) := (A <- zj_NewAllocator ;; v <- zj_NewValue A ;; p <- user_buf (txt "1234" ++ [0]) ;; _ <- m v p ;;
    t0 <- show v ;; _ <- user_write (fst p) (txt "7777") ;; t1 <- show v ;; _ <- user_free (fst p) ;; t2 <- show v ;; ret [t0; t1; t2]) in
  (run (after zj_Parse) = Ok [txt "[1,2]"; txt "[1,2]"; txt "[1,2]"] /\
   run (after (fun v p => zj_ParseLen v p 5)) = Ok [txt "[1,2]"; txt "[1,2]"; txt "[1,2]"] /\
   run (body zj_SetStr) = Ok [txt """1234"""; txt """1234"""; txt """1234"""] /\
   run (body (fun v p => zj_SetStrLen v p 2)) = Ok [txt """12"""; txt """12"""; txt """12"""] /\
   run (body zj_SetNumStr) = Ok [txt "1234"; txt "1234"; txt "1234"] /\
   run (body (fun v p => zj_SetNumStrLen v p 2)) = Ok [txt "12"; txt "12"; txt "12"]) /\
  (exists e, run (after zj_ParseFast) = Err e) /\ (exists e, run (body zj_SetStrFast) = Err e).
Proof. cbv zeta. repeat split; try (vm_compute; reflexivity); vm_compute; eauto. Qed.
Example C09_key_run :
  run (A <- zj_NewAllocator ;; v <- zj_NewValue A ;; _ <- parse_lit v (txt "{""a"":1}") ;; c <- member v (txt "a") ;; p <- user_buf (txt "kk" ++ [0]) ;;
    _ <- zj_SetKey c p ;; _ <- user_write (fst p) (txt "zz") ;; _ <- user_free (fst p) ;; show v) = Ok (txt "{""kk"":1}") /\
  run (A <- zj_NewAllocator ;; v <- zj_NewValue A ;; _ <- parse_lit v (txt "{""a"":1}") ;; c <- member v (txt "a") ;; p <- user_buf (txt "kk" ++ [0]) ;;
    _ <- zj_SetKeyFast c p ;; _ <- user_write (fst p) (txt "zz") ;; show v) = Ok (txt "{""zz"":1}").
Proof. split; vm_compute; reflexivity. Qed.

(** ** C27 Arena allocations never overlap

    Refuted as stated, for sizes are 32-bit numbers.  A request of more than 2^31
    bytes never returns, whatever number of steps of the doubling loop one looks at;
    and a request that makes the position wrap around yields a region that leaves its
    block and resets the position, so that the next request gets memory handed out
    before: the first and the third of the three requests below get the same address. *)
Theorem C27_refuted :
  (forall fuel, grow fuel 2147483649 (u32 (zj_AllocatorInitMemSize * zj_Delta)) = Err EFuel) /\
  exists o1 o2 o3, arena_alloc 2 [first_chunk 1] 4000 = Ok o1 /\ arena_alloc 2 (oarena o1) 4294963296 = Ok o2 /\
    arena_alloc 2 (oarena o2) 8 = Ok o3 /\ oaddr o1 = oaddr o3 /\ ~ apart (oaddr o1) 4000 (oaddr o3) 8 /\
    ckBase (first_chunk 1) + ckSize (first_chunk 1) < snd (oaddr o2) + 4294963296.
Proof.
  split.
  - apply grow_forever; [vm_compute; reflexivity|]. vm_compute. reflexivity.
  - eexists _, _, _. split; [vm_compute; reflexivity|]. split; [vm_compute; reflexivity|]. split; [vm_compute; reflexivity|].
    split; [reflexivity|]. split; [|vm_compute; reflexivity]. intro K. apply (K 0 0); reflexivity.
Qed.
Print Assumptions C27_refuted.
(** What holds, for any number of requests of any sizes as long as the allocator stays
    within 2^30 bytes: every request returns a region inside a live block, apart from
    every region of the other requests and from everything handed out before ([inrA]) by
    this or another allocator. *)
Theorem C27_requests_partial : forall s A l,
  wfst s -> alive s A -> room s A (sum l) ->
  exists rs s', requests A l s = Ok (rs, s') /\ length rs = length l /\
    (forall i a n, nth_error rs i = Some a -> nth_error l i = Some n ->
       inside s' a n /\ (forall B b m, inrA s B b m -> apart a n b m) /\
       (forall k b m, k <> i -> nth_error rs k = Some b -> nth_error l k = Some m -> apart a n b m)).
Proof. exact requests_apart. Qed.
Print Assumptions C27_requests_partial.
Example C27_case : exists s A, wfst s /\ alive s A /\ room s A (sum [16; 5000; 0; 3; 100000]).
Proof.
  destruct (newAllocator_wp init wfst_init) as (A & s & _ & X & _ & Al & U & _). exists s, A. split; [apply X|]. split; auto.
  unfold room. rewrite U. vm_compute. discriminate.
Qed.
Example C27_run : run (A <- zj_NewAllocator ;; requests A [16; 5000; 0; 3; 100000]) =
  Ok [(1, 40); (2, 24); (2, 5024); (2, 5024); (3, 24)].
Proof. vm_compute. reflexivity. Qed.
(** Exactly which sequences of requests to a new allocator are served ([served], a
    predicate on the sizes alone).  These get regions inside live blocks, apart from each
    other and from all older blocks; of all others some request never returns ([EFuel])
    or yields a region that leaves its block ([ELimit]). *)
Theorem C27_exactly : forall s A s1 l, Forall (fun n => n < two32) l -> zj_NewAllocator s = Ok (A, s1) ->
  (served 4096 0 l -> exists rs s2, requests A l s1 = Ok (rs, s2) /\ length rs = length l /\
    (forall i a n, nth_error rs i = Some a -> nth_error l i = Some n -> inside s2 a n /\
       (forall b m, fst b < snext s -> apart a n b m) /\
       (forall k b m, k <> i -> nth_error rs k = Some b -> nth_error l k = Some m -> apart a n b m))) /\
  (~ served 4096 0 l -> requests A l s1 = Err EFuel \/ requests A l s1 = Err ELimit).
Proof. exact served_exactly. Qed.
Print Assumptions C27_exactly.
(** All sequences of up to 2 GiB in total are served; no larger total would do, for a
    single request of one byte more is not. *)
Theorem C27_two_gib : forall l, sum l <= 2147483648 -> served 4096 0 l.
Proof. intros l H. apply (served_sum l 4096 0 0); [apply N.le_refl|discriminate|exact H]. Qed.
Print Assumptions C27_two_gib.
(** The two errors: with a chunk of 2 GiB, or for more than 2 GiB, no number of doublings
    is enough; and a sum that wraps around yields a region past the end of the chunk. *)
Theorem C27_endless : forall c n, pow2 (ckSize c) -> 0 < n -> 2147483648 <= ckSize c \/ 2147483648 < n ->
  forall fuel, grow fuel n (u32 (ckSize c * zj_Delta)) = Err EFuel.
Proof. exact one_forever. Qed.
Print Assumptions C27_endless.
Theorem C27_outside : forall next c r n, pow2 (ckSize c) -> ckPos c <= ckSize c -> n < two32 -> two32 <= ckPos c + n ->
  exists o, arena_alloc next (c :: r) n = Ok o /\ onew o = None /\ oaddr o = (ckBlk c, ckBase c + ckPos c) /\ ckSize c < ckPos c + n.
Proof. exact one_wraps. Qed.
Print Assumptions C27_outside.
Example C27_served_case : served 4096 0 [16; 5000; 0; 3; 100000; 2147483648; 0] /\ ~ served 4096 0 [16; 2147483649] /\
  ~ served 4096 0 [2147483648; 1] /\ ~ served 4096 0 [4000; 4294963296] /\
  run (A <- zj_NewAllocator ;; requests A [2147483648; 0]) = Ok [(2, 24); (2, 2147483672)] /\
  run (A <- zj_NewAllocator ;; requests A [2147483648; 1]) = Err EFuel /\
  run (A <- zj_NewAllocator ;; requests A [4000; 4294963296]) = Err ELimit.
Proof.
  split; [vm_compute; intuition discriminate|]. split; [intros (_ & K & _); vm_compute in K; now elim K|].
  split; [intros (_ & _ & K & _); discriminate|]. split; [intros (_ & K & _); vm_compute in K; now elim K|].
  split; [|split]; vm_compute; reflexivity.
Qed.

(** ** C28 ReleaseAllocator frees everything exactly once

    For any requests whatsoever (also such as wrap around, if they return): afterwards
    the live blocks are those from before the allocator was made.  Freeing a block that
    is not live is an error, and block numbers are never used twice, so every block was
    freed exactly once and no other block was.  A second release is an error. *)
Theorem C28_release : forall s l A s1 rs s2,
  (forall b, snext s <= b -> sbsize s b = None) ->
  zj_NewAllocator s = Ok (A, s1) -> requests A l s1 = Ok (rs, s2) ->
  exists s3, zj_ReleaseAllocator A s2 = Ok (tt, s3) /\ (forall b, sbsize s3 b = sbsize s b) /\
    (exists e, zj_ReleaseAllocator A s3 = Err e).
Proof. exact requests_released. Qed.
Print Assumptions C28_release.
(** The same at any point of any program: releasing frees exactly the blocks of the allocator. *)
Theorem C28_release_anytime : forall s A, wfst s -> alive s A -> exists s', zj_ReleaseAllocator A s = Ok (tt, s') /\
  (forall ar k, sallocs s A = Some ar -> In k ar -> sbsize s' (ckBlk k) = None) /\
  (forall b, ~ (exists ar k, sallocs s A = Some ar /\ In k ar /\ ckBlk k = b) -> sbsize s' b = sbsize s b) /\
  (forall B, B <> A -> sallocs s' B = sallocs s B).
Proof. exact release_anytime. Qed.
Print Assumptions C28_release_anytime.
Example C28_case : exists A s1 rs s2, zj_NewAllocator init = Ok (A, s1) /\ requests A [16; 5000; 0; 3; 100000] s1 = Ok (rs, s2) /\
  (forall b, snext init <= b -> sbsize init b = None) /\ sbsize s2 3 = Some 131096 /\ sbsize init 3 = None.
Proof.
  eexists _, _, _, _. split; [vm_compute; reflexivity|]. split; [vm_compute; reflexivity|]. split; [|split; vm_compute; reflexivity].
  intros b Hb. apply (w_next init wfst_init b Hb).
Qed.

(** ** C29 Allocators are isolated

    Refuted as stated, in two ways.  The scratch string of the Len setters lives in the
    allocator that used it first, and is used for all others: after the release of that
    allocator they use freed memory.  And adding a value of another allocator puts the
    copy into that other allocator. *)
Theorem C29_refuted :
  let setLen v := (p <- lit (txt "abc") ;; zj_SetStrLen v p 3) in
  let prog (release : bool) := (A <- zj_NewAllocator ;; B <- zj_NewAllocator ;; v <- zj_NewValue A ;; u <- zj_NewValue B ;;
    _ <- setLen v ;; _ <- (if release then zj_ReleaseAllocator A else ret tt) ;; _ <- setLen u ;; show u) in
  let prog2 (release : bool) := (A <- zj_NewAllocator ;; B <- zj_NewAllocator ;; u <- value A (txt "2") ;; v <- value B (txt "[1]") ;;
    _ <- zj_ArrayAdd 100 v u ;; _ <- (if release then zj_ReleaseAllocator A else ret tt) ;; show v) in
  (run (prog false) = Ok (txt """abc""") /\ run (prog true) = Err EDeref) /\
  (run (prog2 false) = Ok (txt "[1,2]") /\ run (prog2 true) = Err EDeref).
Proof. vm_compute. auto. Qed.
Print Assumptions C29_refuted.
(** What holds: documents that do not depend on the allocator ([inv] with the allocator
    among the marked ones) do not change when it is released. *)
Theorem C29_release_partial : forall (VV : vols) s F A,
  inv s F -> isvol A -> alive s A -> exists s', zj_ReleaseAllocator A s = Ok (tt, s') /\
  inv s' F /\ forall v w B, handle s F v w B -> ~ vol s (fst v) -> handle s' F v w B.
Proof. exact release_isolated. Qed.
Print Assumptions C29_release_partial.
Theorem C29_new_allocator_partial : forall (VV : vols) s F A s1,
  inv s F -> zj_NewAllocator s = Ok (A, s1) -> exists Hb : A <> 0,
  @inv (addvol VV A Hb) s1 F /\ alive s1 A /\
  forall v w B, @handle VV s F v w B -> ~ @vol VV s (fst v) -> @handle (addvol VV A Hb) s1 F v w B /\ ~ @vol (addvol VV A Hb) s1 (fst v).
Proof. exact new_isolated. Qed.
Print Assumptions C29_new_allocator_partial.
(** ** C34 Objects handed out by the allocator are aligned

    Refuted: the arena does not align, so that a value or node made after a text of odd
    length has an odd address (blocks from malloc are aligned). *)
Theorem C34_refuted : exists v s, (A <- zj_NewAllocator ;; u <- zj_NewValue A ;; p <- lit (txt "abc") ;; _ <- zj_SetStr u p ;; zj_NewValue A) init = Ok (v, s) /\
  svals s v <> None /\ ~ aligned v.
Proof.
  eexists _, _. split; [vm_compute; reflexivity|]. split; [vm_compute; discriminate|]. vm_compute. discriminate.
Qed.
Print Assumptions C34_refuted.
(** What holds: as long as all sizes are multiples of 8 (true of values and nodes, not
    of texts) all addresses are, for any number of requests of any such sizes. *)
Theorem C34_requests_partial : forall s l A s1 rs s2,
  Forall (fun n => n mod 8 = 0) l ->
  zj_NewAllocator s = Ok (A, s1) -> requests A l s1 = Ok (rs, s2) -> Forall aligned rs.
Proof. exact requests_aligned. Qed.
Print Assumptions C34_requests_partial.
Example C34_case : exists A s1 rs s2, zj_NewAllocator init = Ok (A, s1) /\ requests A [16; 72; 80000; 24] s1 = Ok (rs, s2) /\
  Forall (fun n => n mod 8 = 0) [16; 72; 80000; 24].
Proof.
  eexists _, _, _, _. split; [vm_compute; reflexivity|]. split; [vm_compute; reflexivity|]. repeat constructor.
Qed.
(** Exactly when: an address is aligned iff what was handed out of the same chunk before
    ([fills], from the sizes alone) is a multiple of 8. *)
Theorem C34_exactly : forall s A s1 l rs s2, Forall (fun n => n < two32) l -> zj_NewAllocator s = Ok (A, s1) -> requests A l s1 = Ok (rs, s2) ->
  forall i a f, nth_error rs i = Some a -> nth_error (fills 4096 0 l) i = Some f -> (aligned a <-> f mod 8 = 0).
Proof. exact aligned_exactly. Qed.
Print Assumptions C34_exactly.
Example C34_exact_case : fills 4096 0 [16; 72; 5; 16; 3; 72; 5000; 16] = [0; 16; 88; 93; 109; 112; 0; 5000] /\
  run (A <- zj_NewAllocator ;; requests A [16; 72; 5; 16; 3; 72; 5000; 16]) =
    Ok [(1, 40); (1, 56); (1, 128); (1, 133); (1, 149); (1, 152); (2, 24); (2, 5024)].
Proof. split; vm_compute; reflexivity. Qed.
