(** Properties for every setting of the macros of the header: C42 - C44. *)
From Verif Require Import Base Lex LexProofs Alloc AllocProofs Mem Api MemFacts Config.

(** ** C42 Allocators keep their regions apart in every configuration

    For sizes of any width, any growth factor, any initial size and any sizes of the
    structures: if the [K]-th growth step does not overflow, any requests of together no
    more than its size are served.  Every region lies in a block obtained from malloc,
    behind the header, and no two regions share a byte.  The number of passes of the
    growth loop is at most [K]. *)
Theorem C42_requests : forall c K l fuel,
  cTop c + cHead c + cInit c < 2 ^ cBits c -> cHead c + cInit c * cDelta c ^ K < 2 ^ cBits c ->
  sum l <= cInit c * cDelta c ^ K -> (N.to_nat K <= fuel)%nat ->
  exists rs ms, crun c fuel l = Ok (rs, ms) /\ length rs = length l /\ NoDup (map fst ms) /\
    (forall i b n, nth_error rs i = Some b -> nth_error l i = Some n ->
       exists m, In (fst b, m) ms /\ snd b + n <= m /\ cHead c <= snd b) /\
    (forall i k b n d m, (i < k)%nat -> nth_error rs i = Some b -> nth_error l i = Some n ->
       nth_error rs k = Some d -> nth_error l k = Some m -> apart b n d m).
Proof. intros c K l fuel H1 H2 H3 H4. exact (crun_ok c K H1 H2 l H3 fuel H4). Qed.
Print Assumptions C42_requests.
(** 64-bit sizes, tripling, starting from 100 bytes; the header as shipped serves 2^31 bytes. *)
Definition wide : config := mkConfig 64 3 100 16 32.
Example C42_case :
  (cTop wide + cHead wide + cInit wide < 2 ^ cBits wide /\ cHead wide + cInit wide * cDelta wide ^ 36 < 2 ^ cBits wide /\
   sum [60; 60; 2000; 9000000000000000000] <= cInit wide * cDelta wide ^ 36) /\
  (cTop shipped + cHead shipped + cInit shipped < 2 ^ cBits shipped /\ cHead shipped + cInit shipped * cDelta shipped ^ 19 < 2 ^ cBits shipped /\
   cInit shipped * cDelta shipped ^ 19 = 2147483648).
Proof. vm_compute. repeat split; discriminate || reflexivity. Qed.
Example C42_run : crun wide 40 [60; 60; 2000; 100] = Ok ([(1, 48); (2, 32); (3, 32); (3, 2032)], [(3, 2732); (2, 332); (1, 148)]) /\
  crun shipped 40 [16; 5000; 0; 3; 100000] = Ok ([(1, 40); (2, 24); (2, 5024); (2, 5024); (3, 24)], [(3, 131096); (2, 8216); (1, 4136)]).
Proof. split; vm_compute; reflexivity. Qed.
(** The model of the header as it is shipped, which the other properties are about, is an instance. *)
Theorem C42_shipped : forall next a size b,
  arena_alloc next a size = calloc shipped grow_fuel next a size /\ first_chunk b = cfirst shipped b.
Proof. intros next a size b. split; [apply shipped_alloc|apply shipped_first]. Qed.
Print Assumptions C42_shipped.
(** The bound is exact when initial size and growth factor are powers of two, as in the
    header as shipped: one more byte, and the request never returns. *)
Theorem C42_limit : forall c i j K n, cInit c = 2 ^ i -> cDelta c = 2 ^ j -> 1 <= j ->
  cTop c + cHead c + cInit c < 2 ^ cBits c -> cHead c + cInit c * cDelta c ^ K < 2 ^ cBits c -> 2 ^ cBits c <= cInit c * cDelta c ^ (K + 1) ->
  n < 2 ^ cBits c -> ((exists fuel r, crun c fuel [n] = Ok r) <-> n <= cInit c * cDelta c ^ K).
Proof. exact limit. Qed.
Print Assumptions C42_limit.
Example C42_limit_case : cInit shipped = 2 ^ 12 /\ cDelta shipped = 2 ^ 1 /\ cTop shipped + cHead shipped + cInit shipped < 2 ^ cBits shipped /\
  cHead shipped + cInit shipped * cDelta shipped ^ 19 < 2 ^ cBits shipped /\ 2 ^ cBits shipped <= cInit shipped * cDelta shipped ^ (19 + 1).
Proof. vm_compute. repeat split; discriminate || reflexivity. Qed.
(** Some settings are useless: with a growth factor of 0 or 1, or with an initial size of
    0, the first request that does not fit never returns. *)
Theorem C42_useless_settings : forall c n, cDelta c <= 1 \/ cInit c = 0 -> cInit c < n -> n < 2 ^ cBits c ->
  forall fuel, crun c fuel [n] = Err EFuel.
Proof. exact stuck. Qed.
Print Assumptions C42_useless_settings.
Example C42_useless_case : let c := mkConfig 32 1 4096 16 24 in cDelta c <= 1 /\ cInit c < 4097 /\ 4097 < 2 ^ cBits c.
Proof. vm_compute. repeat split; discriminate || reflexivity. Qed.

(** ** C43 Allocators obtain little more memory than requested, in few blocks

    With a growth factor of at least 2: the memory obtained from malloc is at most twice
    the growth factor times what was requested (or twice the initial size) and a header
    per block, and the number of blocks grows with the logarithm of what was requested. *)
Theorem C43_obtained : forall c K l fuel,
  cTop c + cHead c + cInit c < 2 ^ cBits c -> cHead c + cInit c * cDelta c ^ K < 2 ^ cBits c ->
  2 <= cDelta c -> sum l <= cInit c * cDelta c ^ K -> (N.to_nat K <= fuel)%nat ->
  exists rs ms, crun c fuel l = Ok (rs, ms) /\
    sum (map snd ms) <= cTop c + cHead c * N.of_nat (length ms) + N.max (2 * cInit c) (2 * cDelta c * sum l) /\
    ((2 <= length ms)%nat -> cInit c * cDelta c ^ N.of_nat (length ms - 2) < sum l).
Proof. intros c K l fuel H1 H2 H3 H4 H5. exact (crun_cheap c K H1 H2 l H3 H4 fuel H5). Qed.
Print Assumptions C43_obtained.
Example C43_case : cTop shipped + cHead shipped + cInit shipped < 2 ^ cBits shipped /\ cHead shipped + cInit shipped * cDelta shipped ^ 19 < 2 ^ cBits shipped /\
  2 <= cDelta shipped /\ sum [16; 5000; 0; 3; 100000] <= cInit shipped * cDelta shipped ^ 19.
Proof. vm_compute. repeat split; discriminate || reflexivity. Qed.

(** ** C44 The text builder stays in its buffer in every configuration

    For every growth factor of at least 2 and every initial size of at least 1: any
    appends of strings and characters stay within the buffer as long as the sizes do not
    overflow, and cost at most twice the growth factor times the length of the text
    (besides the initial buffer). *)
Theorem C44_appends : forall c I K l fuel, 2 <= cDelta c -> 1 <= I -> I * cDelta c ^ K < 2 ^ cBits c ->
  total l <= I * cDelta c ^ K -> (N.to_nat K <= fuel)%nat ->
  exists size rs, cappends c fuel I 0 l = Ok (size, total l, rs) /\ total l <= size /\ sum rs <= 2 * cDelta c * total l.
Proof. exact builder. Qed.
Print Assumptions C44_appends.
Example C44_case : 2 <= cDelta shipped /\ 1 <= 1024 /\ 1024 * cDelta shipped ^ 21 < 2 ^ cBits shipped /\
  total [AStr 1000; AChar; AStr 5000; AChar] <= 1024 * cDelta shipped ^ 21.
Proof. vm_compute. repeat split; discriminate || reflexivity. Qed.
Example C44_run : cappends shipped 40 1024 0 [AStr 1000; AChar; AStr 5000; AChar] = Ok (8192, 6002, [8192]) /\
  cappends shipped 40 2 0 [AStr 2; AChar; AChar; AChar] = Ok (8, 5, [4; 8]).
Proof. split; vm_compute; reflexivity. Qed.
(** The builder of the header as shipped, which the other properties are about, is an
    instance: what an append does to size and position is what [cappend] says. *)
Theorem C44_shipped : forall p s s1 z, sstrs s p = Some z -> zPos z <= zSize z ->
  (forall src, zj_appendStr p src s = Ok (tt, s1) -> exists z1 r, sstrs s1 p = Some z1 /\
     cappend shipped grow_fuel (zSize z) (zPos z) (AStr (N.of_nat (length src))) = Ok (zSize z1, zPos z1, r)) /\
  (forall x, zj_appendChar p x s = Ok (tt, s1) -> exists z1 r, sstrs s1 p = Some z1 /\
     cappend shipped grow_fuel (zSize z) (zPos z) AChar = Ok (zSize z1, zPos z1, r)).
Proof. intros p s s1 z Hz Hp. split; intro; [now apply shipped_appendStr|now apply shipped_appendChar]. Qed.
Print Assumptions C44_shipped.
Example C44_shipped_case : exists s p z, sstrs s p = Some z /\ zPos z = 5 /\ zSize z = 8 /\ exists s1, zj_appendStr p [1;2;3;4] s = Ok (tt, s1).
Proof.
  destruct ((A <- zj_NewAllocator ;; p <- zj_newString A 2 ;; zj_appendStr p [1; 2] ;;; zj_appendChar p 3 ;;; zj_appendChar p 4 ;;; zj_appendChar p 5 ;;; ret p) init) as [[p s]|e] eqn:E;
    [|exfalso; revert E; vm_compute; discriminate].
  exists s, p. vm_compute in E. injection E as <- <-. eexists. split; [vm_compute; reflexivity|]. split; [reflexivity|]. split; [reflexivity|].
  eexists. vm_compute. reflexivity.
Qed.
(** Other settings are not safe: with a growth factor of 0 or 1, or with an initial size
    of 0, appending a character to a full buffer writes outside of it. *)
Theorem C44_unsafe_settings : forall c I fuel, cDelta c <= 1 \/ I = 0 -> I + 1 < 2 ^ cBits c ->
  cappends c fuel I I [AChar] = Err EOverflow.
Proof. exact builder_unsafe. Qed.
Print Assumptions C44_unsafe_settings.
Example C44_unsafe_case : let c := mkConfig 32 2 4096 16 24 in (cDelta c <= 1 \/ 0 = 0) /\ 0 + 1 < 2 ^ cBits c.
Proof. vm_compute. split; [right|]; reflexivity. Qed.
