(** The arena for requests of any size: which sequences of requests are served, and
    what happens to the first one that is not. *)
From Verif Require Import Base Lex LexProofs Alloc AllocProofs Mem MemProofs MemFacts.

Definition two31 : N := 2147483648.
(** The smallest power of two that is at least twice the capacity and at least the
    request: what the doubling arrives at. *)
Definition next_cap (cap n : N) : N := N.max (2 * cap) (2 ^ N.log2_up n).
(** A chunk of [cap] bytes of which [fill] are handed out serves the requests [l]: each
    fits into the current chunk, or that is below 2 GiB, the request is at most 2 GiB,
    and the chunk opened for it serves the rest. *)
Fixpoint served (cap fill : N) (l : list N) : Prop :=
  match l with
  | [] => True
  | n :: r =>
      if fill + n <=? cap then served cap (fill + n) r
      else cap < two31 /\ n <= two31 /\ served (next_cap cap n) n r
  end.
(** How much of its chunk is handed out when a request is served. *)
Fixpoint fills (cap fill : N) (l : list N) : list N :=
  match l with
  | [] => []
  | n :: r =>
      if fill + n <=? cap then fill :: fills cap (fill + n) r
      else 0 :: fills (next_cap cap n) n r
  end.

Definition pow2 (cap : N) : Prop := exists k, cap = 2 ^ k /\ 12 <= k <= 31.
Lemma pow2_first : pow2 zj_AllocatorInitMemSize.
Proof. exists 12. split; [reflexivity|lia]. Qed.
Lemma pow2_le cap : pow2 cap -> 4096 <= cap <= two31.
Proof.
  intros (k & -> & H). change 4096 with (2 ^ 12). change two31 with (2 ^ 31). split; apply N.pow_le_mono_r; lia.
Qed.
Lemma pow2_small cap : pow2 cap -> cap < two31 -> pow2 (2 * cap).
Proof.
  intros (k & -> & H) L. exists (k + 1). split; [rewrite N.pow_add_r; cbn; lia|].
  assert (k < 31); [|lia]. change two31 with (2 ^ 31) in L. apply N.pow_lt_mono_r_iff in L; lia.
Qed.
Lemma pow2_next cap n : pow2 cap -> cap < two31 -> n <= two31 -> pow2 (next_cap cap n).
Proof.
  intros P L Ln. pose proof (pow2_small cap P L) as P2. unfold next_cap.
  destruct (N.max_spec (2 * cap) (2 ^ N.log2_up n)) as [[H ->]|[H ->]]; auto.
  exists (N.log2_up n). split; auto. split.
  - destruct (N.lt_ge_cases (N.log2_up n) 12) as [K|K]; auto. exfalso.
    assert (2 ^ N.log2_up n < 2 ^ 12) by (apply N.pow_lt_mono_r; lia). pose proof (pow2_le _ P2). change (2 ^ 12) with 4096 in *. lia.
  - change 31 with (N.log2_up two31). now apply N.log2_up_le_mono.
Qed.

(** The doubling loop, exactly. *)
Lemma grow_all f : forall need k, need <= two31 -> k <= 31 -> (31 - N.to_nat k <= f)%nat ->
  grow f need (2 ^ k) = Ok (N.max (2 ^ k) (2 ^ N.log2_up need)).
Proof.
  induction f as [|f IH]; intros need k Hn Hk Hf.
  - assert (k = 31) as -> by lia. cbn [grow]. change (2 ^ 31) with two31. destruct (N.ltb_spec two31 need); [lia|].
    f_equal. symmetry. apply N.max_l. change two31 with (2 ^ 31). apply N.pow_le_mono_r; [lia|].
    change 31 with (N.log2_up two31). now apply N.log2_up_le_mono.
  - cbn [grow]. destruct (N.ltb_spec (2 ^ k) need) as [L|L].
    + assert (k < 31).
      { destruct (N.eq_dec k 31) as [->|]; [|lia]. change (2 ^ 31) with two31 in L. lia. }
      assert (E : u32 (2 ^ k * zj_Delta) = 2 ^ (k + 1)).
      { unfold zj_Delta. rewrite N.pow_add_r. change (2 ^ 1) with 2. apply u32_small.
        assert (2 ^ k <= 2 ^ 30) by (apply N.pow_le_mono_r; lia). change (2 ^ 30) with 1073741824 in *. unfold two32. lia. }
      rewrite E, IH by lia. f_equal.
      assert (2 ^ (k + 1) <= 2 ^ N.log2_up need).
      { apply N.pow_le_mono_r; [lia|]. assert (k < N.log2_up need); [|lia]. apply N.log2_up_lt_pow2; [|exact L].
        assert (2 ^ k <> 0) by (apply N.pow_nonzero; lia). lia. }
      rewrite N.pow_add_r in *. change (2 ^ 1) with 2 in *. lia.
    + f_equal. symmetry. apply N.max_l. apply N.pow_le_mono_r; [lia|].
      destruct (N.eq_dec need 0) as [->|]; [cbn; lia|]. destruct (N.le_gt_cases (N.log2_up need) k) as [K|K]; auto.
      apply N.log2_up_lt_pow2 in K; lia.
Qed.
Lemma grow_high f : forall need k, two31 < need -> k <= 32 -> grow f need (u32 (2 ^ k)) = Err EFuel.
Proof.
  induction f as [|f IH]; intros need k Hn Hk.
  - cbn [grow]. assert (u32 (2 ^ k) <= two31).
    { destruct (N.eq_dec k 32) as [->|]; [vm_compute; discriminate|].
      assert (2 ^ k <= 2 ^ 31) by (apply N.pow_le_mono_r; lia). change (2 ^ 31) with two31 in *. rewrite u32_small; auto. unfold two32, two31 in *. lia. }
    destruct (N.ltb_spec (u32 (2 ^ k)) need); [reflexivity|lia].
  - destruct (N.eq_dec k 32) as [->|].
    + change (u32 (2 ^ 32)) with 0. apply grow_zero. lia.
    + assert (2 ^ k <= 2 ^ 31) by (apply N.pow_le_mono_r; lia). change (2 ^ 31) with two31 in *.
      assert (Eu : u32 (2 ^ k) = 2 ^ k) by (apply u32_small; unfold two31, two32 in *; lia).
      cbn [grow]. rewrite Eu. destruct (N.ltb_spec (2 ^ k) need); [|lia].
      replace (2 ^ k * zj_Delta) with (2 ^ (k + 1)) by (rewrite N.pow_add_r; reflexivity). apply IH; [exact Hn|lia].
Qed.

(** One request, exactly: three cases. *)
Lemma one_fits next c r n : ckPos c + n <= ckSize c -> ckSize c < two32 ->
  arena_alloc next (c :: r) n = Ok (mkOut (ckBlk c, ckBase c + ckPos c) (mkChunk (ckBlk c) (ckBase c) (ckSize c) (ckPos c + n) :: r) None).
Proof.
  intros L H. unfold arena_alloc. rewrite u32_small by lia. destruct (N.ltb_spec (ckSize c) (ckPos c + n)); [lia|reflexivity].
Qed.
Lemma one_grows next c r n : pow2 (ckSize c) -> ckPos c <= ckSize c -> ckSize c < ckPos c + n -> ckSize c < two31 -> n <= two31 ->
  arena_alloc next (c :: r) n = Ok (mkOut (next, 24) (mkChunk next 24 (next_cap (ckSize c) n) n :: c :: r) (Some (24 + next_cap (ckSize c) n))).
Proof.
  intros P Lp L Lc Ln. pose proof (pow2_next _ n P Lc Ln) as Pn. pose proof (pow2_le _ Pn) as Bn. pose proof (pow2_small _ P Lc) as P2.
  pose proof (pow2_le _ P2) as B2. unfold arena_alloc.
  rewrite (u32_small (ckPos c + n)) by (unfold two31, two32 in *; lia).
  destruct (N.ltb_spec (ckSize c) (ckPos c + n)); [|lia].
  replace (u32 (ckSize c * zj_Delta)) with (2 * ckSize c) by (rewrite u32_small; unfold zj_Delta, two31, two32 in *; lia).
  destruct P2 as (k & Ek & Hk).
  assert (E : grow grow_fuel n (2 * ckSize c) = Ok (next_cap (ckSize c) n)).
  { unfold next_cap. rewrite Ek. apply grow_all; try lia. unfold grow_fuel. lia. }
  rewrite E. cbn [rbind]. change (sizeof_aNode + 0) with 24. change sizeof_aNode with 24. rewrite N.add_0_l.
  rewrite (u32_small n), (u32_small (24 + _)) by (unfold two31, two32 in *; lia). reflexivity.
Qed.
Lemma one_forever c n : pow2 (ckSize c) -> 0 < n -> two31 <= ckSize c \/ two31 < n ->
  forall f, grow f n (u32 (ckSize c * zj_Delta)) = Err EFuel.
Proof.
  intros P L0 H f. destruct P as (k & Ek & Hk). rewrite Ek in *. replace (2 ^ k * zj_Delta) with (2 ^ (k + 1)) by (rewrite N.pow_add_r; reflexivity).
  destruct H as [H|H]; [|apply grow_high; auto; lia].
  assert (k = 31) as ->.
  { destruct (N.lt_ge_cases k 31) as [K|K]; [|lia]. exfalso. assert (2 ^ k < 2 ^ 31) by (apply N.pow_lt_mono_r; lia). change (2 ^ 31) with two31 in *. lia. }
  change (u32 (2 ^ (31 + 1))) with 0. now apply grow_zero.
Qed.
Lemma one_never next c r n : pow2 (ckSize c) -> ckPos c <= ckSize c -> ckSize c < ckPos c + n -> ckPos c + n < two32 ->
  two31 <= ckSize c \/ two31 < n -> arena_alloc next (c :: r) n = Err EFuel.
Proof.
  intros P Lp L L2 H. unfold arena_alloc. rewrite (u32_small (ckPos c + n)) by lia.
  destruct (N.ltb_spec (ckSize c) (ckPos c + n)); [|lia]. rewrite (one_forever c n P); auto. lia.
Qed.
Lemma one_wraps next c r n : pow2 (ckSize c) -> ckPos c <= ckSize c -> n < two32 -> two32 <= ckPos c + n ->
  exists o, arena_alloc next (c :: r) n = Ok o /\ onew o = None /\ oaddr o = (ckBlk c, ckBase c + ckPos c) /\ ckSize c < ckPos c + n.
Proof.
  intros P Lp Ln L. pose proof (pow2_le _ P) as B. unfold arena_alloc.
  assert (E : u32 (ckPos c + n) = ckPos c + n - two32).
  { unfold u32. symmetry. apply (N.mod_unique _ _ 1); unfold two31, two32 in *; lia. }
  rewrite E. destruct (N.ltb_spec (ckSize c) (ckPos c + n - two32)); [unfold two31, two32 in *; lia|].
  eexists. split; [reflexivity|]. split; [reflexivity|]. split; [reflexivity|]. unfold two31, two32 in *. lia.
Qed.

(** The allocator between requests. *)
Record open_at (s : st) (A cap fill : N) : Prop := {
  oa_cap : pow2 cap;
  oa_fill : fill <= cap;
  oa_arena : exists c r, sallocs s A = Some (c :: r) /\ ckSize c = cap /\ ckPos c = fill /\ ckBase c mod 8 = 0 /\
    sbsize s (ckBlk c) = Some (ckBase c + cap) /\ ckBlk c < snext s
}.
(** Bytes that the allocator will not hand out again. *)
Definition behind (s : st) (A : N) (a : addr) (n : N) : Prop :=
  fst a < snext s /\ forall c r, sallocs s A = Some (c :: r) -> fst a = ckBlk c -> snd a + n <= ckBase c + ckPos c.

Lemma open_new s A s1 : zj_NewAllocator s = Ok (A, s1) -> open_at s1 A zj_AllocatorInitMemSize 0 /\
  forall a n, fst a < snext s -> behind s1 A a n.
Proof.
  intro E. injection E as <- <-. split.
  - constructor; [apply pow2_first|lia|]. exists (first_chunk (snext s)), []. cbn [sallocs sbsize snext]. rewrite !updN_eq.
    repeat split. cbn. lia.
  - intros a n L. split; cbn [snext sallocs]; [lia|]. rewrite updN_eq. intros c r K E. injection K as <- <-. cbn in E. lia.
Qed.
Definition kept (s s' : st) : Prop := snext s <= snext s' /\ forall b, b < snext s -> sbsize s' b = sbsize s b.

Lemma alloc_fits s A cap fill n : open_at s A cap fill -> n < two32 -> fill + n <= cap ->
  exists a s', zj_allocatorAlloc A n s = Ok (a, s') /\ open_at s' A cap (fill + n) /\ kept s s' /\ inside s' a n /\
    snd a mod 8 = fill mod 8 /\ behind s' A a n /\ (forall b m, behind s A b m -> apart a n b m /\ behind s' A b m).
Proof.
  intros [P Lf (c & r & EA & Ec & Ep & Eb & Es & Lb)] Ln L. pose proof (pow2_le _ P) as B. unfold zj_allocatorAlloc. rewrite EA, (u32_small n Ln).
  rewrite one_fits by (rewrite ?Ec, ?Ep; unfold two31, two32 in *; lia). cbn [onew oaddr oarena fst snd]. rewrite Es, Ep, Ec.
  destruct (N.ltb_spec (ckBase c + cap) (ckBase c + fill + n)); [lia|].
  eexists _, _. split; [reflexivity|]. split; [|split; [|split; [|split; [|split]]]].
  - constructor; [exact P|lia|]. eexists _, r. cbn [sallocs sbsize snext]. rewrite updN_eq. split; [reflexivity|]. cbn [ckSize ckPos ckBase ckBlk]. auto.
  - split; cbn [snext sbsize]; [lia|auto].
  - exists (ckBase c + cap). cbn [sbsize fst snd]. split; [auto|lia].
  - cbn [snd]. rewrite N.add_mod by discriminate. rewrite Eb, N.add_0_l. now rewrite N.mod_mod.
  - split; cbn [snext sallocs fst snd]; auto. rewrite updN_eq. intros c' r' K _. injection K as <- <-. cbn. lia.
  - intros b m [L1 L2]. specialize (L2 c r EA). split.
    + apply apart_range. cbn [fst snd]. intros _ _. destruct (N.eq_dec (fst b) (ckBlk c)) as [E|E]; auto. specialize (L2 E). lia.
    + split; cbn [snext sallocs]; auto. rewrite updN_eq. intros c' r' K E. injection K as <- <-. cbn in E |- *. specialize (L2 E). lia.
Qed.
Lemma alloc_grows s A cap fill n : open_at s A cap fill -> cap < fill + n -> cap < two31 -> n <= two31 ->
  exists a s', zj_allocatorAlloc A n s = Ok (a, s') /\ open_at s' A (next_cap cap n) n /\ kept s s' /\ inside s' a n /\
    snd a mod 8 = 0 mod 8 /\ behind s' A a n /\ (forall b m, behind s A b m -> apart a n b m /\ behind s' A b m).
Proof.
  intros [P Lf (c & r & EA & Ec & Ep & Eb & Es & Lb)] L Lc Ln. unfold zj_allocatorAlloc.
  assert (Ln32 : n < two32) by (unfold two31, two32 in *; lia). rewrite EA, (u32_small n Ln32).
  rewrite one_grows by (rewrite ?Ec, ?Ep; auto). cbn [onew oaddr oarena fst snd]. rewrite updN_eq, Ec.
  pose proof (pow2_next cap n P Lc Ln) as Pn.
  assert (Lnc : n <= next_cap cap n).
  { unfold next_cap. assert (n <= 2 ^ N.log2_up n); [|lia]. destruct (N.le_gt_cases n 1) as [K|K].
    - assert (2 ^ N.log2_up n <> 0) by (apply N.pow_nonzero; lia). lia.
    - apply N.log2_up_spec. lia. }
  destruct (N.ltb_spec (24 + next_cap cap n) (24 + n)); [lia|].
  eexists _, _. split; [reflexivity|]. split; [|split; [|split; [|split; [|split]]]].
  - constructor; [exact Pn|exact Lnc|]. eexists _, _. cbn [sallocs sbsize snext]. rewrite updN_eq. split; [reflexivity|].
    cbn [ckSize ckPos ckBase ckBlk]. rewrite updN_eq. repeat split. lia.
  - split; cbn [snext sbsize]; [lia|]. intros b Hb. now rewrite updN_neq by lia.
  - exists (24 + next_cap cap n). cbn [sbsize fst snd]. rewrite updN_eq. split; [auto|lia].
  - reflexivity.
  - split; cbn [snext sallocs fst snd]; [lia|]. rewrite updN_eq. intros c' r' K _. injection K as <- <-. cbn. lia.
  - intros b m [L1 L2]. split.
    + apply apart_range. cbn [fst snd]. intros _ _. left. lia.
    + split; cbn [snext sallocs]; [lia|]. rewrite updN_eq. intros c' r' K E. injection K as <- <-. cbn in E. lia.
Qed.
Lemma alloc_refused s A cap fill n : open_at s A cap fill -> n < two32 -> cap < fill + n -> ~ (cap < two31 /\ n <= two31) ->
  zj_allocatorAlloc A n s = Err EFuel \/ zj_allocatorAlloc A n s = Err ELimit.
Proof.
  intros [P Lf (c & r & EA & Ec & Ep & Eb & Es & Lb)] Ln L H. unfold zj_allocatorAlloc. rewrite EA, (u32_small n Ln).
  destruct (N.lt_ge_cases (fill + n) two32) as [K|K].
  - left. rewrite one_never; rewrite ?Ec, ?Ep; auto. lia.
  - right. destruct (one_wraps (snext s) c r n) as (o & Eo & En & Ea & _); rewrite ?Ec, ?Ep; auto.
    rewrite Eo, En, Ea. cbn [fst snd]. rewrite Es, Ep. destruct (N.ltb_spec (ckBase c + cap) (ckBase c + fill + n)); [reflexivity|lia].
Qed.

Lemma kept_inside s s' a n : kept s s' -> fst a < snext s -> inside s a n -> inside s' a n.
Proof. intros [_ K] L (m & E & H). exists m. rewrite K; auto. Qed.

Lemma requests_served l : forall s A cap fill, open_at s A cap fill -> Forall (fun n => n < two32) l -> served cap fill l ->
  exists rs s', requests A l s = Ok (rs, s') /\ length rs = length l /\ kept s s' /\
    Forall2 (fun a f => snd a mod 8 = f mod 8) rs (fills cap fill l) /\
    (forall i a n, nth_error rs i = Some a -> nth_error l i = Some n -> inside s' a n /\
       (forall b m, behind s A b m -> apart a n b m) /\
       (forall k b m, (k < i)%nat -> nth_error rs k = Some b -> nth_error l k = Some m -> apart a n b m)).
Proof.
  induction l as [|n l IH]; intros s A cap fill O HF Hs.
  - exists [], s. split; [reflexivity|]. split; auto. split; [split; [lia|auto]|]. split; [constructor|]. intros [|i] a n E; discriminate.
  - inversion_clear HF as [|? ? Hn HF']. cbn [served fills] in *.
    assert (K : exists a s1 cap' fill' f, zj_allocatorAlloc A n s = Ok (a, s1) /\ open_at s1 A cap' fill' /\ kept s s1 /\ inside s1 a n /\
      snd a mod 8 = f mod 8 /\ behind s1 A a n /\ (forall b m, behind s A b m -> apart a n b m /\ behind s1 A b m) /\
      served cap' fill' l /\ (if fill + n <=? cap then fill :: fills cap (fill + n) l else 0 :: fills (next_cap cap n) n l) = f :: fills cap' fill' l).
    { destruct (N.leb_spec (fill + n) cap) as [L|L].
      - destruct (alloc_fits s A cap fill n O Hn L) as (a & s1 & H). exists a, s1, cap, (fill + n), fill. intuition.
      - destruct Hs as (H1 & H2 & H3). destruct (alloc_grows s A cap fill n O L H1 H2) as (a & s1 & H).
        exists a, s1, (next_cap cap n), n, 0. intuition. }
    destruct K as (a & s1 & cap' & fill' & f & E1 & O1 & K1 & I1 & M1 & B1 & P1 & Hs' & Ef). rewrite Ef.
    destruct (IH s1 A cap' fill' O1 HF' Hs') as (rs & s' & E2 & L2 & K2 & F2 & H2).
    exists (a :: rs), s'. split; [cbn [requests]; unfold bind; rewrite E1, E2; reflexivity|]. split; [cbn; lia|].
    split; [destruct K1 as [K1 K1'], K2 as [K2 K2']; split; [lia|]; intros b Hb; rewrite K2' by lia; auto|]. split; [constructor; auto|].
    intros [|i] b m Hb Hm.
    + injection Hb as <-. injection Hm as <-. split; [apply (kept_inside s1); auto; apply B1|]. split; [intros b m Hb; now apply P1|]. intros k ? ? K; lia.
    + cbn in Hb, Hm. destruct (H2 i b m Hb Hm) as (J1 & J2 & J3). split; auto. split.
      * intros c k Hc. apply J2. now apply P1.
      * intros [|k] c x Hk Hc Hx; [|eapply J3; eauto; lia]. injection Hc as <-. injection Hx as <-. apply J2, B1.
Qed.
Lemma requests_refused l : forall s A cap fill, open_at s A cap fill -> Forall (fun n => n < two32) l -> ~ served cap fill l ->
  requests A l s = Err EFuel \/ requests A l s = Err ELimit.
Proof.
  induction l as [|n l IH]; intros s A cap fill O HF Hs; [elim Hs; exact Logic.I|].
  inversion_clear HF as [|? ? Hn HF']. cbn [served requests] in *. unfold bind.
  destruct (N.leb_spec (fill + n) cap) as [L|L].
  - destruct (alloc_fits s A cap fill n O Hn L) as (a & s1 & E & O1 & _). rewrite E.
    destruct (IH s1 A _ _ O1 HF' Hs) as [K|K]; rewrite K; auto.
  - assert (D : (cap < two31 /\ n <= two31) \/ ~ (cap < two31 /\ n <= two31)) by lia. destruct D as [[D1 D2]|D].
    + destruct (alloc_grows s A cap fill n O L D1 D2) as (a & s1 & E & O1 & _). rewrite E.
      destruct (IH s1 A _ _ O1 HF') as [K|K]; [tauto|rewrite K; auto..].
    + destruct (alloc_refused s A cap fill n O Hn L D) as [K|K]; rewrite K; auto.
Qed.

(** ** From a new allocator *)
Lemma served_exactly s A s1 l : Forall (fun n => n < two32) l -> zj_NewAllocator s = Ok (A, s1) ->
  (served 4096 0 l -> exists rs s2, requests A l s1 = Ok (rs, s2) /\ length rs = length l /\
    (forall i a n, nth_error rs i = Some a -> nth_error l i = Some n -> inside s2 a n /\
       (forall b m, fst b < snext s -> apart a n b m) /\
       (forall k b m, k <> i -> nth_error rs k = Some b -> nth_error l k = Some m -> apart a n b m))) /\
  (~ served 4096 0 l -> requests A l s1 = Err EFuel \/ requests A l s1 = Err ELimit).
Proof.
  intros HF E. destruct (open_new s A s1 E) as [O Bh]. split; [|now apply requests_refused with (1 := O)].
  intro Hs. destruct (requests_served l s1 A _ _ O HF Hs) as (rs & s2 & E2 & L & _ & _ & H). exists rs, s2. split; auto. split; auto.
  intros i a n Ha Hn. destruct (H i a n Ha Hn) as (H1 & H2 & H3). split; auto. split; [intros b m Hb; apply H2; auto|].
  intros k b m Hk Hb Hm. destruct (Nat.lt_trichotomy k i) as [K|[K|K]]; [eauto|congruence|].
  destruct (H k b m Hb Hm) as (_ & _ & J). apply apart_sym. eauto.
Qed.
Lemma served_sum l : forall cap fill u, fill <= u -> cap <= N.max 4096 (2 * u) -> u + sum l <= two31 -> served cap fill l.
Proof.
  induction l as [|n l IH]; intros cap fill u L C H; cbn [served]; [exact Logic.I|]. cbn [sum fold_right] in H. fold (sum l) in H.
  destruct (N.leb_spec (fill + n) cap) as [K|K]; [apply (IH _ _ (u + n)); lia|]. split; [lia|]. split; [lia|].
  apply (IH _ _ (u + n)); try lia. unfold next_cap.
  assert (2 ^ N.log2_up n <= N.max 1 (2 * n)); [|lia]. destruct (N.le_gt_cases n 1) as [J|J]; [rewrite N.log2_up_eqn0 by lia; cbn; lia|].
  pose proof (N.log2_up_spec n J) as [S _]. assert (0 < N.log2_up n) by now apply N.log2_up_pos.
  replace (N.log2_up n) with (N.succ (N.pred (N.log2_up n))) by lia. rewrite N.pow_succ_r'. lia.
Qed.
Lemma aligned_exactly s A s1 l rs s2 : Forall (fun n => n < two32) l -> zj_NewAllocator s = Ok (A, s1) -> requests A l s1 = Ok (rs, s2) ->
  forall i a f, nth_error rs i = Some a -> nth_error (fills 4096 0 l) i = Some f -> (aligned a <-> f mod 8 = 0).
Proof.
  intros HF E E2 i a f Ha Hf. destruct (open_new s A s1 E) as [O _].
  assert (D : served 4096 0 l).
  { assert (forall l c f, served c f l \/ ~ served c f l) as D.
    { clear. induction l as [|n l IH]; intros c f; cbn [served]; [auto|]. destruct (f + n <=? c); [apply IH|].
      destruct (IH (next_cap c n) n); [|tauto]. assert ((c < two31 /\ n <= two31) \/ ~ (c < two31 /\ n <= two31)) as [?|?] by lia; tauto. }
    destruct (D l 4096 0) as [K|K]; auto. destruct (requests_refused l s1 A _ _ O HF K); congruence. }
  destruct (requests_served l s1 A _ _ O HF D) as (rs' & s2' & E2' & _ & _ & F & _). rewrite E2 in E2'. injection E2' as <- <-.
  change zj_AllocatorInitMemSize with 4096 in F. unfold aligned. revert i Ha Hf. clear - F.
  induction F as [|x y xs ys Hx F IH]; intros [|i] Ha Hf; try discriminate; cbn in Ha, Hf; [|eauto].
  injection Ha as ->. injection Hf as ->. rewrite Hx. tauto.
Qed.
