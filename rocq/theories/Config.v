(** The arena for every setting of the macros zj_SIZE_TYPE, zj_DELTA and
    zj_ALLOCATOR_INIT_MEMSIZE (zzzjson.h:34-59). *)
From Verif Require Import Base Lex LexProofs Alloc AllocProofs Mem MemProofs Api MemFacts.

(** A configuration: the number of bits of zj_Size (37), zj_Delta (55),
    zj_AllocatorInitMemSize (60), and the sizes of struct zj_Allocator (453-478) and
    struct zj_aNode (440-449), which depend on the platform and on zj_Size. *)
Record config := mkConfig { cBits : N; cDelta : N; cInit : N; cTop : N; cHead : N }.
(** Conversion to zj_Size.  If zj_Size is narrower than int, C does not convert the sums
    that the code compares; the theorems speak of runs in which they do not overflow. *)
Definition wrap (c : config) (x : N) : N := x mod 2 ^ cBits c.

(** [while (size > s) s *= zj_Delta], zzzjson.h:534-535; [fuel] passes through the loop. *)
Fixpoint cgrow (c : config) (fuel : nat) (need s : N) : res N :=
  if s <? need then
    match fuel with
    | O => Err EFuel
    | S f => cgrow c f need (wrap c (s * cDelta c))
    end
  else Ok s.

(** zj_allocatorAlloc 526-542 with zj_allocatorAppendChild 510-524 and zj_new 80,
    as [arena_alloc] of Alloc.v but for any configuration. *)
Definition calloc (c : config) (fuel : nat) (next : N) (a : arena) (size : N) : res alloc_out :=
  match a with
  | [] => Err EDeref
  | cur :: rest =>
      if ckSize cur <? wrap c (ckPos cur + size) then
        s <-? cgrow c fuel size (wrap c (ckSize cur * cDelta c)) ;;
        Ok (mkOut (next, cHead c + 0)
                  (mkChunk next (cHead c) s (wrap c (0 + size)) :: cur :: rest)
                  (Some (wrap c (cHead c + s))))
      else
        Ok (mkOut (ckBlk cur, ckBase cur + ckPos cur)
                  (mkChunk (ckBlk cur) (ckBase cur) (ckSize cur) (wrap c (ckPos cur + size)) :: rest)
                  None)
  end.

(** zj_NewAllocator, zzzjson.h:480-495. *)
Definition cfirst (c : config) (blk : N) : chunk := mkChunk blk (cTop c + cHead c) (cInit c) 0.
Definition cmalloc (c : config) : N := wrap c (cTop c + cHead c + cInit c).

(** A new allocator and then one request after the other.  The blocks malloc returns
    are numbered from 1.  Result: the regions handed out, and what was asked of
    malloc, the latest first. *)
Fixpoint cserve (c : config) (fuel : nat) (next : N) (a : arena) (ms : list (N * N)) (l : list N) : res (list addr * list (N * N)) :=
  match l with
  | [] => Ok ([], ms)
  | n :: r =>
      o <-? calloc c fuel next a n ;;
      q <-? match onew o with
            | Some m => cserve c fuel (next + 1) (oarena o) ((next, m) :: ms) r
            | None => cserve c fuel next (oarena o) ms r
            end ;;
      Ok (oaddr o :: fst q, snd q)
  end.
Definition crun (c : config) (fuel : nat) (l : list N) : res (list addr * list (N * N)) :=
  cserve c fuel 2 [cfirst c 1] [(1, cmalloc c)] l.

(** The header as it is shipped, on an LP64 platform. *)
Definition shipped : config := mkConfig 32 2 4096 16 24.
Lemma shipped_grow fuel : forall need s, grow fuel need s = cgrow shipped fuel need s.
Proof.
  induction fuel as [|f IH]; intros need s; cbn [grow cgrow]; [reflexivity|]. destruct (s <? need); [apply IH|reflexivity].
Qed.
Lemma shipped_alloc next a size : arena_alloc next a size = calloc shipped grow_fuel next a size.
Proof.
  unfold arena_alloc, calloc. destruct a as [|cur rest]; [reflexivity|].
  change (wrap shipped) with u32. change (cHead shipped) with sizeof_aNode. change (cDelta shipped) with zj_Delta.
  rewrite shipped_grow. reflexivity.
Qed.
Lemma shipped_first b : first_chunk b = cfirst shipped b.
Proof. reflexivity. Qed.

Lemma wrap_small c x : x < 2 ^ cBits c -> wrap c x = x.
Proof. intro H. unfold wrap. now apply N.mod_small. Qed.

(** ** No request is too much as long as the sizes of the chunks do not wrap *)
Section Conf.
Variable c : config.
Variable K : N.
Hypothesis Htop : cTop c + cHead c + cInit c < 2 ^ cBits c.
Hypothesis HK : cHead c + cInit c * cDelta c ^ K < 2 ^ cBits c.
Let top := cInit c * cDelta c ^ K.

(** [s] is a size the growth passes through. *)
Definition step_size (k s : N) : Prop := k <= K /\ s = cInit c * cDelta c ^ k.
Lemma step_next k s : step_size k s -> s < top -> step_size (k + 1) (s * cDelta c) /\ s * cDelta c <= top.
Proof.
  intros [Hk ->] Hs. unfold top in *.
  assert (k <> K) by (intros ->; lia).
  assert (Hd : 1 <= cDelta c).
  { destruct (N.eq_dec (cDelta c) 0) as [E|]; [|lia]. rewrite E in Hs. rewrite (N.pow_0_l K) in Hs by lia. lia. }
  assert (E : cInit c * cDelta c ^ k * cDelta c = cInit c * cDelta c ^ (k + 1)).
  { rewrite N.pow_add_r, N.pow_1_r. lia. }
  rewrite E. split; [split; auto; lia|]. apply N.mul_le_mono_l. apply N.pow_le_mono_r; lia.
Qed.
Lemma cgrow_ok fuel : forall k need s, step_size k s -> need <= top -> (N.to_nat (K - k) <= fuel)%nat ->
  exists k' s', cgrow c fuel need s = Ok s' /\ step_size k' s' /\ need <= s' /\ k <= k' /\ (s <= need -> k' = k \/ (1 <= cDelta c -> s' <= need * cDelta c)).
Proof.
  induction fuel as [|f IH]; intros k need s Hs Hn Hf; cbn [cgrow]; destruct (s <? need) eqn:E.
  - apply N.ltb_lt in E. destruct (step_next k s Hs) as [[K1 _] _]; [lia|]. lia.
  - apply N.ltb_ge in E. exists k, s. repeat split; auto; try apply Hs; lia.
  - apply N.ltb_lt in E. destruct (step_next k s Hs) as [Hs' Hl]; [lia|].
    rewrite wrap_small by (unfold top in *; lia).
    destruct (IH (k + 1) need (s * cDelta c) Hs' Hn) as (k' & s' & E' & H1 & H2 & H3 & H4); [lia|].
    exists k', s'. split; auto. split; auto. split; auto. split; [lia|]. intros _. right. intro Hd.
    destruct (N.le_gt_cases (s * cDelta c) need) as [L|L].
    + destruct (H4 L) as [->|H5]; [|auto]. destruct Hs' as [_ Es], H1 as [_ ->]. rewrite <- Es.
      etransitivity; [exact L|]. nia.
    + assert (E2 : cgrow c f need (s * cDelta c) = Ok (s * cDelta c)).
      { destruct f; cbn [cgrow]; replace (s * cDelta c <? need) with false; auto; symmetry; apply N.ltb_ge; lia. }
      rewrite E2 in E'. injection E' as <-. apply N.mul_le_mono_r. lia.
  - apply N.ltb_ge in E. exists k, s. repeat split; auto; try apply Hs; lia.
Qed.

(** [m] bytes of block [b] were obtained from malloc for the chunk. *)
Definition got (ms : list (N * N)) (k : chunk) : Prop := exists m, In (ckBlk k, m) ms /\ ckBase k + ckSize k <= m /\ cHead c <= ckBase k.
Record cwf (next : N) (a : arena) (ms : list (N * N)) (U : N) : Prop := {
  cw_cur : exists k cur rest, a = cur :: rest /\ step_size k (ckSize cur);
  cw_pos : Forall (fun k => ckPos k <= ckSize k) a;
  cw_used : used a = U;
  cw_got : Forall (got ms) a;
  cw_blk : map fst ms = map ckBlk a;
  cw_nd : NoDup (map ckBlk a);
  cw_next : Forall (fun k => ckBlk k < next) a
}.
(** The region of [n] bytes at [p] was handed out. *)
Definition handed (a : arena) (p : addr) (n : N) : Prop :=
  exists k, In k a /\ fst p = ckBlk k /\ ckBase k <= snd p /\ snd p + n <= ckBase k + ckPos k.

Lemma in_used k a : In k a -> ckPos k <= used a.
Proof. induction a as [|x a IH]; [intros []|]. intros [->|H]; cbn [used]; [lia|]. specialize (IH H). lia. Qed.

Lemma cgrow_start k need cur fuel : step_size k (ckSize cur) -> ckSize cur < top -> need <= top -> (N.to_nat K <= fuel)%nat ->
  exists k' s', cgrow c fuel need (wrap c (ckSize cur * cDelta c)) = Ok s' /\ step_size k' s' /\ need <= s' /\ k < k' /\ ckSize cur * cDelta c <= s' /\
    (1 <= cDelta c -> s' <= N.max need (ckSize cur) * cDelta c).
Proof.
  intros Hs Hl Hn Hf. destruct (step_next k _ Hs Hl) as [Hs' Hl']. rewrite wrap_small by (unfold top in *; lia).
  destruct (cgrow_ok fuel (k + 1) need (ckSize cur * cDelta c) Hs' Hn ltac:(lia)) as (k' & s' & E & H1 & H2 & H3 & H4).
  assert (Mono : ckSize cur * cDelta c <= s').
  { destruct Hs' as [_ ->]. destruct H1 as [_ ->]. destruct (N.eq_dec (cDelta c) 0) as [E0|].
    - destruct (N.eq_dec k' (k + 1)) as [->|]; [lia|]. rewrite E0. rewrite (N.pow_0_l (k + 1)) by lia. lia.
    - apply N.mul_le_mono_l. apply N.pow_le_mono_r; lia. }
  exists k', s'. split; auto. split; auto. split; auto. split; [lia|]. split; auto.
  intro Hd. destruct (N.le_gt_cases (ckSize cur * cDelta c) need) as [L|L].
  - destruct (H4 L) as [->|H5].
    + destruct Hs' as [_ Es]. destruct H1 as [_ ->]. rewrite <- Es. apply N.mul_le_mono_r. lia.
    + etransitivity; [exact (H5 Hd)|]. apply N.mul_le_mono_r. lia.
  - assert (E2 : cgrow c fuel need (ckSize cur * cDelta c) = Ok (ckSize cur * cDelta c)).
    { destruct fuel; cbn [cgrow]; replace (ckSize cur * cDelta c <? need) with false; auto; symmetry; apply N.ltb_ge; lia. }
    rewrite E2 in E. injection E as <-. apply N.mul_le_mono_r. lia.
Qed.

(** The bounds on the number and the sizes of the chunks. *)
Fixpoint sizes (a : arena) : N := match a with [] => 0 | k :: r => ckSize k + sizes r end.
Fixpoint powers (a : arena) : Prop :=
  match a with [] => True | k :: r => cInit c * cDelta c ^ N.of_nat (length r) <= ckSize k /\ powers r end.
Record cheap (a : arena) (U : N) : Prop := {
  ch_pow : powers a;
  ch_one : forall cur, a = [cur] -> ckSize cur = cInit c;
  ch_prev : forall cur d rest, a = cur :: d :: rest -> ckSize d < U /\ ckSize cur <= cDelta c * U;
  ch_sum : forall cur rest, a = cur :: rest -> sizes a <= 2 * ckSize cur
}.

Lemma calloc_ok fuel next a ms U n : cwf next a ms U -> U + n <= top -> (N.to_nat K <= fuel)%nat ->
  exists o, calloc c fuel next a n = Ok o /\
    let next' := match onew o with Some _ => next + 1 | None => next end in
    let ms' := match onew o with Some m => (next, m) :: ms | None => ms end in
    cwf next' (oarena o) ms' (U + n) /\ handed (oarena o) (oaddr o) n /\
    (forall p m, handed a p m -> handed (oarena o) p m /\ apart p m (oaddr o) n) /\
    (2 <= cDelta c -> cheap a U -> cheap (oarena o) (U + n)) /\
    match onew o with Some m => exists k, m = cHead c + ckSize k /\ oarena o = k :: a | None => map ckSize (oarena o) = map ckSize a end.
Proof.
  intros W Hu Hf. destruct W as [(k & cur & rest & -> & Hs) Hp Hused Hg Hb Hnd Hx].
  cbn [used] in Hused. assert (Hpn : ckPos cur + n <= top) by lia.
  unfold calloc. rewrite (wrap_small c (ckPos cur + n)) by (unfold top in *; lia).
  destruct (ckSize cur <? ckPos cur + n) eqn:E.
  - apply N.ltb_lt in E.
    destruct (cgrow_start k n cur fuel Hs ltac:(lia) ltac:(lia) Hf) as (k' & s' & -> & H1 & H2 & H3 & H4 & H5).
    cbn [rbind]. eexists. split; [reflexivity|]. cbn [onew oarena oaddr].
    assert (Hst : s' <= top).
    { destruct H1 as [Hk ->]. unfold top. destruct (N.eq_dec (cDelta c) 0) as [E0|].
      - exfalso. destruct Hs as [Hk0 Es]. assert (k <> K) by lia. unfold top in Hpn. rewrite E0 in Hpn. rewrite N.pow_0_l in Hpn; lia.
      - apply N.mul_le_mono_l. apply N.pow_le_mono_r; lia. }
    rewrite (wrap_small c (0 + n)) by (unfold top in *; lia). rewrite (wrap_small c (cHead c + s')) by (unfold top in *; lia).
    rewrite N.add_0_l, N.add_0_r. split; [|split; [|split; [|split]]].
    + constructor.
      * exists k'. eexists _, _. split; [reflexivity|auto].
      * constructor; auto.
      * cbn [used ckPos]. lia.
      * constructor.
        -- exists (cHead c + s'). cbn. repeat split; auto; lia.
        -- eapply Forall_impl; [|exact Hg]. intros x (m & M1 & M2). exists m. split; [right|]; auto.
      * cbn [map fst ckBlk]. f_equal. exact Hb.
      * cbn [map]. constructor; auto. intro Hi. apply (in_map_iff ckBlk (cur :: rest)) in Hi as (x & Ex & Hi).
        rewrite Forall_forall in Hx. specialize (Hx x Hi). cbn in Ex. lia.
      * constructor; [cbn; lia|]. eapply Forall_impl; [|exact Hx]. cbn. lia.
    + eexists. split; [left; reflexivity|]. cbn. repeat split; auto; lia.
    + intros p m (x & Hi & P1 & P2 & P3). split; [exists x; repeat split; auto; right; auto|].
      apply apart_range. intros _ _. left. cbn. rewrite Forall_forall in Hx. specialize (Hx x Hi). lia.
    + intros Hd [C1 C0 C2 C3]. constructor.
      * cbn [powers]. split; auto. cbn [length ckSize]. destruct C1 as [C1 _]. rewrite Nat2N.inj_succ, N.pow_succ_r'. nia.
      * intros c0 E0. discriminate.
      * intros c0 d r0 E0. injection E0 as <- <- _. cbn [ckSize]. split; [lia|].
        etransitivity; [apply H5; lia|]. rewrite N.mul_comm. apply N.mul_le_mono_l. lia.
      * intros c0 r0 E0. injection E0 as <- <-. cbn [sizes ckSize]. specialize (C3 cur rest eq_refl). cbn [sizes] in C3. nia.
    + eexists. split; [|reflexivity]. reflexivity.
  - apply N.ltb_ge in E. eexists. split; [reflexivity|]. cbn [onew oarena oaddr]. split; [|split; [|split; [|split]]].
    + constructor.
      * exists k. eexists _, _. split; [reflexivity|auto].
      * inversion Hp; subst. constructor; auto.
      * cbn [used ckPos]. lia.
      * inversion Hg; subst. constructor; auto.
      * auto.
      * auto.
      * inversion Hx; subst. constructor; auto.
    + eexists. split; [left; reflexivity|]. cbn. repeat split; auto; lia.
    + intros p m (x & Hi & P1 & P2 & P3). cbn [In] in Hi. destruct Hi as [<-|Hi].
      * split; [eexists; split; [left; reflexivity|]; cbn; repeat split; auto; lia|].
        apply apart_range. intros _ _. right. right. cbn. lia.
      * split; [exists x; split; [right; auto|auto]|].
        apply apart_range. intros _ _. left. cbn. rewrite P1. inversion Hnd as [|? ? Hni _]; subst. intro Eb.
        apply Hni. rewrite Eb. now apply in_map.
    + intros Hd [C1 C0 C2 C3]. constructor.
      * exact C1.
      * intros c0 E0. injection E0 as <- ->. exact (C0 cur eq_refl).
      * intros c0 d r0 E0. injection E0 as <- ->. cbn [ckSize]. destruct (C2 cur d r0 eq_refl). split; [lia|].
        etransitivity; [eassumption|]. apply N.mul_le_mono_l. lia.
      * intros c0 r0 E0. injection E0 as <- <-. exact (C3 cur rest eq_refl).
    + reflexivity.
Qed.

(** The bytes obtained from malloc. *)
Definition asked (ms : list (N * N)) : N := sum (map snd ms).
Definition costs (a : arena) (ms : list (N * N)) : Prop := asked ms = cTop c + cHead c * N.of_nat (length a) + sizes a.
Lemma sizes_map a b : map ckSize a = map ckSize b -> sizes a = sizes b /\ length a = length b.
Proof.
  revert b. induction a as [|x a IH]; intros [|y b]; cbn; try discriminate; auto.
  intro E. injection E as E1 E2. destruct (IH b E2). split; lia.
Qed.

Lemma cserve_ok fuel : (N.to_nat K <= fuel)%nat -> forall l next a ms U, cwf next a ms U -> U + sum l <= top ->
  exists rs ms' a' next', cserve c fuel next a ms l = Ok (rs, ms') /\ cwf next' a' ms' (U + sum l) /\ length rs = length l /\
    (forall p m, handed a p m -> handed a' p m /\ forall i b n, nth_error rs i = Some b -> nth_error l i = Some n -> apart p m b n) /\
    (forall i b n, nth_error rs i = Some b -> nth_error l i = Some n -> handed a' b n) /\
    (forall i k b n d m, (i < k)%nat -> nth_error rs i = Some b -> nth_error l i = Some n -> nth_error rs k = Some d -> nth_error l k = Some m -> apart b n d m) /\
    (2 <= cDelta c -> cheap a U -> cheap a' (U + sum l)) /\ (costs a ms -> costs a' ms').
Proof.
  intro Hf. induction l as [|n l IH]; intros next a ms U W Hu; cbn [cserve sum fold_right] in *.
  - exists [], ms, a, next. rewrite N.add_0_r. split; auto. split; auto. split; auto.
    split; [intros p m H; split; auto; intros [|i] b n E; discriminate|].
    split; [intros [|i] b n E; discriminate|]. split; [intros [|i] k b n d m _ E; discriminate|]. auto.
  - change (fold_right N.add 0 l) with (sum l) in *.
    destruct (calloc_ok fuel next a ms U n W ltac:(lia) Hf) as (o & -> & H1 & H2 & H3 & H4 & H5). cbn [rbind].
    set (next1 := match onew o with Some _ => next + 1 | None => next end) in *.
    set (ms1 := match onew o with Some m => (next, m) :: ms | None => ms end) in *.
    destruct (IH next1 (oarena o) ms1 (U + n) H1 ltac:(lia)) as (rs & ms' & a' & next' & E & W' & L & G1 & G2 & G3 & G4 & G5).
    exists (oaddr o :: rs), ms', a', next'. split.
    { subst next1 ms1. destruct (onew o); rewrite E; reflexivity. }
    replace (U + (n + sum l)) with (U + n + sum l) by lia. split; auto. split; [cbn; congruence|].
    split.
    { intros p m H. destruct (H3 p m H) as [Ha Hb]. destruct (G1 p m Ha) as [Hc Hd]. split; auto.
      intros [|i] b n0 E1 E2; [injection E1 as <-; injection E2 as <-; auto|]. eapply Hd; eauto. }
    split.
    { intros [|i] b n0 E1 E2; [injection E1 as <-; injection E2 as <-; now apply G1|]. eapply G2; eauto. }
    split.
    { intros [|i] [|k] b n0 d m Hik E1 E2 E3 E4; try lia.
      - injection E1 as <-. injection E2 as <-. destruct (G1 _ _ H2) as [_ K2]. eapply K2; eauto.
      - eapply (G3 i k); eauto. lia. }
    split; [auto|]. intro Hc. apply G5. subst ms1. unfold costs, asked in *. destruct (onew o) as [m|].
    + destruct H5 as (x & -> & ->). cbn [map sum fold_right snd length sizes]. change (fold_right N.add 0 (map snd ms)) with (sum (map snd ms)). lia.
    + destruct (sizes_map _ _ H5) as [-> ->]. exact Hc.
Qed.

Lemma cfirst_wf b next : b < next -> cwf next [cfirst c b] [(b, cmalloc c)] 0.
Proof.
  intro Hb. unfold cmalloc. rewrite wrap_small by lia. constructor; cbn.
  - exists 0. eexists _, _. split; [reflexivity|]. split; [lia|]. cbn. rewrite N.pow_0_r. lia.
  - constructor; [cbn; lia|constructor].
  - reflexivity.
  - constructor; [|constructor]. eexists. cbn. split; [left; reflexivity|]. lia.
  - reflexivity.
  - constructor; [intros []|constructor].
  - constructor; [exact Hb|constructor].
Qed.
Lemma cfirst_cheap b : 2 <= cDelta c -> cheap [cfirst c b] 0.
Proof.
  intro Hd. constructor.
  - cbn [powers length ckSize cfirst]. change (N.of_nat 0) with 0. rewrite N.pow_0_r. split; [lia|exact Logic.I].
  - intros cur E. injection E as <-. reflexivity.
  - intros cur d rest E. discriminate.
  - intros cur rest E. injection E as <- <-. cbn. lia.
Qed.

(** A region of [n] bytes at [p] in a block obtained from malloc, not in its header. *)
Definition fits (ms : list (N * N)) (p : addr) (n : N) : Prop :=
  exists m, In (fst p, m) ms /\ snd p + n <= m /\ cHead c <= snd p.

Lemma crun_ok l : sum l <= cInit c * cDelta c ^ K -> forall fuel, (N.to_nat K <= fuel)%nat ->
  exists rs ms, crun c fuel l = Ok (rs, ms) /\ length rs = length l /\ NoDup (map fst ms) /\
    (forall i b n, nth_error rs i = Some b -> nth_error l i = Some n -> fits ms b n) /\
    (forall i k b n d m, (i < k)%nat -> nth_error rs i = Some b -> nth_error l i = Some n ->
       nth_error rs k = Some d -> nth_error l k = Some m -> apart b n d m).
Proof.
  intros Hl fuel Hf. unfold crun.
  destruct (cserve_ok fuel Hf l 2 [cfirst c 1] [(1, cmalloc c)] 0) as (rs & ms & a & next & E & W & L & _ & G2 & G3 & _); auto.
  { apply cfirst_wf. lia. }
  exists rs, ms. split; auto. split; auto. split; [rewrite (cw_blk _ _ _ _ W); apply W|]. split; auto.
  intros i b n E1 E2. destruct (G2 i b n E1 E2) as (k & Hi & P1 & P2 & P3).
  pose proof (cw_got _ _ _ _ W) as Hg. rewrite Forall_forall in Hg. destruct (Hg k Hi) as (m & M1 & M2 & M3).
  pose proof (cw_pos _ _ _ _ W) as Hp. rewrite Forall_forall in Hp. specialize (Hp k Hi).
  exists m. rewrite P1. split; auto. lia.
Qed.
Lemma crun_cheap l : 2 <= cDelta c -> sum l <= cInit c * cDelta c ^ K -> forall fuel, (N.to_nat K <= fuel)%nat ->
  exists rs ms, crun c fuel l = Ok (rs, ms) /\
    asked ms <= cTop c + cHead c * N.of_nat (length ms) + N.max (2 * cInit c) (2 * cDelta c * sum l) /\
    ((2 <= length ms)%nat -> cInit c * cDelta c ^ N.of_nat (length ms - 2) < sum l).
Proof.
  intros Hd Hl fuel Hf. unfold crun.
  destruct (cserve_ok fuel Hf l 2 [cfirst c 1] [(1, cmalloc c)] 0) as (rs & ms & a & next & E & W & L & _ & _ & _ & G4 & G5); auto.
  { apply cfirst_wf. lia. }
  rewrite N.add_0_l in *.
  assert (Hc : costs [cfirst c 1] [(1, cmalloc c)]).
  { unfold costs, asked, cmalloc. rewrite wrap_small by lia. cbn. lia. }
  specialize (G5 Hc). specialize (G4 Hd (cfirst_cheap 1 Hd)). destruct G4 as [C1 C0 C2 C3].
  assert (Ln : length ms = length a).
  { rewrite <- (map_length fst ms), (cw_blk _ _ _ _ W), map_length. reflexivity. }
  exists rs, ms. split; auto. rewrite Ln. unfold costs in G5. rewrite G5.
  destruct (cw_cur _ _ _ _ W) as (k & cur & rest & -> & Hs). split.
  - specialize (C3 cur rest eq_refl).
    assert (Hm : ckSize cur <= N.max (cInit c) (cDelta c * sum l)).
    { destruct rest as [|d rest].
      - rewrite (C0 cur eq_refl). lia.
      - destruct (C2 cur d rest eq_refl). lia. }
    lia.
  - cbn [length]. destruct rest as [|d rest]; [cbn; lia|]. intros _. cbn [length].
    replace (S (S (length rest)) - 2)%nat with (length rest) by lia.
    destruct (C2 cur d rest eq_refl) as [H _]. destruct C1 as (_ & C1 & _). lia.
Qed.
End Conf.

(** ** Requests that never return *)
Lemma cgrow_forever c (P : N -> Prop) need : (forall s, P s -> s < need /\ P (wrap c (s * cDelta c))) ->
  forall fuel s, P s -> cgrow c fuel need s = Err EFuel.
Proof.
  intros H. induction fuel as [|f IH]; intros s Hs; cbn [cgrow]; destruct (H s Hs) as [Hl Hn]; replace (s <? need) with true by (symmetry; now apply N.ltb_lt); auto.
Qed.
Lemma crun_forever c n : cInit c < n -> n < 2 ^ cBits c ->
  (forall fuel, cgrow c fuel n (wrap c (cInit c * cDelta c)) = Err EFuel) -> forall fuel, crun c fuel [n] = Err EFuel.
Proof.
  intros Hi Hn H fuel. unfold crun, cserve, calloc, cfirst. cbn [ckSize ckPos]. rewrite N.add_0_l, wrap_small by auto.
  replace (cInit c <? n) with true by (symmetry; now apply N.ltb_lt). rewrite H. reflexivity.
Qed.
(** A growth factor of 0 or 1, or nothing to start with. *)
Lemma stuck c n : cDelta c <= 1 \/ cInit c = 0 -> cInit c < n -> n < 2 ^ cBits c -> forall fuel, crun c fuel [n] = Err EFuel.
Proof.
  intros Hd Hi Hn. apply crun_forever; auto. intro fuel. apply (cgrow_forever c (fun s => s = 0 \/ cDelta c = 1 /\ s = cInit c)).
  - intros s [->|[E ->]].
    + split; [lia|]. left. unfold wrap. rewrite N.mul_0_l. apply N.mod_0_l. lia.
    + split; auto. right. split; auto. rewrite E, N.mul_1_r. apply wrap_small. lia.
  - destruct (N.eq_dec (cInit c * cDelta c) 0) as [->|Z].
    + left. unfold wrap. apply N.mod_0_l. lia.
    + right. assert (E : cDelta c = 1) by nia. split; auto. rewrite E, N.mul_1_r. apply wrap_small. lia.
Qed.
(** For powers of two the bound is exact. *)
Lemma limit c i j K n : cInit c = 2 ^ i -> cDelta c = 2 ^ j -> 1 <= j ->
  cTop c + cHead c + cInit c < 2 ^ cBits c -> cHead c + cInit c * cDelta c ^ K < 2 ^ cBits c -> 2 ^ cBits c <= cInit c * cDelta c ^ (K + 1) ->
  n < 2 ^ cBits c -> (exists fuel r, crun c fuel [n] = Ok r) <-> n <= cInit c * cDelta c ^ K.
Proof.
  intros Ei Ej Hj Ht HK HK1 Hn. split.
  - intros (fuel & r & E). destruct (N.le_gt_cases n (cInit c * cDelta c ^ K)) as [|L]; auto. exfalso.
    assert (Hd : cDelta c <> 0) by (rewrite Ej; apply N.pow_nonzero; lia).
    assert (Mono : forall k, k <= K -> cInit c * cDelta c ^ k <= cInit c * cDelta c ^ K).
    { intros k Hk. apply N.mul_le_mono_l, N.pow_le_mono_r; auto. }
    assert (Z : wrap c (cInit c * cDelta c ^ (K + 1)) = 0).
    { unfold wrap. rewrite Ei, Ej, <- N.pow_mul_r, <- N.pow_add_r in *.
      apply N.pow_le_mono_r_iff in HK1; [|lia].
      replace (i + j * (K + 1)) with ((i + j * (K + 1) - cBits c) + cBits c) by lia.
      rewrite N.pow_add_r. apply N.mod_mul. apply N.pow_nonzero. lia. }
    assert (I0 : cInit c < n).
    { specialize (Mono 0 ltac:(lia)). rewrite N.pow_0_r in Mono. lia. }
    assert (Next : forall k, k <= K -> wrap c (cInit c * cDelta c ^ k * cDelta c) = 0 \/ exists k', k' <= K /\ wrap c (cInit c * cDelta c ^ k * cDelta c) = cInit c * cDelta c ^ k').
    { intros k Hk. assert (Ek : cInit c * cDelta c ^ k * cDelta c = cInit c * cDelta c ^ (k + 1)) by (rewrite N.pow_add_r, N.pow_1_r; lia).
      rewrite Ek. destruct (N.eq_dec k K) as [->|]; [left; exact Z|]. right. exists (k + 1). split; [lia|].
      apply wrap_small. specialize (Mono (k + 1) ltac:(lia)). lia. }
    rewrite (crun_forever c n) in E; auto; [discriminate|]. intro f.
    apply (cgrow_forever c (fun s => s = 0 \/ exists k, k <= K /\ s = cInit c * cDelta c ^ k)).
    + intros s [->|(k & Hk & ->)].
      * split; [lia|]. left. unfold wrap. rewrite N.mul_0_l. apply N.mod_0_l. lia.
      * split; [specialize (Mono k Hk); lia|auto].
    + specialize (Next 0 ltac:(lia)). rewrite N.pow_0_r, N.mul_1_r in Next. exact Next.
  - intro H. destruct (crun_ok c K Ht HK [n]) with (fuel := N.to_nat K) as (rs & ms & E & _); auto.
    { cbn. lia. }
    eauto.
Qed.

(** ** The string builder *)
(** An append: of [n] bytes (zj_appendStr 576-590) or of a single character
    (zj_appendChar 593-604). *)
Inductive app := AStr (n : N) | AChar.
Definition alen (a : app) : N := match a with AStr n => n | AChar => 1 end.
(** A builder with room for [size] bytes of which [pos] are used.  Result: the new size
    and position and the request made of the allocator, if any.  The copies and the write
    go to the buffer; outside of it they are an error. *)
Definition cappend (c : config) (fuel : nat) (size pos : N) (a : app) : res (N * N * option N) :=
  if size <? wrap c (pos + alen a) then
    s <-? match a with
          | AStr n => cgrow c fuel (wrap c (pos + n)) (wrap c (size * cDelta c))
          | AChar => Ok (wrap c (size * cDelta c))
          end ;;
    if pos + alen a <=? s then Ok (s, wrap c (pos + alen a), Some s) else Err EOverflow
  else if pos + alen a <=? size then Ok (size, wrap c (pos + alen a), None) else Err EOverflow.
Fixpoint cappends (c : config) (fuel : nat) (size pos : N) (l : list app) : res (N * N * list N) :=
  match l with
  | [] => Ok (size, pos, [])
  | a :: r =>
      x <-? cappend c fuel size pos a ;;
      y <-? cappends c fuel (fst (fst x)) (snd (fst x)) r ;;
      Ok (fst (fst y), snd (fst y), match snd x with Some m => m :: snd y | None => snd y end)
  end.
Definition total (l : list app) : N := sum (map alen l).

Section Builder.
Variable c : config.
Variables I0 K : N.
Hypothesis Hd : 2 <= cDelta c.
Hypothesis Hi : 1 <= I0.
Hypothesis HK : I0 * cDelta c ^ K < 2 ^ cBits c.
Let c' := mkConfig (cBits c) (cDelta c) I0 0 0.
Lemma c'_grow fuel : forall need s, cgrow c fuel need s = cgrow c' fuel need s.
Proof.
  induction fuel as [|f IH]; intros need s; cbn [cgrow]; [reflexivity|]. destruct (s <? need); [apply IH|reflexivity].
Qed.

Lemma c'_top : cTop c' + cHead c' + cInit c' < 2 ^ cBits c'.
Proof.
  cbn. assert (cDelta c ^ K <> 0) by (apply N.pow_nonzero; lia). nia.
Qed.
Lemma cappend_ok fuel size pos a k : (N.to_nat K <= fuel)%nat -> step_size c' K k size -> pos <= size -> pos + alen a <= I0 * cDelta c ^ K ->
  exists k' size' r, cappend c fuel size pos a = Ok (size', pos + alen a, r) /\ step_size c' K k' size' /\ pos + alen a <= size' /\
    (match r with Some m => m = size' /\ 2 * size <= size' /\ size' <= cDelta c * (pos + alen a) | None => size' = size end : Prop).
Proof.
  intros Hf Hs Hp Ht. unfold cappend. rewrite wrap_small by lia.
  destruct (size <? pos + alen a) eqn:E.
  - apply N.ltb_lt in E.
    destruct a as [n|]; cbn [alen] in *.
    + rewrite c'_grow.
      destruct (cgrow_start c' K c'_top HK k (pos + n) (mkChunk 0 0 size 0) fuel) as (k' & s' & E' & H1 & H2 & H3 & H4 & H5); cbn [ckSize] in *; auto.
      { cbn. lia. }
      rewrite (wrap_small c (pos + n)) by lia. replace (cgrow c' fuel (pos + n) (wrap c (size * cDelta c))) with (@Ok N s') by (symmetry; exact E'). cbn [rbind].
      replace (pos + n <=? s') with true by (symmetry; now apply N.leb_le).
      exists k', s', (Some s'). split; auto. split; auto. split; auto. split; auto. cbn in *. split; [nia|]. specialize (H5 ltac:(lia)). nia.
    + cbn [rbind]. assert (Ep : pos = size) by lia. subst pos.
      destruct (step_next c' K c'_top HK k size Hs) as [Hs' Hl']; [cbn; lia|]. cbn [cDelta cInit c'] in *.
      assert (size <> 0). { destruct Hs as [_ ->]. cbn. assert (cDelta c ^ k <> 0) by (apply N.pow_nonzero; lia). nia. }
      rewrite wrap_small by (cbn in *; lia).
      replace (size + 1 <=? size * cDelta c) with true by (symmetry; apply N.leb_le; nia).
      exists (k + 1), (size * cDelta c), (Some (size * cDelta c)). split; auto. split; auto. split; [nia|]. split; auto. split; nia.
  - apply N.ltb_ge in E. replace (pos + alen a <=? size) with true by (symmetry; now apply N.leb_le).
    exists k, size, None. auto.
Qed.

Lemma cappends_ok fuel : (N.to_nat K <= fuel)%nat -> forall l k size pos, step_size c' K k size -> pos <= size -> pos + total l <= I0 * cDelta c ^ K ->
  exists size' rs, cappends c fuel size pos l = Ok (size', pos + total l, rs) /\ pos + total l <= size' /\
    (rs = [] /\ size' = size \/ size' <= cDelta c * (pos + total l)) /\ sum rs + 2 * size <= 2 * size'.
Proof.
  intro Hf. induction l as [|a l IH]; intros k size pos Hs Hp Ht; unfold total in *; cbn [map sum fold_right cappends] in *.
  - exists size, []. rewrite N.add_0_r. cbn. repeat split; auto; lia.
  - change (fold_right N.add 0 (map alen l)) with (sum (map alen l)) in *.
    destruct (cappend_ok fuel size pos a k Hf Hs Hp ltac:(lia)) as (k' & size' & r & -> & H1 & H2 & H3). cbn [rbind fst snd].
    destruct (IH k' size' (pos + alen a) H1 H2 ltac:(lia)) as (size2 & rs & -> & G1 & G2 & G3). cbn [rbind fst snd].
    replace (pos + (alen a + sum (map alen l))) with (pos + alen a + sum (map alen l)) by lia.
    eexists _, _. split; [reflexivity|]. split; auto. destruct r as [m|].
    + destruct H3 as (-> & H4 & H5). cbn [sum fold_right]. change (fold_right N.add 0 rs) with (sum rs). split; [|lia].
      right. destruct G2 as [[_ ->]|G2]; auto. etransitivity; [exact H5|]. apply N.mul_le_mono_l. lia.
    + subst size'. auto.
Qed.
End Builder.

Lemma builder c I K l fuel : 2 <= cDelta c -> 1 <= I -> I * cDelta c ^ K < 2 ^ cBits c ->
  total l <= I * cDelta c ^ K -> (N.to_nat K <= fuel)%nat ->
  exists size rs, cappends c fuel I 0 l = Ok (size, total l, rs) /\ total l <= size /\ sum rs <= 2 * cDelta c * total l.
Proof.
  intros Hd Hi HK Ht Hf.
  destruct (cappends_ok c I K Hd Hi HK fuel Hf l 0 I 0) as (size & rs & E & H1 & H2 & H3); auto; try lia.
  { split; [lia|]. cbn [cInit cDelta]. rewrite N.pow_0_r. lia. }
  rewrite N.add_0_l in *. exists size, rs. split; auto. split; auto.
  destruct H2 as [[-> _]|H2]; [cbn|]; lia.
Qed.
Lemma builder_unsafe c I fuel : cDelta c <= 1 \/ I = 0 -> I + 1 < 2 ^ cBits c -> cappends c fuel I I [AChar] = Err EOverflow.
Proof.
  intros Hd HI. cbn [cappends]. unfold cappend. cbn [alen]. rewrite wrap_small by lia.
  replace (I <? I + 1) with true by (symmetry; apply N.ltb_lt; lia). cbn [rbind].
  assert (Hw : wrap c (I * cDelta c) <= I) by (rewrite wrap_small; nia).
  replace (I + 1 <=? wrap c (I * cDelta c)) with false by (symmetry; apply N.leb_gt; lia). reflexivity.
Qed.

(** The builder of the header as shipped, on the memory, is an instance: what it does to
    size and position is [cappend shipped]. *)
Lemma bind_ok {X Y} (m : M X) (k : X -> M Y) s y s2 : bind m k s = Ok (y, s2) -> exists x s1, m s = Ok (x, s1) /\ k x s1 = Ok (y, s2).
Proof. unfold bind. destruct (m s) as [[x s1]|e] eqn:E; [|discriminate]. intro H. eauto. Qed.
Lemma load_from_length f b n : forall o bs, load_from f b o n = Some bs -> length bs = n.
Proof.
  induction n as [|n IH]; intros o bs E; cbn [load_from] in E; [now injection E as <-|].
  destruct (f (b, o)); [|discriminate]. destruct (load_from f b (o + 1) n) eqn:L; [|discriminate].
  injection E as <-. cbn. f_equal. eauto.
Qed.
Lemma grown_str (b : bool) (s : res N) p z (src : bytes) z' st0 st1 :
  (z' <- (if b then
            s <- lift s ;; old <- load (zData z) (zPos z) ;; d <- zj_allocatorAlloc (zA z) s ;;
            store d s old ;;; ret (mkStr d (zPos z) s (zA z))
          else ret z) ;;
   store (offset (zData z') (zPos z')) (zSize z' - zPos z') src ;;;
   putZ p (mkStr (zData z') (u32 (zPos z' + N.of_nat (length src))) (zSize z') (zA z'))) st0 = Ok (tt, st1) ->
  zPos z <= zSize z -> sstrs st1 p = Some z' ->
  exists n, (if b then s else Ok (zSize z)) = Ok n /\ zSize z' = n /\ zPos z' = u32 (zPos z + N.of_nat (length src)) /\ zPos z + N.of_nat (length src) <= n.
Proof.
  intros E Hp Hz. apply bind_ok in E as (z1 & s1 & E1 & E).
  apply bind_ok in E as (u & s2 & E2 & E). unfold putZ in E. injection E as <-. cbn in Hz. rewrite upd_eq in Hz. injection Hz as <-. cbn.
  unfold store in E2. destruct (zSize z1 - zPos z1 <? N.of_nat (length src)) eqn:C; [discriminate|]. apply N.ltb_ge in C. clear E2.
  assert (K : exists n, (if b then s else Ok (zSize z)) = Ok n /\ zSize z1 = n /\ zPos z1 = zPos z /\ zPos z <= n).
  { destruct b.
    - apply bind_ok in E1 as (n & s3 & E3 & E1). unfold lift in E3. destruct s as [n0|]; [|discriminate]. injection E3 as -> <-.
      apply bind_ok in E1 as (old & s4 & E4 & E1). apply bind_ok in E1 as (d & s5 & E5 & E1). apply bind_ok in E1 as (u' & s6 & E6 & E1).
      unfold ret in E1. injection E1 as <- _. exists n. cbn. split; auto. split; auto. split; auto.
      unfold store in E6. destruct (n <? N.of_nat (length old)) eqn:C1; [discriminate|]. apply N.ltb_ge in C1.
      unfold load, get in E4. destruct (load_from _ _ _ _) eqn:L in E4; [|discriminate]. injection E4 as <- _.
      apply load_from_length in L. lia.
    - unfold ret in E1. injection E1 as <- _. eauto. }
  destruct K as (n & K1 & K2 & K3 & K4). exists n. rewrite K3 in *. subst n. split; auto. split; auto. split; auto. lia.
Qed.
Lemma shipped_appendStr p src s s1 z : sstrs s p = Some z -> zPos z <= zSize z -> zj_appendStr p src s = Ok (tt, s1) ->
  exists z1 r, sstrs s1 p = Some z1 /\ cappend shipped grow_fuel (zSize z) (zPos z) (AStr (N.of_nat (length src))) = Ok (zSize z1, zPos z1, r).
Proof.
  intros Hz Hp E. unfold zj_appendStr in E. apply bind_ok in E as (z0 & s0 & E0 & E). unfold getZ, get in E0. rewrite Hz in E0. injection E0 as <- <-.
  assert (K : exists z1, sstrs s1 p = Some z1).
  { pose proof E as E'. apply bind_ok in E' as (? & ? & _ & E'). apply bind_ok in E' as (? & ? & _ & E'). unfold putZ in E'. injection E' as <-. cbn. rewrite upd_eq. eauto. }
  destruct K as [z1 K]. destruct (grown_str _ _ p z src z1 s s1 E Hp K) as (n & E1 & E2 & E3 & L). subst n.
  exists z1. rewrite E3. unfold cappend. cbn [alen]. change (wrap shipped) with u32. change (cDelta shipped) with zj_Delta. rewrite <- shipped_grow.
  destruct (zSize z <? u32 (zPos z + N.of_nat (length src))).
  - rewrite E1. cbn [rbind]. replace (_ <=? _) with true by (symmetry; now apply N.leb_le). eauto.
  - injection E1 as E1. rewrite E1. replace (_ <=? _) with true by (symmetry; now apply N.leb_le). eauto.
Qed.
Lemma shipped_appendChar p x s s1 z : sstrs s p = Some z -> zPos z <= zSize z -> zj_appendChar p x s = Ok (tt, s1) ->
  exists z1 r, sstrs s1 p = Some z1 /\ cappend shipped grow_fuel (zSize z) (zPos z) AChar = Ok (zSize z1, zPos z1, r).
Proof.
  intros Hz Hp E. unfold zj_appendChar in E. apply bind_ok in E as (z0 & s0 & E0 & E). unfold getZ, get in E0. rewrite Hz in E0. injection E0 as <- <-.
  assert (K : exists z1, sstrs s1 p = Some z1).
  { pose proof E as E'. apply bind_ok in E' as (? & ? & _ & E'). apply bind_ok in E' as (? & ? & _ & E'). unfold putZ in E'. injection E' as <-. cbn. rewrite upd_eq. eauto. }
  destruct K as [z1 K]. destruct (grown_str _ (Ok (u32 (zSize z * zj_Delta))) p z [x] z1 s s1 E Hp K) as (n & E1 & E2 & E3 & L). subst n.
  exists z1. rewrite E3. unfold cappend. cbn [alen]. change (wrap shipped) with u32. change (cDelta shipped) with zj_Delta. change (N.of_nat (length [x])) with 1 in *.
  destruct (zSize z <? u32 (zPos z + 1)).
  - rewrite E1. cbn [rbind]. replace (_ <=? _) with true by (symmetry; now apply N.leb_le). eauto.
  - injection E1 as E1. rewrite E1. replace (_ <=? _) with true by (symmetry; now apply N.leb_le). eauto.
Qed.
