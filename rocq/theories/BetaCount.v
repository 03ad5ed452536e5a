(** The counters of z_MEMORY_MODE 2 in the beta header. *)
From Verif Require Import Base Spec Lex Alloc AllocProofs Mem MemProofs Api Double Vocab Scene Dom CacheProofs Hist HistRun HistStep HistCache HistAll HistJudge HistMany HistWorld Leak Count Beta BetaHist BetaLeak.

#[local] Hint Resolve kk_alloc kk_store kk_load kk_putNode kk_putVal kk_putZ kk_parse_loop kk_stringify_loop kk_nth_node kk_copy_loop kk_adopt : keepk.
Lemma bstep_counts fuel c E B : zkeeps_buffer c = false -> c <> CNewAllocator -> keepsK (bstep fuel c E B).
Proof.
  intros H N. destruct c; cbn [bstep]; try (now elim N); try discriminate; try (counts; fail).
  - cbn [zkeeps_buffer] in H. rewrite H. cbn [pass]. destruct k, num; counts.
  - cbn [zkeeps_buffer] in H. rewrite H. cbn [pass]. destruct k; counts.
Qed.
Lemma bstep_counted fuel c E B U F l s xb s' : counted U F l s -> bstep fuel c E B s = Ok (xb, s') ->
  exists l', counted ((if zkeeps_buffer c then [snext s] else []) ++ U) F l' s'.
Proof.
  intros C H. assert (D : c = CNewAllocator \/ c <> CNewAllocator) by (destruct c; auto; right; discriminate). destruct D as [->|Nc].
  - cbn [bstep] in H. unfold same, bind in H. destruct (cstep fuel CNewAllocator E s) as [[xe s1]|e] eqn:Ec; [|discriminate]. injection H as <- <-.
    exact (cstep_counted _ _ _ _ _ _ _ _ _ C Ec).
  - destruct (zkeeps_buffer c) eqn:Kb.
    + destruct (bstep_kept _ _ _ _ _ _ _ Kb H) as (t & m & x & K & Sh).
      assert (Km : forall p, keepsK (m p)).
      { intro p. destruct Sh as [(k & v & n & ->)|[(num & k & v & n & Hk & ->)|(k & v & n & Hk & ->)]]; [destruct k; counts|destruct k, num; try discriminate; counts|destruct k; try discriminate; counts]. }
      destruct (keep_counted _ _ _ _ _ _ _ _ _ Km C K) as (l' & C' & _). eauto.
    + destruct (bstep_counts fuel c E B Kb Nc _ _ _ _ _ _ C H) as (l' & C' & _). eauto.
Qed.
Lemma zestep_counted fuel e U F l W s xw s' : counted U F l s -> zestep fuel e W s = Ok (xw, s') ->
  exists F' l', counted (zlent e s ++ U) F' l' s' /\ (releases e = false -> F' = F).
Proof.
  intros C H. destruct W as [Es B]. destruct e as [g c|g]; cbn [zestep fst snd] in H; unfold bind in H.
  - destruct (bstep fuel c (Es g) B s) as [[xb s1]|e] eqn:E; [|discriminate]. injection H as <- <-.
    destruct (bstep_counted _ _ _ _ _ _ _ _ _ _ C E) as (l' & C'). exists F, l'. auto.
  - destruct (release_all (ea (Es g)) s) as [[u s1]|e] eqn:E; [|discriminate]. injection H as <- <-.
    destruct (release_all_counted _ _ _ _ _ _ _ C E) as (F' & l' & C'). exists F', l'. split; [exact C'|discriminate].
Qed.
Lemma zerun_counted fuel : forall es U F l W s x s', counted U F l s -> zerun fuel es W s = Ok (x, s') ->
  exists F' l' U', counted U' F' l' s' /\ (forall b, In b U' <-> In b U \/ In b (zbuffers fuel es W s)) /\ (existsb releases es = false -> F' = F).
Proof.
  induction es as [|e r IH]; intros U F l W s x s' C H.
  - injection H as <- <-. exists F, l, U. split; auto. split; auto. cbn [zbuffers In]. tauto.
  - apply zerun_cons in H as (xw & s1 & rw & E & H & ->). destruct (zestep_counted _ _ _ _ _ _ _ _ _ C E) as (F1 & l1 & C1 & Q1).
    destruct (IH _ _ _ _ _ _ _ C1 H) as (F2 & l2 & U2 & C2 & I2 & Q2). exists F2, l2, U2. split; auto. split.
    + intro b. rewrite I2. cbn [zbuffers]. rewrite E, !in_app_iff. tauto.
    + cbn [existsb]. intro K. apply orb_false_elim in K as [K1 K2]. rewrite Q2, Q1; auto.
Qed.
(** The blocks in use that the library took. *)
Definition ztaken (fuel : nat) (es : list event) (s : st) (b : N) : Prop :=
  sbsize s b <> None /\ sbsize init b = None /\ ~ In b (zbuffers fuel es zworld0 init).
Theorem zcount_in_use fuel es rs W s : zerun fuel es zworld0 init = Ok ((rs, W), s) ->
  exists l, NoDup l /\ (forall b, In b l <-> ztaken fuel es s b) /\ cNew (scnt s) = u32 (cFree (scnt s) + lenN l) /\
    (existsb releases es = false -> cSize (scnt s) = u32 (sizes s l)).
Proof.
  intro H. destruct (zerun_counted _ _ _ _ _ _ _ _ _ counted_start H) as (F & l & U & C & IU & QF). exists l. split; [apply C|]. split; [|split].
  - intro b. split.
    + intro Hb. assert (Nb : ~ In b U) by (intro K; now apply (co_other _ _ _ _ C b K)). split; [exact (co_live _ _ _ _ C b Hb)|]. rewrite IU in Nb. split.
      * destruct (sbsize init b) eqn:E; auto. exfalso. apply Nb. left. left. symmetry. apply init_blocks. congruence.
      * intro K. apply Nb. now right.
    + intros (K1 & K2 & K3). destruct (zno_leak _ _ _ _ _ _ H K1) as [K|[K|(g & A & _ & ar & k & O1 & O2 & O3)]]; [congruence|contradiction|].
      apply (co_in _ _ _ _ C). exists A, ar. split; auto. rewrite <- O3. now apply in_map.
  - apply C.
  - intro K. rewrite (co_size _ _ _ _ C), (QF K). reflexivity.
Qed.
Theorem zequal_counts fuel es gs rs W s : (forall g c, In (Do g c) es -> In g gs) ->
  zerun fuel (es ++ map Release gs) zworld0 init = Ok ((rs, W), s) -> cNew (scnt s) = cFree (scnt s).
Proof.
  intros Hg H. destruct (zerun_counted _ _ _ _ _ _ _ _ _ counted_start H) as (F & l0 & U0 & C0 & _). destruct (zcount_in_use _ _ _ _ _ H) as (l & ND & I & E & _).
  assert (Z : l = []).
  { destruct l as [|b l]; auto. exfalso. destruct (proj1 (I b) (or_introl eq_refl)) as (K1 & K2 & K3). destruct (zall_freed _ _ _ _ _ _ _ Hg H K1) as [K|K]; [congruence|].
    apply K3. destruct (zerun_app _ _ _ _ _ _ _ H) as (rs1 & W1 & s1 & rs2 & E1 & _ & _). rewrite (zbuffers_app _ _ _ _ _ _ _ _ E1). apply in_or_app. now left. }
  rewrite E, Z. change (lenN (@nil N)) with 0. rewrite N.add_0_r. unfold u32. apply N.mod_small. apply C0.
Qed.
