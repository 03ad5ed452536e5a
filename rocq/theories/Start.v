(** Beginnings and ends: the first state, new allocators, values and caller
    buffers; overwriting and freeing caller buffers; releasing an allocator. *)
From Verif Require Import Base Spec Lex LexProofs Alloc AllocProofs Mem MemProofs Api PureParse
  Dom Effect Steps StrBuf.

Definition nodocs : dom := fun _ => None.

Lemma init_inv : @inv novols init nodocs.
Proof.
  constructor; [apply wfst_init|intros a f H; discriminate|intros a f H; discriminate| |intros a H; now elim H].
  constructor; [intros b []|intros A ar c _ _ []].
Qed.

(** A block of the caller. *)
Definition ublock (s : st) (b : N) : Prop := sbsize s b <> None /\ ~ ownblk s b /\ b <> 0.
Lemma ublock_ext Dn Dv c s s' b : ext Dn Dv c s s' -> ublock s b -> ublock s' b.
Proof.
  intros X (H1 & H2 & H3). destruct (sbsize s b) as [n|] eqn:E; [|congruence]. split; [|split; auto].
  - rewrite (x_size _ _ _ _ _ X _ _ E). discriminate.
  - intros (A & ar & k & HA & Hk & Eb). destruct (x_chunks _ _ _ _ _ X A ar k HA Hk) as [L|(ar0 & k0 & K1 & K2 & K3 & _)].
    + apply (size_next s _ _ (x_wf0 _ _ _ _ _ X)) in E. lia.
    + apply H2. exists A, ar0, k0. repeat split; auto. congruence.
Qed.

Section WithVol.
Context {VV : vols}.

(** ** A new allocator *)
Lemma newAllocator_wp s : wfst s -> wp zj_NewAllocator s (fun A s' => ext none none zeroc s s' /\
  A = snext s /\ alive s' A /\ usedA s' A = 0 /\ svals s' = svals s).
Proof.
  intro W. eexists _, _. split; [reflexivity|].
  assert (Hs : sbsize s (snext s) = None /\ sallocs s (snext s) = None) by (apply (w_next s W); lia).
  destruct Hs as [Hs Ha].
  assert (Hd : forall o, nothing s (snext s, o)) by (intro o; apply (w_dead s W); auto).
  assert (Lt : forall A ar k, sallocs s A = Some ar -> In k ar -> ckBlk k < snext s).
  { intros A ar k HA Hk. apply (ownblk_lt s _ W). exists A, ar, k. auto. }
  assert (Inr : forall A a n, inrA s A a n -> exists ar k,
    updN (sallocs s) (snext s) (Some [first_chunk (snext s)]) A = Some ar /\ In k ar /\ fst a = ckBlk k /\
    ckBase k <= snd a /\ snd a + n <= ckBase k + ckPos k).
  { intros A a n (ar & k & H1 & H2 & H3). exists ar, k. rewrite updN_neq; auto. intros ->. congruence. }
  split; [|split; [auto|split; [|split]]].
  2: { unfold alive. cbn. rewrite updN_eq. discriminate. }
  2: { unfold usedA. cbn [sallocs]. rewrite updN_eq. reflexivity. }
  2: { reflexivity. }
  assert (W' : wfst (mkSt (sbytes s) (snodes s) (svals s) (sstrs s)
              (updN (sallocs s) (snext s) (Some [first_chunk (snext s)]))
              (updN (sbsize s) (snext s) (Some (sizeof_Allocator + sizeof_aNode + zj_AllocatorInitMemSize)))
              (snext s + 1) (scache s) (count_new (sizeof_Allocator + sizeof_aNode + zj_AllocatorInitMemSize) (scnt s)))).
  { constructor; cbn [sbytes snodes svals sstrs sallocs sbsize snext scache].
    - intros b Hb. rewrite !updN_neq by lia. apply (w_next s W). lia.
    - lia.
    - intros A ar HA. destruct (N.eq_dec A (snext s)) as [->|D].
      + rewrite updN_eq in HA. injection HA as <-. split; [apply first_wf|]. split; [repeat constructor; intros []|].
        exists []. reflexivity.
      + rewrite updN_neq in HA by auto. now apply (w_ar s W).
    - intros A ar k HA Hk. destruct (N.eq_dec A (snext s)) as [->|D].
      + rewrite updN_eq in HA. injection HA as <-. destruct Hk as [<-|[]]. cbn [first_chunk ckBlk ckBase ckSize ckPos].
        rewrite updN_eq. split; [reflexivity|]. split; [pose proof (w_zero s W); lia|]. intros o _. apply Hd.
      + rewrite updN_neq in HA by auto. pose proof (Lt _ _ _ HA Hk). rewrite updN_neq by lia. now apply (w_chunk s W A ar k).
    - intros A A' ar ar' k k' HA HA' Hk Hk' E.
      destruct (N.eq_dec A (snext s)) as [->|D]; destruct (N.eq_dec A' (snext s)) as [->|D']; auto.
      + rewrite updN_eq in HA. injection HA as <-. rewrite updN_neq in HA' by auto. destruct Hk as [<-|[]].
        pose proof (Lt _ _ _ HA' Hk'). cbn [first_chunk ckBlk] in E. lia.
      + rewrite updN_eq in HA'. injection HA' as <-. rewrite updN_neq in HA by auto. destruct Hk' as [<-|[]].
        pose proof (Lt _ _ _ HA Hk). cbn [first_chunk ckBlk] in E. lia.
      + rewrite updN_neq in HA, HA' by auto. now apply (w_own s W A A' ar ar' k k').
    - intros a Hb. destruct (N.eq_dec (fst a) (snext s)) as [E|D].
      + rewrite E, updN_eq in Hb. discriminate.
      + rewrite updN_neq in Hb by auto. apply (w_dead s W a Hb).
    - intros a x Hx. destruct (w_bytes s W a x Hx) as (n & E & L). exists n. rewrite updN_neq; auto. intros K. congruence.
    - apply (w_static s W).
    - pose proof (w_cache s W) as K. destruct (scache s); auto. destruct (sstrs s a) as [z|]; auto.
      destruct K as (K1 & K2 & K3). split; [exact (Inr _ _ _ K1)|]. split; [exact (Inr _ _ _ K2)|auto]. }
  constructor; auto; cbn [sbytes snodes svals sstrs sallocs sbsize snext scache].
  - intros b n E. rewrite updN_neq; auto. intros ->. congruence.
  - intros A HA. unfold alive in *. cbn [sallocs]. rewrite updN_neq; auto. intros ->. congruence.
  - intros A ar k HA Hk. cbn [sallocs] in HA. destruct (N.eq_dec A (snext s)) as [->|D].
    + rewrite updN_eq in HA. injection HA as <-. destruct Hk as [<-|[]]. left. cbn. lia.
    + rewrite updN_neq in HA by auto. right. exists ar, k. repeat split; auto. lia.
  - lia.
  - intro A. unfold usedA. cbn [sallocs]. destruct (N.eq_dec A (snext s)) as [->|D].
    + rewrite updN_eq. cbn [used first_chunk ckPos]. lia.
    + rewrite updN_neq by auto. lia.
  - intros A _ HA. rewrite updN_neq; auto. intros ->. now apply HA.
Qed.
Lemma newAllocator_inv s F A s' : inv s F -> ext none none zeroc s s' -> A = snext s -> ~ isvol A.
Proof. intros I X -> H. apply (wv_next s (i_vol _ _ I)) in H. lia. Qed.

(** ** A new value *)
Lemma newValue_wp s F A : inv s F -> alive s A -> ~ isvol A -> usedA s A + 16 <= two30 ->
  wp (zj_NewValue A) s (fun v s' => ext none none (at_ A 16) s s' /\ inv s' F /\ handle s' F v Null A /\ beyond s v).
Proof.
  intros I Al NA Hu. pose proof (i_wf _ _ I) as W. unfold zj_NewValue.
  eapply wp_mono; [eapply (newval_step none none A 0 s s Null W); auto; [now apply ext_start|lia]|].
  intros v s' (X & B & V). cbn [N.add] in X. split; auto. split; [eapply ext_inv; eauto|]. split; auto.
  split; [apply V|]. split; [split; auto; now apply (x_alive _ _ _ _ _ X)|]. now left.
Qed.

(** ** A caller buffer *)
Lemma userBuf_wp s bs : wfst s -> lenN bs < two32 -> wp (user_buf bs) s (fun p s' => ext none none zeroc s s' /\
  p = (snext s, 0) /\ text_at s' p = bs /\ srctext s' p bs /\ ublock s' (fst p) /\ snext s' = snext s + 1 /\ svals s' = svals s /\
  sallocs s' = sallocs s).
Proof.
  intros W Hl. unfold wp, user_buf. unfold lenN in Hl.
  replace (two32 <=? N.of_nat (length bs)) with false by (symmetry; bools; lia).
  eexists _, _. split; [reflexivity|].
  destruct (w_next s W (snext s) ltac:(lia)) as [Hs Ha].
  assert (Hd : forall o, nothing s (snext s, o)) by (intro o; apply (w_dead s W); auto).
  set (s' := mkSt _ _ _ _ _ _ _ _ _).
  assert (Lt : forall A ar k, sallocs s A = Some ar -> In k ar -> ckBlk k < snext s).
  { intros A ar k HA Hk. apply (ownblk_lt s _ W). exists A, ar, k. auto. }
  assert (Hb : forall a, fst a <> snext s -> sbytes s' a = sbytes s a).
  { intros a Na. cbn. apply upd_bytes_out. cbn. tauto. }
  assert (Hsz : forall b, b <> snext s -> sbsize s' b = sbsize s b) by (intros b Nb; cbn; now apply updN_neq).
  assert (Hsz' : sbsize s' (snext s) = Some (N.of_nat (length bs))) by (cbn; apply updN_eq).
  assert (Nk : forall A ar k, sallocs s A = Some ar -> In k ar -> ckBlk k <> snext s).
  { intros A ar k HA Hk E. pose proof (Lt _ _ _ HA Hk). lia. }
  assert (Nc : forall a, cacheR s a -> fst a < snext s).
  { intros a (p & z & C1 & C2 & C3 & _). pose proof (w_cache s W) as K. rewrite C1, C2 in K. destruct K as (_ & (ar & k & K1 & K2 & K3 & _) & _).
    rewrite C3, K3. eauto. }
  assert (W' : wfst s').
  { constructor.
    - intros b Hb'. change (snext s + 1 <= b) in Hb'. rewrite Hsz by lia. apply (w_next s W). lia.
    - cbn. lia.
    - intros A ar HA. now apply (w_ar s W).
    - intros A ar k HA Hk. pose proof (Nk _ _ _ HA Hk) as Nb. rewrite Hsz by auto.
      destruct (w_chunk s W A ar k HA Hk) as (K1 & K2 & K3). split; auto. split; auto.
      intros o Ho. specialize (K3 o Ho). unfold nothing in *. rewrite Hb by auto. exact K3.
    - intros A A' ar ar' k k' HA HA'. now apply (w_own s W A A' ar ar' k k').
    - intros a Hn. assert (Na : fst a <> snext s) by (intro E; rewrite E, Hsz' in Hn; discriminate).
      rewrite Hsz in Hn by auto. unfold nothing. rewrite Hb by auto. apply (w_dead s W a Hn).
    - intros a x Hx. destruct (N.eq_dec (fst a) (snext s)) as [E|Na].
      + exists (N.of_nat (length bs)). rewrite E. split; [auto|].
        cbn in Hx. destruct (upd_bytes_cases (sbytes s) (snext s, 0) bs a) as [(i & Hi & -> & _)|[_ E']]; [cbn; lia|].
        rewrite E' in Hx. destruct (Hd (snd a)) as [K _]. rewrite <- E in K. destruct a. cbn in *. congruence.
      + rewrite Hb in Hx by auto. destruct (w_bytes s W a x Hx) as (n & E & L). exists n. rewrite Hsz; auto.
    - intro o. rewrite Hb; [apply (w_static s W)|]. pose proof (w_zero s W). cbn. lia.
    - exact (w_cache s W). }
  assert (X : ext none none zeroc s s').
  { constructor; auto.
    - intros b n E. rewrite Hsz; auto. intros ->. congruence.
    - exact (chunks_refl s).
    - cbn. lia.
    - intro A. unfold usedA, zeroc. cbn [s' sallocs]. lia.
    - intros a x Hx _. rewrite Hb; auto. apply bytes_next in Hx; auto. lia.
  }
  split; auto. split; auto. split; [|split; [|split; [|auto]]].
  - unfold text_at. cbn [fst snd]. rewrite Hsz'. apply run_exact; [lia| |].
    + intros i x E. exact (holds_store s (snext s, 0) bs i x E).
    + change (sbytes s' (offset (snext s, 0) (N.of_nat (length bs))) = None). cbn.
      rewrite upd_bytes_out by (cbn; lia). apply Hd.
  - split; [intros i x E; exact (holds_store s (snext s, 0) bs i x E)|]. intros i Hi Hc.
    apply (Nc (offset (snext s, 0) (N.of_nat i))) in Hc. cbn in Hc. lia.
  - cbn [fst]. split; [rewrite Hsz'; discriminate|]. split.
    + intros (A & ar & k & HA & Hk & E). now apply (Nk A ar k).
    + pose proof (w_zero s W). lia.
Qed.
End WithVol.

(** ** Marking more memory as volatile *)
Definition addvol (VV : vols) (b : N) (H : b <> 0) : vols.
Proof. exists (fun x => @isvol VV x \/ x = b). intros [K|K]; [now apply (@vol0 VV)|congruence]. Defined.

(** A block that came into being after [s] may be marked: nothing in [F] can depend on it. *)
Lemma inv_addvol VV s F c s' b (Hb : b <> 0) : @inv VV s F -> ext none none c s s' -> snext s <= b -> ublock s' b ->
  @inv (addvol VV b Hb) s' F.
Proof.
  intros I X Lb (U1 & U2 & U3). pose proof (i_wf _ _ I) as W. pose proof (x_wf _ _ _ _ _ X) as W'.
  assert (I' : @inv VV s' F) by (eapply ext_inv; eauto).
  assert (V : forall x, @vol (addvol VV b Hb) s' x -> @vol VV s' x \/ x = b).
  { intros x [[K|K]|(A & ar & k & [HV|HV] & HA & Hk & E)].
    - left. now left.
    - now right.
    - left. right. exists A, ar, k. auto.
    - subst A. exfalso. apply U2. destruct (w_ar s' W' b ar HA) as (_ & _ & l & El).
      assert (In b (map ckBlk ar)) as HI by (rewrite El, in_app_iff; simpl; auto).
      apply in_map_iff in HI as (kr & Er & Hr). exists b, ar, kr. auto. }
  assert (T : forall a t, @safetext VV s a t -> @safetext (addvol VV b Hb) s' a t).
  { intros a t H. pose proof (safetext_ext _ _ _ _ _ _ _ X H) as [H1 H2]. split; auto. intros i Hi. destruct (H2 i Hi) as [H3 H4].
    split; auto. intro K. apply V in K as [K|K]; [auto|]. destruct H as [H _].
    destruct (nth_error t i) as [x|] eqn:E; [|apply nth_error_None in E; lia].
    apply H, (bytes_next s _ _ W) in E. cbn in E. lia. }
  destruct I as [_ R D Wv O]. constructor; auto.
  - intros a f Ha _. destruct (R a f Ha) as (n & Hn & Hr); [auto|]. exists n.
    split; [apply (x_nodes _ _ _ _ _ X); auto|]. destruct Hr. constructor; auto.
    + destruct (fkey f); cbn in *; auto. destruct r_key as (p & E1 & E2 & K). eauto.
    + assert (K : forall tt' bb, @rep_text VV s n tt' bb -> @rep_text (addvol VV b Hb) s' n tt' bb).
      { intros t0 b0 (E1 & E2 & p & E3 & K). split; auto. split; auto. eauto. }
      destruct (fvalue f); cbn in *; auto.
    + intros E b0 p Eb Ep. destruct (r_stop E b0 p Eb Ep) as (y & Hy & K). eauto.
  - constructor.
    + intros x [Hx|Hx]; [|subst x].
      * apply (wv_next s' (i_vol _ _ I') x Hx).
      * destruct (sbsize s' b) eqn:E; [|congruence]. eapply size_next; eauto.
    + intros A ar k HA Hk [Hv|Hv].
      * left. eapply (wv_own s' (i_vol _ _ I')); eauto.
      * exfalso. apply U2. exists A, ar, k. auto.
  - intros a Ha K. apply V in K as [K|K]; [exact (i_off _ _ I' a Ha K)|].
    destruct (F a) as [f|] eqn:E; [|congruence]. destruct (R a f E) as (n & Hn & _); [auto|]. apply nodes_next in Hn; auto. lia.
Qed.
Lemma handle_addvol VV s F v w A b (Hb : b <> 0) : @handle VV s F v w A -> A <> b -> @handle (addvol VV b Hb) s F v w A.
Proof. intros (H1 & [H2 N2] & H3) N. split; auto. split; auto. split; auto. intros [K|K]; auto. Qed.
Lemma handle_delvol VV s F v w A b (Hb : b <> 0) : @handle (addvol VV b Hb) s F v w A -> @handle VV s F v w A.
Proof. intros (H1 & [H2 N2] & H3). split; auto. split; auto. split; auto. intro K. apply N2. now left. Qed.
(** Marks may be forgotten. *)
Lemma inv_delvol VV s F b (Hb : b <> 0) : @inv (addvol VV b Hb) s F -> sallocs s b = None -> @inv VV s F.
Proof.
  intros I Hn. destruct I as [W R D Wv O].
  assert (V : forall x, @vol VV s x -> @vol (addvol VV b Hb) s x).
  { intros x [K|(A & ar & k & HV & K)]; [left; now left|right]. exists A, ar, k. split; auto. now left. }
  assert (T : forall a t, @safetext (addvol VV b Hb) s a t -> @safetext VV s a t).
  { intros a t [H1 H2]. split; auto. intros i Hi. destruct (H2 i Hi) as [H3 H4]. split; auto. }
  constructor; auto.
  - intros a f Ha Hd. destruct (R a f Ha Hd) as (n & Hn' & Hr). exists n. split; auto. destruct Hr. constructor; auto.
    + destruct (fkey f); cbn in *; auto. destruct r_key as (p & E1 & E2 & K). eauto.
    + assert (K : forall tt' bb, @rep_text (addvol VV b Hb) s n tt' bb -> @rep_text VV s n tt' bb).
      { intros t0 b0 (E1 & E2 & p & E3 & K). split; auto. split; auto. eauto. }
      destruct (fvalue f); cbn in *; auto.
    + intros E b0 p Eb Ep. destruct (r_stop E b0 p Eb Ep) as (y & Hy & K). eauto.
  - constructor.
    + intros x Hx. apply (wv_next s Wv). now left.
    + intros A ar k HA Hk Hv. destruct (wv_own s Wv A ar k HA Hk (or_introl Hv)) as [K| ->]; auto. congruence.
  - intros a Ha K. apply (O a Ha). auto.
Qed.

(** ** What happens inside volatile memory does not matter *)
Section Volatile.
Context {VV : vols}.
Lemma vol_inv s F s' : inv s F -> wfst s' -> snext s' = snext s ->
  (forall a, ~ vol s (fst a) -> sbytes s' a = sbytes s a /\ snodes s' a = snodes s a) ->
  (forall A ar, sallocs s' A = Some ar -> sallocs s A = Some ar) ->
  (forall a, cacheR s' a -> cacheR s a) -> inv s' F.
Proof.
  intros [W R D Wv O] W' En Em Ea Ec.
  assert (V : forall x, vol s' x -> vol s x).
  { intros x [K|(A & ar & k & HV & HA & K)]; [now left|right]. exists A, ar, k. auto. }
  constructor; auto.
  - intros a f Ha Hd. destruct (R a f Ha Hd) as (n & Hn & Hr). exists n. split.
    + rewrite (proj2 (Em a (O a ltac:(congruence)))). exact Hn.
    + eapply rep_node_text; [|exact Hr]. intros p t [H1 H2]. split.
      * intros i x E. assert (i < length t)%nat by (apply nth_error_Some; congruence). destruct (H2 i H) as [_ K].
        rewrite (proj1 (Em (offset p (N.of_nat i)) K)). now apply H1.
      * intros i Hi. destruct (H2 i Hi) as [K1 K2]. split; auto.
  - constructor.
    + rewrite En. apply (wv_next s Wv).
    + intros A ar k HA. apply (wv_own s Wv A ar k); auto.
  - intros a Ha K. apply (O a Ha). auto.
Qed.
Lemma vol_handle s F v w A s' : handle s F v w A -> ~ vol s (fst v) ->
  (forall a, ~ vol s (fst a) -> svals s' a = svals s a) -> alive s' A -> handle s' F v w A.
Proof. intros (H1 & [_ H2] & H3) Nv Em Al. split; [rewrite Em; auto|]. split; auto. Qed.
End Volatile.

(** ** The caller overwrites or frees a buffer of theirs *)
Lemma userWrite_wf s b n bs : wfst s -> ublock s b -> sbsize s b = Some n -> N.of_nat (length bs) <= n ->
  wfst (set_bytes (upd_bytes (sbytes s) (b, 0) bs) s).
Proof.
  intros W (U1 & U2 & U3) En Hl. set (s' := set_bytes _ s).
  assert (Hb : forall a, fst a <> b -> sbytes s' a = sbytes s a).
  { intros a Na. cbn. apply upd_bytes_out. cbn. tauto. }
  constructor; try apply W.
  - intros A ar k HA Hk. destruct (w_chunk s W A ar k HA Hk) as (K1 & K2 & K3). split; auto. split; auto.
    intros o Ho. specialize (K3 o Ho). unfold nothing in *. rewrite Hb; [exact K3|]. cbn. intros E. apply U2. exists A, ar, k. auto.
  - intros a Ha. change (sbsize s (fst a) = None) in Ha. unfold nothing. rewrite Hb; [apply (w_dead s W a Ha)|]. intros E. congruence.
  - intros a x Hx. change (sbsize s' (fst a)) with (sbsize s (fst a)).
    destruct (N.eq_dec (fst a) b) as [E|Na].
    + exists n. rewrite E. split; auto. cbn in Hx.
      destruct (upd_bytes_cases (sbytes s) (b, 0) bs a) as [(i & Hi & -> & _)|[_ E']]; [cbn; lia|].
      rewrite E' in Hx. destruct (w_bytes s W _ _ Hx) as (m & K1 & K2). congruence.
    + rewrite Hb in Hx by auto. apply (w_bytes s W a x Hx).
  - intro o. rewrite Hb by (cbn; auto). apply (w_static s W).
Qed.
Lemma userFree_wf s b : wfst s -> ublock s b ->
  wfst (mkSt (drop_blk (sbytes s) b) (drop_blk (snodes s) b) (drop_blk (svals s) b)
             (drop_blk (sstrs s) b) (sallocs s) (updN (sbsize s) b None) (snext s) (scache s) (scnt s)).
Proof.
  intros W (U1 & U2 & U3). set (s' := mkSt _ _ _ _ _ _ _ _ _).
  assert (Nk : forall A ar k, sallocs s A = Some ar -> In k ar -> ckBlk k <> b).
  { intros A ar k HA Hk E. apply U2. exists A, ar, k. auto. }
  assert (Hd : forall T (m : addr -> option T) a, fst a <> b -> drop_blk m b a = m a).
  { intros T m a Na. unfold drop_blk. destruct (N.eqb_spec (fst a) b); congruence. }
  assert (Hn : forall a, nothing s a -> nothing s' a).
  { intros a (K1 & K2 & K3 & K4). unfold nothing. cbn. unfold drop_blk. destruct (fst a =? b); auto. }
  constructor.
  - intros x Hx. change (snext s <= x) in Hx. destruct (w_next s W x Hx) as [K1 K2]. split; auto. cbn. unfold updN. destruct (x =? b); auto.
  - apply (w_zero s W).
  - apply (w_ar s W).
  - intros A ar k HA Hk. destruct (w_chunk s W A ar k HA Hk) as (K1 & K2 & K3). split; [|split; auto].
    cbn. rewrite updN_neq; auto. eapply Nk; eauto.
  - apply (w_own s W).
  - intros a Ha. destruct (N.eq_dec (fst a) b) as [E|Na].
    + unfold nothing. cbn. unfold drop_blk. rewrite E, N.eqb_refl. auto.
    + cbn in Ha. rewrite updN_neq in Ha by auto. apply Hn, (w_dead s W a Ha).
  - intros a x Hx. cbn in Hx. destruct (N.eq_dec (fst a) b) as [E|Na].
    + unfold drop_blk in Hx. rewrite E, N.eqb_refl in Hx. discriminate.
    + rewrite Hd in Hx by auto. destruct (w_bytes s W a x Hx) as (n & K1 & K2). exists n. split; auto. cbn. now rewrite updN_neq.
  - intro o. cbn. rewrite Hd; [apply (w_static s W)|cbn; auto].
  - pose proof (w_cache s W) as K. cbn. destruct (scache s) as [| |p]; auto. unfold drop_blk. destruct (fst p =? b); auto.
Qed.

Section UserMem.
Context {VV : vols}.
Lemma userWrite_wp s F b n bs : inv s F -> ublock s b -> isvol b -> sbsize s b = Some n -> N.of_nat (length bs) <= n ->
  wp (user_write b bs) s (fun _ s' => inv s' F /\ (forall v w A, handle s F v w A -> handle s' F v w A) /\
    (forall a, fst a <> b -> sbytes s' a = sbytes s a) /\ snodes s' = snodes s /\ svals s' = svals s /\ sallocs s' = sallocs s /\ ublock s' b).
Proof.
  intros I U Hv En Hl. pose proof (i_wf _ _ I) as W. unfold wp, user_write. rewrite En.
  destruct (sallocs s b) as [ar|] eqn:Eb.
  { exfalso. destruct U as (_ & U & _). apply U. destruct (w_ar s W b ar Eb) as (_ & _ & l & El).
    assert (In b (map ckBlk ar)) as HI by (rewrite El, in_app_iff; simpl; auto).
    apply in_map_iff in HI as (kr & Er & Hr). exists b, ar, kr. auto. }
  replace (n <? N.of_nat (length bs)) with false by (symmetry; bools; lia).
  eexists tt, _. split; [reflexivity|].
  assert (Hb : forall a, fst a <> b -> upd_bytes (sbytes s) (b, 0) bs a = sbytes s a).
  { intros a Na. apply upd_bytes_out. cbn. tauto. }
  split; [|split; [auto|split; [exact Hb|auto]]].
  apply (vol_inv s F); auto.
  - eapply userWrite_wf; eauto.
  - intros a Na. split; auto. apply Hb. intros E. apply Na. rewrite E. now left.
Qed.
Lemma userFree_wp s F b : inv s F -> ublock s b -> isvol b ->
  wp (user_free b) s (fun _ s' => inv s' F /\ (forall v w A, fst v <> b -> handle s F v w A -> handle s' F v w A) /\
    (forall a, fst a <> b -> sbytes s' a = sbytes s a /\ snodes s' a = snodes s a /\ svals s' a = svals s a) /\
    (forall o, nothing s' (b, o)) /\ sallocs s' = sallocs s /\
    (forall x, x <> b -> ublock s x -> ublock s' x)).
Proof.
  intros I U Hv. pose proof (i_wf _ _ I) as W. unfold wp, user_free.
  destruct (sbsize s b) as [n|] eqn:En; [|now destruct U].
  eexists tt, _. split; [reflexivity|].
  assert (Hd : forall T (m : addr -> option T) a, fst a <> b -> drop_blk m b a = m a).
  { intros T m a Na. unfold drop_blk. destruct (N.eqb_spec (fst a) b); congruence. }
  split; [|split; [|split; [|split; [|split; [reflexivity|]]]]].
  - apply (vol_inv s F); auto.
    + now apply userFree_wf.
    + intros a Na. cbn. rewrite !Hd; auto; intros E; apply Na; rewrite E; now left.
    + intros a (p & z & C1 & C2 & C3). cbn in C2. unfold drop_blk in C2. destruct (fst p =? b); [discriminate|]. exists p, z. auto.
  - intros v w A Nv (H1 & H2). split; auto. cbn. now rewrite Hd.
  - intros a Na. cbn. now rewrite !Hd.
  - intro o. unfold nothing. cbn. unfold drop_blk. cbn. rewrite N.eqb_refl. auto.
  - intros x Nx (U1 & U2 & U3). split; auto. cbn. now rewrite updN_neq.
Qed.
End UserMem.

(** ** Releasing an allocator *)
Lemma free_blks_ok l : forall s, NoDup l -> (forall b, In b l -> sbsize s b <> None) ->
  exists s', free_blks l s = Ok (tt, s') /\ sallocs s' = sallocs s /\ snext s' = snext s /\ scache s' = scache s /\
    (forall a, In (fst a) l -> nothing s' a) /\
    (forall a, nothing s a -> nothing s' a) /\
    (forall a, ~ In (fst a) l -> sbytes s' a = sbytes s a /\ snodes s' a = snodes s a /\ svals s' a = svals s a /\ sstrs s' a = sstrs s a) /\
    (forall b, In b l -> sbsize s' b = None) /\ (forall b, ~ In b l -> sbsize s' b = sbsize s b).
Proof.
  induction l as [|b l IH]; intros s ND Hs.
  - exists s. cbn. do 4 (split; [reflexivity|]). split; [intros a []|]. split; [auto|]. split; [auto|]. split; [intros b []|auto].
  - inversion ND as [|? ? Nb ND']; subst. cbn [free_blks]. unfold bind.
    unfold free_blk at 1. destruct (sbsize s b) as [n|] eqn:En; [|exfalso; apply (Hs b); simpl; auto].
    match goal with |- context [free_blks l ?x] => set (s1 := x) end.
    destruct (IH s1 ND') as (s' & E & E1 & E2 & E3 & H1 & H0 & H2 & H3 & H4).
    { intros x Hx. unfold s1. cbn. rewrite updN_neq by (intros ->; auto). apply Hs. now right. }
    assert (K0 : forall a, nothing s a -> nothing s1 a).
    { intros a (K1 & K2 & K3 & K4). unfold nothing, s1. cbn. unfold drop_blk. destruct (fst a =? b); auto. }
    assert (Kb : forall a, fst a = b -> nothing s1 a).
    { intros a Ea. unfold nothing, s1. cbn. unfold drop_blk. rewrite Ea, N.eqb_refl. auto. }
    assert (Kd : forall a, fst a <> b -> sbytes s1 a = sbytes s a /\ snodes s1 a = snodes s a /\ svals s1 a = svals s a /\ sstrs s1 a = sstrs s a).
    { intros a Na. unfold s1. cbn. unfold drop_blk. destruct (N.eqb_spec (fst a) b); [congruence|auto]. }
    exists s'. rewrite E. split; [reflexivity|]. split; [exact E1|]. split; [exact E2|]. split; [exact E3|].
    split; [|split; [auto|split; [|split]]].
    + intros a [Ea|Ha]; [apply H0, Kb; auto|auto].
    + intros a Na. destruct (H2 a) as (G1 & G2 & G3 & G4); [intros K; apply Na; now right|].
      destruct (Kd a) as (J1 & J2 & J3 & J4); [intros K; apply Na; now left|]. repeat split; congruence.
    + intros x [->|Hx]; auto. rewrite H4 by auto. unfold s1. cbn. apply updN_eq.
    + intros x Nx. rewrite H4 by (intro; apply Nx; now right). unfold s1. cbn. apply updN_neq. intros ->. apply Nx. now left.
Qed.

(** The state after the release of [A]. *)
Record released (s : st) (A : N) (s' : st) : Prop := {
  rl_wf : wfst s';
  rl_next : snext s' = snext s;
  rl_cache : scache s' = scache s;
  rl_gone : sallocs s' A = None;
  rl_allocs : forall B, B <> A -> sallocs s' B = sallocs s B;
  rl_dead : forall ar k, sallocs s A = Some ar -> In k ar -> sbsize s' (ckBlk k) = None;
  rl_size : forall b, ~ (exists ar k, sallocs s A = Some ar /\ In k ar /\ ckBlk k = b) -> sbsize s' b = sbsize s b;
  rl_keep : forall a, ~ (exists ar k, sallocs s A = Some ar /\ In k ar /\ ckBlk k = fst a) ->
    sbytes s' a = sbytes s a /\ snodes s' a = snodes s a /\ svals s' a = svals s a /\ sstrs s' a = sstrs s a
}.

Lemma release_wp s A : wfst s -> alive s A -> wp (zj_ReleaseAllocator A) s (fun _ s' => released s A s').
Proof.
  intros W Al. unfold wp, zj_ReleaseAllocator, bind, get. destruct (sallocs s A) as [ar|] eqn:EA; [|now elim Al].
  destruct (w_ar s W A ar EA) as (_ & ND & l & El). rewrite El, rev_app_distr. cbn [rev app].
  assert (HI : forall b, In b (rev l) \/ b = A <-> exists k, In k ar /\ ckBlk k = b).
  { intro b. rewrite <- in_rev. assert (In b (map ckBlk ar) <-> In b l \/ b = A) as K.
    { rewrite El, in_app_iff. simpl. intuition congruence. }
    rewrite <- K, in_map_iff. split; intros (k & K1 & K2); eauto. }
  rewrite El in ND. assert (Nl : ~ In A l /\ NoDup l).
  { apply NoDup_remove in ND. rewrite app_nil_r in ND. tauto. }
  destruct (free_blks_ok (rev l) s) as (s1 & E & E1 & E2 & E3 & H1 & H0 & H2 & H3 & H4).
  { apply NoDup_rev, Nl. }
  { intros b Hb. destruct (proj1 (HI b) (or_introl Hb)) as (k & K1 & <-). destruct (w_chunk s W A ar k EA K1) as (K & _). congruence. }
  unfold bind. rewrite E. unfold free_blk.
  assert (SA : sbsize s1 A <> None).
  { rewrite H4 by (rewrite <- in_rev; tauto). destruct (proj1 (HI A) (or_intror eq_refl)) as (k & K1 & K2).
    destruct (w_chunk s W A ar k EA K1) as (K & _). rewrite <- K2. congruence. }
  destruct (sbsize s1 A) as [n|] eqn:En; [|congruence].
  eexists tt, _. split; [reflexivity|]. set (s' := mkSt _ _ _ _ _ _ _ _ _).
  assert (D1 : forall b, In b (rev l) \/ b = A -> sbsize s' b = None).
  { intros b Hb. unfold s'. cbn. unfold updN. destruct (N.eqb_spec b A); auto. apply H3. tauto. }
  assert (D2 : forall b, ~ (In b (rev l) \/ b = A) -> sbsize s' b = sbsize s b).
  { intros b Hb. unfold s'. cbn. rewrite updN_neq by tauto. apply H4. tauto. }
  assert (D3 : forall a, In (fst a) (rev l) \/ fst a = A -> nothing s' a).
  { intros a Ha. unfold nothing, s'. cbn. unfold drop_blk. destruct (N.eqb_spec (fst a) A); auto. apply H1. tauto. }
  assert (D4 : forall a, ~ (In (fst a) (rev l) \/ fst a = A) -> sbytes s' a = sbytes s a /\ snodes s' a = snodes s a /\ svals s' a = svals s a /\ sstrs s' a = sstrs s a).
  { intros a Ha. unfold s'. cbn. unfold drop_blk. destruct (N.eqb_spec (fst a) A); [tauto|]. apply H2. tauto. }
  assert (D5 : forall a, nothing s a -> nothing s' a).
  { intros a Ha. unfold nothing, s'. cbn. unfold drop_blk. destruct (fst a =? A); auto. apply H0, Ha. }
  assert (D6 : forall B, B <> A -> sallocs s' B = sallocs s B).
  { intros B NB. unfold s'. cbn. rewrite updN_neq by auto. now rewrite E1. }
  assert (D7 : sallocs s' A = None) by (unfold s'; cbn; apply updN_eq).
  assert (D8 : forall B ar', sallocs s' B = Some ar' -> B <> A /\ sallocs s B = Some ar').
  { intros B ar' HB. destruct (N.eq_dec B A) as [->|NB]; [congruence|]. rewrite D6 in HB; auto. }
  assert (D9 : forall B ar' k, sallocs s B = Some ar' -> B <> A -> In k ar' -> ~ (In (ckBlk k) (rev l) \/ ckBlk k = A)).
  { intros B ar' k HB NB Hk K. apply HI in K as (k' & K1 & K2). apply NB. apply (w_own s W B A ar' ar k k'); auto. }
  assert (D10 : forall o : N, ~ (In (fst (0, o)) (rev l) \/ fst (0, o) = A)).
  { intros o K. apply HI in K as (k & K1 & K2). destruct (w_chunk s W A ar k EA K1) as (_ & K & _). cbn in K2. congruence. }
  constructor; auto.
  - constructor.
    + intros b Hb. unfold s' in Hb. cbn in Hb. rewrite E2 in Hb. destruct (w_next s W b Hb) as [K1 K2]. split.
      * destruct (in_dec N.eq_dec b (rev l)) as [K|K]; [apply D1; auto|]. destruct (N.eq_dec b A) as [->|K']; [apply D1; auto|].
        rewrite D2; tauto.
      * destruct (N.eq_dec b A) as [->|K']; auto. now rewrite D6.
    + unfold s'. cbn. rewrite E2. apply (w_zero s W).
    + intros B ar' HB. apply D8 in HB as [_ HB]. apply (w_ar s W B ar' HB).
    + intros B ar' k HB Hk. apply D8 in HB as [NB HB]. destruct (w_chunk s W B ar' k HB Hk) as (K1 & K2 & K3).
      rewrite D2 by (eapply D9; eauto). split; auto.
    + intros B B' ar1 ar2 k k' HB HB'. apply D8 in HB as [_ HB]. apply D8 in HB' as [_ HB']. apply (w_own s W B B' ar1 ar2 k k'); auto.
    + intros a Ha. destruct (in_dec N.eq_dec (fst a) (rev l)) as [K|K]; [apply D3; auto|]. destruct (N.eq_dec (fst a) A) as [K'|K']; [apply D3; auto|].
      rewrite D2 in Ha by tauto. apply D5, (w_dead s W a Ha).
    + intros a x Hx. destruct (in_dec N.eq_dec (fst a) (rev l)) as [K|K]; [destruct (D3 a) as (G & _); auto; congruence|].
      destruct (N.eq_dec (fst a) A) as [K'|K']; [destruct (D3 a) as (G & _); auto; congruence|].
      rewrite (proj1 (D4 a ltac:(tauto))) in Hx. rewrite D2 by tauto. apply (w_bytes s W a x Hx).
    + intro o. rewrite (proj1 (D4 (0, o) (D10 o))). apply (w_static s W).
    + pose proof (w_cache s W) as K. change (scache s') with (scache s1). rewrite E3. destruct (scache s) as [| |p]; auto.
      destruct (sstrs s' p) as [z|] eqn:Ez; auto.
      assert (Np : ~ (In (fst p) (rev l) \/ fst p = A)).
      { intros Kp. destruct (D3 p Kp) as (_ & _ & _ & G). congruence. }
      destruct (D4 p Np) as (_ & _ & _ & G). rewrite G in Ez. rewrite Ez in K. destruct K as (K1 & K2 & K3).
      assert (NA : zA z <> A).
      { intros EzA. rewrite EzA in K1. destruct K1 as (ar0 & k & J1 & J2 & J3 & _). apply Np, HI. exists k. rewrite EA in J1. injection J1 as <-. auto. }
      assert (T : forall a n, inrA s (zA z) a n -> inrA s' (zA z) a n).
      { intros a m (ar0 & k & J1 & J2). exists ar0, k. rewrite D6; auto. }
      auto.
  - intros ar0 k EA' Hk. rewrite EA in EA'. injection EA' as <-. apply D1, HI. eauto.
  - intros b Nb. apply D2. intros K. apply HI in K as (k & K1 & K2). apply Nb. eauto.
  - intros a Na. apply D4. intros K. apply HI in K as (k & K1 & K2). apply Na. eauto.
Qed.
Lemma released_inv {VV : vols} s F A s' : inv s F -> isvol A -> released s A s' -> inv s' F.
Proof.
  intros I Hv R. pose proof (i_wf _ _ I) as W. apply (vol_inv s F); auto; try apply R.
  - intros a Na. destruct (rl_keep _ _ _ R a) as (K1 & K2 & _); auto.
    intros (ar & k & H1 & H2 & H3). apply Na. right. exists A, ar, k. auto.
  - intros B ar HB. destruct (N.eq_dec B A) as [->|NB]; [rewrite (rl_gone _ _ _ R) in HB; discriminate|].
    rewrite (rl_allocs _ _ _ R) in HB; auto.
  - intros a (p & z & C1 & C2 & C3). exists p, z. rewrite (rl_cache _ _ _ R) in C1. split; auto. split; auto.
    destruct (sallocs s A) as [ar|] eqn:EA.
    + destruct (in_dec N.eq_dec (fst p) (map ckBlk ar)) as [K|K].
      * apply in_map_iff in K as (k & K1 & K2). pose proof (rl_dead _ _ _ R ar k EA K2) as K. rewrite K1 in K.
        apply (w_dead s' (rl_wf _ _ _ R)) in K as (_ & _ & _ & K). congruence.
      * destruct (rl_keep _ _ _ R p) as (_ & _ & _ & G); [|congruence].
        intros (ar0 & k & H1 & H2 & H3). apply K, in_map_iff. exists k. split; congruence.
    + destruct (rl_keep _ _ _ R p) as (_ & _ & _ & G); [|congruence]. intros (ar0 & k & H1 & _). congruence.
Qed.
Lemma released_handle {VV : vols} s F v w A B s' : wfst s -> handle s F v w B -> B <> A ->
  ~ (exists ar k, sallocs s A = Some ar /\ In k ar /\ ckBlk k = fst v) -> released s A s' -> handle s' F v w B.
Proof.
  intros W (H1 & [H2 H2'] & H3) N Nv R. destruct (rl_keep _ _ _ R v Nv) as (_ & _ & K & _).
  split; [congruence|]. split; auto. split; auto. unfold alive. rewrite (rl_allocs _ _ _ R); auto.
Qed.
