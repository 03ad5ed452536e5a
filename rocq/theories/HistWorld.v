(** Programs with several groups of allocators and releases (HistMany.v): the model of the
    code answers what the reference answers, whatever is released in between. *)
From Verif Require Import Base Spec Lex LexProofs Alloc AllocProofs Mem MemProofs Api PureParse Dom Effect Steps CacheProofs Start Vocab MoveProofs
  Hist HistRun HistForest HistSim HistStep HistAll HistCache HistMany.

(** ** Marks on allocators that come and go *)
Lemma vol_back (V V' : vols) Dn Dv c s s' x : ext Dn Dv c s s' -> (forall b, @isvol V' b -> @isvol V b \/ snext s <= b) ->
  @vol V' s' x -> x < snext s -> @vol V s x.
Proof.
  intros X Sub [K|(A & ar & k & HV & HA & Hk & E)] L.
  - left. destruct (Sub x K); [auto|lia].
  - destruct (x_chunks _ _ _ _ _ X A ar k HA Hk) as [L'|(ar0 & k0 & K1 & K2 & K3 & _)]; [lia|].
    right. exists A, ar0, k0. split; [|split; auto; split; auto; congruence].
    destruct (Sub A HV) as [K|K]; auto. destruct (w_next s (x_wf0 _ _ _ _ _ X) A K) as [_ Q]. congruence.
Qed.
Lemma own_wfvol (V : vols) s : wfst s -> (forall b, isvol b -> alive s b) -> wfvol s.
Proof.
  intros W Al. constructor.
  - intros b Hb. destruct (N.lt_ge_cases b (snext s)) as [L|L]; auto. apply (w_next s W) in L as [_ L]. now apply Al in Hb.
  - intros A ar k HA Hk Hv. pose proof (Al _ Hv) as Av. unfold alive in Av. destruct (sallocs s (ckBlk k)) as [ar'|] eqn:E; [|now elim Av].
    destruct (w_ar s W _ _ E) as (_ & _ & l & El). assert (HI : In (ckBlk k) (map ckBlk ar')) by (rewrite El, in_app_iff; simpl; auto).
    apply in_map_iff in HI as (k' & E' & H'). replace A with (ckBlk k); auto. apply (w_own s W _ A ar' ar k' k); auto.
Qed.
Lemma inv_move (V V' : vols) Dn Dv c s s' F : @inv V s F -> ext Dn Dv c s s' -> (forall x, F x <> None -> ~ Dn x) ->
  (forall b, @isvol V' b -> @isvol V b \/ snext s <= b) -> (forall b, @isvol V' b -> alive s' b) -> @inv V' s' F.
Proof.
  intros [W R D Wv O] X Nd Sub Al. pose proof (x_wf _ _ _ _ _ X) as W'.
  assert (T : forall a t, @safetext V s a t -> @safetext V' s' a t).
  { intros a t H. pose proof (safetext_ext _ _ _ _ _ _ _ X H) as [H1 H2]. split; auto. intros i Hi. destruct (H2 i Hi) as [H3 _].
    split; auto. intro K. destruct H as [H Hn]. destruct (Hn i Hi) as [_ Q]. apply Q. apply (vol_back V V' _ _ _ _ _ _ X Sub K).
    destruct (nth_error t i) as [x|] eqn:E; [|apply nth_error_None in E; lia]. apply H, (bytes_next s _ _ W) in E. exact E. }
  constructor; auto.
  - intros a f Ha _. destruct (R a f Ha) as (n & Hn & Hr); [auto|]. exists n.
    split; [apply (x_nodes _ _ _ _ _ X); auto; apply Nd; congruence|]. destruct Hr. constructor; auto.
    + destruct (fkey f); cbn in *; auto. destruct r_key as (p & E1 & E2 & K). eauto.
    + assert (K : forall tt' bb, @rep_text V s n tt' bb -> @rep_text V' s' n tt' bb).
      { intros t0 b0 (E1 & E2 & p & E3 & K). split; auto. split; auto. eauto. }
      destruct (fvalue f); cbn in *; auto.
    + intros St b p Ev Ep. destruct (r_stop St b p Ev Ep) as (e & He & K). eauto.
  - now apply own_wfvol.
  - intros a Ha K. apply (O a Ha). apply (vol_back V V' _ _ _ _ _ _ X Sub K).
    destruct (F a) as [f|] eqn:E; [|congruence]. destruct (R a f E) as (n & Hn & _); [auto|]. eapply nodes_next; eauto.
Qed.
Lemma sim_alive {V : vols} R E nm F s A : sim R E nm F s -> In A (ea E) -> alive s A /\ ~ isvol A.
Proof.
  intros S HA. apply In_nth_error in HA as (k & Hk). destruct (nth_error (ru R) k) as [u|] eqn:Eu.
  - pose proof (sm_arena _ _ _ _ _ S k A u Hk Eu). tauto.
  - exfalso. apply nth_error_None in Eu. assert (k < length (ea E))%nat by (apply nth_error_Some; congruence).
    rewrite (sm_la _ _ _ _ _ S) in *. lia.
Qed.
(** What a group has survives what the calls of another one do. *)
Lemma sim_move (V V' : vols) R E nm F Dn Dv c s s' ru' : @sim V R E nm F s -> ext Dn Dv c s s' -> (forall x, F x <> None -> ~ Dn x) ->
  (forall v, In v (eh E) -> ~ Dv v) -> pays E (ru R) ru' c ->
  (forall b, @isvol V' b -> @isvol V b \/ snext s <= b) -> (forall b, @isvol V' b -> alive s' b) ->
  @sim V' (mkR (rG R) (rn R) (rh R) ru') E nm F s'.
Proof.
  intros S X Nd Nv [Pl Py] Sub Al. constructor; cbn [rG rn rh ru]; try apply S.
  - apply (inv_move V V' Dn Dv c s s' F); auto. apply S.
  - rewrite Pl. apply S.
  - intros h o k Hh. destruct (sm_handle _ _ _ _ _ S h o k Hh) as (v & A & H1 & H2 & H3 & H4). exists v, A. split; auto. split; auto. split; auto.
    apply (x_vals _ _ _ _ _ X); auto. apply Nv. eapply nth_error_In; eauto.
  - intros k A u' HA Hu'. destruct (nth_error (ru R) k) as [u|] eqn:Eu.
    2:{ exfalso. apply nth_error_None in Eu. assert (k < length ru')%nat by (apply nth_error_Some; congruence). lia. }
    destruct (sm_arena _ _ _ _ _ S k A u HA Eu) as (Av & NV & Us). split; [now apply (x_alive _ _ _ _ _ X)|]. split.
    + intro K. destruct (Sub A K) as [Q|Q]; auto. apply (w_next s (x_wf0 _ _ _ _ _ X)) in Q as [_ Q]. now apply Av.
    + pose proof (x_used _ _ _ _ _ X A). specialize (Py k A u u' HA Eu Hu'). lia.
Qed.

(** ** Releasing a group *)
Definition block_in (s : st) (l : list N) (b : N) : Prop := exists A ar k, In A l /\ sallocs s A = Some ar /\ In k ar /\ ckBlk k = b.
Record freed (s : st) (l : list N) (s' : st) : Prop := {
  fr_wf : wfst s';
  fr_next : snext s' = snext s;
  fr_cache : scache s' = scache s;
  fr_allocs : forall B, ~ In B l -> sallocs s' B = sallocs s B;
  fr_gone : forall B, In B l -> sallocs s' B = None;
  fr_keep : forall a, ~ block_in s l (fst a) -> sbytes s' a = sbytes s a /\ snodes s' a = snodes s a /\ svals s' a = svals s a /\ sstrs s' a = sstrs s a;
  fr_size : forall b n, sbsize s' b = Some n -> sbsize s b = Some n /\ ~ block_in s l b;
  fr_inv : forall (V : vols) F, inv s F -> (forall A, In A l -> isvol A) -> inv s' F
}.
Lemma release_all_wp : forall l s, wfst s -> NoDup l -> (forall A, In A l -> alive s A) -> wp (release_all l) s (fun _ => freed s l).
Proof.
  induction l as [|A l IH]; intros s W ND Al; cbn [release_all].
  - apply wp_ret. constructor; auto; [intros B []|]. intros b n H. split; auto. intros (A & ar & k & [] & _).
  - inversion ND as [|? ? NA ND']; subst.
    apply (wp_seq _ _ s (fun _ s1 => released s A s1)); [apply (release_wp s A W); apply Al; now left|]. intros _ s1 R1.
    assert (Al1 : forall B, In B l -> alive s1 B).
    { intros B HB. unfold alive. rewrite (rl_allocs _ _ _ R1); [apply Al; now right|]. intro K; rewrite K in HB; contradiction. }
    apply (wp_mono _ _ (fun _ => freed s1 l)); [apply (IH s1 (rl_wf _ _ _ R1) ND' Al1)|]. intros _ s2 [F1 F2 F3 F4 F5 F6 F7 F8].
    assert (Kb : forall b, (exists ar k, sallocs s A = Some ar /\ In k ar /\ ckBlk k = b) \/ block_in s1 l b -> block_in s (A :: l) b).
    { intros b [(ar & k & H1)|(B & ar & k & HB & H1 & H2)]; [exists A, ar, k; split; [now left|auto]|]. exists B, ar, k. split; [now right|]. split; auto.
      rewrite <- (rl_allocs _ _ _ R1); auto. intro K; rewrite K in HB; contradiction. }
    constructor; auto.
    + rewrite F2. apply R1.
    + rewrite F3. apply R1.
    + intros B HB. rewrite F4 by (intro K; apply HB; now right). apply (rl_allocs _ _ _ R1). intro K. apply HB. left. congruence.
    + intros B [HB|HB]; auto. rewrite <- HB, F4 by auto. exact (rl_gone _ _ _ R1).
    + intros a Na. destruct (F6 a) as (K1 & K2 & K3 & K4); [intro K; apply Na, Kb; auto|].
      destruct (rl_keep _ _ _ R1 a) as (Q1 & Q2 & Q3 & Q4); [intro K; apply Na, Kb; auto|].
      split; [congruence|]. split; [congruence|]. split; congruence.
    + intros b n Hb. destruct (F7 b n Hb) as [H1 H2].
      assert (Nb : ~ (exists ar k, sallocs s A = Some ar /\ In k ar /\ ckBlk k = b)).
      { intros (ar & k & K1 & K2 & <-). rewrite (rl_dead _ _ _ R1 ar k K1 K2) in H1. discriminate. }
      split; [now rewrite <- (rl_size _ _ _ R1 b Nb)|]. intros (B & ar & k & [<- | HB] & K1 & K2 & K3); [apply Nb; eauto|].
      apply H2. exists B, ar, k. split; auto. split; auto. rewrite (rl_allocs _ _ _ R1); auto. intro K; rewrite K in HB; contradiction.
    + intros V F I HV. apply F8; [|intros B HB; apply HV; now right]. apply (released_inv s F A s1); auto. apply HV. now left.
Qed.

Lemma inv_nodocs (V : vols) s : wfst s -> wfvol s -> inv s nodocs.
Proof. intros W Wv. constructor; auto; unfold nodocs; try discriminate; intros a; congruence. Qed.
Lemma sim_nothing (V : vols) s : wfst s -> wfvol s -> sim rstart estart (fun _ => (0, 0)) nodocs s.
Proof.
  intros W Wv. constructor; cbn [rstart estart rG rn rh ru eh ea]; auto.
  - now apply inv_nodocs.
  - constructor; unfold noforest; cbn; try discriminate. intros i j H. now elim H.
  - intros h o k H. destruct h; discriminate.
  - constructor.
  - constructor.
  - intros k A u H. destruct k; discriminate.
Qed.

(** ** The groups together *)
Definition others (Es : wenv) (g : nat) : vols.
Proof. exists (fun b => b <> 0 /\ exists j, j <> g /\ In b (ea (Es j))). intros [H _]. now apply H. Defined.
Record tied (W : world) (Es : wenv) (nms : nat -> N -> addr) (Fs : nat -> dom) (s : st) : Prop := {
  t_sim : forall g, @sim (others Es g) (wr W g) (Es g) (nms g) (Fs g) s;
  t_F : forall i j x, i <> j -> Fs i x <> None -> Fs j x = None;
  t_h : forall i j v, i <> j -> In v (eh (Es i)) -> ~ In v (eh (Es j));
  t_off : forall g v, In v (eh (Es g)) -> ~ @vol (others Es g) s (fst v);
  t_cache : wdead W = false -> cache_live s /\ (forall A, homeof s A -> exists j, In j (wc W) /\ In A (ea (Es j))) /\
    (wsure W = true -> scache s <> Null)
}.
Lemma t_wf W Es nms Fs s : tied W Es nms Fs s -> wfst s.
Proof. intro T. exact (i_wf _ _ (sm_inv _ _ _ _ _ (t_sim _ _ _ _ _ T 0%nat))). Qed.
Lemma alive_nz s A : wfst s -> alive s A -> A <> 0.
Proof.
  intros W Al ->. unfold alive in Al. destruct (sallocs s 0) as [ar|] eqn:E; [|now elim Al]. destruct (w_ar s W _ _ E) as (_ & _ & l & El).
  assert (HI : In 0 (map ckBlk ar)) by (rewrite El, in_app_iff; simpl; auto). apply in_map_iff in HI as (k & E' & H').
  destruct (w_chunk s W _ _ k E H') as (_ & K & _). congruence.
Qed.
Lemma t_alive W Es nms Fs s g A : tied W Es nms Fs s -> In A (ea (Es g)) -> alive s A /\ A <> 0.
Proof.
  intros T HA. destruct (sim_alive _ _ _ _ _ _ (t_sim _ _ _ _ _ T g) HA) as [H _]. split; auto. eapply alive_nz; eauto. eapply t_wf; eauto.
Qed.
Lemma t_ea W Es nms Fs s i j A : tied W Es nms Fs s -> In A (ea (Es i)) -> In A (ea (Es j)) -> i = j.
Proof.
  intros T Hi Hj. destruct (Nat.eq_dec i j) as [E|Ne]; auto. exfalso.
  destruct (sim_alive _ _ _ _ _ _ (t_sim _ _ _ _ _ T i) Hi) as [H K]. apply K. split; [eapply alive_nz; eauto; eapply t_wf; eauto|eauto].
Qed.
Lemma updn_eq {X} (f : nat -> X) g x : updn f g x g = x. Proof. unfold updn. now rewrite Nat.eqb_refl. Qed.
Lemma updn_neq {X} (f : nat -> X) g x j : j <> g -> updn f g x j = f j.
Proof. intro H. unfold updn. destruct (Nat.eqb_spec j g); congruence. Qed.
Lemma inb_In g l : inb g l = true <-> In g l.
Proof.
  unfold inb. rewrite existsb_exists. split.
  - intros (x & H & E). apply Nat.eqb_eq in E. congruence.
  - intro H. exists g. split; auto. apply Nat.eqb_refl.
Qed.

Lemma wr_eta R : mkR (rG R) (rn R) (rh R) (ru R) = R. Proof. now destruct R. Qed.
Lemma vals_next s a x : wfst s -> svals s a = Some x -> fst a < snext s.
Proof.
  intros W H. destruct (sbsize s (fst a)) as [n|] eqn:E; [eapply size_next; eauto|].
  apply (w_dead s W) in E as (_ & _ & E & _). congruence.
Qed.

(** A call of group [g]: what it leaves tied, given what the other groups are charged. *)
Lemma tied_do W Es nms Fs s g (need : N) R' E' nm' F' s' (wr' : nat -> rst) c :
  tied W Es nms Fs s -> @sim (others Es g) R' E' nm' F' s' -> ext (inF (Fs g)) (hs (Es g)) c s s' ->
  (forall x, F' x <> None -> Fs g x = None -> beyond s x) ->
  (forall v, In v (eh E') -> In v (eh (Es g)) \/ beyond s v /\ (forall A, @isvol (others Es g) A -> c A = 0)) ->
  (forall A, In A (ea E') -> In A (ea (Es g)) \/ snext s <= A) ->
  (forall A, In A (ea (Es g)) -> In A (ea E')) ->
  wr' g = R' ->
  (forall j, j <> g -> exists ru', wr' j = mkR (rG (wr W j)) (rn (wr W j)) (rh (wr W j)) ru' /\ pays (Es j) (ru (wr W j)) ru' c) ->
  forall wc' sure' dead',
  (dead' = false -> cache_live s' /\ (forall A, homeof s' A -> exists j, In j wc' /\ In A (ea (updn Es g E' j))) /\ (sure' = true -> scache s' <> Null)) ->
  tied (mkW wr' wc' sure' dead') (updn Es g E') (updn nms g nm') (updn Fs g F') s'.
Proof.
  intros T Sg X Nw Nh Na Kp Eg Hj wc' sure' dead' Ca. pose proof (x_wf _ _ _ _ _ X) as W'.
  assert (Al : forall j b, In b (ea (updn Es g E' j)) -> alive s' b).
  { intros j b Hb. destruct (Nat.eq_dec j g) as [->|Nj].
    - rewrite updn_eq in Hb. exact (proj1 (sim_alive _ _ _ _ _ _ Sg Hb)).
    - rewrite updn_neq in Hb by auto. apply (x_alive _ _ _ _ _ X). eapply t_alive; eauto. }
  assert (Alo : forall j b, @isvol (others (updn Es g E') j) b -> alive s' b) by (intros j b (_ & i & _ & Hi); eauto).
  assert (Sub : forall j b, @isvol (others (updn Es g E') j) b -> @isvol (others Es j) b \/ snext s <= b).
  { intros j b (Nz & i & Ni & Hi). destruct (Nat.eq_dec i g) as [->|Ng].
    - rewrite updn_eq in Hi. destruct (Na b Hi) as [K|K]; auto. left. split; eauto.
    - rewrite updn_neq in Hi by auto. left. split; eauto. }
  assert (Subg : forall b, @isvol (others (updn Es g E') g) b -> @isvol (others Es g) b).
  { intros b (Nz & i & Ni & Hi). rewrite updn_neq in Hi by auto. split; eauto. }
  assert (Sj : forall j, j <> g -> @sim (others (updn Es g E') j) (wr' j) (Es j) (nms j) (Fs j) s').
  { intros j Nj. destruct (Hj j Nj) as (ru' & -> & Py).
    apply (sim_move (others Es j) _ (wr W j) (Es j) (nms j) (Fs j) (inF (Fs g)) (hs (Es g)) c s s'); [apply T|exact X| | |exact Py|apply Sub|apply Alo].
    - intros x Hx Hg. apply Hx. apply (t_F _ _ _ _ _ T g j); auto.
    - intros v Hv Hg. now apply (t_h _ _ _ _ _ T j g v). }
  assert (FF : forall j x, j <> g -> F' x <> None -> Fs j x = None).
  { intros j x Nj Hx. destruct (Fs g x) as [f|] eqn:E.
    - apply (t_F _ _ _ _ _ T g j); auto. congruence.
    - specialize (Nw x Hx E). pose proof (t_sim _ _ _ _ _ T j) as S. exact (@inv_beyond (others Es j) _ _ _ (sm_inv _ _ _ _ _ S) Nw). }
  assert (HH : forall j v, j <> g -> In v (eh E') -> ~ In v (eh (Es j))).
  { intros j v Nj Hv Hjv. destruct (Nh v Hv) as [K|[K _]].
    - apply (t_h _ _ _ _ _ T g j v); auto.
    - exact (beyond_fresh _ _ _ _ _ _ (t_sim _ _ _ _ _ T j) K Hjv). }
  constructor; cbn [wr wc wsure wdead].
  - intro j. destruct (Nat.eq_dec j g) as [->|Nj].
    + rewrite !updn_eq, Eg. rewrite <- (wr_eta R').
      apply (sim_move (others Es g) _ R' E' nm' F' none none zeroc s' s'); [exact Sg|apply ext_refl; auto|intros y _ []|intros y _ []|apply pays_zero|intros b Hb; left; apply Subg, Hb|apply Alo].
    + rewrite !updn_neq by auto. auto.
  - intros i j x Ne Hx. destruct (Nat.eq_dec i g) as [->|Ni], (Nat.eq_dec j g) as [->|Nj]; try congruence;
      rewrite ?updn_eq, ?updn_neq in * by auto; auto.
    + destruct (F' x) eqn:E; auto. exfalso. apply Hx. apply FF; congruence.
    + apply (t_F _ _ _ _ _ T i j); auto.
  - intros i j v Ne Hv. destruct (Nat.eq_dec i g) as [->|Ni], (Nat.eq_dec j g) as [->|Nj]; try congruence;
      rewrite ?updn_eq, ?updn_neq in * by auto; auto.
    + intro K. exact (HH i v Ni K Hv).
    + apply (t_h _ _ _ _ _ T i j); auto.
  - intros j v Hv K. destruct (Nat.eq_dec j g) as [->|Nj].
    + rewrite updn_eq in Hv. assert (K' : @vol (others Es g) s' (fst v)).
      { destruct K as [K|(A & ar & k & HV & K)]; [left; auto|right]. exists A, ar, k. auto. }
      destruct (Nh v Hv) as [Old|[B Zc]].
      * apply (t_off _ _ _ _ _ T g v Old). apply (vol_back _ _ _ _ _ _ _ _ X (fun b H => or_introl H) K').
        destruct (handles_in _ _ _ _ _ _ (t_sim _ _ _ _ _ T g) Old) as (x & Hx). eapply vals_next; eauto. eapply t_wf; eauto.
      * refine (beyond_vol _ _ _ _ _ _ X _ Zc B _ K').
        -- apply (i_vol _ _ (sm_inv _ _ _ _ _ (t_sim _ _ _ _ _ T g))).
        -- destruct (handles_in _ _ _ _ _ _ Sg Hv) as (x & Hx). intros (_ & _ & Q & _). congruence.
    + rewrite updn_neq in Hv by auto. apply (t_off _ _ _ _ _ T j v Hv). apply (vol_back _ _ _ _ _ _ _ _ X (Sub j) K).
      destruct (handles_in _ _ _ _ _ _ (t_sim _ _ _ _ _ T j) Hv) as (x & Hx). eapply vals_next; eauto. eapply t_wf; eauto.
  - exact Ca.
Qed.

Lemma pays_none E r (c : N -> N) : (forall A, In A (ea E) -> c A = 0) -> pays E r r c.
Proof. intro H. split; auto. intros k A u u' HA H1 H2. rewrite H by (eapply nth_error_In; eauto). replace u' with u by congruence. lia. Qed.
Lemma pays_some E r r' n (c : N -> N) : pays E r r' (fun _ => n) -> (forall A, In A (ea E) -> c A <= n) -> pays E r r' c.
Proof. intros [P1 P2] H. split; auto. intros k A u u' HA H1 H2. specialize (P2 k A u u' HA H1 H2). specialize (H A (nth_error_In _ _ HA)). lia. Qed.

Definition wpasses (e : event) (W : world) : nat := match e with Do g c => passes c (wr W g) | Release _ => 0 end.
Definition fits_world (jd : judge) (e : event) : Prop := forall W x W', wstep jd e W = Some (x, W') ->
  exists f0, (f0 <= wpasses e W)%nat /\ forall Es nms Fs s fuel, (f0 <= fuel)%nat -> tied W Es nms Fs s ->
    wp (estep fuel e Es) s (fun xe s' => fst xe = x /\ exists nms' Fs', tied W' (snd xe) nms' Fs' s').

Lemma wp_ran {X} (m : M X) s Q : wp m s Q -> wp m s (fun x s' => Q x s' /\ m s = Ok (x, s')).
Proof. intros (x & s' & E & H). exists x, s'. auto. Qed.

(** Texts the documents of the groups may refer to stay where they are. *)
Definition lasts (Es Es' : wenv) (s s' : st) (j : nat) : Prop :=
  forall a t, @safetext (others Es j) s a t -> @safetext (others Es' j) s' a t.
Lemma safe_move (V V' : vols) Dn Dv c s s' a t : ext Dn Dv c s s' -> (forall b, @isvol V' b -> @isvol V b \/ snext s <= b) ->
  @safetext V s a t -> @safetext V' s' a t.
Proof.
  intros X Sub H. pose proof (safetext_ext _ _ _ _ _ _ _ X H) as [H1 H2]. split; auto. intros i Hi. destruct (H2 i Hi) as [H3 _].
  split; auto. intro K. destruct H as [H Hn]. destruct (Hn i Hi) as [_ Q]. apply Q. apply (vol_back V V' _ _ _ _ _ _ X Sub K).
  destruct (nth_error t i) as [x|] eqn:E; [|apply nth_error_None in E; lia]. apply H, (bytes_next s _ _ (x_wf0 _ _ _ _ _ X)) in E. exact E.
Qed.
Lemma lasts_do Es g E' Dn Dv c s s' : ext Dn Dv c s s' -> (forall A, In A (ea E') -> In A (ea (Es g)) \/ snext s <= A) ->
  forall j, lasts Es (updn Es g E') s s' j.
Proof.
  intros X Na j a t. apply (safe_move _ _ _ _ _ _ _ _ _ X). intros b (Nz & i & Ni & Hi). destruct (Nat.eq_dec i g) as [->|Ng].
  - rewrite updn_eq in Hi. destruct (Na b Hi) as [K|K]; auto. left. split; eauto.
  - rewrite updn_neq in Hi by auto. left. split; eauto.
Qed.

(** A call of group [g], however it gets its arguments. *)
Lemma do_tied jd g c W x R' W' (m : M (answer * env)) Es nms Fs s : rstep jd c (wr W g) = Some (x, R') -> wstep jd (Do g c) W = Some (x, W') ->
  tied W Es nms Fs s ->
  ((cneed c <> 0 -> cache_ready (Es g) s (cneed c)) -> wp m s (@goes (others Es g) (cneed c) (Es g) (Fs g) s x R')) ->
  (cneed c = 0 -> keepsC m) -> (cneed c <> 0 -> forall xe s', m s = Ok (xe, s') -> snd xe = Es g) -> (sets_scratch c = true -> setsC m) ->
  wp m s (fun xe s' => fst xe = x /\ (exists nms' Fs', tied W' (updn Es g (snd xe)) nms' Fs' s') /\
    (exists Dn Dv cc, ext Dn Dv cc s s') /\ forall j, lasts Es (updn Es g (snd xe)) s s' j).
Proof.
  intros Er St T K Kc Ke Ks. cbn [wstep] in St. rewrite Er in St.
  assert (Al : forall (A : N) cc, mine (NN := cneed c) (Es g) s cc -> cc A <> 0 -> In A (ea (Es g)) \/ (homeof s A /\ cc A <= cneed c)).
  { intros A cc M. exact (M A). }
  destruct (N.eqb_spec (cneed c) 0) as [Z|Nz].
  - injection St as <-. eapply wp_mono; [apply wp_ran, K; now intro|].
    intros xe s' [(Hx & nm' & F' & Af) Ran]. split; [auto|].
    destruct Af as [Sg (cc & X & M) Nw Hs As (lh & la & Eh & Ea)]. specialize (fun A => Al A cc M). rewrite Z in Al.
    assert (Al0 : forall A, cc A <> 0 -> In A (ea (Es g))) by (intros A HA; destruct (Al A HA) as [Q|[_ Q]]; auto; lia).
    assert (Oth : forall A, @isvol (others Es g) A -> cc A = 0).
    { intros A HV. destruct (N.eq_dec (cc A) 0) as [E|E]; auto. exfalso. apply Al0 in E.
      exact (proj2 (sim_alive _ _ _ _ _ _ (t_sim _ _ _ _ _ T g) E) HV). }
    split; [|split; [eauto|exact (lasts_do Es g _ _ _ _ _ _ X As)]].
    eexists _, _. apply (tied_do W Es nms Fs s g 0 R' (snd xe) nm' F' s' _ cc); auto.
    + intros v Hv. destruct (Hs v Hv); auto.
    + intros A HA. rewrite Ea. apply in_or_app. now left.
    + apply updn_eq.
    + intros j Nj. exists (ru (wr W j)). rewrite updn_neq by auto. split; [now destruct (wr W j)|]. apply pays_none.
      intros A HA. apply Oth. split; [|eauto]. eapply t_alive; eauto.
    + intro Dd. destruct (t_cache _ _ _ _ _ T Dd) as (C1 & C2 & C3). pose proof (Kc Z s xe s' Ran) as Ec.
      split; [eapply live_after; eauto|]. split; [|rewrite Ec; auto].
      intros A Ho. destruct (home_after _ _ _ _ _ _ X C1 Ho) as [Q|[Q _]].
      * destruct (C2 A Q) as (j & Hj & HA). exists j. split; auto. destruct (Nat.eq_dec j g) as [->|Nj].
        -- rewrite updn_eq, Ea. apply in_or_app. now left.
        -- now rewrite updn_neq.
      * exfalso. destruct Ho as (p & z & Hp & _). congruence.
  - destruct (negb (wdead W) && _) eqn:Eb; [|discriminate]. injection St as <-. apply andb_prop in Eb as [Eb1 Eb2].
    apply Bool.negb_true_iff in Eb1. rewrite forallb_forall in Eb2. destruct (t_cache _ _ _ _ _ T Eb1) as (C1 & C2 & C3).
    assert (Ch : forall j, In j (wc W) -> j <> g -> exists R1, scratch (wr W j) (cneed c) = Some R1).
    { intros j Hj Nj. specialize (Eb2 j Hj). apply Bool.orb_prop in Eb2 as [Q|Q]; [apply Nat.eqb_eq in Q; congruence|].
      destruct (scratch (wr W j) (cneed c)) as [R1|]; [eauto|discriminate]. }
    assert (Rd : cache_ready (Es g) s (cneed c)).
    { split; auto. intros A Ho. destruct (C2 A Ho) as (j & Hj & HA). destruct (Nat.eq_dec j g) as [->|Nj]; auto. right.
      destruct (Ch j Hj Nj) as (R1 & E1). destruct (scratch_pays _ _ _ _ _ _ _ (fun _ => cneed c) (t_sim _ _ _ _ _ T j) E1) as (_ & _ & _ & Q); auto. lia. }
    eapply wp_mono; [apply wp_ran, K; auto|].
    intros xe s' [(Hx & nm' & F' & Af) Ran]. split; [auto|]. pose proof (Ke Nz xe s' Ran) as Ee.
    destruct Af as [Sg (cc & X & M) Nw Hs As _]. specialize (fun A => Al A cc M). rewrite Ee in *.
    assert (Oj : forall j A, j <> g -> In A (ea (Es j)) -> cc A <> 0 -> In j (wc W) /\ cc A <= cneed c).
    { intros j A Nj HA Hc. destruct (Al A Hc) as [Q|[Q Le]].
      - elim Nj. eapply t_ea; eauto.
      - split; auto. destruct (C2 A Q) as (i & Hi & HAi). rewrite (t_ea _ _ _ _ _ _ _ _ T HA HAi). auto. }
    split; [|split; [eauto|exact (lasts_do Es g _ _ _ _ _ _ X As)]].
    eexists _, _. apply (tied_do W Es nms Fs s g 0 R' (Es g) nm' F' s' _ cc); auto.
    + apply updn_eq.
    + intros j Nj. rewrite updn_neq by auto. destruct (inb j (wc W)) eqn:Ej.
      * apply inb_In in Ej. destruct (Ch j Ej Nj) as (R1 & E1). unfold charge. rewrite E1.
        destruct (scratch_pays _ _ _ _ _ _ _ (fun _ => cneed c) (t_sim _ _ _ _ _ T j) E1) as (ru' & -> & Py & _); [lia|]. exists ru'. split; auto.
        apply (pays_some _ _ _ _ _ Py). intros A HA. destruct (N.eq_dec (cc A) 0) as [Q|Q]; [lia|]. now apply (Oj j A).
      * exists (ru (wr W j)). split; [now destruct (wr W j)|]. apply pays_none. intros A HA. destruct (N.eq_dec (cc A) 0) as [Q|Q]; auto. exfalso.
        destruct (Oj j A Nj HA Q) as [Q1 _]. apply inb_In in Q1. congruence.
    + intros _. split; [eapply live_after; eauto|]. split.
      * intros A Ho. assert (Up : forall j, ea (updn Es g (Es g) j) = ea (Es j)).
        { intro j. destruct (Nat.eq_dec j g) as [->|Nj]; [now rewrite updn_eq|now rewrite updn_neq]. }
        destruct (home_after _ _ _ _ _ _ X C1 Ho) as [Q|[Q Qc]].
        -- destruct (C2 A Q) as (j & Hj & HA). exists j. rewrite Up. split; auto. destruct (wsure W); auto. now right.
        -- destruct (wsure W) eqn:Ew; [now elim C3|]. exists g. rewrite Up. split; [now left|].
           destruct (Al A Qc) as [Q1|[(p & z & Hp & _) _]]; auto. congruence.
      * intro Sr. apply Bool.orb_prop in Sr as [Sr|Sr].
        -- destruct (x_cache _ _ _ _ _ X) as [->|(Q & _)]; auto. now elim C3.
        -- exact (Ks Sr s xe s' Ran).
Qed.

Lemma sets_step fuel c E : sets_scratch c = true -> setsC (cstep fuel c E).
Proof. intro Sr. destruct c; try discriminate Sr. destruct k; try discriminate Sr; apply cstep_sets; auto. Qed.
Lemma step_do jd g c : correct jd -> fits_world jd (Do g c).
Proof.
  intros J W x W' St. assert (exists R', rstep jd c (wr W g) = Some (x, R')) as (R' & Er).
  { cbn [wstep] in St. destruct (rstep jd c (wr W g)) as [[x0 R']|] eqn:Er; [|discriminate]. exists R'.
    destruct (cneed c =? 0); [|destruct (_ && _); [|discriminate]]; injection St as <- _; reflexivity. }
  destruct (step jd J c _ _ _ Er) as (f0 & L0 & K). exists f0. split; [exact L0|]. intros Es nms Fs s fuel Hf T. cbn [estep].
  apply wp_bind. eapply wp_mono; [apply (do_tied jd g c W x R' W' (cstep fuel c (Es g)) Es nms Fs s Er St T)|].
  - apply (K (others Es g) (Es g) (nms g) (Fs g) s fuel Hf), T.
  - apply cstep_keeps.
  - intros Nz xe s' Ran. exact (cstep_env fuel c (Es g) s xe s' Nz Ran).
  - apply sets_step.
  - intros xe s' (Hx & Tr & _). apply wp_ret. cbn [fst snd]. auto.
Qed.

Lemma release_tied g W Es nms Fs s s' : tied W Es nms Fs s -> freed s (ea (Es g)) s' ->
  (exists nms' Fs', tied (mkW (updn (wr W) g rstart) (wc W) (wsure W) (wdead W || inb g (wc W))) (updn Es g estart) nms' Fs' s') /\
  forall j, j <> g -> lasts Es (updn Es g estart) s s' j.
Proof.
  intros T Fr. pose proof (t_wf _ _ _ _ _ T) as Wf. pose proof (fr_wf _ _ _ Fr) as W'.
  assert (Inb : forall j b, j <> g -> block_in s (ea (Es g)) b -> @vol (others Es j) s b).
  { intros j b Nj (A & ar & k & HA & H1 & H2). right. exists A, ar, k. split; [|auto]. split; [eapply t_alive; eauto|]. eauto. }
  assert (Sub : forall j b, @isvol (others (updn Es g estart) j) b -> @isvol (others Es j) b /\ ~ In b (ea (Es g)) /\ alive s' b).
  { intros j b (Nz & i & Ni & Hi). destruct (Nat.eq_dec i g) as [->|Ng]; [rewrite updn_eq in Hi; destruct Hi|].
    rewrite updn_neq in Hi by auto. split; [split; eauto|]. assert (Q : ~ In b (ea (Es g))) by (intro Q; apply Ng; eapply t_ea; eauto).
    split; auto. unfold alive. rewrite (fr_allocs _ _ _ Fr) by auto. eapply t_alive; eauto. }
  assert (Vs : forall j b, @vol (others (updn Es g estart) j) s' b -> @vol (others Es j) s b).
  { intros j b [K|(A & ar & k & HV & HA & K)]; [left; now apply Sub|right]. destruct (Sub j A HV) as (H1 & H2 & _).
    exists A, ar, k. split; auto. split; auto. rewrite <- (fr_allocs _ _ _ Fr); auto. }
  split.
  2:{ intros j Nj a t [H1 H2]. assert (Nb : forall i, (i < length t)%nat -> ~ block_in s (ea (Es g)) (fst (offset a (N.of_nat i)))).
    { intros i Hi K. apply (Inb j) in K; auto. now apply (H2 i Hi). }
    split.
    - intros i y E. assert (Hi : (i < length t)%nat) by (apply nth_error_Some; congruence). destruct (fr_keep _ _ _ Fr _ (Nb i Hi)) as (Q & _).
      rewrite Q. now apply H1.
    - intros i Hi. destruct (H2 i Hi) as [H3 H4]. split; [|intro K; apply H4, (Vs j), K]. intros (p & z & C1 & C2 & C3). apply H3. exists p, z.
      rewrite (fr_cache _ _ _ Fr) in C1. split; auto. split; auto. destruct (sbsize s' (fst p)) as [n|] eqn:Es'.
      + destruct (fr_keep _ _ _ Fr p) as (_ & _ & _ & Q); [|congruence]. now apply (fr_size _ _ _ Fr _ n).
      + apply (w_dead s' W') in Es' as (_ & _ & _ & Q). congruence. }
  exists (updn nms g (fun _ => (0, 0))), (updn Fs g nodocs).
  constructor; cbn [wr wc wsure wdead].
  - intro j. destruct (Nat.eq_dec j g) as [->|Nj].
    + rewrite !updn_eq. apply sim_nothing; auto. apply own_wfvol; auto. intros b Hb. now apply Sub in Hb.
    + rewrite !updn_neq by auto. pose proof (t_sim _ _ _ _ _ T j) as S.
      assert (I' : @inv (others Es j) s' (Fs j)).
      { apply (fr_inv _ _ _ Fr); [apply S|]. intros A HA. split; [eapply t_alive; eauto|]. eauto. }
      constructor; try apply S.
      * apply (inv_move (others Es j) _ none none zeroc s' s'); auto; [apply ext_refl; auto| |].
        -- intros b Hb. left. now apply Sub.
        -- intros b Hb. now apply Sub in Hb.
      * intros h o k Hh. destruct (sm_handle _ _ _ _ _ S h o k Hh) as (v & A & H1 & H2 & H3 & H4). exists v, A. split; auto. split; auto. split; auto.
        destruct (fr_keep _ _ _ Fr v) as (_ & _ & Q & _); [|congruence]. intro Q. apply (t_off _ _ _ _ _ T j v); [eapply nth_error_In; eauto|]. apply Inb; auto.
      * intros k A u HA Hu. assert (NA : ~ In A (ea (Es g))) by (intro Q; apply Nj; eapply t_ea; eauto; eapply nth_error_In; eauto).
        destruct (sm_arena _ _ _ _ _ S k A u HA Hu) as (Q1 & Q2 & Q3). unfold alive, usedA in *. rewrite (fr_allocs _ _ _ Fr) by auto.
        split; auto. split; auto. intro Q. now apply Sub in Q.
  - intros i j y Ne Hy. destruct (Nat.eq_dec i g) as [->|Ni], (Nat.eq_dec j g) as [->|Nj]; try congruence;
      rewrite ?updn_eq, ?updn_neq in * by auto; auto.
    + now elim Hy.
    + apply (t_F _ _ _ _ _ T i j); auto.
  - intros i j v Ne Hv. destruct (Nat.eq_dec i g) as [->|Ni], (Nat.eq_dec j g) as [->|Nj]; try congruence;
      rewrite ?updn_eq, ?updn_neq in * by auto; auto.
    + apply (t_h _ _ _ _ _ T i j); auto.
  - intros j v Hv K. destruct (Nat.eq_dec j g) as [->|Nj]; [rewrite updn_eq in Hv; destruct Hv|].
    rewrite updn_neq in Hv by auto. apply (t_off _ _ _ _ _ T j v Hv). now apply Vs.
  - intro Dd. apply Bool.orb_false_iff in Dd as [Dd Ng]. destruct (t_cache _ _ _ _ _ T Dd) as (C1 & C2 & C3).
    assert (Sp : forall p, scache s = At p -> sstrs s' p = sstrs s p).
    { intros p Ep. unfold cache_live in C1. pose proof (w_cache s Wf) as Wc. rewrite Ep in C1, Wc. destruct (sstrs s p) as [z|] eqn:Ez; [|now elim C1].
      destruct (fr_keep _ _ _ Fr p) as (_ & _ & _ & Q); [|congruence]. intros (A & ar & k & HA & H1 & H2 & H3).
      destruct Wc as ((ar' & k' & K1 & K2 & K3 & _) & _). destruct (C2 (zA z)) as (j & Hj & Hz); [exists p, z; auto|].
      assert (A = zA z) by (apply (w_own s Wf A (zA z) ar ar' k k'); auto; congruence). subst A.
      rewrite (t_ea _ _ _ _ _ _ _ _ T Hz HA) in Hj. apply inb_In in Hj. congruence. }
    rewrite (fr_cache _ _ _ Fr). split; [|split; auto].
    + unfold cache_live in *. rewrite (fr_cache _ _ _ Fr). destruct (scache s) as [| |p]; auto. now rewrite Sp.
    + intros A (p & z & H1 & H2 & H3). rewrite (fr_cache _ _ _ Fr) in H1. rewrite Sp in H2 by auto.
      destruct (C2 A) as (j & Hj & HA); [exists p, z; auto|]. exists j. split; auto. rewrite updn_neq; auto. intros ->. apply inb_In in Hj. congruence.
Qed.
Lemma step_release jd g : fits_world jd (Release g).
Proof.
  intros W x W' St. injection St as <- <-. exists 0%nat. split; [apply Nat.le_0_l|]. intros Es nms Fs s fuel _ T. cbn [estep].
  pose proof (t_wf _ _ _ _ _ T) as Wf.
  apply (wp_seq _ _ s (fun _ => freed s (ea (Es g)))).
  { apply release_all_wp; auto; [apply (t_sim _ _ _ _ _ T g)|]. intros A HA. eapply t_alive; eauto. }
  intros _ s' Fr. apply wp_ret. cbn [fst snd]. split; auto. exact (proj1 (release_tied g W Es nms Fs s s' T Fr)).
Qed.

(** The most passes a loop makes in a program. *)
Fixpoint wmost (jd : judge) (es : list event) (W : world) : nat :=
  match es with
  | [] => 0
  | e :: r => match wstep jd e W with Some (_, W1) => Nat.max (wpasses e W) (wmost jd r W1) | None => 0 end
  end.
Theorem world_most jd : correct jd -> forall es W rs W', wrun jd es W = Some (rs, W') ->
  forall Es nms Fs s fuel, (wmost jd es W <= fuel)%nat -> tied W Es nms Fs s ->
    wp (erun fuel es Es) s (fun re s' => fst re = rs /\ exists nms' Fs', tied W' (snd re) nms' Fs' s').
Proof.
  intros J es. induction es as [|e es IH]; intros W rs W' H; cbn in H.
  - injection H as <- <-. intros Es nms Fs s fuel _ T. apply wp_ret. cbn. eauto.
  - cbn [wmost]. destruct (wstep jd e W) as [[x W1]|] eqn:E1; [|discriminate]. destruct (wrun jd es W1) as [[xs W2]|] eqn:E2; [|discriminate]. injection H as <- <-.
    assert (Fe : fits_world jd e) by (destruct e; [now apply step_do|apply step_release]).
    destruct (Fe W x W1 E1) as (f1 & L1 & K1). pose proof (IH W1 xs W2 E2) as K2.
    intros Es nms Fs s fuel Hf T. cbn [erun]. apply wp_bind. eapply wp_mono; [apply (K1 Es nms Fs s fuel); [lia|auto]|].
    intros xe s1 (Hx & nm1 & F1 & T1). apply wp_bind. eapply wp_mono; [apply (K2 (snd xe) nm1 F1 s1 fuel); [lia|auto]|].
    intros re s2 (Hr & nm2 & F2 & T2). apply wp_ret. cbn [fst snd]. split; [congruence|]. eauto.
Qed.
Theorem world_run jd : correct jd -> forall es W rs W', wrun jd es W = Some (rs, W') ->
  exists f0, forall Es nms Fs s fuel, (f0 <= fuel)%nat -> tied W Es nms Fs s ->
    wp (erun fuel es Es) s (fun re s' => fst re = rs /\ exists nms' Fs', tied W' (snd re) nms' Fs' s').
Proof. intros J es W rs W' H. exists (wmost jd es W). exact (world_most jd J es W rs W' H). Qed.
Lemma start_tied : tied wstart wenv0 (fun _ _ => (0, 0)) (fun _ => nodocs) init.
Proof.
  assert (W : wfst init) by (exact (i_wf _ _ (sm_inv _ _ _ _ _ start_sim))).
  assert (Nv : forall g b, ~ @isvol (others wenv0 g) b) by (intros g b (_ & j & _ & [])).
  constructor; cbn [wstart wr wc wsure wdead]; auto.
  - intro g. apply sim_nothing; auto. apply own_wfvol; auto. intros b Hb. now apply Nv in Hb.
  - intros _. split; [exact Logic.I|]. split; [|discriminate]. intros A (p & z & H & _). discriminate.
Qed.
Theorem many_most jd es rs W : correct jd -> wrun jd es wstart = Some (rs, W) ->
  forall fuel, (wmost jd es wstart <= fuel)%nat -> exists Es s, erun fuel es wenv0 init = Ok ((rs, Es), s) /\ forall g, represents (wr W g) (Es g) s.
Proof.
  intros J H fuel Hf.
  destruct (world_most jd J es wstart rs W H wenv0 _ _ init fuel Hf start_tied) as ([rs' Es] & s & Er & Hr & nms & Fs & T).
  cbn [fst snd] in *. subst rs'. exists Es, s. split; auto. intro g. exists (nms g), (Fs g). rewrite <- (wr_eta (wr W g)).
  apply (sim_move (others Es g) novols _ _ _ _ none none zeroc s s); [apply T|apply ext_refl; eapply t_wf; eauto|intros y _ []|intros y _ []|apply pays_zero|intros b []|intros b []].
Qed.
Theorem many jd es rs W : correct jd -> wrun jd es wstart = Some (rs, W) ->
  exists f0, forall fuel, (f0 <= fuel)%nat -> exists Es s, erun fuel es wenv0 init = Ok ((rs, Es), s) /\ forall g, represents (wr W g) (Es g) s.
Proof. intros J H. exists (wmost jd es wstart). exact (many_most jd es rs W J H). Qed.

(** ** Non-interference: a group that is not released gets the answers it would get alone *)
Definition calls (g : nat) : list event -> list call :=
  flat_map (fun e => match e with Do j c => if Nat.eqb j g then [c] else [] | Release _ => [] end).
Fixpoint pick (g : nat) (es : list event) (rs : list answer) : list answer :=
  match es, rs with
  | Do j _ :: es', x :: rs' => if Nat.eqb j g then x :: pick g es' rs' else pick g es' rs'
  | Release _ :: es', _ :: rs' => pick g es' rs'
  | _, _ => []
  end.

Notation low := (Forall2 N.le).
Lemma low_refl u : low u u. Proof. induction u; constructor; auto. lia. Qed.
Lemma low_app u u0 : low u0 u -> low (u0 ++ [0]) (u ++ [0]).
Proof. intro H. apply Forall2_app; auto. constructor; auto. lia. Qed.
Lemma low_len u u0 : low u0 u -> length u0 = length u.
Proof. induction 1; cbn; auto. Qed.
Lemma low_setn A n : forall u u0 a, low u0 u -> nth_error u A = Some a -> exists a0, nth_error u0 A = Some a0 /\ a0 <= a /\ low (setn A (a0 + n) u0) (setn A (a + n) u).
Proof.
  induction A as [|A IH]; intros u u0 a H E; destruct H as [|b0 b u0 u Hb H]; try discriminate; cbn in E.
  - injection E as ->. exists b0. cbn. split; auto. split; auto. constructor; auto. lia.
  - destruct (IH u u0 a H E) as (a0 & K1 & K2 & K3). exists a0. cbn. split; auto.
Qed.
Lemma spend_low G m hh u u0 A n R1 : low u0 u -> spend (mkR G m hh u) A n = Some R1 ->
  exists u1 u01, R1 = mkR G m hh u1 /\ spend (mkR G m hh u0) A n = Some (mkR G m hh u01) /\ low u01 u1.
Proof.
  intros H E. unfold spend in *. cbn [rG rn rh ru] in *. destruct (nth_error u A) as [a|] eqn:Ea; [|discriminate].
  destruct (low_setn A n u u0 a H Ea) as (a0 & -> & Le & K). destruct (N.leb_spec (a + n) two30) as [L|L]; [|discriminate].
  injection E as <-. destruct (N.leb_spec (a0 + n) two30) as [L0|L0]; [|lia]. eauto.
Qed.
Lemma low_map n u u0 : low u0 u -> low (map (fun a => a + n) u0) (map (fun a => a + n) u).
Proof. induction 1; cbn; constructor; auto. lia. Qed.
Lemma low_up n u u0 : low u0 u -> low u0 (map (fun a => a + n) u).
Proof. induction 1; cbn; constructor; auto. lia. Qed.
Lemma scratch_low G m hh u u0 n R1 : low u0 u -> scratch (mkR G m hh u) n = Some R1 ->
  exists u1 u01, R1 = mkR G m hh u1 /\ scratch (mkR G m hh u0) n = Some (mkR G m hh u01) /\ low u01 u1.
Proof.
  intros H E. unfold scratch in *. cbn [rG rn rh ru] in *. destruct (forallb _ u) eqn:Ef; [|discriminate]. injection E as <-.
  assert (K : forallb (fun a => a + n <=? two30) u0 = true).
  { revert Ef. induction H; cbn; auto. intro Q. apply andb_prop in Q as [Q1 Q2]. apply N.leb_le in Q1.
    destruct (N.leb_spec (x + n) two30); [auto|lia]. }
  rewrite K. eexists _, _. split; [reflexivity|]. split; [reflexivity|]. now apply low_map.
Qed.
Ltac lowstep H :=
  cbn [rG rn rh ru] in H |- *; cbv beta zeta in H |- *;
  match type of H with
  | match (match (match ?y with _ => _ end) with _ => _ end) with _ => _ end = Some _ => destruct y; try discriminate H
  | match (match ?y with _ => _ end) with _ => _ end = Some _ => destruct y; try discriminate H
  | match ?x with _ => _ end = Some _ =>
    lazymatch x with
    | spend _ _ _ => let Sp := fresh "Sp" in let u1 := fresh "u" in let u01 := fresh "u0" in let E := fresh "E" in let L := fresh "L" in let R1 := fresh "R" in
        destruct x as [R1|] eqn:Sp; [|discriminate H];
        match goal with Lo : low _ _ |- _ => destruct (spend_low _ _ _ _ _ _ _ _ Lo Sp) as (u1 & u01 & -> & E & L); rewrite E; clear E Sp Lo end
    | scratch _ _ => let Sp := fresh "Sp" in let u1 := fresh "u" in let u01 := fresh "u0" in let E := fresh "E" in let L := fresh "L" in let R1 := fresh "R" in
        destruct x as [R1|] eqn:Sp; [|discriminate H];
        match goal with Lo : low _ _ |- _ => destruct (scratch_low _ _ _ _ _ _ _ Lo Sp) as (u1 & u01 & -> & E & L); rewrite E; clear E Sp Lo end
    | context [plant ?a ?b ?c] => destruct (plant a b c) as [[? ?] ?]
    | _ => destruct x; try discriminate H
    end
  | Some (_, match ?y with _ => _ end) = Some _ => destruct y
  | Some (_, mkR (rG (match ?y with _ => _ end)) _ _ _) = Some _ => destruct y
  | Some (_, mkR _ (rn (match ?y with _ => _ end)) _ _) = Some _ => destruct y
  | Some _ = Some _ => injection H as <- <-; cbn [rG rn rh ru]; eexists; split; [reflexivity|]; auto using low_app
  end.

Lemma rstep_low jd c G m hh u u0 x R' : low u0 u -> rstep jd c (mkR G m hh u) = Some (x, R') ->
  exists u', rstep jd c (mkR G m hh u0) = Some (x, mkR (rG R') (rn R') (rh R') u') /\ low u' (ru R').
Proof.
  intros L H. destruct c; [cbn [rstep rG rn rh ru] in *; injection H as <- <-; rewrite <- (low_len _ _ L); eexists; split; [reflexivity|now apply low_app]|..]; cbn [rstep] in H |- *;
  unfold look, reads_as, give, copy_text, set_if, seal_if, sealed, key_if, key_allowed, assign, assign_key, with_handle, with_forest, new_value, duplicate, checked, child_by, keys_ok in H |- *;
  repeat lowstep H.
Qed.
Theorem alone_ref jd g : forall es W rs W' u0, wrun jd es W = Some (rs, W') -> ~ In (Release g) es -> low u0 (ru (wr W g)) ->
  exists u', rrun jd (calls g es) (mkR (rG (wr W g)) (rn (wr W g)) (rh (wr W g)) u0) =
    Some (pick g es rs, mkR (rG (wr W' g)) (rn (wr W' g)) (rh (wr W' g)) u') /\ low u' (ru (wr W' g)).
Proof.
  induction es as [|e es IH]; intros W rs W' u0 H Nr Lo; cbn [wrun] in H.
  - injection H as <- <-. cbn. eauto.
  - destruct (wstep jd e W) as [[x W1]|] eqn:E1; [|discriminate]. destruct (wrun jd es W1) as [[xs W2]|] eqn:E2; [|discriminate]. injection H as <- <-.
    assert (Nr' : ~ In (Release g) es) by (intro K; apply Nr; now right).
    assert (Same : forall (Q : low u0 (ru (wr W1 g))) (G1 : rG (wr W1 g) = rG (wr W g)) (G2 : rn (wr W1 g) = rn (wr W g)) (G3 : rh (wr W1 g) = rh (wr W g)),
      exists u', rrun jd (calls g es) (mkR (rG (wr W g)) (rn (wr W g)) (rh (wr W g)) u0) =
    Some (pick g es xs, mkR (rG (wr W2 g)) (rn (wr W2 g)) (rh (wr W2 g)) u') /\ low u' (ru (wr W2 g))).
    { intros Q <- <- <-. exact (IH W1 xs W2 u0 E2 Nr' Q). }
    destruct e as [j c|j]; cbn [wstep] in E1; cbn [calls flat_map pick].
    + destruct (rstep jd c (wr W j)) as [[x0 R']|] eqn:Er; [|discriminate].
      destruct (Nat.eqb_spec j g) as [->|Nj].
      * assert (x0 = x /\ wr W1 g = R') as [-> EW].
        { destruct (cneed c =? 0); [injection E1 as <- <-|destruct (negb (wdead W) && _); [injection E1 as <- <-|discriminate]]; cbn [wr]; rewrite updn_eq; auto. }
        rewrite <- (wr_eta (wr W g)) in Er. destruct (rstep_low jd c _ _ _ _ u0 x R' Lo Er) as (u1 & K1 & K2).
        cbn [app rrun]. rewrite K1. rewrite <- EW in *. destruct (IH W1 xs W2 u1 E2 Nr' K2) as (u' & K3 & K4). fold (calls g es). rewrite K3. eauto.
      * cbn [app]. fold (calls g es). destruct (cneed c =? 0).
        -- injection E1 as <- <-. apply Same; cbn [wr]; rewrite updn_neq; auto.
        -- destruct (negb (wdead W) && _); [|discriminate]. injection E1 as <- <-.
           assert (Q : forall R n, rG (charge R n) = rG R /\ rn (charge R n) = rn R /\ rh (charge R n) = rh R /\ (low u0 (ru R) -> low u0 (ru (charge R n)))).
           { intros R n. unfold charge, scratch. destruct (forallb _ (ru R)); auto. cbn. auto using low_up. }
           destruct (Q (wr W g) (cneed c)) as (Q1 & Q2 & Q3 & Q4).
           apply Same; cbn [wr]; rewrite updn_neq by auto; destruct (inb g (wc W)); auto.
    + injection E1 as <- <-. fold (calls g es). apply Same; cbn [wr]; rewrite updn_neq; auto; intros ->; apply Nr; now left.
Qed.
(** On the model: together with the others, and alone. *)
Theorem alone jd es rs W g : correct jd -> wrun jd es wstart = Some (rs, W) -> ~ In (Release g) es ->
  exists f0, forall fuel, (f0 <= fuel)%nat -> exists Es s E s',
    erun fuel es wenv0 init = Ok ((rs, Es), s) /\ crun fuel (calls g es) estart init = Ok ((pick g es rs, E), s').
Proof.
  intros J H Nr. destruct (many jd es rs W J H) as (f1 & K1).
  destruct (alone_ref jd g es wstart rs W [] H Nr (low_refl _)) as (u' & K2 & _).
  destruct (program jd (calls g es) _ _ J K2) as (f2 & K3). exists (Nat.max f1 f2). intros fuel Hf.
  destruct (K1 fuel) as (Es & s & E1 & _); [lia|]. destruct (K3 fuel) as (E & s' & E2 & _); [lia|]. eauto 8.
Qed.
