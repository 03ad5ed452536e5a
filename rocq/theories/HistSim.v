(** The reference semantics of Hist.v against the model of the code: what ties a state of the
    one to a state of the other, and how it survives the steps a call is made of. *)
From Verif Require Import Base Spec Lex LexProofs Alloc AllocProofs Mem MemProofs Api PureParse Dom Effect Steps StringifyProofs
  ParseTop CacheProofs SetProofs Update KeyProofs GetProofs CopyProofs LinkProofs MoveProofs Start Hist HistRun HistForest.

(** ** Freeing a block that came later *)
Lemma ext_free Dn Dv c s s' b : ext Dn Dv c s s' -> ublock s' b -> snext s <= b ->
  ext Dn Dv c s (mkSt (drop_blk (sbytes s') b) (drop_blk (snodes s') b) (drop_blk (svals s') b)
             (drop_blk (sstrs s') b) (sallocs s') (updN (sbsize s') b None) (snext s') (scache s') (scnt s')).
Proof.
  intros X U L. pose proof (x_wf0 _ _ _ _ _ X) as W. pose proof (userFree_wf s' b (x_wf _ _ _ _ _ X) U) as W'.
  assert (Lt : forall a : addr, ~ nothing s a -> fst a <> b).
  { intros a N E. apply N. apply (w_dead s W). rewrite E. now apply (w_next s W). }
  assert (Hd : forall T (m : addr -> option T) a, fst a <> b -> drop_blk m b a = m a).
  { intros T m a Na. unfold drop_blk. destruct (N.eqb_spec (fst a) b); congruence. }
  set (s2 := mkSt _ _ _ _ _ _ _ _ _) in *.
  constructor; auto.
  - intros A a n H. exact (x_inr _ _ _ _ _ X A a n H).
  - intros k n H. cbn. rewrite updN_neq; [now apply (x_size _ _ _ _ _ X)|]. intros ->. destruct (w_next s W b L) as [K _]. congruence.
  - intros A H. exact (x_alive _ _ _ _ _ X A H).
  - intros A ar k H. exact (x_chunks _ _ _ _ _ X A ar k H).
  - exact (x_next _ _ _ _ _ X).
  - intro A. exact (x_used _ _ _ _ _ X A).
  - intros A H. exact (x_other _ _ _ _ _ X A H).
  - intros a n H N. cbn. rewrite Hd; [now apply (x_nodes _ _ _ _ _ X)|]. apply Lt. intros (_ & K & _). congruence.
  - intros a n H N. cbn. rewrite Hd; [now apply (x_vals _ _ _ _ _ X)|]. apply Lt. intros (_ & _ & K & _). congruence.
  - intros a n H N. cbn. rewrite Hd; [now apply (x_bytes _ _ _ _ _ X)|]. apply Lt. intros (K & _). congruence.
  - intros a n H N. cbn. rewrite Hd; [now apply (x_strs _ _ _ _ _ X)|]. apply Lt. intros (_ & _ & _ & K). congruence.
  - destruct (x_cache _ _ _ _ _ X) as [E|(E & p & A & E1 & E2 & E3 & E4 & E5)]; [left; exact E|right]. split; auto. exists p, A.
    split; auto. split; auto. split; auto. split; auto. cbn. rewrite Hd; auto. intros <-. apply (proj1 (proj2 U)). eapply inrA_own; eauto.
  - intros a (p & z & E1 & E2 & E3). apply (x_cacheR _ _ _ _ _ X). cbn in E1, E2. unfold drop_blk in E2.
    destruct (fst p =? b); [discriminate|]. exists p, z. auto.
  - intros p H. cbn. rewrite Hd; [now apply (x_live _ _ _ _ _ X)|]. apply Lt. intros (_ & _ & _ & K). congruence.
Qed.

Lemma nth_setn {X} n (x : X) : forall l k, nth_error (setn n x l) k = if Nat.eqb k n then option_map (fun _ => x) (nth_error l k) else nth_error l k.
Proof.
  induction n as [|n IH]; intros [|y l] [|k]; cbn; auto; try (now destruct k); try (now destruct (Nat.eqb k n)).
Qed.
Lemma length_setn {X} n (x : X) l : length (setn n x l) = length l.
Proof. revert l. induction n as [|n IH]; intros [|y l]; cbn; auto. Qed.

(** What the call at hand may take from the allocator the library's scratch string is in. *)
Class need := needN : N.

Section Sim.
Context {VV : vols} {NN : need}.

Record sim (R : rst) (E : env) (nm : N -> addr) (F : dom) (s : st) : Prop := {
  sm_inv : inv s F;
  sm_fs : fsim nm (rn R) (rG R) F;
  sm_lh : length (eh E) = length (rh R);
  sm_la : length (ea E) = length (ru R);
  sm_handle : forall h o k, nth_error (rh R) h = Some (o, k) -> exists v A, nth_error (eh E) h = Some v /\ nth_error (ea E) k = Some A /\
    svals s v = Some (mkVal (wopt (option_map nm o)) A) /\ forall i, o = Some i -> i < rn R;
  sm_ndh : NoDup (eh E);
  sm_nda : NoDup (ea E);
  sm_arena : forall k A u, nth_error (ea E) k = Some A -> nth_error (ru R) k = Some u -> alive s A /\ ~ isvol A /\ usedA s A <= u
}.

(** Allocators pay [c]. *)
Definition pays (E : env) (ru ru' : list N) (c : N -> N) : Prop :=
  length ru' = length ru /\
  forall k A u u', nth_error (ea E) k = Some A -> nth_error ru k = Some u -> nth_error ru' k = Some u' -> u + c A <= u'.

Lemma nd_inj {X} (l : list X) i j x : NoDup l -> nth_error l i = Some x -> nth_error l j = Some x -> i = j.
Proof. intros ND Hi Hj. apply (proj1 (NoDup_nth_error l) ND); [apply nth_error_Some; congruence|congruence]. Qed.

Lemma spend_pays R E nm F s k A n R1 : sim R E nm F s -> nth_error (ea E) k = Some A -> spend R k n = Some R1 ->
  exists ru', R1 = mkR (rG R) (rn R) (rh R) ru' /\ pays E (ru R) ru' (at_ A n) /\ usedA s A + n <= two30.
Proof.
  intros S Hk Sp. unfold spend in Sp. destruct (nth_error (ru R) k) as [u|] eqn:Eu; [|discriminate].
  destruct (N.leb_spec (u + n) two30) as [L|L]; [|discriminate]. injection Sp as <-. eexists.
  split; [reflexivity|]. pose proof (sm_arena _ _ _ _ _ S k A u Hk Eu) as (_ & _ & Us). split; [|lia].
  split; [apply length_setn|]. intros k' A' u1 u2 HA' H1 H2. rewrite nth_setn in H2. destruct (Nat.eqb_spec k' k) as [->|Nk].
  - rewrite Eu in H2. cbn in H2. injection H2 as <-. replace A' with A by congruence. rewrite at_eq. replace u1 with u by congruence. lia.
  - rewrite at_neq; [replace u2 with u1 by congruence; lia|]. intros ->. apply Nk. eapply (nd_inj (ea E)); eauto. apply S.
Qed.
Lemma scratch_pays R E nm F s n R1 (c : N -> N) : sim R E nm F s -> scratch R n = Some R1 -> (forall A, c A <= n) ->
  exists ru', R1 = mkR (rG R) (rn R) (rh R) ru' /\ pays E (ru R) ru' c /\ forall A, In A (ea E) -> usedA s A + n <= two30.
Proof.
  intros S Sc Hc. unfold scratch in Sc. destruct (forallb _ (ru R)) eqn:Ef; [|discriminate]. injection Sc as <-. eexists.
  split; [reflexivity|]. split; [split; [apply map_length|]|].
  - intros k A u u' _ H1 H2. rewrite nth_error_map, H1 in H2. injection H2 as <-. specialize (Hc A). lia.
  - intros A HA. apply In_nth_error in HA as (k & Hk).
    destruct (nth_error (ru R) k) as [u|] eqn:Eu.
    + pose proof (sm_arena _ _ _ _ _ S k A u Hk Eu) as (_ & _ & Us). rewrite forallb_forall in Ef.
      specialize (Ef u (nth_error_In _ _ Eu)). apply N.leb_le in Ef. lia.
    + exfalso. apply nth_error_None in Eu. assert (k < length (ea E))%nat by (apply nth_error_Some; congruence).
      rewrite (sm_la _ _ _ _ _ S) in *. lia.
Qed.
Lemma pays_zero E r : pays E r r zeroc.
Proof. split; auto. intros k A u u' _ H1 H2. unfold zeroc. replace u' with u by congruence. lia. Qed.
Lemma pays_less E r r' c c' : pays E r r' c' -> (forall A, c A <= c' A) -> pays E r r' c.
Proof. intros [H1 H2] L. split; auto. intros k A u u' HA K1 K2. specialize (H2 k A u u' HA K1 K2). specialize (L A). lia. Qed.

(** What a call may touch. *)
Definition homeof (s : st) (A : N) : Prop := exists p z, scache s = At p /\ sstrs s p = Some z /\ zA z = A.
Definition mine (E : env) (s : st) (c : N -> N) : Prop := forall A, c A <> 0 -> In A (ea E) \/ (homeof s A /\ c A <= needN).
Definition hs (E : env) : addr -> Prop := fun v => In v (eh E).

Record after (E : env) (F : dom) (s : st) (R' : rst) (E' : env) (nm' : N -> addr) (F' : dom) (s' : st) : Prop := {
  af_sim : sim R' E' nm' F' s';
  af_ext : exists c, ext (inF F) (hs E) c s s' /\ mine E s c;
  af_new : forall x, F' x <> None -> F x = None -> beyond s x;
  af_hs : forall v, In v (eh E') -> In v (eh E) \/ beyond s v;
  af_as : forall A, In A (ea E') -> In A (ea E) \/ snext s <= A;
  af_keep : exists lh la, eh E' = eh E ++ lh /\ ea E' = ea E ++ la
}.
Definition goes (E : env) (F : dom) (s : st) (x : answer) (R' : rst) (xe : answer * env) (s' : st) : Prop :=
  fst xe = x /\ exists nm' F', after E F s R' (snd xe) nm' F' s'.

(** *** Value objects *)
Lemma look_handle R E nm F s h w k : sim R E nm F s -> look R h = Some (w, k) ->
  exists v A, nth_error (eh E) h = Some v /\ nth_error (ea E) k = Some A /\ In A (ea E) /\ nth_error (rh R) h = Some (option_map fst w, k) /\
    handle s F v (wopt (option_map nm (option_map fst w))) A /\
    forall i t, w = Some (i, t) -> rG R i = Some t /\ exists f, F (nm i) = Some f /\ img nm t f.
Proof.
  intros S Lk. unfold look in Lk. destruct (nth_error (rh R) h) as [[o k']|] eqn:Eh; [|discriminate].
  destruct (sm_handle _ _ _ _ _ S h o k' Eh) as (v & A & Hv & HA & Sv & Bd).
  assert (Al : alive s A /\ ~ isvol A).
  { destruct (nth_error (ru R) k') as [u|] eqn:Eu.
    - pose proof (sm_arena _ _ _ _ _ S k' A u HA Eu). tauto.
    - exfalso. apply nth_error_None in Eu. assert (k' < length (ea E))%nat by (apply nth_error_Some; congruence).
      rewrite (sm_la _ _ _ _ _ S) in *. lia. }
  assert (IA : In A (ea E)) by (eapply nth_error_In; eauto).
  destruct o as [i|].
  - destruct (rG R i) as [t|] eqn:Ei; [|discriminate]. injection Lk as <- <-. exists v, A. cbn [option_map fst].
    destruct (fs_node _ _ _ _ (sm_fs _ _ _ _ _ S) i t Ei) as (f & Ff & Im).
    split; auto. split; auto. split; auto. split; auto. split.
    + split; auto. split; auto. right. exists (nm i). split; auto. congruence.
    + intros i' t' [= <- <-]. eauto.
  - injection Lk as <- <-. exists v, A. cbn [option_map]. split; auto. split; auto. split; auto. split; auto. split.
    + split; auto.
    + discriminate.
Qed.
Lemma hof_wp E h v s : nth_error (eh E) h = Some v -> forall X (m : addr -> M X) Q, wp (m v) s Q -> wp (x <- hof E h ;; m x) s Q.
Proof. intros H X m Q K. unfold hof. rewrite H. apply wp_bind, wp_ret. exact K. Qed.
Lemma aof_wp E h v s : nth_error (ea E) h = Some v -> forall X (m : N -> M X) Q, wp (m v) s Q -> wp (x <- aof E h ;; m x) s Q.
Proof. intros H X m Q K. unfold aof. rewrite H. apply wp_bind, wp_ret. exact K. Qed.

Lemma handles_in R E nm F s v : sim R E nm F s -> In v (eh E) -> exists x, svals s v = Some x.
Proof.
  intros S Hv. apply In_nth_error in Hv as (h & Hh). destruct (nth_error (rh R) h) as [[o k]|] eqn:Eh.
  - destruct (sm_handle _ _ _ _ _ S h o k Eh) as (v' & A & H1 & H2 & H3 & _). replace v with v' by congruence. eauto.
  - exfalso. apply nth_error_None in Eh. assert (h < length (eh E))%nat by (apply nth_error_Some; congruence). rewrite (sm_lh _ _ _ _ _ S) in *. lia.
Qed.
Lemma beyond_fresh R E nm F s v : sim R E nm F s -> beyond s v -> ~ In v (eh E).
Proof.
  intros S B Hv. destruct (handles_in _ _ _ _ _ _ S Hv) as (x & Hx).
  apply (beyond_nothing s v (i_wf _ _ (sm_inv _ _ _ _ _ S))) in B as (_ & _ & K & _). congruence.
Qed.

(** *** The next state *)
Lemma sim_next R E nm F s nm' F' s' G' n' rh' ru' Dn Dv c : sim R E nm F s -> inv s' F' -> fsim nm' n' G' F' ->
  (forall k, k < rn R -> nm' k = nm k) -> rn R <= n' -> ext Dn Dv c s s' -> pays E (ru R) ru' c -> length rh' = length (rh R) ->
  (forall h o k v, nth_error rh' h = Some (o, k) -> nth_error (eh E) h = Some v ->
     (nth_error (rh R) h = Some (o, k) /\ svals s' v = svals s v) \/
     (exists A, nth_error (ea E) k = Some A /\ svals s' v = Some (mkVal (wopt (option_map nm' o)) A) /\ forall i, o = Some i -> i < n')) ->
  sim (mkR G' n' rh' ru') E nm' F' s'.
Proof.
  intros S I' Fs' Ag Le X [Pl Py] Lh Hh. constructor; cbn [rG rn rh ru]; auto; try apply S.
  - rewrite Lh. apply S.
  - rewrite Pl. apply S.
  - intros h o k Eh. destruct (nth_error (eh E) h) as [v|] eqn:Ev.
    2:{ exfalso. apply nth_error_None in Ev. assert (h < length rh')%nat by (apply nth_error_Some; congruence). rewrite (sm_lh _ _ _ _ _ S) in Ev. lia. }
    destruct (Hh h o k v Eh Ev) as [[H1 H2]|(A & HA & HV & Bd)].
    + destruct (sm_handle _ _ _ _ _ S h o k H1) as (v' & A & V1 & V2 & V3 & V4). replace v' with v in * by congruence.
      exists v, A. split; auto. split; auto. split.
      * rewrite H2, V3. destruct o as [i|]; cbn; auto. rewrite Ag; auto.
      * intros i Hi. specialize (V4 i Hi). lia.
    + exists v, A. auto.
  - intros k A u' HA Hu'. destruct (nth_error (ru R) k) as [u|] eqn:Eu.
    2:{ exfalso. apply nth_error_None in Eu. assert (k < length ru')%nat by (apply nth_error_Some; congruence). lia. }
    destruct (sm_arena _ _ _ _ _ S k A u HA Eu) as (Al & NV & Us). split; [now apply (x_alive _ _ _ _ _ X)|]. split; auto.
    pose proof (x_used _ _ _ _ _ X A). specialize (Py k A u u' HA Eu Hu'). lia.
Qed.
Lemma sim_add R E nm F s o k v A : sim R E nm F s -> nth_error (ea E) k = Some A -> svals s v = Some (mkVal (wopt (option_map nm o)) A) ->
  ~ In v (eh E) -> (forall i, o = Some i -> i < rn R) -> sim (new_value R o k) (mkE (eh E ++ [v]) (ea E)) nm F s.
Proof.
  intros S HA HV NI Bd. constructor; cbn [new_value rG rn rh ru eh ea]; try apply S.
  - rewrite !app_length. cbn. now rewrite (sm_lh _ _ _ _ _ S).
  - intros h o' k' Eh. destruct (Nat.lt_ge_cases h (length (rh R))) as [L|L].
    + rewrite nth_error_app1 in Eh by auto. destruct (sm_handle _ _ _ _ _ S h o' k' Eh) as (v' & A' & V1 & V2 & V3 & V4).
      exists v', A'. split; [|auto]. rewrite nth_error_app1; auto. rewrite (sm_lh _ _ _ _ _ S). auto.
    + rewrite nth_error_app2 in Eh by auto. destruct (h - length (rh R))%nat as [|d] eqn:Ed; [|now destruct d]. cbn in Eh. injection Eh as <- <-.
      exists v, A. split; [|auto]. rewrite nth_error_app2 by (rewrite (sm_lh _ _ _ _ _ S); auto). now rewrite (sm_lh _ _ _ _ _ S), Ed.
  - apply NoDup_app_disj; [apply S|constructor; [intros []|constructor]|]. intros x Hx [<-|[]]. contradiction.
Qed.

Lemma mine_at E s A n : In A (ea E) -> mine E s (at_ A n).
Proof. intros H A' Nz. destruct (N.eq_dec A' A) as [->|Na]; [now left|]. rewrite at_neq in Nz by auto. now elim Nz. Qed.
Lemma mine_zero E s : mine E s zeroc. Proof. intros A H. now elim H. Qed.

Lemma after_gen R E nm F s nm' F' s' G' n' rh' ru' (Dn Dv : addr -> Prop) c : sim R E nm F s -> inv s' F' -> fsim nm' n' G' F' ->
  (forall k, k < rn R -> nm' k = nm k) -> rn R <= n' -> ext Dn Dv c s s' -> (forall x, Dn x -> inF F x) -> (forall x, Dv x -> hs E x) ->
  pays E (ru R) ru' c -> mine E s c -> length rh' = length (rh R) ->
  (forall h o k v, nth_error rh' h = Some (o, k) -> nth_error (eh E) h = Some v ->
     (nth_error (rh R) h = Some (o, k) /\ svals s' v = svals s v) \/
     (exists A, nth_error (ea E) k = Some A /\ svals s' v = Some (mkVal (wopt (option_map nm' o)) A) /\ forall i, o = Some i -> i < n')) ->
  (forall x, F' x <> None -> F x = None -> beyond s x) ->
  after E F s (mkR G' n' rh' ru') E nm' F' s'.
Proof.
  intros S I' Fs' Ag Le X Hn Hv P M Lh Hh Nw. constructor; auto.
  - eapply sim_next; eauto.
  - exists c. split; auto. eapply ext_wide; eauto.
  - exists [], []. now rewrite !app_nil_r.
Qed.
Lemma same_handles R E nm F s s' c Dn rh' : sim R E nm F s -> ext Dn none c s s' -> rh' = rh R ->
  forall h (o : option N) (k : nat) v, nth_error rh' h = Some (o, k) -> nth_error (eh E) h = Some v -> nth_error (rh R) h = Some (o, k) /\ svals s' v = svals s v.
Proof.
  intros S X -> h o k v H1 H2. split; auto.
  destruct (handles_in _ _ _ _ _ _ S (nth_error_In _ _ H2)) as (x & Hx). rewrite Hx. apply (x_vals _ _ _ _ _ X); auto.
Qed.
Lemma after_same R E nm F s ru' s' c : sim R E nm F s -> pays E (ru R) ru' c ->
  ext none none c s s' -> mine E s c -> after E F s (mkR (rG R) (rn R) (rh R) ru') E nm F s'.
Proof.
  intros S P X M. refine (after_gen R E nm F s nm F s' _ _ _ _ none none c S _ _ _ _ X _ _ P M _ _ _); auto.
  - eapply ext_inv; eauto. apply S.
  - apply S.
  - lia.
  - intros x [].
  - intros x [].
  - intros. left. eapply same_handles; eauto.
  - intros x H1 H2. contradiction.
Qed.
Lemma after_refl R E nm F s : sim R E nm F s -> after E F s R E nm F s.
Proof.
  intro S. destruct R as [G n hh u]. apply (after_same _ E nm F s u s zeroc S); auto using pays_zero, mine_zero. apply ext_refl, S.
Qed.
(** A value object more. *)
Lemma after_add R E nm F s nm' F' s' R1 o k v A : sim R E nm F s -> after E F s R1 E nm' F' s' -> nth_error (ea E) k = Some A ->
  svals s' v = Some (mkVal (wopt (option_map nm' o)) A) -> beyond s v -> (forall i, o = Some i -> i < rn R1) ->
  after E F s (new_value R1 o k) (mkE (eh E ++ [v]) (ea E)) nm' F' s'.
Proof.
  intros S [S1 Ex Nw Hs As Kp] HA HV B Bd. constructor; auto.
  - apply (sim_add R1 E nm' F' s' o k v A); auto. exact (beyond_fresh R E nm F s v S B).
  - cbn [eh]. intros v' Hv. apply in_app_iff in Hv as [Hv|[<-|[]]]; auto.
  - exists [v], []. now rewrite app_nil_r.
Qed.

(** A value object takes the content [j]. *)
Lemma fresh_number nm n G F : fsim nm n G F -> forall k, n <= k -> G k = None.
Proof. intros S k L. destruct (G k) as [t|] eqn:E; auto. apply (fs_lt _ _ _ _ S) in E. lia. Qed.
Lemma set_handles R E nm F s h (w0 : option N) k v A (nm' : N -> addr) i (n' : N) s' c Dn : sim R E nm F s ->
  nth_error (rh R) h = Some (w0, k) -> nth_error (eh E) h = Some v -> nth_error (ea E) k = Some A -> ext Dn (only v) c s s' ->
  forall o, svals s' v = Some (mkVal (wopt (option_map nm' o)) A) -> (forall i, o = Some i -> i < n') -> i = o ->
  forall h' o' k' v', nth_error (setn h (o, k) (rh R)) h' = Some (o', k') -> nth_error (eh E) h' = Some v' ->
     (nth_error (rh R) h' = Some (o', k') /\ svals s' v' = svals s v') \/
     (exists A, nth_error (ea E) k' = Some A /\ svals s' v' = Some (mkVal (wopt (option_map nm' o')) A) /\ forall i, o' = Some i -> i < n').
Proof.
  intros S Hh Hv HA X o HV Bd _ h' o' k' v' H1 H2. rewrite nth_setn in H1. destruct (Nat.eqb_spec h' h) as [->|Nh].
  - rewrite Hh in H1. cbn in H1. injection H1 as <- <-. right. exists A. replace v' with v by congruence. auto.
  - left. split; auto. destruct (handles_in _ _ _ _ _ _ S (nth_error_In _ _ H2)) as (x & Hx). rewrite Hx. apply (x_vals _ _ _ _ _ X); auto.
    intros ->. apply Nh. eapply (nd_inj (eh E)); eauto. apply S.
Qed.
Lemma wat_inF nm F wo : (forall i t, wo = Some (i, t) -> F (nm i) <> None) ->
  forall x, wat (wopt (option_map nm (option_map fst (wo : option (N * tnode))))) x -> inF F x.
Proof. intros H x Hx. destruct wo as [[i t]|]; cbn in Hx; [|discriminate Hx]. unfold inF. unfold wat in Hx. injection Hx as <-. eauto. Qed.

(** Noting that the numbers at [T] are followed by something that ends them. *)
Definition stop (f : fnode) : fnode := mkF (fkey f) (fvalue f) (fpar f) (fnext f) (fprev f) (fend f) true.
Definition marks (nm : N -> addr) (T : N -> bool) (G : forest) (k : nat) (x : addr) : bool :=
  existsb (fun i => T (N.of_nat i) && is_some (G (N.of_nat i)) && addr_eqb (nm (N.of_nat i)) x) (seq 0 k).
Definition mark (nm : N -> addr) (T : N -> bool) (G : forest) (k : nat) (F : dom) : dom := fun x =>
  if marks nm T G k x then option_map stop (F x) else F x.
Lemma marks_inv nm T G k x : marks nm T G k x = true -> exists i t, T i = true /\ G i = Some t /\ nm i = x.
Proof.
  intro H. apply existsb_exists in H as (i & _ & H). apply andb_prop in H as [H H3]. apply andb_prop in H as [H1 H2].
  destruct (G (N.of_nat i)) as [t|] eqn:E; [|discriminate]. exists (N.of_nat i), t. destruct (addr_eqb_spec (nm (N.of_nat i)) x); auto. discriminate.
Qed.
Lemma marks_at nm T G n i t : T i = true -> G i = Some t -> i < n -> marks nm T G (N.to_nat n) (nm i) = true.
Proof.
  intros H1 H2 H3. apply existsb_exists. exists (N.to_nat i). split; [apply in_seq; lia|].
  rewrite N2Nat.id, H1, H2, addr_eqb_refl. reflexivity.
Qed.
Lemma mark_some nm T G k F x f : F x = Some f -> exists f', mark nm T G k F x = Some f' /\ fkey f' = fkey f /\ fvalue f' = fvalue f /\
  fpar f' = fpar f /\ fnext f' = fnext f /\ fprev f' = fprev f /\ fend f' = fend f.
Proof. intro E. unfold mark. rewrite E. destruct (marks _ _ _ _ x); cbn; eexists; split; eauto 10. Qed.
Lemma mark_from nm T G k F x f' : mark nm T G k F x = Some f' -> exists f, F x = Some f /\ fkey f' = fkey f /\ fvalue f' = fvalue f /\
  fpar f' = fpar f /\ fnext f' = fnext f /\ fprev f' = fprev f /\ fend f' = fend f /\ (fstop f' = true -> fstop f = true \/ marks nm T G k x = true).
Proof.
  unfold mark. destruct (marks _ _ _ _ x) eqn:E.
  - destruct (F x) as [f|]; [|discriminate]. intros [= <-]. exists f. auto 12.
  - intro H. exists f'. auto 12.
Qed.
Lemma mark_chain nm T G k F a ob kids : chain F a ob kids -> chain (mark nm T G k F) a ob kids.
Proof.
  induction kids as [|c r IH]; cbn; auto. intros [(f & E & K) H]. split; auto.
  destruct (mark_some nm T G k F c f E) as (f' & E' & E1 & E2 & E3 & E4 & E5 & E6). exists f'. split; auto.
  rewrite E1, E3, E4. exact K.
Qed.
Lemma mark_inv nm T G k F s : inv s F -> (forall i t f n, T i = true -> G i = Some t -> F (nm i) = Some f -> snodes s (nm i) = Some n ->
  stopped_text s n (fvalue f)) -> inv s (mark nm T G k F).
Proof.
  intros [W Rp D V Of] H. constructor; auto.
  - intros x f' E Nx. destruct (mark_from _ _ _ _ _ _ _ E) as (f & Ff & E1 & E2 & E3 & E4 & E5 & E6 & E7).
    destruct (Rp x f Ff Nx) as (n & Sn & Rn). exists n. split; auto. destruct Rn as [K1 K2 K3 K4 K5 K6 K7].
    constructor; try (rewrite ?E1, ?E2, ?E3, ?E4, ?E5, ?E6; auto; fail).
    intro St. rewrite E2. destruct (E7 St) as [K|K]; auto. destruct (marks_inv _ _ _ _ _ K) as (i & t & T1 & T2 & <-). eauto.
  - intros x f' E. destruct (mark_from _ _ _ _ _ _ _ E) as (f & Ff & E1 & E2 & E3 & E4 & E5 & E6 & E7).
    destruct (D x f Ff) as [D1 D2]. rewrite E2, E3, E4, E5. split; auto. intros ob kids Vf. destruct (D1 ob kids Vf) as [Ch Ln]. split; auto.
    now apply mark_chain.
  - intros x Hx. apply Of. intro K. apply Hx. unfold mark. rewrite K. now destruct (marks _ _ _ _ x).
Qed.
Lemma mark_sim nm (T : N -> bool) (G : forest) n F : fsim nm n G F ->
  fsim nm n (fun x => if T x then option_map (fun t => mkT (tkey t) (tvalue t) (tpar t) (tprev t) (tend t) true) (G x) else G x)
    (mark nm T G (N.to_nat n) F).
Proof.
  intro S. match goal with |- fsim _ _ ?g _ => set (G' := g) end.
  assert (Inv : forall i t', G' i = Some t' -> exists t, G i = Some t /\ tkey t' = tkey t /\ tvalue t' = tvalue t /\ tpar t' = tpar t /\
    tprev t' = tprev t /\ tend t' = tend t /\ (tstop t' = true -> tstop t = true \/ T i = true)).
  { intros i t' E. unfold G' in E. destruct (T i); [|exists t'; auto 10]. destruct (G i) as [t|]; [|discriminate]. injection E as <-. exists t. auto 10. }
  assert (Fwd : forall i t, G i = Some t -> exists t', G' i = Some t' /\ tpar t' = tpar t).
  { intros i t E. unfold G'. rewrite E. destruct (T i); cbn; eexists; split; reflexivity. }
  constructor.
  - intros i t' E. destruct (Inv i t' E) as (t & E0 & A1 & A2 & A3 & _). destruct (fs_node _ _ _ _ S i t E0) as (f & Ff & B1 & B2 & B3).
    destruct (mark_some nm T G (N.to_nat n) F _ f Ff) as (f' & Ff' & C1 & C2 & C3 & _). exists f'. split; auto.
    split; [congruence|]. split; congruence.
  - intros i t' E. destruct (Inv i t' E) as (t & E0 & A1 & A2 & A3 & _). rewrite A3. apply (fs_lt _ _ _ _ S i t E0).
  - intros i i' H1 H2. apply (fs_inj _ _ _ _ S).
    + destruct (G' i) as [t|] eqn:E; [|congruence]. destruct (Inv i t E) as (t0 & K & _). congruence.
    + destruct (G' i') as [t|] eqn:E; [|congruence]. destruct (Inv i' t E) as (t0 & K & _). congruence.
  - intros i t' ob kids c E V Hc. destruct (Inv i t' E) as (t & E0 & A1 & A2 & A3 & _). rewrite A2 in V.
    destruct (fs_kids _ _ _ _ S i t ob kids c E0 V Hc) as (tc & Ec & Pc). destruct (Fwd c tc Ec) as (tc' & Ec' & Pc'). exists tc'. split; congruence.
  - intros i t' ob l c r tc' fc' E V Ec Pc Fc. destruct (Inv i t' E) as (t & E0 & _ & A2 & _). rewrite A2 in V.
    destruct (Inv c tc' Ec) as (tc & Ec0 & _ & _ & _ & A4 & _). destruct (mark_from _ _ _ _ _ _ _ Fc) as (fc & Ff & _ & _ & _ & _ & B5 & _).
    rewrite B5. eapply (fs_prev _ _ _ _ S i t ob l c r tc fc); eauto; congruence.
  - intros i t' ob kids f' E V Hk Te Fq. destruct (Inv i t' E) as (t & E0 & _ & A2 & _ & _ & A5 & _). rewrite A2 in V.
    destruct (mark_from _ _ _ _ _ _ _ Fq) as (f & Ff & _ & _ & _ & _ & _ & B6 & _). rewrite B6.
    eapply (fs_end _ _ _ _ S i t ob kids f); eauto; congruence.
  - intros i t' f' E Ts Ff'. destruct (Inv i t' E) as (t & E0 & _ & _ & _ & _ & _ & A6). unfold mark in Ff'.
    destruct (marks nm T G (N.to_nat n) (nm i)) eqn:Em.
    + destruct (F (nm i)); [|discriminate]. injection Ff' as <-. reflexivity.
    + destruct (A6 Ts) as [K|K]; [eapply (fs_stop _ _ _ _ S i t); eauto|].
      rewrite (marks_at nm T G n i t K E0 (proj1 (fs_lt _ _ _ _ S i t E0))) in Em. discriminate.
Qed.
Lemma after_marked E F s R' E' nm' F' s' (T : N -> bool) : after E F s R' E' nm' F' s' ->
  (forall i t f n, T i = true -> rG R' i = Some t -> F' (nm' i) = Some f -> snodes s' (nm' i) = Some n -> stopped_text s' n (fvalue f)) ->
  after E F s (with_forest R' (fun x => if T x then option_map (fun t => mkT (tkey t) (tvalue t) (tpar t) (tprev t) (tend t) true) (rG R' x) else rG R' x))
    E' nm' (mark nm' T (rG R') (N.to_nat (rn R')) F') s'.
Proof.
  intros [S X Nw Hs As Kp] H. constructor; auto.
  - destruct S as [I Fs S1 S2 S3 S4 S5 S6]. constructor; auto; cbn [with_forest rn rG rh ru].
    + apply mark_inv; auto.
    + now apply mark_sim.
  - intros x Hx. apply Nw. intro K. apply Hx. unfold mark. rewrite K. now destruct (marks _ _ _ _ x).
Qed.
Lemma after_parsed_new R E nm F s h wo k v A c j s' F' a ru' : sim R E nm F s -> look R h = Some (wo, k) ->
  nth_error (eh E) h = Some v -> nth_error (ea E) k = Some A -> pays E (ru R) ru' c -> mine E s c ->
  parsed s F v (wopt (option_map nm (option_map fst wo))) A c j s' F' a ->
  exists nm', after E F s (assign (mkR (rG R) (rn R) (rh R) ru') h wo j) E nm' F' s' /\
    forall k t, rG (assign (mkR (rG R) (rn R) (rh R) ru') h wo j) k = Some t -> rn R <= k \/ option_map fst wo = Some k ->
      nm' k = a \/ F (nm' k) = None /\ sbelow F' a (nm' k).
Proof.
  intros S Lk Hv HA P M Pd. destruct (look_handle _ _ _ _ _ _ _ _ S Lk) as (v0 & A0 & Hv0 & HA0 & _ & Hh & _ & Wt).
  replace v0 with v in * by congruence. replace A0 with A in * by congruence. clear Hv0 HA0 v0 A0.
  destruct Pd as [I' HV Ra At_ X Kp Old (f' & Fa & Root) Td TdO Cl Fr].
  assert (Hin : forall x, only v x -> hs E x) by (intros x ->; eapply nth_error_In; eauto).
  assert (HwF : forall x, wat (wopt (option_map nm (option_map fst wo))) x -> inF F x).
  { apply wat_inF. intros i t Ew. destruct (Wt i t Ew) as (_ & f & K & _). congruence. }
  destruct wo as [[i t]|]; cbn [option_map fst wopt] in *.
  - destruct (Wt i t eq_refl) as (Gi & f & Ff & Kf & Vf & Pf).
    assert (a = nm i) as -> by (destruct At_ as [K|[K _]]; congruence).
    rewrite Ff in Root. destruct Root as [SL Pv].
    pose proof (grow nm (rn R) (rG R) F F' i (rn R) (nm i) j (tkey t) (tpar t) (tprev t) f' (sm_fs _ _ _ _ _ S) (i_dom _ _ I')
      ltac:(lia) (proj1 (fs_lt _ _ _ _ (sm_fs _ _ _ _ _ S) i t Gi)) Old Fa Ra) as Gr.
    unfold assign. cbn [rn rG rh ru]. destruct (plant i j (rn R)) as [[pv g] n'].
    destruct Gr as (nm' & Ag & Ei & Le & Nw & Fs'); auto.
    { destruct SL as (K1 & _). congruence. }
    { destruct SL as (_ & K2 & _). congruence. }
    { rewrite Gi. split; auto. split; [|auto]. exists f. auto. }
    exists nm'. split.
    + refine (after_gen R E nm F s nm' F' s' _ _ _ _ _ _ c S I' Fs' Ag Le X HwF Hin P M eq_refl _ Fr).
      intros h' o' k' v' H1 H2. left. split; auto. rewrite Kp; auto. discriminate.
    + cbn [rG]. intros k' t' E' [Lk'|[= <-]]; [right; apply Nw; split; auto; eapply (fs_bound _ _ _ _ k' t' Fs'); eauto|now left].
  - destruct At_ as [K|[_ Ba]]; [discriminate|].
    assert (FaN : F a = None) by (eapply inv_beyond; eauto; apply S).
    rewrite FaN in Root. destruct Root as (K1 & K2 & K3 & K4).
    pose proof (grow nm (rn R) (rG R) F F' (rn R) (rn R + 1) a j None None true f' (sm_fs _ _ _ _ _ S) (i_dom _ _ I')
      ltac:(lia) ltac:(lia) Old Fa Ra K1 K2 Td Cl) as Gr.
    rewrite (fresh_number _ _ _ _ (sm_fs _ _ _ _ _ S) (rn R)) in Gr by lia.
    unfold assign. cbn [rn rG rh ru]. destruct (plant (rn R) j (rn R + 1)) as [[pv g] n'].
    destruct Gr as (nm' & Ag & Ea & Le & Nw & Fs'); [split; [lia|auto]|].
    exists nm'. unfold with_handle. cbn [rn rG rh ru]. rewrite Hh. cbn [option_map fst] in Hh. split.
    + refine (after_gen R E nm F s nm' F' s' _ _ _ _ _ _ c S I' Fs' Ag _ X HwF Hin P M _ _ Fr); [lia|apply length_setn|].
      eapply (set_handles R E nm F s h None k v A nm' (Some (rn R)) n' s' c); eauto.
      * cbn. congruence.
      * intros i [= <-]. lia.
    + cbn [rG]. intros k' t' E' [Lk'|K]; [|discriminate]. destruct (N.eq_dec k' (rn R)) as [->|Nk]; [now left|].
      right. apply Nw. split; [lia|]. eapply (fs_bound _ _ _ _ k' t' Fs'); eauto.
Qed.
Lemma after_parsed R E nm F s h wo k v A c j s' F' a ru' : sim R E nm F s -> look R h = Some (wo, k) ->
  nth_error (eh E) h = Some v -> nth_error (ea E) k = Some A -> pays E (ru R) ru' c -> mine E s c ->
  parsed s F v (wopt (option_map nm (option_map fst wo))) A c j s' F' a ->
  exists nm', after E F s (assign (mkR (rG R) (rn R) (rh R) ru') h wo j) E nm' F' s'.
Proof. intros S L Hv HA P M Pd. destruct (after_parsed_new R E nm F s h wo k v A c j s' F' a ru' S L Hv HA P M Pd) as (nm' & K & _). eauto. Qed.

(** The same where the numbers of the new document are followed by something that ends them. *)
Definition ended (F : dom) (s' : st) (F' : dom) (a : addr) : Prop := forall x f n, F' x = Some f -> x = a \/ F x = None /\ sbelow F' a x ->
  snodes s' x = Some n -> stopped_text s' n (fvalue f).
Lemma after_sealed R E nm F s h wo k v A c j s' F' a ru' : sim R E nm F s -> look R h = Some (wo, k) ->
  nth_error (eh E) h = Some v -> nth_error (ea E) k = Some A -> pays E (ru R) ru' c -> mine E s c ->
  parsed s F v (wopt (option_map nm (option_map fst wo))) A c j s' F' a -> ended F s' F' a ->
  exists nm' F2, after E F s (sealed (mkR (rG R) (rn R) (rh R) ru') wo (assign (mkR (rG R) (rn R) (rh R) ru') h wo j)) E nm' F2 s'.
Proof.
  intros S L Hv HA P M Pd En. destruct (after_parsed_new R E nm F s h wo k v A c j s' F' a ru' S L Hv HA P M Pd) as (nm' & K & Nw).
  set (R2 := assign _ h wo j) in *. unfold sealed. cbn [rn].
  set (T := fun x => (rn R <=? x) || match wo with Some (i, _) => x =? i | None => false end).
  exists nm', (mark nm' T (rG R2) (N.to_nat (rn R2)) F').
  apply (after_marked E F s R2 E nm' F' s' T K).
  intros i t f n Ti Gi Ff Sn. apply (En (nm' i) f n Ff); auto. apply (Nw i t Gi).
  unfold T in Ti. apply Bool.orb_true_iff in Ti as [Ti|Ti]; [left; now apply N.leb_le|right].
  destruct wo as [[i0 t0]|]; [|discriminate]. apply N.eqb_eq in Ti. now subst.
Qed.
Lemma after_keyed R E nm F s h wo k v A c kk s' F' a ru' : sim R E nm F s -> look R h = Some (wo, k) ->
  nth_error (eh E) h = Some v -> nth_error (ea E) k = Some A -> pays E (ru R) ru' c -> mine E s c ->
  keyed s F v (wopt (option_map nm (option_map fst wo))) A c kk s' F' a ->
  exists nm', after E F s (assign_key (mkR (rG R) (rn R) (rh R) ru') h wo kk) E nm' F' s'.
Proof.
  intros S Lk Hv HA P M Pd. destruct (look_handle _ _ _ _ _ _ _ _ S Lk) as (v0 & A0 & Hv0 & HA0 & _ & Hh & _ & Wt).
  replace v0 with v in * by congruence. replace A0 with A in * by congruence. clear Hv0 HA0 v0 A0.
  destruct Pd as [I' HV At_ X Kp Old On Root].
  assert (Hin : forall x, only v x -> hs E x) by (intros x ->; eapply nth_error_In; eauto).
  assert (HwF : forall x, wat (wopt (option_map nm (option_map fst wo))) x -> inF F x).
  { apply wat_inF. intros i t Ew. destruct (Wt i t Ew) as (_ & f & K & _). congruence. }
  assert (Fr : forall x, F' x <> None -> F x = None -> beyond s x).
  { intros x H1 H2. destruct (On x H1) as [K| ->]; [congruence|]. destruct At_ as [K|[_ K]]; auto.
    exfalso. rewrite K in HwF. now apply (HwF a). }
  destruct wo as [[i t]|]; cbn [option_map fst wopt] in *.
  - destruct (Wt i t eq_refl) as (Gi & f & Ff & Kf & Vf & Pf).
    assert (a = nm i) as -> by (destruct At_ as [K|[K _]]; congruence).
    rewrite Ff in Root. unfold assign_key, with_forest. cbn [rn rG rh ru]. exists nm.
    assert (Fs' : fsim nm (rn R) (rekeyN (rG R) i (Some kk)) F').
    { apply (rekey_sim nm (rn R) (rG R) F i (Some kk) F' f (setkey kk f)); auto; [apply S|]. congruence. }
    refine (after_gen R E nm F s nm F' s' _ _ _ _ _ _ c S I' Fs' _ _ X HwF Hin P M eq_refl _ Fr); auto; [lia|].
    intros h' o' k' v' H1 H2. left. split; auto. rewrite Kp; auto. discriminate.
  - destruct At_ as [K|[_ Ba]]; [discriminate|].
    assert (FaN : F a = None) by (eapply inv_beyond; eauto; apply S).
    rewrite FaN in Root.
    pose proof (grow nm (rn R) (rG R) F F' (rn R) (rn R + 1) a JNull (Some kk) None true (setkey kk fresh_null) (sm_fs _ _ _ _ _ S) (i_dom _ _ I')
      ltac:(lia) ltac:(lia) Old Root) as Gr.
    rewrite (fresh_number _ _ _ _ (sm_fs _ _ _ _ _ S) (rn R)) in Gr by lia. cbn [plant] in Gr.
    change (over noforest (rG R)) with (rG R) in Gr.
    destruct Gr as (nm' & Ag & Ea & Le & _ & Fs'); auto.
    { now apply (rd_null F' a _ Root). }
    { intros x H1 H2. assert (x = a) as -> by (destruct H2 as [H2|H2]; auto; destruct (On x) as [K|K]; congruence). intros f0 ob kids E1 E2; rewrite Root in E1; injection E1 as <-; discriminate. }
    { intros x f0 ob kids c0 E1 H2 E2 _. assert (x = a) as -> by (destruct H2 as [H2|H2]; auto; destruct (On x) as [K|K]; congruence).
      rewrite Root in E1. injection E1 as <-. discriminate. }
    { split; [lia|auto]. }
    exists nm'. unfold assign_key, with_handle. cbn [rn rG rh ru]. rewrite Hh. cbn [option_map fst] in Hh.
    refine (after_gen R E nm F s nm' F' s' _ _ _ _ _ _ c S I' Fs' Ag _ X HwF Hin P M _ _ Fr); [lia|apply length_setn|].
    eapply (set_handles R E nm F s h None k v A nm' (Some (rn R)) (rn R + 1) s' c); eauto.
    + cbn. congruence.
    + intros i [= <-]. lia.
Qed.
(** A copied tree. *)
Lemma copied_grow R E nm F s i t j s1 F1 m : sim R E nm F s -> rG R i = Some t -> copied_node s F (nm i) j s1 F1 m ->
  exists nm' n', rn R + 1 <= n' /\ (forall k, k < rn R -> nm' k = nm k) /\ nm' (rn R) = m /\ 
    forall ru', exists G1, duplicate (mkR (rG R) (rn R) (rh R) ru') t j = mkR G1 n' (rh R) ru' /\ fsim nm' n' G1 F1 /\
      (forall k, k < rn R -> G1 k = rG R k) /\ exists v, G1 (rn R) = Some (mkT (tkey t) v None true true false).
Proof.
  intros S Gi [I' Nw Ra Sub (f & f' & Ff & Fn & K1 & K2 & K3 & K4) Fr Cl Td TdO].
  destruct (fs_node _ _ _ _ (sm_fs _ _ _ _ _ S) i t Gi) as (f0 & Ff0 & Kf & Vf & Pf). replace f0 with f in * by congruence.
  assert (FaN : F m = None) by (eapply inv_beyond; eauto; apply S).
  pose proof (grow nm (rn R) (rG R) F F1 (rn R) (rn R + 1) m j (tkey t) None true f' (sm_fs _ _ _ _ _ S) (i_dom _ _ I')
      ltac:(lia) ltac:(lia)) as Gr.
  pose proof (proj1 (plant_ok F1 (i_dom _ _ I')) m j Ra (rn R) (rn R + 1)) as PO.
  rewrite (fresh_number _ _ _ _ (sm_fs _ _ _ _ _ S) (rn R)) in Gr by lia.
  unfold duplicate. cbn [rn rG rh ru]. destruct (plant (rn R) j (rn R + 1)) as [[pv g] n'].
  destruct PO as (_ & Rg & _).
  destruct Gr as (nm' & Ag & Ea & Le & _ & Fs'); auto.
  { congruence. }
  { intros x H1 [H2| ->]; auto. }
  { intros x f0' ob kids c E1 [E2| ->] E3 E4; eauto. }
  { split; [lia|auto]. }
  exists nm', n'. split; auto. split; auto. split; auto. intro ru'. eexists. split; [reflexivity|]. split; auto. split.
  - intros k Hk. unfold put, over. destruct (N.eqb_spec k (rn R)); [lia|]. 
    destruct (g k) as [tk|] eqn:Eg; auto. assert (K : g k <> None) by congruence. apply Rg in K. lia.
  - exists pv. unfold put. now rewrite N.eqb_refl.
Qed.
End Sim.

(** *** Text arguments *)
Record buffered (s : st) (bs : bytes) (p : addr) (s1 : st) : Prop := {
  bf_ext : ext none none zeroc s s1;
  bf_at : p = (snext s, 0);
  bf_text : text_at s1 p = bs;
  bf_src : srctext s1 p bs;
  bf_ub : ublock s1 (fst p);
  bf_next : snext s1 = snext s + 1;
  bf_vals : svals s1 = svals s;
  bf_allocs : sallocs s1 = sallocs s;
  bf_cache : scache s1 = scache s;
  bf_strs : sstrs s1 = sstrs s;
  bf_size : sbsize s1 (fst p) = Some (lenN bs)
}.
Lemma buffered_wp s bs : wfst s -> lenN bs < two32 -> wp (user_buf bs) s (buffered s bs).
Proof.
  intros W L. destruct (userBuf_wp s bs W L) as (p & s1 & E & H1 & H2 & H3 & H4 & H5 & H6 & H7 & H8).
  exists p, s1. split; auto. unfold user_buf in E. destruct (two32 <=? N.of_nat (length bs)); [discriminate|].
  injection E as Ep Es. constructor; auto; rewrite <- Es; auto. rewrite <- Ep. cbn [fst sbsize]. apply updN_eq.
Qed.

Section Buf.
Variables (s : st) (bs : bytes) (p : addr) (s1 : st).
Hypothesis B : buffered s bs p s1.
Lemma bf_used A : usedA s1 A = usedA s A. Proof. unfold usedA. now rewrite (bf_allocs _ _ _ _ B). Qed.
Lemma bf_alive A : alive s1 A <-> alive s A. Proof. unfold alive. now rewrite (bf_allocs _ _ _ _ B). Qed.
Lemma bf_home A : homeof s1 A <-> homeof s A. Proof. unfold homeof. now rewrite (bf_cache _ _ _ _ B), (bf_strs _ _ _ _ B). Qed.
Lemma bf_chome A : cache_home s1 A = cache_home s A.
Proof. unfold cache_home. now rewrite (bf_cache _ _ _ _ B), (bf_strs _ _ _ _ B). Qed.
Lemma bf_live : cache_live s1 <-> cache_live s.
Proof. unfold cache_live. now rewrite (bf_cache _ _ _ _ B), (bf_strs _ _ _ _ B). Qed.
End Buf.

Lemma bf_sim {VV : vols} R E nm F s bs p s1 : buffered s bs p s1 -> sim R E nm F s -> sim R E nm F s1.
Proof.
  intros B S. destruct S as [I Fs Lh La Hh Nh Na Ar]. constructor; auto.
  - eapply ext_inv; eauto. apply B.
  - intros h o k H. rewrite (bf_vals _ _ _ _ B). auto.
  - intros k A u H1 H2. rewrite (bf_alive _ _ _ _ B), (bf_used _ _ _ _ B). eauto.
Qed.
Lemma bf_sim_vol (VV : vols) R E nm F s bs p s1 (Hb : fst p <> 0) : buffered s bs p s1 -> sim R E nm F s -> @sim (addvol VV (fst p) Hb) R E nm F s1.
Proof.
  intros B S. pose proof (bf_sim _ _ _ _ _ _ _ _ B S) as [I1 Fs Lh La Hh Nh Na Ar]. constructor; auto.
  - eapply (inv_addvol VV s F zeroc); [apply S|apply B| |apply B]. rewrite (bf_at _ _ _ _ B). cbn. lia.
  - intros k A u H1 H2. destruct (Ar k A u H1 H2) as (K1 & K2 & K3). split; auto. split; auto.
    intros [K|K]; auto. apply (bf_alive _ _ _ _ B) in K1. apply K1. rewrite K, (bf_at _ _ _ _ B). cbn [fst].
    apply (w_next s (x_wf0 _ _ _ _ _ (bf_ext _ _ _ _ B))). lia.
Qed.
(** What a call did from [s1] it did from [s]. *)
Lemma bf_after {VV : vols} {NN : need} E F s bs p s1 R' E' nm' F' s' : buffered s bs p s1 -> after E F s1 R' E' nm' F' s' -> after E F s R' E' nm' F' s'.
Proof.
  intros B [S (c & X & M) Nw Hs As Kp]. pose proof (bf_ext _ _ _ _ B) as X0. constructor; auto.
  - exists (addc zeroc c). split.
    + eapply ext_trans; eauto. eapply ext_wide; eauto; intros x [].
    + intros A HA. destruct (M A) as [K|[K Kn]]; [unfold addc, zeroc in HA; lia|auto|]. right. split; [now apply (bf_home _ _ _ _ B)|exact Kn].
  - intros x H1 H2. eapply beyond_ext; eauto.
  - intros v Hv. destruct (Hs v Hv) as [K|K]; auto. right. eapply beyond_ext; eauto.
  - intros A HA. destruct (As A HA) as [K|K]; auto. right. pose proof (x_next _ _ _ _ _ X0). lia.
Qed.
Lemma alloc_not_ublock s b : wfst s -> ublock s b -> sallocs s b = None.
Proof.
  intros W (_ & U & _). destruct (sallocs s b) as [ar|] eqn:Eb; auto. exfalso. apply U.
  destruct (w_ar s W b ar Eb) as (_ & _ & l & El).
  assert (In b (map ckBlk ar)) as HI by (rewrite El, in_app_iff; simpl; auto).
  apply in_map_iff in HI as (kr & Er & Hr). exists b, ar, kr. auto.
Qed.

Section Args.
Context {VV : vols} {NN : need}.
Variables (R : rst) (E : env) (nm : N -> addr) (F : dom) (s : st) (bs : bytes).
Hypothesis S : sim R E nm F s.
Hypothesis Hl : lenN bs < two32.
Variables (X : Type) (m : addr -> M X) (P : X -> Prop) (R' : rst) (E' : X -> env).
Definition ends {VV : vols} (s : st) : X -> st -> Prop := fun x s' => P x /\ exists nm' F', after E F s R' (E' x) nm' F' s'.

Lemma keep_wp : (forall p s1, buffered s bs p s1 -> sim R E nm F s1 -> safetext s1 p bs -> wp (m p) s1 (ends s1)) ->
  wp (keep bs m) s (ends s).
Proof.
  intro H. unfold keep. pose proof (i_wf _ _ (sm_inv _ _ _ _ _ S)) as W.
  eapply wp_seq; [apply (buffered_wp s bs W Hl)|]. intros p s1 B.
  eapply wp_mono; [apply H; auto|].
  - eapply bf_sim; eauto.
  - apply src_safetext; [apply B|]. pose proof (i_vol _ _ (sm_inv _ _ _ _ _ S)) as [Wn _]. intros [K|(A & ar & k & HV & HA & Hk & Eb)].
    + apply Wn in K. rewrite (bf_at _ _ _ _ B) in K. cbn in K. lia.
    + apply (proj1 (proj2 (bf_ub _ _ _ _ B))). exists A, ar, k. auto.
  - intros x s' (Px & nm' & F' & Af). split; auto. exists nm', F'. eapply bf_after; eauto.
Qed.
Lemma lend_wp : (forall (V' : vols) p s1, buffered s bs p s1 -> @sim V' R E nm F s1 -> wp (m p) s1 (@ends V' s1)) ->
  wp (lend bs m) s (ends s).
Proof.
  intro H. unfold lend. pose proof (i_wf _ _ (sm_inv _ _ _ _ _ S)) as W.
  eapply wp_seq; [apply (buffered_wp s bs W Hl)|]. intros p s1 B.
  assert (Hb : fst p <> 0) by (rewrite (bf_at _ _ _ _ B); pose proof (w_zero s W); cbn; lia).
  eapply wp_seq; [apply (H (addvol VV (fst p) Hb)); auto; now apply (bf_sim_vol VV R E nm F s bs p s1 Hb)|].
  intros x s2 (Px & nm' & F' & Af). destruct Af as [S2 (c & X2 & M) Nw Hs As Kp].
  assert (U2 : ublock s2 (fst p)) by (eapply ublock_ext; eauto; apply B).
  destruct (@userFree_wp (addvol VV (fst p) Hb) s2 F' (fst p) (sm_inv _ _ _ _ _ S2) U2 (or_intror eq_refl))
    as (u & s3 & E3 & I3 & Hh3 & Hm3 & _ & Ea3 & _).
  assert (Nv : forall v, In v (eh (E' x)) -> fst v <> fst p).
  { intros v Hv. destruct (Hs v Hv) as [K|K].
    - destruct (handles_in _ _ _ _ _ _ S K) as (y & Hy). intro Ev. assert (Q : nothing s v).
      { apply (w_dead s W). rewrite Ev, (bf_at _ _ _ _ B). cbn. apply (w_next s W). lia. }
      destruct Q as (_ & _ & Q & _). congruence.
    - destruct K as [K|(A & ar & k & HA & Hk & Ek & _)].
      + rewrite (bf_next _ _ _ _ B), (bf_at _ _ _ _ B) in *. cbn. lia.
      + intro Ev. apply (proj1 (proj2 (bf_ub _ _ _ _ B))). exists A, ar, k. rewrite <- Ev. auto. }
  assert (E3' : s3 = mkSt (drop_blk (sbytes s2) (fst p)) (drop_blk (snodes s2) (fst p)) (drop_blk (svals s2) (fst p))
             (drop_blk (sstrs s2) (fst p)) (sallocs s2) (updN (sbsize s2) (fst p) None) (snext s2) (scache s2) (scnt s2)).
  { unfold user_free in E3. destruct (sbsize s2 (fst p)); [|discriminate]. now injection E3. }
  eapply wp_seq with (P := fun _ s' => s' = s3); [exists u, s3; auto|].
  intros _ ? ->. apply wp_ret. split; auto. exists nm', F'. pose proof (bf_ext _ _ _ _ B) as X0. constructor.
  - destruct S2 as [I2 Fs Lh La Hhd Nh Na Ar]. constructor; auto.
    + apply (inv_delvol VV s3 F' (fst p) Hb); auto. rewrite Ea3. apply alloc_not_ublock; auto. apply I2.
    + intros h o k Hk. destruct (Hhd h o k Hk) as (v & A & K1 & K2 & K3 & K4). exists v, A. split; auto. split; auto. split; auto.
      rewrite (proj2 (proj2 (Hm3 v (Nv v (nth_error_In _ _ K1))))). auto.
    + intros k A u' K1 K2. destruct (Ar k A u' K1 K2) as (Q1 & Q2 & Q3). unfold alive, usedA in *. rewrite Ea3. split; auto.
      split; auto. intro K. apply Q2. now left.
  - exists (addc zeroc c). split.
    + rewrite E3'. apply ext_free; auto.
      * eapply ext_trans; eauto. eapply ext_wide; eauto; intros y [].
      * rewrite (bf_at _ _ _ _ B). cbn. lia.
    + intros A HA. destruct (M A) as [K|[K Kn]]; [unfold addc, zeroc in HA; lia|auto|]. right. split; [now apply (bf_home _ _ _ _ B)|exact Kn].
  - intros y H1 H2. eapply beyond_ext; eauto.
  - intros v Hv. destruct (Hs v Hv) as [K|K]; auto. right. eapply beyond_ext; eauto.
  - intros A HA. destruct (As A HA) as [K|K]; auto. right. pose proof (x_next _ _ _ _ _ X0). lia.
  - exact Kp.
Qed.
End Args.
