(** Step lemmas: every primitive of Api.v as a move from one extension of a start
    state [s0] to another, and the combination with a pure computation. *)
From Verif Require Import Base Spec Lex LexProofs Alloc AllocProofs Mem MemProofs Api PureParse Dom.

Section WithVol.
Context {VV : vols}.

(** ** Agreement of a computation with a pure result *)
Definition agree {A B} (m : M A) (s : st) (r : res B) (Q : B -> A -> st -> Prop) : Prop :=
  match r with Ok b => wp m s (Q b) | Err e => m s = Err e end.

Lemma agree_bind {A A' B B'} (m : M A) (f : A -> M A') (r : res B) (g : B -> res B') s Q :
  agree m s r (fun b a s' => agree (f a) s' (g b) Q) -> agree (bind m f) s (rbind r g) Q.
Proof.
  unfold agree. destruct r as [b|e]; simpl.
  - intros (a & s' & E & H). destruct (g b).
    + apply wp_bind. exists a, s'. auto.
    + unfold bind. now rewrite E.
  - intro H. unfold bind. now rewrite H.
Qed.
Lemma agree_lift {A} (r : res A) s (Q : A -> A -> st -> Prop) :
  (forall a, r = Ok a -> Q a a s) -> agree (lift r) s r Q.
Proof. intro H. destruct r; simpl; auto. apply (wp_lift (Ok a) a); auto. Qed.
Lemma agree_wp {A A' B} (m : M A) (f : A -> M A') (r : res B) s P Q :
  wp m s P -> (forall a s', P a s' -> agree (f a) s' r Q) -> agree (bind m f) s r Q.
Proof.
  intros (a & s' & E & H) K. specialize (K a s' H). unfold agree in *. destruct r.
  - apply wp_bind. exists a, s'. auto.
  - unfold bind. now rewrite E.
Qed.
Lemma agree_ok {A B} (m : M A) (b : B) s (Q : B -> A -> st -> Prop) : wp m s (Q b) -> agree m s (Ok b) Q.
Proof. auto. Qed.
Lemma agree_mono {A B} (m : M A) (r : res B) s (Q Q' : B -> A -> st -> Prop) :
  agree m s r Q -> (forall b a s', r = Ok b -> Q b a s' -> Q' b a s') -> agree m s r Q'.
Proof. unfold agree. destruct r; auto. intros H K. eapply wp_mono; eauto. Qed.
Lemma wp_seq {A B} (m : M A) (f : A -> M B) s P Q :
  wp m s P -> (forall a s', P a s' -> wp (f a) s' Q) -> wp (bind m f) s Q.
Proof. intros H K. apply wp_bind. eapply wp_mono; eauto. Qed.

(** ** Changes of the node store only *)
Record mch (s s' : st) : Prop := {
  mc_bytes : sbytes s' = sbytes s;
  mc_vals : svals s' = svals s;
  mc_strs : sstrs s' = sstrs s;
  mc_cache : scache s' = scache s;
  (* allocators do not take over memory in use *)
  mc_own : forall A ar k o x, sallocs s' A = Some ar -> In k ar -> sbytes s (ckBlk k, o) = Some x ->
    exists ar0 k0, sallocs s A = Some ar0 /\ In k0 ar0 /\ ckBlk k0 = ckBlk k
}.
Lemma mch_refl s : mch s s. Proof. constructor; auto. intros. eauto. Qed.
Lemma mch_trans s s1 s2 : mch s s1 -> mch s1 s2 -> mch s s2.
Proof.
  intros [] []. constructor; try congruence. intros A ar k o x HA Hk Hx.
  destruct (mc_own1 A ar k o x HA Hk) as (ar1 & k1 & H1 & H2 & H3); [congruence|].
  destruct (mc_own0 A ar1 k1 o x H1 H2) as (ar0 & k0 & K1 & K2 & K3); [congruence|].
  exists ar0, k0. repeat split; auto. congruence.
Qed.
Lemma mch_safetext s s' a b : mch s s' -> safetext s a b -> safetext s' a b.
Proof.
  intros [E1 E2 E3 E4 E5] [H K]. split.
  - intros i x Hx. rewrite E1. auto.
  - intros i Hi. destruct (K i Hi) as [K1 K2]. split.
    + intros (p & z & H1 & H2 & H3). apply K1. exists p, z. rewrite <- E3, <- E4. auto.
    + intros [Kv|(A & ar & k & HV & HA & Hk & E)]; [apply K2; now left|].
      destruct (nth_error b i) as [x|] eqn:Ex; [|apply nth_error_None in Ex; lia].
      destruct (E5 A ar k (snd a + N.of_nat i) x HA Hk) as (ar0 & k0 & G1 & G2 & G3).
      { rewrite E. exact (H i x Ex). }
      apply K2. right. exists A, ar0, k0. repeat split; auto. congruence.
Qed.
Lemma mch_nodes s f : mch s (set_nodes f s).
Proof. constructor; auto. simpl. intros. eauto. Qed.
Record nupd (s s' : st) (a : addr) (n : node) : Prop := {
  nu_mch : mch s s';
  nu_eq : snodes s' a = Some n;
  nu_neq : forall b, b <> a -> snodes s' b = snodes s b
}.
Lemma nupd_trans s s1 s2 a n1 n2 : nupd s s1 a n1 -> nupd s1 s2 a n2 -> nupd s s2 a n2.
Proof.
  intros [M1 E1 N1] [M2 E2 N2]. constructor; auto; [eapply mch_trans; eauto|].
  intros b H. rewrite N2, N1; auto.
Qed.

Lemma rep_node_mch s s' n f : mch s s' -> rep_node s n f -> rep_node s' n f.
Proof. intros H. apply rep_node_text. intros a b. now apply mch_safetext. Qed.

Section Step.
Variables (Dn Dv : addr -> Prop) (c : N -> N) (s0 : st).

Lemma modNode_step s a f n : ext Dn Dv c s0 s -> snodes s a = Some n -> beyond s0 a \/ Dn a -> wfst s0 ->
  wp (modNode a f) s (fun _ s' => ext Dn Dv c s0 s' /\ nupd s s' a (f n)).
Proof.
  intros X E H W. apply (wp_modNode _ _ n); auto. split.
  - apply ext_putNode; auto; [|left; congruence].
    destruct H as [H|H]; auto. left. now apply beyond_nothing.
  - constructor; simpl; [apply mch_nodes|apply upd_eq|]. intros. now apply upd_neq.
Qed.
Lemma putNode_step s a n : ext Dn Dv c s0 s -> snodes s a <> None -> beyond s0 a \/ Dn a -> wfst s0 ->
  wp (putNode a n) s (fun _ s' => ext Dn Dv c s0 s' /\ nupd s s' a n).
Proof.
  intros X E H W. apply wp_putNode. split.
  - apply ext_putNode; auto. destruct H as [H|H]; auto. left. now apply beyond_nothing.
  - constructor; simpl; [apply mch_nodes|apply upd_eq|]. intros. now apply upd_neq.
Qed.
Lemma set_scalar_step s a t p l n : ext Dn Dv c s0 s -> snodes s a = Some n -> beyond s0 a \/ Dn a -> wfst s0 ->
  wp (set_scalar a t p l) s (fun _ s' => ext Dn Dv c s0 s' /\
    nupd s s' a (wLen l (wVal (At p) (wType t n)))).
Proof.
  intros X E H W. unfold set_scalar.
  eapply wp_seq; [eapply modNode_step; eauto|]. intros _ s1 [X1 U1].
  eapply wp_seq; [eapply modNode_step; eauto; apply U1|]. intros _ s2 [X2 U2].
  eapply wp_mono; [eapply modNode_step; eauto; apply U2|]. intros _ s3 [X3 U3]. split; auto.
  eapply nupd_trans; eauto. eapply nupd_trans; eauto.
Qed.
End Step.

(** Allocation with a running total [k] for one allocator [A]. *)
Lemma at_add A k n : forall A', addc (at_ A k) (at_ A n) A' <= at_ A (k + n) A'.
Proof. intro A'. unfold addc, at_. destruct (A' =? A); lia. Qed.
Lemma at_le A k n : k <= n -> forall A', at_ A k A' <= at_ A n A'.
Proof. intros H A'. unfold at_. destruct (A' =? A); lia. Qed.
Lemma ext_more Dn Dv A k n s s' : ext Dn Dv (at_ A k) s s' -> k <= n -> ext Dn Dv (at_ A n) s s'.
Proof. intros X H. eapply ext_weaken; eauto. now apply at_le. Qed.
Lemma ext_start Dn Dv A s : wfst s -> ext Dn Dv (at_ A 0) s s.
Proof.
  intro W. eapply ext_weaken; [apply (ext_refl Dn Dv s W)|..]; auto.
  intro A'. apply N.le_0_l.
Qed.
Lemma ext_then Dn Dv A k n s s1 s2 : ext Dn Dv (at_ A k) s s1 -> ext Dn Dv (at_ A n) s1 s2 ->
  ext Dn Dv (at_ A (k + n)) s s2.
Proof.
  intros X Y. eapply ext_weaken; [eapply ext_trans; [exact X|exact Y]|..]; auto. apply at_add.
Qed.

Lemma alloc_step Dn Dv A k n s0 s : ext Dn Dv (at_ A k) s0 s -> alive s0 A -> usedA s0 A + k + n <= two30 ->
  wp (zj_allocatorAlloc A n) s (fun a s' => ext Dn Dv (at_ A (k + n)) s0 s' /\ alloc_post A n s a s').
Proof.
  intros X Ha Hu. pose proof (x_used _ _ _ _ _ X A) as U. rewrite at_eq in U.
  eapply wp_mono; [apply alloc_wp; [apply X|now apply (x_alive _ _ _ _ _ X)|lia]|].
  intros a s' P. split; auto. eapply ext_weaken; [eapply ext_alloc_step; eauto|..]; auto. apply at_add.
Qed.
Lemma alloc_mch A n s a s' : wfst s -> alloc_post A n s a s' -> mch s s'.
Proof.
  intros W []. constructor; auto. intros A' ar k o x HA Hk Hx.
  destruct (ap_chunks A' ar k HA Hk) as [L|(ar0 & k0 & H1 & H2 & H3 & _)]; [|eauto].
  apply (bytes_next s _ _ W) in Hx. simpl in Hx. lia.
Qed.

(** A new node. *)
Lemma newNode_step Dn Dv A k s0 s : wfst s0 -> ext Dn Dv (at_ A k) s0 s -> alive s0 A ->
  usedA s0 A + k + 72 <= two30 ->
  wp (newNode A) s (fun a s' => ext Dn Dv (at_ A (k + 72)) s0 s' /\ beyond s a /\
    nupd s s' a blank_node).
Proof.
  intros W X Ha Hu. unfold newNode. eapply wp_seq; [eapply alloc_step; eauto; unfold sizeof_node; lia|].
  intros a s1 [X1 P]. eapply wp_seq with (P := fun _ s' => ext Dn Dv (at_ A (k + 72)) s0 s' /\ nupd s1 s' a blank_node).
  - apply wp_putNode.
    assert (B : beyond s a).
    { destruct a as [b o]. apply (ap_new _ _ _ _ _ P); unfold sizeof_node; simpl; lia. }
    split.
    + apply ext_putNode; auto.
      * left. apply beyond_nothing; auto. exact (beyond_ext _ _ _ _ _ _ X B).
      * right. exists A. eapply inrA_less; [apply (ap_in _ _ _ _ _ P)|]. unfold sizeof_node. lia.
    + constructor; simpl; [apply mch_nodes|apply upd_eq|]. intros. now apply upd_neq.
  - intros _ s2 [X2 U]. apply wp_ret. split; [auto|]. split.
    + destruct a as [b o]. apply (ap_new _ _ _ _ _ P); unfold sizeof_node; simpl; lia.
    + destruct U as [M E N]. constructor; auto.
      * eapply mch_trans; eauto. eapply alloc_mch; eauto. apply X.
      * intros b H. rewrite N by auto. now rewrite (ap_nodes _ _ _ _ _ P).
Qed.

(** A new value object. *)
Record vnew (s s' : st) (v : addr) (x : zval) : Prop := {
  vn_bytes : sbytes s' = sbytes s;
  vn_nodes : snodes s' = snodes s;
  vn_strs : sstrs s' = sstrs s;
  vn_cache : scache s' = scache s;
  vn_eq : svals s' v = Some x;
  vn_neq : forall u, u <> v -> svals s' u = svals s u
}.
Lemma newval_step Dn Dv A k s0 s w : wfst s0 -> ext Dn Dv (at_ A k) s0 s -> alive s0 A ->
  usedA s0 A + k + 16 <= two30 ->
  wp (v <- zj_allocatorAlloc A sizeof_Value ;; putVal v (mkVal w A) ;;; ret v) s
    (fun v s' => ext Dn Dv (at_ A (k + 16)) s0 s' /\ beyond s v /\ vnew s s' v (mkVal w A)).
Proof.
  intros W X Ha Hu. eapply wp_seq; [eapply alloc_step; eauto; unfold sizeof_Value; lia|].
  intros v s1 [X1 P]. apply wp_bind, wp_putVal, wp_ret.
  assert (B : beyond s v).
  { destruct v as [b o]. apply (ap_new _ _ _ _ _ P); unfold sizeof_Value; simpl; lia. }
  split; [|split; auto].
  - apply ext_putVal; auto.
    + left. apply beyond_nothing; auto. exact (beyond_ext _ _ _ _ _ _ X B).
    + right. exists A. eapply inrA_less; [apply (ap_in _ _ _ _ _ P)|]. unfold sizeof_Value. lia.
  - destruct P. constructor; simpl; auto; [apply upd_eq|]. intros. rewrite upd_neq; auto. now rewrite ap_vals.
Qed.

(** Filling a new block of bytes. *)
Record filled (s s' : st) (p : addr) (bs : bytes) : Prop := {
  fl_nodes : snodes s' = snodes s;
  fl_vals : svals s' = svals s;
  fl_strs : sstrs s' = sstrs s;
  fl_cache : scache s' = scache s;
  fl_text : text_at s' p = bs;
  fl_safe : safetext s' p bs
}.
Lemma run_exact f b : forall n o bs, (length bs <= n)%nat ->
  (forall i x, nth_error bs i = Some x -> f (b, o + N.of_nat i) = Some x) ->
  f (b, o + N.of_nat (length bs)) = None -> run f b o n = bs.
Proof.
  intros n o bs. revert n o. induction bs as [|c bs IH]; intros n o Hl H K; simpl.
  - replace (o + N.of_nat (length (@nil N))) with o in K by (simpl; lia). destruct n; simpl; auto. now rewrite K.
  - destruct n as [|n]; [simpl in Hl; lia|]. simpl.
    specialize (H O c eq_refl) as H0. replace (o + N.of_nat 0) with o in H0 by lia. rewrite H0. f_equal.
    apply IH; [simpl in Hl; lia| |].
    + intros i x E. specialize (H (S i) x E). now replace (o + 1 + N.of_nat i) with (o + N.of_nat (S i)) by lia.
    + replace (o + 1 + N.of_nat (length bs)) with (o + N.of_nat (length (c :: bs))) by (simpl length; lia). exact K.
Qed.
Lemma cacheR_beyond s a : wfst s -> cacheR s a -> ~ beyond s a.
Proof.
  intros W (p & z & E1 & E2 & E3 & E4) B. pose proof (w_cache s W) as K. rewrite E1, E2 in K.
  destruct K as (_ & K & _). apply (inrA_beyond s _ _ _ (snd a - snd (zData z)) W K); [lia|].
  unfold offset. replace (snd (zData z) + (snd a - snd (zData z))) with (snd a) by lia. rewrite <- E3.
  now destruct a.
Qed.
Lemma fill_step Dn Dv c A n s0 s s1 p bs : wfst s0 -> wfst s -> wfvol s0 -> ~ isvol A ->
  ext Dn Dv c s0 s -> ext Dn Dv c s0 s1 -> alloc_post A n s p s1 -> lenN bs <= n ->
  wp (store p n bs) s1 (fun _ s2 => ext Dn Dv c s0 s2 /\ filled s s2 p bs).
Proof.
  intros W0 W Wv NA X X1 P En. apply wp_store; [unfold lenN in En; lia|].
  assert (Hfresh : forall i, sbytes s0 (offset p i) = None).
  { intro i. apply (beyond_nothing s0 _ W0). eapply (beyond_ext _ _ _ _ _ _ X). apply (ap_new _ _ _ _ _ P). simpl. lia. }
  assert (X2 : ext Dn Dv c s0 (set_bytes (upd_bytes (sbytes s1) p bs) s1)).
  { eapply ext_store; eauto. exact (inrA_less _ _ _ _ _ (ap_in _ _ _ _ _ P) En). }
  assert (NV : ~ vol (set_bytes (upd_bytes (sbytes s1) p bs) s1) (fst p)).
  { apply (inrA_vol s1 A p n); [apply X1|eapply wfvol_ext; eauto|apply P|auto]. }
  split; auto. destruct P as [ap_wf0 ap_bytes0 ap_nodes0 ap_vals0 ap_strs0 ap_cache0 ap_in0 ap_new0 _ _ _ _ _ _ _ _]. constructor; simpl; auto.
  - destruct ap_in0 as (ar & ck & H1 & H2 & H3 & H4 & H5).
    destruct (w_chunk s1 ap_wf0 _ _ _ H1 H2) as (K1 & K2 & K3).
    destruct (w_ar s1 ap_wf0 _ _ H1) as (Hwf & _).
    unfold text_at. cbn [sbsize set_bytes]. rewrite H3, K1.
    apply run_exact.
    + destruct Hwf as [_ Hwf]. rewrite Forall_forall in Hwf. specialize (Hwf ck H2). unfold lenN in En. lia.
    + intros i x E. change (ckBlk ck, snd p + N.of_nat i) with (ckBlk ck, snd p + N.of_nat i).
      rewrite <- H3. change (fst p, snd p + N.of_nat i) with (offset p (N.of_nat i)). cbn [sbytes set_bytes].
      rewrite upd_bytes_in; auto. apply nth_error_Some. congruence.
    + rewrite <- H3. change (fst p, snd p + N.of_nat (length bs)) with (offset p (N.of_nat (length bs))). cbn [sbytes set_bytes].
      destruct (upd_bytes_cases (sbytes s1) p bs (offset p (N.of_nat (length bs)))) as [(i & Hi & E & _)|[_ ->]].
      * exfalso. unfold offset in E. injection E. lia.
      * rewrite ap_bytes0. apply (beyond_nothing s _ W). apply ap_new0. simpl. lia.
  - split; [apply holds_store|]. intros i Hi. split; auto. intro C.
    assert (C' : cacheR s (offset p (N.of_nat i))).
    { revert C. apply cacheR_same; simpl; auto. intros q _. now rewrite ap_strs0. }
    apply (cacheR_beyond s _ W C'). apply ap_new0. simpl. lia.
Qed.
End WithVol.
