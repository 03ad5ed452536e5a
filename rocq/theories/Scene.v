(** Concrete situations for the examples beside the theorems. *)
From Verif Require Import Base Spec Lex LexProofs Alloc AllocProofs Mem MemProofs Api PureParse SpecProofs
  Dom Effect Steps SetProofs ParseTop Vocab ParseFacts Start.

Global Existing Instance novols.

(** A program that makes an allocator, two values and a caller's buffer. *)
Definition scene_prog (bs : bytes) : M (N * addr * addr * addr) :=
  A <- zj_NewAllocator ;; v <- zj_NewValue A ;; u <- zj_NewValue A ;; p <- user_buf bs ;; ret (A, v, u, p).

Lemma scene bs : lenN bs < two32 -> exists s A v u p,
  scene_prog bs init = Ok ((A, v, u, p), s) /\ inv s nodocs /\ empty s nodocs v A /\ empty s nodocs u A /\ u <> v /\
  text_at s p = bs /\ safetext s p bs /\ ublock s (fst p) /\ usedA s A = 32 /\ scache s = Null /\
  sbsize s (fst p) = Some (lenN bs).
Proof.
  intro Hl. unfold scene_prog.
  destruct (newAllocator_wp init (i_wf _ _ init_inv)) as (A & s1 & E1 & X1 & EA & Al1 & U1 & V1).
  assert (I1 : inv s1 nodocs) by (eapply ext_inv; eauto using init_inv).
  destruct (newValue_wp s1 nodocs A I1 Al1 (fun k => k)) as (v & s2 & E2 & X2 & I2 & H2 & B2); [rewrite U1; vm_compute; discriminate|].
  assert (Al2 : alive s2 A) by now apply (x_alive _ _ _ _ _ X2).
  pose proof (x_used _ _ _ _ _ X2 A) as L2. rewrite U1, at_eq in L2.
  destruct (newValue_wp s2 nodocs A I2 Al2 (fun k => k)) as (u & s3 & E3 & X3 & I3 & H3 & B3); [change two30 with 1073741824; lia|].
  destruct (userBuf_wp s3 bs (i_wf _ _ I3) Hl) as (p & s4 & E4 & X4 & Ep & T4 & S4 & UB & _ & V4 & A4).
  exists s4, A, v, u, p.
  assert (E : scene_prog bs init = Ok ((A, v, u, p), s4)).
  { unfold scene_prog, bind. rewrite E1, E2, E3, E4. reflexivity. }
  split; [exact E|].
  split; [eapply ext_inv; eauto|]. split; [eapply handle_ext; [exact X4| |eapply handle_ext; [exact X3| |exact H2]]; auto|].
  split; [eapply handle_ext; [exact X4| |exact H3]; auto|]. split.
  - intros ->. destruct H2 as (H2 & _). apply (beyond_nothing s2 _ (i_wf _ _ I2)) in B3 as (_ & _ & B3 & _). congruence.
  - split; auto. split; [apply src_safetext; auto; intros [[]|(? & ? & ? & [] & _)]|]. split; auto.
    assert (E3' : (A <- zj_NewAllocator ;; v <- zj_NewValue A ;; u <- zj_NewValue A ;; ret (A, v, u)) init = Ok ((A, v, u), s3)).
    { unfold bind. rewrite E1, E2, E3. reflexivity. }
    assert (K : usedA s3 A = 32 /\ scache s3 = Null).
    { clear - E3'. vm_compute in E3'. injection E3' as <- <- <- <-. split; reflexivity. }
    destruct K as [K1 K2]. unfold usedA in *. rewrite A4. split; auto.
    clear - E4 K2. unfold user_buf in E4. destruct (two32 <=? _); [discriminate|]. injection E4 as <- <-. split; [exact K2|].
    cbn. apply updN_eq.
Qed.

(** A text in a caller's buffer, an empty value, lots of room. *)
Lemma text_scene t : ~ In 0 t -> lenN t < 1000000 -> exists s A v p,
  inv s nodocs /\ empty s nodocs v A /\ cstring s p t /\ kept s p t /\ room s A 1000000000.
Proof.
  intros N0 Hl. destruct (scene (t ++ [0])) as (s & A & v & u & p & _ & I & Hv & _ & _ & Ht & Hs & _ & Hu & _).
  { unfold lenN in *. rewrite app_length. cbn. change two32 with 4294967296. lia. }
  assert (C : cstring s p t) by (split; auto; now exists []).
  exists s, A, v, p. split; auto. split; auto. split; auto. split.
  - split; auto. now apply (safetext_app s p t [0]) in Hs as [Hs _].
  - unfold room. rewrite Hu. vm_compute. discriminate.
Qed.
(** Validity by running the parser (sound by [ptop_sound]). *)
Lemma valid_by t j : ~ In 0 t -> ptop (t ++ [0]) = Ok (Some j) -> json_text t j.
Proof. intros N0 H. eapply sound_here; eauto. Qed.
Fixpoint has0 (t : bytes) : bool := match t with [] => false | c :: r => (c =? 0) || has0 r end.
Lemma has0_no t : has0 t = false -> ~ In 0 t.
Proof.
  induction t as [|c t IH]; cbn; auto. intros H [->|K]; [discriminate|]. apply Bool.orb_false_iff in H as [_ H]. now apply IH.
Qed.

(** Running a program from the start and looking at its result only. *)
Definition run {X} (m : M X) : res X := match m init with Ok (x, _) => Ok x | Err e => Err e end.
(** The C string at a pointer result. *)
Definition cstr_at (w : word) : M bytes := p <- deref w ;; t <- readable p ;; ret (before0 t).
(** [t] as a 0-terminated caller's buffer. *)
Definition lit (t : bytes) : M addr := user_buf (t ++ [0]).
Definition parse_lit (v : addr) (t : bytes) : M bool := p <- lit t ;; zj_Parse v p.
Definition show (v : addr) : M bytes := w <- zj_Stringify 1000 v ;; cstr_at w.

Fixpoint slackb (t : bytes) (k : nat) : bool :=
  match t with
  | [] => true
  | c :: r => (if (c =? 110) || (c =? 116) then (2 <=? length r + k)%nat else true) &&
              (if c =? 102 then (3 <=? length r + k)%nat else true) && slackb r k
  end.
Lemma slackb_ok t k : slackb t k = true -> slack_ok t k.
Proof.
  induction t as [|x t IH]; intros H a c b E; [destruct a; discriminate|].
  cbn [slackb] in H. apply Bool.andb_true_iff in H as [H H3]. apply Bool.andb_true_iff in H as [H1 H2].
  destruct a as [|y a]; cbn [app] in E; injection E as -> E.
  - subst b. split.
    + intro K. replace ((c =? 110) || (c =? 116)) with true in H1 by (destruct K; subst; reflexivity). now apply Nat.leb_le in H1.
    + intros ->. now apply Nat.leb_le in H2.
  - eapply IH; eauto.
Qed.

(** One parse into an empty value, with what the later examples need to know. *)
Lemma parse_step s F v A p t j : inv s F -> empty s F v A -> cstring s p t -> json_text t j -> room s A (len_cost (lenN t)) ->
  (forall x, F x <> None -> tidy F x) ->
  exists s' F' a fa, zj_Parse v p s = Ok (true, s') /\ inv s' F' /\ on s' F' v a A /\ reads F' a j /\ F a = None /\
    F' a = Some fa /\ fkey fa = None /\ fpar fa = None /\ (forall x f, F x = Some f -> F' x = Some f) /\
    (forall x, F' x <> None -> tidy F' x) /\ usedA s' A <= usedA s A + len_cost (lenN t) /\
    (forall u w B, u <> v -> handle s F u w B -> handle s' F' u w B).
Proof.
  intros I H C J R T. pose proof (parse_ag s F v Null A I H p t C R) as Ag.
  destruct (ok_here _ s F v Null A _ t [] Ag j J) as (s' & F' & a & E & P).
  destruct (pd_at _ _ _ _ _ _ _ _ _ _ P) as [K|[_ B]]; [discriminate|].
  assert (Na : F a = None) by (eapply inv_beyond; eauto).
  destruct (pd_root _ _ _ _ _ _ _ _ _ _ P) as (fa & Ea & L). rewrite Na in L.
  assert (Old : forall x f, F x = Some f -> F' x = Some f).
  { intros x f Hx. eapply pd_old; eauto. intros ->. congruence. }
  exists s', F', a, fa. split; auto. split; [apply P|]. split.
  { split; [apply P|]. destruct H as (_ & [Al NA] & _). split; [split; auto; apply (x_alive _ _ _ _ _ (pd_ext _ _ _ _ _ _ _ _ _ _ P)); auto|].
    right. exists a. split; auto. congruence. }
  split; [apply P|]. split; auto. split; auto. split; [apply L|]. split; [apply L|]. split; auto. split.
  { intros x Hx. destruct (F x) as [f|] eqn:Ex; [|eapply pd_tidy; eauto]. eapply pd_tidy_old; eauto; [congruence|intros ->; congruence|].
    apply T. congruence. }
  split; [pose proof (x_used _ _ _ _ _ (pd_ext _ _ _ _ _ _ _ _ _ _ P) A) as U; now rewrite at_eq in U|].
  intros u w B' Nu Hu. eapply (parsed_on s F v Null A); eauto.
Qed.
(** Two documents in one allocator and a caller's buffer. *)
Lemma docs t1 j1 t2 j2 bs : ~ In 0 t1 -> ~ In 0 t2 -> json_text t1 j1 -> json_text t2 j2 ->
  lenN t1 < 100000 -> lenN t2 < 100000 -> lenN bs < 100000 ->
  exists s F A v a fa u b fb p, inv s F /\ on s F v a A /\ reads F a j1 /\ on s F u b A /\ reads F b j2 /\ u <> v /\ a <> b /\
    F a = Some fa /\ fkey fa = None /\ fpar fa = None /\ F b = Some fb /\ fkey fb = None /\ fpar fb = None /\
    (forall x, F x <> None -> tidy F x) /\ text_at s p = bs /\ safetext s p bs /\ room s A 900000000.
Proof.
  intros Z1 Z2 J1 J2 L1 L2 L3. change 100000 with 100000%N in *.
  assert (T32 : two32 = 4294967296) by reflexivity.
  destruct (scene (t1 ++ [0])) as (s0 & A & v & u & p1 & _ & I0 & Hv0 & Hu0 & Nuv & T0 & _ & _ & U0 & _).
  { unfold lenN in *. rewrite app_length. cbn. lia. }
  destruct (parse_step s0 nodocs v A p1 t1 j1 I0 Hv0) as (s1 & F1 & a & fa & _ & I1 & Hv1 & R1 & _ & Ea & Ka & Pa & Old1 & Ty1 & U1 & Han1); auto.
  { split; auto. now exists []. }
  { unfold room, len_cost. rewrite U0. change two30 with 1073741824. lia. }
  { intros x K. elim K. reflexivity. }
  destruct (userBuf_wp s1 (t2 ++ [0]) (i_wf _ _ I1)) as (p2 & s2 & _ & X2 & _ & T2 & _ & _ & _ & V2 & A2).
  { unfold lenN in *. rewrite app_length. cbn. lia. }
  pose proof (ext_inv _ _ _ _ _ X2 I1) as I2.
  assert (Hu2 : empty s2 F1 u A) by (eapply handle_ext; eauto; apply Han1; auto).
  assert (U2 : usedA s2 A = usedA s1 A) by (unfold usedA; now rewrite A2).
  destruct (parse_step s2 F1 u A p2 t2 j2 I2 Hu2) as (s3 & F3 & b & fb & _ & I3 & Hu3 & R3 & Nb & Eb & Kb & Pb & Old3 & Ty3 & U3 & Han3); auto.
  { split; auto. now exists []. }
  { unfold room, len_cost in *. rewrite U2. change two30 with 1073741824. lia. }
  destruct (userBuf_wp s3 bs (i_wf _ _ I3)) as (p3 & s4 & _ & X4 & _ & T4 & S4 & _ & _ & V4 & A4); [lia|].
  exists s4, F3, A, v, a, fa, u, b, fb, p3. split; [eapply ext_inv; eauto|].
  split; [eapply handle_ext; eauto; apply Han3; auto; eapply handle_ext; eauto|].
  split; [eapply reads_submap; [|exact R1]; intros x f; apply Old3|].
  split; [eapply handle_ext; eauto|]. split; auto. split; auto. split; [intros ->; congruence|]. split; [now apply Old3|].
  split; auto. split; auto. split; auto. split; auto. split; auto. split; auto. split; auto.
  split; [apply src_safetext; auto; intros [[]|(? & ? & ? & [] & _)]|].
  unfold room, len_cost, usedA in *. rewrite A4. change two30 with 1073741824. lia.
Qed.
