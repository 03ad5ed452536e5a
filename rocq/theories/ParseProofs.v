(** zj_ParseFast (Api.v) against the parsing machine (PureParse.v). *)
From Verif Require Import Base Spec Lex LexProofs Alloc AllocProofs Mem MemProofs Api PureParse Dom Steps StrBuf StringifyProofs.

Section WithVol.
Context {VV : vols}.

Definition links (n n' : node) : Prop :=
  nKey n' = nKey n /\ nKeyLen n' = nKeyLen n /\ nNext n' = nNext n /\ nPrev n' = nPrev n /\ nFather n' = nFather n.
Lemma links_refl n : links n n. Proof. repeat split. Qed.
Lemma links_trans a b c : links a b -> links b c -> links a c.
Proof. unfold links. intros (A1 & A2 & A3 & A4 & A5) (B1 & B2 & B3 & B4 & B5). repeat split; congruence. Qed.

Definition ctype (ob : bool) : jtype := if ob then TObject else TArray.
Lemma ctype_eqb ob ob' : jtype_eqb (ctype ob) (ctype ob') = eqb ob ob'.
Proof. destruct ob, ob'; reflexivity. Qed.

(** A finished value in node [p]. *)
Definition vreads (G : dom) (p : addr) (v : fval) (j : json) : Prop :=
  match v with
  | VNull => j = JNull
  | VBool b => j = JBool b
  | VNum t => j = JNum t
  | VStr t => j = JStr t
  | VCont ob kids => exists items, j = container ob items /\ readsL G kids items /\ chain G p ob kids /\
      lenN kids < two32 /\ prevs G None kids
  end.
Lemma vreads_submap G G' p v j : submap G G' -> vreads G p v j -> vreads G' p v j.
Proof.
  intro H. destruct v; simpl; auto. intros (items & E & H1 & H2 & H3 & H4). exists items. repeat split; auto.
  - eapply readsL_submap; eauto.
  - eapply chain_submap; eauto.
  - eapply prevs_submap; eauto.
Qed.
Lemma vreads_reads G p f j : G p = Some f -> vreads G p (fvalue f) j -> reads G p j.
Proof.
  intros Hp H. destruct (fvalue f) eqn:E; simpl in H; subst.
  - eapply rd_null; eauto.
  - eapply rd_bool; eauto.
  - eapply rd_num; eauto.
  - eapply rd_str; eauto.
  - destruct H as (items & -> & H1 & _). eapply rd_cont; eauto.
Qed.
Definition end_ok (n : node) (v : fval) : Prop :=
  match v with VCont _ (c :: r) => nEnd n = wopt (last_error (c :: r)) | _ => True end.
Definition fend_of (v : fval) : option addr :=
  match v with VCont _ kids => last_error kids | _ => None end.
Lemma end_ok_fend n v e : end_ok n v -> fend_of v = Some e -> nEnd n = At e.
Proof.
  destruct v as [| | | |ob [|c r]]; simpl; try discriminate. intros E1 E2. now rewrite E1, E2.
Qed.

Lemma addr_eqb_true a b : addr_eqb a b = true -> a = b.
Proof. destruct (addr_eqb_spec a b); [auto|discriminate]. Qed.
Lemma ws_no0 w : ws w -> ~ In 0 w.
Proof. intros H Hi. rewrite (Forall_forall is_ws w) in H. apply ws_nonzero. exact (H 0 Hi). Qed.

Lemma prefix_of_text {A} (x : A) (p r t q : list A) : p ++ r = t ++ x :: q -> ~ In x p ->
  exists t', t = p ++ t'.
Proof.
  revert t. induction p as [|y p IH]; intros t E H; simpl in *; [eauto|].
  destruct t as [|z t]; simpl in E; injection E as <- E.
  - exfalso. apply H. auto.
  - destruct (IH t E) as (t' & ->); [tauto|]. exists t'. reflexivity.
Qed.

Section Parse.
Variables (zn : bool) (s1 : st) (root src : addr) (A : N) (rn1 : node) (t slack : bytes).
Let text := t ++ 0 :: slack.
Let tot := N.of_nat (length text).
Hypothesis W : wfst s1.
Hypothesis Al : alive s1 A.
Hypothesis Hroot : snodes s1 root = Some rn1.
Hypothesis Ht : safetext s1 src t.
Hypothesis Hu : usedA s1 A + 72 * (lenN t + 1) <= two30.

Definition pext (c : N) (s : st) : Prop := ext (only root) none (at_ A (72 * c)) s1 s /\ mch s1 s /\ snodes s root <> None.

(** [rest] is what is left of the text, and [c] nodes were made so far. *)
Definition after (c : N) (rest : bytes) : Prop :=
  exists pre, text = pre ++ rest /\ ~ In 0 pre /\ c <= lenN pre.

Lemma after_room c rest : after c rest -> c <= lenN t.
Proof.
  intros (pre & E & H & L). symmetry in E. destruct (prefix_of_text _ _ _ _ _ E H) as (t' & ->). rewrite lenN_app. lia.
Qed.
Lemma after_drop c x rest : after c (x ++ rest) -> ~ In 0 x -> after c rest.
Proof.
  intros (pre & E & H & L) Hx. exists (pre ++ x). rewrite <- app_assoc. split; auto. split.
  - rewrite in_app_iff. tauto.
  - rewrite lenN_app. lia.
Qed.
Lemma after_drop1 c x rest : after c (x ++ rest) -> ~ In 0 x -> x <> [] -> after (c + 1) rest.
Proof.
  intros (pre & E & H & L) Hx Hn. exists (pre ++ x). rewrite <- app_assoc. split; auto. split.
  - rewrite in_app_iff. tauto.
  - rewrite lenN_app. destruct x; [congruence|]. rewrite lenN_cons. lia.
Qed.
Lemma pos_safe c b r s : after c (b ++ r) -> ~ In 0 b -> mch s1 s -> safetext s (pos_of src tot (b ++ r)) b.
Proof.
  intros (pre & E & H & L) Hb M. eapply mch_safetext; eauto.
  assert (Hp : exists t', t = (pre ++ b) ++ t').
  { eapply prefix_of_text with (x := 0) (r := r) (q := slack).
    - rewrite <- app_assoc. symmetry. exact E.
    - rewrite in_app_iff. tauto. }
  destruct Hp as (t' & Et). rewrite Et in Ht. apply safetext_app in Ht as [H1 _]. apply safetext_app in H1 as [_ H1].
  unfold pos_of, tot. rewrite E, !app_length.
  replace (N.of_nat (length pre + (length b + length r)) - N.of_nat (length b + length r)) with (N.of_nat (length pre)) by lia.
  exact H1.
Qed.

Lemma root_not_new a : beyond s1 a -> a <> root.
Proof. intros B ->. apply (beyond_nothing s1 root W) in B as (_ & B & _). congruence. Qed.

(** Steps under [pext] *)
Lemma still s s' a n : nupd s s' a n -> snodes s root <> None -> snodes s' root <> None.
Proof.
  intros U H. destruct (addr_dec root a) as [<-|N]; [rewrite (nu_eq _ _ _ _ U)|rewrite (nu_neq _ _ _ _ U)]; auto; discriminate.
Qed.
Lemma mod_p c s a f n : pext c s -> snodes s a = Some n -> beyond s1 a \/ a = root ->
  wp (modNode a f) s (fun _ s' => pext c s' /\ nupd s s' a (f n)).
Proof.
  intros (X & M & R) E H. eapply wp_mono; [eapply modNode_step; eauto|]. intros ? s' [X' U]. split; auto. split; auto.
  split; [eapply mch_trans; eauto; apply U|eapply still; eauto].
Qed.
Lemma scalar_p c s a ty p l n : pext c s -> snodes s a = Some n -> beyond s1 a \/ a = root ->
  wp (set_scalar a ty p l) s (fun _ s' => pext c s' /\ nupd s s' a (wLen l (wVal (At p) (wType ty n)))).
Proof.
  intros (X & M & R) E H. eapply wp_mono; [eapply set_scalar_step; eauto|]. intros ? s' [X' U]. split; auto. split; auto.
  split; [eapply mch_trans; eauto; apply U|eapply still; eauto].
Qed.
Lemma new_p c s : pext c s -> c <= lenN t ->
  wp (newNode A) s (fun a s' => pext (c + 1) s' /\ beyond s a /\ nupd s s' a blank_node).
Proof.
  intros (X & M & R) L. eapply wp_mono; [eapply newNode_step; eauto; lia|]. intros a s' (X' & B & U).
  split; [|split; auto]. split.
  - replace (72 * (c + 1)) with (72 * c + 72) by lia. auto.
  - split; [eapply mch_trans; eauto; apply U|eapply still; eauto].
Qed.
Lemma pext_beyond c s a : pext c s -> beyond s a -> beyond s1 a.
Proof. intros [X _]. exact (beyond_ext _ _ _ _ _ a X). Qed.
Lemma beyond_none c s a : pext c s -> beyond s a -> snodes s a = None.
Proof. intros [X _] B. now apply (beyond_nothing s a (x_wf _ _ _ _ _ X)). Qed.

(** ** What follows a number *)
(** Bytes that may follow a value in a JSON text, or end it. *)
Definition stops (x : N) : Prop := is_ws x \/ x = 44 \/ x = 93 \/ x = 125 \/ x = 0.
(** [b] stands at [p] in the text, before [rest] and before the terminator. *)
Definition open_at (p : addr) (b rest : bytes) : Prop :=
  exists pre, text = pre ++ b ++ rest /\ ~ In 0 (pre ++ b) /\ p = pos_of src tot (b ++ rest).
Definition closed_at (p : addr) (b : bytes) : Prop := exists x r, stops x /\ open_at p b (x :: r).
Lemma open_closed p b w x r : ws w -> stops x -> open_at p b (w ++ x :: r) -> closed_at p b.
Proof. intros Hw Hx H. destruct Hw as [|y w Hy Hw]; eexists _, _; (split; [|exact H]); auto. now left. Qed.
Lemma after_open c b r : after c (b ++ r) -> ~ In 0 b -> open_at (pos_of src tot (b ++ r)) b r.
Proof. intros (pre & E & H & _) Hb. exists pre. split; auto. split; auto. rewrite in_app_iff. tauto. Qed.
(** Every number of [G] is followed by such a byte. *)
Definition nums (s : st) (G : dom) : Prop := forall a f b n p,
  G a = Some f -> fvalue f = VNum b -> snodes s a = Some n -> nVal n = At p -> closed_at p b.
Definition open_num (n : node) (v : fval) (rest : bytes) : Prop := forall b p, v = VNum b -> nVal n = At p -> open_at p b rest.
Lemma nums_same s s' G : nums s G -> (forall a, G a <> None -> snodes s' a = snodes s a) -> nums s' G.
Proof. intros H K a f b n p Ha Hv Hn. rewrite K in Hn by congruence. eauto. Qed.
Lemma nums_add s s' G p n n' v f rest x w r : nums s G -> G p = None -> (forall a, G a <> None -> snodes s' a = snodes s a) ->
  snodes s' p = Some n' -> nVal n' = nVal n -> fvalue f = v -> open_num n v rest -> rest = w ++ x :: r -> ws w -> stops x ->
  nums s' (add G p f).
Proof.
  intros H Hp K Hn Ev Hf Ho -> Hw Hx a g b m q Ha Hv Hm Hq. unfold add in Ha. destruct (addr_eqb a p) eqn:E.
  - apply addr_eqb_true in E. subst a. injection Ha as <-. assert (m = n') by congruence. subst m.
    eapply open_closed; eauto. apply Ho; congruence.
  - eapply (nums_same s s' G); eauto.
Qed.

(** ** The switch *)
Definition leaf (v : fval) : Prop := match v with VCont _ (_ :: _) => False | _ => True end.

Definition sw_post (c : N) (s : st) (p : addr) (n : node) (sw : psw) (r : swres) (s' : st) : Prop :=
  match sw with
  | PStop => r = Stop /\ pext c s'
  | PBreak j r2 => r = Break r2 /\ pext c s' /\ exists n' v, nupd s s' p n' /\ links n n' /\
      rep_val s' n' v /\ leaf v /\ (forall G, vreads G p v j) /\ open_num n' v r2
  | PDown ob r2 => exists q, r = Down q r2 /\ pext (c + 1) s' /\ beyond s1 q /\ snodes s q = None /\ mch s s' /\
      (exists qn, snodes s' q = Some qn /\ nFather qn = At p /\ nPrev qn = Null) /\
      snodes s' p = Some (wLen 1 (wEnd (At q) (wVal (At q) (wType (ctype ob) n)))) /\
      forall b, b <> p -> b <> q -> snodes s' b = snodes s b
  end.

Lemma open_agree c s p n ob rest : pext c s -> snodes s p = Some n -> beyond s1 p \/ p = root ->
  c <= lenN t ->
  agree (open_container zn A (ctype ob) (closer ob) p rest) s (popen ob rest) (sw_post c s p n).
Proof.
  intros X Hn Hp Hc. unfold open_container, popen.
  eapply agree_wp; [eapply mod_p; eauto|]. intros ? s2 [X2 U2].
  apply agree_bind. apply agree_lift. intros [closed rest'] E. apply pac_inv in E as (w' & Hw' & E).
  destruct closed.
  - apply agree_ok.
    eapply wp_seq; [eapply mod_p; eauto; apply U2|]. intros ? s3 [X3 U3].
    eapply wp_seq; [eapply mod_p; eauto; apply U3|]. intros ? s4 [X4 U4].
    apply wp_ret. split; auto. split; auto.
    eexists _, (VCont ob []). split; [eapply nupd_trans; [eapply nupd_trans|]; eauto|].
    split; [repeat split|]. split; [|split].
    + simpl. destruct ob; auto.
    + exact I.
    + split; [|discriminate].
      intro G. exists []. split; [now destruct ob|]. split; [constructor|]. split; [exact I|]. unfold lenN, two32. simpl. split; [lia|exact I].
  - destruct E as (c' & q' & Er & _ & _ & E).
    apply agree_ok.
    eapply wp_seq; [eapply new_p; eauto|]. intros q s3 (X3 & B3 & U3).
    pose proof (pext_beyond _ _ _ X2 B3) as Hq1.
    pose proof (beyond_none _ _ _ X2 B3) as Hq2.
    assert (Hqp : q <> p).
    { intros ->. rewrite (nu_eq _ _ _ _ U2) in Hq2. discriminate. }
    eapply wp_seq; [eapply mod_p; eauto; apply U3|]. intros ? s4 [X4 U4].
    eapply wp_seq; [eapply mod_p; eauto; apply U4|]. intros ? s5 [X5 U5].
    assert (U35 := nupd_trans _ _ _ _ _ _ U3 (nupd_trans _ _ _ _ _ _ U4 U5)).
    eapply wp_seq with (P := fun _ s' => pext (c + 1) s' /\ exists qn, nFather qn = At p /\ nPrev qn = Null /\ nupd s2 s' q qn).
    { destruct (zn && jtype_eqb (ctype ob) TObject)%bool.
      - eapply wp_mono; [eapply mod_p; eauto; apply U35|]. intros ? s' [X' U']. split; [exact X'|].
        eexists. split; [|split; [|exact (nupd_trans _ _ _ _ _ _ U35 U')]]; reflexivity.
      - apply wp_ret. split; [auto|]. eexists. split; [|split; [|exact U35]]; reflexivity. }
    clear s5 X5 U5 U35. intros ? s5 (X5 & qn & Fq & Pq & U35).
    assert (P5 : snodes s5 p = Some (wType (ctype ob) n)).
    { rewrite (nu_neq _ _ _ _ U35) by auto. apply U2. }
    eapply wp_seq; [eapply mod_p; eauto|]. intros ? s6 [X6 U6].
    eapply wp_seq; [eapply mod_p; eauto; apply U6|]. intros ? s7 [X7 U7].
    eapply wp_seq; [eapply mod_p; eauto; apply U7|]. intros ? s8 [X8 U8].
    assert (U58 := nupd_trans _ _ _ _ _ _ U6 (nupd_trans _ _ _ _ _ _ U7 U8)).
    apply wp_ret. exists q. split; auto. split; auto. split; auto. split.
    { now rewrite <- (nu_neq _ _ _ _ U2). }
    split.
    { eapply mch_trans; [apply U2|]. eapply mch_trans; [apply U35|]. apply U58. }
    split; [|split].
    + exists qn. rewrite (nu_neq _ _ _ _ U58) by auto. split; [apply U35|auto].
    + apply U58.
    + intros b H1 H2. rewrite (nu_neq _ _ _ _ U58), (nu_neq _ _ _ _ U35), (nu_neq _ _ _ _ U2); auto.
Qed.

Lemma scalar_break c s p n ty a l j r v : pext c s -> snodes s p = Some n -> beyond s1 p \/ p = root ->
  (forall s' n', mch s s' -> wfst s' -> n' = wLen l (wVal (At a) (wType ty n)) -> rep_val s' n' v) ->
  leaf v -> (forall G, vreads G p v j) -> (forall b, v = VNum b -> open_at a b r) ->
  wp (set_scalar p ty a l ;;; ret (Break r)) s (sw_post c s p n (PBreak j r)).
Proof.
  intros X Hn Hp Hv Hl Hj Ho. eapply wp_seq; [eapply scalar_p; eauto|]. intros ? s' [X' U]. apply wp_ret.
  split; auto. split; auto. eexists _, v. split; [exact U|]. split; [repeat split|]. split; [|split]; auto.
  { apply Hv; auto; [apply U|]. destruct X' as [X' _]. apply X'. }
  split; auto. intros b q Eb Eq. cbn in Eq. injection Eq as <-. auto.
Qed.

Lemma switch_agree c s p n rest : pext c s -> snodes s p = Some n -> beyond s1 p \/ p = root ->
  after c rest ->
  agree (parse_switch zn A src tot p rest) s (pswitch rest) (sw_post c s p n).
Proof.
  intros X Hn Hp Ha. unfold parse_switch, pswitch.
  assert (Hr := after_room _ _ Ha).
  apply agree_bind. apply agree_lift. intros [ch rest1] E. apply peek_inv in E as (w & Hw & Hch & ->).
  assert (Ha1 : after c (ch :: rest1)) by (apply (after_drop _ _ _ Ha); now apply ws_no0).
  destruct (ch =? 91); [apply (open_agree c s p n false); auto|].
  destruct (ch =? 123); [apply (open_agree c s p n true); auto|].
  destruct (ch =? 110).
  { apply agree_bind. apply agree_lift. intros [r2|] _; apply agree_ok; [|now apply wp_ret].
    eapply scalar_break with (v := VNull); eauto; try exact I; try discriminate.
    - intros s' n' M W' ->. split; [reflexivity|]. split; [reflexivity|]. exists zj_strNull. split; [reflexivity|]. now apply strNull_safe.
    - reflexivity. }
  destruct (ch =? 102).
  { apply agree_bind. apply agree_lift. intros [r2|] _; apply agree_ok; [|now apply wp_ret].
    eapply scalar_break with (v := VBool false); eauto; try exact I; try discriminate.
    - intros s' n' M W' ->. split; [reflexivity|]. split; [reflexivity|]. exists zj_strFalse. split; [reflexivity|]. now apply strFalse_safe.
    - reflexivity. }
  destruct (ch =? 116).
  { apply agree_bind. apply agree_lift. intros [r2|] _; apply agree_ok; [|now apply wp_ret].
    eapply scalar_break with (v := VBool true); eauto; try exact I; try discriminate.
    - intros s' n' M W' ->. split; [reflexivity|]. split; [reflexivity|]. exists zj_strTrue. split; [reflexivity|]. now apply strTrue_safe.
    - reflexivity. }
  destruct (ch =? 34) eqn:E34.
  { apply N.eqb_eq in E34. subst ch.
    assert (Ha2 : after c rest1) by (apply (after_drop c [34] rest1); auto; simpl; intros [?|[]]; discriminate).
    apply agree_bind. apply agree_lift. intros [r2|] E1.
    - apply agree_ok. eapply scalar_break with (v := VStr []); eauto; try exact I; try discriminate.
      + intros s' n' M W' ->. split; [reflexivity|]. split; [reflexivity|]. eexists. split; [reflexivity|]. apply safetext_nil.
      + reflexivity.
    - apply agree_bind. apply agree_lift. intros [r2|] E2; apply agree_ok; [|now apply wp_ret].
      apply consumeStr_inv in E2 as (b & Hb & ->). rewrite firstn_body.
      assert (E0 : N.of_nat (length (b ++ 34 :: r2)) - N.of_nat (length r2) - 1 = lenN b).
      { unfold lenN. rewrite app_length. simpl. lia. }
      rewrite E0.
      eapply scalar_break with (v := VStr b); eauto; try exact I; try discriminate.
      + intros s' n' M W' ->. split; [reflexivity|]. split; [reflexivity|]. eexists. split; [reflexivity|].
        eapply mch_safetext; [exact M|]. eapply pos_safe; [exact Ha2| |apply X]. now apply strbody_no0.
      + reflexivity. }
  apply agree_bind. apply agree_lift. intros [r2|] E2; apply agree_ok; [|now apply wp_ret].
  apply consumeNum_inv in E2 as (b & Hb & E2). rewrite E2 in *.
  assert (E0 : N.of_nat (length (b ++ r2)) - N.of_nat (length r2) = lenN b).
  { unfold lenN. rewrite app_length. simpl. lia. }
  rewrite E0. rewrite firstn_num.
  eapply scalar_break with (v := VNum b); eauto; try exact I; try discriminate.
  + intros s' n' M W' ->. split; [reflexivity|]. split; [reflexivity|]. eexists. split; [reflexivity|].
    eapply mch_safetext; [exact M|]. eapply pos_safe; [exact Ha1| |apply X]. now apply number_no0.
  + reflexivity.
  + intros b' Eb. injection Eb as <-. eapply after_open; [exact Ha1|]. now apply number_no0.
Qed.

Lemma scalar_text_no0 b j : jvalue b j -> scalar_text b j -> ~ In 0 b.
Proof.
  intros V S. destruct V; simpl in S.
  - intros [H|[H|[H|[H|[]]]]]; discriminate.
  - intros [H|[H|[H|[H|[]]]]]; discriminate.
  - intros [H|[H|[H|[H|[H|[]]]]]]; discriminate.
  - now apply number_no0.
  - intros [H0|H0]; [discriminate|]. apply in_app_or in H0 as [H0|[H0|[]]]; [|discriminate].
    eapply strbody_no0; eauto.
  - intros [H0|H0]; [discriminate|]. apply in_app_or in H0 as [H0|[H0|[]]]; [|discriminate].
    eapply ws_no0; eauto.
  - destruct S as (_ & w' & Hw' & ->).
    intros [H0|H0]; [discriminate|]. apply in_app_or in H0 as [H0|[H0|[]]]; [|discriminate].
    eapply ws_no0; eauto.
  - intros [H0|H0]; [discriminate|]. apply in_app_or in H0 as [H0|[H0|[]]]; [|discriminate].
    eapply ws_no0; eauto.
  - destruct S as (_ & w' & Hw' & ->).
    intros [H0|H0]; [discriminate|]. apply in_app_or in H0 as [H0|[H0|[]]]; [|discriminate].
    eapply ws_no0; eauto.
Qed.
Lemma switch_after c rest sw : after c rest -> pswitch rest = Ok sw ->
  match sw with
  | PBreak _ r => after c r
  | PDown _ r => after (c + 1) r
  | PStop => True
  end.
Proof.
  intros Ha E. apply pswitch_inv in E. destruct sw as [j r|ob r|]; auto.
  - destruct E as (w & b & Hw & Hb & Hs & ->). apply after_drop in Ha; [|now apply ws_no0].
    apply after_drop in Ha; auto. eapply scalar_text_no0; eauto.
  - destruct E as (w & w' & Hw & Hw' & -> & _). apply after_drop in Ha; [|now apply ws_no0].
    apply (after_drop1 c [opener ob]) in Ha; [|destruct ob; intros [H|[]]; discriminate|discriminate].
    apply after_drop in Ha; auto. now apply ws_no0.
Qed.
Lemma key_after c ob rest key r : after c rest -> pkey ob rest = Ok (Some (key, r)) -> after c r.
Proof.
  intros Ha E. apply pkey_inv in E. destruct ob.
  - destruct E as (w & k & w2 & r3 & Hw & Hk & Hw2 & E & ->). injection E as -> ->.
    apply after_drop in Ha; [|now apply ws_no0].
    apply (after_drop c [34]) in Ha; [|intros [H|[]]; discriminate].
    apply after_drop in Ha; [|now apply strbody_no0].
    apply (after_drop c [34]) in Ha; [|intros [H|[]]; discriminate].
    apply after_drop in Ha; [|now apply ws_no0].
    apply (after_drop c [58]) in Ha; [auto|intros [H|[]]; discriminate].
  - injection E as -> ->. auto.
Qed.

(** ** Keys *)
Definition okkey (ob : bool) (k : option bytes) : Prop := if ob then k <> None else k = None.
Definition key_post (c : N) (s : st) (p : addr) (n : node) (ob : bool) (o : option (option bytes * bytes))
    (r : option bytes) (s' : st) : Prop :=
  match o with
  | None => r = None /\ pext c s'
  | Some (k, r1) => r = Some r1 /\ pext c s' /\ okkey ob k /\ exists n', nupd s s' p n' /\ rep_key s' n' k /\
      nFather n' = nFather n /\ nPrev n' = nPrev n
  end.

Lemma key_agree c s p n par pn ob rest : pext c s -> snodes s p = Some n -> beyond s1 p ->
  nFather n = At par -> snodes s par = Some pn -> nType pn = Some (ctype ob) -> after c rest ->
  agree (parse_key src tot p rest) s (pkey ob rest) (key_post c s p n ob).
Proof.
  intros X Hn Hp Hf Hpn Hty Ha. unfold parse_key.
  eapply agree_wp with (P := fun a s' => a = n /\ s' = s); [apply (wp_getNode _ n); auto|]. intros ? ? [-> ->].
  eapply agree_wp with (P := fun a s' => a = par /\ s' = s); [rewrite Hf; apply wp_deref; auto|]. intros ? ? [-> ->].
  eapply agree_wp with (P := fun a s' => a = pn /\ s' = s); [apply (wp_getNode _ pn); auto|]. intros ? ? [-> ->].
  eapply agree_wp with (P := fun a s' => a = ctype ob /\ s' = s); [eapply wp_rType; eauto|]. intros ? ? [-> ->].
  unfold pkey. destruct ob.
  - change (jtype_eqb (ctype true) TObject) with true. cbv iota.
    apply agree_bind. apply agree_lift. intros [ok r1] E1. destruct ok; cbn [negb]; [|apply agree_ok, wp_ret; split; auto].
    apply pac_inv in E1 as (w & Hw & ->).
    assert (Ha1 : after c r1).
    { apply after_drop in Ha; [|now apply ws_no0]. apply (after_drop c [34]) in Ha; auto. intros [H|[]]; discriminate. }
    apply agree_bind. apply agree_lift. intros e Ee.
    apply agree_bind.
    apply agree_mono with (Q := fun o r s' => match o with
      | None => r = None /\ pext c s'
      | Some (k, r2) => r = Some r2 /\ pext c s' /\ exists n', nupd s s' p n' /\ rep_key s' n' (Some k) /\
          nFather n' = nFather n /\ nPrev n' = nPrev n end).
    + destruct e as [r2|].
      * apply agree_ok. eapply wp_seq; [eapply mod_p; eauto|]. intros ? s2 [X2 U2].
        eapply wp_seq; [eapply mod_p; eauto; apply U2|]. intros ? s3 [X3 U3].
        apply wp_ret. split; auto. split; auto. eexists. split; [eapply nupd_trans; eauto|].
        split; [|split; reflexivity]. eexists. split; [reflexivity|]. split; [reflexivity|]. apply safetext_nil.
      * apply agree_bind. apply agree_lift. intros [r2|] E2; apply agree_ok; [|now apply wp_ret].
        apply consumeStr_inv in E2 as (b & Hb & ->). rewrite firstn_body.
        assert (E0 : N.of_nat (length (b ++ 34 :: r2)) - N.of_nat (length r2) - 1 = lenN b).
        { unfold lenN. rewrite app_length. simpl. lia. }
        rewrite E0.
        eapply wp_seq; [eapply mod_p; eauto|]. intros ? s2 [X2 U2].
        eapply wp_seq; [eapply mod_p; eauto; apply U2|]. intros ? s3 [X3 U3].
        apply wp_ret. split; auto. split; auto. eexists. split; [eapply nupd_trans; eauto|].
        split; [|split; reflexivity]. eexists. split; [reflexivity|]. split; [reflexivity|].
        eapply pos_safe; [exact Ha1| |apply X3]. now apply strbody_no0.
    + intros [[k r2]|] r s' _; [|intros [-> X']; apply agree_ok, wp_ret; split; auto].
      intros (-> & X' & n' & U & H). apply agree_bind. apply agree_lift. intros [ok r3] E3.
      apply agree_ok. destruct ok; apply wp_ret; simpl; split; auto. split; auto. split; [discriminate|]. eauto.
  - change (jtype_eqb (ctype false) TObject) with false. cbv iota.
    apply agree_ok. eapply wp_seq; [eapply mod_p; eauto|]. intros ? s2 [X2 U2].
    apply wp_ret. split; auto. split; auto. split; [reflexivity|]. eexists. split; [exact U2|]. repeat split.
Qed.

(** ** The open containers *)
Inductive spine (s : st) (G : dom) : bool -> addr -> list frame -> list addr -> Prop :=
| sp_root b n : snodes s root = Some n -> links rn1 n -> spine s G b root [] []
| sp_frame b p par f fs sp done n pn :
    beyond s1 p -> snodes s p = Some n -> nFather n = At par -> nPrev n = wopt (last_error done) ->
    (b = true -> rep_key s n (fcur f) /\ okkey (fobj f) (fcur f)) ->
    snodes s par = Some pn -> nType pn = Some (ctype (fobj f)) ->
    nVal pn = wopt (hd_error (done ++ [p])) -> nLen pn = Some (lenN done + 1) -> nEnd pn = At p ->
    readsL G done (fdone f) -> chain_to G par (fobj f) done (Some p) -> prevs G None done ->
    spine s G true par fs sp -> spine s G b p (f :: fs) (par :: sp).

Lemma spine_in s G b p stk sp a : spine s G b p stk sp -> In a (p :: sp) ->
  (exists n, snodes s a = Some n) /\ (a = root \/ beyond s1 a).
Proof.
  intro H. revert a. induction H as [b n H1 H2|b p par f fs sp done n pn Hb Hn ? ? ? Hpn ? ? ? ? ? ? ? H IH].
  - intros a [<-|[]]. eauto.
  - intros a [<-|Ha]; [split; eauto|auto].
Qed.
Lemma spine_root s G b p stk sp : spine s G b p stk sp -> In root (p :: sp).
Proof. induction 1; [left; auto|right; auto]. Qed.

Definition cfields (n n' : node) : Prop :=
  nType n' = nType n /\ nVal n' = nVal n /\ nLen n' = nLen n /\ nEnd n' = nEnd n.
Lemma rep_key_mch s s' n n' k : mch s s' -> links n n' -> rep_key s n k -> rep_key s' n' k.
Proof.
  intros M (E1 & E2 & _). destruct k; simpl; [|now rewrite E1].
  rewrite E1, E2. intros (q & H1 & H2 & H3). exists q. repeat split; auto; eapply mch_safetext; eauto.
Qed.
Lemma spine_move s s' G G' b p stk sp : spine s G b p stk sp -> mch s s' -> submap G G' -> NoDup (p :: sp) ->
  (forall a n, In a (p :: sp) -> snodes s a = Some n ->
     exists n', snodes s' a = Some n' /\ links n n' /\ (a = p \/ cfields n n')) ->
  spine s' G' b p stk sp.
Proof.
  intros H M S. induction H as [b n H1 H2|b p par f fs sp done n pn Hb Hn Hf Hpr Hk Hpn Ht' Hv Hl He Hr Hc Hpv H IH]; intros ND K.
  - destruct (K root n) as (n' & E & L & _); simpl; auto. apply (sp_root _ _ _ n'); auto. eapply links_trans; eauto.
  - destruct (K p n) as (n' & E & L & _); simpl; auto.
    assert (Npar : par <> p). { intros ->. inversion ND; subst. simpl in *. tauto. }
    destruct (K par pn) as (pn' & E' & L' & [C|C]); simpl; auto; [congruence|].
    destruct C as (C1 & C2 & C3 & C4).
    pose proof L as (L1 & L2 & L3 & L4 & L5).
    eapply (sp_frame _ _ _ p par f fs sp done n' pn'); auto; try congruence.
    + intro Hbt. destruct (Hk Hbt) as [K1 K2]. split; auto. eapply rep_key_mch; eauto.
    + eapply readsL_submap; eauto.
    + eapply chain_to_submap; eauto.
    + eapply prevs_submap; eauto.
    + apply IH; [now inversion ND|]. intros a m Ha Hm. destruct (K a m) as (m' & Em & Lm & Cm); auto.
      { right; auto. }
      exists m'. split; auto. split; auto. destruct Cm as [->|]; auto.
      exfalso. inversion ND; auto.
Qed.
Lemma submap_refl G : submap G G. Proof. intros a f H. exact H. Qed.

Record pst (c : N) (s : st) (G : dom) (p : addr) (stk : list frame) (sp : list addr) : Prop := {
  ps_ext : pext c s;
  ps_rep : rep none s G;
  ps_dom : wfdom G;
  ps_tidy : forall a, tidy G a;
  ps_new : forall a, G a <> None -> beyond s1 a;
  ps_nd : NoDup (p :: sp);
  ps_dis : forall a, In a (p :: sp) -> G a = None;
  ps_cnt : Forall (fun f => lenN (fdone f) + 1 <= c) stk;
  ps_nums : nums s G
}.

Definition loop_post (o : option (json * bytes)) (r : option bytes) (s' : st) : Prop :=
  match o with
  | None => r = None /\ exists c, c <= lenN t /\ pext c s'
  | Some (j, rest') => r = Some rest' /\ exists c G rn v, c <= lenN t /\ pext c s' /\ rep none s' G /\ wfdom G /\ (forall a, tidy G a) /\
      (forall a, G a <> None -> beyond s1 a) /\ snodes s' root = Some rn /\ links rn1 rn /\
      rep_val s' rn v /\ end_ok rn v /\ vreads G root v j /\ nums s' G /\ open_num rn v rest'
  end.

(** A node whose value is complete. *)
Lemma complete s s' G p n v j k par nxt prv :
  rep none s G -> wfdom G -> (forall a, tidy G a) -> G p = None -> snodes s p = Some n -> mch s s' ->
  snodes s' p = Some (wNext (wopt nxt) n) -> (forall a, G a <> None -> snodes s' a = snodes s a) ->
  rep_val s n v -> end_ok n v -> vreads G p v j -> rep_key s n k -> nFather n = At par -> nPrev n = wopt prv ->
  let G' := add G p (mkF k v (Some par) nxt prv (fend_of v) false) in
  submap G G' /\ rep none s' G' /\ wfdom G' /\ reads G' p j /\ forall a, tidy G' a.
Proof.
  intros R D T Hp Hn M Hn' Ho Hv He Hj Hk Hf Hpr G'.
  assert (S : submap G G') by now apply add_submap. split; [exact S|]. split; [|split; [|split]].
  - intros a f Ha _. unfold G', add in Ha. destruct (addr_eqb a p) eqn:E.
    + apply addr_eqb_true in E. subst a. injection Ha as <-. eexists. split; [exact Hn'|].
      apply (rep_node_mch s s' _ _ M). constructor; simpl; auto; [|discriminate].
      intros e Ee. eapply end_ok_fend; eauto.
    + destruct (R a f Ha) as (m & Hm & Hr); [auto|]. exists m. rewrite Ho by congruence. split; auto.
      eapply rep_node_mch; eauto.
  - intros a f Ha. unfold G', add in Ha. destruct (addr_eqb a p) eqn:E.
    + apply addr_eqb_true in E. subst a. injection Ha as <-. simpl. split; [|discriminate].
      intros ob kids ->. destruct Hj as (items & _ & _ & Hc & Hl & _). split; auto. eapply chain_submap; eauto.
    + destruct (D a f Ha) as [D1 D2]. split; auto. intros ob kids Hv'. destruct (D1 _ _ Hv') as [D3 D4].
      split; auto. eapply chain_submap; eauto.
  - eapply vreads_reads; [apply add_eq|]. simpl. eapply vreads_submap; eauto.
  - intros a f ob kids Ha Hvf. unfold G', add in Ha. destruct (addr_eqb a p) eqn:E.
    + injection Ha as <-. simpl in *. subst v. split; auto. destruct Hj as (items & _ & _ & _ & _ & Hpv).
      eapply prevs_submap; eauto.
    + destruct (T a f ob kids Ha Hvf) as [T1 T2]. split; auto. eapply prevs_submap; eauto.
Qed.

Lemma par_ne s G p f fs par sp c : pst c s G p (f :: fs) (par :: sp) -> par <> p.
Proof. intros P ->. pose proof (ps_nd _ _ _ _ _ _ P) as H. inversion H; subst. simpl in *. tauto. Qed.

Lemma spine_ne_root s G b p f fs sp : spine s G b p (f :: fs) sp -> addr_eqb p root = false.
Proof. intro H. inversion H; subst. apply addr_eqb_neq. now apply root_not_new. Qed.

Lemma agree_pre {X Y B} (m : M X) (k : X -> M Y) s (r : res B) x Q :
  wp m s (fun a s' => a = x /\ s' = s) -> agree (k x) s r Q -> agree (bind m k) s r Q.
Proof. intros H K. eapply agree_wp; [exact H|]. intros ? ? [-> ->]. exact K. Qed.

Lemma loop_agree fuel : forall c s G p stk sp j rest,
  (pst c s G p stk sp -> spine s G false p stk sp -> stk <> [] -> after c rest ->
     agree (parse_loop zn fuel A src tot root Item p rest) s (pm fuel Item j stk rest) loop_post) /\
  (pst c s G p stk sp -> spine s G true p stk sp -> after c rest ->
     forall n v, snodes s p = Some n -> rep_val s n v -> end_ok n v -> vreads G p v j -> open_num n v rest ->
     agree (parse_loop zn fuel A src tot root Close p rest) s (pm fuel Close j stk rest) loop_post).
Proof.
  induction fuel as [|fuel IH]; intros c s G p stk sp j rest.
  { split.
    - intros P S Hne Ha. destruct stk as [|f fs]; [congruence|].
      cbn [parse_loop pm]. rewrite (spine_ne_root _ _ _ _ _ _ _ S). reflexivity.
    - intros P S Ha n v Hn Hv He Hj Hopen. destruct stk as [|f fs].
      + inversion S; subst. cbn [parse_loop pm]. rewrite addr_eqb_refl. apply agree_ok, wp_ret.
        split; auto. exists c, G, n, v. assert (n0 = n) by congruence. subst n0.
        destruct P. repeat (split; eauto). eapply after_room; eauto.
      + cbn [parse_loop pm]. rewrite (spine_ne_root _ _ _ _ _ _ _ S). reflexivity. }
  split.
  - intros P S Hne Ha. destruct stk as [|f fs]; [congruence|].
    cbn [parse_loop pm]. rewrite (spine_ne_root _ _ _ _ _ _ _ S).
    inversion S as [|b p' par f' fs' sp' done n pn Hb Hn Hf Hpr Hk Hpn Hty Hv Hl He Hr Hc Hpv Hup]; subst.
    pose proof (par_ne _ _ _ _ _ _ _ _ P) as Npar.
    apply agree_bind.
    eapply agree_mono; [eapply (key_agree c s p n par pn (fobj f)); eauto; apply P|].
    intros [[k r1]|] r s2 Ek; cbn [key_post]; [|intros [-> X2]; apply agree_ok, wp_ret; split; auto].
    2:{ exists c. split; auto. eapply after_room; eauto. }
    intros (-> & X2 & Hok & n2 & U2 & Hk2 & Hf2 & Hpr2).
    pose proof (key_after _ _ _ _ _ Ha Ek) as Ha1.
    apply agree_bind.
    eapply agree_mono; [eapply (switch_agree c s2 p n2); eauto; apply U2|].
    intros sw r s3 Es Hs. pose proof (switch_after _ _ _ Ha1 Es) as Ha2.
    assert (Hpn2 : snodes s2 par = Some pn) by (rewrite (nu_neq _ _ _ _ U2); auto).
    (* nodes of the spine above p, and of G, at s2 *)
    assert (Up : forall a, In a (par :: sp') -> a <> p).
    { intros a Ha' ->. pose proof (ps_nd _ _ _ _ _ _ P) as ND. now inversion ND. }
    destruct sw as [j' r2|ob r2|]; cbn [sw_post] in Hs.
    + destruct Hs as (-> & X3 & n3 & v & U3 & L3 & Hv3 & Hlf & Hj & Ho3).
      assert (U := nupd_trans _ _ _ _ _ _ U2 U3).
      assert (Hend : end_ok n3 v) by (destruct v as [| | | |? [|? ?]]; simpl in *; tauto).
      destruct P as [P1 P2 P3 P3t P4 P5 P6 P7 P8].
      eapply (IH c s3 G p (mkFrame (fobj f) (fdone f) k :: fs) (par :: sp') j' r2); eauto; [| |apply U].
      * constructor; auto.
        -- intros a g Hg _. destruct (P2 a g Hg) as (m & Hm & Hrm); auto. exists m.
           assert (a <> p) by (intros ->; rewrite P6 in Hg; [discriminate|left; auto]).
           rewrite (nu_neq _ _ _ _ U); auto. split; auto. eapply rep_node_mch; [apply U|]; auto.
        -- inversion P7; subst. constructor; auto.
        -- apply (nums_same s); auto. intros a Hga. apply U. intros ->. apply Hga, P6. left. auto.
      * pose proof L3 as (L31 & L32 & L33 & L34 & L35).
        eapply (sp_frame _ _ true p par _ fs sp' done n3 pn); simpl; auto; try congruence; try apply U.
        -- intros _. split; auto. eapply rep_key_mch; [apply U3|exact L3|auto].
        -- rewrite (nu_neq _ _ _ _ U); auto.
        -- eapply (spine_move s s3 G G true par fs sp'); auto; [apply U|apply submap_refl|now inversion P5|].
           intros a m Ha' Hm. exists m. rewrite (nu_neq _ _ _ _ U); auto. split; auto. split; [apply links_refl|].
           right. repeat split.
    + destruct Hs as (q & -> & X3 & Bq & Nq & M3 & (qn & Eq & Eqf & Eqp) & Ep & Eo).
      assert (Nqp : q <> p). { intros ->. rewrite (nu_eq _ _ _ _ U2) in Nq. discriminate. }
      assert (Nq0 : snodes s q = None) by (rewrite <- (nu_neq _ _ _ _ U2); auto).
      destruct P as [P1 P2 P3 P3t P4 P5 P6 P7 P8].
      assert (Hspq : ~ In q (p :: par :: sp')).
      { intro Hi. destruct (spine_in _ _ _ _ _ _ q S Hi) as [[m Hm] _]. congruence. }
      assert (Gq : G q = None).
      { destruct (G q) as [g|] eqn:E; auto. destruct (P2 q g E) as (m & Hm & _); auto. congruence. }
      assert (Mf : mch s s3) by (eapply mch_trans; [apply U2|auto]).
      eapply (IH (c + 1) s3 G q (mkFrame ob [] None :: mkFrame (fobj f) (fdone f) k :: fs) (p :: par :: sp') JNull r2);
        eauto; [| |discriminate].
      * constructor; auto.
        -- intros a g Hg _. destruct (P2 a g Hg) as (m & Hm & Hrm); auto. exists m.
           assert (a <> p) by (intros ->; rewrite P6 in Hg; [discriminate|left; auto]).
           rewrite Eo, (nu_neq _ _ _ _ U2); auto; [|congruence]. split; auto. eapply rep_node_mch; eauto.
        -- constructor; auto.
        -- intros a [<-|Ha']; auto.
        -- inversion P7; subst. constructor; [unfold lenN; simpl; lia|]. constructor; [simpl; lia|].
           eapply Forall_impl; [|eassumption]. simpl. intros; lia.
        -- apply (nums_same s); auto. intros a Hga. assert (a <> p) by (intros ->; apply Hga, P6; left; auto).
           rewrite Eo, (nu_neq _ _ _ _ U2); auto. congruence.
      * eapply (sp_frame _ _ false q p _ _ (par :: sp') []); eauto; try reflexivity; try discriminate.
        { constructor. }
        eapply (sp_frame _ _ true p par _ fs sp' done _ pn); simpl; eauto; try congruence.
        -- simpl. congruence.
        -- simpl. congruence.
        -- intros _. split; auto. eapply (rep_key_mch s2); [exact M3| |exact Hk2]. repeat split.
        -- rewrite Eo; auto. intros ->. apply Hspq. right. left. auto.
        -- eapply (spine_move s s3 G G true par fs sp'); auto; [apply submap_refl|now inversion P5|].
           intros a m Ha' Hm. exists m. assert (a <> q) by congruence.
           rewrite Eo, (nu_neq _ _ _ _ U2); auto. split; auto. split; [apply links_refl|].
           right. repeat split.
    + destruct Hs as [-> X3]. apply agree_ok, wp_ret. split; auto. exists c. split; auto. eapply after_room; eauto.
  - intros P S Ha n v Hn Hv He Hj Hopen. destruct stk as [|f fs].
    { inversion S; subst. cbn [parse_loop pm]. rewrite addr_eqb_refl. apply agree_ok, wp_ret.
      split; auto. exists c, G, n, v. assert (n0 = n) by congruence. subst n0.
      destruct P. repeat (split; eauto). eapply after_room; eauto. }
    cbn [parse_loop pm]. rewrite (spine_ne_root _ _ _ _ _ _ _ S).
    inversion S as [|b p' par f' fs' sp' done n' pn Hb Hn' Hf Hpr Hk Hpn Hty Hvp Hl Hep Hr Hc Hpv Hup]; subst.
    assert (n' = n) by congruence. subst n'.
    destruct (Hk eq_refl) as [Hkr Hok].
    pose proof (par_ne _ _ _ _ _ _ _ _ P) as Npar.
    assert (Up : forall a, In a (par :: sp') -> a <> p).
    { intros a Ha' ->. pose proof (ps_nd _ _ _ _ _ _ P) as ND. now inversion ND. }
    destruct P as [P1 P2 P3 P3t P4 P5 P6 P7 P8].
    assert (Gp : G p = None) by (apply P6; left; auto).
    assert (Gpar : G par = None) by (apply P6; right; left; auto).
    assert (Hcnt : lenN done + 1 <= c).
    { inversion P7; subst. unfold lenN in *. rewrite (readsL_length _ _ _ Hr). auto. }
    assert (Hroom := after_room _ _ Ha).
    assert (Hsmall : lenN done + 2 < two32) by (unfold two32, two30 in *; lia).
    apply agree_bind. apply agree_lift. intros [comma r1] Ec. apply pac_inv in Ec as (w & Hw & Ec).
    destruct comma.
    + subst rest.
      assert (Ha1 : after (c + 1) r1).
      { apply after_drop in Ha; [|now apply ws_no0]. apply (after_drop1 c [44]) in Ha; auto; [|discriminate]. intros [H|[]]; discriminate. }
      eapply agree_wp; [eapply new_p; eauto|]. intros q s2 (X2 & B2 & U2).
      pose proof (pext_beyond _ _ _ P1 B2) as Hq1.
      pose proof (beyond_none _ _ _ P1 B2) as Hq2.
      assert (Hspq : ~ In q (p :: par :: sp')).
      { intro Hi. destruct (spine_in _ _ _ _ _ _ q S Hi) as [[m Hm] _]. congruence. }
      assert (Nqp : q <> p) by congruence.
      assert (Nqpar : q <> par) by congruence.
      assert (Gq : G q = None).
      { destruct (G q) as [g|] eqn:E; auto. destruct (P2 q g E) as (m & Hm & _); auto. congruence. }
      assert (Hn2 : snodes s2 p = Some n) by (rewrite (nu_neq _ _ _ _ U2); auto).
      eapply agree_pre; [apply (wp_getNode _ n); auto|].
      eapply agree_wp; [eapply mod_p; eauto; apply U2|]. intros [] s3 [X3 U3].
      eapply agree_wp; [eapply mod_p; eauto; apply U3|]. intros [] s4 [X4 U4].
      assert (U24 := nupd_trans _ _ _ _ _ _ U2 (nupd_trans _ _ _ _ _ _ U3 U4)).
      eapply agree_pre; [rewrite Hf; apply wp_deref; auto|].
      assert (Bpar : beyond s1 par \/ par = root).
      { destruct (spine_in _ _ _ _ _ _ par S) as [_ [H|H]]; simpl; auto. }
      assert (Hpn4 : snodes s4 par = Some pn) by (rewrite (nu_neq _ _ _ _ U24); auto).
      eapply agree_wp; [eapply mod_p; eauto|]. intros [] s5 [X5 U5].
      eapply agree_pre; [eapply (wp_getNode _ _); [apply U5|]; auto|].
      eapply agree_pre; [eapply wp_rLen; [exact Hl|]; auto|].
      eapply agree_wp; [eapply mod_p; eauto; apply U5|]. intros [] s6 [X6 U6].
      assert (U46 := nupd_trans _ _ _ _ _ _ U5 U6).
      assert (Hn6 : snodes s6 p = Some n) by (rewrite (nu_neq _ _ _ _ U46), (nu_neq _ _ _ _ U24); auto).
      eapply agree_wp; [eapply mod_p; eauto|]. intros [] s7 [X7 U7].
      assert (Mf : mch s s7).
      { eapply mch_trans; [apply U24|]. eapply mch_trans; [apply U46|]. apply U7. }
      assert (Eo : forall a, a <> p -> a <> q -> a <> par -> snodes s7 a = snodes s a).
      { intros a H1 H2 H3. rewrite (nu_neq _ _ _ _ U7), (nu_neq _ _ _ _ U46), (nu_neq _ _ _ _ U24); auto. }
      assert (Eq : snodes s7 q = Some (wPrev (At p) (wFather (At par) blank_node))).
      { rewrite (nu_neq _ _ _ _ U7), (nu_neq _ _ _ _ U46), <- Hf; auto. apply U24. }
      assert (Epar : snodes s7 par = Some (wLen (u32 (lenN done + 1 + 1)) (wEnd (At q) pn))).
      { rewrite (nu_neq _ _ _ _ U7); auto. apply U46. }
      destruct (complete s s7 G p n v j (fcur f) par (Some q) (last_error done)) as (C1 & C2 & C3 & C4 & C5); auto.
      { apply U7. }
      { intros a Hga. apply Eo; intros ->; congruence. }
      set (G' := add G p (mkF (fcur f) v (Some par) (Some q) (last_error done) (fend_of v) false)) in *.
      eapply (IH (c + 1) s7 G' q (mkFrame (fobj f) (fdone f ++ [(fcur f, j)]) None :: fs) (par :: sp') JNull r1); auto; [| |discriminate].
      * constructor; auto.
        -- intros a Hga. unfold G', add in Hga. destruct (addr_eqb_spec a p); subst; auto.
        -- constructor; [|now inversion P5]. intro Hi. apply Hspq. right. auto.
        -- intros a [<-|Ha']; unfold G'; rewrite add_neq; auto. apply P6. right. auto.
        -- inversion P7; subst. constructor; simpl.
           ++ rewrite lenN_app. unfold lenN in *. simpl. lia.
           ++ eapply Forall_impl; [|eassumption]. simpl. intros; lia.
        -- eapply (nums_add s s7 G p n (wNext (At q) n) v); eauto; [|apply U7|right; auto].
           intros a Hga. apply Eo; intros ->; congruence.
      * eapply (sp_frame _ _ false q par _ fs sp' (done ++ [p])); simpl; eauto; try discriminate.
        -- now rewrite last_error_snoc.
        -- change (nVal pn = wopt (hd_error ((done ++ [p]) ++ [q]))); rewrite Hvp. destruct done; reflexivity.
        -- simpl. unfold u32. rewrite N.mod_small by (unfold two32 in *; lia). f_equal. rewrite lenN_app. unfold lenN. simpl. lia.
        -- apply readsL_app; [eapply readsL_submap; eauto|].
           change (fcur f) with (fkey (mkF (fcur f) v (Some par) (Some q) (last_error done) (fend_of v) false)).
           econstructor; eauto; [apply add_eq|constructor].
        -- eapply chain_to_snoc; [eapply chain_to_submap; eauto|apply add_eq|reflexivity|reflexivity|exact Hok].
        -- eapply prevs_snoc; [eapply prevs_submap; eauto|apply add_eq|]. simpl. now destruct (last_error done).
        -- eapply (spine_move s s7 G G' true par fs sp'); auto; [now inversion P5|].
           intros a m Ha' Hm. destruct (addr_eqb_spec a par) as [->|Na].
           ++ eexists. split; [exact Epar|]. assert (m = pn) by congruence. subst m. split; [repeat split|auto].
           ++ exists m. assert (a <> q) by congruence. rewrite Eo; auto. split; auto. split; [apply links_refl|].
              right. repeat split.
    + destruct Ec as (ch & q & -> & _ & _ & ->).
      apply after_drop in Ha; [|now apply ws_no0].
      apply agree_bind. apply agree_lift. intros [ch' r2] E2. apply peek_inv in E2 as (w2 & Hw2 & Hch' & E2).
      rewrite E2 in Ha. apply after_drop in Ha; [|now apply ws_no0].
      eapply agree_pre; [apply (wp_getNode _ n); auto|].
      eapply agree_pre; [rewrite Hf; apply wp_deref; auto|].
      eapply agree_pre; [apply (wp_getNode _ pn); auto|].
      eapply agree_pre; [eapply wp_rType; eauto|].
      assert (Et : ((ch' =? 125) && jtype_eqb (ctype (fobj f)) TObject || (ch' =? 93) && jtype_eqb (ctype (fobj f)) TArray)%bool
                 = ((ch' =? 125) && fobj f || (ch' =? 93) && negb (fobj f))%bool) by (destruct (fobj f); reflexivity).
      rewrite Et.
      destruct ((ch' =? 125) && fobj f || (ch' =? 93) && negb (fobj f))%bool eqn:Eb.
      2:{ apply agree_ok, wp_ret. split; auto. exists c. auto. }
      assert (Ha2 : after c r2).
      { apply (after_drop c [ch']) in Ha; auto. intros [H|[]]. subst ch'. discriminate. }
      eapply agree_wp; [eapply mod_p; eauto|]. intros [] s2 [X2 U2].
      destruct (complete s s2 G p n v j (fcur f) par None (last_error done)) as (C1 & C2 & C3 & C4 & C5); auto.
      { apply U2. }
      { apply U2. }
      { intros a Hga. apply U2. congruence. }
      set (G' := add G p (mkF (fcur f) v (Some par) None (last_error done) (fend_of v) false)) in *.
      assert (Hrl : readsL G' (done ++ [p]) (fdone f ++ [(fcur f, j)])).
      { apply readsL_app; [eapply readsL_submap; eauto|].
        change (fcur f) with (fkey (mkF (fcur f) v (Some par) None (last_error done) (fend_of v) false)).
        econstructor; eauto; [apply add_eq|constructor]. }
      assert (Hll : lenN (done ++ [p]) = lenN done + 1) by (rewrite lenN_app; unfold lenN; simpl; lia).
      eapply (IH c s2 G' par fs sp' (container (fobj f) (fdone f ++ [(fcur f, j)])) r2) with (v := VCont (fobj f) (done ++ [p])); auto.
      * constructor; auto.
        -- intros a Hga. unfold G', add in Hga. destruct (addr_eqb_spec a p); subst; auto.
        -- now inversion P5.
        -- intros a Ha'. unfold G'. rewrite add_neq; auto. apply P6. right. auto.
        -- now inversion P7.
        -- eapply (nums_add s s2 G p n (wNext Null n) v) with (w := w ++ w2); eauto; [|apply U2| |now apply ws_app|].
           ++ intros a Hga. apply U2. congruence.
           ++ rewrite E2, <- app_assoc. reflexivity.
           ++ apply orb_prop in Eb as [Eb|Eb]; apply andb_prop in Eb as [Eb _]; apply N.eqb_eq in Eb; subst; unfold stops; auto.
      * eapply (spine_move s s2 G G' true par fs sp'); auto; [apply U2|now inversion P5|].
        intros a m Ha' Hm. exists m. rewrite (nu_neq _ _ _ _ U2); auto. split; auto. split; [apply links_refl|auto].
        right. repeat split.
      * rewrite (nu_neq _ _ _ _ U2); eauto.
      * simpl. rewrite Hll. repeat split; auto.
      * simpl. destruct (done ++ [p]) eqn:Ed; [exact I|]. rewrite <- Ed, last_error_snoc. auto.
      * exists (fdone f ++ [(fcur f, j)]). split; auto. split; auto. split.
        -- apply chain_to_chain. eapply chain_to_snoc; [eapply chain_to_submap; eauto|apply add_eq|reflexivity|reflexivity|exact Hok].
        -- rewrite Hll. split; [lia|].
           eapply prevs_snoc; [eapply prevs_submap; eauto|apply add_eq|]. simpl. now destruct (last_error done).
      * discriminate.
Qed.

Definition no_dom : dom := fun _ => None.

(** The whole parse below the root. *)
Lemma body_agree fuel : agree
  (sw <- parse_switch zn A src tot root text ;;
   match sw with
   | Stop => ret None
   | Down n rest => parse_loop zn fuel A src tot root Item n rest
   | Break rest => parse_loop zn fuel A src tot root Item root rest
   end) s1
  (sw <-? pswitch text ;;
   match sw with
   | PStop => Ok None
   | PDown ob rest => pm fuel Item JNull [mkFrame ob [] None] rest
   | PBreak j rest => pm fuel Item j [] rest
   end) loop_post.
Proof.
  assert (X0 : pext 0 s1).
  { split; [now apply ext_start|]. split; [apply mch_refl|congruence]. }
  assert (Ha : after 0 text).
  { exists []. repeat split; auto. unfold lenN. simpl. lia. }
  apply agree_bind.
  eapply agree_mono; [eapply (switch_agree 0 s1 root rn1); eauto|].
  intros sw r s2 Es Hs. pose proof (switch_after _ _ _ Ha Es) as Ha2.
  destruct sw as [j r2|ob r2|]; cbn [sw_post] in Hs.
  - destruct Hs as (-> & X2 & n2 & v & U2 & L2 & Hv2 & Hlf & Hj & Ho2).
    assert (Ep : pm fuel Item j [] r2 = Ok (Some (j, r2))) by (destruct fuel; reflexivity). rewrite Ep.
    assert (El : parse_loop zn fuel A src tot root Item root r2 = ret (Some r2)).
    { destruct fuel; cbn [parse_loop]; now rewrite addr_eqb_refl. }
    rewrite El. apply agree_ok, wp_ret. split; auto.
    exists 0, no_dom, n2, v. split; [lia|]. split; auto. split; [discriminate|]. split; [discriminate|]. split; [discriminate|].
    split; [intros a H; now elim H|]. split; [apply U2|]. split; auto. split; auto.
    split; [destruct v as [| | | |? [|? ?]]; simpl in *; tauto|]. split; auto. split; [intros ? ? ? ? ? H; discriminate H|exact Ho2].
  - destruct Hs as (q & -> & X3 & Bq & Nq & M3 & (qn & Eq & Eqf & Eqp) & Ep & Eo).
    eapply (proj1 (loop_agree fuel (0 + 1) s2 no_dom q [mkFrame ob [] None] [root] JNull r2)); auto; [| |discriminate].
    + constructor; auto; try discriminate.
      * intros a H. now elim H.
      * constructor; [|constructor; [simpl; tauto|constructor]]. intros [->|[]]. congruence.
      * constructor; [unfold lenN; simpl; lia|constructor].
    + eapply (sp_frame _ _ false q root _ _ [] []); eauto; try reflexivity; try discriminate.
      * constructor.
      * eapply sp_root; [exact Ep|]. repeat split.
  - destruct Hs as [-> X2]. apply agree_ok, wp_ret. split; auto. exists 0. split; [lia|auto].
Qed.
End Parse.
End WithVol.
