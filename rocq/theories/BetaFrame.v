(** The calls of the beta header read and write only memory they can reach: the frame rule
    of Frame.v for them and for programs with several groups and releases. *)
From Verif Require Import Base Spec Lex LexProofs Alloc AllocProofs Mem MemProofs Api Double Vocab Scene Dom Effect CacheProofs Start MoveProofs
  Hist HistRun HistForest HistSim HistStep HistAll HistJudge HistMany HistWorld Leak Frame FrameRun Beta BetaHist BetaSim BetaLeak BetaWorld.

Section BFrame.
Context (M0 : N -> bool).
Notation own := (Frame.own M0).
Notation framed := (Frame.framed M0).
Notation any := Frame.any.
Notation ownw := (Frame.ownw M0).
Notation owno := (Frame.owno M0).

#[local] Hint Resolve fr_deref fr_is_null fr_getNode fr_getVal fr_getZ fr_putNode fr_putVal fr_putZ fr_modNode fr_store fr_load
  fr_load_w fr_alloc fr_rType fr_rLen fr_rKeyLen fr_lift_any fr_fail fr_strLen fr_copy_out fr_unescape_out fr_nth fr_CopyFrom fr_Move
  fr_take fr_append fr_hof fr_aof fr_SetNull fr_SetBool fr_container fr_text_fast fr_text fr_text_len_fast fr_text_len starved_str starved_num
  fr_SetKeyFast fr_SetKey fr_SetKeyLenFast fr_SetKeyLen fr_ObjAddFast fr_ArrayAddFast fr_out_text : frz.
#[local] Hint Extern 1 (Frame.own _ _) => (unfold Frame.own in *; cbn in *; assumption) : frz.
Ltac fr_ok := solve [exact Logic.I | assumption | cbn in *; intuition (auto; discriminate)].
Ltac fr :=
  cbv zeta;
  match goal with
  | |- Frame.framed _ (bind (readable _) _) _ =>
      first [apply fr_read_own; [fr_ok|intro; fr] | apply fr_read; [intro; eexists; reflexivity|intro; fr]]
  | |- Frame.framed _ (bind (if ?b then _ else _) _) _ => destruct b; fr
  | |- Frame.framed _ (bind (match ?b with _ => _ end) _) _ => destruct b; fr
  | |- Frame.framed _ (bind (bind _ _) _) _ => apply fr_assoc; fr
  | |- Frame.framed _ (bind (ret _) _) _ => apply fr_unit; fr
  | |- Frame.framed _ (bind _ _) _ => eapply fr_bind; [solve [eauto with frz]|intros ? ?; cbv beta in *; repeat match goal with H : _ /\ _ |- _ => destruct H end; fr]
  | |- Frame.framed _ (ret _) _ => apply fr_ret; try fr_ok
  | |- Frame.framed _ (if ?b then _ else _) _ => destruct b; fr
  | |- Frame.framed _ (match ?b with _ => _ end) _ => destruct b; fr
  | |- Frame.framed _ _ Frame.any => first [solve [eauto with frz]|eapply fr_any; solve [eauto with frz]|idtac]
  | |- _ => first [solve [eauto with frz]|idtac]
  end.

Lemma fz_new A w : framed (new_zvalue A w) own.
Proof. unfold new_zvalue. fr. Qed.
#[local] Hint Resolve fz_new : frz.
(** A value object given to the program. *)
Definition ownh (o : option addr) : Prop := match o with Some v => own v | None => True end.
Lemma fz_handle A r : framed (z_handle A r) ownh.
Proof. unfold z_handle. fr. Qed.
#[local] Hint Resolve fz_handle fr_parse_fast : frz.
Lemma fz_parse_len v s n : framed (z_parse_len v s n) any.
Proof. unfold z_parse_len. fr. Qed.
#[local] Hint Resolve fz_parse_len : frz.
Lemma fz_parse v s : framed (z_parse v s) any.
Proof. unfold z_parse. fr. Qed.
Lemma fz_set_num v d : framed (z_set_num v d) any.
Proof. unfold z_set_num, zj_SetNumStrFast. fr. Qed.
Lemma fz_obj_get fuel v k : own k -> framed (z_obj_get fuel v k) ownh.
Proof.
  intro Hk. unfold z_obj_get. apply fr_with_type; [exact Logic.I|]. intros x a n _ _. eapply fr_bind; [|intros; fr].
  apply fr_find. intro c. fr.
Qed.
Lemma fz_obj_get_len fuel v k l : framed (z_obj_get_len fuel v k l) ownh.
Proof.
  unfold z_obj_get_len. apply fr_with_type; [exact Logic.I|]. intros x a n _ _. eapply fr_bind; [|intros; fr].
  apply fr_find. intro c. fr.
Qed.
Lemma fz_array_get fuel v i : framed (z_array_get fuel v i) ownh.
Proof. unfold z_array_get. apply fr_with_type; [exact Logic.I|]. intros x a n _ _. fr. Qed.
Lemma fz_begin v : framed (z_begin v) ownh. Proof. unfold z_begin. fr. Qed.
Lemma fz_next v : framed (z_next v) ownh. Proof. unfold z_next. fr. Qed.
Lemma fz_copy fuel v : framed (z_copy fuel v) ownh. Proof. unfold z_copy. fr. Qed.
#[local] Hint Resolve fz_parse fz_set_num fz_obj_get fz_obj_get_len fz_array_get fz_begin fz_next fz_copy : frz.
Lemma fz_take_key a g f : framed (take_key a g f) any. Proof. unfold take_key. fr. Qed.
#[local] Hint Resolve fz_take_key : frz.
Lemma fz_set_fast fuel v vv : framed (z_set_fast fuel v vv) any. Proof. unfold z_set_fast. fr. Qed.
Lemma fz_set fuel v vv : framed (z_set fuel v vv) any. Proof. unfold z_set. fr. Qed.
Lemma fz_obj_add fuel v vv : framed (z_obj_add fuel v vv) any.
Proof. apply fr_when_type. intro a. apply fr_when_key. fr. Qed.
Lemma fz_array_add fuel v vv : framed (z_array_add fuel v vv) any.
Proof. apply fr_when_type. intro a. fr. Qed.
Lemma fz_array_del fuel v i : framed (z_array_del fuel v i) any. Proof. unfold z_array_del. fr. Qed.
Lemma fz_obj_del fuel v k : own k -> framed (z_obj_del fuel v k) any. Proof. intro. unfold z_obj_del. fr. Qed.
#[local] Hint Resolve fz_set_fast fz_set fz_obj_add fz_array_add fz_array_del fz_obj_del : frz.

(** The cache words: nothing but own texts and doubles is remembered, and only by own
    value objects. *)
Definition oka (a : alt) : Prop := match a with AText p | ANum p _ => own p | _ => True end.
Definition okc (c : cache) : Prop := ownw (cStr c) /\ oka (cAlt c) /\ ownw (cKey c) /\ ownw (cUn c).
Definition better (B B' : bmem) : Prop := (forall y, okc (B y) -> okc (B' y)) /\ (forall y, own y \/ B' y = B y).
Lemma better_refl B : better B B.
Proof. split; auto. Qed.
Lemma better_set B v c : own v -> okc c -> better B (setC B v c).
Proof.
  intros Hv Hc. unfold setC. split; intro y; destruct (addr_eqb_spec y v); subst; auto.
Qed.
Lemma ok_no : okc no_cache. Proof. repeat split. Qed.
Lemma better_init B v : own v -> better B (z_ValueInitCache B v).
Proof. intro. apply better_set; auto using ok_no. Qed.
Lemma better_trans A B C : better A B -> better B C -> better A C.
Proof. intros [H1 H2] [K1 K2]. split; auto. intro y. destruct (K2 y) as [|K]; auto. rewrite K. auto. Qed.
Lemma better_born B r : ownh r -> better B (born B r).
Proof. intro H. destruct r as [v|]; [now apply better_init|apply better_refl]. Qed.
Lemma born_new B v : okc (born B (Some v) v).
Proof. cbn. unfold z_ValueInitCache, setC. rewrite addr_eqb_refl. apply ok_no. Qed.
Definition btb {X} (Bm : bmem) (xb : X * bmem) : Prop := better Bm (snd xb).

Section Call.
Context (Bm : bmem).
Lemma fz_clearing {X} v (m : M X) : own v -> framed m any -> framed (clearing Bm v m) (btb Bm).
Proof. intros Hv H. eapply fr_bind; [exact H|]. intros. apply fr_ret. now apply better_init. Qed.
Lemma fz_if_set v m : own v -> framed m any -> framed (if_set Bm v m) (btb Bm).
Proof. intros Hv H. eapply fr_bind; [exact H|]. intros [] ?; apply fr_ret; [now apply better_init|apply better_refl]. Qed.
Lemma fz_same {X} (m : M X) : framed m any -> framed (BetaHist.same Bm m) (btb Bm).
Proof. intro H. eapply fr_bind; [exact H|]. intros. apply fr_ret. apply better_refl. Qed.
Definition btv (rb : option addr * bmem) : Prop := better Bm (snd rb) /\ match fst rb with Some v => own v /\ okc (snd rb v) | None => True end.
Lemma fz_giving m : framed m ownh -> framed (giving Bm m) btv.
Proof.
  intro H. eapply fr_bind; [exact H|]. intros r Hr. apply fr_ret. split; [now apply better_born|]. destruct r as [v|]; cbn [fst snd]; auto.
  split; auto. apply born_new.
Qed.
Definition btt (rb : option word * bmem) : Prop := better Bm (snd rb) /\ owno (fst rb).
Definition btn (r : option (word * bmem)) : Prop := match r with Some (w, B') => better Bm B' /\ ownw w | None => True end.
Lemma fz_or_none m : framed m btn -> framed (r <- m ;; ret (or_none Bm r)) btt.
Proof.
  intro H. eapply fr_bind; [exact H|]. intros [[w B']|] Hr; apply fr_ret; [exact Hr|]. split; [apply better_refl|exact Logic.I].
Qed.
Lemma fz_cached c put make : ownw c -> (forall w, ownw w -> better Bm (put w)) -> framed make ownw -> framed (cached Bm c put make) btn.
Proof.
  intros Hc Hp Hm. unfold cached. eapply fr_bind; [apply fr_is_null|]. intros [] _.
  - eapply fr_bind; [exact Hm|]. intros w Hw. apply fr_ret. split; auto.
  - apply fr_ret. split; auto. apply better_refl.
Qed.
Variable v : addr.
Hypothesis Hv : own v.
Hypothesis Hc : okc (Bm v).
Lemma fz_get_text t : framed (z_get_text t Bm v) btt.
Proof.
  destruct Hc as (C1 & C2 & C3 & C4). apply fz_or_none. apply fr_with_type; [exact Logic.I|]. intros. apply fz_cached; auto.
  - intros w Hw. apply better_set; auto. repeat split; auto.
  - fr.
Qed.
Lemma fz_get_un : framed (z_ValueGetUnEscapeString Bm v) btt.
Proof.
  destruct Hc as (C1 & C2 & C3 & C4). apply fz_or_none. apply fr_with_type; [exact Logic.I|]. intros x a n _ _.
  eapply (fr_bind _ _ _ ownw). { destruct (cAlt (Bm v)) as [| |p|p d]; cbn [alt_ptr]; try apply fr_fail; apply fr_ret; auto; exact Logic.I. }
  intros c Hcw. eapply fr_bind; [apply fr_is_null|]. intros [] _.
  - eapply fr_bind; [apply fr_rLen|]. intros l _. eapply fr_bind; [apply fr_unescape_out|]. intros w Hw.
    destruct w as [| |p]; cbn [deref]; try (unfold deref; apply fr_fail). apply fr_unit. apply fr_ret. split; auto.
    apply better_set; auto. repeat split; auto.
  - apply fr_ret. split; auto. apply better_refl.
Qed.
Lemma fz_get_num : framed (z_ValueGetNum Bm v) (btb Bm).
Proof.
  destruct Hc as (C1 & C2 & C3 & C4). unfold z_ValueGetNum.
  eapply (fr_bind _ _ _ (fun r => match r with Some (_, B') => better Bm B' | None => True end)).
  - apply fr_with_type; [exact Logic.I|]. intros x a n _ _. destruct (cAlt (Bm v)) as [| |p|p d].
    + apply fr_fail.
    + eapply fr_bind; [apply fr_alloc|]. intros p Hp. eapply fr_bind; [apply fr_deref|]. intros b _.
      apply fr_read; [intro; eexists; reflexivity|]. intro t. eapply fr_bind; [apply fr_lift_any|]. intros d _. apply fr_ret.
      apply better_set; auto. repeat split; auto.
    + apply fr_ret. apply better_refl.
    + apply fr_ret. apply better_refl.
  - intros [[w B']|] H; apply fr_ret; [exact H|apply better_refl].
Qed.
Lemma fz_get_key : framed (z_ValueGetKey Bm v) btt.
Proof.
  destruct Hc as (C1 & C2 & C3 & C4). apply fz_or_none. apply fr_with_key; [exact Logic.I|]. intros. apply fz_cached; auto.
  - intros w Hw. apply better_set; auto. repeat split; auto.
  - fr.
Qed.
Lemma fz_get_unkey : framed (z_ValueGetUnEscapeKey Bm v) btt.
Proof.
  destruct Hc as (C1 & C2 & C3 & C4). apply fz_or_none. apply fr_with_key; [exact Logic.I|]. intros. apply fz_cached; auto.
  - intros w Hw. apply better_set; auto. repeat split; auto.
  - fr.
Qed.
End Call.

(** ** Calls *)
Lemma fz_lend {X} b (m : addr -> M X) Q : (forall p, own p -> framed (m p) Q) -> framed (lend b m) Q.
Proof.
  intro H. unfold lend. eapply fr_bind; [apply fr_user_buf|]. intros p Hp. eapply fr_bind; [now apply H|]. intros x Hx.
  eapply fr_bind; [apply fr_user_free|]. intros. now apply fr_ret.
Qed.
Lemma fz_keep {X} b (m : addr -> M X) Q : (forall p, own p -> framed (m p) Q) -> framed (keep b m) Q.
Proof. intro H. unfold keep. eapply fr_bind; [apply fr_user_buf|]. intros p Hp. now apply H. Qed.
Lemma fz_pass {X} k b (m : addr -> M X) Q : (forall p, own p -> framed (m p) Q) -> framed (pass k b m) Q.
Proof. intro H. destruct k; [now apply fz_keep|now apply fz_lend]. Qed.
(** The value objects the program has are its own, and so is what they remember. *)
Definition ours (E : env) (Bm : bmem) : Prop := forall v, In v (eh E) -> own v /\ okc (Bm v).
Definition after (Bm : bmem) (xb : (answer * env) * bmem) : Prop := ours (snd (fst xb)) (snd xb) /\ better Bm (snd xb).
Lemma ours_better E B B' : ours E B -> better B B' -> ours E B'.
Proof. intros H [K _] v Hv. destruct (H v Hv) as [H1 H2]. auto. Qed.
Lemma fz_hof E Bm h : ours E Bm -> framed (hof E h) (fun v => own v /\ okc (Bm v)).
Proof.
  intro H. unfold hof. destruct (nth_error _ _) as [v|] eqn:K; [|apply fr_fail]. apply fr_ret. apply H. eapply nth_error_In; eauto.
Qed.
Lemma fz_envB {X} E Bm f (m : M (X * bmem)) : ours E Bm -> framed m (btb Bm) -> framed (with_envB E f m) (after Bm).
Proof. intros O H. eapply fr_bind; [exact H|]. intros xb Hb. apply fr_ret. split; auto. exact (ours_better _ _ _ O Hb). Qed.
Lemma fz_valueB E Bm m : ours E Bm -> framed m (btv Bm) -> framed (out_valueB E m) (after Bm).
Proof.
  intros O H. eapply fr_bind; [exact H|]. intros [r B'] [Hb Hr]. cbn [fst snd] in *. apply fr_ret. split; auto. cbn [fst snd].
  pose proof (ours_better _ _ _ O Hb) as O'. destruct r as [v|]; cbn; auto. intros y Hy. cbn [eh] in Hy. apply in_app_or in Hy as [Hy|[<-|[]]]; auto.
Qed.
Lemma fz_textB E Bm m : ours E Bm -> framed m (btt Bm) -> framed (out_textB E m) (after Bm).
Proof.
  intros O H. eapply fr_bind; [exact H|]. intros [r B'] [Hb Hr]. cbn [fst snd] in *. eapply fr_bind; [now apply fr_out_text|].
  intros. apply fr_ret. split; auto. exact (ours_better _ _ _ O Hb).
Qed.
Lemma fz_numB E Bm m : ours E Bm -> framed m (btb Bm) -> framed (out_numB E m) (after Bm).
Proof.
  intros O H. eapply fr_bind; [exact H|]. intros [r B'] Hb. cbn [fst snd] in *. eapply fr_bind with (Q := any).
  - destruct r as [[p [d|]]|]; cbn [out_num]; try apply fr_fail; now apply fr_ret.
  - intros. apply fr_ret. split; auto. exact (ours_better _ _ _ O Hb).
Qed.
Lemma fz_both {X} (m : M X) Q (P : X -> Prop) : framed m Q -> (forall s x s', m s = Ok (x, s') -> P x) -> framed m (fun x => Q x /\ P x).
Proof. intros H K s t y t' C E. destruct (H s t y t' C E) as (s' & E' & C' & S' & Qy). exists s'. split; auto. split; auto. split; auto. split; eauto. Qed.
Lemma fz_sameB fuel c E Bm : M0 0 = false -> ours E Bm -> (forall s x s', cstep fuel c E s = Ok (x, s') -> eh (snd x) = eh E) ->
  framed (BetaHist.same Bm (cstep fuel c E)) (after Bm).
Proof.
  intros H0 O H. eapply fr_bind; [apply fz_both; [now apply fr_cstep|exact H]|]. intros [x E'] [_ K]. cbn [snd] in K. apply fr_ret.
  split; [|apply better_refl]. intros v Hv. cbn [fst snd] in *. rewrite K in Hv. now apply O.
Qed.
Definition quiet (c : call) : Prop :=
  match c with
  | CNewAllocator | CGetType _ | CSize _ | CIsNull _ | CGetBool _ | CGetText _ true _ | CGetKey true _ | CStringify _ | CMove _ => True
  | _ => False
  end.
Lemma quiet_eh fuel c E : quiet c -> gives (cstep fuel c E) (fun x => eh (snd x) = eh E).
Proof.
  intro H. destruct c; try (now elim H); try (destruct fast; [|now elim H]); cbn [cstep]; unfold with_env;
  repeat (apply gi_bind; intro); try (apply gi_ret; reflexivity).
Qed.
Lemma fr_bstep fuel c E Bm : M0 0 = false -> ours E Bm -> framed (bstep fuel c E Bm) (after Bm).
Proof.
  intros H0 O.
  assert (Q : quiet c -> framed (BetaHist.same Bm (cstep fuel c E)) (after Bm)) by (intro K; apply fz_sameB; auto; exact (quiet_eh fuel c E K)).
  destruct c; cbn [bstep]; try apply fr_fail; try (apply Q; exact Logic.I); try (destruct fast; [apply Q; exact Logic.I|]);
    try (eapply fr_bind; [now apply (fz_hof E Bm)|]; intros v [Hv Hc]).
  - eapply fr_bind; [apply fr_aof|]. intros a _. eapply fr_bind with (Q := fun vb => btv Bm (Some (fst vb), snd vb)).
    + unfold z_ValueNew. eapply fr_bind; [apply fz_new|]. intros v Hv. apply fr_ret. split; [now apply better_init|].
      split; auto. apply born_new.
    + intros [v B'] Hb. apply (fz_valueB E Bm (ret (Some v, B')) O). now apply fr_ret.
  - apply fz_envB; auto. apply fz_keep. intros p Hp. destruct k; apply fz_clearing; auto; fr.
  - apply fz_envB; auto. apply fz_clearing; auto; fr.
  - apply fz_envB; auto. apply fz_clearing; auto; fr.
  - apply fz_envB; auto. destruct ob; apply fz_clearing; auto; unfold zj_SetObj, zj_SetArray; fr.
  - apply fz_envB; auto. apply fz_pass. intros p Hp. destruct num, k; apply fz_if_set; auto; unfold zj_SetNumStr, zj_SetNumStrFast,
      zj_SetNumStrLen, zj_SetNumStrLenFast, zj_SetStr, zj_SetStrFast, zj_SetStrLen, zj_SetStrLenFast; fr.
  - apply fz_envB; auto. apply fz_if_set; auto; fr.
  - apply fz_envB; auto. apply fz_pass. intros p Hp. destruct k; apply fz_if_set; auto; fr.
  - apply fz_textB; auto. destruct num; now apply fz_get_text.
  - apply fz_textB; auto. now apply fz_get_un.
  - apply fz_numB; auto. now apply fz_get_num.
  - apply fz_textB; auto. now apply fz_get_key.
  - apply fz_textB; auto. now apply fz_get_unkey.
  - apply fz_valueB; auto. destruct len; apply fz_lend; intros p Hp; apply fz_giving; fr.
  - apply fz_valueB; auto. apply fz_giving; fr.
  - apply fz_valueB; auto. apply fz_giving; fr.
  - apply fz_valueB; auto. apply fz_giving; fr.
  - apply fz_valueB; auto. apply fz_giving; fr.
  - eapply fr_bind; [now apply (fz_hof E Bm)|]. intros vv [Hvv _]. apply fz_envB; auto.
    destruct ob, fast; try (apply fz_if_set; auto; fr); apply fz_same; fr.
  - eapply fr_bind; [now apply (fz_hof E Bm)|]. intros vv [Hvv _]. apply fz_envB; auto.
    destruct fast; [|apply fz_if_set; auto; fr]. eapply fr_bind; [apply fz_set_fast|]. intros [] _; apply fr_ret; [|apply better_refl].
    eapply better_trans; apply better_init; auto.
  - apply fz_envB; auto. apply fz_same; fr.
  - apply fz_envB; auto. apply fz_same. apply fz_lend. intros; fr.
Qed.

(** ** Programs *)
Definition oursW (W : zworld) : Prop := forall g, ours (fst W g) (snd W).
Lemma fr_zerun fuel : M0 0 = false -> forall es W, oursW W ->
  framed (zerun fuel es W) (fun rw => forall y, own y \/ snd (snd rw) y = snd W y).
Proof.
  intro H0. induction es as [|e es IH]; intros W O; cbn [zerun]; [apply fr_ret; auto|].
  eapply fr_bind with (Q := fun xw => oursW (snd xw) /\ forall y, own y \/ snd (snd xw) y = snd W y).
  - destruct e as [g c|g]; cbn [zestep].
    + eapply fr_bind; [apply (fr_bstep fuel c (fst W g) (snd W) H0), O|]. intros xb [O' Hb]. apply fr_ret. cbn [snd fst]. split; [|apply Hb].
      intro j. cbn [fst snd]. unfold updn. destruct (Nat.eqb_spec j g); auto. exact (ours_better _ _ _ (O j) Hb).
    + eapply fr_bind; [apply fr_release_all|]. intros _ _. apply fr_ret. cbn [snd fst]. split; auto.
      intro j. cbn [fst snd]. unfold updn. destruct (Nat.eqb_spec j g); auto. intros v [].
  - intros xw [O' Hs]. eapply fr_bind; [apply IH, O'|]. intros rw Hr. apply fr_ret. cbn [snd]. intro y.
    destruct (Hr y) as [|K]; auto. rewrite K. auto.
Qed.
End BFrame.

Lemma zbegin_tied s dead Bm : among_others s -> (dead = false -> scache s = Null) ->
  ztied (wbegin dead, fun _ => []) (wenv0, Bm) (fun _ _ => (0, 0)) (fun _ => nodocs) (alone s).
Proof.
  intros Ao Hc. split; [exact (begin_tied s dead Ao Hc)|]. intro g. split; auto. intros h v k Hh. destruct h; discriminate.
Qed.
(** What the cache words of the memory hold at the beginning does not matter, and those in
    blocks of the others stay as they are. *)
Theorem zanywhere jd es dead rs W Ks : correct jd -> zwrun jd es (wbegin dead, fun _ => []) = Some (rs, (W, Ks)) ->
  exists f0, forall fuel s Bm, (f0 <= fuel)%nat -> among_others s -> (dead = false -> scache s = Null) ->
    exists Es B' s', zerun fuel es (wenv0, Bm) s = Ok ((rs, (Es, B')), s') /\ Frame.same (foreign s) s s' /\
      (forall y, foreign s (fst y) = true -> B' y = Bm y) /\
      exists t', cut (foreign s) s' t' /\ forall g, represents (wr W g) (Es g) t'.
Proof.
  intros J H. exists (zwmost jd es (wbegin dead, fun _ => [])). intros fuel s Bm Hf Ao Hc.
  destruct (zworld_most jd J es _ rs (W, Ks) H (wenv0, Bm) _ _ (alone s) fuel Hf (zbegin_tied s dead Bm Ao Hc)) as ([rs' [Es B']] & t & Er & Hr & nms & Fs & [T _]).
  cbn [fst snd] in *. subst rs'. assert (H0 : foreign s 0 = false) by reflexivity.
  assert (O : oursW (foreign s) (wenv0, Bm)) by (intros g v []).
  destruct (fr_zerun _ fuel H0 es _ O _ _ _ _ (alone_cut s Ao) Er) as (s' & Es' & C & S & Hb). cbn [fst snd] in Hb.
  exists Es, B', s'. split; auto. split; auto. split.
  - intros y Hy. destruct (Hb y) as [K|K]; auto. unfold own in K. congruence.
  - exists t. split; auto. intro g. exists (nms g), (Fs g). rewrite <- (wr_eta (wr W g)).
    apply (sim_move (others Es g) novols _ _ _ _ none none zeroc t t); [apply T|apply ext_refl; eapply t_wf; eauto|intros y _ []|intros y _ []|apply pays_zero|intros b []|intros b []].
Qed.
Theorem bstep_framed B fuel c E Bm s t x E' Bm' t' : B 0 = false -> cut B s t -> ours B E Bm ->
  bstep fuel c E Bm t = Ok (((x, E'), Bm'), t') ->
  exists s', bstep fuel c E Bm s = Ok (((x, E'), Bm'), s') /\ cut B s' t' /\ Frame.same B s s' /\
    (forall y, B (fst y) = true -> Bm' y = Bm y) /\ ours B E' Bm'.
Proof.
  intros H0 C O H. destruct (fr_bstep B fuel c E Bm H0 O s t _ t' C H) as (s' & K1 & K2 & K3 & O' & _ & K4). cbn [fst snd] in *.
  exists s'. split; auto. split; auto. split; auto. split; auto. intros y Hy. destruct (K4 y) as [K|K]; auto. unfold own in K. congruence.
Qed.
Theorem zerun_framed B fuel es Es Bm s t rs Es' Bm' t' : B 0 = false -> cut B s t -> (forall g, ours B (Es g) Bm) ->
  zerun fuel es (Es, Bm) t = Ok ((rs, (Es', Bm')), t') ->
  exists s', zerun fuel es (Es, Bm) s = Ok ((rs, (Es', Bm')), s') /\ cut B s' t' /\ Frame.same B s s' /\
    (forall y, B (fst y) = true -> Bm' y = Bm y).
Proof.
  intros H0 C O H. destruct (fr_zerun B fuel H0 es (Es, Bm) O s t _ t' C H) as (s' & K1 & K2 & K3 & K4). cbn [fst snd] in *.
  exists s'. split; auto. split; auto. split; auto. intros y Hy. destruct (K4 y) as [K|K]; auto. unfold own in K. congruence.
Qed.
