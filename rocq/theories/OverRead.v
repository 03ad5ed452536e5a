(** Exactly when parsing reads past the text: when a value is expected and the text ends
    too early behind an 'n', 't' or 'f'. *)
From Verif Require Import Base Spec Lex LexProofs Alloc AllocProofs Mem MemProofs Api PureParse SpecProofs
  Dom Effect Steps SetProofs ParseTop Vocab ParseFacts.

Definition short (c : N) (q : bytes) : Prop :=
  ((c = 110 \/ c = 116) /\ (length q < 3)%nat) \/ (c = 102 /\ (length q < 4)%nat).
Lemma short_facts c q : short c q -> c = 110 \/ c = 116 \/ c = 102.
Proof. unfold short. tauto. Qed.

(** ** The only way to leave the text *)
Lemma load4_short a b c d s : (length s < 4)%nat -> load4_eq a b c d s = Err EOob.
Proof. destruct s as [|w [|x [|y [|z s]]]]; cbn; auto. lia. Qed.
Lemma pswitch_short w c q : ws w -> short c q -> pswitch (w ++ c :: q) = Err EOob.
Proof.
  intros Hw H. rewrite pswitch_pre by auto. pose proof (short_facts _ _ H) as Hc. unfold pswitch.
  change (c :: q) with ([] ++ c :: q). rewrite peek_app by (auto using ws_nil; unfold is_ws; lia). cbn [rbind].
  destruct H as [[[->| ->] L]|[-> L]].
  - change (110 =? 91) with false. change (110 =? 123) with false. change (110 =? 110) with true. cbv iota.
    unfold zj_consumeNull. rewrite load4_short by (cbn; lia). reflexivity.
  - change (116 =? 91) with false. change (116 =? 123) with false. change (116 =? 110) with false. change (116 =? 102) with false. change (116 =? 116) with true. cbv iota.
    unfold zj_consumeTrue. rewrite load4_short by (cbn; lia). reflexivity.
  - change (102 =? 91) with false. change (102 =? 123) with false. change (102 =? 110) with false. change (102 =? 102) with true. cbv iota.
    unfold zj_consumeFalse. rewrite load4_short by (cbn; lia). reflexivity.
Qed.
Lemma in0_after b s : ~ In 0 b -> In 0 (b ++ s) -> In 0 s.
Proof. intros H I. apply in_app_iff in I as [I|I]; auto. now elim H. Qed.
Lemma pswitch_or s : In 0 s ->
  (exists sw, pswitch s = Ok sw /\ match sw with PBreak _ r | PDown _ r => In 0 r | PStop => True end) \/
  exists w c q, ws w /\ s = w ++ c :: q /\ short c q.
Proof.
  intro H.
  assert (K : (exists sw, pswitch s = Ok sw) \/ exists w c q, ws w /\ s = w ++ c :: q /\ short c q).
  { unfold pswitch. destruct (peek_safe s H) as (c & r & E & Hr). rewrite E. cbn [rbind].
    apply peek_inv in E as (w & Hw & Hc & ->). apply in0_after in H; [|now apply ws_no0].
    assert (Kp : forall ob, c = opener ob -> exists sw, popen ob r = Ok sw).
    { intros ob ->. unfold popen.
      destruct (pac_safe (closer ob) r) as (b & r' & -> & _); [destruct ob; discriminate| |cbn [rbind]; eauto].
      destruct Hr; auto. destruct ob; discriminate. }
    destruct (c =? 91) eqn:E1; [apply N.eqb_eq in E1; left; now apply (Kp false)|].
    destruct (c =? 123) eqn:E2; [apply N.eqb_eq in E2; left; now apply (Kp true)|].
    destruct (c =? 110) eqn:E3.
    { apply N.eqb_eq in E3. subst. destruct (Nat.lt_ge_cases (length r) 3) as [L|L].
      - right. exists w, 110, r. unfold short. intuition.
      - left. unfold zj_consumeNull. destruct (load4_ok 110 117 108 108 (110 :: r)) as [x ->]; [cbn; lia|]. cbn [rbind]. eauto. }
    destruct (c =? 102) eqn:E4.
    { apply N.eqb_eq in E4. subst. destruct (Nat.lt_ge_cases (length r) 4) as [L|L].
      - right. exists w, 102, r. unfold short. intuition.
      - left. unfold zj_consumeFalse. destruct (load4_ok 97 108 115 101 r) as [x ->]; auto. cbn [rbind]. eauto. }
    destruct (c =? 116) eqn:E5.
    { apply N.eqb_eq in E5. subst. destruct (Nat.lt_ge_cases (length r) 3) as [L|L].
      - right. exists w, 116, r. unfold short. intuition.
      - left. unfold zj_consumeTrue. destruct (load4_ok 116 114 117 101 (116 :: r)) as [x ->]; [cbn; lia|]. cbn [rbind]. eauto. }
    left. destruct (c =? 34) eqn:E6.
    { apply N.eqb_eq in E6. subst. assert (Hr' : In 0 r) by (destruct Hr; [discriminate|auto]).
      destruct r as [|x r]; [destruct Hr'|]. unfold zj_consume. cbn [rbind].
      destruct (x =? 34); [eauto|]. destruct (consumeStr_safe _ Hr') as (o & -> & _). cbn [rbind]. eauto. }
    destruct (consumeNum_safe (c :: r)) as (o & -> & _); [destruct Hr; [left|right]; auto|].
    cbn [rbind]. eauto. }
  destruct K as [[sw E]|K]; auto. left. exists sw. split; auto. apply pswitch_inv in E. destruct sw as [j r|ob r|]; auto.
  - destruct E as (w & t & Hw & Ht & Hs & ->). apply in0_after in H; [|now apply ws_no0]. apply in0_after in H; auto. eapply scalar_no0; eauto.
  - destruct E as (w & w' & Hw & Hw' & -> & _). apply in0_after in H; [|now apply ws_no0]. destruct H as [H|H]; [destruct ob; discriminate|]. apply in0_after in H; auto. now apply ws_no0.
Qed.
Lemma pkey_in0 ob s : In 0 s -> exists o, pkey ob s = Ok o /\ match o with Some (_, r) => In 0 r | None => True end.
Proof.
  intro H. destruct ob; [|exists (Some (None, s)); auto].
  assert (K : exists o, pkey true s = Ok o).
  { unfold pkey. destruct (pac_safe 34 s) as (b & r1 & -> & H1); auto; [lia|]. cbn [rbind].
    destruct b; cbn [negb]; [|eauto].
    destruct r1 as [|x r1]; [destruct H1|]. unfold zj_consume. cbn [rbind].
    destruct (x =? 34) eqn:Ex.
    - cbn [rbind]. destruct (pac_safe 58 r1) as (b & r3 & -> & _); [lia| |cbn [rbind]; eauto].
      destruct H1; auto. subst. discriminate.
    - destruct (consumeStr_safe _ H1) as (o & -> & Ho). cbn [rbind]. destruct o as [r2|]; cbn [rbind]; [|eauto].
      destruct (pac_safe 58 r2) as (b & r3 & E3 & _); [lia|exact Ho|]. rewrite E3. cbn [rbind]. eauto. }
  destruct K as [o E]. exists o. split; auto. destruct o as [[k r]|]; auto.
  apply pkey_inv in E as (w & k' & w2 & r3 & Hw & Hk & Hw2 & E & ->). injection E as -> ->.
  apply in0_after in H; [|now apply ws_no0]. destruct H as [H|H]; [discriminate|]. apply in0_after in H; [|now apply strbody_no0].
  destruct H as [H|H]; [discriminate|]. apply in0_after in H; [|now apply ws_no0]. destruct H as [H|H]; [discriminate|]. auto.
Qed.

(** ** What can follow the part of the text that was read *)
Fixpoint completed (obs : list bool) (a : bytes) : Prop :=
  match obs with
  | [] => forall w, ws w -> valid (a ++ w)
  | ob :: r => forall w, ws w -> completed r (a ++ w ++ [closer ob]) /\
      forall t items, jitems ob t items -> completed r (a ++ w ++ 44 :: t ++ [closer ob])
  end.
Definition items_follow (ob : bool) (obs : list bool) (a : bytes) : Prop :=
  forall t items, jitems ob t items -> completed obs (a ++ t ++ [closer ob]).
Definition value_follows (obs : list bool) (a : bytes) : Prop :=
  forall w t j, ws w -> jvalue t j -> completed obs (a ++ w ++ t).
Lemma follow_key ob obs a kt key : items_follow ob obs a -> keytext ob kt key -> value_follows (ob :: obs) (a ++ kt).
Proof.
  intros H K w t j Hw Ht w' Hw'. split.
  - specialize (H _ _ (jitems_one ob kt key w t j w' K Hw Ht Hw')). now rewrite <- !app_assoc in *.
  - intros t2 items Hi. specialize (H _ _ (jitems_cons ob kt key w t j w' t2 items K Hw Ht Hw' Hi)).
    repeat (rewrite <- !app_assoc in *; cbn [app] in * ). exact H.
Qed.
Lemma follow_open ob obs a w w' : value_follows obs a -> ws w -> ws w' -> items_follow ob obs (a ++ w ++ opener ob :: w').
Proof.
  intros H Hw Hw' t items Hi. specialize (H w _ _ Hw (jitems_value ob _ _ (jitems_ws _ _ _ _ Hw' Hi))).
  repeat (rewrite <- !app_assoc in *; cbn [app] in * ). exact H.
Qed.
Lemma follow_comma ob obs a w : completed (ob :: obs) a -> ws w -> items_follow ob obs (a ++ w ++ [44]).
Proof.
  intros H Hw t items Hi. pose proof (proj2 (H w Hw) t items Hi) as K. repeat (rewrite <- !app_assoc in *; cbn [app] in * ). exact K.
Qed.
Lemma completed_more obs : forall a, completed obs a -> exists z, valid (a ++ z).
Proof.
  induction obs as [|ob r IH]; intros a H.
  - exists []. apply H. constructor.
  - destruct (IH _ (proj1 (H [] ws_nil))) as (z & V). exists ([closer ob] ++ z). rewrite app_assoc. exact V.
Qed.
Lemma follow_expected obs a w : value_follows obs a -> ws w -> value_expected (a ++ w).
Proof.
  intros H Hw. assert (Hw' : ws (w ++ [10])) by (apply ws_app; auto; constructor; [right; right; left; auto|constructor]).
  destruct (completed_more _ _ (H _ _ _ Hw' jv_null)) as (z & V). exists z. repeat (rewrite <- !app_assoc in *; cbn [app] in * ). exact V.
Qed.

(** ** Without a cut literal the parser ends *)
Definition overrun (T : bytes) : Prop := exists obs a w c q, T = a ++ w ++ c :: q /\ value_follows obs a /\ ws w /\ short c q.
Definition obs_of (stk : list frame) : list bool := map fobj stk.
Definition follows (m : pmode) (stk : list frame) (a : bytes) : Prop :=
  match m with
  | Item => match stk with [] => True | f :: fs => items_follow (fobj f) (obs_of fs) a end
  | Close => completed (obs_of stk) a
  end.
Lemma pm_or T fuel : forall m j stk r a, (length r < fuel)%nat -> In 0 r -> T = a ++ r -> follows m stk a ->
  (exists o, pm fuel m j stk r = Ok o /\ match o with Some (_, r') => In 0 r' | None => True end) \/ overrun T.
Proof.
  induction fuel as [|fuel IH]; intros m j stk r a Hl H0 ET Hf; [lia|].
  destruct stk as [|f fs]; [left; exists (Some (j, r)); auto|]. cbn [pm]. destruct m.
  - destruct (pkey_in0 (fobj f) r H0) as (o & E & Ho). rewrite E. cbn [rbind].
    destruct o as [[k r1]|]; [|left; exists None; auto]. pose proof (pkey_len _ _ _ _ E) as L1. apply pkey_inv2 in E as (kt & Hkt & ->).
    pose proof (follow_key _ _ _ _ _ Hf Hkt) as Hv. rewrite app_assoc in ET.
    destruct (pswitch_or r1 Ho) as [(sw & Es & Hs)|(w & c & q & Hw & -> & Hc)].
    2: { right. exists (fobj f :: obs_of fs), (a ++ kt), w, c, q. auto. }
    rewrite Es. cbn [rbind]. pose proof (pswitch_len _ _ Es) as L2. apply pswitch_inv in Es. destruct sw as [j' r2|ob r2|]; [| |left; exists None; auto].
    + destruct Es as (w & t & Hw & Ht & _ & ->). apply (IH Close j' _ r2 ((a ++ kt) ++ w ++ t)); auto; [lia|rewrite ET; now rewrite <- !app_assoc|].
      exact (Hv w t j' Hw Ht).
    + destruct Es as (w & w' & Hw & Hw' & -> & _). apply (IH Item JNull _ r2 ((a ++ kt) ++ w ++ opener ob :: w')); auto; [lia| |].
      * rewrite ET. repeat (rewrite <- !app_assoc; cbn [app]). reflexivity.
      * exact (follow_open ob (fobj f :: obs_of fs) (a ++ kt) w w' Hv Hw Hw').
  - destruct (pac_safe 44 r ltac:(lia) H0) as (b & r1 & E & H1). rewrite E. cbn [rbind]. pose proof (pac_len _ _ _ _ E) as L.
    apply pac_inv in E as (w & Hw & E). destruct b.
    + subst r. apply (IH Item JNull _ r1 (a ++ w ++ [44])); auto; [lia|rewrite ET; repeat (rewrite <- !app_assoc; cbn [app]); reflexivity|].
      exact (follow_comma _ _ _ _ Hf Hw).
    + destruct E as (x & y & -> & N44 & Nx & ->). destruct (peek_safe (x :: y) H1) as (c & r2 & Ep & Hp). rewrite Ep. cbn [rbind].
      change (x :: y) with ([] ++ x :: y) in Ep. rewrite peek_app in Ep by (auto using ws_nil). injection Ep as <- <-.
      destruct (((x =? 125) && fobj f) || ((x =? 93) && negb (fobj f))) eqn:Ec; [|left; exists None; auto].
      assert (Ex : x = closer (fobj f)).
      { destruct (fobj f); cbn [negb] in Ec; rewrite ?andb_false_r, ?andb_true_r, ?orb_false_r in Ec; now apply N.eqb_eq in Ec. }
      apply (IH Close _ fs y (a ++ w ++ [closer (fobj f)])); auto.
      * cbn [length] in L. lia.
      * destruct Hp as [->|Hp]; auto. destruct (fobj f); discriminate.
      * rewrite ET, <- Ex. repeat (rewrite <- !app_assoc; cbn [app]). reflexivity.
      * exact (proj1 (Hf w Hw)).
Qed.
Lemma start_follows : value_follows [] [].
Proof. intros w t j Hw Ht w' Hw'. exists j, w, t, w'. cbn [app]. repeat split; auto. now rewrite <- app_assoc. Qed.
Lemma ptop_or T : In 0 T -> (exists o, ptop T = Ok o) \/ overrun T.
Proof.
  intro H. unfold ptop. destruct (pswitch_or T H) as [(sw & E & Hs)|(w & c & q & Hw & -> & Hc)].
  2: { right. exists [], [], w, c, q. split; auto. split; auto. apply start_follows. }
  rewrite E. cbn [rbind]. pose proof (pswitch_len _ _ E) as L. apply pswitch_inv in E.
  assert (K : (exists o, match sw with
    | PStop => Ok None
    | PDown ob rest => pm (2 * length T + 2) Item JNull [mkFrame ob [] None] rest
    | PBreak j rest => pm (2 * length T + 2) Item j [] rest
    end = Ok o /\ match o with Some (_, r') => In 0 r' | None => True end) \/ overrun T).
  { destruct sw as [j r|ob r|]; [| |left; exists None; auto].
    - left. exists (Some (j, r)). split; auto. destruct (2 * length T + 2)%nat; reflexivity.
    - destruct E as (w & w' & Hw & Hw' & ET & _). apply (pm_or T _ Item JNull [mkFrame ob [] None] r (w ++ opener ob :: w')); auto; [lia| |].
      + rewrite ET. repeat (rewrite <- !app_assoc; cbn [app]). reflexivity.
      + exact (follow_open ob [] [] w w' start_follows Hw Hw'). }
  destruct K as [(o & -> & Ho)|K]; auto. left. cbn [rbind]. destruct o as [[j r]|]; [|eauto].
  destruct (pac0_safe r Ho) as (b & r' & ->). cbn [rbind]. eauto.
Qed.
Lemma overrun_cut t slack : ~ In 0 t -> overrun (t ++ 0 :: slack) -> cut_literal t (length slack).
Proof.
  intros N0 (obs & a & w & c & q & E & Hv & Hw & Hc). pose proof (follow_expected _ _ _ Hv Hw) as Hx. pose proof (short_facts _ _ Hc) as Fc.
  assert (Na : ~ In 0 (a ++ w)).
  { destruct Hx as (z & j & J). apply json_text_no0 in J. intro K. apply J, in_or_app. auto. }
  rewrite app_assoc in E. remember (a ++ w) as p eqn:Ep. clear Ep.
  assert (K : exists b, t = p ++ c :: b /\ q = b ++ 0 :: slack).
  { clear - N0 Na E Fc. revert t N0 E. induction p as [|x p IH]; intros t N0 E.
    - destruct t as [|y t]; cbn [app] in E; [injection E as <- _; lia|]. injection E as -> <-. exists t. auto.
    - destruct t as [|y t]; cbn [app] in E; [injection E as <- _; elim Na; now left|]. injection E as -> E.
      destruct (IH (fun K => Na (or_intror K)) t (fun K => N0 (or_intror K)) E) as (b & -> & ->). exists b. auto. }
  destruct K as (b & -> & ->). exists p, c, b. split; auto. split; auto. unfold short in Hc. rewrite app_length in Hc. cbn [length] in Hc.
  destruct Hc as [[Hc L]|[Hc L]]; [left|right]; (split; [auto|lia]).
Qed.

(** ** With one it does not *)
Lemma split_at (u v p r : bytes) x : u ++ v = p ++ x :: r ->
  (exists u2, u = p ++ x :: u2 /\ r = u2 ++ v) \/ (exists p', p = u ++ p' /\ v = p' ++ x :: r).
Proof.
  revert p. induction u as [|y u IH]; intros p E; [right; exists p; auto|].
  destruct p as [|z p]; cbn [app] in E; injection E as -> E.
  - left. exists u. auto.
  - destruct (IH p E) as [(u2 & -> & ->)|(p' & -> & ->)]; [left; exists u2|right; exists p']; auto.
Qed.
Lemma ws_mark w p r v : ws w -> w ++ v = p ++ 10 :: 110 :: r ->
  (ws p /\ v = 110 :: r) \/ exists p', p = w ++ p' /\ v = p' ++ 10 :: 110 :: r.
Proof.
  intros Hw E. destruct (split_at _ _ _ _ _ E) as [(u2 & -> & E2)|K]; auto. left. apply Forall_app in Hw as [Hp Hw]. split; auto.
  inversion Hw as [|? ? _ Hu]; subst. destruct u2 as [|y u2]; [now rewrite E2|]. injection E2 as <- _. inversion Hu as [|? ? Hy _]; subst. unfold is_ws in Hy. lia.
Qed.
Lemma scalar_mark t j v p r : jvalue t j -> scalar_text t j -> t ++ v = p ++ 10 :: 110 :: r -> exists p', p = t ++ p' /\ v = p' ++ 10 :: 110 :: r.
Proof.
  intros Ht Hs E. destruct (split_at _ _ _ _ _ E) as [(u2 & Eu & E2)|K]; auto. exfalso.
  assert (K : forall l : bytes, ~ In 10 l -> t = l -> False) by (intros l N ->; apply N; rewrite Eu; apply in_or_app; right; now left).
  assert (W : forall o c (w : bytes), o <> 10 -> c <> 10 -> c <> 110 -> ws w -> t = o :: w ++ [c] -> False).
  { intros o c w No Nc Nc' Hw Et. rewrite Et in E. destruct p as [|x p]; cbn [app] in E; injection E as -> E; [auto|].
    rewrite <- app_assoc in E. destruct (ws_mark _ _ _ _ Hw E) as [(_ & K1)|(p' & -> & K1)].
    - injection K1 as -> _. auto.
    - rewrite Et in Eu. cbn [app] in Eu. rewrite <- app_assoc in Eu. injection Eu as Eu. apply app_inv_head in Eu.
      assert (I10 : In 10 [c]) by (rewrite Eu; apply in_or_app; right; now left). destruct I10 as [I10|[]]. auto. }
  destruct Ht; try (eapply K; [|reflexivity]; vm_compute; intuition discriminate).
  - apply (K n); auto. intro I. apply number_chars in H. rewrite Forall_forall in H. apply H in I. unfold is_digit in I. lia.
  - apply (K (34 :: b ++ [34])); auto. intros [I|I]; [discriminate|]. apply in_app_iff in I as [I|[I|[]]]; [|discriminate].
    apply strbody_ge32 in H. rewrite Forall_forall in H. apply H in I. lia.
  - eapply (W 91 93 w); auto; lia.
  - destruct Hs as (-> & _). inversion H.
  - eapply (W 123 125 w); auto; lia.
  - destruct Hs as (-> & _). inversion H.
Qed.

Lemma stop_swap p r c q : num_stop (p ++ 10 :: r) -> short c q -> num_stop (p ++ c :: q).
Proof.
  intros (x & y & E & H) Hc. apply short_facts in Hc. destruct p as [|z p]; cbn [app] in *.
  - exists c, q. split; auto. unfold is_digit. lia.
  - injection E as -> _. exists x, (p ++ c :: q). auto.
Qed.
Lemma no0_after (u p : bytes) : ~ In 0 (u ++ p) -> ~ In 0 p.
Proof. intros H K. apply H, in_or_app. auto. Qed.
(** What the machine on the completed text [X] and on the cut text [Y] do next. *)
Lemma switch_mark p r c q sw o : short c q -> pswitch (p ++ 10 :: 110 :: r) = Ok sw -> pswitch (p ++ c :: q) = Ok o ->
  match sw with
  | PStop => True
  | PBreak j rest => exists p', (~ In 0 p -> ~ In 0 p') /\ rest = p' ++ 10 :: 110 :: r /\ (num_stop rest -> o = PBreak j (p' ++ c :: q))
  | PDown ob rest => (rest = 110 :: r /\ o = PDown ob (c :: q)) \/ exists p', (~ In 0 p -> ~ In 0 p') /\ rest = p' ++ 10 :: 110 :: r /\ o = PDown ob (p' ++ c :: q)
  end.
Proof.
  intros Hc HX HY. pose proof (pswitch_inv _ _ HX) as I. pose proof (short_facts _ _ Hc) as Fc. destruct sw as [j rest|ob rest|]; auto.
  - destruct I as (w & t & Hw & Ht & Hs & E). symmetry in E. destruct (ws_mark _ _ _ _ Hw E) as [(Hp & _)|(p' & -> & E')].
    + rewrite (pswitch_short p c q Hp Hc) in HY. discriminate.
    + destruct (scalar_mark _ _ _ _ _ Ht Hs E') as (p2 & -> & ->). exists p2. split; [intro N0; exact (no0_after _ _ (no0_after _ _ N0))|]. split; auto. intro St.
      rewrite <- !app_assoc in HY. rewrite pswitch_pre in HY by auto. rewrite (pswitch_scalar t j _ Ht Hs (stop_swap _ _ _ _ St Hc)) in HY. congruence.
  - destruct I as (w & w' & Hw & Hw' & E & x & y & -> & Hx & Nx). symmetry in E. destruct (ws_mark _ _ _ _ Hw E) as [(Hp & _)|(p' & -> & E')].
    + rewrite (pswitch_short p c q Hp Hc) in HY. discriminate.
    + assert (No : opener ob <> 10 /\ ~ is_ws (opener ob)) by (destruct ob; unfold is_ws, opener; lia).
      destruct p' as [|z p']; cbn [app] in E'; injection E' as Eo E'; [tauto|]. subst z.
      assert (Go : forall w2 d e, ws w2 -> d <> closer ob -> ~ is_ws d -> pswitch (w ++ opener ob :: w2 ++ d :: e) = Ok (PDown ob (d :: e))).
      { intros w2 d e Hw2 Hd Nd. rewrite pswitch_pre by auto. unfold pswitch. change (opener ob :: w2 ++ d :: e) with ([] ++ opener ob :: w2 ++ d :: e).
        rewrite peek_app by (auto using ws_nil; apply No). cbn [rbind]. unfold popen. destruct ob; cbn [opener].
        - change (123 =? 91) with false. change (123 =? 123) with true. cbv iota. rewrite pac_no by auto. reflexivity.
        - change (91 =? 91) with true. cbv iota. rewrite pac_no by auto. reflexivity. }
      assert (Nc : c <> closer ob /\ ~ is_ws c) by (destruct ob; unfold is_ws, closer; lia).
      destruct (ws_mark _ _ _ _ Hw' E') as [(Hp & E2)|(p2 & -> & E2)].
      * left. split; auto. rewrite <- app_assoc in HY. cbn [app] in HY. rewrite (Go p' c q) in HY by tauto. congruence.
      * right. exists p2. split; [intros N0 K; apply N0; apply in_or_app; right; right; apply in_or_app; auto|]. split; auto. rewrite <- app_assoc in HY. cbn [app] in HY. rewrite <- app_assoc in HY.
        destruct p2 as [|z p2]; cbn [app] in E2; injection E2 as -> E2; [unfold is_ws in Nx; lia|]. cbn [app] in HY. rewrite (Go w' z (p2 ++ c :: q)) in HY by auto. cbn [app]. congruence.
Qed.
Lemma key_mark ob p r kt key rest : keytext ob kt key -> kt ++ rest = p ++ 10 :: 110 :: r -> exists p', p = kt ++ p' /\ rest = p' ++ 10 :: 110 :: r.
Proof.
  destruct ob; cbn [keytext]; [|intros [-> ->] E; exists p; auto].
  intros (w & k & w2 & Hw & Hk & Hw2 & -> & ->) E. repeat (rewrite <- !app_assoc in *; cbn [app] in * ).
  destruct (ws_mark _ _ _ _ Hw E) as [(_ & K)|(p1 & -> & K)]; [discriminate|]. destruct p1 as [|z p1]; cbn [app] in K; [discriminate K|]; injection K as <- K.
  destruct (split_at _ _ _ _ _ K) as [(u2 & -> & _)|(p2 & -> & K2)].
  { exfalso. apply strbody_ge32 in Hk. rewrite Forall_forall in Hk. assert (I : In 10 (p1 ++ 10 :: u2)) by (apply in_or_app; right; now left). apply Hk in I. lia. }
  destruct p2 as [|z p2]; cbn [app] in K2; [discriminate K2|]; injection K2 as <- K2.
  destruct (ws_mark _ _ _ _ Hw2 K2) as [(_ & K3)|(p3 & -> & K3)]; [discriminate|]. destruct p3 as [|z p3]; cbn [app] in K3; [discriminate K3|]; injection K3 as <- K3.
  exists p3. split; auto. repeat (rewrite <- !app_assoc; cbn [app]). reflexivity.
Qed.

Lemma down_mark c q r fuel fuel' ob stk x o : short c q ->
  pm fuel Item JNull (mkFrame ob [] None :: stk) (110 :: r) = Ok (Some x) -> pm fuel' Item JNull (mkFrame ob [] None :: stk) (c :: q) = Ok o -> False.
Proof.
  intros Hc HX HY. destruct fuel as [|fuel]; [discriminate|]. destruct fuel' as [|fuel']; [discriminate|]. cbn [pm] in HX, HY. destruct ob; cbn [fobj] in HX, HY.
  - apply rbind_Ok in HX as (k & Hk & HX). destruct k as [[key2 rest]|]; [|discriminate]. apply pkey_inv2 in Hk as (kt2 & (w & k & w2 & Hw & _ & _ & _ & ->) & E).
    destruct Hw as [|x' w Hx _]; cbn [app] in E; [discriminate|]. injection E as <- _. unfold is_ws in Hx. lia.
  - cbn [pkey rbind] in HY. change (c :: q) with ([] ++ c :: q) in HY. rewrite (pswitch_short [] c q ws_nil Hc) in HY. discriminate.
Qed.
Lemma end_mark w0 r2 p r : ws w0 -> ~ In 0 p -> p ++ 10 :: 110 :: r = w0 ++ 0 :: r2 -> False.
Proof.
  intros Hw0 N0 E. symmetry in E. destruct (ws_mark _ _ _ _ Hw0 E) as [(_ & K)|(p' & -> & K)]; [discriminate|].
  destruct p' as [|z p']; [discriminate K|]. injection K as <- _. apply N0, in_or_app. right. now left.
Qed.
Lemma pm_mark X c q r : short c q -> X = 110 :: r ->
  forall fuel m j stk p j' w0 r2 fuel' o, ws w0 -> ~ In 0 p ->
  pm fuel m j stk (p ++ 10 :: X) = Ok (Some (j', w0 ++ 0 :: r2)) -> pm fuel' m j stk (p ++ c :: q) = Ok o -> False.
Proof.
  intros Hc ->. pose proof (short_facts _ _ Hc) as Fc. induction fuel as [fuel IH] using lt_wf_ind. intros m j stk p j' w0 r2 fuel' o Hw0 N0 HX HY.
  destruct stk as [|f fs]. { apply (end_mark w0 r2 p r Hw0 N0). destruct fuel; cbn [pm] in HX; congruence. }
  destruct fuel as [|fuel]; [discriminate|]. destruct fuel' as [|fuel']; [discriminate|]. destruct m.
  - cbn [pm] in HX, HY. apply rbind_Ok in HX as (k & Hk & HX). destruct k as [[key rest]|]; [|discriminate]. apply pkey_inv2 in Hk as (kt & Hkt & E). symmetry in E.
    destruct (key_mark _ _ _ _ _ _ Hkt E) as (p1 & -> & ->). clear E. apply no0_after in N0. rewrite <- app_assoc, (pkey_any _ _ _ _ Hkt) in HY. cbn [rbind] in HY.
    apply rbind_Ok in HX as (sw & Hs & HX). apply rbind_Ok in HY as (sw' & Hs' & HY). pose proof (switch_mark _ _ _ _ _ _ Hc Hs Hs') as K.
    destruct sw as [j2 rest|ob rest|]; [| |discriminate].
    + destruct K as (p2 & Np & -> & K). rewrite K in HY.
      * exact (IH fuel (Nat.lt_succ_diag_r _) _ _ _ _ _ _ _ _ _ Hw0 (Np N0) HX HY).
      * destruct (close_sound _ _ _ _ _ _ HX) as (f2 & w & _ & Hw & [(r1 & -> & _)|(r1 & -> & _)]); [now apply num_stop_44|now apply num_stop_closer].
    + destruct K as [(-> & ->)|(p2 & Np & -> & ->)]; [|exact (IH fuel (Nat.lt_succ_diag_r _) _ _ _ _ _ _ _ _ _ Hw0 (Np N0) HX HY)].
      exact (down_mark _ _ _ _ _ _ _ _ _ Hc HX HY).
  - apply close_sound in HX as (f2 & w & E2 & Hw & HX). injection E2 as <-. destruct HX as [(r1 & E & HX)|(r1 & E & HX)]; symmetry in E;
      (destruct (ws_mark _ _ _ _ Hw E) as [(_ & K)|(p1 & -> & K)]; [try (destruct (fobj f)); discriminate|]); apply no0_after in N0.
    + destruct p1 as [|z p1]; cbn [app] in K; [discriminate K|]; injection K as <- ->. rewrite <- app_assoc in HY. cbn [app] in HY. rewrite pm_close_comma in HY by auto.
      exact (IH fuel (Nat.lt_succ_diag_r _) _ _ _ _ _ _ _ _ _ Hw0 (fun K => N0 (or_intror K)) HX HY).
    + destruct p1 as [|z p1]; cbn [app] in K; [destruct (fobj f); discriminate K|]; injection K as <- ->. rewrite <- app_assoc in HY. cbn [app] in HY. rewrite pm_close_end in HY by auto.
      exact (IH fuel (Nat.lt_succ_diag_r _) _ _ _ _ _ _ _ _ _ Hw0 (fun K => N0 (or_intror K)) HX HY).
Qed.
Lemma ptop_cut p c q o : value_expected p -> short c q -> ptop (p ++ c :: q) = Ok o -> False.
Proof.
  intros (z & j & J) Hc HY. pose proof (ptop_complete _ _ [] J) as HX. change (txt "null" ++ z) with (110 :: txt "ull" ++ z) in HX, J.
  set (r0 := txt "ull" ++ z) in *. rewrite <- app_assoc in HX. cbn [app] in HX. pose proof (json_text_no0 _ _ J) as N0. clear J.
  assert (Np : ~ In 0 p) by (intro K; apply N0, in_or_app; auto). set (r := r0 ++ [0]) in *.
  unfold ptop in HX, HY. apply rbind_Ok in HX as (sw & Hs & HX). apply rbind_Ok in HY as (sw' & Hs' & HY). pose proof (switch_mark _ _ _ _ _ _ Hc Hs Hs') as K.
  apply rbind_Ok in HX as (y & HX & HX2). destruct y as [[j2 rest2]|]; [|discriminate]. apply rbind_Ok in HX2 as ([b r2] & HX2 & HX3). destruct b; [|discriminate]. clear HX3.
  apply pac_inv in HX2 as (w0 & Hw0 & ->). apply rbind_Ok in HY as (y & HY & _). destruct sw as [j1 rest|ob rest|]; [| |discriminate].
  - destruct K as (p' & Hp & -> & _). apply (end_mark w0 r2 p' r Hw0 (Hp Np)). destruct (_ + 2)%nat in HX; cbn [pm] in HX; congruence.
  - destruct K as [(-> & ->)|(p' & Hp & -> & ->)]; [|exact (pm_mark _ c q _ Hc eq_refl _ _ _ _ _ _ _ _ _ _ Hw0 (Hp Np) HX HY)].
    exact (down_mark _ _ _ _ _ _ _ _ _ Hc HX HY).
Qed.

(** ** The outcome of the whole call *)
Lemma cut_short t k slack : length slack = k -> cut_literal t k -> exists a c q, t ++ 0 :: slack = a ++ c :: q /\ value_expected a /\ short c q.
Proof.
  intros <- (a & c & b & -> & Hv & H). exists a, c, (b ++ 0 :: slack). rewrite <- app_assoc. split; auto. split; auto. unfold short. rewrite app_length. cbn [length].
  destruct H as [[H L]|[H L]]; [left|right]; (split; [auto|lia]).
Qed.
Theorem ptop_exact t slack : ~ In 0 t -> ptop (t ++ 0 :: slack) = Err EOob <-> cut_literal t (length slack).
Proof.
  intro N0. split.
  - intro E. destruct (ptop_or (t ++ 0 :: slack)) as [(o & Eo)|K]; [apply in_or_app; right; now left|congruence|]. now apply overrun_cut.
  - intro H. destruct (cut_short t _ slack eq_refl H) as (a & c & q & E & Hv & Hc). rewrite E. destruct (ptop (a ++ c :: q)) as [o|e] eqn:Ep; [elim (ptop_cut _ _ _ _ Hv Hc Ep)|].
    assert (D : {e = EOob} + {e <> EOob}) by (decide equality). destruct D as [->|N]; auto. elim (ptop_only_oob e N _ Ep).
Qed.
Lemma outcome_exact (m : M bool) (s : st) Q t slack : ~ In 0 t -> agree m s (ptop (t ++ 0 :: slack)) Q ->
  (m s = Err EOob <-> cut_literal t (length slack)) /\ (~ cut_literal t (length slack) <-> exists r s', m s = Ok (r, s')).
Proof.
  intros N0 Ag. rewrite <- (ptop_exact t slack N0). unfold agree in Ag. destruct (ptop (t ++ 0 :: slack)) as [o|e] eqn:E.
  - destruct Ag as (x & s' & Em & _). rewrite Em. split; split; intro K; try discriminate; eauto.
  - assert (e = EOob) as -> by (assert (D : {e = EOob} + {e <> EOob}) by (decide equality); destruct D as [->|N]; auto; elim (ptop_only_oob e N _ E)).
    rewrite Ag. split; split; auto; [intro K; now elim K|intros (r & s' & K); discriminate].
Qed.
Section Calls.
Context {VV : vols}.
Lemma parseFast_exact s F v w A src t slack : inv s F -> handle s F v w A -> kept s src t -> room s A (72 * (lenN t + 2)) -> text_at s src = t ++ 0 :: slack ->
  (zj_ParseFast v src s = Err EOob <-> cut_literal t (length slack)) /\
  (~ cut_literal t (length slack) <-> exists r s', zj_ParseFast v src s = Ok (r, s')).
Proof. intros I H ((N0 & _) & Hs) R Ht. exact (outcome_exact _ _ _ t slack N0 (parseFast_ag s F v w A I H src t slack N0 Ht Hs R)). Qed.
Lemma parse_exact s F v w A src t : inv s F -> handle s F v w A -> cstring s src t -> room s A (len_cost (lenN t)) ->
  (zj_Parse v src s = Err EOob <-> cut_literal t 0) /\
  (~ cut_literal t 0 <-> exists r s', zj_Parse v src s = Ok (r, s')).
Proof. intros I H C R. exact (outcome_exact _ _ _ t [] (proj1 C) (parse_ag s F v w A I H src t C R)). Qed.
Lemma parseLen_exact_over s F v w A src bs : inv s F -> handle s F v w A -> holds s src bs -> room s A (len_cost (lenN bs)) ->
  (zj_ParseLen v src (lenN bs) s = Err EOob <-> cut_literal (before0 bs) (length bs - length (before0 bs))) /\
  (~ cut_literal (before0 bs) (length bs - length (before0 bs)) <-> exists r s', zj_ParseLen v src (lenN bs) s = Ok (r, s')).
Proof.
  intros I H C R. destruct (before0_split bs []) as (sl & Es & _).
  assert (L : (length bs - length (before0 bs))%nat = length sl).
  { apply (f_equal (@length N)) in Es. rewrite !app_length in Es. cbn [length] in Es. lia. }
  rewrite L. exact (outcome_exact _ _ _ _ sl (before0_no0 bs) (parseLen_ag s F v w A I H src bs sl Es C R)).
Qed.
End Calls.
Lemma cut_invalid t k : cut_literal t k -> ~ In 0 t -> ~ valid t.
Proof.
  intros H N0 [j J]. pose proof (ptop_complete t j (repeat 0 k) J) as E.
  assert (K : ptop (t ++ 0 :: repeat 0 k) = Err EOob) by (apply ptop_exact; auto; now rewrite repeat_length). congruence.
Qed.
Lemma cut_fits t k : cut_literal t k -> ~ slack_ok t k.
Proof.
  intros (a & c & b & -> & _ & H) S. destruct (S a c b eq_refl) as [S1 S2]. destruct H as [[H L]|[H L]]; [specialize (S1 H)|specialize (S2 H)]; lia.
Qed.
