(** Programs keep all texts well formed: whatever a program does, the numbers, strings and
    keys of its documents stay numbers and string bodies of JSON, so that what it prints
    is JSON. *)
From Verif Require Import Base Spec SpecProofs LexProofs PureParse Dom ParseFacts Vocab PrintFacts EscProofs IntProofs Double DoubleProofs Scene ReadFacts
  Hist HistRun HistForest HistStep HistMany HistWorld.

Definition good_value (v : nval) : Prop :=
  match v with NNum b => number b | NStr b => strbody b | _ => True end.
Definition good_key (k : option bytes) : Prop := match k with Some b => strbody b | None => True end.
Definition good_node (t : tnode) : Prop := good_key (tkey t) /\ good_value (tvalue t).
Definition good (G : forest) : Prop := forall i t, G i = Some t -> good_node t.

Lemma strbody_nil : strbody [].
Proof. exists []. constructor. Qed.
Lemma read_good G : good G -> forall k i j, read k G i = Some j -> json_ok j.
Proof.
  intro Hg. induction k as [|k IH]; cbn [read]; intros i j H; [discriminate|].
  destruct (G i) as [t|] eqn:E; [|discriminate]. destruct (Hg i t E) as [_ Hv].
  destruct (tvalue t) as [|b|b|b|ob kids]; cbn in Hv; try (injection H as <-; constructor; auto; fail).
  destruct (mapo _ kids) as [items|] eqn:Em; [|discriminate]. cbn in H. injection H as <-. apply mapo_in in Em.
  assert (K : Forall (fun kj => strbody (okey (fst kj)) /\ json_ok (snd kj)) items).
  { induction Em as [|c kj l items Hc _ IHl]; constructor; auto. destruct (G c) as [tc|] eqn:Ec; [|discriminate].
    destruct (read k G c) as [j|] eqn:Er; [|discriminate]. injection Hc as <-. cbn [fst snd]. split; [|eauto].
    destruct (Hg c tc Ec) as [Kk _]. destruct (tkey tc); cbn in *; auto using strbody_nil. }
  unfold container. destruct ob; constructor; apply Forall_forall; intros y Hy; apply in_map_iff in Hy as (kj & <- & Hk); rewrite Forall_forall in K; now apply K.
Qed.

Lemma good_put G i t : good G -> good_node t -> good (put G i t).
Proof. intros H K x y E. unfold put in E. destruct (x =? i); [injection E as <-; auto|eauto]. Qed.
Lemma good_over h G : good h -> good G -> good (over h G).
Proof. intros H K x y E. unfold over in E. destruct (h x) eqn:Eh; [injection E as <-|]; eauto. Qed.
Lemma good_no : good noforest. Proof. discriminate. Qed.
Lemma plant_good : forall j i n, json_ok j -> let '(v, h, _) := plant i j n in good_value v /\ good h.
Proof.
  assert (L : forall (items : list (option bytes * json)) i n,
    Forall (fun kj => good_key (fst kj) /\ forall i n, let '(v, h, _) := plant i (snd kj) n in good_value v /\ good h) items ->
    let '(_, h, _) := plantL i items n in good h).
  { induction items as [|[k x] r IH]; intros i n H; cbn [plantL]; [exact good_no|]. inversion H as [|? ? [Hk Hx] Hr]; subst. cbn [fst snd] in *.
    specialize (Hx n (n + 1)). destruct (plant n x (n + 1)) as [[v h1] n1]. specialize (IH i n1 Hr). destruct (plantL i r n1) as [[ks h2] n2].
    apply good_put; [apply good_over; tauto|]. split; cbn; tauto. }
  induction j as [|b|t|b|l IH|l IH] using json_ind2; intros i n H; inversion H as [| | | |l' Hl|l' Hl]; subst;
    try (cbn; split; auto using good_no; fail).
  - rewrite plant_arr. match goal with |- context [plantL ?a ?b ?c] => specialize (L b a c); destruct (plantL a b c) as [[ks h] n'] end.
    split; [exact Logic.I|apply L]. apply Forall_forall. intros kj Hk. apply in_map_iff in Hk as (x & <- & Hx). cbn [fst snd]. split; [exact Logic.I|].
    rewrite Forall_forall in IH, Hl. intros. apply IH; auto.
  - rewrite plant_obj. match goal with |- context [plantL ?a ?b ?c] => specialize (L b a c); destruct (plantL a b c) as [[ks h] n'] end.
    split; [exact Logic.I|apply L]. apply Forall_forall. intros kj Hk. apply in_map_iff in Hk as (x & <- & Hx). cbn [fst snd].
    rewrite Forall_forall in IH, Hl. split; [apply (Hl x Hx)|]. intros. apply (IH x Hx). apply (Hl x Hx).
Qed.

Lemma unhook_good G i G' : good G -> unhook G i = Some G' -> good G'.
Proof.
  intros H E. unfold unhook in E. destruct (G i) as [t|] eqn:Ei; [|discriminate]. destruct (tpar t) as [p|]; [|injection E as <-; auto].
  destruct (G p) as [tp|] eqn:Ep; [|discriminate]. destruct (tvalue tp) as [| | | |ob kids] eqn:Ev; try discriminate.
  destruct (split_at i kids) as [[l r]|]; [|discriminate]. destruct (tprev t && _); [|discriminate]. injection E as <-.
  intros x y E. destruct (x =? i); [injection E as <-; split; apply (H i t Ei)|]. destruct (x =? p).
  - injection E as <-. split; [apply (H p tp Ep)|exact Logic.I].
  - destruct (match r with [] => false | z :: _ => x =? z end); [|eauto]. destruct (G x) as [tx|] eqn:Ex; [|discriminate]. injection E as <-.
    split; apply (H x tx Ex).
Qed.
Lemma hang_good G ob a c G' : good G -> hang G ob a c = Some G' -> good G'.
Proof.
  intros H E. unfold hang in E. destruct (G a) as [ta|] eqn:Ea; [|discriminate]. destruct (G c) as [tc|] eqn:Ec; [|discriminate].
  destruct (tvalue ta) as [| | | |ob' kids]; try discriminate. destruct (_ && (_ <? two32)); [|discriminate]. injection E as <-.
  intros x y E. destruct (x =? c); [injection E as <-; split; apply (H c tc Ec)|]. destruct (x =? a); [|eauto].
  injection E as <-. split; [apply (H a ta Ea)|exact Logic.I].
Qed.
Lemma hand_good G a b known G' : good G -> hand G a b known = Some G' -> good G'.
Proof.
  intros H E. unfold hand in E. destruct (G a) as [ta|] eqn:Ea; [|discriminate]. destruct (G b) as [tb|] eqn:Eb; [|discriminate].
  destruct (negb _ && _ && _); [|discriminate]. injection E as <-. intros x y E. destruct (x =? b); [discriminate|].
  destruct (x =? a); [injection E as <-; split; [apply (H a ta Ea)|apply (H b tb Eb)]|].
  destruct (isinN x _); [|eauto]. destruct (G x) as [tx|] eqn:Ex; [|discriminate]. injection E as <-. split; apply (H x tx Ex).
Qed.
Lemma rekey_good G i k : good G -> good_key k -> good (rekeyN G i k).
Proof.
  intros H K x y E. unfold rekeyN in E. destruct (x =? i); [|eauto]. destruct (G x) as [tx|] eqn:Ex; [|discriminate]. injection E as <-.
  split; auto. apply (H x tx Ex).
Qed.

Lemma look_good R h i t A : good (rG R) -> look R h = Some (Some (i, t), A) -> good_node t.
Proof.
  intros H E. unfold look in E. destruct (nth_error (rh R) h) as [[[j|] k]|]; try discriminate. destruct (rG R j) as [tj|] eqn:Ej; [|discriminate].
  injection E as <- <- <-. eauto.
Qed.
Lemma spend_G R A n R1 : spend R A n = Some R1 -> rG R1 = rG R /\ rn R1 = rn R.
Proof. unfold spend. destruct (nth_error (ru R) A); [|discriminate]. destruct (_ <=? _); [|discriminate]. intros [= <-]. auto. Qed.
Lemma scratch_G R n R1 : scratch R n = Some R1 -> rG R1 = rG R /\ rn R1 = rn R.
Proof. unfold scratch. destruct (forallb _ _); [|discriminate]. intros [= <-]. auto. Qed.
Definition good_target (w : option (N * tnode)) : Prop := forall i t, w = Some (i, t) -> good_node t.
Lemma assign_good R h w j : good (rG R) -> good_target w -> json_ok j -> good (rG (assign R h w j)).
Proof.
  intros H Hw J. unfold assign. destruct w as [[i t]|].
  - pose proof (plant_good j i (rn R) J) as P. destruct (plant i j (rn R)) as [[v g] n']. cbn [rG]. destruct P as [P1 P2].
    apply good_put; [now apply good_over|]. split; cbn; auto. apply (Hw i t eq_refl).
  - pose proof (plant_good j (rn R) (rn R + 1) J) as P. destruct (plant (rn R) j (rn R + 1)) as [[v g] n']. cbn [rG with_handle]. destruct P as [P1 P2].
    apply good_put; [now apply good_over|]. split; cbn; auto.
Qed.
Lemma sealed_good R0 w R : good (rG R) -> good (rG (sealed R0 w R)).
Proof.
  intros H i t E. cbn [sealed with_forest rG] in E. destruct (_ || _) in E; [|eauto]. destruct (rG R i) as [t0|] eqn:Ei; [|discriminate]. injection E as <-.
  split; apply (H i t0 Ei).
Qed.
Lemma duplicate_good R t j : good (rG R) -> good_node t -> json_ok j -> good (rG (duplicate R t j)).
Proof.
  intros H Ht J. unfold duplicate. pose proof (plant_good j (rn R) (rn R + 1) J) as P. destruct (plant (rn R) j (rn R + 1)) as [[v g] n'].
  cbn [rG]. destruct P as [P1 P2]. apply good_put; [now apply good_over|]. split; cbn; auto. apply Ht.
Qed.
Lemma set_if_good R h w ok j x R' : good (rG R) -> good_target w -> (ok = true -> json_ok j) -> set_if R h w ok j = Some (x, R') -> good (rG R').
Proof. intros H Hw J E. unfold set_if in E. destruct ok; injection E as <- <-; auto using assign_good. Qed.
Lemma seal_if_good R h w ok j x R' : good (rG R) -> good_target w -> (ok = true -> json_ok j) -> seal_if R h w ok j = Some (x, R') -> good (rG R').
Proof. intros H Hw J E. unfold seal_if in E. destruct ok; injection E as <- <-; auto using assign_good, sealed_good. Qed.
Lemma key_if_good R h w ok k x R' : good (rG R) -> (ok = true -> strbody k) -> key_if R h w ok k = Some (x, R') -> good (rG R').
Proof.
  intros H K E. unfold key_if in E. destruct (key_allowed R w) as [b|]; [|discriminate]. destruct ok; cbn in E; [destruct b|]; injection E as <- <-; auto.
  unfold assign_key. destruct w as [[i t]|]; cbn [with_forest with_handle rG].
  - apply rekey_good; auto. apply K; auto.
  - apply good_put; auto. split; cbn; auto.
Qed.
Lemma give_G R A o x R' : give R A o = Some (x, R') -> rG R' = rG R.
Proof.
  unfold give. destruct (spend R A 16) as [R1|] eqn:E; [|discriminate]. apply spend_G in E as [<- _]. destruct o; intros [= <- <-]; auto.
Qed.
Lemma copy_text_G R A n o x R' : copy_text R A n o = Some (x, R') -> rG R' = rG R.
Proof. unfold copy_text. destruct (spend R A n) as [R1|] eqn:E; [|discriminate]. apply spend_G in E as [<- _]. intros [= <- <-]. auto. Qed.
Lemma checked_G R G i R1 : checked R G i = Some R1 -> rG R1 = G.
Proof. unfold checked. destruct (read _ G i); [|discriminate]. now intros [= <-]. Qed.

Section Step.
Variable jd : judge.
Hypothesis J : correct jd.
Lemma judged_ok t j : ~ In 0 t -> o_json jd t = Some j -> json_ok j.
Proof. intros N0 E. eapply json_text_ok. now apply (jd_json _ J t j N0). Qed.
Ltac got H := first
  [ apply give_G in H; now rewrite H
  | apply copy_text_G in H; now rewrite H
  | injection H as <- <-; auto ].
Lemma rstep_good c R x R' : good (rG R) -> rstep jd c R = Some (x, R') -> good (rG R').
Proof.
  intros Hg H. destruct c; cbn [rstep] in H;
  try (destruct (look R h) as [[w A]|] eqn:Lk; [|discriminate H];
       assert (Hw : good_target w) by (intros i0 t0 ->; exact (look_good R h _ _ _ Hg Lk))).
  - injection H as <- <-. exact Hg.
  - destruct (spend R A 16) as [R1|] eqn:Sp; [|discriminate]. apply spend_G in Sp as [Sp _]. injection H as <- <-. cbn [rG new_value]. now rewrite Sp.
  - destruct (_ && _) eqn:Eb in H; [|discriminate]. destruct (spend R A _) as [R1|] eqn:Sp in H; [|discriminate]. apply spend_G in Sp as [Sp _].
    assert (N0 : ~ In 0 (match k with PLen => before0 t | _ => t end)).
    { destruct k; [| |apply before0_no0]; apply andb_prop in Eb as [Eb _]; apply andb_prop in Eb as [Eb _]; now apply ok_c_no0. }
    destruct (o_json jd _) as [j|] eqn:Ej in H; injection H as <- <-; [|now rewrite Sp].
    apply sealed_good, assign_good; auto; [now rewrite Sp|]. eapply judged_ok; eauto.
  - destruct (spend R A _) as [R1|] eqn:Sp in H; [|discriminate]. apply spend_G in Sp as [Sp _]. injection H as <- <-. apply assign_good; auto; [now rewrite Sp|constructor].
  - destruct (spend R A _) as [R1|] eqn:Sp in H; [|discriminate]. apply spend_G in Sp as [Sp _]. injection H as <- <-. apply assign_good; auto; [now rewrite Sp|constructor].
  - destruct (spend R A _) as [R1|] eqn:Sp in H; [|discriminate]. apply spend_G in Sp as [Sp _]. injection H as <- <-. apply assign_good; auto; [now rewrite Sp|].
    destruct ob; constructor; constructor.
  - assert (Jv : (if num then o_num jd t else o_str jd t) = true -> json_ok (if num then JNum t else JStr t)).
    { destruct num; intro K; constructor; [now apply (jd_num _ J)|]. apply strbody_set_strbody. now apply (jd_str _ J). }
    assert (G1 : forall R1, rG R1 = rG R -> good (rG R1)) by (intros R1 ->; auto).
    destruct k; (destruct (_ && _) in H || destruct (fits t) in H); try discriminate;
      (destruct (spend R A _) as [R1|] eqn:Sp in H || destruct (scratch R _) as [R1|] eqn:Sp in H); try discriminate;
      (apply spend_G in Sp || apply scratch_G in Sp); first [exact (set_if_good _ _ _ _ _ _ _ (G1 _ (proj1 Sp)) Hw Jv H)|exact (seal_if_good _ _ _ _ _ _ _ (G1 _ (proj1 Sp)) Hw Jv H)].
  - destruct (_ && _)%Z in H; [|discriminate]. destruct (spend R A _) as [R1|] eqn:Sp in H; [|discriminate]. apply spend_G in Sp as [Sp _]. injection H as <- <-.
    apply sealed_good, assign_good; auto; [now rewrite Sp|constructor; apply dec_text_number].
  - destruct (_ && _)%Z in H; [|discriminate]. destruct (spend R A _) as [R1|] eqn:Sp in H; [|discriminate]. apply spend_G in Sp as [Sp _]. injection H as <- <-.
    apply sealed_good, assign_good; auto; [now rewrite Sp|constructor; apply dec_text_number].
  - destruct (_ && _)%Z in H; [|discriminate]. destruct (spend R A _) as [R1|] eqn:Sp in H; [|discriminate]. apply spend_G in Sp as [Sp _]. injection H as <- <-.
    apply sealed_good, assign_good; auto; [now rewrite Sp|constructor; apply dec_text_number].
  - destruct (doubleb d) eqn:Db; [|discriminate]. destruct (spend R A _) as [R1|] eqn:Sp in H; [|discriminate]. apply spend_G in Sp as [Sp _]. injection H as <- <-.
    apply sealed_good, assign_good; auto; [now rewrite Sp|constructor]. apply g17_number; [now apply doubleb_ok|]. destruct d; try discriminate Db. exact Logic.I.
  - destruct (_ && _) in H; [|discriminate]. destruct (spend R A _) as [R1|] eqn:Sp in H; [|discriminate]. apply spend_G in Sp as [Sp _]. injection H as <- <-.
    apply assign_good; auto; [now rewrite Sp|constructor; apply strbody_set_strbody, escape_set].
  - assert (Jv : o_str jd t = true -> strbody t) by (intro K; apply strbody_set_strbody; now apply (jd_str _ J)).
    assert (G1 : forall R1, rG R1 = rG R -> good (rG R1)) by (intros R1 ->; auto).
    destruct k; (destruct (_ && _) in H || destruct (fits t) in H); try discriminate;
      (destruct (spend R A _) as [R1|] eqn:Sp in H || destruct (scratch R _) as [R1|] eqn:Sp in H); try discriminate;
      (apply spend_G in Sp || apply scratch_G in Sp); exact (key_if_good _ _ _ _ _ _ _ (G1 _ (proj1 Sp)) Jv H).
  - destruct (_ && _) in H; [|discriminate]. destruct (spend R A _) as [R1|] eqn:Sp in H; [|discriminate]. apply spend_G in Sp as [Sp _].
    eapply key_if_good; [|intros _; apply strbody_set_strbody, (escape_set t)|exact H]. now rewrite Sp.
  - got H.
  - got H.
  - got H.
  - got H.
  - destruct fast; got H.
  - destruct w as [[i t]|]; [|got H]. destruct (ntext false (tvalue t)) as [b|]; [|got H]. destruct (o_dec jd b); [got H|discriminate].
  - destruct w as [[i t]|]; [|got H]. destruct (ntext true (tvalue t)) as [b|]; [|got H]. destruct (o_int jd b); [|discriminate].
    destruct (_ && _) in H; [|discriminate]. destruct (spend R A _) as [R1|] eqn:Sp in H; [|discriminate]. apply spend_G in Sp as [Sp _]. injection H as <- <-. now rewrite Sp.
  - destruct w as [[i t]|]; [|got H]. destruct (ntext true (tvalue t)) as [b|]; [|got H]. destruct (o_int jd b); [|discriminate].
    destruct (_ && _) in H; [|discriminate]. destruct (spend R A _) as [R1|] eqn:Sp in H; [|discriminate]. apply spend_G in Sp as [Sp _]. injection H as <- <-. now rewrite Sp.
  - destruct w as [[i t]|]; [|got H]. destruct (ntext true (tvalue t)) as [b|]; [|got H]. destruct (o_int jd b); [|discriminate].
    destruct (_ && _) in H; [|discriminate]. destruct (spend R A _) as [R1|] eqn:Sp in H; [|discriminate]. apply spend_G in Sp as [Sp _]. injection H as <- <-. now rewrite Sp.
  - destruct w as [[i t]|]; [|got H]. destruct (ntext true (tvalue t)) as [b|]; [|got H]. destruct (o_real jd b); [|discriminate].
    destruct (_ && _) in H; [|discriminate]. destruct (spend R A _) as [R1|] eqn:Sp in H; [|discriminate]. apply spend_G in Sp as [Sp _]. injection H as <- <-. now rewrite Sp.
  - destruct fast; got H.
  - destruct (match w with Some (_, t) => tkey t | None => None end) as [b|]; [|got H]. destruct (o_dec jd b); [got H|discriminate].
  - destruct w as [[i t]|]; [|got H]. destruct (reads_as R i); [got H|discriminate].
  - destruct w as [[i t]|]; (destruct (_ && _) in H; [|discriminate]); [|got H]. destruct (is_cont true (tvalue t)) as [kids|]; [|got H].
    destruct (_ || _) in H; [got H|discriminate].
  - destruct w as [[j t]|]; [|got H]. destruct (_ <? _) in H; [|discriminate]. destruct (is_cont false (tvalue t)); got H.
  - destruct w as [[i t]|]; got H.
  - destruct w as [[i t]|]; [|got H]. destruct (tpar t) as [p|]; [|got H]. destruct (rG R p) as [tp|]; [|discriminate].
    destruct (split_at i _) as [[l r]|]; [got H|discriminate].
  - destruct w as [[i t]|].
    + destruct (reads_as R i) as [j|] eqn:Er; [|discriminate]. destruct (spend R A _) as [R1|] eqn:Sp in H; [|discriminate]. apply spend_G in Sp as [Sp _].
      injection H as <- <-. cbn [new_value rG]. apply duplicate_good; [now rewrite Sp|now apply (Hw i)|]. eapply read_good; eauto.
    + destruct (spend R A _) as [R1|] eqn:Sp in H; [|discriminate]. apply spend_G in Sp as [Sp _]. injection H as <- <-. now rewrite Sp.
  - destruct w as [[i t]|]; [|got H]. destruct (unhook (rG R) i) as [G|] eqn:Eu; [|discriminate]. injection H as <- <-. cbn [with_forest rG]. eapply unhook_good; eauto.
  - destruct (look R hv) as [[wv B]|] eqn:Lv; [|discriminate]. destruct w as [[a ta]|]; [|got H]. destruct (is_cont ob (tvalue ta)); [|got H].
    destruct wv as [[c tc]|].
    + pose proof (look_good R hv c tc B Hg Lv) as Hc. destruct (ob && _); [got H|]. destruct fast.
      * destruct (unhook (rG R) c) as [G1|] eqn:Eu; [|discriminate]. destruct (hang _ ob a c) as [G2|] eqn:Eh; [|discriminate].
        destruct (checked R G2 a) as [R1|] eqn:Ec; [|discriminate]. injection H as <- <-. cbn [with_handle rG]. rewrite (checked_G _ _ _ _ Ec).
        eapply hang_good; [|exact Eh]. assert (good G1) by (eapply unhook_good; eauto). destruct ob; auto. apply rekey_good; auto. exact Logic.I.
      * destruct (reads_as R c) as [j|] eqn:Er; [|discriminate]. destruct (spend R B _) as [R1|] eqn:Sp in H; [|discriminate]. apply spend_G in Sp as [Sp _].
        assert (K : good (rG (duplicate R1 tc j))) by (apply duplicate_good; [now rewrite Sp|auto|eapply read_good; eauto]).
        destruct (hang _ ob a _) as [G2|] eqn:Eh in H; [|discriminate]. injection H as <- <-. cbn [with_forest rG].
        eapply hang_good; [|exact Eh]. destruct ob; auto. apply rekey_good; auto. exact Logic.I.
    + destruct (_ && _) in H; [|got H]. destruct (spend R B 16) as [R1|] eqn:Sp; [|discriminate]. apply spend_G in Sp as [Sp _]. injection H as <- <-. now rewrite Sp.
  - destruct (look R hv) as [[wv B]|] eqn:Lv; [|discriminate]. destruct wv as [[b tb]|].
    + pose proof (look_good R hv b tb B Hg Lv) as Hb. destruct fast.
      * destruct (unhook (rG R) b) as [G1|] eqn:Eu; [|discriminate]. assert (K1 : good G1) by (eapply unhook_good; eauto).
        destruct w as [[a ta]|]; [|injection H as <- <-; exact K1].
        destruct (hand G1 a b true) as [G2|] eqn:Eh; [|discriminate]. destruct (checked R G2 a) as [R1|] eqn:Ec; [|discriminate]. injection H as <- <-.
        cbn [with_handle rG]. rewrite (checked_G _ _ _ _ Ec). eapply hand_good; eauto.
      * destruct (reads_as R b) as [j|] eqn:Er; [|discriminate]. destruct (spend R B _) as [R1|] eqn:Sp in H; [|discriminate]. apply spend_G in Sp as [Sp _].
        assert (K : good (rG (duplicate R1 tb j))) by (apply duplicate_good; [now rewrite Sp|auto|eapply read_good; eauto]).
        destruct w as [[a ta]|]; [|injection H as <- <-; exact K].
        destruct (hand _ a _ false) as [G2|] eqn:Eh in H; [|discriminate]. injection H as <- <-. cbn [with_forest rG]. eapply hand_good; eauto.
    + destruct fast; [got H|]. destruct (spend R B 16) as [R1|] eqn:Sp; [|discriminate]. apply spend_G in Sp as [Sp _]. injection H as <- <-. now rewrite Sp.
  - destruct w as [[j t]|]; [|got H]. destruct (_ <? _) in H; [|discriminate]. destruct (is_cont false (tvalue t)) as [kids|]; [|got H].
    destruct (spend R A 16) as [R1|] eqn:Sp; [|discriminate]. apply spend_G in Sp as [Sp _]. destruct (nth_error kids _) as [c|]; [|injection H as <- <-; now rewrite Sp].
    destruct (unhook (rG R1) c) as [G|] eqn:Eu; [|discriminate]. injection H as <- <-. cbn [with_forest rG]. rewrite Sp in Eu. eapply unhook_good; eauto.
  - destruct (_ && _) in H; [|discriminate]. destruct w as [[j t]|]; [|got H]. destruct (is_cont true (tvalue t)) as [kids|]; [|got H].
    destruct (keys_ok R kids); [|discriminate].
    destruct (spend R A 16) as [R1|] eqn:Sp; [|discriminate]. apply spend_G in Sp as [Sp _]. destruct (child_by R1 key kids) as [c|]; [|injection H as <- <-; now rewrite Sp].
    destruct (unhook (rG R1) c) as [G|] eqn:Eu; [|discriminate]. injection H as <- <-. cbn [with_forest rG]. rewrite Sp in Eu. eapply unhook_good; eauto.
Qed.
End Step.
