(** What holds of the documents of every program over the beta header: they are trees of
    well-formed texts, so that every value prints as JSON. *)
From Coq Require Import ZifyN.
From Verif Require Import Base Spec SpecProofs PureParse Dom ParseFacts ParseTop Vocab PrintFacts Scene Mem MemProofs Api AllocProofs StringifyProofs CopyProofs LexProofs
  Double DoubleProofs Hist HistRun HistForest HistSim HistStep HistAll HistMany HistWorld HistValid HistTree HistDocs Beta BetaHist BetaStep BetaSim BetaCurrent.

Lemma takekey_good G a b : good G -> good (takekey G a b).
Proof.
  intros H. unfold takekey. destruct (G a) as [ta|]; auto. destruct (G b) as [tb|] eqn:Eb; auto. destruct (tkey ta); auto. destruct (tkey tb) as [k|] eqn:Ek; auto.
  apply rekey_good; auto. destruct (H _ _ Eb) as [K _]. rewrite Ek in K. exact K.
Qed.
Lemma takekey_nv G a b x : nv (takekey G a b) x = nv G x.
Proof. unfold takekey. destruct (G a) as [ta|]; auto. destruct (G b) as [tb|]; auto. destruct (tkey ta); auto. destruct (tkey tb); auto. apply rekey_nv. Qed.
Lemma takekey_trees G a b : trees G -> trees (takekey G a b).
Proof. apply nv_trees. intro x. apply takekey_nv. Qed.
Lemma zgive_G R A o x R' : zgive R A o = Some (x, R') -> rG R' = rG R.
Proof. unfold zgive. destruct (spend R A 48) as [R1|] eqn:Sp; [|discriminate]. apply spend_G in Sp as [Sp _]. destruct o; intros [= <- <-]; exact Sp. Qed.

Section Step.
Variable jd : judge.
Hypothesis J : correct jd.
Ltac got H := first
  [ apply zgive_G in H; now rewrite H
  | injection H as <- <-; auto ].
Ltac pay R1 Sp H := match type of H with
  | context [spend ?R ?A ?n] => destruct (spend R A n) as [R1|] eqn:Sp; [|discriminate H]; apply spend_G in Sp
  end; destruct Sp as [Sp Sn].
Ltac grd H := match type of H with (if ?b then _ else None) = _ => destruct b eqn:?Eb; [|discriminate H] end.

Lemma zrstep_good c R x R' : good (rG R) -> zrstep jd c R = Some (x, R') -> good (rG R').
Proof.
  intros Hg H. assert (D : rstep jd c R = Some (x, R') -> good (rG R')) by (now apply rstep_good).
  destruct c as [| | | | | | | | | | | | | | | | | |num [|] h| | | | | |[|] h| | | | | | | | | | | |]; cbn [zrstep] in H; auto; try discriminate H; clear D;
  try (destruct (look R h) as [[w A]|] eqn:Lk; [|discriminate H];
       assert (Hw : good_target w) by (intros i0 t0 ->; exact (look_good R h _ _ _ Hg Lk))).
  - pay R1 Sp H. injection H as <- <-. cbn [rG new_value]. now rewrite Sp.
  - grd H. pay R1 Sp H. destruct (o_json jd _) as [j|] eqn:Ej in H; injection H as <- <-; [|now rewrite Sp].
    apply sealed_good, assign_good; auto; [now rewrite Sp|]. eapply judged_ok; eauto. apply before0_no0.
  - pay R1 Sp H. destruct d as [sg m e| |]; [|injection H as <- <-; now rewrite Sp..]. grd H. injection H as <- <-.
    apply sealed_good, assign_good; auto; [now rewrite Sp|constructor]. apply (g17_number (DFin sg m e)); [now apply doubleb_ok|]. exact Logic.I.
  - destruct w as [[i t]|]; grd H; [|got H]. destruct (is_cont true (tvalue t)) as [kids|]; [|got H]. grd H. got H.
  - destruct w as [[j t]|]; [|got H]. grd H. destruct (is_cont false (tvalue t)); got H.
  - destruct w as [[i t]|]; got H.
  - destruct w as [[i t]|]; [|got H]. destruct (tpar t) as [p|]; [|got H]. destruct (rG R p) as [tp|]; [|discriminate].
    destruct (split_at i _) as [[l r]|]; [got H|discriminate].
  - destruct w as [[i t]|]; [|got H]. destruct (reads_as R i) as [j|] eqn:Er; [|discriminate]. pay R1 Sp H.
    injection H as <- <-. cbn [new_value rG]. apply duplicate_good; [now rewrite Sp|now apply (Hw i)|]. eapply read_good; eauto.
  - destruct (look R hv) as [[wv B]|] eqn:Lv; [|discriminate]. destruct w as [[a ta]|]; [|got H]. destruct (is_cont ob (tvalue ta)); [|got H].
    destruct wv as [[c tc]|]; [|got H]. pose proof (look_good R hv c tc B Hg Lv) as Hc. destruct (ob && _); [got H|]. destruct fast.
    + destruct (unhook (rG R) c) as [G1|] eqn:Eu; [|discriminate]. destruct (hang _ ob a c) as [G2|] eqn:Eh; [|discriminate].
      destruct (checked R G2 a) as [R1|] eqn:Ec; [|discriminate]. injection H as <- <-. cbn [with_handle rG]. rewrite (checked_G _ _ _ _ Ec).
      eapply hang_good; [|exact Eh]. assert (good G1) by (eapply unhook_good; eauto). destruct ob; auto. apply rekey_good; auto. exact Logic.I.
    + destruct (reads_as R c) as [j|] eqn:Er; [|discriminate]. pay R1 Sp H.
      assert (K : good (rG (duplicate R1 tc j))) by (apply duplicate_good; [now rewrite Sp|auto|eapply read_good; eauto]).
      destruct (hang _ ob a _) as [G2|] eqn:Eh in H; [|discriminate]. injection H as <- <-. cbn [with_forest rG].
      eapply hang_good; [|exact Eh]. destruct ob; auto. apply rekey_good; auto. exact Logic.I.
  - destruct (look R hv) as [[wv B]|] eqn:Lv; [|discriminate]. destruct wv as [[b tb]|]; [|got H].
    pose proof (look_good R hv b tb B Hg Lv) as Hb. destruct fast.
    + destruct (unhook (rG R) b) as [G1|] eqn:Eu; [|discriminate]. assert (K1 : good G1) by (eapply unhook_good; eauto).
      destruct w as [[a ta]|]; [|injection H as <- <-; exact K1].
      destruct (hand _ a b true) as [G2|] eqn:Eh; [|discriminate]. destruct (checked R G2 a) as [R1|] eqn:Ec; [|discriminate]. injection H as <- <-.
      cbn [with_handle rG]. rewrite (checked_G _ _ _ _ Ec). eapply hand_good; [|exact Eh]. now apply takekey_good.
    + destruct (reads_as R b) as [j|] eqn:Er; [|discriminate]. pay R1 Sp H.
      assert (K : good (rG (duplicate R1 tb j))) by (apply duplicate_good; [now rewrite Sp|auto|eapply read_good; eauto]).
      destruct w as [[a ta]|]; [|injection H as <- <-; exact K].
      destruct (hand _ a _ false) as [G2|] eqn:Eh in H; [|discriminate]. injection H as <- <-. cbn [with_forest rG]. eapply hand_good; [|exact Eh]. now apply takekey_good.
  - destruct w as [[j t]|]; [|got H]. grd H. destruct (is_cont false (tvalue t)) as [kids|]; [|got H].
    pay R1 Sp H. destruct (nth_error kids _) as [c|]; [|injection H as <- <-; now rewrite Sp].
    destruct (unhook (rG R1) c) as [G|] eqn:Eu; [|discriminate]. injection H as <- <-. cbn [with_forest rG]. rewrite Sp in Eu. eapply unhook_good; eauto.
  - grd H. destruct w as [[j t]|]; [|got H]. destruct (is_cont true (tvalue t)) as [kids|]; [|got H].
    grd H. pay R1 Sp H. destruct (child_by R1 key kids) as [c|]; [|injection H as <- <-; now rewrite Sp].
    destruct (unhook (rG R1) c) as [G|] eqn:Eu; [|discriminate]. injection H as <- <-. cbn [with_forest rG]. rewrite Sp in Eu. eapply unhook_good; eauto.
Qed.

Lemma zrstep_trees c R x R' : shape (rn R) (rG R) -> trees (rG R) -> zrstep jd c R = Some (x, R') -> trees (rG R').
Proof.
  intros Sh Hg H. assert (D : rstep jd c R = Some (x, R') -> trees (rG R')) by (now apply rstep_trees).
  assert (As : forall R1 h w A j, look R h = Some (w, A) -> rG R1 = rG R -> rn R1 = rn R -> trees (rG (assign R1 h w j))).
  { intros R1 h w A j Lk E1 E2. apply assign_trees; [now rewrite E1|]. intros i t ->. rewrite E2. eapply look_lt; eauto. }
  destruct c as [| | | | | | | | | | | | | | | | | |num [|] h| | | | | |[|] h| | | | | | | | | | | |]; cbn [zrstep] in H; auto; try discriminate H; clear D;
  try (destruct (look R h) as [[w A]|] eqn:Lk; [|discriminate H]).
  - pay R1 Sp H. injection H as <- <-. cbn [rG new_value]. now rewrite Sp.
  - grd H. pay R1 Sp H. destruct (o_json jd _) as [j|] eqn:Ej in H; injection H as <- <-; [apply sealed_trees; eauto|now rewrite Sp].
  - pay R1 Sp H. destruct d as [sg m e| |]; [|injection H as <- <-; now rewrite Sp..]. grd H. injection H as <- <-. apply sealed_trees; eauto.
  - destruct w as [[i t]|]; grd H; [|got H]. destruct (is_cont true (tvalue t)) as [kids|]; [|got H]. grd H. got H.
  - destruct w as [[j t]|]; [|got H]. grd H. destruct (is_cont false (tvalue t)); got H.
  - destruct w as [[i t]|]; got H.
  - destruct w as [[i t]|]; [|got H]. destruct (tpar t) as [p|]; [|got H]. destruct (rG R p) as [tp|]; [|discriminate].
    destruct (split_at i _) as [[l r]|]; [got H|discriminate].
  - destruct w as [[i t]|]; [|got H]. destruct (reads_as R i) as [j|] eqn:Er; [|discriminate]. pay R1 Sp H.
    injection H as <- <-. cbn [new_value rG]. apply duplicate_trees. now rewrite Sp.
  - destruct (look R hv) as [[wv B]|] eqn:Lv; [|discriminate]. destruct w as [[a ta]|]; [|got H]. destruct (is_cont ob (tvalue ta)); [|got H].
    destruct (look_lt _ _ _ _ _ Sh Lk) as [Ga La]. destruct wv as [[c tc]|]; [|got H].
    destruct (ob && _); [got H|]. destruct fast.
    + destruct (unhook (rG R) c) as [G1|] eqn:Eu; [|discriminate]. destruct (hang _ ob a c) as [G2|] eqn:Eh; [|discriminate].
      destruct (checked R G2 a) as [R1|] eqn:Ec; [|discriminate]. injection H as <- <-. cbn [with_handle rG].
      destruct (checked_tr _ _ _ _ Ec) as [-> Ta]. eapply hang_trees; [|exact Eh|eapply hang_checked; eauto].
      assert (trees G1) by (eapply unhook_trees; eauto). destruct ob; auto. now apply rekey_trees.
    + destruct (reads_as R c) as [j|] eqn:Er; [|discriminate]. pay R1 Sp H.
      assert (K : trees (rG (duplicate R1 tc j))) by (apply duplicate_trees; now rewrite Sp).
      destruct (hang _ ob a _) as [G2|] eqn:Eh in H; [|discriminate]. injection H as <- <-. cbn [with_forest rG].
      destruct (hang_nv _ _ _ _ _ Eh) as (Na & Ks & _).
      assert (Ks' : forall y, y <> a -> nv G2 y = nv (rG (duplicate R1 tc j)) y) by (intros y Hy; rewrite Ks by auto; destruct ob; auto; apply rekey_nv).
      apply (hang_trees _ _ _ _ _) with (2 := Eh); [destruct ob; auto; now apply rekey_trees|].
      destruct (duplicate_root R1 tc j) as (v & Ev). apply (tr_in G2 (rn R1) v); [now rewrite Ks' by auto|].
      apply (duplicate_fresh R1 tc j a G2); auto. now rewrite Sn.
  - destruct (look R hv) as [[wv B]|] eqn:Lv; [|discriminate]. destruct wv as [[b tb]|]; [|got H].
    destruct fast.
    + destruct (unhook (rG R) b) as [G1|] eqn:Eu; [|discriminate]. assert (K1 : trees G1) by (eapply unhook_trees; eauto).
      destruct w as [[a ta]|]; [|injection H as <- <-; exact K1].
      destruct (hand _ a b true) as [G2|] eqn:Eh; [|discriminate]. destruct (checked R G2 a) as [R1|] eqn:Ec; [|discriminate]. injection H as <- <-.
      cbn [with_handle rG]. destruct (checked_tr _ _ _ _ Ec) as [-> Ta]. eapply hand_trees; [apply takekey_trees; exact K1|exact Eh| |exact Ta].
      intros y v Hy. rewrite takekey_nv in Hy. eapply unhook_root; eauto.
    + destruct (reads_as R b) as [j|] eqn:Er; [|discriminate]. pay R1 Sp H.
      assert (K : trees (rG (duplicate R1 tb j))) by (apply duplicate_trees; now rewrite Sp).
      destruct w as [[a ta]|]; [|injection H as <- <-; exact K].
      destruct (look_lt _ _ _ _ _ Sh Lk) as [Ga La].
      destruct (hand _ a _ false) as [G2|] eqn:Eh in H; [|discriminate]. injection H as <- <-. cbn [with_forest rG].
      destruct (hand_nv _ _ _ _ _ Eh) as (Nab & _ & Ka & _ & Ks).
      destruct (duplicate_root R1 tb j) as (v & Ev). eapply hand_trees; [apply takekey_trees; exact K|exact Eh| |].
      * intros y w Hy. rewrite takekey_nv in Hy. eapply duplicate_kids; [|exact Hy]. now rewrite Sp, Sn.
      * rewrite takekey_nv in Ka. apply (tr_in G2 a v); [congruence|]. apply (duplicate_fresh R1 tb j a G2); auto; [|now rewrite Sn].
        intros y Hy1 Hy2. rewrite Ks by auto. apply takekey_nv.
  - destruct w as [[j t]|]; [|got H]. grd H. destruct (is_cont false (tvalue t)) as [kids|]; [|got H].
    pay R1 Sp H. destruct (nth_error kids _) as [c|]; [|injection H as <- <-; now rewrite Sp].
    destruct (unhook (rG R1) c) as [G|] eqn:Eu; [|discriminate]. injection H as <- <-. cbn [with_forest rG]. rewrite Sp in Eu. eapply unhook_trees; eauto.
  - grd H. destruct w as [[j t]|]; [|got H]. destruct (is_cont true (tvalue t)) as [kids|]; [|got H].
    grd H. pay R1 Sp H. destruct (child_by R1 key kids) as [c|]; [|injection H as <- <-; now rewrite Sp].
    destruct (unhook (rG R1) c) as [G|] eqn:Eu; [|discriminate]. injection H as <- <-. cbn [with_forest rG]. rewrite Sp in Eu. eapply unhook_trees; eauto.
Qed.
(** A getter changes no document. *)
Lemma recall_G R K h A n o c put x R' K' : recall R K h A n o c put = Some (x, (R', K')) -> rG R' = rG R /\ rn R' = rn R.
Proof.
  unfold recall. destruct c; [intros [= _ <- _]; auto|]. destruct o; [|discriminate]. destruct (spend R A n) as [R1|] eqn:Sp; [|discriminate].
  apply spend_G in Sp. intros [= _ <- _]. auto.
Qed.
Lemma caching_G c R K x R' K' : caching c = true -> brstep jd c (R, K) = Some (x, (R', K')) -> rG R' = rG R /\ rn R' = rn R.
Proof.
  intros Ec E. destruct c as [| | | | | | | | | | | | | | | | | |num [|] h| | | | | |[|] h| | | | | | | | | | | |]; try discriminate Ec; cbn [brstep] in E;
  (destruct (look R h) as [[w A]|]; [|discriminate E]); (destruct (nth_error K h) as [k|]; [|discriminate E]).
  - destruct (match w with Some (_, t) => _ | None => _ end) in E; [|injection E as _ <- _; auto]. eapply recall_G; eauto.
  - destruct (match w with Some (_, t) => _ | None => _ end) in E; [|injection E as _ <- _; auto].
    destruct (kAlt k); [eapply recall_G; eauto|injection E as _ <- _; auto|discriminate].
  - destruct (match w with Some (_, t) => _ | None => _ end) as [[b st]|] in E; [|injection E as _ <- _; auto].
    destruct (kAlt k); [|discriminate|injection E as _ <- _; auto]. destruct (o_real jd b); [|discriminate]. destruct st; [|discriminate].
    destruct (spend R A 8) as [R1|] eqn:Sp; [|discriminate]. apply spend_G in Sp. injection E as _ <- _. auto.
  - destruct (match w with Some (_, t) => _ | None => _ end) in E; [|injection E as _ <- _; auto]. eapply recall_G; eauto.
  - destruct (match w with Some (_, t) => _ | None => _ end) in E; [|injection E as _ <- _; auto]. eapply recall_G; eauto.
Qed.
End Step.

Theorem beta_docs jd cs xs R K : correct jd -> brrun jd cs (rstart, []) = Some (xs, (R, K)) -> docs_ok R.
Proof.
  intros J. revert xs R K. induction cs as [|c cs IH] using rev_ind; intros xs R K H.
  - injection H as <- <- <-. exact docs_start.
  - pose proof H as H0. rewrite brrun_app in H. destruct (brrun jd cs (rstart, [])) as [[ys [R1 K1]]|] eqn:E1; [|discriminate]. cbn [brrun] in H.
    destruct (brstep jd c (R1, K1)) as [[x [R2 K2]]|] eqn:E2; [|discriminate]. injection H as <- <- <-. destruct (IH ys R1 K1 eq_refl) as [S1 G1 T1].
    destruct (bprogram_most jd J _ _ _ _ H0 _ (le_n _)) as (E & B & s & _ & Rp).
    destruct (caching c) eqn:Ec.
    + destruct (caching_G jd c R1 K1 x R2 K2 Ec E2) as [Eg En]. constructor; rewrite Eg, ?En; auto.
    + rewrite brstep_plain in E2 by exact Ec. destruct (zrstep jd c R1) as [[x' R3]|] eqn:Ez; [|discriminate]. injection E2 as -> -> _.
      constructor; [eapply represents_shape; eauto|eapply zrstep_good; eauto|eapply zrstep_trees; eauto].
Qed.
(** So every value can be read, and every text Stringify answers is JSON. *)
Theorem beta_documents jd cs xs R K : correct jd -> brrun jd cs (rstart, []) = Some (xs, (R, K)) ->
  forall i, rG R i <> None -> exists j, reads_as R i = Some j /\ json_ok j.
Proof. intros J H i. apply docs_read. eapply beta_docs; eauto. Qed.
Theorem beta_texts jd cs xs R K : correct jd -> brrun jd cs (rstart, []) = Some (xs, (R, K)) ->
  forall fuel, (bmost jd cs (rstart, []) <= fuel)%nat -> exists E B s, brun fuel cs estart bstart init = Ok (((xs, E), B), s) /\
    forall n h, nth_error cs n = Some (CStringify h) -> exists t, nth_error xs n = Some (Text (Some t)) /\ (t = [] \/ exists j, json_text t j).
Proof.
  intros J H fuel Hf. destruct (bprogram_most jd J cs xs R K H fuel Hf) as (E & B & s & Er & _). exists E, B, s. split; auto. clear Er E B s.
  intros n h Hn. apply nth_error_split in Hn as (l & r & -> & Ln). subst n. rewrite brrun_app in H.
  destruct (brrun jd l (rstart, [])) as [[ys [R1 K1]]|] eqn:E1; [|discriminate]. pose proof (beta_docs _ _ _ _ _ J E1) as D. cbn [brrun] in H.
  destruct (brstep jd (CStringify h) (R1, K1)) as [[x RK2]|] eqn:E2; [|discriminate]. destruct (brrun jd r RK2) as [[zs RK3]|]; [|discriminate].
  injection H as <- _. rewrite <- (brrun_length _ _ _ _ _ E1), nth_error_app2, Nat.sub_diag by lia. cbn [nth_error].
  rewrite brstep_plain in E2 by reflexivity. change (zrstep jd (CStringify h) R1) with (rstep jd (CStringify h) R1) in E2.
  destruct (rstep jd (CStringify h) R1) as [[x' R2]|] eqn:Es; [|discriminate]. injection E2 as -> _.
  destruct (stringify_answer _ _ _ _ _ D Es) as (t & -> & P). exists t. auto.
Qed.
