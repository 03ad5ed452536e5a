(** Documents and contract of programs with several groups of allocators over the beta header
    (BetaWorld.v).  As HistDocs.v and HistCoverMany.v for zzzjson.h. *)
From Verif Require Import Base Spec Vocab PrintFacts Mem MemProofs Scene Dom Start Hist HistRun HistForest HistSim HistStep HistAll HistMany HistWorld HistValid HistTree HistDocs HistCover HistCoverMany
  Beta BetaHist BetaStep BetaSim BetaCurrent BetaDocs BetaLeak BetaWorld BetaCover.

Lemma zwrun_snoc jd es e : forall Z xs Z1 y Z2, zwrun jd es Z = Some (xs, Z1) -> zwstep jd e Z1 = Some (y, Z2) -> zwrun jd (es ++ [e]) Z = Some (xs ++ [y], Z2).
Proof.
  induction es as [|e1 es IH]; intros Z xs Z1 y Z2 H1 H2; cbn [zwrun app] in *.
  - injection H1 as <- <-. now rewrite H2.
  - destruct (zwstep jd e1 Z) as [[x Za]|]; [|discriminate]. destruct (zwrun jd es Za) as [[ys Zb]|] eqn:E; [|discriminate]. injection H1 as <- <-.
    rewrite (IH Za ys Zb y Z2 E H2). reflexivity.
Qed.
Lemma zwrun_split jd es e : forall Z rs Z2, zwrun jd (es ++ [e]) Z = Some (rs, Z2) -> exists xs Z1 y, zwrun jd es Z = Some (xs, Z1) /\ zwstep jd e Z1 = Some (y, Z2) /\ rs = xs ++ [y].
Proof.
  induction es as [|e1 es IH]; intros Z rs Z2 H; cbn [zwrun app] in *.
  - destruct (zwstep jd e Z) as [[x Za]|] eqn:E; [|discriminate]. injection H as <- <-. exists [], Z, x. auto.
  - destruct (zwstep jd e1 Z) as [[x Za]|] eqn:E1; [|discriminate]. destruct (zwrun jd (es ++ [e]) Za) as [[ys Zb]|] eqn:E; [|discriminate]. injection H as <- <-.
    destruct (IH Za ys Zb E) as (xs & Z1 & y & -> & Hs & ->). exists (x :: xs), Z1, y. auto.
Qed.

Section Docs.
Variable jd : judge.
Hypothesis J : correct jd.
Lemma brstep_docs c R K x R' K' : docs_ok R -> brstep jd c (R, K) = Some (x, (R', K')) -> good (rG R') /\ trees (rG R').
Proof.
  intros [S1 G1 T1] E. destruct (caching c) eqn:Ec.
  - destruct (caching_G jd c R K x R' K' Ec E) as [-> _]. auto.
  - rewrite brstep_plain in E by exact Ec. destruct (zrstep jd c R) as [[x' R3]|] eqn:Ez; [|discriminate]. injection E as -> -> _.
    split; [eapply zrstep_good; eauto|eapply zrstep_trees; eauto].
Qed.
Lemma zworld_docs es : forall rs W Ks, zwrun jd es zrstart = Some (rs, (W, Ks)) -> forall g, docs_ok (wr W g).
Proof.
  induction es as [|e es IH] using rev_ind; intros rs W Ks H g.
  - injection H as <- <- <-. exact docs_start.
  - destruct (zmany jd _ _ _ _ J H) as (f0 & P). destruct (P f0 (le_n _)) as (Es & B & s & _ & Rep).
    assert (Sh : shape (rn (wr W g)) (rG (wr W g))) by (eapply represents_shape; apply Rep). clear P Rep.
    enough (GT : good (rG (wr W g)) /\ trees (rG (wr W g))) by (constructor; tauto).
    destruct (zwrun_split _ _ _ _ _ _ H) as (xs & [W1 Ks1] & y & E1 & E2 & _). specialize (IH xs W1 Ks1 E1). clear H E1 Sh. cbn [zwstep] in E2.
    destruct e as [j c|j].
    + destruct (brstep jd c (wr W1 j, Ks1 j)) as [[z [R' K']]|] eqn:Er; [|discriminate]. pose proof (brstep_docs _ _ _ _ _ _ (IH j) Er) as P.
      destruct (cneed c =? 0); [injection E2 as <- <- <-|destruct (negb _ && _); [|discriminate]; injection E2 as <- <- <-]; cbn [wr]; unfold updn;
        (destruct (Nat.eqb g j); [exact P|]).
      * destruct (IH g); auto.
      * destruct (inb g (wc W1)); [|destruct (IH g); auto]. destruct (charge_G (wr W1 g) (cneed c)) as [-> _]. destruct (IH g); auto.
    + injection E2 as <- <- <-. cbn [wr]. unfold updn. destruct (Nat.eqb g j); [|destruct (IH g); auto]. destruct docs_start; auto.
Qed.
Lemma zworld_lengths es rs W Ks : zwrun jd es zrstart = Some (rs, (W, Ks)) -> forall g, length (Ks g) = length (rh (wr W g)).
Proof.
  intros H g.
  assert (T0 : ztied zrstart zworld0 (fun _ _ => (0, 0)) (fun _ => nodocs) init).
  { split; [exact start_tied|]. intro j. split; auto. intros h v k Hh. destruct h; discriminate. }
  destruct (zworld_most jd J es zrstart rs (W, Ks) H zworld0 _ _ init _ (le_n _) T0) as ([rs' [Es B]] & s & _ & _ & nms & Fs & [T C]).
  cbn [fst snd] in *. rewrite (proj1 (C g)). pose proof (t_sim _ _ _ _ _ T g) as S. apply S.
Qed.

(** ** The contract *)
Definition zwcontract (e : event) (Z : zref) : Prop :=
  match e with
  | Release _ => True
  | Do g c => zcontract c (wr (fst Z) g) (snd Z g) /\
      (cneed c <> 0 -> wdead (fst Z) = false /\ forall j, In j (wc (fst Z)) -> j <> g -> roomy_all (wr (fst Z) j) (cneed c))
  end.
Theorem zwcovered e es rs Z : zwrun jd es zrstart = Some (rs, Z) -> zwcontract e Z -> exists x Z', zwstep jd e Z = Some (x, Z').
Proof.
  destruct Z as [W Ks]. intros E C. destruct e as [g c|g]; cbn [zwstep]; [|eauto]. destruct C as [C D]. cbn [fst snd] in *.
  destruct (bcovered jd J c (wr W g) (Ks g) (zworld_docs es rs W Ks E g) (zworld_lengths es rs W Ks E g) C) as (x & [R' K'] & ->).
  destruct (N.eqb_spec (cneed c) 0) as [Z|Z]; [eauto|]. destruct (D Z) as [Dd Dr]. rewrite Dd. cbn [negb andb].
  replace (forallb _ (wc W)) with true; [eauto|]. symmetry. apply forallb_forall. intros j Hj.
  destruct (Nat.eqb_spec j g) as [->|Nj]; [reflexivity|]. destruct (scratch_roomy _ _ (Dr j Hj Nj)) as (R1 & -> & _). reflexivity.
Qed.
End Docs.

Definition zwrespects (jd : judge) (es : list event) : Prop :=
  forall n e rs Z, nth_error es n = Some e -> zwrun jd (firstn n es) zrstart = Some (rs, Z) -> zwcontract e Z.
Theorem zwrespects_ok jd es : correct jd -> zwrespects jd es -> exists rs W Ks, zwrun jd es zrstart = Some (rs, (W, Ks)) /\
  exists f0, forall fuel, (f0 <= fuel)%nat ->
  exists Es B s, zerun fuel es zworld0 init = Ok ((rs, (Es, B)), s) /\ forall g, represents (wr W g) (Es g) s.
Proof.
  intros J H. enough (P : exists rs W Ks, zwrun jd es zrstart = Some (rs, (W, Ks))).
  { destruct P as (rs & W & Ks & E). exists rs, W, Ks. split; auto. eapply zmany; eauto. }
  enough (P : forall n, (n <= length es)%nat -> exists rs Z, zwrun jd (firstn n es) zrstart = Some (rs, Z)).
  { destruct (P (length es) (le_n _)) as (rs & [W Ks] & E). rewrite firstn_all in E. eauto. }
  induction n as [|n IH]; intro L; [exists [], zrstart; reflexivity|].
  destruct IH as (rs & Z & E); [lia|]. destruct (nth_error es n) as [e|] eqn:En; [|apply nth_error_None in En; lia].
  destruct (zwcovered jd J e _ rs Z E (H n e rs Z En E)) as (x & Z' & Es).
  assert (Ef : firstn (Datatypes.S n) es = firstn n es ++ [e]).
  { clear -En. revert n En. induction es as [|y es IH]; intros [|n] En; try discriminate; cbn in *; [now injection En as ->|]. f_equal. now apply IH. }
  rewrite Ef. do 2 eexists. eapply zwrun_snoc; eauto.
Qed.

(** ** Every text z_ValueStringify answers is JSON *)
Theorem zworld_texts jd es rs W Ks : correct jd -> zwrun jd es zrstart = Some (rs, (W, Ks)) ->
  forall n g h, nth_error es n = Some (Do g (CStringify h)) -> exists t, nth_error rs n = Some (Text (Some t)) /\ (t = [] \/ exists j, json_text t j).
Proof.
  intro J. revert rs W Ks. induction es as [|e es IH] using rev_ind; intros rs W Ks H n g h Hn; [destruct n; discriminate|].
  destruct (zwrun_split _ _ _ _ _ _ H) as (xs & [W1 Ks1] & y & E1 & E2 & ->).
  assert (Ll : length xs = length es).
  { clear - E1. revert xs E1. generalize zrstart as Z. generalize (W1, Ks1) as Z1. induction es as [|e es IH]; intros Z1 Z xs E1; cbn [zwrun] in E1; [now injection E1 as <- _|].
    destruct (zwstep jd e Z) as [[x Za]|]; [|discriminate]. destruct (zwrun jd es Za) as [[ys Zb]|] eqn:E; [|discriminate]. injection E1 as <- <-. cbn. f_equal. eapply IH; eauto. }
  destruct (Nat.lt_ge_cases n (length es)) as [Ln|Ln].
  - rewrite nth_error_app1 in Hn by exact Ln. rewrite nth_error_app1 by (rewrite Ll; exact Ln). eapply IH; eauto.
  - rewrite nth_error_app2 in Hn by exact Ln. rewrite nth_error_app2 by (rewrite Ll; exact Ln). rewrite Ll.
    destruct (n - length es)%nat as [|m]; [|destruct m; discriminate]. cbn [nth_error] in *. injection Hn as ->. cbn [zwstep] in E2.
    rewrite brstep_plain in E2 by reflexivity. change (zrstep jd (CStringify h) (wr W1 g)) with (rstep jd (CStringify h) (wr W1 g)) in E2.
    destruct (rstep jd (CStringify h) (wr W1 g)) as [[x' R2]|] eqn:Es; [|discriminate]. change (cneed (CStringify h) =? 0) with true in E2. cbv iota in E2. injection E2 as -> _.
    destruct (stringify_answer _ _ _ _ _ (zworld_docs jd J es xs W1 Ks1 E1 g) Es) as (t & -> & P). exists t. auto.
Qed.
Theorem zworld_valid jd es rs W Ks : correct jd -> zwrun jd es zrstart = Some (rs, (W, Ks)) ->
  exists f0, forall fuel, (f0 <= fuel)%nat -> exists Es B s, zerun fuel es zworld0 init = Ok ((rs, (Es, B)), s) /\
    forall n g h, nth_error es n = Some (Do g (CStringify h)) -> exists t, nth_error rs n = Some (Text (Some t)) /\ (t = [] \/ exists j, json_text t j).
Proof.
  intros J H. destruct (zmany jd es rs W Ks J H) as (f0 & P). exists f0. intros fuel Hf. destruct (P fuel Hf) as (Es & B & s & E & _). exists Es, B, s. split; auto.
  exact (zworld_texts jd es rs W Ks J H).
Qed.
