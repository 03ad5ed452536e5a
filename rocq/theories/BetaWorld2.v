(** Programs over the beta header that release what they took, and groups on their own. *)
From Verif Require Import Base Spec Lex LexProofs Alloc AllocProofs Mem MemProofs Api PureParse Dom Effect Steps CacheProofs Start Vocab MoveProofs Double Scene
  Hist HistRun HistForest HistSim HistStep HistAll HistCache HistJudge HistMany HistWorld Beta BetaProofs BetaCalls BetaHist BetaStep BetaSim Leak Count BetaLeak BetaCount BetaWorld.

(** ** Releases at the end *)
Lemma zwrun_app jd : forall es1 es2 Z rs1 Z1 rs2 Z2, zwrun jd es1 Z = Some (rs1, Z1) -> zwrun jd es2 Z1 = Some (rs2, Z2) -> zwrun jd (es1 ++ es2) Z = Some (rs1 ++ rs2, Z2).
Proof.
  induction es1 as [|e r IH]; intros es2 Z rs1 Z1 rs2 Z2 H1 H2; cbn [zwrun app] in *; [injection H1 as <- <-; auto|].
  destruct (zwstep jd e Z) as [[x Z3]|]; [|discriminate]. destruct (zwrun jd r Z3) as [[xs Z4]|] eqn:E; [|discriminate]. injection H1 as <- <-.
  now rewrite (IH _ _ _ _ _ _ E H2).
Qed.
Lemma zwrun_releases jd : forall gs Z, exists rs Z', zwrun jd (map Release gs) Z = Some (rs, Z').
Proof.
  induction gs as [|g r IH]; intros [W Ks]; cbn [map zwrun zwstep]; [eauto|]. match goal with |- context [zwrun jd _ ?w] => destruct (IH w) as (rs & W' & ->) end. eauto.
Qed.
Theorem zreleased jd es gs rs W : correct jd -> zwrun jd es zrstart = Some (rs, W) ->
  (forall g c, In (Do g c) es -> In g gs) ->
  exists f0, forall fuel, (f0 <= fuel)%nat ->
  exists rs' W' s, zerun fuel (es ++ map Release gs) zworld0 init = Ok ((rs ++ rs', W'), s) /\
    (forall b, sbsize s b <> None -> sbsize init b <> None \/ In b (zbuffers fuel es zworld0 init)) /\ cNew (scnt s) = cFree (scnt s).
Proof.
  intros C H Hg. destruct (zwrun_releases jd gs W) as (rs' & [W' Ks'] & H'). destruct (zmany jd _ _ _ _ C (zwrun_app _ _ _ _ _ _ _ _ H H')) as (f0 & Hf).
  exists f0. intros fuel L. destruct (Hf fuel L) as (Es & B & s & E & _). exists rs', (Es, B), s. split; auto. split.
  - intros b Hb. exact (zall_freed _ _ _ _ _ _ _ Hg E Hb).
  - exact (zequal_counts _ _ _ _ _ _ Hg E).
Qed.
Theorem zdetects fuel es rs W s : zerun fuel es zworld0 init = Ok ((rs, W), s) ->
  (forall l, NoDup l -> (forall b, In b l -> ztaken fuel es s b) -> lenN l < two32) ->
  (cNew (scnt s) = cFree (scnt s) <-> forall b, ~ ztaken fuel es s b).
Proof.
  intros H Few. destruct (zerun_counted _ _ _ _ _ _ _ _ _ counted_start H) as (F & l0 & U0 & C0 & _). destruct (zcount_in_use _ _ _ _ _ H) as (l & ND & I & E & _).
  pose proof (Few l ND (fun b => proj1 (I b))) as L. pose proof (co_free _ _ _ _ C0) as Lf. split.
  - intros Ec b Hb. apply I in Hb. assert (0 < lenN l) by (destruct l; [destruct Hb|rewrite lenN_cons; lia]).
    rewrite E in Ec. unfold u32 in Ec. destruct (N.lt_ge_cases (cFree (scnt s) + lenN l) two32) as [K|K].
    + rewrite N.mod_small in Ec by exact K. lia.
    + assert (Q : cFree (scnt s) + lenN l = two32 * 1 + (cFree (scnt s) + lenN l - two32)) by lia.
      apply N.mod_unique in Q; [|lia]. rewrite Ec in Q. lia.
  - intro Nb. assert (l = []) as -> by (destruct l as [|b l]; auto; exfalso; apply (Nb b), I; now left).
    rewrite E. change (lenN (@nil N)) with 0. rewrite N.add_0_r. unfold u32. now apply N.mod_small.
Qed.

(** ** A group that is not released gets the answers it would get alone *)
Notation low := (Forall2 N.le).
Lemma zrstep_low jd c G m hh u u0 x R' : low u0 u -> zrstep jd c (mkR G m hh u) = Some (x, R') ->
  exists u', zrstep jd c (mkR G m hh u0) = Some (x, mkR (rG R') (rn R') (rh R') u') /\ low u' (ru R').
Proof.
  intros L H. destruct c; cbn [zrstep] in H |- *; try discriminate H; try (now apply (rstep_low jd _ _ _ _ u)); 
  try (match goal with f : bool |- _ => destruct f; cbn [zrstep] in H |- *; try discriminate H; now apply (rstep_low jd _ _ _ _ u) end);
  unfold zgive, look, reads_as, give, copy_text, set_if, seal_if, sealed, key_if, key_allowed, assign, assign_key, with_handle, with_forest, new_value, duplicate, checked, child_by, keys_ok in H |- *;
  repeat lowstep H.
Qed.
Lemma recall_low G m hh u u0 K h A n o c put x R' K' : low u0 u -> recall (mkR G m hh u) K h A n o c put = Some (x, (R', K')) ->
  exists u', recall (mkR G m hh u0) K h A n o c put = Some (x, (mkR (rG R') (rn R') (rh R') u', K')) /\ low u' (ru R').
Proof.
  intros L H. unfold recall in *. destruct c as [t|]; [injection H as <- <- <-; eauto|]. destruct o as [b|]; [|discriminate].
  destruct (spend (mkR G m hh u) A n) as [R1|] eqn:Sp; [|discriminate]. destruct (spend_low _ _ _ _ _ _ _ _ L Sp) as (u1 & u01 & -> & -> & L1).
  injection H as <- <- <-. cbn. eauto.
Qed.
Lemma brstep_low jd c G m hh u u0 K x R' K' : low u0 u -> brstep jd c (mkR G m hh u, K) = Some (x, (R', K')) ->
  exists u', brstep jd c (mkR G m hh u0, K) = Some (x, (mkR (rG R') (rn R') (rh R') u', K')) /\ low u' (ru R').
Proof.
  intros L H.
  assert (Z : (match zrstep jd c (mkR G m hh u) with None => None | Some (x, R') => Some (x, (R', forget c x K)) end) = Some (x, (R', K')) ->
    exists u', (match zrstep jd c (mkR G m hh u0) with None => None | Some (x, R') => Some (x, (R', forget c x K)) end) = Some (x, (mkR (rG R') (rn R') (rh R') u', K')) /\ low u' (ru R')).
  { clear H. intro H. destruct (zrstep jd c (mkR G m hh u)) as [[x1 R1]|] eqn:E; [|discriminate]. injection H as <- <- <-.
    destruct (zrstep_low jd c _ _ _ _ u0 x1 R1 L E) as (u' & -> & L'). eauto. }
  destruct c; cbn [brstep] in H |- *; auto; try (destruct fast; [auto|]); clear Z;
    change (look (mkR G m hh u0) h) with (look (mkR G m hh u) h);
    destruct (look (mkR G m hh u) h) as [[w A]|]; try discriminate; destruct (nth_error K h) as [k|]; try discriminate.
  - destruct (match w with Some (_, t) => ntext num (tvalue t) | None => None end) as [b|]; [|injection H as <- <- <-; cbn; eauto]. now apply (recall_low _ _ _ u).
  - destruct (match w with Some (_, t) => ntext false (tvalue t) | None => None end) as [b|]; [|injection H as <- <- <-; cbn; eauto].
    destruct (kAlt k) as [|t|d]; [now apply (recall_low _ _ _ u)|injection H as <- <- <-; cbn; eauto|discriminate].
  - destruct (match w with Some (_, t) => option_map (fun b => (b, tstop t)) (ntext true (tvalue t)) | None => None end) as [[b stop]|]; [|injection H as <- <- <-; cbn; eauto].
    destruct (kAlt k) as [|t|d]; [|discriminate|injection H as <- <- <-; cbn; eauto]. destruct (o_real jd b) as [d|]; [|discriminate]. destruct stop; [|discriminate].
    destruct (spend (mkR G m hh u) A 8) as [R1|] eqn:Sp; [|discriminate]. destruct (spend_low _ _ _ _ _ _ _ _ L Sp) as (u1 & u01 & -> & -> & L1).
    injection H as <- <- <-. cbn. eauto.
  - destruct (match w with Some (_, t) => tkey t | None => None end) as [b|]; [|injection H as <- <- <-; cbn; eauto]. now apply (recall_low _ _ _ u).
  - destruct (match w with Some (_, t) => tkey t | None => None end) as [b|]; [|injection H as <- <- <-; cbn; eauto]. now apply (recall_low _ _ _ u).
Qed.
Theorem zalone_ref jd g : forall es W Ks rs W' Ks' u0, zwrun jd es (W, Ks) = Some (rs, (W', Ks')) -> ~ In (Release g) es -> low u0 (ru (wr W g)) ->
  exists u', brrun jd (calls g es) (mkR (rG (wr W g)) (rn (wr W g)) (rh (wr W g)) u0, Ks g) =
    Some (pick g es rs, (mkR (rG (wr W' g)) (rn (wr W' g)) (rh (wr W' g)) u', Ks' g)) /\ low u' (ru (wr W' g)).
Proof.
  induction es as [|e es IH]; intros W Ks rs W' Ks' u0 H Nr Lo; cbn [zwrun] in H.
  - injection H as <- <- <-. cbn. eauto.
  - destruct (zwstep jd e (W, Ks)) as [[x [W1 Ks1]]|] eqn:E1; [|discriminate]. destruct (zwrun jd es (W1, Ks1)) as [[xs [W2 Ks2]]|] eqn:E2; [|discriminate]. injection H as <- <- <-.
    assert (Nr' : ~ In (Release g) es) by (intro K; apply Nr; now right).
    assert (Same : forall (Q : low u0 (ru (wr W1 g))) (G1 : rG (wr W1 g) = rG (wr W g)) (G2 : rn (wr W1 g) = rn (wr W g)) (G3 : rh (wr W1 g) = rh (wr W g)) (G4 : Ks1 g = Ks g),
      exists u', brrun jd (calls g es) (mkR (rG (wr W g)) (rn (wr W g)) (rh (wr W g)) u0, Ks g) =
    Some (pick g es xs, (mkR (rG (wr W2 g)) (rn (wr W2 g)) (rh (wr W2 g)) u', Ks2 g)) /\ low u' (ru (wr W2 g))).
    { intros Q <- <- <- <-. exact (IH W1 Ks1 xs W2 Ks2 u0 E2 Nr' Q). }
    destruct e as [j c|j]; cbn [zwstep] in E1; cbn [calls flat_map pick].
    + destruct (brstep jd c (wr W j, Ks j)) as [[x0 [R' K']]|] eqn:Er; [|discriminate].
      destruct (Nat.eqb_spec j g) as [->|Nj].
      * assert (x0 = x /\ wr W1 g = R' /\ Ks1 g = K') as (-> & EW & EK).
        { destruct (cneed c =? 0); [injection E1 as <- <- <-|destruct (negb (wdead W) && _); [injection E1 as <- <- <-|discriminate]]; cbn [wr]; rewrite !updn_eq; auto. }
        rewrite <- (wr_eta (wr W g)) in Er. destruct (brstep_low jd c _ _ _ _ u0 _ x R' K' Lo Er) as (u1 & K1 & K2).
        cbn [app brrun]. rewrite K1. rewrite <- EW, <- EK in *. destruct (IH W1 Ks1 xs W2 Ks2 u1 E2 Nr' K2) as (u' & K3 & K4). fold (calls g es). rewrite K3. eauto.
      * cbn [app]. fold (calls g es). destruct (cneed c =? 0).
        -- injection E1 as <- <- <-. apply Same; cbn [wr]; rewrite updn_neq; auto.
        -- destruct (negb (wdead W) && _); [|discriminate]. injection E1 as <- <- <-.
           assert (Q : forall R n, rG (charge R n) = rG R /\ rn (charge R n) = rn R /\ rh (charge R n) = rh R /\ (low u0 (ru R) -> low u0 (ru (charge R n)))).
           { intros R n. unfold charge, scratch. destruct (forallb _ (ru R)); auto. cbn. auto using low_up. }
           destruct (Q (wr W g) (cneed c)) as (Q1 & Q2 & Q3 & Q4).
           apply Same; cbn [wr]; rewrite updn_neq by auto; auto; destruct (inb g (wc W)); auto.
    + injection E1 as <- <- <-. fold (calls g es). apply Same; cbn [wr]; rewrite updn_neq; auto; intros ->; apply Nr; now left.
Qed.
Theorem zalone jd es rs Z g : correct jd -> zwrun jd es zrstart = Some (rs, Z) -> ~ In (Release g) es ->
  exists f0, forall fuel, (f0 <= fuel)%nat -> exists W s E B s',
    zerun fuel es zworld0 init = Ok ((rs, W), s) /\ brun fuel (calls g es) estart bstart init = Ok (((pick g es rs, E), B), s').
Proof.
  intros J H Nr. destruct Z as [W Ks]. destruct (zmany jd es rs W Ks J H) as (f1 & K1).
  destruct (zalone_ref jd g es wstart (fun _ => []) rs W Ks [] H Nr (low_refl _)) as (u' & K2 & _).
  pose proof (bprogram_most jd J (calls g es) _ _ _ K2) as K3. exists (Nat.max f1 (bmost jd (calls g es) (rstart, []))). intros fuel Hf.
  destruct (K1 fuel) as (Es & B & s & E1 & _); [lia|]. destruct (K3 fuel) as (E & B' & s' & E2 & _); [lia|]. eauto 10.
Qed.
