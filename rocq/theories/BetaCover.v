(** The contract of the calls of the beta header: what a caller has to see to so that the
    reference of BetaHist.v promises something.  As HistCover.v for zzzjson.h. *)
From Coq Require Import ZifyN.
From Verif Require Import Base Spec SpecProofs LexProofs PureParse Dom ParseFacts ParseTop Vocab PrintFacts Scene Mem MemProofs AllocProofs StringifyProofs CopyProofs
  EscProofs CacheProofs IntProofs Api Lex Double ReadFacts GetProofs Update Hist HistRun HistForest HistSim HistStep HistAll HistMany HistWorld HistValid HistTree HistDocs HistCover
  Start Beta BetaHist BetaStep BetaSim BetaCurrent BetaDocs BetaClient.
From Verif Require DoubleFacts.

(** [k] is what value object [h] remembers. *)
Definition remembers (K : list kache) (h : nat) (P : kache -> Prop) : Prop := forall k, nth_error K h = Some k -> P k.
Definition zcontract (c : call) (R : rst) (K : list kache) : Prop :=
  match c with
  | CNewValue A => roomy R A 48
  | CParse k h t pad => at_value R h (fun _ A =>
      In 0 (pbuf k t pad) /\ lenN (pbuf k t pad) < two32 /\
      let t0 := before0 (pbuf k t pad) in
      ~ cut_literal t0 (length (pbuf k t pad) - length t0 - 1)%nat /\ roomy R A (pcopy k t t0 + 72 * (lenN t0 + 2)))
  | CSetDouble h d => at_value R h (fun _ A => (Double.finite d -> doubleb d = true) /\ roomy R A 104)
  | CGetText num false h => at_value R h (fun w A => forall i t b, w = Some (i, t) -> ntext num (tvalue t) = Some b ->
      remembers K h (fun k => kStr k = None -> roomy R A (lenN b + 1)))
  | CGetKey false h => at_value R h (fun w A => forall i t b, w = Some (i, t) -> tkey t = Some b ->
      remembers K h (fun k => kKey k = None -> roomy R A (lenN b + 1)))
  | CGetUnEscapeKey h => at_value R h (fun w A => forall i t b, w = Some (i, t) -> tkey t = Some b ->
      remembers K h (fun k => kUn k = None -> roomy R A (lenN b + 1)))
  (* the text and the number share one place *)
  | CGetUnEscape h => at_value R h (fun w A => forall i t b, w = Some (i, t) -> tvalue t = NStr b ->
      remembers K h (fun k => match kAlt k with KText _ => True | KReal _ => False | KNone => roomy R A (lenN b + 1) end))
  | CGetDouble h => at_value R h (fun w A => forall i t b, w = Some (i, t) -> tvalue t = NNum b ->
      remembers K h (fun k => match kAlt k with KReal _ => True | KText _ => False | KNone => tstop t = true /\ roomy R A 8 end))
  | CObjGet len h k => at_value R h (fun _ A => (len = true \/ ~ In 0 k) /\ lenN k + 1 < two32 /\ roomy R A 48)
  | CArrayGet h i => at_value R h (fun _ A => i < two32 /\ roomy R A 48)
  | CBegin h => at_value R h (fun _ A => roomy R A 48)
  | CNext h => at_value R h (fun w A => roomy R A 48 /\
      forall i t p, w = Some (i, t) -> tpar t = Some p -> exists tp, rG R p = Some tp /\ In i (nkids (tvalue tp)))
  | CCopy h => at_value R h (fun w A => forall i t j, w = Some (i, t) -> content R i j -> roomy R A (120 + icost (tkey t, j)))
  | CAdd ob fast h hv => at_value R h (fun w _ => at_value R hv (fun wv B =>
      forall a ta c tc, w = Some (a, ta) -> wv = Some (c, tc) -> is_cont ob (tvalue ta) <> None ->
        if fast then movable R c /\ outside R c a /\ extensible_without ta c
        else extensible ta /\ forall j, content R c j -> roomy R B (120 + icost (tkey tc, j))))
  | CSet fast h hv => at_value R h (fun w _ => at_value R hv (fun wv B =>
      forall b tb, wv = Some (b, tb) ->
        if fast then movable R b /\ forall a ta, w = Some (a, ta) -> outside R b a
        else forall j, content R b j -> roomy R B (120 + icost (tkey tb, j))))
  | CArrayDel h i => at_value R h (fun w A => i < two32 /\ roomy R A 48 /\
      forall a ta c, w = Some (a, ta) -> tvalue ta = NCont false (nkids (tvalue ta)) -> nth_error (nkids (tvalue ta)) (N.to_nat i) = Some c -> movable R c)
  | CObjDel h k => at_value R h (fun w A => c_text k /\ roomy R A 48 /\
      forall a ta c, w = Some (a, ta) -> tvalue ta = NCont true (nkids (tvalue ta)) -> child_by R k (nkids (tvalue ta)) = Some c -> movable R c)
  | CSetInt _ _ | CSetLong _ _ | CSetLongLong _ _ | CSetEscape _ _ _ | CSetKeyEscape _ _ _
  | CGetInt _ | CGetLong _ | CGetLongLong _ => False                            (* no such function *)
  | CNewAllocator | CSetNull _ | CSetBool _ _ | CSetCont _ _ | CSetText _ _ _ _ | CSetKey _ _ _
  | CGetType _ | CSize _ | CIsNull _ | CGetBool _ | CGetText _ true _ | CGetKey true _ | CStringify _ | CMove _ => contract c R
  end.

Lemma takekey_at G a b x t : G x = Some t -> exists t', takekey G a b x = Some t' /\ tvalue t' = tvalue t /\ tpar t' = tpar t.
Proof.
  intro H. unfold takekey. destruct (G a) as [ta|]; [|eauto]. destruct (G b) as [tb|]; [|eauto]. destruct (tkey ta); [|eauto]. destruct (tkey tb) as [k|]; [|eauto].
  unfold rekeyN. destruct (x =? a); [|eauto]. rewrite H. cbn. eexists. split; [reflexivity|]. split; reflexivity.
Qed.

Section Cover.
Variable jd : judge.
Hypothesis J : correct jd.
Ltac pay K := let R1 := fresh "R1" in let E := fresh "E" in destruct (spend_roomy _ _ _ K) as (R1 & E & ? & ? & ?); rewrite E.
Lemma zgive_some R A o : roomy R A 48 -> exists y, zgive R A o = Some y.
Proof. intro K. unfold zgive. pay K. destruct o; eauto. Qed.
Lemma recall_some R K h A n o c put : (c = None -> o <> None /\ roomy R A n) -> exists y, recall R K h A n o c put = Some y.
Proof. intro H. unfold recall. destruct c; [eauto|]. destruct (H eq_refl) as [H1 H2]. destruct o; [|now elim H1]. pay H2. eauto. Qed.

Lemma zcovered c R M : docs_ok R -> caching c = false -> zcontract c R M -> exists y, zrstep jd c R = Some y.
Proof.
  intros D Nc C. assert (P : contract c R -> exists y, rstep jd c R = Some y) by (intro H; destruct (covered jd J c R D H) as (x & R' & ->); eauto).
  destruct c as [| | | | | | | | | | | | | | | | | |num [|] h| | | | | |[|] h| | | | | | | | | | | |]; cbn [zcontract] in C; cbn [zrstep]; try discriminate Nc; try contradiction; try exact (P C); clear P;
    try (match type of C with at_value R ?hh _ => destruct C as (w & A & Lk & C); rewrite Lk end;
         assert (Gw : forall i t, w = Some (i, t) -> rG R i = Some t) by (intros i0 t0 ->; exact (proj1 (look_lt _ _ _ _ _ (d_shape _ D) Lk)))).
  - pay C. eauto.
  - destruct C as (C1 & C2 & C3 & C4). apply N.ltb_lt in C2. fold (fits (pbuf k t pad)) in C2. rewrite C2.
    assert (B1 : has0 (pbuf k t pad) = true) by (destruct (has0 (pbuf k t pad)) eqn:E0; auto; apply has0_no in E0; contradiction). rewrite B1. cbn [andb].
    assert (B2 : negb (o_cut jd (before0 (pbuf k t pad)) (length (pbuf k t pad) - length (before0 (pbuf k t pad)) - 1)) = true).
    { match goal with |- negb ?b = true => destruct b eqn:Bc; auto end. exfalso. apply C3. now apply (jd_cut _ J _ _ (before0_no0 _)). }
    rewrite B2. pay C4. destruct (o_json jd _); eauto.
  - destruct C as [C1 C2]. pay C2. destruct d as [sg m e| |]; [|eauto..]. rewrite (C1 Logic.I). eauto.
  - destruct C as (C1 & C2 & C3). destruct w as [[i t]|]; rewrite (len_or _ _ C1), (fits1 _ 0 C2); cbn [andb]; [|eauto].
    destruct (is_cont true (tvalue t)) as [kids|] eqn:Ec; [|eauto]. apply is_cont_kids in Ec as [_ Ek]. pose proof (keys_fine R i t D (Gw i t eq_refl)) as Kf. rewrite Ek in Kf.
    rewrite Kf, Bool.orb_true_r. now apply zgive_some.
  - destruct C as (C1 & C2). destruct w as [[j t]|]; [|eauto]. apply N.ltb_lt in C1. rewrite C1. destruct (is_cont false (tvalue t)); [now apply zgive_some|eauto].
  - destruct w as [[j t]|]; [|eauto]. now apply zgive_some.
  - destruct C as (C1 & C2). destruct w as [[i t]|]; [|eauto]. destruct (tpar t) as [p|] eqn:Ep; [|now apply zgive_some].
    destruct (C2 i t p eq_refl Ep) as (tp & Gp & Hin). rewrite Gp. destruct (split_at_some _ _ Hin) as (l & r & ->). now apply zgive_some.
  - destruct w as [[i t]|]; [|eauto].
    destruct (read_content R i D) as (j & E & Hj); [now rewrite (Gw i t eq_refl)|]. rewrite E. pose proof (C i t j eq_refl Hj) as Kc. pay Kc. eauto.
  - destruct C as (wv & B & Lv & C2). rewrite Lv. destruct w as [[a ta]|]; [|eauto]. destruct (is_cont ob (tvalue ta)) as [kids|] eqn:Ec; [|eauto].
    pose proof (Gw a ta eq_refl) as Ga. assert (La : a < rn R) by (apply (sh_lt _ _ (d_shape _ D)); congruence).
    apply is_cont_kids in Ec as [Ev Ek]. pose proof (no_self R a ta D Ga) as Nself.
    destruct wv as [[c tc]|]; [|eauto].
    destruct (ob && negb (is_some (tkey tc))); [eauto|]. pose proof (proj1 (look_lt _ _ _ _ _ (d_shape _ D) Lv)) as Gc.
    assert (Ic : is_cont ob (tvalue ta) <> None) by (rewrite Ev; cbn; now rewrite Bool.eqb_reflx). specialize (C2 a ta c tc eq_refl eq_refl Ic). destruct fast.
    + destruct C2 as (Mv & O & X). destruct (unhook_some R c D) as (G1 & Eu); [congruence|auto|]. rewrite Eu. destruct O as [Nac O].
      destruct (unhook_at _ _ _ _ _ Eu Ga) as (ta' & Ga' & _ & _ & Ka). destruct (unhook_at _ _ _ _ _ Eu Gc) as (tc' & Gc' & _ & Pc & _). specialize (Pc eq_refl).
      set (G1' := if ob then G1 else rekeyN G1 c None).
      assert (Ha : G1' a = Some ta') by (unfold G1'; destruct ob; auto; unfold rekeyN; now rewrite (proj2 (N.eqb_neq a c) Nac)).
      assert (Hc : exists tc2, G1' c = Some tc2 /\ tpar tc2 = None) by (unfold G1'; destruct ob; [eauto|]; unfold rekeyN; rewrite N.eqb_refl, Gc'; cbn; eauto).
      destruct Hc as (tc2 & Hc & Pc2).
      assert (Xa : extensible ta' /\ exists kids', tvalue ta' = NCont ob kids' /\ ~ In a kids').
      { destruct X as [X1 X2]. destruct Ka as [[Ka1 Ka2]|(ob' & l & r & K1 & K2 & K3)].
        - split; [|exists kids; rewrite Ka1, <- Ek at 1; split; [congruence|congruence]]. destruct (isinN c (nkids (tvalue ta))) eqn:Ein.
          + exfalso. apply isinN_true in Ein. apply (unhook_root (rn R) (rG R) c G1 a (tvalue ta') (d_shape _ D) Eu); [now apply nv_some|congruence].
          + apply isinN_false in Ein. destruct (X1 Ein) as [Y1 Y2]. unfold extensible. now rewrite Ka1, Ka2.
        - rewrite Ev in K1. injection K1 as <- K1. split.
          + destruct (X2 l r) as (Y1 & Y2 & Y3); [congruence|]. unfold extensible. rewrite K2, K3. cbn [nkids]. split; auto.
            destruct r; [left; now rewrite Y2|right; apply Y3; discriminate].
          + exists (l ++ r). split; auto. rewrite Ek, K1 in Nself. intro H. apply Nself. apply in_app_iff in H. apply in_app_iff. cbn. tauto. }
      destruct Xa as (Xa & kids' & Ev' & Na'). destruct (hang_some G1' ob a c ta' tc2 kids' Ha Hc Ev' Pc2 Nac Na' Xa) as (G2 & Eh). rewrite Eh.
      assert (T1 : trees G1') by (unfold G1'; destruct ob; [|apply rekey_trees]; eapply unhook_trees; eauto; apply (d_trees _ D)).
      assert (Nv : forall x, nv G1' x = nv G1 x) by (intro x; unfold G1'; destruct ob; auto; apply rekey_nv).
      assert (Tc : tr G2 c).
      { destruct (hang_nv _ _ _ _ _ Eh) as (_ & Kn & _). apply (tr_away G1' G2 a Kn); auto; [apply T1; congruence|].
        intro K. apply O. eapply sb_less; [|exact K]. intros x v' Hx. rewrite Nv in Hx. exact (unhook_less _ _ _ Eu x v' Hx). }
      assert (T2 : trees G2) by (eapply hang_trees; eauto).
      assert (B2 : forall i, G2 i <> None -> i < rn R).
      { intros i Hi. apply (hang_dom _ _ _ _ _ i Eh) in Hi. apply dom_nv in Hi. rewrite Nv in Hi. apply dom_nv in Hi. apply (unhook_dom _ _ _ i Eu) in Hi. now apply (sh_lt _ _ (d_shape _ D)). }
      destruct (checked_some R G2 a B2) as (R1 & ->); [|eauto]. apply T2. apply (hang_dom _ _ _ _ _ a Eh). congruence.
    + destruct C2 as (X & C2). destruct (read_content R c D) as (j & E & Hj); [congruence|]. rewrite E. pose proof (C2 j Hj) as K. pay K.
      destruct (duplicate_new R1 tc j) as (_ & _ & tn & kk & Dt & _).
      assert (Pn : exists tn2, rG (duplicate R1 tc j) (rn R1) = Some tn2 /\ tpar tn2 = None).
      { unfold duplicate. destruct (plant (rn R1) j (rn R1 + 1)) as [[v g] n']. cbn [rG]. unfold put. rewrite N.eqb_refl. eauto. }
      destruct Pn as (tn2 & Hn & Pn).
      assert (Ha : rG (duplicate R1 tc j) a = Some ta).
      { unfold duplicate. pose proof (plant_inside j (rn R1) (rn R1 + 1)) as P. destruct (plant (rn R1) j (rn R1 + 1)) as [[v g] n']. cbn [rG]. unfold put.
        rewrite (proj2 (N.eqb_neq a (rn R1))) by lia. unfold over. destruct P as (_ & P & _). destruct (g a) eqn:Eg; [|congruence].
        assert (Hg : g a <> None) by congruence. apply P in Hg. lia. }
      set (G1' := if ob then rG (duplicate R1 tc j) else rekeyN (rG (duplicate R1 tc j)) (rn R1) None).
      assert (Ha' : G1' a = Some ta) by (unfold G1'; destruct ob; auto; unfold rekeyN; now rewrite (proj2 (N.eqb_neq a (rn R1))) by lia).
      assert (Hc : exists tc2, G1' (rn R1) = Some tc2 /\ tpar tc2 = None) by (unfold G1'; destruct ob; [eauto|]; unfold rekeyN; rewrite N.eqb_refl, Hn; cbn; eauto).
      destruct Hc as (tc2 & Hc & Pc2). rewrite Ek in Nself.
      destruct (hang_some G1' ob a (rn R1) ta tc2 kids Ha' Hc Ev Pc2) as (G2 & ->); eauto. lia.
  - destruct C as (wv & B & Lv & C2). rewrite Lv. destruct wv as [[b tb]|]; [|eauto].
    pose proof (proj1 (look_lt _ _ _ _ _ (d_shape _ D) Lv)) as Gb. specialize (C2 b tb eq_refl). destruct fast.
    + destruct C2 as (Mv & O). destruct (unhook_some R b D) as (G1 & Eu); [congruence|auto|]. rewrite Eu. destruct w as [[a ta]|]; [|eauto].
      destruct (O a ta eq_refl) as [Nab Nsb]. destruct (unhook_at _ _ _ _ _ Eu (Gw a ta eq_refl)) as (ta' & Ga' & _).
      destruct (unhook_at _ _ _ _ _ Eu Gb) as (tb' & Gb' & _ & Pb & _). specialize (Pb eq_refl).
      assert (Nsb' : ~ sb G1 b a) by (eapply outside_less; eauto; split; auto).
      assert (Na : ~ In a (nkids (tvalue tb'))) by (intro K; apply Nsb'; eapply sb_kid; [apply nv_some; eauto|auto]).
      destruct (takekey_at G1 a b a ta' Ga') as (ta2 & Ga2 & _ & _). destruct (takekey_at G1 a b b tb' Gb') as (tb2 & Gb2 & Vb & Pb2). rewrite Pb in Pb2. rewrite <- Vb in Na.
      destruct (hand_some (takekey G1 a b) a b true ta2 tb2 Ga2 Gb2 Pb2 Nab Na) as (G2 & Eh). rewrite Eh. destruct (hand_nv _ _ _ _ _ Eh) as (_ & Eb & Ka & _ & Kn).
      rewrite Vb in Na. rewrite takekey_nv in Ka. assert (Kn' : forall x, x <> a -> x <> b -> nv G2 x = nv G1 x) by (intros x X1 X2; rewrite Kn by auto; apply takekey_nv).
      clear Kn. rename Kn' into Kn.
      assert (T1 : trees G1) by (eapply unhook_trees; eauto; apply (d_trees _ D)).
      assert (Ta : tr G2 a).
      { apply (tr_in G2 a (tvalue tb')); [rewrite Ka; now apply nv_some|]. intros y Hy.
        assert (Ty : tr G1 y) by (apply (tr_inv G1 b (tvalue tb')); [apply T1; congruence|now apply nv_some|auto]).
        assert (Nb : forall x, sb G1 b x \/ x = b -> forall v, nv G1 x = Some v -> ~ In b (nkids v)).
        { intros x _ v Hx. eapply unhook_root; eauto. apply (d_shape _ D). }
        assert (K : forall z, tr G1 z -> z <> a -> z <> b -> ~ sb G1 z a -> tr G2 z).
        { intros z Tz. induction Tz as [z v Ez _ IHz]. intros Za Zb Zs. apply (tr_in G2 z v); [now rewrite Kn|]. intros d Hd. apply IHz; auto.
          - intros ->. apply Zs. eapply sb_kid; eauto.
          - intros ->. eapply unhook_root; [apply (d_shape _ D)|exact Eu|exact Ez|exact Hd].
          - intro Q. apply Zs. eapply sb_front; eauto. }
        apply K; auto.
        - intros ->. contradiction.
        - intros ->. eapply unhook_root; [apply (d_shape _ D)|exact Eu|exact (nv_some _ _ _ Gb')|exact Hy].
        - intro Q. apply Nsb'. eapply sb_front; [apply nv_some; eauto|exact Hy|exact Q]. }
      assert (B2 : forall i, G2 i <> None -> i < rn R).
      { intros i Hi. apply (sh_lt _ _ (d_shape _ D)), (unhook_dom _ _ _ i Eu). destruct (N.eqb_spec i a) as [->|Nia]; [congruence|].
        destruct (N.eqb_spec i b) as [->|Nib]; [congruence|]. apply dom_nv in Hi. rewrite Kn in Hi by auto. now apply dom_nv. }
      destruct (checked_some R G2 a B2 Ta) as (R1 & ->). eauto.
    + destruct (read_content R b D) as (j & E & Hj); [congruence|]. rewrite E. pose proof (C2 j Hj) as K. pay K. destruct w as [[a ta]|]; [|eauto].
      pose proof (Gw a ta eq_refl) as Ga. assert (La : a < rn R) by (apply (sh_lt _ _ (d_shape _ D)); congruence).
      assert (Pn : exists v, rG (duplicate R1 tb j) (rn R1) = Some (mkT (tkey tb) v None true true false) /\ rG (duplicate R1 tb j) a = Some ta /\ ~ In a (nkids v)).
      { unfold duplicate. pose proof (plant_inside j (rn R1) (rn R1 + 1)) as P. destruct (plant (rn R1) j (rn R1 + 1)) as [[v g] n']. cbn [rG]. unfold put.
        rewrite N.eqb_refl. exists v. split; auto. destruct P as (_ & P & P3 & _).
        assert (Eg : g a = None) by (destruct (g a) eqn:Eg; auto; assert (Hg : g a <> None) by congruence; apply P in Hg; lia). split.
        - rewrite (proj2 (N.eqb_neq a (rn R1))) by lia. unfold over. rewrite Eg. congruence.
        - intro Hin. now apply P3 in Hin. }
      destruct Pn as (v & Hn & Ha & Na).
      destruct (takekey_at _ a (rn R1) a _ Ha) as (ta2 & Ga2 & _ & _). destruct (takekey_at _ a (rn R1) (rn R1) _ Hn) as (tb2 & Gb2 & Vb & Pb2).
      destruct (hand_some (takekey (rG (duplicate R1 tb j)) a (rn R1)) a (rn R1) false ta2 tb2 Ga2 Gb2 Pb2) as (G2 & ->); [lia|now rewrite Vb|eauto].
  - destruct C as (C1 & C2 & C3). destruct w as [[a ta]|]; [|eauto]. apply N.ltb_lt in C1. rewrite C1. destruct (is_cont false (tvalue ta)) as [kids|] eqn:Ec; [|eauto].
    apply is_cont_kids in Ec as [Ev Ek]. pay C2. destruct (nth_error kids (N.to_nat i)) as [c|] eqn:En; [|eauto].
    destruct (sh_kids _ _ (d_shape _ D) a ta c (Gw a ta eq_refl)) as (tc & Gc & _); [rewrite Ek; eapply nth_error_In; eauto|].
    destruct (unhook_some R c D) as (G & Eu); [congruence|apply (C3 a ta c eq_refl); [rewrite Ek; auto|now rewrite Ek]|]. rewrite H, Eu. eauto.
  - destruct C as ((C0 & C1) & C2 & C3). rewrite (ok_c_yes _ C0), (fits1 _ 0 C1). cbn [andb]. destruct w as [[a ta]|]; [|eauto]. destruct (is_cont true (tvalue ta)) as [kids|] eqn:Ec; [|eauto].
    apply is_cont_kids in Ec as [Ev Ek]. pose proof (keys_fine R a ta D (Gw a ta eq_refl)) as Kf. rewrite Ek in Kf. rewrite Kf. pay C2.
    assert (Eby : child_by R1 key kids = child_by R key kids) by (unfold child_by; now rewrite H). rewrite Eby.
    destruct (child_by R key kids) as [c|] eqn:En; [|eauto]. assert (Hc : In c kids) by (apply find_some in En; tauto).
    destruct (sh_kids _ _ (d_shape _ D) a ta c (Gw a ta eq_refl)) as (tc & Gc & _); [now rewrite Ek|].
    destruct (unhook_some R c D) as (G & Eu); [congruence|apply (C3 a ta c eq_refl); [rewrite Ek; auto|now rewrite Ek]|]. rewrite H, Eu. eauto.
Qed.
Theorem bcovered c R K : docs_ok R -> length K = length (rh R) -> zcontract c R K -> exists x RK', brstep jd c (R, K) = Some (x, RK').
Proof.
  intros D Lk C. enough (exists y, brstep jd c (R, K) = Some y) as ([x RK'] & H) by eauto. destruct (caching c) eqn:Ec.
  2:{ rewrite brstep_plain by exact Ec. destruct (zcovered c R K D Ec C) as ([x R'] & ->). eauto. }
  destruct c as [| | | | | | | | | | | | | | | | | |num [|] h| | | | | |[|] h| | | | | | | | | | | |]; try discriminate Ec; cbn [zcontract] in C; cbn [brstep];
    destruct C as (w & A & L & C); rewrite L;
    (destruct (nth_error K h) as [k|] eqn:Ek;
     [|exfalso; apply nth_error_None in Ek; rewrite Lk in Ek; unfold look in L; apply nth_error_None in Ek; rewrite Ek in L; discriminate L]);
    (destruct w as [[i t]|]; [|eauto]);
    pose proof (proj1 (look_lt _ _ _ _ _ (d_shape _ D) L)) as Gi; pose proof (d_good _ D i t Gi) as [Gk Gv].
  - destruct (ntext num (tvalue t)) as [b|] eqn:Et; [|eauto]. apply recall_some. intro H. split; [discriminate|]. exact (C i t b eq_refl Et k Ek H).
  - destruct (tvalue t) as [|b|b|b|ob kids] eqn:Et; cbn [ntext]; eauto. pose proof (C i t b eq_refl Et k Ek) as Cr. cbv beta in Cr. revert Cr.
    destruct (kAlt k); intro Cr; [|eauto|contradiction]. apply recall_some. intros _. destruct Gv as (o & Gv). apply (jd_dec _ J) in Gv. rewrite Gv. split; [discriminate|exact Cr].
  - destruct (tvalue t) as [|b|b|b|ob kids] eqn:Et; cbn [ntext option_map]; eauto. pose proof (C i t b eq_refl Et k Ek) as Cr. cbv beta in Cr. revert Cr.
    destruct (kAlt k); intro Cr; [|contradiction|eauto]. destruct Cr as [Hs Cr]. destruct (DoubleFacts.number_real b Gv) as (d & Hd). apply (jd_real _ J) in Hd. rewrite Hd, Hs. pay Cr. eauto.
  - destruct (tkey t) as [b|] eqn:Et; [|eauto]. apply recall_some. intro H. split; [discriminate|]. exact (C i t b eq_refl Et k Ek H).
  - destruct (tkey t) as [b|] eqn:Et; [|eauto]. apply recall_some. intro H. destruct Gk as (o & Gk). apply (jd_dec _ J) in Gk. rewrite Gk. split; [discriminate|]. exact (C i t b eq_refl Et k Ek H).
Qed.
Lemma beta_lengths cs xs R K : brrun jd cs (rstart, []) = Some (xs, (R, K)) -> length K = length (rh R).
Proof.
  intro H. destruct (brun_most jd J cs (rstart, []) xs (R, K) H novols estart _ nodocs init _ bstart (le_n _) start_sim) as ([[rs' E] B] & s & _ & _ & _ & nm' & F' & S & C).
  - split; auto. intros h v k Hh. destruct h; discriminate.
  - exact start_own.
  - cbn [fst snd] in *. rewrite (proj1 C). apply S.
Qed.
End Cover.

(** ** Programs that respect the contract *)
Definition zrespects (jd : judge) (cs : list call) : Prop :=
  forall n c xs R K, nth_error cs n = Some c -> brrun jd (firstn n cs) (rstart, []) = Some (xs, (R, K)) -> zcontract c R K.
Lemma zrespects_runs jd cs : correct jd -> zrespects jd cs -> exists xs R K, brrun jd cs (rstart, []) = Some (xs, (R, K)).
Proof.
  intros J H. enough (P : forall n, (n <= length cs)%nat -> exists xs R K, brrun jd (firstn n cs) (rstart, []) = Some (xs, (R, K))).
  { destruct (P (length cs) (le_n _)) as (xs & R & K & E). rewrite firstn_all in E. eauto. }
  induction n as [|n IH]; intro L; [exists [], rstart, []; reflexivity|].
  destruct IH as (xs & R & K & E); [lia|]. destruct (nth_error cs n) as [c|] eqn:En; [|apply nth_error_None in En; lia].
  destruct (bcovered jd J c R K (beta_docs _ _ _ _ _ J E) (beta_lengths jd J _ _ _ _ E) (H n c xs R K En E)) as (x & [R' K'] & Es).
  assert (Ef : firstn (Datatypes.S n) cs = firstn n cs ++ [c]).
  { clear -En. revert n En. induction cs as [|y cs IH]; intros [|n] En; try discriminate; cbn in *; [now injection En as ->|]. f_equal. now apply IH. }
  rewrite Ef, brrun_app, E. cbn [brrun]. rewrite Es. eauto.
Qed.
Theorem zrespects_ok jd : correct jd -> forall cs, zrespects jd cs -> exists xs R K, brrun jd cs (rstart, []) = Some (xs, (R, K)) /\
  forall fuel, (bmost jd cs (rstart, []) <= fuel)%nat -> exists E B s, brun fuel cs estart bstart init = Ok (((xs, E), B), s) /\ represents R E s.
Proof. intros J cs H. destruct (zrespects_runs jd cs J H) as (xs & R & K & E). exists xs, R, K. split; auto. now apply (bprogram_most jd J cs xs R K). Qed.

(** ** Programs that keep the pointers they are given (BetaClient.v) *)
(** Pointer [k] was given for text [t], with its length iff [view]. *)
Definition kept_pointer (T : list rptr) (k : nat) (P : bool -> bytes -> Prop) : Prop :=
  exists view t, nth_error T k = Some (if view : bool then RV t else RC t) /\ P view t.
Definition stmt_contract (c : zstmt) (Z : zst) : Prop :=
  let '((R, K), T) := Z in
  match c with
  | ZApi c => zcontract c R K
  | ZTake g h => zcontract (gcall g h) R K
  | ZPrint h => zcontract (CStringify h) R K
  | ZLook k => (k < length T)%nat
  | ZSetText num fast h k => kept_pointer T k (fun view t => zcontract (CSetText num (kind_of view fast) h t) R K)
  | ZSetKey fast h k => kept_pointer T k (fun view t => zcontract (CSetKey (kind_of view fast) h t) R K)
  | ZObjGet h k => kept_pointer T k (fun view t => zcontract (CObjGet view h t) R K)
  | ZParse fast h k => kept_pointer T k (fun view t => view = false /\ zcontract (CParse (if fast then PFast else PCopy) h t []) R K)
  | ZObjDel h k => kept_pointer T k (fun view t => view = false /\ zcontract (CObjDel h t) R K)
  end.
Fixpoint prog_respects {X} (jd : judge) (p : zprog X) (Z : zst) : Prop :=
  match p with
  | ZRet _ => True
  | ZStuck => False
  | ZAct c k => stmt_contract c Z /\ forall a Z1, zsstep jd c Z = Some (a, Z1) -> prog_respects jd (k a) Z1
  end.
Section Prog.
Variable jd : judge.
Hypothesis J : correct jd.
Definition zreached (RK : rst * list kache) : Prop := exists cs xs, brrun jd cs (rstart, []) = Some (xs, RK).
Lemma zreached_step RK c x RK' : zreached RK -> brstep jd c RK = Some (x, RK') -> zreached RK'.
Proof. intros (cs & xs & E) H. exists (cs ++ [c]), (xs ++ [x]). rewrite brrun_app, E. cbn [brrun]. now rewrite H. Qed.
Lemma stmt_covered c RK T : zreached RK -> stmt_contract c (RK, T) -> exists a RK' T', zsstep jd c (RK, T) = Some (a, (RK', T')) /\ zreached RK'.
Proof.
  intros Re C. assert (Q : forall c, zcontract c (fst RK) (snd RK) -> exists a RK', brstep jd c RK = Some (a, RK') /\ zreached RK').
  { intros d H. destruct RK as [R K]. destruct Re as (cs & xs & E).
    destruct (bcovered jd J d R K (beta_docs _ _ _ _ _ J E) (beta_lengths jd J _ _ _ _ E) H) as (a & RK' & Es). exists a, RK'. split; auto.
    eapply zreached_step; [|exact Es]. exists cs, xs. exact E. }
  destruct RK as [R K]. destruct c as [c|g h|k|num fast h k|fast h k|h k|h|fast h k|h k]; cbn [stmt_contract zsstep zcall fst snd] in *; unfold zcall; cbn [fst snd].
  - destruct (Q _ C) as (a & RK' & -> & ?). eauto.
  - destruct (Q _ C) as (a & RK' & -> & ?). eauto.
  - destruct (nth_error T k) as [r|] eqn:E; [destruct r; eauto|]. apply nth_error_None in E. exfalso. eapply Nat.lt_irrefl, Nat.lt_le_trans; eauto.
  - destruct C as (view & t & -> & C). destruct (Q _ C) as (a & RK' & E & ?). destruct view; rewrite E; eauto.
  - destruct C as (view & t & -> & C). destruct (Q _ C) as (a & RK' & E & ?). destruct view; rewrite E; eauto.
  - destruct C as (view & t & -> & C). destruct (Q _ C) as (a & RK' & E & ?). destruct view; rewrite E; eauto.
  - destruct (Q _ C) as (a & RK' & -> & ?). eauto.
  - destruct C as (view & t & -> & -> & C). destruct (Q _ C) as (a & RK' & -> & ?). eauto.
  - destruct C as (view & t & -> & -> & C). destruct (Q _ C) as (a & RK' & -> & ?). eauto.
Qed.
Lemma prog_runs X : forall (p : zprog X) RK T, zreached RK -> prog_respects jd p (RK, T) -> exists x RK' T', zrplay jd p (RK, T) = Some (x, (RK', T')).
Proof.
  induction p as [x| |c k IH]; intros RK T Re H; cbn [prog_respects zrplay] in *; [eauto|contradiction|].
  destruct H as [C H]. destruct (stmt_covered c RK T Re C) as (a & RK1 & T1 & E & R1). rewrite E. apply IH; auto.
Qed.
Theorem prog_ok X (p : zprog X) : prog_respects jd p ((rstart, []), []) ->
  exists x R K T, zrplay jd p ((rstart, []), []) = Some (x, ((R, K), T)) /\ forall fuel, (zpmost jd p ((rstart, []), []) <= fuel)%nat ->
  exists E B P s, zmplay fuel p ((estart, bstart), []) init = Ok ((x, ((E, B), P)), s) /\ represents R E s.
Proof.
  intro H. destruct (prog_runs X p (rstart, []) []) as (x & [R K] & T & E); [exists [], []; reflexivity|exact H|]. exists x, R, K, T. split; auto.
  intros fuel Hf. eapply zclient; eauto.
Qed.
End Prog.
Fixpoint zseq (cs : list zstmt) : zprog unit := match cs with [] => ZRet tt | c :: r => ZAct c (fun _ => zseq r) end.
Lemma zseq_respects jd cs : forall Z0, (forall k c Z, nth_error cs k = Some c -> zrplay jd (zseq (firstn k cs)) Z0 = Some (tt, Z) -> stmt_contract c Z) ->
  prog_respects jd (zseq cs) Z0.
Proof.
  induction cs as [|c cs IH]; intros Z0 H; cbn [zseq prog_respects]; [exact Logic.I|]. split; [apply (H 0%nat c Z0); reflexivity|].
  intros a Z1 E. apply IH. intros k d Z Hk Hz. apply (H (Datatypes.S k) d Z Hk). cbn [firstn zseq zrplay]. now rewrite E.
Qed.
