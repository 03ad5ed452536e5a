(** Memory: the caller's buffers, the arena, releasing allocators - the lemmas
    behind the properties of PropMem.v. *)
From Verif Require Import Base Spec Lex LexProofs Alloc AllocProofs Mem MemProofs Api PureParse SpecProofs
  Dom Effect Steps CacheProofs SetProofs ParseTop KeyProofs GetProofs Vocab ParseFacts PrintFacts ReadFacts SetFacts Start.

(** ** What the caller may do with a buffer of theirs: overwrite it any number of
    times, then perhaps free it *)
Inductive caller (b : N) : st -> st -> Prop :=
| ca_done s : caller b s s
| ca_write bs s s1 s2 : user_write b bs s = Ok (tt, s1) -> caller b s1 s2 -> caller b s s2
| ca_free s s1 : user_free b s = Ok (tt, s1) -> caller b s s1.

(** The documents [F] do not depend on the caller's block [b]. *)
Definition outlives (VV : vols) (b : N) (s : st) (F : dom) : Prop := forall s', caller b s s' ->
  inv s' F /\ forall u x B, fst u <> b -> handle s F u x B -> handle s' F u x B.

Lemma ublock_noalloc s b : wfst s -> ublock s b -> sallocs s b = None.
Proof.
  intros W (_ & U & _). destruct (sallocs s b) as [ar|] eqn:Eb; auto. exfalso. apply U.
  destruct (w_ar s W b ar Eb) as (_ & _ & l & El).
  assert (In b (map ckBlk ar)) as HI by (rewrite El, in_app_iff; simpl; auto).
  apply in_map_iff in HI as (kr & Er & Hr). exists b, ar, kr. auto.
Qed.
Lemma handle_undo VV b (Hb : b <> 0) s F u x B : sallocs s b = None -> @handle VV s F u x B -> @handle (addvol VV b Hb) s F u x B.
Proof. intros N H. apply handle_addvol; auto. intros ->. destruct H as (_ & [K _] & _). now apply K. Qed.
Lemma inv_outlives VV b (Hb : b <> 0) s F : @inv (addvol VV b Hb) s F -> ublock s b -> outlives VV b s F.
Proof.
  intros I U s' C. revert I U. induction C as [s|bs s s1 s2 E C IH|s s1 E]; intros I U.
  - pose proof (ublock_noalloc s b (i_wf _ _ I) U). split; auto. eapply inv_delvol; eauto.
  - pose proof (ublock_noalloc s b (i_wf _ _ I) U) as Na.
    assert (K : exists n, sbsize s b = Some n /\ N.of_nat (length bs) <= n).
    { unfold user_write in E. destruct (sbsize s b) as [n|]; [|discriminate]. destruct (sallocs s b); [discriminate|].
      destruct (n <? N.of_nat (length bs)) eqn:L; [discriminate|]. exists n. split; auto. bools. lia. }
    destruct K as (n & En & Hl).
    destruct (@userWrite_wp (addvol VV b Hb) s F b n bs I U (or_intror eq_refl) En Hl) as (x & s1' & E' & I1 & H1 & _ & _ & _ & A1 & U1).
    rewrite E in E'. injection E' as _ <-. destruct (IH I1 U1) as [J1 J2]. split; auto.
    intros u y B Nu Hu. apply J2; auto. apply (handle_delvol VV _ _ _ _ _ b Hb). apply H1. now apply handle_undo.
  - pose proof (ublock_noalloc s b (i_wf _ _ I) U) as Na.
    destruct (@userFree_wp (addvol VV b Hb) s F b I U (or_intror eq_refl)) as (x & s1' & E' & I1 & H1 & _ & _ & A1 & _).
    rewrite E in E'. injection E' as _ <-. split.
    + eapply inv_delvol; eauto. congruence.
    + intros u y B Nu Hu. apply (handle_delvol VV _ _ _ _ _ b Hb). apply H1; auto. now apply handle_undo.
Qed.

(** Dropping a mark from the statements of effects. *)
Section Drop.
Context (VV : vols) (b : N) (Hb : b <> 0) (s s' : st).
Hypotheses (Na : sallocs s b = None) (Na' : sallocs s' b = None).
Let V' := addvol VV b Hb.
Lemma on_up F u a A : @on VV s F u a A -> @on V' s F u a A. Proof. now apply handle_undo. Qed.
Lemma on_down F u a A : @on V' s' F u a A -> @on VV s' F u a A. Proof. apply handle_delvol. Qed.
Lemma content_down F u j : @content V' s' F u j -> @content VV s' F u j.
Proof. intros (a & A & H & R). exists a, A. split; auto. now apply on_down. Qed.
Lemma content_up F u j : @content VV s F u j -> @content V' s F u j.
Proof. intros (a & A & H & R). exists a, A. split; auto. now apply on_up. Qed.
Lemma key_down F u k : @key_is V' s' F u k -> @key_is VV s' F u k.
Proof. intros (a & A & f & H & R). exists a, A, f. split; auto. now apply on_down. Qed.
Lemma key_up F u k : @key_is VV s F u k -> @key_is V' s F u k.
Proof. intros (a & A & f & H & R). exists a, A, f. split; auto. now apply on_up. Qed.
Lemma untouched_drop F : @untouched V' s F s' -> @untouched VV s F s'.
Proof.
  intros [I H]. split; [eapply inv_delvol; eauto|]. intros u x B Hu. eapply handle_delvol. apply H. now apply handle_undo.
Qed.
Lemma assigned_drop F v w j F' : @assigned V' s F v w j s' F' -> @assigned VV s F v w j s' F'.
Proof.
  intros []. constructor.
  - eapply inv_delvol; eauto.
  - now apply content_down.
  - intros u c B p a ju -> Hu P R. destruct (as_above u c B p a ju) as [K1 K2]; auto; [now apply on_up|]. split; auto. now apply on_down.
  - intros u c B ju Hu Nb R Ne. destruct (as_beside u c B ju) as [K1 K2]; auto; [now apply on_up|]. split; auto. now apply on_down.
  - intros u B Hu Ne. eapply handle_delvol. apply as_empty; auto. now apply handle_undo.
  - intros u k Hk. apply key_down, as_key. now apply key_up.
Qed.
Lemma rekeyed_drop F v w k F' : @rekeyed V' s F v w k s' F' -> @rekeyed VV s F v w k s' F'.
Proof.
  intros []. constructor.
  - eapply inv_delvol; eauto.
  - intros j Hj. apply content_down, rk_val. now apply content_up.
  - intro E. now apply content_down, rk_null.
  - now apply key_down.
  - intros u c B p a ju -> Hu P R. destruct (rk_above u c B p a ju) as [K1 K2]; auto; [now apply on_up|]. split; auto. now apply on_down.
  - intros u c B ju Hu Nb R Ne. destruct (rk_beside u c B ju) as [K1 K2]; auto; [now apply on_up|]. split; auto. now apply on_down.
  - intros u B Hu Ne. eapply handle_delvol. apply rk_empty; auto. now apply handle_undo.
  - intros u c B f Hu Nb Ne Hc. destruct (rk_keys u c B f) as (f' & K1 & K2); auto; [now apply on_up|]. exists f'. split; auto. now apply on_down.
Qed.
End Drop.

(** ** The copying calls *)
(** What a call on the caller's block [b] is to do: it succeeds exactly if [ok],
    with the effect [eff]; else it leaves everything as it was; and in both cases
    the documents do not depend on the block. *)
Definition forgets (VV : vols) (b : N) (s : st) (F : dom) (ok : Prop) (eff : st -> dom -> Prop) (r : bool) (s' : st) : Prop :=
  exists F', outlives VV b s' F' /\
    ((ok /\ r = true /\ eff s' F') \/ (~ ok /\ r = false /\ F' = F /\ untouched s F s')).

Lemma vals_next s a x : wfst s -> svals s a = Some x -> fst a < snext s.
Proof.
  intros W H. destruct (sbsize s (fst a)) as [n|] eqn:En; [eapply size_next; eauto|].
  destruct (w_dead s W a En) as (_ & _ & K & _). congruence.
Qed.
Lemma fresh_buf VV s F bs p s1 : @inv VV s F -> user_buf bs s = Ok (p, s1) -> exists Hb : fst p <> 0,
  @inv (addvol VV (fst p) Hb) s1 F /\ (forall v w A, @handle VV s F v w A -> @handle (addvol VV (fst p) Hb) s1 F v w A /\ fst v <> fst p) /\
  text_at s1 p = bs /\ srctext s1 p bs /\ ublock s1 (fst p) /\ sallocs s1 = sallocs s /\ svals s1 = svals s /\ scache s1 = scache s /\
  sstrs s1 = sstrs s /\ lenN bs < two32.
Proof.
  intros I E. pose proof (i_wf _ _ I) as W.
  assert (L : lenN bs < two32) by (unfold user_buf in E; destruct (two32 <=? N.of_nat (length bs)) eqn:L; [discriminate|]; unfold lenN; bools; lia).
  destruct (userBuf_wp s bs W L) as (p' & s1' & E' & X & Ep & T & S & U & _ & V & A1).
  rewrite E in E'. injection E' as <- <-.
  assert (Hb : fst p <> 0) by apply U. exists Hb.
  assert (Lp : snext s <= fst p) by (subst p; cbn; lia).
  split; [eapply inv_addvol; eauto|]. split.
  { intros v w A Hv. pose proof Hv as (Hv1 & [Al _] & _). split.
    - apply handle_addvol; [eapply handle_ext; eauto|]. intros ->. apply Al. apply (w_next s W). lia.
    - apply vals_next in Hv1; auto. lia. }
  split; auto. split; auto. split; auto. split; auto. split; auto.
  unfold user_buf in E. destruct (two32 <=? N.of_nat (length bs)); [discriminate|]. injection E as <- <-. auto.
Qed.

Lemma set_forgets VV b (Hb : b <> 0) s F v w A c ok j r s' : @inv (addvol VV b Hb) s F -> @handle (addvol VV b Hb) s F v w A -> ublock s b ->
  @set_res (addvol VV b Hb) s F v w A c ok j r s' -> forgets VV b s F ok (assigned s F v w j) r s'.
Proof.
  intros I Hv U K. pose proof (ublock_noalloc s b (i_wf _ _ I) U) as Na.
  destruct K as [(-> & O & F' & a & P)|(-> & O & X & V)].
  - exists F'. pose proof (pd_ext _ _ _ _ _ _ _ _ _ _ P) as X. pose proof (ublock_ext _ _ _ _ _ _ X U) as U'.
    split; [eapply inv_outlives; eauto; apply P|]. left. split; auto. split; auto.
    eapply assigned_drop; eauto; [|eapply parsed_assigned; eauto]. apply ublock_noalloc; auto. apply X.
  - exists F. pose proof (ublock_ext _ _ _ _ _ _ X U) as U'.
    split; [eapply inv_outlives; eauto; eapply ext_inv; eauto|]. right. split; auto. split; auto. split; auto.
    eapply untouched_drop; eauto; [|eapply ext_untouched; eauto]. apply ublock_noalloc; auto. apply X.
Qed.
Lemma key_forgets VV b (Hb : b <> 0) s F v w A c (ok : Prop) k r s' : @inv (addvol VV b Hb) s F -> @handle (addvol VV b Hb) s F v w A -> ublock s b ->
  @key_res (addvol VV b Hb) s F v w A c ok k r s' -> forgets VV b s F (ok /\ key_open F w) (rekeyed s F v w k) r s'.
Proof.
  intros I Hv U K. pose proof (ublock_noalloc s b (i_wf _ _ I) U) as Na.
  destruct K as [(-> & O & Op & F' & a & P)|(-> & O & X & V)].
  - exists F'. pose proof (ky_ext _ _ _ _ _ _ _ _ _ _ P) as X. pose proof (ublock_ext _ _ _ _ _ _ X U) as U'.
    split; [eapply inv_outlives; eauto; apply P|]. left. split; auto. split; auto.
    eapply rekeyed_drop; eauto; [|eapply keyed_rekeyed; eauto]. apply ublock_noalloc; auto. apply X.
  - exists F. pose proof (ublock_ext _ _ _ _ _ _ X U) as U'.
    split; [eapply inv_outlives; eauto; eapply ext_inv; eauto|]. right. split; auto. split; auto. split; auto.
    eapply untouched_drop; eauto; [|eapply ext_untouched; eauto]. apply ublock_noalloc; auto. apply X.
Qed.
(** Parsing: with the tree the text denotes. *)
Definition parses (VV : vols) (s : st) (F : dom) (v : addr) (w : word) (t : bytes) (s' : st) (F' : dom) : Prop :=
  exists j, json_text t j /\ assigned s F v w j s' F'.
Lemma parse_forgets VV b (Hb : b <> 0) s F v w A k t slack m r s' : @inv (addvol VV b Hb) s F -> @handle (addvol VV b Hb) s F v w A -> ublock s b ->
  ~ In 0 t -> @agree bool _ m s (ptop (t ++ 0 :: slack)) (@pf_post (addvol VV b Hb) s F v w A k) -> m s = Ok (r, s') ->
  forgets VV b s F (valid t) (parses VV s F v w t) r s'.
Proof.
  intros I Hv U N0 Ag E. pose proof (ublock_noalloc s b (i_wf _ _ I) U) as Na.
  destruct (@judges_here (addvol VV b Hb) m s F v w A k t slack N0 Ag) as (_ & J & _). specialize (J r s' E).
  destruct (ptop (t ++ 0 :: slack)) as [[j|]|e] eqn:Ep; cbn in Ag; [| |congruence].
  - destruct Ag as (r' & s2 & E' & -> & F' & a & P). rewrite E in E'. injection E' as -> <-.
    exists F'. pose proof (pd_ext _ _ _ _ _ _ _ _ _ _ P) as X. pose proof (ublock_ext _ _ _ _ _ _ X U) as U'.
    split; [eapply inv_outlives; eauto; apply P|]. left. split; [now apply J|]. split; auto. exists j. split; [eapply sound_here; eauto|].
    eapply assigned_drop; eauto; [|eapply parsed_assigned; eauto]. apply ublock_noalloc; auto. apply X.
  - destruct Ag as (r' & s2 & E' & -> & X). rewrite E in E'. injection E' as -> <-.
    exists F. pose proof (ublock_ext _ _ _ _ _ _ X U) as U'.
    split; [eapply inv_outlives; eauto; eapply ext_inv; eauto|]. right. split; [intro K; apply J in K; discriminate|]. split; auto. split; auto.
    eapply untouched_drop; eauto; [|eapply ext_untouched; eauto]. apply ublock_noalloc; auto. apply X.
Qed.

Section Copying.
Context (VV : vols) (s : st) (F : dom) (v : addr) (w : word) (A : N) (bs : bytes) (p : addr) (s1 : st).
Hypotheses (I : inv s F) (Hv : handle s F v w A) (E : user_buf bs s = Ok (p, s1)).

Lemma used_same B : sallocs s1 = sallocs s -> usedA s1 B = usedA s B.
Proof. intro Es. unfold usedA. now rewrite Es. Qed.
Lemma parse_copies t sl r s2 : bs = t ++ 0 :: sl -> ~ In 0 t -> room s A (len_cost (lenN t)) -> zj_Parse v p s1 = Ok (r, s2) ->
  forgets VV (fst p) s1 F (valid t) (parses VV s1 F v w t) r s2.
Proof.
  intros Eb N0 R Er. destruct (fresh_buf VV s F bs p s1 I E) as (Hb & I1 & H1 & T1 & S1 & U1 & A1 & V1 & C1 & Z1 & L1).
  destruct (H1 v w A Hv) as [Hv1 _]. eapply (parse_forgets VV (fst p) Hb s1 F v w A); eauto.
  eapply (@parse_ag (addvol VV (fst p) Hb)); eauto.
  - split; auto. exists sl. congruence.
  - unfold room in *. now rewrite used_same.
Qed.
Lemma parseLen_copies r s2 : room s A (len_cost (lenN bs)) -> zj_ParseLen v p (lenN bs) s1 = Ok (r, s2) ->
  forgets VV (fst p) s1 F (valid (before0 bs)) (parses VV s1 F v w (before0 bs)) r s2.
Proof.
  intros R Er. destruct (fresh_buf VV s F bs p s1 I E) as (Hb & I1 & H1 & T1 & S1 & U1 & A1 & V1 & C1 & Z1 & L1).
  destruct (H1 v w A Hv) as [Hv1 _]. destruct (before0_split bs []) as (sl & Es & _).
  eapply (parse_forgets VV (fst p) Hb s1 F v w A); eauto using before0_no0.
  eapply (@parseLen_ag (addvol VV (fst p) Hb)); eauto.
  - apply S1.
  - unfold room in *. now rewrite used_same.
Qed.

Lemma buf_given b sl : bs = b ++ 0 :: sl -> text_at s1 p = bs -> srctext s1 p bs -> ~ In 0 b -> given s1 p b.
Proof.
  intros Eb T1 [S1 S2] N0. split; [split; auto; exists sl; congruence|]. split.
  - rewrite Eb in S1. now apply holds_app in S1 as [S1 _].
  - intros i Hi. apply S2. rewrite Eb, app_length. lia.
Qed.
Lemma buf_src b sl : bs = b ++ sl -> srctext s1 p bs -> srctext s1 p b.
Proof.
  intros Eb [S1 S2]. split.
  - rewrite Eb in S1. now apply holds_app in S1 as [S1 _].
  - intros i Hi. apply S2. rewrite Eb, app_length. lia.
Qed.

Lemma setStr_copies b sl r s2 : bs = b ++ 0 :: sl -> ~ In 0 b -> room s A (lenN b + 72) -> zj_SetStr v p s1 = Ok (r, s2) ->
  forgets VV (fst p) s1 F (strbody_set b) (assigned s1 F v w (JStr b)) r s2.
Proof.
  intros Eb N0 R Er. destruct (fresh_buf VV s F bs p s1 I E) as (Hb & I1 & H1 & T1 & S1 & U1 & A1 & V1 & C1 & Z1 & L1).
  destruct (H1 v w A Hv) as [Hv1 _]. destruct (buf_given b sl Eb T1 S1 N0) as [[_ (sl' & T)] S].
  assert (K : @wp bool (zj_SetStr v p) s1 (@set_res (addvol VV (fst p) Hb) s1 F v w A (at_ A (lenN b + 72)) (strbody_set b) (JStr b))).
  { eapply (@set_text_wp (addvol VV (fst p) Hb) zj_checkStr TString VStr strbody_set Hstr s1 F v w A p b); eauto. unfold room in R. rewrite used_same; auto. }
  destruct K as (r' & s2' & E' & K). rewrite Er in E'. injection E' as <- <-. eapply set_forgets; eauto.
Qed.
Lemma setStrLen_copies b sl r s2 : bs = b ++ sl -> cache_live s -> cache_room s A (check_cost (lenN b) + lenN b + 72) ->
  zj_SetStrLen v p (lenN b) s1 = Ok (r, s2) ->
  forgets VV (fst p) s1 F (strbody_set b) (assigned s1 F v w (JStr b)) r s2.
Proof.
  intros Eb Cl [R1 R2] Er. destruct (fresh_buf VV s F bs p s1 I E) as (Hb & I1 & H1 & T1 & S1 & U1 & A1 & V1 & C1 & Z1 & L1).
  destruct (H1 v w A Hv) as [Hv1 _]. pose proof (buf_src b sl Eb S1) as S. unfold room in *.
  assert (Cl1 : cache_live s1) by (unfold cache_live in *; now rewrite C1, Z1).
  assert (Eh : cache_home s1 A = cache_home s A) by (unfold cache_home; now rewrite C1, Z1).
  assert (K : @wp bool (zj_SetStrLen v p (lenN b)) s1 (@set_res (addvol VV (fst p) Hb) s1 F v w A (len_set_cost s1 A (lenN b)) (strbody_set b) (JStr b))).
  { eapply (@set_text_len_wp (addvol VV (fst p) Hb) zj_checkStr TString VStr strbody_set Hstr s1 F v w A p b); eauto; rewrite ?Eh, used_same; auto; lia. }
  destruct K as (r' & s2' & E' & K). rewrite Er in E'. injection E' as <- <-. eapply set_forgets; eauto.
Qed.

Lemma setNumStr_copies b sl r s2 : bs = b ++ 0 :: sl -> ~ In 0 b -> room s A (lenN b + 72) -> zj_SetNumStr v p s1 = Ok (r, s2) ->
  forgets VV (fst p) s1 F (number b) (assigned s1 F v w (JNum b)) r s2.
Proof.
  intros Eb N0 R Er. destruct (fresh_buf VV s F bs p s1 I E) as (Hb & I1 & H1 & T1 & S1 & U1 & A1 & V1 & C1 & Z1 & L1).
  destruct (H1 v w A Hv) as [Hv1 _]. destruct (buf_given b sl Eb T1 S1 N0) as [[_ (sl' & T)] S].
  assert (K : @wp bool (zj_SetNumStr v p) s1 (@set_res (addvol VV (fst p) Hb) s1 F v w A (at_ A (lenN b + 72)) (number b) (JNum b))).
  { eapply (@set_text_wp (addvol VV (fst p) Hb) zj_checkNum TNumber VNum number Hnum s1 F v w A p b); eauto. unfold room in R. rewrite used_same; auto. }
  destruct K as (r' & s2' & E' & K). rewrite Er in E'. injection E' as <- <-. eapply set_forgets; eauto.
Qed.
Lemma setNumStrLen_copies b sl r s2 : bs = b ++ sl -> cache_live s -> cache_room s A (check_cost (lenN b) + lenN b + 72) ->
  zj_SetNumStrLen v p (lenN b) s1 = Ok (r, s2) ->
  forgets VV (fst p) s1 F (number b) (assigned s1 F v w (JNum b)) r s2.
Proof.
  intros Eb Cl [R1 R2] Er. destruct (fresh_buf VV s F bs p s1 I E) as (Hb & I1 & H1 & T1 & S1 & U1 & A1 & V1 & C1 & Z1 & L1).
  destruct (H1 v w A Hv) as [Hv1 _]. pose proof (buf_src b sl Eb S1) as S. unfold room in *.
  assert (Cl1 : cache_live s1) by (unfold cache_live in *; now rewrite C1, Z1).
  assert (Eh : cache_home s1 A = cache_home s A) by (unfold cache_home; now rewrite C1, Z1).
  assert (K : @wp bool (zj_SetNumStrLen v p (lenN b)) s1 (@set_res (addvol VV (fst p) Hb) s1 F v w A (len_set_cost s1 A (lenN b)) (number b) (JNum b))).
  { eapply (@set_text_len_wp (addvol VV (fst p) Hb) zj_checkNum TNumber VNum number Hnum s1 F v w A p b); eauto; rewrite ?Eh, used_same; auto; lia. }
  destruct K as (r' & s2' & E' & K). rewrite Er in E'. injection E' as <- <-. eapply set_forgets; eauto.
Qed.

Lemma setKey_copies b sl r s2 : father_known F w -> bs = b ++ 0 :: sl -> ~ In 0 b -> room s A (72 + lenN b) -> zj_SetKey v p s1 = Ok (r, s2) ->
  forgets VV (fst p) s1 F (strbody_set b /\ key_open F w) (rekeyed s1 F v w b) r s2.
Proof.
  intros Fk Eb N0 R Er. destruct (fresh_buf VV s F bs p s1 I E) as (Hb & I1 & H1 & T1 & S1 & U1 & A1 & V1 & C1 & Z1 & L1).
  destruct (H1 v w A Hv) as [Hv1 _]. destruct (buf_given b sl Eb T1 S1 N0) as [[_ (sl' & T)] S].
  assert (K : @wp bool (zj_SetKey v p) s1 (@key_res (addvol VV (fst p) Hb) s1 F v w A (at_ A (72 + lenN b)) (strbody_set b) b)).
  { eapply (@setKey_wp (addvol VV (fst p) Hb) s1 F v w A p b); eauto. unfold room in R. rewrite used_same; auto. }
  destruct K as (r' & s2' & E' & K). rewrite Er in E'. injection E' as <- <-. eapply key_forgets; eauto.
Qed.
Lemma setKeyLen_copies b sl r s2 : father_known F w -> bs = b ++ sl -> cache_live s -> cache_room s A (check_cost (lenN b) + (72 + lenN b)) ->
  zj_SetKeyLen v p (lenN b) s1 = Ok (r, s2) ->
  forgets VV (fst p) s1 F (strbody_set b /\ key_open F w) (rekeyed s1 F v w b) r s2.
Proof.
  intros Fk Eb Cl [R1 R2] Er. destruct (fresh_buf VV s F bs p s1 I E) as (Hb & I1 & H1 & T1 & S1 & U1 & A1 & V1 & C1 & Z1 & L1).
  destruct (H1 v w A Hv) as [Hv1 _]. pose proof (buf_src b sl Eb S1) as S. unfold room in *.
  assert (Cl1 : cache_live s1) by (unfold cache_live in *; now rewrite C1, Z1).
  assert (Eh : cache_home s1 A = cache_home s A) by (unfold cache_home; now rewrite C1, Z1).
  assert (K : @wp bool (zj_SetKeyLen v p (lenN b)) s1 (@key_res (addvol VV (fst p) Hb) s1 F v w A (len_key_cost s1 A (lenN b)) (strbody_set b) b)).
  { eapply (@setKeyLen_wp (addvol VV (fst p) Hb) s1 F v w A p b); eauto; rewrite ?Eh, used_same; auto; lia. }
  destruct K as (r' & s2' & E' & K). rewrite Er in E'. injection E' as <- <-. eapply key_forgets; eauto.
Qed.
End Copying.

(** ** Requests to an allocator *)
Fixpoint requests (A : N) (l : list N) : M (list addr) :=
  match l with
  | [] => ret []
  | n :: r => a <- zj_allocatorAlloc A n ;; t <- requests A r ;; ret (a :: t)
  end.
Definition sum (l : list N) : N := fold_right N.add 0 l.
(** [n] bytes at [a] and [m] bytes at [b] have no byte in common. *)
Definition apart (a : addr) (n : N) (b : addr) (m : N) : Prop :=
  forall i j, i < n -> j < m -> offset a i <> offset b j.
(** [n] bytes at [a] lie in a live block. *)
Definition inside (s : st) (a : addr) (n : N) : Prop := exists m, sbsize s (fst a) = Some m /\ snd a + n <= m.

Lemma apart_range a n b m : (0 < n -> 0 < m -> fst b <> fst a \/ snd b + m <= snd a \/ snd a + n <= snd b) -> apart a n b m.
Proof.
  intros H i j Hi Hj E. unfold offset in E. injection E as E1 E2. destruct H as [H|H]; lia.
Qed.
Lemma apart_sym a n b m : apart a n b m -> apart b m a n.
Proof. intros H i j Hi Hj E. now apply (H j i). Qed.

Lemma requests_ok A l : forall s, wfst s -> alive s A -> room s A (sum l) ->
  exists rs s', requests A l s = Ok (rs, s') /\ wfst s' /\ alive s' A /\ usedA s' A = usedA s A + sum l /\ length rs = length l /\
    (forall B b m, inrA s B b m -> inrA s' B b m) /\
    (forall i a n, nth_error rs i = Some a -> nth_error l i = Some n -> inrA s' A a n /\
       (forall B b m, inrA s B b m -> apart a n b m) /\
       (forall k b m, (k < i)%nat -> nth_error rs k = Some b -> nth_error l k = Some m -> apart a n b m)).
Proof.
  induction l as [|n l IH]; intros s W Al Rm.
  - exists [], s. split; [reflexivity|]. split; auto. split; auto. split; [cbn; lia|]. split; auto. split; auto. intros [|i] a n E; discriminate.
  - cbn [sum fold_right] in Rm. fold (sum l) in Rm. unfold room in Rm.
    destruct (alloc_wp A n s W Al) as (a & s1 & E1 & P); [lia|].
    destruct (IH s1 (ap_wf _ _ _ _ _ P) (ap_alive _ _ _ _ _ P)) as (rs & s' & E2 & W2 & Al2 & U2 & L2 & K2 & H2).
    { unfold room. rewrite (ap_used _ _ _ _ _ P). lia. }
    exists (a :: rs), s'. split; [cbn [requests]; unfold bind; rewrite E1, E2; reflexivity|]. split; auto. split; auto.
    split; [rewrite U2, (ap_used _ _ _ _ _ P); cbn [sum fold_right]; fold (sum l); lia|]. split; [cbn; lia|].
    split; [intros B b m Hb; apply K2; eapply ap_old; eauto|].
    intros [|i] b m Hb Hm.
    + injection Hb as <-. injection Hm as <-. split; [apply K2, P|]. split; [|intros k ? ? K; lia].
      intros B b m Hb. apply apart_range. apply (ap_old _ _ _ _ _ P B b m Hb).
    + cbn in Hb, Hm. destruct (H2 i b m Hb Hm) as (J1 & J2 & J3). split; auto. split.
      * intros B c k Hc. eapply J2. eapply ap_old; eauto.
      * intros [|k] c x Hk Hc Hx; [|eapply J3; eauto; lia]. injection Hc as <-. injection Hx as <-. eapply J2. apply P.
Qed.
Lemma requests_apart s A l : wfst s -> alive s A -> room s A (sum l) ->
  exists rs s', requests A l s = Ok (rs, s') /\ length rs = length l /\
    (forall i a n, nth_error rs i = Some a -> nth_error l i = Some n ->
       inside s' a n /\ (forall B b m, inrA s B b m -> apart a n b m) /\
       (forall k b m, k <> i -> nth_error rs k = Some b -> nth_error l k = Some m -> apart a n b m)).
Proof.
  intros W Al Rm. destruct (requests_ok A l s W Al Rm) as (rs & s' & E & W' & _ & _ & L & _ & H).
  exists rs, s'. split; auto. split; auto. intros i a n Ha Hn. destruct (H i a n Ha Hn) as (H1 & H2 & H3).
  split; [eapply inrA_size; eauto|]. split; auto. intros k b m Hk Hb Hm. destruct (Nat.lt_trichotomy k i) as [K|[K|K]]; [eauto|congruence|].
  destruct (H k b m Hb Hm) as (_ & _ & J). apply apart_sym. eauto.
Qed.

(** *** Any sizes: the blocks of an allocator *)
Record blocks (s0 s : st) (A : N) : Prop := {
  bk_next : forall b, snext s <= b -> sbsize s b = None;
  bk_grow : snext s0 <= snext s;
  bk_old : forall b, b < snext s0 -> sbsize s b = sbsize s0 b;
  bk_arena : exists ar l, sallocs s A = Some ar /\ map ckBlk ar = l ++ [A] /\ NoDup (l ++ [A]) /\
    forall b, snext s0 <= b -> (In b (l ++ [A]) <-> sbsize s b <> None);
  bk_new : forall ar k, sallocs s A = Some ar -> In k ar -> snext s0 <= ckBlk k
}.
Lemma blocks_start s : (forall b, snext s <= b -> sbsize s b = None) ->
  exists s1, zj_NewAllocator s = Ok (snext s, s1) /\ blocks s s1 (snext s).
Proof.
  intro H. eexists. split; [reflexivity|]. constructor; cbn [snext sbsize sallocs].
  - intros b Hb. rewrite updN_neq by lia. apply H. lia.
  - lia.
  - intros b Hb. rewrite updN_neq by lia. reflexivity.
  - exists [first_chunk (snext s)], []. rewrite updN_eq. split; auto. split; auto. split; [repeat constructor; intros []|].
    intros b Hb. cbn. destruct (N.eq_dec b (snext s)) as [->|Nb].
    + rewrite updN_eq. split; [discriminate|auto].
    + rewrite updN_neq by auto. rewrite H by auto. split; [intros [K|[]]; congruence|now intros []].
  - intros ar k E Hk. rewrite updN_eq in E. injection E as <-. destruct Hk as [<-|[]]. cbn. lia.
Qed.
Lemma blocks_step s0 s A n a s' : blocks s0 s A -> zj_allocatorAlloc A n s = Ok (a, s') -> blocks s0 s' A.
Proof.
  intros [Hn Hg Ho (ar & l & EA & El & ND & Hl) Hw] E. unfold zj_allocatorAlloc in E. rewrite EA in E.
  destruct (arena_alloc (snext s) ar (u32 n)) as [o|e] eqn:Eo; [|discriminate].
  destruct (match onew o with Some m => updN (sbsize s) (snext s) (Some m) | None => sbsize s end (fst (oaddr o))) as [tot|]; [|discriminate].
  destruct (tot <? snd (oaddr o) + u32 n); [discriminate|]. injection E as <- <-.
  assert (K : (onew o = None /\ map ckBlk (oarena o) = map ckBlk ar) \/ (onew o <> None /\ map ckBlk (oarena o) = snext s :: map ckBlk ar)).
  { unfold arena_alloc in Eo. destruct ar as [|c r]; [discriminate|]. destruct (ckSize c <? u32 (ckPos c + u32 n)).
    - destruct (grow grow_fuel (u32 n) (u32 (ckSize c * zj_Delta))); [|discriminate]. cbn in Eo. injection Eo as <-. right. split; [discriminate|reflexivity].
    - injection Eo as <-. left. split; reflexivity. }
  destruct K as [[En Em]|[En Em]].
  - rewrite En. constructor; cbn [snext sbsize sallocs]; auto.
    + exists (oarena o), l. rewrite updN_eq. split; auto. split; [congruence|]. auto.
    + intros ar' k E' Hk. rewrite updN_eq in E'. injection E' as <-.
      assert (In (ckBlk k) (map ckBlk ar)) as K by (rewrite <- Em; now apply in_map). apply in_map_iff in K as (k' & <- & K). eauto.
  - destruct (onew o) as [m|]; [|now elim En]. constructor; cbn [snext sbsize sallocs].
    + intros b Hb. rewrite updN_neq by lia. apply Hn. lia.
    + lia.
    + intros b Hb. rewrite updN_neq by lia. now apply Ho.
    + exists (oarena o), (snext s :: l). rewrite updN_eq. split; auto. split; [cbn; congruence|]. split.
      * cbn. constructor; auto. intros K. apply Hl in K; [|lia]. apply K, Hn. lia.
      * intros b Hb. cbn. destruct (N.eq_dec b (snext s)) as [->|Nb].
        -- rewrite updN_eq. split; [discriminate|auto].
        -- rewrite updN_neq by auto. rewrite <- Hl by auto. intuition congruence.
    + intros ar' k E' Hk. rewrite updN_eq in E'. injection E' as <-.
      assert (In (ckBlk k) (map ckBlk (oarena o))) as K by now apply in_map. rewrite Em in K. destruct K as [K|K]; [lia|].
      apply in_map_iff in K as (k' & <- & K). eauto.
Qed.
Lemma requests_blocks s0 A l : forall s rs s', blocks s0 s A -> requests A l s = Ok (rs, s') -> blocks s0 s' A.
Proof.
  induction l as [|n l IH]; intros s rs s' B E; cbn [requests] in E.
  - injection E as _ <-. exact B.
  - unfold bind in E. destruct (zj_allocatorAlloc A n s) as [[a s1]|e] eqn:E1; [|discriminate].
    destruct (requests A l s1) as [[t s2]|e] eqn:E2; [|discriminate]. injection E as _ <-. apply (IH s1 t); auto. eapply blocks_step; eauto.
Qed.
Lemma release_blocks s0 s A : blocks s0 s A -> exists s', zj_ReleaseAllocator A s = Ok (tt, s') /\
  (forall b, b < snext s0 -> sbsize s' b = sbsize s0 b) /\ (forall b, snext s0 <= b -> sbsize s' b = None) /\ sallocs s' A = None.
Proof.
  intros [Hn Hg Ho (ar & l & EA & El & ND & Hl) Hw]. unfold zj_ReleaseAllocator, bind, get. rewrite EA, El, rev_app_distr. cbn [rev app].
  assert (LA : snext s0 <= A).
  { assert (In A (map ckBlk ar)) as K by (rewrite El, in_app_iff; simpl; auto). apply in_map_iff in K as (k & <- & K). eauto. }
  assert (Nl : ~ In A l /\ NoDup l) by (apply NoDup_remove in ND; rewrite app_nil_r in ND; tauto).
  assert (Hin : forall b, In b l -> snext s0 <= b).
  { intros b Hb. assert (In b (map ckBlk ar)) as K by (rewrite El, in_app_iff; auto). apply in_map_iff in K as (k & <- & K). eauto. }
  destruct (free_blks_ok (rev l) s) as (s1 & E & E1 & E2 & E3 & H1 & H0 & H2 & H3 & H4).
  { apply NoDup_rev, Nl. }
  { intros b Hb. rewrite <- in_rev in Hb. apply Hl; auto. rewrite in_app_iff. auto. }
  rewrite E. unfold free_blk.
  assert (SA : sbsize s1 A <> None).
  { rewrite H4 by (rewrite <- in_rev; tauto). apply Hl; auto. rewrite in_app_iff. simpl. auto. }
  destruct (sbsize s1 A) as [n|] eqn:En; [|congruence]. eexists. split; [reflexivity|]. cbn [sbsize sallocs].
  split; [|split; [|apply updN_eq]].
  - intros b Hb. rewrite updN_neq by lia. rewrite H4; auto. rewrite <- in_rev. intro K. apply Hin in K. lia.
  - intros b Hb. destruct (N.eq_dec b A) as [->|Nb]; [apply updN_eq|]. rewrite updN_neq by auto.
    destruct (in_dec N.eq_dec b (rev l)) as [K|K]; [auto|]. rewrite H4 by auto. destruct (sbsize s b) as [m|] eqn:Eb; auto.
    exfalso. assert (In b (l ++ [A])) as J by (apply Hl; auto; congruence). rewrite in_app_iff in J. rewrite <- in_rev in K.
    destruct J as [J|[J|[]]]; auto.
Qed.
(** New allocator, any requests, release. *)
Lemma requests_released s l A s1 rs s2 : (forall b, snext s <= b -> sbsize s b = None) ->
  zj_NewAllocator s = Ok (A, s1) -> requests A l s1 = Ok (rs, s2) ->
  exists s3, zj_ReleaseAllocator A s2 = Ok (tt, s3) /\ (forall b, sbsize s3 b = sbsize s b) /\
    (exists e, zj_ReleaseAllocator A s3 = Err e).
Proof.
  intros H E1 E2. destruct (blocks_start s H) as (s1' & E1' & B). rewrite E1 in E1'. injection E1' as -> <-.
  pose proof (requests_blocks _ _ _ _ _ _ B E2) as B2. destruct (release_blocks _ _ _ B2) as (s3 & E3 & K1 & K2 & K3).
  exists s3. split; auto. split.
  - intro b. destruct (N.lt_ge_cases b (snext s)) as [L|L]; auto. rewrite K2, H; auto.
  - unfold zj_ReleaseAllocator, bind, get. rewrite K3. eauto.
Qed.

(** *** Alignment *)
Definition aligned (a : addr) : Prop := (snd a) mod 8 = 0.
Definition even8 (s : st) (A : N) : Prop := exists ar, sallocs s A = Some ar /\ match ar with c :: _ => ckBase c mod 8 = 0 /\ ckPos c mod 8 = 0 | [] => True end.
Lemma mod8_u32 n : n mod 8 = 0 -> u32 n mod 8 = 0.
Proof.
  intro H. unfold u32. change two32 with (8 * 536870912). rewrite N.mod_mul_r by discriminate.
  rewrite H, N.add_0_l. rewrite N.mul_comm. apply N.mod_mul. discriminate.
Qed.
Lemma mod8_add a b : a mod 8 = 0 -> b mod 8 = 0 -> (a + b) mod 8 = 0.
Proof. intros H K. rewrite N.add_mod by discriminate. rewrite H, K. reflexivity. Qed.
Lemma alloc_aligned A n s a s' : even8 s A -> n mod 8 = 0 -> zj_allocatorAlloc A n s = Ok (a, s') -> aligned a /\ even8 s' A.
Proof.
  intros (ar & EA & K) Hn E. unfold zj_allocatorAlloc in E. rewrite EA in E.
  destruct (arena_alloc (snext s) ar (u32 n)) as [o|e] eqn:Eo; [|discriminate].
  destruct (match onew o with Some m => updN (sbsize s) (snext s) (Some m) | None => sbsize s end (fst (oaddr o))) as [tot|]; [|discriminate].
  destruct (tot <? snd (oaddr o) + u32 n); [discriminate|]. injection E as <- <-.
  assert (J : aligned (oaddr o) /\ match oarena o with c :: _ => ckBase c mod 8 = 0 /\ ckPos c mod 8 = 0 | [] => True end).
  { apply mod8_u32 in Hn. unfold arena_alloc in Eo. destruct ar as [|c r]; [discriminate|]. destruct K as [K1 K2].
    destruct (ckSize c <? u32 (ckPos c + u32 n)).
    - destruct (grow grow_fuel (u32 n) (u32 (ckSize c * zj_Delta))); [|discriminate]. cbn [rbind] in Eo. injection Eo as <-.
      cbn [oaddr oarena ckBase ckPos]. split; [reflexivity|]. split; [reflexivity|]. now apply mod8_u32.
    - injection Eo as <-. cbn [oaddr oarena ckBase ckPos]. split; [now apply mod8_add|]. split; auto. now apply mod8_u32, mod8_add. }
  destruct J as [J1 J2]. split; auto. exists (oarena o). cbn [sallocs]. rewrite updN_eq. auto.
Qed.
Lemma requests_aligned s l A s1 rs s2 : Forall (fun n => n mod 8 = 0) l ->
  zj_NewAllocator s = Ok (A, s1) -> requests A l s1 = Ok (rs, s2) -> Forall aligned rs.
Proof.
  intros H E1. assert (K : even8 s1 A).
  { injection E1 as <- <-. exists [first_chunk (snext s)]. cbn [sallocs]. rewrite updN_eq. split; [auto|split; reflexivity]. }
  clear E1. revert s1 rs K. induction H as [|n l Hn H IH]; intros s1 rs K E; cbn [requests] in E.
  - injection E as <- <-. constructor.
  - unfold bind in E. destruct (zj_allocatorAlloc A n s1) as [[a t]|e] eqn:Ea; [|discriminate].
    destruct (requests A l t) as [[q u]|e] eqn:Er; [|discriminate]. injection E as <- <-.
    destruct (alloc_aligned A n s1 a t K Hn Ea) as [J1 J2]. constructor; auto. eapply IH; eauto.
Qed.

(** ** Releasing *)
Lemma release_anytime s A : wfst s -> alive s A -> exists s', zj_ReleaseAllocator A s = Ok (tt, s') /\
  (forall ar k, sallocs s A = Some ar -> In k ar -> sbsize s' (ckBlk k) = None) /\
  (forall b, ~ (exists ar k, sallocs s A = Some ar /\ In k ar /\ ckBlk k = b) -> sbsize s' b = sbsize s b) /\
  (forall B, B <> A -> sallocs s' B = sallocs s B).
Proof.
  intros W Al. destruct (release_wp s A W Al) as ([] & s' & E & R). exists s'. split; auto. split; [apply R|]. split; apply R.
Qed.
Lemma release_isolated (VV : vols) s F A : inv s F -> isvol A -> alive s A -> exists s', zj_ReleaseAllocator A s = Ok (tt, s') /\
  inv s' F /\ forall v w B, handle s F v w B -> ~ vol s (fst v) -> handle s' F v w B.
Proof.
  intros I HA Al. pose proof (i_wf _ _ I) as W. destruct (release_wp s A W Al) as ([] & s' & E & R).
  exists s'. split; auto. split; [eapply released_inv; eauto|]. intros v w B Hv Nv. eapply (released_handle s F v w A); eauto.
  - intros ->. destruct Hv as (_ & [_ K] & _). auto.
  - intros (ar & k & H1 & H2 & H3). apply Nv. right. exists A, ar, k. auto.
Qed.
(** A new allocator may be marked: nothing depends on it yet. *)
Lemma new_isolated (VV : vols) s F A s1 : inv s F -> zj_NewAllocator s = Ok (A, s1) -> exists Hb : A <> 0,
  @inv (addvol VV A Hb) s1 F /\ alive s1 A /\
  forall v w B, @handle VV s F v w B -> ~ @vol VV s (fst v) -> @handle (addvol VV A Hb) s1 F v w B /\ ~ @vol (addvol VV A Hb) s1 (fst v).
Proof.
  intros I E. pose proof (i_wf _ _ I) as W. destruct (newAllocator_wp s W) as (A' & s' & E' & X & EA & Al & _).
  rewrite E in E'. injection E' as <- <-.
  assert (Hb : A <> 0) by (pose proof (w_zero s W); lia). exists Hb.
  assert (Es : sallocs s1 = updN (sallocs s) A (Some [first_chunk A])) by (injection E as <- <-; reflexivity).
  pose proof (x_wf _ _ _ _ _ X) as W'. assert (I' : @inv VV s1 F) by (eapply ext_inv; eauto).
  assert (V : forall x, @vol (addvol VV A Hb) s1 x -> @vol VV s1 x \/ x = A).
  { intros x [[K|K]|(B & ar & k & [HV|HV] & HA & Hk & Ek)].
    - left. now left.
    - now right.
    - left. right. exists B, ar, k. auto.
    - subst B. rewrite Es, updN_eq in HA. injection HA as <-. destruct Hk as [<-|[]]. now right. }
  assert (T : forall a t, @safetext VV s a t -> @safetext (addvol VV A Hb) s1 a t).
  { intros a t H. pose proof (safetext_ext _ _ _ _ _ _ _ X H) as [H1 H2]. split; auto. intros i Hi. destruct (H2 i Hi) as [H3 H4].
    split; auto. intro K. apply V in K as [K|K]; [auto|]. destruct H as [H _].
    destruct (nth_error t i) as [x|] eqn:Ex; [|apply nth_error_None in Ex; lia].
    apply H, (bytes_next s _ _ W) in Ex. cbn in Ex. lia. }
  split; [|split; auto].
  - destruct I as [_ R D Wv O]. constructor; auto.
    + intros a f Ha _. destruct (R a f Ha) as (n & Hn & Hr); [auto|]. exists n.
      split; [apply (x_nodes _ _ _ _ _ X); auto|]. destruct Hr. constructor; auto.
      * destruct (fkey f); cbn in *; auto. destruct r_key as (p & E1 & E2 & K). eauto.
      * assert (K : forall tt' bb, @rep_text VV s n tt' bb -> @rep_text (addvol VV A Hb) s1 n tt' bb).
        { intros t0 b0 (E1 & E2 & p & E3 & K). split; auto. split; auto. eauto. }
        destruct (fvalue f); cbn in *; auto.
      * intros Ez b0 p Eb Ep. destruct (r_stop Ez b0 p Eb Ep) as (y & Hy & K). eauto.
    + constructor.
      * intros x [Hx|Hx]; [apply (wv_next s1 (i_vol _ _ I') x Hx)|]. subst x A. injection E as <-. cbn. lia.
      * intros B ar k HA Hk [Hv|Hv]; [left; eapply (wv_own s1 (i_vol _ _ I')); eauto|].
        destruct (N.eq_dec B A) as [->|NB]; [now right|]. exfalso. rewrite Es, updN_neq in HA by auto.
        assert (ownblk s (ckBlk k)) as K by (exists B, ar, k; auto). apply (ownblk_lt s _ W) in K. lia.
    + intros a Ha K. apply V in K as [K|K]; [exact (i_off _ _ I' a Ha K)|].
      destruct (F a) as [f|] eqn:Ef; [|congruence]. destruct (R a f Ef) as (n & Hn & _); [auto|]. apply nodes_next in Hn; auto. lia.
  - intros v w B Hv Nv. pose proof Hv as (Hv1 & [Al1 _] & _). assert (Lv : fst v < snext s) by (eapply vals_next; eauto). split.
    + apply handle_addvol; [eapply handle_ext; eauto|]. intros ->. apply Al1. apply (w_next s W). lia.
    + intro K. apply V in K as [K|K]; [|lia]. revert K. eapply vol_ext; eauto.
Qed.
