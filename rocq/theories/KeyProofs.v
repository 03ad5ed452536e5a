(** zj_SetKey and its variants. *)
From Verif Require Import Base Spec Lex LexProofs Alloc AllocProofs Mem MemProofs Api PureParse Dom Steps StrBuf StringifyProofs ParseProofs ParseTop CacheProofs SetProofs IntProofs EscProofs Update.

Section WithVol.
Context {VV : vols}.

Definition setkey (k : bytes) (f : fnode) : fnode := mkF (Some k) (fvalue f) (fpar f) (fnext f) (fprev f) (fend f) (fstop f).
Definition fresh_null : fnode := mkF None VNull None None None None false.

(** The value may be given a key: it is empty, a root, or a member of an object. *)
Definition key_open (F : dom) (w : word) : Prop :=
  match w with
  | At a => exists f, F a = Some f /\
      match fpar f with
      | None => True
      | Some p => exists fp kids, F p = Some fp /\ fvalue fp = VCont true kids
      end
  | _ => True
  end.
(** The father, if there is one, is a node we know. *)
Definition father_known (F : dom) (w : word) : Prop :=
  forall a f p, w = At a -> F a = Some f -> fpar f = Some p -> F p <> None.

Record keyed (s : st) (F : dom) (v : addr) (w : word) (A : N) (c : N -> N) (k : bytes) (s' : st) (F' : dom) (a : addr) : Prop := {
  ky_inv : inv s' F';
  ky_val : svals s' v = Some (mkVal (At a) A);
  ky_at : w = At a \/ (w = Null /\ beyond s a);
  ky_ext : ext (wat w) (only v) c s s';
  ky_keep : w <> Null -> svals s' = svals s;
  ky_old : forall x f, F x = Some f -> x <> a -> F' x = Some f;
  ky_only : forall x, F' x <> None -> F x <> None \/ x = a;
  ky_root : F' a = Some (setkey k (match F a with Some f => f | None => fresh_null end))
}.
Lemma keyed_more s F v w A c c1 k s' F' a : keyed s F v w A c k s' F' a -> (forall x, c x <= c1 x) ->
  keyed s F v w A c1 k s' F' a.
Proof. intros P H. destruct P. constructor; auto. eapply ext_weaken; eauto. Qed.
Lemma keyed_before s s1 F v w A c c1 k s' F' a : ext none none c1 s s1 -> svals s1 = svals s ->
  keyed s1 F v w A c k s' F' a -> keyed s F v w A (addc c1 c) k s' F' a.
Proof.
  intros X Ev P. destruct P. constructor; auto.
  - destruct ky_at0 as [H|[H1 H2]]; auto. right. split; auto. exact (beyond_ext _ _ _ _ _ a X H2).
  - eapply ext_trans; [eapply ext_weaken; [exact X|..]|exact ky_ext0]; auto; unfold none; intros; try tauto; lia.
  - intro H. rewrite ky_keep0; auto.
Qed.

(** Giving a node a key keeps the lists of children. *)
Lemma setkey_wfdom F a f k : wfdom F ->
  (F a = Some f /\ key_open F (At a)) \/ (F a = None /\ f = fresh_null) -> wfdom (add F a (setkey k f)).
Proof.
  intros D Ha x g Hx.
  assert (Hc : forall y ob kids, (exists fy, F y = Some fy /\ fvalue fy = VCont ob kids) -> chain F y ob kids -> chain (add F a (setkey k f)) y ob kids).
  { intros y ob kids (fy & Hy & Ey).
    cut (forall l, chain F y ob l -> chain (add F a (setkey k f)) y ob l); [auto|].
    intro l. induction l as [|c l IH]; simpl; auto.
    intros [(fc & H1 & H2 & H3 & H4) H]. split; [|apply IH; auto].
    destruct (addr_eqb_spec c a) as [->|N].
    - exists (setkey k f). split; [apply add_eq|]. destruct Ha as [[Ha Ho]|[Ha _]]; [|congruence].
      assert (fc = f) by congruence. subst fc. simpl. repeat split; auto. destruct ob; [discriminate|].
      exfalso. destruct Ho as (f' & E1 & E2). assert (f' = f) by congruence. subst f'. rewrite H2 in E2.
      destruct E2 as (fp & ks & E3 & E4). congruence.
    - exists fc. rewrite add_neq by auto. auto. }
  destruct (addr_eqb_spec x a) as [->|N].
  - rewrite add_eq in Hx. injection Hx as <-. simpl. destruct Ha as [[Ha Ho]|[Ha ->]].
    + destruct (D a f Ha) as [D1 D2]. split; auto. intros ob kids E. destruct (D1 ob kids E) as [K1 K2]. split; auto.
      apply Hc; eauto.
    + split; [discriminate|]. auto.
  - rewrite add_neq in Hx by auto. destruct (D x g Hx) as [D1 D2]. split; auto. intros ob kids E.
    destruct (D1 ob kids E) as [K1 K2]. split; auto. apply Hc; eauto.
Qed.

Lemma rep_val_text s s' n x : (forall p b, safetext s p b -> safetext s' p b) -> rep_val s n x -> rep_val s' n x.
Proof.
  intro H. destruct x; cbn [rep_val]; auto; intros (E1 & E2 & q & E3 & E4);
    (split; [auto|split; [auto|exists q; split; auto]]).
Qed.
Lemma put_key_wp s0 F v w A c s1 a n1 p k f : inv s0 F -> ext (wat w) (only v) c s0 s1 -> (forall A, isvol A -> c A = 0) ->
  snodes s1 a = Some n1 -> rep_val s1 n1 (fvalue f) -> nFather n1 = wopt (fpar f) -> nNext n1 = wopt (fnext f) ->
  nPrev n1 = wopt (fprev f) -> (forall e, fend f = Some e -> nEnd n1 = At e) -> (fstop f = true -> stopped_text s1 n1 (fvalue f)) -> safetext s1 p k ->
  (w = At a /\ F a = Some f) \/ (w = Null /\ beyond s0 a /\ f = fresh_null) -> key_open F w ->
  svals s1 v = Some (mkVal (At a) A) -> (w <> Null -> svals s1 = svals s0) ->
  wp (put_key a p (lenN k)) s1 (fun r s' => r = true /\ exists F', keyed s0 F v w A c k s' F' a).
Proof.
  intros I X Hc Hn Hv H1 H2 H3 H4 H5 Hp Ha Ho Hs Hk. pose proof (i_wf _ _ I) as W.
  assert (Hb : beyond s0 a \/ wat w a) by (destruct Ha as [[-> _]|(_ & B & _)]; [right; reflexivity|auto]).
  unfold put_key.
  eapply wp_seq; [eapply (modNode_step (wat w) (only v) c s0); eauto|]. intros [] s2 [X2 U2].
  eapply wp_seq; [eapply (modNode_step (wat w) (only v) c s0); eauto; apply U2|]. intros [] s3 [X3 U3].
  assert (U := nupd_trans _ _ _ _ _ _ U2 U3). pose proof (nu_mch _ _ _ _ U) as M.
  apply wp_ret. split; auto. exists (add F a (setkey k f)).
  assert (Fa : F a = Some f \/ (F a = None /\ f = fresh_null)).
  { destruct Ha as [[-> Ha]|(_ & B & ->)]; auto. right. split; auto. eapply inv_beyond; eauto. }
  assert (Ef : match F a with Some f => f | None => fresh_null end = f).
  { destruct Fa as [->|[-> ->]]; auto. }
  constructor; auto.
  - eapply (inv_upd s0 F s3); eauto.
    + apply setkey_wfdom; [apply I|]. destruct Ha as [[-> Ha]|(_ & B & ->)]; auto. right. split; auto. eapply inv_beyond; eauto.
    + intros x g Hx. destruct (addr_eqb_spec x a) as [->|N].
      * right. rewrite add_eq in Hx. injection Hx as <-. eexists. split; [apply U|]. split.
        -- constructor; simpl; auto.
           ++ exists p. split; auto. split; auto. eapply mch_safetext; eauto.
           ++ assert (Hv' : rep_val s3 n1 (fvalue f)).
              { destruct (fvalue f); simpl in *; auto; destruct Hv as (E1 & E2 & q & E3 & E4);
                  (split; [auto|split; [auto|exists q; split; auto]]); eapply mch_safetext; eauto. }
              destruct (fvalue f); simpl in *; auto.
           ++ intros Es d q Ed Eq. destruct (H5 Es d q Ed Eq) as (y & Hy & K). exists y. split; auto. eapply mch_safetext; eauto.
        -- destruct Ha as [[_ Ha]|(_ & B & _)]; auto. left. congruence.
      * rewrite add_neq in Hx by auto. left. split; auto. intro E. red in E. destruct Ha as [[-> _]|(-> & _)]; congruence.
  - rewrite (mc_vals _ _ M). auto.
  - destruct Ha as [[-> _]|(-> & B & _)]; auto.
  - intro N. rewrite (mc_vals _ _ M). auto.
  - intros x g Hx N. rewrite add_neq; auto.
  - intros x Hx. destruct (addr_eqb_spec x a) as [->|N]; auto. rewrite add_neq in Hx by auto. auto.
  - rewrite add_eq, Ef. reflexivity.
Qed.

(** The node that gets the key. *)
Definition key_target (s : st) (F : dom) (v : addr) (w : word) (A : N) (o : option addr) (s1 : st) : Prop :=
  match o with
  | None => ~ key_open F w /\ s1 = s
  | Some a => key_open F w /\ ext (wat w) (only v) (at_ A 72) s s1 /\ svals s1 v = Some (mkVal (At a) A) /\
      sbytes s1 = sbytes s /\ (w <> Null -> svals s1 = svals s) /\
      exists n f, snodes s1 a = Some n /\ rep_val s1 n (fvalue f) /\ nFather n = wopt (fpar f) /\
        nNext n = wopt (fnext f) /\ nPrev n = wopt (fprev f) /\ (forall e, fend f = Some e -> nEnd n = At e) /\
        (fstop f = true -> stopped_text s1 n (fvalue f)) /\
        ((w = At a /\ F a = Some f) \/ (w = Null /\ beyond s a /\ f = fresh_null))
  end.
Lemma rep_type s n fp kids : rep_node s n fp -> fvalue fp = VCont true kids -> nType n = Some TObject.
Proof. intros R E. pose proof (r_val _ _ _ R) as H. rewrite E in H. apply H. Qed.
Lemma rep_type' s n fp : rep_node s n fp -> exists t, nType n = Some t /\
  (jtype_eqb t TObject = true <-> exists kids, fvalue fp = VCont true kids).
Proof.
  intros R. pose proof (r_val _ _ _ R) as H. destruct (fvalue fp) as [| | | |[] ks]; simpl in H;
    destruct H as (-> & _); eexists; (split; [reflexivity|]); simpl; split; try discriminate; eauto; intros (k & E); discriminate.
Qed.

Lemma key_node_wp s F v w A : inv s F -> handle s F v w A -> father_known F w -> usedA s A + 72 <= two30 ->
  wp (key_node v) s (key_target s F v w A).
Proof.
  intros I (Hv & [Al NA] & Hw) Hk Hu. unfold key_node. pose proof (i_wf _ _ I) as W.
  apply wp_bind, (wp_getVal _ _ _ _ Hv). cbn [vN vA]. destruct Hw as [->|(a & -> & Ha)].
  - apply wp_bind, wp_is_null with (b := true); auto. cbv iota.
    eapply wp_seq; [eapply (newNode_step (wat Null) (only v) A 0 s s); auto; [now apply ext_start|lia]|].
    intros n s1 (X1 & B & U1).
    assert (V1 : svals s1 = svals s) by apply U1.
    eapply wp_seq with (P := fun _ s2 => ext (wat Null) (only v) (at_ A 72) s s2 /\
       s2 = set_vals (upd (svals s1) v (mkVal (At n) A)) s1).
    { apply wp_putVal. split; auto. apply ext_putVal; auto; [right; reflexivity|]. left. congruence. }
    intros [] s2 (X2 & E2).
    assert (N2 : snodes s2 n = Some blank_node) by (rewrite E2; apply U1).
    eapply wp_seq; [eapply modNode_step; eauto|]. intros [] s3 (X3 & U3).
    eapply wp_seq; [eapply modNode_step; eauto; apply U3|]. intros [] s4 (X4 & U4).
    eapply wp_seq; [eapply modNode_step; eauto; apply U4|]. intros [] s5 (X5 & U5).
    eapply wp_seq; [eapply set_scalar_step; eauto; apply U5|]. intros [] s6 (X6 & U6).
    assert (U := nupd_trans _ _ _ _ _ _ U3 (nupd_trans _ _ _ _ _ _ U4 (nupd_trans _ _ _ _ _ _ U5 U6))).
    apply wp_ret. pose proof (nu_mch _ _ _ _ U) as [Mb Mv _ _ _]. pose proof (nu_mch _ _ _ _ U1) as [Mb1 _ _ _ _].
    split; [exact Logic.I|]. split; auto. split; [rewrite Mv, E2; simpl; apply upd_eq|].
    split; [rewrite Mb, E2; exact Mb1|]. split; [congruence|].
    eexists _, fresh_null. split; [apply U|]. split.
    { split; [reflexivity|]. split; [reflexivity|]. exists zj_strNull. split; [reflexivity|]. apply strNull_safe, X6. }
    repeat split; auto; discriminate.
  - apply wp_bind, wp_is_null with (b := false); auto. cbv iota. apply wp_bind, wp_deref.
    destruct (F a) as [f|] eqn:Fa; [|congruence].
    destruct (i_rep _ _ I a f Fa) as (n & Hn & R); [auto|].
    apply wp_bind, (wp_getNode _ n); auto.
    assert (Yes : key_open F (At a) -> key_target s F v (At a) A (Some a) s).
    { intro Ho. split; auto. split; [eapply ext_more; [now apply ext_start|lia]|]. split; auto. split; auto. split; auto.
      exists n, f. destruct R. split; auto. split; auto. repeat (split; auto). }
    rewrite (r_par _ _ _ R). destruct (fpar f) as [p|] eqn:Ep; cbn [wopt].
    + apply wp_bind, wp_is_null with (b := false); auto. cbv iota. apply wp_bind, wp_deref.
      specialize (Hk a f p eq_refl Fa Ep). destruct (F p) as [fp|] eqn:Fp; [|congruence].
      destruct (i_rep _ _ I p fp Fp) as (np & Hnp & Rp); [auto|].
      apply wp_bind, (wp_getNode _ np); auto.
      destruct (rep_type' _ _ _ Rp) as (t & Et & Ht).
      apply wp_bind. apply (wp_rType _ t); auto.
      destruct (jtype_eqb t TObject) eqn:Eb; apply wp_ret.
      * apply Yes. exists f. split; auto. rewrite Ep. destruct Ht as [Ht _]. destruct (Ht eq_refl) as (ks & E). eauto.
      * split; auto. intros (f' & E1 & E2). assert (f' = f) by congruence. subst f'. rewrite Ep in E2.
        destruct E2 as (fp' & ks & E3 & E4). assert (fp' = fp) by congruence. subst fp'.
        destruct Ht as [_ Ht]. discriminate Ht. eauto.
    + apply wp_bind, wp_is_null with (b := true); auto. cbv iota. apply wp_ret. apply Yes.
      exists f. rewrite Ep. auto.
Qed.

(** Result of a key setter. *)
Definition key_res (s : st) (F : dom) (v : addr) (w : word) (A : N) (c : N -> N) (ok : Prop) (k : bytes)
    (r : bool) (s' : st) : Prop :=
  (r = true /\ ok /\ key_open F w /\ exists F' a, keyed s F v w A c k s' F' a) \/
  (r = false /\ ~ (ok /\ key_open F w) /\ ext none none c s s' /\ svals s' = svals s).

Definition fast_tail (v p : addr) (l : N) : M bool :=
  k <- key_node v ;; match k with None => ret false | Some n => put_key n p l end.
Lemma fast_tail_wp s F v w A p b (ok : Prop) : inv s F -> handle s F v w A -> father_known F w -> usedA s A + 72 <= two30 ->
  safetext s p b -> ok -> wp (fast_tail v p (lenN b)) s (key_res s F v w A (at_ A 72) ok b).
Proof.
  intros I H Hk Hu Hs Hok. eapply wp_seq; [eapply key_node_wp; eauto|].
  intros [a|] s1 T; cbn [key_target] in T.
  - destruct T as (Ho & X & V1 & Mb & Vk & n & f & Hn & R1 & R2 & R3 & R4 & R5 & R6 & Hc).
    eapply wp_mono; [eapply (put_key_wp s F v w A (at_ A 72) s1 a n p b f); eauto|].
    + apply at_novol. apply H.
    + eapply safetext_ext; eauto.
    + intros r s2 (-> & F' & K). left. split; auto. split; auto. split; auto. exists F', a. exact K.
  - destruct T as (Ho & ->). apply wp_ret. right. split; auto. split; [tauto|]. split; auto.
    eapply ext_more; [apply ext_start; apply I|lia].
Qed.

(** The copying tail: the key's bytes are copied after the node was found or made. *)
Definition copy_tail (v src : addr) (l : N) : M bool :=
  k <- key_node v ;;
  match k with
  | None => ret false
  | Some n => x <- getVal v ;; p <- dup_bytes (vA x) (At src) l ;; put_key n p l
  end.
Definition copy_tail' (A : N) (v src : addr) (l : N) : M bool :=
  k <- key_node v ;;
  match k with
  | None => ret false
  | Some n => p <- dup_bytes A (At src) l ;; put_key n p l
  end.
Lemma copy_tail_wp s F v w A src b (ok : Prop) : inv s F -> handle s F v w A -> father_known F w -> usedA s A + (72 + lenN b) <= two30 ->
  srctext s src b -> ok ->
  wp (copy_tail v src (lenN b)) s (key_res s F v w A (at_ A (72 + lenN b)) ok b) /\
  wp (copy_tail' A v src (lenN b)) s (key_res s F v w A (at_ A (72 + lenN b)) ok b).
Proof.
  intros I H Hk Hu Hs Hok. pose proof H as (Hv & [Al NA] & Hw).
  assert (Tail : forall a s1, key_target s F v w A (Some a) s1 ->
    wp (p <- dup_bytes A (At src) (lenN b) ;; put_key a p (lenN b)) s1 (key_res s F v w A (at_ A (72 + lenN b)) ok b)).
  { intros a s1 (Ho & X & V1 & Mb & Vk & n & f & Hn & R1 & R2 & R3 & R4 & R5 & R6 & Hc).
    pose proof (x_used _ _ _ _ _ X A) as Us. rewrite at_eq in Us.
    eapply wp_seq; [eapply dup_bytes_wp; auto; [apply X|eapply wfvol_ext; [exact X|apply I]|now apply (x_alive _ _ _ _ _ X)|lia|]|].
    { apply (srctext_ext _ _ _ _ _ _ _ X Hs). }
    intros p s2 [X2 Fl].
    assert (X3 : ext (wat w) (only v) (at_ A (72 + lenN b)) s s2).
    { eapply ext_then; [exact X|]. eapply ext_weaken; [exact X2|..]; unfold none; intros; try tauto; lia. }
    eapply wp_mono; [eapply (put_key_wp s F v w A (at_ A (72 + lenN b)) s2 a n p b f); eauto|].
    - now apply at_novol.
    - rewrite (fl_nodes _ _ _ _ Fl). auto.
    - eapply rep_val_text; [|exact R1]. intros q d Hq. exact (safetext_ext _ _ _ _ _ _ _ X2 Hq).
    - intros Es d q Ed Eq. destruct (R6 Es d q Ed Eq) as (y & Hy & K). exists y. split; auto. exact (safetext_ext _ _ _ _ _ _ _ X2 K).
    - apply Fl.
    - rewrite (fl_vals _ _ _ _ Fl). auto.
    - rewrite (fl_vals _ _ _ _ Fl). auto.
    - intros r s3 (-> & F' & K). left. split; auto. split; auto. split; auto. exists F', a. exact K. }
  assert (No : key_target s F v w A None s -> key_res s F v w A (at_ A (72 + lenN b)) ok b false s).
  { intros (Ho & _). right. split; auto. split; [tauto|]. split; auto.
    eapply ext_more; [apply ext_start; apply I|lia]. }
  split.
  - eapply wp_seq; [eapply key_node_wp; eauto; lia|]. intros [a|] s1 T.
    + pose proof T as (_ & _ & V1 & _). apply wp_bind, (wp_getVal _ _ _ _ V1). cbn [vA]. auto.
    + assert (s1 = s) by apply T. subst s1. apply wp_ret. auto.
  - eapply wp_seq; [eapply key_node_wp; eauto; lia|]. intros [a|] s1 T; auto.
    assert (s1 = s) by apply T. subst s1. apply wp_ret. auto.
Qed.

Lemma key_res_no s F v w A c ok k s' : ~ ok -> ext none none c s s' -> svals s' = svals s ->
  key_res s F v w A c ok k false s'.
Proof. intros. right. split; auto. split; auto. tauto. Qed.

Section SetKey.
Variables (s : st) (F : dom) (v : addr) (w : word) (A : N) (src : addr) (b : bytes).
Hypothesis I : inv s F.
Hypothesis Hh : handle s F v w A.
Hypothesis Hk : father_known F w.

Lemma str_c r : ~ In 0 b -> exists o, zj_checkStr (b ++ 0 :: r) = Ok o /\
  match o with Some l => strbody_set b /\ l = lenN b | None => ~ strbody_set b end.
Proof. apply (kind_c zj_checkStr TString VStr strbody_set). right. auto. Qed.

Lemma setKeyFast_wp r : safetext s src b -> text_at s src = b ++ 0 :: r -> ~ In 0 b -> usedA s A + 72 <= two30 ->
  wp (zj_SetKeyFast v src) s (key_res s F v w A (at_ A 72) (strbody_set b) b).
Proof.
  intros Sf Ht N0 Hu. unfold zj_SetKeyFast. apply wp_bind, wp_readable. rewrite Ht.
  destruct (str_c r N0) as (o & E & Ho). apply wp_bind, (wp_lift _ o); auto. destruct o as [l|].
  - destruct Ho as [G ->]. apply (fast_tail_wp s F v w A src b); auto.
  - apply wp_ret. apply key_res_no; auto. eapply ext_more; [apply ext_start; apply I|lia].
Qed.
Lemma setKey_wp r : srctext s src b -> text_at s src = b ++ 0 :: r -> ~ In 0 b -> usedA s A + (72 + lenN b) <= two30 ->
  wp (zj_SetKey v src) s (key_res s F v w A (at_ A (72 + lenN b)) (strbody_set b) b).
Proof.
  intros Sf Ht N0 Hu. unfold zj_SetKey. apply wp_bind, wp_readable. rewrite Ht.
  destruct (str_c r N0) as (o & E & Ho). apply wp_bind, (wp_lift _ o); auto. destruct o as [l|].
  - destruct Ho as [G ->]. apply (copy_tail_wp s F v w A src b); auto.
  - apply wp_ret. apply key_res_no; auto. eapply ext_more; [apply ext_start; apply I|lia].
Qed.

Definition len_key_cost (n : N) : N -> N := addc (at_ (cache_home s A) (check_cost n)) (at_ A (72 + n)).
Lemma key_res_before s1 c1 c k (ok : Prop) r s' : ext none none c1 s s1 -> svals s1 = svals s ->
  key_res s1 F v w A c ok k r s' -> key_res s F v w A (addc c1 c) ok k r s'.
Proof.
  intros X Ev [(-> & H1 & H2 & F' & a & K)|(-> & H1 & H2 & H3)].
  - left. split; auto. split; auto. split; auto. exists F', a. eapply keyed_before; eauto.
  - right. split; auto. split; auto. split; [eapply ext_trans; eauto|]. congruence.
Qed.
Lemma key_res_more c c1 k (ok : Prop) r s' : key_res s F v w A c ok k r s' -> (forall x, c x <= c1 x) ->
  key_res s F v w A c1 ok k r s'.
Proof.
  intros [(-> & H1 & H2 & F' & a & K)|(-> & H1 & H2 & H3)] Hc.
  - left. split; auto. split; auto. split; auto. exists F', a. eapply keyed_more; eauto.
  - right. split; auto. split; auto. split; auto. eapply ext_weaken; eauto.
Qed.
Lemma setKeyLen_gen (tail : M bool) :
  (forall s1, ext none none (at_ (cache_home s A) (check_cost (lenN b))) s s1 -> svals s1 = svals s -> strbody_set b ->
     wp tail s1 (key_res s1 F v w A (at_ A (72 + lenN b)) (strbody_set b) b)) ->
  srctext s src b -> cache_live s -> usedA s (cache_home s A) + check_cost (lenN b) <= two30 ->
  wp (ok <- zj_checkStrLen A src (lenN b) ;; if negb ok then ret false else tail) s
     (key_res s F v w A (len_key_cost (lenN b)) (strbody_set b) b).
Proof.
  intros Ht Hs Cl Hu. pose proof Hh as (Hv & [Al NA] & Hw).
  eapply wp_seq; [eapply (check_len_wp zj_checkStr (strbody_set b) s A src b); eauto; [intro; apply checkStr_dec|apply I]|].
  intros ok s1 (Hok & X1 & V1 & N1). destruct ok; cbn [negb].
  - assert (G : strbody_set b) by tauto. eapply wp_mono; [apply Ht; auto|].
    intros r s2 K. eapply key_res_before; eauto.
  - apply wp_ret. apply key_res_no; auto.
    + intro G. apply Hok in G. discriminate.
    + eapply ext_weaken; [exact X1|..]; auto. intro y. unfold len_key_cost, addc. lia.
Qed.
Lemma setKeyLenFast_wp : safetext s src b -> cache_live s -> usedA s (cache_home s A) + check_cost (lenN b) <= two30 ->
  usedA s A + check_cost (lenN b) + 72 <= two30 ->
  wp (zj_SetKeyLenFast v src (lenN b)) s (key_res s F v w A (len_key_cost (lenN b)) (strbody_set b) b).
Proof.
  intros Sf Cl Hu Hu2. pose proof Hh as (Hv & [Al NA] & Hw). unfold zj_SetKeyLenFast.
  apply wp_bind, (wp_getVal _ _ _ _ Hv). cbn [vA].
  apply (setKeyLen_gen (fast_tail v src (lenN b))); auto; [|now apply safetext_src].
  intros s1 X1 V1 G. pose proof (x_used _ _ _ _ _ X1 A) as Us.
  assert (Uh : at_ (cache_home s A) (check_cost (lenN b)) A <= check_cost (lenN b)).
  { unfold at_. destruct (A =? _); lia. }
  eapply wp_mono; [apply (fast_tail_wp s1 F v w A src b (strbody_set b)); auto|].
  - eapply ext_inv; eauto.
  - eapply handle_ext; eauto.
  - lia.
  - eapply safetext_ext; eauto.
  - intros r s2 K. destruct K as [(-> & H1 & H2 & F' & a & K)|(-> & H1 & H2 & H3)].
    + left. split; auto. split; auto. split; auto. exists F', a. eapply keyed_more; eauto. apply at_le. lia.
    + right. split; auto. split; auto. split; auto. eapply ext_more; eauto. lia.
Qed.
Lemma setKeyLen_wp : srctext s src b -> cache_live s -> usedA s (cache_home s A) + check_cost (lenN b) <= two30 ->
  usedA s A + check_cost (lenN b) + (72 + lenN b) <= two30 ->
  wp (zj_SetKeyLen v src (lenN b)) s (key_res s F v w A (len_key_cost (lenN b)) (strbody_set b) b).
Proof.
  intros Sf Cl Hu Hu2. pose proof Hh as (Hv & [Al NA] & Hw). unfold zj_SetKeyLen.
  apply wp_bind, (wp_getVal _ _ _ _ Hv). cbn [vA].
  apply (setKeyLen_gen (copy_tail' A v src (lenN b))); auto.
  intros s1 X1 V1 G. pose proof (x_used _ _ _ _ _ X1 A) as Us.
  assert (Uh : at_ (cache_home s A) (check_cost (lenN b)) A <= check_cost (lenN b)).
  { unfold at_. destruct (A =? _); lia. }
  apply (copy_tail_wp s1 F v w A src b (strbody_set b)); auto.
  - eapply ext_inv; eauto.
  - eapply handle_ext; eauto.
  - lia.
  - eapply srctext_ext; eauto.
Qed.
Definition key_esc_cost : N -> N := at_ A (esc_cost b + 72).
Lemma key_escaped s1 p : usedA s A + esc_cost b + 72 <= two30 ->
  ext none none (at_ A (esc_cost b)) s s1 -> filled s s1 p (escape_text b ++ [0]) ->
  wp (zj_SetKeyFast v p) s1 (key_res s F v w A key_esc_cost True (escape_text b)).
Proof.
  intros Hu X Fl. pose proof (x_used _ _ _ _ _ X A) as Us. rewrite at_eq in Us.
  pose proof (fl_safe _ _ _ _ Fl) as Sf. apply safetext_app in Sf as [Sf _].
  assert (I1 : inv s1 F) by (eapply ext_inv; eauto).
  assert (H1 : handle s1 F v w A) by (eapply handle_ext; eauto).
  unfold zj_SetKeyFast. apply wp_bind, wp_readable. rewrite (fl_text _ _ _ _ Fl).
  rewrite (checkStr_yes _ [] (escape_set b)).
  apply wp_bind, (wp_lift _ (Some (lenN (escape_text b)))); auto.
  eapply wp_mono; [apply (fast_tail_wp s1 F v w A p (escape_text b) True); auto|].
  - lia.
  - intros r s2 K. eapply key_res_more; [eapply key_res_before; [exact X|apply Fl|exact K]|]. apply at_add.
Qed.
Lemma setKeyEscape_wp r : text_at s src = b ++ 0 :: r -> ~ In 0 b -> usedA s A + esc_cost b + 72 <= two30 ->
  wp (zj_SetKeyEscape v src) s (key_res s F v w A key_esc_cost True (escape_text b)).
Proof.
  intros Ht N0 Hu. pose proof Hh as (Hv & [Al NA] & _). unfold zj_SetKeyEscape.
  apply wp_bind, (wp_getVal _ _ _ _ Hv). cbn [vA]. unfold zj_escapeStr.
  apply wp_bind, wp_bind, wp_readable, wp_bind. rewrite Ht. apply (wp_lift _ b); [now apply cstr_of_app|].
  eapply wp_mono; [apply escape_out_wp; auto; try apply I; lia|]. intros p s1 [X Fl]. eapply key_escaped; eauto.
Qed.
Lemma setKeyLenEscape_wp : holds s src b -> usedA s A + esc_cost b + 72 <= two30 ->
  wp (zj_SetKeyLenEscape v src (lenN b)) s (key_res s F v w A key_esc_cost True (escape_text b)).
Proof.
  intros Ht Hu. pose proof Hh as (Hv & [Al NA] & _). unfold zj_SetKeyLenEscape.
  apply wp_bind, (wp_getVal _ _ _ _ Hv). cbn [vA]. unfold zj_escapeStrLen.
  apply wp_bind, wp_bind. apply (wp_load src _ b); auto.
  eapply wp_mono; [apply escape_out_wp; auto; try apply I; lia|]. intros p s1 [X Fl]. eapply key_escaped; eauto.
Qed.
End SetKey.
End WithVol.
