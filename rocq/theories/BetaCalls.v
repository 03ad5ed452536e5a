(** The calls of the beta header that touch texts and caches: parsing, z_ValueSetNum, and
    the caching getters. *)
From Verif Require Import Double DoubleProofs DoubleFacts.
From Verif Require Import Base Spec Lex LexProofs Alloc AllocProofs Mem MemProofs Api PureParse Dom Steps StrBuf StringifyProofs ParseProofs ParseTop CacheProofs SetProofs SetFacts IntProofs EscProofs Update GetProofs Beta BetaProofs.

Section WithVol.
Context {VV : vols}.

(** ** Parsing *)
(** A block filled to its end reads the same later. *)
Lemma run_all f b : forall n o bs, length bs = n -> (forall i x, nth_error bs i = Some x -> f (b, o + N.of_nat i) = Some x) -> run f b o n = bs.
Proof.
  induction n as [|n IH]; intros o [|c bs] L H; try discriminate; auto. simpl.
  pose proof (H 0%nat c eq_refl) as E. replace (o + N.of_nat 0) with o in E by lia. rewrite E. f_equal. apply IH; [auto|].
  intros i x Ei. specialize (H (Datatypes.S i) x Ei). replace (o + 1 + N.of_nat i) with (o + N.of_nat (Datatypes.S i)) by lia. exact H.
Qed.
Definition full (s : st) (p : addr) (bs : bytes) : Prop := text_at s p = bs /\ sbsize s (fst p) = Some (snd p + lenN bs).
Lemma full_ext Dn Dv c s s' p bs : ext Dn Dv c s s' -> safetext s p bs -> full s p bs -> full s' p bs.
Proof.
  intros X Sf [Ht Hs]. split; [|exact (x_size _ _ _ _ _ X _ _ Hs)]. apply (safetext_ext _ _ _ _ _ _ _ X) in Sf.
  unfold text_at. rewrite (x_size _ _ _ _ _ X _ _ Hs). replace (N.to_nat (snd p + lenN bs - snd p)) with (length bs) by (unfold lenN; lia).
  apply run_all; auto. intros i x E. apply (proj1 Sf). exact E.
Qed.
Lemma zparseLen_finished s F v w A src t slack len bs : inv s F -> handle s F v w A ->
  full s src (t ++ 0 :: slack) -> safetext s src (t ++ 0 :: slack) -> holds s src bs -> lenN bs = len ->
  usedA s A + (len + 1 + 72 * (lenN t + 2)) <= two30 ->
  agree (z_parse_len v src len) s (ptop (t ++ 0 :: slack)) (pf_more (finished F) s F v w A (len + 1 + 72 * (lenN t + 2))).
Proof.
  intros I H Ht Hsf Hs <- Hu. pose proof (i_wf _ _ I) as W. pose proof H as (Hv & [Al NA] & Hw). unfold z_parse_len.
  eapply agree_pre; [eapply wp_getVal; [exact Hv|]; auto|]. cbn [vA].
  assert (E32 : u32 (lenN bs + 1) = lenN bs + 1) by (apply u32_small; unfold two30, two32 in *; lia).
  rewrite E32.
  eapply agree_wp; [eapply (alloc_step none none A 0 (lenN bs + 1) s s); auto; [now apply ext_start|lia]|].
  intros p s1 [X1 P].
  eapply agree_pre; [eapply (wp_load src _ bs); auto|].
  { intros i x E. rewrite (ap_bytes _ _ _ _ _ P). auto. }
  eapply agree_wp; [eapply (fill_step none none _ A (lenN bs + 1) s s s1 p); eauto; [apply I| |]|].
  { eapply ext_more; [now apply ext_start|]. lia. }
  { rewrite lenN_app. unfold lenN at 2. simpl. lia. }
  intros [] s2 [X2 Fl]. cbn [N.add] in X2.
  assert (I2 : inv s2 F) by (eapply ext_inv; eauto).
  pose proof (x_used _ _ _ _ _ X2 A) as Us. rewrite at_eq in Us.
  eapply agree_mono; [apply (parse_fast_finished true s2 F v w A src t slack); auto|].
  - eapply handle_ext; [exact X2|auto|auto].
  - apply (full_ext _ _ _ _ _ _ _ X2 Hsf Ht).
  - eapply safetext_ext; [exact X2|]. change (t ++ 0 :: slack) with (t ++ [0] ++ slack) in Hsf. rewrite app_assoc in Hsf. now apply safetext_app in Hsf as [Sf _].
  - lia.
  - intros [j|] b s3 _; cbn [pf_more].
    + intros (-> & F' & a & Pd & Fi). split; auto. exists F', a. split; [|exact Fi].
      eapply parsed_more; [exact (parsed_before s s2 F v w A _ _ j s3 F' a X2 (fl_vals _ _ _ _ Fl) Pd)|].
      intro x. apply at_add.
    + intros (-> & X3). split; auto. eapply ext_more; [eapply ext_then; eauto|]. lia.
Qed.
Lemma zparse_finished s F v w A src t slack : inv s F -> handle s F v w A -> ~ In 0 t ->
  full s src (t ++ 0 :: slack) -> safetext s src (t ++ 0 :: slack) ->
  usedA s A + (lenN t + 1 + 72 * (lenN t + 2)) <= two30 ->
  agree (z_parse v src) s (ptop (t ++ 0 :: slack)) (pf_more (finished F) s F v w A (lenN t + 1 + 72 * (lenN t + 2))).
Proof.
  intros I H N0 Ht Hsf Hu. unfold z_parse, zj_strLen.
  assert (E32 : u32 (N.of_nat (length t)) = lenN t).
  { apply u32_small. unfold lenN, two30, two32 in *. lia. }
  apply bind_assoc_agree'.
  eapply agree_pre; [apply wp_readable; auto|]. rewrite (proj1 Ht).
  apply bind_assoc_agree'.
  eapply agree_pre; [apply (wp_lift _ t); [now apply cstr_of_app|auto]|].
  eapply agree_pre; [apply wp_ret; auto|]. rewrite E32.
  apply (zparseLen_finished s F v w A src t slack (lenN t) t); auto. apply safetext_app in Hsf. apply Hsf.
Qed.

(** ** z_ValueSetNum *)
Lemma zsetNum_wp s F v w A d : inv s F -> handle s F v w A -> is_double d -> usedA s A + 104 <= two30 ->
  wp (z_set_num v d) s (fun r s' =>
    (finite d -> r = true /\ exists F' a n p, parsed s F v w A (at_ A 104) (JNum (g17 d)) s' F' a /\
       snodes s' a = Some n /\ nVal n = At p /\ safetext s' p (g17 d ++ [0])) /\
    (~ finite d -> r = false /\ ext none none (at_ A 32) s s' /\ svals s' = svals s)).
Proof.
  intros I H D Hu. pose proof H as (Hv & [Al NA] & Hw). unfold z_set_num.
  apply wp_bind, (wp_getVal _ _ _ _ Hv). cbn [vA]. pose proof (g17_len d D) as L.
  eapply wp_seq; [eapply (alloc_step none none A 0 32 s s); auto; [apply ext_start; apply I|lia]|].
  intros p s1 [X1 P]. cbn [N.add] in X1.
  eapply wp_seq; [eapply (fill_step none none (at_ A 32) A 32 s s s1 p (g17 d ++ [0])); eauto; try apply I|].
  { eapply ext_more; [apply ext_start; apply I|]. lia. }
  { rewrite lenN_app. unfold lenN. simpl. lia. }
  intros [] s2 [X2 Fl]. pose proof (x_used _ _ _ _ _ X2 A) as Us. rewrite at_eq in Us.
  assert (I2 : inv s2 F) by (eapply ext_inv; eauto).
  assert (H2 : handle s2 F v w A) by (eapply handle_ext; eauto).
  pose proof (fl_safe _ _ _ _ Fl) as Sf. pose proof (fl_text _ _ _ _ Fl) as Tx.
  assert (N0 : ~ In 0 (g17 d)).
  { destruct d as [neg m e|neg|]; [|destruct neg; vm_compute; intuition discriminate..]. eapply number_no0, g17_number; auto. constructor. }
  pose proof (proj1 (proj1 (safetext_app _ _ _ _) Sf)) as Sf1.
  destruct (set_text_fast_wp zj_checkNum TNumber VNum number (or_introl (conj eq_refl (conj eq_refl (conj eq_refl eq_refl)))) s2 F v w A p (g17 d) I2 H2 [] Sf1 Tx N0)
    as (r & s' & E & K); [lia|].
  exists r, s'. split; [exact E|]. split.
  - intro Fi. pose proof (g17_number d D Fi) as Nm. destruct K as [(-> & _ & F' & a & Pd)|(_ & K & _)]; [|now elim K]. split; auto.
    unfold set_text_fast in E. apply bind_inv in E as (t0 & s3 & E1 & E). unfold readable in E1. injection E1 as <- <-. rewrite Tx in E.
    apply bind_inv in E as (o & s3 & E1 & E). unfold lift in E1. destruct (zj_checkNum (g17 d ++ [0])) as [o'|]; [|discriminate]. injection E1 as <- <-.
    destruct o' as [l|]; [|discriminate]. destruct (scalar_points _ _ _ _ _ _ _ E) as (a' & A' & n & V' & N' & Ep).
    rewrite (pd_val _ _ _ _ _ _ _ _ _ _ Pd) in V'. injection V' as <- _.
    exists F', a, n, p. split; [eapply parsed_more; [eapply parsed_before; [exact X2|apply Fl|exact Pd]|]; intro x; etransitivity; [apply at_add|]; apply at_le; lia|].
    split; auto. split; auto. exact (safetext_ext _ _ _ _ _ _ _ (pd_ext _ _ _ _ _ _ _ _ _ _ Pd) Sf).
  - intro Nf. pose proof (g17_not_number d Nf) as Nm. destruct K as [(_ & K & _)|(-> & _ & _ & K)]; [now elim Nm|]. split; auto.
    unfold set_text_fast in E. apply bind_inv in E as (t0 & s3 & E1 & E). unfold readable in E1. injection E1 as <- <-. rewrite Tx in E.
    apply bind_inv in E as (o & s3 & E1 & E). unfold lift in E1. destruct (zj_checkNum (g17 d ++ [0])) as [o'|]; [|discriminate]. injection E1 as <- <-.
    destruct o' as [l|].
    + apply bind_inv in E as (? & ? & _ & E). apply bind_inv in E as (? & ? & _ & E). discriminate.
    + injection E as <-. split; auto. apply Fl.
Qed.

(** ** The caching getters *)
Section Get.
Variables (s : st) (F : dom) (v : addr) (A : N) (B : bmem).
Hypothesis I : inv s F.
(** What a getter of texts does: nothing without the text; the cached pointer again; or a
    new copy, which is cached. *)
Definition fetched (c : word) (put : word -> bmem) (k : N) (o : option bytes) (r : option word * bmem) (s' : st) : Prop :=
  match o with
  | None => r = (None, B) /\ s' = s
  | Some b => match c with
              | At p => r = (Some (At p), B) /\ s' = s
              | _ => exists p, r = (Some (At p), put (At p)) /\ ext none none (at_ A k) s s' /\ filled s s' p (b ++ [0])
              end
  end.
Lemma cached_wp c put make k b : c <> Undef ->
  (c = Null -> wp make s (fun w s' => exists p, w = At p /\ ext none none (at_ A k) s s' /\ filled s s' p (b ++ [0]))) ->
  wp (cached B c put make) s (fun r s' => fetched c put k (Some b) (or_none B r) s').
Proof.
  intros Nu H. unfold cached. destruct c as [| |p]; [congruence| |].
  - apply wp_bind, wp_is_null with (b := true); auto. cbv iota. eapply wp_seq; [now apply H|].
    intros w s' (p & -> & X & Fl). apply wp_ret. cbn. exists p. auto.
  - apply wp_bind, wp_is_null with (b := false); auto. cbv iota. apply wp_ret. cbn. auto.
Qed.

Section Empty.
Hypothesis H : handle s F v Null A.
Lemma zgetText_empty t : wp (z_get_text t B v) s (fun r s' => r = (None, B) /\ s' = s).
Proof. unfold z_get_text. apply wp_bind. eapply with_type_empty; eauto. apply wp_ret. auto. Qed.
Lemma zgetUnEscape_empty : wp (z_ValueGetUnEscapeString B v) s (fun r s' => r = (None, B) /\ s' = s).
Proof. unfold z_ValueGetUnEscapeString. apply wp_bind. eapply with_type_empty; eauto. apply wp_ret. auto. Qed.
Lemma zgetNum_empty : wp (z_ValueGetNum B v) s (fun r s' => r = (None, B) /\ s' = s).
Proof. unfold z_ValueGetNum. apply wp_bind. eapply with_type_empty; eauto. apply wp_ret. auto. Qed.
Lemma zgetKey_empty : wp (z_ValueGetKey B v) s (fun r s' => r = (None, B) /\ s' = s).
Proof. unfold z_ValueGetKey. apply wp_bind. eapply with_key_empty; eauto. apply wp_ret. auto. Qed.
Lemma zgetUnEscapeKey_empty : wp (z_ValueGetUnEscapeKey B v) s (fun r s' => r = (None, B) /\ s' = s).
Proof. unfold z_ValueGetUnEscapeKey. apply wp_bind. eapply with_key_empty; eauto. apply wp_ret. auto. Qed.
End Empty.

Section Node.
Variables (a : addr) (f : fnode).
Hypothesis H : handle s F v (At a) A.
Hypothesis Fa : F a = Some f.
Lemma zgetText_wp t : t = TNumber \/ t = TString -> cStr (B v) <> Undef ->
  (forall b, cStr (B v) = Null -> ftext t (fvalue f) = Some b -> usedA s A + (lenN b + 1) <= two30) ->
  wp (z_get_text t B v) s (fetched (cStr (B v)) (put_str B v) (olen (ftext t (fvalue f)) + 1) (ftext t (fvalue f))).
Proof.
  intros Ht Nu Hu. pose proof H as (_ & [Al NA] & _). unfold z_get_text. apply wp_bind. eapply with_text; eauto.
  - intro E. apply wp_ret. rewrite E. cbn. auto.
  - intros n b p E El Ev Sf. rewrite E in *. cbn [olen] in *. eapply wp_mono; [eapply (cached_wp _ _ _ (lenN b + 1) b); auto|].
    + intro En. apply wp_bind, (wp_rLen _ _ _ _ El). rewrite Ev. cbn [vA].
      eapply wp_mono; [apply copy_out_wp; auto; try apply I; apply Sf|]. auto.
    + intros r s' K. apply wp_ret. exact K.
Qed.
Lemma zgetKey_wp : cKey (B v) <> Undef -> (forall b, cKey (B v) = Null -> fkey f = Some b -> usedA s A + (lenN b + 1) <= two30) ->
  wp (z_ValueGetKey B v) s (fetched (cKey (B v)) (put_ckey B v) (olen (fkey f) + 1) (fkey f)).
Proof.
  intros Nu Hu. pose proof H as (_ & [Al NA] & _). unfold z_ValueGetKey. apply wp_bind. eapply with_key_node; eauto.
  - intro E. apply wp_ret. rewrite E. cbn. auto.
  - intros n b p E _ _ Ek El Sf. rewrite E in *. cbn [olen] in *. eapply wp_mono; [eapply (cached_wp _ _ _ (lenN b + 1) b); auto|].
    + intro En. apply wp_bind, (wp_rKeyLen _ _ _ _ El). rewrite Ek. cbn [vA].
      eapply wp_mono; [apply copy_out_wp; auto; try apply I; apply Sf|]. auto.
    + intros r s' K. apply wp_ret. exact K.
Qed.
Lemma zgetUnEscapeKey_wp b o : fkey f = Some b -> cUn (B v) <> Undef -> decodes b o ->
  (cUn (B v) = Null -> usedA s A + (lenN b + 1) <= two30) ->
  wp (z_ValueGetUnEscapeKey B v) s (fetched (cUn (B v)) (put_un B v) (lenN b + 1) (Some o)).
Proof.
  intros Ef Nu Hd Hu. pose proof H as (_ & [Al NA] & _). unfold z_ValueGetUnEscapeKey. apply wp_bind. eapply with_key_node; eauto.
  - congruence.
  - intros n b' p E _ _ Ek El Sf. rewrite E in Ef. injection Ef as ->. eapply wp_mono; [eapply (cached_wp _ _ _ (lenN b + 1) o); auto|].
    + intro En. apply wp_bind, (wp_rKeyLen _ _ _ _ El). rewrite Ek. cbn [vA].
      eapply wp_mono; [apply (unescape_out_wp s A p b o); auto; try apply I; apply Sf|]. auto.
    + intros r s' K. apply wp_ret. exact K.
Qed.
Lemma zgetUnEscapeKey_hit b p : fkey f = Some b -> cUn (B v) = At p ->
  wp (z_ValueGetUnEscapeKey B v) s (fun r s' => r = (Some (At p), B) /\ s' = s).
Proof.
  intros Ef Ec. unfold z_ValueGetUnEscapeKey. apply wp_bind. eapply with_key_node; eauto; [congruence|].
  intros n b' q E _ _ Ek El Sf. rewrite Ec. unfold cached. apply wp_bind, wp_is_null with (b := false); auto. apply wp_ret, wp_ret. auto.
Qed.
Lemma zgetUnEscapeKey_no : fkey f = None -> wp (z_ValueGetUnEscapeKey B v) s (fun r s' => r = (None, B) /\ s' = s).
Proof.
  intro Ef. unfold z_ValueGetUnEscapeKey. apply wp_bind. eapply with_key_node; eauto; [|congruence]. intros _. apply wp_ret. auto.
Qed.
(** The union: what z_ValueGetUnEscapeString finds there is handed out, whoever put it. *)
Lemma zgetUnEscape_hit b p : fvalue f = VStr b -> (cAlt (B v) = AText p \/ exists d, cAlt (B v) = ANum p d) ->
  wp (z_ValueGetUnEscapeString B v) s (fun r s' => r = (Some (At p), B) /\ s' = s).
Proof.
  intros Ev Ec. unfold z_ValueGetUnEscapeString. apply wp_bind. eapply with_type_node; eauto; [rewrite Ev; intro K; now elim K|].
  intros n _ _ _. apply wp_bind. destruct Ec as [-> |(d & ->)]; apply wp_ret; (apply wp_bind, wp_is_null with (b := false); [auto|]); apply wp_ret, wp_ret; auto.
Qed.
Lemma zgetUnEscape_miss b o : fvalue f = VStr b -> cAlt (B v) = ANull -> decodes b o -> usedA s A + (lenN b + 1) <= two30 ->
  wp (z_ValueGetUnEscapeString B v) s (fun r s' => exists p, r = (Some (At p), put_alt B v (AText p)) /\
    ext none none (at_ A (lenN b + 1)) s s' /\ filled s s' p (o ++ [0])).
Proof.
  intros Ev Ec Hd Hu. pose proof H as (_ & [Al NA] & _). unfold z_ValueGetUnEscapeString. apply wp_bind. eapply with_text; eauto.
  - rewrite Ev. discriminate.
  - intros n b' p E El En Sf. rewrite Ev in E. injection E as <-. rewrite Ec. apply wp_bind, wp_ret.
    apply wp_bind, wp_is_null with (b := true); auto. cbv iota. apply wp_bind, (wp_rLen _ _ _ _ El). rewrite En. cbn [vA].
    eapply wp_seq; [apply (unescape_out_wp s A p b o); auto; try apply I; apply Sf|].
    intros w s' (q & -> & X & Fl). apply wp_bind, wp_deref. apply wp_ret, wp_ret. exists q. auto.
Qed.
Lemma zgetUnEscape_no : ftype (fvalue f) <> TString -> wp (z_ValueGetUnEscapeString B v) s (fun r s' => r = (None, B) /\ s' = s).
Proof. intro E. unfold z_ValueGetUnEscapeString. apply wp_bind. eapply with_type_node; eauto; [intros _; apply wp_ret; auto|]. intros n E'. congruence. Qed.
(** z_ValueGetNum *)
Lemma zgetNum_no : ftype (fvalue f) <> TNumber -> wp (z_ValueGetNum B v) s (fun r s' => r = (None, B) /\ s' = s).
Proof. intro E. unfold z_ValueGetNum. apply wp_bind. eapply with_type_node; eauto; [intros _; apply wp_ret; auto|]. intros n E'. congruence. Qed.
Lemma zgetNum_hit b p x : fvalue f = VNum b -> (x = None /\ cAlt (B v) = AText p \/ exists d, x = Some d /\ cAlt (B v) = ANum p d) ->
  wp (z_ValueGetNum B v) s (fun r s' => r = (Some (p, x), B) /\ s' = s).
Proof.
  intros Ev Ec. unfold z_ValueGetNum. apply wp_bind. eapply with_type_node; eauto; [rewrite Ev; intro K; now elim K|].
  intros n _ _ _. destruct Ec as [(-> & ->)|(d & -> & ->)]; apply wp_ret, wp_ret; auto.
Qed.
Lemma zgetNum_miss b t d : fvalue f = VNum b -> cAlt (B v) = ANull -> usedA s A + 8 <= two30 -> t <> [] -> atof t = Ok d ->
  (forall n p, snodes s a = Some n -> nVal n = At p -> text_at s p = t) ->
  wp (z_ValueGetNum B v) s (fun r s' => exists p, r = (Some (p, Some d), put_alt B v (ANum p d)) /\ ext none none (at_ A 8) s s').
Proof.
  intros Ev Ec Hu Ht Hd Hz. pose proof H as (_ & [Al NA] & _). unfold z_ValueGetNum. apply wp_bind.
  eapply with_type_node; eauto; [rewrite Ev; intro K; now elim K|].
  intros n _ Hn Rp. pose proof (r_val _ _ _ Rp) as Rv. rewrite Ev in Rv. destruct Rv as (_ & El & p & Ep & Sf). rewrite Ec. cbn [vA].
  eapply wp_seq; [eapply (alloc_step none none A 0 8 s s); auto; [apply ext_start; apply I|lia]|].
  intros q s1 [X P]. rewrite Ep. apply wp_bind, wp_deref, wp_bind, wp_readable.
  specialize (Hz n p Hn Ep). destruct t as [|x r]; [congruence|].
  rewrite (text_at_ext _ _ _ _ _ p x r X (ap_bytes _ _ _ _ _ P) Hz).
  apply wp_bind, (wp_lift _ d); auto. apply wp_ret, wp_ret. exists q. auto.
Qed.
End Node.
End Get.
End WithVol.
