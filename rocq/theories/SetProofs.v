(** The setters of scalar values and of empty containers. *)
From Verif Require Import Base Spec Lex LexProofs Alloc AllocProofs Mem MemProofs Api PureParse Dom Steps StrBuf StringifyProofs ParseProofs ParseTop CacheProofs.

Section WithVol.
Context {VV : vols}.

Lemma wp_assoc {X Y Z} (m : M X) (f : X -> M Y) (g : Y -> M Z) s Q :
  wp (bind (bind m f) g) s Q -> wp (bind m (fun x => bind (f x) g)) s Q.
Proof. apply (bind_assoc_agree m f g s (Ok tt) (fun _ => Q)). Qed.

(** ** ensure_node *)
Definition new_node : node := wNext Null (wFather Null (wPrev Null (wKey Null blank_node))).
Definition ens_post (s : st) (v : addr) (w : word) (A : N) (a : addr) (s1 : st) : Prop :=
  (w = At a /\ s1 = s) \/
  (w = Null /\ beyond s a /\ ext none (only v) (at_ A 72) s s1 /\ sbytes s1 = sbytes s /\
   svals s1 v = Some (mkVal (At a) A) /\ snodes s1 a = Some new_node /\
   (forall p b, safetext s p b -> safetext s1 p b)).
Lemma ensure_node_wp s F v w A : inv s F -> handle s F v w A -> usedA s A + 72 <= two30 ->
  wp (ensure_node v) s (ens_post s v w A).
Proof.
  intros I (Hv & [Al NA] & Hw) Hu. unfold ensure_node. pose proof (i_wf _ _ I) as W.
  apply wp_bind, (wp_getVal _ _ _ _ Hv). cbn [vN vA]. destruct Hw as [->|(a & -> & Ha)].
  - apply wp_bind, wp_is_null with (b := true); auto. cbv iota.
    eapply wp_seq; [eapply (newNode_step none (only v) A 0 s s); auto; [now apply ext_start|lia]|].
    intros n s1 (X1 & B & U1).
    assert (V1 : svals s1 = svals s) by apply U1.
    eapply wp_seq with (P := fun _ s2 => ext none (only v) (at_ A 72) s s2 /\
       s2 = set_vals (upd (svals s1) v (mkVal (At n) A)) s1).
    { apply wp_putVal. split; auto. apply ext_putVal; auto; [right; reflexivity|]. left. congruence. }
    intros [] s2 (X2 & E2).
    assert (N2 : snodes s2 n = Some blank_node) by (rewrite E2; apply U1).
    eapply wp_seq; [eapply modNode_step; eauto|]. intros [] s3 (X3 & U3).
    eapply wp_seq; [eapply modNode_step; eauto; apply U3|]. intros [] s4 (X4 & U4).
    eapply wp_seq; [eapply modNode_step; eauto; apply U4|]. intros [] s5 (X5 & U5).
    eapply wp_seq; [eapply modNode_step; eauto; apply U5|]. intros [] s6 (X6 & U6).
    assert (U := nupd_trans _ _ _ _ _ _ U3 (nupd_trans _ _ _ _ _ _ U4 (nupd_trans _ _ _ _ _ _ U5 U6))).
    apply wp_ret. right. pose proof (nu_mch _ _ _ _ U) as [Mb Mv _ _ _]. pose proof (nu_mch _ _ _ _ U1) as [Mb1 _ _ _ _].
    split; auto. split; auto. split; auto.
    split; [rewrite Mb, E2; exact Mb1|]. split; [rewrite Mv, E2; simpl; apply upd_eq|]. split; [apply U|].
    intros p b. eapply safetext_ext; eauto.
  - apply wp_bind, wp_is_null with (b := false); auto. cbv iota. apply wp_deref. left. auto.
Qed.

(** ** Setting a node to a value without children *)
Definition simple (fv : fval) : Prop := match fv with VCont _ (_ :: _) => False | _ => True end.
Definition jval (fv : fval) : json :=
  match fv with
  | VNull => JNull
  | VBool b => JBool b
  | VNum t => JNum t
  | VStr t => JStr t
  | VCont ob _ => container ob []
  end.

Section SetValue.
Variables (s : st) (F : dom) (v : addr) (w : word) (A : N) (fv : fval) (K : addr -> M unit) (g : node -> node).
Hypothesis I : inv s F.
Hypothesis Hh : handle s F v w A.
Hypothesis Hu : usedA s A + 72 <= two30.
Hypothesis Hfv : simple fv.
Hypothesis Hg : forall n, links n (g n).
Hypothesis Hrep : forall n s', (forall p b, safetext s p b -> safetext s' p b) -> rep_val s' (g n) fv.
Hypothesis HK : forall (Dn Dv : addr -> Prop) c s1 a n, ext Dn Dv c s s1 -> snodes s1 a = Some n -> beyond s a \/ Dn a ->
  wp (K a) s1 (fun _ s2 => ext Dn Dv c s s2 /\ nupd s1 s2 a (g n)).

Lemma set_value_wp : wp (n <- ensure_node v ;; K n) s
  (fun _ s' => exists F' a, parsed s F v w A (at_ A 72) (jval fv) s' F' a).
Proof.
  pose proof (i_wf _ _ I) as W. pose proof Hh as (Hv & [Al NA] & Hw).
  set (G := fun _ : addr => @None fnode).
  assert (Hvr : forall x, vreads G x fv (jval fv)).
  { intro x. destruct fv as [| | | |ob [|]]; simpl in *; auto; [|tauto].
    exists []. repeat split; auto. constructor. }
  assert (Hend : forall n, end_ok n fv) by (intro n; destruct fv as [| | | |ob [|]]; simpl in *; auto; tauto).
  assert (TG : forall a, tidy G a) by (intros a f ob kids H; discriminate).
  assert (DG : wfdom G) by (intros a f H; discriminate).
  assert (RG : forall s, rep none s G) by (intros s' a f H; discriminate).
  assert (HG : forall a, G a <> None -> F a = None) by (intros a H; now elim H).
  assert (Hch : forall root ob kids, fv = VCont ob kids -> chain G root ob kids /\ lenN kids < two32).
  { intros root ob kids ->. destruct kids; [|elim Hfv]. split; simpl; auto. unfold lenN. reflexivity. }
  assert (Hpr : forall ob kids, fv = VCont ob kids -> prevs G None kids).
  { intros ob kids ->. destruct kids; [|elim Hfv]. simpl. auto. }
  eapply wp_seq; [eapply ensure_node_wp; eauto|].
  intros a s1 [(-> & ->)|(-> & B & X1 & Mb & Hv1 & Hn1 & T1)].
  - destruct Hw as [Hw|(a' & E & Ha)]; [discriminate|]. injection E as <-.
    destruct (F a) as [f0|] eqn:Fa; [|congruence].
    destruct (i_rep _ _ I a f0 Fa) as (n0 & Hn0 & R0); [auto|].
    eapply wp_mono; [apply (HK (only a) (only v) (at_ A 72) s a n0); auto|].
    { eapply ext_more; [now apply ext_start|]. lia. }
    { right. reflexivity. }
    intros [] s2 (X2 & U2).
    destruct (Hg n0) as (L1 & L2 & L3 & L4 & L5).
    assert (Hl : F a = None \/ exists f, F a = Some f /\ same_links f f0 /\ fprev f0 = fprev f).
    { right. exists f0. repeat split; auto. }
    assert (T2 : forall p b, safetext s p b -> safetext s2 p b) by (intros; eapply safetext_ext; eauto).
    exists (merged F G a f0 fv), a. constructor.
    + constructor; [apply X2| | |eapply wfvol_ext; [exact X2|apply I]|].
      * eapply (merged_rep F G a f0 fv s s2 (g n0)); eauto; [apply I|apply U2| | | |]; try (rewrite ?L3, ?L4, ?L5; apply R0).
        pose proof (r_key _ _ _ R0) as Rk. destruct (fkey f0); simpl in *; [|congruence].
        destruct Rk as (p & E1 & E2 & E3). exists p. split; [congruence|]. split; [congruence|]. now apply T2.
      * apply merged_wfdom; auto; [|apply I]. intro H. apply (i_dom _ _ I a f0 Fa). auto.
      * eapply (merged_off F G a f0 fv s s2); eauto; [now apply at_novol|intros b Hb; now elim Hb|left; congruence|apply U2].
    + rewrite (mc_vals _ _ (nu_mch _ _ _ _ U2)). auto.
    + now apply merged_reads.
    + auto.
    + eapply ext_weaken; [exact X2|..]; auto; [|intros; lia]. intros x Hx. red in Hx. subst x. reflexivity.
    + intros _. apply (mc_vals _ _ (nu_mch _ _ _ _ U2)).
    + intros x f Hx Nx. now apply merged_old.
    + exists (relink f0 fv). split; [apply merged_root|]. rewrite Fa. repeat split.
    + intros x Hx Hx'. apply merged_tidy_new; auto.
      destruct Hx' as [Hx'|]; auto. left.
      destruct (merged F G a f0 fv x) eqn:E'; [|congruence].
      apply merged_inv in E' as [(? & _)|[(_ & E')|(_ & _ & ?)]]; [auto|discriminate E'|congruence].
    + intros x Hx Nx T. apply merged_tidy_old; auto.
    + apply merged_closed; auto. intros ob kids E. apply (Hch _ _ _ E).
    + apply merged_fresh; auto; [intros b Hb; now elim Hb|left; now rewrite Fa].
  - eapply wp_mono; [apply (HK none (only v) (at_ A 72) s1 a new_node); auto|].
    intros [] s2 (X2 & U2).
    destruct (Hg new_node) as (L1 & L2 & L3 & L4 & L5).
    set (f0 := mkF None VNull None None None None false).
    assert (Fn : F a = None) by exact (inv_beyond s F a I B).
    assert (T2 : forall p b, safetext s p b -> safetext s2 p b) by (intros; eapply safetext_ext; eauto).
    exists (merged F G a f0 fv), a. constructor.
    + constructor; [apply X2| | |eapply wfvol_ext; [exact X2|apply I]|].
      * eapply (merged_rep F G a f0 fv s s2 (g new_node)); eauto; [apply I|intros ? []|apply U2].
      * apply merged_wfdom; auto; apply I.
      * eapply (merged_off F G a f0 fv s s2); eauto; [now apply at_novol|intros b Hb; now elim Hb|apply U2].
    + rewrite (mc_vals _ _ (nu_mch _ _ _ _ U2)). auto.
    + now apply merged_reads.
    + auto.
    + eapply ext_weaken; [exact X2|..]; auto; [|intros; lia]. intros x [].
    + congruence.
    + intros x f Hx Nx. now apply merged_old.
    + exists (relink f0 fv). split; [apply merged_root|]. rewrite Fn. auto.
    + intros x Hx Hx'. apply merged_tidy_new; auto.
      destruct Hx' as [Hx'|]; auto. left.
      destruct (merged F G a f0 fv x) eqn:E'; [|congruence].
      apply merged_inv in E' as [(? & _)|[(_ & E')|(_ & _ & ?)]]; [auto|discriminate E'|congruence].
    + intros x Hx Nx T. apply merged_tidy_old; auto.
    + apply merged_closed; auto. intros ob kids E. apply (Hch _ _ _ E).
    + apply merged_fresh; auto. intros b Hb; now elim Hb.
Qed.
End SetValue.

(** What a setter leaves: the node of [v] (a new one if it had none) has value [j]. *)
Definition set_to (s : st) (F : dom) (v : addr) (w : word) (A : N) (c : N -> N) (j : json) (s' : st) : Prop :=
  exists F' a, parsed s F v w A c j s' F' a.

Lemma set_scalar_value s F v w A t p l fv b : inv s F -> handle s F v w A -> usedA s A + 72 <= two30 ->
  safetext s p b -> l = lenN b ->
  (fv = VNull /\ b = txt "null" /\ t = TNull \/ (exists x, fv = VBool x /\ b = bool_text x /\ t = TBool) \/
   fv = VNum b /\ t = TNumber \/ fv = VStr b /\ t = TString) ->
  wp (n <- ensure_node v ;; set_scalar n t p l) s (fun _ s' => set_to s F v w A (at_ A 72) (jval fv) s').
Proof.
  intros I H Hu Ht -> Hf.
  apply (set_value_wp s F v w A fv (fun n => set_scalar n t p (lenN b)) (fun n => wLen (lenN b) (wVal (At p) (wType t n)))); auto.
  - destruct Hf as [(-> & _)|[(x & -> & _)|[(-> & _)|(-> & _)]]]; simpl; auto.
  - intro n. repeat split.
  - intros n s' T.
    assert (Hr : rep_text s' (wLen (lenN b) (wVal (At p) (wType t n))) t b).
    { repeat split. exists p. split; auto. }
    destruct Hf as [(-> & -> & ->)|[(x & -> & -> & ->)|[(-> & ->)|(-> & ->)]]]; auto.
  - intros Dn Dv c s1 a n X Hn Hb. apply set_scalar_step; auto. apply I.
Qed.

Lemma setNull_wp s F v w A : inv s F -> handle s F v w A -> usedA s A + 72 <= two30 ->
  wp (zj_SetNull v) s (fun _ s' => set_to s F v w A (at_ A 72) JNull s').
Proof.
  intros I H Hu. apply (set_scalar_value s F v w A TNull zj_strNull 4 VNull (txt "null")); auto.
  apply strNull_safe, I.
Qed.
Lemma setBool_wp s F v w A b : inv s F -> handle s F v w A -> usedA s A + 72 <= two30 ->
  wp (zj_SetBool v b) s (fun _ s' => set_to s F v w A (at_ A 72) (JBool b) s').
Proof.
  intros I H Hu. destruct b.
  - apply (set_scalar_value s F v w A TBool zj_strTrue 4 (VBool true) (txt "true")); auto.
    + apply strTrue_safe, I.
    + right. left. exists true. auto.
  - apply (set_scalar_value s F v w A TBool zj_strFalse 5 (VBool false) (txt "false")); auto.
    + apply strFalse_safe, I.
    + right. left. exists false. auto.
Qed.
Lemma setCont_wp s F v w A ob : inv s F -> handle s F v w A -> usedA s A + 72 <= two30 ->
  wp (set_container (ctype ob) v) s (fun _ s' => set_to s F v w A (at_ A 72) (container ob []) s').
Proof.
  intros I H Hu. unfold set_container.
  apply (set_value_wp s F v w A (VCont ob []) (fun n => modNode n (wType (ctype ob)) ;;; modNode n (wVal Null) ;;; modNode n (wLen 0))
    (fun n => wLen 0 (wVal Null (wType (ctype ob) n)))); auto.
  - exact Logic.I.
  - intro n. repeat split.
  - intros n s' T. repeat split.
  - intros Dn Dv c s1 a n X Hn Hb. pose proof (i_wf _ _ I) as W.
    eapply wp_seq; [eapply modNode_step; eauto|]. intros [] s2 [X2 U2].
    eapply wp_seq; [eapply modNode_step; eauto; apply U2|]. intros [] s3 [X3 U3].
    eapply wp_mono; [eapply modNode_step; eauto; apply U3|]. intros [] s4 [X4 U4]. split; auto.
    eapply nupd_trans; eauto. eapply nupd_trans; eauto.
Qed.

(** ** Setters taking text *)
Lemma dup_bytes_wp s A src bs : wfst s -> wfvol s -> ~ isvol A -> alive s A -> usedA s A + lenN bs <= two30 -> holds s src bs ->
  wp (dup_bytes A (At src) (lenN bs)) s (fun p s' => ext none none (at_ A (lenN bs)) s s' /\ filled s s' p bs).
Proof.
  intros W Wv NA Al Hu Hs. unfold dup_bytes.
  eapply wp_seq; [eapply (alloc_step none none A 0 (lenN bs) s s); auto; [now apply ext_start|lia]|].
  intros p s1 [X1 P]. cbn [load_w].
  apply wp_bind. unfold load_w. apply wp_bind, wp_deref. apply (wp_load src _ bs); auto.
  { intros i x E. rewrite (ap_bytes _ _ _ _ _ P). auto. }
  eapply wp_seq; [eapply (fill_step none none (at_ A (lenN bs)) A (lenN bs) s s s1 p); eauto|].
  { eapply ext_more; [now apply ext_start|]. lia. }
  { lia. }
  intros [] s2 [X2 Fl]. apply wp_ret. auto.
Qed.

Lemma u_used s s' A A' k : ext none none (at_ A' k) s s' -> usedA s' A <= usedA s A + at_ A' k A.
Proof. intro X. apply (x_used _ _ _ _ _ X). Qed.

(** Result of a setter that may refuse. *)
Definition set_res (s : st) (F : dom) (v : addr) (w : word) (A : N) (c : N -> N) (ok : Prop) (j : json)
    (r : bool) (s' : st) : Prop :=
  (r = true /\ ok /\ set_to s F v w A c j s') \/
  (r = false /\ ~ ok /\ ext none none c s s' /\ svals s' = svals s).

Lemma handle_same s F v w A s' : ext none none (fun _ => 0) s s' -> handle s F v w A -> handle s' F v w A.
Proof. intro X. eapply handle_ext; eauto. Qed.

Lemma set_done s0 F v w A s1 c p t l fv b : inv s0 F -> handle s0 F v w A -> ext none none c s0 s1 ->
  svals s1 = svals s0 -> usedA s1 A + 72 <= two30 -> safetext s1 p b -> l = lenN b ->
  (fv = VNull /\ b = txt "null" /\ t = TNull \/ (exists x, fv = VBool x /\ b = bool_text x /\ t = TBool) \/
   fv = VNum b /\ t = TNumber \/ fv = VStr b /\ t = TString) ->
  wp (n <- ensure_node v ;; set_scalar n t p l ;;; ret true) s1
     (fun r s' => r = true /\ set_to s0 F v w A (addc c (at_ A 72)) (jval fv) s').
Proof.
  intros I H X V Hu Ht El Hf. apply wp_assoc.
  assert (I1 : inv s1 F) by (eapply ext_inv; eauto).
  eapply wp_seq; [eapply (set_scalar_value s1 F v w A t p l fv b); eauto|].
  { eapply handle_ext; eauto. }
  intros [] s2 (F' & a & P). apply wp_ret. split; auto. exists F', a. eapply parsed_before; eauto.
Qed.

Section Text.
Variables (check : bytes -> res (option N)) (t : jtype) (mk : bytes -> fval) (good : bytes -> Prop).
Hypothesis Hkind : (check = zj_checkNum /\ t = TNumber /\ mk = VNum /\ good = number) \/
                   (check = zj_checkStr /\ t = TString /\ mk = VStr /\ good = strbody_set).

Lemma kind_dec b r : exists o, check (b ++ 0 :: r) = Ok o /\ (o = Some (lenN b) <-> good b).
Proof.
  destruct Hkind as [(-> & _ & _ & ->)|(-> & _ & _ & ->)]; [apply checkNum_dec|apply checkStr_dec].
Qed.
Lemma kind_c b r : ~ In 0 b -> exists o, check (b ++ 0 :: r) = Ok o /\
  match o with Some l => good b /\ l = lenN b | None => ~ good b end.
Proof.
  intro N0. destruct (kind_dec b r) as (o & E & Ho). exists o. split; auto. destruct o as [l|].
  - destruct Hkind as [(-> & _ & _ & ->)|(-> & _ & _ & ->)].
    + apply checkNum_iff in E; auto.
    + apply checkStr_iff in E; auto.
  - intro G. apply Ho in G. discriminate.
Qed.
Lemma kind_val b : 
  (mk b = VNull /\ b = txt "null" /\ t = TNull \/ (exists x, mk b = VBool x /\ b = bool_text x /\ t = TBool) \/
   mk b = VNum b /\ t = TNumber \/ mk b = VStr b /\ t = TString).
Proof. destruct Hkind as [(_ & -> & -> & _)|(_ & -> & -> & _)]; auto. Qed.

Variables (s : st) (F : dom) (v : addr) (w : word) (A : N) (src : addr) (b : bytes).
Hypothesis I : inv s F.
Hypothesis Hh : handle s F v w A.
Hypothesis Hs : srctext s src b.

Lemma ext0 c : ext none none c s s.
Proof. eapply ext_weaken; [apply (ext_refl none none s (i_wf _ _ I))|..]; auto. intro. apply N.le_0_l. Qed.

Lemma set_text_fast_wp r : safetext s src b -> text_at s src = b ++ 0 :: r -> ~ In 0 b -> usedA s A + 72 <= two30 ->
  wp (set_text_fast check t v src) s (set_res s F v w A (at_ A 72) (good b) (jval (mk b))).
Proof.
  intros Sf Ht N0 Hu. unfold set_text_fast. apply wp_bind, wp_readable. rewrite Ht.
  destruct (kind_c b r N0) as (o & E & Ho). apply wp_bind, (wp_lift _ o); auto. destruct o as [l|].
  - destruct Ho as [G ->]. eapply wp_mono; [eapply (set_done s F v w A s zeroc src t _ (mk b) b); eauto|].
    + apply ext0.
    + apply kind_val.
    + intros x s' (-> & F' & a & P). left. split; auto. split; auto. exists F', a. eapply parsed_more; eauto.
      intro y. unfold addc, zeroc. lia.
  - apply wp_ret. right. split; auto. split; auto. split; auto. apply ext0.
Qed.

Lemma set_text_wp r : text_at s src = b ++ 0 :: r -> ~ In 0 b -> usedA s A + (lenN b + 72) <= two30 ->
  wp (set_text check t v src) s (set_res s F v w A (at_ A (lenN b + 72)) (good b) (jval (mk b))).
Proof.
  intros Ht N0 Hu. unfold set_text. apply wp_bind, wp_readable. rewrite Ht.
  destruct (kind_c b r N0) as (o & E & Ho). apply wp_bind, (wp_lift _ o); auto. destruct o as [l|].
  - destruct Ho as [G ->]. pose proof Hh as (Hv & [Al NA] & _). apply wp_bind, (wp_getVal _ _ _ _ Hv). cbn [vA].
    eapply wp_seq; [apply dup_bytes_wp; auto; [apply I|apply I|lia|apply Hs]|]. intros p s1 [X1 Fl].
    pose proof (x_used _ _ _ _ _ X1 A) as Us. rewrite at_eq in Us.
    eapply wp_mono; [eapply (set_done s F v w A s1 (at_ A (lenN b)) p t _ (mk b) b); eauto|].
    + apply Fl.
    + lia.
    + apply Fl.
    + apply kind_val.
    + intros x s' (-> & F' & a & P). left. split; auto. split; auto. exists F', a. eapply parsed_more; eauto.
      apply at_add.
  - apply wp_ret. right. split; auto. split; auto. split; auto. apply ext0.
Qed.

Definition len_set_cost (n : N) : N -> N := addc (at_ (cache_home s A) (check_cost n)) (at_ A (n + 72)).
Lemma set_text_len_wp : cache_live s -> usedA s (cache_home s A) + check_cost (lenN b) + lenN b + 72 <= two30 ->
  usedA s A + check_cost (lenN b) + lenN b + 72 <= two30 ->
  wp (set_text_len check t v src (lenN b)) s (set_res s F v w A (len_set_cost (lenN b)) (good b) (jval (mk b))).
Proof.
  intros Cl Hu Hu2. unfold set_text_len. pose proof Hh as (Hv & [Al NA] & _). apply wp_bind, (wp_getVal _ _ _ _ Hv). cbn [vA].
  eapply wp_seq; [eapply (check_len_wp check (good b) s A src b); eauto; [apply kind_dec|apply I|lia]|].
  intros ok s1 (Hok & X1 & V1 & N1). pose proof (x_used _ _ _ _ _ X1 A) as Us.
  assert (Uh : at_ (cache_home s A) (check_cost (lenN b)) A <= check_cost (lenN b)).
  { unfold at_. destruct (A =? _); lia. }
  destruct ok; cbn [negb].
  - assert (G : good b) by tauto.
    eapply wp_seq; [eapply (dup_bytes_wp s1 A src b); [apply X1|eapply wfvol_ext; [exact X1|apply I]|exact NA| |lia|]|].
    { now apply (x_alive _ _ _ _ _ X1). }
    { apply (srctext_ext _ _ _ _ _ _ _ X1 Hs). }
    intros p s2 [X2 Fl]. pose proof (x_used _ _ _ _ _ X2 A) as Us2. rewrite at_eq in Us2.
    assert (X3 : ext none none (addc (at_ (cache_home s A) (check_cost (lenN b))) (at_ A (lenN b))) s s2)
      by (eapply ext_trans; eauto).
    eapply wp_mono; [eapply (set_done s F v w A s2 _ p t _ (mk b) b); eauto|].
    + rewrite (fl_vals _ _ _ _ Fl). auto.
    + lia.
    + apply Fl.
    + apply kind_val.
    + intros x s' (-> & F' & a & P). left. split; auto. split; auto. exists F', a. eapply parsed_more; eauto.
      intro y. unfold len_set_cost, addc, at_. destruct (y =? A), (y =? cache_home s A); lia.
  - apply wp_ret. right. split; auto. split. { intro G. apply Hok in G. discriminate. }
    split; auto. eapply ext_weaken; [exact X1|..]; auto. intro y. unfold len_set_cost, addc. lia.
Qed.
Lemma set_text_len_fast_wp : safetext s src b -> cache_live s -> usedA s (cache_home s A) + check_cost (lenN b) + 72 <= two30 ->
  usedA s A + check_cost (lenN b) + 72 <= two30 ->
  wp (set_text_len_fast check t v src (lenN b)) s (set_res s F v w A (len_set_cost (lenN b)) (good b) (jval (mk b))).
Proof.
  intros Sf Cl Hu Hu2. unfold set_text_len_fast. pose proof Hh as (Hv & [Al NA] & _). apply wp_bind, (wp_getVal _ _ _ _ Hv). cbn [vA].
  eapply wp_seq; [eapply (check_len_wp check (good b) s A src b); eauto; [apply kind_dec|apply I|lia]|].
  intros ok s1 (Hok & X1 & V1 & N1). pose proof (x_used _ _ _ _ _ X1 A) as Us.
  assert (Uh : at_ (cache_home s A) (check_cost (lenN b)) A <= check_cost (lenN b)).
  { unfold at_. destruct (A =? _); lia. }
  destruct ok; cbn [negb].
  - assert (G : good b) by tauto.
    eapply wp_mono; [eapply (set_done s F v w A s1 _ src t _ (mk b) b); eauto|].
    + lia.
    + apply (safetext_ext _ _ _ _ _ _ _ X1 Sf).
    + apply kind_val.
    + intros x s' (-> & F' & a & P). left. split; auto. split; auto. exists F', a. eapply parsed_more; eauto.
      intro y. unfold len_set_cost, addc, at_. destruct (y =? A), (y =? cache_home s A); lia.
  - apply wp_ret. right. split; auto. split. { intro G. apply Hok in G. discriminate. }
    split; auto. eapply ext_weaken; [exact X1|..]; auto. intro y. unfold len_set_cost, addc. lia.
Qed.
End Text.
End WithVol.
