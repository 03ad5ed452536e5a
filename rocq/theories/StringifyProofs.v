(** zj_Stringify prints the value below a node. *)
From Verif Require Import Base Spec Lex LexProofs Alloc AllocProofs Mem MemProofs Api PureParse Dom Steps StrBuf.

Section WithVol.
Context {VV : vols}.

Definition key_text (k : option bytes) : bytes :=
  match k with Some b => 34 :: b ++ [34; 58] | None => [] end.
Definition item_text (it : option bytes * json) : bytes := key_text (fst it) ++ print (snd it).
Definition keyed (ob : bool) (k : option bytes) : Prop := if ob then k <> None else k = None.

Lemma print_container ob items : (forall it, In it items -> keyed ob (fst it)) ->
  print (container ob items) = opener ob :: commas (map item_text items) ++ [closer ob].
Proof.
  intro H. unfold container. destruct ob; cbn [print opener closer].
  - f_equal. f_equal. f_equal. rewrite map_map. apply map_ext_in. intros [k j] Hi. specialize (H _ Hi).
    simpl in *. destruct k as [k|]; [|congruence]. unfold item_text. simpl. rewrite <- app_assoc. reflexivity.
  - f_equal. f_equal. f_equal. rewrite map_map. apply map_ext_in. intros [k j] Hi. specialize (H _ Hi).
    simpl in *. subst k. reflexivity.
Qed.

(** Loop iterations needed for a value. *)
Fixpoint jsteps (j : json) : nat :=
  match j with
  | JArr l => S (list_sum (map (fun x => S (jsteps x)) l))
  | JObj l => S (list_sum (map (fun kv => let '(_, x) := kv in S (jsteps x)) l))
  | _ => 1
  end.
Definition isteps (items : list (option bytes * json)) : nat :=
  list_sum (map (fun it => S (jsteps (snd it))) items).
Lemma jsteps_container ob items : jsteps (container ob items) = S (isteps items).
Proof.
  unfold container, isteps. destruct ob; simpl; f_equal; f_equal; rewrite map_map; apply map_ext; intros [k j]; reflexivity.
Qed.
Lemma jsteps_pos j : (1 <= jsteps j)%nat.
Proof. destruct j; simpl; lia. Qed.

Lemma readsL_keyed F p ob kids items : chain F p ob kids -> readsL F kids items ->
  forall it, In it items -> keyed ob (fst it).
Proof.
  intros Hc H. revert Hc. induction H as [|c r fc j items Hc Hr Hl IH]; simpl; [tauto|].
  intros [(fc' & E & _ & _ & K) Hch] it [<-|Hi]; auto. simpl. rewrite Hc in E. injection E as <-. exact K.
Qed.

Lemma lenN_cons {A} (x : A) l : lenN (x :: l) = 1 + lenN l.
Proof. unfold lenN. simpl. lia. Qed.
Lemma lenN_nil {A} : lenN (@nil A) = 0.
Proof. reflexivity. Qed.
Ltac len :=
  repeat match goal with
  | H : context [lenN (_ ++ _)] |- _ => rewrite lenN_app in H
  | H : context [lenN (_ :: _)] |- _ => rewrite lenN_cons in H
  | H : context [lenN []] |- _ => rewrite lenN_nil in H
  end; repeat first [rewrite lenN_app | rewrite lenN_cons | rewrite lenN_nil]; lia.

Lemma wp_is_null w (b : bool) s (Q : bool -> st -> Prop) :
  match w with Null => b = true | At _ => b = false | Undef => False end -> Q b s -> wp (is_null w) s Q.
Proof. destruct w; [tauto|..]; intros -> H; now apply wp_ret. Qed.
Lemma wp_is_null_opt o s (Q : bool -> st -> Prop) :
  Q (match o with None => true | Some _ => false end) s -> wp (is_null (wopt o)) s Q.
Proof. intro H. eapply wp_is_null; [|exact H]. destruct o; reflexivity. Qed.
Lemma wp_rType n t s (Q : jtype -> st -> Prop) : nType n = Some t -> Q t s -> wp (rType n) s Q.
Proof. intros E H. unfold rType. rewrite E. now apply (wp_lift (Ok t) t). Qed.
Lemma wp_rLen n l s (Q : N -> st -> Prop) : nLen n = Some l -> Q l s -> wp (rLen n) s Q.
Proof. intros E H. unfold rLen. rewrite E. now apply (wp_lift (Ok l) l). Qed.
Lemma wp_rKeyLen n l s (Q : N -> st -> Prop) : nKeyLen n = Some l -> Q l s -> wp (rKeyLen n) s Q.
Proof. intros E H. unfold rKeyLen. rewrite E. now apply (wp_lift (Ok l) l). Qed.

Lemma loop_root (fuel : nat) root str m s (Q : unit -> st -> Prop) : Q tt s ->
  wp (stringify_loop fuel root str m root) s Q.
Proof. intro H. destruct fuel; simpl; rewrite addr_eqb_refl; now apply wp_ret. Qed.

Section Str.
Variables (Dv : addr -> Prop) (s0 : st) (F : dom) (root str : addr) (A I0 K0 L : N).
Hypothesis W : wfst s0.
Hypothesis R : rep none s0 F.
Hypothesis WF : wfdom F.
Hypothesis Al : alive s0 A.
Hypothesis HI : I0 <= two30.
Hypothesis HL : usedA s0 A + K0 + 4 * L <= two30.

Definition SB (s : st) (out : bytes) : Prop := sbx none Dv A I0 K0 s0 s str out.

Lemma SB_ext s out : SB s out -> exists k, ext none Dv (at_ A k) s0 s.
Proof. intros (d & size & B). eexists. apply (sb_ext _ _ _ _ _ _ _ _ _ _ _ B). Qed.
Lemma SB_node s out a f : SB s out -> F a = Some f -> exists n, snodes s a = Some n /\ rep_node s0 n f.
Proof.
  intros B Ha. destruct (SB_ext s out B) as [k X]. destruct (R a f Ha) as (n & Hn & Hr); [unfold none; tauto|].
  exists n. split; auto. apply (x_nodes _ _ _ _ _ X); auto.
Qed.
Lemma SB_load s out p b (Q : bytes -> st -> Prop) : SB s out -> safetext s0 p b -> Q b s ->
  wp (load_w (At p) (lenN b)) s Q.
Proof.
  intros B H HQ. destruct (SB_ext s out B) as [k X]. unfold load_w. apply wp_bind, wp_deref.
  apply (wp_load _ _ b); auto. apply (safetext_ext _ _ _ _ _ _ _ X H).
Qed.
Lemma SB_char s out c (Q : unit -> st -> Prop) : SB s out -> lenN out + 1 <= L ->
  (forall s', SB s' (out ++ [c]) -> Q tt s') -> wp (zj_appendChar str c) s Q.
Proof.
  intros B H K. eapply wp_mono; [eapply appendChar_sb; eauto; lia|]. intros [] s' [H' _]. exact (K s' H').
Qed.
Lemma SB_str s out b (Q : unit -> st -> Prop) : SB s out -> lenN out + lenN b <= L ->
  (forall s', SB s' (out ++ b) -> Q tt s') -> wp (zj_appendStr str b) s Q.
Proof.
  intros B H K. eapply wp_mono; [eapply appendStr_sb; eauto; lia|]. intros [] s' [H' _]. exact (K s' H').
Qed.

Lemma str_key s out a f : SB s out -> F a = Some f -> lenN out + lenN (key_text (fkey f)) <= L ->
  wp (stringify_key str a) s (fun _ s' => SB s' (out ++ key_text (fkey f))).
Proof.
  intros B Ha HL'. destruct (SB_node _ _ _ _ B Ha) as (n & Hn & Hr). unfold stringify_key.
  apply wp_bind, (wp_getNode _ n); auto. pose proof (r_key _ _ _ Hr) as K.
  destruct (fkey f) as [k|]; simpl in K.
  - destruct K as (p & E1 & E2 & S). rewrite E1. apply wp_bind, wp_ret. cbv iota. cbn [key_text] in *.
    eapply wp_bind, SB_char; [eauto|len|]. intros s1 B1.
    apply wp_bind, (wp_rKeyLen _ (lenN k)); auto.
    apply wp_bind, (SB_load _ _ _ k _ B1); auto.
    eapply wp_bind, SB_str; [eauto|len|]. intros s2 B2.
    eapply SB_str; [eauto|len|]. intros s3 B3.
    now rewrite <- !app_assoc in B3.
  - rewrite K. apply wp_bind, wp_ret. cbv iota. apply wp_ret. simpl. now rewrite app_nil_r.
Qed.

Definition vtext (v : fval) : bytes :=
  match v with
  | VNull => txt "null"
  | VBool b => bool_text b
  | VNum t => t
  | VStr t => 34 :: t ++ [34]
  | VCont ob [] => [opener ob; closer ob]
  | VCont ob _ => [opener ob]
  end.
Definition vdown (v : fval) : option addr :=
  match v with VCont _ (c :: _) => Some c | _ => None end.

Lemma str_switch s out a f : SB s out -> F a = Some f -> lenN out + lenN (vtext (fvalue f)) <= L ->
  wp (stringify_switch str a) s (fun r s' => r = vdown (fvalue f) /\ SB s' (out ++ vtext (fvalue f))).
Proof.
  intros B Ha HL'. destruct (SB_node _ _ _ _ B Ha) as (n & Hn & Hr). unfold stringify_switch.
  apply wp_bind, (wp_getNode _ n); auto. pose proof (r_val _ _ _ Hr) as K.
  assert (Sc : forall t b, rep_text s0 n t b -> t <> TString -> t <> TArray -> t <> TObject ->
     lenN out + lenN b <= L ->
     wp (l <- rLen n ;; b <- load_w (nVal n) l ;; zj_appendStr str b ;;; ret (@None addr)) s
        (fun r s' => r = None /\ SB s' (out ++ b))).
  { intros t b (E1 & E2 & p & E3 & S) _ _ _ Hb. apply wp_bind, (wp_rLen _ (lenN b)); auto. rewrite E3.
    apply wp_bind, (SB_load _ _ _ b _ B); auto.
    eapply wp_bind, SB_str; [eauto|auto|]. intros s1 B1. apply wp_ret. auto. }
  destruct (fvalue f) as [|b|t|t|ob kids]; cbn [rep_val vdown vtext] in *.
  - apply wp_bind, (wp_rType _ TNull); [apply K|]. cbv iota. eapply Sc; eauto; discriminate.
  - apply wp_bind, (wp_rType _ TBool); [apply K|]. cbv iota. eapply Sc; eauto; discriminate.
  - apply wp_bind, (wp_rType _ TNumber); [apply K|]. cbv iota. eapply Sc; eauto; discriminate.
  - destruct K as (E1 & E2 & p & E3 & S). apply wp_bind, (wp_rType _ TString); auto. cbv iota.
    eapply wp_bind, SB_char; [eauto|len|]. intros s1 B1.
    apply wp_bind, (wp_rLen _ (lenN t)); auto. rewrite E3.
    apply wp_bind, (SB_load _ _ _ t _ B1); auto.
    eapply wp_bind, SB_str; [eauto|len|]. intros s2 B2.
    eapply wp_bind, SB_char; [eauto|len|]. intros s3 B3.
    apply wp_ret. split; auto. now rewrite <- !app_assoc in B3.
  - destruct K as (E1 & E2 & E3). apply wp_bind, (wp_rType _ _ _ _ E1).
    destruct ob; cbv iota; cbn [opener closer] in *.
    + eapply wp_bind, SB_char; [eauto|destruct kids; len|]. intros s1 B1.
      apply wp_bind, (wp_rLen _ (lenN kids)); auto. destruct kids as [|c kids].
      * change (lenN (@nil addr) =? 0) with true. cbv iota.
        eapply wp_bind, SB_char; [eauto|len|]. intros s2 B2. apply wp_ret. split; auto.
        now rewrite <- app_assoc in B2.
      * replace (lenN (c :: kids) =? 0) with false by (symmetry; bools; len). cbv iota. rewrite E2.
        apply wp_bind, wp_deref, wp_ret. auto.
    + eapply wp_bind, SB_char; [eauto|destruct kids; len|]. intros s1 B1. rewrite E2.
      apply wp_bind, wp_is_null_opt. destruct kids as [|c kids]; cbn [hd_error].
      * eapply wp_bind, SB_char; [eauto|len|]. intros s2 B2. apply wp_ret. split; auto.
        now rewrite <- app_assoc in B2.
      * apply wp_bind, wp_deref, wp_ret. auto.
Qed.

(** One trip around the loop. *)
Lemma loop_item fuel a f s out Q : a <> root -> SB s out -> F a = Some f ->
  lenN out + lenN (key_text (fkey f) ++ vtext (fvalue f)) <= L ->
  (forall s', SB s' (out ++ key_text (fkey f) ++ vtext (fvalue f)) ->
     match vdown (fvalue f) with
     | Some c => wp (stringify_loop fuel root str Item c) s' Q
     | None => wp (stringify_loop fuel root str Close a) s' Q
     end) ->
  wp (stringify_loop (S fuel) root str Item a) s Q.
Proof.
  intros Hr B Ha HL' H. simpl. rewrite addr_eqb_neq by auto.
  eapply wp_seq; [eapply str_key; eauto; len|]. intros ? s1 B1. cbv beta in B1.
  eapply wp_seq; [eapply str_switch; eauto; len|]. intros r s2 [-> B2].
  rewrite <- app_assoc in B2. specialize (H s2 B2). destruct (vdown (fvalue f)); auto.
Qed.
Lemma loop_next fuel a f c s out Q : a <> root -> SB s out -> F a = Some f -> fnext f = Some c -> lenN out + 1 <= L ->
  (forall s', SB s' (out ++ [44]) -> wp (stringify_loop fuel root str Item c) s' Q) ->
  wp (stringify_loop (S fuel) root str Close a) s Q.
Proof.
  intros Hr B Ha Hf HL' H. simpl. rewrite addr_eqb_neq by auto.
  destruct (SB_node _ _ _ _ B Ha) as (n & Hn & Hrn). apply wp_bind, (wp_getNode _ n); auto.
  rewrite (r_next _ _ _ Hrn), Hf. apply wp_bind, wp_ret. cbn [negb].
  eapply wp_bind, SB_char; [eauto|auto|]. intros s1 B1.
  apply wp_bind, wp_deref. auto.
Qed.
Lemma loop_up fuel a f p fp ob kids s out Q : a <> root -> SB s out -> F a = Some f -> fnext f = None ->
  fpar f = Some p -> F p = Some fp -> fvalue fp = VCont ob kids -> lenN out + 1 <= L ->
  (forall s', SB s' (out ++ [closer ob]) -> wp (stringify_loop fuel root str Close p) s' Q) ->
  wp (stringify_loop (S fuel) root str Close a) s Q.
Proof.
  intros Hr B Ha Hf Hp Hfp Hv HL' H. simpl. rewrite addr_eqb_neq by auto.
  destruct (SB_node _ _ _ _ B Ha) as (n & Hn & Hrn). apply wp_bind, (wp_getNode _ n); auto.
  rewrite (r_next _ _ _ Hrn), (r_par _ _ _ Hrn), Hf, Hp. apply wp_bind, wp_ret. cbn [negb].
  apply wp_bind, wp_deref. destruct (SB_node _ _ _ _ B Hfp) as (m & Hm & Hrm).
  apply wp_bind, (wp_getNode _ m); auto. pose proof (r_val _ _ _ Hrm) as K. rewrite Hv in K.
  destruct K as (E1 & _). apply wp_bind, (wp_rType _ _ _ _ E1).
  eapply wp_bind, SB_char; [eauto|auto|]. intros s1 B1. apply H. destruct ob; exact B1.
Qed.

Lemma str_walk :
  (forall a j, reads F a j -> forall f, F a = Some f -> (forall b, below F a b -> b <> root) ->
     forall fuel out s Q, SB s out -> lenN out + lenN (item_text (fkey f, j)) <= L ->
     (forall s', SB s' (out ++ item_text (fkey f, j)) -> wp (stringify_loop fuel root str Close a) s' Q) ->
     wp (stringify_loop (jsteps j + fuel) root str Item a) s Q) /\
  (forall kids items, readsL F kids items -> forall c r, kids = c :: r ->
     forall p fp ob l, chain F p ob kids -> F p = Some fp -> fvalue fp = VCont ob l ->
     (forall x b, In x kids -> below F x b -> b <> root) ->
     forall fuel out s Q, SB s out -> lenN out + lenN (commas (map item_text items)) + 1 <= L ->
     (forall s', SB s' (out ++ commas (map item_text items) ++ [closer ob]) ->
        wp (stringify_loop fuel root str Close p) s' Q) ->
     wp (stringify_loop (isteps items + fuel) root str Item c) s Q).
Proof.
  apply reads_mutind.
  - intros a f Ha Hv f' Ha' Hr fuel out s Q B Hl H. rewrite Ha in Ha'. injection Ha' as <-.
    apply (loop_item fuel a f s out Q (Hr a (bl_self F a)) B Ha); rewrite Hv; auto.
  - intros a f b Ha Hv f' Ha' Hr fuel out s Q B Hl H. rewrite Ha in Ha'. injection Ha' as <-.
    apply (loop_item fuel a f s out Q (Hr a (bl_self F a)) B Ha); rewrite Hv; destruct b; auto.
  - intros a f b Ha Hv f' Ha' Hr fuel out s Q B Hl H. rewrite Ha in Ha'. injection Ha' as <-.
    apply (loop_item fuel a f s out Q (Hr a (bl_self F a)) B Ha); rewrite Hv; auto.
  - intros a f b Ha Hv f' Ha' Hr fuel out s Q B Hl H. rewrite Ha in Ha'. injection Ha' as <-.
    apply (loop_item fuel a f s out Q (Hr a (bl_self F a)) B Ha); rewrite Hv; auto.
  - intros a f ob kids items Ha Hv Hrl IH f' Ha' Hr fuel out s Q B Hl H. rewrite Ha in Ha'. injection Ha' as <-.
    destruct (WF a f Ha) as [Hc _]. destruct (Hc ob kids Hv) as [Hch _]. rewrite jsteps_container.
    unfold item_text in Hl, H. cbn [fst snd] in Hl, H.
    rewrite (print_container ob items (readsL_keyed _ _ _ _ _ Hch Hrl)) in Hl, H.
    apply (loop_item (isteps items + fuel) a f s out Q (Hr a (bl_self F a)) B Ha); rewrite Hv.
    + destruct kids; cbn [vtext]; [|len]. inversion Hrl; subst. exact Hl.
    + intros s' B'. destruct kids as [|c r]; cbn [vtext vdown] in *.
      * inversion Hrl; subst. simpl. apply H. exact B'.
      * apply (IH c r eq_refl a f ob (c :: r) Hch Ha Hv) with (out := out ++ key_text (fkey f) ++ [opener ob]); auto.
        -- intros x b Hx Hb. apply Hr. apply sbelow_below. exists f, ob, (c :: r), x. auto.
        -- len.
        -- intros s2 B2. apply H. rewrite <- !app_assoc in B2. exact B2.
  - intros; discriminate.
  - intros c r fc j items Hc Hrc IH1 Hrl IH2 c0 r0 E p fp ob l Hch Hp Hv Hr fuel out s Q B Hl H.
    injection E as <- <-. destruct Hch as [(fc' & E1 & E2 & E3 & E4) Hch]. rewrite Hc in E1. injection E1 as <-.
    unfold isteps. cbn [map list_sum]. change (list_sum (map (fun it => S (jsteps (snd it))) items)) with (isteps items).
    replace (list_sum (S (jsteps (snd (fkey fc, j))) :: map (fun it => S (jsteps (snd it))) items) + fuel)%nat
      with (jsteps j + S (isteps items + fuel))%nat
      by (unfold isteps; simpl; lia).
    cbn [map] in Hl, H.
    apply (IH1 fc Hc) with (out := out); auto.
    { intros b Hb. apply (Hr c b); auto. left; auto. }
    { destruct items; cbn [map commas] in Hl |- *; len. }
    intros s1 B1. assert (Hcr : c <> root) by (apply (Hr c c); [left; auto|constructor]).
    inversion Hrl; subst.
    + (* last *)
      simpl in E3. eapply (loop_up _ c fc p fp ob l); eauto.
      * cbn [map commas] in Hl. len.
      * intros s2 B2. simpl. apply H. cbn [map commas]. now rewrite <- app_assoc in B2.
    + simpl in E3. eapply (loop_next _ c fc c0); eauto.
      * cbn [map commas] in Hl. len.
      * intros s2 B2. eapply (IH2 c0 r0 eq_refl); eauto.
        -- intros x b Hx. apply Hr. right; auto.
        -- cbn [map commas] in Hl |- *. len.
        -- intros s3 B3. apply H. cbn [map commas] in B3 |- *. rewrite <- !app_assoc in B3. rewrite <- !app_assoc. exact B3.
Qed.
End Str.

(** ** The function *)
Lemma sbx_done Dn Dv A I0 K0 s0 s p out : sbx Dn Dv A I0 K0 s0 s p out ->
  wp (d <- zj_str p ;; ret (At d)) s (fun w s' => s' = s /\ exists d, w = At d /\ holds s d out /\
     inrA s A d (lenN out) /\ (forall i, i < lenN out -> wr s0 (offset d i)) /\
     ext Dn Dv (at_ A (K0 + 2 * (N.max I0 (2 * lenN out) - I0))) s0 s /\
     (scache s <> At p -> forall i, i < lenN out -> ~ cacheR s (offset d i))).
Proof.
  intros (d & size & [X Hz Hp0 Hp Hd Hw Hc Hh Hl Hm Hpos Hmx]). unfold zj_str.
  apply wp_bind, wp_bind, (wp_getZ _ _ _ _ Hz), wp_ret. cbn [zData]. apply wp_ret. split; auto.
  exists d. split; auto. split; auto. split; [eapply inrA_less; eauto|]. split; [intros i Hi; apply Hw; lia|].
  split; [eapply ext_more; eauto; lia|]. intros Nc i Hi. apply Hc; auto. lia.
Qed.

Lemma vtext_print F a f j : F a = Some f -> reads F a j -> vdown (fvalue f) = None -> print j = vtext (fvalue f).
Proof.
  intros Ha Hr Hd.
  inversion Hr as [x g Hx Hfv|x g b Hx Hfv|x g t Hx Hfv|x g t Hx Hfv|x g ob kids items Hx Hfv Hrl]; subst x;
    rewrite Ha in Hx; injection Hx as <-; rewrite Hfv in *; simpl in *; auto.
  - destruct kids; [|discriminate]. inversion Hrl. now destruct ob.
Qed.

(** The text is where nothing else is, also not the scratch string. *)
Lemma stringify_apart F s v a A j fuel : inv s F -> svals s v = Some (mkVal (At a) A) -> alive s A ->
  reads F a j -> (jsteps j <= fuel)%nat -> usedA s A + 1048 + 4 * (lenN (print j) + 1) <= two30 ->
  wp (zj_Stringify fuel v) s (fun w s' => exists d, w = At d /\ holds s' d (print j ++ [0]) /\
     inrA s' A d (lenN (print j) + 1) /\ (forall i, i < lenN (print j) + 1 -> wr s (offset d i)) /\
     ext none none (at_ A (1048 + 4 * (lenN (print j) + 1))) s s' /\
     ((forall q, scache s = At q -> ~ beyond s q) -> scache s' = scache s -> forall i, i < lenN (print j) + 1 -> ~ cacheR s' (offset d i))).
Proof.
  intros I Hv Ha Hr Hf Hu. destruct I as [W R WF]. unfold zj_Stringify.
  apply wp_bind, (wp_getVal _ _ _ _ Hv). cbn [vN vA]. apply wp_bind, wp_ret. cbv iota.
  eapply wp_seq; [eapply (newString_sb none none A zj_StringInitMemSize 0 s s); auto;
    [now apply ext_start|reflexivity|unfold zj_StringInitMemSize; lia]|].
  intros str s1 (B1 & Sm1 & Bs). apply wp_bind, wp_deref.
  set (K0 := 0 + (24 + zj_StringInitMemSize)) in *.
  set (L := lenN (print j) + 1) in *.
  assert (HI : zj_StringInitMemSize <= two30) by (unfold zj_StringInitMemSize, two30; lia).
  assert (HL : usedA s A + K0 + 4 * L <= two30) by (unfold K0, zj_StringInitMemSize; lia).
  assert (Hfin : forall s2, sbx none none A zj_StringInitMemSize K0 s s2 str (print j) ->
    wp (zj_appendEnd str ;;; d <- zj_str str ;; ret (At d)) s2 (fun w s' => exists d, w = At d /\
     holds s' d (print j ++ [0]) /\ inrA s' A d L /\ (forall i, i < L -> wr s (offset d i)) /\
     ext none none (at_ A (1048 + 4 * L)) s s' /\
     ((forall q, scache s = At q -> ~ beyond s q) -> scache s' = scache s -> forall i, i < L -> ~ cacheR s' (offset d i)))).
  { intros s2 B2. unfold zj_appendEnd.
    eapply wp_seq; [eapply appendChar_sb; eauto; fold L; lia|]. intros ? s3 [B3 _].
    eapply wp_mono; [eapply sbx_done; eauto|]. intros w s' (-> & d & -> & H1 & H2 & H3 & H4 & H5).
    rewrite lenN_app in H2, H3, H4, H5. exists d. split; auto. split; auto. split; auto. split; auto.
    change (lenN [0]) with 1 in H4, H5. fold L in H4, H5. split.
    - eapply ext_more; eauto. unfold K0, zj_StringInitMemSize. lia.
    - intros Lv Sc. apply H5. rewrite Sc. intro Eq. exact (Lv _ Eq Bs). }
  assert (Hex : exists f, F a = Some f) by (inversion Hr; subst; eauto). destruct Hex as [f Hx].
  destruct (vdown (fvalue f)) as [c|] eqn:Hd.
  - destruct (fvalue f) as [| | | |ob [|c' r]] eqn:Hfv; try discriminate. injection Hd as ->.
    destruct (WF a f Hx) as [Hc _]. destruct (Hc _ _ Hfv) as [Hch _].
    assert (Hit : exists items, j = container ob items /\ readsL F (c :: r) items).
    { inversion Hr as [x g Hx' Hv'|x g b Hx' Hv'|x g t Hx' Hv'|x g t Hx' Hv'|x g ob' kids items Hx' Hv' Hrl]; subst x;
        rewrite Hx in Hx'; injection Hx' as <-; rewrite Hfv in Hv'; try discriminate.
      injection Hv' as <- <-. exists items. auto. }
    destruct Hit as (items & Ej & Hrl).
    assert (Ep : print j = opener ob :: commas (map item_text items) ++ [closer ob])
      by (subst j; apply print_container; eapply readsL_keyed; eauto).
    eapply wp_seq.
    { eapply (str_switch none s F str A zj_StringInitMemSize K0 L); eauto.
      rewrite Hfv. simpl. unfold L. rewrite Ep. len. }
    intros ? s2 [-> B2]. rewrite Hfv in B2 |- *. cbn [vdown vtext] in B2 |- *.
    replace fuel with (isteps items + (fuel - isteps items))%nat
      by (pose proof (jsteps_container ob items) as J; rewrite <- Ej in J; lia).
    apply wp_bind.
    eapply (proj2 (str_walk none s F a str A zj_StringInitMemSize K0 L W R WF Ha HI HL)); eauto.
    + intros x b Hx' Hb ->. apply (proj1 (reads_acyclic F) a j Hr). exists f, ob, (c :: r), x. auto.
    + unfold L. rewrite Ep. len.
    + intros s3 B3. apply loop_root. apply Hfin. rewrite Ep. exact B3.
  - pose proof (vtext_print F a f j Hx Hr Hd) as Ev. eapply wp_seq.
    { eapply (str_switch none s F str A zj_StringInitMemSize K0 L); eauto. rewrite <- Ev. unfold L. len. }
    intros ? s2 [-> B2]. rewrite <- Ev in B2. rewrite Hd. apply wp_bind, loop_root. apply Hfin. exact B2.
Qed.
Lemma stringify_wp F s v a A j fuel : inv s F -> svals s v = Some (mkVal (At a) A) -> alive s A ->
  reads F a j -> (jsteps j <= fuel)%nat -> usedA s A + 1048 + 4 * (lenN (print j) + 1) <= two30 ->
  wp (zj_Stringify fuel v) s (fun w s' => exists d, w = At d /\ holds s' d (print j ++ [0]) /\
     inrA s' A d (lenN (print j) + 1) /\ (forall i, i < lenN (print j) + 1 -> wr s (offset d i)) /\
     ext none none (at_ A (1048 + 4 * (lenN (print j) + 1))) s s').
Proof.
  intros I Hv Ha Hr Hf Hu. eapply wp_mono; [exact (stringify_apart F s v a A j fuel I Hv Ha Hr Hf Hu)|].
  intros w s' (d & H1 & H2 & H3 & H4 & H5 & _). exists d. auto 6.
Qed.
End WithVol.
