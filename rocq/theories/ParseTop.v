(** zj_ParseFast, zj_ParseLen and zj_Parse on documents. *)
From Verif Require Import Base Spec Lex LexProofs Alloc AllocProofs Mem MemProofs Api PureParse Dom Steps StrBuf StringifyProofs ParseProofs.

Section WithVol.
Context {VV : vols}.

(** ** Replacing the value of one node by newly made nodes *)
Definition over (G F : dom) : dom := fun x => match G x with Some g => Some g | None => F x end.
Definition relink (f0 : fnode) (v : fval) : fnode := mkF (fkey f0) v (fpar f0) (fnext f0) (fprev f0) (fend_of v) false.

Section Merge.
Variables (F G : dom) (root : addr) (f0 : fnode) (v : fval).
Definition merged : dom := add (over G F) root (relink f0 v).
Hypothesis HG : forall a, G a <> None -> F a = None.
Hypothesis HGr : G root = None.
Hypothesis Hl : F root = None \/ exists f, F root = Some f /\ same_links f f0 /\ fprev f0 = fprev f.
Hypothesis Hf0 : fpar f0 = None -> fnext f0 = None /\ fprev f0 = None.

Lemma merged_root : merged root = Some (relink f0 v).
Proof. apply add_eq. Qed.
Lemma merged_new : submap G merged.
Proof. intros a g H. unfold merged. rewrite add_neq by congruence. unfold over. now rewrite H. Qed.
Lemma merged_old a f : F a = Some f -> a <> root -> merged a = Some f.
Proof.
  intros H N. unfold merged. rewrite add_neq by auto. unfold over. destruct (G a) eqn:E; auto.
  rewrite HG in H by congruence. discriminate.
Qed.
Lemma merged_inv a f : merged a = Some f ->
  (a = root /\ f = relink f0 v) \/ (a <> root /\ G a = Some f) \/ (a <> root /\ G a = None /\ F a = Some f).
Proof.
  unfold merged, add. destruct (addr_eqb_spec a root) as [->|N]; [left; split; auto; congruence|].
  unfold over. destruct (G a) eqn:E; auto.
Qed.
Lemma merged_links c f : F c = Some f -> exists f', merged c = Some f' /\ same_links f f' /\ fprev f' = fprev f.
Proof.
  intro H. destruct (addr_eqb_spec c root) as [->|N].
  - exists (relink f0 v). split; [apply merged_root|]. destruct Hl as [E|(f1 & E & K1 & K2)]; [congruence|].
    assert (f1 = f) by congruence. subst f1. auto.
  - exists f. split; [now apply merged_old|]. repeat split.
Qed.
Lemma merged_wfdom : wfdom F -> wfdom G ->
  (forall ob kids, v = VCont ob kids -> chain G root ob kids /\ lenN kids < two32) -> wfdom merged.
Proof.
  intros DF DG Hv a f Ha. apply merged_inv in Ha as [(-> & ->)|[(N & H)|(N & HG0 & H)]].
  - simpl. split; auto. intros ob kids E. destruct (Hv ob kids E) as [H1 H2]. split; auto.
    eapply chain_submap; eauto using merged_new.
  - destruct (DG a f H) as [D1 D2]. split; auto. intros ob kids E. destruct (D1 ob kids E). split; auto.
    eapply chain_submap; eauto using merged_new.
  - destruct (DF a f H) as [D1 D2]. split; auto. intros ob kids E. destruct (D1 ob kids E). split; auto.
    eapply chain_links; [|eassumption]. intros c fc _ Hc. destruct (merged_links c fc Hc) as (f1 & K1 & K2 & _). eauto.
Qed.
Lemma merged_tidy_new : (forall a, tidy G a) -> (forall ob kids, v = VCont ob kids -> prevs G None kids) ->
  forall a, a = root \/ G a <> None -> tidy merged a.
Proof.
  intros T Hv a Ha f ob kids Hm E. apply merged_inv in Hm as [(-> & ->)|[(N & H)|(N & HG0 & H)]].
  - simpl in *. rewrite E. split; auto. eapply prevs_submap; eauto using merged_new.
  - destruct (T a f ob kids H E) as [T1 T2]. split; auto. eapply prevs_submap; eauto using merged_new.
  - destruct Ha; congruence.
Qed.
Lemma merged_tidy_old a : a <> root -> F a <> None -> tidy F a -> tidy merged a.
Proof.
  intros N Ha T f ob kids Hm E. apply merged_inv in Hm as [(-> & ->)|[(_ & H)|(_ & HG0 & H)]].
  - congruence.
  - exfalso. apply Ha. apply HG. congruence.
  - destruct (T f ob kids H E) as [T1 T2]. split; auto.
    eapply prevs_links; [|exact T2]. intros c fc _ Hc. destruct (merged_links c fc Hc) as (f1 & K1 & _ & K2). eauto.
Qed.
Lemma merged_closed : wfdom G -> (forall ob kids, v = VCont ob kids -> chain G root ob kids) ->
  forall x f ob kids c, merged x = Some f -> F x = None \/ x = root -> fvalue f = VCont ob kids -> In c kids -> F c = None.
Proof.
  intros DG Hv x f ob kids c Hm Hx E Hc. apply merged_inv in Hm as [(-> & ->)|[(N & H)|(N & HG0 & H)]].
  - simpl in E. destruct (chain_in _ _ _ _ _ (Hv _ _ E) Hc) as (g & G1 & _). apply HG. congruence.
  - destruct (DG x f H) as [D1 _]. destruct (D1 ob kids E) as [C _].
    destruct (chain_in _ _ _ _ _ C Hc) as (g & G1 & _). apply HG. congruence.
  - destruct Hx; congruence.
Qed.
Lemma merged_fresh (P : addr -> Prop) : (forall a, G a <> None -> P a) -> F root <> None \/ P root ->
  forall x, merged x <> None -> F x = None -> P x.
Proof.
  intros HP Hr x Hx Fx. destruct (merged x) as [f|] eqn:E; [|congruence].
  apply merged_inv in E as [(-> & _)|[(N & H)|(N & _ & H)]]; [tauto| |congruence]. apply HP. congruence.
Qed.
Lemma merged_reads j : vreads G root v j -> reads merged root j.
Proof.
  intro H. eapply vreads_reads; [apply merged_root|]. simpl. eapply vreads_submap; eauto using merged_new.
Qed.
Lemma merged_rep s s' rn (Dn Dv : addr -> Prop) c : rep none s F -> ext Dn Dv c s s' -> (forall a, Dn a -> a = root) -> rep none s' G ->
  snodes s' root = Some rn -> rep_key s' rn (fkey f0) -> rep_val s' rn v -> end_ok rn v ->
  nFather rn = wopt (fpar f0) -> nNext rn = wopt (fnext f0) -> nPrev rn = wopt (fprev f0) -> rep none s' merged.
Proof.
  intros RF X Hd RG Hrn Hk Hv He H1 H2 H3 a f Ha _.
  apply merged_inv in Ha as [(-> & ->)|[(N & H)|(N & HG0 & H)]].
  - exists rn. split; auto. constructor; simpl; auto; [|discriminate]. intros e Ee. eapply end_ok_fend; eauto.
  - apply RG; auto.
  - destruct (ext_rep _ _ _ _ _ _ _ X RF a f H) as (n & Hn & Hr); [|eauto].
    intros [[]|K]. apply N. auto.
Qed.
Lemma merged_off s s' rn (Dn Dv : addr -> Prop) c : inv s F -> ext Dn Dv c s s' -> (forall A, isvol A -> c A = 0) ->
  (forall a, G a <> None -> beyond s a) -> rep none s' G -> F root <> None \/ beyond s root -> snodes s' root = Some rn ->
  forall a, merged a <> None -> ~ vol s' (fst a).
Proof.
  intros I X Hc HB RG Hr Hrn a Ha. pose proof (i_wf _ _ I) as W.
  assert (Old : F a <> None -> ~ vol s' (fst a)).
  { intro Fa. apply (vol_ext _ _ _ _ _ _ X); [|now apply (i_off _ _ I)].
    destruct (F a) as [f|] eqn:E; [|congruence]. destruct (i_rep _ _ I a f E) as (n & Hn & _); [auto|]. eapply nodes_next; eauto. }
  assert (New : beyond s a -> snodes s' a <> None -> ~ vol s' (fst a)).
  { intros B Hn. eapply beyond_vol; eauto; [apply I|]. intros (_ & E & _). congruence. }
  destruct (merged a) as [f|] eqn:E; [|congruence].
  apply merged_inv in E as [(-> & _)|[(N & H)|(N & HG0 & H)]].
  - destruct Hr; auto. apply New; auto. congruence.
  - apply New; [apply HB; congruence|]. destruct (RG a f H) as (n & Hn & _); [auto|congruence].
  - apply Old. congruence.
Qed.
End Merge.
Lemma at_novol A k : ~ isvol A -> forall A', isvol A' -> at_ A k A' = 0.
Proof. intros N A' H. apply at_neq. congruence. Qed.

Definition wat (w : word) : addr -> Prop := fun a => w = At a.

(** What a successful parse of [j] into the handle [v] leaves. *)
Record parsed (s : st) (F : dom) (v : addr) (w : word) (A : N) (c : N -> N) (j : json) (s' : st) (F' : dom) (a : addr) : Prop := {
  pd_inv : inv s' F';
  pd_val : svals s' v = Some (mkVal (At a) A);
  pd_reads : reads F' a j;
  pd_at : w = At a \/ (w = Null /\ beyond s a);
  pd_ext : ext (wat w) (only v) c s s';
  pd_keep : w <> Null -> svals s' = svals s;
  pd_old : forall x f, F x = Some f -> x <> a -> F' x = Some f;
  pd_root : exists f', F' a = Some f' /\
    match F a with
    | Some f => same_links f f' /\ fprev f' = fprev f
    | None => fkey f' = None /\ fpar f' = None /\ fnext f' = None /\ fprev f' = None
    end;
  pd_tidy : forall x, F' x <> None -> F x = None \/ x = a -> tidy F' x;
  pd_tidy_old : forall x, F x <> None -> x <> a -> tidy F x -> tidy F' x;
  (* the children of the new nodes are new *)
  pd_closed : forall x f ob kids c, F' x = Some f -> F x = None \/ x = a -> fvalue f = VCont ob kids -> In c kids -> F c = None;
  pd_fresh : forall x, F' x <> None -> F x = None -> beyond s x
}.

Lemma text_at_ext Dn Dv c s s' a x r : ext Dn Dv c s s' -> sbytes s' = sbytes s -> text_at s a = x :: r ->
  text_at s' a = x :: r.
Proof.
  intros X E H. unfold text_at in *. destruct (sbsize s (fst a)) eqn:Eb; [|discriminate].
  rewrite (x_size _ _ _ _ _ X _ _ Eb), E. auto.
Qed.

Definition pf_post (s : st) (F : dom) (v : addr) (w : word) (A : N) (k : N) (o : option json) (b : bool) (s' : st) : Prop :=
  match o with
  | Some j => b = true /\ exists F' a, parsed s F v w A (at_ A k) j s' F' a
  | None => b = false /\ ext none none (at_ A k) s s'
  end.

(** The same with more known about the new document. *)
Definition pf_more (E : st -> dom -> addr -> Prop) (s : st) (F : dom) (v : addr) (w : word) (A : N) (k : N) (o : option json) (b : bool) (s' : st) : Prop :=
  match o with
  | Some j => b = true /\ exists F' a, parsed s F v w A (at_ A k) j s' F' a /\ E s' F' a
  | None => b = false /\ ext none none (at_ A k) s s'
  end.
Lemma pf_more_post E s F v w A k o b s' : pf_more E s F v w A k o b s' -> pf_post s F v w A k o b s'.
Proof. destruct o; cbn; auto. intros (-> & F' & a & H & _). eauto. Qed.
Lemma agree_weaken {X Y} (m : M X) s (r : res Y) (P Q : Y -> X -> st -> Prop) : agree m s r P -> (forall y x s', P y x s' -> Q y x s') -> agree m s r Q.
Proof. destruct r; cbn; auto. intros (x & s' & E & H) K. exists x, s'. auto. Qed.
(** Every number of the new document ends where the text says so. *)
Definition stopped (src : addr) (t slack : bytes) (F : dom) (s' : st) (F' : dom) (a : addr) : Prop := forall x f b n p,
  F' x = Some f -> F x = None \/ x = a -> fvalue f = VNum b -> snodes s' x = Some n -> nVal n = At p -> closed_at src t slack p b.
(** Every number of the new document is followed by a byte that is no part of a number, and stays so. *)
Definition finished (F : dom) (s' : st) (F' : dom) (a : addr) : Prop := forall x f b n p,
  F' x = Some f -> F x = None \/ x = a -> fvalue f = VNum b -> snodes s' x = Some n -> nVal n = At p ->
  exists c, stops c /\ safetext s' p (b ++ [c]).
Lemma stopped_finished src t slack F s' F' a : safetext s' src (t ++ [0]) -> stopped src t slack F s' F' a -> finished F s' F' a.
Proof.
  intros Sf H x f b n p H1 H2 H3 H4 H5. destruct (H x f b n p H1 H2 H3 H4 H5) as (c & r & Hc & pre & E & N0 & ->).
  exists c. split; auto.
  assert (K : exists t', t ++ [0] = pre ++ (b ++ [c]) ++ t').
  { rewrite app_assoc in E. symmetry in E. destruct (prefix_of_text _ _ _ _ _ E N0) as (t1 & Et). rewrite Et in E |- *.
    rewrite <- (app_assoc (pre ++ b) t1) in E. apply app_inv_head in E.
    destruct t1 as [|y t1]; cbn in E; injection E as -> E.
    - exists []. now rewrite !app_nil_r, <- app_assoc.
    - exists (t1 ++ [0]). rewrite <- !app_assoc. reflexivity. }
  destruct K as (t' & Et). rewrite Et in Sf. apply safetext_app in Sf as [_ Sf]. apply safetext_app in Sf as [Sf _].
  unfold pos_of. rewrite E, !app_length.
  replace (N.of_nat (length pre + (length b + length (c :: r))) - N.of_nat (length b + length (c :: r))) with (N.of_nat (length pre)) by lia.
  exact Sf.
Qed.
Lemma merged_stopped src t slack F G root f0 v s' rn : nums src t slack s' G ->
  snodes s' root = Some rn -> (forall b q, v = VNum b -> nVal rn = At q -> closed_at src t slack q b) ->
  stopped src t slack F s' (merged F G root f0 v) root.
Proof.
  intros HN Hr Hv x f b n p H1 H2 H3 H4 H5.
  apply merged_inv in H1 as [(-> & ->)|[(N & H)|(N & HG0 & H)]].
  - cbn in H3. apply Hv; auto. congruence.
  - exact (HN x f b n p H H3 H4 H5).
  - destruct H2; congruence.
Qed.

(** The part of zj_ParseFast after its prologue. *)
Definition pf_body (zn : bool) (A : N) (src root : addr) (reject : M bool) : M bool :=
  text <- readable src ;;
  let tot := N.of_nat (length text) in
  let fuel := (2 * length text + 2)%nat in
  sw <- parse_switch zn A src tot root text ;;
  r <- match sw with
       | Stop => ret None
       | Down n rest => parse_loop zn fuel A src tot root Item n rest
       | Break rest => parse_loop zn fuel A src tot root Item root rest
       end ;;
  match r with
  | None => reject
  | Some rest =>
      q <- lift (zj_peekAndConsume 0 rest) ;;
      if fst q then ret true else reject
  end.

Lemma bind_assoc_agree {X Y Z B} (m : M X) (f : X -> M Y) (g : Y -> M Z) s (r : res B) Q :
  agree (bind (bind m f) g) s r Q -> agree (bind m (fun x => bind (f x) g)) s r Q.
Proof.
  unfold agree, wp, bind. destruct r; auto.
  - intros (z & s' & E & H). exists z, s'. split; auto. destruct (m s) as [[x s2]|]; auto.
  - destruct (m s) as [[x s2]|]; auto.
Qed.
Lemma bind_assoc_agree' {X Y Z B} (m : M X) (f : X -> M Y) (g : Y -> M Z) s (r : res B) Q :
  agree (bind m (fun x => bind (f x) g)) s r Q -> agree (bind (bind m f) g) s r Q.
Proof.
  unfold agree, wp, bind. destruct r; auto.
  - intros (z & s' & E & H). exists z, s'. split; auto. destruct (m s) as [[x s2]|]; auto.
  - destruct (m s) as [[x s2]|]; auto.
Qed.
Lemma rbind_assoc {X Y Z} (m : res X) (f : X -> res Y) (g : Y -> res Z) :
  rbind (rbind m f) g = rbind m (fun x => rbind (f x) g).
Proof. destruct m; reflexivity. Qed.

Lemma pf_body_agree zn s1 root src A rn1 t slack reject Q :
  wfst s1 -> alive s1 A -> snodes s1 root = Some rn1 -> safetext s1 src t ->
  usedA s1 A + 72 * (lenN t + 1) <= two30 -> text_at s1 src = t ++ 0 :: slack ->
  (forall s', pext s1 root A (lenN t) s' -> wp reject s' (Q None)) ->
  (forall j s' G rn v, pext s1 root A (lenN t) s' -> rep none s' G -> wfdom G -> (forall a, tidy G a) ->
     (forall a, G a <> None -> beyond s1 a) -> snodes s' root = Some rn -> links rn1 rn ->
     rep_val s' rn v -> end_ok rn v -> vreads G root v j -> nums src t slack s' G ->
     (forall b q, v = VNum b -> nVal rn = At q -> closed_at src t slack q b) -> Q (Some j) true s') ->
  agree (pf_body zn A src root reject) s1 (ptop (t ++ 0 :: slack)) Q.
Proof.
  intros W Al Hr Ht Hu Htx Hrej Hok. unfold pf_body, ptop.
  assert (More : forall c s', c <= lenN t -> pext s1 root A c s' -> pext s1 root A (lenN t) s').
  { intros c s' Hc [X M]. split; [|auto]. eapply ext_more; eauto. lia. }
  eapply agree_pre; [apply wp_readable; auto|]. rewrite Htx. cbv zeta.
  apply bind_assoc_agree. rewrite <- rbind_assoc. apply agree_bind.
  eapply agree_mono; [eapply (body_agree zn s1 root src A rn1 t slack); eauto|].
  intros [[j rest]|] r s' _ H; cbn [loop_post] in H.
  - destruct H as (-> & c & G & rn & v & Hc & X & RG & DG & TG & NG & Hrn & L & Hv & He & Hj & HN & Ho).
    apply agree_bind. apply agree_lift. intros [b r2] E0. apply agree_ok. cbn [fst].
    destruct b; [|apply Hrej; eauto]. apply wp_ret. eapply Hok; eauto.
    intros b q Ev Eq. apply pac_inv in E0 as (w & Hw & ->). eapply open_closed; [exact Hw| |exact (Ho b q Ev Eq)].
    unfold stops. auto.
  - destruct H as (-> & c & Hc & X). apply agree_ok. apply Hrej. eauto.
Qed.

Lemma parse_fast_more zn s F v w A src t slack : inv s F -> handle s F v w A ->
  text_at s src = t ++ 0 :: slack -> safetext s src t -> usedA s A + 72 * (lenN t + 2) <= two30 ->
  agree (parse_fast zn v src) s (ptop (t ++ 0 :: slack)) (pf_more (stopped src t slack F) s F v w A (72 * (lenN t + 2))).
Proof.
  intros I (Hv & [Al NA] & Hw) Htx Ht Hu. unfold parse_fast.
  pose proof (i_wf _ _ I) as W.
  eapply agree_pre; [eapply wp_getVal; [exact Hv|]; auto|]. cbn [vN vA].
  assert (Htx' : exists x r, t ++ 0 :: slack = x :: r) by (destruct t; simpl; eauto).
  destruct Htx' as (x0 & r0 & Etx).
  destruct Hw as [->|(a & -> & Ha)].
  - (* an empty value *)
    apply agree_wp with (P := fun o s1 => o = None /\ exists n, beyond s n /\
      ext none (only v) (at_ A 72) s s1 /\ sbytes s1 = sbytes s /\ svals s1 v = Some (mkVal (At n) A) /\
      (forall u, u <> v -> svals s1 u = svals s u) /\
      snodes s1 n = Some (wKey Null (wFather Null (wNext Null (wPrev Null blank_node)))) /\
      forall b, b <> n -> snodes s1 b = snodes s b).
    { eapply wp_seq; [eapply (newNode_step none (only v) A 0 s s); auto; [now apply ext_start|lia]|].
      intros n s1 (X1 & B & U1).
      assert (V1 : svals s1 = svals s) by apply U1.
      eapply wp_seq with (P := fun _ s2 => ext none (only v) (at_ A 72) s s2 /\
         s2 = set_vals (upd (svals s1) v (mkVal (At n) A)) s1).
      { apply wp_putVal. split; auto. apply ext_putVal; auto; [right; reflexivity|]. left. congruence. }
      intros [] s2 (X2 & E2).
      assert (N2 : snodes s2 n = Some blank_node) by (rewrite E2; apply U1).
      eapply wp_seq; [eapply modNode_step; eauto|]. intros [] s3 (X3 & U3).
      eapply wp_seq; [eapply modNode_step; eauto; apply U3|]. intros [] s4 (X4 & U4).
      eapply wp_seq; [eapply modNode_step; eauto; apply U4|]. intros [] s5 (X5 & U5).
      eapply wp_seq; [eapply modNode_step; eauto; apply U5|]. intros [] s6 (X6 & U6).
      assert (U := nupd_trans _ _ _ _ _ _ U3 (nupd_trans _ _ _ _ _ _ U4 (nupd_trans _ _ _ _ _ _ U5 U6))).
      apply wp_ret. split; auto. exists n. split; auto. split; auto.
      pose proof (nu_mch _ _ _ _ U) as [Mb Mv _ _ _]. pose proof (nu_mch _ _ _ _ U1) as [Mb1 _ _ _ _].
      split; [rewrite Mb, E2; exact Mb1|].
      split; [rewrite Mv, E2; simpl; apply upd_eq|].
      split; [intros u Hu'; rewrite Mv, E2; simpl; rewrite upd_neq by auto; now rewrite V1|].
      split; [apply U|].
      intros b Hb. rewrite (nu_neq _ _ _ _ U), E2 by auto. simpl. now apply U1. }
    intros ? s1 (-> & n & B & X1 & Mb & Hv1 & Vo & Hn & No).
    eapply agree_pre; [eapply wp_getVal; [exact Hv1|]; auto|].
    eapply agree_pre; [apply wp_deref; auto|]. cbv zeta. cbn [vA].
    pose proof (x_used _ _ _ _ _ X1 A) as Us. rewrite at_eq in Us.
    eapply (pf_body_agree zn s1 n src A _ t slack); eauto.
    + apply X1.
    + now apply (x_alive _ _ _ _ _ X1).
    + eapply safetext_ext; eauto.
    + lia.
    + rewrite Etx in *. eapply text_at_ext; eauto.
    + intros s2 (X2 & M2 & N2). apply wp_bind, wp_putVal, wp_ret. split; auto.
      assert (V2 : svals s2 v = Some (mkVal (At n) A)) by (rewrite (mc_vals _ _ M2); auto).
      assert (X3 : ext (only n) (only v) (at_ A (72 + 72 * lenN t)) s (set_vals (upd (svals s2) v (mkVal Null A)) s2)).
      { apply ext_putVal; [|right; reflexivity|left; congruence]. eapply ext_then; [eapply ext_weaken; [exact X1|..]|eapply ext_weaken; [exact X2|..]];
          auto; unfold none; intros; try tauto; lia. }
      eapply ext_clean; [eapply ext_more; [exact X3|lia]| | |intro; apply addr_dec|intro; apply addr_dec].
      * intros b m Hb Eb _. red in Eb. subst b. exfalso. apply (beyond_nothing s n W) in B as (_ & B & _). congruence.
      * intros b m Hb Eb _. red in Eb. subst b. simpl. rewrite upd_eq. congruence.
    + intros j s2 G rn vv (X2 & M2 & N2) RG DG TG NG Hrn L Hvv He Hj HN Ho. split; auto.
      set (f0 := mkF None VNull None None None None false).
      assert (NG' : forall a, G a <> None -> F a = None).
      { intros b Hb. apply (inv_beyond s F b I). exact (beyond_ext _ _ _ _ _ b X1 (NG b Hb)). }
      assert (Gn : G n = None).
      { destruct (G n) eqn:E; auto. assert (Bn : beyond s1 n) by (apply NG; congruence).
        apply (beyond_nothing s1 n (x_wf _ _ _ _ _ X1)) in Bn as (_ & Bn & _). congruence. }
      assert (Fn : F n = None) by exact (inv_beyond s F n I B).
      assert (X3 : ext (only n) (only v) (at_ A (72 * (lenN t + 2))) s s2).
      { eapply ext_more with (k := 72 + 72 * lenN t); [|lia].
        eapply ext_then; [eapply ext_weaken; [exact X1|..]|eapply ext_weaken; [exact X2|..]]; auto; unfold none; intros; try tauto; lia. }
      destruct L as (L1 & L2 & L3 & L4 & L5).
      exists (merged F G n f0 vv), n. split; [|eapply merged_stopped; eauto]. constructor.
      * constructor; [apply X3| | |eapply wfvol_ext; [exact X3|apply I]|].
        -- eapply (merged_rep F G n f0 vv s s2 rn); eauto; apply I.
        -- apply merged_wfdom; auto; [apply I|]. intros ob kids ->. destruct Hj as (? & _ & _ & ? & ? & _). auto.
        -- eapply (merged_off F G n f0 vv s s2 rn); eauto; [now apply at_novol|].
           intros b Hb. exact (beyond_ext _ _ _ _ _ b X1 (NG b Hb)).
      * rewrite (mc_vals _ _ M2). auto.
      * now apply merged_reads.
      * auto.
      * eapply ext_clean; [exact X3| | |intro; apply addr_dec|intro; apply addr_dec]; [|intros ? ? ? ? H; now elim H].
        intros b m Hb Eb _. red in Eb. subst b. exfalso. apply (beyond_nothing s n W) in B as (_ & B & _). congruence.
      * congruence.
      * intros x f Hx Nx. now apply merged_old.
      * exists (relink f0 vv). split; [apply merged_root|]. rewrite Fn. auto.
      * intros x Hx Hx'. apply merged_tidy_new; auto.
        -- intros ob kids ->. now destruct Hj as (? & _ & _ & _ & _ & ?).
        -- destruct Hx' as [Hx'|]; auto. destruct (G x) eqn:E; [right; discriminate|left].
           destruct (merged F G n f0 vv x) eqn:E'; [|congruence].
           apply merged_inv in E' as [(? & _)|[(_ & ?)|(_ & _ & ?)]]; congruence.
      * intros x Hx Nx T. apply merged_tidy_old; auto.
      * apply merged_closed; auto. intros ob kids ->. now destruct Hj as (? & _ & _ & ? & _).
      * apply merged_fresh; auto. intros b Hb. exact (beyond_ext _ _ _ _ _ b X1 (NG b Hb)).
  - (* an existing node *)
    destruct (F a) as [f0|] eqn:Fa; [|congruence].
    destruct (i_rep _ _ I a f0 Fa) as (n0 & Hn0 & R0); [auto|].
    apply agree_wp with (P := fun o s1 => exists p, o = Some p /\ beyond s p /\
      ext none none (at_ A 72) s s1 /\ nupd s s1 p n0).
    { eapply wp_seq; [eapply (newNode_step none none A 0 s s); auto; [now apply ext_start|lia]|].
      intros p s1 (X1 & B & U1).
      assert (Nap : a <> p).
      { intros ->. apply (beyond_nothing s p W) in B as (_ & B & _). congruence. }
      eapply wp_seq with (P := fun x s2 => x = n0 /\ s2 = s1); [eapply wp_getNode; [|auto]|].
      { rewrite (nu_neq _ _ _ _ U1); eauto. }
      intros ? ? [-> ->].
      eapply wp_seq; [eapply putNode_step; eauto|].
      { rewrite (nu_eq _ _ _ _ U1). discriminate. }
      intros [] s2 (X2 & U2). apply wp_ret. exists p. split; auto. split; auto. split; auto.
      eapply nupd_trans; eauto. }
    intros ? s1 (p & -> & B & X1 & U1).
    assert (Nap : a <> p).
    { intros ->. apply (beyond_nothing s p W) in B as (_ & B & _). congruence. }
    pose proof (nu_mch _ _ _ _ U1) as M1.
    assert (Hv1 : svals s1 v = Some (mkVal (At a) A)) by (rewrite (mc_vals _ _ M1); auto).
    assert (Ha1 : snodes s1 a = Some n0) by (rewrite (nu_neq _ _ _ _ U1); auto).
    eapply agree_pre; [eapply wp_getVal; [exact Hv1|]; auto|].
    eapply agree_pre; [apply wp_deref; auto|]. cbv zeta. cbn [vA].
    pose proof (x_used _ _ _ _ _ X1 A) as Us. rewrite at_eq in Us.
    eapply (pf_body_agree zn s1 a src A _ t slack); eauto.
    + apply X1.
    + now apply (x_alive _ _ _ _ _ X1).
    + eapply safetext_ext; eauto.
    + lia.
    + rewrite Etx in *. eapply text_at_ext; eauto. apply M1.
    + intros s2 (X2 & M2 & N2).
      assert (Hp2 : snodes s2 p = Some n0).
      { apply (x_nodes _ _ _ _ _ X2); [apply U1|]. intro H. red in H. congruence. }
      eapply wp_seq with (P := fun x s3 => x = n0 /\ s3 = s2); [eapply wp_getNode; eauto|]. intros ? ? [-> ->].
      assert (X3 : ext (only a) none (at_ A (72 + 72 * lenN t)) s s2).
      { eapply ext_then; [eapply ext_weaken; [exact X1|..]|exact X2]; auto; unfold none; intros; try tauto; lia. }
      eapply wp_seq; [eapply putNode_step; [exact X3| |right; reflexivity|exact W]|].
      { exact N2. }
      intros [] s3 (X4 & U4). apply wp_ret. split; auto.
      eapply ext_clean; [eapply ext_more; [exact X4|lia]| | |intro; apply addr_dec|intro; right; auto].
      * intros b m Hb Eb _. red in Eb. subst b. rewrite (nu_eq _ _ _ _ U4). congruence.
      * intros b m Hb [].
    + intros j s2 G rn vv (X2 & M2 & N2) RG DG TG NG Hrn L Hvv He Hj HN Ho. split; auto.
      assert (NG' : forall a, G a <> None -> F a = None).
      { intros b Hb. apply (inv_beyond s F b I). exact (beyond_ext _ _ _ _ _ b X1 (NG b Hb)). }
      assert (Gn : G a = None).
      { destruct (G a) eqn:E; auto. rewrite NG' in Fa by congruence. discriminate. }
      assert (X3 : ext (only a) none (at_ A (72 * (lenN t + 2))) s s2).
      { eapply ext_more with (k := 72 + 72 * lenN t); [|lia].
        eapply ext_then; [eapply ext_weaken; [exact X1|..]|exact X2]; auto; unfold none; intros; try tauto; lia. }
      destruct L as (L1 & L2 & L3 & L4 & L5).
      assert (Hl : F a = None \/ exists f, F a = Some f /\ same_links f f0 /\ fprev f0 = fprev f).
      { right. exists f0. repeat split; auto. }
      exists (merged F G a f0 vv), a. split; [|eapply merged_stopped; eauto]. constructor.
      * constructor; [apply X3| | |eapply wfvol_ext; [exact X3|apply I]|].
        -- eapply (merged_rep F G a f0 vv s s2 rn); eauto; [apply I| | | | ]; try (rewrite ?L3, ?L4, ?L5; apply R0).
           eapply (rep_key_mch s s2 n0); [eapply mch_trans; eauto|repeat split; auto|]. apply R0.
        -- apply merged_wfdom; auto; [|apply I|].
           ++ intro H. apply (i_dom _ _ I a f0 Fa). auto.
           ++ intros ob kids ->. destruct Hj as (? & _ & _ & ? & ? & _). auto.
        -- eapply (merged_off F G a f0 vv s s2 rn); eauto; [now apply at_novol| |left; congruence].
           intros b Hb. exact (beyond_ext _ _ _ _ _ b X1 (NG b Hb)).
      * rewrite (mc_vals _ _ M2). auto.
      * now apply merged_reads.
      * auto.
      * eapply ext_weaken; [exact X3|..]; unfold none; intros; try tauto; try lia. red in H. subst. reflexivity.
      * intros _. rewrite (mc_vals _ _ M2). apply M1.
      * intros x f Hx Nx. now apply merged_old.
      * exists (relink f0 vv). split; [apply merged_root|]. rewrite Fa. repeat split.
      * intros x Hx Hx'. apply merged_tidy_new; auto.
        -- intros ob kids ->. now destruct Hj as (? & _ & _ & _ & _ & ?).
        -- destruct Hx' as [Hx'|]; auto. destruct (G x) eqn:E; [right; discriminate|left].
           destruct (merged F G a f0 vv x) eqn:E'; [|congruence].
           apply merged_inv in E' as [(? & _)|[(_ & ?)|(_ & _ & ?)]]; congruence.
      * intros x Hx Nx T. apply merged_tidy_old; auto.
      * apply merged_closed; auto. intros ob kids ->. now destruct Hj as (? & _ & _ & ? & _).
      * apply merged_fresh; auto; [|left; now rewrite Fa]. intros b Hb. exact (beyond_ext _ _ _ _ _ b X1 (NG b Hb)).
Qed.

Lemma parseFast_more s F v w A src t slack : inv s F -> handle s F v w A ->
  text_at s src = t ++ 0 :: slack -> safetext s src t -> usedA s A + 72 * (lenN t + 2) <= two30 ->
  agree (zj_ParseFast v src) s (ptop (t ++ 0 :: slack)) (pf_more (stopped src t slack F) s F v w A (72 * (lenN t + 2))).
Proof. exact (parse_fast_more false s F v w A src t slack). Qed.
Lemma parseFast_agree s F v w A src t slack : inv s F -> handle s F v w A ->
  text_at s src = t ++ 0 :: slack -> safetext s src t -> usedA s A + 72 * (lenN t + 2) <= two30 ->
  agree (zj_ParseFast v src) s (ptop (t ++ 0 :: slack)) (pf_post s F v w A (72 * (lenN t + 2))).
Proof. intros. eapply agree_weaken; [apply parseFast_more; eassumption|]. intros y x s'. apply pf_more_post. Qed.
Lemma parse_fast_finished zn s F v w A src t slack : inv s F -> handle s F v w A ->
  text_at s src = t ++ 0 :: slack -> safetext s src (t ++ [0]) -> usedA s A + 72 * (lenN t + 2) <= two30 ->
  agree (parse_fast zn v src) s (ptop (t ++ 0 :: slack)) (pf_more (finished F) s F v w A (72 * (lenN t + 2))).
Proof.
  intros I H Ht Hs Hu. eapply agree_weaken; [eapply parse_fast_more; eauto; now apply safetext_app in Hs as [Hs _]|].
  intros [j|] b s'; cbn; auto. intros (-> & F' & a & P & E). split; auto. exists F', a. split; auto.
  eapply stopped_finished; [|exact E]. eapply safetext_ext; [apply P|auto].
Qed.
Lemma parseFast_finished s F v w A src t slack : inv s F -> handle s F v w A ->
  text_at s src = t ++ 0 :: slack -> safetext s src (t ++ [0]) -> usedA s A + 72 * (lenN t + 2) <= two30 ->
  agree (zj_ParseFast v src) s (ptop (t ++ 0 :: slack)) (pf_more (finished F) s F v w A (72 * (lenN t + 2))).
Proof. exact (parse_fast_finished false s F v w A src t slack). Qed.

(** ** zj_ParseLen and zj_Parse *)
Lemma parsed_before s s1 F v w A c c1 j s' F' a : ext none none c1 s s1 -> svals s1 = svals s ->
  parsed s1 F v w A c j s' F' a -> parsed s F v w A (addc c1 c) j s' F' a.
Proof.
  intros X Ev P. destruct P. constructor; auto.
  - destruct pd_at0 as [H|[H1 H2]]; auto. right. split; auto. exact (beyond_ext _ _ _ _ _ a X H2).
  - eapply ext_trans; [eapply ext_weaken; [exact X|..]|exact pd_ext0]; auto; unfold none; intros; try tauto; lia.
  - intro H. rewrite pd_keep0; auto.
  - intros x Hx Fx. exact (beyond_ext _ _ _ _ _ x X (pd_fresh0 x Hx Fx)).
Qed.
Lemma parsed_more s F v w A c c1 j s' F' a : parsed s F v w A c j s' F' a -> (forall x, c x <= c1 x) ->
  parsed s F v w A c1 j s' F' a.
Proof. intros P H. destruct P. constructor; auto. eapply ext_weaken; eauto. Qed.
Lemma split0 (l : bytes) : In 0 l -> exists t r, l = t ++ 0 :: r /\ ~ In 0 t.
Proof.
  induction l as [|x l IH]; [intros []|]. intro H. destruct (N.eq_dec x 0) as [->|N].
  - exists [], l. split; auto.
  - destruct IH as (t & r & -> & K); [destruct H; congruence || auto|].
    exists (x :: t), r. split; auto. intros [E|E]; auto.
Qed.

Definition len_cost (n : N) : N := n + 1 + 72 * (n + 2).
Lemma parseLen_finished s F v w A src bs : inv s F -> handle s F v w A -> holds s src bs ->
  usedA s A + len_cost (lenN bs) <= two30 ->
  agree (zj_ParseLen v src (lenN bs)) s (ptop (bs ++ [0])) (pf_more (finished F) s F v w A (len_cost (lenN bs))).
Proof.
  intros I H Hs Hu. unfold len_cost in *. pose proof (i_wf _ _ I) as W. destruct H as (Hv & [Al NA] & Hw). unfold zj_ParseLen.
  eapply agree_pre; [eapply wp_getVal; [exact Hv|]; auto|]. cbn [vA].
  assert (E32 : u32 (lenN bs + 1) = lenN bs + 1) by (apply u32_small; unfold two30, two32 in *; lia).
  rewrite E32.
  eapply agree_wp; [eapply (alloc_step none none A 0 (lenN bs + 1) s s); auto; [now apply ext_start|lia]|].
  intros p s1 [X1 P].
  eapply agree_pre; [eapply (wp_load src _ bs); auto|].
  { intros i x E. rewrite (ap_bytes _ _ _ _ _ P). auto. }
  assert (El : lenN bs + 1 = lenN (bs ++ [0])) by (rewrite lenN_app; reflexivity).
  eapply agree_wp; [eapply (fill_step none none _ A (lenN bs + 1) s s s1 p); eauto; [apply I| |]|].
  { eapply ext_more; [now apply ext_start|]. lia. }
  { lia. }
  intros [] s2 [X2 Fl]. cbn [N.add] in X2.
  assert (I2 : inv s2 F) by (eapply ext_inv; eauto).
  destruct (split0 (bs ++ [0])) as (t & r & Et & Nt); [rewrite in_app_iff; simpl; auto|].
  rewrite Et in *.
  assert (Lt : lenN t <= lenN bs).
  { rewrite lenN_app, lenN_cons in El. lia. }
  pose proof (x_used _ _ _ _ _ X2 A) as Us. rewrite at_eq in Us.
  eapply agree_mono; [apply (parseFast_finished s2 F v w A p t r); auto|].
  - eapply handle_ext; [exact X2|auto|]. repeat split; auto.
  - apply (fl_text _ _ _ _ Fl).
  - pose proof (fl_safe _ _ _ _ Fl) as Sf. change (0 :: r) with ([0] ++ r) in Sf. rewrite app_assoc in Sf. now apply safetext_app in Sf as [Sf _].
  - lia.
  - intros [j|] b s3 _; cbn [pf_more].
    + intros (-> & F' & a & Pd & Fi). split; auto. exists F', a. split; [|exact Fi].
      eapply parsed_more; [exact (parsed_before s s2 F v w A _ _ j s3 F' a X2 (fl_vals _ _ _ _ Fl) Pd)|].
      intro x. etransitivity; [apply at_add|]. apply at_le. lia.
    + intros (-> & X3). split; auto. eapply ext_more; [eapply ext_then; eauto|]. lia.
Qed.
Lemma parseLen_agree s F v w A src bs : inv s F -> handle s F v w A -> holds s src bs ->
  usedA s A + len_cost (lenN bs) <= two30 ->
  agree (zj_ParseLen v src (lenN bs)) s (ptop (bs ++ [0])) (pf_post s F v w A (len_cost (lenN bs))).
Proof. intros. eapply agree_weaken; [apply parseLen_finished; eassumption|]. intros y x s'. apply pf_more_post. Qed.
Lemma text_holds s a bs r : text_at s a = bs ++ r -> holds s a bs.
Proof.
  unfold text_at. destruct (sbsize s (fst a)) as [n|]; [|destruct bs; [intros _; apply holds_nil|discriminate]].
  intros H i x E.
  assert (K : forall n o l i x, nth_error l i = Some x -> (exists r, run (sbytes s) (fst a) o n = l ++ r) ->
     sbytes s (fst a, o + N.of_nat i) = Some x).
  { clear. induction n as [|n IH]; intros o l i x E (r & H); destruct l as [|y l].
    - destruct i; discriminate.
    - discriminate.
    - destruct i; discriminate.
    - simpl in H. destruct (sbytes s (fst a, o)) eqn:Eb; [|discriminate]. injection H as -> H.
      destruct i as [|i]; simpl in E.
      + replace (o + N.of_nat 0) with o by lia. congruence.
      + replace (o + N.of_nat (S i)) with (o + 1 + N.of_nat i) by lia. eapply IH; eauto. }
  apply (K (N.to_nat (n - snd a)) (snd a) bs i x E). eauto.
Qed.
Lemma parse_finished s F v w A src t slack : inv s F -> handle s F v w A -> text_at s src = t ++ 0 :: slack -> ~ In 0 t ->
  usedA s A + len_cost (lenN t) <= two30 ->
  agree (zj_Parse v src) s (ptop (t ++ [0])) (pf_more (finished F) s F v w A (len_cost (lenN t))).
Proof.
  intros I H Ht N0 Hu. unfold zj_Parse, zj_strLen.
  assert (E32 : u32 (N.of_nat (length t)) = lenN t).
  { apply u32_small. unfold len_cost, lenN, two30, two32 in *. lia. }
  apply bind_assoc_agree'.
  eapply agree_pre; [apply wp_readable; auto|]. rewrite Ht.
  apply bind_assoc_agree'.
  eapply agree_pre; [apply (wp_lift _ t); [now apply cstr_of_app|auto]|].
  eapply agree_pre; [apply wp_ret; auto|]. rewrite E32.
  apply parseLen_finished; auto. eapply text_holds; eauto.
Qed.
Lemma parse_agree s F v w A src t slack : inv s F -> handle s F v w A -> text_at s src = t ++ 0 :: slack -> ~ In 0 t ->
  usedA s A + len_cost (lenN t) <= two30 ->
  agree (zj_Parse v src) s (ptop (t ++ [0])) (pf_post s F v w A (len_cost (lenN t))).
Proof. intros. eapply agree_weaken; [eapply parse_finished; eauto|]. intros y x s'. apply pf_more_post. Qed.
End WithVol.
