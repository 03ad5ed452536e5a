(** zj_ValueCopyFrom and zj_Copy on documents. *)
From Verif Require Import Base Spec Lex LexProofs Alloc AllocProofs Mem MemProofs Api PureParse Dom Steps StrBuf StringifyProofs ParseProofs ParseTop SetProofs.

Section WithVol.
Context {VV : vols}.

(** Bytes that a copy takes, the node itself not counted. *)
Definition klen (k : option bytes) : N := match k with None => 0 | Some b => lenN b end.
Fixpoint jcost (j : json) : N :=
  match j with
  | JNum t => lenN t
  | JStr t => lenN t
  | JArr l => fold_right (fun x a => 72 + jcost x + a) 0 l
  | JObj l => fold_right (fun kx a => 72 + lenN (fst kx) + jcost (snd kx) + a) 0 l
  | _ => 0
  end.
Definition icost (it : option bytes * json) : N := klen (fst it) + jcost (snd it).
Definition lcost (items : list (option bytes * json)) : N := fold_right (fun it a => 72 + icost it + a) 0 items.
Lemma jcost_container ob items : jcost (container ob items) <= lcost items /\
  ((if ob then Forall (fun it => fst it <> None) items else Forall (fun it => fst it = None) items) ->
   jcost (container ob items) = lcost items).
Proof.
  destruct ob; simpl.
  - induction items as [|[k x] r [IH1 IH2]]; simpl; [split; auto; lia|]. split.
    + unfold icost. simpl. destruct k; simpl in *; unfold lenN in *; simpl in *; lia.
    + intro H. inversion H; subst. rewrite <- IH2 by auto. unfold icost. simpl in *. destruct k; simpl; [lia|congruence].
  - induction items as [|[k x] r [IH1 IH2]]; simpl; [split; auto; lia|]. split.
    + unfold icost. simpl. lia.
    + intro H. inversion H; subst. rewrite <- IH2 by auto. unfold icost. simpl in *. subst k. simpl. lia.
Qed.

(** What a step leaves alone. *)
Record keeps (D : addr -> Prop) (s s' : st) : Prop := {
  kp_nodes : forall x n, snodes s x = Some n -> ~ D x -> snodes s' x = Some n;
  kp_text : forall q b, safetext s q b -> safetext s' q b;
  kp_vals : svals s' = svals s
}.
Lemma keeps_refl D s : keeps D s s. Proof. constructor; auto. Qed.
Lemma keeps_trans D s s1 s2 : keeps D s s1 -> keeps D s1 s2 -> keeps D s s2.
Proof. intros [A1 A2 A3] [B1 B2 B3]. constructor; auto. congruence. Qed.
Lemma keeps_weaken (D D' : addr -> Prop) s s' : keeps D s s' -> (forall x, D x -> D' x) -> keeps D' s s'.
Proof. intros [A1 A2 A3] H. constructor; auto. Qed.
Lemma keeps_nupd s s' a n : nupd s s' a n -> keeps (only a) s s'.
Proof.
  intros [M E N]. constructor.
  - intros x m Hx Hd. rewrite N; auto.
  - intros q b. now apply mch_safetext.
  - apply M.
Qed.
(** A node that is not there yet does not count. *)
Lemma keeps_new (D D' : addr -> Prop) s s' : keeps D s s' -> (forall x, D x -> D' x \/ snodes s x = None) -> keeps D' s s'.
Proof.
  intros [A1 A2 A3] H. constructor; auto. intros x n Hx Hd. apply A1; auto. intro C. destruct (H x C); [auto|congruence].
Qed.
Lemma keeps_then (D D' : addr -> Prop) s s1 s2 : keeps D s s1 -> keeps D' s1 s2 ->
  (forall x, D' x -> D x \/ snodes s x = None) -> keeps D s s2.
Proof.
  intros [A1 A2 A3] [B1 B2 B3] H. constructor; auto; [|congruence]. intros x n Hx Hd. apply B1; auto. intro C. destruct (H x C); [auto|congruence].
Qed.
Lemma keeps_none (D : addr -> Prop) s s' x : keeps D s s' -> (forall y, D y -> snodes s' y <> None) ->
  (D x \/ ~ D x) -> snodes s' x = None -> snodes s x = None.
Proof.
  intros [A1 A2 A3] H [d|d] E; [exfalso; eapply H; eauto|]. destruct (snodes s x) eqn:Ex; auto. apply A1 in Ex; auto. congruence.
Qed.
Lemma only_dec a x : only a x \/ ~ only a x.
Proof. unfold only. destruct (addr_eqb_spec x a); auto. Qed.
Lemma rep_keeps D s s' G : keeps D s s' -> rep none s G -> (forall a, D a -> G a = None) -> rep none s' G.
Proof.
  intros [A1 A2 A3] R H a f Ha _. destruct (R a f Ha) as (n & Hn & Hr); [auto|]. exists n. split.
  - apply A1; auto. intro C. rewrite H in Ha by auto. discriminate.
  - eapply rep_node_text; eauto.
Qed.
Lemma rep_key_keeps s s' n k : (forall q b, safetext s q b -> safetext s' q b) -> rep_key s n k -> rep_key s' n k.
Proof. intro T. destruct k; simpl; auto. intros (p & E1 & E2 & K). eauto. Qed.
Lemma rep_val_keeps s s' n v : (forall q b, safetext s q b -> safetext s' q b) -> rep_val s n v -> rep_val s' n v.
Proof.
  intro T. assert (K : forall t b, rep_text s n t b -> rep_text s' n t b).
  { intros t b (E1 & E2 & p & E3 & K). split; auto. split; auto. eauto. }
  destruct v; cbn [rep_val]; auto.
Qed.

Section CopyWalk.
Variables (s0 : st) (F : dom) (A : N) (root : addr) (Dv : addr -> Prop) (K : N).
Hypothesis HI : inv s0 F.
Hypothesis HAl : alive s0 A.
Hypothesis HNA : ~ isvol A.
Hypothesis HU : usedA s0 A + K <= two30.

Definition cext (k : N) (s : st) : Prop := ext none Dv (at_ A k) s0 s.

Lemma c_node k s a f : cext k s -> F a = Some f -> exists n, snodes s a = Some n /\ rep_node s n f.
Proof.
  intros X Ha. destruct (i_rep _ _ (ext_inv _ _ _ _ _ X HI) a f Ha) as (n & Hn & Hr); [auto|]. eauto.
Qed.
Lemma c_dup k s q bs : cext k s -> safetext s q bs -> k + lenN bs <= K ->
  wp (dup_bytes A (At q) (lenN bs)) s (fun p s' => cext (k + lenN bs) s' /\ keeps none s s' /\ snodes s' = snodes s /\ safetext s' p bs).
Proof.
  intros X S Hk. pose proof (x_used _ _ _ _ _ X A) as U. rewrite at_eq in U.
  eapply wp_mono; [apply dup_bytes_wp; auto|].
  - apply X.
  - eapply wfvol_ext; eauto. apply HI.
  - now apply (x_alive _ _ _ _ _ X).
  - lia.
  - apply S.
  - intros p s' [X' Fl]. split; [eapply ext_then; eauto; eapply ext_weaken; eauto; [intros ? []|lia]|].
    split; [|split; apply Fl].
    constructor; [intros x n; now rewrite (fl_nodes _ _ _ _ Fl)| |apply Fl]. intros q' b. eapply safetext_ext; eauto.
Qed.
Lemma c_mod k s a f n : cext k s -> snodes s a = Some n -> beyond s0 a ->
  wp (modNode a f) s (fun _ s' => cext k s' /\ nupd s s' a (f n)).
Proof. intros X E B. eapply modNode_step; eauto. apply HI. Qed.
Lemma c_new k s : cext k s -> k + 72 <= K ->
  wp (newNode A) s (fun a s' => cext (k + 72) s' /\ beyond s a /\ nupd s s' a blank_node).
Proof. intros X H. eapply newNode_step; eauto; [apply HI|lia]. Qed.

(** The destination node after the body, its links kept. *)
Definition lnk (n n' : node) : Prop := nNext n' = nNext n /\ nPrev n' = nPrev n /\ nFather n' = nFather n.

Lemma c_key k s des nd nd0 kf (z : bool) : cext k s -> snodes s des = Some nd0 -> beyond s0 des -> rep_key s nd kf ->
  z = (match kf with None => true | _ => false end) -> k + klen kf <= K ->
  wp (if negb z then
     l <- rKeyLen nd ;;
     k <- dup_bytes A (nKey nd) l ;;
     modNode des (wKey (At k)) ;;;
     modNode des (wKeyLen l)
   else modNode des (wKey Null)) s (fun _ s' => cext (k + klen kf) s' /\ keeps (only des) s s' /\ exists nd',
     snodes s' des = Some nd' /\ lnk nd0 nd' /\ nType nd' = nType nd0 /\ rep_key s' nd' kf).
Proof.
  intros X E B R -> Hk. destruct kf as [b|]; cbn [negb klen] in *.
  - destruct R as (q & E1 & E2 & S). rewrite E1. apply wp_bind. eapply wp_rKeyLen; eauto.
    eapply wp_seq; [eapply c_dup; eauto|]. intros p s1 (X1 & K1 & N1 & S1).
    eapply wp_seq; [eapply (c_mod _ s1); eauto; rewrite N1; eauto|]. intros [] s2 [X2 U2].
    eapply wp_mono; [eapply (c_mod _ s2); eauto; apply U2|]. intros [] s3 [X3 U3]. split; auto. split.
    + eapply keeps_trans; [eapply keeps_weaken; [exact K1|intros ? []]|].
      eapply keeps_trans; eapply keeps_nupd; eauto.
    + eexists. split; [apply U3|]. split; [repeat split|]. split; [reflexivity|].
      exists p. split; [reflexivity|]. split; [reflexivity|].
      eapply mch_safetext; [apply U3|]. eapply mch_safetext; [apply U2|]. auto.
  - eapply wp_mono; [eapply (c_mod _ s); eauto|]. intros [] s1 [X1 U1]. split.
    + now replace (k + 0) with k by lia.
    + split; [eapply keeps_nupd; eauto|]. eexists. split; [apply U1|]. split; [repeat split|].
      split; [reflexivity|]. reflexivity.
Qed.
Lemma c_isnull k (n : node) s kf (Q : bool -> st -> Prop) : rep_key s n kf ->
  Q (match kf with None => true | _ => false end) s -> k = nKey n -> wp (is_null k) s Q.
Proof.
  intros R H ->. destruct kf; simpl in R.
  - destruct R as (p & -> & _). apply wp_ret. exact H.
  - rewrite R. apply wp_ret. exact H.
Qed.

Definition body_post (k : N) (s : st) (f : fnode) (des : addr) (nd : node) (r : option (addr * addr)) (s' : st) : Prop :=
  keeps (only des) s s' /\
  match fvalue f, r with
  | VCont ob (c :: l), Some (c', n) => c' = c /\ cext (k + klen (fkey f) + 72) s' /\ beyond s0 n /\ snodes s n = None /\ exists nd' nn,
      snodes s' des = Some nd' /\ lnk nd nd' /\ rep_key s' nd' (fkey f) /\ nType nd' = Some (if ob then TObject else TArray) /\
      nVal nd' = At n /\ nEnd nd' = At n /\ nLen nd' = Some (lenN (c :: l)) /\
      snodes s' n = Some nn /\ nFather nn = At des /\ nPrev nn = Null
  | VCont ob (c :: l), None => False
  | v, None => cext (k + klen (fkey f) + match v with VNum t | VStr t => lenN t | _ => 0 end) s' /\ exists nd',
      snodes s' des = Some nd' /\ lnk nd nd' /\ rep_key s' nd' (fkey f) /\ rep_val s' nd' v /\ end_ok nd' v
  | _, Some _ => False
  end.
Definition vcost (v : fval) : N := match v with VNum t | VStr t => lenN t | VCont _ (_ :: _) => 72 | _ => 0 end.

Lemma copy_body_wp k s a f des nd : cext k s -> F a = Some f -> snodes s des = Some nd -> beyond s0 des ->
  k + klen (fkey f) + vcost (fvalue f) <= K ->
  wp (copy_body A a des) s (body_post k s f des nd).
Proof.
  intros X Ha Hd B Hk. destruct (c_node k s a f X Ha) as (n & Hn & R). unfold copy_body.
  apply wp_bind, (wp_getNode _ n); auto.
  assert (Ht : exists t, nType n = Some t).
  { pose proof (r_val _ _ _ R) as V. destruct (fvalue f); cbn [rep_val] in V; destruct V as [V _]; eauto. }
  destruct Ht as [t Ht]. apply wp_bind, (wp_rType _ t); auto.
  eapply wp_seq; [eapply c_mod; eauto|]. intros [] s1 [X1 U1].
  pose proof (keeps_nupd _ _ _ _ U1) as K1.
  apply wp_bind. eapply (c_isnull _ n s1 (fkey f)); [eapply rep_key_keeps; [apply K1|apply R]| |reflexivity].
  eapply wp_seq; [eapply (c_key k s1 des n _ (fkey f)); eauto; [apply U1|eapply rep_key_keeps; [apply K1|apply R]|]|].
  { lia. }
  intros [] s2 (X2 & K2 & nd2 & Hd2 & L2 & T2 & R2). cbn [nType wType] in T2.
  pose proof (keeps_trans _ _ _ _ K1 K2) as K12.
  assert (V : rep_val s2 n (fvalue f)) by (eapply rep_val_keeps; [apply K12|apply R]).
  assert (L : lnk nd nd2) by exact L2. clear L2.
  unfold body_post.
  assert (Txt : forall b, rep_text s2 n t b -> t = TNumber \/ t = TString -> k + klen (fkey f) + lenN b <= K ->
    wp (l <- rLen n ;; p <- dup_bytes A (nVal n) l ;; modNode des (wVal (At p)) ;;; modNode des (wLen l) ;;; ret None) s2
      (fun (r : option (addr * addr)) s' => keeps (only des) s s' /\ r = None /\ cext (k + klen (fkey f) + lenN b) s' /\ exists nd',
      snodes s' des = Some nd' /\ lnk nd nd' /\ rep_key s' nd' (fkey f) /\ rep_text s' nd' t b)).
  { intros b (E1 & E2 & p & E3 & S) _ Hb. apply wp_bind, (wp_rLen _ (lenN b)); auto. rewrite E3.
    eapply wp_seq; [eapply c_dup; eauto|]. intros q s3 (X3 & K3 & N3 & S3).
    eapply wp_seq; [eapply (c_mod _ s3); eauto; rewrite N3; eauto|]. intros [] s4 [X4 U4].
    eapply wp_seq; [eapply (c_mod _ s4); eauto; apply U4|]. intros [] s5 [X5 U5]. apply wp_ret.
    assert (K35 : keeps (only des) s2 s5).
    { eapply keeps_trans; [eapply keeps_weaken; [exact K3|intros ? []]|].
      eapply keeps_trans; eapply keeps_nupd; eauto. }
    split; [eapply keeps_trans; eauto|]. split; auto. split; auto. eexists. split; [apply U5|]. split; [exact L|].
    split; [eapply rep_key_keeps; [apply K35|exact R2]|]. split; [cbn; congruence|]. split; [reflexivity|].
    exists q. split; [reflexivity|]. eapply mch_safetext; [apply U5|]. eapply mch_safetext; [apply U4|]. auto. }
  assert (Lit : forall b, rep_text s2 n t b -> 
    wp (modNode des (wVal (nVal n)) ;;; l <- rLen n ;; modNode des (wLen l) ;;; ret None) s2
      (fun (r : option (addr * addr)) s' => keeps (only des) s s' /\ r = None /\ cext (k + klen (fkey f) + 0) s' /\ exists nd',
      snodes s' des = Some nd' /\ lnk nd nd' /\ rep_key s' nd' (fkey f) /\ rep_text s' nd' t b)).
  { intros b (E1 & E2 & p & E3 & S).
    eapply wp_seq; [eapply (c_mod _ s2); eauto|]. intros [] s4 [X4 U4].
    apply wp_bind, (wp_rLen _ (lenN b)); auto.
    eapply wp_seq; [eapply (c_mod _ s4); eauto; apply U4|]. intros [] s5 [X5 U5]. apply wp_ret.
    assert (K35 : keeps (only des) s2 s5) by (eapply keeps_trans; eapply keeps_nupd; eauto).
    split; [eapply keeps_trans; eauto|]. split; auto. split; [now rewrite N.add_0_r|]. eexists. split; [apply U5|]. split; [exact L|].
    split; [eapply rep_key_keeps; [apply K35|exact R2]|]. split; [cbn; congruence|]. split; [reflexivity|].
    exists p. split; [exact E3|]. eapply mch_safetext; [apply U5|]. eapply mch_safetext; [apply U4|]. auto. }
  destruct (fvalue f) as [|b|b|b|ob kids]; cbn [rep_val vcost] in V, Hk |- *.
  - assert (t = TNull) by (destruct V; congruence). subst t. cbv iota.
    eapply wp_mono; [apply (Lit _ V)|]. intros r s' (H1 & -> & H2 & nd' & H3 & H4 & H5 & H6). split; auto. split; auto.
    exists nd'. split; [auto|]. split; [auto|]. split; [auto|]. split; [exact H6|exact Logic.I].
  - assert (t = TBool) by (destruct V; congruence). subst t. cbv iota.
    eapply wp_mono; [apply (Lit _ V)|]. intros r s' (H1 & -> & H2 & nd' & H3 & H4 & H5 & H6). split; auto. split; auto.
    exists nd'. split; [auto|]. split; [auto|]. split; [auto|]. split; [exact H6|exact Logic.I].
  - assert (t = TNumber) by (destruct V; congruence). subst t. cbv iota.
    eapply wp_mono; [apply (Txt b V); [auto|lia]|]. intros r s' (H1 & -> & H2 & nd' & H3 & H4 & H5 & H6). split; auto. split; auto.
    exists nd'. split; [auto|]. split; [auto|]. split; [auto|]. split; [exact H6|exact Logic.I].
  - assert (t = TString) by (destruct V; congruence). subst t. cbv iota.
    eapply wp_mono; [apply (Txt b V); [auto|lia]|]. intros r s' (H1 & -> & H2 & nd' & H3 & H4 & H5 & H6). split; auto. split; auto.
    exists nd'. split; [auto|]. split; [auto|]. split; [auto|]. split; [exact H6|exact Logic.I].
  - destruct V as (E1 & E2 & E3). assert (Et : t = if ob then TObject else TArray) by congruence.
    assert (Cont : wp (l <- rLen n ;;
        modNode des (wLen l) ;;;
        z <- is_null (nVal n) ;;
        if negb z then
          c <- deref (nVal n) ;;
          n <- newNode A ;;
          modNode n (wFather (At des)) ;;;
          modNode n (wPrev Null) ;;;
          modNode des (wVal (At n)) ;;;
          modNode des (wEnd (At n)) ;;;
          ret (Some (c, n))
        else
          modNode des (wVal Null) ;;;
          modNode des (wEnd Null) ;;;
          ret None) s2 (body_post k s (mkF (fkey f) (VCont ob kids) None None None None false) des nd)).
    { apply wp_bind, (wp_rLen _ (lenN kids)); auto.
      eapply wp_seq; [eapply (c_mod _ s2); eauto|]. intros [] s3 [X3 U3].
      pose proof (keeps_nupd _ _ _ _ U3) as K3. rewrite E2.
      destruct kids as [|c l]; cbn [hd_error wopt].
      - apply wp_bind, wp_ret. cbn [negb].
        eapply wp_seq; [eapply (c_mod _ s3); eauto; apply U3|]. intros [] s4 [X4 U4].
        eapply wp_seq; [eapply (c_mod _ s4); eauto; apply U4|]. intros [] s5 [X5 U5]. apply wp_ret.
        assert (K35 : keeps (only des) s2 s5).
        { eapply keeps_trans; [exact K3|]. eapply keeps_trans; eapply keeps_nupd; eauto. }
        split; [eapply keeps_trans; eauto|]. cbn [fvalue fkey]. split; [now rewrite N.add_0_r|].
        eexists. split; [apply U5|]. split; [exact L|]. split; [eapply rep_key_keeps; [apply K35|exact R2]|].
        split; [|exact Logic.I]. split; [cbn; congruence|]. split; reflexivity.
      - apply wp_bind, wp_ret. cbn [negb]. apply wp_bind, wp_deref.
        eapply wp_seq; [eapply (c_new _ s3); eauto; lia|]. intros m s4 (X4 & B4 & U4).
        pose proof (beyond_ext _ _ _ _ _ _ X3 B4) as Bm.
        pose proof (beyond_nothing s3 m (x_wf _ _ _ _ _ X3) B4) as (_ & Hm3 & _).
        assert (Hne : m <> des) by (intros ->; rewrite (nu_eq _ _ _ _ U3) in Hm3; discriminate).
        assert (Hm : snodes s m = None).
        { destruct (snodes s m) eqn:Em; auto. apply (kp_nodes _ _ _ K12) in Em; [|exact Hne].
          apply (kp_nodes _ _ _ K3) in Em; [congruence|exact Hne]. }
        eapply wp_seq; [eapply (c_mod _ s4); eauto; apply U4|]. intros [] s5 [X5 U5].
        eapply wp_seq; [eapply (c_mod _ s5); eauto; apply U5|]. intros [] s6 [X6 U6].
        pose proof (nupd_trans _ _ _ _ _ _ U4 (nupd_trans _ _ _ _ _ _ U5 U6)) as U46.
        assert (Hd6 : snodes s6 des = Some (wLen (lenN (c :: l)) nd2)).
        { rewrite (nu_neq _ _ _ _ U46) by auto. apply U3. }
        eapply wp_seq; [eapply (c_mod _ s6); eauto|]. intros [] s7 [X7 U7].
        eapply wp_seq; [eapply (c_mod _ s7); eauto; apply U7|]. intros [] s8 [X8 U8].
        pose proof (nupd_trans _ _ _ _ _ _ U7 U8) as U78. apply wp_ret.
        assert (K46 : keeps none s3 s6).
        { eapply keeps_new; [eapply keeps_nupd; exact U46|]. intros x ->. right; auto. }
        assert (K38 : keeps (only des) s2 s8).
        { eapply keeps_trans; [exact K3|]. eapply keeps_trans; [eapply keeps_weaken; [exact K46|intros ? []]|].
          eapply keeps_nupd; eauto. }
        split; [eapply keeps_trans; eauto|]. cbn [fvalue fkey]. split; auto. split; auto. split; auto. split; auto.
        eexists. eexists. split; [apply U78|]. split; [exact L|]. split; [eapply rep_key_keeps; [apply K38|exact R2]|].
        split; [cbn; congruence|]. split; [reflexivity|]. split; [reflexivity|]. split; [reflexivity|].
        split; [rewrite (nu_neq _ _ _ _ U78) by auto; apply U46|]. split; reflexivity. }
    subst t. destruct ob; cbv iota; exact Cont.
Qed.

(** The copies made so far. *)
Record cst (k : N) (s : st) (G : dom) : Prop := {
  cs_ext : cext k s;
  cs_rep : rep none s G;
  cs_dom : wfdom G;
  cs_tidy : forall a, tidy G a;
  cs_new : forall a, G a <> None -> beyond s0 a
}.
Definition pair (x y : addr) : addr -> Prop := fun a => a = x \/ a = y.

(** Finishing the node [dc]: the last of its siblings. *)
Lemma close_last fuel k s G c fc p dc ndc dp prv v j Q : cst k s G -> F c = Some fc -> c <> root -> fnext fc = None ->
  fpar fc = Some p -> snodes s dc = Some ndc -> beyond s0 dc -> G dc = None -> nFather ndc = At dp -> nPrev ndc = wopt prv ->
  rep_key s ndc (fkey fc) -> rep_val s ndc v -> end_ok ndc v -> vreads G dc v j ->
  (forall s', cst k s' (add G dc (mkF (fkey fc) v (Some dp) None prv (fend_of v) false)) -> keeps (only dc) s s' ->
     reads (add G dc (mkF (fkey fc) v (Some dp) None prv (fend_of v) false)) dc j ->
     wp (copy_loop fuel A root Close p (At dp)) s' Q) ->
  wp (copy_loop (S fuel) A root Close c (At dc)) s Q.
Proof.
  intros C Hc Hr Hn Hp Hd B Gd Hf Hpr Hk Hv He Hj H. cbn [copy_loop]. rewrite addr_eqb_neq by auto.
  destruct (c_node k s c fc (cs_ext _ _ _ C) Hc) as (n & En & R).
  apply wp_bind, (wp_getNode _ n); auto. rewrite (r_next _ _ _ R), (r_par _ _ _ R), Hn, Hp. cbn [wopt].
  apply wp_bind, wp_ret. apply wp_bind, wp_deref. cbn [negb]. apply wp_bind, wp_deref.
  eapply wp_seq; [eapply (c_mod k s); eauto; apply C|]. intros [] s1 [X1 U1].
  apply wp_bind, (wp_getNode _ (wNext Null ndc)); [apply U1|]. cbn [nFather wNext].
  rewrite Hf.
  destruct (complete s s1 G dc ndc v j (fkey fc) dp None prv) as (C1 & C2 & C3 & C4 & C5); auto; try apply C; try apply U1.
  { intros a Ga. apply U1. congruence. }
  apply H; auto.
  - constructor; auto. intros x Gx. unfold add in Gx. destruct (addr_eqb_spec x dc) as [Ex|]; [rewrite Ex; auto|]. now apply (cs_new _ _ _ C).
  - eapply keeps_nupd; eauto.
Qed.
(** … and one with a sibling to come. *)
Lemma close_next fuel k s G c fc nx dc ndc dp ndp prv v j Q : cst k s G -> F c = Some fc -> c <> root -> fnext fc = Some nx ->
  nx <> root -> snodes s dc = Some ndc -> beyond s0 dc -> G dc = None -> nFather ndc = At dp -> nPrev ndc = wopt prv ->
  snodes s dp = Some ndp -> beyond s0 dp -> G dp = None -> dp <> dc ->
  rep_key s ndc (fkey fc) -> rep_val s ndc v -> end_ok ndc v -> vreads G dc v j -> k + 72 <= K ->
  (forall s' n nn, let G' := add G dc (mkF (fkey fc) v (Some dp) (Some n) prv (fend_of v) false) in
     cst (k + 72) s' G' -> keeps (pair dc dp) s s' -> reads G' dc j ->
     snodes s n = None -> beyond s0 n -> G' n = None -> n <> dp -> snodes s' n = Some nn -> nFather nn = At dp -> nPrev nn = At dc ->
     snodes s' dp = Some (wEnd (At n) ndp) ->
     wp (copy_loop fuel A root Item nx (At n)) s' Q) ->
  wp (copy_loop (S fuel) A root Close c (At dc)) s Q.
Proof.
  intros C Hc Hr Hn Hnr Hd B Gd Hf Hpr Hp Bp Gp Hne Hk Hv He Hj HK H. cbn [copy_loop]. rewrite addr_eqb_neq by auto.
  destruct (c_node k s c fc (cs_ext _ _ _ C) Hc) as (n0 & En & R).
  apply wp_bind, (wp_getNode _ n0); auto. rewrite (r_next _ _ _ R), Hn. cbn [wopt].
  apply wp_bind, wp_ret. apply wp_bind, wp_deref. cbn [negb]. apply wp_bind, wp_deref.
  eapply wp_seq; [eapply (c_new k s); eauto; apply C|]. intros n s1 (X1 & B1 & U1).
  pose proof (beyond_ext _ _ _ _ _ _ (cs_ext _ _ _ C) B1) as Bn.
  pose proof (beyond_nothing s n (x_wf _ _ _ _ _ (cs_ext _ _ _ C)) B1) as (_ & Hns & _).
  assert (N1 : n <> dc) by congruence. assert (N2 : n <> dp) by congruence.
  assert (Gn : G n = None).
  { destruct (G n) as [g|] eqn:E; auto. destruct (cs_rep _ _ _ C n g E) as (m & Hm & _); [auto|congruence]. }
  apply wp_bind, (wp_getNode _ ndc); [rewrite (nu_neq _ _ _ _ U1) by auto; exact Hd|]. rewrite Hf.
  eapply wp_seq; [eapply (c_mod _ s1); eauto; apply U1|]. intros [] s2 [X2 U2].
  eapply wp_seq; [eapply (c_mod _ s2); eauto; apply U2|]. intros [] s3 [X3 U3].
  pose proof (nupd_trans _ _ _ _ _ _ U1 (nupd_trans _ _ _ _ _ _ U2 U3)) as U13.
  apply wp_bind, wp_deref.
  eapply wp_seq; [eapply (c_mod _ s3 dp); eauto; rewrite (nu_neq _ _ _ _ U13) by auto; exact Hp|]. intros [] s4 [X4 U4].
  eapply wp_seq; [eapply (c_mod _ s4 dc); eauto; rewrite (nu_neq _ _ _ _ U4), (nu_neq _ _ _ _ U13) by auto; exact Hd|].
  intros [] s5 [X5 U5]. rewrite addr_eqb_neq by auto.
  assert (M : mch s s5) by (eapply mch_trans; [apply U13|]; eapply mch_trans; [apply U4|apply U5]).
  destruct (complete s s5 G dc ndc v j (fkey fc) dp (Some n) prv) as (C1 & C2 & C3 & C4 & C5); auto; try apply C; try apply U5.
  { intros a Ga. rewrite (nu_neq _ _ _ _ U5), (nu_neq _ _ _ _ U4), (nu_neq _ _ _ _ U13); auto; congruence. }
  eapply (H s5 n); auto.
  - constructor; auto. intros x Gx. unfold add in Gx. destruct (addr_eqb_spec x dc) as [Ex|]; [rewrite Ex; auto|]. now apply (cs_new _ _ _ C).
  - eapply keeps_trans; [eapply keeps_new; [apply (keeps_nupd _ _ _ _ U13)|intros x ->; auto]|].
    eapply keeps_trans; (eapply keeps_weaken; [eapply keeps_nupd; eauto|]); intros x ->; unfold pair; auto.
  - now rewrite add_neq by auto.
  - rewrite (nu_neq _ _ _ _ U5), (nu_neq _ _ _ _ U4) by auto. apply U13.
  - reflexivity.
  - reflexivity.
  - rewrite (nu_neq _ _ _ _ U5) by auto. apply U4.
Qed.

Definition fresh_in (s : st) (G G' : dom) : Prop := forall x, G' x <> None -> G x <> None \/ snodes s x = None.
Definition walk_post (k : N) (s : st) (G : dom) (des : addr) (nd : node) (kf : option bytes) (j : json) (s' : st) (G' : dom) : Prop :=
  cst (k + icost (kf, j)) s' G' /\ submap G G' /\ keeps (only des) s s' /\ fresh_in s G G' /\ exists nd' v,
    snodes s' des = Some nd' /\ lnk nd nd' /\ rep_key s' nd' kf /\ rep_val s' nd' v /\ end_ok nd' v /\ vreads G' des v j.

Lemma wEnd_same n : wEnd (nEnd n) n = n. Proof. now destruct n. Qed.
Lemma wEnd_wEnd a b n : wEnd a (wEnd b n) = wEnd a n. Proof. now destruct n. Qed.
Lemma fresh_none s G G' x : fresh_in s G G' -> G x = None -> snodes s x <> None -> G' x = None.
Proof. intros H H1 H2. destruct (G' x) eqn:E; auto. destruct (H x); congruence. Qed.

Lemma copy_walk :
  (forall a j, reads F a j -> forall f, F a = Some f -> (forall b, sbelow F a b -> b <> root) ->
     forall fuel k s G des nd Q, cst k s G -> snodes s des = Some nd -> beyond s0 des -> G des = None ->
     k + icost (fkey f, j) <= K ->
     (forall s' G', walk_post k s G des nd (fkey f) j s' G' -> wp (copy_loop fuel A root Close a (At des)) s' Q) ->
     wp (copy_loop (jsteps j + fuel) A root Item a (At des)) s Q) /\
  (forall kids items, readsL F kids items -> forall c r, kids = c :: r ->
     forall p ob, chain F p ob kids -> (forall x b, In x kids -> below F x b -> b <> root) ->
     forall fuel k s G dc ndc dp ndp prv Q, cst (k + 72) s G -> snodes s dc = Some ndc -> beyond s0 dc -> G dc = None ->
     nFather ndc = At dp -> nPrev ndc = wopt prv -> snodes s dp = Some ndp -> beyond s0 dp -> G dp = None -> dp <> dc ->
     nEnd ndp = At dc -> k + lcost items <= K ->
     (forall s' G' r', cst (k + lcost items) s' G' -> submap G G' -> keeps (pair dc dp) s s' ->
        (forall x, G' x <> None -> G x <> None \/ snodes s x = None \/ x = dc) ->
        snodes s' dp = Some (wEnd (wopt (last_error (dc :: r'))) ndp) -> chain G' dp ob (dc :: r') -> prevs G' prv (dc :: r') ->
        readsL G' (dc :: r') items -> length r' = length r ->
        wp (copy_loop fuel A root Close p (At dp)) s' Q) ->
     wp (copy_loop (isteps items + fuel) A root Item c (At dc)) s Q).
Proof.
  assert (Sc : forall a f j v, F a = Some f -> fvalue f = v -> vcost v = jcost j -> (forall ob kids, v <> VCont ob kids) ->
     (forall G d, vreads G d v j) ->
     forall fuel k s G des nd Q, cst k s G -> snodes s des = Some nd -> beyond s0 des -> G des = None ->
     k + icost (fkey f, j) <= K ->
     (forall s' G', walk_post k s G des nd (fkey f) j s' G' -> wp (copy_loop fuel A root Close a (At des)) s' Q) ->
     wp (copy_loop (S fuel) A root Item a (At des)) s Q).
  { intros a f j v Ha Hv Hc Hn Hr fuel k s G des nd Q C Hd B Gd Hk H. cbn [copy_loop]. apply wp_bind, wp_deref.
    unfold icost in Hk. cbn [fst snd] in Hk.
    eapply wp_seq; [eapply copy_body_wp; eauto; [apply C|rewrite Hv, Hc; lia]|].
    intros r s' [Kp P]. rewrite Hv in P. 
    assert (P' : r = None /\ cext (k + klen (fkey f) + vcost v) s' /\ exists nd',
      snodes s' des = Some nd' /\ lnk nd nd' /\ rep_key s' nd' (fkey f) /\ rep_val s' nd' v /\ end_ok nd' v).
    { destruct v as [| | | |ob kids]; try (destruct r; [destruct P|split; auto]). edestruct Hn; eauto. }
    destruct P' as (-> & X & nd' & E1 & E2 & E3 & E4 & E5). apply H with (G' := G).
    split; [|split; [|split; [|split]]].
    - constructor; try apply C.
      + unfold icost. cbn [fst snd]. rewrite <- Hc, N.add_assoc. exact X.
      + eapply rep_keeps; eauto; [apply C|]. now intros x ->.
    - apply submap_refl.
    - auto.
    - intros x Hx. auto.
    - exists nd', v. repeat (split; auto). }
  apply reads_mutind.
  - intros a f Ha Hv f' Ha' _. rewrite Ha in Ha'. injection Ha' as <-. apply (Sc a f JNull VNull); [exact Ha|exact Hv|reflexivity|intros; discriminate|intros; reflexivity].
  - intros a f b Ha Hv f' Ha' _. rewrite Ha in Ha'. injection Ha' as <-. apply (Sc a f (JBool b) (VBool b)); [exact Ha|exact Hv|reflexivity|intros; discriminate|intros; reflexivity].
  - intros a f b Ha Hv f' Ha' _. rewrite Ha in Ha'. injection Ha' as <-. apply (Sc a f (JNum b) (VNum b)); [exact Ha|exact Hv|reflexivity|intros; discriminate|intros; reflexivity].
  - intros a f b Ha Hv f' Ha' _. rewrite Ha in Ha'. injection Ha' as <-. apply (Sc a f (JStr b) (VStr b)); [exact Ha|exact Hv|reflexivity|intros; discriminate|intros; reflexivity].
  - intros a f ob kids items Ha Hv Hrl IH f' Ha' Hr fuel k s G des nd Q C Hd B Gd Hk H.
    rewrite Ha in Ha'. injection Ha' as <-.
    destruct (i_dom _ _ HI a f Ha) as [Hc _]. destruct (Hc ob kids Hv) as [Hch Hlen].
    pose proof (readsL_keyed _ _ _ _ _ Hch Hrl) as Hky.
    assert (Ej : jcost (container ob items) = lcost items).
    { apply jcost_container. destruct ob; rewrite Forall_forall in *; intros it Hi; apply (Hky it Hi). }
    rewrite jsteps_container. unfold icost in Hk. cbn [fst snd] in Hk. rewrite Ej in Hk.
    cbn [copy_loop Nat.add]. apply wp_bind, wp_deref.
    eapply wp_seq; [eapply copy_body_wp; eauto; [apply C|]|].
    { rewrite Hv. destruct kids; cbn [vcost]; [lia|]. inversion Hrl; subst. unfold lcost in Hk. cbn [fold_right] in Hk. lia. }
    intros r s' [Kp P]. rewrite Hv in P. destruct kids as [|c l].
    + destruct r as [[? ?]|]; [destruct P|]. destruct P as (X & nd' & E1 & E2 & E3 & E4 & E5).
      inversion Hrl; subst. cbn [isteps map list_sum Nat.add]. apply H with (G' := G).
      split; [|split; [|split; [|split]]].
      * constructor; try apply C.
        -- unfold icost. cbn [fst snd]. rewrite Ej. cbn [lcost fold_right]. rewrite N.add_assoc. exact X.
        -- eapply rep_keeps; eauto; [apply C|]. now intros x ->.
      * apply submap_refl.
      * auto.
      * intros x Hx. auto.
      * exists nd', (VCont ob []). split; [auto|]. split; [auto|]. split; [auto|]. split; [auto|]. split; [auto|].
        exists []. split; [auto|]. split; [constructor|]. split; [exact Logic.I|]. split; [reflexivity|exact Logic.I].
    + destruct r as [[c' n]|]; [|destruct P].
      destruct P as (-> & X & Bn & Hns & nd' & nn & E1 & E2 & E3 & E4 & E5 & E6 & E7 & E8 & E9 & E10).
      assert (Hcr : c <> root) by (apply Hr; exists f, ob, (c :: l), c; repeat split; auto; [now left|constructor]).
      rewrite addr_eqb_neq by auto.
      assert (Gn : G n = None).
      { destruct (G n) as [g|] eqn:E; auto. destruct (cs_rep _ _ _ C n g E) as (m & Hm & _); [auto|congruence]. }
      assert (Nd : des <> n) by congruence.
      assert (C1 : cst (k + klen (fkey f) + 72) s' G).
      { constructor; try apply C; auto. eapply rep_keeps; eauto; [apply C|]. now intros x ->. }
      apply (IH c l eq_refl a ob Hch) with (k := k + klen (fkey f)) (G := G) (ndc := nn) (dp := des) (ndp := nd') (prv := None); auto.
      * intros x b Hx Hb. apply Hr. exists f, ob, (c :: l), x. auto.
      * lia.
      * intros s2 G2 r' C2 S2 K2 N2 D2 Ch2 Pv2 Rd2 Ln2. apply (H s2 G2).
        split; [|split; [|split; [|split]]].
        -- unfold icost. cbn [fst snd]. rewrite Ej, N.add_assoc. exact C2.
        -- auto.
        -- eapply keeps_then; [exact Kp|exact K2|]. intros x [->| ->]; [right; auto|left; reflexivity].
        -- intros x Hx. destruct (N2 x Hx) as [|[|]]; auto.
           ++ right. eapply (keeps_none (only des)); eauto using only_dec. intros y ->. congruence.
           ++ subst x. auto.
        -- eexists. exists (VCont ob (n :: r')). split; [exact D2|]. split; [exact E2|].
           split; [eapply rep_key_keeps; [apply K2|exact E3]|].
           split; [split; [exact E4|]; split; [exact E5|]|].
           ++ cbn. rewrite E7. unfold lenN. simpl. now rewrite Ln2.
           ++ split; [reflexivity|]. exists items. split; auto. split; auto. split; auto. split; auto.
              unfold lenN in *. simpl in *. now rewrite Ln2.
  - intros; discriminate.
  - intros c r fc j items Hc Hrc IH1 Hrl IH2 c0 r0 E p ob Hch Hr fuel k s G dc ndc dp ndp prv Q C Hd B Gd Hf Hp Hdp Bp Gp Hne He Hk H.
    injection E as <- <-. destruct Hch as [(fc' & E1 & E2 & E3 & E4) Hch]. rewrite Hc in E1. injection E1 as <-.
    replace (isteps ((fkey fc, j) :: items) + fuel)%nat with (jsteps j + S (isteps items + fuel))%nat
      by (unfold isteps; simpl; lia).
    cbn [lcost fold_right] in Hk. fold (lcost items) in Hk.
    apply (IH1 fc Hc) with (k := k + 72) (G := G) (nd := ndc); auto.
    { intros b Hb. apply (Hr c b); [left; auto|]. now apply sbelow_below. }
    { lia. }
    intros s1 G1 (C1 & S1 & K1 & N1 & nd1 & v & D1 & (L1 & L2 & L3) & R1 & V1 & O1 & Rd1).
    assert (Hcr : c <> root) by (apply (Hr c c); [left; auto|constructor]).
    assert (G1d : G1 dc = None) by (eapply fresh_none; eauto; congruence).
    assert (G1p : G1 dp = None) by (eapply fresh_none; eauto; congruence).
    assert (Hdp1 : snodes s1 dp = Some ndp) by (apply (kp_nodes _ _ _ K1); auto).
    rewrite Hf in L3. rewrite Hp in L2.
    inversion Hrl; subst.
    + (* last *)
      simpl in E3. eapply (close_last _ _ s1 G1 c fc p dc nd1 dp prv v j); eauto.
      intros s2 C2 K2 Rd2. cbn [isteps map list_sum Nat.add].
      set (G2 := add G1 dc _) in *.
      apply (H s2 G2 []).
      * unfold lcost. cbn [fold_right]. now replace (k + (72 + icost (fkey fc, j) + 0)) with (k + 72 + icost (fkey fc, j)) by lia.
      * intros x g Hx. apply S1 in Hx. unfold G2. rewrite add_neq; [auto|congruence].
      * eapply keeps_trans; (eapply keeps_weaken; [eassumption|]); unfold pair, only; auto.
      * intros x Hx. unfold G2, add in Hx. destruct (addr_eqb_spec x dc) as [Ex|]; auto. destruct (N1 x Hx); auto.
      * change (last_error [dc]) with (Some dc). cbn [wopt]. rewrite <- He, wEnd_same. apply (kp_nodes _ _ _ K2); auto.
      * split; [|exact Logic.I]. eexists. split; [apply add_eq|]. auto.
      * split; [|exact Logic.I]. eexists. split; [apply add_eq|]. auto.
      * change (fkey fc) with (fkey (mkF (fkey fc) v (Some dp) None prv (fend_of v) false)) at 1.
        apply (rl_cons G2 dc [] (mkF (fkey fc) v (Some dp) None prv (fend_of v) false)); [apply add_eq|auto|constructor].
      * auto.
    + rename c0 into nx. rename r0 into r2. simpl in E3.
      assert (Hnr : nx <> root) by (apply (Hr nx nx); [right; left; auto|constructor]).
      eapply (close_next _ _ s1 G1 c fc nx dc nd1 dp ndp prv v j); eauto.
      { unfold lcost in Hk. cbn [fold_right] in Hk. lia. }
      intros s2 n nn G2 C2 K2 Rd2 Hn1 Bn Gn Nn Hn2 F2 P2 Dp2.
      assert (G2p : G2 dp = None) by (unfold G2; now rewrite add_neq by auto).
      apply (IH2 nx r2 eq_refl p ob Hch) with (k := k + 72 + icost (fkey fc, j)) (G := G2) (ndc := nn) (dp := dp) (ndp := wEnd (At n) ndp) (prv := Some dc); auto.
      { intros x b Hx. apply Hr. right; auto. }
      { unfold lcost in Hk |- *. cbn [fold_right] in Hk |- *. lia. }
      intros s3 G3 r' C3 S3 K3 N3 D3 Ch3 Pv3 Rd3 Ln3.
      assert (G3d : G3 dc = Some (mkF (fkey fc) v (Some dp) (Some n) prv (fend_of v) false)) by (apply S3; apply add_eq).
      apply (H s3 G3 (n :: r')).
      * cbn [lcost fold_right]. cbn [lcost fold_right] in C3.
        match type of C3 with cst ?x _ _ => match goal with |- cst ?y _ _ => now replace y with x by lia end end.
      * intros x g Hx. apply S3. apply S1 in Hx. unfold G2. rewrite add_neq; [auto|congruence].
      * assert (K13 : keeps (pair dc dp) s1 s3).
        { eapply keeps_then; [exact K2|exact K3|]. intros x [->| ->]; [right; auto|left; right; reflexivity]. }
        eapply keeps_trans; [eapply keeps_weaken; [exact K1|unfold pair, only; auto]|exact K13].
      * assert (Z1 : forall x, snodes s1 x = None -> snodes s x = None).
        { intros x Hx. eapply (keeps_none (only dc)); eauto using only_dec. intros y ->. congruence. }
        assert (Z2 : forall x, snodes s2 x = None -> snodes s1 x = None).
        { intros x Hx. destruct (addr_eqb_spec x dp) as [->|N]; [congruence|].
          destruct (addr_eqb_spec x dc) as [->|N'].
          - exfalso. destruct (cs_rep _ _ _ C2 dc _ (add_eq _ _ _)) as (m & Hm & _); [auto|congruence].
          - destruct (snodes s1 x) eqn:Ex; auto. apply (kp_nodes _ _ _ K2) in Ex; [congruence|]. intros [|]; auto. }
        intros x Hx. destruct (N3 x Hx) as [H3|[H3|H3]].
        -- unfold G2, add in H3. destruct (addr_eqb_spec x dc) as [Ex|N]; auto. destruct (N1 x H3); auto.
        -- right. left. auto.
        -- subst x. right. left. auto.
      * rewrite D3, wEnd_wEnd. do 3 f_equal. clear. symmetry.
        change (dc :: n :: r') with ([dc] ++ (n :: r')). destruct (n :: r') as [|y l] eqn:El using rev_ind; [discriminate|].
        now rewrite app_assoc, !last_error_snoc.
      * split; auto. eexists. split; [exact G3d|]. auto.
      * split; auto. eexists. split; [exact G3d|]. auto.
      * change (fkey fc) with (fkey (mkF (fkey fc) v (Some dp) (Some n) prv (fend_of v) false)) at 1.
        apply (rl_cons G3 dc (n :: r') (mkF (fkey fc) v (Some dp) (Some n) prv (fend_of v) false)); auto.
        eapply reads_submap; eauto.
      * simpl. now rewrite Ln3.
Qed.
End CopyWalk.

(** A deep copy [n] of the node [a] in the allocator [A]. *)
Record copied_node (s : st) (F : dom) (a : addr) (j : json) (s' : st) (F' : dom) (n : addr) : Prop := {
  cp_inv : inv s' F';
  cp_new : beyond s n;
  cp_reads : reads F' n j;
  cp_sub : submap F F';
  cp_root : exists f f', F a = Some f /\ F' n = Some f' /\ fkey f' = fkey f /\ fpar f' = None /\ fnext f' = None /\ fprev f' = None;
  (* every added node is new, and so are its children *)
  cp_fresh : forall x, F' x <> None -> F x = None -> beyond s x;
  cp_closed : forall x f ob kids c, F' x = Some f -> F x = None -> fvalue f = VCont ob kids -> In c kids -> F c = None;
  cp_tidy : forall x, F' x <> None -> F x = None -> tidy F' x;
  cp_tidy_old : forall x, F x <> None -> tidy F x -> tidy F' x
}.

Lemma valueCopyFrom_wp s F v w A vv a B j fuel : inv s F -> handle s F v w A -> svals s vv = Some (mkVal (At a) B) ->
  (exists f, F a = Some f /\ usedA s A + 72 + icost (fkey f, j) <= two30) -> reads F a j -> (S (jsteps j) <= fuel)%nat ->
  wp (zj_ValueCopyFrom fuel v vv) s (fun r s' => r = true /\ exists f F' n, F a = Some f /\ copied_node s F a j s' F' n /\
    svals s' v = Some (mkVal (At n) A) /\ (forall u, u <> v -> svals s' u = svals s u) /\
    ext none (only v) (at_ A (72 + icost (fkey f, j))) s s').
Proof.
  intros I (Hv & [Al NA] & _) Hvv (f & Fa & Hu) Hr Hf. unfold zj_ValueCopyFrom.
  apply wp_bind, (wp_getVal _ _ _ _ Hvv). cbn [vN vA]. apply wp_bind, wp_ret. cbv iota.
  apply wp_bind, (wp_getVal _ _ _ _ Hv). cbn [vN vA].
  set (K := 72 + icost (fkey f, j)).
  assert (HK : usedA s A + K <= two30) by (unfold K; lia).
  eapply wp_seq; [eapply (c_new s F A (only v) K I Al HK 0 s); [now apply ext_start, I|unfold K; lia]|].
  intros n s1 (X1 & B1 & U1). cbn [N.add] in X1.
  pose proof (mc_vals _ _ (nu_mch _ _ _ _ U1)) as V1.
  apply wp_bind, wp_putVal.
  set (s2 := set_vals (upd (svals s1) v (mkVal (At n) A)) s1).
  assert (X2 : cext s A (only v) 72 s2).
  { apply ext_putVal; auto; [right; reflexivity|]. left. rewrite V1, Hv. discriminate. }
  assert (Hn2 : snodes s2 n = Some blank_node) by apply U1.
  eapply wp_seq; [eapply (c_mod s F A (only v) I 72 s2); eauto|]. intros [] s3 [X3 U3].
  eapply wp_seq; [eapply (c_mod s F A (only v) I 72 s3); eauto; apply U3|]. intros [] s4 [X4 U4].
  eapply wp_seq; [eapply (c_mod s F A (only v) I 72 s4); eauto; apply U4|]. intros [] s5 [X5 U5].
  pose proof (nupd_trans _ _ _ _ _ _ U3 (nupd_trans _ _ _ _ _ _ U4 U5)) as U35.
  apply wp_bind, wp_deref.
  assert (C5 : cst s A (only v) 72 s5 (fun _ => None)).
  { constructor; auto; try discriminate; try tauto. }
  replace fuel with (jsteps j + S (fuel - S (jsteps j)))%nat by lia.
  apply wp_bind.
  eapply (proj1 (copy_walk s F A a (only v) K I Al NA HK) a j Hr f Fa) with (G := fun _ => None) (k := 72); eauto.
  { intros b Hb ->. exact (proj1 (reads_acyclic F) a j Hr Hb). }
  { apply U35. }
  { reflexivity. }
  intros s6 G (C6 & _ & K6 & N6 & nd & val & D6 & (L1 & L2 & L3) & R6 & V6 & O6 & Rd6).
  cbn [copy_loop]. rewrite addr_eqb_refl. apply wp_ret, wp_ret. split; auto.
  set (f0 := mkF (fkey f) VNull None None None None false).
  assert (Fn : F n = None) by (eapply inv_beyond; eauto).
  assert (HG : forall x, G x <> None -> F x = None) by (intros x Gx; eapply inv_beyond; eauto; eapply cs_new; eauto).
  assert (Gn : G n = None).
  { eapply (fresh_none s5 (fun _ => None)); eauto. rewrite (nu_eq _ _ _ _ U35). discriminate. }
  assert (Vv : forall u, svals s6 u = svals s2 u).
  { intro u. now rewrite (kp_vals _ _ _ K6), (mc_vals _ _ (nu_mch _ _ _ _ U35)). }
  exists f, (merged F G n f0 val), n. split; auto. split; [|split; [|split]].
  - assert (X6 : ext none (only v) (at_ A K) s s6) by apply C6.
    assert (Hl : F n = None \/ exists f, F n = Some f /\ same_links f f0 /\ fprev f0 = fprev f) by auto.
    assert (Sub : submap F (merged F G n f0 val)).
    { intros x g Hx. eapply merged_old; eauto. congruence. }
    assert (Vc : forall ob kids, val = VCont ob kids -> chain G n ob kids /\ lenN kids < two32).
    { intros ob kids ->. destruct Rd6 as (items & _ & _ & H1 & H2 & _). auto. }
    constructor; auto.
    + constructor.
      * apply X6.
      * eapply (merged_rep F G n f0 val s s6 nd); eauto; try apply I; try apply C6. intros x [].
      * apply merged_wfdom; auto; try apply I; try apply C6.
      * eapply wfvol_ext; eauto. apply I.
      * eapply (merged_off F G n f0 val s s6 nd); eauto; try apply C6. now apply at_novol.
    + apply merged_reads; auto.
    + exists f, (relink f0 val). split; auto. split; [apply merged_root|]. repeat split.
    + intros x Hx Hf'. destruct (merged F G n f0 val x) as [g|] eqn:E; [|congruence].
      apply merged_inv in E as [(-> & _)|[(_ & H)|(_ & _ & H)]]; [auto| |congruence].
      eapply cs_new; eauto. congruence.
    + intros x g ob kids c Hx Fx Hv' Hc.
      assert (Gc : forall q, chain G q ob kids -> F c = None).
      { intros q Hq. destruct (chain_in _ _ _ _ _ Hq Hc) as (fc & H1 & _). apply HG. congruence. }
      apply merged_inv in Hx as [(-> & ->)|[(_ & H)|(_ & _ & H)]]; [| |congruence].
      * simpl in Hv'. destruct (Vc _ _ Hv'). eauto.
      * destruct (cs_dom _ _ _ _ _ _ C6 x g H) as [D1 _]. destruct (D1 _ _ Hv'). eauto.
    + intros x Hx Fx. apply merged_tidy_new; auto; [apply C6| |].
      * intros ob kids ->. now destruct Rd6 as (items & _ & _ & _ & _ & H).
      * destruct (merged F G n f0 val x) as [g|] eqn:E; [|congruence].
        apply merged_inv in E as [(-> & _)|[(_ & H)|(_ & _ & H)]]; [auto| |congruence]. right. congruence.
    + intros x Fx T. apply merged_tidy_old; auto. congruence.
  - rewrite Vv. apply upd_eq.
  - intros u Hu'. rewrite Vv. unfold s2. simpl. rewrite upd_neq by auto. now rewrite V1.
  - exact (cs_ext _ _ _ _ _ _ C6).
Qed.

Lemma copied_before s s1 F a j s' F' n (Dn Dv : addr -> Prop) c : ext Dn Dv c s s1 -> copied_node s1 F a j s' F' n -> copied_node s F a j s' F' n.
Proof.
  intros X []. constructor; auto; [eapply beyond_ext; eauto|].
  intros x H1 H2. eapply beyond_ext; eauto.
Qed.
(** Nothing below the copy was there before. *)
Lemma copied_below s F a j s' F' n x : inv s F -> copied_node s F a j s' F' n -> below F' n x -> F x = None /\ F' x <> None.
Proof.
  intros I C H. induction H as [|b f ob kids c H IH Hb Hv Hc].
  - split; [eapply inv_beyond; eauto; apply C|]. destruct (cp_root _ _ _ _ _ _ _ C) as (f & f' & _ & E & _). congruence.
  - destruct IH as [IH1 IH2]. split; [eapply cp_closed; eauto|].
    destruct (i_dom _ _ (cp_inv _ _ _ _ _ _ _ C) b f Hb) as [D _]. destruct (D _ _ Hv) as [Hch _].
    destruct (chain_in _ _ _ _ _ Hch Hc) as (fc & E & _). congruence.
Qed.

Lemma copy_wp s F v a A j fuel f : inv s F -> handle s F v (At a) A -> F a = Some f -> reads F a j ->
  usedA s A + 88 + icost (fkey f, j) <= two30 -> (S (jsteps j) <= fuel)%nat ->
  wp (zj_Copy fuel v) s (fun r s' => exists h F' n, r = Some h /\ beyond s h /\ copied_node s F a j s' F' n /\
    svals s' h = Some (mkVal (At n) A) /\ (forall u, u <> h -> svals s' u = svals s u) /\
    ext none none (at_ A (88 + icost (fkey f, j))) s s').
Proof.
  intros I H Fa Hr Hu Hf. pose proof H as (Hv & [Al NA] & _). unfold zj_Copy.
  apply wp_bind, (wp_getVal _ _ _ _ Hv). cbn [vA]. unfold zj_NewValue.
  eapply wp_seq; [eapply (newval_step none none A 0 s s Null); auto; [apply I|apply ext_start, I|lia]|].
  intros h s1 (X1 & B1 & V1). cbn [N.add] in X1.
  assert (Nh : v <> h).
  { intros ->. pose proof (beyond_nothing s h (i_wf _ _ I) B1) as (_ & _ & E & _). congruence. }
  pose proof (x_used _ _ _ _ _ X1 A) as U. rewrite at_eq in U.
  eapply wp_seq.
  - eapply (valueCopyFrom_wp s1 F h Null A v a A j fuel); eauto.
    + eapply ext_inv; eauto.
    + split; [apply V1|]. split; [split; auto; now apply (x_alive _ _ _ _ _ X1)|auto].
    + rewrite (vn_neq _ _ _ _ V1); auto.
    + exists f. split; auto. lia.
  - intros r s' (-> & f' & F' & n & Fa' & C & Vh & Vo & X2). apply wp_ret.
    rewrite Fa in Fa'. injection Fa' as <-. exists h, F', n. split; auto. split; auto.
    split; [eapply copied_before; eauto|]. split; auto. split.
    + intros u Nu. rewrite Vo by auto. now apply (vn_neq _ _ _ _ V1).
    + eapply (ext_clean none (only h)).
      * eapply (ext_more none (only h) A (16 + (72 + icost (fkey f, j)))); [|lia].
        eapply ext_then; [|exact X2]. eapply ext_weaken; [exact X1|..]; auto; [intros ? []|intro; apply N.le_refl].
      * intros x y _ [].
      * intros u x E -> _. pose proof (beyond_nothing s h (i_wf _ _ I) B1) as (_ & _ & E' & _). congruence.
      * intro x. right. intros [].
      * intro x. unfold only. destruct (addr_eqb_spec x h); [left|right]; auto.
Qed.
Lemma copy_empty s F v A fuel : inv s F -> handle s F v Null A -> usedA s A + 16 <= two30 ->
  wp (zj_Copy fuel v) s (fun r s' => r = None /\ inv s' F /\ ext none none (at_ A 16) s s').
Proof.
  intros I H Hu. pose proof H as (Hv & [Al NA] & _). unfold zj_Copy.
  apply wp_bind, (wp_getVal _ _ _ _ Hv). cbn [vA]. unfold zj_NewValue.
  eapply wp_seq; [eapply (newval_step none none A 0 s s Null); auto; [apply I|apply ext_start, I|lia]|].
  intros h s1 (X1 & B1 & V1). cbn [N.add] in X1.
  assert (Nh : v <> h).
  { intros ->. pose proof (beyond_nothing s h (i_wf _ _ I) B1) as (_ & _ & E & _). congruence. }
  unfold zj_ValueCopyFrom. apply wp_bind, wp_bind, (wp_getVal _ (mkVal Null A)).
  { rewrite (vn_neq _ _ _ _ V1); auto. }
  cbn [vN]. apply wp_bind, wp_ret. cbv iota. apply wp_ret, wp_ret. split; auto. split; auto. eapply ext_inv; eauto.
Qed.
End WithVol.
