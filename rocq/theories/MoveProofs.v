(** zj_Move, the add, set and delete functions, seen from the handles. *)
From Verif Require Import Base Spec Lex LexProofs Alloc AllocProofs Mem MemProofs Api PureParse Dom Effect Steps StrBuf
  StringifyProofs ParseProofs ParseTop CacheProofs SetProofs Update KeyProofs GetProofs CopyProofs LinkProofs.

Section WithVol.
Context {VV : vols}.

Definition inF (F : dom) : addr -> Prop := fun x => F x <> None.

Lemma ext_chain0 Dn Dv s s1 s2 : ext Dn Dv zeroc s s1 -> ext Dn Dv zeroc s1 s2 -> ext Dn Dv zeroc s s2.
Proof. intros X Y. eapply ext_weaken; [eapply ext_trans; [exact X|exact Y]|auto|auto|]. intro. unfold addc, zeroc. lia. Qed.
Lemma ext_wide (Dn Dv Dn' Dv' : addr -> Prop) c s s' : ext Dn Dv c s s' -> (forall x, Dn x -> Dn' x) -> (forall x, Dv x -> Dv' x) ->
  ext Dn' Dv' c s s'.
Proof. intros X H1 H2. eapply ext_weaken; [exact X|auto|auto|]. intro. apply N.le_refl. Qed.

(** ** Being taken out: [removed F a F'] *)
Inductive removed (F : dom) (a : addr) : dom -> Prop :=
| rm_free f : F a = Some f -> fpar f = None -> removed F a F
| rm_from f p fp ob l r : F a = Some f -> fpar f = Some p -> F p = Some fp -> fvalue fp = VCont ob (l ++ a :: r) ->
    fprev f = last_error l -> ~ In p (l ++ a :: r) -> removed F a (unlink F a p f fp ob l r).

Lemma removed_wfdom F a F' : wfdom F -> removed F a F' -> wfdom F'.
Proof. intros W [f H1 H2|f p fp ob l r H1 H2 H3 H4 H5 H6]; auto. eapply unlink_wfdom; eauto. Qed.
Lemma removed_root F a F' : wfdom F -> removed F a F' -> exists f f', F a = Some f /\ F' a = Some f' /\
  fkey f' = fkey f /\ fvalue f' = fvalue f /\ fend f' = fend f /\ fpar f' = None /\ fnext f' = None /\ fprev f' = None.
Proof.
  intros W [f H1 H2|f p fp ob l r H1 H2 H3 H4 H5 H6].
  - destruct (W a f H1) as [_ W2]. destruct (W2 H2). exists f, f. auto 10.
  - exists f, (detach f). split; auto. split; [eapply unlink_a; eauto|]. auto 10.
Qed.
Lemma removed_dom F a F' x : wfdom F -> removed F a F' -> (F' x <> None <-> F x <> None).
Proof.
  intros W [f H1 H2|f p fp ob l r H1 H2 H3 H4 H5 H6]; [tauto|]. split; intro H.
  - destruct (unlink F a p f fp ob l r x) as [f'|] eqn:E; [|congruence]. destruct (unlink_some F a p f fp ob l r W H1 H3 H4 H6 x f' E) as (f0 & E0). congruence.
  - destruct (F x) as [f0|] eqn:E0; [|congruence].
    destruct (unlink_keep F a p f fp ob l r W H1 H3 H4 H6 x f0 E0) as (f' & E & _). congruence.
Qed.
Lemma removed_kids F a F' x f' ob kids : wfdom F -> removed F a F' -> F' x = Some f' -> fvalue f' = VCont ob kids ->
  exists f0 kids0, F x = Some f0 /\ fvalue f0 = VCont ob kids0 /\ forall c, In c kids -> In c kids0.
Proof.
  intros W [f H1 H2|f p fp ob' l r H1 H2 H3 H4 H5 H6] Hx Hv; [eauto|].
  destruct (unlink_some F a p f fp ob' l r W H1 H3 H4 H6 x f' Hx) as (f0 & E0).
  destruct (unlink_keep F a p f fp ob' l r W H1 H3 H4 H6 x f0 E0) as (f1 & E1 & E2 & E3).
  assert (f1 = f') by congruence. subst f1. exists f0. destruct (addr_eqb_spec x p) as [->|N].
  - rewrite (unlink_p F a p f fp ob' l r) in E1 by auto. injection E1 as <-. simpl in Hv. injection Hv as <- <-.
    exists (l ++ a :: r). assert (f0 = fp) by congruence. subst f0. split; auto. split; auto.
    intros c Hc. apply in_app_iff in Hc. apply in_app_iff. simpl. tauto.
  - rewrite E3 in Hv by auto. eauto.
Qed.
Lemma removed_below F a F' x y : wfdom F -> removed F a F' -> below F' x y -> below F x y.
Proof.
  intros W R H. induction H as [|b f ob kids c H IH Hb Hv Hc]; [constructor|].
  destruct (removed_kids F a F' b f ob kids W R Hb Hv) as (f0 & k0 & E1 & E2 & E3). eapply bl_kid; eauto.
Qed.
Lemma removed_keys F a F' x f0 : wfdom F -> removed F a F' -> F x = Some f0 -> exists f', F' x = Some f' /\ fkey f' = fkey f0.
Proof.
  intros W [f H1 H2|f p fp ob' l r H1 H2 H3 H4 H5 H6] Hx; [eauto|].
  destruct (unlink_keep F a p f fp ob' l r W H1 H3 H4 H6 x f0 Hx) as (f1 & E1 & E2 & _). eauto.
Qed.
(** The node keeps its value. *)
Lemma removed_reads F a F' j : wfdom F -> removed F a F' -> reads F a j -> reads F' a j.
Proof.
  intros W [f H1 H2|f p fp ob l r H1 H2 H3 H4 H5 H6] R; auto.
  eapply (changed_frame none); [eapply unlink_changed; eauto|exact R| |intros d _ []].
  intro B. apply (proj1 (reads_acyclic F) a j R). destruct (below_cases _ _ _ B) as [E|S].
  - subst p. exfalso. apply H6. apply in_app_iff. simpl. auto.
  - destruct S as (g & ob' & kids & c & E1 & E2 & E3 & E4). exists g, ob', kids, c. repeat (split; auto).
    eapply bl_kid; eauto. apply in_app_iff. simpl. auto.
Qed.
(** So does everything that does not have the node's old father in it. *)
Lemma removed_frame F a F' x j : wfdom F -> removed F a F' -> reads F x j -> ~ sbelow F x a -> reads F' x j.
Proof.
  intros W [f H1 H2|f p fp ob l r H1 H2 H3 H4 H5 H6] R N; auto.
  eapply (changed_frame none); [eapply unlink_changed; eauto|exact R| |intros d _ []].
  intro B. apply N. apply below_cases in B as [->|S].
  - exists fp, ob, (l ++ a :: r), a. repeat (split; auto); [|constructor]. apply in_app_iff. simpl. auto.
  - destruct S as (g & ob' & kids & c & E1 & E2 & E3 & E4). exists g, ob', kids, c. repeat (split; auto).
    eapply bl_kid; eauto. apply in_app_iff. simpl. auto.
Qed.
Lemma touched_inF F a p f fp ob l r x : wfdom F -> F a = Some f -> F p = Some fp -> fvalue fp = VCont ob (l ++ a :: r) ->
  ~ In p (l ++ a :: r) -> touched a p l r x -> inF F x.
Proof.
  intros W H1 H3 H4 H6 H. unfold inF. destruct H as [->|[->|[K|K]]]; try congruence.
  - destruct (ul_pred F a p fp ob l r W H3 H4 H6 x K) as (_ & _ & _ & fb & E & _). congruence.
  - destruct (ul_succ F a p fp ob l r W H3 H4 H6 x K) as (_ & _ & _ & fb & E & _). congruence.
Qed.


Lemma move_node_free s F a f : inv s F -> F a = Some f -> fpar f = None ->
  wp (move_node a) s (fun _ s' => s' = s).
Proof.
  intros I Fa Hp. unfold move_node. destruct (i_rep _ _ I a f Fa) as (n & En & R); [auto|].
  apply wp_bind, (wp_getNode _ n); auto. rewrite (r_par _ _ _ R), Hp. cbn [wopt].
  apply wp_bind, wp_ret. cbv iota. now apply wp_ret.
Qed.
Lemma move_node_wp s F a F' : inv s F -> removed F a F' ->
  wp (move_node a) s (fun _ s' => ext (inF F) none zeroc s s' /\ mch s s' /\ inv s' F').
Proof.
  intros I [f H1 H2|f p fp ob l r H1 H2 H3 H4 H5 H6].
  - eapply wp_mono; [eapply move_node_free; eauto|]. intros u s' ->. split; [apply ext_refl, I|]. split; [apply mch_refl|auto].
  - eapply wp_mono; [eapply (move_attached F a p f fp ob l r); eauto; apply I|]. intros u s' (X & M & I'). split; [|auto].
    eapply ext_weaken; [exact X|intros x Hx; apply (touched_inF F a p f fp ob l r x (i_dom _ _ I)); auto|auto|intro; apply N.le_refl].
Qed.
Lemma move_wp s F v a A F' : inv s F -> handle s F v (At a) A -> removed F a F' ->
  wp (zj_Move v) s (fun r s' => r = true /\ inv s' F' /\ mch s s' /\ ext (inF F) none zeroc s s').
Proof.
  intros I (Hv & _) R. unfold zj_Move. apply wp_bind, (wp_getVal _ _ _ _ Hv). cbn [vN].
  apply wp_bind, wp_ret. cbv iota. apply wp_bind, wp_deref.
  eapply wp_seq; [apply (move_node_wp s F a F' I R)|]. intros [] s' (X & M & I'). apply wp_ret. auto.
Qed.
Lemma move_empty s F v A : handle s F v Null A -> wp (zj_Move v) s (fun r s' => r = false /\ s' = s).
Proof.
  intros (Hv & _). unfold zj_Move. apply wp_bind, (wp_getVal _ _ _ _ Hv). cbn [vN].
  apply wp_bind, wp_ret. cbv iota. now apply wp_ret.
Qed.

Lemma sbelow_kid F x y : sbelow F x y -> exists z, child F z y.
Proof.
  intros (f & ob & kids & c & H1 & H2 & H3 & H4). inversion H4 as [E|b g ob' kids' d H5 H6 H7 H8]; subst.
  - exists x, f, ob, kids. auto.
  - exists b, g, ob', kids'. auto.
Qed.

(** ** Forgetting the key of a detached node *)
Definition nokey (f : fnode) : fnode := mkF None (fvalue f) (fpar f) (fnext f) (fprev f) (fend f) (fstop f).
Definition dropkey (F : dom) (c : addr) : dom := fun x => if addr_eqb x c then option_map nokey (F x) else F x.
Lemma dropkey_at F c f : F c = Some f -> dropkey F c c = Some (nokey f).
Proof. intro H. unfold dropkey. now rewrite addr_eqb_refl, H. Qed.
Lemma dropkey_other F c x : x <> c -> dropkey F c x = F x.
Proof. intro H. unfold dropkey. now rewrite addr_eqb_neq. Qed.
Lemma dropkey_keep F c x f : F x = Some f -> exists f', dropkey F c x = Some f' /\ fvalue f' = fvalue f /\ fpar f' = fpar f /\
  fnext f' = fnext f /\ fprev f' = fprev f /\ fend f' = fend f /\ (x <> c -> f' = f).
Proof.
  intro H. destruct (addr_eqb_spec x c) as [->|N].
  - exists (nokey f). split; [now apply dropkey_at|]. repeat (split; auto). congruence.
  - exists f. rewrite dropkey_other by auto. auto 10.
Qed.
Lemma dropkey_back F c x f' : dropkey F c x = Some f' -> exists f, F x = Some f /\ fvalue f' = fvalue f /\ fpar f' = fpar f /\
  fnext f' = fnext f /\ fprev f' = fprev f /\ fend f' = fend f /\ (x <> c -> f' = f).
Proof.
  intro H. unfold dropkey in H. destruct (addr_eqb_spec x c) as [->|N].
  - destruct (F c) as [f|]; [|discriminate]. injection H as <-. exists f. repeat (split; auto). congruence.
  - exists f'. auto 10.
Qed.
Lemma dropkey_below F c x y : below (dropkey F c) x y <-> below F x y.
Proof.
  split; intro H; induction H as [|b f ob kids d H IH Hb Hv Hd]; try constructor.
  - destruct (dropkey_back F c b f Hb) as (f0 & E1 & E2 & _). apply (bl_kid _ x b f0 ob kids d); auto. congruence.
  - destruct (dropkey_keep F c b f Hb) as (f0 & E1 & E2 & _). apply (bl_kid _ x b f0 ob kids d); auto. congruence.
Qed.
Section DropKey.
Variables (F : dom) (c : addr) (fc : fnode).
Hypothesis Wd : wfdom F.
Hypothesis Fc : F c = Some fc.
Hypothesis Hc : fpar fc = None.
Lemma dropkey_wfdom : wfdom (dropkey F c).
Proof.
  intros x f' Hx. destruct (dropkey_back F c x f' Hx) as (f & E1 & E2 & E3 & E4 & E5 & E6 & E7).
  destruct (Wd x f E1) as [D1 D2]. split; [|rewrite E3, E4, E5; auto].
  intros ob kids Hv. rewrite E2 in Hv. destruct (D1 _ _ Hv) as [C L]. split; auto. eapply chain_links; [|exact C].
  intros d fd Hd Ed. destruct (chain_in _ _ _ _ _ C Hd) as (g & G1 & G2 & _).
  exists fd. rewrite dropkey_other; [split; [auto|repeat split]|]. intros ->. congruence.
Qed.
Lemma dropkey_changed a : changed none F (dropkey F c) a.
Proof.
  intros x f H _. destruct (dropkey_keep F c x f H) as (f' & E1 & E2 & _ & _ & _ & _ & E7). exists f'. split; auto. split; auto.
  intros y _ (fy & ob & kids & Y1 & Y2 & Y3). destruct (Wd y fy Y1) as [D1 _]. destruct (D1 _ _ Y2) as [C _].
  destruct (chain_in _ _ _ _ _ C Y3) as (g & G1 & G2 & _). rewrite E7; auto. intros ->. congruence.
Qed.
Lemma dropkey_reads x j : reads F x j -> reads (dropkey F c) x j.
Proof.
  intro R. eapply reads_frame; [exact R| |].
  - intros b f Hb _. destruct (dropkey_keep F c b f Hb) as (f' & E1 & E2 & _). eauto.
  - intros b f f' Hb Hb' S. destruct (dropkey_keep F c b f Hb) as (f1 & E1 & _ & _ & _ & _ & _ & E7).
    assert (f1 = f') by congruence. subst f1. rewrite E7; auto. intros ->.
    destruct (sbelow_kid _ _ _ S) as (y & fy & ob & kids & Y1 & Y2 & Y3).
    destruct (Wd y fy Y1) as [D1 _]. destruct (D1 _ _ Y2) as [C _].
    destruct (chain_in _ _ _ _ _ C Y3) as (g & G1 & G2 & _). congruence.
Qed.
Lemma dropkey_tidy x : tidy F x -> tidy (dropkey F c) x.
Proof.
  intros T f' ob kids E V. destruct (dropkey_back F c x f' E) as (f & E1 & E2 & _ & _ & _ & E6 & _).
  rewrite E2 in V. destruct (T f ob kids E1 V) as [T1 T2]. split; [congruence|]. eapply prevs_links; [|exact T2].
  intros d fd _ Ed. destruct (dropkey_keep F c d fd Ed) as (f1 & K1 & _ & _ & _ & K2 & _). eauto.
Qed.
Lemma dropkey_wp s D c0 s0 : inv s F -> ext D none c0 s0 s -> D c ->
  wp (modNode c (wKey Null)) s (fun _ s' => ext D none c0 s0 s' /\ mch s s' /\ inv s' (dropkey F c)).
Proof.
  intros I X Dc. destruct (i_rep _ _ I c fc Fc) as (n & En & R); [auto|].
  assert (X0 : ext (only c) none zeroc s s) by apply ext_refl, I.
  eapply wp_mono; [eapply (modNode_step (only c) none zeroc s s c); [exact X0|exact En|right; reflexivity|apply I]|].
  intros [] s' [X2 U1]. split; [|split; [apply U1|]].
  { eapply ext_weaken; [eapply ext_trans; [exact X|eapply ext_weaken; [exact X2|intros x Hx; now rewrite Hx|auto|intro; apply N.le_refl]]|auto|auto|].
    intro. unfold addc, zeroc. lia. }
  eapply (inv_relink (only c) zeroc s s' F); [exact I|exact X2|apply U1|..].
  - intros x f' Hx. destruct (dropkey_back F c x f' Hx) as (f & E & _). eauto.
  - intros x f' Hx. destruct (addr_eqb_spec x c) as [->|N].
    + right. rewrite (dropkey_at F c fc Fc) in Hx. injection Hx as <-. exists (wKey Null n). split; [apply U1|].
      destruct R. constructor; auto. reflexivity.
    + left. rewrite dropkey_other in Hx by auto. split; auto. now apply U1.
  - apply dropkey_wfdom.
Qed.
End DropKey.

(** ** Appending *)
Record appendable (F : dom) (ob : bool) (a c : addr) (fa fc : fnode) (kids : list addr) : Prop := {
  ab_a : F a = Some fa;
  ab_val : fvalue fa = VCont ob kids;
  ab_c : F c = Some fc;
  ab_free : fpar fc = None;
  ab_neq : a <> c;
  ab_self : ~ In a kids;
  ab_end : kids <> [] -> fend fa = last_error kids;
  ab_key : if ob then fkey fc <> None else fkey fc = None;
  ab_len : lenN kids + 1 < two32
}.
Lemma append_step s F ob a c fa fc kids : inv s F -> appendable F ob a c fa fc kids ->
  wp (append_node a c) s (fun _ s' => ext (inF F) none zeroc s s' /\ mch s s' /\ inv s' (append F a c fa fc ob kids)).
Proof.
  intros I []. eapply wp_mono; [eapply (append_node_wp F a c fa fc ob kids); eauto; apply I|]. intros u s' (X & M & I').
  split; [|auto]. eapply ext_weaken; [exact X| |auto|intro; apply N.le_refl]. intros x [->|[->|K]]; unfold inF; try congruence.
  destruct (ap_pred F a c fa fc ob kids (i_dom _ _ I) ab_a0 ab_val0 ab_c0 ab_free0 ab_self0 x K) as (_ & _ & fb & E & _). congruence.
Qed.

Lemma put_null s F vv x B : inv s F -> svals s vv = Some (mkVal x B) ->
  wp (putVal vv (mkVal Null B)) s (fun _ s' => inv s' F /\ svals s' vv = Some (mkVal Null B) /\
    (forall u, u <> vv -> svals s' u = svals s u) /\ ext none (only vv) zeroc s s').
Proof.
  intros I Hv. apply wp_putVal.
  assert (X : ext none (only vv) zeroc s (set_vals (upd (svals s) vv (mkVal Null B)) s)).
  { apply ext_putVal; [apply ext_refl, I|right; reflexivity|left; congruence]. }
  split; [eapply ext_inv; eauto|]. split; [simpl; now rewrite upd_eq|]. split; auto.
  intros u Hu. simpl. now rewrite upd_neq.
Qed.

Lemma inF_removed F a F' x : wfdom F -> removed F a F' -> inF F' x -> inF F x.
Proof. intros W R. unfold inF. rewrite (removed_dom F a F' x W R). auto. Qed.

(** *** zj_ObjAddFast, zj_ArrayAddFast *)
Definition added (s : st) (F : dom) (vv : addr) (B : N) (F' : dom) (r : bool) (s' : st) : Prop :=
  r = true /\ inv s' F' /\ svals s' vv = Some (mkVal Null B) /\ (forall u, u <> vv -> svals s' u = svals s u) /\
  ext (inF F) (only vv) zeroc s s'.

Lemma objAddFast_wp s F v a A vv c B F1 fa fc kids : inv s F -> handle s F v (At a) A -> handle s F vv (At c) B ->
  removed F c F1 -> appendable F1 true a c fa fc kids ->
  wp (zj_ObjAddFast v vv) s (added s F vv B (append F1 a c fa fc true kids)).
Proof.
  intros I Hv Hvv R Ab. pose proof (i_dom _ _ I) as Wd. pose proof (i_wf _ _ I) as W.
  destruct (removed_kids F c F1 a fa true kids Wd R (ab_a _ _ _ _ _ _ _ Ab) (ab_val _ _ _ _ _ _ _ Ab)) as (fa0 & k0 & A1 & A2 & _).
  destruct (removed_root F c F1 Wd R) as (fc0 & fc1 & C1 & C2 & C3 & _).
  assert (fc1 = fc) by (pose proof (ab_c _ _ _ _ _ _ _ Ab); congruence). subst fc1.
  unfold zj_ObjAddFast, when_type. eapply wp_seq with (P := fun r s' => exists b, r = Some b /\ added s F vv B (append F1 a c fa fc true kids) b s').
  2:{ intros r s' (b & -> & K). now apply wp_ret. }
  eapply (with_type_node s F v A I a fa0 Hv A1); [rewrite A2; intro K; now elim K|].
  intros n _ _ _. eapply wp_seq; [|intros b s' K; apply wp_ret; exists b; split; [reflexivity|exact K]].
  unfold when_key. eapply wp_seq with (P := fun r s' => exists b, r = Some b /\ added s F vv B (append F1 a c fa fc true kids) b s').
  2:{ intros r s' (b & -> & K). now apply wp_ret. }
  eapply (with_key_node s F vv B I c fc0 Hvv C1).
  { intro K. pose proof (ab_key _ _ _ _ _ _ _ Ab) as K'. simpl in K'. congruence. }
  intros m b p _ _ _ _ _ _. eapply wp_seq; [|intros b' s' K; apply wp_ret; exists b'; split; [reflexivity|exact K]].
  eapply wp_seq; [eapply (move_wp s F vv c B F1); eauto|]. intros r s1 (-> & I1 & M1 & X1). cbn [negb]. cbv iota.
  pose proof (mc_vals _ _ M1) as V1.
  eapply wp_bind, wp_getVal; [rewrite V1; apply Hvv|]. cbn [vN vA]. apply wp_bind, wp_deref.
  eapply wp_bind, wp_getVal; [rewrite V1; apply Hv|]. cbn [vN vA]. apply wp_bind, wp_deref.
  eapply wp_seq; [eapply append_step; eauto|]. intros [] s2 (X2 & M2 & I2). pose proof (mc_vals _ _ M2) as V2.
  eapply wp_seq; [eapply put_null; eauto; rewrite V2, V1; apply Hvv|]. intros [] s3 (I3 & E3 & O3 & X3).
  apply wp_ret. split; auto. split; auto. split; auto. split; [intros u Hu; rewrite O3 by auto; congruence|].
  apply (ext_chain0 _ _ s s1); [eapply ext_wide; [exact X1|auto|intros x []]|].
  apply (ext_chain0 _ _ s1 s2); [eapply ext_wide; [exact X2|intros x; eapply inF_removed; eauto|intros x []]|].
  eapply ext_wide; [exact X3|intros x []|auto].
Qed.

Lemma arrayAddFast_wp s F v a A vv c B F1 fa fc kids : inv s F -> handle s F v (At a) A -> handle s F vv (At c) B ->
  removed F c F1 -> appendable (dropkey F1 c) false a c fa fc kids ->
  wp (zj_ArrayAddFast v vv) s (added s F vv B (append (dropkey F1 c) a c fa fc false kids)).
Proof.
  intros I Hv Hvv R Ab. pose proof (i_dom _ _ I) as Wd. pose proof (i_wf _ _ I) as W.
  destruct (dropkey_back F1 c a fa (ab_a _ _ _ _ _ _ _ Ab)) as (fa1 & A1' & A2' & _).
  pose proof (ab_val _ _ _ _ _ _ _ Ab) as A3'. rewrite A2' in A3'.
  destruct (removed_kids F c F1 a fa1 false kids Wd R A1' A3') as (fa0 & k0 & A1 & A2 & _).
  destruct (removed_root F c F1 Wd R) as (fc0 & fc1 & C1 & C2 & C3 & _ & _ & C4 & _).
  unfold zj_ArrayAddFast, when_type.
  eapply wp_seq with (P := fun r s' => exists b, r = Some b /\ added s F vv B (append (dropkey F1 c) a c fa fc false kids) b s').
  2:{ intros r s' (b & -> & K). now apply wp_ret. }
  eapply (with_type_node s F v A I a fa0 Hv A1); [rewrite A2; intro K; now elim K|].
  intros n _ _ _. eapply wp_seq; [|intros b s' K; apply wp_ret; exists b; split; [reflexivity|exact K]].
  eapply wp_seq; [eapply (move_wp s F vv c B F1); eauto|]. intros r s1 (-> & I1 & M1 & X1). cbn [negb]. cbv iota.
  pose proof (mc_vals _ _ M1) as V1.
  eapply wp_bind, wp_getVal; [rewrite V1; apply Hvv|]. cbn [vN vA]. apply wp_bind, wp_deref.
  assert (X1' : ext (inF F) none zeroc s1 s1) by apply ext_refl, I1.
  eapply wp_seq; [eapply (dropkey_wp F1 c fc1 (removed_wfdom _ _ _ Wd R) C2 C4 s1 (inF F) zeroc s1); auto; unfold inF; congruence|].
  intros [] s2 (X2 & M2 & I2). pose proof (mc_vals _ _ M2) as V2.
  eapply wp_bind, wp_getVal; [rewrite V2, V1; apply Hv|]. cbn [vN vA]. apply wp_bind, wp_deref.
  eapply wp_seq; [eapply append_step; eauto|]. intros [] s3 (X3 & M3 & I3). pose proof (mc_vals _ _ M3) as V3.
  eapply wp_seq; [eapply put_null; eauto; rewrite V3, V2, V1; apply Hvv|]. intros [] s4 (I4 & E4 & O4 & X4).
  apply wp_ret. split; auto. split; auto. split; auto. split; [intros u Hu; rewrite O4 by auto; congruence|].
  apply (ext_chain0 _ _ s s1); [eapply ext_wide; [exact X1|auto|intros x []]|].
  apply (ext_chain0 _ _ s1 s2); [eapply ext_wide; [exact X2|auto|intros x []]|].
  apply (ext_chain0 _ _ s2 s3); [eapply ext_wide; [exact X3| |intros x []]|eapply ext_wide; [exact X4|intros x []|auto]].
  intros x Hx. eapply inF_removed; eauto. unfold inF in *. intro K. apply Hx. unfold dropkey. rewrite K. now destruct (addr_eqb x c).
Qed.

(** *** zj_ObjAdd, zj_ArrayAdd *)
Record addable (F : dom) (ob : bool) (a : addr) (fa : fnode) (kids : list addr) : Prop := {
  ad_a : F a = Some fa;
  ad_val : fvalue fa = VCont ob kids;
  ad_self : ~ In a kids;
  ad_end : kids <> [] -> fend fa = last_error kids;
  ad_len : lenN kids + 1 < two32
}.
(** The copied tree stands at [n] in [F1]; what the call does then is in [F']. *)
Definition copy_added (s : st) (F : dom) (b : addr) (B : N) (j : json) (c : N) (P : dom -> addr -> dom -> Prop) (r : bool) (s' : st) : Prop :=
  r = true /\ exists s1 F1 n F', copied_node s F b j s1 F1 n /\ P F1 n F' /\ inv s' F' /\
  (forall u x, svals s u = Some x -> svals s' u = Some x) /\ ext (inF F) none (at_ B c) s s'.

Lemma copied_neq s F b j s1 F1 n a : inv s F -> copied_node s F b j s1 F1 n -> F a <> None -> a <> n.
Proof. intros I C H ->. apply H. eapply inv_beyond; eauto. apply C. Qed.
Lemma copy_ext s F b j s1 F1 n c s' : inv s F -> copied_node s F b j s1 F1 n -> ext none none c s s1 -> ext (inF F1) none zeroc s1 s' ->
  ext (inF F) none c s s'.
Proof.
  intros I C X1 X2.
  assert (X : ext (inF F1) none c s s').
  { eapply (ext_weaken (inF F1) none (addc c zeroc)); [eapply ext_trans; [eapply ext_wide; [exact X1|intros x []|auto]|exact X2]|auto|auto|].
    intro y. unfold addc, zeroc. rewrite N.add_0_r. apply N.le_refl. }
  eapply ext_clean; [exact X| |intros x y _ []|intro x; unfold inF; destruct (F1 x); [left; discriminate|right; auto]|right; auto].
  intros x m Hm Hx Hn. destruct (F x) eqn:E; [exfalso; apply Hn; unfold inF; congruence|].
  pose proof (cp_fresh _ _ _ _ _ _ _ C x Hx E) as Bx. apply (beyond_nothing s x (i_wf _ _ I)) in Bx. destruct Bx as (_ & Bx & _). congruence.
Qed.

Lemma objAdd_wp s F v a A vv b B j fa fb kids fuel : inv s F -> handle s F v (At a) A -> handle s F vv (At b) B ->
  addable F true a fa kids -> F b = Some fb -> fkey fb <> None -> reads F b j ->
  usedA s B + 88 + icost (fkey fb, j) <= two30 -> (S (jsteps j) <= fuel)%nat ->
  wp (zj_ObjAdd fuel v vv) s (copy_added s F b B j (88 + icost (fkey fb, j))
    (fun F1 n F' => exists fn, F1 n = Some fn /\ appendable F1 true a n fa fn kids /\ F' = append F1 a n fa fn true kids)).
Proof.
  intros I Hv Hvv Ad Fb Kb Hr Hu Hf. pose proof (i_dom _ _ I) as Wd. pose proof (i_wf _ _ I) as W.
  unfold zj_ObjAdd, when_type.
  match goal with |- wp _ _ ?Q => eapply wp_seq with (P := fun r s' => exists b0, r = Some b0 /\ Q b0 s') end.
  2:{ intros r s' (b0 & -> & K). now apply wp_ret. }
  eapply (with_type_node s F v A I a fa Hv (ad_a _ _ _ _ _ Ad)); [rewrite (ad_val _ _ _ _ _ Ad); intro K; now elim K|].
  intros m _ _ _. eapply wp_seq; [|intros b0 s' K; apply wp_ret; exists b0; split; [reflexivity|exact K]].
  unfold when_key.
  match goal with |- wp _ _ ?Q => eapply wp_seq with (P := fun r s' => exists b0, r = Some b0 /\ Q b0 s') end.
  2:{ intros r s' (b0 & -> & K). now apply wp_ret. }
  eapply (with_key_node s F vv B I b fb Hvv Fb); [congruence|].
  intros m' b' p _ _ _ _ _ _. eapply wp_seq; [|intros b0 s' K; apply wp_ret; exists b0; split; [reflexivity|exact K]].
  eapply wp_seq; [eapply (copy_wp s F vv b B j fuel fb); eauto|].
  intros r s1 (h & F1 & n & -> & Bh & C & Hh & O & X). cbv iota.
  apply wp_bind, (wp_getVal _ _ _ _ Hh). cbn [vN]. apply wp_bind, wp_deref.
  destruct (cp_root _ _ _ _ _ _ _ C) as (fb' & fn & E1 & E2 & E3 & E4 & E5 & E6). assert (fb' = fb) by congruence. subst fb'.
  assert (Ap : appendable F1 true a n fa fn kids).
  { destruct Ad. constructor; auto; [now apply (cp_sub _ _ _ _ _ _ _ C)|eapply copied_neq; eauto; congruence|congruence]. }
  eapply wp_seq; [eapply append_step; [apply C|exact Ap]|]. intros [] s2 (X2 & M2 & I2).
  apply wp_ret. split; auto. exists s1, F1, n, (append F1 a n fa fn true kids). split; auto. split; [eauto|]. split; auto.
  split; [|eapply copy_ext; eauto].
  intros u x Hx. rewrite (mc_vals _ _ M2). apply (x_vals _ _ _ _ _ X); auto.
Qed.
Lemma arrayAdd_wp s F v a A vv b B j fa fb kids fuel : inv s F -> handle s F v (At a) A -> handle s F vv (At b) B ->
  addable F false a fa kids -> F b = Some fb -> reads F b j ->
  usedA s B + 88 + icost (fkey fb, j) <= two30 -> (S (jsteps j) <= fuel)%nat ->
  wp (zj_ArrayAdd fuel v vv) s (copy_added s F b B j (88 + icost (fkey fb, j))
    (fun F1 n F' => exists fn, F1 n = Some fn /\ appendable (dropkey F1 n) false a n fa (nokey fn) kids /\
       F' = append (dropkey F1 n) a n fa (nokey fn) false kids)).
Proof.
  intros I Hv Hvv Ad Fb Hr Hu Hf. pose proof (i_dom _ _ I) as Wd. pose proof (i_wf _ _ I) as W.
  unfold zj_ArrayAdd, when_type.
  match goal with |- wp _ _ ?Q => eapply wp_seq with (P := fun r s' => exists b0, r = Some b0 /\ Q b0 s') end.
  2:{ intros r s' (b0 & -> & K). now apply wp_ret. }
  eapply (with_type_node s F v A I a fa Hv (ad_a _ _ _ _ _ Ad)); [rewrite (ad_val _ _ _ _ _ Ad); intro K; now elim K|].
  intros m _ _ _. eapply wp_seq; [|intros b0 s' K; apply wp_ret; exists b0; split; [reflexivity|exact K]].
  eapply wp_seq; [eapply (copy_wp s F vv b B j fuel fb); eauto|].
  intros r s1 (h & F1 & n & -> & Bh & C & Hh & O & X). cbv iota.
  apply wp_bind, (wp_getVal _ _ _ _ Hh). cbn [vN]. apply wp_bind, wp_deref.
  destruct (cp_root _ _ _ _ _ _ _ C) as (fb' & fn & E1 & E2 & E3 & E4 & E5 & E6). assert (fb' = fb) by congruence. subst fb'.
  pose proof (cp_inv _ _ _ _ _ _ _ C) as I1.
  assert (X1' : ext (inF F1) none zeroc s1 s1) by apply ext_refl, I1.
  assert (Nan : a <> n) by (apply (copied_neq s F b j s1 F1 n a I C); pose proof (ad_a _ _ _ _ _ Ad); congruence).
  eapply wp_seq; [eapply (dropkey_wp F1 n fn (i_dom _ _ I1) E2 E4 s1 (inF F1) zeroc s1); auto; unfold inF; congruence|].
  intros [] s2 (X2 & M2 & I2).
  assert (Ap : appendable (dropkey F1 n) false a n fa (nokey fn) kids).
  { destruct Ad. constructor; auto; [rewrite dropkey_other by auto; now apply (cp_sub _ _ _ _ _ _ _ C)|now apply dropkey_at]. }
  eapply wp_seq; [eapply append_step; [exact I2|exact Ap]|]. intros [] s3 (X3 & M3 & I3).
  apply wp_ret. split; auto. exists s1, F1, n, (append (dropkey F1 n) a n fa (nokey fn) false kids). split; auto. split; [eauto|]. split; auto.
  split.
  - intros u x Hx. rewrite (mc_vals _ _ M3), (mc_vals _ _ M2). apply (x_vals _ _ _ _ _ X); auto.
  - eapply copy_ext; eauto. apply (ext_chain0 _ _ s1 s2); auto. eapply ext_wide; [exact X3| |auto].
    intros x Hx. unfold inF in *. intro K. apply Hx. unfold dropkey. rewrite K. now destruct (addr_eqb x n).
Qed.

(** *** Refusals of the add functions *)
Section Refuse.
Variables (s : st) (F : dom) (v vv : addr) (A B : N).
Hypothesis I : inv s F.
Definition refused (r : bool) (s' : st) : Prop := r = false /\ s' = s.
Lemma when_type_no t k w : handle s F v w A -> (forall a f, w = At a -> F a = Some f -> ftype (fvalue f) <> t) ->
  wp (when_type v t k) s refused.
Proof.
  intros H N. unfold when_type. eapply wp_seq with (P := fun r s' => r = None /\ s' = s); [|intros r s' [-> ->]; now apply wp_ret].
  pose proof H as (_ & _ & [->|(a & -> & Fa)]); [eapply with_type_empty; eauto|].
  destruct (F a) as [f|] eqn:E; [|congruence]. eapply (with_type_node s F v A I a f H E); auto.
  intros n K. now elim (N a f eq_refl E).
Qed.
Lemma when_type_yes t k a f Q : handle s F v (At a) A -> F a = Some f -> ftype (fvalue f) = t ->
  wp (k a) s Q -> wp (when_type v t k) s Q.
Proof.
  intros H Fa Ht K. unfold when_type. eapply wp_seq with (P := fun r s' => exists b, r = Some b /\ Q b s'); [|intros r s' (b & -> & K'); now apply wp_ret].
  eapply (with_type_node s F v A I a f H Fa); [congruence|]. intros n _ _ _.
  eapply wp_seq; [exact K|]. intros b s' K'. apply wp_ret. eauto.
Qed.
Lemma when_key_no k w : handle s F vv w B -> (forall a f, w = At a -> F a = Some f -> fkey f = None) ->
  wp (when_key vv k) s refused.
Proof.
  intros H N. unfold when_key. eapply wp_seq with (P := fun r s' => r = None /\ s' = s); [|intros r s' [-> ->]; now apply wp_ret].
  pose proof H as (_ & _ & [->|(a & -> & Fa)]); [eapply with_key_empty; eauto|].
  destruct (F a) as [f|] eqn:E; [|congruence]. eapply (with_key_node s F vv B I a f H E); auto.
  intros n b p K. rewrite (N a f eq_refl E) in K. discriminate.
Qed.
Lemma add_type_no w fuel : handle s F v w A -> (forall a f, w = At a -> F a = Some f -> ftype (fvalue f) <> TObject) ->
  wp (zj_ObjAddFast v vv) s refused /\ wp (zj_ObjAdd fuel v vv) s refused.
Proof. intros H N. split; eapply when_type_no; eauto. Qed.
Lemma arrayAdd_type_no w fuel : handle s F v w A -> (forall a f, w = At a -> F a = Some f -> ftype (fvalue f) <> TArray) ->
  wp (zj_ArrayAddFast v vv) s refused /\ wp (zj_ArrayAdd fuel v vv) s refused.
Proof. intros H N. split; eapply when_type_no; eauto. Qed.
Lemma add_key_no a f w fuel : handle s F v (At a) A -> F a = Some f -> ftype (fvalue f) = TObject ->
  handle s F vv w B -> (forall b fb, w = At b -> F b = Some fb -> fkey fb = None) ->
  wp (zj_ObjAddFast v vv) s refused /\ wp (zj_ObjAdd fuel v vv) s refused.
Proof. intros H Fa Ht H2 N. split; eapply when_type_yes; eauto; eapply when_key_no; eauto. Qed.
Lemma arrayAddFast_empty a f : handle s F v (At a) A -> F a = Some f -> ftype (fvalue f) = TArray -> handle s F vv Null B ->
  wp (zj_ArrayAddFast v vv) s refused.
Proof.
  intros H Fa Ht H2. eapply when_type_yes; eauto. eapply wp_seq; [eapply move_empty; eauto|]. intros r s' [-> ->]. now apply wp_ret.
Qed.
Lemma arrayAdd_empty a f fuel : handle s F v (At a) A -> F a = Some f -> ftype (fvalue f) = TArray -> handle s F vv Null B ->
  usedA s B + 16 <= two30 ->
  wp (zj_ArrayAdd fuel v vv) s (fun r s' => r = false /\ inv s' F /\ ext none none (at_ B 16) s s').
Proof.
  intros H Fa Ht H2 Hu. eapply when_type_yes; eauto. eapply wp_seq; [eapply (copy_empty s F vv B fuel); eauto|].
  intros r s' (-> & K). now apply wp_ret.
Qed.
End Refuse.

(** ** zj_SetFast, zj_Set *)
Definition kid_count (j : json) : nat := match j with JArr l => length l | JObj m => length m | _ => 0 end.
Lemma readsL_length F l items : readsL F l items -> length l = length items.
Proof. induction 1; simpl; congruence. Qed.
Lemma reads_kids F a j f : reads F a j -> F a = Some f -> length (kids_in (fvalue f)) = kid_count j.
Proof.
  intros R E. inversion R as [x g E1 E2|x g t E1 E2|x g t E1 E2|x g t E1 E2|x g ob kids items E1 E2 Rl]; subst;
    rewrite E in E1; injection E1 as <-; rewrite E2; auto.
  cbn [kids_in]. rewrite (readsL_length _ _ _ Rl). destruct ob; cbn [container kid_count]; now rewrite map_length.
Qed.
Record takable (F : dom) (a b : addr) (fa fb : fnode) : Prop := {
  tb_a : F a = Some fa;
  tb_b : F b = Some fb;
  tb_free : fpar fb = None;
  tb_neq : a <> b;
  tb_self : ~ In a (kids_in (fvalue fb))
}.
Lemma take_step s F a b fa fb e fe fuel : inv s F -> takable F a b fa fb -> F e <> None -> fe = None \/ (e = b /\ fe = fend fb) ->
  (length (kids_in (fvalue fb)) <= fuel)%nat ->
  wp (take_value fuel a b e) s (fun _ s' => ext (inF F) none zeroc s s' /\ mch s s' /\ inv s' (take F a b fa fb fe)).
Proof.
  intros I [] He Hfe Hf. eapply wp_mono; [eapply (take_value_wp F a b fa fb e fe); eauto; apply I|]. intros u s' (X & M & I').
  split; [|auto]. eapply ext_wide; [exact X| |auto]. intros x [->|K]; unfold inF; try congruence.
  destruct (tk_kid F a b fb (i_dom _ _ I) tb_b0 tb_free0 tb_self0 x K) as (_ & _ & fx & E & _). congruence.
Qed.
Definition stolen (s : st) (F : dom) (v vv : addr) (w : word) (A B : N) (F' : dom) (r : bool) (s' : st) : Prop :=
  r = true /\ inv s' F' /\ svals s' vv = Some (mkVal Null B) /\ svals s' v = Some (mkVal w A) /\
  (forall u, u <> vv -> u <> v -> svals s' u = svals s u) /\ ext (inF F) (fun x => x = v \/ x = vv) zeroc s s'.

Lemma put_val s F v x y A : inv s F -> svals s v = Some (mkVal x A) ->
  wp (putVal v (mkVal y A)) s (fun _ s' => inv s' F /\ svals s' v = Some (mkVal y A) /\
    (forall u, u <> v -> svals s' u = svals s u) /\ ext none (only v) zeroc s s').
Proof.
  intros I Hv. apply wp_putVal.
  assert (X : ext none (only v) zeroc s (set_vals (upd (svals s) v (mkVal y A)) s)).
  { apply ext_putVal; [apply ext_refl, I|right; reflexivity|left; congruence]. }
  split; [eapply ext_inv; eauto|]. split; [simpl; now rewrite upd_eq|]. split; auto.
  intros u Hu. simpl. now rewrite upd_neq.
Qed.
Lemma setFast_wp s F v a A vv b B F1 fa fb fuel : inv s F -> handle s F v (At a) A -> handle s F vv (At b) B ->
  removed F b F1 -> takable F1 a b fa fb -> (length (kids_in (fvalue fb)) <= fuel)%nat ->
  wp (zj_SetFast fuel v vv) s (stolen s F v vv (At a) A B (take F1 a b fa fb (fend fb))).
Proof.
  intros I Hv Hvv R Tk Hf. pose proof (i_dom _ _ I) as Wd. pose proof (i_wf _ _ I) as W.
  assert (Nv : v <> vv).
  { intros ->. apply (tb_neq _ _ _ _ _ Tk). destruct Hv as [E1 _], Hvv as [E2 _]. congruence. }
  unfold zj_SetFast. eapply wp_seq; [eapply (move_wp s F vv b B F1); eauto|]. intros r s1 (-> & I1 & M1 & X1). cbn [negb]. cbv iota.
  pose proof (mc_vals _ _ M1) as V1.
  eapply wp_bind, wp_getVal; [rewrite V1; apply Hv|]. cbn [vN vA]. apply wp_bind, wp_ret. cbv iota. apply wp_bind, wp_deref.
  eapply wp_bind, wp_getVal; [rewrite V1; apply Hvv|]. cbn [vN vA]. apply wp_bind, wp_deref.
  eapply wp_seq; [eapply (take_step s1 F1 a b fa fb b (fend fb)); eauto; rewrite (tb_b _ _ _ _ _ Tk); discriminate|].
  intros [] s2 (X2 & M2 & I2). pose proof (mc_vals _ _ M2) as V2.
  eapply wp_seq; [eapply put_val; eauto; rewrite V2, V1; apply Hvv|]. intros [] s3 (I3 & E3 & O3 & X3).
  apply wp_ret. split; auto. split; auto. split; auto. split; [rewrite O3 by auto; rewrite V2, V1; apply Hv|].
  split; [intros u Hu _; rewrite O3 by auto; congruence|].
  apply (ext_chain0 _ _ s s1); [eapply ext_wide; [exact X1|auto|intros x []]|].
  apply (ext_chain0 _ _ s1 s2); [eapply ext_wide; [exact X2|intros x; eapply inF_removed; eauto|intros x []]|].
  eapply ext_wide; [exact X3|intros x []|intros x ->; auto].
Qed.
Lemma setFast_into s F v A vv b B F1 fuel : inv s F -> handle s F v Null A -> handle s F vv (At b) B -> removed F b F1 ->
  wp (zj_SetFast fuel v vv) s (stolen s F v vv (At b) A B F1).
Proof.
  intros I Hv Hvv R. pose proof (i_dom _ _ I) as Wd. pose proof (i_wf _ _ I) as W.
  assert (Nv : v <> vv).
  { intros ->. destruct Hv as [E1 _], Hvv as [E2 _]. congruence. }
  unfold zj_SetFast. eapply wp_seq; [eapply (move_wp s F vv b B F1); eauto|]. intros r s1 (-> & I1 & M1 & X1). cbn [negb]. cbv iota.
  pose proof (mc_vals _ _ M1) as V1.
  eapply wp_bind, wp_getVal; [rewrite V1; apply Hv|]. cbn [vN vA]. apply wp_bind, wp_ret. cbv iota.
  eapply wp_bind, wp_getVal; [rewrite V1; apply Hvv|]. cbn [vN vA].
  eapply wp_seq; [eapply put_val; eauto; rewrite V1; apply Hv|]. intros [] s2 (I2 & E2 & O2 & X2).
  eapply wp_bind, wp_getVal; [rewrite O2, V1 by auto; apply Hvv|]. cbn [vN vA].
  eapply wp_seq; [eapply put_val; eauto; rewrite O2, V1 by auto; apply Hvv|]. intros [] s3 (I3 & E3 & O3 & X3).
  apply wp_ret. split; auto. split; auto. split; auto. split; [rewrite O3 by auto; auto|].
  split; [intros u Hu Hu2; rewrite O3, O2 by auto; congruence|].
  apply (ext_chain0 _ _ s s1); [eapply ext_wide; [exact X1|auto|intros x []]|].
  apply (ext_chain0 _ _ s1 s2); [eapply ext_wide; [exact X2|intros x []|intros x ->; auto]|].
  eapply ext_wide; [exact X3|intros x []|intros x ->; auto].
Qed.
Lemma setFast_empty s F v vv B fuel : handle s F vv Null B -> wp (zj_SetFast fuel v vv) s (fun r s' => r = false /\ s' = s).
Proof. intro H. unfold zj_SetFast. eapply wp_seq; [eapply move_empty; eauto|]. intros r s' [-> ->]. now apply wp_ret. Qed.

Lemma set_wp s F v a A vv b B fa fb j fuel : inv s F -> handle s F v (At a) A -> handle s F vv (At b) B ->
  F a = Some fa -> F b = Some fb -> reads F b j ->
  usedA s B + 88 + icost (fkey fb, j) <= two30 -> (S (jsteps j) <= fuel)%nat ->
  (length (kids_in (fvalue fb)) <= fuel)%nat ->
  wp (zj_Set fuel v vv) s (copy_added s F b B j (88 + icost (fkey fb, j))
    (fun F1 n F' => exists fn, F1 n = Some fn /\ takable F1 a n fa fn /\ F' = take F1 a n fa fn None)).
Proof.
  intros I Hv Hvv Fa Fb Hr Hu Hf Hf2. pose proof (i_dom _ _ I) as Wd. pose proof (i_wf _ _ I) as W.
  unfold zj_Set. eapply wp_seq; [eapply (copy_wp s F vv b B j fuel fb); eauto|].
  intros r s1 (h & F1 & n & -> & Bh & C & Hh & O & X). cbv iota.
  apply wp_bind, (wp_getVal _ _ _ _ Hh). cbn [vN].
  assert (Hold : forall u x, svals s u = Some x -> svals s1 u = Some x) by (intros u x Hx; apply (x_vals _ _ _ _ _ X); auto).
  eapply wp_bind, wp_getVal; [apply Hold; apply Hv|]. cbn [vN vA]. apply wp_bind, wp_ret. cbv iota.
  apply wp_bind, wp_deref. apply wp_bind, wp_deref.
  eapply wp_bind, wp_getVal; [apply Hold; apply Hvv|]. cbn [vN vA]. apply wp_bind, wp_deref.
  destruct (cp_root _ _ _ _ _ _ _ C) as (fb' & fn & E1 & E2 & E3 & E4 & E5 & E6). assert (fb' = fb) by congruence. subst fb'.
  pose proof (cp_inv _ _ _ _ _ _ _ C) as I1.
  assert (Nan : a <> n) by (apply (copied_neq s F b j s1 F1 n a I C); congruence).
  assert (Tk : takable F1 a n fa fn).
  { constructor; auto; [now apply (cp_sub _ _ _ _ _ _ _ C)|]. intro K. unfold kids_in in K.
    destruct (fvalue fn) as [| | | |ob kids] eqn:V; try destruct K.
    assert (F a = None); [|congruence]. eapply (cp_closed _ _ _ _ _ _ _ C n fn ob kids a); eauto.
    eapply inv_beyond; eauto. apply C. }
  eapply wp_seq; [eapply (take_step s1 F1 a n fa fn b None); eauto|].
  - rewrite (cp_sub _ _ _ _ _ _ _ C b fb Fb). discriminate.
  - (* as many children as the original *)
    pose proof (cp_reads _ _ _ _ _ _ _ C) as Rn. clear - Rn Hr E2 Fb Hf2.
    assert (E : length (kids_in (fvalue fn)) = length (kids_in (fvalue fb))); [|congruence].
    rewrite (reads_kids _ _ _ _ Rn E2), (reads_kids _ _ _ _ Hr Fb). reflexivity.
  - intros [] s2 (X2 & M2 & I2). apply wp_ret. split; auto. exists s1, F1, n, (take F1 a n fa fn None).
    split; auto. split; [eauto|]. split; auto.
    split; [|eapply copy_ext; eauto]. intros u x Hx. rewrite (mc_vals _ _ M2). auto.
Qed.
Lemma set_into s F v A vv b B fb j fuel : inv s F -> handle s F v Null A -> handle s F vv (At b) B ->
  F b = Some fb -> reads F b j ->
  usedA s B + 88 + icost (fkey fb, j) <= two30 -> (S (jsteps j) <= fuel)%nat ->
  wp (zj_Set fuel v vv) s (fun r s' => r = true /\ exists s1 F1 n, copied_node s F b j s1 F1 n /\ inv s' F1 /\
    svals s' v = Some (mkVal (At n) A) /\ (forall u x, u <> v -> svals s u = Some x -> svals s' u = Some x) /\
    ext none (only v) (at_ B (88 + icost (fkey fb, j))) s s').
Proof.
  intros I Hv Hvv Fb Hr Hu Hf. pose proof (i_dom _ _ I) as Wd. pose proof (i_wf _ _ I) as W.
  unfold zj_Set. eapply wp_seq; [eapply (copy_wp s F vv b B j fuel fb); eauto|].
  intros r s1 (h & F1 & n & -> & Bh & C & Hh & O & X). cbv iota.
  apply wp_bind, (wp_getVal _ _ _ _ Hh). cbn [vN].
  assert (Hold : forall u x, svals s u = Some x -> svals s1 u = Some x) by (intros u x Hx; apply (x_vals _ _ _ _ _ X); auto).
  eapply wp_bind, wp_getVal; [apply Hold; apply Hv|]. cbn [vN vA]. apply wp_bind, wp_ret. cbv iota.
  pose proof (cp_inv _ _ _ _ _ _ _ C) as I1.
  eapply wp_seq; [eapply put_val; eauto; apply Hold; apply Hv|]. intros [] s2 (I2 & E2 & O2 & X2).
  apply wp_ret. split; auto. exists s1, F1, n. split; auto. split; auto. split; auto. split.
  - intros u x Hu' Hx. rewrite O2 by auto. auto.
  - eapply (ext_weaken none (only v) (addc (at_ B (88 + icost (fkey fb, j))) zeroc)); [eapply ext_trans; [eapply ext_wide; [exact X|auto|intros x []]|exact X2]|auto|auto|].
    intro y. unfold addc, zeroc. rewrite N.add_0_r. apply N.le_refl.
Qed.
Lemma set_empty s F v vv B fuel : inv s F -> handle s F vv Null B -> usedA s B + 16 <= two30 ->
  wp (zj_Set fuel v vv) s (fun r s' => r = false /\ inv s' F /\ ext none none (at_ B 16) s s').
Proof.
  intros I H Hu. unfold zj_Set. eapply wp_seq; [eapply (copy_empty s F vv B fuel); eauto|].
  intros r s' (-> & K). now apply wp_ret.
Qed.

(** ** zj_ArrayDel, zj_ObjDel *)
Definition deleted (s : st) (F : dom) (A : N) (o : option addr) (F1 : dom) (r : bool) (s' : st) : Prop :=
  match o with
  | None => r = false /\ s' = s
  | Some _ => r = true /\ inv s' F1 /\ (forall u x, svals s u = Some x -> svals s' u = Some x) /\ ext (inF F) none (at_ A 16) s s'
  end.
Lemma move_new s F A o d s1 F1 : inv s F -> alive s A -> ~ isvol A -> (forall c, o = Some c -> F c <> None /\ removed F c F1) ->
  new_handle s A o d s1 ->
  wp (match d with None => ret false | Some h => zj_Move h end) s1 (deleted s F A o F1).
Proof.
  intros I Al NA R H. destruct o as [c|]; cbn [new_handle] in H.
  - destruct H as (h & -> & Bh & Vn & X). destruct (R c eq_refl) as [Fc Rm].
    assert (I1 : inv s1 F) by (eapply ext_inv; eauto).
    assert (Hh : handle s1 F h (At c) A).
    { split; [apply Vn|]. split; [split; auto; now apply (x_alive _ _ _ _ _ X)|]. right. eauto. }
    eapply wp_mono; [eapply (move_wp s1 F h c A F1); eauto|]. intros r s2 (-> & I2 & M2 & X2).
    split; auto. split; auto. split.
    + intros u x Hx. rewrite (mc_vals _ _ M2). apply (x_vals _ _ _ _ _ X); auto.
    + eapply (ext_weaken (inF F) none (addc (at_ A 16) zeroc)); [eapply ext_trans; [eapply ext_wide; [exact X|intros x []|auto]|exact X2]|auto|auto|].
      intro y. unfold addc, zeroc. rewrite N.add_0_r. apply N.le_refl.
  - destruct H as [-> ->]. now apply wp_ret.
Qed.
Lemma arrayDel_wp s F v a A fa kids index fuel F1 : inv s F -> handle s F v (At a) A -> F a = Some fa -> fvalue fa = VCont false kids ->
  usedA s A + 16 <= two30 -> index < two32 -> (length kids <= fuel)%nat ->
  (forall c, nth_error kids (N.to_nat index) = Some c -> removed F c F1) ->
  wp (zj_ArrayDel fuel v index) s (deleted s F A (nth_error kids (N.to_nat index)) F1).
Proof.
  intros I H Fa V Hu Hi Hf R. pose proof H as (_ & [Al NA] & _). unfold zj_ArrayDel.
  eapply wp_seq; [eapply (arrayGet_wp s F v A a fa I H Fa Hu fuel kids index); auto|].
  intros d s1 K. eapply move_new; eauto. intros c Hc. split; auto.
  destruct (i_dom _ _ I a fa Fa) as [D _]. destruct (D _ _ V) as [C _]. apply nth_error_In in Hc.
  destruct (chain_in _ _ _ _ _ C Hc) as (g & E & _). congruence.
Qed.
Lemma objDel_wp s F v a A fa kids key k r fuel F1 : inv s F -> handle s F v (At a) A -> F a = Some fa -> fvalue fa = VCont true kids ->
  usedA s A + 16 <= two30 -> text_at s key = k ++ 0 :: r -> ~ In 0 k ->
  (forall c fc b, In c kids -> F c = Some fc -> fkey fc = Some b -> ~ In 0 b) -> (length kids <= fuel)%nat ->
  (forall c, first_child (key_of F k) kids (Some c) -> removed F c F1) ->
  wp (zj_ObjDel fuel v key) s (fun b s' => exists o, first_child (key_of F k) kids o /\ deleted s F A o F1 b s').
Proof.
  intros I H Fa V Hu Ht N0 Hk Hf R. pose proof H as (_ & [Al NA] & _). unfold zj_ObjDel.
  eapply wp_seq; [eapply (objGet_wp s F v A a fa I H Fa Hu fuel kids key k r); auto|].
  intros d s1 (o & Fo & K). eapply wp_mono; [eapply (move_new s F A o d s1 F1); eauto|].
  - intros c ->. split; auto. destruct Fo as (pre & post & E & (fc & Ec & _) & _). congruence.
  - intros b s' Hb. eauto.
Qed.
Lemma arrayDel_no s F v w A index fuel : inv s F -> handle s F v w A -> (forall a f, w = At a -> F a = Some f -> ftype (fvalue f) <> TArray) ->
  wp (zj_ArrayDel fuel v index) s (fun r s' => r = false /\ s' = s).
Proof.
  intros I H N. unfold zj_ArrayDel. eapply wp_seq with (P := fun d s' => d = None /\ s' = s); [|intros d s' [-> ->]; now apply wp_ret].
  pose proof H as (_ & _ & [->|(a & -> & Fa)]); [unfold zj_ArrayGet; eapply with_type_empty; eauto|].
  destruct (F a) as [f|] eqn:E; [|congruence]. eapply arrayGet_no; eauto.
Qed.
Lemma objDel_no s F v w A key fuel : inv s F -> handle s F v w A -> (forall a f, w = At a -> F a = Some f -> ftype (fvalue f) <> TObject) ->
  wp (zj_ObjDel fuel v key) s (fun r s' => r = false /\ s' = s).
Proof.
  intros I H N. unfold zj_ObjDel. eapply wp_seq with (P := fun d s' => d = None /\ s' = s); [|intros d s' [-> ->]; now apply wp_ret].
  pose proof H as (_ & _ & [->|(a & -> & Fa)]); [unfold zj_ObjGet; eapply with_type_empty; eauto|].
  destruct (F a) as [f|] eqn:E; [|congruence]. eapply objGet_no; eauto.
Qed.
End WithVol.
