(** zj_Move and the appending of a node, on documents. *)
From Verif Require Import Base Spec Lex LexProofs Alloc AllocProofs Mem MemProofs Api PureParse Dom Effect Steps StrBuf StringifyProofs ParseProofs ParseTop SetProofs.

Section WithVol.
Context {VV : vols}.

Definition set_next (o : option addr) (f : fnode) : fnode := mkF (fkey f) (fvalue f) (fpar f) o (fprev f) (fend f) (fstop f).
Definition set_prev (o : option addr) (f : fnode) : fnode := mkF (fkey f) (fvalue f) (fpar f) (fnext f) o (fend f) (fstop f).
Definition detach (f : fnode) : fnode := mkF (fkey f) (fvalue f) None None None (fend f) (fstop f).
Definition is_opt (o : option addr) (x : addr) : bool := match o with Some y => addr_eqb x y | None => false end.
Lemma is_opt_true o x : is_opt o x = true <-> o = Some x.
Proof.
  destruct o as [y|]; simpl; [|split; discriminate]. destruct (addr_eqb_spec x y) as [->|N]; split; auto; try discriminate.
  intro E. congruence.
Qed.
Lemma is_opt_false o x : is_opt o x = false <-> o <> Some x.
Proof. rewrite <- is_opt_true. destruct (is_opt o x); split; auto; congruence. Qed.

(** Nothing but nodes changes. *)
Lemma inv_relink (D : addr -> Prop) c s s' F F' : inv s F -> ext D none c s s' -> mch s s' ->
  (forall x f', F' x = Some f' -> exists f, F x = Some f) ->
  (forall x f', F' x = Some f' -> (F x = Some f' /\ snodes s' x = snodes s x) \/ exists n, snodes s' x = Some n /\ rep_node s n f') ->
  wfdom F' -> inv s' F'.
Proof.
  intros I X M H1 H2 W. constructor; auto; [apply X| |eapply wfvol_ext; eauto; apply I|].
  - intros x f' Hx _. destruct (H2 x f' Hx) as [[E1 E2]|(n & E & R)].
    + destruct (i_rep _ _ I x f' E1) as (n & Hn & R); [auto|]. exists n. split; [congruence|]. eapply rep_node_mch; eauto.
    + exists n. split; auto. eapply rep_node_mch; eauto.
  - intros x Hx. destruct (F' x) as [f'|] eqn:E; [|congruence]. destruct (H1 x f' E) as (f & Ef).
    apply (vol_ext _ _ _ _ _ _ X); [|apply (i_off _ _ I); congruence].
    destruct (i_rep _ _ I x f Ef) as (n & Hn & _); [auto|]. eapply nodes_next; eauto. apply I.
Qed.

Lemma nLen_w x n : nLen (wLen x n) = Some x. Proof. reflexivity. Qed.
Lemma last_in {A} (l : list A) x : last_error l = Some x -> In x l.
Proof.
  unfold last_error. intro H. apply in_rev. destruct (rev l); [discriminate|]. injection H as ->. now left.
Qed.
Lemma hd_in {A} (l : list A) x : hd_error l = Some x -> In x l.
Proof. destruct l; [discriminate|]. intro H. injection H as ->. now left. Qed.
Lemma nodup_app {A} (l l' : list A) : NoDup (l ++ l') -> NoDup l'.
Proof. induction l as [|x l IH]; simpl; auto. intro H. inversion H; auto. Qed.
Lemma last_app {A} (l : list A) x r : last_error (l ++ x :: r) = match last_error r with Some y => Some y | None => Some x end.
Proof.
  destruct r as [|y r _] using rev_ind; [now rewrite last_error_snoc|].
  change (x :: r ++ [y]) with ((x :: r) ++ [y]). now rewrite app_assoc, !last_error_snoc.
Qed.

(** Children of a changed container keep their values. *)
Lemma readsL_changed (D : addr -> Prop) F F' p l items : changed D F F' p -> readsL F l items ->
  (forall c, In c l -> ~ below F c p /\ forall d, below F c d -> ~ D d) ->
  (forall c fc fc', In c l -> F c = Some fc -> F' c = Some fc' -> fkey fc' = fkey fc) -> readsL F' l items.
Proof.
  intros C R H K. induction R as [|c r fc j items Hc Hr Hl IH]; [constructor|].
  destruct (H c (or_introl eq_refl)) as [H1 H2].
  destruct (C c fc Hc (H2 c (bl_self F c))) as (fc' & E1 & _ & _).
  rewrite <- (K c fc fc' (or_introl eq_refl) Hc E1). apply rl_cons; auto.
  - eapply changed_frame; eauto.
  - apply IH; [intros c' Hc'; apply H; now right|]. intros c' g g' Hc'. apply K. now right.
Qed.
Lemma kids_not_above F p fp ob kids c : F p = Some fp -> fvalue fp = VCont ob kids -> ~ sbelow F p p -> In c kids -> ~ below F c p.
Proof. intros H1 H2 H3 H4 H5. apply H3. exists fp, ob, kids, c. auto. Qed.

(** *** Taking a node out of its container *)
Section Unlink.
Variables (F : dom) (a p : addr) (f fp : fnode) (ob : bool) (l r : list addr).
Hypothesis Wd : wfdom F.
Hypothesis Fa : F a = Some f.
Hypothesis Hpar : fpar f = Some p.
Hypothesis Fp : F p = Some fp.
Hypothesis Vp : fvalue fp = VCont ob (l ++ a :: r).
Hypothesis Hprev : fprev f = last_error l.
Hypothesis Hp : ~ In p (l ++ a :: r).

Definition shrunk : fnode :=
  mkF (fkey fp) (VCont ob (l ++ r)) (fpar fp) (fnext fp) (fprev fp) (match r with [] => None | _ => fend fp end) (fstop fp).
Definition unlink : dom := fun x =>
  if addr_eqb x a then Some (detach f)
  else if addr_eqb x p then Some shrunk
  else if is_opt (last_error l) x then option_map (set_next (hd_error r)) (F x)
  else if is_opt (hd_error r) x then option_map (set_prev None) (F x)
  else F x.
Definition touched (x : addr) : Prop := x = a \/ x = p \/ last_error l = Some x \/ hd_error r = Some x.

Lemma ul_chain : chain F p ob (l ++ a :: r).
Proof. destruct (Wd p fp Fp) as [D _]. exact (proj1 (D _ _ Vp)). Qed.
Lemma ul_len : lenN (l ++ a :: r) < two32.
Proof. destruct (Wd p fp Fp) as [D _]. exact (proj2 (D _ _ Vp)). Qed.
Lemma ul_nd : NoDup (l ++ a :: r).
Proof. eapply chain_NoDup. apply ul_chain. Qed.
Lemma ul_next : fnext f = hd_error r.
Proof. pose proof (chain_app _ _ _ _ _ ul_chain) as [(fc & E & _ & H & _) _]. congruence. Qed.
Lemma ul_ap : a <> p. Proof. intros ->. apply Hp. apply in_app_iff. right. now left. Qed.
Lemma ul_al : ~ In a l /\ ~ In a r.
Proof. pose proof ul_nd as H. apply NoDup_remove_2 in H. split; intro; apply H; apply in_app_iff; auto. Qed.
Lemma ul_lr x : In x l -> In x r -> False.
Proof.
  intros H1 H2. pose proof ul_nd as H. apply NoDup_remove_1 in H. clear - H H1 H2. induction l as [|y l' IH]; simpl in *; [tauto|].
  inversion H as [|y' l0 Hn Hnd]; subst. destruct H1 as [->|H1]; auto. apply Hn. apply in_app_iff. auto.
Qed.
Lemma ul_kid x : In x (l ++ a :: r) -> x <> p /\ exists fx, F x = Some fx /\ fpar fx = Some p.
Proof.
  intro H. split; [intros ->; auto|]. destruct (chain_in _ _ _ _ _ ul_chain H) as (fc & E1 & E2 & _). eauto.
Qed.
Lemma ul_pred b : last_error l = Some b -> b <> a /\ b <> p /\ hd_error r <> Some b /\ exists fb, F b = Some fb /\ fpar fb = Some p /\ fnext fb = Some a.
Proof.
  intro H. pose proof (last_in _ _ H) as Hi. destruct (ul_kid b) as (N & fb & E1 & E2); [apply in_app_iff; auto|].
  split; [intros ->; exact (proj1 ul_al Hi)|]. split; auto. split; [intro K; apply hd_in in K; eapply ul_lr; eauto|].
  exists fb. split; auto. split; auto. pose proof ul_chain as C. clear Vp Hprev Hp. clear - C H E1.
  induction l as [|y l' IH]; [discriminate|]. destruct C as [(fc & K1 & K2 & K3 & _) C].
  destruct l' as [|z l'].
  - unfold last_error in H. simpl in H. injection H as ->. simpl in K3. congruence.
  - apply IH; auto. change (y :: z :: l') with ([y] ++ z :: l') in H. rewrite last_app in H.
    change (z :: l') with ([] ++ z :: l'). rewrite last_app. exact H.
Qed.
Lemma ul_succ b : hd_error r = Some b -> b <> a /\ b <> p /\ last_error l <> Some b /\ exists fb, F b = Some fb /\ fpar fb = Some p.
Proof.
  intro H. pose proof (hd_in _ _ H) as Hi. destruct (ul_kid b) as (N & fb & E1 & E2); [apply in_app_iff; simpl; auto|].
  split; [intros ->; exact (proj2 ul_al Hi)|]. split; auto. split; [intro K; apply last_in in K; eapply ul_lr; eauto|]. eauto.
Qed.

Lemma unlink_a : unlink a = Some (detach f).
Proof. unfold unlink. now rewrite addr_eqb_refl. Qed.
Lemma unlink_p : unlink p = Some shrunk.
Proof. unfold unlink. rewrite addr_eqb_neq by (apply not_eq_sym, ul_ap). now rewrite addr_eqb_refl. Qed.
Lemma unlink_pred b fb : last_error l = Some b -> F b = Some fb -> unlink b = Some (set_next (hd_error r) fb).
Proof.
  intros H E. destruct (ul_pred b H) as (N1 & N2 & N3 & _). unfold unlink. rewrite !addr_eqb_neq by auto.
  replace (is_opt (last_error l) b) with true by (symmetry; now apply is_opt_true). now rewrite E.
Qed.
Lemma unlink_succ b fb : hd_error r = Some b -> F b = Some fb -> unlink b = Some (set_prev None fb).
Proof.
  intros H E. destruct (ul_succ b H) as (N1 & N2 & N3 & _). unfold unlink. rewrite !addr_eqb_neq by auto.
  replace (is_opt (last_error l) b) with false by (symmetry; now apply is_opt_false).
  replace (is_opt (hd_error r) b) with true by (symmetry; now apply is_opt_true). now rewrite E.
Qed.
Lemma unlink_other x : ~ touched x -> unlink x = F x.
Proof.
  intro H. unfold unlink, touched in *. rewrite !addr_eqb_neq by tauto.
  replace (is_opt (last_error l) x) with false by (symmetry; apply is_opt_false; tauto).
  replace (is_opt (hd_error r) x) with false by (symmetry; apply is_opt_false; tauto). auto.
Qed.
Lemma touched_dec x : {touched x} + {~ touched x}.
Proof.
  unfold touched. destruct (addr_eqb_spec x a); [left; auto|]. destruct (addr_eqb_spec x p); [left; auto|].
  destruct (is_opt (last_error l) x) eqn:E1; [left; apply is_opt_true in E1; auto|]. apply is_opt_false in E1.
  destruct (is_opt (hd_error r) x) eqn:E2; [left; apply is_opt_true in E2; auto|]. apply is_opt_false in E2.
  right. tauto.
Qed.
Lemma unlink_some x f' : unlink x = Some f' -> exists f0, F x = Some f0.
Proof.
  intro H. destruct (touched_dec x) as [[->|[->|[K|K]]]|N]; eauto.
  - destruct (ul_pred x K) as (_ & _ & _ & fb & E & _). eauto.
  - destruct (ul_succ x K) as (_ & _ & _ & fb & E & _). eauto.
  - rewrite unlink_other in H by auto. eauto.
Qed.
(** Keys and, except for the container, values stay. *)
Lemma unlink_keep x f0 : F x = Some f0 -> exists f', unlink x = Some f' /\ fkey f' = fkey f0 /\ (x <> p -> fvalue f' = fvalue f0).
Proof.
  intro H. destruct (touched_dec x) as [[->|[->|[K|K]]]|N].
  - exists (detach f). split; [apply unlink_a|]. assert (f0 = f) by congruence. subst f0. auto.
  - exists shrunk. split; [apply unlink_p|]. assert (f0 = fp) by congruence. subst f0. split; auto. congruence.
  - exists (set_next (hd_error r) f0). split; [now apply unlink_pred|]. auto.
  - exists (set_prev None f0). split; [now apply unlink_succ|]. auto.
  - exists f0. rewrite unlink_other by auto. auto.
Qed.
Lemma unlink_changed : changed none F unlink p.
Proof.
  intros x f0 H _. destruct (unlink_keep x f0 H) as (f' & E1 & E2 & E3). exists f'. auto.
Qed.
(** Links of everything but the node and its predecessor. *)
Lemma unlink_links x f0 : F x = Some f0 -> x <> a -> last_error l <> Some x -> exists f', unlink x = Some f' /\ same_links f0 f'.
Proof.
  intros H N1 N2. destruct (touched_dec x) as [[->|[->|[K|K]]]|N]; try congruence.
  - exists shrunk. split; [apply unlink_p|]. assert (f0 = fp) by congruence. subst f0. repeat split.
  - exists (set_prev None f0). split; [now apply unlink_succ|]. repeat split.
  - exists f0. rewrite unlink_other by auto. repeat split; auto.
Qed.
Lemma unlink_chain : chain unlink p ob (l ++ r).
Proof.
  assert (Cr : chain unlink p ob r).
  { pose proof (chain_app _ _ _ _ _ ul_chain) as [_ C]. eapply chain_links; [|exact C].
    intros c fc Hc E. apply unlink_links; auto; [intros ->; exact (proj2 ul_al Hc)|].
    intro K. apply last_in in K. eapply ul_lr; eauto. }
  apply chain_to_chain. pose proof ul_chain as C. apply chain_to_chain in C.
  assert (H : forall l0 l1, l = l0 ++ l1 -> chain_to F p ob (l1 ++ a :: r) None -> chain_to unlink p ob (l1 ++ r) None).
  { intros l0 l1. revert l0. induction l1 as [|y l1 IH]; intros l0 El C0; [now apply chain_to_chain|].
    destruct C0 as [(fy & E1 & E2 & E3 & E4) C0]. split; [|apply (IH (l0 ++ [y])); [now rewrite <- app_assoc|exact C0]].
    destruct l1 as [|z l1].
    - assert (Hl : last_error l = Some y) by (rewrite El; apply last_error_snoc).
      exists (set_next (hd_error r) fy). split; [now apply unlink_pred|]. simpl. auto.
    - destruct (unlink_links y fy E1) as (f' & G1 & G2 & G3 & G4).
      + intros ->. apply (proj1 ul_al). rewrite El. apply in_app_iff. right. now left.
      + intro K. assert (Hl : last_error (z :: l1) = Some y).
        { rewrite El in K. rewrite last_app in K. destruct (last_error (z :: l1)) eqn:E; [congruence|]. apply (last_error_nil (z :: l1)) in E. discriminate. }
        apply last_in in Hl. pose proof ul_nd as ND. rewrite El in ND. rewrite <- app_assoc in ND. apply nodup_app in ND.
        inversion ND; subst. apply H1. change (z :: l1 ++ a :: r) with ((z :: l1) ++ a :: r). apply in_app_iff. auto.
      + exists f'. rewrite G2, G3, G4. auto. }
  apply (H [] l eq_refl). exact C.
Qed.
Lemma unlink_wfdom : wfdom unlink.
Proof.
  intros x f' Hx. destruct (unlink_some x f' Hx) as (f0 & E0). destruct (Wd x f0 E0) as [D1 D2].
  destruct (unlink_keep x f0 E0) as (f1 & E1 & K1 & K2). assert (f1 = f') by congruence. subst f1. split.
  - intros ob' kids Hv. destruct (addr_eqb_spec x p) as [->|N].
    + rewrite unlink_p in Hx. injection Hx as <-. simpl in Hv. injection Hv as <- <-. split; [apply unlink_chain|].
      pose proof ul_len as L. unfold lenN in *. rewrite !app_length in *. simpl in *. lia.
    + rewrite K2 in Hv by auto. destruct (D1 _ _ Hv) as [C L]. split; auto. eapply chain_links; [|exact C].
      intros c fc Hc Ec. destruct (chain_in _ _ _ _ _ C Hc) as (g & G1 & G2 & _). assert (g = fc) by congruence. subst g.
      apply unlink_links; auto.
      * intros ->. congruence.
      * intro K. destruct (ul_pred c K) as (_ & _ & _ & fb & B1 & B2 & _). congruence.
  - destruct (touched_dec x) as [[->|[->|[K|K]]]|N].
    + rewrite unlink_a in Hx. injection Hx as <-. auto.
    + rewrite unlink_p in Hx. injection Hx as <-. simpl. assert (f0 = fp) by congruence. now subst f0.
    + destruct (ul_pred x K) as (_ & _ & _ & fb & B1 & B2 & _). rewrite (unlink_pred x fb) in Hx by auto.
      injection Hx as <-. simpl. congruence.
    + destruct (ul_succ x K) as (_ & _ & _ & fb & B1 & B2). rewrite (unlink_succ x fb) in Hx by auto.
      injection Hx as <-. simpl. congruence.
    + rewrite unlink_other in Hx by auto. assert (f0 = f') by congruence. now subst f0.
Qed.

(** The code, for a node whose Prev is right. *)
Lemma move_attached s : inv s F ->
  wp (move_node a) s (fun _ s' => ext touched none zeroc s s' /\ mch s s' /\ inv s' unlink).
Proof.
  intro I. pose proof (i_wf _ _ I) as W. unfold move_node.
  destruct (i_rep _ _ I a f Fa) as (na & Ea & Ra); [auto|].
  destruct (i_rep _ _ I p fp Fp) as (np & Ep & Rp); [auto|].
  pose proof ul_ap as Nap.
  assert (X0 : ext touched none zeroc s s) by now apply ext_refl.
  assert (Ta : touched a) by (left; auto). assert (Tp : touched p) by (right; left; auto).
  apply wp_bind, (wp_getNode _ na); auto. rewrite (r_par _ _ _ Ra), Hpar. cbn [wopt].
  apply wp_bind, wp_ret. cbv iota. apply wp_bind, wp_deref.
  rewrite (r_prev _ _ _ Ra), (r_next _ _ _ Ra), Hprev, ul_next.
  pose proof (r_val _ _ _ Rp) as Vn. rewrite Vp in Vn. destruct Vn as (T1 & T2 & T3).
  assert (Hlen : u32 (lenN (l ++ a :: r) + two32 - 1) = lenN (l ++ r)).
  { pose proof ul_len as L. unfold u32. replace (lenN (l ++ a :: r) + two32 - 1) with (lenN (l ++ r) + 1 * two32).
    - rewrite N.mod_add by discriminate. apply N.mod_small. unfold lenN in *. rewrite !app_length in *. simpl in *. lia.
    - unfold lenN. rewrite !app_length. simpl. lia. }
  (* after the first conditional: what the four nodes are *)
  set (P1 := fun (_ : unit) s1 => ext touched none zeroc s s1 /\ mch s s1 /\ (forall x, ~ touched x -> snodes s1 x = snodes s x) /\
     (forall x n, hd_error r = Some x -> snodes s x = Some n -> snodes s1 x = Some n) /\
     (forall x n, last_error l = Some x -> snodes s x = Some n -> snodes s1 x = Some (wNext (wopt (hd_error r)) n)) /\
     (exists n, snodes s1 a = Some n /\ nPrev n = Null /\ nNext n = wopt (hd_error r) /\ forall k, wNext k (wPrev Null na) = wNext k n) /\
     (exists n, snodes s1 p = Some n /\ nVal n = wopt (hd_error (l ++ r)) /\ n = wVal (nVal n) np)).
  apply wp_bind, wp_is_null_opt. apply wp_bind. eapply wp_mono with (Q := P1).
  { destruct (last_error l) as [b|] eqn:El; cbn [wopt].
    - destruct (ul_pred b El) as (N1 & N2 & N3 & fb & Fb & Hb1 & Hb2).
      destruct (i_rep _ _ I b fb Fb) as (nb & Eb & Rb); [auto|].
      cbv iota. apply wp_bind, wp_deref.
      assert (Tb : touched b) by (right; right; left; auto).
      eapply wp_seq; [eapply (modNode_step touched none zeroc s s b); eauto|]. intros [] s1 [X1 U1].
      eapply wp_mono; [eapply (modNode_step touched none zeroc s s1 a); eauto; rewrite (nu_neq _ _ _ _ U1) by auto; exact Ea|].
      intros [] s2 [X2 U2]. unfold P1.
      assert (M2 : mch s s2) by (eapply mch_trans; [apply U1|apply U2]).
      split; auto. split; auto. split; [|split; [|split; [|split]]].
      + intros x Nx. rewrite (nu_neq _ _ _ _ U2), (nu_neq _ _ _ _ U1); auto; intros ->; auto.
      + intros x n Hx En. destruct (ul_succ x Hx) as (M1 & M3 & M4 & _).
        rewrite (nu_neq _ _ _ _ U2), (nu_neq _ _ _ _ U1); auto. intros ->. congruence.
      + intros x n Hx En. injection Hx as <-. rewrite (nu_neq _ _ _ _ U2) by auto. rewrite (nu_eq _ _ _ _ U1). congruence.
      + eexists. split; [apply U2|]. split; [reflexivity|]. split; [|reflexivity]. cbn. rewrite (r_next _ _ _ Ra), ul_next. auto.
      + exists np. rewrite (nu_neq _ _ _ _ U2), (nu_neq _ _ _ _ U1) by auto. split; auto. split; [|now destruct np].
        rewrite T2. destruct l; [discriminate|reflexivity].
    - apply last_error_nil in El. 
      cbv iota.
      eapply wp_mono; [eapply (modNode_step touched none zeroc s s p); eauto|]. intros [] s1 [X1 U1].
      assert (M1 : mch s s1) by apply U1.
      split; auto. split; auto. split; [|split; [|split; [|split]]].
      + intros x Nx. rewrite (nu_neq _ _ _ _ U1); auto; intros ->; auto.
      + intros x n Hx En. destruct (ul_succ x Hx) as (K1 & K3 & K4 & _). rewrite (nu_neq _ _ _ _ U1); auto.
      + discriminate.
      + exists na. rewrite (nu_neq _ _ _ _ U1) by auto. split; auto. rewrite (r_prev _ _ _ Ra), (r_next _ _ _ Ra), Hprev, ul_next. cbn [hd_error wopt].
        split; auto. split; auto. intro k. pose proof (r_prev _ _ _ Ra) as Q. rewrite Hprev in Q; cbn [wopt] in Q. destruct na; simpl in *; now subst.
      + eexists. split; [apply U1|]. split; [|reflexivity]. cbn. now rewrite El. }
  intros [] s1 (X1 & M1 & O1 & S1 & L1 & (na1 & Ea1 & A1 & A2 & A3) & (np1 & Ep1 & B1 & B2)).
  apply wp_bind, (wp_getNode _ na1); auto. rewrite A1, A2.
  set (P2 := fun (_ : unit) s2 => ext touched none zeroc s s2 /\ mch s s2 /\ (forall x, ~ touched x -> snodes s2 x = snodes s x) /\
     (forall x n, hd_error r = Some x -> snodes s x = Some n -> snodes s2 x = Some (wPrev Null n)) /\
     (forall x n, last_error l = Some x -> snodes s x = Some n -> snodes s2 x = Some (wNext (wopt (hd_error r)) n)) /\
     snodes s2 a = Some (wNext Null (wPrev Null na)) /\
     snodes s2 p = Some (match r with [] => wEnd Null np1 | _ => np1 end)).
  apply wp_bind, wp_is_null_opt. apply wp_bind. eapply wp_mono with (Q := P2).
  { destruct (hd_error r) as [b|] eqn:El; cbn [wopt].
    - destruct (ul_succ b El) as (N1 & N2 & N3 & fb & Fb & Hb1).
      destruct (i_rep _ _ I b fb Fb) as (nb & Eb & Rb); [auto|].
      cbv iota. apply wp_bind, wp_deref.
      assert (Tb : touched b) by (right; right; right; auto).
      eapply wp_seq; [eapply (modNode_step touched none zeroc s s1 b); eauto|]. intros [] s2 [X2 U2].
      eapply wp_mono; [eapply (modNode_step touched none zeroc s s2 a); eauto; rewrite (nu_neq _ _ _ _ U2) by auto; exact Ea1|].
      intros [] s3 [X3 U3].
      assert (M3 : mch s s3) by (eapply mch_trans; [exact M1|]; eapply mch_trans; [apply U2|apply U3]).
      split; auto. split; auto. split; [|split; [|split; [|split]]].
      + intros x Nx. rewrite (nu_neq _ _ _ _ U3), (nu_neq _ _ _ _ U2); auto; intros ->; auto.
      + intros x n Hx En. injection Hx as <-. rewrite (nu_neq _ _ _ _ U3) by auto. rewrite (nu_eq _ _ _ _ U2). congruence.
      + intros x n Hx En. destruct (ul_pred x Hx) as (K1 & K3 & K4 & _).
        rewrite (nu_neq _ _ _ _ U3), (nu_neq _ _ _ _ U2); auto. congruence.
      + rewrite (nu_eq _ _ _ _ U3). now rewrite A3.
      + rewrite (nu_neq _ _ _ _ U3), (nu_neq _ _ _ _ U2) by auto. destruct r; [discriminate|auto].
    - cbv iota.
      eapply wp_mono; [eapply (modNode_step touched none zeroc s s1 p); eauto|]. intros [] s2 [X2 U2].
      assert (M2 : mch s s2) by (eapply mch_trans; [exact M1|]; apply U2).
      split; auto. split; auto. split; [|split; [|split; [|split]]].
      + intros x Nx. rewrite (nu_neq _ _ _ _ U2); auto; intros ->; auto.
      + discriminate.
      + intros x n Hx En. destruct (ul_pred x Hx) as (K1 & K3 & K4 & _). rewrite (nu_neq _ _ _ _ U2); auto.
      + rewrite (nu_neq _ _ _ _ U2) by auto. rewrite A3. rewrite Ea1. f_equal. destruct na1; simpl in *. now subst.
      + rewrite (nu_eq _ _ _ _ U2). destruct r; [auto|discriminate]. }
  intros [] s2 (X2 & M2 & O2 & S2 & L2 & Ea2 & Ep2).
  set (np2 := match r with [] => wEnd Null np1 | _ => np1 end) in *.
  assert (Len2 : nLen np2 = Some (lenN (l ++ a :: r))).
  { unfold np2. rewrite B2. destruct r; exact T3. }
  apply wp_bind, (wp_getNode _ np2); auto. apply wp_bind, (wp_rLen _ _ _ _ Len2). rewrite Hlen.
  eapply wp_seq; [eapply (modNode_step touched none zeroc s s2 p); eauto|]. intros [] s3 [X3 U3].
  eapply wp_mono; [eapply (modNode_step touched none zeroc s s3 a); eauto; rewrite (nu_neq _ _ _ _ U3) by auto; exact Ea2|].
  intros [] s4 [X4 U4].
  assert (M4 : mch s s4) by (eapply mch_trans; [exact M2|]; eapply mch_trans; [apply U3|apply U4]).
  split; auto. split; auto.
  eapply (inv_relink touched zeroc s s4 F); eauto using unlink_some, unlink_wfdom.
  intros x f' Hx. destruct (touched_dec x) as [[->|[->|[K|K]]]|N].
  - right. rewrite unlink_a in Hx. injection Hx as <-. eexists. split; [apply U4|]. destruct Ra. constructor; auto.
  - right. rewrite unlink_p in Hx. injection Hx as <-. eexists. split; [rewrite (nu_neq _ _ _ _ U4) by auto; apply U3|].
    unfold np2. rewrite B2. destruct Rp as [R1 R2 R3 R4 R5 R6 R7]. constructor; cbn [shrunk fkey fvalue fpar fnext fprev fend fstop]; try (destruct r; assumption).
    + cbn [rep_val]. split; [destruct r; exact T1|]. split; [|reflexivity]. rewrite <- B1. now destruct r.
    + destruct r; [discriminate|]. exact R6.
    + intros _ d q Ed. discriminate.
  - right. destruct (ul_pred x K) as (N1 & N2 & N3 & fb & Fb & _). rewrite (unlink_pred x fb) in Hx by auto. injection Hx as <-.
    destruct (i_rep _ _ I x fb Fb) as (nb & Eb & Rb); [auto|].
    eexists. split; [rewrite (nu_neq _ _ _ _ U4), (nu_neq _ _ _ _ U3) by auto; eapply L2; eauto|]. destruct Rb. constructor; auto.
  - right. destruct (ul_succ x K) as (N1 & N2 & N3 & fb & Fb & _). rewrite (unlink_succ x fb) in Hx by auto. injection Hx as <-.
    destruct (i_rep _ _ I x fb Fb) as (nb & Eb & Rb); [auto|].
    eexists. split; [rewrite (nu_neq _ _ _ _ U4), (nu_neq _ _ _ _ U3) by auto; eapply S2; eauto|]. destruct Rb. constructor; auto.
  - left. rewrite unlink_other in Hx by auto. split; auto.
    rewrite (nu_neq _ _ _ _ U4), (nu_neq _ _ _ _ U3); auto; intros ->; auto.
Qed.

(** The container has one child less, the node its value. *)
Lemma unlink_reads j : reads F p j -> exists il ja ir, j = container ob (il ++ (fkey f, ja) :: ir) /\
  length il = length l /\ reads unlink p (container ob (il ++ ir)) /\ reads F a ja /\ reads unlink a ja.
Proof.
  intro R. pose proof (proj1 (reads_acyclic F) p j R) as Ac.
  inversion R as [x g E1 E2|x g b E1 E2|x g b E1 E2|x g b E1 E2|x g ob' kids items E1 E2 Rl]; subst x;
    rewrite Fp in E1; injection E1 as <-; rewrite Vp in E2; try discriminate. injection E2 as <- <-.
  apply readsL_split in Rl as (il & ir0 & -> & Rl & Rr). inversion Rr as [|c0 r0 fc ja ir Fc Ra Rr']; subst.
  assert (fc = f) by congruence. subst fc.
  assert (NB : forall c, In c (l ++ a :: r) -> ~ below F c p) by (intros c Hc; eapply kids_not_above; eauto).
  assert (KK : forall c fc fc', F c = Some fc -> unlink c = Some fc' -> fkey fc' = fkey fc).
  { intros c fc fc' H1 H2. destruct (unlink_keep c fc H1) as (f1 & K1 & K2 & _). congruence. }
  exists il, ja, ir. split; auto. split; [symmetry; eapply readsL_length; eauto|]. split; [|split; auto].
  - apply (rd_cont unlink p shrunk ob (l ++ r)); [apply unlink_p|reflexivity|]. apply readsL_app.
    + eapply readsL_changed; [apply unlink_changed|exact Rl| |eauto].
      intros c Hc. split; [apply NB; apply in_app_iff; auto|intros d _ []].
    + eapply readsL_changed; [apply unlink_changed|exact Rr'| |eauto].
      intros c Hc. split; [apply NB; apply in_app_iff; simpl; auto|intros d _ []].
  - eapply changed_frame; [apply unlink_changed|exact Ra| |intros d _ []]. apply NB. apply in_app_iff. simpl. auto.
Qed.
(** Taking out the first child leaves everything tidy. *)
Lemma unlink_tidy x : x <> p \/ l = [] -> F x <> None -> tidy F x -> tidy unlink x.
Proof.
  intros Hx Fx T g ob' kids E V. destruct (addr_eqb_spec x p) as [->|N].
  - destruct Hx as [|El]; [congruence|]. rewrite unlink_p in E. injection E as <-. simpl in V. injection V as <- <-.
    destruct (T fp ob (l ++ a :: r) Fp Vp) as [T1 T2]. rewrite El in T1, T2. cbn [app] in T1, T2. split.
    + unfold shrunk. cbn [fend]. rewrite T1, El. cbn [app]. clear. destruct r as [|b r']; auto.
      change (a :: b :: r') with ([a] ++ b :: r'). rewrite last_app.
      change (b :: r') with ([] ++ b :: r'). rewrite last_app. auto.
    + destruct T2 as [_ T2]. replace (l ++ r) with r by (now rewrite El).
      assert (Hrr : forall c fc, In c r -> hd_error r <> Some c -> F c = Some fc -> unlink c = Some fc).
      { intros c fc Hc N Ec. rewrite unlink_other; auto. unfold touched. rewrite El. intros [->|[->|[K|K]]]; try discriminate; auto.
        - now apply (proj2 ul_al).
        - apply Hp. apply in_app_iff. simpl. auto. }
      assert (Hs : forall b fb, hd_error r = Some b -> F b = Some fb -> unlink b = Some (set_prev None fb)) by (intros; now apply unlink_succ).
      pose proof (nodup_app _ _ ul_nd) as ND. inversion ND as [|? ? _ NDr]; subst. clear - T2 Hrr Hs NDr.
      destruct r as [|b r']; [exact Logic.I|]. destruct T2 as [(fb & Fb & _) T2]. split.
      * exists (set_prev None fb). split; [now apply Hs|reflexivity].
      * eapply prevs_links; [|exact T2]. intros c fc Hc Ec. exists fc. split; auto. apply Hrr; auto; [now right|].
        intro K. injection K as ->. inversion NDr; auto.
  - destruct (unlink_some x g E) as (f0 & E0). destruct (unlink_keep x f0 E0) as (f1 & E1 & K1 & K2).
    assert (f1 = g) by congruence. subst f1. rewrite K2 in V by auto. destruct (T f0 ob' kids E0 V) as [T1 T2].
    destruct (Wd x f0 E0) as [D1 _]. destruct (D1 _ _ V) as [C _].
    assert (fend g = fend f0).
    { destruct (touched_dec x) as [[->|[->|[K|K]]]|N']; [| congruence| | |].
      - rewrite unlink_a in E. injection E as <-. assert (f0 = f) by congruence. now subst f0.
      - rewrite (unlink_pred x f0) in E by auto. injection E as <-. auto.
      - rewrite (unlink_succ x f0) in E by auto. injection E as <-. auto.
      - rewrite unlink_other in E by auto. congruence. }
    split; [congruence|]. eapply prevs_links; [|exact T2]. intros c fc Hc Ec.
    destruct (chain_in _ _ _ _ _ C Hc) as (fc' & E2 & E3 & _). assert (fc' = fc) by congruence. subst fc'.
    destruct (touched_dec c) as [[->|[->|[K|K]]]|N'].
    + congruence.
    + exists shrunk. split; [apply unlink_p|]. assert (fc = fp) by congruence. now subst fc.
    + destruct (ul_pred c K) as (_ & _ & _ & fb & B1 & B2 & _). congruence.
    + destruct (ul_succ c K) as (_ & _ & _ & fb & B1 & B2). congruence.
    + exists fc. rewrite unlink_other by auto. auto.
Qed.
End Unlink.

(** *** Appending a detached node *)
Section Append.
Variables (F : dom) (a c : addr) (fa fc : fnode) (ob : bool) (kids : list addr).
Hypothesis Wd : wfdom F.
Hypothesis Fa : F a = Some fa.
Hypothesis Va : fvalue fa = VCont ob kids.
Hypothesis Fc : F c = Some fc.
Hypothesis Hc : fpar fc = None.
Hypothesis Hac : a <> c.
Hypothesis Hak : ~ In a kids.
Hypothesis Hend : kids <> [] -> fend fa = last_error kids.
Hypothesis Hkey : if ob then fkey fc <> None else fkey fc = None.
Hypothesis Hlen : lenN kids + 1 < two32.

Definition grown : fnode := mkF (fkey fa) (VCont ob (kids ++ [c])) (fpar fa) (fnext fa) (fprev fa) (Some c) (fstop fa).
Definition attached : fnode := mkF (fkey fc) (fvalue fc) (Some a) None (last_error kids) (fend fc) (fstop fc).
Definition append : dom := fun x =>
  if addr_eqb x c then Some attached
  else if addr_eqb x a then Some grown
  else if is_opt (last_error kids) x then option_map (set_next (Some c)) (F x)
  else F x.
Definition atouched (x : addr) : Prop := x = c \/ x = a \/ last_error kids = Some x.

Lemma ap_chain : chain F a ob kids.
Proof. destruct (Wd a fa Fa) as [D _]. exact (proj1 (D _ _ Va)). Qed.
Lemma ap_kid x : In x kids -> x <> a /\ x <> c /\ exists fx, F x = Some fx /\ fpar fx = Some a.
Proof.
  intro H. destruct (chain_in _ _ _ _ _ ap_chain H) as (fx & E1 & E2 & _).
  split; [intros ->; auto|]. split; [intros ->; congruence|]. eauto.
Qed.
Lemma ap_pred b : last_error kids = Some b -> b <> a /\ b <> c /\ exists fb, F b = Some fb /\ fpar fb = Some a.
Proof. intro H. apply ap_kid. now apply last_in. Qed.
Lemma append_c : append c = Some attached. Proof. unfold append. now rewrite addr_eqb_refl. Qed.
Lemma append_a : append a = Some grown.
Proof. unfold append. rewrite addr_eqb_neq by auto. now rewrite addr_eqb_refl. Qed.
Lemma append_pred b fb : last_error kids = Some b -> F b = Some fb -> append b = Some (set_next (Some c) fb).
Proof.
  intros H E. destruct (ap_pred b H) as (N1 & N2 & _). unfold append. rewrite !addr_eqb_neq by auto.
  replace (is_opt (last_error kids) b) with true by (symmetry; now apply is_opt_true). now rewrite E.
Qed.
Lemma append_other x : ~ atouched x -> append x = F x.
Proof.
  intro H. unfold append, atouched in *. rewrite !addr_eqb_neq by tauto.
  replace (is_opt (last_error kids) x) with false by (symmetry; apply is_opt_false; tauto). auto.
Qed.
Lemma atouched_dec x : {atouched x} + {~ atouched x}.
Proof.
  unfold atouched. destruct (addr_eqb_spec x c); [left; auto|]. destruct (addr_eqb_spec x a); [left; auto|].
  destruct (is_opt (last_error kids) x) eqn:E1; [left; apply is_opt_true in E1; auto|]. apply is_opt_false in E1.
  right. tauto.
Qed.
Lemma append_some x f' : append x = Some f' -> exists f0, F x = Some f0.
Proof.
  intro H. destruct (atouched_dec x) as [[->|[->|K]]|N]; eauto.
  - destruct (ap_pred x K) as (_ & _ & fb & E & _). eauto.
  - rewrite append_other in H by auto. eauto.
Qed.
Lemma append_keep x f0 : F x = Some f0 -> exists f', append x = Some f' /\ fkey f' = fkey f0 /\ (x <> a -> fvalue f' = fvalue f0).
Proof.
  intro H. destruct (atouched_dec x) as [[->|[->|K]]|N].
  - exists attached. split; [apply append_c|]. assert (f0 = fc) by congruence. subst f0. auto.
  - exists grown. split; [apply append_a|]. assert (f0 = fa) by congruence. subst f0. split; auto. congruence.
  - exists (set_next (Some c) f0). split; [now apply append_pred|]. auto.
  - exists f0. rewrite append_other by auto. auto.
Qed.
Lemma append_changed : changed none F append a.
Proof. intros x f0 H _. destruct (append_keep x f0 H) as (f' & E1 & E2 & E3). exists f'. auto. Qed.
Lemma append_links x f0 : F x = Some f0 -> x <> c -> last_error kids <> Some x -> exists f', append x = Some f' /\ same_links f0 f'.
Proof.
  intros H N1 N2. destruct (atouched_dec x) as [[->|[->|K]]|N]; try congruence.
  - exists grown. split; [apply append_a|]. assert (f0 = fa) by congruence. subst f0. repeat split.
  - exists f0. rewrite append_other by auto. repeat split; auto.
Qed.
Lemma append_chain : chain append a ob (kids ++ [c]).
Proof.
  assert (H : forall l0 l1, kids = l0 ++ l1 -> chain F a ob l1 -> chain append a ob (l1 ++ [c])).
  { intros l0 l1. revert l0. induction l1 as [|y l1 IH]; intros l0 El C0.
    - simpl. split; auto. exists attached. split; [apply append_c|]. auto.
    - destruct C0 as [(fy & E1 & E2 & E3 & E4) C0]. split; [|apply (IH (l0 ++ [y])); [now rewrite <- app_assoc|exact C0]].
      destruct l1 as [|z l1].
      + exists (set_next (Some c) fy). split; [apply append_pred; auto; rewrite El; apply last_error_snoc|]. simpl. auto.
      + destruct (append_links y fy E1) as (f' & G1 & G2 & G3 & G4).
        * intros ->. congruence.
        * intro K. assert (Hl : last_error (z :: l1) = Some y).
          { rewrite El in K. rewrite last_app in K. destruct (last_error (z :: l1)) eqn:E; [congruence|]. apply (last_error_nil (z :: l1)) in E. discriminate. }
          apply last_in in Hl. pose proof (chain_NoDup _ _ _ _ ap_chain) as ND. rewrite El in ND. apply nodup_app in ND.
          inversion ND; subst. auto.
        * exists f'. rewrite G2, G3, G4. auto. }
  apply (H [] kids eq_refl). apply ap_chain.
Qed.
Lemma append_wfdom : wfdom append.
Proof.
  intros x f' Hx. destruct (append_some x f' Hx) as (f0 & E0). destruct (Wd x f0 E0) as [D1 D2].
  destruct (append_keep x f0 E0) as (f1 & E1 & K1 & K2). assert (f1 = f') by congruence. subst f1. split.
  - intros ob' kids' Hv. destruct (addr_eqb_spec x a) as [->|N].
    + rewrite append_a in Hx. injection Hx as <-. simpl in Hv. injection Hv as <- <-. split; [apply append_chain|].
      unfold lenN in *. rewrite app_length. simpl. lia.
    + rewrite K2 in Hv by auto. destruct (D1 _ _ Hv) as [C L]. split; auto. eapply chain_links; [|exact C].
      intros y fy Hy Ey. destruct (chain_in _ _ _ _ _ C Hy) as (g & G1 & G2 & _). assert (g = fy) by congruence. subst g.
      apply append_links; auto.
      * intros ->. congruence.
      * intro K. destruct (ap_pred y K) as (_ & _ & fb & B1 & B2). congruence.
  - destruct (atouched_dec x) as [[->|[->|K]]|N].
    + rewrite append_c in Hx. injection Hx as <-. discriminate.
    + rewrite append_a in Hx. injection Hx as <-. simpl. assert (f0 = fa) by congruence. now subst f0.
    + destruct (ap_pred x K) as (_ & _ & fb & B1 & B2). rewrite (append_pred x fb) in Hx by auto.
      injection Hx as <-. simpl. congruence.
    + rewrite append_other in Hx by auto. assert (f0 = f') by congruence. now subst f0.
Qed.
Lemma append_reads items jc : reads F a (container ob items) -> readsL F kids items -> reads F c jc -> ~ below F c a ->
  reads append a (container ob (items ++ [(fkey fc, jc)])).
Proof.
  intros R Rl Rc Nb. pose proof (proj1 (reads_acyclic F) a _ R) as Ac.
  apply (rd_cont append a grown ob (kids ++ [c])); [apply append_a|reflexivity|]. apply readsL_app.
  - eapply readsL_changed; [apply append_changed|exact Rl| |].
    + intros y Hy. split; [eapply kids_not_above; eauto|intros d _ []].
    + intros y fy fy' _ E1 E2. destruct (append_keep y fy E1) as (f1 & K1 & K2 & _). congruence.
  - change (fkey fc) with (fkey attached). apply rl_cons; [apply append_c| |constructor].
    eapply changed_frame; [apply append_changed|exact Rc|auto|intros d _ []].
Qed.
Lemma append_tidy x : F x <> None -> tidy F x -> tidy append x.
Proof.
  intros Fx T g ob' kids' E V. destruct (addr_eqb_spec x a) as [->|N].
  - rewrite append_a in E. injection E as <-. simpl in V. injection V as <- <-.
    destruct (T fa ob kids Fa Va) as [T1 T2]. split; [symmetry; apply last_error_snoc|].
    apply (prevs_snoc append kids c attached); [|apply append_c|simpl; now destruct (last_error kids)].
    eapply prevs_links; [|exact T2]. intros y fy Hy Ey. destruct (ap_kid y Hy) as (N1 & N2 & _).
    destruct (atouched_dec y) as [[->|[->|K]]|N']; try congruence.
    + exists (set_next (Some c) fy). split; [now apply append_pred|]. auto.
    + exists fy. rewrite append_other by auto. auto.
  - destruct (append_some x g E) as (f0 & E0). destruct (append_keep x f0 E0) as (f1 & E1 & K1 & K2).
    assert (f1 = g) by congruence. subst f1. rewrite K2 in V by auto. destruct (T f0 ob' kids' E0 V) as [T1 T2].
    destruct (Wd x f0 E0) as [D1 _]. destruct (D1 _ _ V) as [C _].
    assert (fend g = fend f0).
    { destruct (atouched_dec x) as [[->|[->|K]]|N']; [| congruence| |].
      - rewrite append_c in E. injection E as <-. assert (f0 = fc) by congruence. now subst f0.
      - rewrite (append_pred x f0) in E by auto. injection E as <-. auto.
      - rewrite append_other in E by auto. congruence. }
    split; [congruence|]. eapply prevs_links; [|exact T2]. intros y fy Hy Ey.
    destruct (chain_in _ _ _ _ _ C Hy) as (fc' & E2 & E3 & _). assert (fc' = fy) by congruence. subst fc'.
    destruct (atouched_dec y) as [[->|[->|K]]|N'].
    + congruence.
    + exists grown. split; [apply append_a|]. assert (fy = fa) by congruence. now subst fy.
    + destruct (ap_pred y K) as (_ & _ & fb & B1 & B2). congruence.
    + exists fy. rewrite append_other by auto. auto.
Qed.

Lemma append_node_wp s : inv s F ->
  wp (append_node a c) s (fun _ s' => ext atouched none zeroc s s' /\ mch s s' /\ inv s' append).
Proof.
  intro I. pose proof (i_wf _ _ I) as W. unfold append_node.
  destruct (i_rep _ _ I a fa Fa) as (na & Ea & Ra); [auto|].
  destruct (i_rep _ _ I c fc Fc) as (nc & Ec & Rc); [auto|].
  assert (X0 : ext atouched none zeroc s s) by now apply ext_refl.
  assert (Tc : atouched c) by (left; auto). assert (Ta : atouched a) by (right; left; auto).
  destruct (Wd c fc Fc) as [_ Hn]. destruct (Hn Hc) as [Hn1 Hn2].
  eapply wp_seq; [eapply (modNode_step atouched none zeroc s s c); eauto|]. intros [] s1 [X1 U1].
  assert (Ea1 : snodes s1 a = Some na) by (rewrite (nu_neq _ _ _ _ U1); auto).
  apply wp_bind, (wp_getNode _ na); auto.
  pose proof (r_val _ _ _ Ra) as Vn. rewrite Va in Vn. destruct Vn as (T1 & T2 & T3). rewrite T2.
  apply wp_bind, wp_is_null_opt.
  destruct (hd_error kids) as [k0|] eqn:Eh; cbv iota.
  - assert (Nk : kids <> []) by (destruct kids; [discriminate|discriminate]).
    destruct (last_error kids) as [b|] eqn:El; [|apply last_error_nil in El; congruence].
    destruct (ap_pred b El) as (N1 & N2 & fb & Fb & Hb).
    destruct (i_rep _ _ I b fb Fb) as (nb & Eb & Rb); [auto|].
    assert (Tb : atouched b) by (right; right; auto).
    assert (He : nEnd na = At b) by (apply (r_end _ _ _ Ra); rewrite Hend; auto).
    rewrite He. apply wp_bind, wp_deref.
    eapply wp_seq; [eapply (modNode_step atouched none zeroc s s1 b); eauto; rewrite (nu_neq _ _ _ _ U1) by auto; exact Eb|].
    intros [] s2 [X2 U2].
    assert (Ea2 : snodes s2 a = Some na) by (rewrite (nu_neq _ _ _ _ U2); auto).
    apply wp_bind, (wp_getNode _ na); auto. rewrite He.
    assert (Ec2 : snodes s2 c = Some (wFather (At a) nc)) by (rewrite (nu_neq _ _ _ _ U2) by auto; apply U1).
    eapply wp_seq; [eapply (modNode_step atouched none zeroc s s2 c); eauto|]. intros [] s3 [X3 U3].
    assert (Ea3 : snodes s3 a = Some na) by (rewrite (nu_neq _ _ _ _ U3); auto).
    eapply wp_seq; [eapply (modNode_step atouched none zeroc s s3 a); eauto|]. intros [] s4 [X4 U4].
    apply wp_bind, (wp_getNode _ (wEnd (At c) na)); [apply U4|]. apply wp_bind, (wp_rLen _ (lenN kids)); [exact T3|].
    eapply wp_mono; [eapply (modNode_step atouched none zeroc s s4 a); eauto; apply U4|]. intros [] s5 [X5 U5].
    assert (M5 : mch s s5).
    { eapply mch_trans; [apply U1|]. eapply mch_trans; [apply U2|]. eapply mch_trans; [apply U3|].
      eapply mch_trans; [apply U4|apply U5]. }
    split; auto. split; auto.
    eapply (inv_relink atouched zeroc s s5 F); eauto using append_some, append_wfdom.
    intros x f' Hx. destruct (atouched_dec x) as [[->|[->|K]]|N].
    + right. rewrite append_c in Hx. injection Hx as <-. eexists.
      split; [rewrite (nu_neq _ _ _ _ U5), (nu_neq _ _ _ _ U4) by auto; apply U3|].
      destruct Rc as [R1 R2 R3 R4 R5 R6 R7]. constructor; auto; cbn; [now rewrite R4, Hn1|now rewrite El].
    + right. rewrite append_a in Hx. injection Hx as <-. eexists. split; [apply U5|].
      destruct Ra as [R1 R2 R3 R4 R5 R6 R7]. constructor; cbn [grown fkey fvalue fpar fnext fprev fend]; auto.
      * cbn [rep_val]. split; [exact T1|]. split; [|].
        { assert (Hh : hd_error (kids ++ [c]) = Some k0) by (clear - Eh; destruct kids; [discriminate|exact Eh]).
          rewrite Hh. exact T2. }
        rewrite nLen_w. f_equal. unfold u32. rewrite N.mod_small by auto. unfold lenN. rewrite app_length. simpl. lia.
      * intros e Ee. injection Ee as <-. reflexivity.
      * intros _ d q Ed. discriminate.
    + right. assert (x = b) by congruence. subst x. rewrite (append_pred b fb) in Hx by auto. injection Hx as <-.
      eexists. split; [rewrite (nu_neq _ _ _ _ U5), (nu_neq _ _ _ _ U4), (nu_neq _ _ _ _ U3) by auto; apply U2|].
      destruct Rb. constructor; auto.
    + left. rewrite append_other in Hx by auto. split; auto.
      rewrite (nu_neq _ _ _ _ U5), (nu_neq _ _ _ _ U4), (nu_neq _ _ _ _ U3), (nu_neq _ _ _ _ U2), (nu_neq _ _ _ _ U1); auto; intros ->; auto.
  - assert (Nk : kids = []) by (destruct kids; [auto|discriminate]).
    eapply wp_seq; [eapply (modNode_step atouched none zeroc s s1 a); eauto|]. intros [] s2 [X2 U2].
    eapply wp_seq; [eapply (modNode_step atouched none zeroc s s2 a); eauto; apply U2|]. intros [] s3 [X3 U3].
    eapply wp_mono; [eapply (modNode_step atouched none zeroc s s3 a); eauto; apply U3|]. intros [] s4 [X4 U4].
    assert (U := nupd_trans _ _ _ _ _ _ U2 (nupd_trans _ _ _ _ _ _ U3 U4)).
    assert (M5 : mch s s4) by (eapply mch_trans; [apply U1|apply U]).
    split; auto. split; auto.
    eapply (inv_relink atouched zeroc s s4 F); eauto using append_some, append_wfdom.
    intros x f' Hx. destruct (atouched_dec x) as [[->|[->|K]]|N].
    + right. rewrite append_c in Hx. injection Hx as <-. eexists.
      split; [rewrite (nu_neq _ _ _ _ U) by auto; apply U1|].
      destruct Rc as [R1 R2 R3 R4 R5 R6 R7]. constructor; auto; cbn; [now rewrite R4, Hn1|now rewrite R5, Hn2, Nk].
    + right. rewrite append_a in Hx. injection Hx as <-. eexists. split; [apply U|].
      destruct Ra as [R1 R2 R3 R4 R5 R6 R7]. constructor; cbn [grown fkey fvalue fpar fnext fprev fend]; auto.
      * rewrite Nk. cbn [rep_val]. split; [exact T1|]. split; reflexivity.
      * intros e Ee. injection Ee as <-. reflexivity.
      * intros _ d q Ed. discriminate.
    + rewrite Nk in K. discriminate.
    + left. rewrite append_other in Hx by auto. split; auto.
      rewrite (nu_neq _ _ _ _ U), (nu_neq _ _ _ _ U1); auto; intros ->; auto.
Qed.
End Append.

(** *** Taking over the value of a detached node *)
Definition kids_in (v : fval) : list addr := match v with VCont _ k => k | _ => [] end.
Definition isin (x : addr) (l : list addr) : bool := existsb (addr_eqb x) l.
Lemma isin_true x l : isin x l = true <-> In x l.
Proof.
  unfold isin. rewrite existsb_exists. split.
  - intros (y & H & E). destruct (addr_eqb_spec x y); [subst; auto|discriminate].
  - intro H. exists x. split; auto. apply addr_eqb_refl.
Qed.
Lemma isin_false x l : isin x l = false <-> ~ In x l.
Proof. rewrite <- isin_true. destruct (isin x l); split; auto; congruence. Qed.
Definition set_par (o : option addr) (f : fnode) : fnode := mkF (fkey f) (fvalue f) o (fnext f) (fprev f) (fend f) (fstop f).

(** The loop over the children. *)
Lemma adopt_wp (D : addr -> Prop) s0 a : wfst s0 -> forall l fuel s, ext D none zeroc s0 s -> (forall x, In x l -> D x) -> NoDup l ->
  (length l <= fuel)%nat ->
  (forall x r1 r2, l = r1 ++ x :: r2 -> exists n, snodes s x = Some n /\ nNext n = wopt (hd_error r2)) ->
  wp (adopt fuel a (wopt (hd_error l))) s (fun _ s' => ext D none zeroc s0 s' /\ mch s s' /\
    (forall x n, In x l -> snodes s x = Some n -> snodes s' x = Some (wFather (At a) n)) /\
    (forall x, ~ In x l -> snodes s' x = snodes s x)).
Proof.
  intro W. induction l as [|c r IH]; intros fuel s X HD ND Hf Hn; simpl hd_error.
  - assert (P : wp (is_null Null) s (fun b s' => b = true /\ s' = s)) by (apply wp_ret; auto).
    destruct fuel; (eapply wp_seq; [exact P|]; intros ? ? [-> ->]; apply wp_ret; split; [auto|]; split; [apply mch_refl|]; split; [intros x n []|auto]).
  - destruct fuel as [|fuel]; [simpl in Hf; lia|]. cbn [adopt wopt]. apply wp_bind, wp_ret. cbv iota.
    apply wp_bind, wp_deref. destruct (Hn c [] r eq_refl) as (n & En & Nn).
    eapply wp_seq; [eapply (modNode_step D none zeroc s0 s c); eauto; right; apply HD; now left|]. intros [] s1 [X1 U1].
    apply wp_bind, (wp_getNode _ (wFather (At a) n)); [apply U1|].
    replace (nNext (wFather (At a) n)) with (wopt (hd_error r)) by (rewrite <- Nn; reflexivity).
    inversion ND as [|? ? Nc NDr]; subst.
    eapply wp_mono; [apply (IH fuel s1); auto|].
    + intros x Hx. apply HD. now right.
    + simpl in Hf. lia.
    + intros x r1 r2 Er. destruct (Hn x (c :: r1) r2) as (m & Em & Nm); [simpl; now rewrite Er|]. exists m. split; auto.
      rewrite (nu_neq _ _ _ _ U1); auto. intros ->. apply Nc. rewrite Er. apply in_app_iff. simpl. auto.
    + intros [] s2 (X2 & M2 & K2 & O2). split; auto. split; [eapply mch_trans; [apply U1|auto]|]. split.
      * intros x m [->|Hx] Em.
        -- rewrite O2 by auto. rewrite (nu_eq _ _ _ _ U1). congruence.
        -- apply K2; auto. rewrite (nu_neq _ _ _ _ U1); auto. intros ->. auto.
      * intros x Hx. rewrite O2 by (intro; apply Hx; now right). apply U1. intros ->. apply Hx. now left.
Qed.

Section Take.
Variables (F : dom) (a b : addr) (fa fb : fnode) (e : addr) (fe : option addr).
Hypothesis Wd : wfdom F.
Hypothesis Fa : F a = Some fa.
Hypothesis Fb : F b = Some fb.
Hypothesis Hb : fpar fb = None.
Hypothesis Hab : a <> b.
Hypothesis Hak : ~ In a (kids_in (fvalue fb)).
Hypothesis He : F e <> None.
Hypothesis Hfe : fe = None \/ (e = b /\ fe = fend fb).

Definition taken_node : fnode :=
  mkF (fkey fa) (fvalue fb) (fpar fa) (fnext fa) (fprev fa) (match fvalue fb with VCont _ _ => fe | _ => None end) (fstop fb).
Definition take : dom := fun x =>
  if addr_eqb x b then None
  else if addr_eqb x a then Some taken_node
  else if isin x (kids_in (fvalue fb)) then option_map (set_par (Some a)) (F x)
  else F x.
Definition ttouched (x : addr) : Prop := x = a \/ In x (kids_in (fvalue fb)).

Lemma tk_kid x : In x (kids_in (fvalue fb)) -> x <> a /\ x <> b /\ exists fx, F x = Some fx /\ fpar fx = Some b.
Proof.
  intro H. split; [intros ->; auto|]. unfold kids_in in H. destruct (fvalue fb) as [| | | |ob kids] eqn:V; try destruct H.
  destruct (Wd b fb Fb) as [D _]. destruct (D _ _ V) as [C _].
  destruct (chain_in _ _ _ _ _ C H) as (fx & E1 & E2 & _). split; [intros ->; congruence|]. eauto.
Qed.
Lemma take_a : take a = Some taken_node.
Proof. unfold take. rewrite addr_eqb_neq by auto. now rewrite addr_eqb_refl. Qed.
Lemma take_b : take b = None.
Proof. unfold take. now rewrite addr_eqb_refl. Qed.
Lemma take_kid x fx : In x (kids_in (fvalue fb)) -> F x = Some fx -> take x = Some (set_par (Some a) fx).
Proof.
  intros H E. destruct (tk_kid x H) as (N1 & N2 & _). unfold take. rewrite !addr_eqb_neq by auto.
  replace (isin x (kids_in (fvalue fb))) with true by (symmetry; now apply isin_true). now rewrite E.
Qed.
Lemma take_other x : ~ ttouched x -> x <> b -> take x = F x.
Proof.
  intros H N. unfold take, ttouched in *. rewrite !addr_eqb_neq by tauto.
  replace (isin x (kids_in (fvalue fb))) with false by (symmetry; apply isin_false; tauto). auto.
Qed.
Lemma ttouched_dec x : {ttouched x} + {~ ttouched x}.
Proof.
  unfold ttouched. destruct (addr_eqb_spec x a); [left; auto|].
  destruct (isin x (kids_in (fvalue fb))) eqn:E; [left; apply isin_true in E; auto|]. apply isin_false in E. right. tauto.
Qed.
Lemma take_some x f' : take x = Some f' -> x <> b /\ exists f0, F x = Some f0.
Proof.
  intro H. destruct (addr_eqb_spec x b) as [->|N]; [rewrite take_b in H; discriminate|]. split; auto.
  destruct (ttouched_dec x) as [[->|K]|N']; eauto.
  - destruct (tk_kid x K) as (_ & _ & fx & E & _). eauto.
  - rewrite take_other in H by auto. eauto.
Qed.
Lemma take_keep x f0 : F x = Some f0 -> x <> b -> exists f', take x = Some f' /\ fkey f' = fkey f0 /\ (x <> a -> fvalue f' = fvalue f0) /\
  fend f' = (if addr_eqb x a then match fvalue fb with VCont _ _ => fe | _ => None end else fend f0) /\ fprev f' = fprev f0 /\ fnext f' = fnext f0 /\
  (~ In x (kids_in (fvalue fb)) -> fpar f' = fpar f0).
Proof.
  intros H Nb. destruct (ttouched_dec x) as [[->|K]|N].
  - exists taken_node. split; [apply take_a|]. assert (f0 = fa) by congruence. subst f0. split; auto. split; [congruence|].
    rewrite addr_eqb_refl. auto.
  - destruct (tk_kid x K) as (N1 & _). exists (set_par (Some a) f0). split; [now apply take_kid|]. rewrite addr_eqb_neq by auto.
    repeat (split; auto). tauto.
  - exists f0. rewrite take_other by auto. split; auto. split; auto. split; auto. split; auto.
    rewrite addr_eqb_neq; auto. intros ->. apply N. now left.
Qed.
Lemma take_changed : changed (only b) F take a.
Proof. intros x f0 H N. destruct (take_keep x f0 H) as (f' & E1 & E2 & E3 & _); [exact N|]. exists f'. auto. Qed.
Lemma take_links x f0 y : F x = Some f0 -> fpar f0 = Some y -> y <> b -> exists f', take x = Some f' /\ same_links f0 f'.
Proof.
  intros H Hy Ny. assert (Nb : x <> b) by (intros ->; congruence).
  destruct (take_keep x f0 H Nb) as (f' & E1 & E2 & _ & _ & _ & E3 & E4). exists f'. split; auto. split; auto. split; auto.
  apply E4. intro K. destruct (tk_kid x K) as (_ & _ & fx & Ex & Px). congruence.
Qed.
Lemma take_chain ob : fvalue fb = VCont ob (kids_in (fvalue fb)) -> chain take a ob (kids_in (fvalue fb)).
Proof.
  intro V. destruct (Wd b fb Fb) as [D _]. destruct (D _ _ V) as [C _]. revert C.
  cut (forall l, (forall x, In x l -> In x (kids_in (fvalue fb))) -> chain F b ob l -> chain take a ob l); [intro H; apply H; auto|].
  induction l as [|c r IH]; simpl; auto. intros Hi [(fc & E1 & E2 & E3 & E4) C]. split; [|apply IH; auto].
  exists (set_par (Some a) fc). split; [apply take_kid; auto|]. auto.
Qed.
Lemma take_wfdom : wfdom take.
Proof.
  intros x f' Hx. destruct (take_some x f' Hx) as (Nb & f0 & E0). destruct (Wd x f0 E0) as [D1 D2].
  destruct (take_keep x f0 E0 Nb) as (f1 & E1 & K1 & K2 & K3 & K4 & K5 & K6). assert (f1 = f') by congruence. subst f1. split.
  - intros ob kids Hv. destruct (addr_eqb_spec x a) as [->|N].
    + rewrite take_a in Hx. injection Hx as <-. simpl in Hv.
      assert (Ek : kids = kids_in (fvalue fb)) by (now rewrite Hv). rewrite Ek. destruct (Wd b fb Fb) as [D _].
      rewrite Ek in Hv. split; [now apply take_chain|]. exact (proj2 (D _ _ Hv)).
    + rewrite K2 in Hv by auto. destruct (D1 _ _ Hv) as [C L]. split; auto. eapply chain_links; [|exact C].
      intros y fy Hy Ey. destruct (chain_in _ _ _ _ _ C Hy) as (g & G1 & G2 & _). assert (g = fy) by congruence. subst g.
      eapply take_links; eauto.
  - destruct (ttouched_dec x) as [[->|K]|N].
    + rewrite take_a in Hx. injection Hx as <-. simpl. assert (f0 = fa) by congruence. now subst f0.
    + destruct (tk_kid x K) as (_ & _ & fx & Ex & _). rewrite (take_kid x fx) in Hx by auto. injection Hx as <-. discriminate.
    + rewrite take_other in Hx by auto. assert (f0 = f') by congruence. now subst f0.
Qed.
Lemma take_reads j : reads F b j -> ~ below F b a -> reads take a j.
Proof.
  intros R Nb. pose proof (proj1 (reads_acyclic F) b j R) as Ac.
  inversion R as [x g E1 E2|x g t E1 E2|x g t E1 E2|x g t E1 E2|x g ob kids items E1 E2 Rl]; subst x;
    rewrite Fb in E1; injection E1 as <-.
  - apply (rd_null take a taken_node); [apply take_a|exact E2].
  - apply (rd_bool take a taken_node); [apply take_a|exact E2].
  - apply (rd_num take a taken_node); [apply take_a|exact E2].
  - apply (rd_str take a taken_node); [apply take_a|exact E2].
  - apply (rd_cont take a taken_node ob kids); [apply take_a|exact E2|].
    eapply readsL_changed; [apply take_changed|exact Rl| |].
    + intros c Hc. split.
      * intro K. apply Nb. eapply below_trans; [|exact K]. eapply (bl_kid F b b fb); eauto using bl_self.
      * intros d Hd ->. apply Ac. exists fb, ob, kids, c. auto.
    + intros c fc fc' Hc E3 E4. assert (Nc : c <> b) by (apply tk_kid; now rewrite E2).
      destruct (take_keep c fc E3 Nc) as (f1 & K1 & K2 & _). congruence.
Qed.
Lemma take_tidy x : x <> b -> F x <> None -> (x <> a -> tidy F x) -> (x = a -> fe = fend fb /\ tidy F b) -> tidy take x.
Proof.
  intros Nb Fx T Ta g ob kids E V. destruct (addr_eqb_spec x a) as [->|N].
  - destruct (Ta eq_refl) as [Efe Tb]. rewrite take_a in E. injection E as <-. simpl in V.
    destruct (Tb fb ob kids Fb V) as [T1 T2]. unfold taken_node. cbn [fend]. rewrite V. split; [congruence|].
    eapply prevs_links; [|exact T2]. intros c fc Hc Ec. exists (set_par (Some a) fc).
    split; [apply take_kid; auto; now rewrite V|]. auto.
  - specialize (T N). destruct (take_some x g E) as (_ & f0 & E0).
    destruct (take_keep x f0 E0 Nb) as (f1 & E1 & K1 & K2 & K3 & K4 & K5 & K6). assert (f1 = g) by congruence. subst f1.
    rewrite K2 in V by auto. destruct (T f0 ob kids E0 V) as [T1 T2]. rewrite addr_eqb_neq in K3 by auto.
    split; [congruence|]. destruct (Wd x f0 E0) as [D1 _]. destruct (D1 _ _ V) as [C _].
    eapply prevs_links; [|exact T2]. intros c fc Hc Ec.
    destruct (chain_in _ _ _ _ _ C Hc) as (fc' & E2 & E3 & _). assert (fc' = fc) by congruence. subst fc'.
    assert (Nc : c <> b) by (intros ->; congruence).
    destruct (take_keep c fc Ec Nc) as (f1 & L1 & _ & _ & _ & L2 & _). eauto.
Qed.

Lemma take_value_wp s fuel : inv s F -> (length (kids_in (fvalue fb)) <= fuel)%nat ->
  wp (take_value fuel a b e) s (fun _ s' => ext ttouched none zeroc s s' /\ mch s s' /\ inv s' take).
Proof.
  intros I Hf. pose proof (i_wf _ _ I) as W. unfold take_value.
  destruct (i_rep _ _ I a fa Fa) as (na & Ea & Ra); [auto|].
  destruct (i_rep _ _ I b fb Fb) as (nb & Eb & Rb); [auto|].
  assert (Ta : ttouched a) by (left; auto).
  apply wp_bind, (wp_getNode _ nb); auto.
  assert (Ht : exists t, nType nb = Some t /\ is_container t = match fvalue fb with VCont _ _ => true | _ => false end).
  { pose proof (r_val _ _ _ Rb) as V. destruct (fvalue fb) as [| | | |ob kids]; cbn [rep_val] in V; destruct V as [V _]; eexists; (split; [exact V|]); auto.
    now destruct ob. }
  destruct Ht as (t & Ht & Hct). apply wp_bind, (wp_rType _ t); auto.
  assert (X0 : ext ttouched none zeroc s s) by now apply ext_refl.
  eapply wp_seq; [eapply (modNode_step ttouched none zeroc s s a); eauto|]. intros [] s1 [X1 U1].
  eapply wp_seq; [eapply (modNode_step ttouched none zeroc s s1 a); eauto; apply U1|]. intros [] s2 [X2 U2].
  pose proof (nupd_trans _ _ _ _ _ _ U1 U2) as U12.
  apply wp_bind, (wp_getNode _ nb); [rewrite (nu_neq _ _ _ _ U12); auto|].
  assert (Hl : exists x, nLen nb = Some x).
  { pose proof (r_val _ _ _ Rb) as V. destruct (fvalue fb); cbn [rep_val] in V; destruct V as (_ & V1 & V2); eauto. }
  destruct Hl as [ln Hl]. apply wp_bind, (wp_rLen _ _ _ _ Hl).
  eapply wp_seq; [eapply (modNode_step ttouched none zeroc s s2 a); eauto; apply U12|]. intros [] s3 [X3 U3].
  pose proof (nupd_trans _ _ _ _ _ _ U12 U3) as U13. 
  assert (Fin : forall s' m, ext ttouched none zeroc s s' -> mch s s' -> (forall x, ~ ttouched x -> snodes s' x = snodes s x) ->
     snodes s' a = Some m -> nKey m = nKey na -> nKeyLen m = nKeyLen na -> nNext m = nNext na -> nPrev m = nPrev na -> nFather m = nFather na ->
     nType m = nType nb -> nVal m = nVal nb -> nLen m = nLen nb ->
     (forall z ob kids, fvalue fb = VCont ob kids -> fe = Some z -> nEnd m = At z) ->
     (forall x n, In x (kids_in (fvalue fb)) -> snodes s x = Some n -> snodes s' x = Some (wFather (At a) n)) -> inv s' take).
  { intros s' m X M O Em K1 K2 K3 K4 K5 K6 K7 K8 K9 Kk.
    eapply (inv_relink ttouched zeroc s s' F); eauto using take_wfdom.
    - intros x f' Hx. destruct (take_some x f' Hx) as (_ & H). exact H.
    - intros x f' Hx. destruct (take_some x f' Hx) as (Nx & _). destruct (ttouched_dec x) as [[->|K]|N].
      + right. rewrite take_a in Hx. injection Hx as <-. exists m. split; auto.
        destruct Ra as [R1 R2 R3 R4 R5 R6 R7]. constructor; cbn [taken_node fkey fvalue fpar fnext fprev fend fstop]; try congruence.
        * destruct (fkey fa); cbn [rep_key] in *; [|congruence]. destruct R1 as (q & Q1 & Q2 & Q3). exists q.
          split; [congruence|]. split; [congruence|auto].
        * pose proof (r_val _ _ _ Rb) as V. destruct (fvalue fb); cbn [rep_val] in *.
          1-4: destruct V as (V1 & V2 & q & V3 & V4); split; [congruence|]; split; [congruence|]; exists q; split; [congruence|auto].
          destruct V as (V1 & V2 & V3). split; [congruence|]. split; congruence.
        * intros z Hz. destruct (fvalue fb) eqn:V; try discriminate. eauto.
        * intros Es d q Ed Eq. apply (r_stop _ _ _ Rb Es d q); congruence.
      + right. destruct (tk_kid x K) as (N1 & N2 & fx & Fx & _). rewrite (take_kid x fx) in Hx by auto. injection Hx as <-.
        destruct (i_rep _ _ I x fx Fx) as (nx & Ex & Rx); [auto|]. exists (wFather (At a) nx). split; [eauto|].
        destruct Rx. constructor; auto.
      + left. rewrite take_other in Hx by auto. auto. }
  assert (Hv : (is_container t = false /\ kids_in (fvalue fb) = [] /\ forall ob k, fvalue fb <> VCont ob k) \/
               (exists ob kids, is_container t = true /\ fvalue fb = VCont ob kids)).
  { rewrite Hct. clear. destruct (fvalue fb); try (left; split; [|split]; [reflexivity|reflexivity|discriminate]). right. eauto. }
  destruct Hv as [(Ct & Kn & Vn)|(ob & kids & Ct & V)]; rewrite Ct.
  { apply wp_ret; split; [auto|]; split; [apply U13|]; eapply (Fin s3);
    [exact X3|apply U13|intros x Nx; apply U13; intros ->; auto|apply U13|reflexivity|reflexivity|reflexivity|reflexivity|reflexivity
    |cbn; congruence|reflexivity|cbn; congruence|intros z ob kids V; now apply Vn in V|intros x n Hx; rewrite Kn in Hx; destruct Hx]. }
  destruct (F e) as [fe0|] eqn:Fe; [|congruence].
  destruct (i_rep _ _ I e fe0 Fe) as (ne & Ee & Re); [auto|].
  (* the End field read *)
  assert (Hen : exists ne', snodes s3 e = Some ne' /\ forall z, fe = Some z -> nEnd ne' = At z).
  { destruct (addr_eqb_spec e a) as [->|N].
    - eexists. split; [apply U13|]. intros z Ez. destruct Hfe as [|[E _]]; congruence.
    - exists ne. split; [rewrite (nu_neq _ _ _ _ U13); auto|]. intros z Ez. destruct Hfe as [|[E1 E2]]; [congruence|].
      subst e. assert (fe0 = fb) by congruence. subst fe0. apply (r_end _ _ _ Re). congruence. }
  destruct Hen as (ne' & Ee' & He').
  apply wp_bind, (wp_getNode _ ne'); auto.
  eapply wp_seq; [eapply (modNode_step ttouched none zeroc s s3 a); eauto; apply U13|]. intros [] s4 [X4 U4].
  pose proof (nupd_trans _ _ _ _ _ _ U13 U4) as U14.
  eapply wp_bind, wp_getNode; [apply U14|].
  pose proof (r_val _ _ _ Rb) as Vb. rewrite V in Vb. destruct Vb as (T1 & T2 & T3).
  replace (nVal _) with (wopt (hd_error kids)) by (rewrite <- T2; reflexivity).
  destruct (Wd b fb Fb) as [D _]. destruct (D _ _ V) as [C _].
  assert (Hkid : forall x, In x kids -> x <> a) by (intros x Hx; apply tk_kid; now rewrite V).
  rewrite V in Hf. cbn [kids_in] in Hf.
  eapply wp_mono; [apply (adopt_wp ttouched s a W kids fuel s4); auto|].
  - intros x Hx. right. now rewrite V.
  - eapply chain_NoDup; eauto.
  - intros x r1 r2 Er. rewrite Er in C. pose proof (chain_app _ _ _ _ _ C) as [(fx & E1 & _ & E3 & _) _].
    destruct (i_rep _ _ I x fx E1) as (nx & Ex & Rx); [auto|]. exists nx. split.
    + rewrite (nu_neq _ _ _ _ U14); auto. apply Hkid. rewrite Er. apply in_app_iff. simpl. auto.
    + rewrite (r_next _ _ _ Rx). congruence.
  - intros [] s5 (X5 & M5 & K5 & O5).
    assert (M : mch s s5) by (eapply mch_trans; [apply U14|auto]).
    split; auto. split; auto. eapply (Fin s5); [exact X5|exact M|..].
    + intros x Nx. rewrite O5; [apply U14; intros ->; auto|]. intro K. apply Nx. right. now rewrite V.
    + rewrite O5; [apply U14|]. intro K. now apply (Hkid a K).
    + reflexivity.
    + reflexivity.
    + reflexivity.
    + reflexivity.
    + reflexivity.
    + cbn. congruence.
    + reflexivity.
    + cbn. congruence.
    + intros z _ _ _ Ez. cbn. auto.
    + intros x n Hx En. rewrite V in Hx. apply (K5 x n); auto. rewrite (nu_neq _ _ _ _ U14); auto.
Qed.
End Take.
End WithVol.
