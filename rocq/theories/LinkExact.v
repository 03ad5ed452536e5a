(** Moving, deleting and adding: exactly when these calls do what they should.  If the
    link they rely on is wrong, no reading of the memory afterwards has the right
    content. *)
From Verif Require Import Base Spec Lex LexProofs Alloc AllocProofs Mem MemProofs Api PureParse SpecProofs
  Dom Effect Steps SetProofs StringifyProofs ParseTop GetProofs CopyProofs LinkProofs MoveProofs Vocab ParseFacts PrintFacts ReadFacts SetFacts TreeFacts.

Section WithVol.
Context {VV : vols}.

(** ** Lists in memory *)
Fixpoint mlist (s : st) (w : word) (l : list addr) : Prop :=
  match l with
  | [] => w = Null
  | c :: r => w = At c /\ exists n, snodes s c = Some n /\ mlist s (nNext n) r
  end.
Lemma mlist_det s : forall l l' w, mlist s w l -> mlist s w l' -> l = l'.
Proof.
  induction l as [|c l IH]; intros [|c' l'] w; cbn; try reflexivity.
  - intros -> (E & _). discriminate.
  - intros (E & _) ->. discriminate.
  - intros (E & n & H1 & H2) (E' & n' & H1' & H2'). assert (c' = c) by congruence. subst c'. assert (n' = n) by congruence. subst n'.
    f_equal. eauto.
Qed.
(** The children of a container of the documents, in memory. *)
Lemma inv_list s F a f ob kids : inv s F -> F a = Some f -> fvalue f = VCont ob kids ->
  exists n, snodes s a = Some n /\ mlist s (nVal n) kids /\
    (forall c, In c kids -> exists nc, snodes s c = Some nc /\ nFather nc = At a).
Proof.
  intros I Fa Va. destruct (i_rep _ _ I a f Fa) as (n & En & R); [auto|]. exists n. split; auto.
  pose proof (r_val _ _ _ R) as V. rewrite Va in V. destruct V as (_ & V & _). rewrite V.
  destruct (proj1 (i_dom _ _ I a f Fa) ob kids Va) as [C _]. clear - I C. split.
  - induction kids as [|c r IH]; [reflexivity|]. destruct C as [(fc & Fc & _ & Nx & _) C]. cbn. split; auto.
    destruct (i_rep _ _ I c fc Fc) as (nc & Ec & Rc); [auto|]. exists nc. split; auto. rewrite (r_next _ _ _ Rc), Nx. auto.
  - intros c Hc. destruct (chain_in _ _ _ _ _ C Hc) as (fc & Fc & Pc & _). destruct (i_rep _ _ I c fc Fc) as (nc & Ec & Rc); [auto|].
    exists nc. split; auto. now rewrite (r_par _ _ _ Rc), Pc.
Qed.
(** A list whose nodes keep their Next. *)
Lemma mlist_same s s' l : forall w, mlist s w l ->
  (forall c n, In c l -> snodes s c = Some n -> exists n', snodes s' c = Some n' /\ nNext n' = nNext n) -> mlist s' w l.
Proof.
  induction l as [|c l IH]; intros w; cbn; auto. intros (E & n & En & M) H. split; auto.
  destruct (H c n) as (n' & En' & Nx); [now left|auto|]. exists n'. split; auto. rewrite Nx. apply IH; auto.
Qed.
(** ... but for one node, behind which another list is hung. *)
Lemma mlist_turn s s' l : forall w e r r2, mlist s w (l ++ e :: r) ->
  (forall c n, In c l -> snodes s c = Some n -> exists n', snodes s' c = Some n' /\ nNext n' = nNext n) ->
  (exists n', snodes s' e = Some n' /\ mlist s' (nNext n') r2) -> mlist s' w (l ++ e :: r2).
Proof.
  induction l as [|c l IH]; intros w e r r2; cbn.
  - intros (E & n & En & M) H (n' & En' & M'). split; auto. exists n'. auto.
  - intros (E & n & En & M) H X. split; auto. destruct (H c n) as (n' & En' & Nx); [now left|auto|]. exists n'. split; auto.
    rewrite Nx. eapply IH; eauto.
Qed.
Lemma mlist_at s l : forall w e r, mlist s w (l ++ e :: r) -> exists n, snodes s e = Some n /\ mlist s (nNext n) r.
Proof. induction l as [|c l IH]; intros w e r; cbn; [intros (_ & n & H); eauto|]. intros (_ & n & _ & M). eauto. Qed.

(** ** Runs *)
Lemma run_bind {X Y} (m : M X) (f : X -> M Y) s y s' : bind m f s = Ok (y, s') -> exists x s1, m s = Ok (x, s1) /\ f x s1 = Ok (y, s').
Proof. unfold bind. destruct (m s) as [[x s1]|e]; [|discriminate]. intro H. eauto. Qed.
Lemma run_mod a g s u s' : modNode a g s = Ok (u, s') -> exists n, snodes s a = Some n /\ s' = set_nodes (upd (snodes s) a (g n)) s.
Proof.
  unfold modNode. intro H. apply run_bind in H as (n & s1 & H1 & H2). unfold getNode, get in H1. destruct (snodes s a) as [n0|] eqn:E; [|discriminate].
  injection H1 as <- <-. injection H2 as <- <-. eauto.
Qed.
Lemma run_get a s n s' : getNode a s = Ok (n, s') -> snodes s a = Some n /\ s' = s.
Proof. unfold getNode, get. destruct (snodes s a); [|discriminate]. intro H. injection H as <- <-. auto. Qed.
Lemma run_ret {X} (x y : X) s s' : ret x s = Ok (y, s') -> x = y /\ s = s'.
Proof. intro H. injection H as <- <-. auto. Qed.
Lemma run_null w s z s' : is_null w s = Ok (z, s') -> s' = s /\ ((w = Null /\ z = true) \/ (exists a, w = At a /\ z = false)).
Proof. unfold is_null. destruct w; intro H; try discriminate; injection H as <- <-; eauto. Qed.
Lemma run_deref w s a s' : deref w s = Ok (a, s') -> s' = s /\ w = At a.
Proof. unfold deref. destruct w; intro H; try discriminate. injection H as <- <-. auto. Qed.

Lemma mod_eff a g s u s' : modNode a g s = Ok (u, s') -> forall y ny, snodes s y = Some ny ->
  snodes s' y = Some (if addr_eqb y a then g ny else ny).
Proof.
  intros H y ny Ey. apply run_mod in H as (n & En & ->). cbn [snodes set_nodes]. unfold upd. destruct (addr_eqb_spec y a) as [->|]; congruence.
Qed.

(** What moving a node does to the links, whatever they were. *)
Lemma move_links s a n p s' u : snodes s a = Some n -> nFather n = At p -> move_node a s = Ok (u, s') ->
  (exists n', snodes s' a = Some n' /\ nFather n' = Null) /\
  (forall y ny, y <> a -> snodes s y = Some ny -> exists ny', snodes s' y = Some ny' /\
     nNext ny' = (if match nPrev n with At e => addr_eqb y e | _ => false end then nNext n else nNext ny) /\
     nVal ny' = (if match nPrev n with Null => addr_eqb y p | _ => false end then nNext n else nVal ny) /\
     nEnd ny' = (if match nNext n with Null => addr_eqb y p | _ => false end then Null else nEnd ny)).
Proof.
  intros En Ef H. unfold move_node in H. apply run_bind in H as (n1 & s1 & H1 & H). apply run_get in H1 as [H1 ->].
  assert (n1 = n) by congruence. subst n1. clear H1. rewrite Ef in H.
  apply run_bind in H as (z & s1 & H1 & H). injection H1 as <- <-. cbv iota in H.
  apply run_bind in H as (p' & s1 & H1 & H). injection H1 as <- <-.
  apply run_bind in H as (pz & s1 & H1 & H). apply run_null in H1 as [-> Hp].
  apply run_bind in H as ([] & s1 & H1 & H).
  assert (S1 : (exists m1, snodes s1 a = Some m1 /\ nNext m1 = nNext n /\ nPrev m1 = Null) /\
    (forall y ny, y <> a -> snodes s y = Some ny -> exists ny', snodes s1 y = Some ny' /\
     nNext ny' = (if match nPrev n with At e => addr_eqb y e | _ => false end then nNext n else nNext ny) /\
     nVal ny' = (if match nPrev n with Null => addr_eqb y p | _ => false end then nNext n else nVal ny) /\ nEnd ny' = nEnd ny)).
  { destruct Hp as [[Ep ->]|(e & Ep & ->)]; rewrite Ep.
    - pose proof (mod_eff _ _ _ _ _ H1) as E. split.
      + eexists. split; [exact (E _ _ En)|]. destruct (addr_eqb a p); auto.
      + intros y ny Hy Ey. eexists. split; [exact (E _ _ Ey)|]. destruct (addr_eqb y p); auto.
    - apply run_bind in H1 as (e' & s2 & H2 & H1). apply run_deref in H2 as [-> H2]. assert (e' = e) by congruence. subst e'.
      apply run_bind in H1 as ([] & s2 & H3 & H1). pose proof (mod_eff _ _ _ _ _ H3) as E. pose proof (mod_eff _ _ _ _ _ H1) as E'. split.
      + eexists. split; [exact (E' _ _ (E _ _ En))|]. rewrite addr_eqb_refl. destruct (addr_eqb a e); auto.
      + intros y ny Hy Ey. eexists. split; [exact (E' _ _ (E _ _ Ey))|]. rewrite (addr_eqb_neq y a) by auto. destruct (addr_eqb y e); auto. }
  destruct S1 as ((m1 & Em1 & Nm1 & Pm1) & S1). clear H1 Hp.
  apply run_bind in H as (n2 & s2 & H2 & H). apply run_get in H2 as [H2 ->]. assert (n2 = m1) by congruence. subst n2. clear H2.
  apply run_bind in H as (nz & s2 & H3 & H). apply run_null in H3 as [-> Hn].
  apply run_bind in H as ([] & s2 & H3 & H).
  assert (S2 : (exists m2, snodes s2 a = Some m2) /\ (forall y ny, y <> a -> snodes s1 y = Some ny -> exists ny', snodes s2 y = Some ny' /\
     nNext ny' = nNext ny /\ nVal ny' = nVal ny /\ nEnd ny' = (if match nNext n with Null => addr_eqb y p | _ => false end then Null else nEnd ny))).
  { rewrite <- Nm1. rewrite Pm1 in H3. destruct Hn as [[Ex ->]|(x & Ex & ->)].
    - rewrite Ex. pose proof (mod_eff _ _ _ _ _ H3) as E. split; [eexists; exact (E _ _ Em1)|].
      intros y ny Hy Ey. eexists. split; [exact (E _ _ Ey)|]. destruct (addr_eqb y p); auto.
    - apply run_bind in H3 as (x' & s3 & H4 & H3). apply run_deref in H4 as [-> H4]. rewrite Ex.
      apply run_bind in H3 as ([] & s3 & H5 & H3). pose proof (mod_eff _ _ _ _ _ H5) as E. pose proof (mod_eff _ _ _ _ _ H3) as E'.
      split; [eexists; exact (E' _ _ (E _ _ Em1))|].
      intros y ny Hy Ey. eexists. split; [exact (E' _ _ (E _ _ Ey))|]. rewrite (addr_eqb_neq y a) by auto. destruct (addr_eqb y x'); auto. }
  destruct S2 as ((m2 & Em2) & S2). clear H3 Hn.
  apply run_bind in H as (fn & s3 & H3 & H). apply run_get in H3 as [H3 ->].
  apply run_bind in H as (l & s3 & H4 & H). unfold rLen, lift in H4. destruct (nLen fn) as [l0|]; [|discriminate]. injection H4 as <- <-.
  apply run_bind in H as ([] & s4 & H5 & H). pose proof (mod_eff _ _ _ _ _ H5) as E. pose proof (mod_eff _ _ _ _ _ H) as E'. split.
  - eexists. split; [exact (E' _ _ (E _ _ Em2))|]. now rewrite addr_eqb_refl.
  - intros y ny Hy Ey. destruct (S1 y ny Hy Ey) as (n1 & E1 & X1 & Y1 & Z1). destruct (S2 y n1 Hy E1) as (n2 & E2 & X2 & Y2 & Z2).
    eexists. split; [exact (E' _ _ (E _ _ E2))|]. rewrite (addr_eqb_neq y a) by auto. rewrite Z1 in Z2.
    destruct (addr_eqb y p); cbn [wLen nNext nVal nEnd]; rewrite X2, Y2, Z2; auto.
Qed.

(** If the list of the father has lost one child after the call, the link was right. *)
Lemma move_needs s F a f p fp ob l r u s' F' fp' ob' kids' : inv s F -> F a = Some f -> fpar f = Some p ->
  F p = Some fp -> fvalue fp = VCont ob (l ++ a :: r) -> a <> p -> move_node a s = Ok (u, s') ->
  inv s' F' -> F' p = Some fp' -> fvalue fp' = VCont ob' kids' -> length kids' = length (l ++ r) -> fprev f = last_error l.
Proof.
  intros I Fa Pa Fp Vp Nap H I' Fp' Vp' Len.
  destruct (i_rep _ _ I a f Fa) as (n & En & R); [auto|]. pose proof (r_par _ _ _ R) as Ef. rewrite Pa in Ef. cbn in Ef.
  destruct (move_links s a n p s' u En Ef H) as ((na' & Ena' & Fna') & L).
  destruct (inv_list s F p fp ob _ I Fp Vp) as (np & Enp & Mp & _).
  destruct (inv_list s' F' p fp' ob' kids' I' Fp' Vp') as (np' & Enp' & Mp' & Kf).
  assert (ND : NoDup (l ++ a :: r)) by (eapply chain_NoDup; apply (proj1 (i_dom _ _ I p fp Fp) ob _ Vp)).
  assert (Nl : ~ In a l) by (apply NoDup_remove_2 in ND; intro; apply ND, in_app_iff; auto).
  assert (Nr : ~ In a r) by (apply NoDup_remove_2 in ND; intro; apply ND, in_app_iff; auto).
  destruct (mlist_at s l _ a r Mp) as (n0 & En0 & Mr). assert (n0 = n) by congruence. subst n0.
  destruct (L p np (not_eq_sym Nap) Enp) as (np2 & Enp2 & _ & Vnp & _). assert (np2 = np') by congruence. subst np2.
  pose proof (r_prev _ _ _ R) as Pv. destruct (fprev f) as [e|] eqn:Pf; cbn in Pv; rewrite Pv in *.
  - assert (L' : forall y ny, y <> a -> y <> e -> snodes s y = Some ny -> exists ny', snodes s' y = Some ny' /\ nNext ny' = nNext ny).
    { intros y ny Hy Hye Ey. destruct (L y ny Hy Ey) as (ny' & E' & X & _). exists ny'. split; auto. now rewrite addr_eqb_neq in X. }
    rewrite Vnp in Mp'. destruct (in_dec addr_dec e l) as [He|He].
    + apply in_split in He as (l1 & l2 & ->). rewrite <- app_assoc in Mp. cbn in Mp.
      assert (ND' : NoDup (l1 ++ e :: l2)) by (clear - ND; induction (l1 ++ e :: l2) as [|x k IH]; [constructor|]; cbn in ND; inversion ND; subst; constructor; [intro; apply H1, in_app_iff; auto|auto]).
      assert (E1 : ~ In e l1) by (apply NoDup_remove_2 in ND'; intro; apply ND', in_app_iff; auto).
      assert (E2 : e <> a) by (intros ->; apply Nl, in_app_iff; right; now left).
      assert (Er : ~ In e r).
      { intro K. clear - ND K. rewrite <- app_assoc in ND. cbn in ND. apply NoDup_remove_2 in ND. apply ND. apply in_app_iff. right. apply in_app_iff. right. now right. }
      assert (M1 : mlist s' (nVal np) (l1 ++ e :: r)).
      { eapply (mlist_turn s s' l1); [exact Mp| |].
        - intros c m Hc Ec. apply L'; auto; intros ->; auto. apply Nl, in_app_iff. auto.
        - destruct (mlist_at s l1 _ e _ Mp) as (ne & Ene & _). destruct (L e ne E2 Ene) as (ne' & Ene' & X & _).
          exists ne'. split; auto. rewrite addr_eqb_refl in X. rewrite X. eapply mlist_same; [exact Mr|].
          intros c m Hc Ec. apply L'; auto; intros ->; auto. }
      pose proof (mlist_det _ _ _ _ M1 Mp') as Ek. apply (f_equal (@length _)) in Ek. rewrite Len in Ek. rewrite !app_length in Ek. cbn in Ek.
      destruct l2 as [|x l2]; [|cbn in Ek; lia]. now rewrite last_error_snoc.
    + exfalso. assert (Ia : In a kids').
      { clear - Mp Mp' L' Nl He. revert kids' Mp'. revert Mp. generalize (nVal np) as w.
        induction l as [|c l IH]; intros w Mp kids' Mp'; cbn in Mp; destruct Mp as (-> & m & Em & Mp).
        - destruct kids' as [|k kids']; cbn in Mp'; [discriminate|]. destruct Mp' as (E & _). injection E as ->. now left.
        - destruct kids' as [|k kids']; cbn in Mp'; [discriminate|]. destruct Mp' as (E & m' & Em' & Mp'). injection E as ->. right.
          destruct (L' k m) as (m2 & Em2 & X); auto; [intros ->; apply Nl; now left|intros ->; apply He; now left|].
          assert (m2 = m') by congruence. subst m2. rewrite X in Mp'.
          eapply IH; eauto; intro; [apply Nl|apply He]; now right. }
      destruct (Kf a Ia) as (nc & Enc & Fnc). congruence.
  - rewrite addr_eqb_refl in Vnp. rewrite Vnp in Mp'.
    assert (M1 : mlist s' (nNext n) r).
    { eapply mlist_same; [exact Mr|]. intros c m Hc Ec. destruct (L c m) as (m' & Em' & X & _); [intros ->; auto|auto|eauto]. }
    pose proof (mlist_det _ _ _ _ M1 Mp') as Ek. apply (f_equal (@length _)) in Ek. rewrite Len, app_length in Ek.
    destruct l; [reflexivity|cbn in Ek; lia].
Qed.

Lemma items_kids F p fp ob kids j : reads F p j -> F p = Some fp -> fvalue fp = VCont ob kids -> length (items j) = length kids.
Proof.
  intros R Fp Vp. destruct (reads_cont F p j fp ob kids R Fp Vp) as (it & -> & Rl). rewrite (readsL_length _ _ _ Rl).
  destruct ob; cbn [container items]; now rewrite !map_length.
Qed.
Lemma items_jdel i j : (i < length (items j))%nat -> S (length (items (jdel i j))) = length (items j).
Proof.
  assert (G : forall {X} (l : list X), (i < length l)%nat -> S (length (remove_nth i l)) = length l).
  { intros X l H. unfold remove_nth. rewrite app_length, firstn_length, skipn_length. lia. }
  destruct j; cbn; try lia; rewrite ?map_length; apply G.
Qed.
Lemma cont_of_items F p j : reads F p j -> (match j with JArr _ | JObj _ => True | _ => False end) -> exists f ob kids, F p = Some f /\ fvalue f = VCont ob kids.
Proof. intros R K. inversion R; subst; try contradiction. eauto. Qed.

Theorem move_iff s F v a A p i jp : inv s F -> on s F v a A -> kid_at F p i a -> reads F p jp ->
  ((exists s' F', zj_Move v s = Ok (true, s') /\ inv s' F' /\ reads F' p (jdel i jp)) <-> prev_ok F p i).
Proof.
  intros I Hv K R. split.
  - intros (s' & F' & H & I' & R'). destruct K as (fp & ob & kids & Fp & Vp & Hn).
    intros f0 ob0 kids0 c fc E1 E2 E3 E4. assert (f0 = fp) by congruence. subst f0. rewrite Vp in E2. injection E2 as <- <-.
    assert (c = a) by congruence. subst c. clear E1 E3.
    destruct (split_at kids i a Hn) as (l & r & -> & El). rewrite firstn_cut by auto.
    unfold zj_Move in H. apply run_bind in H as (x & s1 & H1 & H). destruct Hv as (Sv & _). unfold getVal, get in H1. rewrite Sv in H1. injection H1 as <- <-.
    cbn [vN] in H. apply run_bind in H as (z & s1 & H1 & H). injection H1 as <- <-. cbv iota in H.
    apply run_bind in H as (a' & s1 & H1 & H). injection H1 as <- <-. apply run_bind in H as (u & s2 & H1 & H). apply run_ret in H as [_ <-].
    assert (Ia : In a (l ++ a :: r)) by (apply in_app_iff; right; now left).
    destruct (child_par F p a (i_dom _ _ I)) as (fa & Fa & Pa); [exists fp, ob, (l ++ a :: r); auto|]. assert (fa = fc) by congruence. subst fa.
    assert (Nap : a <> p) by (intros ->; exact (not_own_kid F p jp fp ob _ R Fp Vp Ia)).
    destruct (cont_of_items F' p _ R') as (fp' & ob' & kids' & Fp' & Vp').
    { destruct (reads_cont F p jp fp ob _ R Fp Vp) as (it & -> & _). now destruct ob. }
    eapply (move_needs s F a fc p fp ob l r u s2 F' fp' ob' kids'); eauto.
    pose proof (items_kids _ _ _ _ _ _ R' Fp' Vp') as L1. pose proof (items_kids _ _ _ _ _ _ R Fp Vp) as L2.
    rewrite <- L1. apply eq_add_S. rewrite items_jdel; rewrite L2; rewrite !app_length; cbn; lia.
  - intro P. destruct (move_exact s F v a A p i jp I Hv K R P) as (s' & F' & k & ja & H & _ & Ed & _). exists s', F'. split; auto.
    split; [apply Ed|]. apply (rw_at _ _ _ _ _ _ (ed_draw _ _ _ _ _ _ _ _ _ Ed)).
Qed.

(** ** Appending *)
(** The link from a container to its last child, as it is in memory. *)
Definition last_link (s : st) (F : dom) (a : addr) : Prop := forall f ob kids n, F a = Some f -> fvalue f = VCont ob kids -> kids <> [] ->
  snodes s a = Some n -> nEnd n = wopt (last_error kids).

Lemma append_links s a c n k s' u : snodes s a = Some n -> nVal n = At k -> append_node a c s = Ok (u, s') ->
  exists e, nEnd n = At e /\ forall y ny, snodes s y = Some ny -> exists ny', snodes s' y = Some ny' /\
    nNext ny' = (if addr_eqb y e then At c else nNext ny) /\ nVal ny' = nVal ny /\ nType ny' = nType ny.
Proof.
  intros En Ev H. unfold append_node in H.
  apply run_bind in H as ([] & s1 & H1 & H). pose proof (mod_eff _ _ _ _ _ H1) as E1.
  apply run_bind in H as (n1 & s1' & G & H). apply run_get in G as [G ->]. rewrite (E1 a n En) in G. injection G as <-.
  apply run_bind in H as (z & s1' & G & H).
  assert (Ev1 : nVal (if addr_eqb a c then wFather (At a) n else n) = At k) by (destruct (addr_eqb a c); auto).
  rewrite Ev1 in G. injection G as <- <-. cbv iota in H.
  apply run_bind in H as (e & s1' & G & H). apply run_deref in G as [-> Ee].
  assert (Ee1 : nEnd n = At e) by (rewrite <- Ee; destruct (addr_eqb a c); auto). exists e. split; auto.
  apply run_bind in H as ([] & s2 & H2 & H). pose proof (mod_eff _ _ _ _ _ H2) as E2.
  apply run_bind in H as (n2 & s2' & G & H). apply run_get in G as [G ->].
  apply run_bind in H as ([] & s3 & H3 & H). pose proof (mod_eff _ _ _ _ _ H3) as E3.
  apply run_bind in H as ([] & s4 & H4 & H). pose proof (mod_eff _ _ _ _ _ H4) as E4.
  apply run_bind in H as (n4 & s4' & G' & H). apply run_get in G' as [G' ->].
  apply run_bind in H as (l & s4' & G2 & H). unfold rLen, lift in G2. destruct (nLen n4) as [l0|]; [|discriminate]. injection G2 as <- <-.
  pose proof (mod_eff _ _ _ _ _ H) as E5.
  intros y ny Ey. eexists. split; [exact (E5 _ _ (E4 _ _ (E3 _ _ (E2 _ _ (E1 _ _ Ey)))))|].
  destruct (addr_eqb y a), (addr_eqb y c), (addr_eqb y e); repeat split; reflexivity.
Qed.
Lemma append_links0 s a c n s' u : snodes s a = Some n -> nVal n = Null -> append_node a c s = Ok (u, s') ->
  forall y ny, snodes s y = Some ny -> exists ny', snodes s' y = Some ny' /\
    nNext ny' = nNext ny /\ nVal ny' = (if addr_eqb y a then At c else nVal ny) /\ nType ny' = nType ny.
Proof.
  intros En Ev H. unfold append_node in H.
  apply run_bind in H as ([] & s1 & H1 & H). pose proof (mod_eff _ _ _ _ _ H1) as E1.
  apply run_bind in H as (n1 & s1' & G & H). apply run_get in G as [G ->]. rewrite (E1 a n En) in G. injection G as <-.
  apply run_bind in H as (z & s1' & G & H).
  assert (Ev1 : nVal (if addr_eqb a c then wFather (At a) n else n) = Null) by (destruct (addr_eqb a c); auto).
  rewrite Ev1 in G. injection G as <- <-. cbv iota in H.
  apply run_bind in H as ([] & s2 & H2 & H). pose proof (mod_eff _ _ _ _ _ H2) as E2.
  apply run_bind in H as ([] & s3 & H3 & H). pose proof (mod_eff _ _ _ _ _ H3) as E3. pose proof (mod_eff _ _ _ _ _ H) as E4.
  intros y ny Ey. eexists. split; [exact (E4 _ _ (E3 _ _ (E2 _ _ (E1 _ _ Ey))))|].
  destruct (addr_eqb y a), (addr_eqb y c); repeat split; reflexivity.
Qed.
Lemma mlist_nodes s s' : snodes s = snodes s' -> forall l w, mlist s w l -> mlist s' w l.
Proof. intros E l w M. eapply mlist_same; [exact M|]. intros c n _ En. exists n. rewrite <- E. auto. Qed.
(** If the list has become longer by one, the link was right and the new node is in the list. *)
Lemma append_needs s a c n nc kids s2 s' u n' kids' : snodes s a = Some n -> mlist s (nVal n) kids -> NoDup kids ->
  ~ In c kids -> snodes s c = Some nc -> nNext nc = Null -> append_node a c s = Ok (u, s2) -> snodes s2 = snodes s' ->
  snodes s' a = Some n' -> mlist s' (nVal n') kids' -> length kids' = S (length kids) ->
  In c kids' /\ (kids <> [] -> nEnd n = wopt (last_error kids)).
Proof.
  intros En M ND Nc Enc Xc H Es En' M' Len. rewrite <- Es in En'. apply (mlist_nodes s' s2) in M'; auto.
  destruct kids as [|k0 kids0] eqn:Ek0.
  - split; [|congruence]. cbn in M. pose proof (append_links0 s a c n s2 u En M H a n En) as (n2 & En2 & _ & V2 & _).
    assert (n2 = n') by congruence. subst n2. rewrite addr_eqb_refl in V2. rewrite V2 in M'. destruct kids' as [|x kids']; [discriminate|].
    destruct M' as (E & _). left. congruence.
  - rewrite <- Ek0 in *. assert (Nk : kids <> []) by (subst; discriminate).
    assert (Ev : exists k, nVal n = At k) by (subst kids; destruct M; eauto). destruct Ev as (k & Ev). clear k0 kids0 Ek0.
    destruct (append_links s a c n k s2 u En Ev H) as (e & Ee & L).
    destruct (L a n En) as (n2 & En2 & _ & V2 & _). assert (n2 = n') by congruence. subst n2. rewrite V2 in M'.
    destruct (in_dec addr_dec e kids) as [He|He].
    + apply in_split in He as (l & r & ->).
      assert (Nl : ~ In e l) by (apply NoDup_remove_2 in ND; intro; apply ND, in_app_iff; auto).
      assert (Nce : c <> e) by (intros ->; apply Nc, in_app_iff; right; now left).
      assert (M1 : mlist s2 (nVal n) (l ++ [e; c])).
      { eapply (mlist_turn s s2 l); [exact M| |].
        - intros x m Hx Ex. destruct (L x m Ex) as (m' & Em' & X & _). exists m'. split; auto. rewrite addr_eqb_neq in X; auto. intros ->; auto.
        - destruct (mlist_at s l _ e _ M) as (ne & Ene & _). destruct (L e ne Ene) as (ne' & Ene' & X & _). exists ne'. split; auto.
          rewrite addr_eqb_refl in X. rewrite X. cbn. split; auto. destruct (L c nc Enc) as (nc' & Enc' & Y & _). exists nc'. split; auto.
          rewrite Y, addr_eqb_neq; auto. }
      pose proof (mlist_det _ _ _ _ M1 M') as Ek. split.
      * rewrite <- Ek. apply in_app_iff. right. right. now left.
      * intros _. apply (f_equal (@length _)) in Ek. rewrite Len in Ek. rewrite !app_length in Ek. cbn in Ek.
        destruct r as [|x r]; [|cbn in Ek; lia]. now rewrite last_error_snoc, Ee.
    + exfalso. assert (M1 : mlist s2 (nVal n) kids).
      { eapply mlist_same; [exact M|]. intros x m Hx Ex. destruct (L x m Ex) as (m' & Em' & X & _). exists m'. split; auto.
        rewrite addr_eqb_neq in X; auto. intros ->; auto. }
      pose proof (mlist_det _ _ _ _ M1 M') as Ek. apply (f_equal (@length _)) in Ek. lia.
Qed.

(** A right link may as well be known. *)
Definition know_end (F : dom) (a : addr) (e : option addr) : dom :=
  fun x => if addr_eqb x a then match F a with Some f => Some (mkF (fkey f) (fvalue f) (fpar f) (fnext f) (fprev f) e (fstop f)) | None => None end else F x.
Lemma know_some F a e x f : F x = Some f -> exists f', know_end F a e x = Some f' /\ fkey f' = fkey f /\ fvalue f' = fvalue f /\
  fpar f' = fpar f /\ fnext f' = fnext f /\ fprev f' = fprev f.
Proof.
  intro E. unfold know_end. destruct (addr_eqb_spec x a) as [->|N]; [|exists f; repeat split; auto]. rewrite E.
  eexists. split; [reflexivity|]. cbn. repeat split.
Qed.
Lemma know_back F a e x f' : know_end F a e x = Some f' -> exists f, F x = Some f /\ fkey f' = fkey f /\ fvalue f' = fvalue f /\
  fpar f' = fpar f /\ fnext f' = fnext f /\ fprev f' = fprev f /\ fstop f' = fstop f.
Proof.
  unfold know_end. destruct (addr_eqb_spec x a) as [->|N]; [|intro E; exists f'; repeat split; auto].
  destruct (F a) as [f|] eqn:E; [|discriminate]. intro K. injection K as <-. exists f. cbn. repeat split.
Qed.
Lemma know_chain F a e p ob kids : chain F p ob kids -> chain (know_end F a e) p ob kids.
Proof.
  induction kids as [|c r IH]; cbn; auto. intros [(fc & Fc & P & X & K) C]. split; auto.
  destruct (know_some F a e c fc Fc) as (f' & E & K1 & K2 & K3 & K4 & K5). exists f'. rewrite K1, K3, K4. auto.
Qed.
Lemma know_reads F a e : (forall x j, reads F x j -> reads (know_end F a e) x j) /\ (forall l it, readsL F l it -> readsL (know_end F a e) l it).
Proof.
  apply reads_mutind.
  - intros x f Fx V. destruct (know_some F a e x f Fx) as (f' & E & _ & V' & _). eapply rd_null; eauto. congruence.
  - intros x f b Fx V. destruct (know_some F a e x f Fx) as (f' & E & _ & V' & _). eapply rd_bool; eauto. congruence.
  - intros x f b Fx V. destruct (know_some F a e x f Fx) as (f' & E & _ & V' & _). eapply rd_num; eauto. congruence.
  - intros x f b Fx V. destruct (know_some F a e x f Fx) as (f' & E & _ & V' & _). eapply rd_str; eauto. congruence.
  - intros x f ob kids it Fx V _ IH. destruct (know_some F a e x f Fx) as (f' & E & _ & V' & _). eapply rd_cont; eauto. congruence.
  - constructor.
  - intros c l f j it Fc _ IH1 _ IH2. destruct (know_some F a e c f Fc) as (f' & E & K & _). rewrite <- K. econstructor; eauto.
Qed.
Lemma know_inv s F a e : inv s F -> (forall n x, snodes s a = Some n -> e = Some x -> nEnd n = At x) -> inv s (know_end F a e).
Proof.
  intros [W R D V O] He. constructor; auto.
  - intros x f' E _. destruct (know_back F a e x f' E) as (f & Fx & K1 & K2 & K3 & K4 & K5 & K6).
    destruct (R x f Fx) as (n & En & [R1 R2 R3 R4 R5 R6 R7]); [auto|]. exists n. split; auto. constructor; try congruence.
    + intros y Ey. unfold know_end in E. destruct (addr_eqb_spec x a) as [->|N].
      * rewrite Fx in E. injection E as <-. eapply He; eauto.
      * apply R6. congruence.
    + rewrite K2. intro. apply R7. congruence.
  - intros x f' E. destruct (know_back F a e x f' E) as (f & Fx & K1 & K2 & K3 & K4 & K5 & K6). destruct (D x f Fx) as [D1 D2]. split.
    + rewrite K2. intros ob kids Hv. destruct (D1 ob kids Hv). split; auto. now apply know_chain.
    + rewrite K3, K4, K5. auto.
  - intros x Hx. apply O. intro K. apply Hx. unfold know_end. destruct (addr_eqb_spec x a) as [->|]; auto. now rewrite K.
Qed.
Lemma know_handle s F a e u w A : handle s F u w A -> handle s (know_end F a e) u w A.
Proof.
  intros (H1 & H2 & H3). split; auto. split; auto. destruct H3 as [->|(x & -> & Hx)]; auto. right. exists x. split; auto.
  destruct (F x) as [f|] eqn:E; [|congruence]. destruct (know_some F a e x f E) as (f' & E' & _). congruence.
Qed.
Lemma know_end_ok s F a : inv s F -> last_link s F a ->
  exists e, end_ok (know_end F a e) a /\ inv s (know_end F a e).
Proof.
  intros I L. destruct (F a) as [f|] eqn:Fa.
  - exists (match fvalue f with VCont _ kids => last_error kids | _ => None end). split.
    + intros f' ob kids E V Nk. unfold know_end in E. rewrite addr_eqb_refl, Fa in E. injection E as <-. cbn in V |- *. now rewrite V.
    + apply know_inv; auto. intros n x En Ex. destruct (fvalue f) as [| | | |ob kids] eqn:V; try discriminate.
      rewrite (L f ob kids n Fa V); [now rewrite Ex| |auto]. intros ->. discriminate.
  - exists None. split; [|now apply know_inv]. intros f' ob kids E. unfold know_end in E. rewrite addr_eqb_refl, Fa in E. discriminate.
Qed.
(** *** The calls *)
Lemma when_type_run s F v a A f t k s' : inv s F -> on s F v a A -> F a = Some f -> ftype (fvalue f) = t ->
  when_type v t k s = Ok (true, s') -> k a s = Ok (true, s').
Proof.
  intros I (Sv & _) Fa T H. unfold when_type, with_type in H. apply run_bind in H as (r & s1 & H & H0). apply run_ret in H0 as [H0 <-].
  apply run_bind in H as (x & s2 & H1 & H). unfold getVal, get in H1. rewrite Sv in H1. injection H1 as <- <-. cbn [vN] in H.
  apply run_bind in H as (z & s2 & H1 & H). injection H1 as <- <-. cbv iota in H.
  apply run_bind in H as (a' & s2 & H1 & H). injection H1 as <- <-.
  apply run_bind in H as (n & s2 & H1 & H). apply run_get in H1 as [H1 ->].
  apply run_bind in H as (t' & s2 & H2 & H). destruct (i_rep _ _ I a f Fa) as (n' & Hn & R); [auto|]. assert (n' = n) by congruence. subst n'.
  unfold rType, lift in H2. rewrite (rep_ftype _ _ _ R) in H2. injection H2 as <- <-. rewrite T in H.
  destruct (jtype_eqb t t) eqn:E; [|destruct t; discriminate].
  apply run_bind in H as (b & s2 & H3 & H). apply run_ret in H as [<- <-]. cbn in H0. congruence.
Qed.
Lemma when_key_run s F v b A k s' : inv s F -> on s F v b A -> when_key v k s = Ok (true, s') -> k s = Ok (true, s').
Proof.
  intros I (Sv & _) H. unfold when_key, with_key in H. apply run_bind in H as (r & s1 & H & H0). apply run_ret in H0 as [H0 <-].
  apply run_bind in H as (x & s2 & H1 & H). unfold getVal, get in H1. rewrite Sv in H1. injection H1 as <- <-. cbn [vN] in H.
  apply run_bind in H as (z & s2 & H1 & H). injection H1 as <- <-. cbv iota in H.
  apply run_bind in H as (a' & s2 & H1 & H). injection H1 as <- <-.
  apply run_bind in H as (n & s2 & H1 & H). apply run_get in H1 as [H1 ->].
  apply run_bind in H as (z & s2 & H2 & H). apply run_null in H2 as [-> [[_ ->]|(p & _ & ->)]].
  - apply run_ret in H as [<- <-]. cbn in H0. discriminate.
  - apply run_bind in H as (b' & s2 & H3 & H). apply run_ret in H as [<- <-]. cbn in H0. congruence.
Qed.
(** What both adding calls do once the types and keys are checked. *)
Lemma copy_append_needs s F v a A vv b B j k fa ob kids fuel m s' F' fp' kids' :
  inv s F -> on s F v a A -> on s F vv b B -> F a = Some fa -> fvalue fa = VCont ob kids -> ~ In a kids ->
  reads F b j -> key_at F b k -> room s B (88 + icost (k, j)) -> (S (jsteps j) <= fuel)%nat ->
  (m = (fun _ => ret tt) \/ m = (fun c => modNode c (wKey Null))) ->
  (cp <- zj_Copy fuel vv ;;
   match cp with None => ret false | Some h => y <- getVal h ;; c <- deref (vN y) ;; m c ;;; append_node a c ;;; ret true end) s = Ok (true, s') ->
  inv s' F' -> F' a = Some fp' -> fvalue fp' = VCont ob kids' -> length kids' = S (length kids) -> last_link s F a.
Proof.
  intros I Hv Hb Fa Va Na Rb (fb & Fb & Kb) Rm Hf Hm H I' Fa' Va' Len.
  destruct (copy_wp s F vv b B j fuel fb I Hb Fb Rb) as (r & s1 & E & h & F1 & c & -> & Bh & C & Sh & So & X); auto.
  { unfold room in Rm. rewrite Kb. lia. }
  apply run_bind in H as (cp & s1' & H1 & H). rewrite E in H1. injection H1 as <- <-.
  apply run_bind in H as (y & s2 & H1 & H). unfold getVal, get in H1. rewrite Sh in H1. injection H1 as <- <-. cbn [vN] in H.
  apply run_bind in H as (c' & s2 & H1 & H). injection H1 as <- <-.
  apply run_bind in H as (u1 & s2 & Hk & H). apply run_bind in H as (u & s3 & H & H3). apply run_ret in H3 as [_ <-].
  intros f0 ob0 kids0 n E0 V0 Nk En. assert (f0 = fa) by congruence. subst f0. rewrite Va in V0. injection V0 as <- <-.
  destruct (inv_list s F a fa ob kids I Fa Va) as (n0 & En0 & M & Kf). assert (n0 = n) by congruence. subst n0.
  destruct (inv_list s3 F' a fp' ob kids' I' Fa' Va') as (n' & En' & M' & _).
  destruct (cp_root _ _ _ _ _ _ _ C) as (fb' & fc & E1 & E2 & E3 & E4 & E5 & E6).
  destruct (i_rep _ _ (cp_inv _ _ _ _ _ _ _ C) c fc E2) as (nc & Enc & Rc); [auto|].
  pose proof (r_next _ _ _ Rc) as Xc. rewrite E5 in Xc. cbn in Xc.
  assert (Nac : a <> c) by (apply (copied_neq s F b j s1 F1 c a I C); congruence).
  assert (Kin : forall x, In x kids -> F x <> None).
  { intros x Hx. destruct (chain_in _ _ _ _ _ (proj1 (proj1 (i_dom _ _ I a fa Fa) ob kids Va)) Hx) as (fx & Fx & _). congruence. }
  assert (Nck : ~ In c kids) by (intro K; exact (copied_neq s F b j s1 F1 c c I C (Kin c K) eq_refl)).
  assert (L2 : (forall x nx, snodes s x = Some nx -> x <> c -> snodes s2 x = Some nx) /\ exists nc2, snodes s2 c = Some nc2 /\ nNext nc2 = Null).
  { destruct Hm as [-> | ->].
    - apply run_ret in Hk as [_ <-]. split; [intros x nx Ex _; apply (x_nodes _ _ _ _ _ X); auto|eauto].
    - apply run_mod in Hk as (nc2 & Enc2 & ->). cbn [snodes set_nodes]. split.
      + intros x nx Ex Nx. rewrite upd_neq by auto. apply (x_nodes _ _ _ _ _ X); auto.
      + rewrite upd_eq. eexists. split; [reflexivity|]. cbn. congruence. }
  destruct L2 as (L2 & nc2 & Enc2 & Xc2).
  eapply (append_needs s2 a c n nc2 kids s3 s3 u n' kids'); eauto.
  - eapply mlist_same; [exact M|]. intros x nx Hx Ex. exists nx. split; auto. apply L2; auto. intros ->; auto.
  - eapply chain_NoDup. apply (proj1 (i_dom _ _ I a fa Fa) ob kids Va).
Qed.
Theorem arrayAdd_iff s F v a A vv b B l j k : inv s F -> on s F v a A -> on s F vv b B -> reads F a (JArr l) ->
  lenN l + 1 < two32 -> reads F b j -> key_at F b k -> room s B (88 + icost (k, j)) ->
  forall fuel, (S (jsteps j) <= fuel)%nat ->
  ((exists s' F', zj_ArrayAdd fuel v vv s = Ok (true, s') /\ inv s' F' /\ reads F' a (JArr (l ++ [j]))) <-> last_link s F a).
Proof.
  intros I Hv Hb Ra Hl Rb Kb Rm fuel Hf. split.
  - intros (s' & F' & H & I' & R'). destruct (arr_kids F a l Ra) as (fa & kids & it & Fa & Va & Rl & Eit & Len).
    destruct (arr_kids F' a _ R') as (fa' & kids' & it' & Fa' & Va' & _ & _ & Len').
    unfold zj_ArrayAdd in H. eapply when_type_run in H; [|exact I|exact Hv|exact Fa|rewrite Va; reflexivity].
    eapply (copy_append_needs s F v a A vv b B j k fa false kids fuel (fun c => modNode c (wKey Null)) s' F' fa' kids'); eauto.
    + exact (not_own_kid _ a _ fa false kids Ra Fa Va).
    + rewrite Len', app_length, Len. cbn. lia.
  - intro L. destruct (know_end_ok s F a I L) as (e & Eo & I2).
    destruct (arrayAdd_exact s (know_end F a e) v a A vv b B l j k I2) with (fuel := fuel) as (s' & H & F' & n & Ed & _); auto.
    + now apply know_handle.
    + now apply know_handle.
    + now apply know_reads.
    + now apply know_reads.
    + destruct Kb as (fb & Fb & Kb). destruct (know_some F a e b fb Fb) as (f' & E' & K' & _). exists f'. split; congruence.
    + exists s', F'. split; auto. split; [apply Ed|]. apply (rw_at _ _ _ _ _ _ (ed_draw _ _ _ _ _ _ _ _ _ Ed)).
Qed.
Theorem objAdd_iff s F v a A vv b B l j k : inv s F -> on s F v a A -> on s F vv b B -> reads F a (JObj l) ->
  lenN l + 1 < two32 -> reads F b j -> key_at F b (Some k) -> room s B (88 + icost (Some k, j)) ->
  forall fuel, (S (jsteps j) <= fuel)%nat ->
  ((exists s' F', zj_ObjAdd fuel v vv s = Ok (true, s') /\ inv s' F' /\ reads F' a (JObj (l ++ [(k, j)]))) <-> last_link s F a).
Proof.
  intros I Hv Hb Ra Hl Rb Kb Rm fuel Hf. split.
  - intros (s' & F' & H & I' & R'). destruct (obj_kids F a l Ra) as (fa & kids & it & Fa & Va & Rl & Eit & Len).
    destruct (obj_kids F' a _ R') as (fa' & kids' & it' & Fa' & Va' & _ & _ & Len').
    unfold zj_ObjAdd in H. eapply when_type_run in H; [|exact I|exact Hv|exact Fa|rewrite Va; reflexivity].
    eapply when_key_run in H; [|exact I|exact Hb].
    eapply (copy_append_needs s F v a A vv b B j (Some k) fa true kids fuel (fun _ => ret tt) s' F' fa' kids'); eauto.
    + exact (not_own_kid _ a _ fa true kids Ra Fa Va).
    + rewrite Len', app_length, Len. cbn. lia.
  - intro L. destruct (know_end_ok s F a I L) as (e & Eo & I2).
    destruct (objAdd_exact s (know_end F a e) v a A vv b B l j k I2) with (fuel := fuel) as (s' & H & F' & n & Ed & _); auto.
    + now apply know_handle.
    + now apply know_handle.
    + now apply know_reads.
    + now apply know_reads.
    + destruct Kb as (fb & Fb & Kb). destruct (know_some F a e b fb Fb) as (f' & E' & K' & _). exists f'. split; congruence.
    + exists s', F'. split; auto. split; [apply Ed|]. apply (rw_at _ _ _ _ _ _ (ed_draw _ _ _ _ _ _ _ _ _ Ed)).
Qed.

(** *** Deleting *)
Lemma del_new_iff s F v a A fa ob kids i c d s1 jp : inv s F -> on s F v a A -> F a = Some fa -> fvalue fa = VCont ob kids ->
  nth_error kids i = Some c -> new_handle s A (Some c) d s1 -> reads F a jp ->
  ((exists s' F', (match d with None => ret false | Some h => zj_Move h end) s1 = Ok (true, s') /\ inv s' F' /\ reads F' a (jdel i jp)) <-> prev_ok F a i).
Proof.
  intros I Hv Fa Va En (h & -> & Bh & U & X) R.
  assert (I1 : inv s1 F) by (eapply ext_inv; eauto).
  eapply (move_iff s1 F h c A a i jp); auto.
  - destruct Hv as (_ & [Al NA] & _). split; [apply U|]. split; [split; auto; now apply (x_alive _ _ _ _ _ X)|]. right. exists c. split; auto.
    apply nth_error_In in En. destruct (chain_in _ _ _ _ _ (proj1 (proj1 (i_dom _ _ I a fa Fa) ob kids Va)) En) as (fc & Fc & _). congruence.
  - exists fa, ob, kids. auto.
Qed.
Theorem arrayDel_iff s F v a A l i : inv s F -> on s F v a A -> reads F a (JArr l) -> i < lenN l -> i < two32 -> room s A 16 ->
  forall fuel, (length l <= fuel)%nat ->
  ((exists s' F', zj_ArrayDel fuel v i s = Ok (true, s') /\ inv s' F' /\ reads F' a (JArr (remove_nth (N.to_nat i) l))) <->
   prev_ok F a (N.to_nat i)).
Proof.
  intros I Hv Ra Lt Hi Rm fuel Hf. destruct (arr_kids F a l Ra) as (fa & kids & it & Fa & Va & Rl & Eit & Len).
  destruct (arrayGet_wp s F v A a fa I Hv Fa Rm fuel kids i Va Hi ltac:(lia)) as (d & s1 & E & K).
  destruct (nth_error kids (N.to_nat i)) as [c|] eqn:En; [|apply nth_error_None in En; unfold lenN in *; lia].
  rewrite <- (del_new_iff s F v a A fa false kids (N.to_nat i) c d s1 (JArr l) I Hv Fa Va En K Ra).
  unfold zj_ArrayDel, bind. rewrite E. reflexivity.
Qed.
Theorem objDel_iff s F v a A l key k l1 x l2 : inv s F -> on s F v a A -> reads F a (JObj l) -> keys_ok l -> cstring s key k -> room s A 16 ->
  l = l1 ++ (k, x) :: l2 -> (forall y, ~ In (k, y) l1) -> forall fuel, (length l <= fuel)%nat ->
  ((exists s' F', zj_ObjDel fuel v key s = Ok (true, s') /\ inv s' F' /\ reads F' a (JObj (l1 ++ l2))) <-> prev_ok F a (length l1)).
Proof.
  intros I Hv Ra Ko [N0 [sl Ht]] Rm El N1 fuel Hf. destruct (obj_kids F a l Ra) as (fa & _ & _ & Fa & _).
  destruct (obj_here s F v a A (JObj l) fa I Hv Ra Fa l eq_refl) as (kids & Va & Rl & Len).
  destruct (objGet_wp s F v A a fa I Hv Fa Rm fuel kids key k sl Va Ht N0) as (d & s1 & E & o & Fo & K); [|lia|].
  { intros c fc b Hc Fc Kb. apply In_nth_error in Hc as (i & Hi). destruct (kid_key F kids l i c fc Rl Hi Fc) as (k0 & j0 & En & Ek).
    replace b with k0 by congruence. eapply Ko. eapply nth_error_In; eauto. }
  assert (Hc : exists c, nth_error kids (length l1) = Some c).
  { destruct (nth_error kids (length l1)) as [c|] eqn:En; [now exists c|]. apply nth_error_None in En. rewrite Len, El, app_length in En. cbn in En. lia. }
  destruct Hc as (c & Hc).
  assert (Ei : nth_error l (length l1) = Some (k, x)) by (rewrite El, nth_error_app2, Nat.sub_diag by lia; reflexivity).
  assert (Eo : o = Some c).
  { assert (Kk : key_of F k c).
    { destruct (readsL_nth _ _ _ Rl _ c Hc) as (fc & _ & Fc & _). exists fc. split; auto.
      destruct (kid_key F kids l _ c fc Rl Hc Fc) as (k0 & j0 & En & Ek). congruence. }
    destruct o as [d0|].
    - destruct Fo as (pre & post & Ek & Kd & Np).
      destruct (Nat.lt_trichotomy (length pre) (length l1)) as [Lt|[Eq|Gt]].
      + exfalso. assert (Hd : nth_error kids (length pre) = Some d0) by (rewrite Ek, nth_error_app2, Nat.sub_diag by lia; reflexivity).
        destruct Kd as (fd & Fd & Kd). destruct (kid_key F kids l _ d0 fd Rl Hd Fd) as (k0 & j0 & En & Ek0).
        assert (k0 = k) by congruence. subst k0. rewrite El, nth_error_app1 in En by lia. apply nth_error_In in En. exact (N1 _ En).
      + assert (Hd : nth_error kids (length pre) = Some d0) by (rewrite Ek, nth_error_app2, Nat.sub_diag by lia; reflexivity). congruence.
      + exfalso. apply (Np c); auto. rewrite Ek, nth_error_app1 in Hc by lia. now apply nth_error_In in Hc.
    - exfalso. apply (Fo c); auto. now apply nth_error_In in Hc. }
  subst o.
  assert (Edel : jdel (length l1) (JObj l) = JObj (l1 ++ l2)) by (cbn; rewrite El, remove_cut; auto).
  rewrite <- (del_new_iff s F v a A fa true kids (length l1) c d s1 (JObj l) I Hv Fa Va Hc K Ra), Edel.
  unfold zj_ObjDel, bind. rewrite E. reflexivity.
Qed.

(** ** Adding and assigning by moving *)
Lemma removed_below_on F c F1 x : wfdom F -> removed F c F1 -> below F c x -> below F1 c x.
Proof.
  intros W R B. induction B as [|y f ob kids z B IH Fy Vy Hz]; [constructor|].
  destruct (addr_dec z c) as [->|Nz]; [constructor|]. destruct (addr_dec y c) as [->|Ny].
  - destruct (removed_root F c F1 W R) as (f0 & f1 & E0 & E1 & _ & V1 & _). apply (bl_kid F1 c c f1 ob kids z); auto; congruence.
  - destruct (removed_cont F c F1 y f ob kids W R Fy Vy Ny) as (f1 & kids1 & E1 & V1 & [[-> _]|(l & r & -> & -> & _)]).
    + eapply bl_kid; eauto.
    + eapply bl_kid; eauto. apply in_app_iff in Hz as [Hz|[Hz|Hz]]; [|congruence|]; apply in_app_iff; auto.
Qed.
(** A way down in memory that is not touched. *)
Lemma keep_below s1 F1 s' F' c a x : inv s1 F1 -> inv s' F' -> F' c <> None ->
  (forall y n, y <> a -> snodes s1 y = Some n -> exists n', snodes s' y = Some n' /\ nVal n' = nVal n /\ nType n' = nType n) ->
  (forall y n, snodes s1 y = Some n -> ~ child F1 a y -> exists n', snodes s' y = Some n' /\ nNext n' = nNext n) ->
  below F1 c x -> below F' c x \/ below F' c a.
Proof.
  intros I1 I' Fc L1 L2 B. induction B as [|y f ob kids z B IH Fy Vy Hz]; [left; constructor|].
  destruct IH as [IH|IH]; auto. destruct (addr_dec y a) as [->|Ny]; auto. left.
  assert (Dy : F' y <> None).
  { clear - IH Fc I'. induction IH as [|b f ob kids c0 B0 IH0 Fb Vb Hc]; auto.
    destruct (chain_in _ _ _ _ _ (proj1 (proj1 (i_dom _ _ I' b f Fb) ob kids Vb)) Hc) as (g & E & _). congruence. }
  destruct (F' y) as [f'|] eqn:Fy'; [|congruence].
  destruct (inv_list s1 F1 y f ob kids I1 Fy Vy) as (n & En & M & Kf).
  destruct (L1 y n Ny En) as (n' & En' & Vn & Tn).
  assert (M' : mlist s' (nVal n') kids).
  { rewrite Vn. eapply mlist_same; [exact M|]. intros d nd Hd Ed. apply L2; auto. intro K.
    destruct (child_par F1 a d (i_dom _ _ I1) K) as (fd & Fd & Pd).
    destruct (child_par F1 y d (i_dom _ _ I1)) as (fd' & Fd' & Pd'); [exists f, ob, kids; auto|]. congruence. }
  destruct (i_rep _ _ I1 y f Fy) as (n0 & En0 & R); [auto|]. assert (n0 = n) by congruence. subst n0.
  destruct (i_rep _ _ I' y f' Fy') as (n0 & En0' & R'); [auto|]. assert (n0 = n') by congruence. subst n0.
  pose proof (rep_ftype _ _ _ R) as T. pose proof (rep_ftype _ _ _ R') as T'. rewrite Tn, T, Vy in T'. injection T' as T'.
  assert (V' : exists ob' kids', fvalue f' = VCont ob' kids') by (destruct (fvalue f'), ob; cbn in T'; try discriminate; eauto).
  destruct V' as (ob' & kids' & V'). destruct (inv_list s' F' y f' ob' kids' I' Fy' V') as (n2 & En2 & M2 & _). assert (n2 = n') by congruence. subst n2.
  rewrite (mlist_det _ _ _ _ M2 M') in V'. eapply bl_kid; eauto.
Qed.
Lemma fast_core s1 F1 a c fa1 ob kids1 fc1 n1 u s2 s' F' j' fa' ob' kids' : inv s1 F1 -> F1 a = Some fa1 -> fvalue fa1 = VCont ob kids1 ->
  F1 c = Some fc1 -> fpar fc1 = None -> snodes s1 a = Some n1 -> append_node a c s1 = Ok (u, s2) -> snodes s2 = snodes s' ->
  inv s' F' -> reads F' a j' -> F' a = Some fa' -> fvalue fa' = VCont ob' kids' -> length kids' = S (length kids1) ->
  ~ below F1 c a /\ (kids1 <> [] -> nEnd n1 = wopt (last_error kids1)).
Proof.
  intros I1 Fa Va Fc Pc En H Es I' R' Fa' Va' Len.
  destruct (inv_list s1 F1 a fa1 ob kids1 I1 Fa Va) as (n0 & En0 & M & Kf). assert (n0 = n1) by congruence. subst n0.
  destruct (inv_list s' F' a fa' ob' kids' I' Fa' Va') as (n' & En' & M' & _).
  destruct (i_rep _ _ I1 c fc1 Fc) as (nc & Enc & Rc); [auto|]. pose proof (r_next _ _ _ Rc) as Xc.
  destruct (proj2 (i_dom _ _ I1 c fc1 Fc) Pc) as [Nx _]. rewrite Nx in Xc. cbn in Xc.
  assert (Nc : ~ child F1 a c) by (intro K; destruct (child_par F1 a c (i_dom _ _ I1) K) as (fd & Fd & Pd); congruence).
  assert (Nck : ~ In c kids1) by (intro K; apply Nc; exists fa1, ob, kids1; auto).
  destruct (append_needs s1 a c n1 nc kids1 s2 s' u n' kids' En M) as [Ic Le]; auto.
  { eapply chain_NoDup. apply (proj1 (i_dom _ _ I1 a fa1 Fa) ob kids1 Va). }
  split; auto. intro B. apply (proj1 (reads_acyclic F') a j' R'). exists fa', ob', kids', c. split; auto. split; auto. split; auto.
  assert (Dc : F' c <> None).
  { destruct (chain_in _ _ _ _ _ (proj1 (proj1 (i_dom _ _ I' a fa' Fa') ob' kids' Va')) Ic) as (g & E & _). congruence. }
  destruct (keep_below s1 F1 s' F' c a a I1 I' Dc) as [K|K]; auto.
  - intros y n Ny Ey. rewrite <- Es. destruct kids1 as [|k0 kids0].
    + cbn in M. destruct (append_links0 s1 a c n1 s2 u En M H y n Ey) as (ny' & E' & _ & V & T). exists ny'. rewrite addr_eqb_neq in V; auto.
    + destruct M as [E0 _]. destruct (append_links s1 a c n1 _ s2 u En E0 H) as (e & Ee & L). destruct (L y n Ey) as (ny' & E' & _ & V & T). exists ny'. auto.
  - intros y n Ey Nch. rewrite <- Es. destruct kids1 as [|k0 kids0].
    + cbn in M. destruct (append_links0 s1 a c n1 s2 u En M H y n Ey) as (ny' & E' & X & _). eauto.
    + destruct M as [E0 _]. destruct (append_links s1 a c n1 _ s2 u En E0 H) as (e & Ee & L). destruct (L y n Ey) as (ny' & E' & X & _). exists ny'. split; auto.
      destruct (addr_eqb_spec y e) as [->|]; auto. exfalso. apply Nch. exists fa1, ob, (k0 :: kids0). split; auto. split; auto.
      rewrite Ee in Le. specialize (Le ltac:(discriminate)). destruct (last_error (k0 :: kids0)) as [x|] eqn:El; [|discriminate]. injection Le as ->.
      apply last_in in El. exact El.
Qed.
(** What the link is before the node is taken out. *)
Lemma fast_last s F c B vv F1 s1 a fa ob kids fa1 kids1 n1 : inv s F -> on s F vv c B -> removed F c F1 -> zj_Move vv s = Ok (true, s1) ->
  F a = Some fa -> fvalue fa = VCont ob kids -> a <> c -> F1 a = Some fa1 -> fvalue fa1 = VCont ob kids1 -> snodes s1 a = Some n1 ->
  (kids1 <> [] -> nEnd n1 = wopt (last_error kids1)) -> only_kid F a c \/ (last_link s F a /\ ~ last_kid F a c).
Proof.
  intros I Hc Rm H Fa Va Nac Fa1 Va1 En1 Le. pose proof (i_dom _ _ I) as W.
  unfold zj_Move in H. apply run_bind in H as (x & s0 & H1 & H). destruct Hc as (Sc & _). unfold getVal, get in H1. rewrite Sc in H1. injection H1 as <- <-.
  cbn [vN] in H. apply run_bind in H as (z & s0 & H1 & H). injection H1 as <- <-. cbv iota in H.
  apply run_bind in H as (c' & s0 & H1 & H). injection H1 as <- <-. apply run_bind in H as (u & s2 & H1 & H). apply run_ret in H as [_ <-].
  destruct (removed_cont F c F1 a fa ob kids W Rm Fa Va Nac) as (fa1' & kids1' & E1 & V1 & Hk). assert (fa1' = fa1) by congruence. subst fa1'.
  rewrite Va1 in V1. injection V1 as <-.
  destruct Rm as [f Fc Pc|f p fp ob' l r Fc Pc Fp Vp Pr Np].
  - destruct (i_rep _ _ I c f Fc) as (n & En & R); [auto|]. pose proof (r_par _ _ _ R) as Ef. rewrite Pc in Ef. cbn in Ef.
    unfold move_node in H1. apply run_bind in H1 as (n0 & s0 & H2 & H1). apply run_get in H2 as [H2 ->]. assert (n0 = n) by congruence. subst n0.
    rewrite Ef in H1. apply run_bind in H1 as (z & s0 & H3 & H1). injection H3 as <- <-. apply run_ret in H1 as [_ <-].
    assert (fa1 = fa) by congruence. subst fa1. assert (kids1 = kids) by congruence. subst kids1. right. split.
    + intros f0 ob0 kids0 n0 E0 V0 Nk En0. assert (f0 = fa) by congruence. subst f0. rewrite Va in V0. injection V0 as <- <-. replace n0 with n1 by congruence. auto.
    + intros (f0 & ob0 & l0 & E0 & V0 & _). destruct (child_par F a c W) as (fx & Fx & Px); [|congruence].
      exists f0, ob0, (l0 ++ [c]). split; auto. split; auto. apply in_app_iff. right. now left.
  - destruct (i_rep _ _ I c f Fc) as (n & En & R); [auto|]. pose proof (r_par _ _ _ R) as Ef. rewrite Pc in Ef. cbn in Ef.
    destruct (move_links s c n p s2 u En Ef H1) as (_ & L).
    destruct (i_rep _ _ I a fa Fa) as (na & Ena & Ra); [auto|]. destruct (L a na Nac Ena) as (n1' & En1' & _ & _ & X). assert (n1' = n1) by congruence. subst n1'.
    assert (ND : NoDup kids) by (eapply chain_NoDup; apply (proj1 (W a fa Fa) ob kids Va)).
    destruct (addr_eqb_spec a p) as [->|Nap].
    + assert (fp = fa) by congruence. subst fp. rewrite Va in Vp. injection Vp as <- ->.
      assert (Ek : kids1 = l ++ r).
      { rewrite (unlink_p F c p f fa ob l r) in Fa1 by auto. injection Fa1 as <-. cbn in Va1. congruence. }
      clear Hk E1. subst kids1. pose proof (r_next _ _ _ R) as Xn.
      assert (Nf : fnext f = hd_error r).
      { pose proof (proj1 (proj1 (W p fa Fa) ob _ Va)) as C. clear - C Fc. induction l as [|y l IH]; cbn in C; destruct C as [(fy & Fy & _ & Ny & _) C]; auto. congruence. }
      rewrite Nf in Xn. destruct r as [|y r]; cbn in Xn; rewrite Xn in X.
      * destruct l as [|x l]; [left; exists fa, ob; auto|]. exfalso. rewrite app_nil_r in Le. specialize (Le ltac:(discriminate)).
        rewrite X in Le. destruct (last_error (x :: l)) as [z|] eqn:El; [discriminate|]. apply last_error_nil in El. discriminate.
      * right. split.
        -- intros f0 ob0 kids0 n0 E0 V0 Nk En0. assert (f0 = fa) by congruence. subst f0. rewrite Va in V0. injection V0 as <- <-.
           assert (n0 = na) by congruence. subst n0. rewrite <- X, Le by (destruct l; discriminate). rewrite (last_app l c (y :: r)), (last_app l y r).
           rewrite (last_app [] y r : last_error (y :: r) = _). now destruct (last_error r).
        -- intros (f0 & ob0 & l0 & E0 & V0 & _). assert (f0 = fa) by congruence. subst f0. rewrite Va in V0. injection V0 as _ V0.
           assert (K : last_error (l ++ c :: y :: r) = Some c) by (rewrite V0; apply last_error_snoc).
           rewrite (last_app l c (y :: r)), (last_app [] y r : last_error (y :: r) = _) in K.
           apply NoDup_remove_2 in ND. apply ND. apply in_app_iff. right.
           destruct (last_error r) as [w|] eqn:El; injection K as ->; [right; now apply last_in|now left].
    + assert (Ek : kids1 = kids).
      { destruct Hk as [[-> K]|(l' & r' & E & -> & _)]; auto. exfalso. destruct (child_par F a c W) as (fx & Fx & Px); [|congruence].
        exists fa, ob, kids. split; auto. split; auto. rewrite E. apply in_app_iff. right. now left. }
      subst kids1. right. split.
      * intros f0 ob0 kids0 n0 E0 V0 Nk En0. assert (f0 = fa) by congruence. subst f0. rewrite Va in V0. injection V0 as <- <-.
        replace n0 with na by congruence. rewrite <- Le; auto. rewrite X. now destruct (nNext n).
      * intros (f0 & ob0 & l0 & E0 & V0 & _). destruct (child_par F a c W) as (fx & Fx & Px); [|congruence].
        exists f0, ob0, (l0 ++ [c]). split; auto. split; auto. apply in_app_iff. right. now left.
Qed.
Lemma kid_at_unique F p p' i i' c : wfdom F -> kid_at F p i c -> kid_at F p' i' c -> p' = p /\ i' = i.
Proof.
  intros W (f & ob & kids & Fp & Vp & Hi) (f' & ob' & kids' & Fp' & Vp' & Hi').
  assert (p' = p).
  { destruct (child_par F p c W) as (fc & Fc & Pc); [exists f, ob, kids; split; auto; split; auto; eapply nth_error_In; eauto|].
    destruct (child_par F p' c W) as (fc' & Fc' & Pc'); [exists f', ob', kids'; split; auto; split; auto; eapply nth_error_In; eauto|]. congruence. }
  subst p'. split; auto. assert (f' = f) by congruence. subst f'. assert (kids' = kids) by congruence. subst kids'.
  assert (ND : NoDup kids) by (eapply chain_NoDup; apply (proj1 (W p f Fp) ob kids Vp)).
  eapply (proj1 (NoDup_nth_error kids) ND); [eapply nth_error_Some_len; eauto|congruence].
Qed.
(** What taking a node out leaves, as far as contents go. *)
Definition taken_w (F : dom) (c : addr) (jc : json) (F1 : dom) : Prop :=
  (root F c /\ (forall x j, reads F x j -> reads F1 x j)) \/
  exists p i k jp, kid_at F p i c /\ reads F p jp /\ nth_error (items jp) i = Some (k, jc) /\ redrawn none none F p (jdel i jp) F1.
Lemma taken_weak F c jc F1 : taken_out F c jc F1 -> taken_w F c jc F1.
Proof. intros (_ & _ & [[R ->]|K] & _); [left; auto|right; exact K]. Qed.
Lemma know_below F a e x y : below (know_end F a e) x y -> below F x y.
Proof.
  induction 1 as [|b f' ob kids d H IH Hb Hv Hd]; [constructor|].
  destruct (know_back F a e b f' Hb) as (f & Fb & _ & V & _). apply (bl_kid F x b f ob kids d); auto. congruence.
Qed.
Lemma know_kid_at F a e p i c : kid_at F p i c <-> kid_at (know_end F a e) p i c.
Proof.
  split; intros (f & ob & kids & Fp & Vp & Hi).
  - destruct (know_some F a e p f Fp) as (f' & E & _ & V & _). exists f', ob, kids. split; auto. split; auto. congruence.
  - destruct (know_back F a e p f Fp) as (f' & E & _ & V & _). exists f', ob, kids. split; auto. split; auto. congruence.
Qed.
Lemma know_path F a e b p x : path F b p x -> path (know_end F a e) b p x.
Proof.
  induction 1 as [|b f ob kids i c q x Fb Vb Hi P IH]; [constructor|].
  destruct (know_some F a e b f Fb) as (f' & E & _ & V & _). apply (pa_down _ b f' ob kids i c q x); auto. congruence.
Qed.
Lemma know_reads_back F a e x j : reads (know_end F a e) x j -> reads F x j.
Proof.
  assert (G : (forall x j, reads (know_end F a e) x j -> reads F x j) /\ (forall l it, readsL (know_end F a e) l it -> readsL F l it)).
  { apply reads_mutind.
    - intros y f Fx V. destruct (know_back F a e y f Fx) as (f' & E & _ & V' & _). eapply rd_null; eauto. congruence.
    - intros y f b Fx V. destruct (know_back F a e y f Fx) as (f' & E & _ & V' & _). eapply rd_bool; eauto. congruence.
    - intros y f b Fx V. destruct (know_back F a e y f Fx) as (f' & E & _ & V' & _). eapply rd_num; eauto. congruence.
    - intros y f b Fx V. destruct (know_back F a e y f Fx) as (f' & E & _ & V' & _). eapply rd_str; eauto. congruence.
    - intros y f ob kids it Fx V _ IH. destruct (know_back F a e y f Fx) as (f' & E & _ & V' & _). eapply rd_cont; eauto. congruence.
    - constructor.
    - intros c l f y it Fc _ IH1 _ IH2. destruct (know_back F a e c f Fc) as (f' & E & K & _). rewrite K. econstructor; eauto. }
  apply G.
Qed.
Lemma know_taken F a e c jc F1 : taken_w (know_end F a e) c jc F1 -> taken_w F c jc F1.
Proof.
  intros [[(f' & E & P) R]|(p & i & k & jp & Hk & Rp & E & [R1 Ab Be Ke])].
  - left. split; [|intros x j H; apply R; now apply know_reads]. destruct (know_back F a e c f' E) as (f & Fc & _ & _ & P' & _). exists f. split; congruence.
  - right. exists p, i, k, jp. split; [now apply know_kid_at in Hk|]. split; [eapply know_reads_back; eauto|]. split; auto. constructor; auto.
    + intros b q ju P R _. apply Ab; auto; [now apply know_path|now apply know_reads].
    + intros b ju R N _. apply Be; auto; [now apply know_reads|]. intro K. apply N. eapply know_below; eauto.
    + intros x f Fx _ _. destruct (know_some F a e x f Fx) as (f' & E' & K & _). destruct (Ke x f' E') as (f2 & E2 & K2); auto. exists f2. split; auto. congruence.
Qed.
Lemma taken_same F c jc F1 F2 a j j1 j2 : wfdom F -> taken_w F c jc F1 -> taken_w F c jc F2 -> reads F a j -> reads F1 a j1 -> reads F2 a j2 -> j1 = j2.
Proof.
  intros W T1 T2 R R1 R2.
  destruct T1 as [(Rc & K1)|(p & i & k & jp & Hk & Rp & E & [_ Ab1 Be1 _])].
  - destruct T2 as [(_ & K2)|(p & i & k & jp & (f & ob & kids & Fp & Vp & Hi) & _)].
    + pose proof (reads_det _ _ _ _ R1 (K1 _ _ R)). pose proof (reads_det _ _ _ _ R2 (K2 _ _ R)). congruence.
    + exfalso. destruct Rc as (fc & Fc & Pc). destruct (child_par F p c W) as (fx & Fx & Px); [|congruence].
      exists f, ob, kids. split; auto. split; auto. eapply nth_error_In; eauto.
  - destruct T2 as [(Rc & K2)|(p' & i' & k' & jp' & Hk' & Rp' & E' & [_ Ab2 Be2 _])].
    + exfalso. destruct Hk as (f & ob & kids & Fp & Vp & Hi). destruct Rc as (fc & Fc & Pc). destruct (child_par F p c W) as (fx & Fx & Px); [|congruence].
      exists f, ob, kids. split; auto. split; auto. eapply nth_error_In; eauto.
    + destruct (kid_at_unique F p p' i i' c W Hk Hk') as [-> ->]. assert (jp' = jp) by (eapply reads_det; eauto). subst jp'.
      destruct (proj1 (below_dec F) a j R p) as [B|N].
      * destruct (below_path F a p B) as (q & P). pose proof (reads_det _ _ _ _ R1 (Ab1 _ _ _ P R (fun d _ x => x))). pose proof (reads_det _ _ _ _ R2 (Ab2 _ _ _ P R (fun d _ x => x))). congruence.
      * pose proof (reads_det _ _ _ _ R1 (Be1 _ _ R N (fun d _ x => x))). pose proof (reads_det _ _ _ _ R2 (Be2 _ _ R N (fun d _ x => x))). congruence.
Qed.
Lemma reads_cont_len F a j f ob kids : reads F a j -> F a = Some f -> fvalue f = VCont ob kids -> length (items j) = length kids.
Proof. exact (items_kids F a f ob kids j). Qed.

(** Both calls, up to the first link that counts. *)
Definition add_ready (s : st) (F : dom) (a c : addr) : Prop :=
  ~ below F c a /\ (only_kid F a c \/ (last_link s F a /\ ~ last_kid F a c)).
Lemma addFast_needs s F v a A vv c B l jc ob m s1 u1 s1' u s2 s' F1 F' j1 j' :
  inv s F -> on s F v a A -> on s F vv c B -> reads F a (container ob l) -> reads F c jc -> movable F c ->
  (m = ret tt \/ m = modNode c (wKey Null)) ->
  zj_Move vv s = Ok (true, s1) -> m s1 = Ok (u1, s1') -> append_node a c s1' = Ok (u, s2) -> snodes s2 = snodes s' ->
  taken_out F c jc F1 -> reads F1 a (container ob j1) -> inv s' F' -> reads F' a (container ob j') -> length j' = S (length j1) ->
  add_ready s F a c.
Proof.
  intros I Hv Hc Ra Rc Mv Hm H1 Hk H2 Es To R1 I' R' Len. pose proof (i_dom _ _ I) as W.
  destruct (movable_removed F c jc W Mv Rc) as (F2 & Rm & To2).
  destruct (move_wp s F vv c B F2 I Hc Rm) as (r & s1x & E & -> & I1 & M1 & X1). assert (s1x = s1) by congruence. subst s1x. clear E.
  assert (Ca : exists fa kids, F a = Some fa /\ fvalue fa = VCont ob kids).
  { destruct ob; [destruct (obj_kids F a _ Ra) as (fa & kids & _ & Fa & Va & _)|destruct (arr_kids F a _ Ra) as (fa & kids & _ & Fa & Va & _)]; eauto. }
  destruct Ca as (fa & kids & Fa & Va).
  assert (Ca : exists fa' kids', F' a = Some fa' /\ fvalue fa' = VCont ob kids').
  { destruct ob; [destruct (obj_kids F' a _ R') as (f & k & _ & Ff & Vf & _)|destruct (arr_kids F' a _ R') as (f & k & _ & Ff & Vf & _)]; eauto. }
  destruct Ca as (fa' & kids' & Fa' & Va').
  assert (W2 : wfdom F2) by (eapply removed_wfdom; eauto).
  destruct (removed_root F c F2 W Rm) as (fc & fc2 & Fc & Fc2 & Kc2 & Vc2 & _ & Pc2 & _).
  assert (Ca : exists fa2 kids2, F2 a = Some fa2 /\ fvalue fa2 = VCont ob kids2).
  { destruct (addr_dec a c) as [->|Nac]; [exists fc2, kids; split; auto; congruence|].
    destruct (removed_cont F c F2 a fa ob kids W Rm Fa Va Nac) as (fa1 & kids1 & E1 & V1 & _). eauto. }
  destruct Ca as (fa2 & kids2 & Fa2 & Va2).
  destruct (taken_reads F c jc F2 a _ W To2 Ra) as (j2 & R2).
  assert (Ej : j2 = container ob j1) by (eapply (taken_same F c jc F2 F1 a); eauto using taken_weak). subst j2.
  assert (Len' : length kids' = S (length kids2)).
  { rewrite <- (reads_cont_len _ _ _ _ _ _ R' Fa' Va'), <- (reads_cont_len _ _ _ _ _ _ R2 Fa2 Va2).
    destruct ob; cbn [container items]; rewrite !map_length; auto. }
  assert (G : exists n1, snodes s1 a = Some n1 /\ ~ below F2 c a /\ (kids2 <> [] -> nEnd n1 = wopt (last_error kids2))).
  { destruct (i_rep _ _ I1 a fa2 Fa2) as (n1 & En1 & _); [auto|]. exists n1. split; auto. destruct Hm as [-> | ->].
    - apply run_ret in Hk as [_ <-]. eapply (fast_core s1 F2 a c fa2 ob kids2 fc2 n1 u s2 s' F' _ fa' ob kids'); eauto.
    - destruct (dropkey_wp F2 c fc2 W2 Fc2 Pc2 s1 (inF F) zeroc s1) as ([] & s1'' & E & X2 & M2 & I2); auto.
      { apply ext_refl, I1. } { unfold inF. congruence. }
      assert (s1'' = s1') by congruence. subst s1''. pose proof (mod_eff _ _ _ _ _ Hk a n1 En1) as En1'.
      assert (Da : exists fa3, dropkey F2 c a = Some fa3 /\ fvalue fa3 = VCont ob kids2).
      { destruct (dropkey_keep F2 c a fa2 Fa2) as (f3 & E3 & V3 & _). exists f3. split; auto. congruence. }
      destruct Da as (fa3 & Fa3 & Va3).
      destruct (fast_core s1' (dropkey F2 c) a c fa3 ob kids2 (nokey fc2) _ u s2 s' F' _ fa' ob kids' I2 Fa3 Va3 (dropkey_at F2 c fc2 Fc2) Pc2 En1' H2 Es I' R' Fa' Va' Len') as [G1 G2].
      rewrite dropkey_below in G1. split; auto. intro Nk. rewrite <- (G2 Nk). now destruct (addr_eqb a c). }
  destruct G as (n1 & En1 & Nb & Le).
  assert (Nb0 : ~ below F c a) by (intro K; apply Nb; exact (removed_below_on F c F2 a W Rm K)).
  split; auto. eapply (fast_last s F c B vv F2 s1 a fa ob kids fa2 kids2 n1); eauto. intros ->. apply Nb0. constructor.
Qed.
Lemma add_ready_known s F a c : inv s F -> add_ready s F a c -> ~ below F c a /\
  exists e, inv s (know_end F a e) /\ (only_kid (know_end F a e) a c \/ (end_ok (know_end F a e) a /\ ~ last_kid (know_end F a e) a c)).
Proof.
  intros I [Nb [(f & ob & Fa & Va)|[L Nl]]]; split; auto.
  - exists None. split; [apply know_inv; auto; discriminate|]. left. destruct (know_some F a None a f Fa) as (f' & E & _ & V & _). exists f', ob. split; auto. congruence.
  - destruct (know_end_ok s F a I L) as (e & Eo & I2). exists e. split; auto. right. split; auto.
    intros (f' & ob & l & Fa' & Va' & Nk). destruct (know_back F a e a f' Fa') as (f & Fa & _ & V & _). apply Nl. exists f, ob, l. split; auto. split; auto. congruence.
Qed.
Lemma run_val u s x v s' : getVal u s = Ok (x, s') -> svals s u = Some v -> x = v /\ s' = s.
Proof. unfold getVal, get. intros H E. rewrite E in H. injection H as <- <-. auto. Qed.
Lemma arr_container l : JArr l = container false (map (fun j => (None, j)) l).
Proof. cbn. rewrite map_map. cbn. now rewrite map_id. Qed.
Lemma obj_container l : JObj l = container true (map (fun kv => (Some (fst kv), snd kv)) l).
Proof. cbn. rewrite map_map. cbn. f_equal. rewrite <- (map_id l) at 1. apply map_ext. now intros []. Qed.
Theorem arrayAddFast_iff s F v a A vv c B l jc : inv s F -> on s F v a A -> on s F vv c B -> reads F a (JArr l) ->
  reads F c jc -> movable F c -> lenN l + 1 < two32 ->
  ((exists s' F1 F' l1, zj_ArrayAddFast v vv s = Ok (true, s') /\ taken_out F c jc F1 /\ reads F1 a (JArr l1) /\
      inv s' F' /\ reads F' a (JArr (l1 ++ [jc]))) <-> add_ready s F a c).
Proof.
  intros I Hv Hc Ra Rc Mv Hl. pose proof (i_dom _ _ I) as W. split.
  - intros (s' & F1 & F' & l1 & H & To & R1 & I' & R').
    destruct (arr_type F a l Ra) as (fa & Fa & Ta). unfold zj_ArrayAddFast in H.
    eapply when_type_run in H; [|exact I|exact Hv|exact Fa|exact Ta].
    apply run_bind in H as (ok & s1 & H1 & H). destruct ok; cbn [negb] in H; [|apply run_ret in H as [H _]; discriminate].
    destruct (movable_removed F c jc W Mv Rc) as (F2 & Rm & _).
    destruct (move_wp s F vv c B F2 I Hc Rm) as (r & s1x & E & -> & I1 & M1 & X1). assert (s1x = s1) by congruence. subst s1x. clear E.
    pose proof (mc_vals _ _ M1) as V1.
    apply run_bind in H as (y & sy & Hy & H). eapply run_val in Hy as [Ex Es]; [|rewrite V1; apply Hc]. subst y sy. cbn [vN vA] in H.
    apply run_bind in H as (c' & sy & Hy & H). injection Hy as <- <-.
    apply run_bind in H as (u1 & s2 & Hk & H).
    assert (V2 : svals s2 = svals s1) by (apply run_mod in Hk as (nk & _ & ->); reflexivity).
    apply run_bind in H as (x & sy & Hy & H). eapply run_val in Hy as [Ex Es]; [|rewrite V2, V1; apply Hv]. subst x sy. cbn [vN vA] in H.
    apply run_bind in H as (a' & sy & Hy & H). injection Hy as <- <-.
    apply run_bind in H as (u & s3 & H2 & H). apply run_bind in H as (u3 & s4 & H3 & H). apply run_ret in H as [_ <-].
    assert (Es : snodes s3 = snodes s4) by (unfold putVal in H3; now injection H3 as _ <-).
    rewrite arr_container in Ra, R1, R'.
    eapply (addFast_needs s F v a A vv c B _ jc false (modNode c (wKey Null)) s1 u1 s2 u s3 s4 F1 F'); eauto.
    rewrite !map_length, app_length. cbn. lia.
  - intro K. destruct (add_ready_known s F a c I K) as (Nb & e & I2 & En).
    assert (Mv2 : movable (know_end F a e) c).
    { destruct Mv as [(f & Fc & Pc)|(p & i & jp & Hk & Rp & Po)].
      - left. destruct (know_some F a e c f Fc) as (f' & E & _ & _ & P & _). exists f'. split; congruence.
      - right. exists p, i, jp. split; [now apply know_kid_at|]. split; [now apply know_reads|].
        intros f' ob kids d fd' E1 E2 E3 E4. destruct (know_back F a e p f' E1) as (f & Fp & _ & V & _). destruct (know_back F a e d fd' E4) as (fd & Fd & _ & _ & _ & _ & P & _).
        rewrite P. apply (Po f ob kids d fd); auto. congruence. }
    destruct (arrayAddFast_gen s (know_end F a e) v a A vv c B l jc I2) as (s' & F1 & F' & l1 & H & To & R1 & Rd & Co & _); auto.
    + now apply know_handle.
    + now apply know_handle.
    + now apply know_reads.
    + now apply know_reads.
    + intro B0. apply Nb. eapply know_below; eauto.
    + destruct (movable_removed F c jc W Mv Rc) as (F2 & Rm & To2). destruct (taken_reads F c jc F2 a _ W To2 Ra) as (j2 & R2).
      assert (j2 = JArr l1) by (eapply (taken_same F c jc F2 F1 a); eauto using taken_weak; eapply know_taken, taken_weak; eauto). subst j2.
      exists s', F2, F', l1. split; auto. split; auto. split; auto. split; [apply Co|apply Rd].
Qed.
Theorem objAddFast_iff s F v a A vv c B l jc k : inv s F -> on s F v a A -> on s F vv c B -> reads F a (JObj l) ->
  reads F c jc -> key_at F c (Some k) -> movable F c -> lenN l + 1 < two32 ->
  ((exists s' F1 F' l1, zj_ObjAddFast v vv s = Ok (true, s') /\ taken_out F c jc F1 /\ reads F1 a (JObj l1) /\
      inv s' F' /\ reads F' a (JObj (l1 ++ [(k, jc)]))) <-> add_ready s F a c).
Proof.
  intros I Hv Hc Ra Rc Kc Mv Hl. pose proof (i_dom _ _ I) as W. split.
  - intros (s' & F1 & F' & l1 & H & To & R1 & I' & R').
    destruct (obj_type F a l Ra) as (fa & Fa & Ta). unfold zj_ObjAddFast in H.
    eapply when_type_run in H; [|exact I|exact Hv|exact Fa|exact Ta].
    eapply when_key_run in H; [|exact I|exact Hc].
    apply run_bind in H as (ok & s1 & H1 & H). destruct ok; cbn [negb] in H; [|apply run_ret in H as [H _]; discriminate].
    destruct (movable_removed F c jc W Mv Rc) as (F2 & Rm & _).
    destruct (move_wp s F vv c B F2 I Hc Rm) as (r & s1x & E & -> & I1 & M1 & X1). assert (s1x = s1) by congruence. subst s1x. clear E.
    pose proof (mc_vals _ _ M1) as V1.
    apply run_bind in H as (y & sy & Hy & H). eapply run_val in Hy as [Ex Es]; [|rewrite V1; apply Hc]. subst y sy. cbn [vN vA] in H.
    apply run_bind in H as (c' & sy & Hy & H). injection Hy as <- <-.
    apply run_bind in H as (x & sy & Hy & H). eapply run_val in Hy as [Ex Es]; [|rewrite V1; apply Hv]. subst x sy. cbn [vN vA] in H.
    apply run_bind in H as (a' & sy & Hy & H). injection Hy as <- <-.
    apply run_bind in H as (u & s3 & H2 & H). apply run_bind in H as (u3 & s4 & H3 & H). apply run_ret in H as [_ <-].
    assert (Es : snodes s3 = snodes s4) by (unfold putVal in H3; now injection H3 as _ <-).
    rewrite obj_container in Ra, R1, R'.
    eapply (addFast_needs s F v a A vv c B _ jc true (ret tt) s1 tt s1 u s3 s4 F1 F'); eauto.
    rewrite !map_length, app_length. cbn. lia.
  - intro K. destruct (add_ready_known s F a c I K) as (Nb & e & I2 & En).
    assert (Mv2 : movable (know_end F a e) c).
    { destruct Mv as [(f & Fc & Pc)|(p & i & jp & Hk & Rp & Po)].
      - left. destruct (know_some F a e c f Fc) as (f' & E & _ & _ & P & _). exists f'. split; congruence.
      - right. exists p, i, jp. split; [now apply know_kid_at|]. split; [now apply know_reads|].
        intros f' ob kids d fd' E1 E2 E3 E4. destruct (know_back F a e p f' E1) as (f & Fp & _ & V & _). destruct (know_back F a e d fd' E4) as (fd & Fd & _ & _ & _ & _ & P & _).
        rewrite P. apply (Po f ob kids d fd); auto. congruence. }
    destruct (objAddFast_gen s (know_end F a e) v a A vv c B l jc k I2) as (s' & F1 & F' & l1 & H & To & R1 & Rd & Co & _); auto.
    + now apply know_handle.
    + now apply know_handle.
    + now apply know_reads.
    + now apply know_reads.
    + destruct Kc as (f & Fc & Kc). destruct (know_some F a e c f Fc) as (f' & E' & K' & _). exists f'. split; congruence.
    + intro B0. apply Nb. eapply know_below; eauto.
    + destruct (movable_removed F c jc W Mv Rc) as (F2 & Rm & To2). destruct (taken_reads F c jc F2 a _ W To2 Ra) as (j2 & R2).
      assert (j2 = JObj l1) by (eapply (taken_same F c jc F2 F1 a); eauto using taken_weak; eapply know_taken, taken_weak; eauto). subst j2.
      exists s', F2, F', l1. split; auto. split; auto. split; auto. split; [apply Co|apply Rd].
Qed.

(** ** Assigning *)
(** Next, Value, Type and End of every node are as before, but for [a]. *)
Definition same_but (a : addr) (s s' : st) : Prop := forall y ny, snodes s y = Some ny -> exists ny', snodes s' y = Some ny' /\
  nNext ny' = nNext ny /\ (y <> a -> nVal ny' = nVal ny /\ nType ny' = nType ny /\ nEnd ny' = nEnd ny).
Lemma adopt_eff f : forall fuel w s u s', adopt fuel f w s = Ok (u, s') -> forall y ny, snodes s y = Some ny -> exists ny', snodes s' y = Some ny' /\
  nNext ny' = nNext ny /\ nVal ny' = nVal ny /\ nType ny' = nType ny /\ nEnd ny' = nEnd ny.
Proof.
  induction fuel as [|fuel IH]; intros w s u s' H y ny Ey; cbn [adopt] in H; apply run_bind in H as (z & s1 & H1 & H); apply run_null in H1 as [-> Hz];
    destruct Hz as [[_ ->]|(x & -> & ->)]; try (apply run_ret in H as [_ <-]; exists ny; auto 6); try discriminate.
  apply run_bind in H as (x' & s1 & H1 & H). injection H1 as <- <-. apply run_bind in H as ([] & s1 & H1 & H). pose proof (mod_eff _ _ _ _ _ H1) as E.
  apply run_bind in H as (n & s2 & H2 & H). apply run_get in H2 as [_ ->].
  destruct (IH _ _ _ _ H _ _ (E y ny Ey)) as (ny' & E' & X1 & X2 & X3 & X4). exists ny'. split; auto. rewrite X1, X2, X3, X4. destruct (addr_eqb y x); auto.
Qed.
Lemma take_eff fuel a b e s u s' na nb ne : take_value fuel a b e s = Ok (u, s') -> a <> b -> snodes s a = Some na -> snodes s b = Some nb -> snodes s e = Some ne ->
  same_but a s s' /\ exists na', snodes s' a = Some na' /\ nVal na' = nVal nb /\ nType na' = nType nb /\
    (forall t, nType nb = Some t -> is_container t = true -> nEnd na' = nEnd ne).
Proof.
  intros H Nab Ea Eb Ee. unfold take_value in H.
  apply run_bind in H as (m & s0 & H1 & H). apply run_get in H1 as [H1 ->]. assert (m = nb) by congruence. subst m. clear H1.
  apply run_bind in H as (t & s0 & H1 & H). unfold rType, lift in H1. destruct (nType nb) as [t0|] eqn:Et; [|discriminate]. injection H1 as <- <-.
  apply run_bind in H as ([] & s1 & H1 & H). pose proof (mod_eff _ _ _ _ _ H1) as E1.
  apply run_bind in H as ([] & s2 & H2 & H). pose proof (mod_eff _ _ _ _ _ H2) as E2.
  apply run_bind in H as (m & s2' & G & H). apply run_get in G as [G ->].
  apply run_bind in H as (l & s2' & G2 & H). unfold rLen, lift in G2. destruct (nLen m) as [l0|]; [|discriminate]. injection G2 as <- <-.
  apply run_bind in H as ([] & s3 & H3 & H). pose proof (mod_eff _ _ _ _ _ H3) as E3.
  pose proof (fun y ny Ey => E3 _ _ (E2 _ _ (E1 y ny Ey))) as E. cbv beta in E.
  destruct (is_container t0) eqn:Ct.
  - apply run_bind in H as (ne' & s3' & G3 & H). apply run_get in G3 as [G3 ->]. rewrite (E e ne Ee) in G3. injection G3 as <-.
    apply run_bind in H as ([] & s4 & H4 & H). pose proof (mod_eff _ _ _ _ _ H4) as E4.
    apply run_bind in H as (n4 & s4' & G4 & H). apply run_get in G4 as [_ ->]. pose proof (adopt_eff _ _ _ _ _ _ H) as E5. split.
    + intros y ny Ey. destruct (E5 _ _ (E4 _ _ (E _ _ Ey))) as (ny' & E' & X1 & X2 & X3 & X4). exists ny'. split; auto. rewrite X1, X2, X3, X4.
      split; [destruct (addr_eqb y a); reflexivity|]. intro Ny. rewrite !(addr_eqb_neq y a) by auto. auto.
    + destruct (E5 _ _ (E4 _ _ (E _ _ Ea))) as (ny' & E' & X1 & X2 & X3 & X4). exists ny'. split; auto. rewrite X2, X3, X4. rewrite !addr_eqb_refl.
      split; [reflexivity|]. split; [reflexivity|]. intros _ _ _. cbn. destruct (addr_eqb e a); reflexivity.
  - apply run_ret in H as [_ <-]. split.
    + intros y ny Ey. eexists. split; [exact (E _ _ Ey)|]. split; [destruct (addr_eqb y a); reflexivity|]. intro Ny. rewrite !(addr_eqb_neq y a) by auto. auto.
    + eexists. split; [exact (E _ _ Ea)|]. rewrite !addr_eqb_refl. split; [reflexivity|]. split; [reflexivity|]. congruence.
Qed.
Theorem setFast_iff s F v a A vv b B j : inv s F -> on s F v a A -> on s F vv b B -> reads F b j -> movable F b -> a <> b ->
  forall fuel, (length (items j) <= fuel)%nat ->
  ((exists s' F', zj_SetFast fuel v vv s = Ok (true, s') /\ inv s' F' /\ reads F' a j) <-> ~ below F b a).
Proof.
  intros I Hv Hb Rb Mv Nab fuel Hf. pose proof (i_dom _ _ I) as W. assert (Da : F a <> None) by (destruct Hv as (_ & _ & [K|(x & K & D)]); congruence). split.
  - intros (s' & F' & H & I' & R') Be. unfold zj_SetFast in H.
    apply run_bind in H as (ok & s1 & H1 & H). destruct ok; cbn [negb] in H; [|apply run_ret in H as [H _]; discriminate].
    destruct (movable_removed F b j W Mv Rb) as (F1 & Rm & To).
    destruct (move_wp s F vv b B F1 I Hb Rm) as (r & s1x & E & -> & I1 & M1 & X1). assert (s1x = s1) by congruence. subst s1x. clear E.
    pose proof (mc_vals _ _ M1) as V1.
    apply run_bind in H as (x & sy & Hy & H). eapply run_val in Hy as [Ex Es]; [|rewrite V1; apply Hv]. subst x sy. cbn [vN vA] in H.
    apply run_bind in H as (z & sy & Hy & H). injection Hy as <- <-. cbv iota in H.
    apply run_bind in H as (a' & sy & Hy & H). injection Hy as <- <-.
    apply run_bind in H as (y & sy & Hy & H). eapply run_val in Hy as [Ex Es]; [|rewrite V1; apply Hb]. subst y sy. cbn [vN vA] in H.
    apply run_bind in H as (b' & sy & Hy & H). injection Hy as <- <-.
    apply run_bind in H as (u & s3 & H2 & H). apply run_bind in H as (u3 & s4 & H3 & H). apply run_ret in H as [_ <-].
    assert (Es : snodes s3 = snodes s4) by (unfold putVal in H3; now injection H3 as _ <-).
    pose proof (removed_below_on F b F1 a W Rm Be) as Be1.
    apply below_cases in Be1 as [K|(fb & ob & kids & c & Fb & Vb & Hc & Bc)]; [congruence|].
    destruct (inv_list s1 F1 b fb ob kids I1 Fb Vb) as (nb & Enb & Mb & _).
    assert (Da1 : F1 a <> None) by (eapply removed_in; eauto). destruct (F1 a) as [fa|] eqn:Fa; [|congruence].
    destruct (i_rep _ _ I1 a fa Fa) as (na & Ena & _); [auto|].
    destruct (take_eff fuel a b b s1 u s3 na nb nb H2 Nab Ena Enb Enb) as (SB & na' & Ena' & Vna & Tna & _).
    destruct To as (_ & Rb1 & _). destruct (reads_cont F1 b j fb ob kids Rb1 Fb Vb) as (it & -> & _).
    assert (Ca : exists fa' kids', F' a = Some fa' /\ fvalue fa' = VCont ob kids').
    { destruct ob; [destruct (obj_kids F' a _ R') as (f & k & _ & Ff & Vf & _)|destruct (arr_kids F' a _ R') as (f & k & _ & Ff & Vf & _)]; eauto. }
    destruct Ca as (fa' & kids' & Fa' & Va').
    destruct (inv_list s4 F' a fa' ob kids' I' Fa' Va') as (n' & En' & M' & _).
    assert (n' = na') by congruence. subst n'. rewrite Vna in M'.
    assert (kids' = kids).
    { apply (mlist_det s4 kids' kids (nVal nb)); auto. apply (mlist_nodes s3 s4 Es). eapply mlist_same; [exact Mb|].
      intros y ny _ Ey. destruct (SB y ny Ey) as (ny' & E1 & E2 & _). eauto. }
    subst kids'.
    assert (Dc : F' c <> None).
    { destruct (chain_in _ _ _ _ _ (proj1 (proj1 (i_dom _ _ I' a fa' Fa') ob kids Va')) Hc) as (fx & Fx & _). congruence. }
    assert (Bc' : below F' c a).
    { destruct (keep_below s1 F1 s4 F' c a a I1 I' Dc) as [K|K]; auto.
      - intros y n Ny En. destruct (SB y n En) as (ny & E1 & _ & E3). exists ny. rewrite <- Es. destruct (E3 Ny) as (E4 & E5 & _). auto.
      - intros y n En _. destruct (SB y n En) as (ny & E1 & E2 & _). exists ny. rewrite <- Es. auto. }
    apply (proj1 (reads_acyclic F') a _ R'). exists fa', ob, kids, c. auto.
  - intro Nb. destruct (setFast_exact s F v a A vv b B j I Hv Hb Da Rb Mv Nb fuel Hf) as (s' & F1 & F' & H & _ & Rd & Co & _).
    exists s', F'. split; auto. split; [apply Co|apply Rd].
Qed.

(** *** The last link of an assigned container is the one of the source *)
Lemma cont_of F a j : reads F a j -> items j <> [] -> exists f ob kids, F a = Some f /\ fvalue f = VCont ob kids /\ kids <> [].
Proof.
  intros R Nj. destruct j as [| |y|x|l|l]; cbn [items] in Nj; try congruence.
  - destruct (arr_kids F a _ R) as (f & kids & _ & Fa & Va & _ & _ & L). exists f, false, kids. split; auto. split; auto. intros ->. destruct l; [now apply Nj|discriminate].
  - destruct (obj_kids F a _ R) as (f & kids & _ & Fa & Va & _ & _ & L). exists f, true, kids. split; auto. split; auto. intros ->. destruct l; [now apply Nj|discriminate].
Qed.
Lemma steps_items j : (length (items j) <= jsteps j)%nat.
Proof.
  destruct j as [| |y|x|l|l]; cbn [items jsteps]; rewrite ?map_length; cbn [length]; try (apply Nat.le_0_l); apply le_S.
  - induction l as [|x l IH]; [cbn; lia|]. cbn [map list_sum fold_right length] in *. unfold list_sum in *. cbn [fold_right] in *. lia.
  - induction l as [|[y x] l IH]; [cbn; lia|]. cbn [map list_sum fold_right length] in *. unfold list_sum in *. cbn [fold_right] in *. lia.
Qed.
Lemma set_link s F v a A vv b B j k : inv s F -> on s F v a A -> on s F vv b B -> reads F b j -> end_ok F b -> key_at F b k ->
  room s B (88 + icost (k, j)) -> forall fuel, (S (jsteps j) <= fuel)%nat -> (length (items j) <= fuel)%nat ->
  exists s' F', zj_Set fuel v vv s = Ok (true, s') /\ edits none none none s F a j s' F' /\ (last_link s' F' a <-> items j = []).
Proof.
  intros I Hv Hb Rb Eb Kb Rm fuel Hf Hf2. assert (Da : F a <> None) by (destruct Hv as (_ & _ & [K|(x & K & D)]); congruence).
  destruct (set_exact s F v a A vv b B j k I Hv Hb Da Rb Kb Rm fuel Hf Hf2) as (s' & F' & H & Ed & New & _).
  exists s', F'. split; auto. split; auto. pose proof (ed_inv _ _ _ _ _ _ _ _ _ Ed) as I'. pose proof (rw_at _ _ _ _ _ _ (ed_draw _ _ _ _ _ _ _ _ _ Ed)) as R'.
  split.
  - intro L. destruct (items j) as [|it its] eqn:Ej; auto. exfalso. assert (Nj : items j <> []) by congruence. clear Ej.
    destruct (cont_of F b j Rb Nj) as (fb & ob & kids & Fb & Vb & Nk). destruct (cont_of F' a j R' Nj) as (fa' & ob' & kids' & Fa' & Va' & Nk').
    destruct (i_rep _ _ I b fb Fb) as (nb & Enb & Rpb); [auto|]. destruct (i_rep _ _ I' a fa' Fa') as (na' & Ena' & _); [auto|].
    pose proof (L fa' ob' kids' na' Fa' Va' Nk' Ena') as L'. pose proof (Eb fb ob kids Fb Vb Nk) as Le.
    destruct (last_error kids) as [e|] eqn:Ek; [|destruct kids using rev_ind; [congruence|rewrite last_error_snoc in Ek; discriminate]].
    pose proof (r_end _ _ _ Rpb e Le) as Ee.
    assert (Fe : F e <> None).
    { destruct (chain_in _ _ _ _ _ (proj1 (proj1 (i_dom _ _ I b fb Fb) ob kids Vb)) (last_in _ _ Ek)) as (fx & Fx & _). congruence. }
    assert (En : nEnd na' = nEnd nb).
    { destruct Kb as (fb' & Fb' & Kb). assert (fb' = fb) by congruence. subst fb'.
      destruct (copy_wp s F vv b B j fuel fb I Hb Fb Rb) as (r & s1 & E & h & F1 & c & -> & Bh & C & Sh & So & X); auto.
      { unfold room in Rm. rewrite Kb. lia. }
      unfold zj_Set in H. apply run_bind in H as (cp & s1' & H1 & H). rewrite E in H1. injection H1 as <- <-.
      apply run_bind in H as (y & s2 & H1 & H). unfold getVal, get in H1. rewrite Sh in H1. injection H1 as <- <-. cbn [vN] in H.
      assert (Hold : forall u x, svals s u = Some x -> svals s1 u = Some x) by (intros u x Hx; apply (x_vals _ _ _ _ _ X); auto).
      apply run_bind in H as (x & sy & Hy & H). eapply run_val in Hy as [Ex Es]; [|apply Hold, Hv]. subst x sy. cbn [vN vA] in H.
      apply run_bind in H as (z & sy & Hy & H). injection Hy as <- <-. cbv iota in H.
      apply run_bind in H as (a' & sy & Hy & H). injection Hy as <- <-.
      apply run_bind in H as (c' & sy & Hy & H). injection Hy as <- <-.
      apply run_bind in H as (y & sy & Hy & H). eapply run_val in Hy as [Ex Es]; [|apply Hold, Hb]. subst y sy. cbn [vN vA] in H.
      apply run_bind in H as (b' & sy & Hy & H). injection Hy as <- <-.
      apply run_bind in H as (u & s3 & H2 & H). apply run_ret in H as [_ <-].
      destruct (F a) as [fa|] eqn:Fa; [|congruence]. destruct (i_rep _ _ I a fa Fa) as (na & Ena & _); [auto|].
      destruct (cp_root _ _ _ _ _ _ _ C) as (fbx & fc & E1 & E2 & E3 & E4 & E5 & E6).
      destruct (i_rep _ _ (cp_inv _ _ _ _ _ _ _ C) c fc E2) as (nc & Enc & Rc); [auto|].
      assert (Nac : a <> c) by (apply (copied_neq s F b j s1 F1 c a I C); congruence).
      assert (Enb1 : snodes s1 b = Some nb) by (apply (x_nodes _ _ _ _ _ X); auto).
      assert (Ena1 : snodes s1 a = Some na) by (apply (x_nodes _ _ _ _ _ X); auto).
      destruct (take_eff fuel a c b s1 u s3 na nc nb H2 Nac Ena1 Enc Enb1) as (_ & na2 & Ena2 & _ & _ & Eend).
      assert (na2 = na') by congruence. subst na2.
      destruct (cont_of F1 c j (cp_reads _ _ _ _ _ _ _ C) Nj) as (fc' & obc & kc & Fc' & Vc & _). assert (fc' = fc) by congruence. subst fc'.
      pose proof (r_val _ _ _ Rc) as Vr. rewrite Vc in Vr. destruct Vr as (Vr & _). eapply Eend; [exact Vr|]. now destruct obc. }
    rewrite L', Ee in En. destruct (last_error kids') as [e'|] eqn:Ek'; [|discriminate]. injection En as ->.
    apply Fe, New. exists fa', ob', kids', e. split; auto. split; auto. split; [exact (last_in _ _ Ek')|constructor].
  - intros Ej f ob kids n Fa Va Nk _. exfalso. apply Nk. pose proof (reads_cont_len F' a j f ob kids R' Fa Va) as L. rewrite Ej in L. now destruct kids.
Qed.
(** Whether one can append to a list that was assigned. *)
Theorem set_append_array s F v a A vv b B l k : inv s F -> on s F v a A -> on s F vv b B -> reads F b (JArr l) -> end_ok F b -> key_at F b k ->
  room s B (88 + icost (k, JArr l)) -> lenN l + 1 < two32 -> forall fuel, (S (jsteps (JArr l)) <= fuel)%nat ->
  exists s' F', zj_Set fuel v vv s = Ok (true, s') /\ edits none none none s F a (JArr l) s' F' /\
    (forall u c C jc kc fuel', on s' F' u c C -> reads F' c jc -> key_at F' c kc -> room s' C (88 + icost (kc, jc)) -> (S (jsteps jc) <= fuel')%nat ->
     ((exists s2 F2, zj_ArrayAdd fuel' v u s' = Ok (true, s2) /\ inv s2 F2 /\ reads F2 a (JArr (l ++ [jc]))) <-> l = [])).
Proof.
  intros I Hv Hb Rb Eb Kb Rm Ll fuel Hf.
  destruct (set_link s F v a A vv b B (JArr l) k I Hv Hb Rb Eb Kb Rm fuel Hf) as (s' & F' & H & Ed & L).
  { pose proof (steps_items (JArr l)). lia. }
  exists s', F'. split; auto. split; auto. intros u c C jc kc fuel' Hu Rc Kc Rm' Hf'.
  pose proof (ed_inv _ _ _ _ _ _ _ _ _ Ed) as I'. pose proof (rw_at _ _ _ _ _ _ (ed_draw _ _ _ _ _ _ _ _ _ Ed)) as R'.
  assert (Hv' : on s' F' v a A) by (apply (ed_handles _ _ _ _ _ _ _ _ _ Ed); auto).
  rewrite (arrayAdd_iff s' F' v a A u c C l jc kc I' Hv' Hu R' Ll Rc Kc Rm' fuel' Hf'), L.
  cbn [items]. split; intro E; [now apply map_eq_nil in E|now rewrite E].
Qed.
Theorem set_append_object s F v a A vv b B l k : inv s F -> on s F v a A -> on s F vv b B -> reads F b (JObj l) -> end_ok F b -> key_at F b k ->
  room s B (88 + icost (k, JObj l)) -> lenN l + 1 < two32 -> forall fuel, (S (jsteps (JObj l)) <= fuel)%nat ->
  exists s' F', zj_Set fuel v vv s = Ok (true, s') /\ edits none none none s F a (JObj l) s' F' /\
    (forall u c C jc kc fuel', on s' F' u c C -> reads F' c jc -> key_at F' c (Some kc) -> room s' C (88 + icost (Some kc, jc)) -> (S (jsteps jc) <= fuel')%nat ->
     ((exists s2 F2, zj_ObjAdd fuel' v u s' = Ok (true, s2) /\ inv s2 F2 /\ reads F2 a (JObj (l ++ [(kc, jc)]))) <-> l = [])).
Proof.
  intros I Hv Hb Rb Eb Kb Rm Ll fuel Hf.
  destruct (set_link s F v a A vv b B (JObj l) k I Hv Hb Rb Eb Kb Rm fuel Hf) as (s' & F' & H & Ed & L).
  { pose proof (steps_items (JObj l)). lia. }
  exists s', F'. split; auto. split; auto. intros u c C jc kc fuel' Hu Rc Kc Rm' Hf'.
  pose proof (ed_inv _ _ _ _ _ _ _ _ _ Ed) as I'. pose proof (rw_at _ _ _ _ _ _ (ed_draw _ _ _ _ _ _ _ _ _ Ed)) as R'.
  assert (Hv' : on s' F' v a A) by (apply (ed_handles _ _ _ _ _ _ _ _ _ Ed); auto).
  rewrite (objAdd_iff s' F' v a A u c C l jc kc I' Hv' Hu R' Ll Rc Kc Rm' fuel' Hf'), L.
  cbn [items]. split; intro E; [now apply map_eq_nil in E|now rewrite E].
Qed.

(** ** What a removal breaks *)
Lemma hd_nth {X} (l : list X) a r c : nth_error (l ++ a :: r) (S (length l)) = Some c -> hd_error r = Some c.
Proof. rewrite nth_error_app2 by lia. replace (S (length l) - length l)%nat with 1%nat by lia. now destruct r. Qed.
Lemma moved_links s F v a A p i jp : inv s F -> on s F v a A -> kid_at F p i a -> reads F p jp -> prev_ok F p i ->
  exists s' F', zj_Move v s = Ok (true, s') /\ edits none none none s F p (jdel i jp) s' F' /\ (forall B, usedA s' B <= usedA s B) /\
    ((1 <= i)%nat -> (forall c, kid_at F p (S i) c -> kid_at F' p i c /\ ~ prev_ok F' p i) /\
       (S i = length (items jp) -> ~ last_link s' F' p)).
Proof.
  intros I H Hk R P. pose proof (i_dom _ _ I) as W. destruct (kid_removed F p i a jp W Hk R P) as (F1 & k & ja & Rm & Ch & R1 & R2 & R3 & E & T).
  destruct (move_wp s F v a A F1 I H Rm) as (r & s' & Er & -> & I' & M & X).
  exists s', F1. split; auto. split; [|split].
  - eapply edits_intro; eauto.
    + intros x f Hx _ _. eapply removed_keys; eauto.
    + intros u x _ Hu. eapply (x_vals _ _ _ _ _ X); eauto.
  - intro B. pose proof (x_used _ _ _ _ _ X B) as U. unfold zeroc in U. lia.
  - intro Hi. destruct Hk as (fp & ob & kids & Fp & Vp & Hn). destruct (split_at kids i a Hn) as (l & rr & -> & El).
    assert (Ia : In a (l ++ a :: rr)) by (apply in_app_iff; right; now left).
    destruct (child_par F p a W) as (fa & Fa & Pa); [exists fp, ob, (l ++ a :: rr); auto|].
    assert (Nap : a <> p) by (intros ->; exact (not_own_kid F p jp fp ob _ R Fp Vp Ia)).
    assert (Nl : l <> []) by (intros ->; cbn in El; lia).
    inversion Rm as [f E1 E2|f p0 fp0 ob0 l0 r0 E1 E2 E3 E4 E5 E6]; [congruence|]. subst F1.
    assert (f = fa) by congruence. subst f. assert (p0 = p) by congruence. subst p0. assert (fp0 = fp) by congruence. subst fp0.
    assert (ob0 = ob) by congruence. subst ob0.
    assert (K : l0 = l /\ r0 = rr).
    { assert (Ek : l0 ++ a :: r0 = l ++ a :: rr) by congruence. assert (ND : NoDup (l ++ a :: rr)) by (eapply chain_NoDup; apply (proj1 (W p fp Fp) ob _ Vp)).
      clear - Ek ND. revert l0 Ek. induction l as [|x l IH]; intros [|y l0] Ek; cbn in *.
      - injection Ek as ->. auto.
      - injection Ek as -> <-. inversion ND; subst. exfalso. apply H1, in_app_iff. right. now left.
      - injection Ek as -> ->. inversion ND; subst. exfalso. apply H1, in_app_iff. right. now left.
      - injection Ek as -> Ek. inversion ND; subst. destruct (IH H2 l0 Ek). split; congruence. }
    destruct K as [-> ->]. assert (Up : unlink F a p fa fp ob l rr p = Some (shrunk fp ob l rr)) by (eapply unlink_p; eauto).
    split.
    + intros c (fp1 & ob1 & kids1 & F1 & V1 & N1). assert (fp1 = fp) by congruence. subst fp1.
      assert (kids1 = l ++ a :: rr) by congruence. subst kids1. rewrite <- El in N1. apply hd_nth in N1.
      destruct rr as [|c' rr]; [discriminate|]. injection N1 as ->.
      assert (Nth : nth_error (l ++ c :: rr) i = Some c) by (rewrite <- El, nth_error_app2, Nat.sub_diag; auto).
      split; [exists (shrunk fp ob l (c :: rr)), ob, (l ++ c :: rr); auto|]. intro Po.
      assert (Fc : exists fc, F c = Some fc).
      { destruct (chain_in _ _ _ _ _ (proj1 (proj1 (W p fp Fp) ob _ Vp)) (proj2 (in_app_iff l (a :: c :: rr) c) (or_intror (or_intror (or_introl eq_refl))))) as (fx & Fx & _). eauto. }
      destruct Fc as (fc & Fc). assert (Uc : unlink F a p fa fp ob l (c :: rr) c = Some (set_prev None fc)) by (eapply unlink_succ; eauto).
      specialize (Po _ ob (l ++ c :: rr) c _ Up eq_refl Nth Uc). cbn in Po. rewrite firstn_cut in Po by auto.
      destruct l as [|x l] using rev_ind; [congruence|]. rewrite last_error_snoc in Po. discriminate.
    + intros Len L. assert (rr = []).
      { rewrite (items_kids _ _ _ _ _ _ R Fp Vp), app_length in Len. cbn in Len. destruct rr; auto. cbn in Len. lia. }
      subst rr. destruct (i_rep _ _ I' p _ Up) as (np' & Enp' & _); [auto|].
      specialize (L _ ob (l ++ []) np' Up eq_refl). rewrite app_nil_r in L. specialize (L Nl Enp').
      destruct (i_rep _ _ I a fa Fa) as (n & En & Rp); [auto|]. pose proof (r_par _ _ _ Rp) as Ef. rewrite Pa in Ef. cbn in Ef.
      assert (Xn : nNext n = Null).
      { rewrite (r_next _ _ _ Rp). destruct (inv_list s F p fp ob _ I Fp Vp) as (np & Enp & Mp & _).
        destruct (mlist_at s l _ a [] Mp) as (n0 & En0 & Mr). assert (n0 = n) by congruence. subst n0. cbn in Mr. rewrite <- (r_next _ _ _ Rp). exact Mr. }
      destruct (i_rep _ _ I p fp Fp) as (np & Enp & _); [auto|].
      unfold zj_Move in Er. apply run_bind in Er as (x & s1 & H1 & Er). destruct H as (Sv & _). unfold getVal, get in H1. rewrite Sv in H1. injection H1 as <- <-.
      cbn [vN] in Er. apply run_bind in Er as (z & s1 & H1 & Er). injection H1 as <- <-. cbv iota in Er.
      apply run_bind in Er as (a' & s1 & H1 & Er). injection H1 as <- <-. apply run_bind in Er as (u & s2 & H1 & Er). apply run_ret in Er as [_ <-].
      destruct (move_links s a n p s2 u En Ef H1) as (_ & Lk). destruct (Lk p np (not_eq_sym Nap) Enp) as (np2 & Enp2 & _ & _ & Ee).
      assert (np2 = np') by congruence. subst np2. rewrite Xn, addr_eqb_refl, L in Ee.
      destruct l as [|y l] using rev_ind; [congruence|]. rewrite last_error_snoc in Ee. discriminate.
Qed.
(** After the removal of a child that is not the first one, its next sibling cannot be
    removed, and if there was none, nothing can be appended. *)
Theorem move_then_next s F v a A p i jp u c B : inv s F -> on s F v a A -> kid_at F p (S i) a -> reads F p jp -> prev_ok F p (S i) ->
  on s F u c B -> kid_at F p (S (S i)) c ->
  exists s' F', zj_Move v s = Ok (true, s') /\ edits none none none s F p (jdel (S i) jp) s' F' /\
    ~ exists s2 F2, zj_Move u s' = Ok (true, s2) /\ inv s2 F2 /\ reads F2 p (jdel (S i) (jdel (S i) jp)).
Proof.
  intros I Hv Hk R P Hu Kc. destruct (moved_links s F v a A p (S i) jp I Hv Hk R P) as (s' & F' & H & Ed & _ & K).
  destruct (K ltac:(lia)) as [K1 _]. destruct (K1 c Kc) as [Kc' NP]. exists s', F'. split; auto. split; auto.
  pose proof (ed_inv _ _ _ _ _ _ _ _ _ Ed) as I'. pose proof (rw_at _ _ _ _ _ _ (ed_draw _ _ _ _ _ _ _ _ _ Ed)) as R'.
  rewrite (move_iff s' F' u c B p (S i) _ I'); auto. apply (ed_handles _ _ _ _ _ _ _ _ _ Ed); auto.
Qed.
Lemma del_links s F v a A l i : inv s F -> on s F v a A -> reads F a (JArr l) -> i < lenN l -> i < two32 -> room s A 16 -> prev_ok F a (N.to_nat i) ->
  forall fuel, (length l <= fuel)%nat ->
  exists s' F', zj_ArrayDel fuel v i s = Ok (true, s') /\ edits none none none s F a (JArr (remove_nth (N.to_nat i) l)) s' F' /\
    (forall B, usedA s' B <= usedA s B + at_ A 16 B) /\
    (1 <= i -> (i + 1 < lenN l -> ~ prev_ok F' a (N.to_nat i)) /\ (i + 1 = lenN l -> ~ last_link s' F' a)).
Proof.
  intros I Hv Ra Lt Hi Rm P fuel Hf. destruct (arr_kids F a l Ra) as (fa & kids & it & Fa & Va & Rl & Eit & Len).
  destruct (arrayGet_wp s F v A a fa I Hv Fa Rm fuel kids i Va Hi ltac:(lia)) as (d & s1 & E & K).
  destruct (nth_error kids (N.to_nat i)) as [c|] eqn:En; [|apply nth_error_None in En; unfold lenN in *; lia].
  destruct K as (h & -> & Bh & U & X). assert (I1 : inv s1 F) by (eapply ext_inv; eauto).
  assert (Kc : kid_at F a (N.to_nat i) c) by (exists fa, false, kids; auto).
  assert (Hh : on s1 F h c A).
  { destruct Hv as (_ & [Al NA] & _). split; [apply U|]. split; [split; auto; now apply (x_alive _ _ _ _ _ X)|]. right. exists c. split; auto.
    apply nth_error_In in En. destruct (chain_in _ _ _ _ _ (proj1 (proj1 (i_dom _ _ I a fa Fa) false kids Va)) En) as (fc & Fc & _). congruence. }
  destruct (moved_links s1 F h c A a (N.to_nat i) (JArr l) I1 Hh Kc Ra P) as (s' & F' & H & Ed & Us & K).
  exists s', F'. split; [unfold zj_ArrayDel, bind; rewrite E; exact H|]. split.
  - destruct Ed as [D1 D2 D3]. constructor; auto. intros w x B Nw Hw ND. apply D3; auto. eapply handle_ext; eauto.
  - split; [intro B; specialize (Us B); pose proof (x_used _ _ _ _ _ X B) as U2; lia|].
    intro I0. destruct K as [K1 K2]; [lia|]. split.
    + intro L1. destruct (nth_error kids (S (N.to_nat i))) as [c'|] eqn:En'; [|apply nth_error_None in En'; unfold lenN in *; lia].
      apply (K1 c'). exists fa, false, kids. auto.
    + intro L1. apply K2. cbn [items]. rewrite map_length. unfold lenN in L1. lia.
Qed.
Theorem arrayDel_twice s F v a A l i : inv s F -> on s F v a A -> reads F a (JArr l) -> 1 <= i -> i + 1 < lenN l -> i < two32 -> room s A 32 ->
  prev_ok F a (N.to_nat i) -> forall fuel, (length l <= fuel)%nat ->
  exists s' F', zj_ArrayDel fuel v i s = Ok (true, s') /\ edits none none none s F a (JArr (remove_nth (N.to_nat i) l)) s' F' /\
    ~ exists s2 F2, zj_ArrayDel fuel v i s' = Ok (true, s2) /\ inv s2 F2 /\ reads F2 a (JArr (remove_nth (N.to_nat i) (remove_nth (N.to_nat i) l))).
Proof.
  intros I Hv Ra I1 Lt Hi Rm P fuel Hf.
  destruct (del_links s F v a A l i I Hv Ra ltac:(lia) Hi ltac:(unfold room in *; lia) P fuel Hf) as (s' & F' & H & Ed & Us & K).
  exists s', F'. split; auto. split; auto. destruct (K I1) as [K1 _].
  pose proof (ed_inv _ _ _ _ _ _ _ _ _ Ed) as I'. pose proof (rw_at _ _ _ _ _ _ (ed_draw _ _ _ _ _ _ _ _ _ Ed)) as R'.
  assert (Len : S (length (remove_nth (N.to_nat i) l)) = length l).
  { unfold remove_nth. rewrite app_length, firstn_length, skipn_length. unfold lenN in *. lia. }
  rewrite (arrayDel_iff s' F' v a A _ i I'); auto.
  - apply (ed_handles _ _ _ _ _ _ _ _ _ Ed); auto.
  - unfold lenN in *. lia.
  - specialize (Us A). unfold at_ in Us. rewrite N.eqb_refl in Us. unfold room in *. lia.
  - lia.
Qed.
Theorem arrayDel_then_add s F v a A l i : inv s F -> on s F v a A -> reads F a (JArr l) -> 1 <= i -> i + 1 = lenN l -> room s A 16 ->
  prev_ok F a (N.to_nat i) -> forall fuel, (length l <= fuel)%nat ->
  exists s' F', zj_ArrayDel fuel v i s = Ok (true, s') /\ edits none none none s F a (JArr (remove_nth (N.to_nat i) l)) s' F' /\
    forall u c C jc kc fuel', on s' F' u c C -> reads F' c jc -> key_at F' c kc -> room s' C (88 + icost (kc, jc)) -> (S (jsteps jc) <= fuel')%nat ->
    ~ exists s2 F2, zj_ArrayAdd fuel' v u s' = Ok (true, s2) /\ inv s2 F2 /\ reads F2 a (JArr (remove_nth (N.to_nat i) l ++ [jc])).
Proof.
  intros I Hv Ra I1 Lt Rm P fuel Hf.
  assert (Ll : lenN l < two32).
  { destruct (arr_kids F a l Ra) as (fa & kids & it & Fa & Va & Rl & Eit & Len). pose proof (proj2 (proj1 (i_dom _ _ I a fa Fa) false kids Va)) as K. unfold lenN in *. lia. }
  assert (Hi : i < two32) by lia.
  destruct (del_links s F v a A l i I Hv Ra ltac:(lia) Hi Rm P fuel Hf) as (s' & F' & H & Ed & Us & K).
  exists s', F'. split; auto. split; auto. destruct (K I1) as [_ K2]. intros u c C jc kc fuel' Hu Rc Kc Rm' Hf'.
  pose proof (ed_inv _ _ _ _ _ _ _ _ _ Ed) as I'. pose proof (rw_at _ _ _ _ _ _ (ed_draw _ _ _ _ _ _ _ _ _ Ed)) as R'.
  assert (Len : S (length (remove_nth (N.to_nat i) l)) = length l).
  { unfold remove_nth. rewrite app_length, firstn_length, skipn_length. unfold lenN in *. lia. }
  rewrite (arrayAdd_iff s' F' v a A u c C _ jc kc I'); eauto.
  - apply (ed_handles _ _ _ _ _ _ _ _ _ Ed); auto.
  - unfold lenN in *. lia.
Qed.
End WithVol.
