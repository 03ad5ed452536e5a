(** Programs over the beta header with several groups of allocators and releases: the
    model of the code answers what the reference answers.  The proofs follow HistWorld.v. *)
From Verif Require Import Base Spec Lex LexProofs Alloc AllocProofs Mem MemProofs Api PureParse Dom Effect Steps CacheProofs Start Vocab MoveProofs Double Scene
  Hist HistRun HistForest HistSim HistStep HistAll HistCache HistJudge HistMany HistWorld Beta BetaProofs BetaCalls BetaHist BetaStep BetaSim Leak BetaLeak.

(** ** Reference *)
(** The world of HistMany.v and what the getters of each group remember. *)
Definition zref := (world * (nat -> list kache))%type.
Definition zrstart : zref := (wstart, fun _ => []).
Definition zwstep (jd : judge) (e : event) (Z : zref) : option (answer * zref) :=
  let '(W, Ks) := Z in
  match e with
  | Release g => Some (Done, (mkW (updn (wr W) g rstart) (wc W) (wsure W) (wdead W || inb g (wc W)), updn Ks g []))
  | Do g c =>
      match brstep jd c (wr W g, Ks g) with
      | None => None
      | Some (x, (R', K')) =>
          if cneed c =? 0 then Some (x, (mkW (updn (wr W) g R') (wc W) (wsure W) (wdead W), updn Ks g K'))
          else if negb (wdead W) && forallb (fun j => Nat.eqb j g || is_some (scratch (wr W j) (cneed c))) (wc W)
          then Some (x, (mkW (updn (fun j => if inb j (wc W) then charge (wr W j) (cneed c) else wr W j) g R')
                             (if wsure W then wc W else g :: wc W) (wsure W || sets_scratch c) false, updn Ks g K'))
          else None
      end
  end.
Fixpoint zwrun (jd : judge) (es : list event) (Z : zref) : option (list answer * zref) :=
  match es with
  | [] => Some ([], Z)
  | e :: r =>
      match zwstep jd e Z with
      | None => None
      | Some (x, Z1) => match zwrun jd r Z1 with None => None | Some (xs, Z2) => Some (x :: xs, Z2) end
      end
  end.

(** ** What calls leave alone *)
#[local] Hint Resolve kc_alloc kc_store kc_load kc_free kc_buf kc_ufree kc_putNode kc_putVal kc_putZ kc_parse_loop kc_stringify_loop kc_nth_node kc_copy_loop kc_adopt : keeps.
Lemma bstep_keeps fuel c E B : cneed c = 0 -> keepsC (bstep fuel c E B).
Proof.
  intro H. destruct c; cbn [bstep]; try (keeps; fail).
  - destruct k; cbn [cneed] in H; try (exfalso; clear - H; lia); destruct num; keeps.
  - destruct k; cbn [cneed] in H; try (exfalso; clear - H; lia); keeps.
Qed.
Lemma bstep_env fuel c E B s xb s' : cneed c <> 0 -> bstep fuel c E B s = Ok (xb, s') -> snd (fst xb) = E.
Proof.
  intros H K. assert (W : forall X (f : X -> answer) m s1, with_envB E f m s1 = Ok (xb, s') -> snd (fst xb) = E).
  { intros X f m s1 Q. unfold with_envB, bind in Q. destruct (m s1) as [[x s2]|e]; [|discriminate]. now injection Q as <- <-. }
  destruct c; try (now elim H); cbn [bstep] in K; try (destruct fast; discriminate); try discriminate; unfold bind at 1 in K; destruct (hof E h s) as [[v s1]|e]; try discriminate; eauto.
Qed.
Lemma sc_if_set B v m : setsC m -> setsC (if_set B v m).
Proof. intro H. unfold if_set. apply sc_left; auto. intro; keeps. Qed.
Lemma bstep_sets fuel num k h t E B : k = KLen \/ k = KLenFast -> setsC (bstep fuel (CSetText num k h t) E B).
Proof.
  intro D. cbn [bstep]. apply sc_right. intro v. unfold with_envB. apply sc_left; [|intro; keeps].
  destruct D as [-> | ->]; cbn [kept_kind kbuf pass]; unfold lend, keep; apply sc_right; intro p.
  - apply sc_left; [|intro; keeps].
    replace (zset_text_call B num KLen v p (lenN t)) with (if_set B v (set_text_len (if num then zj_checkNum else zj_checkStr) (if num then TNumber else TString) v p (lenN t)))
      by (destruct num; reflexivity).
    apply sc_if_set. unfold set_text_len. apply sc_right. intro x. apply sc_left; [apply check_len_sets|]. intro ok. keeps.
  - replace (zset_text_call B num KLenFast v p (lenN t)) with (if_set B v (set_text_len_fast (if num then zj_checkNum else zj_checkStr) (if num then TNumber else TString) v p (lenN t)))
      by (destruct num; reflexivity).
    apply sc_if_set. unfold set_text_len_fast. apply sc_right. intro x. apply sc_left; [apply check_len_sets|]. intro ok. keeps.
Qed.

(** The caches of value objects the group does not have. *)
Lemma gi_bind2 X Y (m : M X) (f : X -> M Y) P Q : gives m P -> (forall x, P x -> gives (f x) Q) -> gives (bind m f) Q.
Proof. intros H K s y s' E. unfold bind in E. destruct (m s) as [[x s1]|e] eqn:E1; [|discriminate]. eapply K; eauto. Qed.
Lemma gi_fail X e (Q : X -> Prop) : gives (fail e) Q.
Proof. intros s x s' H. discriminate H. Qed.
Lemma gi_hof X E h (f : addr -> M X) Q : (forall v, In v (eh E) -> gives (f v) Q) -> gives (bind (hof E h) f) Q.
Proof.
  intro H. apply (gi_bind2 _ _ _ _ (fun v => In v (eh E))); auto. intros s v s' K. unfold hof in K. destruct (nth_error (eh E) h) as [a|] eqn:Ea; [|discriminate].
  injection K as <- _. eapply nth_error_In; eauto.
Qed.
Lemma gi_lend X t (m : addr -> M X) Q : (forall p, gives (m p) Q) -> gives (lend t m) Q.
Proof. intro H. unfold lend. apply gi_bind. intro p. eapply gi_bind2; [apply H|]. intros x Hx. apply gi_bind. intros _. now apply gi_ret. Qed.
Lemma gi_keep X t (m : addr -> M X) Q : (forall p, gives (m p) Q) -> gives (keep t m) Q.
Proof. intro H. unfold keep. apply gi_bind. exact H. Qed.
Lemma gi_pass X k t (m : addr -> M X) Q : (forall p, gives (m p) Q) -> gives (pass k t m) Q.
Proof. destruct k; [apply gi_keep|apply gi_lend]. Qed.
(** [near B v]: only the cache of [v] may differ from [B]. *)
Definition near {X} (B : bmem) (v : addr) (xb : X * bmem) : Prop := forall y, y <> v -> snd xb y = B y.
Lemma near_same X B v (x : X) : near B v (x, B).
Proof. intros y _. reflexivity. Qed.
Lemma near_set X B v (x : X) c : near B v (x, setC B v c).
Proof. intros y Hy. cbn [snd]. now apply setC_neq. Qed.
Lemma gi_clearing X B v (m : M X) : gives (clearing B v m) (near B v).
Proof. unfold clearing. apply gi_bind. intro r. apply gi_ret, near_set. Qed.
Lemma gi_if_set B v m : gives (if_set B v m) (near B v).
Proof. unfold if_set. apply gi_bind. intro r. apply gi_ret. destruct r; [apply near_set|apply near_same]. Qed.
Definition nearO {X} (B : bmem) (v : addr) (r : option (X * bmem)) : Prop := match r with Some (x, B') => near B v (x, B') | None => True end.
Lemma near_or X B v (r : option (X * bmem)) : nearO B v r -> near B v (or_none B r).
Proof. destruct r as [[x B']|]; cbn; auto. intros _. apply near_same. Qed.
Ltac givesO :=
  match goal with
  | |- gives (ret _) _ => apply gi_ret; first [exact Logic.I | apply near_same | apply near_set]
  | |- gives (fail _) _ => apply gi_fail
  | |- gives (bind _ _) _ => apply gi_bind; intro
  | |- gives (match ?x with _ => _ end) _ => destruct x
  | |- gives ?m _ => let h := heads m in unfold h; cbv beta zeta
  end.
Lemma gi_get_text t B v : gives (z_get_text t B v) (near B v).
Proof. unfold z_get_text. apply (gi_bind2 _ _ _ _ (nearO B v)); [repeat givesO|]. intros r Hr. now apply gi_ret, near_or. Qed.
Lemma gi_GetUnEscapeString B v : gives (z_ValueGetUnEscapeString B v) (near B v).
Proof. unfold z_ValueGetUnEscapeString. apply (gi_bind2 _ _ _ _ (nearO B v)); [repeat givesO|]. intros r Hr. now apply gi_ret, near_or. Qed.
Lemma gi_GetNum B v : gives (z_ValueGetNum B v) (near B v).
Proof. unfold z_ValueGetNum. apply (gi_bind2 _ _ _ _ (nearO B v)); [repeat givesO|]. intros r Hr. now apply gi_ret, near_or. Qed.
Lemma gi_GetKey B v : gives (z_ValueGetKey B v) (near B v).
Proof. unfold z_ValueGetKey. apply (gi_bind2 _ _ _ _ (nearO B v)); [repeat givesO|]. intros r Hr. now apply gi_ret, near_or. Qed.
Lemma gi_GetUnEscapeKey B v : gives (z_ValueGetUnEscapeKey B v) (near B v).
Proof. unfold z_ValueGetUnEscapeKey. apply (gi_bind2 _ _ _ _ (nearO B v)); [repeat givesO|]. intros r Hr. now apply gi_ret, near_or. Qed.
Definition far (E : env) (B : bmem) (xb : (answer * env) * bmem) : Prop :=
  forall y, ~ In y (eh E) -> ~ In y (eh (snd (fst xb))) -> snd xb y = B y.
Lemma far_env X E B v (f : X -> answer) m : In v (eh E) -> gives m (near B v) -> gives (with_envB E f m) (far E B).
Proof.
  intros Hv H. unfold with_envB. eapply gi_bind2; [exact H|]. intros xb Hx. apply gi_ret. intros y N1 _. cbn [snd]. apply Hx. intros ->. contradiction.
Qed.
Lemma far_text E B v m : In v (eh E) -> gives m (near B v) -> gives (out_textB E m) (far E B).
Proof.
  intros Hv H. unfold out_textB. eapply gi_bind2; [exact H|]. intros xb Hx. apply gi_bind. intro a. apply gi_ret. intros y N1 _. cbn [snd]. apply Hx. intros ->. contradiction.
Qed.
Lemma far_num E B v m : In v (eh E) -> gives m (near B v) -> gives (out_numB E m) (far E B).
Proof.
  intros Hv H. unfold out_numB. eapply gi_bind2; [exact H|]. intros xb Hx. apply gi_bind. intro a. apply gi_ret. intros y N1 _. cbn [snd]. apply Hx. intros ->. contradiction.
Qed.
Lemma far_value E B m : gives m (fun rb => snd rb = born B (fst rb)) -> gives (out_valueB E m) (far E B).
Proof.
  intro H. unfold out_valueB. eapply gi_bind2; [exact H|]. intros [r B'] Hx. cbn [fst snd] in *. subst B'. apply gi_ret. intros y N1 N2. destruct r as [v|]; [|reflexivity].
  cbn [fst snd out_value eh born] in *. apply setC_neq. intros ->. apply N2. apply in_or_app. right. now left.
Qed.
Lemma far_same E B (m : M (answer * env)) : gives (same B m) (far E B).
Proof. intros s xb s' H. unfold same, bind in H. destruct (m s) as [[x s1]|e]; [|discriminate]. injection H as <- <-. intros y _ _. reflexivity. Qed.
Lemma gi_giving B m : gives (giving B m) (fun rb => snd rb = born B (fst rb)).
Proof. unfold giving. apply gi_bind. intro r. apply gi_ret. reflexivity. Qed.
Lemma near_also X B v (m : M X) : gives (same B m) (near B v).
Proof. unfold same. apply gi_bind. intro r. apply gi_ret, near_same. Qed.
Lemma bstep_far fuel c E B : gives (bstep fuel c E B) (far E B).
Proof.
  destruct c; cbn [bstep]; try apply far_same; try apply gi_fail.
  - apply gi_bind. intro a. unfold z_ValueNew. apply gi_bind2 with (P := fun vb => snd vb = z_ValueInitCache B (fst vb)).
    + apply gi_bind. intro v. apply gi_ret. reflexivity.
    + intros vb Hvb. apply gi_ret. intros y N1 N2. cbn [fst snd out_value eh] in *. rewrite Hvb. apply setC_neq. intros ->. apply N2. apply in_or_app. right. now left.
  - apply gi_hof. intros v Hv. apply (far_env _ _ _ v); auto. apply gi_keep. intro p. destruct k; apply gi_clearing.
  - apply gi_hof. intros v Hv. apply (far_env _ _ _ v); auto. apply gi_clearing.
  - apply gi_hof. intros v Hv. apply (far_env _ _ _ v); auto. apply gi_clearing.
  - apply gi_hof. intros v Hv. apply (far_env _ _ _ v); auto. destruct ob; apply gi_clearing.
  - apply gi_hof. intros v Hv. apply (far_env _ _ _ v); auto. apply gi_pass. intro p. destruct num, k; apply gi_if_set.
  - apply gi_hof. intros v Hv. apply (far_env _ _ _ v); auto. apply gi_if_set.
  - apply gi_hof. intros v Hv. apply (far_env _ _ _ v); auto. apply gi_pass. intro p. destruct k; apply gi_if_set.
  - destruct fast; [apply far_same|]. apply gi_hof. intros v Hv. apply (far_text _ _ v); auto. destruct num; apply gi_get_text.
  - apply gi_hof. intros v Hv. apply (far_text _ _ v); auto. apply gi_GetUnEscapeString.
  - apply gi_hof. intros v Hv. apply (far_num _ _ v); auto. apply gi_GetNum.
  - destruct fast; [apply far_same|]. apply gi_hof. intros v Hv. apply (far_text _ _ v); auto. apply gi_GetKey.
  - apply gi_hof. intros v Hv. apply (far_text _ _ v); auto. apply gi_GetUnEscapeKey.
  - apply gi_hof. intros v Hv. apply far_value. destruct len; apply gi_lend; intro p; apply gi_giving.
  - apply gi_hof. intros v Hv. apply far_value. apply gi_giving.
  - apply gi_hof. intros v Hv. apply far_value. apply gi_giving.
  - apply gi_hof. intros v Hv. apply far_value. apply gi_giving.
  - apply gi_hof. intros v Hv. apply far_value. apply gi_giving.
  - apply gi_hof. intros v Hv. apply gi_hof. intros vv Hvv. apply (far_env _ _ _ vv); auto. destruct ob, fast; first [apply gi_if_set | apply near_also].
  - apply gi_hof. intros v Hv. apply gi_hof. intros vv Hvv. destruct fast.
    + unfold with_envB. eapply gi_bind2 with (P := fun xb => forall y, y <> v -> y <> vv -> snd xb y = B y).
      * unfold z_ValueSetFast. apply gi_bind. intro r. apply gi_ret. intros y N1 N2. cbn [snd]. destruct r; auto. unfold z_ValueInitCache. rewrite !setC_neq; auto.
      * intros xb Hx. apply gi_ret. intros y N1 _. cbn [snd]. apply Hx; intros ->; contradiction.
    + apply (far_env _ _ _ v); auto. apply gi_if_set.
  - apply gi_hof. intros v Hv. apply (far_env _ _ _ v); auto. apply near_also.
  - apply gi_hof. intros v Hv. apply (far_env _ _ _ v); auto. apply near_also.
Qed.

(** ** What is remembered, along calls of other groups and releases *)
Lemma texted_move (V V' : vols) Dn Dv c s s' w o : ext Dn Dv c s s' -> (forall b, @isvol V' b -> @isvol V b \/ snext s <= b) ->
  @texted V s w o -> @texted V' s' w o.
Proof.
  intros X Sub H. destruct o as [t|]; auto. destruct H as (p & -> & N0 & Sf). exists p. split; auto. split; auto.
  pose proof (safetext_ext _ _ _ _ _ _ _ X Sf) as [H1 H2]. split; auto. intros i Hi. destruct (H2 i Hi) as [H3 _].
  split; auto. intro K. destruct Sf as [Sf Hn]. destruct (Hn i Hi) as [_ Q]. apply Q. apply (vol_back V V' _ _ _ _ _ _ X Sub K).
  destruct (nth_error (t ++ [0]) i) as [x|] eqn:E; [|apply nth_error_None in E; lia]. apply Sf, (bytes_next s _ _ (x_wf0 _ _ _ _ _ X)) in E. exact E.
Qed.
Lemma remembered_by (V V' : vols) s s' ca k : (forall w o, @texted V s w o -> @texted V' s' w o) -> @remembered V s ca k -> @remembered V' s' ca k.
Proof.
  intros T [H1 H2 H3 H4]. constructor; auto. destruct (kAlt k) as [|t|d]; auto.
  destruct H2 as (p & -> & N0). destruct (T (At p) (Some t)) as (p' & E & K); [exists p; auto|]. injection E as <-. exists p. auto.
Qed.
Lemma caches_by (V V' : vols) E s s' B B' K : (forall w o, @texted V s w o -> @texted V' s' w o) -> (forall v, In v (eh E) -> B' v = B v) ->
  @caches V E s B K -> @caches V' E s' B' K.
Proof. intros T Hb [L H]. split; auto. intros h v k H1 H2. rewrite Hb by (eapply nth_error_In; eauto). apply (remembered_by V V' s s'); eauto. Qed.
Lemma release_scratch : forall l s s', wfst s -> NoDup l -> (forall A, In A l -> alive s A) -> release_all l s = Ok (tt, s') -> forall a, cacheR s' a -> cacheR s a.
Proof.
  induction l as [|A l IH]; intros s s' W ND Al H a Ha; cbn [release_all] in H.
  - injection H as <-. exact Ha.
  - inversion ND as [|? ? NA ND']; subst. destruct (release_wp s A W) as ([] & s1 & E1 & R1); [apply Al; now left|].
    unfold bind in H. rewrite E1 in H.
    assert (Al1 : forall B, In B l -> alive s1 B).
    { intros B HB. unfold alive. rewrite (rl_allocs _ _ _ R1); [apply Al; now right|]. intro K; rewrite K in HB; contradiction. }
    destruct (IH s1 s' (rl_wf _ _ _ R1) ND' Al1 H a Ha) as (p & z & H1 & H2 & H3). exists p, z. rewrite (rl_cache _ _ _ R1) in H1. split; auto. split; auto.
    destruct (rl_keep _ _ _ R1 p) as (_ & _ & _ & Q); [|congruence]. intros (ar & k & K1 & K2 & K3).
    pose proof (rl_dead _ _ _ R1 ar k K1 K2) as Dd. rewrite K3 in Dd. apply (w_dead s1 (rl_wf _ _ _ R1)) in Dd as (_ & _ & _ & Dd). congruence.
Qed.

(** ** The groups together *)
Record ztied (Z : zref) (W : zworld) (nms : nat -> N -> addr) (Fs : nat -> dom) (s : st) : Prop := {
  zt_tied : tied (fst Z) (fst W) nms Fs s;
  zt_caches : forall g, @caches (others (fst W) g) (fst W g) s (snd W) (snd Z g)
}.
Definition zwpasses (e : event) (Z : zref) : nat := wpasses e (fst Z).
Definition zfits (jd : judge) (e : event) : Prop := forall Z x Z', zwstep jd e Z = Some (x, Z') ->
  exists f0, (f0 <= zwpasses e Z)%nat /\ forall W nms Fs s fuel, (f0 <= fuel)%nat -> ztied Z W nms Fs s ->
    wp (zestep fuel e W) s (fun xw s' => fst xw = x /\ exists nms' Fs', ztied Z' (snd xw) nms' Fs' s').

(** The caches after a call of group [g]. *)
Lemma caches_do Z Es B nms Fs s g E' B' K' R' nm' F' s' c : ztied Z (Es, B) nms Fs s -> @sim (others Es g) R' E' nm' F' s' ->
  ext (inF (Fs g)) (hs (Es g)) c s s' ->
  (forall v, In v (eh E') -> In v (eh (Es g)) \/ beyond s v) ->
  (forall A, In A (ea E') -> In A (ea (Es g)) \/ snext s <= A) ->
  far (Es g) B ((Done, E'), B') ->
  @caches (others Es g) E' s' B' K' ->
  forall j, @caches (others (updn Es g E') j) (updn Es g E' j) s' B' (updn (snd Z) g K' j).
Proof.
  intros [T C] Sg X Nh Na Fa Cg j. cbn [fst snd] in *. destruct (Nat.eq_dec j g) as [->|Nj].
  - rewrite !updn_eq. apply (caches_by (others Es g) _ E' s' s' B' B' K'); auto.
    intros w o. apply (texted_move (others Es g) _ none none zeroc); [apply ext_refl; apply (x_wf _ _ _ _ _ X)|].
    intros b (Nz & i & Ni & Hi). rewrite updn_neq in Hi by auto. left. split; eauto.
  - rewrite !updn_neq by auto. apply (caches_by (others Es j) _ (Es j) s s' B B'); auto.
    + intros w o. apply (texted_move (others Es j) _ _ _ _ _ _ _ _ X). intros b (Nz & i & Ni & Hi). destruct (Nat.eq_dec i g) as [->|Ng].
      * rewrite updn_eq in Hi. destruct (Na b Hi) as [K|K]; auto. left. split; eauto.
      * rewrite updn_neq in Hi by auto. left. split; eauto.
    + intros v Hv. apply Fa; cbn [fst snd].
      * intro K. apply (t_h _ _ _ _ _ T j g v); auto.
      * intro K. destruct (Nh v K) as [Q|Q].
        -- apply (t_h _ _ _ _ _ T j g v); auto.
        -- exact (beyond_fresh _ _ _ _ _ _ (t_sim _ _ _ _ _ T j) Q Hv).
Qed.

Lemma zstep_do jd g c : correct jd -> zfits jd (Do g c).
Proof.
  intros J [W Ks] x [W' Ks'] St. cbn [zwstep] in St. destruct (brstep jd c (wr W g, Ks g)) as [[x0 [R' K']]|] eqn:Er; [|discriminate].
  destruct (bstep_all jd J c _ _ _ _ _ Er) as (f0 & L0 & K). exists f0. split; [exact L0|]. intros [Es B] nms Fs s fuel Hf ZT. cbn [zestep fst snd].
  pose proof (zt_tied _ _ _ _ _ ZT) as T. pose proof (zt_caches _ _ _ _ _ ZT g) as Cg. cbn [fst snd] in T, Cg.
  assert (Al : forall (A : N) cc, mine (NN := cneed c) (Es g) s cc -> cc A <> 0 -> In A (ea (Es g)) \/ (homeof s A /\ cc A <= cneed c)).
  { intros A cc M. exact (M A). }
  destruct (N.eqb_spec (cneed c) 0) as [Z|Nz].
  - injection St as <- <- <-. apply wp_bind. eapply wp_mono; [apply wp_ran, (K (others Es g) (Es g) (nms g) (Fs g) s fuel B Hf); [apply T|auto|now intro]|].
    intros [xe B'] s' [((Hx & nm' & F' & Af) & C') Ran]. cbn [fst snd] in *. apply wp_ret. cbn [fst snd]. split; auto.
    pose proof (bstep_far fuel c (Es g) B s _ s' Ran) as Fa.
    destruct Af as [Sg (cc & X & M) Nw Hs As (lh & la & Eh & Ea)]. specialize (fun A => Al A cc M). rewrite Z in Al.
    assert (Al0 : forall A, cc A <> 0 -> In A (ea (Es g))) by (intros A HA; destruct (Al A HA) as [Q|[_ Q]]; auto; lia).
    assert (Oth : forall A, @isvol (others Es g) A -> cc A = 0).
    { intros A HV. destruct (N.eq_dec (cc A) 0) as [E|E]; auto. exfalso. apply Al0 in E.
      exact (proj2 (sim_alive _ _ _ _ _ _ (t_sim _ _ _ _ _ T g) E) HV). }
    eexists _, _. split; cbn [fst snd]; [|exact (caches_do (W, Ks) Es B nms Fs s g (snd xe) B' K' R' nm' F' s' cc ZT Sg X Hs As Fa C')].
    apply (tied_do W Es nms Fs s g 0 R' (snd xe) nm' F' s' _ cc); auto.
    + intros v Hv. destruct (Hs v Hv); auto.
    + intros A HA. rewrite Ea. apply in_or_app. now left.
    + apply updn_eq.
    + intros j Nj. exists (ru (wr W j)). rewrite updn_neq by auto. split; [now destruct (wr W j)|]. apply pays_none.
      intros A HA. apply Oth. split; [|eauto]. eapply t_alive; eauto.
    + intro Dd. destruct (t_cache _ _ _ _ _ T Dd) as (C1 & C2 & C3). pose proof (bstep_keeps fuel c (Es g) B Z s _ s' Ran) as Ec.
      split; [eapply live_after; eauto|]. split; [|rewrite Ec; auto].
      intros A Ho. destruct (home_after _ _ _ _ _ _ X C1 Ho) as [Q|[Q _]].
      * destruct (C2 A Q) as (j & Hj & HA). exists j. split; auto. destruct (Nat.eq_dec j g) as [->|Nj].
        -- rewrite updn_eq, Ea. apply in_or_app. now left.
        -- now rewrite updn_neq.
      * exfalso. destruct Ho as (p & z & Hp & _). congruence.
  - destruct (negb (wdead W) && _) eqn:Eb; [|discriminate]. injection St as <- <- <-. apply andb_prop in Eb as [Eb1 Eb2].
    apply Bool.negb_true_iff in Eb1. rewrite forallb_forall in Eb2. destruct (t_cache _ _ _ _ _ T Eb1) as (C1 & C2 & C3).
    assert (Ch : forall j, In j (wc W) -> j <> g -> exists R1, scratch (wr W j) (cneed c) = Some R1).
    { intros j Hj Nj. specialize (Eb2 j Hj). apply Bool.orb_prop in Eb2 as [Q|Q]; [apply Nat.eqb_eq in Q; congruence|].
      destruct (scratch (wr W j) (cneed c)) as [R1|]; [eauto|discriminate]. }
    assert (Rd : cache_ready (Es g) s (cneed c)).
    { split; auto. intros A Ho. destruct (C2 A Ho) as (j & Hj & HA). destruct (Nat.eq_dec j g) as [->|Nj]; auto. right.
      destruct (Ch j Hj Nj) as (R1 & E1). destruct (scratch_pays _ _ _ _ _ _ _ (fun _ => cneed c) (t_sim _ _ _ _ _ T j) E1) as (_ & _ & _ & Q); auto. lia. }
    apply wp_bind. eapply wp_mono; [apply wp_ran, (K (others Es g) (Es g) (nms g) (Fs g) s fuel B Hf); [apply T|auto|auto]|].
    intros [xe B'] s' [((Hx & nm' & F' & Af) & C') Ran]. cbn [fst snd] in *. apply wp_ret. cbn [fst snd]. split; auto. pose proof (bstep_env fuel c (Es g) B s _ s' Nz Ran) as Ee.
    pose proof (bstep_far fuel c (Es g) B s _ s' Ran) as Fa. cbn [fst snd] in Ee.
    destruct Af as [Sg (cc & X & M) Nw Hs As _]. specialize (fun A => Al A cc M).
    eexists _, _. split; cbn [fst snd]; [|exact (caches_do (W, Ks) Es B nms Fs s g (snd xe) B' K' R' nm' F' s' cc ZT Sg X Hs As Fa C')].
    clear Fa C'. rewrite Ee in *.
    assert (Oj : forall j A, j <> g -> In A (ea (Es j)) -> cc A <> 0 -> In j (wc W) /\ cc A <= cneed c).
    { intros j A Nj HA Hc. destruct (Al A Hc) as [Q|[Q Le]].
      - elim Nj. eapply t_ea; eauto.
      - split; auto. destruct (C2 A Q) as (i & Hi & HAi). rewrite (t_ea _ _ _ _ _ _ _ _ T HA HAi). auto. }
    apply (tied_do W Es nms Fs s g 0 R' (Es g) nm' F' s' _ cc); auto.
    + apply updn_eq.
    + intros j Nj. rewrite updn_neq by auto. destruct (inb j (wc W)) eqn:Ej.
      * apply inb_In in Ej. destruct (Ch j Ej Nj) as (R1 & E1). unfold charge. rewrite E1.
        destruct (scratch_pays _ _ _ _ _ _ _ (fun _ => cneed c) (t_sim _ _ _ _ _ T j) E1) as (ru' & -> & Py & _); [lia|]. exists ru'. split; auto.
        apply (pays_some _ _ _ _ _ Py). intros A HA. destruct (N.eq_dec (cc A) 0) as [Q|Q]; [lia|]. now apply (Oj j A).
      * exists (ru (wr W j)). split; [now destruct (wr W j)|]. apply pays_none. intros A HA. destruct (N.eq_dec (cc A) 0) as [Q|Q]; auto. exfalso.
        destruct (Oj j A Nj HA Q) as [Q1 _]. apply inb_In in Q1. congruence.
    + intros _. split; [eapply live_after; eauto|]. split.
      * intros A Ho. assert (Up : forall j, ea (updn Es g (Es g) j) = ea (Es j)).
        { intro j. destruct (Nat.eq_dec j g) as [->|Nj]; [now rewrite updn_eq|now rewrite updn_neq]. }
        destruct (home_after _ _ _ _ _ _ X C1 Ho) as [Q|[Q Qc]].
        -- destruct (C2 A Q) as (j & Hj & HA). exists j. rewrite Up. split; auto. destruct (wsure W); auto. now right.
        -- destruct (wsure W) eqn:Ew; [now elim C3|]. exists g. rewrite Up. split; [now left|].
           destruct (Al A Qc) as [Q1|[(p & z & Hp & _) _]]; auto. congruence.
      * intro Sr. apply Bool.orb_prop in Sr as [Sr|Sr].
        -- destruct (x_cache _ _ _ _ _ X) as [->|(Q & _)]; auto. now elim C3.
        -- destruct c; try discriminate Sr. destruct k; try discriminate Sr; (eapply bstep_sets; [|exact Ran]; auto).
Qed.

Lemma zstep_release jd g : zfits jd (Release g).
Proof.
  intros [W Ks] x [W' Ks'] St. injection St as <- <- <-. exists 0%nat. split; [apply Nat.le_0_l|]. intros [Es B] nms Fs s fuel _ [T C]. cbn [zestep fst snd] in *.
  pose proof (t_wf _ _ _ _ _ T) as Wf.
  assert (ND : NoDup (ea (Es g))) by apply (t_sim _ _ _ _ _ T g).
  assert (Al : forall A, In A (ea (Es g)) -> alive s A) by (intros A HA; eapply t_alive; eauto).
  destruct (step_release jd g W Done _ eq_refl) as (f1 & _ & H). destruct (H Es nms Fs s (Nat.max f1 fuel) (Nat.le_max_l _ _) T) as ([x1 Es1] & s1 & Ex & Hx & nm' & F' & T').
  destruct (release_all_wp _ s Wf ND Al) as ([] & s' & Er & Fr). cbn [estep] in Ex. unfold bind in Ex. rewrite Er in Ex. injection Ex as <- <- <-.
  exists (Done, (updn Es g estart, B)), s'. split; [unfold bind; rewrite Er; reflexivity|]. cbn [fst snd] in *. split; auto. exists nm', F'. split; cbn [fst snd]; auto.
  intro j. destruct (Nat.eq_dec j g) as [->|Nj].
  { rewrite !updn_eq. split; auto. intros h v k Hh. destruct h; discriminate. }
  rewrite !updn_neq by auto.
  assert (Inb : forall b, block_in s (ea (Es g)) b -> @vol (others Es j) s b).
  { intros b (A & ar & k & HA & H1 & H2). right. exists A, ar, k. split; [|auto]. split; [exact (proj2 (t_alive _ _ _ _ _ _ _ T HA))|]. exists g. auto. }
  apply (caches_by (others Es j) _ (Es j) s s' B B); auto. intros w o Ht. destruct o as [t|]; auto. destruct Ht as (p & -> & N0 & Sf). exists p. split; auto. split; auto.
  assert (Nb : forall i, lt i (length (t ++ [0])) -> ~ block_in s (ea (Es g)) (fst p)).
  { intros i Hi K. destruct Sf as [_ Sf]. destruct (Sf i Hi) as [_ Q]. apply Q, Inb, K. }
  destruct Sf as [H1 H2]. split.
  - intros i y Hi. destruct (fr_keep _ _ _ Fr (offset p (N.of_nat i))) as (Q & _); [|rewrite Q; auto]. apply (Nb i). apply nth_error_Some. congruence.
  - intros i Hi. destruct (H2 i Hi) as [Q1 Q2]. split; [intro K; apply Q1; exact (release_scratch _ _ _ Wf ND Al Er _ K)|].
    intro K. apply Q2. destruct K as [K|(A & ar & k & HV & HA & K)].
    + destruct K as (Nz & i' & Ni & Hi'). destruct (Nat.eq_dec i' g) as [->|Ng]; [rewrite updn_eq in Hi'; destruct Hi'|]. rewrite updn_neq in Hi' by auto. left. split; eauto.
    + destruct HV as (Nz & i' & Ni & Hi'). destruct (Nat.eq_dec i' g) as [->|Ng]; [rewrite updn_eq in Hi'; destruct Hi'|]. rewrite updn_neq in Hi' by auto.
      right. exists A, ar, k. split; [split; eauto|]. split; auto. rewrite <- (fr_allocs _ _ _ Fr); auto. intro Q. apply Ng. exact (t_ea _ _ _ _ _ _ _ _ T Hi' Q).
Qed.

(** ** Whole programs *)
Fixpoint zwmost (jd : judge) (es : list event) (Z : zref) : nat :=
  match es with
  | [] => 0
  | e :: r => match zwstep jd e Z with Some (_, Z1) => Nat.max (zwpasses e Z) (zwmost jd r Z1) | None => 0 end
  end.
Theorem zworld_most jd : correct jd -> forall es Z rs Z', zwrun jd es Z = Some (rs, Z') ->
  forall W nms Fs s fuel, (zwmost jd es Z <= fuel)%nat -> ztied Z W nms Fs s ->
    wp (zerun fuel es W) s (fun rw s' => fst rw = rs /\ exists nms' Fs', ztied Z' (snd rw) nms' Fs' s').
Proof.
  intros J es. induction es as [|e es IH]; intros Z rs Z' H; cbn [zwrun] in H.
  - injection H as <- <-. intros W nms Fs s fuel _ T. apply wp_ret. cbn. eauto.
  - cbn [zwmost]. destruct (zwstep jd e Z) as [[x Z1]|] eqn:E1; [|discriminate]. destruct (zwrun jd es Z1) as [[xs Z2]|] eqn:E2; [|discriminate]. injection H as <- <-.
    assert (Fe : zfits jd e) by (destruct e; [now apply zstep_do|apply zstep_release]).
    destruct (Fe Z x Z1 E1) as (f1 & L1 & K1). pose proof (IH Z1 xs Z2 E2) as K2.
    intros W nms Fs s fuel Hf T. cbn [zerun]. apply wp_bind. eapply wp_mono; [apply (K1 W nms Fs s fuel); [lia|auto]|].
    intros xw s1 (Hx & nm1 & F1 & T1). apply wp_bind. eapply wp_mono; [apply (K2 (snd xw) nm1 F1 s1 fuel); [lia|auto]|].
    intros rw s2 (Hr & nm2 & F2 & T2). apply wp_ret. cbn [fst snd]. split; [congruence|]. eauto.
Qed.
Theorem zmany_most jd es rs W Ks : correct jd -> zwrun jd es zrstart = Some (rs, (W, Ks)) ->
  forall fuel, (zwmost jd es zrstart <= fuel)%nat -> exists Es B s, zerun fuel es zworld0 init = Ok ((rs, (Es, B)), s) /\ forall g, represents (wr W g) (Es g) s.
Proof.
  intros J H fuel Hf.
  assert (T0 : ztied zrstart zworld0 (fun _ _ => (0, 0)) (fun _ => nodocs) init).
  { split; [exact start_tied|]. intro g. split; auto. intros h v k Hh. destruct h; discriminate. }
  destruct (zworld_most jd J es zrstart rs (W, Ks) H zworld0 _ _ init fuel Hf T0) as ([rs' [Es B]] & s & Er & Hr & nms & Fs & [T _]).
  cbn [fst snd] in *. subst rs'. exists Es, B, s. split; auto. intro g. exists (nms g), (Fs g). rewrite <- (wr_eta (wr W g)).
  apply (sim_move (others Es g) novols _ _ _ _ none none zeroc s s); [apply T|apply ext_refl; eapply t_wf; eauto|intros y _ []|intros y _ []|apply pays_zero|intros b []|intros b []].
Qed.
Theorem zmany jd es rs W Ks : correct jd -> zwrun jd es zrstart = Some (rs, (W, Ks)) ->
  exists f0, forall fuel, (f0 <= fuel)%nat -> exists Es B s, zerun fuel es zworld0 init = Ok ((rs, (Es, B)), s) /\ forall g, represents (wr W g) (Es g) s.
Proof. intros J H. exists (zwmost jd es zrstart). exact (zmany_most jd es rs W Ks J H). Qed.
