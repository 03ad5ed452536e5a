(** Programs with several groups of allocators that keep the pointers they are given.

    As in Keep.v a program keeps the pointers of the getters and of zj_Stringify.  Now it works
    with any number of groups of allocators (HistMany.v) and releases them: a pointer is good
    until the group it was got from is released, whatever happens to the others.  It may be
    passed to calls on other groups as well: to all that copy the text or only read it.

    Not here: storing a text of one group in a document of another one without a copy. *)
From Verif Require Import Base Spec Lex LexProofs Alloc AllocProofs Mem MemProofs Api PureParse Dom Effect Steps CacheProofs Start Vocab MoveProofs
  Scene SetFacts Double Client Hist HistRun HistForest HistSim HistStep HistAll HistCache HistMany HistWorld BetaSim BetaClient Keep.

Inductive gstmt :=
| GIn (g : nat) (c : pstmt)                    (* a statement of Keep.v in group g *)
| GRelease (g : nat).                          (* all allocators of group g are released *)

(** ** On the reference *)
(** A pointer: the group it was got from and the text; [None]: its group was released. *)
Definition gptr := option (nat * rptr).
Definition drop (g : nat) (q : gptr) : gptr :=
  match q with
  | Some (j, RNull) => q
  | Some (j, _) => if Nat.eqb j g then None else q
  | None => None
  end.
Definition gst := (world * list gptr)%type.
Section Ref.
Variable jd : judge.
Definition gcall (e : event) (Z : gst) : option (answer * gst) :=
  match wstep jd e (fst Z) with Some (x, W) => Some (x, (W, snd Z)) | None => None end.
Definition gsstep (c : gstmt) (Z : gst) : option (answer * gst) :=
  match c with
  | GRelease g => gcall (Release g) (fst Z, map (drop g) (snd Z))
  | GIn g (PApi c) => gcall (Do g c) Z
  | GIn g (PTake v h) =>
      match wstep jd (Do g (pcall v h)) (fst Z) with
      | Some (x, W) => Some (x, (W, snd Z ++ [Some (g, match x with Text (Some t) => if is_pview v then RV t else RC t | _ => RNull end)]))
      | None => None
      end
  | GIn _ (PLook k) =>
      match nth_error (snd Z) k with
      | Some (Some (_, r)) => Some (Text (option_map snd (rtext r)), Z)
      | _ => None
      end
  | GIn g (PGive u h k) =>
      match nth_error (snd Z) k with
      | Some (Some (j, r)) =>
          match rtext r with
          | Some (view, t) =>
              if Nat.eqb j g || negb (tfast u)
              then match tcall u view h t with Some c => gcall (Do g c) Z | None => None end
              else None
          | None => None
          end
      | _ => None
      end
  end.
End Ref.

(** ** On the model *)
Definition gmst := (wenv * list mptr)%type.
Definition gmstep (fuel : nat) (c : gstmt) (Z : gmst) : M (answer * gmst) :=
  let '(Es, P) := Z in
  match c with
  | GRelease g => xe <- estep fuel (Release g) Es ;; ret (fst xe, (snd xe, P))
  | GIn g c => xz <- pmstep fuel c (Es g, P) ;; ret (fst xz, (updn Es g (fst (snd xz)), snd (snd xz)))
  end.

(** ** Programs *)
Inductive gprog (X : Type) :=
| GRet (x : X)
| GStuck
| GAct (c : gstmt) (k : answer -> gprog X).
Arguments GRet {X} x.
Arguments GStuck {X}.
Arguments GAct {X} c k.
Fixpoint grplay {X} (jd : judge) (p : gprog X) (Z : gst) : option (X * gst) :=
  match p with
  | GRet x => Some (x, Z)
  | GStuck => None
  | GAct c k => match gsstep jd c Z with Some (a, Z1) => grplay jd (k a) Z1 | None => None end
  end.
Fixpoint gmplay {X} (fuel : nat) (p : gprog X) (Z : gmst) : M (X * gmst) :=
  match p with
  | GRet x => ret (x, Z)
  | GStuck => fail EFuel
  | GAct c k => az <- gmstep fuel c Z ;; gmplay fuel (k (fst az)) (snd az)
  end.
Definition gpasses (c : gstmt) (Z : gst) : nat :=
  match c with GIn g c => ppasses c (wr (fst Z) g, []) | GRelease _ => 0%nat end.
Fixpoint gpmost {X} (jd : judge) (p : gprog X) (Z : gst) : nat :=
  match p with
  | GAct c k => match gsstep jd c Z with Some (a, Z1) => Nat.max (gpasses c Z) (gpmost jd (k a) Z1) | None => 0%nat end
  | _ => 0%nat
  end.

(** ** Pointers into several groups *)
Lemma settled_ext Dn Dv c s s' : ext Dn Dv c s s' -> settled s -> settled s'.
Proof.
  intros X H q Hq B. destruct (x_cache _ _ _ _ _ X) as [Ec|(_ & p & A & Ep & _ & _ & _ & Hs)].
  - rewrite Ec in Hq. apply (H q Hq). eapply beyond_ext; eauto.
  - assert (p = q) as -> by congruence. apply Hs. apply (beyond_nothing s' q (x_wf _ _ _ _ _ X) B).
Qed.
Lemma settled_freed s l s' : freed s l s' -> settled s -> settled s'.
Proof.
  intros Fr H q Hq B. rewrite (fr_cache _ _ _ Fr) in Hq. apply (H q Hq). destruct B as [B|(A & ar & k & HA & B)].
  - left. now rewrite <- (fr_next _ _ _ Fr).
  - right. exists A, ar, k. split; auto. destruct (in_dec N.eq_dec A l) as [K|K]; [rewrite (fr_gone _ _ _ Fr A K) in HA; discriminate|].
    now rewrite <- (fr_allocs _ _ _ Fr).
Qed.
Definition aims (Es : wenv) (s : st) (m : mptr) (q : gptr) : Prop := match q with None => True | Some (j, r) => @points (others Es j) s m r end.
Definition aimed (Es : wenv) (s : st) (P : list mptr) (T : list gptr) : Prop := Forall2 (aims Es s) P T.
Lemma kept_lasts Es Es' s s' j p t : lasts Es Es' s s' j -> @kept_text (others Es j) s p t -> @kept_text (others Es' j) s' p t.
Proof. intros H [N0 K]. split; auto. Qed.
Lemma points_lasts Es Es' s s' j m r : lasts Es Es' s s' j -> @points (others Es j) s m r -> @points (others Es' j) s' m r.
Proof.
  intros L H. destruct m as [|w|w n], r as [|t|t]; cbn [points] in *; auto.
  - destruct H as (p & -> & K). exists p. split; auto. eapply kept_lasts; eauto.
  - destruct H as (p & -> & -> & K). exists p. auto.
Qed.
Lemma aimed_lasts Es Es' s s' P T : (forall j, lasts Es Es' s s' j) -> aimed Es s P T -> aimed Es' s' P T.
Proof.
  intros L H. induction H as [|m q P T K _ IH]; constructor; auto. destruct q as [[j r]|]; cbn [aims] in *; auto. eapply points_lasts; eauto.
Qed.
Lemma aimed_drop g Es Es' s s' P T : (forall j, j <> g -> lasts Es Es' s s' j) -> aimed Es s P T -> aimed Es' s' P (map (drop g) T).
Proof.
  intros L H. induction H as [|m q P T Hm H IH]; cbn [map]; constructor; auto. destruct q as [[j r]|]; [|exact Logic.I]. cbn [aims] in Hm.
  assert (K : j <> g -> aims Es' s' m (Some (j, r))) by (intro Nj; cbn [aims]; eapply points_lasts; eauto).
  destruct r as [|t|t]; cbn [drop]; [destruct m; try contradiction; exact Logic.I|..]; destruct (Nat.eqb_spec j g); auto; exact Logic.I.
Qed.
Lemma aimed_nth Es s P T k j r : aimed Es s P T -> nth_error T k = Some (Some (j, r)) -> exists m, nth_error P k = Some m /\ @points (others Es j) s m r.
Proof.
  intro H. revert k. induction H as [|m q P T Hm _ IH]; intros [|k] E; try discriminate; [|now apply IH].
  cbn in E. injection E as ->. exists m. auto.
Qed.
Lemma gmtake Es s P T k j r X (f : mptr -> M X) Q : aimed Es s P T -> nth_error T k = Some (Some (j, r)) ->
  (forall m, @points (others Es j) s m r -> wp (f m) s Q) -> wp (p <- mtake P k ;; f p) s Q.
Proof. intros H E K. destruct (aimed_nth Es s P T k j r H E) as (m & Hm & Hp). unfold mtake. rewrite Hm. apply wp_bind, wp_ret. auto. Qed.

(** A call on a text in memory uses the scratch string as the call on the text itself does. *)
#[local] Hint Resolve kc_alloc kc_store kc_load kc_free kc_buf kc_ufree kc_putNode kc_putVal kc_putZ kc_parse_loop kc_stringify_loop kc_nth_node kc_copy_loop kc_adopt : keeps.
Lemma ptake_keeps u view h t c fuel E v p n : tcall u view h t = Some c -> cneed c = 0 -> keepsC (ptake fuel u view E v p n).
Proof.
  intros Ec Z. destruct u as [fast|num fast| |fast| | |], view; cbn [tcall ptake] in *; try discriminate Ec; try (destruct fast; try discriminate Ec);
    injection Ec as <-; cbn [cneed kind_of] in Z; try (exfalso; clear - Z; lia); cbn [kind_of set_key_call];
    try (keeps; fail); destruct num; keeps.
Qed.
Lemma with_env_keeps E X (f : X -> answer) m s xe s' : with_env E f m s = Ok (xe, s') -> snd xe = E.
Proof. intro H. unfold with_env in H. apply bind_inv in H as (x & s1 & _ & H). now injection H as <- _. Qed.
Lemma ptake_env u view h t c fuel E v p n s xe s' : tcall u view h t = Some c -> cneed c <> 0 -> ptake fuel u view E v p n s = Ok (xe, s') -> snd xe = E.
Proof.
  intros Ec Z H. destruct u as [fast|num fast| |fast| | |]; cbn [tcall ptake] in *; try (eapply with_env_keeps; exact H).
  destruct view; injection Ec as <-; now elim Z.
Qed.
Lemma ptake_sets u view h t c fuel E v p n : tcall u view h t = Some c -> sets_scratch c = true -> setsC (ptake fuel u view E v p n).
Proof.
  intros Ec Z. destruct u as [fast|num fast| |fast| | |], view; cbn [tcall ptake] in *; try discriminate Ec; try (destruct fast; try discriminate Ec);
    injection Ec as <-; try discriminate Z; unfold with_env; (apply sc_left; [|intro; keeps]); cbn [kind_of].
  - replace (set_text_call num KLenFast v p n) with (set_text_len_fast (if num then zj_checkNum else zj_checkStr) (if num then TNumber else TString) v p n)
      by (destruct num; reflexivity).
    unfold set_text_len_fast. apply sc_right. intro x. apply sc_left; [apply check_len_sets|]. intro ok. keeps.
  - replace (set_text_call num KLen v p n) with (set_text_len (if num then zj_checkNum else zj_checkStr) (if num then TNumber else TString) v p n)
      by (destruct num; reflexivity).
    unfold set_text_len. apply sc_right. intro x. apply sc_left; [apply check_len_sets|]. intro ok. keeps.
Qed.

(** ** The two agree *)
Section Agree.
Variable jd : judge.
Hypothesis J : correct jd.
Lemma wstep_do g c W x W' : wstep jd (Do g c) W = Some (x, W') -> exists R', rstep jd c (wr W g) = Some (x, R').
Proof.
  intro St. cbn [wstep] in St. destruct (rstep jd c (wr W g)) as [[x0 R']|] eqn:Er; [|discriminate]. exists R'.
  destruct (cneed c =? 0); [|destruct (_ && _); [|discriminate]]; injection St as <- _; reflexivity.
Qed.
Definition ggets (x : answer) (W' : world) (T' : list gptr) (xz : answer * gmst) (s' : st) : Prop :=
  fst xz = x /\ let '(Es', P') := snd xz in settled s' /\ aimed Es' s' P' T' /\ exists nms' Fs', tied W' Es' nms' Fs' s'.
Lemma cstep_tied g c W x R' W' Es nms Fs s fuel : rstep jd c (wr W g) = Some (x, R') -> wstep jd (Do g c) W = Some (x, W') ->
  (passes c (wr W g) <= fuel)%nat -> tied W Es nms Fs s ->
  wp (cstep fuel c (Es g)) s (fun xe s' => fst xe = x /\ (exists nms' Fs', tied W' (updn Es g (snd xe)) nms' Fs' s') /\
    (exists Dn Dv cc, ext Dn Dv cc s s') /\ forall j, lasts Es (updn Es g (snd xe)) s s' j).
Proof.
  intros Er St Hf T. destruct (step jd J c _ _ _ Er) as (f0 & L0 & K).
  apply (do_tied jd g c W x R' W' (cstep fuel c (Es g)) Es nms Fs s Er St T).
  - apply (K (others Es g) (Es g) (nms g) (Fs g) s fuel); [lia|apply T].
  - apply cstep_keeps.
  - intros Nz xe s' Ran. exact (cstep_env fuel c (Es g) s xe s' Nz Ran).
  - apply sets_step.
Qed.
Definition gin (s : st) (x : answer) (W' : world) (T' : list gptr) (xz : answer * gmst) (s' : st) : Prop := ggets x W' T' xz s' /\ exists Dn Dv cc, ext Dn Dv cc s s'.
Lemma gin_wp g c W T x W' T' : gsstep jd (GIn g c) (W, T) = Some (x, (W', T')) ->
  forall Es nms Fs s fuel P, (gpasses (GIn g c) (W, T) <= fuel)%nat -> tied W Es nms Fs s -> settled s -> aimed Es s P T ->
    wp (gmstep fuel (GIn g c) (Es, P)) s (gin s x W' T').
Proof.
  intros St Es nms Fs s fuel P Hf Td Se Am. pose proof (t_wf _ _ _ _ _ Td) as Wf. cbn [gmstep].
  apply wp_bind. destruct c as [c|v h|k|u h k]; cbn [gsstep pmstep gpasses ppasses fst snd] in *; unfold gcall in *; cbn [fst snd] in *.
  - destruct (wstep jd (Do g c) W) as [[x0 W0]|] eqn:Ew; [|discriminate]. injection St as <- <- <-. destruct (wstep_do _ _ _ _ _ Ew) as (R' & Er).
    unfold pmcall. apply wp_bind. eapply wp_mono; [exact (cstep_tied g c W x0 R' W0 Es nms Fs s fuel Er Ew Hf Td)|].
    intros xe s' (Hx & Tr & (Dn & Dv & cc & X) & La). apply wp_ret, wp_ret. split; [|now exists Dn, Dv, cc]. cbn [fst snd]. split; auto. cbn [snd].
    split; [eapply settled_ext; eauto|]. split; [eapply aimed_lasts; eauto|exact Tr].
  - destruct (wstep jd (Do g (pcall v h)) W) as [[x0 W0]|] eqn:Ew; [|discriminate]. injection St as <- <- <-. destruct (wstep_do _ _ _ _ _ Ew) as (R' & Er).
    destruct (cstep_tied g (pcall v h) W x0 R' W0 Es nms Fs s fuel Er Ew Hf Td) as (xe & s' & Ec & Hx & Tr & (Dn & Dv & cc & X) & La).
    assert (exists w k, look (wr W g) h = Some (w, k)) as (w0 & k0 & L).
    { destruct (look (wr W g) h) as [[w k]|] eqn:L; [eauto|]. destruct v; cbn [pcall rstep] in Er; rewrite L in Er; discriminate Er. }
    pose proof (t_sim _ _ _ _ _ Td g) as S.
    destruct (is_pview v) eqn:Vg; [rewrite (take_view' v h (Es g) fuel Vg) in Ec|rewrite (take_copy v h (Es g) fuel s Vg) in Ec].
    + apply bind_inv in Ec as (a & s1 & Ev & Ec). unfold with_env in Ec. apply bind_inv in Ec as (y & s2 & Ec & Eq). injection Eq as <- <-.
      apply bind_inv in Ec as (r & s3 & Eg & Eo). cbn [fst snd] in *. subst y.
      assert (Hv : nth_error (eh (Es g)) h = Some a /\ s1 = s).
      { unfold hof in Ev. destruct (nth_error (eh (Es g)) h) as [v0|]; [|discriminate]. injection Ev as <- <-. auto. }
      destruct Hv as [Hv ->]. destruct (pview_safe v (wr W g) (Es g) (nms g) (Fs g) s h a w0 k0 S L Hv _ _ Vg Eg) as [-> Hr].
      exists (x0, (Es g, P ++ [match r with Some (w, n) => MV w n | None => MNull end])), s2. split.
      { unfold bind at 1. rewrite Ev. unfold bind at 1. rewrite Eg. unfold bind at 1. rewrite Eo. reflexivity. }
      apply wp_ret. split; [|now exists Dn, Dv, cc]. split; [reflexivity|]. cbn [fst snd]. split; [eapply settled_ext; eauto|]. split; [|exact Tr].
      apply Forall2_app; [eapply aimed_lasts; eauto|]. constructor; [|constructor]. cbn [aims]. destruct r as [[w n]|].
      * destruct Hr as (p & b & -> & -> & Sf). cbn [out_view] in Eo.
        assert (Q : wp (b <- load_w (At p) (lenN b) ;; ret (Text (Some b))) s (fun y _ => y = Text (Some b))).
        { unfold load_w. apply wp_bind, wp_bind, wp_deref, (wp_load p _ b); [apply Sf|reflexivity|]. now apply wp_ret. }
        apply (wp_run _ _ _ _ _ Q) in Eo. subst x0. cbn [points]. exists p. split; auto. split; auto. now apply (La g).
      * injection Eo as <- _. exact Logic.I.
    + apply bind_inv in Ec as (a & s1 & Ev & Ec). unfold with_env in Ec. apply bind_inv in Ec as (y & s2 & Ec & Eq). injection Eq as <- <-.
      apply bind_inv in Ec as (r & s3 & Eg & Eo). cbn [fst snd] in *. subst y.
      assert (Hv : nth_error (eh (Es g)) h = Some a /\ s1 = s).
      { unfold hof in Ev. destruct (nth_error (eh (Es g)) h) as [v0|]; [|discriminate]. injection Ev as <- <-. auto. }
      destruct Hv as [Hv ->].
      exists (x0, (Es g, P ++ [match r with Some w => MC w | None => MNull end])), s2. split.
      { unfold bind at 1. rewrite Ev. unfold bind at 1. rewrite Eg. unfold bind at 1. rewrite Eo. reflexivity. }
      apply wp_ret. split; [|now exists Dn, Dv, cc]. split; [reflexivity|]. cbn [fst snd]. split; [eapply settled_ext; eauto|]. split; [|exact Tr].
      apply Forall2_app; [eapply aimed_lasts; eauto|]. constructor; [|constructor]. cbn [aims].
      pose proof (given_wp jd J v h (wr W g) x0 R' (Es g) (nms g) (Fs g) s fuel a Vg Er Hf S Se Hv) as G. pose proof (wp_run _ _ _ _ _ G Eg) as Ls. destruct r as [w|].
      * destruct Ls as (p & b & -> & Kt).
        assert (W3 : wfst s3).
        { cbn [out_text] in Eo. apply bind_inv in Eo as (b' & s4 & Eb & Eo). injection Eo as _ <-.
          assert (s4 = s3) as <-; [|apply X]. unfold cstr_at in Eb. apply bind_inv in Eb as (p' & s5 & Ed & Eb). injection Ed as <- <-.
          apply bind_inv in Eb as (t & s5 & Ed & Eb). unfold readable in Ed. injection Ed as _ <-. injection Eb as _ <-. reflexivity. }
        destruct (kept_out s3 p b x0 s2 W3 Kt Eo) as [-> ->]. cbn [points]. exists p. split; auto.
        destruct Kt as [N0 Sf]. split; auto. eapply (safe_move (others Es g)); [apply (ext_refl none none s3 W3)| |exact Sf].
        intros q (Nz & i & Ni & Hi). left. split; auto. exists i. split; auto. now rewrite updn_neq in Hi.
      * injection Eo as <- _. exact Logic.I.
  - destruct (nth_error T k) as [[[j r]|]|] eqn:Hk; try discriminate. injection St as <- <- <-. apply (gmtake Es s P T k j r); auto. intros m Pm.
    assert (Fin : gin s (Text (option_map snd (rtext r))) W T (Text (option_map snd (rtext r)), (updn Es g (Es g), P)) s).
    { split; [|exists none, none, zeroc; now apply ext_refl]. split; auto. cbn [snd]. split; auto. assert (Ld : forall i, lasts Es (updn Es g (Es g)) s s i).
      { intro i. eapply (lasts_do Es g (Es g)); [apply (ext_refl none none s Wf)|auto]. }
      split; [eapply aimed_lasts; eauto|]. exists (updn nms g (nms g)), (updn Fs g (Fs g)).
      replace W with (mkW (wr W) (wc W) (wsure W) (wdead W)) by (now destruct W).
      eapply (tied_do W Es nms Fs s g 0 (wr W g) (Es g) (nms g) (Fs g) s (wr W) zeroc); auto.
      - apply Td.
      - now apply ext_refl.
      - intros y H1 H2. congruence.
      - intros i Ni. exists (ru (wr W i)). split; [now destruct (wr W i)|]. apply pays_none. auto.
      - intro Dd. destruct (t_cache _ _ _ _ _ Td Dd) as (C1 & C2 & C3). split; auto. split; auto. intros A Ho. destruct (C2 A Ho) as (i & Hi & HA).
        exists i. split; auto. destruct (Nat.eq_dec i g) as [->|Ni]; [now rewrite updn_eq|now rewrite updn_neq]. }
    destruct r as [|t|t]; destruct m as [|w|w n]; try contradiction; cbn [points rtext option_map snd] in *.
    + apply wp_bind, wp_ret, wp_ret, wp_ret. exact Fin.
    + destruct Pm as (p & -> & Kt). cbn [out_text]. apply wp_bind, wp_bind, (@kept_read (others Es j) s p t); [exact Wf|exact Kt|]. apply wp_ret, wp_ret, wp_ret. exact Fin.
    + destruct Pm as (p & -> & -> & Sf). cbn [out_view]. unfold load_w. apply wp_bind, wp_bind, wp_bind, wp_deref, (wp_load p _ t); [apply Sf|reflexivity|].
      apply wp_ret, wp_ret, wp_ret. exact Fin.
  - destruct (nth_error T k) as [[[j r]|]|] eqn:Hk; try discriminate. destruct (rtext r) as [[view t]|] eqn:Er; [|discriminate].
    destruct (Nat.eqb j g || negb (tfast u)) eqn:Ok; [|discriminate].
    destruct (tcall u view h t) as [c|] eqn:Ec; [|discriminate]. destruct (wstep jd (Do g c) W) as [[x0 W0]|] eqn:Ew; [|discriminate]. injection St as <- <- <-.
    destruct (wstep_do _ _ _ _ _ Ew) as (R' & E0). pose proof (t_sim _ _ _ _ _ Td g) as S.
    destruct (taken_value jd u view h t c (wr W g) x0 R' (Es g) (nms g) (Fs g) s Ec E0 S) as (v & Hv). apply (hof_wp _ _ v); [exact Hv|].
    apply (gmtake Es s P T k j r); auto. intros m Pm.
    assert (W1 : forall p, @held (others Es j) true view s p t ->
      wp (pmcall (ptake fuel u view (Es g) v p (lenN t)) P) s
         (fun xz s' => wp (ret (fst xz, (updn Es g (fst (snd xz)), snd (snd xz)))) s' (gin s x0 W0 T))).
    { intros p Hp. unfold pmcall. apply wp_bind.
      assert (Hq : @held (others Es g) (tfast u) view s p t).
      { destruct (tfast u) eqn:Tf.
        - rewrite Bool.orb_false_r in Ok. apply Nat.eqb_eq in Ok. subst j. exact Hp.
        - exact (@held_safe (others Es j) false view s p t Hp). }
      eapply wp_mono; [apply (do_tied jd g c W x0 R' W0 (ptake fuel u view (Es g) v p (lenN t)) Es nms Fs s E0 Ew Td)|].
      - intro Cr. eapply take_wp; eauto.
      - intro Z. eapply ptake_keeps; eauto.
      - intros Nz xe s' Ran. eapply ptake_env; eauto.
      - intro Z. eapply ptake_sets; eauto.
      - intros xe s' (Hx & Tr & (Dn & Dv & cc & X) & La). apply wp_ret, wp_ret. split; [|now exists Dn, Dv, cc]. cbn [fst snd]. split; auto. cbn [snd].
        split; [eapply settled_ext; eauto|]. split; [eapply aimed_lasts; eauto|exact Tr]. }
    destruct r as [|t'|t']; try discriminate Er; injection Er as <- <-; destruct m as [|w|w n]; try contradiction; cbn [points] in Pm.
    + destruct Pm as (p & -> & Kt). apply wp_bind, wp_deref.
      replace (ptake fuel u false (Es g) v p 0) with (ptake fuel u false (Es g) v p (lenN t')); [exact (W1 p Kt)|].
      destruct u as [fast|num fast| |fast| | |]; cbn [ptake]; auto; try destruct num; destruct fast; reflexivity.
    + destruct Pm as (p & -> & -> & Sf). apply wp_bind, wp_deref. exact (W1 p Sf).
Qed.
Lemma gstmt_wp c W T x W' T' : gsstep jd c (W, T) = Some (x, (W', T')) ->
  forall Es nms Fs s fuel P, (gpasses c (W, T) <= fuel)%nat -> tied W Es nms Fs s -> settled s -> aimed Es s P T ->
    wp (gmstep fuel c (Es, P)) s (ggets x W' T').
Proof.
  intros St Es nms Fs s fuel P Hf Td Se Am. pose proof (t_wf _ _ _ _ _ Td) as Wf. destruct c as [g c|g].
  - eapply wp_mono; [exact (gin_wp g c W T x W' T' St Es nms Fs s fuel P Hf Td Se Am)|]. now intros xz s' [K _].
  - cbn [gmstep]. cbn [gsstep] in St. unfold gcall in St. cbn [fst snd wstep] in St. injection St as <- <- <-. cbn [estep]. apply wp_bind, wp_bind.
    apply (wp_mono _ _ (fun _ => freed s (ea (Es g)))).
    { apply release_all_wp; auto; [apply (t_sim _ _ _ _ _ Td g)|]. intros A HA. eapply t_alive; eauto. }
    intros _ s' Fr. apply wp_ret, wp_ret. cbn [fst snd]. split; auto. cbn [snd].
    destruct (release_tied g W Es nms Fs s s' Td Fr) as [Tr La].
    split; [eapply settled_freed; eauto|]. split; [eapply aimed_drop; eauto|exact Tr].
Qed.
Theorem gplay_most X (p : gprog X) : forall W T x W' T', grplay jd p (W, T) = Some (x, (W', T')) ->
  forall Es nms Fs s fuel P, (gpmost jd p (W, T) <= fuel)%nat -> tied W Es nms Fs s -> settled s -> aimed Es s P T ->
    wp (gmplay fuel p (Es, P)) s (fun xz s' => fst xz = x /\ let '(Es', P') := snd xz in
      settled s' /\ aimed Es' s' P' T' /\ exists nms' Fs', tied W' Es' nms' Fs' s').
Proof.
  induction p as [x0| |c k IH]; intros W T x W' T' H Es nms Fs s fuel P Hf Td Se Am; cbn [grplay gmplay gpmost] in *.
  - injection H as <- <- <-. apply wp_ret. cbn [fst snd]. eauto 8.
  - discriminate.
  - destruct (gsstep jd c (W, T)) as [[a [W1 T1]]|] eqn:E1; [|discriminate].
    apply wp_bind. eapply wp_mono; [apply (gstmt_wp c W T a W1 T1 E1 Es nms Fs s fuel P); [lia|auto..]|].
    intros [a' [E2 P2]] s1 (Ha & Se1 & Am1 & nm1 & F1 & Td1). cbn [fst snd] in *. subst a'. eapply (IH a W1 T1 x W' T' H); eauto. lia.
Qed.
(** Every program, from nothing. *)
Theorem gclient X (p : gprog X) x W T : grplay jd p (wstart, []) = Some (x, (W, T)) ->
  forall fuel, (gpmost jd p (wstart, []) <= fuel)%nat ->
  exists Es P s, gmplay fuel p (wenv0, []) init = Ok ((x, (Es, P)), s) /\ forall g, represents (wr W g) (Es g) s.
Proof.
  intros H fuel Hf.
  destruct (gplay_most X p wstart [] x W T H wenv0 _ _ init fuel [] Hf start_tied ltac:(discriminate) ltac:(constructor)) as ([x' [Es P]] & s & Er & Hr & _ & _ & nms & Fs & Td).
  cbn [fst snd] in *. subst x'. exists Es, P, s. split; auto. intro g. exists (nms g), (Fs g). rewrite <- (wr_eta (wr W g)).
  apply (sim_move (others Es g) novols _ _ _ _ none none zeroc s s); [apply Td|apply ext_refl; eapply t_wf; eauto|intros y _ []|intros y _ []|apply pays_zero|intros b []|intros b []].
Qed.

(** Fixed lists of calls and releases in programs. *)
Definition gevent (e : event) : gstmt := match e with Do g c => GIn g (PApi c) | Release g => GRelease g end.
Fixpoint gcalls {X} (es : list event) (p : gprog X) : gprog X :=
  match es with [] => p | e :: r => GAct (gevent e) (fun _ => gcalls r p) end.
Definition dropped (e : event) (T : list gptr) : list gptr := match e with Release g => map (drop g) T | _ => T end.
Lemma gevent_step e W x W' T : wstep jd e W = Some (x, W') -> gsstep jd (gevent e) (W, T) = Some (x, (W', dropped e T)).
Proof. intro H. destruct e as [g c|g]; cbn [gevent gsstep dropped]; unfold gcall; cbn [fst snd]; now rewrite H. Qed.
Lemma gevent_passes e W T : gpasses (gevent e) (W, T) = wpasses e W.
Proof. now destruct e. Qed.
Lemma gcalls_play X es (p : gprog X) : forall W rs W' T, wrun jd es W = Some (rs, W') ->
  grplay jd (gcalls es p) (W, T) = grplay jd p (W', fold_left (fun T e => dropped e T) es T) /\
  (gpmost jd (gcalls es p) (W, T) = Nat.max (wmost jd es W) (gpmost jd p (W', fold_left (fun T e => dropped e T) es T))).
Proof.
  induction es as [|e es IH]; intros W rs W' T H; cbn [wrun] in H.
  - injection H as <- <-. auto.
  - cbn [gcalls grplay gpmost wmost fold_left]. destruct (wstep jd e W) as [[x W1]|] eqn:E1; [|discriminate]. rewrite (gevent_step e W x W1 T E1).
    destruct (wrun jd es W1) as [[xs W2]|] eqn:E2; [|discriminate]. injection H as _ ->. destruct (IH W1 xs W' (dropped e T) E2) as [K1 K2]. split; auto.
    rewrite K2, gevent_passes. lia.
Qed.
Lemma dropped_other g r es : ~ In (Release g) es -> fold_left (fun T e => dropped e T) es [Some (g, r)] = [Some (g, r)].
Proof.
  intro H. induction es as [|e es IH]; [reflexivity|]. cbn [fold_left].
  assert (E : dropped e [Some (g, r)] = [Some (g, r)]); [|rewrite E; apply IH; intro K; apply H; now right].
  destruct e as [j c|j]; [reflexivity|]. assert (N0 : j <> g) by (intros ->; apply H; now left).
  cbn [dropped map drop]. destruct r; [reflexivity|..]; (destruct (Nat.eqb_spec g j) as [En|En]; [now elim N0|reflexivity]).
Qed.
Lemma dropped_nil es : fold_left (fun T e => dropped e T) es [] = [].
Proof. induction es as [|e es IH]; cbn [fold_left]; auto. now destruct e. Qed.
(** [es1], a function that gives a text, [es2]; then the text its pointer points to. *)
Definition gkeep (es1 : list event) (g : nat) (v : giver) (h : nat) (es2 : list event) : gprog (answer * answer) :=
  gcalls es1 (GAct (GIn g (PTake v h)) (fun x => gcalls es2 (GAct (GIn 0 (PLook 0)) (fun y => GRet (x, y))))).
Lemma wrun_cut es1 : forall e es2 W rs W', wrun jd (es1 ++ e :: es2) W = Some (rs, W') ->
  exists rs1 W1 x W2 rs2, wrun jd es1 W = Some (rs1, W1) /\ wstep jd e W1 = Some (x, W2) /\ wrun jd es2 W2 = Some (rs2, W') /\
    nth_error rs (length es1) = Some x /\ wmost jd (es1 ++ e :: es2) W = Nat.max (wmost jd es1 W) (Nat.max (wpasses e W1) (wmost jd es2 W2)).
Proof.
  induction es1 as [|e1 es1 IH]; intros e es2 W rs W' H; cbn [app wrun] in H.
  - destruct (wstep jd e W) as [[x W2]|] eqn:E1; [|discriminate]. destruct (wrun jd es2 W2) as [[xs W3]|] eqn:E2; [|discriminate]. injection H as <- ->.
    exists [], W, x, W2, xs. cbn [app wmost wrun length nth_error]. rewrite E1. auto 6.
  - destruct (wstep jd e1 W) as [[x1 W1]|] eqn:E1; [|discriminate]. destruct (wrun jd (es1 ++ e :: es2) W1) as [[xs W3]|] eqn:E2; [|discriminate]. injection H as <- ->.
    destruct (IH e es2 W1 xs W' E2) as (rs1 & Wa & x & Wb & rs2 & K1 & K2 & K3 & K4 & K5).
    exists (x1 :: rs1), Wa, x, Wb, rs2. cbn [app wmost wrun length nth_error]. rewrite E1, K1, K5. repeat split; auto. lia.
Qed.
Theorem gkept es1 g v h es2 rs W x : wrun jd (es1 ++ Do g (pcall v h) :: es2) wstart = Some (rs, W) -> nth_error rs (length es1) = Some x ->
  ~ In (Release g) es2 ->
  forall fuel, (wmost jd (es1 ++ Do g (pcall v h) :: es2) wstart <= fuel)%nat ->
  exists Z s, gmplay fuel (gkeep es1 g v h es2) (wenv0, []) init = Ok (((x, x), Z), s).
Proof.
  intros H Hx Nr fuel Hf. destruct (wrun_cut _ _ _ _ _ _ H) as (rs1 & W1 & x' & W2 & rs2 & K1 & K2 & K3 & K4 & K5).
  assert (x' = x) as -> by congruence. rewrite K5 in Hf. clear H Hx K4 K5.
  set (p2 := fun x => GAct (GIn 0 (PLook 0)) (fun y => GRet (x, y)) : gprog (answer * answer)).
  set (q := match x with Text (Some t) => if is_pview v then RV t else RC t | _ => RNull end).
  destruct (gcalls_play _ es1 (GAct (GIn g (PTake v h)) (fun x => gcalls es2 (p2 x))) _ _ _ [] K1) as [Q1 Q2].
  destruct (gcalls_play _ es2 (p2 x) _ _ _ [Some (g, q)] K3) as [Q3 Q4].
  rewrite dropped_nil in Q1, Q2. rewrite (dropped_other g q es2 Nr) in Q3, Q4.
  destruct (wstep_do _ _ _ _ _ K2) as (R' & Er). destruct (gives_text jd v h _ x R' Er) as (o & ->).
  assert (P2 : grplay jd (p2 (Text o)) (W, [Some (g, q)]) = Some ((Text o, Text o), (W, [Some (g, q)]))).
  { cbn. subst q. destruct o as [t|]; [destruct (is_pview v)|]; reflexivity. }
  assert (M2 : gpmost jd (p2 (Text o)) (W, [Some (g, q)]) = 0%nat) by (cbn; destruct q; reflexivity).
  assert (P1 : grplay jd (gkeep es1 g v h es2) (wstart, []) = Some ((Text o, Text o), (W, [Some (g, q)]))).
  { unfold gkeep. fold p2 in Q1. etransitivity; [exact Q1|]. cbn [grplay gsstep fst snd]. rewrite K2. cbn [app]. etransitivity; [exact Q3|exact P2]. }
  assert (M1 : (gpmost jd (gkeep es1 g v h es2) (wstart, []) <= fuel)%nat).
  { unfold gkeep. fold p2 in Q2. etransitivity; [apply Nat.eq_le_incl; exact Q2|]. cbn [gpmost gsstep fst snd gpasses ppasses]. rewrite K2. cbn [app].
    pose proof (eq_trans Q4 (f_equal (Nat.max (wmost jd es2 W2)) M2)) as Q4'. etransitivity; [apply Nat.max_le_compat_l, Nat.max_le_compat_l, Nat.eq_le_incl; exact Q4'|]. cbn [wpasses] in Hf. lia. }
  destruct (gclient _ _ _ W [Some (g, q)] P1 fuel M1) as (Es & P & s & Er' & _). eauto.
Qed.
End Agree.
