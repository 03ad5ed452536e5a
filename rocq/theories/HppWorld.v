(** Programs with the classes of zzzjson.hpp and several groups of allocators.

    As in HppClient.v a program reacts to the answers and keeps the texts it is given.  Now its
    objects of class Allocator (/repo/zzzjson.hpp:14-26) are in any number of groups, and the
    objects of a group are destroyed when the program likes, the last one constructed first.
    A text is good until the group it was got from ends. *)
From Verif Require Import Base Spec Lex LexProofs Alloc AllocProofs Mem MemProofs Api PureParse Dom Effect Steps CacheProofs Start Vocab MoveProofs
  Scene SetFacts Double Client Hist HistRun HistForest HistSim HistStep HistAll HistCache HistMany HistWorld BetaSim BetaClient Keep KeepWorld Leak Cpp CppWorld Hpp HppAll HppClient.

Inductive ystmt :=
| YIn (g : nat) (c : hstmt)                    (* a statement of HppClient.v in group g *)
| YEnd (g : nat).                              (* the Allocator objects of group g are destroyed *)

(** ** On the reference *)
Section Ref.
Variable jd : judge.
(** A call in a group: as in C; the calls that make a wrapper object, which use no scratch
    string, take 8 bytes for it (Hpp.v). *)
Definition ystep (g : nat) (hc : hcall) (W : world) : option (answer * world) :=
  match plain hc (wr W g) with
  | None => None
  | Some c =>
      if makes_value c then
        match hrstep jd hc (wr W g) with
        | Some (x, R') => Some (x, mkW (updn (wr W) g R') (wc W) (wsure W) (wdead W))
        | None => None
        end
      else wstep jd (Do g c) W
  end.
Definition ycall (g : nat) (hc : hcall) (Z : gst) : option (answer * gst) :=
  match ystep g hc (fst Z) with Some (x, W) => Some (x, (W, snd Z)) | None => None end.
(** A text of another group must be copied or only read; SetNumStrLenFast of the class copies. *)
Definition ysstep (c : ystmt) (Z : gst) : option (answer * gst) :=
  match c with
  | YEnd g => gcall jd (Release g) (fst Z, map (drop g) (snd Z))
  | YIn g (HApi c) => ycall g c Z
  | YIn g (HTake v h) =>
      match ystep g (HC (pcall v h)) (fst Z) with
      | Some (x, W) => Some (x, (W, snd Z ++ [Some (g, match x with Text (Some t) => if is_pview v then RV t else RC t | _ => RNull end)]))
      | None => None
      end
  | YIn _ (HLook k) =>
      match nth_error (snd Z) k with
      | Some (Some (_, r)) => Some (Text (option_map snd (rtext r)), Z)
      | _ => None
      end
  | YIn g (HGive u h k) =>
      match nth_error (snd Z) k with
      | Some (Some (j, r)) =>
          match rtext r with
          | Some (view, t) =>
              if Nat.eqb j g || negb (tfast (as_taker u view))
              then match tcall u view h t with Some c => ycall g (HC c) Z | None => None end
              else None
          | None => None
          end
      | _ => None
      end
  end.
End Ref.

(** ** On the model *)
Definition henvs := nat -> henv.
Definition ymst := (henvs * list mptr)%type.
Definition ymstep (fuel : nat) (c : ystmt) (Z : ymst) : M (answer * ymst) :=
  let '(Hs, P) := Z in
  match c with
  | YEnd g => release_all (rev (ha (Hs g))) ;;; ret (Done, (updn Hs g hstart, P))
  | YIn g c => xz <- hmstep fuel c (Hs g, P) ;; ret (fst xz, (updn Hs g (fst (snd xz)), snd (snd xz)))
  end.
Definition ystart : ymst := (fun _ => hstart, []).

(** ** Programs *)
Inductive yprog (X : Type) :=
| YRet (x : X)
| YStuck
| YAct (c : ystmt) (k : answer -> yprog X).
Arguments YRet {X} x.
Arguments YStuck {X}.
Arguments YAct {X} c k.
Fixpoint yrplay {X} (jd : judge) (p : yprog X) (Z : gst) : option (X * gst) :=
  match p with
  | YRet x => Some (x, Z)
  | YStuck => None
  | YAct c k => match ysstep jd c Z with Some (a, Z1) => yrplay jd (k a) Z1 | None => None end
  end.
Fixpoint ymplay {X} (fuel : nat) (p : yprog X) (Z : ymst) : M (X * ymst) :=
  match p with
  | YRet x => ret (x, Z)
  | YStuck => fail EFuel
  | YAct c k => az <- ymstep fuel c Z ;; ymplay fuel (k (fst az)) (snd az)
  end.

(** ** Calls that use no scratch string, in a group *)
Lemma do_tied0 g W R' X (m : M X) (e : X -> env) Es nms Fs s : tied W Es nms Fs s ->
  wp m s (fun r s' => exists nm' F', @after (others Es g) 0 (Es g) (Fs g) s R' (e r) nm' F' s') -> keepsC m ->
  wp m s (fun r s' => (exists nms' Fs', tied (mkW (updn (wr W) g R') (wc W) (wsure W) (wdead W)) (updn Es g (e r)) nms' Fs' s') /\
    (exists Dn Dv cc, ext Dn Dv cc s s') /\ forall j, lasts Es (updn Es g (e r)) s s' j).
Proof.
  intros T K Kc. eapply wp_mono; [apply wp_ran, K|]. intros xe s' [(nm' & F' & Af) Ran].
  destruct Af as [Sg (cc & X0 & M) Nw Hs As (lh & la & Eh & Ea)].
  assert (Al0 : forall A, cc A <> 0 -> In A (ea (Es g))).
  { intros A HA. destruct (M A HA) as [Q|[_ Q]]; auto. unfold needN in Q. lia. }
  assert (Oth : forall A, @isvol (others Es g) A -> cc A = 0).
  { intros A HV. destruct (N.eq_dec (cc A) 0) as [E|E]; auto. exfalso. apply Al0 in E.
    exact (proj2 (sim_alive _ _ _ _ _ _ (t_sim _ _ _ _ _ T g) E) HV). }
  split; [|split; [eauto|exact (lasts_do Es g _ _ _ _ _ _ X0 As)]].
  eexists _, _. apply (tied_do W Es nms Fs s g 0 R' (e xe) nm' F' s' _ cc); auto.
  - intros v Hv. destruct (Hs v Hv); auto.
  - intros A HA. rewrite Ea. apply in_or_app. now left.
  - apply updn_eq.
  - intros j Nj. exists (ru (wr W j)). rewrite updn_neq by auto. split; [now destruct (wr W j)|]. apply pays_none.
    intros A HA. apply Oth. split; [|eauto]. eapply t_alive; eauto.
  - intro Dd. destruct (t_cache _ _ _ _ _ T Dd) as (C1 & C2 & C3). pose proof (Kc s xe s' Ran) as Ec.
    split; [eapply live_after; eauto|]. split; [|rewrite Ec; auto].
    intros A Ho. destruct (home_after _ _ _ _ _ _ X0 C1 Ho) as [Q|[Q _]].
    + destruct (C2 A Q) as (j & Hj & HA). exists j. split; auto. destruct (Nat.eq_dec j g) as [->|Nj].
      * rewrite updn_eq, Ea. apply in_or_app. now left.
      * now rewrite updn_neq.
    + exfalso. destruct Ho as (p & z & Hp & _). congruence.
Qed.
Lemma nth_ext_eq X : forall l l' : list X, (forall h, nth_error l h = nth_error l' h) -> l = l'.
Proof.
  induction l as [|a l IH]; intros [|b l'] K; auto; try (specialize (K 0%nat); discriminate K).
  pose proof (K 0%nat) as K0. injection K0 as ->. f_equal. apply IH. intro h. exact (K (Datatypes.S h)).
Qed.
(** The value objects that the wrapper objects stand for. *)
Definition env_of (H : henv) : env := mkE (map (fun w => match hm H w with Some v => v | None => w end) (hw H)) (ha H).
Lemma env_of_eq H E s : wrel H E s -> env_of H = E.
Proof.
  intros [L Ea K]. unfold env_of. destruct E as [vs As]. cbn [eh ea] in *. f_equal; auto. apply nth_ext_eq. intro h.
  rewrite nth_error_map. destruct (nth_error (hw H) h) as [w|] eqn:Ew; cbn [option_map].
  - destruct (K h w Ew) as (v & A & V1 & V2 & _). now rewrite V2, V1.
  - symmetry. apply nth_error_None. rewrite <- L. now apply nth_error_None.
Qed.

(** ** Statements that make no object are statements in C *)
Definition quiet (c : hstmt) : bool :=
  match c with HApi (HC c) => negb (makes_value c) | HApi (HNew _) => false | HGive TFind _ _ => false | _ => true end.
Definition in_pc (c : hstmt) (P : list mptr) : pstmt :=
  match c with
  | HApi (HC c) => PApi (as_c c)
  | HApi (HNew _) => PApi CNewAllocator
  | HTake v h => PTake v h
  | HLook k => PLook k
  | HGive u h k => PGive (as_taker u (match nth_error P k with Some (MV _ _) => true | _ => false end)) h k
  end.
Definition forth (H : henv) (r : res ((answer * pmst) * st)) : res ((answer * hmst) * st) :=
  match r with
  | Ok ((x, (E', P')), s') => Ok ((x, (mkH (hw H) (ea E') (hm H), P')), s')
  | Err e => Err e
  end.
Lemma henv_eta H E s : wrel H E s -> mkH (hw H) (ea E) (hm H) = H.
Proof. intros [_ Ea _]. rewrite <- Ea. now destruct H. Qed.
Lemma at_object H E s h (mw : addr -> M (answer * hmst)) (mv : addr -> M (answer * pmst)) : wfst s -> wrel H E s ->
  (forall w v, points (hm H) s w v -> mw w s = forth H (mv v s)) -> (w <- wof H h ;; mw w) s = forth H ((v <- hof E h ;; mv v) s).
Proof.
  intros W Rl K. unfold wof, hof, bind, ret, fail. destruct (nth_error (eh E) h) as [v|] eqn:Ev.
  - destruct (wrel_at H E s h v W Rl Ev) as (w & -> & P). apply K, P.
  - assert (nth_error (hw H) h = None) as ->; [|reflexivity]. apply nth_error_None. rewrite (wr_len _ _ _ Rl). now apply nth_error_None.
Qed.
Lemma bind_ok X Y (m : M X) (k : X -> M Y) s x s1 : m s = Ok (x, s1) -> (x <- m ;; k x) s = k x s1.
Proof. intro K. unfold bind. now rewrite K. Qed.
Lemma bind_err X Y (m : M X) (k : X -> M Y) s e : m s = Err e -> (x <- m ;; k x) s = Err e.
Proof. intro K. unfold bind. now rewrite K. Qed.
Lemma hm_same fuel c H E P s : wfst s -> wrel H E s -> quiet c = true -> hmstep fuel c (H, P) s = forth H (pmstep fuel (in_pc c P) (E, P) s).
Proof.
  intros W Rl Q. pose proof (henv_eta H E s Rl) as Et. destruct c as [[c|h]|v h|k|u h k]; cbn [quiet hmstep in_pc pmstep] in *; try discriminate Q.
  - apply Bool.negb_true_iff in Q. unfold hmcall, pmcall, bind at 1 2. rewrite (plain_same H E s W Rl fuel c Q).
    destruct (cstep fuel (as_c c) E s) as [[[x E'] s']|e]; reflexivity.
  - apply (at_object H E s h); auto. intros w a Pw. destruct (is_pview v).
    + unfold bind at 1 3. rewrite (w_view_on v _ w s a Pw). destruct (pview v a s) as [[r s1]|e]; [|reflexivity].
      unfold bind, ret. destruct (out_view r s1) as [[x s2]|e]; cbn [forth]; [now rewrite Et|reflexivity].
    + unfold bind at 1 3. rewrite (w_give_on fuel v _ w s a Pw). destruct (pgive fuel v a s) as [[r s1]|e]; [|reflexivity].
      unfold bind, ret. destruct (out_text r s1) as [[x s2]|e]; cbn [forth]; [now rewrite Et|reflexivity].
  - unfold bind. destruct (mtake P k s) as [[p s1]|e]; [|reflexivity].
    destruct (_ s1) as [[x s2]|e] eqn:Ex; cbn [forth ret]; [now rewrite Et|reflexivity].
  - assert (Nf : u <> TFind) by (intros ->; discriminate Q).
    apply (at_object H E s h); auto. intros w a Pw. unfold mtake. destruct (nth_error P k) as [p|]; [|reflexivity]. do 2 (rewrite (bind_ok _ _ (ret p) _ s p s eq_refl)).
    destruct p as [|b|b n]; [reflexivity|..]; (destruct (deref b s) as [[q s1]|e] eqn:Ed; [|do 2 (rewrite (bind_err _ _ _ _ _ _ Ed)); reflexivity]);
      (assert (s1 = s) as -> by (unfold deref in Ed; destruct b; try discriminate Ed; unfold ret in Ed; congruence)); do 2 (rewrite (bind_ok _ _ _ _ _ _ _ Ed));
      unfold hmcall, pmcall, bind; rewrite (w_take_on fuel u _ H E w s a q _ Nf Pw);
      destruct (ptake fuel _ _ E a q _ s) as [[[x E'] s2]|e] eqn:Ep; try reflexivity;
      cbn [forth ret fst snd]; (apply HppClient.ptake_env in Ep as ->; [now rewrite Et|]);
      destruct u as [fast|num fast| |fast| | |]; cbn [as_taker]; try discriminate; try (now elim Nf); destruct num, fast; discriminate.
Qed.

Lemma cstep_ea fuel c E s xe s' : cstep fuel c E s = Ok (xe, s') -> incl (ea E) (ea (snd xe)).
Proof.
  intro Ec. assert (Ow : forall r, ea (snd (out_value E r)) = ea E) by (intros [v|]; reflexivity).
  assert (G : Leak.gives (cstep fuel c E) (fun xe => incl (ea E) (ea (snd xe)))).
  { destruct c; cbn [cstep]; repeat (apply Leak.gi_bind; intro); try (apply Leak.gi_env; apply incl_refl); apply Leak.gi_ret; try apply incl_refl;
      try (rewrite Ow; apply incl_refl). cbn [snd ea]. apply incl_appl, incl_refl. }
  exact (G s xe s' Ec).
Qed.
Lemma quiet_env fuel c E P s x E' P' s' : quiet c = true -> pmstep fuel (in_pc c P) (E, P) s = Ok ((x, (E', P')), s') -> eh E' = eh E /\ incl (ea E) (ea E').
Proof.
  intros Q K. destruct c as [[c|h]|v h|k|u h k]; cbn [quiet in_pc pmstep] in *; try discriminate Q.
  - apply Bool.negb_true_iff in Q. unfold pmcall in K. apply bind_inv in K as (xe & s1 & K & K2). injection K2 as _ <- _ _. rewrite <- as_c_plain in Q.
    split; [eapply cstep_eh; eauto|eapply cstep_ea; eauto].
  - apply bind_inv in K as (a & s1 & _ & K). assert (E' = E) as ->; [|split; auto using incl_refl].
    destruct (is_pview v); apply bind_inv in K as (r & s2 & _ & K); apply bind_inv in K as (y & s3 & _ & K); now injection K as _ <- _ _.
  - apply bind_inv in K as (p & s1 & _ & K). apply bind_inv in K as (y & s2 & _ & K). injection K as _ <- _ _. split; auto using incl_refl.
  - assert (Nf : u <> TFind) by (intros ->; discriminate Q). apply bind_inv in K as (a & s1 & _ & K). apply bind_inv in K as (p & s2 & _ & K).
    assert (E' = E) as ->; [|split; auto using incl_refl]. remember (match nth_error P k with Some (MV _ _) => true | _ => false end) as b0 eqn:Eb.
    assert (Na : as_taker u b0 <> TFind) by (destruct u as [fast|num fast| |fast| | |]; cbn [as_taker]; try discriminate; try (now elim Nf); destruct num, fast; discriminate).
    destruct p as [|b|b n]; [discriminate K|..]; apply bind_inv in K as (q & s3 & _ & K); unfold pmcall in K; apply bind_inv in K as ([y E1] & s4 & K & K2);
      injection K2 as _ <- _ _; cbn [snd]; eapply HppClient.ptake_env; eauto.
Qed.

(** ** The two agree *)
Section Agree.
Variable jd : judge.
Hypothesis J : correct jd.
Definition ygets (x : answer) (W' : world) (T' : list gptr) (xz : answer * ymst) (s' : st) : Prop :=
  fst xz = x /\ let '(Hs', P') := snd xz in settled s' /\ exists Es' nms' Fs', tied W' Es' nms' Fs' s' /\ aimed Es' s' P' T' /\ forall g, wrel (Hs' g) (Es' g) s'.
Lemma quiet_ref g c W T r : quiet c = true -> ysstep jd (YIn g c) (W, T) = Some r ->
  exists d, gsstep jd (GIn g d) (W, T) = Some r /\ forall Es s P, aimed Es s P T -> in_pc c P = d.
Proof.
  intros Q St. destruct c as [[c|h]|v h|k|u h k]; cbn [quiet ysstep] in *; try discriminate Q.
  - apply Bool.negb_true_iff in Q. exists (PApi (as_c c)). split; auto. unfold ycall, ystep in St. cbn [plain fst snd] in St. now rewrite as_c_plain, Q in St.
  - exists (PTake v h). split; auto. unfold ystep in St. cbn [plain fst snd] in St.
    assert (as_c (pcall v h) = pcall v h) as Ea by now destruct v. assert (makes_value (pcall v h) = false) as Em by now destruct v. rewrite Ea, Em in St. exact St.
  - exists (PLook k). split; auto.
  - cbn [snd fst] in St. destruct (nth_error T k) as [[[j r0]|]|] eqn:Ek; try discriminate St. destruct (rtext r0) as [[view t]|] eqn:Er; [|discriminate St].
    destruct (_ || _) eqn:Eo; [|discriminate St]. destruct (tcall u view h t) as [c|] eqn:Ec; [|discriminate St].
    exists (PGive (as_taker u view) h k). split.
    + cbn [gsstep snd]. rewrite Ek, Er, Eo, (as_taker_call _ _ _ _ _ Ec). unfold ycall, ystep in St. cbn [plain fst snd] in St.
      rewrite as_c_plain, (taker_value u view h t c Ec) in St. destruct u; try discriminate Q; exact St.
    + intros Es s P Am. cbn [in_pc]. destruct (aimed_nth Es s P T k j r0 Am Ek) as (m & -> & Pm).
      destruct r0 as [|t'|t']; try discriminate Er; injection Er as <- _; destruct m; try contradiction; reflexivity.
Qed.
Lemma value_need hc R c : plain hc R = Some c -> makes_value c = true -> hneed hc = 0.
Proof. destruct hc as [c0|h]; cbn [plain hneed]; [|reflexivity]. intros [= <-] V. now destruct (as_c c0). Qed.
#[local] Hint Resolve kc_alloc kc_store kc_load kc_free kc_buf kc_ufree kc_putNode kc_putVal kc_putZ kc_parse_loop kc_stringify_loop kc_nth_node kc_copy_loop kc_adopt : keeps.
Lemma kc_wval W w : keepsC (wval W w).
Proof. intros s x s' K. unfold wval in K. destruct (sbsize s (fst w)), (W w); try discriminate K. now injection K as _ <-. Qed.
#[local] Hint Resolve kc_wval : keeps.
Lemma hstep_keeps fuel hc H R c : plain hc R = Some c -> makes_value c = true -> keepsC (hstep fuel hc H).
Proof.
  intros Pc V. destruct hc as [c0|h]; cbn [plain] in Pc.
  - injection Pc as <-. rewrite as_c_plain in V. destruct c0; try discriminate V; cbn [hstep]; keeps.
  - cbn [hstep]. keeps.
Qed.
Lemma find_keeps fuel view H w p n : keepsC (w_take fuel TFind view H w p n).
Proof. cbn [w_take]. keeps. Qed.

Lemma wrel_updn (Hs : henvs) (Es : wenv) g H' E' s s' Dn Dv c : (forall j, wrel (Hs j) (Es j) s) -> ext Dn Dv c s s' -> wrel H' E' s' ->
  forall j, wrel (updn Hs g H' j) (updn Es g E' j) s'.
Proof.
  intros Rl X K j. destruct (Nat.eq_dec j g) as [->|Nj]; [now rewrite !updn_eq|]. rewrite !updn_neq by auto. eapply wrel_ext; eauto.
Qed.
(** A call that makes an object. *)
Lemma object_wp g W T x R' (m : M (answer * henv)) Es nms Fs s Hs P : tied W Es nms Fs s -> settled s -> aimed Es s P T -> (forall g, wrel (Hs g) (Es g) s) ->
  wp m s (@hgoes (others Es g) 0 (Es g) (Fs g) s x R') -> keepsC m ->
  wp (xz <- hmcall m P ;; ret (fst xz, (updn Hs g (fst (snd xz)), snd (snd xz)))) s (ygets x (mkW (updn (wr W) g R') (wc W) (wsure W) (wdead W)) T).
Proof.
  intros Td Se Am Rl K Kc. destruct K as (xh & s' & Em & Hx & E' & nm' & F' & Af & Rl').
  destruct (do_tied0 g W R' _ m (fun xh => env_of (snd xh)) Es nms Fs s Td) as (xh2 & s2 & Em2 & (nms' & Fs' & Td') & (Dn & Dv & cc & X) & La).
  - exists xh, s'. split; auto. exists nm', F'. now rewrite (env_of_eq _ _ _ Rl').
  - exact Kc.
  - rewrite Em in Em2. injection Em2 as <- <-. rewrite (env_of_eq _ _ _ Rl') in *.
    eexists _, s'. split; [unfold hmcall, bind, ret; rewrite Em; reflexivity|]. split; [exact Hx|]. cbn [fst snd].
    split; [eapply settled_ext; eauto|]. exists (updn Es g E'), nms', Fs'. split; [exact Td'|]. split; [eapply aimed_lasts; eauto|].
    eapply wrel_updn; eauto.
Qed.
Lemma wrel_freed H E s s' l : wrel H E s -> freed s l s' -> (forall A, In A (ea E) -> ~ In A l) -> wrel H E s'.
Proof.
  intros [L Ea K] Fr D. constructor; auto. intros h w Hh. destruct (K h w Hh) as (v & A & V1 & V2 & (ar & k & V3) & V4).
  exists v, A. split; auto. split; auto. split; auto. exists ar, k. rewrite (fr_allocs _ _ _ Fr A); auto.
Qed.
Lemma ystmt_wp c W T x W' T' : ysstep jd c (W, T) = Some (x, (W', T')) ->
  exists f0, forall Es nms Fs s fuel Hs P, (f0 <= fuel)%nat -> tied W Es nms Fs s -> settled s -> aimed Es s P T -> (forall g, wrel (Hs g) (Es g) s) ->
    wp (ymstep fuel c (Hs, P)) s (ygets x W' T').
Proof.
  intro St. destruct c as [g c|g].
  2:{ exists 0%nat. intros Es nms Fs s fuel Hs P _ Td Se Am Rl. pose proof (t_wf _ _ _ _ _ Td) as Wf. cbn [ysstep] in St. unfold gcall in St. cbn [fst snd wstep] in St. injection St as <- <- <-.
    cbn [ymstep]. rewrite (wr_ha _ _ _ (Rl g)). apply wp_bind. apply (wp_mono _ _ (fun _ => freed s (rev (ea (Es g))))).
    { apply release_all_wp; auto; [apply NoDup_rev, (t_sim _ _ _ _ _ Td g)|]. intros A HA. rewrite <- in_rev in HA. eapply t_alive; eauto. }
    intros _ s' Fr. apply (freed_same _ _ (ea (Es g))) in Fr; [|intro A; now rewrite <- in_rev]. apply wp_ret. cbn [fst snd]. split; auto. cbn [snd].
    destruct (release_tied g W Es nms Fs s s' Td Fr) as [(nms' & Fs' & Tr) La]. split; [eapply settled_freed; eauto|].
    exists (updn Es g estart), nms', Fs'. split; auto. split; [eapply aimed_drop; eauto|].
    intro j. destruct (Nat.eq_dec j g) as [->|Nj].
    - rewrite !updn_eq. constructor; auto. intros h w K. destruct h; discriminate K.
    - rewrite !updn_neq by auto. apply (wrel_freed _ _ s s' (ea (Es g))); auto. intros A HA HB. apply Nj. exact (t_ea _ _ _ _ _ _ _ _ Td HA HB). }
  destruct (quiet c) eqn:Q.
  - destruct (quiet_ref g c W T _ Q St) as (d & Sd & Id). exists (gpasses (GIn g d) (W, T)).
    intros Es nms Fs s fuel Hs P Hf Td Se Am Rl. pose proof (t_wf _ _ _ _ _ Td) as Wf. pose proof (Id Es s P Am) as Ed.
    destruct (gin_wp jd J g d W T x W' T' Sd Es nms Fs s fuel P Hf Td Se Am) as (xz & s' & Eg & [(Hx & Gz) (Dn & Dv & cc & X)]).
    cbn [gmstep] in Eg. apply bind_inv in Eg as ([y [E1 P1]] & s1 & Ep & Er). injection Er as <- <-. cbn [fst snd] in *. subst y. destruct Gz as (Se1 & Am1 & nms' & Fs' & Td1).
    rewrite <- Ed in Ep. destruct (quiet_env fuel c (Es g) P s x E1 P1 s1 Q Ep) as [Eh Ea].
    cbn [ymstep]. exists (x, (updn Hs g (mkH (hw (Hs g)) (ea E1) (hm (Hs g))), P1)), s1. split.
    { unfold bind. rewrite (hm_same fuel c (Hs g) (Es g) P s Wf (Rl g) Q), Ep. reflexivity. }
    split; [reflexivity|]. cbn [snd]. split; [exact Se1|]. exists (updn Es g E1), nms', Fs'. split; [exact Td1|]. split; [exact Am1|].
    eapply wrel_updn; eauto. eapply wrel_keep; eauto.
  - destruct c as [hc|v h|k|u h k]; try discriminate Q; cbn [ysstep] in St.
    + unfold ycall, ystep in St. cbn [fst snd] in St. destruct (plain hc (wr W g)) as [c|] eqn:Pc; [|discriminate St].
      assert (V : makes_value c = true).
      { destruct hc as [c0|h]; cbn [quiet plain] in *; [injection Pc as <-; rewrite as_c_plain; now destruct (makes_value c0)|].
        destruct (nth_error (rh (wr W g)) h) as [[o A]|]; [|discriminate Pc]. now injection Pc as <-. }
      rewrite V in St. destruct (hrstep jd hc (wr W g)) as [[y R']|] eqn:Eh; [|discriminate St]. injection St as <- <- <-.
      destruct (hstep_ok jd J hc (wr W g) y R' Eh) as (f0 & K). exists f0. intros Es nms Fs s fuel Hs P Hf Td Se Am Rl.
      pose proof (value_need hc _ c Pc V) as Z. pose proof (K (others Es g) (Es g) (nms g) (Fs g) s fuel (Hs g) Hf (t_sim _ _ _ _ _ Td g)) as K1. rewrite Z in K1.
      cbn [ymstep hmstep]. eapply object_wp; eauto; [|eapply hstep_keeps; eauto]. apply K1; auto. intro F0. now elim F0.
    + destruct u; try discriminate Q. cbn [fst snd] in St. destruct (nth_error T k) as [[[j r0]|]|] eqn:Ek; try discriminate St. destruct (rtext r0) as [[view t]|] eqn:Er; [|discriminate St].
      destruct (_ || _) eqn:Eo; [|discriminate St]. destruct (tcall TFind view h t) as [c|] eqn:Ec; [|discriminate St].
      unfold ycall, ystep in St. cbn [plain fst snd] in St. rewrite as_c_plain, (taker_value TFind view h t c Ec) in St.
      destruct (hrstep jd (HC c) (wr W g)) as [[y R']|] eqn:Eh; [|discriminate St]. injection St as <- <- <-.
      exists (members (wr W g) h). intros Es nms Fs s fuel Hs P Hf Td Se Am Rl. pose proof (t_wf _ _ _ _ _ Td) as Wf. pose proof (t_sim _ _ _ _ _ Td g) as Sg.
      assert (exists v, nth_error (eh (Es g)) h = Some v) as (v & Hv).
      { assert (exists y R1, rstep jd (as_c c) (wr W g) = Some (y, R1)) as (y1 & R1 & E1).
        { unfold hrstep, plain in Eh. destruct (rstep jd (as_c c) (wr W g)) as [[y1 R1]|]; [eauto|discriminate]. }
        exact (taken_value jd (as_taker TFind view) view h t (as_c c) (wr W g) y1 R1 (Es g) (nms g) (Fs g) s (as_taker_call _ _ _ _ _ Ec) E1 Sg). }
      destruct (aimed_nth Es s P T k j r0 Am Ek) as (m & Hm & Pm). destruct (wrel_at (Hs g) (Es g) s h v Wf (Rl g) Hv) as (w & Hw & Pw).
      assert (Z : hneed (HC c) = 0) by (cbn [tcall] in Ec; injection Ec as <-; reflexivity).
      assert (W1 : forall p, @held (others Es j) true view s p t ->
        wp (xz <- hmcall (w_take fuel TFind view (Hs g) w p (lenN t)) P ;; ret (fst xz, (updn Hs g (fst (snd xz)), snd (snd xz)))) s
           (ygets y (mkW (updn (wr W) g R') (wc W) (wsure W) (wdead W)) T)).
      { intros p Hp. eapply object_wp; eauto; [|apply find_keeps].
        pose proof (w_take_wp jd J TFind view h t c (wr W g) y R' Ec Eh (others Es g) (Es g) (nms g) (Fs g) s fuel (Hs g) w v p Hf Sg) as K. rewrite Z in K.
        apply K; auto; [intro F0; now elim F0|]. exact (@held_safe (others Es j) false view s p t Hp). }
      cbn [ymstep hmstep]. unfold wof, mtake. rewrite Hw, Hm.
      assert (Et : forall q, (forall p, q = At p -> @held (others Es j) true view s p t) -> forall p n, q = At p -> n = lenN t \/ view = false ->
        wp (xz <- (w <- ret w ;; p <- ret m ;; a <- deref q ;; hmcall (w_take fuel TFind view (Hs g) w a n) P) ;; ret (fst xz, (updn Hs g (fst (snd xz)), snd (snd xz)))) s
           (ygets y (mkW (updn (wr W) g R') (wc W) (wsure W) (wdead W)) T)).
      { intros q Hq p n -> Hn. pose proof (W1 p (Hq p eq_refl)) as K. 
        assert (Ew : w_take fuel TFind view (Hs g) w p n = w_take fuel TFind view (Hs g) w p (lenN t)) by (destruct Hn as [-> | ->]; reflexivity).
        unfold wp, hmcall, bind, ret, deref in *. cbv beta iota in *. unfold ret. cbv beta iota. rewrite Ew. exact K. }
      destruct r0 as [|t'|t']; try discriminate Er; injection Er as <- <-; destruct m as [|w'|w' n]; try contradiction; cbn [BetaClient.points] in Pm.
      * destruct Pm as (p & -> & Kt). apply (Et (At p)) with (p := p); auto. intros p' [= <-]. exact Kt.
      * destruct Pm as (p & -> & -> & Sf). apply (Et (At p)) with (p := p); auto. intros p' [= <-]. exact Sf.
Qed.
Theorem yplay_ok X (p : yprog X) : forall W T x W' T', yrplay jd p (W, T) = Some (x, (W', T')) ->
  exists f0, forall Es nms Fs s fuel Hs P, (f0 <= fuel)%nat -> tied W Es nms Fs s -> settled s -> aimed Es s P T -> (forall g, wrel (Hs g) (Es g) s) ->
    wp (ymplay fuel p (Hs, P)) s (fun xz s' => fst xz = x /\ let '(Hs', P') := snd xz in settled s' /\
      exists Es' nms' Fs', tied W' Es' nms' Fs' s' /\ aimed Es' s' P' T' /\ forall g, wrel (Hs' g) (Es' g) s').
Proof.
  induction p as [x0| |c k IH]; intros W T x W' T' K; cbn [yrplay ymplay] in *.
  - injection K as <- <- <-. exists 0%nat. intros. apply wp_ret. cbn [fst snd]. split; auto. split; auto. exists Es, nms, Fs. auto.
  - discriminate.
  - destruct (ysstep jd c (W, T)) as [[a [W1 T1]]|] eqn:E1; [|discriminate]. destruct (ystmt_wp c W T a W1 T1 E1) as (f1 & K1). destruct (IH a W1 T1 x W' T' K) as (f2 & K2).
    exists (Nat.max f1 f2). intros Es nms Fs s fuel Hs P Hf Td Se Am Rl. apply wp_bind.
    eapply wp_mono; [apply (K1 Es nms Fs s fuel Hs P); auto; exact (Nat.max_lub_l _ _ _ Hf)|].
    intros [a' [H2 P2]] s1 (Ha & Se2 & E2 & nm2 & F2 & Td2 & Am2 & Rl2). cbn [fst snd] in *. subst a'. eapply K2; eauto. exact (Nat.max_lub_r _ _ _ Hf).
Qed.
(** Every program, from nothing. *)
Theorem yclient X (p : yprog X) x W T : yrplay jd p (wstart, []) = Some (x, (W, T)) ->
  exists f0, forall fuel, (f0 <= fuel)%nat ->
  exists Hs P s, ymplay fuel p ystart init = Ok ((x, (Hs, P)), s) /\ exists Es, (forall g, represents (wr W g) (Es g) s) /\ forall g, wrel (Hs g) (Es g) s.
Proof.
  intro K. destruct (yplay_ok X p wstart [] x W T K) as (f0 & Q). exists f0. intros fuel Hf.
  destruct (Q wenv0 _ _ init fuel (fun _ => hstart) [] Hf start_tied ltac:(discriminate) ltac:(constructor) (fun _ => start_wrel))
    as ([x' [Hs P]] & s & Er & Hr & _ & Es & nms & Fs & Td & _ & Rl).
  cbn [fst snd] in *. subst x'. exists Hs, P, s. split; auto. exists Es. split; auto. intro g. exists (nms g), (Fs g). rewrite <- (wr_eta (wr W g)).
  apply (sim_move (others Es g) novols _ _ _ _ none none zeroc s s); [apply Td|apply ext_refl; eapply t_wf; eauto|intros y _ []|intros y _ []|apply pays_zero|intros b []|intros b []].
Qed.
End Agree.

(** ** What stays in use *)
Definition ykeeps (c : ystmt) : bool := match c with YIn _ c => hskeeps c | YEnd _ => false end.
(** The caller's buffers that a program leaves in use. *)
Fixpoint ybuffers {X} (fuel : nat) (p : yprog X) (Z : ymst) (s : st) : list N :=
  match p with
  | YAct c k =>
      match ymstep fuel c Z s with
      | Ok (az, s') => (if ykeeps c then [snext s] else []) ++ ybuffers fuel (k (fst az)) (snd az) s'
      | Err _ => []
      end
  | _ => []
  end.
#[local] Hint Resolve ko_alloc ko_store ko_load ko_putNode ko_putVal ko_putZ ko_parse_loop ko_stringify_loop ko_nth_node ko_copy_loop ko_adopt ko_wval : keepo.
(** What a statement does to the blocks in use, whatever the other groups have. *)
Definition hpp_effect (k : bool) (H : henv) (s : st) (H' : henv) (s' : st) : Prop :=
  tidy s' /\ (forall A b, owns s A b -> owns s' A b) /\
  (forall b, sbsize s' b <> None -> sbsize s b <> None \/ (k = true /\ b = snext s) \/ exists A, owns s' A b) /\
  (forall A, sallocs s' A <> None -> sallocs s A <> None \/ In A (ha H')) /\ incl (ha H) (ha H').
Lemma hstep_effect fuel hc H s xe s' : tidy s -> hstep fuel hc H s = Ok (xe, s') -> hpp_effect (hkeeps hc) H s (snd xe) s'.
Proof.
  intros T Ec. destruct (hkeeps hc) eqn:Kb.
  - assert (Nc : hc <> HC CNewAllocator) by (intros ->; discriminate). pose proof (hstep_ha fuel hc H Nc s xe s' Ec) as Ee. cbv beta in Ee.
    assert (K : exists X t (m : addr -> M X) x, (forall p, keepsO (m p)) /\ keep t m s = Ok (x, s')).
    { destruct hc as [c|h]; [|discriminate]. destruct c; try discriminate; cbn [hstep] in Ec; unfold bind at 1 in Ec; destruct (wof H h s) as [[v s1]|e] eqn:Eh; try discriminate; apply wof_pure in Eh as ->;
        apply with_henv_inv in Ec as (x & Ec).
      - destruct k; try discriminate. eexists bool, _, _, x. split; [|exact Ec]. intro p; cbv beta; owned.
      - destruct num, k; try discriminate Kb; cbn [w_kept kept_kind pass] in Ec; eexists bool, _, _, x; (split; [|exact Ec]); intro p; cbv beta; owned.
      - destruct k; try discriminate Kb; cbn [kept_kind pass] in Ec; eexists bool, _, _, x; (split; [|exact Ec]); intro p; cbv beta; owned. }
    destruct K as (X & t & m & x & Km & K). destruct (keep_live _ _ _ _ _ _ Km T K) as (K1 & K2 & K3 & K4).
    split; auto. split; auto. split; [|split; [|rewrite Ee; apply incl_refl]].
    + intros b Hb. destruct (K3 b Hb) as [|[]]; auto.
    + intros A HA. left. auto.
  - assert (D : hc = HC CNewAllocator \/ hc <> HC CNewAllocator) by (destruct hc as [c|h]; [destruct c; auto; right; discriminate|right; discriminate]).
    destruct D as [->|Nc].
    + cbn [hstep] in Ec. unfold bind, zj_NewAllocator, ret in Ec. injection Ec as <- <-. cbn [snd ha].
      split; [|split; [|split; [|split]]].
      * constructor; cbn [sallocs snext].
        -- intros A L. rewrite updN_neq by lia. apply (ti_next _ T). lia.
        -- intros A ar HA. destruct (N.eq_dec A (snext s)) as [->|D]; [rewrite updN_eq in HA; injection HA as <-; exists []; reflexivity|].
           rewrite updN_neq in HA by auto. now apply (ti_root _ T).
      * intros A b (ar & k & H1 & H2). exists ar, k. cbn [sallocs]. split; auto. rewrite updN_neq; auto. intros ->. rewrite (ti_next _ T (snext s)) in H1 by lia. discriminate.
      * intros b Hb. cbn [sbsize] in Hb. destruct (N.eq_dec b (snext s)) as [->|D]; [|rewrite updN_neq in Hb by auto; auto].
        right. right. exists (snext s), [first_chunk (snext s)], (first_chunk (snext s)). cbn [sallocs]. rewrite updN_eq. split; auto. split; [now left|reflexivity].
      * intros A HA. cbn [sallocs] in HA. cbn [ha]. destruct (N.eq_dec A (snext s)) as [->|D]; [right; apply in_or_app; right; now left|]. rewrite updN_neq in HA by auto. auto.
      * cbn [ha]. apply incl_appl, incl_refl.
    + pose proof (hstep_ha fuel hc H Nc s xe s' Ec) as Ee. cbv beta in Ee. pose proof (hstep_owned fuel hc H Kb Nc s xe s' T Ec) as G.
      split; [apply G|]. split; [apply G|]. split; [|split; [|rewrite Ee; apply incl_refl]].
      * intros b Hb. destruct (gr_live _ _ G b Hb); auto.
      * intros A HA. left. now apply (gr_same _ _ G).
Qed.
Lemma hmstep_effect fuel c H P s xz s' : tidy s -> hmstep fuel c (H, P) s = Ok (xz, s') -> hpp_effect (hskeeps c) H s (fst (snd xz)) s'.
Proof.
  intros T K. assert (D : (exists d, c = HApi d) \/ forall d, c <> HApi d) by (destruct c; [left; eauto|right; discriminate..]). destruct D as [(d & ->)|Na].
  - cbn [hmstep] in K. apply hmcall_inv in K as (xe & K & ->). cbn [fst snd]. exact (hstep_effect fuel d H s xe s' T K).
  - pose proof (hmstep_ha fuel c H P Na s xz s' K) as Ee. cbv beta in Ee. pose proof (hmstep_owned fuel c H P Na s xz s' T K) as G.
    split; [apply G|]. split; [apply G|]. split; [|split; [|rewrite Ee; apply incl_refl]].
    + intros b Hb. destruct (gr_live _ _ G b Hb); auto.
    + intros A HA. left. now apply (gr_same _ _ G).
Qed.
Record hpp_accounted (U : list N) (Hs : henvs) (s : st) : Prop := {
  ha_tidy : tidy s;
  ha_known : forall A, sallocs s A <> None -> exists g, In A (ha (Hs g));
  ha_live : forall b, sbsize s b <> None -> sbsize init b <> None \/ In b U \/ exists A, owns s A b
}.
Lemma ymstep_accounted fuel c U Hs P s az s' : hpp_accounted U Hs s -> ymstep fuel c (Hs, P) s = Ok (az, s') ->
  hpp_accounted (U ++ if ykeeps c then [snext s] else []) (fst (snd az)) s'.
Proof.
  intros [T Kn Lv] H. destruct c as [g c|g]; cbn [ymstep] in H.
  - apply bind_inv in H as (xz & s1 & E & H). injection H as <- <-. cbn [fst snd ykeeps].
    destruct (hmstep_effect _ _ _ _ _ _ _ T E) as (T1 & O & L1 & S1 & I1). constructor; auto.
    + intros A HA. destruct (S1 A HA) as [K|K].
      * destruct (Kn A K) as (g' & Hg). exists g'. unfold updn. destruct (Nat.eqb_spec g' g) as [->|D]; auto.
      * exists g. now rewrite updn_eq.
    + intros b Hb. destruct (L1 b Hb) as [K|[(K1 & ->)|K]]; auto.
      * destruct (Lv b K) as [|[|(A & K1)]]; auto; [right; left; apply in_or_app; auto|]. right. right. exists A. auto.
      * right. left. apply in_or_app. right. rewrite K1. now left.
  - apply bind_inv in H as (u & s1 & E & H). injection H as <- <-. cbn [fst snd ykeeps]. rewrite app_nil_r.
    destruct (release_all_result _ _ _ _ T E) as (T1 & R1 & R2 & R3). constructor; auto.
    + intros A HA. destruct (R1 A HA) as [N1 E1]. rewrite E1 in HA. destruct (Kn A HA) as (g' & Hg). exists g'. unfold updn.
      destruct (Nat.eqb_spec g' g) as [->|D]; auto. rewrite <- in_rev in N1. now elim N1.
    + intros b Hb. destruct (R2 b Hb) as [K1 K2]. destruct (Lv b K1) as [|[|(A & K3)]]; auto. right. right. exists A.
      assert (NA : ~ In A (rev (ha (Hs g)))) by (intro K; exact (K2 A K K3)). destruct K3 as (ar & k & O). exists ar, k. now rewrite R3.
Qed.
Lemma ymplay_accounted X fuel : forall (p : yprog X) U Hs P s xz s', hpp_accounted U Hs s -> ymplay fuel p (Hs, P) s = Ok (xz, s') ->
  hpp_accounted (U ++ ybuffers fuel p (Hs, P) s) (fst (snd xz)) s'.
Proof.
  induction p as [x| |c k IH]; intros U Hs P s xz s' Ac E; cbn [ymplay ybuffers] in *.
  - injection E as <- <-. cbn [fst snd]. now rewrite app_nil_r.
  - discriminate.
  - unfold bind at 1 in E. destruct (ymstep fuel c (Hs, P) s) as [[[a [H1 P1]] s1]|] eqn:Ec; [|discriminate]. cbn [fst snd] in *.
    rewrite app_assoc. eapply IH; [|exact E]. exact (ymstep_accounted _ _ _ _ _ _ _ _ Ac Ec).
Qed.
Lemma hpp_accounted_start : hpp_accounted [] (fun _ => hstart) init.
Proof. destruct fine_start as [T Kn L]. constructor; auto. intros A HA. exists 0%nat. auto. Qed.
Theorem yno_leak X fuel (p : yprog X) x Hs P s b : ymplay fuel p ystart init = Ok ((x, (Hs, P)), s) -> sbsize s b <> None ->
  sbsize init b <> None \/ In b (ybuffers fuel p ystart init) \/ exists g A, In A (ha (Hs g)) /\ owns s A b.
Proof.
  intros H Hb. pose proof (ymplay_accounted X fuel p [] (fun _ => hstart) [] init _ _ hpp_accounted_start H) as [_ Kn Lv]. cbn [app fst snd] in *.
  destruct (Lv b Hb) as [|[|(A & K)]]; auto. right. right. assert (NA : sallocs s A <> None) by (destruct K as (ar & k & K & _); congruence).
  destruct (Kn A NA) as (g & Hg). eauto.
Qed.
Theorem yall_freed X fuel (p : yprog X) x Hs P s b : ymplay fuel p ystart init = Ok ((x, (Hs, P)), s) -> (forall g, ha (Hs g) = []) ->
  sbsize s b <> None -> sbsize init b <> None \/ In b (ybuffers fuel p ystart init).
Proof. intros H Hn Hb. destruct (yno_leak X fuel p x Hs P s b H Hb) as [|[|(g & A & HA & _)]]; auto. rewrite Hn in HA. destruct HA. Qed.
