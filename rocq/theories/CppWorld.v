(** Programs with the C++ interface of zzzjson.h: allocators that are objects of class
    zj_Allocator (constructor and destructor, zzzjson.h:455-473) beside those of
    zj_NewAllocator.  The methods of zj_Value (zzzjson.h:651-741) call the function of the
    same name with [this] (Names.v); so the statements are those of KeepWorld.v. *)
From Verif Require Import Base Spec Lex LexProofs Alloc AllocProofs Mem MemProofs Api PureParse Dom Effect Steps CacheProofs Start Vocab MoveProofs MemFacts Cpp
  Scene SetFacts Double Client Hist HistRun HistForest HistSim HistStep HistAll HistCache HistMany HistWorld BetaSim BetaClient Keep KeepWorld KeepCover Leak.

Inductive xstmt :=
| XLocal (g : nat)                             (* zj_Allocator a; in group g *)
| XIn (g : nat) (c : pstmt)                    (* a statement of Keep.v in group g *)
| XEnd (g : nat).                              (* the allocators of group g end *)
Inductive xprog (X : Type) :=
| XRet (x : X)
| XStuck
| XAct (c : xstmt) (k : answer -> xprog X).
Arguments XRet {X} x.
Arguments XStuck {X}.
Arguments XAct {X} c k.

(** ** The same program in C *)
Definition in_g (c : xstmt) : gstmt := match c with XLocal g => GIn g (PApi CNewAllocator) | XIn g c => GIn g c | XEnd g => GRelease g end.
Fixpoint as_g {X} (p : xprog X) : gprog X :=
  match p with
  | XRet x => GRet x
  | XStuck => GStuck
  | XAct c k => GAct (in_g c) (fun a => as_g (k a))
  end.

(** ** On the model *)
(** [L]: the allocators that are objects.  At the end of a group its allocators go in the
    reverse order of their beginning, objects by the destructor, others by
    zj_ReleaseAllocator. *)
Definition end_one (L : list N) (A : N) : M unit := if in_dec N.eq_dec A L then cpp_delete A else zj_ReleaseAllocator A.
Fixpoint end_all (L l : list N) : M unit :=
  match l with
  | [] => ret tt
  | A :: r => end_one L A ;;; end_all L r
  end.
Definition xmst := (gmst * list N)%type.
Definition xmstep (fuel : nat) (c : xstmt) (Z : xmst) : M (answer * xmst) :=
  let '((Es, P), L) := Z in
  match c with
  | XLocal g => A <- cpp_new ;; ret (Arena (length (ea (Es g))), ((updn Es g (mkE (eh (Es g)) (ea (Es g) ++ [A])), P), A :: L))
  | XIn g c => xz <- pmstep fuel c (Es g, P) ;; ret (fst xz, ((updn Es g (fst (snd xz)), snd (snd xz)), L))
  | XEnd g => end_all L (rev (ea (Es g))) ;;; ret (Done, ((updn Es g estart, P), L))
  end.
Fixpoint xmplay {X} (fuel : nat) (p : xprog X) (Z : xmst) : M (X * xmst) :=
  match p with
  | XRet x => ret (x, Z)
  | XStuck => fail EFuel
  | XAct c k => az <- xmstep fuel c Z ;; xmplay fuel (k (fst az)) (snd az)
  end.
Definition xstart : xmst := ((wenv0, []), []).

(** ** Ends *)
Lemma end_one_wp L s A : wfst s -> alive s A -> wp (end_one L A) s (fun _ s' => Start.released s A s').
Proof. intros W Al. unfold end_one. destruct (in_dec _ _ _); [now apply cpp_delete_wp|now apply release_wp]. Qed.
Lemma end_all_wp L : forall l s, wfst s -> NoDup l -> (forall A, In A l -> alive s A) -> wp (end_all L l) s (fun _ => freed s l).
Proof.
  induction l as [|A l IH]; intros s W ND Al; cbn [end_all].
  - apply wp_ret. constructor; auto; [intros B []|]. intros b n H. split; auto. intros (A & ar & k & [] & _).
  - inversion ND as [|? ? NA ND']; subst.
    apply (wp_seq _ _ s (fun _ s1 => Start.released s A s1)); [apply (end_one_wp L s A W); apply Al; now left|]. intros _ s1 R1.
    assert (Al1 : forall B, In B l -> alive s1 B).
    { intros B HB. unfold alive. rewrite (rl_allocs _ _ _ R1); [apply Al; now right|]. intro K; rewrite K in HB; contradiction. }
    apply (wp_mono _ _ (fun _ => freed s1 l)); [apply (IH s1 (rl_wf _ _ _ R1) ND' Al1)|]. intros _ s2 [F1 F2 F3 F4 F5 F6 F7 F8].
    assert (Kb : forall b, (exists ar k, sallocs s A = Some ar /\ In k ar /\ ckBlk k = b) \/ block_in s1 l b -> block_in s (A :: l) b).
    { intros b [(ar & k & H1)|(B & ar & k & HB & H1 & H2)]; [exists A, ar, k; split; [now left|auto]|]. exists B, ar, k. split; [now right|]. split; auto.
      rewrite <- (rl_allocs _ _ _ R1); auto. intro K; rewrite K in HB; contradiction. }
    constructor; auto.
    + rewrite F2. apply R1.
    + rewrite F3. apply R1.
    + intros B HB. rewrite F4 by (intro K; apply HB; now right). apply (rl_allocs _ _ _ R1). intro K. apply HB. left. congruence.
    + intros B [HB|HB]; auto. rewrite <- HB, F4 by auto. exact (rl_gone _ _ _ R1).
    + intros a Na. destruct (F6 a) as (K1 & K2 & K3 & K4); [intro K; apply Na, Kb; auto|].
      destruct (rl_keep _ _ _ R1 a) as (Q1 & Q2 & Q3 & Q4); [intro K; apply Na, Kb; auto|].
      split; [congruence|]. split; [congruence|]. split; congruence.
    + intros b n Hb. destruct (F7 b n Hb) as [H1 H2].
      assert (Nb : ~ (exists ar k, sallocs s A = Some ar /\ In k ar /\ ckBlk k = b)).
      { intros (ar & k & K1 & K2 & <-). rewrite (rl_dead _ _ _ R1 ar k K1 K2) in H1. discriminate. }
      split; [now rewrite <- (rl_size _ _ _ R1 b Nb)|]. intros (B & ar & k & [<- | HB] & K1 & K2 & K3); [apply Nb; eauto|].
      apply H2. exists B, ar, k. split; auto. split; auto. rewrite (rl_allocs _ _ _ R1); auto. intro K; rewrite K in HB; contradiction.
    + intros V F I HV. apply F8; [|intros B HB; apply HV; now right]. apply (released_inv s F A s1); auto. apply HV. now left.
Qed.
Lemma freed_same s l l' s' : (forall A, In A l <-> In A l') -> freed s l s' -> freed s l' s'.
Proof.
  intros H [F1 F2 F3 F4 F5 F6 F7 F8]. assert (B : forall b, block_in s l b <-> block_in s l' b).
  { intro b. split; intros (A & ar & k & HA & K); exists A, ar, k; split; auto; now apply H. }
  constructor; auto.
  - intros A HA. apply F4. now rewrite H.
  - intros A HA. apply F5. now rewrite H.
  - intros a Ha. apply F6. now rewrite B.
  - intros b n Hb. destruct (F7 b n Hb) as [K1 K2]. split; auto. now rewrite <- B.
  - intros V F I K. apply F8; auto. intros A HA. apply K. now rewrite <- H.
Qed.

(** ** The two agree *)
Section Agree.
Variable jd : judge.
Hypothesis J : correct jd.
Lemma cpp_goes (VV : vols) R E nm F s : sim R E nm F s ->
  wp (A <- cpp_new ;; ret (Arena (length (ea E)), mkE (eh E) (ea E ++ [A]))) s
     (@goes VV (cneed CNewAllocator) E F s (Arena (length (ru R))) (mkR (rG R) (rn R) (rh R) (ru R ++ [0]))).
Proof.
  intro S. apply wp_bind. eapply wp_mono; [eapply cpp_new_wp; apply S|]. intros A s' (X & EA & Al & U & Vs). apply wp_ret.
  split; [cbn; now rewrite (sm_la _ _ _ _ _ S)|]. exists nm, F. cbn [snd].
  assert (Nw : ~ In A (ea E)).
  { intro K. apply In_nth_error in K as (k & Hk). destruct (nth_error (ru R) k) as [u|] eqn:Eu.
    - destruct (sm_arena _ _ _ _ _ S k A u Hk Eu) as (Al' & _). apply Al'. subst A. apply (w_next s); [apply S|lia].
    - apply nth_error_None in Eu. rewrite <- (sm_la _ _ _ _ _ S) in Eu. apply nth_error_None in Eu. congruence. }
  destruct (after_same (NN := cneed CNewAllocator) R E nm F s (ru R) s' zeroc S) as [S1 Ex Hn Hhs Has _]; auto using pays_zero, mine_zero. constructor; auto.
  - destruct S1 as [qi qf qlh qla qh qnh qna qa]. constructor; auto; cbn [rh ru rG rn eh ea] in *.
    + rewrite !app_length. cbn. lia.
    + intros h o k Hr. destruct (qh h o k Hr) as (v & A' & K1 & K2 & K3). exists v, A'. split; auto. split; auto.
      rewrite nth_error_app1; auto. apply nth_error_Some. congruence.
    + apply NoDup_app_disj; auto; [repeat constructor; intros []|]. intros y K1 [<-|[]]. contradiction.
    + intros k A' u K1 K2. destruct (Nat.lt_ge_cases k (length (ea E))) as [Lt|Ge].
      * rewrite nth_error_app1 in K1, K2 by (auto; rewrite <- qla; auto). eauto.
      * rewrite nth_error_app2 in K1, K2 by (auto; rewrite <- qla; auto). rewrite <- qla in K2.
        destruct (k - length (ea E))%nat as [|[|q]]; [|discriminate..]. injection K1 as <-. injection K2 as <-.
        split; auto. split; [eapply newAllocator_inv; [apply S|exact X|auto]|]. lia.
  - cbn [ea]. intros A' HA'. apply in_app_iff in HA' as [K|[<-|[]]]; auto. right. subst A. lia.
  - exists [], [A]. now rewrite app_nil_r.
Qed.
Lemma xstmt_wp c W T x W' T' : gsstep jd (in_g c) (W, T) = Some (x, (W', T')) ->
  forall Es nms Fs s fuel P L, (gpasses (in_g c) (W, T) <= fuel)%nat -> tied W Es nms Fs s -> settled s -> aimed Es s P T ->
    wp (xmstep fuel c ((Es, P), L)) s (fun xz s' => ggets x W' T' (fst xz, fst (snd xz)) s').
Proof.
  intros St Es nms Fs s fuel P L Hf Td Se Am. pose proof (t_wf _ _ _ _ _ Td) as Wf. destruct c as [g|g c|g]; cbn [xmstep in_g] in *.
  - cbn [gsstep] in St. unfold gcall in St. cbn [fst snd] in St. destruct (wstep jd (Do g CNewAllocator) W) as [[x0 W0]|] eqn:Ew; [|discriminate]. injection St as <- <- <-.
    destruct (wstep_do _ _ _ _ _ _ Ew) as (R' & Er).
    assert (K : wp (A <- cpp_new ;; ret (Arena (length (ea (Es g))), mkE (eh (Es g)) (ea (Es g) ++ [A]))) s
      (fun xe s' => fst xe = x0 /\ (exists nms' Fs', tied W0 (updn Es g (snd xe)) nms' Fs' s') /\
        (exists Dn Dv cc, ext Dn Dv cc s s') /\ forall j, lasts Es (updn Es g (snd xe)) s s' j)).
    { apply (do_tied jd g CNewAllocator W x0 R' W0 _ Es nms Fs s Er Ew Td).
      - intros _. cbn [rstep] in Er. injection Er as <- <-. apply cpp_goes with (nm := nms g). apply Td.
      - intros _ t y t' E. unfold bind, cpp_new, ret in E. injection E as _ <-. reflexivity.
      - intro K. now elim K.
      - discriminate. }
    destruct K as (xe & s' & E & Hx & Tr & (Dn & Dv & cc & X) & La). unfold bind, ret in E. destruct (cpp_new s) as [[A s1]|] eqn:Ec; [|discriminate]. injection E as <- <-.
    unfold wp, bind, ret. rewrite Ec. eexists _, _. split; [reflexivity|]. cbn [fst snd] in *. split; auto. cbn [snd].
    split; [eapply settled_ext; eauto|]. split; [eapply aimed_lasts; eauto|exact Tr].
  - pose proof (gstmt_wp jd J (GIn g c) W T x W' T' St Es nms Fs s fuel P Hf Td Se Am) as (xz & s' & E & G). cbn [gmstep] in E.
    unfold wp. apply bind_inv in E as (y & s1 & E1 & E2). injection E2 as <- <-. unfold bind. rewrite E1. eexists _, _. split; [reflexivity|]. exact G.
  - cbn [gsstep] in St. unfold gcall in St. cbn [fst snd wstep] in St. injection St as <- <- <-. apply wp_bind.
    apply (wp_mono _ _ (fun _ => freed s (rev (ea (Es g))))).
    { apply end_all_wp; auto; [apply NoDup_rev, (t_sim _ _ _ _ _ Td g)|]. intros A HA. rewrite <- in_rev in HA. eapply t_alive; eauto. }
    intros _ s' Fr. apply (freed_same _ _ (ea (Es g))) in Fr; [|intro A; now rewrite <- in_rev]. apply wp_ret. cbn [fst snd]. split; auto. cbn [snd].
    destruct (release_tied g W Es nms Fs s s' Td Fr) as [Tr La].
    split; [eapply settled_freed; eauto|]. split; [eapply aimed_drop; eauto|exact Tr].
Qed.
Theorem xplay_most X (p : xprog X) : forall W T x W' T', grplay jd (as_g p) (W, T) = Some (x, (W', T')) ->
  forall Es nms Fs s fuel P L, (gpmost jd (as_g p) (W, T) <= fuel)%nat -> tied W Es nms Fs s -> settled s -> aimed Es s P T ->
    wp (xmplay fuel p ((Es, P), L)) s (fun xz s' => fst xz = x /\ let '(Es', P') := fst (snd xz) in
      settled s' /\ aimed Es' s' P' T' /\ exists nms' Fs', tied W' Es' nms' Fs' s').
Proof.
  induction p as [x0| |c k IH]; intros W T x W' T' H Es nms Fs s fuel P L Hf Td Se Am; cbn [as_g grplay xmplay gpmost] in *.
  - injection H as <- <- <-. apply wp_ret. cbn [fst snd]. eauto 8.
  - discriminate.
  - destruct (gsstep jd (in_g c) (W, T)) as [[a [W1 T1]]|] eqn:E1; [|discriminate].
    apply wp_bind. eapply wp_mono; [apply (xstmt_wp c W T a W1 T1 E1 Es nms Fs s fuel P L); [lia|auto..]|].
    intros [a' [[E2 P2] L2]] s1 (Ha & Se1 & Am1 & nm1 & F1 & Td1). cbn [fst snd] in *. subst a'. eapply (IH a W1 T1 x W' T' H); eauto. lia.
Qed.
(** Every program, from nothing. *)
Theorem xclient X (p : xprog X) x W T : grplay jd (as_g p) (wstart, []) = Some (x, (W, T)) ->
  forall fuel, (gpmost jd (as_g p) (wstart, []) <= fuel)%nat ->
  exists Es P L s, xmplay fuel p xstart init = Ok ((x, ((Es, P), L)), s) /\ forall g, represents (wr W g) (Es g) s.
Proof.
  intros H fuel Hf.
  destruct (xplay_most X p wstart [] x W T H wenv0 _ _ init fuel [] [] Hf start_tied ltac:(discriminate) ltac:(constructor)) as ([x' [[Es P] L]] & s & Er & Hr & _ & _ & nms & Fs & Td).
  cbn [fst snd] in *. subst x'. exists Es, P, L, s. split; auto. intro g. exists (nms g), (Fs g). rewrite <- (wr_eta (wr W g)).
  apply (sim_move (others Es g) novols _ _ _ _ none none zeroc s s); [apply Td|apply ext_refl; eapply t_wf; eauto|intros y _ []|intros y _ []|apply pays_zero|intros b []|intros b []].
Qed.
(** The answers are those of the program in C. *)
Theorem xsame X (p : xprog X) x W T : grplay jd (as_g p) (wstart, []) = Some (x, (W, T)) ->
  forall fuel, (gpmost jd (as_g p) (wstart, []) <= fuel)%nat ->
  exists Z s Z' s', xmplay fuel p xstart init = Ok ((x, Z), s) /\ gmplay fuel (as_g p) (wenv0, []) init = Ok ((x, Z'), s').
Proof.
  intros H fuel Hf. destruct (xclient X p x W T H fuel Hf) as (Es & P & L & s & E & _). destruct (gclient jd J X (as_g p) x W T H fuel Hf) as (Es' & P' & s' & E' & _).
  exists ((Es, P), L), s, (Es', P'), s'. auto.
Qed.
End Agree.

(** ** What stays in use *)
Definition xkeeps (c : xstmt) : bool := match c with XIn _ (PApi c) => keeps_buffer c | _ => false end.
Fixpoint xbuffers {X} (fuel : nat) (p : xprog X) (Z : xmst) (s : st) : list N :=
  match p with
  | XAct c k =>
      match xmstep fuel c Z s with
      | Ok (az, s') => (if xkeeps c then [snext s] else []) ++ xbuffers fuel (k (fst az)) (snd az) s'
      | Err _ => []
      end
  | _ => []
  end.
#[local] Hint Resolve ko_alloc ko_store ko_load ko_putNode ko_putVal ko_putZ ko_parse_loop ko_stringify_loop ko_nth_node ko_copy_loop ko_adopt : keepo.
Lemma ptake_owned fuel u view E v p n : keepsO (ptake fuel u view E v p n).
Proof. destruct u as [fast|num fast| |fast| | |], view; cbn [ptake]; try destruct num; try destruct fast; cbn [kind_of set_text_call set_key_call]; owned. Qed.
Lemma pmstep_owned fuel c E P : (forall d, c <> PApi d) -> keepsO (pmstep fuel c (E, P)).
Proof.
  intro Na. destruct c as [c|g h|k|u h k]; [now elim (Na c)|..]; cbn [pmstep].
  - destruct g as [num| | | | |num|]; cbn [is_pview]; try destruct num; owned.
  - owned.
  - pose proof (ptake_owned fuel u) as Q. unfold pmcall. owned; apply Q.
Qed.
Lemma pmcall_inv m P s xz s' : pmcall m P s = Ok (xz, s') -> exists xe, m s = Ok (xe, s') /\ xz = (fst xe, (snd xe, P)).
Proof. intro K. apply bind_inv in K as (xe & s1 & K1 & K2). injection K2 as <- <-. eauto. Qed.
Lemma ptake_ea fuel u view E v p n : gives (ptake fuel u view E v p n) (fun xe => ea (snd xe) = ea E).
Proof. destruct u; cbn [ptake]; try (apply gi_env; reflexivity). apply gi_bind. intro r. apply gi_ret, out_value_ea. Qed.
Lemma pmstep_ea fuel c E P : (forall d, c <> PApi d) -> gives (pmstep fuel c (E, P)) (fun xz => ea (fst (snd xz)) = ea E).
Proof.
  intro Na. destruct c as [c|g h|k|u h k]; [now elim (Na c)|..]; cbn [pmstep].
  - apply gi_bind. intro w. destruct (is_pview g); apply gi_bind; intro r; apply gi_bind; intro x; now apply gi_ret.
  - apply gi_bind. intro p. apply gi_bind. intro x. now apply gi_ret.
  - apply gi_bind. intro w. apply gi_bind. intro m. intros s xz s' K. destruct m as [|a|a n]; [discriminate K|..]; apply bind_inv in K as (p & s1 & _ & K);
      apply pmcall_inv in K as (xe & K & ->); exact (ptake_ea _ _ _ _ _ _ _ _ _ _ K).
Qed.
Lemma pmstep_live fuel c E P s xz s' : tidy s -> pmstep fuel c (E, P) s = Ok (xz, s') -> let k := match c with PApi c => keeps_buffer c | _ => false end in
  tidy s' /\ (forall A b, owns s A b -> owns s' A b) /\
  (forall b, sbsize s' b <> None -> sbsize s b <> None \/ (k = true /\ b = snext s) \/ exists A, owns s' A b) /\
  (forall A, sallocs s' A <> None -> sallocs s A <> None \/ In A (ea (fst (snd xz)))) /\ incl (ea E) (ea (fst (snd xz))).
Proof.
  intros T K. assert (D : (exists d, c = PApi d) \/ forall d, c <> PApi d) by (destruct c; [left; eauto|right; discriminate..]). destruct D as [(d & ->)|Na].
  - cbn [pmstep] in K. apply pmcall_inv in K as (xe & K & ->). cbn [fst snd]. exact (cstep_live fuel d E s xe s' T K).
  - pose proof (pmstep_ea fuel c E P Na s xz s' K) as Ee. cbv beta in Ee. pose proof (pmstep_owned fuel c E P Na s xz s' T K) as G. cbv zeta.
    split; [apply G|]. split; [apply G|]. split; [|split; [|rewrite Ee; apply incl_refl]].
    + intros b Hb. destruct (gr_live _ _ G b Hb); auto.
    + intros A HA. left. now apply (gr_same _ _ G).
Qed.
Lemma cpp_delete_result A s x s' : tidy s -> cpp_delete A s = Ok (x, s') ->
  tidy s' /\ (forall B, B <> A -> sallocs s' B = sallocs s B) /\ sallocs s' A = None /\
  (forall b, sbsize s' b <> None -> sbsize s b <> None /\ ~ owns s A b).
Proof.
  intros T H. unfold cpp_delete, bind in H. unfold get in H. destruct (sallocs s A) as [ar|] eqn:EA; [|discriminate].
  destruct (free_blks (rev (map ckBlk ar)) s) as [[u s1]|e] eqn:E1; [|discriminate]. destruct (free_blks_result _ _ _ _ E1) as (K1 & K2 & K3).
  injection H as <- <-. cbn [sallocs snext sbsize]. rewrite K1. split; [|split; [|split]].
  - constructor; cbn [sallocs snext]; rewrite ?K2.
    + intros B L. destruct (N.eq_dec B A) as [->|D]; [apply updN_eq|]. rewrite updN_neq by auto. now apply (ti_next _ T).
    + intros B ar' HB. destruct (N.eq_dec B A) as [->|D]; [rewrite updN_eq in HB; discriminate|]. rewrite updN_neq in HB by auto. now apply (ti_root _ T).
  - intros B D. now rewrite updN_neq.
  - apply updN_eq.
  - intros b Hb. destruct (K3 b Hb) as [L1 L2]. split; auto.
    intros (ar' & k & O1 & O2 & O3). rewrite EA in O1. injection O1 as <-. apply L2. rewrite <- in_rev, <- O3. now apply in_map.
Qed.
Lemma end_one_result L A s x s' : tidy s -> end_one L A s = Ok (x, s') ->
  tidy s' /\ (forall B, B <> A -> sallocs s' B = sallocs s B) /\ sallocs s' A = None /\
  (forall b, sbsize s' b <> None -> sbsize s b <> None /\ ~ owns s A b).
Proof. intros T H. unfold end_one in H. destruct (in_dec _ _ _); [eapply cpp_delete_result; eauto|eapply release_result; eauto]. Qed.
Lemma end_all_result L l : forall s x s', tidy s -> end_all L l s = Ok (x, s') ->
  tidy s' /\ (forall B, sallocs s' B <> None -> ~ In B l /\ sallocs s' B = sallocs s B) /\
  (forall b, sbsize s' b <> None -> sbsize s b <> None /\ forall A, In A l -> ~ owns s A b) /\ (forall B, ~ In B l -> sallocs s' B = sallocs s B).
Proof.
  induction l as [|A l IH]; intros s x s' T H; cbn [end_all] in H; [injection H as <- <-; intuition auto|].
  unfold bind in H. destruct (end_one L A s) as [[u s1]|e] eqn:E; [|discriminate].
  destruct (end_one_result _ _ _ _ _ T E) as (T1 & R1 & R2 & R3). destruct (IH _ _ _ T1 H) as (T2 & Q1 & Q2 & Q3). split; auto.
  split; [|split].
  - intros B HB. destruct (Q1 B HB) as [N1 E1]. assert (D : B <> A) by (intros ->; rewrite E1, R2 in HB; now elim HB). split; [intros [K|K]; auto|]. now rewrite E1, R1.
  - intros b Hb. destruct (Q2 b Hb) as [K1 K2]. destruct (R3 b K1) as [L1 L2]. split; auto. intros B [->|HB]; auto. intros (ar & k & O1 & O2).
    destruct (N.eq_dec B A) as [->|D]; [apply L2; exists ar, k; auto|]. apply (K2 B HB). exists ar, k. now rewrite R1.
  - intros B NB. cbn in NB. rewrite Q3 by tauto. apply R1. intros ->. tauto.
Qed.
Lemma xmstep_accounted fuel c U Es P L s az s' : accounted U Es s -> xmstep fuel c ((Es, P), L) s = Ok (az, s') ->
  accounted (U ++ if xkeeps c then [snext s] else []) (fst (fst (snd az))) s'.
Proof.
  intros [T Kn Lv] H. destruct c as [g|g c|g]; cbn [xmstep] in H.
  - unfold bind, cpp_new, ret in H. injection H as <- <-. cbn [fst snd xkeeps]. rewrite app_nil_r. constructor.
    + constructor; cbn [sallocs snext].
      * intros A Le. rewrite updN_neq by lia. apply (ti_next _ T). lia.
      * intros A ar HA. destruct (N.eq_dec A (snext s)) as [->|D]; [rewrite updN_eq in HA; injection HA as <-; exists []; reflexivity|].
        rewrite updN_neq in HA by auto. now apply (ti_root _ T).
    + intros A HA. cbn [sallocs] in HA. destruct (N.eq_dec A (snext s)) as [->|D].
      * exists g. rewrite updn_eq. cbn [ea]. apply in_or_app. right. now left.
      * rewrite updN_neq in HA by auto. destruct (Kn A HA) as (g' & Hg). exists g'. unfold updn. destruct (Nat.eqb_spec g' g) as [->|]; auto. cbn [ea]. apply in_or_app. auto.
    + intros b Hb. cbn [sbsize] in Hb. destruct (N.eq_dec b (snext s)) as [->|D].
      * right. right. exists (snext s), [cpp_chunk (snext s)], (cpp_chunk (snext s)). cbn [sallocs]. rewrite updN_eq. split; auto. split; [now left|reflexivity].
      * rewrite updN_neq in Hb by auto. destruct (Lv b Hb) as [|[|(A & ar & k & O1 & O2)]]; auto. right. right. exists A, ar, k. cbn [sallocs]. split; auto.
        rewrite updN_neq; auto. intros ->. rewrite (ti_next _ T (snext s)) in O1 by lia. discriminate.
  - apply bind_inv in H as (xz & s1 & E & H). injection H as <- <-. cbn [fst snd].
    destruct (pmstep_live _ _ _ _ _ _ _ T E) as (T1 & O & L1 & S1 & I1). cbv zeta in L1. constructor; auto.
    + intros A HA. destruct (S1 A HA) as [K|K].
      * destruct (Kn A K) as (g' & Hg). exists g'. unfold updn. destruct (Nat.eqb_spec g' g) as [->|D]; auto.
      * exists g. now rewrite updn_eq.
    + intros b Hb. destruct (L1 b Hb) as [K|[(K1 & ->)|K]]; auto.
      * destruct (Lv b K) as [|[|(A & K1)]]; auto; [right; left; apply in_or_app; auto|]. right. right. exists A. auto.
      * right. left. apply in_or_app. right. destruct c; try discriminate K1. cbn [xkeeps]. rewrite K1. now left.
  - apply bind_inv in H as (u & s1 & E & H). injection H as <- <-. cbn [fst snd xkeeps]. rewrite app_nil_r.
    destruct (end_all_result _ _ _ _ _ T E) as (T1 & R1 & R2 & R3). constructor; auto.
    + intros A HA. destruct (R1 A HA) as [N1 E1]. rewrite E1 in HA. destruct (Kn A HA) as (g' & Hg). exists g'. unfold updn.
      destruct (Nat.eqb_spec g' g) as [->|D]; auto. rewrite <- in_rev in N1. now elim N1.
    + intros b Hb. destruct (R2 b Hb) as [K1 K2]. destruct (Lv b K1) as [|[|(A & K3)]]; auto. right. right. exists A.
      assert (NA : ~ In A (rev (ea (Es g)))) by (intro K; exact (K2 A K K3)). destruct K3 as (ar & k & O). exists ar, k. now rewrite R3.
Qed.
Lemma xmplay_accounted X fuel : forall (p : xprog X) U Es P L s xz s', accounted U Es s -> xmplay fuel p ((Es, P), L) s = Ok (xz, s') ->
  accounted (U ++ xbuffers fuel p ((Es, P), L) s) (fst (fst (snd xz))) s'.
Proof.
  induction p as [x| |c k IH]; intros U Es P L s xz s' Ac E; cbn [xmplay xbuffers] in *.
  - injection E as <- <-. cbn [fst snd]. now rewrite app_nil_r.
  - discriminate.
  - unfold bind at 1 in E. destruct (xmstep fuel c ((Es, P), L) s) as [[[a [[E1 P1] L1]] s1]|] eqn:Ec; [|discriminate]. cbn [fst snd] in *.
    rewrite app_assoc. eapply IH; [|exact E]. exact (xmstep_accounted _ _ _ _ _ _ _ _ _ Ac Ec).
Qed.
Theorem xno_leak X fuel (p : xprog X) x Es P L s b : xmplay fuel p xstart init = Ok ((x, ((Es, P), L)), s) -> sbsize s b <> None ->
  sbsize init b <> None \/ In b (xbuffers fuel p xstart init) \/ exists g A, In A (ea (Es g)) /\ owns s A b.
Proof.
  intros H Hb. pose proof (xmplay_accounted X fuel p [] wenv0 [] [] init _ _ accounted_start H) as [_ Kn Lv]. cbn [app fst snd] in *.
  destruct (Lv b Hb) as [|[|(A & K)]]; auto. right. right. assert (NA : sallocs s A <> None) by (destruct K as (ar & k & K & _); congruence).
  destruct (Kn A NA) as (g & Hg). eauto.
Qed.
Theorem xall_freed X fuel (p : xprog X) x Es P L s b : xmplay fuel p xstart init = Ok ((x, ((Es, P), L)), s) -> (forall g, ea (Es g) = []) ->
  sbsize s b <> None -> sbsize init b <> None \/ In b (xbuffers fuel p xstart init).
Proof. intros H Hn Hb. destruct (xno_leak X fuel p x Es P L s b H Hb) as [|[|(g & A & HA & _)]]; auto. rewrite Hn in HA. destruct HA. Qed.
Theorem xcontract_ok jd : correct jd -> forall X (p : xprog X), grespects jd (as_g p) (wstart, []) ->
  exists x W T, grplay jd (as_g p) (wstart, []) = Some (x, (W, T)) /\ forall fuel, (gpmost jd (as_g p) (wstart, []) <= fuel)%nat ->
  exists Es P L s, xmplay fuel p xstart init = Ok ((x, ((Es, P), L)), s) /\ forall g, represents (wr W g) (Es g) s.
Proof.
  intros J X p H. destruct (gcontract_ok jd J X (as_g p) H) as (x & W & T & E & _). exists x, W, T. split; auto. intros fuel Hf. eapply xclient; eauto.
Qed.
