(** Texts kept along fixed lists of calls and releases over the beta header, and the contract
    of programs that keep the pointers they are given (BetaKeepWorld.v). *)
From Verif Require Import Base Spec Mem Scene Hist HistRun HistSim HistStep HistAll HistMany HistWorld HistDocs HistCover HistCoverMany
  BetaHist BetaSim BetaLeak BetaWorld BetaClient Keep KeepWorld BetaCover BetaCoverMany BetaKeepWorld.

(** ** Fixed lists of calls and releases in programs *)
Definition zgevent (e : event) : zgstmt := match e with Do g c => ZIn g (ZApi c) | Release g => ZRelease g end.
Fixpoint zgcalls {X} (es : list event) (p : zgprog X) : zgprog X :=
  match es with [] => p | e :: r => ZGAct (zgevent e) (fun _ => zgcalls r p) end.
(** A getter, or printing ([None]). *)
Definition zgiver_call (v : option getter) (h : nat) : call := match v with Some v => BetaClient.gcall v h | None => CStringify h end.
Definition zgiver_stmt (v : option getter) (h : nat) : zstmt := match v with Some v => ZTake v h | None => ZPrint h end.
Definition zgiver_view (v : option getter) : bool := match v with Some v => is_view v | None => false end.
(** [es1], a call that gives a text, [es2]; then the text its pointer points to. *)
Definition zgkeep (es1 : list event) (g : nat) (v : option getter) (h : nat) (es2 : list event) : zgprog (answer * answer) :=
  zgcalls es1 (ZGAct (ZIn g (zgiver_stmt v h)) (fun x => zgcalls es2 (ZGAct (ZIn 0 (ZLook 0)) (fun y => ZGRet (x, y))))).
Section Kept.
Variable jd : judge.
Lemma zgevent_step e Z x Z' T : zwstep jd e Z = Some (x, Z') -> zgsstep jd (zgevent e) (Z, T) = Some (x, (Z', dropped e T)).
Proof. intro H. destruct e as [g c|g]; cbn [zgevent zgsstep dropped]; unfold zgcall; cbn [fst snd]; now rewrite H. Qed.
Lemma zgevent_passes e Z T : zgpasses (zgevent e) (Z, T) = zwpasses e Z.
Proof. now destruct e. Qed.
Lemma zgcalls_play X es (p : zgprog X) : forall Z rs Z' T, zwrun jd es Z = Some (rs, Z') ->
  zgrplay jd (zgcalls es p) (Z, T) = zgrplay jd p (Z', fold_left (fun T e => dropped e T) es T) /\
  (zgpmost jd (zgcalls es p) (Z, T) = Nat.max (zwmost jd es Z) (zgpmost jd p (Z', fold_left (fun T e => dropped e T) es T))).
Proof.
  induction es as [|e es IH]; intros Z rs Z' T H; cbn [zwrun] in H.
  - injection H as <- <-. auto.
  - cbn [zgcalls zgrplay zgpmost zwmost fold_left]. destruct (zwstep jd e Z) as [[x Z1]|] eqn:E1; [|discriminate]. rewrite (zgevent_step e Z x Z1 T E1).
    destruct (zwrun jd es Z1) as [[xs Z2]|] eqn:E2; [|discriminate]. injection H as _ ->. destruct (IH Z1 xs Z' (dropped e T) E2) as [K1 K2]. split; auto.
    rewrite K2, zgevent_passes. now rewrite Nat.max_assoc.
Qed.
Lemma zwrun_cut es1 : forall e es2 Z rs Z', zwrun jd (es1 ++ e :: es2) Z = Some (rs, Z') ->
  exists rs1 Z1 x Z2 rs2, zwrun jd es1 Z = Some (rs1, Z1) /\ zwstep jd e Z1 = Some (x, Z2) /\ zwrun jd es2 Z2 = Some (rs2, Z') /\
    nth_error rs (length es1) = Some x /\ zwmost jd (es1 ++ e :: es2) Z = Nat.max (zwmost jd es1 Z) (Nat.max (zwpasses e Z1) (zwmost jd es2 Z2)).
Proof.
  induction es1 as [|e1 es1 IH]; intros e es2 Z rs Z' H; cbn [app zwrun] in H.
  - destruct (zwstep jd e Z) as [[x Z2]|] eqn:E1; [|discriminate]. destruct (zwrun jd es2 Z2) as [[xs Z3]|] eqn:E2; [|discriminate]. injection H as <- ->.
    exists [], Z, x, Z2, xs. cbn [app zwmost zwrun length nth_error]. rewrite E1. auto 6.
  - destruct (zwstep jd e1 Z) as [[x1 Z1]|] eqn:E1; [|discriminate]. destruct (zwrun jd (es1 ++ e :: es2) Z1) as [[xs Z3]|] eqn:E2; [|discriminate]. injection H as <- ->.
    destruct (IH e es2 Z1 xs Z' E2) as (rs1 & Za & x & Zb & rs2 & K1 & K2 & K3 & K4 & K5).
    exists (x1 :: rs1), Za, x, Zb, rs2. cbn [app zwmost zwrun length nth_error]. rewrite E1, K1, K5. repeat split; auto. now rewrite Nat.max_assoc.
Qed.
Hypothesis J : correct jd.
Lemma zgives_text v h R K x RK : brstep jd (zgiver_call v h) (R, K) = Some (x, RK) -> exists o, x = Text o.
Proof.
  intro H. destruct v as [v|]; cbn [zgiver_call] in H.
  - destruct RK as [R2 K2]. destruct (is_view v) eqn:Vg.
    + destruct v; try discriminate Vg; cbn [BetaClient.gcall brstep zrstep rstep] in H; destruct (look R h) as [[w A]|]; try discriminate;
        repeat match type of H with match (match ?m with _ => _ end) with _ => _ end = _ => destruct m; try discriminate end; injection H as <- _ _; eauto.
    + destruct (take_slot jd v h R K x R2 K2 Vg H) as [-> | (t & k & -> & _)]; eauto.
  - cbn [brstep zrstep rstep] in H. unfold copy_text in H. destruct (look R h) as [[w A]|]; try discriminate;
      repeat match type of H with match (match ?m with _ => _ end) with _ => _ end = _ => destruct m; try discriminate end; injection H as <- _; eauto.
Qed.
Lemma zgiver_step v g h Z T x Z' : zwstep jd (Do g (zgiver_call v h)) Z = Some (x, Z') ->
  zgsstep jd (ZIn g (zgiver_stmt v h)) (Z, T) = Some (x, (Z', T ++ [Some (g, match x with Text (Some t) => if zgiver_view v then RV t else RC t | _ => RNull end)])) /\
  zgpasses (ZIn g (zgiver_stmt v h)) (Z, T) = zwpasses (Do g (zgiver_call v h)) Z.
Proof.
  intro H. destruct v as [v|]; cbn [zgiver_stmt zgiver_call zgiver_view zgsstep] in *; unfold zgtake; cbn [fst snd]; rewrite H; split; auto.
  destruct v; reflexivity.
Qed.
Theorem zgkept es1 g v h es2 rs Z x : zwrun jd (es1 ++ Do g (zgiver_call v h) :: es2) zrstart = Some (rs, Z) -> nth_error rs (length es1) = Some x ->
  ~ In (Release g) es2 ->
  forall fuel, (zwmost jd (es1 ++ Do g (zgiver_call v h) :: es2) zrstart <= fuel)%nat ->
  exists Z' s, zgmplay fuel (zgkeep es1 g v h es2) (zworld0, []) init = Ok (((x, x), Z'), s).
Proof.
  intros H Hx Nr fuel Hf. destruct (zwrun_cut _ _ _ _ _ _ H) as (rs1 & Z1 & x' & Z2 & rs2 & K1 & K2 & K3 & K4 & K5).
  assert (x' = x) as -> by congruence. rewrite K5 in Hf. clear H Hx K4 K5.
  set (p2 := fun x => ZGAct (ZIn 0 (ZLook 0)) (fun y => ZGRet (x, y)) : zgprog (answer * answer)).
  set (q := match x with Text (Some t) => if zgiver_view v then RV t else RC t | _ => RNull end).
  destruct (zgcalls_play _ es1 (ZGAct (ZIn g (zgiver_stmt v h)) (fun x => zgcalls es2 (p2 x))) _ _ _ [] K1) as [Q1 Q2].
  destruct (zgcalls_play _ es2 (p2 x) _ _ _ [Some (g, q)] K3) as [Q3 Q4].
  rewrite dropped_nil in Q1, Q2. rewrite (dropped_other g q es2 Nr) in Q3, Q4.
  destruct (zgiver_step v g h Z1 [] x Z2 K2) as [S1 S2]. cbn [app] in S1. fold q in S1.
  assert (Tx : exists o, x = Text o).
  { destruct Z1 as [W1 Ks1]. destruct Z2 as [W2 Ks2]. destruct (zwstep_do jd _ _ _ _ _ _ _ K2) as (R' & K' & Er & _). eapply zgives_text; eauto. }
  destruct Tx as (o & ->).
  assert (P2 : zgrplay jd (p2 (Text o)) (Z, [Some (g, q)]) = Some ((Text o, Text o), (Z, [Some (g, q)]))).
  { cbn. subst q. destruct o as [t|]; [destruct (zgiver_view v)|]; reflexivity. }
  assert (M2 : zgpmost jd (p2 (Text o)) (Z, [Some (g, q)]) = 0%nat) by (cbn; destruct q; reflexivity).
  assert (P1 : zgrplay jd (zgkeep es1 g v h es2) (zrstart, []) = Some ((Text o, Text o), (Z, [Some (g, q)]))).
  { unfold zgkeep. fold p2 in Q1. etransitivity; [exact Q1|]. cbn [zgrplay]. rewrite S1. etransitivity; [exact Q3|exact P2]. }
  assert (M1 : (zgpmost jd (zgkeep es1 g v h es2) (zrstart, []) <= fuel)%nat).
  { unfold zgkeep. fold p2 in Q2. etransitivity; [apply Nat.eq_le_incl; exact Q2|]. cbn [zgpmost]. rewrite S1, S2.
    pose proof (eq_trans Q4 (f_equal (Nat.max (zwmost jd es2 Z2)) M2)) as Q4'. etransitivity; [apply Nat.max_le_compat_l, Nat.max_le_compat_l, Nat.eq_le_incl; exact Q4'|].
    rewrite Nat.max_0_r. exact Hf. }
  destruct Z as [W Ks]. destruct (zgclient jd J _ _ _ W Ks [Some (g, q)] P1 fuel M1) as (Es & B & P & s & Er' & _). eauto.
Qed.
End Kept.

(** ** The contract *)
(** What has to be seen to before a statement. *)
Definition zgcontract (c : zgstmt) (Z : zgst) : Prop :=
  match c with
  | ZRelease _ => True
  | ZIn g (ZApi c) => zwcontract (Do g c) (fst Z)
  | ZIn g (ZTake v h) => zwcontract (Do g (BetaClient.gcall v h)) (fst Z)
  | ZIn g (ZPrint h) => zwcontract (Do g (CStringify h)) (fst Z)
  | ZIn _ (ZLook k) => exists j r, nth_error (snd Z) k = Some (Some (j, r))
  | ZIn g c => exists h k j r view t c0, zarg c = Some (h, k) /\ nth_error (snd Z) k = Some (Some (j, r)) /\ rtext r = Some (view, t) /\
      (j = g \/ zstored c = false) /\ zuse c view t = Some c0 /\ zwcontract (Do g c0) (fst Z)
  end.
Fixpoint zgrespects {X} (jd : judge) (p : zgprog X) (Z : zgst) : Prop :=
  match p with
  | ZGRet _ => True
  | ZGStuck => False
  | ZGAct c k => zgcontract c Z /\ forall a Z1, zgsstep jd c Z = Some (a, Z1) -> zgrespects jd (k a) Z1
  end.
Section Cover.
Variable jd : judge.
Hypothesis J : correct jd.
Definition zgreached (Z : zref) : Prop := exists es rs, zwrun jd es zrstart = Some (rs, Z).
Lemma zgcovered c Z T : zgreached Z -> zgcontract c (Z, T) -> exists a Z' T', zgsstep jd c (Z, T) = Some (a, (Z', T')) /\ zgreached Z'.
Proof.
  intros Re C. assert (Q : forall e, zwcontract e Z -> exists a Z', zwstep jd e Z = Some (a, Z') /\ zgreached Z').
  { intros e H. destruct Re as (es & rs & E). destruct (zwcovered jd J e es rs Z E H) as (a & Z' & Es). exists a, Z'. split; auto.
    exists (es ++ [e]), (rs ++ [a]). eapply zwrun_snoc; eauto. }
  assert (U : forall g c, (exists h k j r view t c0, zarg c = Some (h, k) /\ nth_error T k = Some (Some (j, r)) /\ rtext r = Some (view, t) /\
      (j = g \/ zstored c = false) /\ zuse c view t = Some c0 /\ zwcontract (Do g c0) Z) ->
    exists a Z' T', zgsstep jd (ZIn g c) (Z, T) = Some (a, (Z', T')) /\ zgreached Z').
  { clear c C. intros g c (h & k & j & r & view & t & c0 & Ha & Hk & Hr & Ho & Hu & C). destruct (Q _ C) as (a & Z' & E & R'). exists a, Z', T. split; [|exact R'].
    assert (Ok : Nat.eqb j g || negb (zstored c) = true) by (destruct Ho as [-> | ->]; [now rewrite Nat.eqb_refl|now rewrite Bool.orb_true_r]).
    destruct c as [c|v h'|k'|num fast h' k'|fast h' k'|h' k'|h'|fast h' k'|h' k']; try discriminate Ha; injection Ha as -> ->; cbn [zgsstep zarg fst snd];
      (etransitivity; [exact (f_equal (fun o => match o with Some (Some (j, r)) => _ | _ => None end) Hk)|]); cbv beta iota; rewrite Hr, Ok, Hu; unfold zgcall; cbn [fst snd]; now rewrite E. }
  destruct c as [g [c|v h|k|num fast h k|fast h k|h k|h|fast h k|h k]|g]; cbn [zgcontract fst snd] in C; try (apply U, C); clear U; cbn [zgsstep]; unfold zgcall, zgtake; cbn [fst snd].
  - destruct (Q _ C) as (a & Z' & E & R'). rewrite E. eauto.
  - destruct (Q _ C) as (a & Z' & E & R'). rewrite E. eauto.
  - destruct C as (j & r & E). exists (Text (option_map snd (rtext r))), Z, T. split; [|exact Re].
    exact (f_equal (fun o => match o with Some (Some (_, r)) => Some (Text (option_map snd (rtext r)), (Z, T)) | _ => None end) E).
  - destruct (Q _ C) as (a & Z' & E & R'). rewrite E. eauto.
  - destruct (Q (Release g) Logic.I) as (a & Z' & E & R'). rewrite E. eauto.
Qed.
Lemma zgrespects_runs X : forall (p : zgprog X) Z T, zgreached Z -> zgrespects jd p (Z, T) -> exists x Z' T', zgrplay jd p (Z, T) = Some (x, (Z', T')).
Proof.
  induction p as [x| |c k IH]; intros Z T R H; cbn [zgrespects zgrplay] in *; [eauto|contradiction|].
  destruct H as [C H]. destruct (zgcovered c Z T R C) as (a & Z1 & T1 & E & R1). rewrite E. apply IH; auto.
Qed.
Theorem zgcontract_ok X (p : zgprog X) : zgrespects jd p (zrstart, []) ->
  exists x W Ks T, zgrplay jd p (zrstart, []) = Some (x, ((W, Ks), T)) /\ forall fuel, (zgpmost jd p (zrstart, []) <= fuel)%nat ->
  exists Es B P s, zgmplay fuel p (zworld0, []) init = Ok ((x, ((Es, B), P)), s) /\ forall g, represents (wr W g) (Es g) s.
Proof.
  intro H. destruct (zgrespects_runs X p zrstart []) as (x & [W Ks] & T & E); [exists [], []; reflexivity|exact H|]. exists x, W, Ks, T. split; auto.
  intros fuel Hf. eapply zgclient; eauto.
Qed.
End Cover.
(** Programs that do not look at the answers. *)
Fixpoint zgseq (cs : list zgstmt) : zgprog unit := match cs with [] => ZGRet tt | c :: r => ZGAct c (fun _ => zgseq r) end.
Lemma zgseq_respects jd cs : forall Z0, (forall k c Z, nth_error cs k = Some c -> zgrplay jd (zgseq (firstn k cs)) Z0 = Some (tt, Z) -> zgcontract c Z) ->
  zgrespects jd (zgseq cs) Z0.
Proof.
  induction cs as [|c cs IH]; intros Z0 H; cbn [zgseq zgrespects]; [exact Logic.I|]. split; [apply (H 0%nat c Z0); reflexivity|].
  intros a Z1 E. apply IH. intros k d Z Hk Hz. apply (H (Datatypes.S k) d Z Hk). cbn [firstn zgseq zgrplay]. now rewrite E.
Qed.
