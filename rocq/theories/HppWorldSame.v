(** Programs with the classes of zzzjson.hpp and several groups (HppWorld.v) see what the same
    programs written with zzzjson.h (KeepWorld.v) see. *)
From Verif Require Import Base Spec AllocProofs Mem MemProofs Scene Start Hist HistRun HistSim HistStep HistAll HistMany HistWorld Budget
  BetaClient Keep KeepWorld Hpp HppAll HppClient HppCover HppWorld.

(** ** The program in C *)
Definition yplain (c : ystmt) (Z : gst) : option gstmt :=
  match c with
  | YEnd g => Some (GRelease g)
  | YIn g (HApi c) => option_map (fun c => GIn g (PApi c)) (plain c (wr (fst Z) g))
  | YIn g (HTake v h) => Some (GIn g (PTake v h))
  | YIn g (HLook k) => Some (GIn g (PLook k))
  | YIn g (HGive u h k) =>
      match nth_error (snd Z) k with
      | Some (Some (_, r)) => match rtext r with Some (view, _) => Some (GIn g (PGive (unfast u view) h k)) | None => None end
      | _ => None
      end
  end.
Fixpoint y_in_c {X} (jd : judge) (p : yprog X) (Z : gst) : gprog X :=
  match p with
  | YRet x => GRet x
  | YStuck => GStuck
  | YAct c k => match yplain c Z, ysstep jd c Z with Some d, Some (_, Z1) => GAct d (fun a => y_in_c jd (k a) Z1) | _, _ => GStuck end
  end.

(** ** Less room taken *)
Definition wleaner (W W2 : world) : Prop :=
  (forall g, leaner (wr W g) (wr W2 g)) /\ wc W2 = wc W /\ wsure W2 = wsure W /\ wdead W2 = wdead W.
Lemma wleaner_refl W : wleaner W W.
Proof. split; auto. intro g. apply leaner_refl. Qed.
Lemma wleaner_updn W W2 g R R2 : (forall j, leaner (wr W j) (wr W2 j)) -> leaner R R2 -> forall j, leaner (updn (wr W) g R j) (updn (wr W2) g R2 j).
Proof. intros L K j. unfold updn. destruct (Nat.eqb j g); auto. Qed.
Lemma wstep_lean jd e W W2 x W' : wleaner W W2 -> wstep jd e W = Some (x, W') -> exists W2', wstep jd e W2 = Some (x, W2') /\ wleaner W' W2'.
Proof.
  intros (L & Ec & Es & Ed) St. destruct e as [g c|g]; cbn [wstep] in *.
  - destruct (rstep jd c (wr W g)) as [[y R']|] eqn:E; [|discriminate]. destruct (lean_step jd c _ _ (L g) y R' E) as (R2' & -> & L2). rewrite Ec, Es, Ed.
    destruct (cneed c =? 0).
    + injection St as <- <-. eexists. split; [reflexivity|]. split; [|auto]. cbn [wr]. now apply wleaner_updn.
    + destruct (negb (wdead W)); [|discriminate]. cbn [andb] in *. destruct (forallb _ (wc W)) eqn:Fb; [|discriminate]. injection St as <- <-.
      rewrite forallb_forall in Fb. replace (forallb _ (wc W)) with true.
      * eexists. split; [reflexivity|]. split; [|auto]. cbn [wr]. intro j. unfold updn. destruct (Nat.eqb_spec j g) as [->|Nj]; auto.
        destruct (inb j (wc W)) eqn:Ei; auto. assert (Hj : In j (wc W)) by now apply inb_In.
        specialize (Fb j Hj). cbv beta in Fb. rewrite (proj2 (Nat.eqb_neq j g) Nj) in Fb. cbn [orb] in Fb. unfold charge.
        destruct (scratch (wr W j) (cneed c)) as [R1|] eqn:Sc; [|discriminate]. destruct (scratch_le _ _ _ _ (L j) Sc) as (R3 & -> & L3). exact L3.
      * symmetry. apply forallb_forall. intros j Hj. specialize (Fb j Hj). cbv beta in Fb. destruct (Nat.eqb j g); auto. cbn [orb] in *.
        destruct (scratch (wr W j) (cneed c)) as [R1|] eqn:Sc; [|discriminate]. destruct (scratch_le _ _ _ _ (L j) Sc) as (R3 & -> & _). reflexivity.
  - injection St as <- <-. rewrite Ec, Es, Ed. eexists. split; [reflexivity|]. split; [|auto]. cbn [wr]. apply wleaner_updn; auto. apply leaner_refl.
Qed.
Lemma making_need c : makes_value c = true -> cneed c = 0.
Proof. destruct c; cbn; congruence. Qed.
Lemma ystep_lean jd g hc W W2 x W' : wleaner W W2 -> ystep jd g hc W = Some (x, W') ->
  exists c W2', plain hc (wr W g) = Some c /\ wstep jd (Do g c) W2 = Some (x, W2') /\ wleaner W' W2'.
Proof.
  intros L St. unfold ystep in St. destruct (plain hc (wr W g)) as [c|] eqn:Ep; [|discriminate]. exists c. destruct (makes_value c) eqn:V.
  - destruct (hrstep jd hc (wr W g)) as [[y R']|] eqn:E; [|discriminate]. injection St as <- <-. destruct L as (L & Ec & Es & Ed).
    destruct (plain_lean jd hc _ _ y R' (L g) E) as (p & R2' & Ep' & E2 & L2). rewrite Ep in Ep'. injection Ep' as <-. cbn [wstep]. rewrite E2, (making_need c V), Ec, Es, Ed.
    eexists. split; [reflexivity|]. split; [reflexivity|]. split; [|auto]. cbn [wr]. now apply wleaner_updn.
  - destruct (wstep_lean jd _ _ _ _ _ L St) as (W2' & E2 & L2). eauto.
Qed.
Lemma unfast_fast u view : tfast (as_taker u view) = tfast (unfast u view).
Proof. destruct u as [[]|[] []| |[]| | |], view; reflexivity. Qed.
Lemma yplain_lean jd c W T W2 a W' T' : wleaner W W2 -> ysstep jd c (W, T) = Some (a, (W', T')) ->
  exists d W2', yplain c (W, T) = Some d /\ gsstep jd d (W2, T) = Some (a, (W2', T')) /\ wleaner W' W2'.
Proof.
  intros L H. destruct c as [g [c|v h|k|u h k]|g]; cbn [ysstep yplain fst snd] in *.
  - unfold ycall in H. cbn [fst snd] in H. destruct (ystep jd g c W) as [[x W1]|] eqn:E; [|discriminate]. injection H as <- <- <-.
    destruct (ystep_lean jd g c W W2 x W1 L E) as (p & W2' & -> & E2 & L2). exists (GIn g (PApi p)), W2'. split; auto. cbn [gsstep]. unfold gcall. cbn [fst snd]. now rewrite E2.
  - destruct (ystep jd g (HC (pcall v h)) W) as [[x W1]|] eqn:E; [|discriminate]. injection H as <- <- <-.
    destruct (ystep_lean jd _ _ W W2 x W1 L E) as (p & W2' & Ep & E2 & L2). cbn [plain] in Ep. injection Ep as <-. exists (GIn g (PTake v h)), W2'. split; auto. cbn [gsstep fst snd].
    replace (as_c (pcall v h)) with (pcall v h) in E2 by now destruct v. now rewrite E2.
  - destruct (nth_error T k) as [[[j r]|]|] eqn:E; try discriminate. injection H as <- <- <-. exists (GIn g (PLook k)), W2. split; auto. split; auto. cbn [gsstep snd].
    etransitivity; [exact (f_equal (fun o => match o with Some (Some (j, r)) => _ | _ => None end) E)|]. reflexivity.
  - destruct (nth_error T k) as [[[j r]|]|] eqn:E; try discriminate. destruct (rtext r) as [[view t]|] eqn:Er; [|discriminate]. destruct (_ || _) eqn:Ef; [|discriminate].
    destruct (tcall u view h t) as [c|] eqn:Et; [|discriminate].
    unfold ycall in H. cbn [fst snd] in H. destruct (ystep jd g (HC c) W) as [[x W1]|] eqn:Ec; [|discriminate]. injection H as <- <- <-.
    destruct (ystep_lean jd _ _ W W2 x W1 L Ec) as (p & W2' & Ep & E2 & L2). cbn [plain] in Ep. injection Ep as <-. exists (GIn g (PGive (unfast u view) h k)), W2'. split; auto. split; auto.
    cbn [gsstep fst snd]. etransitivity; [exact (f_equal (fun o => match o with Some (Some (j, r)) => _ | _ => None end) E)|]. cbv beta iota.
    rewrite Er, <- unfast_fast, Ef, (tcall_unfast _ _ _ _ _ Et). unfold gcall. cbn [fst snd]. now rewrite E2.
  - unfold gcall in H. cbn [fst snd] in H. destruct (wstep jd (Release g) W) as [[x W1]|] eqn:E; [|discriminate]. injection H as <- <- <-.
    destruct (wstep_lean jd _ W W2 x W1 L E) as (W2' & E2 & L2). exists (GRelease g), W2'. split; auto. cbn [gsstep]. unfold gcall. cbn [fst snd]. now rewrite E2.
Qed.
Lemma y_in_c_play jd X : forall (p : yprog X) W T W2 x W' T', wleaner W W2 -> yrplay jd p (W, T) = Some (x, (W', T')) ->
  exists W2', grplay jd (y_in_c jd p (W, T)) (W2, T) = Some (x, (W2', T')) /\ wleaner W' W2'.
Proof.
  induction p as [x0| |c k IH]; intros W T W2 x W' T' L H; cbn [yrplay y_in_c] in *; [injection H as <- <- <-; exists W2; auto|discriminate|].
  destruct (ysstep jd c (W, T)) as [[a [W1 T1]]|] eqn:E; [|discriminate]. destruct (yplain_lean jd c W T W2 a W1 T1 L E) as (d & W3 & -> & E2 & L2).
  cbn [grplay]. rewrite E2. apply IH; auto.
Qed.
Theorem y_in_c_same jd : correct jd -> forall X (p : yprog X) x W T, yrplay jd p (wstart, []) = Some (x, (W, T)) ->
  exists f0, forall fuel, (f0 <= fuel)%nat -> exists Z s Z' s', ymplay fuel p ystart init = Ok ((x, Z), s) /\
    gmplay fuel (y_in_c jd p (wstart, [])) (wenv0, []) init = Ok ((x, Z'), s').
Proof.
  intros J X p x W T H. destruct (yclient jd J _ _ _ _ _ H) as (f0 & Q). destruct (y_in_c_play jd X p _ _ wstart _ _ _ (wleaner_refl _) H) as (W2 & H2 & _).
  exists (Nat.max f0 (gpmost jd (y_in_c jd p (wstart, [])) (wstart, []))). intros fuel Hf. destruct (Q fuel) as (Hh & P & s & E1 & _); [eapply Nat.max_lub_l; eauto|].
  destruct (gclient jd J _ _ _ _ _ H2 fuel) as (E & P' & s' & E2 & _); [eapply Nat.max_lub_r; eauto|]. exists (Hh, P), s, (E, P'), s'. auto.
Qed.
(** A program without NewValue() and SetNumStrLenFast is the same program. *)
Fixpoint cstyle_g {X} (p : gprog X) : yprog X :=
  match p with
  | GRet x => YRet x
  | GStuck => YStuck
  | GAct c k => YAct (match c with
      | GRelease g => YEnd g
      | GIn g c => YIn g (match c with PApi c => HApi (HC c) | PTake v h => HTake v h | PLook k => HLook k | PGive u h k => HGive u h k end)
      end) (fun a => cstyle_g (k a))
  end.
Fixpoint plainly_g {X} (p : gprog X) : Prop :=
  match p with
  | GAct c k => match c with GIn _ (PApi c) => as_c c = c | GIn _ (PGive (TText true true) _ _) => False | _ => True end /\ forall a, plainly_g (k a)
  | _ => True
  end.
Lemma cstyle_g_play jd X : forall (p : gprog X) W T W2 x W' T', plainly_g p -> wleaner W W2 -> yrplay jd (cstyle_g p) (W, T) = Some (x, (W', T')) ->
  exists W2', grplay jd p (W2, T) = Some (x, (W2', T')) /\ wleaner W' W2'.
Proof.
  induction p as [x0| |c k IH]; intros W T W2 x W' T' P L H; cbn [yrplay cstyle_g plainly_g] in *; [injection H as <- <- <-; exists W2; auto|discriminate|].
  destruct P as [P0 P]. destruct (ysstep jd _ (W, T)) as [[a [W1 T1]]|] eqn:E; [|discriminate]. destruct (yplain_lean jd _ W T W2 a W1 T1 L E) as (d & W3 & Ed & E2 & L2).
  assert (d = c) as ->.
  { destruct c as [g [c|v h|k0|u h k0]|g]; cbn [yplain plain option_map fst snd] in Ed; try (injection Ed as <-; congruence).
    destruct (nth_error T k0) as [[[j r]|]|]; try discriminate. destruct (rtext r) as [[view t]|]; [|discriminate]. injection Ed as <-. now rewrite unfast_same. }
  cbn [grplay]. rewrite E2. eapply IH; eauto.
Qed.
Theorem cstyle_g_same jd : correct jd -> forall X (p : gprog X) x W T, plainly_g p -> yrplay jd (cstyle_g p) (wstart, []) = Some (x, (W, T)) ->
  exists f0, forall fuel, (f0 <= fuel)%nat -> exists Z s Z' s', ymplay fuel (cstyle_g p) ystart init = Ok ((x, Z), s) /\
    gmplay fuel p (wenv0, []) init = Ok ((x, Z'), s').
Proof.
  intros J X p x W T Pl H. destruct (yclient jd J _ _ _ _ _ H) as (f0 & Q). destruct (cstyle_g_play jd X p _ _ wstart _ _ _ Pl (wleaner_refl _) H) as (W2 & H2 & _).
  exists (Nat.max f0 (gpmost jd p (wstart, []))). intros fuel Hf. destruct (Q fuel) as (Hh & P & s & E1 & _); [eapply Nat.max_lub_l; eauto|].
  destruct (gclient jd J _ _ _ _ _ H2 fuel) as (E & P' & s' & E2 & _); [eapply Nat.max_lub_r; eauto|]. exists (Hh, P), s, (E, P'), s'. auto.
Qed.
