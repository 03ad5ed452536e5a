(** Which blocks are alive after a program over the beta header, with several groups of
    allocators that may be released at any time (as in HistMany.v). *)
From Verif Require Import Base Spec Lex Alloc AllocProofs Mem MemProofs Api Double Vocab Scene Dom CacheProofs Hist HistRun HistStep HistCache HistAll HistJudge HistMany HistWorld Leak Beta BetaHist.

(** ** Programs *)
(** The value objects of all groups are in one memory: [bmem] is shared. *)
Definition zworld := (wenv * bmem)%type.
Definition zworld0 : zworld := (wenv0, bstart).
Definition zestep (fuel : nat) (e : event) (W : zworld) : M (answer * zworld) :=
  match e with
  | Do g c => xb <- bstep fuel c (fst W g) (snd W) ;; ret (fst (fst xb), (updn (fst W) g (snd (fst xb)), snd xb))
  | Release g => release_all (ea (fst W g)) ;;; ret (Done, (updn (fst W) g estart, snd W))
  end.
Fixpoint zerun (fuel : nat) (es : list event) (W : zworld) : M (list answer * zworld) :=
  match es with
  | [] => ret ([], W)
  | e :: r => xw <- zestep fuel e W ;; rw <- zerun fuel r (snd xw) ;; ret (fst xw :: fst rw, snd rw)
  end.

(** ** Calls *)
#[local] Hint Resolve ko_alloc ko_store ko_load ko_putNode ko_putVal ko_putZ ko_parse_loop ko_stringify_loop ko_nth_node ko_copy_loop ko_adopt : keepo.
(** The calls that leave a buffer of the caller in use: every parse call is one. *)
Definition zkeeps_buffer (c : call) : bool :=
  match c with
  | CParse _ _ _ _ => true
  | CSetText _ k _ _ | CSetKey k _ _ => kept_kind k
  | _ => false
  end.
Lemma bstep_owned fuel c E B : zkeeps_buffer c = false -> c <> CNewAllocator -> keepsO (bstep fuel c E B).
Proof.
  intros H N. destruct c; cbn [bstep]; try (now elim N); try discriminate; try (owned; fail).
  - cbn [zkeeps_buffer] in H. rewrite H. cbn [pass]. destruct k, num; owned.
  - cbn [zkeeps_buffer] in H. rewrite H. cbn [pass]. destruct k; owned.
Qed.
Lemma gi_envB X E (f : X -> answer) m (Q : (answer * env) * bmem -> Prop) : (forall x B, Q ((f x, E), B)) -> gives (with_envB E f m) Q.
Proof. intro H. unfold with_envB. apply gi_bind. intro x. now apply gi_ret. Qed.
Lemma gi_same X B (m : M X) (P : X -> Prop) : gives m P -> gives (same B m) (fun xb => P (fst xb)).
Proof. intros H s xb s' E. unfold same, bind in E. destruct (m s) as [[x s1]|e] eqn:E1; [|discriminate]. injection E as <- <-. eapply H; eauto. Qed.
Lemma bstep_ea fuel c E B : c <> CNewAllocator -> gives (bstep fuel c E B) (fun xb => ea (snd (fst xb)) = ea E).
Proof.
  intro N. destruct c; cbn [bstep]; try (now elim N);
    try (match goal with |- gives (same _ ?m) _ => apply (gi_same _ _ m (fun xe => ea (snd xe) = ea E)), cstep_ea; discriminate end);
    try (intros ? ? ? K; discriminate K).
  all: try (match goal with f : bool |- _ => destruct f end); try (match goal with |- gives (same _ ?m) _ => apply (gi_same _ _ m (fun xe => ea (snd xe) = ea E)), cstep_ea; discriminate end).
  all: repeat (apply gi_bind; intro); try (apply gi_envB; reflexivity); try (apply gi_ret; first [reflexivity | apply out_value_ea]).
Qed.
Lemma with_envB_inv X E (f : X -> answer) m s xe s' : with_envB E f m s = Ok (xe, s') -> exists x, m s = Ok (x, s').
Proof. unfold with_envB, bind. destruct (m s) as [[x s1]|e]; [|discriminate]. intros [= _ <-]. eauto. Qed.
(** A call that keeps a buffer: its code with the buffer in memory. *)
Lemma bstep_kept fuel c E B s xe s' : zkeeps_buffer c = true -> bstep fuel c E B s = Ok (xe, s') ->
  exists t (m : addr -> M (bool * bmem)) x, keep t m s = Ok (x, s') /\
    ((exists k v n, forall p, m p = match k with PCopy => z_ValueParse B v p | PFast => z_ValueParseFast B v p | PLen => z_ValueParseLen B v p n end) \/
     (exists num k v n, kept_kind k = true /\ forall p, m p = zset_text_call B num k v p n) \/
     (exists k v n, kept_kind k = true /\ forall p, m p = zset_key_call B k v p n)).
Proof.
  intros Kb H. destruct c; try discriminate; cbn [bstep] in H; unfold bind at 1 in H; destruct (hof E h s) as [[v s1]|e] eqn:Eh; try discriminate; apply hof_pure in Eh as ->;
    apply with_envB_inv in H as (x & H).
  - eexists _, _, x. split; [exact H|]. left. eexists k, v, _. reflexivity.
  - cbn [zkeeps_buffer] in Kb. rewrite Kb in H. eexists _, _, x. split; [exact H|]. right. left. eexists num, k, v, _. split; auto.
  - cbn [zkeeps_buffer] in Kb. rewrite Kb in H. eexists _, _, x. split; [exact H|]. right. right. eexists k, v, _. split; auto.
Qed.
Definition zcall_effect (c : call) (E : env) (s : st) (E' : env) (s' : st) : Prop :=
  tidy s' /\ (forall A b, owns s A b -> owns s' A b) /\
  (forall b, sbsize s' b <> None -> sbsize s b <> None \/ (zkeeps_buffer c = true /\ b = snext s) \/ exists A, owns s' A b) /\
  (forall A, sallocs s' A <> None -> sallocs s A <> None \/ In A (ea E')) /\ incl (ea E) (ea E').
Lemma bstep_live fuel c E B s xb s' : tidy s -> bstep fuel c E B s = Ok (xb, s') -> zcall_effect c E s (snd (fst xb)) s'.
Proof.
  intros T H. assert (D : c = CNewAllocator \/ c <> CNewAllocator) by (destruct c; auto; right; discriminate). destruct D as [->|Nc].
  - cbn [bstep] in H. unfold same, bind in H. destruct (cstep fuel CNewAllocator E s) as [[xe s1]|e] eqn:Ec; [|discriminate]. injection H as <- <-.
    destruct (cstep_live _ _ _ _ _ _ T Ec) as (K1 & K2 & K3 & K4 & K5). exact (conj K1 (conj K2 (conj K3 (conj K4 K5)))).
  - pose proof (bstep_ea fuel c E B Nc s xb s' H) as Ee. cbv beta in Ee. destruct (zkeeps_buffer c) eqn:Kb.
    + destruct (bstep_kept _ _ _ _ _ _ _ Kb H) as (t & m & x & K & Sh).
      assert (Km : forall p, keepsO (m p)).
      { intro p. destruct Sh as [(k & v & n & ->)|[(num & k & v & n & Hk & ->)|(k & v & n & Hk & ->)]]; [destruct k; owned|destruct k, num; try discriminate; owned|destruct k; try discriminate; owned]. }
      destruct (keep_live _ _ _ _ _ _ Km T K) as (K1 & K2 & K3 & K4). split; auto. split; auto. split; [|split; [|rewrite Ee; apply incl_refl]].
      * intros b Hb. destruct (K3 b Hb) as [|[]]; auto.
      * intros A HA. left. auto.
    + pose proof (bstep_owned fuel c E B Kb Nc s xb s' T H) as G.
      split; [apply G|]. split; [apply G|]. split; [|split; [|rewrite Ee; apply incl_refl]].
      * intros b Hb. destruct (gr_live _ _ G b Hb); auto.
      * intros A HA. left. now apply (gr_same _ _ G).
Qed.

(** ** Programs *)
(** The caller's buffers that calls leave in use. *)
Definition zlends (e : event) : bool := match e with Do _ c => zkeeps_buffer c | Release _ => false end.
Definition zlent (e : event) (s : st) : list N := if zlends e then [snext s] else [].
Fixpoint zbuffers (fuel : nat) (es : list event) (W : zworld) (s : st) : list N :=
  match es with
  | [] => []
  | e :: r => match zestep fuel e W s with Ok (xw, s') => zlent e s ++ zbuffers fuel r (snd xw) s' | Err _ => [] end
  end.
Lemma zestep_accounted fuel e U W s xw s' : accounted U (fst W) s -> zestep fuel e W s = Ok (xw, s') -> accounted (U ++ zlent e s) (fst (snd xw)) s'.
Proof.
  intros [T Kn L] H. destruct W as [Es B]. destruct e as [g c|g]; cbn [zestep fst snd] in *; unfold bind in H.
  - destruct (bstep fuel c (Es g) B s) as [[[[x E'] B'] s1]|e] eqn:E; [|discriminate]. injection H as <- <-. cbn [fst snd].
    destruct (bstep_live _ _ _ _ _ _ _ T E) as (T1 & O & L1 & S1 & I1). cbn [fst snd] in *. constructor; auto.
    + intros A HA. destruct (S1 A HA) as [K|K].
      * destruct (Kn A K) as (g' & Hg). exists g'. unfold updn. destruct (Nat.eqb_spec g' g) as [->|D]; auto.
      * exists g. unfold updn. now rewrite Nat.eqb_refl.
    + intros b Hb. destruct (L1 b Hb) as [K|[(K1 & ->)|K]]; auto.
      * destruct (L b K) as [|[|(A & K1)]]; auto; [right; left; apply in_or_app; auto|]. right. right. exists A. auto.
      * right. left. unfold zlent, zlends. rewrite K1. apply in_or_app. right. now left.
  - destruct (release_all (ea (Es g)) s) as [[u s1]|e] eqn:E; [|discriminate]. injection H as <- <-. cbn [fst snd]. unfold zlent. cbn [zlends]. rewrite app_nil_r.
    destruct (release_all_result _ _ _ _ T E) as (T1 & R1 & R2 & R3). constructor; auto.
    + intros A HA. destruct (R1 A HA) as [N1 E1]. rewrite E1 in HA. destruct (Kn A HA) as (g' & Hg). exists g'. unfold updn.
      destruct (Nat.eqb_spec g' g) as [->|D]; auto. now elim N1.
    + intros b Hb. destruct (R2 b Hb) as [K1 K2]. destruct (L b K1) as [|[|(A & K3)]]; auto. right. right. exists A.
      assert (NA : ~ In A (ea (Es g))) by (intro K; exact (K2 A K K3)). destruct K3 as (ar & k & O). exists ar, k. now rewrite R3.
Qed.
Lemma zerun_cons fuel e r W s x s' : zerun fuel (e :: r) W s = Ok (x, s') ->
  exists xw s1 rw, zestep fuel e W s = Ok (xw, s1) /\ zerun fuel r (snd xw) s1 = Ok (rw, s') /\ x = (fst xw :: fst rw, snd rw).
Proof.
  cbn [zerun]. unfold bind at 1. destruct (zestep fuel e W s) as [[xw s1]|er]; [|discriminate]. unfold bind.
  destruct (zerun fuel r (snd xw) s1) as [[rw s2]|er] eqn:E2; [|discriminate]. intros [= <- <-]. eauto 8.
Qed.
Lemma zerun_accounted fuel : forall es U W s x s', accounted U (fst W) s -> zerun fuel es W s = Ok (x, s') -> accounted (U ++ zbuffers fuel es W s) (fst (snd x)) s'.
Proof.
  induction es as [|e r IH]; intros U W s x s' Ac H.
  - injection H as <- <-. cbn [zbuffers snd]. now rewrite app_nil_r.
  - apply zerun_cons in H as (xw & s1 & rw & E & H & ->). pose proof (zestep_accounted _ _ _ _ _ _ _ Ac E) as Ac1.
    cbn [zbuffers snd]. rewrite E, app_assoc. exact (IH _ _ _ _ _ Ac1 H).
Qed.
Theorem zno_leak fuel es rs W s b : zerun fuel es zworld0 init = Ok ((rs, W), s) -> sbsize s b <> None ->
  sbsize init b <> None \/ In b (zbuffers fuel es zworld0 init) \/ exists g A, In A (ea (fst W g)) /\ owns s A b.
Proof.
  intros H Hb. pose proof (zerun_accounted fuel es [] zworld0 init _ _ accounted_start H) as [_ Kn L]. cbn [app snd] in *.
  destruct (L b Hb) as [|[|(A & K)]]; auto. right. right. assert (NA : sallocs s A <> None) by (destruct K as (ar & k & K & _); congruence).
  destruct (Kn A NA) as (g & Hg). eauto.
Qed.
Theorem zaccounted_for fuel es rs W s b : zerun fuel es zworld0 init = Ok ((rs, W), s) -> sbsize s b <> None ->
  sbsize init b <> None \/ In b (zbuffers fuel es zworld0 init) \/
  exists g A ar k, In A (ea (fst W g)) /\ sallocs s A = Some ar /\ In k ar /\ ckBlk k = b.
Proof. intros H Hb. destruct (zno_leak _ _ _ _ _ _ H Hb) as [|[|(g & A & HA & ar & k & K)]]; auto. right. right. exists g, A, ar, k. auto. Qed.

(** Groups that made no call since their release have no allocators. *)
Lemma zerun_app fuel : forall es1 es2 W s x s', zerun fuel (es1 ++ es2) W s = Ok (x, s') ->
  exists rs1 W1 s1 rs2, zerun fuel es1 W s = Ok ((rs1, W1), s1) /\ zerun fuel es2 W1 s1 = Ok ((rs2, snd x), s') /\ fst x = rs1 ++ rs2.
Proof.
  induction es1 as [|e r IH]; intros es2 W s x s' H; cbn [app] in H.
  - exists [], W, s, (fst x). cbn [zerun]. split; auto. split; auto. rewrite H. now destruct x.
  - apply zerun_cons in H as (xw & s1 & rw & E & H & ->). destruct (IH es2 _ _ _ _ H) as (rs1 & W1 & s3 & rs2 & K1 & K2 & K3).
    cbn [zerun fst snd]. unfold bind. rewrite E, K1. eexists _, _, _, rs2. split; [reflexivity|]. cbn [snd fst]. split; [exact K2|]. now rewrite K3.
Qed.
Lemma zerun_idle fuel g : forall es W s x s', (forall c, ~ In (Do g c) es) -> zerun fuel es W s = Ok (x, s') -> ea (fst W g) = [] -> ea (fst (snd x) g) = [].
Proof.
  induction es as [|e r IH]; intros W s x s' N H E0; [injection H as <- <-; auto|].
  apply zerun_cons in H as (xw & s1 & rw & E & H & ->). cbn [snd].
  apply (IH _ _ _ _ (fun c K => N c (or_intror K)) H). destruct W as [Es B], e as [g' c|g']; cbn [zestep fst snd] in *; unfold bind in E.
  - destruct (bstep fuel c (Es g') B s) as [[[[y E'] B'] s3]|]; [|discriminate]. injection E as <- <-. cbn [fst snd]. unfold updn.
    destruct (Nat.eqb_spec g g') as [->|D]; auto. elim (N c). now left.
  - destruct (release_all (ea (Es g')) s) as [[u s3]|]; [|discriminate]. injection E as <- <-. cbn [fst snd]. unfold updn. destruct (Nat.eqb g g'); auto.
Qed.
Lemma zerun_releases fuel g : forall gs W s x s', In g gs -> zerun fuel (map Release gs) W s = Ok (x, s') -> ea (fst (snd x) g) = [].
Proof.
  intros gs W s x s' Hin H. apply in_split in Hin as (l & r & ->). rewrite map_app in H. cbn [map] in H.
  destruct (zerun_app _ _ _ _ _ _ _ H) as (rs1 & W1 & s1 & rs2 & _ & K & _). apply zerun_cons in K as (xw & s2 & rw & E & K & Eq). injection Eq as _ Eq.
  rewrite Eq. apply (zerun_idle fuel g _ _ _ _ _ (only_releases _ _) K).
  destruct W1 as [Es1 B1]. cbn [zestep fst snd] in E. unfold bind in E. destruct (release_all (ea (Es1 g)) s1) as [[u s4]|]; [|discriminate]. injection E as <- <-. cbn [fst snd]. unfold updn. now rewrite Nat.eqb_refl.
Qed.
Lemma zbuffers_app fuel l : forall es W s rs1 W1 s1, zerun fuel es W s = Ok ((rs1, W1), s1) -> zbuffers fuel (es ++ l) W s = zbuffers fuel es W s ++ zbuffers fuel l W1 s1.
Proof.
  induction es as [|e r IH]; intros W s rs1 W1 s1 H; [injection H as <- <- <-; reflexivity|].
  apply zerun_cons in H as (xw & s2 & [rs2 W2] & E & H & [= -> ->]). cbn [app zbuffers snd]. now rewrite E, (IH _ _ _ _ _ H), app_assoc.
Qed.
Lemma zbuffers_releases fuel : forall gs W s, zbuffers fuel (map Release gs) W s = [].
Proof. induction gs as [|g r IH]; intros W s; [reflexivity|]. cbn [map zbuffers]. destruct (zestep fuel (Release g) W s) as [[xe s2]|]; auto. apply IH. Qed.
Theorem zall_freed fuel es gs rs W s b : (forall g c, In (Do g c) es -> In g gs) ->
  zerun fuel (es ++ map Release gs) zworld0 init = Ok ((rs, W), s) -> sbsize s b <> None ->
  sbsize init b <> None \/ In b (zbuffers fuel es zworld0 init).
Proof.
  intros Hg H Hb. destruct (zerun_app _ _ _ _ _ _ _ H) as (rs1 & W1 & s1 & rs2 & E1 & E2 & _). cbn [snd] in E2.
  destruct (zno_leak _ _ _ _ _ _ H Hb) as [|[K|(g & A & HA & _)]]; auto.
  - right. now rewrite (zbuffers_app _ _ _ _ _ _ _ _ E1), zbuffers_releases, app_nil_r in K.
  - exfalso. assert (E0 : ea (fst W g) = []); [|rewrite E0 in HA; exact HA].
    destruct (in_dec Nat.eq_dec g gs) as [K|K]; [exact (zerun_releases _ _ _ _ _ _ _ K E2)|].
    apply (zerun_idle fuel g _ _ _ _ _ (only_releases _ _) E2).
    apply (zerun_idle fuel g _ _ _ _ _ (fun c K' => K (Hg g c K')) E1). reflexivity.
Qed.
Theorem zbuffers_length fuel es rs W s : zerun fuel es zworld0 init = Ok ((rs, W), s) -> length (zbuffers fuel es zworld0 init) = length (filter zlends es).
Proof.
  generalize zworld0 init. intros W0 s0. revert W0 s0 rs W s. induction es as [|e r IH]; intros W0 s0 rs W s H; [reflexivity|].
  apply zerun_cons in H as (xw & s2 & [rs2 W2] & E & H & _). cbn [zbuffers filter]. rewrite E, app_length, (IH _ _ _ _ _ H). unfold zlent. now destruct (zlends e).
Qed.
Theorem znothing_left fuel es gs rs W s b : (forall g c, In (Do g c) es -> In g gs /\ zkeeps_buffer c = false) ->
  zerun fuel (es ++ map Release gs) zworld0 init = Ok ((rs, W), s) -> sbsize s b <> None -> sbsize init b <> None.
Proof.
  intros Hg H Hb. destruct (zall_freed _ _ _ _ _ _ _ (fun g c K => proj1 (Hg g c K)) H Hb) as [|K]; auto. exfalso.
  destruct (zerun_app _ _ _ _ _ _ _ H) as (rs1 & W1 & s1 & rs2 & E1 & _ & _). pose proof (zbuffers_length _ _ _ _ _ E1) as L.
  assert (Z : filter zlends es = []).
  { clear - Hg. induction es as [|e r IH]; [reflexivity|]. cbn [filter]. rewrite IH by (intros; apply Hg; now right).
    destruct e as [g c|g]; cbn [zlends]; auto. now rewrite (proj2 (Hg g c (or_introl eq_refl))). }
  rewrite Z in L. destruct (zbuffers fuel es zworld0 init); [exact K|discriminate L].
Qed.
