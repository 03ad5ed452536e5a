(** Which blocks are alive after a program over the beta header that keeps pointers and
    reacts to answers, with several groups of allocators (BetaKeepWorld.v). *)
From Verif Require Import Base Spec Lex Alloc AllocProofs Mem MemProofs Api Double Vocab Scene Dom SetFacts CacheProofs Hist HistRun HistStep HistCache HistAll HistJudge HistMany HistWorld Leak Beta BetaHist
  BetaSim BetaLeak BetaWorld BetaClient Keep KeepWorld BetaKeepWorld.

Definition zgkeeps (c : zgstmt) : bool := match c with ZIn _ (ZApi c) => zkeeps_buffer c | _ => false end.
(** The buffers the caller leaves with the library. *)
Fixpoint zgbuffers {X} (fuel : nat) (p : zgprog X) (Z : zgmst) (s : st) : list N :=
  match p with
  | ZGAct c k =>
      match zgmstep fuel c Z s with
      | Ok (az, s') => (if zgkeeps c then [snext s] else []) ++ zgbuffers fuel (k (fst az)) (snd az) s'
      | Err _ => []
      end
  | _ => []
  end.
#[local] Hint Resolve ko_alloc ko_store ko_load ko_putNode ko_putVal ko_putZ ko_parse_loop ko_stringify_loop ko_nth_node ko_copy_loop ko_adopt : keepo.
Lemma zmstep_owned fuel c E B P : (forall d, c <> ZApi d) -> keepsO (zmstep fuel c ((E, B), P)).
Proof.
  intro Na. destruct c as [c|g h|k|num fast h k|fast h k|h k|h|fast h k|h k]; [now elim (Na c)|..]; cbn [zmstep]; unfold mcall.
  - destruct g; cbn [is_view]; owned.
  - owned.
  - destruct num, fast; cbn [kind_of zset_text_call]; owned.
  - destruct fast; cbn [kind_of zset_key_call]; owned.
  - owned.
  - owned.
  - destruct fast; owned.
  - owned.
Qed.
Lemma mcall_inv m P s xz s' : mcall m P s = Ok (xz, s') -> exists xb, m s = Ok (xb, s') /\ xz = (fst (fst xb), ((snd (fst xb), snd xb), P)).
Proof. intro K. apply bind_inv in K as (xe & s1 & K1 & K2). injection K2 as <- <-. eauto. Qed.
Lemma gi_mcall m P E : gives m (fun xb => ea (snd (fst xb)) = ea E) -> gives (mcall m P) (fun xz => ea (fst (fst (snd xz))) = ea E).
Proof. intros H s xz s' K. apply mcall_inv in K as (xb & K & ->). exact (H _ _ _ K). Qed.
Lemma gi_fail X e (P : X -> Prop) : gives (fail e) P.
Proof. intros s x s' K. discriminate K. Qed.
Lemma zmstep_ea fuel c E B P : (forall d, c <> ZApi d) -> gives (zmstep fuel c ((E, B), P)) (fun xz => ea (fst (fst (snd xz))) = ea E).
Proof.
  intro Na. destruct c as [c|g h|k|num fast h k|fast h k|h k|h|fast h k|h k]; [now elim (Na c)|..]; cbn [zmstep].
  - apply gi_bind. intro w. destruct (is_view g); apply gi_bind; intro r; apply gi_bind; intro x; now apply gi_ret.
  - apply gi_bind. intro p. apply gi_bind. intro x. now apply gi_ret.
  - apply gi_bind. intro w. apply gi_bind. intro m. destruct m as [|a|a n]; [apply gi_fail|..]; apply gi_bind; intro p; apply gi_mcall, gi_envB; reflexivity.
  - apply gi_bind. intro w. apply gi_bind. intro m. destruct m as [|a|a n]; [apply gi_fail|..]; apply gi_bind; intro p; apply gi_mcall, gi_envB; reflexivity.
  - apply gi_bind. intro w. apply gi_bind. intro m. destruct m as [|a|a n]; [apply gi_fail|..]; apply gi_bind; intro p; apply gi_mcall; unfold out_valueB; apply gi_bind; intro r;
      apply gi_ret, out_value_ea.
  - apply gi_bind. intro w. apply gi_bind. intro r. apply gi_bind. intro x. now apply gi_ret.
  - apply gi_bind. intro w. apply gi_bind. intro m. destruct m as [|a|a n]; [apply gi_fail| |apply gi_fail]; apply gi_bind; intro p; apply gi_mcall, gi_envB; reflexivity.
  - apply gi_bind. intro w. apply gi_bind. intro m. destruct m as [|a|a n]; [apply gi_fail| |apply gi_fail]; apply gi_bind; intro p; apply gi_mcall, gi_envB; reflexivity.
Qed.
Lemma zmstep_live fuel c E B P s xz s' : tidy s -> zmstep fuel c ((E, B), P) s = Ok (xz, s') -> let k := match c with ZApi c => zkeeps_buffer c | _ => false end in
  tidy s' /\ (forall A b, owns s A b -> owns s' A b) /\
  (forall b, sbsize s' b <> None -> sbsize s b <> None \/ (k = true /\ b = snext s) \/ exists A, owns s' A b) /\
  (forall A, sallocs s' A <> None -> sallocs s A <> None \/ In A (ea (fst (fst (snd xz))))) /\ incl (ea E) (ea (fst (fst (snd xz)))).
Proof.
  intros T K. assert (D : (exists d, c = ZApi d) \/ forall d, c <> ZApi d) by (destruct c; [left; eauto|right; discriminate..]). destruct D as [(d & ->)|Na].
  - cbn [zmstep] in K. apply mcall_inv in K as (xe & K & ->). cbn [fst snd]. exact (bstep_live fuel d E B s xe s' T K).
  - pose proof (zmstep_ea fuel c E B P Na s xz s' K) as Ee. cbv beta in Ee. pose proof (zmstep_owned fuel c E B P Na s xz s' T K) as G. cbv zeta.
    split; [apply G|]. split; [apply G|]. split; [|split; [|rewrite Ee; apply incl_refl]].
    + intros b Hb. destruct (gr_live _ _ G b Hb); auto.
    + intros A HA. left. now apply (gr_same _ _ G).
Qed.
Lemma zgmstep_accounted fuel c U Es B P s az s' : accounted U Es s -> zgmstep fuel c ((Es, B), P) s = Ok (az, s') ->
  accounted (U ++ if zgkeeps c then [snext s] else []) (fst (fst (snd az))) s'.
Proof.
  intros [T Kn Lv] H. destruct c as [g c|g]; cbn [zgmstep] in H.
  - apply bind_inv in H as (xz & s1 & E & H). injection H as <- <-. cbn [fst snd].
    destruct (zmstep_live _ _ _ _ _ _ _ _ T E) as (T1 & O & L1 & S1 & I1). cbv zeta in L1. constructor; auto.
    + intros A HA. destruct (S1 A HA) as [K|K].
      * destruct (Kn A K) as (g' & Hg). exists g'. unfold updn. destruct (Nat.eqb_spec g' g) as [->|D]; auto.
      * exists g. now rewrite updn_eq.
    + intros b Hb. destruct (L1 b Hb) as [K|[(K1 & ->)|K]]; auto.
      * destruct (Lv b K) as [|[|(A & K1)]]; auto; [right; left; apply in_or_app; auto|]. right. right. exists A. auto.
      * right. left. apply in_or_app. right. destruct c; try discriminate K1. cbn [zgkeeps]. rewrite K1. now left.
  - apply bind_inv in H as (u & s1 & E & H). injection H as <- <-.
    pose proof (zestep_accounted fuel (Release g) U (Es, B) s u s1 (Build_accounted _ _ _ T Kn Lv) E) as Q. exact Q.
Qed.
Lemma zgmplay_accounted X fuel : forall (p : zgprog X) U Es B P s xz s', accounted U Es s -> zgmplay fuel p ((Es, B), P) s = Ok (xz, s') ->
  accounted (U ++ zgbuffers fuel p ((Es, B), P) s) (fst (fst (snd xz))) s'.
Proof.
  induction p as [x| |c k IH]; intros U Es B P s xz s' Ac E; cbn [zgmplay zgbuffers] in *.
  - injection E as <- <-. cbn [fst snd]. now rewrite app_nil_r.
  - discriminate.
  - unfold bind at 1 in E. destruct (zgmstep fuel c ((Es, B), P) s) as [[[a [[E1 B1] P1]] s1]|] eqn:Ec; [|discriminate]. cbn [fst snd] in *.
    rewrite app_assoc. eapply IH; [|exact E]. exact (zgmstep_accounted _ _ _ _ _ _ _ _ _ Ac Ec).
Qed.
Theorem zgno_leak X fuel (p : zgprog X) x Es B P s b : zgmplay fuel p (zworld0, []) init = Ok ((x, ((Es, B), P)), s) -> sbsize s b <> None ->
  sbsize init b <> None \/ In b (zgbuffers fuel p (zworld0, []) init) \/ exists g A, In A (ea (Es g)) /\ owns s A b.
Proof.
  intros H Hb. pose proof (zgmplay_accounted X fuel p [] wenv0 bstart [] init _ _ accounted_start H) as [_ Kn Lv]. cbn [app fst snd] in *.
  destruct (Lv b Hb) as [|[|(A & K)]]; auto. right. right. assert (NA : sallocs s A <> None) by (destruct K as (ar & k & K & _); congruence).
  destruct (Kn A NA) as (g & Hg). eauto.
Qed.
Theorem zgall_freed X fuel (p : zgprog X) x Es B P s b : zgmplay fuel p (zworld0, []) init = Ok ((x, ((Es, B), P)), s) -> (forall g, ea (Es g) = []) ->
  sbsize s b <> None -> sbsize init b <> None \/ In b (zgbuffers fuel p (zworld0, []) init).
Proof. intros H Hn Hb. destruct (zgno_leak X fuel p x Es B P s b H Hb) as [|[|(g & A & HA & _)]]; auto. rewrite Hn in HA. destruct HA. Qed.
