(** Whole programs in a memory that others use too. *)
From Verif Require Import Base Spec Lex LexProofs Alloc AllocProofs Mem MemProofs Api Vocab Dom Effect CacheProofs Start MoveProofs
  Hist HistRun HistForest HistSim HistStep HistAll HistMany HistWorld Frame.

(** A memory as a program may find it: the static texts are in place, and everything
    else allocated so far - any bytes, any objects, whole or damaged - belongs to
    others. *)
Record among_others (s : st) : Prop := {
  ao_static : forall o, sbytes s (0, o) = nth_error static_text (N.to_nat o);
  ao_size : sbsize s 0 = Some (lenN static_text);
  ao_plain : forall o, snodes s (0, o) = None /\ svals s (0, o) = None /\ sstrs s (0, o) = None;
  ao_noarena : sallocs s 0 = None;
  ao_zero : 0 < snext s;
  ao_fresh : forall b, snext s <= b -> sbsize s b = None /\ sallocs s b = None /\ forall o, nothing s (b, o);
  ao_cache : scache s <> Undef
}.
(** The blocks of the others. *)
Definition foreign (s : st) (b : N) : bool := (0 <? b) && (b <? snext s).
Definition alone (s : st) : st :=
  mkSt (hide (foreign s) (sbytes s)) (hide (foreign s) (snodes s)) (hide (foreign s) (svals s)) (hide (foreign s) (sstrs s))
       (hideN (foreign s) (sallocs s)) (hideN (foreign s) (sbsize s)) (snext s) (scache s) (scnt s).

Lemma foreign_no s b : foreign s b = false -> b = 0 \/ snext s <= b.
Proof.
  unfold foreign. destruct (0 <? b) eqn:E1; cbn [andb]; intro H; [apply N.ltb_ge in H; now right|].
  apply N.ltb_ge in E1. left. lia.
Qed.
Lemma alone_obj s a : among_others s -> snodes (alone s) a = None /\ svals (alone s) a = None /\ sstrs (alone s) a = None.
Proof.
  intro Ao. cbn. unfold hide. destruct (foreign s (fst a)) eqn:F; auto. destruct a as [b o]. cbn [fst] in F.
  apply foreign_no in F as [->|H]; [apply Ao|]. destruct (ao_fresh s Ao b H) as (_ & _ & K). destruct (K o) as (_ & K1 & K2 & K3). auto.
Qed.
Lemma alone_arena s A : among_others s -> sallocs (alone s) A = None.
Proof.
  intro Ao. cbn. unfold hideN. destruct (foreign s A) eqn:F; auto. apply foreign_no in F as [->|H]; [apply Ao|]. now apply (ao_fresh s Ao).
Qed.
Lemma alone_cut s : among_others s -> cut (foreign s) s (alone s).
Proof.
  intro Ao. split; auto.
  - intros p z H. destruct (alone_obj s p Ao) as (_ & _ & K). congruence.
  - intros b H. unfold foreign in H. apply andb_prop in H as [_ H]. now apply N.ltb_lt in H.
Qed.
Lemma alone_wf s : among_others s -> wfst (alone s).
Proof.
  intro Ao. constructor.
  - intros b H. split; [|now apply alone_arena]. cbn in *. unfold hideN. destruct (foreign s b); auto. now apply (ao_fresh s Ao).
  - apply Ao.
  - intros A ar H. rewrite alone_arena in H by auto. discriminate.
  - intros A ar c H. rewrite alone_arena in H by auto. discriminate.
  - intros A A' ar ar' c c' H. rewrite alone_arena in H by auto. discriminate.
  - intros a H. destruct (alone_obj s a Ao) as (K1 & K2 & K3). split; auto. destruct a as [b o]. cbn in *. unfold hide, hideN in *. cbn [fst] in *.
    destruct (foreign s b) eqn:F; auto. apply foreign_no in F as [->|Hb]; [rewrite (ao_size s Ao) in H; discriminate|]. now apply (ao_fresh s Ao).
  - intros [b o] x H. cbn in *. unfold hide, hideN in *. cbn [fst snd] in *. destruct (foreign s b) eqn:F; [discriminate|].
    apply foreign_no in F as [->|Hb].
    + rewrite (ao_static s Ao) in H. exists (lenN static_text). split; [apply Ao|]. assert (K : nth_error static_text (N.to_nat o) <> None) by congruence.
      apply nth_error_Some in K. unfold lenN. lia.
    + destruct (ao_fresh s Ao b Hb) as (_ & _ & K). destruct (K o) as (K1 & _). congruence.
  - intro o. cbn. unfold hide. cbn. apply Ao.
  - change (scache (alone s)) with (scache s). pose proof (ao_cache s Ao). destruct (scache s) as [| |p]; auto.
    destruct (alone_obj s p Ao) as (_ & _ & ->). exact Logic.I.
Qed.
Definition wbegin (dead : bool) : world := mkW (fun _ => rstart) [] false dead.
Lemma begin_tied s dead : among_others s -> (dead = false -> scache s = Null) ->
  tied (wbegin dead) wenv0 (fun _ _ => (0, 0)) (fun _ => nodocs) (alone s).
Proof.
  intros Ao Hc. pose proof (alone_wf s Ao) as W.
  assert (Nv : forall g b, ~ @isvol (others wenv0 g) b) by (intros g b (_ & j & _ & [])).
  constructor; cbn [wbegin wr wc wsure wdead]; auto.
  - intro g. apply sim_nothing; auto. apply own_wfvol; auto. intros b Hb. now apply Nv in Hb.
  - intro Hd. specialize (Hc Hd). unfold cache_live, homeof. change (scache (alone s)) with (scache s). rewrite Hc.
    split; [exact Logic.I|]. split; [|discriminate]. intros A (p & z & H & _). discriminate.
Qed.
(** [dead] tells whether others have used the scratch string of the length setters. *)
Theorem anywhere jd es dead rs W : correct jd -> wrun jd es (wbegin dead) = Some (rs, W) ->
  exists f0, forall fuel s, (f0 <= fuel)%nat -> among_others s -> (dead = false -> scache s = Null) ->
    exists Es s', erun fuel es wenv0 s = Ok ((rs, Es), s') /\ same (foreign s) s s' /\
      exists t', cut (foreign s) s' t' /\ forall g, represents (wr W g) (Es g) t'.
Proof.
  intros J H. destruct (world_run jd J es (wbegin dead) rs W H) as (f0 & K). exists f0. intros fuel s Hf Ao Hc.
  destruct (K wenv0 _ _ (alone s) fuel Hf (begin_tied s dead Ao Hc)) as ([rs' Es] & t & Er & Hr & nms & Fs & T).
  cbn [fst snd] in *. subst rs'. assert (H0 : foreign s 0 = false) by reflexivity.
  destruct (fr_erun _ fuel H0 es wenv0 _ _ _ _ (alone_cut s Ao) Er) as (s' & Es' & C & S & _).
  exists Es, s'. split; auto. split; auto. exists t. split; auto. intro g. exists (nms g), (Fs g). rewrite <- (wr_eta (wr W g)).
  apply (sim_move (others Es g) novols _ _ _ _ none none zeroc t t); [apply T|apply ext_refl; eapply t_wf; eauto|intros y _ []|intros y _ []|apply pays_zero|intros b []|intros b []].
Qed.
