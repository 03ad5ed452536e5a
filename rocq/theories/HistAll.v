(** Whole programs: every history that the reference semantics (Hist.v) gives answers for
    runs on the model of the code with the same answers. *)
From Verif Require Import Base Spec Lex LexProofs Alloc AllocProofs Mem MemProofs Api PureParse Dom Effect CacheProofs Start Vocab MoveProofs
  Hist HistRun HistForest HistSim HistStep.

(** The scratch string is in an allocator of the program. *)
Definition cache_own (E : env) (s : st) : Prop := cache_live s /\ forall A, homeof s A -> In A (ea E).
Lemma own_ready E s n : cache_own E s -> cache_ready E s n.
Proof. intros [L H]. split; auto. Qed.
Lemma inrA_one s A A' p n n' : wfst s -> inrA s A p n -> inrA s A' p n' -> A = A'.
Proof. intros W (ar & c & H1 & H2 & H3 & _) (ar' & c' & K1 & K2 & K3 & _). eapply (w_own s W); eauto. congruence. Qed.
(** Where it is when a call is over. *)
Lemma home_after Dn Dv c s s' A : ext Dn Dv c s s' -> cache_live s -> homeof s' A -> homeof s A \/ (scache s = Null /\ c A <> 0).
Proof.
  intros X L (p & z & E1 & E2 & E3). pose proof (x_wf _ _ _ _ _ X) as W'. pose proof (w_cache s' W') as K. rewrite E1, E2, E3 in K. destruct K as (K & _).
  destruct (x_cache _ _ _ _ _ X) as [Ec|(Ec & q & A' & Eq & _ & Hc & Hi & _)].
  - left. unfold cache_live in L. rewrite <- Ec, E1 in L. destruct (sstrs s p) as [z0|] eqn:E0; [|now elim L].
    exists p, z0. split; [congruence|]. split; auto. pose proof (w_cache s (x_wf0 _ _ _ _ _ X)) as K0. rewrite <- Ec, E1, E0 in K0. destruct K0 as (K0 & _).
    apply (x_inr _ _ _ _ _ X) in K0. exact (inrA_one s' _ _ _ _ _ W' K0 K).
  - right. split; auto. assert (q = p) by congruence. subst q. rewrite (inrA_one s' _ _ _ _ _ W' K Hi). exact Hc.
Qed.
Lemma live_after Dn Dv c s s' : ext Dn Dv c s s' -> cache_live s -> cache_live s'.
Proof.
  intros X L. unfold cache_live in *. destruct (x_cache _ _ _ _ _ X) as [->|(_ & q & A' & -> & _ & _ & _ & Hq)]; auto.
  destruct (scache s) as [| |p]; auto. now apply (x_live _ _ _ _ _ X).
Qed.
Lemma own_after {VV : vols} {NN : need} E F s R' E' nm' F' s' : after E F s R' E' nm' F' s' -> cache_own E s -> cache_own E' s'.
Proof.
  intros [_ (c & X & M) _ _ _ (lh & la & _ & Ea)] [L H]. split; [eapply live_after; eauto|].
  intros A Ho. rewrite Ea. apply in_or_app. left. destruct (home_after _ _ _ _ _ _ X L Ho) as [K|[Kn Kc]]; auto.
  destruct (M A Kc) as [K|[K _]]; auto.
Qed.

(** Programs.  The most passes a loop makes in one: *)
Fixpoint most (jd : judge) (cs : list call) (R : rst) : nat :=
  match cs with
  | [] => 0
  | c :: r => match rstep jd c R with Some (_, R1) => Nat.max (passes c R) (most jd r R1) | None => 0 end
  end.
Theorem run_most jd : correct jd -> forall cs R rs R', rrun jd cs R = Some (rs, R') ->
  forall (VV : vols) E nm F s fuel, (most jd cs R <= fuel)%nat -> sim R E nm F s -> cache_own E s ->
    wp (crun fuel cs E) s (fun re s' => fst re = rs /\ cache_own (snd re) s' /\ exists nm' F', sim R' (snd re) nm' F' s').
Proof.
  intros J cs. induction cs as [|c cs IH]; intros R rs R' H; cbn in H.
  - injection H as <- <-. intros VV E nm F s fuel _ S O. apply wp_ret. cbn. eauto.
  - cbn [most]. destruct (rstep jd c R) as [[x R1]|] eqn:E1; [|discriminate]. destruct (rrun jd cs R1) as [[xs R2]|] eqn:E2; [|discriminate]. injection H as <- <-.
    destruct (step jd J c R x R1 E1) as (f1 & L1 & K1). pose proof (IH R1 xs R2 E2) as K2.
    intros VV E nm F s fuel Hf S O. cbn [crun]. apply wp_bind. eapply wp_mono; [apply (K1 VV E nm F s fuel); [lia|auto|intros _; now apply own_ready]|].
    intros xe s1 (Hx & nm1 & F1 & Af). apply wp_bind.
    eapply wp_mono; [apply (K2 VV (snd xe) nm1 F1 s1 fuel); [lia|apply (af_sim _ _ _ _ _ _ _ _ Af)|eapply own_after; eauto]|].
    intros re s2 (Hr & O2 & nm2 & F2 & S2). apply wp_ret. cbn [fst snd]. split; [congruence|]. eauto.
Qed.
Theorem run jd : correct jd -> forall cs R rs R', rrun jd cs R = Some (rs, R') ->
  exists f0, forall (VV : vols) E nm F s fuel, (f0 <= fuel)%nat -> sim R E nm F s -> cache_own E s ->
    wp (crun fuel cs E) s (fun re s' => fst re = rs /\ cache_own (snd re) s' /\ exists nm' F', sim R' (snd re) nm' F' s').
Proof. intros J cs R rs R' H. exists (most jd cs R). exact (run_most jd J cs R rs R' H). Qed.

(** The start. *)
Lemma start_sim : @sim novols rstart estart (fun _ => (0, 0)) nodocs init.
Proof.
  constructor; cbn [rstart estart rG rn rh ru eh ea]; auto.
  - apply init_inv.
  - constructor; unfold noforest; cbn; try discriminate. intros i j H. now elim H.
  - intros h o k H. destruct h; discriminate.
  - constructor.
  - constructor.
  - intros k A u H. destruct k; discriminate.
Qed.
Lemma start_own : cache_own estart init.
Proof. split; [exact Logic.I|]. intros A (p & z & H & _). discriminate. Qed.

(** State [s] and tables [E] hold the documents and values of [R]. *)
Definition represents (R : rst) (E : env) (s : st) : Prop := exists nm F, @sim novols R E nm F s.
Theorem program_most jd cs rs R : correct jd -> rrun jd cs rstart = Some (rs, R) ->
  forall fuel, (most jd cs rstart <= fuel)%nat -> exists E s, crun fuel cs estart init = Ok ((rs, E), s) /\ represents R E s.
Proof.
  intros J H fuel Hf.
  destruct (run_most jd J cs rstart rs R H novols estart _ nodocs init fuel Hf start_sim start_own) as ([rs' E] & s & Er & Hr & _ & nm' & F' & S).
  cbn [fst snd] in *. subst rs'. exists E, s. split; auto. exists nm', F'. exact S.
Qed.
Theorem program jd cs rs R : correct jd -> rrun jd cs rstart = Some (rs, R) ->
  exists f0, forall fuel, (f0 <= fuel)%nat -> exists E s, crun fuel cs estart init = Ok ((rs, E), s) /\ represents R E s.
Proof. intros J H. exists (most jd cs rstart). exact (program_most jd cs rs R J H). Qed.
