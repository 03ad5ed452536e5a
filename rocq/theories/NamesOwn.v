(** Programs that mix the interfaces of zzzjson.h and make values with v->Allocator()
    (/repo/zzzjson.h:652) and NewValue (/repo/zzzjson.h:651, 214). *)
From Verif Require Import Base Spec Lex Alloc Mem MemProofs Api Double Dom Scene Client Hist HistRun HistSim HistStep HistAll HistMany HistWorld BetaClient Keep KeepWorld HistDocs HistCover HistCoverMany KeepCover Names.

Inductive ostmt :=
| OStmt (c : gstmt)
| OBeside (g h : nat).                         (* NewValue(v->Allocator()), v handle h of group g *)
Inductive oprog (X : Type) :=
| ORet (x : X)
| OStuck
| OAct (i : iface) (num : bool) (c : ostmt) (k : answer -> oprog X).
Arguments ORet {X} x.
Arguments OStuck {X}.
Arguments OAct {X} i num c k.

(** ** What is to be expected *)
(** A value of the allocator that value [h] is from. *)
Definition in_place (c : ostmt) (Z : gst) : option gstmt :=
  match c with
  | OStmt c => Some c
  | OBeside g h => match nth_error (rh (wr (fst Z) g)) h with Some (_, k) => Some (GIn g (PApi (CNewValue k))) | None => None end
  end.
Definition osstep (jd : judge) (c : ostmt) (Z : gst) : option (answer * gst) :=
  match in_place c Z with Some c => gsstep jd c Z | None => None end.
Fixpoint orplay {X} (jd : judge) (p : oprog X) (Z : gst) : option (X * gst) :=
  match p with
  | ORet x => Some (x, Z)
  | OStuck => None
  | OAct _ _ c k => match osstep jd c Z with Some (a, Z1) => orplay jd (k a) Z1 | None => None end
  end.
Definition opasses (c : ostmt) (Z : gst) : nat := match c with OStmt c => gpasses c Z | OBeside _ _ => 0%nat end.
Fixpoint opmost {X} (jd : judge) (p : oprog X) (Z : gst) : nat :=
  match p with
  | OAct _ _ c k => match osstep jd c Z with Some (a, Z1) => Nat.max (opasses c Z) (opmost jd (k a) Z1) | None => 0%nat end
  | _ => 0%nat
  end.

(** ** On the model *)
Definition omstep (a : api) (fuel : nat) (c : ostmt) (Z : gmst) : M (answer * gmst) :=
  match c with
  | OStmt c => ngstep a fuel c Z
  | OBeside g h => let '(Es, P) := Z in xe <- beside a h (Es g) ;; ret (fst xe, (updn Es g (snd xe), P))
  end.
Fixpoint omplay {X} (fuel : nat) (p : oprog X) (Z : gmst) : M (X * gmst) :=
  match p with
  | ORet x => ret (x, Z)
  | OStuck => fail EFuel
  | OAct i num c k => az <- omstep (api_of i num) fuel c Z ;; omplay fuel (k (fst az)) (snd az)
  end.

(** ** They agree *)
Lemma beside_tied i num W Es nms Fs s g h o k fuel P : tied W Es nms Fs s -> nth_error (rh (wr W g)) h = Some (o, k) ->
  omstep (api_of i num) fuel (OBeside g h) (Es, P) s = gmstep fuel (GIn g (PApi (CNewValue k))) (Es, P) s.
Proof.
  intros Td Hk. destruct (sm_handle _ _ _ _ _ (t_sim _ _ _ _ _ Td g) h o k Hk) as (v & A & Hv & HA & Hs & _). rewrite api_same.
  cbn [omstep gmstep pmstep]. unfold beside, cstep, pmcall, hof, aof, m_Allocator, getVal, get. rewrite Hv, HA. unfold bind, ret. rewrite Hs.
  cbn [vA]. destruct (f_NewValue long_api A s) as [[w s1]|] eqn:En; cbn [f_NewValue long_api] in En; rewrite En; reflexivity.
Qed.
Section Agree.
Variable jd : judge.
Hypothesis J : correct jd.
Lemma ostmt_wp i num c W T x W' T' : osstep jd c (W, T) = Some (x, (W', T')) ->
  forall Es nms Fs s fuel P, (opasses c (W, T) <= fuel)%nat -> tied W Es nms Fs s -> settled s -> aimed Es s P T ->
    wp (omstep (api_of i num) fuel c (Es, P)) s (ggets x W' T').
Proof.
  intros St Es nms Fs s fuel P Hf Td Se Am. unfold osstep in St. destruct c as [c|g h]; cbn [in_place fst] in St.
  - unfold wp. cbn [omstep]. rewrite ngstep_same. eapply gstmt_wp; eauto.
  - destruct (nth_error (rh (wr W g)) h) as [[o k]|] eqn:Hk; [|discriminate]. unfold wp. rewrite (beside_tied i num W Es nms Fs s g h o k fuel P Td Hk).
    eapply gstmt_wp; eauto.
Qed.
Theorem oplay_most X (p : oprog X) : forall W T x W' T', orplay jd p (W, T) = Some (x, (W', T')) ->
  forall Es nms Fs s fuel P, (opmost jd p (W, T) <= fuel)%nat -> tied W Es nms Fs s -> settled s -> aimed Es s P T ->
    wp (omplay fuel p (Es, P)) s (fun xz s' => fst xz = x /\ let '(Es', P') := snd xz in
      settled s' /\ aimed Es' s' P' T' /\ exists nms' Fs', tied W' Es' nms' Fs' s').
Proof.
  induction p as [x0| |i num c k IH]; intros W T x W' T' H Es nms Fs s fuel P Hf Td Se Am; cbn [orplay omplay opmost] in *.
  - injection H as <- <- <-. apply wp_ret. cbn [fst snd]. eauto 8.
  - discriminate.
  - destruct (osstep jd c (W, T)) as [[a [W1 T1]]|] eqn:E1; [|discriminate].
    apply wp_bind. eapply wp_mono; [apply (ostmt_wp i num c W T a W1 T1 E1 Es nms Fs s fuel P); [lia|auto..]|].
    intros [a' [E2 P2]] s1 (Ha & Se1 & Am1 & nm1 & F1 & Td1). cbn [fst snd] in *. subst a'. eapply (IH a W1 T1 x W' T' H); eauto. lia.
Qed.
Theorem oclient X (p : oprog X) x W T : orplay jd p (wstart, []) = Some (x, (W, T)) ->
  forall fuel, (opmost jd p (wstart, []) <= fuel)%nat ->
  exists Es P s, omplay fuel p (wenv0, []) init = Ok ((x, (Es, P)), s) /\ forall g, represents (wr W g) (Es g) s.
Proof.
  intros H fuel Hf.
  destruct (oplay_most X p wstart [] x W T H wenv0 _ _ init fuel [] Hf start_tied ltac:(discriminate) ltac:(constructor)) as ([x' [Es P]] & s & Er & Hr & _ & _ & nms & Fs & Td).
  cbn [fst snd] in *. subst x'. exists Es, P, s. split; auto. intro g. exists (nms g), (Fs g). rewrite <- (wr_eta (wr W g)).
  apply (sim_move (others Es g) novols _ _ _ _ none none zeroc s s); [apply Td|apply ext_refl; eapply t_wf; eauto|intros y _ []|intros y _ []|apply pays_zero|intros b []|intros b []].
Qed.
End Agree.

(** The same program with the functions and allocators it remembers itself, along the run. *)
Fixpoint resolve {X} (jd : judge) (p : oprog X) (Z : gst) : gprog X :=
  match p with
  | ORet x => GRet x
  | OStuck => GStuck
  | OAct _ _ c k =>
      match in_place c Z with
      | Some c' => GAct c' (fun a => match gsstep jd c' Z with Some (_, Z1) => resolve jd (k a) Z1 | None => GStuck end)
      | None => GStuck
      end
  end.
Lemma resolve_play jd X (p : oprog X) : forall Z, grplay jd (resolve jd p Z) Z = orplay jd p Z.
Proof.
  induction p as [x| |i num c k IH]; intro Z; cbn [resolve orplay grplay]; auto. unfold osstep.
  destruct (in_place c Z) as [c'|]; cbn [grplay]; auto. destruct (gsstep jd c' Z) as [[a Z1]|]; auto.
Qed.
Lemma resolve_most jd X (p : oprog X) : forall Z, gpmost jd (resolve jd p Z) Z = opmost jd p Z.
Proof.
  induction p as [x| |i num c k IH]; intro Z; cbn [resolve opmost gpmost]; auto. unfold osstep.
  destruct (in_place c Z) as [c'|] eqn:Ec; cbn [gpmost]; auto. destruct (gsstep jd c' Z) as [[a Z1]|]; auto. rewrite IH. f_equal.
  destruct c as [c|g h]; cbn [in_place] in Ec; [now injection Ec as <-|]. destruct (nth_error _ h) as [[o j]|]; [|discriminate]. now injection Ec as <-.
Qed.
Theorem osame jd : correct jd -> forall X (p : oprog X) x W T, orplay jd p (wstart, []) = Some (x, (W, T)) ->
  forall fuel, (opmost jd p (wstart, []) <= fuel)%nat ->
  exists Z s Z' s', omplay fuel p (wenv0, []) init = Ok ((x, Z), s) /\ gmplay fuel (resolve jd p (wstart, [])) (wenv0, []) init = Ok ((x, Z'), s').
Proof.
  intros J X p x W T H fuel Hf. destruct (oclient jd J X p x W T H fuel Hf) as (Es & P & s & Er & _).
  rewrite <- resolve_play in H. rewrite <- resolve_most in Hf. destruct (gclient jd J X _ x W T H fuel Hf) as (Es' & P' & s' & Er' & _). eauto 8.
Qed.
Theorem ocontract jd : correct jd -> forall X (p : oprog X), grespects jd (resolve jd p (wstart, [])) (wstart, []) ->
  exists x W T, orplay jd p (wstart, []) = Some (x, (W, T)) /\ forall fuel, (opmost jd p (wstart, []) <= fuel)%nat ->
  exists Es P s, omplay fuel p (wenv0, []) init = Ok ((x, (Es, P)), s) /\ forall g, represents (wr W g) (Es g) s.
Proof.
  intros J X p H. destruct (gcontract_ok jd J X _ H) as (x & W & T & Hr & _). rewrite resolve_play in Hr. exists x, W, T. split; [exact Hr|].
  intros fuel Hf. eapply oclient; eauto.
Qed.
