(** The contract of programs with the classes of zzzjson.hpp and several groups (HppWorld.v), what
    is true of the other groups, and texts kept. *)
From Verif Require Import Base Spec AllocProofs Mem MemProofs Dom Vocab Scene CopyProofs StringifyProofs Start Hist HistRun HistSim HistStep HistAll HistMany HistWorld HistValid HistTree HistDocs HistCover HistCoverMany
  BetaClient Keep KeepWorld KeepCover Hpp HppAll HppClient HppCover HppWorld.

(** What has to be seen to before a call: what it asks for in a program with one group, and for
    the calls that use the scratch string what HistCoverMany.v asks for. *)
Definition ycontract (g : nat) (hc : hcall) (W : world) : Prop :=
  hcontract hc (wr W g) /\
  (hneed hc <> 0 -> wdead W = false /\ forall j, In j (wc W) -> j <> g -> roomy_all (wr W j) (hneed hc)).
Definition yscontract (c : ystmt) (Z : gst) : Prop :=
  match c with
  | YEnd _ => True
  | YIn g (HApi c) => ycontract g c (fst Z)
  | YIn g (HTake v h) => ycontract g (HC (pcall v h)) (fst Z)
  | YIn _ (HLook k) => exists j r, nth_error (snd Z) k = Some (Some (j, r))
  | YIn g (HGive u h k) => good_pointer Z k (fun j view t =>
      (j = g \/ tfast (as_taker u view) = false) /\ exists c, tcall u view h t = Some c /\ ycontract g (HC c) (fst Z))
  end.
Fixpoint yrespects {X} (jd : judge) (p : yprog X) (Z : gst) : Prop :=
  match p with
  | YRet _ => True
  | YStuck => False
  | YAct c k => yscontract c Z /\ forall a Z1, ysstep jd c Z = Some (a, Z1) -> yrespects jd (k a) Z1
  end.

Section Cover.
Variable jd : judge.
Hypothesis J : correct jd.
(** A world that a program can get to. *)
Definition yreached (W : world) (T : list gptr) : Prop :=
  (forall g, docs_ok (wr W g)) /\
  exists Es nms Fs s (Hs : henvs) P, tied W Es nms Fs s /\ settled s /\ aimed Es s P T /\ forall g, wrel (Hs g) (Es g) s.
Definition sound (G : forest) : Prop := good G /\ trees G.
Lemma tied_shape W Es nms Fs s g : tied W Es nms Fs s -> shape (rn (wr W g)) (rG (wr W g)).
Proof. intro Td. pose proof (t_sim _ _ _ _ _ Td g) as S. eapply fsim_shape; [apply (sm_fs _ _ _ _ _ S)|]. exact (i_dom _ _ (sm_inv _ _ _ _ _ S)). Qed.
Lemma rstep_sound c R x R' : docs_ok R -> rstep jd c R = Some (x, R') -> sound (rG R').
Proof. intros [S1 G1 T1] E. split; [eapply rstep_good; eauto|eapply rstep_trees; eauto]. Qed.
Lemma hrstep_sound hc R x R' : docs_ok R -> hrstep jd hc R = Some (x, R') -> sound (rG R').
Proof.
  intros D E. unfold hrstep in E. destruct (plain hc R) as [c|]; [|discriminate]. destruct (rstep jd c R) as [[y R1]|] eqn:Er; [|discriminate].
  pose proof (rstep_sound c R y R1 D Er) as K. destruct (makes_value c); [|injection E as <- <-; exact K].
  unfold wrapped in E. cbn [fst snd] in E. destruct y as [| | | | | | | |[h|]|]; try (injection E as <- <-; exact K).
  destruct (nth_error (rh R1) h) as [[o A]|]; [|discriminate]. unfold spend in E. destruct (nth_error (ru R1) A); [|discriminate]. destruct (_ <=? _); [|discriminate].
  injection E as <- <-. exact K.
Qed.
Lemma wstep_sound e W x W' : (forall g, docs_ok (wr W g)) -> wstep jd e W = Some (x, W') -> forall g, sound (rG (wr W' g)).
Proof.
  intros D E2 g. assert (Q : forall g, sound (rG (wr W g))) by (intro i; destruct (D i); split; auto). destruct e as [j c|j]; cbn [wstep] in E2.
  - destruct (rstep jd c (wr W j)) as [[y R']|] eqn:Er; [|discriminate]. pose proof (rstep_sound c _ y R' (D j) Er) as K.
    destruct (cneed c =? 0); [injection E2 as <- <-|destruct (negb _ && _); [|discriminate]; injection E2 as <- <-]; cbn [wr]; unfold updn;
      (destruct (Nat.eqb g j); [exact K|]); auto.
    destruct (inb g (wc W)); auto. destruct (charge_G (wr W g) (cneed c)) as [-> _]. auto.
  - injection E2 as <- <-. cbn [wr]. unfold updn. destruct (Nat.eqb g j); auto. destruct docs_start. split; auto.
Qed.
Lemma ystep_sound i hc W x W' : (forall g, docs_ok (wr W g)) -> ystep jd i hc W = Some (x, W') -> forall g, sound (rG (wr W' g)).
Proof.
  intros D E. unfold ystep in E. destruct (plain hc (wr W i)) as [c|]; [|discriminate]. destruct (makes_value c); [|eapply wstep_sound; eauto].
  destruct (hrstep jd hc (wr W i)) as [[y R']|] eqn:Er; [|discriminate]. injection E as <- <-. intro g. cbn [wr]. unfold updn.
  destruct (Nat.eqb g i); [eapply hrstep_sound; eauto|]. destruct (D g). split; auto.
Qed.
Lemma ysstep_sound c W T x W' T' : (forall g, docs_ok (wr W g)) -> ysstep jd c (W, T) = Some (x, (W', T')) -> forall g, sound (rG (wr W' g)).
Proof.
  intros D E. assert (Q : forall i hc Z, ycall jd i hc (W, T) = Some (x, Z) -> forall g, sound (rG (wr (fst Z) g))).
  { intros i hc Z K. unfold ycall in K. cbn [fst snd] in K. destruct (ystep jd i hc W) as [[y W1]|] eqn:Ey; [|discriminate]. injection K as <- <-. eapply ystep_sound; eauto. }
  destruct c as [i [c|v h|k|u h k]|i]; cbn [ysstep fst snd] in E.
  - exact (Q i c (W', T') E).
  - destruct (ystep jd i (HC (pcall v h)) W) as [[y W1]|] eqn:Ey; [|discriminate]. injection E as <- <- <-. eapply ystep_sound; eauto.
  - destruct (nth_error T k) as [[[j r]|]|]; try discriminate. injection E as <- <- <-. intro g. destruct (D g). split; auto.
  - destruct (nth_error T k) as [[[j r]|]|]; try discriminate. destruct (rtext r) as [[view t]|]; [|discriminate]. destruct (_ || _); [|discriminate].
    destruct (tcall u view h t) as [c|]; [|discriminate]. exact (Q i (HC c) (W', T') E).
  - unfold gcall in E. cbn [fst snd] in E. destruct (wstep jd (Release i) W) as [[y W1]|] eqn:Ew; [|discriminate]. injection E as <- <- <-. eapply wstep_sound; eauto.
Qed.
Lemma yreached_start : yreached wstart [].
Proof.
  split; [intro g; exact docs_start|]. eexists wenv0, _, _, init, (fun _ => hstart), []. split; [exact start_tied|]. split; [discriminate|].
  split; [constructor|intro g; exact start_wrel].
Qed.
Lemma yreached_step c W T x W' T' : yreached W T -> ysstep jd c (W, T) = Some (x, (W', T')) -> yreached W' T'.
Proof.
  intros (D & Es & nms & Fs & s & Hs & P & Td & Se & Am & Rl) St. destruct (ystmt_wp jd J c W T x W' T' St) as (f0 & K).
  destruct (K Es nms Fs s f0 Hs P (le_n _) Td Se Am Rl) as ([x' [Hs' P']] & s' & _ & _ & Se' & Es' & nms' & Fs' & Td' & Am' & Rl').
  split; [|exists Es', nms', Fs', s', Hs', P'; auto]. intro g. destruct (ysstep_sound c W T x W' T' D St g). constructor; auto. eapply tied_shape; eauto.
Qed.
Lemma ycovered g hc W : (forall j, docs_ok (wr W j)) -> ycontract g hc W -> exists x W', ystep jd g hc W = Some (x, W').
Proof.
  intros D [C Cn]. destruct (hcovered jd J hc (wr W g) (D g) C) as (x & R' & E). unfold ystep. pose proof E as E0. unfold hrstep in E.
  destruct (plain hc (wr W g)) as [c|] eqn:Ep; [|discriminate]. destruct (rstep jd c (wr W g)) as [[y R1]|] eqn:Er; [|discriminate].
  destruct (makes_value c) eqn:V; [rewrite E0; eauto|]. cbn [wstep]. rewrite Er. destruct (N.eqb_spec (cneed c) 0) as [Z|Z]; [eauto|].
  assert (Eh : hneed hc = cneed c) by (destruct hc as [d|h]; cbn [plain hneed] in *; [now injection Ep as <-|destruct (nth_error _ _) as [[o A]|]; [injection Ep as <-; reflexivity|discriminate]]).
  rewrite Eh in Cn. destruct (Cn Z) as [Dd Dr]. rewrite Dd. cbn [negb andb].
  replace (forallb _ (wc W)) with true; [eauto|]. symmetry. apply forallb_forall. intros j Hj.
  destruct (Nat.eqb_spec j g) as [->|Nj]; [reflexivity|]. destruct (scratch_roomy _ _ (Dr j Hj Nj)) as (R2 & -> & _). reflexivity.
Qed.
Lemma yscovered c W T : yreached W T -> yscontract c (W, T) -> exists a W' T', ysstep jd c (W, T) = Some (a, (W', T')) /\ yreached W' T'.
Proof.
  intros R C. enough (K : exists a W' T', ysstep jd c (W, T) = Some (a, (W', T'))) by (destruct K as (a & W' & T' & K); exists a, W', T'; split; auto; eapply yreached_step; eauto).
  destruct R as [D _]. destruct c as [g [c|v h|k|u h k]|g]; cbn [yscontract ysstep fst snd] in *.
  - destruct (ycovered g c W D C) as (a & W' & E). unfold ycall. cbn [fst snd]. rewrite E. eauto.
  - destruct (ycovered g _ W D C) as (a & W' & E). rewrite E. eauto.
  - destruct C as (j & r & E). exists (Text (option_map snd (rtext r))), W, T.
    etransitivity; [exact (f_equal (fun o => match o with Some (Some (j, r)) => _ | _ => None end) E)|]. reflexivity.
  - destruct C as (j & r & view & t & E1 & E2 & Hf & c & Ec & C). cbn [fst snd] in E1.
    destruct (ycovered g _ W D C) as (a & W' & E). exists a, W', T.
    etransitivity; [exact (f_equal (fun o => match o with Some (Some (j, r)) => _ | _ => None end) E1)|]. cbv beta iota. rewrite E2.
    replace (Nat.eqb j g || negb (tfast (as_taker u view))) with true by (destruct Hf as [-> | ->]; [now rewrite Nat.eqb_refl|now rewrite Bool.orb_true_r]).
    rewrite Ec. unfold ycall. cbn [fst snd]. now rewrite E.
  - unfold gcall. cbn [fst snd wstep]. eauto.
Qed.
Lemma yrespects_runs X : forall (p : yprog X) W T, yreached W T -> yrespects jd p (W, T) -> exists x W' T', yrplay jd p (W, T) = Some (x, (W', T')).
Proof.
  induction p as [x| |c k IH]; intros W T R K; cbn [yrespects yrplay] in *; [eauto|contradiction|].
  destruct K as [C K]. destruct (yscovered c W T R C) as (a & W1 & T1 & E & R1). rewrite E. apply IH; auto.
Qed.
Theorem ycontract_ok X (p : yprog X) : yrespects jd p (wstart, []) ->
  exists x W T, yrplay jd p (wstart, []) = Some (x, (W, T)) /\ exists f0, forall fuel, (f0 <= fuel)%nat ->
  exists Hs P s, ymplay fuel p ystart init = Ok ((x, (Hs, P)), s) /\ exists Es, (forall g, represents (wr W g) (Es g) s) /\ forall g, wrel (Hs g) (Es g) s.
Proof.
  intro K. destruct (yrespects_runs X p wstart [] yreached_start K) as (x & W & T & E). exists x, W, T. split; auto. eapply yclient; eauto.
Qed.
End Cover.

(** ** The other groups *)
(** The same documents and objects; only room may have gone. *)
Definition same_docs (R R' : rst) : Prop := rG R' = rG R /\ rn R' = rn R /\ rh R' = rh R.
Definition group_of (c : ystmt) : nat := match c with YIn g _ => g | YEnd g => g end.
Lemma same_docs_refl R : same_docs R R.
Proof. split; auto. Qed.
Lemma charge_docs R n : same_docs R (charge R n).
Proof.
  unfold charge. destruct (scratch R n) as [R'|] eqn:E; [|apply same_docs_refl]. destruct (scratch_G _ _ _ E). split; auto. split; auto.
  unfold scratch in E. destruct (forallb _ _); [|discriminate]. now injection E as <-.
Qed.
Lemma wstep_apart jd e W x W' j : wstep jd e W = Some (x, W') -> match e with Do g _ => j <> g | Release g => j <> g end -> same_docs (wr W j) (wr W' j).
Proof.
  intros E Nj. destruct e as [g c|g]; cbn [wstep] in E.
  - destruct (rstep jd c (wr W g)) as [[y R']|]; [|discriminate].
    destruct (cneed c =? 0); [injection E as <- <-|destruct (negb _ && _); [|discriminate]; injection E as <- <-]; cbn [wr]; unfold updn;
      (destruct (Nat.eqb_spec j g) as [->|_]; [now elim Nj|]); [apply same_docs_refl|].
    destruct (inb j (wc W)); [apply charge_docs|apply same_docs_refl].
  - injection E as <- <-. cbn [wr]. rewrite updn_neq by auto. apply same_docs_refl.
Qed.
Lemma ystep_apart jd g hc W x W' j : ystep jd g hc W = Some (x, W') -> j <> g -> same_docs (wr W j) (wr W' j).
Proof.
  intros E Nj. unfold ystep in E. destruct (plain hc (wr W g)) as [c|]; [|discriminate]. destruct (makes_value c); [|eapply wstep_apart; [exact E|exact Nj]].
  destruct (hrstep jd hc (wr W g)) as [[y R']|]; [|discriminate]. injection E as <- <-. cbn [wr]. rewrite updn_neq by auto. apply same_docs_refl.
Qed.
Theorem ysstep_apart jd c W T x W' T' j : ysstep jd c (W, T) = Some (x, (W', T')) -> j <> group_of c -> same_docs (wr W j) (wr W' j).
Proof.
  intros E Nj. assert (Q : forall i hc Z, ycall jd i hc (W, T) = Some (x, Z) -> j <> i -> same_docs (wr W j) (wr (fst Z) j)).
  { intros i hc Z K Ni. unfold ycall in K. cbn [fst snd] in K. destruct (ystep jd i hc W) as [[y W1]|] eqn:Ey; [|discriminate]. injection K as <- <-. eapply ystep_apart; eauto. }
  destruct c as [i [c|v h|k|u h k]|i]; cbn [ysstep fst snd group_of] in *.
  - exact (Q i c (W', T') E Nj).
  - destruct (ystep jd i (HC (pcall v h)) W) as [[y W1]|] eqn:Ey; [|discriminate]. injection E as <- <- <-. eapply ystep_apart; eauto.
  - destruct (nth_error T k) as [[[j' r]|]|]; try discriminate. injection E as <- <- <-. apply same_docs_refl.
  - destruct (nth_error T k) as [[[j' r]|]|]; try discriminate. destruct (rtext r) as [[view t]|]; [|discriminate]. destruct (_ || _); [|discriminate].
    destruct (tcall u view h t) as [c|]; [|discriminate]. exact (Q i (HC c) (W', T') E Nj).
  - unfold gcall in E. cbn [fst snd] in E. destruct (wstep jd (Release i) W) as [[y W1]|] eqn:Ew; [|discriminate]. injection E as <- <- <-. eapply wstep_apart; eauto.
Qed.

(** ** Texts kept *)
Fixpoint yseq {X Y} (p : yprog X) (q : X -> yprog Y) : yprog Y :=
  match p with
  | YRet x => q x
  | YStuck => YStuck
  | YAct c k => YAct c (fun a => yseq (k a) q)
  end.
(** A program that does not end group [j]. *)
Fixpoint spares {X} (j : nat) (p : yprog X) : Prop :=
  match p with YAct c k => c <> YEnd j /\ forall a, spares j (k a) | _ => True end.
(** It runs [p], reads through pointer [k], runs [q] and reads again. *)
Definition yreread {X Y} (p : yprog X) (q : X -> yprog Y) (k : nat) : yprog (answer * answer) :=
  yseq p (fun x => YAct (YIn 0 (HLook k)) (fun a => yseq (q x) (fun _ => YAct (YIn 0 (HLook k)) (fun b => YRet (a, b))))).
Lemma yseq_play jd X Y (p : yprog X) (q : X -> yprog Y) : forall Z x Z1, yrplay jd p Z = Some (x, Z1) -> yrplay jd (yseq p q) Z = yrplay jd (q x) Z1.
Proof.
  induction p as [x0| |c k IH]; intros Z x Z1 E; cbn [yrplay yseq] in *; [now injection E as <- <-|discriminate|].
  destruct (ysstep jd c Z) as [[a Z2]|]; [|discriminate]. eapply IH; eauto.
Qed.
Lemma ysstep_keeps jd c W T x W' T' j k r : ysstep jd c (W, T) = Some (x, (W', T')) -> c <> YEnd j -> nth_error T k = Some (Some (j, r)) ->
  nth_error T' k = Some (Some (j, r)).
Proof.
  intros E Nc Hk. assert (Q : forall i hc, ycall jd i hc (W, T) = Some (x, (W', T')) -> T' = T).
  { intros i hc K. unfold ycall in K. cbn [fst snd] in K. destruct (ystep jd i hc W) as [[y W1]|]; [|discriminate]. now injection K as <- <- <-. }
  destruct c as [i [c|v h|k'|u h k']|i]; cbn [ysstep fst snd] in E.
  - now rewrite (Q _ _ E).
  - destruct (ystep jd i (HC (pcall v h)) W) as [[y W1]|]; [|discriminate]. injection E as <- <- <-. rewrite nth_error_app1; auto. apply nth_error_Some. congruence.
  - destruct (nth_error T k') as [[[j' r']|]|]; try discriminate. now injection E as <- <- <-.
  - destruct (nth_error T k') as [[[j' r']|]|]; try discriminate. destruct (rtext r') as [[view t]|]; [|discriminate]. destruct (_ || _); [|discriminate].
    destruct (tcall u view h t) as [c|]; [|discriminate]. now rewrite (Q _ _ E).
  - unfold gcall in E. cbn [fst snd wstep] in E. injection E as <- <- <-. rewrite nth_error_map, Hk. cbn [option_map drop].
    destruct (Nat.eqb_spec j i) as [->|_]; [now elim Nc|now destruct r].
Qed.
Lemma yplay_keeps jd X (p : yprog X) : forall W T x W' T' j k r, yrplay jd p (W, T) = Some (x, (W', T')) -> spares j p -> nth_error T k = Some (Some (j, r)) ->
  nth_error T' k = Some (Some (j, r)).
Proof.
  induction p as [x0| |c k0 IH]; intros W T x W' T' j k r E Sp Hk; cbn [yrplay spares] in *; [now injection E as <- <- <-|discriminate|].
  destruct Sp as [Nc Sp]. destruct (ysstep jd c (W, T)) as [[a [W1 T1]]|] eqn:E1; [|discriminate]. eapply IH; eauto. eapply ysstep_keeps; eauto.
Qed.
Theorem yreread_same jd : correct jd -> forall X Y (p : yprog X) (q : X -> yprog Y) k x W T y Z j r,
  yrplay jd p (wstart, []) = Some (x, (W, T)) -> nth_error T k = Some (Some (j, r)) -> yrplay jd (q x) (W, T) = Some (y, Z) -> spares j (q x) ->
  let a := Text (option_map snd (rtext r)) in
  exists f0, forall fuel, (f0 <= fuel)%nat -> exists Z' s, ymplay fuel (yreread p q k) ystart init = Ok (((a, a), Z'), s).
Proof.
  intros J X Y p q k x W T y [W' T'] j r Ep Hk Eq Sp a. pose proof (yplay_keeps jd Y (q x) W T y W' T' j k r Eq Sp Hk) as Hk'.
  assert (E : yrplay jd (yreread p q k) (wstart, []) = Some ((a, a), (W', T'))).
  { unfold yreread. rewrite (yseq_play jd _ _ _ _ _ _ _ Ep). cbn [yrplay ysstep snd].
    etransitivity; [exact (f_equal (fun o => match match o with Some (Some (_, r)) => Some (Text (option_map snd (rtext r)), (W, T)) | _ => None end with Some (a, Z1) => _ | None => None end) Hk)|].
    cbv beta iota. rewrite (yseq_play jd _ _ _ _ _ _ _ Eq). cbn [yrplay ysstep snd].
    etransitivity; [exact (f_equal (fun o => match match o with Some (Some (_, r)) => Some (Text (option_map snd (rtext r)), (W', T')) | _ => None end with Some (a, Z1) => _ | None => None end) Hk')|].
    reflexivity. }
  destruct (yclient jd J _ _ _ _ _ E) as (f0 & Q). exists f0. intros fuel Hf. destruct (Q fuel Hf) as (Hs & P & s & Er & _). eauto.
Qed.
