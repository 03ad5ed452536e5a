(** Every call of the reference semantics (Hist.v) against its run on the model of the code
    (HistRun.v): same answer, and the states stay tied together (HistSim.v). *)
From Verif Require Import Base Spec Lex LexProofs Alloc AllocProofs Mem MemProofs Api PureParse Dom Effect Steps StringifyProofs
  ParseProofs ParseTop CacheProofs SetProofs Update KeyProofs GetProofs CopyProofs LinkProofs MoveProofs IntProofs EscProofs Start Vocab
  ParseFacts PrintFacts Scene ReadFacts SetFacts Double DoubleProofs DoubleFacts ParseEnds Hist HistRun HistForest HistSim.
From Verif Require OverRead.

(** Decision procedures that decide what they should (zzzjson.h is not mentioned here). *)
Record correct (jd : judge) : Prop := {
  jd_json : forall t j, ~ In 0 t -> (o_json jd t = Some j <-> json_text t j);
  jd_cut : forall t k, ~ In 0 t -> (o_cut jd t k = true <-> cut_literal t k);
  jd_num : forall t, o_num jd t = true <-> number t;
  jd_str : forall t, o_str jd t = true <-> strbody_set t;
  jd_dec : forall t d, o_dec jd t = Some d <-> decodes t d;
  jd_int : forall t z, o_int jd t = Some z <-> int_value t z;
  jd_real : forall t d, o_real jd t = Some d <-> real_value t d
}.

Definition cache_ready (E : env) (s : st) (n : N) : Prop :=
  cache_live s /\ forall A, homeof s A -> In A (ea E) \/ usedA s A + n <= two30.

Lemma cache_home_cases s A : cache_live s -> cache_home s A = A \/ homeof s (cache_home s A).
Proof.
  intro L. unfold cache_live in L. unfold cache_home, homeof. destruct (scache s) as [| |p]; auto.
  destruct (sstrs s p) as [z|] eqn:E; auto. right. exists p, z. auto.
Qed.
Lemma bf_ready E s bs p s1 n : buffered s bs p s1 -> cache_ready E s n -> cache_ready E s1 n.
Proof.
  intros B [L H]. split; [now apply (bf_live _ _ _ _ B)|]. intros A Ho. rewrite (bf_used _ _ _ _ B). apply H. now apply (bf_home _ _ _ _ B).
Qed.
Lemma ok_c_no0 t : ok_c t = true -> ~ In 0 t.
Proof. intro H. apply has0_no. unfold ok_c in H. now apply Bool.negb_true_iff in H. Qed.
Lemma fits_len t : fits t = true -> lenN t < two32.
Proof. apply N.ltb_lt. Qed.

(** What is known about the byte after the numbers of a new document. *)
Lemma finished_ended {VV : vols} F s' F' a : finished F s' F' a -> ended F s' F' a.
Proof.
  intros H x f n E Hx Sn b p Vf Ep. destruct (H x f b n p E) as (c & Hc & Sf); auto; [tauto|].
  exists c. split; auto. exact (stops_ends c Hc).
Qed.
Lemma leaf_ended {VV : vols} s F v w A c j s' F' a : parsed s F v w A c j s' F' a ->
  (forall b, j = JNum b -> exists n p, snodes s' a = Some n /\ nVal n = At p /\ safetext s' p (b ++ [0])) ->
  (forall l, j <> JArr l) -> (forall l, j <> JObj l) -> ended F s' F' a.
Proof.
  intros P H N1 N2 x f n E Hx Sn. pose proof (pd_reads _ _ _ _ _ _ _ _ _ _ P) as Ra.
  assert (x = a) as ->.
  { destruct Hx as [Hx|[_ (f0 & ob & kids & k0 & E0 & V0 & _)]]; auto. exfalso. inversion Ra; subst; try congruence.
    all: match goal with K : context [container ?o _] |- _ => destruct o end; [eapply N2|eapply N1]; reflexivity. }
  intros b p Vf Ep. assert (j = JNum b) as -> by (inversion Ra; subst; congruence).
  destruct (H b eq_refl) as (n' & p' & Sn' & Ep' & Sf). exists 0. split; [unfold ends_number, is_digit; lia|]. congruence.
Qed.
(** The text of a number that is known to end. *)
Lemma stop_text {VV : vols} R E nm F s i t f b : sim R E nm F s -> rG R i = Some t -> tstop t = true -> F (nm i) = Some f -> fvalue f = VNum b ->
  exists n p c r, snodes s (nm i) = Some n /\ nVal n = At p /\ ends_number c /\ text_at s p = b ++ c :: r.
Proof.
  intros S Gi Ts Ff Vf. pose proof (fs_stop _ _ _ _ (sm_fs _ _ _ _ _ S) i t f Gi Ts Ff) as St.
  destruct (i_rep _ _ (sm_inv _ _ _ _ _ S) _ _ Ff) as (n & Sn & Rn); [intros []|].
  pose proof (r_val _ _ _ Rn) as Rv. rewrite Vf in Rv. destruct Rv as (_ & _ & p & Ep & _).
  destruct (r_stop _ _ _ Rn St b p Vf Ep) as (c & Hc & Hs & _). destruct (holds_text s p _ (i_wf _ _ (sm_inv _ _ _ _ _ S)) Hs) as (r & Et).
  rewrite <- app_assoc in Et. cbn [app] in Et. exists n, p, c, r. auto.
Qed.

Section One.
Context {VV : vols} {NN : need}.
Variables (E : env) (F : dom).

Lemma env_wp s X (f : X -> answer) m a R' : wp m s (ends E F X (fun x => f x = a) R' (fun _ => E) s) ->
  wp (with_env E f m) s (goes E F s a R').
Proof.
  intro H. unfold with_env. apply wp_bind. eapply wp_mono; [exact H|]. intros x s' [Hx K]. apply wp_ret. split; auto.
Qed.

Variables (R : rst) (nm : N -> addr) (s : st) (h : nat) (wo : option (N * tnode)) (k : nat) (v : addr) (A : N).
Hypothesis S : sim R E nm F s.
Hypothesis L : look R h = Some (wo, k).
Hypothesis Hv : nth_error (eh E) h = Some v.
Hypothesis HA : nth_error (ea E) k = Some A.
Definition wrd : word := wopt (option_map nm (option_map fst wo)).

Lemma on_handle : handle s F v wrd A.
Proof.
  destruct (look_handle _ _ _ _ _ _ _ _ S L) as (v' & A' & Hv' & HA' & _ & _ & H & _).
  replace v with v' by congruence. replace A with A' by congruence. exact H.
Qed.
Lemma on_mine n : mine E s (at_ A n).
Proof. apply mine_at. eapply nth_error_In; eauto. Qed.
Lemma on_img i t : wo = Some (i, t) -> rG R i = Some t /\ exists f, F (nm i) = Some f /\ img nm t f.
Proof. destruct (look_handle _ _ _ _ _ _ _ _ S L) as (v' & A' & _ & _ & _ & _ & _ & H). apply H. Qed.

(** Results of the setters. *)
Lemma set_ends X (m : M X) (P : X -> Prop) c ru' j : pays E (ru R) ru' c -> mine E s c ->
  wp m s (fun r s' => P r /\ set_to s F v wrd A c j s') ->
  wp m s (ends E F X P (assign (mkR (rG R) (rn R) (rh R) ru') h wo j) (fun _ => E) s).
Proof.
  intros Py Mi H. eapply wp_mono; [exact H|]. intros r s' (Hp & F' & a & Pa). split; auto.
  destruct (after_parsed R E nm F s h wo k v A c j s' F' a ru' S L Hv HA Py Mi Pa) as (nm' & K). eauto.
Qed.
Lemma set_sealed_ends X (m : M X) (P : X -> Prop) c ru' j : pays E (ru R) ru' c -> mine E s c ->
  wp m s (fun r s' => P r /\ exists F' a, parsed s F v wrd A c j s' F' a /\ ended F s' F' a) ->
  wp m s (ends E F X P (sealed (mkR (rG R) (rn R) (rh R) ru') wo (assign (mkR (rG R) (rn R) (rh R) ru') h wo j)) (fun _ => E) s).
Proof.
  intros Py Mi H. eapply wp_mono; [exact H|]. intros r s' (Hp & F' & a & Pa & En). split; auto.
  destruct (after_sealed R E nm F s h wo k v A c j s' F' a ru' S L Hv HA Py Mi Pa En) as (nm' & F2 & K). eauto.
Qed.
Lemma same_ends X (m : M X) (P : X -> Prop) c ru' : pays E (ru R) ru' c -> mine E s c ->
  wp m s (fun r s' => P r /\ ext none none c s s') ->
  wp m s (ends E F X P (mkR (rG R) (rn R) (rh R) ru') (fun _ => E) s).
Proof.
  intros Py Mi H. eapply wp_mono; [exact H|]. intros r s' (Hp & X'). split; auto. exists nm, F. eapply after_same; eauto.
Qed.
Lemma stay_ends X (m : M X) (P : X -> Prop) : wp m s (fun r s' => P r /\ s' = s) -> wp m s (ends E F X P R (fun _ => E) s).
Proof.
  intros H. eapply wp_mono; [exact H|]. intros r s' (Hp & ->). split; auto. exists nm, F. now apply after_refl.
Qed.
Lemma set_if_ends (m : M bool) c ru' ok (good : Prop) j x R' : pays E (ru R) ru' c -> mine E s c -> (ok = true <-> good) ->
  set_if (mkR (rG R) (rn R) (rh R) ru') h wo ok j = Some (x, R') ->
  wp m s (set_res s F v wrd A c good j) ->
  wp m s (ends E F bool (fun r => Bool r = x) R' (fun _ => E) s).
Proof.
  intros Py Mi Hg Es H. unfold set_if in Es. eapply wp_mono; [exact H|]. intros r s' [(-> & Hok & F' & a & Pa)|(-> & Hok & Ex & _)].
  - rewrite (proj2 Hg Hok) in Es. injection Es as <- <-. split; auto.
    destruct (after_parsed R E nm F s h wo k v A c j s' F' a ru' S L Hv HA Py Mi Pa) as (nm' & K). eauto.
  - destruct ok; [elim Hok; now apply Hg|]. injection Es as <- <-. split; auto. exists nm, F. eapply after_same; eauto.
Qed.
Lemma seal_if_ends (m : M bool) c ru' ok (good : Prop) j x R' : pays E (ru R) ru' c -> mine E s c -> (ok = true <-> good) ->
  seal_if (mkR (rG R) (rn R) (rh R) ru') h wo ok j = Some (x, R') ->
  wp m s (fun r s' => set_res s F v wrd A c good j r s') ->
  (forall s' F' a, m s = Ok (true, s') -> parsed s F v wrd A c j s' F' a -> ended F s' F' a) ->
  wp m s (ends E F bool (fun r => Bool r = x) R' (fun _ => E) s).
Proof.
  intros Py Mi Hg Es (r & s' & Em & H) En. unfold seal_if in Es. exists r, s'. split; auto. destruct H as [(-> & Hok & F' & a & Pa)|(-> & Hok & Ex & _)].
  - rewrite (proj2 Hg Hok) in Es. injection Es as <- <-. split; auto.
    destruct (after_sealed R E nm F s h wo k v A c j s' F' a ru' S L Hv HA Py Mi Pa (En s' F' a Em Pa)) as (nm' & F2 & K). eauto.
  - destruct ok; [elim Hok; now apply Hg|]. injection Es as <- <-. split; auto. exists nm, F. eapply after_same; eauto.
Qed.
Lemma key_known : (forall b, key_allowed R wo = Some b -> father_known F wrd /\ (b = true <-> key_open F wrd)).
Proof.
  intros b Hb. pose proof on_img as Oi. unfold wrd, key_allowed in *. destruct wo as [[i t]|]; cbn [option_map fst wopt].
  - destruct (Oi i t eq_refl) as (Gi & f & Fi & Im). pose proof Im as (_ & _ & Ip). destruct (tpar t) as [p|] eqn:Ep.
    + destruct (rG R p) as [tp|] eqn:Gp; [|discriminate]. injection Hb as <-.
      destruct (fs_node _ _ _ _ (sm_fs _ _ _ _ _ S) p tp Gp) as (fp & Fp & Imp). split.
      * intros a f' p' Ea Fa Hp. injection Ea as <-. assert (f' = f) by congruence. subst f'. rewrite Ip in Hp. injection Hp as <-. now rewrite Fp.
      * unfold key_open. destruct Imp as (_ & Iv & _). split.
        -- intro Hc. exists f. split; auto. rewrite Ip. cbn [option_map]. exists fp.
           destruct (tvalue tp) as [| | | |[] kids]; try discriminate. exists (map nm kids). auto.
        -- intros (f' & Fa & K). assert (f' = f) by congruence. subst f'. rewrite Ip in K. cbn [option_map] in K.
           destruct K as (fp' & kids & Fp' & Kv). assert (fp' = fp) by congruence. subst fp'. rewrite Iv in Kv.
           destruct (tvalue tp) as [| | | |[] ks]; try discriminate; reflexivity.
    + injection Hb as <-. split.
      * intros a f' p' Ea Fa Hp. injection Ea as <-. assert (f' = f) by congruence. subst f'. rewrite Ip in Hp. discriminate.
      * split; auto. intros _. exists f. split; auto. now rewrite Ip.
  - injection Hb as <-. split; [intros a f p Ea; discriminate|]. split; auto. intros _. exact Logic.I.
Qed.
Lemma key_if_ends (m : M bool) c ru' ok (good : Prop) kk x R' : pays E (ru R) ru' c -> mine E s c -> (ok = true <-> good) ->
  key_if (mkR (rG R) (rn R) (rh R) ru') h wo ok kk = Some (x, R') ->
  (father_known F wrd -> wp m s (key_res s F v wrd A c good kk)) ->
  wp m s (ends E F bool (fun r => Bool r = x) R' (fun _ => E) s).
Proof.
  intros Py Mi Hg Es H. unfold key_if in Es. destruct (key_allowed _ wo) as [b|] eqn:Eb; [|discriminate].
  assert (Eb' : key_allowed R wo = Some b) by (rewrite <- Eb; destruct R; reflexivity).
  destruct (key_known b Eb') as [Fk Ko]. eapply wp_mono; [exact (H Fk)|]. intros r s' [(-> & Hok & Hop & F' & a & Pa)|(-> & Hok & Ex & _)].
  - rewrite (proj2 Hg Hok), (proj2 Ko Hop) in Es. injection Es as <- <-. split; auto.
    destruct (after_keyed R E nm F s h wo k v A c kk s' F' a ru' S L Hv HA Py Mi Pa) as (nm' & K). eauto.
  - destruct (ok && b) eqn:Eo.
    + apply andb_prop in Eo as [-> ->]. elim Hok. split; [now apply Hg|now apply Ko].
    + injection Es as <- <-. split; auto. exists nm, F. eapply after_same; eauto.
Qed.
End One.

(** ** How often the loops of a call go round *)
(** The values in a document. *)
Fixpoint values (j : json) : nat :=
  match j with
  | JArr l => S (list_sum (map values l))
  | JObj l => S (list_sum (map (fun kv => let '(_, x) := kv in values x) l))
  | _ => 1
  end.
Lemma jsteps_values : forall j, (S (jsteps j) <= 2 * values j)%nat.
Proof.
  fix IH 1. intros [|b|t|b|l|l]; cbn [jsteps values]; try lia.
  - assert (K : (list_sum (map (fun x => S (jsteps x)) l) <= 2 * list_sum (map values l))%nat); [|lia].
    induction l as [|x l IHl]; [apply le_n|]. cbn [map]. change (list_sum (?a :: ?b)) with (a + list_sum b)%nat. pose proof (IH x). unfold list_sum in *. cbn [fold_right] in *. lia.
  - match goal with |- (S (S ?a) <= 2 * S ?b)%nat => assert (K : (a <= 2 * b)%nat); [|lia] end.
    induction l as [|[k x] l IHl]; [apply le_n|]. cbn [map]. pose proof (IH x). unfold list_sum in *. cbn [fold_right] in *. lia.
Qed.
(** The direct members of a value, and all values in it. *)
Definition members (R : rst) (h : nat) : nat := match look R h with Some (Some (_, t), _) => length (nkids (tvalue t)) | _ => 0%nat end.
Definition inside_of (R : rst) (h : nat) : nat :=
  match look R h with Some (Some (i, _), _) => match reads_as R i with Some j => values j | None => 0%nat end | _ => 0%nat end.
(** A bound on the passes of each loop of a call. *)
Definition passes (c : call) (R : rst) : nat :=
  match c with
  | CStringify h | CCopy h => 2 * inside_of R h
  | CObjGet _ h _ | CArrayGet h _ | CArrayDel h _ | CObjDel h _ => members R h
  | CAdd _ fast _ hv => if fast then 0 else 2 * inside_of R hv
  | CSet fast _ hv => members R hv + if fast then 0 else 2 * inside_of R hv
  | _ => 0
  end%nat.

(** ** Making values *)
Definition simulated (jd : judge) (c : call) : Prop := forall R x R', rstep jd c R = Some (x, R') ->
  exists f0, (f0 <= passes c R)%nat /\ forall (VV : vols) E nm F s fuel, (f0 <= fuel)%nat -> sim R E nm F s -> (cneed c <> 0 -> cache_ready E s (cneed c)) ->
    wp (cstep fuel c E) s (@goes VV (cneed c) E F s x R').

Ltac looked S L v A Hv HA :=
  let Hi := fresh "HiA" in let Hn := fresh "Hrh" in let Hh := fresh "Hh" in let Hg := fresh "Himg" in
  destruct (look_handle _ _ _ _ _ _ _ _ S L) as (v & A & Hv & HA & Hi & Hn & Hh & Hg);
  apply (hof_wp _ _ v); [exact Hv|].
Ltac spent S HA Sp ru' Py Le := destruct (spend_pays _ _ _ _ _ _ _ _ _ S HA Sp) as (ru' & -> & Py & Le).

Section Steps.
Variable jd : judge.
Hypothesis J : correct jd.

Lemma step_setNull h : simulated jd (CSetNull h).
Proof.
  intros R x R' St. exists 0%nat. split; [apply Nat.le_0_l|]. intros VV E nm F s fuel _ S _. cbn [rstep cstep] in *.
  destruct (look R h) as [[w k]|] eqn:L; [|discriminate]. destruct (spend R k 72) as [R1|] eqn:Sp; [|discriminate]. injection St as <- <-.
  looked S L v A Hv HA. spent S HA Sp ru' Py Le. apply env_wp.
  eapply (set_ends E F R nm s h w k v A S L Hv HA); eauto; [eapply mine_at; eauto|].
  eapply wp_mono; [eapply setNull_wp; eauto; apply S|]. intros r s' K. split; auto.
Qed.
Lemma step_setBool h b : simulated jd (CSetBool h b).
Proof.
  intros R x R' St. exists 0%nat. split; [apply Nat.le_0_l|]. intros VV E nm F s fuel _ S _. cbn [rstep cstep] in *.
  destruct (look R h) as [[w k]|] eqn:L; [|discriminate]. destruct (spend R k 72) as [R1|] eqn:Sp; [|discriminate]. injection St as <- <-.
  looked S L v A Hv HA. spent S HA Sp ru' Py Le. apply env_wp.
  eapply (set_ends E F R nm s h w k v A S L Hv HA); eauto; [eapply mine_at; eauto|].
  eapply wp_mono; [eapply setBool_wp; eauto; apply S|]. intros r s' K. split; auto.
Qed.
Lemma step_setCont ob h : simulated jd (CSetCont ob h).
Proof.
  intros R x R' St. exists 0%nat. split; [apply Nat.le_0_l|]. intros VV E nm F s fuel _ S _. cbn [rstep cstep] in *.
  destruct (look R h) as [[w k]|] eqn:L; [|discriminate]. destruct (spend R k 72) as [R1|] eqn:Sp; [|discriminate]. injection St as <- <-.
  looked S L v A Hv HA. spent S HA Sp ru' Py Le. apply env_wp.
  eapply (set_ends E F R nm s h w k v A S L Hv HA); eauto; [eapply mine_at; eauto|].
  eapply wp_mono; [|intros r s' K; split; [reflexivity|exact K]].
  pose proof (setCont_wp s F v _ A ob (sm_inv _ _ _ _ _ S) Hh Le) as K. destruct ob; exact K.
Qed.
Lemma printed_ends {VV : vols} {NN : need} E F R nm s h w k v A ru' size cap text : sim R E nm F s -> look R h = Some (w, k) ->
  nth_error (eh E) h = Some v -> nth_error (ea E) k = Some A -> pays E (ru R) ru' (at_ A (size + 72)) -> lenN text + 1 <= cap -> cap <= size ->
  usedA s A + (size + 72) <= two30 ->
  wp (set_printed v size cap text) s (ends E F bool (fun r => Bool r = Bool true)
    (sealed (mkR (rG R) (rn R) (rh R) ru') w (assign (mkR (rG R) (rn R) (rh R) ru') h w (JNum text))) (fun _ => E) s).
Proof.
  intros S L Hv HA Py Hc Hs Hu.
  eapply (set_sealed_ends E F R nm s h w k v A S L Hv HA); eauto; [apply mine_at; eapply nth_error_In; eauto|].
  eapply wp_mono; [eapply (set_printed_points s F v _ A size cap text); eauto; [apply S|eapply on_handle; eauto|lia]|].
  intros r s' (-> & F' & a & n & p & P & Sn & Ep & Sf). split; auto. exists F', a. split; auto.
  eapply leaf_ended; eauto; try discriminate. intros b [= <-]. eauto.
Qed.
Lemma step_setInt h z : simulated jd (CSetInt h z).
Proof.
  intros R x R' St. exists 0%nat. split; [apply Nat.le_0_l|]. intros VV E nm F s fuel _ S _. cbn [rstep cstep] in *.
  destruct (look R h) as [[w k]|] eqn:L; [|discriminate]. destruct (_ && _)%Z eqn:B; [|discriminate].
  destruct (spend R k 88) as [R1|] eqn:Sp; [|discriminate]. injection St as <- <-.
  looked S L v A Hv HA. spent S HA Sp ru' Py Le. apply env_wp. apply andb_prop in B as [B1 B2]. apply Z.leb_le in B1, B2.
  eapply (printed_ends E F R nm s h w k v A ru' 16 12 (dec_text z)); eauto; [pose proof (dec_int_len z ltac:(lia)); unfold lenN; lia|lia].
Qed.
Lemma step_setLong h z : simulated jd (CSetLong h z).
Proof.
  intros R x R' St. exists 0%nat. split; [apply Nat.le_0_l|]. intros VV E nm F s fuel _ S _. cbn [rstep cstep] in *.
  destruct (look R h) as [[w k]|] eqn:L; [|discriminate]. destruct (_ && _)%Z eqn:B; [|discriminate].
  destruct (spend R k 96) as [R1|] eqn:Sp; [|discriminate]. injection St as <- <-.
  looked S L v A Hv HA. spent S HA Sp ru' Py Le. apply env_wp. apply andb_prop in B as [B1 B2]. apply Z.leb_le in B1, B2.
  eapply (printed_ends E F R nm s h w k v A ru' 24 24 (dec_text z)); eauto; [pose proof (dec_long_len z ltac:(lia)); unfold lenN; lia|lia].
Qed.
Lemma step_setLongLong h z : simulated jd (CSetLongLong h z).
Proof. exact (step_setLong h z). Qed.
Lemma doubleb_ok d : doubleb d = true -> is_double d.
Proof.
  destruct d as [n m e| |]; cbn; try discriminate. intro H.
  repeat (apply andb_prop in H as [H ?]). apply Bool.orb_true_iff in H0. lia.
Qed.
Lemma step_setDouble h d : simulated jd (CSetDouble h d).
Proof.
  intros R x R' St. exists 0%nat. split; [apply Nat.le_0_l|]. intros VV E nm F s fuel _ S _. cbn [rstep cstep] in *.
  destruct (look R h) as [[w k]|] eqn:L; [|discriminate]. destruct (doubleb d) eqn:B; [|discriminate].
  destruct (spend R k 104) as [R1|] eqn:Sp; [|discriminate]. injection St as <- <-.
  looked S L v A Hv HA. spent S HA Sp ru' Py Le. apply env_wp. apply doubleb_ok in B. pose proof (g17_len d B) as Lg.
  eapply (printed_ends E F R nm s h w k v A ru' 32 32 (g17 d)); eauto; [unfold lenN; lia|lia].
Qed.

Lemma no0_end (t sl : bytes) p s : text_at s p = t ++ 0 :: sl -> ~ In 0 t -> cstring s p t.
Proof. intros H N0. split; eauto. Qed.

Lemma parse_ends {VV : vols} {NN : need} E F R nm s h w k v A n ru' t0 sl (m : M bool) x R' : sim R E nm F s -> look R h = Some (w, k) ->
  nth_error (eh E) h = Some v -> nth_error (ea E) k = Some A -> pays E (ru R) ru' (at_ A n) -> ~ In 0 t0 ->
  negb (o_cut jd t0 (length sl)) = true ->
  match o_json jd t0 with
  | Some j => Some (Bool true, sealed (mkR (rG R) (rn R) (rh R) ru') w (assign (mkR (rG R) (rn R) (rh R) ru') h w j))
  | None => Some (Bool false, mkR (rG R) (rn R) (rh R) ru')
  end = Some (x, R') ->
  agree m s (ptop (t0 ++ 0 :: sl)) (pf_more (finished F) s F v (wrd nm w) A n) ->
  wp m s (ends E F bool (fun r => Bool r = x) R' (fun _ => E) s).
Proof.
  intros S L Hv HA Py N0 Sl Eq Ag'. pose proof (agree_weaken _ _ _ _ _ Ag' (pf_more_post (finished F) s F v (wrd nm w) A n)) as Ag. assert (Mi : mine E s (at_ A n)) by (apply mine_at; eapply nth_error_In; eauto).
  destruct (o_json jd t0) as [j|] eqn:Ej.
  - injection Eq as <- <-. apply (jd_json jd J) in Ej; auto.
    rewrite (ptop_complete t0 j sl Ej) in Ag'. destruct Ag' as (b & s' & Em & -> & F' & a & Pa & Fi). exists true, s'. split; auto. split; auto.
    destruct (after_sealed R E nm F s h w k v A _ j s' F' a ru' S L Hv HA Py Mi Pa (finished_ended F s' F' a Fi)) as (nm' & F2 & K). eauto.
  - injection Eq as <- <-. assert (Nc : ~ cut_literal t0 (length sl)) by (intro K; apply (jd_cut jd J) in K; auto; rewrite K in Sl; discriminate).
    destruct (proj1 (proj2 (OverRead.outcome_exact m s _ t0 sl N0 Ag)) Nc) as (r & s' & Em). destruct (judges_here m s F v _ A n t0 sl N0 Ag) as (_ & Jr & _).
    destruct r.
    + exfalso. destruct (proj1 (Jr true s' Em) eq_refl) as (j & Hj). apply (jd_json jd J) in Hj; auto. congruence.
    + exists false, s'. split; auto. split; auto. exists nm, F. eapply after_same; eauto. eapply reject_here; eauto.
Qed.
Lemma lenN_app1 (t : bytes) x : lenN (t ++ [x]) = lenN t + 1.
Proof. unfold lenN. rewrite app_length. cbn [length]. lia. Qed.
Lemma fits_cons t (x : N) pad : fits (t ++ x :: pad) = true -> lenN (t ++ x :: pad) < two32 /\ lenN t < two32.
Proof. intro H. apply fits_len in H. split; auto. unfold lenN in *. rewrite app_length in H. lia. Qed.
Lemma step_parse kd h t pad : simulated jd (CParse kd h t pad).
Proof.
  intros R x R' St. exists 0%nat. split; [apply Nat.le_0_l|]. intros VV E nm F s fuel _ S _. cbn [rstep cstep] in *.
  destruct (look R h) as [[w k]|] eqn:L; [|discriminate]. destruct (_ && _ && _) eqn:C; [|discriminate].
  apply andb_prop in C as [C Sl]. apply andb_prop in C as [C0 Fi]. apply fits_cons in Fi as [Fi Ft].
  looked S L v A Hv HA. destruct kd.
  - destruct (spend R k _) as [R1|] eqn:Sp; [|discriminate]. spent S HA Sp ru' Py Le. apply ok_c_no0 in C0. apply env_wp.
    apply (lend_wp R E nm F s); auto. intros V' p s1 B S1.
    eapply (parse_ends E F R nm s1 h w k v A _ ru' t []); eauto.
    eapply parse_finished; [apply S1|eapply on_handle; eauto|apply B|auto|now rewrite (bf_used _ _ _ _ B)].
  - destruct (spend R k _) as [R1|] eqn:Sp; [|discriminate]. spent S HA Sp ru' Py Le. apply ok_c_no0 in C0. apply env_wp.
    apply (keep_wp R E nm F s); auto. intros p s1 B S1 Sf.
    eapply (parse_ends E F R nm s1 h w k v A _ ru' t pad); eauto.
    apply parseFast_finished; auto; [apply S1|eapply on_handle; eauto|apply B| |now rewrite (bf_used _ _ _ _ B)].
    change (t ++ 0 :: pad) with (t ++ [0] ++ pad) in Sf. rewrite app_assoc in Sf. now apply safetext_app in Sf as [Sf _].
  - destruct (spend R k _) as [R1|] eqn:Sp; [|discriminate]. spent S HA Sp ru' Py Le. apply env_wp.
    apply (lend_wp R E nm F s); auto. intros V' p s1 B S1. destruct (before0_split t []) as (sl & Es & _).
    eapply (parse_ends E F R nm s1 h w k v A _ ru' (before0 t) sl); eauto; [apply before0_no0| |].
    { replace (length sl) with (length t - length (before0 t))%nat; auto. apply (f_equal (@length N)) in Es. rewrite !app_length in Es. cbn in Es. lia. }
    rewrite <- Es. apply parseLen_finished; auto; [apply S1|eapply on_handle; eauto|apply (bf_src _ _ _ _ B)|now rewrite (bf_used _ _ _ _ B)].
Qed.

Lemma srctext_app s a b c : srctext s a (b ++ c) -> srctext s a b.
Proof.
  intros [H K]. split.
  - intros i x Hx. apply H. rewrite nth_error_app1; auto. apply nth_error_Some. congruence.
  - intros i Hi. apply K. rewrite app_length. lia.
Qed.
(** The scratch string's allocator can take [n] more bytes. *)
Lemma home_room {VV : vols} E s A n : In A (ea E) -> (forall A, In A (ea E) -> usedA s A + n <= two30) -> cache_ready E s n ->
  usedA s (cache_home s A) + n <= two30 /\ usedA s A + n <= two30.
Proof.
  intros HA Hu [Lv H]. split; auto. destruct (cache_home_cases s A Lv) as [->|Ho]; auto. destruct (H _ Ho); auto.
Qed.
Lemma home_mine {NN : need} E s A a b : In A (ea E) -> cache_live s -> a <= needN -> mine E s (addc (at_ (cache_home s A) a) (at_ A b)).
Proof.
  intros HA Lv Le A' Nz. destruct (N.eq_dec A' A) as [->|Na]; [now left|]. unfold addc in Nz. rewrite (at_neq A) in Nz by auto.
  destruct (cache_home_cases s A Lv) as [Eh|Ho].
  - rewrite Eh, at_neq in Nz by auto. now elim Nz.
  - destruct (N.eq_dec A' (cache_home s A)) as [->|Nh].
    + right. split; auto. unfold addc. rewrite at_eq, (at_neq A) by auto. lia.
    + rewrite at_neq in Nz by auto. now elim Nz.
Qed.
Lemma at_le A n A' : at_ A n A' <= n.
Proof. unfold at_. destruct (N.eqb A' A); lia. Qed.
Lemma step_setText num kd h t : simulated jd (CSetText num kd h t).
Proof.
  intros R x R' St. exists 0%nat. split; [apply Nat.le_0_l|]. intros VV E nm F s fuel _ S Cr. cbn [rstep cstep] in *.
  destruct (look R h) as [[w k]|] eqn:L; [|discriminate]. looked S L v A Hv HA. apply env_wp.
  set (ok := if num then o_num jd t else o_str jd t) in *. set (j := if num then JNum t else JStr t) in *.
  set (check := if num then zj_checkNum else zj_checkStr). set (ty := if num then TNumber else TString).
  set (mk := if num then VNum else VStr). set (good := if num then number else strbody_set).
  assert (Hk : check = zj_checkNum /\ ty = TNumber /\ mk = VNum /\ good = number \/
               check = zj_checkStr /\ ty = TString /\ mk = VStr /\ good = strbody_set) by (destruct num; auto).
  assert (Hg : ok = true <-> good t) by (destruct num; [apply (jd_num jd J)|apply (jd_str jd J)]).
  assert (Ej : jval (mk t) = j) by (destruct num; auto).
  destruct kd; cbn [kept_kind kbuf pass].
  - destruct (_ && _) eqn:C; [|discriminate]. apply andb_prop in C as [N0 Fi]. apply ok_c_no0 in N0. apply fits_len in Fi.
    destruct (spend R k _) as [R1|] eqn:Sp; [|discriminate]. spent S HA Sp ru' Py Le.
    apply (lend_wp R E nm F s); auto. intros V' p s1 B S1. rewrite <- Ej in St.
    eapply (set_if_ends E F R nm s1 h w k v A S1 L Hv HA); eauto; [eapply mine_at; eauto|].
    replace (set_text_call num KCopy v p (lenN t)) with (set_text check ty v p) by (destruct num; reflexivity).
    eapply set_text_wp; eauto; [apply S1|eapply on_handle; eauto|eapply srctext_app; apply (bf_src _ _ _ _ B)|apply B|now rewrite (bf_used _ _ _ _ B)].
  - destruct (_ && _) eqn:C; [|discriminate]. apply andb_prop in C as [N0 Fi]. apply ok_c_no0 in N0. apply fits_len in Fi.
    destruct (spend R k _) as [R1|] eqn:Sp; [|discriminate]. spent S HA Sp ru' Py Le.
    apply (keep_wp R E nm F s); auto. intros p s1 B S1 Sf. rewrite <- Ej in St.
    replace (set_text_call num KFast v p (lenN t)) with (set_text_fast check ty v p) by (destruct num; reflexivity).
    eapply (seal_if_ends E F R nm s1 h w k v A S1 L Hv HA); eauto; [eapply mine_at; eauto| |].
    + eapply set_text_fast_wp; eauto; [apply S1|eapply on_handle; eauto|eapply safetext_app; exact Sf|apply B|now rewrite (bf_used _ _ _ _ B)].
    + intros s' F' a Em Pa. eapply leaf_ended; eauto.
      * intros b Eb. assert (b = t) as -> by (rewrite Ej in Eb; subst j; destruct num; congruence).
        unfold set_text_fast in Em. apply bind_inv in Em as (tx & s2 & E1 & Em). injection E1 as _ <-.
        apply bind_inv in Em as (o & s2 & E1 & Em). unfold lift in E1. destruct (check tx) as [o'|]; [|discriminate]. injection E1 as <- <-.
        destruct o' as [l|]; [|discriminate].
        destruct (scalar_points _ _ _ _ _ _ _ Em) as (a' & A' & n & V' & N' & Ep). rewrite (pd_val _ _ _ _ _ _ _ _ _ _ Pa) in V'. injection V' as <- _.
        exists n, p. split; auto. split; auto. eapply safetext_ext; [apply (pd_ext _ _ _ _ _ _ _ _ _ _ Pa)|exact Sf].
      * intro l. rewrite Ej. subst j. destruct num; discriminate.
      * intro l. rewrite Ej. subst j. destruct num; discriminate.
  - destruct (fits t) eqn:Fi; [|discriminate]. apply fits_len in Fi. destruct (scratch R _) as [R1|] eqn:Sp; [|discriminate].
    apply (lend_wp R E nm F s); auto. intros V' p s1 B S1. rewrite <- Ej in St. assert (Cr0 : check_cost (lenN t) + lenN t + 72 <> 0) by lia. specialize (Cr Cr0). clear Cr0. apply (bf_ready _ _ _ _ _ _ B) in Cr. cbn [cneed] in Cr.
    destruct (scratch_pays R E nm F s1 _ R1 (len_set_cost s1 A (lenN t)) S1 Sp) as (ru' & -> & Py & Le).
    { intro A'. unfold len_set_cost, addc. pose proof (at_le (cache_home s1 A) (check_cost (lenN t)) A'). pose proof (at_le A (lenN t + 72) A'). lia. }
    destruct (home_room E s1 A _ HiA Le Cr) as [L1 L2].
    eapply (set_if_ends E F R nm s1 h w k v A S1 L Hv HA); eauto; [apply home_mine; [auto|apply Cr|unfold needN; cbn [cneed]; lia]|].
    replace (set_text_call num KLen v p (lenN t)) with (set_text_len check ty v p (lenN t)) by (destruct num; reflexivity).
    eapply set_text_len_wp; eauto; [apply S1|eapply on_handle; eauto|apply (bf_src _ _ _ _ B)|apply Cr|lia|lia].
  - destruct (fits t) eqn:Fi; [|discriminate]. apply fits_len in Fi. destruct (scratch R _) as [R1|] eqn:Sp; [|discriminate].
    apply (keep_wp R E nm F s); auto. intros p s1 B S1 Sf. rewrite <- Ej in St. assert (Cr0 : check_cost (lenN t) + lenN t + 72 <> 0) by lia. specialize (Cr Cr0). clear Cr0. apply (bf_ready _ _ _ _ _ _ B) in Cr. cbn [cneed] in Cr.
    destruct (scratch_pays R E nm F s1 _ R1 (len_set_cost s1 A (lenN t)) S1 Sp) as (ru' & -> & Py & Le).
    { intro A'. unfold len_set_cost, addc. pose proof (at_le (cache_home s1 A) (check_cost (lenN t)) A'). pose proof (at_le A (lenN t + 72) A'). lia. }
    destruct (home_room E s1 A _ HiA Le Cr) as [L1 L2].
    eapply (set_if_ends E F R nm s1 h w k v A S1 L Hv HA); eauto; [apply home_mine; [auto|apply Cr|unfold needN; cbn [cneed]; lia]|].
    replace (set_text_call num KLenFast v p (lenN t)) with (set_text_len_fast check ty v p (lenN t)) by (destruct num; reflexivity).
    eapply set_text_len_fast_wp; eauto; [apply S1|eapply on_handle; eauto|apply (bf_src _ _ _ _ B)|apply Cr|lia|lia].
Qed.
Lemma step_setEscape len h t : simulated jd (CSetEscape len h t).
Proof.
  intros R x R' St. exists 0%nat. split; [apply Nat.le_0_l|]. intros VV E nm F s fuel _ S _. cbn [rstep cstep] in *.
  destruct (look R h) as [[w k]|] eqn:L; [|discriminate]. looked S L v A Hv HA. apply env_wp.
  destruct (_ && _) eqn:C; [|discriminate]. apply andb_prop in C as [N0 Fi]. apply fits_cons in Fi as [Fi Ft].
  destruct (spend R k _) as [R1|] eqn:Sp; [|discriminate]. spent S HA Sp ru' Py Le. injection St as <- <-. destruct len.
  - apply (lend_wp R E nm F s); auto. intros V' p s1 B S1.
    eapply (set_ends E F R nm s1 h w k v A S1 L Hv HA); eauto; [eapply mine_at; eauto|].
    eapply wp_mono; [eapply setStrLenEscape_wp; eauto; [apply S1|eapply on_handle; eauto|apply (bf_src _ _ _ _ B)|rewrite (bf_used _ _ _ _ B); lia]|].
    intros r s' [-> K]. split; auto.
  - apply ok_c_no0 in N0. apply (lend_wp R E nm F s); auto. intros V' p s1 B S1.
    eapply (set_ends E F R nm s1 h w k v A S1 L Hv HA); eauto; [eapply mine_at; eauto|].
    eapply wp_mono; [eapply setStrEscape_wp; eauto; [apply S1|eapply on_handle; eauto|apply B|rewrite (bf_used _ _ _ _ B); lia]|].
    intros r s' [-> K]. split; auto.
Qed.
Lemma step_setKey kd h t : simulated jd (CSetKey kd h t).
Proof.
  intros R x R' St. exists 0%nat. split; [apply Nat.le_0_l|]. intros VV E nm F s fuel _ S Cr. cbn [rstep cstep] in *.
  destruct (look R h) as [[w k]|] eqn:L; [|discriminate]. looked S L v A Hv HA. apply env_wp.
  pose proof (jd_str jd J t) as Hg.
  destruct kd; cbn [kept_kind kbuf pass set_key_call].
  - destruct (_ && _) eqn:C; [|discriminate]. apply andb_prop in C as [N0 Fi]. apply ok_c_no0 in N0. apply fits_len in Fi.
    destruct (spend R k _) as [R1|] eqn:Sp; [|discriminate]. spent S HA Sp ru' Py Le.
    apply (lend_wp R E nm F s); auto. intros V' p s1 B S1.
    eapply (key_if_ends E F R nm s1 h w k v A S1 L Hv HA); eauto; [eapply mine_at; eauto|]. intro Fk.
    eapply setKey_wp; eauto; [apply S1|eapply on_handle; eauto|eapply srctext_app; apply (bf_src _ _ _ _ B)|apply B|now rewrite (bf_used _ _ _ _ B)].
  - destruct (_ && _) eqn:C; [|discriminate]. apply andb_prop in C as [N0 Fi]. apply ok_c_no0 in N0. apply fits_len in Fi.
    destruct (spend R k _) as [R1|] eqn:Sp; [|discriminate]. spent S HA Sp ru' Py Le.
    apply (keep_wp R E nm F s); auto. intros p s1 B S1 Sf.
    eapply (key_if_ends E F R nm s1 h w k v A S1 L Hv HA); eauto; [eapply mine_at; eauto|]. intro Fk.
    eapply setKeyFast_wp; eauto; [apply S1|eapply on_handle; eauto|eapply safetext_app; exact Sf|apply B|now rewrite (bf_used _ _ _ _ B)].
  - destruct (fits t) eqn:Fi; [|discriminate]. apply fits_len in Fi. destruct (scratch R _) as [R1|] eqn:Sp; [|discriminate].
    apply (lend_wp R E nm F s); auto. intros V' p s1 B S1. assert (Cr0 : check_cost (lenN t) + lenN t + 72 <> 0) by lia. specialize (Cr Cr0). clear Cr0. apply (bf_ready _ _ _ _ _ _ B) in Cr. cbn [cneed] in Cr.
    destruct (scratch_pays R E nm F s1 _ R1 (len_key_cost s1 A (lenN t)) S1 Sp) as (ru' & -> & Py & Le).
    { intro A'. unfold len_key_cost, addc. pose proof (at_le (cache_home s1 A) (check_cost (lenN t)) A'). pose proof (at_le A (72 + lenN t) A'). lia. }
    replace (check_cost (lenN t) + lenN t + 72) with (check_cost (lenN t) + (72 + lenN t)) in Cr by lia.
    destruct (home_room E s1 A _ HiA Le Cr) as [L1 L2].
    eapply (key_if_ends E F R nm s1 h w k v A S1 L Hv HA); eauto; [apply home_mine; [auto|apply Cr|unfold needN; cbn [cneed]; lia]|]. intro Fk.
    eapply setKeyLen_wp; eauto; [apply S1|eapply on_handle; eauto|apply (bf_src _ _ _ _ B)|apply Cr|lia|lia].
  - destruct (fits t) eqn:Fi; [|discriminate]. apply fits_len in Fi. destruct (scratch R _) as [R1|] eqn:Sp; [|discriminate].
    apply (keep_wp R E nm F s); auto. intros p s1 B S1 Sf. assert (Cr0 : check_cost (lenN t) + lenN t + 72 <> 0) by lia. specialize (Cr Cr0). clear Cr0. apply (bf_ready _ _ _ _ _ _ B) in Cr. cbn [cneed] in Cr.
    destruct (scratch_pays R E nm F s1 _ R1 (len_key_cost s1 A (lenN t)) S1 Sp) as (ru' & -> & Py & Le).
    { intro A'. unfold len_key_cost, addc. pose proof (at_le (cache_home s1 A) (check_cost (lenN t)) A'). pose proof (at_le A (72 + lenN t) A'). lia. }
    replace (check_cost (lenN t) + lenN t + 72) with (check_cost (lenN t) + (72 + lenN t)) in Cr by lia.
    destruct (home_room E s1 A _ HiA Le Cr) as [L1 L2].
    eapply (key_if_ends E F R nm s1 h w k v A S1 L Hv HA); eauto; [apply home_mine; [auto|apply Cr|unfold needN; cbn [cneed]; lia]|]. intro Fk.
    eapply setKeyLenFast_wp; eauto; [apply S1|eapply on_handle; eauto|apply Cr|lia|lia].
Qed.
Lemma step_setKeyEscape len h t : simulated jd (CSetKeyEscape len h t).
Proof.
  intros R x R' St. exists 0%nat. split; [apply Nat.le_0_l|]. intros VV E nm F s fuel _ S _. cbn [rstep cstep] in *.
  destruct (look R h) as [[w k]|] eqn:L; [|discriminate]. looked S L v A Hv HA. apply env_wp.
  destruct (_ && _) eqn:C; [|discriminate]. apply andb_prop in C as [N0 Fi]. apply fits_cons in Fi as [Fi Ft].
  destruct (spend R k _) as [R1|] eqn:Sp; [|discriminate]. spent S HA Sp ru' Py Le. destruct len.
  - apply (lend_wp R E nm F s); auto. intros V' p s1 B S1.
    eapply (key_if_ends E F R nm s1 h w k v A S1 L Hv HA _ _ _ _ True); eauto; [eapply mine_at; eauto|tauto|]. intro Fk.
    eapply setKeyLenEscape_wp; eauto; [apply S1|eapply on_handle; eauto|apply (bf_src _ _ _ _ B)|rewrite (bf_used _ _ _ _ B); lia].
  - apply ok_c_no0 in N0. apply (lend_wp R E nm F s); auto. intros V' p s1 B S1.
    eapply (key_if_ends E F R nm s1 h w k v A S1 L Hv HA _ _ _ _ True); eauto; [eapply mine_at; eauto|tauto|]. intro Fk.
    eapply setKeyEscape_wp; eauto; [apply S1|eapply on_handle; eauto|apply B|rewrite (bf_used _ _ _ _ B); lia].
Qed.

(** ** Reading *)
Lemma ok_wp {X} (m : M X) s r s' (Q : X -> st -> Prop) : m s = Ok (r, s') -> Q r s' -> wp m s Q.
Proof. intros Em HQ. exists r, s'. auto. Qed.
Lemma before0_end t r : before0 (t ++ 0 :: r) = before0 t.
Proof. induction t as [|c t IH]; cbn; auto. destruct (c =? 0); auto. now rewrite IH. Qed.
Lemma cstr_wp s p t r (Q : bytes -> st -> Prop) : text_at s p = t ++ 0 :: r -> Q (before0 t) s -> wp (cstr_at (At p)) s Q.
Proof.
  intros Ht HQ. unfold cstr_at. apply wp_bind, wp_deref, wp_bind, wp_readable, wp_ret. rewrite Ht, before0_end. exact HQ.
Qed.
Lemma view_wp {VV : vols} (m : M (option (word * N))) s o (Q : answer -> st -> Prop) : wp m s (view s o) -> Q (Text o) s ->
  wp (r <- m ;; out_view r) s Q.
Proof.
  intros H HQ. apply wp_bind. eapply wp_mono; [exact H|]. intros r s' (-> & Hr). destruct o as [b|].
  - destruct Hr as (p & -> & Hp). cbn [out_view]. unfold load_w. apply wp_bind, wp_bind, wp_deref, (wp_load p _ b); auto. now apply wp_ret.
  - subst r. cbn. now apply wp_ret.
Qed.
Lemma copied_wp {VV : vols} (m : M (option word)) s A n o (Q : answer -> st -> Prop) : wfst s -> wp m s (copied s A n o) ->
  (forall s', ext none none (at_ A n) s s' -> Q (Text (option_map before0 o)) s') -> wp (r <- m ;; out_text r) s Q.
Proof.
  intros W H HQ. apply wp_bind. eapply wp_mono; [exact H|]. intros r s' Hr. destruct o as [b|].
  - destruct Hr as (p & -> & X & Fl). cbn [out_text]. apply wp_bind, (cstr_wp s' p b []); [apply Fl|]. apply wp_ret. apply HQ, X.
  - destruct Hr as [-> ->]. cbn. apply wp_ret. apply HQ. eapply ext_weaken; [apply (ext_refl none none s W)|auto|auto|]. intro A'. unfold zeroc. lia.
Qed.
Lemma none_wp {VV : vols} (m : M (option word)) s (Q : answer -> st -> Prop) : wp m s (fun r s' => r = None /\ s' = s) -> Q (Text None) s ->
  wp (r <- m ;; out_text r) s Q.
Proof. intros H HQ. apply wp_bind. eapply wp_mono; [exact H|]. intros r s' [-> ->]. cbn. now apply wp_ret. Qed.

Ltac emp Hh := 
  match type of Hh with handle ?s ?F ?v _ ?A =>
    pose proof (empty_reads s F v A Hh (0, 0) 0%nat 0) as
      (eType & eSize & eNull & eBool & eStr & eStrF & eUn & eNum & eNumF & eInt & eLong & _ & eKey & eKeyF & eUnKey & _) end.
Ltac node Himg i t f Gi Fi Ik Iv Ip := destruct (Himg i t eq_refl) as (Gi & f & Fi & Ik & Iv & Ip).

Lemma ntype_img nm v : ftype (vimg nm v) = ntype v.
Proof. destruct v as [| | | |[] ks]; reflexivity. Qed.
Lemma ntext_img nm v (num : bool) : ftext (if num then TNumber else TString) (vimg nm v) = ntext num v.
Proof. destruct v as [| | | |[] ks], num; reflexivity. Qed.

Lemma step_type h : simulated jd (CGetType h).
Proof.
  intros R x R' St. exists 0%nat. split; [apply Nat.le_0_l|]. intros VV E nm F s fuel _ S _. cbn [rstep cstep] in *.
  destruct (look R h) as [[w k]|] eqn:L; [|discriminate]. looked S L v A Hv HA. apply env_wp. injection St as <- <-.
  apply (stay_ends E F R nm s S). destruct w as [[i t]|]; cbn [option_map fst snd wopt] in *.
  - node Himg i t f Gi Fi Ik Iv Ip. eapply wp_mono; [eapply type_wp; eauto; apply S|]. intros r s' [-> ->]. split; auto.
    now rewrite Iv, ntype_img.
  - emp Hh. eapply ok_wp; [exact eType|]. auto.
Qed.
Lemma step_size h : simulated jd (CSize h).
Proof.
  intros R x R' St. exists 0%nat. split; [apply Nat.le_0_l|]. intros VV E nm F s fuel _ S _. cbn [rstep cstep] in *.
  destruct (look R h) as [[w k]|] eqn:L; [|discriminate]. looked S L v A Hv HA. apply env_wp. injection St as <- <-.
  apply (stay_ends E F R nm s S). destruct w as [[i t]|]; cbn [option_map fst snd wopt] in *.
  - node Himg i t f Gi Fi Ik Iv Ip. eapply wp_mono; [eapply size_wp; eauto; apply S|]. intros r s' [-> ->]. split; auto.
    rewrite Iv. destruct (tvalue t) as [| | | |ob ks]; cbn; auto. unfold lenN. now rewrite map_length.
  - emp Hh. eapply ok_wp; [exact eSize|]. auto.
Qed.
Lemma step_isNull h : simulated jd (CIsNull h).
Proof.
  intros R x R' St. exists 0%nat. split; [apply Nat.le_0_l|]. intros VV E nm F s fuel _ S _. cbn [rstep cstep] in *.
  destruct (look R h) as [[w k]|] eqn:L; [|discriminate]. looked S L v A Hv HA. apply env_wp. injection St as <- <-.
  apply (stay_ends E F R nm s S). destruct w as [[i t]|]; cbn [option_map fst snd wopt] in *.
  - node Himg i t f Gi Fi Ik Iv Ip. eapply wp_mono; [eapply isNull_wp; eauto; apply S|]. intros r s' [Hr ->]. split; auto.
    rewrite Iv in Hr. f_equal. destruct (tvalue t) as [| | | |ob ks]; cbn in Hr; [now apply Hr|..]; destruct r; auto; now discriminate (proj1 Hr eq_refl).
  - emp Hh. eapply ok_wp; [exact eNull|]. auto.
Qed.
Lemma step_getBool h : simulated jd (CGetBool h).
Proof.
  intros R x R' St. exists 0%nat. split; [apply Nat.le_0_l|]. intros VV E nm F s fuel _ S _. cbn [rstep cstep] in *.
  destruct (look R h) as [[w k]|] eqn:L; [|discriminate]. looked S L v A Hv HA. apply env_wp. injection St as <- <-.
  apply (stay_ends E F R nm s S). destruct w as [[i t]|]; cbn [option_map fst snd wopt] in *.
  - node Himg i t f Gi Fi Ik Iv Ip. eapply wp_mono; [eapply getBool_wp; eauto; apply S|]. intros r s' [-> ->]. split; auto.
    rewrite Iv. destruct (tvalue t) as [| | | |ob ks]; cbn; auto.
  - emp Hh. eapply ok_wp; [exact eBool|]. auto.
Qed.
Lemma step_getText num fast h : simulated jd (CGetText num fast h).
Proof.
  intros R x R' St. exists 0%nat. split; [apply Nat.le_0_l|]. intros VV E nm F s fuel _ S _. cbn [rstep cstep] in *.
  destruct (look R h) as [[w k]|] eqn:L; [|discriminate]. looked S L v A Hv HA. apply env_wp.
  set (o := match w with Some (_, t) => ntext num (tvalue t) | None => None end) in *. destruct fast.
  - injection St as <- <-. apply (stay_ends E F R nm s S). subst o. destruct w as [[i t]|]; cbn [option_map fst snd wopt] in *.
    + node Himg i t f Gi Fi Ik Iv Ip. eapply view_wp; [|split; reflexivity].
      rewrite <- (ntext_img nm), <- Iv. destruct num; [eapply getNumFast_wp|eapply getStrFast_wp]; eauto; apply S.
    + emp Hh. eapply (view_wp _ _ None); [|split; reflexivity]. destruct num; eapply ok_wp; [exact eNumF| |exact eStrF|]; split; auto.
  - unfold copy_text in St. destruct (spend R k _) as [R1|] eqn:Sp; [|discriminate]. spent S HA Sp ru' Py Le. injection St as <- <-.
    eapply (same_ends E F R nm s S); eauto; [eapply mine_at; eauto|]. subst o. destruct w as [[i t]|]; cbn [option_map fst snd wopt] in *.
    + node Himg i t f Gi Fi Ik Iv Ip. eapply copied_wp; [apply S| |intros s' X; split; [reflexivity|exact X]].
      pose proof (ntext_img nm (tvalue t) num) as En. rewrite <- Iv in En. fold (olen (ntext num (tvalue t))) in Le |- *. rewrite <- En in Le |- *.
      destruct num; [eapply getNumStr_wp|eapply getStr_wp]; eauto; apply S.
    + emp Hh. eapply (copied_wp _ s A _ None); [apply S| |intros s' X; split; [reflexivity|exact X]].
      destruct num; eapply ok_wp; [exact eNum| |exact eStr|]; split; auto.
Qed.
Lemma step_getUnEscape h : simulated jd (CGetUnEscape h).
Proof.
  intros R x R' St. exists 0%nat. split; [apply Nat.le_0_l|]. intros VV E nm F s fuel _ S _. cbn [rstep cstep] in *.
  destruct (look R h) as [[w k]|] eqn:L; [|discriminate]. looked S L v A Hv HA. apply env_wp.
  destruct w as [[i t]|]; cbn [option_map fst snd wopt] in *.
  - node Himg i t f Gi Fi Ik Iv Ip. destruct (ntext false (tvalue t)) as [b|] eqn:En.
    + destruct (o_dec jd b) as [d|] eqn:Ed; [|discriminate]. apply (jd_dec jd J) in Ed.
      unfold copy_text in St. destruct (spend R k _) as [R1|] eqn:Sp; [|discriminate]. spent S HA Sp ru' Py Le. injection St as <- <-.
      eapply (same_ends E F R nm s S); eauto; [eapply mine_at; eauto|].
      eapply (copied_wp _ s A _ (Some d)); [apply S| |intros s' X; split; [reflexivity|exact X]].
      eapply getUnEscapeStr_wp; eauto; [apply S|]. rewrite Iv. destruct (tvalue t) as [| | | |ob ks]; try discriminate. cbn in En. injection En as ->. reflexivity.
    + injection St as <- <-. apply (stay_ends E F R nm s S). apply none_wp; [|auto].
      eapply getUnEscapeStr_no; eauto; [apply S|]. rewrite Iv. now destruct (tvalue t) as [| | | |[] ks].
  - emp Hh. injection St as <- <-. apply (stay_ends E F R nm s S). apply none_wp; [|auto]. eapply ok_wp; [exact eUn|]. auto.
Qed.
Lemma step_getKey fast h : simulated jd (CGetKey fast h).
Proof.
  intros R x R' St. exists 0%nat. split; [apply Nat.le_0_l|]. intros VV E nm F s fuel _ S _. cbn [rstep cstep] in *.
  destruct (look R h) as [[w k]|] eqn:L; [|discriminate]. looked S L v A Hv HA. apply env_wp.
  set (o := match w with Some (_, t) => tkey t | None => None end) in *. destruct fast.
  - injection St as <- <-. apply (stay_ends E F R nm s S). subst o. destruct w as [[i t]|]; cbn [option_map fst snd wopt] in *.
    + node Himg i t f Gi Fi Ik Iv Ip. eapply view_wp; [|split; reflexivity].
      rewrite <- Ik. eapply getKeyFast_wp; eauto; apply S.
    + emp Hh. eapply (view_wp _ _ None); [|split; reflexivity]. eapply ok_wp; [exact eKeyF|]; split; auto.
  - unfold copy_text in St. destruct (spend R k _) as [R1|] eqn:Sp; [|discriminate]. spent S HA Sp ru' Py Le. injection St as <- <-.
    eapply (same_ends E F R nm s S); eauto; [eapply mine_at; eauto|]. subst o. destruct w as [[i t]|]; cbn [option_map fst snd wopt] in *.
    + node Himg i t f Gi Fi Ik Iv Ip. eapply copied_wp; [apply S| |intros s' X; split; [reflexivity|exact X]].
      fold (olen (tkey t)) in Le |- *. rewrite <- Ik in Le |- *. eapply getKey_wp; eauto; apply S.
    + emp Hh. eapply (copied_wp _ s A _ None); [apply S| |intros s' X; split; [reflexivity|exact X]].
      eapply ok_wp; [exact eKey|]; split; auto.
Qed.
Lemma step_getUnEscapeKey h : simulated jd (CGetUnEscapeKey h).
Proof.
  intros R x R' St. exists 0%nat. split; [apply Nat.le_0_l|]. intros VV E nm F s fuel _ S _. cbn [rstep cstep] in *.
  destruct (look R h) as [[w k]|] eqn:L; [|discriminate]. looked S L v A Hv HA. apply env_wp.
  destruct w as [[i t]|]; cbn [option_map fst snd wopt] in *.
  - node Himg i t f Gi Fi Ik Iv Ip. destruct (tkey t) as [b|] eqn:En.
    + destruct (o_dec jd b) as [d|] eqn:Ed; [|discriminate]. apply (jd_dec jd J) in Ed.
      unfold copy_text in St. destruct (spend R k _) as [R1|] eqn:Sp; [|discriminate]. spent S HA Sp ru' Py Le. injection St as <- <-.
      eapply (same_ends E F R nm s S); eauto; [eapply mine_at; eauto|].
      eapply (copied_wp _ s A _ (Some d)); [apply S| |intros s' X; split; [reflexivity|exact X]].
      eapply getUnEscapeKey_wp; eauto; apply S.
    + injection St as <- <-. apply (stay_ends E F R nm s S). apply none_wp; [|auto].
      eapply with_key_node; eauto; [apply S|]. intros n b p K. congruence.
  - emp Hh. injection St as <- <-. apply (stay_ends E F R nm s S). apply none_wp; [|auto]. eapply ok_wp; [exact eUnKey|]. auto.
Qed.
Lemma step_getInt h : simulated jd (CGetInt h).
Proof.
  intros R x R' St. exists 0%nat. split; [apply Nat.le_0_l|]. intros VV E nm F s fuel _ S _. cbn [rstep cstep] in *.
  destruct (look R h) as [[w k]|] eqn:L; [|discriminate]. looked S L v A Hv HA. apply env_wp.
  destruct w as [[i t]|]; cbn [option_map fst snd wopt] in *.
  - node Himg i t f Gi Fi Ik Iv Ip. destruct (ntext true (tvalue t)) as [b|] eqn:En.
    + destruct (o_int jd b) as [z|] eqn:Ez; [|discriminate]. apply (jd_int jd J) in Ez.
      destruct (_ && _) eqn:B; [|discriminate]. apply andb_prop in B as [B Bl]. apply andb_prop in B as [B1 B2].
      apply Z.leb_le in B1, B2. apply N.ltb_lt in Bl.
      destruct (spend R k _) as [R1|] eqn:Sp; [|discriminate]. spent S HA Sp ru' Py Le. injection St as <- <-.
      eapply (same_ends E F R nm s S); eauto; [eapply mine_at; eauto|].
      assert (Eb : fvalue f = VNum b) by (rewrite Iv; destruct (tvalue t) as [| | | |ob ks]; try discriminate; cbn in En; injection En as ->; reflexivity).
      eapply wp_mono; [eapply (getInt_wp s F v A (nm i) f b) with (z := z); eauto; [apply S|]|].
      * intro r. apply ato_number; auto. unfold is_digit. lia.
      * intros r s' [-> X]. auto.
    + injection St as <- <-. apply (stay_ends E F R nm s S). unfold zj_GetInt.
      eapply with_type_node; eauto; [apply S|]. intros n Ht. rewrite Iv in Ht. now destruct (tvalue t) as [| | | |[] ks].
  - emp Hh. injection St as <- <-. apply (stay_ends E F R nm s S). eapply ok_wp; [exact eInt|]. auto.
Qed.
Lemma ntext_num t b f nm : ntext true (tvalue t) = Some b -> fvalue f = vimg nm (tvalue t) -> fvalue f = VNum b.
Proof. intros En ->. destruct (tvalue t) as [| | | |ob ks]; try discriminate; cbn in En; injection En as ->; reflexivity. Qed.
Lemma step_getLong h : simulated jd (CGetLong h).
Proof.
  intros R x R' St. exists 0%nat. split; [apply Nat.le_0_l|]. intros VV E nm F s fuel _ S _. cbn [rstep cstep] in *.
  destruct (look R h) as [[w k]|] eqn:L; [|discriminate]. looked S L v A Hv HA. apply env_wp.
  destruct w as [[i t]|]; cbn [option_map fst snd wopt] in *.
  - node Himg i t f Gi Fi Ik Iv Ip. destruct (ntext true (tvalue t)) as [b|] eqn:En.
    + destruct (o_int jd b) as [z|] eqn:Ez; [|discriminate]. apply (jd_int jd J) in Ez.
      destruct (_ && _) eqn:B; [|discriminate]. apply andb_prop in B as [B Bl]. apply andb_prop in B as [Bs B]. apply andb_prop in B as [B1 B2].
      apply Z.leb_le in B1, B2. apply N.leb_le in Bl.
      destruct (spend R k _) as [R1|] eqn:Sp; [|discriminate]. spent S HA Sp ru' Py Le. injection St as <- <-.
      eapply (same_ends E F R nm s S); eauto; [eapply mine_at; eauto|].
      pose proof (ntext_num t b f nm En Iv) as Eb.
      destruct (stop_text R E nm F s i t f b S Gi Bs Fi Eb) as (n & p & c & r & Sn & Ep & Hc & Et).
      eapply wp_mono; [eapply (getLong_wp s F v A (nm i) f b) with (z := z); eauto; [apply S|]|].
      * intros n' p' Sn' Ep'. replace p' with p by congruence. rewrite Et. apply ato_number; auto. apply Hc.
      * intros o s' [-> X]. auto.
    + injection St as <- <-. apply (stay_ends E F R nm s S). unfold zj_GetLong.
      eapply with_type_node; eauto; [apply S|]. intros n Ht. rewrite Iv in Ht. now destruct (tvalue t) as [| | | |[] ks].
  - emp Hh. injection St as <- <-. apply (stay_ends E F R nm s S). eapply ok_wp; [exact eLong|]. auto.
Qed.
Lemma step_getLongLong h : simulated jd (CGetLongLong h).
Proof. exact (step_getLong h). Qed.
Lemma step_getDouble h : simulated jd (CGetDouble h).
Proof.
  intros R x R' St. exists 0%nat. split; [apply Nat.le_0_l|]. intros VV E nm F s fuel _ S _. cbn [rstep cstep] in *.
  destruct (look R h) as [[w k]|] eqn:L; [|discriminate]. looked S L v A Hv HA. apply env_wp.
  destruct w as [[i t]|]; cbn [option_map fst snd wopt] in *.
  - node Himg i t f Gi Fi Ik Iv Ip. destruct (ntext true (tvalue t)) as [b|] eqn:En.
    + destruct (o_real jd b) as [d|] eqn:Ez; [|discriminate]. apply (jd_real jd J) in Ez.
      destruct (_ && _) eqn:B; [|discriminate]. apply andb_prop in B as [Bs Bl]. apply N.leb_le in Bl.
      destruct (spend R k _) as [R1|] eqn:Sp; [|discriminate]. spent S HA Sp ru' Py Le. injection St as <- <-.
      eapply (same_ends E F R nm s S); eauto; [eapply mine_at; eauto|].
      pose proof (ntext_num t b f nm En Iv) as Eb.
      destruct (stop_text R E nm F s i t f b S Gi Bs Fi Eb) as (n & p & c & r & Sn & Ep & Hc & Et).
      eapply wp_mono; [eapply (getDouble_real s F v (nm i) A (JNum b) f) with (c := c); eauto; [apply S|now apply (rd_num F (nm i) f)|]|].
      * intros p' n' Eg. rewrite (numfast_at s F v (nm i) A f (sm_inv _ _ _ _ _ S) Hh Fi b n p Eb Sn Ep) in Eg. injection Eg as <- _. eauto.
      * intros o s' [-> X]. auto.
    + injection St as <- <-. apply (stay_ends E F R nm s S). unfold zj_GetDouble. apply wp_bind.
      assert (K : wp (zj_GetDouble_text v) s (fun o s' => o = None /\ s' = s)).
      { unfold zj_GetDouble_text. eapply with_type_node; eauto; [apply S|]. intros n Ht. rewrite Iv in Ht. now destruct (tvalue t) as [| | | |[] ks]. }
      eapply wp_mono; [exact K|].
      intros o s' [-> ->]. apply wp_ret. auto.
  - injection St as <- <-. apply (stay_ends E F R nm s S). unfold zj_GetDouble, zj_GetDouble_text, with_type.
    apply wp_bind, wp_bind, (wp_getVal _ _ _ _ (proj1 Hh)). cbn [vN]. apply wp_bind, wp_is_null with (b := true); auto. apply wp_ret. apply wp_ret. auto.
Qed.
Lemma step_stringify h : simulated jd (CStringify h).
Proof.
  intros R x R' St. cbn [rstep] in St.
  destruct (look R h) as [[w k]|] eqn:L; [|discriminate]. destruct w as [[i t]|].
  - destruct (reads_as R i) as [j|] eqn:Er; [|discriminate]. exists (jsteps j). split; [cbn [passes]; unfold inside_of; rewrite L, Er; pose proof (jsteps_values j); lia|]. intros VV E nm F s fuel Hf S _. cbn [cstep].
    looked S L v A Hv HA. apply env_wp. cbn [option_map fst snd wopt] in *.
    unfold copy_text in St. destruct (spend R k _) as [R1|] eqn:Sp; [|discriminate]. spent S HA Sp ru' Py Le. injection St as <- <-.
    eapply (same_ends E F R nm s S); eauto; [eapply mine_at; eauto|].
    destruct (stringify_content s F v (nm i) A j) with (fuel := fuel) as (w & s' & Es & (d & -> & Hd) & X); auto; [apply S| |].
    { eapply read_reads; [apply S|exact Er]. }
    apply wp_bind. eapply ok_wp; [exact Es|]. cbn [out_text]. destruct (holds_text s' d _ (x_wf _ _ _ _ _ X) Hd) as (r & Et).
    rewrite <- app_assoc in Et. cbn [app] in Et. apply wp_bind, (cstr_wp s' d (print j) r); [exact Et|]. apply wp_ret. auto.
  - injection St as <- <-. exists 0%nat. split; [apply Nat.le_0_l|]. intros VV E nm F s fuel _ S _. cbn [cstep].
    looked S L v A Hv HA. apply env_wp. cbn [option_map fst snd wopt] in *. apply (stay_ends E F R nm s S).
    unfold zj_Stringify. apply wp_bind, wp_bind, (wp_getVal _ _ _ _ (proj1 Hh)). cbn [vN].
    apply wp_bind, wp_is_null with (b := true); auto. apply wp_ret. cbn [out_text].
    assert (W : wfst s) by apply S. destruct (static_safe s 16 1 W) as [Hs _]. destruct (holds_text s _ _ W Hs) as (r & Et).
    apply wp_bind. apply (cstr_wp s empty_literal [] r); [exact Et|]. apply wp_ret. auto.
Qed.

(** ** Value objects for children *)
Section Give.
Context {VV : vols} {NN : need}.
Variables (E : env) (F : dom) (R : rst) (nm : N -> addr) (s : st) (k : nat) (A : N).
Hypothesis S : sim R E nm F s.
Hypothesis HA : nth_error (ea E) k = Some A.
Lemma out_wp (m : M (option addr)) x R' :
  wp m s (ends E F (option addr) (fun r => fst (out_value E r) = x) R' (fun r => snd (out_value E r)) s) ->
  wp (r <- m ;; ret (out_value E r)) s (goes E F s x R').
Proof. intro H. apply wp_bind. eapply wp_mono; [exact H|]. intros r s' K. apply wp_ret. exact K. Qed.
Lemma none_ends (m : M (option addr)) : wp m s (fun r s' => r = None /\ s' = s) ->
  wp m s (ends E F (option addr) (fun r => fst (out_value E r) = Value None) R (fun r => snd (out_value E r)) s).
Proof. intro H. eapply wp_mono; [exact H|]. intros r s' (-> & ->). split; auto. exists nm, F. now apply after_refl. Qed.
Lemma give_ends (m : M (option addr)) o x R' : give R k o = Some (x, R') -> (forall c, o = Some c -> c < rn R) ->
  (usedA s A + 16 <= two30 -> wp m s (fun r s' => exists o', o' = option_map nm o /\ new_handle s A o' r s')) ->
  wp m s (ends E F (option addr) (fun r => fst (out_value E r) = x) R' (fun r => snd (out_value E r)) s).
Proof.
  intros Gv Lt H. unfold give in Gv. destruct (spend R k 16) as [R1|] eqn:Sp; [|discriminate]. spent S HA Sp ru' Py Le.
  eapply wp_mono; [exact (H Le)|]. assert (Mi : mine E s (at_ A 16)) by (apply mine_at; eapply nth_error_In; eauto).
  intros r s' (o' & -> & K). destruct o as [c|]; cbn [option_map new_handle] in K.
  - destruct K as (v & -> & B & V & X). injection Gv as <- <-. split; [cbn; now rewrite (sm_lh _ _ _ _ _ S)|].
    exists nm, F. cbn [out_value snd]. refine (after_add R E nm F s nm F s' _ _ k v A S (after_same R E nm F s ru' s' _ S Py X Mi) HA _ B _); [apply V|].
    intros i Hi. injection Hi as <-. cbn. now apply Lt.
  - destruct K as [-> ->]. injection Gv as <- <-. split; auto. exists nm, F. cbn [out_value snd]. eapply (after_same R E nm F s ru' s zeroc); eauto.
    + eapply pays_less; [exact Py|]. intro A'. unfold zeroc. lia.
    + apply ext_refl, S.
    + apply mine_zero.
Qed.
End Give.
Lemma kid_bound nm n G F i t c : fsim nm n G F -> G i = Some t -> In c (nkids (tvalue t)) -> c < n /\ exists tc, G c = Some tc.
Proof.
  intros Fs Gi Hc. destruct (tvalue t) as [| | | |ob ks] eqn:Ev; try contradiction.
  destruct (fs_kids _ _ _ _ Fs i t ob ks c Gi Ev Hc) as (tc & Gc & _). split; eauto. eapply fs_bound; eauto.
Qed.
Lemma is_cont_some ob v ks : is_cont ob v = Some ks -> v = NCont ob ks.
Proof. destruct v as [| | | |ob' ks']; cbn; try discriminate. destruct (Bool.eqb ob' ob) eqn:Eb; [|discriminate]. apply Bool.eqb_prop in Eb. congruence. Qed.
Lemma is_cont_none (ob : bool) v nm : is_cont ob v = None -> ftype (vimg nm v) <> (if ob then TObject else TArray).
Proof. destruct v as [| | | |[] ks'], ob; cbn; congruence. Qed.
Lemma child_by_first nm n G F R kids k o : fsim nm n G F -> rG R = G -> (forall c, In c kids -> G c <> None) ->
  first_child (key_of F k) (map nm kids) o -> o = option_map nm (child_by R k kids).
Proof.
  intros Fs EG. subst G. revert o. induction kids as [|c r IH]; intros o Hk K.
  - cbn. destruct o as [a|]; auto. destruct K as (pre & post & Ep & _). destruct pre; discriminate.
  - unfold child_by. cbn [find]. fold (child_by R k r). destruct (rG R c) as [tc|] eqn:Gc; [|elim (Hk c); [now left|auto]].
    destruct (fs_node _ _ _ _ Fs c tc Gc) as (fc & Fc & Ik & _).
    assert (Hd : (match tkey tc with Some b => bytes_eqb b k | None => false end) = true <-> key_of F k (nm c)).
    { unfold key_of. rewrite <- Ik. split.
      - intro Hb. exists fc. split; auto. destruct (fkey fc) as [b|]; [|discriminate]. f_equal. now apply bytes_eqb_eq.
      - intros (fc' & Fc' & Kc). assert (fc' = fc) by congruence. subst fc'. rewrite Kc. now apply bytes_eqb_eq. }
    destruct (match tkey tc with Some b => bytes_eqb b k | None => false end) eqn:Eb.
    + assert (P : key_of F k (nm c)) by now apply Hd. destruct o as [a|].
      * destruct K as (pre & post & Ep & Pa & Np). destruct pre as [|d pre]; [cbn in Ep |- *; congruence|].
        injection Ep as Ed _. elim (Np (nm c)); [left; auto|auto].
      * elim (K (nm c)); [now left|auto].
    + assert (NP : ~ key_of F k (nm c)) by (intro P; apply Hd in P; discriminate).
      apply IH; [intros; apply Hk; now right|]. destruct o as [a|].
      * destruct K as (pre & post & Ep & Pa & Np). destruct pre as [|d pre]; [injection Ep as Ea _; rewrite Ea in NP; contradiction|].
        injection Ep as _ Ep. exists pre, post. split; auto. split; auto. intros d' Hd'. apply Np. now right.
      * intros c' Hc'. apply K. now right.
Qed.
Lemma child_by_in R k kids c : child_by R k kids = Some c -> In c kids.
Proof. unfold child_by. intro H. apply find_some in H. apply H. Qed.
Lemma keys_ok_no0 nm n F R kids : fsim nm n (rG R) F -> keys_ok R kids = true ->
  forall c fc b, In c (map nm kids) -> F c = Some fc -> fkey fc = Some b -> ~ In 0 b.
Proof.
  intros Fs Hk c fc b Hc Fc Kb. apply in_map_iff in Hc as (i & <- & Hi). unfold keys_ok in Hk. rewrite forallb_forall in Hk. specialize (Hk i Hi).
  destruct (rG R i) as [t|] eqn:Gi; [|discriminate]. destruct (fs_node _ _ _ _ Fs i t Gi) as (f' & Ff & Ik & _).
  assert (f' = fc) by congruence. subst f'. rewrite <- Ik, Kb in Hk. apply has0_no. now apply Bool.negb_true_iff in Hk.
Qed.
(** The call itself, with the key already in a buffer of the caller. *)
Definition obj_get (len : bool) (fuel : nat) (v p : addr) (n : N) : M (option addr) :=
  if len then zj_ObjGetLen fuel v p n else zj_ObjGet fuel v p.
Lemma objGet_in len h kk R x R' : rstep jd (CObjGet len h kk) R = Some (x, R') ->
  exists f0, (f0 <= members R h)%nat /\ lenN (if len then kk else kk ++ [0]) < two32 /\
    forall (VV : vols) (NN : need) E nm F s fuel v, (f0 <= fuel)%nat -> sim R E nm F s -> nth_error (eh E) h = Some v ->
    forall (V' : vols) p s1, buffered s (if len then kk else kk ++ [0]) p s1 -> @sim V' R E nm F s1 ->
      wp (obj_get len fuel v p (lenN kk)) s1 (@ends NN E F (option addr) (fun r => fst (out_value E r) = x) R' (fun r => snd (out_value E r)) V' s1).
Proof.
  intros St. cbn [rstep] in St. destruct (look R h) as [[w k]|] eqn:L; [|discriminate].
  assert (C : (len || ok_c kk) && fits (kk ++ [0]) = true).
  { destruct w as [[i t]|]; destruct ((len || ok_c kk) && fits (kk ++ [0])); auto; discriminate St. }
  rewrite C in St. apply andb_prop in C as [C0 Fi]. apply fits_cons in Fi as [Fi Ft].
  exists (match w with Some (_, t) => length (nkids (tvalue t)) | None => 0%nat end). split; [unfold members; rewrite L; destruct w as [[? ?]|]; apply le_n|]. split; [destruct len; auto|].
  intros VV NN E nm F s fuel v0 Hf S Hv0 V' p s1 B S1. unfold obj_get.
  destruct (look_handle _ _ _ _ _ _ _ _ S L) as (v & A & Hv & HA & HiA & Hrh & Hh & Himg). replace v0 with v in * by congruence. clear v0 Hv0.
  destruct w as [[i t]|]; cbn [option_map fst snd wopt] in *.
  - destruct (is_cont true (tvalue t)) as [kids|] eqn:Ec.
    + apply is_cont_some in Ec. rewrite Ec in Hf. cbn [nkids] in Hf.
      destruct (len || keys_ok R kids) eqn:Ko; [|discriminate]. node Himg i t f Gi Fi' Ik Iv Ip. rewrite Ec in Iv. cbn [vimg] in Iv.
      assert (Bd : forall c, In c kids -> c < rn R /\ exists tc, rG R c = Some tc).
      { intros c Hc. eapply (kid_bound nm (rn R) (rG R) F i t); [apply S|auto|]. now rewrite Ec. }
      assert (Bk : forall c, child_by R kk kids = Some c -> c < rn R) by (intros c Hc; apply Bd; eapply child_by_in; eauto).
      assert (Fn : forall r s', found s1 A (key_of F kk) (map nm kids) r s' ->
        exists o', o' = option_map nm (child_by R kk kids) /\ new_handle s1 A o' r s').
      { intros r s' (o & K & N). exists o. split; auto. eapply child_by_first; [apply S|auto| |exact K].
        intros c Hc. destruct (Bd c Hc) as (_ & tc & Gc). now rewrite Gc. }
      destruct len.
      * eapply give_ends; eauto. intro Hu.
        eapply wp_mono; [eapply (objGetLen_wp s1 F v A (nm i) f); eauto; [apply S1|eapply (on_handle E F R nm s1 h (Some (i, t))); eauto|apply (proj1 (bf_src _ _ _ _ B))|now rewrite map_length]|].
        intros r s' K. eapply Fn; eauto.
      * apply ok_c_no0 in C0. eapply give_ends; eauto. intro Hu.
        eapply wp_mono; [eapply (objGet_wp s1 F v A (nm i) f); eauto; [apply S1|eapply (on_handle E F R nm s1 h (Some (i, t))); eauto|apply (bf_text _ _ _ _ B)| |now rewrite map_length]|].
        -- eapply keys_ok_no0; [apply S|auto].
        -- intros r s' K. eapply Fn; eauto.
    + injection St as <- <-. node Himg i t f Gi Fi' Ik Iv Ip. apply (is_cont_none _ _ nm) in Ec. rewrite <- Iv in Ec.
      apply (none_ends E F R nm s1 S1). destruct len.
      * eapply (objGetLen_no s1 F v A (nm i) f); eauto; [apply S1|eapply (on_handle E F R nm s1 h (Some (i, t))); eauto].
      * eapply (objGet_no s1 F v A (nm i) f); eauto; [apply S1|eapply (on_handle E F R nm s1 h (Some (i, t))); eauto].
  - injection St as <- <-. apply (none_ends E F R nm s1 S1);
      pose proof (on_handle E F R nm s1 h None k v A S1 L Hv HA) as Hh1; destruct len; unfold zj_ObjGet, zj_ObjGetLen; eapply with_type_empty; eauto.
Qed.
Lemma step_objGet len h kk : simulated jd (CObjGet len h kk).
Proof.
  intros R x R' St. destruct (objGet_in _ _ _ _ _ _ St) as (f0 & L0 & Fi & K). exists f0. split; [exact L0|]. intros VV E nm F s fuel Hf S _. cbn [cstep rstep] in *.
  destruct (look R h) as [[w k]|] eqn:L; [|discriminate]. looked S L v A Hv HA. apply out_wp.
  specialize (fun V' => K VV (cneed (CObjGet len h kk)) E nm F s fuel v Hf S Hv V'). unfold obj_get in K.
  destruct len; apply (lend_wp R E nm F s); auto.
Qed.
Lemma step_arrayGet h ix : simulated jd (CArrayGet h ix).
Proof.
  intros R x R' St. cbn [rstep] in St. destruct (look R h) as [[w k]|] eqn:L; [|discriminate].
  exists (match w with Some (_, t) => length (nkids (tvalue t)) | None => 0%nat end). split; [cbn [passes]; unfold members; rewrite L; destruct w as [[? ?]|]; apply le_n|]. intros VV E nm F s fuel Hf S _. cbn [cstep].
  looked S L v A Hv HA. apply out_wp.
  destruct w as [[i t]|]; cbn [option_map fst snd wopt] in *.
  - destruct (ix <? two32) eqn:Lx; [|discriminate]. apply N.ltb_lt in Lx. node Himg i t f Gi Fi Ik Iv Ip.
    destruct (is_cont false (tvalue t)) as [kids|] eqn:Ec.
    + apply is_cont_some in Ec. rewrite Ec in Hf, Iv. cbn [nkids vimg] in Hf, Iv.
      eapply give_ends; eauto.
      * intros c Hc. eapply (kid_bound nm (rn R) (rG R) F i t); [apply S|auto|]. rewrite Ec. eapply nth_error_In; eauto.
      * intro Hu. eapply wp_mono; [eapply (arrayGet_wp s F v A (nm i) f); eauto; [apply S|now rewrite map_length]|].
        intros r s' K. rewrite nth_error_map in K. eauto.
    + injection St as <- <-. apply (is_cont_none _ _ nm) in Ec. rewrite <- Iv in Ec.
      apply (none_ends E F R nm s S). eapply (arrayGet_no s F v A (nm i) f); eauto; apply S.
  - injection St as <- <-. apply (none_ends E F R nm s S). unfold zj_ArrayGet. eapply with_type_empty; eauto.
Qed.
Lemma step_begin h : simulated jd (CBegin h).
Proof.
  intros R x R' St. cbn [rstep] in St. destruct (look R h) as [[w k]|] eqn:L; [|discriminate].
  exists 0%nat. split; [apply Nat.le_0_l|]. intros VV E nm F s fuel Hf S _. cbn [cstep]. looked S L v A Hv HA. apply out_wp.
  destruct w as [[i t]|]; cbn [option_map fst snd wopt] in *.
  - node Himg i t f Gi Fi Ik Iv Ip. eapply give_ends; eauto.
    + intros c Hc. eapply (kid_bound nm (rn R) (rG R) F i t); [apply S|auto|]. destruct (nkids (tvalue t)); [discriminate|]. injection Hc as ->. now left.
    + intro Hu. eapply wp_mono; [eapply (begin_wp s F v A (nm i) f); eauto; apply S|]. intros r s' K. eexists. split; [|exact K].
      rewrite Iv. destruct (tvalue t) as [| | | |ob ks]; try reflexivity. cbn. now destruct ks.
  - injection St as <- <-. apply (none_ends E F R nm s S). pose proof (empty_reads s F v A Hh (0, 0) 0%nat 0) as Em.
    destruct Em as (_&_&_&_&_&_&_&_&_&_&_&_&_&_&_&_&_&_& eB & _). eapply ok_wp; [exact eB|]. auto.
Qed.
Lemma step_next h : simulated jd (CNext h).
Proof.
  intros R x R' St. cbn [rstep] in St. destruct (look R h) as [[w k]|] eqn:L; [|discriminate].
  exists 0%nat. split; [apply Nat.le_0_l|]. intros VV E nm F s fuel Hf S _. cbn [cstep]. looked S L v A Hv HA. apply out_wp.
  destruct w as [[i t]|]; cbn [option_map fst snd wopt] in *.
  - node Himg i t f Gi Fi Ik Iv Ip. assert (D : wfdom F) by apply S. assert (Hn : exists o, give R k o = Some (x, R') /\ (forall c, o = Some c -> c < rn R) /\ fnext f = option_map nm o).
    { destruct (tpar t) as [p|] eqn:Ep.
      - destruct (rG R p) as [tp|] eqn:Gp; [|discriminate]. destruct (split_at i (nkids (tvalue tp))) as [[l r]|] eqn:Es; [|discriminate].
        exists (hd_error r). split; auto. apply split_at_ok in Es. split.
        + intros c Hc. eapply (kid_bound nm (rn R) (rG R) F p tp); [apply S|auto|]. rewrite Es. apply in_or_app. right. right.
          destruct r; [discriminate|]. injection Hc as ->. now left.
        + destruct (fs_node _ _ _ _ (sm_fs _ _ _ _ _ S) p tp Gp) as (fp & Fp & _ & Ipv & _).
          destruct (tvalue tp) as [| | | |ob ks]; try (destruct l; discriminate). cbn [nkids vimg] in *. subst ks.
          destruct (proj1 (D _ _ Fp) _ _ Ipv) as [Ch _]. rewrite map_app in Ch. cbn [map] in Ch.
          assert (Q : exists fc, F (nm i) = Some fc /\ fnext fc = hd_error (map nm r)).
          { clear -Ch. induction (map nm l) as [|y l' IH]; cbn in Ch.
            - destruct Ch as [(fc & Fc & _ & Hn & _) _]. eauto.
            - apply IH, Ch. }
          destruct Q as (fc & Fc & Hn). assert (fc = f) by congruence. subst fc. rewrite Hn. apply map_hd.
      - exists None. split; auto. split; [discriminate|]. cbn in Ip. apply (proj2 (D _ _ Fi) Ip). }
    destruct Hn as (o & Gv & Lt & Hn). eapply give_ends; eauto.
    intro Hu. eapply wp_mono; [eapply (next_wp s F v A (nm i) f); eauto; apply S|]. intros r s' K. rewrite Hn in K. eauto.
  - injection St as <- <-. apply (none_ends E F R nm s S). pose proof (empty_reads s F v A Hh (0, 0) 0%nat 0) as Em.
    destruct Em as (_&_&_&_&_&_&_&_&_&_&_&_&_&_&_&_&_&_&_& eB). eapply ok_wp; [exact eB|]. auto.
Qed.
Lemma step_newValue k : simulated jd (CNewValue k).
Proof.
  intros R x R' St. cbn [rstep] in St. destruct (spend R k 16) as [R1|] eqn:Sp; [|discriminate].
  exists 0%nat. split; [apply Nat.le_0_l|]. intros VV E nm F s fuel Hf S _. cbn [cstep].
  assert (HA : exists A, nth_error (ea E) k = Some A).
  { unfold spend in Sp. destruct (nth_error (ru R) k) eqn:Eu; [|discriminate]. destruct (nth_error (ea E) k) eqn:Ea; eauto.
    apply nth_error_None in Ea. rewrite (sm_la _ _ _ _ _ S) in Ea. apply nth_error_None in Ea. congruence. }
  destruct HA as (A & HA). apply (aof_wp _ _ A); auto. spent S HA Sp ru' Py Le. injection St as <- <-.
  assert (Hu : exists u, nth_error (ru R) k = Some u).
  { destruct (nth_error (ru R) k) eqn:Eu; eauto. apply nth_error_None in Eu. rewrite <- (sm_la _ _ _ _ _ S) in Eu. apply nth_error_None in Eu. congruence. }
  destruct Hu as (u & Hu). destruct (sm_arena _ _ _ _ _ S k A u HA Hu) as (Al & Nv & _).
  apply wp_bind. eapply wp_mono; [eapply newValue_wp; eauto; apply S|]. intros v s' (X & I' & Hh & B). apply wp_ret.
  split; [cbn; now rewrite (sm_lh _ _ _ _ _ S)|]. exists nm, F. cbn [out_value snd]. refine (after_add R E nm F s nm F s' _ _ k v A S (after_same R E nm F s ru' s' _ S Py X _) HA _ B _).
  - apply mine_at. eapply nth_error_In; eauto.
  - apply Hh.
  - discriminate.
Qed.
Lemma step_newAllocator : simulated jd CNewAllocator.
Proof.
  intros R x R' St. cbn [rstep] in St. injection St as <- <-. exists 0%nat. split; [apply Nat.le_0_l|]. intros VV E nm F s fuel Hf S _. cbn [cstep].
  apply wp_bind. eapply wp_mono; [eapply newAllocator_wp; apply S|]. intros A s' (X & EA & Al & U & Vs). apply wp_ret.
  split; [cbn; now rewrite (sm_la _ _ _ _ _ S)|]. exists nm, F. cbn [snd].
  assert (Nw : ~ In A (ea E)).
  { intro K. apply In_nth_error in K as (k & Hk). destruct (nth_error (ru R) k) as [u|] eqn:Eu.
    - destruct (sm_arena _ _ _ _ _ S k A u Hk Eu) as (Al' & _). apply Al'. subst A. apply (w_next s); [apply S|lia].
    - apply nth_error_None in Eu. rewrite <- (sm_la _ _ _ _ _ S) in Eu. apply nth_error_None in Eu. congruence. }
  destruct (after_same (NN := cneed CNewAllocator) R E nm F s (ru R) s' zeroc S) as [S1 Ex Hn Hhs Has _]; auto using pays_zero, mine_zero. constructor; auto.
  - destruct S1 as [qi qf qlh qla qh qnh qna qa]. constructor; auto; cbn [rh ru rG rn eh ea] in *.
    + rewrite !app_length. cbn. lia.
    + intros h o k Hr. destruct (qh h o k Hr) as (v & A' & K1 & K2 & K3). exists v, A'. split; auto. split; auto.
      rewrite nth_error_app1; auto. apply nth_error_Some. congruence.
    + apply NoDup_app_disj; auto; [repeat constructor; intros []|]. intros y K1 [<-|[]]. contradiction.
    + intros k A' u K1 K2. destruct (Nat.lt_ge_cases k (length (ea E))) as [Lt|Ge].
      * rewrite nth_error_app1 in K1, K2 by (auto; rewrite <- qla; auto). eauto.
      * rewrite nth_error_app2 in K1, K2 by (auto; rewrite <- qla; auto). rewrite <- qla in K2.
        destruct (k - length (ea E))%nat as [|[|q]]; [|discriminate..]. injection K1 as <-. injection K2 as <-.
        split; auto. split; [eapply newAllocator_inv; [apply S|exact X|auto]|]. lia.
  - cbn [ea]. intros A' HA'. apply in_app_iff in HA' as [K|[<-|[]]]; auto. right. subst A. lia.
  - exists [], [A]. now rewrite app_nil_r.
Qed.

(** ** Moving, copying, deleting *)
Section Shape.
Context {VV : vols} {NN : need}.
Variables (E : env) (F : dom) (R : rst) (nm : N -> addr) (s : st).
Hypothesis S : sim R E nm F s.
Lemma after_forest F' s' G' ru' c : inv s' F' -> fsim nm (rn R) G' F' -> ext (inF F) none c s s' -> pays E (ru R) ru' c -> mine E s c ->
  (forall x, F' x <> None -> F x <> None) -> after E F s (mkR G' (rn R) (rh R) ru') E nm F' s'.
Proof.
  intros I' Fs' X P M Fr. refine (after_gen R E nm F s nm F' s' _ _ _ _ _ _ c S I' Fs' _ _ X _ _ P M eq_refl _ _); auto; [lia|intros x []| |].
  - intros. left. eapply same_handles; eauto.
  - intros x H1 H2. elim (Fr x H1 H2).
Qed.
Lemma sim_unhook i G1 : unhook (rG R) i = Some G1 -> exists F1, removed F (nm i) F1 /\ fsim nm (rn R) G1 F1 /\ wfdom F1 /\
  (forall x, F1 x <> None -> F x <> None) /\ forall t, rG R i = Some t -> exists f f1 t1, F (nm i) = Some f /\ F1 (nm i) = Some f1 /\
    G1 i = Some t1 /\ fkey f1 = fkey f /\ fvalue f1 = fvalue f /\ tkey t1 = tkey t /\ img nm t f /\ img nm t1 f1.
Proof.
  intro U. assert (D : wfdom F) by apply S. destruct (unhook_sim nm (rn R) (rG R) F i G1 (sm_fs _ _ _ _ _ S) D U) as (F1 & Rm & Fs1).
  exists F1. split; auto. split; auto. split; [eapply removed_wfdom; eauto|]. split; [intros x; apply (removed_dom F (nm i) F1 x D Rm)|].
  intros t Gi. destruct (removed_root F (nm i) F1 D Rm) as (f & f1 & Ff & Ff1 & Kk & Kv & _).
  destruct (fs_node _ _ _ _ (sm_fs _ _ _ _ _ S) i t Gi) as (f' & Ff' & Im). assert (f' = f) by congruence. subst f'.
  assert (G1i : G1 i <> None) by (apply (unhook_dom _ _ _ i U); congruence). destruct (G1 i) as [t1|] eqn:G1e; [|now elim G1i].
  destruct (fs_node _ _ _ _ Fs1 i t1 G1e) as (f1' & Ff1' & Im1). assert (f1' = f1) by congruence. subst f1'.
  exists f, f1, t1. repeat (split; auto). destruct Im as (K1 & _), Im1 as (K2 & _). congruence.
Qed.
Lemma append_in F1 ob a c fa fc kids x : appendable F1 ob a c fa fc kids -> append F1 a c fa fc ob kids x <> None -> F1 x <> None.
Proof.
  intros [Aa _ Ac _ _ _ _ _ _] H. unfold append in H. destruct (addr_eqb_spec x c) as [->|_]; [congruence|].
  destruct (addr_eqb_spec x a) as [->|_]; [congruence|]. destruct (is_opt _ x); auto. intro K. now rewrite K in H.
Qed.
Lemma take_in F1 a b fa fb e x : takable F1 a b fa fb -> take F1 a b fa fb e x <> None -> F1 x <> None.
Proof.
  intros [Aa Ab _ _ _] H. unfold take in H. destruct (addr_eqb_spec x b) as [->|_]; [congruence|].
  destruct (addr_eqb_spec x a) as [->|_]; [congruence|]. destruct (isin x _); auto. intro K. now rewrite K in H.
Qed.
Lemma dropkey_in F1 c x : dropkey F1 c x <> None -> F1 x <> None.
Proof. unfold dropkey. destruct (addr_eqb x c); auto. intros H K. now rewrite K in H. Qed.
Lemma dup_old ru' t b j : reads F b j -> forall k, k < rn R -> rG (duplicate (mkR (rG R) (rn R) (rh R) ru') t j) k = rG R k.
Proof.
  intros Rb k Hk. assert (D : wfdom F) by apply S. pose proof (proj1 (plant_ok F D) b j Rb (rn R) (rn R + 1)) as PO.
  unfold duplicate. cbn [rn rG rh ru]. destruct (plant (rn R) j (rn R + 1)) as [[pv g] n'].
  destruct PO as (_ & Rg & _). cbn [rG]. unfold put, over. destruct (N.eqb_spec k (rn R)); [lia|].
  destruct (g k) as [tk|] eqn:Eg; auto. assert (K : g k <> None) by congruence. apply Rg in K. lia.
Qed.
Lemma hang_addable G ob a c G2 ta f : hang G ob a c = Some G2 -> G a = rG R a ->
  rG R a = Some ta -> F (nm a) = Some f -> exists kids, tvalue ta = NCont ob kids /\ addable F ob (nm a) f (map nm kids).
Proof.
  intros H Ga Gi Fa. assert (Hk : forall x, In x (nkids (tvalue ta)) -> rG R x <> None).
  { intros x Hx. destruct (kid_bound nm (rn R) (rG R) F a ta x (sm_fs _ _ _ _ _ S) Gi Hx) as (_ & tx & K). congruence. }
  destruct (hang_parts _ _ _ _ _ H) as (ta' & tc & kids & Ga' & Gc & V & Pc & Nac & Nak & En & Ln & _).
  assert (ta' = ta) by congruence. subst ta'. exists kids. split; auto. destruct (fs_node _ _ _ _ (sm_fs _ _ _ _ _ S) a ta Gi) as (f' & Fa' & (_ & Iv & _)).
  assert (f' = f) by congruence. subst f'. rewrite V in Iv, Hk. cbn [vimg nkids] in *. constructor; auto.
  - intro K. apply Nak. eapply fs_in; [apply S| |exact Hk|exact K]. congruence.
  - intro Nk. rewrite (fs_end _ _ _ _ (sm_fs _ _ _ _ _ S) a ta ob kids f); auto.
    + symmetry. apply last_map.
    + intros ->. now elim Nk.
    + apply En. intros ->. now elim Nk.
  - unfold lenN in *. now rewrite map_length.
Qed.
End Shape.
Lemma step_copy h : simulated jd (CCopy h).
Proof.
  intros R x R' St. cbn [rstep] in St. destruct (look R h) as [[w k]|] eqn:L; [|discriminate]. destruct w as [[i t]|].
  - destruct (reads_as R i) as [j|] eqn:Er; [|discriminate]. exists (Datatypes.S (jsteps j)). split; [cbn [passes]; unfold inside_of; rewrite L, Er; apply jsteps_values|]. intros VV E nm F s fuel Hf S _. cbn [cstep].
    looked S L v A Hv HA. cbn [option_map fst snd wopt] in *.
    destruct (spend R k _) as [R1|] eqn:Sp; [|discriminate]. spent S HA Sp ru' Py Le. node Himg i t f Gi Fi Ik Iv Ip. rewrite <- Ik in *.
    assert (Rd : reads F (nm i) j) by (eapply read_reads; [apply S|exact Er]).
    apply out_wp. eapply wp_mono; [eapply (copy_wp s F v (nm i) A j fuel f); eauto; [apply S|lia]|].
    intros r s' (hh & F' & n & -> & B & Cp & Hn & Ho & X).
    destruct (copied_grow R E nm F s i t j s' F' n S Gi Cp) as (nm' & n' & Ln & Ag & En & Gr). destruct (Gr ru') as (G1 & Ed & Fs1 & _).
    injection St as <- <-. rewrite Ed. split; [cbn; now rewrite (sm_lh _ _ _ _ _ S)|]. exists nm', F'. cbn [out_value snd].
    refine (after_add R E nm F s nm' F' s' _ _ k hh A S _ HA _ B _).
    + refine (after_gen R E nm F s nm' F' s' _ _ _ _ none none _ S (cp_inv _ _ _ _ _ _ _ Cp) Fs1 Ag _ X _ _ Py (mine_at _ _ _ _ HiA) eq_refl _ (cp_fresh _ _ _ _ _ _ _ Cp)).
      * lia.
      * intros y [].
      * intros y [].
      * intros. left. eapply same_handles; eauto.
    + cbn. rewrite En. exact Hn.
    + intros y Hy. injection Hy as <-. cbn [rn]. lia.
  - destruct (spend R k 16) as [R1|] eqn:Sp; [|discriminate]. injection St as <- <-.
    exists 0%nat. split; [apply Nat.le_0_l|]. intros VV E nm F s fuel Hf S _. cbn [cstep]. looked S L v A Hv HA. spent S HA Sp ru' Py Le. cbn [option_map fst snd wopt] in *.
    apply out_wp. eapply wp_mono; [eapply (copy_empty s F v A fuel); eauto; apply S|]. intros r s' (-> & _ & X).
    split; auto. exists nm, F. cbn [out_value snd]. eapply after_same; eauto. now apply mine_at.
Qed.
Lemma step_move h : simulated jd (CMove h).
Proof.
  intros R x R' St. cbn [rstep] in St. destruct (look R h) as [[w k]|] eqn:L; [|discriminate]. exists 0%nat. split; [apply Nat.le_0_l|]. intros VV E nm F s fuel Hf S _. cbn [cstep].
  looked S L v A Hv HA. apply env_wp. destruct w as [[i t]|]; cbn [option_map fst snd wopt] in *.
  - destruct (unhook (rG R) i) as [G1|] eqn:U; [|discriminate]. injection St as <- <-.
    destruct (sim_unhook E F R nm s S i G1 U) as (F1 & Rm & Fs1 & D1 & Sub & _).
    eapply wp_mono; [eapply (move_wp s F v (nm i) A F1); eauto; apply S|]. intros r s' (-> & I' & _ & X). split; auto. exists nm, F1.
    unfold with_forest. eapply after_forest; eauto using pays_zero, mine_zero.
  - injection St as <- <-. apply (stay_ends E F R nm s S). eapply wp_mono; [eapply move_empty; eauto|]. intros r s' (-> & ->). auto.
Qed.
Lemma deleted_ends {VV : vols} {NN : need} (E : env) (F : dom) (R : rst) (nm : N -> addr) (s : st) A c F1 G1 ru' r s' :
  sim R E nm F s -> In A (ea E) -> fsim nm (rn R) G1 F1 -> (forall x, F1 x <> None -> F x <> None) -> pays E (ru R) ru' (at_ A 16) ->
  deleted s F A (Some c) F1 r s' -> ends E F bool (fun r => Bool r = Bool true) (mkR G1 (rn R) (rh R) ru') (fun _ => E) s r s'.
Proof.
  intros S HiA Fs1 Sub Py (-> & I' & _ & X). split; auto. exists nm, F1. eapply after_forest; eauto. now apply mine_at.
Qed.
Lemma step_arrayDel h ix : simulated jd (CArrayDel h ix).
Proof.
  intros R x R' St. cbn [rstep] in St. destruct (look R h) as [[w k]|] eqn:L; [|discriminate].
  exists (match w with Some (_, t) => length (nkids (tvalue t)) | None => 0%nat end). split; [cbn [passes]; unfold members; rewrite L; destruct w as [[? ?]|]; apply le_n|]. intros VV E nm F s fuel Hf S _. cbn [cstep].
  looked S L v A Hv HA. apply env_wp.
  destruct w as [[i t]|]; cbn [option_map fst snd wopt] in *.
  - destruct (ix <? two32) eqn:Lx; [|discriminate]. apply N.ltb_lt in Lx. node Himg i t f Gi Fi Ik Iv Ip.
    destruct (is_cont false (tvalue t)) as [kids|] eqn:Ec.
    + apply is_cont_some in Ec. rewrite Ec in Hf, Iv. cbn [nkids vimg] in Hf, Iv.
      destruct (spend R k 16) as [R1|] eqn:Sp; [|discriminate]. spent S HA Sp ru' Py Le. cbn [rG] in St.
      destruct (nth_error kids (N.to_nat ix)) as [c|] eqn:En.
      * destruct (unhook (rG R) c) as [G1|] eqn:U; [|discriminate]. injection St as <- <-.
        destruct (sim_unhook E F R nm s S c G1 U) as (F1 & Rm & Fs1 & D1 & Sub & _).
        eapply wp_mono; [eapply (arrayDel_wp s F v (nm i) A f (map nm kids) ix fuel F1); eauto; [apply S|now rewrite map_length|]|].
        { intros c' Hc'. rewrite nth_error_map, En in Hc'. injection Hc' as <-. exact Rm. }
        intros r s' K. rewrite nth_error_map, En in K. cbn [option_map] in K. exact (deleted_ends E F R nm s A (nm c) F1 G1 ru' r s' S HiA Fs1 Sub Py K).
      * injection St as <- <-. eapply (same_ends E F R nm s S); eauto; [now apply mine_at|].
        eapply wp_mono; [eapply (arrayDel_wp s F v (nm i) A f (map nm kids) ix fuel F); eauto; [apply S|now rewrite map_length|]|].
        { intros c' Hc'. rewrite nth_error_map, En in Hc'. discriminate. }
        intros r s' K. rewrite nth_error_map, En in K. destruct K as [-> ->]. split; auto. apply (ext_weaken none none zeroc); auto; [apply ext_refl, S|intro; unfold zeroc; lia].
    + injection St as <- <-. apply (is_cont_none _ _ nm) in Ec. rewrite <- Iv in Ec.
      apply (stay_ends E F R nm s S). eapply wp_mono; [eapply (arrayDel_no s F v (At (nm i)) A); eauto; [apply S|]|intros r s' [-> ->]; auto].
      intros a f' Ha Hf'. injection Ha as <-. congruence.
  - injection St as <- <-. apply (stay_ends E F R nm s S). eapply wp_mono; [eapply (arrayDel_no s F v Null A); eauto; [apply S|]|intros r s' [-> ->]; auto].
    discriminate.
Qed.
Lemma step_objDel h kk : simulated jd (CObjDel h kk).
Proof.
  intros R x R' St. cbn [rstep] in St. destruct (look R h) as [[w k]|] eqn:L; [|discriminate].
  destruct (ok_c kk && fits (kk ++ [0])) eqn:C; [|discriminate]. apply andb_prop in C as [C0 Fi]. apply fits_cons in Fi as [Fi Ft]. apply ok_c_no0 in C0.
  exists (match w with Some (_, t) => length (nkids (tvalue t)) | None => 0%nat end). split; [cbn [passes]; unfold members; rewrite L; destruct w as [[? ?]|]; apply le_n|]. intros VV E nm F s fuel Hf S _. cbn [cstep].
  looked S L v A Hv HA. apply env_wp. apply (lend_wp R E nm F s); auto. intros V' p s1 B S1.
  pose proof (on_handle E F R nm s1 h w k v A S1 L Hv HA) as Hh1. unfold wrd in Hh1.
  destruct w as [[i t]|]; cbn [option_map fst snd wopt] in *.
  - node Himg i t f Gi Fi' Ik Iv Ip.
    destruct (is_cont true (tvalue t)) as [kids|] eqn:Ec.
    + apply is_cont_some in Ec. rewrite Ec in Hf, Iv. cbn [nkids vimg] in Hf, Iv.
      assert (Bd : forall c, In c kids -> c < rn R /\ exists tc, rG R c = Some tc).
      { intros c Hc. eapply (kid_bound nm (rn R) (rG R) F i t); [apply S|auto|]. now rewrite Ec. }
      assert (Fc : forall o, first_child (key_of F kk) (map nm kids) o -> o = option_map nm (child_by R kk kids)).
      { intros o K. eapply child_by_first; [apply S|auto| |exact K]. intros c Hc. destruct (Bd c Hc) as (_ & tc & Gc). now rewrite Gc. }
      destruct (keys_ok R kids) eqn:Ko; [|discriminate]. destruct (spend R k 16) as [R1|] eqn:Sp; [|discriminate]. spent S1 HA Sp ru' Py Le.
      unfold child_by in St. cbn [rG] in St. fold (child_by R kk kids) in St. destruct (child_by R kk kids) as [c|] eqn:En; cbn [option_map] in Fc.
      * destruct (unhook (rG R) c) as [G1|] eqn:U; [|discriminate]. injection St as <- <-.
        destruct (sim_unhook E F R nm s1 S1 c G1 U) as (F1 & Rm & Fs1 & D1 & Sub & _).
        eapply wp_mono; [eapply (objDel_wp s1 F v (nm i) A f (map nm kids) p kk [] fuel F1); eauto; [apply S1|apply (bf_text _ _ _ _ B)| |now rewrite map_length|]|].
        { eapply keys_ok_no0; [apply S|auto]. }
        { intros c' Hc'. apply Fc in Hc'. injection Hc' as ->. exact Rm. }
        intros r s' (o & Ho & K). apply Fc in Ho. subst o. exact (deleted_ends E F R nm s1 A (nm c) F1 G1 ru' r s' S1 HiA Fs1 Sub Py K).
      * injection St as <- <-. eapply (same_ends E F R nm s1 S1); eauto; [now apply mine_at|].
        eapply wp_mono; [eapply (objDel_wp s1 F v (nm i) A f (map nm kids) p kk [] fuel F); eauto; [apply S1|apply (bf_text _ _ _ _ B)| |now rewrite map_length|]|].
        { eapply keys_ok_no0; [apply S|auto]. }
        { intros c' Hc'. apply Fc in Hc'. discriminate. }
        intros r s' (o & Ho & K). apply Fc in Ho. subst o. destruct K as [-> ->]. split; auto. apply (ext_weaken none none zeroc); auto; [apply ext_refl, S1|intro; unfold zeroc; lia].
    + injection St as <- <-. apply (is_cont_none _ _ nm) in Ec. rewrite <- Iv in Ec.
      apply (stay_ends E F R nm s1 S1). eapply wp_mono; [eapply (objDel_no s1 F v (At (nm i)) A); eauto; [apply S1|]|intros r s' [-> ->]; auto].
      intros a f' Ha Hf'. injection Ha as <-. congruence.
  - injection St as <- <-. apply (stay_ends E F R nm s1 S1). eapply wp_mono; [eapply (objDel_no s1 F v Null A); eauto; [apply S1|]|intros r s' [-> ->]; auto].
    discriminate.
Qed.
Definition addcall fuel (ob fast : bool) v vv : M bool :=
  match ob, fast with
  | true, true => zj_ObjAddFast v vv
  | true, false => zj_ObjAdd fuel v vv
  | false, true => zj_ArrayAddFast v vv
  | false, false => zj_ArrayAdd fuel v vv
  end.
Lemma after_lost {VV : vols} {NN : need} (E : env) (F : dom) (R : rst) (nm : N -> addr) (s : st) hv o k v A F' s' G' :
  sim R E nm F s -> nth_error (rh R) hv = Some (o, k) -> nth_error (eh E) hv = Some v -> nth_error (ea E) k = Some A ->
  inv s' F' -> fsim nm (rn R) G' F' -> ext (inF F) (only v) zeroc s s' -> svals s' v = Some (mkVal Null A) ->
  (forall x, F' x <> None -> F x <> None) -> after E F s (with_handle (with_forest R G') hv None) E nm F' s'.
Proof.
  intros S Hr Hv HA I' Fs' X Hn Fr. unfold with_handle, with_forest. cbn [rG rn rh ru]. rewrite Hr.
  refine (after_gen R E nm F s nm F' s' _ _ _ _ (inF F) (only v) zeroc S I' Fs' _ _ X _ _ (pays_zero _ _) (mine_zero _ _) (length_setn _ _ _) _ _); auto; [lia| | |].
  - intros y ->. eapply nth_error_In; eauto.
  - eapply (set_handles R E nm F s hv o k v A nm None (rn R) s' zeroc); eauto. discriminate.
  - intros y H1 H2. elim (Fr y H1 H2).
Qed.
Lemma checked_is R G a R1 : checked R G a = Some R1 -> R1 = with_forest R G.
Proof. unfold checked. destruct (read _ G a); congruence. Qed.
Lemma step_add ob fast h hv : simulated jd (CAdd ob fast h hv).
Proof.
  intros R x R' St. cbn [rstep] in St. destruct (look R h) as [[w k]|] eqn:L; [|discriminate]. destruct (look R hv) as [[wv kv]|] eqn:Lv; [|discriminate].
  exists (if fast then 0%nat else match wv with Some (c, tc) => match reads_as R c with Some j => Datatypes.S (jsteps j) | None => 0%nat end | None => 0%nat end).
  split.
  { cbn [passes]. destruct fast; [apply le_n|]. unfold inside_of. rewrite Lv. destruct wv as [[c tc]|]; [|apply Nat.le_0_l]. destruct (reads_as R c); [apply jsteps_values|apply Nat.le_0_l]. }
  intros VV E nm F s fuel Hf S _. cbn [cstep]. looked S L v A Hv HA. looked S Lv vv B Hvv HB. apply env_wp.
  change (match ob with true => if fast then zj_ObjAddFast v vv else zj_ObjAdd fuel v vv | false => if fast then zj_ArrayAddFast v vv else zj_ArrayAdd fuel v vv end) with (addcall fuel ob fast v vv). assert (I : inv s F) by apply S. assert (D : wfdom F) by apply S.
  assert (Ty : forall wd, handle s F v wd A -> (forall a f, wd = At a -> F a = Some f -> ftype (fvalue f) <> if ob then TObject else TArray) ->
    wp (addcall fuel ob fast v vv) s (fun r s' => Bool r = Bool false /\ s' = s)).
  { intros wd Hw Ht. unfold addcall. apply (wp_mono _ _ (refused s)); [|intros r s' [-> ->]; split; reflexivity].
    destruct ob; [destruct (add_type_no s F v vv A I wd fuel Hw Ht)|destruct (arrayAdd_type_no s F v vv A I wd fuel Hw Ht)]; destruct fast; auto. }
  destruct w as [[a ta]|]; cbn [option_map fst snd wopt] in *.
  2:{ injection St as <- <-. apply (stay_ends E F R nm s S). eapply Ty; eauto. discriminate. }
  node Himg a ta fa Ga Fa Ika Iva Ipa. destruct (is_cont ob (tvalue ta)) as [kids|] eqn:Ec.
  2:{ injection St as <- <-. apply (stay_ends E F R nm s S). eapply Ty; eauto. apply (is_cont_none _ _ nm) in Ec. rewrite <- Iva in Ec.
      intros a' f' Ha Hf'. injection Ha as <-. congruence. }
  clear Ty. apply is_cont_some in Ec. rewrite Ec in Iva. cbn [vimg] in Iva. pose proof (fs_bound _ _ _ _ _ _ (sm_fs _ _ _ _ _ S) Ga) as Ba.
  destruct wv as [[c tc]|]; cbn [option_map fst snd wopt] in *.
  2:{ destruct (negb ob && negb fast) eqn:Eb.
      - apply andb_prop in Eb as [Eo Ef]. destruct ob, fast; try discriminate. destruct (spend R kv 16) as [R1|] eqn:Sp; [|discriminate].
        spent S HB Sp ru' Py Le. injection St as <- <-. eapply (same_ends E F R nm s S); eauto; [now apply mine_at|].
        eapply wp_mono; [eapply (arrayAdd_empty s F v vv A B I (nm a) fa); eauto; now rewrite Iva|]. intros r s' (-> & _ & X). auto.
      - injection St as <- <-. apply (stay_ends E F R nm s S). apply (wp_mono _ _ (refused s)); [|intros r s' [-> ->]; split; reflexivity].
        unfold addcall. destruct ob.
        + destruct (add_key_no s F v vv A B I (nm a) fa Null fuel) as [K1 K2]; auto; [now rewrite Iva|discriminate|]. destruct fast; auto.
        + destruct fast; [|discriminate]. eapply arrayAddFast_empty; eauto. now rewrite Iva. }
  node Himg0 c tc fc Gc Fc Ikc Ivc Ipc. pose proof (fs_bound _ _ _ _ _ _ (sm_fs _ _ _ _ _ S) Gc) as Bc.
  destruct (ob && negb (is_some (tkey tc))) eqn:Ek.
  { apply andb_prop in Ek as [-> Ek]. injection St as <- <-. apply (stay_ends E F R nm s S). apply (wp_mono _ _ (refused s)); [|intros r s' [-> ->]; split; reflexivity].
    unfold addcall. destruct (add_key_no s F v vv A B I (nm a) fa (At (nm c)) fuel) as [K1 K2]; auto; [now rewrite Iva| |destruct fast; auto].
    intros b fb Hb Fb. injection Hb as <-. assert (fb = fc) by congruence. subst fb. rewrite Ikc. destruct (tkey tc); [discriminate|auto]. }
  assert (Kc : ob = true -> tkey tc <> None) by (intros ->; destruct (tkey tc); discriminate).
  destruct fast.
  - destruct (unhook (rG R) c) as [G1|] eqn:U; [|discriminate]. destruct (hang _ ob a c) as [G2|] eqn:Hg; [|discriminate].
    destruct (checked R G2 a) as [R1|] eqn:Ck; [|discriminate]. apply checked_is in Ck. subst R1. injection St as <- <-.
    destruct (sim_unhook E F R nm s S c G1 U) as (F1 & Rm & Fs1 & D1 & Sub & Rt).
    destruct (Rt tc Gc) as (fc' & f1 & t1 & Fc' & F1c & G1c & Kk1 & Kv1 & Kt & _ & Im1). destruct ob; unfold addcall.
    + destruct (hang_sim nm (rn R) G1 F1 true a c G2 Fs1 D1 Hg) as (ga & gc & ks & Ap & Fs2).
      { intros t' Ht'. assert (t' = t1) by congruence. subst t'. rewrite Kt. auto. }
      eapply wp_mono; [eapply (objAddFast_wp s F v (nm a) A vv (nm c) B F1 ga gc ks); eauto|]. intros r s' (-> & I' & Hn & _ & X). split; auto.
      eexists nm, _. eapply after_lost; eauto. intros y Hy. apply Sub. eapply append_in; eauto.
    + assert (Fsd : fsim nm (rn R) (rekeyN G1 c None) (dropkey F1 (nm c))).
      { apply (rekey_sim nm (rn R) G1 F1 c None (dropkey F1 (nm c)) f1 (nokey f1)); auto; [now apply dropkey_at| |congruence].
        intros y g Hy Ny. now rewrite dropkey_other. }
      assert (Dd : wfdom (dropkey F1 (nm c))).
      { destruct (removed_root F (nm c) F1 D Rm) as (q & q1 & _ & Q1 & _ & _ & _ & Qp & _). eapply dropkey_wfdom; eauto. }
      destruct (hang_sim nm (rn R) (rekeyN G1 c None) (dropkey F1 (nm c)) false a c G2 Fsd Dd Hg) as (ga & gc & ks & Ap & Fs2).
      { intros t' Ht'. unfold rekeyN in Ht'. rewrite N.eqb_refl, G1c in Ht'. injection Ht' as <-. reflexivity. }
      eapply wp_mono; [eapply (arrayAddFast_wp s F v (nm a) A vv (nm c) B F1 ga gc ks); eauto|]. intros r s' (-> & I' & Hn & _ & X). split; auto.
      eexists nm, _. eapply after_lost; eauto. intros y Hy. apply Sub. eapply dropkey_in. eapply append_in; eauto.
  - destruct (reads_as R c) as [j|] eqn:Er; [|discriminate]. destruct (spend R kv _) as [R1|] eqn:Sp; [|discriminate]. spent S HB Sp ru' Py Le.
    cbn [rn] in St. rewrite <- Ikc in Py, Le. assert (Rd : reads F (nm c) j) by (eapply read_reads; [apply S|exact Er]).
    pose proof (dup_old E F R nm s S ru' tc (nm c) j Rd a Ba) as Oa.
    destruct (hang _ ob a (rn R)) as [G2|] eqn:Hg; [|discriminate]. injection St as <- <-.
    assert (Ad : exists ks, addable F ob (nm a) fa ks).
    { destruct (hang_addable E F R nm s S _ ob a (rn R) G2 ta fa Hg) as (ks & _ & K); eauto. destruct ob; auto. unfold rekeyN. destruct (N.eqb_spec a (rn R)); [lia|auto]. }
    destruct Ad as (ks & Ad).
    pose (NN := (0 : need)). assert (Rest : forall s1 F1 n F' s', copied_node s F (nm c) j s1 F1 n -> inv s' F' -> ext (inF F) none (at_ B (88 + icost (fkey fc, j))) s s' ->
      (forall nm' n' G1, fsim nm' n' G1 F1 -> nm' (rn R) = n -> nm' a = nm a -> rG (duplicate (mkR (rG R) (rn R) (rh R) ru') tc j) = G1 ->
        (exists v0, G1 (rn R) = Some (mkT (tkey tc) v0 None true true false)) -> fsim nm' n' G2 F') ->
      (forall y, F' y <> None -> F1 y <> None) ->
      exists nm' F'', after E F s (with_forest (duplicate (mkR (rG R) (rn R) (rh R) ru') tc j) G2) E nm' F'' s').
    { intros s1 F1 n F' s' Cp I' X Fin Sub. destruct (copied_grow R E nm F s c tc j s1 F1 n S Gc Cp) as (nm' & n' & Ln & Ag & En & Gr).
      destruct (Gr ru') as (G1 & Ed & Fs1 & _ & Rt). exists nm', F'. rewrite Ed in Fin |- *. cbn [rG] in Fin. unfold with_forest. cbn [rn rh ru].
      refine (after_gen R E nm F s nm' F' s' _ _ _ _ (inF F) none _ S I' (Fin nm' n' G1 Fs1 En (Ag a Ba) eq_refl Rt) Ag _ X _ _ Py (mine_at _ _ _ _ HiA0) eq_refl _ _); auto.
      - lia.
      - intros y [].
      - intros. left. eapply same_handles; eauto.
      - intros y H1 H2. apply (cp_fresh _ _ _ _ _ _ _ Cp); auto. }
    destruct ob; unfold addcall.
    + eapply wp_mono; [eapply (objAdd_wp s F v (nm a) A vv (nm c) B j fa fc ks fuel); eauto; [rewrite Ikc; auto|lia]|].
      intros r s' (-> & s1 & F1 & n & F' & Cp & (fn & Fn & Ap & ->) & I' & _ & X). split; auto. eapply Rest; eauto.
      * intros nm' n' G1 Fs1 En Ea Ed (v0 & G1n). rewrite Ed in Hg.
        destruct (hang_sim nm' n' G1 F1 true a (rn R) G2 Fs1 (i_dom _ _ (cp_inv _ _ _ _ _ _ _ Cp)) Hg) as (ga & gc & ks' & Ap' & Fs2).
        { intros t' Ht'. rewrite G1n in Ht'. injection Ht' as <-. cbn. auto. }
        rewrite En, Ea in *. destruct Ap, Ap'. replace fa with ga by congruence. replace fn with gc by congruence. replace ks with ks' by congruence. exact Fs2.
      * intros y Hy. eapply append_in; eauto.
    + eapply wp_mono; [eapply (arrayAdd_wp s F v (nm a) A vv (nm c) B j fa fc ks fuel); eauto; lia|].
      intros r s' (-> & s1 & F1 & n & F' & Cp & (fn & Fn & Ap & ->) & I' & _ & X). split; auto. eapply Rest; eauto.
      * intros nm' n' G1 Fs1 En Ea Ed (v0 & G1n). rewrite Ed in Hg.
        assert (Fsd : fsim nm' n' (rekeyN G1 (rn R) None) (dropkey F1 (nm' (rn R)))).
        { rewrite En. apply (rekey_sim nm' n' G1 F1 (rn R) None (dropkey F1 n) fn (nokey fn)); rewrite ?En; auto; [now apply dropkey_at| |congruence].
          intros y g Hy Ny. now rewrite dropkey_other. }
        assert (Dd : wfdom (dropkey F1 (nm' (rn R)))).
        { rewrite En. destruct (cp_root _ _ _ _ _ _ _ Cp) as (q & q1 & _ & Q1 & _ & Qp & _). eapply dropkey_wfdom; eauto. apply (i_dom _ _ (cp_inv _ _ _ _ _ _ _ Cp)). }
        destruct (hang_sim nm' n' _ (dropkey F1 (nm' (rn R))) false a (rn R) G2 Fsd Dd Hg) as (ga & gc & ks' & Ap' & Fs2).
        { intros t' Ht'. unfold rekeyN in Ht'. rewrite N.eqb_refl, G1n in Ht'. injection Ht' as <-. reflexivity. }
        rewrite En, Ea in *. destruct Ap, Ap'. replace fa with ga by congruence. replace (nokey fn) with gc by congruence. replace ks with ks' by congruence. exact Fs2.
      * intros y Hy. eapply dropkey_in. eapply append_in; eauto.
Qed.
Lemma kids_len nm v : length (kids_in (vimg nm v)) = length (nkids v).
Proof. destruct v as [| | | |ob ks]; cbn; auto. apply map_length. Qed.
Lemma step_set fast h hv : simulated jd (CSet fast h hv).
Proof.
  intros R x R' St. cbn [rstep] in St. destruct (look R h) as [[w k]|] eqn:L; [|discriminate]. destruct (look R hv) as [[wv kv]|] eqn:Lv; [|discriminate].
  exists (match wv with Some (c, tc) => length (nkids (tvalue tc)) + if fast then 0 else match reads_as R c with Some j => Datatypes.S (jsteps j) | None => 0 end | None => 0 end)%nat.
  split.
  { cbn [passes]. unfold members, inside_of. rewrite Lv. destruct wv as [[c tc]|]; [|apply Nat.le_0_l]. destruct fast; [apply le_n|]. apply Nat.add_le_mono_l.
    destruct (reads_as R c); [apply jsteps_values|apply Nat.le_0_l]. }
  intros VV E nm F s fuel Hf S _. cbn [cstep]. looked S L v A Hv HA. looked S Lv vv B Hvv HB. apply env_wp.
  assert (I : inv s F) by apply S. assert (D : wfdom F) by apply S.
  destruct wv as [[b tb]|]; cbn [option_map fst snd wopt] in *.
  2:{ destruct fast.
      - injection St as <- <-. apply (stay_ends E F R nm s S). apply (wp_mono _ _ (refused s)); [|intros r s' [-> ->]; split; reflexivity]. eapply setFast_empty; eauto.
      - destruct (spend R kv 16) as [R1|] eqn:Sp; [|discriminate].
        spent S HB Sp ru' Py Le. injection St as <- <-. eapply (same_ends E F R nm s S); eauto; [now apply mine_at|].
        eapply wp_mono; [eapply (set_empty s F v vv B fuel); eauto|]. intros r s' (-> & _ & X). auto. }
  node Himg0 b tb fb Gb Fb Ikb Ivb Ipb. assert (Hl : (length (kids_in (fvalue fb)) <= fuel)%nat) by (rewrite Ivb, kids_len; lia).
  destruct fast.
  - destruct (unhook (rG R) b) as [G1|] eqn:U; [|discriminate].
    destruct (sim_unhook E F R nm s S b G1 U) as (F1 & Rm & Fs1 & D1 & Sub & Rt).
    destruct (Rt tb Gb) as (fb' & f1 & t1 & Fb' & F1b & G1b & Kk1 & Kv1 & Kt & _ & Im1). assert (fb' = fb) by congruence. subst fb'.
    destruct w as [[a ta]|]; cbn [option_map fst snd wopt] in *.
    + destruct (hand G1 a b true) as [G2|] eqn:Hg; [|discriminate].
      destruct (checked R G2 a) as [R1|] eqn:Ck; [|discriminate]. apply checked_is in Ck. subst R1. injection St as <- <-.
      destruct (hand_sim nm (rn R) G1 F1 a b true G2 Fs1 D1 Hg) as (ga & gb & Tk & Fs2). assert (gb = f1) by (destruct Tk; congruence). subst gb.
      eapply wp_mono; [eapply (setFast_wp s F v (nm a) A vv (nm b) B F1 ga f1 fuel); eauto; now rewrite Kv1|].
      intros r s' (-> & I' & Hn & Hm & Ho & X). split; auto. eexists nm, _.
      unfold with_handle, with_forest. cbn [rG rn rh ru]. rewrite Hrh0.
      refine (after_gen R E nm F s nm _ s' _ _ _ _ (inF F) _ zeroc S I' Fs2 _ _ X _ _ (pays_zero _ _) (mine_zero _ _) (length_setn _ _ _) _ _); auto.
      * lia.
      * intros y [-> | ->]; eapply nth_error_In; eauto.
      * intros h' o' k' v' H1 H2. rewrite nth_setn in H1. destruct (Nat.eqb_spec h' hv) as [->|Nh].
        -- rewrite Hrh0 in H1. injection H1 as <- <-. right. exists B. replace v' with vv by congruence. repeat (split; auto). discriminate.
        -- left. split; auto. destruct (Nat.eq_dec h' h) as [->|Nh2].
           ++ replace v' with v by congruence. rewrite Hm. symmetry. apply Hh.
           ++ apply Ho; intros ->; [apply Nh|apply Nh2]; eapply (nd_inj (eh E)); eauto; apply S.
      * intros y Hy1 Hy2. exfalso. apply (Sub y); auto. eapply take_in; eauto.
    + injection St as <- <-.
      eapply wp_mono; [eapply (setFast_into s F v A vv (nm b) B F1 fuel); eauto|].
      intros r s' (-> & I' & Hn & Hm & Ho & X). split; auto. exists nm, F1.
      unfold with_handle, with_forest. cbn [rG rn rh ru]. rewrite Hrh0. cbn [rG rn rh ru].
      assert (Nhh : h <> hv) by congruence. rewrite nth_setn. destruct (Nat.eqb_spec h hv) as [|_]; [contradiction|]. rewrite Hrh.
      refine (after_gen R E nm F s nm _ s' _ _ _ _ (inF F) _ zeroc S I' Fs1 _ _ X _ _ (pays_zero _ _) (mine_zero _ _) _ _ _); auto.
      * lia.
      * intros y [-> | ->]; eapply nth_error_In; eauto.
      * now rewrite !length_setn.
      * intros h' o' k' v' H1 H2. rewrite !nth_setn in H1. destruct (Nat.eqb_spec h' h) as [->|Nh].
        -- destruct (Nat.eqb_spec h hv) as [|_]; [contradiction|]. rewrite Hrh in H1. injection H1 as <- <-. right. exists A. replace v' with v by congruence.
           split; auto. split; auto. intros y Hy. injection Hy as <-. eapply fs_bound; eauto; apply S.
        -- destruct (Nat.eqb_spec h' hv) as [->|Nv].
           ++ rewrite Hrh0 in H1. injection H1 as <- <-. right. exists B. replace v' with vv by congruence. repeat (split; auto). discriminate.
           ++ left. split; auto. apply Ho; intros ->; [apply Nv|apply Nh]; eapply (nd_inj (eh E)); eauto; apply S.
      * intros y Hy1 Hy2. elim (Sub y); auto.
  - destruct (reads_as R b) as [j|] eqn:Er; [|discriminate]. destruct (spend R kv _) as [R1|] eqn:Sp; [|discriminate]. spent S HB Sp ru' Py Le.
    cbn [rn] in St. rewrite <- Ikb in Py, Le. assert (Rd : reads F (nm b) j) by (eapply read_reads; [apply S|exact Er]).
    destruct w as [[a ta]|]; cbn [option_map fst snd wopt] in *.
    + node Himg a ta fa Ga Fa Ika Iva Ipa. pose proof (fs_bound _ _ _ _ _ _ (sm_fs _ _ _ _ _ S) Ga) as Ba.
      destruct (hand _ a (rn R) false) as [G2|] eqn:Hg; [|discriminate]. injection St as <- <-.
      eapply wp_mono; [eapply (set_wp s F v (nm a) A vv (nm b) B fa fb j fuel); eauto; lia|].
      intros r s' (-> & s1 & F1 & n & F' & Cp & (fn & Fn & Tk & ->) & I' & _ & X). split; auto.
      destruct (copied_grow R E nm F s b tb j s1 F1 n S Gb Cp) as (nm' & n' & Ln & Ag & En & Gr).
      destruct (Gr ru') as (G1 & Ed & Fs1 & _ & Rt). rewrite Ed in Hg |- *. cbn [rG] in Hg. unfold with_forest. cbn [rn rh ru].
      destruct (hand_sim nm' n' G1 F1 a (rn R) false G2 Fs1 (i_dom _ _ (cp_inv _ _ _ _ _ _ _ Cp)) Hg) as (ga & gb & Tk' & Fs2). rewrite En, (Ag a Ba) in *.
      assert (ga = fa) by (destruct Tk, Tk'; congruence). assert (gb = fn) by (destruct Tk, Tk'; congruence). subst ga gb. eexists nm', _.
      refine (after_gen R E nm F s nm' _ s' _ _ _ _ (inF F) none _ S I' Fs2 Ag _ X _ _ Py (mine_at _ _ _ _ HiA0) eq_refl _ _); auto.
      * lia.
      * intros y [].
      * intros. left. eapply same_handles; eauto.
      * intros y H1 H2. apply (cp_fresh _ _ _ _ _ _ _ Cp); auto. eapply take_in; eauto.
    + injection St as <- <-.
      eapply wp_mono; [eapply (set_into s F v A vv (nm b) B fb j fuel); eauto; lia|].
      intros r s' (-> & s1 & F1 & n & Cp & I' & Hn & Ho & X). split; auto.
      destruct (copied_grow R E nm F s b tb j s1 F1 n S Gb Cp) as (nm' & n' & Ln & Ag & En & Gr).
      destruct (Gr ru') as (G1 & Ed & Fs1 & _ & Rt). rewrite Ed. unfold with_handle. cbn [rG rn rh ru]. rewrite Hrh. exists nm', F1.
      refine (after_gen R E nm F s nm' F1 s' _ _ _ _ none (only v) _ S I' Fs1 Ag _ X _ _ Py (mine_at _ _ _ _ HiA0) (length_setn _ _ _) _ (cp_fresh _ _ _ _ _ _ _ Cp)).
      * lia.
      * intros y [].
      * intros y ->. eapply nth_error_In; eauto.
      * eapply (set_handles R E nm F s h None k v A nm' (Some (rn R)) n' s'); eauto; [cbn; now rewrite En|]. intros y Hy. injection Hy as <-. lia.
Qed.

Theorem step c : simulated jd c.
Proof.
  destruct c; auto using step_newAllocator, step_newValue, step_parse, step_setNull, step_setBool, step_setCont, step_setText, step_setInt, step_setLong, step_setLongLong,
    step_setDouble, step_setEscape, step_setKey, step_setKeyEscape, step_type, step_size, step_isNull, step_getBool, step_getText, step_getUnEscape,
    step_getInt, step_getLong, step_getLongLong, step_getDouble, step_getKey, step_getUnEscapeKey, step_stringify, step_objGet, step_arrayGet, step_begin, step_next, step_copy, step_move, step_add, step_set,
    step_arrayDel, step_objDel.
Qed.
End Steps.
