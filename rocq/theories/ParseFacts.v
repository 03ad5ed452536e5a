(** Parsing: the lemmas behind the properties. *)
From Verif Require Import Base Spec Lex LexProofs Alloc AllocProofs Mem MemProofs Api PureParse SpecProofs
  Dom Effect Steps SetProofs ParseTop Vocab.

Lemma grammar_no0 :
  (forall t j, jvalue t j -> ~ In 0 t) /\ (forall t js, jelems t js -> ~ In 0 t) /\ (forall t ms, jmembers t ms -> ~ In 0 t).
Proof.
  assert (W := ws_no0). assert (S := strbody_no0). assert (Nn := number_no0).
  apply json_mutind; intros; repeat (rewrite in_app_iff || cbn [In]); try (apply Nn; assumption);
    repeat match goal with
    | H : ws _ |- _ => apply W in H
    | H : strbody _ |- _ => apply S in H
    end; try (change (txt "null") with [110;117;108;108]); try (change (txt "true") with [116;114;117;101]);
    try (change (txt "false") with [102;97;108;115;101]); cbn [In];
    intuition (try discriminate).
Qed.
Lemma json_text_no0 t j : json_text t j -> ~ In 0 t.
Proof.
  intros (w1 & b & w2 & H1 & H2 & H3 & ->). rewrite !in_app_iff.
  apply ws_no0 in H1, H3. apply grammar_no0 in H2. tauto.
Qed.
Lemma split0 t t' r r' : ~ In 0 t -> ~ In 0 t' -> t ++ 0 :: r = t' ++ 0 :: r' -> t = t' /\ r = r'.
Proof.
  revert t'. induction t as [|x t IH]; intros [|y t'] H H' E; cbn in *; injection E.
  - auto.
  - intros _ <-. tauto.
  - intros _ ->. tauto.
  - intros E' ->. destruct (IH t') as [-> ->]; auto.
Qed.
Lemma before0_no0 b : ~ In 0 (before0 b).
Proof. induction b as [|c b IH]; cbn; auto. destruct (N.eqb_spec c 0); cbn; auto. intros [K|K]; auto. Qed.
Lemma before0_split b r : exists r', b ++ 0 :: r = before0 b ++ 0 :: r' /\ (length r <= length r')%nat.
Proof.
  induction b as [|c b IH]; cbn; [eauto|]. destruct (N.eqb_spec c 0) as [->|N].
  - cbn. exists (b ++ 0 :: r). rewrite app_length. cbn. split; auto. lia.
  - destruct IH as (r' & -> & L). exists r'. auto.
Qed.
Lemma before0_id t : ~ In 0 t -> before0 t = t.
Proof.
  induction t as [|c t IH]; cbn; auto. intro H. destruct (N.eqb_spec c 0) as [->|N]; [tauto|]. f_equal. tauto.
Qed.
Lemma slack_roomy t slack : slack_ok t (length slack) -> roomy (t ++ 0 :: slack).
Proof.
  intro H. exists t, slack. split; auto. intros a c b E. destruct (H a c b E) as [H1 H2].
  split; intro K; [specialize (H1 K)|specialize (H2 K)]; lia.
Qed.
Lemma slack3 t k : (3 <= k)%nat -> slack_ok t k.
Proof. intros H a c b _. split; intros; lia. Qed.
Lemma slack_none t k : ~ In 110 t -> ~ In 116 t -> ~ In 102 t -> slack_ok t k.
Proof.
  intros H1 H2 H3 a c b ->. rewrite in_app_iff in *. cbn [In] in *. split; intro K; exfalso; intuition.
Qed.

Section WithVol.
Context {VV : vols}.

Lemma sound_here t slack j : ~ In 0 t -> ptop (t ++ 0 :: slack) = Ok (Some j) -> json_text t j.
Proof.
  intros N0 H. apply ptop_sound in H as (t' & sl' & E & J). apply split0 in E as [-> _]; auto. eapply json_text_no0; eauto.
Qed.

Section Outcome.
Context (m : M bool) (s : st) (F : dom) (v : addr) (w : word) (A k : N) (t slack : bytes).
Hypothesis N0 : ~ In 0 t.
Hypothesis Ag : agree m s (ptop (t ++ 0 :: slack)) (pf_post s F v w A k).

Lemma ok_here j : json_text t j -> exists s' F' a, m s = Ok (true, s') /\ parsed s F v w A (at_ A k) j s' F' a.
Proof.
  intro J. rewrite (ptop_complete t j slack J) in Ag. destruct Ag as (b & s' & E & -> & F' & a & P). eauto 6.
Qed.
Lemma judges_here : judges m s t.
Proof.
  split; [|split].
  - intros [j J]. destruct (ok_here j J) as (s' & F' & a & E & _). eauto.
  - intros r s' E. split.
    + intros ->. destruct (ptop (t ++ 0 :: slack)) as [[j|]|e] eqn:Ep; cbn in Ag.
      * exists j. now apply (sound_here t slack).
      * destruct Ag as (b & s2 & E' & -> & _). congruence.
      * congruence.
    + intros [j J]. destruct (ok_here j J) as (s2 & F' & a & E' & _). congruence.
  - intros e E. destruct (ptop (t ++ 0 :: slack)) as [o|e'] eqn:Ep; cbn in Ag.
    + destruct Ag as (b & s2 & E' & _). congruence.
    + assert (D : {e = EOob} + {e <> EOob}) by (decide equality). destruct D as [->|N]; auto. exfalso. apply (ptop_only_oob e N (t ++ 0 :: slack)). congruence.
Qed.
Lemma reject_here s' : m s = Ok (false, s') -> ext none none (at_ A k) s s'.
Proof.
  intro E. destruct (ptop (t ++ 0 :: slack)) as [[j|]|e] eqn:Ep; cbn in Ag.
  - destruct Ag as (b & s2 & E' & -> & _). congruence.
  - destruct Ag as (b & s2 & E' & -> & X). congruence.
  - congruence.
Qed.
Lemma total_here : slack_ok t (length slack) -> exists r s', m s = Ok (r, s').
Proof.
  intro H. apply slack_roomy, ptop_total in H as (o & Eo). rewrite Eo in Ag. destruct Ag as (b & s' & E & _). eauto.
Qed.
End Outcome.

Section Calls.
Context (s : st) (F : dom) (v : addr) (w : word) (A : N).
Hypotheses (I : inv s F) (H : handle s F v w A).

Lemma parse_ag src t : cstring s src t -> room s A (len_cost (lenN t)) ->
  agree (zj_Parse v src) s (ptop (t ++ [0])) (pf_post s F v w A (len_cost (lenN t))).
Proof. intros (N0 & sl & Ht) Hr. eapply parse_agree; eauto. Qed.
Lemma parseFast_ag src t sl : ~ In 0 t -> text_at s src = t ++ 0 :: sl -> safetext s src t -> room s A (72 * (lenN t + 2)) ->
  agree (zj_ParseFast v src) s (ptop (t ++ 0 :: sl)) (pf_post s F v w A (72 * (lenN t + 2))).
Proof. intros N0 Ht Hs Hr. eapply parseFast_agree; eauto. Qed.
Lemma parseLen_ag src bs sl : bs ++ [0] = before0 bs ++ 0 :: sl -> holds s src bs -> room s A (len_cost (lenN bs)) ->
  agree (zj_ParseLen v src (lenN bs)) s (ptop (before0 bs ++ 0 :: sl)) (pf_post s F v w A (len_cost (lenN bs))).
Proof. intros E Hs Hr. rewrite <- E. apply parseLen_agree; auto. Qed.
End Calls.

(** *** C01 *)
Lemma parse_judges s F v w A src t : inv s F -> handle s F v w A -> cstring s src t -> room s A (len_cost (lenN t)) ->
  judges (zj_Parse v src) s t /\ (slack_ok t 0 -> exists r s', zj_Parse v src s = Ok (r, s')).
Proof.
  intros I H C R. pose proof (parse_ag s F v w A I H src t C R) as Ag. destruct C as [N0 _]. split.
  - eapply judges_here; eauto.
  - exact (total_here _ s F v w A _ t [] Ag).
Qed.
Lemma parseFast_judges s F v w A src t : inv s F -> handle s F v w A -> kept s src t -> room s A (72 * (lenN t + 2)) ->
  judges (zj_ParseFast v src) s t /\
  (forall slack, text_at s src = t ++ 0 :: slack -> slack_ok t (length slack) -> exists r s', zj_ParseFast v src s = Ok (r, s')).
Proof.
  intros I H [[N0 (sl & Ht)] Hs] R. pose proof (parseFast_ag s F v w A I H src t sl N0 Ht Hs R) as Ag. split.
  - eapply judges_here; eauto.
  - intros sl' Ht'. rewrite Ht in Ht'. apply split0 in Ht' as [_ <-]; auto. eapply total_here; eauto.
Qed.
(** *** C02 *)
Lemma parse_builds s F v w A src t j : inv s F -> handle s F v w A -> cstring s src t -> room s A (len_cost (lenN t)) ->
  json_text t j -> exists s' F', zj_Parse v src s = Ok (true, s') /\ assigned s F v w j s' F'.
Proof.
  intros I H C R J. pose proof (parse_ag s F v w A I H src t C R) as Ag. destruct C as [N0 _].
  destruct (ok_here _ s F v w A _ t [] Ag j J) as (s' & F' & a & E & P). exists s', F'. split; auto.
  eapply parsed_assigned; eauto.
Qed.
Lemma parseFast_builds s F v w A src t j : inv s F -> handle s F v w A -> kept s src t -> room s A (72 * (lenN t + 2)) ->
  json_text t j -> exists s' F', zj_ParseFast v src s = Ok (true, s') /\ assigned s F v w j s' F'.
Proof.
  intros I H [[N0 (sl & Ht)] Hs] R J. pose proof (parseFast_ag s F v w A I H src t sl N0 Ht Hs R) as Ag.
  destruct (ok_here _ s F v w A _ t sl Ag j J) as (s' & F' & a & E & P). exists s', F'. split; auto.
  eapply parsed_assigned; eauto.
Qed.
Lemma parseLen_builds s F v w A src bs j : inv s F -> handle s F v w A -> holds s src bs -> room s A (len_cost (lenN bs)) ->
  json_text (before0 bs) j -> exists s' F', zj_ParseLen v src (lenN bs) s = Ok (true, s') /\ assigned s F v w j s' F'.
Proof.
  intros I H C R J. destruct (before0_split bs []) as (sl & Es & _).
  pose proof (parseLen_ag s F v w A I H src bs sl Es C R) as Ag.
  destruct (ok_here _ s F v w A _ _ sl Ag j J) as (s' & F' & a & E & P). exists s', F'. split; auto.
  eapply parsed_assigned; eauto.
Qed.
(** *** C04 *)
Lemma parse_fails s F v w A src t s' : inv s F -> handle s F v w A -> cstring s src t -> room s A (len_cost (lenN t)) ->
  zj_Parse v src s = Ok (false, s') -> untouched s F s'.
Proof.
  intros I H C R E. pose proof (parse_ag s F v w A I H src t C R) as Ag.
  eapply ext_untouched; auto. eapply reject_here; eauto.
Qed.
Lemma parseFast_fails s F v w A src t s' : inv s F -> handle s F v w A -> kept s src t -> room s A (72 * (lenN t + 2)) ->
  zj_ParseFast v src s = Ok (false, s') -> untouched s F s'.
Proof.
  intros I H [[N0 (sl & Ht)] Hs] R E. pose proof (parseFast_ag s F v w A I H src t sl N0 Ht Hs R) as Ag.
  eapply ext_untouched; auto. eapply reject_here; eauto.
Qed.
Lemma parseLen_fails s F v w A src bs s' : inv s F -> handle s F v w A -> holds s src bs -> room s A (len_cost (lenN bs)) ->
  zj_ParseLen v src (lenN bs) s = Ok (false, s') -> untouched s F s'.
Proof.
  intros I H C R E. destruct (before0_split bs []) as (sl & Es & _).
  pose proof (parseLen_ag s F v w A I H src bs sl Es C R) as Ag.
  eapply ext_untouched; auto. eapply reject_here; eauto.
Qed.
(** *** C08 *)
Lemma parseLen_judges s F v w A src bs : inv s F -> handle s F v w A -> holds s src bs -> room s A (len_cost (lenN bs)) ->
  judges (zj_ParseLen v src (lenN bs)) s (before0 bs) /\
  (slack_ok (before0 bs) (length bs - length (before0 bs)) -> exists r s', zj_ParseLen v src (lenN bs) s = Ok (r, s')).
Proof.
  intros I H C R. destruct (before0_split bs []) as (sl & Es & _).
  pose proof (parseLen_ag s F v w A I H src bs sl Es C R) as Ag. pose proof (before0_no0 bs) as N0. split.
  - eapply judges_here; eauto.
  - replace (length bs - length (before0 bs))%nat with (length sl); [eapply total_here; eauto|].
    apply (f_equal (@length N)) in Es. rewrite !app_length in Es. cbn in Es. lia.
Qed.
(** *** C36 *)
Lemma parse_child s F v a A src t j u b B p ju : inv s F -> on s F v a A -> cstring s src t -> room s A (len_cost (lenN t)) ->
  json_text t j -> on s F u b B -> path F b p a -> reads F b ju ->
  exists s' F', zj_Parse v src s = Ok (true, s') /\ inv s' F' /\ content s' F' v j /\ content s' F' u (jset p j ju) /\
    forall x k, key_is s F x k -> key_is s' F' x k.
Proof.
  intros I H C R J Hu Pa Ru. destruct (parse_builds s F v (At a) A src t j I H C R J) as (s' & F' & E & As).
  exists s', F'. split; auto. split; [apply As|]. split; [apply As|]. split; [|apply As].
  destruct (as_above _ _ _ _ _ _ _ As u b B p a ju eq_refl Hu Pa Ru) as [K1 K2]. exists b, B. auto.
Qed.
(** *** C37 *)
Lemma parse_spacing s F v w A src t j : inv s F -> handle s F v w A -> cstring s src t -> room s A (len_cost (lenN t)) ->
  json_ok j -> spaced (tokens j) t -> exists s' F', zj_Parse v src s = Ok (true, s') /\ assigned s F v w j s' F'.
Proof. intros I H C R Jo Sp. eapply parse_builds; eauto. now apply json_text_spaced. Qed.
End WithVol.
Section Total.
Context {VV : vols}.
Lemma parseFast_total s F v w A src t slack : inv s F -> handle s F v w A -> kept s src t -> room s A (72 * (lenN t + 2)) ->
  text_at s src = t ++ 0 :: slack ->
  (slack_ok t (length slack) \/ valid t -> exists r s', zj_ParseFast v src s = Ok (r, s')) /\
  (forall e, zj_ParseFast v src s = Err e -> e = EOob) /\
  ((3 <= length slack)%nat -> exists r s', zj_ParseFast v src s = Ok (r, s')).
Proof.
  intros I H K R Ht. destruct (parseFast_judges s F v w A src t I H K R) as [(J1 & J2 & J3) T]. split; [|split]; auto.
  - intros [S|V]; [eauto|]. destruct (J1 V) as (s' & E). eauto.
  - intro L. apply (T slack); auto. now apply slack3.
Qed.
Lemma parse_total s F v w A src t : inv s F -> handle s F v w A -> cstring s src t -> room s A (len_cost (lenN t)) ->
  (slack_ok t 0 \/ valid t -> exists r s', zj_Parse v src s = Ok (r, s')) /\
  (forall e, zj_Parse v src s = Err e -> e = EOob).
Proof.
  intros I H C R. destruct (parse_judges s F v w A src t I H C R) as [(J1 & J2 & J3) T]. split; auto.
  intros [S|V]; [eauto|]. destruct (J1 V) as (s' & E). eauto.
Qed.
Lemma parseLen_exact s F v w A src bs : inv s F -> handle s F v w A -> holds s src bs -> room s A (len_cost (lenN bs)) -> ~ In 0 bs ->
  judges (zj_ParseLen v src (lenN bs)) s bs /\
  (forall j, json_text bs j -> exists s' F', zj_ParseLen v src (lenN bs) s = Ok (true, s') /\ assigned s F v w j s' F').
Proof.
  intros I H C R N0. destruct (parseLen_judges s F v w A src bs I H C R) as [J _]. rewrite before0_id in J by auto. split; auto.
  intros j Jt. eapply parseLen_builds; eauto. now rewrite before0_id.
Qed.
End Total.
