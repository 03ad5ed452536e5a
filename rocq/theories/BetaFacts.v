(** Single calls of the beta header (Beta.v), in the vocabulary of the properties. *)
From Verif Require Import Base Spec Lex LexProofs Alloc AllocProofs Mem MemProofs Api PureParse Dom Effect Steps SetProofs ParseTop Vocab ParseFacts
  CacheProofs CopyProofs LinkProofs MoveProofs TreeFacts StringifyProofs PrintFacts EscProofs Double DoubleProofs DoubleFacts SetFacts ReadFacts GetProofs Beta BetaProofs BetaCalls.
From Verif Require OverRead.

(** The value object [v] remembers nothing. *)
Definition blank (B : bmem) (v : addr) : bmem := setC B v (mkC Null ANull Null Null).
(** [m] accepts exactly the JSON texts and leaves the memories [B'] of the value objects. *)
Definition bjudges (m : M (bool * bmem)) (s : st) (t : bytes) (B' : bmem) : Prop :=
  (valid t -> exists s', m s = Ok ((true, B'), s')) /\
  (forall r B1 s', m s = Ok ((r, B1), s') -> B1 = B' /\ (r = true <-> valid t)) /\
  (forall e, m s = Err e -> e = EOob).

Section WithVol.
Context {VV : vols}.

(** The whole block from [src] on holds [t], its terminator and [slack], and stays. *)
Definition stays (s : st) (src : addr) (t slack : bytes) : Prop :=
  ~ In 0 t /\ text_at s src = t ++ 0 :: slack /\ sbsize s (fst src) = Some (snd src + lenN (t ++ 0 :: slack)) /\ safetext s src (t ++ 0 :: slack).

Lemma clearing_ok {X} B v (m : M X) s x s' : m s = Ok (x, s') -> clearing B v m s = Ok ((x, blank B v), s').
Proof. intro E. unfold clearing, bind. now rewrite E. Qed.
Lemma clearing_inv {X} B v (m : M X) s x B' s' : clearing B v m s = Ok ((x, B'), s') -> m s = Ok (x, s') /\ B' = blank B v.
Proof. unfold clearing, bind. destruct (m s) as [[y s1]|e]; [|discriminate]. unfold ret. intro E. injection E as <- <- <-. auto. Qed.
Lemma clearing_err {X} B v (m : M X) s e : clearing B v m s = Err e <-> m s = Err e.
Proof. unfold clearing, bind. destruct (m s) as [[y s1]|e']; split; intro E; try discriminate; congruence. Qed.
Lemma clearing_judges B v m s t : judges m s t -> bjudges (clearing B v m) s t (blank B v).
Proof.
  intros (J1 & J2 & J3). split; [|split].
  - intro V. destruct (J1 V) as (s' & E). exists s'. now apply clearing_ok.
  - intros r B1 s' E. apply clearing_inv in E as [E ->]. split; auto. eapply J2; eauto.
  - intros e E. apply J3. now apply clearing_err in E.
Qed.

Section Calls.
Context (s : st) (F : dom) (v : addr) (w : word) (A : N) (B : bmem).
Hypotheses (I : inv s F) (H : handle s F v w A).

Lemma bparseFast_ag src t sl : stays s src t sl -> room s A (72 * (lenN t + 2)) ->
  agree (parse_fast true v src) s (ptop (t ++ 0 :: sl)) (pf_post s F v w A (72 * (lenN t + 2))).
Proof.
  intros (N0 & Ht & _ & Hs) Hr. apply safetext_app in Hs as [Hs _].
  eapply agree_weaken; [eapply (parse_fast_more true); eauto|]. intros y x s'. apply pf_more_post.
Qed.
Lemma bparseLen_ag src t sl len : stays s src t sl -> len <= lenN (t ++ 0 :: sl) -> room s A (len + 1 + 72 * (lenN t + 2)) ->
  agree (z_parse_len v src len) s (ptop (t ++ 0 :: sl)) (pf_post s F v w A (len + 1 + 72 * (lenN t + 2))).
Proof.
  intros (N0 & Ht & Hz & Hs) Hl Hr.
  eapply agree_weaken; [eapply (zparseLen_finished s F v w A src t sl len (firstn (N.to_nat len) (t ++ 0 :: sl))); eauto|].
  - split; auto.
  - apply (fun K => K). intros i x E. apply (proj1 Hs). rewrite <- (firstn_skipn (N.to_nat len) (t ++ 0 :: sl)), nth_error_app1; auto.
    apply nth_error_Some. congruence.
  - unfold lenN in *. rewrite firstn_length. lia.
  - intros y x s'. apply pf_more_post.
Qed.
Lemma bparse_ag src t sl : stays s src t sl -> room s A (lenN t + 1 + 72 * (lenN t + 2)) ->
  agree (z_parse v src) s (ptop (t ++ 0 :: sl)) (pf_post s F v w A (lenN t + 1 + 72 * (lenN t + 2))).
Proof.
  intros (N0 & Ht & Hz & Hs) Hr. eapply agree_weaken; [eapply (zparse_finished s F v w A src t sl); eauto; split; auto|]. intros y x s'. apply pf_more_post.
Qed.

(** What a parse call does with the text [t], [k] readable bytes behind its terminator. *)
Definition bparses (m : M (bool * bmem)) (t : bytes) (k : nat) : Prop :=
  bjudges m s t (blank B v) /\
  (forall j, json_text t j -> exists s' F', m s = Ok ((true, blank B v), s') /\ assigned s F v w j s' F') /\
  (forall B' s', m s = Ok ((false, B'), s') -> untouched s F s') /\
  (m s = Err EOob <-> cut_literal t k).
Lemma bparses_here m k t sl : ~ In 0 t -> agree m s (ptop (t ++ 0 :: sl)) (pf_post s F v w A k) -> bparses (clearing B v m) t (length sl).
Proof.
  intros N0 Ag. split; [|split; [|split]].
  - apply clearing_judges. eapply judges_here; eauto.
  - intros j J. destruct (ok_here m s F v w A _ t sl Ag j J) as (s' & F' & a & E & P). exists s', F'. split; [now apply clearing_ok|]. eapply parsed_assigned; eauto.
  - intros B' s' E. apply clearing_inv in E as [E _]. eapply ext_untouched; auto. eapply reject_here; eauto.
  - rewrite clearing_err. apply (OverRead.outcome_exact m s _ t sl N0 Ag).
Qed.
Lemma bparseFast src t sl : stays s src t sl -> room s A (72 * (lenN t + 2)) -> bparses (z_ValueParseFast B v src) t (length sl).
Proof. intros K R. eapply bparses_here; [apply K|]. now apply bparseFast_ag. Qed.
Lemma bparse src t sl : stays s src t sl -> room s A (lenN t + 1 + 72 * (lenN t + 2)) -> bparses (z_ValueParse B v src) t (length sl).
Proof. intros K R. eapply bparses_here; [apply K|]. now apply bparse_ag. Qed.
Lemma bparseLen src t sl len : stays s src t sl -> len <= lenN (t ++ 0 :: sl) -> room s A (len + 1 + 72 * (lenN t + 2)) ->
  bparses (z_ValueParseLen B v src len) t (length sl).
Proof. intros K L R. eapply bparses_here; [apply K|]. now apply bparseLen_ag. Qed.
End Calls.

(** ** z_ValueSetNum *)
Lemma if_set_ok B v m s r s' : m s = Ok (r, s') -> if_set B v m s = Ok ((r, if r then blank B v else B), s').
Proof. intro E. unfold if_set, bind. now rewrite E. Qed.
Lemma if_set_inv B v m s r B' s' : if_set B v m s = Ok ((r, B'), s') -> m s = Ok (r, s').
Proof. unfold if_set, bind. destruct (m s) as [[y s1]|e]; [|discriminate]. unfold ret. intro E. injection E as <- _ <-. reflexivity. Qed.
Lemma bsetNum_finite s F v w A B d : inv s F -> handle s F v w A -> is_double d -> finite d -> room s A 104 ->
  exists s' F', z_ValueSetNum B v d s = Ok ((true, blank B v), s') /\ assigned s F v w (JNum (g17 d)) s' F'.
Proof.
  intros I H D Fi R. destruct (zsetNum_wp s F v w A d I H D R) as (r & s' & E & K & _). destruct (K Fi) as (-> & F' & a & n & p & Pd & _).
  exists s', F'. split; [exact (if_set_ok B v _ s true s' E)|]. eapply parsed_assigned; eauto.
Qed.
Lemma bsetNum_infinite s F v w A B d : inv s F -> handle s F v w A -> is_double d -> ~ finite d -> room s A 104 ->
  exists s', z_ValueSetNum B v d s = Ok ((false, B), s') /\ untouched s F s'.
Proof.
  intros I H D Fi R. destruct (zsetNum_wp s F v w A d I H D R) as (r & s' & E & _ & K). destruct (K Fi) as (-> & X & _).
  exists s'. split; [exact (if_set_ok B v _ s false s' E)|]. eapply ext_untouched; eauto.
Qed.
(** ... and z_ValueGetNum of it *)
Lemma bsetNum_back s F v w A B d : inv s F -> handle s F v w A -> is_double d -> finite d -> room s A 112 ->
  exists s1 F1 p s2, z_ValueSetNum B v d s = Ok ((true, blank B v), s1) /\ assigned s F v w (JNum (g17 d)) s1 F1 /\
    z_ValueGetNum (blank B v) v s1 = Ok ((Some (p, Some d), put_alt (blank B v) v (ANum p d)), s2) /\ untouched s1 F1 s2.
Proof.
  intros I H D Fi R. unfold room in R. destruct (zsetNum_wp s F v w A d I H D) as (r & s1 & E & K & _); [lia|].
  destruct (K Fi) as (-> & F1 & a & n & q & P & Hn & Ep & Hp).
  destruct (parsed_here s F v w A H _ _ _ _ _ P) as (I' & O' & R' & f & Fa).
  destruct (holds_text s1 q _ (i_wf _ _ I') (proj1 Hp)) as (r & Et). rewrite <- app_assoc in Et. cbn [app] in Et.
  assert (Hc : ends 0) by (unfold ends, is_digit; lia).
  pose proof (x_used _ _ _ _ _ (pd_ext _ _ _ _ _ _ _ _ _ _ P) A) as Us. rewrite at_eq in Us.
  assert (Ev : fvalue f = VNum (g17 d)) by (inversion R'; subst; try congruence; destruct ob; discriminate).
  assert (Ec : cAlt (blank B v v) = ANull) by (unfold blank, setC; now destruct (addr_eqb_spec v v)).
  destruct (zgetNum_miss s1 F1 v A (blank B v) I' a f O' Fa (g17 d) (g17 d ++ 0 :: r) d Ev Ec) as (x & s2 & E2 & p & -> & X2).
  - lia.
  - now destruct (g17 d).
  - now apply atof_g17.
  - intros m p Hm Eq. congruence.
  - exists s1, F1, p, s2. split; [exact (if_set_ok B v _ s true s1 E)|]. split; [eapply parsed_assigned; eauto|]. split; auto. eapply ext_untouched; eauto.
Qed.

(** ** The getters that remember *)
Section Get.
Context (s : st) (F : dom) (v a : addr) (A : N) (B : bmem).
Hypotheses (I : inv s F) (O : on s F v a A).
(** A getter of a text that is there: [c] is what it remembers.  A remembered answer is
    given again; otherwise the text [o] is copied, at most [k] bytes are allocated, and the
    copy is remembered: the memories are then [put p]. *)
Definition answers (m : M (option word * bmem)) (c : word) (o : bytes) (put : addr -> bmem) : Prop :=
  (forall p, c = At p -> m s = Ok ((Some (At p), B), s)) /\
  (c = Null -> exists p s', m s = Ok ((Some (At p), put p), s') /\ holds s' p (o ++ [0]) /\ untouched s F s').
Lemma fetched_answers m c put k o : c <> Undef -> wp m s (fetched s A B c put k (Some o)) -> answers m c o (fun p => put (At p)).
Proof.
  intros Nu (r & s' & E & K). cbn in K. split.
  - intros p ->. destruct K as [-> ->]. exact E.
  - intros ->. destruct K as (p & -> & X & Fl). exists p, s'. split; auto. split; [exact (proj1 (fl_safe _ _ _ _ Fl))|]. eapply ext_untouched; eauto.
Qed.
Lemma bgetText num f b : F a = Some f -> fvalue f = (if num : bool then VNum b else VStr b) -> cStr (B v) <> Undef -> room s A (lenN b + 1) ->
  answers (if num then z_ValueGetNumStr B v else z_ValueGetString B v) (cStr (B v)) b (fun p => put_str B v (At p)).
Proof.
  intros Fa Ev Nu R. assert (Ft : ftext (if num then TNumber else TString) (fvalue f) = Some b) by (rewrite Ev; now destruct num).
  pose proof (zgetText_wp s F v A B I a f O Fa (if num then TNumber else TString)) as W. rewrite Ft in W.
  apply (fetched_answers _ _ (put_str B v) (lenN b + 1) b Nu). destruct num; apply W; auto; intros b' _ [= <-]; exact R.
Qed.
Lemma bgetKey b : key_at F a (Some b) -> cKey (B v) <> Undef -> room s A (lenN b + 1) ->
  answers (z_ValueGetKey B v) (cKey (B v)) b (fun p => put_ckey B v (At p)).
Proof.
  intros (f & Fa & Ek) Nu R. pose proof (zgetKey_wp s F v A B I a f O Fa Nu) as W. rewrite Ek in W.
  apply (fetched_answers _ _ (put_ckey B v) (lenN b + 1) b Nu). apply W. intros b' _ [= <-]. exact R.
Qed.
Lemma bgetUnEscapeKey b d : key_at F a (Some b) -> decodes b d -> cUn (B v) <> Undef -> room s A (lenN b + 1) ->
  answers (z_ValueGetUnEscapeKey B v) (cUn (B v)) d (fun p => put_un B v (At p)).
Proof.
  intros (f & Fa & Ek) Hd Nu R. apply (fetched_answers _ _ (put_un B v) (lenN b + 1) d Nu). apply (zgetUnEscapeKey_wp s F v A B I a f O Fa b d); auto.
Qed.
Definition alt_word (x : alt) : word := match x with AUndef => Undef | ANull => Null | AText p | ANum p _ => At p end.
Lemma bgetUnEscape f b d : F a = Some f -> fvalue f = VStr b -> decodes b d -> room s A (lenN b + 1) ->
  answers (z_ValueGetUnEscapeString B v) (alt_word (cAlt (B v))) d (fun p => put_alt B v (AText p)).
Proof.
  intros Fa Ev Hd R. split.
  - intros p Ec. destruct (zgetUnEscape_hit s F v A B I a f O Fa b p Ev) as (r & s' & E & -> & ->); auto.
    destruct (cAlt (B v)) as [| |q|q x]; try discriminate; injection Ec as ->; eauto.
  - intro Ec. destruct (cAlt (B v)) as [| |q|q x] eqn:Ea; try discriminate.
    destruct (zgetUnEscape_miss s F v A B I a f O Fa b d Ev Ea Hd R) as (r & s' & E & p & -> & X & Fl).
    exists p, s'. split; auto. split; [exact (proj1 (fl_safe _ _ _ _ Fl))|]. eapply ext_untouched; eauto.
Qed.
Lemma bgetNum_again f b p : F a = Some f -> fvalue f = VNum b -> alt_word (cAlt (B v)) = At p ->
  z_ValueGetNum B v s = Ok ((Some (p, match cAlt (B v) with ANum _ d => Some d | _ => None end), B), s).
Proof.
  intros Fa Ev Ec. destruct (zgetNum_hit s F v A B I a f O Fa b p (match cAlt (B v) with ANum _ d => Some d | _ => None end) Ev) as (r & s' & E & -> & ->); auto.
  destruct (cAlt (B v)) as [| |q|q x]; try discriminate; injection Ec as ->; eauto.
Qed.
End Get.

(** ** z_ValueSet and z_ValueSetFast *)
Lemma newkey_value F a fa fb x f : F a = Some fa -> newkey F a fa fb x = Some f -> exists f0, F x = Some f0 /\ fvalue f = fvalue f0 /\ (x <> a -> f = f0).
Proof.
  intros Fa H. destruct (addr_dec x a) as [->|N].
  - rewrite newkey_at in H by auto. injection H as <-. exists fa. split; auto. split; [|intro K; now elim K]. unfold rekeyed. destruct (fkey fa), (fkey fb); reflexivity.
  - rewrite newkey_other in H by auto. exists f. auto.
Qed.
Lemma newkey_below F a fa fb x y : F a = Some fa -> below (newkey F a fa fb) x y -> below F x y.
Proof.
  intros Fa H. induction H as [|y f ob kids z H IH E V Z]; [constructor|]. destruct (newkey_value _ _ _ _ _ _ Fa E) as (f0 & E0 & V0 & _).
  apply (bl_kid F x y f0 ob kids z); auto. congruence.
Qed.
Lemma newkey_reads F a fa fb x j : F a = Some fa -> ~ below F x a -> reads F x j -> reads (newkey F a fa fb) x j.
Proof.
  intros Fa Nb R. eapply reads_frame; eauto.
  - intros y f E By. exists f. split; auto. rewrite newkey_other; auto. intros ->. auto.
  - intros y f f' E E' By. rewrite newkey_other in E'; [congruence|]. intros ->. apply Nb. now apply sbelow_below.
Qed.
(** The key afterwards: the one of the source if both have one. *)
Definition taken_key (ka kb : option bytes) : option bytes := match ka, kb with Some _, Some _ => kb | _, _ => ka end.
Lemma rekeyed_key fa fb : fkey (rekeyed fa fb) = taken_key (fkey fa) (fkey fb).
Proof. unfold rekeyed, taken_key. destruct (fkey fa) eqn:Ea, (fkey fb) eqn:Eb; auto. Qed.
Lemma take_newkey F a b fa fb fe e j : wfdom F -> wfdom (newkey F a fa fb) -> takable F a b fa fb -> fe = None \/ (e = b /\ fe = fend fb) ->
  reads F b j -> ~ below F b a ->
  let F' := take (newkey F a fa fb) a b (rekeyed fa fb) fb fe in
  reads F' a j /\ key_at F' a (taken_key (fkey fa) (fkey fb)) /\
  (forall x k, x <> a -> x <> b -> key_at F x k -> key_at F' x k).
Proof.
  intros W Wn Tk Hfe Rb Nb F'. subst F'. pose proof (newkey_takable _ _ _ _ _ Tk) as Tk'. pose proof (tb_a _ _ _ _ _ Tk) as Fa.
  destruct (take_facts _ a b _ fb fe e j Wn Tk' Hfe (newkey_reads _ _ _ _ _ _ Fa Nb Rb)) as (_ & Rn & Ky & _).
  { intro K. apply Nb. eapply newkey_below; eauto. }
  split; auto. split.
  - destruct (Ky a (rekeyed fa fb) (newkey_at _ _ _ _ Fa) (tb_neq _ _ _ _ _ Tk)) as (f' & E & K). exists f'. split; auto. now rewrite K, rekeyed_key.
  - intros x k Na Nx (f & E & K). destruct (Ky x f) as (f' & E' & K'); auto; [now rewrite newkey_other|]. exists f'. split; auto. congruence.
Qed.
Lemma bset s F v a A vv b C j ka kb B : inv s F -> on s F v a A -> on s F vv b C -> key_at F a ka -> reads F b j -> key_at F b kb ->
  room s C (120 + icost (kb, j)) -> forall fuel, (Datatypes.S (jsteps j) <= fuel)%nat -> (length (items j) <= fuel)%nat ->
  exists s' F', z_ValueSet fuel B v vv s = Ok ((true, blank B v), s') /\ inv s' F' /\ on s' F' v a A /\ reads F' a j /\
    key_at F' a (taken_key ka kb) /\ (forall x k, x <> a -> key_at F x k -> key_at F' x k).
Proof.
  intros I Hv Hb (fa & Fa & Ka) Rb (fb & Fb & Kb) Rm fuel Hf Hf2.
  destruct (zset_wp s F v a A vv b C fa fb j fuel I Hv Hb Fa Fb Rb) as (r & s' & E & -> & s1 & F1 & n & F' & Cn & (fn & Fn & Tk & ->) & I' & So & X); auto.
  { unfold room in Rm. rewrite Kb. lia. }
  { rewrite (reads_kids F b j fb Rb Fb). destruct j; cbn in *; rewrite ?map_length in Hf2; lia. }
  pose proof (copied_cloned _ _ _ _ _ _ _ I Cn) as Cl. pose proof (i_dom _ _ (cp_inv _ _ _ _ _ _ _ Cn)) as W1.
  assert (Nb : ~ below F1 n a) by (intro K; apply (cl_apart _ _ _ _ _ Cl) in K; congruence).
  assert (Nn : forall x, F x <> None -> x <> n) by (intros x Hx ->; apply Hx, Cl).
  destruct (take_newkey F1 a n fa fn None n j W1) as (Rn & Ky & Ko); auto; [|apply Cl|].
  { destruct (fkey fa) eqn:E1, (fkey fn) eqn:E2; unfold newkey; rewrite ?E1, ?E2; auto. apply setkey_wfdom'; auto; [apply Tk|congruence]. }
  destruct (cl_key _ _ _ _ _ Cl kb (ex_intro _ fb (conj Fb Kb))) as (fn' & En & Kn). assert (fn' = fn) by congruence. subst fn'.
  rewrite Ka, Kn in Ky.
  exists s', (take (newkey F1 a fa fn) a n (rekeyed fa fn) fn None). split; [exact (if_set_ok B v _ s true s' E)|]. split; auto. split; [|split; [auto|split; [auto|]]].
  - destruct Hv as (Hv & [Al NA] & _). split; [now apply So|]. split; [split; [now apply (x_alive _ _ _ _ _ X)|auto]|]. right. exists a. split; auto.
    destruct Ky as (f & Ef & _). congruence.
  - intros x k Nx (f & Ex & Kx). apply Ko; auto; [apply Nn; congruence|]. exists f. split; auto. now apply (cl_old _ _ _ _ _ Cl).
Qed.
Lemma bsetFast s F v a A vv b C j ka kb B : inv s F -> on s F v a A -> on s F vv b C -> key_at F a ka -> reads F b j -> key_at F b kb ->
  movable F b -> ~ below F b a -> forall fuel, (length (items j) <= fuel)%nat ->
  exists s' F', z_ValueSetFast fuel B v vv s = Ok ((true, blank (blank B v) vv), s') /\ inv s' F' /\ on s' F' v a A /\ empty s' F' vv C /\ reads F' a j /\
    key_at F' a (taken_key ka kb) /\ (forall x k, x <> a -> x <> b -> key_at F x k -> key_at F' x k).
Proof.
  intros I Hv Hb (fa & Fa & Ka) Rb (fb & Fb & Kb) Mv Nb fuel Hf. pose proof (i_dom _ _ I) as W.
  assert (Da : F a <> None) by congruence.
  destruct (movable_removed F b j W Mv Rb) as (F1 & Rm & To).
  assert (Nab : a <> b) by (intros ->; apply Nb; constructor).
  assert (W1 : wfdom F1) by (eapply removed_wfdom; eauto).
  destruct (removed_root F b F1 W Rm) as (fb0 & fb1 & Fb0 & Fb1 & Kb1 & Vb1 & _ & Pb1 & _). assert (fb0 = fb) by congruence. subst fb0.
  assert (Keys : forall x k, key_at F x k -> key_at F1 x k).
  { intros x k (f & Ef & Kf). destruct To as (_ & _ & [[_ ->]|(p & i & k0 & jp & _ & _ & _ & Rd)] & _); [exists f; auto|].
    destruct (rw_keys _ _ _ _ _ _ Rd x f Ef) as (f' & E' & K'); auto. exists f'. split; auto. congruence. }
  destruct (Keys a ka (ex_intro _ fa (conj Fa Ka))) as (fa1 & Fa1 & Ka1).
  assert (Nb1 : ~ below F1 b a) by (intro K; apply Nb; eapply removed_below; eauto).
  assert (Tk : takable F1 a b fa1 fb1).
  { constructor; auto. intro K. apply Nb1. eapply kids_kid; eauto. }
  destruct (zsetFast_wp s F v a A vv b C F1 fa1 fb1 fuel I Hv Hb Rm Tk) as (r & s' & E & -> & I' & Vv & V' & O & X).
  { rewrite Vb1, (reads_kids F b j fb Rb Fb). destruct j; cbn in *; rewrite ?map_length in Hf; lia. }
  destruct (take_newkey F1 a b fa1 fb1 (fend fb1) b j W1) as (Rn & Ky & Ko); auto; [|apply To|].
  { destruct (fkey fa1) eqn:E1, (fkey fb1) eqn:E2; unfold newkey; rewrite ?E1, ?E2; auto. apply setkey_wfdom'; auto. congruence. }
  rewrite Ka1, Kb1, Kb in Ky.
  exists s', (take (newkey F1 a fa1 fb1) a b (rekeyed fa1 fb1) fb1 (fend fb1)). split; [unfold z_ValueSetFast, bind; rewrite E; reflexivity|]. split; auto.
  destruct Hv as (Hv & [Al NA] & _). destruct Hb as (Hb & [Al2 NA2] & _).
  split; [|split; [|split; [auto|split; [auto|]]]].
  - split; auto. split; [split; [now apply (x_alive _ _ _ _ _ X)|auto]|]. right. exists a. split; auto. destruct Ky as (f & Ef & _). congruence.
  - split; auto. split; [split; [now apply (x_alive _ _ _ _ _ X)|auto]|]. now left.
  - intros x k Na Nx Kx. apply Ko; auto.
Qed.
End WithVol.
