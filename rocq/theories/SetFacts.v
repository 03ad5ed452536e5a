(** The setters at the level of JSON values. *)
From Verif Require Import Base Spec Lex LexProofs Alloc AllocProofs Mem MemProofs Api PureParse SpecProofs
  Dom Effect Steps StrBuf StringifyProofs ParseTop CacheProofs SetProofs IntProofs EscProofs Update KeyProofs GetProofs Vocab ReadFacts.

(** ** Changing the key of a member *)
(** [j] with [k] as the key of the member at position [p]. *)
Fixpoint jrekey (p : list nat) (k : bytes) (j : json) : json :=
  match p with
  | [] => j
  | i :: p' =>
      match j with
      | JArr l => JArr (upd_nth i (jrekey p' k) l)
      | JObj m => JObj (upd_nth i (fun kj => (match p' with [] => k | _ => fst kj end, jrekey p' k (snd kj))) m)
      | _ => j
      end
  end.
Lemma jrekey_container i p k ob items : jrekey (i :: p) k (container ob items) =
  container ob (upd_nth i (fun kj => (match p with [] => Some k | _ => fst kj end, jrekey p k (snd kj))) items).
Proof.
  destruct ob; simpl; f_equal; symmetry; apply upd_nth_map; destruct p; reflexivity.
Qed.
Lemma readsL_upd F F' kids items i c g : readsL F kids items -> NoDup kids -> nth_error kids i = Some c ->
  (forall c' fc j, In c' kids -> c' <> c -> F c' = Some fc -> reads F c' j ->
     exists fc', F' c' = Some fc' /\ fkey fc' = fkey fc /\ reads F' c' j) ->
  (forall fc j, F c = Some fc -> reads F c j ->
     exists fc', F' c = Some fc' /\ fkey fc' = fst (g (fkey fc, j)) /\ reads F' c (snd (g (fkey fc, j)))) ->
  readsL F' kids (upd_nth i g items).
Proof.
  intro R. revert i. induction R as [|c0 r fc j0 items K1 K2 K3 IH]; intros i ND Hi Ho Hc; [destruct i; discriminate|].
  inversion ND; subst. destruct i as [|i]; simpl in *.
  - injection Hi as ->. destruct (Hc fc j0 K1 K2) as (fc' & E1 & E2 & E3).
    destruct (g (fkey fc, j0)) as [k' j'] eqn:Eg. simpl in *. subst k'. constructor; auto.
    clear - K3 Ho H1. induction K3 as [|c1 r f1 j1 items K1 K2 K3 IH]; [constructor|].
    assert (N1 : c1 <> c) by (intros ->; apply H1; now left).
    destruct (Ho c1 f1 j1 (or_intror (or_introl eq_refl)) N1 K1 K2) as (f' & G1 & G2 & G3).
    rewrite <- G2. constructor; auto. apply IH; [|intro X; apply H1; now right]. intros c' fc0 j Hc'. apply Ho. destruct Hc' as [->|Hc']; simpl; auto.
  - destruct (Ho c0 fc j0) as (f' & G1 & G2 & G3); auto.
    { intros ->. apply H1. eapply nth_error_In; eauto. }
    rewrite <- G2. constructor; auto.
Qed.
(** [F'] is [F] but for the key of [a]. *)
Definition rekey (F F' : dom) (a : addr) (k : bytes) : Prop :=
  (forall x f, F x = Some f -> x <> a -> F' x = Some f) /\
  (forall f, F a = Some f -> exists f', F' a = Some f' /\ fkey f' = Some k /\ fvalue f' = fvalue f).
Lemma rekey_frame F F' a k x j : rekey F F' a k -> reads F x j -> ~ sbelow F x a -> reads F' x j.
Proof.
  intros [H1 H2] R N. eapply reads_frame; eauto.
  - intros b f Hb Hx. destruct (addr_dec b a) as [->|Nb].
    + destruct (H2 f Hb) as (f' & E1 & E2 & E3). eauto.
    + exists f. auto.
  - intros b f f' Hb Hb' Hs. assert (Nb : b <> a) by congruence. rewrite (H1 b f Hb Nb) in Hb'. congruence.
Qed.
Lemma rekey_path F F' a k : wfdom F -> rekey F F' a k ->
  forall x p j, path F x p a -> reads F x j -> reads F' x (jrekey p k j).
Proof.
  intros W C x p j P. revert j.
  induction P as [a|x f ob kids i c p a H1 H2 H3 P IH]; intros j R.
  { simpl. eapply rekey_frame; eauto. eapply (proj1 (reads_acyclic F)); eauto. }
  specialize (IH C).
  inversion R; subst; try congruence. rewrite H1 in H. injection H as <-. rewrite H2 in H0. injection H0 as <- <-.
  assert (Hac : ~ sbelow F x x) by (eapply (proj1 (reads_acyclic F)); eauto).
  assert (Hci : In c kids) by (eapply nth_error_In; eauto).
  assert (Nx : x <> a).
  { intros ->. apply Hac. exists f, ob, kids, c. repeat split; auto. eapply path_below; eauto. }
  rewrite jrekey_container. pose proof C as [C1 C2].
  apply (rd_cont F' x f ob kids); auto.
  assert (NDp : NoDup kids).
  { destruct (W x f H1) as [D1 _]. destruct (D1 ob kids H2) as [D2 _]. eapply chain_NoDup; eauto. }
  eapply readsL_upd; eauto.
  - intros c' fc j Hc' Nc Fc Rc.
    assert (Nb : ~ below F c' a).
    { intro B. apply Nc. eapply (kids_apart F x f ob kids); eauto. eapply path_below; eauto. }
    exists fc. split; [apply C1; auto; intros ->; apply Nb; constructor|]. split; auto.
    eapply rekey_frame; eauto. intro B. apply Nb. now apply sbelow_below.
  - intros fc j Fc Rc. cbn [fst snd]. specialize (IH j Rc). destruct p as [|i' p'].
    + inversion P; subst. destruct (C2 fc Fc) as (f' & E1 & E2 & E3). eauto.
    + exists fc. split; [|auto]. apply C1; auto. intros ->.
      inversion P as [|a' f1 ob1 kids1 i1 c1 p1 b1 Q1 Q2 Q3 Q4]; subst.
      apply (proj1 (reads_acyclic F) a j Rc). exists f1, ob1, kids1, c1. repeat split; auto.
      * eapply nth_error_In; eauto.
      * eapply path_below; eauto.
Qed.

(** ** Which bodies the setters accept: an escape from E000 to FFFF occurs in [b]. *)
Definition high_u_escape (b : bytes) : Prop :=
  exists x y c1 c2 c3 c4 v, b = x ++ 92 :: 117 :: c1 :: c2 :: c3 :: c4 :: y /\ hex4 c1 c2 c3 c4 v /\ 57344 <= v.
Lemma high_u_app p b : ~ high_u_escape (p ++ b) -> ~ high_u_escape b.
Proof.
  intros N (x & y & c1 & c2 & c3 & c4 & v & -> & K). apply N. exists (p ++ x), y, c1, c2, c3, c4, v. rewrite <- app_assoc. auto.
Qed.
Lemma strbody_set_complete b o : decodes b o -> ~ high_u_escape b -> strbody_set b.
Proof.
  induction 1; intro N.
  - apply ss_nil.
  - apply ss_plain; auto. apply IHdecodes. now apply (high_u_app [c]).
  - eapply ss_short; eauto. apply IHdecodes. now apply (high_u_app [92; c]).
  - eapply ss_u; eauto.
    + destruct (N.lt_ge_cases v 56320) as [|L]; auto. exfalso. apply N. exists [], r, a, b, c, d, v. split; auto. split; auto.
      unfold low_surrogate in *. lia.
    + apply IHdecodes. now apply (high_u_app [92; 117; a; b; c; d]).
  - eapply ss_pair; eauto. apply IHdecodes. now apply (high_u_app [92; 117; a; b; c; d; 92; 117; a'; b'; c'; d']).
Qed.
(** Exactly: an escape from E000 to FFFF is read as one, that is, what precedes it is a
    string body of its own. *)
Definition e000_escape (b : bytes) : Prop :=
  exists x y c1 c2 c3 c4 v, b = x ++ 92 :: 117 :: c1 :: c2 :: c3 :: c4 :: y /\ strbody x /\ hex4 c1 c2 c3 c4 v /\ 57344 <= v.
Lemma strbody_set_rest x o : decodes x o -> forall r, strbody_set (x ++ r) -> strbody_set r.
Proof.
  induction 1 as [|c x o L1 L2 L3 D IH|c e x o Es D IH|a b c d v x o Hx Nh Nl D IH|a b c d a' b' c' d' v v' x o Hx Hh Hx' Hl D IH];
    intros r S; cbn [app] in S; auto.
  - inversion S; subst; auto; congruence.
  - inversion S; subst; auto; try congruence; discriminate.
  - inversion S; subst; auto; try congruence; try discriminate.
    match goal with K1 : hex4 a b c d ?w, K2 : high_surrogate ?w |- _ => rewrite (hex4_fun _ _ _ _ _ _ K1 Hx) in K2; tauto end.
  - inversion S; subst; auto; try congruence; try discriminate.
    match goal with K1 : hex4 a b c d ?w, K2 : ~ high_surrogate ?w |- _ => rewrite (hex4_fun _ _ _ _ _ _ K1 Hx) in K2; tauto end.
Qed.
Lemma e000_app p b : (forall x, strbody x -> strbody (p ++ x)) -> ~ e000_escape (p ++ b) -> ~ e000_escape b.
Proof.
  intros P H (x & y & c1 & c2 & c3 & c4 & v & -> & Sx & K). apply H. exists (p ++ x), y, c1, c2, c3, c4, v. rewrite <- app_assoc. auto.
Qed.
Lemma strbody_set_exactly b : strbody_set b <-> strbody b /\ ~ e000_escape b.
Proof.
  split.
  - intro S. split; [now apply strbody_set_strbody|]. intros (x & y & c1 & c2 & c3 & c4 & v & -> & [o D] & Hx & L).
    apply (strbody_set_rest x o D) in S. inversion S; subst; try congruence; try discriminate.
    + match goal with K1 : hex4 c1 c2 c3 c4 ?w, K2 : ?w < 56320 |- _ => rewrite (hex4_fun _ _ _ _ _ _ K1 Hx) in K2; lia end.
    + match goal with K1 : hex4 c1 c2 c3 c4 ?w, K2 : high_surrogate ?w |- _ => rewrite (hex4_fun _ _ _ _ _ _ K1 Hx) in K2; unfold high_surrogate in K2; lia end.
  - intros [[o D] H]. revert H. induction D; intro K.
    + apply ss_nil.
    + apply ss_plain; auto. apply IHD. revert K. apply (e000_app [c]). intros. now apply strbody_plain.
    + eapply ss_short; eauto. apply IHD. revert K. apply (e000_app [92; c]). intros. eapply strbody_short; eauto.
    + eapply ss_u; eauto.
      * destruct (N.lt_ge_cases v 56320) as [|L]; auto. exfalso. apply K. exists [], r, a, b, c, d, v. split; auto. split; [apply strbody_nil|]. split; auto.
        unfold low_surrogate in *. lia.
      * apply IHD. revert K. apply (e000_app [92; 117; a; b; c; d]). intros. eapply strbody_u; eauto.
    + eapply ss_pair; eauto. apply IHD. revert K. apply (e000_app [92; 117; a; b; c; d; 92; 117; a'; b'; c'; d']). intros. eapply strbody_pair; eauto.
Qed.

(** Which nodes may be given a key. *)
Lemma array_element_closed F p fp kids c fc : wfdom F -> F p = Some fp -> fvalue fp = VCont false kids -> In c kids ->
  F c = Some fc -> ~ key_open F (At c) /\ father_known F (At c).
Proof.
  intros D Fp Ep Hc Fc. destruct (child_par F p c D) as (g & G1 & G2); [exists fp, false, kids; auto|].
  assert (g = fc) by congruence. subst g. split.
  - intros (f & E1 & E2). assert (f = fc) by congruence. subst f. rewrite G2 in E2. destruct E2 as (fq & ks & E3 & E4). congruence.
  - intros a f q E Fa Pq. injection E as <-. assert (q = p) by congruence. subst q. congruence.
Qed.
Lemma object_member_open F p fp kids c fc : wfdom F -> F p = Some fp -> fvalue fp = VCont true kids -> In c kids ->
  F c = Some fc -> key_open F (At c) /\ father_known F (At c).
Proof.
  intros D Fp Ep Hc Fc. destruct (child_par F p c D) as (g & G1 & G2); [exists fp, true, kids; auto|].
  assert (g = fc) by congruence. subst g. split.
  - exists fc. split; auto. rewrite G2. eauto.
  - intros a f q E Fa Pq. injection E as <-. assert (q = p) by congruence. subst q. congruence.
Qed.

Section WithVol.
Context {VV : vols}.

(** A 0-terminated string of the caller, in any memory but the library's scratch string. *)
Definition given (s : st) (src : addr) (b : bytes) : Prop := cstring s src b /\ srctext s src b.

(** A setter that is to succeed exactly if [ok] holds, and then to assign [j]. *)
Definition sets_iff (s : st) (F : dom) (v : addr) (w : word) (ok : Prop) (j : json) (r : bool) (s' : st) : Prop :=
  (ok /\ r = true /\ exists F', assigned s F v w j s' F') \/ (~ ok /\ r = false /\ untouched s F s').

(** [v] has the key [k] now and its content is as before (null if it was empty);
    the documents containing it are as before but for that key; nothing else
    changes. *)
Record rekeyed (s : st) (F : dom) (v : addr) (w : word) (k : bytes) (s' : st) (F' : dom) : Prop := {
  rk_inv : inv s' F';
  rk_val : forall j, content s F v j -> content s' F' v j;
  rk_null : w = Null -> content s' F' v JNull;
  rk_key : key_is s' F' v (Some k);
  rk_above : forall u b B p a ju, w = At a -> on s F u b B -> path F b p a -> reads F b ju ->
    on s' F' u b B /\ reads F' b (jrekey p k ju);
  rk_beside : forall u b B ju, on s F u b B -> (forall a, w = At a -> ~ below F b a) -> reads F b ju -> u <> v ->
    on s' F' u b B /\ reads F' b ju;
  rk_empty : forall u B, empty s F u B -> u <> v -> empty s' F' u B;
  rk_keys : forall u b B f, on s F u b B -> w <> At b -> u <> v -> F b = Some f ->
    exists f', on s' F' u b B /\ F' b = Some f' /\ fkey f' = fkey f
}.
Definition keys_iff (s : st) (F : dom) (v : addr) (w : word) (ok : Prop) (k : bytes) (r : bool) (s' : st) : Prop :=
  (ok /\ r = true /\ exists F', rekeyed s F v w k s' F') \/ (~ ok /\ r = false /\ untouched s F s').

Lemma set_res_iff s F v w A c ok j r s' : inv s F -> handle s F v w A -> set_res s F v w A c ok j r s' ->
  sets_iff s F v w ok j r s'.
Proof.
  intros I H [(-> & K & F' & a & P)|(-> & K & X & _)].
  - left. split; auto. split; auto. exists F'. eapply parsed_assigned; eauto.
  - right. split; auto. split; auto. eapply ext_untouched; eauto.
Qed.
Lemma set_to_assigned s F v w A c j s' : inv s F -> handle s F v w A -> set_to s F v w A c j s' ->
  exists F', assigned s F v w j s' F'.
Proof. intros I H (F' & a & P). exists F'. eapply parsed_assigned; eauto. Qed.

Lemma keyed_rekey s F v w A c k s' F' a : inv s F -> keyed s F v w A c k s' F' a -> rekey F F' a k.
Proof.
  intros I K. split.
  - intros. eapply ky_old; eauto.
  - intros f Fa. pose proof (ky_root _ _ _ _ _ _ _ _ _ _ K) as R. rewrite Fa in R. eexists. split; [exact R|]. split; reflexivity.
Qed.
Lemma keyed_on s F v w A c k s' F' a u x B : inv s F -> keyed s F v w A c k s' F' a ->
  handle s F u x B -> u <> v \/ w <> Null -> handle s' F' u x B.
Proof.
  intros I K (H1 & [H2 N2] & H3) Hu. pose proof (ky_ext _ _ _ _ _ _ _ _ _ _ K) as X. split; [|split; [split|]].
  - destruct Hu as [Hu|Hu].
    + apply (x_vals _ _ _ _ _ X); auto.
    + now rewrite (ky_keep _ _ _ _ _ _ _ _ _ _ K Hu).
  - now apply (x_alive _ _ _ _ _ X).
  - auto.
  - destruct H3 as [H3|(y & E & Hy)]; [now left|right]. exists y. split; auto.
    destruct (F y) as [f|] eqn:Ey; [|congruence]. destruct (keyed_rekey _ _ _ _ _ _ _ _ _ _ I K) as [R1 R2].
    destruct (addr_dec y a) as [->|Ny].
    + destruct (R2 f Ey) as (f' & E' & _). congruence.
    + rewrite (R1 y f Ey Ny). discriminate.
Qed.
Lemma keyed_rekeyed s F v w A c k s' F' a : inv s F -> handle s F v w A -> keyed s F v w A c k s' F' a ->
  rekeyed s F v w k s' F'.
Proof.
  intros I H K. pose proof (keyed_rekey _ _ _ _ _ _ _ _ _ _ I K) as C.
  assert (Hw : w = At a \/ w = Null) by (destruct (ky_at _ _ _ _ _ _ _ _ _ _ K) as [E|[E _]]; auto).
  assert (New : w = Null -> F a = None).
  { intros ->. destruct (ky_at _ _ _ _ _ _ _ _ _ _ K) as [E|[_ B]]; [discriminate|]. eapply inv_beyond; eauto. }
  pose proof (ky_root _ _ _ _ _ _ _ _ _ _ K) as Rt.
  assert (Ov : on s' F' v a A).
  { split; [apply K|]. destruct H as (_ & [H2 N2] & _). split; [split; [|auto]|].
    - apply (x_alive _ _ _ _ _ (ky_ext _ _ _ _ _ _ _ _ _ _ K)); auto.
    - right. exists a. split; auto. congruence. }
  assert (Nobody : w = Null -> forall b ju, reads F b ju -> ~ below F b a).
  { intros E b ju R B. destruct (proj1 (reads_below F) b ju R a B) as (j' & R'). specialize (New E). inversion R'; congruence. }
  constructor.
  - apply K.
  - intros j (b & B & (Hb & _) & R). exists a, A. split; auto.
    destruct H as (Hv & _). assert (w = At b) by congruence. destruct Hw as [Ew|Ew]; [|congruence].
    assert (b = a) by congruence. subst b. eapply rekey_frame; eauto. eapply (proj1 (reads_acyclic F)); eauto.
  - intro Ew. exists a, A. split; auto. rewrite (New Ew) in Rt. eapply rd_null; eauto.
  - exists a, A. eexists. split; auto. split; [exact Rt|]. reflexivity.
  - intros u b B p a' ju -> Hu P R. assert (a' = a) as -> by (destruct Hw; congruence). split.
    + eapply (keyed_on s F v (At a) A); eauto. right. discriminate.
    + eapply rekey_path; eauto. apply I.
  - intros u b B ju Hu Nb R Hne. split; [eapply (keyed_on s F v w A); eauto|].
    eapply rekey_frame; eauto. intro B'. apply sbelow_below in B'. destruct Hw as [Hw|Hw]; [apply (Nb a); auto|].
    eapply Nobody; eauto.
  - intros u B Hu Hne. eapply (keyed_on s F v w A); eauto.
  - intros u b B f Hu Nb Hne Hb. exists f. split; [eapply (keyed_on s F v w A); eauto|]. split; auto.
    apply (ky_old _ _ _ _ _ _ _ _ _ _ K); auto. destruct Hw as [Hw|Hw]; [congruence|]. specialize (New Hw). congruence.
Qed.
Lemma key_res_iff s F v w A c (ok : Prop) k r s' : inv s F -> handle s F v w A -> key_res s F v w A c ok k r s' ->
  keys_iff s F v w (ok /\ key_open F w) k r s'.
Proof.
  intros I H [(-> & K & O & F' & a & P)|(-> & K & X & _)].
  - left. split; auto. split; auto. exists F'. eapply keyed_rekeyed; eauto.
  - right. split; auto. split; auto. eapply ext_untouched; eauto.
Qed.

(** Room for a call that copies into the string cache. *)
Definition cache_room (s : st) (A n : N) : Prop := room s (cache_home s A) n /\ room s A n.

Section Setters.
Variables (s : st) (F : dom) (v : addr) (w : word) (A : N).
Hypothesis I : inv s F.
Hypothesis H : handle s F v w A.

Lemma given_text src b : cstring s src b -> ~ In 0 b /\ exists r, text_at s src = b ++ 0 :: r.
Proof. intros [K1 K2]. auto. Qed.

Definition Hstr : (zj_checkStr = zj_checkNum /\ TString = TNumber /\ VStr = VNum /\ strbody_set = number) \/
                   (zj_checkStr = zj_checkStr /\ TString = TString /\ VStr = VStr /\ strbody_set = strbody_set)
  := or_intror (conj eq_refl (conj eq_refl (conj eq_refl eq_refl))).
Definition Hnum : (zj_checkNum = zj_checkNum /\ TNumber = TNumber /\ VNum = VNum /\ number = number) \/
                   (zj_checkNum = zj_checkStr /\ TNumber = TString /\ VNum = VStr /\ number = strbody_set)
  := or_introl (conj eq_refl (conj eq_refl (conj eq_refl eq_refl))).

Ltac by_res L := eapply wp_mono; [eapply L; eauto|intros r0 s0 K0; eapply set_res_iff; eauto].

Lemma setStr_exact src b : given s src b -> room s A (lenN b + 72) ->
  exists r s', zj_SetStr v src s = Ok (r, s') /\ sets_iff s F v w (strbody_set b) (JStr b) r s'.
Proof.
  intros [[N0 (sl & T)] S] R. eapply wp_mono; [eapply (set_text_wp zj_checkStr TString VStr strbody_set Hstr s F v w A src b); eauto|].
  intros r0 s0 K0. eapply set_res_iff; eauto.
Qed.
Lemma setNumStr_exact src b : given s src b -> room s A (lenN b + 72) ->
  exists r s', zj_SetNumStr v src s = Ok (r, s') /\ sets_iff s F v w (number b) (JNum b) r s'.
Proof.
  intros [[N0 (sl & T)] S] R. eapply wp_mono; [eapply (set_text_wp zj_checkNum TNumber VNum number Hnum s F v w A src b); eauto|].
  intros r0 s0 K0. eapply set_res_iff; eauto.
Qed.
Lemma setStrFast_exact src b : kept s src b -> room s A 72 ->
  exists r s', zj_SetStrFast v src s = Ok (r, s') /\ sets_iff s F v w (strbody_set b) (JStr b) r s'.
Proof.
  intros [[N0 (sl & T)] S] R. eapply wp_mono; [eapply (set_text_fast_wp zj_checkStr TString VStr strbody_set Hstr s F v w A src b); eauto|].
  intros r0 s0 K0. eapply set_res_iff; eauto.
Qed.
Lemma setNumStrFast_exact src b : kept s src b -> room s A 72 ->
  exists r s', zj_SetNumStrFast v src s = Ok (r, s') /\ sets_iff s F v w (number b) (JNum b) r s'.
Proof.
  intros [[N0 (sl & T)] S] R. eapply wp_mono; [eapply (set_text_fast_wp zj_checkNum TNumber VNum number Hnum s F v w A src b); eauto|].
  intros r0 s0 K0. eapply set_res_iff; eauto.
Qed.
Lemma setStrLen_exact src b : srctext s src b -> cache_live s -> cache_room s A (check_cost (lenN b) + lenN b + 72) ->
  exists r s', zj_SetStrLen v src (lenN b) s = Ok (r, s') /\ sets_iff s F v w (strbody_set b) (JStr b) r s'.
Proof.
  intros S C [R1 R2]. unfold room in *.
  eapply wp_mono; [eapply (set_text_len_wp zj_checkStr TString VStr strbody_set Hstr s F v w A src b); eauto; lia|].
  intros r0 s0 K0. eapply set_res_iff; eauto.
Qed.
Lemma setNumStrLen_exact src b : srctext s src b -> cache_live s -> cache_room s A (check_cost (lenN b) + lenN b + 72) ->
  exists r s', zj_SetNumStrLen v src (lenN b) s = Ok (r, s') /\ sets_iff s F v w (number b) (JNum b) r s'.
Proof.
  intros S C [R1 R2]. unfold room in *.
  eapply wp_mono; [eapply (set_text_len_wp zj_checkNum TNumber VNum number Hnum s F v w A src b); eauto; lia|].
  intros r0 s0 K0. eapply set_res_iff; eauto.
Qed.
Lemma setStrLenFast_exact src b : safetext s src b -> cache_live s -> cache_room s A (check_cost (lenN b) + 72) ->
  exists r s', zj_SetStrLenFast v src (lenN b) s = Ok (r, s') /\ sets_iff s F v w (strbody_set b) (JStr b) r s'.
Proof.
  intros S C [R1 R2]. unfold room in *.
  eapply wp_mono; [eapply (set_text_len_fast_wp zj_checkStr TString VStr strbody_set Hstr s F v w A src b); eauto; try lia; now apply safetext_src|].
  intros r0 s0 K0. eapply set_res_iff; eauto.
Qed.
Lemma setNumStrLenFast_exact src b : safetext s src b -> cache_live s -> cache_room s A (check_cost (lenN b) + 72) ->
  exists r s', zj_SetNumStrLenFast v src (lenN b) s = Ok (r, s') /\ sets_iff s F v w (number b) (JNum b) r s'.
Proof.
  intros S C [R1 R2]. unfold room in *.
  eapply wp_mono; [eapply (set_text_len_fast_wp zj_checkNum TNumber VNum number Hnum s F v w A src b); eauto; try lia; now apply safetext_src|].
  intros r0 s0 K0. eapply set_res_iff; eauto.
Qed.

Lemma setNull_exact : room s A 72 -> exists s' F', zj_SetNull v s = Ok (tt, s') /\ assigned s F v w JNull s' F'.
Proof.
  intro R. destruct (setNull_wp s F v w A I H R) as ([] & s' & E & P). apply set_to_assigned in P as (F' & P); eauto.
Qed.
Lemma setBool_exact b : room s A 72 -> exists s' F', zj_SetBool v b s = Ok (tt, s') /\ assigned s F v w (JBool b) s' F'.
Proof.
  intro R. destruct (setBool_wp s F v w A b I H R) as ([] & s' & E & P). apply set_to_assigned in P as (F' & P); eauto.
Qed.
Lemma setArray_exact : room s A 72 -> exists s' F', zj_SetArray v s = Ok (tt, s') /\ assigned s F v w (JArr []) s' F'.
Proof.
  intro R. destruct (setCont_wp s F v w A false I H R) as ([] & s' & E & P). apply set_to_assigned in P as (F' & P); eauto.
Qed.
Lemma setObj_exact : room s A 72 -> exists s' F', zj_SetObj v s = Ok (tt, s') /\ assigned s F v w (JObj []) s' F'.
Proof.
  intro R. destruct (setCont_wp s F v w A true I H R) as ([] & s' & E & P). apply set_to_assigned in P as (F' & P); eauto.
Qed.
Lemma setInt_exact z : (int_min <= z <= int_max)%Z -> room s A 88 ->
  exists s' F', zj_SetInt v z s = Ok (true, s') /\ assigned s F v w (JNum (dec_text z)) s' F'.
Proof.
  intros Hz R. destruct (setInt_wp s F v w A z I H Hz R) as (r & s' & E & -> & P). apply set_to_assigned in P as (F' & P); eauto.
Qed.
Lemma setLong_exact z : (long_min <= z <= long_max)%Z -> room s A 96 ->
  exists s' F', zj_SetLong v z s = Ok (true, s') /\ assigned s F v w (JNum (dec_text z)) s' F'.
Proof.
  intros Hz R. destruct (setLong_wp s F v w A z I H Hz R) as (r & s' & E & -> & P). apply set_to_assigned in P as (F' & P); eauto.
Qed.
Lemma setLongLong_exact z : (long_min <= z <= long_max)%Z -> room s A 96 ->
  exists s' F', zj_SetLongLong v z s = Ok (true, s') /\ assigned s F v w (JNum (dec_text z)) s' F'.
Proof. exact (setLong_exact z). Qed.

Lemma setStrEscape_exact src b : cstring s src b -> room s A (esc_cost b + 72) ->
  exists s' F', zj_SetStrEscape v src s = Ok (true, s') /\ assigned s F v w (JStr (escape_text b)) s' F'.
Proof.
  intros [N0 (sl & T)] R. unfold room in R.
  destruct (setStrEscape_wp s F v w A src b sl I H T N0) as (r & s' & E & -> & P); [lia|].
  apply set_to_assigned in P as (F' & P); eauto.
Qed.
Lemma setStrLenEscape_exact src b : holds s src b -> room s A (esc_cost b + 72) ->
  exists s' F', zj_SetStrLenEscape v src (lenN b) s = Ok (true, s') /\ assigned s F v w (JStr (escape_text b)) s' F'.
Proof.
  intros T R. unfold room in R.
  destruct (setStrLenEscape_wp s F v w A src b I H T) as (r & s' & E & -> & P); [lia|].
  apply set_to_assigned in P as (F' & P); eauto.
Qed.

Hypothesis Hk : father_known F w.
Lemma setKey_exact src b : given s src b -> room s A (72 + lenN b) ->
  exists r s', zj_SetKey v src s = Ok (r, s') /\ keys_iff s F v w (strbody_set b /\ key_open F w) b r s'.
Proof.
  intros [[N0 (sl & T)] S] R. eapply wp_mono; [eapply (setKey_wp s F v w A src b); eauto|].
  intros r0 s0 K0. eapply key_res_iff; eauto.
Qed.
Lemma setKeyFast_exact src b : kept s src b -> room s A 72 ->
  exists r s', zj_SetKeyFast v src s = Ok (r, s') /\ keys_iff s F v w (strbody_set b /\ key_open F w) b r s'.
Proof.
  intros [[N0 (sl & T)] S] R. eapply wp_mono; [eapply (setKeyFast_wp s F v w A src b); eauto|].
  intros r0 s0 K0. eapply key_res_iff; eauto.
Qed.
Lemma setKeyLen_exact src b : srctext s src b -> cache_live s -> cache_room s A (check_cost (lenN b) + (72 + lenN b)) ->
  exists r s', zj_SetKeyLen v src (lenN b) s = Ok (r, s') /\ keys_iff s F v w (strbody_set b /\ key_open F w) b r s'.
Proof.
  intros S C [R1 R2]. unfold room in *. eapply wp_mono; [eapply (setKeyLen_wp s F v w A src b); eauto; lia|].
  intros r0 s0 K0. eapply key_res_iff; eauto.
Qed.
Lemma setKeyLenFast_exact src b : safetext s src b -> cache_live s -> cache_room s A (check_cost (lenN b) + 72) ->
  exists r s', zj_SetKeyLenFast v src (lenN b) s = Ok (r, s') /\ keys_iff s F v w (strbody_set b /\ key_open F w) b r s'.
Proof.
  intros S C [R1 R2]. unfold room in *. eapply wp_mono; [eapply (setKeyLenFast_wp s F v w A src b); eauto; lia|].
  intros r0 s0 K0. eapply key_res_iff; eauto.
Qed.
Lemma keys_true k r s' : keys_iff s F v w (True /\ key_open F w) k r s' -> keys_iff s F v w (key_open F w) k r s'.
Proof. intros [(K & E)|(K & E)]; [left|right]; (split; [tauto|auto]). Qed.
Lemma setKeyEscape_exact src b : cstring s src b -> room s A (esc_cost b + 72) ->
  exists r s', zj_SetKeyEscape v src s = Ok (r, s') /\ keys_iff s F v w (key_open F w) (escape_text b) r s'.
Proof.
  intros [N0 (sl & T)] R. unfold room in R. eapply wp_mono; [eapply (setKeyEscape_wp s F v w A src b); eauto; lia|].
  intros r0 s0 K0. apply keys_true. eapply key_res_iff; eauto.
Qed.
Lemma setKeyLenEscape_exact src b : holds s src b -> room s A (esc_cost b + 72) ->
  exists r s', zj_SetKeyLenEscape v src (lenN b) s = Ok (r, s') /\ keys_iff s F v w (key_open F w) (escape_text b) r s'.
Proof.
  intros T R. unfold room in R. eapply wp_mono; [eapply (setKeyLenEscape_wp s F v w A src b); eauto; lia|].
  intros r0 s0 K0. apply keys_true. eapply key_res_iff; eauto.
Qed.
Lemma keys_good b k r s' : strbody_set b -> keys_iff s F v w (strbody_set b /\ key_open F w) k r s' -> keys_iff s F v w (key_open F w) k r s'.
Proof. intros G [(K & E)|(K & E)]; [left|right]; (split; [tauto|auto]). Qed.
Lemma setKey_good src b : given s src b -> strbody_set b -> room s A (72 + lenN b) ->
  exists r s', zj_SetKey v src s = Ok (r, s') /\ keys_iff s F v w (key_open F w) b r s'.
Proof. intros S G R. destruct (setKey_exact src b S R) as (r & s' & E & K). exists r, s'. split; auto. eapply keys_good; eauto. Qed.
Lemma setKeyFast_good src b : kept s src b -> strbody_set b -> room s A 72 ->
  exists r s', zj_SetKeyFast v src s = Ok (r, s') /\ keys_iff s F v w (key_open F w) b r s'.
Proof. intros S G R. destruct (setKeyFast_exact src b S R) as (r & s' & E & K). exists r, s'. split; auto. eapply keys_good; eauto. Qed.
Lemma setKeyLen_good src b : srctext s src b -> strbody_set b -> cache_live s -> cache_room s A (check_cost (lenN b) + (72 + lenN b)) ->
  exists r s', zj_SetKeyLen v src (lenN b) s = Ok (r, s') /\ keys_iff s F v w (key_open F w) b r s'.
Proof. intros S G C R. destruct (setKeyLen_exact src b S C R) as (r & s' & E & K). exists r, s'. split; auto. eapply keys_good; eauto. Qed.
Lemma setKeyLenFast_good src b : safetext s src b -> strbody_set b -> cache_live s -> cache_room s A (check_cost (lenN b) + 72) ->
  exists r s', zj_SetKeyLenFast v src (lenN b) s = Ok (r, s') /\ keys_iff s F v w (key_open F w) b r s'.
Proof. intros S G C R. destruct (setKeyLenFast_exact src b S C R) as (r & s' & E & K). exists r, s'. split; auto. eapply keys_good; eauto. Qed.
End Setters.

(** ** Set, then get *)
Definition decimal (t : bytes) (z : Z) : Prop :=
  exists i, int_part i /\ t = (if (z <? 0)%Z then [45] else []) ++ i /\ dec_value i = Z.abs z.
Lemma dec_text_decimal z : decimal (dec_text z) z.
Proof.
  destruct (mag_ok z) as (H1 & H2 & H3). exists (mag_digits z). split; auto. split; [reflexivity|].
  assert (N0 : ~ is_digit 0) by (unfold is_digit; lia).
  pose proof (digits_val_app _ H1 0%Z 0 [] N0) as E1. change (digits_val 0 (mag_digits z ++ [0]) = Ok (dec_value (mag_digits z))) in E1.
  destruct (H3 0%Z [0]) as (k & E2). rewrite E2 in E1.
  assert (E3 : digits_val (0 * k + Z.abs z) [0] = Ok (Z.abs z)) by reflexivity. rewrite E3 in E1. congruence.
Qed.
Lemma decimal_int t z : decimal t z -> int_value t z.
Proof.
  intros (i & Hi & -> & Hz). exists (if (z <? 0)%Z then [45] else []), i, [], []. split; [destruct (z <? 0)%Z; auto|].
  split; auto. split; [now left|]. split; [now left|]. split; [now rewrite !app_nil_r|].
  destruct (Z.ltb_spec z 0); cbn; lia.
Qed.

Lemma decimal_number t z : decimal t z -> number t.
Proof.
  intros (i & Hi & -> & _). exists (if (z <? 0)%Z then [45] else []), i, [], []. split; [destruct (z <? 0)%Z; auto|].
  split; auto. split; [now left|]. split; [now left|]. now rewrite !app_nil_r.
Qed.

Lemma mod_inv a f s u s' : modNode a f s = Ok (u, s') -> exists n, snodes s a = Some n /\ s' = set_nodes (upd (snodes s) a (f n)) s.
Proof.
  unfold modNode, bind, getNode, get, putNode. destruct (snodes s a) as [n|] eqn:E; [|discriminate].
  intro K. injection K as _ <-. eauto.
Qed.
Lemma bind_inv {X Y} (m : M X) (k : X -> M Y) s y s2 : bind m k s = Ok (y, s2) -> exists x s1, m s = Ok (x, s1) /\ k x s1 = Ok (y, s2).
Proof. unfold bind. destruct (m s) as [[x s1]|]; [eauto|discriminate]. Qed.
(** The node of [v] refers to the text the setter gave it. *)
Lemma scalar_points v t p l s r s' : (n <- ensure_node v ;; set_scalar n t p l ;;; ret true) s = Ok (r, s') ->
  exists a A n, svals s' v = Some (mkVal (At a) A) /\ snodes s' a = Some n /\ nVal n = At p.
Proof.
  intro E. apply bind_inv in E as (a & s1 & E1 & E2).
  assert (V1 : exists A, svals s1 v = Some (mkVal (At a) A)).
  { unfold ensure_node in E1. apply bind_inv in E1 as (x & s2 & G1 & E1). unfold getVal, get in G1.
    destruct (svals s v) as [y|] eqn:Ev; [|discriminate]. injection G1 as <- <-.
    apply bind_inv in E1 as (z & s2 & G1 & E1). unfold is_null in G1. destruct y as [[| |b] B]; cbn [vN vA] in *; [discriminate| |].
    - injection G1 as <- <-. apply bind_inv in E1 as (n & s2 & G1 & E1). apply bind_inv in E1 as ([] & s3 & G2 & E1).
      apply bind_inv in E1 as ([] & s4 & G3 & E1). apply bind_inv in E1 as ([] & s5 & G4 & E1).
      apply bind_inv in E1 as ([] & s6 & G5 & E1). apply bind_inv in E1 as ([] & s7 & G6 & E1).
      apply mod_inv in G3 as (n3 & _ & ->). apply mod_inv in G4 as (n4 & _ & ->). apply mod_inv in G5 as (n5 & _ & ->).
      apply mod_inv in G6 as (n6 & _ & ->). injection E1 as <- <-. injection G2 as <-. exists B. cbn. apply upd_eq.
    - injection G1 as <- <-. injection E1 as <- <-. eauto. }
  destruct V1 as (A & V1). unfold set_scalar in E2. apply bind_inv in E2 as ([] & s2 & E2 & E3).
  apply bind_inv in E2 as ([] & s3 & G1 & E2). apply bind_inv in E2 as ([] & s4 & G2 & E2).
  apply mod_inv in G1 as (n1 & N1 & ->). apply mod_inv in G2 as (n2 & N2 & ->). apply mod_inv in E2 as (n3 & N3 & ->).
  injection E3 as _ <-. cbn [snodes set_nodes] in *. rewrite upd_eq in N3. injection N3 as <-.
  exists a, A. eexists. split; [exact V1|]. cbn. rewrite upd_eq. split; reflexivity.
Qed.
Lemma set_printed_points s F v w A size cap text : inv s F -> handle s F v w A -> lenN text + 1 <= cap -> cap <= size ->
  usedA s A + size + 72 <= two30 ->
  wp (set_printed v size cap text) s (fun r s' => r = true /\ exists F' a n p,
    parsed s F v w A (at_ A (size + 72)) (JNum text) s' F' a /\ snodes s' a = Some n /\ nVal n = At p /\ safetext s' p (text ++ [0])).
Proof.
  intros I H Hc Hs Hu. pose proof H as (Hv & [Al NA] & Hw). unfold set_printed.
  apply wp_bind, (wp_getVal _ _ _ _ Hv). cbn [vA].
  assert (Eo : firstn (N.to_nat cap - 1) text = text) by (apply firstn_all2; unfold lenN in Hc; lia).
  eapply wp_seq; [eapply (alloc_step none none A 0 size s s); auto; [apply ext_start; apply I|lia]|].
  intros p s1 [X1 P]. cbn [N.add] in X1. unfold snprintf. rewrite Eo. cbv zeta. apply wp_bind.
  eapply wp_seq; [eapply (fill_step none none (at_ A size) A size s s s1 p (text ++ [0])); eauto; try apply I|].
  { eapply ext_more; [apply ext_start; apply I|]. lia. }
  { rewrite lenN_app. unfold lenN at 2. simpl. lia. }
  intros [] s2 [X2 Fl]. apply wp_ret.
  pose proof (x_used _ _ _ _ _ X2 A) as Us. rewrite at_eq in Us.
  pose proof (fl_safe _ _ _ _ Fl) as Sf'. pose proof Sf' as Sf. apply safetext_app in Sf as [Sf _].
  assert (K : wp (n <- ensure_node v ;; set_scalar n TNumber p (lenN text) ;;; ret true) s2
     (fun r s' => r = true /\ set_to s F v w A (addc (at_ A size) (at_ A 72)) (jval (VNum text)) s')).
  { eapply (set_done s F v w A s2 _ p TNumber _ (VNum text) text); eauto; [apply Fl|lia]. }
  destruct K as (r & s' & E & -> & F' & a & Pd). exists true, s'. split; [exact E|]. split; auto.
  destruct (scalar_points _ _ _ _ _ _ _ E) as (a' & A' & n & V' & N' & Ep).
  rewrite (pd_val _ _ _ _ _ _ _ _ _ _ Pd) in V'. injection V' as <- _.
  exists F', a, n, p. split; [eapply parsed_more; eauto; apply at_add|]. split; auto. split; auto.
  (* the text is still there *)
  assert (I2 : inv s2 F) by (eapply ext_inv; eauto).
  assert (H2 : handle s2 F v w A) by (eapply handle_ext; eauto).
  destruct (set_scalar_value s2 F v w A TNumber p (lenN text) (VNum text) text I2 H2) as ([] & s3 & E3 & F3 & a3 & P3); auto; [lia|].
  assert (s3 = s').
  { unfold bind in E, E3. destruct (ensure_node v s2) as [[n2 s4]|]; [|discriminate].
    destruct (set_scalar n2 TNumber p (lenN text) s4) as [[[] s5]|]; [|discriminate]. injection E as <-. injection E3 as <-. auto. }
  subst s3. apply (safetext_ext _ _ _ _ _ p (text ++ [0]) (pd_ext _ _ _ _ _ _ _ _ _ _ P3)). exact Sf'.
Qed.

Section Round.
Variables (s : st) (F : dom) (v : addr) (w : word) (A : N).
Hypothesis I : inv s F.
Hypothesis H : handle s F v w A.

Lemma parsed_room c j s' F' a k : parsed s F v w A (at_ A c) j s' F' a -> room s A (c + k) -> room s' A k.
Proof.
  intros P R. pose proof (x_used _ _ _ _ _ (pd_ext _ _ _ _ _ _ _ _ _ _ P) A) as U. rewrite at_eq in U. unfold room in *. lia.
Qed.
Lemma parsed_here c j s' F' a : parsed s F v w A (at_ A c) j s' F' a -> inv s' F' /\ on s' F' v a A /\ reads F' a j /\
  exists f, F' a = Some f.
Proof.
  intro P. split; [apply P|]. split; [|split; [apply P|]].
  - split; [apply P|]. destruct H as (_ & [H2 N2] & _). split; [split; [|auto]|].
    + apply (x_alive _ _ _ _ _ (pd_ext _ _ _ _ _ _ _ _ _ _ P)); auto.
    + right. exists a. split; auto. destruct (pd_root _ _ _ _ _ _ _ _ _ _ P) as (f' & E & _). congruence.
  - destruct (pd_root _ _ _ _ _ _ _ _ _ _ P) as (f' & E & _). eauto.
Qed.
Lemma printed_long z size cap s' F' a n p k : (long_min <= z <= long_max)%Z ->
  parsed s F v w A (at_ A (size + 72)) (JNum (dec_text z)) s' F' a -> snodes s' a = Some n -> nVal n = At p ->
  holds s' p (dec_text z ++ [0]) -> cap = 0 -> room s A (size + 72 + (8 + k)) ->
  (exists s2, zj_GetLong v s' = Ok (Some z, s2) /\ untouched s' F' s2) /\
  (exists s2, zj_GetLongLong v s' = Ok (Some z, s2) /\ untouched s' F' s2).
Proof.
  intros Hz P Hn Ep Hp _ Hr. destruct (parsed_here _ _ _ _ _ P) as (I' & O' & R' & f & Fa).
  apply (getLong_exact s' F' v a A (JNum (dec_text z)) f I' O' R' Fa (dec_text z) z 0); auto.
  - apply decimal_int, dec_text_decimal.
  - pose proof (dec_long_len z Hz). unfold lenN. lia.
  - eapply parsed_room in P; [|exact Hr]. unfold room in *. lia.
  - unfold is_digit. lia.
  - intros q m E. assert (q = p).
    { destruct O' as (V' & _). unfold zj_GetNumFast, with_type, bind, getVal, getNode, get in E. rewrite V' in E. cbn in E. rewrite Hn in E.
      unfold rType, rLen, wopt, ret, lift in E.
      destruct (nType n) as [[]|]; cbn in E; try discriminate. destruct (nLen n); cbn in E; [|discriminate]. congruence. }
    subst q. destruct (holds_text s' p _ (i_wf _ _ I') Hp) as (r & ->). exists r. now rewrite <- app_assoc.
Qed.
Lemma int_long z : (int_min <= z <= int_max)%Z -> (long_min <= z <= long_max)%Z.
Proof. change int_min with (-2147483648)%Z. change int_max with 2147483647%Z. change long_min with (-9223372036854775808)%Z. change long_max with 9223372036854775807%Z. lia. Qed.

(** Setting an integer: the text is its decimal form, and it can be read back. *)
Definition reads_back (m : M bool) (z : Z) : Prop :=
  exists s1 F1 t, m s = Ok (true, s1) /\ assigned s F v w (JNum t) s1 F1 /\ decimal t z /\
    (exists s2, zj_GetLong v s1 = Ok (Some z, s2) /\ untouched s1 F1 s2) /\
    (exists s2, zj_GetLongLong v s1 = Ok (Some z, s2) /\ untouched s1 F1 s2) /\
    ((int_min <= z <= int_max)%Z -> exists s2, zj_GetInt v s1 = Ok (Some z, s2) /\ untouched s1 F1 s2).
Lemma printed_back z size cap : (long_min <= z <= long_max)%Z -> lenN (dec_text z) + 1 <= cap -> cap <= size ->
  room s A (size + 80) -> reads_back (set_printed v size cap (dec_text z)) z.
Proof.
  intros Hz Hc Hs Hr. unfold room in Hr.
  destruct (set_printed_points s F v w A size cap (dec_text z) I H Hc Hs) as (r & s1 & E & -> & F1 & a & n & p & P & Hn & Ep & Hp); [lia|].
  exists s1, F1, (dec_text z). split; [exact E|]. split; [eapply parsed_assigned; eauto|]. split; [apply dec_text_decimal|].
  destruct (printed_long z size 0 s1 F1 a n p 0 Hz P Hn Ep (proj1 Hp) eq_refl) as [G1 G2]; [unfold room; lia|].
  split; auto. split; auto. intro Hi. destruct (parsed_here _ _ _ _ _ P) as (I' & O' & R' & f & Fa).
  apply (getInt_exact s1 F1 v a A (JNum (dec_text z)) f I' O' R' Fa (dec_text z) z); auto.
  - apply decimal_int, dec_text_decimal.
  - pose proof (dec_long_len z Hz). unfold lenN. lia.
  - apply (parsed_room _ _ _ _ _ 4) in P; [auto|]. unfold room. lia.
Qed.
Lemma setInt_back z : (int_min <= z <= int_max)%Z -> room s A 96 -> reads_back (zj_SetInt v z) z.
Proof.
  intros Hz Hr. pose proof (dec_int_len z Hz). apply (printed_back z 16 12); auto using int_long; unfold lenN; lia.
Qed.
Lemma setLong_back z : (long_min <= z <= long_max)%Z -> room s A 104 -> reads_back (zj_SetLong v z) z.
Proof.
  intros Hz Hr. pose proof (dec_long_len z Hz). apply (printed_back z 24 24); auto; unfold lenN; lia.
Qed.
Lemma setLongLong_back z : (long_min <= z <= long_max)%Z -> room s A 104 -> reads_back (zj_SetLongLong v z) z.
Proof. exact (setLong_back z). Qed.

(** Escaping, then decoding. *)
Definition decodes_back (m : M bool) (get : M (option word)) (b : bytes) : Prop :=
  exists s1 r s2, m s = Ok (true, s1) /\ get s1 = Ok (r, s2) /\ text_out s2 (Some b) r.
Definition esc_room (b : bytes) : Prop := room s A (esc_cost b + 72 + esc_cost b).
Lemma set_to_back b s1 : set_to s F v w A (at_ A (esc_cost b + 72)) (JStr (escape_text b)) s1 -> esc_room b ->
  exists r s2, zj_GetUnEscapeStr v s1 = Ok (r, s2) /\ text_out s2 (Some b) r.
Proof.
  intros (F1 & a & P) Hr. destruct (parsed_here _ _ _ _ _ P) as (I' & O' & R' & f & Fa).
  destruct (getUnEscapeStr_exact s1 F1 v a A _ f I' O' R' Fa (escape_text b) b eq_refl (escape_decodes b)) as (r & s2 & E & _ & T); eauto.
  eapply parsed_room; eauto.
Qed.
Lemma setStrEscape_back src b : cstring s src b -> esc_room b -> decodes_back (zj_SetStrEscape v src) (zj_GetUnEscapeStr v) b.
Proof.
  intros [N0 (sl & T)] R. pose proof R as R'. unfold esc_room, room in R'.
  destruct (setStrEscape_wp s F v w A src b sl I H T N0) as (r & s1 & E & -> & P); [lia|].
  destruct (set_to_back b s1 P R) as (r & s2 & E2 & T2). exists s1, r, s2. auto.
Qed.
Lemma setStrLenEscape_back src b : holds s src b -> esc_room b ->
  decodes_back (zj_SetStrLenEscape v src (lenN b)) (zj_GetUnEscapeStr v) b.
Proof.
  intros T R. pose proof R as R'. unfold esc_room, room in R'.
  destruct (setStrLenEscape_wp s F v w A src b I H T) as (r & s1 & E & -> & P); [lia|].
  destruct (set_to_back b s1 P R) as (r & s2 & E2 & T2). exists s1, r, s2. auto.
Qed.
Lemma setNumStr_back src b : given s src b -> number b -> room s A (lenN b + 72 + (lenN b + 1)) ->
  exists s1 r s2, zj_SetNumStr v src s = Ok (true, s1) /\ zj_GetNumStr v s1 = Ok (r, s2) /\ text_out s2 (Some b) r.
Proof.
  intros [[N0 (sl & T)] S] G R. pose proof R as R'. unfold room in R'.
  destruct (set_text_wp zj_checkNum TNumber VNum number Hnum s F v w A src b I H S sl T N0) as (r & s1 & E & K); [lia|].
  destruct K as [(-> & _ & F1 & a & P)|(_ & K & _)]; [|contradiction].
  destruct (parsed_here _ _ _ _ _ P) as (I' & O' & R1 & f & Fa).
  destruct (getNumStr_exact s1 F1 v a A _ f I' O' R1 Fa) as (r & s2 & E2 & _ & T2).
  { eapply parsed_room; eauto. }
  exists s1, r, s2. auto.
Qed.
Hypothesis Hk : father_known F w.
Hypothesis Ho : key_open F w.
Lemma key_res_back b r s1 : key_res s F v w A (at_ A (esc_cost b + 72)) True (escape_text b) r s1 -> esc_room b ->
  r = true /\ exists o s2, zj_GetUnEscapeKey v s1 = Ok (o, s2) /\ text_out s2 (Some b) o.
Proof.
  intros [(-> & _ & _ & F1 & a & P)|(_ & N & _)] R; [|tauto]. split; auto.
  pose proof (ky_root _ _ _ _ _ _ _ _ _ _ P) as Fa.
  assert (O' : on s1 F1 v a A).
  { split; [apply P|]. destruct H as (_ & [H2 N2] & _). split; [split; [|auto]|].
    + apply (x_alive _ _ _ _ _ (ky_ext _ _ _ _ _ _ _ _ _ _ P)); auto.
    + right. exists a. split; auto. congruence. }
  destruct (getUnEscapeKey_exact s1 F1 v a A _ (ky_inv _ _ _ _ _ _ _ _ _ _ P) O' Fa (escape_text b) b eq_refl (escape_decodes b)) as (o & s2 & E & _ & T); eauto.
  pose proof (x_used _ _ _ _ _ (ky_ext _ _ _ _ _ _ _ _ _ _ P) A) as U. rewrite at_eq in U.
  unfold esc_room, room in *. unfold esc_cost in *. lia.
Qed.
Lemma setKeyEscape_back src b : cstring s src b -> esc_room b -> decodes_back (zj_SetKeyEscape v src) (zj_GetUnEscapeKey v) b.
Proof.
  intros [N0 (sl & T)] R. pose proof R as R'. unfold esc_room, room in R'.
  assert (Hu : usedA s A + esc_cost b + 72 <= two30) by lia.
  destruct (setKeyEscape_wp s F v w A src b I H Hk sl T N0 Hu) as (r & s1 & E & P).
  destruct (key_res_back b r s1 P R) as (-> & o & s2 & E2 & T2). exists s1, o, s2. auto.
Qed.
Lemma setKeyLenEscape_back src b : holds s src b -> esc_room b ->
  decodes_back (zj_SetKeyLenEscape v src (lenN b)) (zj_GetUnEscapeKey v) b.
Proof.
  intros T R. pose proof R as R'. unfold esc_room, room in R'.
  assert (Hu : usedA s A + esc_cost b + 72 <= two30) by lia.
  destruct (setKeyLenEscape_wp s F v w A src b I H Hk T Hu) as (r & s1 & E & P).
  destruct (key_res_back b r s1 P R) as (-> & o & s2 & E2 & T2). exists s1, o, s2. auto.
Qed.
End Round.
End WithVol.
