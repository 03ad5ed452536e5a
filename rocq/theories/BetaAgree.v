(** zzzjson.h and the beta header give the same answers, apart from what the beta header does
    differently: the length of a parse, the key that an assignment takes over, and value
    objects that remember. *)
From Verif Require Import Base Spec Lex Alloc AllocProofs Mem Dom Double Vocab Hist HistRun HistForest HistSim HistStep HistAll HistTree PrintFacts ParseFacts ParseTop Scene
  HistDocs Beta BetaHist BetaStep BetaSim BetaCurrent BetaPlain.

Definition keyed (R : rst) (h : nat) : bool := match look R h with Some (Some (_, t), _) => is_some (tkey t) | _ => false end.
(** Not where the headers differ: a text parsed by its length has a 0 byte or is followed
    by one; of two values, one of which is set to the other, at least one is not a member of an
    object. *)
Definition agrees (c : call) (R : rst) : bool :=
  match c with
  | CParse PLen _ t pad => has0 t || match pad with 0 :: _ => true | _ => false end
  | CSet _ h hv => negb (keyed R h && keyed R hv)
  | _ => true
  end.
(** ... at every call *)
Fixpoint agreeing (jd : judge) (cs : list call) (R : rst) : bool :=
  match cs with
  | [] => true
  | c :: r => agrees c R && match rstep jd c R with Some (_, R1) => agreeing jd r R1 | None => true end
  end.

Lemma spend_only R l A n R1 : spend (lighten R l) A n = Some R1 -> R1 = lighten R (ru R1) /\ length (ru R1) = length l.
Proof.
  unfold spend. cbn [lighten ru]. destruct (nth_error l A); [|discriminate]. destruct (_ <=? _); [|discriminate]. intros [= <-]. split; [reflexivity|]. apply length_setn.
Qed.
Lemma scratch_only R l n R1 : scratch (lighten R l) n = Some R1 -> R1 = lighten R (ru R1) /\ length (ru R1) = length l.
Proof. unfold scratch. cbn [lighten ru]. destruct (forallb _ _); [|discriminate]. intros [= <-]. split; [reflexivity|]. apply map_length. Qed.
Lemma lighten_ru R : lighten R (ru R) = R. Proof. now destruct R. Qed.
Lemma spend_only' R A n R1 : spend R A n = Some R1 -> R1 = lighten R (ru R1) /\ length (ru R1) = length (ru R).
Proof. intro H. rewrite <- (lighten_ru R) in H at 1. now apply spend_only in H. Qed.
Lemma scratch_only' R n R1 : scratch R n = Some R1 -> R1 = lighten R (ru R1) /\ length (ru R1) = length (ru R).
Proof. intro H. rewrite <- (lighten_ru R) in H at 1. now apply scratch_only in H. Qed.
Lemma before0_app t pad : has0 t || match pad with 0 :: _ => true | _ => false end = true -> before0 (t ++ pad) = before0 t.
Proof.
  intro H. induction t as [|c t IH]; cbn in *.
  - destruct pad as [|[|p] pad]; try discriminate. reflexivity.
  - destruct (c =? 0) eqn:E; cbn in *; auto. f_equal. apply IH. destruct c; [discriminate|exact H].
Qed.
Lemma takekey_none G a b : (match G a with Some t => is_some (tkey t) | None => false end && match G b with Some t => is_some (tkey t) | None => false end) = false -> takekey G a b = G.
Proof.
  unfold takekey. destruct (G a) as [ta|]; auto. destruct (G b) as [tb|]; auto. destruct (tkey ta); auto. destruct (tkey tb); auto. discriminate.
Qed.
Lemma keeps_unkeyed n G G' a b ta tb : keeps n nobody G G' -> a < n -> b < n -> G a = Some ta -> G b = Some tb -> is_some (tkey ta) && is_some (tkey tb) = false ->
  takekey G' a b = G'.
Proof.
  intros K La Lb Ea Eb H. apply takekey_none. destruct (G' a) as [ta'|] eqn:Ea'; auto. destruct (G' b) as [tb'|] eqn:Eb'; [|apply Bool.andb_false_r].
  destruct (K a ta' La) as (x & X & Kx & _); auto. destruct (K b tb' Lb) as (y & Y & Ky & _); auto.
  rewrite Kx, Ky. assert (x = ta) by congruence. assert (y = tb) by congruence. now subst.
Qed.
Lemma dup_unkeyed R t j a ta : a < rn R -> rG R a = Some ta -> is_some (tkey ta) && is_some (tkey t) = false -> takekey (rG (duplicate R t j)) a (rn R) = rG (duplicate R t j).
Proof.
  intros La Ea H. apply takekey_none. destruct (rG (duplicate R t j) a) as [ta'|] eqn:Ea'; auto.
  destruct (keeps_duplicate R t j a ta' La) as (x & X & Kx & _); auto. assert (x = ta) by congruence. subst x. rewrite Kx.
  unfold duplicate. destruct (plant (rn R) j (rn R + 1)) as [[v g] n']. cbn [rG]. unfold put. rewrite N.eqb_refl. exact H.
Qed.

Lemma spend_any R l A n R1 : spend (lighten R l) A n = Some R1 -> exists l1, R1 = lighten R l1 /\ length l1 = length l.
Proof. intro H. apply spend_only in H as [H1 H2]. eauto. Qed.
Lemma spend_any' R A n R1 : spend R A n = Some R1 -> exists l1, R1 = lighten R l1 /\ length l1 = length (ru R).
Proof. intro H. apply spend_only' in H as [H1 H2]. eauto. Qed.
Lemma scratch_any R l n R1 : scratch (lighten R l) n = Some R1 -> exists l1, R1 = lighten R l1 /\ length l1 = length l.
Proof. intro H. apply scratch_only in H as [H1 H2]. eauto. Qed.
Lemma scratch_any' R n R1 : scratch R n = Some R1 -> exists l1, R1 = lighten R l1 /\ length l1 = length (ru R).
Proof. intro H. apply scratch_only' in H as [H1 H2]. eauto. Qed.

Section Step.
Variable jd : judge.
(** The two references do the same to the documents. *)
Lemma agree_step c R l x R1 y R2 : shape (rn R) (rG R) -> length l = length (ru R) -> agrees c R = true ->
  rstep jd c R = Some (x, R1) -> plain_step jd c (lighten R l) = Some (y, R2) ->
  y = x /\ exists l1, R2 = lighten R1 l1 /\ length l1 = length (ru R1).
Proof.
  intros Sh Ll Ag E1 E2.
  assert (Set_ : forall fast h hv, c = CSet fast h hv -> y = x /\ exists l1, R2 = lighten R1 l1 /\ length l1 = length (ru R1)).
  { intros fast h hv ->. cbn [plain_step zrstep rstep agrees] in *. rewrite ?look_light, ?rG_light in E2. unfold keyed in Ag.
    destruct (look R h) as [[w A]|] eqn:Lh; [|discriminate]. destruct (look R hv) as [[wv B]|] eqn:Lv; [|discriminate].
    destruct wv as [[b tb]|].
    2:{ injection E2 as <- <-. destruct fast; [injection E1 as <- <-; eauto|]. destruct (spend R B 16) as [R3|] eqn:Sp; [|discriminate]. injection E1 as <- <-.
        apply spend_only' in Sp as [E3 Sp]. split; auto. exists l. split; [now rewrite E3|congruence]. }
    destruct (look_lt _ _ _ _ _ Sh Lv) as [Gb Lb]. destruct fast.
    - destruct (unhook (rG R) b) as [G1|] eqn:Eu; [|discriminate]. destruct w as [[a ta]|].
      + destruct (look_lt _ _ _ _ _ Sh Lh) as [Ga La]. apply Bool.negb_true_iff in Ag.
        rewrite (keeps_unkeyed (rn R) (rG R) G1 a b ta tb) in E2; auto; [|eapply keeps_unhook; eauto].
        destruct (hand G1 a b true) as [G2|]; [|discriminate]. unfold checked in *. rewrite rn_light in E2.
        destruct (read _ G2 a); [|discriminate]. injection E1 as <- <-. injection E2 as <- <-. split; auto. exists l. split; [reflexivity|exact Ll].
      + injection E1 as <- <-. injection E2 as <- <-. split; auto. exists l. split; [reflexivity|exact Ll].
    - rewrite reads_light in E2. destruct (reads_as R b) as [j|]; [|discriminate]. destruct (spend R B _) as [R3|] eqn:Sp; [|discriminate].
      destruct (spend (lighten R l) B _) as [R4|] eqn:Sp' in E2; [|discriminate]. apply spend_only' in Sp as [E3 Sp]. apply spend_only in Sp' as [E4 Sp'].
      assert (E5 : R4 = lighten R3 (ru R4)) by (rewrite E4, E3; reflexivity). rewrite E5, dup_light in E2. clear E4.
      assert (G3 : rG R3 = rG R /\ rn R3 = rn R) by (rewrite E3; auto). destruct G3 as [G3 N3].
      rewrite ?rn_light, ?rG_light in E2. destruct w as [[a ta]|].
      + destruct (look_lt _ _ _ _ _ Sh Lh) as [Ga La]. apply Bool.negb_true_iff in Ag. rewrite (dup_unkeyed R3 tb j a ta) in E2; auto; [|lia|congruence].
        destruct (hand (rG (duplicate R3 tb j)) a (rn R3) false) as [G2|]; [|discriminate]. injection E1 as <- <-. injection E2 as <- <-.
        split; auto. exists (ru R4). split; [reflexivity|]. cbn [with_forest ru]. rewrite ru_dup. congruence.
      + injection E1 as <- <-. injection E2 as <- <-. split; auto. exists (ru R4). split; [reflexivity|]. cbn [with_handle ru]. rewrite ru_dup. congruence. }
  assert (Parse_ : forall k h t pad, c = CParse k h t pad -> y = x /\ exists l1, R2 = lighten R1 l1 /\ length l1 = length (ru R1)).
  { intros k h t pad ->. cbn [plain_step zrstep rstep agrees] in *. rewrite look_light in E2. destruct (look R h) as [[w A]|] eqn:Lh; [|discriminate].
    cbv zeta in *. match type of E1 with (if ?b then _ else _) = _ => destruct b eqn:C1; [|discriminate] end. match type of E2 with (if ?b then _ else _) = _ => destruct b eqn:C2; [|discriminate] end.
    assert (Et : before0 (pbuf k t pad) = match k with PLen => before0 t | _ => t end).
    { apply Bool.andb_true_iff in C1 as [C1 _]. apply Bool.andb_true_iff in C1 as [C1 _]. destruct k; cbn [pbuf]; [| |now apply before0_app].
      all: apply ok_c_no0 in C1; clear - C1; induction t as [|c t IH]; cbn; auto; (destruct (N.eqb_spec c 0) as [->|]; [elim C1; now left|]); f_equal; apply IH; intro K; apply C1; now right. }
    rewrite Et in E2. destruct (spend R A _) as [R3|] eqn:Sp; [|discriminate].
    destruct (spend (lighten R l) A _) as [R4|] eqn:Sp' in E2; [|discriminate]. apply spend_only' in Sp as [E3 Sp]. apply spend_only in Sp' as [E4 Sp'].
    assert (E5 : R4 = lighten R3 (ru R4)) by (rewrite E4, E3; reflexivity). clear E4. destruct (o_json jd _) as [j|].
    - injection E1 as <- <-. injection E2 as <- <-. split; auto. exists (ru R4). rewrite E5 at 1 2. rewrite assign_light, sealed_light. split; [reflexivity|].
      cbn [sealed with_forest ru]. rewrite ru_assign. congruence.
    - injection E1 as <- <-. injection E2 as <- <-. split; auto. exists (ru R4). split; [exact E5|congruence]. }
  destruct c; try exact (Set_ _ _ _ eq_refl); try exact (Parse_ _ _ _ _ eq_refl); clear Set_ Parse_ Ag.
  { cbn in E1, E2. injection E1 as <- <-. injection E2 as <- <-. rewrite Ll. split; auto. exists (l ++ [0]). split; [reflexivity|].
    cbn [ru]. rewrite !app_length. congruence. }
  all: try destruct d as [sg m e|sg|sg]; revert E1 E2; cbn [plain_step zrstep rstep doubleb]; unfold plain_get; cbv beta iota zeta delta [now];
    unfold copy_text, give, zgive, set_if, seal_if, key_if, checked;
    rewrite ?look_light, ?rG_light, ?rn_light, ?rh_light, ?allowed_light.
  all: repeat match goal with
       | |- None = Some _ -> _ => intro; discriminate
       | |- _ -> None = Some _ -> _ => intros _; intro; discriminate
       | |- context [match spend ?r ?a ?n with _ => _ end] =>
           let e := fresh "e" in let R3 := fresh "R" in let L3 := fresh "L" in
           destruct (spend r a n) as [R3|] eqn:e; [first [apply spend_any in e|apply spend_any' in e]; destruct e as (?l & -> & L3); rewrite ?dup_light, ?rG_light, ?rn_light|]
       | |- context [match scratch ?r ?n with _ => _ end] =>
           let e := fresh "e" in let R3 := fresh "R" in let L3 := fresh "L" in
           destruct (scratch r n) as [R3|] eqn:e; [first [apply scratch_any in e|apply scratch_any' in e]; destruct e as (?l & -> & L3); rewrite ?dup_light, ?rG_light, ?rn_light|]
       | |- context [match ?z with _ => _ end] =>
           lazymatch z with
           | context [match _ with _ => _ end] => fail
           | _ => destruct z; cbn [option_map negb orb andb fst snd]; rewrite ?look_light, ?rG_light, ?rn_light, ?rh_light, ?allowed_light, ?reads_light, ?child_light, ?keysok_light
           end
       end.
  all: rewrite ?assign_light, ?assignkey_light, ?sealed_light, ?forest_light, ?handle_light, ?new_light, ?dup_light, ?forest_light, ?handle_light, ?new_light.
  all: try solve [intros [= <- <-] [= <- <-]; split; [reflexivity|]; eexists; split; [reflexivity|cbn [lighten with_forest with_handle new_value ru]; rewrite ?ru_dup; congruence]].
Qed.
End Step.
(** ** Whole programs *)
Lemma agree_run jd : correct jd -> forall cs R l x R1 y R2, (forall p q ys R', cs = p ++ q -> rrun jd p R = Some (ys, R') -> shape (rn R') (rG R')) ->
  length l = length (ru R) -> agreeing jd cs R = true -> rrun jd cs R = Some (x, R1) -> plain_run jd cs (lighten R l) = Some (y, R2) ->
  y = x /\ exists l1, R2 = lighten R1 l1.
Proof.
  intros J. induction cs as [|c cs IH]; intros R l x R1 y R2 Sh Ll Ag E1 E2; cbn [rrun plain_run agreeing] in *.
  - injection E1 as <- <-. injection E2 as <- <-. eauto.
  - destruct (rstep jd c R) as [[x0 R3]|] eqn:Ec; [|discriminate]. destruct (rrun jd cs R3) as [[xs R4]|] eqn:Er; [|discriminate]. injection E1 as <- <-.
    destruct (distinct _); [|discriminate]. destruct (plain_step jd c (lighten R l)) as [[y0 R5]|] eqn:Ep; [|discriminate].
    destruct (plain_run jd cs R5) as [[ys R6]|] eqn:Eq; [|discriminate]. injection E2 as <- <-. apply Bool.andb_true_iff in Ag as [Ag1 Ag2].
    destruct (agree_step jd c R l x0 R3 y0 R5) as (-> & l1 & -> & L1); auto; [now apply (Sh [] (c :: cs) [] R)|].
    destruct (IH R3 l1 xs R4 ys R6) as (-> & l2 & ->); eauto.
    intros p q zs R' -> Hp. apply (Sh (c :: p) q (x0 :: zs) R'); auto. cbn [rrun]. now rewrite Ec, Hp.
Qed.
Theorem both_headers jd cs xs R ys R' : correct jd -> rrun jd cs rstart = Some (xs, R) -> plain_run jd cs rstart = Some (ys, R') -> agreeing jd cs rstart = true ->
  exists f0, forall fuel, (f0 <= fuel)%nat -> exists E s E' B s' l,
    crun fuel cs estart init = Ok ((xs, E), s) /\ represents R E s /\
    brun fuel cs estart bstart init = Ok (((xs, E'), B), s') /\ represents (lighten R l) E' s'.
Proof.
  intros J H1 H2 Ag. destruct (program jd cs xs R J H1) as (f1 & K1).
  destruct (agree_run jd J cs rstart [] xs R ys R') as (-> & l & ->); auto.
  { intros p q zs R0 -> Hp. destruct (program jd p zs R0 J Hp) as (f & K). destruct (K f (le_n _)) as (E & s & _ & Rp). eapply represents_shape; eauto. }
  exists (Nat.max f1 (bmost jd cs (rstart, []))). intros fuel Hf. destruct (K1 fuel) as (E & s & Er & Rp); [lia|].
  destruct (plain_program jd cs xs _ J H2 fuel) as (l' & E' & B & s' & Eb & Rb); [lia|].
  exists E, s, E', B, s', l'. auto.
Qed.
