(** Programs that decide by the answers what to do next.

    Hist.v runs fixed lists of calls.  Here a program is a tree: after each step it goes on
    according to the answer.  Besides the calls of Hist.v there are two steps in which a
    pointer result of one call is an argument of the next, as in the samples that come with
    the library (sample/c/sample.c:34-35, 61-77, sample/c++/sample.cpp:36-40, 67-90):

    - [KeyOf len h hs]: the key of [hs] becomes the key of [h], by
      zj_SetKeyFast(h, zj_GetKey(hs)), or with the length by
      k = zj_GetKeyFast(hs, &l); if (k == 0) ...; zj_SetKeyLenFast(h, k, l);
    - [TextOf num len h hs]: the text of the string (number) [hs] becomes the one of [h], by
      s = zj_GetStr(hs); if (s == 0) ...; zj_SetStrFast(h, s), or with the length by
      zj_GetStrFast and zj_SetStrLenFast (for numbers: zj_GetNumStr, zj_SetNumStrFast,
      zj_GetNumFast, zj_SetNumStrLenFast).

    Nothing is copied by the caller in these steps: the new node points to the memory the
    getter's result is in. *)
From Verif Require Import Base Spec Lex LexProofs Alloc AllocProofs Mem MemProofs Api PureParse Dom Effect Steps StringifyProofs
  ParseProofs ParseTop CacheProofs SetProofs Update KeyProofs GetProofs CopyProofs LinkProofs MoveProofs IntProofs EscProofs Start Vocab
  ParseFacts PrintFacts Scene ReadFacts SetFacts Double DoubleProofs DoubleFacts ParseEnds Hist HistRun HistForest HistSim HistStep HistAll.

Inductive stmt :=
| Api (c : call)
| KeyOf (len : bool) (h hs : nat)
| TextOf (num len : bool) (h hs : nat).

(** ** On the reference *)
Section Ref.
Variable jd : judge.
Definition sstep (c : stmt) (R : rst) : option (answer * rst) :=
  match c with
  | Api c => rstep jd c R
  | KeyOf len h hs =>
      match look R hs with
      | None => None
      | Some (w, A) =>
          match (match w with Some (_, t) => tkey t | None => None end) with
          | None => if len then Some (Done, R) else None
          | Some b =>
              match (if len then Some R else spend R A (lenN b + 1)) with
              | None => None
              | Some R1 => rstep jd (CSetKey (if len then KLenFast else KFast) h b) R1
              end
          end
      end
  | TextOf num len h hs =>
      match look R hs with
      | None => None
      | Some (w, A) =>
          match (match w with Some (_, t) => ntext num (tvalue t) | None => None end) with
          | None => Some (Done, R)
          | Some b =>
              match (if len then Some R else spend R A (lenN b + 1)) with
              | None => None
              | Some R1 => rstep jd (CSetText num (if len then KLenFast else KFast) h b) R1
              end
          end
      end
  end.
End Ref.

(** ** On the model *)
Definition mstep (fuel : nat) (c : stmt) (E : env) : M (answer * env) :=
  match c with
  | Api c => cstep fuel c E
  | KeyOf len h hs =>
      vs <- hof E hs ;;
      if len then
        r <- zj_GetKeyFast vs ;;
        match r with
        | None => ret (Done, E)
        | Some (w, n) => v <- hof E h ;; p <- deref w ;; with_env E Bool (zj_SetKeyLenFast v p n)
        end
      else
        r <- zj_GetKey vs ;;
        match r with
        | None => fail EDeref   (* strlen of a null pointer *)
        | Some w => v <- hof E h ;; p <- deref w ;; with_env E Bool (zj_SetKeyFast v p)
        end
  | TextOf num len h hs =>
      vs <- hof E hs ;;
      if len then
        r <- (if num then zj_GetNumFast vs else zj_GetStrFast vs) ;;
        match r with
        | None => ret (Done, E)
        | Some (w, n) => v <- hof E h ;; p <- deref w ;; with_env E Bool (if num then zj_SetNumStrLenFast v p n else zj_SetStrLenFast v p n)
        end
      else
        r <- (if num then zj_GetNumStr vs else zj_GetStr vs) ;;
        match r with
        | None => ret (Done, E)
        | Some w => v <- hof E h ;; p <- deref w ;; with_env E Bool (if num then zj_SetNumStrFast v p else zj_SetStrFast v p)
        end
  end.

(** ** Programs *)
Inductive prog (X : Type) :=
| Ret (x : X)
| Stuck                                       (* out of its own fuel, or an answer of the wrong kind *)
| Act (c : stmt) (k : answer -> prog X).
Arguments Ret {X} x.
Arguments Stuck {X}.
Arguments Act {X} c k.

Fixpoint rplay {X} (jd : judge) (p : prog X) (R : rst) : option (X * rst) :=
  match p with
  | Ret x => Some (x, R)
  | Stuck => None
  | Act c k => match sstep jd c R with Some (a, R1) => rplay jd (k a) R1 | None => None end
  end.
Fixpoint mplay {X} (fuel : nat) (p : prog X) (E : env) : M (X * env) :=
  match p with
  | Ret x => ret (x, E)
  | Stuck => fail EFuel
  | Act c k => ae <- mstep fuel c E ;; mplay fuel (k (fst ae)) (snd ae)
  end.
Definition spasses (c : stmt) (R : rst) : nat := match c with Api c => passes c R | _ => 0%nat end.
Fixpoint pmost {X} (jd : judge) (p : prog X) (R : rst) : nat :=
  match p with
  | Act c k => match sstep jd c R with Some (a, R1) => Nat.max (spasses c R) (pmost jd (k a) R1) | None => 0%nat end
  | _ => 0%nat
  end.

(** ** The two agree *)
(** A pointer to a text in place that documents may use. *)
Lemma fastText_safe {VV : vols} s F v a A f t : inv s F -> handle s F v (At a) A -> F a = Some f -> t = TNumber \/ t = TString ->
  wp (with_type v t (fun _ _ n => l <- rLen n ;; ret (Some (nVal n, l)))) s
     (fun r s' => s' = s /\ match ftext t (fvalue f) with
                            | None => r = None
                            | Some b => exists p, r = Some (At p, lenN b) /\ safetext s p b end).
Proof.
  intros I H Fa Ht. eapply with_text; eauto.
  - intro E. split; auto. rewrite E. auto.
  - intros n b p E El Ev Sf. apply wp_bind, (wp_rLen _ _ _ _ El). apply wp_ret. split; auto. rewrite E.
    exists p. rewrite Ev. split; auto.
Qed.
Lemma fastKey_safe {VV : vols} s F v a A f : inv s F -> handle s F v (At a) A -> F a = Some f ->
  wp (zj_GetKeyFast v) s
     (fun r s' => s' = s /\ match fkey f with
                            | None => r = None
                            | Some b => exists p, r = Some (At p, lenN b) /\ safetext s p b end).
Proof.
  intros I H Fa. eapply with_key_node; eauto.
  - intro E. split; auto. rewrite E. auto.
  - intros n b p E _ _ Ek El Sf. apply wp_bind, (wp_rKeyLen _ _ _ _ El). apply wp_ret. split; auto. rewrite E.
    exists p. rewrite Ek. split; auto.
Qed.

Section Agree.
Variable jd : judge.
Hypothesis J : correct jd.

Definition gets {VV : vols} (x : answer) (R' : rst) (xe : answer * env) (s' : st) : Prop :=
  fst xe = x /\ cache_own (snd xe) s' /\ exists nm' F', sim R' (snd xe) nm' F' s'.
Lemma ends_gets {VV : vols} {NN : need} E F R' x X (f : X -> answer) m s : cache_own E s ->
  wp m s (ends E F X (fun r => f r = x) R' (fun _ => E) s) -> wp (with_env E f m) s (gets x R').
Proof.
  intros O H. unfold with_env. apply wp_bind. eapply wp_mono; [exact H|]. intros r s' (Hr & nm' & F' & Af). apply wp_ret.
  split; [exact Hr|]. split; [eapply own_after; eauto|]. exists nm', F'. apply (af_sim _ _ _ _ _ _ _ _ Af).
Qed.

(** Setting from a text that is somewhere in memory. *)
Lemma text_at_wp {VV : vols} num h t R x R' E nm F s v p : rstep jd (CSetText num KFast h t) R = Some (x, R') ->
  sim R E nm F s -> cache_own E s -> nth_error (eh E) h = Some v -> safetext s p (t ++ [0]) -> text_at s p = t ++ [0] ->
  wp (with_env E Bool (if num then zj_SetNumStrFast v p else zj_SetStrFast v p)) s (gets x R').
Proof.
  intros St S O Hv Sf Tx. cbn [rstep] in St. apply (@ends_gets VV 0 E F); auto.
  destruct (look R h) as [[w k]|] eqn:L; [|discriminate].
  destruct (look_handle _ _ _ _ _ _ _ _ S L) as (v' & A & Hv' & HA & HiA & Hrh & Hh & Himg). replace v' with v in * by congruence. clear Hv'.
  set (ok := if num then o_num jd t else o_str jd t) in *. set (j := if num then JNum t else JStr t) in *.
  set (check := if num then zj_checkNum else zj_checkStr). set (ty := if num then TNumber else TString).
  set (mk := if num then VNum else VStr). set (good := if num then number else strbody_set).
  assert (Hk : check = zj_checkNum /\ ty = TNumber /\ mk = VNum /\ good = number \/
               check = zj_checkStr /\ ty = TString /\ mk = VStr /\ good = strbody_set) by (destruct num; auto).
  assert (Hg : ok = true <-> good t) by (destruct num; [apply (jd_num jd J)|apply (jd_str jd J)]).
  assert (Ej : jval (mk t) = j) by (destruct num; auto).
  destruct (_ && _) eqn:C; [|discriminate]. apply andb_prop in C as [N0 Fi]. apply ok_c_no0 in N0. apply fits_len in Fi.
  destruct (spend R k _) as [R1|] eqn:Sp; [|discriminate]. spent S HA Sp ru' Py Le. rewrite <- Ej in St.
  replace (if num then zj_SetNumStrFast v p else zj_SetStrFast v p) with (set_text_fast check ty v p) by (destruct num; reflexivity).
  eapply (seal_if_ends E F R nm s h w k v A S L Hv HA); eauto; [eapply mine_at; eauto| |].
  - eapply set_text_fast_wp; eauto; [apply S|eapply safetext_app; exact Sf].
  - intros s' F' a Em Pa. eapply leaf_ended; eauto.
    + intros b Eb. assert (b = t) as -> by (rewrite Ej in Eb; subst j; destruct num; congruence).
      unfold set_text_fast in Em. apply bind_inv in Em as (tx & s2 & E1 & Em). injection E1 as _ <-.
      apply bind_inv in Em as (o & s2 & E1 & Em). unfold lift in E1. destruct (check tx) as [o'|]; [|discriminate]. injection E1 as <- <-.
      destruct o' as [l|]; [|discriminate].
      destruct (scalar_points _ _ _ _ _ _ _ Em) as (a' & A' & n & V' & N' & Ep). rewrite (pd_val _ _ _ _ _ _ _ _ _ _ Pa) in V'. injection V' as <- _.
      exists n, p. split; auto. split; auto. eapply safetext_ext; [apply (pd_ext _ _ _ _ _ _ _ _ _ _ Pa)|exact Sf].
    + intro l. rewrite Ej. subst j. destruct num; discriminate.
    + intro l. rewrite Ej. subst j. destruct num; discriminate.
Qed.
Lemma text_len_wp {VV : vols} num h t R x R' E nm F s v p : rstep jd (CSetText num KLenFast h t) R = Some (x, R') ->
  sim R E nm F s -> cache_own E s -> nth_error (eh E) h = Some v -> safetext s p t ->
  wp (with_env E Bool (if num then zj_SetNumStrLenFast v p (lenN t) else zj_SetStrLenFast v p (lenN t))) s (gets x R').
Proof.
  intros St S O Hv Sf. cbn [rstep] in St. apply (@ends_gets VV (check_cost (lenN t) + lenN t + 72) E F); auto.
  destruct (look R h) as [[w k]|] eqn:L; [|discriminate].
  destruct (look_handle _ _ _ _ _ _ _ _ S L) as (v' & A & Hv' & HA & HiA & Hrh & Hh & Himg). replace v' with v in * by congruence. clear Hv'.
  set (ok := if num then o_num jd t else o_str jd t) in *. set (j := if num then JNum t else JStr t) in *.
  set (check := if num then zj_checkNum else zj_checkStr). set (ty := if num then TNumber else TString).
  set (mk := if num then VNum else VStr). set (good := if num then number else strbody_set).
  assert (Hk : check = zj_checkNum /\ ty = TNumber /\ mk = VNum /\ good = number \/
               check = zj_checkStr /\ ty = TString /\ mk = VStr /\ good = strbody_set) by (destruct num; auto).
  assert (Hg : ok = true <-> good t) by (destruct num; [apply (jd_num jd J)|apply (jd_str jd J)]).
  assert (Ej : jval (mk t) = j) by (destruct num; auto).
  destruct (fits t) eqn:Fi; [|discriminate]. apply fits_len in Fi. destruct (scratch R _) as [R1|] eqn:Sp; [|discriminate].
  rewrite <- Ej in St. pose proof (own_ready E s (check_cost (lenN t) + lenN t + 72) O) as Cr.
  destruct (scratch_pays R E nm F s _ R1 (len_set_cost s A (lenN t)) S Sp) as (ru' & -> & Py & Le).
  { intro A'. unfold len_set_cost, addc. pose proof (at_le (cache_home s A) (check_cost (lenN t)) A'). pose proof (at_le A (lenN t + 72) A'). lia. }
  destruct (home_room E s A _ HiA Le Cr) as [L1 L2].
  eapply (set_if_ends E F R nm s h w k v A S L Hv HA); eauto; [apply home_mine; [auto|apply Cr|unfold needN; lia]|].
  replace (if num then zj_SetNumStrLenFast v p (lenN t) else zj_SetStrLenFast v p (lenN t)) with (set_text_len_fast check ty v p (lenN t)) by (destruct num; reflexivity).
  eapply set_text_len_fast_wp; eauto; [apply S|now apply safetext_src|apply Cr|lia|lia].
Qed.
Lemma key_at_wp {VV : vols} h t R x R' E nm F s v p : rstep jd (CSetKey KFast h t) R = Some (x, R') ->
  sim R E nm F s -> cache_own E s -> nth_error (eh E) h = Some v -> safetext s p (t ++ [0]) -> text_at s p = t ++ [0] ->
  wp (with_env E Bool (zj_SetKeyFast v p)) s (gets x R').
Proof.
  intros St S O Hv Sf Tx. cbn [rstep] in St. apply (@ends_gets VV 0 E F); auto.
  destruct (look R h) as [[w k]|] eqn:L; [|discriminate].
  destruct (look_handle _ _ _ _ _ _ _ _ S L) as (v' & A & Hv' & HA & HiA & Hrh & Hh & Himg). replace v' with v in * by congruence. clear Hv'.
  pose proof (jd_str jd J t) as Hg.
  destruct (_ && _) eqn:C; [|discriminate]. apply andb_prop in C as [N0 Fi]. apply ok_c_no0 in N0. apply fits_len in Fi.
  destruct (spend R k _) as [R1|] eqn:Sp; [|discriminate]. spent S HA Sp ru' Py Le.
  eapply (key_if_ends E F R nm s h w k v A S L Hv HA); eauto; [eapply mine_at; eauto|]. intro Fk.
  eapply setKeyFast_wp; eauto; [apply S|eapply safetext_app; exact Sf].
Qed.
Lemma key_len_wp {VV : vols} h t R x R' E nm F s v p : rstep jd (CSetKey KLenFast h t) R = Some (x, R') ->
  sim R E nm F s -> cache_own E s -> nth_error (eh E) h = Some v -> safetext s p t ->
  wp (with_env E Bool (zj_SetKeyLenFast v p (lenN t))) s (gets x R').
Proof.
  intros St S O Hv Sf. cbn [rstep] in St. apply (@ends_gets VV (check_cost (lenN t) + lenN t + 72) E F); auto.
  destruct (look R h) as [[w k]|] eqn:L; [|discriminate].
  destruct (look_handle _ _ _ _ _ _ _ _ S L) as (v' & A & Hv' & HA & HiA & Hrh & Hh & Himg). replace v' with v in * by congruence. clear Hv'.
  pose proof (jd_str jd J t) as Hg.
  destruct (fits t) eqn:Fi; [|discriminate]. apply fits_len in Fi. destruct (scratch R _) as [R1|] eqn:Sp; [|discriminate].
  pose proof (own_ready E s (check_cost (lenN t) + (72 + lenN t)) O) as Cr.
  destruct (scratch_pays R E nm F s _ R1 (len_key_cost s A (lenN t)) S Sp) as (ru' & -> & Py & Le).
  { intro A'. unfold len_key_cost, addc. pose proof (at_le (cache_home s A) (check_cost (lenN t)) A'). pose proof (at_le A (72 + lenN t) A'). lia. }
  replace (check_cost (lenN t) + lenN t + 72) with (check_cost (lenN t) + (72 + lenN t)) in * by lia.
  destruct (home_room E s A _ HiA Le Cr) as [L1 L2].
  eapply (key_if_ends E F R nm s h w k v A S L Hv HA); eauto; [apply home_mine; [auto|apply Cr|unfold needN; lia]|]. intro Fk.
  eapply setKeyLenFast_wp; eauto; [apply S|apply Cr|lia|lia].
Qed.

Lemma same_state R : R = mkR (rG R) (rn R) (rh R) (ru R). Proof. now destruct R. Qed.
Lemma look_value {VV : vols} R E nm F s h w k : sim R E nm F s -> look R h = Some (w, k) -> exists v, nth_error (eh E) h = Some v.
Proof. intros S L. destruct (look_handle _ _ _ _ _ _ _ _ S L) as (v & A & Hv & _). eauto. Qed.
Lemma settext_value {VV : vols} num kd h t R x R' E nm F s : rstep jd (CSetText num kd h t) R = Some (x, R') -> sim R E nm F s -> exists v, nth_error (eh E) h = Some v.
Proof. intros St S. cbn [rstep] in St. destruct (look R h) as [[w k]|] eqn:L; [|discriminate]. eapply look_value; eauto. Qed.
Lemma setkey_value {VV : vols} kd h t R x R' E nm F s : rstep jd (CSetKey kd h t) R = Some (x, R') -> sim R E nm F s -> exists v, nth_error (eh E) h = Some v.
Proof. intros St S. cbn [rstep] in St. destruct (look R h) as [[w k]|] eqn:L; [|discriminate]. eapply look_value; eauto. Qed.

(** After a getter that copied. *)
Lemma copied_sim {VV : vols} R E nm F s k A n R1 s1 : sim R E nm F s -> cache_own E s -> nth_error (ea E) k = Some A -> spend R k n = Some R1 ->
  ext none none (at_ A n) s s1 -> sim R1 E nm F s1 /\ cache_own E s1.
Proof.
  intros S O HA Sp X. spent S HA Sp ru' Py Le.
  assert (Af : @after VV 0 E F s (mkR (rG R) (rn R) (rh R) ru') E nm F s1).
  { eapply after_same; eauto. apply mine_at. eapply nth_error_In; eauto. }
  split; [apply (af_sim _ _ _ _ _ _ _ _ Af)|eapply own_after; eauto].
Qed.

Ltac emp Hh := 
  match type of Hh with handle ?s ?F ?v _ ?A =>
    pose proof (empty_reads s F v A Hh (0, 0) 0%nat 0) as
      (eType & eSize & eNull & eBool & eStr & eStrF & eUn & eNum & eNumF & eInt & eLong & _ & eKey & eKeyF & eUnKey & _) end.
Ltac node Himg i t f Gi Fi Ik Iv Ip := destruct (Himg i t eq_refl) as (Gi & f & Fi & Ik & Iv & Ip).
Lemma stmt_wp c R x R' : sstep jd c R = Some (x, R') ->
  forall (VV : vols) E nm F s fuel, (spasses c R <= fuel)%nat -> sim R E nm F s -> cache_own E s -> wp (mstep fuel c E) s (gets x R').
Proof.
  destruct c as [c|len h hs|num len h hs]; intros St VV E nm F s fuel Hf S O.
  - cbn [sstep mstep spasses] in *. destruct (step jd J c R x R' St) as (f1 & L1 & K1).
    eapply wp_mono; [apply (K1 VV E nm F s fuel); [lia|auto|intros _; now apply own_ready]|].
    intros xe s1 (Hx & nm1 & F1 & Af). split; auto. split; [eapply own_after; eauto|]. exists nm1, F1. apply (af_sim _ _ _ _ _ _ _ _ Af).
  - cbn [sstep mstep] in *. destruct (look R hs) as [[w k]|] eqn:L; [|discriminate]. looked S L vs A Hvs HA.
    destruct w as [[i t]|]; cbn [option_map fst snd wopt] in *.
    + node Himg i t f Gi Fi Ik Iv Ip. destruct len.
      * apply wp_bind. eapply wp_mono; [eapply fastKey_safe; eauto; apply S|]. intros r s' [-> Hr]. rewrite Ik in Hr.
        destruct (tkey t) as [b|].
        -- destruct Hr as (p & -> & Sf). destruct (setkey_value _ _ _ _ _ _ _ _ _ _ St S) as (v & Hv).
           apply (hof_wp _ _ v); [exact Hv|]. apply wp_bind, wp_deref. eapply key_len_wp; eauto.
        -- subst r. injection St as <- <-. apply wp_ret. split; auto. split; auto. exists nm, F. exact S.
      * destruct (tkey t) as [b|] eqn:Ek; [|discriminate]. destruct (spend R k _) as [R1|] eqn:Sp; [|discriminate].
        pose proof Sp as Sp'. destruct (spend_pays _ _ _ _ _ _ _ _ _ S HA Sp') as (ru' & _ & _ & Le).
        apply wp_bind. eapply wp_mono; [eapply getKey_wp; eauto; [apply S|rewrite Ik; exact Le]|].
        intros r s1 Hr. rewrite Ik in Hr. cbn [olen] in Hr. destruct Hr as (p & -> & X & Fl).
        destruct (copied_sim _ _ _ _ _ _ _ _ _ _ S O HA Sp X) as [S1 O1]. destruct (setkey_value _ _ _ _ _ _ _ _ _ _ St S1) as (v & Hv).
        apply (hof_wp _ _ v); [exact Hv|]. apply wp_bind, wp_deref. eapply key_at_wp; eauto; apply Fl.
    + emp Hh. destruct len; [|discriminate]. injection St as <- <-. apply wp_bind. eapply ok_wp; [exact eKeyF|]. apply wp_ret. split; auto. split; auto. exists nm, F. exact S.
  - cbn [sstep mstep] in *. destruct (look R hs) as [[w k]|] eqn:L; [|discriminate]. looked S L vs A Hvs HA.
    destruct w as [[i t]|]; cbn [option_map fst snd wopt] in *.
    + node Himg i t f Gi Fi Ik Iv Ip. pose proof (ntext_img nm (tvalue t) num) as En. rewrite <- Iv in En. destruct len.
      * apply wp_bind. eapply wp_mono.
        { replace (if num then zj_GetNumFast vs else zj_GetStrFast vs)
            with (with_type vs (if num then TNumber else TString) (fun _ _ n => l <- rLen n ;; ret (Some (nVal n, l)))) by (destruct num; reflexivity).
          eapply fastText_safe; eauto; [apply S|destruct num; auto]. }
        intros r s' [-> Hr]. rewrite En in Hr. destruct (ntext num (tvalue t)) as [b|].
        -- destruct Hr as (p & -> & Sf). destruct (settext_value _ _ _ _ _ _ _ _ _ _ _ St S) as (v & Hv).
           apply (hof_wp _ _ v); [exact Hv|]. apply wp_bind, wp_deref. eapply text_len_wp; eauto.
        -- subst r. injection St as <- <-. apply wp_ret. split; auto. split; auto. exists nm, F. exact S.
      * destruct (ntext num (tvalue t)) as [b|] eqn:Et.
        -- destruct (spend R k _) as [R1|] eqn:Sp; [|discriminate].
           pose proof Sp as Sp'. destruct (spend_pays _ _ _ _ _ _ _ _ _ S HA Sp') as (ru' & _ & _ & Le).
           apply wp_bind. eapply (wp_mono _ _ (copied s A (olen (Some b) + 1) (Some b))).
           { rewrite <- En. destruct num; [eapply getNumStr_wp|eapply getStr_wp]; eauto; try apply S; rewrite En; exact Le. }
           intros r s1 Hr. cbn [olen] in Hr. destruct Hr as (p & -> & X & Fl).
           destruct (copied_sim _ _ _ _ _ _ _ _ _ _ S O HA Sp X) as [S1 O1]. destruct (settext_value _ _ _ _ _ _ _ _ _ _ _ St S1) as (v & Hv).
           apply (hof_wp _ _ v); [exact Hv|]. apply wp_bind, wp_deref. eapply text_at_wp; eauto; apply Fl.
        -- injection St as <- <-. apply wp_bind. eapply (wp_mono _ _ (fun r s' => r = None /\ s' = s)).
           { replace (if num then zj_GetNumStr vs else zj_GetStr vs) with
               (with_type vs (if num then TNumber else TString) (fun x _ n => l <- rLen n ;; w <- copy_out (vA x) (nVal n) l ;; ret (Some w))) by (destruct num; reflexivity).
             eapply with_text; eauto; [apply S|destruct num; auto|]. intros n b p Eb. congruence. }
           intros r s1 [-> ->]. apply wp_ret. split; auto. split; auto. exists nm, F. exact S.
    + emp Hh. injection St as <- <-. destruct len, num; (apply wp_bind; eapply ok_wp; [first [exact eNumF|exact eStrF|exact eNum|exact eStr]|]);
        apply wp_ret; (split; [auto|]; split; [auto|]; exists nm, F; exact S).
Qed.

Theorem play_most X (p : prog X) : forall R x R', rplay jd p R = Some (x, R') ->
  forall (VV : vols) E nm F s fuel, (pmost jd p R <= fuel)%nat -> sim R E nm F s -> cache_own E s ->
    wp (mplay fuel p E) s (fun xe s' => fst xe = x /\ cache_own (snd xe) s' /\ exists nm' F', sim R' (snd xe) nm' F' s').
Proof.
  induction p as [x0| |c k IH]; intros R x R' H VV E nm F s fuel Hf S O; cbn [rplay mplay pmost] in *.
  - injection H as <- <-. apply wp_ret. split; auto. split; auto. exists nm, F. exact S.
  - discriminate.
  - destruct (sstep jd c R) as [[a R1]|] eqn:E1; [|discriminate].
    apply wp_bind. eapply wp_mono; [apply (stmt_wp c R a R1 E1 VV E nm F s fuel); [lia|exact S|exact O]|].
    intros xe s1 (Hx & O1 & nm1 & F1 & S1). rewrite Hx. eapply (IH a R1 x R' H VV); eauto. lia.
Qed.
Theorem client X (p : prog X) x R : rplay jd p rstart = Some (x, R) ->
  forall fuel, (pmost jd p rstart <= fuel)%nat -> exists E s, mplay fuel p estart init = Ok ((x, E), s) /\ represents R E s.
Proof.
  intros H fuel Hf.
  destruct (play_most X p rstart x R H novols estart _ nodocs init fuel Hf start_sim start_own) as ([x' E] & s & Er & Hr & _ & nm' & F' & S).
  cbn [fst snd] in *. subst x'. exists E, s. split; auto. exists nm', F'. exact S.
Qed.
End Agree.
