(** Every call of the beta header against the reference semantics (BetaHist.v), the caches
    left aside.  The proofs follow HistStep.v. *)
From Verif Require Import Base Spec Lex LexProofs Alloc AllocProofs Mem MemProofs Api PureParse Dom Effect Steps StringifyProofs
  ParseProofs ParseTop CacheProofs SetProofs Update KeyProofs GetProofs CopyProofs LinkProofs MoveProofs IntProofs EscProofs Start Vocab
  ParseFacts PrintFacts Scene ReadFacts SetFacts Double DoubleProofs DoubleFacts ParseEnds Hist HistRun HistForest HistSim HistStep Beta BetaProofs BetaCalls BetaHist.

Definition zsimulated (jd : judge) (c : call) : Prop := forall R x R', zrstep jd c R = Some (x, R') ->
  exists f0, (f0 <= passes c R)%nat /\ forall (VV : vols) E nm F s fuel, (f0 <= fuel)%nat -> sim R E nm F s -> (cneed c <> 0 -> cache_ready E s (cneed c)) ->
    wp (zstep fuel c E) s (@goes VV (cneed c) E F s x R').
Lemma plain c : (forall R jd, zrstep jd c R = None \/ zrstep jd c R = rstep jd c R) -> (forall fuel E, zstep fuel c E = cstep fuel c E) ->
  forall jd, simulated jd c -> zsimulated jd c.
Proof.
  intros H1 H2 jd K R x R' St. destruct (H1 R jd) as [H|H]; [congruence|]. rewrite H in St.
  destruct (K R x R' St) as (f0 & L0 & K'). exists f0. split; auto. intros VV E nm F s fuel Hf Sm Cr. rewrite H2. now apply (K' VV E nm F s fuel).
Qed.
Ltac node Himg i t f Gi Fi Ik Iv Ip := destruct (Himg i t eq_refl) as (Gi & f & Fi & Ik & Iv & Ip).

Section Steps.
Variable jd : judge.
Hypothesis J : correct jd.

(** ** Value objects for children *)
Section Give.
Context {VV : vols} {NN : need}.
Variables (E : env) (F : dom) (R : rst) (nm : N -> addr) (s : st) (k : nat) (A : N).
Hypothesis S : sim R E nm F s.
Hypothesis HA : nth_error (ea E) k = Some A.
Lemma zgive_ends (m : M (option addr)) o x R' : zgive R k o = Some (x, R') -> (forall c, o = Some c -> c < rn R) ->
  (usedA s A + 48 <= two30 -> wp m s (fun r s' => exists o', o' = option_map nm o /\ new_zhandle s A o' r s')) ->
  wp m s (ends E F (option addr) (fun r => fst (out_value E r) = x) R' (fun r => snd (out_value E r)) s).
Proof.
  intros Gv Lt H. unfold zgive in Gv. destruct (spend R k 48) as [R1|] eqn:Sp; [|discriminate]. spent S HA Sp ru' Py Le.
  eapply wp_mono; [exact (H Le)|]. assert (Mi : mine E s (at_ A 48)) by (apply mine_at; eapply nth_error_In; eauto).
  intros r s' (o' & -> & K). destruct o as [c|]; cbn [option_map new_zhandle] in K.
  - destruct K as (v & -> & B & V & X). injection Gv as <- <-. split; [cbn; now rewrite (sm_lh _ _ _ _ _ S)|].
    exists nm, F. cbn [out_value snd]. refine (after_add R E nm F s nm F s' _ _ k v A S (after_same R E nm F s ru' s' _ S Py X Mi) HA _ B _); [apply V|].
    intros i Hi. injection Hi as <-. cbn. now apply Lt.
  - destruct K as [-> ->]. injection Gv as <- <-. split; auto. exists nm, F. cbn [out_value snd]. eapply (after_same R E nm F s ru' s zeroc); eauto.
    + eapply pays_less; [exact Py|]. intro A'. unfold zeroc. lia.
    + apply ext_refl, S.
    + apply mine_zero.
Qed.
End Give.
(** The call itself, with the key already in a buffer of the caller. *)
Definition zobj_get (len : bool) (fuel : nat) (v p : addr) (n : N) : M (option addr) :=
  if len then z_obj_get_len fuel v p n else z_obj_get fuel v p.
Lemma zobjGet_in len h kk R x R' : zrstep jd (CObjGet len h kk) R = Some (x, R') ->
  exists f0, (f0 <= members R h)%nat /\ lenN (if len then kk else kk ++ [0]) < two32 /\
    forall (VV : vols) (NN : need) E nm F s fuel v, (f0 <= fuel)%nat -> sim R E nm F s -> nth_error (eh E) h = Some v ->
    forall (V' : vols) p s1, buffered s (if len then kk else kk ++ [0]) p s1 -> @sim V' R E nm F s1 ->
      wp (zobj_get len fuel v p (lenN kk)) s1 (@ends NN E F (option addr) (fun r => fst (out_value E r) = x) R' (fun r => snd (out_value E r)) V' s1).
Proof.
  intros St. cbn [zrstep] in St. destruct (look R h) as [[w k]|] eqn:L; [|discriminate].
  assert (C : (len || ok_c kk) && fits (kk ++ [0]) = true).
  { destruct w as [[i t]|]; destruct ((len || ok_c kk) && fits (kk ++ [0])); auto; discriminate St. }
  rewrite C in St. apply andb_prop in C as [C0 Fi]. apply fits_cons in Fi as [Fi Ft].
  exists (match w with Some (_, t) => length (nkids (tvalue t)) | None => 0%nat end). split; [unfold members; rewrite L; destruct w as [[? ?]|]; apply le_n|]. split; [destruct len; auto|].
  intros VV NN E nm F s fuel v0 Hf S Hv0 V' p s1 B S1. unfold zobj_get.
  destruct (look_handle _ _ _ _ _ _ _ _ S L) as (v & A & Hv & HA & HiA & Hrh & Hh & Himg). replace v0 with v in * by congruence. clear v0 Hv0.
  destruct w as [[i t]|]; cbn [option_map fst snd wopt] in *.
  - destruct (is_cont true (tvalue t)) as [kids|] eqn:Ec.
    + apply is_cont_some in Ec. rewrite Ec in Hf. cbn [nkids] in Hf.
      destruct (len || keys_ok R kids) eqn:Ko; [|discriminate]. node Himg i t f Gi Fi' Ik Iv Ip. rewrite Ec in Iv. cbn [vimg] in Iv.
      assert (Bd : forall c, In c kids -> c < rn R /\ exists tc, rG R c = Some tc).
      { intros c Hc. eapply (kid_bound nm (rn R) (rG R) F i t); [apply S|auto|]. now rewrite Ec. }
      assert (Bk : forall c, child_by R kk kids = Some c -> c < rn R) by (intros c Hc; apply Bd; eapply child_by_in; eauto).
      assert (Fn : forall r s', zfound s1 A (key_of F kk) (map nm kids) r s' ->
        exists o', o' = option_map nm (child_by R kk kids) /\ new_zhandle s1 A o' r s').
      { intros r s' (o & K & N). exists o. split; auto. eapply child_by_first; [apply S|auto| |exact K].
        intros c Hc. destruct (Bd c Hc) as (_ & tc & Gc). now rewrite Gc. }
      destruct len.
      * eapply zgive_ends; eauto. intro Hu.
        eapply wp_mono; [eapply (zobjGetLen_wp s1 F v A (nm i) f); eauto; [apply S1|eapply (on_handle E F R nm s1 h (Some (i, t))); eauto|apply (proj1 (bf_src _ _ _ _ B))|now rewrite map_length]|].
        intros r s' K. eapply Fn; eauto.
      * apply ok_c_no0 in C0. eapply zgive_ends; eauto. intro Hu.
        eapply wp_mono; [eapply (zobjGet_wp s1 F v A (nm i) f); eauto; [apply S1|eapply (on_handle E F R nm s1 h (Some (i, t))); eauto|apply (bf_text _ _ _ _ B)| |now rewrite map_length]|].
        -- eapply keys_ok_no0; [apply S|auto].
        -- intros r s' K. eapply Fn; eauto.
    + injection St as <- <-. node Himg i t f Gi Fi' Ik Iv Ip. apply (is_cont_none _ _ nm) in Ec. rewrite <- Iv in Ec.
      apply (none_ends E F R nm s1 S1). destruct len.
      * eapply (zobjGetLen_no s1 F v A (nm i) f); eauto; [apply S1|eapply (on_handle E F R nm s1 h (Some (i, t))); eauto].
      * eapply (zobjGet_no s1 F v A (nm i) f); eauto; [apply S1|eapply (on_handle E F R nm s1 h (Some (i, t))); eauto].
  - injection St as <- <-. apply (none_ends E F R nm s1 S1);
      pose proof (on_handle E F R nm s1 h None k v A S1 L Hv HA) as Hh1; destruct len; unfold z_obj_get, z_obj_get_len; eapply with_type_empty; eauto.
Qed.
Lemma zstep_objGet len h kk : zsimulated jd (CObjGet len h kk).
Proof.
  intros R x R' St. destruct (zobjGet_in _ _ _ _ _ _ St) as (f0 & L0 & Fi & K). exists f0. split; [exact L0|]. intros VV E nm F s fuel Hf S _. cbn [zstep zrstep] in *.
  destruct (look R h) as [[w k]|] eqn:L; [|discriminate]. looked S L v A Hv HA. apply out_wp.
  specialize (fun V' => K VV (cneed (CObjGet len h kk)) E nm F s fuel v Hf S Hv V'). unfold zobj_get in K.
  destruct len; apply (lend_wp R E nm F s); auto.
Qed.
Lemma zstep_arrayGet h ix : zsimulated jd (CArrayGet h ix).
Proof.
  intros R x R' St. cbn [zrstep] in St. destruct (look R h) as [[w k]|] eqn:L; [|discriminate].
  exists (match w with Some (_, t) => length (nkids (tvalue t)) | None => 0%nat end). split; [cbn [passes]; unfold members; rewrite L; destruct w as [[? ?]|]; apply le_n|]. intros VV E nm F s fuel Hf S _. cbn [zstep].
  looked S L v A Hv HA. apply out_wp.
  destruct w as [[i t]|]; cbn [option_map fst snd wopt] in *.
  - destruct (ix <? two32) eqn:Lx; [|discriminate]. apply N.ltb_lt in Lx. node Himg i t f Gi Fi Ik Iv Ip.
    destruct (is_cont false (tvalue t)) as [kids|] eqn:Ec.
    + apply is_cont_some in Ec. rewrite Ec in Hf, Iv. cbn [nkids vimg] in Hf, Iv.
      eapply zgive_ends; eauto.
      * intros c Hc. eapply (kid_bound nm (rn R) (rG R) F i t); [apply S|auto|]. rewrite Ec. eapply nth_error_In; eauto.
      * intro Hu. eapply wp_mono; [eapply (zarrayGet_wp s F v A (nm i) f); eauto; [apply S|now rewrite map_length]|].
        intros r s' K. rewrite nth_error_map in K. eauto.
    + injection St as <- <-. apply (is_cont_none _ _ nm) in Ec. rewrite <- Iv in Ec.
      apply (none_ends E F R nm s S). eapply (zarrayGet_no s F v A (nm i) f); eauto; apply S.
  - injection St as <- <-. apply (none_ends E F R nm s S). unfold z_array_get. eapply with_type_empty; eauto.
Qed.
Lemma zstep_begin h : zsimulated jd (CBegin h).
Proof.
  intros R x R' St. cbn [zrstep] in St. destruct (look R h) as [[w k]|] eqn:L; [|discriminate].
  exists 0%nat. split; [apply Nat.le_0_l|]. intros VV E nm F s fuel Hf S _. cbn [zstep]. looked S L v A Hv HA. apply out_wp.
  destruct w as [[i t]|]; cbn [option_map fst snd wopt] in *.
  - node Himg i t f Gi Fi Ik Iv Ip. eapply zgive_ends; eauto.
    + intros c Hc. eapply (kid_bound nm (rn R) (rG R) F i t); [apply S|auto|]. destruct (nkids (tvalue t)); [discriminate|]. injection Hc as ->. now left.
    + intro Hu. eapply wp_mono; [eapply (zbegin_wp s F v A (nm i) f); eauto; apply S|]. intros r s' K. eexists. split; [|exact K].
      rewrite Iv. destruct (tvalue t) as [| | | |ob ks]; try reflexivity. cbn. now destruct ks.
  - injection St as <- <-. apply (none_ends E F R nm s S). unfold z_begin. apply wp_bind, (wp_getVal _ _ _ _ (proj1 Hh)). cbn [vN]. apply wp_bind, wp_ret. now apply wp_ret.
Qed.
Lemma zstep_next h : zsimulated jd (CNext h).
Proof.
  intros R x R' St. cbn [zrstep] in St. destruct (look R h) as [[w k]|] eqn:L; [|discriminate].
  exists 0%nat. split; [apply Nat.le_0_l|]. intros VV E nm F s fuel Hf S _. cbn [zstep]. looked S L v A Hv HA. apply out_wp.
  destruct w as [[i t]|]; cbn [option_map fst snd wopt] in *.
  - node Himg i t f Gi Fi Ik Iv Ip. assert (D : wfdom F) by apply S. assert (Hn : exists o, zgive R k o = Some (x, R') /\ (forall c, o = Some c -> c < rn R) /\ fnext f = option_map nm o).
    { destruct (tpar t) as [p|] eqn:Ep.
      - destruct (rG R p) as [tp|] eqn:Gp; [|discriminate]. destruct (split_at i (nkids (tvalue tp))) as [[l r]|] eqn:Es; [|discriminate].
        exists (hd_error r). split; auto. apply split_at_ok in Es. split.
        + intros c Hc. eapply (kid_bound nm (rn R) (rG R) F p tp); [apply S|auto|]. rewrite Es. apply in_or_app. right. right.
          destruct r; [discriminate|]. injection Hc as ->. now left.
        + destruct (fs_node _ _ _ _ (sm_fs _ _ _ _ _ S) p tp Gp) as (fp & Fp & _ & Ipv & _).
          destruct (tvalue tp) as [| | | |ob ks]; try (destruct l; discriminate). cbn [nkids vimg] in *. subst ks.
          destruct (proj1 (D _ _ Fp) _ _ Ipv) as [Ch _]. rewrite map_app in Ch. cbn [map] in Ch.
          assert (Q : exists fc, F (nm i) = Some fc /\ fnext fc = hd_error (map nm r)).
          { clear -Ch. induction (map nm l) as [|y l' IH]; cbn in Ch.
            - destruct Ch as [(fc & Fc & _ & Hn & _) _]. eauto.
            - apply IH, Ch. }
          destruct Q as (fc & Fc & Hn). assert (fc = f) by congruence. subst fc. rewrite Hn. apply map_hd.
      - exists None. split; auto. split; [discriminate|]. cbn in Ip. apply (proj2 (D _ _ Fi) Ip). }
    destruct Hn as (o & Gv & Lt & Hn). eapply zgive_ends; eauto.
    intro Hu. eapply wp_mono; [eapply (znext_wp s F v A (nm i) f); eauto; apply S|]. intros r s' K. rewrite Hn in K. eauto.
  - injection St as <- <-. apply (none_ends E F R nm s S). unfold z_next. apply wp_bind, (wp_getVal _ _ _ _ (proj1 Hh)). cbn [vN]. apply wp_bind, wp_ret. now apply wp_ret.
Qed.
Lemma zstep_newValue k : zsimulated jd (CNewValue k).
Proof.
  intros R x R' St. cbn [zrstep] in St. destruct (spend R k 48) as [R1|] eqn:Sp; [|discriminate].
  exists 0%nat. split; [apply Nat.le_0_l|]. intros VV E nm F s fuel Hf S _. cbn [zstep].
  assert (HA : exists A, nth_error (ea E) k = Some A).
  { unfold spend in Sp. destruct (nth_error (ru R) k) eqn:Eu; [|discriminate]. destruct (nth_error (ea E) k) eqn:Ea; eauto.
    apply nth_error_None in Ea. rewrite (sm_la _ _ _ _ _ S) in Ea. apply nth_error_None in Ea. congruence. }
  destruct HA as (A & HA). apply (aof_wp _ _ A); auto. spent S HA Sp ru' Py Le. injection St as <- <-.
  assert (Hu : exists u, nth_error (ru R) k = Some u).
  { destruct (nth_error (ru R) k) eqn:Eu; eauto. apply nth_error_None in Eu. rewrite <- (sm_la _ _ _ _ _ S) in Eu. apply nth_error_None in Eu. congruence. }
  destruct Hu as (u & Hu). destruct (sm_arena _ _ _ _ _ S k A u HA Hu) as (Al & Nv & _).
  apply wp_bind. eapply wp_mono; [eapply (newzval_step none none A 0 s s Null); auto; [apply S|apply ext_start; apply S|lia]|].
  intros v s' (X & B & V). cbn [N.add] in X. apply wp_ret.
  split; [cbn; now rewrite (sm_lh _ _ _ _ _ S)|]. exists nm, F. cbn [out_value snd]. refine (after_add R E nm F s nm F s' _ _ k v A S (after_same R E nm F s ru' s' _ S Py X _) HA _ B _).
  - apply mine_at. eapply nth_error_In; eauto.
  - apply V.
  - discriminate.
Qed.

(** ** Copying, deleting *)
Lemma zstep_copy h : zsimulated jd (CCopy h).
Proof.
  intros R x R' St. cbn [zrstep] in St. destruct (look R h) as [[w k]|] eqn:L; [|discriminate]. destruct w as [[i t]|].
  - destruct (reads_as R i) as [j|] eqn:Er; [|discriminate]. exists (Datatypes.S (jsteps j)). split; [cbn [passes]; unfold inside_of; rewrite L, Er; apply jsteps_values|]. intros VV E nm F s fuel Hf S _. cbn [zstep].
    looked S L v A Hv HA. cbn [option_map fst snd wopt] in *.
    destruct (spend R k _) as [R1|] eqn:Sp; [|discriminate]. spent S HA Sp ru' Py Le. node Himg i t f Gi Fi Ik Iv Ip. rewrite <- Ik in *.
    assert (Rd : reads F (nm i) j) by (eapply read_reads; [apply S|exact Er]).
    apply out_wp. eapply wp_mono; [eapply (zcopy_wp s F v (nm i) A j fuel f); eauto; [apply S|lia]|].
    intros r s' (hh & F' & n & -> & B & Cp & Hn & Ho & X).
    destruct (copied_grow R E nm F s i t j s' F' n S Gi Cp) as (nm' & n' & Ln & Ag & En & Gr). destruct (Gr ru') as (G1 & Ed & Fs1 & _).
    injection St as <- <-. rewrite Ed. split; [cbn; now rewrite (sm_lh _ _ _ _ _ S)|]. exists nm', F'. cbn [out_value snd].
    refine (after_add R E nm F s nm' F' s' _ _ k hh A S _ HA _ B _).
    + refine (after_gen R E nm F s nm' F' s' _ _ _ _ none none _ S (cp_inv _ _ _ _ _ _ _ Cp) Fs1 Ag _ X _ _ Py (mine_at _ _ _ _ HiA) eq_refl _ (cp_fresh _ _ _ _ _ _ _ Cp)).
      * lia.
      * intros y [].
      * intros y [].
      * intros. left. eapply same_handles; eauto.
    + cbn. rewrite En. exact Hn.
    + intros y Hy. injection Hy as <-. cbn [rn]. lia.
  - injection St as <- <-. exists 0%nat. split; [apply Nat.le_0_l|]. intros VV E nm F s fuel Hf S _. cbn [zstep]. looked S L v A Hv HA. cbn [option_map fst snd wopt] in *.
    apply out_wp. apply (none_ends E F R nm s S). eapply zcopy_empty; eauto.
Qed.
Lemma zdeleted_ends {VV : vols} {NN : need} (E : env) (F : dom) (R : rst) (nm : N -> addr) (s : st) A c F1 G1 ru' r s' :
  sim R E nm F s -> In A (ea E) -> fsim nm (rn R) G1 F1 -> (forall x, F1 x <> None -> F x <> None) -> pays E (ru R) ru' (at_ A 48) ->
  zdeleted s F A (Some c) F1 r s' -> ends E F bool (fun r => Bool r = Bool true) (mkR G1 (rn R) (rh R) ru') (fun _ => E) s r s'.
Proof.
  intros S HiA Fs1 Sub Py (-> & I' & _ & X). split; auto. exists nm, F1. eapply after_forest; eauto. now apply mine_at.
Qed.
Lemma zstep_arrayDel h ix : zsimulated jd (CArrayDel h ix).
Proof.
  intros R x R' St. cbn [zrstep] in St. destruct (look R h) as [[w k]|] eqn:L; [|discriminate].
  exists (match w with Some (_, t) => length (nkids (tvalue t)) | None => 0%nat end). split; [cbn [passes]; unfold members; rewrite L; destruct w as [[? ?]|]; apply le_n|]. intros VV E nm F s fuel Hf S _. cbn [zstep].
  looked S L v A Hv HA. apply env_wp.
  destruct w as [[i t]|]; cbn [option_map fst snd wopt] in *.
  - destruct (ix <? two32) eqn:Lx; [|discriminate]. apply N.ltb_lt in Lx. node Himg i t f Gi Fi Ik Iv Ip.
    destruct (is_cont false (tvalue t)) as [kids|] eqn:Ec.
    + apply is_cont_some in Ec. rewrite Ec in Hf, Iv. cbn [nkids vimg] in Hf, Iv.
      destruct (spend R k 48) as [R1|] eqn:Sp; [|discriminate]. spent S HA Sp ru' Py Le. cbn [rG] in St.
      destruct (nth_error kids (N.to_nat ix)) as [c|] eqn:En.
      * destruct (unhook (rG R) c) as [G1|] eqn:U; [|discriminate]. injection St as <- <-.
        destruct (sim_unhook E F R nm s S c G1 U) as (F1 & Rm & Fs1 & D1 & Sub & _).
        eapply wp_mono; [eapply (zarrayDel_wp s F v (nm i) A f (map nm kids) ix fuel F1); eauto; [apply S|now rewrite map_length|]|].
        { intros c' Hc'. rewrite nth_error_map, En in Hc'. injection Hc' as <-. exact Rm. }
        intros r s' K. rewrite nth_error_map, En in K. cbn [option_map] in K. exact (zdeleted_ends E F R nm s A (nm c) F1 G1 ru' r s' S HiA Fs1 Sub Py K).
      * injection St as <- <-. eapply (same_ends E F R nm s S); eauto; [now apply mine_at|].
        eapply wp_mono; [eapply (zarrayDel_wp s F v (nm i) A f (map nm kids) ix fuel F); eauto; [apply S|now rewrite map_length|]|].
        { intros c' Hc'. rewrite nth_error_map, En in Hc'. discriminate. }
        intros r s' K. rewrite nth_error_map, En in K. destruct K as [-> ->]. split; auto. apply (ext_weaken none none zeroc); auto; [apply ext_refl, S|intro; unfold zeroc; lia].
    + injection St as <- <-. apply (is_cont_none _ _ nm) in Ec. rewrite <- Iv in Ec.
      apply (stay_ends E F R nm s S). eapply wp_mono; [eapply (zarrayDel_no s F v (At (nm i)) A); eauto; [apply S|]|intros r s' [-> ->]; auto].
      intros a f' Ha Hf'. injection Ha as <-. congruence.
  - injection St as <- <-. apply (stay_ends E F R nm s S). eapply wp_mono; [eapply (zarrayDel_no s F v Null A); eauto; [apply S|]|intros r s' [-> ->]; auto].
    discriminate.
Qed.
Lemma zstep_objDel h kk : zsimulated jd (CObjDel h kk).
Proof.
  intros R x R' St. cbn [zrstep] in St. destruct (look R h) as [[w k]|] eqn:L; [|discriminate].
  destruct (ok_c kk && fits (kk ++ [0])) eqn:C; [|discriminate]. apply andb_prop in C as [C0 Fi]. apply fits_cons in Fi as [Fi Ft]. apply ok_c_no0 in C0.
  exists (match w with Some (_, t) => length (nkids (tvalue t)) | None => 0%nat end). split; [cbn [passes]; unfold members; rewrite L; destruct w as [[? ?]|]; apply le_n|]. intros VV E nm F s fuel Hf S _. cbn [zstep].
  looked S L v A Hv HA. apply env_wp. apply (lend_wp R E nm F s); auto. intros V' p s1 B S1.
  pose proof (on_handle E F R nm s1 h w k v A S1 L Hv HA) as Hh1. unfold wrd in Hh1.
  destruct w as [[i t]|]; cbn [option_map fst snd wopt] in *.
  - node Himg i t f Gi Fi' Ik Iv Ip.
    destruct (is_cont true (tvalue t)) as [kids|] eqn:Ec.
    + apply is_cont_some in Ec. rewrite Ec in Hf, Iv. cbn [nkids vimg] in Hf, Iv.
      assert (Bd : forall c, In c kids -> c < rn R /\ exists tc, rG R c = Some tc).
      { intros c Hc. eapply (kid_bound nm (rn R) (rG R) F i t); [apply S|auto|]. now rewrite Ec. }
      assert (Fc : forall o, first_child (key_of F kk) (map nm kids) o -> o = option_map nm (child_by R kk kids)).
      { intros o K. eapply child_by_first; [apply S|auto| |exact K]. intros c Hc. destruct (Bd c Hc) as (_ & tc & Gc). now rewrite Gc. }
      destruct (keys_ok R kids) eqn:Ko; [|discriminate]. destruct (spend R k 48) as [R1|] eqn:Sp; [|discriminate]. spent S1 HA Sp ru' Py Le.
      unfold child_by in St. cbn [rG] in St. fold (child_by R kk kids) in St. destruct (child_by R kk kids) as [c|] eqn:En; cbn [option_map] in Fc.
      * destruct (unhook (rG R) c) as [G1|] eqn:U; [|discriminate]. injection St as <- <-.
        destruct (sim_unhook E F R nm s1 S1 c G1 U) as (F1 & Rm & Fs1 & D1 & Sub & _).
        eapply wp_mono; [eapply (zobjDel_wp s1 F v (nm i) A f (map nm kids) p kk [] fuel F1); eauto; [apply S1|apply (bf_text _ _ _ _ B)| |now rewrite map_length|]|].
        { eapply keys_ok_no0; [apply S|auto]. }
        { intros c' Hc'. apply Fc in Hc'. injection Hc' as ->. exact Rm. }
        intros r s' (o & Ho & K). apply Fc in Ho. subst o. exact (zdeleted_ends E F R nm s1 A (nm c) F1 G1 ru' r s' S1 HiA Fs1 Sub Py K).
      * injection St as <- <-. eapply (same_ends E F R nm s1 S1); eauto; [now apply mine_at|].
        eapply wp_mono; [eapply (zobjDel_wp s1 F v (nm i) A f (map nm kids) p kk [] fuel F); eauto; [apply S1|apply (bf_text _ _ _ _ B)| |now rewrite map_length|]|].
        { eapply keys_ok_no0; [apply S|auto]. }
        { intros c' Hc'. apply Fc in Hc'. discriminate. }
        intros r s' (o & Ho & K). apply Fc in Ho. subst o. destruct K as [-> ->]. split; auto. apply (ext_weaken none none zeroc); auto; [apply ext_refl, S1|intro; unfold zeroc; lia].
    + injection St as <- <-. apply (is_cont_none _ _ nm) in Ec. rewrite <- Iv in Ec.
      apply (stay_ends E F R nm s1 S1). eapply wp_mono; [eapply (zobjDel_no s1 F v (At (nm i)) A); eauto; [apply S1|]|intros r s' [-> ->]; auto].
      intros a f' Ha Hf'. injection Ha as <-. congruence.
  - injection St as <- <-. apply (stay_ends E F R nm s1 S1). eapply wp_mono; [eapply (zobjDel_no s1 F v Null A); eauto; [apply S1|]|intros r s' [-> ->]; auto].
    discriminate.
Qed.
Definition zaddcall fuel (ob fast : bool) v vv : M bool :=
  match ob, fast with
  | true, true => zj_ObjAddFast v vv
  | true, false => z_obj_add fuel v vv
  | false, true => zj_ArrayAddFast v vv
  | false, false => z_array_add fuel v vv
  end.
Lemma zstep_add ob fast h hv : zsimulated jd (CAdd ob fast h hv).
Proof.
  intros R x R' St. cbn [zrstep] in St. destruct (look R h) as [[w k]|] eqn:L; [|discriminate]. destruct (look R hv) as [[wv kv]|] eqn:Lv; [|discriminate].
  exists (if fast then 0%nat else match wv with Some (c, tc) => match reads_as R c with Some j => Datatypes.S (jsteps j) | None => 0%nat end | None => 0%nat end).
  split.
  { cbn [passes]. destruct fast; [apply le_n|]. unfold inside_of. rewrite Lv. destruct wv as [[c tc]|]; [|apply Nat.le_0_l]. destruct (reads_as R c); [apply jsteps_values|apply Nat.le_0_l]. }
  intros VV E nm F s fuel Hf S _. cbn [zstep]. looked S L v A Hv HA. looked S Lv vv B Hvv HB. apply env_wp.
  change (match ob with true => if fast then zj_ObjAddFast v vv else z_obj_add fuel v vv | false => if fast then zj_ArrayAddFast v vv else z_array_add fuel v vv end) with (zaddcall fuel ob fast v vv). assert (I : inv s F) by apply S. assert (D : wfdom F) by apply S.
  assert (Ty : forall wd, handle s F v wd A -> (forall a f, wd = At a -> F a = Some f -> ftype (fvalue f) <> if ob then TObject else TArray) ->
    wp (zaddcall fuel ob fast v vv) s (fun r s' => Bool r = Bool false /\ s' = s)).
  { intros wd Hw Ht. unfold zaddcall. apply (wp_mono _ _ (refused s)); [|intros r s' [-> ->]; split; reflexivity].
    destruct ob; [destruct (add_type_no s F v vv A I wd fuel Hw Ht) as [K1 K2]; pose proof (zadd_type_no s F v vv A wd fuel I Hw Ht) as K3
      |destruct (arrayAdd_type_no s F v vv A I wd fuel Hw Ht) as [K1 K2]; pose proof (zarrayAdd_type_no s F v vv A wd fuel I Hw Ht) as K3]; destruct fast; auto. }
  destruct w as [[a ta]|]; cbn [option_map fst snd wopt] in *.
  2:{ injection St as <- <-. apply (stay_ends E F R nm s S). eapply Ty; eauto. discriminate. }
  node Himg a ta fa Ga Fa Ika Iva Ipa. destruct (is_cont ob (tvalue ta)) as [kids|] eqn:Ec.
  2:{ injection St as <- <-. apply (stay_ends E F R nm s S). eapply Ty; eauto. apply (is_cont_none _ _ nm) in Ec. rewrite <- Iva in Ec.
      intros a' f' Ha Hf'. injection Ha as <-. congruence. }
  clear Ty. apply is_cont_some in Ec. rewrite Ec in Iva. cbn [vimg] in Iva. pose proof (fs_bound _ _ _ _ _ _ (sm_fs _ _ _ _ _ S) Ga) as Ba.
  destruct wv as [[c tc]|]; cbn [option_map fst snd wopt] in *.
  2:{ injection St as <- <-. apply (stay_ends E F R nm s S). apply (wp_mono _ _ (refused s)); [|intros r s' [-> ->]; split; reflexivity].
      unfold zaddcall. destruct ob.
      - destruct (add_key_no s F v vv A B I (nm a) fa Null fuel) as [K1 K2]; auto; [now rewrite Iva|discriminate|].
        destruct fast; auto. eapply (zadd_key_no s F v vv A B (nm a) fa Null); eauto; [now rewrite Iva|discriminate].
      - destruct fast; [eapply arrayAddFast_empty; eauto; now rewrite Iva|]. eapply (zarrayAdd_empty s F v vv A B (nm a) fa); eauto. now rewrite Iva. }
  node Himg0 c tc fc Gc Fc Ikc Ivc Ipc. pose proof (fs_bound _ _ _ _ _ _ (sm_fs _ _ _ _ _ S) Gc) as Bc.
  destruct (ob && negb (is_some (tkey tc))) eqn:Ek.
  { apply andb_prop in Ek as [-> Ek]. injection St as <- <-. apply (stay_ends E F R nm s S). apply (wp_mono _ _ (refused s)); [|intros r s' [-> ->]; split; reflexivity].
    assert (Kn : forall b fb, At (nm c) = At b -> F b = Some fb -> fkey fb = None).
    { intros b fb Hb Fb. injection Hb as <-. assert (fb = fc) by congruence. subst fb. rewrite Ikc. destruct (tkey tc); [discriminate|auto]. }
    unfold zaddcall. destruct fast; [|eapply (zadd_key_no s F v vv A B (nm a) fa); eauto; now rewrite Iva].
    destruct (add_key_no s F v vv A B I (nm a) fa (At (nm c)) fuel) as [K1 K2]; auto. now rewrite Iva. }
  assert (Kc : ob = true -> tkey tc <> None) by (intros ->; destruct (tkey tc); discriminate).
  destruct fast.
  - destruct (unhook (rG R) c) as [G1|] eqn:U; [|discriminate]. destruct (hang _ ob a c) as [G2|] eqn:Hg; [|discriminate].
    destruct (checked R G2 a) as [R1|] eqn:Ck; [|discriminate]. apply checked_is in Ck. subst R1. injection St as <- <-.
    destruct (sim_unhook E F R nm s S c G1 U) as (F1 & Rm & Fs1 & D1 & Sub & Rt).
    destruct (Rt tc Gc) as (fc' & f1 & t1 & Fc' & F1c & G1c & Kk1 & Kv1 & Kt & _ & Im1). destruct ob; unfold zaddcall.
    + destruct (hang_sim nm (rn R) G1 F1 true a c G2 Fs1 D1 Hg) as (ga & gc & ks & Ap & Fs2).
      { intros t' Ht'. assert (t' = t1) by congruence. subst t'. rewrite Kt. auto. }
      eapply wp_mono; [eapply (objAddFast_wp s F v (nm a) A vv (nm c) B F1 ga gc ks); eauto|]. intros r s' (-> & I' & Hn & _ & X). split; auto.
      eexists nm, _. eapply after_lost; eauto. intros y Hy. apply Sub. eapply append_in; eauto.
    + assert (Fsd : fsim nm (rn R) (rekeyN G1 c None) (dropkey F1 (nm c))).
      { apply (rekey_sim nm (rn R) G1 F1 c None (dropkey F1 (nm c)) f1 (nokey f1)); auto; [now apply dropkey_at| |congruence].
        intros y g Hy Ny. now rewrite dropkey_other. }
      assert (Dd : wfdom (dropkey F1 (nm c))).
      { destruct (removed_root F (nm c) F1 D Rm) as (q & q1 & _ & Q1 & _ & _ & _ & Qp & _). eapply dropkey_wfdom; eauto. }
      destruct (hang_sim nm (rn R) (rekeyN G1 c None) (dropkey F1 (nm c)) false a c G2 Fsd Dd Hg) as (ga & gc & ks & Ap & Fs2).
      { intros t' Ht'. unfold rekeyN in Ht'. rewrite N.eqb_refl, G1c in Ht'. injection Ht' as <-. reflexivity. }
      eapply wp_mono; [eapply (arrayAddFast_wp s F v (nm a) A vv (nm c) B F1 ga gc ks); eauto|]. intros r s' (-> & I' & Hn & _ & X). split; auto.
      eexists nm, _. eapply after_lost; eauto. intros y Hy. apply Sub. eapply dropkey_in. eapply append_in; eauto.
  - destruct (reads_as R c) as [j|] eqn:Er; [|discriminate]. destruct (spend R kv _) as [R1|] eqn:Sp; [|discriminate]. spent S HB Sp ru' Py Le.
    cbn [rn] in St. rewrite <- Ikc in Py, Le. assert (Rd : reads F (nm c) j) by (eapply read_reads; [apply S|exact Er]).
    pose proof (dup_old E F R nm s S ru' tc (nm c) j Rd a Ba) as Oa.
    destruct (hang _ ob a (rn R)) as [G2|] eqn:Hg; [|discriminate]. injection St as <- <-.
    assert (Ad : exists ks, addable F ob (nm a) fa ks).
    { destruct (hang_addable E F R nm s S _ ob a (rn R) G2 ta fa Hg) as (ks & _ & K); eauto. destruct ob; auto. unfold rekeyN. destruct (N.eqb_spec a (rn R)); [lia|auto]. }
    destruct Ad as (ks & Ad).
    pose (NN := (0 : need)). assert (Rest : forall s1 F1 n F' s', copied_node s F (nm c) j s1 F1 n -> inv s' F' -> ext (inF F) none (at_ B (120 + icost (fkey fc, j))) s s' ->
      (forall nm' n' G1, fsim nm' n' G1 F1 -> nm' (rn R) = n -> nm' a = nm a -> rG (duplicate (mkR (rG R) (rn R) (rh R) ru') tc j) = G1 ->
        (exists v0, G1 (rn R) = Some (mkT (tkey tc) v0 None true true false)) -> fsim nm' n' G2 F') ->
      (forall y, F' y <> None -> F1 y <> None) ->
      exists nm' F'', after E F s (with_forest (duplicate (mkR (rG R) (rn R) (rh R) ru') tc j) G2) E nm' F'' s').
    { intros s1 F1 n F' s' Cp I' X Fin Sub. destruct (copied_grow R E nm F s c tc j s1 F1 n S Gc Cp) as (nm' & n' & Ln & Ag & En & Gr).
      destruct (Gr ru') as (G1 & Ed & Fs1 & _ & Rt). exists nm', F'. rewrite Ed in Fin |- *. cbn [rG] in Fin. unfold with_forest. cbn [rn rh ru].
      refine (after_gen R E nm F s nm' F' s' _ _ _ _ (inF F) none _ S I' (Fin nm' n' G1 Fs1 En (Ag a Ba) eq_refl Rt) Ag _ X _ _ Py (mine_at _ _ _ _ HiA0) eq_refl _ _); auto.
      - lia.
      - intros y [].
      - intros. left. eapply same_handles; eauto.
      - intros y H1 H2. apply (cp_fresh _ _ _ _ _ _ _ Cp); auto. }
    destruct ob; unfold zaddcall.
    + eapply wp_mono; [eapply (zobjAdd_wp s F v (nm a) A vv (nm c) B j fa fc ks fuel); eauto; [rewrite Ikc; auto|lia]|].
      intros r s' (-> & s1 & F1 & n & F' & Cp & (fn & Fn & Ap & ->) & I' & _ & X). split; auto. eapply Rest; eauto.
      * intros nm' n' G1 Fs1 En Ea Ed (v0 & G1n). rewrite Ed in Hg.
        destruct (hang_sim nm' n' G1 F1 true a (rn R) G2 Fs1 (i_dom _ _ (cp_inv _ _ _ _ _ _ _ Cp)) Hg) as (ga & gc & ks' & Ap' & Fs2).
        { intros t' Ht'. rewrite G1n in Ht'. injection Ht' as <-. cbn. auto. }
        rewrite En, Ea in *. destruct Ap, Ap'. replace fa with ga by congruence. replace fn with gc by congruence. replace ks with ks' by congruence. exact Fs2.
      * intros y Hy. eapply append_in; eauto.
    + eapply wp_mono; [eapply (zarrayAdd_wp s F v (nm a) A vv (nm c) B j fa fc ks fuel); eauto; lia|].
      intros r s' (-> & s1 & F1 & n & F' & Cp & (fn & Fn & Ap & ->) & I' & _ & X). split; auto. eapply Rest; eauto.
      * intros nm' n' G1 Fs1 En Ea Ed (v0 & G1n). rewrite Ed in Hg.
        assert (Fsd : fsim nm' n' (rekeyN G1 (rn R) None) (dropkey F1 (nm' (rn R)))).
        { rewrite En. apply (rekey_sim nm' n' G1 F1 (rn R) None (dropkey F1 n) fn (nokey fn)); rewrite ?En; auto; [now apply dropkey_at| |congruence].
          intros y g Hy Ny. now rewrite dropkey_other. }
        assert (Dd : wfdom (dropkey F1 (nm' (rn R)))).
        { rewrite En. destruct (cp_root _ _ _ _ _ _ _ Cp) as (q & q1 & _ & Q1 & _ & Qp & _). eapply dropkey_wfdom; eauto. apply (i_dom _ _ (cp_inv _ _ _ _ _ _ _ Cp)). }
        destruct (hang_sim nm' n' _ (dropkey F1 (nm' (rn R))) false a (rn R) G2 Fsd Dd Hg) as (ga & gc & ks' & Ap' & Fs2).
        { intros t' Ht'. unfold rekeyN in Ht'. rewrite N.eqb_refl, G1n in Ht'. injection Ht' as <-. reflexivity. }
        rewrite En, Ea in *. destruct Ap, Ap'. replace fa with ga by congruence. replace (nokey fn) with gc by congruence. replace ks with ks' by congruence. exact Fs2.
      * intros y Hy. eapply dropkey_in. eapply append_in; eauto.
Qed.
Lemma takekey_sim nm n G F a b ta tb fa fb : fsim nm n G F -> G a = Some ta -> G b = Some tb -> F (nm a) = Some fa -> F (nm b) = Some fb ->
  fsim nm n (takekey G a b) (newkey F (nm a) fa fb).
Proof.
  intros Fs Ga Gb Fa Fb. unfold takekey, newkey. rewrite Ga, Gb.
  destruct (fs_node _ _ _ _ Fs a ta Ga) as (fa' & Fa' & Ka & _). destruct (fs_node _ _ _ _ Fs b tb Gb) as (fb' & Fb' & Kb & _).
  replace fa' with fa in * by congruence. replace fb' with fb in * by congruence. rewrite <- Ka, <- Kb.
  destruct (fkey fa) as [ka|]; auto. destruct (fkey fb) as [kb|]; auto.
  apply (rekey_sim nm n G F a (Some kb) _ fa (setkey kb fa)); auto; [apply add_eq| |congruence].
  intros x g Hx Nx. now rewrite add_neq.
Qed.
Lemma newkey_wfdom F a fa fb : wfdom F -> F a = Some fa -> wfdom (newkey F a fa fb).
Proof. intros D E. unfold newkey. destruct (fkey fa) eqn:K; auto. destruct (fkey fb); auto. apply setkey_wfdom'; auto. congruence. Qed.
Lemma takekey_dom G a b x : G x = None -> takekey G a b x = None.
Proof.
  intro H. unfold takekey. destruct (G a) as [ta|] eqn:Ga; auto. destruct (G b) as [tb|]; auto. destruct (tkey ta), (tkey tb); auto.
  unfold rekeyN. destruct (N.eqb_spec x a) as [->|_]; auto. now rewrite H.
Qed.
Lemma takekey_hand nm n G F a b known G' : fsim nm n G F -> wfdom F -> hand (takekey G a b) a b known = Some G' ->
  exists fa fb, takable F (nm a) (nm b) fa fb /\
    fsim nm n G' (take (newkey F (nm a) fa fb) (nm a) (nm b) (rekeyed fa fb) fb (if known then fend fb else None)).
Proof.
  intros Fs D H. destruct (hand_parts _ _ _ _ _ H) as (ta' & tb' & Ga' & Gb' & _ & Nab & _).
  destruct (G a) as [ta|] eqn:Ga; [|rewrite takekey_dom in Ga'; congruence]. destruct (G b) as [tb|] eqn:Gb; [|rewrite takekey_dom in Gb'; congruence].
  destruct (fs_node _ _ _ _ Fs a ta Ga) as (fa & Fa & _). destruct (fs_node _ _ _ _ Fs b tb Gb) as (fb & Fb & _).
  destruct (hand_sim nm n _ _ a b known G' (takekey_sim nm n G F a b ta tb fa fb Fs Ga Gb Fa Fb) (newkey_wfdom F (nm a) fa fb D Fa) H) as (ga & gb & [T1 T2 T3 T4 T5] & Fs2).
  rewrite newkey_at in T1 by auto. injection T1 as <-. rewrite newkey_other in T2 by auto. replace gb with fb in * by congruence.
  exists fa, fb. split; [constructor; auto|exact Fs2].
Qed.
Lemma takekey_in F1 a b fa fb e x : takable F1 a b fa fb -> take (newkey F1 a fa fb) a b (rekeyed fa fb) fb e x <> None -> F1 x <> None.
Proof.
  intros Tk H. apply (newkey_in F1 a fa fb x (tb_a _ _ _ _ _ Tk)). eapply take_in; [exact (newkey_takable _ _ _ _ _ Tk)|exact H].
Qed.
Lemma zstep_set fast h hv : zsimulated jd (CSet fast h hv).
Proof.
  intros R x R' St. cbn [zrstep] in St. destruct (look R h) as [[w k]|] eqn:L; [|discriminate]. destruct (look R hv) as [[wv kv]|] eqn:Lv; [|discriminate].
  exists (match wv with Some (c, tc) => length (nkids (tvalue tc)) + if fast then 0 else match reads_as R c with Some j => Datatypes.S (jsteps j) | None => 0 end | None => 0 end)%nat.
  split.
  { cbn [passes]. unfold members, inside_of. rewrite Lv. destruct wv as [[c tc]|]; [|apply Nat.le_0_l]. destruct fast; [apply le_n|]. apply Nat.add_le_mono_l.
    destruct (reads_as R c); [apply jsteps_values|apply Nat.le_0_l]. }
  intros VV E nm F s fuel Hf S _. cbn [zstep]. looked S L v A Hv HA. looked S Lv vv B Hvv HB. apply env_wp.
  assert (I : inv s F) by apply S. assert (D : wfdom F) by apply S.
  destruct wv as [[b tb]|]; cbn [option_map fst snd wopt] in *.
  2:{ injection St as <- <-. apply (stay_ends E F R nm s S). apply (wp_mono _ _ (fun r s' => r = false /\ s' = s)); [|intros r s' [-> ->]; split; reflexivity].
      destruct fast; [eapply zsetFast_empty|eapply zset_empty]; eauto. }
  node Himg0 b tb fb Gb Fb Ikb Ivb Ipb. assert (Hl : (length (kids_in (fvalue fb)) <= fuel)%nat) by (rewrite Ivb, kids_len; lia).
  destruct fast.
  - destruct (unhook (rG R) b) as [G1|] eqn:U; [|discriminate].
    destruct (sim_unhook E F R nm s S b G1 U) as (F1 & Rm & Fs1 & D1 & Sub & Rt).
    destruct (Rt tb Gb) as (fb' & f1 & t1 & Fb' & F1b & G1b & Kk1 & Kv1 & Kt & _ & Im1). assert (fb' = fb) by congruence. subst fb'.
    destruct w as [[a ta]|]; cbn [option_map fst snd wopt] in *.
    + destruct (hand (takekey G1 a b) a b true) as [G2|] eqn:Hg; [|discriminate].
      destruct (checked R G2 a) as [R1|] eqn:Ck; [|discriminate]. apply checked_is in Ck. subst R1. injection St as <- <-.
      destruct (takekey_hand nm (rn R) G1 F1 a b true G2 Fs1 D1 Hg) as (ga & gb & Tk & Fs2). assert (gb = f1) by (destruct Tk; congruence). subst gb.
      eapply wp_mono; [eapply (zsetFast_wp s F v (nm a) A vv (nm b) B F1 ga f1 fuel); eauto; now rewrite Kv1|].
      intros r s' (-> & I' & Hn & Hm & Ho & X). split; auto. eexists nm, _.
      unfold with_handle, with_forest. cbn [rG rn rh ru]. rewrite Hrh0.
      refine (after_gen R E nm F s nm _ s' _ _ _ _ (inF F) _ zeroc S I' Fs2 _ _ X _ _ (pays_zero _ _) (mine_zero _ _) (length_setn _ _ _) _ _); auto.
      * lia.
      * intros y [-> | ->]; eapply nth_error_In; eauto.
      * intros h' o' k' v' H1 H2. rewrite nth_setn in H1. destruct (Nat.eqb_spec h' hv) as [->|Nh].
        -- rewrite Hrh0 in H1. injection H1 as <- <-. right. exists B. replace v' with vv by congruence. repeat (split; auto). discriminate.
        -- left. split; auto. destruct (Nat.eq_dec h' h) as [->|Nh2].
           ++ replace v' with v by congruence. rewrite Hm. symmetry. apply Hh.
           ++ apply Ho; intros ->; [apply Nh|apply Nh2]; eapply (nd_inj (eh E)); eauto; apply S.
      * intros y Hy1 Hy2. exfalso. apply (Sub y); auto. exact (takekey_in _ _ _ _ _ _ _ Tk Hy1).
    + injection St as <- <-.
      eapply wp_mono; [eapply (zsetFast_into s F v A vv (nm b) B F1 fuel); eauto|].
      intros r s' (-> & I' & Hn & Hm & Ho & X). split; auto. exists nm, F1.
      unfold with_handle, with_forest. cbn [rG rn rh ru]. rewrite Hrh0. cbn [rG rn rh ru].
      assert (Nhh : h <> hv) by congruence. rewrite nth_setn. destruct (Nat.eqb_spec h hv) as [|_]; [contradiction|]. rewrite Hrh.
      refine (after_gen R E nm F s nm _ s' _ _ _ _ (inF F) _ zeroc S I' Fs1 _ _ X _ _ (pays_zero _ _) (mine_zero _ _) _ _ _); auto.
      * lia.
      * intros y [-> | ->]; eapply nth_error_In; eauto.
      * now rewrite !length_setn.
      * intros h' o' k' v' H1 H2. rewrite !nth_setn in H1. destruct (Nat.eqb_spec h' h) as [->|Nh].
        -- destruct (Nat.eqb_spec h hv) as [|_]; [contradiction|]. rewrite Hrh in H1. injection H1 as <- <-. right. exists A. replace v' with v by congruence.
           split; auto. split; auto. intros y Hy. injection Hy as <-. eapply fs_bound; eauto; apply S.
        -- destruct (Nat.eqb_spec h' hv) as [->|Nv].
           ++ rewrite Hrh0 in H1. injection H1 as <- <-. right. exists B. replace v' with vv by congruence. repeat (split; auto). discriminate.
           ++ left. split; auto. apply Ho; intros ->; [apply Nv|apply Nh]; eapply (nd_inj (eh E)); eauto; apply S.
      * intros y Hy1 Hy2. elim (Sub y); auto.
  - destruct (reads_as R b) as [j|] eqn:Er; [|discriminate]. destruct (spend R kv _) as [R1|] eqn:Sp; [|discriminate]. spent S HB Sp ru' Py Le.
    cbn [rn] in St. rewrite <- Ikb in Py, Le. assert (Rd : reads F (nm b) j) by (eapply read_reads; [apply S|exact Er]).
    destruct w as [[a ta]|]; cbn [option_map fst snd wopt] in *.
    + node Himg a ta fa Ga Fa Ika Iva Ipa. pose proof (fs_bound _ _ _ _ _ _ (sm_fs _ _ _ _ _ S) Ga) as Ba.
      destruct (hand _ a (rn R) false) as [G2|] eqn:Hg; [|discriminate]. injection St as <- <-.
      eapply wp_mono; [eapply (zset_wp s F v (nm a) A vv (nm b) B fa fb j fuel); eauto; lia|].
      intros r s' (-> & s1 & F1 & n & F' & Cp & (fn & Fn & Tk & ->) & I' & _ & X). split; auto.
      destruct (copied_grow R E nm F s b tb j s1 F1 n S Gb Cp) as (nm' & n' & Ln & Ag & En & Gr).
      destruct (Gr ru') as (G1 & Ed & Fs1 & _ & Rt). rewrite Ed in Hg |- *. cbn [rG] in Hg. unfold with_forest. cbn [rn rh ru].
      destruct (takekey_hand nm' n' G1 F1 a (rn R) false G2 Fs1 (i_dom _ _ (cp_inv _ _ _ _ _ _ _ Cp)) Hg) as (ga & gb & Tk' & Fs2). rewrite En, (Ag a Ba) in *.
      assert (ga = fa) by (destruct Tk, Tk'; congruence). assert (gb = fn) by (destruct Tk, Tk'; congruence). subst ga gb. eexists nm', _.
      refine (after_gen R E nm F s nm' _ s' _ _ _ _ (inF F) none _ S I' Fs2 Ag _ X _ _ Py (mine_at _ _ _ _ HiA0) eq_refl _ _); auto.
      * lia.
      * intros y [].
      * intros. left. eapply same_handles; eauto.
      * intros y H1 H2. apply (cp_fresh _ _ _ _ _ _ _ Cp); auto. exact (takekey_in _ _ _ _ _ _ _ Tk H1).
    + injection St as <- <-.
      eapply wp_mono; [eapply (zset_into s F v A vv (nm b) B fb j fuel); eauto; lia|].
      intros r s' (-> & s1 & F1 & n & Cp & I' & Hn & Ho & X). split; auto.
      destruct (copied_grow R E nm F s b tb j s1 F1 n S Gb Cp) as (nm' & n' & Ln & Ag & En & Gr).
      destruct (Gr ru') as (G1 & Ed & Fs1 & _ & Rt). rewrite Ed. unfold with_handle. cbn [rG rn rh ru]. rewrite Hrh. exists nm', F1.
      refine (after_gen R E nm F s nm' F1 s' _ _ _ _ none (only v) _ S I' Fs1 Ag _ X _ _ Py (mine_at _ _ _ _ HiA0) (length_setn _ _ _) _ (cp_fresh _ _ _ _ _ _ _ Cp)).
      * lia.
      * intros y [].
      * intros y ->. eapply nth_error_In; eauto.
      * eapply (set_handles R E nm F s h None k v A nm' (Some (rn R)) n' s'); eauto; [cbn; now rewrite En|]. intros y Hy. injection Hy as <-. lia.
Qed.

(** ** Parsing and doubles *)
Lemma has0_split b : has0 b = true -> exists sl, b = before0 b ++ 0 :: sl.
Proof.
  induction b as [|x r IH]; cbn; [discriminate|]. destruct (N.eqb_spec x 0) as [->|Nx]; [intros _; exists r; reflexivity|].
  cbn. intro H. destruct (IH H) as (sl & E). exists sl. cbn. now f_equal.
Qed.
Lemma zstep_parse kd h t pad : zsimulated jd (CParse kd h t pad).
Proof.
  intros R x R' St. exists 0%nat. split; [apply Nat.le_0_l|]. intros VV E nm F s fuel _ S _. cbn [zrstep zstep] in *.
  destruct (look R h) as [[w k]|] eqn:L; [|discriminate]. cbv zeta in St. destruct (_ && _ && _) eqn:C; [|discriminate].
  apply andb_prop in C as [C Sl]. apply andb_prop in C as [C0 Fi]. apply fits_len in Fi.
  destruct (spend R k _) as [R1|] eqn:Sp; [|discriminate]. looked S L v A Hv HA. spent S HA Sp ru' Py Le. apply env_wp.
  apply (keep_wp R E nm F s); auto. intros p s1 B S1 Sf. destruct (has0_split _ C0) as (sl & Es).
  eapply (parse_ends jd J E F R nm s1 h w k v A _ ru' (before0 (pbuf kd t pad)) sl); eauto; [apply before0_no0| |].
  { replace (length sl) with (length (pbuf kd t pad) - length (before0 (pbuf kd t pad)) - 1)%nat; auto.
    rewrite Es at 1. rewrite app_length. cbn [length]. lia. }
  assert (Fu : full s1 p (before0 (pbuf kd t pad) ++ 0 :: sl)).
  { rewrite <- Es. split; [apply B|]. rewrite (bf_size _ _ _ _ B), (bf_at _ _ _ _ B). cbn [snd]. f_equal; lia. }
  assert (Sf' : safetext s1 p (before0 (pbuf kd t pad) ++ 0 :: sl)) by now rewrite <- Es.
  pose proof (on_handle E F R nm s1 h w k v A S1 L Hv HA) as Hh1. rewrite <- (bf_used _ _ _ _ B A) in Le. destruct kd; cbn [pcopy] in *.
  - apply zparse_finished; auto; [apply S1|apply before0_no0].
  - apply parse_fast_finished; auto; [apply S1|apply Fu| ].
    cbv iota in Sf'. cbn [pbuf] in *. match goal with |- safetext _ _ (?b ++ _) => change (b ++ 0 :: sl) with (b ++ [0] ++ sl) in Sf' end. rewrite app_assoc in Sf'. now apply safetext_app in Sf' as [Sf' _].
  - apply (zparseLen_finished s1 F v _ A p _ sl (lenN t) t); auto; [apply S1|]. apply safetext_app in Sf as [Sf _]. apply Sf.
Qed.
Lemma zstep_setDouble h d : zsimulated jd (CSetDouble h d).
Proof.
  intros R x R' St. exists 0%nat. split; [apply Nat.le_0_l|]. intros VV E nm F s fuel _ S _. cbn [zrstep zstep] in *.
  destruct (look R h) as [[w k]|] eqn:L; [|discriminate].
  destruct (spend R k 104) as [R1|] eqn:Sp; [|discriminate]. looked S L v A Hv HA. spent S HA Sp ru' Py Le. apply env_wp.
  assert (Hh1 := on_handle E F R nm s h w k v A S L Hv HA).
  destruct d as [neg m e|neg|].
  - destruct (doubleb _) eqn:B; [|discriminate]. injection St as <- <-. apply doubleb_ok in B.
    eapply (set_sealed_ends E F R nm s h w k v A S L Hv HA); eauto; [apply mine_at; eapply nth_error_In; eauto|].
    eapply wp_mono; [eapply (zsetNum_wp s F v _ A); eauto; apply S|]. intros r s' [K _].
    destruct (K ltac:(constructor)) as (-> & F' & a & n & p & P & Sn & Ep & Sf). split; auto. exists F', a. split; auto.
    eapply leaf_ended; eauto; try discriminate. intros b [= <-]. eauto.
  - injection St as <- <-. eapply (same_ends E F R nm s S); eauto; [apply mine_at; eapply nth_error_In; eauto|].
    eapply wp_mono; [eapply (zsetNum_wp s F v _ A); eauto; [apply S|constructor]|]. intros r s' [_ K].
    destruct K as (-> & X & _); [intro K; inversion K|]. split; auto. eapply ext_more; [exact X|]. lia.
  - injection St as <- <-. eapply (same_ends E F R nm s S); eauto; [apply mine_at; eapply nth_error_In; eauto|].
    eapply wp_mono; [eapply (zsetNum_wp s F v _ A); eauto; [apply S|constructor]|]. intros r s' [_ K].
    destruct K as (-> & X & _); [intro K; inversion K|]. split; auto. eapply ext_more; [exact X|]. lia.
Qed.

Theorem zstep_all c : zsimulated jd c.
Proof.
  destruct c; auto using zstep_newValue, zstep_parse, zstep_setDouble, zstep_objGet, zstep_arrayGet, zstep_begin, zstep_next, zstep_copy, zstep_add, zstep_set,
    zstep_arrayDel, zstep_objDel.
  all: try (apply plain; [intros; right; reflexivity|reflexivity|apply step; exact J]).
  all: try (apply plain; [intros; left; reflexivity|reflexivity|apply step; exact J]).
  all: destruct fast; apply plain; [intros; right; reflexivity|reflexivity|apply step; exact J|intros; left; reflexivity|reflexivity|apply step; exact J].
Qed.
End Steps.
