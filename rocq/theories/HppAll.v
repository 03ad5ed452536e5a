(** Programs with the wrapper classes (Hpp.v): whole programs, their scope, and the same
    program written with the C interface. *)
From Verif Require Import Base Spec Lex LexProofs Alloc AllocProofs Mem MemProofs Api Double PureParse Dom Effect CacheProofs Start Vocab Steps MoveProofs
  Hist HistRun HistForest HistSim HistStep HistAll HistMany HistWorld Leak Budget Hpp.

(** ** What stays in use *)
#[local] Hint Resolve ko_alloc ko_store ko_load ko_putNode ko_putVal ko_putZ ko_parse_loop ko_stringify_loop ko_nth_node ko_copy_loop ko_adopt : keepo.
Lemma ko_wval W w : keepsO (wval W w).
Proof. apply ko_same. intros s x s' H. unfold wval in H. destruct (sbsize s (fst w)), (W w); try discriminate. now injection H as <- <-. Qed.
#[local] Hint Resolve ko_wval : keepo.
(** The calls that leave a buffer of the caller in use. *)
Definition hkeeps (hc : hcall) : bool := match hc with HC c => keeps_buffer (as_c c) | HNew _ => false end.
Lemma hstep_owned fuel hc H : hkeeps hc = false -> hc <> HC CNewAllocator -> keepsO (hstep fuel hc H).
Proof.
  intros K N. destruct hc as [c|h]; [|cbn [hstep]; owned]. destruct c; cbn [hstep]; try (now elim N); try (owned; fail).
  - destruct k; try discriminate; owned.
  - destruct num, k; try discriminate; cbn [w_kept kept_kind pass w_set_text]; owned.
  - destruct k; try discriminate; cbn [kept_kind pass w_set_key]; owned.
Qed.
Lemma gi_henv X H (f : X -> answer) m (Q : answer * henv -> Prop) : (forall x, Q (f x, H)) -> gives (with_henv H f m) Q.
Proof. intro K. unfold with_henv. apply gi_bind. intro x. now apply gi_ret. Qed.
Lemma out_w_ha H r : ha (snd (out_w H r)) = ha H.
Proof. unfold out_w. now destruct (fst r). Qed.
Lemma hstep_ha fuel hc H : hc <> HC CNewAllocator -> gives (hstep fuel hc H) (fun xe => ha (snd xe) = ha H).
Proof.
  intro N. destruct hc as [c|h]; [destruct c|]; cbn [hstep]; try (now elim N); repeat (apply gi_bind; intro); try (apply gi_henv; reflexivity);
    apply gi_ret; first [reflexivity | apply out_w_ha].
Qed.
Lemma wof_pure H h s v s1 : wof H h s = Ok (v, s1) -> s1 = s.
Proof. unfold wof. destruct (nth_error (hw H) h); [|discriminate]. now intros [= _ <-]. Qed.
Lemma with_henv_inv X H (f : X -> answer) m s xe s' : with_henv H f m s = Ok (xe, s') -> exists x, m s = Ok (x, s').
Proof. unfold with_henv, bind. destruct (m s) as [[x s1]|e]; [|discriminate]. intros [= _ <-]. eauto. Qed.
Record fine (U : list N) (H : henv) (s : st) : Prop := {
  fi_tidy : tidy s;
  fi_known : forall A, sallocs s A <> None -> In A (ha H);
  fi_live : forall b, sbsize s b <> None -> sbsize init b <> None \/ In b U \/ exists A, owns s A b
}.
Lemma hstep_live fuel hc H s xe s' U : fine U H s -> hstep fuel hc H s = Ok (xe, s') -> fine (U ++ if hkeeps hc then [snext s] else []) (snd xe) s'.
Proof.
  intros [T Kn L] Ec. destruct (hkeeps hc) eqn:Kb.
  - assert (Nc : hc <> HC CNewAllocator) by (intros ->; discriminate). pose proof (hstep_ha fuel hc H Nc s xe s' Ec) as Ee. cbv beta in Ee.
    assert (K : exists X t (m : addr -> M X) x, (forall p, keepsO (m p)) /\ keep t m s = Ok (x, s')).
    { destruct hc as [c|h]; [|discriminate]. destruct c; try discriminate; cbn [hstep] in Ec; unfold bind at 1 in Ec; destruct (wof H h s) as [[v s1]|e] eqn:Eh; try discriminate; apply wof_pure in Eh as ->;
        apply with_henv_inv in Ec as (x & Ec).
      - destruct k; try discriminate. eexists bool, _, _, x. split; [|exact Ec]. intro p; cbv beta; owned.
      - destruct num, k; try discriminate Kb; cbn [w_kept kept_kind pass] in Ec; eexists bool, _, _, x; (split; [|exact Ec]); intro p; cbv beta; owned.
      - destruct k; try discriminate Kb; cbn [kept_kind pass] in Ec; eexists bool, _, _, x; (split; [|exact Ec]); intro p; cbv beta; owned. }
    destruct K as (X & t & m & x & Km & K). destruct (keep_live _ _ _ _ _ _ Km T K) as (K1 & K2 & K3 & K4). constructor; auto.
    + intros A HA. rewrite Ee. auto.
    + intros b Hb. destruct (K3 b Hb) as [K0|[->|K0]]; auto; [|right; left; apply in_or_app; right; now left].
      destruct (L b K0) as [|[|(A & O)]]; auto; [right; left; apply in_or_app; now left|right; right; eauto].
  - rewrite app_nil_r. assert (D : hc = HC CNewAllocator \/ hc <> HC CNewAllocator) by (destruct hc as [c|h]; [destruct c; auto; right; discriminate|right; discriminate]).
    destruct D as [->|Nc].
    + cbn [hstep] in Ec. unfold bind, zj_NewAllocator, ret in Ec. injection Ec as <- <-. cbn [snd ha]. constructor.
      * constructor; cbn [sallocs snext].
        -- intros A Le. rewrite updN_neq by lia. apply (ti_next _ T). lia.
        -- intros A ar HA. destruct (N.eq_dec A (snext s)) as [->|D]; [rewrite updN_eq in HA; injection HA as <-; exists []; reflexivity|].
           rewrite updN_neq in HA by auto. now apply (ti_root _ T).
      * intros A HA. cbn [sallocs ha] in *. apply in_or_app. destruct (N.eq_dec A (snext s)) as [->|D]; [right; now left|]. rewrite updN_neq in HA by auto. auto.
      * intros b Hb. cbn [sbsize] in Hb.
        assert (Ow : forall A, owns s A b -> exists A, owns (mkSt (sbytes s) (snodes s) (svals s) (sstrs s) (updN (sallocs s) (snext s) (Some [first_chunk (snext s)]))
           (updN (sbsize s) (snext s) (Some (sizeof_Allocator + sizeof_aNode + zj_AllocatorInitMemSize))) (snext s + 1) (scache s) (count_new (sizeof_Allocator + sizeof_aNode + zj_AllocatorInitMemSize) (scnt s))) A b).
        { intros A (ar & k & H1 & H2). exists A, ar, k. cbn [sallocs]. split; auto. rewrite updN_neq; auto. intros ->. rewrite (ti_next _ T (snext s)) in H1 by lia. discriminate. }
        destruct (N.eq_dec b (snext s)) as [->|D].
        -- right. right. exists (snext s), [first_chunk (snext s)], (first_chunk (snext s)). cbn [sallocs]. rewrite updN_eq. split; auto. split; [now left|reflexivity].
        -- rewrite updN_neq in Hb by auto. destruct (L b Hb) as [|[|(A & O)]]; auto. right. right. exact (Ow A O).
    + pose proof (hstep_ha fuel hc H Nc s xe s' Ec) as Ee. cbv beta in Ee. pose proof (hstep_owned fuel hc H Kb Nc s xe s' T Ec) as G. constructor.
      * apply G.
      * intros A HA. rewrite Ee. apply Kn. now apply (gr_same _ _ G).
      * intros b Hb. destruct (gr_live _ _ G b Hb) as [K|K]; auto. destruct (L b K) as [|[|(A & O)]]; auto. right. right. exists A. now apply (gr_owns _ _ G).
Qed.
(** The caller's buffers that calls leave in use. *)
Fixpoint hbuffers (fuel : nat) (cs : list hcall) (H : henv) (s : st) : list N :=
  match cs with
  | [] => []
  | c :: r =>
      match hstep fuel c H s with
      | Ok (xe, s') => (if hkeeps c then [snext s] else []) ++ hbuffers fuel r (snd xe) s'
      | Err _ => []
      end
  end.
Lemma hrun_live fuel : forall cs U H s re s', fine U H s -> hrun fuel cs H s = Ok (re, s') -> fine (U ++ hbuffers fuel cs H s) (snd re) s'.
Proof.
  induction cs as [|c r IH]; intros U H s re s' Fi E; cbn [hrun hbuffers] in *.
  - injection E as <- <-. now rewrite app_nil_r.
  - unfold bind at 1 in E. destruct (hstep fuel c H s) as [[xe s1]|] eqn:E1; [|discriminate]. unfold bind in E.
    destruct (hrun fuel r (snd xe) s1) as [[re2 s2]|] eqn:E2; [|discriminate]. injection E as <- <-. cbn [snd].
    rewrite app_assoc. eapply IH; [|exact E2]. eapply hstep_live; eauto.
Qed.
Lemma fine_start : fine [] hstart init.
Proof.
  constructor; [constructor; cbn; [auto|discriminate]| |auto]. cbn. now intros A [].
Qed.
(** After the scope no block is in use but the static texts and those buffers. *)
Theorem scope_freed fuel cs rs s b : hscope fuel cs init = Ok (rs, s) -> sbsize s b <> None -> sbsize init b <> None \/ In b (hbuffers fuel cs hstart init).
Proof.
  intros E Hb. unfold hscope, bind in E. destruct (hrun fuel cs hstart init) as [[re s1]|] eqn:E1; [|discriminate].
  destruct (release_all (rev (ha (snd re))) s1) as [[u s2]|] eqn:E2; [|discriminate]. injection E as <- <-.
  destruct (hrun_live fuel cs [] hstart init re s1 fine_start E1) as [T Kn L]. destruct (release_all_result _ _ _ _ T E2) as (_ & _ & R2 & _).
  destruct (R2 b Hb) as [K1 K2]. destruct (L b K1) as [|[|(A & O)]]; auto. exfalso. apply (K2 A); auto. rewrite <- in_rev. apply Kn. destruct O as (ar & k & O & _). congruence.
Qed.
Theorem hbuffers_length fuel cs rs H s : hrun fuel cs hstart init = Ok ((rs, H), s) -> length (hbuffers fuel cs hstart init) = length (filter hkeeps cs).
Proof.
  generalize hstart init. intros H0 s0. revert H0 s0 rs H s. induction cs as [|c r IH]; intros H0 s0 rs H s E; [reflexivity|].
  cbn [hrun] in E. cbn [hbuffers filter]. unfold bind at 1 in E. destruct (hstep fuel c H0 s0) as [[xe s1]|]; [|discriminate]. unfold bind in E.
  destruct (hrun fuel r (snd xe) s1) as [[[rs2 H2] s2]|] eqn:E2; [|discriminate]. specialize (IH _ _ _ _ _ E2). rewrite app_length, IH.
  destruct (hkeeps c); reflexivity.
Qed.

(** ** Whole programs *)
Lemma start_wrel : wrel hstart estart init.
Proof. constructor; auto. intros h w K. destruct h; discriminate. Qed.
Theorem wrapper_program jd cs rs R : correct jd -> hrrun jd cs rstart = Some (rs, R) ->
  exists f0, forall fuel, (f0 <= fuel)%nat -> exists H s, hrun fuel cs hstart init = Ok ((rs, H), s) /\ exists E, represents R E s /\ wrel H E s.
Proof.
  intros J K. destruct (hrun_ok jd J cs rstart rs R K) as (f0 & Q). exists f0. intros fuel Hf.
  destruct (Q novols estart _ nodocs init fuel hstart Hf start_sim start_own start_wrel) as ([rs' H] & s & Er & Hr & E & nm & F & S & O & Rl).
  cbn [fst snd] in *. subst rs'. exists H, s. split; auto. exists E. split; auto. exists nm, F. exact S.
Qed.
Theorem wrapper_scope jd cs rs R : correct jd -> hrrun jd cs rstart = Some (rs, R) ->
  exists f0, forall fuel, (f0 <= fuel)%nat -> exists s, hscope fuel cs init = Ok (rs, s) /\
    forall b, sbsize s b <> None -> sbsize init b <> None \/ In b (hbuffers fuel cs hstart init).
Proof.
  intros J K. destruct (wrapper_program jd cs rs R J K) as (f0 & Q). exists f0. intros fuel Hf. destruct (Q fuel Hf) as (H & s & Er & E & (nm & F & S) & Rl).
  assert (W : wp (release_all (rev (ha H))) s (fun _ => freed s (rev (ha H)))).
  { apply release_all_wp; [apply S| |]; rewrite (wr_ha _ _ _ Rl).
    - apply NoDup_rev. apply S.
    - intros A HA. rewrite <- in_rev in HA. apply In_nth_error in HA as (k & Hk). destruct (nth_error (ru R) k) as [u|] eqn:Eu.
      + exact (proj1 (sm_arena _ _ _ _ _ S k A u Hk Eu)).
      + exfalso. apply nth_error_None in Eu. rewrite <- (sm_la _ _ _ _ _ S) in Eu. assert (k < length (ea E))%nat by (apply nth_error_Some; congruence). lia. }
  destruct W as (u & s2 & E2 & _). exists s2. assert (Es : hscope fuel cs init = Ok (rs, s2)).
  { unfold hscope, bind. rewrite Er. cbn [snd fst]. now rewrite E2. }
  split; auto. intros b Hb. eapply scope_freed; eauto.
Qed.

(** ** The same program with the C interface *)
Fixpoint plains (jd : judge) (cs : list hcall) (R : rst) : list call :=
  match cs with
  | [] => []
  | c :: r =>
      match plain c R, hrstep jd c R with
      | Some p, Some (_, R1) => p :: plains jd r R1
      | _, _ => []
      end
  end.
Lemma plain_lean jd c R R2 x R' : leaner R R2 -> hrstep jd c R = Some (x, R') -> exists p R2', plain c R = Some p /\ rstep jd p R2 = Some (x, R2') /\ leaner R' R2'.
Proof.
  intros L H. unfold hrstep in H. destruct (plain c R) as [p|]; [|discriminate]. destruct (rstep jd p R) as [[y R1]|] eqn:E; [|discriminate].
  destruct (lean_step jd p R R2 L y R1 E) as (R2' & E2 & L2). exists p, R2'. split; auto.
  destruct (makes_value p); [|injection H as <- <-; auto]. unfold wrapped in H. cbn [fst snd] in H.
  assert (D : (y, R1) = (x, R') \/ exists A, Some x = Some y /\ spend R1 A sizeof_wrapper = Some R').
  { destruct y as [| | | | | | | |[h|]|]; try (left; congruence). right. destruct (nth_error (rh R1) h) as [[o A]|]; [|discriminate].
    destruct (spend R1 A sizeof_wrapper) as [R3|] eqn:Sp; [|discriminate]. injection H as <- <-. exists A. auto. }
  destruct D as [D|(A & D & Sp)]; [injection D as <- <-; auto|]. injection D as ->. split; auto.
  destruct L2 as (u & -> & F). unfold spend in Sp. destruct (nth_error (ru R1) A) as [n|] eqn:En; [|discriminate]. destruct (_ <=? _); [|discriminate]. injection Sp as <-.
  exists u. cbn [rG rn rh ru]. split; auto. clear - F En. revert A n En. induction F as [|a b l l' Hab F IH]; intros [|A] n En; try discriminate; cbn [setn]; constructor; auto.
  - injection En as ->. lia.
Qed.
Lemma plains_run jd : forall cs R R2 rs R', leaner R R2 -> hrrun jd cs R = Some (rs, R') -> exists R2', rrun jd (plains jd cs R) R2 = Some (rs, R2') /\ leaner R' R2'.
Proof.
  induction cs as [|c r IH]; intros R R2 rs R' L H; cbn [hrrun plains] in *.
  - injection H as <- <-. exists R2. auto.
  - destruct (hrstep jd c R) as [[x R1]|] eqn:E; [|discriminate]. destruct (hrrun jd r R1) as [[xs R3]|] eqn:E2; [|discriminate]. injection H as <- <-.
    destruct (plain_lean jd c R R2 x R1 L E) as (p & R2' & -> & E3 & L3). cbn [rrun]. rewrite E3. destruct (IH R1 R2' xs R3 L3 E2) as (R4 & -> & L4). eauto.
Qed.
Theorem same_answers jd cs rs R : correct jd -> hrrun jd cs rstart = Some (rs, R) ->
  exists f0, forall fuel, (f0 <= fuel)%nat -> exists H s E s', hrun fuel cs hstart init = Ok ((rs, H), s) /\
    crun fuel (plains jd cs rstart) estart init = Ok ((rs, E), s').
Proof.
  intros J K. destruct (wrapper_program jd cs rs R J K) as (f1 & Q1). destruct (plains_run jd cs rstart rstart rs R (leaner_refl _) K) as (R2 & K2 & _).
  destruct (program jd _ rs R2 J K2) as (f2 & Q2). exists (Nat.max f1 f2). intros fuel Hf. destruct (Q1 fuel) as (H & s & E1 & _); [lia|].
  destruct (Q2 fuel) as (E & s' & E2 & _); [lia|]. exists H, s, E, s'. auto.
Qed.
(** Without the method NewValue it is the same list of calls. *)
Theorem plains_map jd : forall cs R rs R', hrrun jd (map HC cs) R = Some (rs, R') -> plains jd (map HC cs) R = map as_c cs.
Proof.
  induction cs as [|c r IH]; intros R rs R' H; cbn [map hrrun plains] in *; auto. destruct (hrstep jd (HC c) R) as [[x R1]|] eqn:E; [|discriminate].
  cbn [plain]. f_equal. destruct (hrrun jd (map HC r) R1) as [[xs R2]|] eqn:E2; [|discriminate]. eapply IH; eauto.
Qed.
