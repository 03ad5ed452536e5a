(** Programs over the beta header with several groups of allocators that keep the pointers
    they are given.

    As in BetaClient.v a program keeps the pointers of the getters and of z_ValueStringify.
    Now it works with any number of groups of allocators (BetaWorld.v) and releases them: a
    pointer is good until the group it was got from is released, whatever happens to the
    others.  It may be passed to calls on other groups as well, to all that copy the text or
    only read it.

    Parsing is not one of these: z_ValueParse makes a copy, but parses the text of the
    caller (beta 1448-1460), so it counts as storing the text as it is. *)
From Verif Require Import Base Spec Lex LexProofs Alloc AllocProofs Mem MemProofs Api PureParse Dom Effect Steps CacheProofs Start Vocab MoveProofs
  Scene SetFacts Double Client Hist HistRun HistForest HistSim HistStep HistAll HistCache HistMany HistWorld
  Beta BetaProofs BetaCalls BetaHist BetaStep BetaSim Leak BetaLeak BetaWorld BetaClient Keep KeepWorld.

Inductive zgstmt :=
| ZIn (g : nat) (c : zstmt)                    (* a statement of BetaClient.v in group g *)
| ZRelease (g : nat).                          (* all allocators of group g are released *)

(** ** On the reference *)
(** What a statement does with a kept pointer: which one, whether the document keeps the text
    as it is, and the call it stands for when the pointer points to the text [t]. *)
Definition zarg (c : zstmt) : option (nat * nat) :=
  match c with ZSetText _ _ h k | ZSetKey _ h k | ZObjGet h k | ZParse _ h k | ZObjDel h k => Some (h, k) | _ => None end.
Definition zstored (c : zstmt) : bool := match c with ZSetText _ fast _ _ | ZSetKey fast _ _ => fast | ZParse _ _ _ => true | _ => false end.
Definition zuse (c : zstmt) (view : bool) (t : bytes) : option call :=
  match c with
  | ZSetText num fast h _ => Some (CSetText num (kind_of view fast) h t)
  | ZSetKey fast h _ => Some (CSetKey (kind_of view fast) h t)
  | ZObjGet h _ => Some (CObjGet view h t)
  | ZParse fast h _ => if view then None else Some (CParse (if fast then PFast else PCopy) h t [])
  | ZObjDel h _ => if view then None else Some (CObjDel h t)
  | _ => None
  end.
Definition zgst := (zref * list gptr)%type.
Section Ref.
Variable jd : judge.
Definition zgcall (e : event) (Z : zgst) : option (answer * zgst) :=
  match zwstep jd e (fst Z) with Some (x, W) => Some (x, (W, snd Z)) | None => None end.
(** A pointer of the reference: the text and the group it was got from (KeepWorld.v). *)
Definition zgtake (g : nat) (view : bool) (c : call) (Z : zgst) : option (answer * zgst) :=
  match zwstep jd (Do g c) (fst Z) with
  | Some (x, W) => Some (x, (W, snd Z ++ [Some (g, match x with Text (Some t) => if view then RV t else RC t | _ => RNull end)]))
  | None => None
  end.
Definition zgsstep (c : zgstmt) (Z : zgst) : option (answer * zgst) :=
  match c with
  | ZRelease g => zgcall (Release g) (fst Z, map (drop g) (snd Z))
  | ZIn g (ZApi c) => zgcall (Do g c) Z
  | ZIn g (ZTake v h) => zgtake g (is_view v) (BetaClient.gcall v h) Z
  | ZIn g (ZPrint h) => zgtake g false (CStringify h) Z
  | ZIn _ (ZLook k) =>
      match nth_error (snd Z) k with
      | Some (Some (_, r)) => Some (Text (option_map snd (rtext r)), Z)
      | _ => None
      end
  | ZIn g c =>
      match zarg c with
      | Some (_, k) =>
          match nth_error (snd Z) k with
          | Some (Some (j, r)) =>
              match rtext r with
              | Some (view, t) =>
                  if Nat.eqb j g || negb (zstored c)
                  then match zuse c view t with Some c => zgcall (Do g c) Z | None => None end
                  else None
              | None => None
              end
          | _ => None
          end
      | None => None
      end
  end.
End Ref.

(** ** On the model *)
Definition zgmst := (zworld * list mptr)%type.
Definition zgmstep (fuel : nat) (c : zgstmt) (Z : zgmst) : M (answer * zgmst) :=
  let '((Es, B), P) := Z in
  match c with
  | ZRelease g => xe <- zestep fuel (Release g) (Es, B) ;; ret (fst xe, (snd xe, P))
  | ZIn g c =>
      xz <- zmstep fuel c ((Es g, B), P) ;;
      ret (fst xz, ((updn Es g (fst (fst (snd xz))), snd (fst (snd xz))), snd (snd xz)))
  end.

(** ** Programs *)
Inductive zgprog (X : Type) :=
| ZGRet (x : X)
| ZGStuck
| ZGAct (c : zgstmt) (k : answer -> zgprog X).
Arguments ZGRet {X} x.
Arguments ZGStuck {X}.
Arguments ZGAct {X} c k.
Fixpoint zgrplay {X} (jd : judge) (p : zgprog X) (Z : zgst) : option (X * zgst) :=
  match p with
  | ZGRet x => Some (x, Z)
  | ZGStuck => None
  | ZGAct c k => match zgsstep jd c Z with Some (a, Z1) => zgrplay jd (k a) Z1 | None => None end
  end.
Fixpoint zgmplay {X} (fuel : nat) (p : zgprog X) (Z : zgmst) : M (X * zgmst) :=
  match p with
  | ZGRet x => ret (x, Z)
  | ZGStuck => fail EFuel
  | ZGAct c k => az <- zgmstep fuel c Z ;; zgmplay fuel (k (fst az)) (snd az)
  end.
Definition zgpasses (c : zgstmt) (Z : zgst) : nat :=
  match c with ZIn g c => zpasses c ((wr (fst (fst Z)) g, []), []) | ZRelease _ => 0%nat end.
Fixpoint zgpmost {X} (jd : judge) (p : zgprog X) (Z : zgst) : nat :=
  match p with
  | ZGAct c k => match zgsstep jd c Z with Some (a, Z1) => Nat.max (zgpasses c Z) (zgpmost jd (k a) Z1) | None => 0%nat end
  | _ => 0%nat
  end.

(** ** A call on a text in memory *)
Definition zptake (fuel : nat) (c : zstmt) (view : bool) (E : env) (B : bmem) (v p : addr) (n : N) : M ((answer * env) * bmem) :=
  match c with
  | ZSetText num fast _ _ => with_envB E Bool (zset_text_call B num (kind_of view fast) v p n)
  | ZSetKey fast _ _ => with_envB E Bool (zset_key_call B (kind_of view fast) v p n)
  | ZObjGet _ _ => out_valueB E (if view then z_ValueObjGetLen fuel B v p n else z_ValueObjGet fuel B v p)
  | ZParse fast _ _ => with_envB E Bool (if fast then z_ValueParseFast B v p else z_ValueParse B v p)
  | ZObjDel _ _ => with_envB E Bool (same B (z_obj_del fuel v p))
  | _ => fail EFuel
  end.
Definition zpoint (fuel : nat) (c : zstmt) (E : env) (B : bmem) (P : list mptr) (v : addr) (p : mptr) : M (answer * mst) :=
  match p with
  | MNull => fail EDeref
  | MC w => a <- deref w ;; mcall (zptake fuel c false E B v a 0) P
  | MV w n => a <- deref w ;; mcall (zptake fuel c true E B v a n) P
  end.
(** This is what the statements do, where the reference runs. *)
Lemma zmstep_use fuel c E B P h k view t c0 : zarg c = Some (h, k) -> zuse c view t = Some c0 ->
  (forall s r s', (v <- hof E h ;; p <- mtake P k ;; (match p with MNull => fail EDeref | MC _ => if view then fail EDeref else zpoint fuel c E B P v p
     | MV _ _ => if view then zpoint fuel c E B P v p else fail EDeref end)) s = Ok (r, s') -> zmstep fuel c ((E, B), P) s = Ok (r, s')).
Proof.
  intros Ha Hu s r s' H. apply bind_inv in H as (v & s1 & Hv & H). apply bind_inv in H as (p & s2 & Hp & H).
  destruct c; cbn [zarg] in Ha; try discriminate Ha; injection Ha as -> ->; cbn [zmstep];
    unfold bind at 1; rewrite Hv; unfold bind at 1; rewrite Hp; destruct p as [|w|w n], view; try discriminate H; try discriminate Hu; exact H.
Qed.
#[local] Hint Resolve kc_alloc kc_store kc_load kc_free kc_buf kc_ufree kc_putNode kc_putVal kc_putZ kc_parse_loop kc_stringify_loop kc_nth_node kc_copy_loop kc_adopt : keeps.
Lemma zptake_keeps c view t c0 fuel E B v p n : zuse c view t = Some c0 -> cneed c0 = 0 -> keepsC (zptake fuel c view E B v p n).
Proof.
  intros Ec Z. destruct c as [c|g h|k|num fast h k|fast h k|h k|h|fast h k|h k], view; cbn [zuse zptake] in *; try discriminate Ec; try (destruct fast; try discriminate Ec);
    injection Ec as <-; cbn [cneed kind_of] in Z; try (exfalso; clear - Z; lia); cbn [kind_of];
    try (keeps; fail); destruct num; keeps.
Qed.
Lemma with_envB_keeps E X (f : X -> answer) m s xe s' : with_envB E f m s = Ok (xe, s') -> snd (fst xe) = E.
Proof. intro H. unfold with_envB in H. apply bind_inv in H as (x & s1 & _ & H). now injection H as <- _. Qed.
Lemma zptake_env c view t c0 fuel E B v p n s xe s' : zuse c view t = Some c0 -> cneed c0 <> 0 -> zptake fuel c view E B v p n s = Ok (xe, s') -> snd (fst xe) = E.
Proof.
  intros Ec Z H. destruct c; cbn [zuse zptake] in *; try discriminate Ec; try (eapply with_envB_keeps; exact H).
  injection Ec as <-. now elim Z.
Qed.
Lemma zptake_sets c view t c0 fuel E B v p n : zuse c view t = Some c0 -> sets_scratch c0 = true -> setsC (zptake fuel c view E B v p n).
Proof.
  intros Ec Z. destruct c as [c|g h|k|num fast h k|fast h k|h k|h|fast h k|h k], view; cbn [zuse zptake] in *; try discriminate Ec; try (destruct fast; try discriminate Ec);
    injection Ec as <-; try discriminate Z; unfold with_envB; (apply sc_left; [|intro; keeps]); cbn [kind_of].
  - replace (zset_text_call B num KLenFast v p n) with (if_set B v (set_text_len_fast (if num then zj_checkNum else zj_checkStr) (if num then TNumber else TString) v p n))
      by (destruct num; reflexivity).
    apply sc_if_set. unfold set_text_len_fast. apply sc_right. intro x. apply sc_left; [apply check_len_sets|]. intro ok. keeps.
  - replace (zset_text_call B num KLen v p n) with (if_set B v (set_text_len (if num then zj_checkNum else zj_checkStr) (if num then TNumber else TString) v p n))
      by (destruct num; reflexivity).
    apply sc_if_set. unfold set_text_len. apply sc_right. intro x. apply sc_left; [apply check_len_sets|]. intro ok. keeps.
Qed.
Lemma zptake_far fuel c view E B v p n : In v (eh E) -> gives (zptake fuel c view E B v p n) (far E B).
Proof.
  intro Hv. destruct c as [c|g h|k|num fast h k|fast h k|h k|h|fast h k|h k]; cbn [zptake]; try apply gi_fail.
  - apply (far_env _ _ _ v); auto. destruct num, view, fast; apply gi_if_set.
  - apply (far_env _ _ _ v); auto. destruct view, fast; apply gi_if_set.
  - apply far_value. destruct view; apply gi_giving.
  - apply (far_env _ _ _ v); auto. destruct fast; apply gi_clearing.
  - apply (far_env _ _ _ v); auto. apply near_also.
Qed.
Lemma zptake_len c fuel E B v p n : zptake fuel c false E B v p n = zptake fuel c false E B v p 0.
Proof. destruct c as [c|g h|k|num fast h k|fast h k|h k|h|fast h k|h k]; cbn [zptake]; auto; destruct fast; auto; destruct num; reflexivity. Qed.

(** ** The two agree *)
Section Agree.
Variable jd : judge.
Hypothesis J : correct jd.
Lemma zptake_wp {VV : vols} c h k view t c0 R K x R' K' E nm F s fuel B v p : zarg c = Some (h, k) -> zuse c view t = Some c0 -> brstep jd c0 (R, K) = Some (x, (R', K')) ->
  (zpasses c ((R, []), []) <= fuel)%nat -> sim R E nm F s -> caches E s B K -> (cneed c0 <> 0 -> cache_ready E s (cneed c0)) ->
  nth_error (eh E) h = Some v -> held (zstored c) view s p t ->
  wp (zptake fuel c view E B v p (lenN t)) s (@bgoes VV (cneed c0) E F s x R' K').
Proof.
  intros Ha Hu E0 Hf S C Cr Hv Hp.
  destruct c as [c|g h0|k0|num fast h0 k0|fast h0 k0|h0 k0|h0|fast h0 k0|h0 k0]; cbn [zarg zuse zptake zstored zpasses fst] in *; try discriminate Ha; injection Ha as -> ->.
  - injection Hu as <-. destruct (brset jd _ _ _ _ R K eq_refl E0 eq_refl) as (R2 & Sz & Eq). injection Eq as -> ->.
    eapply shaped_goes; eauto; [now apply set_text_traced|]. eapply text_ptr_wp; eauto. now apply held_kind.
  - injection Hu as <-. destruct (brset jd _ _ _ _ R K eq_refl E0 eq_refl) as (R2 & Sz & Eq). injection Eq as -> ->.
    eapply shaped_goes; eauto; [now apply set_key_traced|]. eapply key_ptr_wp; eauto. now apply held_kind.
  - injection Hu as <-. destruct (brset jd _ _ _ _ R K eq_refl E0 eq_refl) as (R2 & Sz & Eq). injection Eq as -> ->.
    eapply shaped_goes; eauto; [now apply obj_get_traced|]. apply out_wp'. eapply objGet_ptr_wp; eauto.
  - destruct view; [discriminate|]. injection Hu as <-. destruct (brset jd _ _ _ _ R K eq_refl E0) as (R2 & Sz & Eq); [destruct fast; reflexivity|]. injection Eq as -> ->.
    eapply shaped_goes; eauto; [now apply parse_traced|]. eapply parse_zptr_wp; eauto.
  - destruct view; [discriminate|]. injection Hu as <-. destruct (brset jd _ _ _ _ R K eq_refl E0 eq_refl) as (R2 & Sz & Eq). injection Eq as -> ->.
    eapply shaped_goes; eauto; [now apply delete_traced|]. eapply delete_zptr_wp; eauto.
Qed.
Lemma zwstep_do g c W Ks x W' Ks' : zwstep jd (Do g c) (W, Ks) = Some (x, (W', Ks')) ->
  exists R' K', brstep jd c (wr W g, Ks g) = Some (x, (R', K')) /\ Ks' = updn Ks g K'.
Proof.
  intro St. cbn [zwstep] in St. destruct (brstep jd c (wr W g, Ks g)) as [[x0 [R' K']]|] eqn:Er; [|discriminate]. exists R', K'.
  destruct (cneed c =? 0); [|destruct (_ && _); [|discriminate]]; injection St as <- _ <-; auto.
Qed.
(** A call of group [g], however it gets its arguments. *)
Definition zdone (x : answer) (Z' : zref) (Es : wenv) (g : nat) (s : st) (xb : (answer * env) * bmem) (s' : st) : Prop :=
  fst (fst xb) = x /\ (exists nms' Fs', ztied Z' (updn Es g (snd (fst xb)), snd xb) nms' Fs' s') /\
    (exists Dn Dv cc, ext Dn Dv cc s s') /\ forall j, lasts Es (updn Es g (snd (fst xb))) s s' j.
Lemma zdo_tied g c W Ks x R' K' Z' (m : M ((answer * env) * bmem)) Es B nms Fs s :
  brstep jd c (wr W g, Ks g) = Some (x, (R', K')) -> zwstep jd (Do g c) (W, Ks) = Some (x, Z') -> ztied (W, Ks) (Es, B) nms Fs s ->
  ((cneed c <> 0 -> cache_ready (Es g) s (cneed c)) -> wp m s (@bgoes (others Es g) (cneed c) (Es g) (Fs g) s x R' K')) ->
  (cneed c = 0 -> keepsC m) -> (cneed c <> 0 -> forall xb s', m s = Ok (xb, s') -> snd (fst xb) = Es g) -> (sets_scratch c = true -> setsC m) ->
  gives m (far (Es g) B) ->
  wp m s (zdone x Z' Es g s).
Proof.
  intros Er St ZT K Kc Ke Kt Fr. cbn [zwstep] in St. rewrite Er in St.
  pose proof (zt_tied _ _ _ _ _ ZT) as T. cbn [fst snd] in T.
  assert (Al : forall (A : N) cc, mine (NN := cneed c) (Es g) s cc -> cc A <> 0 -> In A (ea (Es g)) \/ (homeof s A /\ cc A <= cneed c)).
  { intros A cc M. exact (M A). }
  destruct (N.eqb_spec (cneed c) 0) as [Z|Nz].
  - injection St as <-. eapply wp_mono; [apply wp_ran, K; now intro|].
    intros [xe B'] s' [((Hx & nm' & F' & Af) & C') Ran]. split; [exact Hx|]. pose proof (Fr s _ s' Ran) as Fa. cbn [fst snd] in *.
    destruct Af as [Sg (cc & X & M) Nw Hs As (lh & la & Eh & Ea)]. specialize (fun A => Al A cc M). rewrite Z in Al.
    assert (Al0 : forall A, cc A <> 0 -> In A (ea (Es g))) by (intros A HA; destruct (Al A HA) as [Q|[_ Q]]; auto; lia).
    assert (Oth : forall A, @isvol (others Es g) A -> cc A = 0).
    { intros A HV. destruct (N.eq_dec (cc A) 0) as [E|E]; auto. exfalso. apply Al0 in E.
      exact (proj2 (sim_alive _ _ _ _ _ _ (t_sim _ _ _ _ _ T g) E) HV). }
    split; [|split; [eauto|exact (lasts_do Es g _ _ _ _ _ _ X As)]].
    eexists _, _. split; cbn [fst snd]; [|exact (caches_do (W, Ks) Es B nms Fs s g (snd xe) B' K' R' nm' F' s' cc ZT Sg X Hs As Fa C')].
    apply (tied_do W Es nms Fs s g 0 R' (snd xe) nm' F' s' _ cc); auto.
    + intros v Hv. destruct (Hs v Hv); auto.
    + intros A HA. rewrite Ea. apply in_or_app. now left.
    + apply updn_eq.
    + intros j Nj. exists (ru (wr W j)). rewrite updn_neq by auto. split; [now destruct (wr W j)|]. apply pays_none.
      intros A HA. apply Oth. split; [|eauto]. eapply t_alive; eauto.
    + intro Dd. destruct (t_cache _ _ _ _ _ T Dd) as (C1 & C2 & C3). pose proof (Kc Z s _ s' Ran) as Ec.
      split; [eapply live_after; eauto|]. split; [|rewrite Ec; auto].
      intros A Ho. destruct (home_after _ _ _ _ _ _ X C1 Ho) as [Q|[Q _]].
      * destruct (C2 A Q) as (j & Hj & HA). exists j. split; auto. destruct (Nat.eq_dec j g) as [->|Nj].
        -- rewrite updn_eq, Ea. apply in_or_app. now left.
        -- now rewrite updn_neq.
      * exfalso. destruct Ho as (p & z & Hp & _). congruence.
  - destruct (negb (wdead W) && _) eqn:Eb; [|discriminate]. injection St as <-. apply andb_prop in Eb as [Eb1 Eb2].
    apply Bool.negb_true_iff in Eb1. rewrite forallb_forall in Eb2. destruct (t_cache _ _ _ _ _ T Eb1) as (C1 & C2 & C3).
    assert (Ch : forall j, In j (wc W) -> j <> g -> exists R1, scratch (wr W j) (cneed c) = Some R1).
    { intros j Hj Nj. specialize (Eb2 j Hj). apply Bool.orb_prop in Eb2 as [Q|Q]; [apply Nat.eqb_eq in Q; congruence|].
      destruct (scratch (wr W j) (cneed c)) as [R1|]; [eauto|discriminate]. }
    assert (Rd : cache_ready (Es g) s (cneed c)).
    { split; auto. intros A Ho. destruct (C2 A Ho) as (j & Hj & HA). destruct (Nat.eq_dec j g) as [->|Nj]; auto. right.
      destruct (Ch j Hj Nj) as (R1 & E1). destruct (scratch_pays _ _ _ _ _ _ _ (fun _ => cneed c) (t_sim _ _ _ _ _ T j) E1) as (_ & _ & _ & Q); auto. lia. }
    eapply wp_mono; [apply wp_ran, K; auto|].
    intros [xe B'] s' [((Hx & nm' & F' & Af) & C') Ran]. split; [exact Hx|]. pose proof (Ke Nz _ s' Ran) as Ee. pose proof (Fr s _ s' Ran) as Fa. cbn [fst snd] in *.
    destruct Af as [Sg (cc & X & M) Nw Hs As _]. specialize (fun A => Al A cc M).
    pose proof (caches_do (W, Ks) Es B nms Fs s g (snd xe) B' K' R' nm' F' s' cc ZT Sg X Hs As Fa C') as Cd. rewrite Ee in *.
    assert (Oj : forall j A, j <> g -> In A (ea (Es j)) -> cc A <> 0 -> In j (wc W) /\ cc A <= cneed c).
    { intros j A Nj HA Hc. destruct (Al A Hc) as [Q|[Q Le]].
      - elim Nj. eapply t_ea; eauto.
      - split; auto. destruct (C2 A Q) as (i & Hi & HAi). rewrite (t_ea _ _ _ _ _ _ _ _ T HA HAi). auto. }
    split; [|split; [eauto|exact (lasts_do Es g _ _ _ _ _ _ X As)]].
    eexists _, _. split; cbn [fst snd]; [|exact Cd].
    apply (tied_do W Es nms Fs s g 0 R' (Es g) nm' F' s' _ cc); auto.
    + apply updn_eq.
    + intros j Nj. rewrite updn_neq by auto. destruct (inb j (wc W)) eqn:Ej.
      * apply inb_In in Ej. destruct (Ch j Ej Nj) as (R1 & E1). unfold charge. rewrite E1.
        destruct (scratch_pays _ _ _ _ _ _ _ (fun _ => cneed c) (t_sim _ _ _ _ _ T j) E1) as (ru' & -> & Py & _); [lia|]. exists ru'. split; auto.
        apply (pays_some _ _ _ _ _ Py). intros A HA. destruct (N.eq_dec (cc A) 0) as [Q|Q]; [lia|]. now apply (Oj j A).
      * exists (ru (wr W j)). split; [now destruct (wr W j)|]. apply pays_none. intros A HA. destruct (N.eq_dec (cc A) 0) as [Q|Q]; auto. exfalso.
        destruct (Oj j A Nj HA Q) as [Q1 _]. apply inb_In in Q1. congruence.
    + intros _. split; [eapply live_after; eauto|]. split.
      * intros A Ho. assert (Up : forall j, ea (updn Es g (Es g) j) = ea (Es j)).
        { intro j. destruct (Nat.eq_dec j g) as [->|Nj]; [now rewrite updn_eq|now rewrite updn_neq]. }
        destruct (home_after _ _ _ _ _ _ X C1 Ho) as [Q|[Q Qc]].
        -- destruct (C2 A Q) as (j & Hj & HA). exists j. rewrite Up. split; auto. destruct (wsure W); auto. now right.
        -- destruct (wsure W) eqn:Ew; [now elim C3|]. exists g. rewrite Up. split; [now left|].
           destruct (Al A Qc) as [Q1|[(p & z & Hp & _) _]]; auto. congruence.
      * intro Sr. apply Bool.orb_prop in Sr as [Sr|Sr].
        -- destruct (x_cache _ _ _ _ _ X) as [->|(Q & _)]; auto. now elim C3.
        -- exact (Kt Sr s _ s' Ran).
Qed.
Lemma bstep_sets' fuel c E B : sets_scratch c = true -> setsC (bstep fuel c E B).
Proof. intro Sr. destruct c; try discriminate Sr. destruct k; try discriminate Sr; apply bstep_sets; auto. Qed.
Lemma bstep_tied g c W Ks x Z' Es B nms Fs s fuel : zwstep jd (Do g c) (W, Ks) = Some (x, Z') ->
  (passes c (wr W g) <= fuel)%nat -> ztied (W, Ks) (Es, B) nms Fs s -> wp (bstep fuel c (Es g) B) s (zdone x Z' Es g s).
Proof.
  intros St Hf T. destruct Z' as [W' Ks']. destruct (zwstep_do _ _ _ _ _ _ _ St) as (R' & K' & Er & _). destruct (bstep_all jd J c _ _ _ _ _ Er) as (f0 & L0 & K).
  apply (zdo_tied g c W Ks x R' K' (W', Ks') (bstep fuel c (Es g) B) Es B nms Fs s Er St T).
  - apply (K (others Es g) (Es g) (nms g) (Fs g) s fuel B); [lia|apply (zt_tied _ _ _ _ _ T)|apply (zt_caches _ _ _ _ _ T g)].
  - apply bstep_keeps.
  - intros Nz xb s' Ran. exact (bstep_env fuel c (Es g) B s xb s' Nz Ran).
  - apply bstep_sets'.
  - apply bstep_far.
Qed.
Definition zggets (x : answer) (Z' : zref) (T' : list gptr) (xz : answer * zgmst) (s' : st) : Prop :=
  fst xz = x /\ let '((Es', B'), P') := snd xz in settled s' /\ aimed Es' s' P' T' /\ exists nms' Fs', ztied Z' (Es', B') nms' Fs' s'.
Lemma zdone_gets x Z' Es g s E' B' y s' P T : zdone x Z' Es g s ((y, E'), B') s' -> settled s -> aimed Es s P T ->
  zggets x Z' T (y, ((updn Es g E', B'), P)) s'.
Proof.
  intros (Hx & Tr & (Dn & Dv & cc & X) & La) Se Am. cbn [fst snd] in *. split; [exact Hx|]. cbn [snd].
  split; [eapply settled_ext; eauto|]. split; [eapply aimed_lasts; eauto|exact Tr].
Qed.
Lemma zgets_snoc x Z' Es B P T q m g y s' : zggets x Z' T (y, ((Es, B), P)) s' -> @points (others Es g) s' m q -> zggets x Z' (T ++ [Some (g, q)]) (y, ((Es, B), P ++ [m])) s'.
Proof.
  intros (Hx & Se & Am & Tr) Pt. split; [exact Hx|]. cbn [snd]. split; [exact Se|]. split; [|exact Tr]. apply Forall2_app; [exact Am|]. constructor; [exact Pt|constructor].
Qed.
Lemma updn_same (Es : wenv) g : forall j, updn Es g (Es g) j = Es j.
Proof. intro j. destruct (Nat.eq_dec j g) as [->|N0]; [now rewrite updn_eq|now rewrite updn_neq]. Qed.
Lemma others_ext (Es Es' : wenv) j : (forall i, Es' i = Es i) -> forall b, @isvol (others Es' j) b <-> @isvol (others Es j) b.
Proof. intros H b. split; intros (Nz & i & Ni & Hi); split; auto; exists i; split; auto; [now rewrite <- H|now rewrite H]. Qed.
(** A statement that leaves all as it is. *)
Lemma zgstay W Ks Es B nms Fs s P T g x : ztied (W, Ks) (Es, B) nms Fs s -> settled s -> aimed Es s P T ->
  zggets x (W, Ks) T (x, ((updn Es g (Es g), B), P)) s.
Proof.
  intros [Td C] Se Am. cbn [fst snd] in *. pose proof (t_wf _ _ _ _ _ Td) as Wf. split; [reflexivity|]. cbn [snd]. split; auto.
  assert (Ld : forall i, lasts Es (updn Es g (Es g)) s s i).
  { intro i. eapply (lasts_do Es g (Es g)); [apply (ext_refl none none s Wf)|auto]. }
  split; [eapply aimed_lasts; eauto|]. exists (updn nms g (nms g)), (updn Fs g (Fs g)). split; cbn [fst snd].
  - replace W with (mkW (wr W) (wc W) (wsure W) (wdead W)) by (now destruct W).
    eapply (tied_do W Es nms Fs s g 0 (wr W g) (Es g) (nms g) (Fs g) s (wr W) zeroc); auto.
    + apply Td.
    + now apply ext_refl.
    + intros y H1 H2. congruence.
    + intros i Ni. exists (ru (wr W i)). split; [now destruct (wr W i)|]. apply pays_none. auto.
    + intro Dd. destruct (t_cache _ _ _ _ _ Td Dd) as (C1 & C2 & C3). split; auto. split; auto. intros A Ho. destruct (C2 A Ho) as (i & Hi & HA).
      exists i. split; auto. destruct (Nat.eq_dec i g) as [->|Ni]; [now rewrite updn_eq|now rewrite updn_neq].
  - intro j. rewrite (updn_same Es g j). apply (caches_by (others Es j) _ (Es j) s s B B); auto.
    intros w o. apply (texted_move (others Es j) _ none none zeroc); [now apply ext_refl|].
    intros b Hb. left. apply (others_ext Es (updn Es g (Es g)) j); auto. apply updn_same.
Qed.
Lemma zgrelease g W Ks Es B nms Fs s P T fuel x Z' : zwstep jd (Release g) (W, Ks) = Some (x, Z') -> ztied (W, Ks) (Es, B) nms Fs s -> settled s -> aimed Es s P T ->
  wp (xe <- zestep fuel (Release g) (Es, B) ;; ret (fst xe, (snd xe, P))) s (zggets x Z' (map (drop g) T)).
Proof.
  intros St ZT Se Am. destruct (zstep_release jd g (W, Ks) x Z' St) as (f0 & L0 & K). cbn [zwpasses wpasses fst] in L0.
  destruct (K (Es, B) nms Fs s fuel ltac:(lia) ZT) as ([y W2] & s' & Er & Hy & nm' & F' & T'). pose proof (zt_tied _ _ _ _ _ ZT) as Td. cbn [fst snd] in *. subst y.
  pose proof (t_wf _ _ _ _ _ Td) as Wf.
  assert (Fr : freed s (ea (Es g)) s' /\ W2 = (updn Es g estart, B)).
  { destruct (release_all_wp (ea (Es g)) s Wf) as ([] & s1 & E1 & Fr); [apply (t_sim _ _ _ _ _ Td g)|intros A HA; eapply t_alive; eauto|].
    cbn [zestep fst snd] in Er. unfold bind in Er. rewrite E1 in Er. injection Er as _ <- <-. auto. }
  destruct Fr as [Fr ->]. exists (x, ((updn Es g estart, B), P)), s'. split.
  { unfold bind. rewrite Er. reflexivity. }
  destruct (release_tied g W Es nms Fs s s' Td Fr) as [_ La]. split; [reflexivity|]. cbn [snd].
  split; [eapply settled_freed; eauto|]. split; [eapply aimed_drop; eauto|]. eauto.
Qed.
(** A getter, or printing: the pointer it gives is good from then on. *)
Lemma zgtaken g h v W Ks x Z' Es B nms Fs s fuel P T : zwstep jd (Do g (BetaClient.gcall v h)) (W, Ks) = Some (x, Z') ->
  ztied (W, Ks) (Es, B) nms Fs s -> settled s -> aimed Es s P T ->
  wp (zgmstep fuel (ZIn g (ZTake v h)) ((Es, B), P)) s
     (zggets x Z' (T ++ [Some (g, match x with Text (Some t) => if is_view v then RV t else RC t | _ => RNull end)])).
Proof.
  intros St ZT Se Am. pose proof (zt_tied _ _ _ _ _ ZT) as Td. cbn [fst snd] in Td. pose proof (t_sim _ _ _ _ _ Td g) as S. destruct Z' as [W' Ks'].
  destruct (zwstep_do _ _ _ _ _ _ _ St) as (R' & K' & E0 & HK). destruct (take_look jd v h _ _ _ _ E0) as (w0 & k0 & L).
  assert (Hf : (passes (BetaClient.gcall v h) (wr W g) <= fuel)%nat) by (destruct v; cbn; lia).
  destruct (bstep_tied g _ W Ks x _ Es B nms Fs s fuel St Hf ZT) as (xb & s' & Er & Dn). cbn [zgmstep zmstep].
  destruct (is_view v) eqn:Vg.
  - rewrite (take_view v h (Es g) B fuel Vg) in Er. unfold same in Er. apply bind_inv in Er as (xe & s0 & Er & Eq). injection Eq as <- <-.
    apply bind_inv in Er as (a & s1 & Ev & Er). unfold with_env in Er. apply bind_inv in Er as (y & s2 & Er & Eq). injection Eq as <- <-.
    apply bind_inv in Er as (r & s3 & Eg & Eo).
    assert (Hv : nth_error (eh (Es g)) h = Some a /\ s1 = s).
    { unfold hof in Ev. destruct (nth_error (eh (Es g)) h) as [v0|]; [|discriminate]. injection Ev as <- <-. auto. }
    destruct Hv as [Hv ->]. pose proof (proj1 Dn) as Hx. cbn [fst snd] in Hx. subst y.
    exists (x, ((updn Es g (Es g), B), P ++ [match r with Some (w, n) => MV w n | None => MNull end])), s2. split.
    { unfold bind at 1. unfold bind at 1. rewrite Ev. unfold bind at 1. rewrite Eg. unfold bind at 1. rewrite Eo. reflexivity. }
    apply zgets_snoc; [exact (zdone_gets _ _ _ _ _ _ _ _ _ P T Dn Se Am)|].
    destruct (view_safe v (wr W g) (Es g) (nms g) (Fs g) s h a w0 k0 S L Hv _ _ Vg Eg) as [-> Hr]. destruct Dn as (_ & _ & _ & La). cbn [fst snd] in La. destruct r as [[w n]|].
    + destruct Hr as (p & b & -> & -> & Sf). cbn [out_view] in Eo.
      assert (Q : wp (b <- load_w (At p) (lenN b) ;; ret (Text (Some b))) s (fun y _ => y = Text (Some b))).
      { unfold load_w. apply wp_bind, wp_bind, wp_deref, (wp_load p _ b); [apply Sf|reflexivity|]. now apply wp_ret. }
      apply (wp_run _ _ _ _ _ Q) in Eo. subst x. cbn [points]. exists p. split; auto. split; auto. now apply (La g).
    + injection Eo as <- _. exact Logic.I.
  - rewrite (take_bstep v h (Es g) B fuel Vg) in Er. apply bind_inv in Er as (a & s1 & Ev & Er).
    unfold out_textB in Er. apply bind_inv in Er as (rb & s2 & Eg & Er). apply bind_inv in Er as (y & s3 & Eo & Er). injection Er as <- <-.
    assert (Hv : nth_error (eh (Es g)) h = Some a /\ s1 = s).
    { unfold hof in Ev. destruct (nth_error (eh (Es g)) h) as [v0|]; [|discriminate]. injection Ev as <- <-. auto. }
    destruct Hv as [Hv ->]. pose proof (proj1 Dn) as Hx. cbn [fst snd] in Hx. subst y.
    exists (x, ((updn Es g (Es g), snd rb), P ++ [match fst rb with Some w => MC w | None => MNull end])), s3. split.
    { unfold bind at 1. unfold bind at 1. rewrite Ev. unfold bind at 1. rewrite Eg. unfold bind at 1. rewrite Eo. reflexivity. }
    apply zgets_snoc; [exact (zdone_gets _ _ _ _ _ _ _ _ _ P T Dn Se Am)|].
    destruct Dn as (_ & (nm' & F' & [_ C']) & _). cbn [fst snd] in C'. specialize (C' g). rewrite HK, !updn_eq in C'. destruct rb as [[w|] B']; cbn [fst snd] in *.
    + cbn [out_text] in Eo. apply bind_inv in Eo as (b & s4 & _ & Eo). injection Eo as <- _.
      destruct (take_slot jd v h (wr W g) (Ks g) _ R' K' Vg E0) as [Q|(t & k & Q & Hk & Sk)]; [discriminate|]. injection Q as ->.
      rewrite <- (zget_slot v B a s w B' s2 Vg Eg). cbn [points].
      exact (@slot_text (others (updn Es g (Es g)) g) v s3 (B' a) k t (proj2 C' h a k Hv Hk) Sk).
    + injection Eo as <- _. exact Logic.I.
Qed.
Lemma zgprinted g h W Ks x Z' Es B nms Fs s fuel P T : zwstep jd (Do g (CStringify h)) (W, Ks) = Some (x, Z') -> (passes (CStringify h) (wr W g) <= fuel)%nat ->
  ztied (W, Ks) (Es, B) nms Fs s -> settled s -> aimed Es s P T ->
  wp (zgmstep fuel (ZIn g (ZPrint h)) ((Es, B), P)) s (zggets x Z' (T ++ [Some (g, match x with Text (Some t) => RC t | _ => RNull end)])).
Proof.
  intros St Hf ZT Se Am. pose proof (zt_tied _ _ _ _ _ ZT) as Td. cbn [fst snd] in Td. pose proof (t_sim _ _ _ _ _ Td g) as S. destruct Z' as [W' Ks'].
  destruct (zwstep_do _ _ _ _ _ _ _ St) as (R' & K' & E0 & HK). destruct (brset jd _ _ _ _ (wr W g) (Ks g) eq_refl E0 eq_refl) as (R2 & Sz & Eq). injection Eq as -> _.
  destruct (bstep_tied g _ W Ks x _ Es B nms Fs s fuel St Hf ZT) as (xb & s' & Er & Dn). cbn [zgmstep zmstep].
  cbn [bstep] in Er. unfold same in Er. apply bind_inv in Er as (xe & s0 & Er & Eq). injection Eq as <- <-. cbn [cstep] in Er.
  apply bind_inv in Er as (v & s1 & Ev & Er). unfold with_env in Er. apply bind_inv in Er as (y & s2 & Er & Eq). injection Eq as <- <-.
  apply bind_inv in Er as (w & s3 & Eg & Eo). pose proof (proj1 Dn) as Hx. cbn [fst snd] in Hx. subst y.
  assert (Hv : nth_error (eh (Es g)) h = Some v /\ s1 = s).
  { unfold hof in Ev. destruct (nth_error (eh (Es g)) h) as [v0|]; [|discriminate]. injection Ev as <- <-. auto. }
  destruct Hv as [Hv ->].
  exists (x, ((updn Es g (Es g), B), P ++ [MC w])), s2. split.
  { unfold bind at 1. unfold bind at 1. rewrite Ev. unfold bind at 1. rewrite Eg. unfold bind at 1. rewrite Eo. reflexivity. }
  apply zgets_snoc; [exact (zdone_gets _ _ _ _ _ _ _ _ _ P T Dn Se Am)|].
  destruct (wp_run _ _ _ _ _ (print_kept jd h (wr W g) x R2 (Es g) (nms g) (Fs g) s fuel v Sz Hf S Se Hv) Eg) as (p & b & -> & Kt).
  assert (s2 = s3) as ->.
  { cbn [out_text] in Eo. apply bind_inv in Eo as (b' & s4 & Ec & Eo). injection Eo as _ <-.
    unfold cstr_at in Ec. apply bind_inv in Ec as (p' & s5 & Ed & Ec). injection Ed as _ <-. apply bind_inv in Ec as (t & s5 & Ed & Ec).
    injection Ec as _ <-. unfold readable in Ed. now injection Ed as _ <-. }
  destruct Dn as (_ & (nm' & F' & [T' _]) & _). cbn [fst snd] in T'. pose proof (t_wf _ _ _ _ _ T') as W3.
  destruct (@kept_out (others Es g) s3 p b x s3 W3 Kt Eo) as [-> _]. cbn [points]. exists p. split; auto.
  destruct Kt as [N0 Sf]. split; auto. eapply (safe_move (others Es g)); [apply (ext_refl none none s3 W3)| |exact Sf].
  intros q Hq. left. apply (others_ext Es (updn Es g (Es g)) g); auto. apply updn_same.
Qed.
(** A kept pointer passed on. *)
Lemma zgused g c h k j r view t c0 W Ks x Z' Es B nms Fs s fuel P T : zarg c = Some (h, k) -> nth_error T k = Some (Some (j, r)) -> rtext r = Some (view, t) ->
  Nat.eqb j g || negb (zstored c) = true -> zuse c view t = Some c0 -> zwstep jd (Do g c0) (W, Ks) = Some (x, Z') ->
  (zpasses c ((wr W g, []), []) <= fuel)%nat -> ztied (W, Ks) (Es, B) nms Fs s -> settled s -> aimed Es s P T ->
  wp (zgmstep fuel (ZIn g c) ((Es, B), P)) s (zggets x Z' T).
Proof.
  intros Ha Hk Hr Ok Hu St Hf ZT Se Am. pose proof (zt_tied _ _ _ _ _ ZT) as Td. cbn [fst snd] in Td. pose proof (t_sim _ _ _ _ _ Td g) as S. destruct Z' as [W' Ks'].
  destruct (zwstep_do _ _ _ _ _ _ _ St) as (R' & K' & E0 & HK).
  assert (Hv : exists v, nth_error (eh (Es g)) h = Some v).
  { assert (Ec : exists R2, zrstep jd c0 (wr W g) = Some (x, R2)).
    { destruct (brset jd c0 _ _ _ (wr W g) (Ks g) eq_refl E0) as (R2 & Sz & _); [|eauto].
      destruct c; cbn [zarg zuse] in *; try discriminate Ha; try (destruct view; try discriminate Hu); injection Hu as <-; try reflexivity. }
    destruct Ec as (R2 & Sz).
    destruct c as [c|g' h'|k'|num fast h' k'|fast h' k'|h' k'|h'|fast h' k'|h' k']; cbn [zarg zuse] in *; try discriminate Ha; injection Ha as -> ->.
    - injection Hu as <-. exact (@settext_value jd (others Es g) _ _ _ _ _ _ _ _ _ _ _ Sz S).
    - injection Hu as <-. exact (@setkey_value jd (others Es g) _ _ _ _ _ _ _ _ _ _ Sz S).
    - injection Hu as <-. cbn [zrstep] in Sz. destruct (look (wr W g) h) as [[w0 k0]|] eqn:L; [|discriminate]. exact (@look_value (others Es g) _ _ _ _ _ _ _ _ S L).
    - destruct view; [discriminate|]. injection Hu as <-. cbn [zrstep] in Sz. destruct (look (wr W g) h) as [[w0 k0]|] eqn:L; [|discriminate]. exact (@look_value (others Es g) _ _ _ _ _ _ _ _ S L).
    - destruct view; [discriminate|]. injection Hu as <-. cbn [zrstep] in Sz. destruct (look (wr W g) h) as [[w0 k0]|] eqn:L; [|discriminate]. exact (@look_value (others Es g) _ _ _ _ _ _ _ _ S L). }
  destruct Hv as (v & Hv). destruct (aimed_nth Es s P T k j r Am Hk) as (m & Hm & Pm).
  assert (W1 : forall p, @held (others Es j) true view s p t -> wp (zptake fuel c view (Es g) B v p (lenN t)) s (zdone x (W', Ks') Es g s)).
  { intros p Hp.
    assert (Hq : @held (others Es g) (zstored c) view s p t).
    { destruct (zstored c) eqn:Tf.
      - rewrite Bool.orb_false_r in Ok. apply Nat.eqb_eq in Ok. subst j. exact Hp.
      - exact (@held_safe (others Es j) false view s p t Hp). }
    apply (zdo_tied g c0 W Ks x R' K' (W', Ks') (zptake fuel c view (Es g) B v p (lenN t)) Es B nms Fs s E0 St ZT).
    - intro Cr. eapply (@zptake_wp (others Es g)); eauto. apply (zt_caches _ _ _ _ _ ZT g).
    - intro Z. eapply zptake_keeps; eauto.
    - intros Nz xe s' Ran. eapply zptake_env; eauto.
    - intro Z. eapply zptake_sets; eauto.
    - apply zptake_far. eapply nth_error_In; eauto. }
  assert (Go : exists w n p, m = (if view then MV w n else MC w) /\ w = At p /\ (view = true -> n = lenN t) /\ @held (others Es j) true view s p t).
  { destruct r as [|t'|t']; try discriminate Hr; injection Hr as <- <-; destruct m as [|w|w n]; try contradiction; cbn [points] in Pm.
    - destruct Pm as (p & -> & Kt). exists (At p), 0, p. split; [reflexivity|]. split; [reflexivity|]. split; [discriminate|exact Kt].
    - destruct Pm as (p & -> & -> & Sf). exists (At p), (lenN t'), p. split; [reflexivity|]. split; [reflexivity|]. split; [reflexivity|exact Sf]. }
  destruct Go as (w & n & p & Em & -> & Hn & Hp). destruct (W1 p Hp) as ([[y E'] B'] & s' & Er & Dn).
  exists (y, ((updn Es g E', B'), P)), s'. split; [|exact (zdone_gets _ _ _ _ _ _ _ _ _ P T Dn Se Am)].
  cbn [zgmstep]. unfold bind at 1. rewrite (zmstep_use fuel c (Es g) B P h k view t c0 Ha Hu s (y, ((E', B'), P)) s'); [reflexivity|].
  unfold bind at 1. unfold hof. rewrite Hv. unfold ret at 1. unfold bind at 1. unfold mtake. rewrite Hm. unfold ret at 1.
  subst m. destruct view; cbn [zpoint]; unfold bind at 1, deref, ret at 1; unfold mcall, bind at 1.
  - rewrite (Hn eq_refl), Er. reflexivity.
  - rewrite <- (zptake_len c fuel (Es g) B v p (lenN t)), Er. reflexivity.
Qed.
Lemma zgstmt_wp c W Ks T x Z' T' : zgsstep jd c ((W, Ks), T) = Some (x, (Z', T')) ->
  forall Es B nms Fs s fuel P, (zgpasses c ((W, Ks), T) <= fuel)%nat -> ztied (W, Ks) (Es, B) nms Fs s -> settled s -> aimed Es s P T ->
    wp (zgmstep fuel c ((Es, B), P)) s (zggets x Z' T').
Proof.
  intros St Es B nms Fs s fuel P Hf ZT Se Am.
  assert (Use : forall g c, c = c -> (match zarg c with
      | Some (_, k) => match nth_error T k with
          | Some (Some (j, r)) => match rtext r with
              | Some (view, t) => if Nat.eqb j g || negb (zstored c) then match zuse c view t with Some c => zgcall jd (Do g c) ((W, Ks), T) | None => None end else None
              | None => None end
          | _ => None end
      | None => None end = Some (x, (Z', T'))) -> (zpasses c ((wr W g, []), []) <= fuel)%nat -> wp (zgmstep fuel (ZIn g c) ((Es, B), P)) s (zggets x Z' T')).
  { clear c St Hf. intros g c _ St Hf. destruct (zarg c) as [[h k]|] eqn:Ha; [|discriminate]. destruct (nth_error T k) as [[[j r]|]|] eqn:Hk; try discriminate.
    destruct (rtext r) as [[view t]|] eqn:Hr; [|discriminate]. destruct (Nat.eqb j g || negb (zstored c)) eqn:Ok; [|discriminate].
    destruct (zuse c view t) as [c0|] eqn:Hu; [|discriminate]. unfold zgcall in St. cbn [fst snd] in St.
    destruct (zwstep jd (Do g c0) (W, Ks)) as [[x0 Z0]|] eqn:Ew; [|discriminate]. injection St as <- <- <-. eapply zgused; eauto. }
  destruct c as [g c|g]; [destruct c as [c|v h|k|num fast h k|fast h k|h k|h|fast h k|h k]|]; cbn [zgsstep fst snd] in St; try (apply Use; auto; fail); clear Use.
  - unfold zgcall in St. cbn [fst snd] in St. destruct (zwstep jd (Do g c) (W, Ks)) as [[x0 Z0]|] eqn:Ew; [|discriminate]. injection St as <- <- <-.
    cbn [zgmstep zmstep]. unfold mcall. apply wp_bind, wp_bind. eapply wp_mono; [exact (bstep_tied g c W Ks x0 Z0 Es B nms Fs s fuel Ew Hf ZT)|].
    intros [[y E'] B'] s' Dn. apply wp_ret, wp_ret. exact (zdone_gets _ _ _ _ _ _ _ _ _ P T Dn Se Am).
  - unfold zgtake in St. cbn [fst snd] in St. destruct (zwstep jd (Do g _) (W, Ks)) as [[x0 Z0]|] eqn:Ew; [|discriminate]. injection St as <- <- <-. eapply zgtaken; eauto.
  - destruct (nth_error T k) as [[[j r]|]|] eqn:Hk; try discriminate. injection St as <- <- <-. cbn [zgmstep zmstep].
    assert (Wf : wfst s) by (eapply t_wf; exact (zt_tied _ _ _ _ _ ZT)).
    apply wp_bind. apply (gmtake Es s P T k j r); auto. intros m Pm.
    assert (Fin : zggets (Text (option_map snd (rtext r))) (W, Ks) T (Text (option_map snd (rtext r)), ((updn Es g (Es g), B), P)) s) by (eapply zgstay; eauto).
    destruct r as [|t|t]; destruct m as [|w|w n]; try contradiction; cbn [points rtext option_map snd] in *.
    + apply wp_bind, wp_ret, wp_ret, wp_ret. exact Fin.
    + destruct Pm as (p & -> & Kt). cbn [out_text]. apply wp_bind, wp_bind, (@kept_read (others Es j) s p t); [exact Wf|exact Kt|]. apply wp_ret, wp_ret, wp_ret. exact Fin.
    + destruct Pm as (p & -> & -> & Sf). cbn [out_view]. unfold load_w. apply wp_bind, wp_bind, wp_bind, wp_deref, (wp_load p _ t); [apply Sf|reflexivity|].
      apply wp_ret, wp_ret, wp_ret. exact Fin.
  - unfold zgtake in St. cbn [fst snd] in St. destruct (zwstep jd (Do g _) (W, Ks)) as [[x0 Z0]|] eqn:Ew; [|discriminate]. injection St as <- <- <-. eapply zgprinted; eauto.
  - unfold zgcall in St. cbn [fst snd] in St. destruct (zwstep jd (Release g) (W, Ks)) as [[x0 Z0]|] eqn:Ew; [|discriminate]. injection St as <- <- <-.
    cbn [zgmstep]. eapply zgrelease; eauto.
Qed.
Theorem zgplay_most X (p : zgprog X) : forall Z T x Z' T', zgrplay jd p (Z, T) = Some (x, (Z', T')) ->
  forall Es B nms Fs s fuel P, (zgpmost jd p (Z, T) <= fuel)%nat -> ztied Z (Es, B) nms Fs s -> settled s -> aimed Es s P T ->
    wp (zgmplay fuel p ((Es, B), P)) s (fun xz s' => fst xz = x /\ let '((Es', B'), P') := snd xz in
      settled s' /\ aimed Es' s' P' T' /\ exists nms' Fs', ztied Z' (Es', B') nms' Fs' s').
Proof.
  induction p as [x0| |c k IH]; intros Z T x Z' T' H Es B nms Fs s fuel P Hf Td Se Am; cbn [zgrplay zgmplay zgpmost] in *.
  - injection H as <- <- <-. apply wp_ret. cbn [fst snd]. eauto 8.
  - discriminate.
  - destruct (zgsstep jd c (Z, T)) as [[a [Z1 T1]]|] eqn:E1; [|discriminate]. destruct Z as [W Ks].
    apply wp_bind. eapply wp_mono; [apply (zgstmt_wp c W Ks T a Z1 T1 E1 Es B nms Fs s fuel P); [exact (Nat.max_lub_l _ _ _ Hf)|auto..]|].
    intros [a' [[E2 B2] P2]] s1 (Ha & Se1 & Am1 & nm1 & F1 & Td1). cbn [fst snd] in *. subst a'. eapply (IH a Z1 T1 x Z' T' H); eauto. exact (Nat.max_lub_r _ _ _ Hf).
Qed.
(** Every program, from nothing. *)
Theorem zgclient X (p : zgprog X) x W Ks T : zgrplay jd p (zrstart, []) = Some (x, ((W, Ks), T)) ->
  forall fuel, (zgpmost jd p (zrstart, []) <= fuel)%nat ->
  exists Es B P s, zgmplay fuel p (zworld0, []) init = Ok ((x, ((Es, B), P)), s) /\ forall g, represents (wr W g) (Es g) s.
Proof.
  intros H fuel Hf.
  assert (T0 : ztied zrstart zworld0 (fun _ _ => (0, 0)) (fun _ => nodocs) init).
  { split; [exact start_tied|]. intro g. split; auto. intros h v k Hh. destruct h; discriminate. }
  destruct (zgplay_most X p zrstart [] x (W, Ks) T H (fst zworld0) (snd zworld0) _ _ init fuel [] Hf T0 ltac:(discriminate) ltac:(constructor))
    as ([x' [[Es B] P]] & s & Er & Hr & _ & _ & nms & Fs & [Td _]).
  cbn [fst snd] in *. subst x'. exists Es, B, P, s. split; auto. intro g. exists (nms g), (Fs g). rewrite <- (wr_eta (wr W g)).
  apply (sim_move (others Es g) novols _ _ _ _ none none zeroc s s); [apply Td|apply ext_refl; eapply t_wf; eauto|intros y _ []|intros y _ []|apply pays_zero|intros b []|intros b []].
Qed.
End Agree.
