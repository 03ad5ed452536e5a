(** Clients of the beta header that keep the pointers it gives them.

    The getters of beta/zzzjson_beta.h give a pointer: into memory of the allocator where they
    put a copy (z_ValueGetString 1560-1572, z_ValueGetNumStr 1602-1614,
    z_ValueGetUnEscapeString 1575-1588, z_ValueGetKey 1651-1665, z_ValueGetUnEscapeKey
    1667-1679, which also remember it; z_ValueStringify 1463-1546 for the text it prints), or
    with a length into the document itself
    (z_ValueGetStringFast 1549-1557, z_ValueGetNumFast 1591-1599, z_ValueGetKeyFast 1682-1690).
    Here a program keeps all the pointers it got.  At any later time, whatever was called in
    between, it may read the text there, or hand the pointer to another call: as the text of a
    string or number or as a key (the setters 1939-2016, 2027-2180, with and without
    a length, copying or not), as the key to look for (z_ValueObjGet 1693-1708,
    z_ValueObjGetLen 1711-1727) or to delete (z_ValueObjDel 2414-2420), or as the text to
    parse (z_ValueParse 1457-1460, z_ValueParseFast 1136-1446).  Each step may depend on the answers so far.

    Not here: z_ValueParseLen on a pointer with a length, which reads on behind that length
    (C55), and releasing. *)
From Verif Require Import Base Spec Lex LexProofs Alloc AllocProofs Mem MemProofs Api PureParse Dom Effect Steps StringifyProofs
  ParseProofs ParseTop CacheProofs SetProofs Update KeyProofs GetProofs CopyProofs LinkProofs MoveProofs IntProofs EscProofs Start Vocab
  ParseFacts PrintFacts Scene ReadFacts SetFacts Double DoubleProofs DoubleFacts ParseEnds Hist HistRun HistForest HistSim HistStep HistAll HistCache Client
  Beta BetaProofs BetaCalls BetaHist BetaStep BetaSim.

(** The getters of texts; [GView]: without a copy, with the length. *)
Inductive getter := GStr | GNum | GUnStr | GKey | GUnKey | GViewStr | GViewNum | GViewKey.
Definition gcall (g : getter) (h : nat) : call :=
  match g with
  | GStr => CGetText false false h
  | GNum => CGetText true false h
  | GUnStr => CGetUnEscape h
  | GKey => CGetKey false h
  | GUnKey => CGetUnEscapeKey h
  | GViewStr => CGetText false true h
  | GViewNum => CGetText true true h
  | GViewKey => CGetKey true h
  end.
Definition is_view (g : getter) : bool := match g with GViewStr | GViewNum | GViewKey => true | _ => false end.

Inductive zstmt :=
| ZApi (c : call)
| ZTake (g : getter) (h : nat)                 (* p_n = getter(h), for the next n *)
| ZLook (k : nat)                              (* the text at p_k is read *)
| ZSetText (num fast : bool) (h k : nat)       (* z_ValueSetStr...(h, p_k), z_ValueSetNumStr...(h, p_k) *)
| ZSetKey (fast : bool) (h k : nat)            (* z_ValueSetKey...(h, p_k) *)
| ZObjGet (h k : nat)                          (* z_ValueObjGet(h, p_k), z_ValueObjGetLen(h, p_k, n_k) *)
| ZPrint (h : nat)                             (* p_n = z_ValueStringify(h) *)
| ZParse (fast : bool) (h k : nat)             (* z_ValueParse(h, p_k), z_ValueParseFast(h, p_k) *)
| ZObjDel (h k : nat).                         (* z_ValueObjDel(h, p_k) *)

(** ** On the reference: a pointer is the text it was got for, for good *)
Inductive rptr := RNull | RC (t : bytes) | RV (t : bytes).
Definition kind_of (view fast : bool) : text_kind :=
  match view, fast with false, false => KCopy | false, true => KFast | true, false => KLen | true, true => KLenFast end.
Definition zst := ((rst * list kache) * list rptr)%type.
Section Ref.
Variable jd : judge.
Definition zcall (c : call) (Z : zst) : option (answer * zst) :=
  match brstep jd c (fst Z) with Some (x, RK) => Some (x, (RK, snd Z)) | None => None end.
Definition zsstep (c : zstmt) (Z : zst) : option (answer * zst) :=
  match c with
  | ZApi c => zcall c Z
  | ZTake g h =>
      match brstep jd (gcall g h) (fst Z) with
      | Some (x, RK) =>
          Some (x, (RK, snd Z ++ [match x with Text (Some t) => if is_view g then RV t else RC t | _ => RNull end]))
      | None => None
      end
  | ZLook k =>
      match nth_error (snd Z) k with
      | Some (RC t) | Some (RV t) => Some (Text (Some t), Z)
      | Some RNull => Some (Text None, Z)
      | None => None
      end
  | ZSetText num fast h k =>
      match nth_error (snd Z) k with
      | Some (RC t) => zcall (CSetText num (kind_of false fast) h t) Z
      | Some (RV t) => zcall (CSetText num (kind_of true fast) h t) Z
      | _ => None
      end
  | ZSetKey fast h k =>
      match nth_error (snd Z) k with
      | Some (RC t) => zcall (CSetKey (kind_of false fast) h t) Z
      | Some (RV t) => zcall (CSetKey (kind_of true fast) h t) Z
      | _ => None
      end
  | ZObjGet h k =>
      match nth_error (snd Z) k with
      | Some (RC t) => zcall (CObjGet false h t) Z
      | Some (RV t) => zcall (CObjGet true h t) Z
      | _ => None
      end
  | ZPrint h =>
      match brstep jd (CStringify h) (fst Z) with
      | Some (x, RK) => Some (x, (RK, snd Z ++ [match x with Text (Some t) => RC t | _ => RNull end]))
      | None => None
      end
  | ZParse fast h k =>
      match nth_error (snd Z) k with
      | Some (RC t) => zcall (CParse (if fast then PFast else PCopy) h t []) Z
      | _ => None
      end
  | ZObjDel h k =>
      match nth_error (snd Z) k with
      | Some (RC t) => zcall (CObjDel h t) Z
      | _ => None
      end
  end.
End Ref.

(** ** On the model *)
Inductive mptr := MNull | MC (w : word) | MV (w : word) (n : N).
Definition zget (g : getter) (B : bmem) (v : addr) : M (option word * bmem) :=
  match g with
  | GNum => z_ValueGetNumStr B v
  | GUnStr => z_ValueGetUnEscapeString B v
  | GKey => z_ValueGetKey B v
  | GUnKey => z_ValueGetUnEscapeKey B v
  | _ => z_ValueGetString B v
  end.
Definition zview (g : getter) (v : addr) : M (option (word * N)) :=
  match g with GViewNum => zj_GetNumFast v | GViewKey => zj_GetKeyFast v | _ => zj_GetStrFast v end.
Definition mst := ((env * bmem) * list mptr)%type.
Definition mcall (m : M ((answer * env) * bmem)) (P : list mptr) : M (answer * mst) :=
  xb <- m ;; ret (fst (fst xb), ((snd (fst xb), snd xb), P)).
Definition mtake (P : list mptr) (k : nat) : M mptr := match nth_error P k with Some p => ret p | None => fail EDeref end.
Definition zmstep (fuel : nat) (c : zstmt) (Z : mst) : M (answer * mst) :=
  let '((E, B), P) := Z in
  match c with
  | ZApi c => mcall (bstep fuel c E B) P
  | ZTake g h =>
      v <- hof E h ;;
      if is_view g then
        r <- zview g v ;; x <- out_view r ;; ret (x, ((E, B), P ++ [match r with Some (w, n) => MV w n | None => MNull end]))
      else
        rb <- zget g B v ;; x <- out_text (fst rb) ;;
        ret (x, ((E, snd rb), P ++ [match fst rb with Some w => MC w | None => MNull end]))
  | ZLook k =>
      p <- mtake P k ;;
      x <- (match p with MNull => ret (Text None) | MC w => out_text (Some w) | MV w n => out_view (Some (w, n)) end) ;;
      ret (x, Z)
  | ZSetText num fast h k =>
      v <- hof E h ;; p <- mtake P k ;;
      match p with
      | MNull => fail EDeref
      | MC w => a <- deref w ;; mcall (with_envB E Bool (zset_text_call B num (kind_of false fast) v a 0)) P
      | MV w n => a <- deref w ;; mcall (with_envB E Bool (zset_text_call B num (kind_of true fast) v a n)) P
      end
  | ZSetKey fast h k =>
      v <- hof E h ;; p <- mtake P k ;;
      match p with
      | MNull => fail EDeref
      | MC w => a <- deref w ;; mcall (with_envB E Bool (zset_key_call B (kind_of false fast) v a 0)) P
      | MV w n => a <- deref w ;; mcall (with_envB E Bool (zset_key_call B (kind_of true fast) v a n)) P
      end
  | ZObjGet h k =>
      v <- hof E h ;; p <- mtake P k ;;
      match p with
      | MNull => fail EDeref
      | MC w => a <- deref w ;; mcall (out_valueB E (z_ValueObjGet fuel B v a)) P
      | MV w n => a <- deref w ;; mcall (out_valueB E (z_ValueObjGetLen fuel B v a n)) P
      end
  | ZPrint h =>
      v <- hof E h ;; w <- zj_Stringify fuel v ;; x <- out_text (Some w) ;; ret (x, ((E, B), P ++ [MC w]))
  | ZParse fast h k =>
      v <- hof E h ;; p <- mtake P k ;;
      match p with
      | MC w => a <- deref w ;; mcall (with_envB E Bool (if fast then z_ValueParseFast B v a else z_ValueParse B v a)) P
      | _ => fail EDeref
      end
  | ZObjDel h k =>
      v <- hof E h ;; p <- mtake P k ;;
      match p with
      | MC w => a <- deref w ;; mcall (with_envB E Bool (same B (z_obj_del fuel v a))) P
      | _ => fail EDeref
      end
  end.

(** ** Programs *)
Inductive zprog (X : Type) :=
| ZRet (x : X)
| ZStuck
| ZAct (c : zstmt) (k : answer -> zprog X).
Arguments ZRet {X} x.
Arguments ZStuck {X}.
Arguments ZAct {X} c k.
Fixpoint zrplay {X} (jd : judge) (p : zprog X) (Z : zst) : option (X * zst) :=
  match p with
  | ZRet x => Some (x, Z)
  | ZStuck => None
  | ZAct c k => match zsstep jd c Z with Some (a, Z1) => zrplay jd (k a) Z1 | None => None end
  end.
Fixpoint zmplay {X} (fuel : nat) (p : zprog X) (Z : mst) : M (X * mst) :=
  match p with
  | ZRet x => ret (x, Z)
  | ZStuck => fail EFuel
  | ZAct c k => az <- zmstep fuel c Z ;; zmplay fuel (k (fst az)) (snd az)
  end.
Definition zpasses (c : zstmt) (Z : zst) : nat :=
  match c with
  | ZApi c => passes c (fst (fst Z))
  | ZObjGet h _ | ZObjDel h _ => passes (CObjGet true h []) (fst (fst Z))
  | ZPrint h => passes (CStringify h) (fst (fst Z))
  | _ => 0%nat
  end.
Fixpoint zpmost {X} (jd : judge) (p : zprog X) (Z : zst) : nat :=
  match p with
  | ZAct c k => match zsstep jd c Z with Some (a, Z1) => Nat.max (zpasses c Z) (zpmost jd (k a) Z1) | None => 0%nat end
  | _ => 0%nat
  end.

(** ** Pointers *)
Section Pointers.
Context {VV : vols}.
Definition points (s : st) (m : mptr) (r : rptr) : Prop :=
  match m, r with
  | MNull, RNull => True
  | MC w, RC t => exists p, w = At p /\ kept_text s p t
  | MV w n, RV t => exists p, w = At p /\ n = lenN t /\ safetext s p t
  | _, _ => False
  end.
Definition pointing (s : st) (P : list mptr) (T : list rptr) : Prop := Forall2 (points s) P T.
Lemma points_ext Dn Dv c s s' m r : ext Dn Dv c s s' -> points s m r -> points s' m r.
Proof.
  intros X H. destruct m as [|w|w n], r as [|t|t]; cbn in *; auto.
  - destruct H as (p & -> & N0 & Sf). exists p. split; auto. split; auto. eapply safetext_ext; eauto.
  - destruct H as (p & -> & -> & Sf). exists p. repeat split; auto; eapply safetext_ext; eauto.
Qed.
Lemma pointing_ext Dn Dv c s s' P T : ext Dn Dv c s s' -> pointing s P T -> pointing s' P T.
Proof. intros X H. induction H; constructor; eauto using points_ext. Qed.
Lemma pointing_nth s P T k r : pointing s P T -> nth_error T k = Some r -> exists m, nth_error P k = Some m /\ points s m r.
Proof.
  intro H. revert k. induction H as [|m r' P T Hm _ IH]; intros [|k] E; try discriminate; [|now apply IH].
  injection E as <-. exists m. auto.
Qed.
Lemma pointing_snoc s P T m r : pointing s P T -> points s m r -> pointing s (P ++ [m]) (T ++ [r]).
Proof. intros H Hm. apply Forall2_app; auto. Qed.
End Pointers.

(** ** The two agree *)
(** [kd] takes a C string, or a text of the given length. *)
Definition with_len (kd : text_kind) : bool := match kd with KLen | KLenFast => true | _ => false end.
(** A C string that is only read from, wherever it is. *)
Definition src_text (s : st) (p : addr) (t : bytes) : Prop := ~ In 0 t /\ srctext s p (t ++ [0]).
Definition holder {VV : vols} (kd : text_kind) (s : st) (p : addr) (t : bytes) : Prop :=
  match kd with KCopy => src_text s p t | KFast => kept_text s p t | KLen => srctext s p t | KLenFast => safetext s p t end.
Lemma src_at s p t : wfst s -> src_text s p t -> exists r, text_at s p = t ++ 0 :: r.
Proof. intros W [_ [H _]]. destruct (holds_text s p _ W H) as (r & Et). exists r. now rewrite <- app_assoc in Et. Qed.
Lemma kept_src {VV : vols} s p t : kept_text s p t -> src_text s p t.
Proof. intros [N0 H]. split; auto. now apply safetext_src. Qed.
Lemma kept_at {VV : vols} s p t : wfst s -> kept_text s p t -> exists r, text_at s p = t ++ 0 :: r.
Proof. intros W H. apply src_at, kept_src; auto. Qed.
Lemma src_body s p t : src_text s p t -> srctext s p t.
Proof.
  intros [_ [H K]]. apply holds_app in H as [H _]. split; auto. intros i Hi. apply K. rewrite app_length. lia.
Qed.
Lemma holder_of {VV : vols} kd s p t : (if with_len kd then safetext s p t else kept_text s p t) -> holder kd s p t.
Proof. destruct kd; cbn; auto using kept_src, safetext_src. Qed.
Lemma kept_body {VV : vols} s p t : kept_text s p t -> safetext s p t.
Proof. intros [_ H]. now apply safetext_app in H as [H _]. Qed.

(** The text zj_Stringify gives lies apart from the scratch string. *)
Lemma print_keeps {VV : vols} fuel v s d t s' : zj_Stringify fuel v s = Ok (At d, s') -> wfst s' -> holds s' d (t ++ [0]) -> scache s' = scache s.
Proof.
  intros H W Hd. destruct (holds_text s' d _ W Hd) as (r & Et). rewrite <- app_assoc in Et. cbn [app] in Et.
  destruct (cstr_wp s' d t r (fun b s2 => b = before0 t /\ s2 = s') Et (conj eq_refl eq_refl)) as (b & s2 & Ec & -> & ->).
  refine (cstep_keeps fuel (CStringify 0) (mkE [v] []) eq_refl s (Text (Some (before0 t)), mkE [v] []) s' _).
  cbn [cstep]. unfold with_env. cbn [hof eh nth_error]. unfold bind at 1, ret at 1. unfold bind at 1. unfold bind at 1. rewrite H. cbn [out_text].
  unfold bind at 1. rewrite Ec. reflexivity.
Qed.
(** The scratch string, if there is or was one, has had its memory. *)
Definition settled (s : st) : Prop := forall q, scache s = At q -> ~ beyond s q.
Lemma live_settled s : wfst s -> cache_live s -> settled s.
Proof. intros W L q Hq B. unfold cache_live in L. rewrite Hq in L. apply L. apply (beyond_nothing s q W B). Qed.
Lemma print_kept {VV : vols} jd h R x R' E nm F s fuel v : rstep jd (CStringify h) R = Some (x, R') ->
  (passes (CStringify h) R <= fuel)%nat -> sim R E nm F s -> settled s -> nth_error (eh E) h = Some v ->
  wp (zj_Stringify fuel v) s (fun w s' => exists p b, w = At p /\ kept_text s' p b).
Proof.
  intros St Hf S Cl Hv0. cbn [rstep] in St. destruct (look R h) as [[w k]|] eqn:L; [|discriminate].
  destruct (look_handle _ _ _ _ _ _ _ _ S L) as (v' & A & Hv & HA & HiA & Hrh & Hh & Himg). replace v' with v in * by congruence. clear Hv0.
  destruct w as [[i t]|]; cbn [option_map fst snd wopt] in *.
  - destruct (reads_as R i) as [j|] eqn:Er; [|discriminate]. unfold copy_text in St. destruct (spend R k _) as [R1|] eqn:Sp; [|discriminate]. spent S HA Sp ru' Py Le.
    assert (Hj : (jsteps j <= fuel)%nat) by (cbn [passes] in Hf; unfold inside_of in Hf; rewrite L, Er in Hf; pose proof (jsteps_values j); lia).
    destruct (stringify_apart F s v (nm i) A j fuel) as (w & s' & Es & d & -> & Hd & Hi & _ & X & Cc).
    { apply S. } { apply Hh. } { apply Hh. } { eapply read_reads; [apply S|exact Er]. } { exact Hj. } { unfold print_cost in Le. lia. }
    eapply ok_wp; [exact Es|]. exists d, (before0 (print j)). split; auto. apply kept_copy.
    split; auto. intros q Hq. rewrite app_length in Hq. cbn [length] in Hq. split.
    + apply Cc; [exact Cl|exact (print_keeps _ _ _ _ _ _ Es (x_wf _ _ _ _ _ X) Hd)|unfold lenN; lia].
    + eapply inrA_vol; [apply X|eapply wfvol_ext; [exact X|apply S]|exact Hi|apply Hh].
  - unfold zj_Stringify. apply wp_bind, (wp_getVal _ _ _ _ (proj1 Hh)). cbn [vN].
    apply wp_bind, wp_is_null with (b := true); auto. apply wp_ret. exists empty_literal, []. split; auto. split; [intros []|].
    exact (static_safe s 16 1 ltac:(apply S)).
Qed.
Lemma kept_out {VV : vols} s p b x s' : wfst s -> kept_text s p b -> out_text (Some (At p)) s = Ok (x, s') -> x = Text (Some b) /\ s' = s.
Proof.
  intros W Kt Eo. assert (Q : wp (out_text (Some (At p))) s (fun y s' => y = Text (Some b) /\ s' = s)).
  { cbn [out_text]. apply wp_bind, (kept_read s p b); [exact W|exact Kt|]. now apply wp_ret. }
  exact (wp_run _ _ _ _ _ Q Eo).
Qed.
Lemma cut_more t k k' : (k <= k')%nat -> cut_literal t k' -> cut_literal t k.
Proof. intros L (a & c & b & E & V & H). exists a, c, b. split; auto. split; auto. lia. Qed.
(** z_ValueParse on a text in memory: where it ends in memory may be changed by the copy. *)
Lemma zparse_kept {VV : vols} s F v w A src t : inv s F -> handle s F v w A -> kept_text s src t ->
  usedA s A + (lenN t + 1 + 72 * (lenN t + 2)) <= two30 ->
  exists slack, agree (z_parse v src) s (ptop (t ++ 0 :: slack)) (pf_more (finished F) s F v w A (lenN t + 1 + 72 * (lenN t + 2))).
Proof.
  intros I H Kt Hu. pose proof (i_wf _ _ I) as W. pose proof H as (Hv & [Al NA] & Hw). pose proof (kept_body s src t Kt) as Sb. destruct (kept_at s src t W Kt) as (r0 & Et).
  assert (E32 : u32 (lenN t + 1) = lenN t + 1) by (apply u32_small; unfold two30, two32 in *; lia).
  destruct (alloc_step none none A 0 (lenN t + 1) s s) as (p & s1 & E1 & X1 & P); auto; [now apply ext_start|lia|].
  assert (T1 : holds s1 src t).
  { intros i x E. rewrite (ap_bytes _ _ _ _ _ P). now apply Sb. }
  destruct (fill_step none none (at_ A (0 + (lenN t + 1))) A (lenN t + 1) s s s1 p (t ++ [0])) as ([] & s2 & E2 & X2 & Fl); eauto.
  { apply I. }
  { eapply ext_more; [now apply ext_start|]. lia. }
  { rewrite lenN_app1. lia. }
  cbn [N.add] in X2. assert (K2 : kept_text s2 src t) by (destruct Kt; split; auto; eapply safetext_ext; eauto).
  destruct (kept_at s2 src t (x_wf _ _ _ _ _ X2) K2) as (slack & Et2). exists slack.
  assert (I2 : inv s2 F) by (eapply ext_inv; eauto).
  pose proof (x_used _ _ _ _ _ X2 A) as Us. rewrite at_eq in Us.
  unfold z_parse, zj_strLen. apply bind_assoc_agree'.
  eapply agree_pre; [apply wp_readable; auto|]. rewrite Et.
  apply bind_assoc_agree'. eapply agree_pre; [apply (wp_lift _ t); [apply cstr_of_app, Kt|auto]|].
  replace (u32 (N.of_nat (length t))) with (lenN t) by (symmetry; apply u32_small; unfold lenN, two30, two32 in *; lia).
  eapply agree_pre; [apply wp_ret; auto|]. unfold z_parse_len.
  eapply agree_pre; [eapply wp_getVal; [exact Hv|]; auto|]. cbn [vA]. rewrite E32.
  eapply (agree_wp _ _ _ _ (fun a s' => a = p /\ s' = s1)); [exists p, s1; auto|]. intros ? ? [-> ->].
  eapply agree_pre; [eapply (wp_load src _ t); auto|].
  eapply (agree_wp _ _ _ _ (fun a s' => s' = s2)); [exists tt, s2; auto|]. intros ? ? ->.
  eapply agree_mono; [apply (parse_fast_finished true s2 F v w A src t slack); auto|].
  - eapply handle_ext; [exact X2|auto|auto].
  - apply K2.
  - lia.
  - intros [j|] b s3 _; cbn [pf_more].
    + intros (-> & F' & ax & Pd & Fi). split; auto. exists F', ax. split; [|exact Fi].
      eapply parsed_more; [exact (parsed_before s s2 F v w A _ _ j s3 F' ax X2 (fl_vals _ _ _ _ Fl) Pd)|].
      intro x. apply at_add.
    + intros (-> & X3). split; auto. eapply ext_more; [eapply ext_then; eauto|]. lia.
Qed.

Section Agree.
Variable jd : judge.
Hypothesis J : correct jd.

Lemma text_ptr_wp {VV : vols} num kd h t R x R' E nm F s v p : rstep jd (CSetText num kd h t) R = Some (x, R') ->
  sim R E nm F s -> (cneed (CSetText num kd h t) <> 0 -> cache_ready E s (cneed (CSetText num kd h t))) -> nth_error (eh E) h = Some v -> holder kd s p t ->
  wp (with_env E Bool (set_text_call num kd v p (lenN t))) s (@goes VV (cneed (CSetText num kd h t)) E F s x R').
Proof.
  intros St S Cr Hv Hp. cbn [rstep] in St. apply env_wp.
  destruct (look R h) as [[w k]|] eqn:L; [|discriminate].
  destruct (look_handle _ _ _ _ _ _ _ _ S L) as (v' & A & Hv' & HA & HiA & Hrh & Hh & Himg). replace v' with v in * by congruence. clear Hv'.
  set (ok := if num then o_num jd t else o_str jd t) in *. set (j := if num then JNum t else JStr t) in *.
  set (check := if num then zj_checkNum else zj_checkStr). set (ty := if num then TNumber else TString).
  set (mk := if num then VNum else VStr). set (good := if num then number else strbody_set).
  assert (Hk : check = zj_checkNum /\ ty = TNumber /\ mk = VNum /\ good = number \/
               check = zj_checkStr /\ ty = TString /\ mk = VStr /\ good = strbody_set) by (destruct num; auto).
  assert (Hg : ok = true <-> good t) by (destruct num; [apply (jd_num jd J)|apply (jd_str jd J)]).
  assert (Ej : jval (mk t) = j) by (destruct num; auto). rewrite <- Ej in St.
  unfold holder in Hp. destruct kd.
  - destruct (_ && _) eqn:C; [|discriminate]. apply andb_prop in C as [N0 Fi]. apply ok_c_no0 in N0. apply fits_len in Fi.
    destruct (spend R k _) as [R1|] eqn:Sp; [|discriminate]. spent S HA Sp ru' Py Le.
    destruct (src_at s p t ltac:(apply S) Hp) as (r & Et).
    eapply (set_if_ends E F R nm s h w k v A S L Hv HA); eauto; [eapply mine_at; eauto|].
    replace (set_text_call num KCopy v p (lenN t)) with (set_text check ty v p) by (destruct num; reflexivity).
    eapply set_text_wp; eauto; [apply S|now apply src_body].
  - destruct (_ && _) eqn:C; [|discriminate]. apply andb_prop in C as [N0 Fi]. apply ok_c_no0 in N0. apply fits_len in Fi.
    destruct (spend R k _) as [R1|] eqn:Sp; [|discriminate]. spent S HA Sp ru' Py Le.
    destruct (kept_at s p t ltac:(apply S) Hp) as (r & Et).
    replace (set_text_call num KFast v p (lenN t)) with (set_text_fast check ty v p) by (destruct num; reflexivity).
    eapply (seal_if_ends E F R nm s h w k v A S L Hv HA); eauto; [eapply mine_at; eauto| |].
    + eapply set_text_fast_wp; eauto; [apply S|now apply kept_body].
    + intros s' F' a Em Pa. eapply leaf_ended; eauto.
      * intros b Eb. assert (b = t) as -> by (rewrite Ej in Eb; subst j; destruct num; congruence).
        unfold set_text_fast in Em. apply bind_inv in Em as (tx & s2 & E1 & Em). injection E1 as _ <-.
        apply bind_inv in Em as (o & s2 & E1 & Em). unfold lift in E1. destruct (check tx) as [o'|]; [|discriminate]. injection E1 as <- <-.
        destruct o' as [l|]; [|discriminate].
        destruct (scalar_points _ _ _ _ _ _ _ Em) as (a' & A' & n & V' & N' & Ep). rewrite (pd_val _ _ _ _ _ _ _ _ _ _ Pa) in V'. injection V' as <- _.
        exists n, p. split; auto. split; auto. eapply safetext_ext; [apply (pd_ext _ _ _ _ _ _ _ _ _ _ Pa)|apply Hp].
      * intro l. rewrite Ej. subst j. destruct num; discriminate.
      * intro l. rewrite Ej. subst j. destruct num; discriminate.
  - destruct (fits t) eqn:Fi; [|discriminate]. apply fits_len in Fi. destruct (scratch R _) as [R1|] eqn:Sp; [|discriminate].
    cbn [cneed] in *. specialize (Cr ltac:(lia)).
    destruct (scratch_pays R E nm F s _ R1 (len_set_cost s A (lenN t)) S Sp) as (ru' & -> & Py & Le).
    { intro A'. unfold len_set_cost, addc. pose proof (at_le (cache_home s A) (check_cost (lenN t)) A'). pose proof (at_le A (lenN t + 72) A'). lia. }
    destruct (home_room E s A _ HiA Le Cr) as [L1 L2].
    eapply (set_if_ends E F R nm s h w k v A S L Hv HA); eauto; [apply home_mine; [auto|apply Cr|unfold needN; lia]|].
    replace (set_text_call num KLen v p (lenN t)) with (set_text_len check ty v p (lenN t)) by (destruct num; reflexivity).
    eapply set_text_len_wp; eauto; [apply S|apply Cr|lia|lia].
  - destruct (fits t) eqn:Fi; [|discriminate]. apply fits_len in Fi. destruct (scratch R _) as [R1|] eqn:Sp; [|discriminate].
    cbn [cneed] in *. specialize (Cr ltac:(lia)).
    destruct (scratch_pays R E nm F s _ R1 (len_set_cost s A (lenN t)) S Sp) as (ru' & -> & Py & Le).
    { intro A'. unfold len_set_cost, addc. pose proof (at_le (cache_home s A) (check_cost (lenN t)) A'). pose proof (at_le A (lenN t + 72) A'). lia. }
    destruct (home_room E s A _ HiA Le Cr) as [L1 L2].
    eapply (set_if_ends E F R nm s h w k v A S L Hv HA); eauto; [apply home_mine; [auto|apply Cr|unfold needN; lia]|].
    replace (set_text_call num KLenFast v p (lenN t)) with (set_text_len_fast check ty v p (lenN t)) by (destruct num; reflexivity).
    eapply set_text_len_fast_wp; eauto; [apply S|now apply safetext_src|apply Cr|lia|lia].
Qed.
Lemma key_ptr_wp {VV : vols} kd h t R x R' E nm F s v p : rstep jd (CSetKey kd h t) R = Some (x, R') ->
  sim R E nm F s -> (cneed (CSetKey kd h t) <> 0 -> cache_ready E s (cneed (CSetKey kd h t))) -> nth_error (eh E) h = Some v -> holder kd s p t ->
  wp (with_env E Bool (set_key_call kd v p (lenN t))) s (@goes VV (cneed (CSetKey kd h t)) E F s x R').
Proof.
  intros St S Cr Hv Hp. cbn [rstep] in St. apply env_wp.
  destruct (look R h) as [[w k]|] eqn:L; [|discriminate].
  destruct (look_handle _ _ _ _ _ _ _ _ S L) as (v' & A & Hv' & HA & HiA & Hrh & Hh & Himg). replace v' with v in * by congruence. clear Hv'.
  pose proof (jd_str jd J t) as Hg. unfold holder in Hp. destruct kd; cbn [set_key_call] in *.
  - destruct (_ && _) eqn:C; [|discriminate]. apply andb_prop in C as [N0 Fi]. apply ok_c_no0 in N0. apply fits_len in Fi.
    destruct (spend R k _) as [R1|] eqn:Sp; [|discriminate]. spent S HA Sp ru' Py Le.
    destruct (src_at s p t ltac:(apply S) Hp) as (r & Et).
    eapply (key_if_ends E F R nm s h w k v A S L Hv HA); eauto; [eapply mine_at; eauto|]. intro Fk.
    eapply setKey_wp; eauto; [apply S|now apply src_body].
  - destruct (_ && _) eqn:C; [|discriminate]. apply andb_prop in C as [N0 Fi]. apply ok_c_no0 in N0. apply fits_len in Fi.
    destruct (spend R k _) as [R1|] eqn:Sp; [|discriminate]. spent S HA Sp ru' Py Le.
    destruct (kept_at s p t ltac:(apply S) Hp) as (r & Et).
    eapply (key_if_ends E F R nm s h w k v A S L Hv HA); eauto; [eapply mine_at; eauto|]. intro Fk.
    eapply setKeyFast_wp; eauto; [apply S|now apply kept_body].
  - destruct (fits t) eqn:Fi; [|discriminate]. apply fits_len in Fi. destruct (scratch R _) as [R1|] eqn:Sp; [|discriminate].
    cbn [cneed] in *. specialize (Cr ltac:(lia)).
    destruct (scratch_pays R E nm F s _ R1 (len_key_cost s A (lenN t)) S Sp) as (ru' & -> & Py & Le).
    { intro A'. unfold len_key_cost, addc. pose proof (at_le (cache_home s A) (check_cost (lenN t)) A'). pose proof (at_le A (72 + lenN t) A'). lia. }
    replace (check_cost (lenN t) + lenN t + 72) with (check_cost (lenN t) + (72 + lenN t)) in * by lia.
    destruct (home_room E s A _ HiA Le Cr) as [L1 L2].
    eapply (key_if_ends E F R nm s h w k v A S L Hv HA); eauto; [apply home_mine; [auto|apply Cr|unfold needN; lia]|]. intro Fk.
    eapply setKeyLen_wp; eauto; [apply S|apply Cr|lia|lia].
  - destruct (fits t) eqn:Fi; [|discriminate]. apply fits_len in Fi. destruct (scratch R _) as [R1|] eqn:Sp; [|discriminate].
    cbn [cneed] in *. specialize (Cr ltac:(lia)).
    destruct (scratch_pays R E nm F s _ R1 (len_key_cost s A (lenN t)) S Sp) as (ru' & -> & Py & Le).
    { intro A'. unfold len_key_cost, addc. pose proof (at_le (cache_home s A) (check_cost (lenN t)) A'). pose proof (at_le A (72 + lenN t) A'). lia. }
    replace (check_cost (lenN t) + lenN t + 72) with (check_cost (lenN t) + (72 + lenN t)) in * by lia.
    destruct (home_room E s A _ HiA Le Cr) as [L1 L2].
    eapply (key_if_ends E F R nm s h w k v A S L Hv HA); eauto; [apply home_mine; [auto|apply Cr|unfold needN; lia]|]. intro Fk.
    eapply setKeyLenFast_wp; eauto; [apply S|apply Cr|lia|lia].
Qed.
Ltac node Himg i t f Gi Fi Ik Iv Ip := destruct (Himg i t eq_refl) as (Gi & f & Fi & Ik & Iv & Ip).
Lemma objGet_ptr_wp {VV : vols} {NN : need} len h kk R x R' E nm F s fuel v p : zrstep jd (CObjGet len h kk) R = Some (x, R') ->
  (members R h <= fuel)%nat -> sim R E nm F s -> nth_error (eh E) h = Some v -> (if len then srctext s p kk else src_text s p kk) ->
  wp (zobj_get len fuel v p (lenN kk)) s (ends E F (option addr) (fun r => fst (out_value E r) = x) R' (fun r => snd (out_value E r)) s).
Proof.
  intros St Hf S Hv0 Hp. cbn [zrstep] in St. destruct (look R h) as [[w k]|] eqn:L; [|discriminate].
  assert (C : (len || ok_c kk) && fits (kk ++ [0]) = true).
  { destruct w as [[i t]|]; destruct ((len || ok_c kk) && fits (kk ++ [0])); auto; discriminate St. }
  rewrite C in St. apply andb_prop in C as [C0 Fi]. unfold zobj_get. unfold members in Hf. rewrite L in Hf.
  destruct (look_handle _ _ _ _ _ _ _ _ S L) as (v' & A & Hv & HA & HiA & Hrh & Hh & Himg). replace v with v' in * by congruence. clear v Hv0. rename v' into v.
  destruct w as [[i t]|]; cbn [option_map fst snd wopt] in *.
  - destruct (is_cont true (tvalue t)) as [kids|] eqn:Ec.
    + apply is_cont_some in Ec. rewrite Ec in Hf. cbn [nkids] in Hf.
      destruct (len || keys_ok R kids) eqn:Ko; [|discriminate]. node Himg i t f Gi Fi' Ik Iv Ip. rewrite Ec in Iv. cbn [vimg] in Iv.
      assert (Bd : forall c, In c kids -> c < rn R /\ exists tc, rG R c = Some tc).
      { intros c Hc. eapply (kid_bound nm (rn R) (rG R) F i t); [apply S|auto|]. now rewrite Ec. }
      assert (Bk : forall c, child_by R kk kids = Some c -> c < rn R) by (intros c Hc; apply Bd; eapply child_by_in; eauto).
      assert (Fn : forall r s', zfound s A (key_of F kk) (map nm kids) r s' ->
        exists o', o' = option_map nm (child_by R kk kids) /\ new_zhandle s A o' r s').
      { intros r s' (o & K & N). exists o. split; auto. eapply child_by_first; [apply S|auto| |exact K].
        intros c Hc. destruct (Bd c Hc) as (_ & tc & Gc). now rewrite Gc. }
      destruct len.
      * eapply zgive_ends; eauto. intro Hu.
        eapply wp_mono; [eapply (zobjGetLen_wp s F v A (nm i) f); eauto; [apply S|apply Hp|now rewrite map_length]|].
        intros r s' K. eapply Fn; eauto.
      * apply ok_c_no0 in C0. eapply zgive_ends; eauto. intro Hu. destruct (src_at s p kk ltac:(apply S) Hp) as (r0 & Et).
        eapply wp_mono; [eapply (zobjGet_wp s F v A (nm i) f); eauto; [apply S| |now rewrite map_length]|].
        -- eapply keys_ok_no0; [apply S|auto].
        -- intros r s' K. eapply Fn; eauto.
    + injection St as <- <-. node Himg i t f Gi Fi' Ik Iv Ip. apply (is_cont_none _ _ nm) in Ec. rewrite <- Iv in Ec.
      apply (none_ends E F R nm s S). destruct len.
      * eapply (zobjGetLen_no s F v A (nm i) f); eauto; apply S.
      * eapply (zobjGet_no s F v A (nm i) f); eauto; apply S.
  - injection St as <- <-. apply (none_ends E F R nm s S); destruct len; unfold z_obj_get, z_obj_get_len; eapply with_type_empty; eauto.
Qed.
Lemma parse_zptr_wp {VV : vols} {NN : need} (fast : bool) h t R x R' E nm F s v p : zrstep jd (CParse (if fast then PFast else PCopy) h t []) R = Some (x, R') ->
  sim R E nm F s -> nth_error (eh E) h = Some v -> kept_text s p t ->
  wp (with_env E Bool (if fast then parse_fast true v p else z_parse v p)) s (goes E F s x R').
Proof.
  intros St S Hv0 Hp. cbn [zrstep] in St. apply env_wp. destruct (look R h) as [[w k]|] eqn:L; [|discriminate]. cbv zeta in St.
  assert (Eb : pbuf (if fast then PFast else PCopy) t [] = t ++ [0]) by (destruct fast; reflexivity). rewrite Eb in St.
  assert (N0 : ~ In 0 t) by apply Hp.
  assert (E0 : before0 (t ++ [0]) = t) by (rewrite (before0_end t []); now apply before0_id). rewrite E0 in St.
  destruct (_ && _ && _) eqn:C; [|discriminate]. apply andb_prop in C as [C Sl]. apply andb_prop in C as [_ Fi]. apply fits_cons in Fi as [Fi Ft].
  destruct (look_handle _ _ _ _ _ _ _ _ S L) as (v' & A & Hv & HA & HiA & Hrh & Hh & Himg). replace v' with v in * by congruence. clear Hv0.
  destruct (spend R k _) as [R1|] eqn:Sp; [|discriminate]. spent S HA Sp ru' Py Le.
  assert (Nc : forall r : bytes, negb (o_cut jd t (length r)) = true).
  { intro r. apply Bool.negb_true_iff in Sl. apply Bool.negb_true_iff. destruct (o_cut jd t (length r)) eqn:Ct; auto.
    apply (jd_cut jd J) in Ct; auto. apply (cut_more _ 0) in Ct; [|lia]. apply (jd_cut jd J) in Ct; auto.
    rewrite app_length in Sl. cbn [length] in Sl. replace (length t + 1 - length t - 1)%nat with 0%nat in Sl by lia. congruence. }
  destruct fast; cbn [pcopy] in *.
  - destruct (kept_at s p t ltac:(apply S) Hp) as (r & Et). eapply (parse_ends jd J E F R nm s h w k v A _ ru' t r); eauto.
    apply parse_fast_finished; auto; [apply S|apply Hp].
  - destruct (zparse_kept s F v (wrd nm w) A p t) as (r & Ag); auto; [apply S|].
    eapply (parse_ends jd J E F R nm s h w k v A _ ru' t r); eauto.
Qed.
Lemma delete_zptr_wp {VV : vols} {NN : need} h kk R x R' E nm F s fuel v p : zrstep jd (CObjDel h kk) R = Some (x, R') ->
  (members R h <= fuel)%nat -> sim R E nm F s -> nth_error (eh E) h = Some v -> src_text s p kk ->
  wp (with_env E Bool (z_obj_del fuel v p)) s (goes E F s x R').
Proof.
  intros St Hf S Hv0 Hp. cbn [zrstep] in St. apply env_wp. destruct (look R h) as [[w k]|] eqn:L; [|discriminate].
  destruct (ok_c kk && fits (kk ++ [0])) eqn:C; [|discriminate]. apply andb_prop in C as [C0 Fi]. apply ok_c_no0 in C0. unfold members in Hf. rewrite L in Hf.
  destruct (look_handle _ _ _ _ _ _ _ _ S L) as (v' & A & Hv & HA & HiA & Hrh & Hh & Himg). replace v with v' in * by congruence. clear v Hv0. rename v' into v.
  destruct (src_at s p kk ltac:(apply S) Hp) as (r0 & Et).
  destruct w as [[i t]|]; cbn [option_map fst snd wopt] in *.
  - node Himg i t f Gi Fi' Ik Iv Ip.
    destruct (is_cont true (tvalue t)) as [kids|] eqn:Ec.
    + apply is_cont_some in Ec. rewrite Ec in Hf, Iv. cbn [nkids vimg] in Hf, Iv.
      assert (Bd : forall c, In c kids -> c < rn R /\ exists tc, rG R c = Some tc).
      { intros c Hc. eapply (kid_bound nm (rn R) (rG R) F i t); [apply S|auto|]. now rewrite Ec. }
      assert (Fc : forall o, first_child (key_of F kk) (map nm kids) o -> o = option_map nm (child_by R kk kids)).
      { intros o K. eapply child_by_first; [apply S|auto| |exact K]. intros c Hc. destruct (Bd c Hc) as (_ & tc & Gc). now rewrite Gc. }
      destruct (keys_ok R kids) eqn:Ko; [|discriminate]. destruct (spend R k 48) as [R1|] eqn:Sp; [|discriminate]. spent S HA Sp ru' Py Le.
      unfold child_by in St. cbn [rG] in St. fold (child_by R kk kids) in St. destruct (child_by R kk kids) as [c|] eqn:En; cbn [option_map] in Fc.
      * destruct (unhook (rG R) c) as [G1|] eqn:U; [|discriminate]. injection St as <- <-.
        destruct (sim_unhook E F R nm s S c G1 U) as (F1 & Rm & Fs1 & D1 & Sub & _).
        eapply wp_mono; [eapply (zobjDel_wp s F v (nm i) A f (map nm kids) p kk r0 fuel F1); eauto; [apply S| |now rewrite map_length|]|].
        { eapply keys_ok_no0; [apply S|auto]. }
        { intros c' Hc'. apply Fc in Hc'. injection Hc' as ->. exact Rm. }
        intros r s' (o & Ho & K). apply Fc in Ho. subst o. exact (zdeleted_ends E F R nm s A (nm c) F1 G1 ru' r s' S HiA Fs1 Sub Py K).
      * injection St as <- <-. eapply (same_ends E F R nm s S); eauto; [now apply mine_at|].
        eapply wp_mono; [eapply (zobjDel_wp s F v (nm i) A f (map nm kids) p kk r0 fuel F); eauto; [apply S| |now rewrite map_length|]|].
        { eapply keys_ok_no0; [apply S|auto]. }
        { intros c' Hc'. apply Fc in Hc'. discriminate. }
        intros r s' (o & Ho & K). apply Fc in Ho. subst o. destruct K as [-> ->]. split; auto. apply (ext_weaken none none zeroc); auto; [apply ext_refl, S|intro; unfold zeroc; lia].
    + injection St as <- <-. apply (is_cont_none _ _ nm) in Ec. rewrite <- Iv in Ec.
      apply (stay_ends E F R nm s S). eapply wp_mono; [eapply (zobjDel_no s F v (At (nm i)) A); eauto; [apply S|]|intros r s' [-> ->]; auto].
      intros a f' Ha Hf'. injection Ha as <-. congruence.
  - injection St as <- <-. apply (stay_ends E F R nm s S). eapply wp_mono; [eapply (zobjDel_no s F v Null A); eauto; [apply S|]|intros r s' [-> ->]; auto].
    discriminate.
Qed.

(** With the caches. *)
Lemma shaped_goes {VV : vols} {NN : need} c R x R' E nm F s B K m mb : zrstep jd c R = Some (x, R') -> sim R E nm F s -> caches E s B K ->
  traced m mb (shaped c E B) -> wp m s (goes E F s x R') -> wp mb s (bgoes E F s x R' (forget c x K)).
Proof.
  intros Sz S C T H. eapply wp_mono; [exact (traced_wp _ _ _ s _ T H)|].
  intros [[x' E'] B'] s' [G Sh]. cbn [fst snd] in *. split; [exact G|]. cbn [fst snd]. destruct G as (Ex & nm' & F' & Af). cbn [fst snd] in *. subst x'.
  destruct (af_ext _ _ _ _ _ _ _ _ Af) as (c0 & X & _). pose proof (caches_ext _ _ _ _ _ _ _ _ X C) as C1.
  destruct Sh as [(v & Eq & ->)|(Nv & Eh & ->)].
  - injection Eq as -> ->. cbn [forget]. apply caches_add; auto. pose proof (sm_ndh _ _ _ _ _ (af_sim _ _ _ _ _ _ _ _ Af)) as ND. cbn [eh] in ND.
    apply NoDup_remove_2 in ND. rewrite app_nil_r in ND. exact ND.
  - assert (Fg : forget c x K = fold_left (fun K h => setn h kclear K) (clears c x) K).
    { unfold forget. destruct x as [| | | | | | | |[n|]|]; auto. now elim (Nv n). }
    rewrite Fg. assert (C2 : caches E s' (wiped E B (clears c x)) (fold_left (fun K h => setn h kclear K) (clears c x) K)).
    { apply caches_wiped; auto; [apply S|]. intros h Hh. destruct (clears_known jd c R x R' h Sz Hh) as (o & k & Hr).
      apply nth_error_Some. rewrite (sm_lh _ _ _ _ _ S). apply nth_error_Some. congruence. }
    destruct C2 as [L2 H2]. cbn [fst snd] in Eh. split; [congruence|]. rewrite Eh. exact H2.
Qed.

(** A pointer a getter gives is the one it remembers. *)
Definition slot (g : getter) (c : cache) : word :=
  match g with
  | GUnStr => match cAlt c with AText p => At p | ANum p _ => At p | _ => Null end
  | GKey => cKey c
  | GUnKey => cUn c
  | _ => cStr c
  end.
Definition kslot (g : getter) (k : kache) : option bytes :=
  match g with
  | GUnStr => match kAlt k with KText t => Some t | _ => None end
  | GKey => kKey k
  | GUnKey => kUn k
  | _ => kStr k
  end.
Lemma slot_text {VV : vols} g s c k t : remembered s c k -> kslot g k = Some t -> exists p, slot g c = At p /\ kept_text s p t.
Proof.
  intros [H1 H2 H3 H4] E. destruct g; cbn [kslot slot] in *; try (rewrite E in *; assumption).
  destruct (kAlt k) as [|t0|d]; try discriminate. injection E as ->. destruct H2 as (p & -> & Kt). eauto.
Qed.
Lemma with_type_inv {X} v ty (k : zval -> addr -> node -> M (option X)) s r s' : with_type v ty k s = Ok (r, s') ->
  r = None \/ exists x a n s1, k x a n s1 = Ok (r, s').
Proof.
  intro H. unfold with_type in H. apply bind_inv in H as (x & s1 & _ & H). apply bind_inv in H as (z & s2 & _ & H). destruct z; [injection H as <- _; auto|].
  apply bind_inv in H as (a & s3 & _ & H). apply bind_inv in H as (n & s4 & _ & H). apply bind_inv in H as (t' & s5 & _ & H).
  destruct (jtype_eqb t' ty); [|injection H as <- _; auto]. right. eauto 8.
Qed.
Lemma with_key_inv {X} v (k : zval -> node -> M (option X)) s r s' : with_key v k s = Ok (r, s') ->
  r = None \/ exists x n s1, k x n s1 = Ok (r, s').
Proof.
  intro H. unfold with_key in H. apply bind_inv in H as (x & s1 & _ & H). apply bind_inv in H as (z & s2 & _ & H). destruct z; [injection H as <- _; auto|].
  apply bind_inv in H as (a & s3 & _ & H). apply bind_inv in H as (n & s4 & _ & H). apply bind_inv in H as (z & s5 & _ & H).
  destruct z; [injection H as <- _; auto|]. right. eauto 8.
Qed.
Lemma cached_inv B c put make s r s' : cached B c put make s = Ok (r, s') -> exists w B', r = Some (w, B') /\ ((w = c /\ B' = B) \/ B' = put w).
Proof.
  intro H. unfold cached in H. apply bind_inv in H as (z & s1 & _ & H). destruct z.
  - apply bind_inv in H as (w & s2 & _ & H). injection H as <- _. eauto 6.
  - injection H as <- _. eauto 6.
Qed.
Lemma zget_slot g B v s w B' s' : is_view g = false -> zget g B v s = Ok ((Some w, B'), s') -> slot g (B' v) = w.
Proof.
  intros Nv H.
  assert (Tx : forall ty, z_get_text ty B v s = Ok ((Some w, B'), s') -> cStr (B' v) = w).
  { intros ty H'. unfold z_get_text in H'. apply bind_inv in H' as (r & s1 & H' & E). apply with_type_inv in H' as [-> | (x & a & n & s2 & H')]; [discriminate E|].
    apply cached_inv in H' as (w' & B2 & -> & [[-> ->] | ->]); cbn in E; injection E as <- <- _; auto. unfold put_str. now rewrite setC_eq. }
  destruct g; try discriminate Nv; cbn [zget slot] in *; eauto.
  - unfold z_ValueGetUnEscapeString in H. apply bind_inv in H as (r & s1 & H & E). apply with_type_inv in H as [-> | (x & a & n & s2 & H)]; [discriminate E|].
    apply bind_inv in H as (c & s3 & Hc & H). apply bind_inv in H as (z & s4 & _ & H). destruct z.
    + apply bind_inv in H as (l & s5 & _ & H). apply bind_inv in H as (w' & s6 & _ & H). apply bind_inv in H as (p & s7 & Hd & H). injection H as <- <-.
      cbn in E. injection E as <- <- _. unfold put_alt. rewrite setC_eq. cbn. destruct w' as [| |q]; cbn in Hd; try discriminate. injection Hd as <- _. auto.
    + injection H as <- <-. cbn in E. injection E as <- <- _. destruct (cAlt (B v)); cbn in Hc; try discriminate; injection Hc as <- _; auto.
  - unfold z_ValueGetKey in H. apply bind_inv in H as (r & s1 & H & E). apply with_key_inv in H as [-> | (x & n & s2 & H)]; [discriminate E|].
    apply cached_inv in H as (w' & B2 & -> & [[-> ->] | ->]); cbn in E; injection E as <- <- _; auto. unfold put_ckey. now rewrite setC_eq.
  - unfold z_ValueGetUnEscapeKey in H. apply bind_inv in H as (r & s1 & H & E). apply with_key_inv in H as [-> | (x & n & s2 & H)]; [discriminate E|].
    apply cached_inv in H as (w' & B2 & -> & [[-> ->] | ->]); cbn in E; injection E as <- <- _; auto. unfold put_un. now rewrite setC_eq.
Qed.
Lemma recall_slot g R K h A n o c put x R' K' k : recall R K h A n o c put = Some (x, (R', K')) ->
  nth_error K h = Some k -> c = kslot g k -> (forall t, kslot g (put t) = Some t) -> exists t k', x = Text (Some t) /\ nth_error K' h = Some k' /\ kslot g k' = Some t.
Proof.
  intros St Hk -> Hp. unfold recall in St. destruct (kslot g k) as [t|] eqn:Ek.
  - injection St as <- _ <-. eauto.
  - destruct o as [b|]; [|discriminate]. destruct (spend R A n); [|discriminate]. injection St as <- _ <-.
    exists (before0 b), (put (before0 b)). split; auto. split; auto. rewrite nth_setn, Nat.eqb_refl, Hk. auto.
Qed.
Lemma take_slot g h R K x R' K' : is_view g = false -> brstep jd (gcall g h) (R, K) = Some (x, (R', K')) ->
  x = Text None \/ exists t k, x = Text (Some t) /\ nth_error K' h = Some k /\ kslot g k = Some t.
Proof.
  intros Nv St. destruct g; try discriminate Nv; cbn [gcall brstep] in St; destruct (look R h) as [[w A]|]; try discriminate;
    destruct (nth_error K h) as [k|] eqn:Hk; try discriminate;
    match type of St with match ?m with _ => _ end = _ => destruct m as [b|] end; try (injection St as <- _ _; now left); right.
  - eapply (recall_slot GStr); [exact St|exact Hk|reflexivity|reflexivity].
  - eapply (recall_slot GNum); [exact St|exact Hk|reflexivity|reflexivity].
  - destruct (kAlt k) as [|t|d] eqn:Ea; [|injection St as <- _ <-; exists t, k; cbn; rewrite Ea; auto|discriminate].
    eapply (recall_slot GUnStr); [exact St|exact Hk|cbn; now rewrite Ea|reflexivity].
  - eapply (recall_slot GKey); [exact St|exact Hk|reflexivity|reflexivity].
  - eapply (recall_slot GUnKey); [exact St|exact Hk|reflexivity|reflexivity].
Qed.
Lemma take_bstep g h E B fuel : is_view g = false ->
  bstep fuel (gcall g h) E B = (v <- hof E h ;; out_textB E (zget g B v)).
Proof. destruct g; try discriminate; reflexivity. Qed.
Lemma take_view g h E B fuel : is_view g = true ->
  bstep fuel (gcall g h) E B = same B (v <- hof E h ;; with_env E (fun x => x) (r <- zview g v ;; out_view r)).
Proof. destruct g; try discriminate; reflexivity. Qed.

Definition zgets {VV : vols} (x : answer) (Z' : zst) (xz : answer * mst) (s' : st) : Prop :=
  fst xz = x /\ let '((E', B'), P') := snd xz in let '((R', K'), T') := Z' in
    cache_own E' s' /\ pointing s' P' T' /\ exists nm' F', sim R' E' nm' F' s' /\ caches E' s' B' K'.
Lemma mcall_wp {VV : vols} {NN : need} m P E F s x R' K' T : cache_own E s -> pointing s P T ->
  wp m s (bgoes E F s x R' K') -> wp (mcall m P) s (zgets x ((R', K'), T)).
Proof.
  intros O Pt H. unfold mcall. apply wp_bind. eapply wp_mono; [exact H|]. intros [[x' E'] B'] s' [(Hx & nm' & F' & Af) C']. cbn [fst snd] in *.
  apply wp_ret. split; [exact Hx|]. cbn [snd]. destruct (af_ext _ _ _ _ _ _ _ _ Af) as (c0 & X & _).
  split; [eapply own_after; eauto|]. split; [eapply pointing_ext; eauto|]. exists nm', F'. split; [apply (af_sim _ _ _ _ _ _ _ _ Af)|exact C'].
Qed.
Lemma set_text_traced num kd h t E B v p n : nth_error (eh E) h = Some v ->
  traced (with_env E Bool (set_text_call num kd v p n)) (with_envB E Bool (zset_text_call B num kd v p n)) (shaped (CSetText num kd h t) E B).
Proof. intro Hv. apply shaped_env; [discriminate|]. destruct num, kd; eapply (tr_if_set _ _ _ h); eauto. Qed.
Lemma set_key_traced kd h t E B v p n : nth_error (eh E) h = Some v ->
  traced (with_env E Bool (set_key_call kd v p n)) (with_envB E Bool (zset_key_call B kd v p n)) (shaped (CSetKey kd h t) E B).
Proof. intro Hv. apply shaped_env; [discriminate|]. destruct kd; eapply (tr_if_set _ _ _ h); eauto. Qed.
Lemma obj_get_traced len h t E B v p n fuel : nth_error (eh E) h = Some v ->
  traced (r <- zobj_get len fuel v p n ;; ret (out_value E r))
    (out_valueB E (if len then z_ValueObjGetLen fuel B v p n else z_ValueObjGet fuel B v p)) (shaped (CObjGet len h t) E B).
Proof. intro Hv. apply shaped_value; [auto|]. destruct len; apply traced_with. Qed.
Lemma parse_traced (fast : bool) h t E B v p : nth_error (eh E) h = Some v ->
  traced (with_env E Bool (if fast then parse_fast true v p else z_parse v p))
    (with_envB E Bool (if fast then z_ValueParseFast B v p else z_ValueParse B v p)) (shaped (CParse (if fast then PFast else PCopy) h t []) E B).
Proof. intro Hv. apply shaped_env; [discriminate|]. destruct fast; eapply (tr_clearing _ _ _ h); eauto. Qed.
Lemma delete_traced h t E B v p fuel :
  traced (with_env E Bool (z_obj_del fuel v p)) (with_envB E Bool (same B (z_obj_del fuel v p))) (shaped (CObjDel h t) E B).
Proof. apply shaped_env; [discriminate|]. apply tr_same. reflexivity. Qed.
Lemma out_wp' {VV : vols} {NN : need} E F s x R' m : wp m s (ends E F (option addr) (fun r => fst (out_value E r) = x) R' (fun r => snd (out_value E r)) s) ->
  wp (r <- m ;; ret (out_value E r)) s (goes E F s x R').
Proof. intro H. apply wp_bind. eapply wp_mono; [exact H|]. intros r s' [Hx K]. apply wp_ret. split; auto. Qed.
Lemma zmtake {VV : vols} s P T k r X (f : mptr -> M X) Q : pointing s P T -> nth_error T k = Some r -> (forall m, points s m r -> wp (f m) s Q) ->
  wp (p <- mtake P k ;; f p) s Q.
Proof. intros Pt Hk H. destruct (pointing_nth _ _ _ _ _ Pt Hk) as (m & Hm & Pm). unfold mtake. rewrite Hm. apply wp_bind, wp_ret. auto. Qed.
Lemma brset c RK x RK' R K : RK = (R, K) -> brstep jd c RK = Some (x, RK') -> caching c = false ->
  exists R', zrstep jd c R = Some (x, R') /\ RK' = (R', forget c x K).
Proof.
  intros -> St Nc. destruct c; try discriminate Nc; cbn [brstep] in St; try (destruct fast; [|discriminate Nc]);
    match type of St with match ?m with _ => _ end = _ => destruct m as [[x0 R0]|] eqn:E0; [|discriminate St] end; injection St as <- <-; eauto.
Qed.
Lemma take_look g h R K x RK : brstep jd (gcall g h) (R, K) = Some (x, RK) -> exists w k, look R h = Some (w, k).
Proof.
  intro St. destruct (look R h) as [[w k]|] eqn:L; [eauto|]. destruct g; cbn [gcall brstep zrstep rstep] in St; rewrite L in St; discriminate St.
Qed.
Lemma view_safe {VV : vols} g R E nm F s h v w0 k0 : sim R E nm F s -> look R h = Some (w0, k0) -> nth_error (eh E) h = Some v -> forall r s', is_view g = true -> zview g v s = Ok (r, s') ->
  s' = s /\ match r with None => True | Some (w, n) => exists p b, w = At p /\ n = lenN b /\ safetext s p b end.
Proof.
  intros S L Hv0 r s' Vg Eg.
  destruct (look_handle _ _ _ _ _ _ _ _ S L) as (v' & A & Hv & _ & _ & _ & Hh & Himg). replace v' with v in * by congruence. clear Hv0.
  assert (Q : wp (zview g v) s (fun r s' => s' = s /\ match r with None => True | Some (w, n) => exists p b, w = At p /\ n = lenN b /\ safetext s p b end)).
  { destruct w0 as [[i t]|]; cbn [option_map fst wopt] in Hh.
    - node Himg i t f Gi Fa Ik Iv Ip.
      assert (K : exists o, wp (zview g v) s (fun r s' => s' = s /\ match o with None => r = None | Some b => exists p, r = Some (At p, lenN b) /\ safetext s p b end)).
      { destruct g; try discriminate Vg; cbn [zview]; unfold zj_GetStrFast, zj_GetNumFast; eexists;
          [eapply fastText_safe; eauto; apply S|eapply fastText_safe; eauto; apply S|eapply fastKey_safe; eauto; apply S]. }
      destruct K as (o & K). eapply wp_mono; [exact K|]. intros r0 s0 [-> H0]. split; auto. destruct o as [b|]; [|now subst r0].
      destruct H0 as (p & -> & Sf). eauto.
    - assert (K : wp (zview g v) s (fun r s' => r = None /\ s' = s)).
      { destruct g; try discriminate Vg; cbn [zview]; unfold zj_GetStrFast, zj_GetNumFast, zj_GetKeyFast;
          [eapply with_type_empty; eauto..|eapply with_key_empty; eauto]. }
      eapply wp_mono; [exact K|]. intros r0 s0 [-> ->]. auto. }
  exact (wp_run _ _ _ _ _ Q Eg).
Qed.
Lemma zstmt_wp c R K T x Z' : zsstep jd c ((R, K), T) = Some (x, Z') ->
  forall (VV : vols) E nm F s fuel B P, (zpasses c ((R, K), T) <= fuel)%nat -> sim R E nm F s -> caches E s B K -> cache_own E s -> pointing s P T ->
    wp (zmstep fuel c ((E, B), P)) s (zgets x Z').
Proof.
  intros St VV E nm F s fuel B P Hf S C O Pt.
  destruct c as [c|g h|k|num fast h k|fast h k|h k|h|fast h k|h k]; cbn [zsstep zmstep fst snd zpasses] in *; unfold zcall in *; cbn [fst snd] in *.
  - destruct (brstep jd c (R, K)) as [[x0 [R' K']]|] eqn:E0; [|discriminate]. injection St as <- <-.
    destruct (bstep_all jd J c R K x0 R' K' E0) as (f0 & L0 & H0).
    eapply mcall_wp; eauto. apply (H0 VV E nm F s fuel B); auto; [lia|intros _; now apply own_ready].
  - destruct (brstep jd (gcall g h) (R, K)) as [[x0 [R' K']]|] eqn:E0; [|discriminate]. injection St as <- <-.
    destruct (bstep_all jd J _ R K x0 R' K' E0) as (f0 & L0 & H0).
    assert (f0 = 0)%nat as -> by (destruct g; cbn in L0; lia).
    assert (Cr : cneed (gcall g h) <> 0 -> cache_ready E s (cneed (gcall g h))) by (intros _; now apply own_ready).
    pose proof (H0 VV E nm F s fuel B ltac:(lia) S C Cr) as H.
    destruct (is_view g) eqn:Vg.
    + rewrite (take_view g h E B fuel Vg) in H. destruct H as (xb & s' & Er & G). unfold same in Er. apply bind_inv in Er as (xe & s0 & Er & Eq). injection Eq as <- <-.
      apply bind_inv in Er as (v & s1 & Ev & Er). unfold with_env in Er. apply bind_inv in Er as (y & s2 & Er & Eq). injection Eq as <- <-.
      apply bind_inv in Er as (r & s3 & Eg & Eo). destruct G as [(Hx & nm' & F' & Af) C']. cbn [fst snd] in *. subst y.
      exists (x0, ((E, B), P ++ [match r with Some (w, n) => MV w n | None => MNull end])), s2. split.
      { unfold bind at 1. rewrite Ev. unfold bind at 1. rewrite Eg. unfold bind at 1. rewrite Eo. reflexivity. }
      split; [reflexivity|]. cbn [snd]. destruct (af_ext _ _ _ _ _ _ _ _ Af) as (c0 & X & _).
      split; [eapply own_after; eauto|]. split; [|exists nm', F'; split; [apply (af_sim _ _ _ _ _ _ _ _ Af)|exact C']].
      apply pointing_snoc; [eapply pointing_ext; eauto|].
      assert (Hv : nth_error (eh E) h = Some v /\ s1 = s).
      { unfold hof in Ev. destruct (nth_error (eh E) h) as [v0|]; [|discriminate]. injection Ev as <- <-. auto. }
      destruct Hv as [Hv ->]. destruct (take_look g h R K _ _ E0) as (w0 & k0 & L). destruct (view_safe g R E nm F s h v w0 k0 S L Hv _ _ Vg Eg) as [-> Hr]. destruct r as [[w n]|].
      * destruct Hr as (p & b & -> & -> & Sf). cbn [out_view] in Eo. unfold load_w in Eo.
        assert (Q : wp (b <- load_w (At p) (lenN b) ;; ret (Text (Some b))) s (fun y _ => y = Text (Some b))).
        { unfold load_w. apply wp_bind, wp_bind, wp_deref, (wp_load p _ b); [apply Sf|reflexivity|]. now apply wp_ret. }
        apply (wp_run _ _ _ _ _ Q) in Eo. subst x0. cbn [points]. exists p. split; auto. split; auto. eapply safetext_ext; eauto.
      * injection Eo as <- _. exact Logic.I.
    + rewrite (take_bstep g h E B fuel Vg) in H. destruct H as (xb & s' & Er & G). apply bind_inv in Er as (v & s1 & Ev & Er).
      unfold out_textB in Er. apply bind_inv in Er as (rb & s2 & Eg & Er). apply bind_inv in Er as (y & s3 & Eo & Er). injection Er as <- <-.
      destruct G as [(Hx & nm' & F' & Af) C']. cbn [fst snd] in *. subst y.
      exists (x0, ((E, snd rb), P ++ [match fst rb with Some w => MC w | None => MNull end])), s3. split.
      { unfold bind at 1. rewrite Ev. unfold bind at 1. rewrite Eg. unfold bind at 1. rewrite Eo. reflexivity. }
      split; [reflexivity|]. cbn [snd]. destruct (af_ext _ _ _ _ _ _ _ _ Af) as (c0 & X & _).
      split; [eapply own_after; eauto|]. split; [|exists nm', F'; split; [apply (af_sim _ _ _ _ _ _ _ _ Af)|exact C']].
      apply pointing_snoc; [eapply pointing_ext; eauto|].
      assert (Hv : nth_error (eh E) h = Some v /\ s1 = s).
      { unfold hof in Ev. destruct (nth_error (eh E) h) as [v0|]; [|discriminate]. injection Ev as <- <-. auto. }
      destruct Hv as [Hv ->]. destruct rb as [[w|] B']; cbn [fst snd] in *.
      * cbn [out_text] in Eo. apply bind_inv in Eo as (b & s4 & _ & Eo). injection Eo as <- _.
        destruct (take_slot g h R K _ R' K' Vg E0) as [Q|(t & k & Q & Hk & Sk)]; [discriminate|]. injection Q as ->.
        rewrite <- (zget_slot g B v s w B' s2 Vg Eg). cbn [points].
        exact (slot_text g s3 (B' v) k t (proj2 C' h v k Hv Hk) Sk).
      * injection Eo as <- _. exact Logic.I.
  - destruct (nth_error T k) as [r|] eqn:Hk; [|discriminate]. apply (zmtake s P T k r); auto. intros m Pm.
    destruct r as [|t|t]; injection St as <- <-; destruct m as [|w|w n]; try contradiction; cbn [points] in Pm.
    + apply wp_bind, wp_ret, wp_ret. split; auto. cbn [snd]. eauto 8.
    + destruct Pm as (p & -> & Kt). cbn [out_text]. apply wp_bind, wp_bind, (kept_read s p t); [apply S|exact Kt|]. apply wp_ret, wp_ret. split; auto. cbn [snd]. eauto 8.
    + destruct Pm as (p & -> & -> & Sf). cbn [out_view]. unfold load_w. apply wp_bind, wp_bind, wp_bind, wp_deref, (wp_load p _ t); [apply Sf|reflexivity|]. apply wp_ret, wp_ret. split; auto. cbn [snd]. eauto 8.
  - destruct (nth_error T k) as [r|] eqn:Hk; [|discriminate].
    assert (Hc : exists t kd, (r = RC t /\ kd = kind_of false fast \/ r = RV t /\ kd = kind_of true fast) /\
       match brstep jd (CSetText num kd h t) (R, K) with Some (x, RK) => Some (x, (RK, T)) | None => None end = Some (x, Z')).
    { destruct r as [|t|t]; [discriminate|exists t, (kind_of false fast); auto|exists t, (kind_of true fast); auto]. }
    clear St. destruct Hc as (t & kd & Hr & St). destruct (brstep jd _ (R, K)) as [[x0 RK']|] eqn:E0; [|discriminate]. injection St as <- <-.
    destruct (brset _ _ _ _ R K eq_refl E0 eq_refl) as (R' & Sz & ->).
    destruct (settext_value jd num kd h t R x0 R' E nm F s Sz S) as (v & Hv). apply (hof_wp _ _ v); [exact Hv|].
    apply (zmtake s P T k r); auto. intros m Pm.
    assert (W : forall p, holder kd s p t -> wp (mcall (with_envB E Bool (zset_text_call B num kd v p (lenN t))) P) s (zgets x0 ((R', forget (CSetText num kd h t) x0 K), T))).
    { intros p Hp. eapply mcall_wp; eauto. eapply shaped_goes; eauto; [now apply set_text_traced|]. eapply text_ptr_wp; eauto. intros _. now apply own_ready. }
    destruct Hr as [[-> ->] | [-> ->]]; destruct m as [|w|w n]; try contradiction; cbn [points] in Pm.
    + destruct Pm as (p & -> & Kt). apply wp_bind, wp_deref. replace (zset_text_call B num (kind_of false fast) v p 0) with (zset_text_call B num (kind_of false fast) v p (lenN t)) by (destruct num, fast; reflexivity).
      apply W, holder_of. destruct fast; exact Kt.
    + destruct Pm as (p & -> & -> & Sf). apply wp_bind, wp_deref. apply W, holder_of. destruct fast; exact Sf.
  - destruct (nth_error T k) as [r|] eqn:Hk; [|discriminate].
    assert (Hc : exists t kd, (r = RC t /\ kd = kind_of false fast \/ r = RV t /\ kd = kind_of true fast) /\
       match brstep jd (CSetKey kd h t) (R, K) with Some (x, RK) => Some (x, (RK, T)) | None => None end = Some (x, Z')).
    { destruct r as [|t|t]; [discriminate|exists t, (kind_of false fast); auto|exists t, (kind_of true fast); auto]. }
    clear St. destruct Hc as (t & kd & Hr & St). destruct (brstep jd _ (R, K)) as [[x0 RK']|] eqn:E0; [|discriminate]. injection St as <- <-.
    destruct (brset _ _ _ _ R K eq_refl E0 eq_refl) as (R' & Sz & ->).
    destruct (setkey_value jd kd h t R x0 R' E nm F s Sz S) as (v & Hv). apply (hof_wp _ _ v); [exact Hv|].
    apply (zmtake s P T k r); auto. intros m Pm.
    assert (W : forall p, holder kd s p t -> wp (mcall (with_envB E Bool (zset_key_call B kd v p (lenN t))) P) s (zgets x0 ((R', forget (CSetKey kd h t) x0 K), T))).
    { intros p Hp. eapply mcall_wp; eauto. eapply shaped_goes; eauto; [now apply set_key_traced|]. eapply key_ptr_wp; eauto. intros _. now apply own_ready. }
    destruct Hr as [[-> ->] | [-> ->]]; destruct m as [|w|w n]; try contradiction; cbn [points] in Pm.
    + destruct Pm as (p & -> & Kt). apply wp_bind, wp_deref. replace (zset_key_call B (kind_of false fast) v p 0) with (zset_key_call B (kind_of false fast) v p (lenN t)) by (destruct fast; reflexivity).
      apply W, holder_of. destruct fast; exact Kt.
    + destruct Pm as (p & -> & -> & Sf). apply wp_bind, wp_deref. apply W, holder_of. destruct fast; exact Sf.
  - destruct (nth_error T k) as [r|] eqn:Hk; [|discriminate].
    assert (Hc : exists t len, (r = RC t /\ len = false \/ r = RV t /\ len = true) /\
       match brstep jd (CObjGet len h t) (R, K) with Some (x, RK) => Some (x, (RK, T)) | None => None end = Some (x, Z')).
    { destruct r as [|t|t]; [discriminate|exists t, false; auto|exists t, true; auto]. }
    clear St. destruct Hc as (t & len & Hr & St). destruct (brstep jd _ (R, K)) as [[x0 RK']|] eqn:E0; [|discriminate]. injection St as <- <-.
    destruct (brset _ _ _ _ R K eq_refl E0 eq_refl) as (R' & Sz & ->).
    assert (Hv : exists v, nth_error (eh E) h = Some v).
    { pose proof Sz as Sz'. cbn [zrstep] in Sz'. destruct (look R h) as [[w0 k0]|] eqn:L; [|discriminate]. eapply look_value; eauto. }
    destruct Hv as (v & Hv). apply (hof_wp _ _ v); [exact Hv|].
    apply (zmtake s P T k r); auto. intros m Pm.
    assert (W : forall p, (if len then safetext s p t else kept_text s p t) ->
      wp (mcall (out_valueB E (if len then z_ValueObjGetLen fuel B v p (lenN t) else z_ValueObjGet fuel B v p)) P) s (zgets x0 ((R', forget (CObjGet len h t) x0 K), T))).
    { intros p Hp. eapply (@mcall_wp VV 0); eauto. eapply shaped_goes; eauto; [now apply obj_get_traced|]. apply out_wp'. eapply objGet_ptr_wp; eauto. destruct len; [now apply safetext_src|now apply kept_src]. }
    destruct Hr as [[-> ->] | [-> ->]]; destruct m as [|w|w n]; try contradiction; cbn [points] in Pm.
    + destruct Pm as (p & -> & Kt). apply wp_bind, wp_deref. exact (W p Kt).
    + destruct Pm as (p & -> & -> & Sf). apply wp_bind, wp_deref. exact (W p Sf).
  - destruct (brstep jd (CStringify h) (R, K)) as [[x0 [R' K']]|] eqn:E0; [|discriminate]. injection St as <- <-.
    destruct (brset _ _ _ _ R K eq_refl E0 eq_refl) as (R2 & Sz & Eq). injection Eq as -> _.
    destruct (bstep_all jd J _ R K x0 R2 K' E0) as (f0 & L0 & H0).
    destruct (H0 VV E nm F s fuel B ltac:(lia) S C ltac:(intros _; now apply own_ready)) as (xb & s' & Er & G).
    cbn [bstep] in Er. unfold same in Er. apply bind_inv in Er as (xe & s0 & Er & Eq). injection Eq as <- <-. cbn [cstep] in Er.
    apply bind_inv in Er as (v & s1 & Ev & Er). unfold with_env in Er. apply bind_inv in Er as (y & s2 & Er & Eq). injection Eq as <- <-.
    apply bind_inv in Er as (w & s3 & Eg & Eo). destruct G as [(Hx & nm' & F' & Af) C']. cbn [fst snd] in *. subst y.
    exists (x0, ((E, B), P ++ [MC w])), s2. split.
    { unfold bind at 1. rewrite Ev. unfold bind at 1. rewrite Eg. unfold bind at 1. rewrite Eo. reflexivity. }
    split; [reflexivity|]. cbn [snd]. destruct (af_ext _ _ _ _ _ _ _ _ Af) as (c0 & X & _).
    split; [eapply own_after; eauto|]. split; [|exists nm', F'; split; [apply (af_sim _ _ _ _ _ _ _ _ Af)|exact C']].
    apply pointing_snoc; [eapply pointing_ext; eauto|].
    assert (Hv : nth_error (eh E) h = Some v /\ s1 = s).
    { unfold hof in Ev. destruct (nth_error (eh E) h) as [v0|]; [|discriminate]. injection Ev as <- <-. auto. }
    destruct Hv as [Hv ->].
    destruct (wp_run _ _ _ _ _ (print_kept jd h R x0 R2 E nm F s fuel v Sz Hf S (live_settled s ltac:(apply S) (proj1 O)) Hv) Eg) as (p & b & -> & Kt).
    assert (s2 = s3) as ->.
    { cbn [out_text] in Eo. apply bind_inv in Eo as (b' & s4 & Ec & Eo). injection Eo as _ <-.
      unfold cstr_at in Ec. apply bind_inv in Ec as (p' & s5 & Ed & Ec). injection Ed as _ <-. apply bind_inv in Ec as (t & s5 & Ed & Ec).
      injection Ec as _ <-. unfold readable in Ed. now injection Ed as _ <-. }
    destruct (kept_out s3 p b x0 s3 (x_wf _ _ _ _ _ X) Kt Eo) as [-> _]. cbn [points]. eauto.
  - destruct (nth_error T k) as [r|] eqn:Hk; [|discriminate]. destruct r as [|t|t]; try discriminate.
    destruct (brstep jd _ (R, K)) as [[x0 RK']|] eqn:E0; [|discriminate]. injection St as <- <-.
    destruct (brset _ _ _ _ R K eq_refl E0) as (R' & Sz & ->); [destruct fast; reflexivity|].
    assert (Hv : exists v, nth_error (eh E) h = Some v).
    { pose proof Sz as Sz'. cbn [zrstep] in Sz'. destruct (look R h) as [[w0 k0]|] eqn:L; [|discriminate]. eapply look_value; eauto. }
    destruct Hv as (v & Hv). apply (hof_wp _ _ v); [exact Hv|].
    apply (zmtake s P T k (RC t)); auto. intros m Pm. destruct m as [|w|w n]; try contradiction; cbn [points] in Pm.
    destruct Pm as (p & -> & Kt). apply wp_bind, wp_deref.
    eapply (@mcall_wp VV 0); eauto. eapply shaped_goes; eauto; [now apply parse_traced|]. eapply parse_zptr_wp; eauto.
  - destruct (nth_error T k) as [r|] eqn:Hk; [|discriminate]. destruct r as [|t|t]; try discriminate.
    destruct (brstep jd _ (R, K)) as [[x0 RK']|] eqn:E0; [|discriminate]. injection St as <- <-.
    destruct (brset _ _ _ _ R K eq_refl E0 eq_refl) as (R' & Sz & ->).
    assert (Hv : exists v, nth_error (eh E) h = Some v).
    { pose proof Sz as Sz'. cbn [zrstep] in Sz'. destruct (look R h) as [[w0 k0]|] eqn:L; [|discriminate]. eapply look_value; eauto. }
    destruct Hv as (v & Hv). apply (hof_wp _ _ v); [exact Hv|].
    apply (zmtake s P T k (RC t)); auto. intros m Pm. destruct m as [|w|w n]; try contradiction; cbn [points] in Pm.
    destruct Pm as (p & -> & Kt). apply wp_bind, wp_deref.
    eapply (@mcall_wp VV 0); eauto. eapply shaped_goes; eauto; [now apply delete_traced|]. eapply delete_zptr_wp; eauto using kept_src.
Qed.

Theorem zplay_most X (p : zprog X) : forall R K T x Z', zrplay jd p ((R, K), T) = Some (x, Z') ->
  forall (VV : vols) E nm F s fuel B P, (zpmost jd p ((R, K), T) <= fuel)%nat -> sim R E nm F s -> caches E s B K -> cache_own E s -> pointing s P T ->
    wp (zmplay fuel p ((E, B), P)) s (fun xz s' => fst xz = x /\ let '((E', B'), P') := snd xz in let '((R', K'), T') := Z' in
      cache_own E' s' /\ pointing s' P' T' /\ exists nm' F', sim R' E' nm' F' s' /\ caches E' s' B' K').
Proof.
  induction p as [x0| |c k IH]; intros R K T x Z' H VV E nm F s fuel B P Hf S C O Pt; cbn [zrplay zmplay zpmost] in *.
  - injection H as <- <-. apply wp_ret. cbn [fst snd]. eauto 8.
  - discriminate.
  - destruct (zsstep jd c ((R, K), T)) as [[a [[R1 K1] T1]]|] eqn:E1; [|discriminate].
    apply wp_bind. eapply wp_mono; [apply (zstmt_wp c R K T a _ E1 VV E nm F s fuel B P); [lia|auto..]|].
    intros [a' [[E2 B2] P2]] s1 (Ha & O1 & Pt1 & nm1 & F1 & S1 & C1). cbn [fst snd] in *. subst a'. eapply (IH a R1 K1 T1 x Z' H VV); eauto. lia.
Qed.
(** Every program, from nothing. *)
Theorem zclient X (p : zprog X) x R K T : zrplay jd p ((rstart, []), []) = Some (x, ((R, K), T)) ->
  forall fuel, (zpmost jd p ((rstart, []), []) <= fuel)%nat ->
  exists E B P s, zmplay fuel p ((estart, bstart), []) init = Ok ((x, ((E, B), P)), s) /\ represents R E s.
Proof.
  intros H fuel Hf.
  destruct (zplay_most X p rstart [] [] x _ H novols estart _ nodocs init fuel bstart [] Hf start_sim) as ([x' [[E B] P]] & s & Er & Hr & _ & _ & nm' & F' & S & _).
  - split; auto. intros h v k Hh. destruct h; discriminate.
  - exact start_own.
  - constructor.
  - cbn [fst snd] in *. subst x'. exists E, B, P, s. split; auto. exists nm', F'. exact S.
Qed.

(** Fixed lists of calls in programs. *)
Fixpoint zcalls {X} (cs : list call) (p : zprog X) : zprog X :=
  match cs with [] => p | c :: r => ZAct (ZApi c) (fun _ => zcalls r p) end.
Lemma zcalls_play X cs (p : zprog X) : forall RK rs RK' T, brrun jd cs RK = Some (rs, RK') ->
  zrplay jd (zcalls cs p) (RK, T) = zrplay jd p (RK', T) /\
  (zpmost jd (zcalls cs p) (RK, T) = Nat.max (bmost jd cs RK) (zpmost jd p (RK', T))).
Proof.
  induction cs as [|c cs IH]; intros RK rs RK' T H; cbn [brrun] in H.
  - injection H as <- <-. auto.
  - cbn [zcalls zrplay zpmost bmost zsstep]. unfold zcall. cbn [fst snd zpasses]. destruct (brstep jd c RK) as [[x RK1]|]; [|discriminate].
    destruct (brrun jd cs RK1) as [[xs RK2]|] eqn:E2; [|discriminate]. injection H as _ ->. destruct (IH RK1 xs RK' T E2) as [K1 K2]. split; auto. rewrite K2. lia.
Qed.
(** [cs1], a getter, [cs2]; then the text the pointer of the getter points to. *)
Definition keep_prog (cs1 : list call) (g : getter) (h : nat) (cs2 : list call) : zprog (answer * answer) :=
  zcalls cs1 (ZAct (ZTake g h) (fun x => zcalls cs2 (ZAct (ZLook 0) (fun y => ZRet (x, y))))).
Lemma brrun_cut cs1 : forall c cs2 RK rs RK', brrun jd (cs1 ++ c :: cs2) RK = Some (rs, RK') ->
  exists rs1 RK1 x RK2 rs2, brrun jd cs1 RK = Some (rs1, RK1) /\ brstep jd c RK1 = Some (x, RK2) /\ brrun jd cs2 RK2 = Some (rs2, RK') /\
    nth_error rs (length cs1) = Some x /\ bmost jd (cs1 ++ c :: cs2) RK = Nat.max (bmost jd cs1 RK) (Nat.max (passes c (fst RK1)) (bmost jd cs2 RK2)).
Proof.
  induction cs1 as [|c1 cs1 IH]; intros c cs2 RK rs RK' H; cbn [app brrun] in H.
  - destruct (brstep jd c RK) as [[x RK2]|] eqn:E1; [|discriminate]. destruct (brrun jd cs2 RK2) as [[xs RK3]|] eqn:E2; [|discriminate]. injection H as <- ->.
    exists [], RK, x, RK2, xs. cbn [app bmost brrun length nth_error]. rewrite E1. auto 6.
  - destruct (brstep jd c1 RK) as [[x1 RK1]|] eqn:E1; [|discriminate]. destruct (brrun jd (cs1 ++ c :: cs2) RK1) as [[xs RK3]|] eqn:E2; [|discriminate]. injection H as <- ->.
    destruct (IH c cs2 RK1 xs RK' E2) as (rs1 & RKa & x & RKb & rs2 & K1 & K2 & K3 & K4 & K5).
    exists (x1 :: rs1), RKa, x, RKb, rs2. cbn [app bmost brrun length nth_error]. rewrite E1, K1, K5. repeat split; auto. lia.
Qed.
Theorem zkept cs1 g h cs2 rs RK x : brrun jd (cs1 ++ gcall g h :: cs2) (rstart, []) = Some (rs, RK) -> nth_error rs (length cs1) = Some x ->
  forall fuel, (bmost jd (cs1 ++ gcall g h :: cs2) (rstart, []) <= fuel)%nat ->
  exists Z s, zmplay fuel (keep_prog cs1 g h cs2) ((estart, bstart), []) init = Ok (((x, x), Z), s).
Proof.
  intros H Hx fuel Hf. destruct (brrun_cut _ _ _ _ _ _ H) as (rs1 & RK1 & x' & RK2 & rs2 & K1 & K2 & K3 & K4 & K5).
  assert (x' = x) as -> by congruence. rewrite K5 in Hf. clear H Hx K4 K5.
  set (p2 := fun x => ZAct (ZLook 0) (fun y => ZRet (x, y)) : zprog (answer * answer)).
  set (q := match x with Text (Some t) => if is_view g then RV t else RC t | _ => RNull end).
  destruct (zcalls_play _ cs1 (ZAct (ZTake g h) (fun x => zcalls cs2 (p2 x))) _ _ _ [] K1) as [Q1 Q2].
  destruct (zcalls_play _ cs2 (p2 x) _ _ _ [q] K3) as [Q3 Q4].
  assert (Tx : exists o, x = Text o).
  { destruct RK1 as [R1 Kc]. destruct RK2 as [R2 Kc2]. destruct (is_view g) eqn:Vg.
    - destruct g; try discriminate Vg; cbn [gcall brstep zrstep rstep] in K2; destruct (look R1 h) as [[w A]|]; try discriminate;
        repeat match type of K2 with match (match ?m with _ => _ end) with _ => _ end = _ => destruct m; try discriminate end; injection K2 as <- _ _; eauto.
    - destruct (take_slot g h R1 Kc x R2 Kc2 Vg K2) as [-> | (t & k & -> & _)]; eauto. }
  destruct Tx as (o & ->).
  assert (P2 : zrplay jd (p2 (Text o)) (RK, [q]) = Some ((Text o, Text o), (RK, [q]))).
  { cbn. subst q. destruct o as [t|]; [destruct (is_view g)|]; reflexivity. }
  assert (M2 : zpmost jd (p2 (Text o)) (RK, [q]) = 0%nat) by (cbn; destruct q; reflexivity).
  assert (P1 : zrplay jd (keep_prog cs1 g h cs2) ((rstart, []), []) = Some ((Text o, Text o), (RK, [q]))).
  { unfold keep_prog. fold p2 in Q1. etransitivity; [exact Q1|]. cbn [zrplay zsstep fst snd]. rewrite K2. cbn [app]. etransitivity; [exact Q3|exact P2]. }
  assert (M1 : (zpmost jd (keep_prog cs1 g h cs2) ((rstart, []), []) <= fuel)%nat).
  { unfold keep_prog. fold p2 in Q2. etransitivity; [apply Nat.eq_le_incl; exact Q2|]. cbn [zpmost zsstep fst snd zpasses]. rewrite K2. cbn [app].
    pose proof Q4 as Q4'. unfold q in Q4', M2. rewrite Q4', M2. lia. }
  destruct RK as [R K]. destruct (zclient _ _ _ R K [q] P1 fuel M1) as (E & B & P & s & Er & _). eauto.
Qed.
(** The same with the text z_ValueStringify gives. *)
Definition print_prog (cs1 : list call) (h : nat) (cs2 : list call) : zprog (answer * answer) :=
  zcalls cs1 (ZAct (ZPrint h) (fun x => zcalls cs2 (ZAct (ZLook 0) (fun y => ZRet (x, y))))).
Theorem zprinted cs1 h cs2 rs RK x : brrun jd (cs1 ++ CStringify h :: cs2) (rstart, []) = Some (rs, RK) -> nth_error rs (length cs1) = Some x ->
  forall fuel, (bmost jd (cs1 ++ CStringify h :: cs2) (rstart, []) <= fuel)%nat ->
  exists Z s, zmplay fuel (print_prog cs1 h cs2) ((estart, bstart), []) init = Ok (((x, x), Z), s).
Proof.
  intros H Hx fuel Hf. destruct (brrun_cut _ _ _ _ _ _ H) as (rs1 & RK1 & x' & RK2 & rs2 & K1 & K2 & K3 & K4 & K5).
  assert (x' = x) as -> by congruence. rewrite K5 in Hf. clear H Hx K4 K5.
  set (p2 := fun x => ZAct (ZLook 0) (fun y => ZRet (x, y)) : zprog (answer * answer)).
  set (q := match x with Text (Some t) => RC t | _ => RNull end).
  destruct (zcalls_play _ cs1 (ZAct (ZPrint h) (fun x => zcalls cs2 (p2 x))) _ _ _ [] K1) as [Q1 Q2].
  destruct (zcalls_play _ cs2 (p2 x) _ _ _ [q] K3) as [Q3 Q4].
  assert (Tx : exists o, x = Text o).
  { destruct RK1 as [R1 Kc]. destruct RK2 as [R2 Kc2]. destruct (brset _ _ _ _ R1 Kc eq_refl K2 eq_refl) as (R3 & Sz & _).
    cbn [zrstep rstep] in Sz. unfold copy_text in Sz.
    repeat match type of Sz with match ?m with _ => _ end = _ => destruct m; try discriminate end; injection Sz as <- _; eauto. }
  destruct Tx as (o & ->).
  assert (P2 : zrplay jd (p2 (Text o)) (RK, [q]) = Some ((Text o, Text o), (RK, [q]))).
  { cbn. subst q. destruct o as [t|]; reflexivity. }
  assert (M2 : zpmost jd (p2 (Text o)) (RK, [q]) = 0%nat) by (cbn; destruct q; reflexivity).
  assert (P1 : zrplay jd (print_prog cs1 h cs2) ((rstart, []), []) = Some ((Text o, Text o), (RK, [q]))).
  { unfold print_prog. fold p2 in Q1. etransitivity; [exact Q1|]. cbn [zrplay zsstep fst snd]. rewrite K2. cbn [app]. etransitivity; [exact Q3|exact P2]. }
  assert (M1 : (zpmost jd (print_prog cs1 h cs2) ((rstart, []), []) <= fuel)%nat).
  { unfold print_prog. fold p2 in Q2. etransitivity; [apply Nat.eq_le_incl; exact Q2|]. cbn [zpmost zsstep fst snd zpasses]. rewrite K2. cbn [app].
    pose proof Q4 as Q4'. unfold q in Q4', M2. rewrite Q4', M2. lia. }
  destruct RK as [R K]. destruct (zclient _ _ _ R K [q] P1 fuel M1) as (E & B & P & s & Er & _). eauto.
Qed.
End Agree.
