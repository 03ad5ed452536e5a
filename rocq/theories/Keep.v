(** Programs over zzzjson.h that keep the pointers it gives them.

    The getters of zzzjson.h give a pointer: into memory of the allocator, where they put a copy
    (zj_GetStr 1863-1880, zj_GetUnEscapeStr 1887-1904, zj_GetNumStr 1922-1939, zj_GetKey
    2009-2026, zj_GetUnEscapeKey 2030-2047, and the text of zj_Stringify 1734-1819), or with a
    length into the document itself (zj_GetStrFast 1845-1860, zj_GetNumFast 1906-1920,
    zj_GetKeyFast 2049-2063).
    Here a program keeps all the pointers it got.  At any later time, whatever was called in
    between, it may read the text there or hand the pointer to another call: to be parsed
    (zj_Parse, zj_ParseFast, zj_ParseLen), as the text of a string or number or as a key
    (all setters for texts, also those that escape), as the key to look for (zj_ObjGet,
    zj_ObjGetLen) or to delete (zj_ObjDel).  Each step may depend on the answers so far.

    Not here: releasing allocators. *)
From Verif Require Import Base Spec Lex LexProofs Alloc AllocProofs Mem MemProofs Api PureParse Dom Effect Steps StringifyProofs
  ParseProofs ParseTop CacheProofs SetProofs Update KeyProofs GetProofs CopyProofs LinkProofs MoveProofs IntProofs EscProofs Start Vocab
  ParseFacts PrintFacts Scene ReadFacts SetFacts Double DoubleProofs DoubleFacts ParseEnds Hist HistRun HistForest HistSim HistStep HistAll HistCache Client
  BetaSim BetaClient.

(** The functions that give texts; [PView]: without a copy, with the length. *)
Inductive giver := PText (num : bool) | PUnEscape | PKey | PUnEscapeKey | PPrint | PViewText (num : bool) | PViewKey.
Definition pcall (g : giver) (h : nat) : call :=
  match g with
  | PText num => CGetText num false h
  | PUnEscape => CGetUnEscape h
  | PKey => CGetKey false h
  | PUnEscapeKey => CGetUnEscapeKey h
  | PPrint => CStringify h
  | PViewText num => CGetText num true h
  | PViewKey => CGetKey true h
  end.
Definition is_pview (g : giver) : bool := match g with PViewText _ | PViewKey => true | _ => false end.
(** The functions that take texts; [fast]: without copying them. *)
Inductive taker := TParse (fast : bool) | TText (num fast : bool) | TEscape | TKey (fast : bool) | TKeyEscape | TFind | TDelete.

Definition tfast (u : taker) : bool := match u with TParse fast | TText _ fast | TKey fast => fast | _ => false end.

Inductive pstmt :=
| PApi (c : call)
| PTake (g : giver) (h : nat)                  (* p_n = g(h), for the next n *)
| PLook (k : nat)                              (* the text at p_k is read *)
| PGive (u : taker) (h k : nat).               (* u(h, p_k) *)

(** ** On the reference: a pointer is the text it was got for, for good *)
(** The call [u] on the text [t], a C string or with its length. *)
Definition tcall (u : taker) (view : bool) (h : nat) (t : bytes) : option call :=
  match u with
  | TParse fast => if view then (if fast then None else Some (CParse PLen h t [])) else Some (CParse (if fast then PFast else PCopy) h t [])
  | TText num fast => Some (CSetText num (kind_of view fast) h t)
  | TEscape => Some (CSetEscape view h t)
  | TKey fast => Some (CSetKey (kind_of view fast) h t)
  | TKeyEscape => Some (CSetKeyEscape view h t)
  | TFind => Some (CObjGet view h t)
  | TDelete => if view then None else Some (CObjDel h t)
  end.
Definition rtext (r : rptr) : option (bool * bytes) := match r with RNull => None | RC t => Some (false, t) | RV t => Some (true, t) end.
Definition pst := (rst * list rptr)%type.
Section Ref.
Variable jd : judge.
Definition prcall (c : call) (Z : pst) : option (answer * pst) :=
  match rstep jd c (fst Z) with Some (x, R) => Some (x, (R, snd Z)) | None => None end.
Definition psstep (c : pstmt) (Z : pst) : option (answer * pst) :=
  match c with
  | PApi c => prcall c Z
  | PTake g h =>
      match rstep jd (pcall g h) (fst Z) with
      | Some (x, R) => Some (x, (R, snd Z ++ [match x with Text (Some t) => if is_pview g then RV t else RC t | _ => RNull end]))
      | None => None
      end
  | PLook k =>
      match nth_error (snd Z) k with
      | Some r => Some (Text (option_map snd (rtext r)), Z)
      | None => None
      end
  | PGive u h k =>
      match nth_error (snd Z) k with
      | Some r =>
          match rtext r with
          | Some (view, t) => match tcall u view h t with Some c => prcall c Z | None => None end
          | None => None
          end
      | None => None
      end
  end.
End Ref.

(** ** On the model *)
Definition pgive (fuel : nat) (g : giver) (v : addr) : M (option word) :=
  match g with
  | PUnEscape => zj_GetUnEscapeStr v
  | PKey => zj_GetKey v
  | PUnEscapeKey => zj_GetUnEscapeKey v
  | PPrint => w <- zj_Stringify fuel v ;; ret (Some w)
  | PText true => zj_GetNumStr v
  | _ => zj_GetStr v
  end.
Definition pview (g : giver) (v : addr) : M (option (word * N)) :=
  match g with PViewText true => zj_GetNumFast v | PViewKey => zj_GetKeyFast v | _ => zj_GetStrFast v end.
(** The call [u] on the memory at [p], [n]: the length if it is passed. *)
Definition ptake (fuel : nat) (u : taker) (view : bool) (E : env) (v p : addr) (n : N) : M (answer * env) :=
  match u with
  | TParse fast => with_env E Bool (if view then zj_ParseLen v p n else if fast then zj_ParseFast v p else zj_Parse v p)
  | TText num fast => with_env E Bool (set_text_call num (kind_of view fast) v p n)
  | TEscape => with_env E Bool (if view then zj_SetStrLenEscape v p n else zj_SetStrEscape v p)
  | TKey fast => with_env E Bool (set_key_call (kind_of view fast) v p n)
  | TKeyEscape => with_env E Bool (if view then zj_SetKeyLenEscape v p n else zj_SetKeyEscape v p)
  | TFind => r <- (if view then zj_ObjGetLen fuel v p n else zj_ObjGet fuel v p) ;; ret (out_value E r)
  | TDelete => with_env E Bool (zj_ObjDel fuel v p)
  end.
Definition pmst := (env * list mptr)%type.
Definition pmcall (m : M (answer * env)) (P : list mptr) : M (answer * pmst) := xe <- m ;; ret (fst xe, (snd xe, P)).
Definition pmstep (fuel : nat) (c : pstmt) (Z : pmst) : M (answer * pmst) :=
  let '(E, P) := Z in
  match c with
  | PApi c => pmcall (cstep fuel c E) P
  | PTake g h =>
      v <- hof E h ;;
      if is_pview g then
        r <- pview g v ;; x <- out_view r ;; ret (x, (E, P ++ [match r with Some (w, n) => MV w n | None => MNull end]))
      else
        r <- pgive fuel g v ;; x <- out_text r ;; ret (x, (E, P ++ [match r with Some w => MC w | None => MNull end]))
  | PLook k =>
      p <- mtake P k ;;
      x <- (match p with MNull => ret (Text None) | MC w => out_text (Some w) | MV w n => out_view (Some (w, n)) end) ;;
      ret (x, Z)
  | PGive u h k =>
      v <- hof E h ;; p <- mtake P k ;;
      match p with
      | MNull => fail EDeref
      | MC w => a <- deref w ;; pmcall (ptake fuel u false E v a 0) P
      | MV w n => a <- deref w ;; pmcall (ptake fuel u true E v a n) P
      end
  end.

(** ** Programs *)
Inductive pprog (X : Type) :=
| PRet (x : X)
| PStuck
| PAct (c : pstmt) (k : answer -> pprog X).
Arguments PRet {X} x.
Arguments PStuck {X}.
Arguments PAct {X} c k.
Fixpoint prplay {X} (jd : judge) (p : pprog X) (Z : pst) : option (X * pst) :=
  match p with
  | PRet x => Some (x, Z)
  | PStuck => None
  | PAct c k => match psstep jd c Z with Some (a, Z1) => prplay jd (k a) Z1 | None => None end
  end.
Fixpoint pmplay {X} (fuel : nat) (p : pprog X) (Z : pmst) : M (X * pmst) :=
  match p with
  | PRet x => ret (x, Z)
  | PStuck => fail EFuel
  | PAct c k => az <- pmstep fuel c Z ;; pmplay fuel (k (fst az)) (snd az)
  end.
Definition ppasses (c : pstmt) (Z : pst) : nat :=
  match c with
  | PApi c => passes c (fst Z)
  | PTake g h => passes (pcall g h) (fst Z)
  | PLook _ => 0%nat
  | PGive _ h _ => passes (CObjGet true h []) (fst Z)
  end.
Fixpoint ppmost {X} (jd : judge) (p : pprog X) (Z : pst) : nat :=
  match p with
  | PAct c k => match psstep jd c Z with Some (a, Z1) => Nat.max (ppasses c Z) (ppmost jd (k a) Z1) | None => 0%nat end
  | _ => 0%nat
  end.

(** ** The two agree *)
Section Agree.
Variable jd : judge.
Hypothesis J : correct jd.
Ltac emp Hh := 
  match type of Hh with handle ?s ?F ?v _ ?A =>
    pose proof (empty_reads s F v A Hh (0, 0) 0%nat 0) as
      (eType & eSize & eNull & eBool & eStr & eStrF & eUn & eNum & eNumF & eInt & eLong & _ & eKey & eKeyF & eUnKey & _) end.
Ltac node Himg i t f Gi Fi Ik Iv Ip := destruct (Himg i t eq_refl) as (Gi & f & Fi & Ik & Iv & Ip).

(** *** Taking a text from where it is *)
Definition held {VV : vols} (fast view : bool) (s : st) (p : addr) (t : bytes) : Prop :=
  if fast then (if view then safetext s p t else kept_text s p t) else (if view then srctext s p t else src_text s p t).
Lemma held_kind {VV : vols} view fast s p t : held fast view s p t -> holder (kind_of view fast) s p t.
Proof. now destruct view, fast. Qed.
Lemma held_safe {VV : vols} fast view s p t : held true view s p t -> held fast view s p t.
Proof. destruct fast, view; cbn [held]; auto using safetext_src, kept_src. Qed.

Lemma parse_ptr_wp {VV : vols} {NN : need} fast view h t c R x R' E nm F s v p : tcall (TParse fast) view h t = Some c -> rstep jd c R = Some (x, R') ->
  sim R E nm F s -> nth_error (eh E) h = Some v -> held fast view s p t ->
  wp (with_env E Bool (if view then zj_ParseLen v p (lenN t) else if fast then zj_ParseFast v p else zj_Parse v p)) s (goes E F s x R').
Proof.
  intros Ec St S Hv0 Hp. cbn [tcall] in Ec.
  assert (exists kd, c = CParse kd h t [] /\ kd = (if view then PLen else if fast then PFast else PCopy)) as (kd & -> & Ek).
  { destruct view, fast; try discriminate Ec; injection Ec as <-; eauto. }
  cbn [rstep] in St. apply env_wp. destruct (look R h) as [[w k]|] eqn:L; [|discriminate]. destruct (_ && _ && _) eqn:C; [|discriminate].
  apply andb_prop in C as [C Sl]. apply andb_prop in C as [C0 Fi]. apply fits_cons in Fi as [Fi Ft].
  destruct (look_handle _ _ _ _ _ _ _ _ S L) as (v' & A & Hv & HA & HiA & Hrh & Hh & Himg). replace v' with v in * by congruence. clear Hv0.
  destruct view; [destruct fast; [discriminate|]|destruct fast]; subst kd; cbn [held] in Hp.
  - destruct (spend R k _) as [R1|] eqn:Sp; [|discriminate]. spent S HA Sp ru' Py Le. destruct (before0_split t []) as (sl & Es & _).
    eapply (parse_ends jd J E F R nm s h w k v A _ ru' (before0 t) sl); eauto; [apply before0_no0| |].
    { replace (length sl) with (length t - length (before0 t))%nat; auto. apply (f_equal (@length N)) in Es. rewrite !app_length in Es. cbn in Es. lia. }
    rewrite <- Es. apply parseLen_finished; auto; [apply S|apply Hp].
  - destruct (spend R k _) as [R1|] eqn:Sp; [|discriminate]. spent S HA Sp ru' Py Le. apply ok_c_no0 in C0.
    destruct (kept_at s p t ltac:(apply S) Hp) as (r & Et).
    eapply (parse_ends jd J E F R nm s h w k v A _ ru' t r); eauto.
    { apply Bool.negb_true_iff in Sl. apply Bool.negb_true_iff. destruct (o_cut jd t (length r)) eqn:Ct; auto.
      apply (jd_cut jd J) in Ct; auto. apply (cut_more _ 0) in Ct; [|lia]. apply (jd_cut jd J) in Ct; auto. cbn in Sl. congruence. }
    apply parseFast_finished; auto; [apply S|apply Hp].
  - destruct (spend R k _) as [R1|] eqn:Sp; [|discriminate]. spent S HA Sp ru' Py Le. apply ok_c_no0 in C0.
    destruct (src_at s p t ltac:(apply S) Hp) as (r & Et).
    eapply (parse_ends jd J E F R nm s h w k v A _ ru' t []); eauto.
    eapply parse_finished; eauto. apply S.
Qed.
Lemma escape_ptr_wp {VV : vols} {NN : need} view h t R x R' E nm F s v p : rstep jd (CSetEscape view h t) R = Some (x, R') ->
  sim R E nm F s -> nth_error (eh E) h = Some v -> held false view s p t ->
  wp (with_env E Bool (if view then zj_SetStrLenEscape v p (lenN t) else zj_SetStrEscape v p)) s (goes E F s x R').
Proof.
  intros St S Hv0 Hp. cbn [rstep] in St. apply env_wp. destruct (look R h) as [[w k]|] eqn:L; [|discriminate].
  destruct (look_handle _ _ _ _ _ _ _ _ S L) as (v' & A & Hv & HA & HiA & Hrh & Hh & Himg). replace v' with v in * by congruence. clear Hv0.
  destruct (_ && _) eqn:C; [|discriminate]. apply andb_prop in C as [N0 Fi]. apply fits_cons in Fi as [Fi Ft].
  destruct (spend R k _) as [R1|] eqn:Sp; [|discriminate]. spent S HA Sp ru' Py Le. injection St as <- <-. destruct view; cbn [held] in Hp.
  - eapply (set_ends E F R nm s h w k v A S L Hv HA); eauto; [eapply mine_at; eauto|].
    eapply wp_mono; [eapply setStrLenEscape_wp; eauto; [apply S|apply Hp|lia]|].
    intros r s' [-> K]. split; auto.
  - apply ok_c_no0 in N0. destruct (src_at s p t ltac:(apply S) Hp) as (r & Et).
    eapply (set_ends E F R nm s h w k v A S L Hv HA); eauto; [eapply mine_at; eauto|].
    eapply wp_mono; [eapply setStrEscape_wp; eauto; [apply S|lia]|].
    intros b s' [-> K]. split; auto.
Qed.
Lemma keyescape_ptr_wp {VV : vols} {NN : need} view h t R x R' E nm F s v p : rstep jd (CSetKeyEscape view h t) R = Some (x, R') ->
  sim R E nm F s -> nth_error (eh E) h = Some v -> held false view s p t ->
  wp (with_env E Bool (if view then zj_SetKeyLenEscape v p (lenN t) else zj_SetKeyEscape v p)) s (goes E F s x R').
Proof.
  intros St S Hv0 Hp. cbn [rstep] in St. apply env_wp. destruct (look R h) as [[w k]|] eqn:L; [|discriminate].
  destruct (look_handle _ _ _ _ _ _ _ _ S L) as (v' & A & Hv & HA & HiA & Hrh & Hh & Himg). replace v' with v in * by congruence. clear Hv0.
  destruct (_ && _) eqn:C; [|discriminate]. apply andb_prop in C as [N0 Fi]. apply fits_cons in Fi as [Fi Ft].
  destruct (spend R k _) as [R1|] eqn:Sp; [|discriminate]. spent S HA Sp ru' Py Le. destruct view; cbn [held] in Hp.
  - eapply (key_if_ends E F R nm s h w k v A S L Hv HA _ _ _ _ True); eauto; [eapply mine_at; eauto|tauto|]. intro Fk.
    eapply setKeyLenEscape_wp; eauto; [apply S|apply Hp|lia].
  - apply ok_c_no0 in N0. destruct (src_at s p t ltac:(apply S) Hp) as (r & Et).
    eapply (key_if_ends E F R nm s h w k v A S L Hv HA _ _ _ _ True); eauto; [eapply mine_at; eauto|tauto|]. intro Fk.
    eapply setKeyEscape_wp; eauto; [apply S|lia].
Qed.
Lemma find_ptr_wp {VV : vols} {NN : need} view h kk R x R' E nm F s fuel v p : rstep jd (CObjGet view h kk) R = Some (x, R') ->
  (members R h <= fuel)%nat -> sim R E nm F s -> nth_error (eh E) h = Some v -> held false view s p kk ->
  wp (r <- (if view then zj_ObjGetLen fuel v p (lenN kk) else zj_ObjGet fuel v p) ;; ret (out_value E r)) s (goes E F s x R').
Proof.
  intros St Hf S Hv0 Hp. cbn [rstep] in St. apply out_wp. destruct (look R h) as [[w k]|] eqn:L; [|discriminate].
  assert (C : (view || ok_c kk) && fits (kk ++ [0]) = true).
  { destruct w as [[i t]|]; destruct ((view || ok_c kk) && fits (kk ++ [0])); auto; discriminate St. }
  rewrite C in St. apply andb_prop in C as [C0 Fi]. unfold members in Hf. rewrite L in Hf.
  destruct (look_handle _ _ _ _ _ _ _ _ S L) as (v' & A & Hv & HA & HiA & Hrh & Hh & Himg). replace v with v' in * by congruence. clear v Hv0. rename v' into v.
  destruct w as [[i t]|]; cbn [option_map fst snd wopt] in *.
  - destruct (is_cont true (tvalue t)) as [kids|] eqn:Ec.
    + apply is_cont_some in Ec. rewrite Ec in Hf. cbn [nkids] in Hf.
      destruct (view || keys_ok R kids) eqn:Ko; [|discriminate]. node Himg i t f Gi Fi' Ik Iv Ip. rewrite Ec in Iv. cbn [vimg] in Iv.
      assert (Bd : forall c, In c kids -> c < rn R /\ exists tc, rG R c = Some tc).
      { intros c Hc. eapply (kid_bound nm (rn R) (rG R) F i t); [apply S|auto|]. now rewrite Ec. }
      assert (Bk : forall c, child_by R kk kids = Some c -> c < rn R) by (intros c Hc; apply Bd; eapply child_by_in; eauto).
      assert (Fn : forall r s', found s A (key_of F kk) (map nm kids) r s' ->
        exists o', o' = option_map nm (child_by R kk kids) /\ new_handle s A o' r s').
      { intros r s' (o & K & N). exists o. split; auto. eapply child_by_first; [apply S|auto| |exact K].
        intros c Hc. destruct (Bd c Hc) as (_ & tc & Gc). now rewrite Gc. }
      destruct view; cbn [held] in Hp.
      * eapply give_ends; eauto. intro Hu.
        eapply wp_mono; [eapply (objGetLen_wp s F v A (nm i) f); eauto; [apply S|apply Hp|now rewrite map_length]|].
        intros r s' K. eapply Fn; eauto.
      * apply ok_c_no0 in C0. eapply give_ends; eauto. intro Hu. destruct (src_at s p kk ltac:(apply S) Hp) as (r0 & Et).
        eapply wp_mono; [eapply (objGet_wp s F v A (nm i) f); eauto; [apply S| |now rewrite map_length]|].
        -- eapply keys_ok_no0; [apply S|auto].
        -- intros r s' K. eapply Fn; eauto.
    + injection St as <- <-. node Himg i t f Gi Fi' Ik Iv Ip. apply (is_cont_none _ _ nm) in Ec. rewrite <- Iv in Ec.
      apply (none_ends E F R nm s S). destruct view.
      * eapply (objGetLen_no s F v A (nm i) f); eauto; apply S.
      * eapply (objGet_no s F v A (nm i) f); eauto; apply S.
  - injection St as <- <-. apply (none_ends E F R nm s S); destruct view; unfold zj_ObjGet, zj_ObjGetLen; eapply with_type_empty; eauto.
Qed.
Lemma delete_ptr_wp {VV : vols} {NN : need} h kk R x R' E nm F s fuel v p : rstep jd (CObjDel h kk) R = Some (x, R') ->
  (members R h <= fuel)%nat -> sim R E nm F s -> nth_error (eh E) h = Some v -> src_text s p kk ->
  wp (with_env E Bool (zj_ObjDel fuel v p)) s (goes E F s x R').
Proof.
  intros St Hf S Hv0 Hp. cbn [rstep] in St. apply env_wp. destruct (look R h) as [[w k]|] eqn:L; [|discriminate].
  destruct (ok_c kk && fits (kk ++ [0])) eqn:C; [|discriminate]. apply andb_prop in C as [C0 Fi]. apply ok_c_no0 in C0. unfold members in Hf. rewrite L in Hf.
  destruct (look_handle _ _ _ _ _ _ _ _ S L) as (v' & A & Hv & HA & HiA & Hrh & Hh & Himg). replace v with v' in * by congruence. clear v Hv0. rename v' into v.
  destruct (src_at s p kk ltac:(apply S) Hp) as (r0 & Et).
  destruct w as [[i t]|]; cbn [option_map fst snd wopt] in *.
  - node Himg i t f Gi Fi' Ik Iv Ip.
    destruct (is_cont true (tvalue t)) as [kids|] eqn:Ec.
    + apply is_cont_some in Ec. rewrite Ec in Hf, Iv. cbn [nkids vimg] in Hf, Iv.
      assert (Bd : forall c, In c kids -> c < rn R /\ exists tc, rG R c = Some tc).
      { intros c Hc. eapply (kid_bound nm (rn R) (rG R) F i t); [apply S|auto|]. now rewrite Ec. }
      assert (Fc : forall o, first_child (key_of F kk) (map nm kids) o -> o = option_map nm (child_by R kk kids)).
      { intros o K. eapply child_by_first; [apply S|auto| |exact K]. intros c Hc. destruct (Bd c Hc) as (_ & tc & Gc). now rewrite Gc. }
      destruct (keys_ok R kids) eqn:Ko; [|discriminate]. destruct (spend R k 16) as [R1|] eqn:Sp; [|discriminate]. spent S HA Sp ru' Py Le.
      unfold child_by in St. cbn [rG] in St. fold (child_by R kk kids) in St. destruct (child_by R kk kids) as [c|] eqn:En; cbn [option_map] in Fc.
      * destruct (unhook (rG R) c) as [G1|] eqn:U; [|discriminate]. injection St as <- <-.
        destruct (sim_unhook E F R nm s S c G1 U) as (F1 & Rm & Fs1 & D1 & Sub & _).
        eapply wp_mono; [eapply (objDel_wp s F v (nm i) A f (map nm kids) p kk r0 fuel F1); eauto; [apply S| |now rewrite map_length|]|].
        { eapply keys_ok_no0; [apply S|auto]. }
        { intros c' Hc'. apply Fc in Hc'. injection Hc' as ->. exact Rm. }
        intros r s' (o & Ho & K). apply Fc in Ho. subst o. exact (deleted_ends E F R nm s A (nm c) F1 G1 ru' r s' S HiA Fs1 Sub Py K).
      * injection St as <- <-. eapply (same_ends E F R nm s S); eauto; [now apply mine_at|].
        eapply wp_mono; [eapply (objDel_wp s F v (nm i) A f (map nm kids) p kk r0 fuel F); eauto; [apply S| |now rewrite map_length|]|].
        { eapply keys_ok_no0; [apply S|auto]. }
        { intros c' Hc'. apply Fc in Hc'. discriminate. }
        intros r s' (o & Ho & K). apply Fc in Ho. subst o. destruct K as [-> ->]. split; auto. apply (ext_weaken none none zeroc); auto; [apply ext_refl, S|intro; unfold zeroc; lia].
    + injection St as <- <-. apply (is_cont_none _ _ nm) in Ec. rewrite <- Iv in Ec.
      apply (stay_ends E F R nm s S). eapply wp_mono; [eapply (objDel_no s F v (At (nm i)) A); eauto; [apply S|]|intros r s' [-> ->]; auto].
      intros a f' Ha Hf'. injection Ha as <-. congruence.
  - injection St as <- <-. apply (stay_ends E F R nm s S). eapply wp_mono; [eapply (objDel_no s F v Null A); eauto; [apply S|]|intros r s' [-> ->]; auto].
    discriminate.
Qed.
Lemma taken_value {VV : vols} u view h t c R x R' E nm F s : tcall u view h t = Some c -> rstep jd c R = Some (x, R') -> sim R E nm F s ->
  exists v, nth_error (eh E) h = Some v.
Proof.
  intros Ec St S. assert (exists w k, look R h = Some (w, k)) as (w & k & L); [|eapply look_value; eauto].
  destruct (look R h) as [[w k]|] eqn:L; [eauto|].
  destruct u, view; cbn [tcall] in Ec; try discriminate Ec; try (destruct fast; try discriminate Ec); injection Ec as <-; cbn [rstep] in St; rewrite L in St; discriminate St.
Qed.
(** Every call that takes a text does with a pointer to it what it does with the text. *)
Lemma take_wp u view h t c R x R' : tcall u view h t = Some c -> rstep jd c R = Some (x, R') ->
  forall (VV : vols) E nm F s fuel v p, (members R h <= fuel)%nat -> sim R E nm F s -> (cneed c <> 0 -> cache_ready E s (cneed c)) ->
    nth_error (eh E) h = Some v -> held (tfast u) view s p t ->
    wp (ptake fuel u view E v p (lenN t)) s (@goes VV (cneed c) E F s x R').
Proof.
  intros Ec St VV E nm F s fuel v p Hf S Cr Hv Hp. destruct u as [fast|num fast| |fast| | |]; cbn [ptake tfast] in *.
  - exact (parse_ptr_wp fast view h t c R x R' E nm F s v p Ec St S Hv Hp).
  - injection Ec as <-. eapply text_ptr_wp; eauto using held_kind.
  - injection Ec as <-. eapply escape_ptr_wp; eauto.
  - injection Ec as <-. eapply key_ptr_wp; eauto using held_kind.
  - injection Ec as <-. eapply keyescape_ptr_wp; eauto.
  - injection Ec as <-. eapply find_ptr_wp; eauto.
  - destruct view; [discriminate|]. injection Ec as <-. eapply delete_ptr_wp; eauto.
Qed.

(** *** Giving a text *)
Definition lasting {VV : vols} (r : option word) (s' : st) : Prop := match r with None => True | Some w => exists p b, w = At p /\ kept_text s' p b end.
Lemma copied_lasting {VV : vols} s A n o r s' : copied s A n o r s' -> lasting r s'.
Proof.
  intro H. destruct o as [b|]; cbn [copied] in H.
  - destruct H as (p & -> & _ & Fl). exists p, (before0 b). split; auto. apply kept_copy, Fl.
  - destruct H as [-> _]. exact Logic.I.
Qed.
Lemma copied_lasts {VV : vols} m s A : (exists n o, wp m s (copied s A n o)) -> wp m s lasting.
Proof. intros (n & o & H). eapply wp_mono; [exact H|]. intros r s'. apply copied_lasting. Qed.
Lemma given_wp {VV : vols} g h R x R' E nm F s fuel v : is_pview g = false -> rstep jd (pcall g h) R = Some (x, R') ->
  (passes (pcall g h) R <= fuel)%nat -> sim R E nm F s -> settled s -> nth_error (eh E) h = Some v -> wp (pgive fuel g v) s lasting.
Proof.
  intros Nv St Hf S Cl Hv0. destruct (match g with PPrint => true | _ => false end) eqn:Eg.
  { destruct g; try discriminate Eg. cbn [pgive]. apply wp_bind. eapply wp_mono; [exact (print_kept jd h R x R' E nm F s fuel v St Hf S Cl Hv0)|].
    intros w s' Hw. apply wp_ret. exact Hw. }
  assert (exists w k, look R h = Some (w, k)) as (w & k & L).
  { destruct (look R h) as [[w k]|] eqn:L; [eauto|]. destruct g; cbn [pcall rstep] in St; rewrite L in St; discriminate St. }
  destruct (look_handle _ _ _ _ _ _ _ _ S L) as (v' & A & Hv & HA & HiA & Hrh & Hh & Himg). replace v' with v in * by congruence. clear Hv0.
  destruct w as [[i t]|]; cbn [option_map fst snd wopt] in *.
  2:{ emp Hh. destruct g as [num| | | | |num|]; try discriminate Nv; try discriminate Eg; cbn [pgive].
    - destruct num; eapply ok_wp; [exact eNum|exact Logic.I|exact eStr|exact Logic.I].
    - eapply ok_wp; [exact eUn|exact Logic.I].
    - eapply ok_wp; [exact eKey|exact Logic.I].
    - eapply ok_wp; [exact eUnKey|exact Logic.I]. }
  node Himg i t f Gi Fi Ik Iv Ip. destruct g as [num| | | | |num|]; try discriminate Nv; try discriminate Eg; cbn [pcall rstep pgive] in *; rewrite L in St.
  - unfold copy_text in St. destruct (spend R k _) as [R1|] eqn:Sp; [|discriminate]. spent S HA Sp ru' Py Le.
    pose proof (ntext_img nm (tvalue t) num) as En. rewrite <- Iv in En. fold (olen (ntext num (tvalue t))) in Le. rewrite <- En in Le.
    destruct num; apply (copied_lasts _ s A); do 2 eexists; [eapply getNumStr_wp|eapply getStr_wp]; eauto; apply S.
  - destruct (ntext false (tvalue t)) as [b|] eqn:En.
    + destruct (o_dec jd b) as [d|] eqn:Ed; [|discriminate]. apply (jd_dec jd J) in Ed.
      unfold copy_text in St. destruct (spend R k _) as [R1|] eqn:Sp; [|discriminate]. spent S HA Sp ru' Py Le.
      apply (copied_lasts _ s A); do 2 eexists.
      eapply getUnEscapeStr_wp; eauto; [apply S|]. rewrite Iv. destruct (tvalue t) as [| | | |ob ks]; try discriminate. cbn in En. injection En as ->. reflexivity.
    + eapply wp_mono; [eapply getUnEscapeStr_no; eauto; [apply S|]|intros r s' [-> _]; exact Logic.I]. rewrite Iv. now destruct (tvalue t) as [| | | |[] ks].
  - unfold copy_text in St. destruct (spend R k _) as [R1|] eqn:Sp; [|discriminate]. spent S HA Sp ru' Py Le.
    fold (olen (tkey t)) in Le. rewrite <- Ik in Le. apply (copied_lasts _ s A); do 2 eexists. eapply getKey_wp; eauto; apply S.
  - destruct (tkey t) as [b|] eqn:En.
    + destruct (o_dec jd b) as [d|] eqn:Ed; [|discriminate]. apply (jd_dec jd J) in Ed.
      unfold copy_text in St. destruct (spend R k _) as [R1|] eqn:Sp; [|discriminate]. spent S HA Sp ru' Py Le.
      apply (copied_lasts _ s A); do 2 eexists. eapply getUnEscapeKey_wp; eauto; apply S.
    + assert (K : wp (zj_GetUnEscapeKey v) s (fun r s' => r = None /\ s' = s)).
      { eapply with_key_node; eauto; [apply S|]. intros n b p K. congruence. }
      eapply wp_mono; [exact K|intros r s' [-> _]; exact Logic.I].
Qed.
Lemma pview_safe {VV : vols} g R E nm F s h v w0 k0 : sim R E nm F s -> look R h = Some (w0, k0) -> nth_error (eh E) h = Some v -> forall r s', is_pview g = true -> pview g v s = Ok (r, s') ->
  s' = s /\ match r with None => True | Some (w, n) => exists p b, w = At p /\ n = lenN b /\ safetext s p b end.
Proof.
  intros S L Hv r s' Vg Eg. destruct g as [num| | | | |num|]; try discriminate Vg; [|exact (view_safe GViewKey R E nm F s h v w0 k0 S L Hv r s' eq_refl Eg)].
  destruct num; [exact (view_safe GViewNum R E nm F s h v w0 k0 S L Hv r s' eq_refl Eg)|exact (view_safe GViewStr R E nm F s h v w0 k0 S L Hv r s' eq_refl Eg)].
Qed.

(** *** Statements and programs *)
Definition pgets {VV : vols} (s : st) (x : answer) (Z' : pst) (xz : answer * pmst) (s' : st) : Prop :=
  fst xz = x /\ (exists Dn Dv c, ext Dn Dv c s s') /\ let '(E', P') := snd xz in let '(R', T') := Z' in
    cache_own E' s' /\ pointing s' P' T' /\ exists nm' F', sim R' E' nm' F' s'.
Lemma pmcall_wp {VV : vols} {NN : need} m P E F s x R' T : cache_own E s -> pointing s P T ->
  wp m s (goes E F s x R') -> wp (pmcall m P) s (pgets s x (R', T)).
Proof.
  intros O Pt H. unfold pmcall. apply wp_bind. eapply wp_mono; [exact H|]. intros [x' E'] s' (Hx & nm' & F' & Af). cbn [fst snd] in *.
  apply wp_ret. split; [exact Hx|]. cbn [snd]. destruct (af_ext _ _ _ _ _ _ _ _ Af) as (c0 & X & _). split; [eauto|].
  split; [eapply own_after; eauto|]. split; [eapply pointing_ext; eauto|]. exists nm', F'. apply (af_sim _ _ _ _ _ _ _ _ Af).
Qed.
Lemma take_copy g h E fuel s : is_pview g = false ->
  cstep fuel (pcall g h) E s = (v <- hof E h ;; with_env E (fun x => x) (r <- pgive fuel g v ;; out_text r)) s.
Proof.
  intro Nv. destruct g as [num| | | | |num|]; try discriminate Nv; try (destruct num; reflexivity); try reflexivity.
  cbn [pcall cstep pgive]. unfold with_env, bind, ret. destruct (hof E h s) as [[v s1]|e]; auto.
  destruct (zj_Stringify fuel v s1) as [[w s2]|e]; auto.
Qed.
Lemma take_view' g h E fuel : is_pview g = true ->
  cstep fuel (pcall g h) E = (v <- hof E h ;; with_env E (fun x => x) (r <- pview g v ;; out_view r)).
Proof. intro Nv. destruct g as [num| | | | |num|]; try discriminate Nv; try destruct num; reflexivity. Qed.
Lemma pstmt_wp c R T x Z' : psstep jd c (R, T) = Some (x, Z') ->
  forall (VV : vols) E nm F s fuel P, (ppasses c (R, T) <= fuel)%nat -> sim R E nm F s -> cache_own E s -> pointing s P T ->
    wp (pmstep fuel c (E, P)) s (pgets s x Z').
Proof.
  intros St VV E nm F s fuel P Hf S O Pt.
  destruct c as [c|g h|k|u h k]; cbn [psstep pmstep fst snd ppasses] in *; unfold prcall in *; cbn [fst snd] in *.
  - destruct (rstep jd c R) as [[x0 R']|] eqn:E0; [|discriminate]. injection St as <- <-.
    destruct (step jd J c R x0 R' E0) as (f0 & L0 & H0).
    eapply pmcall_wp; eauto. apply (H0 VV E nm F s fuel); auto; [lia|intros _; now apply own_ready].
  - destruct (rstep jd (pcall g h) R) as [[x0 R']|] eqn:E0; [|discriminate]. injection St as <- <-.
    destruct (step jd J _ R x0 R' E0) as (f0 & L0 & H0).
    assert (Cr : cneed (pcall g h) <> 0 -> cache_ready E s (cneed (pcall g h))) by (intros _; now apply own_ready).
    pose proof (H0 VV E nm F s fuel ltac:(lia) S Cr) as H. destruct H as (xe & s' & Er & Hx & nm' & F' & Af).
    destruct (af_ext _ _ _ _ _ _ _ _ Af) as (c0 & X & _).
    assert (exists w k, look R h = Some (w, k)) as (w0 & k0 & L).
    { destruct (look R h) as [[w k]|] eqn:L; [eauto|]. destruct g; cbn [pcall rstep] in E0; rewrite L in E0; discriminate E0. }
    destruct (is_pview g) eqn:Vg; [rewrite (take_view' g h E fuel Vg) in Er|rewrite (take_copy g h E fuel s Vg) in Er].
    + apply bind_inv in Er as (v & s1 & Ev & Er). unfold with_env in Er. apply bind_inv in Er as (y & s2 & Er & Eq). injection Eq as <- <-.
      apply bind_inv in Er as (r & s3 & Eg & Eo). cbn [fst snd] in *. subst y.
      exists (x0, (E, P ++ [match r with Some (w, n) => MV w n | None => MNull end])), s2. split.
      { unfold bind at 1. rewrite Ev. unfold bind at 1. rewrite Eg. unfold bind at 1. rewrite Eo. reflexivity. }
      split; [reflexivity|]. split; [eauto|]. cbn [snd].
      split; [eapply own_after; eauto|]. split; [|exists nm', F'; apply (af_sim _ _ _ _ _ _ _ _ Af)].
      apply pointing_snoc; [eapply pointing_ext; eauto|].
      assert (Hv : nth_error (eh E) h = Some v /\ s1 = s).
      { unfold hof in Ev. destruct (nth_error (eh E) h) as [v0|]; [|discriminate]. injection Ev as <- <-. auto. }
      destruct Hv as [Hv ->]. destruct (pview_safe g R E nm F s h v w0 k0 S L Hv _ _ Vg Eg) as [-> Hr]. destruct r as [[w n]|].
      * destruct Hr as (p & b & -> & -> & Sf). cbn [out_view] in Eo.
        assert (Q : wp (b <- load_w (At p) (lenN b) ;; ret (Text (Some b))) s (fun y _ => y = Text (Some b))).
        { unfold load_w. apply wp_bind, wp_bind, wp_deref, (wp_load p _ b); [apply Sf|reflexivity|]. now apply wp_ret. }
        apply (wp_run _ _ _ _ _ Q) in Eo. subst x0. cbn [points]. exists p. split; auto. split; auto. eapply safetext_ext; eauto.
      * injection Eo as <- _. exact Logic.I.
    + apply bind_inv in Er as (v & s1 & Ev & Er). unfold with_env in Er. apply bind_inv in Er as (y & s2 & Er & Eq). injection Eq as <- <-.
      apply bind_inv in Er as (r & s3 & Eg & Eo). cbn [fst snd] in *. subst y.
      exists (x0, (E, P ++ [match r with Some w => MC w | None => MNull end])), s2. split.
      { unfold bind at 1. rewrite Ev. unfold bind at 1. rewrite Eg. unfold bind at 1. rewrite Eo. reflexivity. }
      split; [reflexivity|]. split; [eauto|]. cbn [snd].
      split; [eapply own_after; eauto|]. split; [|exists nm', F'; apply (af_sim _ _ _ _ _ _ _ _ Af)].
      apply pointing_snoc; [eapply pointing_ext; eauto|].
      assert (Hv : nth_error (eh E) h = Some v /\ s1 = s).
      { unfold hof in Ev. destruct (nth_error (eh E) h) as [v0|]; [|discriminate]. injection Ev as <- <-. auto. }
      destruct Hv as [Hv ->].
      pose proof (given_wp g h R x0 R' E nm F s fuel v Vg E0 Hf S (live_settled s ltac:(apply S) (proj1 O)) Hv) as G. apply (wp_run _ _ _ _ _) with (1 := G) in Eg as Ls. destruct r as [w|].
      * destruct Ls as (p & b & -> & Kt). cbn [out_text] in Eo. apply bind_inv in Eo as (b' & s4 & Ec & Eo). injection Eo as <- <-.
        unfold cstr_at in Ec. pose proof Ec as Ec2. apply bind_inv in Ec2 as (p' & s5 & Ed & Ec2). injection Ed as <- <-. apply bind_inv in Ec2 as (t & s5 & Ed & Ec2).
        assert (s5 = s3 /\ s4 = s5) as [-> ->].
        { injection Ec2 as _ <-. split; auto. unfold readable in Ed. now injection Ed as _ <-. }
        assert (W : wfst s3) by (apply X). 
        pose proof (kept_read s3 p b (fun y _ => y = b) W Kt eq_refl) as Q. apply (wp_run _ _ _ _ _ Q) in Ec. subst b'.
        cbn [points]. eauto.
      * injection Eo as <- _. exact Logic.I.
  - destruct (nth_error T k) as [r|] eqn:Hk; [|discriminate]. injection St as <- <-. assert (Xr : ext none none zeroc s s) by (apply ext_refl, S). apply (zmtake s P T k r); auto. intros m Pm.
    destruct r as [|t|t]; destruct m as [|w|w n]; try contradiction; cbn [points rtext option_map snd] in *.
    + apply wp_bind, wp_ret, wp_ret. split; auto. split; [now exists none, none, zeroc|]. cbn [snd]. eauto 8.
    + destruct Pm as (p & -> & Kt). cbn [out_text]. apply wp_bind, wp_bind, (kept_read s p t); [apply S|exact Kt|]. apply wp_ret, wp_ret. split; auto. split; [now exists none, none, zeroc|]. cbn [snd]. eauto 8.
    + destruct Pm as (p & -> & -> & Sf). cbn [out_view]. unfold load_w. apply wp_bind, wp_bind, wp_bind, wp_deref, (wp_load p _ t); [apply Sf|reflexivity|]. apply wp_ret, wp_ret. split; auto. split; [now exists none, none, zeroc|]. cbn [snd]. eauto 8.
  - destruct (nth_error T k) as [r|] eqn:Hk; [|discriminate]. destruct (rtext r) as [[view t]|] eqn:Er; [|discriminate].
    destruct (tcall u view h t) as [c|] eqn:Ec; [|discriminate]. destruct (rstep jd c R) as [[x0 R']|] eqn:E0; [|discriminate]. injection St as <- <-.
    destruct (taken_value u view h t c R x0 R' E nm F s Ec E0 S) as (v & Hv). apply (hof_wp _ _ v); [exact Hv|].
    apply (zmtake s P T k r); auto. intros m Pm.
    assert (W : forall p, held true view s p t -> wp (pmcall (ptake fuel u view E v p (lenN t)) P) s (pgets s x0 (R', T))).
    { intros p Hp. eapply (@pmcall_wp VV (cneed c)); eauto. eapply take_wp; eauto using held_safe. intros _. now apply own_ready. }
    destruct r as [|t'|t']; try discriminate Er; injection Er as <- <-; destruct m as [|w|w n]; try contradiction; cbn [points] in Pm.
    + destruct Pm as (p & -> & Kt). apply wp_bind, wp_deref.
      replace (ptake fuel u false E v p 0) with (ptake fuel u false E v p (lenN t')); [exact (W p Kt)|].
      destruct u as [fast|num fast| |fast| | |]; cbn [ptake]; auto; try destruct num; destruct fast; reflexivity.
    + destruct Pm as (p & -> & -> & Sf). apply wp_bind, wp_deref. exact (W p Sf).
Qed.
Theorem pplay_most X (p : pprog X) : forall R T x Z', prplay jd p (R, T) = Some (x, Z') ->
  forall (VV : vols) E nm F s fuel P, (ppmost jd p (R, T) <= fuel)%nat -> sim R E nm F s -> cache_own E s -> pointing s P T ->
    wp (pmplay fuel p (E, P)) s (fun xz s' => fst xz = x /\ let '(E', P') := snd xz in let '(R', T') := Z' in
      cache_own E' s' /\ pointing s' P' T' /\ exists nm' F', sim R' E' nm' F' s').
Proof.
  induction p as [x0| |c k IH]; intros R T x Z' H VV E nm F s fuel P Hf S O Pt; cbn [prplay pmplay ppmost] in *.
  - injection H as <- <-. apply wp_ret. cbn [fst snd]. eauto 8.
  - discriminate.
  - destruct (psstep jd c (R, T)) as [[a [R1 T1]]|] eqn:E1; [|discriminate].
    apply wp_bind. eapply wp_mono; [apply (pstmt_wp c R T a _ E1 VV E nm F s fuel P); [lia|auto..]|].
    intros [a' [E2 P2]] s1 (Ha & _ & O1 & Pt1 & nm1 & F1 & S1). cbn [fst snd] in *. subst a'. eapply (IH a R1 T1 x Z' H VV); eauto. lia.
Qed.
(** Every program, from nothing. *)
Theorem pclient X (p : pprog X) x R T : prplay jd p (rstart, []) = Some (x, (R, T)) ->
  forall fuel, (ppmost jd p (rstart, []) <= fuel)%nat ->
  exists E P s, pmplay fuel p (estart, []) init = Ok ((x, (E, P)), s) /\ represents R E s.
Proof.
  intros H fuel Hf.
  destruct (pplay_most X p rstart [] x _ H novols estart _ nodocs init fuel [] Hf start_sim start_own ltac:(constructor)) as ([x' [E P]] & s & Er & Hr & _ & _ & nm' & F' & S).
  cbn [fst snd] in *. subst x'. exists E, P, s. split; auto. exists nm', F'. exact S.
Qed.

(** Fixed lists of calls in programs. *)
Fixpoint pcalls {X} (cs : list call) (p : pprog X) : pprog X :=
  match cs with [] => p | c :: r => PAct (PApi c) (fun _ => pcalls r p) end.
Lemma pcalls_play X cs (p : pprog X) : forall R rs R' T, rrun jd cs R = Some (rs, R') ->
  prplay jd (pcalls cs p) (R, T) = prplay jd p (R', T) /\
  (ppmost jd (pcalls cs p) (R, T) = Nat.max (most jd cs R) (ppmost jd p (R', T))).
Proof.
  induction cs as [|c cs IH]; intros R rs R' T H; cbn [rrun] in H.
  - injection H as <- <-. auto.
  - cbn [pcalls prplay ppmost most psstep]. unfold prcall. cbn [fst snd ppasses]. destruct (rstep jd c R) as [[x R1]|]; [|discriminate].
    destruct (rrun jd cs R1) as [[xs R2]|] eqn:E2; [|discriminate]. injection H as _ ->. destruct (IH R1 xs R' T E2) as [K1 K2]. split; auto. rewrite K2. lia.
Qed.
(** [cs1], a function that gives a text, [cs2]; then the text its pointer points to. *)
Definition pkeep (cs1 : list call) (g : giver) (h : nat) (cs2 : list call) : pprog (answer * answer) :=
  pcalls cs1 (PAct (PTake g h) (fun x => pcalls cs2 (PAct (PLook 0) (fun y => PRet (x, y))))).
Lemma rrun_cut cs1 : forall c cs2 R rs R', rrun jd (cs1 ++ c :: cs2) R = Some (rs, R') ->
  exists rs1 R1 x R2 rs2, rrun jd cs1 R = Some (rs1, R1) /\ rstep jd c R1 = Some (x, R2) /\ rrun jd cs2 R2 = Some (rs2, R') /\
    nth_error rs (length cs1) = Some x /\ most jd (cs1 ++ c :: cs2) R = Nat.max (most jd cs1 R) (Nat.max (passes c R1) (most jd cs2 R2)).
Proof.
  induction cs1 as [|c1 cs1 IH]; intros c cs2 R rs R' H; cbn [app rrun] in H.
  - destruct (rstep jd c R) as [[x R2]|] eqn:E1; [|discriminate]. destruct (rrun jd cs2 R2) as [[xs R3]|] eqn:E2; [|discriminate]. injection H as <- ->.
    exists [], R, x, R2, xs. cbn [app most rrun length nth_error]. rewrite E1. auto 6.
  - destruct (rstep jd c1 R) as [[x1 R1]|] eqn:E1; [|discriminate]. destruct (rrun jd (cs1 ++ c :: cs2) R1) as [[xs R3]|] eqn:E2; [|discriminate]. injection H as <- ->.
    destruct (IH c cs2 R1 xs R' E2) as (rs1 & Ra & x & Rb & rs2 & K1 & K2 & K3 & K4 & K5).
    exists (x1 :: rs1), Ra, x, Rb, rs2. cbn [app most rrun length nth_error]. rewrite E1, K1, K5. repeat split; auto. lia.
Qed.
Lemma gives_text g h R x R' : rstep jd (pcall g h) R = Some (x, R') -> exists o, x = Text o.
Proof.
  intro St. destruct g as [num| | | | |num|]; cbn [pcall rstep] in St; unfold copy_text in St; destruct (look R h) as [[w A]|]; try discriminate;
    repeat match type of St with match ?m with _ => _ end = _ => destruct m; try discriminate end; injection St as <- _; eauto.
Qed.
Theorem pkept cs1 g h cs2 rs R x : rrun jd (cs1 ++ pcall g h :: cs2) rstart = Some (rs, R) -> nth_error rs (length cs1) = Some x ->
  forall fuel, (most jd (cs1 ++ pcall g h :: cs2) rstart <= fuel)%nat ->
  exists Z s, pmplay fuel (pkeep cs1 g h cs2) (estart, []) init = Ok (((x, x), Z), s).
Proof.
  intros H Hx fuel Hf. destruct (rrun_cut _ _ _ _ _ _ H) as (rs1 & R1 & x' & R2 & rs2 & K1 & K2 & K3 & K4 & K5).
  assert (x' = x) as -> by congruence. rewrite K5 in Hf. clear H Hx K4 K5.
  set (p2 := fun x => PAct (PLook 0) (fun y => PRet (x, y)) : pprog (answer * answer)).
  set (q := match x with Text (Some t) => if is_pview g then RV t else RC t | _ => RNull end).
  destruct (pcalls_play _ cs1 (PAct (PTake g h) (fun x => pcalls cs2 (p2 x))) _ _ _ [] K1) as [Q1 Q2].
  destruct (pcalls_play _ cs2 (p2 x) _ _ _ [q] K3) as [Q3 Q4].
  destruct (gives_text g h R1 x R2 K2) as (o & ->).
  assert (P2 : prplay jd (p2 (Text o)) (R, [q]) = Some ((Text o, Text o), (R, [q]))).
  { cbn. subst q. destruct o as [t|]; [destruct (is_pview g)|]; reflexivity. }
  assert (M2 : ppmost jd (p2 (Text o)) (R, [q]) = 0%nat) by (cbn; destruct q; reflexivity).
  assert (P1 : prplay jd (pkeep cs1 g h cs2) (rstart, []) = Some ((Text o, Text o), (R, [q]))).
  { unfold pkeep. fold p2 in Q1. etransitivity; [exact Q1|]. cbn [prplay psstep fst snd]. rewrite K2. cbn [app]. etransitivity; [exact Q3|exact P2]. }
  assert (M1 : (ppmost jd (pkeep cs1 g h cs2) (rstart, []) <= fuel)%nat).
  { unfold pkeep. fold p2 in Q2. etransitivity; [apply Nat.eq_le_incl; exact Q2|]. cbn [ppmost psstep fst snd ppasses]. rewrite K2. cbn [app].
    pose proof Q4 as Q4'. unfold q in Q4', M2. rewrite Q4', M2. lia. }
  destruct (pclient _ _ _ R [q] P1 fuel M1) as (E & P & s & Er & _). eauto.
Qed.
End Agree.
