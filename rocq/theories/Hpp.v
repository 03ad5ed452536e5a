(** zzzjson.hpp: the wrapper classes zzzjson::Allocator and zzzjson::Value.

    A zzzjson::Value is an object of 8 bytes with one member, the pointer [val] to the
    value object of the C interface.  It is put into the allocator of that value object
    ([innerNew]) and never freed on its own.  The members [val] of all wrapper objects are
    kept in a map of their own, outside the byte memory: nothing but [innerNew] and
    NewValue writes them, and the allocator hands out every byte once.  Reading [val]
    requires that the block the object lies in is still in use.

    zzzjson::Allocator (hpp:15-27) is an object of the caller that holds the result of
    zj_NewAllocator; its destructor calls zj_ReleaseAllocator.

    The methods forward to the functions of the C interface through the short names
    (zzzjson.h:192-371), which are those functions. *)
From Verif Require Import Base Spec Lex LexProofs Alloc AllocProofs Mem MemProofs Api Double PureParse Dom Effect CacheProofs Start Vocab Steps MoveProofs
  Hist HistRun HistForest HistSim HistStep HistAll HistMany.
From Verif Require Leak.

Definition wmem := addr -> option addr.
Definition sizeof_wrapper : N := 8.

(** Reading [val] (hpp:144). *)
Definition wval (W : wmem) (w : addr) : M addr := fun s =>
  match sbsize s (fst w), W w with
  | Some _, Some v => Ok (v, s)
  | _, _ => Err EDeref
  end.
Definition on {X} (W : wmem) (w : addr) (m : addr -> M X) : M X := v <- wval W w ;; m v.
(** Value::innerNew, hpp:135-142 *)
Definition innerNew (W : wmem) (o : option addr) : M (option addr * wmem) :=
  match o with
  | None => ret (None, W)
  | Some v =>
      x <- getVal v ;;
      w <- zj_allocatorAlloc (vA x) sizeof_wrapper ;;
      ret (Some w, upd W w v)
  end.

(** static Value::NewValue, hpp:30-33 *)
Definition w_NewValue_in (W : wmem) (A : N) : M (option addr * wmem) := v <- zj_NewValue A ;; innerNew W (Some v).
(** Value::NewValue, hpp:34-39 *)
Definition w_NewValue (W : wmem) (w : addr) : M (option addr * wmem) :=
  on W w (fun v =>
    x <- getVal v ;;
    v' <- zj_NewValue (vA x) ;;
    y <- getVal v ;;
    w' <- zj_allocatorAlloc (vA y) sizeof_wrapper ;;
    ret (Some w', upd W w' v')).

(** hpp:40-42 *)
Definition w_ParseFast W w p : M bool := on W w (fun v => zj_ParseFast v p).
Definition w_ParseLen W w p n : M bool := on W w (fun v => zj_ParseLen v p n).
Definition w_Parse W w p : M bool := on W w (fun v => zj_Parse v p).
(** hpp:43 *)
Definition w_Stringify W w fuel : M word := on W w (zj_Stringify fuel).
(** hpp:44-48 *)
Definition w_GetStrFast W w := on W w zj_GetStrFast.
Definition w_GetStr W w := on W w zj_GetStr.
Definition w_GetUnEscapeStr W w := on W w zj_GetUnEscapeStr.
Definition w_GetNumFast W w := on W w zj_GetNumFast.
Definition w_GetNumStr W w := on W w zj_GetNumStr.
(** hpp:49-55; GetNum and GetDouble are the same function (zzzjson.h:1879) *)
Definition w_GetDouble W w := on W w zj_GetDouble.
Definition w_GetInt W w := on W w zj_GetInt.
Definition w_GetLong W w := on W w zj_GetLong.
Definition w_GetLongLong W w := on W w zj_GetLongLong.
Definition w_GetBool W w := on W w zj_GetBool.
Definition w_IsNull W w := on W w zj_IsNull.
(** hpp:56-58 *)
Definition w_GetKey W w := on W w zj_GetKey.
Definition w_GetUnEscapeKey W w := on W w zj_GetUnEscapeKey.
Definition w_GetKeyFast W w := on W w zj_GetKeyFast.
(** hpp:59-66 *)
Definition w_ObjGet W w fuel p := on W w (fun v => r <- zj_ObjGet fuel v p ;; innerNew W r).
Definition w_ObjGetLen W w fuel p n := on W w (fun v => r <- zj_ObjGetLen fuel v p n ;; innerNew W r).
(** hpp:67-68 *)
Definition w_Type W w := on W w zj_Type.
Definition w_Size W w := on W w zj_SizeOf.
(** hpp:69-84 *)
Definition w_ArrayGet W w fuel i := on W w (fun v => r <- zj_ArrayGet fuel v i ;; innerNew W r).
Definition w_Begin W w := on W w (fun v => r <- zj_Begin v ;; innerNew W r).
Definition w_Next W w := on W w (fun v => r <- zj_Next v ;; innerNew W r).
Definition w_Copy W w fuel := on W w (fun v => r <- zj_Copy fuel v ;; innerNew W r).
(** hpp:85-87 *)
Definition w_Move W w := on W w zj_Move.
Definition w_SetNull W w := on W w zj_SetNull.
Definition w_SetBool W w b := on W w (fun v => zj_SetBool v b).
(** hpp:88-95; SetNumStrLenFast calls SetNumStrLen *)
Definition w_SetNumStr W w p := on W w (fun v => zj_SetNumStr v p).
Definition w_SetNumStrLen W w p n := on W w (fun v => zj_SetNumStrLen v p n).
Definition w_SetNumStrFast W w p := on W w (fun v => zj_SetNumStrFast v p).
Definition w_SetNumStrLenFast W w p n := on W w (fun v => zj_SetNumStrLen v p n).
(** hpp:96-100; SetNum and SetDouble are the same function (zzzjson.h:2302-2304) *)
Definition w_SetDouble W w d := on W w (fun v => zj_SetDouble v d).
Definition w_SetInt W w z := on W w (fun v => zj_SetInt v z).
Definition w_SetLong W w z := on W w (fun v => zj_SetLong v z).
Definition w_SetLongLong W w z := on W w (fun v => zj_SetLongLong v z).
(** hpp:101-110 *)
Definition w_SetStrEscape W w p := on W w (fun v => zj_SetStrEscape v p).
Definition w_SetStrLenEscape W w p n := on W w (fun v => zj_SetStrLenEscape v p n).
Definition w_SetStrFast W w p := on W w (fun v => zj_SetStrFast v p).
Definition w_SetStrLenFast W w p n := on W w (fun v => zj_SetStrLenFast v p n).
Definition w_SetStr W w p := on W w (fun v => zj_SetStr v p).
Definition w_SetStrLen W w p n := on W w (fun v => zj_SetStrLen v p n).
(** hpp:111-122 *)
Definition w_SetKeyEscape W w p := on W w (fun v => zj_SetKeyEscape v p).
Definition w_SetKeyLenEscape W w p n := on W w (fun v => zj_SetKeyLenEscape v p n).
Definition w_SetKeyFast W w p := on W w (fun v => zj_SetKeyFast v p).
Definition w_SetKeyLenFast W w p n := on W w (fun v => zj_SetKeyLenFast v p n).
Definition w_SetKey W w p := on W w (fun v => zj_SetKey v p).
Definition w_SetKeyLen W w p n := on W w (fun v => zj_SetKeyLen v p n).
(** hpp:123-124 *)
Definition w_SetArray W w := on W w zj_SetArray.
Definition w_SetObj W w := on W w zj_SetObj.
(** hpp:125-132: the argument is a wrapper object as well. *)
Definition w_SetFast W w fuel w2 := on W w (fun v => on W w2 (fun vv => zj_SetFast fuel v vv)).
Definition w_Set W w fuel w2 := on W w (fun v => on W w2 (fun vv => zj_Set fuel v vv)).
Definition w_ObjAddFast W w w2 := on W w (fun v => on W w2 (fun vv => zj_ObjAddFast v vv)).
Definition w_ObjAdd W w fuel w2 := on W w (fun v => on W w2 (fun vv => zj_ObjAdd fuel v vv)).
Definition w_ArrayAddFast W w w2 := on W w (fun v => on W w2 (fun vv => zj_ArrayAddFast v vv)).
Definition w_ArrayAdd W w fuel w2 := on W w (fun v => on W w2 (fun vv => zj_ArrayAdd fuel v vv)).
Definition w_ArrayDel W w fuel i := on W w (fun v => zj_ArrayDel fuel v i).
Definition w_ObjDel W w fuel p := on W w (fun v => zj_ObjDel fuel v p).

(** ** Programs with wrapper objects *)
(** The calls are those of Hist.v, on wrapper objects; [CNewValue] is the static NewValue,
    [HNew h] the method NewValue of object [h]. *)
Inductive hcall := HC (c : call) | HNew (h : nat).
Record henv := mkH {
  hw : list addr;       (* the wrapper objects *)
  ha : list N;          (* the allocators *)
  hm : wmem             (* their members val *)
}.
Definition hstart : henv := mkH [] [] (fun _ => None).
Definition wof (H : henv) (h : nat) : M addr := match nth_error (hw H) h with Some w => ret w | None => fail EDeref end.
Definition haof (H : henv) (A : nat) : M N := match nth_error (ha H) A with Some a => ret a | None => fail EDeref end.
Definition out_w (H : henv) (r : option addr * wmem) : answer * henv :=
  match fst r with
  | None => (Value None, H)
  | Some w => (Value (Some (length (hw H))), mkH (hw H ++ [w]) (ha H) (snd r))
  end.
Definition with_henv {X} (H : henv) (f : X -> answer) (m : M X) : M (answer * henv) := x <- m ;; ret (f x, H).

Definition w_set_text (num : bool) (k : text_kind) (W : wmem) (w p : addr) (n : N) : M bool :=
  match num, k with
  | true, KCopy => w_SetNumStr W w p
  | true, KFast => w_SetNumStrFast W w p
  | true, KLen => w_SetNumStrLen W w p n
  | true, KLenFast => w_SetNumStrLenFast W w p n
  | false, KCopy => w_SetStr W w p
  | false, KFast => w_SetStrFast W w p
  | false, KLen => w_SetStrLen W w p n
  | false, KLenFast => w_SetStrLenFast W w p n
  end.
Definition w_set_key (k : text_kind) (W : wmem) (w p : addr) (n : N) : M bool :=
  match k with
  | KCopy => w_SetKey W w p
  | KFast => w_SetKeyFast W w p
  | KLen => w_SetKeyLen W w p n
  | KLenFast => w_SetKeyLenFast W w p n
  end.
(** The buffer passed to SetNumStrLenFast may be freed after the call, like that of
    SetNumStrLen: the caller of this model does so. *)
Definition as_c (c : call) : call :=
  match c with
  | CSetText true KLenFast h t => CSetText true KLen h t
  | _ => c
  end.
Definition w_kept (num : bool) (k : text_kind) : bool :=
  match num, k with true, KLenFast => false | _, _ => kept_kind k end.

Definition hstep (fuel : nat) (hc : hcall) (H : henv) : M (answer * henv) :=
  let W := hm H in
  match hc with
  | HNew h => w <- wof H h ;; r <- w_NewValue W w ;; ret (out_w H r)
  | HC c =>
  match c with
  | CNewAllocator => A <- zj_NewAllocator ;; ret (Arena (length (ha H)), mkH (hw H) (ha H ++ [A]) W)
  | CNewValue A => a <- haof H A ;; r <- w_NewValue_in W a ;; ret (out_w H r)
  | CParse k h t pad =>
      w <- wof H h ;;
      with_henv H Bool
        (match k with
         | PCopy => lend (t ++ 0 :: pad) (fun p => w_Parse W w p)
         | PFast => keep (t ++ 0 :: pad) (fun p => w_ParseFast W w p)
         | PLen => lend t (fun p => w_ParseLen W w p (lenN t))
         end)
  | CSetNull h => w <- wof H h ;; with_henv H (fun _ => Done) (w_SetNull W w)
  | CSetBool h b => w <- wof H h ;; with_henv H (fun _ => Done) (w_SetBool W w b)
  | CSetCont ob h => w <- wof H h ;; with_henv H (fun _ => Done) (if ob then w_SetObj W w else w_SetArray W w)
  | CSetText num k h t =>
      w <- wof H h ;;
      with_henv H Bool (pass (w_kept num k) (kbuf k t) (fun p => w_set_text num k W w p (lenN t)))
  | CSetInt h z => w <- wof H h ;; with_henv H Bool (w_SetInt W w z)
  | CSetLong h z => w <- wof H h ;; with_henv H Bool (w_SetLong W w z)
  | CSetLongLong h z => w <- wof H h ;; with_henv H Bool (w_SetLongLong W w z)
  | CSetDouble h d => w <- wof H h ;; with_henv H Bool (w_SetDouble W w d)
  | CSetEscape len h t =>
      w <- wof H h ;;
      with_henv H Bool (if len then lend t (fun p => w_SetStrLenEscape W w p (lenN t))
                       else lend (t ++ [0]) (fun p => w_SetStrEscape W w p))
  | CSetKey k h t =>
      w <- wof H h ;;
      with_henv H Bool (pass (kept_kind k) (kbuf k t) (fun p => w_set_key k W w p (lenN t)))
  | CSetKeyEscape len h t =>
      w <- wof H h ;;
      with_henv H Bool (if len then lend t (fun p => w_SetKeyLenEscape W w p (lenN t))
                       else lend (t ++ [0]) (fun p => w_SetKeyEscape W w p))
  | CGetType h => w <- wof H h ;; with_henv H Type_ (w_Type W w)
  | CSize h => w <- wof H h ;; with_henv H Num (w_Size W w)
  | CIsNull h => w <- wof H h ;; with_henv H Bool (w_IsNull W w)
  | CGetBool h => w <- wof H h ;; with_henv H OBool (w_GetBool W w)
  | CGetText num fast h =>
      w <- wof H h ;;
      with_henv H (fun x => x)
        (if fast then r <- (if num then w_GetNumFast W w else w_GetStrFast W w) ;; out_view r
         else r <- (if num then w_GetNumStr W w else w_GetStr W w) ;; out_text r)
  | CGetUnEscape h => w <- wof H h ;; with_henv H (fun x => x) (r <- w_GetUnEscapeStr W w ;; out_text r)
  | CGetInt h => w <- wof H h ;; with_henv H Int (w_GetInt W w)
  | CGetLong h => w <- wof H h ;; with_henv H Int (w_GetLong W w)
  | CGetLongLong h => w <- wof H h ;; with_henv H Int (w_GetLongLong W w)
  | CGetDouble h => w <- wof H h ;; with_henv H Real (w_GetDouble W w)
  | CGetKey fast h =>
      w <- wof H h ;;
      with_henv H (fun x => x) (if fast then r <- w_GetKeyFast W w ;; out_view r else r <- w_GetKey W w ;; out_text r)
  | CGetUnEscapeKey h => w <- wof H h ;; with_henv H (fun x => x) (r <- w_GetUnEscapeKey W w ;; out_text r)
  | CStringify h => w <- wof H h ;; with_henv H (fun x => x) (r <- w_Stringify W w fuel ;; out_text (Some r))
  | CObjGet len h k =>
      w <- wof H h ;;
      r <- (if len then lend k (fun p => w_ObjGetLen W w fuel p (lenN k))
            else lend (k ++ [0]) (fun p => w_ObjGet W w fuel p)) ;;
      ret (out_w H r)
  | CArrayGet h i => w <- wof H h ;; r <- w_ArrayGet W w fuel i ;; ret (out_w H r)
  | CBegin h => w <- wof H h ;; r <- w_Begin W w ;; ret (out_w H r)
  | CNext h => w <- wof H h ;; r <- w_Next W w ;; ret (out_w H r)
  | CCopy h => w <- wof H h ;; r <- w_Copy W w fuel ;; ret (out_w H r)
  | CMove h => w <- wof H h ;; with_henv H Bool (w_Move W w)
  | CAdd ob fast h hv =>
      w <- wof H h ;; w2 <- wof H hv ;;
      with_henv H Bool
        (match ob, fast with
         | true, true => w_ObjAddFast W w w2
         | true, false => w_ObjAdd W w fuel w2
         | false, true => w_ArrayAddFast W w w2
         | false, false => w_ArrayAdd W w fuel w2
         end)
  | CSet fast h hv =>
      w <- wof H h ;; w2 <- wof H hv ;;
      with_henv H Bool (if fast then w_SetFast W w fuel w2 else w_Set W w fuel w2)
  | CArrayDel h i => w <- wof H h ;; with_henv H Bool (w_ArrayDel W w fuel i)
  | CObjDel h k => w <- wof H h ;; with_henv H Bool (lend (k ++ [0]) (fun p => w_ObjDel W w fuel p))
  end
  end.

Fixpoint hrun (fuel : nat) (cs : list hcall) (H : henv) : M (list answer * henv) :=
  match cs with
  | [] => ret ([], H)
  | c :: r => xe <- hstep fuel c H ;; re <- hrun fuel r (snd xe) ;; ret (fst xe :: fst re, snd re)
  end.
(** The program in a scope: at its end the destructors of the allocators run, the last
    one constructed first. *)
Definition hscope (fuel : nat) (cs : list hcall) : M (list answer) :=
  re <- hrun fuel cs hstart ;; release_all (rev (ha (snd re))) ;;; ret (fst re).

(** ** What they should answer *)
(** As the C interface does, with 8 more bytes for every wrapper object. *)
Definition makes_value (c : call) : bool :=
  match c with CNewValue _ | CObjGet _ _ _ | CArrayGet _ _ | CBegin _ | CNext _ | CCopy _ => true | _ => false end.
Definition plain (hc : hcall) (R : rst) : option call :=
  match hc with
  | HC c => Some (as_c c)
  | HNew h => match nth_error (rh R) h with Some (_, A) => Some (CNewValue A) | None => None end
  end.
Definition wrapped (r : answer * rst) : option (answer * rst) :=
  match fst r with
  | Value (Some h) =>
      match nth_error (rh (snd r)) h with
      | Some (_, A) => match spend (snd r) A sizeof_wrapper with Some R2 => Some (fst r, R2) | None => None end
      | None => None
      end
  | _ => Some r
  end.
Definition hrstep (jd : judge) (hc : hcall) (R : rst) : option (answer * rst) :=
  match plain hc R with
  | None => None
  | Some c => match rstep jd c R with None => None | Some r => if makes_value c then wrapped r else Some r end
  end.
Fixpoint hrrun (jd : judge) (cs : list hcall) (R : rst) : option (list answer * rst) :=
  match cs with
  | [] => Some ([], R)
  | c :: r =>
      match hrstep jd c R with
      | None => None
      | Some (x, R1) => match hrrun jd r R1 with None => None | Some (xs, R2) => Some (x :: xs, R2) end
      end
  end.

(** ** Wrapper objects and value objects *)
Record wrel (H : henv) (E : env) (s : st) : Prop := {
  wr_len : length (hw H) = length (eh E);
  wr_ha : ha H = ea E;
  wr_val : forall h w, nth_error (hw H) h = Some w -> exists v A, nth_error (eh E) h = Some v /\ hm H w = Some v /\ inrA s A w sizeof_wrapper /\ In A (ea E)
}.
Definition points (W : wmem) (s : st) (w v : addr) : Prop := sbsize s (fst w) <> None /\ W w = Some v.
Lemma wval_ok W s w v : points W s w v -> wval W w s = Ok (v, s).
Proof. intros [H1 H2]. unfold wval. rewrite H2. destruct (sbsize s (fst w)); [auto|now elim H1]. Qed.
Lemma on_ok X W s w v (m : addr -> M X) : points W s w v -> on W w m s = m v s.
Proof. intro P. unfold on, bind. now rewrite (wval_ok _ _ _ _ P). Qed.
Lemma inrA_block s A w n : wfst s -> inrA s A w n -> sbsize s (fst w) <> None.
Proof. intros W (ar & c & H1 & H2 & H3 & _). rewrite H3, (proj1 (w_chunk s W A ar c H1 H2)). discriminate. Qed.
Lemma wrel_at H E s h v : wfst s -> wrel H E s -> nth_error (eh E) h = Some v ->
  exists w, nth_error (hw H) h = Some w /\ points (hm H) s w v.
Proof.
  intros W [L Ea K] Hv. destruct (nth_error (hw H) h) as [w|] eqn:Ew.
  - destruct (K h w Ew) as (v' & A & V1 & V2 & V3 & _). exists w. split; auto. split; [eapply inrA_block; eauto|congruence].
  - exfalso. apply nth_error_None in Ew. assert (h < length (eh E))%nat by (apply nth_error_Some; congruence). lia.
Qed.
Lemma points_buf W s w v bs p s1 : points W s w v -> user_buf bs s = Ok (p, s1) -> points W s1 w v.
Proof.
  intros [H1 H2] Eb. split; auto. unfold user_buf in Eb. destruct (two32 <=? _); [discriminate|]. injection Eb as _ <-. cbn [sbsize].
  destruct (N.eq_dec (fst w) (snext s)) as [->|D]; [rewrite updN_eq; discriminate|now rewrite updN_neq].
Qed.

(** ** The calls that give no value object *)
Lemma lend_on X W w v bs (m : addr -> addr -> M X) s : points W s w v -> lend bs (fun p => on W w (fun v => m v p)) s = lend bs (m v) s.
Proof.
  intro P. unfold lend, bind. destruct (user_buf bs s) as [[p s1]|e] eqn:Eb; [|auto].
  now rewrite (on_ok _ _ _ _ _ _ (points_buf _ _ _ _ _ _ _ P Eb)).
Qed.
Lemma keep_on X W w v bs (m : addr -> addr -> M X) s : points W s w v -> keep bs (fun p => on W w (fun v => m v p)) s = keep bs (m v) s.
Proof.
  intro P. unfold keep, bind. destruct (user_buf bs s) as [[p s1]|e] eqn:Eb; [|auto]. exact (on_ok _ _ _ _ v (fun v => m v p) (points_buf _ _ _ _ _ _ _ P Eb)).
Qed.
Lemma pass_on X kept W w v bs (m : addr -> addr -> M X) s : points W s w v -> pass kept bs (fun p => on W w (fun v => m v p)) s = pass kept bs (m v) s.
Proof. destruct kept; [apply keep_on|apply lend_on]. Qed.

Definition back (H : henv) (r : res ((answer * env) * st)) : res ((answer * henv) * st) :=
  match r with
  | Ok ((x, E'), s') => Ok ((x, mkH (hw H) (ea E') (hm H)), s')
  | Err e => Err e
  end.
Lemma back_env X H E (f : X -> answer) m s : ha H = ea E -> with_henv H f m s = back H (with_env E f m s).
Proof. intro Ea. unfold with_henv, with_env, bind, ret. destruct (m s) as [[x s']|e]; cbn; auto. rewrite <- Ea. now destruct H. Qed.
Section Same.
Variables (H : henv) (E : env) (s : st).
Hypothesis W : wfst s.
Hypothesis Rl : wrel H E s.
Lemma of_same h (mw : addr -> M (answer * henv)) (mv : addr -> M (answer * env)) :
  (forall w v, nth_error (hw H) h = Some w -> points (hm H) s w v -> mw w s = back H (mv v s)) ->
  (w <- wof H h ;; mw w) s = back H ((v <- hof E h ;; mv v) s).
Proof.
  intro K. unfold wof, hof. destruct (nth_error (eh E) h) as [v|] eqn:Ev.
  - destruct (wrel_at H E s h v W Rl Ev) as (w & Ew & P). rewrite Ew. unfold bind, ret. eapply K; eauto.
  - destruct (nth_error (hw H) h) as [w|] eqn:Ew; [|reflexivity]. exfalso. apply nth_error_None in Ev.
    assert (h < length (hw H))%nat by (apply nth_error_Some; congruence). rewrite (wr_len _ _ _ Rl) in *. lia.
Qed.
Lemma of_env h X (f : X -> answer) (mw mv : addr -> M X) : (forall w v, points (hm H) s w v -> mw w s = mv v s) ->
  (w <- wof H h ;; with_henv H f (mw w)) s = back H ((v <- hof E h ;; with_env E f (mv v)) s).
Proof.
  intro K. apply of_same. intros w v _ P. rewrite (back_env _ H E) by apply Rl. unfold with_env, bind. now rewrite (K w v P).
Qed.
Lemma of_env2 h h2 X (f : X -> answer) (mw mv : addr -> addr -> M X) :
  (forall w v w2 v2, points (hm H) s w v -> points (hm H) s w2 v2 -> mw w w2 s = mv v v2 s) ->
  (w <- wof H h ;; w2 <- wof H h2 ;; with_henv H f (mw w w2)) s = back H ((v <- hof E h ;; v2 <- hof E h2 ;; with_env E f (mv v v2)) s).
Proof.
  intro K. apply of_same. intros w v _ P. apply (of_env h2 X f (mw w) (mv v)). intros w2 v2 P2. auto.
Qed.
Lemma bind_on X Y w v (m : addr -> M X) (k : X -> M Y) : points (hm H) s w v -> (x <- on (hm H) w m ;; k x) s = (x <- m v ;; k x) s.
Proof. intro P. unfold bind. now rewrite (on_ok _ _ _ _ _ _ P). Qed.
Lemma on2 X w v w2 v2 (m : addr -> addr -> M X) : points (hm H) s w v -> points (hm H) s w2 v2 ->
  on (hm H) w (fun v => on (hm H) w2 (m v)) s = m v v2 s.
Proof. intros P P2. rewrite (on_ok _ _ _ _ _ _ P). now apply on_ok. Qed.

Lemma plain_same fuel c : makes_value c = false -> hstep fuel (HC c) H s = back H (cstep fuel (as_c c) E s).
Proof.
  intro V. destruct c; try discriminate V; clear V; cbn [hstep].
  1: { cbn [as_c cstep]. unfold bind, zj_NewAllocator, ret. cbn. now rewrite (wr_ha _ _ _ Rl). }
  all: cbn [as_c cstep];
    try (apply (of_env h); intros w v P;
      first [ exact (on_ok _ _ _ _ _ _ P) | exact (bind_on _ _ _ _ _ _ P) | exact (lend_on _ _ _ _ _ _ _ P) | exact (keep_on _ _ _ _ _ _ _ P) ]).
  all: try (apply (of_env2 h hv); intros w v w2 v2 P P2; repeat match goal with b : bool |- _ => destruct b end; exact (on2 _ _ _ _ _ _ P P2)).
  - apply (of_env h _ Bool _ (fun v => match k with
         | PCopy => lend (t ++ 0 :: pad) (fun p => zj_Parse v p)
         | PFast => keep (t ++ 0 :: pad) (fun p => zj_ParseFast v p)
         | PLen => lend t (fun p => zj_ParseLen v p (lenN t))
         end)). intros w v P. destruct k; [exact (lend_on _ _ _ _ _ _ _ P)|exact (keep_on _ _ _ _ _ _ _ P)|exact (lend_on _ _ _ _ _ _ _ P)].
  - destruct ob; apply (of_env h); intros w v P; exact (on_ok _ _ _ _ _ _ P).
  - destruct num, k; cbn [as_c cstep]; apply (of_env h); intros w v P; exact (pass_on _ _ _ _ _ _ _ _ P).
  - destruct len; apply (of_env h); intros w v P; exact (lend_on _ _ _ _ _ _ _ P).
  - destruct k; apply (of_env h); intros w v P; exact (pass_on _ _ _ _ _ _ _ _ P).
  - destruct len; apply (of_env h); intros w v P; exact (lend_on _ _ _ _ _ _ _ P).
  - destruct num, fast; apply (of_env h); intros w v P; exact (bind_on _ _ _ _ _ _ P).
  - destruct fast; apply (of_env h); intros w v P; exact (bind_on _ _ _ _ _ _ P).
Qed.
End Same.

(** ** The calls that give one *)
Lemma inrA_fresh s A w n : wfst s -> inrA s A w n -> 0 < n -> ~ beyond s w.
Proof. intros W Hi Hn. pose proof (inrA_beyond s A w n 0 W Hi Hn) as K. unfold offset in K. rewrite N.add_0_r in K. now destruct w. Qed.
Lemma ea_at R E nm F s k R2 : sim R E nm F s -> spend R k sizeof_wrapper = Some R2 -> exists A, nth_error (ea E) k = Some A.
Proof.
  intros S Sp. destruct (nth_error (ea E) k) as [A|] eqn:HA; eauto. exfalso. apply nth_error_None in HA. unfold spend in Sp.
  destruct (nth_error (ru R) k) as [u|] eqn:Eu; [|discriminate]. assert (k < length (ru R))%nat by (apply nth_error_Some; congruence).
  rewrite <- (sm_la _ _ _ _ _ S) in *. lia.
Qed.
Section Wrap.
Context {VV : vols} {NN : need}.
Variables (H : henv) (E : env) (F : dom) (s : st).
Hypothesis Rl : wrel H E s.
Lemma wrap_alloc R1 nm1 F1 s1 v k A R2 : after E F s R1 (mkE (eh E ++ [v]) (ea E)) nm1 F1 s1 -> nth_error (ea E) k = Some A ->
  spend R1 k sizeof_wrapper = Some R2 ->
  wp (zj_allocatorAlloc A sizeof_wrapper) s1 (fun w s2 => after E F s R2 (mkE (eh E ++ [v]) (ea E)) nm1 F1 s2 /\
    inrA s2 A w sizeof_wrapper /\ forall w0, In w0 (hw H) -> w0 <> w).
Proof.
  intros [S1 (c & X & M) Nw Hs As Kp] HA Sp.
  destruct (spend_pays R1 (mkE (eh E ++ [v]) (ea E)) nm1 F1 s1 k A sizeof_wrapper R2 S1 HA Sp) as (ru' & -> & Py & Le).
  assert (W1 : wfst s1) by apply X. assert (Al : alive s1 A).
  { unfold spend in Sp. destruct (nth_error (ru R1) k) as [u|] eqn:Eu; [|discriminate]. exact (proj1 (sm_arena _ _ _ _ _ S1 k A u HA Eu)). }
  eapply wp_mono; [apply alloc_wp; auto|]. intros w s2 P. pose proof (ext_alloc _ _ _ _ _ W1 P) as X2.
  assert (Mi : mine (mkE (eh E ++ [v]) (ea E)) s1 (at_ A sizeof_wrapper)) by (apply mine_at; eapply nth_error_In; eauto).
  pose proof (after_same _ _ _ _ _ _ _ _ S1 Py X2 Mi) as [S2 _ _ _ _ _].
  split; [|split; [apply P|]].
  - constructor; auto. exists (addc c (at_ A sizeof_wrapper)). split.
    + eapply ext_trans; [exact X|]. eapply ext_wide; [exact X2|..]; intros y [].
    + intros A' HA'. unfold addc in *. destruct (N.eq_dec A' A) as [->|D]; [left; eapply nth_error_In; eauto|].
      rewrite at_neq in * by auto. rewrite N.add_0_r in *. auto.
  - intros w0 Hw E0. subst w0. apply In_nth_error in Hw as (h & Hh). destruct (wr_val _ _ _ Rl h w Hh) as (v0 & A0 & _ & _ & Hi & _).
    apply (x_inr _ _ _ _ _ X) in Hi. apply (inrA_fresh s1 A0 w sizeof_wrapper W1 Hi); [reflexivity|]. pose proof (ap_new _ _ _ _ _ P (snd w) (N.le_refl _)) as K. now destruct w.
Qed.
Definition the_env (r : option addr * wmem) : env :=
  match fst r with
  | None => E
  | Some w => match snd r w with Some v => mkE (eh E ++ [v]) (ea E) | None => E end
  end.
Definition new_object (r : option addr * wmem) (s2 : st) : Prop :=
  match fst r with
  | None => snd r = hm H
  | Some w => exists v A, snd r = upd (hm H) w v /\ inrA s2 A w sizeof_wrapper /\ In A (ea E) /\ forall w0, In w0 (hw H) -> w0 <> w
  end.
Definition gives_object (x : answer) (R2 : rst) (r : option addr * wmem) (s2 : st) : Prop :=
  ends E F (option addr * wmem) (fun r => fst (out_w H r) = x) R2 the_env s r s2 /\ new_object r s2.
Lemma wrap_wp R x R1 y R2 nm r s1 : sim R E nm F s -> ends E F (option addr) (fun r => fst (out_value E r) = x) R1 (fun r => snd (out_value E r)) s r s1 ->
  wrapped (x, R1) = Some (y, R2) -> wp (innerNew (hm H) r) s1 (gives_object y R2).
Proof.
  intros S (Hx & nm1 & F1 & Af) Wr. destruct r as [v|]; cbn [out_value fst snd] in *; subst x; cbn [wrapped fst snd] in Wr.
  - destruct (nth_error (rh R1) (length (eh E))) as [[o k]|] eqn:Eh; [|discriminate]. destruct (spend R1 k sizeof_wrapper) as [R2'|] eqn:Sp; [|discriminate].
    injection Wr as <- <-. pose proof (af_sim _ _ _ _ _ _ _ _ Af) as S1. destruct (sm_handle _ _ _ _ _ S1 _ o k Eh) as (v' & A & V1 & V2 & V3 & _).
    cbn [eh ea] in V1, V2. rewrite nth_error_app2, Nat.sub_diag in V1 by auto. cbn in V1. injection V1 as <-.
    unfold innerNew. apply wp_bind, (wp_getVal _ _ _ _ V3). cbn [vA]. eapply wp_seq; [exact (wrap_alloc R1 nm1 F1 s1 v k A R2' Af V2 Sp)|].
    intros w s2 (Af2 & Hi & Fr). apply wp_ret. split.
    + split; [cbn; now rewrite (wr_len _ _ _ Rl)|]. exists nm1, F1. unfold the_env. cbn [fst snd]. rewrite upd_eq. exact Af2.
    + exists v, A. split; auto. split; auto. split; [eapply nth_error_In; eauto|auto].
  - injection Wr as <- <-. unfold innerNew. apply wp_ret. split; [|reflexivity]. split; auto. exists nm1, F1. exact Af.
Qed.
(** The tables afterwards. *)
Lemma wrel_after x R2 r s2 : gives_object x R2 r s2 ->
  fst (out_w H r) = x /\ (exists nm' F', after E F s R2 (the_env r) nm' F' s2) /\ wrel (snd (out_w H r)) (the_env r) s2.
Proof.
  intros [(Hx & nm' & F' & Af) No]. split; auto. split; [eauto|]. pose proof (af_ext _ _ _ _ _ _ _ _ Af) as (c & X & _).
  assert (Old : forall h w, nth_error (hw H) h = Some w -> exists v A, nth_error (eh E) h = Some v /\ hm H w = Some v /\ inrA s2 A w sizeof_wrapper /\ In A (ea E)).
  { intros h w Hh. destruct (wr_val _ _ _ Rl h w Hh) as (v & A & V1 & V2 & V3 & V4). exists v, A. split; auto. split; auto. split; auto. now apply (x_inr _ _ _ _ _ X). }
  destruct r as [[w|] W']; unfold the_env, out_w, new_object in *; cbn [fst snd] in *.
  - destruct No as (v & A & -> & Hi & Ha & Fr). rewrite upd_eq. constructor; cbn [hw ha hm eh ea].
    + rewrite !app_length, (wr_len _ _ _ Rl). reflexivity.
    + apply Rl.
    + intros h w0 Hh. destruct (Nat.lt_ge_cases h (length (hw H))) as [L|L].
      * rewrite nth_error_app1 in Hh by auto. destruct (Old h w0 Hh) as (v0 & A0 & V1 & V2 & V3 & V4). exists v0, A0. split; [|split; auto].
        -- rewrite nth_error_app1; auto. rewrite <- (wr_len _ _ _ Rl). auto.
        -- rewrite upd_neq; auto. apply Fr. eapply nth_error_In; eauto.
      * rewrite nth_error_app2 in Hh by auto. destruct (h - length (hw H))%nat as [|d] eqn:Ed; [|now destruct d]. cbn in Hh. injection Hh as <-.
        exists v, A. split; [|split; auto using upd_eq]. rewrite nth_error_app2 by (rewrite <- (wr_len _ _ _ Rl); auto). now rewrite <- (wr_len _ _ _ Rl), Ed.
  - constructor; [apply Rl|apply Rl|exact Old].
Qed.
End Wrap.

(** Lending, with something about the allocators. *)
Lemma lend_wp2 {VV : vols} {NN : need} R E nm F s bs : sim R E nm F s -> lenN bs < two32 ->
  forall X (m : addr -> M X) P R' E' (Q : X -> st -> Prop), (forall x s1 s2, sallocs s2 = sallocs s1 -> Q x s1 -> Q x s2) ->
  (forall (V' : vols) p s1, buffered s bs p s1 -> @sim V' R E nm F s1 -> wp (m p) s1 (fun x s' => @ends NN E F X P R' E' V' s1 x s' /\ Q x s')) ->
  wp (lend bs m) s (fun x s' => ends E F X P R' E' s x s' /\ Q x s').
Proof.
  intros S Hl X m P R' E' Q Ex K. pose proof (i_wf _ _ (sm_inv _ _ _ _ _ S)) as W.
  assert (L : wp (lend bs m) s (ends E F X P R' E' s)).
  { apply (lend_wp R E nm F s bs S Hl). intros V' p s1 B S1. eapply wp_mono; [apply (K V' p s1 B S1)|]. intros x s' [H _]. exact H. }
  destruct L as (x & s3 & El & En). exists x, s3. split; auto. split; auto.
  destruct (buffered_wp s bs W Hl) as (p & s1 & Eb & B). destruct (K VV p s1 B) as (x' & s2 & Em & _ & Hq); [eapply bf_sim; eauto|].
  unfold lend, bind in El. rewrite Eb, Em in El. unfold user_free in El. destruct (sbsize s2 (fst p)); [|discriminate]. injection El as <- <-.
  eapply Ex; [|exact Hq]. reflexivity.
Qed.

Section Step.
Variable jd : judge.
Hypothesis J : correct jd.
Definition hgoes {VV : vols} {NN : need} (E : env) (F : dom) (s : st) (x : answer) (R' : rst) (xh : answer * henv) (s' : st) : Prop :=
  fst xh = x /\ exists E' nm' F', @after VV NN E F s R' E' nm' F' s' /\ wrel (snd xh) E' s'.
(** What a call may take for the scratch string. *)
Definition hneed (hc : hcall) : N := match hc with HC c => cneed (as_c c) | HNew _ => 0 end.
Definition hsimulated (hc : hcall) : Prop := forall R x R', hrstep jd hc R = Some (x, R') ->
  exists f0, forall (VV : vols) E nm F s fuel H, (f0 <= fuel)%nat -> sim R E nm F s -> (hneed hc <> 0 -> cache_ready E s (hneed hc)) -> wrel H E s ->
    wp (hstep fuel hc H) s (@hgoes VV (hneed hc) E F s x R').

Lemma wrel_keep H E s s' c Dn Dv E' : wrel H E s -> ext Dn Dv c s s' -> eh E' = eh E -> incl (ea E) (ea E') -> wrel (mkH (hw H) (ea E') (hm H)) E' s'.
Proof.
  intros [L Ea K] X Eh In_. constructor; cbn [hw ha hm]; auto; [now rewrite Eh|]. intros h w Hh. destruct (K h w Hh) as (v & A & V1 & V2 & V3 & V4).
  exists v, A. rewrite Eh. split; auto. split; auto. split; [now apply (x_inr _ _ _ _ _ X)|now apply In_].
Qed.
Lemma wrel_ext H E s s' c Dn Dv : wrel H E s -> ext Dn Dv c s s' -> wrel H E s'.
Proof.
  intros [L Ea K] X. constructor; auto. intros h w Hh. destruct (K h w Hh) as (v & A & V1 & V2 & V3 & V4).
  exists v, A. split; auto. split; auto. split; auto. now apply (x_inr _ _ _ _ _ X).
Qed.
Lemma cstep_eh fuel c E s xe s' : makes_value c = false -> cstep fuel c E s = Ok (xe, s') -> eh (snd xe) = eh E.
Proof.
  intros V Ec. assert (G : Leak.gives (cstep fuel c E) (fun xe => eh (snd xe) = eh E)).
  { destruct c; try discriminate V; cbn [cstep]; repeat (apply Leak.gi_bind; intro); try (apply Leak.gi_env; reflexivity); apply Leak.gi_ret; reflexivity. }
  exact (G s xe s' Ec).
Qed.
Lemma as_c_plain c : makes_value (as_c c) = makes_value c.
Proof. destruct c; auto. destruct num, k; auto. Qed.
Lemma step_plain c : makes_value c = false -> hsimulated (HC c).
Proof.
  intros V R x R' St. unfold hrstep, plain in St. destruct (rstep jd (as_c c) R) as [[y R1]|] eqn:Er; [|discriminate].
  rewrite as_c_plain, V in St. injection St as -> ->. destruct (step jd J (as_c c) R x R' Er) as (f0 & _ & K). exists f0.
  intros VV E nm F s fuel H Hf S O Rl. destruct (K VV E nm F s fuel Hf S O) as ([y E'] & s' & Ec & Hy & nm' & F' & Af).
  cbn [fst snd] in *. subst y. eexists _, s'. split; [rewrite (plain_same H E s); auto; [rewrite Ec; reflexivity|apply S]|].
  split; [reflexivity|]. exists E', nm', F'. split; auto. cbn [snd]. destruct (af_ext _ _ _ _ _ _ _ _ Af) as (k & X & _).
  eapply wrel_keep; eauto; [|destruct (af_keep _ _ _ _ _ _ _ _ Af) as (lh & la & _ & Ea); rewrite Ea; apply incl_appl, incl_refl]. rewrite <- as_c_plain in V. exact (cstep_eh fuel (as_c c) E s _ s' V Ec).
Qed.

Lemma given {VV : vols} {NN : need} H E F s x R' (m : M (option addr * wmem)) : wrel H E s -> wp m s (gives_object H E F s x R') ->
  wp (r <- m ;; ret (out_w H r)) s (hgoes E F s x R').
Proof.
  intros Rl K. eapply wp_seq; [exact K|]. intros r s2 G. apply wp_ret. destruct (wrel_after H E F s Rl x R' r s2 G) as (Hx & (nm' & F' & Af) & Rl2).
  split; auto. exists (the_env E r), nm', F'. auto.
Qed.
Lemma on_wp X W s w v (m : addr -> M X) Q : points W s w v -> wp (m v) s Q -> wp (on W w m) s Q.
Proof. intros P (x & s' & Em & K). exists x, s'. rewrite (on_ok _ _ _ _ _ _ P). auto. Qed.
Lemma wof_wp H E s h X (m : addr -> M X) v Q : wfst s -> wrel H E s -> nth_error (eh E) h = Some v ->
  (forall w, points (hm H) s w v -> wp (m w) s Q) -> wp (w <- wof H h ;; m w) s Q.
Proof. intros W Rl Hv K. destruct (wrel_at H E s h v W Rl Hv) as (w & Hw & P). unfold wof. rewrite Hw. apply wp_bind, wp_ret. auto. Qed.
Lemma hof_inv E h (k : addr -> M (answer * env)) s Q : wp (v <- hof E h ;; k v) s Q -> exists v, nth_error (eh E) h = Some v /\ wp (k v) s Q.
Proof.
  intros (x & s' & E1 & K). unfold hof, bind, ret, fail in E1. destruct (nth_error (eh E) h) as [v|]; [|discriminate]. exists v. split; auto. exists x, s'. auto.
Qed.
Lemma out_inv {VV : vols} {NN : need} E F s x R' (m : M (option addr)) : wp (r <- m ;; ret (out_value E r)) s (goes E F s x R') ->
  wp m s (ends E F (option addr) (fun r => fst (out_value E r) = x) R' (fun r => snd (out_value E r)) s).
Proof.
  intros (xe & s' & E1 & K). unfold bind, ret in E1. destruct (m s) as [[r s1]|e] eqn:Em; [|discriminate]. injection E1 as <- <-. exists r, s1. auto.
Qed.
Lemma step_value c h (mv : nat -> addr -> M (option addr)) : makes_value c = true -> as_c c = c ->
  (forall fuel E, cstep fuel c E = (v <- hof E h ;; r <- mv fuel v ;; ret (out_value E r))) ->
  (forall fuel H, hstep fuel (HC c) H = (w <- wof H h ;; r <- on (hm H) w (fun v => r <- mv fuel v ;; innerNew (hm H) r) ;; ret (out_w H r))) ->
  hsimulated (HC c).
Proof.
  intros V Ac Ec Eh R x R' St. unfold hrstep, plain in St. rewrite Ac, V in St. destruct (rstep jd c R) as [[y R1]|] eqn:Er; [|discriminate].
  destruct (step jd J c R y R1 Er) as (f0 & _ & K). exists f0. intros VV E nm F s fuel H Hf S O Rl. cbn [hneed] in *. rewrite Ac in *.
  pose proof (K VV E nm F s fuel Hf S O) as Kc. rewrite Ec in Kc. rewrite Eh.
  apply hof_inv in Kc as (v & Hv & Kc). apply out_inv in Kc. apply (wof_wp H E s h _ _ v); auto; [apply S|]. intros w P.
  apply (given (NN := cneed c)); auto. apply (on_wp _ _ _ _ _ _ _ P). eapply wp_seq; [exact Kc|]. intros r s1 En. eapply wrap_wp; eauto.
Qed.
Lemma step_newValueIn A : hsimulated (HC (CNewValue A)).
Proof.
  intros R x R' St. unfold hrstep, plain in St. cbn [as_c makes_value] in St. destruct (rstep jd (CNewValue A) R) as [[y R1]|] eqn:Er; [|discriminate].
  destruct (step jd J _ R y R1 Er) as (f0 & _ & K). exists f0. intros VV E nm F s fuel H Hf S O Rl.
  pose proof (K VV E nm F s fuel Hf S O) as (xe & s1 & E1 & G). cbn [cstep hstep] in *.
  unfold haof. rewrite (wr_ha _ _ _ Rl). unfold aof in E1. destruct (nth_error (ea E) A) as [a|]; [|discriminate].
  apply wp_bind, wp_ret. apply (given (NN := cneed (CNewValue A))); auto. unfold w_NewValue_in. unfold bind, ret in E1. destruct (zj_NewValue a s) as [[v s2]|e] eqn:En; [|discriminate].
  injection E1 as <- <-. eapply wp_seq with (P := fun v' s' => v' = v /\ s' = s2); [exists v, s2; auto|]. intros ? ? (-> & ->).
  eapply wrap_wp; eauto. exact G.
Qed.
Lemma step_newValueOf h : hsimulated (HNew h).
Proof.
  intros R x R' St. unfold hrstep, plain in St. destruct (nth_error (rh R) h) as [[o k]|] eqn:Eh; [|discriminate]. cbn [makes_value] in St.
  destruct (rstep jd (CNewValue k) R) as [[y R1]|] eqn:Er; [|discriminate].
  destruct (step jd J _ R y R1 Er) as (f0 & _ & K). exists f0. intros VV E nm F s fuel H Hf S O Rl.
  pose proof (K VV E nm F s fuel Hf S O) as (xe & s1 & E1 & G). cbn [cstep hstep] in *.
  destruct (sm_handle _ _ _ _ _ S h o k Eh) as (v & A & Hv & HA & Sv & _). unfold aof in E1. rewrite HA in E1. unfold bind, ret in E1.
  destruct (zj_NewValue A s) as [[v' s2]|e] eqn:En; [|discriminate]. injection E1 as <- <-.
  apply (wof_wp H E s h _ _ v); auto; [apply S|]. intros w P. apply (given (NN := cneed (CNewValue k))); auto. unfold w_NewValue.
  apply (on_wp _ _ _ _ _ _ _ P). apply wp_bind, (wp_getVal _ _ _ _ Sv). cbn [vA].
  eapply wp_seq with (P := fun x s' => x = v' /\ s' = s2); [exists v', s2; auto|]. intros ? ? (-> & ->).
  destruct G as (Hy & nm1 & F1 & Af). cbn [fst snd out_value] in Hy, Af. subst y. cbn [wrapped fst snd] in St.
  pose proof (af_sim _ _ _ _ _ _ _ _ Af) as S1.
  assert (Erh : exists ru', R1 = new_value (mkR (rG R) (rn R) (rh R) ru') None k).
  { cbn [rstep] in Er. unfold spend in Er. destruct (nth_error (ru R) k); [|discriminate]. destruct (_ <=? _); [|discriminate]. injection Er as _ <-. eexists; reflexivity. }
  destruct Erh as (ru' & ->). cbn [new_value rh rG rn ru] in St. rewrite nth_error_app2 in St by (rewrite (sm_lh _ _ _ _ _ S); auto).
  rewrite (sm_lh _ _ _ _ _ S), Nat.sub_diag in St. cbn [nth_error] in St.
  destruct (spend _ k sizeof_wrapper) as [R2|] eqn:Sp in St; [|discriminate]. injection St as <- <-.
  destruct (sm_handle _ _ _ _ _ S1 h o k) as (v1 & A1 & V1 & V2 & V3 & _).
  { cbn [new_value rh]. rewrite nth_error_app1; auto. apply nth_error_Some. congruence. }
  cbn [eh ea] in V1, V2. rewrite nth_error_app1 in V1 by (apply nth_error_Some; congruence). assert (v1 = v) by congruence. assert (A1 = A) by congruence. subst v1 A1.
  apply wp_bind, (wp_getVal _ _ _ _ V3). cbn [vA].
  eapply wp_seq; [exact (wrap_alloc H E F s Rl _ nm1 F1 s2 v' k A R2 Af HA Sp)|]. intros w' s3 (Af2 & Hi & Fr). apply wp_ret. split.
  - split; [cbn; now rewrite (wr_len _ _ _ Rl), (sm_lh _ _ _ _ _ S)|]. exists nm1, F1. unfold the_env. cbn [fst snd]. rewrite upd_eq. exact Af2.
  - exists v', A. split; auto. split; auto. split; [eapply nth_error_In; eauto|auto].
Qed.
Lemma step_objGetW len h k : hsimulated (HC (CObjGet len h k)).
Proof.
  intros R x R' St. unfold hrstep, plain in St. cbn [as_c makes_value] in St. destruct (rstep jd (CObjGet len h k) R) as [[y R1]|] eqn:Er; [|discriminate].
  destruct (objGet_in jd _ _ _ _ _ _ Er) as (f0 & _ & Fi & K). exists f0. intros VV E nm F s fuel H Hf S O Rl. cbn [hstep].
  cbn [rstep] in Er. destruct (look R h) as [[wo kk]|] eqn:L; [|discriminate].
  destruct (look_handle _ _ _ _ _ _ _ _ S L) as (v & A & Hv & _). pose proof (i_wf _ _ (sm_inv _ _ _ _ _ S)) as W. clear Er.
  apply (wof_wp H E s h _ _ v); auto. intros w P. apply (given (NN := 0)); auto.
  assert (Q : forall (V' : vols) p s1, buffered s (if len then k else k ++ [0]) p s1 -> @sim V' R E nm F s1 ->
    wp (on (hm H) w (fun v => r <- obj_get len fuel v p (lenN k) ;; innerNew (hm H) r)) s1 (@gives_object V' 0 H E F s1 x R')).
  { intros V' p s1 B S1. assert (Rl1 : wrel H E s1) by (eapply wrel_ext; [exact Rl|apply B]).
    assert (P1 : points (hm H) s1 w v) by (split; [destruct P as [P0 _]; destruct (sbsize s (fst w)) as [n|] eqn:En; [|now elim P0]; rewrite (x_size _ _ _ _ _ (bf_ext _ _ _ _ B) _ _ En); discriminate|apply P]).
    apply (on_wp _ _ _ _ v); auto. eapply wp_seq; [exact (K VV 0 E nm F s fuel v Hf S Hv V' p s1 B S1)|]. intros r s2 En. eapply wrap_wp; eauto. }
  assert (Q2 : wp (lend (if len then k else k ++ [0]) (fun p => on (hm H) w (fun v => r <- obj_get len fuel v p (lenN k) ;; innerNew (hm H) r))) s (@gives_object VV 0 H E F s x R')).
  { apply (lend_wp2 R E nm F s); auto. intros r s1 s2 Ea. unfold new_object, inrA. now rewrite Ea. }
  unfold obj_get in Q2. destruct len; exact Q2.
Qed.
Theorem hstep_ok hc : hsimulated hc.
Proof.
  destruct hc as [c|h]; [|apply step_newValueOf]. destruct (makes_value c) eqn:V; [|now apply step_plain].
  destruct c; try discriminate V; auto using step_newValueIn, step_objGetW.
  - now apply (step_value _ h (fun fuel v => zj_ArrayGet fuel v i)).
  - now apply (step_value _ h (fun fuel v => zj_Begin v)).
  - now apply (step_value _ h (fun fuel v => zj_Next v)).
  - now apply (step_value _ h (fun fuel v => zj_Copy fuel v)).
Qed.

Theorem hrun_ok cs : forall R rs R', hrrun jd cs R = Some (rs, R') ->
  exists f0, forall (VV : vols) E nm F s fuel H, (f0 <= fuel)%nat -> sim R E nm F s -> cache_own E s -> wrel H E s ->
    wp (hrun fuel cs H) s (fun re s' => fst re = rs /\ exists E' nm' F', sim R' E' nm' F' s' /\ cache_own E' s' /\ wrel (snd re) E' s').
Proof.
  induction cs as [|c cs IH]; intros R rs R' St; cbn [hrrun] in St.
  - injection St as <- <-. exists 0%nat. intros VV E nm F s fuel H _ S O Rl. apply wp_ret. cbn. split; auto. exists E, nm, F. auto.
  - destruct (hrstep jd c R) as [[x R1]|] eqn:E1; [|discriminate]. destruct (hrrun jd cs R1) as [[xs R2]|] eqn:E2; [|discriminate]. injection St as <- <-.
    destruct (hstep_ok c R x R1 E1) as (f1 & K1). destruct (IH R1 xs R2 E2) as (f2 & K2). exists (Nat.max f1 f2).
    intros VV E nm F s fuel H Hf S O Rl. cbn [hrun]. apply wp_bind. eapply wp_mono; [apply (K1 VV E nm F s fuel H); auto; [lia|intros _; now apply own_ready]|].
    intros xe s1 (Hx & E' & nm1 & F1 & Af & Rl1). apply wp_bind.
    eapply wp_mono; [apply (K2 VV E' nm1 F1 s1 fuel); [lia|apply (af_sim _ _ _ _ _ _ _ _ Af)|eapply own_after; eauto|auto]|].
    intros re s2 (Hr & K). apply wp_ret. cbn [fst snd]. split; [congruence|]. exact K.
Qed.
End Step.
