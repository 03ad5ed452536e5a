(** The calls of Hist.v, run on the model of the code.

    A program keeps its value objects and allocators in tables.  A text argument is
    put into a new buffer of the caller ([user_buf]).  For the calls that copy their
    argument the caller frees the buffer right after the call; for the Fast calls it
    stays.  Pointer results are read as C strings, the results of the Fast getters
    with the length that comes with them. *)
From Verif Require Import Base Spec Lex Alloc Mem Api Double Vocab Scene Dom Hist.

Record env := mkE {
  eh : list addr;       (* the value objects *)
  ea : list N           (* the allocators *)
}.
Definition estart : env := mkE [] [].

Definition hof (E : env) (h : nat) : M addr := match nth_error (eh E) h with Some v => ret v | None => fail EDeref end.
Definition aof (E : env) (A : nat) : M N := match nth_error (ea E) A with Some a => ret a | None => fail EDeref end.

(** A call with a text argument whose buffer is freed afterwards. *)
Definition lend {X} (t : bytes) (m : addr -> M X) : M X :=
  p <- user_buf t ;; r <- m p ;; user_free (fst p) ;;; ret r.
Definition keep {X} (t : bytes) (m : addr -> M X) : M X := p <- user_buf t ;; m p.

Definition out_text (o : option word) : M answer :=
  match o with
  | None => ret (Text None)
  | Some w => b <- cstr_at w ;; ret (Text (Some b))
  end.
Definition out_view (o : option (word * N)) : M answer :=
  match o with
  | None => ret (Text None)
  | Some (w, n) => b <- load_w w n ;; ret (Text (Some b))
  end.
Definition out_value (E : env) (o : option addr) : answer * env :=
  match o with
  | None => (Value None, E)
  | Some v => (Value (Some (length (eh E))), mkE (eh E ++ [v]) (ea E))
  end.

Definition set_text_call (num : bool) (k : text_kind) (v p : addr) (n : N) : M bool :=
  match num, k with
  | true, KCopy => zj_SetNumStr v p
  | true, KFast => zj_SetNumStrFast v p
  | true, KLen => zj_SetNumStrLen v p n
  | true, KLenFast => zj_SetNumStrLenFast v p n
  | false, KCopy => zj_SetStr v p
  | false, KFast => zj_SetStrFast v p
  | false, KLen => zj_SetStrLen v p n
  | false, KLenFast => zj_SetStrLenFast v p n
  end.
Definition set_key_call (k : text_kind) (v p : addr) (n : N) : M bool :=
  match k with
  | KCopy => zj_SetKey v p
  | KFast => zj_SetKeyFast v p
  | KLen => zj_SetKeyLen v p n
  | KLenFast => zj_SetKeyLenFast v p n
  end.
(** The buffer for a text: 0-terminated unless its length is passed. *)
Definition kbuf (k : text_kind) (t : bytes) : bytes := match k with KCopy | KFast => t ++ [0] | _ => t end.
Definition kept_kind (k : text_kind) : bool := match k with KFast | KLenFast => true | _ => false end.
Definition pass {X} (kept : bool) (t : bytes) (m : addr -> M X) : M X := if kept then keep t m else lend t m.

Definition with_env {X} (E : env) (f : X -> answer) (m : M X) : M (answer * env) := x <- m ;; ret (f x, E).

Definition cstep (fuel : nat) (c : call) (E : env) : M (answer * env) :=
  match c with
  | CNewAllocator => A <- zj_NewAllocator ;; ret (Arena (length (ea E)), mkE (eh E) (ea E ++ [A]))
  | CNewValue A => a <- aof E A ;; v <- zj_NewValue a ;; ret (out_value E (Some v))
  | CParse k h t pad =>
      v <- hof E h ;;
      with_env E Bool
        (match k with
         | PCopy => lend (t ++ 0 :: pad) (fun p => zj_Parse v p)
         | PFast => keep (t ++ 0 :: pad) (fun p => zj_ParseFast v p)
         | PLen => lend t (fun p => zj_ParseLen v p (lenN t))
         end)
  | CSetNull h => v <- hof E h ;; with_env E (fun _ => Done) (zj_SetNull v)
  | CSetBool h b => v <- hof E h ;; with_env E (fun _ => Done) (zj_SetBool v b)
  | CSetCont ob h => v <- hof E h ;; with_env E (fun _ => Done) (if ob then zj_SetObj v else zj_SetArray v)
  | CSetText num k h t =>
      v <- hof E h ;;
      with_env E Bool (pass (kept_kind k) (kbuf k t) (fun p => set_text_call num k v p (lenN t)))
  | CSetInt h z => v <- hof E h ;; with_env E Bool (zj_SetInt v z)
  | CSetLong h z => v <- hof E h ;; with_env E Bool (zj_SetLong v z)
  | CSetLongLong h z => v <- hof E h ;; with_env E Bool (zj_SetLongLong v z)
  | CSetDouble h d => v <- hof E h ;; with_env E Bool (zj_SetDouble v d)
  | CSetEscape len h t =>
      v <- hof E h ;;
      with_env E Bool (if len then lend t (fun p => zj_SetStrLenEscape v p (lenN t))
                       else lend (t ++ [0]) (fun p => zj_SetStrEscape v p))
  | CSetKey k h t =>
      v <- hof E h ;;
      with_env E Bool (pass (kept_kind k) (kbuf k t) (fun p => set_key_call k v p (lenN t)))
  | CSetKeyEscape len h t =>
      v <- hof E h ;;
      with_env E Bool (if len then lend t (fun p => zj_SetKeyLenEscape v p (lenN t))
                       else lend (t ++ [0]) (fun p => zj_SetKeyEscape v p))
  | CGetType h => v <- hof E h ;; with_env E Type_ (zj_Type v)
  | CSize h => v <- hof E h ;; with_env E Num (zj_SizeOf v)
  | CIsNull h => v <- hof E h ;; with_env E Bool (zj_IsNull v)
  | CGetBool h => v <- hof E h ;; with_env E OBool (zj_GetBool v)
  | CGetText num fast h =>
      v <- hof E h ;;
      with_env E (fun x => x)
        (if fast then r <- (if num then zj_GetNumFast v else zj_GetStrFast v) ;; out_view r
         else r <- (if num then zj_GetNumStr v else zj_GetStr v) ;; out_text r)
  | CGetUnEscape h => v <- hof E h ;; with_env E (fun x => x) (r <- zj_GetUnEscapeStr v ;; out_text r)
  | CGetInt h => v <- hof E h ;; with_env E Int (zj_GetInt v)
  | CGetLong h => v <- hof E h ;; with_env E Int (zj_GetLong v)
  | CGetLongLong h => v <- hof E h ;; with_env E Int (zj_GetLongLong v)
  | CGetDouble h => v <- hof E h ;; with_env E Real (zj_GetDouble v)
  | CGetKey fast h =>
      v <- hof E h ;;
      with_env E (fun x => x) (if fast then r <- zj_GetKeyFast v ;; out_view r else r <- zj_GetKey v ;; out_text r)
  | CGetUnEscapeKey h => v <- hof E h ;; with_env E (fun x => x) (r <- zj_GetUnEscapeKey v ;; out_text r)
  | CStringify h => v <- hof E h ;; with_env E (fun x => x) (w <- zj_Stringify fuel v ;; out_text (Some w))
  | CObjGet len h k =>
      v <- hof E h ;;
      r <- (if len then lend k (fun p => zj_ObjGetLen fuel v p (lenN k))
            else lend (k ++ [0]) (fun p => zj_ObjGet fuel v p)) ;;
      ret (out_value E r)
  | CArrayGet h i => v <- hof E h ;; r <- zj_ArrayGet fuel v i ;; ret (out_value E r)
  | CBegin h => v <- hof E h ;; r <- zj_Begin v ;; ret (out_value E r)
  | CNext h => v <- hof E h ;; r <- zj_Next v ;; ret (out_value E r)
  | CCopy h => v <- hof E h ;; r <- zj_Copy fuel v ;; ret (out_value E r)
  | CMove h => v <- hof E h ;; with_env E Bool (zj_Move v)
  | CAdd ob fast h hv =>
      v <- hof E h ;; vv <- hof E hv ;;
      with_env E Bool
        (match ob, fast with
         | true, true => zj_ObjAddFast v vv
         | true, false => zj_ObjAdd fuel v vv
         | false, true => zj_ArrayAddFast v vv
         | false, false => zj_ArrayAdd fuel v vv
         end)
  | CSet fast h hv =>
      v <- hof E h ;; vv <- hof E hv ;;
      with_env E Bool (if fast then zj_SetFast fuel v vv else zj_Set fuel v vv)
  | CArrayDel h i => v <- hof E h ;; with_env E Bool (zj_ArrayDel fuel v i)
  | CObjDel h k => v <- hof E h ;; with_env E Bool (lend (k ++ [0]) (fun p => zj_ObjDel fuel v p))
  end.

Fixpoint crun (fuel : nat) (cs : list call) (E : env) : M (list answer * env) :=
  match cs with
  | [] => ret ([], E)
  | c :: r => xe <- cstep fuel c E ;; re <- crun fuel r (snd xe) ;; ret (fst xe :: fst re, snd re)
  end.
