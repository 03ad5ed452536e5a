(** The short names of the functions of the beta header.

    With z_SHORT_API 1 (the default) beta/zzzjson_beta.h gives every function a short name
    (/repo/beta/zzzjson_beta.h:230-343).  Here each is defined as it is written there; where the
    model of the function has another name (functions that are as in zzzjson.h, or do not touch
    the caches), the comment says which function is called. *)
From Verif Require Import Base Spec Lex Alloc Mem MemProofs Api Double Dom Scene Client Hist HistRun HistSim HistStep HistAll HistMany HistWorld Beta BetaHist BetaSim BetaLeak BetaWorld BetaClient Keep KeepWorld BetaKeepWorld BetaKeepCover Names.

(** beta 230: z_AllocatorNew *)
Definition b_NewAllocator : M N := zj_NewAllocator.
(** beta 231-233: z_AllocatorRelease *)
Definition b_ReleaseAllocator (A : N) : M unit := zj_ReleaseAllocator A.
(** beta 234 *)
Definition b_NewValue (B : bmem) (A : N) : M (addr * bmem) := z_ValueNew B A.
(** beta 235-237 *)
Definition b_ParseFast (B : bmem) (v : addr) (p : addr) : M (bool * bmem) := z_ValueParseFast B v p.
(** beta 241 *)
Definition b_Parse (B : bmem) (v : addr) (p : addr) : M (bool * bmem) := z_ValueParse B v p.
(** beta 238-240 *)
Definition b_ParseLen (B : bmem) (v : addr) (p : addr) (n : N) : M (bool * bmem) := z_ValueParseLen B v p n.
(** beta 242-244: z_ValueStringify *)
Definition b_Stringify (fuel : nat) (v : addr) : M word := zj_Stringify fuel v.
(** beta 245-247: z_ValueGetStringFast *)
Definition b_GetStringFast (v : addr) : M (option (word * N)) := zj_GetStrFast v.
(** beta 252-254: z_ValueGetNumFast *)
Definition b_GetNumFast (v : addr) : M (option (word * N)) := zj_GetNumFast v.
(** beta 263-265: z_ValueGetKeyFast *)
Definition b_GetKeyFast (v : addr) : M (option (word * N)) := zj_GetKeyFast v.
(** beta 248-250 *)
Definition b_GetUnEscapeString (B : bmem) (v : addr) : M (option word * bmem) := z_ValueGetUnEscapeString B v.
(** beta 251 *)
Definition b_GetString (B : bmem) (v : addr) : M (option word * bmem) := z_ValueGetString B v.
(** beta 255 *)
Definition b_GetNumStr (B : bmem) (v : addr) : M (option word * bmem) := z_ValueGetNumStr B v.
(** beta 259 *)
Definition b_GetKey (B : bmem) (v : addr) : M (option word * bmem) := z_ValueGetKey B v.
(** beta 260-262 *)
Definition b_GetUnEscapeKey (B : bmem) (v : addr) : M (option word * bmem) := z_ValueGetUnEscapeKey B v.
(** beta 256 *)
Definition b_GetNum (B : bmem) (v : addr) : M (option (addr * option double) * bmem) := z_ValueGetNum B v.
(** beta 257: z_ValueGetBool *)
Definition b_GetBool (v : addr) : M (option bool) := zj_GetBool v.
(** beta 258: z_ValueIsNull *)
Definition b_IsNull (v : addr) : M bool := zj_IsNull v.
(** beta 266-268 *)
Definition b_ObjGet (fuel : nat) (B : bmem) (v : addr) (p : addr) : M (option addr * bmem) := z_ValueObjGet fuel B v p.
(** beta 269-271 *)
Definition b_ObjGetLen (fuel : nat) (B : bmem) (v : addr) (p : addr) (n : N) : M (option addr * bmem) := z_ValueObjGetLen fuel B v p n.
(** beta 272: z_ValueType *)
Definition b_Type (v : addr) : M (option jtype) := zj_Type v.
(** beta 273: z_ValueSize *)
Definition b_Size (v : addr) : M N := zj_SizeOf v.
(** beta 274-276 *)
Definition b_ArrayGet (fuel : nat) (B : bmem) (v : addr) (n : N) : M (option addr * bmem) := z_ValueArrayGet fuel B v n.
(** beta 277 *)
Definition b_Begin (B : bmem) (v : addr) : M (option addr * bmem) := z_ValueBegin B v.
(** beta 278 *)
Definition b_Next (B : bmem) (v : addr) : M (option addr * bmem) := z_ValueNext B v.
(** beta 279 *)
Definition b_Copy (fuel : nat) (B : bmem) (v : addr) : M (option addr * bmem) := z_ValueCopy fuel B v.
(** beta 280: z_ValueMove *)
Definition b_Move (v : addr) : M bool := zj_Move v.
(** beta 281 *)
Definition b_SetNull (B : bmem) (v : addr) : M (unit * bmem) := z_ValueSetNull B v.
(** beta 322 *)
Definition b_SetArray (B : bmem) (v : addr) : M (unit * bmem) := z_ValueSetArray B v.
(** beta 323 *)
Definition b_SetObj (B : bmem) (v : addr) : M (unit * bmem) := z_ValueSetObj B v.
(** beta 282 *)
Definition b_SetBool (B : bmem) (v : addr) (b : bool) : M (unit * bmem) := z_ValueSetBool B v b.
(** beta 283-285 *)
Definition b_SetNumStrFast (B : bmem) (v : addr) (p : addr) : M (bool * bmem) := z_ValueSetNumStrFast B v p.
(** beta 289-291 *)
Definition b_SetNumStr (B : bmem) (v : addr) (p : addr) : M (bool * bmem) := z_ValueSetNumStr B v p.
(** beta 298-300 *)
Definition b_SetStrFast (B : bmem) (v : addr) (p : addr) : M (bool * bmem) := z_ValueSetStrFast B v p.
(** beta 304-306 *)
Definition b_SetStr (B : bmem) (v : addr) (p : addr) : M (bool * bmem) := z_ValueSetStr B v p.
(** beta 310-312 *)
Definition b_SetKeyFast (B : bmem) (v : addr) (p : addr) : M (bool * bmem) := z_ValueSetKeyFast B v p.
(** beta 316-318 *)
Definition b_SetKey (B : bmem) (v : addr) (p : addr) : M (bool * bmem) := z_ValueSetKey B v p.
(** beta 286-288 *)
Definition b_SetNumStrLenFast (B : bmem) (v : addr) (p : addr) (n : N) : M (bool * bmem) := z_ValueSetNumStrLenFast B v p n.
(** beta 292-294 *)
Definition b_SetNumStrLen (B : bmem) (v : addr) (p : addr) (n : N) : M (bool * bmem) := z_ValueSetNumStrLen B v p n.
(** beta 301-303 *)
Definition b_SetStrLenFast (B : bmem) (v : addr) (p : addr) (n : N) : M (bool * bmem) := z_ValueSetStrLenFast B v p n.
(** beta 307-309 *)
Definition b_SetStrLen (B : bmem) (v : addr) (p : addr) (n : N) : M (bool * bmem) := z_ValueSetStrLen B v p n.
(** beta 313-315 *)
Definition b_SetKeyLenFast (B : bmem) (v : addr) (p : addr) (n : N) : M (bool * bmem) := z_ValueSetKeyLenFast B v p n.
(** beta 319-321 *)
Definition b_SetKeyLen (B : bmem) (v : addr) (p : addr) (n : N) : M (bool * bmem) := z_ValueSetKeyLen B v p n.
(** beta 295-297 *)
Definition b_SetNum (B : bmem) (v : addr) (d : double) : M (bool * bmem) := z_ValueSetNum B v d.
(** beta 324-326 *)
Definition b_SetFast (fuel : nat) (B : bmem) (v : addr) (w : addr) : M (bool * bmem) := z_ValueSetFast fuel B v w.
(** beta 327 *)
Definition b_Set (fuel : nat) (B : bmem) (v : addr) (w : addr) : M (bool * bmem) := z_ValueSet fuel B v w.
(** beta 328-330 *)
Definition b_ObjAddFast (B : bmem) (v : addr) (w : addr) : M (bool * bmem) := z_ValueObjAddFast B v w.
(** beta 334-336 *)
Definition b_ArrayAddFast (B : bmem) (v : addr) (w : addr) : M (bool * bmem) := z_ValueArrayAddFast B v w.
(** beta 331-333: z_ValueObjAdd *)
Definition b_ObjAdd (fuel : nat) (v : addr) (w : addr) : M bool := z_obj_add fuel v w.
(** beta 337-339: z_ValueArrayAdd *)
Definition b_ArrayAdd (fuel : nat) (v : addr) (w : addr) : M bool := z_array_add fuel v w.
(** beta 340-342: z_ValueArrayDel *)
Definition b_ArrayDel (fuel : nat) (v : addr) (n : N) : M bool := z_array_del fuel v n.
(** beta 343-345: z_ValueObjDel *)
Definition b_ObjDel (fuel : nat) (v : addr) (p : addr) : M bool := z_obj_del fuel v p.

(** ** Choices of functions *)
Record zapi := mkZapi {
  g_NewAllocator : M N;
  g_ReleaseAllocator : N -> M unit;
  g_NewValue : bmem -> N -> M (addr * bmem);
  g_ParseFast : bmem -> addr -> addr -> M (bool * bmem);
  g_Parse : bmem -> addr -> addr -> M (bool * bmem);
  g_ParseLen : bmem -> addr -> addr -> N -> M (bool * bmem);
  g_Stringify : nat -> addr -> M word;
  g_GetStringFast : addr -> M (option (word * N));
  g_GetNumFast : addr -> M (option (word * N));
  g_GetKeyFast : addr -> M (option (word * N));
  g_GetUnEscapeString : bmem -> addr -> M (option word * bmem);
  g_GetString : bmem -> addr -> M (option word * bmem);
  g_GetNumStr : bmem -> addr -> M (option word * bmem);
  g_GetKey : bmem -> addr -> M (option word * bmem);
  g_GetUnEscapeKey : bmem -> addr -> M (option word * bmem);
  g_GetNum : bmem -> addr -> M (option (addr * option double) * bmem);
  g_GetBool : addr -> M (option bool);
  g_IsNull : addr -> M bool;
  g_ObjGet : nat -> bmem -> addr -> addr -> M (option addr * bmem);
  g_ObjGetLen : nat -> bmem -> addr -> addr -> N -> M (option addr * bmem);
  g_Type : addr -> M (option jtype);
  g_Size : addr -> M N;
  g_ArrayGet : nat -> bmem -> addr -> N -> M (option addr * bmem);
  g_Begin : bmem -> addr -> M (option addr * bmem);
  g_Next : bmem -> addr -> M (option addr * bmem);
  g_Copy : nat -> bmem -> addr -> M (option addr * bmem);
  g_Move : addr -> M bool;
  g_SetNull : bmem -> addr -> M (unit * bmem);
  g_SetArray : bmem -> addr -> M (unit * bmem);
  g_SetObj : bmem -> addr -> M (unit * bmem);
  g_SetBool : bmem -> addr -> bool -> M (unit * bmem);
  g_SetNumStrFast : bmem -> addr -> addr -> M (bool * bmem);
  g_SetNumStr : bmem -> addr -> addr -> M (bool * bmem);
  g_SetStrFast : bmem -> addr -> addr -> M (bool * bmem);
  g_SetStr : bmem -> addr -> addr -> M (bool * bmem);
  g_SetKeyFast : bmem -> addr -> addr -> M (bool * bmem);
  g_SetKey : bmem -> addr -> addr -> M (bool * bmem);
  g_SetNumStrLenFast : bmem -> addr -> addr -> N -> M (bool * bmem);
  g_SetNumStrLen : bmem -> addr -> addr -> N -> M (bool * bmem);
  g_SetStrLenFast : bmem -> addr -> addr -> N -> M (bool * bmem);
  g_SetStrLen : bmem -> addr -> addr -> N -> M (bool * bmem);
  g_SetKeyLenFast : bmem -> addr -> addr -> N -> M (bool * bmem);
  g_SetKeyLen : bmem -> addr -> addr -> N -> M (bool * bmem);
  g_SetNum : bmem -> addr -> double -> M (bool * bmem);
  g_SetFast : nat -> bmem -> addr -> addr -> M (bool * bmem);
  g_Set : nat -> bmem -> addr -> addr -> M (bool * bmem);
  g_ObjAddFast : bmem -> addr -> addr -> M (bool * bmem);
  g_ArrayAddFast : bmem -> addr -> addr -> M (bool * bmem);
  g_ObjAdd : nat -> addr -> addr -> M bool;
  g_ArrayAdd : nat -> addr -> addr -> M bool;
  g_ArrayDel : nat -> addr -> N -> M bool;
  g_ObjDel : nat -> addr -> addr -> M bool
}.
Definition zlong_api : zapi := {|
  g_NewAllocator := zj_NewAllocator;
  g_ReleaseAllocator := zj_ReleaseAllocator;
  g_NewValue := z_ValueNew;
  g_ParseFast := z_ValueParseFast;
  g_Parse := z_ValueParse;
  g_ParseLen := z_ValueParseLen;
  g_Stringify := zj_Stringify;
  g_GetStringFast := zj_GetStrFast;
  g_GetNumFast := zj_GetNumFast;
  g_GetKeyFast := zj_GetKeyFast;
  g_GetUnEscapeString := z_ValueGetUnEscapeString;
  g_GetString := z_ValueGetString;
  g_GetNumStr := z_ValueGetNumStr;
  g_GetKey := z_ValueGetKey;
  g_GetUnEscapeKey := z_ValueGetUnEscapeKey;
  g_GetNum := z_ValueGetNum;
  g_GetBool := zj_GetBool;
  g_IsNull := zj_IsNull;
  g_ObjGet := z_ValueObjGet;
  g_ObjGetLen := z_ValueObjGetLen;
  g_Type := zj_Type;
  g_Size := zj_SizeOf;
  g_ArrayGet := z_ValueArrayGet;
  g_Begin := z_ValueBegin;
  g_Next := z_ValueNext;
  g_Copy := z_ValueCopy;
  g_Move := zj_Move;
  g_SetNull := z_ValueSetNull;
  g_SetArray := z_ValueSetArray;
  g_SetObj := z_ValueSetObj;
  g_SetBool := z_ValueSetBool;
  g_SetNumStrFast := z_ValueSetNumStrFast;
  g_SetNumStr := z_ValueSetNumStr;
  g_SetStrFast := z_ValueSetStrFast;
  g_SetStr := z_ValueSetStr;
  g_SetKeyFast := z_ValueSetKeyFast;
  g_SetKey := z_ValueSetKey;
  g_SetNumStrLenFast := z_ValueSetNumStrLenFast;
  g_SetNumStrLen := z_ValueSetNumStrLen;
  g_SetStrLenFast := z_ValueSetStrLenFast;
  g_SetStrLen := z_ValueSetStrLen;
  g_SetKeyLenFast := z_ValueSetKeyLenFast;
  g_SetKeyLen := z_ValueSetKeyLen;
  g_SetNum := z_ValueSetNum;
  g_SetFast := z_ValueSetFast;
  g_Set := z_ValueSet;
  g_ObjAddFast := z_ValueObjAddFast;
  g_ArrayAddFast := z_ValueArrayAddFast;
  g_ObjAdd := z_obj_add;
  g_ArrayAdd := z_array_add;
  g_ArrayDel := z_array_del;
  g_ObjDel := z_obj_del
|}.
Definition zshort_api : zapi := {|
  g_NewAllocator := b_NewAllocator;
  g_ReleaseAllocator := b_ReleaseAllocator;
  g_NewValue := b_NewValue;
  g_ParseFast := b_ParseFast;
  g_Parse := b_Parse;
  g_ParseLen := b_ParseLen;
  g_Stringify := b_Stringify;
  g_GetStringFast := b_GetStringFast;
  g_GetNumFast := b_GetNumFast;
  g_GetKeyFast := b_GetKeyFast;
  g_GetUnEscapeString := b_GetUnEscapeString;
  g_GetString := b_GetString;
  g_GetNumStr := b_GetNumStr;
  g_GetKey := b_GetKey;
  g_GetUnEscapeKey := b_GetUnEscapeKey;
  g_GetNum := b_GetNum;
  g_GetBool := b_GetBool;
  g_IsNull := b_IsNull;
  g_ObjGet := b_ObjGet;
  g_ObjGetLen := b_ObjGetLen;
  g_Type := b_Type;
  g_Size := b_Size;
  g_ArrayGet := b_ArrayGet;
  g_Begin := b_Begin;
  g_Next := b_Next;
  g_Copy := b_Copy;
  g_Move := b_Move;
  g_SetNull := b_SetNull;
  g_SetArray := b_SetArray;
  g_SetObj := b_SetObj;
  g_SetBool := b_SetBool;
  g_SetNumStrFast := b_SetNumStrFast;
  g_SetNumStr := b_SetNumStr;
  g_SetStrFast := b_SetStrFast;
  g_SetStr := b_SetStr;
  g_SetKeyFast := b_SetKeyFast;
  g_SetKey := b_SetKey;
  g_SetNumStrLenFast := b_SetNumStrLenFast;
  g_SetNumStrLen := b_SetNumStrLen;
  g_SetStrLenFast := b_SetStrLenFast;
  g_SetStrLen := b_SetStrLen;
  g_SetKeyLenFast := b_SetKeyLenFast;
  g_SetKeyLen := b_SetKeyLen;
  g_SetNum := b_SetNum;
  g_SetFast := b_SetFast;
  g_Set := b_Set;
  g_ObjAddFast := b_ObjAddFast;
  g_ArrayAddFast := b_ArrayAddFast;
  g_ObjAdd := b_ObjAdd;
  g_ArrayAdd := b_ArrayAdd;
  g_ArrayDel := b_ArrayDel;
  g_ObjDel := b_ObjDel
|}.
Definition zapi_of (short : bool) : zapi := if short then zshort_api else zlong_api.

(** ** Calls: as in BetaHist.v *)
Definition nzset_text (a : zapi) (B : bmem) (num : bool) (k : text_kind) (v p : addr) (n : N) : M (bool * bmem) :=
  match num, k with
  | true, KCopy => g_SetNumStr a B v p
  | true, KFast => g_SetNumStrFast a B v p
  | true, KLen => g_SetNumStrLen a B v p n
  | true, KLenFast => g_SetNumStrLenFast a B v p n
  | false, KCopy => g_SetStr a B v p
  | false, KFast => g_SetStrFast a B v p
  | false, KLen => g_SetStrLen a B v p n
  | false, KLenFast => g_SetStrLenFast a B v p n
  end.
Definition nzset_key (a : zapi) (B : bmem) (k : text_kind) (v p : addr) (n : N) : M (bool * bmem) :=
  match k with
  | KCopy => g_SetKey a B v p
  | KFast => g_SetKeyFast a B v p
  | KLen => g_SetKeyLen a B v p n
  | KLenFast => g_SetKeyLenFast a B v p n
  end.
Definition nbstep (a : zapi) (fuel : nat) (c : call) (E : env) (B : bmem) : M ((answer * env) * bmem) :=
  match c with
  | CNewAllocator => same B (A <- g_NewAllocator a ;; ret (Arena (length (ea E)), mkE (eh E) (ea E ++ [A])))
  | CNewValue A => x <- aof E A ;; vb <- g_NewValue a B x ;; ret (out_value E (Some (fst vb)), snd vb)
  | CParse k h t pad =>
      v <- hof E h ;;
      with_envB E Bool
        (keep (pbuf k t pad) (fun p => match k with
                                       | PCopy => g_Parse a B v p
                                       | PFast => g_ParseFast a B v p
                                       | PLen => g_ParseLen a B v p (lenN t)
                                       end))
  | CSetNull h => v <- hof E h ;; with_envB E (fun _ => Done) (g_SetNull a B v)
  | CSetBool h b => v <- hof E h ;; with_envB E (fun _ => Done) (g_SetBool a B v b)
  | CSetCont ob h => v <- hof E h ;; with_envB E (fun _ => Done) (if ob then g_SetObj a B v else g_SetArray a B v)
  | CSetText num k h t =>
      v <- hof E h ;;
      with_envB E Bool (pass (kept_kind k) (kbuf k t) (fun p => nzset_text a B num k v p (lenN t)))
  | CSetDouble h d => v <- hof E h ;; with_envB E Bool (g_SetNum a B v d)
  | CSetKey k h t =>
      v <- hof E h ;;
      with_envB E Bool (pass (kept_kind k) (kbuf k t) (fun p => nzset_key a B k v p (lenN t)))
  | CGetType h => same B (v <- hof E h ;; with_env E Type_ (g_Type a v))
  | CSize h => same B (v <- hof E h ;; with_env E Num (g_Size a v))
  | CIsNull h => same B (v <- hof E h ;; with_env E Bool (g_IsNull a v))
  | CGetBool h => same B (v <- hof E h ;; with_env E OBool (g_GetBool a v))
  | CGetText num true h =>
      same B (v <- hof E h ;; with_env E (fun x => x) (r <- (if num then g_GetNumFast a v else g_GetStringFast a v) ;; out_view r))
  | CGetText num false h => v <- hof E h ;; out_textB E (if num then g_GetNumStr a B v else g_GetString a B v)
  | CGetUnEscape h => v <- hof E h ;; out_textB E (g_GetUnEscapeString a B v)
  | CGetDouble h => v <- hof E h ;; out_numB E (g_GetNum a B v)
  | CGetKey true h => same B (v <- hof E h ;; with_env E (fun x => x) (r <- g_GetKeyFast a v ;; out_view r))
  | CGetKey false h => v <- hof E h ;; out_textB E (g_GetKey a B v)
  | CGetUnEscapeKey h => v <- hof E h ;; out_textB E (g_GetUnEscapeKey a B v)
  | CStringify h => same B (v <- hof E h ;; with_env E (fun x => x) (w <- g_Stringify a fuel v ;; out_text (Some w)))
  | CObjGet len h k =>
      v <- hof E h ;;
      out_valueB E (if len then lend k (fun p => g_ObjGetLen a fuel B v p (lenN k))
                    else lend (k ++ [0]) (fun p => g_ObjGet a fuel B v p))
  | CArrayGet h i => v <- hof E h ;; out_valueB E (g_ArrayGet a fuel B v i)
  | CBegin h => v <- hof E h ;; out_valueB E (g_Begin a B v)
  | CNext h => v <- hof E h ;; out_valueB E (g_Next a B v)
  | CCopy h => v <- hof E h ;; out_valueB E (g_Copy a fuel B v)
  | CMove h => same B (v <- hof E h ;; with_env E Bool (g_Move a v))
  | CAdd ob fast h hv =>
      v <- hof E h ;; vv <- hof E hv ;;
      with_envB E Bool
        (match ob, fast with
         | true, true => g_ObjAddFast a B v vv
         | true, false => same B (g_ObjAdd a fuel v vv)
         | false, true => g_ArrayAddFast a B v vv
         | false, false => same B (g_ArrayAdd a fuel v vv)
         end)
  | CSet fast h hv =>
      v <- hof E h ;; vv <- hof E hv ;;
      with_envB E Bool (if fast then g_SetFast a fuel B v vv else g_Set a fuel B v vv)
  | CArrayDel h i => v <- hof E h ;; with_envB E Bool (same B (g_ArrayDel a fuel v i))
  | CObjDel h k => v <- hof E h ;; with_envB E Bool (same B (lend (k ++ [0]) (fun p => g_ObjDel a fuel v p)))
  | CSetInt _ _ | CSetLong _ _ | CSetLongLong _ _ | CSetEscape _ _ _ | CSetKeyEscape _ _ _
  | CGetInt _ | CGetLong _ | CGetLongLong _ => fail EDeref     (* no such function *)
  end.

(** ** Statements with kept pointers and several groups: as in BetaClient.v, BetaKeepWorld.v *)
Definition nzget (a : zapi) (g : getter) (B : bmem) (v : addr) : M (option word * bmem) :=
  match g with
  | GNum => g_GetNumStr a B v
  | GUnStr => g_GetUnEscapeString a B v
  | GKey => g_GetKey a B v
  | GUnKey => g_GetUnEscapeKey a B v
  | _ => g_GetString a B v
  end.
Definition nzview (a : zapi) (g : getter) (v : addr) : M (option (word * N)) :=
  match g with GViewNum => g_GetNumFast a v | GViewKey => g_GetKeyFast a v | _ => g_GetStringFast a v end.
Definition nzmstep (a : zapi) (fuel : nat) (c : zstmt) (Z : mst) : M (answer * mst) :=
  let '((E, B), P) := Z in
  match c with
  | ZApi c => mcall (nbstep a fuel c E B) P
  | ZTake g h =>
      v <- hof E h ;;
      if is_view g then
        r <- nzview a g v ;; x <- out_view r ;; ret (x, ((E, B), P ++ [match r with Some (w, n) => MV w n | None => MNull end]))
      else
        rb <- nzget a g B v ;; x <- out_text (fst rb) ;;
        ret (x, ((E, snd rb), P ++ [match fst rb with Some w => MC w | None => MNull end]))
  | ZLook k =>
      p <- mtake P k ;;
      x <- (match p with MNull => ret (Text None) | MC w => out_text (Some w) | MV w n => out_view (Some (w, n)) end) ;;
      ret (x, Z)
  | ZSetText num fast h k =>
      v <- hof E h ;; p <- mtake P k ;;
      match p with
      | MNull => fail EDeref
      | MC w => x <- deref w ;; mcall (with_envB E Bool (nzset_text a B num (kind_of false fast) v x 0)) P
      | MV w n => x <- deref w ;; mcall (with_envB E Bool (nzset_text a B num (kind_of true fast) v x n)) P
      end
  | ZSetKey fast h k =>
      v <- hof E h ;; p <- mtake P k ;;
      match p with
      | MNull => fail EDeref
      | MC w => x <- deref w ;; mcall (with_envB E Bool (nzset_key a B (kind_of false fast) v x 0)) P
      | MV w n => x <- deref w ;; mcall (with_envB E Bool (nzset_key a B (kind_of true fast) v x n)) P
      end
  | ZObjGet h k =>
      v <- hof E h ;; p <- mtake P k ;;
      match p with
      | MNull => fail EDeref
      | MC w => x <- deref w ;; mcall (out_valueB E (g_ObjGet a fuel B v x)) P
      | MV w n => x <- deref w ;; mcall (out_valueB E (g_ObjGetLen a fuel B v x n)) P
      end
  | ZPrint h =>
      v <- hof E h ;; w <- g_Stringify a fuel v ;; x <- out_text (Some w) ;; ret (x, ((E, B), P ++ [MC w]))
  | ZParse fast h k =>
      v <- hof E h ;; p <- mtake P k ;;
      match p with
      | MC w => x <- deref w ;; mcall (with_envB E Bool (if fast then g_ParseFast a B v x else g_Parse a B v x)) P
      | _ => fail EDeref
      end
  | ZObjDel h k =>
      v <- hof E h ;; p <- mtake P k ;;
      match p with
      | MC w => x <- deref w ;; mcall (with_envB E Bool (same B (g_ObjDel a fuel v x))) P
      | _ => fail EDeref
      end
  end.
Fixpoint nz_release (a : zapi) (l : list N) : M unit :=
  match l with [] => ret tt | A :: r => g_ReleaseAllocator a A ;;; nz_release a r end.
Definition nzgstep (a : zapi) (fuel : nat) (c : zgstmt) (Z : zgmst) : M (answer * zgmst) :=
  let '((Es, B), P) := Z in
  match c with
  | ZRelease g => nz_release a (ea (Es g)) ;;; ret (Done, ((updn Es g estart, B), P))
  | ZIn g c =>
      xz <- nzmstep a fuel c ((Es g, B), P) ;;
      ret (fst xz, ((updn Es g (fst (fst (snd xz))), snd (fst (snd xz))), snd (snd xz)))
  end.

(** ** Programs that choose the name for every statement *)
Inductive nzprog (X : Type) :=
| NZRet (x : X)
| NZStuck
| NZAct (short : bool) (c : zgstmt) (k : answer -> nzprog X).
Arguments NZRet {X} x.
Arguments NZStuck {X}.
Arguments NZAct {X} short c k.
Fixpoint nzplay {X} (fuel : nat) (p : nzprog X) (Z : zgmst) : M (X * zgmst) :=
  match p with
  | NZRet x => ret (x, Z)
  | NZStuck => fail EFuel
  | NZAct short c k => az <- nzgstep (zapi_of short) fuel c Z ;; nzplay fuel (k (fst az)) (snd az)
  end.
Fixpoint zspelt {X} (p : nzprog X) : zgprog X :=
  match p with
  | NZRet x => ZGRet x
  | NZStuck => ZGStuck
  | NZAct _ c k => ZGAct c (fun a => zspelt (k a))
  end.

(** ** The name does not matter *)
Theorem zapi_same short : zapi_of short = zlong_api.
Proof. destruct short; reflexivity. Qed.
Theorem nbstep_same short fuel c E B : nbstep (zapi_of short) fuel c E B = bstep fuel c E B.
Proof. rewrite zapi_same. destruct c; try reflexivity; destruct fast; reflexivity. Qed.
Theorem nzmstep_same short fuel c Z s : nzmstep (zapi_of short) fuel c Z s = zmstep fuel c Z s.
Proof.
  destruct Z as [[E B] P]. destruct c as [c|g h|k|num fast h k|fast h k|h k|h|fast h k|h k]; cbn [nzmstep zmstep]; try (rewrite zapi_same; reflexivity); try reflexivity.
  now rewrite nbstep_same.
Qed.
Lemma nz_release_same short l : forall s, nz_release (zapi_of short) l s = release_all l s.
Proof. rewrite zapi_same. induction l as [|A l IH]; intro s; [reflexivity|]. cbn [nz_release release_all]. apply bind_same. intros x s1 _. apply IH. Qed.
Theorem nzgstep_same short fuel c Z s : nzgstep (zapi_of short) fuel c Z s = zgmstep fuel c Z s.
Proof.
  destruct Z as [[Es B] P]. destruct c as [g c|g]; cbn [nzgstep zgmstep].
  - unfold bind. now rewrite nzmstep_same.
  - cbn [zestep fst snd]. unfold bind. rewrite nz_release_same. destruct (release_all (ea (Es g)) s) as [[u s1]|]; reflexivity.
Qed.
Theorem nzplay_same X fuel : forall (p : nzprog X) Z s, nzplay fuel p Z s = zgmplay fuel (zspelt p) Z s.
Proof.
  induction p as [x| |short c k IH]; intros Z s; cbn [nzplay zgmplay zspelt]; auto. unfold bind. rewrite nzgstep_same.
  destruct (zgmstep fuel c Z s) as [[az s1]|]; auto.
Qed.
Theorem nzclient jd : correct jd -> forall X (p : nzprog X) x W Ks T, zgrplay jd (zspelt p) (zrstart, []) = Some (x, ((W, Ks), T)) ->
  forall fuel, (zgpmost jd (zspelt p) (zrstart, []) <= fuel)%nat ->
  exists Es B P s, nzplay fuel p (zworld0, []) init = Ok ((x, ((Es, B), P)), s) /\ forall g, represents (wr W g) (Es g) s.
Proof. intros J X p x W Ks T H fuel Hf. rewrite nzplay_same. eapply zgclient; eauto. Qed.
Theorem nzcontract jd : correct jd -> forall X (p : nzprog X), zgrespects jd (zspelt p) (zrstart, []) ->
  exists x W Ks T, zgrplay jd (zspelt p) (zrstart, []) = Some (x, ((W, Ks), T)) /\ forall fuel, (zgpmost jd (zspelt p) (zrstart, []) <= fuel)%nat ->
  exists Es B P s, nzplay fuel p (zworld0, []) init = Ok ((x, ((Es, B), P)), s) /\ forall g, represents (wr W g) (Es g) s.
Proof.
  intros J X p H. destruct (zgcontract_ok jd J X _ H) as (x & W & Ks & T & Hr & K). exists x, W, Ks, T. split; [exact Hr|].
  intros fuel Hf. rewrite nzplay_same. exact (K fuel Hf).
Qed.
