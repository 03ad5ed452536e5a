(** beta/zzzjson_beta.h (below: "beta"), the library with cached getter results.

    Its lexers, allocator, string builder, parse and copy loops and most of its API
    agree with zzzjson.h up to names and branch hints; for these the definitions of
    Alloc.v, Lex.v and Api.v stand, and the lines of the beta header are cited here.
    This file has the functions that differ.

    A value object of the beta library ([struct z_Value], beta 577-588) has four
    more words: the texts and the double its getters returned last.  They are kept in a
    map [bmem] beside the memory, and every function takes and returns that map.  The
    two members of the union [Cache] (581-584) are one word with a tag; the
    double behind [Cache.Num] is never modified, so its value is kept with the pointer. *)
From Verif Require Import Base Lex Alloc Mem Api Double.

(** sizeof(struct z_Value), beta 577-588: six words *)
Definition sizeof_zValue : N := 48.

Inductive alt :=
| AUndef
| ANull
| AText (p : addr)                 (* UnEscapeStr *)
| ANum (p : addr) (d : double).    (* Num, and the double at p *)
Record cache := mkC {
  cStr : word;                     (* CacheStr *)
  cAlt : alt;                      (* Cache *)
  cKey : word;                     (* CacheKey *)
  cUn : word                       (* CacheUnEscapeKey *)
}.
Definition bmem := addr -> cache.
(** Before the library writes anything: indeterminate. *)
Definition bstart : bmem := fun _ => mkC Undef AUndef Undef Undef.
Definition setC (B : bmem) (v : addr) (c : cache) : bmem := fun x => if addr_eqb x v then c else B x.
Definition no_cache : cache := mkC Null ANull Null Null.
(** z_ValueInitCache, beta 591-596 *)
Definition z_ValueInitCache (B : bmem) (v : addr) : bmem := setC B v no_cache.
(** The cache words of a value object just made (beta 605, 616) *)
Definition born (B : bmem) (r : option addr) : bmem := match r with Some v => z_ValueInitCache B v | None => B end.

(** ** Value objects *)
(** The memory side of z_ValueNew, beta 599-607, and z_ValueInnerNew, 610-618 *)
Definition new_zvalue (A : N) (n : word) : M addr :=
  v <- zj_allocatorAlloc A sizeof_zValue ;;
  putVal v (mkVal n A) ;;;
  ret v.
Definition z_handle (A : N) (r : option addr) : M (option addr) :=
  match r with
  | Some a => h <- new_zvalue A (At a) ;; ret (Some h)
  | None => ret None
  end.
(** z_ValueNew, beta 599-607 *)
Definition z_ValueNew (B : bmem) (A : N) : M (addr * bmem) :=
  v <- new_zvalue A Null ;; ret (v, z_ValueInitCache B v).

(** ** Parsing *)
(** The memory side of z_ValueParseLen, beta 1449-1455: the copy is made, but [s] is
    parsed; of z_ValueParse, 1458-1460 *)
Definition z_parse_len (v s : addr) (len : N) : M bool :=
  x <- getVal v ;;
  p <- zj_allocatorAlloc (vA x) (u32 (len + 1)) ;;
  bs <- load s len ;;
  store p (u32 (len + 1)) (bs ++ [0]) ;;;
  parse_fast true v s.
Definition z_parse (v s : addr) : M bool := len <- zj_strLen s ;; z_parse_len v s len.
(** The caches of [v] are cleared whatever happens. *)
Definition clearing {X} (B : bmem) (v : addr) (m : M X) : M (X * bmem) := r <- m ;; ret (r, z_ValueInitCache B v).
(** z_ValueParseFast, beta 1136-1446: [parse_fast true] (Api.v) after the caches are
    cleared; z_ValueParseLen 1449-1455, z_ValueParse 1458-1460 *)
Definition z_ValueParseFast B v s := clearing B v (parse_fast true v s).
Definition z_ValueParseLen B v s len := clearing B v (z_parse_len v s len).
Definition z_ValueParse B v s := clearing B v (z_parse v s).

(** ** The getters with a cache *)
Definition put_str (B : bmem) (v : addr) (w : word) : bmem := setC B v (mkC w (cAlt (B v)) (cKey (B v)) (cUn (B v))).
Definition put_alt (B : bmem) (v : addr) (a : alt) : bmem := setC B v (mkC (cStr (B v)) a (cKey (B v)) (cUn (B v))).
Definition put_ckey (B : bmem) (v : addr) (w : word) : bmem := setC B v (mkC (cStr (B v)) (cAlt (B v)) w (cUn (B v))).
Definition put_un (B : bmem) (v : addr) (w : word) : bmem := setC B v (mkC (cStr (B v)) (cAlt (B v)) (cKey (B v)) w).
(** Nothing changes if the answer is 0. *)
Definition or_none {X} (B : bmem) (r : option (X * bmem)) : option X * bmem :=
  match r with Some (x, B') => (Some x, B') | None => (None, B) end.
(** [if (c != 0) return c; w = make; c = w; return w] *)
Definition cached (B : bmem) (c : word) (put : word -> bmem) (make : M word) : M (option (word * bmem)) :=
  z <- is_null c ;;
  if z : bool then w <- make ;; ret (Some (w, put w)) else ret (Some (c, B)).
(** z_ValueGetString, beta 1560-1572 ([t] = TString), z_ValueGetNumStr 1602-1614 (TNumber) *)
Definition z_get_text (t : jtype) (B : bmem) (v : addr) : M (option word * bmem) :=
  r <- with_type v t (fun x _ n =>
         cached B (cStr (B v)) (put_str B v) (l <- rLen n ;; copy_out (vA x) (nVal n) l)) ;;
  ret (or_none B r).
Definition z_ValueGetString := z_get_text TString.
Definition z_ValueGetNumStr := z_get_text TNumber.
(** [Cache != 0]: the pointer, whichever member was stored *)
Definition alt_ptr (a : alt) : M word :=
  match a with AUndef => fail EDeref | ANull => ret Null | AText p => ret (At p) | ANum p _ => ret (At p) end.
(** z_ValueGetUnEscapeString, beta 1575-1588 *)
Definition z_ValueGetUnEscapeString (B : bmem) (v : addr) : M (option word * bmem) :=
  r <- with_type v TString (fun x _ n =>
         c <- alt_ptr (cAlt (B v)) ;;
         z <- is_null c ;;
         if z : bool then
           l <- rLen n ;; w <- unescape_out (vA x) (nVal n) l ;;
           p <- deref w ;; ret (Some (w, put_alt B v (AText p)))
         else ret (Some (c, B))) ;;
  ret (or_none B r).
(** z_ValueGetNum, beta 1617-1628 with z_StrToDouble 356.  The result: the pointer, and
    the double it points to; [None] if the library never stored a double there. *)
Definition z_ValueGetNum (B : bmem) (v : addr) : M (option (addr * option double) * bmem) :=
  r <- with_type v TNumber (fun x _ n =>
         match cAlt (B v) with
         | AUndef => fail EDeref
         | AText p => ret (Some ((p, None), B))
         | ANum p d => ret (Some ((p, Some d), B))
         | ANull =>
             p <- zj_allocatorAlloc (vA x) 8 ;;
             a <- deref (nVal n) ;;
             t <- readable a ;;
             d <- lift (atof t) ;;
             ret (Some ((p, Some d), put_alt B v (ANum p d)))
         end) ;;
  ret (or_none B r).
(** z_ValueGetKey, beta 1651-1665 *)
Definition z_ValueGetKey (B : bmem) (v : addr) : M (option word * bmem) :=
  r <- with_key v (fun x n =>
         cached B (cKey (B v)) (put_ckey B v) (l <- rKeyLen n ;; copy_out (vA x) (nKey n) l)) ;;
  ret (or_none B r).
(** z_ValueGetUnEscapeKey, beta 1667-1679 *)
Definition z_ValueGetUnEscapeKey (B : bmem) (v : addr) : M (option word * bmem) :=
  r <- with_key v (fun x n =>
         cached B (cUn (B v)) (put_un B v) (l <- rKeyLen n ;; unescape_out (vA x) (nKey n) l)) ;;
  ret (or_none B r).
(** The same as in zzzjson.h, without a cache: z_ValueStringify 1463-1546,
    z_ValueGetStringFast 1549-1557, z_ValueGetNumFast 1591-1599, z_ValueGetBool 1631-1639,
    z_ValueIsNull 1642-1648, z_ValueGetKeyFast 1682-1690, z_ValueType 1730-1748,
    z_ValueSize 1751-1757. *)

(** ** Children *)
(** z_ValueObjGet, beta 1693-1708 *)
Definition z_obj_get (fuel : nat) (v key : addr) : M (option addr) :=
  with_type v TObject (fun x _ n =>
    r <- find_node fuel (fun c =>
           l <- rKeyLen c ;;
           b <- load_w (nKey c) l ;;
           t <- readable key ;;
           lift (zj_strIsEqual t b)) (nVal n) ;;
    z_handle (vA x) r).
(** z_ValueObjGetLen, beta 1711-1727 *)
Definition z_obj_get_len (fuel : nat) (v key : addr) (len : N) : M (option addr) :=
  with_type v TObject (fun x _ n =>
    r <- find_node fuel (fun c =>
           l <- rKeyLen c ;;
           if negb (len =? l) then ret false else
           b <- load_w (nKey c) l ;;
           t <- load key len ;;
           ret (zj_strIsEqualLen t b)) (nVal n) ;;
    z_handle (vA x) r).
(** z_ValueArrayGet, beta 1760-1777 *)
Definition z_array_get (fuel : nat) (v : addr) (index : N) : M (option addr) :=
  with_type v TArray (fun x _ n =>
    r <- nth_node fuel 0 index (nVal n) ;;
    z_handle (vA x) r).
(** z_ValueBegin, beta 1780-1790 *)
Definition z_begin (v : addr) : M (option addr) :=
  x <- getVal v ;;
  z <- is_null (vN x) ;;
  if z : bool then ret None else
    a <- deref (vN x) ;;
    n <- getNode a ;;
    t <- rType n ;;
    if is_container t then
      z <- is_null (nVal n) ;;
      if z : bool then ret None else
        c <- deref (nVal n) ;; z_handle (vA x) (Some c)
    else ret None.
(** z_ValueNext, beta 1793-1801 *)
Definition z_next (v : addr) : M (option addr) :=
  x <- getVal v ;;
  z <- is_null (vN x) ;;
  if z : bool then ret None else
    a <- deref (vN x) ;;
    n <- getNode a ;;
    z <- is_null (nNext n) ;;
    if z : bool then ret None else
      c <- deref (nNext n) ;; z_handle (vA x) (Some c).
(** z_ValueCopy, beta 1804-1878: the test of v->N comes first; from 1809 on the text is
    that of zj_ValueCopyFrom (Api.v) *)
Definition z_copy (fuel : nat) (v : addr) : M (option addr) :=
  x <- getVal v ;;
  z <- is_null (vN x) ;;
  if z : bool then ret None else
    h <- new_zvalue (vA x) Null ;;
    zj_ValueCopyFrom fuel h v ;;;
    ret (Some h).
(** Each of these clears the caches of the value object it returns. *)
Definition giving (B : bmem) (m : M (option addr)) : M (option addr * bmem) := r <- m ;; ret (r, born B r).
Definition z_ValueObjGet fuel B v key := giving B (z_obj_get fuel v key).
Definition z_ValueObjGetLen fuel B v key len := giving B (z_obj_get_len fuel v key len).
Definition z_ValueArrayGet fuel B v i := giving B (z_array_get fuel v i).
Definition z_ValueBegin B v := giving B (z_begin v).
Definition z_ValueNext B v := giving B (z_next v).
Definition z_ValueCopy fuel B v := giving B (z_copy fuel v).

(** ** Modifying *)
(** z_ValueMove, beta 1881-1901, is zj_Move; it leaves the caches alone. *)
(** These clear the caches whatever happens: z_ValueSetNull 1904-1916, z_ValueSetBool
    1919-1936, z_ValueSetArray and z_ValueSetObj 2208-2238. *)
Definition z_ValueSetNull B v := clearing B v (zj_SetNull v).
Definition z_ValueSetBool B v b := clearing B v (zj_SetBool v b).
Definition z_ValueSetArray B v := clearing B v (zj_SetArray v).
Definition z_ValueSetObj B v := clearing B v (zj_SetObj v).
(** The caches are cleared if the answer is true: the number setters 1939-2016, the string
    setters 2027-2105, the key setters 2108-2205.  (Between the clearing and the end of
    such a call nobody reads the caches.) *)
Definition if_set (B : bmem) (v : addr) (m : M bool) : M (bool * bmem) :=
  r <- m ;; ret (r, if r : bool then z_ValueInitCache B v else B).
Definition z_ValueSetNumStrFast B v s := if_set B v (zj_SetNumStrFast v s).
Definition z_ValueSetNumStrLenFast B v s len := if_set B v (zj_SetNumStrLenFast v s len).
Definition z_ValueSetNumStr B v s := if_set B v (zj_SetNumStr v s).
Definition z_ValueSetNumStrLen B v s len := if_set B v (zj_SetNumStrLen v s len).
Definition z_ValueSetStrFast B v s := if_set B v (zj_SetStrFast v s).
Definition z_ValueSetStrLenFast B v s len := if_set B v (zj_SetStrLenFast v s len).
Definition z_ValueSetStr B v s := if_set B v (zj_SetStr v s).
Definition z_ValueSetStrLen B v s len := if_set B v (zj_SetStrLen v s len).
Definition z_ValueSetKeyFast B v s := if_set B v (zj_SetKeyFast v s).
Definition z_ValueSetKeyLenFast B v s len := if_set B v (zj_SetKeyLenFast v s len).
Definition z_ValueSetKey B v s := if_set B v (zj_SetKey v s).
Definition z_ValueSetKeyLen B v s len := if_set B v (zj_SetKeyLen v s len).
(** z_ValueSetNum, beta 2019-2024, with z_DoubleToStr 358-360 (sprintf "%.17g") *)
Definition z_set_num (v : addr) (d : double) : M bool :=
  x <- getVal v ;;
  p <- zj_allocatorAlloc (vA x) 32 ;;
  store p 32 (g17 d ++ [0]) ;;;
  zj_SetNumStrFast v p.
Definition z_ValueSetNum (B : bmem) (v : addr) (d : double) : M (bool * bmem) := if_set B v (z_set_num v d).

(** The block [if (v->N->Key != 0 && vv->N->Key != 0) ...], beta 2252-2255 ([from] =
    [given] = vv->N) and 2280-2283 ([given] = vv->N, [from] = cp->N) *)
Definition take_key (a given from : addr) : M unit :=
  n <- getNode a ;;
  z <- is_null (nKey n) ;;
  if z : bool then ret tt else
    g <- getNode given ;;
    z <- is_null (nKey g) ;;
    if z : bool then ret tt else
      m <- getNode from ;;
      modNode a (wKey (nKey m)) ;;;
      l <- rKeyLen m ;;
      modNode a (wKeyLen l).
(** z_ValueSetFast, beta 2241-2268 *)
Definition z_set_fast (fuel : nat) (v vv : addr) : M bool :=
  ok <- zj_Move vv ;;
  if negb ok then ret false else
    x <- getVal v ;;
    z <- is_null (vN x) ;;
    if z : bool then
      y <- getVal vv ;;
      putVal v (mkVal (vN y) (vA x)) ;;;
      y <- getVal vv ;;
      putVal vv (mkVal Null (vA y)) ;;;
      ret true
    else
      a <- deref (vN x) ;;
      y <- getVal vv ;;
      b <- deref (vN y) ;;
      take_key a b b ;;;
      take_value fuel a b b ;;;
      putVal vv (mkVal Null (vA y)) ;;;
      ret true.
Definition z_ValueSetFast (fuel : nat) (B : bmem) (v vv : addr) : M (bool * bmem) :=
  r <- z_set_fast fuel v vv ;;
  ret (r, if r : bool then z_ValueInitCache (z_ValueInitCache B v) vv else B).
(** z_ValueSet, beta 2271-2296 *)
Definition z_set (fuel : nat) (v vv : addr) : M bool :=
  c <- z_copy fuel vv ;;
  match c with
  | None => ret false
  | Some cp =>
      y <- getVal cp ;;
      x <- getVal v ;;
      z <- is_null (vN x) ;;
      if z : bool then
        putVal v (mkVal (vN y) (vA x)) ;;; ret true
      else
        a <- deref (vN x) ;;
        b <- deref (vN y) ;;
        o <- getVal vv ;;
        e <- deref (vN o) ;;
        take_key a e b ;;;
        take_value fuel a b e ;;;
        ret true
  end.
Definition z_ValueSet (fuel : nat) (B : bmem) (v vv : addr) : M (bool * bmem) := if_set B v (z_set fuel v vv).
(** z_ValueObjAddFast, beta 2299-2324, z_ValueArrayAddFast 2354-2378: the caches of vv *)
Definition z_ValueObjAddFast (B : bmem) (v vv : addr) : M (bool * bmem) := if_set B vv (zj_ObjAddFast v vv).
Definition z_ValueArrayAddFast (B : bmem) (v vv : addr) : M (bool * bmem) := if_set B vv (zj_ArrayAddFast v vv).
(** z_ValueObjAdd, beta 2327-2351 *)
Definition z_obj_add (fuel : nat) (v vv : addr) : M bool :=
  when_type v TObject (fun a =>
  when_key vv (
    cp <- z_copy fuel vv ;;
    match cp with
    | None => ret false
    | Some h =>
        y <- getVal h ;;
        c <- deref (vN y) ;;
        append_node a c ;;;
        ret true
    end)).
(** z_ValueArrayAdd, beta 2381-2403 *)
Definition z_array_add (fuel : nat) (v vv : addr) : M bool :=
  when_type v TArray (fun a =>
    cp <- z_copy fuel vv ;;
    match cp with
    | None => ret false
    | Some h =>
        y <- getVal h ;;
        c <- deref (vN y) ;;
        modNode c (wKey Null) ;;;
        append_node a c ;;;
        ret true
    end).
(** z_ValueArrayDel, beta 2406-2411 *)
Definition z_array_del (fuel : nat) (v : addr) (index : N) : M bool :=
  d <- z_array_get fuel v index ;;
  match d with None => ret false | Some h => zj_Move h end.
(** z_ValueObjDel, beta 2414-2419 *)
Definition z_obj_del (fuel : nat) (v key : addr) : M bool :=
  d <- z_obj_get fuel v key ;;
  match d with None => ret false | Some h => zj_Move h end.
