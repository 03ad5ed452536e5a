(** The API of zzzjson.h, function by function.

    Conventions: a [zj_Value *] is the address [v] of a value object; a pointer
    result is a [word]; out-parameters are part of the result.  [static inline]
    functions that only differ by a branch hint share one definition.  Functions
    whose loops follow pointers take a [fuel] argument bounding the number of
    loop steps; [EFuel] means "more steps are needed". *)
From Verif Require Import Base Lex Alloc Mem.

(** zj_NewValue, zzzjson.h:747-753 *)
Definition zj_NewValue (A : N) : M addr :=
  v <- zj_allocatorAlloc A sizeof_Value ;;
  putVal v (mkVal Null A) ;;;
  ret v.

(** zj_innerNewValue, zzzjson.h:755-762 *)
Definition zj_innerNewValue (A : N) (n : addr) : M addr :=
  v <- zj_allocatorAlloc A sizeof_Value ;;
  putVal v (mkVal (At n) A) ;;;
  ret v.

(** [(struct zj_node * )zj_allocatorAlloc(A, sizeof(struct zj_node))]: a node with
    indeterminate fields. *)
Definition newNode (A : N) : M addr :=
  p <- zj_allocatorAlloc A sizeof_node ;;
  putNode p blank_node ;;;
  ret p.

(** ** zj_string, zzzjson.h:544-612 *)
(** zj_newString, 560-570 *)
Definition zj_newString (A : N) (init_size : N) : M addr :=
  p <- zj_allocatorAlloc A (sizeof_string + init_size) ;;
  putZ p (mkStr (offset p sizeof_string) 0 init_size A) ;;;
  ret p.

(** zj_reset, 573 *)
Definition zj_reset (p : addr) : M unit :=
  z <- getZ p ;; putZ p (mkStr (zData z) 0 (zSize z) (zA z)).

(** zj_appendStr, 576-590.  [src] are the bytes at the source pointer (loaded by
    the caller of this definition, as memcpy would). *)
Definition zj_appendStr (p : addr) (src : bytes) : M unit :=
  z <- getZ p ;;
  let size := N.of_nat (length src) in
  z' <- (if zSize z <? u32 (zPos z + size) then
           s <- lift (grow grow_fuel (u32 (zPos z + size)) (u32 (zSize z * zj_Delta))) ;;
           old <- load (zData z) (zPos z) ;;
           d <- zj_allocatorAlloc (zA z) s ;;
           store d s old ;;;
           ret (mkStr d (zPos z) s (zA z))
         else ret z) ;;
  store (offset (zData z') (zPos z')) (zSize z' - zPos z') src ;;;
  putZ p (mkStr (zData z') (u32 (zPos z' + size)) (zSize z') (zA z')).

(** zj_appendChar, 593-604 *)
Definition zj_appendChar (p : addr) (c : N) : M unit :=
  z <- getZ p ;;
  z' <- (if zSize z <? u32 (zPos z + 1) then
           let s := u32 (zSize z * zj_Delta) in
           old <- load (zData z) (zPos z) ;;
           d <- zj_allocatorAlloc (zA z) s ;;
           store d s old ;;;
           ret (mkStr d (zPos z) s (zA z))
         else ret z) ;;
  store (offset (zData z') (zPos z')) (zSize z' - zPos z') [c] ;;;
  putZ p (mkStr (zData z') (u32 (zPos z' + 1)) (zSize z') (zA z')).

(** zj_appendEnd, 607-609 *)
Definition zj_appendEnd (p : addr) : M unit := zj_appendChar p 0.

(** zj_str, 612 *)
Definition zj_str (p : addr) : M addr := z <- getZ p ;; ret (zData z).

(** memcpy source given by a pointer field and a length field *)
Definition load_w (w : word) (len : N) : M bytes := a <- deref w ;; load a len.

(** ** Parsing *)
(** Index arithmetic: with [tot] readable bytes at [s] and the suffix [rest]
    left, [s + index] is [pos_of s tot rest]. *)
Definition pos_of (s : addr) (tot : N) (rest : bytes) : addr :=
  offset s (tot - N.of_nat (length rest)).

(** How a switch of zj_ParseFast ends: [Break] out of the switch, [Down n]:
    [node = n] after opening a non-empty container, [Stop]: return false. *)
Inductive swres := Break (rest : bytes) | Down (n : addr) (rest : bytes) | Stop.

(** The part of [case '['] / [case '\{'] after the opening bracket: 1427-1445,
    1446-1464, 1572-1590, 1591-1609 ([close] is the closing bracket).
    [zn] is false for zzzjson.h; beta/zzzjson_beta.h (Beta.v) has the same loops but for
    one more assignment in the object case, [n->Next = 0] (its lines 1185, 1329). *)
Definition open_container (zn : bool) (A : N) (t : jtype) (close : N) (node : addr) (rest : bytes) : M swres :=
  modNode node (wType t) ;;;
  cr <- lift (zj_peekAndConsume close rest) ;;
  let '(closed, rest') := cr in
  if closed : bool then
    modNode node (wVal Null) ;;;
    modNode node (wLen 0) ;;;
    ret (Break rest')
  else
    n <- newNode A ;;
    modNode n (wFather (At node)) ;;;
    modNode n (wPrev Null) ;;;
    (if zn && jtype_eqb t TObject then modNode n (wNext Null) else ret tt) ;;;
    modNode node (wVal (At n)) ;;;
    modNode node (wEnd (At n)) ;;;
    modNode node (wLen 1) ;;;
    ret (Down n rest').

(** node->Type = t; node->Value.Str = a; node->Len = len *)
Definition set_scalar (node : addr) (t : jtype) (a : addr) (len : N) : M unit :=
  modNode node (wType t) ;;;
  modNode node (wVal (At a)) ;;;
  modNode node (wLen len).

(** The switch of zj_ParseFast with the zj_peek before it: 1425-1535 for the
    root, 1570-1680 in the loop (the same text but for [break]/[continue]). *)
Definition parse_switch (zn : bool) (A : N) (s : addr) (tot : N) (node : addr) (rest0 : bytes) : M swres :=
  pk <- lift (zj_peek rest0) ;;
  let '(c, rest) := pk in
  if c =? 91 then open_container zn A TArray 93 node rest
  else if c =? 123 then open_container zn A TObject 125 node rest
  else if c =? 110 then
    r <- lift (zj_consumeNull (c :: rest)) ;;
    match r with
    | Some rest' => set_scalar node TNull zj_strNull 4 ;;; ret (Break rest')
    | None => ret Stop
    end
  else if c =? 102 then
    r <- lift (zj_consumeFalse rest) ;;
    match r with
    | Some rest' => set_scalar node TBool zj_strFalse 5 ;;; ret (Break rest')
    | None => ret Stop
    end
  else if c =? 116 then
    r <- lift (zj_consumeTrue (c :: rest)) ;;
    match r with
    | Some rest' => set_scalar node TBool zj_strTrue 4 ;;; ret (Break rest')
    | None => ret Stop
    end
  else if c =? 34 then
    e <- lift (zj_consume 34 rest) ;;
    match e with
    | Some rest' => set_scalar node TString (pos_of s tot rest') 0 ;;; ret (Break rest')
    | None =>
        r <- lift (zj_consumeStr rest) ;;
        match r with
        | Some rest' =>
            set_scalar node TString (pos_of s tot rest)
              (N.of_nat (length rest) - N.of_nat (length rest') - 1) ;;;
            ret (Break rest')
        | None => ret Stop
        end
    end
  else
    r <- lift (zj_consumeNum (c :: rest)) ;;
    match r with
    | Some rest' =>
        set_scalar node TNumber (pos_of s tot (c :: rest))
          (N.of_nat (length (c :: rest)) - N.of_nat (length rest')) ;;;
        ret (Break rest')
    | None => ret Stop
    end.

(** The key part of the loop, 1537-1569: [None] is return false. *)
Definition parse_key (s : addr) (tot : N) (node : addr) (rest : bytes) : M (option bytes) :=
  n <- getNode node ;;
  f <- deref (nFather n) ;;
  fn <- getNode f ;;
  t <- rType fn ;;
  if jtype_eqb t TObject then
    q <- lift (zj_peekAndConsume 34 rest) ;;
    let '(ok, r1) := q in
    if negb ok then ret None else
    e <- lift (zj_consume 34 r1) ;;
    r2 <- match e with
          | Some r2 =>
              modNode node (wKey (At (pos_of s tot r1))) ;;;
              modNode node (wKeyLen 0) ;;;
              ret (Some r2)
          | None =>
              k <- lift (zj_consumeStr r1) ;;
              match k with
              | Some r2 =>
                  modNode node (wKey (At (pos_of s tot r1))) ;;;
                  modNode node (wKeyLen (N.of_nat (length r1) - N.of_nat (length r2) - 1)) ;;;
                  ret (Some r2)
              | None => ret None
              end
          end ;;
    match r2 with
    | None => ret None
    | Some r2 =>
        q <- lift (zj_peekAndConsume 58 r2) ;;
        let '(ok, r3) := q in
        if negb ok then ret None else ret (Some r3)
    end
  else
    modNode node (wKey Null) ;;;
    ret (Some rest).

(** Position in the two nested loops: at the head of the outer loop body
    (1537, [Item]) or of the inner one (1681, [Close]). *)
Inductive pmode := Item | Close.

(** The loops of zj_ParseFast, 1536-1710.  Result: the rest after the value, or
    [None] for return false.  Every step consumes a byte, so the fuel given in
    [zj_ParseFast] never runs out (C03). *)
Fixpoint parse_loop (zn : bool) (fuel : nat) (A : N) (s : addr) (tot : N) (root : addr)
    (m : pmode) (node : addr) (rest : bytes) : M (option bytes) :=
  if addr_eqb node root then ret (Some rest) else
  match fuel with
  | O => fail EFuel
  | S fuel' =>
      match m with
      | Item =>
          k <- parse_key s tot node rest ;;
          match k with
          | None => ret None
          | Some r1 =>
              sw <- parse_switch zn A s tot node r1 ;;
              match sw with
              | Stop => ret None
              | Down n r2 => parse_loop zn fuel' A s tot root Item n r2
              | Break r2 => parse_loop zn fuel' A s tot root Close node r2
              end
          end
      | Close =>
          q <- lift (zj_peekAndConsume 44 rest) ;;
          let '(comma, r1) := q in
          if comma : bool then
            n <- newNode A ;;
            nd <- getNode node ;;
            modNode n (wFather (nFather nd)) ;;;
            modNode n (wPrev (At node)) ;;;
            f <- deref (nFather nd) ;;
            modNode f (wEnd (At n)) ;;;
            fn <- getNode f ;;
            l <- rLen fn ;;
            modNode f (wLen (u32 (l + 1))) ;;;
            modNode node (wNext (At n)) ;;;
            parse_loop zn fuel' A s tot root Item n r1
          else
            pk <- lift (zj_peek r1) ;;
            let '(c, r2) := pk in
            nd <- getNode node ;;
            f <- deref (nFather nd) ;;
            fn <- getNode f ;;
            t <- rType fn ;;
            if ((c =? 125) && jtype_eqb t TObject) || ((c =? 93) && jtype_eqb t TArray) then
              modNode node (wNext Null) ;;;
              parse_loop zn fuel' A s tot root Close f r2
            else ret None
      end
  end.

(** zj_ParseFast, zzzjson.h:1407-1719 *)
Definition parse_fast (zn : bool) (v s : addr) : M bool :=
  x <- getVal v ;;
  src <- match vN x with
         | Null =>
             n <- newNode (vA x) ;;
             putVal v (mkVal (At n) (vA x)) ;;;
             modNode n (wPrev Null) ;;;
             modNode n (wNext Null) ;;;
             modNode n (wFather Null) ;;;
             modNode n (wKey Null) ;;;
             ret None
         | At a =>
             src <- newNode (vA x) ;;
             n <- getNode a ;;
             putNode src n ;;;
             ret (Some src)
         | Undef => fail EDeref
         end ;;
  x <- getVal v ;;
  root <- deref (vN x) ;;
  let reject := match src with
                | None => putVal v (mkVal Null (vA x)) ;;; ret false
                | Some p => n <- getNode p ;; putNode root n ;;; ret false
                end in
  text <- readable s ;;
  let tot := N.of_nat (length text) in
  let fuel := (2 * length text + 2)%nat in
  sw <- parse_switch zn (vA x) s tot root text ;;
  r <- match sw with
       | Stop => ret None
       | Down n rest => parse_loop zn fuel (vA x) s tot root Item n rest
       | Break rest => parse_loop zn fuel (vA x) s tot root Item root rest
       end ;;
  match r with
  | None => reject
  | Some rest =>
      q <- lift (zj_peekAndConsume 0 rest) ;;
      if fst q then ret true else reject
  end.
Definition zj_ParseFast : addr -> addr -> M bool := parse_fast false.

(** zj_ParseLen, zzzjson.h:1721-1727 *)
Definition zj_ParseLen (v s : addr) (len : N) : M bool :=
  x <- getVal v ;;
  p <- zj_allocatorAlloc (vA x) (u32 (len + 1)) ;;
  bs <- load s len ;;
  store p (u32 (len + 1)) (bs ++ [0]) ;;;
  zj_ParseFast v p.

(** zj_strLen, 368-370 *)
Definition zj_strLen (s : addr) : M N :=
  t <- readable s ;;
  l <- lift (cstr_of t) ;;
  ret (u32 (N.of_nat (length l))).

(** zj_Parse, zzzjson.h:1729-1732 *)
Definition zj_Parse (v s : addr) : M bool :=
  len <- zj_strLen s ;;
  zj_ParseLen v s len.

(** ** Stringify *)
(** The switch of zj_Stringify: 1741-1766 (root) and 1774-1801 (loop).
    [Some c]: descended to the first child. *)
Definition stringify_switch (str node : addr) : M (option addr) :=
  n <- getNode node ;;
  t <- rType n ;;
  match t with
  | TArray =>
      zj_appendChar str 91 ;;;
      z <- is_null (nVal n) ;;
      if z : bool then zj_appendChar str 93 ;;; ret None
      else c <- deref (nVal n) ;; ret (Some c)
  | TObject =>
      zj_appendChar str 123 ;;;
      l <- rLen n ;;
      if l =? 0 then zj_appendChar str 125 ;;; ret None
      else c <- deref (nVal n) ;; ret (Some c)
  | TString =>
      zj_appendChar str 34 ;;;
      l <- rLen n ;;
      b <- load_w (nVal n) l ;;
      zj_appendStr str b ;;;
      zj_appendChar str 34 ;;;
      ret None
  | _ =>
      l <- rLen n ;;
      b <- load_w (nVal n) l ;;
      zj_appendStr str b ;;;
      ret None
  end.

(** Lines 1769-1773 *)
Definition stringify_key (str node : addr) : M unit :=
  n <- getNode node ;;
  z <- is_null (nKey n) ;;
  if z : bool then ret tt else
    zj_appendChar str 34 ;;;
    l <- rKeyLen n ;;
    b <- load_w (nKey n) l ;;
    zj_appendStr str b ;;;
    zj_appendStr str [34; 58].

(** The loops of zj_Stringify, 1768-1816 ([Item]: 1769, [Close]: 1802). *)
Fixpoint stringify_loop (fuel : nat) (root str : addr) (m : pmode) (node : addr) : M unit :=
  if addr_eqb node root then ret tt else
  match fuel with
  | O => fail EFuel
  | S fuel' =>
      match m with
      | Item =>
          stringify_key str node ;;;
          c <- stringify_switch str node ;;
          match c with
          | Some c => stringify_loop fuel' root str Item c
          | None => stringify_loop fuel' root str Close node
          end
      | Close =>
          n <- getNode node ;;
          z <- is_null (nNext n) ;;
          if negb z then
            zj_appendChar str 44 ;;;
            nx <- deref (nNext n) ;;
            stringify_loop fuel' root str Item nx
          else
            f <- deref (nFather n) ;;
            fn <- getNode f ;;
            t <- rType fn ;;
            zj_appendChar str (if jtype_eqb t TArray then 93 else 125) ;;;
            stringify_loop fuel' root str Close f
      end
  end.

(** zj_Stringify, zzzjson.h:1734-1819 *)
Definition zj_Stringify (fuel : nat) (v : addr) : M word :=
  x <- getVal v ;;
  z <- is_null (vN x) ;;
  if z : bool then ret (At empty_literal) else
    str <- zj_newString (vA x) zj_StringInitMemSize ;;
    root <- deref (vN x) ;;
    c <- stringify_switch str root ;;
    stringify_loop fuel root str Item (match c with Some c => c | None => root end) ;;;
    zj_appendEnd str ;;;
    d <- zj_str str ;;
    ret (At d).

(** ** Reading *)
(** [if (v->N == 0) return 0; if (v->N->Type != t) return 0;] then [k]. *)
Definition with_type {A} (v : addr) (t : jtype) (k : zval -> addr -> node -> M (option A)) : M (option A) :=
  x <- getVal v ;;
  z <- is_null (vN x) ;;
  if z : bool then ret None else
    a <- deref (vN x) ;;
    n <- getNode a ;;
    t' <- rType n ;;
    if jtype_eqb t' t then k x a n else ret None.

(** zj_GetStrFast, zzzjson.h:1821-1829 *)
Definition zj_GetStrFast (v : addr) : M (option (word * N)) :=
  with_type v TString (fun _ _ n => l <- rLen n ;; ret (Some (nVal n, l))).

(** Copy of [len] bytes at [w] with a final 0 into new memory of [A]:
    1837-1840, 1872-1875, 1949-1952. *)
Definition copy_out (A : N) (w : word) (len : N) : M word :=
  p <- zj_allocatorAlloc A (u32 (len + 1)) ;;
  b <- load_w w len ;;
  store p (u32 (len + 1)) (b ++ [0]) ;;;
  ret (At p).

(** zj_GetStr, zzzjson.h:1831-1841 *)
Definition zj_GetStr (v : addr) : M (option word) :=
  with_type v TString (fun x _ n =>
    l <- rLen n ;; w <- copy_out (vA x) (nVal n) l ;; ret (Some w)).

(** Unescaped copy: 1851-1853, 1960-1962. *)
Definition unescape_out (A : N) (w : word) (len : N) : M word :=
  p <- zj_allocatorAlloc A (u32 (len + 1)) ;;
  a <- deref w ;;
  t <- readable a ;;
  o <- lift (zj_unEscapeStr t (Z.of_N len)) ;;
  store p (u32 (len + 1)) (o ++ [0]) ;;;
  ret (At p).

(** zj_GetUnEscapeStr, zzzjson.h:1843-1854 *)
Definition zj_GetUnEscapeStr (v : addr) : M (option word) :=
  with_type v TString (fun x _ n =>
    l <- rLen n ;; w <- unescape_out (vA x) (nVal n) l ;; ret (Some w)).

(** zj_GetNumFast, zzzjson.h:1856-1864 *)
Definition zj_GetNumFast (v : addr) : M (option (word * N)) :=
  with_type v TNumber (fun _ _ n => l <- rLen n ;; ret (Some (nVal n, l))).

(** zj_GetNumStr, zzzjson.h:1866-1876 *)
Definition zj_GetNumStr (v : addr) : M (option word) :=
  with_type v TNumber (fun x _ n =>
    l <- rLen n ;; w <- copy_out (vA x) (nVal n) l ;; ret (Some w)).

(** *** Decimal conversions *)
(** atoi/atol/atoll (C11 7.22.1): optional blanks, optional sign, digits.
    [digits_val acc s]: value of the leading digits, read until a non-digit. *)
Fixpoint digits_val (acc : Z) (s : bytes) : res Z :=
  match s with
  | [] => Err EOob
  | c :: r => if digitb c then digits_val (10 * acc + Z.of_N (c - 48)) r else Ok acc
  end.
Definition isspace (c : N) : bool := (c =? 32) || ((9 <=? c) && (c <=? 13)).
Fixpoint skip_space (s : bytes) : bytes :=
  match s with
  | c :: r => if isspace c then skip_space r else s
  | [] => []
  end.
(** Outside [lo, hi] the behaviour is undefined. *)
Definition ato (lo hi : Z) (s0 : bytes) : res Z :=
  let s := skip_space s0 in
  match s with
  | [] => Err EOob
  | c :: r =>
      v <-? (if c =? 45 then (x <-? digits_val 0 r ;; Ok (- x)%Z)
             else if c =? 43 then digits_val 0 r
             else digits_val 0 s) ;;
      if ((lo <=? v) && (v <=? hi))%Z then Ok v else Err ERange
  end.
Definition int_min : Z := (-2147483648)%Z.
Definition int_max : Z := 2147483647%Z.
Definition long_min : Z := (-9223372036854775808)%Z.
Definition long_max : Z := 9223372036854775807%Z.

(** [char s[128] = \{0\}; memcpy(s, str, len)], 373-374 etc.: the buffer's bytes. *)
Definition local_copy (w : word) (len : N) : M bytes :=
  b <- load_w w len ;;
  if 128 <? len then fail EOverflow
  else ret (b ++ repeat 0 (128 - length b)).

(** zj_strToInt 372-376: atoi on the local copy. *)
Definition zj_strToInt (w : word) (len : N) : M Z :=
  b <- local_copy w len ;; lift (ato int_min int_max b).
(** zj_strToLong 377-381, zj_strToLongLong 382-386 (both 64 bits on LP64): they
    make the local copy but convert the original, which has no terminator. *)
Definition zj_strToLong (w : word) (len : N) : M Z :=
  local_copy w len ;;;
  a <- deref w ;;
  t <- readable a ;;
  lift (ato long_min long_max t).
(** zj_strToDouble 387-391: the text atof is given is everything readable at the
    original pointer.  The result here is the text of the number atof reads
    (see Double.v for its value). *)
Definition zj_strToDouble_text (w : word) (len : N) : M bytes :=
  local_copy w len ;;;
  a <- deref w ;;
  readable a.

(** zj_GetInt, zzzjson.h:1891-1899.  The result is the integer stored at the
    returned address. *)
Definition zj_GetInt (v : addr) : M (option Z) :=
  with_type v TNumber (fun x _ n =>
    zj_allocatorAlloc (vA x) 4 ;;;
    l <- rLen n ;; z <- zj_strToInt (nVal n) l ;; ret (Some z)).
(** zj_GetLong, zzzjson.h:1901-1909 *)
Definition zj_GetLong (v : addr) : M (option Z) :=
  with_type v TNumber (fun x _ n =>
    zj_allocatorAlloc (vA x) 8 ;;;
    l <- rLen n ;; z <- zj_strToLong (nVal n) l ;; ret (Some z)).
(** zj_GetLongLong, zzzjson.h:1911-1919 *)
Definition zj_GetLongLong (v : addr) : M (option Z) :=
  with_type v TNumber (fun x _ n =>
    zj_allocatorAlloc (vA x) 8 ;;;
    l <- rLen n ;; z <- zj_strToLong (nVal n) l ;; ret (Some z)).
(** zj_GetDouble, zzzjson.h:1881-1889, zj_GetNum 1879: the text converted. *)
Definition zj_GetDouble_text (v : addr) : M (option bytes) :=
  with_type v TNumber (fun x _ n =>
    zj_allocatorAlloc (vA x) 8 ;;;
    l <- rLen n ;; t <- zj_strToDouble_text (nVal n) l ;; ret (Some t)).

(** zj_GetBool, zzzjson.h:1921-1932 *)
Definition zj_GetBool (v : addr) : M (option bool) :=
  with_type v TBool (fun _ _ n =>
    b <- load_w (nVal n) 1 ;;
    ret (Some (match b with c :: _ => c =? 116 | [] => false end))).

(** zj_IsNull, zzzjson.h:1934-1941 *)
Definition zj_IsNull (v : addr) : M bool :=
  r <- with_type v TNull (fun _ _ _ => ret (Some tt)) ;;
  ret (match r with Some _ => true | None => false end).

(** [if (v->N == 0) return 0; if (v->N->Key == 0) return 0;] then [k]. *)
Definition with_key {A} (v : addr) (k : zval -> node -> M (option A)) : M (option A) :=
  x <- getVal v ;;
  z <- is_null (vN x) ;;
  if z : bool then ret None else
    a <- deref (vN x) ;;
    n <- getNode a ;;
    z <- is_null (nKey n) ;;
    if z : bool then ret None else k x n.

(** zj_GetKey, zzzjson.h:1943-1953 *)
Definition zj_GetKey (v : addr) : M (option word) :=
  with_key v (fun x n => l <- rKeyLen n ;; w <- copy_out (vA x) (nKey n) l ;; ret (Some w)).
(** zj_GetUnEscapeKey, zzzjson.h:1955-1963 *)
Definition zj_GetUnEscapeKey (v : addr) : M (option word) :=
  with_key v (fun x n => l <- rKeyLen n ;; w <- unescape_out (vA x) (nKey n) l ;; ret (Some w)).
(** zj_GetKeyFast, zzzjson.h:1965-1973 *)
Definition zj_GetKeyFast (v : addr) : M (option (word * N)) :=
  with_key v (fun _ n => l <- rKeyLen n ;; ret (Some (nKey n, l))).

(** The loops of zj_ObjGet 1982-1988 and zj_ObjGetLen 2000-2007: walk the list
    [next] until [test] holds of a node. *)
Fixpoint find_node (fuel : nat) (test : node -> M bool) (next : word) : M (option addr) :=
  z <- is_null next ;;
  if z : bool then ret None else
  match fuel with
  | O => fail EFuel
  | S fuel' =>
      a <- deref next ;;
      n <- getNode a ;;
      b <- test n ;;
      if b : bool then ret (Some a) else find_node fuel' test (nNext n)
  end.

Definition to_handle (A : N) (r : option addr) : M (option addr) :=
  match r with
  | Some a => h <- zj_innerNewValue A a ;; ret (Some h)
  | None => ret None
  end.

(** zj_ObjGet, zzzjson.h:1975-1990 *)
Definition zj_ObjGet (fuel : nat) (v key : addr) : M (option addr) :=
  with_type v TObject (fun x _ n =>
    r <- find_node fuel (fun c =>
           l <- rKeyLen c ;;
           b <- load_w (nKey c) l ;;
           t <- readable key ;;
           lift (zj_strIsEqual t b)) (nVal n) ;;
    to_handle (vA x) r).

(** zj_ObjGetLen, zzzjson.h:1992-2009 *)
Definition zj_ObjGetLen (fuel : nat) (v key : addr) (len : N) : M (option addr) :=
  with_type v TObject (fun x _ n =>
    r <- find_node fuel (fun c =>
           l <- rKeyLen c ;;
           if negb (len =? l) then ret false else
           b <- load_w (nKey c) l ;;
           t <- load key len ;;
           ret (zj_strIsEqualLen t b)) (nVal n) ;;
    to_handle (vA x) r).

(** zj_Type, zzzjson.h:2011-2030 *)
Definition zj_Type (v : addr) : M (option jtype) :=
  x <- getVal v ;;
  z <- is_null (vN x) ;;
  if z : bool then ret None else
    a <- deref (vN x) ;;
    n <- getNode a ;;
    t <- rType n ;;
    ret (Some t).

Definition is_container (t : jtype) : bool := jtype_eqb t TObject || jtype_eqb t TArray.

(** zj_SizeOf, zzzjson.h:2032-2040 *)
Definition zj_SizeOf (v : addr) : M N :=
  x <- getVal v ;;
  z <- is_null (vN x) ;;
  if z : bool then ret 0 else
    a <- deref (vN x) ;;
    n <- getNode a ;;
    t <- rType n ;;
    if is_container t then rLen n else ret 0.

(** The loop of zj_ArrayGet, 2049-2057; [i] is a zj_Size. *)
Fixpoint nth_node (fuel : nat) (i index : N) (next : word) : M (option addr) :=
  z <- is_null next ;;
  if z : bool then ret None else
  match fuel with
  | O => fail EFuel
  | S fuel' =>
      a <- deref next ;;
      if i =? index then ret (Some a) else
      n <- getNode a ;;
      nth_node fuel' (u32 (i + 1)) index (nNext n)
  end.

(** zj_ArrayGet, zzzjson.h:2042-2059 *)
Definition zj_ArrayGet (fuel : nat) (v : addr) (index : N) : M (option addr) :=
  with_type v TArray (fun x _ n =>
    r <- nth_node fuel 0 index (nVal n) ;;
    to_handle (vA x) r).

(** zj_Begin, zzzjson.h:2061-2073 *)
Definition zj_Begin (v : addr) : M (option addr) :=
  x <- getVal v ;;
  z <- is_null (vN x) ;;
  if z : bool then ret None else
    a <- deref (vN x) ;;
    n <- getNode a ;;
    t <- rType n ;;
    if is_container t then
      z <- is_null (nVal n) ;;
      if z : bool then ret None else
        c <- deref (nVal n) ;; to_handle (vA x) (Some c)
    else ret None.

(** zj_Next, zzzjson.h:2075-2084 *)
Definition zj_Next (v : addr) : M (option addr) :=
  x <- getVal v ;;
  z <- is_null (vN x) ;;
  if z : bool then ret None else
    a <- deref (vN x) ;;
    n <- getNode a ;;
    z <- is_null (nNext n) ;;
    if z : bool then ret None else
      c <- deref (nNext n) ;; to_handle (vA x) (Some c).

(** ** Copying *)
(** [char *s = zj_allocatorAlloc(A, len); zj_memCopy(w, len, s)]: 2102-2103,
    2134-2135, 2267-2268, 2286-2287, 2424-2425, 2444-2445, 2533-2534, 2557-2558. *)
Definition dup_bytes (A : N) (w : word) (len : N) : M addr :=
  p <- zj_allocatorAlloc A len ;;
  b <- load_w w len ;;
  store p len b ;;;
  ret p.

(** Body of the do-while of zj_ValueCopyFrom up to the inner loop, 2100-2139.
    [Some (c, n)]: descended ([continue]). *)
Definition copy_body (A : N) (node des : addr) : M (option (addr * addr)) :=
  nd <- getNode node ;;
  t <- rType nd ;;
  modNode des (wType t) ;;;
  z <- is_null (nKey nd) ;;
  (if negb z then
     l <- rKeyLen nd ;;
     k <- dup_bytes A (nKey nd) l ;;
     modNode des (wKey (At k)) ;;;
     modNode des (wKeyLen l)
   else modNode des (wKey Null)) ;;;
  match t with
  | TObject | TArray =>
      l <- rLen nd ;;
      modNode des (wLen l) ;;;
      z <- is_null (nVal nd) ;;
      if negb z then
        c <- deref (nVal nd) ;;
        n <- newNode A ;;
        modNode n (wFather (At des)) ;;;
        modNode n (wPrev Null) ;;;
        modNode des (wVal (At n)) ;;;
        modNode des (wEnd (At n)) ;;;
        ret (Some (c, n))
      else
        modNode des (wVal Null) ;;;
        modNode des (wEnd Null) ;;;
        ret None
  | TBool | TNull =>
      modNode des (wVal (nVal nd)) ;;;
      l <- rLen nd ;;
      modNode des (wLen l) ;;;
      ret None
  | TNumber | TString =>
      l <- rLen nd ;;
      p <- dup_bytes A (nVal nd) l ;;
      modNode des (wVal (At p)) ;;;
      modNode des (wLen l) ;;;
      ret None
  end.

(** The loops of zj_ValueCopyFrom, 2099-2157.  [Item]: at 2100; [Close]: at 2140.
    The do-while test [node != vv->N] (2157) precedes every [Item] but the first. *)
Fixpoint copy_loop (fuel : nat) (A : N) (root : addr) (m : pmode) (node : addr) (desw : word) : M unit :=
  match fuel with
  | O => fail EFuel
  | S fuel' =>
      match m with
      | Item =>
          des <- deref desw ;;
          d <- copy_body A node des ;;
          match d with
          | Some (c, n) => if addr_eqb c root then ret tt else copy_loop fuel' A root Item c (At n)
          | None => copy_loop fuel' A root Close node desw
          end
      | Close =>
          if addr_eqb node root then ret tt else
          nd <- getNode node ;;
          z <- is_null (nNext nd) ;;
          des <- deref desw ;;
          if negb z then
            nx <- deref (nNext nd) ;;
            n <- newNode A ;;
            dn <- getNode des ;;
            modNode n (wFather (nFather dn)) ;;;
            modNode n (wPrev (At des)) ;;;
            f <- deref (nFather dn) ;;
            modNode f (wEnd (At n)) ;;;
            modNode des (wNext (At n)) ;;;
            if addr_eqb nx root then ret tt else copy_loop fuel' A root Item nx (At n)
          else
            f <- deref (nFather nd) ;;
            modNode des (wNext Null) ;;;
            dn <- getNode des ;;
            copy_loop fuel' A root Close f (nFather dn)
      end
  end.

(** zj_ValueCopyFrom, zzzjson.h:2086-2160 *)
Definition zj_ValueCopyFrom (fuel : nat) (v vv : addr) : M bool :=
  y <- getVal vv ;;
  z <- is_null (vN y) ;;
  if z : bool then ret false else
    x <- getVal v ;;
    n <- newNode (vA x) ;;
    putVal v (mkVal (At n) (vA x)) ;;;
    modNode n (wPrev Null) ;;;
    modNode n (wNext Null) ;;;
    modNode n (wFather Null) ;;;
    root <- deref (vN y) ;;
    copy_loop fuel (vA x) root Item root (At n) ;;;
    ret true.

(** zj_Copy, zzzjson.h:2162-2168 *)
Definition zj_Copy (fuel : nat) (v : addr) : M (option addr) :=
  x <- getVal v ;;
  h <- zj_NewValue (vA x) ;;
  ok <- zj_ValueCopyFrom fuel h v ;;
  ret (if ok : bool then Some h else None).

(** ** Modifying *)
(** zj_Move, zzzjson.h:2170-2191, statement by statement on [a] = v->N *)
Definition move_node (a : addr) : M unit :=
  n <- getNode a ;;
  fz <- is_null (nFather n) ;;
  if fz : bool then ret tt else
    f <- deref (nFather n) ;;
    pz <- is_null (nPrev n) ;;
    (if pz : bool then modNode f (wVal (nNext n))
     else
       p <- deref (nPrev n) ;;
       modNode p (wNext (nNext n)) ;;;
       modNode a (wPrev Null)) ;;;
    n <- getNode a ;;
    nz <- is_null (nNext n) ;;
    (if nz : bool then modNode f (wEnd (nPrev n))
     else
       x <- deref (nNext n) ;;
       modNode x (wPrev (nPrev n)) ;;;
       modNode a (wNext Null)) ;;;
    fn <- getNode f ;;
    l <- rLen fn ;;
    modNode f (wLen (u32 (l + two32 - 1))) ;;;
    modNode a (wFather Null).
Definition zj_Move (v : addr) : M bool :=
  x <- getVal v ;;
  z <- is_null (vN x) ;;
  if z : bool then ret false else
    a <- deref (vN x) ;;
    move_node a ;;;
    ret true.

(** The block [if (v->N == 0) \{ v->N = alloc; Key = Prev = Father = Next = 0 \}]
    of the setters (e.g. 2195-2201); result: v->N. *)
Definition ensure_node (v : addr) : M addr :=
  x <- getVal v ;;
  z <- is_null (vN x) ;;
  if z : bool then
    n <- newNode (vA x) ;;
    putVal v (mkVal (At n) (vA x)) ;;;
    modNode n (wKey Null) ;;;
    modNode n (wPrev Null) ;;;
    modNode n (wFather Null) ;;;
    modNode n (wNext Null) ;;;
    ret n
  else deref (vN x).

(** zj_SetNull, zzzjson.h:2193-2205 *)
Definition zj_SetNull (v : addr) : M unit :=
  n <- ensure_node v ;; set_scalar n TNull zj_strNull 4.
(** zj_SetBool, zzzjson.h:2207-2224 *)
Definition zj_SetBool (v : addr) (b : bool) : M unit :=
  n <- ensure_node v ;;
  if b then set_scalar n TBool zj_strTrue 4 else set_scalar n TBool zj_strFalse 5.

(** zj_checkStrLen 1271-1288 / zj_checkNumLen 1389-1405: the bytes are copied
    into the static string cache, terminated, and checked there. *)
Definition check_len (check : bytes -> res (option N)) (A : N) (s : addr) (len : N) : M bool :=
  c <- (fun st0 => Ok (scache st0, st0)) ;;
  cz <- is_null c ;;
  p <- (if cz : bool then
          p <- zj_newString A zj_StringCacheInitMemSize ;;
          (fun st0 => Ok (tt, set_cache (At p) st0)) ;;;
          ret p
        else
          p <- deref c ;; zj_reset p ;;; ret p) ;;
  b <- load s len ;;
  zj_appendStr p b ;;;
  zj_appendEnd p ;;;
  d <- zj_str p ;;
  t <- readable d ;;
  r <- lift (check t) ;;
  ret (match r with Some avail_len => avail_len =? len | None => false end).
Definition zj_checkStrLen := check_len zj_checkStr.
Definition zj_checkNumLen := check_len zj_checkNum.

(** The common shape of zj_SetNumStrFast 2226-2242 and zj_SetStrFast 2381-2398 *)
Definition set_text_fast (check : bytes -> res (option N)) (t : jtype) (v s : addr) : M bool :=
  b <- readable s ;;
  r <- lift (check b) ;;
  match r with
  | None => ret false
  | Some len => n <- ensure_node v ;; set_scalar n t s len ;;; ret true
  end.
(** zj_SetNumStrLenFast 2244-2260, zj_SetStrLenFast 2400-2416 *)
Definition set_text_len_fast (check : bytes -> res (option N)) (t : jtype) (v s : addr) (len : N) : M bool :=
  x <- getVal v ;;
  ok <- check_len check (vA x) s len ;;
  if negb ok then ret false else
    n <- ensure_node v ;; set_scalar n t s len ;;; ret true.
(** zj_SetNumStr 2262-2280, zj_SetStr 2418-2437 *)
Definition set_text (check : bytes -> res (option N)) (t : jtype) (v s : addr) : M bool :=
  b <- readable s ;;
  r <- lift (check b) ;;
  match r with
  | None => ret false
  | Some len =>
      x <- getVal v ;;
      p <- dup_bytes (vA x) (At s) len ;;
      n <- ensure_node v ;; set_scalar n t p len ;;; ret true
  end.
(** zj_SetNumStrLen 2282-2299, zj_SetStrLen 2439-2457 *)
Definition set_text_len (check : bytes -> res (option N)) (t : jtype) (v s : addr) (len : N) : M bool :=
  x <- getVal v ;;
  ok <- check_len check (vA x) s len ;;
  if negb ok then ret false else
    p <- dup_bytes (vA x) (At s) len ;;
    n <- ensure_node v ;; set_scalar n t p len ;;; ret true.

Definition zj_SetNumStrFast := set_text_fast zj_checkNum TNumber.
Definition zj_SetNumStrLenFast := set_text_len_fast zj_checkNum TNumber.
Definition zj_SetNumStr := set_text zj_checkNum TNumber.
Definition zj_SetNumStrLen := set_text_len zj_checkNum TNumber.
Definition zj_SetStrFast := set_text_fast zj_checkStr TString.
Definition zj_SetStrLenFast := set_text_len_fast zj_checkStr TString.
Definition zj_SetStr := set_text zj_checkStr TString.
Definition zj_SetStrLen := set_text_len zj_checkStr TString.

(** snprintf(buff, cap, ...) with output [text] into memory of [size] bytes: at
    most cap-1 characters and a 0 are written; the result is the full length
    (393-408). *)
Definition snprintf (p : addr) (size cap : N) (text : bytes) : M N :=
  let out := firstn (N.to_nat cap - 1) text ++ [0] in
  store p size out ;;;
  ret (N.of_nat (length text)).

(** %d / %ld / %lld *)
Fixpoint dec_digits (fuel : nat) (n : N) : bytes :=
  match fuel with
  | O => []
  | S f => if n <? 10 then [48 + n] else dec_digits f (n / 10) ++ [48 + n mod 10]
  end.
Definition dec_text (z : Z) : bytes :=
  (if (z <? 0)%Z then [45] else []) ++
  dec_digits (S (N.to_nat (N.log2 (Z.abs_N z)))) (Z.abs_N z).

(** The common shape of zj_SetInt 2322-2336 (16, 12), zj_SetLong 2338-2352 and
    zj_SetLongLong 2354-2368 (24, 24), zj_SetDouble 2306-2320 (32, 32). *)
Definition set_printed (v : addr) (size cap : N) (text : bytes) : M bool :=
  x <- getVal v ;;
  p <- zj_allocatorAlloc (vA x) size ;;
  len <- snprintf p size cap text ;;
  n <- ensure_node v ;;
  set_scalar n TNumber p len ;;;
  ret true.
Definition zj_SetInt (v : addr) (z : Z) : M bool := set_printed v 16 12 (dec_text z).
Definition zj_SetLong (v : addr) (z : Z) : M bool := set_printed v 24 24 (dec_text z).
Definition zj_SetLongLong (v : addr) (z : Z) : M bool := set_printed v 24 24 (dec_text z).

(** zj_escapeStr 1108-1126, zj_escapeStrLen 1128-1151, given the source bytes. *)
Definition escape_out (A : N) (src : bytes) : M addr :=
  p <- zj_allocatorAlloc A (u32 (escape_len src + 1)) ;;
  store p (u32 (escape_len src + 1)) (escape_text src ++ [0]) ;;;
  ret p.
Definition zj_escapeStr (s : addr) (A : N) : M addr :=
  t <- readable s ;; src <- lift (cstr_of t) ;; escape_out A src.
Definition zj_escapeStrLen (s : addr) (A : N) (len : N) : M addr :=
  src <- load s len ;; escape_out A src.

(** zj_SetStrEscape 2370-2373, zj_SetStrLenEscape 2375-2379 *)
Definition zj_SetStrEscape (v s : addr) : M bool :=
  x <- getVal v ;; es <- zj_escapeStr s (vA x) ;; zj_SetStrFast v es.
Definition zj_SetStrLenEscape (v s : addr) (len : N) : M bool :=
  x <- getVal v ;; es <- zj_escapeStrLen s (vA x) len ;; zj_SetStrFast v es.

(** The key setters share the block 2476-2487 (= 2498-2509, 2521-2532,
    2545-2556): make a null node, or refuse if the father is not an object.
    [None]: return false. *)
Definition key_node (v : addr) : M (option addr) :=
  x <- getVal v ;;
  z <- is_null (vN x) ;;
  if z : bool then
    n <- newNode (vA x) ;;
    putVal v (mkVal (At n) (vA x)) ;;;
    modNode n (wPrev Null) ;;;
    modNode n (wFather Null) ;;;
    modNode n (wNext Null) ;;;
    set_scalar n TNull zj_strNull 4 ;;;
    ret (Some n)
  else
    a <- deref (vN x) ;;
    n <- getNode a ;;
    fz <- is_null (nFather n) ;;
    if fz : bool then ret (Some a) else
      f <- deref (nFather n) ;;
      fn <- getNode f ;;
      t <- rType fn ;;
      if jtype_eqb t TObject then ret (Some a) else ret None.
Definition put_key (n : addr) (k : addr) (len : N) : M bool :=
  modNode n (wKey (At k)) ;;; modNode n (wKeyLen len) ;;; ret true.

(** zj_SetKeyFast, zzzjson.h:2470-2491 *)
Definition zj_SetKeyFast (v s : addr) : M bool :=
  b <- readable s ;;
  r <- lift (zj_checkStr b) ;;
  match r with
  | None => ret false
  | Some len =>
      k <- key_node v ;;
      match k with None => ret false | Some n => put_key n s len end
  end.
(** zj_SetKeyLenFast, zzzjson.h:2493-2513 *)
Definition zj_SetKeyLenFast (v s : addr) (len : N) : M bool :=
  x <- getVal v ;;
  ok <- zj_checkStrLen (vA x) s len ;;
  if negb ok then ret false else
    k <- key_node v ;;
    match k with None => ret false | Some n => put_key n s len end.
(** zj_SetKey, zzzjson.h:2515-2538 *)
Definition zj_SetKey (v s : addr) : M bool :=
  b <- readable s ;;
  r <- lift (zj_checkStr b) ;;
  match r with
  | None => ret false
  | Some len =>
      k <- key_node v ;;
      match k with
      | None => ret false
      | Some n => x <- getVal v ;; p <- dup_bytes (vA x) (At s) len ;; put_key n p len
      end
  end.
(** zj_SetKeyLen, zzzjson.h:2540-2562 *)
Definition zj_SetKeyLen (v s : addr) (len : N) : M bool :=
  x <- getVal v ;;
  ok <- zj_checkStrLen (vA x) s len ;;
  if negb ok then ret false else
    k <- key_node v ;;
    match k with
    | None => ret false
    | Some n => p <- dup_bytes (vA x) (At s) len ;; put_key n p len
    end.
(** zj_SetKeyEscape 2459-2462, zj_SetKeyLenEscape 2464-2468 *)
Definition zj_SetKeyEscape (v s : addr) : M bool :=
  x <- getVal v ;; es <- zj_escapeStr s (vA x) ;; zj_SetKeyFast v es.
Definition zj_SetKeyLenEscape (v s : addr) (len : N) : M bool :=
  x <- getVal v ;; es <- zj_escapeStrLen s (vA x) len ;; zj_SetKeyFast v es.

(** zj_SetArray 2564-2577, zj_SetObj 2579-2592 *)
Definition set_container (t : jtype) (v : addr) : M unit :=
  n <- ensure_node v ;;
  modNode n (wType t) ;;;
  modNode n (wVal Null) ;;;
  modNode n (wLen 0).
Definition zj_SetArray := set_container TArray.
Definition zj_SetObj := set_container TObject.

(** The loops [while (next != 0) \{ next->Father = v->N; next = next->Next; \}],
    2608-2612 and 2632-2636. *)
Fixpoint adopt (fuel : nat) (father : addr) (next : word) : M unit :=
  z <- is_null next ;;
  if z : bool then ret tt else
  match fuel with
  | O => fail EFuel
  | S fuel' =>
      a <- deref next ;;
      modNode a (wFather (At father)) ;;;
      n <- getNode a ;;
      adopt fuel' father (nNext n)
  end.

(** The block 2603-2613 = 2627-2637: Type, Value and Len of [from], and for
    containers the End field of [endof] ([from] itself in zj_SetFast, vv->N in
    zj_Set) and the children's Father. *)
Definition take_value (fuel : nat) (a from endof : addr) : M unit :=
  m <- getNode from ;;
  t <- rType m ;;
  modNode a (wType t) ;;;
  modNode a (wVal (nVal m)) ;;;
  m <- getNode from ;;
  l <- rLen m ;;
  modNode a (wLen l) ;;;
  if is_container t then
    e <- getNode endof ;;
    modNode a (wEnd (nEnd e)) ;;;
    n <- getNode a ;;
    adopt fuel a (nVal n)
  else ret tt.

(** zj_SetFast, zzzjson.h:2594-2616 *)
Definition zj_SetFast (fuel : nat) (v vv : addr) : M bool :=
  ok <- zj_Move vv ;;
  if negb ok then ret false else
    x <- getVal v ;;
    z <- is_null (vN x) ;;
    if z : bool then
      y <- getVal vv ;;
      putVal v (mkVal (vN y) (vA x)) ;;;
      y <- getVal vv ;;
      putVal vv (mkVal Null (vA y)) ;;;
      ret true
    else
      a <- deref (vN x) ;;
      y <- getVal vv ;;
      b <- deref (vN y) ;;
      take_value fuel a b b ;;;
      putVal vv (mkVal Null (vA y)) ;;;
      ret true.

(** zj_Set, zzzjson.h:2618-2639 *)
Definition zj_Set (fuel : nat) (v vv : addr) : M bool :=
  c <- zj_Copy fuel vv ;;
  match c with
  | None => ret false
  | Some cp =>
      y <- getVal cp ;;
      x <- getVal v ;;
      z <- is_null (vN x) ;;
      if z : bool then
        putVal v (mkVal (vN y) (vA x)) ;;; ret true
      else
        a <- deref (vN x) ;;
        b <- deref (vN y) ;;
        o <- getVal vv ;;
        e <- deref (vN o) ;;
        take_value fuel a b e ;;;
        ret true
  end.

(** Appending node [c] to container [a]: 2653-2663 = 2681-2691 = 2704-2714 = 2729-2739 *)
Definition append_node (a c : addr) : M unit :=
  modNode c (wFather (At a)) ;;;
  n <- getNode a ;;
  z <- is_null (nVal n) ;;
  if z : bool then
    modNode a (wVal (At c)) ;;;
    modNode a (wLen 1) ;;;
    modNode a (wEnd (At c))
  else
    e <- deref (nEnd n) ;;
    modNode e (wNext (At c)) ;;;
    n <- getNode a ;;
    modNode c (wPrev (nEnd n)) ;;;
    modNode a (wEnd (At c)) ;;;
    n <- getNode a ;;
    l <- rLen n ;;
    modNode a (wLen (u32 (l + 1))).

(** [if (v->N == 0) return false; if (v->N->Type != t) return false;] then [k v->N]. *)
Definition when_type (v : addr) (t : jtype) (k : addr -> M bool) : M bool :=
  r <- with_type v t (fun _ a _ => b <- k a ;; ret (Some b)) ;;
  ret (match r with Some b => b | None => false end).

(** [if (vv->N == 0) return false; if (vv->N->Key == 0) return false;] then [k] *)
Definition when_key (vv : addr) (k : M bool) : M bool :=
  r <- with_key vv (fun _ _ => b <- k ;; ret (Some b)) ;;
  ret (match r with Some b => b | None => false end).

(** zj_ObjAddFast, zzzjson.h:2641-2666 *)
Definition zj_ObjAddFast (v vv : addr) : M bool :=
  when_type v TObject (fun _ =>
  when_key vv (
    ok <- zj_Move vv ;;
    if negb ok then ret false else
      y <- getVal vv ;;
      c <- deref (vN y) ;;
      x <- getVal v ;;
      a <- deref (vN x) ;;
      append_node a c ;;;
      putVal vv (mkVal Null (vA y)) ;;;
      ret true)).

(** zj_ObjAdd, zzzjson.h:2668-2693 *)
Definition zj_ObjAdd (fuel : nat) (v vv : addr) : M bool :=
  when_type v TObject (fun a =>
  when_key vv (
    cp <- zj_Copy fuel vv ;;
    match cp with
    | None => ret false
    | Some h =>
        y <- getVal h ;;
        c <- deref (vN y) ;;
        append_node a c ;;;
        ret true
    end)).

(** zj_ArrayAddFast, zzzjson.h:2695-2717 *)
Definition zj_ArrayAddFast (v vv : addr) : M bool :=
  when_type v TArray (fun _ =>
    ok <- zj_Move vv ;;
    if negb ok then ret false else
      y <- getVal vv ;;
      c <- deref (vN y) ;;
      modNode c (wKey Null) ;;;
      x <- getVal v ;;
      a <- deref (vN x) ;;
      append_node a c ;;;
      putVal vv (mkVal Null (vA y)) ;;;
      ret true).

(** zj_ArrayAdd, zzzjson.h:2719-2741 *)
Definition zj_ArrayAdd (fuel : nat) (v vv : addr) : M bool :=
  when_type v TArray (fun a =>
    cp <- zj_Copy fuel vv ;;
    match cp with
    | None => ret false
    | Some h =>
        y <- getVal h ;;
        c <- deref (vN y) ;;
        modNode c (wKey Null) ;;;
        append_node a c ;;;
        ret true
    end).

(** zj_ArrayDel, zzzjson.h:2743-2749 *)
Definition zj_ArrayDel (fuel : nat) (v : addr) (index : N) : M bool :=
  d <- zj_ArrayGet fuel v index ;;
  match d with None => ret false | Some h => zj_Move h end.

(** zj_ObjDel, zzzjson.h:2751-2757 *)
Definition zj_ObjDel (fuel : nat) (v key : addr) : M bool :=
  d <- zj_ObjGet fuel v key ;;
  match d with None => ret false | Some h => zj_Move h end.
