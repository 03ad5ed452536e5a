(** Lexical functions of zzzjson.h.

    Simplification, used throughout this file: instead of a base pointer [s] and
    an index, a function receives the list of the bytes readable from
    [s + index] up to the end of the readable memory; advancing the index drops
    the head of the list, [s[index]] is its head, and reading from the empty
    list is [Err EOob].  An index is recovered as (length of the whole list) -
    (length of the rest).  This is exact as long as the index does not wrap,
    i.e. for texts shorter than 2^32 bytes ([ParseFast] and the setters in
    Api.v refuse longer ones with [ELimit]).  Where the C function leaves the
    index behind on failure, no caller uses it, and the model returns [None]. *)
From Verif Require Import Base.

(** zj_skin, zzzjson.h:764-771 *)
Definition zj_skin (c : N) : bool := (c =? 32) || (c =? 9) || (c =? 10) || (c =? 13).

(** The loop [while (zj_skin(s[*index])) ++( *index)] of zj_peek (775-776),
    zj_likelyPeekAndConsume (812-813) and zj_unLikelyPeekAndConsume (824-825). *)
Fixpoint skip_ws (s : bytes) : res bytes :=
  match s with
  | [] => Err EOob
  | c :: r => if zj_skin c then skip_ws r else Ok s
  end.

(** zj_peek, zzzjson.h:773-778: the next non-blank character and the rest after it. *)
Definition zj_peek (s : bytes) : res (N * bytes) :=
  r <-? skip_ws s ;;
  match r with
  | [] => Err EOob
  | c :: r' => Ok (c, r')
  end.

(** zj_consume 780-787, zj_likelyConsume 789-797, zj_unLikelyConsume 799-807
    (they differ only in the branch hint). [None]: not consumed. *)
Definition zj_consume (c : N) (s : bytes) : res (option bytes) :=
  match s with
  | [] => Err EOob
  | x :: r => Ok (if x =? c then Some r else None)
  end.

(** zj_likelyPeekAndConsume 809-819, zj_unLikelyPeekAndConsume 821-831.
    Result: consumed?, rest (blanks are skipped in both cases). *)
Definition zj_peekAndConsume (c : N) (s : bytes) : res (bool * bytes) :=
  r <-? skip_ws s ;;
  match r with
  | [] => Err EOob
  | x :: r' => Ok (if x =? c then (true, r') else (false, r))
  end.

(** The 32-bit loads of zj_consumeFalse/True/Null: four bytes at once. *)
Definition load4_eq (a b c d : N) (s : bytes) : res bool :=
  match s with
  | w :: x :: y :: z :: _ => Ok ((w =? a) && (x =? b) && (y =? c) && (z =? d))
  | _ => Err EOob
  end.

(** zj_consumeFalse, zzzjson.h:833-840: "alse" at s + index. *)
Definition zj_consumeFalse (s : bytes) : res (option bytes) :=
  b <-? load4_eq 97 108 115 101 s ;;
  Ok (if b then Some (skipn 4 s) else None).
(** zj_consumeTrue, zzzjson.h:842-849: "true" at s + index - 1.  [s1] is the
    list from s + index - 1 (the character already consumed by zj_peek). *)
Definition zj_consumeTrue (s1 : bytes) : res (option bytes) :=
  b <-? load4_eq 116 114 117 101 s1 ;;
  Ok (if b then Some (skipn 4 s1) else None).
(** zj_consumeNull, zzzjson.h:851-858: "null" at s + index - 1. *)
Definition zj_consumeNull (s1 : bytes) : res (option bytes) :=
  b <-? load4_eq 110 117 108 108 s1 ;;
  Ok (if b then Some (skipn 4 s1) else None).

(** zj_hexCodePoint, zzzjson.h:860-869 *)
Definition zj_hexCodePoint (c : N) : N :=
  if (48 <=? c) && (c <=? 57) then c - 48
  else if (65 <=? c) && (c <=? 70) then c - 65 + 10
  else if (97 <=? c) && (c <=? 102) then c - 97 + 10
  else 16.

(** zj_consumeHexOne, zzzjson.h:880-891: new code point, or [None]. *)
Definition zj_consumeHexOne (s : bytes) (cp : N) : res (option (N * bytes)) :=
  match s with
  | [] => Err EOob
  | c :: r => let t := zj_hexCodePoint c in
      Ok (if t <? 16 then Some (u32 (u32 (N.shiftl cp 4) + t), r) else None)
  end.

(** zj_consumeHex, zzzjson.h:902-911, called with [*cp == 0] everywhere. *)
Definition zj_consumeHex (s : bytes) : res (option (N * bytes)) :=
  r1 <-? zj_consumeHexOne s 0 ;;
  match r1 with None => Ok None | Some (cp1, s1) =>
  r2 <-? zj_consumeHexOne s1 cp1 ;;
  match r2 with None => Ok None | Some (cp2, s2) =>
  r3 <-? zj_consumeHexOne s2 cp2 ;;
  match r3 with None => Ok None | Some (cp3, s3) =>
  zj_consumeHexOne s3 cp3
  end end end.

(** The characters of the first group of cases of the switch in zj_consumeStr
    (1163-1170) and zj_checkStr (1225-1232). *)
Definition simple_escape (c : N) : bool :=
  (c =? 34) || (c =? 92) || (c =? 98) || (c =? 102) || (c =? 110) ||
  (c =? 114) || (c =? 116) || (c =? 47).

(** The [case 'u'] of zj_consumeStr (1173-1199) and zj_checkStr (1235-1261),
    which differ in the upper bound [dfff] of the first test.  The result is the
    number of bytes consumed after the 'u' (4 or 10), [None] for [return false]. *)
Definition u_escape (dfff : N) (s : bytes) : res (option nat) :=
  r <-? zj_consumeHex s ;;
  match r with
  | None => Ok None
  | Some (cp, s1) =>
      if (56320 <=? cp) && (cp <=? dfff) then Ok None
      else if (55296 <=? cp) && (cp <=? 56319) then
        r1 <-? zj_consume 92 s1 ;;
        match r1 with None => Ok None | Some s2 =>
        r2 <-? zj_consume 117 s2 ;;
        match r2 with None => Ok None | Some s3 =>
        r3 <-? zj_consumeHex s3 ;;
        match r3 with None => Ok None | Some (cp2, _) =>
          if (cp2 <? 56320) || (57343 <? cp2) then Ok None else Ok (Some 10%nat)
        end end end
      else Ok (Some 4%nat)
  end.

(** zj_consumeStr, zzzjson.h:1153-1210, from just after the opening quote.
    [Ok (Some r)]: true, [r] follows the closing quote; [Ok None]: false.
    (The loop is structural because [u_escape] says how many bytes it took.) *)
Fixpoint zj_consumeStr (s : bytes) : res (option bytes) :=
  match s with
  | [] => Err EOob
  | c :: s1 =>
      if c =? 0 then Ok None                       (* while (c != 0) ... return false *)
      else if c <=? 31 then Ok None
      else if c =? 92 then
        match s1 with
        | [] => Err EOob
        | e :: s2 =>
            if simple_escape e then zj_consumeStr s2
            else if e =? 117 then
              r <-? u_escape 57343 s2 ;;
              match r with
              | None => Ok None
              | Some 4%nat =>
                  match s2 with
                  | _ :: _ :: _ :: _ :: s3 => zj_consumeStr s3
                  | _ => Err EOob
                  end
              | Some _ =>
                  match s2 with
                  | _ :: _ :: _ :: _ :: _ :: _ :: _ :: _ :: _ :: _ :: s3 => zj_consumeStr s3
                  | _ => Err EOob
                  end
              end
            else Ok None
        end
      else if c =? 34 then Ok (Some s1)
      else zj_consumeStr s1
  end.

(** zj_checkStr, zzzjson.h:1212-1270.  The result is the length stored in
    [*len] on true, [None] on false.  Note the bound 0xDFFFF in line 1240. *)
Fixpoint zj_checkStr (s : bytes) : res (option N) :=
  match s with
  | [] => Err EOob
  | c :: s1 =>
      if c =? 0 then Ok (Some 0)
      else if (c <=? 31) || (c =? 34) then Ok None
      else if c =? 92 then
        match s1 with
        | [] => Err EOob
        | e :: s2 =>
            if simple_escape e then
              r <-? zj_checkStr s2 ;; Ok (option_map (N.add 2) r)
            else if e =? 117 then
              r <-? u_escape 917503 s2 ;;
              match r with
              | None => Ok None
              | Some 4%nat =>
                  match s2 with
                  | _ :: _ :: _ :: _ :: s3 =>
                      r' <-? zj_checkStr s3 ;; Ok (option_map (N.add 6) r')
                  | _ => Err EOob
                  end
              | Some _ =>
                  match s2 with
                  | _ :: _ :: _ :: _ :: _ :: _ :: _ :: _ :: _ :: _ :: s3 =>
                      r' <-? zj_checkStr s3 ;; Ok (option_map (N.add 12) r')
                  | _ => Err EOob
                  end
              end
            else Ok None
        end
      else r <-? zj_checkStr s1 ;; Ok (option_map (N.add 1) r)
  end.

Definition digitb (c : N) : bool := (48 <=? c) && (c <=? 57).

(** [c = s[++index]; while (c is a digit) c = s[++index]] *)
Fixpoint skip_digits (s : bytes) : res bytes :=
  match s with
  | [] => Err EOob
  | c :: r => if digitb c then skip_digits r else Ok s
  end.

(** At least one digit, then all further ones: [None] if there is none. *)
Definition digits1 (s : bytes) : res (option bytes) :=
  match s with
  | [] => Err EOob
  | c :: r => if digitb c then r' <-? skip_digits r ;; Ok (Some r') else Ok None
  end.

(** zj_consumeNum, zzzjson.h:1290-1337 (from the first character of the number:
    line 1292 steps back to it), and the common part of zj_checkNum, 1339-1385,
    which is the same text up to the way the exponent sign is tested. *)
Definition zj_consumeNum (s : bytes) : res (option bytes) :=
  match s with
  | [] => Err EOob
  | c :: r0 =>
      let s1 := if c =? 45 then r0 else s in
      (* integer part *)
      i <-? match s1 with
            | [] => Err EOob
            | d :: r1 => if d =? 48 then Ok (Some r1)
                         else if (49 <=? d) && (d <=? 57) then
                           r' <-? skip_digits r1 ;; Ok (Some r')
                         else Ok None
            end ;;
      match i with
      | None => Ok None
      | Some s2 =>
          (* fraction *)
          p <-? zj_consume 46 s2 ;;
          f <-? match p with
                | Some s3 => digits1 s3
                | None => Ok (Some s2)
                end ;;
          match f with
          | None => Ok None
          | Some s4 =>
              (* exponent *)
              match s4 with
              | [] => Err EOob
              | e :: r4 =>
                  if (e =? 101) || (e =? 69) then
                    match r4 with
                    | [] => Err EOob
                    | g :: r5 => digits1 (if (g =? 45) || (g =? 43) then r5 else r4)
                    end
                  else Ok (Some s4)
              end
          end
      end
  end.

(** zj_checkNum, zzzjson.h:1339-1388: the whole argument must be the number.
    Result: [*len] on true, [None] on false. *)
Definition zj_checkNum (s : bytes) : res (option N) :=
  r <-? zj_consumeNum s ;;
  match r with
  | None => Ok None
  | Some s' =>
      z <-? zj_consume 0 s' ;;
      Ok (match z with
          | Some _ => Some (N.of_nat (length s) - N.of_nat (length s'))
          | None => None
          end)
  end.

(** zj_hexCodePointForUnEscape, zzzjson.h:871-878: [c - 'a' + 10] is computed in
    [int] from a signed [char] and converted to uint32_t. *)
Definition schar (c : N) : Z := if c <? 128 then Z.of_N c else (Z.of_N c - 256)%Z.
Definition zj_hexCodePointForUnEscape (c : N) : N :=
  if (48 <=? c) && (c <=? 57) then c - 48
  else if (65 <=? c) && (c <=? 70) then c - 65 + 10
  else Z.to_N ((schar c - 97 + 10) mod 4294967296).

(** zj_consumeHexOneForUnEscape 893-900, four times: zj_consumeHexForUnEscape 913-921 *)
Definition hexU (cp c : N) : N := u32 (u32 (N.shiftl cp 4) + zj_hexCodePointForUnEscape c).
Definition hex4U (a b c d : N) : N := hexU (hexU (hexU (hexU 0 a) b) c) d.

(** zj_addUTF8, zzzjson.h:934-952: the bytes it appends. *)
Definition zj_addUTF8 (cp : N) : bytes :=
  let ch x := N.land x 255 in
  if cp <=? 127 then [ch (N.land cp 255)]
  else if cp <=? 2047 then
    [ch (N.lor 192 (N.land (N.shiftr cp 6) 255)); ch (N.lor 128 (N.land cp 63))]
  else if cp <=? 65535 then
    [ch (N.lor 224 (N.land (N.shiftr cp 12) 255));
     ch (N.lor 128 (N.land (N.shiftr cp 6) 63)); ch (N.lor 128 (N.land cp 63))]
  else
    [ch (N.lor 240 (N.land (N.shiftr cp 18) 255));
     ch (N.lor 128 (N.land (N.shiftr cp 12) 63));
     ch (N.lor 128 (N.land (N.shiftr cp 6) 63)); ch (N.lor 128 (N.land cp 63))].

(** Line 1016: [(((cp - 0xD800) << 10) | (cp1 - 0xDC00)) + 0x10000] in uint32_t. *)
Definition pair_cp (cp cp1 : N) : N :=
  u32 (N.lor (u32 (N.shiftl (u32 (cp + two32 - 55296)) 10)) (u32 (cp1 + two32 - 56320)) + 65536).

(** The switch on the character after a backslash, zzzjson.h:966-1006. *)
Definition unescape1 (c : N) : option N :=
  if c =? 34 then Some 34
  else if c =? 92 then Some 92
  else if c =? 98 then Some 8
  else if c =? 102 then Some 12
  else if c =? 110 then Some 10
  else if c =? 114 then Some 13
  else if c =? 116 then Some 9
  else if c =? 47 then Some 47
  else None.

(** zj_unEscapeStr, zzzjson.h:957-1029, without the final 0.  [s]: the bytes
    readable from [str + index]; [rem]: [len - index] (the loop runs while it is
    positive).  An unknown escape character makes no progress: endless loop. *)
Fixpoint zj_unEscapeStr (s : bytes) (rem : Z) : res bytes :=
  if (rem <=? 0)%Z then Ok []
  else
  match s with
  | [] => Err EOob
  | c :: s1 =>
      if c =? 92 then
        match s1 with
        | [] => Err EOob
        | e :: s2 =>
            match unescape1 e with
            | Some x => o <-? zj_unEscapeStr s2 (rem - 2) ;; Ok (x :: o)
            | None =>
                if e =? 117 then
                  match s2 with
                  | h1 :: h2 :: h3 :: h4 :: s3 =>
                      let cp := hex4U h1 h2 h3 h4 in
                      if (55296 <=? cp) && (cp <=? 56319) then
                        match s3 with
                        | _ :: _ :: k1 :: k2 :: k3 :: k4 :: s4 =>
                            o <-? zj_unEscapeStr s4 (rem - 12) ;;
                            Ok (zj_addUTF8 (pair_cp cp (hex4U k1 k2 k3 k4)) ++ o)
                        | _ => Err EOob
                        end
                      else
                        o <-? zj_unEscapeStr s3 (rem - 6) ;;
                        Ok (zj_addUTF8 cp ++ o)
                  | _ => Err EOob
                  end
                else Err EFuel
            end
        end
      else o <-? zj_unEscapeStr s1 (rem - 1) ;; Ok (c :: o)
  end.

(** zj_escapeChars, zzzjson.h:1036-1106: row [c] of the table, with its [Len]. *)
Definition hexdig (x : N) : N := if x <? 10 then 48 + x else 87 + x.
Definition u00 (c : N) : bytes := [92; 117; 48; 48; hexdig (c / 16); hexdig (c mod 16)].
Definition zj_escapeChars_Str (c : N) : bytes :=
  if c =? 8 then [92; 98]            (* 1040 *)
  else if c =? 9 then [92; 116]
  else if c =? 10 then [92; 110]
  else if c =? 12 then [92; 102]     (* 1041 *)
  else if c =? 13 then [92; 114]
  else if c <? 32 then u00 c         (* 1037-1046 *)
  else if c =? 34 then [92; 34]      (* 1048 *)
  else if c =? 92 then [92; 92]      (* 1065 *)
  else [c].
Definition zj_escapeChars_Len (c : N) : N :=
  if (c =? 8) || (c =? 9) || (c =? 10) || (c =? 12) || (c =? 13) then 2
  else if c <? 32 then 6
  else if (c =? 34) || (c =? 92) then 2
  else 1.

(** zj_escapeStrLen, zzzjson.h:1128-1151: total length (first loop) and text
    (second loop; zj_addLen copies [Len] bytes of [Str]). *)
Fixpoint escape_len (s : bytes) : N :=
  match s with
  | [] => 0
  | c :: r => u32 (zj_escapeChars_Len c + escape_len r)
  end.
Fixpoint escape_text (s : bytes) : bytes :=
  match s with
  | [] => []
  | c :: r => firstn (N.to_nat (zj_escapeChars_Len c)) (zj_escapeChars_Str c) ++ escape_text r
  end.

(** The bytes of a C string: up to the first 0 ([while ( *str != 0)], 1112, 1119;
    strlen, 369). *)
Fixpoint cstr_of (s : bytes) : res bytes :=
  match s with
  | [] => Err EOob
  | c :: r => if c =? 0 then Ok [] else l <-? cstr_of r ;; Ok (c :: l)
  end.

(** zj_strIsEqual, zzzjson.h:410-422: [a] 0-terminated, [b] the [len] key bytes
    (loaded before the comparison; the C loop reads them one by one). *)
Fixpoint zj_strIsEqual (a b : bytes) : res bool :=
  match b with
  | [] => match a with [] => Err EOob | x :: _ => Ok (x =? 0) end
  | y :: b' =>
      match a with
      | [] => Err EOob
      | x :: a' => if x =? y then zj_strIsEqual a' b' else Ok false
      end
  end.

(** zj_strIsEqualLen, zzzjson.h:424-437 *)
Fixpoint bytes_eqb (a b : bytes) : bool :=
  match a, b with
  | [], [] => true
  | x :: a', y :: b' => (x =? y) && bytes_eqb a' b'
  | _, _ => false
  end.
Definition zj_strIsEqualLen (a b : bytes) : bool :=
  (N.of_nat (length a) =? N.of_nat (length b)) && bytes_eqb a b.
