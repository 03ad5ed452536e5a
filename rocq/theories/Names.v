(** The short names of the functions and the methods of the C++ class zj_Value.

    With zj_API_MODE 1 zzzjson.h gives every function a short name (/repo/zzzjson.h:207-369), and
    for C++ the type zj_Value has a method for every function (/repo/zzzjson.h:650-743).  Here each is
    defined as it is written there.  An [api] is a choice of functions; programs may choose
    anew for every statement.  JSONType has the constants of zj_JSONType (/repo/zzzjson.h:198-206),
    so Type is zj_Type in spite of the cast. *)
From Verif Require Import Base Spec Lex Alloc Mem MemProofs Api Double Dom Scene Client Hist HistRun HistSim HistStep HistAll HistMany HistWorld BetaClient Keep KeepWorld HistDocs HistCover HistCoverMany KeepCover Leak Cpp CppWorld.

(** ** The short names, zzzjson.h *)
(** 210 *)
Definition s_NewAllocator : M N := zj_NewAllocator.
(** 211-213 *)
Definition s_ReleaseAllocator (A : N) : M unit := zj_ReleaseAllocator A.
(** 214 *)
Definition s_NewValue (A : N) : M addr := zj_NewValue A.
(** 215-217 *)
Definition s_ParseFast (v : addr) (p : addr) : M bool := zj_ParseFast v p.
(** 221 *)
Definition s_Parse (v : addr) (p : addr) : M bool := zj_Parse v p.
(** 218-220 *)
Definition s_ParseLen (v : addr) (p : addr) (n : N) : M bool := zj_ParseLen v p n.
(** 222 *)
Definition s_Stringify (fuel : nat) (v : addr) : M word := zj_Stringify fuel v.
(** 223-225 *)
Definition s_GetStrFast (v : addr) : M (option (word * N)) := zj_GetStrFast v.
(** 230-232 *)
Definition s_GetNumFast (v : addr) : M (option (word * N)) := zj_GetNumFast v.
(** 247-249 *)
Definition s_GetKeyFast (v : addr) : M (option (word * N)) := zj_GetKeyFast v.
(** 226-228 *)
Definition s_GetUnEscapeStr (v : addr) : M (option word) := zj_GetUnEscapeStr v.
(** 229 *)
Definition s_GetStr (v : addr) : M (option word) := zj_GetStr v.
(** 233 *)
Definition s_GetNumStr (v : addr) : M (option word) := zj_GetNumStr v.
(** 243 *)
Definition s_GetKey (v : addr) : M (option word) := zj_GetKey v.
(** 244-246 *)
Definition s_GetUnEscapeKey (v : addr) : M (option word) := zj_GetUnEscapeKey v.
(** 234 *)
Definition s_GetNum (v : addr) : M (option double) := zj_GetNum v.
(** 235 *)
Definition s_GetDouble (v : addr) : M (option double) := zj_GetDouble v.
(** 236 *)
Definition s_GetInt (v : addr) : M (option Z) := zj_GetInt v.
(** 237 *)
Definition s_GetLong (v : addr) : M (option Z) := zj_GetLong v.
(** 238-240 *)
Definition s_GetLongLong (v : addr) : M (option Z) := zj_GetLongLong v.
(** 241 *)
Definition s_GetBool (v : addr) : M (option bool) := zj_GetBool v.
(** 242 *)
Definition s_IsNull (v : addr) : M bool := zj_IsNull v.
(** 250-252 *)
Definition s_ObjGet (fuel : nat) (v : addr) (p : addr) : M (option addr) := zj_ObjGet fuel v p.
(** 253-255 *)
Definition s_ObjGetLen (fuel : nat) (v : addr) (p : addr) (n : N) : M (option addr) := zj_ObjGetLen fuel v p n.
(** 256-258 *)
Definition s_Type (v : addr) : M (option jtype) := zj_Type v.
(** 259 *)
Definition s_SizeOf (v : addr) : M N := zj_SizeOf v.
(** 260-262 *)
Definition s_ArrayGet (fuel : nat) (v : addr) (n : N) : M (option addr) := zj_ArrayGet fuel v n.
(** 263 *)
Definition s_Begin (v : addr) : M (option addr) := zj_Begin v.
(** 264 *)
Definition s_Next (v : addr) : M (option addr) := zj_Next v.
(** 265 *)
Definition s_Copy (fuel : nat) (v : addr) : M (option addr) := zj_Copy fuel v.
(** 266 *)
Definition s_Move (v : addr) : M bool := zj_Move v.
(** 267 *)
Definition s_SetNull (v : addr) : M unit := zj_SetNull v.
(** 326 *)
Definition s_SetArray (v : addr) : M unit := zj_SetArray v.
(** 327 *)
Definition s_SetObj (v : addr) : M unit := zj_SetObj v.
(** 268 *)
Definition s_SetBool (v : addr) (b : bool) : M unit := zj_SetBool v b.
(** 269-271 *)
Definition s_SetNumStrFast (v : addr) (p : addr) : M bool := zj_SetNumStrFast v p.
(** 275-277 *)
Definition s_SetNumStr (v : addr) (p : addr) : M bool := zj_SetNumStr v p.
(** 290-292 *)
Definition s_SetStrFast (v : addr) (p : addr) : M bool := zj_SetStrFast v p.
(** 296-298 *)
Definition s_SetStr (v : addr) (p : addr) : M bool := zj_SetStr v p.
(** 302-304 *)
Definition s_SetStrEscape (v : addr) (p : addr) : M bool := zj_SetStrEscape v p.
(** 308-310 *)
Definition s_SetKeyFast (v : addr) (p : addr) : M bool := zj_SetKeyFast v p.
(** 314-316 *)
Definition s_SetKey (v : addr) (p : addr) : M bool := zj_SetKey v p.
(** 320-322 *)
Definition s_SetKeyEscape (v : addr) (p : addr) : M bool := zj_SetKeyEscape v p.
(** 272-274 *)
Definition s_SetNumStrLenFast (v : addr) (p : addr) (n : N) : M bool := zj_SetNumStrLenFast v p n.
(** 278-280 *)
Definition s_SetNumStrLen (v : addr) (p : addr) (n : N) : M bool := zj_SetNumStrLen v p n.
(** 293-295 *)
Definition s_SetStrLenFast (v : addr) (p : addr) (n : N) : M bool := zj_SetStrLenFast v p n.
(** 299-301 *)
Definition s_SetStrLen (v : addr) (p : addr) (n : N) : M bool := zj_SetStrLen v p n.
(** 305-307 *)
Definition s_SetStrLenEscape (v : addr) (p : addr) (n : N) : M bool := zj_SetStrLenEscape v p n.
(** 311-313 *)
Definition s_SetKeyLenFast (v : addr) (p : addr) (n : N) : M bool := zj_SetKeyLenFast v p n.
(** 317-319 *)
Definition s_SetKeyLen (v : addr) (p : addr) (n : N) : M bool := zj_SetKeyLen v p n.
(** 323-325 *)
Definition s_SetKeyLenEscape (v : addr) (p : addr) (n : N) : M bool := zj_SetKeyLenEscape v p n.
(** 281 *)
Definition s_SetNum (v : addr) (d : double) : M bool := zj_SetNum v d.
(** 282-284 *)
Definition s_SetDouble (v : addr) (d : double) : M bool := zj_SetDouble v d.
(** 285 *)
Definition s_SetInt (v : addr) (z : Z) : M bool := zj_SetInt v z.
(** 286 *)
Definition s_SetLong (v : addr) (z : Z) : M bool := zj_SetLong v z.
(** 287-289 *)
Definition s_SetLongLong (v : addr) (z : Z) : M bool := zj_SetLongLong v z.
(** 328 *)
Definition s_SetFast (fuel : nat) (v : addr) (w : addr) : M bool := zj_SetFast fuel v w.
(** 329 *)
Definition s_Set (fuel : nat) (v : addr) (w : addr) : M bool := zj_Set fuel v w.
(** 333-335 *)
Definition s_ObjAdd (fuel : nat) (v : addr) (w : addr) : M bool := zj_ObjAdd fuel v w.
(** 339-341 *)
Definition s_ArrayAdd (fuel : nat) (v : addr) (w : addr) : M bool := zj_ArrayAdd fuel v w.
(** 330-332 *)
Definition s_ObjAddFast (v : addr) (w : addr) : M bool := zj_ObjAddFast v w.
(** 336-338 *)
Definition s_ArrayAddFast (v : addr) (w : addr) : M bool := zj_ArrayAddFast v w.
(** 342-344 *)
Definition s_ArrayDel (fuel : nat) (v : addr) (n : N) : M bool := zj_ArrayDel fuel v n.
(** 345-347 *)
Definition s_ObjDel (fuel : nat) (v : addr) (p : addr) : M bool := zj_ObjDel fuel v p.

(** ** The methods of zj_Value, zzzjson.h ([v] is [this]) *)
(** 651 *)
Definition m_NewValue (A : N) : M addr := zj_NewValue A.
(** 653 *)
Definition m_ParseFast (v : addr) (p : addr) : M bool := zj_ParseFast v p.
(** 657 *)
Definition m_Parse (v : addr) (p : addr) : M bool := zj_Parse v p.
(** 654-656 *)
Definition m_ParseLen (v : addr) (p : addr) (n : N) : M bool := zj_ParseLen v p n.
(** 658 *)
Definition m_Stringify (fuel : nat) (v : addr) : M word := zj_Stringify fuel v.
(** 659 *)
Definition m_GetStrFast (v : addr) : M (option (word * N)) := zj_GetStrFast v.
(** 662-664 *)
Definition m_GetNumFast (v : addr) : M (option (word * N)) := zj_GetNumFast v.
(** 675 *)
Definition m_GetKeyFast (v : addr) : M (option (word * N)) := zj_GetKeyFast v.
(** 660 *)
Definition m_GetUnEscapeStr (v : addr) : M (option word) := zj_GetUnEscapeStr v.
(** 661 *)
Definition m_GetStr (v : addr) : M (option word) := zj_GetStr v.
(** 665 *)
Definition m_GetNumStr (v : addr) : M (option word) := zj_GetNumStr v.
(** 673 *)
Definition m_GetKey (v : addr) : M (option word) := zj_GetKey v.
(** 674 *)
Definition m_GetUnEscapeKey (v : addr) : M (option word) := zj_GetUnEscapeKey v.
(** 666 *)
Definition m_GetNum (v : addr) : M (option double) := zj_GetNum v.
(** 667 *)
Definition m_GetDouble (v : addr) : M (option double) := zj_GetDouble v.
(** 668 *)
Definition m_GetInt (v : addr) : M (option Z) := zj_GetInt v.
(** 669 *)
Definition m_GetLong (v : addr) : M (option Z) := zj_GetLong v.
(** 670 *)
Definition m_GetLongLong (v : addr) : M (option Z) := zj_GetLongLong v.
(** 671 *)
Definition m_GetBool (v : addr) : M (option bool) := zj_GetBool v.
(** 672 *)
Definition m_IsNull (v : addr) : M bool := zj_IsNull v.
(** 676 *)
Definition m_ObjGet (fuel : nat) (v : addr) (p : addr) : M (option addr) := zj_ObjGet fuel v p.
(** 677-679 *)
Definition m_ObjGetLen (fuel : nat) (v : addr) (p : addr) (n : N) : M (option addr) := zj_ObjGetLen fuel v p n.
(** 680 *)
Definition m_Type (v : addr) : M (option jtype) := zj_Type v.
(** 681 *)
Definition m_SizeOf (v : addr) : M N := zj_SizeOf v.
(** 682 *)
Definition m_ArrayGet (fuel : nat) (v : addr) (n : N) : M (option addr) := zj_ArrayGet fuel v n.
(** 683 *)
Definition m_Begin (v : addr) : M (option addr) := zj_Begin v.
(** 684 *)
Definition m_Next (v : addr) : M (option addr) := zj_Next v.
(** 685 *)
Definition m_Copy (fuel : nat) (v : addr) : M (option addr) := zj_Copy fuel v.
(** 686 *)
Definition m_Move (v : addr) : M bool := zj_Move v.
(** 687 *)
Definition m_SetNull (v : addr) : M unit := zj_SetNull v.
(** 732 *)
Definition m_SetArray (v : addr) : M unit := zj_SetArray v.
(** 733 *)
Definition m_SetObj (v : addr) : M unit := zj_SetObj v.
(** 688 *)
Definition m_SetBool (v : addr) (b : bool) : M unit := zj_SetBool v b.
(** 689-691 *)
Definition m_SetNumStrFast (v : addr) (p : addr) : M bool := zj_SetNumStrFast v p.
(** 695 *)
Definition m_SetNumStr (v : addr) (p : addr) : M bool := zj_SetNumStr v p.
(** 704 *)
Definition m_SetStrFast (v : addr) (p : addr) : M bool := zj_SetStrFast v p.
(** 708 *)
Definition m_SetStr (v : addr) (p : addr) : M bool := zj_SetStr v p.
(** 712-714 *)
Definition m_SetStrEscape (v : addr) (p : addr) : M bool := zj_SetStrEscape v p.
(** 718 *)
Definition m_SetKeyFast (v : addr) (p : addr) : M bool := zj_SetKeyFast v p.
(** 722 *)
Definition m_SetKey (v : addr) (p : addr) : M bool := zj_SetKey v p.
(** 726-728 *)
Definition m_SetKeyEscape (v : addr) (p : addr) : M bool := zj_SetKeyEscape v p.
(** 692-694 *)
Definition m_SetNumStrLenFast (v : addr) (p : addr) (n : N) : M bool := zj_SetNumStrLenFast v p n.
(** 696-698 *)
Definition m_SetNumStrLen (v : addr) (p : addr) (n : N) : M bool := zj_SetNumStrLen v p n.
(** 705-707 *)
Definition m_SetStrLenFast (v : addr) (p : addr) (n : N) : M bool := zj_SetStrLenFast v p n.
(** 709-711 *)
Definition m_SetStrLen (v : addr) (p : addr) (n : N) : M bool := zj_SetStrLen v p n.
(** 715-717 *)
Definition m_SetStrLenEscape (v : addr) (p : addr) (n : N) : M bool := zj_SetStrLenEscape v p n.
(** 719-721 *)
Definition m_SetKeyLenFast (v : addr) (p : addr) (n : N) : M bool := zj_SetKeyLenFast v p n.
(** 723-725 *)
Definition m_SetKeyLen (v : addr) (p : addr) (n : N) : M bool := zj_SetKeyLen v p n.
(** 729-731 *)
Definition m_SetKeyLenEscape (v : addr) (p : addr) (n : N) : M bool := zj_SetKeyLenEscape v p n.
(** 699 *)
Definition m_SetNum (v : addr) (d : double) : M bool := zj_SetNum v d.
(** 700 *)
Definition m_SetDouble (v : addr) (d : double) : M bool := zj_SetDouble v d.
(** 701 *)
Definition m_SetInt (v : addr) (z : Z) : M bool := zj_SetInt v z.
(** 702 *)
Definition m_SetLong (v : addr) (z : Z) : M bool := zj_SetLong v z.
(** 703 *)
Definition m_SetLongLong (v : addr) (z : Z) : M bool := zj_SetLongLong v z.
(** 734 *)
Definition m_SetFast (fuel : nat) (v : addr) (w : addr) : M bool := zj_SetFast fuel v w.
(** 735 *)
Definition m_Set (fuel : nat) (v : addr) (w : addr) : M bool := zj_Set fuel v w.
(** 737 *)
Definition m_ObjAdd (fuel : nat) (v : addr) (w : addr) : M bool := zj_ObjAdd fuel v w.
(** 739 *)
Definition m_ArrayAdd (fuel : nat) (v : addr) (w : addr) : M bool := zj_ArrayAdd fuel v w.
(** 736 *)
Definition m_ObjAddFast (v : addr) (w : addr) : M bool := zj_ObjAddFast v w.
(** 738 *)
Definition m_ArrayAddFast (v : addr) (w : addr) : M bool := zj_ArrayAddFast v w.
(** 740 *)
Definition m_ArrayDel (fuel : nat) (v : addr) (n : N) : M bool := zj_ArrayDel fuel v n.
(** 741 *)
Definition m_ObjDel (fuel : nat) (v : addr) (p : addr) : M bool := zj_ObjDel fuel v p.
(** 652 *)
Definition m_Allocator (v : addr) : M N := x <- getVal v ;; ret (vA x).

(** ** Choices of functions *)
Record api := mkApi {
  f_NewAllocator : M N;
  f_ReleaseAllocator : N -> M unit;
  f_NewValue : N -> M addr;
  f_ParseFast : addr -> addr -> M bool;
  f_Parse : addr -> addr -> M bool;
  f_ParseLen : addr -> addr -> N -> M bool;
  f_Stringify : nat -> addr -> M word;
  f_GetStrFast : addr -> M (option (word * N));
  f_GetNumFast : addr -> M (option (word * N));
  f_GetKeyFast : addr -> M (option (word * N));
  f_GetUnEscapeStr : addr -> M (option word);
  f_GetStr : addr -> M (option word);
  f_GetNumStr : addr -> M (option word);
  f_GetKey : addr -> M (option word);
  f_GetUnEscapeKey : addr -> M (option word);
  f_GetNum : addr -> M (option double);
  f_GetDouble : addr -> M (option double);
  f_GetInt : addr -> M (option Z);
  f_GetLong : addr -> M (option Z);
  f_GetLongLong : addr -> M (option Z);
  f_GetBool : addr -> M (option bool);
  f_IsNull : addr -> M bool;
  f_ObjGet : nat -> addr -> addr -> M (option addr);
  f_ObjGetLen : nat -> addr -> addr -> N -> M (option addr);
  f_Type : addr -> M (option jtype);
  f_SizeOf : addr -> M N;
  f_ArrayGet : nat -> addr -> N -> M (option addr);
  f_Begin : addr -> M (option addr);
  f_Next : addr -> M (option addr);
  f_Copy : nat -> addr -> M (option addr);
  f_Move : addr -> M bool;
  f_SetNull : addr -> M unit;
  f_SetArray : addr -> M unit;
  f_SetObj : addr -> M unit;
  f_SetBool : addr -> bool -> M unit;
  f_SetNumStrFast : addr -> addr -> M bool;
  f_SetNumStr : addr -> addr -> M bool;
  f_SetStrFast : addr -> addr -> M bool;
  f_SetStr : addr -> addr -> M bool;
  f_SetStrEscape : addr -> addr -> M bool;
  f_SetKeyFast : addr -> addr -> M bool;
  f_SetKey : addr -> addr -> M bool;
  f_SetKeyEscape : addr -> addr -> M bool;
  f_SetNumStrLenFast : addr -> addr -> N -> M bool;
  f_SetNumStrLen : addr -> addr -> N -> M bool;
  f_SetStrLenFast : addr -> addr -> N -> M bool;
  f_SetStrLen : addr -> addr -> N -> M bool;
  f_SetStrLenEscape : addr -> addr -> N -> M bool;
  f_SetKeyLenFast : addr -> addr -> N -> M bool;
  f_SetKeyLen : addr -> addr -> N -> M bool;
  f_SetKeyLenEscape : addr -> addr -> N -> M bool;
  f_SetNum : addr -> double -> M bool;
  f_SetDouble : addr -> double -> M bool;
  f_SetInt : addr -> Z -> M bool;
  f_SetLong : addr -> Z -> M bool;
  f_SetLongLong : addr -> Z -> M bool;
  f_SetFast : nat -> addr -> addr -> M bool;
  f_Set : nat -> addr -> addr -> M bool;
  f_ObjAdd : nat -> addr -> addr -> M bool;
  f_ArrayAdd : nat -> addr -> addr -> M bool;
  f_ObjAddFast : addr -> addr -> M bool;
  f_ArrayAddFast : addr -> addr -> M bool;
  f_ArrayDel : nat -> addr -> N -> M bool;
  f_ObjDel : nat -> addr -> addr -> M bool
}.
Definition long_api : api := {|
  f_NewAllocator := zj_NewAllocator;
  f_ReleaseAllocator := zj_ReleaseAllocator;
  f_NewValue := zj_NewValue;
  f_ParseFast := zj_ParseFast;
  f_Parse := zj_Parse;
  f_ParseLen := zj_ParseLen;
  f_Stringify := zj_Stringify;
  f_GetStrFast := zj_GetStrFast;
  f_GetNumFast := zj_GetNumFast;
  f_GetKeyFast := zj_GetKeyFast;
  f_GetUnEscapeStr := zj_GetUnEscapeStr;
  f_GetStr := zj_GetStr;
  f_GetNumStr := zj_GetNumStr;
  f_GetKey := zj_GetKey;
  f_GetUnEscapeKey := zj_GetUnEscapeKey;
  f_GetNum := zj_GetNum;
  f_GetDouble := zj_GetDouble;
  f_GetInt := zj_GetInt;
  f_GetLong := zj_GetLong;
  f_GetLongLong := zj_GetLongLong;
  f_GetBool := zj_GetBool;
  f_IsNull := zj_IsNull;
  f_ObjGet := zj_ObjGet;
  f_ObjGetLen := zj_ObjGetLen;
  f_Type := zj_Type;
  f_SizeOf := zj_SizeOf;
  f_ArrayGet := zj_ArrayGet;
  f_Begin := zj_Begin;
  f_Next := zj_Next;
  f_Copy := zj_Copy;
  f_Move := zj_Move;
  f_SetNull := zj_SetNull;
  f_SetArray := zj_SetArray;
  f_SetObj := zj_SetObj;
  f_SetBool := zj_SetBool;
  f_SetNumStrFast := zj_SetNumStrFast;
  f_SetNumStr := zj_SetNumStr;
  f_SetStrFast := zj_SetStrFast;
  f_SetStr := zj_SetStr;
  f_SetStrEscape := zj_SetStrEscape;
  f_SetKeyFast := zj_SetKeyFast;
  f_SetKey := zj_SetKey;
  f_SetKeyEscape := zj_SetKeyEscape;
  f_SetNumStrLenFast := zj_SetNumStrLenFast;
  f_SetNumStrLen := zj_SetNumStrLen;
  f_SetStrLenFast := zj_SetStrLenFast;
  f_SetStrLen := zj_SetStrLen;
  f_SetStrLenEscape := zj_SetStrLenEscape;
  f_SetKeyLenFast := zj_SetKeyLenFast;
  f_SetKeyLen := zj_SetKeyLen;
  f_SetKeyLenEscape := zj_SetKeyLenEscape;
  f_SetNum := zj_SetNum;
  f_SetDouble := zj_SetDouble;
  f_SetInt := zj_SetInt;
  f_SetLong := zj_SetLong;
  f_SetLongLong := zj_SetLongLong;
  f_SetFast := zj_SetFast;
  f_Set := zj_Set;
  f_ObjAdd := zj_ObjAdd;
  f_ArrayAdd := zj_ArrayAdd;
  f_ObjAddFast := zj_ObjAddFast;
  f_ArrayAddFast := zj_ArrayAddFast;
  f_ArrayDel := zj_ArrayDel;
  f_ObjDel := zj_ObjDel
|}.
Definition short_api : api := {|
  f_NewAllocator := s_NewAllocator;
  f_ReleaseAllocator := s_ReleaseAllocator;
  f_NewValue := s_NewValue;
  f_ParseFast := s_ParseFast;
  f_Parse := s_Parse;
  f_ParseLen := s_ParseLen;
  f_Stringify := s_Stringify;
  f_GetStrFast := s_GetStrFast;
  f_GetNumFast := s_GetNumFast;
  f_GetKeyFast := s_GetKeyFast;
  f_GetUnEscapeStr := s_GetUnEscapeStr;
  f_GetStr := s_GetStr;
  f_GetNumStr := s_GetNumStr;
  f_GetKey := s_GetKey;
  f_GetUnEscapeKey := s_GetUnEscapeKey;
  f_GetNum := s_GetNum;
  f_GetDouble := s_GetDouble;
  f_GetInt := s_GetInt;
  f_GetLong := s_GetLong;
  f_GetLongLong := s_GetLongLong;
  f_GetBool := s_GetBool;
  f_IsNull := s_IsNull;
  f_ObjGet := s_ObjGet;
  f_ObjGetLen := s_ObjGetLen;
  f_Type := s_Type;
  f_SizeOf := s_SizeOf;
  f_ArrayGet := s_ArrayGet;
  f_Begin := s_Begin;
  f_Next := s_Next;
  f_Copy := s_Copy;
  f_Move := s_Move;
  f_SetNull := s_SetNull;
  f_SetArray := s_SetArray;
  f_SetObj := s_SetObj;
  f_SetBool := s_SetBool;
  f_SetNumStrFast := s_SetNumStrFast;
  f_SetNumStr := s_SetNumStr;
  f_SetStrFast := s_SetStrFast;
  f_SetStr := s_SetStr;
  f_SetStrEscape := s_SetStrEscape;
  f_SetKeyFast := s_SetKeyFast;
  f_SetKey := s_SetKey;
  f_SetKeyEscape := s_SetKeyEscape;
  f_SetNumStrLenFast := s_SetNumStrLenFast;
  f_SetNumStrLen := s_SetNumStrLen;
  f_SetStrLenFast := s_SetStrLenFast;
  f_SetStrLen := s_SetStrLen;
  f_SetStrLenEscape := s_SetStrLenEscape;
  f_SetKeyLenFast := s_SetKeyLenFast;
  f_SetKeyLen := s_SetKeyLen;
  f_SetKeyLenEscape := s_SetKeyLenEscape;
  f_SetNum := s_SetNum;
  f_SetDouble := s_SetDouble;
  f_SetInt := s_SetInt;
  f_SetLong := s_SetLong;
  f_SetLongLong := s_SetLongLong;
  f_SetFast := s_SetFast;
  f_Set := s_Set;
  f_ObjAdd := s_ObjAdd;
  f_ArrayAdd := s_ArrayAdd;
  f_ObjAddFast := s_ObjAddFast;
  f_ArrayAddFast := s_ArrayAddFast;
  f_ArrayDel := s_ArrayDel;
  f_ObjDel := s_ObjDel
|}.
(** C++ programs make allocators as objects (Cpp.v) or with the functions. *)
Definition method_api : api := {|
  f_NewAllocator := zj_NewAllocator;
  f_ReleaseAllocator := zj_ReleaseAllocator;
  f_NewValue := m_NewValue;
  f_ParseFast := m_ParseFast;
  f_Parse := m_Parse;
  f_ParseLen := m_ParseLen;
  f_Stringify := m_Stringify;
  f_GetStrFast := m_GetStrFast;
  f_GetNumFast := m_GetNumFast;
  f_GetKeyFast := m_GetKeyFast;
  f_GetUnEscapeStr := m_GetUnEscapeStr;
  f_GetStr := m_GetStr;
  f_GetNumStr := m_GetNumStr;
  f_GetKey := m_GetKey;
  f_GetUnEscapeKey := m_GetUnEscapeKey;
  f_GetNum := m_GetNum;
  f_GetDouble := m_GetDouble;
  f_GetInt := m_GetInt;
  f_GetLong := m_GetLong;
  f_GetLongLong := m_GetLongLong;
  f_GetBool := m_GetBool;
  f_IsNull := m_IsNull;
  f_ObjGet := m_ObjGet;
  f_ObjGetLen := m_ObjGetLen;
  f_Type := m_Type;
  f_SizeOf := m_SizeOf;
  f_ArrayGet := m_ArrayGet;
  f_Begin := m_Begin;
  f_Next := m_Next;
  f_Copy := m_Copy;
  f_Move := m_Move;
  f_SetNull := m_SetNull;
  f_SetArray := m_SetArray;
  f_SetObj := m_SetObj;
  f_SetBool := m_SetBool;
  f_SetNumStrFast := m_SetNumStrFast;
  f_SetNumStr := m_SetNumStr;
  f_SetStrFast := m_SetStrFast;
  f_SetStr := m_SetStr;
  f_SetStrEscape := m_SetStrEscape;
  f_SetKeyFast := m_SetKeyFast;
  f_SetKey := m_SetKey;
  f_SetKeyEscape := m_SetKeyEscape;
  f_SetNumStrLenFast := m_SetNumStrLenFast;
  f_SetNumStrLen := m_SetNumStrLen;
  f_SetStrLenFast := m_SetStrLenFast;
  f_SetStrLen := m_SetStrLen;
  f_SetStrLenEscape := m_SetStrLenEscape;
  f_SetKeyLenFast := m_SetKeyLenFast;
  f_SetKeyLen := m_SetKeyLen;
  f_SetKeyLenEscape := m_SetKeyLenEscape;
  f_SetNum := m_SetNum;
  f_SetDouble := m_SetDouble;
  f_SetInt := m_SetInt;
  f_SetLong := m_SetLong;
  f_SetLongLong := m_SetLongLong;
  f_SetFast := m_SetFast;
  f_Set := m_Set;
  f_ObjAdd := m_ObjAdd;
  f_ArrayAdd := m_ArrayAdd;
  f_ObjAddFast := m_ObjAddFast;
  f_ArrayAddFast := m_ArrayAddFast;
  f_ArrayDel := m_ArrayDel;
  f_ObjDel := m_ObjDel
|}.
(** zj_GetNum and zj_SetNum (1879, 2302-2304) for zj_GetDouble and zj_SetDouble. *)
Definition nums (a : api) : api := {|
  f_NewAllocator := f_NewAllocator a;
  f_ReleaseAllocator := f_ReleaseAllocator a;
  f_NewValue := f_NewValue a;
  f_ParseFast := f_ParseFast a;
  f_Parse := f_Parse a;
  f_ParseLen := f_ParseLen a;
  f_Stringify := f_Stringify a;
  f_GetStrFast := f_GetStrFast a;
  f_GetNumFast := f_GetNumFast a;
  f_GetKeyFast := f_GetKeyFast a;
  f_GetUnEscapeStr := f_GetUnEscapeStr a;
  f_GetStr := f_GetStr a;
  f_GetNumStr := f_GetNumStr a;
  f_GetKey := f_GetKey a;
  f_GetUnEscapeKey := f_GetUnEscapeKey a;
  f_GetNum := f_GetNum a;
  f_GetDouble := f_GetNum a;
  f_GetInt := f_GetInt a;
  f_GetLong := f_GetLong a;
  f_GetLongLong := f_GetLongLong a;
  f_GetBool := f_GetBool a;
  f_IsNull := f_IsNull a;
  f_ObjGet := f_ObjGet a;
  f_ObjGetLen := f_ObjGetLen a;
  f_Type := f_Type a;
  f_SizeOf := f_SizeOf a;
  f_ArrayGet := f_ArrayGet a;
  f_Begin := f_Begin a;
  f_Next := f_Next a;
  f_Copy := f_Copy a;
  f_Move := f_Move a;
  f_SetNull := f_SetNull a;
  f_SetArray := f_SetArray a;
  f_SetObj := f_SetObj a;
  f_SetBool := f_SetBool a;
  f_SetNumStrFast := f_SetNumStrFast a;
  f_SetNumStr := f_SetNumStr a;
  f_SetStrFast := f_SetStrFast a;
  f_SetStr := f_SetStr a;
  f_SetStrEscape := f_SetStrEscape a;
  f_SetKeyFast := f_SetKeyFast a;
  f_SetKey := f_SetKey a;
  f_SetKeyEscape := f_SetKeyEscape a;
  f_SetNumStrLenFast := f_SetNumStrLenFast a;
  f_SetNumStrLen := f_SetNumStrLen a;
  f_SetStrLenFast := f_SetStrLenFast a;
  f_SetStrLen := f_SetStrLen a;
  f_SetStrLenEscape := f_SetStrLenEscape a;
  f_SetKeyLenFast := f_SetKeyLenFast a;
  f_SetKeyLen := f_SetKeyLen a;
  f_SetKeyLenEscape := f_SetKeyLenEscape a;
  f_SetNum := f_SetNum a;
  f_SetDouble := f_SetNum a;
  f_SetInt := f_SetInt a;
  f_SetLong := f_SetLong a;
  f_SetLongLong := f_SetLongLong a;
  f_SetFast := f_SetFast a;
  f_Set := f_Set a;
  f_ObjAdd := f_ObjAdd a;
  f_ArrayAdd := f_ArrayAdd a;
  f_ObjAddFast := f_ObjAddFast a;
  f_ArrayAddFast := f_ArrayAddFast a;
  f_ArrayDel := f_ArrayDel a;
  f_ObjDel := f_ObjDel a
|}.
Inductive iface := Long | Short | Method.
Definition api_of (i : iface) (num : bool) : api :=
  let a := match i with Long => long_api | Short => short_api | Method => method_api end in if num then nums a else a.

(** ** Calls through an interface: as in HistRun.v *)
Definition n_set_text (a : api) (num : bool) (k : text_kind) (v p : addr) (n : N) : M bool :=
  match num, k with
  | true, KCopy => f_SetNumStr a v p
  | true, KFast => f_SetNumStrFast a v p
  | true, KLen => f_SetNumStrLen a v p n
  | true, KLenFast => f_SetNumStrLenFast a v p n
  | false, KCopy => f_SetStr a v p
  | false, KFast => f_SetStrFast a v p
  | false, KLen => f_SetStrLen a v p n
  | false, KLenFast => f_SetStrLenFast a v p n
  end.
Definition n_set_key (a : api) (k : text_kind) (v p : addr) (n : N) : M bool :=
  match k with
  | KCopy => f_SetKey a v p
  | KFast => f_SetKeyFast a v p
  | KLen => f_SetKeyLen a v p n
  | KLenFast => f_SetKeyLenFast a v p n
  end.
Definition nstep (a : api) (fuel : nat) (c : call) (E : env) : M (answer * env) :=
  match c with
  | CNewAllocator => A <- f_NewAllocator a ;; ret (Arena (length (ea E)), mkE (eh E) (ea E ++ [A]))
  | CNewValue A => x <- aof E A ;; v <- f_NewValue a x ;; ret (out_value E (Some v))
  | CParse k h t pad =>
      v <- hof E h ;;
      with_env E Bool
        (match k with
         | PCopy => lend (t ++ 0 :: pad) (fun p => f_Parse a v p)
         | PFast => keep (t ++ 0 :: pad) (fun p => f_ParseFast a v p)
         | PLen => lend t (fun p => f_ParseLen a v p (lenN t))
         end)
  | CSetNull h => v <- hof E h ;; with_env E (fun _ => Done) (f_SetNull a v)
  | CSetBool h b => v <- hof E h ;; with_env E (fun _ => Done) (f_SetBool a v b)
  | CSetCont ob h => v <- hof E h ;; with_env E (fun _ => Done) (if ob then f_SetObj a v else f_SetArray a v)
  | CSetText num k h t =>
      v <- hof E h ;;
      with_env E Bool (pass (kept_kind k) (kbuf k t) (fun p => n_set_text a num k v p (lenN t)))
  | CSetInt h z => v <- hof E h ;; with_env E Bool (f_SetInt a v z)
  | CSetLong h z => v <- hof E h ;; with_env E Bool (f_SetLong a v z)
  | CSetLongLong h z => v <- hof E h ;; with_env E Bool (f_SetLongLong a v z)
  | CSetDouble h d => v <- hof E h ;; with_env E Bool (f_SetDouble a v d)
  | CSetEscape len h t =>
      v <- hof E h ;;
      with_env E Bool (if len then lend t (fun p => f_SetStrLenEscape a v p (lenN t))
                       else lend (t ++ [0]) (fun p => f_SetStrEscape a v p))
  | CSetKey k h t =>
      v <- hof E h ;;
      with_env E Bool (pass (kept_kind k) (kbuf k t) (fun p => n_set_key a k v p (lenN t)))
  | CSetKeyEscape len h t =>
      v <- hof E h ;;
      with_env E Bool (if len then lend t (fun p => f_SetKeyLenEscape a v p (lenN t))
                       else lend (t ++ [0]) (fun p => f_SetKeyEscape a v p))
  | CGetType h => v <- hof E h ;; with_env E Type_ (f_Type a v)
  | CSize h => v <- hof E h ;; with_env E Num (f_SizeOf a v)
  | CIsNull h => v <- hof E h ;; with_env E Bool (f_IsNull a v)
  | CGetBool h => v <- hof E h ;; with_env E OBool (f_GetBool a v)
  | CGetText num fast h =>
      v <- hof E h ;;
      with_env E (fun x => x)
        (if fast then r <- (if num then f_GetNumFast a v else f_GetStrFast a v) ;; out_view r
         else r <- (if num then f_GetNumStr a v else f_GetStr a v) ;; out_text r)
  | CGetUnEscape h => v <- hof E h ;; with_env E (fun x => x) (r <- f_GetUnEscapeStr a v ;; out_text r)
  | CGetInt h => v <- hof E h ;; with_env E Int (f_GetInt a v)
  | CGetLong h => v <- hof E h ;; with_env E Int (f_GetLong a v)
  | CGetLongLong h => v <- hof E h ;; with_env E Int (f_GetLongLong a v)
  | CGetDouble h => v <- hof E h ;; with_env E Real (f_GetDouble a v)
  | CGetKey fast h =>
      v <- hof E h ;;
      with_env E (fun x => x) (if fast then r <- f_GetKeyFast a v ;; out_view r else r <- f_GetKey a v ;; out_text r)
  | CGetUnEscapeKey h => v <- hof E h ;; with_env E (fun x => x) (r <- f_GetUnEscapeKey a v ;; out_text r)
  | CStringify h => v <- hof E h ;; with_env E (fun x => x) (w <- f_Stringify a fuel v ;; out_text (Some w))
  | CObjGet len h k =>
      v <- hof E h ;;
      r <- (if len then lend k (fun p => f_ObjGetLen a fuel v p (lenN k))
            else lend (k ++ [0]) (fun p => f_ObjGet a fuel v p)) ;;
      ret (out_value E r)
  | CArrayGet h i => v <- hof E h ;; r <- f_ArrayGet a fuel v i ;; ret (out_value E r)
  | CBegin h => v <- hof E h ;; r <- f_Begin a v ;; ret (out_value E r)
  | CNext h => v <- hof E h ;; r <- f_Next a v ;; ret (out_value E r)
  | CCopy h => v <- hof E h ;; r <- f_Copy a fuel v ;; ret (out_value E r)
  | CMove h => v <- hof E h ;; with_env E Bool (f_Move a v)
  | CAdd ob fast h hv =>
      v <- hof E h ;; vv <- hof E hv ;;
      with_env E Bool
        (match ob, fast with
         | true, true => f_ObjAddFast a v vv
         | true, false => f_ObjAdd a fuel v vv
         | false, true => f_ArrayAddFast a v vv
         | false, false => f_ArrayAdd a fuel v vv
         end)
  | CSet fast h hv =>
      v <- hof E h ;; vv <- hof E hv ;;
      with_env E Bool (if fast then f_SetFast a fuel v vv else f_Set a fuel v vv)
  | CArrayDel h i => v <- hof E h ;; with_env E Bool (f_ArrayDel a fuel v i)
  | CObjDel h k => v <- hof E h ;; with_env E Bool (lend (k ++ [0]) (fun p => f_ObjDel a fuel v p))
  end.

(** ** Statements with kept pointers: as in Keep.v and KeepWorld.v *)
Definition n_give (a : api) (fuel : nat) (g : giver) (v : addr) : M (option word) :=
  match g with
  | PUnEscape => f_GetUnEscapeStr a v
  | PKey => f_GetKey a v
  | PUnEscapeKey => f_GetUnEscapeKey a v
  | PPrint => w <- f_Stringify a fuel v ;; ret (Some w)
  | PText true => f_GetNumStr a v
  | _ => f_GetStr a v
  end.
Definition n_view (a : api) (g : giver) (v : addr) : M (option (word * N)) :=
  match g with PViewText true => f_GetNumFast a v | PViewKey => f_GetKeyFast a v | _ => f_GetStrFast a v end.
Definition n_take (a : api) (fuel : nat) (u : taker) (view : bool) (E : env) (v p : addr) (n : N) : M (answer * env) :=
  match u with
  | TParse fast => with_env E Bool (if view then f_ParseLen a v p n else if fast then f_ParseFast a v p else f_Parse a v p)
  | TText num fast => with_env E Bool (n_set_text a num (kind_of view fast) v p n)
  | TEscape => with_env E Bool (if view then f_SetStrLenEscape a v p n else f_SetStrEscape a v p)
  | TKey fast => with_env E Bool (n_set_key a (kind_of view fast) v p n)
  | TKeyEscape => with_env E Bool (if view then f_SetKeyLenEscape a v p n else f_SetKeyEscape a v p)
  | TFind => r <- (if view then f_ObjGetLen a fuel v p n else f_ObjGet a fuel v p) ;; ret (out_value E r)
  | TDelete => with_env E Bool (f_ObjDel a fuel v p)
  end.
Definition nmstep (a : api) (fuel : nat) (c : pstmt) (Z : pmst) : M (answer * pmst) :=
  let '(E, P) := Z in
  match c with
  | PApi c => pmcall (nstep a fuel c E) P
  | PTake g h =>
      v <- hof E h ;;
      if is_pview g then
        r <- n_view a g v ;; x <- out_view r ;; ret (x, (E, P ++ [match r with Some (w, n) => MV w n | None => MNull end]))
      else
        r <- n_give a fuel g v ;; x <- out_text r ;; ret (x, (E, P ++ [match r with Some w => MC w | None => MNull end]))
  | PLook k =>
      p <- mtake P k ;;
      x <- (match p with MNull => ret (Text None) | MC w => out_text (Some w) | MV w n => out_view (Some (w, n)) end) ;;
      ret (x, Z)
  | PGive u h k =>
      v <- hof E h ;; p <- mtake P k ;;
      match p with
      | MNull => fail EDeref
      | MC w => x <- deref w ;; pmcall (n_take a fuel u false E v x 0) P
      | MV w n => x <- deref w ;; pmcall (n_take a fuel u true E v x n) P
      end
  end.
Fixpoint n_release (a : api) (l : list N) : M unit :=
  match l with [] => ret tt | A :: r => f_ReleaseAllocator a A ;;; n_release a r end.
Definition ngstep (a : api) (fuel : nat) (c : gstmt) (Z : gmst) : M (answer * gmst) :=
  let '(Es, P) := Z in
  match c with
  | GRelease g => n_release a (ea (Es g)) ;;; ret (Done, (updn Es g estart, P))
  | GIn g c => xz <- nmstep a fuel c (Es g, P) ;; ret (fst xz, (updn Es g (fst (snd xz)), snd (snd xz)))
  end.

(** ** Programs that choose the interface for every statement *)
Inductive nprog (X : Type) :=
| NRet (x : X)
| NStuck
| NAct (i : iface) (num : bool) (c : gstmt) (k : answer -> nprog X).
Arguments NRet {X} x.
Arguments NStuck {X}.
Arguments NAct {X} i num c k.
Fixpoint nmplay {X} (fuel : nat) (p : nprog X) (Z : gmst) : M (X * gmst) :=
  match p with
  | NRet x => ret (x, Z)
  | NStuck => fail EFuel
  | NAct i num c k => az <- ngstep (api_of i num) fuel c Z ;; nmplay fuel (k (fst az)) (snd az)
  end.
(** The program with the functions zj_... only. *)
Fixpoint spelt {X} (p : nprog X) : gprog X :=
  match p with
  | NRet x => GRet x
  | NStuck => GStuck
  | NAct _ _ c k => GAct c (fun a => spelt (k a))
  end.

(** ** The interface does not matter *)
Theorem nstep_same i num fuel c E : nstep (api_of i num) fuel c E = cstep fuel c E.
Proof. destruct i, num, c; reflexivity. Qed.
Lemma n_set_text_same i num b k v p n : n_set_text (api_of i num) b k v p n = set_text_call b k v p n.
Proof. destruct i, num, b, k; reflexivity. Qed.
Lemma n_set_key_same i num k v p n : n_set_key (api_of i num) k v p n = set_key_call k v p n.
Proof. destruct i, num, k; reflexivity. Qed.
Lemma n_take_same i num fuel u view E v p n : n_take (api_of i num) fuel u view E v p n = ptake fuel u view E v p n.
Proof. destruct u; cbn [n_take ptake]; rewrite ?n_set_text_same, ?n_set_key_same; auto; destruct i, num; reflexivity. Qed.
Lemma n_give_same i num fuel g v : n_give (api_of i num) fuel g v = pgive fuel g v.
Proof. destruct g as [[]| | | | |[]|], i, num; reflexivity. Qed.
Lemma n_view_same i num g v : n_view (api_of i num) g v = pview g v.
Proof. destruct g as [[]| | | | |[]|], i, num; reflexivity. Qed.
Lemma bind_same X Y (m : M X) (f g : X -> M Y) s : (forall x s', m s = Ok (x, s') -> f x s' = g x s') -> bind m f s = bind m g s.
Proof. intro K. unfold bind. destruct (m s) as [[x s']|]; auto. Qed.
Theorem nmstep_same i num fuel c Z s : nmstep (api_of i num) fuel c Z s = pmstep fuel c Z s.
Proof.
  destruct Z as [E P]. destruct c as [c|g h|k|u h k]; cbn [nmstep pmstep].
  - now rewrite nstep_same.
  - apply bind_same. intros v s1 _. now rewrite n_view_same, n_give_same.
  - reflexivity.
  - apply bind_same. intros v s1 _. apply bind_same. intros p s2 _. destruct p as [|w|w n]; auto; apply bind_same; intros x s3 _; now rewrite n_take_same.
Qed.
Lemma n_release_same i num l : forall s, n_release (api_of i num) l s = release_all l s.
Proof.
  induction l as [|A l IH]; intro s; [reflexivity|]. cbn [n_release release_all].
  replace (f_ReleaseAllocator (api_of i num) A) with (zj_ReleaseAllocator A) by (destruct i, num; reflexivity). apply bind_same. intros x s1 _. apply IH.
Qed.
Theorem ngstep_same i num fuel c Z s : ngstep (api_of i num) fuel c Z s = gmstep fuel c Z s.
Proof.
  destruct Z as [Es P]. destruct c as [g c|g]; cbn [ngstep gmstep].
  - unfold bind. now rewrite nmstep_same.
  - cbn [estep]. unfold bind. rewrite n_release_same. destruct (release_all (ea (Es g)) s) as [[u s1]|]; reflexivity.
Qed.
Theorem nmplay_same X fuel : forall (p : nprog X) Z s, nmplay fuel p Z s = gmplay fuel (spelt p) Z s.
Proof.
  induction p as [x| |i num c k IH]; intros Z s; cbn [nmplay gmplay spelt]; auto. unfold bind. rewrite ngstep_same.
  destruct (gmstep fuel c Z s) as [[az s1]|]; auto.
Qed.
Theorem nclient jd : correct jd -> forall X (p : nprog X) x W T, grplay jd (spelt p) (wstart, []) = Some (x, (W, T)) ->
  forall fuel, (gpmost jd (spelt p) (wstart, []) <= fuel)%nat ->
  exists Es P s, nmplay fuel p (wenv0, []) init = Ok ((x, (Es, P)), s) /\ forall g, represents (wr W g) (Es g) s.
Proof. intros J X p x W T H fuel Hf. rewrite nmplay_same. eapply gclient; eauto. Qed.

Theorem api_same i num : api_of i num = long_api.
Proof. destruct i, num; reflexivity. Qed.
Theorem ncontract jd : correct jd -> forall X (p : nprog X), grespects jd (spelt p) (wstart, []) ->
  exists x W T, grplay jd (spelt p) (wstart, []) = Some (x, (W, T)) /\ forall fuel, (gpmost jd (spelt p) (wstart, []) <= fuel)%nat ->
  exists Es P s, nmplay fuel p (wenv0, []) init = Ok ((x, (Es, P)), s) /\ forall g, represents (wr W g) (Es g) s.
Proof.
  intros J X p H. destruct (gcontract_ok jd J X _ H) as (x & W & T & Hr & K). exists x, W, T. split; [exact Hr|].
  intros fuel Hf. rewrite nmplay_same. exact (K fuel Hf).
Qed.

(** ** The method Allocator *)
(** In any state that represents [R], the method gives the allocator the value is from. *)
Theorem allocator_of R E s h o k : represents R E s -> nth_error (rh R) h = Some (o, k) ->
  exists v A, nth_error (eh E) h = Some v /\ nth_error (ea E) k = Some A /\ m_Allocator v s = Ok (A, s).
Proof.
  intros (nm & F & Z) H. destruct (sm_handle _ _ _ _ _ Z h o k H) as (v & A & Hv & HA & Hs & _). exists v, A.
  split; [exact Hv|]. split; [exact HA|]. unfold m_Allocator, bind, getVal, get. now rewrite Hs.
Qed.
(** v->Allocator() and then Value::NewValue, with any interface. *)
Definition beside (a : api) (h : nat) (E : env) : M (answer * env) :=
  v <- hof E h ;; A <- m_Allocator v ;; w <- f_NewValue a A ;; ret (out_value E (Some w)).
Theorem beside_same i num R E s h o k fuel : represents R E s -> nth_error (rh R) h = Some (o, k) ->
  beside (api_of i num) h E s = cstep fuel (CNewValue k) E s.
Proof.
  intros H Hk. destruct (allocator_of _ _ _ _ _ _ H Hk) as (v & A & Hv & HA & Hm). rewrite api_same.
  unfold beside, cstep, hof, aof. rewrite Hv, HA. unfold bind at 1, ret at 1. unfold bind at 1. rewrite Hm. reflexivity.
Qed.

(** ** Programs in C++ with allocator objects: as in CppWorld.v *)
Definition n_end_one (a : api) (L : list N) (A : N) : M unit := if in_dec N.eq_dec A L then cpp_delete A else f_ReleaseAllocator a A.
Fixpoint n_end_all (a : api) (L l : list N) : M unit :=
  match l with [] => ret tt | A :: r => n_end_one a L A ;;; n_end_all a L r end.
Definition nxstep (a : api) (fuel : nat) (c : xstmt) (Z : xmst) : M (answer * xmst) :=
  let '((Es, P), L) := Z in
  match c with
  | XLocal g => A <- cpp_new ;; ret (Arena (length (ea (Es g))), ((updn Es g (mkE (eh (Es g)) (ea (Es g) ++ [A])), P), A :: L))
  | XIn g c => xz <- nmstep a fuel c (Es g, P) ;; ret (fst xz, ((updn Es g (fst (snd xz)), snd (snd xz)), L))
  | XEnd g => n_end_all a L (rev (ea (Es g))) ;;; ret (Done, ((updn Es g estart, P), L))
  end.
Inductive nxprog (X : Type) :=
| NXRet (x : X)
| NXStuck
| NXAct (i : iface) (num : bool) (c : xstmt) (k : answer -> nxprog X).
Arguments NXRet {X} x.
Arguments NXStuck {X}.
Arguments NXAct {X} i num c k.
Fixpoint nxplay {X} (fuel : nat) (p : nxprog X) (Z : xmst) : M (X * xmst) :=
  match p with
  | NXRet x => ret (x, Z)
  | NXStuck => fail EFuel
  | NXAct i num c k => az <- nxstep (api_of i num) fuel c Z ;; nxplay fuel (k (fst az)) (snd az)
  end.
Fixpoint xspelt {X} (p : nxprog X) : xprog X :=
  match p with
  | NXRet x => XRet x
  | NXStuck => XStuck
  | NXAct _ _ c k => XAct c (fun a => xspelt (k a))
  end.
Lemma n_end_all_same i num L l : forall s, n_end_all (api_of i num) L l s = end_all L l s.
Proof.
  induction l as [|A l IH]; intro s; [reflexivity|]. cbn [n_end_all end_all].
  replace (n_end_one (api_of i num) L A) with (end_one L A) by now rewrite api_same. apply bind_same. intros x s1 _. apply IH.
Qed.
Theorem nxstep_same i num fuel c Z s : nxstep (api_of i num) fuel c Z s = xmstep fuel c Z s.
Proof.
  destruct Z as [[Es P] L]. destruct c as [g|g c|g]; cbn [nxstep xmstep]; auto.
  - unfold bind. now rewrite nmstep_same.
  - unfold bind. now rewrite n_end_all_same.
Qed.
Theorem nxplay_same X fuel : forall (p : nxprog X) Z s, nxplay fuel p Z s = xmplay fuel (xspelt p) Z s.
Proof.
  induction p as [x| |i num c k IH]; intros Z s; cbn [nxplay xmplay xspelt]; auto. unfold bind. rewrite nxstep_same.
  destruct (xmstep fuel c Z s) as [[az s1]|]; auto.
Qed.
Theorem nxclient jd : correct jd -> forall X (p : nxprog X) x W T, grplay jd (as_g (xspelt p)) (wstart, []) = Some (x, (W, T)) ->
  forall fuel, (gpmost jd (as_g (xspelt p)) (wstart, []) <= fuel)%nat ->
  exists Es P L s, nxplay fuel p xstart init = Ok ((x, ((Es, P), L)), s) /\ forall g, represents (wr W g) (Es g) s.
Proof. intros J X p x W T H fuel Hf. rewrite nxplay_same. eapply xclient; eauto. Qed.
Theorem nxall_freed X fuel (p : nxprog X) x Es P L s b : nxplay fuel p xstart init = Ok ((x, ((Es, P), L)), s) ->
  (forall g, ea (Es g) = []) -> sbsize s b <> None -> sbsize init b <> None \/ In b (xbuffers fuel (xspelt p) xstart init).
Proof. rewrite nxplay_same. apply xall_freed. Qed.
