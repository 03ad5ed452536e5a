(** Memory, the state monad, and the primitives of the model. *)
From Verif Require Import Base Lex Alloc.

(** A pointer-valued field.  [Undef] is an indeterminate value: it may be copied
    (struct assignment) but not tested or dereferenced. *)
Inductive word := Undef | Null | At (a : addr).

(** zj_JSONType, zzzjson.h:41-48 *)
Inductive jtype := TBool | TArray | TObject | TString | TNull | TNumber.

(** struct zj_node, zzzjson.h:615-642.  [nVal] is the union (both members are
    pointers).  [None]/[Undef]: not initialised. *)
Record node := mkNode {
  nType : option jtype;
  nKey : word;
  nKeyLen : option N;
  nVal : word;
  nLen : option N;
  nNext : word;
  nPrev : word;
  nFather : word;
  nEnd : word
}.

(** struct zj_Value, zzzjson.h:645,743-745 *)
Record zval := mkVal { vN : word; vA : N }.
(** struct zj_string, zzzjson.h:547-556 *)
Record zstr := mkStr { zData : addr; zPos : N; zSize : N; zA : N }.

(** The whole memory.  Objects live in typed stores keyed by address (one store
    per C type: type punning between them is not modelled; that distinct objects
    do not overlap is the arena's job, see AllocProofs.v).  [sallocs A]: the
    allocator whose handle is block [A].  [sbsize b]: size of live block [b].
    [scache]: the static zj_stringCache, zzzjson.h:558.  [scnt]: the counters of
    zj_MEMORY_MODE 2 (no function of the library reads them, so the other fields
    are those of mode 1). *)
(** AllocMemorySize, AllocMemoryCount, FreeMemoryCount, zzzjson.h:87 *)
Record counts := mkCounts { cSize : N; cNew : N; cFree : N }.
(** zj_new and zj_free of mode 2, zzzjson.h:88-91, as far as they count. *)
Definition count_new (size : N) (c : counts) : counts := mkCounts (u32 (cSize c + size)) (u32 (cNew c + 1)) (cFree c).
Definition count_free (c : counts) : counts := mkCounts (cSize c) (cNew c) (u32 (cFree c + 1)).
Record st := mkSt {
  sbytes : addr -> option N;
  snodes : addr -> option node;
  svals : addr -> option zval;
  sstrs : addr -> option zstr;
  sallocs : N -> option arena;
  sbsize : N -> option N;
  snext : N;
  scache : word;
  scnt : counts
}.

Definition addr_eqb (a b : addr) : bool := (fst a =? fst b) && (snd a =? snd b).

Definition upd {A} (m : addr -> option A) (a : addr) (x : A) : addr -> option A :=
  fun y => if addr_eqb y a then Some x else m y.
Definition updN {A} (m : N -> option A) (a : N) (x : option A) : N -> option A :=
  fun y => if y =? a then x else m y.
(** Write the bytes [bs] at [a]. *)
Definition upd_bytes (m : addr -> option N) (a : addr) (bs : bytes) : addr -> option N :=
  fun y => if (fst y =? fst a) && (snd a <=? snd y) && (snd y <? snd a + N.of_nat (length bs))
           then nth_error bs (N.to_nat (snd y - snd a)) else m y.
(** Forget everything stored in block [b]. *)
Definition drop_blk {A} (m : addr -> option A) (b : N) : addr -> option A :=
  fun y => if fst y =? b then None else m y.

Definition set_bytes f s := mkSt f (snodes s) (svals s) (sstrs s) (sallocs s) (sbsize s) (snext s) (scache s) (scnt s).
Definition set_nodes f s := mkSt (sbytes s) f (svals s) (sstrs s) (sallocs s) (sbsize s) (snext s) (scache s) (scnt s).
Definition set_vals f s := mkSt (sbytes s) (snodes s) f (sstrs s) (sallocs s) (sbsize s) (snext s) (scache s) (scnt s).
Definition set_strs f s := mkSt (sbytes s) (snodes s) (svals s) f (sallocs s) (sbsize s) (snext s) (scache s) (scnt s).
Definition set_cache w s := mkSt (sbytes s) (snodes s) (svals s) (sstrs s) (sallocs s) (sbsize s) (snext s) w (scnt s).

(** ** Computations *)
Definition M (A : Type) : Type := st -> res (A * st).
Definition ret {A} (a : A) : M A := fun s => Ok (a, s).
Definition fail {A} (e : err) : M A := fun _ => Err e.
Definition bind {A B} (m : M A) (f : A -> M B) : M B :=
  fun s => match m s with Ok (a, s') => f a s' | Err e => Err e end.
Definition lift {A} (r : res A) : M A :=
  fun s => match r with Ok a => Ok (a, s) | Err e => Err e end.

Notation "x <- m ;; k" := (bind m (fun x => k))
  (at level 61, m at next level, right associativity).
Notation "m ;;; k" := (bind m (fun _ => k))
  (at level 61, right associativity).

Definition get {A} (f : st -> option A) (e : err) : M A :=
  fun s => match f s with Some a => Ok (a, s) | None => Err e end.

(** ** Static data, zzzjson.h:354-357, 1737: block 0. *)
Definition static_text : bytes :=
  txt "true" ++ 0 :: txt "false" ++ 0 :: txt "null" ++ [0; 0].
Definition zj_strTrue : addr := (0, 0).
Definition zj_strFalse : addr := (0, 5).
Definition zj_strNull : addr := (0, 11).
Definition empty_literal : addr := (0, 16).

(** The state before the first call. *)
Definition init : st :=
  mkSt (upd_bytes (fun _ => None) (0, 0) static_text) (fun _ => None) (fun _ => None)
       (fun _ => None) (fun _ => None)
       (updN (fun _ => None) 0 (Some (N.of_nat (length static_text)))) 1 Null (mkCounts 0 0 0).

(** ** Raw memory *)
(** Consecutive readable bytes from offset [o] of block [b], at most [n]. *)
Fixpoint run (f : addr -> option N) (b o : N) (n : nat) : bytes :=
  match n with
  | O => []
  | S n' => match f (b, o) with
            | Some c => c :: run f b (o + 1) n'
            | None => []
            end
  end.
(** Everything a loop reading upwards from [a] can read. *)
Definition text_at (s : st) (a : addr) : bytes :=
  match sbsize s (fst a) with
  | Some size => run (sbytes s) (fst a) (snd a) (N.to_nat (size - snd a))
  | None => []
  end.
Definition readable (a : addr) : M bytes := fun s => Ok (text_at s a, s).

(** Read of exactly [len] bytes (the source side of memcpy). *)
Fixpoint load_from (f : addr -> option N) (b o : N) (n : nat) : option bytes :=
  match n with
  | O => Some []
  | S n' => match f (b, o), load_from f b (o + 1) n' with
            | Some c, Some r => Some (c :: r)
            | _, _ => None
            end
  end.
Definition load (a : addr) (len : N) : M bytes :=
  get (fun s => load_from (sbytes s) (fst a) (snd a) (N.to_nat len)) EOob.

(** Write [bs] at [a], where [cap] bytes were obtained for it. *)
Definition store (a : addr) (cap : N) (bs : bytes) : M unit :=
  fun s => if cap <? N.of_nat (length bs) then Err EOverflow
           else Ok (tt, set_bytes (upd_bytes (sbytes s) a bs) s).

(** Pointers *)
Definition deref (w : word) : M addr :=
  match w with At a => ret a | _ => fail EDeref end.
Definition is_null (w : word) : M bool :=
  match w with Null => ret true | At _ => ret false | Undef => fail EDeref end.
Definition offset (a : addr) (n : N) : addr := (fst a, snd a + n).

(** ** Objects *)
Definition getNode (a : addr) : M node := get (fun s => snodes s a) EDeref.
Definition putNode (a : addr) (n : node) : M unit :=
  fun s => Ok (tt, set_nodes (upd (snodes s) a n) s).
Definition modNode (a : addr) (f : node -> node) : M unit :=
  n <- getNode a ;; putNode a (f n).
Definition getVal (v : addr) : M zval := get (fun s => svals s v) EDeref.
Definition putVal (v : addr) (x : zval) : M unit :=
  fun s => Ok (tt, set_vals (upd (svals s) v x) s).
Definition getZ (p : addr) : M zstr := get (fun s => sstrs s p) EDeref.
Definition putZ (p : addr) (x : zstr) : M unit :=
  fun s => Ok (tt, set_strs (upd (sstrs s) p x) s).

Definition blank_node : node := mkNode None Undef None Undef None Undef Undef Undef Undef.
Definition wType t n := mkNode (Some t) (nKey n) (nKeyLen n) (nVal n) (nLen n) (nNext n) (nPrev n) (nFather n) (nEnd n).
Definition wKey k n := mkNode (nType n) k (nKeyLen n) (nVal n) (nLen n) (nNext n) (nPrev n) (nFather n) (nEnd n).
Definition wKeyLen l n := mkNode (nType n) (nKey n) (Some l) (nVal n) (nLen n) (nNext n) (nPrev n) (nFather n) (nEnd n).
Definition wVal x n := mkNode (nType n) (nKey n) (nKeyLen n) x (nLen n) (nNext n) (nPrev n) (nFather n) (nEnd n).
Definition wLen l n := mkNode (nType n) (nKey n) (nKeyLen n) (nVal n) (Some l) (nNext n) (nPrev n) (nFather n) (nEnd n).
Definition wNext x n := mkNode (nType n) (nKey n) (nKeyLen n) (nVal n) (nLen n) x (nPrev n) (nFather n) (nEnd n).
Definition wPrev x n := mkNode (nType n) (nKey n) (nKeyLen n) (nVal n) (nLen n) (nNext n) x (nFather n) (nEnd n).
Definition wFather x n := mkNode (nType n) (nKey n) (nKeyLen n) (nVal n) (nLen n) (nNext n) (nPrev n) x (nEnd n).
Definition wEnd x n := mkNode (nType n) (nKey n) (nKeyLen n) (nVal n) (nLen n) (nNext n) (nPrev n) (nFather n) x.

(** Reading a scalar field: indeterminate values may not be used. *)
Definition rType (n : node) : M jtype := lift (match nType n with Some t => Ok t | None => Err EDeref end).
Definition rLen (n : node) : M N := lift (match nLen n with Some l => Ok l | None => Err EDeref end).
Definition rKeyLen (n : node) : M N := lift (match nKeyLen n with Some l => Ok l | None => Err EDeref end).

Definition jtype_eqb (a b : jtype) : bool :=
  match a, b with
  | TBool, TBool | TArray, TArray | TObject, TObject
  | TString, TString | TNull, TNull | TNumber, TNumber => true
  | _, _ => false
  end.

(** ** Allocation *)
(** zj_NewAllocator, zzzjson.h:480-495.  malloc is assumed not to return null. *)
Definition zj_NewAllocator : M N := fun s =>
  let b := snext s in
  Ok (b, mkSt (sbytes s) (snodes s) (svals s) (sstrs s)
              (updN (sallocs s) b (Some [first_chunk b]))
              (updN (sbsize s) b (Some (sizeof_Allocator + sizeof_aNode + zj_AllocatorInitMemSize)))
              (b + 1) (scache s) (count_new (sizeof_Allocator + sizeof_aNode + zj_AllocatorInitMemSize) (scnt s))).

(** zj_allocatorAlloc, zzzjson.h:526-542, on the memory.  The argument has type
    zj_Size.  If 32-bit wrap-around makes the returned region leave its block,
    the outcome is [ELimit] (its use would be an out-of-bounds access). *)
Definition zj_allocatorAlloc (A : N) (size : N) : M addr := fun s =>
  match sallocs s A with
  | None => Err EDeref
  | Some ar =>
      let size := u32 size in
      match arena_alloc (snext s) ar size with
      | Err e => Err e
      | Ok o =>
          let bsz := match onew o with
                     | Some m => updN (sbsize s) (snext s) (Some m)
                     | None => sbsize s
                     end in
          let nxt := match onew o with Some _ => snext s + 1 | None => snext s end in
          match bsz (fst (oaddr o)) with
          | None => Err EDeref
          | Some total =>
              if total <? snd (oaddr o) + size then Err ELimit
              else Ok (oaddr o, mkSt (sbytes s) (snodes s) (svals s) (sstrs s)
                                     (updN (sallocs s) A (Some (oarena o))) bsz nxt (scache s)
                                     (match onew o with Some m => count_new m (scnt s) | None => scnt s end))
          end
      end
  end.

(** zj_free of one block, zzzjson.h:81,91: everything in it is gone. *)
Definition free_blk (b : N) : M unit := fun s =>
  match sbsize s b with
  | None => Err EDeref
  | Some _ => Ok (tt, mkSt (drop_blk (sbytes s) b) (drop_blk (snodes s) b) (drop_blk (svals s) b)
                           (drop_blk (sstrs s) b) (sallocs s) (updN (sbsize s) b None)
                           (snext s) (scache s) (count_free (scnt s)))
  end.
Fixpoint free_blks (l : list N) : M unit :=
  match l with
  | [] => ret tt
  | b :: r => free_blk b ;;; free_blks r
  end.
(** zj_ReleaseAllocator, zzzjson.h:497-508: the chunks after Root in list order,
    the first block (with the allocator itself) last. *)
Definition zj_ReleaseAllocator (A : N) : M unit :=
  ar <- get (fun s => sallocs s A) EDeref ;;
  match rev (map ckBlk ar) with
  | [] => fail EDeref
  | root :: others =>
      free_blks others ;;; free_blk A ;;;
      (fun s => Ok (tt, mkSt (sbytes s) (snodes s) (svals s) (sstrs s) (updN (sallocs s) A None)
                             (sbsize s) (snext s) (scache s) (scnt s)))
  end.

(** The caller's own buffers (not part of the library): a new buffer holding
    [bs], overwriting it, freeing it.  Buffers are shorter than 2^32 bytes. *)
Definition user_buf (bs : bytes) : M addr := fun s =>
  if two32 <=? N.of_nat (length bs) then Err ELimit else
  let b := snext s in
  Ok ((b, 0), mkSt (upd_bytes (sbytes s) (b, 0) bs) (snodes s) (svals s) (sstrs s) (sallocs s)
                   (updN (sbsize s) b (Some (N.of_nat (length bs)))) (b + 1) (scache s) (scnt s)).
Definition user_write (b : N) (bs : bytes) : M unit := fun s =>
  match sbsize s b, sallocs s b with
  | Some n, None => if n <? N.of_nat (length bs) then Err EOverflow
                    else Ok (tt, set_bytes (upd_bytes (sbytes s) (b, 0) bs) s)
  | _, _ => Err EDeref
  end.
Definition user_free (b : N) : M unit := fun s =>
  match sbsize s b with
  | None => Err EDeref
  | Some _ => Ok (tt, mkSt (drop_blk (sbytes s) b) (drop_blk (snodes s) b) (drop_blk (svals s) b)
                           (drop_blk (sstrs s) b) (sallocs s) (updN (sbsize s) b None)
                           (snext s) (scache s) (scnt s))
  end.
