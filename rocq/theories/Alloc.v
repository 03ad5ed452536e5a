(** The arena: zj_Allocator as a list of chunks, sizes in uint32_t. *)
From Verif Require Import Base.

(** An address: a block obtained from malloc (or a static / caller-owned block)
    and an offset in it. *)
Definition addr : Type := (N * N)%type.

(** struct zj_aNode, zzzjson.h:440-449.  [Data] is block [ckBlk], offset [ckBase]. *)
Record chunk := mkChunk { ckBlk : N; ckBase : N; ckSize : N; ckPos : N }.

(** struct zj_Allocator, zzzjson.h:453-478: the list Root..End, here with End
    first (only End is ever allocated from; only zj_ReleaseAllocator walks it). *)
Definition arena := list chunk.

(** Sizes on an LP64 platform: struct zj_Allocator 475-477, zj_aNode 440-449,
    zj_string 547-556, zj_node 615-642, zj_Value 743-744; constants 55-69, 51-53. *)
Definition sizeof_Allocator : N := 16.
Definition sizeof_aNode : N := 24.
Definition sizeof_string : N := 24.
Definition sizeof_node : N := 72.
Definition sizeof_Value : N := 16.
Definition zj_Delta : N := 2.
Definition zj_AllocatorInitMemSize : N := 4096.
Definition zj_StringInitMemSize : N := 1024.
Definition zj_StringCacheInitMemSize : N := 128.

(** zj_NewAllocator, zzzjson.h:480-495: one block holds the allocator, the first
    chunk header and its data. *)
Definition first_chunk (blk : N) : chunk :=
  mkChunk blk (sizeof_Allocator + sizeof_aNode) zj_AllocatorInitMemSize 0.

(** [while (need > s) s *= zj_Delta], zzzjson.h:534-535 and 581-582.  In uint32_t
    the loop ends within 32 doublings or [s] has become 0 and it never ends
    (AllocProofs.v: [grow_forever]); [EFuel] is that second case. *)
Fixpoint grow (fuel : nat) (need s : N) : res N :=
  if s <? need then
    match fuel with
    | O => Err EFuel
    | S f => grow f need (u32 (s * zj_Delta))
    end
  else Ok s.
Definition grow_fuel : nat := 40%nat.

(** Outcome of an allocation: the address, the new chunk list, and the argument
    given to malloc if a new block was requested. *)
Record alloc_out := mkOut { oaddr : addr; oarena : arena; onew : option N }.

(** zj_allocatorAlloc 526-542 with zj_allocatorAppendChild 510-524 and zj_new 80
    (whose parameter is a zj_Size).  [next]: the block malloc returns if asked. *)
Definition arena_alloc (next : N) (a : arena) (size : N) : res alloc_out :=
  match a with
  | [] => Err EDeref
  | cur :: rest =>
      if ckSize cur <? u32 (ckPos cur + size) then
        s <-? grow grow_fuel size (u32 (ckSize cur * zj_Delta)) ;;
        Ok (mkOut (next, sizeof_aNode + 0)
                  (mkChunk next sizeof_aNode s (u32 (0 + size)) :: cur :: rest)
                  (Some (u32 (sizeof_aNode + s))))
      else
        Ok (mkOut (ckBlk cur, ckBase cur + ckPos cur)
                  (mkChunk (ckBlk cur) (ckBase cur) (ckSize cur) (u32 (ckPos cur + size)) :: rest)
                  None)
  end.
