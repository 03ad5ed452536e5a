(** Basic vocabulary of the model: bytes, 32-bit arithmetic, outcomes. *)
From Coq Require Import Ascii.
From Coq Require Export String.
From Coq Require Export List NArith ZArith Lia Bool.
From Coq Require Export ZifyBool ZifyNat ZifyN.
Export ListNotations.
Open Scope N_scope.
Open Scope list_scope.

Arguments N.add : simpl never.
Arguments N.sub : simpl never.
Arguments N.mul : simpl never.
Arguments N.div : simpl never.
Arguments N.modulo : simpl never.
Arguments N.eqb : simpl never.
Arguments N.ltb : simpl never.
Arguments N.leb : simpl never.
Arguments N.of_nat : simpl never.
Arguments N.to_nat : simpl never.
Arguments N.pow : simpl never.

(** A [char] is represented by its value as [unsigned char], 0..255. *)
Definition byte := N.
Definition bytes := list N.

(** ASCII text written in Coq source to bytes. *)
Fixpoint txt (s : string) : bytes :=
  match s with
  | EmptyString => []
  | String c r => N_of_ascii c :: txt r
  end.

Arguments txt s%string.

(** [zj_Size] is [uint32_t] (zzzjson.h:35-38): all its arithmetic is modulo 2^32. *)
Definition two32 : N := 4294967296.
Definition u32 (x : N) : N := x mod two32.

(** What can go wrong.  Every [Err] is behaviour that the C standard leaves
    undefined, or a loop that does not end. *)
Inductive err :=
| EOob        (* read outside an object, or of a byte never written *)
| EDeref      (* dereference / use of a null, indeterminate or dangling pointer *)
| EOverflow   (* write beyond the memory that was obtained for it *)
| ELimit      (* 32-bit size arithmetic of the arena wrapped: region not inside its block *)
| ERange      (* ato* on a value that does not fit (C11 7.22.1p1) *)
| EFuel.      (* the loop has not ended within the given number of steps *)

Inductive res (A : Type) :=
| Ok (a : A)
| Err (e : err).
Arguments Ok {A} a.
Arguments Err {A} e.

Definition rbind {A B} (r : res A) (f : A -> res B) : res B :=
  match r with Ok a => f a | Err e => Err e end.

Notation "x <-? r ;; k" := (rbind r (fun x => k))
  (at level 61, r at next level, right associativity).
