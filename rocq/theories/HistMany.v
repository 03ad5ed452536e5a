(** Programs that work with several groups of allocators and release them.

    The calls of a group use the allocators and value objects of that group only; a
    group is released as a whole, after which its number can be used again.  The
    reference knows of no interference between groups, except one: the text setters
    that get a length share one scratch string, which lives in an allocator of the
    first group that needed it.  [wc] are the groups it may be in, [wsure] says that it
    exists, [wdead] that such a group was released; after that the reference makes no
    promise for those setters any more (C29_refuted). *)
From Verif Require Import Base Spec Lex Alloc Mem Api Double Vocab Scene Dom Hist HistRun.

Inductive event := Do (g : nat) (c : call) | Release (g : nat).

Definition updn {X} (f : nat -> X) (g : nat) (x : X) : nat -> X := fun j => if Nat.eqb j g then x else f j.
Definition inb (g : nat) (l : list nat) : bool := existsb (Nat.eqb g) l.

(** ** Reference *)
Record world := mkW {
  wr : nat -> rst;
  wc : list nat;
  wsure : bool;
  wdead : bool
}.
Definition wstart : world := mkW (fun _ => rstart) [] false false.
Definition sets_scratch (c : call) : bool :=
  match c with CSetText _ KLen _ _ | CSetText _ KLenFast _ _ => true | _ => false end.
Definition charge (R : rst) (n : N) : rst := match scratch R n with Some R1 => R1 | None => R end.

Definition wstep (jd : judge) (e : event) (W : world) : option (answer * world) :=
  match e with
  | Release g => Some (Done, mkW (updn (wr W) g rstart) (wc W) (wsure W) (wdead W || inb g (wc W)))
  | Do g c =>
      match rstep jd c (wr W g) with
      | None => None
      | Some (x, R') =>
          if cneed c =? 0 then Some (x, mkW (updn (wr W) g R') (wc W) (wsure W) (wdead W))
          else if negb (wdead W) && forallb (fun j => Nat.eqb j g || is_some (scratch (wr W j) (cneed c))) (wc W)
          then Some (x, mkW (updn (fun j => if inb j (wc W) then charge (wr W j) (cneed c) else wr W j) g R')
                            (if wsure W then wc W else g :: wc W) (wsure W || sets_scratch c) false)
          else None
      end
  end.
Fixpoint wrun (jd : judge) (es : list event) (W : world) : option (list answer * world) :=
  match es with
  | [] => Some ([], W)
  | e :: r =>
      match wstep jd e W with
      | None => None
      | Some (x, W1) => match wrun jd r W1 with None => None | Some (xs, W2) => Some (x :: xs, W2) end
      end
  end.

(** ** On the model *)
Fixpoint release_all (l : list N) : M unit :=
  match l with
  | [] => ret tt
  | A :: r => zj_ReleaseAllocator A ;;; release_all r
  end.
Definition wenv := nat -> env.
Definition wenv0 : wenv := fun _ => estart.
Definition estep (fuel : nat) (e : event) (Es : wenv) : M (answer * wenv) :=
  match e with
  | Do g c => xe <- cstep fuel c (Es g) ;; ret (fst xe, updn Es g (snd xe))
  | Release g => release_all (ea (Es g)) ;;; ret (Done, updn Es g estart)
  end.
Fixpoint erun (fuel : nat) (es : list event) (Es : wenv) : M (list answer * wenv) :=
  match es with
  | [] => ret ([], Es)
  | e :: r => xe <- estep fuel e Es ;; re <- erun fuel r (snd xe) ;; ret (fst xe :: fst re, snd re)
  end.
