(** Property C49: calls touch only their own memory. *)
From Verif Require Import Base Spec Mem Api Vocab Scene MemProofs Hist HistRun HistSim HistStep HistAll HistJudge HistMany HistWorld Frame FrameRun.

(** ** C49 What others keep in memory neither matters nor changes

    [cut B s t]: [t] is the memory [s] without the blocks marked by [B] (and no text
    buffer outside these blocks has its bytes in them).  [same B s s']: the blocks marked
    by [B] hold the same in [s] and [s'].

    A call that succeeds without the blocks does the same with them, whatever they hold:
    same answer, same effect on the rest, no effect on them.  No invariant is assumed, so
    this is a statement about every call with every argument in every memory; block 0 are
    the static texts of the library. *)
Theorem C49_call : forall B fuel c E s t x t', B 0 = false -> cut B s t -> cstep fuel c E t = Ok (x, t') ->
  exists s', cstep fuel c E s = Ok (x, s') /\ cut B s' t' /\ same B s s'.
Proof.
  intros B fuel c E s t x t' H0 C H. destruct (fr_cstep B fuel c E H0 s t x t' C H) as (s' & K1 & K2 & K3 & _). eauto.
Qed.
Print Assumptions C49_call.
(** Programs with releases, from any memory. *)
Theorem C49_program : forall B fuel es Es s t x t', B 0 = false -> cut B s t -> erun fuel es Es t = Ok (x, t') ->
  exists s', erun fuel es Es s = Ok (x, s') /\ cut B s' t' /\ same B s s'.
Proof.
  intros B fuel es Es s t x t' H0 C H. destruct (fr_erun B fuel H0 es Es s t x t' C H) as (s' & K1 & K2 & K3 & _). eauto.
Qed.
Print Assumptions C49_program.
(** Programs in a memory in which others have put whatever they liked ([among_others]):
    they get the answers of the reference semantics, their documents are in memory, and
    what the others had is as it was.  [dead]: the others have called a setter that takes
    a length; then this program must not, because they share one scratch string. *)
Theorem C49_anywhere : forall jd es dead rs W, correct jd -> wrun jd es (wbegin dead) = Some (rs, W) ->
  exists f0, forall fuel s, (f0 <= fuel)%nat -> among_others s -> (dead = false -> scache s = Null) ->
  exists Es s', erun fuel es wenv0 s = Ok ((rs, Es), s') /\ same (foreign s) s s' /\
    exists t', cut (foreign s) s' t' /\ forall g, represents (wr W g) (Es g) t'.
Proof. exact anywhere. Qed.
Print Assumptions C49_anywhere.

(** A memory with a ruined block: its bytes are all 7, a node at every address points to
    itself, and it passes for an allocator without chunks. *)
Definition ruined : st :=
  mkSt (fun a => if fst a =? 1 then Some 7 else sbytes init a)
       (fun a => if fst a =? 1 then Some (mkNode (Some TArray) Null None (At a) (Some 9) (At a) (At a) (At a) (At a)) else None)
       (fun a => if fst a =? 1 then Some (mkVal (At a) 1) else None)
       (fun a => if fst a =? 1 then Some (mkStr a 5 3 1) else None)
       (fun b => if b =? 1 then Some [] else None)
       (fun b => if b =? 1 then Some 4136 else sbsize init b) 2 (At (1, 0)) (mkCounts 0 0 0).
Definition visitor : list event :=
  [Do 0 CNewAllocator; Do 0 (CNewValue 0); Do 0 (CParse PCopy 0 (txt "[1,2]") []); Do 0 (CNewValue 0); Do 0 (CSetInt 1 7%Z);
   Do 0 (CAdd false true 0 1); Do 0 (CStringify 0); Release 0].
Example C49_case : among_others ruined /\ option_map fst (wrun the_judge visitor (wbegin true)) =
    Some [Arena 0; Value (Some 0%nat); Bool true; Value (Some 1%nat); Bool true; Bool true; Text (Some (txt "[1,2,7]")); Done] /\
  match erun 20 visitor wenv0 ruined with
  | Ok ((rs, _), s') => (nth_error rs 6, sbytes s' (1, 77), sbsize s' 1, sbsize s' 2) = (Some (Text (Some (txt "[1,2,7]"))), Some 7, Some 4136, None)
  | Err _ => False
  end.
Proof.
  split; [|split; vm_compute; reflexivity]. split; try (cbn; discriminate || reflexivity).
  - intro o. cbn [ruined sbytes fst N.eqb]. apply wfst_init.
  - intro o. cbn. auto.
  - intros b H. cbn [ruined snext] in H. assert (E : (b =? 1) = false) by (apply N.eqb_neq; lia).
    cbn [ruined sbsize sallocs]. rewrite E. destruct (w_next init wfst_init b) as [H1 _]; [cbn; lia|]. split; auto. split; auto.
    intro o. unfold nothing. cbn [ruined sbytes snodes svals sstrs fst]. rewrite E. split; auto.
    apply (w_dead init wfst_init (b, o)). exact H1.
Qed.
(** The exception is real: setting a text with its length writes into the allocator of
    the program that did so first. *)
Definition labels (t : String.string) : list call := [CNewAllocator; CNewValue 0; CSetText false KLen 0 (txt t)].
Theorem C49_scratch : match crun 0 (labels "ab") estart init with
  | Ok (_, s1) => foreign s1 1 = true /\
      match crun 0 (labels "cd") estart s1 with
      | Ok (_, s2) => exists o, sbytes s1 (1, o) = Some 97 /\ sbytes s2 (1, o) = Some 99
      | Err _ => False
      end
  | Err _ => False
  end.
Proof. vm_compute. split; [reflexivity|]. exists 80. split; reflexivity. Qed.
Print Assumptions C49_scratch.
