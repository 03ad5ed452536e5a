(** Concrete situations and runs for the examples of PropTree.v. *)
From Verif Require Import Base Spec Lex LexProofs Alloc AllocProofs Mem MemProofs Api PureParse SpecProofs
  Dom Effect Steps SetProofs ParseTop GetProofs CopyProofs Vocab ParseFacts PrintFacts ReadFacts SetFacts TreeFacts Start Scene.

(** A new allocator and a value with the content of a text; one more value. *)
Definition start (t : bytes) : M (N * addr) := A <- zj_NewAllocator ;; v <- zj_NewValue A ;; _ <- parse_lit v t ;; ret (A, v).
Definition value (A : N) (t : bytes) : M addr := v <- zj_NewValue A ;; _ <- parse_lit v t ;; ret v.
(** Element number [i]; member [k]. *)
Definition element (v : addr) (i : N) : M addr := e <- zj_ArrayGet 100 v i ;; deref (wopt e).
Definition member (v : addr) (k : bytes) : M addr := p <- lit k ;; e <- zj_ObjGet 100 v p ;; deref (wopt e).

(** The memory below a node is a finite tree: going from nodes to their children
    (the first child and its successors) always ends. *)
Inductive kid_in (s : st) (a : addr) : addr -> Prop :=
| ki_first n c : snodes s a = Some n -> (nType n = Some TArray \/ nType n = Some TObject) -> nVal n = At c -> kid_in s a c
| ki_next b n c : kid_in s a b -> snodes s b = Some n -> nNext n = At c -> kid_in s a c.
Definition finite (s : st) (a : addr) : Prop := Acc (fun c p => kid_in s p c) a.
Lemma loop_infinite s a b : kid_in s a b -> kid_in s b a -> ~ finite s a.
Proof.
  intros H1 H2 F. revert b H1 H2. induction F as [a _ IH]. intros b H1 H2. exact (IH b H1 a H2 H1).
Qed.

(** Two documents, and a value object standing for a child of the first one. *)
Lemma docs_kid t1 l1 t2 j2 bs i c0 : ~ In 0 t1 -> ~ In 0 t2 -> json_text t1 (JArr l1) -> json_text t2 j2 ->
  lenN t1 < 100000 -> lenN t2 < 100000 -> lenN bs < 100000 -> i < two32 -> nth_error l1 (N.to_nat i) = Some c0 ->
  exists s F A v a u b p h c, inv s F /\ on s F v a A /\ reads F a (JArr l1) /\ on s F u b A /\ reads F b j2 /\ u <> v /\ a <> b /\
    root F a /\ root F b /\ key_at F a None /\ key_at F b None /\ (forall x, F x <> None -> tidy F x) /\ text_at s p = bs /\ safetext s p bs /\
    room s A 800000000 /\ on s F h c A /\ kid_at F a (N.to_nat i) c /\ reads F c c0 /\ key_at F c None.
Proof.
  intros Z1 Z2 J1 J2 L1 L2 L3 Hi Hc.
  destruct (docs t1 (JArr l1) t2 j2 bs Z1 Z2 J1 J2 L1 L2 L3) as (s & F & A & v & a & fa & u & b & fb & p & I & Hv & Ra & Hu & Rb & Nuv & Nab & Fa & Ka & Pa & Fb & Kb & Pb & Ty & Tx & Sf & Rm).
  destruct (arr_kids F a l1 Ra) as (fa' & kids & it & Fa' & Va & Rl & Eit & Len). assert (fa' = fa) by congruence. subst fa'.
  destruct (nth_error kids (N.to_nat i)) as [c|] eqn:Ec.
  2:{ apply nth_error_None in Ec. apply nth_error_Some_len in Hc. lia. }
  destruct (arrayGet_wp s F v A a fa I Hv Fa ltac:(unfold room in Rm; change two30 with 1073741824 in *; lia) (length kids) kids i Va Hi (le_n _)) as (r & s' & _ & K).
  rewrite Ec in K. destruct K as (h & -> & Bh & Vn & X).
  pose proof (ext_inv _ _ _ _ _ X I) as I1.
  destruct (userBuf_wp s' bs (i_wf _ _ I1)) as (q & s2 & _ & X2 & _ & T2 & S2 & _ & _ & _ & A2); [change two32 with 4294967296; lia|].
  exists s2, F, A, v, a, u, b, q, h, c.
  assert (Hand : forall x w C, handle s F x w C -> handle s2 F x w C) by (intros; eapply handle_ext; eauto; eapply handle_ext; eauto).
  split; [eapply ext_inv; eauto|]. split; [now apply Hand|]. split; auto. split; [now apply Hand|]. split; auto. split; auto. split; auto.
  split; [now exists fa|]. split; [now exists fb|]. split; [now exists fa|]. split; [now exists fb|]. split; auto.
  split; auto. split; [apply src_safetext; auto; intros [[]|(? & ? & ? & [] & _)]|].
  split. { pose proof (x_used _ _ _ _ _ X A) as U. rewrite at_eq in U. unfold room, usedA in *. rewrite A2. change two30 with 1073741824 in *. lia. }
  destruct (readsL_nth _ _ _ Rl _ c Ec) as (fc & jc & Fc & En & Rc).
  split. { eapply handle_ext; eauto. split; [apply Vn|]. destruct Hv as (_ & [Al NA] & _).
    split; [split; auto; now apply (x_alive _ _ _ _ _ X)|]. right. exists c. split; auto. congruence. }
  split; [exists fa, false, kids; auto|].
  destruct (proj1 (i_dom _ _ I a fa Fa) false kids Va) as [Ch _].
  assert (Kc : fkey fc = None).
  { clear - Ch Ec Fc. revert Ec. generalize (N.to_nat i). induction kids as [|x r IH]; intros [|n] E; cbn in *; try discriminate.
    - injection E as ->. destruct Ch as [(f & E1 & _ & _ & K) _]. congruence.
    - eapply IH; eauto. apply Ch. }
  split; [|now exists fc].
  assert (Ej : nth_error l1 (N.to_nat i) = Some jc).
  { unfold container in Eit. injection Eit as ->. rewrite nth_error_map, En. reflexivity. }
  congruence.
Qed.
