(** Properties C19-C25 (and Copy for C40): copying, moving, adding, assigning, deleting. *)
From Verif Require Import Base Spec Lex LexProofs Alloc AllocProofs Mem MemProofs Api PureParse SpecProofs Dom Effect ParseTop
  StringifyProofs CopyProofs Vocab ParseFacts PrintFacts ReadFacts SetFacts TreeFacts Start Scene TreeScene.

(** ** C19 Copy is an equal and independent deep copy *)
Theorem C19_copy : forall (VV : vols) s F v a A j f,
  inv s F -> on s F v a A -> reads F a j -> F a = Some f ->
  room s A (88 + icost (fkey f, j)) -> forall fuel, (S (jsteps j) <= fuel)%nat ->
  exists h s' F' n, zj_Copy fuel v s = Ok (Some h, s') /\ inv s' F' /\ cloned F a j F' n /\ on s' F' h n A /\
    svals s h = None /\ (forall u w B, handle s F u w B -> handle s' F' u w B).
Proof. exact @copy_exact. Qed.
Print Assumptions C19_copy.
Theorem C19_copy_empty : forall (VV : vols) s F v A,
  inv s F -> empty s F v A -> room s A 16 -> forall fuel,
  exists s', zj_Copy fuel v s = Ok (None, s') /\ untouched s F s'.
Proof. exact @copy_none. Qed.
Print Assumptions C19_copy_empty.
(** Whatever is done later to the original or any other old value does not reach the
    copy, and whatever is done to (a part of) the copy does not reach any old value:
    calls that change a node ([redrawn]), setters and parsing ([assigned]). *)
Theorem C19_copy_not_reached : forall (K D : addr -> Prop) F b j F' n x jn F2,
  cloned F b j F' n -> F x <> None -> (forall d, D d -> F d <> None) ->
  redrawn K D F' x jn F2 -> reads F2 n j.
Proof. exact @clone_safe. Qed.
Print Assumptions C19_copy_not_reached.
Theorem C19_original_not_reached : forall (K D : addr -> Prop) F b j F' n x jn F2 y jy,
  wfdom F -> cloned F b j F' n -> below F' n x ->
  (forall d, D d -> F d = None) -> redrawn K D F' x jn F2 -> reads F y jy -> reads F2 y jy.
Proof. exact @orig_safe. Qed.
Print Assumptions C19_original_not_reached.
Theorem C19_copy_not_reached_by_setters : forall (VV : vols) s1 F b j F' n h A u w jn s2 F2,
  cloned F b j F' n -> on s1 F' h n A -> u <> h ->
  (forall x, w = At x -> F x <> None) -> assigned s1 F' u w jn s2 F2 -> content s2 F2 h j.
Proof. exact @clone_safe_set. Qed.
Print Assumptions C19_copy_not_reached_by_setters.
Theorem C19_original_not_reached_by_setters : forall (VV : vols) s1 F b j F' n A u x jn s2 F2 y Y jy,
  wfdom F -> cloned F b j F' n -> below F' n x ->
  assigned s1 F' u (At x) jn s2 F2 -> on s1 F' y Y A -> F Y <> None -> reads F Y jy -> y <> u -> content s2 F2 y jy.
Proof. exact @orig_safe_set. Qed.
Print Assumptions C19_original_not_reached_by_setters.
Definition list3 : list json := [JNum (txt "1"); JArr [JNum (txt "2"); JStr (txt "x")]; JNum (txt "3")].
Definition text3 : bytes := txt "[1,[2,""x""],3]".
Definition obj3 : list (bytes * json) := [(txt "a", JNum (txt "1")); (txt "b", JNull); (txt "a", JArr [])].
Definition otext3 : bytes := txt "{""a"":1,""b"":null,""a"":[]}".
Lemma text3_valid : json_text text3 (JArr list3).
Proof. apply valid_by; [apply has0_no|]; vm_compute; reflexivity. Qed.
Lemma otext3_valid : json_text otext3 (JObj obj3).
Proof. apply valid_by; [apply has0_no|]; vm_compute; reflexivity. Qed.
(** A document with an array, a handle on its middle element, an object. *)
Lemma tree_case : exists s F A v a u b p h c, inv s F /\ on s F v a A /\ reads F a (JArr list3) /\ on s F u b A /\ reads F b (JObj obj3) /\ u <> v /\ a <> b /\
    root F a /\ root F b /\ key_at F a None /\ key_at F b None /\ (forall x, F x <> None -> tidy F x) /\ text_at s p = txt "a" ++ [0] /\ safetext s p (txt "a" ++ [0]) /\
    room s A 800000000 /\ on s F h c A /\ kid_at F a 1 c /\ reads F c (JArr [JNum (txt "2"); JStr (txt "x")]) /\ key_at F c None.
Proof.
  apply (docs_kid text3 list3 otext3 (JObj obj3) (txt "a" ++ [0]) 1); try (apply has0_no; reflexivity); try apply text3_valid; try apply otext3_valid; reflexivity.
Qed.
Lemma small_room s A n : room s A 800000000 -> (n <=? 800000000) = true -> room s A n.
Proof. unfold room. intros H L. apply N.leb_le in L. lia. Qed.
Lemma not_below_other F a b : wfdom F -> root F a -> root F b -> a <> b -> ~ below F b a.
Proof. intros W (f & Fa & Pa) _ N B. apply N. symmetry. eapply root_below; eauto. Qed.
Lemma kid_not_above F a i c j : kid_at F a i c -> reads F a j -> ~ below F c a.
Proof.
  intros (f & ob & kids & Fa & Va & Hn) R B. apply (proj1 (reads_acyclic F) a j R). exists f, ob, kids, c. split; auto. split; auto. split; auto.
  eapply nth_error_In; eauto.
Qed.
Example C19_case : exists s F v a A f, inv s F /\ on s F v a A /\ reads F a (JArr list3) /\ F a = Some f /\
  room s A (88 + icost (fkey f, JArr list3)).
Proof.
  destruct tree_case as (s & F & A & v & a & u & b & p & h & c & I & Hv & Ra & _ & _ & _ & _ & _ & _ & (f & Fa & Ka) & _ & _ & _ & _ & Rm & _).
  exists s, F, v, a, A, f. split; auto. split; auto. split; auto. split; auto. rewrite Ka. eapply small_room; eauto.
Qed.
(** Copy, then change the original; copy, then change the copy. *)
Example C19_run : run (x <- start text3 ;; let '(A, v) := x in o <- zj_Copy 100 v ;; c <- deref (wopt o) ;;
    e <- element v 1 ;; _ <- zj_SetNull e ;; t1 <- show v ;; t2 <- show c ;; d <- element c 0 ;; _ <- parse_lit d (txt "{}") ;;
    t3 <- show v ;; t4 <- show c ;; ret (t1, t2, t3, t4)) =
  Ok (txt "[1,null,3]", text3, txt "[1,null,3]", txt "[{},[2,""x""],3]").
Proof. vm_compute. reflexivity. Qed.
(** ** C40 Nesting depth is unlimited: Copy (the content, hence the depth, is arbitrary) *)
Theorem C40_every_depth : forall (VV : vols) s F v A src j,
  inv s F -> empty s F v A -> cstring s src (print j) -> json_ok j ->
  room s A (len_cost (lenN (print j)) + print_cost (lenN (print j)) + 88 + jcost j) ->
  exists s1 F1, zj_Parse v src s = Ok (true, s1) /\ content s1 F1 v j /\
    exists k, forall fuel, (k <= fuel)%nat ->
      (exists p s2, zj_Stringify fuel v s1 = Ok (p, s2) /\ string_at s2 p (print j)) /\
      (exists h s2 F2, zj_Copy fuel v s1 = Ok (Some h, s2) /\ content s2 F2 h j).
Proof. exact @any_depth. Qed.
Print Assumptions C40_every_depth.
Example C40_every_depth_case : let j := tower 40 in exists s F v A src, inv s F /\ empty s F v A /\ cstring s src (print j) /\ json_ok j /\
  room s A (len_cost (lenN (print j)) + print_cost (lenN (print j)) + 88 + jcost j).
Proof.
  intro j. destruct (text_scene (print j)) as (s & A & v & p & I & Ev & Cs & _ & Rm);
    [apply has0_no; vm_compute; reflexivity|vm_compute; reflexivity|].
  exists s, nodocs, v, A, p. split; auto. split; auto. split; auto. split; [apply tower_ok|].
  unfold room in *. eapply N.le_trans; [|exact Rm]. apply N.add_le_mono_l. vm_compute. discriminate.
Qed.
(** ... so also these, for every n: *)
Theorem C40_deep_trees : forall n, json_ok (tower n) /\ depth (tower n) = n.
Proof. exact (fun n => conj (tower_ok n) (tower_depth n)). Qed.
Print Assumptions C40_deep_trees.
Theorem C40_copy : forall (VV : vols) s F v a A f n,
  inv s F -> on s F v a A -> reads F a (nest n (JArr [])) -> F a = Some f ->
  room s A (88 + klen (fkey f) + 72 * N.of_nat n) -> exists k, forall fuel, (k <= fuel)%nat ->
  exists h s' F' c, zj_Copy fuel v s = Ok (Some h, s') /\ inv s' F' /\ on s' F' h c A /\ reads F' c (nest n (JArr [])).
Proof. exact @copy_deep. Qed.
Print Assumptions C40_copy.
Example C40_copy_case : exists s F v a A f, inv s F /\ on s F v a A /\ reads F a (nest 500 (JArr [])) /\ F a = Some f /\
  room s A (88 + klen (fkey f) + 72 * 501).
Proof.
  assert (Z : ~ In 0 (repeat 91 501 ++ repeat 93 501)) by (apply has0_no; vm_compute; reflexivity).
  assert (Jt : json_text (repeat 91 501 ++ repeat 93 501) (nest 500 (JArr []))) by (apply valid_by; [exact Z|vm_compute; reflexivity]).
  destruct (docs _ _ otext3 (JObj obj3) [] Z ltac:(apply has0_no; vm_compute; reflexivity) Jt otext3_valid
      ltac:(vm_compute; reflexivity) ltac:(vm_compute; reflexivity) ltac:(vm_compute; reflexivity)) as
    (s & F & A & v & a & fa & u & b & fb & p & I & Hv & Ra & Hu & Rb & Nuv & Nab & Fa & Ka & Pa & Fb & Kb & Pb & Ty & Tx & Sf & Rm).
  exists s, F, v, a, A, fa. split; auto. split; auto. split; auto. split; auto. rewrite Ka. unfold room in *.
  eapply N.le_trans; [|exact Rm]. apply N.add_le_mono_l. vm_compute. discriminate.
Qed.

(** ** C20 Move detaches exactly the given value

    Refuted as stated: the parent does not remain usable.  Removing the last one of
    several children loses the parent's link to its last child, so that adding to the
    parent then dereferences null; removing a middle child loses the link from its
    successor to its predecessor, so that removing the successor also removes all
    children before it.  A freshly parsed array with the same elements behaves as it
    should. *)
Theorem C20_refuted :
  let add7 A v := (u <- value A (txt "7") ;; _ <- zj_ArrayAdd 100 v u ;; show v) in
  let move1 (v : addr) := (e <- element v 1 ;; zj_Move e) in
  let drop1 v := (_ <- move1 v ;; show v) in
  (run (x <- start (txt "[1,2]") ;; let '(A, v) := x in _ <- move1 v ;; show v) = Ok (txt "[1]") /\
   run (x <- start (txt "[1,2]") ;; let '(A, v) := x in _ <- move1 v ;; add7 A v) = Err EDeref /\
   run (x <- start (txt "[1]") ;; let '(A, v) := x in add7 A v) = Ok (txt "[1,7]")) /\
  (run (x <- start (txt "[1,2,3]") ;; let '(A, v) := x in drop1 v) = Ok (txt "[1,3]") /\
   run (x <- start (txt "[1,2,3]") ;; let '(A, v) := x in _ <- move1 v ;; drop1 v) = Ok (txt "[]") /\
   run (x <- start (txt "[1,3]") ;; let '(A, v) := x in drop1 v) = Ok (txt "[1]")).
Proof. repeat split; vm_compute; reflexivity. Qed.
Print Assumptions C20_refuted.
(** Proved: Move does detach the value and nothing else whenever the link to its
    predecessor is right (so on every value that was parsed, copied or added and none
    of whose siblings was moved before); and the links of all containers stay right
    except those of the parent, unless the moved child was its first. *)
Theorem C20_move_partial : forall (VV : vols) s F v a A p i jp,
  inv s F -> on s F v a A -> kid_at F p i a -> reads F p jp -> prev_ok F p i ->
  exists s' F' k ja, zj_Move v s = Ok (true, s') /\ nth_error (items jp) i = Some (k, ja) /\
    edits none none none s F p (jdel i jp) s' F' /\ root F' a /\ reads F' a ja /\
    (forall x, x <> p \/ i = O -> F x <> None -> tidy F x -> tidy F' x).
Proof. exact @move_exact. Qed.
Print Assumptions C20_move_partial.
Theorem C20_move_root : forall (VV : vols) s F v a A,
  inv s F -> on s F v a A -> root F a ->
  exists s', zj_Move v s = Ok (true, s') /\ untouched s F s'.
Proof. exact @move_root. Qed.
Print Assumptions C20_move_root.
Theorem C20_move_empty : forall (VV : vols) s F v A, empty s F v A -> zj_Move v s = Ok (false, s).
Proof. exact @move_none. Qed.
Print Assumptions C20_move_empty.
Example C20_case : exists s F v a A p i, inv s F /\ on s F v a A /\ kid_at F p i a /\ reads F p (JArr list3) /\ prev_ok F p i.
Proof.
  destruct tree_case as (s & F & A & v & a & u & b & p & h & c & I & Hv & Ra & Hu & Rb & Nuv & Nab & Pa & Pb & Ka & Kb & Ty & Tx & Sf & Rm & Hh & Kc & Rc & Kn).
  exists s, F, h, c, A, a, 1%nat. split; auto. split; auto. split; auto. split; auto. apply tidy_prev, Ty.
  destruct Pa as (f & E & _). congruence.
Qed.
(** The first child can be removed again and again, and the container stays in order. *)
Example C20_run : run (x <- start text3 ;; let '(A, v) := x in e <- element v 0 ;; _ <- zj_Move e ;; e2 <- element v 0 ;; _ <- zj_Move e2 ;;
    u <- value A (txt "{}") ;; _ <- zj_ArrayAdd 100 v u ;; t1 <- show v ;; t2 <- show e ;; t3 <- show e2 ;; ret (t1, t2, t3)) =
  Ok (txt "[3,{}]", txt "1", txt "[2,""x""]").
Proof. vm_compute. reflexivity. Qed.

(** ** C21 ArrayAdd/ObjAdd append a copy

    Refuted in the states that C20's fault (and C23's) produces: *)
Theorem C21_refuted : exists pre : M (N * addr),
  run (x <- pre ;; show (snd x)) = Ok (txt "[1]") /\
  run (x <- pre ;; let '(A, v) := x in u <- value A (txt "7") ;; zj_ArrayAdd 100 v u) = Err EDeref.
Proof. exists (x <- start (txt "[1,2]") ;; let '(A, v) := x in _ <- zj_ArrayDel 100 v 1 ;; ret (A, v)). split; vm_compute; reflexivity. Qed.
Print Assumptions C21_refuted.
(** Proved wherever the container's link to its last child is right, in particular for
    every container that was parsed, copied or filled by additions.  [vv] may be [v]
    itself, a part of [v] or contain [v]. *)
Theorem C21_arrayAdd_partial : forall (VV : vols) s F v a A vv b B l j k,
  inv s F -> on s F v a A -> on s F vv b B -> reads F a (JArr l) -> end_ok F a ->
  lenN l + 1 < two32 -> reads F b j -> key_at F b k -> room s B (88 + icost (k, j)) ->
  forall fuel, (S (jsteps j) <= fuel)%nat ->
  exists s', zj_ArrayAdd fuel v vv s = Ok (true, s') /\ grows s F a (length l) (JArr (l ++ [j])) None s'.
Proof. exact @arrayAdd_exact. Qed.
Print Assumptions C21_arrayAdd_partial.
Theorem C21_objAdd_partial : forall (VV : vols) s F v a A vv b B l j k,
  inv s F -> on s F v a A -> on s F vv b B -> reads F a (JObj l) -> end_ok F a ->
  lenN l + 1 < two32 -> reads F b j -> key_at F b (Some k) -> room s B (88 + icost (Some k, j)) ->
  forall fuel, (S (jsteps j) <= fuel)%nat ->
  exists s', zj_ObjAdd fuel v vv s = Ok (true, s') /\ grows s F a (length l) (JObj (l ++ [(k, j)])) (Some k) s'.
Proof. exact @objAdd_exact. Qed.
Print Assumptions C21_objAdd_partial.
Theorem C21_arrayAdd_other : forall (VV : vols) s F v w A vv fuel,
  inv s F -> handle s F v w A -> not_of F TArray w ->
  zj_ArrayAddFast v vv s = Ok (false, s) /\ zj_ArrayAdd fuel v vv s = Ok (false, s).
Proof. exact @arrayAdd_not. Qed.
Print Assumptions C21_arrayAdd_other.
Theorem C21_objAdd_other : forall (VV : vols) s F v w A vv fuel,
  inv s F -> handle s F v w A -> not_of F TObject w ->
  zj_ObjAddFast v vv s = Ok (false, s) /\ zj_ObjAdd fuel v vv s = Ok (false, s).
Proof. exact @objAdd_not. Qed.
Print Assumptions C21_objAdd_other.
Theorem C21_objAdd_without_key : forall (VV : vols) s F v a A vv w B l fuel,
  inv s F -> on s F v a A -> reads F a (JObj l) -> handle s F vv w B ->
  (forall b, w = At b -> key_at F b None) ->
  zj_ObjAddFast v vv s = Ok (false, s) /\ zj_ObjAdd fuel v vv s = Ok (false, s).
Proof. exact @objAdd_nokey. Qed.
Print Assumptions C21_objAdd_without_key.
Theorem C21_arrayAdd_empty : forall (VV : vols) s F v a A vv B l fuel,
  inv s F -> on s F v a A -> reads F a (JArr l) -> empty s F vv B -> room s B 16 ->
  zj_ArrayAddFast v vv s = Ok (false, s) /\ exists s', zj_ArrayAdd fuel v vv s = Ok (false, s') /\ untouched s F s'.
Proof. exact @arrayAdd_none. Qed.
Print Assumptions C21_arrayAdd_empty.
Example C21_case : exists s F v a A vv b B k, inv s F /\ on s F v a A /\ on s F vv b B /\ reads F a (JArr list3) /\ end_ok F a /\
  reads F b (JArr list3) /\ key_at F b k /\ room s B (88 + icost (k, JArr list3)).
Proof.
  destruct tree_case as (s & F & A & v & a & u & b & p & h & c & I & Hv & Ra & Hu & Rb & Nuv & Nab & Pa & Pb & Ka & Kb & Ty & Tx & Sf & Rm & Hh & Kc & Rc & Kn).
  exists s, F, v, a, A, v, a, A, None. split; auto. split; auto. split; auto. split; auto. split; [|split; auto; split; auto; eapply small_room; eauto].
  apply tidy_end, Ty. destruct Pa as (f & E & _). congruence.
Qed.
(** Adding a value to itself, to a part of itself, and an element to its own array. *)
Example C21_run : run (x <- start (txt "[1,[2]]") ;; let '(A, v) := x in _ <- zj_ArrayAdd 100 v v ;; t1 <- show v ;;
    e <- element v 1 ;; _ <- zj_ArrayAdd 100 e v ;; t2 <- show v ;; _ <- zj_ArrayAdd 100 v e ;; t3 <- zj_SizeOf v ;; ret (t1, t2, t3)) =
  Ok (txt "[1,[2],[1,[2]]]", txt "[1,[2,[1,[2],[1,[2]]]],[1,[2]]]", 4).
Proof. vm_compute. reflexivity. Qed.
Example C21_obj_run : run (x <- start otext3 ;; let '(A, v) := x in e <- member v (txt "b") ;; _ <- zj_ObjAdd 100 v e ;;
    u <- value A (txt "5") ;; r1 <- zj_ObjAdd 100 v u ;; k <- lit (txt "c") ;; _ <- zj_SetKey u k ;; r2 <- zj_ObjAdd 100 v u ;; t <- show v ;; ret (r1, r2, t)) =
  Ok (false, true, txt "{""a"":1,""b"":null,""a"":[],""b"":null,""c"":5}").
Proof. vm_compute. reflexivity. Qed.

(** ** C22 ArrayAddFast/ObjAddFast move the value into the container

    Refuted as stated.  Nothing stops the caller from moving a value into a part of
    itself: afterwards the memory below [v] is not a tree, and what Stringify prints is
    not JSON.  Moving a value into itself loses it.  Moving the last one of several
    children to the end of its own container dereferences null. *)
Theorem C22_refuted :
  let cyclic := (x <- start (txt "[1,[2]]") ;; let '(A, v) := x in c <- element v 1 ;; r <- zj_ArrayAddFast c v ;; ret (r, c)) in
  (exists s c a A, cyclic init = Ok ((true, c), s) /\ svals s c = Some (mkVal (At a) A) /\ ~ finite s a) /\
  run (x <- cyclic ;; show (snd x)) = Ok (txt "[2,[1,") /\
  run (x <- start (txt "[1,[2]]") ;; let '(A, v) := x in r <- zj_ArrayAddFast v v ;; t <- show v ;; ret (r, t)) = Ok (true, []) /\
  run (x <- start (txt "[1,2]") ;; let '(A, v) := x in e <- element v 1 ;; zj_ArrayAddFast v e) = Err EDeref.
Proof.
  cbv zeta. split; [|split; [vm_compute; reflexivity|split; vm_compute; reflexivity]].
  match goal with |- exists s c a A, ?p init = _ /\ _ => set (m := p) end.
  assert (E : exists s c, m init = Ok ((true, c), s)).
  { destruct (m init) as [[[r c] s]|e] eqn:E.
    - assert (r = true); [|subst r; now exists s, c]. assert (K : match m init with Ok ((r, _), _) => r | _ => false end = true) by (vm_compute; reflexivity).
      rewrite E in K. exact K.
    - exfalso. assert (K : match m init with Ok _ => true | Err _ => false end = true) by (vm_compute; reflexivity). rewrite E in K. discriminate. }
  destruct E as (s & c & E).
  assert (K : match m init with
    | Ok ((_, c), s) => match svals s c with
        | Some (mkVal (At a) A) => match snodes s a with
            | Some n => match nVal n with
                | At x => match snodes s x with
                    | Some nx => match nNext nx with
                        | At y => match snodes s y with
                            | Some ny => match nVal ny with
                                | At z => match snodes s z with
                                    | Some nz => match nNext nz with At a' => addr_eqb a' a && (match nType n with Some TArray => true | _ => false end) && (match nType ny with Some TArray => true | _ => false end) | _ => false end
                                    | None => false end
                                | _ => false end
                            | None => false end
                        | _ => false end
                    | None => false end
                | _ => false end
            | None => false end
        | _ => false end
    | Err _ => false end = true) by (vm_compute; reflexivity).
  rewrite E in K. clearbody m. destruct (svals s c) as [[[| |a] A]|] eqn:Ec; try discriminate.
  destruct (snodes s a) as [n|] eqn:Ea; try discriminate. destruct (nVal n) as [| |x] eqn:Vn; try discriminate.
  destruct (snodes s x) as [nx|] eqn:Ex; try discriminate. destruct (nNext nx) as [| |y] eqn:Nx; try discriminate.
  destruct (snodes s y) as [ny|] eqn:Ey; try discriminate. destruct (nVal ny) as [| |z] eqn:Vy; try discriminate.
  destruct (snodes s z) as [nz|] eqn:Ez; try discriminate. destruct (nNext nz) as [| |a'] eqn:Nz; try discriminate.
  apply Bool.andb_true_iff in K as [K K3]. apply Bool.andb_true_iff in K as [K1 K2].
  destruct (addr_eqb_spec a' a) as [->|]; [|discriminate].
  exists s, c, a, A. split; auto. split; auto. apply (loop_infinite s a y).
  - apply (ki_next s a x nx y); auto. apply (ki_first s a n x); auto. left. destruct (nType n) as [[]|]; congruence.
  - apply (ki_next s y z nz a); auto. apply (ki_first s y ny z); auto. left. destruct (nType ny) as [[]|]; congruence.
Qed.
Print Assumptions C22_refuted.
(** Proved: the calls do what they should when [vv]'s node is not [v]'s and does not
    contain it, is not the last one of several children of [v], and the links used are
    right.  [F1] is the documents with [vv]'s node taken out of its old place. *)
Theorem C22_arrayAddFast_partial : forall (VV : vols) s F v a A vv c B l jc,
  inv s F -> on s F v a A -> on s F vv c B -> reads F a (JArr l) ->
  reads F c jc -> movable F c -> ~ below F c a -> end_ok F a -> ~ last_kid F a c -> lenN l + 1 < two32 ->
  exists s' F1 F' l1, zj_ArrayAddFast v vv s = Ok (true, s') /\ taken_out F c jc F1 /\ reads F1 a (JArr l1) /\
    redrawn (only c) none F1 a (JArr (l1 ++ [jc])) F' /\ consumed none s F vv B s' F' /\ kid_at F' a (length l1) c /\
    (forall x, F1 x <> None -> tidy F1 x -> tidy F' x).
Proof. exact @arrayAddFast_exact. Qed.
Print Assumptions C22_arrayAddFast_partial.
Theorem C22_objAddFast_partial : forall (VV : vols) s F v a A vv c B l jc k,
  inv s F -> on s F v a A -> on s F vv c B -> reads F a (JObj l) ->
  reads F c jc -> key_at F c (Some k) -> movable F c -> ~ below F c a -> end_ok F a -> ~ last_kid F a c -> lenN l + 1 < two32 ->
  exists s' F1 F' l1, zj_ObjAddFast v vv s = Ok (true, s') /\ taken_out F c jc F1 /\ reads F1 a (JObj l1) /\
    redrawn none none F1 a (JObj (l1 ++ [(k, jc)])) F' /\ consumed none s F vv B s' F' /\ kid_at F' a (length l1) c /\
    (forall x, F1 x <> None -> tidy F1 x -> tidy F' x).
Proof. exact @objAddFast_exact. Qed.
Print Assumptions C22_objAddFast_partial.
Example C22_case : exists s F v a A vv c B, inv s F /\ on s F v a A /\ on s F vv c B /\ reads F a (JArr [JNum (txt "2"); JStr (txt "x")]) /\
  reads F c (JObj obj3) /\ movable F c /\ ~ below F c a /\ end_ok F a /\ ~ last_kid F a c.
Proof.
  destruct tree_case as (s & F & A & v & a & u & b & p & h & c & I & Hv & Ra & Hu & Rb & Nuv & Nab & Pa & Pb & Ka & Kb & Ty & Tx & Sf & Rm & Hh & Kc & Rc & Kn).
  pose proof (i_dom _ _ I) as W. pose proof Kc as (fa & ob & kids & Fa & Va & Hn).
  exists s, F, h, c, A, u, b, A. split; auto. split; auto. split; auto. split; auto. split; auto. split; [now left|].
  split; [|split; [apply tidy_end, Ty; destruct Kn as (f & E & _); congruence|]].
  - intro B. destruct (below_linear F a b c W) as [K|K].
    + eapply bl_kid; eauto; [constructor|]. eapply nth_error_In; eauto.
    + exact B.
    + exact (not_below_other F b a W Pb Pa (not_eq_sym Nab) K).
    + exact (not_below_other F a b W Pa Pb Nab K).
  - intros (f & ob' & l & E & V & _). destruct (child_par F c b W) as (fb & Fb & Pb').
    + exists f, ob', (l ++ [b]). split; auto. split; auto. apply in_app_iff. right. now left.
    + destruct Pb as (fb' & Fb' & Pb). congruence.
Qed.
(** From one container to another, within one container, a member to an array (it
    loses its key). *)
Example C22_run : run (x <- start (txt "[1,2,3,[]]") ;; let '(A, v) := x in e <- element v 0 ;; _ <- zj_ArrayAddFast v e ;; t1 <- show v ;;
    u <- value A otext3 ;; c <- element v 2 ;; m <- member u (txt "a") ;; _ <- zj_ArrayAddFast c m ;; t2 <- show v ;; t3 <- show u ;; t4 <- show m ;; ret (t1, t2, t3, t4)) =
  Ok (txt "[2,3,[],1]", txt "[2,3,[1],1]", txt "{""b"":null,""a"":[]}", []).
Proof. vm_compute. reflexivity. Qed.

(** ** C23 Set assigns a copy

    Refuted as stated: after [Set] the assigned container keeps [vv]'s link to its last
    child.  Adding to [v] then changes [vv]'s list instead: [v] prints as before, its
    size is wrong, and printing [vv] dereferences null. *)
Theorem C23_refuted :
  let assigned := (x <- start (txt "[0]") ;; let '(A, v) := x in u <- value A (txt "[1]") ;; r <- zj_Set 100 v u ;; ret (A, v, u)) in
  let added := (x <- assigned ;; let '(A, v, u) := x in w <- value A (txt "7") ;; r <- zj_ArrayAdd 100 v w ;; ret (r, v, u)) in
  run (x <- assigned ;; let '(A, v, u) := x in t1 <- show v ;; t2 <- show u ;; ret (t1, t2)) = Ok (txt "[1]", txt "[1]") /\
  run (x <- added ;; let '(r, v, u) := x in t <- show v ;; n <- zj_SizeOf v ;; ret (r, t, n)) = Ok (true, txt "[1]", 2) /\
  run (x <- added ;; let '(r, v, u) := x in show u) = Err EDeref.
Proof. repeat split; vm_compute; reflexivity. Qed.
Print Assumptions C23_refuted.
(** Proved: everything but the last part.  [v] has the content of [vv], consisting of new
    nodes only; nothing else changes; all containers but [v] keep their links. *)
Theorem C23_set_partial : forall (VV : vols) s F v a A vv b B j k,
  inv s F -> on s F v a A -> on s F vv b B -> F a <> None -> reads F b j -> key_at F b k ->
  room s B (88 + icost (k, j)) -> forall fuel, (S (jsteps j) <= fuel)%nat -> (length (items j) <= fuel)%nat ->
  exists s' F', zj_Set fuel v vv s = Ok (true, s') /\ edits none none none s F a j s' F' /\
    (forall x, sbelow F' a x -> F x = None) /\ (forall x, x <> a -> F' x <> None -> (F x <> None -> tidy F x) -> tidy F' x).
Proof. exact @set_exact. Qed.
Print Assumptions C23_set_partial.
Theorem C23_set_new : forall (VV : vols) s F v A vv b B j k,
  inv s F -> empty s F v A -> on s F vv b B -> reads F b j -> key_at F b k ->
  room s B (88 + icost (k, j)) -> forall fuel, (S (jsteps j) <= fuel)%nat ->
  exists s' F' n, zj_Set fuel v vv s = Ok (true, s') /\ inv s' F' /\ cloned F b j F' n /\ on s' F' v n A /\
    (forall u w C, u <> v -> handle s F u w C -> handle s' F' u w C).
Proof. exact @set_new. Qed.
Print Assumptions C23_set_new.
Theorem C23_set_empty : forall (VV : vols) s F v vv B fuel,
  inv s F -> empty s F vv B -> room s B 16 ->
  exists s', zj_Set fuel v vv s = Ok (false, s') /\ untouched s F s'.
Proof. exact @set_none. Qed.
Print Assumptions C23_set_empty.
Example C23_case : exists s F v a A vv b B k, inv s F /\ on s F v a A /\ on s F vv b B /\ F a <> None /\ reads F b (JArr list3) /\ key_at F b k /\
  room s B (88 + icost (k, JArr list3)).
Proof.
  destruct tree_case as (s & F & A & v & a & u & b & p & h & c & I & Hv & Ra & Hu & Rb & Nuv & Nab & Pa & Pb & Ka & Kb & Ty & Tx & Sf & Rm & Hh & Kc & Rc & (fc & Fc & Kn)).
  exists s, F, h, c, A, v, a, A, None. split; auto. split; auto. split; auto. split; [congruence|]. split; auto. split; auto. eapply small_room; eauto.
Qed.
(** An element gets a copy of the whole array it stands in. *)
Example C23_run : run (x <- start text3 ;; let '(A, v) := x in e <- element v 1 ;; r <- zj_Set 100 e v ;; t <- show v ;; ret (r, t)) =
  Ok (true, txt "[1,[1,[2,""x""],3],3]").
Proof. vm_compute. reflexivity. Qed.

(** ** C24 SetFast assigns by moving

    Refuted as stated: nothing stops the caller from assigning to [v] a value that
    contains [v]; what is printed afterwards is not JSON.  Assigning a value to itself
    empties it. *)
Theorem C24_refuted :
  run (x <- start (txt "[0,[5],6]") ;; let '(A, v) := x in c <- element v 1 ;; r <- zj_SetFast 100 c v ;; t <- show c ;; ret (r, t)) = Ok (true, txt "[0,") /\
  run (x <- start (txt "[0,[5],6]") ;; let '(A, v) := x in r <- zj_SetFast 100 v v ;; t <- show v ;; ret (r, t)) = Ok (true, []).
Proof. split; vm_compute; reflexivity. Qed.
Print Assumptions C24_refuted.
(** Proved: the call does what it should when [vv]'s node is not [v]'s and does not
    contain it, and the link used to take [vv] out is right.  Value objects other than
    [vv] that stood for [vv]'s node are not to be used any more. *)
Theorem C24_setFast_partial : forall (VV : vols) s F v a A vv b B j,
  inv s F -> on s F v a A -> on s F vv b B -> F a <> None -> reads F b j -> movable F b ->
  ~ below F b a -> forall fuel, (length (items j) <= fuel)%nat ->
  exists s' F1 F', zj_SetFast fuel v vv s = Ok (true, s') /\ taken_out F b j F1 /\ redrawn none (only b) F1 a j F' /\
    consumed (only b) s F vv B s' F' /\
    (forall x, x <> b -> F1 x <> None -> (x <> a -> tidy F1 x) -> (x = a -> tidy F1 b) -> tidy F' x).
Proof. exact @setFast_exact. Qed.
Print Assumptions C24_setFast_partial.
Theorem C24_setFast_new_partial : forall (VV : vols) s F v A vv b B j,
  inv s F -> empty s F v A -> on s F vv b B -> reads F b j -> movable F b -> forall fuel,
  exists s' F1, zj_SetFast fuel v vv s = Ok (true, s') /\ taken_out F b j F1 /\ inv s' F1 /\ on s' F1 v b A /\ empty s' F1 vv B /\
    (forall u w C, u <> v -> u <> vv -> handle s F u w C -> handle s' F1 u w C).
Proof. exact @setFast_new. Qed.
Print Assumptions C24_setFast_new_partial.
Theorem C24_setFast_empty : forall (VV : vols) s F v vv B fuel,
  empty s F vv B -> zj_SetFast fuel v vv s = Ok (false, s).
Proof. exact @setFast_none. Qed.
Print Assumptions C24_setFast_empty.
Example C24_case : exists s F v a A vv b B, inv s F /\ on s F v a A /\ on s F vv b B /\ F a <> None /\ reads F b (JArr [JNum (txt "2"); JStr (txt "x")]) /\
  movable F b /\ ~ below F b a.
Proof.
  destruct tree_case as (s & F & A & v & a & u & b & p & h & c & I & Hv & Ra & Hu & Rb & Nuv & Nab & Pa & Pb & Ka & Kb & Ty & Tx & Sf & Rm & Hh & Kc & Rc & Kn).
  assert (Da : F a <> None) by (destruct Pa as (f & E & _); congruence).
  exists s, F, v, a, A, h, c, A. split; auto. split; auto. split; auto. split; auto. split; auto. split.
  - right. exists a, 1%nat, (JArr list3). split; auto. split; auto. apply tidy_prev, Ty, Da.
  - eapply kid_not_above; eauto.
Qed.
(** A value gets the content of its own element; an element that of another document. *)
Example C24_run : run (x <- start text3 ;; let '(A, v) := x in e <- element v 1 ;; r <- zj_SetFast 100 v e ;; t <- show v ;; t' <- show e ;;
    u <- value A otext3 ;; d <- element v 0 ;; _ <- zj_SetFast 100 d u ;; t2 <- show v ;; ret (r, t, t', t2)) =
  Ok (true, txt "[2,""x""]", [], txt "[{""a"":1,""b"":null,""a"":[]},""x""]").
Proof. vm_compute. reflexivity. Qed.

(** ** C25 ArrayDel/ObjDel delete exactly one child, repeatedly

    Refuted for sequences (the same fault as in C20): *)
Theorem C25_refuted :
  run (x <- start (txt "[1,2,3]") ;; let '(A, v) := x in r1 <- zj_ArrayDel 100 v 1 ;; r2 <- zj_ArrayDel 100 v 1 ;; t <- show v ;; ret (r1, r2, t)) =
    Ok (true, true, txt "[]") /\
  remove_nth 1 (remove_nth 1 [JNum (txt "1"); JNum (txt "2"); JNum (txt "3")]) = [JNum (txt "1")].
Proof. split; vm_compute; reflexivity. Qed.
Print Assumptions C25_refuted.
(** Proved: one deletion, wherever the link from the child to its predecessor is right;
    and the container's links stay right if it was the first child. *)
Theorem C25_arrayDel_partial : forall (VV : vols) s F v a A l i,
  inv s F -> on s F v a A -> reads F a (JArr l) -> i < two32 -> room s A 16 ->
  prev_ok F a (N.to_nat i) -> forall fuel, (length l <= fuel)%nat ->
  exists r s', zj_ArrayDel fuel v i s = Ok (r, s') /\
  if i <? lenN l then r = true /\ exists F' c, edits none none none s F a (JArr (remove_nth (N.to_nat i) l)) s' F' /\
      kid_at F a (N.to_nat i) c /\ root F' c /\ (forall j, reads F c j -> reads F' c j) /\
      (forall x, x <> a \/ i = 0 -> F x <> None -> tidy F x -> tidy F' x)
  else r = false /\ s' = s.
Proof. exact @arrayDel_exact. Qed.
Print Assumptions C25_arrayDel_partial.
Theorem C25_objDel_partial : forall (VV : vols) s F v a A l key k fuel,
  inv s F -> on s F v a A -> reads F a (JObj l) -> keys_ok l -> cstring s key k -> room s A 16 -> (length l <= fuel)%nat ->
  forall l1 x l2,
  l = l1 ++ (k, x) :: l2 -> (forall y, ~ In (k, y) l1) -> prev_ok F a (length l1) ->
  exists s' F' c, zj_ObjDel fuel v key s = Ok (true, s') /\ edits none none none s F a (JObj (l1 ++ l2)) s' F' /\
    kid_at F a (length l1) c /\ root F' c /\ reads F' c x /\
    (forall y, y <> a \/ l1 = [] -> F y <> None -> tidy F y -> tidy F' y).
Proof. exact @objDel_exact. Qed.
Print Assumptions C25_objDel_partial.
Theorem C25_objDel_absent : forall (VV : vols) s F v a A l key k fuel,
  inv s F -> on s F v a A -> reads F a (JObj l) -> keys_ok l -> cstring s key k -> room s A 16 -> (length l <= fuel)%nat ->
  ((forall y, ~ In (k, y) l) -> zj_ObjDel fuel v key s = Ok (false, s)).
Proof. exact @objDel_absent. Qed.
Print Assumptions C25_objDel_absent.
Theorem C25_del_other : forall (VV : vols) s F v w A fuel key i,
  inv s F -> handle s F v w A ->
  (not_of F TArray w -> zj_ArrayDel fuel v i s = Ok (false, s)) /\ (not_of F TObject w -> zj_ObjDel fuel v key s = Ok (false, s)).
Proof. exact @del_not. Qed.
Print Assumptions C25_del_other.
Example C25_case : exists s F v a A i, inv s F /\ on s F v a A /\ reads F a (JArr list3) /\ i < two32 /\ room s A 16 /\ prev_ok F a (N.to_nat i).
Proof.
  destruct tree_case as (s & F & A & v & a & u & b & p & h & c & I & Hv & Ra & Hu & Rb & Nuv & Nab & Pa & Pb & Ka & Kb & Ty & Tx & Sf & Rm & Hh & Kc & Rc & Kn).
  exists s, F, v, a, A, 2. split; auto. split; auto. split; auto. split; [reflexivity|]. split; [eapply small_room; eauto|].
  apply tidy_prev, Ty. destruct Pa as (f & E & _). congruence.
Qed.
Example C25_obj_case : exists s F v a A key l1 x l2, inv s F /\ on s F v a A /\ reads F a (JObj obj3) /\ keys_ok obj3 /\
  cstring s key (txt "a") /\ room s A 16 /\ obj3 = l1 ++ (txt "a", x) :: l2 /\ (forall y, ~ In (txt "a", y) l1) /\ prev_ok F a (length l1).
Proof.
  destruct tree_case as (s & F & A & v & a & u & b & p & h & c & I & Hv & Ra & Hu & Rb & Nuv & Nab & Pa & Pb & Ka & Kb & Ty & Tx & Sf & Rm & Hh & Kc & Rc & Kn).
  exists s, F, u, b, A, p, [], (JNum (txt "1")), [(txt "b", JNull); (txt "a", JArr [])]. split; auto. split; auto. split; auto. split.
  { apply json_ok_keys. eapply json_text_ok. apply otext3_valid. }
  split. { split; [apply has0_no; reflexivity|]. exists []. exact Tx. }
  split; [eapply small_room; eauto|]. split; [reflexivity|]. split; [intros y []|].
  apply tidy_prev, Ty. destruct Pb as (f & E & _). congruence.
Qed.
Example C25_run : run (x <- start otext3 ;; let '(A, v) := x in k <- lit (txt "a") ;; r1 <- zj_ObjDel 100 v k ;; r2 <- zj_ObjDel 100 v k ;; r3 <- zj_ObjDel 100 v k ;;
    t <- show v ;; ret (r1, r2, r3, t)) = Ok (true, true, false, txt "{""b"":null}").
Proof. vm_compute. reflexivity. Qed.
