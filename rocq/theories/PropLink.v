(** Properties C20-C25: exactly when the calls that change trees are right.

    The theorems in PropTree.v say what these calls do where certain links of the nodes
    are in order, and refute the properties elsewhere.  Here those conditions are shown to
    be necessary: where they fail, the call does not do what it should, in every
    state, whatever else it does.  "Right" means: the call returns true and afterwards the
    memory represents documents ([inv]) in which the value has the content it should have.
    [prev_ok F p i]: in memory, child number [i] of [p] knows its predecessor.
    [last_link s F a]: in memory, container [a], unless it is empty, knows its last child.

    The last theorems for C20 and C25 show that the library itself breaks those links:
    after each removal of a child that is not the first one, removing its next sibling
    goes wrong, and if it was the last child, so does every call that appends. *)
From Verif Require Import Base Spec Lex LexProofs Alloc AllocProofs Mem MemProofs Api PureParse SpecProofs Dom Effect ParseTop
  StringifyProofs CopyProofs Vocab ParseFacts PrintFacts ReadFacts SetFacts TreeFacts LinkExact Start Scene TreeScene PropTree.

(** ** C20 Move *)
Theorem C20_exactly : forall (VV : vols) s F v a A p i jp,
  inv s F -> on s F v a A -> kid_at F p i a -> reads F p jp ->
  ((exists s' F', zj_Move v s = Ok (true, s') /\ inv s' F' /\ reads F' p (jdel i jp)) <-> prev_ok F p i).
Proof. exact @move_iff. Qed.
Print Assumptions C20_exactly.
Theorem C20_then_next : forall (VV : vols) s F v a A p i jp u c B,
  inv s F -> on s F v a A -> kid_at F p (S i) a -> reads F p jp -> prev_ok F p (S i) ->
  on s F u c B -> kid_at F p (S (S i)) c ->
  exists s' F', zj_Move v s = Ok (true, s') /\ edits none none none s F p (jdel (S i) jp) s' F' /\
    ~ exists s2 F2, zj_Move u s' = Ok (true, s2) /\ inv s2 F2 /\ reads F2 p (jdel (S i) (jdel (S i) jp)).
Proof. exact @move_then_next. Qed.
Print Assumptions C20_then_next.

(** ** C21 ArrayAdd, ObjAdd *)
Theorem C21_arrayAdd_exactly : forall (VV : vols) s F v a A vv b B l j k,
  inv s F -> on s F v a A -> on s F vv b B -> reads F a (JArr l) -> lenN l + 1 < two32 -> reads F b j -> key_at F b k ->
  room s B (88 + icost (k, j)) -> forall fuel, (S (jsteps j) <= fuel)%nat ->
  ((exists s' F', zj_ArrayAdd fuel v vv s = Ok (true, s') /\ inv s' F' /\ reads F' a (JArr (l ++ [j]))) <-> last_link s F a).
Proof. exact @arrayAdd_iff. Qed.
Print Assumptions C21_arrayAdd_exactly.
Theorem C21_objAdd_exactly : forall (VV : vols) s F v a A vv b B l j k,
  inv s F -> on s F v a A -> on s F vv b B -> reads F a (JObj l) -> lenN l + 1 < two32 -> reads F b j -> key_at F b (Some k) ->
  room s B (88 + icost (Some k, j)) -> forall fuel, (S (jsteps j) <= fuel)%nat ->
  ((exists s' F', zj_ObjAdd fuel v vv s = Ok (true, s') /\ inv s' F' /\ reads F' a (JObj (l ++ [(k, j)]))) <-> last_link s F a).
Proof. exact @objAdd_iff. Qed.
Print Assumptions C21_objAdd_exactly.

(** ** C22 ArrayAddFast, ObjAddFast

    Given that the value can be taken out of where it is (C20): the call is right if and
    only if the container is not the value or a part of it, and the value is the only
    child of the container, or the container knows its last child and that is not the
    value. *)
Theorem C22_arrayAddFast_exactly : forall (VV : vols) s F v a A vv c B l jc,
  inv s F -> on s F v a A -> on s F vv c B -> reads F a (JArr l) -> reads F c jc -> movable F c -> lenN l + 1 < two32 ->
  ((exists s' F1 F' l1, zj_ArrayAddFast v vv s = Ok (true, s') /\ taken_out F c jc F1 /\ reads F1 a (JArr l1) /\
      inv s' F' /\ reads F' a (JArr (l1 ++ [jc]))) <->
   ~ below F c a /\ (only_kid F a c \/ (last_link s F a /\ ~ last_kid F a c))).
Proof. exact @arrayAddFast_iff. Qed.
Print Assumptions C22_arrayAddFast_exactly.
Theorem C22_objAddFast_exactly : forall (VV : vols) s F v a A vv c B l jc k,
  inv s F -> on s F v a A -> on s F vv c B -> reads F a (JObj l) -> reads F c jc -> key_at F c (Some k) -> movable F c -> lenN l + 1 < two32 ->
  ((exists s' F1 F' l1, zj_ObjAddFast v vv s = Ok (true, s') /\ taken_out F c jc F1 /\ reads F1 a (JObj l1) /\
      inv s' F' /\ reads F' a (JObj (l1 ++ [(k, jc)]))) <->
   ~ below F c a /\ (only_kid F a c \/ (last_link s F a /\ ~ last_kid F a c))).
Proof. exact @objAddFast_iff. Qed.
Print Assumptions C22_objAddFast_exactly.

(** ** C23 Set: one can append to an assigned container if and only if it is empty *)
Theorem C23_then_arrayAdd_exactly : forall (VV : vols) s F v a A vv b B l k,
  inv s F -> on s F v a A -> on s F vv b B -> reads F b (JArr l) -> end_ok F b -> key_at F b k ->
  room s B (88 + icost (k, JArr l)) -> lenN l + 1 < two32 -> forall fuel, (S (jsteps (JArr l)) <= fuel)%nat ->
  exists s' F', zj_Set fuel v vv s = Ok (true, s') /\ edits none none none s F a (JArr l) s' F' /\
    (forall u c C jc kc fuel', on s' F' u c C -> reads F' c jc -> key_at F' c kc -> room s' C (88 + icost (kc, jc)) -> (S (jsteps jc) <= fuel')%nat ->
     ((exists s2 F2, zj_ArrayAdd fuel' v u s' = Ok (true, s2) /\ inv s2 F2 /\ reads F2 a (JArr (l ++ [jc]))) <-> l = [])).
Proof. exact @set_append_array. Qed.
Print Assumptions C23_then_arrayAdd_exactly.
Theorem C23_then_objAdd_exactly : forall (VV : vols) s F v a A vv b B l k,
  inv s F -> on s F v a A -> on s F vv b B -> reads F b (JObj l) -> end_ok F b -> key_at F b k ->
  room s B (88 + icost (k, JObj l)) -> lenN l + 1 < two32 -> forall fuel, (S (jsteps (JObj l)) <= fuel)%nat ->
  exists s' F', zj_Set fuel v vv s = Ok (true, s') /\ edits none none none s F a (JObj l) s' F' /\
    (forall u c C jc kc fuel', on s' F' u c C -> reads F' c jc -> key_at F' c (Some kc) -> room s' C (88 + icost (Some kc, jc)) -> (S (jsteps jc) <= fuel')%nat ->
     ((exists s2 F2, zj_ObjAdd fuel' v u s' = Ok (true, s2) /\ inv s2 F2 /\ reads F2 a (JObj (l ++ [(kc, jc)]))) <-> l = [])).
Proof. exact @set_append_object. Qed.
Print Assumptions C23_then_objAdd_exactly.

(** ** C24 SetFast: right if and only if the target is not a part of the value *)
Theorem C24_exactly : forall (VV : vols) s F v a A vv b B j,
  inv s F -> on s F v a A -> on s F vv b B -> reads F b j -> movable F b -> a <> b -> forall fuel, (length (items j) <= fuel)%nat ->
  ((exists s' F', zj_SetFast fuel v vv s = Ok (true, s') /\ inv s' F' /\ reads F' a j) <-> ~ below F b a).
Proof. exact @setFast_iff. Qed.
Print Assumptions C24_exactly.

(** ** C25 ArrayDel, ObjDel *)
Theorem C25_arrayDel_exactly : forall (VV : vols) s F v a A l i,
  inv s F -> on s F v a A -> reads F a (JArr l) -> i < lenN l -> i < two32 -> room s A 16 -> forall fuel, (length l <= fuel)%nat ->
  ((exists s' F', zj_ArrayDel fuel v i s = Ok (true, s') /\ inv s' F' /\ reads F' a (JArr (remove_nth (N.to_nat i) l))) <->
   prev_ok F a (N.to_nat i)).
Proof. exact @arrayDel_iff. Qed.
Print Assumptions C25_arrayDel_exactly.
Theorem C25_objDel_exactly : forall (VV : vols) s F v a A l key k l1 x l2,
  inv s F -> on s F v a A -> reads F a (JObj l) -> keys_ok l -> cstring s key k -> room s A 16 ->
  l = l1 ++ (k, x) :: l2 -> (forall y, ~ In (k, y) l1) -> forall fuel, (length l <= fuel)%nat ->
  ((exists s' F', zj_ObjDel fuel v key s = Ok (true, s') /\ inv s' F' /\ reads F' a (JObj (l1 ++ l2))) <-> prev_ok F a (length l1)).
Proof. exact @objDel_iff. Qed.
Print Assumptions C25_objDel_exactly.
Theorem C25_arrayDel_twice : forall (VV : vols) s F v a A l i,
  inv s F -> on s F v a A -> reads F a (JArr l) -> 1 <= i -> i + 1 < lenN l -> i < two32 -> room s A 32 ->
  prev_ok F a (N.to_nat i) -> forall fuel, (length l <= fuel)%nat ->
  exists s' F', zj_ArrayDel fuel v i s = Ok (true, s') /\ edits none none none s F a (JArr (remove_nth (N.to_nat i) l)) s' F' /\
    ~ exists s2 F2, zj_ArrayDel fuel v i s' = Ok (true, s2) /\ inv s2 F2 /\ reads F2 a (JArr (remove_nth (N.to_nat i) (remove_nth (N.to_nat i) l))).
Proof. exact @arrayDel_twice. Qed.
Print Assumptions C25_arrayDel_twice.
Theorem C25_arrayDel_then_add : forall (VV : vols) s F v a A l i,
  inv s F -> on s F v a A -> reads F a (JArr l) -> 1 <= i -> i + 1 = lenN l -> room s A 16 ->
  prev_ok F a (N.to_nat i) -> forall fuel, (length l <= fuel)%nat ->
  exists s' F', zj_ArrayDel fuel v i s = Ok (true, s') /\ edits none none none s F a (JArr (remove_nth (N.to_nat i) l)) s' F' /\
    forall u c C jc kc fuel', on s' F' u c C -> reads F' c jc -> key_at F' c kc -> room s' C (88 + icost (kc, jc)) -> (S (jsteps jc) <= fuel')%nat ->
    ~ exists s2 F2, zj_ArrayAdd fuel' v u s' = Ok (true, s2) /\ inv s2 F2 /\ reads F2 a (JArr (remove_nth (N.to_nat i) l ++ [jc])).
Proof. exact @arrayDel_then_add. Qed.
Print Assumptions C25_arrayDel_then_add.

(** ** Cases.  The examples C20_case, C21_case, C22_case, C23_case, C24_case, C25_case and
    C25_obj_case of PropTree.v meet the hypotheses of the theorems above with the right
    hand sides true.  Here is one where they are false, from the array [1,[2,"x"],3]: *)
Example broken_case : exists s F v a A, inv s F /\ on s F v a A /\ reads F a (JArr [JNum (txt "1"); JNum (txt "3")]) /\ room s A 16 /\
  ~ prev_ok F a 1 /\ ~ exists s' F', zj_ArrayDel 2 v 1 s = Ok (true, s') /\ inv s' F' /\ reads F' a (JArr [JNum (txt "1")]).
Proof.
  destruct tree_case as (s & F & A & v & a & u & b & p & h & c & I & Hv & Ra & Hu & Rb & Nuv & Nab & Pa & Pb & Ka & Kb & Ty & Tx & Sf & Rm & Hh & Kc & Rc & Kn).
  assert (P : prev_ok F a 1) by (apply tidy_prev, Ty; destruct Pa as (f & E & _); congruence).
  destruct (del_links s F v a A list3 1 I Hv Ra ltac:(reflexivity) ltac:(reflexivity) ltac:(eapply small_room; eauto) P 3 ltac:(auto)) as (s' & F' & H & Ed & Us & K).
  destruct K as [K _]; [discriminate|]. specialize (K ltac:(reflexivity)).
  pose proof (ed_inv _ _ _ _ _ _ _ _ _ Ed) as I'. pose proof (rw_at _ _ _ _ _ _ (ed_draw _ _ _ _ _ _ _ _ _ Ed)) as R'.
  assert (Hv' : on s' F' v a A) by (apply (ed_handles _ _ _ _ _ _ _ _ _ Ed); auto).
  assert (Rm' : room s' A 16).
  { assert (R32 : room s A 32) by (eapply small_room; eauto). specialize (Us A). unfold at_ in Us. rewrite N.eqb_refl in Us. unfold room in *. lia. }
  exists s', F', v, a, A. split; auto. split; auto. split; auto. split; auto. split; auto.
  intro X. apply K. apply (arrayDel_iff s' F' v a A _ 1 I' Hv' R' ltac:(reflexivity) ltac:(reflexivity) Rm' 2 ltac:(auto)). exact X.
Qed.
