(** The contract of the calls: what a caller has to see to so that the reference semantics
    promises something.  Everything else the reference tests (that documents are trees,
    that containers and their children refer to each other, that keys and strings can be
    decoded) holds in every program anyway. *)
From Verif Require Import Base Spec SpecProofs LexProofs PureParse Dom ParseFacts ParseTop Vocab PrintFacts Scene Mem MemProofs AllocProofs StringifyProofs CopyProofs
  EscProofs CacheProofs IntProofs Api Lex Double ReadFacts GetProofs Update Hist HistRun HistForest HistSim HistStep HistAll HistMany HistWorld HistValid HistTree HistDocs.
From Verif Require DoubleFacts.
From Coq Require Import ZifyN.

(** Value object [h] exists, and its node was not taken away by zj_SetFast. *)
Definition at_value (R : rst) (h : nat) (P : option (N * tnode) -> nat -> Prop) : Prop := exists w A, look R h = Some (w, A) /\ P w A.
Definition roomy (R : rst) (A : nat) (n : N) : Prop := exists u, nth_error (ru R) A = Some u /\ u + n <= two30.
Definition roomy_all (R : rst) (n : N) : Prop := Forall (fun u => u + n <= two30) (ru R).
(** [j] is the content of node [i]. *)
Definition content (R : rst) (i : N) (j : json) : Prop := exists k, read k (rG R) i = Some j.
(** [i] is a root, or a child of its container whose links zj_Move did not damage. *)
Definition movable (R : rst) (i : N) : Prop := forall t p, rG R i = Some t -> tpar t = Some p ->
  tprev t = true /\ exists tp, rG R p = Some tp /\ In i (nkids (tvalue tp)).
(** Something can be put behind the children of [a]. *)
Definition extensible (t : tnode) : Prop := (nkids (tvalue t) = [] \/ tend t = true) /\ lenN (nkids (tvalue t)) + 1 < two32.
(** The same when [c], if it is among them, is taken out first. *)
Definition extensible_without (t : tnode) (c : N) : Prop :=
  (~ In c (nkids (tvalue t)) -> extensible t) /\
  (forall l r, nkids (tvalue t) = l ++ c :: r -> lenN (l ++ r) + 1 < two32 /\ (r = [] -> l = []) /\ (r <> [] -> tend t = true)).
(** [a] is not [c] and not below [c]. *)
Definition outside (R : rst) (c a : N) : Prop := a <> c /\ ~ sb (rG R) c a.
Definition c_text (t : bytes) : Prop := ~ In 0 t /\ lenN t + 1 < two32.

Definition contract (c : call) (R : rst) : Prop :=
  match c with
  | CNewAllocator => True
  | CNewValue A => roomy R A 16
  | CParse k h t pad => at_value R h (fun _ A =>
      (k = PLen \/ ~ In 0 t) /\ lenN (t ++ 0 :: pad) < two32 /\
      ~ cut_literal (match k with PLen => before0 t | _ => t end)
                    (match k with PCopy => 0 | PFast => length pad | PLen => length t - length (before0 t) end)%nat /\
      roomy R A (match k with PFast => 72 * (lenN t + 2) | _ => len_cost (lenN t) end))
  | CSetNull h | CSetBool h _ | CSetCont _ h => at_value R h (fun _ A => roomy R A 72)
  | CSetText _ k h t => at_value R h (fun _ A =>
      match k with
      | KCopy => c_text t /\ roomy R A (lenN t + 72)
      | KFast => c_text t /\ roomy R A 72
      | _ => lenN t < two32 /\ roomy_all R (check_cost (lenN t) + lenN t + 72)
      end)
  | CSetInt h z => at_value R h (fun _ A => (int_min <= z <= int_max)%Z /\ roomy R A 88)
  | CSetLong h z | CSetLongLong h z => at_value R h (fun _ A => (long_min <= z <= long_max)%Z /\ roomy R A 96)
  | CSetDouble h d => at_value R h (fun _ A => doubleb d = true /\ roomy R A 104)
  | CSetEscape len h t => at_value R h (fun _ A => (len = true \/ ~ In 0 t) /\ lenN t + 1 < two32 /\ roomy R A (esc_cost t + 72))
  | CSetKey k h t => at_value R h (fun _ A =>
      match k with
      | KCopy => c_text t /\ roomy R A (72 + lenN t)
      | KFast => c_text t /\ roomy R A 72
      | _ => lenN t < two32 /\ roomy_all R (check_cost (lenN t) + (72 + lenN t))
      end) /\ at_value R h (fun w _ => forall i t p, w = Some (i, t) -> tpar t = Some p -> rG R p <> None)
  | CSetKeyEscape len h t =>
      at_value R h (fun _ A => (len = true \/ ~ In 0 t) /\ lenN t + 1 < two32 /\ roomy R A (esc_cost t + 72)) /\
      at_value R h (fun w _ => forall i t p, w = Some (i, t) -> tpar t = Some p -> rG R p <> None)
  | CGetType h | CSize h | CIsNull h | CGetBool h => at_value R h (fun _ _ => True)
  | CGetText num fast h => at_value R h (fun w A => fast = true \/
      roomy R A ((match w with Some (_, t) => match ntext num (tvalue t) with Some b => lenN b | None => 0 end | None => 0 end) + 1))
  | CGetUnEscape h => at_value R h (fun w A => forall i t b, w = Some (i, t) -> tvalue t = NStr b -> roomy R A (lenN b + 1))
  | CGetInt h => at_value R h (fun w A => forall i t b, w = Some (i, t) -> tvalue t = NNum b ->
      (exists z, int_value b z /\ (int_min <= z <= int_max)%Z) /\ lenN b < 128 /\ roomy R A 4)
  | CGetLong h | CGetLongLong h => at_value R h (fun w A => forall i t b, w = Some (i, t) -> tvalue t = NNum b ->
      tstop t = true /\ (exists z, int_value b z /\ (long_min <= z <= long_max)%Z) /\ lenN b <= 128 /\ roomy R A 8)
  | CGetDouble h => at_value R h (fun w A => forall i t b, w = Some (i, t) -> tvalue t = NNum b ->
      tstop t = true /\ lenN b <= 128 /\ roomy R A 8)
  | CGetKey fast h => at_value R h (fun w A => fast = true \/
      roomy R A ((match w with Some (_, t) => match tkey t with Some b => lenN b | None => 0 end | None => 0 end) + 1))
  | CGetUnEscapeKey h => at_value R h (fun w A => forall i t b, w = Some (i, t) -> tkey t = Some b -> roomy R A (lenN b + 1))
  | CStringify h => at_value R h (fun w A => forall i t j, w = Some (i, t) -> content R i j -> roomy R A (print_cost (lenN (print j))))
  | CObjGet len h k => at_value R h (fun _ A => (len = true \/ ~ In 0 k) /\ lenN k + 1 < two32 /\ roomy R A 16)
  | CArrayGet h i => at_value R h (fun _ A => i < two32 /\ roomy R A 16)
  | CBegin h => at_value R h (fun _ A => roomy R A 16)
  | CNext h => at_value R h (fun w A => roomy R A 16 /\
      forall i t p, w = Some (i, t) -> tpar t = Some p -> exists tp, rG R p = Some tp /\ In i (nkids (tvalue tp)))
  | CCopy h => at_value R h (fun w A => roomy R A 16 /\ forall i t j, w = Some (i, t) -> content R i j -> roomy R A (88 + icost (tkey t, j)))
  | CMove h => at_value R h (fun w _ => forall i t, w = Some (i, t) -> movable R i)
  | CAdd ob fast h hv => at_value R h (fun w _ => at_value R hv (fun wv B => roomy R B 16 /\
      forall a ta c tc, w = Some (a, ta) -> wv = Some (c, tc) -> is_cont ob (tvalue ta) <> None ->
        if fast then movable R c /\ outside R c a /\ extensible_without ta c
        else extensible ta /\ forall j, content R c j -> roomy R B (88 + icost (tkey tc, j))))
  | CSet fast h hv => at_value R h (fun w _ => at_value R hv (fun wv B => roomy R B 16 /\
      forall b tb, wv = Some (b, tb) ->
        if fast then movable R b /\ forall a ta, w = Some (a, ta) -> outside R b a
        else forall j, content R b j -> roomy R B (88 + icost (tkey tb, j))))
  | CArrayDel h i => at_value R h (fun w A => i < two32 /\ roomy R A 16 /\
      forall a ta c, w = Some (a, ta) -> tvalue ta = NCont false (nkids (tvalue ta)) -> nth_error (nkids (tvalue ta)) (N.to_nat i) = Some c -> movable R c)
  | CObjDel h k => at_value R h (fun w A => c_text k /\ roomy R A 16 /\
      forall a ta c, w = Some (a, ta) -> tvalue ta = NCont true (nkids (tvalue ta)) -> child_by R k (nkids (tvalue ta)) = Some c -> movable R c)
  end.

(** ** What the reference tests beyond the contract *)
Lemma split_at_some i l : In i l -> exists a b, split_at i l = Some (a, b).
Proof.
  induction l as [|x l IH]; [easy|]. intros H. cbn [split_at]. destruct (N.eqb_spec x i) as [->|N]; [eauto|].
  destruct H as [H|H]; [contradiction|]. destruct (IH H) as (a & b & ->). eauto.
Qed.
Lemma no_self R p tp : docs_ok R -> rG R p = Some tp -> ~ In p (nkids (tvalue tp)).
Proof.
  intros D E H. apply (tr_acyclic (rG R) p); [apply (d_trees _ D); congruence|]. eapply sb_kid; [apply nv_some; eauto|auto].
Qed.
Lemma unhook_some R i : docs_ok R -> rG R i <> None -> movable R i -> exists G, unhook (rG R) i = Some G.
Proof.
  intros D H M. unfold unhook. destruct (rG R i) as [t|] eqn:E; [|now elim H]. destruct (tpar t) as [p|] eqn:Ep; [|eauto].
  destruct (M t p E Ep) as (T & tp & Gp & Hin). rewrite Gp. pose proof (no_self R p tp D Gp) as Np.
  destruct (tvalue tp) as [| | | |ob kids]; try easy. cbn [nkids] in *. destruct (split_at_some _ _ Hin) as (l & r & Es). rewrite Es, T.
  apply isinN_false in Np. rewrite Np. cbn. eauto.
Qed.
Lemma spend_roomy R A n : roomy R A n -> exists R1, spend R A n = Some R1 /\ rG R1 = rG R /\ rn R1 = rn R /\ rh R1 = rh R.
Proof. intros (u & Hu & L). destruct (spend_ok R A u n Hu L) as (R1 & E & K1 & K2 & K3 & _). eauto. Qed.
Lemma scratch_roomy R n : roomy_all R n -> exists R1, scratch R n = Some R1 /\ rG R1 = rG R.
Proof.
  intro H. unfold scratch. replace (forallb _ (ru R)) with true; [eauto|]. symmetry. apply forallb_forall. intros u Hu. apply N.leb_le.
  unfold roomy_all in H. rewrite Forall_forall in H. auto.
Qed.
Lemma roomy_less R A n m : roomy R A n -> m <= n -> roomy R A m.
Proof. intros (u & H & L) K. exists u. split; auto. lia. Qed.
Lemma ok_c_yes t : ~ In 0 t -> ok_c t = true.
Proof. intro H. unfold ok_c. destruct (has0 t) eqn:E; auto. elim H. now apply has0_in. Qed.
Lemma fits1 t x : lenN t + 1 < two32 -> fits (t ++ [x]) = true.
Proof. intro H. apply N.ltb_lt. now rewrite lenN_app1. Qed.
Lemma len_or (len : bool) t : len = true \/ ~ In 0 t -> len || ok_c t = true.
Proof. intros [->|H]; auto. rewrite (ok_c_yes t H). now destruct len. Qed.
Lemma read_content R i : docs_ok R -> rG R i <> None -> exists j, reads_as R i = Some j /\ content R i j.
Proof. intros D H. destruct (docs_read R i D H) as (j' & E & _). exists j'. split; auto. eexists. exact E. Qed.
Lemma keys_fine R a ta : docs_ok R -> rG R a = Some ta -> keys_ok R (nkids (tvalue ta)) = true.
Proof.
  intros D E. apply forallb_forall. intros c Hc. destruct (sh_kids _ _ (d_shape _ D) a ta c E Hc) as (tc & Ec & _). rewrite Ec.
  pose proof (d_good _ D c tc Ec) as [K _]. destruct (tkey tc) as [b|]; auto. cbn in K. apply strbody_no0 in K.
  destruct (has0 b) eqn:E0; auto. elim K. now apply has0_in.
Qed.
Lemma is_cont_kids ob v kids : is_cont ob v = Some kids -> v = NCont ob kids /\ nkids v = kids.
Proof. unfold is_cont. destruct v as [| | | |ob' k]; try discriminate. destruct (Bool.eqb ob' ob) eqn:E; [|discriminate]. intros [= <-]. apply Bool.eqb_prop in E. now subst. Qed.

Lemma hang_some G ob a c ta tc kids : G a = Some ta -> G c = Some tc -> tvalue ta = NCont ob kids -> tpar tc = None -> a <> c -> ~ In a kids -> extensible ta ->
  exists G', hang G ob a c = Some G'.
Proof.
  intros Ea Ec Ev Ep Nac Na [X1 X2]. rewrite Ev in X1, X2. cbn [nkids] in X1, X2. unfold hang. rewrite Ea, Ec, Ev, Ep, Bool.eqb_reflx. cbn [is_some negb andb].
  rewrite (proj2 (N.eqb_neq a c) Nac), (proj2 (isinN_false a kids) Na). cbn [negb andb].
  assert (B : nilb kids || tend ta = true) by (destruct X1 as [->| ->]; auto; now destruct (nilb kids)). rewrite B.
  apply N.ltb_lt in X2. rewrite X2. cbn [andb]. eauto.
Qed.
Lemma hand_some G a b kn ta tb : G a = Some ta -> G b = Some tb -> tpar tb = None -> a <> b -> ~ In a (nkids (tvalue tb)) -> exists G', hand G a b kn = Some G'.
Proof.
  intros Ea Eb Ep Nab Na. unfold hand. rewrite Ea, Eb, Ep. cbn [is_some negb andb]. rewrite (proj2 (N.eqb_neq a b) Nab), (proj2 (isinN_false _ _) Na). cbn. eauto.
Qed.
(** Node by node, after [i] was taken out. *)
Lemma unhook_at G i G' x t : unhook G i = Some G' -> G x = Some t -> exists t', G' x = Some t' /\ tkey t' = tkey t /\ (x = i -> tpar t' = None) /\
  ((tvalue t' = tvalue t /\ tend t' = tend t) \/
   exists ob l r, tvalue t = NCont ob (l ++ i :: r) /\ tvalue t' = NCont ob (l ++ r) /\ tend t' = match r with [] => nilb l | _ => tend t end).
Proof.
  intros E Ex. unfold unhook in E. destruct (G i) as [ti|] eqn:Ei; [|discriminate]. destruct (tpar ti) as [p|] eqn:Epar.
  2:{ injection E as <-. exists t. split; auto. split; auto. split; auto. intros ->. congruence. }
  destruct (G p) as [tp|] eqn:Ep; [|discriminate]. destruct (tvalue tp) as [| | | |ob kids] eqn:Ev; try discriminate.
  destruct (split_at i kids) as [[l r]|] eqn:Es; [|discriminate]. apply split_at_ok in Es. destruct (tprev ti && _) eqn:Ec; [|discriminate]. injection E as <-.
  destruct (N.eqb_spec x i) as [->|Ni].
  { eexists. split; [reflexivity|]. cbn. assert (t = ti) by congruence. subst t. auto. }
  destruct (N.eqb_spec x p) as [->|Np].
  { eexists. split; [reflexivity|]. cbn. assert (t = tp) by congruence. subst t. split; auto. split; [contradiction|]. right. exists ob, l, r. subst kids. auto. }
  destruct (match r with [] => false | y :: _ => x =? y end); [rewrite Ex; cbn; eexists; split; [reflexivity|]; cbn; split; auto; split; [contradiction|]; auto|].
  exists t. split; auto. split; auto. split; [contradiction|]. auto.
Qed.
Lemma sb_less G G' : (forall x v', nv G' x = Some v' -> exists v, nv G x = Some v /\ incl (nkids v') (nkids v)) -> forall a c, sb G' c a -> sb G c a.
Proof.
  intros H a c K. induction K as [v' y E Hy|d v' y _ IH E Hy].
  - destruct (H _ _ E) as (v & Ev & I). eapply sb_kid; eauto.
  - destruct (H _ _ E) as (v & Ev & I). eapply sb_more; eauto.
Qed.
Lemma unhook_less G i G' : unhook G i = Some G' -> forall x v', nv G' x = Some v' -> exists v, nv G x = Some v /\ incl (nkids v') (nkids v).
Proof.
  intros E x v' Hx. assert (Hd : G x <> None) by (apply (unhook_dom _ _ _ x E), dom_nv; eauto). destruct (G x) as [t|] eqn:Ex; [|now elim Hd].
  exists (tvalue t). split; [now apply nv_some|]. destruct (unhook_at _ _ _ _ _ E Ex) as (t' & Et' & _ & _ & K). rewrite (nv_some _ _ _ Et') in Hx. injection Hx as <-.
  destruct K as [[-> _]|(ob & l & r & -> & -> & _)]; [apply incl_refl|]. cbn. intros y Hy. apply in_app_iff in Hy. apply in_app_iff. cbn. tauto.
Qed.
(** A tree that does not reach [a] stays a tree when [a] changes. *)
Lemma tr_away G G' a : (forall x, x <> a -> nv G' x = nv G x) -> forall c, tr G c -> c <> a -> ~ sb G c a -> tr G' c.
Proof.
  intros H c T. induction T as [c v E _ IH]. intros Nc Ns. apply (tr_in G' c v); [now rewrite H|]. intros d Hd. apply IH; auto.
  - intros ->. apply Ns. eapply sb_kid; eauto.
  - intro K. apply Ns. eapply sb_front; eauto.
Qed.
Lemma checked_some R G a : (forall i, G i <> None -> i < rn R) -> tr G a -> exists R1, checked R G a = Some R1.
Proof. intros B T. unfold checked. destruct (tr_read G (rn R) a B T) as (j & ->). eauto. Qed.

Section Cover.
Variable jd : judge.
Hypothesis J : correct jd.
Ltac pay K := let R1 := fresh "R1" in let E := fresh "E" in
  first [destruct (spend_roomy _ _ _ K) as (R1 & E & ? & ? & ?)|destruct (scratch_roomy _ _ K) as (R1 & E & ?)]; rewrite E.
Lemma give_some R A o : roomy R A 16 -> exists y, give R A o = Some y.
Proof. intro K. unfold give. pay K. destruct o; eauto. Qed.
Lemma copy_some R A n o : roomy R A n -> exists y, copy_text R A n o = Some y.
Proof. intro K. unfold copy_text. pay K. eauto. Qed.
Lemma set_some R h w ok j : exists y, set_if R h w ok j = Some y.
Proof. unfold set_if. destruct ok; eauto. Qed.
Lemma seal_some R h w ok j : exists y, seal_if R h w ok j = Some y.
Proof. unfold seal_if. destruct ok; eauto. Qed.
Lemma key_some R h w ok k : (forall i t p, w = Some (i, t) -> tpar t = Some p -> rG R p <> None) -> exists y, key_if R h w ok k = Some y.
Proof.
  intro H. unfold key_if, key_allowed. destruct w as [[i t]|]; [|destruct (ok && true); eauto]. destruct (tpar t) as [p|] eqn:E; [|destruct (ok && true); eauto].
  destruct (rG R p) as [tp|] eqn:Ep; [|now elim (H i t p eq_refl E)]. destruct (ok && _); eauto.
Qed.
Lemma outside_less R G1 c a : outside R c a -> unhook (rG R) c = Some G1 -> ~ sb G1 c a.
Proof. intros [_ O] E K. apply O. eapply sb_less; [|exact K]. apply (unhook_less _ _ _ E). Qed.

Theorem covered c R : docs_ok R -> contract c R -> exists x R', rstep jd c R = Some (x, R').
Proof.
  intros D C. enough (exists y, rstep jd c R = Some y) as ([x R'] & K) by eauto.
  destruct c; cbn [contract] in C; cbn [rstep];
    try (match type of C with at_value R ?hh _ => destruct C as (w & A & Lk & C); rewrite Lk
                            | at_value R ?hh _ /\ at_value R ?hh _ => destruct C as [(w & A & Lk & C) (w' & A' & Lk' & Cp)];
                                rewrite Lk in Lk'; injection Lk' as <- <-; rewrite Lk end;
         assert (Gw : forall i t, w = Some (i, t) -> rG R i = Some t) by (intros i0 t0 ->; exact (proj1 (look_lt _ _ _ _ _ (d_shape _ D) Lk)))).
  - eauto.
  - pay C. eauto.
  - destruct C as (C1 & C2 & C3 & C4). set (t0 := match k with PLen => before0 t | _ => t end) in *. apply N.ltb_lt in C2. fold (fits (t ++ 0 :: pad)) in C2.
    rewrite C2. assert (B1 : match k with PLen => true | _ => ok_c t end = true) by (destruct k; auto; apply ok_c_yes; destruct C1; [discriminate|auto|discriminate|auto]).
    rewrite B1. cbn [andb].
    assert (N0 : ~ In 0 t0) by (subst t0; destruct k; try apply before0_no0; destruct C1; auto; discriminate).
    assert (B2 : negb (o_cut jd t0 (match k with PCopy => 0 | PFast => length pad | PLen => length t - length (before0 t) end)%nat) = true).
    { match goal with |- negb ?b = true => destruct b eqn:Bc; auto end. exfalso. apply C3. now apply (jd_cut _ J t0 _ N0). }
    rewrite B2. pay C4. destruct (o_json jd t0); eauto.
  - pay C. eauto.
  - pay C. eauto.
  - pay C. eauto.
  - destruct k; destruct C as [C1 C2].
    + destruct C1 as [C0 C1]. rewrite (ok_c_yes _ C0), (fits1 _ 0 C1). cbn [andb]. pay C2. apply set_some.
    + destruct C1 as [C0 C1]. rewrite (ok_c_yes _ C0), (fits1 _ 0 C1). cbn [andb]. pay C2. apply seal_some.
    + apply N.ltb_lt in C1. fold (fits t) in C1. rewrite C1. pay C2. apply set_some.
    + apply N.ltb_lt in C1. fold (fits t) in C1. rewrite C1. pay C2. apply set_some.
  - destruct C as [C1 C2]. replace ((int_min <=? z) && (z <=? int_max))%Z with true by (symmetry; apply andb_true_intro; split; apply Z.leb_le; lia). pay C2. eauto.
  - destruct C as [C1 C2]. replace ((long_min <=? z) && (z <=? long_max))%Z with true by (symmetry; apply andb_true_intro; split; apply Z.leb_le; lia). pay C2. eauto.
  - destruct C as [C1 C2]. replace ((long_min <=? z) && (z <=? long_max))%Z with true by (symmetry; apply andb_true_intro; split; apply Z.leb_le; lia). pay C2. eauto.
  - destruct C as [C1 C2]. rewrite C1. pay C2. eauto.
  - destruct C as (C1 & C2 & C3). rewrite (len_or _ _ C1), (fits1 _ 0 C2). cbn [andb]. pay C3. eauto.
  - destruct k; destruct C as [C1 C2].
    + destruct C1 as [C0 C1]. rewrite (ok_c_yes _ C0), (fits1 _ 0 C1). cbn [andb]. pay C2. apply key_some. intros i t' p Hi Hp. rewrite H. eauto.
    + destruct C1 as [C0 C1]. rewrite (ok_c_yes _ C0), (fits1 _ 0 C1). cbn [andb]. pay C2. apply key_some. intros i t' p Hi Hp. rewrite H. eauto.
    + apply N.ltb_lt in C1. fold (fits t) in C1. rewrite C1. pay C2. apply key_some. intros i t' p Hi Hp. rewrite H. eauto.
    + apply N.ltb_lt in C1. fold (fits t) in C1. rewrite C1. pay C2. apply key_some. intros i t' p Hi Hp. rewrite H. eauto.
  - destruct C as (C1 & C2 & C3). rewrite (len_or _ _ C1), (fits1 _ 0 C2). cbn [andb]. pay C3. apply key_some. intros i t' p Hi Hp. rewrite H. eauto.
  - eauto.
  - eauto.
  - eauto.
  - eauto.
  - destruct fast; [eauto|]. destruct C as [C|C]; [discriminate|]. apply copy_some. destruct w as [[i t]|]; auto.
  - destruct w as [[i t]|]; [|eauto]. destruct (tvalue t) as [|b|b|b|ob kids] eqn:Et; cbn [ntext]; eauto. pose proof (C i t b eq_refl Et) as Cr.
    pose proof (d_good _ D i t (Gw i t eq_refl)) as [_ K]. rewrite Et in K. destruct K as (o & K). apply (jd_dec _ J) in K. rewrite K. now apply copy_some.
  - destruct w as [[i t]|]; [|eauto]. destruct (tvalue t) as [|b|b|b|ob kids] eqn:Et; cbn [ntext]; eauto.
    destruct (C i t b eq_refl Et) as ((z & Hz & Rz) & Hl & Cr). apply (jd_int _ J) in Hz. rewrite Hz.
    replace ((int_min <=? z) && (z <=? int_max))%Z with true by (symmetry; apply andb_true_intro; split; apply Z.leb_le; lia). apply N.ltb_lt in Hl. rewrite Hl. cbn [andb]. pay Cr. eauto.
  - destruct w as [[i t]|]; [|eauto]. destruct (tvalue t) as [|b|b|b|ob kids] eqn:Et; cbn [ntext]; eauto.
    destruct (C i t b eq_refl Et) as (Hs & (z & Hz & Rz) & Hl & Cr). apply (jd_int _ J) in Hz. rewrite Hz.
    replace ((long_min <=? z) && (z <=? long_max))%Z with true by (symmetry; apply andb_true_intro; split; apply Z.leb_le; lia). apply N.leb_le in Hl. rewrite Hs, Hl. cbn [andb]. pay Cr. eauto.
  - destruct w as [[i t]|]; [|eauto]. destruct (tvalue t) as [|b|b|b|ob kids] eqn:Et; cbn [ntext]; eauto.
    destruct (C i t b eq_refl Et) as (Hs & (z & Hz & Rz) & Hl & Cr). apply (jd_int _ J) in Hz. rewrite Hz.
    replace ((long_min <=? z) && (z <=? long_max))%Z with true by (symmetry; apply andb_true_intro; split; apply Z.leb_le; lia). apply N.leb_le in Hl. rewrite Hs, Hl. cbn [andb]. pay Cr. eauto.
  - destruct w as [[i t]|]; [|eauto]. destruct (tvalue t) as [|b|b|b|ob kids] eqn:Et; cbn [ntext]; eauto.
    destruct (C i t b eq_refl Et) as (Hs & Hl & Cr). pose proof (d_good _ D i t (Gw i t eq_refl)) as [_ K]. rewrite Et in K.
    destruct (DoubleFacts.number_real b K) as (d & Hd). apply (jd_real _ J) in Hd. rewrite Hd. apply N.leb_le in Hl. rewrite Hs, Hl. cbn [andb]. pay Cr. eauto.
  - destruct fast; [eauto|]. destruct C as [C|C]; [discriminate|]. apply copy_some. destruct w as [[i t]|]; auto.
  - destruct w as [[i t]|]; [|eauto]. destruct (tkey t) as [b|] eqn:Et; [|eauto]. pose proof (C i t b eq_refl Et) as Cr.
    pose proof (d_good _ D i t (Gw i t eq_refl)) as [K _]. rewrite Et in K. destruct K as (o & K). apply (jd_dec _ J) in K. rewrite K. now apply copy_some.
  - destruct w as [[i t]|]; [|eauto]. destruct (read_content R i D) as (j & E & Hj); [now rewrite (Gw i t eq_refl)|]. rewrite E. apply copy_some. eauto.
  - destruct C as (C1 & C2 & C3). destruct w as [[i t]|]; rewrite (len_or _ _ C1), (fits1 _ 0 C2); cbn [andb]; [|eauto].
    destruct (is_cont true (tvalue t)) as [kids|] eqn:Ec; [|eauto]. apply is_cont_kids in Ec as [_ Ek]. pose proof (keys_fine R i t D (Gw i t eq_refl)) as K. rewrite Ek in K.
    rewrite K, Bool.orb_true_r. now apply give_some.
  - destruct C as (C1 & C2). destruct w as [[j t]|]; [|eauto]. apply N.ltb_lt in C1. rewrite C1. destruct (is_cont false (tvalue t)); [now apply give_some|eauto].
  - destruct w as [[j t]|]; [|eauto]. now apply give_some.
  - destruct C as (C1 & C2). destruct w as [[i t]|]; [|eauto]. destruct (tpar t) as [p|] eqn:Ep; [|now apply give_some].
    destruct (C2 i t p eq_refl Ep) as (tp & Gp & Hin). rewrite Gp. destruct (split_at_some _ _ Hin) as (l & r & ->). now apply give_some.
  - destruct C as (C1 & C2). destruct w as [[i t]|].
    + destruct (read_content R i D) as (j & E & Hj); [now rewrite (Gw i t eq_refl)|]. rewrite E. pose proof (C2 i t j eq_refl Hj) as K. pay K. eauto.
    + pay C1. eauto.
  - destruct w as [[i t]|]; [|eauto]. destruct (unhook_some R i D) as (G & ->); eauto. now rewrite (Gw i t eq_refl).
  - destruct C as (wv & B & Lv & C1 & C2). rewrite Lv. destruct w as [[a ta]|]; [|eauto]. destruct (is_cont ob (tvalue ta)) as [kids|] eqn:Ec; [|eauto].
    pose proof (Gw a ta eq_refl) as Ga. assert (La : a < rn R) by (apply (sh_lt _ _ (d_shape _ D)); congruence).
    apply is_cont_kids in Ec as [Ev Ek]. pose proof (no_self R a ta D Ga) as Nself.
    destruct wv as [[c tc]|].
    2:{ destruct (negb ob && negb fast); [pay C1|]; eauto. }
    destruct (ob && negb (is_some (tkey tc))); [eauto|]. pose proof (proj1 (look_lt _ _ _ _ _ (d_shape _ D) Lv)) as Gc.
    assert (Ic : is_cont ob (tvalue ta) <> None) by (rewrite Ev; cbn; now rewrite Bool.eqb_reflx). specialize (C2 a ta c tc eq_refl eq_refl Ic). destruct fast.
    + destruct C2 as (M & O & X). destruct (unhook_some R c D) as (G1 & Eu); [congruence|auto|]. rewrite Eu. destruct O as [Nac O].
      destruct (unhook_at _ _ _ _ _ Eu Ga) as (ta' & Ga' & _ & _ & Ka). destruct (unhook_at _ _ _ _ _ Eu Gc) as (tc' & Gc' & _ & Pc & _). specialize (Pc eq_refl).
      set (G1' := if ob then G1 else rekeyN G1 c None).
      assert (Ha : G1' a = Some ta') by (unfold G1'; destruct ob; auto; unfold rekeyN; now rewrite (proj2 (N.eqb_neq a c) Nac)).
      assert (Hc : exists tc2, G1' c = Some tc2 /\ tpar tc2 = None) by (unfold G1'; destruct ob; [eauto|]; unfold rekeyN; rewrite N.eqb_refl, Gc'; cbn; eauto).
      destruct Hc as (tc2 & Hc & Pc2).
      assert (Xa : extensible ta' /\ exists kids', tvalue ta' = NCont ob kids' /\ ~ In a kids').
      { destruct X as [X1 X2]. destruct Ka as [[Ka1 Ka2]|(ob' & l & r & K1 & K2 & K3)].
        - split; [|exists kids; rewrite Ka1, <- Ek at 1; split; [congruence|congruence]]. destruct (isinN c (nkids (tvalue ta))) eqn:Ein.
          + exfalso. apply isinN_true in Ein. apply (unhook_root (rn R) (rG R) c G1 a (tvalue ta') (d_shape _ D) Eu); [now apply nv_some|congruence].
          + apply isinN_false in Ein. destruct (X1 Ein) as [Y1 Y2]. unfold extensible. now rewrite Ka1, Ka2.
        - rewrite Ev in K1. injection K1 as <- K1. split.
          + destruct (X2 l r) as (Y1 & Y2 & Y3); [congruence|]. unfold extensible. rewrite K2, K3. cbn [nkids]. split; auto.
            destruct r; [left; now rewrite Y2|right; apply Y3; discriminate].
          + exists (l ++ r). split; auto. rewrite Ek, K1 in Nself. intro H. apply Nself. apply in_app_iff in H. apply in_app_iff. cbn. tauto. }
      destruct Xa as (Xa & kids' & Ev' & Na'). destruct (hang_some G1' ob a c ta' tc2 kids' Ha Hc Ev' Pc2 Nac Na' Xa) as (G2 & Eh). rewrite Eh.
      assert (T1 : trees G1') by (unfold G1'; destruct ob; [|apply rekey_trees]; eapply unhook_trees; eauto; apply (d_trees _ D)).
      assert (Nv : forall x, nv G1' x = nv G1 x) by (intro x; unfold G1'; destruct ob; auto; apply rekey_nv).
      assert (Tc : tr G2 c).
      { destruct (hang_nv _ _ _ _ _ Eh) as (_ & Kn & _). apply (tr_away G1' G2 a Kn); auto; [apply T1; congruence|].
        intro K. apply O. eapply sb_less; [|exact K]. intros x v' Hx. rewrite Nv in Hx. exact (unhook_less _ _ _ Eu x v' Hx). }
      assert (T2 : trees G2) by (eapply hang_trees; eauto).
      assert (B2 : forall i, G2 i <> None -> i < rn R).
      { intros i Hi. apply (hang_dom _ _ _ _ _ i Eh) in Hi. apply dom_nv in Hi. rewrite Nv in Hi. apply dom_nv in Hi. apply (unhook_dom _ _ _ i Eu) in Hi. now apply (sh_lt _ _ (d_shape _ D)). }
      destruct (checked_some R G2 a B2) as (R1 & ->); [|eauto]. apply T2. apply (hang_dom _ _ _ _ _ a Eh). congruence.
    + destruct C2 as (X & C2). destruct (read_content R c D) as (j & E & Hj); [congruence|]. rewrite E. pose proof (C2 j Hj) as K. pay K.
      destruct (duplicate_new R1 tc j) as (_ & _ & tn & kk & Dt & _).
      assert (Pn : exists tn2, rG (duplicate R1 tc j) (rn R1) = Some tn2 /\ tpar tn2 = None).
      { unfold duplicate. destruct (plant (rn R1) j (rn R1 + 1)) as [[v g] n']. cbn [rG]. unfold put. rewrite N.eqb_refl. eauto. }
      destruct Pn as (tn2 & Hn & Pn).
      assert (Ha : rG (duplicate R1 tc j) a = Some ta).
      { unfold duplicate. pose proof (plant_inside j (rn R1) (rn R1 + 1)) as P. destruct (plant (rn R1) j (rn R1 + 1)) as [[v g] n']. cbn [rG]. unfold put.
        rewrite (proj2 (N.eqb_neq a (rn R1))) by lia. unfold over. destruct P as (_ & P & _). destruct (g a) eqn:Eg; [|congruence].
        assert (Hg : g a <> None) by congruence. apply P in Hg. lia. }
      set (G1' := if ob then rG (duplicate R1 tc j) else rekeyN (rG (duplicate R1 tc j)) (rn R1) None).
      assert (Ha' : G1' a = Some ta) by (unfold G1'; destruct ob; auto; unfold rekeyN; now rewrite (proj2 (N.eqb_neq a (rn R1))) by lia).
      assert (Hc : exists tc2, G1' (rn R1) = Some tc2 /\ tpar tc2 = None) by (unfold G1'; destruct ob; [eauto|]; unfold rekeyN; rewrite N.eqb_refl, Hn; cbn; eauto).
      destruct Hc as (tc2 & Hc & Pc2). rewrite Ek in Nself.
      destruct (hang_some G1' ob a (rn R1) ta tc2 kids Ha' Hc Ev Pc2) as (G2 & ->); eauto. lia.
  - destruct C as (wv & B & Lv & C1 & C2). rewrite Lv. destruct wv as [[b tb]|].
    2:{ destruct fast; [|pay C1]; eauto. }
    pose proof (proj1 (look_lt _ _ _ _ _ (d_shape _ D) Lv)) as Gb. specialize (C2 b tb eq_refl). destruct fast.
    + destruct C2 as (M & O). destruct (unhook_some R b D) as (G1 & Eu); [congruence|auto|]. rewrite Eu. destruct w as [[a ta]|]; [|eauto].
      destruct (O a ta eq_refl) as [Nab Nsb]. destruct (unhook_at _ _ _ _ _ Eu (Gw a ta eq_refl)) as (ta' & Ga' & _).
      destruct (unhook_at _ _ _ _ _ Eu Gb) as (tb' & Gb' & _ & Pb & _). specialize (Pb eq_refl).
      assert (Nsb' : ~ sb G1 b a) by (eapply outside_less; eauto; split; auto).
      assert (Na : ~ In a (nkids (tvalue tb'))) by (intro K; apply Nsb'; eapply sb_kid; [apply nv_some; eauto|auto]).
      destruct (hand_some G1 a b true ta' tb' Ga' Gb' Pb Nab Na) as (G2 & Eh). rewrite Eh. destruct (hand_nv _ _ _ _ _ Eh) as (_ & Eb & Ka & _ & Kn).
      assert (T1 : trees G1) by (eapply unhook_trees; eauto; apply (d_trees _ D)).
      assert (Ta : tr G2 a).
      { apply (tr_in G2 a (tvalue tb')); [rewrite Ka; now apply nv_some|]. intros y Hy.
        assert (Ty : tr G1 y) by (apply (tr_inv G1 b (tvalue tb')); [apply T1; congruence|now apply nv_some|auto]).
        assert (Nb : forall x, sb G1 b x \/ x = b -> forall v, nv G1 x = Some v -> ~ In b (nkids v)).
        { intros x _ v Hx. eapply unhook_root; eauto. apply (d_shape _ D). }
        assert (K : forall z, tr G1 z -> z <> a -> z <> b -> ~ sb G1 z a -> tr G2 z).
        { intros z Tz. induction Tz as [z v Ez _ IHz]. intros Za Zb Zs. apply (tr_in G2 z v); [now rewrite Kn|]. intros d Hd. apply IHz; auto.
          - intros ->. apply Zs. eapply sb_kid; eauto.
          - intros ->. eapply unhook_root; [apply (d_shape _ D)|exact Eu|exact Ez|exact Hd].
          - intro Q. apply Zs. eapply sb_front; eauto. }
        apply K; auto.
        - intros ->. contradiction.
        - intros ->. eapply unhook_root; [apply (d_shape _ D)|exact Eu|exact (nv_some _ _ _ Gb')|exact Hy].
        - intro Q. apply Nsb'. eapply sb_front; [apply nv_some; eauto|exact Hy|exact Q]. }
      assert (B2 : forall i, G2 i <> None -> i < rn R).
      { intros i Hi. apply (sh_lt _ _ (d_shape _ D)), (unhook_dom _ _ _ i Eu). destruct (N.eqb_spec i a) as [->|Nia]; [congruence|].
        destruct (N.eqb_spec i b) as [->|Nib]; [congruence|]. apply dom_nv in Hi. rewrite Kn in Hi by auto. now apply dom_nv. }
      destruct (checked_some R G2 a B2 Ta) as (R1 & ->). eauto.
    + destruct (read_content R b D) as (j & E & Hj); [congruence|]. rewrite E. pose proof (C2 j Hj) as K. pay K. destruct w as [[a ta]|]; [|eauto].
      pose proof (Gw a ta eq_refl) as Ga. assert (La : a < rn R) by (apply (sh_lt _ _ (d_shape _ D)); congruence).
      assert (Pn : exists v, rG (duplicate R1 tb j) (rn R1) = Some (mkT (tkey tb) v None true true false) /\ rG (duplicate R1 tb j) a = Some ta /\ ~ In a (nkids v)).
      { unfold duplicate. pose proof (plant_inside j (rn R1) (rn R1 + 1)) as P. destruct (plant (rn R1) j (rn R1 + 1)) as [[v g] n']. cbn [rG]. unfold put.
        rewrite N.eqb_refl. exists v. split; auto. destruct P as (_ & P & P3 & _).
        assert (Eg : g a = None) by (destruct (g a) eqn:Eg; auto; assert (Hg : g a <> None) by congruence; apply P in Hg; lia). split.
        - rewrite (proj2 (N.eqb_neq a (rn R1))) by lia. unfold over. rewrite Eg. congruence.
        - intro Hin. now apply P3 in Hin. }
      destruct Pn as (v & Hn & Ha & Na).
      destruct (hand_some (rG (duplicate R1 tb j)) a (rn R1) false ta _ Ha Hn) as (G2 & ->); eauto. lia.
  - destruct C as (C1 & C2 & C3). destruct w as [[a ta]|]; [|eauto]. apply N.ltb_lt in C1. rewrite C1. destruct (is_cont false (tvalue ta)) as [kids|] eqn:Ec; [|eauto].
    apply is_cont_kids in Ec as [Ev Ek]. pay C2. destruct (nth_error kids (N.to_nat i)) as [c|] eqn:En; [|eauto].
    destruct (sh_kids _ _ (d_shape _ D) a ta c (Gw a ta eq_refl)) as (tc & Gc & _); [rewrite Ek; eapply nth_error_In; eauto|].
    destruct (unhook_some R c D) as (G & Eu); [congruence|apply (C3 a ta c eq_refl); [rewrite Ek; auto|now rewrite Ek]|]. rewrite H, Eu. eauto.
  - destruct C as ((C0 & C1) & C2 & C3). rewrite (ok_c_yes _ C0), (fits1 _ 0 C1). cbn [andb]. destruct w as [[a ta]|]; [|eauto]. destruct (is_cont true (tvalue ta)) as [kids|] eqn:Ec; [|eauto].
    apply is_cont_kids in Ec as [Ev Ek]. pose proof (keys_fine R a ta D (Gw a ta eq_refl)) as Kf. rewrite Ek in Kf. rewrite Kf. pay C2.
    assert (Eby : child_by R1 key kids = child_by R key kids) by (unfold child_by; now rewrite H). rewrite Eby.
    destruct (child_by R key kids) as [c|] eqn:En; [|eauto]. assert (Hc : In c kids) by (apply find_some in En; tauto).
    destruct (sh_kids _ _ (d_shape _ D) a ta c (Gw a ta eq_refl)) as (tc & Gc & _); [now rewrite Ek|].
    destruct (unhook_some R c D) as (G & Eu); [congruence|apply (C3 a ta c eq_refl); [rewrite Ek; auto|now rewrite Ek]|]. rewrite H, Eu. eauto.
Qed.
End Cover.

(** ** Programs that respect the contract *)
Definition respects (jd : judge) (cs : list call) : Prop :=
  forall k c rs R, nth_error cs k = Some c -> rrun jd (firstn k cs) rstart = Some (rs, R) -> contract c R.
Lemma respects_runs jd cs : correct jd -> respects jd cs -> exists rs R, rrun jd cs rstart = Some (rs, R).
Proof.
  intros J H. enough (K : forall k, (k <= length cs)%nat -> exists rs R, rrun jd (firstn k cs) rstart = Some (rs, R)).
  { destruct (K (length cs) (le_n _)) as (rs & R & E). rewrite firstn_all in E. eauto. }
  induction k as [|k IH]; intro L; [exists [], rstart; reflexivity|].
  destruct IH as (rs & R & E); [lia|]. destruct (nth_error cs k) as [c|] eqn:En; [|apply nth_error_None in En; lia].
  destruct (covered jd J c R (docs_program _ _ _ _ J E) (H k c rs R En E)) as (x & R' & Es).
  assert (Ef : firstn (Datatypes.S k) cs = firstn k cs ++ [c]).
  { clear -En. revert k En. induction cs as [|y cs IH]; intros [|k] En; try discriminate; cbn in *; [now injection En as ->|]. f_equal. now apply IH. }
  rewrite Ef, rrun_app, E. cbn [rrun]. rewrite Es. eauto.
Qed.
Theorem respects_ok jd cs : correct jd -> respects jd cs -> exists rs R, rrun jd cs rstart = Some (rs, R) /\
  exists f0, forall fuel, (f0 <= fuel)%nat -> exists E s, crun fuel cs estart init = Ok ((rs, E), s) /\ represents R E s.
Proof. intros J H. destruct (respects_runs jd cs J H) as (rs & R & E). exists rs, R. split; auto. eapply program; eauto. Qed.
