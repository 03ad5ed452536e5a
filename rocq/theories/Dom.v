(** The document: what a memory state represents.

    [dom] maps the address of a node to what the node stands for.  [rep] relates
    it to the memory, node by node; [wfdom] says that the children of every
    container form a list; [reads] is the JSON value below a node.  A node that
    was cut off from its container (or whose container was overwritten) stays in
    the domain: handles to it remain usable. *)
From Verif Require Import Base Spec Lex LexProofs Alloc AllocProofs Mem MemProofs Api PureParse.

Section WithVol.
Context {VV : vols}.

Inductive fval :=
| VNull
| VBool (b : bool)
| VNum (t : bytes)
| VStr (t : bytes)
| VCont (ob : bool) (kids : list addr).     (* object / array and its children *)

Record fnode := mkF {
  fkey : option bytes;
  fvalue : fval;
  fpar : option addr;          (* Father *)
  fnext : option addr;         (* Next *)
  fprev : option addr;         (* Prev, as stored: it may be wrong after zj_Move *)
  fend : option addr;          (* End, if known *)
  fstop : bool                 (* for a number: the text is known to end where the number does *)
}.
Definition dom := addr -> option fnode.

Definition wopt (o : option addr) : word := match o with None => Null | Some a => At a end.
Definition lenN {A} (l : list A) : N := N.of_nat (length l).

(** ** Nodes in memory *)
Definition rep_key (s : st) (n : node) (k : option bytes) : Prop :=
  match k with
  | None => nKey n = Null
  | Some b => exists p, nKey n = At p /\ nKeyLen n = Some (lenN b) /\ safetext s p b
  end.
Definition rep_text (s : st) (n : node) (t : jtype) (b : bytes) : Prop :=
  nType n = Some t /\ nLen n = Some (lenN b) /\ exists p, nVal n = At p /\ safetext s p b.
Definition bool_text (b : bool) : bytes := if b then txt "true" else txt "false".
Definition rep_val (s : st) (n : node) (v : fval) : Prop :=
  match v with
  | VNull => rep_text s n TNull (txt "null")
  | VBool b => rep_text s n TBool (bool_text b)
  | VNum b => rep_text s n TNumber b
  | VStr b => rep_text s n TString b
  | VCont ob kids => nType n = Some (if ob then TObject else TArray) /\
      nVal n = wopt (hd_error kids) /\ nLen n = Some (lenN kids)
  end.
(** A number in memory is followed by a byte that cannot continue it. *)
Definition ends_number (c : N) : Prop := ~ is_digit c /\ c <> 46 /\ c <> 101 /\ c <> 69 /\ c <> 120 /\ c <> 88.
Definition stopped_text (s : st) (n : node) (v : fval) : Prop := forall b p, v = VNum b -> nVal n = At p ->
  exists c, ends_number c /\ safetext s p (b ++ [c]).
Record rep_node (s : st) (n : node) (f : fnode) : Prop := {
  r_key : rep_key s n (fkey f);
  r_val : rep_val s n (fvalue f);
  r_par : nFather n = wopt (fpar f);
  r_next : nNext n = wopt (fnext f);
  r_prev : nPrev n = wopt (fprev f);
  r_end : forall e, fend f = Some e -> nEnd n = At e;
  r_stop : fstop f = true -> stopped_text s n (fvalue f)
}.
(** Every node of [F] outside [D] is in memory. *)
Definition rep (D : addr -> Prop) (s : st) (F : dom) : Prop :=
  forall a f, F a = Some f -> ~ D a -> exists n, snodes s a = Some n /\ rep_node s n f.

(** ** Lists of children *)
Fixpoint chain (F : dom) (a : addr) (ob : bool) (kids : list addr) : Prop :=
  match kids with
  | [] => True
  | c :: r => (exists fc, F c = Some fc /\ fpar fc = Some a /\ fnext fc = hd_error r /\
                 (if ob then fkey fc <> None else fkey fc = None)) /\ chain F a ob r
  end.
Definition wfdom (F : dom) : Prop :=
  forall a f, F a = Some f ->
    (forall ob kids, fvalue f = VCont ob kids -> chain F a ob kids /\ lenN kids < two32) /\
    (fpar f = None -> fnext f = None /\ fprev f = None).

(** ** The value below a node *)
Inductive reads (F : dom) : addr -> json -> Prop :=
| rd_null a f : F a = Some f -> fvalue f = VNull -> reads F a JNull
| rd_bool a f b : F a = Some f -> fvalue f = VBool b -> reads F a (JBool b)
| rd_num a f t : F a = Some f -> fvalue f = VNum t -> reads F a (JNum t)
| rd_str a f t : F a = Some f -> fvalue f = VStr t -> reads F a (JStr t)
| rd_cont a f ob kids items : F a = Some f -> fvalue f = VCont ob kids ->
    readsL F kids items -> reads F a (container ob items)
with readsL (F : dom) : list addr -> list (option bytes * json) -> Prop :=
| rl_nil : readsL F [] []
| rl_cons c r fc j items : F c = Some fc -> reads F c j -> readsL F r items ->
    readsL F (c :: r) ((fkey fc, j) :: items).

Scheme reads_ind' := Minimality for reads Sort Prop
  with readsL_ind' := Minimality for readsL Sort Prop.
Combined Scheme reads_mutind from reads_ind', readsL_ind'.

Record inv (s : st) (F : dom) : Prop := {
  i_wf : wfst s;
  i_rep : rep none s F;
  i_dom : wfdom F;
  i_vol : wfvol s;
  i_off : forall a, F a <> None -> ~ vol s (fst a)
}.

(** Handles *)
Definition handle (s : st) (F : dom) (v : addr) (w : word) (A : N) : Prop :=
  svals s v = Some (mkVal w A) /\ (alive s A /\ ~ isvol A) /\ (w = Null \/ exists a, w = At a /\ F a <> None).

(** ** Extension keeps what is represented *)
Lemma rep_node_text s s' n f :
  (forall a b, safetext s a b -> safetext s' a b) -> rep_node s n f -> rep_node s' n f.
Proof.
  intros T [H1 H2 H3 H4 H5 H6 H7]. constructor; auto.
  - destruct (fkey f); simpl in *; auto. destruct H1 as (p & E1 & E2 & K). eauto.
  - assert (K : forall t b, rep_text s n t b -> rep_text s' n t b).
    { intros t b (E1 & E2 & p & E3 & K). split; auto. split; auto. eauto. }
    destruct (fvalue f); simpl in *; auto.
  - intros E b p Eb Ep. destruct (H7 E b p Eb Ep) as (c & Hc & K). eauto.
Qed.
Lemma ext_rep Dn Dv c s s' D F : ext Dn Dv c s s' -> rep D s F -> rep (fun a => D a \/ Dn a) s' F.
Proof.
  intros X R a f Ha Hd. destruct (R a f Ha) as (n & Hn & Hr); [tauto|].
  exists n. split; [apply (x_nodes _ _ _ _ _ X); tauto|].
  eapply rep_node_text; [|exact Hr]. intros. eapply safetext_ext; eauto.
Qed.
Lemma rep_weaken (D D' : addr -> Prop) s F : rep D s F -> (forall a, D a -> D' a) -> rep D' s F.
Proof. intros R H a f Ha Hd. apply R; auto. Qed.
Lemma ext_inv Dv c s s' F : ext none Dv c s s' -> inv s F -> inv s' F.
Proof.
  intros X [W R D Wv O]. constructor; auto; [apply X| |eapply wfvol_ext; eauto|].
  - eapply rep_weaken; [eapply ext_rep; eauto|]. unfold none. tauto.
  - intros a Ha. apply (vol_ext _ _ _ _ _ _ X); auto.
    destruct (F a) as [f|] eqn:E; [|congruence]. destruct (R a f E) as (n & Hn & _); [auto|].
    eapply nodes_next; eauto.
Qed.
Lemma handle_ext Dn Dv c s s' F v w A : ext Dn Dv c s s' -> ~ Dv v -> handle s F v w A -> handle s' F v w A.
Proof.
  intros X H (H1 & [H2 N2] & H3). split; [|split; [split|]]; auto.
  - now apply (x_vals _ _ _ _ _ X).
  - now apply (x_alive _ _ _ _ _ X).
Qed.

Lemma rep_some D s F a : rep D s F -> ~ D a -> F a <> None -> snodes s a <> None.
Proof.
  intros R Hd Ha. destruct (F a) as [f|] eqn:E; [|congruence].
  destruct (R a f E Hd) as (n & Hn & _). congruence.
Qed.
Lemma inv_none s F a : inv s F -> snodes s a = None -> F a = None.
Proof.
  intros I H. destruct (F a) as [f|] eqn:E; auto.
  destruct (i_rep s F I a f E) as (n & Hn & _); [auto|congruence].
Qed.
Lemma inv_beyond s F a : inv s F -> beyond s a -> F a = None.
Proof. intros I B. apply (inv_none s F a I). now apply (beyond_nothing s a (i_wf s F I)). Qed.

(** ** Facts about chains *)
Lemma chain_in F a ob kids c : chain F a ob kids -> In c kids ->
  exists fc, F c = Some fc /\ fpar fc = Some a /\ (if ob then fkey fc <> None else fkey fc = None).
Proof.
  induction kids as [|k kids IH]; simpl; [tauto|]. intros [(fc & H1 & H2 & H3 & H4) H] [->|Hi]; auto.
  exists fc. auto.
Qed.
Lemma chain_det F a ob a' ob' : forall l l', chain F a ob l -> chain F a' ob' l' -> hd_error l = hd_error l' -> l = l'.
Proof.
  induction l as [|x l IH]; intros [|y l']; simpl; try discriminate; auto.
  intros [(fc & H1 & _ & H3 & _) H] [(fc' & H1' & _ & H3' & _) H'] E. injection E as ->.
  rewrite H1 in H1'. injection H1' as <-. f_equal. apply IH; auto. congruence.
Qed.
Lemma chain_app F a ob l l' : chain F a ob (l ++ l') -> chain F a ob l'.
Proof. induction l as [|x l IH]; simpl; auto. intros [_ H]. auto. Qed.
Lemma chain_NoDup F a ob l : chain F a ob l -> NoDup l.
Proof.
  induction l as [|x l IH]; intro H; constructor.
  - intro Hi. apply in_split in Hi as (l1 & l2 & ->).
    assert (E : x :: l1 ++ x :: l2 = x :: l2).
    { eapply chain_det; eauto. change (x :: l1 ++ x :: l2) with ((x :: l1) ++ x :: l2) in H.
      apply chain_app in H. exact H. }
    apply (f_equal (@length _)) in E. simpl in E. rewrite app_length in E. simpl in E. lia.
  - apply IH. apply H.
Qed.
Lemma chain_ext F F' a ob l : (forall c, In c l -> F' c = F c) -> chain F a ob l -> chain F' a ob l.
Proof.
  induction l as [|x l IH]; simpl; auto. intros H [(fc & H1 & H2) H3]. split.
  - exists fc. rewrite H by auto. auto.
  - apply IH; auto.
Qed.

(** ** Facts about reads *)
Lemma reads_fun F : (forall a j, reads F a j -> forall j', reads F a j' -> j = j') /\
  (forall l i, readsL F l i -> forall i', readsL F l i' -> i = i').
Proof.
  apply reads_mutind.
  1-4: intros; match goal with H : reads _ _ _ |- _ => inversion H; subst; congruence end.
  - intros a f ob kids items Ha Hv _ IH j' H. inversion H; subst; try congruence.
    rewrite Ha in H0. injection H0 as <-. rewrite Hv in H1. injection H1 as <- <-. f_equal. auto.
  - intros i' H. inversion H; auto.
  - intros c r fc j items Hc _ IH1 _ IH2 i' H. inversion H; subst.
    rewrite Hc in H2. injection H2 as <-. f_equal; auto. f_equal. auto.
Qed.
Lemma reads_det F a j j' : reads F a j -> reads F a j' -> j = j'.
Proof. intros. eapply (proj1 (reads_fun F)); eauto. Qed.

(** Nodes below [a], [a] included. *)
Inductive below (F : dom) (a : addr) : addr -> Prop :=
| bl_self : below F a a
| bl_kid b f ob kids c : below F a b -> F b = Some f -> fvalue f = VCont ob kids -> In c kids -> below F a c.
Lemma below_trans F a b c : below F a b -> below F b c -> below F a c.
Proof. intros H K. induction K; eauto using below. Qed.

Definition sbelow (F : dom) (a b : addr) : Prop :=
  exists f ob kids c, F a = Some f /\ fvalue f = VCont ob kids /\ In c kids /\ below F c b.
Lemma sbelow_below F a b : sbelow F a b -> below F a b.
Proof.
  intros (f & ob & kids & c & H1 & H2 & H3 & H4). eapply below_trans; [|exact H4].
  econstructor; eauto. constructor.
Qed.
Lemma below_cases F a b : below F a b -> b = a \/ sbelow F a b.
Proof.
  induction 1 as [|b f ob kids c H IH H1 H2 H3]; auto. right. destruct IH as [->|(f' & ob' & k' & c' & E1 & E2 & E3 & E4)].
  - exists f, ob, kids, c. repeat split; auto. constructor.
  - exists f', ob', k', c'. repeat split; auto. econstructor; eauto.
Qed.

(** A node with a value is not below itself, and neither is anything below it. *)
Lemma reads_acyclic F : (forall a j, reads F a j -> ~ sbelow F a a) /\
  (forall l items, readsL F l items -> forall c, In c l -> ~ sbelow F c c).
Proof.
  apply reads_mutind.
  1-4: intros a f; intros; intros (f' & ob & kids & c & E1 & E2 & _); congruence.
  - intros a f ob kids items Ha Hv _ IH (f' & ob' & kids' & c & E1 & E2 & E3 & E4).
    rewrite Ha in E1. injection E1 as <-. rewrite Hv in E2. injection E2 as <- <-.
    apply (IH c E3). apply below_cases in E4 as [E|(g & o & ks & c' & G1 & G2 & G3 & G4)].
    + subst c. exists f, ob, kids, a. repeat split; auto. constructor.
    + exists g, o, ks, c'. repeat split; auto. econstructor; eauto.
  - intros c [].
  - intros c r fc j items Hc _ IH1 _ IH2 x [<-|Hx]; auto.
Qed.

(** The value below [a] depends only on the keys and values of the nodes below. *)
Lemma reads_frame_all F F' :
  (forall a j, reads F a j ->
     (forall b f, F b = Some f -> below F a b -> exists f', F' b = Some f' /\ fvalue f' = fvalue f) ->
     (forall b f f', F b = Some f -> F' b = Some f' -> sbelow F a b -> fkey f' = fkey f) -> reads F' a j) /\
  (forall l items, readsL F l items ->
     (forall c b f, In c l -> F b = Some f -> below F c b -> exists f', F' b = Some f' /\ fvalue f' = fvalue f) ->
     (forall c b f f', In c l -> F b = Some f -> F' b = Some f' -> below F c b -> fkey f' = fkey f) ->
     readsL F' l items).
Proof.
  apply reads_mutind.
  1-4: intros a f; intros; match goal with H : ?F a = Some f, K : forall b f, ?F b = Some f -> below ?F a b -> _ |- _ =>
         destruct (K a f H (bl_self F a)) as (g & E1 & E2) end;
       first [solve [eapply rd_null; eauto; congruence] | solve [eapply rd_bool; eauto; congruence]
             | solve [eapply rd_num; eauto; congruence] | solve [eapply rd_str; eauto; congruence]].
  - intros a f ob kids items Ha Hv Hr IH H K. destruct (H a f Ha (bl_self F a)) as (g & E1 & E2).
    apply (rd_cont F' a g ob kids items); [auto|congruence|]. apply IH.
    + intros c b fb Hc Hb Hcb. apply (H b fb Hb). apply sbelow_below. exists f, ob, kids, c. auto.
    + intros c b fb fb' Hc Hb Hb' Hcb. apply (K b fb fb'); auto. exists f, ob, kids, c. auto.
  - intros. constructor.
  - intros c r fc j items Hc Hr IH1 Hrl IH2 H K.
    destruct (H c c fc (or_introl eq_refl) Hc (bl_self F c)) as (g & E1 & E2).
    rewrite <- (K c c fc g (or_introl eq_refl) Hc E1 (bl_self F c)).
    apply rl_cons; auto.
    + apply IH1; [intros b f Hb Hcb; exact (H c b f (or_introl eq_refl) Hb Hcb)|].
      intros b f f' Hb Hb' Hcb. apply (K c b f f' (or_introl eq_refl) Hb Hb'). now apply sbelow_below.
    + apply IH2; [intros c' b f Hc' Hb Hcb; exact (H c' b f (or_intror Hc') Hb Hcb)|].
      intros c' b f f' Hc' Hb Hb' Hcb. exact (K c' b f f' (or_intror Hc') Hb Hb' Hcb).
Qed.
Lemma reads_frame F F' a j : reads F a j ->
  (forall b f, F b = Some f -> below F a b -> exists f', F' b = Some f' /\ fvalue f' = fvalue f) ->
  (forall b f f', F b = Some f -> F' b = Some f' -> sbelow F a b -> fkey f' = fkey f) -> reads F' a j.
Proof. intros. eapply (proj1 (reads_frame_all F F')); eauto. Qed.
Lemma readsL_frame F F' l items : readsL F l items ->
  (forall c b f, In c l -> F b = Some f -> below F c b -> exists f', F' b = Some f' /\ fvalue f' = fvalue f) ->
  (forall c b f f', In c l -> F b = Some f -> F' b = Some f' -> below F c b -> fkey f' = fkey f) ->
  readsL F' l items.
Proof. intros. eapply (proj2 (reads_frame_all F F')); eauto. Qed.
(** Adding nodes changes no value. *)
Definition submap (F F' : dom) : Prop := forall a f, F a = Some f -> F' a = Some f.
Lemma reads_submap F F' a j : submap F F' -> reads F a j -> reads F' a j.
Proof.
  intros H R. eapply reads_frame; eauto.
  intros b f f' Hb Hb' _. rewrite (H b f Hb) in Hb'. congruence.
Qed.
Lemma readsL_submap F F' l items : submap F F' -> readsL F l items -> readsL F' l items.
Proof.
  intros H R. eapply readsL_frame; eauto.
  intros c b f f' _ Hb Hb' _. rewrite (H b f Hb) in Hb'. congruence.
Qed.

(** Every node below a node with a value has a value. *)
Lemma reads_below F : (forall a j, reads F a j -> forall b, below F a b -> exists j', reads F b j') /\
  (forall l items, readsL F l items -> forall c b, In c l -> below F c b -> exists j', reads F b j').
Proof.
  assert (S : forall a b f, F a = Some f -> below F a b -> (forall ob kids, fvalue f <> VCont ob kids) -> b = a).
  { intros a b f Ha Hb Hn. apply below_cases in Hb as [->|(g & o & ks & c & G1 & G2 & _)]; auto.
    rewrite Ha in G1. injection G1 as <-. edestruct Hn; eauto. }
  apply reads_mutind.
  1-4: intros a f; intros; match goal with Hb : below _ a ?b |- _ => assert (b = a) as -> by (eapply S; eauto; congruence) end;
       eexists; first [solve [eapply rd_null; eauto] | solve [eapply rd_bool; eauto]
             | solve [eapply rd_num; eauto] | solve [eapply rd_str; eauto]].
  - intros a f ob kids items Ha Hv Hr IH b Hb. apply below_cases in Hb as [->|(g & o & ks & c & G1 & G2 & G3 & G4)].
    + eexists. eapply rd_cont; eauto.
    + rewrite Ha in G1. injection G1 as <-. rewrite Hv in G2. injection G2 as <- <-. eauto.
  - intros c b [].
  - intros c r fc j items Hc _ IH1 _ IH2 x b [<-|Hx] Hb; eauto.
Qed.
Lemma readsL_length F l items : readsL F l items -> length l = length items.
Proof. induction 1; simpl; auto. Qed.
Lemma readsL_app F l l' items items' : readsL F l items -> readsL F l' items' -> readsL F (l ++ l') (items ++ items').
Proof. intros H K. induction H; simpl; auto. econstructor; eauto. Qed.
Lemma readsL_split F l l' items : readsL F (l ++ l') items ->
  exists i i', items = i ++ i' /\ readsL F l i /\ readsL F l' i'.
Proof.
  revert items. induction l as [|x l IH]; simpl; intros items H.
  - exists [], items. repeat split; auto. constructor.
  - inversion H; subst. apply IH in H5 as (i & i' & -> & H5 & H6).
    exists ((fkey fc, j) :: i), i'. repeat split; auto. econstructor; eauto.
Qed.

(** ** Changing a domain *)
Definition same_links (f f' : fnode) : Prop := fkey f' = fkey f /\ fpar f' = fpar f /\ fnext f' = fnext f.
Lemma chain_links F F' a ob l :
  (forall c f, In c l -> F c = Some f -> exists f', F' c = Some f' /\ same_links f f') ->
  chain F a ob l -> chain F' a ob l.
Proof.
  induction l as [|x l IH]; simpl; auto. intros H [(fc & H1 & H2 & H3 & H4) H5]. split.
  - destruct (H x fc (or_introl eq_refl) H1) as (f' & E & E1 & E2 & E3). exists f'. rewrite E1, E2, E3. auto.
  - apply IH; auto.
Qed.
Lemma chain_submap F F' a ob l : submap F F' -> chain F a ob l -> chain F' a ob l.
Proof.
  intro H. apply chain_links. intros c f _ Hc. exists f. split; auto. repeat split.
Qed.

(** A list of children up to, but not including, [e]. *)
Fixpoint chain_to (F : dom) (a : addr) (ob : bool) (kids : list addr) (e : option addr) : Prop :=
  match kids with
  | [] => True
  | c :: r => (exists fc, F c = Some fc /\ fpar fc = Some a /\
                 fnext fc = match r with [] => e | x :: _ => Some x end /\
                 (if ob then fkey fc <> None else fkey fc = None)) /\ chain_to F a ob r e
  end.
Lemma chain_to_chain F a ob l : chain_to F a ob l None <-> chain F a ob l.
Proof.
  induction l as [|x l IH]; simpl; [tauto|]. rewrite IH. destruct l; simpl; tauto.
Qed.
Lemma chain_to_links F F' a ob l e :
  (forall c f, In c l -> F c = Some f -> exists f', F' c = Some f' /\ same_links f f') ->
  chain_to F a ob l e -> chain_to F' a ob l e.
Proof.
  induction l as [|x l IH]; simpl; auto. intros H [(fc & H1 & H2 & H3 & H4) H5]. split.
  - destruct (H x fc (or_introl eq_refl) H1) as (f' & E & E1 & E2 & E3). exists f'. rewrite E1, E2, E3. auto.
  - apply IH; auto.
Qed.
Lemma chain_to_submap F F' a ob l e : submap F F' -> chain_to F a ob l e -> chain_to F' a ob l e.
Proof.
  intro H. apply chain_to_links. intros c f _ Hc. exists f. split; auto. repeat split.
Qed.
Lemma chain_to_snoc F a ob l c fc e : chain_to F a ob l (Some c) -> F c = Some fc -> fpar fc = Some a ->
  fnext fc = e -> (if ob then fkey fc <> None else fkey fc = None) -> chain_to F a ob (l ++ [c]) e.
Proof.
  intros H Hc H1 H2 H3. induction l as [|x l IH]; simpl in *.
  - split; auto. exists fc. auto.
  - destruct H as [(fx & K1 & K2 & K3 & K4) H]. split; auto. exists fx. repeat split; auto.
    destruct l; auto.
Qed.
Lemma chain_to_in F a ob kids e c : chain_to F a ob kids e -> In c kids ->
  exists fc, F c = Some fc /\ fpar fc = Some a /\ (if ob then fkey fc <> None else fkey fc = None).
Proof.
  induction kids as [|k kids IH]; simpl; [tauto|]. intros [(fc & H1 & H2 & H3 & H4) H] [->|Hi]; auto.
  exists fc. auto.
Qed.

Definition add (F : dom) (a : addr) (f : fnode) : dom := fun x => if addr_eqb x a then Some f else F x.
Lemma add_eq F a f : add F a f a = Some f.
Proof. unfold add. now rewrite addr_eqb_refl. Qed.
Lemma add_neq F a f b : b <> a -> add F a f b = F b.
Proof. intro H. unfold add. now rewrite addr_eqb_neq. Qed.
Lemma add_submap F a f : F a = None -> submap F (add F a f).
Proof. intros H x g Hx. rewrite add_neq; auto. congruence. Qed.

Definition last_error {A} (l : list A) : option A := hd_error (rev l).
Lemma last_error_snoc {A} (l : list A) x : last_error (l ++ [x]) = Some x.
Proof. unfold last_error. now rewrite rev_unit. Qed.
Lemma last_error_nil {A} (l : list A) : last_error l = None <-> l = [].
Proof.
  split; [|intros ->; auto]. destruct l as [|x l] using rev_ind; auto. rewrite last_error_snoc. discriminate.
Qed.

(** Back links.  zj_Move leaves wrong ones behind, so they are not part of
    [wfdom]; a container is [tidy] when End and its children's Prev are right. *)
Fixpoint prevs (F : dom) (p : option addr) (kids : list addr) : Prop :=
  match kids with
  | [] => True
  | c :: r => (exists fc, F c = Some fc /\ fprev fc = p) /\ prevs F (Some c) r
  end.
Definition tidy (F : dom) (a : addr) : Prop :=
  forall f ob kids, F a = Some f -> fvalue f = VCont ob kids ->
    fend f = last_error kids /\ prevs F None kids.
Lemma prevs_links F F' kids : forall p,
  (forall c f, In c kids -> F c = Some f -> exists f', F' c = Some f' /\ fprev f' = fprev f) ->
  prevs F p kids -> prevs F' p kids.
Proof.
  induction kids as [|c r IH]; simpl; auto. intros p H [(fc & H1 & H2) H3]. split.
  - destruct (H c fc (or_introl eq_refl) H1) as (f' & E1 & E2). exists f'. split; congruence.
  - apply IH; auto.
Qed.
Lemma prevs_submap F F' p kids : submap F F' -> prevs F p kids -> prevs F' p kids.
Proof. intro H. apply prevs_links. intros c f _ Hc. exists f. auto. Qed.
Lemma prevs_snoc F kids c fc : forall p, prevs F p kids -> F c = Some fc ->
  fprev fc = match last_error kids with Some x => Some x | None => p end -> prevs F p (kids ++ [c]).
Proof.
  induction kids as [|x r IH]; simpl; intros p H Hc Hp.
  - split; auto. exists fc. auto.
  - destruct H as [H1 H2]. split; auto. apply IH; auto.
    rewrite Hp. destruct r as [|y r] using rev_ind; simpl; auto.
    change (x :: r ++ [y]) with ((x :: r) ++ [y]). now rewrite !last_error_snoc.
Qed.
End WithVol.
