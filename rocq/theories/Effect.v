(** What a change of one node means for every document. *)
From Verif Require Import Base Spec Lex LexProofs Alloc AllocProofs Mem MemProofs Api PureParse Dom.

(** ** Positions in JSON values *)
Fixpoint upd_nth {A} (i : nat) (f : A -> A) (l : list A) : list A :=
  match l, i with
  | [], _ => []
  | x :: r, O => f x :: r
  | x :: r, S i' => x :: upd_nth i' f r
  end.
Fixpoint jset (p : list nat) (new j : json) : json :=
  match p with
  | [] => new
  | i :: p' =>
      match j with
      | JArr l => JArr (upd_nth i (jset p' new) l)
      | JObj m => JObj (upd_nth i (fun kj => (fst kj, jset p' new (snd kj))) m)
      | _ => j
      end
  end.
Fixpoint jget (p : list nat) (j : json) : option json :=
  match p with
  | [] => Some j
  | i :: p' =>
      match j with
      | JArr l => match nth_error l i with Some x => jget p' x | None => None end
      | JObj m => match nth_error m i with Some x => jget p' (snd x) | None => None end
      | _ => None
      end
  end.

(** Position [p] below node [a] is node [b]. *)
Inductive path (F : dom) : addr -> list nat -> addr -> Prop :=
| pa_here a : path F a [] a
| pa_down a f ob kids i c p b : F a = Some f -> fvalue f = VCont ob kids -> nth_error kids i = Some c ->
    path F c p b -> path F a (i :: p) b.

Lemma path_below F a p b : path F a p b -> below F a b.
Proof.
  induction 1 as [|a f ob kids i c p b H1 H2 H3 H IH]; [constructor|].
  eapply below_trans; [|exact IH]. econstructor; eauto; [constructor|]. eapply nth_error_In; eauto.
Qed.
Lemma path_app F a p b q c : path F a p b -> path F b q c -> path F a (p ++ q) c.
Proof. induction 1; simpl; auto. intro K. eapply pa_down; eauto. Qed.
Lemma below_path F a b : below F a b -> exists p, path F a p b.
Proof.
  induction 1 as [|b f ob kids c H (p & IH) H1 H2 H3]; [exists []; constructor|].
  apply In_nth_error in H3 as (i & H3). exists (p ++ [i]). eapply path_app; eauto. eapply pa_down; eauto. constructor.
Qed.

(** Two nodes above the same node are above one another. *)
Lemma below_linear F c c' b : wfdom F -> below F c b -> below F c' b -> below F c c' \/ below F c' c.
Proof.
  intros D H. induction H as [|b0 f ob kids b H IH H1 H2 H3]; intro K; auto.
  inversion K as [E|b1 f1 ob1 kids1 b' K1 K2 K3 K4 E]; subst; auto.
  - left. econstructor; eauto.
  - apply IH. destruct (D _ _ H1) as [D1 _]. destruct (D1 _ _ H2) as [C1 _].
    destruct (D _ _ K2) as [D2 _]. destruct (D2 _ _ K3) as [C2 _].
    destruct (chain_in _ _ _ _ _ C1 H3) as (g1 & G1 & G2 & _).
    destruct (chain_in _ _ _ _ _ C2 K4) as (g2 & G1' & G2' & _). congruence.
Qed.
Lemma kids_apart F x f ob kids c c' b : wfdom F -> F x = Some f -> fvalue f = VCont ob kids -> ~ sbelow F x x ->
  In c kids -> In c' kids -> below F c b -> below F c' b -> c = c'.
Proof.
  intros D Hx Hv Hac Hc Hc' H H'.
  assert (K : forall c c', In c kids -> In c' kids -> below F c c' -> c = c').
  { intros d d' Hd Hd' B. inversion B as [E|b1 f1 ob1 kids1 b' K1 K2 K3 K4 E]; subst; auto. exfalso.
    destruct (D _ _ Hx) as [D1 _]. destruct (D1 _ _ Hv) as [C1 _].
    destruct (D _ _ K2) as [D2 _]. destruct (D2 _ _ K3) as [C2 _].
    destruct (chain_in _ _ _ _ _ C1 Hd') as (g1 & G1 & G2 & _).
    destruct (chain_in _ _ _ _ _ C2 K4) as (g2 & G1' & G2' & _).
    assert (b1 = x) by congruence. subst b1. apply Hac. exists f, ob, kids, d. auto. }
  destruct (below_linear F c c' b D H H') as [B|B]; [eauto|symmetry; eauto].
Qed.

Definition child (F : dom) (y x : addr) : Prop :=
  exists f ob kids, F y = Some f /\ fvalue f = VCont ob kids /\ In x kids.
Lemma child_par F y x : wfdom F -> child F y x -> exists f, F x = Some f /\ fpar f = Some y.
Proof.
  intros D (f & ob & kids & H1 & H2 & H3). destruct (D _ _ H1) as [D1 _]. destruct (D1 _ _ H2) as [C _].
  destruct (chain_in _ _ _ _ _ C H3) as (g & G1 & G2 & _). eauto.
Qed.
Lemma root_below F x b f : wfdom F -> F b = Some f -> fpar f = None -> below F x b -> x = b.
Proof.
  intros D Hb Hp H. destruct H as [|b0 f0 ob kids b H H1 H2 H3]; auto. exfalso.
  destruct (child_par F b0 b D) as (g & G1 & G2); [exists f0, ob, kids; auto|]. congruence.
Qed.

(** [F'] differs from [F] in nothing but the value of [a], the keys of its
    children and of detached nodes (and in link fields, in nodes [F] does not
    have, and in the nodes [D], which are dropped). *)
Definition changed (D : addr -> Prop) (F F' : dom) (a : addr) : Prop :=
  forall x f, F x = Some f -> ~ D x -> exists f', F' x = Some f' /\ (x <> a -> fvalue f' = fvalue f) /\
    (forall y, y <> a -> child F y x -> fkey f' = fkey f).

Lemma changed_refl D F a : changed D F F a.
Proof. intros x f H _. exists f. auto. Qed.

Lemma changed_frame D F F' a x j : changed D F F' a -> reads F x j -> ~ below F x a ->
  (forall d, below F x d -> ~ D d) -> reads F' x j.
Proof.
  intros C R N ND. eapply reads_frame; eauto.
  - intros b f Hb Hxb. destruct (C b f Hb (ND b Hxb)) as (f' & E1 & E2 & E3). exists f'. split; auto. apply E2. congruence.
  - intros b f f' Hb Hb' Hs.
    destruct (C b f Hb (ND b (sbelow_below _ _ _ Hs))) as (f1 & E1 & E2 & E3).
    replace f' with f1 by congruence.
    assert (Hp : exists y, below F x y /\ child F y b).
    { destruct Hs as (g & ob & kids & c & G1 & G2 & G3 & G4).
      destruct G4 as [|b0 f0 ob0 kids0 b G4 K1 K2 K3].
      - exists x. split; [constructor|]. exists g, ob, kids. auto.
      - exists b0. split; [|exists f0, ob0, kids0; auto].
        eapply below_trans; [|exact G4]. eapply (bl_kid F x x g); eauto using bl_self. }
    destruct Hp as (y & Hy & Hc). apply (E3 y); auto. congruence.
Qed.

Lemma upd_nth_map {A B} (g : A -> B) (f : A -> A) (f' : B -> B) i l : (forall x, g (f x) = f' (g x)) ->
  map g (upd_nth i f l) = upd_nth i f' (map g l).
Proof. intro H. revert i. induction l as [|x l IH]; intros [|i]; simpl; auto; now rewrite ?H, ?IH. Qed.
Lemma jset_container i p new ob items :
  jset (i :: p) new (container ob items) =
  container ob (upd_nth i (fun kj => (fst kj, jset p new (snd kj))) items).
Proof.
  destruct ob; simpl; f_equal.
  - symmetry. apply upd_nth_map. reflexivity.
  - symmetry. apply upd_nth_map. reflexivity.
Qed.
Lemma jget_container i p ob items : jget (i :: p) (container ob items) =
  match nth_error items i with Some x => jget p (snd x) | None => None end.
Proof. destruct ob; simpl; rewrite nth_error_map; destruct (nth_error items i); reflexivity. Qed.

Lemma readsL_nth F kids items : readsL F kids items -> forall i c, nth_error kids i = Some c ->
  exists fc j, F c = Some fc /\ nth_error items i = Some (fkey fc, j) /\ reads F c j.
Proof.
  induction 1 as [|c r fc j items H1 H2 H3 IH]; intros [|i] d E; simpl in *; try discriminate; auto.
  injection E as <-. eauto.
Qed.
Lemma readsL_in F kids items c : readsL F kids items -> In c kids -> exists j, reads F c j.
Proof.
  intros H Hi. apply In_nth_error in Hi as (i & Hi). destruct (readsL_nth _ _ _ H i c Hi) as (fc & j & _ & _ & R). eauto.
Qed.
Lemma path_reads F x p b j : path F x p b -> reads F x j -> exists jb, jget p j = Some jb /\ reads F b jb.
Proof.
  intro H. revert j. induction H as [a|a f ob kids i c p b H1 H2 H3 H IH]; intros j R.
  - exists j. auto.
  - inversion R; subst; try congruence. rewrite H1 in H0. injection H0 as <-. rewrite H2 in H4. injection H4 as <- <-.
    destruct (readsL_nth _ _ _ H5 i c H3) as (fc & jc & E1 & E2 & E3).
    destruct (IH jc E3) as (jb & E4 & E5). exists jb. rewrite jget_container, E2. auto.
Qed.

(** The effect of changing the value of [a] on every document containing it. *)
Lemma changed_path D F F' a jn : wfdom F -> changed D F F' a -> reads F' a jn ->
  forall x p j, path F x p a -> reads F x j -> (forall d, below F x d -> ~ D d) -> reads F' x (jset p jn j).
Proof.
  intros W C Ra x p j P. revert j.
  induction P as [a|x f ob kids i c p a H1 H2 H3 P IH]; intros j R ND; [simpl; auto|].
  specialize (IH C Ra).
  inversion R; subst; try congruence. rewrite H1 in H. injection H as <-. rewrite H2 in H0. injection H0 as <- <-.
  assert (Hac : ~ sbelow F x x) by (eapply (proj1 (reads_acyclic F)); eauto).
  assert (Hci : In c kids) by (eapply nth_error_In; eauto).
  assert (Nx : x <> a).
  { intros ->. apply Hac. exists f, ob, kids, c. repeat split; auto. eapply path_below; eauto. }
  assert (NDk : forall c' d, In c' kids -> below F c' d -> ~ D d).
  { intros c' d Hc' Hd. apply ND. eapply below_trans; [|exact Hd]. eapply (bl_kid F x x f); eauto using bl_self. }
  assert (Hch : forall c', In c' kids -> child F x c') by (intros c' Hc'; exists f, ob, kids; auto).
  destruct (C x f H1 (ND x (bl_self F x))) as (f' & E1 & E2 & E3). rewrite jset_container.
  apply (rd_cont F' x f' ob kids); auto. { rewrite E2; auto. }
  assert (NDp : NoDup kids).
  { destruct (W x f H1) as [D1 _]. destruct (D1 ob kids H2) as [D2 _]. eapply chain_NoDup; eauto. }
  assert (Hother : forall c', In c' kids -> c' <> c -> ~ below F c' a).
  { intros c' Hc' Nc B. apply Nc. eapply (kids_apart F x f ob kids); eauto. eapply path_below; eauto. }
  clear R E1 E2 E3 f' H1 H2 Hac ND. revert i H3. revert NDp Hother Hci NDk Hch.
  induction H4 as [|c0 r fc j0 items K1 K2 K3 IH2]; intros NDp Hother Hci NDk Hch i H3; [destruct i; discriminate|].
  inversion NDp; subst.
  destruct (C c0 fc K1 (NDk c0 c0 (or_introl eq_refl) (bl_self F c0))) as (fc' & E1 & E2 & E3).
  specialize (E3 x Nx (Hch c0 (or_introl eq_refl))).
  destruct i as [|i]; simpl in *.
  - injection H3 as ->. rewrite <- E3. apply (rl_cons F' c r fc' _ items); auto.
    { apply IH; auto. intros d Hd. eapply NDk; eauto. }
    clear - C K3 Hother NDk Hch Nx H1.
    induction K3 as [|c1 r f1 j1 items K1 K2 K3 IH]; [constructor|].
    destruct (C c1 f1 K1 (NDk c1 c1 (or_intror (or_introl eq_refl)) (bl_self F c1))) as (f1' & G1 & G2 & G3).
    rewrite <- (G3 x Nx (Hch c1 (or_intror (or_introl eq_refl)))). apply rl_cons; auto.
    + apply (changed_frame D F F' a); auto.
      * apply Hother; simpl; auto. intros ->. apply H1. left; auto.
      * intros d Hd. apply (NDk c1); simpl; auto.
    + apply IH.
      * intros c' [->|Hc']; apply Hch; simpl; auto.
      * intros c' d [->|Hc']; apply NDk; simpl; auto.
      * intros c' [->|Hc'] Nc; apply Hother; simpl; auto.
      * intros X. apply H1. right. exact X.
  - rewrite <- E3. apply (rl_cons F' c0 r fc' _ _); auto.
    + apply (changed_frame D F F' a); auto.
      * apply Hother; auto. intros ->. apply H1. eapply nth_error_In; eauto.
      * intros d Hd. apply (NDk c0); auto.
    + apply IH2; auto.
      * eapply nth_error_In; eauto.
      * intros c' d Hc'. apply NDk; auto.
Qed.
