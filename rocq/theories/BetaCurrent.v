(** The answers the getters of the beta header remember are current as long as no two
    value objects stand for the same node. *)
From Verif Require Import Base Spec Lex Mem Dom Double Vocab Hist HistRun HistForest HistSim HistStep HistAll HistTree BetaHist BetaStep BetaSim.

(** Each node has at most one value object. *)
Definition single (R : rst) : Prop := forall h h' i A A',
  nth_error (rh R) h = Some (Some i, A) -> nth_error (rh R) h' = Some (Some i, A') -> h = h'.
(** What a getter is to answer, from the document as it is. *)
Definition now (jd : judge) (c : call) (R : rst) : option answer :=
  let node (h : nat) := match look R h with Some (Some (_, t), _) => Some t | _ => None end in
  let text (num : bool) h := match node h with Some t => ntext num (tvalue t) | None => None end in
  let key h := match node h with Some t => tkey t | None => None end in
  let decoded (o : option bytes) := match o with
                                    | None => Some (Text None)
                                    | Some b => option_map (fun d => Text (Some (before0 d))) (o_dec jd b)
                                    end in
  match c with
  | CGetText num false h => Some (Text (option_map before0 (text num h)))
  | CGetKey false h => Some (Text (option_map before0 (key h)))
  | CGetUnEscape h => decoded (text false h)
  | CGetUnEscapeKey h => decoded (key h)
  | CGetDouble h => match text true h with
                    | None => Some (Real None)
                    | Some b => option_map (fun d => Real (Some d)) (o_real jd b)
                    end
  | _ => None
  end.

(** ** What calls do to key and text of the nodes *)
Definition alike_t (t t' : tnode) : Prop := tkey t' = tkey t /\ forall num, ntext num (tvalue t') = ntext num (tvalue t).
Lemma alike_t_refl t : alike_t t t. Proof. split; auto. Qed.
Definition keeps (n : N) (P : N -> Prop) (G G' : forest) : Prop :=
  forall i t', i < n -> ~ P i -> G' i = Some t' -> exists t, G i = Some t /\ alike_t t t'.
Definition nobody : N -> Prop := fun _ => False.
Lemma keeps_refl n P G : keeps n P G G.
Proof. intros i t' _ _ E. exists t'. auto using alike_t_refl. Qed.
Lemma keeps_trans n P Q (T : N -> Prop) G G' G'' : keeps n P G G' -> keeps n Q G' G'' -> (forall i, P i \/ Q i -> T i) -> keeps n T G G''.
Proof.
  intros H K S i t'' L N E. destruct (K i t'' L) as (t' & E' & K1 & K2); auto. destruct (H i t' L) as (t & E0 & H1 & H2); auto.
  exists t. split; auto. split; [congruence|]. intro num. rewrite K2. apply H2.
Qed.
Lemma keeps_more n P (Q : N -> Prop) G G' : keeps n P G G' -> (forall i, P i -> Q i) -> keeps n Q G G'.
Proof. intros H S i t' L N. apply H; auto. Qed.
Lemma keeps_unhook n G c G' : unhook G c = Some G' -> keeps n nobody G G'.
Proof.
  unfold unhook. destruct (G c) as [t|] eqn:Ec; [|discriminate]. destruct (tpar t) as [p|]; [|intros [= <-]; apply keeps_refl].
  destruct (G p) as [tp|] eqn:Ep; [|discriminate]. destruct (tvalue tp) as [| | | |ob kids] eqn:Ev; try discriminate.
  destruct (split_at c kids) as [[l r]|]; [|discriminate]. destruct (_ && _); [|discriminate]. intros [= <-] i t' _ _ E. cbv beta in E.
  destruct (N.eqb_spec i c) as [->|Nc]; [injection E as <-; exists t; split; auto; split; auto|].
  destruct (N.eqb_spec i p) as [->|Np]; [injection E as <-; exists tp; split; auto; split; auto; intros []; cbn; rewrite Ev; auto|].
  destruct r as [|y r]; [exists t'; auto using alike_t_refl|]. destruct (N.eqb_spec i y) as [->|Ny]; [|exists t'; auto using alike_t_refl].
  destruct (G y) as [ty|]; [|discriminate]. injection E as <-. exists ty. split; auto. split; auto.
Qed.
Lemma keeps_hang n G ob a c G' : hang G ob a c = Some G' -> keeps n nobody G G'.
Proof.
  unfold hang. destruct (G a) as [ta|] eqn:Ea; [|discriminate]. destruct (G c) as [tc|] eqn:Ec; [|discriminate].
  destruct (tvalue ta) as [| | | |ob' kids] eqn:Ev; try discriminate. destruct (_ && _); [|discriminate]. intros [= <-] i t' _ _ E. cbv beta in E.
  destruct (N.eqb_spec i c) as [->|Nc]; [injection E as <-; exists tc; split; auto; split; auto|].
  destruct (N.eqb_spec i a) as [->|Np]; [injection E as <-; exists ta; split; auto; split; auto; intros []; cbn; rewrite Ev; auto|].
  exists t'. auto using alike_t_refl.
Qed.
Lemma keeps_hand n G a b kn G' : hand G a b kn = Some G' -> keeps n (eq a) G G'.
Proof.
  unfold hand. destruct (G a) as [ta|] eqn:Ea; [|discriminate]. destruct (G b) as [tb|] eqn:Eb; [|discriminate].
  destruct (_ && _); [|discriminate]. intros [= <-] i t' _ Na E. cbv beta in E.
  destruct (N.eqb_spec i b) as [->|Nc]; [discriminate|]. destruct (N.eqb_spec i a) as [->|Np]; [now elim Na|].
  destruct (isinN i _); [|exists t'; auto using alike_t_refl]. destruct (G i) as [ti|]; [|discriminate]. injection E as <-. exists ti. split; auto. split; auto.
Qed.
Lemma keeps_rekey n G i k : keeps n (eq i) G (rekeyN G i k).
Proof. intros x t' _ N E. unfold rekeyN in E. destruct (N.eqb_spec x i) as [->|Nx]; [now elim N|]. exists t'. auto using alike_t_refl. Qed.
Lemma keeps_takekey n G a b : keeps n (eq a) G (takekey G a b).
Proof.
  unfold takekey. destruct (G a) as [ta|]; [|apply keeps_refl]. destruct (G b) as [tb|]; [|apply keeps_refl].
  destruct (tkey ta); [|apply keeps_refl]. destruct (tkey tb); [|apply keeps_refl]. apply keeps_rekey.
Qed.
Lemma keeps_plant n G i j m : let '(_, g, _) := plant i j m in n <= m -> keeps n nobody G (over g G).
Proof.
  pose proof (plant_inside j i m) as H. destruct (plant i j m) as [[v g] n']. destruct H as (_ & H & _). intros L x t' Lx _ E. unfold over in E.
  destruct (g x) as [tx|] eqn:Ex; [|exists t'; auto using alike_t_refl]. exfalso. assert (K : g x <> None) by congruence. apply H in K. lia.
Qed.
Lemma keeps_put n G i t : keeps n (eq i) G (put G i t).
Proof. intros x t' _ N E. unfold put in E. destruct (N.eqb_spec x i) as [->|Nx]; [now elim N|]. exists t'. auto using alike_t_refl. Qed.
Lemma keeps_new n G i t : n <= i -> keeps n nobody G (put G i t).
Proof. intros L x t' Lx N E. unfold put in E. destruct (N.eqb_spec x i) as [->|Nx]; [lia|]. exists t'. auto using alike_t_refl. Qed.
Lemma keeps_duplicate R t j : keeps (rn R) nobody (rG R) (rG (duplicate R t j)).
Proof.
  unfold duplicate. pose proof (keeps_plant (rn R) (rG R) (rn R) j (rn R + 1)) as H. destruct (plant (rn R) j (rn R + 1)) as [[v g] n']. cbn [rG].
  eapply keeps_trans; [apply H; lia|apply keeps_new; lia|]. now intros i [|].
Qed.
Lemma keeps_sealed n R0 w R : keeps n nobody (rG R) (rG (sealed R0 w R)).
Proof.
  intros i t' _ _ E. cbn in E. destruct (_ || _); [|exists t'; auto using alike_t_refl]. destruct (rG R i) as [t|]; [|discriminate]. injection E as <-.
  exists t. split; auto. split; auto.
Qed.
Definition at_node (w : option (N * tnode)) : N -> Prop := fun i => match w with Some (a, _) => a = i | None => False end.
Lemma keeps_assign R h w j : keeps (rn R) (at_node w) (rG R) (rG (assign R h w j)).
Proof.
  unfold assign. destruct w as [[i t]|].
  - pose proof (keeps_plant (rn R) (rG R) i j (rn R)) as H. destruct (plant i j (rn R)) as [[v g] n']. cbn [rG].
    eapply keeps_trans; [apply H; lia|apply keeps_put|]. intros x [[]|<-]. reflexivity.
  - pose proof (keeps_plant (rn R) (rG R) (rn R) j (rn R + 1)) as H. destruct (plant (rn R) j (rn R + 1)) as [[v g] n']. cbn [rG with_handle].
    eapply keeps_trans; [apply H; lia|apply keeps_new; lia|]. now intros x [|].
Qed.
Lemma keeps_assign_key R h w k : keeps (rn R) (at_node w) (rG R) (rG (assign_key R h w k)).
Proof.
  unfold assign_key. destruct w as [[i t]|]; cbn [with_forest with_handle rG]; [apply keeps_rekey|]. eapply keeps_more; [apply keeps_new; lia|]. now intros x.
Qed.

(** ** ... and to the value objects *)
Definition others (D : list nat) (l l' : list (option N * nat)) : Prop :=
  (length l <= length l')%nat /\ forall h, (h < length l)%nat -> ~ In h D -> nth_error l' h = nth_error l h.
Lemma others_refl D l : others D l l. Proof. split; auto. Qed.
Lemma others_app D l x : others D l (l ++ x).
Proof. split; [rewrite app_length; lia|]. intros h L _. now apply nth_error_app1. Qed.
Lemma others_handle D R h o : In h D -> others D (rh R) (rh (with_handle R h o)).
Proof.
  intro H. cbn. destruct (nth_error (rh R) h) as [[o' A]|]; [|apply others_refl]. split; [now rewrite length_setn|]. intros h' L N. rewrite nth_setn.
  destruct (Nat.eqb_spec h' h) as [->|]; [now elim N|]. reflexivity.
Qed.
Lemma others_trans D l l' l'' : others D l l' -> others D l' l'' -> others D l l''.
Proof. intros [L1 H1] [L2 H2]. split; [lia|]. intros h L N. rewrite H2, H1; auto. lia. Qed.
Lemma others_assign R h w j : others [h] (rh R) (rh (assign R h w j)).
Proof.
  unfold assign. destruct w as [[i t]|].
  - destruct (plant i j (rn R)) as [[v g] n']. apply others_refl.
  - destruct (plant (rn R) j (rn R + 1)) as [[v g] n']. apply (others_handle [h] (mkR _ n' (rh R) (ru R)) h (Some (rn R))). now left.
Qed.
Lemma others_assign_key R h w k : others [h] (rh R) (rh (assign_key R h w k)).
Proof. unfold assign_key. destruct w as [[i t]|]; [apply others_refl|]. apply (others_handle [h] (mkR _ _ (rh R) (ru R)) h). now left. Qed.
Lemma duplicate_rh R t j : rh (duplicate R t j) = rh R.
Proof. unfold duplicate. now destruct (plant _ _ _) as [[v g] n']. Qed.
Lemma duplicate_n R t j : rn R < rn (duplicate R t j).
Proof. unfold duplicate. pose proof (plant_inside j (rn R) (rn R + 1)) as H. destruct (plant (rn R) j (rn R + 1)) as [[v g] n']. destruct H as (H & _). cbn. lia. Qed.

(** A value object not in [D] stands for the same node, and that has the same key and text. *)
Definition steady (D : list nat) (R R' : rst) : Prop :=
  (length (rh R) <= length (rh R'))%nat /\
  forall h i A t', (h < length (rh R))%nat -> ~ In h D -> nth_error (rh R') h = Some (Some i, A) -> rG R' i = Some t' ->
    nth_error (rh R) h = Some (Some i, A) /\ exists t, rG R i = Some t /\ alike_t t t'.
Definition bounded (R : rst) : Prop := forall h i A, nth_error (rh R) h = Some (Some i, A) -> i < rn R.
(** The nodes in [P] have no value object outside [D]. *)
Definition covers (D : list nat) (R : rst) (P : N -> Prop) : Prop := forall h i A, nth_error (rh R) h = Some (Some i, A) -> P i -> In h D.
Lemma steady_intro D R R' P : bounded R -> others D (rh R) (rh R') -> keeps (rn R) P (rG R) (rG R') -> covers D R P -> steady D R R'.
Proof.
  intros Bd [L O] K C. split; auto. intros h i A t' Lh N E G. rewrite O in E by auto. split; auto. apply (K i t'); eauto.
Qed.
Lemma covers_none D R : covers D R nobody. Proof. now intros h i A _. Qed.
Lemma covers_at D R h w A : single R -> look R h = Some (w, A) -> In h D -> covers D R (at_node w).
Proof.
  intros S L H h' i A' E P. destruct w as [[a t]|]; [|now elim P]. cbn in P. unfold look in L.
  destruct (nth_error (rh R) h) as [[[i0|] A0]|] eqn:Eh; try discriminate. destruct (rG R i0); [|discriminate]. injection L as Ea _ _. subst i0 a.
  now rewrite (S h' h i A' A0 E Eh).
Qed.
Lemma covers_eq D R h a t A : single R -> look R h = Some (Some (a, t), A) -> In h D -> covers D R (eq a).
Proof. intros S L H. exact (covers_at D R h _ A S L H). Qed.
Lemma spend_same R A n R1 : spend R A n = Some R1 -> rG R1 = rG R /\ rn R1 = rn R /\ rh R1 = rh R.
Proof. unfold spend. destruct (nth_error (ru R) A) as [u|]; [|discriminate]. destruct (_ <=? _); [|discriminate]. intros [= <-]. auto. Qed.
Lemma scratch_same R n R1 : scratch R n = Some R1 -> rG R1 = rG R /\ rn R1 = rn R /\ rh R1 = rh R.
Proof. unfold scratch. destruct (forallb _ _); [|discriminate]. intros [= <-]. auto. Qed.

(** Which value objects' answers a call makes void. *)
Definition voids (c : call) (x : answer) : list nat := match x with Value (Some _) => [] | _ => clears c x end.
Ltac halve :=
  repeat match goal with
         | H : None = Some _ |- _ => discriminate H
         | H : Some _ = Some _ |- _ => injection H; clear H; intros; subst
         | H : context [match ?y with _ => _ end] |- _ =>
             lazymatch type of H with _ = Some (_, _) => let e := fresh "e" in destruct y eqn:e; try discriminate H end
         end.
Lemma with_handle_rG R h o : rG (with_handle R h o) = rG R. Proof. reflexivity. Qed.
Lemma zrstep_steady jd c R x R' : zrstep jd c R = Some (x, R') -> single R -> bounded R -> steady (voids c x) R R'.
Proof.
  intros E Sg Bd.
  assert (Same : forall D R1, rG R1 = rG R /\ rn R1 = rn R /\ rh R1 = rh R -> steady D R R1).
  { intros D R1 (EG & En & Eh). apply (steady_intro D R R1 nobody); auto using covers_none; [rewrite Eh; apply others_refl|rewrite EG; apply keeps_refl]. }
  assert (Grow : forall D R1 o A, rG R1 = rG R /\ rn R1 = rn R /\ rh R1 = rh R -> steady D R (new_value R1 o A)).
  { intros D R1 o A (EG & En & Eh). apply (steady_intro D R _ nobody); auto using covers_none; [cbn; rewrite Eh; apply others_app|cbn; rewrite EG; apply keeps_refl]. }
  assert (Forest : forall D R1 G, rG R1 = rG R /\ rn R1 = rn R /\ rh R1 = rh R -> keeps (rn R) nobody (rG R) G -> steady D R (with_forest R1 G)).
  { intros D R1 G (EG & En & Eh) K. apply (steady_intro D R _ nobody); auto using covers_none. cbn. rewrite Eh. apply others_refl. }
  assert (Asg : forall h w A j R1, look R h = Some (w, A) -> rG R1 = rG R /\ rn R1 = rn R /\ rh R1 = rh R -> steady [h] R (assign R1 h w j)).
  { intros h w A j R1 L (EG & En & Eh). apply (steady_intro [h] R _ (at_node w)); auto.
    - rewrite <- Eh. apply others_assign.
    - rewrite <- EG, <- En. apply keeps_assign.
    - eapply covers_at; eauto. now left. }
  assert (Sea : forall h w A j R1, look R h = Some (w, A) -> rG R1 = rG R /\ rn R1 = rn R /\ rh R1 = rh R -> steady [h] R (sealed R1 w (assign R1 h w j))).
  { intros h w A j R1 L (EG & En & Eh). apply (steady_intro [h] R _ (at_node w)); auto.
    - cbn [sealed rh]. rewrite <- Eh. apply others_assign.
    - eapply keeps_trans; [rewrite <- EG, <- En; apply keeps_assign|apply keeps_sealed|]. intros i HH. unfold nobody in HH. intuition.
    - eapply covers_at; eauto. now left. }
  assert (Akey : forall h w A k R1, look R h = Some (w, A) -> rG R1 = rG R /\ rn R1 = rn R /\ rh R1 = rh R -> steady [h] R (assign_key R1 h w k)).
  { intros h w A k R1 L (EG & En & Eh). apply (steady_intro [h] R _ (at_node w)); auto.
    - rewrite <- Eh. apply others_assign_key.
    - rewrite <- EG, <- En. apply keeps_assign_key.
    - eapply covers_at; eauto. now left. }
  assert (Rr : rG R = rG R /\ rn R = rn R /\ rh R = rh R) by auto.
  destruct c; cbn [zrstep rstep] in E; unfold copy_text, give, zgive, set_if, seal_if, key_if in E; halve; cbn [voids clears];
    repeat match goal with
           | H : spend _ _ _ = Some _ |- _ => apply spend_same in H
           | H : scratch _ _ = Some _ |- _ => apply scratch_same in H
           end; eauto.

  - (* z_ValueCopy *)
    match goal with H : rG r = _ /\ _ |- _ => destruct H as (EG & En & Eh) end. apply (steady_intro [] R _ nobody); auto using covers_none.
    + cbn [new_value rh]. rewrite duplicate_rh, Eh. apply others_app.
    + cbn [new_value rG]. rewrite <- EG, <- En. apply keeps_duplicate.
  - (* z_ValueMove *) apply Forest; auto. eapply keeps_unhook; eauto.
  - (* z_ValueObjAddFast, z_ValueArrayAddFast *)
    match goal with H : checked _ _ _ = Some _ |- _ => unfold checked in H; destruct (read _ _ _); [|discriminate]; injection H as <- end.
    match goal with Hu : unhook _ ?c = Some _, Hh : hang _ _ _ _ = Some ?g |- _ =>
      assert (K : keeps (rn R) (eq c) (rG R) g);
        [eapply keeps_trans; [eapply keeps_unhook; exact Hu|eapply (keeps_trans (rn R) (eq c)); [|eapply keeps_hang; exact Hh|intros i HH; exact HH]|]|
         apply (steady_intro [hv] R _ (eq c)); auto;
           [apply (others_handle [hv] (with_forest R g) hv None); now left|eapply covers_eq; eauto; now left]] end.
    + destruct ob; [apply keeps_refl|apply keeps_rekey].
    + intros i HH. unfold nobody in HH. intuition.
  - (* z_ValueObjAdd, z_ValueArrayAdd *)
    match goal with H : rG r = _ /\ _ |- _ => destruct H as (EG & En & Eh) end.
    apply (steady_intro [] R _ nobody); auto using covers_none.
    + cbn [with_forest rh]. rewrite duplicate_rh, Eh. apply others_refl.
    + cbn [with_forest rG]. rewrite <- EG, <- En. eapply keeps_trans; [apply keeps_duplicate| |].
      * eapply keeps_trans; [|eapply keeps_hang; eassumption|intros i HH; exact HH].
        destruct ob; [apply (keeps_refl _ nobody)|]. intros i t' Li _ Ei. unfold rekeyN in Ei.
        destruct (N.eqb_spec i (rn r)); [lia|]. exists t'. auto using alike_t_refl.
      * intros i HH. unfold nobody in *. intuition.
  - (* z_ValueSetFast *)
    match goal with H : checked _ _ _ = Some _ |- _ => unfold checked in H; destruct (read _ _ _); [|discriminate]; injection H as <- end.
    match goal with Hh : hand _ ?a _ _ = Some ?g |- _ =>
      apply (steady_intro [h; hv] R _ (eq a)); auto;
        [apply (others_handle [h; hv] (with_forest R g) hv None); right; now left| |eapply covers_eq; eauto; now left] end.
    rewrite with_handle_rG. cbn [with_forest rG].
    match goal with Hu : unhook _ _ = Some _, Hh : hand _ _ _ _ = Some _ |- _ =>
      eapply keeps_trans; [eapply keeps_unhook; exact Hu| |]; [eapply keeps_trans; [apply keeps_takekey|eapply keeps_hand; exact Hh|intros i HH; exact HH]|] end.
    intros i HH. unfold nobody in HH. intuition.
  - (* z_ValueSetFast into an empty value object *)
    apply (steady_intro [h; hv] R _ nobody); auto using covers_none.
    + eapply others_trans; [apply (others_handle [h; hv] (with_forest R f) hv None); right; now left|]. apply others_handle. now left.
    + rewrite !with_handle_rG. cbn [with_forest rG]. eapply keeps_unhook; eauto.
  - (* z_ValueSet *)
    match goal with H : rG r = _ /\ _ |- _ => destruct H as (EG & En & Eh) end.
    match goal with Hh : hand _ ?a _ _ = Some _, L : look R h = Some _ |- _ =>
      apply (steady_intro [h] R _ (eq a)); auto; [| |eapply covers_eq; eauto; now left] end.
    + cbn [with_forest rh]. rewrite duplicate_rh, Eh. apply others_refl.
    + cbn [with_forest rG]. rewrite <- EG, <- En.
      eapply keeps_trans; [apply keeps_duplicate|eapply keeps_trans; [apply keeps_takekey|eapply keeps_hand; eassumption|intros i HH; exact HH]|].
      intros i HH. unfold nobody in HH. intuition.
  - (* z_ValueSet into an empty value object *)
    match goal with H : rG r = _ /\ _ |- _ => destruct H as (EG & En & Eh) end.
    apply (steady_intro [h] R _ nobody); auto using covers_none.
    + eapply others_trans; [|apply (others_handle [h] (duplicate r t j) h); now left]. rewrite duplicate_rh, Eh. apply others_refl.
    + rewrite with_handle_rG, <- EG, <- En. apply keeps_duplicate.
  - (* z_ValueArrayDel *) apply Forest; auto. match goal with H : rG r = _ /\ _ |- _ => destruct H as (EG & _) end. rewrite <- EG. eapply keeps_unhook; eauto.
  - (* z_ValueObjDel *) apply Forest; auto. match goal with H : rG r = _ /\ _ |- _ => destruct H as (EG & _) end. rewrite <- EG. eapply keeps_unhook; eauto.
Qed.

(** ** What is remembered is current *)
Definition current (jd : judge) (t : tnode) (k : kache) : Prop :=
  (forall num b x, kStr k = Some x -> ntext num (tvalue t) = Some b -> x = before0 b) /\
  (forall b x, kKey k = Some x -> tkey t = Some b -> x = before0 b) /\
  (forall b x, kUn k = Some x -> tkey t = Some b -> exists d, o_dec jd b = Some d /\ x = before0 d) /\
  match kAlt k with
  | KNone => True
  | KText x => exists b d, ntext false (tvalue t) = Some b /\ o_dec jd b = Some d /\ x = before0 d
  | KReal d => exists b, ntext true (tvalue t) = Some b /\ o_real jd b = Some d
  end.
Definition coherent (jd : judge) (R : rst) (K : list kache) : Prop :=
  length K = length (rh R) /\
  forall h i A t k, nth_error (rh R) h = Some (Some i, A) -> rG R i = Some t -> nth_error K h = Some k -> current jd t k.
Lemma current_clear jd t : current jd t kclear.
Proof. repeat split; cbn; intros; try discriminate. Qed.
Lemma current_alike jd t t' k : alike_t t t' -> current jd t k -> current jd t' k.
Proof.
  intros [E1 E2] (C1 & C2 & C3 & C4). repeat split; intros.
  - rewrite E2 in *. eauto.
  - rewrite E1 in *. eauto.
  - rewrite E1 in *. eauto.
  - destruct (kAlt k); auto; now rewrite E2.
Qed.
Lemma forget_length c x K : length (fold_left (fun K h => setn h kclear K) c K) = length K /\
  forall h, nth_error (fold_left (fun K h => setn h kclear K) c K) h = x -> x = None \/ x = Some kclear \/ (~ In h c /\ x = nth_error K h).
Proof.
  revert x K. induction c as [|a c IH]; intros x K; cbn [fold_left].
  - split; [reflexivity|]. intros h <-. right. right. split; [intros []|reflexivity].
  - destruct (IH x (setn a kclear K)) as [L H]. rewrite length_setn in L. split; auto. intros h E. destruct (H h E) as [->|[->|[N ->]]]; auto.
    rewrite nth_setn. destruct (Nat.eqb_spec h a) as [->|Na].
    + destruct (nth_error K a) eqn:Ek; cbn; auto.
    + right. right. split; auto. cbn. intuition.
Qed.
Lemma coherent_step jd c x R R' K : steady (voids c x) R R' -> (length (rh R') = length (forget c x K)) -> coherent jd R K -> coherent jd R' (forget c x K).
Proof.
  intros [L St] EL [LK C]. split; auto. intros h i A t' k Eh Et Ek.
  assert (Old : nth_error K h = Some k -> ~ In h (voids c x) -> current jd t' k).
  { intros E N. assert (Lh : (h < length (rh R))%nat) by (rewrite <- LK; apply nth_error_Some; congruence).
    destruct (St h i A t' Lh N Eh Et) as (E0 & t & Et0 & Al). eapply current_alike; eauto. }
  unfold forget, voids in *. destruct x as [| | | | | | | |[n|]|];
    try solve [match goal with H : nth_error (fold_left _ ?cc K) ?h = Some _ |- _ => destruct (proj2 (forget_length cc (Some k) K) h H) as [E|[E|[N E]]] end;
                  [discriminate|injection E as ->; apply current_clear|apply Old; auto]].
  destruct (Nat.ltb_spec h (length K)) as [Lh|Lh].
  - rewrite nth_error_app1 in Ek by auto. apply Old; auto.
  - rewrite nth_error_app2 in Ek by auto. destruct (h - length K)%nat as [|[|m]]; cbn in Ek; try discriminate. injection Ek as <-. apply current_clear.
Qed.
Lemma with_handle_len R h o : length (rh (with_handle R h o)) = length (rh R).
Proof. cbn. destruct (nth_error (rh R) h) as [[o' A]|]; auto. apply length_setn. Qed.
Lemma assign_len R h w j : length (rh (assign R h w j)) = length (rh R).
Proof.
  unfold assign. destruct w as [[i t]|].
  - now destruct (plant i j (rn R)) as [[v g] n'].
  - destruct (plant (rn R) j (rn R + 1)) as [[v g] n']. now rewrite with_handle_len.
Qed.
Lemma assign_key_len R h w k : length (rh (assign_key R h w k)) = length (rh R).
Proof. unfold assign_key. destruct w as [[i t]|]; auto. now rewrite with_handle_len. Qed.
Lemma zrstep_length jd c R x R' : zrstep jd c R = Some (x, R') -> length (rh R') = match x with Value (Some _) => S (length (rh R)) | _ => length (rh R) end.
Proof.
  intro E.
  destruct c; cbn [zrstep rstep] in E; unfold copy_text, give, zgive, set_if, seal_if, key_if, checked in E; halve;
    repeat match goal with
           | H : spend _ _ _ = Some _ |- _ => apply spend_same in H as (_ & _ & H)
           | H : scratch _ _ = Some _ |- _ => apply scratch_same in H as (_ & _ & H)
           end.
  all: repeat match goal with H : match read ?a ?b ?c with _ => _ end = Some _ |- _ => destruct (read a b c); [|discriminate H]; injection H as <- end.
  all: rewrite ?with_handle_len; cbn [sealed with_forest new_value rh]; rewrite ?assign_len, ?assign_key_len, ?duplicate_rh, ?app_length; cbn [length]; try reflexivity; try congruence.
  all: rewrite ?with_handle_len, ?duplicate_rh; try reflexivity; try congruence.
  all: match goal with H : rh _ = rh _ |- _ => rewrite H end; lia.
Qed.

(** ** One call *)
Lemma look_at R h i t A : look R h = Some (Some (i, t), A) -> nth_error (rh R) h = Some (Some i, A) /\ rG R i = Some t.
Proof.
  unfold look. destruct (nth_error (rh R) h) as [[[i0|] A0]|]; try discriminate. destruct (rG R i0) eqn:E; [|discriminate]. intros [= -> -> ->]. auto.
Qed.
Definition caching (c : call) : bool :=
  match c with CGetText _ false _ | CGetKey false _ | CGetUnEscape _ | CGetUnEscapeKey _ | CGetDouble _ => true | _ => false end.
Lemma brstep_plain jd c R K : caching c = false -> brstep jd c (R, K) = match zrstep jd c R with None => None | Some (x, R') => Some (x, (R', forget c x K)) end.
Proof. destruct c as [| | | | | | | | | | | | | | | | | |num f h| | | | | |f h| | | | | | | | | | | |]; try destruct f; try discriminate; reflexivity. Qed.
Lemma coherent_put jd R R1 K h i A t k k' : single R -> coherent jd R K -> rG R1 = rG R /\ rn R1 = rn R /\ rh R1 = rh R ->
  nth_error (rh R) h = Some (Some i, A) -> rG R i = Some t -> nth_error K h = Some k -> (current jd t k -> current jd t k') -> coherent jd R1 (setn h k' K).
Proof.
  intros Sg [LK C] (EG & _ & Eh) E Et Ek Cur. split; [now rewrite length_setn, Eh|]. intros h' i' A' t' x E' Et' Ex. rewrite EG, Eh in *.
  rewrite nth_setn in Ex. destruct (Nat.eqb_spec h' h) as [->|N]; [|eauto]. rewrite Ek in Ex. cbn in Ex. injection Ex as <-.
  assert (i' = i) by congruence. subst i'. assert (t' = t) by congruence. subst t'. eauto.
Qed.
Lemma brstep_current jd c R K x R' K' : brstep jd c (R, K) = Some (x, (R', K')) -> single R -> bounded R -> coherent jd R K ->
  coherent jd R' K' /\ forall y, now jd c R = Some y -> x = y.
Proof.
  intros E Sg Bd Co. destruct (caching c) eqn:Ec.
  - assert (Get : forall h w A k, look R h = Some (w, A) -> nth_error K h = Some k ->
              match w with Some (i, t) => current jd t k | None => True end).
    { intros h [[i t]|] A k L Ek; auto. apply look_at in L as [L1 L2]. destruct Co as [_ Co]. eauto. }
    destruct c as [| | | | | | | | | | | | | | | | | |num f h|h| | | |h|f h|h| | | | | | | | | | |]; try destruct f; try discriminate Ec; cbn [brstep] in E; unfold now;
      (destruct (look R h) as [[[[i t]|] A]|] eqn:L; [| |discriminate]); (destruct (nth_error K h) as [k|] eqn:Ek; [|discriminate]);
      specialize (Get h _ A k L Ek); cbn in Get; try (injection E as <- <- <-; split; [exact Co|intros y [= <-]; reflexivity]).
    all: apply look_at in L as [L1 L2]; pose proof Get as (C1 & C2 & C3 & C4).
    + (* string, number text *)
      destruct (ntext num (tvalue t)) as [b|] eqn:Eb; [|injection E as <- <- <-; split; [exact Co|intros y [= <-]; reflexivity]].
      unfold recall in E. destruct (kStr k) as [s|] eqn:Es.
      * injection E as <- <- <-. split; [exact Co|]. intros y [= <-]. rewrite (C1 num b s eq_refl Eb). reflexivity.
      * destruct (spend R A _) as [R1|] eqn:Sp; [|discriminate]. injection E as <- <- <-. apply spend_same in Sp. split; [|intros y [= <-]; reflexivity].
        eapply coherent_put; eauto. intros (D1 & D2 & D3 & D4). repeat split; cbn; auto. intros num' b' s [= <-] Eb'.
        destruct num, num'; destruct (tvalue t); cbn in Eb, Eb'; congruence.
    + (* decoded string *)
      destruct (ntext false (tvalue t)) as [b|] eqn:Eb; [|injection E as <- <- <-; split; [exact Co|intros y [= <-]; reflexivity]].
      destruct (kAlt k) as [|s|d] eqn:Es; [| |discriminate].
      * unfold recall in E. destruct (o_dec jd b) as [d|] eqn:Ed; [|discriminate]. destruct (spend R A _) as [R1|] eqn:Sp; [|discriminate].
        injection E as <- <- <-. apply spend_same in Sp. split; [|intros y [= <-]; reflexivity].
        eapply coherent_put; eauto. intros (D1 & D2 & D3 & D4). repeat split; cbn; auto. exists b, d. auto.
      * injection E as <- <- <-. split; [exact Co|]. destruct C4 as (b' & d & E1 & E2 & ->). assert (b' = b) by congruence. subst b'. rewrite E2. intros y [= <-]. reflexivity.
    + (* number *)
      destruct (ntext true (tvalue t)) as [b|] eqn:Eb; cbn [option_map] in E; [|injection E as <- <- <-; split; [exact Co|intros y [= <-]; reflexivity]].
      destruct (kAlt k) as [|s|d] eqn:Es; [|discriminate|].
      * destruct (o_real jd b) as [d|] eqn:Ed; [|discriminate]. destruct (tstop t); [|discriminate]. destruct (spend R A _) as [R1|] eqn:Sp; [|discriminate].
        injection E as <- <- <-. apply spend_same in Sp. split; [|intros y [= <-]; reflexivity].
        eapply coherent_put; eauto. intros (D1 & D2 & D3 & D4). repeat split; cbn; auto. exists b. auto.
      * injection E as <- <- <-. split; [exact Co|]. destruct C4 as (b' & E1 & E2). assert (b' = b) by congruence. subst b'. rewrite E2. intros y [= <-]. reflexivity.
    + (* key *)
      destruct (tkey t) as [b|] eqn:Eb; [|injection E as <- <- <-; split; [exact Co|intros y [= <-]; reflexivity]].
      unfold recall in E. destruct (kKey k) as [s|] eqn:Es.
      * injection E as <- <- <-. split; [exact Co|]. intros y [= <-]. rewrite (C2 b s eq_refl eq_refl). reflexivity.
      * destruct (spend R A _) as [R1|] eqn:Sp; [|discriminate]. injection E as <- <- <-. apply spend_same in Sp. split; [|intros y [= <-]; reflexivity].
        eapply coherent_put; eauto. intros (D1 & D2 & D3 & D4). repeat split; cbn; auto. intros b' s [= <-] Eb'. congruence.
    + (* decoded key *)
      destruct (tkey t) as [b|] eqn:Eb; [|injection E as <- <- <-; split; [exact Co|intros y [= <-]; reflexivity]].
      unfold recall in E. destruct (kUn k) as [s|] eqn:Es.
      * injection E as <- <- <-. split; [exact Co|]. destruct (C3 b s eq_refl eq_refl) as (d & E2 & ->). rewrite E2. intros y [= <-]. reflexivity.
      * destruct (o_dec jd b) as [d|] eqn:Ed; [|discriminate]. destruct (spend R A _) as [R1|] eqn:Sp; [|discriminate]. injection E as <- <- <-. apply spend_same in Sp.
        split; [|intros y [= <-]; reflexivity]. eapply coherent_put; eauto. intros (D1 & D2 & D3 & D4). repeat split; cbn; auto.
        intros b' s [= <-] Eb'. exists d. split; congruence.
  - rewrite brstep_plain in E by exact Ec. destruct (zrstep jd c R) as [[x' R1]|] eqn:Ez; [|discriminate]. injection E as -> -> <-. split.
    + apply coherent_step with R; auto; [eapply zrstep_steady; eauto|]. rewrite (zrstep_length _ _ _ _ _ Ez). destruct Co as [LK _].
      unfold forget. destruct x as [| | | | | | | |[n|]|]; rewrite ?app_length, ?(proj1 (forget_length _ (Some kclear) K)); cbn [length]; lia.
    + intros y Hy. unfold now in Hy. destruct c as [| | | | | | | | | | | | | | | | | |num f h| | | | | |f h| | | | | | | | | | | |]; try destruct f; discriminate.
Qed.

(** ** Programs *)
Lemma brrun_app jd p q RK : brrun jd (p ++ q) RK =
  match brrun jd p RK with
  | None => None
  | Some (xs, RK1) => match brrun jd q RK1 with None => None | Some (ys, RK2) => Some (xs ++ ys, RK2) end
  end.
Proof.
  revert RK. induction p as [|c p IH]; intro RK; cbn [brrun app].
  - destruct (brrun jd q RK) as [[ys RK2]|]; reflexivity.
  - destruct (brstep jd c RK) as [[x RK1]|]; [|reflexivity]. rewrite IH. destruct (brrun jd p RK1) as [[xs RK2]|]; [|reflexivity].
    destruct (brrun jd q RK2) as [[ys RK3]|]; reflexivity.
Qed.
Lemma brrun_length jd p RK ys RK1 : brrun jd p RK = Some (ys, RK1) -> length ys = length p.
Proof.
  revert RK ys. induction p as [|c p IH]; intros RK ys; cbn [brrun]; intro E.
  - now injection E as <-.
  - destruct (brstep jd c RK) as [[x RK2]|]; [|discriminate]. destruct (brrun jd p RK2) as [[zs RK3]|] eqn:E2; [|discriminate].
    injection E as <- ->. cbn. f_equal. eauto.
Qed.
Lemma represents_bounded R E s : represents R E s -> bounded R.
Proof. intros (nm & F & S) h i A H. destruct (sm_handle _ _ _ _ _ S h (Some i) A H) as (v & a & _ & _ & _ & L). now apply L. Qed.
Lemma brrun_bounded jd cs xs R K : correct jd -> brrun jd cs (rstart, []) = Some (xs, (R, K)) -> bounded R.
Proof.
  intros J H. destruct (bprogram_most jd J cs xs R K H (bmost jd cs (rstart, []))) as (E & B & s & _ & Rp); [lia|]. eapply represents_bounded; eauto.
Qed.
(** At no time before the end do two value objects stand for the same node. *)
Definition always_single (jd : judge) (cs : list call) : Prop :=
  forall p q xs R K, cs = p ++ q -> q <> [] -> brrun jd p (rstart, []) = Some (xs, (R, K)) -> single R.
Lemma brrun_coherent jd cs xs R K : correct jd -> always_single jd cs -> brrun jd cs (rstart, []) = Some (xs, (R, K)) -> coherent jd R K.
Proof.
  intro J. revert xs R K. induction cs as [|c cs IH] using rev_ind; intros xs R K Al H.
  - injection H as <- <- <-. split; auto. intros h i A t k E. destruct h; discriminate.
  - rewrite brrun_app in H. destruct (brrun jd cs (rstart, [])) as [[ys [R1 K1]]|] eqn:E1; [|discriminate]. cbn [brrun] in H.
    destruct (brstep jd c (R1, K1)) as [[x [R2 K2]]|] eqn:E2; [|discriminate]. injection H as <- <- <-.
    eapply brstep_current; eauto.
    + apply (Al cs [c] ys R1 K1); auto; discriminate.
    + eapply brrun_bounded; eauto.
    + eapply IH; eauto. intros p q zs R0 K0 E N. apply (Al p (q ++ [c]) zs R0 K0); [|now destruct q]. now rewrite E, app_assoc.
Qed.
(** So every getter answers the text, key or number that is there when it is called. *)
Theorem answers_now jd cs xs R K : correct jd -> always_single jd cs -> brrun jd cs (rstart, []) = Some (xs, (R, K)) ->
  forall p c q, cs = p ++ c :: q -> exists ys R1 K1, brrun jd p (rstart, []) = Some (ys, (R1, K1)) /\
    forall y, now jd c R1 = Some y -> nth_error xs (length p) = Some y.
Proof.
  intros J Al H p c q ->. rewrite brrun_app in H. destruct (brrun jd p (rstart, [])) as [[ys [R1 K1]]|] eqn:E1; [|discriminate]. cbn [brrun] in H.
  destruct (brstep jd c (R1, K1)) as [[x [R2 K2]]|] eqn:E2; [|discriminate]. destruct (brrun jd q (R2, K2)) as [[zs RK]|] eqn:E3; [|discriminate].
  injection H as <- ->. exists ys, R1, K1. split; auto. intros y Hy.
  pose proof (brrun_length _ _ _ _ _ E1) as Ly.
  rewrite nth_error_app2, Ly, Nat.sub_diag by lia. cbn. f_equal.
  eapply brstep_current; eauto.
  - apply (Al p (c :: q) ys R1 K1); auto; discriminate.
  - eapply brrun_bounded; eauto.
  - apply (brrun_coherent jd p ys R1 K1 J); [|exact E1]. intros p' q' zs' R0 K0 E N. apply (Al p' (q' ++ c :: q) zs' R0 K0); [now rewrite E, <- app_assoc|now destruct q'].
Qed.
