(** Which blocks are alive after a program: the caller's, and those of allocators that
    were not released. *)
From Verif Require Import Base Spec Lex Alloc AllocProofs Mem MemProofs Api Double Vocab Scene Dom CacheProofs Hist HistRun HistStep HistCache HistAll HistJudge HistMany HistWorld.

(** Block [b] belongs to allocator [A]. *)
Definition owns (s : st) (A b : N) : Prop := exists ar k, sallocs s A = Some ar /\ In k ar /\ ckBlk k = b.
Record tidy (s : st) : Prop := {
  ti_next : forall A, snext s <= A -> sallocs s A = None;
  ti_root : forall A ar, sallocs s A = Some ar -> exists l, map ckBlk ar = l ++ [A]
}.
Record grows (s s' : st) : Prop := {
  gr_tidy : tidy s';
  gr_owns : forall A b, owns s A b -> owns s' A b;
  gr_live : forall b, sbsize s' b <> None -> sbsize s b <> None \/ exists A, owns s' A b;
  gr_same : forall A, sallocs s' A <> None -> sallocs s A <> None
}.
Lemma grows_refl s : tidy s -> grows s s.
Proof. intro T. constructor; auto. Qed.
Lemma grows_trans s s1 s2 : grows s s1 -> grows s1 s2 -> grows s s2.
Proof.
  intros G H. constructor; [apply H| | |].
  - intros A b K. now apply (gr_owns _ _ H), (gr_owns _ _ G).
  - intros b K. destruct (gr_live _ _ H b K) as [K1|K1]; auto. destruct (gr_live _ _ G b K1) as [K2|(A & K2)]; auto. right. exists A. now apply (gr_owns _ _ H).
  - intros A K. now apply (gr_same _ _ G), (gr_same _ _ H).
Qed.
(** A state with the same allocators and no new blocks. *)
Lemma grows_same s s' : tidy s -> sallocs s' = sallocs s -> snext s <= snext s' -> (forall b, sbsize s' b <> None -> sbsize s b <> None) -> grows s s'.
Proof.
  intros T E L H. constructor.
  - constructor; rewrite E; [|apply (ti_root _ T)]. intros A K. apply (ti_next _ T). lia.
  - unfold owns. rewrite E. auto.
  - auto.
  - rewrite E. auto.
Qed.

Definition keepsO {X} (m : M X) : Prop := forall s x s', tidy s -> m s = Ok (x, s') -> grows s s'.
Lemma ko_same X (m : M X) : (forall s x s', m s = Ok (x, s') -> sallocs s' = sallocs s /\ sbsize s' = sbsize s /\ snext s' = snext s) -> keepsO m.
Proof. intros H s x s' T E. destruct (H s x s' E) as (E1 & E2 & E3). apply grows_same; auto; [rewrite E3; lia|now rewrite E2]. Qed.
Lemma ko_ret X (x : X) : keepsO (ret x). Proof. apply ko_same. intros s y s' [= <- <-]. auto. Qed.
Lemma ko_fail X e : keepsO (@fail X e). Proof. intros s y s' _ H. discriminate. Qed.
Lemma ko_lift X (r : res X) : keepsO (lift r).
Proof. apply ko_same. intros s y s' H. unfold lift in H. destruct r; [|discriminate]. now injection H as <- <-. Qed.
Lemma ko_get X (f : st -> option X) e : keepsO (get f e).
Proof. apply ko_same. intros s y s' H. unfold get in H. destruct (f s); [|discriminate]. now injection H as <- <-. Qed.
Lemma ko_bind X Y (m : M X) (f : X -> M Y) : keepsO m -> (forall x, keepsO (f x)) -> keepsO (bind m f).
Proof.
  intros H K s y s' T E. unfold bind in E. destruct (m s) as [[x s1]|e] eqn:E1; [|discriminate].
  pose proof (H s x s1 T E1) as G. exact (grows_trans _ _ _ G (K x s1 y s' (gr_tidy _ _ G) E)).
Qed.
Lemma ko_alloc A n : keepsO (zj_allocatorAlloc A n).
Proof.
  intros s x s' T H. unfold zj_allocatorAlloc in H. destruct (sallocs s A) as [ar|] eqn:EA; [|discriminate].
  destruct (arena_alloc (snext s) ar (u32 n)) as [o|e] eqn:Eo; [|discriminate].
  destruct (match onew o with Some m => updN (sbsize s) (snext s) (Some m) | None => sbsize s end (fst (oaddr o))) as [tot|]; [|discriminate].
  destruct (tot <? _); [discriminate|]. injection H as <- <-.
  assert (LA : A < snext s). { destruct (N.lt_ge_cases A (snext s)) as [|L]; auto. rewrite (ti_next _ T A L) in EA. discriminate. }
  destruct (ti_root _ T A ar EA) as (l0 & El).
  assert (K : (forall b, In b (map ckBlk ar) -> In b (map ckBlk (oarena o))) /\ (exists l1, map ckBlk (oarena o) = l1 ++ [A]) /\
    (onew o <> None -> In (snext s) (map ckBlk (oarena o)))).
  { unfold arena_alloc in Eo. destruct ar as [|cur rest]; [discriminate|]. destruct (_ <? _) in Eo.
    - destruct (grow _ _ _) as [z|]; [|discriminate]. injection Eo as <-. cbn [oarena onew map ckBlk]. split; [|split].
      + intros b Hb. now right.
      + exists (snext s :: l0). cbn [map] in El. now rewrite El.
      + intros _. now left.
    - injection Eo as <-. cbn [oarena onew map ckBlk]. cbn [map] in El. split; [auto|]. split; [eauto|]. now intros []. }
  destruct K as (K1 & K2 & K3). constructor; cbn [sallocs sbsize snext].
  - constructor; cbn [sallocs snext].
    + intros B L. rewrite updN_neq by (destruct (onew o); lia). apply (ti_next _ T). destruct (onew o); lia.
    + intros B ar' HB. destruct (N.eq_dec B A) as [->|D]; [rewrite updN_eq in HB; injection HB as <-; auto|]. rewrite updN_neq in HB by auto. now apply (ti_root _ T).
  - intros B b (ar' & k & H1 & H2 & H3). destruct (N.eq_dec B A) as [->|D].
    + rewrite EA in H1. injection H1 as <-. assert (Hb : In b (map ckBlk ar)) by (rewrite <- H3; now apply in_map).
      apply K1, in_map_iff in Hb as (k' & Ek & Hk). exists (oarena o), k'. cbn [sallocs]. now rewrite updN_eq.
    + exists ar', k. cbn [sallocs]. now rewrite updN_neq.
  - intros b Hb. destruct (onew o) as [m|] eqn:En; auto. destruct (N.eq_dec b (snext s)) as [->|D].
    + right. exists A. assert (Hs : In (snext s) (map ckBlk (oarena o))) by (apply K3; discriminate).
      apply in_map_iff in Hs as (k' & Ek & Hk). exists (oarena o), k'. cbn [sallocs]. now rewrite updN_eq.
    + rewrite updN_neq in Hb by auto. auto.
  - intros B HB. destruct (N.eq_dec B A) as [->|D]; [congruence|]. now rewrite updN_neq in HB.
Qed.
Lemma ko_store a n b : keepsO (store a n b).
Proof. apply ko_same. intros s x s' H. unfold store in H. destruct (_ <? _); [discriminate|]. now injection H as <- <-. Qed.
Lemma ko_load a n : keepsO (load a n).
Proof. apply ko_get. Qed.
Lemma ko_putNode a n : keepsO (putNode a n).
Proof. apply ko_same. intros s x s' H. now injection H as <- <-. Qed.
Lemma ko_putVal a n : keepsO (putVal a n).
Proof. apply ko_same. intros s x s' H. now injection H as <- <-. Qed.
Lemma ko_putZ a n : keepsO (putZ a n).
Proof. apply ko_same. intros s x s' H. now injection H as <- <-. Qed.
Create HintDb keepo.
#[local] Hint Resolve ko_alloc ko_store ko_load ko_putNode ko_putVal ko_putZ : keepo.
Ltac ostep :=
  match goal with
  | |- keepsO (ret _) => apply ko_ret
  | |- keepsO (fail _) => apply ko_fail
  | |- keepsO (lift _) => apply ko_lift
  | |- keepsO (get _ _) => apply ko_get
  | |- keepsO (bind _ _) => apply ko_bind; [|intro]
  | |- keepsO (match ?x with _ => _ end) => destruct x
  | |- keepsO (fun _ => _) => apply ko_same; let H := fresh in intros ? ? ? H; cbv beta in H; first [injection H as <- <-; auto]
  | H : _ |- _ => exact H || apply H
  | |- _ => solve [auto with keepo nocore]
  | |- keepsO ?m => let h := heads m in unfold h; cbv beta zeta
  end.
Ltac owned := cbv zeta; repeat ostep.
Lemma ko_parse_loop zn A p tot root : forall fuel m n rest, keepsO (parse_loop zn fuel A p tot root m n rest).
Proof. induction fuel as [|f IH]; intros; cbn [parse_loop]; owned. Qed.
Lemma ko_stringify_loop root str : forall fuel m n, keepsO (stringify_loop fuel root str m n).
Proof. induction fuel as [|f IH]; intros; cbn [stringify_loop]; owned. Qed.
Lemma ko_find_node test : (forall n, keepsO (test n)) -> forall fuel w, keepsO (find_node fuel test w).
Proof. intro T. induction fuel as [|f IH]; intros; cbn [find_node]; owned. Qed.
Lemma ko_nth_node idx : forall fuel i w, keepsO (nth_node fuel i idx w).
Proof. induction fuel as [|f IH]; intros; cbn [nth_node]; owned. Qed.
Lemma ko_copy_loop A root : forall fuel m n w, keepsO (copy_loop fuel A root m n w).
Proof. induction fuel as [|f IH]; intros; cbn [copy_loop]; owned. Qed.
Lemma ko_adopt p : forall fuel w, keepsO (adopt fuel p w).
Proof. induction fuel as [|f IH]; intros; cbn [adopt]; owned. Qed.
#[local] Hint Resolve ko_parse_loop ko_stringify_loop ko_nth_node ko_copy_loop ko_adopt : keepo.

(** A call with a buffer of the caller: the buffer is the first new block. *)
Lemma buf_live t s p s1 : user_buf t s = Ok (p, s1) -> fst p = snext s /\ (tidy s -> tidy s1) /\ sallocs s1 = sallocs s /\
  forall b, sbsize s1 b <> None -> sbsize s b <> None \/ b = snext s.
Proof.
  intro H. unfold user_buf in H. destruct (_ <=? _); [discriminate|]. injection H as <- <-. cbn [fst snext sallocs sbsize]. split; auto. split; [|split; auto].
  - intro T. constructor; cbn [snext sallocs]; [|apply (ti_root _ T)]. intros A L. apply (ti_next _ T). lia.
  - intros b Hb. destruct (N.eq_dec b (snext s)) as [->|D]; auto. rewrite updN_neq in Hb by auto. auto.
Qed.
Lemma keep_live X t (m : addr -> M X) s x s' : (forall p, keepsO (m p)) -> tidy s -> keep t m s = Ok (x, s') ->
  tidy s' /\ (forall A b, owns s A b -> owns s' A b) /\ (forall b, sbsize s' b <> None -> sbsize s b <> None \/ b = snext s \/ exists A, owns s' A b) /\
  forall A, sallocs s' A <> None -> sallocs s A <> None.
Proof.
  intros K T H. unfold keep, bind in H. destruct (user_buf t s) as [[p s1]|e] eqn:E; [|discriminate]. destruct (buf_live _ _ _ _ E) as (Ep & T1 & Ea & L).
  pose proof (K p s1 x s' (T1 T) H) as G. split; [apply G|]. split; [|split].
  - intros A b (ar & k & O). apply (gr_owns _ _ G). exists ar, k. now rewrite Ea.
  - intros b Hb. destruct (gr_live _ _ G b Hb) as [H1|H1]; auto. destruct (L b H1); auto.
  - intros A HA. rewrite <- Ea. now apply (gr_same _ _ G).
Qed.
Lemma lend_live X t (m : addr -> M X) : (forall p, keepsO (m p)) -> keepsO (lend t m).
Proof.
  intros K s x s' T H. unfold lend, bind in H. destruct (user_buf t s) as [[p s1]|e] eqn:E; [|discriminate]. destruct (buf_live _ _ _ _ E) as (Ep & T1 & Ea & L).
  destruct (m p s1) as [[r s2]|e] eqn:E2; [|discriminate]. pose proof (K p s1 r s2 (T1 T) E2) as G. unfold user_free in H.
  destruct (sbsize s2 (fst p)); [|discriminate]. unfold ret in H. injection H as <- <-. constructor; cbn [sallocs sbsize snext].
  - constructor; [exact (ti_next _ (gr_tidy _ _ G))|exact (ti_root _ (gr_tidy _ _ G))].
  - intros A b (ar & k & O). apply (gr_owns _ _ G). exists ar, k. now rewrite Ea.
  - intros b Hb. destruct (N.eq_dec b (fst p)) as [->|D]; [rewrite updN_eq in Hb; now elim Hb|]. rewrite updN_neq in Hb by auto.
    destruct (gr_live _ _ G b Hb) as [H1|H1]; auto. destruct (L b H1); auto. congruence.
  - intros A HA. rewrite <- Ea. now apply (gr_same _ _ G).
Qed.
Ltac ostep ::=
  match goal with
  | |- keepsO (ret _) => apply ko_ret
  | |- keepsO (fail _) => apply ko_fail
  | |- keepsO (lift _) => apply ko_lift
  | |- keepsO (get _ _) => apply ko_get
  | |- keepsO (bind _ _) => apply ko_bind; [|intro]
  | |- keepsO (lend _ _) => apply lend_live; intro
  | |- keepsO (find_node _ _ _) => apply ko_find_node; intro
  | |- keepsO (match ?x with _ => _ end) => destruct x
  | |- keepsO (fun _ => _) => apply ko_same; let H := fresh in intros ? ? ? H; cbv beta in H; first [injection H as <- <-; auto]
  | H : _ |- _ => exact H || apply H
  | |- _ => solve [auto with keepo nocore]
  | |- keepsO ?m => let h := heads m in unfold h; cbv beta zeta
  end.

(** The calls that leave a buffer of the caller in use. *)
Definition keeps_buffer (c : call) : bool :=
  match c with
  | CParse PFast _ _ _ => true
  | CSetText _ k _ _ | CSetKey k _ _ => kept_kind k
  | _ => false
  end.
Lemma cstep_owned fuel c E : keeps_buffer c = false -> c <> CNewAllocator -> keepsO (cstep fuel c E).
Proof.
  intros H N. destruct c; cbn [cstep]; try (now elim N); try (owned; fail).
  - destruct k; try discriminate; owned.
  - cbn [keeps_buffer] in H. rewrite H. cbn [pass]. destruct k, num; owned.
  - cbn [keeps_buffer] in H. rewrite H. cbn [pass]. destruct k; owned.
Qed.

(** ** What a call answers with *)
Definition gives {X} (m : M X) (Q : X -> Prop) : Prop := forall s x s', m s = Ok (x, s') -> Q x.
Lemma gi_bind X Y (m : M X) (f : X -> M Y) Q : (forall x, gives (f x) Q) -> gives (bind m f) Q.
Proof. intros K s y s' E. unfold bind in E. destruct (m s) as [[x s1]|e] eqn:E1; [|discriminate]. eapply K; eauto. Qed.
Lemma gi_ret X (x : X) (Q : X -> Prop) : Q x -> gives (ret x) Q.
Proof. intros H s y s' [= <- <-]. auto. Qed.
Lemma gi_env X E (f : X -> answer) m (Q : answer * env -> Prop) : (forall x, Q (f x, E)) -> gives (with_env E f m) Q.
Proof. intro H. unfold with_env. apply gi_bind. intro x. now apply gi_ret. Qed.
Lemma out_value_ea E o : ea (snd (out_value E o)) = ea E.
Proof. now destruct o. Qed.
Lemma cstep_ea fuel c E : c <> CNewAllocator -> gives (cstep fuel c E) (fun xe => ea (snd xe) = ea E).
Proof.
  intro N. destruct c; cbn [cstep]; try (now elim N); repeat (apply gi_bind; intro); try (apply gi_env; reflexivity); apply gi_ret; first [reflexivity | apply out_value_ea].
Qed.

Lemma hof_pure E h s v s1 : hof E h s = Ok (v, s1) -> s1 = s.
Proof. unfold hof. destruct (nth_error (eh E) h); [|discriminate]. now intros [= _ <-]. Qed.
Lemma with_env_inv X E (f : X -> answer) m s xe s' : with_env E f m s = Ok (xe, s') -> exists x, m s = Ok (x, s').
Proof. unfold with_env, bind. destruct (m s) as [[x s1]|e]; [|discriminate]. intros [= _ <-]. eauto. Qed.
Definition call_effect (c : call) (E : env) (s : st) (E' : env) (s' : st) : Prop :=
  tidy s' /\ (forall A b, owns s A b -> owns s' A b) /\
  (forall b, sbsize s' b <> None -> sbsize s b <> None \/ (keeps_buffer c = true /\ b = snext s) \/ exists A, owns s' A b) /\
  (forall A, sallocs s' A <> None -> sallocs s A <> None \/ In A (ea E')) /\ incl (ea E) (ea E').
Lemma cstep_live fuel c E s xe s' : tidy s -> cstep fuel c E s = Ok (xe, s') -> call_effect c E s (snd xe) s'.
Proof.
  intros T H. destruct (keeps_buffer c) eqn:Kb.
  - assert (Nc : c <> CNewAllocator) by (intros ->; discriminate). pose proof (cstep_ea fuel c E Nc s xe s' H) as Ee. cbv beta in Ee.
    assert (K : exists X t (m : addr -> M X) x, (forall p, keepsO (m p)) /\ keep t m s = Ok (x, s')).
    { destruct c; try discriminate; cbn [cstep] in H; unfold bind at 1 in H; destruct (hof E h s) as [[v s1]|e] eqn:Eh; try discriminate; apply hof_pure in Eh as ->;
        apply with_env_inv in H as (x & H).
      - destruct k; try discriminate. eexists bool, _, _, x. split; [|exact H]. intro p; cbv beta; owned.
      - cbn [keeps_buffer] in Kb. rewrite Kb in H. cbn [pass] in H. eexists bool, _, _, x. split; [|exact H]. intro p; cbv beta. destruct k, num; try discriminate; owned.
      - cbn [keeps_buffer] in Kb. rewrite Kb in H. cbn [pass] in H. eexists bool, _, _, x. split; [|exact H]. intro p; cbv beta. destruct k; try discriminate; owned. }
    destruct K as (X & t & m & x & Km & K). destruct (keep_live _ _ _ _ _ _ Km T K) as (K1 & K2 & K3 & K4).
    split; auto. split; auto. split; [|split; [|rewrite Ee; apply incl_refl]].
    + intros b Hb. destruct (K3 b Hb) as [|[]]; auto.
    + intros A HA. left. auto.
  - assert (D : c = CNewAllocator \/ c <> CNewAllocator) by (destruct c; auto; right; discriminate). destruct D as [->|Nc].
    + cbn [cstep] in H. unfold bind, zj_NewAllocator, ret in H. injection H as <- <-. cbn [snd ea].
      split; [|split; [|split; [|split]]].
      * constructor; cbn [sallocs snext].
        -- intros A L. rewrite updN_neq by lia. apply (ti_next _ T). lia.
        -- intros A ar HA. destruct (N.eq_dec A (snext s)) as [->|D]; [rewrite updN_eq in HA; injection HA as <-; exists []; reflexivity|].
           rewrite updN_neq in HA by auto. now apply (ti_root _ T).
      * intros A b (ar & k & H1 & H2). exists ar, k. cbn [sallocs]. split; auto. rewrite updN_neq; auto. intros ->. rewrite (ti_next _ T (snext s)) in H1 by lia. discriminate.
      * intros b Hb. cbn [sbsize] in Hb. destruct (N.eq_dec b (snext s)) as [->|D]; [|rewrite updN_neq in Hb by auto; auto].
        right. right. exists (snext s), [first_chunk (snext s)], (first_chunk (snext s)). cbn [sallocs]. rewrite updN_eq. split; auto. split; [now left|reflexivity].
      * intros A HA. cbn [sallocs] in HA. destruct (N.eq_dec A (snext s)) as [->|D]; [right; apply in_or_app; right; now left|]. rewrite updN_neq in HA by auto. auto.
      * apply incl_appl, incl_refl.
    + pose proof (cstep_ea fuel c E Nc s xe s' H) as Ee. cbv beta in Ee. pose proof (cstep_owned fuel c E Kb Nc s xe s' T H) as G.
      split; [apply G|]. split; [apply G|]. split; [|split; [|rewrite Ee; apply incl_refl]].
      * intros b Hb. destruct (gr_live _ _ G b Hb); auto.
      * intros A HA. left. now apply (gr_same _ _ G).
Qed.

(** ** Releases *)
Lemma free_blks_result l : forall s x s', free_blks l s = Ok (x, s') ->
  sallocs s' = sallocs s /\ snext s' = snext s /\ (forall b, sbsize s' b <> None -> sbsize s b <> None /\ ~ In b l).
Proof.
  induction l as [|a l IH]; intros s x s' H; cbn [free_blks] in H; [injection H as <- <-; auto|].
  unfold bind in H. destruct (free_blk a s) as [[u s1]|e] eqn:E; [|discriminate]. unfold free_blk in E. destruct (sbsize s a); [|discriminate]. injection E as <- <-.
  destruct (IH _ _ _ H) as (H1 & H2 & H3). cbn [sallocs snext sbsize] in *. split; auto. split; auto. intros b Hb. destruct (H3 b Hb) as [K1 K2].
  destruct (N.eq_dec b a) as [->|D]; [rewrite updN_eq in K1; now elim K1|]. rewrite updN_neq in K1 by auto. split; auto. intros [->|K]; auto.
Qed.
Lemma release_result A s x s' : tidy s -> zj_ReleaseAllocator A s = Ok (x, s') ->
  tidy s' /\ (forall B, B <> A -> sallocs s' B = sallocs s B) /\ sallocs s' A = None /\
  (forall b, sbsize s' b <> None -> sbsize s b <> None /\ ~ owns s A b).
Proof.
  intros T H. unfold zj_ReleaseAllocator, bind in H. unfold get in H. destruct (sallocs s A) as [ar|] eqn:EA; [|discriminate].
  destruct (ti_root _ T A ar EA) as (l & El). rewrite El, rev_app_distr in H. cbn [rev app] in H.
  destruct (free_blks (rev l) s) as [[u s1]|e] eqn:E1; [|discriminate]. destruct (free_blks_result _ _ _ _ E1) as (K1 & K2 & K3).
  destruct (free_blk A s1) as [[u' s2]|e] eqn:E2; [|discriminate]. unfold free_blk in E2. destruct (sbsize s1 A); [|discriminate]. injection E2 as _ <-.
  injection H as <- <-. cbn [sallocs snext sbsize]. rewrite K1, K2. split; [|split; [|split]].
  - constructor; cbn [sallocs snext].
    + intros B L. destruct (N.eq_dec B A) as [->|D]; [apply updN_eq|]. rewrite updN_neq by auto. now apply (ti_next _ T).
    + intros B ar' HB. destruct (N.eq_dec B A) as [->|D]; [rewrite updN_eq in HB; discriminate|]. rewrite updN_neq in HB by auto. now apply (ti_root _ T).
  - intros B D. now rewrite updN_neq.
  - apply updN_eq.
  - intros b Hb. destruct (N.eq_dec b A) as [->|D]; [rewrite updN_eq in Hb; now elim Hb|]. rewrite updN_neq in Hb by auto. destruct (K3 b Hb) as [L1 L2]. split; auto.
    intros (ar' & k & O1 & O2 & O3). rewrite EA in O1. injection O1 as <-. assert (Hin : In b (map ckBlk ar)) by (rewrite <- O3; now apply in_map).
    rewrite El in Hin. apply in_app_iff in Hin as [Hin|[Hin|[]]]; [|congruence]. apply L2. now rewrite <- in_rev.
Qed.
Lemma release_all_result l : forall s x s', tidy s -> release_all l s = Ok (x, s') ->
  tidy s' /\ (forall B, sallocs s' B <> None -> ~ In B l /\ sallocs s' B = sallocs s B) /\
  (forall b, sbsize s' b <> None -> sbsize s b <> None /\ forall A, In A l -> ~ owns s A b) /\ (forall B, ~ In B l -> sallocs s' B = sallocs s B).
Proof.
  induction l as [|A l IH]; intros s x s' T H; cbn [release_all] in H; [injection H as <- <-; intuition auto|].
  unfold bind in H. destruct (zj_ReleaseAllocator A s) as [[u s1]|e] eqn:E; [|discriminate].
  destruct (release_result _ _ _ _ T E) as (T1 & R1 & R2 & R3). destruct (IH _ _ _ T1 H) as (T2 & Q1 & Q2 & Q3). split; auto.
  split; [|split].
  - intros B HB. destruct (Q1 B HB) as [N1 E1]. assert (D : B <> A) by (intros ->; rewrite E1, R2 in HB; now elim HB). split; [intros [K|K]; auto|]. now rewrite E1, R1.
  - intros b Hb. destruct (Q2 b Hb) as [K1 K2]. destruct (R3 b K1) as [L1 L2]. split; auto. intros B [->|HB]; auto. intros (ar & k & O1 & O2).
    destruct (N.eq_dec B A) as [->|D]; [apply L2; exists ar, k; auto|]. apply (K2 B HB). exists ar, k. now rewrite R1.
  - intros B NB. cbn in NB. rewrite Q3 by tauto. apply R1. intros ->. tauto.
Qed.

(** ** Programs *)
(** The caller's buffers that calls leave in use. *)
Fixpoint buffers (fuel : nat) (es : list event) (Es : wenv) (s : st) : list N :=
  match es with
  | [] => []
  | e :: r =>
      match estep fuel e Es s with
      | Ok (xe, s') =>
          (match e with Do _ c => if keeps_buffer c then [snext s] else [] | Release _ => [] end) ++ buffers fuel r (snd xe) s'
      | Err _ => []
      end
  end.
Record accounted (U : list N) (Es : wenv) (s : st) : Prop := {
  ac_tidy : tidy s;
  ac_known : forall A, sallocs s A <> None -> exists g, In A (ea (Es g));
  ac_live : forall b, sbsize s b <> None -> sbsize init b <> None \/ In b U \/ exists A, owns s A b
}.
Lemma accounted_start : accounted [] wenv0 init.
Proof.
  constructor.
  - constructor; cbn; [auto|discriminate].
  - cbn. now intros A [].
  - auto.
Qed.
Lemma estep_accounted fuel e U Es s xe s' : accounted U Es s -> estep fuel e Es s = Ok (xe, s') ->
  accounted (U ++ match e with Do _ c => if keeps_buffer c then [snext s] else [] | Release _ => [] end) (snd xe) s'.
Proof.
  intros [T Kn L] H. destruct e as [g c|g]; cbn [estep] in H; unfold bind in H.
  - destruct (cstep fuel c (Es g) s) as [[[x E'] s1]|e] eqn:E; [|discriminate]. injection H as <- <-. cbn [snd].
    destruct (cstep_live _ _ _ _ _ _ T E) as (T1 & O & L1 & S1 & I1). cbn [snd] in *. constructor; auto.
    + intros A HA. destruct (S1 A HA) as [K|K].
      * destruct (Kn A K) as (g' & Hg). exists g'. unfold updn. destruct (Nat.eqb_spec g' g) as [->|D]; auto.
      * exists g. unfold updn. now rewrite Nat.eqb_refl.
    + intros b Hb. destruct (L1 b Hb) as [K|[(K1 & ->)|K]]; auto.
      * destruct (L b K) as [|[|(A & K1)]]; auto; [right; left; apply in_or_app; auto|]. right. right. exists A. auto.
      * right. left. rewrite K1. apply in_or_app. right. now left.
  - destruct (release_all (ea (Es g)) s) as [[u s1]|e] eqn:E; [|discriminate]. injection H as <- <-. cbn [snd]. rewrite app_nil_r.
    destruct (release_all_result _ _ _ _ T E) as (T1 & R1 & R2 & R3). constructor; auto.
    + intros A HA. destruct (R1 A HA) as [N1 E1]. rewrite E1 in HA. destruct (Kn A HA) as (g' & Hg). exists g'. unfold updn.
      destruct (Nat.eqb_spec g' g) as [->|D]; auto. now elim N1.
    + intros b Hb. destruct (R2 b Hb) as [K1 K2]. destruct (L b K1) as [|[|(A & K3)]]; auto. right. right. exists A.
      assert (NA : ~ In A (ea (Es g))) by (intro K; exact (K2 A K K3)). destruct K3 as (ar & k & O). exists ar, k. now rewrite R3.
Qed.
Lemma erun_accounted fuel : forall es U Es s x s', accounted U Es s -> erun fuel es Es s = Ok (x, s') -> accounted (U ++ buffers fuel es Es s) (snd x) s'.
Proof.
  induction es as [|e r IH]; intros U Es s x s' Ac H; cbn [erun] in H.
  - injection H as <- <-. cbn [buffers snd]. now rewrite app_nil_r.
  - unfold bind at 1 in H. destruct (estep fuel e Es s) as [[xe s1]|er] eqn:E; [|discriminate]. pose proof (estep_accounted _ _ _ _ _ _ _ Ac E) as Ac1.
    cbn [buffers]. rewrite E. unfold bind in H. destruct (erun fuel r (snd xe) s1) as [[re s2]|er] eqn:E2; [|discriminate]. injection H as <- <-. cbn [snd].
    rewrite app_assoc. exact (IH _ _ _ _ _ Ac1 E2).
Qed.
Theorem no_leak fuel es rs Es s b : erun fuel es wenv0 init = Ok ((rs, Es), s) -> sbsize s b <> None ->
  sbsize init b <> None \/ In b (buffers fuel es wenv0 init) \/ exists g A, In A (ea (Es g)) /\ owns s A b.
Proof.
  intros H Hb. pose proof (erun_accounted fuel es [] wenv0 init _ _ accounted_start H) as [_ Kn L]. cbn [app snd] in *.
  destruct (L b Hb) as [|[|(A & K)]]; auto. right. right. assert (NA : sallocs s A <> None) by (destruct K as (ar & k & K & _); congruence).
  destruct (Kn A NA) as (g & Hg). eauto.
Qed.

(** Groups that made no call since their release have no allocators. *)
Lemma erun_app fuel : forall es1 es2 Es s x s', erun fuel (es1 ++ es2) Es s = Ok (x, s') ->
  exists rs1 Es1 s1 rs2, erun fuel es1 Es s = Ok ((rs1, Es1), s1) /\ erun fuel es2 Es1 s1 = Ok ((rs2, snd x), s') /\ fst x = rs1 ++ rs2.
Proof.
  induction es1 as [|e r IH]; intros es2 Es s x s' H; cbn [app] in H.
  - exists [], Es, s, (fst x). cbn [erun]. split; auto. split; auto. rewrite H. now destruct x.
  - cbn [erun] in H |- *. unfold bind at 1 in H. unfold bind at 1. destruct (estep fuel e Es s) as [[xe s1]|er] eqn:E; [|discriminate]. unfold bind in H.
    destruct (erun fuel (r ++ es2) (snd xe) s1) as [[re s2]|er] eqn:E2; [|discriminate]. injection H as <- <-.
    destruct (IH es2 _ _ _ _ E2) as (rs1 & Es1 & s3 & rs2 & K1 & K2 & K3). cbn [snd fst]. unfold bind. rewrite K1. eexists _, _, _, rs2.
    split; [reflexivity|]. cbn [snd fst]. split; [exact K2|]. now rewrite K3.
Qed.
Lemma erun_idle fuel g : forall es Es s x s', (forall c, ~ In (Do g c) es) -> erun fuel es Es s = Ok (x, s') -> ea (Es g) = [] -> ea (snd x g) = [].
Proof.
  induction es as [|e r IH]; intros Es s x s' N H E0; cbn [erun] in H; [injection H as <- <-; auto|].
  unfold bind at 1 in H. destruct (estep fuel e Es s) as [[xe s1]|er] eqn:E; [|discriminate]. unfold bind in H.
  destruct (erun fuel r (snd xe) s1) as [[re s2]|er] eqn:E2; [|discriminate]. injection H as <- <-. cbn [snd].
  apply (IH _ _ _ _ (fun c K => N c (or_intror K)) E2). destruct e as [g' c|g']; cbn [estep] in E; unfold bind in E.
  - destruct (cstep fuel c (Es g') s) as [[[y E'] s3]|]; [|discriminate]. injection E as <- <-. cbn [snd]. unfold updn.
    destruct (Nat.eqb_spec g g') as [->|D]; auto. elim (N c). now left.
  - destruct (release_all (ea (Es g')) s) as [[u s3]|]; [|discriminate]. injection E as <- <-. cbn [snd]. unfold updn. destruct (Nat.eqb g g'); auto.
Qed.
Lemma only_releases g gs c : ~ In (Do g c) (map Release gs).
Proof. intro K. apply in_map_iff in K as (g' & E & _). discriminate E. Qed.
Lemma erun_releases fuel g : forall gs Es s x s', In g gs -> erun fuel (map Release gs) Es s = Ok (x, s') -> ea (snd x g) = [].
Proof.
  intros gs Es s x s' Hin H. apply in_split in Hin as (l & r & ->). rewrite map_app in H. cbn [map] in H.
  destruct (erun_app _ _ _ _ _ _ _ H) as (rs1 & Es1 & s1 & rs2 & _ & K & _). cbn [erun] in K. unfold bind at 1 in K.
  destruct (estep fuel (Release g) Es1 s1) as [[xe s2]|er] eqn:E; [|discriminate]. unfold bind in K.
  destruct (erun fuel (map Release r) (snd xe) s2) as [[re s3]|er] eqn:E2; [|discriminate]. injection K as _ K _.
  replace (snd x) with (snd re) by congruence. apply (erun_idle fuel g _ _ _ _ _ (only_releases _ _) E2).
  cbn [estep] in E. unfold bind in E. destruct (release_all (ea (Es1 g)) s1) as [[u s4]|]; [|discriminate]. injection E as <- <-. cbn [snd]. unfold updn. now rewrite Nat.eqb_refl.
Qed.
Theorem all_freed fuel es gs rs Es s b : (forall g c, In (Do g c) es -> In g gs) ->
  erun fuel (es ++ map Release gs) wenv0 init = Ok ((rs, Es), s) -> sbsize s b <> None ->
  sbsize init b <> None \/ In b (buffers fuel es wenv0 init).
Proof.
  intros Hg H Hb. destruct (no_leak _ _ _ _ _ _ H Hb) as [|[K|(g & A & HA & _)]]; auto.
  - right. clear - H K. revert K. destruct (erun_app _ _ _ _ _ _ _ H) as (rs1 & Es1 & s1 & rs2 & E1 & E2 & _). clear H.
    assert (Q : forall es Es s rs1 Es1 s1, erun fuel es Es s = Ok ((rs1, Es1), s1) -> forall l, buffers fuel (es ++ l) Es s = buffers fuel es Es s ++ buffers fuel l Es1 s1).
    { clear. induction es as [|e r IH]; intros Es s rs1 Es1 s1 H l; cbn [erun] in H; [injection H as <- <- <-; reflexivity|].
      cbn [app buffers]. unfold bind at 1 in H. destruct (estep fuel e Es s) as [[xe s2]|]; [|discriminate]. unfold bind in H.
      destruct (erun fuel r (snd xe) s2) as [[[rs2 Es2] s3]|] eqn:E; [|discriminate]. injection H as _ <- <-. now rewrite (IH _ _ _ _ _ E l), app_assoc. }
    assert (Z : forall gs Es s, buffers fuel (map Release gs) Es s = []).
    { clear. induction gs as [|g r IH]; intros Es s; [reflexivity|]. cbn [map buffers app]. destruct (estep fuel (Release g) Es s) as [[xe s2]|]; auto. }
    rewrite (Q _ _ _ _ _ _ E1), Z, app_nil_r. auto.
  - exfalso. destruct (erun_app _ _ _ _ _ _ _ H) as (rs1 & Es1 & s1 & rs2 & E1 & E2 & _). cbn [snd] in E2.
    assert (E0 : ea (Es g) = []); [|rewrite E0 in HA; exact HA].
    destruct (in_dec Nat.eq_dec g gs) as [K|K]; [exact (erun_releases _ _ _ _ _ _ _ K E2)|].
    apply (erun_idle fuel g _ _ _ _ _ (only_releases _ _) E2).
    apply (erun_idle fuel g _ _ _ _ _ (fun c K' => K (Hg g c K')) E1). reflexivity.
Qed.
Theorem accounted_for fuel es rs Es s b : erun fuel es wenv0 init = Ok ((rs, Es), s) -> sbsize s b <> None ->
  sbsize init b <> None \/ In b (buffers fuel es wenv0 init) \/
  exists g A ar k, In A (ea (Es g)) /\ sallocs s A = Some ar /\ In k ar /\ ckBlk k = b.
Proof. intros H Hb. destruct (no_leak _ _ _ _ _ _ H Hb) as [|[|(g & A & HA & ar & k & K)]]; auto. right. right. exists g, A, ar, k. auto. Qed.

(** ** With the reference semantics *)
Lemma wrun_app jd : forall es1 es2 W rs1 W1 rs2 W2, wrun jd es1 W = Some (rs1, W1) -> wrun jd es2 W1 = Some (rs2, W2) -> wrun jd (es1 ++ es2) W = Some (rs1 ++ rs2, W2).
Proof.
  induction es1 as [|e r IH]; intros es2 W rs1 W1 rs2 W2 H1 H2; cbn [app wrun] in *; [injection H1 as <- <-; auto|].
  destruct (wstep jd e W) as [[x W3]|]; [|discriminate]. destruct (wrun jd r W3) as [[xs W4]|] eqn:E; [|discriminate]. injection H1 as <- <-.
  now rewrite (IH _ _ _ _ _ _ E H2).
Qed.
Lemma wrun_releases jd : forall gs W, exists rs W', wrun jd (map Release gs) W = Some (rs, W').
Proof.
  induction gs as [|g r IH]; intro W; cbn [map wrun wstep]; [eauto|]. match goal with |- context [wrun jd _ ?w] => destruct (IH w) as (rs & W' & ->) end. eauto.
Qed.
Theorem released jd es gs rs W : correct jd -> wrun jd es wstart = Some (rs, W) ->
  (forall g c, In (Do g c) es -> In g gs) ->
  exists f0, forall fuel, (f0 <= fuel)%nat ->
  exists rs' Es s, erun fuel (es ++ map Release gs) wenv0 init = Ok ((rs ++ rs', Es), s) /\
    forall b, sbsize s b <> None -> sbsize init b <> None \/ In b (buffers fuel es wenv0 init).
Proof.
  intros C H Hg. destruct (wrun_releases jd gs W) as (rs' & W' & H'). destruct (many jd _ _ _ C (wrun_app _ _ _ _ _ _ _ _ H H')) as (f0 & Hf).
  exists f0. intros fuel L. destruct (Hf fuel L) as (Es & s & E & _). exists rs', Es, s. split; auto. intros b Hb. exact (all_freed _ _ _ _ _ _ _ Hg E Hb).
Qed.
Definition lends_for_good (e : event) : bool := match e with Do _ c => keeps_buffer c | Release _ => false end.
Theorem buffers_length fuel es rs Es s : erun fuel es wenv0 init = Ok ((rs, Es), s) ->
  length (buffers fuel es wenv0 init) = length (filter lends_for_good es).
Proof.
  generalize wenv0 init. intros Es0 s0. revert Es0 s0 rs Es s. induction es as [|e r IH]; intros Es0 s0 rs Es s H; [reflexivity|].
  cbn [erun] in H. cbn [buffers filter]. unfold bind at 1 in H. destruct (estep fuel e Es0 s0) as [[xe s1]|]; [|discriminate]. unfold bind in H.
  destruct (erun fuel r (snd xe) s1) as [[[rs2 Es2] s2]|] eqn:E; [|discriminate]. specialize (IH _ _ _ _ _ E). rewrite app_length, IH.
  destruct e as [g c|g]; cbn [lends_for_good]; [destruct (keeps_buffer c)|]; reflexivity.
Qed.
Theorem nothing_left fuel es gs rs Es s b :
  (forall g c, In (Do g c) es -> In g gs /\ keeps_buffer c = false) ->
  erun fuel (es ++ map Release gs) wenv0 init = Ok ((rs, Es), s) -> sbsize s b <> None -> sbsize init b <> None.
Proof.
  intros Hg H Hb. destruct (all_freed _ _ _ _ _ _ _ (fun g c K => proj1 (Hg g c K)) H Hb) as [|K]; auto. exfalso.
  destruct (erun_app _ _ _ _ _ _ _ H) as (rs1 & Es1 & s1 & rs2 & E1 & _ & _). pose proof (buffers_length _ _ _ _ _ E1) as L.
  assert (Z : filter lends_for_good es = []).
  { clear - Hg. induction es as [|e r IH]; [reflexivity|]. cbn [filter]. rewrite IH by (intros; apply Hg; now right).
    destruct e as [g c|g]; cbn [lends_for_good]; auto. now rewrite (proj2 (Hg g c (or_introl eq_refl))). }
  rewrite Z in L. destruct (buffers fuel es wenv0 init); [exact K|discriminate L].
Qed.
