(** The counters of zj_MEMORY_MODE 2: what they say about the memory in use. *)
From Coq Require Import Sorting.Permutation.
From Verif Require Import Base Spec Lex Alloc AllocProofs Mem MemProofs Api Double Vocab Scene Dom CacheProofs Hist HistRun HistStep HistCache HistAll HistJudge HistMany HistWorld Leak.

Definition has (s : st) (A b : N) : Prop := exists ar, sallocs s A = Some ar /\ In b (map ckBlk ar).
Definition size_of (s : st) (b : N) : N := match sbsize s b with Some n => n | None => 0 end.
Definition sizes (s : st) (l : list N) : N := fold_right (fun b n => size_of s b + n) 0 l.
(** [l]: the blocks of the library; [U]: blocks of others; [F]: bytes given back. *)
Record counted (U : list N) (F : N) (l : list N) (s : st) : Prop := {
  co_tidy : tidy s;
  co_nodup : NoDup l;
  co_in : forall b, In b l <-> exists A, has s A b;
  co_next : forall b, In b l -> b < snext s;
  co_live : forall b, In b l -> sbsize s b <> None;
  co_arena : forall A ar, sallocs s A = Some ar -> NoDup (map ckBlk ar);
  co_one : forall A B b, has s A b -> has s B b -> A = B;
  co_other : forall b, In b U -> b < snext s /\ ~ In b l;
  co_free : cFree (scnt s) < two32;
  co_new : cNew (scnt s) = u32 (cFree (scnt s) + lenN l);
  co_size : cSize (scnt s) = u32 (F + sizes s l)
}.
Definition after (s s' : st) (l l' : list N) : Prop := snext s <= snext s' /\ forall b, In b l' -> In b l \/ snext s <= b.
Definition keepsK {X} (m : M X) : Prop := forall U F l s x s', counted U F l s -> m s = Ok (x, s') -> exists l', counted U F l' s' /\ after s s' l l'.

Lemma sizes_ext s s' l : (forall b, In b l -> sbsize s' b = sbsize s b) -> sizes s' l = sizes s l.
Proof.
  induction l as [|b l IH]; intro H; [reflexivity|]. cbn [sizes fold_right]. fold (sizes s l) (sizes s' l). rewrite IH by (intros; apply H; now right).
  unfold size_of. now rewrite H by now left.
Qed.
Lemma counted_same U F l s s' : counted U F l s -> sallocs s' = sallocs s -> scnt s' = scnt s -> snext s <= snext s' -> (forall b, In b l -> sbsize s' b = sbsize s b) -> tidy s' ->
  counted U F l s'.
Proof.
  intros [T ND I Nx L Ar One Ot Fr Nw Sz] Ea Ec En Es T'. assert (Hh : forall A b, has s' A b <-> has s A b) by (intros A b; unfold has; now rewrite Ea).
  constructor; auto.
  - intro b. rewrite I. split; intros (A & H); exists A; now apply Hh.
  - intros b Hb. specialize (Nx b Hb). lia.
  - intros b Hb. rewrite Es; auto.
  - intros A ar. rewrite Ea. apply Ar.
  - intros A B b H1 H2. apply Hh in H1, H2. eauto.
  - intros b Hb. destruct (Ot b Hb). split; auto. lia.
  - now rewrite Ec.
  - now rewrite Ec.
  - rewrite Ec, Sz. f_equal. f_equal. symmetry. now apply sizes_ext.
Qed.
Lemma kk_same X (m : M X) : (forall s x s', m s = Ok (x, s') -> sallocs s' = sallocs s /\ sbsize s' = sbsize s /\ snext s' = snext s /\ scnt s' = scnt s) -> keepsK m.
Proof.
  intros H U F l s x s' C E. destruct (H s x s' E) as (E1 & E2 & E3 & E4). exists l. split; [|split; [rewrite E3; lia|auto]].
  apply (counted_same _ _ _ s); auto; [rewrite E3; lia|now rewrite E2|]. destruct (co_tidy _ _ _ _ C) as [T1 T2]. constructor; rewrite E1; rewrite ?E3; auto.
Qed.
Lemma kk_ret X (x : X) : keepsK (ret x). Proof. apply kk_same. intros s y s' [= <- <-]. auto. Qed.
Lemma kk_fail X e : keepsK (@fail X e). Proof. intros U F l s y s' _ H. discriminate. Qed.
Lemma kk_lift X (r : res X) : keepsK (lift r).
Proof. apply kk_same. intros s y s' H. unfold lift in H. destruct r; [|discriminate]. now injection H as <- <-. Qed.
Lemma kk_get X (f : st -> option X) e : keepsK (get f e).
Proof. apply kk_same. intros s y s' H. unfold get in H. destruct (f s); [|discriminate]. now injection H as <- <-. Qed.
Lemma after_trans s s1 s2 l l1 l2 : after s s1 l l1 -> after s1 s2 l1 l2 -> after s s2 l l2.
Proof. intros [L I] [L1 I1]. split; [lia|]. intros b Hb. destruct (I1 b Hb) as [K|K]; [destruct (I b K); auto|right; lia]. Qed.
Lemma kk_bind X Y (m : M X) (f : X -> M Y) : keepsK m -> (forall x, keepsK (f x)) -> keepsK (bind m f).
Proof.
  intros H K U F l s y s' C E. unfold bind in E. destruct (m s) as [[x s1]|e] eqn:E1; [|discriminate].
  destruct (H U F l s x s1 C E1) as (l1 & C1 & A1). destruct (K x U F l1 s1 y s' C1 E) as (l2 & C2 & A2). exists l2. split; auto. exact (after_trans _ _ _ _ _ _ A1 A2).
Qed.
Lemma lenN_cons T (x : T) l : lenN (x :: l) = lenN l + 1.
Proof. unfold lenN. cbn [length]. lia. Qed.
Lemma u32_add a b : u32 (u32 a + b) = u32 (a + b).
Proof. unfold u32. now rewrite N.add_mod_idemp_l. Qed.
Lemma u32_lt a : u32 a < two32.
Proof. unfold u32. now apply N.mod_lt. Qed.
(** One more block. *)
Lemma counted_more U F l s s' A ar n : counted U F l s -> tidy s' -> sallocs s' A = Some ar -> (forall B, B <> A -> sallocs s' B = sallocs s B) ->
  (forall b, In b (map ckBlk ar) <-> b = snext s \/ has s A b) -> NoDup (map ckBlk ar) -> snext s' = snext s + 1 ->
  sbsize s' = updN (sbsize s) (snext s) (Some n) -> scnt s' = count_new n (scnt s) ->
  counted U F (snext s :: l) s'.
Proof.
  intros [T ND I Nx L Ar One Ot Fr Nw Sz] T' Ea Eo Hin ND' En Es Ec.
  assert (Hh : forall B b, has s' B b <-> (B = A /\ b = snext s) \/ has s B b).
  { intros B b. destruct (N.eq_dec B A) as [->|D].
    - unfold has at 1. rewrite Ea. split; [intros (ar' & [= <-] & K); apply Hin in K as [K|K]; auto|]. intro K. exists ar. split; auto. apply Hin. tauto.
    - unfold has. rewrite Eo by auto. split; [auto|intros [[]|K]; auto; contradiction]. }
  assert (Nl : forall b, In b l -> b <> snext s) by (intros b Hb ->; specialize (Nx _ Hb); lia).
  assert (Sz' : sizes s' l = sizes s l) by (apply sizes_ext; intros b Hb; rewrite Es; now rewrite updN_neq by auto).
  constructor; auto.
  - constructor; auto. intro K. now apply (Nl _ K).
  - intro b. cbn [In]. rewrite I. split.
    + intros [<-|(B & H)]; [exists A|exists B]; apply Hh; auto.
    + intros (B & H). apply Hh in H as [[_ ->]|H]; eauto.
  - intros b [<-|Hb]; [lia|]. specialize (Nx b Hb). lia.
  - intros b [<-|Hb]; rewrite Es; [rewrite updN_eq; discriminate|]. rewrite updN_neq by auto. auto.
  - intros B ar' HB. destruct (N.eq_dec B A) as [->|D]; [congruence|]. rewrite Eo in HB by auto. eauto.
  - intros B C b H1 H2. apply Hh in H1, H2. assert (Nh : forall D, ~ has s D (snext s)) by (intros D HD; apply (Nl (snext s)); auto; apply I; eauto).
    destruct H1 as [[-> ->]|H1], H2 as [[-> E]|H2]; subst; auto; [now elim (Nh _ H2)|now elim (Nh _ H1)|eauto].
  - intros b Hb. destruct (Ot b Hb) as [K1 K2]. split; [lia|]. intros [<-|K]; [lia|auto].
  - rewrite Ec. auto.
  - rewrite Ec. cbn [count_new cNew cFree]. rewrite Nw, lenN_cons, u32_add. f_equal. lia.
  - rewrite Ec. cbn [count_new cSize sizes fold_right]. fold (sizes s' l). rewrite Sz', Sz, u32_add. unfold size_of. rewrite Es, updN_eq. f_equal. lia.
Qed.
Lemma kk_alloc A n : keepsK (zj_allocatorAlloc A n).
Proof.
  intros U F l s x s' C H. pose proof (ko_alloc A n s x s' (co_tidy _ _ _ _ C) H) as G. unfold zj_allocatorAlloc in H. destruct (sallocs s A) as [ar|] eqn:EA; [|discriminate].
  destruct (arena_alloc (snext s) ar (u32 n)) as [o|e] eqn:Eo; [|discriminate].
  destruct (match onew o with Some m => updN (sbsize s) (snext s) (Some m) | None => sbsize s end (fst (oaddr o))) as [tot|]; [|discriminate].
  destruct (tot <? _); [discriminate|]. injection H as <- E. pose proof (gr_tidy _ _ G) as T'. clear G.
  assert (Ha : forall b, has s A b <-> In b (map ckBlk ar)) by (intro b; unfold has; rewrite EA; split; [intros (? & [= <-] & K); auto|eauto]).
  unfold arena_alloc in Eo. destruct ar as [|cur rest]; [discriminate|]. destruct (_ <? _) in Eo.
  - destruct (grow _ _ _) as [z|]; [|discriminate]. injection Eo as <-. cbn [onew oarena] in E. exists (snext s :: l). split.
    + eapply (counted_more _ _ _ s s' A); eauto; rewrite <- E; cbn [sallocs sbsize snext scnt]; auto.
      * apply updN_eq.
      * intros B D. now apply updN_neq.
      * intro b. rewrite Ha. cbn [map ckBlk In]. intuition congruence.
      * cbn [map ckBlk]. constructor; [|exact (co_arena _ _ _ _ C A _ EA)]. intro K.
        assert (In (snext s) l) as K' by (apply (co_in _ _ _ _ C); exists A; now apply Ha). apply (co_next _ _ _ _ C) in K'. lia.
    + rewrite <- E. split; cbn [snext]; [lia|]. intros b [<-|K]; auto. right. lia.
  - injection Eo as <-. cbn [onew oarena] in E. exists l. rewrite <- E. split; [|split; cbn [snext]; [lia|auto]].
    destruct C as [T ND I Nx L Ar One Ot Fr Nw Sz].
    assert (Hh : forall B b, has s' B b <-> has s B b).
    { intros B b. rewrite <- E. unfold has. cbn [sallocs]. destruct (N.eq_dec B A) as [->|D]; [|now rewrite updN_neq]. rewrite updN_eq, EA.
      split; intros (? & [= <-] & K); eexists; (split; [reflexivity|exact K]). }
    rewrite E in *. constructor; auto.
    + intro b. rewrite I. split; intros (B & K); exists B; now apply Hh.
    + rewrite <- E. auto.
    + rewrite <- E. auto.
    + intros B ar' HB. rewrite <- E in HB. cbn [sallocs] in HB. destruct (N.eq_dec B A) as [->|D]; [|rewrite updN_neq in HB by auto; eauto].
      rewrite updN_eq in HB. injection HB as <-. exact (Ar A _ EA).
    + intros B B' b H1 H2. apply Hh in H1, H2. eauto.
    + rewrite <- E. auto.
    + rewrite <- E. auto.
    + rewrite <- E. auto.
    + rewrite <- E. auto.
Qed.
Lemma kk_store a n b : keepsK (store a n b).
Proof. apply kk_same. intros s x s' H. unfold store in H. destruct (_ <? _); [discriminate|]. now injection H as <- <-. Qed.
Lemma kk_load a n : keepsK (load a n).
Proof. apply kk_get. Qed.
Lemma kk_putNode a n : keepsK (putNode a n).
Proof. apply kk_same. intros s x s' H. now injection H as <- <-. Qed.
Lemma kk_putVal a n : keepsK (putVal a n).
Proof. apply kk_same. intros s x s' H. now injection H as <- <-. Qed.
Lemma kk_putZ a n : keepsK (putZ a n).
Proof. apply kk_same. intros s x s' H. now injection H as <- <-. Qed.
Create HintDb keepk.
#[local] Hint Resolve kk_alloc kk_store kk_load kk_putNode kk_putVal kk_putZ : keepk.
Ltac kstep :=
  match goal with
  | |- keepsK (ret _) => apply kk_ret
  | |- keepsK (fail _) => apply kk_fail
  | |- keepsK (lift _) => apply kk_lift
  | |- keepsK (get _ _) => apply kk_get
  | |- keepsK (bind _ _) => apply kk_bind; [|intro]
  | |- keepsK (match ?x with _ => _ end) => destruct x
  | |- keepsK (fun _ => _) => apply kk_same; let H := fresh in intros ? ? ? H; cbv beta in H; first [injection H as <- <-; auto]
  | H : _ |- _ => exact H || apply H
  | |- _ => solve [auto with keepk nocore]
  | |- keepsK ?m => let h := heads m in unfold h; cbv beta zeta
  end.
Ltac counts := cbv zeta; repeat kstep.
Lemma kk_parse_loop zn A p tot root : forall fuel m n rest, keepsK (parse_loop zn fuel A p tot root m n rest).
Proof. induction fuel as [|f IH]; intros; cbn [parse_loop]; counts. Qed.
Lemma kk_stringify_loop root str : forall fuel m n, keepsK (stringify_loop fuel root str m n).
Proof. induction fuel as [|f IH]; intros; cbn [stringify_loop]; counts. Qed.
Lemma kk_find_node test : (forall n, keepsK (test n)) -> forall fuel w, keepsK (find_node fuel test w).
Proof. intro T. induction fuel as [|f IH]; intros; cbn [find_node]; counts. Qed.
Lemma kk_nth_node idx : forall fuel i w, keepsK (nth_node fuel i idx w).
Proof. induction fuel as [|f IH]; intros; cbn [nth_node]; counts. Qed.
Lemma kk_copy_loop A root : forall fuel m n w, keepsK (copy_loop fuel A root m n w).
Proof. induction fuel as [|f IH]; intros; cbn [copy_loop]; counts. Qed.
Lemma kk_adopt p : forall fuel w, keepsK (adopt fuel p w).
Proof. induction fuel as [|f IH]; intros; cbn [adopt]; counts. Qed.
#[local] Hint Resolve kk_parse_loop kk_stringify_loop kk_nth_node kk_copy_loop kk_adopt : keepk.

(** A buffer of the caller is not counted. *)
Lemma buf_counted U F l s t p s1 : counted U F l s -> user_buf t s = Ok (p, s1) -> fst p = snext s /\ counted (snext s :: U) F l s1 /\ after s s1 l l.
Proof.
  intros C H. unfold user_buf in H. destruct (_ <=? _); [discriminate|]. injection H as <- <-. cbn [fst]. split; auto. split; [|split; cbn [snext]; [lia|auto]].
  assert (Nl : forall b, In b l -> b <> snext s) by (intros b Hb ->; pose proof (co_next _ _ _ _ C _ Hb); lia).
  match goal with |- counted _ _ _ ?x => assert (C' : counted U F l x) end.
  { apply (counted_same _ _ _ s); auto; cbn [snext sbsize]; [lia| |].
    - intros b Hb. rewrite updN_neq; auto.
    - destruct (co_tidy _ _ _ _ C) as [T1 T2]. constructor; cbn [sallocs snext]; auto. intros A L. apply T1. lia. }
  destruct C' as [T ND I Nx L Ar One Ot Fr Nw Sz]. constructor; auto. intros b [<-|Hb]; [|auto]. split; [cbn [snext]; lia|]. intro K. now apply (Nl _ K).
Qed.
Lemma keep_counted X t (m : addr -> M X) U F l s x s' : (forall p, keepsK (m p)) -> counted U F l s -> keep t m s = Ok (x, s') ->
  exists l', counted (snext s :: U) F l' s' /\ after s s' l l'.
Proof.
  intros K C H. unfold keep, bind in H. destruct (user_buf t s) as [[p s1]|e] eqn:E; [|discriminate]. destruct (buf_counted _ _ _ _ _ _ _ C E) as (Ep & C1 & A1).
  destruct (K p _ _ _ _ _ _ C1 H) as (l' & C2 & A2). exists l'. split; auto. exact (after_trans _ _ _ _ _ _ A1 A2).
Qed.
Lemma counted_fewer U U' F l s : counted U F l s -> incl U' U -> counted U' F l s.
Proof. intros [T ND I Nx L Ar One Ot Fr Nw Sz] H. constructor; auto. Qed.
Lemma lend_counted X t (m : addr -> M X) : (forall p, keepsK (m p)) -> keepsK (lend t m).
Proof.
  intros K U F l s x s' C H. unfold lend, bind in H. destruct (user_buf t s) as [[p s1]|e] eqn:E; [|discriminate]. destruct (buf_counted _ _ _ _ _ _ _ C E) as (Ep & C1 & A1).
  destruct (m p s1) as [[r s2]|e] eqn:E2; [|discriminate]. destruct (K p _ _ _ _ _ _ C1 E2) as (l' & C2 & A2). unfold user_free in H.
  destruct (sbsize s2 (fst p)); [|discriminate]. unfold ret in H. injection H as <- <-. exists l'.
  destruct (co_other _ _ _ _ C2 (snext s) (or_introl eq_refl)) as [_ Np].
  split; [|exact (after_trans _ _ _ _ _ _ A1 A2)]. apply (counted_fewer (snext s :: U)); [|intros b Hb; now right].
  apply (counted_same _ _ _ s2); auto; cbn [snext sbsize]; [lia| |].
  - intros b Hb. rewrite updN_neq; auto. intros ->. apply Np. now rewrite <- Ep.
  - destruct (co_tidy _ _ _ _ C2) as [T1 T2]. constructor; cbn [sallocs snext]; auto.
Qed.
Ltac kstep ::=
  match goal with
  | |- keepsK (ret _) => apply kk_ret
  | |- keepsK (fail _) => apply kk_fail
  | |- keepsK (lift _) => apply kk_lift
  | |- keepsK (get _ _) => apply kk_get
  | |- keepsK (bind _ _) => apply kk_bind; [|intro]
  | |- keepsK (lend _ _) => apply lend_counted; intro
  | |- keepsK (find_node _ _ _) => apply kk_find_node; intro
  | |- keepsK (match ?x with _ => _ end) => destruct x
  | |- keepsK (fun _ => _) => apply kk_same; let H := fresh in intros ? ? ? H; cbv beta in H; first [injection H as <- <-; auto]
  | H : _ |- _ => exact H || apply H
  | |- _ => solve [auto with keepk nocore]
  | |- keepsK ?m => let h := heads m in unfold h; cbv beta zeta
  end.
Lemma cstep_counts fuel c E : keeps_buffer c = false -> c <> CNewAllocator -> keepsK (cstep fuel c E).
Proof.
  intros H N. destruct c; cbn [cstep]; try (now elim N); try (counts; fail).
  - destruct k; try discriminate; counts.
  - cbn [keeps_buffer] in H. rewrite H. cbn [pass]. destruct k, num; counts.
  - cbn [keeps_buffer] in H. rewrite H. cbn [pass]. destruct k; counts.
Qed.
Lemma cstep_counted fuel c E U F l s xe s' : counted U F l s -> cstep fuel c E s = Ok (xe, s') ->
  exists l', counted ((if keeps_buffer c then [snext s] else []) ++ U) F l' s'.
Proof.
  intros C H. destruct (keeps_buffer c) eqn:Kb.
  - assert (K : exists X t (m : addr -> M X) x, (forall p, keepsK (m p)) /\ keep t m s = Ok (x, s')).
    { destruct c; try discriminate; cbn [cstep] in H; unfold bind at 1 in H; destruct (hof E h s) as [[v s1]|e] eqn:Eh; try discriminate; apply hof_pure in Eh as ->;
        apply with_env_inv in H as (x & H).
      - destruct k; try discriminate. eexists bool, _, _, x. split; [|exact H]. intro p; cbv beta; counts.
      - cbn [keeps_buffer] in Kb. rewrite Kb in H. cbn [pass] in H. eexists bool, _, _, x. split; [|exact H]. intro p; cbv beta. destruct k, num; try discriminate; counts.
      - cbn [keeps_buffer] in Kb. rewrite Kb in H. cbn [pass] in H. eexists bool, _, _, x. split; [|exact H]. intro p; cbv beta. destruct k; try discriminate; counts. }
    destruct K as (X & t & m & x & Km & K). destruct (keep_counted _ _ _ _ _ _ _ _ _ Km C K) as (l' & C' & _). eauto.
  - cbn [app]. assert (D : c = CNewAllocator \/ c <> CNewAllocator) by (destruct c; auto; right; discriminate). destruct D as [->|Nc].
    + pose proof (cstep_live fuel CNewAllocator E s xe s' (co_tidy _ _ _ _ C) H) as (T' & _).
      cbn [cstep] in H. unfold bind, zj_NewAllocator, ret in H. injection H as <- Es. exists (snext s :: l).
      assert (Ns : forall b, ~ has s (snext s) b). { intros b (ar & K & _). rewrite (ti_next _ (co_tidy _ _ _ _ C)) in K by lia. discriminate. }
      eapply (counted_more _ _ _ s s' (snext s)); eauto; rewrite <- Es; cbn [sallocs sbsize snext scnt]; auto.
      * apply updN_eq.
      * intros B D. now apply updN_neq.
      * intro b. cbn [map first_chunk ckBlk In]. pose proof (Ns b). intuition congruence.
      * cbn [map first_chunk ckBlk]. repeat constructor. intros [].
    + destruct (cstep_counts fuel c E Kb Nc _ _ _ _ _ _ C H) as (l' & C' & _). eauto.
Qed.

(** ** Releases *)
Lemma free_blks_counts l : forall s x s', free_blks l s = Ok (x, s') -> cFree (scnt s) < two32 ->
  sallocs s' = sallocs s /\ snext s' = snext s /\ (forall b, ~ In b l -> sbsize s' b = sbsize s b) /\
  cSize (scnt s') = cSize (scnt s) /\ cNew (scnt s') = cNew (scnt s) /\ cFree (scnt s') = u32 (cFree (scnt s) + lenN l).
Proof.
  induction l as [|a l IH]; intros s x s' H Lt; cbn [free_blks] in H.
  - injection H as <- <-. repeat split; auto. change (lenN (@nil N)) with 0. rewrite N.add_0_r. unfold u32. now rewrite N.mod_small.
  - unfold bind in H. destruct (free_blk a s) as [[u s1]|e] eqn:E; [|discriminate]. unfold free_blk in E. destruct (sbsize s a); [|discriminate]. injection E as <- <-.
    destruct (IH _ _ _ H (u32_lt _)) as (H1 & H2 & H3 & H4 & H5 & H6). cbn [sallocs snext sbsize scnt count_free cSize cNew cFree] in *. split; auto. split; auto. split.
    + intros b Hb. rewrite H3 by (intro; apply Hb; now right). apply updN_neq. intros ->. apply Hb. now left.
    + split; auto. split; auto. rewrite H6, lenN_cons, u32_add. f_equal. lia.
Qed.
Lemma sizes_perm s l l' : Permutation l l' -> sizes s l = sizes s l'.
Proof. induction 1; cbn [sizes fold_right]; fold (sizes s) in *; try reflexivity; unfold sizes in *; lia. Qed.
Lemma sizes_app s l l' : sizes s (l ++ l') = sizes s l + sizes s l'.
Proof. induction l as [|b l IH]; [reflexivity|]. cbn [app sizes fold_right]. fold (sizes s (l ++ l')) (sizes s l). rewrite IH. lia. Qed.
Lemma lenN_perm T (l l' : list T) : Permutation l l' -> lenN l = lenN l'.
Proof. intro P. unfold lenN. f_equal. now apply Permutation_length. Qed.
Lemma nodup_both (l l' : list N) : NoDup l -> NoDup l' -> (forall b, In b l -> ~ In b l') -> NoDup (l ++ l').
Proof.
  induction l as [|b l IH]; intros H1 H2 H; auto. inversion H1 as [|? ? H3 H4]; subst. cbn [app]. constructor.
  - rewrite in_app_iff. intros [K|K]; auto. apply (H b); auto. now left.
  - apply IH; auto. intros c Hc. apply H. now right.
Qed.
Lemma release_counted A U F l s x s' : counted U F l s -> zj_ReleaseAllocator A s = Ok (x, s') -> exists F' l', counted U F' l' s'.
Proof.
  intros C H. pose proof (release_result A s x s' (co_tidy _ _ _ _ C) H) as (T' & Ro & Rg & _).
  unfold zj_ReleaseAllocator, bind in H. unfold get in H. destruct (sallocs s A) as [ar|] eqn:EA; [|discriminate].
  pose proof C as [T ND I Nx L Ar One Ot Fr Nw Sz].
  destruct (ti_root _ T A ar EA) as (l0 & El). rewrite El, rev_app_distr in H. cbn [rev app] in H.
  destruct (free_blks (rev l0) s) as [[u s1]|e] eqn:E1; [|discriminate]. destruct (free_blks_counts _ _ _ _ E1 Fr) as (K1 & K2 & K3 & K4 & K5 & K6).
  destruct (free_blk A s1) as [[u' s2]|e] eqn:E2; [|discriminate]. unfold free_blk in E2. destruct (sbsize s1 A); [|discriminate]. injection E2 as _ <-.
  injection H as <- Es'. set (mine := map ckBlk ar) in *.
  set (l' := filter (fun b => negb (existsb (N.eqb b) mine)) l).
  assert (Il : forall b, In b l' <-> In b l /\ ~ In b mine).
  { intro b. unfold l'. rewrite filter_In. assert (Q : existsb (N.eqb b) mine = true <-> In b mine).
    { rewrite existsb_exists. split; [intros (y & Hy & Ey); apply N.eqb_eq in Ey as ->; auto|]. intro Hy. exists b. split; auto. apply N.eqb_refl. }
    destruct (existsb (N.eqb b) mine); cbn [negb]; intuition congruence. }
  assert (Hm : forall b, In b mine <-> has s A b) by (intro b; unfold has; rewrite EA; split; [eauto|intros (? & [= <-] & K); auto]).
  assert (P : Permutation l (mine ++ l')).
  { apply NoDup_Permutation; auto.
    - apply nodup_both; [exact (Ar A ar EA)|now apply NoDup_filter|]. intros b H1 H2. apply Il in H2. tauto.
    - intro b. rewrite in_app_iff, Il. split; [|intros [K|K]; [apply I; exists A; now apply Hm|tauto]].
      intro Hb. destruct (in_dec N.eq_dec b mine); auto. }
  assert (Hh : forall B b, has s' B b <-> B <> A /\ has s B b).
  { intros B b. unfold has. destruct (N.eq_dec B A) as [->|D]; [rewrite Rg; split; [intros (? & K & _); discriminate|tauto]|]. rewrite Ro by auto. tauto. }
  assert (Sl : forall b, In b l' -> sbsize s' b = sbsize s b).
  { intros b Hb. apply Il in Hb as [_ Hb]. rewrite El in Hb. rewrite in_app_iff in Hb. rewrite <- Es'. cbn [sbsize].
    rewrite updN_neq by (intros ->; apply Hb; right; now left). apply K3. rewrite <- in_rev. tauto. }
  assert (Lm : lenN mine = lenN l0 + 1). { rewrite El. unfold lenN. rewrite app_length. cbn [length]. lia. }
  assert (Lr : lenN (rev l0) = lenN l0) by (unfold lenN; now rewrite rev_length).
  exists (F + sizes s mine), l'. constructor; auto.
  - now apply NoDup_filter.
  - intro b. rewrite Il, Hm, I. split.
    + intros ((B & H1) & H2). exists B. apply Hh. split; auto. intros ->. auto.
    + intros (B & H1). apply Hh in H1 as [H1 H2]. split; [eauto|]. intro H3. apply H1. eauto.
  - intros b Hb. apply Il in Hb as [Hb _]. rewrite <- Es'. cbn [snext]. rewrite K2. auto.
  - intros b Hb. rewrite Sl by auto. apply Il in Hb as [Hb _]. auto.
  - intros B ar' HB. destruct (N.eq_dec B A) as [->|D]; [congruence|]. rewrite Ro in HB by auto. eauto.
  - intros B B' b H1 H2. apply Hh in H1 as [_ H1], H2 as [_ H2]. eauto.
  - intros b Hb. destruct (Ot b Hb) as [Q1 Q2]. rewrite <- Es'. cbn [snext]. rewrite K2. split; auto. intro K. apply Il in K. tauto.
  - rewrite <- Es'. cbn [scnt count_free cFree]. apply u32_lt.
  - rewrite <- Es'. cbn [scnt count_free cFree cNew]. rewrite K5, K6, Nw, Lr, u32_add, <- N.add_assoc, u32_add. rewrite (lenN_perm _ _ _ P).
    replace (lenN (mine ++ l')) with (lenN mine + lenN l') by (unfold lenN; rewrite app_length; lia). rewrite Lm. f_equal. lia.
  - rewrite (sizes_ext s s' l' Sl). rewrite <- Es'. cbn [scnt count_free cSize]. rewrite K4, Sz, (sizes_perm s _ _ P), sizes_app. f_equal. lia.
Qed.
Lemma release_all_counted : forall la U F l s x s', counted U F l s -> release_all la s = Ok (x, s') -> exists F' l', counted U F' l' s'.
Proof.
  induction la as [|A la IH]; intros U F l s x s' C H; cbn [release_all] in H; [injection H as <- <-; eauto|].
  unfold bind in H. destruct (zj_ReleaseAllocator A s) as [[u s1]|e] eqn:E; [|discriminate].
  destruct (release_counted _ _ _ _ _ _ _ C E) as (F1 & l1 & C1). exact (IH _ _ _ _ _ _ C1 H).
Qed.

(** ** Programs *)
Lemma counted_start : counted [0] 0 [] init.
Proof.
  assert (N0 : forall A b, ~ has init A b) by (now intros A b (ar & K & _)).
  constructor.
  - constructor; [reflexivity|discriminate].
  - constructor.
  - intro b. split; [intros []|]. intros (A & K). now elim (N0 A b).
  - intros b [].
  - intros b [].
  - discriminate.
  - intros A B b K. now elim (N0 A b).
  - intros b [<-|[]]. split; [reflexivity|tauto].
  - reflexivity.
  - reflexivity.
  - reflexivity.
Qed.
Definition releases (e : event) : bool := match e with Release _ => true | _ => false end.
Lemma estep_counted fuel e U F l Es s xe s' : counted U F l s -> estep fuel e Es s = Ok (xe, s') ->
  exists F' l', counted (match e with Do _ c => if keeps_buffer c then [snext s] else [] | Release _ => [] end ++ U) F' l' s' /\ (releases e = false -> F' = F).
Proof.
  intros C H. destruct e as [g c|g]; cbn [estep] in H; unfold bind in H.
  - destruct (cstep fuel c (Es g) s) as [[[x E'] s1]|e] eqn:E; [|discriminate]. injection H as <- <-.
    destruct (cstep_counted _ _ _ _ _ _ _ _ _ C E) as (l' & C'). exists F, l'. auto.
  - destruct (release_all (ea (Es g)) s) as [[u s1]|e] eqn:E; [|discriminate]. injection H as <- <-.
    destruct (release_all_counted _ _ _ _ _ _ _ C E) as (F' & l' & C'). exists F', l'. split; [exact C'|discriminate].
Qed.
Lemma erun_counted fuel : forall es U F l Es s x s', counted U F l s -> erun fuel es Es s = Ok (x, s') ->
  exists F' l' U', counted U' F' l' s' /\ (forall b, In b U' <-> In b U \/ In b (buffers fuel es Es s)) /\ (existsb releases es = false -> F' = F).
Proof.
  induction es as [|e r IH]; intros U F l Es s x s' C H; cbn [erun] in H.
  - injection H as <- <-. exists F, l, U. split; auto. split; auto. cbn [buffers In]. tauto.
  - unfold bind at 1 in H. destruct (estep fuel e Es s) as [[xe s1]|er] eqn:E; [|discriminate]. destruct (estep_counted _ _ _ _ _ _ _ _ _ C E) as (F1 & l1 & C1 & Q1).
    unfold bind in H. destruct (erun fuel r (snd xe) s1) as [[re s2]|er] eqn:E2; [|discriminate]. injection H as <- <-.
    destruct (IH _ _ _ _ _ _ _ C1 E2) as (F2 & l2 & U2 & C2 & I2 & Q2). exists F2, l2, U2. split; auto. split.
    + intro b. rewrite I2. cbn [buffers]. rewrite E, !in_app_iff. tauto.
    + cbn [existsb]. intro K. apply orb_false_elim in K as [K1 K2]. rewrite Q2, Q1; auto.
Qed.

(** The blocks in use that the library took. *)
Definition taken (fuel : nat) (es : list event) (s : st) (b : N) : Prop :=
  sbsize s b <> None /\ sbsize init b = None /\ ~ In b (buffers fuel es wenv0 init).
Lemma init_blocks b : sbsize init b <> None <-> b = 0.
Proof. cbn [init sbsize]. unfold updN. destruct (N.eqb_spec b 0); split; intro H; congruence. Qed.
Theorem count_in_use fuel es rs Es s : erun fuel es wenv0 init = Ok ((rs, Es), s) ->
  exists l, NoDup l /\ (forall b, In b l <-> taken fuel es s b) /\ cNew (scnt s) = u32 (cFree (scnt s) + lenN l) /\
    (existsb releases es = false -> cSize (scnt s) = u32 (sizes s l)).
Proof.
  intro H. destruct (erun_counted _ _ _ _ _ _ _ _ _ counted_start H) as (F & l & U & C & IU & QF). exists l. split; [apply C|]. split; [|split].
  - intro b. split.
    + intro Hb. assert (Nb : ~ In b U) by (intro K; now apply (co_other _ _ _ _ C b K)). split; [exact (co_live _ _ _ _ C b Hb)|]. rewrite IU in Nb. split.
      * destruct (sbsize init b) eqn:E; auto. exfalso. apply Nb. left. left. symmetry. apply init_blocks. congruence.
      * intro K. apply Nb. now right.
    + intros (K1 & K2 & K3). destruct (no_leak _ _ _ _ _ _ H K1) as [K|[K|(g & A & _ & ar & k & O1 & O2 & O3)]]; [congruence|contradiction|].
      apply (co_in _ _ _ _ C). exists A, ar. split; auto. rewrite <- O3. now apply in_map.
  - apply C.
  - intro K. rewrite (co_size _ _ _ _ C), (QF K). reflexivity.
Qed.
Lemma buffers_app fuel l : forall es Es s rs1 Es1 s1, erun fuel es Es s = Ok ((rs1, Es1), s1) -> buffers fuel (es ++ l) Es s = buffers fuel es Es s ++ buffers fuel l Es1 s1.
Proof.
  induction es as [|e r IH]; intros Es s rs1 Es1 s1 H; cbn [erun] in H; [injection H as <- <- <-; reflexivity|].
  cbn [app buffers]. unfold bind at 1 in H. destruct (estep fuel e Es s) as [[xe s2]|]; [|discriminate]. unfold bind in H.
  destruct (erun fuel r (snd xe) s2) as [[[rs2 Es2] s3]|] eqn:E; [|discriminate]. injection H as _ <- <-. now rewrite (IH _ _ _ _ _ E), app_assoc.
Qed.
Theorem equal_counts fuel es gs rs Es s : (forall g c, In (Do g c) es -> In g gs) ->
  erun fuel (es ++ map Release gs) wenv0 init = Ok ((rs, Es), s) -> cNew (scnt s) = cFree (scnt s).
Proof.
  intros Hg H. destruct (erun_counted _ _ _ _ _ _ _ _ _ counted_start H) as (F & l0 & U0 & C0 & _). destruct (count_in_use _ _ _ _ _ H) as (l & ND & I & E & _).
  assert (Z : l = []).
  { destruct l as [|b l]; auto. exfalso. destruct (proj1 (I b) (or_introl eq_refl)) as (K1 & K2 & K3). destruct (all_freed _ _ _ _ _ _ _ Hg H K1) as [K|K]; [congruence|].
    apply K3. destruct (erun_app _ _ _ _ _ _ _ H) as (rs1 & Es1 & s1 & rs2 & E1 & _ & _). rewrite (buffers_app _ _ _ _ _ _ _ _ E1). apply in_or_app. now left. }
  rewrite E, Z. change (lenN (@nil N)) with 0. rewrite N.add_0_r. unfold u32. apply N.mod_small. apply C0.
Qed.
Theorem detects fuel es rs Es s : erun fuel es wenv0 init = Ok ((rs, Es), s) ->
  (forall l, NoDup l -> (forall b, In b l -> taken fuel es s b) -> lenN l < two32) ->
  (cNew (scnt s) = cFree (scnt s) <-> forall b, ~ taken fuel es s b).
Proof.
  intros H Few. destruct (erun_counted _ _ _ _ _ _ _ _ _ counted_start H) as (F & l0 & U0 & C0 & _). destruct (count_in_use _ _ _ _ _ H) as (l & ND & I & E & _).
  pose proof (Few l ND (fun b => proj1 (I b))) as L. pose proof (co_free _ _ _ _ C0) as Lf. split.
  - intros Ec b Hb. apply I in Hb. assert (0 < lenN l) by (destruct l; [destruct Hb|rewrite lenN_cons; lia]).
    rewrite E in Ec. unfold u32 in Ec. destruct (N.lt_ge_cases (cFree (scnt s) + lenN l) two32) as [K|K].
    + rewrite N.mod_small in Ec by exact K. lia.
    + assert (Q : cFree (scnt s) + lenN l = two32 * 1 + (cFree (scnt s) + lenN l - two32)) by lia.
      apply N.mod_unique in Q; [|lia]. rewrite Ec in Q. lia.
  - intro Nb. assert (l = []) as -> by (destruct l as [|b l]; auto; exfalso; apply (Nb b), I; now left).
    rewrite E. change (lenN (@nil N)) with 0. rewrite N.add_0_r. unfold u32. now apply N.mod_small.
Qed.
Theorem count_releases jd es gs rs W : correct jd -> wrun jd es wstart = Some (rs, W) -> (forall g c, In (Do g c) es -> In g gs) ->
  exists f0, forall fuel, (f0 <= fuel)%nat ->
  exists rs' Es s, erun fuel (es ++ map Release gs) wenv0 init = Ok ((rs ++ rs', Es), s) /\ cNew (scnt s) = cFree (scnt s).
Proof.
  intros C H Hg. destruct (released _ _ _ _ _ C H Hg) as (f0 & Hf). exists f0. intros fuel L. destruct (Hf fuel L) as (rs' & Es & s & E & _).
  exists rs', Es, s. split; auto. exact (equal_counts _ _ _ _ _ _ Hg E).
Qed.
